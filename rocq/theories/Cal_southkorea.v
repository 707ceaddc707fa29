(** SouthKorea calendar (src/time/calendars/southkorea.rs), generated from the Rust text by
    tools/calendars.py.  [||], [&&] are Rust's short-circuit operators; [oor], [oand]
    the same when an operand can panic.  Integers are unbounded: the only
    subtractions are of literals at most 81 from Easter-table entries, which are
    at least 82 (Cal_base.v, [easter_bounds]), so nothing wraps. *)
From Coq Require Import ZArith Bool List.
Import ListNotations.
From Verif Require Import Outcome Date Calendar Cal_base.
Open Scope Z_scope.

(** src/time/calendars/southkorea.rs:13-228  SouthKorea::is_business_day *)
Definition southkorea_is_business_day (date : date) : outcome bool :=
  Ok (
  let d := day date in let w := weekday_of date in let m := month date in let y := year date in
  if ((is_weekend date)
     || (d =? 1) && (m =? 1)
     || (d =? 1) && (m =? 3)
     || (weekday_eqb w Mon) && ((d =? 2) || (d =? 3)) && (m =? 3) && (2021 <? y)
     || (d =? 5) && (m =? 4) && (y <=? 2005)
     || (d =? 1) && (m =? 5)
     || (d =? 5) && (m =? 5)
     || (weekday_eqb w Mon) && ((d =? 6) || (d =? 7)) && (m =? 5) && (2013 <? y)
     || (d =? 6) && (m =? 6)
     || (d =? 17) && (m =? 7) && (y <=? 2007)
     || (d =? 15) && (m =? 8)
     || (weekday_eqb w Mon) && ((d =? 16) || (d =? 17)) && (m =? 8) && (2020 <? y)
     || (d =? 3) && (m =? 10)
     || (weekday_eqb w Mon) && ((d =? 4) || (d =? 5)) && (m =? 10) && (2020 <? y)
     || (d =? 25) && (m =? 12)
     || (weekday_eqb w Mon) && ((d =? 26) || (d =? 27)) && (m =? 12) && (2022 <? y)
     || ((d =? 21) || (d =? 22) || (d =? 23)) && (m =? 1) && (y =? 2004)
     || ((d =? 8) || (d =? 9) || (d =? 10)) && (m =? 2) && (y =? 2005)
     || ((d =? 28) || (d =? 29) || (d =? 30)) && (m =? 1) && (y =? 2006)
     || (d =? 19) && (m =? 2) && (y =? 2007)
     || ((d =? 6) || (d =? 7) || (d =? 8)) && (m =? 2) && (y =? 2008)
     || ((d =? 25) || (d =? 26) || (d =? 27)) && (m =? 1) && (y =? 2009)
     || ((d =? 13) || (d =? 14) || (d =? 15)) && (m =? 2) && (y =? 2010)
     || ((d =? 2) || (d =? 3) || (d =? 4)) && (m =? 2) && (y =? 2011)
     || ((d =? 23) || (d =? 24)) && (m =? 1) && (y =? 2012)
     || (d =? 11) && (m =? 2) && (y =? 2013)
     || ((d =? 30) || (d =? 31)) && (m =? 1) && (y =? 2014)
     || ((d =? 18) || (d =? 19) || (d =? 20)) && (m =? 2) && (y =? 2015)
     || (7 <=? d) && (d <=? 10) && (m =? 2) && (y =? 2016)
     || (27 <=? d) && (d <=? 30) && (m =? 1) && (y =? 2017)
     || ((d =? 15) || (d =? 16) || (d =? 17)) && (m =? 2) && (y =? 2018)
     || ((d =? 4) || (d =? 5) || (d =? 6)) && (m =? 2) && (y =? 2019)
     || (24 <=? d) && (d <=? 27) && (m =? 1) && (y =? 2020)
     || ((d =? 11) || (d =? 12) || (d =? 13)) && (m =? 2) && (y =? 2021)
     || ((d =? 31) && (m =? 1) || ((d =? 1) || (d =? 2)) && (m =? 2)) && (y =? 2022)
     || ((d =? 23) || (d =? 24)) && (m =? 1) && (y =? 2023)
     || (9 <=? d) && (d <=? 12) && (m =? 2) && (y =? 2024)
     || ((d =? 28) || (d =? 29) || (d =? 30)) && (m =? 1) && (y =? 2025)
     || ((d =? 16) || (d =? 17) || (d =? 18)) && (m =? 2) && (y =? 2026)
     || ((d =? 8) || (d =? 9)) && (m =? 2) && (y =? 2027)
     || ((d =? 26) || (d =? 27) || (d =? 28)) && (m =? 1) && (y =? 2028)
     || ((d =? 12) || (d =? 13) || (d =? 14)) && (m =? 2) && (y =? 2029)
     || ((d =? 4) || (d =? 5)) && (m =? 2) && (y =? 2030)
     || ((d =? 22) || (d =? 23) || (d =? 24)) && (m =? 1) && (y =? 2031)
     || ((d =? 10) || (d =? 11) || (d =? 12)) && (m =? 2) && (y =? 2032)
     || ((d =? 31) && (m =? 1) || ((d =? 1) || (d =? 2)) && (m =? 2)) && (y =? 2033)
     || ((d =? 20) || (d =? 21)) && (m =? 2) && (y =? 2034)
     || ((d =? 7) || (d =? 8) || (d =? 9)) && (m =? 2) && (y =? 2035)
     || ((d =? 28) || (d =? 29) || (d =? 30)) && (m =? 1) && (y =? 2036)
     || ((d =? 16) || (d =? 17)) && (m =? 2) && (y =? 2037)
     || ((d =? 3) || (d =? 4) || (d =? 5)) && (m =? 2) && (y =? 2038)
     || ((d =? 24) || (d =? 25) || (d =? 26)) && (m =? 1) && (y =? 2039)
     || ((d =? 13) || (d =? 14)) && (m =? 2) && (y =? 2040)
     || ((d =? 31) && (m =? 1) || ((d =? 1) || (d =? 2)) && (m =? 2)) && (y =? 2041)
     || ((d =? 21) || (d =? 22) || (d =? 23)) && (m =? 1) && (y =? 2042)
     || ((d =? 9) || (d =? 10) || (d =? 11)) && (m =? 2) && (y =? 2043)
     || (((d =? 29) || (d =? 30) || (d =? 31)) && (m =? 1) || (d =? 1) && (m =? 2)) && (y =? 2044)
     || ((d =? 16) || (d =? 17) || (d =? 18)) && (m =? 2) && (y =? 2045)
     || ((d =? 5) || (d =? 6) || (d =? 7)) && (m =? 2) && (y =? 2046)
     || (25 <=? d) && (d <=? 28) && (m =? 1) && (y =? 2047)
     || ((d =? 13) || (d =? 14) || (d =? 15)) && (m =? 2) && (y =? 2048)
     || ((d =? 1) || (d =? 2) || (d =? 3)) && (m =? 2) && (y =? 2049)
     || ((d =? 24) || (d =? 25)) && (m =? 1) && (y =? 2050)
     || (d =? 15) && (m =? 4) && (y =? 2004)
     || (d =? 31) && (m =? 5) && (y =? 2006)
     || (d =? 19) && (m =? 12) && (y =? 2007)
     || (d =? 9) && (m =? 4) && (y =? 2008)
     || (d =? 2) && (m =? 6) && (y =? 2010)
     || (d =? 11) && (m =? 4) && (y =? 2012)
     || (d =? 19) && (m =? 12) && (y =? 2012)
     || (d =? 4) && (m =? 6) && (y =? 2014)
     || (d =? 13) && (m =? 4) && (y =? 2016)
     || (d =? 9) && (m =? 5) && (y =? 2017)
     || (d =? 13) && (m =? 6) && (y =? 2018)
     || (d =? 15) && (m =? 4) && (y =? 2020)
     || (d =? 9) && (m =? 3) && (y =? 2022)
     || (d =? 1) && (m =? 6) && (y =? 2022)
     || (d =? 10) && (m =? 4) && (y =? 2024)
     || (d =? 26) && (m =? 5) && (y =? 2004)
     || (d =? 15) && (m =? 5) && (y =? 2005)
     || (d =? 5) && (m =? 5) && (y =? 2006)
     || (d =? 24) && (m =? 5) && (y =? 2007)
     || (d =? 12) && (m =? 5) && (y =? 2008)
     || (d =? 2) && (m =? 5) && (y =? 2009)
     || (d =? 21) && (m =? 5) && (y =? 2010)
     || (d =? 10) && (m =? 5) && (y =? 2011)
     || (d =? 28) && (m =? 5) && (y =? 2012)
     || (d =? 17) && (m =? 5) && (y =? 2013)
     || (d =? 6) && (m =? 5) && (y =? 2014)
     || (d =? 25) && (m =? 5) && (y =? 2015)
     || (d =? 14) && (m =? 5) && (y =? 2016)
     || (d =? 3) && (m =? 5) && (y =? 2017)
     || (d =? 22) && (m =? 5) && (y =? 2018)
     || (d =? 12) && (m =? 5) && (y =? 2019)
     || (d =? 30) && (m =? 4) && (y =? 2020)
     || (d =? 19) && (m =? 5) && (y =? 2021)
     || (d =? 8) && (m =? 5) && (y =? 2022)
     || (d =? 29) && (m =? 5) && (y =? 2023)
     || (d =? 15) && (m =? 5) && (y =? 2024)
     || (d =? 6) && (m =? 5) && (y =? 2025)
     || (d =? 25) && (m =? 5) && (y =? 2026)
     || (d =? 13) && (m =? 5) && (y =? 2027)
     || (d =? 2) && (m =? 5) && (y =? 2028)
     || (d =? 21) && (m =? 5) && (y =? 2029)
     || (d =? 9) && (m =? 5) && (y =? 2030)
     || (d =? 28) && (m =? 5) && (y =? 2031)
     || (d =? 17) && (m =? 5) && (y =? 2032)
     || (d =? 6) && (m =? 5) && (y =? 2033)
     || (d =? 25) && (m =? 5) && (y =? 2034)
     || (d =? 15) && (m =? 5) && (y =? 2035)
     || (d =? 6) && (m =? 5) && (y =? 2036)
     || (d =? 22) && (m =? 5) && (y =? 2037)
     || (d =? 11) && (m =? 5) && (y =? 2038)
     || (d =? 2) && (m =? 5) && (y =? 2039)
     || (d =? 18) && (m =? 5) && (y =? 2040)
     || (d =? 7) && (m =? 5) && (y =? 2041)
     || (d =? 26) && (m =? 5) && (y =? 2042)
     || (d =? 18) && (m =? 5) && (y =? 2043)
     || (d =? 6) && (m =? 5) && (y =? 2044)
     || (d =? 24) && (m =? 5) && (y =? 2045)
     || (d =? 14) && (m =? 5) && (y =? 2046)
     || (d =? 2) && (m =? 5) && (y =? 2047)
     || (d =? 20) && (m =? 5) && (y =? 2048)
     || (d =? 10) && (m =? 5) && (y =? 2049)
     || (d =? 30) && (m =? 5) && (y =? 2050)
     || (d =? 14) && (m =? 8) && (y =? 2015)
     || (d =? 17) && (m =? 8) && (y =? 2020)
     || (d =? 2) && (m =? 10) && (y =? 2023)
     || (d =? 1) && (m =? 10) && (y =? 2024)
     || ((d =? 27) || (d =? 28) || (d =? 29)) && (m =? 9) && (y =? 2004)
     || ((d =? 17) || (d =? 18) || (d =? 19)) && (m =? 9) && (y =? 2005)
     || ((d =? 5) || (d =? 6) || (d =? 7)) && (m =? 10) && (y =? 2006)
     || ((d =? 24) || (d =? 25) || (d =? 26)) && (m =? 9) && (y =? 2007)
     || ((d =? 13) || (d =? 14) || (d =? 15)) && (m =? 9) && (y =? 2008)
     || ((d =? 2) || (d =? 3) || (d =? 4)) && (m =? 10) && (y =? 2009)
     || ((d =? 21) || (d =? 22) || (d =? 23)) && (m =? 9) && (y =? 2010)
     || ((d =? 12) || (d =? 13)) && (m =? 9) && (y =? 2011)
     || (d =? 1) && (m =? 10) && (y =? 2012)
     || ((d =? 18) || (d =? 19) || (d =? 20)) && (m =? 9) && (y =? 2013)
     || ((d =? 8) || (d =? 9) || (d =? 10)) && (m =? 9) && (y =? 2014)
     || ((d =? 28) || (d =? 29)) && (m =? 9) && (y =? 2015)
     || ((d =? 14) || (d =? 15) || (d =? 16)) && (m =? 9) && (y =? 2016)
     || (3 <=? d) && (d <=? 6) && (m =? 10) && (y =? 2017)
     || (23 <=? d) && (d <=? 26) && (m =? 9) && (y =? 2018)
     || ((d =? 12) || (d =? 13) || (d =? 14)) && (m =? 9) && (y =? 2019)
     || ((d =? 30) && (m =? 9) || ((d =? 1) || (d =? 2)) && (m =? 10)) && (y =? 2020)
     || ((d =? 20) || (d =? 21) || (d =? 22)) && (m =? 9) && (y =? 2021)
     || ((d =? 9) || (d =? 10) || (d =? 11)) && (m =? 9) && (y =? 2022)
     || (9 <=? d) && (d <=? 12) && (m =? 9) && (y =? 2022)
     || ((d =? 28) || (d =? 29) || (d =? 30)) && (m =? 9) && (y =? 2023)
     || ((d =? 16) || (d =? 17) || (d =? 18)) && (m =? 9) && (y =? 2024)
     || ((d =? 6) || (d =? 7) || (d =? 8)) && (m =? 10) && (y =? 2025)
     || ((d =? 24) || (d =? 25) || (d =? 26)) && (m =? 9) && (y =? 2026)
     || ((d =? 14) || (d =? 15) || (d =? 16)) && (m =? 9) && (y =? 2027)
     || (2 <=? d) && (d <=? 5) && (m =? 10) && (y =? 2028)
     || (21 <=? d) && (d <=? 24) && (m =? 9) && (y =? 2029)
     || ((d =? 11) || (d =? 12) || (d =? 13)) && (m =? 9) && (y =? 2030)
     || ((d =? 30) && (m =? 9) || ((d =? 1) || (d =? 2)) && (m =? 10)) && (y =? 2031)
     || ((d =? 20) || (d =? 21)) && (m =? 9) && (y =? 2032)
     || ((d =? 7) || (d =? 8) || (d =? 9)) && (m =? 9) && (y =? 2033)
     || ((d =? 26) || (d =? 27) || (d =? 28)) && (m =? 9) && (y =? 2034)
     || ((d =? 17) || (d =? 18)) && (m =? 9) && (y =? 2035)
     || (3 <=? d) && (d <=? 7) && (m =? 10) && (y =? 2036)
     || ((d =? 23) || (d =? 24) || (d =? 25)) && (m =? 9) && (y =? 2037)
     || ((d =? 13) || (d =? 14) || (d =? 15)) && (m =? 9) && (y =? 2038)
     || ((d =? 3) || (d =? 4) || (d =? 5)) && (m =? 10) && (y =? 2039)
     || ((d =? 20) || (d =? 21) || (d =? 22)) && (m =? 9) && (y =? 2040)
     || ((d =? 9) || (d =? 10) || (d =? 11)) && (m =? 9) && (y =? 2041)
     || ((d =? 29) || (d =? 30)) && (m =? 9) && (y =? 2042)
     || ((d =? 16) || (d =? 17) || (d =? 18)) && (m =? 9) && (y =? 2043)
     || ((d =? 4) || (d =? 5) || (d =? 6)) && (m =? 10) && (y =? 2044)
     || ((d =? 25) || (d =? 26) || (d =? 27)) && (m =? 9) && (y =? 2045)
     || (14 <=? d) && (d <=? 17) && (m =? 9) && (y =? 2046)
     || ((d =? 4) || (d =? 5) || (d =? 7)) && (m =? 10) && (y =? 2047)
     || ((d =? 21) || (d =? 22) || (d =? 23)) && (m =? 9) && (y =? 2048)
     || (10 <=? d) && (d <=? 13) && (m =? 9) && (y =? 2049)
     || (((d =? 29) || (d =? 30)) && (m =? 9) || (d =? 1) && (m =? 10)) && (y =? 2050)
     || (d =? 9) && (m =? 10) && (2013 <=? y)
     || (weekday_eqb w Mon) && ((d =? 10) || (d =? 11)) && (m =? 10) && (2020 <? y))
  then false else
  true).
