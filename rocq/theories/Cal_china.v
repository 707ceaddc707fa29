(** China calendar (src/time/calendars/china.rs), generated from the Rust text by
    tools/calendars.py.  [||], [&&] are Rust's short-circuit operators; [oor], [oand]
    the same when an operand can panic.  Integers are unbounded: the only
    subtractions are of literals at most 81 from Easter-table entries, which are
    at least 82 (Cal_base.v, [easter_bounds]), so nothing wraps. *)
From Coq Require Import ZArith Bool List.
Import ListNotations.
From Verif Require Import Outcome Date Calendar Cal_base.
Open Scope Z_scope.

(** src/time/calendars/china.rs:12-172  China::is_business_day *)
Definition china_is_business_day (date : date) : outcome bool :=
  Ok (
  let d := day date in let m := month date in let y := year date in
  if ((is_weekend date)
     || (d =? 1) && (m =? 1)
     || (y =? 2005) && (d =? 3) && (m =? 1)
     || (y =? 2006) && ((d =? 2) || (d =? 3)) && (m =? 1)
     || (y =? 2007) && (d <=? 3) && (m =? 1)
     || (y =? 2007) && (d =? 31) && (m =? 12)
     || (y =? 2009) && (d =? 2) && (m =? 1)
     || (y =? 2011) && (d =? 3) && (m =? 1)
     || (y =? 2012) && ((d =? 2) || (d =? 3)) && (m =? 1)
     || (y =? 2013) && (d <=? 3) && (m =? 1)
     || (y =? 2014) && (d =? 1) && (m =? 1)
     || (y =? 2015) && (d <=? 3) && (m =? 1)
     || (y =? 2017) && (d =? 2) && (m =? 1)
     || (y =? 2018) && (d =? 1) && (m =? 1)
     || (y =? 2018) && (d =? 31) && (m =? 12)
     || (y =? 2019) && (d =? 1) && (m =? 1)
     || (y =? 2020) && (d =? 1) && (m =? 1)
     || (y =? 2021) && (d =? 1) && (m =? 1)
     || (y =? 2022) && (d =? 3) && (m =? 1)
     || (y =? 2023) && (d =? 2) && (m =? 1)
     || (y =? 2026) && ((d =? 1) || (d =? 2)) && (m =? 1)
     || (y =? 2004) && (19 <=? d) && (d <=? 28) && (m =? 1)
     || (y =? 2005) && (7 <=? d) && (d <=? 15) && (m =? 2)
     || (y =? 2006) && ((26 <=? d) && (m =? 1) || (d <=? 3) && (m =? 2))
     || (y =? 2007) && (17 <=? d) && (d <=? 25) && (m =? 2)
     || (y =? 2008) && (6 <=? d) && (d <=? 12) && (m =? 2)
     || (y =? 2009) && (26 <=? d) && (d <=? 30) && (m =? 1)
     || (y =? 2010) && (15 <=? d) && (d <=? 19) && (m =? 2)
     || (y =? 2011) && (2 <=? d) && (d <=? 8) && (m =? 2)
     || (y =? 2012) && (23 <=? d) && (d <=? 28) && (m =? 1)
     || (y =? 2013) && (11 <=? d) && (d <=? 15) && (m =? 2)
     || (y =? 2014) && (31 <=? d) && (m =? 1)
     || (y =? 2014) && (d <=? 6) && (m =? 2)
     || (y =? 2015) && (18 <=? d) && (d <=? 24) && (m =? 2)
     || (y =? 2016) && (8 <=? d) && (d <=? 12) && (m =? 2)
     || (y =? 2017) && ((27 <=? d) && (m =? 1) || (d <=? 2) && (m =? 2))
     || (y =? 2018) && (15 <=? d) && (d <=? 21) && (m =? 2)
     || (y =? 2019) && (4 <=? d) && (d <=? 8) && (m =? 2)
     || (y =? 2020) && ((d =? 24) || (27 <=? d) && (d <=? 31)) && (m =? 1)
     || (y =? 2021) && ((d =? 11)
     || (d =? 12)
     || (d =? 15)
     || (d =? 16)
     || (d =? 17)) && (m =? 2)
     || (y =? 2022) && ((d =? 31) && (m =? 1) || (d <=? 4) && (m =? 2))
     || (y =? 2023) && (23 <=? d) && (d <=? 27) && (m =? 1)
     || (y =? 2024) && ((d =? 9) || (12 <=? d) && (d <=? 16)) && (m =? 2)
     || (y =? 2025) && ((28 <=? d) && (d <=? 31) && (m =? 1) || (3 <=? d) && (d <=? 4) && (m =? 2))
     || (y =? 2026) && ((16 <=? d) && (d <=? 20) || (d =? 23)) && (m =? 2)
     || (y <=? 2008) && (d =? 4) && (m =? 4)
     || (y =? 2009) && (d =? 6) && (m =? 4)
     || (y =? 2010) && (d =? 5) && (m =? 4)
     || (y =? 2011) && (3 <=? d) && (d <=? 5) && (m =? 4)
     || (y =? 2012) && (2 <=? d) && (d <=? 4) && (m =? 4)
     || (y =? 2013) && (4 <=? d) && (d <=? 5) && (m =? 4)
     || (y =? 2014) && (d =? 7) && (m =? 4)
     || (y =? 2015) && (5 <=? d) && (d <=? 6) && (m =? 4)
     || (y =? 2016) && (d =? 4) && (m =? 4)
     || (y =? 2017) && (3 <=? d) && (d <=? 4) && (m =? 4)
     || (y =? 2018) && (5 <=? d) && (d <=? 6) && (m =? 4)
     || (y =? 2019) && (d =? 5) && (m =? 4)
     || (y =? 2020) && (d =? 6) && (m =? 4)
     || (y =? 2021) && (d =? 5) && (m =? 4)
     || (y =? 2022) && (4 <=? d) && (d <=? 5) && (m =? 4)
     || (y =? 2023) && (d =? 5) && (m =? 4)
     || (y =? 2024) && (4 <=? d) && (d <=? 5) && (m =? 4)
     || (y =? 2025) && (d =? 4) && (m =? 4)
     || (y =? 2026) && (d =? 6) && (m =? 4)
     || (y <=? 2007) && (1 <=? d) && (d <=? 7) && (m =? 5)
     || (y =? 2008) && (1 <=? d) && (d <=? 2) && (m =? 5)
     || (y =? 2009) && (d =? 1) && (m =? 5)
     || (y =? 2010) && (d =? 3) && (m =? 5)
     || (y =? 2011) && (d =? 2) && (m =? 5)
     || (y =? 2012) && ((d =? 30) && (m =? 4) || (d =? 1) && (m =? 5))
     || (y =? 2013) && ((29 <=? d) && (m =? 4) || (d =? 1) && (m =? 5))
     || (y =? 2014) && (1 <=? d) && (d <=? 3) && (m =? 5)
     || (y =? 2015) && (d =? 1) && (m =? 5)
     || (y =? 2016) && (1 <=? d) && (d <=? 2) && (m =? 5)
     || (y =? 2017) && (d =? 1) && (m =? 5)
     || (y =? 2018) && ((d =? 30) && (m =? 4) || (d =? 1) && (m =? 5))
     || (y =? 2019) && (1 <=? d) && (d <=? 3) && (m =? 5)
     || (y =? 2020) && ((d =? 1) || (d =? 4) || (d =? 5)) && (m =? 5)
     || (y =? 2021) && ((d =? 3) || (d =? 4) || (d =? 5)) && (m =? 5)
     || (y =? 2022) && (2 <=? d) && (d <=? 4) && (m =? 5)
     || (y =? 2023) && (1 <=? d) && (d <=? 3) && (m =? 5)
     || (y =? 2024) && (1 <=? d) && (d <=? 3) && (m =? 5)
     || (y =? 2025) && ((d =? 1) || (d =? 2) || (d =? 5)) && (m =? 5)
     || (y =? 2026) && ((d =? 1) || (d =? 4) || (d =? 5)) && (m =? 5)
     || (y <=? 2008) && (d =? 9) && (m =? 6)
     || (y =? 2009) && ((d =? 28) || (d =? 29)) && (m =? 5)
     || (y =? 2010) && (14 <=? d) && (d <=? 16) && (m =? 6)
     || (y =? 2011) && (4 <=? d) && (d <=? 6) && (m =? 6)
     || (y =? 2012) && (22 <=? d) && (d <=? 24) && (m =? 6)
     || (y =? 2013) && (10 <=? d) && (d <=? 12) && (m =? 6)
     || (y =? 2014) && (d =? 2) && (m =? 6)
     || (y =? 2015) && (d =? 22) && (m =? 6)
     || (y =? 2016) && (9 <=? d) && (d <=? 10) && (m =? 6)
     || (y =? 2017) && (29 <=? d) && (d <=? 30) && (m =? 5)
     || (y =? 2018) && (d =? 18) && (m =? 6)
     || (y =? 2019) && (d =? 7) && (m =? 6)
     || (y =? 2020) && (25 <=? d) && (d <=? 26) && (m =? 6)
     || (y =? 2021) && (d =? 14) && (m =? 6)
     || (y =? 2022) && (d =? 3) && (m =? 6)
     || (y =? 2023) && (22 <=? d) && (d <=? 23) && (m =? 6)
     || (y =? 2024) && (d =? 10) && (m =? 6)
     || (y =? 2025) && (d =? 2) && (m =? 6)
     || (y =? 2026) && (d =? 19) && (m =? 6)
     || (y <=? 2008) && (d =? 15) && (m =? 9)
     || (y =? 2010) && (22 <=? d) && (d <=? 24) && (m =? 9)
     || (y =? 2011) && (10 <=? d) && (d <=? 12) && (m =? 9)
     || (y =? 2012) && (d =? 30) && (m =? 9)
     || (y =? 2013) && (19 <=? d) && (d <=? 20) && (m =? 9)
     || (y =? 2014) && (d =? 8) && (m =? 9)
     || (y =? 2015) && (d =? 27) && (m =? 9)
     || (y =? 2016) && (15 <=? d) && (d <=? 16) && (m =? 9)
     || (y =? 2018) && (d =? 24) && (m =? 9)
     || (y =? 2019) && (d =? 13) && (m =? 9)
     || (y =? 2021) && ((d =? 20) || (d =? 21)) && (m =? 9)
     || (y =? 2022) && (d =? 12) && (m =? 9)
     || (y =? 2023) && (d =? 29) && (m =? 9)
     || (y =? 2024) && (16 <=? d) && (d <=? 17) && (m =? 9)
     || (y =? 2025) && ((1 <=? d) && (d <=? 3) || (6 <=? d) && (d <=? 8)) && (m =? 10)
     || (y =? 2026) && (d =? 25) && (m =? 9)
     || (y <=? 2007) && (1 <=? d) && (d <=? 7) && (m =? 10)
     || (y =? 2008) && ((29 <=? d) && (m =? 9) || (d <=? 3) && (m =? 10))
     || (y =? 2009) && (1 <=? d) && (d <=? 8) && (m =? 10)
     || (y =? 2010) && (1 <=? d) && (d <=? 7) && (m =? 10)
     || (y =? 2011) && (1 <=? d) && (d <=? 7) && (m =? 10)
     || (y =? 2012) && (1 <=? d) && (d <=? 7) && (m =? 10)
     || (y =? 2013) && (1 <=? d) && (d <=? 7) && (m =? 10)
     || (y =? 2014) && (1 <=? d) && (d <=? 7) && (m =? 10)
     || (y =? 2015) && (1 <=? d) && (d <=? 7) && (m =? 10)
     || (y =? 2016) && (3 <=? d) && (d <=? 7) && (m =? 10)
     || (y =? 2017) && (2 <=? d) && (d <=? 6) && (m =? 10)
     || (y =? 2018) && (1 <=? d) && (d <=? 5) && (m =? 10)
     || (y =? 2019) && (1 <=? d) && (d <=? 7) && (m =? 10)
     || (y =? 2020) && (1 <=? d) && (d <=? 2) && (m =? 10)
     || (y =? 2020) && (5 <=? d) && (d <=? 8) && (m =? 10)
     || (y =? 2021) && ((d =? 1)
     || (d =? 4)
     || (d =? 5)
     || (d =? 6)
     || (d =? 7)) && (m =? 10)
     || (y =? 2022) && (3 <=? d) && (d <=? 7) && (m =? 10)
     || (y =? 2023) && (2 <=? d) && (d <=? 6) && (m =? 10)
     || (y =? 2024) && ((1 <=? d) && (d <=? 4) || (d =? 7)) && (m =? 10)
     || (y =? 2026) && ((1 <=? d) && (d <=? 2) || (5 <=? d) && (d <=? 7)) && (m =? 10)
     || (y =? 2015) && (3 <=? d) && (d <=? 4) && (m =? 9))
  then false else
  true).
