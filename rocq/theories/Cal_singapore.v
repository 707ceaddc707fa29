(** Singapore calendar (src/time/calendars/singapore.rs), generated from the Rust text by
    tools/calendars.py.  [||], [&&] are Rust's short-circuit operators; [oor], [oand]
    the same when an operand can panic.  Integers are unbounded: the only
    subtractions are of literals at most 81 from Easter-table entries, which are
    at least 82 (Cal_base.v, [easter_bounds]), so nothing wraps. *)
From Coq Require Import ZArith Bool List.
Import ListNotations.
From Verif Require Import Outcome Date Calendar Cal_base.
Open Scope Z_scope.

(** src/time/calendars/singapore.rs:13-243  Singapore::is_business_day *)
Definition singapore_is_business_day (date : date) : outcome bool :=
  let d := day date in let w := weekday_of date in let m := month date in let y := year date in
     let dd := ordinal date in
  do em <- (easter_monday y);
  Ok (if ((is_weekend date)
     || ((d =? 1) || (d =? 2) && (weekday_eqb w Mon)) && (m =? 1)
     || (dd =? (em - 3))
     || (d =? 1) && (m =? 5)
     || ((d =? 9) || (d =? 10) && (weekday_eqb w Mon)) && (m =? 8)
     || (d =? 25) && (m =? 12)
     || ((d =? 22) || (d =? 23)) && (m =? 1) && (y =? 2004)
     || ((d =? 9) || (d =? 10)) && (m =? 2) && (y =? 2005)
     || ((d =? 30) || (d =? 31)) && (m =? 1) && (y =? 2006)
     || ((d =? 19) || (d =? 20)) && (m =? 2) && (y =? 2007)
     || ((d =? 7) || (d =? 8)) && (m =? 2) && (y =? 2008)
     || ((d =? 26) || (d =? 27)) && (m =? 1) && (y =? 2009)
     || ((d =? 15) || (d =? 16)) && (m =? 1) && (y =? 2010)
     || ((d =? 23) || (d =? 24)) && (m =? 1) && (y =? 2012)
     || ((d =? 11) || (d =? 12)) && (m =? 2) && (y =? 2013)
     || (d =? 31) && (m =? 1) && (y =? 2014)
     || (d =? 1) && (m =? 2) && (y =? 2014)
     || ((d =? 1) || (d =? 2)) && (m =? 2) && (y =? 2004)
     || (d =? 21) && (m =? 1) && (y =? 2005)
     || (d =? 10) && (m =? 1) && (y =? 2006)
     || (d =? 2) && (m =? 1) && (y =? 2007)
     || (d =? 20) && (m =? 12) && (y =? 2007)
     || (d =? 8) && (m =? 12) && (y =? 2008)
     || (d =? 27) && (m =? 11) && (y =? 2009)
     || (d =? 17) && (m =? 11) && (y =? 2010)
     || (d =? 26) && (m =? 10) && (y =? 2012)
     || (d =? 15) && (m =? 10) && (y =? 2013)
     || (d =? 6) && (m =? 10) && (y =? 2014)
     || (d =? 2) && (m =? 6) && (y =? 2004)
     || (d =? 22) && (m =? 5) && (y =? 2005)
     || (d =? 12) && (m =? 5) && (y =? 2006)
     || (d =? 31) && (m =? 5) && (y =? 2007)
     || (d =? 18) && (m =? 5) && (y =? 2008)
     || (d =? 9) && (m =? 5) && (y =? 2009)
     || (d =? 28) && (m =? 5) && (y =? 2010)
     || (d =? 5) && (m =? 5) && (y =? 2012)
     || (d =? 24) && (m =? 5) && (y =? 2013)
     || (d =? 13) && (m =? 5) && (y =? 2014)
     || (d =? 11) && (m =? 11) && (y =? 2004)
     || (d =? 8) && (m =? 11) && (y =? 2007)
     || (d =? 28) && (m =? 10) && (y =? 2008)
     || (d =? 16) && (m =? 11) && (y =? 2009)
     || (d =? 5) && (m =? 11) && (y =? 2010)
     || (d =? 13) && (m =? 11) && (y =? 2012)
     || (d =? 2) && (m =? 11) && (y =? 2013)
     || (d =? 23) && (m =? 10) && (y =? 2014)
     || (d =? 1) && (m =? 11) && (y =? 2005)
     || ((d =? 14) || (d =? 15)) && (m =? 11) && (y =? 2004)
     || (d =? 3) && (m =? 11) && (y =? 2005)
     || (d =? 24) && (m =? 10) && (y =? 2006)
     || (d =? 13) && (m =? 10) && (y =? 2007)
     || (d =? 1) && (m =? 10) && (y =? 2008)
     || (d =? 21) && (m =? 9) && (y =? 2009)
     || (d =? 10) && (m =? 9) && (y =? 2010)
     || (d =? 20) && (m =? 8) && (y =? 2012)
     || (d =? 8) && (m =? 8) && (y =? 2013)
     || (d =? 28) && (m =? 7) && (y =? 2014))
  then false else
  if ((y =? 2019) && (((d =? 5) || (d =? 6)) && (m =? 2)
     || (d =? 20) && (m =? 5)
     || (d =? 5) && (m =? 6)
     || (d =? 12) && (m =? 8)
     || (d =? 28) && (m =? 10)))
  then false else
  if ((y =? 2020) && ((d =? 27) && (m =? 1)
     || (d =? 7) && (m =? 5)
     || (d =? 25) && (m =? 5)
     || (d =? 31) && (m =? 7)
     || (d =? 14) && (m =? 11)))
  then false else
  if ((y =? 2021) && ((d =? 12) && (m =? 2)
     || (d =? 13) && (m =? 5)
     || (d =? 26) && (m =? 5)
     || (d =? 20) && (m =? 7)
     || (d =? 4) && (m =? 11)))
  then false else
  if ((y =? 2022) && (((d =? 1) || (d =? 2)) && (m =? 2)
     || (d =? 2) && (m =? 5)
     || (d =? 3) && (m =? 5)
     || (d =? 16) && (m =? 5)
     || (d =? 11) && (m =? 7)
     || (d =? 24) && (m =? 10)
     || (d =? 26) && (m =? 12)))
  then false else
  if ((y =? 2023) && (((d =? 23) || (d =? 24)) && (m =? 1)
     || (d =? 22) && (m =? 4)
     || (d =? 2) && (m =? 6)
     || (d =? 29) && (m =? 6)
     || (d =? 1) && (m =? 9)
     || (d =? 13) && (m =? 11)))
  then false else
  if ((y =? 2024) && ((d =? 12) && (m =? 2)
     || (d =? 10) && (m =? 4)
     || (d =? 22) && (m =? 5)
     || (d =? 17) && (m =? 6)
     || (d =? 31) && (m =? 10)))
  then false else
  if ((y =? 2025) && (((d =? 29) || (d =? 30)) && (m =? 1)
     || (d =? 31) && (m =? 3)
     || (d =? 12) && (m =? 5)
     || (d =? 20) && (m =? 10)))
  then false else
  if ((y =? 2026) && (((d =? 17) || (d =? 18)) && (m =? 2)
     || (d =? 20) && (m =? 3)
     || (d =? 27) && (m =? 5)
     || (d =? 1) && (m =? 6)
     || (d =? 9) && (m =? 11)))
  then false else
  true).
