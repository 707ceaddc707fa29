(** Thailand calendar (src/time/calendars/thailand.rs), generated from the Rust text by
    tools/calendars.py.  [||], [&&] are Rust's short-circuit operators; [oor], [oand]
    the same when an operand can panic.  Integers are unbounded: the only
    subtractions are of literals at most 81 from Easter-table entries, which are
    at least 82 (Cal_base.v, [easter_bounds]), so nothing wraps. *)
From Coq Require Import ZArith Bool List.
Import ListNotations.
From Verif Require Import Outcome Date Calendar Cal_base.
Open Scope Z_scope.

(** src/time/calendars/thailand.rs:13-389  Thailand::is_business_day *)
Definition thailand_is_business_day (date : date) : outcome bool :=
  let d := day date in let w := weekday_of date in let m := month date in let y := year date in
  do _em <- (easter_monday y);
  Ok (if ((is_weekend date)
     || ((d =? 1) || (d =? 3) && (weekday_eqb w Mon)) && (m =? 1)
     || ((d =? 6) || ((d =? 7) || (d =? 8)) && (weekday_eqb w Mon)) && (m =? 4)
     || ((d =? 13) || (d =? 14) || (d =? 15)) && (m =? 4) && (negb (y =? 2020))
     || (d =? 16) && ((weekday_eqb w Mon) || (weekday_eqb w Tue)) && (m =? 4) && (negb (y =? 2020))
     || ((d =? 1) || ((d =? 2) || (d =? 3)) && (weekday_eqb w Mon)) && (m =? 5)
     || ((d =? 4) || ((d =? 5) || (d =? 6)) && (weekday_eqb w Mon)) && (m =? 5) && (2019 <=? y)
     || ((d =? 3) || ((d =? 4) || (d =? 5)) && (weekday_eqb w Mon)) && (m =? 6) && (2019 <=? y)
     || ((d =? 28) || ((d =? 29) || (d =? 30)) && (weekday_eqb w Mon)) && (m =? 7) && (2017 <=? y)
     || ((d =? 12) || ((d =? 13) || (d =? 14)) && (weekday_eqb w Mon)) && (m =? 8)
     || ((d =? 13) || ((d =? 14) || (d =? 15)) && (weekday_eqb w Mon)) && (m =? 10) && (2017 <=? y)
     || ((d =? 23) || ((d =? 24) || (d =? 25)) && (weekday_eqb w Mon)) && (m =? 10)
     && (negb (y =? 2021))
     || ((d =? 5) || ((d =? 6) || (d =? 7)) && (weekday_eqb w Mon)) && (m =? 12)
     || ((d =? 10) || ((d =? 11) || (d =? 12)) && (weekday_eqb w Mon)) && (m =? 12)
     || (d =? 31) && (m =? 12)
     || (d =? 2) && (weekday_eqb w Mon) && (m =? 1) && (negb (y =? 2024)))
  then false else
  if ((y =? 2000) && ((d =? 21) && (m =? 2)
     || (d =? 5) && (m =? 5)
     || (d =? 17) && (m =? 5)
     || (d =? 17) && (m =? 7)
     || (d =? 23) && (m =? 10)))
  then false else
  if ((y =? 2001) && ((d =? 8) && (m =? 2)
     || (d =? 7) && (m =? 5)
     || (d =? 8) && (m =? 5)
     || (d =? 6) && (m =? 7)
     || (d =? 23) && (m =? 10)))
  then false else
  if ((y =? 2005) && ((d =? 23) && (m =? 2)
     || (d =? 5) && (m =? 5)
     || (d =? 23) && (m =? 5)
     || (d =? 1) && (m =? 7)
     || (d =? 22) && (m =? 7)
     || (d =? 24) && (m =? 10)))
  then false else
  if ((y =? 2006) && ((d =? 13) && (m =? 2)
     || (d =? 19) && (m =? 4)
     || (d =? 5) && (m =? 5)
     || (d =? 12) && (m =? 5)
     || (d =? 12) && (m =? 6)
     || (d =? 13) && (m =? 6)
     || (d =? 11) && (m =? 7)
     || (d =? 23) && (m =? 10)))
  then false else
  if ((y =? 2007) && ((d =? 5) && (m =? 3)
     || (d =? 7) && (m =? 5)
     || (d =? 31) && (m =? 5)
     || (d =? 30) && (m =? 7)
     || (d =? 23) && (m =? 10)
     || (d =? 24) && (m =? 12)))
  then false else
  if ((y =? 2008) && ((d =? 21) && (m =? 2)
     || (d =? 5) && (m =? 5)
     || (d =? 19) && (m =? 5)
     || (d =? 1) && (m =? 7)
     || (d =? 17) && (m =? 7)
     || (d =? 23) && (m =? 10)))
  then false else
  if ((y =? 2009) && ((d =? 2) && (m =? 1)
     || (d =? 9) && (m =? 2)
     || (d =? 5) && (m =? 5)
     || (d =? 8) && (m =? 5)
     || (d =? 1) && (m =? 7)
     || (d =? 6) && (m =? 7)
     || (d =? 7) && (m =? 7)
     || (d =? 23) && (m =? 10)))
  then false else
  if ((y =? 2010) && ((d =? 1) && (m =? 3)
     || (d =? 5) && (m =? 5)
     || (d =? 20) && (m =? 5)
     || (d =? 21) && (m =? 5)
     || (d =? 28) && (m =? 5)
     || (d =? 1) && (m =? 7)
     || (d =? 26) && (m =? 7)
     || (d =? 13) && (m =? 8)
     || (d =? 25) && (m =? 10)))
  then false else
  if ((y =? 2011) && ((d =? 18) && (m =? 2)
     || (d =? 5) && (m =? 5)
     || (d =? 16) && (m =? 5)
     || (d =? 17) && (m =? 5)
     || (d =? 1) && (m =? 7)
     || (d =? 15) && (m =? 7)
     || (d =? 24) && (m =? 10)))
  then false else
  if ((y =? 2012) && ((d =? 3) && (m =? 1)
     || (d =? 7) && (m =? 3)
     || (d =? 9) && (m =? 4)
     || (d =? 7) && (m =? 5)
     || (d =? 4) && (m =? 6)
     || (d =? 2) && (m =? 8)
     || (d =? 23) && (m =? 10)))
  then false else
  if ((y =? 2013) && ((d =? 25) && (m =? 2)
     || (d =? 6) && (m =? 5)
     || (d =? 24) && (m =? 5)
     || (d =? 1) && (m =? 7)
     || (d =? 22) && (m =? 7)
     || (d =? 23) && (m =? 10)
     || (d =? 30) && (m =? 12)))
  then false else
  if ((y =? 2014) && ((d =? 14) && (m =? 2)
     || (d =? 5) && (m =? 5)
     || (d =? 13) && (m =? 5)
     || (d =? 1) && (m =? 7)
     || (d =? 11) && (m =? 7)
     || (d =? 11) && (m =? 8)
     || (d =? 23) && (m =? 10)))
  then false else
  if ((y =? 2015) && ((d =? 2) && (m =? 1)
     || (d =? 4) && (m =? 3)
     || (d =? 4) && (m =? 5)
     || (d =? 5) && (m =? 5)
     || (d =? 1) && (m =? 6)
     || (d =? 1) && (m =? 7)
     || (d =? 30) && (m =? 7)
     || (d =? 23) && (m =? 10)))
  then false else
  if ((y =? 2016) && ((d =? 22) && (m =? 2)
     || (d =? 5) && (m =? 5)
     || (d =? 6) && (m =? 5)
     || (d =? 20) && (m =? 5)
     || (d =? 1) && (m =? 7)
     || (d =? 18) && (m =? 7)
     || (d =? 19) && (m =? 7)
     || (d =? 24) && (m =? 10)))
  then false else
  if ((y =? 2017) && ((d =? 13) && (m =? 2)
     || (d =? 10) && (m =? 5)
     || (d =? 10) && (m =? 7)
     || (d =? 23) && (m =? 10)
     || (d =? 26) && (m =? 10)))
  then false else
  if ((y =? 2018) && ((d =? 1) && (m =? 3)
     || (d =? 29) && (m =? 5)
     || (d =? 27) && (m =? 7)
     || (d =? 23) && (m =? 10)))
  then false else
  if ((y =? 2019) && ((d =? 19) && (m =? 2)
     || (d =? 6) && (m =? 5)
     || (d =? 20) && (m =? 5)
     || (d =? 16) && (m =? 7)))
  then false else
  if ((y =? 2020) && ((d =? 10) && (m =? 2)
     || (d =? 6) && (m =? 5)
     || (d =? 6) && (m =? 7)
     || (d =? 27) && (m =? 7)
     || (d =? 4) && (m =? 9)
     || (d =? 7) && (m =? 9)
     || (d =? 11) && (m =? 12)))
  then false else
  if ((y =? 2021) && (((m =? 7) || (m =? 5) || (m =? 2)) && ((d =? 26)
     || (m =? 2)) && ((d =? 26) || (d =? 12)) || (d =? 24) && (m =? 9) || (d =? 22) && (m =? 10)))
  then false else
  if ((y =? 2022) && (((m =? 5) || (m =? 2)) && (d =? 16)
     || (d =? 13) && (m =? 7)
     || (d =? 29) && (m =? 7)
     || (d =? 14) && (m =? 10)
     || (d =? 24) && (m =? 10)))
  then false else
  if ((y =? 2023) && ((d =? 6) && (m =? 3)
     || (d =? 5) && (m =? 5)
     || (d =? 5) && (m =? 6)
     || (d =? 1) && (m =? 8)
     || (d =? 23) && (m =? 10)
     || (d =? 29) && (m =? 12)))
  then false else
  if ((y =? 2024) && ((d =? 26) && (m =? 2)
     || (d =? 8) && (m =? 4)
     || (d =? 12) && (m =? 4)
     || (d =? 6) && (m =? 5)
     || (d =? 22) && (m =? 5)
     || (d =? 22) && (m =? 7)
     || (d =? 23) && (m =? 10)))
  then false else
  if ((y =? 2025) && ((d =? 12) && (m =? 2)
     || (d =? 7) && (m =? 4)
     || (d =? 5) && (m =? 5)
     || (d =? 12) && (m =? 5)
     || (d =? 10) && (m =? 7)
     || (d =? 23) && (m =? 10)))
  then false else
  true).
