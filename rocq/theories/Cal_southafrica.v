(** SouthAfrica calendar (src/time/calendars/southafrica.rs), generated from the Rust text by
    tools/calendars.py.  [||], [&&] are Rust's short-circuit operators; [oor], [oand]
    the same when an operand can panic.  Integers are unbounded: the only
    subtractions are of literals at most 81 from Easter-table entries, which are
    at least 82 (Cal_base.v, [easter_bounds]), so nothing wraps. *)
From Coq Require Import ZArith Bool List.
Import ListNotations.
From Verif Require Import Outcome Date Calendar Cal_base.
Open Scope Z_scope.

(** src/time/calendars/southafrica.rs:13-70  SouthAfrica::is_business_day *)
Definition southafrica_is_business_day (date : date) : outcome bool :=
  let d := day date in let w := weekday_of date in let m := month date in let y := year date in
     let dd := ordinal date in
  do em <- (easter_monday y);
  Ok (if ((is_weekend date)
     || ((d =? 1) || (d =? 2) && (weekday_eqb w Mon)) && (m =? 1)
     || (dd =? (em - 3))
     || (dd =? em)
     || ((d =? 21) || (d =? 22) && (weekday_eqb w Mon)) && (m =? 3)
     || ((d =? 27) || (d =? 28) && (weekday_eqb w Mon)) && (m =? 4)
     || (d =? 14) && (m =? 4) && (y =? 2004)
     || ((d =? 1) || (d =? 2) && (weekday_eqb w Mon)) && (m =? 5)
     || ((d =? 16) || (d =? 17) && (weekday_eqb w Mon)) && (m =? 6)
     || ((d =? 9) || (d =? 10) && (weekday_eqb w Mon)) && (m =? 8)
     || ((d =? 24) || (d =? 25) && (weekday_eqb w Mon)) && (m =? 9)
     || ((d =? 16) || (d =? 17) && (weekday_eqb w Mon)) && (m =? 12)
     || (d =? 25) && (m =? 12)
     || ((d =? 26) || (d =? 27) && (weekday_eqb w Mon)) && (m =? 12)
     || (d =? 22) && (m =? 4) && (y =? 2009)
     || (d =? 3) && (m =? 8) && (y =? 2016)
     || (d =? 1) && (m =? 11) && (y =? 2021)
     || (d =? 27) && (m =? 12) && (y =? 2022)
     || (d =? 15) && (m =? 12) && (y =? 2023)
     || (d =? 29) && (m =? 5) && (y =? 2024))
  then false else
  true).
