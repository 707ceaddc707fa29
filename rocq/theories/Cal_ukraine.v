(** Ukraine calendar (src/time/calendars/ukraine.rs), generated from the Rust text by
    tools/calendars.py.  [||], [&&] are Rust's short-circuit operators; [oor], [oand]
    the same when an operand can panic.  Integers are unbounded: the only
    subtractions are of literals at most 81 from Easter-table entries, which are
    at least 82 (Cal_base.v, [easter_bounds]), so nothing wraps. *)
From Coq Require Import ZArith Bool List.
Import ListNotations.
From Verif Require Import Outcome Date Calendar Cal_base.
Open Scope Z_scope.

(** src/time/calendars/ukraine.rs:13-45  Ukraine::is_business_day *)
Definition ukraine_is_business_day (date : date) : outcome bool :=
  let d := day date in let w := weekday_of date in let m := month date in let y := year date in
     let dd := ordinal date in
  do em <- (easter_monday y);
  Ok (if ((is_weekend date)
     || ((d =? 1) || ((d =? 2) || (d =? 3)) && (weekday_eqb w Mon)) && (m =? 1)
     || ((d =? 7) || ((d =? 8) || (d =? 9)) && (weekday_eqb w Mon)) && (m =? 1)
     || ((d =? 8) || ((d =? 9) || (d =? 10)) && (weekday_eqb w Mon)) && (m =? 3)
     || (dd =? em)
     || (dd =? (em + 49))
     || ((d =? 1) || (d =? 2) || (d =? 3) && (weekday_eqb w Mon)) && (m =? 5)
     || ((d =? 9) || ((d =? 10) || (d =? 11)) && (weekday_eqb w Mon)) && (m =? 5)
     || (d =? 28) && (m =? 6)
     || (d =? 24) && (m =? 8)
     || (d =? 14) && (m =? 10) && (2015 <=? y))
  then false else
  true).
