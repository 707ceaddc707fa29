(** Mexico calendar (src/time/calendars/mexico.rs), generated from the Rust text by
    tools/calendars.py.  [||], [&&] are Rust's short-circuit operators; [oor], [oand]
    the same when an operand can panic.  Integers are unbounded: the only
    subtractions are of literals at most 81 from Easter-table entries, which are
    at least 82 (Cal_base.v, [easter_bounds]), so nothing wraps. *)
From Coq Require Import ZArith Bool List.
Import ListNotations.
From Verif Require Import Outcome Date Calendar Cal_base.
Open Scope Z_scope.

(** src/time/calendars/mexico.rs:13-50  Mexico::is_business_day *)
Definition mexico_is_business_day (date : date) : outcome bool :=
  let d := day date in let w := weekday_of date in let m := month date in let y := year date in
     let dd := ordinal date in
  do em <- (easter_monday y);
  Ok (if ((is_weekend date)
     || (d =? 1) && (m =? 1)
     || (y <=? 2005) && (d =? 5) && (m =? 2)
     || (2006 <=? y) && (d <=? 7) && (weekday_eqb w Mon) && (m =? 2)
     || (y <=? 2005) && (d =? 21) && (m =? 3)
     || (2006 <=? y) && (15 <=? d) && (d <=? 21) && (weekday_eqb w Mon) && (m =? 3)
     || (dd =? (em - 4))
     || (dd =? (em - 3))
     || (d =? 1) && (m =? 5)
     || (d =? 16) && (m =? 9)
     || (d =? 1) && (m =? 10) && (2024 <=? y) && ((Z.rem (y - 2024) 6) =? 0)
     || (d =? 2) && (m =? 11)
     || (y <=? 2005) && (d =? 20) && (m =? 11)
     || (2006 <=? y) && (15 <=? d) && (d <=? 21) && (weekday_eqb w Mon) && (m =? 11)
     || (d =? 12) && (m =? 12)
     || (d =? 25) && (m =? 12))
  then false else
  true).
