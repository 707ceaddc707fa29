(** Target calendar (src/time/calendars/target.rs), generated from the Rust text by
    tools/calendars.py.  [||], [&&] are Rust's short-circuit operators; [oor], [oand]
    the same when an operand can panic.  Integers are unbounded: the only
    subtractions are of literals at most 81 from Easter-table entries, which are
    at least 82 (Cal_base.v, [easter_bounds]), so nothing wraps. *)
From Coq Require Import ZArith Bool List.
Import ListNotations.
From Verif Require Import Outcome Date Calendar Cal_base.
Open Scope Z_scope.

(** src/time/calendars/target.rs:12-36  Target::is_business_day *)
Definition target_is_business_day (date : date) : outcome bool :=
  let d := day date in let m := month date in let y := year date in let dd := ordinal date in
  do em <- (easter_monday y);
  Ok (if ((is_weekend date)
     || (d =? 1) && (m =? 1)
     || (dd =? (em - 3)) && (2000 <=? y)
     || (dd =? em) && (2000 <=? y)
     || (d =? 1) && (m =? 5) && (2000 <=? y)
     || (d =? 25) && (m =? 12)
     || (d =? 26) && (m =? 12) && (2000 <=? y)
     || (d =? 31) && (m =? 12) && ((y =? 1998) || (y =? 1999) || (y =? 2001)))
  then false else
  true).
