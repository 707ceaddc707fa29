(** Hungary calendar (src/time/calendars/hungary.rs), generated from the Rust text by
    tools/calendars.py.  [||], [&&] are Rust's short-circuit operators; [oor], [oand]
    the same when an operand can panic.  Integers are unbounded: the only
    subtractions are of literals at most 81 from Easter-table entries, which are
    at least 82 (Cal_base.v, [easter_bounds]), so nothing wraps. *)
From Coq Require Import ZArith Bool List.
Import ListNotations.
From Verif Require Import Outcome Date Calendar Cal_base.
Open Scope Z_scope.

(** src/time/calendars/hungary.rs:13-48  Hungary::is_business_day *)
Definition hungary_is_business_day (date : date) : outcome bool :=
  let d := day date in let m := month date in let y := year date in let dd := ordinal date in
  do em <- (easter_monday y);
  Ok (if ((is_weekend date)
     || (dd =? (em - 3)) && (2017 <=? y)
     || (dd =? em)
     || (dd =? (em + 49))
     || (d =? 1) && (m =? 1)
     || (d =? 15) && (m =? 3)
     || (d =? 1) && (m =? 5)
     || (d =? 20) && (m =? 8)
     || (d =? 23) && (m =? 10)
     || (d =? 1) && (m =? 11)
     || (d =? 25) && (m =? 12)
     || (d =? 26) && (m =? 12))
  then false else
  true).
