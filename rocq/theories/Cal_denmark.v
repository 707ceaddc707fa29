(** Denmark calendar (src/time/calendars/denmark.rs), generated from the Rust text by
    tools/calendars.py.  [||], [&&] are Rust's short-circuit operators; [oor], [oand]
    the same when an operand can panic.  Integers are unbounded: the only
    subtractions are of literals at most 81 from Easter-table entries, which are
    at least 82 (Cal_base.v, [easter_bounds]), so nothing wraps. *)
From Coq Require Import ZArith Bool List.
Import ListNotations.
From Verif Require Import Outcome Date Calendar Cal_base.
Open Scope Z_scope.

(** src/time/calendars/denmark.rs:12-48  Denmark::is_business_day *)
Definition denmark_is_business_day (date : date) : outcome bool :=
  let d := day date in let m := month date in let y := year date in let dd := ordinal date in
  do em <- (easter_monday y);
  Ok (if ((is_weekend date)
     || (dd =? (em - 4))
     || (dd =? (em - 3))
     || (dd =? em)
     || (dd =? (em + 25)) && (y <=? 2023)
     || (dd =? (em + 38))
     || (dd =? (em + 39)) && (2009 <=? y)
     || (dd =? (em + 49))
     || (d =? 1) && (m =? 1)
     || (d =? 5) && (m =? 6)
     || (d =? 24) && (m =? 12)
     || (d =? 25) && (m =? 12)
     || (d =? 26) && (m =? 12)
     || (d =? 31) && (m =? 12))
  then false else
  true).
