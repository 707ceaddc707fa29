(** Norway calendar (src/time/calendars/norway.rs), generated from the Rust text by
    tools/calendars.py.  [||], [&&] are Rust's short-circuit operators; [oor], [oand]
    the same when an operand can panic.  Integers are unbounded: the only
    subtractions are of literals at most 81 from Easter-table entries, which are
    at least 82 (Cal_base.v, [easter_bounds]), so nothing wraps. *)
From Coq Require Import ZArith Bool List.
Import ListNotations.
From Verif Require Import Outcome Date Calendar Cal_base.
Open Scope Z_scope.

(** src/time/calendars/norway.rs:13-45  Norway::is_business_day *)
Definition norway_is_business_day (date : date) : outcome bool :=
  let d := day date in let m := month date in let y := year date in let dd := ordinal date in
  do em <- (easter_monday y);
  Ok (if ((is_weekend date)
     || (dd =? (em - 4))
     || (dd =? (em - 3))
     || (dd =? em)
     || (dd =? (em + 38))
     || (dd =? (em + 49))
     || (d =? 1) && (m =? 1)
     || (d =? 1) && (m =? 5)
     || (d =? 17) && (m =? 5)
     || (d =? 24) && (m =? 12) && (2002 <=? y)
     || (d =? 25) && (m =? 12)
     || (d =? 26) && (m =? 12))
  then false else
  true).
