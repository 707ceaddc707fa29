(** Slovakia calendar (src/time/calendars/slovakia.rs), generated from the Rust text by
    tools/calendars.py.  [||], [&&] are Rust's short-circuit operators; [oor], [oand]
    the same when an operand can panic.  Integers are unbounded: the only
    subtractions are of literals at most 81 from Easter-table entries, which are
    at least 82 (Cal_base.v, [easter_bounds]), so nothing wraps. *)
From Coq Require Import ZArith Bool List.
Import ListNotations.
From Verif Require Import Outcome Date Calendar Cal_base.
Open Scope Z_scope.

(** src/time/calendars/slovakia.rs:13-55  Slovakia::is_business_day *)
Definition slovakia_is_business_day (date : date) : outcome bool :=
  let d := day date in let m := month date in let y := year date in let dd := ordinal date in
  do em <- (easter_monday y);
  Ok (if ((is_weekend date)
     || (d =? 1) && (m =? 1)
     || (d =? 6) && (m =? 1)
     || (dd =? (em - 3))
     || (dd =? em)
     || (d =? 1) && (m =? 5)
     || (d =? 8) && (m =? 5)
     || (d =? 5) && (m =? 7)
     || (d =? 29) && (m =? 8)
     || (d =? 1) && (m =? 9)
     || (d =? 15) && (m =? 9)
     || (d =? 1) && (m =? 11)
     || (d =? 17) && (m =? 11)
     || (d =? 24) && (m =? 12)
     || (d =? 25) && (m =? 12)
     || (d =? 26) && (m =? 12)
     || (24 <=? d) && (d <=? 31) && (m =? 12) && (y =? 2004)
     || (24 <=? d) && (d <=? 31) && (m =? 12) && (y =? 2005))
  then false else
  true).
