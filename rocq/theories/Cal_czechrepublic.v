(** CzechRepublic calendar (src/time/calendars/czechrepublic.rs), generated from the Rust text by
    tools/calendars.py.  [||], [&&] are Rust's short-circuit operators; [oor], [oand]
    the same when an operand can panic.  Integers are unbounded: the only
    subtractions are of literals at most 81 from Easter-table entries, which are
    at least 82 (Cal_base.v, [easter_bounds]), so nothing wraps. *)
From Coq Require Import ZArith Bool List.
Import ListNotations.
From Verif Require Import Outcome Date Calendar Cal_base.
Open Scope Z_scope.

(** src/time/calendars/czechrepublic.rs:13-52  CzechRepublic::is_business_day *)
Definition czechrepublic_is_business_day (date : date) : outcome bool :=
  let d := day date in let m := month date in let y := year date in let dd := ordinal date in
  do em <- (easter_monday y);
  Ok (if ((is_weekend date)
     || (d =? 1) && (m =? 1)
     || (dd =? (em - 3)) && (2016 <=? y)
     || (dd =? em)
     || (d =? 1) && (m =? 5)
     || (d =? 8) && (m =? 5)
     || (d =? 5) && (m =? 7)
     || (d =? 6) && (m =? 7)
     || (d =? 28) && (m =? 9)
     || (d =? 28) && (m =? 10)
     || (d =? 17) && (m =? 11)
     || (d =? 24) && (m =? 12)
     || (d =? 25) && (m =? 12)
     || (d =? 26) && (m =? 12)
     || (d =? 2) && (m =? 1) && (y =? 2004)
     || (d =? 31) && (m =? 12) && (y =? 2004))
  then false else
  true).
