(** Sweden calendar (src/time/calendars/sweden.rs), generated from the Rust text by
    tools/calendars.py.  [||], [&&] are Rust's short-circuit operators; [oor], [oand]
    the same when an operand can panic.  Integers are unbounded: the only
    subtractions are of literals at most 81 from Easter-table entries, which are
    at least 82 (Cal_base.v, [easter_bounds]), so nothing wraps. *)
From Coq Require Import ZArith Bool List.
Import ListNotations.
From Verif Require Import Outcome Date Calendar Cal_base.
Open Scope Z_scope.

(** src/time/calendars/sweden.rs:13-49  Sweden::is_business_day *)
Definition sweden_is_business_day (date : date) : outcome bool :=
  let d := day date in let w := weekday_of date in let m := month date in let y := year date in
     let dd := ordinal date in
  do em <- (easter_monday y);
  Ok (if ((is_weekend date)
     || (dd =? (em - 3))
     || (dd =? em)
     || (dd =? (em + 38))
     || (dd =? (em + 49)) && (y <? 2005)
     || (d =? 1) && (m =? 1)
     || (d =? 6) && (m =? 1)
     || (d =? 1) && (m =? 5)
     || (d =? 6) && (m =? 6) && (2005 <=? y)
     || (weekday_eqb w Fri) && (19 <=? d) && (d <=? 25) && (m =? 6)
     || (d =? 24) && (m =? 12)
     || (d =? 25) && (m =? 12)
     || (d =? 26) && (m =? 12)
     || (d =? 31) && (m =? 12))
  then false else
  true).
