(** Argentina calendar (src/time/calendars/argentina.rs), generated from the Rust text by
    tools/calendars.py.  [||], [&&] are Rust's short-circuit operators; [oor], [oand]
    the same when an operand can panic.  Integers are unbounded: the only
    subtractions are of literals at most 81 from Easter-table entries, which are
    at least 82 (Cal_base.v, [easter_bounds]), so nothing wraps. *)
From Coq Require Import ZArith Bool List.
Import ListNotations.
From Verif Require Import Outcome Date Calendar Cal_base.
Open Scope Z_scope.

(** src/time/calendars/argentina.rs:13-47  Argentina::is_business_day *)
Definition argentina_is_business_day (date : date) : outcome bool :=
  let d := day date in let w := weekday_of date in let m := month date in let y := year date in
     let dd := ordinal date in
  do em <- (easter_monday y);
  Ok (if ((is_weekend date)
     || (d =? 1) && (m =? 1)
     || (dd =? (em - 4))
     || (dd =? (em - 3))
     || (d =? 1) && (m =? 5)
     || (d =? 25) && (m =? 5)
     || (15 <=? d) && (d <=? 21) && (weekday_eqb w Mon) && (m =? 6)
     || (d =? 9) && (m =? 7)
     || (15 <=? d) && (d <=? 21) && (weekday_eqb w Mon) && (m =? 8)
     || ((d =? 10)
     || (d =? 11)
     || (d =? 12)
     || (d =? 15)
     || (d =? 16)) && (weekday_eqb w Mon) && (m =? 10)
     || (d =? 8) && (m =? 12)
     || (d =? 24) && (m =? 12)
     || ((d =? 31) || (d =? 30) && (weekday_eqb w Fri)) && (m =? 12))
  then false else
  true).
