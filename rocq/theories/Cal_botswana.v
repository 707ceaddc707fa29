(** Botswana calendar (src/time/calendars/botswana.rs), generated from the Rust text by
    tools/calendars.py.  [||], [&&] are Rust's short-circuit operators; [oor], [oand]
    the same when an operand can panic.  Integers are unbounded: the only
    subtractions are of literals at most 81 from Easter-table entries, which are
    at least 82 (Cal_base.v, [easter_bounds]), so nothing wraps. *)
From Coq Require Import ZArith Bool List.
Import ListNotations.
From Verif Require Import Outcome Date Calendar Cal_base.
Open Scope Z_scope.

(** src/time/calendars/botswana.rs:13-50  Botswana::is_business_day *)
Definition botswana_is_business_day (date : date) : outcome bool :=
  let d := day date in let w := weekday_of date in let m := month date in let y := year date in
     let dd := ordinal date in
  do em <- (easter_monday y);
  Ok (if ((is_weekend date)
     || ((d =? 1) || (d =? 2) && (weekday_eqb w Mon) || (d =? 3) && (weekday_eqb w Tue)) && (m =? 1)
     || (dd =? (em - 3))
     || (dd =? em)
     || ((d =? 1) || (d =? 2) && (weekday_eqb w Mon)) && (m =? 5)
     || (dd =? (em + 38))
     || ((d =? 1) || (d =? 2) && (weekday_eqb w Mon)) && (m =? 7)
     || (15 <=? d) && (d <=? 21) && (weekday_eqb w Mon) && (m =? 7)
     || (d =? 30) && (m =? 9)
     || (d =? 1) && (weekday_eqb w Mon) && (m =? 10)
     || ((d =? 1) || (d =? 2) && (weekday_eqb w Mon)
     || (d =? 3) && (weekday_eqb w Tue)) && (m =? 10)
     || (d =? 25) && (m =? 12)
     || ((d =? 26) || (d =? 27) && (weekday_eqb w Mon)) && (m =? 12))
  then false else
  true).
