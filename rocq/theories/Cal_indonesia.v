(** Indonesia calendar (src/time/calendars/indonesia.rs), generated from the Rust text by
    tools/calendars.py.  [||], [&&] are Rust's short-circuit operators; [oor], [oand]
    the same when an operand can panic.  Integers are unbounded: the only
    subtractions are of literals at most 81 from Easter-table entries, which are
    at least 82 (Cal_base.v, [easter_bounds]), so nothing wraps. *)
From Coq Require Import ZArith Bool List.
Import ListNotations.
From Verif Require Import Outcome Date Calendar Cal_base.
Open Scope Z_scope.

(** src/time/calendars/indonesia.rs:13-230  Indonesia::is_business_day *)
Definition indonesia_is_business_day (date : date) : outcome bool :=
  let d := day date in let m := month date in let y := year date in let dd := ordinal date in
  do em <- (easter_monday y);
  Ok (if ((is_weekend date)
     || (d =? 1) && (m =? 1)
     || (dd =? (em - 3))
     || (dd =? (em + 38))
     || (d =? 17) && (m =? 8)
     || (d =? 25) && (m =? 12))
  then false else
  if ((y =? 2005) && ((d =? 21) && (m =? 1)
     || (d =? 9) && (m =? 2)
     || (d =? 10) && (m =? 2)
     || (d =? 11) && (m =? 3)
     || (d =? 22) && (m =? 4)
     || (d =? 24) && (m =? 5)
     || (d =? 2) && (m =? 9)
     || ((d =? 3) || (d =? 4)) && (m =? 11)
     || ((d =? 2) || (d =? 7) || (d =? 8)) && (m =? 11)
     || (d =? 26) && (m =? 12)))
  then false else
  if ((y =? 2006) && ((negb ((negb (m =? 1)) || (negb (d =? 10)) && (negb (d =? 31))))
     || (d =? 30) && (m =? 3)
     || (d =? 10) && (m =? 4)
     || (d =? 21) && (m =? 8)
     || ((d =? 24) || (d =? 25)) && (m =? 10)
     || ((d =? 23) || (d =? 26) || (d =? 27)) && (m =? 10)))
  then false else
  if ((y =? 2007) && ((d =? 19) && (m =? 3)
     || (d =? 1) && (m =? 6)
     || (d =? 20) && (m =? 12)
     || (d =? 18) && (m =? 5)
     || ((d =? 12) || (d =? 15) || (d =? 16)) && (m =? 10)
     || ((d =? 21) || (d =? 24)) && (m =? 10)))
  then false else
  if ((y =? 2008) && (((d =? 10) || (d =? 11)) && (m =? 1)
     || ((d =? 7) || (d =? 8)) && (m =? 2)
     || (d =? 7) && (m =? 3)
     || (d =? 20) && (m =? 3)
     || (d =? 20) && (m =? 5)
     || (d =? 30) && (m =? 7)
     || (d =? 18) && (m =? 8)
     || (d =? 30) && (m =? 9)
     || ((d =? 1) || (d =? 2) || (d =? 3)) && (m =? 10)
     || (d =? 8) && (m =? 12)
     || (d =? 29) && (m =? 12)
     || (d =? 31) && (m =? 12)))
  then false else
  if ((y =? 2009) && ((negb ((negb (m =? 1)) || (negb (d =? 2)) && (negb (d =? 26))))
     || (d =? 9) && (m =? 3)
     || (d =? 26) && (m =? 3)
     || (d =? 9) && (m =? 4)
     || (d =? 20) && (m =? 7)
     || (18 <=? d) && (d <=? 23) && (m =? 9)
     || (d =? 27) && (m =? 11)
     || (d =? 18) && (m =? 12)
     || (d =? 24) && (m =? 12)
     || (d =? 31) && (m =? 12)))
  then false else
  if ((y =? 2010) && ((d =? 26) && (m =? 2)
     || (d =? 16) && (m =? 3)
     || (d =? 28) && (m =? 5)
     || (8 <=? d) && (d <=? 14) && (m =? 9)
     || (d =? 17) && (m =? 11)
     || (d =? 7) && (m =? 12)
     || (d =? 24) && (m =? 12)
     || (d =? 31) && (m =? 12)))
  then false else
  if ((y =? 2011) && ((negb ((negb (m =? 2)) || (negb (d =? 3)) && (negb (d =? 15))))
     || (d =? 17) && (m =? 5)
     || (d =? 29) && (m =? 6)
     || (29 <=? d) && (m =? 8)
     || (d <=? 2) && (m =? 9)
     || (d =? 26) && (m =? 12)))
  then false else
  if ((y =? 2012) && ((negb ((negb (d =? 23)) || (negb (m =? 1)) && (negb (m =? 3))))
     || (20 <=? d) && (d <=? 22) && (m =? 8)
     || (d =? 26) && (m =? 10)
     || (15 <=? d) && (d <=? 16) && (m =? 11)
     || (d =? 24) && (m =? 12)
     || (d =? 31) && (m =? 12)))
  then false else
  if ((y =? 2013) && ((d =? 24) && (m =? 1)
     || (d =? 12) && (m =? 3)
     || (d =? 6) && (m =? 6)
     || (5 <=? d) && (d <=? 9) && (m =? 8)
     || (14 <=? d) && (d <=? 15) && (m =? 10)
     || (d =? 5) && (m =? 11)
     || (d =? 26) && (m =? 12)
     || (d =? 31) && (m =? 12)))
  then false else
  if ((y =? 2014) && ((negb ((negb (m =? 1)) || (negb (d =? 14)) && (negb (d =? 31))))
     || (d =? 31) && (m =? 3)
     || (d =? 1) && (m =? 5)
     || (d =? 15) && (m =? 5)
     || (d =? 27) && (m =? 5)
     || (d =? 29) && (m =? 5)
     || (28 <=? d) && (m =? 7)
     || (d =? 1) && (m =? 8)
     || (d =? 26) && (m =? 12)
     || (d =? 31) && (m =? 12)))
  then false else
  true).
