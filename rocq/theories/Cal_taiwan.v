(** Taiwan calendar (src/time/calendars/taiwan.rs), generated from the Rust text by
    tools/calendars.py.  [||], [&&] are Rust's short-circuit operators; [oor], [oand]
    the same when an operand can panic.  Integers are unbounded: the only
    subtractions are of literals at most 81 from Easter-table entries, which are
    at least 82 (Cal_base.v, [easter_bounds]), so nothing wraps. *)
From Coq Require Import ZArith Bool List.
Import ListNotations.
From Verif Require Import Outcome Date Calendar Cal_base.
Open Scope Z_scope.

(** src/time/calendars/taiwan.rs:12-433  Taiwan::is_business_day *)
Definition taiwan_is_business_day (date : date) : outcome bool :=
  Ok (
  let d := day date in let m := month date in let y := year date in
  if ((is_weekend date)
     || (d =? 1) && (m =? 1)
     || (d =? 28) && (m =? 2)
     || (d =? 5) && (m =? 4) && (negb (y =? 2008)) && (negb (y =? 2009)) && (negb (y =? 2012))
     && (negb (y =? 2017))
     || (d =? 1) && (m =? 5)
     || (d =? 10) && (m =? 10))
  then false else
  if ((y =? 2002) && (9 <=? d) && (d <=? 17) && (m =? 2))
  then false else
  if ((y =? 2003) && ((31 <=? d) && (m =? 1)
     || (d <=? 5) && (m =? 2)
     || (d =? 4) && (m =? 6)
     || (d =? 11) && (m =? 9)))
  then false else
  if ((y =? 2004) && ((21 <=? d) && (d <=? 26) && (m =? 1) || (d =? 22) && (m =? 6)
     || (d =? 28) && (m =? 9)))
  then false else
  if ((y =? 2005) && ((6 <=? d) && (d <=? 13) && (m =? 2) || (d =? 2) && (m =? 5)))
  then false else
  if ((y =? 2006) && ((28 <=? d) && (m =? 1)
     || (d <=? 5) && (m =? 2)
     || (d =? 31) && (m =? 5)
     || (d =? 6) && (m =? 10)))
  then false else
  if ((y =? 2007) && ((17 <=? d) && (d <=? 25) && (m =? 2)
     || (d =? 6) && (m =? 4)
     || (d =? 18) && (m =? 6)
     || (d =? 19) && (m =? 6)
     || (d =? 24) && (m =? 9)
     || (d =? 25) && (m =? 9)))
  then false else
  if ((y =? 2008) && ((4 <=? d) && (d <=? 11) && (m =? 2) || (d =? 4) && (m =? 4)))
  then false else
  if ((y =? 2009) && (((24 <=? d) || (d =? 2)) && (m =? 1)
     || (d =? 4) && (m =? 4)
     || ((d =? 28) || (d =? 29)) && (m =? 5)
     || (d =? 3) && (m =? 10)))
  then false else
  if ((y =? 2010) && ((13 <=? d) && (d <=? 21) && (m =? 1) || (d =? 16) && (m =? 5)
     || (d =? 22) && (m =? 9)))
  then false else
  if ((y =? 2011) && ((2 <=? d) && (d <=? 7) && (m =? 2)
     || (d =? 4) && (m =? 4)
     || (d =? 2) && (m =? 5)
     || (d =? 6) && (m =? 6)
     || (d =? 12) && (m =? 9)))
  then false else
  if ((y =? 2012) && ((23 <=? d) && (d <=? 27) && (m =? 1)
     || (d =? 27) && (m =? 2)
     || (d =? 4) && (m =? 4)
     || (d =? 23) && (m =? 6)
     || (d =? 30) && (m =? 9)
     || (d =? 31) && (m =? 12)))
  then false else
  if ((y =? 2013) && ((10 <=? d) && (d <=? 15) && (m =? 2)
     || (d =? 4) && (m =? 4)
     || (d =? 12) && (m =? 6)
     || (19 <=? d) && (d <=? 20) && (m =? 9)))
  then false else
  if ((y =? 2014) && ((28 <=? d) && (d <=? 30) && (m =? 1)
     || (d =? 31) && (m =? 1)
     || (d <=? 4) && (m =? 2)
     || (d =? 4) && (m =? 4)
     || (d =? 2) && (m =? 6)
     || (d =? 8) && (m =? 9)))
  then false else
  if ((y =? 2015) && ((d =? 2) && (m =? 1)
     || (18 <=? d) && (d <=? 23) && (m =? 2)
     || (d =? 27) && (m =? 2)
     || (d =? 3) && (m =? 4)
     || (d =? 6) && (m =? 4)
     || (d =? 19) && (m =? 6)
     || (d =? 28) && (m =? 9)
     || (d =? 9) && (m =? 10)))
  then false else
  if ((y =? 2016) && (((d =? 29) || (8 <=? d) && (d <=? 12)) && (m =? 2)
     || (d =? 4) && (m =? 4)
     || (d =? 2) && (m =? 5)
     || (d =? 9) && (m =? 6)
     || (d =? 10) && (m =? 6)
     || (d =? 15) && (m =? 9)
     || (d =? 16) && (m =? 9)))
  then false else
  if ((y =? 2017) && ((d =? 2) && (m =? 1)
     || (27 <=? d) && (m =? 1)
     || (d =? 1) && (m =? 2)
     || (d =? 27) && (m =? 2)
     || (d =? 3) && (m =? 4)
     || (d =? 4) && (m =? 4)
     || (d =? 29) && (m =? 5)
     || (d =? 30) && (m =? 5)
     || (d =? 4) && (m =? 10)
     || (d =? 9) && (m =? 10)))
  then false else
  if ((y =? 2018) && ((15 <=? d) && (d <=? 20) && (m =? 2)
     || (d =? 4) && (m =? 4)
     || (d =? 6) && (m =? 4)
     || (d =? 18) && (m =? 6)
     || (d =? 24) && (m =? 9)
     || (d =? 31) && (m =? 12)))
  then false else
  if ((y =? 2019) && ((4 <=? d) && (d <=? 8) && (m =? 2)
     || (d =? 1) && (m =? 3)
     || (d =? 4) && (m =? 4)
     || (d =? 7) && (m =? 6)
     || (d =? 13) && (m =? 9)
     || (d =? 11) && (m =? 10)))
  then false else
  if ((y =? 2020) && (((24 <=? d) && (d <=? 29) || (d =? 23)) && (m =? 1)
     || (d =? 2) && (m =? 4)
     || (d =? 3) && (m =? 4)
     || (d =? 25) && (m =? 6)
     || (d =? 26) && (m =? 6)
     || (d =? 1) && (m =? 10)
     || (d =? 2) && (m =? 10)
     || (d =? 9) && (m =? 10)))
  then false else
  if ((y =? 2021) && (((11 <=? d) && (d <=? 16) || (d =? 10)) && (m =? 2)
     || (d =? 1) && (m =? 3)
     || (d =? 2) && (m =? 4)
     || (d =? 30) && (m =? 4)
     || (d =? 14) && (m =? 6)
     || (d =? 20) && (m =? 9)
     || (d =? 21) && (m =? 9)
     || (d =? 11) && (m =? 10)
     || (d =? 31) && (m =? 12)))
  then false else
  if ((y =? 2022) && ((d =? 31) && (m =? 1)
     || (d <=? 4) && (m =? 2)
     || (d =? 4) && (m =? 4)
     || (d =? 2) && (m =? 5)
     || (d =? 3) && (m =? 6)
     || (d =? 9) && (m =? 9)))
  then false else
  if ((y =? 2023) && (((25 <=? d) && (d <=? 27)
     || (d =? 20)
     || (d =? 2)
     || (21 <=? d) && (d <=? 24)) && (m =? 1)
     || (d =? 27) && (m =? 2)
     || (d =? 3) && (m =? 4)
     || (d =? 4) && (m =? 4)
     || (d =? 22) && (m =? 6)
     || (d =? 23) && (m =? 6)
     || (d =? 29) && (m =? 9)
     || (d =? 9) && (m =? 10)))
  then false else
  if ((y =? 2024) && (((d =? 28) || (8 <=? d) && (d <=? 14)) && (m =? 2)
     || (d =? 4) && (m =? 4)
     || (d =? 10) && (m =? 6)
     || (d =? 17) && (m =? 9)))
  then false else
  if ((y =? 2025) && (((d =? 23) || (d =? 24) || (27 <=? d) && (d <=? 31)) && (m =? 1)
     || (d =? 3) && (m =? 4)
     || (d =? 4) && (m =? 4)
     || (d =? 30) && (m =? 5)
     || (d =? 6) && (m =? 10)))
  then false else
  if ((y =? 2026) && (((d =? 12)
     || (d =? 13)
     || (16 <=? d) && (d <=? 20)
     || (d =? 27)) && (m =? 2)
     || (d =? 3) && (m =? 4)
     || (d =? 6) && (m =? 4)
     || (d =? 19) && (m =? 6)
     || (d =? 25) && (m =? 9)
     || (d =? 9) && (m =? 10)))
  then false else
  true).
