(** Zero rates between two pillars of a yield curve, in binary64. *)
From Coq Require Import ZArith.
From Flocq Require Import Core BinarySingleNaN.
From Verif Require Import F64.
Open Scope Z_scope.

(** src/markets/termstructures/yieldcurve.rs:240-242  the interpolation at a date, one day after
    the one asked for, between the pillars [first] and [second], given as the number of a day and a zero rate; the
    search for the two is the one of YieldCurve.v *)
Definition zero_between64 (first second : Z * f64) (target : Z) : f64 :=
  let d1 := f64_of_Z (target - fst first) in
  let d2 := f64_of_Z (fst second - target) in
  fdiv (fadd (fmul d1 (snd second)) (fmul d2 (snd first))) (fadd d1 d2).
