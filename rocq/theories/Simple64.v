(** Discount factors from simple rates, in binary64. *)
From Coq Require Import ZArith.
From Flocq Require Import Core BinarySingleNaN.
From Verif Require Import F64 Chol64.

(** src/markets/termstructures/yieldcurve/oisratehelper.rs:34, src/markets/termstructures/yieldcurve/ratehelper.rs:40  1.0 / (1.0 + year_fraction_index * rate) *)
Definition simple_discount64 (year_fraction rate : f64) : f64 := fdiv one64 (fadd one64 (fmul year_fraction rate)).
(** src/markets/termstructures/yieldcurve/ratehelper.rs:25-27  FuturesRate::implied_quote *)
Definition implied_quote64 (value convexity_adjustment : f64) : f64 :=
  fadd (fsub one64 (fdiv value (f64_of_Z 100))) (fdiv convexity_adjustment (f64_of_Z 100)).
