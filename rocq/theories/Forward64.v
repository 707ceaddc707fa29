(** The value of an FX forward in binary64. *)
From Coq Require Import Bool List ZArith.
From Flocq Require Import Core BinarySingleNaN.
From Verif Require Import F64 Chol64 Fx.
Open Scope Z_scope.

(** src/derivatives/forex/basic.rs:125-136  forward_points_converter *)
Definition converter64 (p : fx_pair) : f64 := f64_of_Z (forward_points_converter p).
(** src/derivatives/basic.rs:5-8  Direction, cast to a double as in forward.rs:39 *)
Definition direction64 (buy : bool) : f64 := if buy then one64 else Bopp one64.
(** src/derivatives/forex/forward.rs:31  the outright forward *)
Definition outright64 (p : fx_pair) (spot points : f64) : f64 := fadd spot (fdiv points (converter64 p)).
(** src/derivatives/forex/forward.rs:55-59  FXForward::delta, also the first two factors of
    lines 36-45; [foreign] says whether the notional is in the foreign currency *)
Definition delta64 (foreign buy : bool) (notional strike : f64) : f64 :=
  if foreign then fmul notional (direction64 buy) else fmul (fdiv (Bopp notional) strike) (direction64 buy).
(** src/derivatives/forex/forward.rs:31-49  FXForward::mtm from the forward points and the
    discount factor on *)
Definition forward64 (p : fx_pair) (foreign buy : bool) (notional strike spot points df : f64) : f64 :=
  fmul (fmul (delta64 foreign buy notional strike) (fsub (outright64 p spot points) strike)) df.
