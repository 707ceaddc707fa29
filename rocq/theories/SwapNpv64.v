(** The net present value of a swap in binary64. *)
From Coq Require Import Bool List ZArith.
Import ListNotations.
From Flocq Require Import Core BinarySingleNaN.
From Verif Require Import F64 Clock64 Chol64.
Open Scope Z_scope.

(** src/derivatives/interestrate/swap.rs:328-344  the rate of a period, fixed or from the
    discount factors at its ends *)
Inductive rate64 := Fixed64 (coupon : f64) | Float64 (spread df_start df_end : f64).
(** src/derivatives/interestrate/swap.rs:323-350  what the value of a period depends on: its year fraction, balance and
    rate, and the discount factor of its pay date *)
Record period64 := { yf64 : f64; balance64 : f64; terms64 : rate64; df64 : f64 }.
(** src/derivatives/interestrate/swap.rs:71-79  struct InterestRateSwapLeg, as the direction and the schedule *)
Record leg64 := { buy64 : bool; periods64 : list period64 }.

(** src/derivatives/interestrate/swap.rs:291-294, 352-355  direction_sign *)
Definition sign64 (buy : bool) : f64 := if buy then one64 else Bopp one64.
(** src/derivatives/interestrate/swap.rs:328-344  reset_rate *)
Definition reset_rate64 (p : period64) : f64 :=
  match terms64 p with
  | Fixed64 coupon => coupon
  | Float64 spread df_start df_end => fadd (fdiv (fsub (fdiv df_start df_end) one64) (yf64 p)) spread
  end.
(** src/derivatives/interestrate/swap.rs:356-365  the present value of a period *)
Definition period_pv64 (buy : bool) (p : period64) : f64 :=
  fmul (fmul (fmul (fmul (reset_rate64 p) (yf64 p)) (balance64 p)) (df64 p)) (sign64 buy).
(** src/derivatives/interestrate/swap.rs:302-308  the notional returned on the last pay date, if there is one *)
Definition principal64 (l : leg64) : list f64 :=
  match rev (periods64 l) with
  | [] => []
  | last :: _ => [fmul (fmul (balance64 last) (df64 last)) (sign64 (buy64 l))]
  end.
(** src/derivatives/interestrate/swap.rs:290-308  everything a leg adds to the total, in order *)
Definition flows64 (l : leg64) : list f64 := map (period_pv64 (buy64 l)) (periods64 l) ++ principal64 l.
(** src/derivatives/interestrate/swap.rs:283-311  npv *)
Definition npv64 (legs : list leg64) : f64 := fold_left fadd (concat (map flows64 legs)) zero64.
