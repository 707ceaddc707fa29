(** The SABR smile calibrator, over the real numbers (rounding idealised away). *)
From Coq Require Import Bool List Arith Reals.
Import ListNotations.
From Verif Require Import Outcome NelderMead P_NelderMead Processes ProcessFacts SabrSmile SmileFit.
Open Scope R_scope.

(** src/models/forex/sabr_calibrator.rs:95-112  reify.  Real numbers are finite, so the tests for
    that are left out. The optimiser keeps the length of its points, so [nth] never uses its
    default. *)
Definition reify (b : R) (x : list R) : option (sabr_params R_numbers) :=
  let a := softplus (nth 0 x 0) in
  let r := tanh (nth 1 x 0) in
  let n := softplus (nth 2 x 0) in
  if (if Rle_dec a 0 then true else false) || (if Rlt_dec n 0 then true else false) then None
  else if (if Rle_dec r (- (1)) then true else false) || (if Rle_dec 1 r then true else false) then None
  else Some (@Build_sabr_params R_numbers a b r n).

(** src/models/forex/sabr_calibrator.rs:67-70  the volatility of the objective *)
Definition sabr_model (p : sabr_params R_numbers) (forward expiry k : R) : outcome (option R) :=
  do v <- hagan_implied_vol p forward k expiry;
  Ok (if Rle_dec v 0 then None else Some v).

(** src/models/forex/sabr_calibrator.rs:60-74  the objective *)
Definition sabr_objective (b forward expiry : R) (ts : list target) (x : list R) : outcome R :=
  match reify b x with None => Ok (10 ^ 6) | Some p => ssr (sabr_model p forward expiry) ts 0 end.

(** src/models/forex/sabr_calibrator.rs:41-84  calibrate *)
Definition sabr_calibrate (sort : (nat -> R) -> list nat -> list nat) (initial : sabr_params R_numbers) (forward : R) (ts : list target) (expiry : R) (opts : nm_options R_floats) :
    outcome (fit_result (sabr_params R_numbers)) :=
  if negb (if Rlt_dec 0 forward then true else false) then Panic PAssert
  else if negb (if Rlt_dec 0 expiry then true else false) then Panic PAssert
  else if (length ts =? 0)%nat then Panic PAssert
  else
    do a0 <- inv_softplus (Rmax (alpha initial) (/ 10 ^ 8));
    let r0 := atanhR (clampR (- (999 / 1000)) (999 / 1000) (rho initial)) in
    do n0 <- inv_softplus (Rmax (nu initial) (/ 10 ^ 8));
    do m <- nm_fit sort (sabr_objective (beta initial) forward expiry ts) [a0; r0; n0] opts;
    let params := match reify (beta initial) (m_x m) with Some p => p | None => initial end in
    Ok {| fr_params := params; fr_rmse := sqrt (m_f m / INR (length ts)); fr_optimiser := m |}.

(** src/models/forex/sabr_calibrator.rs:128-138  model_implied_vols *)
Fixpoint sabr_model_vols (p : sabr_params R_numbers) (forward expiry : R) (ks : list R) : outcome (list R) :=
  match ks with
  | [] => Ok []
  | k :: ks => do v <- hagan_implied_vol p forward k expiry; do vs <- sabr_model_vols p forward expiry ks; Ok (v :: vs)
  end.
