(** What the smile calibrators share: the reparameterisation, the targets and the run of the
    optimiser on an objective that may panic, over the real numbers (rounding idealised away). *)
From Coq Require Import Bool List Arith Reals.
Import ListNotations.
From Verif Require Import Outcome NelderMead P_NelderMead.
Open Scope R_scope.

(** src/models/forex/sabr_calibrator.rs:86-88, fx_hhw_calibrator.rs:196-199,
    fx_hlmm_calibrator.rs:130-132, fx_fmm_calibrator.rs:137-139  softplus *)
Definition softplus (x : R) : R := if Rlt_dec 35 x then x else ln (1 + exp x).

(** src/models/forex/sabr_calibrator.rs:90-93, fx_hhw_calibrator.rs:201-205,
    fx_hlmm_calibrator.rs:134-137, fx_fmm_calibrator.rs:141-144  inv_softplus *)
Definition inv_softplus (y : R) : outcome R :=
  if Rlt_dec 0 y then Ok (if Rlt_dec 35 y then y else ln (exp y - 1)) else Panic PAssert.

(** [f64::atanh] and [f64::clamp] *)
Definition atanhR (x : R) : R := / 2 * ln ((1 + x) / (1 - x)).
Definition clampR (lo hi x : R) : R := if Rlt_dec x lo then lo else if Rlt_dec hi x then hi else x.

(** src/models/forex/sabr_calibrator.rs:24-28, fx_hhw_calibrator.rs:34-38, fx_hlmm_calibrator.rs:27-31,
    fx_fmm_calibrator.rs:38-42  struct CalibrationTarget: one type here, four equal ones in the code *)
Record target := { t_strike : R; t_vol : R }.

(** src/models/forex/sabr_calibrator.rs:115-125  targets_from_grid; the other calibrators have
    the same function *)
Definition targets_from_grid (strikes vols : list R) : outcome (list target) :=
  if (length strikes =? length vols)%nat then Ok (map (fun kv => {| t_strike := fst kv; t_vol := snd kv |}) (combine strikes vols))
  else Panic PAssert.

(** The loop of the objectives, src/models/forex/sabr_calibrator.rs:65-73: the sum of the squared
    errors, or 1e6 from the first target whose volatility is refused. [model k] is the model's
    volatility at strike [k]; [None] is a refusal. *)
Fixpoint ssr (model : R -> outcome (option R)) (ts : list target) (acc : R) : outcome R :=
  match ts with
  | [] => Ok acc
  | t :: ts =>
      do v <- model (t_strike t);
      match v with None => Ok (10 ^ 6) | Some v => ssr model ts (acc + (v - t_vol t) ^ 2) end
  end.

(** A run of [nelder_mead] on an objective that may panic.  The record of the calls tells whether
    the run reaches a point where it does: up to the first such point the run does not depend on
    the value given there, and the code's run ends at it. *)
Definition total_of (f : list R -> outcome R) (x : list R) : R := match f x with Ok v => v | _ => 0 end.
Definition panics (f : list R -> outcome R) (x : list R) : bool := match f x with Ok _ => false | _ => true end.
Definition nm_fit (sort : (nat -> R) -> list nat -> list nat) (f : list R -> outcome R) (x0 : list R) (opts : nm_options R_floats) : outcome (minimum R_floats) :=
  do (m, s) <- @nelder_mead_run R_floats sort (total_of f) x0 opts;
  match find (panics f) (calls s) with
  | None => Ok m
  | Some x => match f x with Ok _ => Ok m | Err e => Err e | Panic p => Panic p end
  end.

(** src/models/forex/sabr_calibrator.rs:31-37  struct CalibrationResult, the other calibrators have
    the same with their own parameters; models/common/calibration.rs:29-40 CalibrationReport *)
Record fit_result (P : Type) := { fr_params : P; fr_rmse : R; fr_optimiser : minimum R_floats }.
Arguments fr_params {_}. Arguments fr_rmse {_}. Arguments fr_optimiser {_}.
