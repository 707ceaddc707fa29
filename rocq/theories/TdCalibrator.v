(** The strip of a smile taken from the volatility surface, and the calibrator of the
    time-dependent SABR model, over the real numbers (rounding idealised away). *)
From Coq Require Import Bool List Arith ZArith Reals.
Import ListNotations.
From Verif Require Import Outcome Date ForwardPoints YieldCurve VolSurface NelderMead P_NelderMead Processes ProcessFacts SabrSmile SabrEffective SmileFit SabrCalibrator.
Open Scope R_scope.

(** src/models/forex/sabr_time_dependent_calibrator.rs:46-51  struct PillarTarget *)
Record pillar_target := { pt_expiry : R; pt_forward : R; pt_strikes : list R; pt_vols : list R }.

(** src/models/forex/market_data.rs:46-51  struct MarketSmileStrip *)
Record strip := { st_expiry_yf : R; st_forward : R; st_strikes : list R; st_vols : list R }.

(** src/models/forex/market_data.rs:55-75  smile_strip *)
Definition smile_strip (search : list smile -> Z -> nat + nat) (surface : vol_surface) (valuation expiry : date) (forward : R) (strikes : list R) : outcome strip :=
  match strikes with
  | [] => Panic PAssert
  | _ =>
      let expiry_yf := yf365 valuation expiry in
      do vols <- omapM (fun k => surface_volatility search surface expiry k) strikes;
      Ok {| st_expiry_yf := expiry_yf; st_forward := forward; st_strikes := strikes; st_vols := vols |}
  end.

(** src/models/forex/market_data.rs:81-87  hhw_targets; 90-96  sabr_targets, the same code on the
    other calibrator's equal struct *)
Definition strip_targets (s : strip) : list target :=
  map (fun kv => {| t_strike := fst kv; t_vol := snd kv |}) (combine (st_strikes s) (st_vols s)).
(** src/models/forex/market_data.rs:100-107  pillar_target *)
Definition strip_pillar (s : strip) : pillar_target :=
  {| pt_expiry := st_expiry_yf s; pt_forward := st_forward s; pt_strikes := st_strikes s; pt_vols := st_vols s |}.

(** src/models/forex/sabr_time_dependent_calibrator.rs:55-64  struct PillarDiagnostics *)
Record diagnostics := { dg_expiry : R; dg_market : sabr_params R_numbers; dg_stage1_rmse : R; dg_post_fit_rmse : R }.
(** src/models/forex/sabr_time_dependent_calibrator.rs:67-70  struct TimeDependentCalibrationResult *)
Record td_result := { tr_params : td_params; tr_per_pillar : list diagnostics }.

(** src/models/forex/sabr_time_dependent_calibrator.rs:307-319  the loop of bisect and what follows it *)
Fixpoint root_loop (n : nat) (f : R -> outcome R) (lo hi tol : R) : outcome R :=
  match n with
  | O => Ok (1 / 2 * (lo + hi))
  | S n =>
      let mid := 1 / 2 * (lo + hi) in
      do f_mid <- f mid;
      if Rltb (Rabs f_mid) tol || Rltb (hi - lo) tol then Ok mid
      else if Rltb f_mid 0 then root_loop n f mid hi tol
      else root_loop n f lo mid tol
  end.
(** src/models/forex/sabr_time_dependent_calibrator.rs:296-320  bisect, of a closure that may panic *)
Definition root (f : R -> outcome R) (lo hi tol : R) (max_iter : nat) : outcome R :=
  do f_lo <- f lo;
  do f_hi <- f hi;
  if Rltb 0 f_lo then Ok lo
  else if Rltb f_hi 0 then Ok hi
  else root_loop max_iter f lo hi tol.

(** src/models/forex/sabr_time_dependent_calibrator.rs:158-162, 198-202  the widening of the bracket *)
Fixpoint widen_to (n : nat) (f : R -> outcome R) (hi f_hi : R) : outcome (R * R) :=
  match n with
  | O => Ok (hi, f_hi)
  | S n =>
      if Rltb f_hi 0 then
        let hi := hi * 2 in
        do f_hi <- f hi;
        widen_to n f hi f_hi
      else Ok (hi, f_hi)
  end.
(** src/models/forex/sabr_time_dependent_calibrator.rs:154-169, 194-209  the value of one segment; the
    two stages differ in the closure and in the first upper end *)
Definition segment_value (f : R -> outcome R) (hi : R) : outcome R :=
  let lo := / 10 ^ 6 in
  do f_hi <- f hi;
  do (hi, f_hi) <- widen_to 20 f hi f_hi;
  if negb (Rleb 0 f_hi) then Panic PAssert
  else root f lo hi (/ 10 ^ 10) 80.

(** src/models/forex/sabr_time_dependent_calibrator.rs:98-106  stage 1 at one pillar *)
Definition stage1 (sort : (nat -> R) -> list nat -> list nat) (b : R) (opts : nm_options R_floats) (pi : pillar_target) : outcome (sabr_params R_numbers) :=
  do v <- oindex (pt_vols pi) (length (pt_vols pi) / 2);
  do seed <- @sabr_new R_numbers v b (- (20 / 100)) (30 / 100);
  do tgts <- targets_from_grid (pt_strikes pi) (pt_vols pi);
  do res <- sabr_calibrate sort seed (pt_forward pi) tgts (pt_expiry pi) opts;
  Ok (fr_params res).

(** src/models/forex/sabr_time_dependent_calibrator.rs:112-116  the sum in the stage-1 error *)
Fixpoint square_errors (p : sabr_params R_numbers) (forward expiry : R) (kvs : list (R * R)) (ss : R) : outcome R :=
  match kvs with
  | [] => Ok ss
  | (k, v) :: kvs =>
      do m <- hagan_implied_vol p forward k expiry;
      square_errors p forward expiry kvs (ss + (m - v) ^ 2)
  end.
(** src/models/forex/sabr_time_dependent_calibrator.rs:110-118  the stage-1 error of one pillar *)
Definition pillar_rmse (pm : pillar_target * sabr_params R_numbers) : outcome R :=
  let '(pi, mp) := pm in
  do ss <- square_errors mp (pt_forward pi) (pt_expiry pi) (combine (pt_strikes pi) (pt_vols pi)) 0;
  Ok (sqrt (ss / INR (length (pt_strikes pi)))).

(** src/models/forex/sabr_time_dependent_calibrator.rs:137, 144, 185, 187, 226-228, 262-273  a schedule on
    the knots up to pillar [i] *)
Definition upto (ks : list R) (i : nat) (vs : list R) : outcome schedule :=
  do ks <- slice_to (S (S i)) ks;
  schedule_new ks vs.

(** src/models/forex/sabr_time_dependent_calibrator.rs:132-171  stage 2, from the pillars left and the
    values found *)
Fixpoint stage2 (ks : list R) (l : list (R * sabr_params R_numbers)) (nus : list R) : outcome (list R) :=
  match l with
  | [] => Ok nus
  | (expiry, m) :: l =>
      let i := length nus in
      let target := nu m in
      do omega_sched <- upto ks i (repeat (alpha m) (S i));
      let f x :=
        do sched <- upto ks i (nus ++ [x]);
        do g <- effective_vol_vol sched omega_sched expiry;
        Ok (g - target) in
      do nu_i <- segment_value f (Rmax (target * 2) (1 / 10));
      stage2 ks l (nus ++ [nu_i])
  end.

(** src/models/forex/sabr_time_dependent_calibrator.rs:180-211  stage 3 *)
Fixpoint stage3 (ks nus : list R) (l : list (R * sabr_params R_numbers)) (alphas : list R) : outcome (list R) :=
  match l with
  | [] => Ok alphas
  | (expiry, m) :: l =>
      let i := length alphas in
      let target := alpha m in
      do ns <- slice_to (S i) nus;
      do sub_nu <- upto ks i ns;
      let f x :=
        do sched <- upto ks i (alphas ++ [x]);
        do w <- effective_term_structure sub_nu sched expiry;
        Ok (w - target) in
      do alpha_i <- segment_value f (Rmax (target * 4) (1 / 2));
      stage3 ks nus l (alphas ++ [alpha_i])
  end.

(** src/models/forex/sabr_time_dependent_calibrator.rs:224-249  stage 4 *)
Fixpoint stage4 (ks nus alphas : list R) (l : list (R * sabr_params R_numbers)) (tail_sum : R) (rhos : list R) : outcome (list R) :=
  match l with
  | [] => Ok rhos
  | (t, m) :: l =>
      let i := length rhos in
      do ns <- slice_to (S i) nus;
      do sub_nu <- upto ks i ns;
      do als <- slice_to (S i) alphas;
      do sub_alpha <- upto ks i als;
      do gamma_tilde <- effective_vol_vol sub_nu sub_alpha t;
      do omega_tilde <- effective_term_structure sub_nu sub_alpha t;
      let target := rho m in
      do k1 <- oindex ks (S i);
      do k0 <- oindex ks i;
      do n_i <- oindex nus i;
      do a_i <- oindex alphas i;
      let s_i := (k1 - k0) * n_i / a_i in
      if negb (Rltb (/ 10 ^ 15) (Rabs s_i)) then Panic PAssert
      else
        let rhs := target * gamma_tilde * t / omega_tilde in
        let rho_i := (rhs - tail_sum) / s_i in
        stage4 ks nus alphas l (tail_sum + rho_i * s_i) (rhos ++ [clampR (- (999 / 1000)) (999 / 1000) rho_i])
  end.

(** src/models/forex/sabr_time_dependent_calibrator.rs:259-286  the diagnostics, from pillar [i] on *)
Fixpoint diagnose (params : td_params) (i : nat) (l : list (R * sabr_params R_numbers * R)) : outcome (list diagnostics) :=
  match l with
  | [] => Ok []
  | (t, mp, r1) :: l =>
      do ns <- slice_to (S i) (values (td_nu params));
      do sub_nu <- upto (knots (td_alpha params)) i ns;
      do als <- slice_to (S i) (values (td_alpha params));
      do sub_alpha <- upto (knots (td_alpha params)) i als;
      do rs <- slice_to (S i) (values (td_rho params));
      do sub_rho <- upto (knots (td_alpha params)) i rs;
      do mod_nu <- effective_vol_vol sub_nu sub_alpha t;
      do mod_omega <- effective_term_structure sub_nu sub_alpha t;
      do mod_rho <- effective_correlation sub_nu sub_alpha sub_rho t;
      let errs := [mod_nu - nu mp; mod_omega - alpha mp; mod_rho - rho mp] in
      let post_fit_rmse := sqrt (fold_left Rplus (map (fun e => e * e) errs) 0 / 3) in
      do ds <- diagnose params (S i) l;
      Ok ({| dg_expiry := t; dg_market := mp; dg_stage1_rmse := r1; dg_post_fit_rmse := post_fit_rmse |} :: ds)
  end.

(** src/models/forex/sabr_time_dependent_calibrator.rs:90-95  the assert on neighbouring pillars *)
Fixpoint sorted_pillars (l : list pillar_target) : bool :=
  match l with
  | a :: (b :: _) as r => Rltb (pt_expiry a) (pt_expiry b) && sorted_pillars r
  | _ => true
  end.

(** src/models/forex/sabr_time_dependent_calibrator.rs:83-289  calibrate_time_dependent *)
Definition calibrate_time_dependent (sort : (nat -> R) -> list nat -> list nat) (pillars : list pillar_target) (b forward_0 : R) (opts : nm_options R_floats) : outcome td_result :=
  if (length pillars =? 0)%nat then Panic PAssert
  else if negb (sorted_pillars pillars) then Panic PAssert
  else
    do market <- omapM (stage1 sort b opts) pillars;
    do stage1_rmse <- omapM pillar_rmse (combine pillars market);
    let ks := 0 :: map pt_expiry pillars in
    let tm := combine (map pt_expiry pillars) market in
    do nus <- stage2 ks tm [];
    do nu_sched <- schedule_new ks nus;
    do alphas <- stage3 ks nus tm [];
    do alpha_sched <- schedule_new ks alphas;
    do rhos <- stage4 ks nus alphas tm 0 [];
    do rho_sched <- schedule_new ks rhos;
    do params <- td_new alpha_sched rho_sched nu_sched b forward_0;
    do per_pillar <- diagnose params 0 (combine tm stage1_rmse);
    Ok {| tr_params := params; tr_per_pillar := per_pillar |}.

(** src/models/forex/sabr_time_dependent_calibrator.rs:342-366
    SabrTimeDependentSurfaceCalibrator::calibrate: the parameters and the error it reports *)
Definition calibrate_surface (sort : (nat -> R) -> list nat -> list nat) (b forward_0 : R) (strips : list strip) (opts : nm_options R_floats) : outcome (td_params * R) :=
  do res <- calibrate_time_dependent sort (map strip_pillar strips) b forward_0 opts;
  let rmse := fold_left Rmax (map dg_stage1_rmse (tr_per_pillar res)) 0 in
  Ok (tr_params res, rmse).
