(** The smile calibrators of the three cross-currency models, over the real numbers (rounding idealised away).
    The log-gamma function and the sort of the optimiser are arguments. *)
From Coq Require Import Bool List Arith Reals.
Import ListNotations.
From Verif Require Import Outcome ForwardPoints NelderMead P_NelderMead Processes ProcessFacts Cholesky BlackScholes SmileFit.
From Verif Require Hlmm Hlmm1Chf FxFmm Fmm Fmm1Chf Hhw1Chf CosPricer TdCalibrator.
Open Scope R_scope.

(** src/models/forex/fx_hhw_calibrator.rs:93-100, 160-164, fx_hlmm_calibrator.rs:85-89, fx_fmm_calibrator.rs:93-97  the
    volatility of the objectives; also the closures of model_implied_vols *)
Definition smile_vol (c : CosPricer.cos_pricer) (fwd expiry discount k : R) : outcome (option R) :=
  do price <- CosPricer.call c k discount;
  Ok (bs_implied_vol price fwd k expiry discount true).

(** src/models/forex/fx_hhw_calibrator.rs:72-83, 139-150, fx_hlmm_calibrator.rs:61-72, fx_fmm_calibrator.rs:69-80  the
    starting point; [second] is the coordinate of the volatility of variance *)
Definition start_point (h : cir_process R_numbers) (rho kappa_floor : R) (second : outcome R) : outcome (list R) :=
  let kappa_shift := (kappa h : R) - kappa_floor in
  do x0 <- inv_softplus (Rmax kappa_shift (/ 10 ^ 8));
  do x1 <- second;
  do x2 <- inv_softplus (Rmax (theta h) (/ 10 ^ 8));
  do x3 <- inv_softplus (Rmax (sigma_0 h) (/ 10 ^ 8));
  Ok [x0; x1; x2; x3; atanhR (clampR (- (999 / 1000)) (999 / 1000) rho)].
(** src/models/forex/fx_hhw_calibrator.rs:75, fx_hlmm_calibrator.rs:64, fx_fmm_calibrator.rs:72  the coordinate of
    the volatility of variance without a bound *)
Definition free_gamma (h : cir_process R_numbers) : outcome R := inv_softplus (Rmax (gamma h) (/ 10 ^ 8)).
(** src/models/forex/fx_hhw_calibrator.rs:139, 142  the same with a bound *)
Definition bound_gamma (h : cir_process R_numbers) (gamma_max : R) : outcome R :=
  let seed := clampR (/ 10 ^ 4) (1 - / 10 ^ 4) ((gamma h : R) / gamma_max) in
  Ok (ln (seed / (1 - seed))).

(** The run of the optimiser and the result, src/models/forex/fx_hhw_calibrator.rs:85-114 and 152-178,
    fx_hlmm_calibrator.rs:74-103, fx_fmm_calibrator.rs:82-111.  [smile p] builds the pricer of the parameters
    [p] and returns their volatilities by strike; parameters that do not pass [valid] get the penalty. *)
Section Fit.
  Context {P : Type}.
  Variables (reify : list R -> P) (valid : P -> bool) (smile : P -> outcome (R -> outcome (option R))).
  (** the objective: src/models/forex/fx_hhw_calibrator.rs:87-104, 154-168, fx_hlmm_calibrator.rs:76-93,
      fx_fmm_calibrator.rs:84-101 *)
  Definition smile_objective (ts : list target) (x : list R) : outcome R :=
    let trial := reify x in
    if negb (valid trial) then Ok (10 ^ 6)
    else do vol <- smile trial; ssr vol ts 0.
  (** the run and the result, lines as above *)
  Definition fit_smile (sort : (nat -> R) -> list nat -> list nat) (x0 : list R) (ts : list target) (opts : nm_options R_floats) : outcome (fit_result P) :=
    do m <- nm_fit sort (smile_objective ts) x0 opts;
    Ok {| fr_params := reify (m_x m); fr_rmse := sqrt (m_f m / INR (length ts)); fr_optimiser := m |}.
End Fit.

(** The assertions at the head of the calibrators, src/models/forex/fx_hhw_calibrator.rs:61-63, 130-132,
    fx_hlmm_calibrator.rs:52-54, fx_fmm_calibrator.rs:62-64 *)
Definition asserts (ts : list target) (expiry kappa_floor : R) : outcome unit :=
  if negb (if Rlt_dec 0 expiry then true else false) then Panic PAssert
  else if (length ts =? 0)%nat then Panic PAssert
  else if negb (if Rle_dec 0 kappa_floor then true else false) then Panic PAssert
  else Ok tt.

(** * FX-HHW *)
Section Hhw.
  Variable lg : R -> R.
  Notation hhw1 := Hhw1Chf.hhw1.

  (** src/models/forex/fx_hhw_calibrator.rs:207-215, 180-194  the base with five parameters replaced *)
  Definition hhw_with (base : hhw1) (k g th s r : R) : hhw1 :=
    let m := Hhw1Chf.hm base in let c := Hhw1Chf.hm_corr base in
    {| Hhw1Chf.hm := {| fx_0 := fx_0 m; heston := {| kappa := (k : num R_numbers); theta := th; gamma := g; sigma_0 := s |}; domestic := domestic m; foreign := foreign m;
                        rd_0 := rd_0 m; rf_0 := rf_0 m; theta_d := theta_d m; theta_f := theta_f m; hhw_rho_xi_f := hhw_rho_xi_f m |};
       Hhw1Chf.hm_corr := {| rho_xi_sigma := r; rho_xi_d := rho_xi_d c; rho_xi_f := rho_xi_f c; rho_sigma_d := rho_sigma_d c; rho_sigma_f := rho_sigma_f c; rho_d_f := rho_d_f c |} |}.
  (** src/models/forex/fx_hhw_calibrator.rs:207-215  reify_params.  The optimiser keeps the length of its points, so [nth]
      never uses its default, here and below. *)
  Definition hhw_reify (base : hhw1) (kappa_floor : R) (x : list R) : hhw1 :=
    hhw_with base (kappa_floor + softplus (nth 0 x 0)) (softplus (nth 1 x 0)) (softplus (nth 2 x 0)) (softplus (nth 3 x 0)) (tanh (nth 4 x 0)).
  (** src/models/forex/fx_hhw_calibrator.rs:180-194  reify_params_bounded *)
  Definition hhw_reify_bounded (base : hhw1) (kappa_floor gamma_max : R) (x : list R) : hhw1 :=
    hhw_with base (kappa_floor + softplus (nth 0 x 0)) (gamma_max / (1 + exp (- nth 1 x 0))) (softplus (nth 2 x 0)) (softplus (nth 3 x 0)) (tanh (nth 4 x 0)).

  (** src/models/forex/fx_hhw_calibrator.rs:68-69, 135-136, 237-238, 253  the forward and the discount factor *)
  Definition hhw_fwd (p : hhw1) (expiry : R) : R := let m := Hhw1Chf.hm p in fx_0 m * exp (- rf_0 m * expiry) / exp (- rd_0 m * expiry).
  (** the discount factor, at the same lines *)
  Definition hhw_discount (p : hhw1) (expiry : R) : R := exp (- rd_0 (Hhw1Chf.hm p) * expiry).
  (** src/models/forex/fx_hhw_calibrator.rs:89-90  the pricer of the parameters *)
  Definition hhw_pricer (p : hhw1) (expiry : R) : outcome CosPricer.cos_pricer :=
    do q <- Hhw1Chf.hhw1_new lg p expiry;
    Ok (CosPricer.cos_new (Hhw1Chf.hhw1_forward_chf lg p q)).
  (** src/models/forex/fx_hhw_calibrator.rs:93-100, 240-243  the volatilities of the parameters by strike *)
  Definition hhw_smile (fwd discount expiry : R) (p : hhw1) : outcome (R -> outcome (option R)) :=
    do c <- hhw_pricer p expiry;
    Ok (smile_vol c fwd expiry discount).

  (** src/models/forex/fx_hhw_calibrator.rs:54-114  calibrate *)
  Definition hhw_calibrate (sort : (nat -> R) -> list nat -> list nat) (initial : hhw1) (ts : list target) (expiry kappa_floor : R) (opts : nm_options R_floats) : outcome (fit_result hhw1) :=
    do _ <- asserts ts expiry kappa_floor;
    let h := heston (Hhw1Chf.hm initial) in
    do x0 <- start_point h (rho_xi_sigma (Hhw1Chf.hm_corr initial)) kappa_floor (free_gamma h);
    fit_smile (hhw_reify initial kappa_floor) (fun _ => true) (hhw_smile (hhw_fwd initial expiry) (hhw_discount initial expiry) expiry) sort x0 ts opts.
  (** src/models/forex/fx_hhw_calibrator.rs:122-178  calibrate_bounded *)
  Definition hhw_calibrate_bounded (sort : (nat -> R) -> list nat -> list nat) (initial : hhw1) (ts : list target) (expiry kappa_floor gamma_max : R) (opts : nm_options R_floats) : outcome (fit_result hhw1) :=
    do _ <- asserts ts expiry kappa_floor;
    if negb (if Rlt_dec 0 gamma_max then true else false) then Panic PAssert
    else
      let h := heston (Hhw1Chf.hm initial) in
      do x0 <- start_point h (rho_xi_sigma (Hhw1Chf.hm_corr initial)) kappa_floor (bound_gamma h gamma_max);
      fit_smile (hhw_reify_bounded initial kappa_floor gamma_max) (fun _ => true) (hhw_smile (hhw_fwd initial expiry) (hhw_discount initial expiry) expiry) sort x0 ts opts.

  (** src/models/forex/fx_hhw_calibrator.rs:234-246  model_implied_vols *)
  Definition hhw_model_vols (p : hhw1) (expiry : R) (strikes : list R) : outcome (list (option R)) :=
    do vol <- hhw_smile (hhw_fwd p expiry) (hhw_discount p expiry) expiry p;
    omapM vol strikes.
  (** src/models/forex/fx_hhw_calibrator.rs:250-255  price_call *)
  Definition hhw_price_call (p : hhw1) (expiry strike : R) : outcome R :=
    do c <- hhw_pricer p expiry;
    CosPricer.call c strike (hhw_discount p expiry).

  (** src/models/forex/fx_hhw_calibrator.rs:273-301  FxHhwSmileCalibrator::calibrate; the report is the result *)
  Definition hhw_smile_calibrate (sort : (nat -> R) -> list nat -> list nat) (initial : hhw1) (kappa_floor : R) (gamma_max : option R) (market : TdCalibrator.strip) (opts : nm_options R_floats) : outcome (fit_result hhw1) :=
    let targets := TdCalibrator.strip_targets market in
    match gamma_max with
    | Some gmax => hhw_calibrate_bounded sort initial targets (TdCalibrator.st_expiry_yf market) kappa_floor gmax opts
    | None => hhw_calibrate sort initial targets (TdCalibrator.st_expiry_yf market) kappa_floor opts
    end.
End Hhw.

(** * FX-HLMM *)
Section Hlmm_.
  Variable lg : R -> R.
  Notation hlmm := Hlmm.hlmm.

  (** src/models/forex/fx_hlmm_calibrator.rs:139-147  the base with five parameters replaced *)
  Definition hlmm_with (base : hlmm) (k g th s r : R) : hlmm :=
    let c := Hlmm.hl_corr base in
    {| Hlmm.hl_fx0 := Hlmm.hl_fx0 base; Hlmm.hl_heston := {| kappa := (k : num R_numbers); theta := th; gamma := g; sigma_0 := s |}; Hlmm.hl_tenor := Hlmm.hl_tenor base;
       Hlmm.hl_dom := Hlmm.hl_dom base; Hlmm.hl_for := Hlmm.hl_for base;
       Hlmm.hl_corr := {| Hlmm.xi_sigma := r; Hlmm.xi_d := Hlmm.xi_d c; Hlmm.xi_f := Hlmm.xi_f c; Hlmm.cross_corr := Hlmm.cross_corr c |} |}.
  (** src/models/forex/fx_hlmm_calibrator.rs:139-147  reify_params *)
  Definition hlmm_reify (base : hlmm) (kappa_floor : R) (x : list R) : hlmm :=
    hlmm_with base (kappa_floor + softplus (nth 0 x 0)) (softplus (nth 1 x 0)) (softplus (nth 2 x 0)) (softplus (nth 3 x 0)) (tanh (nth 4 x 0)).

  (** src/models/forex/fx_hlmm_calibrator.rs:109-111  forward_fx *)
  Definition hlmm_forward_fx (p : hlmm) (expiry : R) : R := Hlmm.hl_fx0 p.
  (** src/models/forex/fx_hlmm_calibrator.rs:115-128  discount_factor: the code of
      discount_factors_from_libors *)
  Definition hlmm_discount_factor (p : hlmm) (expiry : R) : outcome R :=
    do (d, f) <- Hlmm1Chf.hlmm_discounts p expiry; Ok d.
  (** src/models/forex/fx_hlmm_calibrator.rs:81-82  the pricer of the parameters *)
  Definition hlmm_pricer (p : hlmm) (expiry : R) : outcome CosPricer.cos_pricer :=
    do q <- Hlmm1Chf.hlmm1_new p expiry;
    Ok (CosPricer.cos_new (Hlmm1Chf.hlmm1_forward_chf lg p q)).
  (** src/models/forex/fx_hlmm_calibrator.rs:85-89  the volatilities of the parameters by strike *)
  Definition hlmm_smile (fwd discount expiry : R) (p : hlmm) : outcome (R -> outcome (option R)) :=
    do c <- hlmm_pricer p expiry;
    Ok (smile_vol c fwd expiry discount).
  (** src/models/forex/fx_hlmm_calibrator.rs:78-80 *)
  Definition hlmm_valid (p : hlmm) : bool := match Hlmm.hlmm_validate p with Ok _ => true | _ => false end.

  (** src/models/forex/fx_hlmm_calibrator.rs:45-103  calibrate *)
  Definition hlmm_calibrate (sort : (nat -> R) -> list nat -> list nat) (initial : hlmm) (ts : list target) (expiry kappa_floor : R) (opts : nm_options R_floats) : outcome (fit_result hlmm) :=
    do _ <- asserts ts expiry kappa_floor;
    let fwd := hlmm_forward_fx initial expiry in
    do discount <- hlmm_discount_factor initial expiry;
    let h := Hlmm.hl_heston initial in
    do x0 <- start_point h (Hlmm.xi_sigma (Hlmm.hl_corr initial)) kappa_floor (free_gamma h);
    fit_smile (hlmm_reify initial kappa_floor) hlmm_valid (hlmm_smile fwd discount expiry) sort x0 ts opts.

  (** src/models/forex/fx_hlmm_calibrator.rs:163-175  model_implied_vols *)
  Definition hlmm_model_vols (p : hlmm) (expiry : R) (strikes : list R) : outcome (list (option R)) :=
    do c <- hlmm_pricer p expiry;
    let fwd := hlmm_forward_fx p expiry in
    do discount <- hlmm_discount_factor p expiry;
    omapM (smile_vol c fwd expiry discount) strikes.
  (** src/models/forex/fx_hlmm_calibrator.rs:178-183  price_call *)
  Definition hlmm_price_call (p : hlmm) (expiry strike : R) : outcome R :=
    do c <- hlmm_pricer p expiry;
    do discount <- hlmm_discount_factor p expiry;
    CosPricer.call c strike discount.
  (** src/models/forex/fx_hlmm_calibrator.rs:195-221  FxHlmmSmileCalibrator::calibrate *)
  Definition hlmm_smile_calibrate (sort : (nat -> R) -> list nat -> list nat) (initial : hlmm) (kappa_floor : R) (market : TdCalibrator.strip) (opts : nm_options R_floats) : outcome (fit_result hlmm) :=
    hlmm_calibrate sort initial (TdCalibrator.strip_targets market) (TdCalibrator.st_expiry_yf market) kappa_floor opts.
End Hlmm_.

(** * FX-FMM *)
Section Fmm_.
  Variable lg : R -> R.
  Notation fx_fmm := FxFmm.fx_fmm.

  (** src/models/forex/fx_fmm_calibrator.rs:146-154  the base with five parameters replaced *)
  Definition fmm_with (base : fx_fmm) (k g th s r : R) : fx_fmm :=
    let c := FxFmm.fm_corr base in
    {| FxFmm.fm_fx0 := FxFmm.fm_fx0 base; FxFmm.fm_heston := {| kappa := (k : num R_numbers); theta := th; gamma := g; sigma_0 := s |}; FxFmm.fm_tenor := FxFmm.fm_tenor base;
       FxFmm.fm_dom := FxFmm.fm_dom base; FxFmm.fm_for := FxFmm.fm_for base;
       FxFmm.fm_corr := {| FxFmm.fc_xi_sigma := r; FxFmm.fc_xi_d := FxFmm.fc_xi_d c; FxFmm.fc_xi_f := FxFmm.fc_xi_f c; FxFmm.fc_sigma_d := FxFmm.fc_sigma_d c;
                           FxFmm.fc_sigma_f := FxFmm.fc_sigma_f c; FxFmm.fc_cross := FxFmm.fc_cross c |} |}.
  (** src/models/forex/fx_fmm_calibrator.rs:146-154  reify_params *)
  Definition fmm_reify (base : fx_fmm) (kappa_floor : R) (x : list R) : fx_fmm :=
    fmm_with base (kappa_floor + softplus (nth 0 x 0)) (softplus (nth 1 x 0)) (softplus (nth 2 x 0)) (softplus (nth 3 x 0)) (tanh (nth 4 x 0)).

  (** src/models/forex/fx_fmm_calibrator.rs:116-118  forward_fx *)
  Definition fmm_forward_fx (p : fx_fmm) (expiry : R) : R := FxFmm.fm_fx0 p.
  (** src/models/forex/fx_fmm_calibrator.rs:122-135  discount_factor: the code of discount_factors_from_rates *)
  Definition fmm_discount_factor (p : fx_fmm) (expiry : R) : outcome R :=
    do (d, f) <- Fmm1Chf.fmm_discounts p expiry; Ok d.
  (** src/models/forex/fx_fmm_calibrator.rs:89-90  the pricer of the parameters *)
  Definition fmm_pricer (p : fx_fmm) (expiry : R) : outcome CosPricer.cos_pricer :=
    do q <- Fmm1Chf.fmm1_new p expiry;
    Ok (CosPricer.cos_new (Fmm1Chf.fmm1_forward_chf lg p q)).
  (** src/models/forex/fx_fmm_calibrator.rs:93-97  the volatilities of the parameters by strike *)
  Definition fmm_smile (fwd discount expiry : R) (p : fx_fmm) : outcome (R -> outcome (option R)) :=
    do c <- fmm_pricer p expiry;
    Ok (smile_vol c fwd expiry discount).
  (** src/models/forex/fx_fmm_calibrator.rs:86-88 *)
  Definition fmm_valid (p : fx_fmm) : bool := match FxFmm.fmm_validate p with Ok _ => true | _ => false end.

  (** src/models/forex/fx_fmm_calibrator.rs:55-111  calibrate *)
  Definition fmm_calibrate (sort : (nat -> R) -> list nat -> list nat) (initial : fx_fmm) (ts : list target) (expiry kappa_floor : R) (opts : nm_options R_floats) : outcome (fit_result fx_fmm) :=
    do _ <- asserts ts expiry kappa_floor;
    let fwd := fmm_forward_fx initial expiry in
    do discount <- fmm_discount_factor initial expiry;
    let h := FxFmm.fm_heston initial in
    do x0 <- start_point h (FxFmm.fc_xi_sigma (FxFmm.fm_corr initial)) kappa_floor (free_gamma h);
    fit_smile (fmm_reify initial kappa_floor) fmm_valid (fmm_smile fwd discount expiry) sort x0 ts opts.

  (** src/models/forex/fx_fmm_calibrator.rs:172-184  model_implied_vols *)
  Definition fmm_model_vols (p : fx_fmm) (expiry : R) (strikes : list R) : outcome (list (option R)) :=
    do c <- fmm_pricer p expiry;
    let fwd := fmm_forward_fx p expiry in
    do discount <- fmm_discount_factor p expiry;
    omapM (smile_vol c fwd expiry discount) strikes.
  (** src/models/forex/fx_fmm_calibrator.rs:187-192  price_call *)
  Definition fmm_price_call (p : fx_fmm) (expiry strike : R) : outcome R :=
    do c <- fmm_pricer p expiry;
    do discount <- fmm_discount_factor p expiry;
    CosPricer.call c strike discount.
  (** src/models/forex/fx_fmm_calibrator.rs:205-228  FxFmmSmileCalibrator::calibrate *)
  Definition fmm_smile_calibrate (sort : (nat -> R) -> list nat -> list nat) (initial : fx_fmm) (kappa_floor : R) (market : TdCalibrator.strip) (opts : nm_options R_floats) : outcome (fit_result fx_fmm) :=
    fmm_calibrate sort initial (TdCalibrator.strip_targets market) (TdCalibrator.st_expiry_yf market) kappa_floor opts.
End Fmm_.
