(** The stochastic processes of the Monte Carlo engine.  A step is a function of the
    parameters, the state and the draws.  The formulas are written once, over any type
    of numbers: the reals (rounding idealised away) and binary64 are instances. *)
From Coq Require Import ZArith Bool List.
Import ListNotations.
From Verif Require Import Outcome.

(** What the steps use of [f64]. *)
Record numbers := {
  num :> Type;
  n0 : num; n1 : num; nhalf : num;
  nadd : num -> num -> num; nsub : num -> num -> num; nmul : num -> num -> num; ndiv : num -> num -> num; nneg : num -> num;
  nmax : num -> num -> num; nsqrt : num -> num; nexp : num -> num; nln : num -> num; npowf : num -> num -> num;
  nlt : num -> num -> bool; nle : num -> num -> bool; n_of_nat : nat -> num }.
Arguments n0 {_}. Arguments n1 {_}. Arguments nhalf {_}.
Arguments nadd {_}. Arguments nsub {_}. Arguments nmul {_}. Arguments ndiv {_}. Arguments nneg {_}.
Arguments nmax {_}. Arguments nsqrt {_}. Arguments nexp {_}. Arguments nln {_}. Arguments npowf {_}.
Arguments nlt {_}. Arguments nle {_}. Arguments n_of_nat {_}.

Declare Scope num_scope.
Delimit Scope num_scope with num.
Notation "x + y" := (nadd x y) : num_scope.
Notation "x - y" := (nsub x y) : num_scope.
Notation "x * y" := (nmul x y) : num_scope.
Notation "x / y" := (ndiv x y) : num_scope.
Notation "- x" := (nneg x) : num_scope.
Local Open Scope num_scope.

Section Processes.
  Context {N : numbers}.

  (** The random number generator: the draws still to come.  [rng.sample(StandardNormal)]
      takes the first. *)
  Definition rng : Type := nat -> N.
  Definition sample_normal (g : rng) : N * rng := (g O, fun k => g (S k)).

  (** src/models/common/cir.rs:40-50  struct CirProcess *)
  Record cir_process := { kappa : N; theta : N; gamma : N; sigma_0 : N }.

  (** src/models/common/cir.rs:229-231  CirSimulator::initial_state *)
  Definition cir_initial (p : cir_process) : N := sigma_0 p.

  (** src/models/common/cir.rs:233-240  CirSimulator::step *)
  Definition cir_step (p : cir_process) (g : rng) (state dt : N) : rng * N :=
    let '(z, g) := sample_normal g in
    let sigma := nmax state n0 in
    (g, nmax (sigma + kappa p * (theta p - sigma) * dt + gamma p * nsqrt sigma * nsqrt dt * z) n0).

  (** src/models/common/simulation.rs:190-195  struct BrownianMotion *)
  Record brownian := { x_0 : N; bm_drift : N; bm_volatility : N }.

  (** src/models/common/simulation.rs:225-228  BrownianMotion::step *)
  Definition bm_step (p : brownian) (g : rng) (state dt : N) : rng * N :=
    let '(z, g) := sample_normal g in
    (g, state + bm_drift p * dt + bm_volatility p * nsqrt dt * z).

  (** src/models/common/simulation.rs:244-249  struct GeometricBrownianMotion *)
  Record geometric := { s_0 : N; gbm_drift : N; gbm_volatility : N }.

  (** src/models/common/simulation.rs:267-272  GeometricBrownianMotion::step *)
  Definition gbm_step (p : geometric) (g : rng) (state dt : N) : rng * N :=
    let '(z, g) := sample_normal g in
    let log_drift := (gbm_drift p - nhalf * gbm_volatility p * gbm_volatility p) * dt in
    let diffusion := gbm_volatility p * nsqrt dt * z in
    (g, state * nexp (log_drift + diffusion)).

  (** src/models/interestrate/hull_white.rs:30-35  struct HullWhite1F *)
  Record hull_white := { mean_reversion : N; hw_sigma : N }.

  (** src/models/interestrate/hull_white.rs:198-202  HullWhiteSimulator::step.
      Simplification: the closure [theta_fn] is a function of its argument. *)
  Definition hw_step (p : hull_white) (theta_fn : N -> N) (g : rng) (state t dt : N) : rng * N :=
    let '(z, g) := sample_normal g in
    let theta := theta_fn t in
    (g, state + mean_reversion p * (theta - state) * dt + hw_sigma p * nsqrt dt * z).

  (** src/models/forex/sabr.rs:36-41  struct SabrParams *)
  Record sabr_params := { alpha : N; beta : N; rho : N; nu : N }.

  (** src/models/forex/sabr.rs:44-56  SabrParams::new *)
  Definition sabr_new (a b r n : N) : outcome sabr_params :=
    if negb (nlt n0 a) then Panic PAssert
    else if negb (nle n0 b && nle b n1) then Panic PAssert
    else if negb (nlt (- n1) r && nlt r n1) then Panic PAssert
    else if negb (nle n0 n) then Panic PAssert
    else Ok {| alpha := a; beta := b; rho := r; nu := n |}.

  (** src/models/forex/sabr.rs:145-148  struct SabrState *)
  Record sabr_state := { forward : N; vol : N }.

  (** src/models/forex/sabr.rs:184-193  SabrSimulator::new: the cached factor *)
  Definition sqrt_one_minus_rho_sq (p : sabr_params) : N := nsqrt (n1 - rho p * rho p).

  (** src/models/forex/sabr.rs:197-222  SabrSimulator::step_with_noise *)
  Definition sabr_step_with_noise (p : sabr_params) (g : rng) (state : sabr_state) (dt : N) : outcome (rng * (sabr_state * (N * N))) :=
    if negb (nlt n0 dt) then Panic PAssert
    else
      let '(z1, g) := sample_normal g in
      let '(z2, g) := sample_normal g in
      let sqrt_dt := nsqrt dt in
      let dw_f := sqrt_dt * z1 in
      let dw_a := sqrt_dt * (rho p * z1 + sqrt_one_minus_rho_sq p * z2) in
      let f := nmax (forward state) n0 in
      let alpha := nmax (vol state) n0 in
      let diffusion_f := alpha * npowf f (beta p) * dw_f in
      let new_forward := nmax (f + diffusion_f) n0 in
      let log_drift := - nhalf * nu p * nu p * dt in
      let log_diffusion := nu p * dw_a in
      let new_vol := alpha * nexp (log_drift + log_diffusion) in
      Ok (g, ({| forward := new_forward; vol := new_vol |}, (dw_f, dw_a))).

  (** src/models/forex/sabr.rs:255-257  SabrSimulator::step *)
  Definition sabr_step (p : sabr_params) (g : rng) (state : sabr_state) (dt : N) : outcome (rng * sabr_state) :=
    do (g, (s, _)) <- sabr_step_with_noise p g state dt; Ok (g, s).

  (** src/models/forex/sabr.rs:248-253  SabrSimulator::initial_state *)
  Definition sabr_initial (p : sabr_params) (forward_0 : N) : sabr_state := {| forward := forward_0; vol := alpha p |}.

  (** src/models/forex/fx_hhw.rs:107-121  struct FxHhwParams.  The correlations are kept
      as their Cholesky factor (C50) and the one that enters the drift. *)
  Record hhw_params := {
    fx_0 : N; heston : cir_process; domestic : hull_white; foreign : hull_white;
    rd_0 : N; rf_0 : N; theta_d : N; theta_f : N; hhw_rho_xi_f : N }.

  (** src/models/forex/fx_hhw.rs:124-129  struct FxHhwState *)
  Record hhw_state := { fx : N; variance : N; rd : N; rf : N }.

  (** src/models/forex/fx_hhw.rs:132-139  FxHhwState::initial *)
  Definition hhw_initial (p : hhw_params) : hhw_state :=
    {| fx := fx_0 p; variance := sigma_0 (heston p); rd := rd_0 p; rf := rf_0 p |}.

  (** src/models/forex/fx_hhw.rs:238-245  the correlated increments: row [i] of the factor
      times the draws *)
  Definition correlate (chol : nat -> nat -> N) (z : nat -> N) (i : nat) : N :=
    fold_left (fun s j => s + chol i j * z j) (seq 0 (S i)) n0.

  (** src/models/forex/fx_hhw.rs:224-278  FxHhwSimulator::step_at_time *)
  Definition hhw_step_at_time (p : hhw_params) (chol : nat -> nat -> N) (g : rng) (state : hhw_state) (dt theta_d theta_f : N) :
    outcome (rng * (hhw_state * (nat -> N))) :=
    if negb (nlt n0 dt) then Panic PAssert
    else
      let '(z0, g) := sample_normal g in
      let '(z1, g) := sample_normal g in
      let '(z2, g) := sample_normal g in
      let '(z3, g) := sample_normal g in
      let z j := nth j [z0; z1; z2; z3] n0 in
      let sqrt_dt := nsqrt dt in
      let dw i := correlate chol z i * sqrt_dt in
      let sigma := nmax (variance state) n0 in
      let sqrt_sigma := nsqrt sigma in
      let new_log_fx := nln (fx state) + (rd state - rf state - nhalf * sigma) * dt + sqrt_sigma * dw 0%nat in
      let new_fx := nexp new_log_fx in
      let new_variance := nmax (sigma + kappa (heston p) * (theta (heston p) - sigma) * dt + gamma (heston p) * sqrt_sigma * dw 1%nat) n0 in
      let new_rd := rd state + mean_reversion (domestic p) * (theta_d - rd state) * dt + hw_sigma (domestic p) * dw 2%nat in
      let rf_drift := mean_reversion (foreign p) * (theta_f - rf state) - hw_sigma (foreign p) * hhw_rho_xi_f p * sqrt_sigma in
      let new_rf := rf state + rf_drift * dt + hw_sigma (foreign p) * dw 3%nat in
      Ok (g, ({| fx := new_fx; variance := new_variance; rd := new_rd; rf := new_rf |}, dw)).

  (** src/models/forex/fx_hhw.rs:213-217  FxHhwSimulator::step *)
  Definition hhw_step_constant (p : hhw_params) (chol : nat -> nat -> N) (g : rng) (state : hhw_state) (dt : N) :=
    hhw_step_at_time p chol g state dt (theta_d p) (theta_f p).

  (** src/models/forex/fx_hhw.rs:306-309  SimulationModel::step *)
  Definition hhw_step (p : hhw_params) (chol : nat -> nat -> N) (theta_fn : N -> N * N) (g : rng) (state : hhw_state) (t dt : N) : outcome (rng * hhw_state) :=
    let '(theta_d, theta_f) := theta_fn t in
    do (g, (s, _)) <- hhw_step_at_time p chol g state dt theta_d theta_f; Ok (g, s).

  (** src/models/forex/fx_hhw_stock.rs:46-58  struct ForeignStock *)
  Record foreign_stock := { stock_0 : N; stock_heston : cir_process; rho_xi_sf : N; rho_sf_omega : N }.

  (** src/models/forex/fx_hhw_stock.rs:61-65  struct FxHhwStockState *)
  Record stock_state := { st_fx : hhw_state; stock : N; stock_variance : N }.

  (** src/models/forex/fx_hhw_stock.rs:68-74  FxHhwStockState::initial *)
  Definition stock_initial (p : hhw_params) (s : foreign_stock) : stock_state :=
    {| st_fx := hhw_initial p; stock := stock_0 s; stock_variance := sigma_0 (stock_heston s) |}.

  (** src/models/forex/fx_hhw_stock.rs:126-214  FxHhwStockSimulator::step, with the four
      increments of the base block and those of the stock and its variance *)
  Definition stock_step_with_noise (p : hhw_params) (s : foreign_stock) (chol : nat -> nat -> N) (g : rng) (state : stock_state) (dt : N) :
    outcome (rng * (stock_state * (nat -> N))) :=
    if negb (nlt n0 dt) then Panic PAssert
    else
      let '(z0, g) := sample_normal g in
      let '(z1, g) := sample_normal g in
      let '(z2, g) := sample_normal g in
      let '(z3, g) := sample_normal g in
      let '(z4, g) := sample_normal g in
      let '(z5, g) := sample_normal g in
      let z j := nth j [z0; z1; z2; z3; z4; z5] n0 in
      let sqrt_dt := nsqrt dt in
      let dw i := correlate chol z i * sqrt_dt in
      let rho_xsf := rho_xi_sf s in
      let z_sf := rho_xsf * z0 + nsqrt (n1 - rho_xsf * rho_xsf) * z4 in
      let dw_sf := z_sf * sqrt_dt in
      let rho_swo := rho_sf_omega s in
      let z_omega := rho_swo * z_sf + nsqrt (n1 - rho_swo * rho_swo) * z5 in
      let dw_omega := z_omega * sqrt_dt in
      let b := st_fx state in
      let sigma := nmax (variance b) n0 in
      let sqrt_sigma := nsqrt sigma in
      let new_log_fx := nln (fx b) + (rd b - rf b - nhalf * sigma) * dt + sqrt_sigma * dw 0%nat in
      let new_fx := nexp new_log_fx in
      let new_variance := nmax (sigma + kappa (heston p) * (theta (heston p) - sigma) * dt + gamma (heston p) * sqrt_sigma * dw 1%nat) n0 in
      let new_rd := rd b + mean_reversion (domestic p) * (theta_d p - rd b) * dt + hw_sigma (domestic p) * dw 2%nat in
      let rf_drift := mean_reversion (foreign p) * (theta_f p - rf b) - hw_sigma (foreign p) * hhw_rho_xi_f p * sqrt_sigma in
      let new_rf := rf b + rf_drift * dt + hw_sigma (foreign p) * dw 3%nat in
      let omega := nmax (stock_variance state) n0 in
      let sqrt_omega := nsqrt omega in
      let stock_drift := rf b - rho_xsf * sqrt_sigma * sqrt_omega - nhalf * omega in
      let new_stock := nexp (nln (stock state) + stock_drift * dt + sqrt_omega * dw_sf) in
      let v := stock_heston s in
      let stock_var_drift := kappa v * (theta v - omega) - rho_sf_omega s * rho_xsf * gamma v * sqrt_omega * sqrt_sigma in
      let new_stock_variance := nmax (omega + stock_var_drift * dt + gamma v * sqrt_omega * dw_omega) n0 in
      Ok (g, ({| st_fx := {| fx := new_fx; variance := new_variance; rd := new_rd; rf := new_rf |}; stock := new_stock; stock_variance := new_stock_variance |},
              fun i => if (i <? 4)%nat then dw i else if (i =? 4)%nat then dw_sf else dw_omega)).
  Definition stock_step (p : hhw_params) (s : foreign_stock) (chol : nat -> nat -> N) (g : rng) (state : stock_state) (dt : N) : outcome (rng * stock_state) :=
    do (g, (st, _)) <- stock_step_with_noise p s chol g state dt; Ok (g, st).

  (** src/models/forex/sabr.rs:226-242, fx_hhw.rs:283-296, fx_hhw_stock.rs:218-230
      simulate: [n_steps] equal steps from the initial state, for each path; [step] and
      [initial] are those of the model *)
  Fixpoint steps {S : Type} (step : rng -> S -> N -> outcome (rng * S)) (n : nat) (dt : N) (g : rng) (s : S) : outcome (rng * S) :=
    match n with
    | O => Ok (g, s)
    | Datatypes.S n => do (g, s) <- step g s dt; steps step n dt g s
    end.
  Fixpoint terminals {S : Type} (step : rng -> S -> N -> outcome (rng * S)) (initial : S) (n_paths n_steps : nat) (dt : N) (g : rng) : outcome (rng * list S) :=
    match n_paths with
    | O => Ok (g, [])
    | Datatypes.S k => do (g, s) <- steps step n_steps dt g initial; do (g, ss) <- terminals step initial k n_steps dt g; Ok (g, s :: ss)
    end.
  Definition simulate {S : Type} (step : rng -> S -> N -> outcome (rng * S)) (initial : S) (t_end : N) (n_steps n_paths : nat) (g : rng) : outcome (rng * list S) :=
    if (n_steps =? 0)%nat || (n_paths =? 0)%nat || negb (nlt n0 t_end) then Panic PAssert
    else terminals step initial n_paths n_steps (t_end / n_of_nat n_steps) g.
End Processes.
Arguments rng : clear implicits. Arguments cir_process : clear implicits. Arguments brownian : clear implicits.
Arguments geometric : clear implicits. Arguments hull_white : clear implicits. Arguments sabr_params : clear implicits.
Arguments sabr_state : clear implicits. Arguments hhw_params : clear implicits. Arguments hhw_state : clear implicits.
Arguments foreign_stock : clear implicits. Arguments stock_state : clear implicits.
