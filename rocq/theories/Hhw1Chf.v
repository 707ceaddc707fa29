(** The forward characteristic function of the linearised Heston-Hull-White model, over the real numbers
    (rounding idealised away).  A complex division by zero, not a number in the code, is zero here; the
    theorems show where it does not arise. *)
From Coq Require Import Bool List Arith Reals.
Import ListNotations.
From Coquelicot Require Import Coquelicot.
From Verif Require Import Outcome ForwardPoints VolSurface Processes ProcessFacts HullWhite Cholesky CosPricer Complexes.
Open Scope R_scope.

(** [Complex64::new(0.0, 1.0)] *)
Definition I_ : C := (0, 1).

(** src/models/forex/fx_hhw.rs:106-119  struct FxHhwParams: the parameters of the process with their
    correlation block.  Simplification: the process's own copy of [rho_xi_f] is not read here. *)
Record hhw1 := { hm : hhw_params R_numbers; hm_corr : correlation4 }.

(** src/models/forex/fx_hhw1_chf.rs:33-38  struct ChfComponents *)
Record chf_components := { c_a : C; c_b : C; c_c : C }.
(** src/models/forex/fx_hhw1_chf.rs:43-45  ChfComponents::assemble *)
Definition assemble (q : chf_components) (x sigma : R) : C := cexp (c_a q + c_b q * RtoC x + c_c q * RtoC sigma)%C.

(** src/models/forex/fx_hhw1_chf.rs:193-206  c_of_tau; the same code is heston_c at
    fx_hlmm1_chf.rs:246-259 and fx_fmm1_chf.rs:302-315, with the parameters passed one by one *)
Definition heston_c (u : C) (kappa gamma rho tau : R) : C :=
  if Rle_dec tau 0 then 0%C
  else
    let iu := (I_ * u)%C in
    let b_sq_minus_b := (iu * iu - iu)%C in
    let x := (RtoC kappa - RtoC gamma * RtoC rho * iu)%C in
    let d := csqrt (x * x - RtoC gamma * RtoC gamma * iu * (iu - 1))%C in
    let exp_dtau := cexp (- d * RtoC tau)%C in
    (b_sq_minus_b * (1 - exp_dtau) / (x + d - (x - d) * exp_dtau))%C.
Definition c_of_tau (u : C) (tau : R) (p : hhw1) : C :=
  heston_c u (kappa (heston (hm p))) (gamma (heston (hm p))) (rho_xi_sigma (hm_corr p)) tau.

(** src/models/forex/fx_hhw1_chf.rs:230-236, 272-278  the weights of the composite rule *)
Definition weight (k n : nat) : R := if (k =? 0)%nat || (k =? n)%nat then 1 else if (k mod 2 =? 1)%nat then 4 else 2.

Section Chf.
  Context (ln_gamma : R -> R) (p : hhw1).

  (** src/models/forex/fx_hhw1_chf.rs:286-322  integrand *)
  Definition integrand (u : C) (s big_t : R) : outcome C :=
    let c := c_of_tau u s p in
    let iu := (I_ * u)%C in
    let one_minus_iu := (1 - iu)%C in
    let u2_plus_iu := (u * u + iu)%C in
    do phi <- sqrt_mean ln_gamma (heston (hm p)) s;
    let bd := hw_b (domestic (hm p)) s big_t in
    let bf := hw_b (foreign (hm p)) s big_t in
    let eta_d : R := hw_sigma (domestic (hm p)) in
    let eta_f : R := hw_sigma (foreign (hm p)) in
    let r := hm_corr p in
    let kappa_theta : R := kappa (heston (hm p)) * theta (heston (hm p)) in
    let term1 := (RtoC kappa_theta * c)%C in
    let term2 := (RtoC (rho_sigma_d r * gamma (heston (hm p)) * eta_d * phi * bd) * c * one_minus_iu)%C in
    let term3 := (RtoC (rho_sigma_f r * gamma (heston (hm p)) * eta_f * phi * bf) * c * iu)%C in
    let zeta := (rho_xi_d r * eta_d * bd - rho_xi_f r * eta_f * bf) * phi + rho_d_f r * eta_d * eta_f * bd * bf
      - 1 / 2 * (eta_d * eta_d * bd * bd + eta_f * eta_f * bf * bf) in
    let term4 := (u2_plus_iu * RtoC zeta)%C in
    Ok (term1 + term2 + term3 + term4)%C.

  (** src/models/forex/fx_hhw1_chf.rs:227-238, 257-280  the weighted sums *)
  Fixpoint weighted_sum (f : nat -> outcome C) (n : nat) (ks : list nat) (acc : C) : outcome C :=
    match ks with
    | [] => Ok acc
    | k :: ks => do v <- f k; weighted_sum f n ks (acc + RtoC (weight k n) * v)%C
    end.

  (** src/models/forex/fx_hhw1_chf.rs:222-240  a_of_tau *)
  Definition a_of_tau (u : C) (tau big_t : R) (n : nat) : outcome C :=
    if Rle_dec tau 0 then Ok (RtoC 0)
    else
      let h := tau / INR n in
      do acc <- weighted_sum (fun k => integrand u (INR k * h) big_t) n (seq 0 (S n)) 0%C;
      Ok (acc * RtoC (h / 3))%C.

  (** src/models/forex/fx_hhw1_chf.rs:72-85  struct SimpsonGrid.  Simplification: its five vectors, grown in
      step, are one list of points. *)
  Record grid_point := { g_phi : R; g_bd : R; g_bf : R; g_zeta_no_phi : R; g_zeta_phi_coef : R }.
  Record simpson_grid := { g_h : R; g_points : list grid_point }.
  (** src/models/forex/fx_hhw1_chf.rs:88-120  SimpsonGrid::build *)
  Definition grid_point_at (expiry h : R) (k : nat) : outcome grid_point :=
    let s := INR k * h in
    let eta_d : R := hw_sigma (domestic (hm p)) in
    let eta_f : R := hw_sigma (foreign (hm p)) in
    let r := hm_corr p in
    do phi <- sqrt_mean ln_gamma (heston (hm p)) s;
    let bds := hw_b (domestic (hm p)) s expiry in
    let bfs := hw_b (foreign (hm p)) s expiry in
    Ok {| g_phi := phi; g_bd := bds; g_bf := bfs;
          g_zeta_no_phi := rho_d_f r * eta_d * eta_f * bds * bfs - 1 / 2 * (eta_d * eta_d * bds * bds + eta_f * eta_f * bfs * bfs);
          g_zeta_phi_coef := rho_xi_d r * eta_d * bds - rho_xi_f r * eta_f * bfs |}.
  Definition grid_build (expiry : R) (n : nat) : outcome simpson_grid :=
    let h := expiry / INR n in
    do ps <- omapM (grid_point_at expiry h) (seq 0 (S n));
    Ok {| g_h := h; g_points := ps |}.

  (** src/models/forex/fx_hhw1_chf.rs:246-282  a_of_tau_cached *)
  Definition a_of_tau_cached (u : C) (grid : simpson_grid) : outcome C :=
    let n := (length (g_points grid) - 1)%nat in
    let iu := (I_ * u)%C in
    let one_minus_iu := (1 - iu)%C in
    let u2_plus_iu := (u * u + iu)%C in
    let kappa_theta : R := kappa (heston (hm p)) * theta (heston (hm p)) in
    let eta_d : R := hw_sigma (domestic (hm p)) in
    let eta_f : R := hw_sigma (foreign (hm p)) in
    let r := hm_corr p in
    do acc <- weighted_sum (fun k =>
      let s := INR k * g_h grid in
      let c := c_of_tau u s p in
      do q <- oindex (g_points grid) k;
      let zeta_k := g_zeta_no_phi q + g_zeta_phi_coef q * g_phi q in
      let term1 := (RtoC kappa_theta * c)%C in
      let term2 := (RtoC (rho_sigma_d r * gamma (heston (hm p)) * eta_d * g_phi q * g_bd q) * c * one_minus_iu)%C in
      let term3 := (RtoC (rho_sigma_f r * gamma (heston (hm p)) * eta_f * g_phi q * g_bf q) * c * iu)%C in
      let term4 := (u2_plus_iu * RtoC zeta_k)%C in
      Ok (term1 + term2 + term3 + term4)%C) n (seq 0 (S n)) 0%C;
    Ok (acc * RtoC (g_h grid / 3))%C.

  (** src/models/forex/fx_hhw1_chf.rs:58-67  struct FxHhw1ForwardChf *)
  Record hhw1_chf := { h_expiry : R; h_n : nat; h_grid : simpson_grid }.
  (** src/models/forex/fx_hhw1_chf.rs:130-139  FxHhw1ForwardChf::with_simpson_steps *)
  Definition hhw1_with_steps (expiry : R) (n : nat) : outcome hhw1_chf :=
    if negb ((2 <=? n)%nat && (n mod 2 =? 0)%nat) then Panic PAssert
    else
      do grid <- grid_build expiry n;
      Ok {| h_expiry := expiry; h_n := n; h_grid := grid |}.
  (** src/models/forex/fx_hhw1_chf.rs:124-126  FxHhw1ForwardChf::new *)
  Definition hhw1_new (expiry : R) : outcome hhw1_chf := hhw1_with_steps expiry 128.

  (** src/models/forex/fx_hhw1_chf.rs:151-161  FxHhw1ForwardChf::components *)
  Definition components (q : hhw1_chf) (u : C) (tau : R) : outcome chf_components :=
    if negb ((if Rle_dec 0 tau then true else false) && (if Rle_dec tau (h_expiry q + / 10 ^ 12) then true else false)) then Panic PAssert
    else
      let b := (I_ * u)%C in
      let c := c_of_tau u tau p in
      do a <- (if Rlt_dec (Rabs (tau - h_expiry q)) (/ 10 ^ 12) then a_of_tau_cached u (h_grid q) else a_of_tau u tau (h_expiry q) (h_n q));
      Ok {| c_a := a; c_b := b; c_c := c |}.

  (** src/models/forex/fx_hhw1_chf.rs:165-176  FxHhw1ForwardChf::evaluate *)
  Definition hhw1_evaluate (q : hhw1_chf) (u : C) : outcome C :=
    let t := h_expiry q in
    do comps <- components q u t;
    let pd0t := exp (- rd_0 (hm p) * t) in
    let pf0t := exp (- rf_0 (hm p) * t) in
    let x0 := ln (fx_0 (hm p) * pf0t / pd0t) in
    Ok (assemble comps x0 (sigma_0 (heston (hm p)))).

  (** src/models/common/cos_pricer.rs:43-58  impl ForwardChf for FxHhw1ForwardChf.  Simplification: where
      evaluating panics, which [C81_total] excludes, the value here is zero. *)
  Definition hhw1_forward_chf (q : hhw1_chf) : forward_chf :=
    {| CosPricer.evaluate := fun u => match hhw1_evaluate q (RtoC u) with Ok z => z | _ => (0, 0) end;
       CosPricer.expiry := h_expiry q;
       CosPricer.log_forward := ln (fx_0 (hm p) * exp (- rf_0 (hm p) * h_expiry q) / exp (- rd_0 (hm p) * h_expiry q));
       CosPricer.typical_variance := theta (heston (hm p)) |}.
End Chf.
