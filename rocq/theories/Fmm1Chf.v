(** The forward characteristic function of the linearised cross-currency forward market model, over the real
    numbers (rounding idealised away). *)
From Coq Require Import Bool List Arith Reals.
Import ListNotations.
From Coquelicot Require Import Coquelicot.
From Verif Require Import Outcome ForwardPoints VolSurface Processes ProcessFacts HullWhite CosPricer Complexes CLog Hhw1Chf Hlmm SegChf FxFmm.
From Verif Require Fmm.
Open Scope R_scope.

(** src/models/forex/fx_fmm1_chf.rs:75-98  struct FxFmm1ForwardChf.  Simplification: the borrowed parameters are
    an argument of the functions, and the three cached processes are written out where they are used. *)
Record fmm1_chf := { g_expiry : R; g_segments : list segment; g_psi_d : list R; g_psi_f : list R; g_substeps : nat; g_n : nat }.

Section Chf.
  Context (ln_gamma : R -> R) (p : fx_fmm).

  (** src/models/forex/fx_fmm1_chf.rs:157-176  the chunks of one boundary segment *)
  Definition fmm_chunks (expiry prev tau_j : R) (n : nat) : outcome (list segment) :=
    let len := tau_j - prev in
    let h := len / INR n in
    let m := Fmm.m_of (fm_tenor p) in
    omapM (fun i =>
      let lo := prev + INR i * h in
      let hi := if (i + 1 =? n)%nat then tau_j else lo + h in
      let t_mid := expiry - 1 / 2 * (lo + hi) in
      let start_idx := Nat.min (Fmm.eta (fm_tenor p) t_mid) (m + 1) in
      do a_d <- fmm_a_d p t_mid start_idx;
      do a_f <- fmm_a_f p t_mid start_idx;
      Ok {| sg_tau := hi; sg_length := hi - lo; sg_start := start_idx; sg_ad := a_d; sg_af := a_f |}) (seq 0 n).
  (** src/models/forex/fx_fmm1_chf.rs:149-178  the loop building the segments *)
  Fixpoint fmm_segments (expiry : R) (n : nat) (prev : R) (bs : list R) : outcome (list segment) :=
    match bs with
    | [] => Ok []
    | tau_j :: bs =>
        if Rle_dec (tau_j - prev) 0 then fmm_segments expiry n tau_j bs
        else
          do chunks <- fmm_chunks expiry prev tau_j n;
          do rest <- fmm_segments expiry n tau_j bs;
          Ok (chunks ++ rest)
    end.
  (** src/models/forex/fx_fmm1_chf.rs:114-207  FxFmm1ForwardChf::with_resolution *)
  Definition fmm1_with_resolution (expiry : R) (n_substeps n_simpson : nat) : outcome fmm1_chf :=
    if negb (if Rlt_dec 0 expiry then true else false) then Panic PAssert
    else if negb (1 <=? n_substeps)%nat then Panic PAssert
    else if negb ((2 <=? n_simpson)%nat && (n_simpson mod 2 =? 0)%nat) then Panic PAssert
    else
      do _ <- (match fmm_validate p with Err _ => Panic PUnwrap | r => r end);
      do bs <- tau_boundaries (Fmm.dates (fm_tenor p)) (Fmm.m_of (fm_tenor p)) expiry;
      do segs <- fmm_segments expiry n_substeps 0 bs;
      do psi_d <- psi_base (fm_dom p) (fm_tenor p);
      do psi_f <- psi_base (fm_for p) (fm_tenor p);
      Ok {| g_expiry := expiry; g_segments := segs; g_psi_d := psi_d; g_psi_f := psi_f; g_substeps := n_substeps; g_n := n_simpson |}.
  (** src/models/forex/fx_fmm1_chf.rs:110-112  FxFmm1ForwardChf::new *)
  Definition fmm1_new (expiry : R) : outcome fmm1_chf := fmm1_with_resolution expiry 1 32.

  (** src/models/forex/fx_fmm1_chf.rs:432-437, 440-445  the sums over the correlations with the rate of exchange *)
  Definition side_mixed (psi xi : list R) (start : nat) (t : R) : outcome R :=
    oadd (fun j =>
      do idx <- pred_index j;
      let gj := Fmm.gamma j t (fm_tenor p) in
      do a <- oindex psi idx; do r <- oindex xi idx;
      Ok (a * gj * r)) (from_to start (Fmm.m_of (fm_tenor p))) 0.
  (** src/models/forex/fx_fmm1_chf.rs:418-466  FxFmm1ForwardChf::f_at.  Simplification: the two nested loops of
      the last sum are one loop over the pairs. *)
  Definition fmm_f_at (q : fmm1_chf) (t : R) (start : nat) : outcome R :=
    let m := Fmm.m_of (fm_tenor p) in
    if (m <? start)%nat then Ok 0
    else
      do phi_xi <- sqrt_mean ln_gamma (fm_heston p) t;
      do phi_d <- sqrt_mean ln_gamma (fmm_cir (fm_dom p)) t;
      do phi_f <- sqrt_mean ln_gamma (fmm_cir (fm_for p)) t;
      do s_ab <- side_mixed (g_psi_d q) (fc_xi_d (fm_corr p)) start t;
      let two_ab := s_ab * (2 * phi_xi * phi_d) in
      do s_ac <- side_mixed (g_psi_f q) (fc_xi_f (fm_corr p)) start t;
      let two_ac := s_ac * (2 * phi_xi * phi_f) in
      do s_bc <- oadd (fun '(j, k) =>
        do idx_j <- pred_index j;
        let gj := Fmm.gamma j t (fm_tenor p) in
        do idx_k <- pred_index k;
        let gk := Fmm.gamma k t (fm_tenor p) in
        do a <- oindex (g_psi_d q) idx_j; do b <- oindex (g_psi_f q) idx_k; do r <- entry (fc_cross (fm_corr p)) idx_j idx_k;
        Ok (a * gj * b * gk * r)) (flat_map (fun j => map (pair j) (from_to start m)) (from_to start m)) 0;
      let two_bc := s_bc * (2 * phi_d * phi_f) in
      Ok (two_ab - two_ac - two_bc).

  (** src/models/forex/fx_fmm1_chf.rs:214-283  FxFmm1ForwardChf::components *)
  Definition fmm1_components (q : fmm1_chf) (u : C) : outcome seg_components :=
    seg_run (fm_heston p) (fc_xi_sigma (fm_corr p)) (fs_lambda (fm_dom p)) (fs_eta (fm_dom p)) (fs_v0 (fm_dom p))
      (fs_lambda (fm_for p)) (fs_eta (fm_for p)) (fs_v0 (fm_for p)) (fmm_f_at q) (g_expiry q) (Nat.max (g_n q) 2) u (g_segments q).

  (** src/models/forex/fx_fmm1_chf.rs:476-478  the loop of discount_factors_from_rates *)
  Fixpoint rate_discount_loop (ks : list nat) (acc : R) : outcome R :=
    match ks with
    | [] => Ok acc
    | k :: ks =>
        do k' <- pred_index k;
        do r <- oindex (Fmm.initial_rates (fm_tenor p)) k';
        rate_discount_loop ks (acc / (1 + Fmm.tau (fm_tenor p) k * r))
    end.
  (** src/models/forex/fx_fmm1_chf.rs:472-484  discount_factors_from_rates *)
  Definition fmm_discounts (expiry : R) : outcome (R * R) :=
    let te := fm_tenor p in
    do tn <- oindex (Fmm.dates te) (Fmm.m_of te);
    do d <- rate_discount_loop (from_to 1 (Fmm.m_of te)) 1;
    if Rlt_dec (tn + slack) expiry then
      do i <- pred_index (Fmm.m_of te);
      do r_flat <- oindex (Fmm.initial_rates te) i;
      let d := d * exp (- r_flat * (expiry - tn)) in
      Ok (d, d)
    else Ok (d, d).

  (** src/models/forex/fx_fmm1_chf.rs:290-298  FxFmm1ForwardChf::evaluate *)
  Definition fmm1_evaluate (q : fmm1_chf) (u : C) : outcome C :=
    do comps <- fmm1_components q u;
    do (pd_0t, pf_0t) <- fmm_discounts (g_expiry q);
    let x0 := ln (fm_fx0 p * pf_0t / pd_0t) in
    Ok (seg_assemble comps x0 (sigma_0 (fm_heston p)) (fs_v0 (fm_dom p)) (fs_v0 (fm_for p))).

  (** src/models/common/cos_pricer.rs:80-95  impl ForwardChf for FxFmm1ForwardChf.  Simplification: where
      evaluating panics, which [C85_total] excludes, the value here is zero. *)
  Definition fmm1_forward_chf (q : fmm1_chf) : forward_chf :=
    {| CosPricer.evaluate := fun u => match fmm1_evaluate q (RtoC u) with Ok z => z | _ => (0, 0) end;
       CosPricer.expiry := g_expiry q;
       CosPricer.log_forward := ln (fm_fx0 p);
       CosPricer.typical_variance := theta (fm_heston p) |}.
End Chf.
