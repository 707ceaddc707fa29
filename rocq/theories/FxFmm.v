(** The cross-currency forward market model, over the real numbers (rounding idealised away): its parameters and
    their checks, and the coefficients of the linearised dynamics, which decay with time.  The tenor is one
    built by [FmmTenor::new]; see Fmm.v. *)
From Coq Require Import Bool List Arith Reals.
Import ListNotations.
From Verif Require Import Outcome ForwardPoints VolSurface Processes ProcessFacts HullWhite Hlmm.
From Verif Require Fmm.
Open Scope R_scope.

(** src/models/forex/fx_fmm.rs:66-81  struct FmmSide.  [LinearDecay] has no fields. *)
Record fmm_side := { fs_sigmas : list R; fs_lambda : R; fs_eta : R; fs_v0 : R; fs_corr : list (list R) }.

(** src/models/forex/fx_fmm.rs:86-125  FmmSide::validate.  [is_finite] holds of every real number. *)
Definition side_validate (s : fmm_side) (te : Fmm.fmm_tenor) : outcome unit :=
  let m := Fmm.m_of te in
  if negb (length (fs_sigmas s) =? m)%nat then Err EInvalidData
  else if negb (length (fs_corr s) =? m)%nat then Err EInvalidData
  else
    do _ <- check_corr (fs_corr s) m;
    if Rle_dec (fs_lambda s) 0 then Err EInvalidData
    else if Rle_dec (fs_eta s) 0 then Err EInvalidData
    else if Rle_dec (fs_v0 s) 0 then Err EInvalidData
    else ofor (fun x => if Rlt_dec x 0 then Err EInvalidData else Ok tt) (fs_sigmas s).

(** src/models/forex/fx_fmm.rs:150-159  FmmSide::psi_base *)
Definition psi_base (s : fmm_side) (te : Fmm.fmm_tenor) : outcome (list R) :=
  omapM (fun idx =>
    let j := (idx + 1)%nat in
    let tau_j := Fmm.tau te j in
    do r_j0 <- oindex (Fmm.initial_rates te) idx;
    do sg <- oindex (fs_sigmas s) idx;
    Ok (tau_j * sg / (1 + tau_j * r_j0))) (seq 0 (Fmm.m_of te)).

(** src/models/forex/fx_fmm.rs:172-188  struct FxFmmCorrelations *)
Record fmm_corr := { fc_xi_sigma : R; fc_xi_d : list R; fc_xi_f : list R; fc_sigma_d : list R; fc_sigma_f : list R; fc_cross : list (list R) }.
(** src/models/forex/fx_fmm.rs:191-249  FxFmmCorrelations::validate *)
Definition fmm_corr_validate (c : fmm_corr) (te : Fmm.fmm_tenor) : outcome unit :=
  let m := Fmm.m_of te in
  if Rlt_dec (1 + slack) (Rabs (fc_xi_sigma c)) then Err EInvalidData
  else if negb (length (fc_xi_d c) =? m)%nat then Err EInvalidData
  else if negb (length (fc_xi_f c) =? m)%nat then Err EInvalidData
  else if negb (length (fc_sigma_d c) =? m)%nat then Err EInvalidData
  else if negb (length (fc_sigma_f c) =? m)%nat then Err EInvalidData
  else if negb (length (fc_cross c) =? m)%nat then Err EInvalidData
  else
    do _ <- ofor (fun row : list R => if negb (length row =? m)%nat then Err EInvalidData else ofor check_entry row) (fc_cross c);
    ofor check_entry (fc_xi_d c ++ fc_xi_f c ++ fc_sigma_d c ++ fc_sigma_f c).

(** src/models/forex/fx_fmm.rs:254-264  struct FxFmmParams *)
Record fx_fmm := {
  fm_fx0 : R; fm_heston : cir_process R_numbers; fm_tenor : Fmm.fmm_tenor; fm_dom : fmm_side; fm_for : fmm_side; fm_corr : fmm_corr }.
(** src/models/forex/fx_fmm.rs:268-273  FxFmmParams::validate *)
Definition fmm_validate (p : fx_fmm) : outcome unit :=
  do _ <- side_validate (fm_dom p) (fm_tenor p);
  do _ <- side_validate (fm_for p) (fm_tenor p);
  fmm_corr_validate (fm_corr p) (fm_tenor p).

(** src/models/forex/fx_fmm.rs:283-291  psi_at *)
Definition psi_at (s : fmm_side) (te : Fmm.fmm_tenor) (t : R) : outcome (list R) :=
  do base <- psi_base s te;
  omapM (fun idx =>
    let j := (idx + 1)%nat in
    do b <- oindex base idx;
    Ok (b * Fmm.gamma j t te)) (seq 0 (Fmm.m_of te)).
(** src/models/forex/fx_fmm.rs:293-309  compute_a_side *)
Definition fmm_a_side (s : fmm_side) (te : Fmm.fmm_tenor) (t : R) (start : nat) : outcome R :=
  do psi <- psi_at s te t; quadratic psi (Fmm.m_of te) start (fs_corr s).
(** src/models/forex/fx_fmm.rs:314-316, 319-321  compute_a_d, compute_a_f *)
Definition fmm_a_d (p : fx_fmm) (t : R) (start : nat) : outcome R := fmm_a_side (fm_dom p) (fm_tenor p) t start.
Definition fmm_a_f (p : fx_fmm) (t : R) (start : nat) : outcome R := fmm_a_side (fm_for p) (fm_tenor p) t start.
(** src/models/forex/fx_fmm.rs:330-343  the process of a side's variance *)
Definition fmm_cir (s : fmm_side) : cir_process R_numbers := side_cir (fs_lambda s) (fs_eta s) (fs_v0 s).
(** src/models/forex/fx_fmm.rs:326-375  compute_f_linearised *)
Definition fmm_f (ln_gamma : R -> R) (p : fx_fmm) (t : R) (start : nat) : outcome R :=
  do psi_d <- psi_at (fm_dom p) (fm_tenor p) t;
  do psi_f <- psi_at (fm_for p) (fm_tenor p) t;
  do phi_xi <- sqrt_mean ln_gamma (fm_heston p) t;
  do phi_d <- sqrt_mean ln_gamma (fmm_cir (fm_dom p)) t;
  do phi_f <- sqrt_mean ln_gamma (fmm_cir (fm_for p)) t;
  cross_terms psi_d psi_f (fc_xi_d (fm_corr p)) (fc_xi_f (fm_corr p)) (fc_cross (fm_corr p)) (Fmm.m_of (fm_tenor p)) start phi_xi phi_d phi_f.
