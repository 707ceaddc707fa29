(** The forward characteristic function of the linearised cross-currency Libor market model, over the real
    numbers (rounding idealised away). *)
From Coq Require Import Bool List Arith Reals.
Import ListNotations.
From Coquelicot Require Import Coquelicot.
From Verif Require Import Outcome ForwardPoints VolSurface Processes ProcessFacts HullWhite CosPricer Complexes CLog Hhw1Chf Hlmm SegChf.
Open Scope R_scope.

(** src/models/forex/fx_hlmm1_chf.rs:74-81  struct FxHlmm1ForwardChf.  Simplification: the borrowed parameters
    are an argument of the functions. *)
Record hlmm1_chf := { l_expiry : R; l_segments : list segment; l_n : nat }.

Section Chf.
  Context (ln_gamma : R -> R) (p : hlmm).

  (** src/models/forex/fx_hlmm1_chf.rs:116-138  the loop building the segments *)
  Fixpoint hlmm_segments (expiry prev : R) (bs : list R) : outcome (list segment) :=
    match bs with
    | [] => Ok []
    | tau_j :: bs =>
        let len := tau_j - prev in
        if Rle_dec len 0 then hlmm_segments expiry tau_j bs
        else
          let t_mid := expiry - 1 / 2 * (prev + tau_j) in
          let start_idx := (lt_m (hl_tenor p) t_mid + 1)%nat in
          do a_d <- hlmm_a_d p start_idx;
          do a_f <- hlmm_a_f p start_idx;
          do rest <- hlmm_segments expiry tau_j bs;
          Ok ({| sg_tau := tau_j; sg_length := len; sg_start := start_idx; sg_ad := a_d; sg_af := a_f |} :: rest)
    end.
  (** src/models/forex/fx_hlmm1_chf.rs:88-146  FxHlmm1ForwardChf::with_simpson_steps *)
  Definition hlmm1_with_steps (expiry : R) (n : nat) : outcome hlmm1_chf :=
    if negb ((2 <=? n)%nat && (n mod 2 =? 0)%nat) then Panic PAssert
    else if negb (if Rlt_dec 0 expiry then true else false) then Panic PAssert
    else
      do _ <- (match hlmm_validate p with Err _ => Panic PUnwrap | r => r end);
      do bs <- tau_boundaries (lt_dates (hl_tenor p)) (lt_n (hl_tenor p)) expiry;
      do segs <- hlmm_segments expiry 0 bs;
      Ok {| l_expiry := expiry; l_segments := segs; l_n := n |}.
  (** src/models/forex/fx_hlmm1_chf.rs:84-86  FxHlmm1ForwardChf::new *)
  Definition hlmm1_new (expiry : R) : outcome hlmm1_chf := hlmm1_with_steps expiry 32.

  (** src/models/forex/fx_hlmm1_chf.rs:153-224  FxHlmm1ForwardChf::components *)
  Definition hlmm1_components (q : hlmm1_chf) (u : C) : outcome seg_components :=
    seg_run (hl_heston p) (xi_sigma (hl_corr p)) (lm_lambda (hl_dom p)) (lm_eta (hl_dom p)) (lm_v0 (hl_dom p))
      (lm_lambda (hl_for p)) (lm_eta (hl_for p)) (lm_v0 (hl_for p)) (hlmm_f ln_gamma p) (l_expiry q) (l_n q) u (l_segments q).

  (** src/models/forex/fx_hlmm1_chf.rs:384-386  the loop of discount_factors_from_libors *)
  Fixpoint discount_loop (ks : list nat) (acc : R) : outcome R :=
    match ks with
    | [] => Ok acc
    | k :: ks =>
        do t <- lt_tau (hl_tenor p) k;
        do k' <- pred_index k;
        do l <- oindex (libors (hl_tenor p)) k';
        discount_loop ks (acc / (1 + t * l))
    end.
  (** src/models/forex/fx_hlmm1_chf.rs:380-392  discount_factors_from_libors *)
  Definition hlmm_discounts (expiry : R) : outcome (R * R) :=
    let te := hl_tenor p in
    do tn <- oindex (lt_dates te) (lt_n te);
    do d <- discount_loop (from_to 1 (lt_n te)) 1;
    if Rlt_dec (tn + slack) expiry then
      do i <- pred_index (lt_n te);
      do r_flat <- oindex (libors te) i;
      let d := d * exp (- r_flat * (expiry - tn)) in
      Ok (d, d)
    else Ok (d, d).

  (** src/models/forex/fx_hlmm1_chf.rs:233-241  FxHlmm1ForwardChf::evaluate *)
  Definition hlmm1_evaluate (q : hlmm1_chf) (u : C) : outcome C :=
    do comps <- hlmm1_components q u;
    do (pd_0t, pf_0t) <- hlmm_discounts (l_expiry q);
    let x0 := ln (hl_fx0 p * pf_0t / pd_0t) in
    Ok (seg_assemble comps x0 (sigma_0 (hl_heston p)) (lm_v0 (hl_dom p)) (lm_v0 (hl_for p))).

  (** src/models/common/cos_pricer.rs:60-78  impl ForwardChf for FxHlmm1ForwardChf.  Simplification: where
      evaluating panics, which [C83_total] excludes, the value here is zero. *)
  Definition hlmm1_forward_chf (q : hlmm1_chf) : forward_chf :=
    {| CosPricer.evaluate := fun u => match hlmm1_evaluate q (RtoC u) with Ok z => z | _ => (0, 0) end;
       CosPricer.expiry := l_expiry q;
       CosPricer.log_forward := ln (hl_fx0 p);
       CosPricer.typical_variance := theta (hl_heston p) |}.
End Chf.
