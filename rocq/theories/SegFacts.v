(** Facts on the loop over the segments. *)
From Coq Require Import Bool List Arith Reals Psatz Lia.
Import ListNotations.
From Coquelicot Require Import Coquelicot.
From Verif Require Import Outcome ForwardPoints VolSurface Processes ProcessFacts HullWhite Complexes CLog Hhw1Chf HestonFacts Simpson Hhw1Facts Hlmm HlmmFacts SegChf HestonLog Riccati.
Open Scope R_scope.
Global Set Bullet Behavior "Strict Subproofs".

(** * Complex integrals *)
Lemma rftc (F g : R -> R) a b : a <= b -> (forall s, a <= s <= b -> is_derive F s (g s)) -> (forall s, a <= s <= b -> continuity_pt g s) -> RInt g a b = F b - F a.
Proof.
  intros H D Cn. apply is_RInt_unique. apply (is_RInt_derive F g).
  - intros s Hs. rewrite Rmin_left, Rmax_right in Hs by lra. apply D, Hs.
  - intros s Hs. rewrite Rmin_left, Rmax_right in Hs by lra. apply continuity_pt_filterlim, Cn, Hs.
Qed.
Lemma cint_ftc (F g : R -> C) a b : a <= b -> (forall s, a <= s <= b -> cderive F s (g s)) -> (forall s, a <= s <= b -> ccont g s) -> cint g a b = (F b - F a)%C.
Proof.
  intros H D Cn. apply C_eq; cbn [cint fst snd].
  - rewrite (rftc (fun s => fst (F s))); [cbn; ring|exact H| |]; intros s Hs; [apply (D s Hs)|apply (Cn s Hs)].
  - rewrite (rftc (fun s => snd (F s))); [cbn; ring|exact H| |]; intros s Hs; [apply (D s Hs)|apply (Cn s Hs)].
Qed.
Lemma cint_chasles (g : R -> C) a b c : a <= b -> b <= c -> (forall s, a <= s <= c -> ccont g s) -> cint g a c = (cint g a b + cint g b c)%C.
Proof.
  intros H1 H2 Cn. apply C_eq; cbn [cint fst snd Cplus]; symmetry; apply (@RInt_Chasles R_CompleteNormedModule);
    apply ex_RInt_cont; try assumption; intros s Hs; apply Cn; lra.
Qed.
Lemma cint_ext (f g : R -> C) a b : a <= b -> (forall s, a < s < b -> f s = g s) -> cint f a b = cint g a b.
Proof.
  intros H E. apply C_eq; cbn [cint fst snd]; apply RInt_ext; intros s Hs; rewrite Rmin_left, Rmax_right in Hs by lra; rewrite (E s Hs); reflexivity.
Qed.
Lemma ccont_ext f g t : (forall s, f s = g s) -> ccont f t -> ccont g t.
Proof. intros E [A B]. split; [apply (continuity_pt_ext (fun s => fst (f s)))|apply (continuity_pt_ext (fun s => snd (f s)))]; try assumption; intros s; rewrite E; reflexivity. Qed.

Lemma cpt_glue (f g : R -> R) c t : (t <= c -> continuity_pt f t) -> (c <= t -> continuity_pt g t) -> f c = g c -> continuity_pt (fun s => if Rle_dec s c then f s else g s) t.
Proof.
  intros Hf Hg E. destruct (Rtotal_order t c) as [H|[H|H]].
  - apply (continuity_pt_ext_loc f); [|apply Hf; lra]. exists (mkposreal (c - t) ltac:(lra)). intros s Hs. apply Rabs_def2 in Hs. unfold minus, plus, opp in Hs. cbn in Hs. destruct (Rle_dec s c); [reflexivity|exfalso; lra].
  - subst t. specialize (Hf (Rle_refl c)). specialize (Hg (Rle_refl c)). intros eps Heps. destruct (Hf eps Heps) as (d1 & P1 & Q1). destruct (Hg eps Heps) as (d2 & P2 & Q2).
    exists (Rmin d1 d2). split; [apply Rmin_glb_lt; assumption|]. intros s [Hs1 Hs2]. destruct (Rle_dec c c) as [_|]; [|exfalso; lra]. pose proof (Rmin_l d1 d2). pose proof (Rmin_r d1 d2).
    destruct (Rle_dec s c).
    + apply Q1. split; [exact Hs1|]. apply (Rlt_le_trans _ (Rmin d1 d2)); assumption.
    + rewrite E. apply Q2. split; [exact Hs1|]. apply (Rlt_le_trans _ (Rmin d1 d2)); assumption.
  - apply (continuity_pt_ext_loc g); [|apply Hg; lra]. exists (mkposreal (t - c) ltac:(lra)). intros s Hs. apply Rabs_def2 in Hs. unfold minus, plus, opp in Hs. cbn in Hs. destruct (Rle_dec s c); [exfalso; lra|reflexivity].
Qed.
Lemma ccont_glue (f g : R -> C) c t : (t <= c -> ccont f t) -> (c <= t -> ccont g t) -> f c = g c -> ccont (fun s => if Rle_dec s c then f s else g s) t.
Proof.
  intros Hf Hg E. split.
  - apply (continuity_pt_ext (fun s => if Rle_dec s c then fst (f s) else fst (g s))); [intros s; destruct (Rle_dec s c); reflexivity|].
    apply (cpt_glue (fun s => fst (f s)) (fun s => fst (g s))); [intros H; apply (Hf H)|intros H; apply (Hg H)|rewrite E; reflexivity].
  - apply (continuity_pt_ext (fun s => if Rle_dec s c then snd (f s) else snd (g s))); [intros s; destruct (Rle_dec s c); reflexivity|].
    apply (cpt_glue (fun s => snd (f s)) (fun s => snd (g s))); [intros H; apply (Hf H)|intros H; apply (Hg H)|rewrite E; reflexivity].
Qed.
Lemma cderive_shift f p t l : cderive f (t - p) l -> cderive (fun s => f (s - p)) t l.
Proof.
  intros [A B]. assert (D : is_derive (fun s => s - p) t 1) by (auto_derive; [exact I|ring]). split.
  - replace (fst l) with (scal 1 (fst l)) by (unfold scal; cbn; unfold mult; cbn; ring). apply (is_derive_comp (fun s => fst (f s)) (fun s => s - p) t _ _ A D).
  - replace (snd l) with (scal 1 (snd l)) by (unfold scal; cbn; unfold mult; cbn; ring). apply (is_derive_comp (fun s => snd (f s)) (fun s => s - p) t _ _ B D).
Qed.

(** * Segments *)
Fixpoint chain (prev : R) (segs : list segment) : Prop :=
  match segs with [] => True | s :: r => sg_length s = sg_tau s - prev /\ prev < sg_tau s /\ chain (sg_tau s) r end.
Fixpoint chain_end (prev : R) (segs : list segment) : R := match segs with [] => prev | s :: r => chain_end (sg_tau s) r end.
Lemma chain_end_ge segs : forall prev, chain prev segs -> prev <= chain_end prev segs.
Proof. induction segs as [|s r IH]; intros prev H; cbn in *; [lra|]. destruct H as (_ & H & G). pose proof (IH _ G). lra. Qed.
(** the segment a time lies in *)
Fixpoint in_segment (prev : R) (segs : list segment) (tau : R) (seg : segment) : Prop :=
  match segs with [] => False | s :: r => (prev < tau < sg_tau s /\ seg = s) \/ in_segment (sg_tau s) r tau seg end.
Lemma in_segment_range segs : forall prev tau seg, chain prev segs -> in_segment prev segs tau seg -> prev < tau < chain_end prev segs /\ In seg segs.
Proof.
  induction segs as [|s r IH]; intros prev tau seg H I; cbn in *; [contradiction|]. destruct H as (_ & H & G). pose proof (chain_end_ge _ _ G). destruct I as [[I ->]|I].
  - split; [lra|left; reflexivity].
  - destruct (IH _ _ _ G I) as [A B]. split; [lra|right; exact B].
Qed.

Section Sums.
  Context (w : C) (lambda eta v0 : R) (coef : segment -> R).
  (** the loop's value, and its share of the constant *)
  Fixpoint side_end (segs : list segment) (d0 : C) : C :=
    match segs with [] => d0 | s :: r => side_end r (fst (advance_d w lambda eta (coef s) v0 d0 (sg_length s))) end.
  Fixpoint side_sum (segs : list segment) (d0 : C) : C :=
    match segs with
    | [] => 0%C
    | s :: r => (snd (advance_d w lambda eta (coef s) v0 d0 (sg_length s)) + side_sum r (fst (advance_d w lambda eta (coef s) v0 d0 (sg_length s))))%C
    end.
End Sums.

Section Side.
  Context (u lambda eta v0 : R) (coef : segment -> R).
  Local Notation side_d := (side_end (RtoC u) lambda eta v0 coef).
  Local Notation side_a := (side_sum (RtoC u) lambda eta v0 coef).
  (** the coefficient at every time to expiry *)
  Fixpoint path (segs : list segment) (d0 : C) (prev tau : R) : C :=
    match segs with
    | [] => d0
    | s :: r =>
        if Rle_dec tau (sg_tau s) then fst (advance_d (RtoC u) lambda eta (coef s) v0 d0 (tau - prev))
        else path r (fst (advance_d (RtoC u) lambda eta (coef s) v0 d0 (sg_length s))) (sg_tau s) tau
    end.

  Context (Hl : 0 < lambda) (He : eta <> 0).
  Definition signs (d : C) : Prop := fst d <= 0 /\ u * snd d <= 0.
  Definition coefs (segs : list segment) : Prop := forall s, In s segs -> 0 <= coef s.

  Lemma advance_max a d0 s : fst (advance_d (RtoC u) lambda eta a v0 d0 s) = rsol u lambda eta a d0 (Rmax s 0).
  Proof.
    destruct (Rle_lt_dec s 0) as [H|H].
    - rewrite Rmax_right, rsol_0 by exact H. unfold advance_d. destruct (Rle_dec s 0); [reflexivity|exfalso; lra].
    - rewrite Rmax_left, advance_closed by lra. reflexivity.
  Qed.
  Lemma advance_signs a d0 s : 0 <= a -> signs d0 -> signs (fst (advance_d (RtoC u) lambda eta a v0 d0 s)).
  Proof. intros Ha [S1 S2]. rewrite advance_max. pose proof (Rmax_r s 0). split; [apply rsol_re|apply rsol_im]; assumption. Qed.
  Lemma advance_cont a d0 prev t : 0 <= a -> signs d0 -> ccont (fun tau => fst (advance_d (RtoC u) lambda eta a v0 d0 (tau - prev))) t.
  Proof.
    intros Ha [S1 S2]. apply (ccont_ext (fun tau => rsol u lambda eta a d0 (Rmax (tau - prev) 0))); [intros; rewrite advance_max; reflexivity|].
    apply (ccont_comp (rsol u lambda eta a d0) (fun tau => Rmax (tau - prev) 0)).
    - apply (continuity_pt_comp (fun tau => tau - prev) (fun s => Rmax s 0)); [apply derivable_continuous_pt; reg|apply cpt_max0].
    - eapply ccont_derive, rsol_derive; try assumption. apply Rmax_r.
  Qed.
  Lemma path_start segs d0 prev : chain prev segs -> path segs d0 prev prev = d0.
  Proof.
    destruct segs as [|s r]; intros H; cbn [path]; [reflexivity|]. destruct H as (_ & H & _). destruct (Rle_dec prev (sg_tau s)); [|exfalso; lra].
    unfold advance_d. replace (prev - prev) with 0 by ring. destruct (Rle_dec 0 0); [reflexivity|exfalso; lra].
  Qed.
  Lemma path_cont segs : forall d0 prev t, chain prev segs -> coefs segs -> signs d0 -> ccont (path segs d0 prev) t.
  Proof.
    induction segs as [|s r IH]; intros d0 prev t H K S0; [apply (ccont_const d0)|]. destruct H as (L & H & G). cbn [path].
    apply ccont_glue.
    - intros _. apply advance_cont; [apply K; left; reflexivity|exact S0].
    - intros _. apply IH; [exact G|intros x Hx; apply K; right; exact Hx|]. apply advance_signs; [apply K; left; reflexivity|exact S0].
    - rewrite path_start by exact G. rewrite L. reflexivity.
  Qed.
  Lemma path_end segs : forall d0 prev, chain prev segs -> path segs d0 prev (chain_end prev segs) = side_d segs d0.
  Proof.
    induction segs as [|s r IH]; intros d0 prev H; cbn [path side_end chain_end]; [reflexivity|]. destruct H as (L & H & G). pose proof (chain_end_ge _ _ G) as GE.
    destruct (Rle_dec (chain_end (sg_tau s) r) (sg_tau s)) as [Q|Q]; [|apply IH; exact G].
    assert (E : chain_end (sg_tau s) r = sg_tau s) by lra. rewrite E, <- L. rewrite <- (IH _ (sg_tau s) G), E, path_start by exact G. reflexivity.
  Qed.
  Lemma path_signs segs : forall d0 prev t, coefs segs -> signs d0 -> signs (path segs d0 prev t).
  Proof.
    induction segs as [|s r IH]; intros d0 prev t K S0; cbn [path]; [exact S0|]. destruct (Rle_dec t (sg_tau s)).
    - apply advance_signs; [apply K; left; reflexivity|exact S0].
    - apply IH; [intros x Hx; apply K; right; exact Hx|]. apply advance_signs; [apply K; left; reflexivity|exact S0].
  Qed.
  (** the Riccati equation inside every segment *)
  Lemma path_riccati segs : forall d0 prev tau seg, chain prev segs -> coefs segs -> signs d0 -> in_segment prev segs tau seg ->
    let D := path segs d0 prev in
    cderive D tau (RtoC (1 / 2) * (RtoC (coef seg) * hb (RtoC u)) - RtoC lambda * D tau + RtoC (1 / 2) * RtoC (eta * eta) * (D tau * D tau))%C.
  Proof.
    cbv zeta. induction segs as [|s r IH]; intros d0 prev tau seg H K S0 I; [contradiction I|]. destruct H as (L & H & G). cbn [path in_segment] in *. destruct I as [[I ->]|I].
    - destruct (Rle_dec tau (sg_tau s)) as [_|]; [|exfalso; lra].
      assert (EM : fst (advance_d (RtoC u) lambda eta (coef s) v0 d0 (tau - prev)) = rsol u lambda eta (coef s) d0 (tau - prev)) by (rewrite advance_max, Rmax_left by lra; reflexivity). rewrite !EM.
      apply cderive_ext_loc with (fun t => rsol u lambda eta (coef s) d0 (t - prev)).
      + exists (mkposreal (Rmin (tau - prev) (sg_tau s - tau)) ltac:(apply Rmin_glb_lt; lra)). intros t Ht. apply Rabs_def2 in Ht. unfold minus, plus, opp in Ht. cbn in Ht.
        pose proof (Rmin_l (tau - prev) (sg_tau s - tau)). pose proof (Rmin_r (tau - prev) (sg_tau s - tau)).
        destruct (Rle_dec t (sg_tau s)); [|exfalso; lra]. rewrite advance_max, Rmax_left by lra. reflexivity.
      + apply cderive_shift. apply rsol_derive; try assumption; [apply K; left; reflexivity|apply S0|apply S0|lra].
    - pose proof (in_segment_range _ _ _ _ G I) as [Q _]. destruct (Rle_dec tau (sg_tau s)) as [Z|_]; [exfalso; lra|].
      assert (K' : coefs r) by (intros x Hx; apply K; right; exact Hx).
      assert (S' : signs (fst (advance_d (RtoC u) lambda eta (coef s) v0 d0 (sg_length s)))) by (apply advance_signs; [apply K; left; reflexivity|exact S0]).
      eapply cderive_ext_loc; [|exact (IH _ (sg_tau s) tau seg G K' S' I)].
      exists (mkposreal (tau - sg_tau s) ltac:(lra)). intros t Ht. apply Rabs_def2 in Ht. unfold minus, plus, opp in Ht. cbn in Ht.
      destruct (Rle_dec t (sg_tau s)); [exfalso; lra|reflexivity].
  Qed.
  Lemma cint_scal (c : R) g a b : a <= b -> (forall s, a <= s <= b -> ccont g s) -> cint (fun s => RtoC c * g s)%C a b = (RtoC c * cint g a b)%C.
  Proof.
    intros H Cn. apply C_eq; rewrite ?fst_scal, ?snd_scal; cbn [cint fst snd].
    - rewrite (RInt_ext _ (fun s => scal c (fst (g s)))); [|intros s _; rewrite fst_scal; reflexivity]. apply (@RInt_scal R_CompleteNormedModule). apply ex_RInt_cont; [exact H|]. intros s Hs. apply (Cn s Hs).
    - rewrite (RInt_ext _ (fun s => scal c (snd (g s)))); [|intros s _; rewrite snd_scal; reflexivity]. apply (@RInt_scal R_CompleteNormedModule). apply ex_RInt_cont; [exact H|]. intros s Hs. apply (Cn s Hs).
  Qed.
  (** the loop adds up the integral *)
  Lemma path_integral segs : forall d0 prev, chain prev segs -> coefs segs -> signs d0 -> side_a segs d0 = (RtoC (lambda * v0) * cint (path segs d0 prev) prev (chain_end prev segs))%C.
  Proof.
    induction segs as [|s r IH]; intros d0 prev H K S0; cbn [side_sum chain_end].
    - rewrite <- (Cmult_0_r (RtoC (lambda * v0))). f_equal. apply C_eq; cbn [cint fst snd]; rewrite RInt_point; reflexivity.
    - pose proof H as H0. destruct H as (L & H & G). pose proof (chain_end_ge _ _ G) as GE.
      assert (K' : coefs r) by (intros x Hx; apply K; right; exact Hx).
      assert (Ka : 0 <= coef s) by (apply K; left; reflexivity).
      assert (S' : signs (fst (advance_d (RtoC u) lambda eta (coef s) v0 d0 (sg_length s)))) by (apply advance_signs; assumption).
      rewrite (cint_chasles _ prev (sg_tau s) (chain_end (sg_tau s) r)); [|lra|exact GE|intros t _; apply path_cont; assumption].
      rewrite (IH _ (sg_tau s) G K' S'). rewrite Cmult_plus_distr_l. f_equal.
      + rewrite (cint_ext _ (fun t => rsol u lambda eta (coef s) d0 (t - prev))); [|lra|].
        2:{ intros t Ht. cbn [path]. destruct (Rle_dec t (sg_tau s)); [|exfalso; lra]. rewrite advance_max, Rmax_left by lra. reflexivity. }
        pose proof (eta_neq eta He) as NE. destruct S0 as [S1 S2].
        assert (E : cint (fun t => RtoC (eta * eta) * rsol u lambda eta (coef s) d0 (t - prev))%C prev (sg_tau s) = rlog u lambda eta (coef s) d0 (sg_length s)).
        { rewrite (cint_ftc (fun t => rlog u lambda eta (coef s) d0 (t - prev))); [| lra | |].
          - rewrite L. replace (prev - prev) with 0 by ring. rewrite rlog_0 by assumption. ring.
          - intros t Ht. apply (cderive_shift (rlog u lambda eta (coef s) d0)). apply rlog_derive; try assumption. lra.
          - intros t Ht. apply ccont_mult; [apply ccont_const|]. eapply ccont_derive, cderive_shift, rsol_derive; try assumption. lra. }
        rewrite cint_scal in E; [|lra|intros t Ht; eapply ccont_derive, cderive_shift, rsol_derive; try assumption; lra].
        rewrite advance_closed by lra. cbn [snd]. rewrite <- E.
        replace (RtoC (v0 * lambda / (eta * eta))) with (RtoC (lambda * v0) / RtoC (eta * eta))%C; [field; exact NE|].
        rewrite <- RtoC_div; [f_equal; field; intros Z; apply He; nra|]. pose proof (eta_sq eta He). lra.
      + f_equal. apply cint_ext; [exact GE|]. intros t Ht. cbn [path]. destruct (Rle_dec t (sg_tau s)); [exfalso; lra|reflexivity].
  Qed.
  Lemma side_a_re segs : forall d0, (forall s, In s segs -> 0 < sg_length s) -> coefs segs -> signs d0 -> 0 <= v0 -> fst (side_a segs d0) <= 0.
  Proof.
    induction segs as [|s r IH]; intros d0 P K S0 Hv; cbn [side_sum]; [cbn; lra|].
    assert (Ka : 0 <= coef s) by (apply K; left; reflexivity).
    pose proof (P s (or_introl eq_refl)) as Ps.
    assert (S' : signs (fst (advance_d (RtoC u) lambda eta (coef s) v0 d0 (sg_length s)))) by (apply advance_signs; assumption).
    pose proof (IH _ (fun x Hx => P x (or_intror Hx)) (fun x Hx => K x (or_intror Hx)) S' Hv) as Q.
    destruct S0 as [S1 S2]. rewrite advance_closed in * by lra. cbn [fst snd] in *. change (fst (?x + ?y)%C) with (fst x + fst y). rewrite fst_scal.
    pose proof (rlog_re u lambda eta (coef s) d0 Hl He Ka S1 S2 (sg_length s) ltac:(lra)) as Z. pose proof (eta_sq eta He) as E2.
    assert (0 <= v0 * lambda / (eta * eta)) by (apply Rmult_le_pos; [nra|left; apply Rinv_0_lt_compat, E2]). nra.
  Qed.
End Side.

(** * The loop *)
Lemma sum_on_seq g n : sum_on (seq 0 (S n)) g = sum_f_R0 g n.
Proof. induction n as [|n IH]; [cbn; ring|]. rewrite seq_S, sum_on_app, IH. cbn [sum_f_R0]. rewrite sum_on_cons, sum_on_nil. change (0 + S n)%nat with (S n). ring. Qed.

(** the composite Simpson sum of [g] over [tau1, tau2] *)
Definition simpson (g : R -> R) (tau1 tau2 : R) (n : nat) : R :=
  let h := (tau2 - tau1) / INR n in wsum (fun k => g (tau1 + INR k * h)) n * h / 3.
Fixpoint simpson_on (fv : R -> nat -> R) (expiry : R) (n : nat) (prev : R) (segs : list segment) : R :=
  match segs with [] => 0 | s :: r => simpson (fun x => fv (expiry - x) (sg_start s)) prev (sg_tau s) n + simpson_on fv expiry n (sg_tau s) r end.

Lemma f_integral_ok f fv expiry tau1 tau2 start n : (forall t, f t start = Ok (fv t start)) ->
  f_integral f expiry tau1 tau2 start n = Ok (RtoC (simpson (fun x => fv (expiry - x) start) tau1 tau2 n)).
Proof.
  intros H. unfold f_integral. cbv zeta. rewrite (oadd_ok _ (fun k => weight k n * fv (expiry - (tau1 + INR k * ((tau2 - tau1) / INR n))) start)).
  - cbn [obind]. apply f_equal, f_equal. unfold simpson, wsum. cbv zeta. rewrite sum_on_seq, Rplus_0_l. reflexivity.
  - intros k _. rewrite H. reflexivity.
Qed.

Section Run.
  Context (heston : cir_process R_numbers) (rho : R) (ld ed vd lf ef vf : R).
  Context (f : R -> nat -> outcome R) (fv : R -> nat -> R) (expiry : R) (n : nat).

  Lemma run_value (w : C) segs : (forall s t, In s segs -> f t (sg_start s) = Ok (fv t (sg_start s))) -> forall a dd df prev,
    run_segments heston rho ld ed vd lf ef vf f expiry n w segs a dd df prev =
    Ok ((a + ((heston_a w (kappa heston) (theta heston) (gamma heston) rho (chain_end prev segs) - heston_a w (kappa heston) (theta heston) (gamma heston) rho prev)
          + side_sum w ld ed vd sg_ad segs dd + side_sum w lf ef vf sg_af segs df
          + RtoC (- (1 / 2)) * (w * w + I_ * w) * RtoC (simpson_on fv expiry n prev segs)))%C,
        side_end w ld ed vd sg_ad segs dd, side_end w lf ef vf sg_af segs df).
  Proof.
    induction segs as [|s r IH]; intros H a dd df prev.
    - cbn [run_segments chain_end side_sum side_end simpson_on]. apply f_equal. f_equal. f_equal. ring.
    - cbn [run_segments chain_end side_sum side_end simpson_on].
      destruct (advance_d w ld ed (sg_ad s) vd dd (sg_length s)) as [d1 a1] eqn:E1. destruct (advance_d w lf ef (sg_af s) vf df (sg_length s)) as [d2 a2] eqn:E2.
      rewrite (f_integral_ok f fv) by (intros t; apply H; left; reflexivity). cbn [obind fst snd].
      rewrite IH by (intros x t Hx; apply H; right; exact Hx). apply f_equal. f_equal. f_equal. unfold heston_a_increment.
      replace (RtoC (simpson (fun x => fv (expiry - x) (sg_start s)) prev (sg_tau s) n + simpson_on fv expiry n (sg_tau s) r))
        with (RtoC (simpson (fun x => fv (expiry - x) (sg_start s)) prev (sg_tau s) n) + RtoC (simpson_on fv expiry n (sg_tau s) r))%C by (apply C_eq; cbn; ring).
      ring.
  Qed.
  Lemma seg_run_value (w : C) segs : (forall s t, In s segs -> f t (sg_start s) = Ok (fv t (sg_start s))) ->
    seg_run heston rho ld ed vd lf ef vf f expiry n w segs =
    Ok {| s_a := (heston_a w (kappa heston) (theta heston) (gamma heston) rho (chain_end 0 segs)
          + side_sum w ld ed vd sg_ad segs 0 + side_sum w lf ef vf sg_af segs 0
          + RtoC (- (1 / 2)) * (w * w + I_ * w) * RtoC (simpson_on fv expiry n 0 segs))%C;
          s_b := (I_ * w)%C; s_c := heston_c w (kappa heston) (gamma heston) rho expiry;
          s_dd := side_end w ld ed vd sg_ad segs 0; s_df := side_end w lf ef vf sg_af segs 0 |}.
  Proof.
    intros H. unfold seg_run. rewrite (run_value w segs H). cbn [obind]. apply f_equal. f_equal.
    unfold heston_a at 2. destruct (Rle_dec 0 0) as [_|]; [|exfalso; lra]. ring.
  Qed.
End Run.

(** * The Heston share *)
Lemma heston_a_integral u kappa theta gamma rho T : 0 < kappa -> gamma <> 0 -> -1 <= rho <= 1 -> 0 <= T ->
  heston_a (RtoC u) kappa theta gamma rho T = (RtoC (kappa * theta) * cint (heston_c (RtoC u) kappa gamma rho) 0 T)%C.
Proof.
  intros Hk Hg Hr HT. rewrite heston_a_pos by assumption. pose proof (gamma_neq gamma Hg) as NG.
  assert (NG2 : (RtoC (gamma * gamma)) <> 0%C) by (apply eta_neq; exact Hg).
  assert (E : cint (fun s => RtoC (gamma * gamma) * hclosed (RtoC u) kappa gamma rho s)%C 0 T = hlog u kappa gamma rho T).
  { rewrite (cint_ftc (hlog u kappa gamma rho)); [|exact HT| |].
    - rewrite hlog_0 by assumption. ring.
    - intros s Hs. eapply cderive_eq; [apply hlog_derive; try assumption; lra|]. f_equal. apply C_eq; cbn; ring.
    - intros s Hs. apply ccont_mult; [apply ccont_const|]. eapply ccont_derive, hclosed_derive, hden_neq_0; try assumption. lra. }
  rewrite cint_scal in E; [|exact HT|intros s Hs; eapply ccont_derive, hclosed_derive, hden_neq_0; try assumption; lra].
  rewrite (cint_ext (heston_c (RtoC u) kappa gamma rho) (hclosed (RtoC u) kappa gamma rho)); [|exact HT|].
  - rewrite <- E. replace (RtoC (gamma * gamma)) with (RtoC gamma * RtoC gamma)%C by (apply C_eq; cbn; ring). field. exact NG.
  - intros s Hs. rewrite heston_c_max, Rmax_left by lra. reflexivity.
Qed.
Lemma heston_a_re u kappa theta gamma rho T : 0 < kappa -> 0 <= theta -> gamma <> 0 -> -1 <= rho <= 1 -> 0 <= T -> fst (heston_a (RtoC u) kappa theta gamma rho T) <= 0.
Proof.
  intros Hk Ht Hg Hr HT. rewrite heston_a_integral by assumption. rewrite fst_scal. cbn [cint fst].
  assert (RInt (fun s => fst (heston_c (RtoC u) kappa gamma rho s)) 0 T <= RInt (fun _ => 0) 0 T).
  { apply RInt_le; [exact HT| | |].
    - apply ex_RInt_cont; [exact HT|]. intros s Hs. apply heston_c_cont; [lra|]. apply hden_neq_0; try assumption. lra.
    - apply @ex_RInt_const.
    - intros s Hs. apply heston_c_re_le; assumption. }
  assert (Z : RInt (fun _ : R => 0) 0 T = (T - 0) * 0) by (apply (@RInt_const R_CompleteNormedModule)). rewrite Z in H. assert (K : 0 <= kappa * theta) by nra.
  set (r := RInt (fun s => fst (heston_c (RtoC u) kappa gamma rho s)) 0 T) in *. clearbody r. cbn in r. nra.
Qed.

(** * Simpson sums over the segments *)
Lemma RInt_shift (g : R -> R) a b : a <= b -> (forall x, a <= x <= b -> continuity_pt g x) -> RInt (fun x => g (a + x)) 0 (b - a) = RInt g a b.
Proof.
  intros H Cn. pose proof (@RInt_comp_lin R_CompleteNormedModule g 1 a 0 (b - a)) as E.
  replace (1 * 0 + a) with a in E by ring. replace (1 * (b - a) + a) with b in E by ring.
  rewrite <- E by (apply ex_RInt_cont; assumption). apply RInt_ext. intros x _. unfold scal. cbn. unfold mult. cbn. rewrite Rmult_1_l. f_equal. ring.
Qed.
Lemma simpson_lim (g : R -> R) a b : a < b -> (forall x, a <= x <= b -> continuity_pt g x) -> is_lim_seq (fun m => simpson g a b (2 * S m)) (RInt g a b).
Proof.
  intros H Cn. rewrite <- (RInt_shift g a b) by (try lra; exact Cn). apply is_lim_seq_spec. intros eps.
  assert (Cs : forall x, 0 <= x <= b - a -> continuity_pt (fun x => g (a + x)) x).
  { intros x Hx. apply (continuity_pt_comp (fun x => a + x) g); [apply derivable_continuous_pt; reg|apply Cn; lra]. }
  destruct (simpson_limit (fun x => g (a + x)) (b - a) ltac:(lra) Cs eps (cond_pos eps)) as [N HN].
  exists N. intros m Hm. specialize (HN (S m) ltac:(lia) ltac:(lia)). unfold simpson. cbv zeta.
  replace (wsum (fun k => g (a + INR k * ((b - a) / INR (2 * S m)))) (2 * S m) * ((b - a) / INR (2 * S m)) / 3)
    with ((b - a) / INR (2 * S m) / 3 * wsum (fun k => g (a + INR k * ((b - a) / INR (2 * S m)))) (2 * S m)) by (unfold Rdiv; ring). exact HN.
Qed.
Lemma simpson_on_lim fv T (G : R -> R) segs : forall prev, chain prev segs ->
  (forall s x, In s segs -> prev <= x <= chain_end prev segs -> continuity_pt (fun x => fv (T - x) (sg_start s)) x) ->
  (forall tau seg, in_segment prev segs tau seg -> fv (T - tau) (sg_start seg) = G tau) ->
  ex_RInt G prev (chain_end prev segs) /\ is_lim_seq (fun m => simpson_on fv T (2 * S m) prev segs) (RInt G prev (chain_end prev segs)).
Proof.
  induction segs as [|s r IH]; intros prev H Cn E; cbn [chain_end simpson_on].
  - split; [apply ex_RInt_point|]. rewrite RInt_point. apply is_lim_seq_const.
  - destruct H as (L & H & K). pose proof (chain_end_ge _ _ K) as GE. cbn [chain_end] in Cn.
    destruct (IH (sg_tau s) K) as [X1 X2].
    + intros x t Hx Ht. apply Cn; [right; exact Hx|lra].
    + intros tau seg I. apply E. right. exact I.
    + assert (Es : forall x, Rmin prev (sg_tau s) < x < Rmax prev (sg_tau s) -> fv (T - x) (sg_start s) = G x).
      { intros x Hx. rewrite Rmin_left, Rmax_right in Hx by lra. apply E. left. split; [lra|reflexivity]. }
      assert (Cs : forall x, prev <= x <= sg_tau s -> continuity_pt (fun x => fv (T - x) (sg_start s)) x) by (intros x Hx; apply Cn; [left; reflexivity|lra]).
      assert (X0 : ex_RInt G prev (sg_tau s)) by (apply (ex_RInt_ext (fun x => fv (T - x) (sg_start s))); [exact Es|apply ex_RInt_cont; [lra|exact Cs]]).
      split; [apply (ex_RInt_Chasles G prev (sg_tau s)); assumption|].
      rewrite <- (@RInt_Chasles R_CompleteNormedModule G prev (sg_tau s)) by assumption.
      apply (is_lim_seq_plus' _ _ _ _); [|exact X2]. rewrite <- (RInt_ext _ _ _ _ Es). apply simpson_lim; [exact H|exact Cs].
Qed.
