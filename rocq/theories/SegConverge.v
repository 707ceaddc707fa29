(** Riccati equations whose coefficient varies in time: two solutions stay as close as their coefficients, and
    the solutions on finer and finer segments converge to the solution of the varying coefficient. *)
From Coq Require Import Bool List Arith Reals Psatz Lia.
Import ListNotations.
From Coquelicot Require Import Coquelicot.
From Verif Require Import Outcome ForwardPoints VolSurface Processes ProcessFacts HullWhite CosPricer Complexes CLog Hhw1Chf HestonFacts Simpson Hhw1Facts P_Hhw1Chf
  Hlmm HlmmFacts SegChf HestonLog Riccati SegFacts SegTheory Hlmm1Facts.
Open Scope R_scope.
Global Set Bullet Behavior "Strict Subproofs".

(** * Growth off finitely many points *)
Lemma growth_base (F : R -> R) M a b : a <= b -> (forall t, a <= t <= b -> continuity_pt F t) -> (forall t, a < t < b -> exists d, is_derive F t d /\ d <= M) -> F b - F a <= M * (b - a).
Proof.
  intros H Cn D. destruct (Req_dec a b) as [->|N]; [lra|]. assert (L : a < b) by lra.
  set (df := fun t => if Rlt_dec a t then if Rlt_dec t b then Derive F t else M else M).
  destruct (MVT_gen F a b df) as (c & Hc & E).
  - intros t Ht. rewrite Rmin_left, Rmax_right in Ht by lra. destruct (D t Ht) as (d & Hd & _). unfold df. destruct (Rlt_dec a t); [|exfalso; lra]. destruct (Rlt_dec t b); [|exfalso; lra]. apply Derive_correct. exists d. exact Hd.
  - intros t Ht. rewrite Rmin_left, Rmax_right in Ht by lra. apply Cn, Ht.
  - rewrite Rmin_left, Rmax_right in Hc by lra. rewrite E. apply Rmult_le_compat_r; [lra|]. unfold df. destruct (Rlt_dec a c); [|lra]. destruct (Rlt_dec c b); [|lra].
    destruct (D c ltac:(lra)) as (d & Hd & Q). rewrite (is_derive_unique _ _ _ Hd). exact Q.
Qed.
Lemma growth (F : R -> R) M l : forall a b, a <= b -> (forall t, a <= t <= b -> continuity_pt F t) ->
  (forall t, a < t < b -> ~ In t l -> exists d, is_derive F t d /\ d <= M) -> F b - F a <= M * (b - a).
Proof.
  induction l as [|x l IH]; intros a b H Cn D.
  - apply growth_base; [exact H|exact Cn|]. intros t Ht. apply D; [exact Ht|intros []].
  - destruct (Rlt_dec a x) as [A|A]; [destruct (Rlt_dec x b) as [B|B]|].
    + pose proof (IH a x ltac:(lra) ltac:(intros t Ht; apply Cn; lra) ltac:(intros t Ht N; apply D; [lra|intros [E|E]; [lra|contradiction]])).
      pose proof (IH x b ltac:(lra) ltac:(intros t Ht; apply Cn; lra) ltac:(intros t Ht N; apply D; [lra|intros [E|E]; [lra|contradiction]])). lra.
    + apply (IH a b H Cn). intros t Ht N. apply D; [exact Ht|intros [E|E]; [lra|contradiction]].
    + apply (IH a b H Cn). intros t Ht N. apply D; [exact Ht|intros [E|E]; [lra|contradiction]].
Qed.
Lemma growth_abs (F : R -> R) M l a b : a <= b -> (forall t, a <= t <= b -> continuity_pt F t) ->
  (forall t, a < t < b -> ~ In t l -> exists d, is_derive F t d /\ Rabs d <= M) -> Rabs (F b - F a) <= M * (b - a).
Proof.
  intros H Cn D. apply Rabs_le. split.
  - pose proof (growth (fun t => - F t) M l a b H) as Q. assert (X : - F b - - F a <= M * (b - a)); [|lra]. apply Q.
    + intros t Ht. apply (continuity_pt_opp F), Cn, Ht.
    + intros t Ht N. destruct (D t Ht N) as (d & Hd & B). exists (- d). split; [apply (is_derive_opp F), Hd|]. apply Rabs_le_between in B. lra.
  - apply (growth F M l); try assumption. intros t Ht N. destruct (D t Ht N) as (d & Hd & B). exists d. split; [exact Hd|]. apply Rabs_le_between in B. lra.
Qed.

(** * Two solutions *)
Definition rslope (lambda eta : R) (b : C) (a : R) (d : C) : C := (RtoC (1 / 2) * (RtoC a * b) - RtoC lambda * d + RtoC (1 / 2) * RtoC (eta * eta) * (d * d))%C.
Definition solves (lambda eta : R) (b : C) (T : R) (l : list R) (a : R -> R) (D : R -> C) : Prop :=
  (forall t, 0 <= t <= T -> ccont D t) /\ (forall t, 0 <= t <= T -> fst (D t) <= 0) /\ forall t, 0 < t < T -> ~ In t l -> cderive D t (rslope lambda eta b (a t) (D t)).

Lemma riccati_close lambda eta b T l1 l2 a1 a2 D1 D2 delta : 0 < lambda -> solves lambda eta b T l1 a1 D1 -> solves lambda eta b T l2 a2 D2 -> D1 0 = D2 0 ->
  (forall t, 0 < t < T -> ~ In t l1 -> ~ In t l2 -> Rabs (a1 t - a2 t) <= delta) ->
  forall t, 0 <= t <= T -> (fst (D1 t) - fst (D2 t)) ^ 2 + (snd (D1 t) - snd (D2 t)) ^ 2 <= delta ^ 2 * (fst b ^ 2 + snd b ^ 2) / (8 * lambda) * t.
Proof.
  intros Hl (C1 & S1 & R1) (C2 & S2 & R2) Z A t Ht.
  set (N := fun t => (fst (D1 t) - fst (D2 t)) ^ 2 + (snd (D1 t) - snd (D2 t)) ^ 2).
  assert (G : N t - N 0 <= delta ^ 2 * (fst b ^ 2 + snd b ^ 2) / (8 * lambda) * (t - 0)).
  { apply (growth N _ (l1 ++ l2)); [lra| |].
    - intros s Hs. unfold N. destruct (C1 s ltac:(lra)) as [C11 C12], (C2 s ltac:(lra)) as [C21 C22].
      apply (continuity_pt_ext (fun s => (fst (D1 s) - fst (D2 s)) * (fst (D1 s) - fst (D2 s)) + (snd (D1 s) - snd (D2 s)) * (snd (D1 s) - snd (D2 s)))); [intros; ring|].
      apply continuity_pt_plus; apply continuity_pt_mult; apply continuity_pt_minus; assumption.
    - intros s Hs NI. assert (N1 : ~ In s l1) by (intros X; apply NI, in_app_iff; left; exact X). assert (N2 : ~ In s l2) by (intros X; apply NI, in_app_iff; right; exact X).
      destruct (R1 s ltac:(lra) N1) as [E11 E12], (R2 s ltac:(lra) N2) as [E21 E22]. specialize (A s ltac:(lra) N1 N2). pose proof (S1 s ltac:(lra)) as P1. pose proof (S2 s ltac:(lra)) as P2.
      set (x1 := fst (D1 s)) in *. set (y1 := snd (D1 s)) in *. set (x2 := fst (D2 s)) in *. set (y2 := snd (D2 s)) in *.
      set (f1 := fst (rslope lambda eta b (a1 s) (D1 s))) in *. set (g1 := snd (rslope lambda eta b (a1 s) (D1 s))) in *.
      set (f2 := fst (rslope lambda eta b (a2 s) (D2 s))) in *. set (g2 := snd (rslope lambda eta b (a2 s) (D2 s))) in *.
      exists (2 * (x1 - x2) * (f1 - f2) + 2 * (y1 - y2) * (g1 - g2)). split.
      + unfold N. apply (is_derive_ext (fun s => (fst (D1 s) - fst (D2 s)) * (fst (D1 s) - fst (D2 s)) + (snd (D1 s) - snd (D2 s)) * (snd (D1 s) - snd (D2 s)))); [intros; cbn; ring|].
        pose proof (@is_derive_minus _ R_NormedModule _ _ _ _ _ E11 E21) as M1. pose proof (@is_derive_minus _ R_NormedModule _ _ _ _ _ E12 E22) as M2.
        pose proof (is_derive_mult _ _ _ _ _ M1 M1 Rmult_comm) as Q1. pose proof (is_derive_mult _ _ _ _ _ M2 M2 Rmult_comm) as Q2.
        pose proof (@is_derive_plus _ R_NormedModule _ _ _ _ _ Q1 Q2) as Q. unfold plus, minus, mult, opp in Q. cbn in Q. fold x1 x2 y1 y2 in Q.
        replace (2 * (x1 - x2) * (f1 - f2) + 2 * (y1 - y2) * (g1 - g2)) with ((f1 + - f2) * (x1 + - x2) + (x1 + - x2) * (f1 + - f2) + ((g1 + - g2) * (y1 + - y2) + (y1 + - y2) * (g1 + - g2))) by ring.
        exact Q.
      + set (Dl := a1 s - a2 s) in *. set (p := x1 - x2). set (q := y1 - y2).
        assert (F : 2 * p * (f1 - f2) + 2 * q * (g1 - g2) = Dl * (p * fst b + q * snd b) - 2 * lambda * (p * p + q * q) + eta * eta * (x1 + x2) * (p * p + q * q)).
        { unfold f1, f2, g1, g2, rslope, Cplus, Cminus, Copp, Cmult, RtoC. cbn [fst snd Cplus Copp]. fold x1 y1 x2 y2. unfold p, q, Dl. field. }
        rewrite F. assert (B1 : eta * eta * (x1 + x2) * (p * p + q * q) <= 0).
        { assert (0 <= eta * eta) by apply Rle_0_sqr. assert (0 <= p * p + q * q) by (pose proof (Rle_0_sqr p); pose proof (Rle_0_sqr q); unfold Rsqr in *; lra). assert (eta * eta * (x1 + x2) <= 0) by nra. nra. }
        assert (B2 : Dl * (p * fst b + q * snd b) <= 2 * lambda * (p * p + q * q) + Dl ^ 2 * (fst b ^ 2 + snd b ^ 2) / (8 * lambda)).
        { assert (AG : forall x y, Dl * (x * y) <= 2 * lambda * (x * x) + Dl ^ 2 * y ^ 2 / (8 * lambda)).
          { intros x y. pose proof (Rle_0_sqr (4 * lambda * x - Dl * y)) as SQ. unfold Rsqr in SQ. apply (Rmult_le_reg_r (8 * lambda)); [lra|].
            replace ((2 * lambda * (x * x) + Dl ^ 2 * y ^ 2 / (8 * lambda)) * (8 * lambda)) with (16 * lambda * lambda * (x * x) + Dl ^ 2 * y ^ 2) by (field; lra). nra. }
          pose proof (AG p (fst b)). pose proof (AG q (snd b)).
          replace (Dl ^ 2 * (fst b ^ 2 + snd b ^ 2) / (8 * lambda)) with (Dl ^ 2 * fst b ^ 2 / (8 * lambda) + Dl ^ 2 * snd b ^ 2 / (8 * lambda)) by (field; lra). lra. }
        assert (B3 : Dl ^ 2 * (fst b ^ 2 + snd b ^ 2) / (8 * lambda) <= delta ^ 2 * (fst b ^ 2 + snd b ^ 2) / (8 * lambda)).
        { apply Rmult_le_compat_r; [left; apply Rinv_0_lt_compat; lra|]. apply Rmult_le_compat_r; [pose proof (pow2_ge_0 (fst b)); pose proof (pow2_ge_0 (snd b)); lra|].
          rewrite <- (pow2_abs Dl). apply pow_incr. split; [apply Rabs_pos|exact A]. }
        lra. }
  assert (N0 : N 0 = 0) by (unfold N; rewrite Z; ring). rewrite N0 in G. unfold N in G. rewrite Rminus_0_r in G. lra.
Qed.
(** in the form of a distance *)
Definition reach (lambda : R) (b : C) (T : R) : R := Cmod b * sqrt (T / (8 * lambda)).
Lemma reach_pos lambda b T : 0 <= reach lambda b T.
Proof. apply Rmult_le_pos; [apply Cmod_ge_0|apply sqrt_pos]. Qed.
Lemma riccati_distance lambda eta b T l1 l2 a1 a2 D1 D2 delta : 0 < lambda -> 0 <= delta -> solves lambda eta b T l1 a1 D1 -> solves lambda eta b T l2 a2 D2 -> D1 0 = D2 0 ->
  (forall t, 0 < t < T -> ~ In t l1 -> ~ In t l2 -> Rabs (a1 t - a2 t) <= delta) ->
  forall t, 0 <= t <= T -> Cmod (D1 t - D2 t)%C <= delta * reach lambda b T.
Proof.
  intros Hl Hd S1 S2 Z A t Ht. pose proof (riccati_close lambda eta b T l1 l2 a1 a2 D1 D2 delta Hl S1 S2 Z A t Ht) as Q.
  unfold Cmod at 1. apply Rsqr_incr_0_var; [|apply Rmult_le_pos; [exact Hd|apply reach_pos]]. 
  rewrite Rsqr_sqrt by (pose proof (pow2_ge_0 (fst (D1 t - D2 t)%C)); pose proof (pow2_ge_0 (snd (D1 t - D2 t)%C)); lra).
  change (fst (D1 t - D2 t)%C) with (fst (D1 t) - fst (D2 t)). change (snd (D1 t - D2 t)%C) with (snd (D1 t) - snd (D2 t)).
  eapply Rle_trans; [exact Q|]. unfold reach, Rsqr.
  replace (delta * (Cmod b * sqrt (T / (8 * lambda))) * (delta * (Cmod b * sqrt (T / (8 * lambda))))) with (delta ^ 2 * (Cmod b * Cmod b) * (sqrt (T / (8 * lambda)) * sqrt (T / (8 * lambda)))) by ring.
  rewrite sqrt_sqrt by (apply Rmult_le_pos; [lra|left; apply Rinv_0_lt_compat; lra]).
  assert (CB : Cmod b * Cmod b = fst b ^ 2 + snd b ^ 2) by (unfold Cmod; apply sqrt_sqrt; pose proof (pow2_ge_0 (fst b)); pose proof (pow2_ge_0 (snd b)); lra).
  rewrite CB. replace (delta ^ 2 * (fst b ^ 2 + snd b ^ 2) * (T / (8 * lambda))) with (delta ^ 2 * (fst b ^ 2 + snd b ^ 2) / (8 * lambda) * T) by (unfold Rdiv; ring).
  apply Rmult_le_compat_l; [|lra]. apply Rmult_le_pos; [|left; apply Rinv_0_lt_compat; lra].
  apply Rmult_le_pos; [apply pow2_ge_0|]. pose proof (pow2_ge_0 (fst b)). pose proof (pow2_ge_0 (snd b)). lra.
Qed.

(** * The solutions on segments *)
Section Pieces.
  Context (u lambda eta v0 : R) (coef : segment -> R).
  Fixpoint piece (segs : list segment) (tau : R) : R :=
    match segs with [] => 0 | s :: r => if Rle_dec tau (sg_tau s) then coef s else piece r tau end.
  Lemma piece_in segs : forall prev tau seg, chain prev segs -> in_segment prev segs tau seg -> piece segs tau = coef seg.
  Proof.
    induction segs as [|s r IH]; intros prev tau seg H I; [contradiction|]. destruct H as (_ & H & G). cbn [piece]. destruct I as [[I ->]|I].
    - destruct (Rle_dec tau (sg_tau s)); [reflexivity|exfalso; lra].
    - pose proof (in_segment_range _ _ _ _ G I) as [Q _]. destruct (Rle_dec tau (sg_tau s)); [exfalso; lra|]. apply (IH _ _ _ G I).
  Qed.
  Context (Hl : 0 < lambda) (He : eta <> 0).
  Lemma path_solves segs : chain 0 segs -> coefs coef segs -> solves lambda eta (hb (RtoC u)) (chain_end 0 segs) (map sg_tau segs) (piece segs) (path u lambda eta v0 coef segs 0 0).
  Proof.
    intros Ch K. assert (S0 : signs u (RtoC 0)) by (split; cbn; lra). split; [|split].
    - intros t _. apply path_cont; assumption.
    - intros t _. apply path_signs; assumption.
    - intros t Ht N. destruct (in_segment_exists segs 0 t Ch Ht) as [seg I].
      { intros s Hs E. apply N. rewrite E. apply in_map. exact Hs. }
      rewrite (piece_in segs 0 t seg Ch I). unfold rslope. exact (path_riccati u lambda eta v0 coef Hl He segs (RtoC 0) 0 t seg Ch K S0 I).
  Qed.
  Lemma path_clamp segs : forall d0 prev t, chain prev segs -> path u lambda eta v0 coef segs d0 prev t = path u lambda eta v0 coef segs d0 prev (Rmax prev (Rmin t (chain_end prev segs))).
  Proof.
    induction segs as [|s r IH]; intros d0 prev t H; [reflexivity|]. destruct H as (L & H & G). pose proof (chain_end_ge _ _ G) as GE. cbn [path chain_end].
    destruct (Rle_dec t (sg_tau s)) as [A|A].
    - rewrite (Rmin_left t) by lra. destruct (Rle_dec (Rmax prev t) (sg_tau s)) as [_|B]; [|exfalso; apply B; apply Rmax_lub; lra].
      destruct (Rle_dec prev t) as [P|P]; [rewrite Rmax_right by exact P; reflexivity|]. rewrite Rmax_left by lra. unfold advance_d.
      destruct (Rle_dec (t - prev) 0); [|exfalso; lra]. destruct (Rle_dec (prev - prev) 0); [|exfalso; lra]. reflexivity.
    - assert (Q : Rmax prev (Rmin t (chain_end (sg_tau s) r)) = Rmax (sg_tau s) (Rmin t (chain_end (sg_tau s) r))).
      { assert (sg_tau s <= Rmin t (chain_end (sg_tau s) r)) by (apply Rmin_glb; lra). rewrite !Rmax_right by lra. reflexivity. }
      rewrite Q. destruct (Rle_dec (Rmax (sg_tau s) (Rmin t (chain_end (sg_tau s) r))) (sg_tau s)) as [B|B].
      + assert (M : Rmax (sg_tau s) (Rmin t (chain_end (sg_tau s) r)) = sg_tau s) by (apply Rle_antisym; [exact B|apply Rmax_l]).
        rewrite (IH _ (sg_tau s) t G), M. rewrite path_start by exact G. rewrite L. reflexivity.
      + apply IH. exact G.
  Qed.
End Pieces.

(** * The limit *)
Lemma Cmod_fst z : Rabs (fst z) <= Cmod z.
Proof. eapply Rle_trans; [apply Rmax_l|apply Rmax_Cmod]. Qed.
Lemma Cmod_snd z : Rabs (snd z) <= Cmod z.
Proof. eapply Rle_trans; [apply Rmax_r|apply Rmax_Cmod]. Qed.

Lemma cauchy_limit (x del : nat -> R) K : 0 <= K -> is_lim_seq del 0 -> (forall k l, Rabs (x k - x l) <= (del k + del l) * K) ->
  exists y : R, is_lim_seq x y /\ forall k, Rabs (x k - y) <= del k * K.
Proof.
  intros HK Hd B. assert (E : ex_finite_lim_seq x).
  { apply ex_lim_seq_cauchy_corr. intros eps. apply is_lim_seq_spec in Hd.
    assert (P : 0 < eps / (2 * (K + 1))) by (apply Rdiv_lt_0_compat; [apply cond_pos|lra]). destruct (Hd (mkposreal _ P)) as [N HN]. exists N. intros n m Hn Hm. cbn [pos] in HN.
    pose proof (HN n Hn) as A1. pose proof (HN m Hm) as A2. rewrite Rminus_0_r in A1, A2. apply Rabs_def2 in A1, A2. eapply Rle_lt_trans; [apply B|].
    apply Rle_lt_trans with ((eps / (2 * (K + 1)) + eps / (2 * (K + 1))) * K); [apply Rmult_le_compat_r; lra|].
    replace ((eps / (2 * (K + 1)) + eps / (2 * (K + 1))) * K) with (eps * (K / (K + 1))) by (field; lra).
    rewrite <- (Rmult_1_r eps) at 2. apply Rmult_lt_compat_l; [apply cond_pos|]. apply Rmult_lt_reg_r with (K + 1); [lra|]. replace (K / (K + 1) * (K + 1)) with K by (field; lra). lra. }
  destruct E as [y Hy]. exists y. split; [exact Hy|]. intros k.
  assert (L1 : is_lim_seq (fun l => Rabs (x k - x l)) (Rabs (x k - y))) by (apply (is_lim_seq_abs _ (Finite (x k - y))); apply is_lim_seq_minus'; [apply is_lim_seq_const|exact Hy]).
  assert (L2 : is_lim_seq (fun l => (del k + del l) * K) ((del k + 0) * K)) by (apply is_lim_seq_mult'; [apply is_lim_seq_plus'; [apply is_lim_seq_const|exact Hd]|apply is_lim_seq_const]).
  rewrite Rplus_0_r in L2. exact (is_lim_seq_le _ _ _ _ (fun l => B k l) L1 L2).
Qed.
Lemma uniform_cont (f : nat -> R -> R) (g : R -> R) (del : nat -> R) : is_lim_seq del 0 -> (forall k t, Rabs (f k t - g t) <= del k) -> (forall k t, continuity_pt (f k) t) -> forall t, continuity_pt g t.
Proof.
  intros Hd B Cn t eps He. apply is_lim_seq_spec in Hd. destruct (Hd (mkposreal (eps / 3) ltac:(lra))) as [N HN]. specialize (HN N (le_n N)). cbn [pos] in HN. rewrite Rminus_0_r in HN. apply Rabs_def2 in HN.
  destruct (Cn N t (eps / 3) ltac:(lra)) as (d & Dp & Hx). exists d. split; [exact Dp|]. intros y Hy. specialize (Hx y Hy). unfold dist, R_met, R_dist in *. cbn [Base] in *. cbv beta in *.
  pose proof (B N y) as B1. pose proof (B N t) as B2.
  replace (g y - g t) with (- (f N y - g y) + (f N y - f N t) + (f N t - g t)) by ring.
  eapply Rle_lt_trans; [apply Rabs_triang|]. eapply Rle_lt_trans; [apply Rplus_le_compat_r, Rabs_triang|]. rewrite Rabs_Ropp. lra.
Qed.
Lemma bounded_on (f : R -> C) T : 0 <= T -> (forall t, ccont f t) -> exists B, 0 <= B /\ forall t, 0 <= t <= T -> Cmod (f t) <= B.
Proof.
  intros HT Cn. destruct (continuity_ab_maj (fun t => Rabs (fst (f t))) 0 T HT) as (x & Hx & _).
  { intros c _. apply (continuity_pt_comp (fun t => fst (f t)) Rabs); [apply Cn|apply Rcontinuity_abs]. }
  destruct (continuity_ab_maj (fun t => Rabs (snd (f t))) 0 T HT) as (y & Hy & _).
  { intros c _. apply (continuity_pt_comp (fun t => snd (f t)) Rabs); [apply Cn|apply Rcontinuity_abs]. }
  exists (sqrt 2 * Rmax (Rabs (fst (f x))) (Rabs (snd (f y)))). split.
  - apply Rmult_le_pos; [apply sqrt_pos|]. eapply Rle_trans; [apply Rabs_pos|apply Rmax_l].
  - intros t Ht. eapply Rle_trans; [apply Cmod_2Rmax|]. apply Rmult_le_compat_l; [apply sqrt_pos|]. apply Rmax_lub.
    + eapply Rle_trans; [apply (Hx t Ht)|apply Rmax_l].
    + eapply Rle_trans; [apply (Hy t Ht)|apply Rmax_r].
Qed.

Section Limit.
  Context (u lambda eta v0 T : R) (coef : segment -> R) (segs : nat -> list segment) (a : R -> R) (del : nat -> R).
  Context (Hl : 0 < lambda) (He : eta <> 0) (HT : 0 < T).
  Context (Ch : forall k, chain 0 (segs k)) (En : forall k, chain_end 0 (segs k) = T) (Co : forall k, coefs coef (segs k)).
  Context (Ca : forall t, continuity_pt a t) (Dp : forall k, 0 <= del k) (Dl : is_lim_seq del 0).
  Context (Near : forall k tau seg, in_segment 0 (segs k) tau seg -> Rabs (coef seg - a tau) <= del k).
  Local Notation P k := (path u lambda eta v0 coef (segs k) 0%C 0).
  Local Notation b := (hb (RtoC u)).
  Local Notation K := (reach lambda b T).

  Lemma piece_near k t : 0 < t < T -> ~ In t (map sg_tau (segs k)) -> Rabs (piece coef (segs k) t - a t) <= del k.
  Proof.
    intros Ht N. destruct (in_segment_exists (segs k) 0 t (Ch k)) as [seg I].
    - rewrite En. exact Ht.
    - intros s Hs E. apply N. rewrite E. apply in_map. exact Hs.
    - rewrite (piece_in coef (segs k) 0 t seg (Ch k) I). apply (Near k t seg I).
  Qed.
  Lemma path_near k l t : Cmod (P k t - P l t)%C <= (del k + del l) * K.
  Proof.
    assert (IN : forall t, 0 <= t <= T -> Cmod (P k t - P l t)%C <= (del k + del l) * K).
    { intros x Hx. pose proof (path_solves u lambda eta v0 coef Hl He (segs k) (Ch k) (Co k)) as S1. pose proof (path_solves u lambda eta v0 coef Hl He (segs l) (Ch l) (Co l)) as S2. rewrite En in S1, S2.
      apply (riccati_distance lambda eta b T (map sg_tau (segs k)) (map sg_tau (segs l)) (piece coef (segs k)) (piece coef (segs l))); try assumption.
      - pose proof (Dp k). pose proof (Dp l). lra.
      - rewrite !path_start by apply Ch. reflexivity.
      - intros y Hy N1 N2. pose proof (piece_near k y Hy N1) as A1. pose proof (piece_near l y Hy N2) as A2.
        replace (piece coef (segs k) y - piece coef (segs l) y) with ((piece coef (segs k) y - a y) + - (piece coef (segs l) y - a y)) by ring. eapply Rle_trans; [apply Rabs_triang|]. rewrite Rabs_Ropp. lra. }
    rewrite (path_clamp u lambda eta v0 coef (segs k) _ 0 t (Ch k)), (path_clamp u lambda eta v0 coef (segs l) _ 0 t (Ch l)), !En. apply IN. split; [apply Rmax_l|]. apply Rmax_lub; [lra|apply Rmin_r].
  Qed.
  Definition limit_path (t : R) : C := (real (Lim_seq (fun k => fst (P k t))), real (Lim_seq (fun k => snd (P k t)))).
  Lemma limit_near t : is_lim_seq (fun k => fst (P k t)) (fst (limit_path t)) /\ is_lim_seq (fun k => snd (P k t)) (snd (limit_path t)) /\
    forall k, Rabs (fst (P k t) - fst (limit_path t)) <= del k * K /\ Rabs (snd (P k t) - snd (limit_path t)) <= del k * K.
  Proof.
    destruct (cauchy_limit (fun k => fst (P k t)) del K (reach_pos _ _ _) Dl) as (x & X1 & X2).
    { intros k l. eapply Rle_trans; [|apply (path_near k l t)]. exact (Cmod_fst (P k t - P l t)%C). }
    destruct (cauchy_limit (fun k => snd (P k t)) del K (reach_pos _ _ _) Dl) as (y & Y1 & Y2).
    { intros k l. eapply Rle_trans; [|apply (path_near k l t)]. exact (Cmod_snd (P k t - P l t)%C). }
    assert (E : limit_path t = (x, y)) by (unfold limit_path; rewrite (is_lim_seq_unique _ _ X1), (is_lim_seq_unique _ _ Y1); reflexivity).
    rewrite E. cbn [fst snd]. split; [exact X1|]. split; [exact Y1|]. intros k. split; [apply X2|apply Y2].
  Qed.
  Lemma limit_cont t : ccont limit_path t.
  Proof.
    assert (Dk : is_lim_seq (fun k => del k * K) 0) by (replace 0 with (0 * K) by ring; apply is_lim_seq_mult'; [exact Dl|apply is_lim_seq_const]).
    assert (S0 : signs u (RtoC 0)) by (split; cbn; lra). split.
    - apply (uniform_cont (fun k t => fst (P k t)) _ _ Dk); [intros k s; apply limit_near|]. intros k s. apply path_cont; (apply Ch || apply Co || assumption).
    - apply (uniform_cont (fun k t => snd (P k t)) _ _ Dk); [intros k s; apply limit_near|]. intros k s. apply path_cont; (apply Ch || apply Co || assumption).
  Qed.
  Lemma limit_start : limit_path 0 = 0%C.
  Proof.
    destruct (limit_near 0) as (A & B & _). assert (E : forall k, P k 0 = 0%C) by (intros k; apply path_start, Ch).
    apply (is_lim_seq_ext _ (fun _ => 0)) in A; [|intros k; rewrite E; reflexivity]. apply (is_lim_seq_ext _ (fun _ => 0)) in B; [|intros k; rewrite E; reflexivity].
    apply is_lim_seq_unique in A, B. rewrite Lim_seq_const in A, B. apply (f_equal real) in A, B. cbn [real] in A, B. apply C_eq; [exact (eq_sym A)|exact (eq_sym B)].
  Qed.
  Lemma limit_signs t : signs u (limit_path t).
  Proof.
    destruct (limit_near t) as (A & B & _). assert (S0 : signs u (RtoC 0)) by (split; cbn; lra).
    assert (E : forall k, signs u (P k t)) by (intros k; apply path_signs; (apply Co || assumption)). split.
    - apply (is_lim_seq_le _ (fun _ => 0) (Finite (fst (limit_path t))) (Finite 0) (fun k => proj1 (E k)) A (is_lim_seq_const 0)).
    - apply (is_lim_seq_le (fun k => u * snd (P k t)) (fun _ => 0) (Finite (u * snd (limit_path t))) (Finite 0) (fun k => proj2 (E k))); [|apply is_lim_seq_const].
      apply is_lim_seq_mult'; [apply is_lim_seq_const|exact B].
  Qed.
  Definition limit_slope (t : R) : C := rslope lambda eta b (a t) (limit_path t).
  Lemma slope_cont t : ccont limit_slope t.
  Proof.
    unfold limit_slope, rslope. destruct (limit_cont t) as [C1 C2]. pose proof (Ca t) as C3. generalize b. intros bb. split.
    - apply (continuity_pt_ext (fun t => 1 / 2 * fst bb * a t - lambda * fst (limit_path t) + 1 / 2 * (eta * eta) * (fst (limit_path t) * fst (limit_path t) - snd (limit_path t) * snd (limit_path t)))).
      + intros s. unfold Cminus, Cplus, Copp, Cmult, RtoC. cbn [fst snd]. ring.
      + apply continuity_pt_plus; [apply continuity_pt_minus; (apply continuity_pt_mult; [apply continuity_pt_const; intros ? ?; reflexivity|assumption])|].
        apply continuity_pt_mult; [apply continuity_pt_const; intros ? ?; reflexivity|]. apply continuity_pt_minus; apply continuity_pt_mult; assumption.
    - apply (continuity_pt_ext (fun t => 1 / 2 * snd bb * a t - lambda * snd (limit_path t) + 1 / 2 * (eta * eta) * (2 * (fst (limit_path t) * snd (limit_path t))))).
      + intros s. unfold Cminus, Cplus, Copp, Cmult, RtoC. cbn [fst snd]. ring.
      + apply continuity_pt_plus; [apply continuity_pt_minus; (apply continuity_pt_mult; [apply continuity_pt_const; intros ? ?; reflexivity|assumption])|].
        apply continuity_pt_mult; [apply continuity_pt_const; intros ? ?; reflexivity|]. apply continuity_pt_mult; [apply continuity_pt_const; intros ? ?; reflexivity|]. apply continuity_pt_mult; assumption.
  Qed.
  Lemma limit_near_c k t : Cmod (P k t - limit_path t)%C <= del k * (2 * K).
  Proof.
    destruct (limit_near t) as (_ & _ & B). destruct (B k) as [B1 B2]. pose proof (reach_pos lambda b T) as KP. pose proof (Dp k) as DP. assert (0 <= del k * K) by (apply Rmult_le_pos; assumption).
    unfold Cmod. change (fst (P k t - limit_path t)%C) with (fst (P k t) - fst (limit_path t)). change (snd (P k t - limit_path t)%C) with (snd (P k t) - snd (limit_path t)).
    rewrite <- (sqrt_Rsqr (del k * (2 * K))) by lra. apply sqrt_le_1_alt. rewrite <- !Rsqr_pow2, (Rsqr_abs (fst (P k t) - _)), (Rsqr_abs (snd (P k t) - _)). unfold Rsqr.
    assert (Rabs (fst (P k t) - fst (limit_path t)) * Rabs (fst (P k t) - fst (limit_path t)) <= del k * K * (del k * K)) by (apply Rmult_le_compat; try assumption; apply Rabs_pos).
    assert (Rabs (snd (P k t) - snd (limit_path t)) * Rabs (snd (P k t) - snd (limit_path t)) <= del k * K * (del k * K)) by (apply Rmult_le_compat; try assumption; apply Rabs_pos).
    assert (0 <= del k * K * (del k * K)) by (apply Rmult_le_pos; assumption). lra.
  Qed.
  Lemma slope_near B k t : 0 <= t <= T -> Cmod (limit_path t) <= B -> 0 < t < T -> ~ In t (map sg_tau (segs k)) ->
    Cmod (rslope lambda eta b (piece coef (segs k) t) (P k t) - limit_slope t)%C <= del k * (1 / 2 * Cmod b + lambda * (2 * K) + 1 / 2 * (eta * eta) * (2 * K) * (2 * B + del k * (2 * K))).
  Proof.
    intros Ht HB Ho N. pose proof (piece_near k t Ho N) as A1. pose proof (limit_near_c k t) as A2. unfold limit_slope, rslope. set (d := limit_path t) in *. set (w := P k t) in *. set (e := (w - d)%C) in *.
    assert (Ew : w = (d + e)%C) by (unfold e; ring). rewrite Ew. set (c := piece coef (segs k) t) in *.
    match goal with |- Cmod ?z <= _ => replace z with (RtoC (1 / 2 * (c - a t)) * b + - (RtoC lambda * e) + RtoC (1 / 2 * (eta * eta)) * (e * (d + d + e)))%C end.
    2:{ apply C_eq; unfold Cminus, Cplus, Copp, Cmult, RtoC; cbn [fst snd]; field. }
    pose proof (reach_pos lambda b T) as KP. pose proof (Dp k) as DP. pose proof (Cmod_ge_0 b) as BP. pose proof (Cmod_ge_0 e) as EP. pose proof (Cmod_ge_0 d) as DPP.
    eapply Rle_trans; [apply Cmod_triangle|]. eapply Rle_trans; [apply Rplus_le_compat_r, Cmod_triangle|]. rewrite Cmod_opp, !Cmod_mult, !Cmod_R.
    assert (T1 : Rabs (1 / 2 * (c - a t)) * Cmod b <= del k * (1 / 2 * Cmod b)).
    { rewrite Rabs_mult, (Rabs_pos_eq (1 / 2)) by lra. assert (Rabs (c - a t) * Cmod b <= del k * Cmod b) by (apply Rmult_le_compat_r; assumption). lra. }
    assert (T2 : Rabs lambda * Cmod e <= del k * (lambda * (2 * K))).
    { rewrite Rabs_pos_eq by lra. assert (lambda * Cmod e <= lambda * (del k * (2 * K))) by (apply Rmult_le_compat_l; lra). lra. }
    assert (T3 : Rabs (1 / 2 * (eta * eta)) * (Cmod e * Cmod (d + d + e)%C) <= del k * (1 / 2 * (eta * eta) * (2 * K) * (2 * B + del k * (2 * K)))).
    { assert (HE : 0 <= eta * eta) by apply Rle_0_sqr. rewrite Rabs_pos_eq by lra.
      assert (Q : Cmod (d + d + e)%C <= 2 * B + del k * (2 * K)) by (eapply Rle_trans; [apply Cmod_triangle|]; pose proof (Cmod_triangle d d); lra).
      assert (Q2 : Cmod e * Cmod (d + d + e)%C <= del k * (2 * K) * (2 * B + del k * (2 * K))) by (apply Rmult_le_compat; try assumption; apply Cmod_ge_0).
      apply (Rmult_le_compat_l (1 / 2 * (eta * eta))) in Q2; [|lra]. lra. }
    lra.
  Qed.
  Lemma limit_integral t : 0 <= t <= T -> limit_path t = cint limit_slope 0 t.
  Proof.
    intros Ht. destruct (bounded_on limit_path T ltac:(lra) limit_cont) as (B & BP & HB).
    set (M := fun k => del k * (1 / 2 * Cmod b + lambda * (2 * K) + 1 / 2 * (eta * eta) * (2 * K) * (2 * B + del k * (2 * K)))).
    assert (Ml : is_lim_seq (fun k => M k * t) 0).
    { replace (Finite 0) with (Finite (0 * (1 / 2 * Cmod b + lambda * (2 * K) + 1 / 2 * (eta * eta) * (2 * K) * (2 * B + 0 * (2 * K))) * t)) by (f_equal; ring). unfold M.
      apply is_lim_seq_mult'; [|apply is_lim_seq_const]. apply is_lim_seq_mult'; [exact Dl|]. apply is_lim_seq_plus'; [apply is_lim_seq_const|]. apply is_lim_seq_mult'; [apply is_lim_seq_const|].
      apply is_lim_seq_plus'; [apply is_lim_seq_const|]. apply is_lim_seq_mult'; [exact Dl|apply is_lim_seq_const]. }
    assert (S0 : signs u (RtoC 0)) by (split; cbn; lra).
    assert (CG : forall s, 0 <= s -> ccont (fun s => cint limit_slope 0 s) s).
    { intros s Hs. destruct Hs as [Hs|<-].
      - destruct (cint_derive_all limit_slope s Hs slope_cont) as [D1 D2]. split; apply continuity_pt_filterlim; [apply (ex_derive_continuous (fun s => fst (cint limit_slope 0 s)))|apply (ex_derive_continuous (fun s => snd (cint limit_slope 0 s)))]; eexists; eassumption.
      - split; apply continuity_pt_filterlim; cbn [cint fst snd].
        + apply (ex_derive_continuous (fun s => RInt (fun s => fst (limit_slope s)) 0 s)). exists (fst (limit_slope 0)). apply (is_derive_RInt (fun s => fst (limit_slope s)) (fun s => RInt (fun s => fst (limit_slope s)) 0 s) 0 0); [|apply continuity_pt_filterlim, slope_cont].
          exists (mkposreal 1 Rlt_0_1). intros y _. apply (@RInt_correct R_CompleteNormedModule). apply (@ex_RInt_continuous R_CompleteNormedModule). intros z _. apply continuity_pt_filterlim, slope_cont.
        + apply (ex_derive_continuous (fun s => RInt (fun s => snd (limit_slope s)) 0 s)). exists (snd (limit_slope 0)). apply (is_derive_RInt (fun s => snd (limit_slope s)) (fun s => RInt (fun s => snd (limit_slope s)) 0 s) 0 0); [|apply continuity_pt_filterlim, slope_cont].
          exists (mkposreal 1 Rlt_0_1). intros y _. apply (@RInt_correct R_CompleteNormedModule). apply (@ex_RInt_continuous R_CompleteNormedModule). intros z _. apply continuity_pt_filterlim, slope_cont. }
    assert (G0 : cint limit_slope 0 0 = 0%C) by (unfold cint; rewrite !RInt_point; reflexivity).
    destruct (limit_near t) as (L1 & L2 & _).
    assert (FIN : forall (x : nat -> R) y z, is_lim_seq x (Finite y) -> (forall k, Rabs (x k - z) <= M k * t) -> y = z).
    { intros x y z Lx Bx. assert (Lz : is_lim_seq (fun k => Rabs (x k - z)) 0).
      { apply (is_lim_seq_le_le (fun _ => 0) _ (fun k => M k * t)); [intros k; split; [apply Rabs_pos|apply Bx]|apply is_lim_seq_const|exact Ml]. }
      assert (Ly : is_lim_seq (fun k => Rabs (x k - z)) (Rabs (y - z))) by (apply (is_lim_seq_abs _ (Finite (y - z))); apply is_lim_seq_minus'; [exact Lx|apply is_lim_seq_const]).
      pose proof (is_lim_seq_unique _ _ Lz) as U1. pose proof (is_lim_seq_unique _ _ Ly) as U2. rewrite U1 in U2. assert (Z : Rabs (y - z) = 0) by congruence. apply Rminus_diag_uniq. destruct (Req_dec (y - z) 0) as [|NZ]; [assumption|]. pose proof (Rabs_pos_lt _ NZ). lra. }
    assert (DER : forall k s, 0 < s < t -> ~ In s (map sg_tau (segs k)) -> cderive (P k) s (rslope lambda eta b (piece coef (segs k) s) (P k s)) /\ cderive (fun s => cint limit_slope 0 s) s (limit_slope s) /\
      Cmod (rslope lambda eta b (piece coef (segs k) s) (P k s) - limit_slope s)%C <= M k).
    { intros k s Hs N. pose proof (path_solves u lambda eta v0 coef Hl He (segs k) (Ch k) (Co k)) as (_ & _ & S1). rewrite En in S1. split; [apply S1; [lra|exact N]|]. split; [apply cint_derive_all; [lra|exact slope_cont]|].
      apply slope_near; try lra; [apply HB; lra|exact N]. }
    apply C_eq.
    - apply (FIN _ _ _ L1). intros k. pose proof (growth_abs (fun s => fst (P k s) - fst (cint limit_slope 0 s)) (M k) (map sg_tau (segs k)) 0 t ltac:(lra)) as Q. cbv beta in Q. rewrite (path_start u lambda eta v0 coef (segs k) 0%C 0 (Ch k)), G0 in Q.
      replace (fst (P k t) - fst (cint limit_slope 0 t)) with (fst (P k t) - fst (cint limit_slope 0 t) - (fst (RtoC 0) - fst (RtoC 0))) by (cbn; ring). replace (M k * t) with (M k * (t - 0)) by ring. apply Q.
      + intros s Hs. apply continuity_pt_minus; [apply path_cont; (apply Ch || apply Co || assumption)|apply CG; lra].
      + intros s Hs N. destruct (DER k s Hs N) as ([D1 _] & [D2 _] & D3). eexists. split; [apply (@is_derive_minus _ R_NormedModule); [exact D1|exact D2]|]. eapply Rle_trans; [|exact D3]. exact (Cmod_fst (_ - _)%C).
    - apply (FIN _ _ _ L2). intros k. pose proof (growth_abs (fun s => snd (P k s) - snd (cint limit_slope 0 s)) (M k) (map sg_tau (segs k)) 0 t ltac:(lra)) as Q. cbv beta in Q. rewrite (path_start u lambda eta v0 coef (segs k) 0%C 0 (Ch k)), G0 in Q.
      replace (snd (P k t) - snd (cint limit_slope 0 t)) with (snd (P k t) - snd (cint limit_slope 0 t) - (snd (RtoC 0) - snd (RtoC 0))) by (cbn; ring). replace (M k * t) with (M k * (t - 0)) by ring. apply Q.
      + intros s Hs. apply continuity_pt_minus; [apply path_cont; (apply Ch || apply Co || assumption)|apply CG; lra].
      + intros s Hs N. destruct (DER k s Hs N) as ([_ D1] & [_ D2] & D3). eexists. split; [apply (@is_derive_minus _ R_NormedModule); [exact D1|exact D2]|]. eapply Rle_trans; [|exact D3]. exact (Cmod_snd (_ - _)%C).
  Qed.
  Lemma limit_derive t : 0 < t < T -> cderive limit_path t (limit_slope t).
  Proof.
    intros Ht. apply (cderive_ext_loc (fun s => cint limit_slope 0 s)).
    - exists (mkposreal (Rmin t (T - t)) ltac:(apply Rmin_glb_lt; lra)). intros s Hs. apply Rabs_def2 in Hs. unfold minus, plus, opp in Hs. cbn in Hs.
      pose proof (Rmin_l t (T - t)). pose proof (Rmin_r t (T - t)). symmetry. apply limit_integral. lra.
    - apply cint_derive_all; [lra|exact slope_cont].
  Qed.
  Lemma limit_solves : solves lambda eta b T [] a limit_path.
  Proof. split; [intros; apply limit_cont|]. split; [intros; apply limit_signs|]. intros t Ht _. apply limit_derive. exact Ht. Qed.
  Lemma limit_distance k t : 0 <= t <= T -> Cmod (P k t - limit_path t)%C <= del k * K.
  Proof.
    intros Ht. pose proof (path_solves u lambda eta v0 coef Hl He (segs k) (Ch k) (Co k)) as S1. rewrite En in S1.
    apply (riccati_distance lambda eta b T (map sg_tau (segs k)) [] (piece coef (segs k)) a); try assumption; [apply Dp|apply limit_solves|rewrite path_start by apply Ch; symmetry; apply limit_start|].
    intros s Hs N _. apply piece_near; assumption.
  Qed.
  Lemma limit_cint k : Cmod (cint (P k) 0 T - cint limit_path 0 T)%C <= 2 * (del k * K * T).
  Proof.
    assert (S0 : signs u (RtoC 0)) by (split; cbn; lra). assert (0 <= del k * K) by (apply Rmult_le_pos; [apply Dp|apply reach_pos]).
    assert (BI : forall f g : R -> R, (forall s, continuity_pt f s) -> (forall s, continuity_pt g s) -> (forall s, Rabs (f s - g s) <= del k * K) -> Rabs (RInt f 0 T - RInt g 0 T) <= del k * K * T).
    { intros f g Cf Cg Q. assert (Ef : ex_RInt f 0 T) by (apply ex_RInt_cont; [lra|intros; apply Cf]). assert (Eg : ex_RInt g 0 T) by (apply ex_RInt_cont; [lra|intros; apply Cg]).
      assert (R1 : RInt f 0 T - RInt g 0 T = RInt (fun s => minus (f s) (g s)) 0 T) by (symmetry; apply (@RInt_minus R_CompleteNormedModule); assumption). rewrite R1.
      replace (del k * K * T) with ((T - 0) * (del k * K)) by ring. apply (abs_RInt_le_const (fun s => minus (f s) (g s))); [lra|apply (@ex_RInt_minus R_NormedModule); assumption|]. intros s _. apply Q. }
    assert (A1 : Rabs (fst (cint (P k) 0 T) - fst (cint limit_path 0 T)) <= del k * K * T).
    { apply (BI (fun s => fst (P k s)) (fun s => fst (limit_path s))); [intros s; apply path_cont; (apply Ch || apply Co || assumption)|intros s; apply limit_cont|intros s; apply limit_near]. }
    assert (A2 : Rabs (snd (cint (P k) 0 T) - snd (cint limit_path 0 T)) <= del k * K * T).
    { apply (BI (fun s => snd (P k s)) (fun s => snd (limit_path s))); [intros s; apply path_cont; (apply Ch || apply Co || assumption)|intros s; apply limit_cont|intros s; apply limit_near]. }
    assert (0 <= del k * K * T) by (apply Rmult_le_pos; lra).
    unfold Cmod. change (fst (cint (P k) 0 T - cint limit_path 0 T)%C) with (fst (cint (P k) 0 T) - fst (cint limit_path 0 T)). change (snd (cint (P k) 0 T - cint limit_path 0 T)%C) with (snd (cint (P k) 0 T) - snd (cint limit_path 0 T)).
    rewrite <- (sqrt_Rsqr (2 * (del k * K * T))) by lra. apply sqrt_le_1_alt. rewrite <- !Rsqr_pow2, (Rsqr_abs (fst _ - _)), (Rsqr_abs (snd _ - _)). unfold Rsqr.
    assert (Rabs (fst (cint (P k) 0 T) - fst (cint limit_path 0 T)) * Rabs (fst (cint (P k) 0 T) - fst (cint limit_path 0 T)) <= del k * K * T * (del k * K * T)) by (apply Rmult_le_compat; try assumption; apply Rabs_pos).
    assert (Rabs (snd (cint (P k) 0 T) - snd (cint limit_path 0 T)) * Rabs (snd (cint (P k) 0 T) - snd (cint limit_path 0 T)) <= del k * K * T * (del k * K * T)) by (apply Rmult_le_compat; try assumption; apply Rabs_pos).
    assert (0 <= del k * K * T * (del k * K * T)) by (apply Rmult_le_pos; assumption). lra.
  Qed.
  Lemma clim_close (z : nat -> C) (w : C) (e : nat -> R) : is_lim_seq e 0 -> (forall k, Cmod (z k - w)%C <= e k) -> clim z w.
  Proof.
    intros Le B. assert (Q : forall (x : nat -> R) y, (forall k, Rabs (x k - y) <= e k) -> is_lim_seq x y).
    { intros x y Hx. apply (is_lim_seq_le_le (fun k => y - e k) x (fun k => y + e k)).
      - intros k. specialize (Hx k). apply Rabs_le_between in Hx. lra.
      - replace (Finite y) with (Finite (y - 0)) by (f_equal; ring). apply is_lim_seq_minus'; [apply is_lim_seq_const|exact Le].
      - replace (Finite y) with (Finite (y + 0)) by (f_equal; ring). apply is_lim_seq_plus'; [apply is_lim_seq_const|exact Le]. }
    split; apply Q; intros k; (eapply Rle_trans; [|apply B]); [exact (Cmod_fst (z k - w)%C)|exact (Cmod_snd (z k - w)%C)].
  Qed.
  Lemma limit_end_clim : clim (fun k => P k T) (limit_path T).
  Proof.
    apply (clim_close _ _ (fun k => del k * K)); [|intros k; apply limit_distance; lra]. replace (Finite 0) with (Finite (0 * K)) by (f_equal; ring). apply is_lim_seq_mult'; [exact Dl|apply is_lim_seq_const].
  Qed.
  Lemma limit_cint_clim : clim (fun k => cint (P k) 0 T) (cint limit_path 0 T).
  Proof.
    apply (clim_close _ _ (fun k => 2 * (del k * K * T))); [|intros k; apply limit_cint]. replace (Finite 0) with (Finite (2 * (0 * K * T))) by (f_equal; ring).
    apply is_lim_seq_mult'; [apply is_lim_seq_const|]. apply is_lim_seq_mult'; [apply is_lim_seq_mult'; [exact Dl|apply is_lim_seq_const]|apply is_lim_seq_const].
  Qed.
End Limit.
