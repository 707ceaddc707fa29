(** Proofs about the Dupire local-volatility surface. *)
From Coq Require Import Bool List Arith Reals Lra Lia.
Import ListNotations.
From Coquelicot Require Import Coquelicot.
From Verif Require Import Outcome Normal NormalFacts BlackScholes BlackFacts Dupire.
Open Scope R_scope.

Lemma Rltb_true x y : Rltb x y = true <-> x < y.
Proof. unfold Rltb. destruct (Rlt_dec x y); split; intros; try lra; try discriminate; reflexivity. Qed.
Lemma Rltb_false x y : Rltb x y = false <-> y <= x.
Proof. unfold Rltb. destruct (Rlt_dec x y); split; intros; try lra; try discriminate; reflexivity. Qed.

(** ** Increasing lists *)
Lemma increasing_step l : increasing l = true <-> (forall m, (S m < length l)%nat -> nth m l 0 < nth (S m) l 0).
Proof.
  induction l as [|a [|b l] IH].
  - split; [|reflexivity]. intros _ m H. cbn in H. lia.
  - split; [|reflexivity]. intros _ m H. cbn in H. lia.
  - change (increasing (a :: b :: l)) with (Rltb a b && increasing (b :: l)).
    rewrite andb_true_iff, Rltb_true, IH. split.
    + intros [H0 H] [|m] L; [exact H0|]. apply (H m). cbn in *. lia.
    + intros H. split; [apply (H 0%nat); cbn; lia|]. intros m L. apply (H (S m)). cbn in *. lia.
Qed.

Lemma increasing_lt l a b : increasing l = true -> (a < b)%nat -> (b < length l)%nat -> nth a l 0 < nth b l 0.
Proof.
  intros H. rewrite increasing_step in H. intros L. induction L as [|b L IH]; intros B.
  - apply H, B.
  - apply Rlt_trans with (nth b l 0); [apply IH; lia|apply H, B].
Qed.

(** ** Mean values *)
Lemma mvt (f f' : R -> R) a b : a < b -> (forall x, a <= x <= b -> is_derive f x (f' x)) ->
  exists x, a < x < b /\ (f b - f a) / (b - a) = f' x.
Proof.
  intros L D. destruct (MVT_cor2 f f' a b L) as (c & E & C).
  - intros c Hc. apply is_derive_Reals, D, Hc.
  - exists c. split; [exact C|]. rewrite E. field. lra.
Qed.

Lemma mvt2 (f f' f'' : R -> R) a b c : a < b -> b < c ->
  (forall x, a <= x <= c -> is_derive f x (f' x)) -> (forall x, a <= x <= c -> is_derive f' x (f'' x)) ->
  exists x, a < x < c /\
    2 * (f c * (b - a) - f b * ((b - a) + (c - b)) + f a * (c - b)) / ((b - a) * (c - b) * ((b - a) + (c - b))) = f'' x.
Proof.
  intros L1 L2 D1 D2.
  set (D := 2 * (f c * (b - a) - f b * ((b - a) + (c - b)) + f a * (c - b)) / ((b - a) * (c - b) * ((b - a) + (c - b)))).
  set (s := (f c - f b) / (c - b) - D / 2 * (c - b)).
  set (g := fun x => f x - (f b + s * (x - b) + D / 2 * ((x - b) * (x - b)))).
  set (g' := fun x => f' x - (s + D * (x - b))).
  assert (DG : forall x, a <= x <= c -> is_derive g x (g' x)).
  { intros x X. unfold g, g'. apply (@is_derive_minus R_AbsRing R_NormedModule); [apply D1, X|].
    auto_derive; [exact I|]. field. }
  assert (DG' : forall x, a <= x <= c -> is_derive g' x (f'' x - D)).
  { intros x X. unfold g'. apply (@is_derive_minus R_AbsRing R_NormedModule); [apply D2, X|].
    auto_derive; [exact I|]. ring. }
  assert (Ga : g a = 0) by (unfold g, s, D; field; lra).
  assert (Gb : g b = 0) by (unfold g; ring).
  assert (Gc : g c = 0) by (unfold g, s, D; field; lra).
  destruct (mvt g g' a b L1) as (u & U & EU); [intros; apply DG; lra|].
  destruct (mvt g g' b c L2) as (v & V & EV); [intros; apply DG; lra|].
  assert (UV : u < v) by lra.
  destruct (mvt g' (fun x => f'' x - D) u v UV) as (x & X & EX); [intros; apply DG'; lra|].
  exists x. split; [lra|]. rewrite <- EU, <- EV, Ga, Gb, Gc in EX.
  assert (Z : ((0 - 0) / (c - b) - (0 - 0) / (b - a)) / (v - u) = 0) by (field; lra). rewrite Z in EX. lra.
Qed.

(** ** The differences are derivatives nearby *)
Definition mesh (l : list R) (d : R) : Prop := forall m, (S m < length l)%nat -> nth (S m) l 0 - nth m l 0 < d.

Section Differences.
Variables (f f' f'' : R -> R) (ks row : list R) (j : nat) (d : R).
Hypothesis N : (3 <= length ks)%nat.
Hypothesis J : (j < length ks)%nat.
Hypothesis I : increasing ks = true.
Hypothesis M : mesh ks d.
Hypothesis V : forall m, (m < length ks)%nat -> nth m row 0 = f (nth m ks 0).
Hypothesis D1 : forall x, Rabs (x - nth j ks 0) < 2 * d -> is_derive f x (f' x).

Let pos : 0 < d.
Proof. pose proof (M 0%nat) as H. pose proof (proj1 (increasing_step ks) I 0%nat) as H'. lapply H; [|lia]. lapply H'; [|lia]. lra. Qed.

Lemma fd_k_mvt : exists x, Rabs (x - nth j ks 0) < 2 * d /\ fd_k row ks j = f' x.
Proof.
  assert (Q : forall a b, (a < b)%nat -> (b < length ks)%nat -> (j <= S a)%nat -> (a <= j)%nat -> (b <= S j)%nat -> (j <= b)%nat ->
            exists x, Rabs (x - nth j ks 0) < 2 * d /\ (nth b row 0 - nth a row 0) / (nth b ks 0 - nth a ks 0) = f' x).
  { intros a b AB B A1 A2 B1 B2. rewrite !V by lia.
    assert (NA : nth j ks 0 - d < nth a ks 0 <= nth j ks 0).
    { assert (a = j \/ S a = j) as [-> | <-] by lia; [lra|]. pose proof (M a ltac:(lia)). pose proof (increasing_lt ks a (S a) I ltac:(lia) ltac:(lia)). lra. }
    assert (NB : nth j ks 0 <= nth b ks 0 < nth j ks 0 + d).
    { assert (b = j \/ b = S j) as [-> | ->] by lia; [lra|]. pose proof (M j ltac:(lia)). pose proof (increasing_lt ks j (S j) I ltac:(lia) ltac:(lia)). lra. }
    destruct (mvt f f' (nth a ks 0) (nth b ks 0)) as (x & X & E).
    - apply increasing_lt; assumption.
    - intros x X. apply D1, Rabs_def1; lra.
    - exists x. split; [apply Rabs_def1; lra|exact E]. }
  unfold fd_k. cbv zeta. destruct (Nat.eqb_spec j 0) as [E|E].
  - apply Q; lia.
  - destruct (Nat.eqb_spec j (length ks - 1)) as [E'|E']; apply Q; lia.
Qed.

Hypothesis D2 : forall x, Rabs (x - nth j ks 0) < 2 * d -> is_derive f' x (f'' x).

Lemma fd_kk_mvt : exists x, Rabs (x - nth j ks 0) < 2 * d /\ fd_kk row ks j = f'' x.
Proof.
  unfold fd_kk. cbv zeta.
  set (j' := if (j =? 0)%nat then 1%nat else if (j =? length ks - 1)%nat then (length ks - 2)%nat else j).
  assert (J' : (1 <= j')%nat /\ (S j' < length ks)%nat /\ (j' - 1 <= j)%nat /\ (j <= j' + 1)%nat).
  { unfold j'. destruct (Nat.eqb_spec j 0); [lia|]. destruct (Nat.eqb_spec j (length ks - 1)); lia. }
  clearbody j'. destruct J' as (H1 & H2 & H3 & H4).
  destruct j' as [|a]; [lia|]. replace (S a - 1)%nat with a in * by lia. replace (S a + 1)%nat with (S (S a)) in * by lia.
  rewrite !V by lia.
  pose proof (increasing_lt ks a (S a) I ltac:(lia) ltac:(lia)). pose proof (increasing_lt ks (S a) (S (S a)) I ltac:(lia) ltac:(lia)).
  pose proof (M a ltac:(lia)). pose proof (M (S a) ltac:(lia)).
  assert (B : nth j ks 0 - 2 * d < nth a ks 0 /\ nth (S (S a)) ks 0 < nth j ks 0 + 2 * d).
  { assert (j = a \/ j = S a \/ j = S (S a)) as [-> |[-> | ->]] by lia; lra. }
  destruct (mvt2 f f' f'' (nth a ks 0) (nth (S a) ks 0) (nth (S (S a)) ks 0)) as (x & X & E); try assumption.
  - intros x X. apply D1, Rabs_def1; lra.
  - intros x X. apply D2, Rabs_def1; lra.
  - exists x. split; [apply Rabs_def1; lra|exact E].
Qed.
End Differences.

Lemma fd_t_k c ts i j : fd_t c ts i j = fd_k (map (fun m => cell c m j) (seq 0 (length ts))) ts i \/ (length ts < 3)%nat \/ (length ts <= i)%nat.
Proof.
  destruct (le_lt_dec 3 (length ts)) as [L|]; [|right; left; lia]. destruct (le_lt_dec (length ts) i) as [|L']; [right; right; lia|]. left.
  assert (Q : forall m, (m < length ts)%nat -> nth m (map (fun m => cell c m j) (seq 0 (length ts))) 0 = cell c m j).
  { intros m Hm. rewrite (nth_indep _ 0 (cell c 0 j)) by (rewrite map_length, seq_length; exact Hm).
    rewrite (map_nth (fun m => cell c m j)), seq_nth by exact Hm. reflexivity. }
  unfold fd_t, fd_k. cbv zeta. destruct (Nat.eqb_spec i 0); [rewrite !Q by lia; reflexivity|].
  destruct (Nat.eqb_spec i (length ts - 1)); rewrite !Q by lia; reflexivity.
Qed.

(** ** The flat-volatility price and its derivatives *)
Section Flat.
Variables (S rd rf sigma : R).
Hypothesis HS : 0 < S.
Hypothesis Hs : 0 < sigma.
Definition px (T K : R) : R := bs_call_forward (S * exp ((rd - rf) * T)) K sigma T (exp (- rd * T)).
Definition fw (T : R) : R := S * exp ((rd - rf) * T).
Definition d1 (T K : R) : R := dplus (fw T) K (sigma * sqrt T).
Definition d2 (T K : R) : R := d1 T K - sigma * sqrt T.
Definition px_K (T K : R) : R := - exp (- rd * T) * cdf (d2 T K).
Definition px_KK (T K : R) : R := exp (- rd * T) * pdf (d2 T K) / (K * (sigma * sqrt T)).
Definition px_T (T K : R) : R :=
  - rd * px T K + exp (- rd * T) * ((rd - rf) * fw T * cdf (d1 T K) + K * pdf (d2 T K) * (sigma / (2 * sqrt T))).

Lemma fw_pos T : 0 < fw T.
Proof. unfold fw. apply Rmult_lt_0_compat; [exact HS|apply exp_pos]. Qed.
Lemma dev_pos T : 0 < T -> 0 < sigma * sqrt T.
Proof. intros. apply Rmult_lt_0_compat; [exact Hs|apply sqrt_lt_R0; assumption]. Qed.

Lemma px_bval T K : 0 < T -> px T K = exp (- rd * T) * bval (fw T) K (sigma * sqrt T).
Proof. intros. unfold px. rewrite call_bval by assumption. reflexivity. Qed.

Lemma derive_px_K T K : 0 < T -> 0 < K -> is_derive (fun K => px T K) K (px_K T K).
Proof.
  intros HT HK. apply (is_derive_ext (fun K => exp (- rd * T) * bval (fw T) K (sigma * sqrt T))).
  - intros k. symmetry. apply px_bval, HT.
  - evar_last; [apply is_derive_scal, derive_bval_K; [apply fw_pos|exact HK|pose proof (dev_pos T HT); lra]|].
    unfold px_K, d2, d1. match goal with |- ?a = ?b => change (@eq R a b) end. ring.
Qed.

Lemma derive_px_KK T K : 0 < T -> 0 < K -> is_derive (fun K => px_K T K) K (px_KK T K).
Proof.
  intros HT HK. pose proof (dev_pos T HT) as P. unfold px_K. evar_last.
  - apply is_derive_scal. apply (is_derive_comp cdf (fun K => d2 T K)); [apply is_derive_cdf|].
    unfold d2, d1. apply (@is_derive_minus R_AbsRing R_NormedModule); [apply derive_dplus_K; [apply fw_pos|exact HK|lra]|apply is_derive_const].
  - unfold px_KK, minus, plus, opp, zero, scal, mult; cbn; unfold mult; cbn.
    match goal with |- ?a = ?b => change (@eq R a b) end. field. split; [|lra]. intros E. rewrite E in P. lra.
Qed.

Lemma derive_px_T T K : 0 < T -> 0 < K -> is_derive (fun T => px T K) T (px_T T K).
Proof.
  intros HT HK. pose proof (dev_pos T HT) as P.
  apply (is_derive_ext_loc (fun T => exp (- rd * T) * (fw T * cdf (d1 T K) - K * cdf (d1 T K - sigma * sqrt T)))).
  { exists (mkposreal T HT). intros y Y. change (Rabs (y - T) < T) in Y. apply Rabs_def2 in Y. symmetry. apply px_bval. lra. }
  assert (DF : is_derive fw T ((rd - rf) * fw T)) by (unfold fw; auto_derive; [exact I|ring]).
  assert (DS : is_derive (fun T => sigma * sqrt T) T (sigma / (2 * sqrt T))).
  { auto_derive; [exact HT|]. field. apply Rgt_not_eq, sqrt_lt_R0, HT. }
  assert (DD : ex_derive (fun T => d1 T K) T).
  { unfold d1, dplus, fw. auto_derive. repeat split; try lra; try exact HT.
    apply Rdiv_lt_0_compat; [apply (fw_pos T)|exact HK]. }
  destruct DD as (d' & DD). evar_last.
  - apply (is_derive_mult (fun T => exp (- rd * T)) (fun T => fw T * cdf (d1 T K) - K * cdf (d1 T K - sigma * sqrt T))).
    + auto_derive; [exact I|]. reflexivity.
    + apply (derive_black fw (fun _ => K) (fun T => d1 T K) (fun T => sigma * sqrt T) T ((rd - rf) * fw T) 0 d' (sigma / (2 * sqrt T))); [exact DF|apply (@is_derive_const R_AbsRing R_NormedModule)|exact DD|exact DS|].
      apply black_key; [apply fw_pos|exact HK|lra].
    + intros; apply Rmult_comm.
  - unfold px_T. rewrite px_bval by exact HT. unfold bval. fold (d1 T K). unfold plus, mult, zero; cbn. unfold mult; cbn.
    pose proof (black_key (fw T) K (sigma * sqrt T) (fw_pos T) HK ltac:(lra)) as E. fold (d1 T K) in E. fold (d2 T K) in E |- *.
    rewrite E. ring.
Qed.

(** Dupire's equation *)
Lemma dupire_equation T K : 0 < T -> 0 < K ->
  px_T T K + (rd - rf) * K * px_K T K + rf * px T K = 1 / 2 * (sigma * sigma) * (K * K * px_KK T K).
Proof.
  intros HT HK. pose proof (sqrt_lt_R0 T HT) as P. unfold px_T, px_K, px_KK. rewrite px_bval by exact HT. unfold bval. fold (d1 T K). fold (d2 T K).
  field. repeat split; lra.
Qed.

Lemma px_KK_pos T K : 0 < T -> 0 < K -> 0 < px_KK T K.
Proof.
  intros HT HK. unfold px_KK. apply Rdiv_lt_0_compat; [apply Rmult_lt_0_compat; [apply exp_pos|apply pdf_pos]|].
  apply Rmult_lt_0_compat; [exact HK|apply dev_pos, HT].
Qed.

Lemma continuous_px_K T K : 0 < T -> 0 < K -> continuous (fun K => px_K T K) K.
Proof. intros HT HK. apply (@ex_derive_continuous R_AbsRing R_NormedModule). exists (px_KK T K). apply derive_px_KK; assumption. Qed.

Lemma ex_derive_d2_K T K : 0 < T -> 0 < K -> ex_derive (fun K => d2 T K) K.
Proof.
  intros HT HK. pose proof (dev_pos T HT). unfold d2, d1. apply (@ex_derive_minus R_AbsRing R_NormedModule); [|apply ex_derive_const].
  eexists. apply derive_dplus_K; [apply fw_pos|exact HK|lra].
Qed.

Lemma continuous_px_KK T K : 0 < T -> 0 < K -> continuous (fun K => px_KK T K) K.
Proof.
  intros HT HK. pose proof (dev_pos T HT) as P. apply (@ex_derive_continuous R_AbsRing R_NormedModule). unfold px_KK.
  apply (ex_derive_div (fun K => exp (- rd * T) * pdf (d2 T K)) (fun K => K * (sigma * sqrt T))).
  - apply (ex_derive_scal (fun K => pdf (d2 T K))). apply (ex_derive_comp pdf (fun K => d2 T K)); [eexists; apply is_derive_pdf|apply ex_derive_d2_K; assumption].
  - auto_derive; exact I.
  - apply Rgt_not_eq, Rmult_lt_0_compat; assumption.
Qed.

Lemma ex_derive_d1_T T K : 0 < T -> 0 < K -> ex_derive (fun T => d1 T K) T.
Proof.
  intros HT HK. pose proof (dev_pos T HT) as P. unfold d1, dplus, fw. auto_derive.
  repeat split; try lra; try exact HT. apply Rdiv_lt_0_compat; [apply (fw_pos T)|exact HK].
Qed.

Lemma continuous_px_T T K : 0 < T -> 0 < K -> continuous (fun T => px_T T K) T.
Proof.
  intros HT HK. apply (@ex_derive_continuous R_AbsRing R_NormedModule). pose proof (ex_derive_d1_T T K HT HK) as E1.
  assert (ES : ex_derive (fun T => sigma * sqrt T) T) by (auto_derive; exact HT).
  assert (E2 : ex_derive (fun T => d2 T K) T) by (unfold d2; apply (@ex_derive_minus R_AbsRing R_NormedModule); assumption).
  unfold px_T. apply (@ex_derive_plus R_AbsRing R_NormedModule).
  - apply (ex_derive_scal (fun T => px T K)). exists (px_T T K). apply derive_px_T; assumption.
  - apply (ex_derive_mult (fun T => exp (- rd * T))); [auto_derive; exact I|].
    apply (@ex_derive_plus R_AbsRing R_NormedModule).
    + apply (ex_derive_mult (fun T => (rd - rf) * fw T)); [unfold fw; auto_derive; exact I|].
      apply (ex_derive_comp cdf (fun T => d1 T K)); [eexists; apply is_derive_cdf|exact E1].
    + apply (ex_derive_mult (fun T => K * pdf (d2 T K)) (fun T => sigma / (2 * sqrt T))).
      * apply (ex_derive_scal (fun T => pdf (d2 T K))). apply (ex_derive_comp pdf (fun T => d2 T K)); [eexists; apply is_derive_pdf|exact E2].
      * auto_derive. pose proof (sqrt_lt_R0 T HT). repeat split; [exact HT|]. lra.
Qed.
End Flat.

(** A continuous function near a point. *)
Lemma near (f : R -> R) x eps : continuous f x -> 0 < eps -> exists d, 0 < d /\ forall y, Rabs (y - x) < d -> Rabs (f y - f x) < eps.
Proof.
  intros C E. destruct (C (fun y => Rabs (y - f x) < eps)) as (d & Hd).
  - exists (mkposreal eps E). intros y Y. exact Y.
  - exists d. split; [apply cond_pos|]. intros y Y. apply Hd. exact Y.
Qed.

Lemma clamp_near x y lo hi eps : lo <= hi -> Rabs (x - y) < eps -> Rabs (clamp x lo hi - clamp y lo hi) < eps.
Proof.
  intros L A. apply Rabs_def2 in A. unfold clamp.
  destruct (Rlt_dec x lo), (Rlt_dec y lo), (Rlt_dec hi x), (Rlt_dec hi y); apply Rabs_def1; lra.
Qed.

(** The quotient of two quantities near a positive quotient. *)
Lemma quotient_near n d eps : 0 < d -> 0 < eps ->
  exists eta, 0 < eta /\ forall n' d', Rabs (n' - n) < eta -> Rabs (d' - d) < eta -> Rabs (2 * n' / d' - 2 * n / d) < eps.
Proof.
  intros D E. set (A := 2 * (d + Rabs n) + 1).
  assert (HA : 1 <= A) by (unfold A; pose proof (Rabs_pos n); lra).
  exists (Rmin (d / 2) (eps * (d * d / 2) / A)). assert (P : 0 < eps * (d * d / 2) / A).
  { apply Rdiv_lt_0_compat; [|lra]. apply Rmult_lt_0_compat; [exact E|]. apply Rdiv_lt_0_compat; [apply Rmult_lt_0_compat; exact D|lra]. }
  split; [apply Rmin_pos; lra|]. intros n' d' H1 H2.
  assert (H3 : Rabs (d' - d) < d / 2) by (eapply Rlt_le_trans; [exact H2|apply Rmin_l]).
  assert (H4 : Rabs (d' - d) < eps * (d * d / 2) / A) by (eapply Rlt_le_trans; [exact H2|apply Rmin_r]).
  assert (H5 : Rabs (n' - n) < eps * (d * d / 2) / A) by (eapply Rlt_le_trans; [exact H1|apply Rmin_r]).
  apply Rabs_def2 in H3. assert (HD : d / 2 < d') by lra.
  replace (2 * n' / d' - 2 * n / d) with (2 * ((n' - n) * d - n * (d' - d)) / (d' * d)) by (field; lra).
  unfold Rdiv. rewrite Rabs_mult, (Rabs_right (/ (d' * d))) by (apply Rle_ge, Rlt_le, Rinv_0_lt_compat, Rmult_lt_0_compat; lra).
  apply (Rmult_lt_reg_r (d' * d)); [apply Rmult_lt_0_compat; lra|].
  rewrite Rmult_assoc, Rinv_l by (apply Rgt_not_eq, Rmult_lt_0_compat; lra). rewrite Rmult_1_r.
  assert (Q : A * (eps * (d * d / 2) / A) = eps * (d * d / 2)) by (field; lra).
  set (e := eps * (d * d / 2) / A) in *.
  apply Rlt_le_trans with (A * e).
  - rewrite Rabs_mult, (Rabs_right 2) by lra.
    assert (T : Rabs ((n' - n) * d - n * (d' - d)) <= e * d + Rabs n * e).
    { eapply Rle_trans; [apply Rabs_triang|]. rewrite Rabs_Ropp, !Rabs_mult, (Rabs_right d) by lra.
      apply Rplus_le_compat; [apply Rmult_le_compat_r; lra|apply Rmult_le_compat_l; [apply Rabs_pos|lra]]. }
    unfold A. lra.
  - rewrite Q. replace (eps * (d * d / 2)) with (eps * (d / 2 * d)) by field. apply Rmult_le_compat_l; [lra|].
    apply Rmult_le_compat_r; lra.
Qed.

(** ** Brackets *)
Lemma scan_spec x l : forall prev i, prev < x -> (forall m, (S m < length (prev :: l))%nat -> nth m (prev :: l) 0 < nth (S m) (prev :: l) 0) ->
  x <= last (prev :: l) 0 -> exists m, (S m < length (prev :: l))%nat /\ nth m (prev :: l) 0 < x <= nth (S m) (prev :: l) 0 /\
    scan x prev (S i) l = Some ((i + m)%nat, (i + S m)%nat, (x - nth m (prev :: l) 0) / (nth (S m) (prev :: l) 0 - nth m (prev :: l) 0)).
Proof.
  induction l as [|y l IH]; intros prev i P Inc L; [cbn in L; lra|].
  cbn [scan]. destruct (Rle_dec x y) as [Y|Y].
  - exists 0%nat. split; [cbn; lia|]. split; [cbn; lra|]. cbn [nth]. replace (S i - 1)%nat with (i + 0)%nat by lia. replace (i + 1)%nat with (S i) by lia. reflexivity.
  - destruct (IH y (S i)) as (m & M & B & E).
    + lra.
    + intros m M. apply (Inc (S m)). cbn in *. lia.
    + exact L.
    + exists (S m). split; [cbn in *; lia|]. split; [exact B|]. rewrite E. replace (i + S m)%nat with (S i + m)%nat by lia.
      replace (i + S (S m))%nat with (S i + S m)%nat by lia. reflexivity.
Qed.

(** What [bracket] returns on an increasing list. *)
Lemma last_nth (l : list R) : l <> [] -> last l 0 = nth (length l - 1) l 0.
Proof.
  induction l as [|a [|b l] IH]; intros H; [congruence|reflexivity|]. change (last (a :: b :: l) 0) with (last (b :: l) 0).
  rewrite IH by discriminate. cbn [length]. replace (S (S (length l)) - 1)%nat with (S (S (length l) - 1)) by lia. reflexivity.
Qed.

Lemma bracket_cases xs x : xs <> [] -> increasing xs = true ->
  (x <= nth 0 xs 0 /\ bracket xs x = Ok (0%nat, 0%nat, 0)) \/
  (nth 0 xs 0 < x /\ nth (length xs - 1) xs 0 <= x /\ bracket xs x = Ok ((length xs - 1)%nat, (length xs - 1)%nat, 0)) \/
  (exists m, (S m < length xs)%nat /\ nth m xs 0 < x <= nth (S m) xs 0 /\
     bracket xs x = Ok (m, S m, (x - nth m xs 0) / (nth (S m) xs 0 - nth m xs 0))).
Proof.
  intros NE Inc. destruct xs as [|x0 l]; [congruence|]. unfold bracket. rewrite <- last_nth by discriminate. cbn [nth].
  destruct (Rle_dec x x0) as [A|A]; [left; split; [exact A|reflexivity]|right].
  destruct (Rle_dec (last (x0 :: l) 0) x) as [B|B]; [left; split; [lra|split; [exact B|reflexivity]]|right].
  destruct (scan_spec x l x0 0) as (m & M & Bd & E).
  - lra.
  - apply increasing_step, Inc.
  - lra.
  - exists m. split; [exact M|]. split; [exact Bd|]. rewrite E. reflexivity.
Qed.

(** Interpolating along a bracket is interpolating in any interval that holds the point. *)
Lemma bracket_value xs x i (v : nat -> R) lo hi w : increasing xs = true -> (S i < length xs)%nat -> nth i xs 0 <= x <= nth (S i) xs 0 ->
  bracket xs x = Ok (lo, hi, w) -> v lo + w * (v hi - v lo) = v i + (x - nth i xs 0) / (nth (S i) xs 0 - nth i xs 0) * (v (S i) - v i).
Proof.
  intros Inc I X E. assert (NE : xs <> []) by (intros ->; cbn in I; lia).
  pose proof (increasing_lt xs i (S i) Inc ltac:(lia) I) as L.
  assert (Lo : nth i xs 0 = x -> v i + (x - nth i xs 0) / (nth (S i) xs 0 - nth i xs 0) * (v (S i) - v i) = v i).
  { intros <-. unfold Rdiv. ring. }
  assert (Hi : nth (S i) xs 0 = x -> v i + (x - nth i xs 0) / (nth (S i) xs 0 - nth i xs 0) * (v (S i) - v i) = v (S i)).
  { intros <-. field. lra. }
  destruct (bracket_cases xs x NE Inc) as [(A & B)|[(A & A' & B)|(m & M & A & B)]]; rewrite B in E; injection E as <- <- <-.
  - assert (i = 0)%nat as -> .
    { destruct i as [|i]; [reflexivity|]. pose proof (increasing_lt xs 0 (S i) Inc ltac:(lia) ltac:(lia)). lra. }
    rewrite Lo by lra. ring.
  - assert (S i = length xs - 1)%nat as SI.
    { destruct (Nat.eq_dec (S i) (length xs - 1)) as [e|n]; [exact e|]. pose proof (increasing_lt xs (S i) (length xs - 1) Inc ltac:(lia) ltac:(lia)). lra. }
    rewrite <- SI in *. rewrite Hi by lra. ring.
  - destruct (lt_eq_lt_dec m i) as [[H| ->]|H].
    + assert (S m = i) as <-.
      { destruct (Nat.eq_dec (S m) i) as [e|n]; [exact e|]. pose proof (increasing_lt xs (S m) i Inc ltac:(lia) ltac:(lia)). lra. }
      rewrite Lo by lra. pose proof (increasing_lt xs m (S m) Inc ltac:(lia) ltac:(lia)).
      replace x with (nth (S m) xs 0) by lra. field. lra.
    + ring.
    + pose proof (increasing_lt xs i (S i) Inc ltac:(lia) ltac:(lia)).
      assert (nth (S i) xs 0 <= nth m xs 0).
      { destruct (Nat.eq_dec (S i) m) as [->|n]; [lra|]. apply Rlt_le, increasing_lt; [exact Inc|lia|lia]. }
      lra.
Qed.

(** Weights and indices of a bracket. *)
Lemma bracket_total xs x : xs <> [] -> increasing xs = true ->
  exists lo hi w, bracket xs x = Ok (lo, hi, w) /\ (lo < length xs)%nat /\ (hi < length xs)%nat /\ 0 <= w <= 1.
Proof.
  intros NE Inc. assert (0 < length xs)%nat by (destruct xs; [congruence|cbn; lia]).
  destruct (bracket_cases xs x NE Inc) as [(A & B)|[(A & A' & B)|(m & M & A & B)]]; rewrite B; do 3 eexists; (split; [reflexivity|]).
  - repeat split; try lia; lra.
  - repeat split; try lia; lra.
  - split; [lia|]. split; [lia|]. split.
    + apply Rlt_le, Rdiv_lt_0_compat; lra.
    + apply (Rmult_le_reg_r (nth (S m) xs 0 - nth m xs 0)); [lra|]. unfold Rdiv. rewrite Rmult_assoc, Rinv_l by lra. lra.
Qed.

Lemma bracket_clamp xs x : xs <> [] -> increasing xs = true ->
  bracket xs x = bracket xs (Rmin (Rmax x (nth 0 xs 0)) (nth (length xs - 1) xs 0)).
Proof.
  intros NE Inc. assert (LE : nth 0 xs 0 <= nth (length xs - 1) xs 0).
  { destruct (Nat.eq_dec (length xs - 1) 0) as [-> |n]; [lra|]. apply Rlt_le, increasing_lt; [exact Inc|lia|lia]. }
  destruct (Rle_dec x (nth 0 xs 0)) as [A|A].
  - rewrite Rmax_right, Rmin_left by lra.
    destruct (bracket_cases xs x NE Inc) as [(_ & ->)|[(B & _)|(m & M & B & _)]]; [|lra|].
    + destruct (bracket_cases xs (nth 0 xs 0) NE Inc) as [(_ & ->)|[(B & _)|(m & M & B & _)]]; [reflexivity|lra|].
      destruct m; [lra|]. pose proof (increasing_lt xs 0 (S m) Inc ltac:(lia) ltac:(lia)). lra.
    + destruct m; [lra|]. pose proof (increasing_lt xs 0 (S m) Inc ltac:(lia) ltac:(lia)). lra.
  - rewrite Rmax_left by lra. destruct (Rle_dec x (nth (length xs - 1) xs 0)) as [B|B]; [rewrite Rmin_left by lra; reflexivity|].
    rewrite Rmin_right by lra. destruct xs as [|x0 l]; [congruence|]. unfold bracket.
    rewrite <- last_nth in * by discriminate. cbn [nth] in *. destruct (Rle_dec x x0); [lra|].
    destruct (Rle_dec (last (x0 :: l) 0) x); [|lra]. destruct (Rle_dec (last (x0 :: l) 0) x0) as [C|C].
    + destruct l as [|y l]; [reflexivity|]. exfalso.
      assert (x0 < last (x0 :: y :: l) 0); [|lra]. rewrite last_nth by discriminate.
      pose proof (increasing_lt (x0 :: y :: l) 0 (length (x0 :: y :: l) - 1) Inc) as Q. cbn [nth] in Q. apply Q; cbn; lia.
    + destruct (Rle_dec (last (x0 :: l) 0) (last (x0 :: l) 0)); [reflexivity|lra].
Qed.
