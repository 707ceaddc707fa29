(** The composite Simpson rule converges for every continuous function. *)
From Coq Require Import Bool List Arith Reals Psatz Lia.
Import ListNotations.
From Coquelicot Require Import Coquelicot.
From Verif Require Import Outcome Complexes Hhw1Chf.
Open Scope R_scope.
Global Set Bullet Behavior "Strict Subproofs".

(** the weighted sum of real values *)
Definition wsum (f : nat -> R) (n : nat) : R := sum_f_R0 (fun k => weight k n * f k) n.

Lemma weighted_sum_app f n ks k acc v z : weighted_sum f n ks acc = Ok z -> f k = Ok v ->
  weighted_sum f n (ks ++ k :: nil) acc = Ok (z + RtoC (weight k n) * v)%C.
Proof.
  revert acc. induction ks as [|j ks IH]; intros acc H Hk; cbn [weighted_sum app] in *.
  - rewrite Hk. cbn. congruence.
  - destruct (f j) as [w| |]; cbn [obind] in *; try discriminate. apply IH; assumption.
Qed.

Lemma weighted_sum_ok (f : nat -> outcome C) (g : nat -> C) n m : (forall k, (k <= m)%nat -> f k = Ok (g k)) ->
  weighted_sum f n (seq 0 (S m)) 0%C
  = Ok (sum_f_R0 (fun k => weight k n * fst (g k)) m, sum_f_R0 (fun k => weight k n * snd (g k)) m).
Proof.
  induction m as [|m IH]; intros H.
  - cbn [seq weighted_sum]. rewrite (H 0%nat) by lia. cbn [obind]. f_equal. apply C_eq; cbn; ring.
  - rewrite seq_S. rewrite (weighted_sum_app f n (seq 0 (S m)) (0 + S m) _ (g (S m)) _ (IH ltac:(intros; apply H; lia))); [|cbn [Nat.add]; apply H; lia].
    f_equal. apply C_eq; cbn [fst snd sum_f_R0 Nat.add]; unfold Cplus, Cmult, RtoC; cbn [fst snd]; ring.
Qed.

Lemma weighted_sum_ext f g n ks acc : (forall k, In k ks -> f k = g k) -> weighted_sum f n ks acc = weighted_sum g n ks acc.
Proof.
  revert acc. induction ks as [|k ks IH]; intros acc H; [reflexivity|]. cbn [weighted_sum].
  rewrite (H k) by (left; reflexivity). destruct (g k); cbn [obind]; try reflexivity. apply IH. intros; apply H; right; assumption.
Qed.

(** weights that do not see the last point *)
Definition weight0 (k : nat) : R := if (k =? 0)%nat then 1 else if (k mod 2 =? 1)%nat then 4 else 2.

Lemma wsum_weight0 f m : (1 <= m)%nat -> wsum f (2 * m) = sum_f_R0 (fun k => weight0 k * f k) (2 * m) - f (2 * m)%nat.
Proof.
  intros Hm. unfold wsum.
  assert (E : exists j, (2 * m = S j)%nat) by (exists (2 * m - 1)%nat; lia). destruct E as [j E].
  assert (M : ((2 * m) mod 2 = 0)%nat) by (rewrite Nat.mul_comm; apply Nat.mod_mul; lia).
  rewrite E in *. cbn [sum_f_R0].
  assert (W1 : weight (S j) (S j) = 1). { unfold weight. rewrite Nat.eqb_refl, orb_true_r. reflexivity. }
  assert (W0 : weight0 (S j) = 2). { unfold weight0. rewrite M. reflexivity. }
  rewrite W1, W0. rewrite (sum_eq (fun k => weight k (S j) * f k) (fun k => weight0 k * f k)); [ring|].
  intros i Hi. f_equal. unfold weight, weight0. replace (i =? S j)%nat with false by (symmetry; apply Nat.eqb_neq; lia). rewrite orb_false_r. reflexivity.
Qed.

(** the sum over panels *)
Fixpoint panels (f : nat -> R) (m : nat) : R :=
  match m with O => 0 | S m => panels f m + (f (2 * m)%nat + 4 * f (2 * m + 1)%nat + f (2 * m + 2)%nat) end.

Lemma weight0_sum f m : sum_f_R0 (fun k => weight0 k * f k) (2 * m) = panels f m + f (2 * m)%nat.
Proof.
  induction m as [|m IH].
  - cbn. unfold weight0. cbn. ring.
  - replace (2 * S m)%nat with (S (S (2 * m))) by lia. rewrite !tech5. rewrite IH. cbn [panels].
    assert (W1 : weight0 (S (2 * m)) = 4).
    { unfold weight0. replace ((S (2 * m)) mod 2)%nat with 1%nat; [reflexivity|]. replace (S (2 * m)) with (1 + m * 2)%nat by lia. rewrite Nat.mod_add by lia. reflexivity. }
    assert (W2 : weight0 (S (S (2 * m))) = 2).
    { unfold weight0. replace ((S (S (2 * m))) mod 2)%nat with 0%nat; [reflexivity|]. replace (S (S (2 * m))) with (0 + (S m) * 2)%nat by lia. rewrite Nat.mod_add by lia. reflexivity. }
    rewrite W1, W2. replace (2 * m + 1)%nat with (S (2 * m)) by lia. replace (2 * m + 2)%nat with (S (S (2 * m))) by lia. ring.
Qed.
Lemma wsum_panels f m : (1 <= m)%nat -> wsum f (2 * m) = panels f m.
Proof. intros H. rewrite wsum_weight0 by exact H. rewrite weight0_sum. ring. Qed.

Lemma ex_RInt_cont (f : R -> R) a b : a <= b -> (forall x, a <= x <= b -> continuity_pt f x) -> ex_RInt f a b.
Proof.
  intros Hab H. apply (@ex_RInt_continuous R_CompleteNormedModule). intros z. rewrite Rmin_left, Rmax_right by exact Hab. intros Hz. apply continuity_pt_filterlim, H, Hz.
Qed.

Lemma panel_error (f : R -> R) a h eps : 0 < h -> 0 <= eps -> (forall x, a <= x <= a + 2 * h -> continuity_pt f x) ->
  (forall x y, a <= x <= a + 2 * h -> a <= y <= a + 2 * h -> Rabs (f x - f y) <= eps) ->
  Rabs (h / 3 * (f a + 4 * f (a + h) + f (a + 2 * h)) - RInt f a (a + 2 * h)) <= 2 * h * eps.
Proof.
  intros Hh He Hc Hu. set (c := (f a + 4 * f (a + h) + f (a + 2 * h)) / 6).
  assert (I : ex_RInt f a (a + 2 * h)) by (apply ex_RInt_cont; [lra|exact Hc]).
  assert (E : h / 3 * (f a + 4 * f (a + h) + f (a + 2 * h)) - RInt f a (a + 2 * h) = - RInt (fun s => f s - c) a (a + 2 * h)).
  { replace (RInt (fun s => f s - c) a (a + 2 * h)) with (minus (RInt f a (a + 2 * h)) (RInt (fun _ => c) a (a + 2 * h))).
    - rewrite RInt_const. unfold minus, plus, opp, scal. cbn. unfold mult. cbn. unfold c. field.
    - symmetry. apply @RInt_minus; [exact I|apply ex_RInt_const]. }
  rewrite E, Rabs_Ropp. replace (2 * h * eps) with ((a + 2 * h - a) * eps) by ring.
  apply abs_RInt_le_const; [lra| |].
  - apply @ex_RInt_minus; [exact I|apply ex_RInt_const].
  - intros s Hs. pose proof (Hu s a Hs ltac:(lra)) as A1. pose proof (Hu s (a + h) Hs ltac:(lra)) as A2. pose proof (Hu s (a + 2 * h) Hs ltac:(lra)) as A3.
    apply Rabs_le_between in A1. apply Rabs_le_between in A2. apply Rabs_le_between in A3. apply Rabs_le_between. unfold c. lra.
Qed.

Lemma panels_error (f : R -> R) h eps m M : (m <= M)%nat -> 0 < h -> 0 <= eps ->
  (forall x, 0 <= x <= 2 * INR M * h -> continuity_pt f x) ->
  (forall x y, 0 <= x <= 2 * INR M * h -> 0 <= y <= 2 * INR M * h -> Rabs (x - y) <= 2 * h -> Rabs (f x - f y) <= eps) ->
  Rabs (h / 3 * panels (fun k => f (INR k * h)) m - RInt f 0 (2 * INR m * h)) <= 2 * INR m * h * eps.
Proof.
  intros Hm Hh He Hc Hu. induction m as [|m IH].
  - cbn [panels INR]. replace (2 * 0 * h) with 0 by ring. rewrite RInt_point. apply Rabs_le_between. unfold zero; cbn. lra.
  - specialize (IH ltac:(lia)). cbn [panels].
    assert (HM : INR (S m) <= INR M) by (apply le_INR; lia). rewrite S_INR in *. pose proof (pos_INR m) as Pm.
    set (a := 2 * INR m * h).
    assert (Ha : 0 <= a) by (unfold a; repeat apply Rmult_le_pos; lra).
    assert (Hb : a + 2 * h <= 2 * INR M * h). { unfold a. replace (2 * INR m * h + 2 * h) with ((INR m + 1) * (2 * h)) by ring. replace (2 * INR M * h) with (INR M * (2 * h)) by ring. apply Rmult_le_compat_r; lra. }
    replace (2 * (INR m + 1) * h) with (a + 2 * h) by (unfold a; ring).
    replace (INR (2 * m) * h) with a by (unfold a; rewrite mult_INR; cbn; ring).
    replace (INR (2 * m + 1) * h) with (a + h) by (unfold a; rewrite plus_INR, mult_INR; cbn; ring).
    replace (INR (2 * m + 2) * h) with (a + 2 * h) by (unfold a; rewrite plus_INR, mult_INR; cbn; ring).
    assert (CH : RInt f 0 (a + 2 * h) = RInt f 0 a + RInt f a (a + 2 * h)).
    { symmetry. apply (RInt_Chasles f 0 a (a + 2 * h)); apply ex_RInt_cont; try lra; intros; apply Hc; lra. }
    rewrite CH.
    pose proof (panel_error f a h eps Hh He ltac:(intros; apply Hc; lra) ltac:(intros x y Hx Hy; apply Hu; [lra|lra|apply Rabs_le_between; lra])) as PE.
    fold a in IH.
    replace (h / 3 * (panels (fun k : nat => f (INR k * h)) m + (f a + 4 * f (a + h) + f (a + 2 * h))) - (RInt f 0 a + RInt f a (a + 2 * h)))
      with ((h / 3 * panels (fun k : nat => f (INR k * h)) m - RInt f 0 a) + (h / 3 * (f a + 4 * f (a + h) + f (a + 2 * h)) - RInt f a (a + 2 * h))) by ring.
    eapply Rle_trans; [apply Rabs_triang|]. lra.
Qed.

Lemma simpson_limit (f : R -> R) T : 0 < T -> (forall x, 0 <= x <= T -> continuity_pt f x) ->
  forall eps, 0 < eps -> exists N, forall m, (N <= m)%nat -> (1 <= m)%nat ->
  Rabs (T / INR (2 * m) / 3 * wsum (fun k => f (INR k * (T / INR (2 * m)))) (2 * m) - RInt f 0 T) < eps.
Proof.
  intros HT Hc eps He.
  destruct (Heine_cor2 Hc (mkposreal (eps / (2 * T)) ltac:(apply Rdiv_lt_0_compat; lra))) as [delta Hd]. cbn in Hd.
  pose proof (cond_pos delta) as Pd.
  destruct (archimed_cor1 (delta / T) ltac:(apply Rdiv_lt_0_compat; lra)) as [N [HN N0]].
  exists (S N). intros m Hm H1.
  assert (Im : 0 < INR m) by (apply lt_0_INR; lia). assert (IN : 0 < INR N) by (apply lt_0_INR; lia).
  assert (Hn : INR (2 * m) = 2 * INR m) by (rewrite mult_INR; cbn; ring).
  set (h := T / INR (2 * m)). assert (Hh : 0 < h) by (unfold h; rewrite Hn; apply Rdiv_lt_0_compat; lra).
  assert (ET : 2 * INR m * h = T) by (unfold h; rewrite Hn; field; lra).
  assert (H2h : 2 * h < delta).
  { assert (E : 2 * h = T * / INR m) by (unfold h; rewrite Hn; field; lra). rewrite E.
    assert (L : / INR m <= / INR N) by (apply Rinv_le_contravar; [exact IN|apply le_INR; lia]).
    assert (L2 : / INR m < delta / T) by lra. replace (pos delta) with (T * (delta / T)) by (field; lra). apply Rmult_lt_compat_l; assumption. }
  rewrite wsum_panels by exact H1.
  pose proof (panels_error f h (eps / (2 * T)) m m ltac:(lia) Hh ltac:(apply Rlt_le, Rdiv_lt_0_compat; lra)) as P. rewrite ET in P.
  specialize (P Hc ltac:(intros x y Hx Hy Hxy; apply Rlt_le, Hd; [exact Hx|exact Hy|lra])).
  eapply Rle_lt_trans; [exact P|]. replace (T * (eps / (2 * T))) with (eps / 2) by (field; lra). lra.
Qed.

Lemma wsum_le f g n : (forall k, (k <= n)%nat -> f k <= g k) -> wsum f n <= wsum g n.
Proof.
  intros H. unfold wsum. apply sum_Rle. intros k Hk. apply Rmult_le_compat_l; [|apply H; exact Hk].
  unfold weight. destruct ((k =? 0)%nat || (k =? n)%nat); [lra|]. destruct (k mod 2 =? 1)%nat; lra.
Qed.
Lemma wsum_0 n : wsum (fun _ => 0) n = 0.
Proof. unfold wsum. rewrite <- (sum_eq (fun _ => 0)); [|intros; ring]. induction n as [|n IH]; cbn [sum_f_R0]; lra. Qed.
