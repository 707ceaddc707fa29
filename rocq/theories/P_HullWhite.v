(** C49: the closed forms of the Hull-White model. *)
From Coq Require Import Bool List Reals Lra Lia Psatz.
From Coquelicot Require Import Coquelicot.
Import ListNotations.
From Verif Require Import Outcome NormalFacts Processes ProcessFacts MomentFacts HullWhite.
Open Scope R_scope.

Lemma tiny_pos : 0 < tiny.
Proof. unfold tiny. apply Rinv_0_lt_compat. lra. Qed.
Lemma big_nonzero l : tiny <= Rabs l -> l <> 0.
Proof. intros H ->. rewrite Rabs_R0 in H. pose proof tiny_pos. lra. Qed.

(** The integral of an exponential. *)
Lemma exp_integral (k c a b : R) : k <> 0 -> is_RInt (fun u => exp (k * u + c)) a b ((exp (k * b + c) - exp (k * a + c)) / k).
Proof.
  intros K. replace ((exp (k * b + c) - exp (k * a + c)) / k) with (exp (k * b + c) / k - exp (k * a + c) / k) by (field; exact K).
  apply (is_RInt_derive (fun u => exp (k * u + c) / k) (fun u => exp (k * u + c))).
  - intros x _. auto_derive; [exact I|]. field. exact K.
  - intros x _. apply (ex_derive_continuous (fun u => exp (k * u + c))). auto_derive. exact I.
Qed.

(** [b] is minus the integral of the discount kernel; it is negative and decreasing in the
    maturity. *)
Theorem C49_b : forall (p : hull_white R_numbers) t T,
  (tiny <= Rabs (mean_reversion p) \/ mean_reversion p = 0 -> is_RInt (fun u => - exp (- mean_reversion p * (u - t))) t T (hw_b p t T)) /\
  hw_b p t t = 0 /\ (t < T -> hw_b p t T < 0) /\ (forall T', T < T' -> hw_b p t T' < hw_b p t T).
Proof.
  intros p t T. set (l := mean_reversion p) in *.
  assert (DEC : forall T', T < T' -> hw_b p t T' < hw_b p t T).
  { intros T' L. unfold hw_b. fold l. destruct (Rlt_dec (Rabs l) tiny) as [S|S]; [lra|]. assert (K : l <> 0) by (apply big_nonzero; lra).
    destruct (Rtotal_order l 0) as [N|[N|P]]; [|contradiction|].
    - assert (X : exp (- l * (T - t)) < exp (- l * (T' - t))) by (apply exp_increasing; nra).
      unfold Rdiv. apply Rmult_lt_gt_compat_neg_l with (r := / l) in X; [lra|]. apply Rinv_lt_0_compat, N.
    - assert (X : exp (- l * (T' - t)) < exp (- l * (T - t))) by (apply exp_increasing; nra).
      unfold Rdiv. apply Rmult_lt_compat_r; [apply Rinv_0_lt_compat, P|lra]. }
  assert (Z : forall t, hw_b p t t = 0).
  { intros t0. unfold hw_b. fold l. rewrite Rminus_diag_eq by reflexivity. destruct (Rlt_dec (Rabs l) tiny); [ring|]. rewrite Rmult_0_r, exp_0. unfold Rdiv. ring. }
  split; [|split; [apply Z|split; [|exact DEC]]].
  - intros H. unfold hw_b. fold l. destruct (Rlt_dec (Rabs l) tiny) as [S|S].
    + destruct H as [H|H]; [lra|]. rewrite H. apply (is_RInt_ext (fun _ => - (1))).
      * intros x _. replace (- 0 * (x - t)) with 0 by ring. rewrite exp_0. reflexivity.
      * evar_last; [apply (@is_RInt_const R_NormedModule)|]. unfold scal; cbn; unfold mult; cbn. ring.
    + assert (K : l <> 0) by (apply big_nonzero; lra).
      apply (is_RInt_ext (fun u => opp (exp (- l * u + l * t)))).
      * intros x _. unfold opp; cbn. do 2 f_equal. ring.
      * evar_last; [apply (@is_RInt_opp R_NormedModule), exp_integral; lra|]. unfold opp; cbn.
        replace (- l * t + l * t) with 0 by ring. rewrite exp_0. replace (- l * T + l * t) with (- l * (T - t)) by ring. field. exact K.
  - intros L. unfold hw_b. fold l. destruct (Rlt_dec (Rabs l) tiny) as [S|S]; [lra|]. assert (K : l <> 0) by (apply big_nonzero; lra).
    destruct (Rtotal_order l 0) as [N|[N|P]]; [|contradiction|].
    + assert (X : 1 < exp (- l * (T - t))) by (rewrite <- exp_0; apply exp_increasing; nra).
      unfold Rdiv. assert (/ l < 0) by (apply Rinv_lt_0_compat, N). nra.
    + assert (X : exp (- l * (T - t)) < 1) by (rewrite <- exp_0; apply exp_increasing; nra).
      unfold Rdiv. assert (0 < / l) by (apply Rinv_0_lt_compat, P). nra.
Qed.
Print Assumptions C49_b.

(** The mean reversions that count as zero: the Ho-Lee value is close to the exact one. *)
Theorem C49_small : forall (p : hull_white R_numbers) t T, mean_reversion p <> 0 -> Rabs (mean_reversion p) < tiny -> Rabs (mean_reversion p * (T - t)) <= 1 / 2 ->
  Rabs (hw_b p t T - (exp (- mean_reversion p * (T - t)) - 1) / mean_reversion p) <= 2 * tiny * (T - t) ^ 2.
Proof.
  intros p t T K S B. set (l := mean_reversion p) in *. unfold hw_b. fold l. destruct (Rlt_dec (Rabs l) tiny) as [_|]; [|contradiction].
  set (x := T - t) in *. set (y := - l * x).
  assert (Y : Rabs y <= 1 / 2) by (unfold y; replace (- l * x) with (- (l * x)) by ring; rewrite Rabs_Ropp; exact B). apply Rabs_le_between in Y.
  assert (L : 0 <= exp y - 1 - y) by (pose proof (exp_ineq1_le y); lra).
  assert (U : exp y - 1 - y <= 2 * (y * y)).
  { pose proof (exp_ineq1_le (- y)) as E. pose proof (exp_pos y) as P. assert (Q : exp y * exp (- y) = 1) by (rewrite <- exp_plus; replace (y + - y) with 0 by ring; apply exp_0). nra. }
  replace (- x - (exp y - 1) / l) with (- ((exp y - 1 - y) / l)) by (unfold y; field; exact K).
  rewrite Rabs_Ropp, Rabs_div by exact K. rewrite (Rabs_right (exp y - 1 - y)) by lra.
  assert (A : 0 < Rabs l) by (apply Rabs_pos_lt, K). apply Rle_trans with (2 * Rabs l * x ^ 2).
  - apply Rmult_le_reg_r with (Rabs l); [exact A|]. unfold Rdiv. rewrite Rmult_assoc, Rinv_l, Rmult_1_r by lra. eapply Rle_trans; [exact U|]. right. unfold y.
    replace (2 * Rabs l * x ^ 2 * Rabs l) with (2 * (Rabs l * Rabs l) * x ^ 2) by ring. rewrite <- Rabs_mult, Rabs_right by nra. ring.
  - apply Rmult_le_compat_r; [apply pow2_ge_0|]. lra.
Qed.
Print Assumptions C49_small.

(** The conditional variance of the short rate is the Ito isometry integral; it composes
    over consecutive intervals. *)
Theorem C49_variance : forall (p : hull_white R_numbers) t1 t2, tiny <= Rabs (mean_reversion p) \/ mean_reversion p = 0 ->
  (t2 <= t1 -> short_rate_variance p t1 t2 = 0) /\
  (t1 <= t2 -> is_RInt (fun u => (hw_sigma p * exp (- mean_reversion p * (t2 - u))) ^ 2) t1 t2 (short_rate_variance p t1 t2)) /\
  0 <= short_rate_variance p t1 t2 /\
  (forall t3, t1 <= t2 <= t3 -> short_rate_variance p t1 t3 = exp (- 2 * mean_reversion p * (t3 - t2)) * short_rate_variance p t1 t2 + short_rate_variance p t2 t3).
Proof.
  intros p t1 t2 H. set (l := mean_reversion p) in *. set (e := hw_sigma p) in *.
  assert (V0 : forall a b, b <= a -> short_rate_variance p a b = 0) by (intros a b L; unfold short_rate_variance; destruct (Rle_dec (b - a) 0); [reflexivity|lra]).
  assert (V : forall a b, a <= b -> (l = 0 -> short_rate_variance p a b = e * e * (b - a)) /\ (l <> 0 -> short_rate_variance p a b = e * e / (2 * l) * (1 - exp (- (2 * l) * (b - a))))).
  { intros a b L. unfold short_rate_variance. fold l e. destruct (Rle_dec (b - a) 0) as [Z|Z].
    - replace (b - a) with 0 by lra. split; intros _; [ring|]. rewrite Rmult_0_r, exp_0. unfold Rdiv. ring.
    - destruct (Rlt_dec (Rabs l) tiny) as [S|S]; (split; [|]); intros K; try reflexivity.
      + exfalso. destruct H as [H|H]; [lra|contradiction].
      + exfalso. rewrite K, Rabs_R0 in S. pose proof tiny_pos. lra. }
  assert (IN : forall a b, a <= b -> is_RInt (fun u => (e * exp (- l * (b - u))) ^ 2) a b (short_rate_variance p a b)).
  { intros a b L. destruct (V a b L) as [VA VB]. destruct (Req_dec l 0) as [K|K].
    - rewrite (VA K). apply (is_RInt_ext (fun _ => e * e)).
      + intros x _. rewrite K. replace (- 0 * (b - x)) with 0 by ring. rewrite exp_0. cbn. ring.
      + evar_last; [apply (@is_RInt_const R_NormedModule)|]. unfold scal; cbn; unfold mult; cbn. ring.
    - rewrite (VB K). apply (is_RInt_ext (fun u => scal (e * e) (exp (2 * l * u + - (2 * l * b))))).
      + intros x _. unfold scal; cbn; unfold mult; cbn. replace (2 * l * x + - (2 * l * b)) with (- l * (b - x) + - l * (b - x)) by ring. rewrite exp_plus. ring.
      + evar_last; [apply (@is_RInt_scal R_NormedModule), exp_integral; lra|]. unfold scal; cbn; unfold mult; cbn.
        replace (2 * l * b + - (2 * l * b)) with 0 by ring. replace (2 * l * a + - (2 * l * b)) with (- (2 * l) * (b - a)) by ring. rewrite exp_0. field. exact K. }
  split; [apply V0|]. split; [apply IN|]. split.
  - destruct (Rle_dec t1 t2) as [L|L]; [|rewrite V0 by lra; lra]. apply (is_RInt_ge_0 _ t1 t2 _ L (IN t1 t2 L)). intros x _. apply pow2_ge_0.
  - intros t3 [L1 L2]. destruct (Req_dec l 0) as [K|K].
    + rewrite (proj1 (V t1 t3 ltac:(lra)) K), (proj1 (V t1 t2 L1) K), (proj1 (V t2 t3 L2) K), K. replace (- 2 * 0 * (t3 - t2)) with 0 by ring. rewrite exp_0. ring.
    + rewrite (proj2 (V t1 t3 ltac:(lra)) K), (proj2 (V t1 t2 L1) K), (proj2 (V t2 t3 L2) K).
      replace (- (2 * l) * (t3 - t1)) with (- 2 * l * (t3 - t2) + - (2 * l) * (t2 - t1)) by ring. rewrite exp_plus. replace (- (2 * l) * (t3 - t2)) with (- 2 * l * (t3 - t2)) by ring. field. exact K.
Qed.
Print Assumptions C49_variance.

(** The integral that [bond_log_variance] documents, where the mean reversion is not
    taken as zero. *)
Lemma bond_integral (l e s1 s2 T : R) : l <> 0 ->
  is_RInt (fun s => e * e * ((exp (- l * (T - s)) - 1) / l) ^ 2) s1 s2
    (e * e / (l * l) * ((exp (- 2 * l * (T - s2)) - exp (- 2 * l * (T - s1))) / (2 * l) - 2 * (exp (- l * (T - s2)) - exp (- l * (T - s1))) / l + (s2 - s1))).
Proof.
  intros K.
  set (A := fun s => e * e / (l * l) * (exp (- 2 * l * (T - s)) / (2 * l) - 2 * exp (- l * (T - s)) / l + s)).
  replace (e * e / (l * l) * _) with (A s2 - A s1) by (unfold A; field; exact K).
  apply (is_RInt_derive A (fun s => e * e * ((exp (- l * (T - s)) - 1) / l) ^ 2)).
  - intros s _. unfold A. auto_derive; [exact I|]. replace (- 2 * l * (T + - s)) with (- l * (T - s) + - l * (T - s)) by ring. replace (- l * (T + - s)) with (- l * (T - s)) by ring. rewrite exp_plus. field. exact K.
  - intros s _. apply (ex_derive_continuous (fun s => e * e * ((exp (- l * (T - s)) - 1) / l) ^ 2)). auto_derive. exact I.
Qed.

(** With mean reversion the two exponentials of the antiderivative have the wrong sign:
    the function returns [2 eta^2 (s2 - s1) / lambda^2] less the integral.  Without mean
    reversion it returns the integral. *)
Theorem C49_bond_partial : forall (p : hull_white R_numbers) s1 s2 T,
  (s2 < s1 -> bond_log_variance p s1 s2 T = Panic PAssert) /\
  (s1 <= s2 -> tiny <= Rabs (mean_reversion p) -> exists i, is_RInt (fun s => (hw_sigma p * hw_b p s T) ^ 2) s1 s2 i /\
     bond_log_variance p s1 s2 T = Ok (2 * hw_sigma p ^ 2 * (s2 - s1) / mean_reversion p ^ 2 - i)) /\
  (s1 <= s2 -> mean_reversion p = 0 -> exists i, is_RInt (fun s => (hw_sigma p * hw_b p s T) ^ 2) s1 s2 i /\ bond_log_variance p s1 s2 T = Ok i).
Proof.
  intros p s1 s2 T. set (l := mean_reversion p). set (e := hw_sigma p). unfold bond_log_variance. fold l e. split; [|split].
  - intros L. destruct (Rle_dec s1 s2); [lra|]. reflexivity.
  - intros L B. assert (K : l <> 0) by (apply big_nonzero, B). eexists. split.
    + apply (is_RInt_ext (fun s => e * e * ((exp (- l * (T - s)) - 1) / l) ^ 2)); [|apply bond_integral, K].
      intros s _. unfold hw_b. fold l. destruct (Rlt_dec (Rabs l) tiny); [lra|]. cbn. ring.
    + destruct (Rle_dec s1 s2) as [_|]; [|contradiction]. cbn [negb]. destruct (Req_EM_T s2 s1) as [->|NE]; f_equal.
      * field. exact K.
      * unfold bond_antiderivative. destruct (Rlt_dec (Rabs l) tiny); [lra|]. cbv zeta. set (a1 := exp (- (2) * l * (T - s1))). set (a2 := exp (- (2) * l * (T - s2))). replace (exp (- 2 * l * (T - s1))) with a1 by (unfold a1; f_equal; ring). replace (exp (- 2 * l * (T - s2))) with a2 by (unfold a2; f_equal; ring). field. exact K.
  - intros L Z. exists (e * e * ((T - s1) ^ 3 / 3 - (T - s2) ^ 3 / 3)). split.
    + set (A := fun s => - (e * e * (T - s) ^ 3 / 3)). replace (e * e * _) with (A s2 - A s1) by (unfold A; field).
      apply (is_RInt_ext (fun s => e * e * (T - s) ^ 2)).
      * intros s _. unfold hw_b. fold l. rewrite Z, Rabs_R0. destruct (Rlt_dec 0 tiny) as [_|X]; [|pose proof tiny_pos; lra]. cbn. ring.
      * apply (is_RInt_derive A (fun s => e * e * (T - s) ^ 2)).
        -- intros s _. unfold A. auto_derive; [exact I|]. cbn. field.
        -- intros s _. apply (ex_derive_continuous (fun s => e * e * (T - s) ^ 2)). auto_derive. exact I.
    + destruct (Rle_dec s1 s2) as [_|]; [|contradiction]. cbn [negb]. destruct (Req_EM_T s2 s1) as [->|NE]; apply f_equal; [ring|].
      unfold bond_antiderivative. rewrite Z, Rabs_R0. destruct (Rlt_dec 0 tiny) as [_|X]; [|pose proof tiny_pos; lra]. field.
Qed.
Print Assumptions C49_bond_partial.

Lemma exp_m1 : 0 < exp (- (1)) < 1.
Proof. split; [apply exp_pos|]. pose proof (exp_increasing (- (1)) 0 ltac:(lra)) as H. rewrite exp_0 in H. exact H. Qed.

Lemma tiny_1 : tiny < 1.
Proof. unfold tiny. rewrite <- Rinv_1. apply Rinv_1_lt_contravar; lra. Qed.

Theorem C49_refuted : exists (p : hull_white R_numbers) s1 s2 T v,
  0 < mean_reversion p /\ 0 < hw_sigma p /\ s1 < s2 /\ bond_log_variance p s1 s2 T = Ok v /\ ~ is_RInt (fun s => (hw_sigma p * hw_b p s T) ^ 2) s1 s2 v.
Proof.
  set (p := @Build_hull_white R_numbers 1 1). exists p, 0, 1, 1.
  assert (B : tiny <= Rabs (mean_reversion p)) by (cbn; rewrite Rabs_R1; left; apply tiny_1).
  destruct (proj1 (proj2 (C49_bond_partial p 0 1 1)) ltac:(lra) B) as (i & I & E). exists (2 * hw_sigma p ^ 2 * (1 - 0) / mean_reversion p ^ 2 - i).
  split; [cbn; lra|]. split; [cbn; lra|]. split; [lra|]. split; [exact E|]. intros I2.
  pose proof (is_RInt_unique _ _ _ _ I) as U. pose proof (is_RInt_unique _ _ _ _ I2) as U2. rewrite U in U2.
  assert (J : is_RInt (fun s => (hw_sigma p * hw_b p s 1) ^ 2) 0 1 (1 * 1 / (1 * 1) * ((exp (- 2 * 1 * (1 - 1)) - exp (- 2 * 1 * (1 - 0))) / (2 * 1) - 2 * (exp (- (1) * (1 - 1)) - exp (- (1) * (1 - 0))) / 1 + (1 - 0)))).
  { apply (is_RInt_ext (fun s => 1 * 1 * ((exp (- (1) * (1 - s)) - 1) / 1) ^ 2)); [|apply bond_integral; lra].
    intros s _. unfold hw_b. cbn [mean_reversion hw_sigma p]. cbn. rewrite Rabs_R1. destruct (Rlt_dec 1 tiny) as [X|_]; [pose proof tiny_1; lra|]. ring. }
  pose proof (is_RInt_unique _ _ _ _ J) as U3. rewrite U in U3. cbn in U2.
  replace (- 2 * 1 * (1 - 1)) with 0 in U3 by ring. replace (- (1) * (1 - 1)) with 0 in U3 by ring. rewrite exp_0 in U3.
  replace (- 2 * 1 * (1 - 0)) with (- (1) + - (1)) in U3 by ring. replace (- (1) * (1 - 0)) with (- (1)) in U3 by ring. rewrite exp_plus in U3. pose proof exp_m1. nra.
Qed.
Print Assumptions C49_refuted.

(** [discount_affine] reproduces the market at time 0; for the short rate distributed as
    in the measure of the bond maturing at [t] - normal, with mean the market forward and
    the variance above - the expected bond price is the market forward bond price; and it
    decreases in the rate. *)
Theorem C49_discount : forall (p : hull_white R_numbers) T p0t p0T f0t, tiny <= Rabs (mean_reversion p) \/ mean_reversion p = 0 ->
  discount_affine p 0 T f0t p0t p0T f0t = p0T / p0t /\
  (forall t, 0 <= t -> mean (fun z => discount_affine p t T (f0t + sqrt (short_rate_variance p 0 t) * z) p0t p0T f0t) (p0T / p0t)) /\
  (forall t r r', t < T -> r < r' -> 0 < p0t -> 0 < p0T -> discount_affine p t T r' p0t p0T f0t < discount_affine p t T r p0t p0T f0t).
Proof.
  intros p T p0t p0T f0t H. set (l := mean_reversion p) in *.
  assert (CV : forall t, 0 <= t -> forall r, discount_affine p t T r p0t p0T f0t = p0T / p0t * exp (- hw_b p t T * f0t - hw_b p t T ^ 2 * short_rate_variance p 0 t / 2 + hw_b p t T * r)).
  { intros t Ht r. unfold discount_affine. cbv zeta. do 2 f_equal. do 2 f_equal. unfold short_rate_variance. fold l. rewrite Rminus_0_r.
    destruct (Rle_dec t 0) as [Z|Z].
    - replace t with 0 by lra. destruct (Rlt_dec (Rabs l) tiny) as [S|S]; [field|]. rewrite Rmult_0_r, exp_0. field. apply big_nonzero. lra.
    - destruct (Rlt_dec (Rabs l) tiny) as [S|S]; [cbn; field|]. replace (- (2) * l * t) with (- (2 * l) * t) by ring. cbn. field. apply big_nonzero. lra. }
  split; [|split].
  - rewrite CV by lra. rewrite (proj1 (C49_variance p 0 0 H)) by lra. replace (- hw_b p 0 T * f0t - hw_b p 0 T ^ 2 * 0 / 2 + hw_b p 0 T * f0t) with 0 by field. rewrite exp_0. ring.
  - intros t Ht. set (b := hw_b p t T). set (V := short_rate_variance p 0 t). assert (V0 : 0 <= V) by apply (C49_variance p 0 t H).
    eapply mean_ext; [| |apply (mean_exp_affine (- b ^ 2 * V / 2) (b * sqrt V) (p0T / p0t) 0)].
    + intros z. cbn beta. rewrite CV by exact Ht. fold b V. replace (- b * f0t - b ^ 2 * V / 2 + b * (f0t + sqrt V * z)) with (- b ^ 2 * V / 2 + b * sqrt V * z) by field. ring.
    + replace (- b ^ 2 * V / 2 + b * sqrt V * (b * sqrt V) / 2) with 0; [rewrite exp_0; ring|]. replace (b * sqrt V * (b * sqrt V)) with (b ^ 2 * (sqrt V * sqrt V)) by ring. rewrite sqrt_sqrt by exact V0. field.
  - intros t r r' L R P Q. unfold discount_affine. cbv zeta. apply Rmult_lt_compat_l; [apply Rdiv_lt_0_compat; assumption|]. apply exp_increasing. pose proof (proj1 (proj2 (proj2 (C49_b p t T))) L). nra.
Qed.
Print Assumptions C49_discount.

(** A mean-reverting model and a Ho-Lee one. *)
Example C49_witness : let p := @Build_hull_white R_numbers (1 / 20) (1 / 100) in let q := @Build_hull_white R_numbers 0 (1 / 100) in
  tiny <= Rabs (mean_reversion p) /\ mean_reversion q = 0 /\ bond_log_variance q 0 1 2 = Ok (7 / 30000) /\
  let u := @Build_hull_white R_numbers (/ 10 ^ 13) 1 in mean_reversion u <> 0 /\ Rabs (mean_reversion u) < tiny /\ Rabs (mean_reversion u * (30 - 0)) <= 1 / 2.
Proof.
  cbv zeta. cbn [mean_reversion]. assert (T : 0 < / 10 ^ 13 < tiny) by (unfold tiny; split; [apply Rinv_0_lt_compat; lra|apply Rinv_lt_contravar; lra]).
  assert (T2 : tiny < 1 / 60) by (unfold tiny; replace (1 / 60) with (/ 60) by field; apply Rinv_lt_contravar; lra).
  split; [rewrite Rabs_right; lra|]. split; [reflexivity|]. split.
  - unfold bond_log_variance, bond_antiderivative. cbn [mean_reversion hw_sigma]. rewrite Rabs_R0. destruct (Rlt_dec 0 tiny) as [_|]; [|lra]. destruct (Rle_dec 0 1) as [_|]; [|lra]. cbn [negb]. destruct (Req_EM_T 1 0); [lra|]. f_equal. cbn. field.
  - set (y := / 10 ^ 13) in *. clearbody y. split; [cbn; lra|]. cbn. split; rewrite Rabs_right; lra.
Qed.
