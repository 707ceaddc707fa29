(** C71: the mean and variance of the Cox-Ingersoll-Ross process.  C72: the mean of its
    square root. *)
From Coq Require Import Bool List Reals Lra Lia Psatz.
From Coquelicot Require Import Coquelicot.
Import ListNotations.
From Verif Require Import Outcome NormalFacts Processes ProcessFacts HullWhite.
Open Scope R_scope.

Definition cm (k th s u : R) : R := s * exp (- k * u) + th * (1 - exp (- k * u)).
Definition cv (k th g s u : R) : R := s * (g * g / k) * exp (- k * u) * (1 - exp (- k * u)) + th * (g * g / k * (1 / 2)) * (1 - exp (- k * u)) * (1 - exp (- k * u)).
Lemma mean_cm (p : cir_process R_numbers) t : 0 <= t -> cir_mean p t = cm (kappa p) (theta p) (sigma_0 p) t.
Proof.
  intros H. unfold cir_mean, cm. destruct (Rle_dec t 0) as [Z|Z]; [|reflexivity]. replace t with 0 by lra. rewrite Rmult_0_r, exp_0. symmetry. cbn. ring.
Qed.
Lemma variance_cv (p : cir_process R_numbers) t : 0 <= t -> cir_variance p t = cv (kappa p) (theta p) (gamma p) (sigma_0 p) t.
Proof.
  intros H. unfold cir_variance, cv. destruct (Rle_dec t 0) as [Z|Z]; [|reflexivity]. replace t with 0 by lra. rewrite Rmult_0_r, exp_0. cbn. ring.
Qed.

Lemma exp_decay k t : 0 < k -> 0 <= t -> 0 < exp (- k * t) <= 1.
Proof.
  intros K T. split; [apply exp_pos|]. destruct (Rle_lt_or_eq_dec 0 t T) as [L|<-].
  - left. pose proof (exp_increasing (- k * t) 0 ltac:(nra)) as H. rewrite exp_0 in H. exact H.
  - rewrite Rmult_0_r, exp_0. lra.
Qed.
Lemma lim_decay k : 0 < k -> is_lim (fun t => exp (- k * t)) p_infty 0.
Proof.
  intros K. apply (is_lim_comp exp (fun t => - k * t) p_infty 0 m_infty); [apply is_lim_exp_m| |exists 0; intros; discriminate].
  apply is_lim_spec. intros M. exists (- M / k). intros x Hx. apply (Rmult_lt_compat_l k) in Hx; [|exact K]. replace (k * (- M / k)) with (- M) in Hx by (field; lra). lra.
Qed.

(** The mean and the variance solve the moment equations of
    [d sigma = kappa (theta - sigma) dt + gamma sqrt sigma dW]. *)
Theorem C71_moments : forall (p : cir_process R_numbers) t, 0 <= t ->
  is_RInt (fun u => kappa p * (theta p - cir_mean p u)) 0 t (cir_mean p t - sigma_0 p) /\
  (kappa p <> 0 -> is_RInt (fun u => gamma p ^ 2 * cir_mean p u - 2 * kappa p * cir_variance p u) 0 t (cir_variance p t)).
Proof.
  intros p t T. set (k := kappa p). set (th := theta p). set (g := gamma p). set (s := sigma_0 p). split.
  - rewrite mean_cm by exact T. fold k th s. replace (cm k th s t - s) with (cm k th s t - cm k th s 0) by (unfold cm; rewrite Rmult_0_r, exp_0; ring).
    apply (is_RInt_ext (fun u => k * (th - cm k th s u))).
    + intros u Hu. rewrite Rmin_left, Rmax_right in Hu by exact T. rewrite mean_cm by lra. reflexivity.
    + apply (is_RInt_derive (cm k th s) (fun u => k * (th - cm k th s u))).
      * intros u _. unfold cm. auto_derive; [exact I|]. ring.
      * intros u _. apply (ex_derive_continuous (fun u => k * (th - cm k th s u))). unfold cm. auto_derive. exact I.
  - intros K. fold k in K. rewrite variance_cv by exact T. fold k th g s. replace (cv k th g s t) with (cv k th g s t - cv k th g s 0) by (unfold cv at 2; rewrite Rmult_0_r, exp_0; ring).
    apply (is_RInt_ext (fun u => g ^ 2 * cm k th s u - 2 * k * cv k th g s u)).
    + intros u Hu. rewrite Rmin_left, Rmax_right in Hu by exact T. rewrite mean_cm, variance_cv by lra. reflexivity.
    + apply (is_RInt_derive (cv k th g s) (fun u => g ^ 2 * cm k th s u - 2 * k * cv k th g s u)).
      * intros u _. unfold cv, cm. auto_derive; [exact I|]. field. exact K.
      * intros u _. apply (ex_derive_continuous (fun u => g ^ 2 * cm k th s u - 2 * k * cv k th g s u)). unfold cm, cv. auto_derive. exact I.
Qed.
Print Assumptions C71_moments.

(** The mean moves monotonically from the initial variance to the long-run one; the
    variance is non-negative, positive when there is anything random, and tends to
    [theta gamma^2 / (2 kappa)].  The process is frozen at non-positive times. *)
Theorem C71_shape : forall (p : cir_process R_numbers), 0 < kappa p ->
  (forall t, t <= 0 -> cir_mean p t = sigma_0 p /\ cir_variance p t = 0) /\
  (forall t, Rmin (sigma_0 p) (theta p) <= cir_mean p t <= Rmax (sigma_0 p) (theta p)) /\
  (forall t t', 0 <= t < t' -> Rabs (cir_mean p t' - theta p) <= Rabs (cir_mean p t - theta p)) /\
  is_lim (cir_mean p) p_infty (theta p) /\
  (0 <= sigma_0 p -> 0 <= theta p -> forall t, 0 <= cir_variance p t /\ (0 < t -> gamma p <> 0 -> 0 < sigma_0 p \/ 0 < theta p -> 0 < cir_variance p t)) /\
  is_lim (cir_variance p) p_infty (theta p * gamma p ^ 2 / (2 * kappa p)).
Proof.
  intros p K. set (k := kappa p) in *. set (th := theta p). set (g := gamma p). set (s := sigma_0 p). cbn in k, th, g, s. split; [|split; [|split; [|split; [|split]]]].
  - intros t T. unfold cir_mean, cir_variance. destruct (Rle_dec t 0); [split; reflexivity|lra].
  - intros t. destruct (Rle_dec 0 t) as [T|T].
    + rewrite mean_cm by exact T. fold k th s. unfold cm. pose proof (exp_decay k t K T). unfold Rmin, Rmax. destruct (Rle_dec s th); nra.
    + unfold cir_mean. destruct (Rle_dec t 0); [|lra]. fold s. unfold Rmin, Rmax. destruct (Rle_dec s th); lra.
  - intros t t' [T L]. rewrite !mean_cm by lra. fold k th s. unfold cm.
    replace (s * exp (- k * t') + th * (1 - exp (- k * t')) - th) with ((s - th) * exp (- k * t')) by ring.
    replace (s * exp (- k * t) + th * (1 - exp (- k * t)) - th) with ((s - th) * exp (- k * t)) by ring.
    rewrite !Rabs_mult. apply Rmult_le_compat_l; [apply Rabs_pos|]. rewrite !Rabs_right by (left; apply exp_pos). left. apply exp_increasing. nra.
  - apply (is_lim_ext_loc (cm k th s)); [exists 0; intros x Hx; rewrite mean_cm by lra; reflexivity|].
    apply (is_lim_ext (fun t => th + (s - th) * exp (- k * t))); [intros t; unfold cm; ring|].
    evar_last; [apply (is_lim_plus' (fun _ => th) (fun t => (s - th) * exp (- k * t))); [apply is_lim_const|apply (is_lim_scal_l (fun t => exp (- k * t)) (s - th) p_infty 0), lim_decay, K]|]. cbn. f_equal. ring.
  - intros S TH t. destruct (Rle_dec t 0) as [T|T].
    + unfold cir_variance. destruct (Rle_dec t 0); [|contradiction]. split; [lra|intros; lra].
    + rewrite variance_cv by lra. fold k th g s. unfold cv. cbn in S, TH. fold s in S. fold th in TH. pose proof (exp_decay k t K ltac:(lra)) as [E1 _].
      assert (E2 : exp (- k * t) < 1) by (pose proof (exp_increasing (- k * t) 0 ltac:(nra)) as H; rewrite exp_0 in H; exact H).
      set (e := exp (- k * t)) in *. assert (G : 0 <= g * g / k) by (apply Rdiv_le_0_compat; [apply Rle_0_sqr|exact K]). set (q := g * g / k) in *.
      assert (A : 0 <= e * (1 - e)) by nra. assert (B : 0 <= (1 - e) * (1 - e)) by nra.
      assert (SQ : 0 <= s * q) by nra. assert (TQ : 0 <= th * q) by nra.
      split; [replace (s * q * e * (1 - e) + th * (q * (1 / 2)) * (1 - e) * (1 - e)) with (s * q * (e * (1 - e)) + th * q * ((1 - e) * (1 - e)) / 2) by field; assert (0 <= s * q * (e * (1 - e))) by nra; assert (0 <= th * q * ((1 - e) * (1 - e))) by nra; lra|].
      intros _ GN O. assert (G' : 0 < q) by (apply Rdiv_lt_0_compat; [apply Rsqr_pos_lt, GN|exact K]).
      replace (s * q * e * (1 - e) + th * (q * (1 / 2)) * (1 - e) * (1 - e)) with (s * q * (e * (1 - e)) + th * q * ((1 - e) * (1 - e)) / 2) by field.
      assert (A' : 0 < e * (1 - e)) by nra. assert (B' : 0 < (1 - e) * (1 - e)) by nra.
      destruct O as [O|O]; cbn in O; [fold s in O|fold th in O].
      * assert (0 < s * q * (e * (1 - e))) by (apply Rmult_lt_0_compat; [nra|exact A']). assert (0 <= th * q * ((1 - e) * (1 - e))) by nra. lra.
      * assert (0 < th * q * ((1 - e) * (1 - e))) by (apply Rmult_lt_0_compat; [nra|exact B']). assert (0 <= s * q * (e * (1 - e))) by nra. lra.
  - apply (is_lim_ext_loc (cv k th g s)); [exists 0; intros x Hx; rewrite variance_cv by lra; reflexivity|].
    set (q := g * g / k). set (E := fun t => exp (- k * t)).
    assert (LE : is_lim E p_infty 0) by apply lim_decay, K.
    assert (LO : is_lim (fun t => 1 - E t) p_infty (1 - 0)) by (apply (is_lim_minus' (fun _ => 1) E); [apply is_lim_const|exact LE]).
    apply (is_lim_ext (fun t => s * q * (E t * (1 - E t)) + th * q / 2 * ((1 - E t) * (1 - E t)))); [intros t; unfold cv; fold q; unfold E; field|].
    evar_last; [apply (is_lim_plus' (fun t => s * q * (E t * (1 - E t))) (fun t => th * q / 2 * ((1 - E t) * (1 - E t))))|].
    + apply (is_lim_scal_l (fun t => E t * (1 - E t)) (s * q) p_infty (0 * (1 - 0))). apply (is_lim_mult E (fun t => 1 - E t) p_infty 0 (1 - 0) LE LO I).
    + apply (is_lim_scal_l (fun t => (1 - E t) * (1 - E t)) (th * q / 2) p_infty ((1 - 0) * (1 - 0))). apply (is_lim_mult (fun t => 1 - E t) (fun t => 1 - E t) p_infty (1 - 0) (1 - 0) LO LO I).
    + cbn. f_equal. unfold q. field. lra.
Qed.
Print Assumptions C71_shape.

(** A Feller process, off its long-run level. *)
Example C71_witness : let p := @Build_cir_process R_numbers 2 (1 / 25) (1 / 4) (1 / 10) in
  0 < kappa p /\ 0 <= sigma_0 p /\ 0 <= theta p /\ feller_satisfied p = true /\ cir_mean p (ln 2 / 2) = 7 / 100.
Proof.
  cbv zeta. cbn [kappa sigma_0 theta]. split; [cbn; lra|]. split; [cbn; lra|]. split; [cbn; lra|]. split.
  - unfold feller_satisfied. cbn. destruct (Rle_dec (1 / 4 * (1 / 4)) (2 * 2 * (1 / 25))); [reflexivity|lra].
  - unfold cir_mean. cbn. pose proof (ln_lt_0_aux := ln_lt_2). destruct (Rle_dec (ln 2 / 2) 0); [lra|].
    replace (- (2) * (ln 2 / 2)) with (- ln 2) by field. rewrite exp_Ropp, exp_ln by lra. field.
Qed.

(** * C72 *)

(** The parameters of the non-central chi-squared law of [sigma t / c]: degrees of freedom
    and non-centrality. *)
Definition chi_scale (p : cir_process R_numbers) (t : R) : R := gamma p ^ 2 * (1 - exp (- kappa p * t)) / (4 * kappa p).
Definition chi_degrees (p : cir_process R_numbers) : R := 4 * kappa p * theta p / gamma p ^ 2.
Definition chi_noncentrality (p : cir_process R_numbers) (t : R) : R := 4 * kappa p * sigma_0 p * exp (- kappa p * t) / (gamma p ^ 2 * (1 - exp (- kappa p * t))).

(** Scaled by [c], a law with [l] degrees of freedom and non-centrality [e] has mean
    [c (l + e)] and variance [c^2 (2 l + 4 e)]: those of the process. *)
Theorem C72_law : forall (p : cir_process R_numbers) t, 0 < t -> 0 < kappa p -> gamma p <> 0 ->
  let c := chi_scale p t in let l := chi_degrees p in let e := chi_noncentrality p t in
  c * (l + e) = cir_mean p t /\ c ^ 2 * (2 * l + 4 * e) = cir_variance p t.
Proof.
  intros p t T K G. cbv zeta. rewrite mean_cm, variance_cv by lra. unfold chi_scale, chi_degrees, chi_noncentrality, cm, cv. cbn in K, G.
  assert (E : exp (- kappa p * t) < 1) by (pose proof (exp_increasing (- kappa p * t) 0 ltac:(cbn; nra)) as H; rewrite exp_0 in H; exact H).
  set (x := exp (- kappa p * t)) in *. cbn in x, E |- *. split; field; repeat split; lra.
Qed.
Print Assumptions C72_law.

(** Term [k] of the series for the mean of the square root: Poisson weight times the
    half moment of a central law. *)
Definition sqrt_term (ln_gamma : R -> R) (l e : R) (k : nat) : R :=
  (e / 2) ^ k / INR (fact k) * exp (ln_gamma ((l + 1) / 2 + INR k) - ln_gamma (l / 2 + INR k)).

Lemma term_step ln_gamma l e k : (forall x, 0 < x -> ln_gamma (x + 1) = ln x + ln_gamma x) -> 0 < l ->
  sqrt_term ln_gamma l e (S k) = sqrt_term ln_gamma l e k * (1 / 2 * e * (1 / 2 * (l + 1) + INR k) / (INR (S k) * (1 / 2 * l + INR k))).
Proof.
  intros G L. unfold sqrt_term. pose proof (pos_INR k) as P. rewrite S_INR.
  replace ((l + 1) / 2 + (INR k + 1)) with ((l + 1) / 2 + INR k + 1) by ring. replace (l / 2 + (INR k + 1)) with (l / 2 + INR k + 1) by ring.
  rewrite !G by lra. replace (ln ((l + 1) / 2 + INR k) + ln_gamma ((l + 1) / 2 + INR k) - (ln (l / 2 + INR k) + ln_gamma (l / 2 + INR k)))
    with ((ln ((l + 1) / 2 + INR k) + - ln (l / 2 + INR k)) + (ln_gamma ((l + 1) / 2 + INR k) - ln_gamma (l / 2 + INR k))) by ring.
  rewrite !exp_plus, exp_Ropp, !exp_ln by lra. rewrite fact_simpl, mult_INR, S_INR. cbn [pow]. pose proof (INR_fact_neq_0 k). field. repeat split; lra.
Qed.

Lemma series_value ln_gamma l e tol : (forall x, 0 < x -> ln_gamma (x + 1) = ln x + ln_gamma x) -> 0 < l ->
  forall fuel k, (k + fuel = 2001)%nat -> (0 < fuel)%nat -> exists n, (k < n <= 2001)%nat /\
  sqrt_series fuel (1 / 2 * e) (1 / 2 * l) (1 / 2 * (l + 1)) tol k (sqrt_term ln_gamma l e k) (sum_f_R0 (sqrt_term ln_gamma l e) k) = sum_f_R0 (sqrt_term ln_gamma l e) n /\
  (Rabs (sqrt_term ln_gamma l e n) <= tol * Rabs (sum_f_R0 (sqrt_term ln_gamma l e) n) \/ n = 2001%nat).
Proof.
  intros G L. induction fuel as [|fuel IH]; intros k E F; [lia|]. cbn [sqrt_series]. rewrite <- (term_step ln_gamma l e k G L).
  change (sum_f_R0 (sqrt_term ln_gamma l e) k + sqrt_term ln_gamma l e (S k)) with (sum_f_R0 (sqrt_term ln_gamma l e) (S k)).
  destruct (Rle_dec _ _) as [C|C]; [exists (S k); split; [lia|]; split; [reflexivity|left; exact C]|].
  destruct (Nat.ltb_spec 2000 (S k)) as [B|B]; [exists (S k); split; [lia|]; split; [reflexivity|right; lia]|].
  destruct (IH (S k) ltac:(lia) ltac:(lia)) as (n & Hn & V & D). exists n. split; [lia|]. split; [exact V|exact D].
Qed.

(** Away from the special cases the result is the series, cut after a term that is
    negligible beside the sum or after two thousand terms.  [ln_gamma] need only satisfy
    the functional equation of the gamma function. *)
Theorem C72_series : forall ln_gamma, (forall x, 0 < x -> ln_gamma (x + 1) = ln x + ln_gamma x) ->
  forall (p : cir_process R_numbers) t tol, 0 < t -> 0 < kappa p -> 0 < theta p -> / 10 ^ 14 <= Rabs (gamma p) -> chi_noncentrality p t <= 500 ->
  exists n, (1 <= n <= 2001)%nat /\
  let term := sqrt_term ln_gamma (chi_degrees p) (chi_noncentrality p t) in
  sqrt_mean_tol ln_gamma p t tol = Ok (sqrt (2 * chi_scale p t) * exp (- chi_noncentrality p t / 2) * sum_f_R0 term n) /\
  (Rabs (term n) <= tol * Rabs (sum_f_R0 term n) \/ n = 2001%nat).
Proof.
  intros lg G p t tol T K TH GM E. cbn in K, TH. assert (GN : gamma p <> 0) by (intros Z; cbn in *; rewrite Z, Rabs_R0 in GM; pose proof (Rinv_0_lt_compat (10 ^ 14) ltac:(lra)); lra).
  assert (GP : 0 < gamma p * gamma p) by (apply (Rsqr_pos_lt (gamma p)), GN).
  set (c := chi_scale p t). set (l := chi_degrees p). set (e := chi_noncentrality p t) in *.
  assert (L : 0 < l) by (unfold l, chi_degrees; cbn; apply Rdiv_lt_0_compat; nra).
  assert (HC : gamma p * gamma p * (1 - exp (- kappa p * t)) / (4 * kappa p) = c) by (unfold c, chi_scale; cbn; field; lra).
  assert (HL : 4 * kappa p * theta p / (gamma p * gamma p) = l) by (unfold l, chi_degrees; cbn; field; exact GN).
  assert (HE : 4 * kappa p * sigma_0 p * exp (- kappa p * t) / (gamma p * gamma p * (1 - exp (- kappa p * t))) = e).
  { unfold e, chi_noncentrality. do 2 f_equal. cbn. ring. }
  destruct (series_value lg l e tol G L 2001 0 ltac:(lia) ltac:(lia)) as (n & Hn & V & D). exists n. split; [lia|]. cbv zeta. split; [|exact D].
  unfold sqrt_mean_tol. destruct (Rle_dec t 0); [lra|]. destruct (Rlt_dec 0 (kappa p)) as [_|]; [|contradiction]. cbn [negb]. destruct (Rlt_dec (Rabs (gamma p)) (/ 10 ^ 14)) as [X|_]; [exfalso; exact (Rlt_not_le _ _ X GM)|].
  cbv zeta. rewrite HC, HL, HE. destruct (Rlt_dec 500 e); [lra|].
  replace (exp (lg (1 / 2 * (l + 1)) - lg (1 / 2 * l))) with (sqrt_term lg l e 0).
  - replace (sqrt_term lg l e 0) with (sum_f_R0 (sqrt_term lg l e) 0) at 2 by reflexivity. rewrite V. replace (- (1 / 2) * e) with (- e / 2) by field. reflexivity.
  - unfold sqrt_term. cbn [pow fact INR]. rewrite !Rplus_0_r. replace ((l + 1) / 2) with (1 / 2 * (l + 1)) by field. replace (l / 2) with (1 / 2 * l) by field. field.
Qed.
Print Assumptions C72_series.

Definition sqrt_ratio (l e : R) (k : nat) : R := 1 / 2 * e * (1 / 2 * (l + 1) + INR k) / (INR (S k) * (1 / 2 * l + INR k)).
Lemma term_pos lg l e k : 0 <= e -> 0 <= sqrt_term lg l e k.
Proof. intros E. unfold sqrt_term. apply Rmult_le_pos; [|left; apply exp_pos]. apply Rdiv_le_0_compat; [apply pow_le; lra|apply INR_fact_lt_0]. Qed.
Lemma ratio_pos l e k : 0 < l -> 0 <= e -> 0 <= sqrt_ratio l e k.
Proof.
  intros L E. unfold sqrt_ratio. pose proof (pos_INR k). rewrite S_INR. apply Rdiv_le_0_compat; [apply Rmult_le_pos; lra|]. apply Rmult_lt_0_compat; lra.
Qed.
Lemma ratio_decreasing l e k : 0 < l -> 0 <= e -> sqrt_ratio l e (S k) <= sqrt_ratio l e k.
Proof.
  intros L E. unfold sqrt_ratio. rewrite !S_INR. pose proof (pos_INR k) as P. set (n := INR k) in *. clearbody n.
  assert (Q : (1 / 2 * (l + 1) + (n + 1)) / ((n + 1 + 1) * (1 / 2 * l + (n + 1))) <= (1 / 2 * (l + 1) + n) / ((n + 1) * (1 / 2 * l + n))).
  { apply Rmult_le_reg_r with (((n + 1 + 1) * (1 / 2 * l + (n + 1))) * ((n + 1) * (1 / 2 * l + n))); [repeat apply Rmult_lt_0_compat; lra|].
    replace ((1 / 2 * (l + 1) + (n + 1)) / ((n + 1 + 1) * (1 / 2 * l + (n + 1))) * ((n + 1 + 1) * (1 / 2 * l + (n + 1)) * ((n + 1) * (1 / 2 * l + n)))) with ((1 / 2 * (l + 1) + (n + 1)) * ((n + 1) * (1 / 2 * l + n))) by (field; lra).
    replace ((1 / 2 * (l + 1) + n) / ((n + 1) * (1 / 2 * l + n)) * ((n + 1 + 1) * (1 / 2 * l + (n + 1)) * ((n + 1) * (1 / 2 * l + n)))) with ((1 / 2 * (l + 1) + n) * ((n + 1 + 1) * (1 / 2 * l + (n + 1)))) by (field; lra).
    nra. }
  apply (Rmult_le_compat_l (1 / 2 * e)) in Q; [|lra]. unfold Rdiv in *. rewrite <- !Rmult_assoc in Q. exact Q.
Qed.
Lemma ratio_le l e n k : 0 < l -> 0 <= e -> sqrt_ratio l e (n + k) <= sqrt_ratio l e n.
Proof. intros L E. induction k as [|k IH]; [rewrite Nat.add_0_r; lra|]. rewrite Nat.add_succ_r. eapply Rle_trans; [apply ratio_decreasing; assumption|exact IH]. Qed.

Lemma term_geometric lg l e n k : (forall x, 0 < x -> lg (x + 1) = ln x + lg x) -> 0 < l -> 0 <= e -> sqrt_term lg l e (n + k) <= sqrt_term lg l e n * sqrt_ratio l e n ^ k.
Proof.
  intros G L E. induction k as [|k IH]; [rewrite Nat.add_0_r; cbn; lra|]. rewrite Nat.add_succ_r, (term_step lg l e _ G L). fold (sqrt_ratio l e (n + k)).
  cbn [pow]. replace (sqrt_term lg l e n * (sqrt_ratio l e n * sqrt_ratio l e n ^ k)) with (sqrt_term lg l e n * sqrt_ratio l e n ^ k * sqrt_ratio l e n) by ring.
  apply Rmult_le_compat; [apply term_pos, E|apply ratio_pos; assumption|exact IH|apply ratio_le; assumption].
Qed.

(** Partial sums beyond [n]. *)
Lemma tail_bound lg l e n : (forall x, 0 < x -> lg (x + 1) = ln x + lg x) -> 0 < l -> 0 <= e -> sqrt_ratio l e n < 1 ->
  forall k, sum_f_R0 (sqrt_term lg l e) n <= sum_f_R0 (sqrt_term lg l e) (n + k) <= sum_f_R0 (sqrt_term lg l e) n + sqrt_term lg l e n * sqrt_ratio l e n / (1 - sqrt_ratio l e n).
Proof.
  intros G L E R1. set (r := sqrt_ratio l e n) in *. set (t := sqrt_term lg l e) in *.
  assert (R0 : 0 <= r) by (apply ratio_pos; assumption). assert (T0 : 0 <= t n) by (apply term_pos, E).
  assert (X : forall k, sum_f_R0 t n <= sum_f_R0 t (n + k) <= sum_f_R0 t n + t n * (r - r ^ S k) / (1 - r)).
  { induction k as [|k IH]; [rewrite Nat.add_0_r; cbn [pow]; replace (r - r * 1) with 0 by ring; unfold Rdiv; rewrite Rmult_0_r, Rmult_0_l; lra|].
    rewrite Nat.add_succ_r. cbn [sum_f_R0]. pose proof (term_pos lg l e (S (n + k)) E) as P. fold t in P.
    pose proof (term_geometric lg l e n (S k) G L E) as Q. fold t r in Q. rewrite Nat.add_succ_r in Q.
    split; [lra|]. replace (t n * (r - r ^ S (S k)) / (1 - r)) with (t n * (r - r ^ S k) / (1 - r) + t n * r ^ S k) by (cbn [pow]; field; lra). lra. }
  intros k. destruct (X k) as [A B]. split; [exact A|]. eapply Rle_trans; [exact B|]. apply Rplus_le_compat_l. unfold Rdiv. apply Rmult_le_compat_r; [left; apply Rinv_0_lt_compat; lra|].
  apply Rmult_le_compat_l; [exact T0|]. pose proof (pow_le r (S k) R0). lra.
Qed.

(** The whole series converges, the result is at most its sum, and the part cut off is at
    most a geometric tail of the last term kept. *)
Theorem C72_error : forall lg l e, (forall x, 0 < x -> lg (x + 1) = ln x + lg x) -> 0 < l -> 0 <= e ->
  exists L, Un_cv (sum_f_R0 (sqrt_term lg l e)) L /\ (forall n, sum_f_R0 (sqrt_term lg l e) n <= L) /\
  forall n, let r := 1 / 2 * e * (1 / 2 * (l + 1) + INR n) / (INR (S n) * (1 / 2 * l + INR n)) in
    r < 1 -> L - sum_f_R0 (sqrt_term lg l e) n <= sqrt_term lg l e n * r / (1 - r).
Proof.
  intros lg l e G L E. set (t := sqrt_term lg l e).
  assert (MON : Un_growing (sum_f_R0 t)) by (intros n; cbn [sum_f_R0]; pose proof (term_pos lg l e (S n) E) as P; fold t in P; lra).
  assert (SMALL : exists n, sqrt_ratio l e n < 1).
  { destruct (nfloor_ex (Rmax 0 ((1 / 2 * e) * (1 + 1 / l))) (Rmax_l _ _)) as (n & Hn). pose proof (Rmax_r 0 ((1 / 2 * e) * (1 + 1 / l))) as Hm. exists n. unfold sqrt_ratio. rewrite S_INR. pose proof (pos_INR n) as P. set (x := INR n) in *. clearbody x.
    assert (B : (1 / 2 * (l + 1) + x) / (1 / 2 * l + x) <= 1 + 1 / l).
    { apply Rmult_le_reg_r with (1 / 2 * l + x); [lra|]. replace ((1 / 2 * (l + 1) + x) / (1 / 2 * l + x) * (1 / 2 * l + x)) with (1 / 2 * (l + 1) + x) by (field; lra).
      replace ((1 + 1 / l) * (1 / 2 * l + x)) with (1 / 2 * (l + 1) + x + x * / l) by (field; lra). pose proof (Rinv_0_lt_compat l L). nra. }
    replace (1 / 2 * e * (1 / 2 * (l + 1) + x) / ((x + 1) * (1 / 2 * l + x))) with (1 / 2 * e * ((1 / 2 * (l + 1) + x) / (1 / 2 * l + x)) / (x + 1)) by (field; lra).
    apply Rmult_lt_reg_r with (x + 1); [lra|]. unfold Rdiv at 1. rewrite Rmult_assoc, Rinv_l, Rmult_1_r by lra.
    assert (1 / 2 * e * ((1 / 2 * (l + 1) + x) / (1 / 2 * l + x)) <= 1 / 2 * e * (1 + 1 / l)) by (apply Rmult_le_compat_l; lra). lra. }
  destruct SMALL as (n0 & H0).
  assert (UB : bound (EUn (sum_f_R0 t))).
  { exists (sum_f_R0 t n0 + t n0 * sqrt_ratio l e n0 / (1 - sqrt_ratio l e n0)). intros y (n & ->).
    pose proof (tail_bound lg l e n0 G L E H0) as B. fold t in B. destruct (Nat.le_gt_cases n0 n) as [C|C].
    - replace n with (n0 + (n - n0))%nat by lia. apply B.
    - eapply Rle_trans; [|exact (Rle_trans _ _ _ (proj1 (B O)) (proj2 (B O)))]. apply Rge_le, growing_prop; [exact MON|lia]. }
  destruct (Un_cv_crit (sum_f_R0 t) MON UB) as (S & CV). exists S. split; [exact CV|].
  split; [apply growing_ineq; assumption|]. intros n r Hr.
  enough (X : S <= sum_f_R0 t n + t n * r / (1 - r)) by (unfold t in X; fold t in X |- *; lra).
  destruct (Rle_dec S (sum_f_R0 t n + t n * r / (1 - r))) as [Y|Y]; [exact Y|exfalso].
  destruct (CV (S - (sum_f_R0 t n + t n * r / (1 - r))) ltac:(lra)) as (N & HN).
  pose proof (HN (n + N)%nat ltac:(lia)) as D. pose proof (tail_bound lg l e n G L E Hr N) as [_ B]. fold t r in B. unfold R_dist in D. apply Rabs_def2 in D. unfold sqrt_ratio in B. fold r in B. lra.
Qed.
Print Assumptions C72_error.

(** The other cases. *)
Theorem C72_special : forall lg (p : cir_process R_numbers) t tol,
  (t <= 0 -> sqrt_mean_tol lg p t tol = Ok (sqrt (Rmax (sigma_0 p) 0))) /\
  (0 < t -> kappa p <= 0 -> sqrt_mean_tol lg p t tol = Panic PAssert) /\
  (0 < t -> 0 < kappa p -> Rabs (gamma p) < / 10 ^ 14 -> sqrt_mean_tol lg p t tol = Ok (sqrt (Rmax (cir_mean p t) 0))) /\
  (feller_satisfied p = true -> gamma p <> 0 -> 2 <= chi_degrees p).
Proof.
  intros lg p t tol. split; [|split; [|split]].
  - intros T. unfold sqrt_mean_tol. destruct (Rle_dec t 0); [reflexivity|contradiction].
  - intros T K. unfold sqrt_mean_tol. destruct (Rle_dec t 0); [lra|]. destruct (Rlt_dec 0 (kappa p)) as [X|_]; [exfalso; exact (Rlt_not_le _ _ X K)|reflexivity].
  - intros T K G. unfold sqrt_mean_tol. destruct (Rle_dec t 0); [lra|]. destruct (Rlt_dec 0 (kappa p)) as [_|X]; [|contradiction]. cbn [negb]. destruct (Rlt_dec (Rabs (gamma p)) (/ 10 ^ 14)); [reflexivity|contradiction].
  - unfold feller_satisfied, chi_degrees. destruct (Rle_dec (gamma p * gamma p) (2 * kappa p * theta p)) as [F|F]; [|discriminate]. intros _ G. cbn in *.
    assert (GP : 0 < gamma p * gamma p) by (apply (Rsqr_pos_lt (gamma p)), G). apply Rmult_le_reg_r with (gamma p * gamma p); [exact GP|]. replace (4 * kappa p * theta p / (gamma p * (gamma p * 1)) * (gamma p * gamma p)) with (4 * kappa p * theta p) by (field; exact G). lra.
Qed.
Print Assumptions C72_special.

(** With a large non-centrality the square root is taken of the corrected mean, instead of
    the mean being corrected after the root: the variance correction comes out at half of
    the documented [sqrt m (1 - v / (8 m^2))]. *)
Theorem C72_large_partial : forall lg (p : cir_process R_numbers) t tol, 0 < t -> 0 < kappa p -> 0 <= theta p -> 0 < sigma_0 p -> / 10 ^ 14 <= Rabs (gamma p) -> 500 < chi_noncentrality p t -> / 10 ^ 300 <= cir_mean p t ->
  let m := cir_mean p t in let v := cir_variance p t in
  exists r, sqrt_mean_tol lg p t tol = Ok r /\ r ^ 2 = m - v / (8 * m) /\ sqrt m * (1 - v / (8 * m ^ 2)) < r /\ r <= sqrt m * (1 - v / (16 * m ^ 2)).
Proof.
  intros lg p t tol T K TH S GM E M. cbv zeta. cbn in K, TH, S.
  assert (GN : gamma p <> 0) by (intros Z; cbn in *; rewrite Z, Rabs_R0 in GM; pose proof (Rinv_0_lt_compat (10 ^ 14) ltac:(lra)); lra).
  destruct (C72_law p t T K GN) as [LM LV]. set (m := cir_mean p t) in *. set (v := cir_variance p t) in *. set (c := chi_scale p t) in *. set (l := chi_degrees p) in *. set (e := chi_noncentrality p t) in *.
  assert (E1 : exp (- kappa p * t) < 1) by (pose proof (exp_increasing (- kappa p * t) 0 ltac:(cbn; nra)) as H; rewrite exp_0 in H; exact H).
  assert (GP : 0 < gamma p * gamma p) by (apply (Rsqr_pos_lt (gamma p)), GN).
  assert (C : 0 < c). { unfold c, chi_scale. apply Rdiv_lt_0_compat; [|cbn; lra]. apply Rmult_lt_0_compat; [cbn; lra|cbn in *; lra]. }
  assert (L : 0 <= l). { unfold l, chi_degrees. apply Rdiv_le_0_compat; cbn; nra. }
  assert (MP : 0 < m) by (rewrite <- LM; nra).
  set (q := v / (8 * m ^ 2)).
  assert (Q : q = (2 * l + 4 * e) / (8 * (l + e) ^ 2)) by (unfold q; rewrite <- LM, <- LV; field; split; lra).
  assert (Q0 : 0 < q < 1).
  { rewrite Q. split; [apply Rdiv_lt_0_compat; nra|]. apply Rmult_lt_reg_r with (8 * (l + e) ^ 2); [nra|]. unfold Rdiv. rewrite Rmult_assoc, Rinv_l, Rmult_1_r by nra. nra. }
  exists (sqrt (m * (1 - q))). assert (MQ : 0 < m * (1 - q)) by nra. split; [|split; [|split]].
  - unfold sqrt_mean_tol. destruct (Rle_dec t 0); [lra|]. destruct (Rlt_dec 0 (kappa p)) as [_|X]; [|contradiction]. cbn [negb]. destruct (Rlt_dec (Rabs (gamma p)) (/ 10 ^ 14)) as [X|_]; [exfalso; exact (Rlt_not_le _ _ X GM)|].
    cbv zeta. match goal with |- (if Rlt_dec 500 ?x then _ else _) = _ => replace x with e by (unfold e, chi_noncentrality; do 2 f_equal; cbn; ring) end.
    destruct (Rlt_dec 500 e) as [_|]; [|contradiction]. fold m v. rewrite (Rmax_left m) by exact M. replace (m * (1 - v / (8 * m * m))) with (m * (1 - q)) by (unfold q; field; lra). rewrite Rmax_left by lra. reflexivity.
  - cbn [pow]. rewrite Rmult_1_r, sqrt_sqrt by lra. unfold q. field. lra.
  - fold q. rewrite sqrt_mult by lra. apply Rmult_lt_compat_l; [apply sqrt_lt_R0, MP|]. rewrite <- (sqrt_square (1 - q)) at 1 by lra. apply sqrt_lt_1; nra.
  - rewrite sqrt_mult by lra. apply Rmult_le_compat_l; [apply sqrt_pos|]. replace (v / (16 * m ^ 2)) with (q / 2) by (unfold q; field; lra). rewrite <- (sqrt_square (1 - q / 2)) by lra. apply sqrt_le_1; nra.
Qed.
Print Assumptions C72_large_partial.

Lemma big_case : let p := @Build_cir_process R_numbers 1 1 (1 / 20) 1 in
  0 < ln 2 /\ 0 < kappa p /\ 0 < sigma_0 p /\ / 10 ^ 14 <= Rabs (gamma p) /\ 500 < chi_noncentrality p (ln 2) /\ / 10 ^ 300 <= cir_mean p (ln 2).
Proof.
  cbv zeta. cbn [kappa sigma_0 gamma]. assert (L : 0 < ln 2) by (rewrite <- ln_1; apply ln_increasing; lra).
  assert (X : exp (- (1) * ln 2) = 1 / 2) by (replace (- (1) * ln 2) with (- ln 2) by ring; rewrite exp_Ropp, exp_ln by lra; field).
  split; [exact L|]. split; [cbn; lra|]. split; [cbn; lra|]. split; [|split].
  - rewrite Rabs_right by (cbn; lra). cbn. apply Rle_trans with (/ 20); [apply Rinv_le_contravar; lra|lra].
  - unfold chi_noncentrality. cbn [kappa sigma_0 gamma]. match goal with |- context [exp ?y] => replace (exp y) with (1 / 2) by (symmetry; exact X) end. cbn. lra.
  - rewrite mean_cm by lra. unfold cm. cbn [kappa theta sigma_0]. match goal with |- context [exp ?y] => replace (exp y) with (1 / 2) by (symmetry; exact X) end.
    apply Rle_trans with (/ 1); [apply Rinv_le_contravar; [lra|apply pow_R1_Rle; lra]|]. cbn. lra.
Qed.

Theorem C72_refuted : exists (p : cir_process R_numbers) t, 0 < t /\ 0 < kappa p /\ 0 < sigma_0 p /\ 500 < chi_noncentrality p t /\
  forall lg r, sqrt_mean lg p t = Ok r -> r <> sqrt (cir_mean p t) * (1 - cir_variance p t / (8 * cir_mean p t ^ 2)).
Proof.
  exists (@Build_cir_process R_numbers 1 1 (1 / 20) 1), (ln 2). destruct big_case as (A & B & C & D & E & F).
  split; [exact A|]. split; [exact B|]. split; [exact C|]. split; [exact E|]. intros lg r H.
  destruct (C72_large_partial lg _ (ln 2) (/ 10 ^ 14) A B ltac:(cbn; lra) C D E F) as (r' & H' & _ & G & _). unfold sqrt_mean in H. rewrite H' in H. assert (r' = r) by congruence. subst r'. intros Z. rewrite <- Z in G. exact (Rlt_irrefl _ G).
Qed.
Print Assumptions C72_refuted.

(** For long times the result tends to [sqrt_mean_infinity], and so does the exponential
    proxy, which starts from the square root of the initial variance. *)
Theorem C72_limit : forall lg, (forall x, 0 < x -> lg (x + 1) = ln x + lg x) ->
  forall (p : cir_process R_numbers) tol, 0 < kappa p -> 0 < theta p -> 0 <= sigma_0 p -> / 10 ^ 14 <= gamma p ->
  exists w q, sqrt_mean_infinity lg p = Ok w /\ sqrt_mean_proxy_of lg p = Ok q /\
  is_lim (fun t => match sqrt_mean_tol lg p t tol with Ok v => v | _ => 0 end) p_infty w /\
  is_lim (proxy_eval q) p_infty w /\ proxy_eval q 0 = sqrt (sigma_0 p).
Proof.
  intros lg G p tol K TH S GM. cbn in K, TH, S, GM. set (k := kappa p) in *. set (th := theta p) in *. set (s := sigma_0 p) in *. set (g := gamma p) in *. cbn in k, th, s, g.
  assert (GP : 0 < g) by (pose proof (Rinv_0_lt_compat (10 ^ 14) ltac:(lra)); cbn in GM; lra).
  set (l := 4 * k * th / (g * g)). assert (L : 0 < l) by (apply Rdiv_lt_0_compat; nra).
  set (t0 := exp (lg (1 / 2 * (l + 1)) - lg (1 / 2 * l))). exists (g / sqrt (2 * k) * t0).
  assert (W : sqrt_mean_infinity lg p = Ok (g / sqrt (2 * k) * t0)).
  { unfold sqrt_mean_infinity. fold k g th. destruct (Rlt_dec 0 k) as [_|]; [|contradiction]. destruct (Rlt_dec 0 g) as [_|]; [|contradiction]. reflexivity. }
  eexists. split; [exact W|]. split; [unfold sqrt_mean_proxy_of; rewrite W; reflexivity|]. unfold proxy_eval. cbn [beta1 beta2 beta3]. fold k s.
  set (w := g / sqrt (2 * k) * t0). split; [|split].
  - set (c := fun x => g ^ 2 * (1 - x) / (4 * k)). set (e := fun x => 4 * k * s * x / (g ^ 2 * (1 - x))).
    set (F := fun x => sqrt (2 * c x) * exp (- e x / 2) * t0).
    assert (D : 0 < 1 / 4 / k) by (apply Rdiv_lt_0_compat; lra).
    assert (C0 : 0 < 2 * c 0). { unfold c. apply Rmult_lt_0_compat; [lra|]. apply Rdiv_lt_0_compat; [|lra]. rewrite Rminus_0_r, Rmult_1_r. apply pow_lt, GP. }
    assert (CF : continuous F 0). { apply (ex_derive_continuous F). unfold F, c, e. unfold c in C0. auto_derive. split; [replace (1 + - 0) with (1 - 0) by ring; exact C0|]. split; [rewrite Ropp_0, Rplus_0_r; cbn; apply Rgt_not_eq; nra|exact I]. }
    set (r := fun x => e x * (l + 1) / (2 * l)).
    assert (CU : continuous (fun x => F x + F x * r x / (1 - r x)) 0).
    { assert (CR : continuous r 0). { apply (ex_derive_continuous r). unfold r, e. auto_derive. rewrite Ropp_0, Rplus_0_r; cbn; apply Rgt_not_eq; nra. }
      apply (continuous_plus F (fun x => F x * r x / (1 - r x))); [exact CF|]. apply (continuous_mult (fun x => F x * r x) (fun x => / (1 - r x))); [apply (continuous_mult F r); assumption|].
      apply (continuous_Rinv_comp (fun x => 1 - r x)); [apply (continuous_minus (fun _ => 1) r); [apply continuous_const|exact CR]|]. unfold r, e. rewrite Rmult_0_r. unfold Rdiv. rewrite !Rmult_0_l. lra. }
    assert (W0 : F 0 = w). { unfold F, e, c, w. replace (- (4 * k * s * 0 / (g ^ 2 * (1 - 0))) / 2) with 0 by (field; lra). rewrite exp_0. replace (2 * (g ^ 2 * (1 - 0) / (4 * k))) with ((g * g) / (2 * k)) by (field; lra). rewrite sqrt_div by nra. rewrite sqrt_square by lra. ring. }
    assert (W1 : F 0 + F 0 * r 0 / (1 - r 0) = w). { rewrite W0. unfold r, e. rewrite Rmult_0_r. unfold Rdiv. rewrite !Rmult_0_l. rewrite Rmult_0_r, Rmult_0_l. ring. }
    pose proof (lim_decay k K) as LD.
    assert (R0 : r 0 = 0) by (unfold r, e, Rdiv; rewrite Rmult_0_r, !Rmult_0_l; reflexivity). assert (E0 : e 0 = 0) by (unfold e, Rdiv; rewrite Rmult_0_r, !Rmult_0_l; reflexivity).
    assert (LR : is_lim (fun t => r (exp (- k * t))) p_infty 0).
    { rewrite <- R0. apply (is_lim_comp_continuous (fun t => exp (- k * t)) r p_infty 0 LD). apply (ex_derive_continuous r). unfold r, e. auto_derive. rewrite Ropp_0, Rplus_0_r; cbn; apply Rgt_not_eq; nra. }
    assert (LE : is_lim (fun t => e (exp (- k * t))) p_infty 0).
    { rewrite <- E0. apply (is_lim_comp_continuous (fun t => exp (- k * t)) e p_infty 0 LD). apply (ex_derive_continuous e). unfold e. auto_derive. rewrite Ropp_0, Rplus_0_r; cbn; apply Rgt_not_eq; nra. }
    apply is_lim_spec in LR. apply is_lim_spec in LE. destruct (LR (mkposreal 1 Rlt_0_1)) as (M1 & HM1). destruct (LE (mkposreal 1 Rlt_0_1)) as (M2 & HM2). cbn [pos] in HM1, HM2.
    apply (is_lim_le_le_loc (fun t => F (exp (- k * t))) (fun t => F (exp (- k * t)) + F (exp (- k * t)) * r (exp (- k * t)) / (1 - r (exp (- k * t))))).
    + exists (Rmax 0 (Rmax M1 M2)). intros t Ht. assert (T : 0 < t) by (eapply Rle_lt_trans; [apply Rmax_l|exact Ht]). assert (T1 : M1 < t) by (eapply Rle_lt_trans; [|exact Ht]; eapply Rle_trans; [apply Rmax_l|apply Rmax_r]). assert (T2 : M2 < t) by (eapply Rle_lt_trans; [|exact Ht]; eapply Rle_trans; [apply Rmax_r|apply Rmax_r]).
      specialize (HM1 t T1). specialize (HM2 t T2). rewrite Rminus_0_r in HM1, HM2. apply Rabs_def2 in HM1. apply Rabs_def2 in HM2.
      assert (X : 0 < exp (- k * t) < 1) by (split; [apply exp_pos|pose proof (exp_increasing (- k * t) 0 ltac:(nra)) as H; rewrite exp_0 in H; exact H]).
      destruct (C72_series lg G p t tol T K TH) as (n & Hn & V & _).
      { rewrite Rabs_right by (fold g; lra). exact GM. }
      { unfold chi_noncentrality. fold k s g. unfold e in HM2. cbn in HM2 |- *. lra. }
      cbv zeta in V. rewrite V. unfold chi_scale, chi_degrees, chi_noncentrality. fold k g th s. replace (4 * k * th / g ^ 2) with l by (unfold l; field; lra).
      fold (c (exp (- k * t))). fold (e (exp (- k * t))). set (x := exp (- k * t)) in *.
      assert (EP : 0 <= e x). { unfold e. apply Rdiv_le_0_compat; [apply Rmult_le_pos; [|lra]; nra|]. apply Rmult_lt_0_compat; [apply pow_lt, GP|lra]. }
      assert (TT : sqrt_term lg l (e x) 0 = t0). { unfold sqrt_term, t0. cbn [pow fact INR]. rewrite !Rplus_0_r. replace ((l + 1) / 2) with (1 / 2 * (l + 1)) by field. replace (l / 2) with (1 / 2 * l) by field. field. }
      assert (RR : sqrt_ratio l (e x) 0 = r x). { unfold sqrt_ratio, r. cbn [INR]. field. lra. }
      pose proof (tail_bound lg l (e x) 0 G L EP) as B. rewrite RR in B. specialize (B ltac:(lra) n). cbn [sum_f_R0 Nat.add] in B. rewrite TT in B.
      set (A := sqrt (2 * c x) * exp (- e x / 2)). assert (AP : 0 <= A) by (apply Rmult_le_pos; [apply sqrt_pos|left; apply exp_pos]). unfold F. fold A. split.
      * apply Rmult_le_compat_l; [exact AP|apply B].
      * replace (A * t0 + A * t0 * r x / (1 - r x)) with (A * (t0 + t0 * r x / (1 - r x))) by (field; lra). apply Rmult_le_compat_l; [exact AP|apply B].
    + rewrite <- W0. apply (is_lim_comp_continuous (fun t => exp (- k * t)) F p_infty 0 LD CF).
    + rewrite <- W1. apply (is_lim_comp_continuous (fun t => exp (- k * t)) (fun x => F x + F x * r x / (1 - r x)) p_infty 0 LD CU).
  - evar_last; [apply (is_lim_plus' (fun _ => w) (fun t => (sqrt (Rmax s 0) - w) * exp (- k * t))); [apply is_lim_const|apply (is_lim_scal_l (fun t => exp (- k * t)) (sqrt (Rmax s 0) - w) p_infty 0), lim_decay, K]|]. cbn. f_equal. ring.
  - rewrite Rmult_0_r, exp_0, Rmax_left by exact S. ring.
Qed.
Print Assumptions C72_limit.

(** A function with the functional equation of the logarithm of the gamma function, and
    parameters for the series. *)
Fixpoint log_falling (n : nat) (x : R) : R := match n with O => 0 | S m => ln (x - 1) + log_falling m (x - 1) end.
Definition log_gamma_like (x : R) : R := log_falling (Z.to_nat (Int_part x)) x.
Lemma log_gamma_like_spec x : 0 < x -> log_gamma_like (x + 1) = ln x + log_gamma_like x.
Proof.
  intros X. unfold log_gamma_like. destruct (base_Int_part x) as [A B].
  assert (P : (0 <= Int_part x)%Z) by (apply Z.lt_succ_r, lt_IZR; rewrite succ_IZR; lra).
  assert (E : Int_part (x + 1) = (Int_part x + 1)%Z).
  { unfold Int_part in *. rewrite <- (tech_up (x + 1) (up x + 1)); [ring| |]; rewrite plus_IZR; destruct (archimed x); lra. }
  rewrite E, Z.add_1_r, Z2Nat.inj_succ by exact P. cbn [log_falling]. replace (x + 1 - 1) with x by ring. reflexivity.
Qed.

Example C72_witness : let p := @Build_cir_process R_numbers 2 (1 / 25) (1 / 4) (1 / 10) in
  (forall x, 0 < x -> log_gamma_like (x + 1) = ln x + log_gamma_like x) /\
  0 < kappa p /\ 0 < theta p /\ / 10 ^ 14 <= gamma p /\ chi_noncentrality p (ln 2 / 2) <= 500 /\ 2 <= chi_degrees p.
Proof.
  cbv zeta. split; [exact log_gamma_like_spec|]. cbn [kappa theta gamma]. split; [cbn; lra|]. split; [cbn; lra|]. split; [cbn; apply Rle_trans with (/ 4); [apply Rinv_le_contravar; lra|lra]|]. split.
  - unfold chi_noncentrality. cbn [kappa sigma_0 gamma]. match goal with |- context [exp ?y] => replace (exp y) with (1 / 2) end; [cbn; lra|].
    replace (- (2) * (ln 2 / 2)) with (- ln 2) by field. rewrite exp_Ropp, exp_ln by lra. field.
  - unfold chi_degrees. cbn. lra.
Qed.
