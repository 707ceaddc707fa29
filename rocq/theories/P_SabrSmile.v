(** C52: the closed-form SABR smile against Hagan's formula. *)
From Coq Require Import Bool List Reals Lra Lia Psatz.
From Coquelicot Require Import Coquelicot.
From Verif Require Import Outcome Processes ProcessFacts SabrSmile.
Open Scope R_scope.

(** What [SabrParams::new] accepts. *)
Definition valid_params (p : sabr_params R_numbers) : Prop := 0 < alpha p /\ 0 <= beta p <= 1 /\ -1 < rho p < 1 /\ 0 <= nu p.
Theorem C52_new : forall a b r n p, @sabr_new R_numbers a b r n = Ok p <-> p = @Build_sabr_params R_numbers a b r n /\ valid_params p.
Proof.
  intros a b r n p. unfold sabr_new, valid_params. cbn. destruct (Rlt_dec 0 a) as [A|A]; cbn [negb].
  2: { split; [discriminate|]. intros (-> & X & _). contradiction. }
  destruct (Rle_dec 0 b) as [B|B]; cbn [andb negb]; [destruct (Rle_dec b 1) as [B1|B1]; cbn [andb negb]|].
  2, 3: split; [discriminate|]; intros (-> & _ & X & _); cbn in X; lra.
  destruct (Rlt_dec (- (1)) r) as [C|C]; cbn [andb negb]; [destruct (Rlt_dec r 1) as [C1|C1]; cbn [andb negb]|].
  2, 3: split; [discriminate|]; intros (-> & _ & _ & X & _); cbn in X; lra.
  destruct (Rle_dec 0 n) as [D|D]; cbn [negb].
  - split; [intros E; assert (p = @Build_sabr_params R_numbers a b r n) as -> by congruence; cbn; repeat split; lra|intros [-> _]; reflexivity].
  - split; [discriminate|]. intros (-> & _ & _ & _ & X). contradiction.
Qed.
Print Assumptions C52_new.

(** ** The function x(z) *)
Section X.
  Variable rho : R.
  Hypothesis R1 : -1 < rho < 1.
  Definition q (u : R) : R := 1 - 2 * rho * u + u * u.
  Lemma q_pos u : 0 < q u.
  Proof. unfold q. replace (1 - 2 * rho * u + u * u) with ((u - rho) ^ 2 + (1 - rho) * (1 + rho)) by ring. pose proof (pow2_ge_0 (u - rho)). assert (0 < (1 - rho) * (1 + rho)) by (apply Rmult_lt_0_compat; lra). lra. Qed.
  Lemma num_pos z : 0 < sqrt (q z) + z - rho.
  Proof.
    pose proof (sqrt_lt_R0 _ (q_pos z)) as S. assert (E : sqrt (q z) * sqrt (q z) = q z) by (apply sqrt_sqrt; left; apply q_pos). assert (D : (sqrt (q z) - (z - rho)) * (sqrt (q z) + (z - rho)) = 1 - rho * rho) by (replace (_ * _) with (sqrt (q z) * sqrt (q z) - (z - rho) * (z - rho)) by ring; rewrite E; unfold q; ring). nra.
  Qed.
  Definition x_log (z : R) : R := ln ((sqrt (q z) + z - rho) / (1 - rho)).
  Lemma x_derive z : is_derive x_log z (/ sqrt (q z)).
  Proof.
    pose proof (q_pos z) as Q. pose proof (num_pos z) as N. pose proof (sqrt_lt_R0 _ Q) as S. unfold x_log. unfold q in *. auto_derive.
    - split; [exact Q|]. split; [|exact I]. apply Rdiv_lt_0_compat; [|lra]. unfold Rminus in N |- *. exact N.
    - change (1 + - (2 * rho * z) + z * z) with (1 - 2 * rho * z + z * z). match goal with |- ?a = ?b => change (@eq R a b) end.
      set (s := sqrt (1 - 2 * rho * z + z * z)) in *. assert (s + z - rho <> 0) by lra. field. repeat split; lra.
  Qed.
  Lemma x_zero : x_log 0 = 0.
  Proof. unfold x_log, q. replace (1 - 2 * rho * 0 + 0 * 0) with 1 by ring. rewrite sqrt_1. replace ((1 + 0 - rho) / (1 - rho)) with 1 by (field; lra). apply ln_1. Qed.
  Lemma x_int z : is_RInt (fun u => / sqrt (q u)) 0 z (x_log z).
  Proof.
    replace (x_log z) with (x_log z - x_log 0) by (rewrite x_zero; ring). apply (is_RInt_derive x_log (fun u => / sqrt (q u))).
    - intros u _. apply x_derive.
    - intros u _. apply (ex_derive_continuous (fun u => / sqrt (q u))). pose proof (q_pos u) as Q. pose proof (sqrt_lt_R0 _ Q) as S. unfold q in *. auto_derive. split; [exact Q|]. split; [apply Rgt_not_eq; exact S|exact I].
  Qed.
  Lemma x_sign z : z <> 0 -> 0 < z * x_log z.
  Proof.
    intros Z. pose proof (num_pos z) as N. pose proof (sqrt_lt_R0 _ (q_pos z)) as S. assert (E : sqrt (q z) * sqrt (q z) = q z) by (apply sqrt_sqrt; left; apply q_pos). unfold x_log. destruct (Rlt_dec 0 z) as [P|P].
    - apply Rmult_lt_0_compat; [exact P|]. rewrite <- ln_1. apply ln_increasing; [lra|]. apply Rmult_lt_reg_r with (1 - rho); [lra|]. replace ((sqrt (q z) + z - rho) / (1 - rho) * (1 - rho)) with (sqrt (q z) + z - rho) by (field; lra). assert (1 - z < sqrt (q z)); [|lra]. destruct (Rlt_dec 1 z); [lra|]. apply Rnot_le_lt. intros H. assert (sqrt (q z) * sqrt (q z) <= (1 - z) * (1 - z)) by (apply Rmult_le_compat; lra). rewrite E in H0. unfold q in H0. nra.
    - assert (P' : z < 0) by lra. assert (ln ((sqrt (q z) + z - rho) / (1 - rho)) < 0); [|nra]. rewrite <- ln_1. apply ln_increasing; [apply Rdiv_lt_0_compat; lra|]. apply Rmult_lt_reg_r with (1 - rho); [lra|]. replace ((sqrt (q z) + z - rho) / (1 - rho) * (1 - rho)) with (sqrt (q z) + z - rho) by (field; lra). assert (sqrt (q z) < 1 - z); [|lra]. apply Rnot_le_lt. intros H. assert ((1 - z) * (1 - z) <= sqrt (q z) * sqrt (q z)) by (apply Rmult_le_compat; lra). rewrite E in H0. unfold q in H0. nra.
  Qed.
  (* second-order bounds of the integrand *)
  Lemma integrand_bounds u : Rabs u <= 1 / 10 -> 1 + rho * u - 2 * u ^ 2 <= / sqrt (q u) <= 1 + rho * u + 2 * u ^ 2.
  Proof.
    intros U. apply Rabs_le_between in U. pose proof (q_pos u) as Q. pose proof (sqrt_lt_R0 _ Q) as S. assert (E : sqrt (q u) * sqrt (q u) = q u) by (apply sqrt_sqrt; left; exact Q). set (s := sqrt (q u)) in *. set (v := rho * u). set (w := u ^ 2).
    assert (V : Rabs v <= 1 / 10). { unfold v. rewrite Rabs_mult. assert (Rabs rho <= 1) by (apply Rabs_le; lra). assert (Rabs u <= 1 / 10) by (apply Rabs_le; lra). pose proof (Rabs_pos rho). pose proof (Rabs_pos u). nra. } apply Rabs_le_between in V.
    assert (VW : v ^ 2 <= w). { unfold v, w. replace ((rho * u) ^ 2) with (rho ^ 2 * u ^ 2) by ring. assert (rho ^ 2 <= 1) by nra. assert (0 <= u ^ 2) by apply pow2_ge_0. nra. }
    assert (W : 0 <= w <= 1 / 100) by (unfold w; split; [apply pow2_ge_0|nra]). assert (QE : q u = 1 - 2 * v + w) by (unfold q, v, w; ring).
    assert (LO : 0 < 1 + v - 2 * w) by lra. assert (HI : 0 < 1 + v + 2 * w) by lra.
    assert (A : (1 + v - 2 * w) ^ 2 * (1 - 2 * v + w) <= 1).
    { replace ((1 + v - 2 * w) ^ 2 * (1 - 2 * v + w)) with (1 - v ^ 2 * (3 + 2 * v) + w * ((1 + v) ^ 2 - 4 * (1 + v) * (1 - 2 * v + w) + 4 * w * (1 - 2 * v + w))) by ring.
      assert (0 <= v ^ 2 * (3 + 2 * v)) by (apply Rmult_le_pos; [apply pow2_ge_0|lra]).
      assert (B1 : (1 + v) ^ 2 <= 121 / 100) by nra. assert (B2 : 9 / 10 * (8 / 10) <= (1 + v) * (1 - 2 * v + w)) by (apply Rmult_le_compat; lra). assert (B3 : 4 * w * (1 - 2 * v + w) <= 4 / 100 * (121 / 100)) by (apply Rmult_le_compat; lra).
      assert (w * ((1 + v) ^ 2 - 4 * (1 + v) * (1 - 2 * v + w) + 4 * w * (1 - 2 * v + w)) <= w * 0) by (apply Rmult_le_compat_l; lra). lra. }
    assert (B : 1 <= (1 + v + 2 * w) ^ 2 * (1 - 2 * v + w)).
    { replace ((1 + v + 2 * w) ^ 2 * (1 - 2 * v + w)) with (1 - v ^ 2 * (3 + 2 * v) + w * ((1 + v) ^ 2 + 4 * (1 + v) * (1 - 2 * v + w) + 4 * w * (1 - 2 * v + w))) by ring.
      assert (v ^ 2 * (3 + 2 * v) <= w * (32 / 10)) by (apply Rmult_le_compat; try lra; apply pow2_ge_0).
      assert (B1 : 81 / 100 <= (1 + v) ^ 2) by nra. assert (B2 : 9 / 10 * (8 / 10) <= (1 + v) * (1 - 2 * v + w)) by (apply Rmult_le_compat; lra). assert (B3 : 0 <= 4 * w * (1 - 2 * v + w)) by (apply Rmult_le_pos; lra).
      assert (w * (32 / 10) <= w * ((1 + v) ^ 2 + 4 * (1 + v) * (1 - 2 * v + w) + 4 * w * (1 - 2 * v + w))) by (apply Rmult_le_compat_l; lra). lra. }
    rewrite <- QE, <- E in A, B. split.
    - apply Rmult_le_reg_r with s; [exact S|]. replace (/ s * s) with 1 by (field; lra). assert (0 < (1 + v - 2 * w) * s) by (apply Rmult_lt_0_compat; assumption). nra.
    - apply Rmult_le_reg_r with s; [exact S|]. replace (/ s * s) with 1 by (field; lra). assert (0 < (1 + v + 2 * w) * s) by (apply Rmult_lt_0_compat; assumption). nra.
  Qed.
  Lemma poly_int c z : is_RInt (fun u => 1 + rho * u + c * u ^ 2) 0 z (z + rho * z ^ 2 / 2 + c * z ^ 3 / 3).
  Proof.
    replace (z + rho * z ^ 2 / 2 + c * z ^ 3 / 3) with ((fun z => z + rho * z ^ 2 / 2 + c * z ^ 3 / 3) z - (fun z => z + rho * z ^ 2 / 2 + c * z ^ 3 / 3) 0) by (cbv beta; field).
    apply (is_RInt_derive (fun z => z + rho * z ^ 2 / 2 + c * z ^ 3 / 3)).
    - intros u _. auto_derive; [exact I|field].
    - intros u _. apply (ex_derive_continuous (fun u => 1 + rho * u + c * u ^ 2)). auto_derive. exact I.
  Qed.
  Lemma x_bounds z : Rabs z <= 1 / 10 -> Rabs (x_log z - (z + rho * z ^ 2 / 2)) <= 2 / 3 * Rabs z ^ 3.
  Proof.
    intros Z. assert (IB : forall u, Rabs u <= Rabs z -> 1 + rho * u - 2 * u ^ 2 <= / sqrt (q u) <= 1 + rho * u + 2 * u ^ 2) by (intros u U; apply integrand_bounds; lra).
    destruct (Rle_dec 0 z) as [P|P].
    - rewrite (Rabs_right z) in * by lra. pose proof (is_RInt_le _ _ _ _ _ _ P (poly_int (-2) z) (x_int z)) as A. pose proof (is_RInt_le _ _ _ _ _ _ P (x_int z) (poly_int 2 z)) as B.
      apply Rabs_le. split; [assert (A' := A ltac:(intros u U; destruct (IB u ltac:(rewrite Rabs_right; lra)) as [X _]; lra)); lra|]. assert (B' := B ltac:(intros u U; destruct (IB u ltac:(rewrite Rabs_right; lra)) as [_ X]; lra)). lra.
    - rewrite (Rabs_left z) in * by lra. assert (P' : z <= 0) by lra.
      pose proof (is_RInt_le _ _ _ _ _ _ P' (is_RInt_swap _ _ _ _ (poly_int (-2) z)) (is_RInt_swap _ _ _ _ (x_int z))) as A. pose proof (is_RInt_le _ _ _ _ _ _ P' (is_RInt_swap _ _ _ _ (x_int z)) (is_RInt_swap _ _ _ _ (poly_int 2 z))) as B.
      assert (A' := A ltac:(intros u U; destruct (IB u ltac:(rewrite Rabs_left1; lra)) as [X _]; lra)). assert (B' := B ltac:(intros u U; destruct (IB u ltac:(rewrite Rabs_left1; lra)) as [_ X]; lra)). unfold opp in A', B'. cbn in A', B'.
      apply Rabs_le. split; lra.
  Qed.
  (* the Taylor branch, relative to z / x(z) *)
  Lemma taylor_close z : z <> 0 -> Rabs z < / 10 ^ 8 -> Rabs (z_over_x rho z * (x_log z / z) - 1) <= 2 / 10 ^ 16.
  Proof.
    intros NZ Z. assert (T8 : / 10 ^ 8 <= 1 / 10) by (apply Rle_trans with (/ 10); [apply Rinv_le_contravar; lra|lra]). pose proof (x_bounds z ltac:(lra)) as B. unfold z_over_x. destruct (Rlt_dec (Rabs z) (/ 10 ^ 8)) as [_|]; [|contradiction].
    set (th := (x_log z - (z + rho * z ^ 2 / 2)) / z). assert (TH : Rabs th <= 2 / 3 * z ^ 2).
    { unfold th, Rdiv. rewrite Rabs_mult, Rabs_inv. assert (0 < Rabs z) by (apply Rabs_pos_lt, NZ). apply Rmult_le_reg_r with (Rabs z); [assumption|]. rewrite Rmult_assoc, Rinv_l, Rmult_1_r by lra. apply Rle_trans with (1 := B). rewrite <- (pow2_abs z). lra. }
    replace (x_log z / z) with (1 + rho * z / 2 + th) by (unfold th; field; exact NZ). set (v := rho * z / 2) in *. set (e := 1 / 12 * (3 * rho * rho - 2) * z * z).
    replace (1 - 1 / 2 * rho * z + e) with (1 - v + e) by (unfold v; field). set (w := z ^ 2) in *.
    assert (W : 0 <= w <= / 10 ^ 16). { unfold w. rewrite <- pow2_abs. split; [apply pow2_ge_0|]. apply Rle_trans with ((/ 10 ^ 8) ^ 2); [apply pow_incr; split; [apply Rabs_pos|lra]|]. lra. }
    assert (EB : Rabs e <= w / 6). { replace e with ((3 * rho * rho - 2) / 12 * w) by (unfold e, w; field). rewrite Rabs_mult, (Rabs_right w) by lra. assert (Rabs ((3 * rho * rho - 2) / 12) <= 1 / 6) by (apply Rabs_le; nra). nra. }
    assert (VB : Rabs v <= 1 / 10). { unfold v. replace (rho * z / 2) with (rho / 2 * z) by field. rewrite Rabs_mult. assert (Rabs (rho / 2) <= 1) by (apply Rabs_le; lra). pose proof (Rabs_pos z). pose proof (Rabs_pos (rho / 2)). nra. }
    assert (V2 : 0 <= v ^ 2 <= w / 4). { split; [apply pow2_ge_0|]. unfold v, w. replace ((rho * z / 2) ^ 2) with (rho ^ 2 * z ^ 2 / 4) by field. assert (rho ^ 2 <= 1) by nra. assert (0 <= z ^ 2) by apply pow2_ge_0. nra. }
    replace ((1 - v + e) * (1 + v + th) - 1) with (- v ^ 2 + th * (1 - v + e) + e * (1 + v)) by ring.
    apply Rabs_le_between in VB. apply Rabs_le_between in EB. apply Rabs_le_between in TH. assert (SM : / 10 ^ 16 <= / 100) by (apply Rinv_le_contravar; lra).
    assert (Rabs (th * (1 - v + e)) <= 2 / 3 * w * (12 / 10)) by (rewrite Rabs_mult; apply Rmult_le_compat; try apply Rabs_pos; apply Rabs_le; lra).
    assert (Rabs (e * (1 + v)) <= w / 6 * (11 / 10)) by (rewrite Rabs_mult; apply Rmult_le_compat; try apply Rabs_pos; apply Rabs_le; lra).
    apply Rabs_le_between in H. apply Rabs_le_between in H0. apply Rabs_le. lra.
  Qed.
  Lemma z_over_x_pos z : 0 < z_over_x rho z.
  Proof.
    destruct (Req_dec z 0) as [->|NZ].
    - unfold z_over_x. rewrite Rabs_R0. destruct (Rlt_dec 0 (/ 10 ^ 8)) as [_|N]; [lra|exfalso; apply N, Rinv_0_lt_compat; lra].
    - pose proof (x_sign z NZ) as S. destruct (Rlt_dec (Rabs z) (/ 10 ^ 8)) as [L|L].
      + pose proof (taylor_close z NZ L) as T. apply Rabs_le_between in T. assert (P : 0 < x_log z / z) by (replace (x_log z / z) with (z * x_log z * (/ z) ^ 2) by (field; exact NZ); apply Rmult_lt_0_compat; [exact S|apply pow2_gt_0, Rinv_neq_0_compat, NZ]).
        assert (SM : / 10 ^ 16 <= / 100) by (apply Rinv_le_contravar; lra). apply Rnot_le_lt. intros H. assert (z_over_x rho z * (x_log z / z) <= 0) by nra. lra.
      + unfold z_over_x. destruct (Rlt_dec (Rabs z) (/ 10 ^ 8)); [contradiction|]. cbv zeta. change (0 < z / x_log z). assert (x_log z <> 0) by (intros E; rewrite E in S; lra). replace (z / x_log z) with (z * x_log z * (/ x_log z) ^ 2) by (field; assumption). apply Rmult_lt_0_compat; [exact S|apply pow2_gt_0, Rinv_neq_0_compat; assumption].
  Qed.
End X.

Lemma x_log_neg rho z : -1 < rho < 1 -> x_log (- rho) (- z) = - x_log rho z.
Proof.
  intros R1. pose proof (num_pos rho R1 z) as N. unfold x_log. replace (q (- rho) (- z)) with (q rho z) by (unfold q; ring). set (s := sqrt (q rho z)) in *. assert (E : s * s = q rho z) by (apply sqrt_sqrt; left; apply q_pos, R1).
  assert (D : (s + z - rho) * (s - z + rho) = 1 - rho * rho) by (replace (_ * _) with (s * s - (z - rho) * (z - rho)) by ring; rewrite E; unfold q; ring).
  rewrite <- ln_Rinv by (apply Rdiv_lt_0_compat; lra). f_equal. replace (s + - z - - rho) with ((1 - rho * rho) / (s + z - rho)) by (rewrite <- D; field; lra). field. lra.
Qed.
Lemma z_over_x_neg rho z : -1 < rho < 1 -> z_over_x (- rho) (- z) = z_over_x rho z.
Proof.
  intros R1. unfold z_over_x. rewrite Rabs_Ropp. destruct (Rlt_dec (Rabs z) (/ 10 ^ 8)) as [L|L]; [ring|]. cbv zeta. pose proof (x_log_neg rho z R1) as X. unfold x_log, q in X. rewrite X.
  assert (NZ : z <> 0) by (intros ->; rewrite Rabs_R0 in L; apply L, Rinv_0_lt_compat; lra). pose proof (x_sign rho R1 z NZ) as S. unfold x_log, q in S.
  set (y := ln ((sqrt (1 - 2 * rho * z + z * z) + z - rho) / (1 - rho))) in *. assert (y <> 0) by (intros E; rewrite E in S; lra). field. assumption.
Qed.

(** ** Hagan's formula, eq. (A.69), with [X] for [z / x(z)] *)
Definition backbone (a b F K : R) : R := a / (Rpower (F * K) ((1 - b) / 2) * (1 + (1 - b) ^ 2 / 24 * ln (F / K) ^ 2 + (1 - b) ^ 4 / 1920 * ln (F / K) ^ 4)).
Definition correction (a b r n F K T : R) : R := 1 + ((1 - b) ^ 2 / 24 * (a ^ 2 / Rpower (F * K) (1 - b)) + r * b * n * a / (4 * Rpower (F * K) ((1 - b) / 2)) + (2 - 3 * r ^ 2) * n ^ 2 / 24) * T.
Definition moneyness (a b n F K : R) : R := n / a * Rpower (F * K) ((1 - b) / 2) * ln (F / K).

Lemma hagan_open p F K T : 0 < alpha p -> 0 < F -> 0 < K -> 0 < T ->
  hagan_implied_vol p F K T = Ok (backbone (alpha p) (beta p) F K * z_over_x (rho p) (moneyness (alpha p) (beta p) (nu p) F K) * correction (alpha p) (beta p) (rho p) (nu p) F K T).
Proof.
  destruct p as [a b r n]. cbn [alpha beta rho nu]. intros A FP KP TP. unfold hagan_implied_vol. cbn [alpha beta rho nu]. destruct (Rlt_dec 0 F); [|contradiction]. destruct (Rlt_dec 0 K); [|contradiction]. destruct (Rlt_dec 0 T); [|contradiction]. destruct (Rlt_dec 0 a); [|contradiction]. cbn [negb].
  assert (FK : 0 < F * K) by (apply Rmult_lt_0_compat; assumption). unfold powfR. destruct (Req_EM_T (F * K) 0) as [Z|_]; [lra|]. replace (1 / 2 * (1 - b)) with ((1 - b) / 2) by field.
  assert (E : Rpower (F * K) (1 - b) = Rpower (F * K) ((1 - b) / 2) * Rpower (F * K) ((1 - b) / 2)) by (rewrite <- Rpower_plus; f_equal; field). apply (f_equal Ok). unfold backbone, correction, moneyness. rewrite E.
  assert (P : 0 < Rpower (F * K) ((1 - b) / 2)) by apply exp_pos. set (f := Rpower (F * K) ((1 - b) / 2)) in *. set (l := ln (F / K)). set (zx := z_over_x r (n / a * f * l)).
  replace ((1 - b) ^ 2 / 24 * (l * l)) with ((1 - b) ^ 2 / 24 * l ^ 2) by ring. replace ((1 - b) ^ 4 / 1920 * (l * l) * (l * l)) with ((1 - b) ^ 4 / 1920 * l ^ 4) by ring. apply f_equal2; [reflexivity|]. apply f_equal2; [reflexivity|]. apply f_equal2; [|reflexivity]. field. lra.
Qed.

(** The implied volatility is eq. (A.69) with [x(z)] the integral of [1 / sqrt(1 - 2 rho u + u^2)],
    and [z / x(z) = 1] at the money, up to a relative 2e-16. *)
Theorem C52_formula : forall p F K T, valid_params p -> 0 < F -> 0 < K -> 0 < T ->
  let z := moneyness (alpha p) (beta p) (nu p) F K in
  exists X x d, is_RInt (fun u => / sqrt (1 - 2 * rho p * u + u * u)) 0 z x /\ z = X * x /\ (z = 0 -> X = 1) /\ Rabs d <= 2 / 10 ^ 16 /\
  hagan_implied_vol p F K T = Ok (backbone (alpha p) (beta p) F K * X * correction (alpha p) (beta p) (rho p) (nu p) F K T * (1 + d)).
Proof.
  intros p F K T (A & B & R & N) FP KP TP. cbv zeta. rewrite (hagan_open p F K T A FP KP TP). set (z := moneyness (alpha p) (beta p) (nu p) F K). assert (T16 : 0 < / 10 ^ 16) by (apply Rinv_0_lt_compat; lra).
  destruct (Req_dec z 0) as [Z|NZ].
  - exists 1, (x_log (rho p) z), 0. split; [apply x_int, R|]. split; [rewrite Z, x_zero by exact R; ring|]. split; [reflexivity|]. split; [rewrite Rabs_R0; lra|]. apply (f_equal Ok). rewrite Z. unfold z_over_x. rewrite Rabs_R0. destruct (Rlt_dec 0 (/ 10 ^ 8)) as [_|NN]; [ring|exfalso; apply NN, Rinv_0_lt_compat; lra].
  - pose proof (x_sign (rho p) R z NZ) as S. assert (XN : x_log (rho p) z <> 0) by (intros E; rewrite E in S; lra).
    exists (z / x_log (rho p) z), (x_log (rho p) z), (z_over_x (rho p) z * (x_log (rho p) z / z) - 1). split; [apply x_int, R|]. split; [field; exact XN|]. split; [contradiction|]. split.
    + destruct (Rlt_dec (Rabs z) (/ 10 ^ 8)) as [L|L]; [exact (taylor_close (rho p) R z NZ L)|]. unfold z_over_x. destruct (Rlt_dec (Rabs z) (/ 10 ^ 8)) as [|_]; [contradiction|]. cbv zeta. change (Rabs (z / x_log (rho p) z * (x_log (rho p) z / z) - 1) <= 2 / 10 ^ 16). replace (z / x_log (rho p) z * (x_log (rho p) z / z) - 1) with 0 by (field; split; assumption). rewrite Rabs_R0. lra.
    + apply (f_equal Ok). set (u := z_over_x (rho p) z). set (w := x_log (rho p) z) in *. set (bb := backbone _ _ _ _). set (cc := correction _ _ _ _ _ _ _). field. split; assumption.
Qed.
Print Assumptions C52_formula.

(** Outside of its domain it panics. *)
Theorem C52_domain : forall p F K T, F <= 0 \/ K <= 0 \/ T <= 0 -> hagan_implied_vol p F K T = Panic PAssert.
Proof.
  intros p F K T H. unfold hagan_implied_vol. destruct (Rlt_dec 0 F); [|reflexivity]. destruct (Rlt_dec 0 K); [|reflexivity]. destruct (Rlt_dec 0 T); [lra|reflexivity].
Qed.
Print Assumptions C52_domain.

Lemma ln_same F : 0 < F -> ln (F / F) = 0.
Proof. intros P. replace (F / F) with 1 by (field; lra). apply ln_1. Qed.
Lemma power_square F b : 0 < F -> Rpower (F * F) ((1 - b) / 2) = Rpower F (1 - b).
Proof. intros P. unfold Rpower. f_equal. rewrite ln_mult by assumption. field. Qed.

(** At the money the smile is [hagan_atm_vol]. *)
Theorem C52_atm : forall p F T, valid_params p -> 0 < F -> 0 < T -> hagan_implied_vol p F F T = Ok (hagan_atm_vol p F T).
Proof.
  intros p F T (A & _) FP TP. rewrite (hagan_open p F F T A FP FP TP). apply (f_equal Ok). unfold backbone, correction, moneyness, hagan_atm_vol. rewrite ln_same, Rmult_0_r, power_square by exact FP. unfold powfR. destruct (Req_EM_T F 0) as [Z|_]; [lra|].
  assert (E : Rpower (F * F) (1 - beta p) = Rpower F (1 - beta p) * Rpower F (1 - beta p)) by (rewrite <- Rpower_plus; unfold Rpower; f_equal; rewrite ln_mult by assumption; ring). rewrite E.
  assert (P : 0 < Rpower F (1 - beta p)) by apply exp_pos. set (f := Rpower F (1 - beta p)) in *. unfold z_over_x. rewrite Rabs_R0. destruct (Rlt_dec 0 (/ 10 ^ 8)) as [_|N]; [|exfalso; apply N, Rinv_0_lt_compat; lra]. cbn [alpha beta rho nu num R_numbers] in *. field. lra.
Qed.
Print Assumptions C52_atm.

(** Positivity is that of the time correction ... *)
Lemma backbone_pos a b F K : 0 < a -> 0 < backbone a b F K.
Proof.
  intros A. unfold backbone. apply Rdiv_lt_0_compat; [exact A|]. apply Rmult_lt_0_compat; [apply exp_pos|]. assert (0 <= (1 - b) ^ 2 / 24 * ln (F / K) ^ 2) by (apply Rmult_le_pos; [apply Rdiv_le_0_compat; [apply pow2_ge_0|lra]|apply pow2_ge_0]).
  assert (0 <= (1 - b) ^ 4 / 1920 * ln (F / K) ^ 4). { replace ((1 - b) ^ 4) with (((1 - b) ^ 2) ^ 2) by ring. replace (ln (F / K) ^ 4) with ((ln (F / K) ^ 2) ^ 2) by ring. apply Rmult_le_pos; [apply Rdiv_le_0_compat; [apply pow2_ge_0|lra]|apply pow2_ge_0]. } lra.
Qed.
Theorem C52_positive_partial : forall p F K T v, valid_params p -> 0 < F -> 0 < K -> 0 < T -> hagan_implied_vol p F K T = Ok v ->
  (0 < v <-> 0 < correction (alpha p) (beta p) (rho p) (nu p) F K T) /\ (0 <= rho p -> rho p ^ 2 <= 2 / 3 -> 0 < v).
Proof.
  intros p F K T v (A & B & R & N) FP KP TP. rewrite (hagan_open p F K T A FP KP TP). intros E. assert (EV : backbone (alpha p) (beta p) F K * z_over_x (rho p) (moneyness (alpha p) (beta p) (nu p) F K) * correction (alpha p) (beta p) (rho p) (nu p) F K T = v) by congruence. subst v.
  pose proof (backbone_pos (alpha p) (beta p) F K A) as P1. pose proof (z_over_x_pos (rho p) R (moneyness (alpha p) (beta p) (nu p) F K)) as P2. pose proof (Rmult_lt_0_compat _ _ P1 P2) as P3. set (m := backbone _ _ _ _ * z_over_x _ _) in *.
  assert (IFF : 0 < m * correction (alpha p) (beta p) (rho p) (nu p) F K T <-> 0 < correction (alpha p) (beta p) (rho p) (nu p) F K T) by (split; intros H; [apply Rmult_lt_reg_l with m; lra|apply Rmult_lt_0_compat; assumption]).
  split; [exact IFF|]. intros R0 R2. apply IFF. unfold correction. assert (Q1 : 0 < Rpower (F * K) (1 - beta p)) by apply exp_pos. assert (Q2 : 0 < Rpower (F * K) ((1 - beta p) / 2)) by apply exp_pos.
  assert (0 <= (1 - beta p) ^ 2 / 24 * (alpha p ^ 2 / Rpower (F * K) (1 - beta p))) by (apply Rmult_le_pos; apply Rdiv_le_0_compat; try apply pow2_ge_0; lra).
  assert (0 <= rho p * beta p * nu p * alpha p / (4 * Rpower (F * K) ((1 - beta p) / 2))). { apply Rdiv_le_0_compat; [|lra]. apply Rmult_le_pos; [apply Rmult_le_pos; [apply Rmult_le_pos; [exact R0|apply B]|exact N]|left; exact A]. }
  assert (0 <= (2 - 3 * rho p ^ 2) * nu p ^ 2 / 24). { apply Rdiv_le_0_compat; [|lra]. apply Rmult_le_pos; [cbn [num R_numbers] in *; lra|apply pow2_ge_0]. }
  match goal with |- 0 < 1 + ?e * T => assert (0 <= e * T) by (apply Rmult_le_pos; lra) end. lra.
Qed.
Print Assumptions C52_positive_partial.

(** ... which a strong negative correlation makes negative on a long enough expiry. *)
Theorem C52_positive_refuted : exists p F T v, valid_params p /\ 0 < F /\ 0 < T <= 30 /\ hagan_implied_vol p F F T = Ok v /\ v < 0.
Proof.
  set (p := @Build_sabr_params R_numbers (1 / 10) 1 (- (9 / 10)) 1). assert (V : valid_params p) by (unfold valid_params, p; cbn; lra).
  exists p, 1, 30, (hagan_atm_vol p 1 30). split; [exact V|]. split; [lra|]. split; [lra|]. split; [apply C52_atm; [exact V|lra|lra]|].
  unfold hagan_atm_vol, p. cbn [alpha beta rho nu]. unfold powfR. destruct (Req_EM_T 1 0) as [Z|_]; [lra|]. replace (1 - 1) with 0 by ring. rewrite Rpower_O by lra. lra.
Qed.
Print Assumptions C52_positive_refuted.

(** Exchanging forward and strike and the sign of the correlation only changes the term of
    the time correction that is linear in the correlation: the smile is symmetric when that
    term is absent. *)
Theorem C52_symmetry_partial : forall a b r n F K T v v', let p := @Build_sabr_params R_numbers a b r n in let p' := @Build_sabr_params R_numbers a b (- r) n in valid_params p -> 0 < F -> 0 < K -> 0 < T ->
  hagan_implied_vol p F K T = Ok v -> hagan_implied_vol p' K F T = Ok v' -> (v = v' <-> r * b * n = 0).
Proof.
  intros a b r n F K T v v'. cbv zeta. intros VP FP KP TP. assert (VP' := VP). destruct VP' as (A & B & R & N). rewrite (hagan_open _ F K T) by assumption. rewrite (hagan_open _ K F T) by assumption. cbn [alpha beta rho nu] in *. intros E E'.
  apply (f_equal (fun o => match o with Ok x => x | _ => 0 end)) in E. apply (f_equal (fun o => match o with Ok x => x | _ => 0 end)) in E'. cbv beta iota in E, E'. subst v v'.
  assert (LN : ln (K / F) = - ln (F / K)) by (rewrite <- ln_Rinv by (apply Rdiv_lt_0_compat; assumption); f_equal; field; split; lra).
  assert (EB : backbone a b K F = backbone a b F K) by (unfold backbone; rewrite LN, (Rmult_comm K F); do 2 f_equal; ring).
  assert (EM : moneyness a b n K F = - moneyness a b n F K) by (unfold moneyness; rewrite LN, (Rmult_comm K F); ring). rewrite EB, EM, z_over_x_neg by exact R.
  pose proof (backbone_pos a b F K A) as P1. pose proof (z_over_x_pos r R (moneyness a b n F K)) as P2. pose proof (Rmult_lt_0_compat _ _ P1 P2) as P3. set (m := backbone _ _ _ _ * z_over_x _ _) in *.
  assert (P : 0 < Rpower (F * K) ((1 - b) / 2)) by apply exp_pos.
  assert (EC : correction a b r n F K T - correction a b (- r) n K F T = r * b * n * (a * T / (2 * Rpower (F * K) ((1 - b) / 2)))) by (unfold correction; rewrite (Rmult_comm K F); field; split; [lra|apply Rgt_not_eq, exp_pos]).
  assert (Q : 0 < a * T / (2 * Rpower (F * K) ((1 - b) / 2))) by (apply Rdiv_lt_0_compat; [apply Rmult_lt_0_compat; assumption|lra]). split.
  - intros H. apply Rmult_eq_reg_l in H; [|lra]. rewrite H, Rminus_diag_eq in EC by reflexivity. symmetry in EC. apply Rmult_integral in EC. destruct EC; [assumption|lra].
  - intros H. rewrite H, Rmult_0_l in EC. apply f_equal2; [reflexivity|lra].
Qed.
Print Assumptions C52_symmetry_partial.
(** So the symmetry claimed beside the tests fails. *)
Theorem C52_symmetry_refuted : exists a b r n F K T v v', valid_params (@Build_sabr_params R_numbers a b r n) /\ 0 < F /\ 0 < K /\ 0 < T /\
  hagan_implied_vol (@Build_sabr_params R_numbers a b r n) F K T = Ok v /\ hagan_implied_vol (@Build_sabr_params R_numbers a b (- r) n) K F T = Ok v' /\ v <> v'.
Proof.
  assert (V : valid_params (@Build_sabr_params R_numbers (1 / 5) 1 (1 / 4) (2 / 5))) by (unfold valid_params; cbn; lra).
  exists (1 / 5), 1, (1 / 4), (2 / 5), (13 / 10), (11 / 10), 1.
  pose proof (hagan_open (@Build_sabr_params R_numbers (1 / 5) 1 (1 / 4) (2 / 5)) (13 / 10) (11 / 10) 1 ltac:(cbn; lra) ltac:(lra) ltac:(lra) ltac:(lra)) as E.
  pose proof (hagan_open (@Build_sabr_params R_numbers (1 / 5) 1 (- (1 / 4)) (2 / 5)) (11 / 10) (13 / 10) 1 ltac:(cbn; lra) ltac:(lra) ltac:(lra) ltac:(lra)) as E'.
  do 2 eexists. split; [exact V|]. split; [lra|]. split; [lra|]. split; [lra|]. split; [exact E|]. split; [exact E'|].
  intros H. pose proof (C52_symmetry_partial (1 / 5) 1 (1 / 4) (2 / 5) (13 / 10) (11 / 10) 1 _ _ V ltac:(lra) ltac:(lra) ltac:(lra) E E') as X. apply (proj1 X) in H. lra.
Qed.
Print Assumptions C52_symmetry_refuted.

(** The Taylor branch is said to keep the second order: it has the sign of that term wrong.
    Without correlation the factor [z / x(z)] exceeds one wherever [z] is not zero, and
    the branch returns less than one. *)
Theorem C52_taylor_refuted : exists r, -1 < r < 1 /\ forall z x, z <> 0 -> is_RInt (fun u => / sqrt (1 - 2 * r * u + u * u)) 0 z x -> 1 < z / x /\ (Rabs z < / 10 ^ 8 -> z_over_x r z < 1).
Proof.
  exists 0. split; [lra|]. intros z x NZ IS. assert (R : -1 < 0 < 1) by lra.
  assert (EX : x = x_log 0 z). { rewrite <- (is_RInt_unique _ _ _ _ IS). apply is_RInt_unique. exact (x_int 0 R z). } pose proof (x_sign 0 R z NZ) as S. rewrite <- EX in S.
  split.
  - assert (LT : Rabs x < Rabs z).
    { (* strict: the integrand is below one away from zero *)
      assert (Q : forall u, u <> 0 -> / sqrt (1 - 2 * 0 * u + u * u) < 1). { intros u U. rewrite <- Rinv_1. apply Rinv_lt_contravar; [rewrite Rmult_1_l; apply sqrt_lt_R0; nra|]. rewrite <- sqrt_1 at 1. apply sqrt_lt_1; nra. }
      assert (C : forall u, continuous (fun u => / sqrt (1 - 2 * 0 * u + u * u)) u). { intros u. apply (ex_derive_continuous (fun u => / sqrt (1 - 2 * 0 * u + u * u))). assert (P : 0 < 1 - 2 * 0 * u + u * u) by nra. pose proof (sqrt_lt_R0 _ P). auto_derive. split; [exact P|]. split; [apply Rgt_not_eq; assumption|exact I]. }
      destruct (Rlt_dec 0 z) as [P|P].
      - assert (x < z). { rewrite <- (is_RInt_unique _ _ _ _ IS). replace z with (RInt (fun _ => 1) 0 z) at 2 by (rewrite RInt_const; unfold scal; cbn; unfold mult; cbn; ring). apply RInt_lt; [exact P|intros; apply continuous_const|intros; apply C|intros u U; apply Q; lra]. } rewrite (Rabs_right z) by lra. rewrite Rabs_right; [assumption|]. nra.
      - assert (P' : z < 0) by lra. assert (- x < - z). { apply is_RInt_swap in IS. change (opp x < - z). rewrite <- (is_RInt_unique _ _ _ _ IS). replace (- z) with (RInt (fun _ => 1) z 0) by (rewrite RInt_const; unfold scal; cbn; unfold mult; cbn; ring). apply RInt_lt; [exact P'|intros; apply continuous_const|intros; apply C|intros u U; apply Q; lra]. } rewrite (Rabs_left z) by lra. rewrite Rabs_left; [assumption|]. nra. }
    assert (XN : x <> 0) by (intros E; rewrite E in S; lra). assert (P : 0 < z / x) by (replace (z / x) with (z * x * (/ x) ^ 2) by (field; exact XN); apply Rmult_lt_0_compat; [exact S|apply pow2_gt_0, Rinv_neq_0_compat, XN]).
    rewrite <- (Rabs_right (z / x)) by lra. unfold Rdiv. rewrite Rabs_mult, Rabs_inv. assert (0 < Rabs x) by (apply Rabs_pos_lt, XN). apply Rmult_lt_reg_r with (Rabs x); [assumption|]. rewrite Rmult_assoc, Rinv_l by lra. lra.
  - intros L. unfold z_over_x. destruct (Rlt_dec (Rabs z) (/ 10 ^ 8)); [|contradiction]. assert (0 < z * z) by nra. lra.
Qed.
Print Assumptions C52_taylor_refuted.

(** Without vol-vol and with beta one, the smile is flat at alpha. *)
Theorem C52_lognormal : forall p F K T, valid_params p -> nu p = 0 -> beta p = 1 -> 0 < F -> 0 < K -> 0 < T -> hagan_implied_vol p F K T = Ok (alpha p).
Proof.
  intros p F K T (A & _) N B FP KP TP. rewrite (hagan_open p F K T A FP KP TP). apply (f_equal Ok). unfold backbone, correction, moneyness. rewrite N, B. replace ((1 - 1) / 2) with 0 by field. replace (1 - 1) with 0 by ring.
  assert (FK : 0 < F * K) by (apply Rmult_lt_0_compat; assumption). rewrite Rpower_O by exact FK. replace (0 / alpha p * 1 * ln (F / K)) with 0 by (cbn [num R_numbers] in *; field; lra). unfold z_over_x. rewrite Rabs_R0. destruct (Rlt_dec 0 (/ 10 ^ 8)) as [_|NN]; [|exfalso; apply NN, Rinv_0_lt_compat; lra]. cbn [num R_numbers] in *. field.
Qed.
Print Assumptions C52_lognormal.

(** ** The slope at the money *)
Definition smile (p : sabr_params R_numbers) (F T K : R) : R := match hagan_implied_vol p F K T with Ok v => v | _ => 0 end.
Theorem C52_skew : forall p F T, valid_params p -> 0 < F -> 0 < T ->
  let f := Rpower F (1 - beta p) in let c := correction (alpha p) (beta p) (rho p) (nu p) F F T in
  is_derive (smile p F T) F (alpha p / f / F * (rho p * nu p * f / (2 * alpha p) * c - (1 - beta p) / 2 * c - (1 - beta p) * T * ((1 - beta p) ^ 2 * alpha p ^ 2 / (24 * f ^ 2) + rho p * beta p * nu p * alpha p / (8 * f)))).
Proof.
  intros p F T (A & B & R & N) FP TP. cbv zeta. destruct p as [a b r n]. cbn [alpha beta rho nu num R_numbers] in *.
  set (P := fun K => exp ((1 - b) / 2 * ln (F * K))). set (z := fun K => n / a * P K * ln (F / K)).
  set (h := fun K => a / (P K * (1 + (1 - b) ^ 2 / 24 * ln (F / K) ^ 2 + (1 - b) ^ 4 / 1920 * ln (F / K) ^ 4)) * (1 - 1 / 2 * r * z K + 1 / 12 * (3 * r * r - 2) * z K * z K) * (1 + ((1 - b) ^ 2 / 24 * (a ^ 2 / exp ((1 - b) * ln (F * K))) + r * b * n * a / (4 * P K) + (2 - 3 * r ^ 2) * n ^ 2 / 24) * T)).
  apply (is_derive_ext_loc h).
  - assert (CZ : continuous z F). { apply (ex_derive_continuous z). unfold z, P. auto_derive. assert (0 < F * F) by nra. assert (0 < F / F) by (replace (F / F) with 1 by (field; lra); lra). repeat split; try assumption; lra. }
    assert (Z0 : z F = 0) by (unfold z; rewrite ln_same by exact FP; ring).
    assert (T8 : 0 < / 10 ^ 8) by (apply Rinv_0_lt_compat; lra).
    assert (L1 : locally F (fun K => Rabs (z K) < / 10 ^ 8)).
    { assert (PZ : locally (z F) (fun y => Rabs y < / 10 ^ 8)). { exists (mkposreal _ T8). intros y Y. change (Rabs (y - z F) < / 10 ^ 8) in Y. rewrite Z0, Rminus_0_r in Y. exact Y. } exact (CZ _ PZ). }
    assert (L2 : locally F (fun K => 0 < K)) by (exists (mkposreal _ FP); intros y Y; change (Rabs (y - F) < F) in Y; apply Rabs_def2 in Y; lra).
    apply (filter_imp (fun K => Rabs (z K) < / 10 ^ 8 /\ 0 < K)); [|apply filter_and; assumption].
    intros K [ZK KP]. unfold smile. rewrite (hagan_open _ F K T) by assumption. cbn [alpha beta rho nu]. unfold h, backbone, correction, moneyness, Rpower. fold (P K). unfold z_over_x. fold (z K). destruct (Rlt_dec (Rabs (z K)) (/ 10 ^ 8)); [|contradiction]. reflexivity.
  - unfold h, z, P. assert (FF : 0 < F * F) by nra. assert (F1 : F / F = 1) by (field; lra). assert (F2 : F * / F = 1) by (field; lra).
    assert (EP : 0 < exp ((1 - b) / 2 * ln (F * F))) by apply exp_pos.
    auto_derive.
    + rewrite !F2, !ln_1. repeat split; try assumption; try exact I; try (apply Rgt_not_eq; exact FP); try exact Rlt_0_1; try (apply Rgt_not_eq, exp_pos); try (apply Rgt_not_eq; exact A).
      { apply Rgt_not_eq. apply Rmult_lt_0_compat; [apply exp_pos|]. match goal with |- 0 < ?e => replace e with 1 by ring end. exact Rlt_0_1. }
      { apply Rgt_not_eq. apply Rmult_lt_0_compat; [lra|apply exp_pos]. }
    + rewrite !F2, !ln_1. unfold correction.
      assert (E1 : exp ((1 - b) / 2 * ln (F * F)) = Rpower F (1 - b)) by (unfold Rpower; f_equal; rewrite ln_mult by assumption; field).
      assert (E2 : exp ((1 - b) * ln (F * F)) = Rpower F (1 - b) ^ 2) by (unfold Rpower; cbn [pow]; rewrite Rmult_1_r, <- exp_plus; f_equal; rewrite ln_mult by assumption; ring).
      assert (E3 : Rpower (F * F) (1 - b) = Rpower F (1 - b) ^ 2) by exact E2. assert (E4 : Rpower (F * F) ((1 - b) / 2) = Rpower F (1 - b)) by exact E1.
      rewrite E3, E4. replace ((1 + - b) * / 2) with ((1 - b) / 2) by field. replace (1 + - b) with (1 - b) by ring. rewrite ?E1, ?E2. assert (FP' : 0 < Rpower F (1 - b)) by apply exp_pos. set (f := Rpower F (1 - b)) in *. field. repeat split; lra.
Qed.
Print Assumptions C52_skew.
(** With beta one, a negative correlation gives a falling smile at the money and a positive
    one a rising smile. *)
Theorem C52_skew_sign : forall p F T (d : R), valid_params p -> 0 < F -> 0 < T -> beta p = 1 -> 0 < nu p -> 0 < correction (alpha p) (beta p) (rho p) (nu p) F F T -> is_derive (smile p F T) F d -> (d < 0 <-> rho p < 0) /\ (0 < d <-> 0 < rho p).
Proof.
  intros p F T d V FP TP B N C D. pose proof (C52_skew p F T V FP TP) as S. cbv zeta in S. assert (U := is_derive_unique _ _ _ D). rewrite (is_derive_unique _ _ _ S) in U. clear S D. destruct V as (A & _ & _ & _). rewrite B in U, C. set (c := correction _ _ _ _ _ _ _) in *.
  assert (FE : Rpower F (1 - 1) = 1) by (replace (1 - 1) with 0 by ring; apply Rpower_O; exact FP). rewrite FE in U. assert (E : d = rho p * (nu p * c / (2 * F))) by (rewrite <- U; cbn [num R_numbers] in *; match goal with |- ?a = ?b => change (@eq R a b) end; field; split; lra).
  assert (P : 0 < nu p * c / (2 * F)) by (apply Rdiv_lt_0_compat; [apply Rmult_lt_0_compat; assumption|lra]). rewrite E. cbn [num R_numbers] in *. split; split; intros H; nra.
Qed.
Print Assumptions C52_skew_sign.

(** The smile does not jump at the money. *)
Theorem C52_continuous : forall p F T, valid_params p -> 0 < F -> 0 < T -> forall eps, 0 < eps -> exists delta, 0 < delta /\ forall K, Rabs (K - F) < delta -> exists v, hagan_implied_vol p F K T = Ok v /\ Rabs (v - hagan_atm_vol p F T) < eps.
Proof.
  intros p F T V FP TP eps EP. assert (C : continuous (smile p F T) F) by (apply (ex_derive_continuous (smile p F T)); eexists; apply (C52_skew p F T V FP TP)).
  assert (PL : locally (smile p F T F) (fun y => Rabs (y - smile p F T F) < eps)) by (exists (mkposreal _ EP); intros y Y; exact Y). destruct (C _ PL) as [d D].
  exists (Rmin d F). split; [apply Rmin_pos; [apply cond_pos|exact FP]|]. intros K KD. pose proof (Rmin_l d F). pose proof (Rmin_r d F). assert (K1 : Rabs (K - F) < d) by lra. assert (K2 : 0 < K) by (apply Rabs_def2 in KD; lra). specialize (D K K1).
  assert (V' := V). destruct V' as (A & _). pose proof (hagan_open p F K T A FP K2 TP) as E. unfold smile in D. rewrite (C52_atm p F T V FP TP), E in D. eexists. split; [exact E|exact D].
Qed.
Print Assumptions C52_continuous.

(** A market-like parameter set, away from the money, meets the hypotheses. *)
Example C52_witness : let p := @Build_sabr_params R_numbers (1 / 10) 1 (- (1 / 4)) (4 / 5) in valid_params p /\ moneyness (alpha p) (beta p) (nu p) 2 1 <> 0 /\ 0 < correction (alpha p) (beta p) (rho p) (nu p) 2 1 1.
Proof.
  cbv zeta. cbn [alpha beta rho nu]. split; [unfold valid_params; cbn; lra|]. assert (E0 : (1 - 1) / 2 = 0) by field. assert (E1 : 1 - 1 = 0) by ring. split.
  - unfold moneyness. rewrite E0, Rpower_O by lra. replace (2 / 1) with 2 by field. pose proof ln_lt_2. apply Rgt_not_eq. lra.
  - unfold correction. rewrite E0, E1, !Rpower_O by lra. lra.
Qed.
