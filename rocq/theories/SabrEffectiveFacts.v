(** Lemmas about the kernels of the effective SABR parameters. *)
From Coq Require Import Bool List Arith Reals Lra Lia Psatz.
From Coquelicot Require Import Coquelicot.
Import ListNotations.
From Verif Require Import Outcome Processes ProcessFacts SabrEffective.
Open Scope R_scope.

(** ** Taylor polynomials of the exponential *)
Fixpoint tay (n : nat) (x : R) : R := match n with O => 1 | S m => tay m x + x ^ n / INR (fact n) end.
Lemma pow_derive (m : nat) (k F x : R) : is_derive (fun x => k * x ^ S m / F) x (k * INR (S m) * x ^ m / F).
Proof. auto_derive; [exact I|]. cbn [Nat.pred]. change (match m with O => 1 | S _ => INR m + 1 end) with (INR (S m)). unfold Rdiv. ring. Qed.
Lemma fact_step n : INR (fact (S n)) = INR (S n) * INR (fact n).
Proof. rewrite fact_simpl, mult_INR. reflexivity. Qed.
Lemma tay_derive n x : is_derive (tay (S n)) x (tay n x).
Proof.
  revert x. induction n as [|n IH]; intros x.
  - cbn [tay]. auto_derive; [exact I|]. cbn. field.
  - apply is_derive_ext with (fun x => tay (S n) x + x ^ S (S n) / INR (fact (S (S n)))); [reflexivity|].
    apply (@is_derive_plus R_AbsRing R_NormedModule (tay (S n)) (fun x => x ^ S (S n) / INR (fact (S (S n)))) x (tay n x) (x ^ S n / INR (fact (S n)))); [apply IH|].
    apply is_derive_ext with (fun x => 1 * x ^ S (S n) / INR (fact (S (S n)))); [intros t; apply (f_equal (fun y => y / INR (fact (S (S n))))), Rmult_1_l|].
    evar_last; [apply pow_derive|]. rewrite (fact_step (S n)). field. split; [apply INR_fact_neq_0|apply not_0_INR; lia].
Qed.
Lemma tay_0 n : tay n 0 = 1.
Proof. induction n as [|n IH]; cbn -[INR fact]; [reflexivity|]. rewrite IH. unfold Rdiv. ring. Qed.

(** A function that starts at zero or above and has a non-negative slope up to [b]. *)
Lemma rises (f df : R -> R) b : (forall x, is_derive f x (df x)) -> 0 <= f 0 -> (forall x, 0 <= x <= b -> 0 <= df x) -> forall x, 0 <= x <= b -> 0 <= f x.
Proof.
  intros D Z P x [X B]. destruct (Req_dec x 0) as [->|NZ]; [exact Z|].
  destruct (MVT_gen f 0 x df) as (c & C & E).
  - intros y _. apply D.
  - intros y _. apply continuity_pt_filterlim, (ex_derive_continuous f). exists (df y). apply D.
  - rewrite Rmin_left, Rmax_right in C by lra. specialize (P c ltac:(lra)). nra.
Qed.
Lemma tay_below n x : 0 <= x -> tay n x <= exp x.
Proof.
  intros X. cut (0 <= exp x - tay n x); [lra|]. revert x X. induction n as [|n IH]; intros x X.
  - cbn. pose proof (exp_ineq1_le x). lra.
  - refine (rises (fun x => exp x - tay (S n) x) (fun x => exp x - tay n x) x _ _ _ x (conj X (Rle_refl x))).
    + intros y. apply (@is_derive_minus R_AbsRing R_NormedModule); [apply is_derive_exp|apply tay_derive].
    + rewrite exp_0, tay_0. lra.
    + intros y [Y _]. apply IH, Y.
Qed.
Lemma exp_half : exp (1 / 2) <= 2.
Proof.
  pose proof exp_le_3 as H. assert (E : exp 1 = exp (1 / 2) * exp (1 / 2)) by (rewrite <- exp_plus; f_equal; lra). pose proof (exp_pos (1 / 2)). nra.
Qed.
Lemma tay_above n x : 0 <= x <= 1 / 2 -> exp x <= tay n x + 2 * x ^ S n / INR (fact (S n)).
Proof.
  intros X. cut (0 <= tay n x + 2 * x ^ S n / INR (fact (S n)) - exp x); [lra|]. revert x X. induction n as [|n IH]; intros x X.
  - cbn [tay pow fact INR Nat.mul Nat.add]. refine (rises (fun x => 1 + 2 * (x * 1) / 1 - exp x) (fun x => 2 - exp x) (1 / 2) _ _ _ x X).
    + intros y. auto_derive; [exact I|]. lra.
    + rewrite exp_0. lra.
    + intros y [_ Y]. pose proof exp_half. destruct Y as [Y| ->]; [apply exp_increasing in Y; lra|lra].
  - refine (rises (fun x => tay (S n) x + 2 * x ^ S (S n) / INR (fact (S (S n))) - exp x) (fun x => tay n x + 2 * x ^ S n / INR (fact (S n)) - exp x) (1 / 2) _ _ _ x X).
    + intros y. apply (@is_derive_minus R_AbsRing R_NormedModule (fun x => tay (S n) x + 2 * x ^ S (S n) / INR (fact (S (S n)))) exp); [|apply is_derive_exp].
      apply (@is_derive_plus R_AbsRing R_NormedModule (tay (S n)) (fun x => 2 * x ^ S (S n) / INR (fact (S (S n))))); [apply tay_derive|].
      evar_last; [apply pow_derive|]. rewrite (fact_step (S n)). field. split; [apply INR_fact_neq_0|apply not_0_INR; lia].
    + rewrite exp_0, tay_0. rewrite pow_ne_zero by discriminate. unfold Rdiv. lra.
    + exact IH.
Qed.

(** ** The kernels *)
Definition E_exact (c d : R) : R := if Req_EM_T c 0 then d else (exp (c * d) - 1) / c.
Definition K_exact (c d : R) : R := if Req_EM_T c 0 then d * d / 2 else (E_exact (6 * c) d - E_exact c d) / (5 * c).

Lemma small_pow (x e : R) n : 0 <= x <= e -> 0 <= x ^ n <= e ^ n.
Proof. intros H. split; [apply pow_le; lra|apply pow_incr; exact H]. Qed.

Lemma exp_seg_close c d : 0 <= c -> 0 <= d -> exp_seg c d <= E_exact c d <= exp_seg c d * (1 + / 10 ^ 30) /\ 0 <= exp_seg c d.
Proof.
  intros C D. unfold exp_seg. assert (X0 : 0 <= c * d) by (apply Rmult_le_pos; assumption). assert (B30 : 0 < / 10 ^ 30) by (apply Rinv_0_lt_compat; lra).
  rewrite (Rabs_right (c * d)) by lra. unfold E_exact. destruct (Rlt_dec (c * d) (/ 10 ^ 8)) as [S|S].
  - set (x := c * d) in *. set (P := 1 + 1 / 2 * x + x * x / 6 + x * x * x / 24). assert (P1 : 1 <= P) by (unfold P; nra).
    destruct (Req_EM_T c 0) as [Z|NZ].
    + assert (x = 0) by (unfold x; rewrite Z; ring). unfold P in *. clearbody x. subst x. cbn in *. split; [split; nra|nra].
    + assert (CP : 0 < c) by lra.
      assert (XS : x <= 1 / 2) by (pose proof (Rinv_le_contravar 2 (10 ^ 8)); lra).
      pose proof (tay_below 4 x X0) as L. pose proof (tay_above 4 x (conj X0 XS)) as H. cbn in L, H.
      assert (LP : x * P <= exp x - 1) by (unfold P; nra).
      assert (HP : exp x - 1 <= x * P * (1 + / 10 ^ 30)).
      { assert (x ^ 4 <= (/ 10 ^ 8) ^ 4) by (apply (small_pow x (/ 10 ^ 8) 4); lra). rewrite <- pow_inv in H0. rewrite <- pow_mult in H0. cbn [Nat.mul Nat.add] in H0.
        assert (E32 : (/ 10) ^ 32 <= / 10 ^ 30) by (rewrite pow_inv; apply Rinv_le_contravar; [apply pow_lt; lra|apply Rle_pow; [lra|lia]]).
        assert (x * x ^ 4 <= x * / 10 ^ 30) by (apply Rmult_le_compat_l; lra).
        assert (x * / 10 ^ 30 <= x * P * / 10 ^ 30) by (apply Rmult_le_compat_r; [lra|nra]).
        cbn [pow] in *. unfold P in *. lra. }
      replace (d * P) with (x * P / c) by (unfold x; field; lra). split; [split|].
      * apply Rmult_le_compat_r; [left; apply Rinv_0_lt_compat, CP|exact LP].
      * unfold Rdiv. rewrite (Rmult_comm (x * P) (/ c)), Rmult_assoc, (Rmult_comm (/ c)). apply Rmult_le_compat_r; [left; apply Rinv_0_lt_compat, CP|exact HP].
      * apply Rdiv_le_0_compat; [nra|exact CP].
  - destruct (Req_EM_T c 0) as [Z|NZ]; [exfalso; apply S; rewrite Z, Rmult_0_l; apply Rinv_0_lt_compat; lra|]. unfold exp_m1.
    assert (P : 0 <= (exp (c * d) - 1) / c) by (apply Rdiv_le_0_compat; [pose proof (exp_ineq1_le (c * d)); lra|lra]).
    split; [split; [lra|nra]|exact P].
Qed.

(** [(e^(6x) - 1)/6 - (e^x - 1)] and its Taylor polynomials *)
Definition phi (x : R) : R := (exp (6 * x) - 1) / 6 - (exp x - 1).
Lemma phi_close4 x : 0 <= x <= / 12 -> 5 / 2 * x ^ 2 + 35 / 6 * x ^ 3 + 215 / 24 * x ^ 4 <= phi x <= 5 / 2 * x ^ 2 + 35 / 6 * x ^ 3 + 215 / 24 * x ^ 4 + 108 / 5 * x ^ 5.
Proof.
  intros [A B]. unfold phi. pose proof (tay_below 5 (6 * x) ltac:(lra)) as L6. pose proof (tay_above 4 (6 * x) ltac:(lra)) as H6. pose proof (tay_below 4 x A) as L1. pose proof (tay_above 5 x ltac:(lra)) as H1.
  cbn [tay fact Nat.mul Nat.add] in *. rewrite ?INR_IZR_INZ in *. cbn [Z.of_nat Pos.of_succ_nat Pos.succ] in *. assert (Q : 0 <= x ^ 5) by (apply pow_le, A).
  assert (Q6 : x ^ 6 <= x ^ 5) by (replace (x ^ 6) with (x * x ^ 5) by ring; nra). split; cbn [pow] in *; lra.
Qed.
Lemma phi_close5 x : 0 <= x <= / 12 -> 5 / 2 * x ^ 2 + 35 / 6 * x ^ 3 + 215 / 24 * x ^ 4 + 1295 / 120 * x ^ 5 <= phi x <= 5 / 2 * x ^ 2 + 35 / 6 * x ^ 3 + 215 / 24 * x ^ 4 + 1295 / 120 * x ^ 5 + 108 / 5 * x ^ 6.
Proof.
  intros [A B]. unfold phi. pose proof (tay_below 6 (6 * x) ltac:(lra)) as L6. pose proof (tay_above 5 (6 * x) ltac:(lra)) as H6. pose proof (tay_below 5 x A) as L1. pose proof (tay_above 6 x ltac:(lra)) as H1.
  cbn [tay fact Nat.mul Nat.add] in *. rewrite ?INR_IZR_INZ in *. cbn [Z.of_nat Pos.of_succ_nat Pos.succ] in *. assert (Q : 0 <= x ^ 6) by (apply pow_le, A).
  assert (Q6 : x ^ 7 <= x ^ 6) by (replace (x ^ 7) with (x * x ^ 6) by ring; nra). split; cbn [pow] in *; lra.
Qed.

Lemma kernel_close c d : 0 <= c -> 0 <= d -> exp_seg_diff_kernel c d <= K_exact c d <= exp_seg_diff_kernel c d * (1 + / 10 ^ 11) /\ 0 <= exp_seg_diff_kernel c d.
Proof.
  intros C D. unfold exp_seg_diff_kernel. assert (X0 : 0 <= c * d) by (apply Rmult_le_pos; assumption). assert (B11 : 0 < / 10 ^ 11) by (apply Rinv_0_lt_compat; lra).
  rewrite (Rabs_right (c * d)) by lra. unfold K_exact. destruct (Rlt_dec (c * d) (/ 10 ^ 4)) as [S|S].
  - cbv zeta. set (P := 1 / 2 * d * d + 7 / 6 * c * d * d * d + 43 / 24 * c * c * d * d * d * d).
    assert (P0 : 1 / 2 * d * d <= P). { unfold P. assert (0 <= 7 / 6 * c * d * d * d) by (repeat apply Rmult_le_pos; lra). assert (0 <= 43 / 24 * c * c * d * d * d * d) by (repeat apply Rmult_le_pos; lra). lra. }
    assert (DD : 0 <= d * d) by nra. destruct (Req_EM_T c 0) as [Z|NZ].
    + unfold P. rewrite Z. split; [split; [lra|nra]|nra].
    + assert (CP : 0 < c) by lra. unfold E_exact. destruct (Req_EM_T (6 * c) 0) as [Z|_]; [lra|]. destruct (Req_EM_T c 0) as [Z|_]; [lra|].
      set (x := c * d) in *. assert (XS : x <= / 12) by (pose proof (Rinv_le_contravar 12 (10 ^ 4)); lra).
      replace ((exp (6 * c * d) - 1) / (6 * c) - (exp x - 1) / c) with (phi x / c) by (unfold phi, x; rewrite (Rmult_assoc 6 c d); field; lra).
      replace (phi x / c / (5 * c)) with (phi x / (5 * c * c)) by (field; lra).
      destruct (phi_close4 x (conj X0 XS)) as [L H]. assert (CC : 0 < 5 * c * c) by nra.
      assert (EP : 5 / 2 * x ^ 2 + 35 / 6 * x ^ 3 + 215 / 24 * x ^ 4 = P * (5 * c * c)) by (unfold P, x; field).
      assert (X5 : 108 / 5 * x ^ 5 <= P * (5 * c * c) * / 10 ^ 11).
      { apply Rle_trans with (5 / 2 * x ^ 2 * / 10 ^ 11).
        - assert (x ^ 3 <= (/ 10 ^ 4) ^ 3) by (apply (small_pow x (/ 10 ^ 4) 3); lra). assert (0 <= x ^ 2) by (apply pow_le; lra).
          assert (x ^ 2 * x ^ 3 <= x ^ 2 * (/ 10 ^ 4) ^ 3) by (apply Rmult_le_compat_l; lra). cbn [pow] in *. lra.
        - apply Rmult_le_compat_r; [lra|]. rewrite <- EP. assert (0 <= x ^ 3) by (apply pow_le; lra). assert (0 <= x ^ 4) by (apply pow_le; lra). lra. }
      split; [split|nra].
      * apply Rmult_le_reg_r with (5 * c * c); [exact CC|]. unfold Rdiv. rewrite (Rmult_assoc (phi x)), Rinv_l, Rmult_1_r by lra. lra.
      * apply Rmult_le_reg_r with (5 * c * c); [exact CC|]. unfold Rdiv. rewrite (Rmult_assoc (phi x)), Rinv_l, Rmult_1_r by lra. lra.
  - assert (NZ : c <> 0). { intros Z. apply S. rewrite Z, Rmult_0_l. apply Rinv_0_lt_compat. lra. }
    assert (BB : / 10 ^ 8 < / 10 ^ 4) by (apply Rinv_lt_contravar; lra).
    destruct (Req_EM_T c 0) as [Z|_]; [contradiction|]. unfold exp_seg. rewrite (Rmult_assoc 6 c d), (Rabs_right (6 * (c * d))), (Rabs_right (c * d)) by lra.
    destruct (Rlt_dec (6 * (c * d)) (/ 10 ^ 8)) as [Q|_]; [lra|]. destruct (Rlt_dec (c * d) (/ 10 ^ 8)) as [Q|_]; [lra|].
    unfold E_exact. destruct (Req_EM_T (6 * c) 0) as [Z|_]; [lra|]. destruct (Req_EM_T c 0) as [Z|_]; [contradiction|]. unfold exp_m1. rewrite (Rmult_assoc 6 c d).
    assert (P : 0 <= ((exp (6 * (c * d)) - 1) / (6 * c) - (exp (c * d) - 1) / c) / (5 * c)).
    { apply Rdiv_le_0_compat; [|lra]. replace ((exp (6 * (c * d)) - 1) / (6 * c) - (exp (c * d) - 1) / c) with (phi (c * d) / c) by (unfold phi; field; lra). apply Rdiv_le_0_compat; [|lra].
      unfold phi. set (z := exp (c * d)). assert (Z1 : 1 <= z) by (unfold z; pose proof (exp_ineq1_le (c * d)); lra).
      replace (exp (6 * (c * d))) with (z ^ 6); [|unfold z; rewrite <- Rpower_pow by apply exp_pos; unfold Rpower; rewrite ln_exp; f_equal; cbn; ring].
      assert (E : (z ^ 6 - 1) / 6 - (z - 1) = (z - 1) ^ 2 * (z ^ 4 + 2 * z ^ 3 + 3 * z ^ 2 + 4 * z + 5) / 6) by field. rewrite E.
      apply Rdiv_le_0_compat; [|lra]. apply Rmult_le_pos; [apply pow2_ge_0|]. assert (0 <= z ^ 4) by (apply pow_le; lra). assert (0 <= z ^ 3) by (apply pow_le; lra). assert (0 <= z ^ 2) by (apply pow_le; lra). lra. }
    split; [split; [lra|nra]|exact P].
Qed.

(** ** The right-hand side *)
Definition quartic (z : R) : R := z ^ 4 + 2 * z ^ 3 + 3 * z ^ 2 + 4 * z + 5.
Definition rhs_exact (x I : R) : R := I * I * quartic (exp x) / 30.

Lemma exp_6 x : exp (6 * x) = exp x ^ 6.
Proof. rewrite <- Rpower_pow by apply exp_pos. unfold Rpower. rewrite ln_exp. f_equal. cbn. ring. Qed.
Lemma exp_ge_1 x : 0 <= x -> 1 <= exp x.
Proof. intros X. pose proof (exp_ineq1_le x). lra. Qed.
Lemma exp_gt_1 x : 0 < x -> 1 < exp x.
Proof. intros X. rewrite <- exp_0. apply exp_increasing, X. Qed.
Lemma quartic_pos z : 1 <= z -> 15 <= quartic z.
Proof. intros Z. unfold quartic. pose proof (pow_R1_Rle z 4 Z). pose proof (pow_R1_Rle z 3 Z). pose proof (pow_R1_Rle z 2 Z). lra. Qed.

(** The formula of the documentation. *)
Lemma rhs_formula x I : x <> 0 -> 1 / 5 * (I / (exp x - 1)) ^ 2 * (exp (6 * x) / 6 - exp x + 5 / 6) = rhs_exact x I.
Proof.
  intros NZ. unfold rhs_exact, quartic. rewrite exp_6. assert (D : exp x - 1 <> 0) by (intros E; apply NZ; apply exp_inv; rewrite exp_0; lra). field. exact D.
Qed.
Lemma phi_quartic x : phi x = (exp x - 1) ^ 2 * quartic (exp x) / 6.
Proof. unfold phi, quartic. rewrite exp_6. field. Qed.

Lemma rhs_close g2 T I : 0 <= g2 -> 0 <= T -> rhs_at_gamma_tilde g2 T I <= rhs_exact (g2 * T) I <= rhs_at_gamma_tilde g2 T I * (1 + / 10 ^ 11).
Proof.
  intros G HT. unfold rhs_at_gamma_tilde. assert (X : 0 <= g2 * T) by (apply Rmult_le_pos; assumption). set (x := g2 * T) in *. pose proof (exp_ge_1 x X) as E1. assert (B11 : 0 < / 10 ^ 11) by (apply Rinv_0_lt_compat; lra).
  assert (II : 0 <= I * I) by nra. unfold exp_m1. cbv zeta. rewrite (Rabs_right (exp x - 1)), (Rabs_right x) by lra. destruct (Rlt_dec (exp x - 1) (/ 10 ^ 300)) as [S|S].
  - unfold rhs_exact. assert (T11 : / 10 ^ 300 <= / 10 ^ 13) by (apply Rinv_le_contravar; [apply pow_lt; lra|apply Rle_pow; [lra|lia]]).
    set (y := exp x - 1) in *. assert (Y : 0 <= y <= / 10 ^ 13) by (split; [unfold y; lra|apply Rle_trans with (2 := T11); left; exact S]). clear S T11. replace (exp x) with (1 + y) by (unfold y; ring).
    assert (Qe : quartic (1 + y) = 15 + 20 * y + 15 * y ^ 2 + 6 * y ^ 3 + y ^ 4) by (unfold quartic; ring).
    assert (Y1 : y <= 1) by lra. assert (P2 : 0 <= y ^ 2 <= y) by (cbn; nra). assert (P3 : 0 <= y ^ 3 <= y) by (cbn in *; nra). assert (P4 : 0 <= y ^ 4 <= y) by (cbn in *; nra).
    assert (Q15 : 15 <= quartic (1 + y) <= 15 * (1 + / 10 ^ 11)) by (rewrite Qe; split; [lra|]; assert (42 * y <= 15 * / 10 ^ 11) by lra; lra).
    split; nra.
  - assert (YP : 0 < exp x - 1) by (apply Rlt_le_trans with (/ 10 ^ 300); [apply Rinv_0_lt_compat, pow_lt; lra|apply Rnot_lt_le, S]). clear S.
    assert (EX : rhs_exact x I = I * I / (5 * (exp x - 1) * (exp x - 1)) * phi x) by (rewrite phi_quartic; unfold rhs_exact; field; lra). rewrite EX.
    assert (CP : 0 <= I * I / (5 * (exp x - 1) * (exp x - 1))) by (apply Rdiv_le_0_compat; nra). set (C := I * I / (5 * (exp x - 1) * (exp x - 1))) in *.
    destruct (Rlt_dec x (/ 10 ^ 3)) as [S3|S3].
    + assert (X12 : x <= / 12) by (pose proof (Rinv_le_contravar 12 (10 ^ 3)); lra). destruct (phi_close5 x (conj X X12)) as [L H].
      set (P := 5 / 2 * (x * x) + 35 / 6 * (x * x) * x + 215 / 24 * (x * x) * (x * x) + 1295 / 120 * (x * x) * (x * x) * x).
      assert (EP : 5 / 2 * x ^ 2 + 35 / 6 * x ^ 3 + 215 / 24 * x ^ 4 + 1295 / 120 * x ^ 5 = P) by (unfold P; ring). rewrite EP in L, H.
      assert (X6 : 108 / 5 * x ^ 6 <= P * / 10 ^ 11).
      { apply Rle_trans with (5 / 2 * x ^ 2 * / 10 ^ 11).
        - assert (x ^ 4 <= (/ 10 ^ 3) ^ 4) by (apply (small_pow x (/ 10 ^ 3) 4); lra). assert (0 <= x ^ 2) by (apply pow_le; lra).
          assert (x ^ 2 * x ^ 4 <= x ^ 2 * (/ 10 ^ 3) ^ 4) by (apply Rmult_le_compat_l; lra). cbn [pow] in *. lra.
        - apply Rmult_le_compat_r; [lra|]. rewrite <- EP. assert (0 <= x ^ 3) by (apply pow_le; lra). assert (0 <= x ^ 4) by (apply pow_le; lra). assert (0 <= x ^ 5) by (apply pow_le; lra). lra. }
      split; [apply Rmult_le_compat_l; lra|]. rewrite Rmult_assoc. apply Rmult_le_compat_l; lra.
    + replace ((exp (6 * x) - 1) / 6 - (exp x - 1)) with (phi x) by reflexivity.
      assert (PP : 0 <= phi x). { rewrite phi_quartic. pose proof (quartic_pos (exp x) E1). apply Rdiv_le_0_compat; [apply Rmult_le_pos; [apply pow2_ge_0|lra]|lra]. }
      assert (0 <= C * phi x) by (apply Rmult_le_pos; assumption). split; [lra|nra].
Qed.

Lemma quartic_grows z e : 1 <= z -> 1 <= e -> e * quartic z <= quartic (e * z).
Proof.
  intros Z E. unfold quartic. assert (e <= e ^ 2) by (cbn; nra). assert (e <= e ^ 3) by (cbn in *; nra). assert (e <= e ^ 4) by (cbn in *; nra).
  assert (Z2 : 1 <= z ^ 2) by (apply pow_R1_Rle, Z). assert (Z3 : 1 <= z ^ 3) by (apply pow_R1_Rle, Z). assert (Z4 : 1 <= z ^ 4) by (apply pow_R1_Rle, Z). rewrite !Rpow_mult_distr.
  assert (A2 : (e ^ 2 - e) * 1 <= (e ^ 2 - e) * z ^ 2) by (apply Rmult_le_compat_l; lra).
  assert (A3 : (e ^ 3 - e) * 1 <= (e ^ 3 - e) * z ^ 3) by (apply Rmult_le_compat_l; lra).
  assert (A4 : (e ^ 4 - e) * 1 <= (e ^ 4 - e) * z ^ 4) by (apply Rmult_le_compat_l; lra).
  assert (B2 : e - 1 <= e ^ 2 - e) by (cbn; nra). assert (B3 : e - 1 <= e ^ 3 - e) by (cbn in *; nra). lra.
Qed.
Lemma rhs_inverse x y I d : 0 <= x -> 0 <= y -> 0 < I -> 0 <= d -> rhs_exact x I <= rhs_exact y I * (1 + d) -> x <= y + d.
Proof.
  intros X Y IP D H. destruct (Rle_dec x y) as [L|L]; [lra|]. unfold rhs_exact in H.
  assert (Q : quartic (exp x) <= quartic (exp y) * (1 + d)) by (apply Rmult_le_reg_l with (I * I / 30); [nra|]; lra).
  pose proof (quartic_grows (exp y) (exp (x - y)) (exp_ge_1 y Y) (exp_ge_1 (x - y) ltac:(lra))) as G. rewrite <- exp_plus in G. replace (x - y + y) with x in G by ring.
  pose proof (quartic_pos (exp y) (exp_ge_1 y Y)) as QP. assert (exp (x - y) <= 1 + d) by (apply Rmult_le_reg_l with (quartic (exp y)); [lra|lra]). pose proof (exp_ineq1_le (x - y)). lra.
Qed.
Lemma rhs_increasing x y I : 0 <= x < y -> 0 < I -> rhs_exact x I < rhs_exact y I.
Proof.
  intros [X Y] IP. unfold rhs_exact. assert (exp x < exp y) by (apply exp_increasing, Y). pose proof (exp_ge_1 x X) as E. assert (quartic (exp x) < quartic (exp y)).
  { unfold quartic. assert (exp x ^ 2 <= exp y ^ 2) by (apply pow_incr; lra). assert (exp x ^ 3 <= exp y ^ 3) by (apply pow_incr; lra). assert (exp x ^ 4 <= exp y ^ 4) by (apply pow_incr; lra). lra. }
  assert (0 < I * I) by nra. nra.
Qed.

(** ** The integrals over a schedule *)
(** [gam] and [om] have the values of the segments, from the time [a] on; what they are at
    the knots is left open. *)
Fixpoint follows (a : R) (segs : list (R * R * R)) (gam om : R -> R) : Prop :=
  match segs with
  | [] => True
  | (d, g, o) :: r => 0 < d /\ (forall t, a < t < a + d -> gam t = g /\ om t = o) /\ follows (a + d) r gam om
  end.
Fixpoint span (segs : list (R * R * R)) : R := match segs with [] => 0 | (d, _, _) :: r => d + span r end.
Lemma span_nonneg a segs gam om : follows a segs gam om -> 0 <= span segs.
Proof. revert a. induction segs as [|[[d g] o] r IH]; intros a F; [cbn; lra|]. destruct F as (D & _ & F). specialize (IH _ F). cbn. lra. Qed.

Fixpoint I_exact (g0 : R) (segs : list (R * R * R)) : R :=
  match segs with [] => 0 | (d, g, o) :: r => o ^ 2 * exp g0 * E_exact (g ^ 2) d + I_exact (g0 + g ^ 2 * d) r end.
Fixpoint L_exact (g0 h0 : R) (segs : list (R * R * R)) : R :=
  match segs with
  | [] => 0
  | (d, g, o) :: r => o ^ 2 * exp g0 * h0 * E_exact (g ^ 2) d + o ^ 4 * exp (6 * g0) * K_exact (g ^ 2) d + L_exact (g0 + g ^ 2 * d) (h0 + o ^ 2 * exp (5 * g0) * E_exact (5 * g ^ 2) d) r
  end.

Lemma gamma_square a segs gam om : follows a segs gam om -> ex_RInt (fun s => gam s ^ 2) a (a + span segs).
Proof.
  revert a. induction segs as [|[[d g] o] r IH]; intros a F; cbn [span].
  - rewrite Rplus_0_r. apply ex_RInt_point.
  - destruct F as (D & V & F). replace (a + (d + span r)) with (a + d + span r) by ring. apply ex_RInt_Chasles with (a + d); [|apply IH, F].
    apply (ex_RInt_ext (fun _ => g ^ 2)); [|apply ex_RInt_const]. intros x X. rewrite Rmin_left, Rmax_right in X by lra. rewrite (proj1 (V x X)). reflexivity.
Qed.
Lemma gamma_first a d g (gam : R -> R) t : (forall t, a < t < a + d -> gam t = g) -> a <= t <= a + d -> is_RInt (fun s => gam s ^ 2) a t (g ^ 2 * (t - a)).
Proof.
  intros V T. apply (is_RInt_ext (fun _ => g ^ 2)).
  - intros x X. rewrite Rmin_left, Rmax_right in X by lra. rewrite V by lra. reflexivity.
  - evar_last; [apply (@is_RInt_const R_NormedModule)|]. unfold scal; cbn; unfold mult; cbn. ring.
Qed.
Lemma gamma_later a d g o r gam om t : follows a ((d, g, o) :: r) gam om -> a + d <= t <= a + (d + span r) -> RInt (fun s => gam s ^ 2) a t = g ^ 2 * d + RInt (fun s => gam s ^ 2) (a + d) t.
Proof.
  intros (D & V & F) T. apply is_RInt_unique. apply (is_RInt_Chasles (V := R_NormedModule) _ a (a + d) t).
  - evar_last; [apply (gamma_first a d g); [intros s S; apply V, S|lra]|]. ring.
  - apply (@RInt_correct R_CompleteNormedModule). apply (ex_RInt_Chasles_1 (V := R_CompleteNormedModule)) with (a + d + span r); [lra|]. exact (gamma_square _ _ _ _ F).
Qed.
Lemma E_exact_int c d : is_RInt (fun u => exp (c * u)) 0 d (E_exact c d).
Proof.
  unfold E_exact. destruct (Req_EM_T c 0) as [->|NZ].
  - apply (is_RInt_ext (fun _ => 1)); [intros x _; rewrite Rmult_0_l, exp_0; reflexivity|]. evar_last; [apply (@is_RInt_const R_NormedModule)|]. unfold scal; cbn; unfold mult; cbn. ring.
  - evar_last; [apply (is_RInt_derive (fun u => exp (c * u) / c) (fun u => exp (c * u)))|].
    + intros x _. auto_derive; [exact I|]. field. exact NZ.
    + intros x _. apply (ex_derive_continuous (fun u => exp (c * u))). auto_derive. exact I.
    + unfold minus, plus, opp; cbn. rewrite Rmult_0_r, exp_0. field. exact NZ.
Qed.
(** shifted to start at [a], with factors *)
Lemma E_shift k g0 c a d : is_RInt (fun t => k * exp (g0 + c * (t - a))) a (a + d) (k * exp g0 * E_exact c d).
Proof.
  apply (is_RInt_ext (fun t => scal (k * exp g0) (scal 1 (exp (c * (1 * t + - a)))))).
  - intros x _. unfold scal; cbn; unfold mult; cbn. rewrite exp_plus. replace (1 * x + - a) with (x - a) by ring. ring.
  - apply (@is_RInt_scal R_NormedModule). apply (@is_RInt_comp_lin R_NormedModule (fun y => exp (c * y)) 1 (- a) a (a + d)). replace (1 * a + - a) with 0 by ring. replace (1 * (a + d) + - a) with d by ring. apply E_exact_int.
Qed.
Lemma K_exact_int c d : is_RInt (fun u => exp (c * u) * E_exact (5 * c) u) 0 d (K_exact c d).
Proof.
  unfold K_exact. destruct (Req_EM_T c 0) as [->|NZ].
  - apply (is_RInt_ext (fun u => u)).
    + intros x _. unfold E_exact. destruct (Req_EM_T (5 * 0) 0) as [_|N]; [|exfalso; apply N; ring]. rewrite Rmult_0_l, exp_0. symmetry. apply Rmult_1_l.
    + evar_last; [apply (is_RInt_derive (fun u => u * u / 2) (fun u => u))|].
      * intros x _. auto_derive; [exact I|]. field.
      * intros x _. apply continuous_id.
      * unfold minus, plus, opp; cbn. field.
  - apply (is_RInt_ext (fun u => scal (/ (5 * c)) (minus (exp (6 * c * u)) (exp (c * u))))).
    + intros x _. unfold scal, minus, plus, opp; cbn; unfold mult; cbn. unfold E_exact. destruct (Req_EM_T (5 * c) 0) as [Z|_]; [exfalso; apply NZ; lra|].
      replace (6 * c * x) with (c * x + 5 * c * x) by ring. rewrite exp_plus. field. exact NZ.
    + evar_last; [apply (@is_RInt_scal R_NormedModule), (@is_RInt_minus R_NormedModule); apply E_exact_int|]. unfold scal, minus, plus, opp; cbn; unfold mult; cbn. field. exact NZ.
Qed.

Lemma I_exact_int segs : forall a g0 gam om, follows a segs gam om ->
  is_RInt (fun t => om t ^ 2 * exp (g0 + RInt (fun s => gam s ^ 2) a t)) a (a + span segs) (I_exact g0 segs).
Proof.
  induction segs as [|[[d g] o] r IH]; intros a g0 gam om F; cbn [span I_exact].
  - rewrite Rplus_0_r. apply (@is_RInt_point R_NormedModule).
  - pose proof F as (D & V & F'). replace (a + (d + span r)) with (a + d + span r) by ring.
    pose proof (span_nonneg _ _ _ _ F') as SN.
    apply (is_RInt_Chasles (V := R_NormedModule) _ a (a + d) (a + d + span r)).
    + apply (is_RInt_ext (fun t => o ^ 2 * exp (g0 + g ^ 2 * (t - a)))); [|apply E_shift].
      intros x X. rewrite Rmin_left, Rmax_right in X by lra. rewrite (proj2 (V x X)). rewrite (is_RInt_unique _ _ _ _ (gamma_first a d g gam x (fun t T => proj1 (V t T)) ltac:(lra))). reflexivity.
    + apply (is_RInt_ext (fun t => om t ^ 2 * exp (g0 + g ^ 2 * d + RInt (fun s => gam s ^ 2) (a + d) t))); [|apply IH, F'].
      intros x X. rewrite Rmin_left, Rmax_right in X by lra. rewrite (gamma_later a d g o r gam om x F) by lra. rewrite Rplus_assoc. reflexivity.
Qed.

(** The inner integral of the left-hand side. *)
Lemma omega_first a d g o g0 gam om t : (forall t, a < t < a + d -> gam t = g /\ om t = o) -> a <= t <= a + d ->
  is_RInt (fun s => om s ^ 2 * exp (5 * (g0 + RInt (fun u => gam u ^ 2) a s))) a t (o ^ 2 * exp (5 * g0) * E_exact (5 * g ^ 2) (t - a)).
Proof.
  intros V T. apply (is_RInt_ext (fun s => o ^ 2 * exp (5 * g0 + 5 * g ^ 2 * (s - a)))).
  - intros x X. rewrite Rmin_left, Rmax_right in X by lra. rewrite (proj2 (V x ltac:(lra))). rewrite (is_RInt_unique _ _ _ _ (gamma_first a d g gam x (fun t T => proj1 (V t T)) ltac:(lra))). do 2 f_equal. ring.
  - replace t with (a + (t - a)) at 1 by ring. apply E_shift.
Qed.
Lemma omega_square segs : forall a g0 gam om, follows a segs gam om -> ex_RInt (fun s => om s ^ 2 * exp (5 * (g0 + RInt (fun u => gam u ^ 2) a s))) a (a + span segs).
Proof.
  induction segs as [|[[d g] o] r IH]; intros a g0 gam om F; cbn [span].
  - rewrite Rplus_0_r. apply ex_RInt_point.
  - pose proof F as (D & V & F'). pose proof (span_nonneg _ _ _ _ F') as SN. replace (a + (d + span r)) with (a + d + span r) by ring. apply ex_RInt_Chasles with (a + d).
    + eexists. apply (omega_first a d g o g0 gam om (a + d) V). lra.
    + apply (ex_RInt_ext (fun s => om s ^ 2 * exp (5 * (g0 + g ^ 2 * d + RInt (fun u => gam u ^ 2) (a + d) s)))); [|apply IH, F'].
      intros x X. rewrite Rmin_left, Rmax_right in X by lra. rewrite (gamma_later a d g o r gam om x F) by lra. do 3 f_equal. ring.
Qed.
Lemma omega_later a d g o r g0 gam om t : follows a ((d, g, o) :: r) gam om -> a + d <= t <= a + (d + span r) ->
  RInt (fun s => om s ^ 2 * exp (5 * (g0 + RInt (fun u => gam u ^ 2) a s))) a t =
  o ^ 2 * exp (5 * g0) * E_exact (5 * g ^ 2) d + RInt (fun s => om s ^ 2 * exp (5 * (g0 + g ^ 2 * d + RInt (fun u => gam u ^ 2) (a + d) s))) (a + d) t.
Proof.
  intros F T. pose proof F as (D & V & F'). apply is_RInt_unique. apply (is_RInt_Chasles (V := R_NormedModule) _ a (a + d) t).
  - evar_last; [apply (omega_first a d g o g0 gam om (a + d) V); lra|]. do 2 f_equal. ring.
  - apply (is_RInt_ext (fun s => om s ^ 2 * exp (5 * (g0 + g ^ 2 * d + RInt (fun u => gam u ^ 2) (a + d) s)))).
    + intros x X. rewrite Rmin_left, Rmax_right in X by lra. rewrite (gamma_later a d g o r gam om x F) by lra. do 3 f_equal. ring.
    + apply (@RInt_correct R_CompleteNormedModule). apply (ex_RInt_Chasles_1 (V := R_CompleteNormedModule)) with (a + d + span r); [lra|]. apply (omega_square r (a + d) (g0 + g ^ 2 * d) gam om F').
Qed.
Lemma K_shift k g0 c a d : is_RInt (fun t => k * exp (g0 + c * (t - a)) * E_exact (5 * c) (t - a)) a (a + d) (k * exp g0 * K_exact c d).
Proof.
  apply (is_RInt_ext (fun t => scal (k * exp g0) (scal 1 (exp (c * (1 * t + - a)) * E_exact (5 * c) (1 * t + - a))))).
  - intros x _. unfold scal; cbn; unfold mult; cbn. rewrite exp_plus. replace (1 * x + - a) with (x - a) by ring. ring.
  - apply (@is_RInt_scal R_NormedModule). apply (@is_RInt_comp_lin R_NormedModule (fun y => exp (c * y) * E_exact (5 * c) y) 1 (- a) a (a + d)). replace (1 * a + - a) with 0 by ring. replace (1 * (a + d) + - a) with d by ring. apply K_exact_int.
Qed.
Lemma L_exact_int segs : forall a g0 h0 gam om, follows a segs gam om ->
  is_RInt (fun t => om t ^ 2 * exp (g0 + RInt (fun u => gam u ^ 2) a t) * (h0 + RInt (fun s => om s ^ 2 * exp (5 * (g0 + RInt (fun u => gam u ^ 2) a s))) a t)) a (a + span segs) (L_exact g0 h0 segs).
Proof.
  induction segs as [|[[d g] o] r IH]; intros a g0 h0 gam om F; cbn [span L_exact].
  - rewrite Rplus_0_r. apply (@is_RInt_point R_NormedModule).
  - pose proof F as (D & V & F'). replace (a + (d + span r)) with (a + d + span r) by ring.
    pose proof (span_nonneg _ _ _ _ F') as SN.
    apply (is_RInt_Chasles (V := R_NormedModule) _ a (a + d) (a + d + span r)).
    + apply (is_RInt_ext (fun t => plus (o ^ 2 * h0 * exp (g0 + g ^ 2 * (t - a))) (o ^ 4 * exp (5 * g0) * exp (g0 + g ^ 2 * (t - a)) * E_exact (5 * g ^ 2) (t - a)))).
      * intros x X. rewrite Rmin_left, Rmax_right in X by lra. rewrite (proj2 (V x X)). rewrite (is_RInt_unique _ _ _ _ (gamma_first a d g gam x (fun t T => proj1 (V t T)) ltac:(lra))).
        rewrite (is_RInt_unique _ _ _ _ (omega_first a d g o g0 gam om x V ltac:(lra))). unfold plus; cbn. ring.
      * evar_last; [apply (@is_RInt_plus R_NormedModule); [apply E_shift|apply K_shift]|]. unfold plus; cbn -[pow]. replace (6 * g0) with (5 * g0 + g0) by ring. rewrite exp_plus. ring.
    + apply (is_RInt_ext (fun t => om t ^ 2 * exp (g0 + g ^ 2 * d + RInt (fun u => gam u ^ 2) (a + d) t) *
        (h0 + o ^ 2 * exp (5 * g0) * E_exact (5 * g ^ 2) d + RInt (fun s => om s ^ 2 * exp (5 * (g0 + g ^ 2 * d + RInt (fun u => gam u ^ 2) (a + d) s))) (a + d) t))); [|apply IH, F'].
      intros x X. rewrite Rmin_left, Rmax_right in X by lra. rewrite (gamma_later a d g o r gam om x F) by lra. rewrite (omega_later a d g o r g0 gam om x F) by lra. rewrite !Rplus_assoc. reflexivity.
Qed.

(** ** The loops of the code *)
Lemma E_mono c d : 0 <= c -> 0 <= d -> 0 <= E_exact c d.
Proof. intros C D. destruct (exp_seg_close c d C D) as [[A _] B]. lra. Qed.
Lemma i_from_total g0 t segs : i_from g0 t segs = t + i_from g0 0 segs.
Proof. revert g0 t. induction segs as [|[[d g] o] r IH]; intros g0 t; cbn [i_from]; [ring|]. rewrite IH, (IH _ (0 + _)). ring. Qed.
Lemma lhs_from_total g0 h0 t segs : lhs_from g0 h0 t segs = t + lhs_from g0 h0 0 segs.
Proof. revert g0 h0 t. induction segs as [|[[d g] o] r IH]; intros g0 h0 t; cbn [lhs_from]; [ring|]. rewrite IH, (IH _ _ (0 + _)). ring. Qed.
Lemma i_close segs : (forall s, In s segs -> 0 < fst (fst s)) -> forall g0, 0 <= i_from g0 0 segs <= I_exact g0 segs /\ I_exact g0 segs <= i_from g0 0 segs * (1 + / 10 ^ 30).
Proof.
  intros P. induction segs as [|[[d g] o] r IH]; intros g0; cbn [i_from I_exact]; [lra|].
  rewrite i_from_total. specialize (IH (fun s H => P s (or_intror H)) (g0 + g * g * d)). assert (D : 0 < d) by exact (P _ (or_introl eq_refl)). replace (g ^ 2) with (g * g) by ring. replace (o ^ 2) with (o * o) by ring.
  destruct (exp_seg_close (g * g) d ltac:(nra) ltac:(lra)) as [[A B] C]. assert (W : 0 <= o * o * exp g0) by (apply Rmult_le_pos; [nra|left; apply exp_pos]). set (w := o * o * exp g0) in *.
  assert (0 <= w * exp_seg (g * g) d) by (apply Rmult_le_pos; assumption).
  assert (w * exp_seg (g * g) d <= w * E_exact (g * g) d) by (apply Rmult_le_compat_l; assumption).
  assert (w * E_exact (g * g) d <= w * (exp_seg (g * g) d * (1 + / 10 ^ 30))) by (apply Rmult_le_compat_l; assumption). lra.
Qed.
(** the factors of the closeness bounds *)
Definition eps30 : R := / 10 ^ 30.
Lemma lhs_close segs : (forall s, In s segs -> 0 < fst (fst s)) -> forall g0 h h', 0 <= h <= h' -> h' <= h * (1 + eps30) ->
  0 <= lhs_from g0 h 0 segs <= L_exact g0 h' segs /\ L_exact g0 h' segs <= lhs_from g0 h 0 segs * (1 + / 10 ^ 11).
Proof.
  intros P. induction segs as [|[[d g] o] r IH]; intros g0 h h' H H'; cbn [lhs_from L_exact]; [lra|].
  rewrite lhs_from_total. assert (D : 0 < d) by exact (P _ (or_introl eq_refl)). replace (g ^ 2) with (g * g) by ring. replace (o ^ 2) with (o * o) by ring. replace (o ^ 4) with (o * o * (o * o)) by ring.
  assert (B30 : 0 < eps30 < / 10 ^ 12) by (unfold eps30; split; [apply Rinv_0_lt_compat|apply Rinv_lt_contravar]; lra).
  destruct (exp_seg_close (g * g) d ltac:(nra) ltac:(lra)) as [[A1 B1] C1]. destruct (exp_seg_close (5 * (g * g)) d ltac:(nra) ltac:(lra)) as [[A5 B5] C5]. destruct (kernel_close (g * g) d ltac:(nra) ltac:(lra)) as [[AK BK] CK]. fold eps30 in B1, B5.
  set (e1 := exp_seg (g * g) d) in *. set (E1 := E_exact (g * g) d) in *. set (e5 := exp_seg (5 * (g * g)) d) in *. set (E5 := E_exact (5 * (g * g)) d) in *. set (k := exp_seg_diff_kernel (g * g) d) in *. set (K := K_exact (g * g) d) in *.
  assert (W1 : 0 <= o * o * exp g0) by (apply Rmult_le_pos; [nra|left; apply exp_pos]). assert (W5 : 0 <= o * o * exp (5 * g0)) by (apply Rmult_le_pos; [nra|left; apply exp_pos]). assert (W6 : 0 <= o * o * (o * o) * exp (6 * g0)) by (apply Rmult_le_pos; [nra|left; apply exp_pos]).
  set (w1 := o * o * exp g0) in *. set (w5 := o * o * exp (5 * g0)) in *. set (w6 := o * o * (o * o) * exp (6 * g0)) in *.
  assert (X5 : 0 <= w5 * e5) by (apply Rmult_le_pos; assumption). assert (X5' : w5 * e5 <= w5 * E5) by (apply Rmult_le_compat_l; assumption). assert (X5'' : w5 * E5 <= w5 * e5 * (1 + eps30)) by (rewrite Rmult_assoc; apply Rmult_le_compat_l; assumption).
  destruct (IH (fun s Hs => P s (or_intror Hs)) (g0 + g * g * d) (h + w5 * e5) (h' + w5 * E5) ltac:(lra) ltac:(lra)) as [[R0 R1] R2].
  assert (K0 : 0 <= w6 * k) by (apply Rmult_le_pos; assumption). assert (K1 : w6 * k <= w6 * K) by (apply Rmult_le_compat_l; assumption). assert (K2 : w6 * K <= w6 * k * (1 + / 10 ^ 11)) by (rewrite Rmult_assoc; apply Rmult_le_compat_l; assumption).
  assert (HE0 : 0 <= h * e1) by (apply Rmult_le_pos; lra). assert (HE1 : h * e1 <= h' * E1) by (apply Rmult_le_compat; lra).
  assert (HE2 : h' * E1 <= h * e1 * (1 + / 10 ^ 11)).
  { apply Rle_trans with (h * (1 + eps30) * (e1 * (1 + eps30))); [apply Rmult_le_compat; lra|]. replace (h * (1 + eps30) * (e1 * (1 + eps30))) with (h * e1 * ((1 + eps30) * (1 + eps30))) by ring. apply Rmult_le_compat_l; [exact HE0|]. assert (eps30 * eps30 <= eps30) by (assert (/ 10 ^ 12 < 1) by lra; nra). lra. }
  assert (M0 : 0 <= w1 * (h * e1)) by (apply Rmult_le_pos; assumption). assert (M1 : w1 * (h * e1) <= w1 * (h' * E1)) by (apply Rmult_le_compat_l; assumption). assert (M2 : w1 * (h' * E1) <= w1 * (h * e1) * (1 + / 10 ^ 11)) by (rewrite Rmult_assoc; apply Rmult_le_compat_l; assumption).
  rewrite (Rmult_assoc w1 h e1), (Rmult_assoc w1 h' E1). split; [split|]; lra.
Qed.
