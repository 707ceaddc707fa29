(** The width of a bisection bracket in binary64. *)
From Coq Require Import Bool List Arith ZArith Reals Lra Lia Psatz.
Import ListNotations.
From Flocq Require Import Core BinarySingleNaN.
From Verif Require Import Outcome F64 Clock64 Clock64Facts Chol64 Bisect64.
Open Scope R_scope.

Lemma tiny_u53 k : (k <= -160)%Z -> bpow radix2 k <= u53 * bpow radix2 (-100).
Proof.
  intros H. assert (E : u53 = bpow radix2 (-53)) by reflexivity. rewrite E, <- bpow_plus. apply bpow_le. lia.
Qed.

(** The middle of two non-negative doubles lies between them, and near the true middle. *)
Lemma middle_ok lo hi h : finite lo -> finite hi -> 0 <= f64R lo <= f64R hi -> f64R hi <= h -> bpow radix2 (-100) <= h -> h <= IZR (2 ^ 52) ->
  finite (middle64 lo hi) /\ f64R lo <= f64R (middle64 lo hi) <= f64R hi /\ Rabs (f64R (middle64 lo hi) - (f64R lo + f64R hi) / 2) <= 3 * u53 * h.
Proof.
  intros FL FH O B H0 H1. destruct half64_ok as [EH FHF]. pose proof u53_pos as U. pose proof u53_eq as UE.
  assert (P52 : IZR (2 ^ 53) = 2 * IZR (2 ^ 52)) by (change (2 ^ 53)%Z with (2 * 2 ^ 52)%Z; apply mult_IZR).
  destruct (fadd_ok lo hi (2 ^ 53) FL FH ltac:(lia)) as [ES FS]; [rewrite Rabs_pos_eq by lra; lra|].
  assert (SL : rnd (2 * f64R lo) <= f64R (fadd lo hi)) by (rewrite ES; apply rnd_mono; lra). assert (SH : f64R (fadd lo hi) <= rnd (2 * f64R hi)) by (rewrite ES; apply rnd_mono; lra).
  assert (D : forall x : f64, rnd (2 * f64R x) = 2 * f64R x). { intros x. apply rnd_id. apply (generic_format_FLT radix2 (-1074) 53). pose proof (format64 x) as G. apply FLT_format_generic in G; [|exact prec64]. destruct G as [[m e] E M E']. exists (Float radix2 m (e + 1)); [|exact M|cbn in *; lia]. rewrite E. unfold F2R. cbn [Fnum Fexp]. rewrite bpow_plus. change (bpow radix2 1) with 2. ring. }
  rewrite D in SL, SH. assert (S0 : 0 <= f64R (fadd lo hi)) by lra.
  destruct (fmul_ok half64 (fadd lo hi) (2 ^ 52) FHF FS ltac:(lia)) as [EM FM]; [rewrite EH, Rabs_pos_eq by lra; lra|]. fold (middle64 lo hi) in EM, FM. rewrite EH in EM.
  split; [exact FM|]. split.
  - rewrite EM. split; [rewrite <- (rnd_id _ (format64 lo))|rewrite <- (rnd_id _ (format64 hi))]; apply rnd_mono; lra.
  - destruct (rnd_plus lo hi) as (e & E & EE). rewrite EE in ES. set (s := f64R (fadd lo hi)) in *. set (a := f64R lo + f64R hi) in *. assert (A : 0 <= a <= 2 * h) by (unfold a; lra). apply Rabs_le_inv in E.
    assert (S1 : Rabs (s - a) <= 2 * u53 * h). { replace (s - a) with (a * e) by (rewrite ES; ring). rewrite Rabs_mult, (Rabs_pos_eq a) by lra. assert (Rabs e <= u53) by (apply Rabs_le; exact E). pose proof (Rabs_pos e). nra. }
    assert (S2 : Rabs (f64R (middle64 lo hi) - s / 2) <= u53 * h).
    { rewrite EM. replace (s / 2) with (/ 2 * s) by lra. destruct (Rle_lt_dec (bpow radix2 (-1022)) (Rabs (/ 2 * s))) as [G|G].
      - destruct (rnd_rel _ G) as (e' & E' & ->). replace (/ 2 * s * (1 + e') - / 2 * s) with (/ 2 * s * e') by ring. rewrite Rabs_mult, (Rabs_pos_eq (/ 2 * s)) by lra. pose proof (Rabs_pos e'). assert (s <= 2 * h) by lra. nra.
      - apply Rle_trans with (bpow radix2 (-1021 - 54)); [apply rnd_error; [lia|]; apply Rle_trans with (bpow radix2 (-1022)); [lra|apply bpow_le; lia]|]. apply Rle_trans with (1 := tiny_u53 (-1021 - 54) ltac:(lia)). apply Rmult_le_compat_l; lra. }
    apply Rabs_le_inv in S1, S2. apply Rabs_le. lra.
Qed.

(** The bracket after [k] halvings of a bracket of width at most [h]. *)
Definition width (h : R) (k : nat) : R := h / 2 ^ k + 6 * u53 * h.
Definition window (h : R) (k : nat) (lo hi : f64) : Prop :=
  finite lo /\ finite hi /\ 0 <= f64R lo <= f64R hi /\ f64R hi <= h /\ f64R hi - f64R lo <= width h k.
Definition sized (h : R) : Prop := bpow radix2 (-100) <= h <= IZR (2 ^ 52).

Lemma width_S h k : width h (S k) = width h k / 2 + 3 * u53 * h.
Proof. unfold width. cbn [pow]. assert (0 < 2 ^ k) by (apply pow_lt; lra). field. lra. Qed.
Lemma window_start h lo hi : sized h -> finite lo -> finite hi -> 0 <= f64R lo <= f64R hi -> f64R hi <= h -> window h 0 lo hi.
Proof.
  intros [S _] FL FH O B. repeat split; try assumption; try apply O. unfold width. cbn [pow]. pose proof u53_pos. pose proof (bpow_gt_0 radix2 (-100)). assert (0 <= u53 * h) by (apply Rmult_le_pos; lra). lra.
Qed.
Lemma window_middle h k lo hi : sized h -> window h k lo hi ->
  finite (middle64 lo hi) /\ f64R lo <= f64R (middle64 lo hi) <= f64R hi /\ window h (S k) lo (middle64 lo hi) /\ window h (S k) (middle64 lo hi) hi.
Proof.
  intros [S1 S2] (FL & FH & O & B & W). destruct (middle_ok lo hi h FL FH O B S1 S2) as (FM & OM & E). apply Rabs_le_inv in E. split; [exact FM|]. split; [exact OM|].
  split; (split; [assumption|]; split; [assumption|]; split; [lra|]; split; [lra|]; rewrite width_S; lra).
Qed.
(** The difference of the ends compared with a positive double. *)
Lemma window_test h k lo hi c : sized h -> window h k lo hi -> finite c ->
  (Bltb (fsub hi lo) c = true -> f64R hi - f64R lo < f64R c) /\ (width h k * (1 + u53) < f64R c -> Bltb (fsub hi lo) c = true).
Proof.
  intros [S1 S2] (FL & FH & O & B & W) FC. pose proof (bpow_gt_0 radix2 (-100)) as P.
  destruct (fsub_ok hi lo (2 ^ 52) FH FL ltac:(lia)) as [E F]; [rewrite Rabs_pos_eq by lra; lra|]. rewrite (Bltb_R _ _ F FC), E. split.
  - intros L. apply Rnot_le_lt. intros G. apply rnd_mono in G. rewrite (rnd_id _ (format64 c)) in G. lra.
  - intros L. assert (EO : f64R (Bopp lo) = - f64R lo) by (unfold f64R; apply B2R_Bopp). unfold Rminus. rewrite <- EO. destruct (rnd_plus hi (Bopp lo)) as (e & EE & ->). rewrite EO. apply Rabs_le_inv in EE. apply Rle_lt_trans with (2 := L). pose proof u53_pos. pose proof u53_eq.
    apply Rle_trans with ((f64R hi + - f64R lo) * (1 + u53)); [apply Rmult_le_compat_l; lra|apply Rmult_le_compat_r; lra].
Qed.

(** ** The literals *)
Lemma lit_value m e : (Z.abs m < 2 ^ 53)%Z -> (-100 <= e <= 0)%Z -> (Z.abs m <= 2 ^ (- e))%Z -> f64R (f64_lit m e) = IZR m / IZR (2 ^ (- e)) /\ finite (f64_lit m e).
Proof.
  intros M E B. assert (P : 0 < IZR (2 ^ (- e))) by (apply IZR_lt, Z.pow_pos_nonneg; lia). assert (BE : bpow radix2 e = / IZR (2 ^ (- e))) by (rewrite <- (Z.opp_involutive e) at 1; rewrite bpow_opp, <- IZR_Zpower by lia; reflexivity).
  assert (R1 : Rabs (IZR m * bpow radix2 e) <= 1). { rewrite BE, Rabs_mult, (Rabs_pos_eq (/ _)) by (left; apply Rinv_0_lt_compat, P). apply Rmult_le_reg_r with (IZR (2 ^ (- e))); [exact P|]. rewrite Rmult_assoc, Rinv_l, Rmult_1_r, Rmult_1_l by lra. rewrite <- abs_IZR. apply IZR_le, B. }
  destruct (lit_ok m e 1 M ltac:(lia) ltac:(lia) R1) as [V F]. split; [rewrite V, BE; reflexivity|exact F].
Qed.
Ltac lit_bounds m e := destruct (lit_value m e) as [V F]; [lia|lia|cbn; lia|]; split; [exact F|]; rewrite V; cbn [Z.opp Z.pow Z.pow_pos Pos.iter Z.mul Pos.mul]; cbn [pow]; lra.
Lemma lit_8_ok : finite lit_8 /\ 9 / 10 ^ 9 < f64R lit_8 < 11 / 10 ^ 9. Proof. unfold lit_8. lit_bounds 3022314549036573%Z (-78)%Z. Qed.
Lemma lit_12_ok : finite lit_12 /\ 99 / 10 ^ 14 < f64R lit_12 <= / 10 ^ 12. Proof. unfold lit_12. lit_bounds 4951760157141521%Z (-92)%Z. Qed.
Lemma lit_14_ok : finite lit_14 /\ 99 / 10 ^ 16 < f64R lit_14 <= / 10 ^ 14. Proof. unfold lit_14. lit_bounds 6338253001141147%Z (-99)%Z. Qed.
Lemma lit_10_ok : finite lit_10 /\ 99 / 10 ^ 12 < f64R lit_10 < 101 / 10 ^ 12. Proof. unfold lit_10. lit_bounds 7737125245533627%Z (-86)%Z. Qed.
Lemma lit_6_ok : finite lit_6 /\ 9 / 10 ^ 7 < f64R lit_6 < 11 / 10 ^ 7. Proof. unfold lit_6. lit_bounds 4722366482869645%Z (-72)%Z. Qed.
