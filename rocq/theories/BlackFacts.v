(** Proofs about the Black and Bachelier formulas. *)
From Coq Require Import Reals Lra Lia Ranalysis5.
From Coquelicot Require Import Coquelicot.
From Verif Require Import Normal NormalFacts BlackScholes.
Open Scope R_scope.

(** ** Black, as a function of the total deviation [s] *)
Definition dplus (F K s : R) : R := (ln (F / K) + s * s / 2) / s.
Definition bval (F K s : R) : R := F * cdf (dplus F K s) - K * cdf (dplus F K s - s).

Lemma call_bval F K sigma t D : 0 < sigma -> 0 < t ->
  bs_call_forward F K sigma t D = D * bval F K (sigma * sqrt t).
Proof.
  intros S T. unfold bs_call_forward. destruct (Rle_dec sigma 0); [lra|]. destruct (Rle_dec t 0); [lra|].
  cbv zeta. unfold bval, dplus.
  replace (sigma * sqrt t * (sigma * sqrt t) / 2) with (1 / 2 * sigma * sigma * t); [reflexivity|].
  rewrite <- (sqrt_sqrt t) at 1 by lra. field.
Qed.

Lemma parity F K sigma t D : bs_call_forward F K sigma t D - bs_put_forward F K sigma t D = D * (F - K).
Proof.
  assert (M : forall x, Rmax x 0 - Rmax (- x) 0 = x) by (intros x; unfold Rmax; destruct (Rle_dec x 0), (Rle_dec (- x) 0); lra).
  unfold bs_call_forward, bs_put_forward. destruct (Rle_dec sigma 0); [|destruct (Rle_dec t 0)].
  - pose proof (M (F - K)) as E. replace (- (F - K)) with (K - F) in E by ring. rewrite <- Rmult_minus_distr_l, E. reflexivity.
  - pose proof (M (F - K)) as E. replace (- (F - K)) with (K - F) in E by ring. rewrite <- Rmult_minus_distr_l, E. reflexivity.
  - cbv zeta. rewrite !cdf_opp. ring.
Qed.

Lemma pdf_shift d s : pdf (d - s) = pdf d * exp (d * s - s * s / 2).
Proof.
  unfold pdf, Rdiv. rewrite Rmult_assoc, (Rmult_comm (/ sqrt _)), <- Rmult_assoc, <- exp_plus. do 2 f_equal. field.
Qed.

Lemma black_key F K s : 0 < F -> 0 < K -> s <> 0 -> F * pdf (dplus F K s) = K * pdf (dplus F K s - s).
Proof.
  intros HF HK Hs. rewrite pdf_shift. unfold dplus at 3.
  replace ((ln (F / K) + s * s / 2) / s * s - s * s / 2) with (ln (F / K)) by (field; exact Hs).
  rewrite exp_ln by (apply Rdiv_lt_0_compat; assumption). field. lra.
Qed.

(** Derivatives. *)
Ltac derived D := symmetry; apply is_derive_unique, D.

Lemma derive_dplus_s F K s : s <> 0 -> is_derive (fun s => dplus F K s) s (1 / 2 - ln (F / K) / (s * s)).
Proof. intros Hs. unfold dplus. auto_derive; [exact Hs|]. field. exact Hs. Qed.

Lemma derive_dplus_F F K s : 0 < F -> 0 < K -> s <> 0 -> is_derive (fun F => dplus F K s) F (/ (F * s)).
Proof.
  intros HF HK Hs. unfold dplus. auto_derive; [repeat split; apply Rdiv_lt_0_compat; assumption|]. field. lra.
Qed.

Lemma derive_dplus_K F K s : 0 < F -> 0 < K -> s <> 0 -> is_derive (fun K => dplus F K s) K (- / (K * s)).
Proof.
  intros HF HK Hs. unfold dplus. auto_derive; [repeat split; try lra; apply Rdiv_lt_0_compat; assumption|]. field. lra.
Qed.

(** A derivative of [F cdf d - K cdf (d - s)] along a curve. *)
Lemma derive_black (F K d s : R -> R) (x F' K' d' s' : R) :
  is_derive F x F' -> is_derive K x K' -> is_derive d x d' -> is_derive s x s' ->
  F x * pdf (d x) = K x * pdf (d x - s x) ->
  is_derive (fun x => F x * cdf (d x) - K x * cdf (d x - s x)) x
    (F' * cdf (d x) - K' * cdf (d x - s x) + F x * pdf (d x) * s').
Proof.
  intros DF DK Dd Ds E. pose proof (is_derive_cdf (d x)) as C1. pose proof (is_derive_cdf (d x - s x)) as C2.
  evar_last.
  - apply (@is_derive_minus R_AbsRing R_NormedModule).
    + apply (is_derive_mult F (fun x => cdf (d x))); [exact DF| |intros; apply Rmult_comm].
      apply (is_derive_comp cdf d); [exact C1|exact Dd].
    + apply (is_derive_mult K (fun x => cdf (d x - s x))); [exact DK| |intros; apply Rmult_comm].
      apply (is_derive_comp cdf (fun x => d x - s x)); [exact C2|].
      apply (@is_derive_minus R_AbsRing R_NormedModule); [exact Dd|exact Ds].
  - unfold minus, plus, opp, scal, mult; cbn; unfold mult; cbn. 
    transitivity (F' * cdf (d x) - K' * cdf (d x - s x) + (F x * pdf (d x)) * d' - (K x * pdf (d x - s x)) * (d' - s')); [ring|].
    rewrite <- E. ring.
Qed.

Lemma derive_bval_s F K s : 0 < F -> 0 < K -> s <> 0 -> is_derive (fun s => bval F K s) s (F * pdf (dplus F K s)).
Proof.
  intros HF HK Hs. unfold bval. evar_last.
  - eapply (derive_black (fun _ => F) (fun _ => K) (fun s => dplus F K s) (fun s => s));
      [apply @is_derive_const|apply @is_derive_const|apply derive_dplus_s; exact Hs|apply @is_derive_id|apply black_key; assumption].
  - unfold one, zero; cbn. ring.
Qed.

Lemma derive_bval_F F K s : 0 < F -> 0 < K -> s <> 0 -> is_derive (fun F => bval F K s) F (cdf (dplus F K s)).
Proof.
  intros HF HK Hs. unfold bval. evar_last.
  - eapply (derive_black (fun F => F) (fun _ => K) (fun F => dplus F K s) (fun _ => s));
      [apply @is_derive_id|apply @is_derive_const|apply derive_dplus_F; assumption|apply @is_derive_const|apply black_key; assumption].
  - unfold one, zero; cbn. ring.
Qed.

Lemma derive_bval_K F K s : 0 < F -> 0 < K -> s <> 0 -> is_derive (fun K => bval F K s) K (- cdf (dplus F K s - s)).
Proof.
  intros HF HK Hs. unfold bval. evar_last.
  - eapply (derive_black (fun _ => F) (fun K => K) (fun K => dplus F K s) (fun _ => s));
      [apply @is_derive_const|apply @is_derive_id|apply derive_dplus_K; assumption|apply @is_derive_const|apply black_key; assumption].
  - unfold one, zero; cbn. ring.
Qed.

Lemma derive_delta F K s : 0 < F -> 0 < K -> s <> 0 ->
  is_derive (fun F => cdf (dplus F K s)) F (pdf (dplus F K s) / (F * s)).
Proof.
  intros HF HK Hs. evar_last.
  - apply (is_derive_comp cdf (fun F => dplus F K s)); [apply is_derive_cdf|apply derive_dplus_F; assumption].
  - unfold scal; cbn; unfold mult; cbn. field. lra.
Qed.

(** ** Bounds *)
Lemma bval_increasing F K a b : 0 < F -> 0 < K -> 0 < a -> a < b -> bval F K a < bval F K b.
Proof.
  intros HF HK Ha L. apply (increasing_of_derive (fun s => bval F K s) (fun s => F * pdf (dplus F K s)) a b L).
  - intros x X. apply derive_bval_s; lra.
  - intros x X. apply Rmult_lt_0_compat; [exact HF|apply pdf_pos].
Qed.

Lemma bval_pos F K s : 0 < F -> 0 < K -> 0 < s -> 0 < bval F K s.
Proof.
  intros HF HK Hs. unfold bval. set (d := dplus F K s).
  pose proof (black_key F K s HF HK ltac:(lra)) as E. fold d in E.
  pose proof (mills_ratio_decreasing (d - s) d ltac:(lra)) as M.
  pose proof (pdf_pos d). pose proof (pdf_pos (d - s)). pose proof (cdf_bounds d). pose proof (cdf_bounds (d - s)).
  assert (P : 0 < pdf (d - s) * (F * cdf d - K * cdf (d - s))) by nra.
  apply (Rmult_lt_reg_l (pdf (d - s))); [assumption|]. lra.
Qed.

(** The put: swap the roles of forward and strike. *)
Lemma bval_swap F K s : 0 < F -> 0 < K -> 0 < s -> bval F K s = F - K + bval K F s.
Proof.
  intros HF HK Hs. unfold bval.
  assert (E : dplus K F s = - (dplus F K s - s)).
  { unfold dplus. replace (F / K) with (/ (K / F)) by (field; lra). rewrite ln_Rinv by (apply Rdiv_lt_0_compat; assumption).
    field. lra. }
  rewrite E. replace (- (dplus F K s - s) - s) with (- dplus F K s) by ring. rewrite !cdf_opp. ring.
Qed.

Lemma bval_upper F K s : 0 < F -> 0 < K -> bval F K s < F.
Proof.
  intros HF HK. unfold bval. pose proof (cdf_bounds (dplus F K s)). pose proof (cdf_bounds (dplus F K s - s)). nra.
Qed.

Lemma bval_lower F K s : 0 < F -> 0 < K -> 0 < s -> Rmax (F - K) 0 < bval F K s.
Proof.
  intros HF HK Hs. pose proof (bval_pos F K s HF HK Hs). pose proof (bval_swap F K s HF HK Hs).
  pose proof (bval_pos K F s HK HF Hs). unfold Rmax. destruct (Rle_dec _ _); lra.
Qed.

(** ** Limits in the deviation, and the implied deviation *)
Lemma cdf_small eps : 0 < eps -> exists M, 0 < M /\ forall x, x <= - M -> cdf x < eps.
Proof.
  intros He. pose proof is_lim_cdf_m as L. apply is_lim_spec in L. destruct (L (mkposreal eps He)) as [M HM].
  exists (Rabs M + 1). split; [pose proof (Rabs_pos M); lra|]. intros x Hx.
  assert (x < M) by (pose proof (Rle_abs (- M)) as A; rewrite Rabs_Ropp in A; lra).
  specialize (HM x H). cbn in HM. rewrite Rminus_0_r in HM. apply Rabs_def2 in HM. lra.
Qed.

Lemma small_s F K eps : 0 < F -> F < K -> 0 < eps -> exists delta, 0 < delta /\ forall s, 0 < s -> s < delta -> bval F K s < eps.
Proof.
  intros HF HK He. destruct (cdf_small (eps / F)) as (M & HM & C); [apply Rdiv_lt_0_compat; assumption|].
  set (L := ln (F / K)).
  assert (HL : L < 0).
  { unfold L. rewrite <- ln_1. apply ln_increasing; [apply Rdiv_lt_0_compat; lra|].
    apply (Rmult_lt_reg_r K); [lra|]. unfold Rdiv. rewrite Rmult_assoc, Rinv_l; lra. }
  exists (Rmin 1 (- L / (M + 1))). split.
  - apply Rmin_glb_lt; [lra|]. apply Rdiv_lt_0_compat; lra.
  - intros s Hs Hd. assert (s < 1) by (pose proof (Rmin_l 1 (- L / (M + 1))); lra).
    assert (s < - L / (M + 1)) by (pose proof (Rmin_r 1 (- L / (M + 1))); lra).
    assert (D : dplus F K s <= - M).
    { unfold dplus. fold L. apply (Rmult_le_reg_r s); [exact Hs|]. unfold Rdiv at 1. rewrite Rmult_assoc, Rinv_l, Rmult_1_r by lra.
      assert (s * (M + 1) < - L).
      { apply (Rmult_lt_compat_r (M + 1)) in H0; [|lra]. unfold Rdiv in H0. rewrite Rmult_assoc, Rinv_l, Rmult_1_r in H0; lra. }
      nra. }
    specialize (C _ D). unfold bval. pose proof (cdf_bounds (dplus F K s - s)).
    apply (Rmult_lt_compat_l F) in C; [|exact HF]. replace (F * (eps / F)) with eps in C by (field; lra). nra.
Qed.

Lemma small_s_atm F eps : 0 < F -> 0 < eps -> exists delta, 0 < delta /\ forall s, 0 < s -> s < delta -> bval F F s < eps.
Proof.
  intros HF He.
  assert (C : continuity_pt cdf 0) by (apply derivable_continuous_pt; exists (pdf 0); apply is_derive_Reals, is_derive_cdf).
  destruct (C (eps / (2 * F))) as (delta & Hd & HC); [apply Rdiv_lt_0_compat; lra|].
  exists delta. split; [exact Hd|]. intros s Hs Hsd.
  assert (E : bval F F s = 2 * F * (cdf (s / 2) - cdf 0)).
  { unfold bval, dplus. replace (F / F) with 1 by (field; lra). rewrite ln_1.
    replace ((0 + s * s / 2) / s) with (s / 2) by (field; lra). replace (s / 2 - s) with (- (s / 2)) by field.
    rewrite cdf_opp, cdf_0. field. }
  rewrite E. specialize (HC (s / 2)). cbn in HC. unfold R_dist in HC.
  assert (B : Rabs (cdf (s / 2) - cdf 0) < eps / (2 * F)).
  { apply HC. split; [split; [exact I|lra]|]. rewrite Rminus_0_r, Rabs_pos_eq; lra. }
  apply Rabs_def2 in B. destruct B as [B _].
  apply (Rmult_lt_compat_l (2 * F)) in B; [|lra]. replace (2 * F * (eps / (2 * F))) with eps in B by (field; lra). exact B.
Qed.

Lemma bval_at_0 F K eps : 0 < F -> 0 < K -> 0 < eps ->
  exists delta, 0 < delta /\ forall s, 0 < s -> s < delta -> bval F K s < Rmax (F - K) 0 + eps.
Proof.
  intros HF HK He. destruct (Rtotal_order F K) as [L|[E|L]].
  - destruct (small_s F K eps HF L He) as (d & Hd & C). exists d. split; [exact Hd|]. intros s Hs Hsd.
    specialize (C s Hs Hsd). pose proof (Rmax_r (F - K) 0). lra.
  - subst K. destruct (small_s_atm F eps HF He) as (d & Hd & C). exists d. split; [exact Hd|]. intros s Hs Hsd.
    specialize (C s Hs Hsd). pose proof (Rmax_r (F - F) 0). lra.
  - destruct (small_s K F eps HK L He) as (d & Hd & C). exists d. split; [exact Hd|]. intros s Hs Hsd.
    specialize (C s Hs Hsd). rewrite (bval_swap F K s HF HK Hs). pose proof (Rmax_l (F - K) 0). lra.
Qed.

Lemma bval_at_infinity F K eps : 0 < F -> 0 < K -> 0 < eps ->
  exists M, 0 < M /\ forall s, M < s -> F - eps < bval F K s.
Proof.
  intros HF HK He. destruct (cdf_small (eps / (F + K))) as (M & HM & C); [apply Rdiv_lt_0_compat; lra|].
  set (L := ln (F / K)). exists (1 + 2 * (M + Rabs L)). pose proof (Rabs_pos L) as A0. split; [lra|]. intros s Hs.
  assert (Hs1 : 1 < s) by lra.
  assert (Ls : - Rabs L <= L / s <= Rabs L).
  { assert (Rabs (L / s) <= Rabs L).
    { unfold Rdiv. rewrite Rabs_mult, (Rabs_pos_eq (/ s)) by (left; apply Rinv_0_lt_compat; lra).
      rewrite <- (Rmult_1_r (Rabs L)) at 2. apply Rmult_le_compat_l; [exact A0|]. rewrite <- Rinv_1. apply Rinv_le_contravar; lra. }
    apply Rabs_le_between in H. exact H. }
  assert (Dp : dplus F K s = L / s + s / 2) by (unfold dplus; fold L; field; lra).
  pose proof (C (- dplus F K s) ltac:(lra)) as C1. pose proof (C (dplus F K s - s) ltac:(lra)) as C2.
  rewrite cdf_opp in C1. unfold bval.
  assert (F * (1 - cdf (dplus F K s)) + K * cdf (dplus F K s - s) < (F + K) * (eps / (F + K))).
  { apply (Rmult_lt_compat_l F) in C1; [|exact HF]. apply (Rmult_lt_compat_l K) in C2; [|exact HK]. lra. }
  replace ((F + K) * (eps / (F + K))) with eps in H by (field; lra). lra.
Qed.

Lemma bval_onto F K c : 0 < F -> 0 < K -> Rmax (F - K) 0 < c < F -> exists s, 0 < s /\ bval F K s = c.
Proof.
  intros HF HK [Hl Hu].
  destruct (bval_at_0 F K (c - Rmax (F - K) 0) HF HK ltac:(lra)) as (d & Hd & C0).
  destruct (bval_at_infinity F K (F - c) HF HK ltac:(lra)) as (M & HM & C1).
  set (a := Rmin (d / 2) 1). set (b := M + 2).
  assert (Ha : 0 < a < d) by (unfold a; split; [apply Rmin_glb_lt; lra|pose proof (Rmin_l (d / 2) 1); lra]).
  assert (Hab : a < b) by (unfold a, b; pose proof (Rmin_r (d / 2) 1); lra).
  specialize (C0 a ltac:(lra) ltac:(lra)). specialize (C1 b ltac:(unfold b; lra)).
  destruct (IVT_interv (fun s => bval F K s - c) a b) as (s & Hs & E); [|exact Hab|lra|lra|].
  - intros x X. apply derivable_continuous_pt. exists (F * pdf (dplus F K x)). apply is_derive_Reals.
    evar_last.
    + apply (@is_derive_minus R_AbsRing R_NormedModule); [apply derive_bval_s; [exact HF|exact HK|lra]|apply @is_derive_const].
    + unfold minus, plus, opp, zero; cbn. ring.
  - exists s. split; lra.
Qed.

(** ** The quoted formulas *)
Definition intrinsic_call (F K : R) : R := Rmax (F - K) 0.

Lemma sqrt_t_pos sigma t : 0 < sigma -> 0 < t -> 0 < sigma * sqrt t.
Proof. intros. apply Rmult_lt_0_compat; [assumption|]. apply sqrt_lt_R0; assumption. Qed.

Lemma put_bval F K sigma t D : 0 < F -> 0 < K -> 0 < sigma -> 0 < t ->
  bs_put_forward F K sigma t D = D * bval K F (sigma * sqrt t).
Proof.
  intros HF HK S T. pose proof (parity F K sigma t D) as P. rewrite call_bval in P by assumption.
  rewrite (bval_swap F K) in P by (try apply sqrt_t_pos; assumption). nra.
Qed.

Lemma call_intrinsic F K sigma t D : sigma <= 0 \/ t <= 0 -> bs_call_forward F K sigma t D = D * Rmax (F - K) 0.
Proof. unfold bs_call_forward. intros [H|H]; destruct (Rle_dec sigma 0), (Rle_dec t 0); try reflexivity; lra. Qed.
Lemma put_intrinsic F K sigma t D : sigma <= 0 \/ t <= 0 -> bs_put_forward F K sigma t D = D * Rmax (K - F) 0.
Proof. unfold bs_put_forward. intros [H|H]; destruct (Rle_dec sigma 0), (Rle_dec t 0); try reflexivity; lra. Qed.

Lemma pricer_strict F K t D call a b : 0 < F -> 0 < K -> 0 < t -> 0 < D -> 0 < a -> a < b ->
  (if call : bool then bs_call_forward F K a t D else bs_put_forward F K a t D)
  < (if call then bs_call_forward F K b t D else bs_put_forward F K b t D).
Proof.
  intros HF HK HT HD Ha Hab. assert (E : a * sqrt t < b * sqrt t) by (apply Rmult_lt_compat_r; [apply sqrt_lt_R0|]; assumption).
  pose proof (sqrt_t_pos a t Ha HT). destruct call.
  - rewrite !call_bval by lra. apply Rmult_lt_compat_l; [exact HD|]. apply bval_increasing; assumption.
  - rewrite !put_bval by lra. apply Rmult_lt_compat_l; [exact HD|]. apply bval_increasing; assumption.
Qed.

(** ** Bisection *)
Lemma bisect_spec pricer target tol n : forall lo hi,
  lo <= hi -> hi - lo < 2 ^ n * / 10 ^ 12 ->
  let r := bisect n pricer target tol lo hi in
  lo <= r <= hi /\
  (Rabs (pricer r - target) < tol \/
   exists a b, lo <= a <= r /\ r <= b <= hi /\ b - a < / 10 ^ 12 /\
     (a = lo \/ pricer a < target) /\ (b = hi \/ target <= pricer b) /\ r = (a + b) / 2).
Proof.
  induction n as [|n IH]; intros lo hi L W; cbn [bisect].
  - split; [lra|]. right. exists lo, hi. rewrite Rmult_1_l in W. repeat (split; [lra || (left; reflexivity)|]). lra.
  - set (mid := 1 / 2 * (lo + hi)). assert (M : lo <= mid <= hi) by (unfold mid; lra). cbv zeta.
    destruct (Rlt_dec (hi - lo) (/ 10 ^ 12)) as [C|C].
    + split; [exact M|]. right. exists lo, hi. repeat (split; [lra || (left; reflexivity)|]). unfold mid. lra.
    + destruct (Rlt_dec (Rabs (pricer mid - target)) tol) as [P|P]; [split; [exact M|left; exact P]|].
      destruct (Rlt_dec (pricer mid) target) as [Q|Q].
      * destruct (IH mid hi) as [B D]; [lra|cbn [pow] in W; unfold mid; lra|]. split; [lra|].
        destruct D as [D|(a & b & Ha & Hb & Hw & Ca & Cb & Hr)]; [left; exact D|right].
        exists a, b. split; [lra|]. split; [lra|]. split; [exact Hw|]. split; [|split; assumption].
        destruct Ca as [->|Ca]; right; assumption.
      * destruct (IH lo mid) as [B D]; [lra|cbn [pow] in W; unfold mid; lra|]. split; [lra|].
        destruct D as [D|(a & b & Ha & Hb & Hw & Ca & Cb & Hr)]; [left; exact D|right].
        exists a, b. split; [lra|]. split; [lra|]. split; [exact Hw|]. split; [exact Ca|]. split; [|exact Hr].
        destruct Cb as [->|Cb]; right; [lra|exact Cb].
Qed.

Lemma window_200 : 5 - / 10 ^ 8 < 2 ^ 200 * / 10 ^ 12.
Proof.
  rewrite !pow_IZR. replace (IZR (Z.of_nat 10)) with 10 by reflexivity.
  assert (0 < / IZR (10 ^ Z.of_nat 8)) by (apply Rinv_0_lt_compat, IZR_lt; reflexivity).
  assert (5 < IZR (2 ^ Z.of_nat 200) * / IZR (10 ^ Z.of_nat 12)); [|lra].
  apply (Rmult_lt_reg_r (IZR (10 ^ Z.of_nat 12))); [apply IZR_lt; reflexivity|].
  rewrite Rmult_assoc, Rinv_l, Rmult_1_r by (apply not_0_IZR; discriminate).
  rewrite <- mult_IZR. apply IZR_lt. reflexivity.
Qed.

(** ** Bachelier *)
Lemma bcall F K V : 0 < V -> bachelier_call F K V = sqrt V * nval ((F - K) / sqrt V).
Proof.
  intros HV. unfold bachelier_call. destruct (Rle_dec V 0); [lra|]. cbv zeta. unfold nval.
  pose proof (sqrt_lt_R0 V HV). generalize (cdf ((F - K) / sqrt V)), (pdf ((F - K) / sqrt V)). intros. field. lra.
Qed.

Lemma bparity F K V : bachelier_call F K V - bachelier_put F K V = F - K.
Proof.
  unfold bachelier_call, bachelier_put. destruct (Rle_dec V 0).
  - unfold Rmax. destruct (Rle_dec (F - K) 0), (Rle_dec (K - F) 0); lra.
  - cbv zeta. rewrite cdf_opp. ring.
Qed.

Lemma bcall_pos F K V : 0 < V -> 0 < bachelier_call F K V.
Proof. intros HV. rewrite bcall by exact HV. apply Rmult_lt_0_compat; [apply sqrt_lt_R0, HV|apply nval_pos]. Qed.

Lemma bcall_above F K V : 0 < V -> F - K < bachelier_call F K V.
Proof.
  intros HV. rewrite bcall by exact HV. pose proof (sqrt_lt_R0 V HV) as S. pose proof (nval_above ((F - K) / sqrt V)) as A.
  apply (Rmult_lt_compat_l (sqrt V)) in A; [|exact S].
  replace (sqrt V * ((F - K) / sqrt V)) with (F - K) in A by (field; lra). exact A.
Qed.

Lemma bcall_locally F K V : 0 < V -> locally V (fun W => bachelier_call F K W = sqrt W * nval ((F - K) / sqrt W)).
Proof.
  intros HV. exists (mkposreal V HV). intros W HW. apply bcall.
  change (Rabs (W - V) < V) in HW. apply Rabs_def2 in HW. lra.
Qed.

Lemma derive_bcall_V F K V : 0 < V ->
  is_derive (fun V => bachelier_call F K V) V (bachelier_vega_variance F K V).
Proof.
  intros HV. pose proof (sqrt_lt_R0 V HV) as S.
  apply (is_derive_ext_loc (fun W => sqrt W * nval ((F - K) / sqrt W))).
  { destruct (bcall_locally F K V HV) as [e E]. exists e. intros W B. symmetry. exact (E W B). }
  pose proof (is_derive_nval ((F - K) / sqrt V)) as D1.
  evar_last.
  - apply (is_derive_mult sqrt (fun W => nval ((F - K) / sqrt W))); [apply is_derive_Reals, derivable_pt_lim_sqrt, HV| |intros; apply Rmult_comm].
    apply (is_derive_comp nval (fun W => (F - K) / sqrt W)); [exact D1|].
    instantiate (1 := - (F - K) / (2 * V * sqrt V)).
    auto_derive; [split; [exact HV|split; [lra|exact I]]|].
    pose proof (sqrt_sqrt V ltac:(lra)) as EV. remember (sqrt V) as q. rewrite <- EV. field. lra.
  - unfold plus, scal, mult; cbn; unfold mult; cbn. unfold bachelier_vega_variance. destruct (Rle_dec V 0); [lra|]. cbv zeta.
    unfold nval. pose proof (sqrt_sqrt V ltac:(lra)) as EV.
    generalize (cdf ((F - K) / sqrt V)), (pdf ((F - K) / sqrt V)). intros u v. remember (sqrt V) as q. rewrite <- EV. field. lra.
Qed.

Lemma derive_bcall_F F K V : 0 < V -> is_derive (fun F => bachelier_call F K V) F (cdf ((F - K) / sqrt V)).
Proof.
  intros HV. pose proof (sqrt_lt_R0 V HV) as S.
  apply (is_derive_ext (fun G => sqrt V * nval ((G - K) / sqrt V))).
  { intros G. symmetry. apply bcall, HV. }
  pose proof (is_derive_nval ((F - K) / sqrt V)) as D1.
  evar_last.
  - apply (is_derive_scal (fun G => nval ((G - K) / sqrt V))).
    apply (is_derive_comp nval (fun G => (G - K) / sqrt V)); [exact D1|].
    instantiate (1 := / sqrt V). auto_derive; [exact I|]. field. lra.
  - unfold scal, mult; cbn; unfold mult; cbn. field. lra.
Qed.

(** ** Prices as expectations *)
Notation minf := (Rbar_locally m_infty).
Notation pinf := (Rbar_locally p_infty).

Lemma integral_up (f g A : R -> R) (z0 L : R) :
  (forall z, z <= z0 -> f z = 0) -> (forall z, z0 <= z -> f z = g z) ->
  (forall z, is_derive A z (g z)) -> (forall z, continuous g z) -> is_lim A p_infty L ->
  is_RInt_gen f minf pinf (L - A z0).
Proof.
  intros Z P D C Lim. replace (L - A z0) with (plus 0 (L - A z0)) by (unfold plus; cbn; ring).
  apply (is_RInt_gen_Chasles f z0).
  - unfold is_RInt_gen. apply (filterlimi_lim_ext_loc (fun _ => 0)).
    + exists (fun a => a < z0) (fun b => b = z0); [exists z0; intros; assumption|reflexivity|].
      intros a b Ha ->. cbn [fst snd].
      apply (is_RInt_ext (fun _ => 0)).
      { intros x X. rewrite Rmin_left, Rmax_right in X by lra. symmetry. apply Z. lra. }
      evar_last; [apply (@is_RInt_const R_NormedModule)|unfold scal; cbn; unfold mult; cbn; ring].
    + apply filterlim_const.
  - unfold is_RInt_gen. apply (filterlimi_lim_ext_loc (fun ab => A (snd ab) - A z0)).
    + exists (fun a => a = z0) (fun b => z0 < b); [reflexivity|exists z0; intros; assumption|].
      intros a b -> Hb. cbn [fst snd].
      apply (is_RInt_ext g).
      { intros x X. rewrite Rmin_left, Rmax_right in X by lra. symmetry. apply P. lra. }
      apply (is_RInt_derive A g); intros; [apply D|apply C].
    + apply (filterlim_comp _ _ _ snd (fun b => A b - A z0) _ pinf).
      * apply filterlim_snd.
      * apply (is_lim_minus' A (fun _ => A z0) p_infty L (A z0)); [exact Lim|apply is_lim_const].
Qed.

Lemma integral_down (f g A : R -> R) (z0 L : R) :
  (forall z, z0 <= z -> f z = 0) -> (forall z, z <= z0 -> f z = g z) ->
  (forall z, is_derive A z (g z)) -> (forall z, continuous g z) -> is_lim A m_infty L ->
  is_RInt_gen f minf pinf (A z0 - L).
Proof.
  intros Z P D C Lim. replace (A z0 - L) with (plus (A z0 - L) 0) by (unfold plus; cbn; ring).
  apply (is_RInt_gen_Chasles f z0).
  - unfold is_RInt_gen. apply (filterlimi_lim_ext_loc (fun ab => A z0 - A (fst ab))).
    + exists (fun a => a < z0) (fun b => b = z0); [exists z0; intros; assumption|reflexivity|].
      intros a b Ha ->. cbn [fst snd].
      apply (is_RInt_ext g).
      { intros x X. rewrite Rmin_left, Rmax_right in X by lra. symmetry. apply P. lra. }
      apply (is_RInt_derive A g); intros; [apply D|apply C].
    + apply (filterlim_comp _ _ _ fst (fun a => A z0 - A a) _ minf).
      * apply filterlim_fst.
      * apply (is_lim_minus' (fun _ => A z0) A m_infty (A z0) L); [apply is_lim_const|exact Lim].
  - unfold is_RInt_gen. apply (filterlimi_lim_ext_loc (fun _ => 0)).
    + exists (fun a => a = z0) (fun b => z0 < b); [reflexivity|exists z0; intros; assumption|].
      intros a b -> Hb. cbn [fst snd].
      apply (is_RInt_ext (fun _ => 0)).
      { intros x X. rewrite Rmin_left, Rmax_right in X by lra. symmetry. apply Z. lra. }
      evar_last; [apply (@is_RInt_const R_NormedModule)|unfold scal; cbn; unfold mult; cbn; ring].
    + apply filterlim_const.
Qed.

Lemma lim_shift (s : R) : is_lim (fun z => cdf (z - s)) p_infty 1 /\ is_lim (fun z => cdf (z - s)) m_infty 0.
Proof.
  split.
  - apply is_lim_spec. intros eps. pose proof is_lim_cdf_p as L. apply is_lim_spec in L. destruct (L eps) as [M HM].
    exists (M + s). intros z Hz. apply HM. lra.
  - apply is_lim_spec. intros eps. pose proof is_lim_cdf_m as L. apply is_lim_spec in L. destruct (L eps) as [M HM].
    exists (M + s). intros z Hz. apply HM. lra.
Qed.

(** The terminal value, and the antiderivative of its excess over the strike. *)
Definition terminal (F s z : R) : R := F * exp (s * z - s * s / 2).
Definition anti (F K s z : R) : R := F * cdf (z - s) - K * cdf z.

Lemma derive_anti F K s z : is_derive (fun z => anti F K s z) z ((terminal F s z - K) * pdf z).
Proof.
  unfold anti, terminal. evar_last.
  - apply (@is_derive_minus R_AbsRing R_NormedModule).
    + apply (is_derive_scal (fun z => cdf (z - s))). apply (is_derive_comp cdf (fun z => z - s)); [apply is_derive_cdf|].
      instantiate (1 := 1). auto_derive; [exact I|ring].
    + apply (is_derive_scal cdf). apply is_derive_cdf.
  - unfold minus, plus, opp, scal, mult; cbn; unfold mult; cbn. rewrite pdf_shift.
    replace (z * s - s * s / 2) with (s * z - s * s / 2) by ring. ring.
Qed.

Lemma continuous_integrand F K s z : continuous (fun z => (terminal F s z - K) * pdf z) z.
Proof.
  apply (@ex_derive_continuous R_AbsRing R_NormedModule). pose proof (is_derive_pdf z). unfold terminal.
  auto_derive. repeat split; first [eexists; eassumption|exact I].
Qed.

Lemma terminal_strike F K s z : 0 < F -> 0 < K -> 0 < s ->
  (z <= - (dplus F K s - s) <-> terminal F s z <= K) /\ (- (dplus F K s - s) <= z <-> K <= terminal F s z).
Proof.
  intros HF HK Hs. unfold terminal.
  assert (E : K = F * exp (- ln (F / K))).
  { rewrite exp_Ropp, exp_ln by (apply Rdiv_lt_0_compat; assumption). field. lra. }
  assert (Q : s * z - s * s / 2 - - ln (F / K) = s * (z - - (dplus F K s - s))) by (unfold dplus; field; lra).
  assert (MI : forall a b, a <= b <-> F * exp a <= F * exp b).
  { intros a b. split; intros H.
    - apply Rmult_le_compat_l; [lra|]. destruct H as [H| ->]; [left; apply exp_increasing, H|lra].
    - apply Rmult_le_reg_l in H; [|exact HF]. destruct (Rle_dec a b) as [L|L]; [exact L|].
      pose proof (exp_increasing b a ltac:(lra)). lra. }
  rewrite E at 2 4. rewrite <- !MI. split; split; intros; nra.
Qed.

Lemma Rmax_pos x : 0 <= x -> Rmax x 0 = x.
Proof. intros. apply Rmax_left. assumption. Qed.
Lemma Rmax_neg x : x <= 0 -> Rmax x 0 = 0.
Proof. intros. apply Rmax_right. assumption. Qed.

Lemma bval_expectation F K s : 0 < F -> 0 < K -> 0 < s ->
  is_RInt_gen (fun z => Rmax (terminal F s z - K) 0 * pdf z) minf pinf (bval F K s).
Proof.
  intros HF HK Hs. pose proof (terminal_strike F K s) as T.
  replace (bval F K s) with (F - K - anti F K s (- (dplus F K s - s))).
  - apply (integral_up _ (fun z => (terminal F s z - K) * pdf z) (anti F K s)).
    + intros z Hz. destruct (T z HF HK Hs) as [T1 _]. apply T1 in Hz. rewrite Rmax_neg by lra. ring.
    + intros z Hz. destruct (T z HF HK Hs) as [_ T2]. apply T2 in Hz. rewrite Rmax_pos by lra. reflexivity.
    + intros z. apply derive_anti.
    + intros z. apply continuous_integrand.
    + unfold anti. replace (F - K) with (F * 1 - K * 1) by ring.
      apply (is_lim_minus' (fun z => F * cdf (z - s)) (fun z => K * cdf z)).
      * apply (is_lim_scal_l (fun z => cdf (z - s)) F p_infty 1), lim_shift.
      * apply (is_lim_scal_l cdf K p_infty 1), is_lim_cdf_p.
  - unfold anti, bval. replace (- (dplus F K s - s) - s) with (- dplus F K s) by ring. rewrite !cdf_opp. ring.
Qed.

Lemma bval_expectation_put F K s : 0 < F -> 0 < K -> 0 < s ->
  is_RInt_gen (fun z => Rmax (K - terminal F s z) 0 * pdf z) minf pinf (bval K F s).
Proof.
  intros HF HK Hs. pose proof (terminal_strike F K s) as T.
  replace (bval K F s) with (- anti F K s (- (dplus F K s - s)) - 0).
  - apply (integral_down _ (fun z => - ((terminal F s z - K) * pdf z)) (fun z => - anti F K s z)).
    + intros z Hz. destruct (T z HF HK Hs) as [_ T2]. apply T2 in Hz. rewrite Rmax_neg by lra. ring.
    + intros z Hz. destruct (T z HF HK Hs) as [T1 _]. apply T1 in Hz. rewrite Rmax_pos by lra. ring.
    + intros z. apply (@is_derive_opp R_AbsRing R_NormedModule). apply derive_anti.
    + intros z. apply (@continuous_opp _ R_AbsRing R_NormedModule), continuous_integrand.
    + replace (Finite 0) with (Rbar_opp (Finite 0)) by (cbn; f_equal; ring). apply is_lim_opp.
      unfold anti. replace 0 with (F * 0 - K * 0) by ring.
      apply (is_lim_minus' (fun z => F * cdf (z - s)) (fun z => K * cdf z)).
      * apply (is_lim_scal_l (fun z => cdf (z - s)) F m_infty 0), lim_shift.
      * apply (is_lim_scal_l cdf K m_infty 0), is_lim_cdf_m.
  - pose proof (bval_swap F K s HF HK Hs) as W. unfold anti. unfold bval at 1 in W.
    replace (- (dplus F K s - s) - s) with (- dplus F K s) by ring. rewrite !cdf_opp. lra.
Qed.

Lemma pdf_tail z : 1 <= Rabs z -> pdf z <= 2 / Rabs z.
Proof.
  intros Hz. pose proof (exp_sq_le (Rabs z) Hz) as E. replace (Rabs z * Rabs z) with (z * z) in E.
  2: { unfold Rabs. destruct (Rcase_abs z); ring. }
  assert (1 <= sqrt (2 * PI)).
  { rewrite <- sqrt_1 at 1. apply sqrt_le_1_alt. pose proof PI2_1. lra. }
  unfold pdf. apply Rle_trans with (exp (- (z * z) / 2)); [|exact E].
  pose proof (exp_pos (- (z * z) / 2)). unfold Rdiv at 1. rewrite <- (Rmult_1_r (exp (- (z * z) / 2))) at 2.
  apply Rmult_le_compat_l; [lra|]. rewrite <- Rinv_1. apply Rinv_le_contravar; lra.
Qed.

Lemma pdf_small eps : 0 < eps -> forall z, 1 + 2 / eps < Rabs z -> Rabs (pdf z - 0) < eps.
Proof.
  intros He z Hz. assert (0 < 2 / eps) by (apply Rdiv_lt_0_compat; lra).
  pose proof (pdf_tail z ltac:(lra)) as T. pose proof (pdf_pos z). rewrite Rminus_0_r, Rabs_pos_eq by lra.
  apply Rle_lt_trans with (1 := T). apply (Rmult_lt_reg_r (Rabs z)); [lra|].
  unfold Rdiv. rewrite Rmult_assoc, Rinv_l, Rmult_1_r by lra.
  apply (Rmult_lt_compat_l eps) in Hz; [|exact He]. replace (eps * (1 + 2 / eps)) with (eps + 2) in Hz by (field; lra). lra.
Qed.

Lemma lim_pdf : is_lim pdf p_infty 0 /\ is_lim pdf m_infty 0.
Proof.
  split; apply is_lim_spec; intros eps.
  - exists (1 + 2 / eps). intros z Hz. apply pdf_small; [apply cond_pos|]. pose proof (Rle_abs z). lra.
  - exists (- (1 + 2 / eps)). intros z Hz. apply pdf_small; [apply cond_pos|]. pose proof (Rle_abs (- z)) as A.
    rewrite Rabs_Ropp in A. lra.
Qed.

Definition nanti (m q z : R) : R := m * cdf z - q * pdf z.
Lemma derive_nanti m q z : is_derive (fun z => nanti m q z) z ((m + q * z) * pdf z).
Proof.
  unfold nanti. evar_last.
  - apply (@is_derive_minus R_AbsRing R_NormedModule).
    + apply (is_derive_scal cdf). apply is_derive_cdf.
    + apply (is_derive_scal pdf). apply is_derive_pdf.
  - unfold minus, plus, opp, scal, mult; cbn; unfold mult; cbn. ring.
Qed.
Lemma continuous_nintegrand m q z : continuous (fun z => (m + q * z) * pdf z) z.
Proof.
  apply (@ex_derive_continuous R_AbsRing R_NormedModule). pose proof (is_derive_pdf z).
  auto_derive. repeat split; first [eexists; eassumption|exact I].
Qed.
Lemma lim_nanti m q : is_lim (nanti m q) p_infty m /\ is_lim (nanti m q) m_infty 0.
Proof.
  split; unfold nanti.
  - evar_last; [apply (is_lim_minus' (fun z => m * cdf z) (fun z => q * pdf z))|].
    + apply (is_lim_scal_l cdf m p_infty 1), is_lim_cdf_p.
    + apply (is_lim_scal_l pdf q p_infty 0), lim_pdf.
    + f_equal. ring.
  - evar_last; [apply (is_lim_minus' (fun z => m * cdf z) (fun z => q * pdf z))|].
    + apply (is_lim_scal_l cdf m m_infty 0), is_lim_cdf_m.
    + apply (is_lim_scal_l pdf q m_infty 0), lim_pdf.
    + f_equal. ring.
Qed.

Lemma bcall_expectation F K V : 0 < V ->
  is_RInt_gen (fun z => Rmax (F + sqrt V * z - K) 0 * pdf z) minf pinf (bachelier_call F K V).
Proof.
  intros HV. pose proof (sqrt_lt_R0 V HV) as S. set (q := sqrt V) in *. set (d := (F - K) / q).
  assert (Ed : F - K = q * d) by (unfold d; field; lra).
  replace (bachelier_call F K V) with (F - K - nanti (F - K) q (- d)).
  - apply (integral_up _ (fun z => (F - K + q * z) * pdf z) (nanti (F - K) q)).
    + intros z Hz. rewrite Rmax_neg by nra. ring.
    + intros z Hz. rewrite Rmax_pos by nra. ring.
    + intros z. apply derive_nanti.
    + intros z. apply continuous_nintegrand.
    + apply lim_nanti.
  - unfold bachelier_call, nanti. destruct (Rle_dec V 0); [lra|]. cbv zeta. fold q. fold d. rewrite cdf_opp, pdf_even. ring.
Qed.

Lemma bput_expectation F K V : 0 < V ->
  is_RInt_gen (fun z => Rmax (K - (F + sqrt V * z)) 0 * pdf z) minf pinf (bachelier_put F K V).
Proof.
  intros HV. pose proof (sqrt_lt_R0 V HV) as S. set (q := sqrt V) in *. set (d := (F - K) / q).
  assert (Ed : F - K = q * d) by (unfold d; field; lra).
  replace (bachelier_put F K V) with (nanti (K - F) (- q) (- d) - 0).
  - apply (integral_down _ (fun z => (K - F + - q * z) * pdf z) (nanti (K - F) (- q))).
    + intros z Hz. rewrite Rmax_neg by nra. ring.
    + intros z Hz. rewrite Rmax_pos by nra. ring.
    + intros z. apply derive_nanti.
    + intros z. apply continuous_nintegrand.
    + apply lim_nanti.
  - unfold bachelier_put, nanti. destruct (Rle_dec V 0); [lra|]. cbv zeta. fold q. fold d. rewrite pdf_even. ring.
Qed.
