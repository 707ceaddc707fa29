(** C98: the bisections in binary64. *)
From Coq Require Import Bool List Arith ZArith Reals Lra Lia Psatz.
Import ListNotations.
From Flocq Require Import Core BinarySingleNaN.
From Verif Require Import Outcome F64 Clock64 Clock64Facts Chol64 Chol64Facts Bisect64 Bisect64Facts.
Open Scope R_scope.

Definition five64 : f64 := f64_of_Z 5.
Lemma five_ok : f64R five64 = 5 /\ finite five64. Proof. exact (f64_of_Z_ok 5 ltac:(lia)). Qed.
Lemma bpow_100 : bpow radix2 (-100) <= / 2 ^ 10. Proof. apply Rle_trans with (bpow radix2 (-10)); [apply bpow_le; lia|]. change (bpow radix2 (-10)) with (/ 1024). cbn [pow]; lra. Qed.
Lemma sized_5 : sized 5. Proof. pose proof bpow_100. split; [cbn [pow] in *; lra|apply IZR_le; lia]. Qed.
Lemma start_5 : window 5 0 lit_8 five64.
Proof. destruct five_ok as [E F]. destruct lit_8_ok as [F8 B]. apply window_start; [apply sized_5|exact F8|exact F|rewrite E; cbn [pow] in B; lra|rewrite E; lra]. Qed.
Lemma test_43 lo hi : window 5 43 lo hi -> Bltb (fsub hi lo) lit_12 = true.
Proof.
  intros W. destruct lit_12_ok as [F B]. apply (window_test 5 43 lo hi lit_12 sized_5 W F). unfold width. pose proof u53_eq. pose proof u53_pos. cbn [pow] in *. nra.
Qed.

(* what the loop has established when it stops *)
Definition stopped (pricer : f64 -> f64) (target tol v : f64) : Prop :=
  finite v /\ f64R lit_8 <= f64R v <= 5 /\
  (Bltb (Babs (fsub (pricer v) target)) tol = true \/
   exists lo hi, finite lo /\ finite hi /\ f64R lit_8 <= f64R lo <= f64R v /\ f64R v <= f64R hi <= 5 /\ f64R hi - f64R lo < / 10 ^ 12 /\
     (lo = lit_8 \/ Bltb (pricer lo) target = true) /\ (hi = five64 \/ Bltb (pricer hi) target = false)).
Lemma loop_stops pricer target tol n : forall k lo hi, window 5 k lo hi -> (k <= 43)%nat -> (44 <= n + k)%nat -> f64R lit_8 <= f64R lo ->
  (lo = lit_8 \/ Bltb (pricer lo) target = true) -> (hi = five64 \/ Bltb (pricer hi) target = false) -> stopped pricer target tol (implied_loop64 n pricer target tol lo hi).
Proof.
  induction n as [|n IH]; intros k lo hi W K N L8 SL SH; [lia|]. destruct (window_middle 5 k lo hi sized_5 W) as (FM & OM & WL & WH). pose proof W as (FL & FH & O & B & _). cbn [implied_loop64]. set (mid := middle64 lo hi) in *.
  destruct (Bltb (fsub hi lo) lit_12) eqn:T.
  - split; [exact FM|]. split; [lra|]. right. exists lo, hi. destruct lit_12_ok as [F12 B12]. pose proof (proj1 (window_test 5 k lo hi lit_12 sized_5 W F12) T) as X. split; [exact FL|]. split; [exact FH|]. split; [lra|]. split; [lra|]. split; [lra|]. split; assumption.
  - assert (K43 : k <> 43%nat) by (intros ->; rewrite (test_43 _ _ W) in T; discriminate). unfold fabs. destruct (Bltb (Babs (fsub (pricer mid) target)) tol) eqn:TT.
    + split; [exact FM|]. split; [lra|]. left. exact TT.
    + destruct (Bltb (pricer mid) target) eqn:P.
      * apply (IH (S k)); [exact WH|lia|lia|lra|right; exact P|exact SH].
      * apply (IH (S k)); [exact WL|lia|lia|exact L8|exact SL|right; exact P].
Qed.

(** An implied volatility lies between 1e-8 and 5, and either its price is within the tolerance or it is
    between two volatilities less than 1e-12 apart, the lower too cheap (or 1e-8) and the upper not (or 5). *)
Theorem C98_implied : forall pricer target tol v, implied64 pricer target tol = Some v ->
  finite v /\ f64R lit_8 <= f64R v <= 5 /\
  (Bltb (Babs (fsub (pricer v) target)) tol = true \/
   exists lo hi, finite lo /\ finite hi /\ f64R lit_8 <= f64R lo <= f64R v /\ f64R v <= f64R hi <= 5 /\ f64R hi - f64R lo < / 10 ^ 12 /\
     (lo = lit_8 \/ Bltb (pricer lo) target = true) /\ (hi = five64 \/ Bltb (pricer hi) target = false)).
Proof.
  intros pricer target tol v H. unfold implied64 in H. destruct (_ || _); [discriminate|]. assert (E : implied_loop64 200 pricer target tol lit_8 five64 = v) by (unfold five64; congruence). rewrite <- E. apply (loop_stops pricer target tol 200 0); [exact start_5|lia|lia|lra|left; reflexivity|left; reflexivity].
Qed.
Print Assumptions C98_implied.

(** The loop never needs more than 44 of its 200 iterations. *)
Theorem C98_iterations : forall n pricer target tol, (44 <= n)%nat ->
  implied_loop64 n pricer target tol lit_8 five64 = implied_loop64 44 pricer target tol lit_8 five64.
Proof.
  intros n0 pricer target tol N0. assert (G : forall n n' k lo hi, window 5 k lo hi -> (k <= 43)%nat -> (44 <= n + k)%nat -> (44 <= n' + k)%nat -> implied_loop64 n pricer target tol lo hi = implied_loop64 n' pricer target tol lo hi).
  { induction n as [|n IH]; intros [|n'] k lo hi W K N N'; try lia. destruct (window_middle 5 k lo hi sized_5 W) as (FM & OM & WL & WH). cbn [implied_loop64].
    destruct (Bltb (fsub hi lo) lit_12) eqn:T; [reflexivity|]. assert (K43 : k <> 43%nat) by (intros ->; rewrite (test_43 _ _ W) in T; discriminate). destruct (Bltb (fabs _) tol); [reflexivity|].
    destruct (Bltb (pricer _) target); apply (IH n' (S k)); try assumption; lia. }
  apply (G n0 44%nat 0%nat); [exact start_5|lia|lia|lia].
Qed.
Print Assumptions C98_iterations.

Lemma abs_sub_lt x y tol : finite x -> finite y -> finite tol -> Rabs (f64R x) <= IZR (2 ^ 51) -> Rabs (f64R y) <= IZR (2 ^ 51) ->
  Bltb (Babs (fsub x y)) tol = true -> Rabs (f64R x - f64R y) < f64R tol.
Proof.
  intros FX FY FT BX BY H. assert (P : IZR (2 ^ 52) = 2 * IZR (2 ^ 51)) by (change (2 ^ 52)%Z with (2 * 2 ^ 51)%Z; apply mult_IZR). destruct (fsub_ok x y (2 ^ 52) FX FY ltac:(lia)) as [E F]; [apply Rabs_le_inv in BX, BY; apply Rabs_le; lra|].
  assert (FA : finite (Babs (fsub x y))) by (unfold finite in *; rewrite is_finite_Babs; exact F). apply (Bltb_R _ _ FA FT) in H. unfold f64R in H at 1. rewrite B2R_Babs in H. fold (f64R (fsub x y)) in H. rewrite E in H. apply Rnot_le_lt. intros G. apply rnd_mono in G. rewrite (rnd_id _ (format64 tol)) in G.
  assert (A : Rabs (rnd (f64R x - f64R y)) = rnd (Rabs (f64R x - f64R y))). { unfold rnd. symmetry. apply round_NE_abs. typeclasses eauto. } lra.
Qed.

(** For a non-decreasing pricing function the price of any volatility in the bracket is inverted: the answer
    has a price within the tolerance, or is within 1e-12 of a volatility with exactly that price. *)
Theorem C98_inverse : forall (pricer : f64 -> f64) sigma tol,
  (forall x, finite x -> f64R lit_8 <= f64R x <= 5 -> finite (pricer x) /\ Rabs (f64R (pricer x)) <= IZR (2 ^ 51)) ->
  (forall x y, finite x -> finite y -> f64R lit_8 <= f64R x -> f64R x <= f64R y -> f64R y <= 5 -> f64R (pricer x) <= f64R (pricer y)) ->
  finite sigma -> f64R lit_8 <= f64R sigma <= 5 -> finite tol -> 0 <= f64R tol <= IZR (2 ^ 51) ->
  exists v, implied64 pricer (pricer sigma) tol = Some v /\
    (Rabs (f64R (pricer v) - f64R (pricer sigma)) < f64R tol \/
     exists s, finite s /\ f64R lit_8 <= f64R s <= 5 /\ f64R (pricer s) = f64R (pricer sigma) /\ Rabs (f64R v - f64R s) < / 10 ^ 12).
Proof.
  intros pricer sigma tol FP MP FS BS FT BT. destruct five_ok as [E5 F5]. destruct lit_8_ok as [F8 B8]. assert (B8' : f64R lit_8 <= 5) by (cbn [pow] in B8; lra). assert (P52 : IZR (2 ^ 52) = 2 * IZR (2 ^ 51)) by (change (2 ^ 52)%Z with (2 * 2 ^ 51)%Z; apply mult_IZR).
  destruct (FP sigma FS BS) as [FPS BPS]. destruct (FP lit_8 F8 ltac:(lra)) as [FPL BPL]. destruct (FP five64 F5 ltac:(rewrite E5; lra)) as [FPH BPH].
  assert (NN : (Bltb (pricer sigma) (fsub (pricer lit_8) tol) || Bltb (fadd (pricer five64) tol) (pricer sigma)) = false).
  { apply orb_false_iff. split.
    - destruct (fsub_ok (pricer lit_8) tol (2 ^ 52) FPL FT ltac:(lia)) as [E F]; [apply Rabs_le_inv in BPL; apply Rabs_le; lra|]. destruct (Bltb _ _) eqn:T; [|reflexivity]. exfalso. apply (Bltb_R _ _ FPS F) in T. rewrite E in T. assert (rnd (f64R (pricer lit_8) - f64R tol) <= rnd (f64R (pricer lit_8))) by (apply rnd_mono; lra). rewrite (rnd_id _ (format64 (pricer lit_8))) in H. pose proof (MP lit_8 sigma F8 FS ltac:(lra) ltac:(lra) ltac:(lra)). lra.
    - destruct (fadd_ok (pricer five64) tol (2 ^ 52) FPH FT ltac:(lia)) as [E F]; [apply Rabs_le_inv in BPH; apply Rabs_le; lra|]. destruct (Bltb _ _) eqn:T; [|reflexivity]. exfalso. apply (Bltb_R _ _ F FPS) in T. rewrite E in T. assert (rnd (f64R (pricer five64)) <= rnd (f64R (pricer five64) + f64R tol)) by (apply rnd_mono; lra). rewrite (rnd_id _ (format64 (pricer five64))) in H. pose proof (MP sigma five64 FS F5 ltac:(lra) ltac:(lra) ltac:(lra)). lra. }
  assert (EI : exists v, implied64 pricer (pricer sigma) tol = Some v). { unfold implied64. fold five64. rewrite NN. eauto. } destruct EI as (v & EI). exists v. split; [exact EI|].
  destruct (C98_implied _ _ _ _ EI) as (FV & BV & [T|(lo & hi & FL & FH & BL & BH & W & SL & SH)]).
  - left. destruct (FP v FV BV) as [FPV BPV]. apply abs_sub_lt; assumption.
  - right. destruct (FP lo FL ltac:(lra)) as [FPLO _]. destruct (FP hi FH ltac:(lra)) as [FPHI _].
    assert (L1 : f64R lo <= f64R sigma). { destruct SL as [->|SL]; [lra|]. apply (Bltb_R _ _ FPLO FPS) in SL. apply Rnot_lt_le. intros G. pose proof (MP sigma lo FS FL ltac:(lra) ltac:(lra) ltac:(lra)). lra. }
    destruct (Rle_lt_dec (f64R sigma) (f64R hi)) as [G|G]; [exists sigma; repeat split; try assumption; try lra; apply Rabs_def1; lra|].
    exists hi. split; [exact FH|]. split; [lra|]. split; [|apply Rabs_def1; lra]. destruct SH as [->|SH]; [lra|]. assert (f64R (pricer sigma) <= f64R (pricer hi)). { apply Rnot_lt_le. intros X. apply (Bltb_R _ _ FPHI FPS) in X. congruence. } pose proof (MP hi sigma FH FS ltac:(lra) ltac:(lra) ltac:(lra)). lra.
Qed.
Print Assumptions C98_inverse.

(** Outside the prices of the bracket, widened by the tolerance, there is no answer; inside them there is one. *)
Theorem C98_range : forall (pricer : f64 -> f64) target tol, finite (pricer lit_8) -> finite (pricer five64) -> finite target -> finite tol ->
  Rabs (f64R (pricer lit_8)) <= IZR (2 ^ 51) -> Rabs (f64R (pricer five64)) <= IZR (2 ^ 51) -> 0 <= f64R tol <= IZR (2 ^ 51) ->
  (implied64 pricer target tol = None <-> f64R target < rnd (f64R (pricer lit_8) - f64R tol) \/ rnd (f64R (pricer five64) + f64R tol) < f64R target) /\
  (f64R (pricer lit_8) <= f64R target <= f64R (pricer five64) -> exists v, implied64 pricer target tol = Some v).
Proof.
  intros pricer target tol FL FH FG FT BL BH BT. assert (P52 : IZR (2 ^ 52) = 2 * IZR (2 ^ 51)) by (change (2 ^ 52)%Z with (2 * 2 ^ 51)%Z; apply mult_IZR).
  destruct (fsub_ok (pricer lit_8) tol (2 ^ 52) FL FT ltac:(lia)) as [EL FL']; [apply Rabs_le_inv in BL; apply Rabs_le; lra|]. destruct (fadd_ok (pricer five64) tol (2 ^ 52) FH FT ltac:(lia)) as [EH FH']; [apply Rabs_le_inv in BH; apply Rabs_le; lra|].
  assert (C : implied64 pricer target tol = None <-> f64R target < rnd (f64R (pricer lit_8) - f64R tol) \/ rnd (f64R (pricer five64) + f64R tol) < f64R target).
  { rewrite <- EL, <- EH, <- (Bltb_R _ _ FG FL'), <- (Bltb_R _ _ FH' FG), <- orb_true_iff. unfold implied64. fold five64. destruct (_ || _); split; intros; try discriminate; reflexivity. }
  split; [exact C|]. intros B. destruct (implied64 pricer target tol) as [v|] eqn:E; [eauto|]. exfalso. destruct (proj1 C eq_refl) as [L|L].
  - assert (rnd (f64R (pricer lit_8) - f64R tol) <= rnd (f64R (pricer lit_8))) by (apply rnd_mono; lra). rewrite (rnd_id _ (format64 _)) in H. lra.
  - assert (rnd (f64R (pricer five64)) <= rnd (f64R (pricer five64) + f64R tol)) by (apply rnd_mono; lra). rewrite (rnd_id _ (format64 _)) in H. lra.
Qed.
Print Assumptions C98_range.

(** ** The effective volatility of volatility *)
Lemma sized_pow4 e : (e <= 20)%nat -> sized (4 * 2 ^ e) /\ 4 <= 4 * 2 ^ e <= IZR (2 ^ 22).
Proof.
  intros H. assert (B : 4 <= 4 * 2 ^ e <= IZR (2 ^ 22)). { assert (1 <= 2 ^ e) by (apply pow_R1_Rle; lra). assert (2 ^ e <= 2 ^ 20) by (apply Rle_pow; [lra|exact H]). assert (2 ^ 20 = 1048576) by (cbn [pow]; lra). change (IZR (2 ^ 22)) with 4194304. lra. }
  split; [|exact B]. split; [apply Rle_trans with (1 := bpow_100); cbn [pow]; lra|]. apply Rle_trans with (1 := proj2 B). apply IZR_le. lia.
Qed.
Lemma widen_spec f n : forall e hi, finite hi -> f64R hi = 4 * 2 ^ e -> (e + n <= 20)%nat ->
  exists e', (e <= e' <= e + n)%nat /\ finite (widen64 n f hi) /\ f64R (widen64 n f hi) = 4 * 2 ^ e' /\
    ((e < e')%nat -> exists g, finite g /\ f64R g = 2 * 2 ^ e' /\ Bltb (f g) zero64 = true) /\ ((e' < e + n)%nat -> Bltb (f (widen64 n f hi)) zero64 = false).
Proof.
  induction n as [|n IH]; intros e hi FH EH N; cbn [widen64]; [exists e; repeat split; try assumption; try lia|]. destruct (Bltb (f hi) zero64) eqn:T.
  - destruct (f64_of_Z_ok 2 ltac:(lia)) as [E2 F2]. destruct (sized_pow4 (S e) ltac:(lia)) as [SZ BS]. cbn [pow] in BS. destruct (fmul_ok hi (f64_of_Z 2) (2 ^ 22) FH F2 ltac:(lia)) as [EM FM]; [rewrite EH, E2, Rabs_pos_eq; lra|].
    assert (V : f64R (fmul hi (f64_of_Z 2)) = 4 * 2 ^ S e). { rewrite EM, EH, E2. replace (4 * 2 ^ e * 2) with (4 * 2 ^ S e) by (cbn [pow]; ring). apply rnd_id. assert (PZ : 4 * 2 ^ S e = IZR (4 * 2 ^ Z.of_nat (S e))) by (rewrite mult_IZR, <- pow_IZR; reflexivity). rewrite PZ. apply format_Z. assert (0 <= 4 * 2 ^ Z.of_nat (S e))%Z by (apply Z.mul_nonneg_nonneg; [lia|apply Z.pow_nonneg; lia]). rewrite Z.abs_eq by assumption. apply le_IZR. rewrite <- PZ. destruct (sized_pow4 (S e) ltac:(lia)) as [_ X]. apply Rle_trans with (1 := proj2 X). apply IZR_le. lia. }
    destruct (IH (S e) _ FM V ltac:(lia)) as (e' & RE & FW & VW & G & K). exists e'. split; [lia|]. split; [exact FW|]. split; [exact VW|]. split; [|intros L; apply K; lia]. intros _. destruct (Nat.eq_dec e' (S e)) as [->|NE]; [exists hi; split; [exact FH|]; split; [rewrite EH; cbn [pow]; ring|exact T]|apply G; lia].
  - exists e. split; [lia|]. split; [exact FH|]. split; [exact EH|]. split; [lia|]. intros _. exact T.
Qed.
Lemma Bltb_Bleb (x y : f64) : Bltb x y = true -> Bleb x y = true.
Proof. unfold Bltb, Bleb, SpecFloat.SFltb, SpecFloat.SFleb. destruct (SpecFloat.SFcompare _ _) as [[]|]; intros; try discriminate; reflexivity. Qed.
Lemma not_ordered (x : f64) : Bltb x zero64 = false -> Bleb zero64 x = false -> is_nan x = true.
Proof.
  intros A B. destruct (is_finite x) eqn:F.
  - exfalso. assert (N : ~ f64R x < f64R zero64) by (intros H; apply (Bltb_R _ _ F (proj2 zero64_ok)) in H; congruence). assert (M : ~ f64R zero64 <= f64R x) by (intros H; apply (Bleb_R _ _ (proj2 zero64_ok) F) in H; congruence). lra.
  - destruct x as [b|b| |b m e H]; try discriminate; [|reflexivity]. destruct b; [vm_compute in A; discriminate|vm_compute in B; discriminate].
Qed.
Lemma effective_stops f h n : sized h -> forall k lo hi lo' hi', window h k lo hi -> (lo = zero64 \/ Bltb zero64 (f lo) = false) -> Bleb zero64 (f hi) = true ->
  effective_loop64 n f lo hi = (lo', hi') -> exists k', window h k' lo' hi' /\ (k' = (k + n)%nat \/ f64R hi' - f64R lo' < / 10 ^ 14) /\ (lo' = zero64 \/ Bltb zero64 (f lo') = false) /\ Bleb zero64 (f hi') = true.
Proof.
  intros SZ. induction n as [|n IH]; intros k lo hi lo' hi' W SL SH E; cbn [effective_loop64] in E.
  - assert (lo' = lo) by congruence. assert (hi' = hi) by congruence. subst. exists k. repeat split; try assumption; try apply W. left. lia.
  - destruct (window_middle h k lo hi SZ W) as (FM & OM & WL & WH). set (mid := middle64 lo hi) in *. destruct lit_14_ok as [F14 B14].
    destruct (Bltb zero64 (f mid)) eqn:T; destruct (Bltb (fsub _ _) lit_14) eqn:T2.
    + assert (lo' = lo) by congruence. assert (hi' = mid) by congruence. subst. exists (S k). split; [exact WL|]. split; [right; pose proof (proj1 (window_test h (S k) _ _ _ SZ WL F14) T2); lra|]. split; [exact SL|apply Bltb_Bleb, T].
    + destruct (IH (S k) lo mid lo' hi' WL SL (Bltb_Bleb _ _ T) E) as (k' & W' & X & Y). exists k'. split; [exact W'|]. split; [destruct X as [->|X]; [left; lia|right; exact X]|exact Y].
    + assert (lo' = mid) by congruence. assert (hi' = hi) by congruence. subst. exists (S k). split; [exact WH|]. split; [right; pose proof (proj1 (window_test h (S k) _ _ _ SZ WH F14) T2); lra|]. split; [right; exact T|exact SH].
    + destruct (IH (S k) mid hi lo' hi' WH (or_intror T) SH E) as (k' & W' & X & Y). exists k'. split; [exact W'|]. split; [destruct X as [->|X]; [left; lia|right; exact X]|exact Y].
Qed.
Lemma sqrt_close (m : f64) : finite m -> 0 <= f64R m -> finite (fsqrt m) /\ 0 <= f64R (fsqrt m) /\ (1 - 4 * u53) * f64R m <= f64R (fsqrt m) * f64R (fsqrt m) <= (1 + 4 * u53) * f64R m.
Proof.
  intros F M. pose proof (Bsqrt_correct 53 1024 _ _ mode_NE m) as (V & FS & _). fold (fsqrt m) in V, FS. pose proof u53_pos as U. pose proof u53_eq as UE.
  assert (FF : finite (fsqrt m)). { unfold finite. rewrite FS. unfold finite, f64R in *. destruct m as [b|b| |[] mm e H]; try discriminate F; try reflexivity. exfalso. cbn in M. assert (F2R (Float radix2 (Zneg mm) e) < 0) by (apply F2R_lt_0; reflexivity). change (cond_Zopp true (Z.pos mm)) with (Zneg mm) in M. lra. }
  split; [exact FF|]. change (f64R (fsqrt m) = rnd (sqrt (f64R m))) in V. split; [rewrite V, <- rnd_0; apply rnd_mono, sqrt_pos|].
  destruct (Req_dec (f64R m) 0) as [Z|NZ]; [rewrite V, Z, sqrt_0, rnd_0; lra|].
  assert (G : bpow radix2 (-1074) <= f64R m). { pose proof (format64 m) as G. apply FLT_format_generic in G; [|exact prec64]. destruct G as [[mm e] E M' E']. rewrite E in *. cbn in E'. assert (0 < mm)%Z. { apply (gt_0_F2R radix2 mm e). lra. } apply Rle_trans with (bpow radix2 e); [apply bpow_le; exact E'|]. unfold F2R. cbn [Fnum Fexp]. rewrite <- (Rmult_1_l (bpow radix2 e)) at 1. apply Rmult_le_compat_r; [apply bpow_ge_0|apply IZR_le; lia]. }
  assert (SQ : bpow radix2 (-1022) <= sqrt (f64R m)). { apply Rle_trans with (sqrt (bpow radix2 (-1074))); [|apply sqrt_le_1; [apply bpow_ge_0|lra|exact G]]. change (-1074)%Z with (2 * -537)%Z. rewrite sqrt_bpow. apply bpow_le. lia. }
  assert (SQ' : bpow radix2 (-1022) <= Rabs (sqrt (f64R m))) by (rewrite Rabs_pos_eq by apply sqrt_pos; exact SQ). destruct (rnd_rel _ SQ') as (e & E & EE). rewrite V, EE. apply Rabs_le_inv in E. replace (sqrt (f64R m) * (1 + e) * (sqrt (f64R m) * (1 + e))) with (sqrt (f64R m) * sqrt (f64R m) * ((1 + e) * (1 + e))) by ring. rewrite sqrt_sqrt by exact M. assert (-4 * u53 <= (1 + e) * (1 + e) - 1 <= 4 * u53) by nra. split; nra.
Qed.

(** The bracket found for the square of the effective vol-vol: its upper end is [4 2^e], with the function still negative at
    half of it when it had to be widened.  The answer is the square root of a point between two
    doubles [lo] and [hi] where the function is not positive (or [lo] is zero) and not negative, and
    which are closer than 1e-14 or [2^-48 2^e]. *)
Theorem C98_effective : forall rhs lhs r, effective64 rhs lhs = Ok r -> let f x := fsub (rhs x) lhs in
  exists e lo hi, (e <= 20)%nat /\ ((0 < e)%nat -> exists g, finite g /\ f64R g = 2 * 2 ^ e /\ Bltb (f g) zero64 = true) /\
    finite lo /\ finite hi /\ 0 <= f64R lo <= f64R hi /\ f64R hi <= 4 * 2 ^ e /\
    (lo = zero64 \/ Bltb zero64 (f lo) = false) /\ Bleb zero64 (f hi) = true /\
    f64R hi - f64R lo <= Rmax (/ 10 ^ 14) (2 ^ e / 2 ^ 48) /\
    finite r /\ 0 <= f64R r /\ (1 - / 2 ^ 51) * f64R lo <= f64R r * f64R r <= (1 + / 2 ^ 51) * f64R hi.
Proof.
  intros rhs lhs r H f. unfold effective64 in H. cbv zeta in H. fold f in H. destruct (f64_of_Z_ok 4 ltac:(lia)) as [E4 F4]. destruct (widen_spec f 20 0 (f64_of_Z 4) F4 ltac:(rewrite E4; cbn [pow]; lra) ltac:(lia)) as (e & RE & FW & VW & G & _).
  set (h := widen64 20 f (f64_of_Z 4)) in *. change (fsub (rhs h) lhs) with (f h) in H. destruct (Bleb zero64 (f h)) eqn:T; cbn [negb] in H; [|discriminate]. destruct (effective_loop64 60 f zero64 h) as [lo hi] eqn:L. destruct (sized_pow4 e ltac:(lia)) as [SZ BS].
  destruct zero64_ok as [EZ FZ]. assert (W0 : window (4 * 2 ^ e) 0 zero64 h) by (apply window_start; [exact SZ|exact FZ|exact FW|rewrite EZ, VW; lra|rewrite VW; lra]).
  destruct (effective_stops f (4 * 2 ^ e) 60 SZ 0 zero64 h lo hi W0 (or_introl eq_refl) T L) as (k & W & K & SL & SH). destruct (window_middle _ _ _ _ SZ W) as (FM & OM & _). pose proof W as (FL & FH & O & B & WW). pose proof u53_eq as UE. pose proof u53_pos as UP.
  assert (ER : r = fsqrt (middle64 lo hi)) by congruence. destruct (sqrt_close _ FM ltac:(lra)) as (FR & R0 & R1). rewrite <- ER in FR, R0, R1.
  exists e, lo, hi. split; [lia|]. split; [intros L0; apply G; lia|]. split; [exact FL|]. split; [exact FH|]. split; [exact O|]. split; [exact B|]. split; [exact SL|]. split; [exact SH|]. split; [|split; [exact FR|split; [exact R0|]]].
  - destruct K as [->|K]; [|apply Rle_trans with (2 := Rmax_l _ _); lra]. apply Rle_trans with (2 := Rmax_r _ _). apply Rle_trans with (1 := WW). unfold width. assert (P48 : 2 ^ 48 = 281474976710656) by (cbn [pow]; lra). assert (P60 : 2 ^ (0 + 60) = 1152921504606846976) by (cbn [pow Nat.add]; lra). rewrite P48, P60. assert (U : u53 = / 9007199254740992) by (apply Rmult_eq_reg_l with 9007199254740992; [|lra]; rewrite UE; lra). rewrite U. lra.
  - assert (P51 : / 2 ^ 51 = 4 * u53). { assert (E51 : 2 ^ 51 = 2251799813685248) by (cbn [pow]; lra). rewrite E51. lra. } rewrite P51. split; [apply Rle_trans with (2 := proj1 R1)|apply Rle_trans with (1 := proj2 R1)]; apply Rmult_le_compat_l; lra.
Qed.
Print Assumptions C98_effective.

(** It panics only when the function is not a number at the end of the bracket, or still negative or not a
    number at [2^22]. *)
Theorem C98_effective_panic : forall rhs lhs, (forall r, effective64 rhs lhs <> Ok r) -> let f x := fsub (rhs x) lhs in
  effective64 rhs lhs = Panic PAssert /\
  exists e hi, (e <= 20)%nat /\ finite hi /\ f64R hi = 4 * 2 ^ e /\ Bleb zero64 (f hi) = false /\ ((e < 20)%nat -> is_nan (f hi) = true).
Proof.
  intros rhs lhs H f. destruct (f64_of_Z_ok 4 ltac:(lia)) as [E4 F4]. destruct (widen_spec f 20 0 (f64_of_Z 4) F4 ltac:(rewrite E4; cbn [pow]; lra) ltac:(lia)) as (e & RE & FW & VW & _ & K). unfold effective64 in *. cbv zeta in H |- *. fold f in H |- *. set (h := widen64 20 f (f64_of_Z 4)) in *. change (fsub (rhs h) lhs) with (f h) in *.
  destruct (Bleb zero64 (f h)) eqn:T; cbn [negb] in *; [exfalso; destruct (effective_loop64 60 f zero64 h) as [lo hi]; exact (H _ eq_refl)|]. split; [reflexivity|]. exists e, h. split; [lia|]. split; [exact FW|]. split; [exact VW|]. split; [exact T|]. intros L. apply not_ordered; [apply K; lia|exact T].
Qed.
Print Assumptions C98_effective_panic.

(** ** The bisection of the time-dependent calibrator *)
Definition narrow (f : f64 -> f64) (lo hi tol v : f64) : Prop :=
  exists a b, finite a /\ finite b /\ f64R lo <= f64R a <= f64R v /\ f64R v <= f64R b <= f64R hi /\
    (f64R b - f64R a < f64R tol \/ f64R b - f64R a <= f64R hi / 2 ^ 50) /\ (a = lo \/ Bltb (f a) zero64 = true) /\ (b = hi \/ Bltb (f b) zero64 = false).
Lemma bisect_stops f h tol lo hi n : sized h -> f64R hi = h -> finite tol -> forall k a b, window h k a b -> (60 <= k + n)%nat -> f64R lo <= f64R a -> (a = lo \/ Bltb (f a) zero64 = true) -> (b = hi \/ Bltb (f b) zero64 = false) ->
  let v := bisect_loop64 n f tol a b in finite v /\ f64R lo <= f64R v <= f64R hi /\ (Bltb (Babs (f v)) tol = true \/ narrow f lo hi tol v).
Proof.
  intros SZ EH FT. induction n as [|n IH]; intros k a b W KN LO SA SB v; destruct (window_middle h k a b SZ W) as (FM & OM & WL & WH); pose proof W as (FA & FB & O & B & WW).
  - change v with (middle64 a b). split; [exact FM|]. split; [lra|]. right. exists a, b. split; [exact FA|]. split; [exact FB|]. split; [lra|]. split; [lra|]. split; [|split; assumption]. right. apply Rle_trans with (1 := WW). rewrite EH. unfold width. pose proof u53_eq. pose proof u53_pos. destruct SZ as [S0 _]. pose proof (bpow_gt_0 radix2 (-100)).
    assert (P : / 2 ^ k <= / 2 ^ 60) by (apply Rinv_le; [apply pow_lt; lra|apply Rle_pow; [lra|lia]]). assert (P60 : / 2 ^ 60 <= u53) by (assert (E60 : 2 ^ 60 = 1152921504606846976) by (cbn [pow]; lra); rewrite E60; lra). assert (P50 : / 2 ^ 50 = 8 * u53) by (assert (E50 : 2 ^ 50 = 1125899906842624) by (cbn [pow]; lra); rewrite E50; lra). unfold Rdiv. rewrite P50. nra.
  - unfold v. cbn [bisect_loop64]. set (mid := middle64 a b) in *. destruct (Bltb (fabs (f mid)) tol || Bltb (fsub b a) tol) eqn:T.
    + split; [exact FM|]. split; [lra|]. apply orb_true_iff in T. destruct T as [T|T]; [left; exact T|]. right. exists a, b. pose proof (proj1 (window_test h k a b tol SZ W FT) T) as X. split; [exact FA|]. split; [exact FB|]. split; [lra|]. split; [lra|]. split; [left; exact X|]. split; assumption.
    + destruct (Bltb (f mid) zero64) eqn:P; [apply (IH (S k)); [exact WH|lia|lra|right; exact P|exact SB]|apply (IH (S k)); [exact WL|lia|exact LO|exact SA|right; exact P]].
Qed.

(** On any bracket [0 <= lo <= hi <= 2^52], with any tolerance and at least 60 iterations, the answer is in
    the bracket, and it is an end on the wrong side of the root, or a point where the function is within the
    tolerance, or between two doubles closer than the tolerance or [hi 2^-50] where the function
    is negative (or [lo]) and not negative (or [hi]). *)
Theorem C98_calibrator : forall f lo hi tol n, finite lo -> finite hi -> finite tol -> 0 <= f64R lo <= f64R hi -> / 2 ^ 10 <= f64R hi <= IZR (2 ^ 52) -> (60 <= n)%nat ->
  let v := bisect64 f lo hi tol n in finite v /\ f64R lo <= f64R v <= f64R hi /\
  (v = lo /\ Bltb zero64 (f lo) = true \/ v = hi /\ Bltb (f hi) zero64 = true \/ Bltb (Babs (f v)) tol = true \/
   exists a b, finite a /\ finite b /\ f64R lo <= f64R a <= f64R v /\ f64R v <= f64R b <= f64R hi /\
     (f64R b - f64R a < f64R tol \/ f64R b - f64R a <= f64R hi / 2 ^ 50) /\ (a = lo \/ Bltb (f a) zero64 = true) /\ (b = hi \/ Bltb (f b) zero64 = false)).
Proof.
  intros f lo hi tol n FL FH FT O B N v. unfold v, bisect64. destruct (Bltb zero64 (f lo)) eqn:T1; [split; [exact FL|]; split; [lra|]; left; split; reflexivity|]. destruct (Bltb (f hi) zero64) eqn:T2; [split; [exact FH|]; split; [lra|]; right; left; split; reflexivity|].
  assert (SZ : sized (f64R hi)) by (split; [apply Rle_trans with (1 := bpow_100)|]; apply B). destruct (bisect_stops f (f64R hi) tol lo hi n SZ eq_refl FT 0 lo hi) as (FV & BV & X); [apply window_start; try assumption; lra|lia|lra|left; reflexivity|left; reflexivity|]. split; [exact FV|]. split; [exact BV|]. right. right. exact X.
Qed.
Print Assumptions C98_calibrator.

(** ** What goes wrong *)
(** "None if the target is outside the achievable price range": when the price is not a number for any volatility, or the target is
    not a number, the answer is the lower end 1e-8 of the bracket, and so it is in the calibrator; the other bisection
    panics. *)
Theorem C98_nan_refuted : forall (g : f64 -> f64) (target tol : f64), (forall x, is_nan (g x) = true) ->
  (exists v, implied64 g target tol = Some v /\ f64R v - f64R lit_8 < / 10 ^ 12) /\
  (exists v, implied64 (fun x => x) B754_nan tol = Some v /\ f64R v - f64R lit_8 < / 10 ^ 12) /\
  effective64 g target = Panic PAssert /\
  f64R (bisect64 g lit_6 (f64_of_Z 1) lit_10 80) - f64R lit_6 < 101 / 10 ^ 12.
Proof.
  intros g target tol NG. assert (NN : forall x, g x = B754_nan) by (intros x; specialize (NG x); destruct (g x); try discriminate; reflexivity).
  assert (SN : forall x : f64, fsub B754_nan x = B754_nan) by (intros x; destruct x; reflexivity). assert (NS : forall x : f64, fsub x B754_nan = B754_nan) by (intros x; destruct x; reflexivity). assert (AN : forall x : f64, fadd B754_nan x = B754_nan) by (intros x; destruct x; reflexivity).
  assert (LN : forall x : f64, Bltb B754_nan x = false) by (intros x; destruct x; reflexivity). assert (NL : forall x : f64, Bltb x B754_nan = false) by (intros x; destruct x as [b|b| |b m e H]; try destruct b; reflexivity).
  (* whatever sends every comparison the same way ends at the lower end *)
  assert (DOWN : forall p t, (forall x, Bltb (p x) t = false) -> (forall x, Bltb (Babs (fsub (p x) t)) tol = false) -> forall v, implied64 p t tol = Some v -> f64R v - f64R lit_8 < / 10 ^ 12).
  { intros p t P1 P2 v E. destruct (C98_implied p t tol v E) as (_ & _ & [T|(lo & hi & _ & _ & BL & BH & W & SL & _)]); [rewrite P2 in T; discriminate|]. destruct SL as [->|SL]; [lra|rewrite P1 in SL; discriminate]. }
  split; [|split; [|split]].
  - assert (EI : exists v, implied64 g target tol = Some v) by (unfold implied64; rewrite !NN, SN, AN, NL, LN; cbn [orb]; eauto). destruct EI as (v & EI). exists v. split; [exact EI|]. apply (DOWN g target); [intros x; rewrite NN; apply LN|intros x; rewrite NN, SN; apply LN|exact EI].
  - assert (EI : exists v, implied64 (fun x => x) B754_nan tol = Some v) by (unfold implied64; rewrite LN, NL; cbn [orb]; eauto). destruct EI as (v & EI). exists v. split; [exact EI|]. apply (DOWN (fun x => x) B754_nan); [intros x; apply NL|intros x; rewrite NS; apply LN|exact EI].
  - apply (C98_effective_panic g target). intros r E. destruct (C98_effective g target r E) as (e & lo & hi & _ & _ & _ & _ & _ & _ & _ & T & _). rewrite NN, SN in T. discriminate.
  - destruct (f64_of_Z_ok 1 ltac:(lia)) as [E1 F1]. destruct lit_10_ok as [F10 B10]. destruct lit_6_ok as [F6 B6]. cbn [pow] in B6. destruct (C98_calibrator g lit_6 (f64_of_Z 1) lit_10 80 F6 F1 F10 ltac:(lra) ltac:(rewrite E1; split; [cbn [pow]; lra|apply IZR_le; lia]) ltac:(lia)) as (_ & _ & [[_ T]|[[_ T]|[T|(a & b & _ & _ & BA & BB & W & SA & _)]]]).
    + rewrite NN, NL in T. discriminate.
    + rewrite NN, LN in T. discriminate.
    + rewrite NN in T. discriminate.
    + destruct SA as [->|SA]; [|rewrite NN, LN in SA; discriminate]. rewrite E1 in W. assert (E50 : 2 ^ 50 = 1125899906842624) by (cbn [pow]; lra). rewrite E50 in W. cbn [pow] in *. lra.
Qed.
Print Assumptions C98_nan_refuted.

(** "tol = 1e-10" on the parameter: in the widest bracket of the calibrator doubles are further apart than that, and the
    answer can miss the double where the function changes sign. *)
Theorem C98_tolerance_refuted : exists f hi root, finite hi /\ finite root /\ f64R lit_6 <= f64R root <= f64R hi /\
  (forall x, finite x -> if Rlt_dec (f64R x) (f64R root) then f x = f64_of_Z (-1) else f x = f64_of_Z 1) /\
  4 / 10 ^ 10 <= Rabs (f64R (bisect64 f lit_6 hi lit_10 80) - f64R root).
Proof.
  pose (root := f64_lit 4503599627370499 (-31)). pose (f := fun x : f64 => if Bltb x root then f64_of_Z (-1) else f64_of_Z 1). pose (hi := f64_of_Z 4194304). pose (v := f64_lit 4503599627370498 (-31)).
  assert (EV : forall m, (Z.abs m < 2 ^ 53)%Z -> f64R (f64_lit m (-31)) = IZR m / 2147483648 /\ finite (f64_lit m (-31))). { intros m M. assert (BB : bpow radix2 (-31) = / 2147483648) by reflexivity. destruct (lit_ok m (-31) (2 ^ 22) M ltac:(lia) ltac:(lia)) as [V F]; [|split; [rewrite V, BB; reflexivity|exact F]]. rewrite BB, Rabs_mult, <- abs_IZR, (Rabs_pos_eq (/ 2147483648)) by lra. assert (IZR (Z.abs m) <= IZR (2 ^ 53)) by (apply IZR_le; lia). assert (IZR (2 ^ 53) = IZR (2 ^ 22) * 2147483648) by (change (2 ^ 53)%Z with (2 ^ 22 * 2147483648)%Z; apply mult_IZR). lra. }
  destruct (EV 4503599627370499%Z ltac:(lia)) as [ER FR]. fold root in ER, FR. destruct (EV 4503599627370498%Z ltac:(lia)) as [EV' FV]. fold v in EV', FV. destruct (f64_of_Z_ok 4194304 ltac:(lia)) as [EH FH]. fold hi in EH, FH. destruct lit_6_ok as [F6 B6].
  exists f, hi, root. split; [exact FH|]. split; [exact FR|]. split; [rewrite ER, EH; cbn [pow] in B6; lra|]. split.
  - intros x FX. unfold f. destruct (Rlt_dec (f64R x) (f64R root)) as [L|L]; [apply (Bltb_R _ _ FX FR) in L; rewrite L; reflexivity|]. destruct (Bltb x root) eqn:T; [apply (Bltb_R _ _ FX FR) in T; contradiction|reflexivity].
  - assert (FB : finite (bisect64 f lit_6 hi lit_10 80)) by (vm_compute; reflexivity). assert (LE : Bleb (bisect64 f lit_6 hi lit_10 80) v = true) by (vm_compute; reflexivity). apply (Bleb_R _ _ FB FV) in LE. rewrite EV' in LE. rewrite ER, Rabs_left1 by lra. cbn [pow]. lra.
Qed.
Print Assumptions C98_tolerance_refuted.

(** The hypotheses of [C98_inverse] hold of the price [sigma] itself and the volatility 0.5; the loops return; the
    bracket [1e-6, 1] is one of [C98_calibrator]. *)
Example C98_witness : (exists v, implied64 (fun x => x) half64 lit_8 = Some v /\ Rabs (f64R v - / 2) < 2 / 10 ^ 8) /\
  match effective64 (fun x => x) (f64_of_Z 9) with Ok r => Bltb (fsub (f64_of_Z 3) lit_10) r && Bltb r (fadd (f64_of_Z 3) lit_10) | _ => false end = true /\
  Bltb (Babs (fsub (bisect64 (fun x => fsub x half64) lit_6 (f64_of_Z 1) lit_10 80) half64)) lit_10 = true.
Proof.
  destruct half64_ok as [EH FH]. destruct lit_8_ok as [F8 B8]. cbn [pow] in B8. split; [|split].
  - destruct (C98_inverse (fun x => x) half64 lit_8) as (v & E & X); [intros x FX BX; split; [exact FX|]; apply Rabs_le; assert (IZR (2 ^ 51) >= 5) by (apply IZR_ge; lia); lra|intros; assumption|exact FH|rewrite EH; lra|exact F8|assert (IZR (2 ^ 51) >= 5) by (apply IZR_ge; lia); lra|]. exists v. split; [exact E|]. cbn [pow]. destruct X as [X|(s & _ & _ & ES & X)]; [rewrite EH in X; lra|]. rewrite ES, EH in X. cbn [pow] in X. lra.
  - vm_compute. reflexivity.
  - vm_compute. reflexivity.
Qed.
