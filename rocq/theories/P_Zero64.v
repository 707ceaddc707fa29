(** C104: zero rates in binary64. *)
From Coq Require Import Bool List ZArith Reals Lra Lia Psatz.
From Flocq Require Import Core BinarySingleNaN.
From Verif Require Import F64 Clock64 Clock64Facts Chol64 Chol64Facts P_Chol64 Bisect64 Bisect64Facts Zero64.
Open Scope R_scope.

(** Two pillars on different days and a target, at most 2^24 days apart, with finite rates up to a million. *)
Definition pillars_ok (first second : Z * f64) (target : Z) : Prop :=
  (Z.abs (target - fst first) <= 16777216)%Z /\ (Z.abs (fst second - target) <= 16777216)%Z /\ fst first <> fst second /\
  finite (snd first) /\ finite (snd second) /\ Rabs (f64R (snd first)) <= 1048576 /\ Rabs (f64R (snd second)) <= 1048576.

Section Between.
  Context (first second : Z * f64) (target : Z) (OK : pillars_ok first second target).
  Notation d1 := (IZR (target - fst first)). Notation d2 := (IZR (fst second - target)). Notation z1 := (f64R (snd first)). Notation z2 := (f64R (snd second)).
  Lemma between_value : finite (zero_between64 first second target) /\
    f64R (zero_between64 first second target) = rnd (rnd (rnd (d1 * z2) + rnd (d2 * z1)) / (d1 + d2)) /\
    Rabs (rnd (d1 * z2) + rnd (d2 * z1)) <= 35184372088832 /\ 1 <= Rabs (d1 + d2) /\ Rabs d1 <= 16777216 /\ Rabs d2 <= 16777216.
  Proof.
    destruct OK as (H1 & H2 & H3 & F1 & F2 & B1 & B2). unfold zero_between64.
    destruct (f64_of_Z_ok (target - fst first) ltac:(lia)) as [V1 G1]. destruct (f64_of_Z_ok (fst second - target) ltac:(lia)) as [V2 G2].
    assert (A1 : Rabs d1 <= 16777216) by (rewrite <- abs_IZR; apply IZR_le; lia). assert (A2 : Rabs d2 <= 16777216) by (rewrite <- abs_IZR; apply IZR_le; lia).
    assert (M1 : Rabs (d1 * z2) <= 17592186044416) by (rewrite Rabs_mult; apply Rle_trans with (16777216 * 1048576); [apply Rmult_le_compat; try apply Rabs_pos; assumption|lra]).
    assert (M2 : Rabs (d2 * z1) <= 17592186044416) by (rewrite Rabs_mult; apply Rle_trans with (16777216 * 1048576); [apply Rmult_le_compat; try apply Rabs_pos; assumption|lra]).
    destruct (fmul_ok (f64_of_Z (target - fst first)) (snd second) 17592186044416 G1 F2 ltac:(lia)) as [W1 K1]; [rewrite V1; exact M1|]. rewrite V1 in W1.
    destruct (fmul_ok (f64_of_Z (fst second - target)) (snd first) 17592186044416 G2 F1 ltac:(lia)) as [W2 K2]; [rewrite V2; exact M2|]. rewrite V2 in W2.
    pose proof (rnd_bound _ 17592186044416 ltac:(lia) M1) as N1. pose proof (rnd_bound _ 17592186044416 ltac:(lia) M2) as N2.
    assert (S : Rabs (rnd (d1 * z2) + rnd (d2 * z1)) <= 35184372088832) by (eapply Rle_trans; [apply Rabs_triang|]; lra).
    destruct (fadd_ok _ _ 35184372088832 K1 K2 ltac:(lia)) as [WS KS]; [rewrite W1, W2; exact S|]. rewrite W1, W2 in WS.
    assert (DS : d1 + d2 = IZR (fst second - fst first)) by (rewrite <- plus_IZR; f_equal; lia).
    assert (D1 : 1 <= Rabs (d1 + d2)) by (rewrite DS, <- abs_IZR; apply IZR_le; lia). assert (D3 : Rabs (d1 + d2) <= 33554432) by (eapply Rle_trans; [apply Rabs_triang|]; lra).
    destruct (fadd_ok (f64_of_Z (target - fst first)) (f64_of_Z (fst second - target)) 33554432 G1 G2 ltac:(lia)) as [WD KD]; [rewrite V1, V2; exact D3|]. rewrite V1, V2, DS, rnd_Z in WD by lia. rewrite <- DS in WD.
    assert (NZ : d1 + d2 <> 0) by (intros E; rewrite E, Rabs_R0 in D1; lra). pose proof (rnd_bound _ 35184372088832 ltac:(lia) S) as RS.
    destruct (fdiv_ok (fadd (fmul (f64_of_Z (target - fst first)) (snd second)) (fmul (f64_of_Z (fst second - target)) (snd first))) (fadd (f64_of_Z (target - fst first)) (f64_of_Z (fst second - target))) 35184372088832 KS ltac:(rewrite WD; exact NZ) ltac:(lia)) as [WQ KQ].
    { rewrite WS, WD. unfold Rdiv. rewrite Rabs_mult, Rabs_inv. apply Rle_trans with (35184372088832 * 1); [|lra]. apply Rmult_le_compat; [apply Rabs_pos|left; apply Rinv_0_lt_compat; lra|exact RS|]. rewrite <- Rinv_1. apply Rinv_le_contravar; lra. }
    rewrite WS, WD in WQ. split; [exact KQ|]. split; [exact WQ|]. split; [exact S|]. split; [exact D1|]. split; assumption.
  Qed.
End Between.

(** The rate is the weighted mean of exact arithmetic, to four roundings of the terms added, whether the target lies
    between the pillars or beyond them. *)
Theorem C104_accuracy first second target : pillars_ok first second target ->
  let d1 := IZR (target - fst first) in let d2 := IZR (fst second - target) in let z1 := f64R (snd first) in let z2 := f64R (snd second) in
  let z := zero_between64 first second target in
  finite z /\ Rabs (f64R z - (d1 * z2 + d2 * z1) / (d1 + d2)) <= 4 * u53 * ((Rabs d1 * Rabs z2 + Rabs d2 * Rabs z1) / Rabs (d1 + d2)) + bpow radix2 (-900).
Proof.
  intros OK. cbv zeta. destruct (between_value first second target OK) as (F & V & S & D & A1 & A2). split; [exact F|]. rewrite V. clear V F OK S A1 A2.
  set (d1 := IZR (target - fst first)) in *. set (d2 := IZR (fst second - target)) in *. set (z1 := f64R (snd first)). set (z2 := f64R (snd second)). clearbody d1 d2 z1 z2.
  pose proof u53_pos as U. pose proof u53_eq as UE. set (t := bpow radix2 (-1000)). assert (T0 : 0 < t) by apply bpow_gt_0. assert (T2 : bpow radix2 (-900) = 1267650600228229401496703205376 * t) by (unfold t; change (-900)%Z with (100 + -1000)%Z; rewrite bpow_plus; reflexivity).
  pose proof (rnd_abs (d1 * z2)) as E1. pose proof (rnd_abs (d2 * z1)) as E2. pose proof (rnd_abs (rnd (d1 * z2) + rnd (d2 * z1))) as E3. fold t in E1, E2, E3. set (p1 := rnd (d1 * z2)) in *. set (p2 := rnd (d2 * z1)) in *. set (s := rnd (p1 + p2)) in *.
  pose proof (rnd_abs (s / (d1 + d2))) as E4. fold t in E4. set (A := Rabs d1 * Rabs z2 + Rabs d2 * Rabs z1). rewrite !Rabs_mult in E1, E2.
  assert (A0 : 0 <= A) by (unfold A; apply Rplus_le_le_0_compat; apply Rmult_le_pos; apply Rabs_pos). set (N := d1 * z2 + d2 * z1).
  assert (NA : Rabs N <= A) by (unfold N, A; eapply Rle_trans; [apply Rabs_triang|]; rewrite !Rabs_mult; lra).
  assert (P : Rabs (p1 + p2 - N) <= u53 * A + 2 * t) by (replace (p1 + p2 - N) with ((p1 - d1 * z2) + (p2 - d2 * z1)) by (unfold N; ring); eapply Rle_trans; [apply Rabs_triang|]; unfold A; rewrite Rmult_plus_distr_l; lra).
  set (b := u53 * A) in *. assert (B0 : 0 <= b) by (unfold b; apply Rmult_le_pos; lra). assert (UB : u53 * b <= b / 1000) by (rewrite Rmult_comm; unfold Rdiv; apply Rmult_le_compat_l; lra). assert (UT : u53 * t <= t / 1000) by (rewrite Rmult_comm; unfold Rdiv; apply Rmult_le_compat_l; lra).
  assert (Q : Rabs (p1 + p2) <= A + b + 2 * t) by (replace (p1 + p2) with (p1 + p2 - N + N) by ring; eapply Rle_trans; [apply Rabs_triang|]; lra).
  assert (E3' : Rabs (s - (p1 + p2)) <= b + b / 1000 + 2 * t) by (apply Rle_trans with (1 := E3); apply Rle_trans with (u53 * (A + b + 2 * t) + t); [apply Rplus_le_compat_r, Rmult_le_compat_l; lra|]; replace (u53 * (A + b + 2 * t)) with (b + u53 * b + 2 * (u53 * t)) by (unfold b; ring); lra).
  assert (E5 : Rabs (s - N) <= 2 * b + b / 1000 + 4 * t) by (replace (s - N) with ((s - (p1 + p2)) + (p1 + p2 - N)) by ring; eapply Rle_trans; [apply Rabs_triang|]; lra).
  assert (SA : Rabs s <= A + 3 * b + 4 * t) by (replace s with (s - N + N) by ring; eapply Rle_trans; [apply Rabs_triang|]; lra).
  set (D' := Rabs (d1 + d2)) in *. assert (NZ : d1 + d2 <> 0) by (intros E; unfold D' in D; rewrite E, Rabs_R0 in D; lra).
  assert (I : 0 < / D' <= 1) by (split; [apply Rinv_0_lt_compat; lra|rewrite <- Rinv_1; apply Rinv_le_contravar; lra]).
  assert (SD : Rabs (s / (d1 + d2)) = Rabs s * / D') by (unfold Rdiv; rewrite Rabs_mult, Rabs_inv; reflexivity). rewrite SD in E4.
  assert (US : u53 * (Rabs s * / D') <= (b + b / 100 + t) * / D'). { rewrite <- Rmult_assoc. apply Rmult_le_compat_r; [lra|]. apply Rle_trans with (u53 * (A + 3 * b + 4 * t)); [apply Rmult_le_compat_l; lra|]. replace (u53 * (A + 3 * b + 4 * t)) with (b + 3 * (u53 * b) + 4 * (u53 * t)) by (unfold b; ring). lra. }
  assert (E6 : Rabs (s / (d1 + d2) - N / (d1 + d2)) <= (2 * b + b / 1000 + 4 * t) * / D') by (replace (s / (d1 + d2) - N / (d1 + d2)) with ((s - N) * / (d1 + d2)) by (field; exact NZ); rewrite Rabs_mult, Rabs_inv; fold D'; apply Rmult_le_compat_r; lra).
  replace (rnd (s / (d1 + d2)) - N / (d1 + d2)) with ((rnd (s / (d1 + d2)) - s / (d1 + d2)) + (s / (d1 + d2) - N / (d1 + d2))) by ring. eapply Rle_trans; [apply Rabs_triang|].
  replace (4 * u53 * (A / D')) with (4 * (b * / D')) by (unfold b; field; lra). assert (X : 0 <= b * / D') by (apply Rmult_le_pos; lra). assert (Y : t * / D' <= t) by (rewrite <- (Rmult_1_r t) at 2; apply Rmult_le_compat_l; lra).
  apply Rle_trans with (((b + b / 100 + t) * / D' + t) + (2 * b + b / 1000 + 4 * t) * / D'); [lra|]. replace ((b + b / 100 + t) * / D' + t + (2 * b + b / 1000 + 4 * t) * / D') with ((3 + 11 / 1000) * (b * / D') + 5 * (t * / D') + t) by (field; lra). lra.
Qed.
Print Assumptions C104_accuracy.

(** Between the pillars a higher rate on either never gives a lower rate, non-negative rates give a non-negative one, and the rate
    leaves the range of the two by no more than four roundings. *)
Theorem C104_monotone first second first' second' target : pillars_ok first second target -> pillars_ok first' second' target -> fst first = fst first' -> fst second = fst second' ->
  (fst first <= target <= fst second)%Z -> f64R (snd first) <= f64R (snd first') -> f64R (snd second) <= f64R (snd second') ->
  f64R (zero_between64 first second target) <= f64R (zero_between64 first' second' target).
Proof.
  intros OK OK' E1 E2 T H1 H2. destruct (between_value _ _ _ OK) as (_ & -> & _ & D & _). destruct (between_value _ _ _ OK') as (_ & -> & _). rewrite <- E1, <- E2.
  assert (P1 : 0 <= IZR (target - fst first)) by (apply IZR_le; lia). assert (P2 : 0 <= IZR (fst second - target)) by (apply IZR_le; lia). rewrite Rabs_pos_eq in D by lra.
  apply rnd_mono. unfold Rdiv. apply Rmult_le_compat_r; [left; apply Rinv_0_lt_compat; lra|]. apply rnd_mono. apply Rplus_le_compat; apply rnd_mono, Rmult_le_compat_l; assumption.
Qed.
Print Assumptions C104_monotone.
Theorem C104_range first second target M : pillars_ok first second target -> (fst first <= target <= fst second)%Z ->
  (0 <= f64R (snd first) -> 0 <= f64R (snd second) -> 0 <= f64R (zero_between64 first second target)) /\
  (Rabs (f64R (snd first)) <= M -> Rabs (f64R (snd second)) <= M -> Rabs (f64R (zero_between64 first second target)) <= M + 4 * u53 * M + bpow radix2 (-900)).
Proof.
  intros OK T. assert (P1 : 0 <= IZR (target - fst first)) by (apply IZR_le; lia). assert (P2 : 0 <= IZR (fst second - target)) by (apply IZR_le; lia). split.
  - intros Z1 Z2. destruct (between_value _ _ _ OK) as (_ & -> & _ & D & _). rewrite Rabs_pos_eq in D by lra. assert (R0 : forall x, 0 <= x -> 0 <= rnd x) by (intros x H; rewrite <- rnd_0; apply rnd_mono, H).
    apply R0. apply Rmult_le_pos; [|left; apply Rinv_0_lt_compat; lra]. apply R0, Rplus_le_le_0_compat; apply R0, Rmult_le_pos; assumption.
  - intros B1 B2. destruct (C104_accuracy _ _ _ OK) as [_ A]. destruct (between_value _ _ _ OK) as (_ & _ & _ & D & _). pose proof u53_pos as U. rewrite (Rabs_pos_eq (IZR _ + IZR _)) in A, D by lra. rewrite (Rabs_pos_eq (IZR (target - fst first))), (Rabs_pos_eq (IZR (fst second - target))) in A by lra.
    set (d1 := IZR (target - fst first)) in *. set (d2 := IZR (fst second - target)) in *. set (z1 := f64R (snd first)) in *. set (z2 := f64R (snd second)) in *.
    assert (W : (d1 * Rabs z2 + d2 * Rabs z1) / (d1 + d2) <= M). { apply Rmult_le_reg_r with (d1 + d2); [lra|]. unfold Rdiv. rewrite Rmult_assoc, Rinv_l by lra. assert (d1 * Rabs z2 <= d1 * M) by (apply Rmult_le_compat_l; lra). assert (d2 * Rabs z1 <= d2 * M) by (apply Rmult_le_compat_l; lra). lra. }
    assert (E : Rabs ((d1 * z2 + d2 * z1) / (d1 + d2)) <= M). { apply Rle_trans with (2 := W). unfold Rdiv. rewrite Rabs_mult, (Rabs_pos_eq (/ (d1 + d2))) by (left; apply Rinv_0_lt_compat; lra). apply Rmult_le_compat_r; [left; apply Rinv_0_lt_compat; lra|]. eapply Rle_trans; [apply Rabs_triang|]. rewrite !Rabs_mult, (Rabs_pos_eq d1), (Rabs_pos_eq d2) by lra. lra. }
    assert (4 * u53 * ((d1 * Rabs z2 + d2 * Rabs z1) / (d1 + d2)) <= 4 * u53 * M) by (apply Rmult_le_compat_l; lra).
    replace (f64R (zero_between64 first second target)) with ((f64R (zero_between64 first second target) - (d1 * z2 + d2 * z1) / (d1 + d2)) + (d1 * z2 + d2 * z1) / (d1 + d2)) by ring. eapply Rle_trans; [apply Rabs_triang|]. lra.
Qed.
Print Assumptions C104_range.

(** But a flat curve is not flat to the last bit, nor does a pillar keep its own rate: with a rate
    of 0.003 on pillars three days apart, the rate interpolated on the day of the second
    pillar, and on the days between, is another number. *)
Theorem C104_pillar_refuted : let z := f64_lit 6917529027641082 (-61) in
  Beqb z z = true /\ pillars_ok (0%Z, z) (3%Z, z) 3 /\ Beqb (zero_between64 (0%Z, z) (3%Z, z) 3) z = false /\ Beqb (zero_between64 (0%Z, z) (3%Z, z) 1) z = false.
Proof.
  cbv zeta. assert (B : Bleb (Bopp one64) (f64_lit 6917529027641082 (-61)) && Bleb (f64_lit 6917529027641082 (-61)) one64 = true) by (vm_compute; reflexivity). apply andb_true_iff in B. destruct B as [B1 B2].
  assert (F : finite (f64_lit 6917529027641082 (-61))) by (vm_compute; reflexivity). destruct one64_ok as [V1 F1]. assert (FO : finite (Bopp one64)) by (unfold finite in *; rewrite is_finite_Bopp; exact F1). assert (VO : f64R (Bopp one64) = -1) by (unfold f64R in *; rewrite B2R_Bopp, V1; reflexivity).
  apply (Bleb_R _ _ FO F) in B1. apply (Bleb_R _ _ F F1) in B2. split; [vm_compute; reflexivity|]. split; [|split; vm_compute; reflexivity]. unfold pillars_ok. cbn [fst snd]. split; [lia|]. split; [lia|]. split; [lia|]. split; [exact F|]. split; [exact F|]. split; apply Rabs_le; lra.
Qed.
Print Assumptions C104_pillar_refuted.

(** A rate that is a whole number of 2^-28ths, about a ten-thousandth of a basis point, up to a half is kept by its pillar and by a flat
    curve, to the last bit, on pillars up to 2^24 days apart. *)
Theorem C104_flat (first second : Z * f64) target (k : Z) : pillars_ok first second target -> (Z.abs k <= 134217728)%Z -> f64R (snd second) = IZR k * / 268435456 -> (target = fst second \/ f64R (snd first) = f64R (snd second)) ->
  f64R (zero_between64 first second target) = f64R (snd second).
Proof.
  intros OK HK V2 H. destruct (between_value _ _ _ OK) as (_ & -> & _ & D & A1 & A2). destruct OK as (H1 & H2 & H3 & _).
  assert (P28 : / 268435456 = bpow radix2 (-28)) by reflexivity.
  assert (EX : forall n : Z, (Z.abs n < 2 ^ 53)%Z -> rnd (IZR n * / 268435456) = IZR n * / 268435456).
  { intros n Hn. apply rnd_id. rewrite P28.
    apply generic_format_FLT. exists (Float radix2 n (-28)); [reflexivity|cbn; lia|cbn; lia]. }
  rewrite V2. set (a := (target - fst first)%Z) in *. set (b := (fst second - target)%Z) in *. set (w := / 268435456) in *.
  assert (NZ : IZR a + IZR b <> 0) by (intros E; rewrite E, Rabs_R0 in D; lra).
  assert (R1 : rnd (IZR a * (IZR k * w)) = IZR (a * k) * w) by (rewrite <- Rmult_assoc, <- mult_IZR; apply EX; nia).
  assert (R2 : rnd (IZR b * f64R (snd first)) = IZR (b * k) * w). { destruct H as [E|E]; [replace b with 0%Z by (unfold b; lia); rewrite Rmult_0_l, rnd_0; cbn [Z.mul]; ring|]. rewrite E, V2, <- Rmult_assoc, <- mult_IZR. apply EX. nia. }
  rewrite R1, R2. replace (IZR (a * k) * w + IZR (b * k) * w) with (IZR ((a + b) * k) * w) by (rewrite !mult_IZR, plus_IZR; ring). rewrite EX by nia. rewrite mult_IZR, plus_IZR. replace ((IZR a + IZR b) * IZR k * w / (IZR a + IZR b)) with (IZR k * w) by (field; exact NZ). apply EX. lia.
Qed.
Print Assumptions C104_flat.

(** Pillars at thirty and ninety days with rates of an eighth and a quarter, and the fiftieth day between. *)
Example C104_witness : let p := (30%Z, f64_lit 1 (-3)) in let q := (90%Z, f64_lit 1 (-2)) in
  pillars_ok p q 50 /\ pillars_ok p q 90 /\ f64R (snd q) = IZR 67108864 * / 268435456 /\ Beqb (zero_between64 p q 90) (f64_lit 1 (-2)) = true /\
  Bltb (f64_lit 1 (-3)) (zero_between64 p q 50) && Bltb (zero_between64 p q 50) (f64_lit 1 (-2)) = true.
Proof.
  cbv zeta. assert (P3 : bpow radix2 (-3) = / 8) by reflexivity. assert (P2 : bpow radix2 (-2) = / 4) by reflexivity. destruct (lit_ok 1 (-3) 1) as [VP FP]; [reflexivity|lia|lia|rewrite P3, Rabs_pos_eq; lra|]. destruct (lit_ok 1 (-2) 1) as [VQ FQ]; [reflexivity|lia|lia|rewrite P2, Rabs_pos_eq; lra|]. rewrite P3 in VP. rewrite P2 in VQ.
  assert (K : forall t, (0 <= t <= 100)%Z -> pillars_ok (30%Z, f64_lit 1 (-3)) (90%Z, f64_lit 1 (-2)) t) by (intros t T; unfold pillars_ok; cbn [fst snd]; split; [lia|]; split; [lia|]; split; [lia|]; split; [exact FP|]; split; [exact FQ|]; rewrite VP, VQ, !Rabs_pos_eq by lra; lra).
  split; [apply K; lia|]. split; [apply K; lia|]. split; [cbn [snd]; rewrite VQ; lra|]. split; vm_compute; reflexivity.
Qed.
