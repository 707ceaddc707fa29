(** Error bounds of the accumulated clock. *)
From Coq Require Import Bool List Arith ZArith Reals Lra Lia Psatz.
Import ListNotations.
From Flocq Require Import Core BinarySingleNaN Plus_error Relative.
From Verif Require Import Outcome F64 Clock64.
Open Scope R_scope.

Definition u53 : R := / IZR (2 ^ 53).
Lemma u53_pos : 0 < u53. Proof. unfold u53. apply Rinv_0_lt_compat, IZR_lt. reflexivity. Qed.
Lemma u53_bpow : u53 = / 2 * bpow radix2 (-53 + 1). Proof. unfold u53. change (bpow radix2 (-53 + 1)) with (/ IZR (2 ^ 52)). change (2 ^ 53)%Z with (2 * 2 ^ 52)%Z. rewrite mult_IZR. rewrite Rinv_mult. reflexivity. Qed.
Lemma format64 (x : f64) : generic_format radix2 (FLT_exp (-1074) 53) (f64R x). Proof. exact (generic_format_B2R 53 1024 x). Qed.

Lemma rnd_plus x y : exists e, Rabs e <= u53 /\ rnd (f64R x + f64R y) = (f64R x + f64R y) * (1 + e).
Proof.
  destruct (FLT_plus_error_N_ex radix2 (-1074) 53 (fun n => negb (Z.even n)) (f64R x) (f64R y) (format64 x) (format64 y)) as (e & E & H). exists e. split; [|exact H].
  apply Rle_trans with (1 := E). assert (EU : u_ro radix2 53 = u53) by (rewrite u53_bpow; reflexivity). rewrite EU. pose proof u53_pos as P. apply Rmult_le_reg_r with (1 + u53); [lra|]. unfold Rdiv. rewrite Rmult_assoc, Rinv_l by lra. nra.
Qed.
Lemma rnd_rel x : bpow radix2 (-1022) <= Rabs x -> exists e, Rabs e <= u53 /\ rnd x = x * (1 + e).
Proof. intros H. rewrite u53_bpow. apply (relative_error_N_FLT_ex radix2 (-1074) 53 ltac:(lia) (fun n => negb (Z.even n)) x H). Qed.

Lemma Bleb_R x y : finite x -> finite y -> Bleb x y = true <-> f64R x <= f64R y.
Proof. intros X Y. rewrite (Bleb_correct _ _ _ _ X Y). unfold f64R. destruct (Rle_bool_spec (B2R x) (B2R y)); split; [intros _; lra|reflexivity|discriminate|lra]. Qed.
Lemma Bltb_R x y : finite x -> finite y -> Bltb x y = true <-> f64R x < f64R y.
Proof. intros X Y. rewrite (Bltb_correct _ _ _ _ X Y). unfold f64R. destruct (Rlt_bool_spec (B2R x) (B2R y)); split; [intros _; lra|reflexivity|discriminate|lra]. Qed.

(* powers close to one *)
Lemma pow_up u k : 0 <= u -> 2 * INR k * u <= 1 -> (1 + u) ^ k <= 1 + 2 * INR k * u.
Proof.
  intros U. induction k as [|k IH]; intros H; [cbn; lra|]. rewrite S_INR in *. cbn [pow]. pose proof (pos_INR k) as P. assert (H' : 2 * INR k * u <= 1) by nra. specialize (IH H'). nra.
Qed.
Lemma pow_down u k : 0 <= u <= 1 -> 1 - INR k * u <= (1 - u) ^ k.
Proof.
  intros U. induction k as [|k IH]; [cbn; lra|]. rewrite S_INR. cbn [pow]. pose proof (pos_INR k) as P. nra.
Qed.

Lemma zero64_ok : f64R zero64 = 0 /\ finite zero64. Proof. exact (f64_of_Z_ok 0 ltac:(lia)). Qed.
Lemma lit_ok m e b : (Z.abs m < 2 ^ 53)%Z -> (-1074 <= e)%Z -> (0 <= b <= 2 ^ 53)%Z -> Rabs (IZR m * bpow radix2 e) <= IZR b -> f64R (f64_lit m e) = IZR m * bpow radix2 e /\ finite (f64_lit m e).
Proof.
  intros M E B H. pose proof (binary_normalize_correct 53 1024 _ _ mode_NE m e false) as C. cbv zeta in C. assert (F : F2R (Float radix2 m e) = IZR m * bpow radix2 e) by reflexivity. rewrite F in C. rewrite (small_lt _ b) in C by assumption.
  destruct C as (A & D & _). split; [|exact D]. unfold f64R, f64_lit. rewrite A. apply (rnd_id (IZR m * bpow radix2 e)). apply generic_format_FLT. exists (Float radix2 m e); [reflexivity|exact M|exact E].
Qed.
Lemma half64_ok : f64R half64 = / 2 /\ finite half64.
Proof.
  assert (E : IZR 1 * bpow radix2 (-1) = / 2) by (change (bpow radix2 (-1)) with (/ 2); lra). rewrite <- E. apply (lit_ok 1 (-1) 1); [reflexivity|lia|lia|]. rewrite E, Rabs_pos_eq; lra.
Qed.
Lemma bpow_102 : bpow radix2 (-102) = / IZR (2 ^ 102). Proof. reflexivity. Qed.
Lemma tol15_ok : f64R tol15 = IZR 5070602400912918 / IZR (2 ^ 102) /\ finite tol15.
Proof.
  assert (P : 0 < IZR (2 ^ 102)) by (apply IZR_lt; reflexivity). unfold Rdiv. rewrite <- bpow_102. apply (lit_ok _ _ 1); [reflexivity|lia|lia|]. rewrite bpow_102, Rabs_pos_eq.
  - apply Rmult_le_reg_r with (IZR (2 ^ 102)); [exact P|]. rewrite Rmult_assoc, Rinv_l, Rmult_1_r, Rmult_1_l by lra. apply IZR_le. vm_compute. discriminate.
  - apply Rmult_le_pos; [apply IZR_le; lia|left; apply Rinv_0_lt_compat, P].
Qed.
(* 1e-15 lies between 2^-50 and 1.126 times that *)
Lemma tol15_bounds : / IZR (2 ^ 50) < f64R tol15 < 6 / 5 * / IZR (2 ^ 50).
Proof.
  rewrite (proj1 tol15_ok). change (2 ^ 102)%Z with (2 ^ 52 * 2 ^ 50)%Z. rewrite mult_IZR. assert (P : 0 < IZR (2 ^ 50)) by (apply IZR_lt; reflexivity). assert (Q : 0 < IZR (2 ^ 52)) by (apply IZR_lt; reflexivity).
  unfold Rdiv. rewrite Rinv_mult, <- Rmult_assoc. pose proof (Rinv_0_lt_compat _ P) as I. split.
  - rewrite <- (Rmult_1_l (/ IZR (2 ^ 50))) at 1. apply Rmult_lt_compat_r; [exact I|]. apply Rmult_lt_reg_r with (IZR (2 ^ 52)); [exact Q|]. rewrite Rmult_assoc, Rinv_l, Rmult_1_r, Rmult_1_l by lra. apply IZR_lt. reflexivity.
  - apply Rmult_lt_compat_r; [exact I|]. apply Rmult_lt_reg_r with (IZR (2 ^ 52)); [exact Q|]. rewrite Rmult_assoc, Rinv_l, Rmult_1_r by lra. apply Rmult_lt_reg_r with 5; [lra|]. replace (6 * / 5 * IZR (2 ^ 52) * 5) with (6 * IZR (2 ^ 52)) by field. rewrite <- !mult_IZR. apply IZR_lt. reflexivity.
Qed.

(** ** The step and the clock *)
(* the range of lengths of a simulation, in years *)
Definition sensible (t : f64) : Prop := finite t /\ bpow radix2 (-900) <= f64R t <= bpow radix2 40.
Lemma big40 : bpow radix2 40 = IZR (2 ^ 40). Proof. reflexivity. Qed.

Lemma step_value T n : sensible T -> (0 < n)%nat -> (Z.of_nat n <= 2 ^ 24)%Z ->
  finite (step64 T n) /\ exists e, Rabs e <= u53 /\ f64R (step64 T n) = f64R T / INR n * (1 + e).
Proof.
  intros [FT [T0 T1]] N NB. destruct (f64_of_Z_ok (Z.of_nat n) ltac:(lia)) as [EN FN]. rewrite <- INR_IZR_INZ in EN. assert (N1 : 1 <= INR n) by (apply (le_INR 1); lia). assert (N2 : INR n <= bpow radix2 24) by (rewrite INR_IZR_INZ; change (bpow radix2 24) with (IZR (2 ^ 24)); apply IZR_le; exact NB).
  pose proof (bpow_gt_0 radix2 (-900)) as PT. assert (Q : bpow radix2 (-1022) <= f64R T / INR n <= bpow radix2 40).
  { split.
    - apply Rmult_le_reg_r with (INR n); [lra|]. unfold Rdiv. rewrite Rmult_assoc, Rinv_l, Rmult_1_r by lra. apply Rle_trans with (bpow radix2 (-1022) * bpow radix2 24); [apply Rmult_le_compat_l; [apply bpow_ge_0|exact N2]|]. rewrite <- bpow_plus. apply Rle_trans with (2 := T0). apply bpow_le. lia.
    - apply Rmult_le_reg_r with (INR n); [lra|]. unfold Rdiv. rewrite Rmult_assoc, Rinv_l, Rmult_1_r by lra. pose proof (bpow_ge_0 radix2 40). nra. }
  assert (AB : Rabs (f64R T / INR n) = f64R T / INR n) by (apply Rabs_pos_eq; pose proof (bpow_ge_0 radix2 (-1022)); lra).
  destruct (fdiv_ok T (f64_of_Z (Z.of_nat n)) (2 ^ 40) FT) as [EV FV]; [rewrite EN; lra|lia|rewrite EN, AB, <- big40; apply Q|]. split; [exact FV|]. unfold step64. rewrite EV, EN. apply rnd_rel. rewrite AB. apply Q.
Qed.

Lemma u53_eq : 9007199254740992 * u53 = 1. Proof. unfold u53. change (2 ^ 53)%Z with 9007199254740992%Z. field. Qed.
Lemma small_n n : (Z.of_nat n <= 2 ^ 24)%Z -> INR n <= 16777216.
Proof. intros H. rewrite INR_IZR_INZ. apply IZR_le. exact H. Qed.

Lemma clock_value d n : finite d -> 0 < f64R d -> (Z.of_nat n <= 2 ^ 24)%Z -> INR n * f64R d <= 2 ^ 41 -> forall k, (k <= n)%nat ->
  finite (clock64 d k) /\ INR k * f64R d * (1 - u53) ^ k <= f64R (clock64 d k) <= INR k * f64R d * (1 + u53) ^ k.
Proof.
  intros FD D NB B. apply small_n in NB. set (D' := f64R d) in *. pose proof u53_pos as U. pose proof u53_eq as UE. induction k as [|k IH]; intros K.
  - destruct zero64_ok as [E F]. cbn [clock64 Nat.iter nat_rect]. split; [exact F|]. change (clock64 d 0) with zero64. rewrite E. cbn. lra.
  - destruct (IH ltac:(lia)) as [FC [L H]]. assert (KN : INR k + 1 <= INR n) by (rewrite <- S_INR; apply le_INR, K). pose proof (pos_INR k) as K0.
    assert (KU : INR k * u53 <= / 4) by (apply Rle_trans with (16777216 * u53); [apply Rmult_le_compat_r; lra|lra]).
    assert (P1 : (1 + u53) ^ k <= 2). { apply Rle_trans with (1 + 2 * INR k * u53); [apply pow_up; lra|lra]. }
    assert (P2 : 0 <= (1 - u53) ^ k <= 1). { split; [apply pow_le; lra|]. apply Rle_trans with (1 ^ k); [apply pow_incr; lra|rewrite pow1; lra]. }
    assert (P3 : 1 <= (1 + u53) ^ k) by (apply pow_R1_Rle; lra).
    assert (KD : INR k * D' + D' <= 2 ^ 41) by nra. assert (KP : 0 <= INR k * D') by nra. assert (S2 : 0 <= f64R (clock64 d k)) by nra. assert (SU : f64R (clock64 d k) + D' <= 2 ^ 42). { assert (INR k * D' * (1 + u53) ^ k <= INR k * D' * 2) by (apply Rmult_le_compat_l; assumption). cbn in *. lra. }
    destruct (fadd_ok (clock64 d k) d (2 ^ 42) FC FD) as [EV FV]; [lia| |]. { fold D'. rewrite Rabs_pos_eq by lra. change (IZR (2 ^ 42)) with (IZR (2 ^ 42)). replace (IZR (2 ^ 42)) with (2 ^ 42) by (rewrite pow_IZR; reflexivity). exact SU. }
    change (clock64 d (S k)) with (fadd (clock64 d k) d). split; [exact FV|]. rewrite EV. destruct (rnd_plus (clock64 d k) d) as (e & E & ->). fold D'. apply Rabs_le_inv in E. rewrite S_INR. cbn [pow]. set (t := f64R (clock64 d k)) in *. split.
    + apply Rle_trans with ((t + D') * (1 - u53)); [|apply Rmult_le_compat_l; lra]. replace ((INR k + 1) * D' * ((1 - u53) * (1 - u53) ^ k)) with ((INR k * D' * (1 - u53) ^ k + D' * (1 - u53) ^ k) * (1 - u53)) by ring. apply Rmult_le_compat_r; [nra|]. nra.
    + apply Rle_trans with ((t + D') * (1 + u53)); [apply Rmult_le_compat_l; lra|]. replace ((INR k + 1) * D' * ((1 + u53) * (1 + u53) ^ k)) with ((INR k * D' * (1 + u53) ^ k + D' * (1 + u53) ^ k) * (1 + u53)) by ring. apply Rmult_le_compat_r; [lra|]. nra.
Qed.

Lemma scaled x h p : 0 <= h -> 0 <= x <= 16777216 -> 1 - (x + 3) * u53 <= p <= 1 + 2 * (x + 3) * u53 -> x * h - h / 8 <= x * h * p <= x * h + h / 8.
Proof.
  intros H X P. pose proof u53_eq as UE. pose proof u53_pos as U. assert (Q : x * (x + 3) * u53 <= / 16). { assert (x * (x + 3) <= 16777216 * 16777219) by nra. apply Rle_trans with (16777216 * 16777219 * u53); [apply Rmult_le_compat_r; lra|]. lra. }
  assert (XH : 0 <= x * h) by nra. assert (QH : x * (x + 3) * u53 * h <= h / 16) by nra. split.
  - apply Rle_trans with (x * h * (1 - (x + 3) * u53)); [|apply Rmult_le_compat_l; lra]. nra.
  - apply Rle_trans with (x * h * (1 + 2 * (x + 3) * u53)); [apply Rmult_le_compat_l; lra|]. nra.
Qed.
Lemma pow_close k c : INR (k + c) <= 16777219 -> 1 - INR (k + c) * u53 <= (1 - u53) ^ (k + c) /\ (1 + u53) ^ (k + c) <= 1 + 2 * INR (k + c) * u53.
Proof. intros H. pose proof u53_eq as UE. pose proof u53_pos as U. split; [apply pow_down; lra|apply pow_up; nra]. Qed.

(** The clock stays within an eighth of a step of the exact grid. *)
Lemma clock_near T n k : sensible T -> (0 < n)%nat -> (Z.of_nat n <= 2 ^ 24)%Z -> (k <= n)%nat ->
  finite (clock64 (step64 T n) k) /\ Rabs (f64R (clock64 (step64 T n) k) - INR k * (f64R T / INR n)) <= f64R T / INR n / 8.
Proof.
  intros ST N NB K. destruct (step_value T n ST N NB) as (FD & e & E & DV). destruct ST as (FT & T0 & T1). apply Rabs_le_inv in E. pose proof u53_eq as UE. pose proof u53_pos as U. pose proof (bpow_gt_0 radix2 (-900)) as TP. pose proof (lt_INR 0 n N) as NP. cbn [INR] in NP. pose proof (small_n n NB) as NS.
  set (h := f64R T / INR n) in *. assert (H0 : 0 < h) by (apply Rdiv_lt_0_compat; lra). assert (NH : INR n * h = f64R T) by (unfold h; field; lra). pose proof (pos_INR k) as K0. pose proof (le_INR k n K) as KN.
  assert (DP : 0 < f64R (step64 T n)) by (rewrite DV; apply Rmult_lt_0_compat; lra).
  destruct (clock_value (step64 T n) n FD DP NB) with (k := k) as [FC [L H]]; [|exact K|].
  { rewrite DV, <- Rmult_assoc, NH. apply Rle_trans with (f64R T * 2); [apply Rmult_le_compat_l; lra|]. rewrite big40 in T1. replace (IZR (2 ^ 40)) with (2 ^ 40) in T1 by (rewrite pow_IZR; reflexivity). change (2 ^ 41) with (2 * 2 ^ 40). lra. }
  split; [exact FC|]. rewrite DV in L, H. destruct (pow_close k 1) as [P1 P2]; [rewrite plus_INR; cbn; lra|]. rewrite plus_INR in P1, P2. cbn [INR] in P1, P2. rewrite pow_add, pow_1 in P1, P2.
  assert (PD : 0 <= (1 - u53) ^ k) by (apply pow_le; lra). assert (PU : 0 <= (1 + u53) ^ k) by (apply pow_le; lra). assert (KH : 0 <= INR k * h) by nra.
  apply Rabs_le. destruct (scaled (INR k) h ((1 + e) * (1 - u53) ^ k)) as [S1 _]; [lra|lra| |]. { split; [|].
      - nra.
      - assert ((1 - u53) ^ k <= 1) by (apply Rle_trans with (1 ^ k); [apply pow_incr; lra|rewrite pow1; lra]). nra. }
  destruct (scaled (INR k) h ((1 + e) * (1 + u53) ^ k)) as [_ S2]; [lra|lra| |]. { split; [|].
      - assert (1 <= (1 + u53) ^ k) by (apply pow_R1_Rle; lra). nra.
      - nra. }
  split; [|].
  - apply Rle_trans with (INR k * h * ((1 + e) * (1 - u53) ^ k) - INR k * h); [lra|]. nra.
  - apply Rle_trans with (INR k * h * ((1 + e) * (1 + u53) ^ k) - INR k * h); [|lra]. nra.
Qed.

(** Every midpoint lies in the middle half of its step of the exact grid. *)
Lemma mid_near T n k : sensible T -> (0 < n)%nat -> (Z.of_nat n <= 2 ^ 24)%Z -> (k < n)%nat ->
  let m := mid64 (step64 T n) (clock64 (step64 T n) k) in let h := f64R T / INR n in
  finite m /\ (INR k + 1 / 4) * h <= f64R m <= (INR k + 3 / 4) * h.
Proof.
  intros ST N NB K. cbv zeta. destruct (clock_near T n k ST N NB ltac:(lia)) as [FC C]. destruct (step_value T n ST N NB) as (FD & e & E & DV). destruct ST as (FT & T0 & T1). apply Rabs_le_inv in E. pose proof u53_eq as UE. pose proof u53_pos as U. pose proof (bpow_gt_0 radix2 (-900)) as TP. pose proof (lt_INR 0 n N) as NP. cbn [INR] in NP. pose proof (small_n n NB) as NS.
  assert (HL : bpow radix2 (-924) <= f64R T / INR n). { apply Rmult_le_reg_r with (INR n); [lra|]. unfold Rdiv. rewrite Rmult_assoc, Rinv_l, Rmult_1_r by lra. apply Rle_trans with (bpow radix2 (-924) * bpow radix2 24); [apply Rmult_le_compat_l; [apply bpow_ge_0|exact NS]|]. rewrite <- bpow_plus. exact T0. }
  set (h := f64R T / INR n) in *. assert (H0 : 0 < h) by (apply Rdiv_lt_0_compat; lra). assert (NH : INR n * h = f64R T) by (unfold h; field; lra). pose proof (pos_INR k) as K0. assert (KN : INR k + 1 <= INR n) by (rewrite <- S_INR; apply le_INR, K). apply Rabs_le_inv in C.
  destruct half64_ok as [EH FH]. set (d := step64 T n) in *. set (t := f64R (clock64 d k)) in *.
  assert (TB : (INR k + 1) * h <= IZR (2 ^ 40)) by (rewrite <- big40; nra). assert (KH : 0 <= INR k * h) by nra.
  assert (DB : h / 2 <= f64R d <= 2 * h) by (rewrite DV; nra).
  assert (AH : Rabs (/ 2 * f64R d) = / 2 * f64R d) by (apply Rabs_pos_eq; lra).
  destruct (fmul_ok half64 d (2 ^ 40) FH FD) as [EM FM]; [lia|rewrite EH, AH; lra|]. rewrite EH in EM.
  destruct (rnd_rel (/ 2 * f64R d)) as (e1 & E1 & R1). { rewrite AH. apply Rle_trans with (bpow radix2 (-926)); [apply bpow_le; lia|]. change (-926)%Z with (-2 + -924)%Z. rewrite bpow_plus. change (bpow radix2 (-2)) with (/ 4). lra. }
  rewrite R1 in EM. apply Rabs_le_inv in E1.
  assert (HM : h / 2 - 3 * u53 * h <= f64R (fmul half64 d) <= h / 2 + 3 * u53 * h). { rewrite EM, DV. assert (EE : Rabs (e * e1) <= u53 * 1) by (rewrite Rabs_mult; apply Rmult_le_compat; try apply Rabs_pos; apply Rabs_le; lra). apply Rabs_le_inv in EE. assert (1 - 3 * u53 <= (1 + e) * (1 + e1) <= 1 + 3 * u53) by (replace ((1 + e) * (1 + e1)) with (1 + e + e1 + e * e1) by ring; lra). replace (/ 2 * (h * (1 + e)) * (1 + e1)) with (h / 2 * ((1 + e) * (1 + e1))) by field. nra. }
  assert (UH : 0 <= u53 * h <= h / 1000000) by nra.
  destruct (fadd_ok (clock64 d k) (fmul half64 d) (2 ^ 41) FC FM) as [EA FA]; [lia| |]. { fold t. change (2 ^ 41)%Z with (2 * 2 ^ 40)%Z. rewrite mult_IZR. rewrite Rabs_pos_eq by lra. lra. }
  split; [exact FA|]. unfold mid64. rewrite EA. destruct (rnd_plus (clock64 d k) (fmul half64 d)) as (e2 & E2 & ->). fold t. apply Rabs_le_inv in E2. set (X := t + f64R (fmul half64 d)) in *.
  assert (XB : (INR k + 1 / 2) * h - h / 7 <= X <= (INR k + 1 / 2) * h + h / 7) by (unfold X; lra).
  assert (KU : (INR k + 1) * h * u53 <= h / 1000000). { apply Rle_trans with (16777216 * u53 * h); [|apply Rle_trans with (/ 1000000 * h); [apply Rmult_le_compat_r; lra|lra]]. replace ((INR k + 1) * h * u53) with ((INR k + 1) * (u53 * h)) by ring. rewrite Rmult_assoc. apply Rmult_le_compat_r; lra. }
  assert (XE : Rabs (X * e2) <= (INR k + 1) * h * u53). { rewrite Rabs_mult. rewrite (Rabs_pos_eq X) by lra. apply Rmult_le_compat; [lra|apply Rabs_pos|lra|apply Rabs_le; lra]. }
  apply Rabs_le_inv in XE. lra.
Qed.

(** The loop of the simulator meets the schedule at the midpoints of the clock. *)
Lemma clock_shift d k : forall n, Nat.iter n (fun t => fadd t d) (clock64 d k) = clock64 d (n + k).
Proof. induction n as [|n IH]; [reflexivity|]. cbn [Nat.iter nat_rect]. unfold Nat.iter in IH. rewrite IH. reflexivity. Qed.
Lemma lookups_map s d : forall n k vs, lookups64 n s d (clock64 d k) = Ok vs <-> length vs = n /\ forall i v, nth_error vs i = Some v -> schedule64_at s (mid64 d (clock64 d (k + i))) = Ok v.
Proof.
  induction n as [|n IH]; intros k vs; cbn [lookups64].
  - split; [intros E; assert (vs = []) by congruence; subst vs; split; [reflexivity|intros [|i] v; discriminate]|]. intros [L _]. destruct vs; [reflexivity|discriminate].
  - specialize (IH (S k)). change (clock64 d (S k)) with (fadd (clock64 d k) d) in IH. destruct (schedule64_at s (mid64 d (clock64 d k))) as [v0|e|p] eqn:E0; cbn [obind].
    + destruct (lookups64 n s d (fadd (clock64 d k) d)) as [vs'|e|p] eqn:E1; cbn [obind].
      * destruct (proj1 (IH vs') eq_refl) as [L A]. split.
        -- intros E. assert (vs = v0 :: vs') by congruence. subst vs. split; [cbn; lia|]. intros [|i] v Ev; [rewrite Nat.add_0_r; cbn in Ev; congruence|]. replace (k + S i)%nat with (S k + i)%nat by lia. apply A. exact Ev.
        -- intros [L' A']. destruct vs as [|w vs]; [discriminate|]. pose proof (A' 0%nat w eq_refl) as W. rewrite Nat.add_0_r, E0 in W. assert (Q : Ok vs' = Ok vs). { apply (IH vs). split; [cbn in L'; lia|]. intros i v Ev. replace (S k + i)%nat with (k + S i)%nat by lia. apply A'. exact Ev. } congruence.
      * split; [discriminate|]. intros [L' A']. exfalso. destruct vs as [|w vs]; [discriminate|]. assert (Q : Err e = Ok vs). { apply (IH vs). split; [cbn in L'; lia|]. intros i v Ev. replace (S k + i)%nat with (k + S i)%nat by lia. apply A'. exact Ev. } discriminate.
      * split; [discriminate|]. intros [L' A']. exfalso. destruct vs as [|w vs]; [discriminate|]. assert (Q : Panic p = Ok vs). { apply (IH vs). split; [cbn in L'; lia|]. intros i v Ev. replace (S k + i)%nat with (k + S i)%nat by lia. apply A'. exact Ev. } discriminate.
    + split; [discriminate|]. intros [L' A']. exfalso. destruct vs as [|w vs]; [discriminate|]. pose proof (A' 0%nat w eq_refl) as W. rewrite Nat.add_0_r, E0 in W. discriminate.
    + split; [discriminate|]. intros [L' A']. exfalso. destruct vs as [|w vs]; [discriminate|]. pose proof (A' 0%nat w eq_refl) as W. rewrite Nat.add_0_r, E0 in W. discriminate.
Qed.

(** A step that is a small multiple of a power of two is added without error. *)
Lemma format_dyadic m e : (Z.abs m <= 2 ^ 53)%Z -> (-1074 <= e)%Z -> generic_format radix2 (FLT_exp (-1074) 53) (IZR m * bpow radix2 e).
Proof.
  intros M E. destruct (Z.eq_dec (Z.abs m) (2 ^ 53)) as [Q|Q].
  - assert (G : generic_format radix2 (FLT_exp (-1074) 53) (bpow radix2 (53 + e))) by (apply generic_format_bpow; unfold FLT_exp; lia). rewrite bpow_plus in G. change (bpow radix2 53) with (IZR (2 ^ 53)) in G. destruct (Z.abs_eq_or_opp m) as [A|A].
    + rewrite <- A, Q. exact G.
    + replace m with (- (2 ^ 53))%Z by lia. rewrite opp_IZR, Ropp_mult_distr_l_reverse. apply generic_format_opp, G.
  - apply generic_format_FLT. exists (Float radix2 m e); [reflexivity|cbn [Fnum]; change (radix2 ^ 53)%Z with (2 ^ 53)%Z; lia|exact E].
Qed.
Lemma clock_exact d n m e : finite d -> f64R d = IZR m * bpow radix2 e -> (0 < m)%Z -> (-1074 <= e)%Z -> (Z.of_nat n * m <= 2 ^ 53)%Z -> INR n * f64R d <= IZR (2 ^ 53) ->
  forall k, (k <= n)%nat -> finite (clock64 d k) /\ f64R (clock64 d k) = INR k * f64R d.
Proof.
  intros FD DV M E NM B. induction k as [|k IH]; intros K.
  - destruct zero64_ok as [E0 F0]. split; [exact F0|]. change (clock64 d 0) with zero64. rewrite E0. cbn. ring.
  - destruct (IH ltac:(lia)) as [FC CV]. assert (DP : 0 < f64R d) by (rewrite DV; apply Rmult_lt_0_compat; [apply IZR_lt; lia|apply bpow_gt_0]). assert (KN : INR k + 1 <= INR n) by (rewrite <- S_INR; apply le_INR, K). pose proof (pos_INR k) as K0.
    assert (SE : f64R (clock64 d k) + f64R d = INR (S k) * f64R d) by (rewrite CV, S_INR; ring).
    destruct (fadd_ok (clock64 d k) d (2 ^ 53) FC FD) as [EV FV]; [lia|rewrite SE, S_INR, Rabs_pos_eq; nra|]. change (clock64 d (S k)) with (fadd (clock64 d k) d). split; [exact FV|]. rewrite EV, SE. apply rnd_id. rewrite DV, INR_IZR_INZ, <- Rmult_assoc, <- mult_IZR. apply format_dyadic; [|exact E]. rewrite Z.abs_eq by nia. nia.
Qed.

(** ** Adding 1e-15 *)
Lemma ulp_ge x k : bpow radix2 (k - 1) <= x -> (-1021 <= k)%Z -> bpow radix2 (k - 53) <= ulp radix2 (FLT_exp (-1074) 53) x.
Proof.
  intros H K. pose proof (bpow_gt_0 radix2 (k - 1)) as P. rewrite ulp_neq_0 by lra. apply bpow_le. unfold cexp, FLT_exp. assert (k <= mag radix2 x)%Z by (apply mag_ge_bpow; rewrite Rabs_pos_eq; lra). lia.
Qed.
Lemma ulp_le x k : 0 <= x -> x < bpow radix2 k -> (-1021 <= k)%Z -> ulp radix2 (FLT_exp (-1074) 53) x <= bpow radix2 (k - 53).
Proof.
  intros X H K. destruct (Req_dec x 0) as [->|NZ].
  - rewrite (@ulp_FLT_0 radix2 (-1074) 53 prec64). apply bpow_le. lia.
  - rewrite ulp_neq_0 by exact NZ. apply bpow_le. unfold cexp, FLT_exp. assert (mag radix2 x <= k)%Z by (apply mag_le_bpow; [exact NZ|rewrite Rabs_pos_eq; lra]). lia.
Qed.
Lemma b49 : bpow radix2 (-49) = 2 * / IZR (2 ^ 50). Proof. change (-49)%Z with (1 + -50)%Z. rewrite bpow_plus. reflexivity. Qed.
Lemma b48 : bpow radix2 (-48) = 4 * / IZR (2 ^ 50). Proof. change (-48)%Z with (2 + -50)%Z. rewrite bpow_plus. reflexivity. Qed.
Lemma i50 : 0 < / IZR (2 ^ 50) < / 1000000000000000. Proof. split; [apply Rinv_0_lt_compat, IZR_lt; reflexivity|]. apply Rinv_lt_contravar; [rewrite <- mult_IZR; apply IZR_lt; reflexivity|apply IZR_lt; reflexivity]. Qed.

Definition moderate (x : f64) : Prop := finite x /\ 0 <= f64R x <= IZR (2 ^ 50).
Lemma tol_value x : moderate x -> finite (fadd x tol15) /\ f64R (fadd x tol15) = rnd (f64R x + f64R tol15).
Proof.
  intros [F [X0 X1]]. destruct tol15_ok as [_ FT]. pose proof tol15_bounds as [T0 T1]. pose proof i50 as [I0 I1]. destruct (fadd_ok x tol15 (2 ^ 51) F FT) as [E FA]; [lia| |split; assumption]. rewrite Rabs_pos_eq by lra. change (2 ^ 51)%Z with (2 ^ 50 + 2 ^ 50)%Z. rewrite plus_IZR. assert (1 <= IZR (2 ^ 50)) by (apply IZR_le; discriminate). lra.
Qed.
Lemma tol_lost x : moderate x -> 16 <= f64R x -> f64R (fadd x tol15) = f64R x.
Proof.
  intros M X. rewrite (proj2 (tol_value x M)). destruct M as [F [X0 X1]]. pose proof tol15_bounds as [T0 T1]. pose proof i50 as [I0 I1]. apply Rle_antisym.
  - apply round_N_le_midp; [typeclasses eauto|apply format64|]. rewrite succ_eq_pos by lra. assert (U : bpow radix2 (-48) <= ulp radix2 (FLT_exp (-1074) 53) (f64R x)) by (apply (ulp_ge _ 5); [change (bpow radix2 (5 - 1)) with 16; lra|lia]). rewrite b48 in U. lra.
  - rewrite <- (rnd_id (f64R x)) at 1 by apply format64. apply rnd_mono. lra.
Qed.
Lemma tol_ge x : moderate x -> f64R x <= f64R (fadd x tol15).
Proof. intros M. rewrite (proj2 (tol_value x M)). rewrite <- (rnd_id (f64R x)) at 1 by apply format64. apply rnd_mono. pose proof tol15_bounds as [T0 T1]. pose proof i50 as [I0 I1]. lra. Qed.
Lemma tol_next x : moderate x -> f64R x < 16 -> succ radix2 (FLT_exp (-1074) 53) (f64R x) <= f64R (fadd x tol15).
Proof.
  intros M X. rewrite (proj2 (tol_value x M)). destruct M as [F [X0 X1]]. pose proof tol15_bounds as [T0 T1]. pose proof i50 as [I0 I1].
  apply round_N_ge_midp; [typeclasses eauto|apply generic_format_succ; [typeclasses eauto|apply format64]|]. rewrite pred_succ by (try typeclasses eauto; apply format64). rewrite succ_eq_pos by exact X0.
  assert (U : ulp radix2 (FLT_exp (-1074) 53) (f64R x) <= bpow radix2 (-49)) by (apply (ulp_le _ 4); [exact X0|change (bpow radix2 4) with 16; lra|lia]). rewrite b49 in U. lra.
Qed.
(* the tolerance never reaches a time a thousandth of a nanosecond away *)
Lemma tol_far x y : moderate x -> f64R x + / 1000000000000 <= y -> f64R (fadd x tol15) < y.
Proof.
  intros M Y. destruct (Rle_lt_dec 16 (f64R x)) as [H|H]; [rewrite tol_lost by assumption; lra|].
  rewrite (proj2 (tol_value x M)). destruct M as [F [X0 X1]]. pose proof tol15_bounds as [T0 T1]. pose proof i50 as [I0 I1].
  assert (A : Rabs (f64R x + f64R tol15) <= bpow radix2 5) by (change (bpow radix2 5) with 32; rewrite Rabs_pos_eq; lra). apply (rnd_error _ 5 ltac:(lia)) in A. change (5 - 54)%Z with (-49)%Z in A. rewrite b49 in A. apply Rabs_le_inv in A. lra.
Qed.
Lemma tol_sub_lost t : moderate t -> 16 < f64R t -> finite (fsub t tol15) /\ f64R (fsub t tol15) = f64R t.
Proof.
  intros [F [X0 X1]] X. destruct tol15_ok as [_ FT]. pose proof tol15_bounds as [T0 T1]. pose proof i50 as [I0 I1]. destruct (fsub_ok t tol15 (2 ^ 50) F FT) as [E FA]; [lia|rewrite Rabs_pos_eq; lra|]. split; [exact FA|]. rewrite E. apply Rle_antisym.
  - rewrite <- (rnd_id (f64R t)) at 2 by apply format64. apply rnd_mono. lra.
  - apply round_N_ge_midp; [typeclasses eauto|apply format64|]. set (q := pred radix2 (FLT_exp (-1074) 53) (f64R t)).
    assert (Q : 16 <= q). { apply pred_ge_gt; [typeclasses eauto| |apply format64|exact X]. replace 16 with (IZR 16) by reflexivity. apply format_Z. lia. }
    assert (S : succ radix2 (FLT_exp (-1074) 53) q = f64R t) by (apply succ_pred; [typeclasses eauto|apply format64]). rewrite succ_eq_pos in S by lra.
    assert (U : bpow radix2 (-48) <= ulp radix2 (FLT_exp (-1074) 53) q) by (apply (ulp_ge _ 5); [change (bpow radix2 (5 - 1)) with 16; lra|lia]). rewrite b48 in U. lra.
Qed.
