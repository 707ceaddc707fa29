(** C106: discount factors from simple rates, in binary64. *)
From Coq Require Import Bool List ZArith Reals Lra Lia Psatz.
From Flocq Require Import Core BinarySingleNaN.
From Verif Require Import F64 Clock64 Clock64Facts Chol64 Chol64Facts P_Chol64 Validate64 P_Validate64 Simple64.
Open Scope R_scope.

(** The growth factor: one plus year fraction times rate. *)
Lemma growth_ok (y r : f64) : finite y -> finite r -> -1 / 2 <= f64R y * f64R r <= 1048576 ->
  f64R (fadd one64 (fmul y r)) = rnd (1 + rnd (f64R y * f64R r)) /\ finite (fadd one64 (fmul y r)) /\ 1 / 2 <= f64R (fadd one64 (fmul y r)) <= 1048577.
Proof.
  intros FY FR H. destruct one64_ok as [V1 F1]. destruct (fmul_ok y r 1048576 FY FR ltac:(lia)) as [V F]; [apply Rabs_le; lra|].
  assert (B : -1 / 2 <= rnd (f64R y * f64R r) <= 1048576). { split; [|rewrite <- (rnd_Z 1048576) by lia; apply rnd_mono; lra]. assert (E : rnd (-1 / 2) = -1 / 2) by (apply rnd_id; apply generic_format_FLT; exists (Float radix2 (-1) (-1)); [unfold F2R; cbn; lra|cbn; lia|cbn; lia]). rewrite <- E. apply rnd_mono. lra. }
  destruct (fadd_ok one64 (fmul y r) 1048577 F1 F ltac:(lia)) as [V2 F2]; [rewrite V1, V; apply Rabs_le; lra|]. rewrite V1, V in V2. split; [exact V2|]. split; [exact F2|]. rewrite V2. split.
  - assert (E : rnd (1 / 2) = 1 / 2) by (apply rnd_id; apply generic_format_FLT; exists (Float radix2 1 (-1)); [unfold F2R; cbn; lra|cbn; lia|cbn; lia]). rewrite <- E at 1. apply rnd_mono. lra.
  - rewrite <- (rnd_Z 1048577) by lia. apply rnd_mono. lra.
Qed.
Lemma discount_ok (y r : f64) (g := f64R (fadd one64 (fmul y r))) : finite y -> finite r -> -1 / 2 <= f64R y * f64R r <= 1048576 ->
  finite (simple_discount64 y r) /\ f64R (simple_discount64 y r) = rnd (1 / g) /\ 1 / 2 <= g <= 1048577.
Proof.
  intros FY FR H. destruct (growth_ok y r FY FR H) as (V & F & B). fold g in B. destruct one64_ok as [V1 F1]. unfold simple_discount64.
  assert (I : 0 < / g <= 2) by (split; [apply Rinv_0_lt_compat; lra|]; replace 2 with (/ (1 / 2)) by lra; apply Rinv_le; lra).
  destruct (fdiv_ok one64 (fadd one64 (fmul y r)) 2 F1) as [V2 F2]; [fold g; apply Rgt_not_eq; lra|lia|fold g; rewrite V1; unfold Rdiv; rewrite Rmult_1_l, Rabs_pos_eq; lra|]. rewrite V1 in V2. fold g in V2. auto.
Qed.

(** The discount factor is positive; at most one for a rate that is not negative, and between one and two for one that is, down to minus one half over the
    year fraction. *)
Theorem C106_range (y r : f64) : finite y -> finite r -> -1 / 2 <= f64R y * f64R r <= 1048576 ->
  finite (simple_discount64 y r) /\ 0 < f64R (simple_discount64 y r) <= 2 /\
  (0 <= f64R y * f64R r -> f64R (simple_discount64 y r) <= 1) /\ (f64R y * f64R r <= 0 -> 1 <= f64R (simple_discount64 y r)).
Proof.
  intros FY FR H. destruct (discount_ok y r FY FR H) as (F & V & B). destruct (growth_ok y r FY FR H) as (VG & _). set (g := f64R (fadd one64 (fmul y r))) in *. split; [exact F|]. rewrite V.
  assert (R0 : rnd 0 = 0) by exact (rnd_Z 0 ltac:(lia)). assert (R1 : rnd 1 = 1) by exact (rnd_Z 1 ltac:(lia)).
  split; [split|split].
  - assert (E : rnd (bpow radix2 (-30)) = bpow radix2 (-30)) by (apply rnd_id, generic_format_bpow; cbn; lia). apply Rlt_le_trans with (bpow radix2 (-30)); [apply bpow_gt_0|]. rewrite <- E. apply rnd_mono. change (bpow radix2 (-30)) with (/ 1073741824). unfold Rdiv. rewrite Rmult_1_l. apply Rinv_le; lra.
  - rewrite <- (rnd_Z 2) by lia. apply rnd_mono. unfold Rdiv. rewrite Rmult_1_l. replace 2 with (/ (1 / 2)) by lra. apply Rinv_le; lra.
  - intros P. rewrite <- R1 at 2. apply rnd_mono. assert (G : 1 <= g) by (rewrite VG; apply Rle_trans with (rnd 1); [lra|]; apply rnd_mono; assert (0 <= rnd (f64R y * f64R r)) by (rewrite <- R0; apply rnd_mono; exact P); lra). unfold Rdiv. rewrite Rmult_1_l. rewrite <- Rinv_1. apply Rinv_le; lra.
  - intros P. rewrite <- R1 at 1. apply rnd_mono. assert (G : g <= 1) by (rewrite VG; apply Rle_trans with (rnd 1); [|lra]; apply rnd_mono; assert (rnd (f64R y * f64R r) <= 0) by (rewrite <- R0; apply rnd_mono; exact P); lra). unfold Rdiv. rewrite Rmult_1_l. rewrite <- Rinv_1. apply Rinv_le; lra.
Qed.
Print Assumptions C106_range.

(** A larger product of year fraction and rate never gives a larger discount factor. *)
Theorem C106_monotone (y r y' r' : f64) : finite y -> finite r -> finite y' -> finite r' -> -1 / 2 <= f64R y * f64R r -> f64R y * f64R r <= f64R y' * f64R r' -> f64R y' * f64R r' <= 1048576 ->
  f64R (simple_discount64 y' r') <= f64R (simple_discount64 y r).
Proof.
  intros FY FR FY' FR' L M U. destruct (discount_ok y r FY FR ltac:(lra)) as (_ & V & B). destruct (discount_ok y' r' FY' FR' ltac:(lra)) as (_ & V' & B'). destruct (growth_ok y r FY FR ltac:(lra)) as (G & _). destruct (growth_ok y' r' FY' FR' ltac:(lra)) as (G' & _).
  rewrite V, V'. apply rnd_mono. unfold Rdiv. rewrite !Rmult_1_l. apply Rinv_le; [lra|]. rewrite G, G'. apply rnd_mono, Rplus_le_compat_l, rnd_mono, M.
Qed.
Print Assumptions C106_monotone.

(** It is the exact one to eight roundings. *)
Lemma near_inverse p m g q u : -1 / 2 <= p -> 0 <= u <= / 1000000 -> Rabs (m - p) <= u * Rabs p + u -> Rabs (g - (1 + m)) <= u * Rabs (1 + m) -> 1 / 2 <= g -> Rabs (q - 1 / g) <= u * (1 / g) -> 
  Rabs (q - 1 / (1 + p)) <= 8 * u * (1 / (1 + p)).
Proof.
  intros HP HU HM HG GB HQ. set (e := 1 + p). assert (E0 : 1 / 2 <= e) by (unfold e; lra). assert (AP : Rabs p <= e) by (apply Rabs_le; unfold e; lra).
  assert (M1 : Rabs (m - p) <= 3 * u * e). { eapply Rle_trans; [exact HM|]. assert (u * Rabs p <= u * e) by (apply Rmult_le_compat_l; lra). assert (u * 1 <= u * (2 * e)) by (apply Rmult_le_compat_l; lra). lra. }
  assert (UE : 0 <= u * e <= / 1000000 * e) by (split; [apply Rmult_le_pos; lra|apply Rmult_le_compat_r; lra]).
  assert (A1 : Rabs (1 + m) <= 1001 / 1000 * e). { replace (1 + m) with ((m - p) + e) by (unfold e; ring). eapply Rle_trans; [apply Rabs_triang|]. rewrite (Rabs_pos_eq e) by lra. lra. }
  assert (G1 : Rabs (g - e) <= 41 / 10 * (u * e)). { replace (g - e) with ((g - (1 + m)) + (m - p)) by (unfold e; ring). eapply Rle_trans; [apply Rabs_triang|]. assert (u * Rabs (1 + m) <= u * (1001 / 1000 * e)) by (apply Rmult_le_compat_l; lra). lra. }
  apply Rabs_le_inv in G1. assert (G2 : 999 / 1000 * e <= g) by lra. assert (GI : 0 < 1 / g) by (apply Rdiv_lt_0_compat; lra). assert (EI : 0 < 1 / e) by (apply Rdiv_lt_0_compat; lra).
  assert (D : Rabs (1 / g - 1 / e) <= 42 / 10 * u * (1 / e)).
  { replace (1 / g - 1 / e) with ((e - g) / g * (1 / e)) by (field; lra). rewrite Rabs_mult, (Rabs_pos_eq (1 / e)) by lra. apply Rmult_le_compat_r; [lra|]. unfold Rdiv. rewrite Rabs_mult, (Rabs_pos_eq (/ g)) by (apply Rlt_le, Rinv_0_lt_compat; lra). apply Rmult_le_reg_r with g; [lra|]. rewrite Rmult_assoc, Rinv_l, Rmult_1_r by lra.
    assert (u * (999 / 1000 * e) <= u * g) by (apply Rmult_le_compat_l; lra). apply Rabs_le. lra. }
  assert (UI : 0 <= u * (1 / e) <= / 1000000 * (1 / e)) by (split; [apply Rmult_le_pos; lra|apply Rmult_le_compat_r; lra]).
  assert (GE : 1 / g <= 1001 / 1000 * (1 / e)) by (apply Rabs_le_inv in D; lra). assert (u * (1 / g) <= u * (1001 / 1000 * (1 / e))) by (apply Rmult_le_compat_l; lra).
  replace (q - 1 / e) with ((q - 1 / g) + (1 / g - 1 / e)) by ring. eapply Rle_trans; [apply Rabs_triang|]. lra.
Qed.
Theorem C106_accuracy (y r : f64) (p := f64R y * f64R r) : finite y -> finite r -> -1 / 2 <= p <= 1048576 -> Rabs (f64R (simple_discount64 y r) - 1 / (1 + p)) <= 8 * u53 * (1 / (1 + p)).
Proof.
  intros FY FR H. destruct (discount_ok y r FY FR H) as (_ & V & B). destruct (growth_ok y r FY FR H) as (VG & _). destruct one64_ok as [V1 F1]. destruct (fmul_ok y r 1048576 FY FR ltac:(lia)) as [VM FM]; [apply Rabs_le; fold p; lra|]. fold p in VM. pose proof u53_eq as UE. pose proof u53_pos as U.
  apply (near_inverse p (rnd p) (f64R (fadd one64 (fmul y r)))); [lra|split; lra| | |lra|].
  - pose proof (rnd_abs p). assert (bpow radix2 (-1000) <= u53) by (apply Rle_trans with (bpow radix2 (-60)); [apply bpow_le; lia|]; change (bpow radix2 (-60)) with (/ 1152921504606846976); lra). lra.
  - rewrite VG. fold p. destruct (rnd_plus one64 (fmul y r)) as (e & E & R). rewrite V1, VM in R. rewrite R. replace ((1 + rnd p) * (1 + e) - (1 + rnd p)) with (e * (1 + rnd p)) by ring. rewrite Rabs_mult. apply Rmult_le_compat_r; [apply Rabs_pos|exact E].
  - rewrite V. set (g := f64R (fadd one64 (fmul y r))) in *. assert (I : bpow radix2 (-1022) <= 1 / g) by (apply Rle_trans with (bpow radix2 (-30)); [apply bpow_le; lia|]; change (bpow radix2 (-30)) with (/ 1073741824); unfold Rdiv; rewrite Rmult_1_l; apply Rinv_le; lra).
    assert (P0 : 0 < 1 / g) by (apply Rdiv_lt_0_compat; lra). destruct (rnd_rel (1 / g)) as (e & E & R); [rewrite Rabs_pos_eq; lra|]. rewrite R. replace (1 / g * (1 + e) - 1 / g) with (e * (1 / g)) by ring. rewrite Rabs_mult, (Rabs_pos_eq (1 / g)) by lra. apply Rmult_le_compat_r; lra.
Qed.
Print Assumptions C106_accuracy.

(** Rates that make less of a difference than half a rounding all give one: the curve cannot tell them from zero. *)
Theorem C106_strict_refuted (y r : f64) : finite y -> finite r -> 0 <= f64R y * f64R r <= bpow radix2 (-54) -> f64R (simple_discount64 y r) = 1.
Proof.
  intros FY FR H. assert (S : bpow radix2 (-54) = / 18014398509481984) by reflexivity. assert (B : -1 / 2 <= f64R y * f64R r <= 1048576) by lra. destruct (discount_ok y r FY FR B) as (_ & V & _). destruct (growth_ok y r FY FR B) as (VG & _).
  assert (R1 : rnd 1 = 1) by exact (rnd_Z 1 ltac:(lia)). assert (M : 0 <= rnd (f64R y * f64R r) <= bpow radix2 (-54)). { split; [rewrite <- (rnd_Z 0) by lia; apply rnd_mono; apply H|]. rewrite <- (rnd_id (bpow radix2 (-54))) by (apply generic_format_bpow; cbn; lia). apply rnd_mono. apply H. }
  assert (G : f64R (fadd one64 (fmul y r)) = 1). { rewrite VG. set (m := rnd (f64R y * f64R r)) in *. apply Rle_antisym; [|rewrite <- R1 at 1; apply rnd_mono; lra].
    unfold rnd. apply round_N_le_midp; [apply FLT_exp_valid; reflexivity|rewrite <- R1; apply generic_format_round; [apply FLT_exp_valid; reflexivity|apply valid_rnd_N]|].
    rewrite succ_eq_pos by lra. assert (UL : ulp radix2 (FLT_exp (-1074) 53) 1 = bpow radix2 (-52)) by (replace 1 with (bpow radix2 0) by reflexivity; rewrite ulp_bpow; reflexivity). rewrite UL. change (bpow radix2 (-52)) with (/ 4503599627370496). lra. }
  rewrite V, G. replace (1 / 1) with 1 by lra. exact R1.
Qed.
Print Assumptions C106_strict_refuted.

(** At a rate of minus one over the year fraction the factor is infinite, whenever the product is exact. *)
Lemma zero_shape (x : f64) : finite x -> f64R x = 0 -> exists s, x = B754_zero s.
Proof.
  intros F H. destruct x as [s|s| |s m e B]; try discriminate F; [exists s; reflexivity|]. exfalso. unfold f64R in H. cbn [B2R] in H. apply eq_0_F2R in H. destruct s; discriminate H.
Qed.
Theorem C106_pole_refuted (y r : f64) : finite y -> finite r -> f64R y * f64R r = -1 -> is_finite (simple_discount64 y r) = false.
Proof.
  intros FY FR H. destruct one64_ok as [V1 F1]. destruct (fmul_ok y r 1 FY FR ltac:(lia)) as [V F]; [rewrite H, Rabs_left; lra|]. rewrite H in V. rewrite (rnd_Z (-1)) in V by lia.
  destruct (fadd_ok one64 (fmul y r) 1 F1 F ltac:(lia)) as [V2 F2]; [rewrite V1, V; replace (1 + -1) with 0 by ring; rewrite Rabs_R0; lra|]. rewrite V1, V in V2. replace (1 + -1) with 0 in V2 by ring. rewrite (rnd_Z 0) in V2 by lia.
  destruct (zero_shape _ F2 V2) as (s & E). unfold simple_discount64. rewrite E. destruct one64 as [t|t| |t m e B]; reflexivity.
Qed.
Print Assumptions C106_pole_refuted.

(** The rate a futures price implies: exactly zero at one hundred, falling in the price, rising in the adjustment, and exact to four roundings of one plus the
    sizes of its parts. *)
Lemma hundred_ok : f64R (f64_of_Z 100) = 100 /\ finite (f64_of_Z 100). Proof. exact (f64_of_Z_ok 100 ltac:(lia)). Qed.
Lemma implied_ok (v a : f64) : finite v -> finite a -> Rabs (f64R v) <= 1048576 -> Rabs (f64R a) <= 1048576 ->
  finite (implied_quote64 v a) /\ f64R (implied_quote64 v a) = rnd (rnd (1 - rnd (f64R v / 100)) + rnd (f64R a / 100)) /\
  f64R (fdiv v (f64_of_Z 100)) = rnd (f64R v / 100) /\ f64R (fdiv a (f64_of_Z 100)) = rnd (f64R a / 100) /\ f64R (fsub one64 (fdiv v (f64_of_Z 100))) = rnd (1 - rnd (f64R v / 100)).
Proof.
  intros FV FA HV HA. destruct one64_ok as [V1 F1]. destruct hundred_ok as [VC FC].
  assert (Q : forall x : f64, Rabs (f64R x) <= 1048576 -> Rabs (f64R x / 100) <= 10486) by (intros x K; unfold Rdiv; rewrite Rabs_mult, (Rabs_pos_eq (/ 100)) by lra; lra).
  destruct (fdiv_ok v (f64_of_Z 100) 10486 FV ltac:(rewrite VC; lra) ltac:(lia)) as [W1 G1]; [rewrite VC; apply Q, HV|]. destruct (fdiv_ok a (f64_of_Z 100) 10486 FA ltac:(rewrite VC; lra) ltac:(lia)) as [W2 G2]; [rewrite VC; apply Q, HA|]. rewrite VC in W1, W2.
  assert (RB : forall x : f64, Rabs (f64R x) <= 1048576 -> -10486 <= rnd (f64R x / 100) <= 10486) by (intros x K; specialize (Q x K); apply Rabs_le_inv in Q; split; [rewrite <- (rnd_Z (-10486)) by lia|rewrite <- (rnd_Z 10486) by lia]; apply rnd_mono; lra).
  pose proof (RB v HV) as BV. pose proof (RB a HA) as BA.
  destruct (fsub_ok one64 (fdiv v (f64_of_Z 100)) 10487 F1 G1 ltac:(lia)) as [W3 G3]; [rewrite V1, W1; apply Rabs_le; lra|]. rewrite V1, W1 in W3.
  assert (BS : -10487 <= rnd (1 - rnd (f64R v / 100)) <= 10487) by (split; [rewrite <- (rnd_Z (-10487)) by lia|rewrite <- (rnd_Z 10487) by lia]; apply rnd_mono; lra).
  destruct (fadd_ok (fsub one64 (fdiv v (f64_of_Z 100))) (fdiv a (f64_of_Z 100)) 20973 G3 G2 ltac:(lia)) as [W4 G4]; [rewrite W3, W2; apply Rabs_le; lra|]. rewrite W3, W2 in W4. unfold implied_quote64. auto.
Qed.
Theorem C106_implied (v a v' a' : f64) : finite v -> finite a -> finite v' -> finite a' -> Rabs (f64R v) <= 1048576 -> Rabs (f64R a) <= 1048576 -> Rabs (f64R v') <= 1048576 -> Rabs (f64R a') <= 1048576 ->
  (f64R v = 100 -> f64R a = 0 -> f64R (implied_quote64 v a) = 0) /\
  (f64R v' <= f64R v -> f64R a <= f64R a' -> f64R (implied_quote64 v a) <= f64R (implied_quote64 v' a')) /\
  Rabs (f64R (implied_quote64 v a) - (1 - f64R v / 100 + f64R a / 100)) <= 4 * u53 * (1 + Rabs (f64R v / 100) + Rabs (f64R a / 100)) + bpow radix2 (-998).
Proof.
  intros FV FA FV' FA' HV HA HV' HA'. destruct (implied_ok v a FV FA HV HA) as (_ & E & W1 & W2 & W3). destruct (implied_ok v' a' FV' FA' HV' HA') as (_ & E' & _). split; [|split].
  - intros K1 K2. rewrite E, K1, K2. replace (100 / 100) with 1 by field. replace (0 / 100) with 0 by field. rewrite (rnd_Z 1), (rnd_Z 0) by lia. replace (1 - 1) with 0 by ring. rewrite (rnd_Z 0) by lia. rewrite Rplus_0_r. apply (rnd_Z 0). lia.
  - intros L M. rewrite E, E'. apply rnd_mono, Rplus_le_compat; apply rnd_mono; [|lra]. assert (rnd (f64R v' / 100) <= rnd (f64R v / 100)) by (apply rnd_mono; lra). lra.
  - rewrite E. set (x := f64R v / 100) in *. set (z := f64R a / 100) in *. pose proof u53_pos as U. pose proof u53_eq as UE. destruct one64_ok as [V1 F1].
    pose proof (rnd_abs x) as X. pose proof (rnd_abs z) as Y. set (t := bpow radix2 (-1000)) in *. assert (T0 : 0 < t) by apply bpow_gt_0. assert (T1 : bpow radix2 (-998) = 4 * t) by (unfold t; change (-998)%Z with (2 + -1000)%Z; rewrite bpow_plus; reflexivity). rewrite T1.
    destruct (rnd_minus one64 (fdiv v (f64_of_Z 100))) as (e1 & D1 & R1). rewrite V1, W1 in R1. destruct (rnd_plus (fsub one64 (fdiv v (f64_of_Z 100))) (fdiv a (f64_of_Z 100))) as (e2 & D2 & R2). rewrite W3, W2 in R2.
    set (p := rnd x) in *. set (q := rnd z) in *. set (s := rnd (1 - p)) in *. rewrite R2. pose proof (Rabs_pos x) as X0. pose proof (Rabs_pos z) as Z0. set (S := 1 + Rabs x + Rabs z).
    assert (US : 0 <= u53 * S <= / 1000000 * S) by (unfold S; split; [apply Rmult_le_pos; lra|apply Rmult_le_compat_r; lra]). assert (UX : 0 <= u53 * Rabs x) by (apply Rmult_le_pos; lra). assert (UZ : 0 <= u53 * Rabs z) by (apply Rmult_le_pos; lra). assert (SX : u53 * S = u53 + u53 * Rabs x + u53 * Rabs z) by (unfold S; ring). assert (UT : 0 <= u53 * t <= / 1000000 * t) by (split; [apply Rmult_le_pos; lra|apply Rmult_le_compat_r; lra]).
    assert (P1 : Rabs (1 - p) <= 1 + Rabs x + u53 * Rabs x + t). { replace (1 - p) with (1 + (- x) + (- (p - x))) by ring. eapply Rle_trans; [apply Rabs_triang|]. rewrite Rabs_Ropp. pose proof (Rabs_triang 1 (- x)) as T. rewrite Rabs_R1, Rabs_Ropp in T. lra. }
    assert (E1 : Rabs (s - (1 - p)) <= u53 * (1 + Rabs x + u53 * Rabs x + t)). { rewrite R1. replace ((1 - p) * (1 + e1) - (1 - p)) with (e1 * (1 - p)) by ring. rewrite Rabs_mult. apply Rmult_le_compat; auto using Rabs_pos. }
    assert (UU : u53 * (u53 * Rabs x) <= / 1000000 * (u53 * Rabs x)) by (apply Rmult_le_compat_r; lra). replace (u53 * (1 + Rabs x + u53 * Rabs x + t)) with (u53 + u53 * Rabs x + u53 * (u53 * Rabs x) + u53 * t) in E1 by ring.
    assert (E2 : Rabs (s + q - (1 - x + z)) <= 21 / 10 * (u53 * S) + 21 / 10 * t). { replace (s + q - (1 - x + z)) with ((s - (1 - p)) + (- (p - x)) + (q - z)) by ring. eapply Rle_trans; [apply Rabs_triang|]. eapply Rle_trans; [apply Rplus_le_compat_r, Rabs_triang|]. rewrite Rabs_Ropp. lra. }
    assert (A : Rabs (s + q) <= 1001 / 1000 * S + 21 / 10 * t). { replace (s + q) with ((s + q - (1 - x + z)) + (1 + - x + z)) by ring. eapply Rle_trans; [apply Rabs_triang|]. pose proof (Rabs_triang (1 + - x) z) as T1'. pose proof (Rabs_triang 1 (- x)) as T2'. rewrite Rabs_R1, Rabs_Ropp in T2'. unfold S in *. lra. }
    replace ((s + q) * (1 + e2) - (1 - x + z)) with ((s + q - (1 - x + z)) + e2 * (s + q)) by ring. eapply Rle_trans; [apply Rabs_triang|]. rewrite Rabs_mult. assert (M : Rabs e2 * Rabs (s + q) <= u53 * (1001 / 1000 * S + 21 / 10 * t)) by (apply Rmult_le_compat; auto using Rabs_pos). replace (u53 * (1001 / 1000 * S + 21 / 10 * t)) with (1001 / 1000 * (u53 * S) + 21 / 10 * (u53 * t)) in M by ring. lra.
Qed.
Print Assumptions C106_implied.

(** A quarter at the 4% a price of 96 implies; a rate of minus one for a year; a rate of 2^-106 for a year. *)
Definition quarter64 : f64 := fdiv one64 (f64_of_Z 4).
Definition price96 : f64 := f64_of_Z 96.
Lemma dyadic (n : Z) (k : Z) (d : f64) : (0 <= n <= 2 ^ 53)%Z -> (-1000 <= k)%Z -> d = fdiv (f64_of_Z n) (f64_of_Z (2 ^ (- k))) -> (0 <= - k <= 53)%Z -> finite d /\ f64R d = IZR n * bpow radix2 k.
Proof.
  intros N K -> K2. destruct (f64_of_Z_ok n ltac:(lia)) as [VN FN]. assert (PB : (1 <= 2 ^ (- k) <= 2 ^ 53)%Z) by (split; [change 1%Z with (2 ^ 0)%Z|]; apply Z.pow_le_mono_r; lia). destruct (f64_of_Z_ok (2 ^ (- k)) ltac:(lia)) as [VD FD].
  assert (D : IZR (2 ^ (- k)) = / bpow radix2 k) by (rewrite <- bpow_opp; apply (IZR_Zpower radix2); lia). assert (DP : 1 <= IZR (2 ^ (- k))) by (apply (IZR_le 1); lia).
  assert (Q : IZR n / IZR (2 ^ (- k)) = IZR n * bpow radix2 k) by (rewrite D; unfold Rdiv; rewrite Rinv_inv; reflexivity).
  destruct (fdiv_ok (f64_of_Z n) (f64_of_Z (2 ^ (- k))) (2 ^ 53) FN) as [V F]; [rewrite VD; apply Rgt_not_eq; lra|lia| |].
  - rewrite VN, VD. unfold Rdiv. rewrite Rabs_mult, (Rabs_pos_eq (IZR n)) by (apply (IZR_le 0); lia). assert (I : 0 < / IZR (2 ^ (- k)) <= 1) by (split; [apply Rinv_0_lt_compat; lra|rewrite <- Rinv_1; apply Rinv_le; lra]). rewrite Rabs_pos_eq by lra. apply Rle_trans with (IZR n * 1); [apply Rmult_le_compat_l; [apply (IZR_le 0); lia|lra]|rewrite Rmult_1_r; apply IZR_le; lia].
  - split; [exact F|]. rewrite V, VN, VD, Q. destruct (Z.eq_dec n (2 ^ 53)) as [->|NE].
    + apply rnd_id. replace (IZR (2 ^ 53)) with (bpow radix2 53) by reflexivity. rewrite <- bpow_plus. apply generic_format_bpow. unfold FLT_exp. lia.
    + apply rnd_id, generic_format_FLT. exists (Float radix2 n k); [unfold F2R; cbn [Fnum Fexp]; reflexivity|cbn [Fnum]; rewrite Z.abs_eq by lia; change (radix2 ^ 53)%Z with (2 ^ 53)%Z; lia|cbn; lia].
Qed.
Example C106_witness :
  (finite quarter64 /\ finite price96 /\ finite zero64 /\ f64R quarter64 = 1 / 4 /\ f64R price96 = 96 /\ Bleb (implied_quote64 price96 zero64) (fdiv (f64_of_Z 401) (f64_of_Z 10000)) = true /\ Bltb (simple_discount64 quarter64 (implied_quote64 price96 zero64)) one64 = true) /\
  (finite one64 /\ finite (Bopp one64) /\ f64R one64 * f64R (Bopp one64) = -1) /\
  (exists r : f64, finite r /\ 0 < f64R one64 * f64R r <= bpow radix2 (-54)).
Proof.
  destruct one64_ok as [V1 F1]. destruct zero64_ok as [V0 F0]. destruct (f64_of_Z_ok 96 ltac:(lia)) as [V96 F96]. split; [|split].
  - destruct (dyadic 1 (-2) quarter64 ltac:(lia) ltac:(lia) eq_refl ltac:(lia)) as [FQ VQ]. split; [exact FQ|]. split; [exact F96|]. split; [exact F0|]. split; [rewrite VQ; change (bpow radix2 (-2)) with (/ 4); lra|]. split; [exact V96|]. split; vm_compute; reflexivity.
  - split; [exact F1|]. split; [unfold finite; rewrite is_finite_Bopp; exact F1|]. unfold f64R in *. rewrite B2R_Bopp, V1. ring.
  - destruct (dyadic 1 (-53) (fdiv (f64_of_Z 1) (f64_of_Z (2 ^ (- -53)))) ltac:(lia) ltac:(lia) eq_refl ltac:(lia)) as [FQ VQ]. destruct (f64_of_Z_ok 2 ltac:(lia)) as [V2 F2]. set (h := fdiv (f64_of_Z 1) (f64_of_Z (2 ^ (- -53)))) in *. rewrite Rmult_1_l in VQ.
    destruct (fmul_ok h h 1 FQ FQ ltac:(lia)) as [VM FM]; [rewrite VQ, Rabs_pos_eq by (apply Rmult_le_pos; apply bpow_ge_0); change (bpow radix2 (-53)) with (/ 9007199254740992); lra|]. exists (fmul h h). split; [exact FM|]. rewrite V1, Rmult_1_l, VM, VQ, <- bpow_plus, rnd_id by (apply generic_format_bpow; cbn; lia). split; [apply bpow_gt_0|apply bpow_le; lia].
Qed.
