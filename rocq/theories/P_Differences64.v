(** The finite differences of the Dupire surface in binary64, on whole numbers: no rounding
    happens, so they are the differences of exact arithmetic. *)
From Coq Require Import Bool List Arith ZArith Reals Lra Lia.
Import ListNotations.
From Flocq Require Import Core BinarySingleNaN.
From Verif Require Import Outcome F64 Clock64 Clock64Facts Floor64.
Open Scope R_scope.

(** [x] is the whole number [a]. *)
Definition whole (x : f64) (a : Z) : Prop := finite x /\ f64R x = IZR a.
Lemma whole_sub x y a b : whole x a -> whole y b -> (Z.abs (a - b) <= 2 ^ 53)%Z -> whole (fsub x y) (a - b).
Proof.
  intros [FX VX] [FY VY] H. destruct (fsub_ok x y (2 ^ 53) FX FY ltac:(lia)) as [V F]; [rewrite VX, VY, <- minus_IZR, <- abs_IZR; apply IZR_le, H|]. split; [exact F|]. rewrite V, VX, VY, <- minus_IZR. apply rnd_Z, H.
Qed.
Lemma whole_add x y a b : whole x a -> whole y b -> (Z.abs (a + b) <= 2 ^ 53)%Z -> whole (fadd x y) (a + b).
Proof.
  intros [FX VX] [FY VY] H. destruct (fadd_ok x y (2 ^ 53) FX FY ltac:(lia)) as [V F]; [rewrite VX, VY, <- plus_IZR, <- abs_IZR; apply IZR_le, H|]. split; [exact F|]. rewrite V, VX, VY, <- plus_IZR. apply rnd_Z, H.
Qed.
Lemma whole_mul x y a b : whole x a -> whole y b -> (Z.abs (a * b) <= 2 ^ 53)%Z -> whole (fmul x y) (a * b).
Proof.
  intros [FX VX] [FY VY] H. destruct (fmul_ok x y (2 ^ 53) FX FY ltac:(lia)) as [V F]; [rewrite VX, VY, <- mult_IZR, <- abs_IZR; apply IZR_le, H|]. split; [exact F|]. rewrite V, VX, VY, <- mult_IZR. apply rnd_Z, H.
Qed.
(** Dividing by one or two is exact. *)
Lemma whole_div x y a b : whole x a -> whole y b -> (b = 1 \/ b = 2)%Z -> (Z.abs a <= 2 ^ 52)%Z -> finite (fdiv x y) /\ f64R (fdiv x y) = IZR a / IZR b.
Proof.
  intros [FX VX] [FY VY] B H. assert (PB : 1 <= IZR b) by (apply IZR_le; lia). assert (HA : Rabs (IZR a) <= IZR (2 ^ 53)) by (rewrite <- abs_IZR; apply IZR_le; lia).
  destruct (fdiv_ok x y (2 ^ 53) FX ltac:(lra) ltac:(lia)) as [V F].
  { rewrite VX, VY. unfold Rdiv. rewrite Rabs_mult, (Rabs_pos_eq (/ IZR b)) by (left; apply Rinv_0_lt_compat; lra). apply Rle_trans with (Rabs (IZR a) * 1); [apply Rmult_le_compat_l; [apply Rabs_pos|]; rewrite <- Rinv_1; apply Rinv_le_contravar; lra|lra]. }
  split; [exact F|]. rewrite V, VX, VY. apply rnd_id. destruct B as [-> | ->].
  - replace (IZR a / 1) with (IZR a * bpow radix2 0) by (cbn; field). apply format_dyadic; lia.
  - replace (IZR a / 2) with (IZR a * bpow radix2 (-1)) by (change (bpow radix2 (-1)) with (/ 2); field). apply format_dyadic; lia.
Qed.

(** On whole prices at unit spacing, with three points or more: the first difference is central
    inside and one-sided at the ends, and the second is that of the nearest inner point. *)
Theorem C100_differences (row ks : list f64) (z : nat -> Z) (k0 : Z) n j : length ks = n -> (3 <= n)%nat -> (Z.of_nat n <= 2 ^ 40)%Z -> (j < n)%nat -> (Z.abs k0 <= 2 ^ 40)%Z ->
  (forall i, (i < n)%nat -> whole (nth i row zero64) (z i) /\ (Z.abs (z i) <= 2 ^ 40)%Z) -> (forall i, (i < n)%nat -> whole (nth i ks zero64) (k0 + Z.of_nat i)) ->
  let i := Nat.max 1 (Nat.min j (n - 2)) in
  (finite (fd_kk64 row ks j) /\ f64R (fd_kk64 row ks j) = IZR (z (i + 1)%nat - 2 * z i + z (i - 1)%nat)) /\
  (finite (fd_k64 row ks j) /\ f64R (fd_k64 row ks j) = if (j =? 0)%nat then IZR (z 1%nat - z 0%nat) else if (j =? n - 1)%nat then IZR (z (n - 1)%nat - z (n - 2)%nat) else IZR (z (j + 1)%nat - z (j - 1)%nat) / 2).
Proof.
  intros L N NB J K0 HR HK i.
  assert (STEP : forall a b, (a < b < n)%nat -> whole (fsub (nth b ks zero64) (nth a ks zero64)) (Z.of_nat (b - a))). { intros a b H. replace (Z.of_nat (b - a)) with (k0 + Z.of_nat b - (k0 + Z.of_nat a))%Z by lia. apply whole_sub; [apply HK; lia|apply HK; lia|lia]. }
  assert (DIFF : forall a b, (a < n)%nat -> (b < n)%nat -> whole (fsub (nth b row zero64) (nth a row zero64)) (z b - z a)). { intros a b A B. destruct (HR a A) as [WA HA], (HR b B) as [WB HB]. apply whole_sub; [exact WB|exact WA|lia]. }
  split.
  - unfold fd_kk64. rewrite L. cbv zeta. assert (EI : (if (j =? 0)%nat then 1%nat else if (j =? n - 1)%nat then (n - 2)%nat else j) = i) by (unfold i; destruct (Nat.eqb_spec j 0); [lia|]; destruct (Nat.eqb_spec j (n - 1)); lia). rewrite EI.
    assert (II : (1 <= i <= n - 2)%nat) by (unfold i; lia). clearbody i. clear EI.
    pose proof (STEP (i - 1)%nat i ltac:(lia)) as H1. replace (Z.of_nat (i - (i - 1))) with 1%Z in H1 by lia. pose proof (STEP i (i + 1)%nat ltac:(lia)) as H2. replace (Z.of_nat (i + 1 - i)) with 1%Z in H2 by lia.
    set (h1 := fsub (nth i ks zero64) (nth (i - 1) ks zero64)) in *. set (h2 := fsub (nth (i + 1) ks zero64) (nth i ks zero64)) in *. pose proof (whole_add h1 h2 1 1 H1 H2 ltac:(lia)) as HS. change (1 + 1)%Z with 2%Z in HS.
    destruct (HR (i + 1)%nat ltac:(lia)) as [WP BP]. destruct (HR i ltac:(lia)) as [WI BI]. destruct (HR (i - 1)%nat ltac:(lia)) as [WM BM].
    pose proof (whole_mul _ _ _ _ WP H1 ltac:(lia)) as M1. pose proof (whole_mul _ _ _ _ WI HS ltac:(lia)) as M2. pose proof (whole_mul _ _ _ _ WM H2 ltac:(lia)) as M3. pose proof (whole_sub _ _ _ _ M1 M2 ltac:(lia)) as S1. pose proof (whole_add _ _ _ _ S1 M3 ltac:(lia)) as S2.
    assert (W2 : whole two64 2) by (destruct (f64_of_Z_ok 2 ltac:(lia)) as [V F]; split; [exact F|exact V]). pose proof (whole_mul _ _ _ _ W2 S2 ltac:(lia)) as NUM. pose proof (whole_mul _ _ _ _ H1 H2 ltac:(lia)) as D1. pose proof (whole_mul _ _ _ _ D1 HS ltac:(lia)) as D2. change (1 * 1 * 2)%Z with 2%Z in D2.
    destruct (whole_div _ _ _ _ NUM D2 ltac:(lia) ltac:(lia)) as [F V]. split; [exact F|]. rewrite V. rewrite mult_IZR. replace (z (i + 1)%nat * 1 - z i * 2 + z (i - 1)%nat * 1)%Z with (z (i + 1)%nat - 2 * z i + z (i - 1)%nat)%Z by lia. field.
  - unfold fd_k64. rewrite L. cbv zeta. destruct (Nat.eqb_spec j 0) as [->|J0]; [|destruct (Nat.eqb_spec j (n - 1)) as [->|J1]].
    + pose proof (STEP 0%nat 1%nat ltac:(lia)) as H. destruct (HR 0%nat ltac:(lia)) as [_ B0]. destruct (HR 1%nat ltac:(lia)) as [_ B1]. destruct (whole_div _ _ _ _ (DIFF 0%nat 1%nat ltac:(lia) ltac:(lia)) H ltac:(lia) ltac:(lia)) as [F V]. split; [exact F|]. rewrite V. cbn. field.
    + pose proof (STEP (n - 2)%nat (n - 1)%nat ltac:(lia)) as H. replace (Z.of_nat (n - 1 - (n - 2))) with 1%Z in H by lia. destruct (HR (n - 2)%nat ltac:(lia)) as [_ B0]. destruct (HR (n - 1)%nat ltac:(lia)) as [_ B1]. destruct (whole_div _ _ _ _ (DIFF (n - 2)%nat (n - 1)%nat ltac:(lia) ltac:(lia)) H ltac:(lia) ltac:(lia)) as [F V]. split; [exact F|]. rewrite V. field.
    + pose proof (STEP (j - 1)%nat (j + 1)%nat ltac:(lia)) as H. replace (Z.of_nat (j + 1 - (j - 1))) with 2%Z in H by lia. destruct (HR (j - 1)%nat ltac:(lia)) as [_ B0]. destruct (HR (j + 1)%nat ltac:(lia)) as [_ B1]. destruct (whole_div _ _ _ _ (DIFF (j - 1)%nat (j + 1)%nat ltac:(lia) ltac:(lia)) H ltac:(lia) ltac:(lia)) as [F V]. split; [exact F|exact V].
Qed.
Print Assumptions C100_differences.

(** The same for the difference in time, at unit spacing. *)
Theorem C100_fd_t (c : list (list f64)) (ts : list f64) (z : nat -> Z) (t0 : Z) n i j : length ts = n -> (2 <= n)%nat -> (Z.of_nat n <= 2 ^ 40)%Z -> (i < n)%nat -> (Z.abs t0 <= 2 ^ 40)%Z ->
  (forall a, (a < n)%nat -> whole (cell64 c a j) (z a) /\ (Z.abs (z a) <= 2 ^ 40)%Z) -> (forall a, (a < n)%nat -> whole (nth a ts zero64) (t0 + Z.of_nat a)) ->
  finite (fd_t64 c ts i j) /\ f64R (fd_t64 c ts i j) = if (i =? 0)%nat then IZR (z 1%nat - z 0%nat) else if (i =? n - 1)%nat then IZR (z (n - 1)%nat - z (n - 2)%nat) else IZR (z (i + 1)%nat - z (i - 1)%nat) / 2.
Proof.
  intros L N NB J K0 HR HK.
  assert (STEP : forall a b, (a < b < n)%nat -> whole (fsub (nth b ts zero64) (nth a ts zero64)) (Z.of_nat (b - a))). { intros a b H. replace (Z.of_nat (b - a)) with (t0 + Z.of_nat b - (t0 + Z.of_nat a))%Z by lia. apply whole_sub; [apply HK; lia|apply HK; lia|lia]. }
  assert (Q : forall a b, (a < b < n)%nat -> (b - a = 1 \/ b - a = 2)%nat -> finite (fdiv (fsub (cell64 c b j) (cell64 c a j)) (fsub (nth b ts zero64) (nth a ts zero64))) /\ f64R (fdiv (fsub (cell64 c b j) (cell64 c a j)) (fsub (nth b ts zero64) (nth a ts zero64))) = IZR (z b - z a) / IZR (Z.of_nat (b - a))).
  { intros a b H D. destruct (HR a ltac:(lia)) as [WA HA], (HR b ltac:(lia)) as [WB HB]. apply whole_div; [apply whole_sub; [exact WB|exact WA|lia]|apply STEP, H|lia|lia]. }
  unfold fd_t64. rewrite L. cbv zeta. destruct (Nat.eqb_spec i 0) as [->|J0]; [|destruct (Nat.eqb_spec i (n - 1)) as [->|J1]].
  - destruct (Q 0%nat 1%nat ltac:(lia) ltac:(lia)) as [F V]. split; [exact F|]. rewrite V. change (Z.of_nat (1 - 0)) with 1%Z. field.
  - destruct (Q (n - 2)%nat (n - 1)%nat ltac:(lia) ltac:(lia)) as [F V]. split; [exact F|]. rewrite V. replace (Z.of_nat (n - 1 - (n - 2))) with 1%Z by lia. field.
  - destruct (Q (i - 1)%nat (i + 1)%nat ltac:(lia) ltac:(lia)) as [F V]. split; [exact F|]. rewrite V. replace (Z.of_nat (i + 1 - (i - 1))) with 2%Z by lia. reflexivity.
Qed.
Print Assumptions C100_fd_t.

(** Prices 9, 4, 1 at strikes 10, 11, 12 meet the hypotheses: second difference two, slopes -5,
    -4 and -3. *)
Example C100_witness_differences : let row := [f64_of_Z 9; f64_of_Z 4; f64_of_Z 1] in let ks := [f64_of_Z 10; f64_of_Z 11; f64_of_Z 12] in
  (forall i, (i < 3)%nat -> whole (nth i row zero64) (nth i [9; 4; 1]%Z 0%Z) /\ whole (nth i ks zero64) (10 + Z.of_nat i)) /\ f64R (fd_kk64 row ks 0) = 2 /\ f64R (fd_k64 row ks 1) = -4.
Proof.
  cbv zeta. set (row := [f64_of_Z 9; f64_of_Z 4; f64_of_Z 1]). set (ks := [f64_of_Z 10; f64_of_Z 11; f64_of_Z 12]).
  assert (W : forall a, (Z.abs a <= 100)%Z -> whole (f64_of_Z a) a) by (intros a H; destruct (f64_of_Z_ok a ltac:(lia)) as [V F]; split; assumption).
  assert (H : forall i, (i < 3)%nat -> whole (nth i row zero64) (nth i [9; 4; 1]%Z 0%Z) /\ whole (nth i ks zero64) (10 + Z.of_nat i)) by (intros [|[|[|i]]] H; [| | |lia]; split; apply W; cbn; lia). split; [exact H|].
  destruct (C100_differences row ks (fun i => nth i [9; 4; 1]%Z 0%Z) 10 3 0 eq_refl ltac:(lia) ltac:(lia) ltac:(lia) ltac:(lia)) as [[_ A] _]; [intros i L; split; [apply H, L|destruct i as [|[|[|i]]]; [cbn; lia|cbn; lia|cbn; lia|lia]]|intros i L; apply H, L|].
  destruct (C100_differences row ks (fun i => nth i [9; 4; 1]%Z 0%Z) 10 3 1 eq_refl ltac:(lia) ltac:(lia) ltac:(lia) ltac:(lia)) as [_ [_ B]]; [intros i L; split; [apply H, L|destruct i as [|[|[|i]]]; [cbn; lia|cbn; lia|cbn; lia|lia]]|intros i L; apply H, L|].
  rewrite A, B. cbn. lra.
Qed.
