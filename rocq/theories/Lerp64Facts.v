(** Error bounds of the linear interpolations. *)
From Coq Require Import Bool List Arith ZArith Reals Lra Lia Psatz Sorting.Sorted.
Import ListNotations.
From Flocq Require Import Core BinarySingleNaN.
From Verif Require Import Outcome F64 Clock64 Clock64Facts Chol64 Chol64Facts Bisect64 Bisect64Facts Lerp64.
Open Scope R_scope.

Lemma quotient_pos x y : 0 <= x -> 0 < y -> 0 <= x / y.
Proof. intros X Y. apply Rmult_le_pos; [exact X|]. left. apply Rinv_0_lt_compat, Y. Qed.

(** [s + (e - s) w] with the three operations rounded; [p] is the product. *)
Lemma lerp_spec (s e w p : f64) M : finite s -> finite e -> finite w -> sized M -> M <= IZR (2 ^ 50) -> Rabs (f64R s) <= M -> Rabs (f64R e) <= M -> 0 <= f64R w <= 1 ->
  finite p -> f64R p = rnd (f64R (fsub e s) * f64R w) ->
  finite (fadd s p) /\ (f64R s <= f64R e -> f64R s <= f64R (fadd s p)) /\ (f64R e <= f64R s -> f64R (fadd s p) <= f64R s) /\
  (0 <= f64R s -> 0 <= f64R e -> 0 <= f64R (fadd s p)) /\ Rabs (f64R (fadd s p) - (f64R s + (f64R e - f64R s) * f64R w)) <= 6 * u53 * M.
Proof.
  intros FS FE FW [Z1 Z2] M1 BS BE BW FP EP. pose proof u53_pos as U. pose proof u53_eq as UE. pose proof (bpow_gt_0 radix2 (-100)) as BP.
  assert (P : IZR (2 ^ 52) = 4 * IZR (2 ^ 50)) by (change (2 ^ 52)%Z with (4 * 2 ^ 50)%Z; apply mult_IZR). assert (P51 : IZR (2 ^ 51) = 2 * IZR (2 ^ 50)) by (change (2 ^ 51)%Z with (2 * 2 ^ 50)%Z; apply mult_IZR). assert (P50 : 1 <= IZR (2 ^ 50)) by (apply IZR_le; lia).
  apply Rabs_le_inv in BS, BE. destruct (fsub_ok e s (2 ^ 51) FE FS ltac:(lia)) as [ED FD]; [apply Rabs_le; lra|].
  assert (EO : f64R (Bopp s) = - f64R s) by (unfold f64R; apply B2R_Bopp). destruct (rnd_plus e (Bopp s)) as (e1 & E1 & R1). rewrite EO in R1. apply Rabs_le_inv in E1. fold (f64R e - f64R s) in R1. rewrite <- ED in R1. set (d := f64R (fsub e s)) in *. set (x := f64R e - f64R s) in *. set (wr := f64R w) in *.
  assert (BX : - (2 * M) <= x <= 2 * M) by (unfold x; lra). assert (DX : Rabs (d - x) <= 2 * u53 * M). { rewrite R1. replace (x * (1 + e1) - x) with (x * e1) by ring. rewrite Rabs_mult. assert (Rabs x <= 2 * M) by (apply Rabs_le; lra). assert (Rabs e1 <= u53) by (apply Rabs_le; exact E1). pose proof (Rabs_pos x). pose proof (Rabs_pos e1). nra. }
  apply Rabs_le_inv in DX. assert (UM : 0 < u53 * M) by (apply Rmult_lt_0_compat; lra).
  assert (BD : Rabs d <= 2 * M + 2 * u53 * M) by (apply Rabs_le; lra).
  assert (DP : Rabs (f64R p - d * wr) <= u53 * (2 * M + 2 * u53 * M)).
  { rewrite EP. destruct (Rle_lt_dec (bpow radix2 (-1022)) (Rabs (d * wr))) as [G|G].
    - destruct (rnd_rel _ G) as (e2 & E2 & ->). replace (d * wr * (1 + e2) - d * wr) with (e2 * (d * wr)) by ring. rewrite !Rabs_mult, (Rabs_pos_eq wr) by lra. pose proof (Rabs_pos e2). pose proof (Rabs_pos d). assert (Rabs d * wr <= 2 * M + 2 * u53 * M) by nra. assert (0 <= Rabs d * wr) by nra. apply Rmult_le_compat; lra.
    - apply Rle_trans with (bpow radix2 (-1021 - 54)); [apply rnd_error; [lia|]; apply Rle_trans with (bpow radix2 (-1022)); [lra|apply bpow_le; lia]|]. apply Rle_trans with (1 := tiny_u53 (-1021 - 54) ltac:(lia)). apply Rmult_le_compat_l; lra. }
  apply Rabs_le_inv in DP. assert (DW : Rabs (d * wr - x * wr) <= 2 * u53 * M). { replace (d * wr - x * wr) with ((d - x) * wr) by ring. rewrite Rabs_mult, (Rabs_pos_eq wr) by lra. assert (Rabs (d - x) <= 2 * u53 * M) by (apply Rabs_le; exact DX). pose proof (Rabs_pos (d - x)). nra. } apply Rabs_le_inv in DW.
  assert (CX : - M <= f64R s + x * wr <= M). { unfold x. assert (0 <= (M - f64R s) * (1 - wr)) by (apply Rmult_le_pos; lra). assert (0 <= (M + f64R s) * (1 - wr)) by (apply Rmult_le_pos; lra). assert (0 <= (M - f64R e) * wr) by (apply Rmult_le_pos; lra). assert (0 <= (M + f64R e) * wr) by (apply Rmult_le_pos; lra). lra. }
  assert (UU : u53 * (2 * u53 * M) <= u53 * M / 100) by (assert (0 <= (1 / 200 - u53) * (u53 * M)) by (apply Rmult_le_pos; lra); lra).
  assert (BSP : Rabs (f64R s + f64R p) <= M + 5 * u53 * M) by (apply Rabs_le; lra). destruct (fadd_ok s p (2 ^ 51) FS FP ltac:(lia)) as [EV FV]; [apply Rle_trans with (1 := BSP); assert (0 <= (1 / 5 - u53) * M) by (apply Rmult_le_pos; lra); lra|].
  split; [exact FV|].
  assert (UP : f64R s <= f64R e -> 0 <= f64R p). { intros L. assert (0 <= d) by (rewrite ED, <- rnd_0; apply rnd_mono; unfold x; lra). rewrite EP, <- rnd_0. apply rnd_mono, Rmult_le_pos; lra. }
  assert (DN : f64R e <= f64R s -> f64R p <= 0). { intros L. assert (d <= 0) by (rewrite ED, <- rnd_0; apply rnd_mono; unfold x; lra). rewrite EP, <- rnd_0. apply rnd_mono. assert (0 <= - d * wr) by (apply Rmult_le_pos; lra). lra. }
  assert (SV : f64R s <= f64R e -> f64R s <= f64R (fadd s p)) by (intros L; rewrite EV, <- (rnd_id _ (format64 s)) at 1; apply rnd_mono; specialize (UP L); lra).
  split; [exact SV|]. split; [intros L; rewrite EV, <- (rnd_id _ (format64 s)); apply rnd_mono; rewrite (rnd_id _ (format64 s)); specialize (DN L); lra|]. split.
  - intros S0 E0. destruct (Rle_lt_dec (f64R s) (f64R e)) as [L|L]; [specialize (SV L); lra|]. rewrite EV, <- rnd_0. apply rnd_mono.
    assert (FN : rnd (- f64R s) = - f64R s) by (rewrite <- EO; apply rnd_id, format64). assert (- f64R s <= d) by (rewrite ED, <- FN; apply rnd_mono; unfold x; lra). assert (- f64R s <= f64R p) by (rewrite EP, <- FN; apply rnd_mono; assert (0 <= (d + f64R s) * wr) by (apply Rmult_le_pos; lra); assert (0 <= f64R s * (1 - wr)) by (apply Rmult_le_pos; lra); lra). lra.
  - destruct (rnd_plus s p) as (e3 & E3 & R3). rewrite <- EV in R3. assert (D3 : Rabs (f64R (fadd s p) - (f64R s + f64R p)) <= u53 * (M + 5 * u53 * M)). { rewrite R3. replace ((f64R s + f64R p) * (1 + e3) - (f64R s + f64R p)) with (e3 * (f64R s + f64R p)) by ring. rewrite Rabs_mult. pose proof (Rabs_pos e3). pose proof (Rabs_pos (f64R s + f64R p)). apply Rmult_le_compat; lra. }
    apply Rabs_le_inv in D3. assert (u53 * (5 * u53 * M) <= u53 * M / 100) by (assert (0 <= (1 / 500 - u53) * (u53 * M)) by (apply Rmult_le_pos; lra); lra). fold x. apply Rabs_le. lra.
Qed.

(** [(x - a) / (b - a)] for [a <= x <= b]. *)
Lemma weight_ok (a b x : f64) : finite a -> finite b -> finite x -> Rabs (f64R a) <= IZR (2 ^ 50) -> Rabs (f64R b) <= IZR (2 ^ 50) -> f64R a <= f64R x <= f64R b -> f64R a < f64R b ->
  let w := fdiv (fsub x a) (fsub b a) in finite w /\ 0 <= f64R w <= 1 /\ Rabs (f64R w - (f64R x - f64R a) / (f64R b - f64R a)) <= 3 * u53.
Proof.
  intros FA FB FX BA BB O L w. pose proof u53_pos as U. pose proof u53_eq as UE. assert (P51 : IZR (2 ^ 51) = 2 * IZR (2 ^ 50)) by (change (2 ^ 51)%Z with (2 * 2 ^ 50)%Z; apply mult_IZR). apply Rabs_le_inv in BA, BB.
  destruct (fsub_ok x a (2 ^ 51) FX FA ltac:(lia)) as [EX FX']; [apply Rabs_le; lra|]. destruct (fsub_ok b a (2 ^ 51) FB FA ltac:(lia)) as [EB FB']; [apply Rabs_le; lra|].
  assert (EO : f64R (Bopp a) = - f64R a) by (unfold f64R; apply B2R_Bopp). destruct (rnd_plus x (Bopp a)) as (e1 & E1 & R1). destruct (rnd_plus b (Bopp a)) as (e2 & E2 & R2). rewrite EO in R1, R2. fold (f64R x - f64R a) in R1. fold (f64R b - f64R a) in R2. rewrite <- EX in R1. rewrite <- EB in R2.
  assert (PB : 0 < f64R (fsub b a)) by (rewrite EB; apply rnd_sub_pos; exact L). assert (PX : 0 <= f64R (fsub x a) <= f64R (fsub b a)) by (rewrite EX, EB; split; [rewrite <- rnd_0|]; apply rnd_mono; lra).
  assert (Q : 0 <= f64R (fsub x a) / f64R (fsub b a) <= 1). { split; [apply quotient_pos; lra|]. apply Rmult_le_reg_r with (f64R (fsub b a)); [exact PB|]. unfold Rdiv. rewrite Rmult_assoc, Rinv_l by lra. lra. }
  destruct (fdiv_ok (fsub x a) (fsub b a) 1 FX' ltac:(lra) ltac:(lia)) as [EW FW]; [rewrite Rabs_pos_eq by lra; lra|]. fold w in EW, FW. split; [exact FW|]. split; [rewrite EW; split; [rewrite <- rnd_0; apply rnd_mono; lra|rewrite <- (rnd_Z 1) by lia; apply rnd_mono; lra]|].
  assert (R : Rabs (f64R w - f64R (fsub x a) / f64R (fsub b a)) <= u53 / 2). { rewrite EW. apply Rle_trans with (bpow radix2 (0 - 54)); [apply rnd_error; [lia|]; rewrite Rabs_pos_eq by lra; change (bpow radix2 0) with 1; lra|]. change (bpow radix2 (0 - 54)) with (/ 18014398509481984). lra. }
  apply Rabs_le_inv in E1, E2, R. set (p := f64R x - f64R a) in *. set (q := f64R b - f64R a) in *. assert (PQ : 0 <= p <= q) by (unfold p, q; lra). assert (Q0 : 0 < q) by (unfold q; lra). rewrite R1, R2 in R. rewrite R1, R2 in Q.
  assert (T : 0 <= p / q <= 1). { split; [apply quotient_pos; lra|]. apply Rmult_le_reg_r with q; [exact Q0|]. unfold Rdiv. rewrite Rmult_assoc, Rinv_l by lra. lra. }
  assert (EQ : p * (1 + e1) / (q * (1 + e2)) = p / q * ((1 + e1) / (1 + e2))) by (field; split; lra). rewrite EQ in R. set (r := (1 + e1) / (1 + e2)) in *. assert (BR : - (9 / 4 * u53) <= r - 1 <= 9 / 4 * u53). { assert (ER : (r - 1) * (1 + e2) = e1 - e2) by (unfold r; field; lra). split; nra. }
  set (z := p / q) in *. apply Rabs_le. assert (- (9 / 4 * u53) <= z * r - z <= 9 / 4 * u53) by nra. lra.
Qed.

(** Interpolation with a rounded weight, against the exact one. *)
Lemma lerp_close (s e w p : f64) M t : finite s -> finite e -> finite w -> sized M -> M <= IZR (2 ^ 50) -> Rabs (f64R s) <= M -> Rabs (f64R e) <= M -> 0 <= f64R w <= 1 -> Rabs (f64R w - t) <= 3 * u53 ->
  finite p -> f64R p = rnd (f64R (fsub e s) * f64R w) -> Rabs (f64R (fadd s p) - (f64R s + (f64R e - f64R s) * t)) <= 12 * u53 * M.
Proof.
  intros FS FE FW Z B BS BE BW T FP EP. destruct (lerp_spec s e w p M FS FE FW Z B BS BE BW FP EP) as (_ & _ & _ & _ & A). apply Rabs_le_inv in A, T, BS, BE. pose proof u53_pos as U. set (x := f64R e - f64R s) in *. assert (BX : - (2 * M) <= x <= 2 * M) by (unfold x; lra). set (h := f64R w - t) in *.
  assert (H : - (6 * u53 * M) <= x * h <= 6 * u53 * M). { assert (G : Rabs (x * h) <= 2 * M * (3 * u53)) by (rewrite Rabs_mult; apply Rmult_le_compat; [apply Rabs_pos|apply Rabs_pos|apply Rabs_le; lra|apply Rabs_le; lra]). apply Rabs_le_inv in G. lra. }
  replace t with (f64R w - h) by (unfold h; ring). apply Rabs_le. lra.
Qed.
Lemma product_ok (s e w : f64) M : finite s -> finite e -> finite w -> M <= IZR (2 ^ 50) -> Rabs (f64R s) <= M -> Rabs (f64R e) <= M -> 0 <= f64R w <= 1 ->
  (finite (fmul (fsub e s) w) /\ f64R (fmul (fsub e s) w) = rnd (f64R (fsub e s) * f64R w)) /\ (finite (fmul w (fsub e s)) /\ f64R (fmul w (fsub e s)) = rnd (f64R (fsub e s) * f64R w)).
Proof.
  intros FS FE FW B BS BE BW. assert (P51 : IZR (2 ^ 51) = 2 * IZR (2 ^ 50)) by (change (2 ^ 51)%Z with (2 * 2 ^ 50)%Z; apply mult_IZR). apply Rabs_le_inv in BS, BE.
  assert (X : Rabs (f64R e - f64R s) <= IZR (2 ^ 51)) by (apply Rabs_le; lra). destruct (fsub_ok e s (2 ^ 51) FE FS ltac:(lia) X) as [ED FD]. apply rnd_bound in X; [|lia]. rewrite <- ED in X.
  assert (Y : Rabs (f64R (fsub e s) * f64R w) <= IZR (2 ^ 51)). { rewrite Rabs_mult, (Rabs_pos_eq (f64R w)) by lra. pose proof (Rabs_pos (f64R (fsub e s))). nra. }
  split; [destruct (fmul_ok (fsub e s) w (2 ^ 51) FD FW ltac:(lia) Y) as [E F]; split; assumption|]. rewrite Rmult_comm in Y. destruct (fmul_ok w (fsub e s) (2 ^ 51) FW FD ltac:(lia) Y) as [E F]. split; [exact F|]. rewrite E, Rmult_comm. reflexivity.
Qed.

(** Only a finite number is above one finite number and not above another. *)
Lemma finite_between (x p y : f64) : finite p -> finite y -> Bleb x p = false -> Bleb x y = true -> finite x /\ f64R p < f64R x <= f64R y.
Proof.
  intros FP FY A B. assert (FX : finite x).
  { destruct x as [s|[|]| |s m e V]; [reflexivity| | | |reflexivity].
    - exfalso. destruct p as [?|?| |? ? ? ?]; try discriminate FP; discriminate A.
    - exfalso. destruct y as [?|?| |? ? ? ?]; try discriminate FY; discriminate B.
    - exfalso. destruct y as [?|?| |? ? ? ?]; discriminate B. }
  split; [exact FX|]. split; [|apply Bleb_R; assumption]. destruct (Rle_lt_dec (f64R x) (f64R p)) as [C|C]; [|exact C]. apply Bleb_R in C; [congruence|exact FX|exact FP].
Qed.
Lemma Bleb_false (x y : f64) : finite x -> finite y -> Bleb x y = false <-> f64R y < f64R x.
Proof.
  intros FX FY. split; intros H.
  - destruct (Rle_lt_dec (f64R x) (f64R y)) as [C|C]; [apply Bleb_R in C; [congruence|exact FX|exact FY]|exact C].
  - destruct (Bleb x y) eqn:E; [apply Bleb_R in E; [lra|exact FX|exact FY]|reflexivity].
Qed.
(** Finite and of a size whose differences do not overflow. *)
Definition knot (x : f64) : Prop := finite x /\ Rabs (f64R x) <= IZR (2 ^ 50).
(** A strictly increasing list of knots. *)
Definition grid64 (xs : list f64) : Prop := Forall knot xs /\ StronglySorted (fun a b => f64R a < f64R b) xs.
