(** C100: floors and clamps in binary64. *)
From Coq Require Import Bool List Arith ZArith Reals Lra Lia Psatz Sorting.Sorted.
Import ListNotations.
From Flocq Require Import Core BinarySingleNaN.
From Verif Require Import Outcome F64 Clock64 Clock64Facts Chol64 Chol64Facts Bisect64 Bisect64Facts P_Bisect64 Lerp64 Lerp64Facts P_Lerp64 Floor64.
Open Scope R_scope.

Definition nan64 : f64 := B754_nan.
Definition inf64 : f64 := B754_infinity false.

(** [Bleb 0 x] says at once that [x] is not NaN and not negative. *)
Lemma not_nan_total (x y : f64) : is_nan x = false -> is_nan y = false -> Bltb x y = false -> Bleb y x = true.
Proof.
  intros X Y H. destruct (is_finite x) eqn:FX, (is_finite y) eqn:FY.
  - apply Bleb_R; [exact FY|exact FX|]. destruct (Rlt_le_dec (f64R x) (f64R y)) as [C|C]; [|exact C]. apply Bltb_R in C; [congruence|exact FX|exact FY].
  - destruct y as [?|[|]| |? ? ? ?]; try discriminate FY; try discriminate Y; destruct x as [?|[|]| |? ? ? ?]; try discriminate FX; try discriminate H; reflexivity.
  - destruct x as [?|[|]| |? ? ? ?]; try discriminate FX; try discriminate X; destruct y as [?|[|]| |? ? ? ?]; try discriminate FY; try discriminate H; reflexivity.
  - destruct x as [?|[|]| |? ? ? ?]; try discriminate FX; try discriminate X; destruct y as [?|[|]| |? ? ? ?]; try discriminate FY; try discriminate Y; try discriminate H; reflexivity.
Qed.
Lemma Bleb_refl (x : f64) : is_nan x = false -> Bleb x x = true.
Proof. intros N. apply not_nan_total; [exact N|exact N|]. destruct (is_finite x) eqn:F; [|destruct x as [?|[|]| |? ? ? ?]; try discriminate N; try discriminate F; reflexivity]. destruct (Bltb x x) eqn:E; [|reflexivity]. apply Bltb_R in E; [lra|exact F|exact F]. Qed.
(** A maximum is never below its floor and, with a floor, never NaN. *)
Lemma fmax_floor (x b : f64) : is_nan b = false -> Bleb b (fmax x b) = true.
Proof.
  intros B. unfold fmax. rewrite B. destruct (is_nan x) eqn:N; [apply Bleb_refl, B|]. destruct (Bltb x b) eqn:E; [apply Bleb_refl, B|]. apply not_nan_total; assumption.
Qed.
Lemma Bleb_not_nan (x y : f64) : Bleb x y = true -> is_nan x = false /\ is_nan y = false.
Proof. intros H. destruct x as [?|[|]| |? ? ? ?], y as [?|[|]| |? ? ? ?]; split; try reflexivity; discriminate H. Qed.
Lemma zero_not_nan : is_nan zero64 = false. Proof. reflexivity. Qed.
Lemma fmax_nan b : fmax nan64 b = b. Proof. reflexivity. Qed.
Lemma fmax_value (x b : f64) : finite x -> finite b -> finite (fmax x b) /\ f64R (fmax x b) = Rmax (f64R x) (f64R b).
Proof.
  intros FX FB. unfold fmax. assert (NX : is_nan x = false) by (destruct x; try discriminate FX; reflexivity). assert (NB : is_nan b = false) by (destruct b; try discriminate FB; reflexivity). rewrite NX, NB. destruct (Bltb x b) eqn:E.
  - apply Bltb_R in E; [|exact FX|exact FB]. rewrite Rmax_right by lra. split; [exact FB|reflexivity].
  - split; [exact FX|]. rewrite Rmax_left; [reflexivity|]. destruct (Rle_lt_dec (f64R b) (f64R x)) as [C|C]; [exact C|]. apply Bltb_R in C; [congruence|exact FX|exact FB].
Qed.

(** Whatever the parameters, the state and the draw, NaN and the infinities included, the
    simulated variances are not NaN and not negative, and neither is an intrinsic value or a
    simulated SABR forward.  The forward of the local-volatility scheme is used above 1e-12. *)
Theorem C100_floor :
  (forall kappa theta gamma dt s z, Bleb zero64 (cir_step64 kappa theta gamma dt s z) = true) /\
  (forall kappa theta gamma dt s dw, Bleb zero64 (variance_step64 kappa theta gamma dt s dw) = true) /\
  (forall kappa theta gamma a b c dt s dw, Bleb zero64 (stock_variance64 kappa theta gamma a b c dt s dw) = true) /\
  (forall powf exp beta rho nu sq dt z1 z2 s, Bleb zero64 (fst (sabr_step64 powf exp beta rho nu sq dt z1 z2 s)) = true) /\
  (forall powf exp lookup lv beta rho nu sq dt r z1 z2 s, Bleb zero64 (fst (slv_step64 powf exp lookup lv beta rho nu sq dt r z1 z2 s)) = true) /\
  (forall f k, Bleb zero64 (intrinsic64 f k) = true) /\
  (forall x, Bleb lit_12 (fmax x lit_12) = true).
Proof. repeat split; intros; apply fmax_floor; reflexivity. Qed.
Print Assumptions C100_floor.

(** Hence along a whole path of any draws. *)
Theorem C100_path kappa theta gamma dt draws s0 : Bleb zero64 s0 = true ->
  Bleb zero64 (fold_left (cir_step64 kappa theta gamma dt) draws s0) = true /\ Bleb zero64 (fold_left (variance_step64 kappa theta gamma dt) draws s0) = true.
Proof.
  intros S. destruct C100_floor as (C & V & _). revert s0 S. induction draws as [|z draws IH]; intros s0 S; [split; exact S|]. split; cbn [fold_left]; [exact (proj1 (IH _ (C _ _ _ _ _ _)))|exact (proj2 (IH _ (V _ _ _ _ _ _)))].
Qed.
Print Assumptions C100_path.

Lemma add_nan x : fadd x nan64 = nan64. Proof. destruct x as [?|[|]| |? ? ? ?]; reflexivity. Qed.
Lemma nan_add x : fadd nan64 x = nan64. Proof. destruct x as [?|[|]| |? ? ? ?]; reflexivity. Qed.
Lemma sub_nan x : fsub x nan64 = nan64. Proof. destruct x as [?|[|]| |? ? ? ?]; reflexivity. Qed.
Lemma nan_sub x : fsub nan64 x = nan64. Proof. destruct x as [?|[|]| |? ? ? ?]; reflexivity. Qed.
Lemma mul_nan x : fmul x nan64 = nan64. Proof. destruct x as [?|[|]| |? ? ? ?]; reflexivity. Qed.
Lemma nan_mul x : fmul nan64 x = nan64. Proof. destruct x as [?|[|]| |? ? ? ?]; reflexivity. Qed.

(** The floors hide a NaN: a NaN in a draw or in a parameter makes the variance zero, a NaN
    in the state restarts from zero, and a NaN forward has an intrinsic value of zero.  Nothing
    is reported.  A variance that has overflowed drops to zero at the next step. *)
Theorem C100_nan_refuted :
  (forall kappa theta gamma dt s, variance_step64 kappa theta gamma dt s nan64 = zero64 /\ cir_step64 kappa theta gamma dt s nan64 = zero64) /\
  (forall theta gamma dt s dw, variance_step64 nan64 theta gamma dt s dw = zero64) /\
  (forall kappa gamma dt s dw, variance_step64 kappa nan64 gamma dt s dw = zero64) /\
  (forall kappa theta dt s dw, variance_step64 kappa theta nan64 dt s dw = zero64) /\
  (forall kappa theta gamma s dw, variance_step64 kappa theta gamma nan64 s dw = zero64) /\
  (forall kappa theta gamma dt dw, variance_step64 kappa theta gamma dt nan64 dw = variance_step64 kappa theta gamma dt zero64 dw) /\
  (forall x, intrinsic64 nan64 x = zero64 /\ intrinsic64 x nan64 = zero64) /\
  (forall kappa theta gamma dt dw, finite kappa -> finite theta -> finite dt -> 0 < f64R kappa -> 0 < f64R dt -> variance_step64 kappa theta gamma dt inf64 dw = zero64).
Proof.
  split; [intros; split; unfold variance_step64, cir_step64; cbv zeta; rewrite mul_nan, add_nan; reflexivity|].
  split; [intros; unfold variance_step64; cbv zeta; rewrite !nan_mul, add_nan, nan_add; reflexivity|].
  split; [intros; unfold variance_step64; cbv zeta; rewrite nan_sub, mul_nan, nan_mul, add_nan, nan_add; reflexivity|].
  split; [intros; unfold variance_step64; cbv zeta; rewrite !nan_mul, add_nan; reflexivity|].
  split; [intros; unfold variance_step64; cbv zeta; rewrite mul_nan, add_nan, nan_add; reflexivity|].
  split; [intros; reflexivity|].
  split; [intros; unfold intrinsic64; rewrite nan_sub, sub_nan; split; reflexivity|].
  intros kappa theta gamma dt dw FK FT FD PK PD. unfold variance_step64. cbv zeta. change (fmax inf64 zero64) with inf64.
  assert (E1 : fsub theta inf64 = B754_infinity true) by (destruct theta as [?|?| |? ? ? ?]; try discriminate FT; reflexivity). rewrite E1.
  assert (POS : forall x : f64, finite x -> 0 < f64R x -> fmul x (B754_infinity true) = B754_infinity true /\ fmul (B754_infinity true) x = B754_infinity true).
  { intros x FX PX. destruct x as [?|?| |[|] m e B]; try discriminate FX; [unfold f64R in PX; cbn in PX; lra| |split; reflexivity]. unfold f64R, B2R, F2R in PX. cbn [Fnum Fexp cond_Zopp] in PX. assert (IZR (Z.neg m) < 0) by (apply IZR_lt; lia). pose proof (bpow_gt_0 radix2 e). change (Z.opp (Z.pos m)) with (Z.neg m) in PX. nra. }
  rewrite (proj1 (POS kappa FK PK)), (proj2 (POS dt FD PD)). change (fadd inf64 (B754_infinity true)) with nan64. rewrite nan_add. reflexivity.
Qed.
Print Assumptions C100_nan_refuted.

(** A clamp keeps everything but NaN inside its bounds, and does not move what is inside. *)
Theorem C100_clamp x lo hi : finite lo -> finite hi -> f64R lo <= f64R hi ->
  (is_nan x = false -> finite (fclamp x lo hi) /\ f64R lo <= f64R (fclamp x lo hi) <= f64R hi) /\
  (finite x -> f64R lo <= f64R x <= f64R hi -> fclamp x lo hi = x) /\ (is_nan x = true -> is_nan (fclamp x lo hi) = true).
Proof.
  intros FL FH O. unfold fclamp. cbv zeta. assert (HL : Bltb hi lo = false) by (destruct (Bltb hi lo) eqn:E; [apply Bltb_R in E; [lra|exact FH|exact FL]|reflexivity]). split; [|split].
  - intros N. destruct (Bltb x lo) eqn:E; [rewrite HL; split; [exact FL|lra]|]. destruct (Bltb hi x) eqn:E2; [split; [exact FH|lra]|].
    assert (FX : finite x). { destruct x as [?|[|]| |? ? ? ?]; [reflexivity| | | |reflexivity]; [destruct lo as [?|?| |? ? ? ?]; try discriminate FL; discriminate E|destruct hi as [?|?| |? ? ? ?]; try discriminate FH; discriminate E2|discriminate N]. }
    split; [exact FX|]. split; [destruct (Rle_lt_dec (f64R lo) (f64R x)) as [C|C]; [exact C|apply Bltb_R in C; [congruence|exact FX|exact FL]]|destruct (Rle_lt_dec (f64R x) (f64R hi)) as [C|C]; [exact C|apply Bltb_R in C; [congruence|exact FH|exact FX]]].
  - intros FX B. destruct (Bltb x lo) eqn:E; [apply Bltb_R in E; [lra|exact FX|exact FL]|]. destruct (Bltb hi x) eqn:E2; [apply Bltb_R in E2; [lra|exact FH|exact FX]|reflexivity].
  - intros N. destruct x as [?|[|]| |? ? ? ?]; try discriminate N. destruct lo as [?|?| |? ? ? ?]; try discriminate FL; destruct hi as [?|?| |? ? ? ?]; try discriminate FH; reflexivity.
Qed.
Print Assumptions C100_clamp.

Lemma overflow_not_nan (z : f64) s : B2SF z = binary_overflow 53 1024 mode_NE s -> is_nan z = false.
Proof. intros E. destruct z; [reflexivity|reflexivity| |reflexivity]. cbn in E. destruct s; discriminate E. Qed.
Lemma finite_not_nan (x : f64) : finite x -> is_nan x = false.
Proof. destruct x; intros F; try discriminate F; reflexivity. Qed.
Lemma mul_not_nan (x y : f64) : finite x -> finite y -> is_nan (fmul x y) = false.
Proof.
  intros FX FY. pose proof (Bmult_correct 53 1024 _ _ mode_NE x y) as C. destruct (Rlt_bool _ _) in C; [|exact (overflow_not_nan _ _ C)]. destruct C as (_ & F & _). apply finite_not_nan. unfold finite in *. unfold fmul. rewrite F, FX, FY. reflexivity.
Qed.
Lemma div_not_nan (x y : f64) : finite x -> finite y -> f64R y <> 0 -> is_nan (fdiv x y) = false.
Proof.
  intros FX FY NY. pose proof (Bdiv_correct 53 1024 _ _ mode_NE x y NY) as C. destruct (Rlt_bool _ _) in C; [|exact (overflow_not_nan _ _ C)]. destruct C as (_ & F & _). apply finite_not_nan. unfold finite in *. unfold fdiv. rewrite F. exact FX.
Qed.
Lemma band_ok : finite (fmul lit_2 lit_2) /\ finite (fmul two64 two64) /\ 1 / 10 ^ 4 - / 10 ^ 16 <= f64R (fmul lit_2 lit_2) <= 1 / 10 ^ 4 + / 10 ^ 16 /\ f64R (fmul two64 two64) = 4.
Proof.
  destruct (lit_value 5764607523034235 (-59)) as [E F]; [lia|lia|cbn; lia|]. fold lit_2 in E, F. cbn [Z.opp Z.pow Z.pow_pos Pos.iter Z.mul Pos.mul] in E. destruct (f64_of_Z_ok 2 ltac:(lia)) as [E2 F2]. fold two64 in E2, F2.
  destruct (fmul_ok lit_2 lit_2 1 F F ltac:(lia)) as [EL FL]; [rewrite E; rewrite Rabs_pos_eq; lra|]. destruct (fmul_ok two64 two64 4 F2 F2 ltac:(lia)) as [EH FH]; [rewrite E2; rewrite Rabs_pos_eq; lra|]. split; [exact FL|]. split; [exact FH|]. rewrite EL, EH, E, E2. split; [|replace (2 * 2) with (IZR 4) by lra; apply rnd_Z; lia].
  set (x := 5764607523034235 / 576460752303423488 * (5764607523034235 / 576460752303423488)). assert (R : Rabs (rnd x - x) <= bpow radix2 (-10 - 54)) by (apply rnd_error; [lia|]; rewrite Rabs_pos_eq; [change (bpow radix2 (-10)) with (/ 1024); unfold x; lra|unfold x; lra]). change (bpow radix2 (-10 - 54)) with (/ 18446744073709551616) in R. apply Rabs_le_inv in R. cbn [pow]. unfold x in *. lra.
Qed.
Lemma positive_finite (x : f64) : Bltb zero64 x = true -> finite x \/ x = inf64.
Proof. intros H. destruct x as [?|[|]| |? ? ? ?]; [left; reflexivity|discriminate H|right; reflexivity|discriminate H|left; reflexivity]. Qed.
Lemma inf_div (y : f64) : finite y -> 0 < f64R y -> fdiv inf64 y = inf64.
Proof.
  intros FY PY. destruct y as [?|?| |[|] m e B]; try discriminate FY; [unfold f64R in PY; cbn in PY; lra| |reflexivity]. unfold f64R, B2R, F2R in PY. cbn [Fnum Fexp cond_Zopp] in PY. assert (IZR (Z.neg m) < 0) by (apply IZR_lt; lia). pose proof (bpow_gt_0 radix2 e). change (Z.opp (Z.pos m)) with (Z.neg m) in PY. nra.
Qed.

(** The local variance at a node is between 1e-4 and 4, up to rounding, for any numerator and
    denominator, NaN included, as long as they are not both infinite and the quoted volatility
    is finite: the guard lets a NaN fall back to the quote. *)
Theorem C100_node numer denom vol : finite vol -> is_finite (fmul two64 numer) || is_finite denom = true ->
  finite (node64 numer denom vol) /\ 1 / 10 ^ 4 - / 10 ^ 16 <= f64R (node64 numer denom vol) <= 4.
Proof.
  intros FV G. destruct band_ok as (FL & FH & BL & EH). unfold node64. cbv zeta. set (var := if Bltb lit_8 denom && Bltb zero64 numer then fdiv (fmul two64 numer) denom else fmul vol vol).
  assert (NV : is_nan var = false).
  { unfold var. destruct (Bltb lit_8 denom && Bltb zero64 numer) eqn:E; [|apply mul_not_nan; exact FV]. apply andb_prop in E. destruct E as [E1 E2]. destruct lit_8_ok as [F8 B8]. cbn [pow] in B8.
    assert (D : finite denom \/ denom = inf64) by (destruct denom as [?|[|]| |? ? ? ?]; [left; reflexivity|destruct lit_8 as [?|?| |? ? ? ?]; try discriminate F8; discriminate E1|right; reflexivity|destruct lit_8 as [?|?| |? ? ? ?]; discriminate E1|left; reflexivity]).
    assert (N : finite (fmul two64 numer) \/ fmul two64 numer = inf64). { destruct (positive_finite numer E2) as [FN| ->]; [|right; reflexivity]. destruct (f64_of_Z_ok 2 ltac:(lia)) as [E22 F2]. fold two64 in E22, F2. pose proof (mul_not_nan two64 numer F2 FN) as NN. apply Bltb_R in E2; [|reflexivity|exact FN]. destruct zero64_ok as [Z0 _]. rewrite Z0 in E2.
      pose proof (Bmult_correct 53 1024 _ _ mode_NE two64 numer) as C. fold (fmul two64 numer) in C. destruct (Rlt_bool _ _) in C; [left; destruct C as (_ & F & _); unfold finite; rewrite F; unfold finite in F2, FN; rewrite F2, FN; reflexivity|]. right. assert (SG : Bsign two64 = false) by reflexivity. assert (SN : Bsign numer = false). { destruct numer as [?|?| |[|] m e B]; try discriminate FN; [unfold f64R in E2; cbn in E2; lra| |reflexivity]. unfold f64R, B2R, F2R in E2. cbn [Fnum Fexp cond_Zopp] in E2. assert (IZR (Z.neg m) < 0) by (apply IZR_lt; lia). pose proof (bpow_gt_0 radix2 e). change (Z.opp (Z.pos m)) with (Z.neg m) in E2. nra. }
      rewrite SG, SN in C. destruct (fmul two64 numer) as [?|[|]| |? ? ? ?]; cbn in C; try discriminate C. reflexivity. }
    destruct D as [D| ->].
    - apply Bltb_R in E1; [|exact F8|exact D]. destruct N as [N|N]; [apply div_not_nan; [exact N|exact D|lra]|]. rewrite N, (inf_div denom D) by lra. reflexivity.
    - destruct N as [N|N]; [|rewrite N in G; discriminate G]. destruct (fmul two64 numer) as [?|?| |? ? ? ?]; try discriminate N; reflexivity. }
  destruct (C100_clamp var _ _ FL FH ltac:(rewrite EH; cbn [pow] in BL; lra)) as [C _]. destruct (C NV) as [F B]. split; [exact F|]. rewrite EH in B. lra.
Qed.
Print Assumptions C100_node.

Definition apart (a b : f64) : Prop := f64R a + / 16384 <= f64R b.
Definition node_knot (x : f64) : Prop := finite x /\ Rabs (f64R x) <= 65536.
Definition price_ok (x : f64) : Prop := finite x /\ Rabs (f64R x) <= 524288.
Lemma sorted_nth (l : list f64) : StronglySorted apart l -> forall i j, (i < j < length l)%nat -> apart (nth i l zero64) (nth j l zero64).
Proof.
  induction 1 as [|a l S IH F]; intros i j B; [cbn in B; lia|]. destruct j as [|j]; [lia|]. destruct i as [|i]; cbn [nth length] in *; [rewrite Forall_forall in F; apply F, nth_In; lia|apply IH; lia].
Qed.
Lemma nth_price (l : list f64) j : Forall price_ok l -> price_ok (nth j l zero64).
Proof. intros F. destruct (Nat.lt_ge_cases j (length l)) as [L|L]; [rewrite Forall_forall in F; apply F, nth_In, L|]. rewrite nth_overflow by exact L. destruct zero64_ok as [Z0 FZ]. split; [exact FZ|]. rewrite Z0, Rabs_R0. lra. Qed.
Lemma row_price (c : list (list f64)) i : Forall (Forall price_ok) c -> Forall price_ok (nth i c []).
Proof. intros F. destruct (Nat.lt_ge_cases i (length c)) as [L|L]; [rewrite Forall_forall in F; apply F, nth_In, L|]. rewrite nth_overflow by exact L. constructor. Qed.
(** A difference quotient of two prices over two knots. *)
Lemma quotient_ok (a b x y : f64) : price_ok a -> price_ok b -> node_knot x -> node_knot y -> apart x y -> finite (fdiv (fsub b a) (fsub y x)) /\ Rabs (f64R (fdiv (fsub b a) (fsub y x))) <= 17179869184.
Proof.
  intros [FA BA] [FB BB] [FX BX] [FY BY] A. unfold apart in A. apply Rabs_le_inv in BA, BB, BX, BY. destruct (fsub_ok b a 1048576 FB FA ltac:(lia)) as [EN FN]; [apply Rabs_le; lra|]. destruct (fsub_ok y x 131072 FY FX ltac:(lia)) as [ED FD]; [apply Rabs_le; lra|].
  assert (BN : Rabs (f64R (fsub b a)) <= 1048576) by (rewrite EN; apply rnd_bound; [lia|apply Rabs_le; lra]). assert (F14 : rnd (/ 16384) = / 16384). { change (/ 16384) with (bpow radix2 (-14)). apply rnd_id, generic_format_bpow. unfold FLT_exp. lia. } assert (BD : / 16384 <= f64R (fsub y x)) by (rewrite ED, <- F14; apply rnd_mono; lra).
  assert (Q : Rabs (f64R (fsub b a) / f64R (fsub y x)) <= 17179869184). { unfold Rdiv. rewrite Rabs_mult, (Rabs_pos_eq (/ _)) by (left; apply Rinv_0_lt_compat; lra). apply Rmult_le_reg_r with (f64R (fsub y x)); [lra|]. rewrite Rmult_assoc, Rinv_l by lra. lra. }
  destruct (fdiv_ok (fsub b a) (fsub y x) 17179869184 FN ltac:(lra) ltac:(lia) Q) as [E F]. split; [exact F|]. rewrite E. apply rnd_bound; [lia|exact Q].
Qed.
Lemma numer_ok c ts ks rd rf i j : Forall (Forall price_ok) c -> Forall node_knot ts -> Forall node_knot ks -> StronglySorted apart ts -> StronglySorted apart ks -> (3 <= length ts)%nat -> (3 <= length ks)%nat -> (i < length ts)%nat -> (j < length ks)%nat -> finite rd -> finite rf -> Rabs (f64R rd) <= 1 -> Rabs (f64R rf) <= 1 ->
  finite (numer64 c ts ks rd rf i j) /\ Rabs (f64R (numer64 c ts ks rd rf i j)) <= IZR (2 ^ 52).
Proof.
  intros PC KT KK ST SK LT LK I J FRD FRF BRD BRF.
  assert (NT : forall n, (n < length ts)%nat -> node_knot (nth n ts zero64)) by (intros n B; rewrite Forall_forall in KT; apply KT, nth_In, B). assert (NK : forall n, (n < length ks)%nat -> node_knot (nth n ks zero64)) by (intros n B; rewrite Forall_forall in KK; apply KK, nth_In, B).
  assert (PR : forall a b, price_ok (cell64 c a b)) by (intros a b; unfold cell64; apply nth_price, row_price, PC).
  assert (QT : finite (fd_t64 c ts i j) /\ Rabs (f64R (fd_t64 c ts i j)) <= 17179869184).
  { unfold fd_t64. cbv zeta. destruct (i =? 0)%nat eqn:E0; [|destruct (i =? length ts - 1)%nat eqn:E1]; try apply Nat.eqb_neq in E0; try apply Nat.eqb_neq in E1; apply quotient_ok; try apply PR; try (apply NT; lia); apply sorted_nth; try exact ST; lia. }
  assert (QK : finite (fd_k64 (nth i c []) ks j) /\ Rabs (f64R (fd_k64 (nth i c []) ks j)) <= 17179869184).
  { unfold fd_k64. cbv zeta. destruct (j =? 0)%nat eqn:E0; [|destruct (j =? length ks - 1)%nat eqn:E1]; try apply Nat.eqb_neq in E0; try apply Nat.eqb_neq in E1; apply quotient_ok; try (apply nth_price, row_price, PC); try (apply NK; lia); apply sorted_nth; try exact SK; lia. }
  destruct QT as [FT BT]. destruct QK as [FK BK]. destruct (NK j J) as [FN BN]. destruct (PR i j) as [FP BP]. unfold numer64. cbv zeta. set (qt := fd_t64 c ts i j) in *. set (qk := fd_k64 _ ks j) in *. set (k := nth j ks zero64) in *. set (p := cell64 c i j) in *.
  pose proof BRD as BRD'. pose proof BRF as BRF'. apply Rabs_le_inv in BRD', BRF'. destruct (fsub_ok rd rf 2 FRD FRF ltac:(lia)) as [E1 F1]; [apply Rabs_le; lra|]. assert (B1 : Rabs (f64R (fsub rd rf)) <= 2) by (rewrite E1; apply rnd_bound; [lia|apply Rabs_le; lra]). set (d := fsub rd rf) in *.
  assert (X2 : Rabs (f64R d * f64R k) <= 131072) by (rewrite Rabs_mult; replace 131072 with (2 * 65536) by ring; apply Rmult_le_compat; try apply Rabs_pos; assumption). destruct (fmul_ok d k 131072 F1 FN ltac:(lia) X2) as [E2 F2]. assert (B2 : Rabs (f64R (fmul d k)) <= 131072) by (rewrite E2; apply rnd_bound; [lia|exact X2]). set (dk := fmul d k) in *.
  assert (X3 : Rabs (f64R dk * f64R qk) <= 2251799813685248) by (rewrite Rabs_mult; replace 2251799813685248 with (131072 * 17179869184) by ring; apply Rmult_le_compat; try apply Rabs_pos; assumption). destruct (fmul_ok dk qk 2251799813685248 F2 FK ltac:(lia) X3) as [E3 F3]. assert (B3 : Rabs (f64R (fmul dk qk)) <= 2251799813685248) by (rewrite E3; apply rnd_bound; [lia|exact X3]). set (m := fmul dk qk) in *.
  assert (X4 : Rabs (f64R qt + f64R m) <= 2251816993554432) by (pose proof (Rabs_triang (f64R qt) (f64R m)); lra). destruct (fadd_ok qt m 2251816993554432 FT F3 ltac:(lia) X4) as [E4 F4]. assert (B4 : Rabs (f64R (fadd qt m)) <= 2251816993554432) by (rewrite E4; apply rnd_bound; [lia|exact X4]). set (s := fadd qt m) in *.
  assert (X5 : Rabs (f64R rf * f64R p) <= 524288) by (rewrite Rabs_mult; replace 524288 with (1 * 524288) by ring; apply Rmult_le_compat; try apply Rabs_pos; assumption). destruct (fmul_ok rf p 524288 FRF FP ltac:(lia) X5) as [E5 F5]. assert (B5 : Rabs (f64R (fmul rf p)) <= 524288) by (rewrite E5; apply rnd_bound; [lia|exact X5]). set (r := fmul rf p) in *.
  assert (X6 : Rabs (f64R s + f64R r) <= IZR (2 ^ 52)) by (change (2 ^ 52)%Z with 4503599627370496%Z; pose proof (Rabs_triang (f64R s) (f64R r)); lra). destruct (fadd_ok s r (2 ^ 52) F4 F5 ltac:(lia) X6) as [E6 F6]. split; [exact F6|]. rewrite E6. apply rnd_bound; [lia|exact X6].
Qed.

(** A Dupire surface built from finite quotes and prices of ordinary size, on a grid whose
    points are a 2^-14 apart, gives at every time and strike whatever, NaN included, a local
    volatility between 1% and 200%, up to rounding. *)
Theorem C100_dupire c ts ks vols spot rd rf V t k : build64 c ts ks vols spot rd rf = Ok V ->
  Forall (Forall price_ok) c -> Forall (Forall (fun x => finite x)) vols -> Forall node_knot ts -> Forall node_knot ks -> StronglySorted apart ts -> StronglySorted apart ks -> finite rd -> finite rf -> Rabs (f64R rd) <= 1 -> Rabs (f64R rf) <= 1 ->
  exists v s, local_variance64 ts ks V t k = Ok v /\ local_vol64 ts ks V t k = Ok s /\ finite v /\ finite s /\ 1 / 10 ^ 4 - / 10 ^ 12 <= f64R v <= 4 + / 10 ^ 12 /\ 1 / 100 - / 10 ^ 9 <= f64R s <= 2 + / 10 ^ 9.
Proof.
  intros H PC FV KT KK ST SK FRD FRF BRD BRF. unfold build64 in H. destruct (3 <=? length ts)%nat eqn:L1; cbn [negb] in H; [|discriminate]. destruct (3 <=? length ks)%nat eqn:L2; cbn [negb] in H; [|discriminate]. apply Nat.leb_le in L1, L2. destruct (length vols =? length ts)%nat; cbn [negb] in H; [|discriminate]. destruct (forallb _ vols); cbn [negb] in H; [|discriminate]. destruct (increasing64 ts); cbn [negb] in H; [|discriminate]. destruct (increasing64 ks); cbn [negb] in H; [|discriminate]. destruct (Bltb zero64 spot); cbn [negb] in H; [|discriminate].
  assert (EV : V = map (fun i => map (node_variance64 c ts ks vols rd rf i) (seq 0 (length ks))) (seq 0 (length ts))) by congruence. clear H.
  assert (FC : forall i j, finite (cell64 vols i j)). { intros i j. unfold cell64. destruct zero64_ok as [_ FZ]. assert (FR : Forall (fun x => finite x) (nth i vols [])) by (destruct (Nat.lt_ge_cases i (length vols)) as [L|L]; [rewrite Forall_forall in FV; apply FV, nth_In, L|rewrite nth_overflow by exact L; constructor]). destruct (Nat.lt_ge_cases j (length (nth i vols []))) as [L|L]; [rewrite Forall_forall in FR; apply FR, nth_In, L|rewrite nth_overflow by exact L; exact FZ]. }
  assert (ND : forall i j, (i < length ts)%nat -> (j < length ks)%nat -> finite (node_variance64 c ts ks vols rd rf i j) /\ 1 / 10 ^ 4 - / 10 ^ 16 <= f64R (node_variance64 c ts ks vols rd rf i j) <= 4).
  { intros i j I J. unfold node_variance64. cbv zeta. apply C100_node; [apply FC|]. destruct (numer_ok c ts ks rd rf i j PC KT KK ST SK L1 L2 I J FRD FRF BRD BRF) as [FN BN]. destruct (f64_of_Z_ok 2 ltac:(lia)) as [E2 F2]. fold two64 in E2, F2. destruct (fmul_ok two64 (numer64 c ts ks rd rf i j) (2 ^ 53) F2 FN ltac:(lia)) as [_ F]; [rewrite E2, Rabs_mult, (Rabs_pos_eq 2) by lra; change (IZR (2 ^ 53)) with 9007199254740992; change (IZR (2 ^ 52)) with 4503599627370496 in BN; lra|]. unfold finite in F. rewrite F. reflexivity. }
  assert (ROW : forall Q : f64 -> Prop, (forall i j, (i < length ts)%nat -> (j < length ks)%nat -> Q (node_variance64 c ts ks vols rd rf i j)) -> Forall (fun r => length r = length ks /\ Forall Q r) V).
  { intros Q HQ. rewrite EV. apply Forall_forall. intros r IR. apply in_map_iff in IR. destruct IR as (i & <- & II). apply in_seq in II. split; [rewrite map_length, seq_length; reflexivity|]. apply Forall_forall. intros x IX. apply in_map_iff in IX. destruct IX as (j & <- & IJ). apply in_seq in IJ. apply HQ; lia. }
  pose proof u53_pos as U. pose proof u53_eq as UE. assert (P49 : 4 <= IZR (2 ^ 49)) by (apply IZR_le; lia). assert (P52 : 4 <= IZR (2 ^ 52)) by (apply IZR_le; lia). assert (P50 : 65536 <= IZR (2 ^ 50)) by (apply IZR_le; lia).
  assert (GRID : forall l, Forall node_knot l -> StronglySorted apart l -> grid64 l). { intros l K S. split; [revert K; apply Forall_impl; intros x [F B]; split; [exact F|lra]|]. clear K. induction S as [|a l S IH F]; constructor; [exact IH|]. revert F. apply Forall_impl. unfold apart. intros x A. lra. }
  destruct (C99_local_variance ts ks V 4 t k (GRID ts KT ST) (GRID ks KK SK)) as (v & E & F & B & LO & EL & FS & PS & _).
  - intros ->. cbn in L1. lia.
  - intros ->. cbn in L2. lia.
  - rewrite EV, map_length, seq_length. reflexivity.
  - apply ROW. intros i j I J. destruct (ND i j I J) as [F B]. cbn [pow] in B. split; [exact F|lra].
  - split; [|exact P52]. apply Rle_trans with (bpow radix2 0); [apply bpow_le; lia|change (bpow radix2 0) with 1; lra].
  - exact P49.
  - exists v, (fsqrt v). split; [exact E|]. split; [exact EL|]. split; [exact F|]. split; [exact FS|]. specialize (LO (1 / 10 ^ 4 - / 10 ^ 16)). assert (LV : 1 / 10 ^ 4 - / 10 ^ 16 - 32 * u53 * 4 <= f64R v). { apply LO. specialize (ROW (fun x => 1 / 10 ^ 4 - / 10 ^ 16 <= f64R x)). assert (G : Forall (fun r => length r = length ks /\ Forall (fun x => 1 / 10 ^ 4 - / 10 ^ 16 <= f64R x) r) V) by (apply ROW; intros i j I J; destruct (ND i j I J) as [_ B']; lra). revert G. apply Forall_impl. intros r [_ G]. exact G. }
    destruct (sqrt_close v F ltac:(lra)) as (_ & _ & SQ). set (s := f64R (fsqrt v)) in *. set (x := f64R v) in *. clearbody s x. cbn [pow] in *. assert (BX : 1 / 10000 - / 1000000000000 <= x <= 4 + / 1000000000000) by lra. split; [lra|]. assert (S1 : 1 / 10000 - 2 / 1000000000000 <= s * s <= 4 + 1 / 1000000000) by nra. split.
    + destruct (Rle_lt_dec (1 / 100 - / 1000000000) s) as [C|C]; [lra|]. exfalso. assert (s * s <= (1 / 100 - / 1000000000) * (1 / 100 - / 1000000000)) by (apply Rmult_le_compat; lra). lra.
    + destruct (Rle_lt_dec s (2 + / 1000000000)) as [C|C]; [lra|]. exfalso. assert ((2 + / 1000000000) * (2 + / 1000000000) <= s * s) by (apply Rmult_le_compat; lra). lra.
Qed.
Print Assumptions C100_dupire.

(** A rounded product of two approximations. *)
Lemma prod_err x y a b P Q m n d : 0 <= m <= 10 -> 0 <= n <= 10 -> 0 <= d -> Rabs a <= P -> Rabs b <= Q -> Rabs (x - a) <= m * u53 * P + d -> Rabs (y - b) <= n * u53 * Q ->
  Rabs (rnd (x * y) - a * b) <= (m + n + 2) * u53 * (P * Q) + 2 * d * Q + bpow radix2 (-1075).
Proof.
  intros M N D A B X Y. pose proof u53_pos as U. pose proof u53_eq as UE. pose proof (Rabs_pos a) as A0. pose proof (Rabs_pos b) as B0. pose proof (Rabs_pos (x - a)) as X0. pose proof (Rabs_pos (y - b)) as Y0. pose proof (rnd_abs (x * y)) as R.
  assert (PQ : 0 <= P * Q) by (apply Rmult_le_pos; lra). assert (T1 : Rabs (x * y - a * b) <= P * (n * u53 * Q) + Q * (m * u53 * P + d) + (m * u53 * P + d) * (n * u53 * Q)).
  { replace (x * y - a * b) with (a * (y - b) + b * (x - a) + (x - a) * (y - b)) by ring. apply Rle_trans with (Rabs (a * (y - b)) + Rabs (b * (x - a)) + Rabs ((x - a) * (y - b))); [apply Rle_trans with (1 := Rabs_triang _ _); apply Rplus_le_compat_r, Rabs_triang|]. rewrite !Rabs_mult. apply Rplus_le_compat; [apply Rplus_le_compat|]; apply Rmult_le_compat; assumption. }
  assert (T2 : Rabs (x * y) <= P * Q + Rabs (x * y - a * b)). { replace (x * y) with (a * b + (x * y - a * b)) at 1 by ring. apply Rle_trans with (1 := Rabs_triang _ _). apply Rplus_le_compat_r. rewrite Rabs_mult. apply Rmult_le_compat; assumption. }
  assert (T3 : Rabs (rnd (x * y) - a * b) <= Rabs (rnd (x * y) - x * y) + Rabs (x * y - a * b)) by (replace (rnd (x * y) - a * b) with ((rnd (x * y) - x * y) + (x * y - a * b)) by ring; apply Rabs_triang).
  set (w := P * Q) in *. set (e := Rabs (x * y - a * b)) in *. assert (DQ : 0 <= d * Q) by (apply Rmult_le_pos; lra). set (f := d * Q) in *. assert (E : e <= (m + n) * u53 * w + f + (m * u53) * (n * u53) * w + n * u53 * f) by (apply Rle_trans with (1 := T1); right; unfold w, f; ring).
  assert (MU : 0 <= m * u53 <= / 1000) by (split; [apply Rmult_le_pos; lra|]; apply Rle_trans with (10 * u53); [apply Rmult_le_compat_r; lra|lra]). assert (NU : 0 <= n * u53 <= / 1000) by (split; [apply Rmult_le_pos; lra|]; apply Rle_trans with (10 * u53); [apply Rmult_le_compat_r; lra|lra]).
  assert (G1 : (m * u53) * (n * u53) * w <= u53 * w / 10). { assert (m * u53 * (n * u53) <= u53 / 100). { apply Rle_trans with (10 * u53 * / 1000); [apply Rmult_le_compat; [lra|lra|apply Rmult_le_compat_r; lra|lra]|lra]. } apply Rle_trans with (u53 / 100 * w); [apply Rmult_le_compat_r; lra|]. assert (0 <= u53 * w) by (apply Rmult_le_pos; lra). lra. }
  assert (G2 : n * u53 * f <= f / 1000) by (apply Rle_trans with (/ 1000 * f); [apply Rmult_le_compat_r; lra|lra]).
  assert (UW : 0 <= u53 * w) by (apply Rmult_le_pos; lra). assert (G3 : (m + n) * u53 * w <= / 500 * w) by (apply Rmult_le_compat_r; [exact PQ|lra]). assert (UF : 0 <= (1 / 100 - u53) * f) by (apply Rmult_le_pos; lra).
  assert (UEE : u53 * Rabs (x * y) <= u53 * (w + (/ 500 * w + f + / 500 * w + f / 1000))). { apply Rmult_le_compat_l; [lra|]. assert (u53 * w / 10 <= / 500 * w) by (assert (0 <= (/ 100 - u53) * w) by (apply Rmult_le_pos; lra); lra). lra. } replace (2 * d * Q) with (2 * f) by (unfold f; ring). lra.
Qed.
Lemma sqrt_err (x : f64) : finite x -> 0 <= f64R x -> finite (fsqrt x) /\ Rabs (f64R (fsqrt x) - sqrt (f64R x)) <= 4 * u53 * sqrt (f64R x).
Proof.
  intros F P. destruct (sqrt_close x F P) as (FS & PS & SQ). split; [exact FS|]. pose proof (sqrt_pos (f64R x)) as S0. pose proof (sqrt_sqrt _ P) as SS. set (s := f64R (fsqrt x)) in *. set (r := sqrt (f64R x)) in *. rewrite <- SS in SQ. clearbody s r. pose proof u53_pos as U. pose proof u53_eq as UE. assert (R0 : 0 <= r * r) by (apply Rmult_le_pos; lra). apply Rabs_le. split.
  - destruct (Rle_lt_dec (- (4 * u53 * r)) (s - r)) as [C|C]; [exact C|exfalso]. assert (s * s <= (r - 4 * u53 * r) * (r - 4 * u53 * r)) by (apply Rmult_le_compat; lra). assert (0 <= (4 * u53 - 16 * u53 * u53) * (r * r)). { apply Rmult_le_pos; [|exact R0]. assert (0 <= u53 * (4 - 16 * u53)) by (apply Rmult_le_pos; lra). lra. } assert (r > 0) by (destruct (Req_dec r 0) as [->|]; lra). assert (0 < u53 * (r * r)) by (apply Rmult_lt_0_compat; [lra|apply Rmult_lt_0_compat; lra]). assert (u53 * u53 * (r * r) <= u53 * (r * r) / 1000). { assert (0 <= (/ 1000 - u53) * (u53 * (r * r))) by (apply Rmult_le_pos; lra). lra. } lra.
  - destruct (Rle_lt_dec (s - r) (4 * u53 * r)) as [C|C]; [exact C|exfalso]. assert (UR : 0 <= 4 * u53 * r) by (apply Rmult_le_pos; lra). assert (H : (r + 4 * u53 * r) * (r + 4 * u53 * r) <= s * s) by (apply Rmult_le_compat; lra). destruct (Req_dec r 0) as [->|NR]; [|assert (0 < u53 * (r * r)) by (apply Rmult_lt_0_compat; [lra|apply Rmult_lt_0_compat; lra]); assert (0 <= u53 * u53 * (r * r)) by (apply Rmult_le_pos; [apply Rmult_le_pos; lra|lra]); lra]. assert (s > 0) by lra. assert (0 < s * s) by (apply Rmult_lt_0_compat; lra). lra.
Qed.

(** One step of the variance with parameters of ordinary size is a finite number, within
    12 half-units (2^-53) of the sum of the sizes of its terms of the exact step. *)
Theorem C100_variance kappa theta gamma dt state dw : finite kappa -> finite theta -> finite gamma -> finite dt -> finite state -> finite dw ->
  0 <= f64R kappa <= 1024 -> 0 <= f64R theta <= 1024 -> 0 <= f64R gamma <= 1024 -> 0 <= f64R dt <= 1024 -> Rabs (f64R state) <= 1024 -> Rabs (f64R dw) <= 1024 ->
  let sigma := Rmax (f64R state) 0 in
  let size := sigma + f64R kappa * (f64R theta + sigma) * f64R dt + f64R gamma * sqrt sigma * Rabs (f64R dw) in
  bpow radix2 (-100) <= size ->
  finite (variance_step64 kappa theta gamma dt state dw) /\
  Rabs (f64R (variance_step64 kappa theta gamma dt state dw) - Rmax (sigma + f64R kappa * (f64R theta - sigma) * f64R dt + f64R gamma * sqrt sigma * f64R dw) 0) <= 12 * u53 * size.
Proof.
  intros FK FT FG FD FS FW BK BT BG BD BS BW sigma size SZ. pose proof u53_pos as U. pose proof u53_eq as UE. destruct zero64_ok as [Z0 FZ]. unfold variance_step64. cbv zeta. destruct (fmax_value state zero64 FS FZ) as [FM EM]. rewrite Z0 in EM. fold sigma in EM. set (sg := fmax state zero64) in *.
  apply Rabs_le_inv in BS. assert (B0 : 0 <= sigma <= 1024) by (unfold sigma; split; [apply Rmax_r|apply Rmax_lub; lra]). clearbody sigma sg. pose proof (sqrt_pos sigma) as Q0. assert (Q1 : sqrt sigma <= 32) by (replace 32 with (sqrt (32 * 32)) by (apply sqrt_square; lra); apply sqrt_le_1; lra).
  destruct (fsub_ok theta sg 2048 FT FM ltac:(lia)) as [E1 F1]; [rewrite EM; apply Rabs_le; lra|]. rewrite EM in E1. assert (X1 : Rabs (f64R (fsub theta sg) - (f64R theta - sigma)) <= 1 * u53 * (f64R theta + sigma) + 0).
  { assert (EO : f64R (Bopp sg) = - sigma) by (rewrite <- EM; unfold f64R; apply B2R_Bopp). destruct (rnd_plus theta (Bopp sg)) as (e & E & R). rewrite EO in R. fold (f64R theta - sigma) in R. rewrite E1, R. replace ((f64R theta - sigma) * (1 + e) - (f64R theta - sigma)) with (e * (f64R theta - sigma)) by ring. rewrite Rabs_mult, Rmult_1_l, Rplus_0_r. apply Rmult_le_compat; [apply Rabs_pos|apply Rabs_pos|exact E|apply Rabs_le; lra]. }
  assert (A1 : Rabs (f64R (fsub theta sg)) <= 2048) by (rewrite E1; apply rnd_bound; [lia|apply Rabs_le; lra]). set (x := fsub theta sg) in *.
  assert (L2 : Rabs (f64R kappa * f64R x) <= 2097152) by (rewrite Rabs_mult, (Rabs_pos_eq (f64R kappa)) by lra; replace 2097152 with (1024 * 2048) by ring; apply Rmult_le_compat; [lra|apply Rabs_pos|lra|exact A1]). destruct (fmul_ok kappa x 2097152 FK F1 ltac:(lia) L2) as [E2 F2]. assert (A2 : Rabs (f64R (fmul kappa x)) <= 2097152) by (rewrite E2; apply rnd_bound; [lia|exact L2]).
  assert (K0 : Rabs (f64R kappa - f64R kappa) <= 0 * u53 * f64R kappa) by (rewrite Rminus_diag_eq, Rabs_R0 by reflexivity; lra). assert (D0 : Rabs (f64R dt - f64R dt) <= 0 * u53 * f64R dt) by (rewrite Rminus_diag_eq, Rabs_R0 by reflexivity; lra). assert (W0 : Rabs (f64R dw - f64R dw) <= 0 * u53 * Rabs (f64R dw)) by (rewrite Rminus_diag_eq, Rabs_R0 by reflexivity; lra). assert (G0 : Rabs (f64R gamma - f64R gamma) <= 0 * u53 * f64R gamma) by (rewrite Rminus_diag_eq, Rabs_R0 by reflexivity; lra).
  set (tn := bpow radix2 (-1075)). assert (TP : 0 < tn) by apply bpow_gt_0.
  pose proof (prod_err (f64R x) (f64R kappa) (f64R theta - sigma) (f64R kappa) (f64R theta + sigma) (f64R kappa) 1 0 0 ltac:(lra) ltac:(lra) ltac:(lra) ltac:(apply Rabs_le; lra) ltac:(rewrite Rabs_pos_eq; lra) X1 K0) as X2. fold tn in X2. rewrite (Rmult_comm (f64R x)), <- E2 in X2.
  set (y := fmul kappa x) in *. assert (L3 : Rabs (f64R y * f64R dt) <= 2147483648) by (rewrite Rabs_mult, (Rabs_pos_eq (f64R dt)) by lra; replace 2147483648 with (2097152 * 1024) by ring; apply Rmult_le_compat; [apply Rabs_pos|lra|exact A2|lra]). destruct (fmul_ok y dt 2147483648 F2 FD ltac:(lia) L3) as [E3 F3]. assert (A3 : Rabs (f64R (fmul y dt)) <= 2147483648) by (rewrite E3; apply rnd_bound; [lia|exact L3]).
  assert (P2 : 0 <= (f64R theta + sigma) * f64R kappa) by (apply Rmult_le_pos; lra). pose proof (prod_err (f64R y) (f64R dt) ((f64R theta - sigma) * f64R kappa) (f64R dt) ((f64R theta + sigma) * f64R kappa) (f64R dt) 3 0 tn ltac:(lra) ltac:(lra) ltac:(lra) ltac:(rewrite Rabs_mult, (Rabs_pos_eq (f64R kappa)) by lra; apply Rmult_le_compat_r; [lra|apply Rabs_le; lra]) ltac:(rewrite Rabs_pos_eq; lra) ltac:(apply Rle_trans with (1 := X2); lra) D0) as X3. fold tn in X3. rewrite <- E3 in X3. set (z := fmul y dt) in *.
  destruct (sqrt_err sg FM ltac:(lra)) as [F4 X4]. rewrite EM in X4. set (s := fsqrt sg) in *. assert (A4 : Rabs (f64R s) <= 64). { apply Rabs_le_inv in X4. assert (4 * u53 * sqrt sigma <= 1 * 32) by (apply Rmult_le_compat; lra). apply Rabs_le. lra. }
  assert (L5 : Rabs (f64R gamma * f64R s) <= 65536) by (rewrite Rabs_mult, (Rabs_pos_eq (f64R gamma)) by lra; replace 65536 with (1024 * 64) by ring; apply Rmult_le_compat; [lra|apply Rabs_pos|lra|exact A4]). destruct (fmul_ok gamma s 65536 FG F4 ltac:(lia) L5) as [E5 F5]. assert (A5 : Rabs (f64R (fmul gamma s)) <= 65536) by (rewrite E5; apply rnd_bound; [lia|exact L5]).
  pose proof (prod_err (f64R s) (f64R gamma) (sqrt sigma) (f64R gamma) (sqrt sigma) (f64R gamma) 4 0 0 ltac:(lra) ltac:(lra) ltac:(lra) ltac:(rewrite Rabs_pos_eq; lra) ltac:(rewrite Rabs_pos_eq; lra) ltac:(lra) G0) as X5. fold tn in X5. rewrite (Rmult_comm (f64R s)), <- E5 in X5. set (g := fmul gamma s) in *.
  assert (L6 : Rabs (f64R g * f64R dw) <= 67108864) by (rewrite Rabs_mult; replace 67108864 with (65536 * 1024) by ring; apply Rmult_le_compat; try apply Rabs_pos; assumption). destruct (fmul_ok g dw 67108864 F5 FW ltac:(lia) L6) as [E6 F6]. assert (A6 : Rabs (f64R (fmul g dw)) <= 67108864) by (rewrite E6; apply rnd_bound; [lia|exact L6]).
  assert (P5 : 0 <= sqrt sigma * f64R gamma) by (apply Rmult_le_pos; lra). pose proof (prod_err (f64R g) (f64R dw) (sqrt sigma * f64R gamma) (f64R dw) (sqrt sigma * f64R gamma) (Rabs (f64R dw)) 6 0 tn ltac:(lra) ltac:(lra) ltac:(lra) ltac:(rewrite Rabs_pos_eq; lra) ltac:(lra) ltac:(apply Rle_trans with (1 := X5); lra) W0) as X6. fold tn in X6. rewrite <- E6 in X6. set (w := fmul g dw) in *.
  destruct (fadd_ok sg z 2147484672 FM F3 ltac:(lia)) as [E7 F7]; [rewrite EM; pose proof (Rabs_triang sigma (f64R z)); rewrite (Rabs_pos_eq sigma) in * by lra; lra|]. assert (A7 : Rabs (f64R (fadd sg z)) <= 2147484672) by (rewrite E7; apply rnd_bound; [lia|rewrite EM; pose proof (Rabs_triang sigma (f64R z)); rewrite (Rabs_pos_eq sigma) in * by lra; lra]).
  destruct (fadd_ok (fadd sg z) w 4294967296 F7 F6 ltac:(lia)) as [E8 F8]; [pose proof (Rabs_triang (f64R (fadd sg z)) (f64R w)); lra|]. destruct (fmax_value (fadd (fadd sg z) w) zero64 F8 FZ) as [F9 E9]. rewrite Z0 in E9. split; [exact F9|]. rewrite E9.
  destruct (rnd_plus sg z) as (e7 & B7 & R7). rewrite <- E7, EM in R7. destruct (rnd_plus (fadd sg z) w) as (e8 & B8 & R8). rewrite <- E8 in R8. set (v7 := f64R (fadd sg z)) in *. set (v8 := f64R (fadd (fadd sg z) w)) in *.
  set (C := f64R kappa * (f64R theta + sigma) * f64R dt) in *. set (B := f64R gamma * sqrt sigma * Rabs (f64R dw)) in *. set (ci := f64R kappa * (f64R theta - sigma) * f64R dt). set (bi := f64R gamma * sqrt sigma * f64R dw).
  assert (C0 : 0 <= C) by (unfold C; apply Rmult_le_pos; [apply Rmult_le_pos; lra|lra]). assert (BB : 0 <= B) by (unfold B; apply Rmult_le_pos; [apply Rmult_le_pos; lra|apply Rabs_pos]).
  assert (IC : Rabs ci <= C). { unfold ci, C. rewrite !Rabs_mult, (Rabs_pos_eq (f64R kappa)), (Rabs_pos_eq (f64R dt)) by lra. apply Rmult_le_compat_r; [lra|]. apply Rmult_le_compat_l; [lra|]. apply Rabs_le. lra. } assert (IB : Rabs bi <= B) by (unfold bi, B; rewrite !Rabs_mult, (Rabs_pos_eq (f64R gamma)), (Rabs_pos_eq (sqrt sigma)) by lra; lra).
  assert (XZ : Rabs (f64R z - ci) <= 5 * u53 * C + 2049 * tn). { replace ci with ((f64R theta - sigma) * f64R kappa * f64R dt) by (unfold ci; ring). apply Rle_trans with (1 := X3). replace ((f64R theta + sigma) * f64R kappa * f64R dt) with C by (unfold C; ring). assert (tn * f64R dt <= tn * 1024) by (apply Rmult_le_compat_l; lra). lra. }
  assert (XW : Rabs (f64R w - bi) <= 8 * u53 * B + 2049 * tn). { replace bi with (sqrt sigma * f64R gamma * f64R dw) by (unfold bi; ring). apply Rle_trans with (1 := X6). replace (sqrt sigma * f64R gamma * Rabs (f64R dw)) with B by (unfold B; ring). assert (tn * Rabs (f64R dw) <= tn * 1024) by (apply Rmult_le_compat_l; lra). lra. }
  assert (T2 : 8192 * tn <= u53 * size / 100). { assert (8192 * tn <= u53 * bpow radix2 (-100) / 100); [|assert (u53 * bpow radix2 (-100) <= u53 * size) by (apply Rmult_le_compat_l; lra); lra]. pose proof (tiny_u53 (-1000) ltac:(lia)) as T'. assert (819200 * tn <= bpow radix2 (-1000)); [|lra]. unfold tn. apply Rle_trans with (bpow radix2 20 * bpow radix2 (-1075)); [apply Rmult_le_compat_r; [apply bpow_ge_0|]; change (bpow radix2 20) with 1048576; lra|]. rewrite <- bpow_plus. apply bpow_le. lia. }
  fold ci bi. assert (S0 : 0 < size) by (pose proof (bpow_gt_0 radix2 (-100)); lra). assert (SE : size = sigma + C + B) by reflexivity. clearbody size tn v7 v8 C B ci bi. clear - U UE B7 B8 R7 R8 IC IB XZ XW T2 S0 SE C0 BB B0 TP. set (zz := f64R z) in *. set (ww := f64R w) in *. clearbody zz ww.
  assert (US : 0 < u53 * size) by (apply Rmult_lt_0_compat; lra). assert (U2 : u53 * (u53 * size) <= u53 * size / 1000) by (assert (0 <= (/ 1000 - u53) * (u53 * size)) by (apply Rmult_le_pos; lra); lra).
  assert (UC : 0 <= u53 * C <= u53 * size) by (split; [apply Rmult_le_pos; lra|apply Rmult_le_compat_l; lra]). assert (UB : 0 <= u53 * B <= u53 * size) by (split; [apply Rmult_le_pos; lra|apply Rmult_le_compat_l; lra]). assert (USG : u53 * sigma + u53 * C + u53 * B = u53 * size) by (rewrite SE; ring). assert (US0 : 0 <= u53 * sigma) by (apply Rmult_le_pos; lra).
  assert (Q7 : Rabs (v7 - (sigma + zz)) <= u53 * (sigma + C + 6 * (u53 * size))). { rewrite R7. replace ((sigma + zz) * (1 + e7) - (sigma + zz)) with (e7 * (sigma + zz)) by ring. rewrite Rabs_mult. apply Rmult_le_compat; [apply Rabs_pos|apply Rabs_pos|exact B7|]. apply Rabs_le_inv in XZ, IC. apply Rabs_le. lra. }
  assert (Q7' : Rabs (v7 - (sigma + zz)) <= u53 * sigma + u53 * C + u53 * size / 100) by lra.
  assert (Q8 : Rabs (v8 - (v7 + ww)) <= u53 * (size + 20 * (u53 * size))). { rewrite R8. replace ((v7 + ww) * (1 + e8) - (v7 + ww)) with (e8 * (v7 + ww)) by ring. rewrite Rabs_mult. apply Rmult_le_compat; [apply Rabs_pos|apply Rabs_pos|exact B8|]. apply Rabs_le_inv in XZ, IC, XW, IB, Q7'. apply Rabs_le. lra. }
  assert (Q : Rabs (v8 - (sigma + ci + bi)) <= 12 * u53 * size) by (apply Rabs_le_inv in Q7', Q8, XZ, XW; apply Rabs_le; lra). apply Rabs_le_inv in Q. unfold Rmax. destruct (Rle_dec v8 0), (Rle_dec (sigma + ci + bi) 0); apply Rabs_le; lra.
Qed.
Print Assumptions C100_variance.

(** The leverage of the local-volatility scheme is finite for every bin mean and every power
    of the forward, NaN included, and at most three million when the local variance is at
    most five.  Where the floor of the denominator is not reached, its square times the
    denominator is the local variance, within six half-units (2^-53). *)
Theorem C100_leverage lv e_vol2 p : finite lv -> 0 <= f64R lv <= 5 ->
  let l := leverage64 lv e_vol2 p in let m := fmul e_vol2 (fmul p p) in
  finite l /\ 0 <= f64R l <= 3000000 /\
  (finite m -> / 10 ^ 12 <= f64R m <= bpow radix2 900 -> / 10 ^ 6 <= f64R lv -> Rabs (f64R l * f64R l * f64R m - f64R lv) <= 6 * u53 * f64R lv).
Proof.
  intros FL BL l m. pose proof u53_pos as U. pose proof u53_eq as UE. destruct zero64_ok as [Z0 FZ]. destruct lit_12_ok as [F12 B12]. cbn [pow] in B12. cbn [pow].
  unfold l, leverage64. cbv zeta. fold m. set (d := fmax m lit_12). assert (FLOOR : Bleb lit_12 d = true) by (apply fmax_floor, finite_not_nan, F12).
  assert (D : (finite d /\ f64R lit_12 <= f64R d) \/ d = inf64). { destruct (Bleb_not_nan _ _ FLOOR) as [_ ND]. destruct (is_finite d) eqn:FD; [left; split; [exact FD|apply Bleb_R; assumption]|right]. destruct d as [?|[|]| |? ? ? ?]; try discriminate FD; try discriminate ND; [|reflexivity]. destruct lit_12 as [?|?| |? ? ? ?]; try discriminate F12; discriminate FLOOR. }
  assert (Q : finite (fdiv lv d) /\ 0 <= f64R (fdiv lv d) <= 6000000000000).
  { destruct D as [[FD LD]| ->].
    - assert (DP : 0 < f64R d) by lra. assert (QB : 0 <= f64R lv / f64R d <= 6000000000000). { split; [apply quotient_pos; lra|]. apply Rmult_le_reg_r with (f64R d); [exact DP|]. unfold Rdiv. rewrite Rmult_assoc, Rinv_l by lra. lra. } destruct (fdiv_ok lv d 6000000000000 FL ltac:(lra) ltac:(lia)) as [E F]; [rewrite Rabs_pos_eq by lra; lra|]. split; [exact F|]. rewrite E. split; [rewrite <- rnd_0; apply rnd_mono; lra|rewrite <- (rnd_Z 6000000000000) by lia; apply rnd_mono; lra].
    - destruct lv as [?|?| |? ? ? ?]; try discriminate FL; (split; [reflexivity|]; unfold f64R; cbn; lra). }
  destruct Q as [FQ BQ]. destruct (fmax_value (fdiv lv d) zero64 FQ FZ) as [FX EX]. rewrite Z0, Rmax_left in EX by lra. destruct (sqrt_close (fmax (fdiv lv d) zero64) FX ltac:(lra)) as (FS & PS & SQ). rewrite EX in SQ. set (s := f64R (fsqrt (fmax (fdiv lv d) zero64))) in *. split; [exact FS|]. split; [split; [exact PS|]|].
  - destruct (Rle_lt_dec s 3000000) as [C|C]; [exact C|exfalso]. assert (3000000 * 3000000 <= s * s) by (apply Rmult_le_compat; lra). assert ((1 + 4 * u53) * f64R (fdiv lv d) <= 2 * 6000000000000 / 1.5) by (apply Rle_trans with (1.2 * 6000000000000); [apply Rmult_le_compat; lra|lra]). lra.
  - intros FM BM LL. assert (ED : f64R d = f64R m /\ finite d) by (destruct (fmax_value m lit_12 FM F12) as [F E]; fold d in F, E; split; [rewrite E, Rmax_left by lra; reflexivity|exact F]). destruct ED as [ED FD]. assert (MP : 0 < f64R m) by lra.
    destruct (fdiv_ok lv d 6000000000000 FL ltac:(lra) ltac:(lia)) as [E F]. { rewrite ED. rewrite Rabs_pos_eq by (apply quotient_pos; lra). apply Rmult_le_reg_r with (f64R m); [lra|]. unfold Rdiv. rewrite Rmult_assoc, Rinv_l by lra. lra. }
    rewrite ED in E. assert (NR : bpow radix2 (-1022) <= Rabs (f64R lv / f64R m)). { rewrite Rabs_pos_eq by (apply quotient_pos; lra). apply Rmult_le_reg_r with (f64R m); [lra|]. unfold Rdiv. rewrite Rmult_assoc, Rinv_l by lra. rewrite Rmult_1_r. apply Rle_trans with (bpow radix2 (-1022) * bpow radix2 900); [apply Rmult_le_compat_l; [apply bpow_ge_0|lra]|]. rewrite <- bpow_plus. apply Rle_trans with (bpow radix2 (-30)); [apply bpow_le; lia|]. change (bpow radix2 (-30)) with (/ 1073741824). lra. }
    destruct (rnd_rel _ NR) as (e & BE & R). rewrite <- E in R. apply Rabs_le_inv in BE. assert (EM : f64R (fdiv lv d) * f64R m = f64R lv * (1 + e)) by (rewrite R; field; lra). set (q := f64R (fdiv lv d)) in *. set (a := f64R lv) in *. set (b := f64R m) in *. clearbody s q a b. clear R E NR F EX.
    assert (S1 : 0 <= (s * s - (1 - 4 * u53) * q) * b) by (apply Rmult_le_pos; lra). assert (S2 : 0 <= ((1 + 4 * u53) * q - s * s) * b) by (apply Rmult_le_pos; lra). assert (G1 : 0 <= (u53 - e) * a) by (apply Rmult_le_pos; lra). assert (G2 : 0 <= (u53 + e) * a) by (apply Rmult_le_pos; lra). assert (UQ : u53 * (q * b) <= u53 * (a + u53 * a)) by (apply Rmult_le_compat_l; lra). assert (UA : 0 <= u53 * a) by (apply Rmult_le_pos; lra). assert (U2 : 0 <= (/ 1000 - u53) * (u53 * a)) by (apply Rmult_le_pos; lra). apply Rabs_le. lra.
Qed.
Print Assumptions C100_leverage.

(** The clamps do not hold against NaN: a correlation that comes out NaN stays NaN after the
    clamp to 0.999, and a node of the Dupire surface whose numerator and denominator have both
    overflowed is NaN after the clamp to 200%. *)
Theorem C100_clamp_refuted : (forall lo hi, finite lo -> finite hi -> f64R lo <= f64R hi -> is_nan (fclamp nan64 lo hi) = true) /\
  forall vol, is_nan (node64 inf64 inf64 vol) = true.
Proof. split; [intros lo hi FL FH O; apply (proj2 (proj2 (C100_clamp nan64 lo hi FL FH O))); reflexivity|]. intros vol. vm_compute. reflexivity. Qed.
Print Assumptions C100_clamp_refuted.

Example C100_witness :
  match build64 [[f64_of_Z 3; two64; one64; zero64]; [f64_of_Z 4; f64_of_Z 3; two64; one64]; [f64_of_Z 5; nan64; f64_of_Z 3; two64]] [one64; two64; f64_of_Z 3] [one64; two64; f64_of_Z 3; f64_of_Z 4] (repeat [half64; half64; half64; half64] 3) one64 zero64 zero64 with
  | Ok V => match local_vol64 [one64; two64; f64_of_Z 3] [one64; two64; f64_of_Z 3; f64_of_Z 4] V nan64 inf64 with Ok s => Bleb half64 s && Bleb s half64 | _ => false end
  | _ => false end = true /\
  (let v := variance_step64 one64 half64 half64 lit_2 half64 (Bopp lit_2) in Bltb zero64 v && Bltb v half64) = true /\
  Bleb (leverage64 half64 nan64 nan64) (f64_of_Z 1000000) = true /\
  finite (variance_step64 one64 half64 half64 half64 half64 half64).
Proof. repeat split; vm_compute; reflexivity. Qed.
Print Assumptions C100_witness.
(** The hypotheses of the Dupire theorem are met by a grid of small whole numbers. *)
Example C100_witness_dupire : exists V v s, build64 (repeat [f64_of_Z 3; two64; one64] 3) [one64; two64; f64_of_Z 3] [one64; two64; f64_of_Z 3] (repeat [half64; half64; half64] 3) one64 zero64 zero64 = Ok V /\
  local_variance64 [one64; two64; f64_of_Z 3] [one64; two64; f64_of_Z 3] V nan64 nan64 = Ok v /\ local_vol64 [one64; two64; f64_of_Z 3] [one64; two64; f64_of_Z 3] V nan64 nan64 = Ok s /\ 1 / 100 - / 10 ^ 9 <= f64R s <= 2 + / 10 ^ 9.
Proof.
  set (T := [one64; two64; f64_of_Z 3]). set (c := repeat [f64_of_Z 3; two64; one64] 3). set (W := repeat [half64; half64; half64] 3). assert (B : exists V, build64 c T T W one64 zero64 zero64 = Ok V) by (eexists; unfold build64; change (increasing64 T) with true; change (Bltb zero64 one64) with true; cbn [negb length T W repeat Nat.leb Nat.eqb forallb andb]; reflexivity). destruct B as [V B]. exists V.
  destruct (f64_of_Z_ok 1 ltac:(lia)) as [E1 F1]. destruct (f64_of_Z_ok 2 ltac:(lia)) as [E2 F2]. destruct (f64_of_Z_ok 3 ltac:(lia)) as [E3 F3]. fold one64 in E1, F1. fold two64 in E2, F2. destruct zero64_ok as [Z0 FZ]. destruct half64_ok as [EH FH].
  assert (KT : Forall node_knot T). { unfold T. constructor; [split; [exact F1|rewrite E1; apply Rabs_le; lra]|]. constructor; [split; [exact F2|rewrite E2; apply Rabs_le; lra]|]. constructor; [split; [exact F3|rewrite E3; apply Rabs_le; lra]|]. constructor. }
  assert (ST : StronglySorted apart T). { unfold T, apart. constructor; [constructor; [constructor; [constructor|constructor]|constructor; [lra|constructor]]|constructor; [lra|constructor; [lra|constructor]]]. }
  assert (ROW : Forall price_ok [f64_of_Z 3; two64; one64]). { constructor; [split; [exact F3|rewrite E3; apply Rabs_le; lra]|]. constructor; [split; [exact F2|rewrite E2; apply Rabs_le; lra]|]. constructor; [split; [exact F1|rewrite E1; apply Rabs_le; lra]|]. constructor. }
  destruct (C100_dupire c T T W one64 zero64 zero64 V nan64 nan64 B) as (v & s & E & ES & _ & _ & _ & BS); try assumption.
  - unfold c. cbn [repeat]. constructor; [exact ROW|]. constructor; [exact ROW|]. constructor; [exact ROW|]. constructor.
  - unfold W. cbn [repeat]. assert (Forall (fun x => finite x) [half64; half64; half64]) by (constructor; [exact FH|]; constructor; [exact FH|]; constructor; [exact FH|]; constructor). constructor; [assumption|]. constructor; [assumption|]. constructor; [assumption|]. constructor.
  - rewrite Z0, Rabs_R0. lra.
  - rewrite Z0, Rabs_R0. lra.
  - exists v, s. split; [exact B|]. split; [exact E|]. split; [exact ES|exact BS].
Qed.
Print Assumptions C100_witness_dupire.
