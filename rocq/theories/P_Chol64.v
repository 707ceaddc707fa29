(** C97: the Cholesky factorisation in binary64. *)
From Coq Require Import Bool List Arith ZArith Reals Lra Lia Psatz.
Import ListNotations.
From Flocq Require Import Core BinarySingleNaN.
From Verif Require Import Outcome F64 Clock64 Clock64Facts Cholesky CholeskyFacts Chol64 Chol64Facts.
Open Scope R_scope.

(** The real matrix that the floats stand for. *)
Definition reals (m : list (list f64)) : list (list R) := map (map f64R) m.
(** A matrix of correlations: symmetric, ones on the diagonal, finite entries between -1 and 1. *)
Definition correlations (m : list (list f64)) : Prop :=
  square64 m /\ (forall i j, entry64 m i j = entry64 m j i) /\
  (forall i, (i < length m)%nat -> finite (entry64 m i i) /\ f64R (entry64 m i i) = 1) /\
  (forall i j, (i < length m)%nat -> (j < length m)%nat -> finite (entry64 m i j) /\ -1 <= f64R (entry64 m i j) <= 1).
(** [n^2 2^-51] *)
Definition margin (n : nat) : R := INR n * INR n / 2 ^ 51.

Lemma w51_eq : w51 = / 2 ^ 51.
Proof. unfold w51. pose proof u53_eq as E. assert (P : 0 < 2 ^ 51) by (apply pow_lt; lra). apply Rmult_eq_reg_r with (2 ^ 51); [|lra]. rewrite Rinv_l by lra. replace (2 ^ 51) with 2251799813685248 by (cbn; lra). lra. Qed.
Lemma entry_reals m i j : entry (reals m) i j = f64R (entry64 m i j).
Proof.
  unfold entry, reals, entry64. rewrite <- (proj1 zero64_ok). rewrite <- (map_nth f64R). f_equal. change [] with (map f64R []) at 1. rewrite map_nth. reflexivity.
Qed.
Lemma form_reals m x : (forall i j, entry64 m i j = entry64 m j i) -> quadratic (reals m) x = form (length m) (lower (entry64 m)) x.
Proof.
  intros SY. unfold quadratic, form. assert (L : length (reals m) = length m) by apply map_length. rewrite L. apply rs_ext. intros i _. apply rs_ext. intros j _. rewrite entry_reals. unfold lower. destruct (j <=? i)%nat; [reflexivity|]. rewrite SY. reflexivity.
Qed.
Lemma small_size (m : list (list f64)) : (Z.of_nat (length m) <= 2 ^ 40)%Z -> small (length m).
Proof.
  intros H. unfold small, w51. pose proof u53_eq. pose proof u53_pos. assert (INR (length m) <= 1099511627776) by (rewrite INR_IZR_INZ; apply IZR_le; exact H). nra.
Qed.
Lemma correlations_readable m : correlations m -> readable (entry64 m) (length m).
Proof.
  intros (_ & _ & O & U). split; [exact O|]. intros a b H. destruct (U a b ltac:(lia) ltac:(lia)) as [F B]. split; [exact F|]. apply Rabs_le. lra.
Qed.

(** A factor without NaN on its diagonal reproduces the matrix up to [n 2^-51] in every entry, and the matrix
    is positive semi-definite up to [n^2 2^-51]. *)
Theorem C97_sound : forall m l, correlations m -> (Z.of_nat (length m) <= 2 ^ 40)%Z -> cholesky64 m = Ok (Some l) ->
  (forall i, (i < length m)%nat -> is_nan (entry64 l i i) = false) ->
  length l = length m /\ square64 l /\ (forall i j, (i < j)%nat -> f64R (entry64 l i j) = 0) /\
  (forall i j, (i < length m)%nat -> (j < length m)%nat -> finite (entry64 l i j) /\ -1 <= f64R (entry64 l i j) <= 1) /\
  (forall i, (i < length m)%nat -> 0 < f64R (entry64 l i i)) /\
  (forall i j, (i < length m)%nat -> (j < length m)%nat ->
     Rabs (rs (length m) (fun k => f64R (entry64 l i k) * f64R (entry64 l j k)) - f64R (entry64 m i j)) <= INR (length m) / 2 ^ 51) /\
  (forall x, - margin (length m) * rs (length m) (fun i => x i * x i) <= quadratic (reals m) x).
Proof.
  intros m l0 CM NB H NN. pose proof (small_size m NB) as SM. pose proof (correlations_readable m CM) as RD. destruct CM as (SQ & SY & _ & _).
  destruct (cholesky64_cases m SQ) as [(l & E & U & Z)|(l & k & E & _)]; [|congruence]. assert (EL : l0 = map (fun i => map (l i) (seq 0 (length m))) (seq 0 (length m))) by congruence. subst l0. clear H E.
  assert (EN : forall i j, entry64 (map (fun i => map (l i) (seq 0 (length m))) (seq 0 (length m))) i j = l i j) by (intros; apply entry64_rows; exact Z).
  assert (G : forall i, (i < length m)%nat -> good_row (entry64 m) l i) by (apply (rows_good _ _ _ SM RD U); intros i Hi; rewrite <- EN; apply NN, Hi). assert (ZA : zero_above l) by (intros a b L; destruct U as (_ & _ & N); apply N; lia).
  set (M := map (fun i => map (l i) (seq 0 (length m))) (seq 0 (length m))) in *. assert (LM : length M = length m) by (unfold M; rewrite map_length, seq_length; reflexivity).
  split; [exact LM|]. split. { unfold square64. rewrite LM. unfold M. apply Forall_forall. intros row I. apply in_map_iff in I. destruct I as (i & <- & _). rewrite map_length, seq_length. reflexivity. }
  split. { intros i j L. rewrite EN, ZA by exact L. apply zero64_ok. }
  split. { intros i j Hi Hj. rewrite EN. destruct (Nat.le_gt_cases j i) as [L|L]; [|rewrite ZA by exact L; split; [apply zero64_ok|rewrite (proj1 zero64_ok); lra]]. destruct (G i Hi) as (G1 & _). destruct (G1 j L) as [F B]. split; [exact F|]. apply Rabs_le_inv in B. exact B. }
  split. { intros i Hi. rewrite EN. apply (G i Hi). }
  split.
  - intros i j Hi Hj. rewrite (rs_ext _ _ (fun k => val l i k * val l j k)) by (intros k _; rewrite !EN; reflexivity). pose proof (good_product (entry64 m) l (length m) (length m) i j ZA (le_n _) G Hi Hj) as P. rewrite w51_eq in P. unfold Rdiv. replace (f64R (entry64 m i j)) with (lower (entry64 m) i j); [exact P|]. unfold lower. destruct (j <=? i)%nat; [reflexivity|rewrite SY; reflexivity].
  - intros x. rewrite form_reals by exact SY. pose proof (good_form (entry64 m) l (length m) x ZA G) as P. rewrite w51_eq in P. exact P.
Qed.
Print Assumptions C97_sound.

(** A matrix that is positive definite with that margin is factored, without NaN. *)
Theorem C97_complete : forall m, correlations m -> (Z.of_nat (length m) <= 2 ^ 40)%Z ->
  (forall x, (exists i, (i < length m)%nat /\ x i <> 0) -> margin (length m) * rs (length m) (fun i => x i * x i) < quadratic (reals m) x) ->
  exists l, cholesky64 m = Ok (Some l) /\ forall i j, (i < length m)%nat -> (j < length m)%nat -> finite (entry64 l i j).
Proof.
  intros m CM NB PD. pose proof (small_size m NB) as SM. pose proof (correlations_readable m CM) as RD. destruct CM as (SQ & SY & _ & _).
  assert (PF : forall x, (exists i, (i < length m)%nat /\ x i <> 0) -> INR (length m) * INR (length m) * w51 * norm2 (length m) x < form (length m) (lower (entry64 m)) x).
  { intros x NZ. rewrite <- form_reals by exact SY. rewrite w51_eq. exact (PD x NZ). }
  destruct (cholesky64_cases m SQ) as [(l & E & U & Z)|(l & k & E & Hk & U & B)].
  - eexists. split; [exact E|]. intros i j Hi Hj. rewrite entry64_rows by exact Z. destruct U as (C & P & N). assert (ZA : zero_above l) by (intros a b L; apply N; lia).
    destruct (Nat.le_gt_cases j i) as [L|L]; [|rewrite ZA by exact L; apply zero64_ok]. destruct (rows_live (entry64 m) l (length m) i SM RD Hi ZA) as [G LV]; [intros a b La Lb; apply C; lia|intros a La; apply P; lia|exact PF|].
    assert (GI : good_row (entry64 m) l i) by (apply (good_next _ _ (length m) i SM RD Hi G); [intros b Hb; apply C; lia|apply P; lia|exact LV]). apply GI. exact L.
  - exfalso. destruct U as (C & P & N). assert (ZA : zero_above l) by (intros a b L; apply N; lia). destruct (rows_live (entry64 m) l (length m) k SM RD Hk ZA) as [G LV]; [intros a b La Lb; apply C; lia|intros a La; apply P; lia|exact PF|].
    rewrite part_all, (live_leb _ LV) in B. discriminate.
Qed.
Print Assumptions C97_complete.

(** ** The FX-HHW correlation block *)
Definition drivers (c : correlation64) (x s d f : R) : R :=
  x * x + s * s + d * d + f * f + 2 * f64R (xi_sigma64 c) * x * s + 2 * f64R (xi_d64 c) * x * d + 2 * f64R (xi_f64 c) * x * f
  + 2 * f64R (sigma_d64 c) * s * d + 2 * f64R (sigma_f64 c) * s * f + 2 * f64R (d_f64 c) * d * f.
Definition in_range (c : correlation64) : Prop :=
  Forall (fun r => finite r /\ -1 <= f64R r <= 1) [xi_sigma64 c; xi_d64 c; xi_f64 c; sigma_d64 c; sigma_f64 c; d_f64 c].
Lemma one64_ok : f64R one64 = 1 /\ finite one64. Proof. exact (f64_of_Z_ok 1 ltac:(lia)). Qed.
Lemma drivers_quadratic c x : quadratic (reals (matrix64 c)) x = drivers c (x 0%nat) (x 1%nat) (x 2%nat) (x 3%nat).
Proof. unfold quadratic, drivers, reals, matrix64, entry. cbn [map length rs nth]. rewrite (proj1 one64_ok). ring. Qed.
Lemma drivers_correlations c : in_range c -> correlations (matrix64 c).
Proof.
  intros H. unfold in_range in H. rewrite Forall_forall in H. assert (O : finite one64 /\ -1 <= f64R one64 <= 1) by (rewrite (proj1 one64_ok); split; [apply one64_ok|lra]).
  split; [repeat constructor|]. split; [|split].
  - intros i j. do 4 (try destruct i as [|i]); do 4 (try destruct j as [|j]); try reflexivity; unfold entry64; cbn; try destruct i; try destruct j; reflexivity.
  - intros i Hi. cbn in Hi. do 4 (destruct i as [|i]; [split; [apply one64_ok|apply one64_ok]|]). lia.
  - intros i j Hi Hj. cbn in Hi, Hj. do 4 (destruct i as [|i]; [do 4 (destruct j as [|j]; [first [exact O|apply H; cbn; tauto]|]); lia|]). lia.
Qed.

(** For finite correlations between -1 and 1 the test never fails to answer, and it is right up to
    [2^-47]: what it accepts has no direction of clearly negative variance, and what is positive
    definite by more than that is accepted. *)
Theorem C97_drivers : forall c, in_range c -> exists b, valid64 c = Ok b /\
  (b = true -> forall x s d f, - / 2 ^ 47 * (x * x + s * s + d * d + f * f) <= drivers c x s d f) /\
  ((forall x s d f, x <> 0 \/ s <> 0 \/ d <> 0 \/ f <> 0 -> / 2 ^ 47 * (x * x + s * s + d * d + f * f) < drivers c x s d f) -> b = true).
Proof.
  intros c RG. pose proof (drivers_correlations c RG) as CM. assert (SZ : (Z.of_nat (length (matrix64 c)) <= 2 ^ 40)%Z) by (cbn; lia).
  assert (MG : margin (length (matrix64 c)) = / 2 ^ 47). { unfold margin. cbn [matrix64 length INR]. replace (2 ^ 51) with (2 ^ 47 * 16) by (cbn; lra). assert (0 < 2 ^ 47) by (apply pow_lt; lra). field; lra. }
  set (vec := fun x s d f (i : nat) => match i with 0%nat => x | 1%nat => s | 2%nat => d | _ => f end : R).
  assert (NV : forall x, rs (length (matrix64 c)) (fun i => x i * x i) = x 0%nat * x 0%nat + x 1%nat * x 1%nat + x 2%nat * x 2%nat + x 3%nat * x 3%nat) by (intros x; cbn [matrix64 length rs]; lra).
  destruct (cholesky64_cases (matrix64 c) ltac:(apply CM)) as [(l & E & U & Z)|(l & k & E & Hk & U & B)]; unfold valid64, factor64; rewrite E; cbn [obind].
  - exists true. split; [reflexivity|]. split; [|reflexivity]. intros _ x s d f. pose proof (four_no_nan _ l 4 ltac:(lia) (correlations_readable _ CM) U) as NN.
    destruct (C97_sound (matrix64 c) _ CM SZ E) as (_ & _ & _ & _ & _ & _ & P); [intros i Hi; rewrite entry64_rows by exact Z; apply NN, Hi|]. specialize (P (vec x s d f)). rewrite MG, drivers_quadratic, NV in P. exact P.
  - exists false. split; [reflexivity|]. split; [discriminate|]. intros PD. exfalso. destruct (C97_complete (matrix64 c) CM SZ) as (l' & E' & _); [|congruence]. intros x (i & Hi & NZ). rewrite MG, drivers_quadratic, NV. apply PD. cbn in Hi. do 4 (destruct i as [|i]; [tauto|]). lia.
Qed.
Print Assumptions C97_drivers.

Lemma sub_finite_nan (x y : f64) : finite x -> finite y -> is_nan (fsub x y) = false.
Proof. intros FX FY. pose proof (Bminus_correct 53 1024 _ _ mode_NE x y FX FY) as X. fold (fsub x y) in X. destruct (Rlt_bool _ _); [destruct X as (_ & X & _)|destruct X as [X _]]; destruct (fsub x y); try reflexivity; discriminate X. Qed.
Lemma mul_finite_nan (x y : f64) : finite x -> finite y -> is_nan (fmul x y) = false.
Proof. intros FX FY. pose proof (Bmult_correct 53 1024 _ _ mode_NE x y) as X. fold (fmul x y) in X. unfold finite in *. rewrite FX, FY in X. destruct (Rlt_bool _ _); [destruct X as (_ & X & _)|]; destruct (fmul x y); try reflexivity; discriminate X. Qed.
Lemma one_square_no_nan (v : f64) : finite v -> is_nan (fsub one64 (fmul v v)) = false.
Proof.
  intros F. pose proof (mul_finite_nan v v F F) as N. destruct (is_finite (fmul v v)) eqn:FM; [apply sub_finite_nan; [apply one64_ok|exact FM]|].
  destruct (fmul v v) as [c|c| |c mm e H]; try discriminate. destruct c; reflexivity.
Qed.

(** ** Two drivers: the test is exact *)
Theorem C97_pair : forall rho, exists r, cholesky64 [[one64; rho]; [rho; one64]] = Ok r /\
  ((exists l, r = Some l) <-> is_nan rho = true \/ finite rho /\ -1 < f64R rho < 1).
Proof.
  intros rho. set (m := [[one64; rho]; [rho; one64]]). assert (SQ : square64 m) by (repeat constructor). destruct one64_ok as [E1 F1].
  (* the first row *)
  assert (R0 : forall l, pivot (entry64 m) l 0 -> finite (l 0%nat 0%nat) /\ f64R (l 0%nat 0%nat) = 1).
  { intros l [_ P]. change (residual64 l (entry64 m 0 0) 0 0) with one64 in P. pose proof (Bsqrt_correct 53 1024 _ _ mode_NE one64) as (ES & FS & _). fold (fsqrt one64) in ES, FS. rewrite <- P in ES, FS. split; [unfold finite; rewrite FS; reflexivity|]. unfold f64R in *. rewrite ES, E1, sqrt_1. apply (rnd_Z 1). lia. }
  (* the second *)
  assert (R1 : forall l, finite (l 0%nat 0%nat) /\ f64R (l 0%nat 0%nat) = 1 -> cell (entry64 m) l 1 0 -> Bleb (residual64 l (entry64 m 1 1) 1 1) zero64 = false <-> is_nan rho = true \/ finite rho /\ -1 < f64R rho < 1).
  { intros l [F0 V0] C. change (residual64 l (entry64 m 1 1) 1 1) with (fsub one64 (fmul (l 1%nat 0%nat) (l 1%nat 0%nat))). unfold cell in C. change (residual64 l (entry64 m 1 0) 1 0) with rho in C.
    destruct (is_finite rho) eqn:FR.
    - (* finite *)
      assert (EQ : f64R rho / f64R (l 0%nat 0%nat) = f64R rho) by (rewrite V0; field). assert (NZ : B2R (l 0%nat 0%nat) <> 0) by (unfold f64R in V0; lra).
      pose proof (Bdiv_correct 53 1024 _ _ mode_NE rho _ NZ) as D. fold (fdiv rho (l 0%nat 0%nat)) in D. rewrite <- C in D. change (B2R rho / B2R (l 0%nat 0%nat)) with (f64R rho / f64R (l 0%nat 0%nat)) in D. rewrite EQ in D. change (round radix2 (SpecFloat.fexp 53 1024) (round_mode mode_NE) (f64R rho)) with (rnd (f64R rho)) in D. rewrite rnd_id in D by apply format64. rewrite Rlt_bool_true in D by apply abs_B2R_lt_emax.
      destruct D as (EV & FV & _). rewrite FR in FV. change (f64R (l 1%nat 0%nat) = f64R rho) in EV. set (v := l 1%nat 0%nat) in *.
      assert (LO : live one64) by (apply live_R; split; [exact F1|lra]). destruct (sub_cases one64 v LO ltac:(lra)) as [L|D].
      + rewrite (live_leb _ L). split; [intros _|reflexivity]. right. split; [exact FR|]. rewrite <- EV. destruct (sub_live one64 v LO ltac:(lra) L) as (_ & V1 & _ & _). assert (NE : f64R v * f64R v <> 1).
        { intros EE. assert (M1 : Rabs (f64R v * f64R v) <= 1) by (rewrite EE, Rabs_R1; lra). destruct (fmul_ok v v 1 FV FV ltac:(lia) M1) as [EM FM]. rewrite EE in EM. change 1 with (IZR 1) in EM. rewrite rnd_Z in EM by lia. destruct (fsub_ok one64 (fmul v v) 1 F1 FM ltac:(lia)) as [ES _]; [rewrite E1, EM, Rminus_diag_eq, Rabs_R0 by reflexivity; lra|]. rewrite E1, EM, Rminus_diag_eq, rnd_0 in ES by reflexivity. apply live_R in L. lra. }
        apply Rabs_le_inv in V1. destruct V1 as [[V1|V1] [V2|V2]]; try lra; exfalso; apply NE; first [rewrite V2; lra|rewrite <- V1; lra].
      + assert (NL : ~ live (fsub one64 (fmul v v))) by (apply dead_live, D). split.
        * intros B. exfalso. assert (NN : is_nan (fsub one64 (fmul v v)) = true) by (destruct (is_nan (fsub one64 (fmul v v))) eqn:N; [reflexivity|rewrite (dead_leb _ D N) in B; discriminate]). rewrite one_square_no_nan in NN by exact FV. discriminate.
        * intros [NN|[_ RR]]; [exfalso; clear - FR NN; destruct rho; discriminate|]. exfalso. rewrite <- EV in RR.
          (* a float below one in modulus has a square that does not round to one *)
          apply NL. assert (PB : Rabs (f64R v) <= pred radix2 (FLT_exp (-1074) 53) 1). { apply pred_ge_gt; [typeclasses eauto|apply generic_format_abs, format64|apply (format_Z 1); lia|apply Rabs_def1; lra]. }
          assert (FP : generic_format radix2 (FLT_exp (-1074) 53) (pred radix2 (FLT_exp (-1074) 53) 1)) by (apply generic_format_pred; [typeclasses eauto|apply (format_Z 1); lia]). assert (PL : pred radix2 (FLT_exp (-1074) 53) 1 < 1) by (apply pred_lt_id; lra). assert (V1 : Rabs (f64R v) <= 1) by lra. pose proof (Rabs_pos (f64R v)) as V0'.
          assert (SQV : f64R v * f64R v = Rabs (f64R v) * Rabs (f64R v)) by (rewrite <- Rabs_mult; symmetry; apply Rabs_pos_eq; nra). assert (M1 : Rabs (f64R v * f64R v) <= 1) by (rewrite SQV, Rabs_pos_eq; nra). destruct (fmul_ok v v 1 FV FV ltac:(lia) M1) as [EM FM].
          assert (ML : f64R (fmul v v) < f64R one64). { rewrite EM, E1. apply Rle_lt_trans with (2 := PL). rewrite <- (rnd_id _ FP). apply rnd_mono. rewrite SQV. nra. }
          assert (M0 : 0 <= f64R (fmul v v)) by (rewrite EM, <- rnd_0; apply rnd_mono; rewrite SQV; nra). destruct (fsub_ok one64 (fmul v v) 1 F1 FM ltac:(lia)) as [ES FS]; [apply Rabs_le; lra|]. apply live_R. split; [exact FS|]. rewrite ES. apply rnd_sub_pos. exact ML.
    - (* infinite or NaN *)
      assert (NZ : exists sg mm e H, l 0%nat 0%nat = B754_finite sg mm e H) by (unfold finite, f64R in *; destruct (l 0%nat 0%nat) as [c|c| |c mm e H]; try discriminate F0; [cbn in V0; lra|eauto]). destruct NZ as (sg & mm & e & H & EL). rewrite EL in C. destruct rho as [c|c| |c mm' e' H']; try discriminate FR; cbn [is_nan].
      + assert (IN : exists c', l 1%nat 0%nat = B754_infinity c') by (rewrite C; eexists; reflexivity). destruct IN as (c' & ->). assert (MI : fmul (B754_infinity c') (B754_infinity c') = B754_infinity false) by (destruct c'; reflexivity). rewrite MI. split; [vm_compute; discriminate|]. intros [X|[X _]]; discriminate.
      + assert (IN : l 1%nat 0%nat = B754_nan) by (rewrite C; reflexivity). rewrite IN. split; [left; reflexivity|]. intros _. vm_compute. reflexivity. }
  destruct (cholesky64_cases m SQ) as [(l & E & (C & P & _) & _)|(l & k & E & Hk & (C & P & _) & B)]; eexists; (split; [exact E|]).
  - split; [|eauto]. intros _. apply (R1 l (R0 l (P 0%nat ltac:(cbn; lia)))); [apply C; cbn; lia|]. apply P. cbn. lia.
  - split; [intros (l' & X); discriminate|]. intros X. exfalso. cbn in Hk. destruct k as [|[|k]]; [|  |lia].
    + change (residual64 l (entry64 m 0 0) 0 0) with one64 in B. vm_compute in B. discriminate.
    + apply (R1 l (R0 l (P 0%nat ltac:(lia)))) in X; [congruence|]. apply C; lia.
Qed.
Print Assumptions C97_pair.

(** ** What the test does not do *)
Lemma mul_nan x : fmul B754_nan x = B754_nan. Proof. destruct x; reflexivity. Qed.
Lemma div_nan x : fdiv x B754_nan = B754_nan. Proof. destruct x; reflexivity. Qed.
Lemma sub_nan_r x : fsub x B754_nan = B754_nan. Proof. destruct x; reflexivity. Qed.
Lemma part_nan l x i t : l i t = B754_nan -> forall u, (t < u)%nat -> part l x i i u = B754_nan.
Proof.
  intros H. induction u as [|u IH]; intros L; [lia|]. rewrite part_S. destruct (Nat.eq_dec t u) as [<-|NE]; [rewrite H, mul_nan; apply sub_nan_r|]. rewrite IH by lia. destruct (fmul (l i u) (l i u)); reflexivity.
Qed.
(** "is_valid: all pairwise correlations must be in [-1, 1]": a correlation between the spot and its variance
    that is not a number is accepted, whatever the other five are. *)
Theorem C97_nan_refuted : forall b c d e f,
  valid64 {| xi_sigma64 := B754_nan; xi_d64 := b; xi_f64 := c; sigma_d64 := d; sigma_f64 := e; d_f64 := f |} = Ok true.
Proof.
  intros b c d e f. set (q := {| xi_sigma64 := B754_nan; xi_d64 := b; xi_f64 := c; sigma_d64 := d; sigma_f64 := e; d_f64 := f |}). unfold valid64, factor64.
  assert (SQ : square64 (matrix64 q)) by (repeat constructor). destruct (cholesky64_cases (matrix64 q) SQ) as [(l & E & _)|(l & k & E & Hk & (C & P & _) & B)]; rewrite E; cbn [obind]; [reflexivity|]. exfalso.
  rewrite part_all in B. assert (N : forall u, (0 < u)%nat -> (1 <= k)%nat -> k <> 1%nat -> l 1%nat 1%nat = B754_nan).
  { intros _ _ K1 K2. destruct (P 1%nat ltac:(lia)) as [_ PV]. rewrite part_all in PV. assert (L10 : l 1%nat 0%nat = B754_nan) by (rewrite (C 1%nat 0%nat ltac:(lia) ltac:(lia) : l 1%nat 0%nat = _); change (residual64 l (entry64 (matrix64 q) 1 0) 1 0) with (B754_nan : f64); destruct (l 0%nat 0%nat); reflexivity). rewrite (part_nan l _ 1 0 L10 1 ltac:(lia)) in PV. rewrite PV. reflexivity. }
  destruct k as [|[|k]].
  - change (part l (entry64 (matrix64 q) 0 0) 0 0 0) with one64 in B. vm_compute in B. discriminate.
  - assert (L10 : l 1%nat 0%nat = B754_nan) by (rewrite (C 1%nat 0%nat ltac:(lia) ltac:(lia) : l 1%nat 0%nat = _); change (residual64 l (entry64 (matrix64 q) 1 0) 1 0) with (B754_nan : f64); destruct (l 0%nat 0%nat); reflexivity). rewrite (part_nan l _ 1 0 L10 1 ltac:(lia)) in B. discriminate.
  - specialize (N 1%nat ltac:(lia) ltac:(lia) ltac:(lia)). assert (LK : l (S (S k)) 1%nat = B754_nan) by (rewrite (C (S (S k)) 1%nat ltac:(lia) ltac:(lia) : l (S (S k)) 1%nat = _), N; apply div_nan). rewrite (part_nan l _ _ 1 LK (S (S k)) ltac:(lia)) in B. discriminate.
Qed.
Print Assumptions C97_nan_refuted.

(* the decimals 0.28, 0.352, 0.6, 0.8, 0.8432 and 0.96 as parsed *)
Definition f028 : f64 := f64_lit 1261007895663739 (-52).
Definition f0352 : f64 := f64_lit 3170534137668829 (-53).
Definition f06 : f64 := f64_lit 5404319552844595 (-53).
Definition f08 : f64 := f64_lit 3602879701896397 (-52).
Definition f08432 : f64 := f64_lit 1898717602899401 (-51).
Definition f096 : f64 := f64_lit 1080863910568919 (-50).
(* three correlated drivers, the fourth independent of them *)
Definition three (a b d : f64) : correlation64 := {| xi_sigma64 := a; xi_d64 := b; xi_f64 := zero64; sigma_d64 := d; sigma_f64 := zero64; d_f64 := zero64 |}.

(** The answer depends on the order of the drivers: naming the spot and its variance the other way round
    turns an accepted matrix into a rejected one. *)
Theorem C97_order_refuted : ~ (forall a b d, valid64 (three a b d) = valid64 (three a d b)).
Proof. intros H. specialize (H zero64 f096 f028). assert (A : valid64 (three zero64 f096 f028) = Ok true) by (vm_compute; reflexivity). assert (B : valid64 (three zero64 f028 f096) = Ok false) by (vm_compute; reflexivity). congruence. Qed.
Print Assumptions C97_order_refuted.

Lemma literal m e : (Z.abs m < 2 ^ 53)%Z -> (-53 <= e <= -50)%Z -> (Z.abs m <= 2 ^ (- e))%Z -> f64R (f64_lit m e) = IZR m / IZR (2 ^ (- e)) /\ finite (f64_lit m e) /\ -1 <= f64R (f64_lit m e) <= 1.
Proof.
  intros M E B. assert (P : 0 < IZR (2 ^ (- e))) by (apply IZR_lt, Z.pow_pos_nonneg; lia). assert (BE : bpow radix2 e = / IZR (2 ^ (- e))) by (rewrite <- (Z.opp_involutive e) at 1; rewrite bpow_opp, <- IZR_Zpower by lia; reflexivity).
  assert (R1 : Rabs (IZR m * bpow radix2 e) <= 1). { rewrite BE, Rabs_mult, (Rabs_pos_eq (/ _)) by (left; apply Rinv_0_lt_compat, P). apply Rmult_le_reg_r with (IZR (2 ^ (- e))); [exact P|]. rewrite Rmult_assoc, Rinv_l, Rmult_1_r, Rmult_1_l by lra. rewrite <- abs_IZR. apply IZR_le, B. }
  destruct (lit_ok m e 1 M ltac:(lia) ltac:(lia) R1) as [V F]. split; [rewrite V, BE; reflexivity|]. split; [exact F|]. rewrite V. apply Rabs_le_inv in R1. exact R1.
Qed.
Lemma three_range a b d : (finite a /\ -1 <= f64R a <= 1) -> (finite b /\ -1 <= f64R b <= 1) -> (finite d /\ -1 <= f64R d <= 1) -> in_range (three a b d).
Proof. intros A B D. assert (O : finite zero64 /\ -1 <= f64R zero64 <= 1) by (rewrite (proj1 zero64_ok); split; [apply zero64_ok|lra]). unfold in_range, three. cbn [xi_sigma64 xi_d64 xi_f64 sigma_d64 sigma_f64 d_f64]. apply Forall_cons; [exact A|]. apply Forall_cons; [exact B|]. apply Forall_cons; [exact O|]. apply Forall_cons; [exact D|]. apply Forall_cons; [exact O|]. apply Forall_cons; [exact O|]. apply Forall_nil. Qed.

(** "True iff the correlation matrix is positive-definite": a matrix with a direction of negative variance
    is accepted, and a positive definite one is rejected. *)
Theorem C97_definite_refuted : 
  (exists c x s d f, in_range c /\ valid64 c = Ok true /\ drivers c x s d f < 0) /\
  (exists c, in_range c /\ valid64 c = Ok false /\ forall x s d f, x <> 0 \/ s <> 0 \/ d <> 0 \/ f <> 0 -> 0 < drivers c x s d f).
Proof.
  destruct (literal 3170534137668829 (-53)) as (V1 & F1); [lia|lia|lia|]. destruct (literal 3602879701896397 (-52)) as (V2 & F2); [lia|lia|lia|]. destruct (literal 1898717602899401 (-51)) as (V3 & F3); [lia|lia|lia|]. destruct (literal 5404319552844595 (-53)) as (V4 & F4); [lia|lia|lia|]. destruct (literal 1080863910568919 (-50)) as (V5 & F5); [lia|lia|lia|].
  split.
  - exists (three f0352 f08 f08432), (-616713253), (-688296041), 1073741824, 0. split; [apply three_range; assumption|]. split; [vm_compute; reflexivity|]. unfold drivers, three. cbn [xi_sigma64 xi_d64 xi_f64 sigma_d64 sigma_f64 d_f64]. unfold f0352, f08, f08432. rewrite V1, V2, V3, (proj1 zero64_ok). cbn [Z.opp Z.pow Z.pow_pos Pos.iter Z.mul Pos.mul]. lra.
  - exists (three f06 f08 f096). split; [apply three_range; assumption|]. split; [vm_compute; reflexivity|]. intros x s d f NZ. unfold drivers, three. cbn [xi_sigma64 xi_d64 xi_f64 sigma_d64 sigma_f64 d_f64]. unfold f06, f08, f096. rewrite V4, V2, V5, (proj1 zero64_ok).
    set (a := 5404319552844595 / IZR (2 ^ (- (-53)))). set (b := 3602879701896397 / IZR (2 ^ (- (-52)))). set (g := 1080863910568919 / IZR (2 ^ (- (-50)))).
    assert (P1 : 0 < 1 - a * a) by (unfold a; cbn [Z.opp Z.pow Z.pow_pos Pos.iter Z.mul Pos.mul]; lra).
    assert (P2 : 0 < 1 - b * b - (g - a * b) * ((g - a * b) / (1 - a * a))). { apply Rmult_lt_reg_r with (1 - a * a); [exact P1|]. rewrite Rmult_0_l. replace ((1 - b * b - (g - a * b) * ((g - a * b) / (1 - a * a))) * (1 - a * a)) with ((1 - b * b) * (1 - a * a) - (g - a * b) * (g - a * b)) by (field; lra). unfold a, b, g. cbn [Z.opp Z.pow Z.pow_pos Pos.iter Z.mul Pos.mul]. lra. }
    set (t := (g - a * b) / (1 - a * a)) in *. assert (T : g - a * b = (1 - a * a) * t) by (unfold t; field; lra). set (D := 1 - b * b - (g - a * b) * t) in *.
    replace (x * x + s * s + d * d + f * f + 2 * a * x * s + 2 * b * x * d + 2 * 0 * x * f + 2 * g * s * d + 2 * 0 * s * f + 2 * 0 * d * f) with ((x + a * s + b * d) * (x + a * s + b * d) + (1 - a * a) * ((s + t * d) * (s + t * d)) + D * (d * d) + f * f).
    2:{ unfold D. replace g with (a * b + (1 - a * a) * t) by lra. ring. }
    clearbody t D. clearbody a b g. clear V1 V2 V3 V4 V5 F1 F2 F3 F4 F5 T.
    assert (SQ : forall y, 0 <= y * y) by (intros y; apply Rle_0_sqr). assert (SP : forall y, y <> 0 -> 0 < y * y) by (intros y Hy; apply Rsqr_pos_lt, Hy).
    pose proof (SQ (x + a * s + b * d)) as S1. assert (S2 : 0 <= (1 - a * a) * ((s + t * d) * (s + t * d))) by (apply Rmult_le_pos; [lra|apply SQ]). assert (S3 : 0 <= D * (d * d)) by (apply Rmult_le_pos; [lra|apply SQ]). pose proof (SQ f) as S4.
    destruct (Req_dec f 0) as [F0|F0]; [|pose proof (SP f F0); lra]. destruct (Req_dec d 0) as [D0|D0]; [|pose proof (Rmult_lt_0_compat _ _ P2 (SP d D0)); lra]. destruct (Req_dec s 0) as [S0|S0].
    + assert (X0 : x <> 0) by tauto. pose proof (SP x X0). replace (x + a * s + b * d) with x by (rewrite S0, D0; ring). lra.
    + assert (X0 : s + t * d <> 0) by (rewrite D0, Rmult_0_r, Rplus_0_r; exact S0). pose proof (Rmult_lt_0_compat _ _ P1 (SP _ X0)). lra.
Qed.
Print Assumptions C97_definite_refuted.

Lemma cross a c x s : 0 <= a <= c -> - (c * (x * x + s * s)) <= 2 * a * x * s.
Proof.
  intros H. assert (E : 2 * a * x * s + c * (x * x + s * s) = a * ((x + s) * (x + s)) + (c - a) * (x * x + s * s)) by ring. pose proof (Rle_0_sqr (x + s)) as A. pose proof (Rle_0_sqr x) as B. pose proof (Rle_0_sqr s) as C. unfold Rsqr in *.
  assert (0 <= a * ((x + s) * (x + s))) by (apply Rmult_le_pos; lra). assert (0 <= (c - a) * (x * x + s * s)) by (apply Rmult_le_pos; lra). lra.
Qed.
(** The 4x4 block of 0.28, 0.6 and 0.352 is in range, accepted and positive definite with the margin; the
    two by two matrix with 0.6 is a matrix of correlations with the margin, and its factor has no NaN. *)
Example C97_witness : in_range (three f028 f06 f0352) /\ valid64 (three f028 f06 f0352) = Ok true /\
  (forall x s d f, x <> 0 \/ s <> 0 \/ d <> 0 \/ f <> 0 -> / 2 ^ 47 * (x * x + s * s + d * d + f * f) < drivers (three f028 f06 f0352) x s d f) /\
  correlations [[one64; f06]; [f06; one64]] /\
  match cholesky64 [[one64; f06]; [f06; one64]] with Ok (Some l) => forallb (fun i => negb (is_nan (entry64 l i i))) [0; 1]%nat | _ => false end = true /\
  (forall x, (exists i, (i < 2)%nat /\ x i <> 0) -> margin 2 * rs 2 (fun i => x i * x i) < quadratic (reals [[one64; f06]; [f06; one64]]) x).
Proof.
  destruct (literal 3170534137668829 (-53)) as (V1 & F1); [lia|lia|lia|]. destruct (literal 1261007895663739 (-52)) as (V2 & F2); [lia|lia|lia|]. destruct (literal 5404319552844595 (-53)) as (V3 & F3); [lia|lia|lia|].
  split; [apply three_range; assumption|]. split; [vm_compute; reflexivity|]. split; [|split; [|split; [vm_compute; reflexivity|]]].
  - intros x s d f NZ. unfold drivers, three. cbn [xi_sigma64 xi_d64 xi_f64 sigma_d64 sigma_f64 d_f64]. unfold f028, f06, f0352. rewrite V1, V2, V3, (proj1 zero64_ok). cbn [Z.opp Z.pow Z.pow_pos Pos.iter Z.mul Pos.mul].
    set (a := 1261007895663739 / 4503599627370496). set (b := 5404319552844595 / 9007199254740992). set (g := 3170534137668829 / 9007199254740992).
    assert (A : 0.27 <= a <= 0.29) by (unfold a; lra). assert (B : 0.59 <= b <= 0.61) by (unfold b; lra). assert (G : 0.34 <= g <= 0.36) by (unfold g; lra). clearbody a b g.
    assert (HQ : 0 < x * x + s * s + d * d + f * f) by (destruct NZ as [H|[H|[H|H]]]; nra). assert (H47 : / 2 ^ 47 <= / 100). { apply Rinv_le; [lra|]. cbn. lra. }
    apply Rle_lt_trans with (/ 100 * (x * x + s * s + d * d + f * f)); [apply Rmult_le_compat_r; lra|].
    pose proof (cross a 0.29 x s ltac:(lra)) as X1. pose proof (cross b 0.61 x d ltac:(lra)) as X2. pose proof (cross g 0.36 s d ltac:(lra)) as X3.
    assert (S1 := Rle_0_sqr x). assert (S2 := Rle_0_sqr s). assert (S3 := Rle_0_sqr d). assert (S4 := Rle_0_sqr f). unfold Rsqr in *. lra.
  - split; [repeat constructor|]. assert (O : finite one64 /\ -1 <= f64R one64 <= 1) by (rewrite (proj1 one64_ok); split; [apply one64_ok|lra]). split; [|split].
    + intros i j. do 2 (try destruct i as [|i]); do 2 (try destruct j as [|j]); try reflexivity; unfold entry64; cbn; try destruct i; try destruct j; reflexivity.
    + intros i Hi. cbn in Hi. do 2 (destruct i as [|i]; [split; apply one64_ok|]). lia.
    + intros i j Hi Hj. cbn in Hi, Hj. do 2 (destruct i as [|i]; [do 2 (destruct j as [|j]; [first [exact O|exact F3]|]); lia|]). lia.
  - intros x (i & Hi & NZ). unfold quadratic, reals, entry, margin. cbn [map length rs nth]. unfold f06. rewrite (proj1 one64_ok), V3. cbn [Z.opp Z.pow Z.pow_pos Pos.iter Z.mul Pos.mul INR]. set (p := x 0%nat) in *. set (q := x 1%nat) in *. assert (N : p <> 0 \/ q <> 0) by (destruct i as [|[|i]]; [left; exact NZ|right; exact NZ|lia]). clearbody p q. set (b := 5404319552844595 / 9007199254740992). assert (B : 0.59 <= b <= 0.61) by (unfold b; lra). clearbody b.
    assert (HQ : 0 < p * p + q * q) by (destruct N; nra). assert (H51 : (1 + 1) * (1 + 1) / 2 ^ 51 <= / 100). { replace (2 ^ 51) with 2251799813685248 by (cbn; lra). lra. }
    apply Rle_lt_trans with (/ 100 * (0 + p * p + q * q)); [apply Rmult_le_compat_r; lra|]. pose proof (cross b 0.61 p q ltac:(lra)) as X. lra.
Qed.
