(** Rust [f64]: IEEE-754 binary64 with round-to-nearest-even, as formalised by
    Flocq (one NaN; finquant never looks at NaN payloads). *)
From Coq Require Import ZArith Reals Lia Lra Psatz.
From Flocq Require Import Core BinarySingleNaN.
From Verif Require Import Outcome.
Open Scope Z_scope.

Definition prec64 : Prec_gt_0 53 := eq_refl.
Definition emax64 : Prec_lt_emax 53 1024 := eq_refl.
#[global] Existing Instance prec64.
#[global] Existing Instance emax64.

Definition f64 : Set := binary_float 53 1024.
(** [n as f64] for an integer *)
Definition f64_of_Z (n : Z) : f64 := binary_normalize 53 1024 _ _ mode_NE n 0 false.
(** A literal [m * 2^e]. *)
Definition f64_lit (m e : Z) : f64 := binary_normalize 53 1024 _ _ mode_NE m e false.
Definition fadd : f64 -> f64 -> f64 := Bplus mode_NE.
Definition fsub : f64 -> f64 -> f64 := Bminus mode_NE.
Definition fmul : f64 -> f64 -> f64 := Bmult mode_NE.
Definition fdiv : f64 -> f64 -> f64 := Bdiv mode_NE.

(** The real value, and "finite". *)
Definition f64R (x : f64) : R := B2R x.
Definition finite (x : f64) : Prop := is_finite x = true.

(** Rounding a real to the nearest double, ties to even (no overflow). *)
Definition rnd (x : R) : R := round radix2 (FLT_exp (-1074) 53) ZnearestE x.

Lemma fexp_eq : SpecFloat.fexp 53 1024 = FLT_exp (-1074) 53.
Proof. reflexivity. Qed.

#[global] Instance valid_exp64 : Valid_exp (FLT_exp (-1074) 53).
Proof. apply FLT_exp_valid. reflexivity. Qed.

Lemma rnd_mono x y : (x <= y)%R -> (rnd x <= rnd y)%R.
Proof. apply round_le; typeclasses eauto. Qed.

Lemma rnd_id x : generic_format radix2 (FLT_exp (-1074) 53) x -> rnd x = x.
Proof. apply round_generic. typeclasses eauto. Qed.

Lemma rnd_0 : rnd 0 = 0%R.
Proof. apply round_0. typeclasses eauto. Qed.

(** Integers up to 2^53 are doubles. *)
Lemma format_Z n : Z.abs n <= 2 ^ 53 -> generic_format radix2 (FLT_exp (-1074) 53) (IZR n).
Proof.
  intros H. destruct (Z.eq_dec (Z.abs n) (2 ^ 53)) as [E|N].
  - assert (G : generic_format radix2 (FLT_exp (-1074) 53) (bpow radix2 53)).
    { apply generic_format_bpow. unfold FLT_exp. lia. }
    assert (Q : bpow radix2 53 = IZR (2 ^ 53)) by reflexivity. rewrite Q in G.
    destruct (Z.abs_eq_or_opp n) as [A|A].
    + rewrite <- A, E. exact G.
    + replace n with (- (2 ^ 53)) by lia. rewrite opp_IZR. apply generic_format_opp. exact G.
  - apply generic_format_FLT. exists (Float radix2 n 0).
    + unfold F2R. simpl. ring.
    + simpl Fnum. change (radix2 ^ 53) with (2 ^ 53). lia.
    + simpl. lia.
Qed.

Lemma rnd_Z n : Z.abs n <= 2 ^ 53 -> rnd (IZR n) = IZR n.
Proof. intros H. apply rnd_id, format_Z, H. Qed.

(** Rounding never crosses an integer bound below 2^53. *)
Lemma rnd_bound x n : 0 <= n <= 2 ^ 53 -> (Rabs x <= IZR n)%R -> (Rabs (rnd x) <= IZR n)%R.
Proof.
  intros N H. apply Rabs_le. apply Rabs_le_inv in H. split.
  - rewrite <- opp_IZR, <- rnd_Z by lia. apply rnd_mono. rewrite opp_IZR. lra.
  - rewrite <- rnd_Z by lia. apply rnd_mono. lra.
Qed.

Lemma big_bpow n : 0 <= n <= 2 ^ 53 -> (IZR n < bpow radix2 1024)%R.
Proof.
  intros H. apply Rle_lt_trans with (bpow radix2 53).
  - change (bpow radix2 53) with (IZR (2 ^ 53)). apply IZR_le. lia.
  - apply bpow_lt. lia.
Qed.

Lemma small_lt x n : 0 <= n <= 2 ^ 53 -> (Rabs x <= IZR n)%R ->
  Rlt_bool (Rabs (round radix2 (SpecFloat.fexp 53 1024) (round_mode mode_NE) x)) (bpow radix2 1024) = true.
Proof.
  intros N H. apply Rlt_bool_true. apply Rle_lt_trans with (IZR n).
  - exact (rnd_bound x n N H).
  - apply big_bpow. exact N.
Qed.

Lemma f64_of_Z_ok n : Z.abs n <= 2 ^ 53 -> f64R (f64_of_Z n) = IZR n /\ finite (f64_of_Z n).
Proof.
  intros H. pose proof (binary_normalize_correct 53 1024 _ _ mode_NE n 0 false) as C. cbv zeta in C.
  assert (F : F2R (Float radix2 n 0) = IZR n) by (unfold F2R; simpl; ring).
  rewrite F in C. rewrite (small_lt _ (Z.abs n)) in C by (try lia; rewrite abs_IZR; lra).
  destruct C as (A & B & _). split; [|exact B]. unfold f64R, f64_of_Z. rewrite A.
  exact (rnd_Z n H).
Qed.

Lemma fdiv_ok x y b : finite x -> f64R y <> 0%R -> 0 <= b <= 2 ^ 53 -> (Rabs (f64R x / f64R y) <= IZR b)%R ->
  f64R (fdiv x y) = rnd (f64R x / f64R y) /\ finite (fdiv x y).
Proof.
  intros Fx Y B H. pose proof (Bdiv_correct 53 1024 _ _ mode_NE x y Y) as C.
  unfold f64R in H. rewrite (small_lt _ b) in C by assumption.
  destruct C as (A & D & _). split; [exact A|]. unfold finite, fdiv. rewrite D. exact Fx.
Qed.

Lemma fmul_ok x y b : finite x -> finite y -> 0 <= b <= 2 ^ 53 -> (Rabs (f64R x * f64R y) <= IZR b)%R ->
  f64R (fmul x y) = rnd (f64R x * f64R y) /\ finite (fmul x y).
Proof.
  intros Fx Fy B H. pose proof (Bmult_correct 53 1024 _ _ mode_NE x y) as C.
  unfold f64R in H. rewrite (small_lt _ b) in C by assumption.
  destruct C as (A & D & _). split; [exact A|]. unfold finite, fmul in *. rewrite D, Fx, Fy. reflexivity.
Qed.

Lemma fadd_ok x y b : finite x -> finite y -> 0 <= b <= 2 ^ 53 -> (Rabs (f64R x + f64R y) <= IZR b)%R ->
  f64R (fadd x y) = rnd (f64R x + f64R y) /\ finite (fadd x y).
Proof.
  intros Fx Fy B H. pose proof (Bplus_correct 53 1024 _ _ mode_NE x y Fx Fy) as C.
  unfold f64R in H. rewrite (small_lt _ b) in C by assumption.
  destruct C as (A & D & _). split; [exact A|exact D].
Qed.

Lemma fsub_ok x y b : finite x -> finite y -> 0 <= b <= 2 ^ 53 -> (Rabs (f64R x - f64R y) <= IZR b)%R ->
  f64R (fsub x y) = rnd (f64R x - f64R y) /\ finite (fsub x y).
Proof.
  intros Fx Fy B H. pose proof (Bminus_correct 53 1024 _ _ mode_NE x y Fx Fy) as C.
  unfold f64R in H. rewrite (small_lt _ b) in C by assumption.
  destruct C as (A & D & _). split; [exact A|exact D].
Qed.

(** Absolute error of one rounding of a number below 2^k, k >= -1021. *)
Lemma rnd_error x k : -1021 <= k -> (Rabs x <= bpow radix2 k)%R ->
  (Rabs (rnd x - x) <= bpow radix2 (k - 54))%R.
Proof.
  intros K H. destruct (Rle_lt_or_eq_dec _ _ H) as [L|E].
  - destruct (Req_dec x 0) as [->|NZ].
    + rewrite rnd_0, Rminus_0_r, Rabs_R0. apply bpow_ge_0.
    + pose proof (error_le_half_ulp radix2 (FLT_exp (-1074) 53) (fun n => negb (Z.even n)) x) as G.
      assert (U : (ulp radix2 (FLT_exp (-1074) 53) x <= bpow radix2 (k - 53))%R).
      { rewrite ulp_neq_0 by exact NZ. apply bpow_le. unfold cexp, FLT_exp.
        assert (M : mag radix2 x <= k) by (apply mag_le_bpow; assumption). lia. }
      replace (k - 54) with (-1 + (k - 53)) by lia. rewrite bpow_plus.
      change (bpow radix2 (-1)) with (/ 2)%R. unfold rnd. fold ZnearestE in G. lra.
  - assert (G : generic_format radix2 (FLT_exp (-1074) 53) x).
    { assert (Q : generic_format radix2 (FLT_exp (-1074) 53) (bpow radix2 k)).
      { apply generic_format_bpow. unfold FLT_exp. lia. }
      rewrite <- E in Q. unfold Rabs in Q. destruct (Rcase_abs x); [|exact Q].
      rewrite <- (Ropp_involutive x). apply generic_format_opp. exact Q. }
    rewrite rnd_id by exact G. unfold Rminus. rewrite Rplus_opp_r, Rabs_R0. apply bpow_ge_0.
Qed.
