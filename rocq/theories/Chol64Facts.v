(** Rounding errors of the Cholesky factorisation. *)
From Coq Require Import Bool List Arith ZArith Reals Lra Lia Psatz.
Import ListNotations.
From Flocq Require Import Core BinarySingleNaN.
From Verif Require Import Outcome F64 Clock64 Clock64Facts Cholesky CholeskyFacts Chol64.
Open Scope R_scope.

(** ** What the loops compute, as equations *)
Definition entry64 (m : list (list f64)) (i j : nat) : f64 := nth j (nth i m []) zero64.
Definition square64 (m : list (list f64)) : Prop := Forall (fun row => length row = length m) m.

Lemma index64_entry m i j : square64 m -> (i < length m)%nat -> (j < length m)%nat -> index64 m i j = Ok (entry64 m i j).
Proof.
  intros SQ Hi Hj. unfold index64, entry64. rewrite (nth_error_nth' m [] Hi).
  unfold square64 in SQ. rewrite Forall_forall in SQ. specialize (SQ (nth i m []) (nth_In _ _ Hi)). rewrite (nth_error_nth' _ zero64); [reflexivity|]. lia.
Qed.
Lemma upd64_same l i j x : upd64 l i j x i j = x.
Proof. unfold upd64. rewrite !Nat.eqb_refl. reflexivity. Qed.
Lemma upd64_other l i j x a b : (a <> i \/ b <> j) -> upd64 l i j x a b = l a b.
Proof. intros H. unfold upd64. destruct (Nat.eqb_spec a i); destruct (Nat.eqb_spec b j); try reflexivity. lia. Qed.

(* the residual reads only the entries before column [j] of the two rows *)
Lemma residual64_ext l l' x i j : (forall k, (k < j)%nat -> l i k = l' i k /\ l j k = l' j k) -> residual64 l x i j = residual64 l' x i j.
Proof.
  intros H. unfold residual64. revert x. assert (G : forall js x, (forall k, In k js -> (k < j)%nat) -> fold_left (fun sum k => fsub sum (fmul (l i k) (l j k))) js x = fold_left (fun sum k => fsub sum (fmul (l' i k) (l' j k))) js x).
  { induction js as [|k js IH]; intros x I; [reflexivity|]. cbn [fold_left]. destruct (H k (I k (or_introl eq_refl))) as [-> ->]. apply IH. intros q Q. apply I. right. exact Q. }
  intros x. apply G. intros k K. apply in_seq in K. lia.
Qed.

(* the cell below the diagonal, and on it *)
Definition cell (A l : nat -> nat -> f64) (i j : nat) : Prop := l i j = fdiv (residual64 l (A i j) i j) (l j j).
Definition pivot (A l : nat -> nat -> f64) (i : nat) : Prop := Bleb (residual64 l (A i i) i i) zero64 = false /\ l i i = fsqrt (residual64 l (A i i) i i).
(* the rows before [i], the cells before [j] of row [i], and zero elsewhere *)
Definition upto (A l : nat -> nat -> f64) (i j : nat) : Prop :=
  (forall a b, (b < a)%nat -> (a < i \/ a = i /\ b < j)%nat -> cell A l a b) /\
  (forall a, (a < i \/ a = i /\ a < j)%nat -> pivot A l a) /\
  (forall a b, ~ ((b <= a)%nat /\ (a < i \/ a = i /\ b < j)%nat) -> l a b = zero64).

Lemma upto_keep A l i j x : (j <= i)%nat -> upto A l i j ->
  (forall a b, (b < a)%nat -> (a < i \/ a = i /\ b < j)%nat -> cell A (upd64 l i j x) a b) /\
  (forall a, (a < i)%nat -> pivot A (upd64 l i j x) a) /\
  (forall a b, ~ ((b <= a)%nat /\ (a < i \/ a = i /\ b < S j)%nat) -> upd64 l i j x a b = zero64) /\
  (forall y, residual64 (upd64 l i j x) y i j = residual64 l y i j).
Proof.
  intros L (C & P & N). repeat match goal with |- _ /\ _ => split end.
  - intros a b Lb H. pose proof (C a b Lb H) as E. unfold cell in *. rewrite !upd64_other by lia. rewrite E. f_equal. apply residual64_ext. intros k K. split; rewrite upd64_other by lia; reflexivity.
  - intros a H. pose proof (P a (or_introl H)) as [E1 E2]. assert (R : residual64 (upd64 l i j x) (A a a) a a = residual64 l (A a a) a a) by (apply residual64_ext; intros k K; split; rewrite upd64_other by lia; reflexivity). split; rewrite R; [exact E1|]. rewrite upd64_other by lia. exact E2.
  - intros a b H. rewrite upd64_other by lia. apply N. lia.
  - intros y. apply residual64_ext. intros k K. destruct (Nat.eq_dec i j) as [<-|NE]; split; rewrite upd64_other by lia; reflexivity.
Qed.

Lemma cells64_spec m i (SQ : square64 m) (Hi : (i < length m)%nat) : forall c j l, (j + c = S i)%nat -> upto (entry64 m) l i j ->
  (exists l', cells64 m i (seq j c) l = Ok (Some l') /\ upto (entry64 m) l' i (S i)) \/
  (exists l', cells64 m i (seq j c) l = Ok None /\ upto (entry64 m) l' i i /\ Bleb (residual64 l' (entry64 m i i) i i) zero64 = true).
Proof.
  induction c as [|c IH]; intros j l E D.
  - left. exists l. split; [reflexivity|]. replace (S i) with j by lia. exact D.
  - cbn [seq cells64]. rewrite (index64_entry m i j SQ Hi) by lia. cbn [obind]. cbv zeta. destruct (Nat.eqb_spec i j) as [<-|NE].
    + destruct (Bleb _ _) eqn:B.
      * right. exists l. split; [reflexivity|]. split; [exact D|exact B].
      * apply IH; [lia|]. destruct (upto_keep _ l i i (fsqrt (residual64 l (entry64 m i i) i i)) (le_n i) D) as (C & P & N & R). split; [|split; [|exact N]].
        -- intros a b Lb H. apply C; lia.
        -- intros a H. destruct (Nat.eq_dec a i) as [->|NA]; [|apply P; lia]. split; rewrite R; [exact B|]. apply upd64_same.
    + apply IH; [lia|]. destruct (upto_keep _ l i j (fdiv (residual64 l (entry64 m i j) i j) (l j j)) ltac:(lia) D) as (C & P & N & R). split; [|split; [|exact N]].
      * intros a b Lb H. destruct (Nat.eq_dec a i) as [->|NA]; [destruct (Nat.eq_dec b j) as [->|NB]|]; try (apply C; lia). unfold cell. rewrite R, upd64_same. rewrite upd64_other by lia. reflexivity.
      * intros a H. apply P. lia.
Qed.

Lemma rows64_spec m (SQ : square64 m) : forall c i l, (i + c = length m)%nat -> upto (entry64 m) l i 0 ->
  (exists l', rows64 m (seq i c) l = Ok (Some l') /\ upto (entry64 m) l' (length m) 0) \/
  (exists l' k, rows64 m (seq i c) l = Ok None /\ (k < length m)%nat /\ upto (entry64 m) l' k k /\ Bleb (residual64 l' (entry64 m k k) k k) zero64 = true).
Proof.
  induction c as [|c IH]; intros i l E D.
  - left. exists l. split; [reflexivity|]. replace (length m) with i by lia. exact D.
  - change (seq i (S c)) with (i :: seq (S i) c). cbn [rows64]. destruct (cells64_spec m i SQ ltac:(lia) (S i) 0 l ltac:(lia) D) as [(l' & -> & D')|(l' & -> & D' & B)]; cbn [obind].
    + apply IH; [lia|]. destruct D' as (C & P & N). split; [|split].
      * intros a b Lb H. apply C; lia.
      * intros a H. apply P. lia.
      * intros a b H. apply N. lia.
    + right. exists l', i. split; [reflexivity|]. split; [lia|]. split; [exact D'|exact B].
Qed.

Lemma entry64_rows l n i j : (forall a b, (n <= a \/ n <= b)%nat -> l a b = zero64) ->
  entry64 (map (fun i => map (l i) (seq 0 n)) (seq 0 n)) i j = l i j.
Proof.
  intros H. unfold entry64. destruct (Nat.lt_ge_cases i n) as [Hi|Hi].
  - rewrite (nth_indep _ [] (map (l n) (seq 0 n))) by (rewrite map_length, seq_length; exact Hi).
    rewrite (map_nth (fun i => map (l i) (seq 0 n))), seq_nth by exact Hi. cbn. destruct (Nat.lt_ge_cases j n) as [Hj|Hj].
    + rewrite (nth_indep _ zero64 (l i n)) by (rewrite map_length, seq_length; exact Hj). rewrite map_nth, seq_nth by exact Hj. reflexivity.
    + rewrite nth_overflow by (rewrite map_length, seq_length; exact Hj). symmetry. apply H. lia.
  - rewrite (nth_overflow _ []) by (rewrite map_length, seq_length; exact Hi). rewrite H by lia. destruct j; reflexivity.
Qed.

Lemma cholesky64_cases m : square64 m ->
  (exists l, cholesky64 m = Ok (Some (map (fun i => map (l i) (seq 0 (length m))) (seq 0 (length m)))) /\ upto (entry64 m) l (length m) 0 /\
     (forall a b, (length m <= a \/ length m <= b)%nat -> l a b = zero64)) \/
  (exists l k, cholesky64 m = Ok None /\ (k < length m)%nat /\ upto (entry64 m) l k k /\ Bleb (residual64 l (entry64 m k k) k k) zero64 = true).
Proof.
  intros SQ. unfold cholesky64. cbv zeta. assert (S0 : upto (entry64 m) (fun _ _ => zero64) 0 0) by (split; [|split]; intros; try lia; reflexivity).
  destruct (rows64_spec m SQ (length m) 0 _ ltac:(lia) S0) as [(l & -> & D)|(l & k & -> & Hk & D & LE)]; cbn [obind].
  - left. exists l. split; [reflexivity|]. split; [exact D|]. destruct D as (_ & _ & N). intros a b H. apply N. lia.
  - right. exists l, k. auto.
Qed.

(** ** One subtraction of a square *)
(* a positive number; and one that is zero, negative, minus infinity or not a number *)
Definition live (s : f64) : Prop := match s with B754_finite false _ _ _ => True | _ => False end.
Definition dead (s : f64) : Prop := match s with B754_finite false _ _ _ | B754_infinity false => False | _ => True end.

Lemma live_R s : live s <-> finite s /\ 0 < f64R s.
Proof.
  unfold live, finite, f64R. split.
  - destruct s as [b|b| |[] m e H]; try contradiction. intros _. split; [reflexivity|]. apply (F2R_gt_0 radix2 (Float radix2 (Zpos m) e)). reflexivity.
  - intros [F P]. destruct s as [b|b| |[] m e H]; try discriminate; cbn in P; try lra. exfalso. assert (F2R (Float radix2 (Zneg m) e) < 0) by (apply F2R_lt_0; reflexivity). change (cond_Zopp true (Z.pos m)) with (Zneg m) in P. lra.
Qed.
Lemma dead_finite s : finite s -> dead s <-> f64R s <= 0.
Proof.
  intros F. split.
  - intros D. apply Rnot_lt_le. intros P. pose proof (proj2 (live_R s) (conj F P)) as L. destruct s as [b|b| |[] m e H]; cbn in *; contradiction.
  - intros P. destruct s as [b|b| |[] m e H]; cbn; try exact I; try discriminate. assert (L : live (B754_finite false m e H)) by exact I. apply live_R in L. lra.
Qed.
Lemma dead_live s : dead s -> ~ live s.
Proof. destruct s as [b|b| |[] m e H]; cbn; tauto. Qed.
Lemma dead_leb s : dead s -> is_nan s = false -> Bleb s zero64 = true.
Proof.
  intros D N. destruct (is_finite s) eqn:F.
  - apply Bleb_R; [exact F|apply zero64_ok|]. rewrite (proj1 zero64_ok). apply dead_finite; assumption.
  - destruct s as [b|b| |[] m e H]; try discriminate. destruct b; [reflexivity|contradiction].
Qed.
Lemma live_leb s : live s -> Bleb s zero64 = false.
Proof.
  intros L. apply live_R in L. destruct L as [F P]. destruct (Bleb s zero64) eqn:B; [|reflexivity]. apply Bleb_R in B; [|exact F|apply zero64_ok]. rewrite (proj1 zero64_ok) in B. lra.
Qed.

Lemma mul_self x : is_nan (fmul x x) = false -> Bsign (fmul x x) = false.
Proof.
  destruct x as [b|b| |b m e H]; try (destruct b; reflexivity); [discriminate|]. intros N. set (x := B754_finite b m e H) in *. pose proof (Bmult_correct 53 1024 _ _ mode_NE x x) as C. fold (fmul x x) in C.
  destruct (Rlt_bool _ _).
  - destruct C as (_ & _ & C). rewrite (C N). apply xorb_nilpotent.
  - rewrite xorb_nilpotent in C. destruct (fmul x x) as [c|c| |c m' e' H']; cbn in *; congruence.
Qed.
Lemma sign_R x : Bsign x = false -> 0 <= f64R x.
Proof.
  unfold f64R. destruct x as [b|b| |b m e H]; cbn; intros S; try lra. subst b. left. apply (F2R_gt_0 radix2 (Float radix2 (Zpos m) e)). reflexivity.
Qed.
Lemma rnd_nonpos x : x <= 0 -> rnd x <= 0.
Proof. intros H. rewrite <- rnd_0. apply rnd_mono, H. Qed.

(* what is subtracted from a dead sum leaves it dead *)
Lemma dead_sub s p : dead s -> (is_nan p = false -> Bsign p = false) -> dead (fsub s p).
Proof.
  intros D S. destruct (is_finite s) eqn:FS; [destruct (is_finite p) eqn:FP|].
  - assert (P : 0 <= f64R p) by (apply sign_R, S; destruct p; try reflexivity; discriminate). assert (D' : f64R s <= 0) by (apply dead_finite; assumption).
    pose proof (Bminus_correct 53 1024 _ _ mode_NE s p FS FP) as C. fold (fsub s p) in C. destruct (Rlt_bool _ _).
    + destruct C as (E & F & _). apply dead_finite; [exact F|]. unfold f64R. rewrite E. apply rnd_nonpos. unfold f64R in *. lra.
    + destruct C as (E & B). rewrite S in B by (destruct p; try reflexivity; discriminate). cbn in B. rewrite B in E. destruct (fsub s p) as [c|[]| |[] m' e' H']; cbn in *; try exact I; discriminate.
  - assert (S' : is_nan p = false -> p = B754_infinity false) by (intros N; specialize (S N); destruct p as [c|c| |c m e H]; cbn in *; congruence).
    destruct p as [c|c| |c m e H]; try discriminate; [rewrite S' by reflexivity|]; destruct s as [c'|c'| |c' m' e' H']; try discriminate; exact I.
  - destruct s as [c|[]| |c m e H]; try discriminate; try contradiction; destruct p as [c'|c'| |c' m' e' H']; try exact I. destruct c'; [specialize (S eq_refl); discriminate|exact I].
Qed.

Lemma rnd_unit x : Rabs x <= 1 -> Rabs (rnd x - x) <= u53 / 2.
Proof. intros H. apply Rle_trans with (bpow radix2 (0 - 54)); [apply rnd_error; [lia|exact H]|]. right. rewrite u53_bpow. change (-53 + 1)%Z with (-52)%Z. change (0 - 54)%Z with (-1 + (-1 + -52))%Z. rewrite !bpow_plus. change (bpow radix2 (-1)) with (/ 2). lra. Qed.
Lemma rnd_four x : Rabs x <= 4 -> Rabs (rnd x - x) <= 2 * u53.
Proof. intros H. apply Rle_trans with (bpow radix2 (2 - 54)); [apply rnd_error; [lia|exact H]|]. right. rewrite u53_bpow. change (2 - 54)%Z with (-52)%Z. change (-53 + 1)%Z with (-52)%Z. lra. Qed.
Lemma rnd_sub_pos x y : f64R y < f64R x -> 0 < rnd (f64R x - f64R y).
Proof.
  intros H. replace (f64R x - f64R y) with (f64R x + f64R (Bopp y)) by (unfold f64R; rewrite B2R_Bopp; ring). destruct (rnd_plus x (Bopp y)) as (e & E & ->). apply Rabs_le_inv in E. pose proof u53_eq. assert (f64R (Bopp y) = - f64R y) by (unfold f64R; apply B2R_Bopp). apply Rmult_lt_0_compat; lra.
Qed.
Lemma rnd_pos_inv x : 0 < rnd x -> 0 < x.
Proof. intros H. apply Rnot_le_lt. intros L. apply rnd_nonpos in L. lra. Qed.
Lemma format_below (x y : f64) : f64R x <= f64R y -> rnd (f64R x) <= f64R y.
Proof. intros H. rewrite rnd_id by apply format64. exact H. Qed.

(* a float whose rounded square is at most one is at most one *)
Lemma square_unit x : rnd (f64R x * f64R x) <= 1 -> Rabs (f64R x) <= 1.
Proof.
  intros H. apply Rnot_lt_le. intros L. assert (S : succ radix2 (FLT_exp (-1074) 53) 1 <= Rabs (f64R x)).
  { apply succ_le_lt; [typeclasses eauto|apply (format_Z 1); lia|apply generic_format_abs, format64|exact L]. }
  assert (S1 : succ radix2 (FLT_exp (-1074) 53) 1 = 1 + bpow radix2 (-52)).
  { rewrite succ_eq_pos by lra. f_equal. change 1 with (bpow radix2 0). rewrite ulp_bpow. reflexivity. }
  rewrite S1 in S. assert (F : generic_format radix2 (FLT_exp (-1074) 53) (1 + bpow radix2 (-52))).
  { rewrite <- S1. apply generic_format_succ; [typeclasses eauto|]. apply (format_Z 1). lia. }
  assert (B : 0 < bpow radix2 (-52)) by apply bpow_gt_0. assert (Q : 1 + bpow radix2 (-52) <= f64R x * f64R x). { replace (f64R x * f64R x) with (Rabs (f64R x) * Rabs (f64R x)) by (rewrite <- Rabs_mult; apply Rabs_pos_eq; nra). nra. }
  apply rnd_mono in Q. rewrite (rnd_id _ F) in Q. lra.
Qed.

Lemma sub_live s x : live s -> f64R s <= 1 -> live (fsub s (fmul x x)) ->
  finite x /\ Rabs (f64R x) <= 1 /\ f64R (fsub s (fmul x x)) <= f64R s /\
  Rabs (f64R (fsub s (fmul x x)) - (f64R s - f64R x * f64R x)) <= u53.
Proof.
  intros LS S1 LR. apply live_R in LS. destruct LS as [FS S0]. set (p := fmul x x) in *.
  assert (FP : finite p).
  { unfold finite. destruct (is_finite p) eqn:FP; [reflexivity|]. exfalso. pose proof (mul_self x) as MS. fold p in MS. destruct p as [c|c| |c m e H]; try discriminate FP.
    - specialize (MS eq_refl). cbn in MS. subst c. destruct s as [c|c| |[] m e H]; try discriminate FS; exact LR.
    - destruct s as [c|c| |[] m e H]; exact LR. }
  assert (FX : finite x) by (unfold p, finite in *; destruct x as [c|c| |c m e H]; try reflexivity; try (destruct c); discriminate).
  assert (P0 : 0 <= f64R p) by (apply sign_R; unfold p; apply mul_self; fold p; destruct p; try reflexivity; discriminate).
  (* the product did not overflow *)
  assert (EP : f64R p = rnd (f64R x * f64R x)).
  { pose proof (Bmult_correct 53 1024 _ _ mode_NE x x) as C. fold (fmul x x) in C. fold p in C. destruct (Rlt_bool _ _); [apply C|]. exfalso. destruct p as [c|c| |c m e H]; try discriminate FP; cbn in C; discriminate. }
  assert (ER : f64R (fsub s p) = rnd (f64R s - f64R p)).
  { pose proof (Bminus_correct 53 1024 _ _ mode_NE s p FS FP) as C. fold (fsub s p) in C. destruct (Rlt_bool _ _); [apply C|]. exfalso. destruct C as [C _]. apply live_R in LR. destruct LR as [FR _]. destruct (fsub s p) as [c|c| |c m e H]; try discriminate FR; cbn in C; discriminate. }
  apply live_R in LR. destruct LR as [FR R0]. rewrite ER in R0. apply rnd_pos_inv in R0. assert (P1 : f64R p <= 1) by lra. assert (X1 : Rabs (f64R x) <= 1) by (apply square_unit; rewrite <- EP; exact P1).
  split; [exact FX|]. split; [exact X1|]. split.
  - rewrite ER, <- (rnd_id (f64R s)) at 1 by apply format64. rewrite (rnd_id (f64R s)) by apply format64. rewrite <- (rnd_id (f64R s)) by apply format64. apply rnd_mono. rewrite (rnd_id (f64R s)) by apply format64. lra.
  - assert (A1 : Rabs (f64R s - f64R p) <= 1) by (rewrite Rabs_pos_eq; lra). apply rnd_unit in A1. rewrite <- ER in A1.
    assert (A2 : Rabs (f64R x * f64R x) <= 1) by (rewrite Rabs_mult; pose proof (Rabs_pos (f64R x)); nra). apply rnd_unit in A2. rewrite <- EP in A2. apply Rabs_le. apply Rabs_le_inv in A1, A2. lra.
Qed.

(* a live sum that dies was at most the square subtracted *)
Lemma sub_dead s x : live s -> f64R s <= 1 -> ~ live (fsub s (fmul x x)) -> finite x -> Rabs (f64R x) <= 1 ->
  f64R s <= f64R x * f64R x + u53.
Proof.
  intros LS S1 LR FX X1. apply live_R in LS. destruct LS as [FS S0].
  assert (X2 : Rabs (f64R x * f64R x) <= 1) by (rewrite Rabs_mult; pose proof (Rabs_pos (f64R x)); nra).
  destruct (fmul_ok x x 1 FX FX ltac:(lia) X2) as [EP FP]. set (p := fmul x x) in *. pose proof (rnd_unit _ X2) as A. rewrite <- EP in A. apply Rabs_le_inv in A. pose proof u53_pos as U.
  assert (P0 : 0 <= f64R x * f64R x) by nra. apply Rabs_le_inv in X2.
  destruct (fsub_ok s p 2 FS FP ltac:(lia)) as [ER FR]; [pose proof u53_eq; apply Rabs_le; lra|]. apply Rnot_lt_le. intros H. apply LR. apply live_R. split; [exact FR|]. rewrite ER. apply rnd_sub_pos. lra.
Qed.

Lemma sub_cases s x : live s -> f64R s <= 1 -> live (fsub s (fmul x x)) \/ dead (fsub s (fmul x x)).
Proof.
  intros LS S1. apply live_R in LS. destruct LS as [FS S0]. set (p := fmul x x) in *. pose proof (mul_self x) as MS. fold p in MS.
  destruct (is_finite p) eqn:FP.
  - assert (P0 : 0 <= f64R p) by (apply sign_R, MS; destruct p; try reflexivity; discriminate). pose proof (Bminus_correct 53 1024 _ _ mode_NE s p FS FP) as C. fold (fsub s p) in C. destruct (Rlt_bool _ _).
    + destruct C as (_ & F & _). destruct (Rle_lt_dec (f64R (fsub s p)) 0) as [L|L]; [right; apply dead_finite; assumption|left; apply live_R; split; assumption].
    + destruct C as (E & B). right. rewrite MS in B by (destruct p; try reflexivity; discriminate). cbn in B. rewrite B in E. destruct (fsub s p) as [c|[]| |[] m' e' H']; cbn in *; try exact I; discriminate.
  - right. destruct p as [c|c| |c m e H]; try discriminate.
    + specialize (MS eq_refl). cbn in MS. subst c. destruct s as [c|c| |[] m e H]; try discriminate; exact I.
    + destruct s as [c|c| |[] m e H]; exact I.
Qed.

(** ** The sums of one row *)
Definition part (l : nat -> nat -> f64) (x : f64) (i j t : nat) : f64 :=
  fold_left (fun sum k => fsub sum (fmul (l i k) (l j k))) (seq 0 t) x.
Lemma part_S l x i j t : part l x i j (S t) = fsub (part l x i j t) (fmul (l i t) (l j t)).
Proof. unfold part. rewrite seq_S, fold_left_app. reflexivity. Qed.
Lemma part_all l x i j : residual64 l x i j = part l x i j j.
Proof. reflexivity. Qed.

(* 2^-51 *)
Definition w51 : R := 4 * u53.
Definition val (l : nat -> nat -> f64) (i j : nat) : R := f64R (l i j).
Definition good_row (A l : nat -> nat -> f64) (a : nat) : Prop :=
  (forall b, (b <= a)%nat -> finite (l a b) /\ Rabs (val l a b) <= 1) /\ 0 < val l a a /\
  (forall b, (b <= a)%nat -> Rabs (rs (S b) (fun k => val l a k * val l b k) - f64R (A a b)) <= INR (S b) * w51).
Definition unit64 (x : f64) : Prop := finite x /\ Rabs (f64R x) <= 1.
Definition one_at (A : nat -> nat -> f64) (i : nat) : Prop := finite (A i i) /\ f64R (A i i) = 1.
Definition small (n : nat) : Prop := INR n * w51 <= / 16.

Lemma rs_abs n f : Rabs (rs n f) <= rs n (fun k => Rabs (f k)).
Proof. induction n as [|n IH]; cbn [rs]; [rewrite Rabs_R0; lra|]. pose proof (Rabs_triang (rs n f) (f n)). lra. Qed.
Lemma rs_le n f g : (forall k, (k < n)%nat -> f k <= g k) -> rs n f <= rs n g.
Proof. induction n as [|n IH]; intros H; cbn [rs]; [lra|]. pose proof (H n ltac:(lia)). assert (rs n f <= rs n g) by (apply IH; intros; apply H; lia). lra. Qed.
Lemma rs_mono n p f : (n <= p)%nat -> (forall k, (k < p)%nat -> 0 <= f k) -> rs n f <= rs p f.
Proof. intros L. induction L as [|p L IH]; intros H; [lra|]. cbn [rs]. pose proof (H p ltac:(lia)). assert (rs n f <= rs p f) by (apply IH; intros; apply H; lia). lra. Qed.
Lemma rs_cross n x y : Rabs (rs n (fun k => x k * y k)) <= (rs n (fun k => x k * x k) + rs n (fun k => y k * y k)) / 2.
Proof.
  apply Rle_trans with (1 := rs_abs _ _). induction n as [|n IH]; cbn [rs]; [lra|]. assert (H : Rabs (x n * y n) <= (x n * x n + y n * y n) / 2). { apply Rabs_le. pose proof (Rle_0_sqr (x n + y n)) as Q1. pose proof (Rle_0_sqr (x n - y n)) as Q2. unfold Rsqr in Q1, Q2. lra. } lra.
Qed.

Lemma w51_pos : 0 < w51. Proof. unfold w51. pose proof u53_pos. lra. Qed.
Lemma small_le n t : small n -> (t <= n)%nat -> INR t * w51 <= / 16.
Proof. intros S L. apply Rle_trans with (2 := S). apply Rmult_le_compat_r; [pose proof w51_pos; lra|apply le_INR, L]. Qed.

Lemma good_norm A l a n t : good_row A l a -> one_at A a -> small n -> (a < n)%nat -> (t <= S a)%nat -> rs t (fun k => val l a k * val l a k) <= 1 + / 16.
Proof.
  intros (_ & _ & G) [_ O] S L T. apply Rle_trans with (rs (Datatypes.S a) (fun k => val l a k * val l a k)); [apply rs_mono; [exact T|intros; nra]|]. specialize (G a (le_n a)). rewrite O in G. pose proof (small_le n (Datatypes.S a) S ltac:(lia)). apply Rabs_le_inv in G. lra.
Qed.

(* the sum of a cell below the diagonal *)
Lemma off_sum A l i j n x : small n -> (j < n)%nat -> good_row A l j -> one_at A j -> (forall k, (k < j)%nat -> unit64 (l i k)) ->
  rs j (fun k => val l i k * val l i k) <= 1 + / 8 -> unit64 x ->
  forall t, (t <= j)%nat -> finite (part l x i j t) /\ Rabs (f64R (part l x i j t) - (f64R x - rs t (fun k => val l i k * val l j k))) <= INR t * (5 / 2 * u53) /\
    Rabs (f64R (part l x i j t)) <= 5 / 2.
Proof.
  intros S Lj G O RU RN [FX X1]. assert (CR : forall t, (t <= j)%nat -> Rabs (rs t (fun k => val l i k * val l j k)) <= 9 / 8).
  { intros t T. apply Rle_trans with (1 := rs_cross t (val l i) (val l j)). pose proof (good_norm A l j n t G O S Lj ltac:(lia)). assert (rs t (fun k => val l i k * val l i k) <= rs j (fun k => val l i k * val l i k)) by (apply rs_mono; [exact T|intros; nra]). lra. }
  pose proof u53_pos as U. pose proof u53_eq as UE. induction t as [|t IH]; intros T.
  - change (part l x i j 0) with x. cbn [rs INR]. split; [exact FX|]. split; [|lra]. rewrite Rminus_0_r. unfold Rminus. rewrite Rplus_opp_r, Rabs_R0. lra.
  - destruct (IH ltac:(lia)) as (FP & EP & BP). destruct (RU t ltac:(lia)) as [F1 B1]. destruct G as (G1 & _). destruct (G1 t ltac:(lia)) as [F2 B2]. unfold val in B2.
    assert (M1 : Rabs (f64R (l i t) * f64R (l j t)) <= 1) by (rewrite Rabs_mult; pose proof (Rabs_pos (f64R (l i t))); pose proof (Rabs_pos (f64R (l j t))); nra).
    destruct (fmul_ok (l i t) (l j t) 1 F1 F2 ltac:(lia) M1) as [EM FM]. pose proof (rnd_unit _ M1) as ME. rewrite <- EM in ME. apply Rabs_le_inv in ME, M1, EP, BP.
    assert (D4 : Rabs (f64R (part l x i j t) - f64R (fmul (l i t) (l j t))) <= 4) by (apply Rabs_le; lra).
    rewrite part_S. destruct (fsub_ok (part l x i j t) (fmul (l i t) (l j t)) 4 FP FM ltac:(lia) D4) as [ES FS]. pose proof (rnd_four _ D4) as SE. rewrite <- ES in SE. apply Rabs_le_inv in SE.
    split; [exact FS|]. cbn [rs]. rewrite S_INR. unfold val at 3 4. assert (E' : Rabs (f64R (fsub (part l x i j t) (fmul (l i t) (l j t))) - (f64R x - (rs t (fun k => val l i k * val l j k) + f64R (l i t) * f64R (l j t)))) <= (INR t + 1) * (5 / 2 * u53)) by (apply Rabs_le; lra).
    split; [exact E'|]. pose proof (CR (Datatypes.S t) T) as C. cbn [rs] in C. unfold val at 3 4 in C. pose proof (small_le n (Datatypes.S t) S ltac:(lia)) as SM. rewrite S_INR in SM. unfold w51 in SM. apply Rabs_le_inv in E', C, X1. apply Rabs_le. lra.
Qed.

(* the sum on the diagonal, as long as it is positive *)
Lemma diag_sum A l i : one_at A i -> forall t,
  (live (part l (A i i) i i t) /\ f64R (part l (A i i) i i t) <= 1 /\ (forall k, (k < t)%nat -> unit64 (l i k)) /\
   Rabs (f64R (part l (A i i) i i t) - (1 - rs t (fun k => val l i k * val l i k))) <= INR t * u53) \/
  (dead (part l (A i i) i i t) /\ exists J, (J < t)%nat /\ live (part l (A i i) i i J) /\ ~ live (part l (A i i) i i (S J))).
Proof.
  intros [FA EA]. induction t as [|t IH].
  - left. change (part l (A i i) i i 0) with (A i i). split; [apply live_R; split; [exact FA|lra]|]. split; [lra|]. split; [intros; lia|]. rewrite EA. cbn [rs INR]. rewrite Rminus_0_r. unfold Rminus. rewrite Rplus_opp_r, Rabs_R0. lra.
  - destruct IH as [(LV & S1 & RU & ER)|(D & J & HJ & LJ & NJ)].
    + destruct (sub_cases _ (l i t) LV S1) as [L'|D'].
      * left. rewrite part_S. destruct (sub_live _ (l i t) LV S1 L') as (FX & X1 & DE & E'). split; [exact L'|]. split; [lra|]. split.
        -- intros k K. destruct (Nat.eq_dec k t) as [->|NE]; [split; assumption|apply RU; lia].
        -- cbn [rs]. unfold val at 3 4. rewrite S_INR. apply Rabs_le. apply Rabs_le_inv in E', ER. lra.
      * right. rewrite part_S. split; [exact D'|]. exists t. split; [lia|]. split; [exact LV|]. rewrite part_S. apply dead_live, D'.
    + right. rewrite part_S. split; [apply dead_sub; [exact D|apply mul_self]|]. exists J. split; [lia|]. split; assumption.
Qed.

Lemma rnd_abs x : Rabs (rnd x - x) <= u53 * Rabs x + bpow radix2 (-1000).
Proof.
  pose proof u53_pos as U. pose proof (bpow_gt_0 radix2 (-1000)) as B. destruct (Rle_lt_dec (bpow radix2 (-1022)) (Rabs x)) as [H|H].
  - destruct (rnd_rel x H) as (e & E & ->). replace (x * (1 + e) - x) with (x * e) by ring. rewrite Rabs_mult. pose proof (Rabs_pos x). nra.
  - assert (H' : Rabs x <= bpow radix2 (-1021)) by (apply Rle_trans with (bpow radix2 (-1022)); [lra|apply bpow_le; lia]). apply (rnd_error x (-1021) ltac:(lia)) in H'. assert (bpow radix2 (-1021 - 54) <= bpow radix2 (-1000)) by (apply bpow_le; lia). pose proof (Rabs_pos x). nra.
Qed.
Lemma tiny : bpow radix2 (-1000) <= u53 / 4.
Proof. apply Rle_trans with (bpow radix2 (-55)); [apply bpow_le; lia|]. right. rewrite u53_bpow. change (-53 + 1)%Z with (-52)%Z. change (-55)%Z with (-1 + (-1 + (-1 + -52)))%Z. rewrite !bpow_plus. change (bpow radix2 (-1)) with (/ 2). lra. Qed.

(* a quotient that is finite was rounded without overflow *)
Lemma div_value x y : f64R y <> 0 -> finite (fdiv x y) -> f64R (fdiv x y) = rnd (f64R x / f64R y).
Proof.
  intros Y F. pose proof (Bdiv_correct 53 1024 _ _ mode_NE x y Y) as C. fold (fdiv x y) in C. destruct (Rlt_bool _ _); [apply C|]. exfalso. destruct (fdiv x y) as [c|c| |c m e H]; try discriminate F; cbn in C; discriminate.
Qed.

Lemma cell_good A l i j n : small n -> (j < i)%nat -> (i < n)%nat -> good_row A l j -> one_at A j -> one_at A i -> unit64 (A i j) -> cell A l i j ->
  live (part l (A i i) i i (S j)) -> Rabs (rs (S j) (fun k => val l i k * val l j k) - f64R (A i j)) <= INR (S j) * w51.
Proof.
  intros S Lj Li G Oj Oi UA C LV. destruct (diag_sum A l i Oi (Datatypes.S j)) as [(_ & _ & RU & ER)|(D & _)]; [|exfalso; exact (dead_live _ D LV)].
  destruct (diag_sum A l i Oi j) as [(LVj & _ & _ & ERj)|(D & _)]; [|exfalso; apply (dead_live (part l (A i i) i i (Datatypes.S j))); [rewrite part_S; apply dead_sub; [exact D|apply mul_self]|exact LV]].
  apply live_R in LVj. pose proof u53_pos as U. pose proof u53_eq as UE. pose proof (small_le n (Datatypes.S j) S ltac:(lia)) as SM. rewrite S_INR in SM. unfold w51 in SM. pose proof (pos_INR j) as PJ.
  assert (RN : rs j (fun k => val l i k * val l i k) <= 1 + / 8) by (apply Rabs_le_inv in ERj; lra).
  destruct (off_sum A l i j n (A i j) S ltac:(lia) G Oj (fun k K => RU k ltac:(lia)) RN UA j (le_n j)) as (FS & ES & BS).
  unfold cell in C. rewrite part_all in C. set (s := part l (A i j) i j j) in *. destruct (RU j ltac:(lia)) as [FL BL]. destruct G as (G1 & GP & _). destruct (G1 j (le_n j)) as [FD BD]. unfold val in GP, BD.
  assert (EL : f64R (l i j) = rnd (f64R s / f64R (l j j))) by (rewrite C; apply div_value; [lra|rewrite <- C; exact FL]).
  pose proof (rnd_abs (f64R s / f64R (l j j))) as RA. rewrite <- EL in RA. set (q := f64R s / f64R (l j j)) in *. assert (EQ : q * f64R (l j j) = f64R s) by (unfold q; field; lra).
  rewrite Rabs_pos_eq in BD by lra. set (d := f64R (l j j)) in *.
  assert (MD : Rabs (f64R (l i j) * d - f64R s) <= u53 * (5 / 2) + u53 / 4).
  { rewrite <- EQ. replace (f64R (l i j) * d - q * d) with ((f64R (l i j) - q) * d) by ring. rewrite Rabs_mult, (Rabs_pos_eq d) by lra. assert (Q : Rabs q * d <= 5 / 2) by (rewrite <- (Rabs_pos_eq d) at 1 by lra; rewrite <- Rabs_mult, EQ; exact BS). pose proof tiny. pose proof (bpow_gt_0 radix2 (-1000)). assert (Rabs (f64R (l i j) - q) * d <= (u53 * Rabs q + bpow radix2 (-1000)) * d) by (apply Rmult_le_compat_r; lra). nra. }
  cbn [rs]. unfold val at 3 4. fold d. rewrite S_INR. unfold w51. apply Rabs_le. apply Rabs_le_inv in MD, ES. lra.
Qed.

Lemma pivot_good A l i : one_at A i -> pivot A l i -> live (part l (A i i) i i i) ->
  finite (l i i) /\ Rabs (val l i i) <= 1 /\ 0 < val l i i /\ Rabs (rs (S i) (fun k => val l i k * val l i k) - f64R (A i i)) <= INR (S i) * w51.
Proof.
  intros O [_ P] LV. rewrite part_all in P. destruct (diag_sum A l i O i) as [(_ & S1 & RU & ER)|(D & _)]; [|exfalso; exact (dead_live _ D LV)]. set (s := part l (A i i) i i i) in *. pose proof LV as LV'. apply live_R in LV. destruct LV as [FS S0].
  pose proof (Bsqrt_correct 53 1024 _ _ mode_NE s) as (ES & FQ & _). fold (fsqrt s) in ES, FQ. rewrite <- P in ES, FQ. assert (F : finite (l i i)) by (unfold finite; rewrite FQ; destruct s as [c|c| |[] m e H]; cbn in LV'; tauto).
  change (f64R (l i i) = rnd (sqrt (f64R s))) in ES. pose proof (sqrt_lt_R0 _ S0) as Q0. assert (Q1 : sqrt (f64R s) <= 1) by (rewrite <- sqrt_1; apply sqrt_le_1; lra). assert (QQ : sqrt (f64R s) * sqrt (f64R s) = f64R s) by (apply sqrt_sqrt; lra).
  assert (QB : bpow radix2 (-1022) <= Rabs (sqrt (f64R s))).
  { rewrite Rabs_pos_eq by lra. assert (B : bpow radix2 (-1074) <= f64R s).
    { assert (G := format64 s). apply Rle_trans with (2 := ulp_le_id radix2 (FLT_exp (-1074) 53) _ S0 G). rewrite ulp_neq_0 by lra. apply bpow_le. unfold cexp, FLT_exp. lia. }
    apply Rle_trans with (bpow radix2 (-537)); [apply bpow_le; lia|]. rewrite <- (sqrt_square (bpow radix2 (-537))) by apply bpow_ge_0. apply sqrt_le_1; [apply Rmult_le_pos; apply bpow_ge_0|lra|]. rewrite <- bpow_plus. exact B. }
  destruct (rnd_rel _ QB) as (e & E & ER'). rewrite ER' in ES. apply Rabs_le_inv in E. pose proof u53_pos as U. pose proof u53_eq as UE.
  assert (L1 : f64R (l i i) <= 1) by (rewrite ES, <- ER'; rewrite <- (rnd_Z 1) by lia; apply rnd_mono; exact Q1). assert (L0 : 0 < f64R (l i i)) by (rewrite ES; apply Rmult_lt_0_compat; lra).
  split; [exact F|]. split; [unfold val; rewrite Rabs_pos_eq; lra|]. split; [exact L0|].
  assert (SQ : Rabs (f64R (l i i) * f64R (l i i) - f64R s) <= 3 * u53).
  { rewrite ES. replace (sqrt (f64R s) * (1 + e) * (sqrt (f64R s) * (1 + e)) - f64R s) with (sqrt (f64R s) * sqrt (f64R s) * ((1 + e) * (1 + e)) - f64R s) by ring. rewrite QQ. replace (f64R s * ((1 + e) * (1 + e)) - f64R s) with (f64R s * (2 * e + e * e)) by ring. assert (EE : 0 <= e * e <= u53 * u53) by (split; nra). assert (UU : u53 * u53 <= u53) by nra. apply Rabs_le. split; nra. }
  destruct O as [_ EA]. rewrite EA. cbn [rs]. unfold val at 3 4. rewrite S_INR. unfold w51. pose proof (pos_INR i). apply Rabs_le. apply Rabs_le_inv in SQ, ER. assert (INR i * u53 <= INR i * (4 * u53)) by nra. lra.
Qed.

(** ** From the rows to the quadratic form *)
Definition form (n : nat) (M : nat -> nat -> R) (x : nat -> R) : R := rs n (fun i => rs n (fun j => x i * M i j * x j)).
Definition norm2 (n : nat) (x : nat -> R) : R := rs n (fun i => x i * x i).

Lemma rs_const n c : rs n (fun _ => c) = INR n * c.
Proof. induction n as [|n IH]; [cbn; lra|]. cbn [rs]. rewrite IH, S_INR. lra. Qed.
Lemma double_abs n x : rs n (fun i => rs n (fun j => Rabs (x i) * Rabs (x j))) <= INR n * norm2 n x.
Proof.
  apply Rle_trans with (rs n (fun i => rs n (fun j => (x i * x i + x j * x j) / 2))).
  - apply rs_le. intros i _. apply rs_le. intros j _. pose proof (Rle_0_sqr (Rabs (x i) - Rabs (x j))) as Q. unfold Rsqr in Q. assert (A : forall z, Rabs z * Rabs z = z * z) by (intros z; rewrite <- Rabs_mult; apply Rabs_pos_eq; nra). pose proof (A (x i)). pose proof (A (x j)). lra.
  - right. rewrite (rs_ext n _ (fun i => INR n / 2 * (x i * x i) + norm2 n x / 2)).
    + rewrite rs_plus, rs_scal, rs_const. fold (norm2 n x). lra.
    + intros i _. rewrite (rs_ext n _ (fun j => (x i * x i) / 2 + / 2 * (x j * x j))) by (intros; lra). rewrite rs_plus, rs_const, rs_scal. fold (norm2 n x). lra.
Qed.
Lemma norm2_nonneg n x : 0 <= norm2 n x.
Proof. apply rs_nonneg. intros. nra. Qed.
(* two forms whose entries differ by at most [e] *)
Lemma form_near n M P x e : (forall i j, (i < n)%nat -> (j < n)%nat -> x i * (M i j - P i j) * x j <= e * (Rabs (x i) * Rabs (x j))) -> 0 <= e ->
  form n M x <= form n P x + e * (INR n * norm2 n x).
Proof.
  intros H E. apply Rle_trans with (form n P x + e * rs n (fun i => rs n (fun j => Rabs (x i) * Rabs (x j)))).
  - unfold form. rewrite <- rs_scal, <- rs_plus. apply rs_le. intros i Hi. rewrite <- rs_scal, <- rs_plus. apply rs_le. intros j Hj. specialize (H i j Hi Hj). lra.
  - pose proof (double_abs n x). nra.
Qed.
Lemma entry_near a b d e : Rabs d <= e -> a * d * b <= e * (Rabs a * Rabs b).
Proof.
  intros H. apply Rle_trans with (Rabs (a * d * b)); [apply Rle_abs|]. rewrite !Rabs_mult. pose proof (Rabs_pos a). pose proof (Rabs_pos b). replace (Rabs a * Rabs d * Rabs b) with (Rabs d * (Rabs a * Rabs b)) by ring. apply Rmult_le_compat_r; [nra|exact H].
Qed.

(* the entries of the matrix, read below the diagonal *)
Definition lower (A : nat -> nat -> f64) (i j : nat) : R := if (j <=? i)%nat then f64R (A i j) else f64R (A j i).
Lemma lower_sym A i j : lower A i j = lower A j i.
Proof. unfold lower. destruct (Nat.leb_spec j i); destruct (Nat.leb_spec i j); try reflexivity; [replace j with i by lia; reflexivity|lia]. Qed.
Definition zero_above (l : nat -> nat -> f64) : Prop := forall a b, (a < b)%nat -> l a b = zero64.

Lemma val_above l a b : zero_above l -> (a < b)%nat -> val l a b = 0.
Proof. intros H L. unfold val. rewrite H by exact L. apply zero64_ok. Qed.

(* all rows good: the product of the factor with its transpose is near the matrix *)
Lemma good_product A l n p a b : zero_above l -> (n <= p)%nat -> (forall c, (c < n)%nat -> good_row A l c) -> (a < n)%nat -> (b < n)%nat ->
  Rabs (rs p (fun k => val l a k * val l b k) - lower A a b) <= INR n * w51.
Proof.
  intros Z NP G Ha Hb. pose proof w51_pos as W. assert (X : forall a b, (b <= a < n)%nat -> Rabs (rs p (fun k => val l a k * val l b k) - f64R (A a b)) <= INR n * w51).
  { clear a b Ha Hb. intros a b H. rewrite (rs_cut (S b) p) by (try lia; intros k K; rewrite (val_above l b k) by (assumption || lia); lra). destruct (G a ltac:(lia)) as (_ & _ & G3). apply Rle_trans with (1 := G3 b ltac:(lia)). apply Rmult_le_compat_r; [lra|apply le_INR; lia]. }
  unfold lower. destruct (Nat.leb_spec b a); [apply X; lia|]. rewrite (rs_ext p _ (fun k => val l b k * val l a k)) by (intros; lra). apply X. lia.
Qed.

Lemma good_form A l n x : zero_above l -> (forall c, (c < n)%nat -> good_row A l c) -> - (INR n * INR n * w51) * norm2 n x <= form n (lower A) x.
Proof.
  intros Z G. pose proof w51_pos as W. pose proof (pos_INR n) as PN. set (P := fun a b => rs n (fun k => val l a k * val l b k)).
  assert (P0 : 0 <= form n P x). { unfold form, P. rewrite quadratic_square. apply rs_nonneg. intros. nra. }
  assert (H : form n P x <= form n (lower A) x + INR n * w51 * (INR n * norm2 n x)).
  { apply form_near; [|nra]. intros i j Hi Hj. apply entry_near. apply good_product; auto. }
  lra.
Qed.

(* a row whose sum dies at column [J]: a direction in which the form is not clearly positive *)
Lemma rs_idx n J i f : (J < i < n)%nat -> (forall a, (a < n)%nat -> (J < a)%nat -> a <> i -> f a = 0) -> rs n f = rs (S J) f + f i.
Proof.
  intros L H. assert (G : forall m, (i < m <= n)%nat -> rs m f = rs (S J) f + f i).
  { induction m as [|m IH]; intros M; [lia|]. change (rs (S m) f) with (rs m f + f m). destruct (Nat.eq_dec m i) as [->|NE].
    - rewrite (rs_cut (S J) i f) by (try lia; intros k K; apply H; lia). reflexivity.
    - rewrite IH, (H m) by lia. lra. }
  apply G. lia.
Qed.

Lemma dying_row A l n i J : small n -> (J < i)%nat -> (i < n)%nat -> zero_above l -> (forall a, (a < i)%nat -> good_row A l a) -> (forall a, (a < n)%nat -> one_at A a) ->
  (forall a b, (b < a < n)%nat -> unit64 (A a b)) -> (forall b, (b < i)%nat -> cell A l i b) ->
  live (part l (A i i) i i J) -> ~ live (part l (A i i) i i (S J)) ->
  exists x, x i = 1 /\ form n (lower A) x <= INR n * INR n * w51 * norm2 n x.
Proof.
  intros SN HJ Hi Z G O UA C LV NL. pose proof w51_pos as W. pose proof u53_pos as U. pose proof u53_eq as UE.
  destruct (diag_sum A l i (O i Hi) J) as [(_ & S1 & RU & ER)|(D & _)]; [|exfalso; exact (dead_live _ D LV)]. pose proof (small_le n (S J) SN ltac:(lia)) as SM. rewrite S_INR in SM. unfold w51 in SM. pose proof (pos_INR J) as PJ.
  pose proof LV as LV'. apply live_R in LV'. assert (RN : rs J (fun k => val l i k * val l i k) <= 1 + / 8) by (apply Rabs_le_inv in ER; lra).
  pose proof (G J ltac:(lia)) as GJ. destruct (off_sum A l i J n (A i J) SN ltac:(lia) GJ (O J ltac:(lia)) RU RN (UA i J ltac:(lia)) J (le_n J)) as (FS & ES & BS).
  pose proof (C J HJ) as CJ. unfold cell in CJ. rewrite part_all in CJ. set (s := part l (A i J) i J J) in *. destruct GJ as (GJ1 & GJP & GJ3). destruct (GJ1 J (le_n J)) as [FD BD]. unfold val in GJP, BD. rewrite Rabs_pos_eq in BD by lra.
  set (q := f64R s / val l J J). assert (EQ : q * val l J J = f64R s) by (unfold q, val in *; field; lra).
  (* the pivot *)
  assert (PV : f64R (part l (A i i) i i J) <= q * q + w51).
  { destruct (Rle_lt_dec 1 (Rabs q)) as [Q1|Q1].
    - assert (1 <= q * q). { replace (q * q) with (Rabs q * Rabs q) by (rewrite <- Rabs_mult; apply Rabs_pos_eq; nra). nra. } lra.
    - destruct (fdiv_ok s (l J J) 1 FS ltac:(lra) ltac:(lia)) as [EL FL]; [fold (val l J J); fold q; lra|]. rewrite <- CJ in EL, FL. fold (val l J J) in EL. fold q in EL. assert (LE : Rabs (f64R (l i J)) <= 1) by (rewrite EL; apply (rnd_bound q 1); [lia|lra]). rewrite part_S in NL. pose proof (sub_dead _ (l i J) LV S1 NL FL LE) as SD.
      pose proof (rnd_unit q ltac:(lra)) as RE. rewrite <- EL in RE. set (v := f64R (l i J)) in *. assert (V : v * v - q * q <= u53). { replace (v * v - q * q) with ((v - q) * (v + q)) by ring. apply Rle_trans with (Rabs ((v - q) * (v + q))); [apply Rle_abs|]. rewrite Rabs_mult. pose proof (Rabs_triang v q). pose proof (Rabs_pos (v - q)). pose proof (Rabs_pos (v + q)). nra. }
      unfold w51. lra. }
  (* the direction *)
  set (r := fun k => if (k <? J)%nat then val l i k else q). destruct (back_substitution (val l) (S J) (fun k => - r k)) as (y & Hy); [intros a Ha; destruct (G a ltac:(lia)) as (_ & P & _); lra|intros; apply val_above; assumption|].
  set (idx := fun a => if (a =? S J)%nat then i else a). set (l2 := fun a k => if (a =? S J)%nat then r k else val l a k). set (y2 := fun a => if (a =? S J)%nat then 1 else y a).
  set (x := fun a => if (a =? i)%nat then 1 else if (a <=? J)%nat then y a else 0). exists x.
  assert (Xi : x i = 1) by (unfold x; rewrite Nat.eqb_refl; reflexivity). split; [exact Xi|].
  assert (Xy : forall a, (a < S J)%nat -> x a = y2 a) by (intros a Ha; unfold x, y2; destruct (Nat.eqb_spec a i); [lia|]; destruct (Nat.eqb_spec a (S J)); [lia|]; destruct (Nat.leb_spec a J); [reflexivity|lia]).
  assert (X0 : forall a, (J < a)%nat -> a <> i -> x a = 0) by (intros a Ha NE; unfold x; destruct (Nat.eqb_spec a i); [lia|]; destruct (Nat.leb_spec a J); [lia|reflexivity]).
  assert (IX : forall a, (a < S J)%nat -> idx a = a) by (intros a Ha; unfold idx; destruct (Nat.eqb_spec a (S J)); [lia|reflexivity]). assert (IS : idx (S J) = i) by (unfold idx; rewrite Nat.eqb_refl; reflexivity). assert (YS : y2 (S J) = 1) by (unfold y2; rewrite Nat.eqb_refl; reflexivity).
  assert (SUM : forall f g, (forall a, (a < n)%nat -> (J < a)%nat -> a <> i -> f a = 0) -> (forall a, (a < S J)%nat -> f a = g a) -> f i = g (S J) -> rs n f = rs (S (S J)) g).
  { intros f g F0 F1 F2. rewrite (rs_idx n J i f ltac:(lia) F0). change (rs (S (S J)) g) with (rs (S J) g + g (S J)). rewrite F2. f_equal. apply rs_ext. exact F1. }
  assert (NM : norm2 n x = norm2 (S (S J)) y2) by (unfold norm2; apply SUM; [intros a _ H1 H2; rewrite X0 by assumption; lra|intros a Ha; rewrite Xy by exact Ha; reflexivity|rewrite Xi, YS; reflexivity]).
  assert (FM : form n (lower A) x = form (S (S J)) (fun a b => lower A (idx a) (idx b)) y2).
  { unfold form. apply SUM.
    - intros a _ H1 H2. apply rs_zero. intros b _. rewrite X0 by assumption. lra.
    - intros a Ha. rewrite IX, Xy by exact Ha. apply SUM; [intros b _ H1 H2; rewrite (X0 b) by assumption; lra|intros b Hb; rewrite IX, Xy by exact Hb; reflexivity|rewrite IS, Xi, YS; reflexivity].
    - rewrite IS, Xi, YS. apply SUM; [intros b _ H1 H2; rewrite (X0 b) by assumption; lra|intros b Hb; rewrite IX, Xy by exact Hb; reflexivity|rewrite IS, Xi, YS; reflexivity]. }
  set (P := fun a b => rs (S J) (fun k => l2 a k * l2 b k)). set (e := INR (S J) * w51). assert (E0 : 0 <= e) by (unfold e; pose proof (pos_INR (S J)); nra).
  assert (L2 : forall a k, (a < S J)%nat -> l2 a k = val l a k) by (intros a k Ha; unfold l2; destruct (Nat.eqb_spec a (S J)); [lia|reflexivity]). assert (L2S : forall k, l2 (S J) k = r k) by (intros k; unfold l2; rewrite Nat.eqb_refl; reflexivity).
  assert (R1 : forall k, (k < J)%nat -> r k = val l i k) by (intros k K; unfold r; destruct (Nat.ltb_spec k J); [reflexivity|lia]). assert (RJ : r J = q) by (unfold r; rewrite Nat.ltb_irrefl; reflexivity).
  (* the row [i] against the others *)
  assert (SIDE : forall b, (b < S J)%nat -> Rabs (f64R (A i b) - rs (S J) (fun k => r k * val l b k)) <= e).
  { intros b Hb. rewrite (rs_cut (S b) (S J)) by (try lia; intros k K; rewrite (val_above l b k) by (assumption || lia); lra). rewrite Rabs_minus_sym. destruct (Nat.eq_dec b J) as [->|NE].
    - cbn [rs]. rewrite RJ, EQ. rewrite (rs_ext J _ (fun k => val l i k * val l J k)) by (intros k K; rewrite R1 by exact K; reflexivity). unfold e. rewrite S_INR. unfold w51. apply Rabs_le. apply Rabs_le_inv in ES. nra.
    - rewrite (rs_ext (S b) _ (fun k => val l i k * val l b k)) by (intros k K; rewrite R1 by lia; reflexivity). apply Rle_trans with (INR (S b) * w51); [|unfold e; apply Rmult_le_compat_r; [lra|apply le_INR; lia]].
      apply (cell_good A l i b n SN ltac:(lia) Hi (G b ltac:(lia)) (O b ltac:(lia)) (O i Hi) (UA i b ltac:(lia)) (C b ltac:(lia))).
      destruct (diag_sum A l i (O i Hi) (S b)) as [(L' & _)|(_ & J' & HJ' & _ & ND)]; [exact L'|]. exfalso. assert (DD : forall t, ~ live (part l (A i i) i i (S J')) -> live (part l (A i i) i i (S J' + t)) -> False).
      { induction t as [|t IH]; intros N1 N2; [rewrite Nat.add_0_r in N2; exact (N1 N2)|]. apply IH; [exact N1|]. destruct (diag_sum A l i (O i Hi) (S J' + t)) as [(L' & _)|(D & _)]; [exact L'|]. exfalso. replace (S J' + S t)%nat with (S (S J' + t)) in N2 by lia. rewrite part_S in N2. exact (dead_live _ (dead_sub _ _ D (mul_self _)) N2). }
      apply (DD (J - S J')%nat ND). replace (S J' + (J - S J'))%nat with J by lia. exact LV. }
  assert (DIAG : f64R (A i i) - rs (S J) (fun k => r k * r k) <= e).
  { cbn [rs]. rewrite RJ. rewrite (rs_ext J _ (fun k => val l i k * val l i k)) by (intros k K; rewrite R1 by exact K; reflexivity). destruct (O i Hi) as [_ ->]. unfold e. rewrite S_INR. unfold w51 in *. apply Rabs_le_inv in ER. nra. }
  assert (PF : form (S (S J)) P y2 = 0).
  { unfold form, P. rewrite quadratic_square. apply rs_zero. intros k K. change (rs (S (S J)) (fun a => y2 a * l2 a k)) with (rs (S J) (fun a => y2 a * l2 a k) + y2 (S J) * l2 (S J) k). rewrite YS, L2S. rewrite (rs_ext (S J) _ (fun a => y a * val l a k)).
    - rewrite (Hy k K). lra.
    - intros a Ha. rewrite L2 by exact Ha. unfold y2. destruct (Nat.eqb_spec a (S J)); [lia|reflexivity]. }
  rewrite FM, NM. apply Rle_trans with (form (S (S J)) P y2 + e * (INR (S (S J)) * norm2 (S (S J)) y2)).
  - apply form_near; [|exact E0]. intros a b Ha Hb. destruct (Nat.eq_dec a (S J)) as [Ea|Na]; destruct (Nat.eq_dec b (S J)) as [Eb|Nb].
    + subst a b. rewrite YS, IS. unfold P, lower. rewrite Nat.leb_refl. rewrite (rs_ext (S J) _ (fun k => r k * r k)) by (intros k _; rewrite L2S; reflexivity). rewrite Rabs_R1. lra.
    + subst a. apply entry_near. rewrite IS, IX by lia. unfold P, lower. destruct (Nat.leb_spec b i); [|lia]. rewrite (rs_ext (S J) _ (fun k => r k * val l b k)) by (intros k _; rewrite L2S, L2 by lia; reflexivity). apply SIDE. lia.
    + subst b. apply entry_near. rewrite IS, IX by lia. rewrite lower_sym. unfold P, lower. destruct (Nat.leb_spec a i); [|lia]. rewrite (rs_ext (S J) _ (fun k => r k * val l a k)) by (intros k _; rewrite L2S, L2 by lia; lra). apply SIDE. lia.
    + apply entry_near. rewrite !IX by lia. rewrite Rabs_minus_sym. unfold P. rewrite (rs_ext (S J) _ (fun k => val l a k * val l b k)) by (intros k _; rewrite !L2 by lia; reflexivity). apply good_product; [exact Z|lia|intros c Hc; apply G; lia|lia|lia].
  - rewrite PF. pose proof (norm2_nonneg (S (S J)) y2) as NN. set (N2 := norm2 (S (S J)) y2) in *. clearbody N2. unfold e. assert (I1 : INR (S J) <= INR n) by (apply le_INR; lia). assert (I2 : INR (S (S J)) <= INR n) by (apply le_INR; lia). pose proof (pos_INR (S J)) as I3. pose proof (pos_INR (S (S J))) as I4.
    assert (I5 : INR (S J) * INR (S (S J)) <= INR n * INR n) by (apply Rmult_le_compat; assumption). replace (0 + INR (S J) * w51 * (INR (S (S J)) * N2)) with (INR (S J) * INR (S (S J)) * (w51 * N2)) by ring. replace (INR n * INR n * w51 * N2) with (INR n * INR n * (w51 * N2)) by ring. apply Rmult_le_compat_r; [nra|exact I5].
Qed.

(** ** All rows *)
Lemma live_back A l i : one_at A i -> forall t u, (t <= u)%nat -> live (part l (A i i) i i u) -> live (part l (A i i) i i t).
Proof.
  intros O t u L. induction L as [|u L IH]; intros H; [exact H|]. apply IH. destruct (diag_sum A l i O u) as [(L' & _)|(D & _)]; [exact L'|]. exfalso. rewrite part_S in H. exact (dead_live _ (dead_sub _ _ D (mul_self _)) H).
Qed.
Definition readable (A : nat -> nat -> f64) (n : nat) : Prop := (forall a, (a < n)%nat -> one_at A a) /\ (forall a b, (b < a < n)%nat -> unit64 (A a b)).

Lemma good_next A l n i : small n -> readable A n -> (i < n)%nat -> (forall a, (a < i)%nat -> good_row A l a) -> (forall b, (b < i)%nat -> cell A l i b) ->
  pivot A l i -> live (part l (A i i) i i i) -> good_row A l i.
Proof.
  intros S [O UA] Hi G C P LV. destruct (pivot_good A l i (O i Hi) P LV) as (F & B & P0 & E). destruct (diag_sum A l i (O i Hi) i) as [(_ & _ & RU & _)|(D & _)]; [|exfalso; exact (dead_live _ D LV)].
  split; [|split; [exact P0|]].
  - intros b Hb. destruct (Nat.eq_dec b i) as [->|NE]; [split; assumption|]. destruct (RU b ltac:(lia)) as [F' B']. split; assumption.
  - intros b Hb. destruct (Nat.eq_dec b i) as [->|NE]; [exact E|]. apply (cell_good A l i b n); auto; try lia; try (apply G; lia); try (apply O; lia); try (apply UA; lia); try (apply C; lia). apply (live_back A l i (O i Hi) (Datatypes.S b) i); [lia|exact LV].
Qed.
Lemma sqrt_nan s : is_nan (fsqrt s) = false -> is_nan s = false.
Proof. destruct s; cbn; auto. Qed.

(* the rows of a result without NaN are good *)
Lemma rows_good A l n : small n -> readable A n -> upto A l n 0 -> (forall i, (i < n)%nat -> is_nan (l i i) = false) -> forall i, (i < n)%nat -> good_row A l i.
Proof.
  intros S R (C & P & _) N i. induction i as [i IH] using lt_wf_ind. intros Hi. destruct (P i ltac:(lia)) as [P1 P2]. apply (good_next A l n i S R Hi).
  - intros a Ha. apply IH; lia.
  - intros b Hb. apply C; lia.
  - split; assumption.
  - destruct R as [O _]. destruct (diag_sum A l i (O i Hi) i) as [(L & _)|(D & _)]; [exact L|]. exfalso. rewrite part_all in P1, P2. specialize (N i Hi). rewrite P2 in N. apply sqrt_nan in N. rewrite (dead_leb _ D N) in P1. discriminate.
Qed.
(* a clearly positive form keeps every row alive *)
Lemma rows_live A l n k : small n -> readable A n -> (k < n)%nat -> zero_above l -> (forall a b, (b < a)%nat -> (a <= k)%nat -> cell A l a b) -> (forall a, (a < k)%nat -> pivot A l a) ->
  (forall x, (exists i, (i < n)%nat /\ x i <> 0) -> INR n * INR n * w51 * norm2 n x < form n (lower A) x) ->
  (forall a, (a < k)%nat -> good_row A l a) /\ live (part l (A k k) k k k).
Proof.
  intros S R Hk Z C P F. assert (STEP : forall i, (i <= k)%nat -> (forall a, (a < i)%nat -> good_row A l a) -> live (part l (A i i) i i i)).
  { intros i Hi G. destruct (diag_sum A l i (proj1 R i ltac:(lia)) i) as [(L & _)|(_ & J & HJ & LJ & NJ)]; [exact L|]. exfalso.
    destruct (dying_row A l n i J S HJ ltac:(lia) Z G (proj1 R) (proj2 R) (fun b Hb => C i b Hb Hi) LJ NJ) as (x & X1 & X2). assert (NZ : exists i, (i < n)%nat /\ x i <> 0) by (exists i; split; [lia|rewrite X1; lra]). specialize (F x NZ). lra. }
  assert (G : forall a, (a < k)%nat -> good_row A l a).
  { intros i. induction i as [i IH] using lt_wf_ind. intros Hi. apply (good_next A l n i S R ltac:(lia)).
    - intros a Ha. apply IH; lia.
    - intros b Hb. apply C; lia.
    - apply P; lia.
    - apply STEP; [lia|]. intros a Ha. apply IH; lia. }
  split; [exact G|]. apply STEP; [lia|exact G].
Qed.

(** ** No NaN in four rows *)
Lemma rnd_big x k : (-1000 <= k <= 1000)%Z -> Rabs x <= bpow radix2 k -> Rabs (rnd x) <= bpow radix2 k.
Proof.
  intros K H. assert (F : generic_format radix2 (FLT_exp (-1074) 53) (bpow radix2 k)) by (apply generic_format_bpow; unfold FLT_exp; lia). apply Rabs_le. apply Rabs_le_inv in H. split.
  - rewrite <- (rnd_id (bpow radix2 k) F). unfold rnd. rewrite <- round_NE_opp. apply rnd_mono. lra.
  - rewrite <- (rnd_id (bpow radix2 k) F). apply rnd_mono. lra.
Qed.
Lemma big_lt x k : (-1000 <= k <= 1000)%Z -> Rabs x <= bpow radix2 k ->
  Rlt_bool (Rabs (round radix2 (SpecFloat.fexp 53 1024) (round_mode mode_NE) x)) (bpow radix2 1024) = true.
Proof. intros K H. apply Rlt_bool_true. apply Rle_lt_trans with (bpow radix2 k); [exact (rnd_big x k K H)|apply bpow_lt; lia]. Qed.
Lemma fmul_big x y k : finite x -> finite y -> (-1000 <= k <= 1000)%Z -> Rabs (f64R x * f64R y) <= bpow radix2 k -> finite (fmul x y) /\ Rabs (f64R (fmul x y)) <= bpow radix2 k.
Proof.
  intros FX FY K H. pose proof (Bmult_correct 53 1024 _ _ mode_NE x y) as C. fold (fmul x y) in C. unfold f64R in H. rewrite (big_lt _ k K H) in C. destruct C as (E & F & _). split; [unfold finite in *; rewrite F, FX, FY; reflexivity|]. unfold f64R. rewrite E. exact (rnd_big _ k K H).
Qed.
Lemma fsub_big x y k : finite x -> finite y -> (-1000 <= k <= 1000)%Z -> Rabs (f64R x - f64R y) <= bpow radix2 k -> finite (fsub x y) /\ Rabs (f64R (fsub x y)) <= bpow radix2 k.
Proof.
  intros FX FY K H. pose proof (Bminus_correct 53 1024 _ _ mode_NE x y FX FY) as C. fold (fsub x y) in C. unfold f64R in H. rewrite (big_lt _ k K H) in C. destruct C as (E & F & _). split; [exact F|]. unfold f64R. rewrite E. exact (rnd_big _ k K H).
Qed.
Lemma fdiv_big x y k : finite x -> f64R y <> 0 -> (-1000 <= k <= 1000)%Z -> Rabs (f64R x / f64R y) <= bpow radix2 k -> finite (fdiv x y) /\ Rabs (f64R (fdiv x y)) <= bpow radix2 k.
Proof.
  intros FX Y K H. pose proof (Bdiv_correct 53 1024 _ _ mode_NE x y Y) as C. fold (fdiv x y) in C. unfold f64R in H. rewrite (big_lt _ k K H) in C. destruct C as (E & F & _). split; [unfold finite in *; rewrite F; exact FX|]. unfold f64R. rewrite E. exact (rnd_big _ k K H).
Qed.

(* a positive difference keeps 2^-55 of what it was taken from *)
Lemma sub_keeps s x : live s -> f64R s <= 1 -> bpow radix2 (-900) <= f64R s -> live (fsub s (fmul x x)) -> bpow radix2 (-55) * f64R s <= f64R (fsub s (fmul x x)).
Proof.
  intros LS S1 SB LR. pose proof (sub_live s x LS S1 LR) as (FX & X1 & _ & _). apply live_R in LS. destruct LS as [FS S0].
  assert (X2 : Rabs (f64R x * f64R x) <= 1) by (rewrite Rabs_mult; pose proof (Rabs_pos (f64R x)); nra). destruct (fmul_ok x x 1 FX FX ltac:(lia) X2) as [EP FP]. set (p := fmul x x) in *.
  assert (P0 : 0 <= f64R p) by (apply sign_R, mul_self; fold p; unfold finite in FP; destruct p; try reflexivity; discriminate). assert (P1 : f64R p <= 1) by (rewrite EP; apply Rle_trans with (Rabs (rnd (f64R x * f64R x))); [apply Rle_abs|apply (rnd_bound _ 1); [lia|exact X2]]).
  destruct (fsub_ok s p 1 FS FP ltac:(lia)) as [ER FR]; [apply Rabs_le; lra|]. apply live_R in LR. destruct LR as [_ R0]. rewrite ER in *. apply rnd_pos_inv in R0.
  assert (B55 : bpow radix2 (-55) = u53 / 4). { rewrite u53_bpow. change (-53 + 1)%Z with (-52)%Z. change (-55)%Z with (-1 + (-1 + (-1 + -52)))%Z. rewrite !bpow_plus. change (bpow radix2 (-1)) with (/ 2). lra. }
  pose proof u53_pos as U. pose proof u53_eq as UE. assert (GAP : u53 / 2 * f64R s <= f64R s - f64R p).
  { destruct (Rle_lt_dec (f64R p) (f64R s / 2)) as [L|L]; [nra|]. assert (SC : succ radix2 (FLT_exp (-1074) 53) (f64R p) <= f64R s) by (apply succ_le_lt; [typeclasses eauto|apply format64|apply format64|lra]). rewrite succ_eq_pos in SC by lra.
    assert (UL : bpow radix2 (-53) * Rabs (f64R p) <= ulp radix2 (FLT_exp (-1074) 53) (f64R p)). { left. rewrite Rmult_comm. exact (ulp_FLT_gt radix2 (-1074) 53 (f64R p)). } change (bpow radix2 (-53)) with u53 in UL. rewrite Rabs_pos_eq in UL by lra. nra. }
  destruct (rnd_rel (f64R s - f64R p)) as (e & E & ->).
  { rewrite Rabs_pos_eq by lra. apply Rle_trans with (2 := GAP). apply Rle_trans with (bpow radix2 (-54) * bpow radix2 (-900)); [rewrite <- bpow_plus; apply bpow_le; lia|]. apply Rmult_le_compat; [apply bpow_ge_0|apply bpow_ge_0| |exact SB]. right. rewrite u53_bpow. change (-53 + 1)%Z with (-52)%Z. change (-54)%Z with (-1 + (-1 + -52))%Z. rewrite !bpow_plus. change (bpow radix2 (-1)) with (/ 2). lra. }
  apply Rabs_le_inv in E. rewrite B55. nra.
Qed.
Lemma pivot_keeps A l i : one_at A i -> forall t, (t <= 3)%nat -> live (part l (A i i) i i t) -> bpow radix2 (- 55 * Z.of_nat t) <= f64R (part l (A i i) i i t).
Proof.
  intros O. induction t as [|t IH]; intros T LV.
  - change (part l (A i i) i i 0) with (A i i). rewrite (proj2 O). cbn. lra.
  - assert (LV' := live_back A l i O t (S t) ltac:(lia) LV). specialize (IH ltac:(lia) LV'). destruct (diag_sum A l i O t) as [(_ & S1 & _)|(D & _)]; [|exfalso; exact (dead_live _ D LV')]. rewrite part_S in *. apply Rle_trans with (2 := sub_keeps _ _ LV' S1 ltac:(apply Rle_trans with (2 := IH); apply bpow_le; lia) LV).
    replace (- 55 * Z.of_nat (S t))%Z with (-55 + - 55 * Z.of_nat t)%Z by lia. rewrite bpow_plus. apply Rmult_le_compat_l; [apply bpow_ge_0|exact IH].
Qed.
Lemma diagonal_keeps A l i : one_at A i -> pivot A l i -> (i <= 2)%nat -> live (part l (A i i) i i i) -> bpow radix2 (-56) <= val l i i.
Proof.
  intros O [_ P] Hi LV. pose proof (pivot_keeps A l i O i ltac:(lia) LV) as K. rewrite part_all in P. set (s := part l (A i i) i i i) in *. pose proof (Bsqrt_correct 53 1024 _ _ mode_NE s) as (ES & _). fold (fsqrt s) in ES. rewrite <- P in ES. unfold val, f64R. rewrite ES.
  rewrite <- (rnd_id (bpow radix2 (-56))) by (apply generic_format_bpow; unfold FLT_exp; lia). apply rnd_mono. rewrite <- (sqrt_square (bpow radix2 (-56))) by apply bpow_ge_0. apply sqrt_le_1; [apply Rmult_le_pos; apply bpow_ge_0|apply Rle_trans with (2 := K); apply bpow_ge_0|]. rewrite <- bpow_plus. apply Rle_trans with (2 := K). apply bpow_le. lia.
Qed.

(* the entries of the fourth row are bounded, whatever becomes of its diagonal *)
Lemma part_big l x i j b : (1 <= b <= 700)%Z -> finite x -> Rabs (f64R x) <= 1 -> (forall k, (k < j)%nat -> finite (l i k) /\ finite (l j k) /\ Rabs (f64R (l i k) * f64R (l j k)) <= bpow radix2 b) ->
  forall t, (t <= j)%nat -> (t <= 4)%nat -> finite (part l x i j t) /\ Rabs (f64R (part l x i j t)) <= bpow radix2 (b + Z.of_nat t).
Proof.
  intros B FX X1 H. induction t as [|t IH]; intros T T4.
  - change (part l x i j 0) with x. split; [exact FX|]. apply Rle_trans with (1 := X1). change 1 with (bpow radix2 0). apply bpow_le. lia.
  - destruct (IH ltac:(lia) ltac:(lia)) as [FP BP]. destruct (H t ltac:(lia)) as (F1 & F2 & BM). destruct (fmul_big _ _ b F1 F2 ltac:(lia) BM) as [FM BM']. rewrite part_S. apply fsub_big; [exact FP|exact FM|lia|].
    apply Rle_trans with (bpow radix2 (b + Z.of_nat t) + bpow radix2 b). { apply Rabs_le. apply Rabs_le_inv in BP, BM'. lra. }
    replace (b + Z.of_nat (S t))%Z with (1 + (b + Z.of_nat t))%Z by lia. rewrite (bpow_plus radix2 1). change (bpow radix2 1) with 2. assert (bpow radix2 b <= bpow radix2 (b + Z.of_nat t)) by (apply bpow_le; lia). lra.
Qed.
Lemma row_big A l i : (i <= 3)%nat -> readable A (S i) -> (forall a, (a < i)%nat -> good_row A l a /\ pivot A l a /\ live (part l (A a a) a a a)) -> (forall b, (b < i)%nat -> cell A l i b) ->
  forall j, (j < i)%nat -> finite (l i j) /\ Rabs (val l i j) <= bpow radix2 (60 * (Z.of_nat j + 1)).
Proof.
  intros I3 [O UA] G C j. induction j as [j IH] using lt_wf_ind. intros Hj. destruct (G j Hj) as ((GJ & GP & _) & PJ & LJ). pose proof (diagonal_keeps A l j (O j ltac:(lia)) PJ ltac:(lia) LJ) as DK.
  destruct (part_big l (A i j) i j (60 * Z.of_nat j + 1)) with (t := j) as [FP BP]; [lia|apply UA; lia|apply UA; lia| |lia|lia|].
  { intros k K. destruct (IH k K ltac:(lia)) as [F1 B1]. destruct (GJ k ltac:(lia)) as [F2 B2]. split; [exact F1|]. split; [exact F2|]. rewrite Rabs_mult. apply Rle_trans with (bpow radix2 (60 * (Z.of_nat k + 1)) * 1); [apply Rmult_le_compat; [apply Rabs_pos|apply Rabs_pos|exact B1|exact B2]|]. rewrite Rmult_1_r. apply bpow_le. lia. }
  rewrite (C j Hj : l i j = _). unfold val. rewrite (C j Hj : l i j = _). rewrite part_all. unfold val in DK. pose proof (bpow_gt_0 radix2 (-56)) as B56. apply fdiv_big; [exact FP|lra|lia|]. unfold Rdiv. rewrite Rabs_mult. rewrite (Rabs_pos_eq (/ _)) by (left; apply Rinv_0_lt_compat; lra).
  apply Rle_trans with (bpow radix2 (60 * Z.of_nat j + 1 + Z.of_nat j) * bpow radix2 56).
  - apply Rmult_le_compat; [apply Rabs_pos|left; apply Rinv_0_lt_compat; lra|exact BP|]. apply Rle_trans with (/ bpow radix2 (-56)); [apply Rinv_le; assumption|]. rewrite <- bpow_opp. right. reflexivity.
  - rewrite <- bpow_plus. apply bpow_le. lia.
Qed.
Lemma row_no_nan A l i : (i <= 3)%nat -> readable A (S i) -> (forall a, (a < i)%nat -> good_row A l a /\ pivot A l a /\ live (part l (A a a) a a a)) -> (forall b, (b < i)%nat -> cell A l i b) ->
  is_nan (part l (A i i) i i i) = false.
Proof.
  intros I3 R G C. pose proof (row_big A l i I3 R G C) as RB. destruct R as [O _]. destruct (O i ltac:(lia)) as [F1 E1]. destruct (part_big l (A i i) i i 400) with (t := i) as [FP _]; [lia|exact F1|rewrite E1, Rabs_R1; lra| |lia|lia|].
  - intros k K. destruct (RB k K) as [F B]. split; [exact F|]. split; [exact F|]. unfold val in B. rewrite Rabs_mult. apply Rle_trans with (bpow radix2 (60 * (Z.of_nat k + 1)) * bpow radix2 (60 * (Z.of_nat k + 1))); [apply Rmult_le_compat; try apply Rabs_pos; exact B|]. rewrite <- bpow_plus. apply bpow_le. lia.
  - unfold finite in FP. destruct (part l (A i i) i i i); try reflexivity; discriminate.
Qed.
Lemma four_no_nan A l n : (n <= 4)%nat -> readable A n -> upto A l n 0 -> forall i, (i < n)%nat -> is_nan (l i i) = false.
Proof.
  intros N4 R (C & P & _) . assert (S : small n). { unfold small, w51. pose proof u53_pos. pose proof u53_eq. assert (INR n <= 4) by (replace 4 with (INR 4) by (cbn; lra); apply le_INR, N4). nra. }
  assert (R' : forall i, (i < n)%nat -> readable A (Datatypes.S i)) by (intros i Hi; destruct R as [O UA]; split; intros; [apply O|apply UA]; lia).
  assert (X : forall i, (i < n)%nat -> good_row A l i /\ pivot A l i /\ live (part l (A i i) i i i)).
  { intros i. induction i as [i IH] using lt_wf_ind. intros Hi. pose proof (P i ltac:(lia)) as PI. assert (LV : live (part l (A i i) i i i)).
    { assert (NN : is_nan (part l (A i i) i i i) = false) by (apply row_no_nan; [lia|apply R', Hi|intros a Ha; apply IH; lia|intros b Hb; apply C; lia]). destruct R as [O _]. destruct (diag_sum A l i (O i Hi) i) as [(L & _)|(D & _)]; [exact L|]. destruct PI as [P1 _]. rewrite part_all, (dead_leb _ D NN) in P1. discriminate. }
    split; [|split; assumption]. apply (good_next A l n i S R Hi); [intros a Ha; apply IH; lia|intros b Hb; apply C; lia|exact PI|exact LV]. }
  intros i Hi. destruct (X i Hi) as ((F & _) & _ & _). destruct (F i (le_n i)) as [F' _]. unfold finite in F'. destruct (l i i); try reflexivity; discriminate.
Qed.
