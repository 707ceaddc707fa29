(** Facts about the Cholesky factorisation. *)
From Coq Require Import Bool List Reals Lra Lia Arith.
Import ListNotations.
From Verif Require Import Outcome Cholesky.
Open Scope R_scope.

(** Sum of [f k] for [k < n]. *)
Fixpoint rs (n : nat) (f : nat -> R) : R := match n with O => 0 | S n => rs n f + f n end.

Lemma rs_ext n f g : (forall k, (k < n)%nat -> f k = g k) -> rs n f = rs n g.
Proof. induction n as [|n IH]; intros H; cbn; [reflexivity|]. rewrite (H n) by lia. rewrite IH; [reflexivity|]. intros k Hk. apply H. lia. Qed.
Lemma rs_plus n f g : rs n (fun k => f k + g k) = rs n f + rs n g.
Proof. induction n as [|n IH]; cbn; [lra|]. rewrite IH. lra. Qed.
Lemma rs_scal n c f : rs n (fun k => c * f k) = c * rs n f.
Proof. induction n as [|n IH]; cbn; [lra|]. rewrite IH. lra. Qed.
Lemma rs_zero n f : (forall k, (k < n)%nat -> f k = 0) -> rs n f = 0.
Proof. induction n as [|n IH]; intros H; cbn; [reflexivity|]. rewrite IH, H; [lra|lia|]. intros k Hk. apply H. lia. Qed.
Lemma rs_nonneg n f : (forall k, (k < n)%nat -> 0 <= f k) -> 0 <= rs n f.
Proof. induction n as [|n IH]; intros H; cbn; [lra|]. assert (0 <= f n) by (apply H; lia). assert (0 <= rs n f) by (apply IH; intros; apply H; lia). lra. Qed.
Lemma rs_ge n f k : (forall k, (k < n)%nat -> 0 <= f k) -> (k < n)%nat -> f k <= rs n f.
Proof.
  induction n as [|n IH]; intros H L; [lia|]. cbn. destruct (Nat.eq_dec k n) as [->|NE].
  - assert (0 <= rs n f) by (apply rs_nonneg; intros; apply H; lia). lra.
  - assert (f k <= rs n f) by (apply IH; [intros; apply H; lia|lia]). assert (0 <= f n) by (apply H; lia). lra.
Qed.
Lemma rs_swap n p f : rs n (fun i => rs p (f i)) = rs p (fun j => rs n (fun i => f i j)).
Proof. induction n as [|n IH]; cbn; [symmetry; apply rs_zero; reflexivity|]. rewrite IH, <- rs_plus. apply rs_ext. reflexivity. Qed.
(** Terms beyond [n] vanish. *)
Lemma rs_cut n p f : (n <= p)%nat -> (forall k, (n <= k < p)%nat -> f k = 0) -> rs p f = rs n f.
Proof.
  intros L. induction L as [|p L IH]; intros H; [reflexivity|]. cbn. rewrite H by lia. rewrite IH; [lra|]. intros k Hk. apply H. lia.
Qed.
Lemma rs_one n k f : (k < n)%nat -> (forall j, (j < n)%nat -> j <> k -> f j = 0) -> rs n f = f k.
Proof.
  intros L H. rewrite (rs_cut (S k) n) by (try lia; intros j Hj; apply H; lia). cbn. rewrite rs_zero; [lra|]. intros j Hj. apply H; lia.
Qed.

(** [m[i][j]], 0 outside. *)
Definition entry (m : list (list R)) (i j : nat) : R := nth j (nth i m []) 0.
Definition square (m : list (list R)) : Prop := Forall (fun row => length row = length m) m.
Definition symmetric (m : list (list R)) : Prop := forall i j, entry m i j = entry m j i.
(** The value of the quadratic form at the vector [x]. *)
Definition quadratic (m : list (list R)) (x : nat -> R) : R :=
  rs (length m) (fun i => rs (length m) (fun j => x i * entry m i j * x j)).
Definition positive_definite (m : list (list R)) : Prop :=
  forall x, (exists i, (i < length m)%nat /\ x i <> 0) -> 0 < quadratic m x.
(** [l] is a lower triangular square root of [m] with positive diagonal. *)
Definition cholesky_factor (m l : list (list R)) : Prop :=
  length l = length m /\ square l /\
  (forall i j, (i < j)%nat -> entry l i j = 0) /\
  (forall i, (i < length m)%nat -> 0 < entry l i i) /\
  (forall i j, (i < length m)%nat -> (j < length m)%nat -> rs (length m) (fun k => entry l i k * entry l j k) = entry m i j).

Lemma index_entry m i j : square m -> (i < length m)%nat -> (j < length m)%nat -> index m i j = Ok (entry m i j).
Proof.
  intros SQ Hi Hj. unfold index, entry. rewrite (nth_error_nth' m [] Hi).
  unfold square in SQ. rewrite Forall_forall in SQ. specialize (SQ (nth i m []) (nth_In _ _ Hi)). rewrite (nth_error_nth' _ 0); [reflexivity|]. lia.
Qed.

Lemma residual_val l x i j : residual l x i j = x - rs j (fun k => l i k * l j k).
Proof.
  unfold residual. generalize (l j). intros g. induction j as [|j IH]; [cbn; lra|]. rewrite seq_S, fold_left_app, IH. cbn. lra.
Qed.

(** The entries before (i, j) are those of the factor; the others are 0. *)
Definition done (A l : nat -> nat -> R) (i j : nat) : Prop :=
  (forall a b, (b <= a)%nat -> (a < i \/ a = i /\ b < j)%nat -> rs (S b) (fun k => l a k * l b k) = A a b) /\
  (forall a, (a < i \/ a = i /\ a < j)%nat -> 0 < l a a) /\
  (forall a b, ~ ((b <= a)%nat /\ (a < i \/ a = i /\ b < j)%nat) -> l a b = 0).

Lemma upd_same l i j x : upd l i j x i j = x.
Proof. unfold upd. rewrite !Nat.eqb_refl. reflexivity. Qed.
Lemma upd_other l i j x a b : (a <> i \/ b <> j) -> upd l i j x a b = l a b.
Proof. intros H. unfold upd. destruct (Nat.eqb_spec a i); destruct (Nat.eqb_spec b j); try reflexivity. lia. Qed.

Lemma done_step A l i j x : done A l i j -> (j <= i)%nat -> (i = j -> 0 < x) ->
  rs j (fun k => l i k * l j k) + x * (if (i =? j)%nat then x else l j j) = A i j -> done A (upd l i j x) i (S j).
Proof.
  intros (D1 & D2 & D3) L P E. split; [|split].
  - intros a b Lb C. destruct (Nat.eq_dec a i) as [->|Na]; [destruct (Nat.eq_dec b j) as [->|Nb]|].
    + cbn [rs]. rewrite upd_same. rewrite (rs_ext _ _ (fun k => l i k * l j k)).
      * rewrite <- E. f_equal. f_equal. destruct (Nat.eqb_spec i j) as [->|N]; [apply upd_same|apply upd_other; auto].
      * intros k Hk. rewrite !upd_other by lia. reflexivity.
    + rewrite <- (D1 i b Lb ltac:(lia)). apply rs_ext. intros k Hk. rewrite !upd_other by lia. reflexivity.
    + rewrite <- (D1 a b Lb ltac:(lia)). apply rs_ext. intros k Hk. rewrite !upd_other by lia. reflexivity.
  - intros a C. destruct (Nat.eq_dec a i) as [->|Na]; [destruct (Nat.eq_dec i j) as [->|Nb]|].
    + rewrite upd_same. apply P. reflexivity.
    + rewrite upd_other by lia. apply D2. lia.
    + rewrite upd_other by lia. apply D2. lia.
  - intros a b C. rewrite upd_other; [apply D3; intros (X & Y); apply C; lia|]. destruct (Nat.eq_dec a i) as [->|]; destruct (Nat.eq_dec b j) as [->|]; try lia; exfalso; apply C; lia.
Qed.

Lemma done_row A l i : done A l i (S i) -> done A l (S i) 0.
Proof.
  intros (D1 & D2 & D3). split; [|split].
  - intros a b L C. apply D1; lia.
  - intros a C. apply D2. lia.
  - intros a b C. apply D3. intros (X & Y). apply C. lia.
Qed.

Lemma cells_spec m i (SQ : square m) (Hi : (i < length m)%nat) : forall c j l, (j + c = S i)%nat -> done (entry m) l i j ->
  (exists l', cells m i (seq j c) l = Ok (Some l') /\ done (entry m) l' i (S i)) \/
  (exists l', cells m i (seq j c) l = Ok None /\ done (entry m) l' i i /\ entry m i i - rs i (fun k => l' i k * l' i k) <= 0).
Proof.
  induction c as [|c IH]; intros j l E D.
  - left. exists l. cbn. replace (S i) with j by lia. auto.
  - cbn [seq cells]. rewrite index_entry by (try lia; assumption). cbn [obind]. cbv zeta. rewrite residual_val.
    destruct (Nat.eqb_spec i j) as [EQ|NE].
    + subst j. destruct (Rle_dec _ 0) as [LE|GT]; [right; exists l; auto|]. apply IH; [lia|].
      apply done_step; [exact D|lia|intros _; apply sqrt_lt_R0; lra|]. rewrite Nat.eqb_refl, sqrt_sqrt by lra. lra.
    + apply IH; [lia|]. apply done_step; [exact D|lia|congruence|]. destruct (Nat.eqb_spec i j) as [|_]; [lia|].
      destruct D as (_ & D2 & _). pose proof (D2 j ltac:(lia)). field_simplify_eq; lra.
Qed.

Lemma rows_spec m (SQ : square m) : forall c i l, (i + c = length m)%nat -> done (entry m) l i 0 ->
  (exists l', rows m (seq i c) l = Ok (Some l') /\ done (entry m) l' (length m) 0) \/
  (exists l' k, rows m (seq i c) l = Ok None /\ (k < length m)%nat /\ done (entry m) l' k k /\ entry m k k - rs k (fun j => l' k j * l' k j) <= 0).
Proof.
  induction c as [|c IH]; intros i l E D.
  - left. exists l. cbn. replace (length m) with i by lia. auto.
  - change (seq i (S c)) with (i :: seq (S i) c). cbn [rows]. destruct (cells_spec m i SQ ltac:(lia) (S i) 0 l ltac:(lia) D) as [(l' & -> & D')|(l' & -> & D' & LE)]; cbn [obind].
    + apply IH; [lia|]. apply done_row, D'.
    + right. exists l', i. split; [reflexivity|]. split; [lia|auto].
Qed.

Lemma done_start A : done A (fun _ _ => 0) 0 0.
Proof. split; [|split]; intros; [lia|lia|reflexivity]. Qed.

(** The rows of a function. *)
Lemma entry_rows l n i j : (forall a b, (n <= a \/ n <= b)%nat -> l a b = 0) ->
  entry (map (fun i => map (l i) (seq 0 n)) (seq 0 n)) i j = l i j.
Proof.
  intros Z. unfold entry. destruct (Nat.lt_ge_cases i n) as [Hi|Hi].
  - rewrite (nth_indep _ [] (map (l n) (seq 0 n))) by (rewrite map_length, seq_length; exact Hi).
    rewrite (map_nth (fun i => map (l i) (seq 0 n)) (seq 0 n) n i), seq_nth by exact Hi. cbn [Nat.add].
    destruct (Nat.lt_ge_cases j n) as [Hj|Hj].
    + rewrite (nth_indep _ 0 (l i n)) by (rewrite map_length, seq_length; exact Hj). rewrite map_nth, seq_nth by exact Hj. reflexivity.
    + rewrite nth_overflow by (rewrite map_length, seq_length; exact Hj). symmetry. apply Z. lia.
  - rewrite (nth_overflow _ []) by (rewrite map_length, seq_length; exact Hi). destruct j; symmetry; apply Z; lia.
Qed.

(** A completed factor, on the first [n] rows and columns. *)
Lemma done_product A l n : (forall i j, A i j = A j i) -> done A l n 0 -> forall i j p, (i < n)%nat -> (j < n)%nat -> (n <= p)%nat ->
  rs p (fun k => l i k * l j k) = A i j.
Proof.
  intros SY (D1 & _ & D3) i j p Hi Hj Hp.
  assert (X : forall a b, (b <= a < n)%nat -> rs p (fun k => l a k * l b k) = A a b).
  { intros a b H. rewrite (rs_cut (S b)) by (try lia; intros k Hk; rewrite (D3 b k) by lia; lra). apply D1; lia. }
  destruct (Nat.le_ge_cases j i) as [C|C]; [apply X; lia|]. rewrite SY, <- (X j i) by lia. apply rs_ext. intros; lra.
Qed.

(** Solving a triangular system. *)
Lemma back_substitution l : forall n b, (forall i, (i < n)%nat -> l i i <> 0) -> (forall i j, (i < j)%nat -> l i j = 0) ->
  exists y, forall k, (k < n)%nat -> rs n (fun j => y j * l j k) = b k.
Proof.
  induction n as [|n IH]; intros b NZ LT; [exists (fun _ => 0); intros; lia|].
  destruct (IH (fun k => b k - b n / l n n * l n k) ltac:(intros; apply NZ; lia) LT) as (y & Hy).
  exists (fun j => if (j =? n)%nat then b n / l n n else y j). intros k Hk. cbn [rs]. rewrite Nat.eqb_refl.
  rewrite (rs_ext n _ (fun j => y j * l j k)) by (intros j Hj; destruct (Nat.eqb_spec j n); [lia|reflexivity]).
  destruct (Nat.eq_dec k n) as [->|NE].
  - rewrite rs_zero by (intros j Hj; rewrite LT by lia; lra). pose proof (NZ n ltac:(lia)). field. assumption.
  - rewrite (Hy k ltac:(lia)). lra.
Qed.

(** x^T (L L^T) x = |L^T x|^2 *)
Lemma quadratic_square p n l x : rs n (fun i => rs n (fun j => x i * rs p (fun k => l i k * l j k) * x j)) =
  rs p (fun k => (rs n (fun i => x i * l i k)) * (rs n (fun i => x i * l i k))).
Proof.
  rewrite (rs_ext n _ (fun i => rs p (fun k => x i * l i k * rs n (fun j => x j * l j k)))).
  - rewrite rs_swap. apply rs_ext. intros k _. rewrite (rs_ext n _ (fun i => rs n (fun i => x i * l i k) * (x i * l i k))) by (intros; lra). rewrite rs_scal. reflexivity.
  - intros i _. rewrite (rs_ext n _ (fun j => rs p (fun k => x i * l i k * (x j * l j k)))).
    + rewrite rs_swap. apply rs_ext. intros k _. rewrite <- rs_scal. reflexivity.
    + intros j _. rewrite Rmult_assoc, (Rmult_comm _ (x j)), <- Rmult_assoc, <- rs_scal. apply rs_ext. intros; lra.
Qed.

Lemma factor_positive m l : cholesky_factor m l -> positive_definite m.
Proof.
  intros (L & _ & LT & DP & PR) x (i0 & Hi0 & NZ). unfold quadratic. set (n := length m) in *.
  rewrite (rs_ext n _ (fun i => rs n (fun j => x i * rs n (fun k => entry l i k * entry l j k) * x j))).
  2:{ intros i Hi. apply rs_ext. intros j Hj. rewrite PR by assumption. reflexivity. }
  rewrite quadratic_square.
  (* the last non-zero coordinate *)
  assert (X : exists i, (i < n)%nat /\ x i <> 0 /\ forall j, (i < j < n)%nat -> x j = 0).
  { clear - Hi0 NZ. clearbody n. induction n as [|n IH]; [lia|]. destruct (Req_dec (x n) 0) as [E|NE].
    - assert (i0 <> n) by congruence. destruct (IH ltac:(lia)) as (i & A & B & C). exists i. split; [lia|]. split; [exact B|]. intros j Hj. destruct (Nat.eq_dec j n) as [->|]; [exact E|apply C; lia].
    - exists n. split; [lia|]. split; [exact NE|]. intros; lia. }
  destruct X as (i & Hi & Xi & Z). eapply Rlt_le_trans; [|apply (rs_ge n _ i); [intros; apply Rle_0_sqr|exact Hi]]. cbv beta.
  assert (Z' : forall j, (j < n)%nat -> j <> i -> x j * entry l j i = 0) by (intros j Hj NE; destruct (Nat.lt_ge_cases i j); [rewrite Z by lia; lra|rewrite LT by lia; lra]).
  rewrite (rs_one n i _ Hi Z').
  pose proof (DP i Hi). assert (N2 : x i * entry l i i <> 0) by (apply Rmult_integral_contrapositive_currified; lra). apply Rsqr_pos_lt in N2. exact N2.
Qed.

(** Failure at row [k] exhibits a direction in which the form is not positive. *)
Lemma failure_direction m l k : symmetric m -> (k < length m)%nat -> done (entry m) l k k -> entry m k k - rs k (fun j => l k j * l k j) <= 0 -> ~ positive_definite m.
Proof.
  intros SY Hk D LE PD. pose proof D as (D1 & D2 & D3).
  assert (LT : forall a b, (a < b)%nat -> l a b = 0) by (intros a b H; apply D3; lia).
  destruct (back_substitution l k (fun j => - l k j)) as (y & Hy); [intros i Hi; pose proof (D2 i ltac:(lia)); lra|exact LT|].
  set (x := fun i => if (i <? k)%nat then y i else if (i =? k)%nat then 1 else 0).
  assert (xk : x k = 1) by (unfold x; rewrite Nat.ltb_irrefl, Nat.eqb_refl; reflexivity).
  assert (xy : forall i, (i < k)%nat -> x i = y i) by (intros i Hi; unfold x; destruct (Nat.ltb_spec i k); [reflexivity|lia]).
  assert (x0 : forall i, (k < i)%nat -> x i = 0) by (intros i Hi; unfold x; destruct (Nat.ltb_spec i k); [lia|]; destruct (Nat.eqb_spec i k); [lia|reflexivity]).
  assert (NZ : x k <> 0) by (rewrite xk; lra). specialize (PD x (ex_intro _ k (conj Hk NZ))).
  assert (E : quadratic m x = entry m k k - rs k (fun j => l k j * l k j)).
  { unfold quadratic. rewrite (rs_cut (S k)) by (try lia; intros i Hi; apply rs_zero; intros j _; rewrite x0 by lia; lra).
    rewrite (rs_ext (S k) _ (fun i => rs (S k) (fun j => x i * entry m i j * x j))) by (intros i _; apply rs_cut; [lia|intros j Hj; rewrite (x0 j) by lia; lra]).
    assert (PR : forall i j, (i <= k)%nat -> (j <= k)%nat -> entry m i j = rs k (fun c => l i c * l j c) + (if ((i =? k) && (j =? k))%nat then entry m k k - rs k (fun c => l k c * l k c) else 0)).
    { assert (PR : forall i j, (j <= i <= k)%nat -> entry m i j = rs k (fun c => l i c * l j c) + (if ((i =? k) && (j =? k))%nat then entry m k k - rs k (fun c => l k c * l k c) else 0)).
      { intros i j H. destruct (Nat.eq_dec j k) as [Ej|Nj].
        - assert (Ei : i = k) by lia. rewrite Ei, Ej, Nat.eqb_refl. cbn [andb]. lra.
        - replace ((i =? k) && (j =? k))%nat with false by (destruct (Nat.eqb_spec j k); [lia|]; rewrite andb_false_r; reflexivity).
          rewrite <- (D1 i j), Rplus_0_r by lia. symmetry. apply rs_cut; [lia|]. intros c Hc. rewrite (LT j c) by lia. lra. }
      intros i j Hi Hj. destruct (Nat.le_ge_cases j i); [apply PR; lia|]. rewrite SY, (PR j i) by lia. rewrite andb_comm. f_equal. apply rs_ext. intros; lra. }
    rewrite (rs_ext (S k) _ (fun i => rs (S k) (fun j => x i * rs k (fun c => l i c * l j c) * x j) + (if (i =? k)%nat then entry m k k - rs k (fun c => l k c * l k c) else 0))).
    - rewrite rs_plus, quadratic_square. rewrite (rs_zero k).
      + rewrite (rs_one (S k) k) by (lia || (intros j _ NE; destruct (Nat.eqb_spec j k); [lia|reflexivity])). rewrite Nat.eqb_refl. lra.
      + intros c Hc. cbn [rs]. rewrite (rs_ext k _ (fun i => y i * l i c)) by (intros i Hi; rewrite xy by exact Hi; reflexivity). rewrite (Hy c Hc), xk. lra.
    - intros i Hi. rewrite (rs_ext (S k) _ (fun j => x i * rs k (fun c => l i c * l j c) * x j + (if (j =? k)%nat then (if (i =? k)%nat then entry m k k - rs k (fun c => l k c * l k c) else 0) else 0))).
      + rewrite rs_plus. f_equal. rewrite (rs_one (S k) k) by (lia || (intros j _ NE; destruct (Nat.eqb_spec j k); [lia|reflexivity])). rewrite Nat.eqb_refl. reflexivity.
      + intros j Hj. rewrite (PR i j) by lia. destruct (Nat.eqb_spec i k) as [->|]; destruct (Nat.eqb_spec j k) as [->|]; cbn [andb]; rewrite ?xk; lra. }
  lra.
Qed.

Lemma cholesky_cases m : square m -> symmetric m ->
  (exists l, cholesky m = Ok (Some l) /\ cholesky_factor m l) \/ (cholesky m = Ok None /\ ~ positive_definite m).
Proof.
  intros SQ SY. unfold cholesky. cbv zeta.
  destruct (rows_spec m SQ (length m) 0 (fun _ _ => 0) ltac:(lia) (done_start _)) as [(l & -> & D)|(l & k & -> & Hk & D & LE)]; cbn [obind].
  - left. eexists. split; [reflexivity|]. set (n := length m) in *. pose proof D as (D1 & D2 & D3).
    assert (Z : forall a b, (n <= a \/ n <= b)%nat -> l a b = 0) by (intros a b H; apply D3; lia).
    split; [rewrite map_length, seq_length; reflexivity|].
    split. { apply Forall_forall. intros r Hr. apply in_map_iff in Hr as (i & <- & _). rewrite !map_length, !seq_length. reflexivity. }
    split; [intros i j H; rewrite entry_rows by exact Z; apply D3; lia|].
    split; [intros i H; rewrite entry_rows by exact Z; apply D2; lia|].
    intros i j Hi Hj. rewrite <- (done_product (entry m) l n SY D i j n Hi Hj (le_n _)). apply rs_ext. intros k _. rewrite !entry_rows by exact Z. reflexivity.
  - right. split; [reflexivity|]. eapply failure_direction; eassumption.
Qed.

(** There is at most one factor. *)
Lemma factor_unique m l l' : cholesky_factor m l -> cholesky_factor m l' -> forall i j, entry l i j = entry l' i j.
Proof.
  intros (L & SQ & LT & DP & PR) (L' & SQ' & LT' & DP' & PR'). set (n := length m) in *.
  assert (OUT : forall q, length q = n -> square q -> forall i j, (n <= i)%nat -> entry q i j = 0).
  { intros q Lq _ i j H. unfold entry. rewrite (nth_overflow q) by lia. destruct j; reflexivity. }
  assert (IN : forall a b, (b <= a < n)%nat -> entry l a b = entry l' a b).
  { (* column by column *)
    intros a b. revert a. induction b as [b IHb] using lt_wf_ind.
    assert (CUT : forall q, (forall i j, (i < j)%nat -> entry q i j = 0) -> forall a, (b <= a < n)%nat -> rs n (fun k => entry q a k * entry q b k) = rs b (fun k => entry q a k * entry q b k) + entry q a b * entry q b b).
    { intros q Hq a H. rewrite (rs_cut (S b)) by (try lia; intros k Hk; rewrite (Hq b k) by lia; lra). reflexivity. }
    assert (EQ : forall a, (b <= a < n)%nat -> rs b (fun k => entry l a k * entry l b k) = rs b (fun k => entry l' a k * entry l' b k)).
    { intros a H. apply rs_ext. intros k Hk. rewrite (IHb k Hk a), (IHb k Hk b) by lia. reflexivity. }
    assert (ID : (b < n)%nat -> entry l b b = entry l' b b).
    { intros H. pose proof (PR b b H H) as E1. pose proof (PR' b b H H) as E2. rewrite (CUT l LT) in E1 by lia. rewrite (CUT l' LT') in E2 by lia. rewrite (EQ b) in E1 by lia.
      pose proof (DP b H). pose proof (DP' b H). apply Rsqr_inj; [lra|lra|]. unfold Rsqr. lra. }
    intros a H. destruct (Nat.eq_dec a b) as [->|NE]; [apply ID; lia|].
    pose proof (PR a b ltac:(lia) ltac:(lia)) as E1. pose proof (PR' a b ltac:(lia) ltac:(lia)) as E2. rewrite (CUT l LT) in E1 by lia. rewrite (CUT l' LT') in E2 by lia. rewrite (EQ a) in E1 by lia.
    rewrite <- (ID ltac:(lia)) in E2. pose proof (DP b ltac:(lia)). apply Rmult_eq_reg_r with (entry l b b); lra. }
  intros i j. destruct (Nat.lt_ge_cases i j) as [C|C]; [rewrite LT, LT' by exact C; reflexivity|].
  destruct (Nat.lt_ge_cases i n) as [H|H]; [apply IN; lia|]. rewrite (OUT l), (OUT l') by assumption. reflexivity.
Qed.
