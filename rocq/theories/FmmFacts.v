(** Facts about the tenor grid, the decay and the loops of the forward market model. *)
From Coq Require Import Bool List Reals Lra Lia.
Import ListNotations.
From Verif Require Import Outcome Fmm.
Open Scope R_scope.

Lemma Rltb_true x y : Rltb x y = true <-> x < y.
Proof. unfold Rltb. destruct (Rlt_dec x y); split; intros; (assumption || discriminate || contradiction || reflexivity). Qed.
Lemma Rleb_true x y : Rleb x y = true <-> x <= y.
Proof. unfold Rleb. destruct (Rle_dec x y); split; intros; (assumption || discriminate || contradiction || reflexivity). Qed.
Lemma tiny_pos : 0 < tiny.
Proof. apply Rinv_0_lt_compat. lra. Qed.

(** The tenors accepted by [FmmTenor::new]. *)
Definition good_tenor (te : fmm_tenor) : Prop :=
  (1 <= m_of te)%nat /\ length (dates te) = S (m_of te) /\ 0 <= date_at te 0 /\ forall i, (i < m_of te)%nat -> date_at te i < date_at te (S i).

Lemma increasing_spec l : increasing_dates l = true <-> forall i, (S i < length l)%nat -> nth i l 0 < nth (S i) l 0.
Proof.
  induction l as [|a l IH]; [split; [intros _ i H; cbn in H; lia|reflexivity]|]. destruct l as [|b l]; [split; [intros _ i H; cbn in H; lia|reflexivity]|].
  change (increasing_dates (a :: b :: l)) with (Rltb a b && increasing_dates (b :: l)). rewrite andb_true_iff, Rltb_true, IH. split.
  - intros [AB H] [|i] L; [exact AB|]. apply (H i). cbn in *. lia.
  - intros H. split; [apply (H 0%nat); cbn; lia|]. intros i L. apply (H (S i)). cbn in *. lia.
Qed.
Lemma tenor_new_spec ds rs te : tenor_new ds rs = Ok te <-> te = {| dates := ds; initial_rates := rs |} /\ good_tenor te.
Proof.
  unfold tenor_new, good_tenor, m_of, date_at. split.
  - destruct (Nat.leb_spec 2 (length ds)) as [A|]; cbn [negb]; [|discriminate]. destruct (Nat.eqb_spec (length ds) (length rs + 1)) as [B|]; cbn [negb]; [|discriminate].
    destruct (Rleb 0 (nth 0 ds 0)) eqn:C; cbn [negb]; [|discriminate]. destruct (increasing_dates ds) eqn:D; cbn [negb]; [|discriminate]. intros E. assert (te = {| dates := ds; initial_rates := rs |}) as -> by congruence. split; [reflexivity|]. cbn [dates initial_rates].
    split; [lia|]. split; [lia|]. split; [apply Rleb_true, C|]. intros i I. apply increasing_spec; [exact D|lia].
  - intros [-> (M & L & Z & I)]. cbn [dates initial_rates] in *. destruct (Nat.leb_spec 2 (length ds)); [|lia]. destruct (Nat.eqb_spec (length ds) (length rs + 1)); [|lia]. rewrite (proj2 (Rleb_true _ _) Z). rewrite (proj2 (increasing_spec ds)); [reflexivity|]. intros i J. apply I. lia.
Qed.

Section Tenor.
  Variable te : fmm_tenor.
  Hypothesis G : good_tenor te.
  Lemma dates_lt i j : (i < j <= m_of te)%nat -> date_at te i < date_at te j.
  Proof.
    destruct G as (_ & _ & _ & I). intros [A B]. induction j as [|j IH]; [lia|]. destruct (Nat.eq_dec i j) as [->|N]; [apply I; lia|]. apply Rlt_trans with (date_at te j); [apply IH; lia|apply I; lia].
  Qed.
  Lemma dates_le i j : (i <= j <= m_of te)%nat -> date_at te i <= date_at te j.
  Proof. intros [A B]. destruct (Nat.eq_dec i j) as [->|N]; [lra|]. left. apply dates_lt. lia. Qed.
  Lemma tau_pos j : (1 <= j <= m_of te)%nat -> 0 < tau te j.
  Proof. intros J. unfold tau. pose proof (dates_lt (j - 1) j ltac:(lia)). lra. Qed.

  Lemma eta_cases t : (1 <= eta te t <= m_of te)%nat /\ t <= date_at te (eta te t) /\ (forall i, (1 <= i < eta te t)%nat -> date_at te i < t) \/
    eta te t = (m_of te + 1)%nat /\ forall i, (1 <= i <= m_of te)%nat -> date_at te i < t.
  Proof.
    unfold eta. destruct (find _ _) as [j|] eqn:E.
    - left. pose proof (find_some _ _ E) as [I H]. apply in_seq in I. apply Rleb_true in H. split; [lia|]. split; [exact H|].
      intros i [A B]. assert (P : forall l j, find (fun j => Rleb t (date_at te j)) l = Some j -> exists a b, l = a ++ j :: b /\ forall x, In x a -> Rleb t (date_at te x) = false).
      { clear. induction l as [|x l IH]; [discriminate|]. intros j. cbn. destruct (Rleb t (date_at te x)) eqn:F; [intros Q; injection Q as <-; exists [], l; split; [reflexivity|intros ? []]|]. intros Q. destruct (IH j Q) as (a & b & -> & H). exists (x :: a), b. split; [reflexivity|]. intros y [<-|Y]; [exact F|apply H, Y]. }
      destruct (P _ _ E) as (a & b & S & H'). assert (L : nth (length a) (seq 1 (m_of te)) 0%nat = j) by (rewrite S, app_nth2, Nat.sub_diag by lia; reflexivity). assert (LA : (length a < m_of te)%nat) by (rewrite <- (seq_length (m_of te) 1), S, app_length; cbn; lia). rewrite seq_nth in L by exact LA.
      assert (IA : In i a). { assert (N : nth (i - 1) (seq 1 (m_of te)) 0%nat = i) by (rewrite seq_nth; lia). rewrite S, app_nth1 in N by lia. rewrite <- N. apply nth_In. lia. }
      apply H' in IA. apply Rnot_le_lt. intros Q. apply Rleb_true in Q. congruence.
    - right. split; [reflexivity|]. intros i I. pose proof (find_none _ _ E i) as H. apply Rnot_le_lt. intros Q. apply Rleb_true in Q. rewrite H in Q; [discriminate|]. apply in_seq. lia.
  Qed.
  Lemma eta_is j t : (1 <= j <= m_of te)%nat -> t <= date_at te j -> ((1 < j)%nat -> date_at te (j - 1) < t) -> eta te t = j.
  Proof.
    intros J A B. destruct (eta_cases t) as [(C & D & E)|[C D]].
    - destruct (Nat.lt_trichotomy (eta te t) j) as [L|[L|L]]; [|exact L|].
      + specialize (B ltac:(lia)). pose proof (dates_le (eta te t) (j - 1) ltac:(lia)). lra.
      + pose proof (E j ltac:(lia)). lra.
    - pose proof (D j ltac:(lia)). lra.
  Qed.
  Lemma eta_date k : (1 <= k <= m_of te)%nat -> eta te (date_at te k) = k.
  Proof. intros K. apply eta_is; [exact K|lra|]. intros L. apply dates_lt. lia. Qed.
  Lemma eta_mono s t : s <= t -> (eta te s <= eta te t)%nat.
  Proof.
    intros ST. destruct (eta_cases t) as [(C & D & E)|[C D]]; destruct (eta_cases s) as [(C' & D' & E')|[C' D']]; try lia.
    - destruct (Nat.le_gt_cases (eta te s) (eta te t)) as [L|L]; [exact L|]. pose proof (E' (eta te t) ltac:(lia)). lra.
    - pose proof (D' (eta te t) ltac:(lia)). lra.
  Qed.

  (** the decay, in its three regimes *)
  Lemma gamma_before j t : t <= date_at te (j - 1) -> gamma j t te = 1.
  Proof. intros H. unfold gamma. destruct (Rle_dec t (date_at te (j - 1))); [reflexivity|contradiction]. Qed.
  Lemma gamma_after j t : (1 <= j <= m_of te)%nat -> date_at te j <= t -> gamma j t te = 0.
  Proof. intros J H. unfold gamma. pose proof (dates_lt (j - 1) j ltac:(lia)). destruct (Rle_dec t (date_at te (j - 1))); [lra|]. destruct (Rle_dec (date_at te j) t); [reflexivity|contradiction]. Qed.
  Lemma gamma_inside j t : (1 <= j <= m_of te)%nat -> date_at te (j - 1) <= t <= date_at te j -> gamma j t te = (date_at te j - t) / tau te j.
  Proof.
    intros J [A B]. pose proof (tau_pos j J) as T. unfold tau in *. unfold gamma. destruct (Rle_dec t (date_at te (j - 1))) as [L|L].
    - assert (t = date_at te (j - 1)) as -> by lra. field. lra.
    - destruct (Rle_dec (date_at te j) t) as [M|M]; [|reflexivity]. assert (t = date_at te j) as -> by lra. field. lra.
  Qed.
  Lemma big_g_inside j s t : (1 <= j <= m_of te)%nat -> date_at te (j - 1) <= s <= date_at te j -> date_at te (j - 1) <= t <= date_at te j -> big_g j s t te = (t - s) / tau te j.
  Proof. intros J A B. pose proof (tau_pos j J). unfold big_g. rewrite !gamma_inside by assumption. field. lra. Qed.
End Tenor.

(** ** Loops *)
Lemma oeach_spec {A} (f : nat -> outcome A) l xs d : oeach f l = Ok xs -> length xs = length l /\ forall i, (i < length l)%nat -> f (nth i l 0%nat) = Ok (nth i xs d).
Proof.
  revert xs. induction l as [|i l IH]; intros xs H; cbn in H.
  - assert (xs = []) as -> by congruence. split; [reflexivity|]. intros i I. cbn in I. lia.
  - apply obind_Ok in H. destruct H as (x & F & H). apply obind_Ok in H. destruct H as (ys & Y & H). assert (xs = x :: ys) as -> by congruence. destruct (IH _ Y) as [L N]. split; [cbn; lia|]. intros [|k] K; [exact F|]. apply N. cbn in K. lia.
Qed.
Lemma oeach_seq {A} (f : nat -> outcome A) s n xs d : oeach f (seq s n) = Ok xs -> length xs = n /\ forall i, (i < n)%nat -> f (s + i)%nat = Ok (nth i xs d).
Proof.
  intros H. destruct (oeach_spec f _ xs d H) as [L N]. rewrite seq_length in *. split; [exact L|]. intros i I. rewrite <- (N i I), seq_nth by exact I. reflexivity.
Qed.
Lemma oeach_total {A} (f : nat -> outcome A) l : (forall i, In i l -> exists x, f i = Ok x) -> exists xs, oeach f l = Ok xs.
Proof.
  induction l as [|i l IH]; intros H; [exists []; reflexivity|]. destruct (H i) as [x X]; [left; reflexivity|]. destruct IH as [xs XS]; [intros j J; apply H; right; exact J|]. exists (x :: xs). cbn. rewrite X, XS. reflexivity.
Qed.
Lemma map_seq_nth (g : nat -> R) s n i : (i < n)%nat -> nth i (map g (seq s n)) 0 = g (s + i)%nat.
Proof. intros I. rewrite (nth_indep _ 0 (g 0%nat)) by (rewrite map_length, seq_length; exact I). rewrite map_nth, seq_nth by exact I. reflexivity. Qed.

(** Products over consecutive indices. *)
Definition product (g : nat -> R) (s n : nat) : R := fold_right Rmult 1 (map g (seq s n)).
Lemma product_S g s n : product g s (S n) = product g s n * g (s + n)%nat.
Proof.
  unfold product. rewrite seq_S, map_app, fold_right_app. cbn. generalize (map g (seq s n)). intros l. induction l as [|x l IH]; cbn; [ring|rewrite IH; ring].
Qed.
Lemma fold_times g s n x : fold_left (fun acc j => acc * g j) (seq s n) x = x * product g s n.
Proof.
  revert x. induction n as [|n IH]; intros x; [unfold product; cbn; ring|]. rewrite seq_S, fold_left_app, product_S. cbn. rewrite IH. ring.
Qed.
Lemma fold_over g s n x : fold_left (fun acc j => acc / g j) (seq s n) x = x * product (fun j => / g j) s n.
Proof.
  revert x. induction n as [|n IH]; intros x; [unfold product; cbn; ring|]. rewrite seq_S, fold_left_app, product_S. cbn. rewrite IH. unfold Rdiv. ring.
Qed.
Lemma product_ext g h s n : (forall i, (s <= i < s + n)%nat -> g i = h i) -> product g s n = product h s n.
Proof. induction n as [|n IH]; intros H; [reflexivity|]. rewrite !product_S, IH, H by (lia || intros; apply H; lia). reflexivity. Qed.
Lemma product_pos g s n : (forall i, (s <= i < s + n)%nat -> 0 < g i) -> 0 < product g s n.
Proof. induction n as [|n IH]; intros H; [unfold product; cbn; lra|]. rewrite product_S. apply Rmult_lt_0_compat; [apply IH; intros; apply H; lia|apply H; lia]. Qed.
Lemma product_inv g s n : (forall i, (s <= i < s + n)%nat -> g i <> 0) -> product (fun j => / g j) s n = / product g s n.
Proof.
  induction n as [|n IH]; intros H; [unfold product; cbn; field|]. rewrite !product_S, IH by (intros; apply H; lia). rewrite Rinv_mult. reflexivity.
Qed.
Definition sum_over (g : nat -> R) (s n : nat) : R := fold_right Rplus 0 (map g (seq s n)).
Lemma sum_over_S g s n : sum_over g s (S n) = sum_over g s n + g (s + n)%nat.
Proof.
  unfold sum_over. rewrite seq_S, map_app, fold_right_app. cbn. generalize (map g (seq s n)). intros l. induction l as [|x l IH]; cbn; [ring|rewrite IH; ring].
Qed.
Lemma fold_plus g s n x : fold_left (fun acc j => acc + g j) (seq s n) x = x + sum_over g s n.
Proof.
  revert x. induction n as [|n IH]; intros x; [unfold sum_over; cbn; ring|]. rewrite seq_S, fold_left_app, sum_over_S. cbn. rewrite IH. ring.
Qed.
Lemma sum_over_ext g h s n : (forall i, (s <= i < s + n)%nat -> g i = h i) -> sum_over g s n = sum_over h s n.
Proof. induction n as [|n IH]; intros H; [reflexivity|]. rewrite !sum_over_S, IH, H by (lia || intros; apply H; lia). reflexivity. Qed.
