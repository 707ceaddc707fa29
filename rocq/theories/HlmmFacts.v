(** Facts on the cross-currency Libor market model. *)
From Coq Require Import Bool List Arith Reals Psatz Lia.
Import ListNotations.
From Verif Require Import Outcome ForwardPoints VolSurface Processes ProcessFacts HullWhite Hlmm.
From Verif Require Hhw1Facts.
Open Scope R_scope.
Global Set Bullet Behavior "Strict Subproofs".

Lemma slack_pos : 0 < slack.
Proof. apply Rinv_0_lt_compat, pow_lt; lra. Qed.

(** * Lists and loops *)
Lemma oindex_ok (l : list R) i : (i < length l)%nat -> oindex l i = Ok (nth i l 0).
Proof. intros H. unfold oindex. rewrite (nth_error_nth' l 0 H). reflexivity. Qed.
Lemma oindex_out {A} (l : list A) i : (length l <= i)%nat -> oindex l i = Panic PIndex.
Proof. intros H. unfold oindex. rewrite (proj2 (nth_error_None l i) H). reflexivity. Qed.
Definition el (m : list (list R)) (i j : nat) : R := nth j (nth i m []) 0.
Definition square (m : list (list R)) (n : nat) : Prop := length m = n /\ forall row, In row m -> length row = n.
Lemma entry_ok m n i j : square m n -> (i < n)%nat -> (j < n)%nat -> entry m i j = Ok (el m i j).
Proof.
  intros [L W] Hi Hj. unfold entry, oindex at 1. rewrite (nth_error_nth' m []) by lia. cbn [obind]. apply oindex_ok.
  rewrite (W (nth i m [])); [exact Hj|]. apply nth_In. lia.
Qed.
Lemma in_from_to a b j : In j (from_to a b) <-> (a <= j <= b)%nat.
Proof. unfold from_to. rewrite in_seq. lia. Qed.
Lemma from_to_cons a b : (a <= b)%nat -> from_to a b = a :: from_to (a + 1) b.
Proof. intros H. unfold from_to. replace (S b - a)%nat with (S (b - a)) by lia. cbn [seq]. f_equal. f_equal; lia. Qed.
Lemma from_to_nil a b : (b < a)%nat -> from_to a b = [].
Proof. intros H. unfold from_to. replace (S b - a)%nat with 0%nat by lia. reflexivity. Qed.

Lemma ofor_ok {A} (f : A -> outcome unit) l : ofor f l = Ok tt <-> forall a, In a l -> f a = Ok tt.
Proof.
  induction l as [|a l IH]; cbn [ofor]; [split; [intros _ a []|reflexivity]|].
  split.
  - intros H. apply obind_Ok in H as ([] & E & H). intros b [<-|B]; [exact E|]. apply IH; assumption.
  - intros H. rewrite (H a (or_introl eq_refl)). cbn [obind]. apply IH. intros b B. apply H. right. exact B.
Qed.
(** a loop whose body only returns or leaves with an error does the same *)
Lemma ofor_err {A} (f : A -> outcome unit) l : (forall a, In a l -> f a = Ok tt \/ f a = Err EInvalidData) ->
  ofor f l = Ok tt \/ ofor f l = Err EInvalidData.
Proof.
  induction l as [|a l IH]; intros H; [left; reflexivity|]. cbn [ofor].
  destruct (H a (or_introl eq_refl)) as [-> | ->]; cbn [obind]; [|right; reflexivity]. apply IH. intros b B. apply H. right. exact B.
Qed.

Definition sum_on {A} (l : list A) (g : A -> R) : R := fold_right (fun a s => g a + s) 0 l.
Lemma sum_on_nil {A} (g : A -> R) : sum_on [] g = 0.
Proof. reflexivity. Qed.
Lemma sum_on_cons {A} a (l : list A) g : sum_on (a :: l) g = g a + sum_on l g.
Proof. reflexivity. Qed.
Lemma sum_on_app {A} (l m : list A) g : sum_on (l ++ m) g = sum_on l g + sum_on m g.
Proof. induction l as [|a l IH]; cbn [app]; rewrite ?sum_on_cons, ?sum_on_nil; [ring|]. rewrite IH. ring. Qed.
Lemma sum_on_ext {A} (l : list A) g h : (forall a, In a l -> g a = h a) -> sum_on l g = sum_on l h.
Proof. induction l as [|a l IH]; intros H; cbn; [reflexivity|]. rewrite (H a (or_introl eq_refl)). f_equal. apply IH. intros b B. apply H. right. exact B. Qed.
Lemma sum_on_plus {A} (l : list A) g h : sum_on l (fun a => g a + h a) = sum_on l g + sum_on l h.
Proof. induction l as [|a l IH]; rewrite ?sum_on_cons, ?sum_on_nil; [ring|]. rewrite IH. ring. Qed.
Lemma sum_on_scal {A} (l : list A) g c : sum_on l (fun a => c * g a) = c * sum_on l g.
Proof. induction l as [|a l IH]; rewrite ?sum_on_cons, ?sum_on_nil; [ring|]. rewrite IH. ring. Qed.
Lemma sum_on_map {A B} (f : A -> B) l g : sum_on (map f l) g = sum_on l (fun a => g (f a)).
Proof. induction l as [|a l IH]; cbn [map]; rewrite ?sum_on_cons, ?sum_on_nil; [reflexivity|]. rewrite IH. reflexivity. Qed.
Lemma sum_on_flat {A B} (f : A -> list B) l g : sum_on (flat_map f l) g = sum_on l (fun a => sum_on (f a) g).
Proof. induction l as [|a l IH]; cbn [flat_map]; [reflexivity|]. rewrite sum_on_app, IH. reflexivity. Qed.
Lemma oadd_ok {A} (f : A -> outcome R) g l acc : (forall a, In a l -> f a = Ok (g a)) -> oadd f l acc = Ok (acc + sum_on l g).
Proof.
  revert acc. induction l as [|a l IH]; intros acc H; cbn [oadd sum_on fold_right]; [rewrite Rplus_0_r; reflexivity|].
  rewrite (H a (or_introl eq_refl)). cbn [obind]. rewrite IH by (intros b B; apply H; right; exact B). f_equal. unfold sum_on. ring.
Qed.
Lemma oadd_panic {A} (f : A -> outcome R) a l acc p : f a = Panic p -> oadd f (a :: l) acc = Panic p.
Proof. intros H. cbn [oadd]. rewrite H. reflexivity. Qed.

(** * The tenor *)
Definition date_k (te : libor_tenor) (k : nat) : R := nth k (lt_dates te) 0.
Definition good (te : libor_tenor) : Prop :=
  length (lt_dates te) = (lt_n te + 1)%nat /\ 0 <= date_k te 0 /\ forall i j, (i < j <= lt_n te)%nat -> date_k te i < date_k te j.

Lemma dates_increase_spec l : dates_increase l = true <-> forall i, (S i < length l)%nat -> nth i l 0 < nth (S i) l 0.
Proof.
  induction l as [|a [|b l] IH]; cbn [dates_increase].
  - split; [intros _ i H; cbn in H; lia|reflexivity].
  - split; [intros _ i H; cbn in H; lia|reflexivity].
  - rewrite andb_true_iff, IH. split.
    + intros [H1 H2] [|i] Hi; [cbn; destruct (Rlt_dec a b); [assumption|discriminate]|]. apply (H2 i). cbn [length] in *. lia.
    + intros H. split; [destruct (Rlt_dec a b) as [|N]; [reflexivity|exfalso; apply N; apply (H 0%nat); cbn; lia]|].
      intros i Hi. apply (H (S i)). cbn [length] in *. lia.
Qed.
Lemma step_mono (f : nat -> R) n : (forall i, (i < n)%nat -> f i < f (S i)) -> forall i j, (i < j <= n)%nat -> f i < f j.
Proof.
  intros H i j. induction j as [|j IH]; intros B; [lia|]. pose proof (H j ltac:(lia)).
  destruct (Nat.eq_dec i j) as [->|]; [assumption|]. pose proof (IH ltac:(lia)). lra.
Qed.
Lemma tenor_new_iff ds ls te : libor_tenor_new ds ls = Ok te <-> te = {| lt_dates := ds; libors := ls |} /\ good te.
Proof.
  unfold libor_tenor_new. split.
  - destruct (Nat.eqb_spec (length ds) (length ls + 1)) as [L|]; [|discriminate]. cbn [negb]. rewrite oindex_ok by lia. cbn [obind].
    destruct (Rle_dec 0 (nth 0 ds 0)) as [Z|]; [|discriminate]. cbn [negb].
    destruct (dates_increase ds) eqn:E; [|discriminate]. cbn [negb]. intros H.
    assert (te = {| lt_dates := ds; libors := ls |}) as -> by congruence. split; [reflexivity|]. split; [exact L|]. split; [exact Z|].
    intros i j Hij. apply (step_mono (fun k => nth k ds 0) (length ls)); [|exact Hij].
    intros k Hk. apply dates_increase_spec; [exact E|lia].
  - intros [-> [L [Z M]]]. unfold lt_n, date_k in *. cbn [lt_dates libors] in *. rewrite (proj2 (Nat.eqb_eq _ _) L). cbn [negb].
    rewrite oindex_ok by lia. cbn [obind]. destruct (Rle_dec 0 (nth 0 ds 0)); [|contradiction]. cbn [negb].
    rewrite (proj2 (dates_increase_spec ds)); [reflexivity|]. intros i Hi. apply M. lia.
Qed.

Lemma first_not_passed_spec l k t : match first_not_passed l k t with
  | Some j => (k <= j < k + length l)%nat /\ t <= nth (j - k) l 0 /\ forall i, (i < j - k)%nat -> nth i l 0 < t
  | None => forall i, (i < length l)%nat -> nth i l 0 < t
  end.
Proof.
  revert k. induction l as [|a l IH]; intros k; cbn [first_not_passed].
  - intros i H. cbn in H. lia.
  - destruct (Rle_dec t a) as [H|H].
    + rewrite Nat.sub_diag. cbn [length nth]. repeat split; [lia|lia|exact H|]. intros i Hi. lia.
    + specialize (IH (S k)). destruct (first_not_passed l (S k) t) as [j|].
      * destruct IH as (B & C & D). cbn [length]. replace (j - k)%nat with (S (j - S k)) by lia. cbn [nth]. repeat split; [lia|lia|exact C|].
        intros [|i] Hi; [cbn; lra|]. apply (D i). lia.
      * intros [|i] Hi; [cbn; lra|]. apply (IH i). cbn [length] in Hi. lia.
Qed.
Lemma m_spec te t : good te ->
  (lt_m te t <= lt_n te)%nat /\ (forall i, (i < lt_m te t)%nat -> date_k te i < t) /\ (t <= date_k te (lt_m te t) \/ (lt_m te t = lt_n te /\ date_k te (lt_n te) < t)).
Proof.
  intros (L & Z & M). unfold lt_m. pose proof (first_not_passed_spec (lt_dates te) 0 t) as S. destruct (first_not_passed (lt_dates te) 0 t) as [j|].
  - destruct S as (B & C & D). rewrite Nat.sub_0_r in *. split; [lia|]. split; [exact D|]. left. exact C.
  - split; [lia|]. split; [intros i Hi; apply S; lia|]. right. split; [reflexivity|]. apply S. lia.
Qed.
Lemma m_unique te t k : good te -> (k <= lt_n te)%nat -> (forall i, (i < k)%nat -> date_k te i < t) -> (t <= date_k te k \/ k = lt_n te) -> lt_m te t = k.
Proof.
  intros G Hk A B. destruct (m_spec te t G) as (C & D & E). destruct (lt_eq_lt_dec (lt_m te t) k) as [[H|H]|H]; [|exact H|].
  - pose proof (A _ H). destruct E as [E|[E _]]; [lra|lia].
  - pose proof (D _ H). destruct B as [B|B]; [lra|lia].
Qed.

Lemma tau_ok te k : good te -> (1 <= k <= lt_n te)%nat -> lt_tau te k = Ok (date_k te k - date_k te (k - 1)).
Proof.
  intros (L & _) H. unfold lt_tau. rewrite (proj2 (Nat.leb_le 1 k)) by lia. rewrite (proj2 (Nat.leb_le k (lt_n te))) by lia. cbn [andb negb].
  rewrite !oindex_ok by lia. reflexivity.
Qed.

(** * The coefficients *)
Lemma omapM_map {A B} (f : A -> outcome B) g l : (forall a, In a l -> f a = Ok (g a)) -> omapM f l = Ok (map g l).
Proof.
  induction l as [|a l IH]; intros H; cbn [omapM map]; [reflexivity|]. rewrite (H a (or_introl eq_refl)). cbn [obind].
  rewrite IH by (intros b B'; apply H; right; exact B'). reflexivity.
Qed.
Definition psi_k (te : libor_tenor) (l : dd_sv_lmm) (j : nat) : R :=
  let tau := date_k te (j + 1) - date_k te j in
  tau * nth j (lm_sigmas l) 0 * nth j (libors te) 0 / (1 + tau * nth j (libors te) 0).
Lemma psi_ok te l : good te -> length (lm_sigmas l) = lt_n te -> lmm_psi l te = Ok (map (psi_k te l) (seq 0 (lt_n te))).
Proof.
  intros G L. apply omapM_map. intros j Hj. apply in_seq in Hj. rewrite (tau_ok te (j + 1) G) by lia. cbn [obind].
  rewrite !oindex_ok by (unfold lt_n in *; lia). cbn [obind]. unfold psi_k. replace (j + 1 - 1)%nat with j by lia. reflexivity.
Qed.
Lemma nth_map_seq (f : nat -> R) n j : (j < n)%nat -> nth j (map f (seq 0 n)) 0 = f j.
Proof. intros H. rewrite (nth_indep _ 0 (f 0%nat)) by (rewrite map_length, seq_length; exact H). rewrite map_nth, seq_nth by exact H. reflexivity. Qed.

(** the symmetric matrix with unit diagonal that agrees with [m] above the diagonal *)
Definition completed (m : list (list R)) (i j : nat) : R := if (i =? j)%nat then 1 else if (i <? j)%nat then el m i j else el m j i.

Lemma quad_sum (psi : nat -> R) (c : nat -> nat -> R) (l : list nat) a :
  sum_on (a :: l) (fun i => sum_on (a :: l) (fun j => psi i * psi j * c i j))
  = psi a * psi a * c a a + sum_on l (fun j => psi a * psi j * c a j) + sum_on l (fun j => psi j * psi a * c j a) + sum_on l (fun i => sum_on l (fun j => psi i * psi j * c i j)).
Proof.
  rewrite sum_on_cons, (sum_on_cons a l (fun j => psi a * psi j * c a j)).
  assert (E : sum_on l (fun i => sum_on (a :: l) (fun j => psi i * psi j * c i j)) = sum_on l (fun i => psi i * psi a * c i a + sum_on l (fun j => psi i * psi j * c i j))) by (apply sum_on_ext; intros i _; rewrite sum_on_cons; reflexivity).
  rewrite E, sum_on_plus. ring.
Qed.

Lemma quadratic_ok psi n start m : length psi = n -> square m n -> (1 <= start)%nat ->
  quadratic psi n start m = Ok (sum_on (from_to start n) (fun i => sum_on (from_to start n) (fun j => nth (i - 1) psi 0 * nth (j - 1) psi 0 * completed m (i - 1) (j - 1)))).
Proof.
  intros L S H1. unfold quadratic. destruct (Nat.ltb_spec n start) as [H|H].
  { rewrite from_to_nil by exact H. reflexivity. }
  rewrite (oadd_ok _ (fun j => nth (j - 1) psi 0 * nth (j - 1) psi 0)).
  2:{ intros j Hj. apply in_from_to in Hj. destruct j as [|j]; [lia|]. cbn [pred_index obind]. rewrite oindex_ok by lia. cbn [obind]. replace (Datatypes.S j - 1)%nat with j by lia. reflexivity. }
  cbn [obind].
  rewrite (oadd_ok _ (fun '(i, j) => 2 * nth (i - 1) psi 0 * nth (j - 1) psi 0 * el m (i - 1) (j - 1))).
  2:{ intros [i j] Hij. apply in_flat_map in Hij as (i' & Hi & Hij). apply in_map_iff in Hij as (j' & E & Hj). injection E as -> ->.
    apply in_from_to in Hi. apply in_from_to in Hj. destruct i as [|i]; [lia|]. destruct j as [|j]; [lia|]. cbn [pred_index obind].
    rewrite !oindex_ok by lia. cbn [obind]. rewrite (entry_ok m n) by (try exact S; lia). cbn [obind].
    replace (Datatypes.S i - 1)%nat with i by lia. replace (Datatypes.S j - 1)%nat with j by lia. reflexivity. }
  apply f_equal. rewrite sum_on_flat.
  assert (Q : forall k s, (Datatypes.S n - s = k)%nat -> (1 <= s)%nat ->
    sum_on (from_to s n) (fun j => nth (j - 1) psi 0 * nth (j - 1) psi 0)
    + sum_on (from_to s n) (fun i => sum_on (map (pair i) (from_to (i + 1) n)) (fun '(i, j) => 2 * nth (i - 1) psi 0 * nth (j - 1) psi 0 * el m (i - 1) (j - 1)))
    = sum_on (from_to s n) (fun i => sum_on (from_to s n) (fun j => nth (i - 1) psi 0 * nth (j - 1) psi 0 * completed m (i - 1) (j - 1)))).
  { induction k as [|k IH]; intros s Hk Hs; [rewrite from_to_nil by lia; rewrite !sum_on_nil; ring|].
    rewrite (from_to_cons s n) by lia. rewrite (quad_sum (fun i => nth (i - 1) psi 0) (fun i j => completed m (i - 1) (j - 1))). rewrite <- (IH (s + 1)%nat) by lia.
    rewrite !sum_on_cons.
    assert (E1 : completed m (s - 1) (s - 1) = 1) by (unfold completed; rewrite Nat.eqb_refl; reflexivity). rewrite E1.
    assert (E2 : sum_on (from_to (s + 1) n) (fun j => nth (s - 1) psi 0 * nth (j - 1) psi 0 * completed m (s - 1) (j - 1)) = sum_on (from_to (s + 1) n) (fun j => nth (s - 1) psi 0 * nth (j - 1) psi 0 * el m (s - 1) (j - 1))).
    { apply sum_on_ext. intros j Hj. apply in_from_to in Hj. unfold completed. rewrite (proj2 (Nat.eqb_neq _ _)) by lia. rewrite (proj2 (Nat.ltb_lt _ _)) by lia. reflexivity. }
    assert (E3 : sum_on (from_to (s + 1) n) (fun j => nth (j - 1) psi 0 * nth (s - 1) psi 0 * completed m (j - 1) (s - 1)) = sum_on (from_to (s + 1) n) (fun j => nth (s - 1) psi 0 * nth (j - 1) psi 0 * el m (s - 1) (j - 1))).
    { apply sum_on_ext. intros j Hj. apply in_from_to in Hj. unfold completed. rewrite (proj2 (Nat.eqb_neq _ _)) by lia. rewrite (proj2 (Nat.ltb_ge _ _)) by lia. ring. }
    assert (E4 : sum_on (map (pair s) (from_to (s + 1) n)) (fun '(i, j) => 2 * nth (i - 1) psi 0 * nth (j - 1) psi 0 * el m (i - 1) (j - 1)) = 2 * sum_on (from_to (s + 1) n) (fun j => nth (s - 1) psi 0 * nth (j - 1) psi 0 * el m (s - 1) (j - 1))).
    { rewrite sum_on_map, <- sum_on_scal. apply sum_on_ext. intros j _. ring. }
    rewrite E2, E3, E4. ring. }
  rewrite Rplus_0_l. apply (Q (Datatypes.S n - start)%nat start eq_refl H1).
Qed.

Lemma cross_terms_ok pd pf xd xf cross n start a b c : length pd = n -> length pf = n -> length xd = n -> length xf = n -> square cross n -> (1 <= start)%nat ->
  cross_terms pd pf xd xf cross n start a b c =
  Ok (2 * a * b * sum_on (from_to start n) (fun j => nth (j - 1) pd 0 * nth (j - 1) xd 0)
      - 2 * a * c * sum_on (from_to start n) (fun j => nth (j - 1) pf 0 * nth (j - 1) xf 0)
      - 2 * b * c * sum_on (from_to start n) (fun j => sum_on (from_to start n) (fun k => nth (j - 1) pd 0 * nth (k - 1) pf 0 * el cross (j - 1) (k - 1)))).
Proof.
  intros L1 L2 L3 L4 S H1. unfold cross_terms. destruct (Nat.ltb_spec n start) as [H|H].
  { rewrite from_to_nil by exact H. cbn. apply f_equal. ring. }
  rewrite (oadd_ok _ (fun j => nth (j - 1) pd 0 * nth (j - 1) xd 0)).
  2:{ intros j Hj. apply in_from_to in Hj. destruct j as [|j]; [lia|]. cbn [pred_index obind]. rewrite !oindex_ok by lia. cbn [obind]. replace (Datatypes.S j - 1)%nat with j by lia. reflexivity. }
  cbn [obind].
  rewrite (oadd_ok _ (fun j => nth (j - 1) pf 0 * nth (j - 1) xf 0)).
  2:{ intros j Hj. apply in_from_to in Hj. destruct j as [|j]; [lia|]. cbn [pred_index obind]. rewrite !oindex_ok by lia. cbn [obind]. replace (Datatypes.S j - 1)%nat with j by lia. reflexivity. }
  cbn [obind].
  rewrite (oadd_ok _ (fun '(j, k) => nth (j - 1) pd 0 * nth (k - 1) pf 0 * el cross (j - 1) (k - 1))).
  2:{ intros [j k] Hjk. apply in_flat_map in Hjk as (j' & Hj & Hjk). apply in_map_iff in Hjk as (k' & E & Hk). injection E as -> ->.
    apply in_from_to in Hj. apply in_from_to in Hk. destruct j as [|j]; [lia|]. destruct k as [|k]; [lia|]. cbn [pred_index obind].
    rewrite !oindex_ok by lia. cbn [obind]. rewrite (entry_ok cross n) by (try exact S; lia). cbn [obind].
    replace (Datatypes.S j - 1)%nat with j by lia. replace (Datatypes.S k - 1)%nat with k by lia. reflexivity. }
  cbn [obind]. apply f_equal. rewrite sum_on_flat.
  assert (E : sum_on (from_to start n) (fun j => sum_on (map (pair j) (from_to start n)) (fun '(j, k) => nth (j - 1) pd 0 * nth (k - 1) pf 0 * el cross (j - 1) (k - 1)))
    = sum_on (from_to start n) (fun j => sum_on (from_to start n) (fun k => nth (j - 1) pd 0 * nth (k - 1) pf 0 * el cross (j - 1) (k - 1)))).
  { apply sum_on_ext. intros j _. rewrite sum_on_map. reflexivity. }
  rewrite E. ring.
Qed.

(** * The checks *)
Definition close (x y : R) : Prop := Rabs (x - y) <= slack.
Definition corr_ok (m : list (list R)) (n : nat) : Prop :=
  square m n /\ (forall i, (i < n)%nat -> close (el m i i) 1) /\ forall i j, (i < n)%nat -> (j < n)%nat -> close (el m i j) (el m j i) /\ Rabs (el m i j) <= 1 + slack.
Lemma check_corr_iff m n : length m = n -> (check_corr m n = Ok tt <-> corr_ok m n) /\ (check_corr m n = Ok tt \/ check_corr m n = Err EInvalidData).
Proof.
  intros L. unfold check_corr.
  assert (D : (forall row, In row m -> length row = n) \/ exists row, In row m /\ length row <> n).
  { clear L. induction m as [|r m IH]; [left; intros row []|]. destruct (Nat.eq_dec (length r) n) as [E|E].
    - destruct IH as [IH|(row & I & N)]; [left; intros row [<-|I]; [exact E|apply IH; exact I]|right; exists row; split; [right; exact I|exact N]].
    - right. exists r. split; [left; reflexivity|exact E]. }
  set (rows := ofor (fun row : list R => if negb (length row =? n)%nat then Err EInvalidData else Ok tt) m).
  assert (ER : rows = Ok tt \/ rows = Err EInvalidData). { apply ofor_err. intros row _. destruct (length row =? n)%nat; cbn; tauto. }
  assert (RI : rows = Ok tt <-> forall row, In row m -> length row = n).
  { unfold rows. rewrite ofor_ok. split; intros H row I; specialize (H row I); [destruct (Nat.eqb_spec (length row) n); [assumption|discriminate]|]. rewrite (proj2 (Nat.eqb_eq _ _) H). reflexivity. }
  destruct D as [D|(row & I & N)].
  - assert (S : square m n) by (split; assumption). rewrite (proj2 RI D). cbn [obind]. split.
    + rewrite ofor_ok. split.
      * intros H. split; [exact S|]. split.
        -- intros i Hi. specialize (H i ltac:(apply in_seq; lia)). rewrite (entry_ok m n i i S Hi Hi) in H. cbn [obind] in H. destruct (Rlt_dec _ _); [discriminate|]. unfold close. lra.
        -- intros i j Hi Hj. specialize (H i ltac:(apply in_seq; lia)). rewrite (entry_ok m n i i S Hi Hi) in H. cbn [obind] in H. destruct (Rlt_dec _ _); [discriminate|].
           rewrite ofor_ok in H. specialize (H j ltac:(apply in_seq; lia)). rewrite (entry_ok m n i j S Hi Hj), (entry_ok m n j i S Hj Hi) in H. cbn [obind] in H.
           destruct (Rlt_dec _ _); [discriminate|]. destruct (Rlt_dec _ _); [discriminate|]. unfold close. lra.
      * intros (_ & H1 & H2) i Hi. apply in_seq in Hi. rewrite (entry_ok m n i i S) by lia. cbn [obind]. pose proof (H1 i ltac:(lia)) as Q. unfold close in Q.
        destruct (Rlt_dec _ _); [exfalso; lra|]. rewrite ofor_ok. intros j Hj. apply in_seq in Hj. rewrite (entry_ok m n i j S), (entry_ok m n j i S) by lia. cbn [obind].
        destruct (H2 i j ltac:(lia) ltac:(lia)) as [A B]. unfold close in A. destruct (Rlt_dec _ _); [exfalso; lra|]. destruct (Rlt_dec _ _); [exfalso; lra|]. reflexivity.
    + apply ofor_err. intros i Hi. apply in_seq in Hi. rewrite (entry_ok m n i i S) by lia. cbn [obind]. destruct (Rlt_dec _ _); [right; reflexivity|].
      apply ofor_err. intros j Hj. apply in_seq in Hj. rewrite (entry_ok m n i j S), (entry_ok m n j i S) by lia. cbn [obind]. destruct (Rlt_dec _ _); [right; reflexivity|]. destruct (Rlt_dec _ _); [right; reflexivity|left; reflexivity].
  - assert (E : rows = Err EInvalidData). { destruct ER as [ER|ER]; [|exact ER]. exfalso. apply N. apply (proj1 RI ER row I). } rewrite E. cbn [obind].
    split; [|right; reflexivity]. split; [discriminate|]. intros ((_ & W) & _). exfalso. apply N, W, I.
Qed.

Definition lmm_ok (l : dd_sv_lmm) (n : nat) : Prop :=
  length (lm_sigmas l) = n /\ length (lm_betas l) = n /\ corr_ok (libor_corr l) n /\ 0 < lm_lambda l /\ 0 < lm_eta l /\ 0 < lm_v0 l.
Lemma lmm_validate_iff l te : (lmm_validate l te = Ok tt <-> lmm_ok l (lt_n te)) /\ (lmm_validate l te = Ok tt \/ lmm_validate l te = Err EInvalidData).
Proof.
  unfold lmm_validate, lmm_ok. set (n := lt_n te).
  destruct (Nat.eqb_spec (length (lm_sigmas l)) n) as [A|A]; cbn [negb]; [|split; [split; [discriminate|tauto]|right; reflexivity]].
  destruct (Nat.eqb_spec (length (lm_betas l)) n) as [B|B]; cbn [negb]; [|split; [split; [discriminate|tauto]|right; reflexivity]].
  destruct (Nat.eqb_spec (length (libor_corr l)) n) as [D|D]; cbn [negb]; [|split; [split; [discriminate|intros (_ & _ & ((X & _) & _) & _); contradiction]|right; reflexivity]].
  destruct (check_corr_iff (libor_corr l) n D) as [I [E|E]]; rewrite E; cbn [obind].
  - destruct (Rle_dec (lm_lambda l) 0); [split; [split; [discriminate|intros (_ & _ & _ & X & _); exfalso; lra]|right; reflexivity]|].
    destruct (Rle_dec (lm_eta l) 0); [split; [split; [discriminate|intros (_ & _ & _ & _ & X & _); exfalso; lra]|right; reflexivity]|].
    destruct (Rle_dec (lm_v0 l) 0); [split; [split; [discriminate|intros (_ & _ & _ & _ & _ & X); exfalso; lra]|right; reflexivity]|].
    split; [|left; reflexivity]. split; [|reflexivity]. intros _. split; [exact A|]. split; [exact B|]. split; [apply I; exact E|]. lra.
  - split; [|right; reflexivity]. split; [discriminate|]. intros (_ & _ & X & _). apply I in X. rewrite E in X. discriminate.
Qed.

Definition xcorr_ok (c : hlmm_corr) (n : nat) : Prop :=
  Rabs (xi_sigma c) <= 1 + slack /\ length (xi_d c) = n /\ length (xi_f c) = n /\ square (cross_corr c) n /\
  (forall row r, In row (cross_corr c) -> In r row -> Rabs r <= 1 + slack) /\ (forall r, In r (xi_d c) \/ In r (xi_f c) -> Rabs r <= 1 + slack).
Lemma check_entries_iff l : (ofor check_entry l = Ok tt <-> forall r, In r l -> Rabs r <= 1 + slack) /\ (ofor check_entry l = Ok tt \/ ofor check_entry l = Err EInvalidData).
Proof.
  split.
  - rewrite ofor_ok. split; intros H r I; specialize (H r I); unfold check_entry in *; destruct (Rlt_dec _ _); try discriminate; try lra. reflexivity.
  - apply ofor_err. intros r _. unfold check_entry. destruct (Rlt_dec _ _); tauto.
Qed.
Lemma corr_validate_iff c te : (corr_validate c te = Ok tt <-> xcorr_ok c (lt_n te)) /\ (corr_validate c te = Ok tt \/ corr_validate c te = Err EInvalidData).
Proof.
  unfold corr_validate, xcorr_ok. set (n := lt_n te).
  destruct (Rlt_dec (1 + slack) (Rabs (xi_sigma c))) as [A|A]; [split; [split; [discriminate|intros (X & _); exfalso; lra]|right; reflexivity]|].
  destruct (Nat.eqb_spec (length (xi_d c)) n) as [B|B]; cbn [negb]; [|split; [split; [discriminate|tauto]|right; reflexivity]].
  destruct (Nat.eqb_spec (length (xi_f c)) n) as [D|D]; cbn [negb]; [|split; [split; [discriminate|tauto]|right; reflexivity]].
  destruct (Nat.eqb_spec (length (cross_corr c)) n) as [E|E]; cbn [negb]; [|split; [split; [discriminate|intros (_ & _ & _ & (X & _) & _); contradiction]|right; reflexivity]].
  set (rows := ofor _ (cross_corr c)).
  assert (RE : rows = Ok tt \/ rows = Err EInvalidData).
  { apply ofor_err. intros row _. destruct (length row =? n)%nat; cbn [negb]; [|right; reflexivity]. apply check_entries_iff. }
  assert (RI : rows = Ok tt <-> (forall row, In row (cross_corr c) -> length row = n) /\ (forall row r, In row (cross_corr c) -> In r row -> Rabs r <= 1 + slack)).
  { unfold rows. rewrite ofor_ok. split.
    - intros H. split.
      + intros row I. specialize (H row I). destruct (Nat.eqb_spec (length row) n); [assumption|discriminate].
      + intros row r I J. specialize (H row I). destruct (Nat.eqb_spec (length row) n); [|discriminate]. cbn [negb] in H. exact (proj1 (proj1 (check_entries_iff row)) H r J).
    - intros [H1 H2] row I. rewrite (proj2 (Nat.eqb_eq _ _) (H1 row I)). cbn [negb]. apply (proj2 (proj1 (check_entries_iff row))). intros r J. apply (H2 row r I J). }
  destruct RE as [RE|RE]; rewrite RE; cbn [obind].
  - destruct (check_entries_iff (xi_d c)) as [I1 [E1|E1]]; rewrite E1; cbn [obind].
    + destruct (check_entries_iff (xi_f c)) as [I2 O2]. split; [|exact O2]. rewrite I2. pose proof (proj1 RI RE) as [R1 R2]. pose proof (proj1 I1 E1) as Q1. split.
      * intros H. split; [lra|]. split; [exact B|]. split; [exact D|]. split; [split; assumption|]. split; [exact R2|]. intros r [J|J]; [apply Q1, J|apply H, J].
      * intros (_ & _ & _ & _ & _ & H) r J. apply H. right. exact J.
    + split; [|right; reflexivity]. split; [discriminate|]. intros (_ & _ & _ & _ & _ & H). assert (X : ofor check_entry (xi_d c) = Ok tt) by (apply I1; intros r J; apply H; left; exact J). rewrite E1 in X. discriminate.
  - split; [|right; reflexivity]. split; [discriminate|]. intros (_ & _ & _ & (_ & W) & H & _). assert (X : rows = Ok tt) by (apply RI; split; assumption). rewrite RE in X. discriminate.
Qed.

Definition hlmm_ok (p : hlmm) : Prop :=
  lmm_ok (hl_dom p) (lt_n (hl_tenor p)) /\ lmm_ok (hl_for p) (lt_n (hl_tenor p)) /\ xcorr_ok (hl_corr p) (lt_n (hl_tenor p)).
Lemma hlmm_validate_iff p : (hlmm_validate p = Ok tt <-> hlmm_ok p) /\ (hlmm_validate p = Ok tt \/ hlmm_validate p = Err EInvalidData).
Proof.
  unfold hlmm_validate, hlmm_ok. destruct (lmm_validate_iff (hl_dom p) (hl_tenor p)) as [I1 [E1|E1]]; rewrite E1; cbn [obind].
  2:{ split; [|right; reflexivity]. split; [discriminate|]. intros (X & _). apply I1 in X. congruence. }
  destruct (lmm_validate_iff (hl_for p) (hl_tenor p)) as [I2 [E2|E2]]; rewrite E2; cbn [obind].
  2:{ split; [|right; reflexivity]. split; [discriminate|]. intros (_ & X & _). apply I2 in X. congruence. }
  destruct (corr_validate_iff (hl_corr p) (hl_tenor p)) as [I3 O3]. split; [|exact O3]. rewrite I3. apply I1 in E1. apply I2 in E2. tauto.
Qed.
