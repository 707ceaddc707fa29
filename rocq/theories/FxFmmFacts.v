(** The cross-currency forward market model: what its checks accept, its coefficients in closed form, and how
    fast they move in time. *)
From Coq Require Import Bool List Arith Reals Psatz Lia.
Import ListNotations.
From Verif Require Import Outcome ForwardPoints VolSurface Processes ProcessFacts HullWhite Hlmm HlmmFacts FxFmm.
From Verif Require Fmm FmmFacts P_FmmStep P_Hlmm.
Open Scope R_scope.
Global Set Bullet Behavior "Strict Subproofs".

(** * The checks *)
Definition side_ok (s : fmm_side) (n : nat) : Prop :=
  length (fs_sigmas s) = n /\ corr_ok (fs_corr s) n /\ 0 < fs_lambda s /\ 0 < fs_eta s /\ 0 < fs_v0 s /\ forall x, In x (fs_sigmas s) -> 0 <= x.
Lemma side_validate_iff s te : (side_validate s te = Ok tt <-> side_ok s (Fmm.m_of te)) /\ (side_validate s te = Ok tt \/ side_validate s te = Err EInvalidData).
Proof.
  unfold side_validate, side_ok. set (n := Fmm.m_of te).
  destruct (Nat.eqb_spec (length (fs_sigmas s)) n) as [A|A]; cbn [negb]; [|split; [split; [discriminate|tauto]|right; reflexivity]].
  destruct (Nat.eqb_spec (length (fs_corr s)) n) as [D|D]; cbn [negb]; [|split; [split; [discriminate|intros (_ & ((X & _) & _) & _); contradiction]|right; reflexivity]].
  destruct (check_corr_iff (fs_corr s) n D) as [I [E|E]]; rewrite E; cbn [obind].
  - destruct (Rle_dec (fs_lambda s) 0); [split; [split; [discriminate|intros (_ & _ & X & _); exfalso; lra]|right; reflexivity]|].
    destruct (Rle_dec (fs_eta s) 0); [split; [split; [discriminate|intros (_ & _ & _ & X & _); exfalso; lra]|right; reflexivity]|].
    destruct (Rle_dec (fs_v0 s) 0); [split; [split; [discriminate|intros (_ & _ & _ & _ & X & _); exfalso; lra]|right; reflexivity]|].
    split.
    + rewrite ofor_ok. split.
      * intros H. split; [exact A|]. split; [apply I; exact E|]. split; [lra|]. split; [lra|]. split; [lra|]. intros x Hx. specialize (H x Hx). destruct (Rlt_dec x 0); [discriminate|lra].
      * intros (_ & _ & _ & _ & _ & H) x Hx. specialize (H x Hx). destruct (Rlt_dec x 0); [exfalso; lra|reflexivity].
    + apply ofor_err. intros x _. destruct (Rlt_dec x 0); tauto.
  - split; [|right; reflexivity]. split; [discriminate|]. intros (_ & X & _). apply I in X. rewrite E in X. discriminate.
Qed.

Definition fcorr_ok (c : fmm_corr) (n : nat) : Prop :=
  Rabs (fc_xi_sigma c) <= 1 + slack /\ length (fc_xi_d c) = n /\ length (fc_xi_f c) = n /\ length (fc_sigma_d c) = n /\ length (fc_sigma_f c) = n /\ square (fc_cross c) n /\
  (forall row r, In row (fc_cross c) -> In r row -> Rabs r <= 1 + slack) /\ (forall r, In r (fc_xi_d c ++ fc_xi_f c ++ fc_sigma_d c ++ fc_sigma_f c) -> Rabs r <= 1 + slack).
Lemma fcorr_validate_iff c te : (fmm_corr_validate c te = Ok tt <-> fcorr_ok c (Fmm.m_of te)) /\ (fmm_corr_validate c te = Ok tt \/ fmm_corr_validate c te = Err EInvalidData).
Proof.
  unfold fmm_corr_validate, fcorr_ok. set (n := Fmm.m_of te).
  destruct (Rlt_dec (1 + slack) (Rabs (fc_xi_sigma c))) as [A|A]; [split; [split; [discriminate|intros (X & _); exfalso; lra]|right; reflexivity]|].
  destruct (Nat.eqb_spec (length (fc_xi_d c)) n) as [B|B]; cbn [negb]; [|split; [split; [discriminate|tauto]|right; reflexivity]].
  destruct (Nat.eqb_spec (length (fc_xi_f c)) n) as [D|D]; cbn [negb]; [|split; [split; [discriminate|tauto]|right; reflexivity]].
  destruct (Nat.eqb_spec (length (fc_sigma_d c)) n) as [F|F]; cbn [negb]; [|split; [split; [discriminate|tauto]|right; reflexivity]].
  destruct (Nat.eqb_spec (length (fc_sigma_f c)) n) as [H|H]; cbn [negb]; [|split; [split; [discriminate|tauto]|right; reflexivity]].
  destruct (Nat.eqb_spec (length (fc_cross c)) n) as [E|E]; cbn [negb]; [|split; [split; [discriminate|intros (_ & _ & _ & _ & _ & (X & _) & _); contradiction]|right; reflexivity]].
  set (rows := ofor _ (fc_cross c)).
  assert (RE : rows = Ok tt \/ rows = Err EInvalidData).
  { apply ofor_err. intros row _. destruct (length row =? n)%nat; cbn [negb]; [|right; reflexivity]. apply check_entries_iff. }
  assert (RI : rows = Ok tt <-> (forall row, In row (fc_cross c) -> length row = n) /\ (forall row r, In row (fc_cross c) -> In r row -> Rabs r <= 1 + slack)).
  { unfold rows. rewrite ofor_ok. split.
    - intros Q. split.
      + intros row I. specialize (Q row I). destruct (Nat.eqb_spec (length row) n); [assumption|discriminate].
      + intros row r I J. specialize (Q row I). destruct (Nat.eqb_spec (length row) n); [|discriminate]. cbn [negb] in Q. exact (proj1 (proj1 (check_entries_iff row)) Q r J).
    - intros [H1 H2] row I. rewrite (proj2 (Nat.eqb_eq _ _) (H1 row I)). cbn [negb]. apply (proj2 (proj1 (check_entries_iff row))). intros r J. apply (H2 row r I J). }
  destruct RE as [RE|RE]; rewrite RE; cbn [obind].
  - destruct (check_entries_iff (fc_xi_d c ++ fc_xi_f c ++ fc_sigma_d c ++ fc_sigma_f c)) as [I1 O1]. split; [|exact O1]. rewrite I1. pose proof (proj1 RI RE) as [R1' R2']. split.
    + intros Q. split; [lra|]. do 4 (split; [assumption|]). split; [split; assumption|]. split; assumption.
    + tauto.
  - split; [|right; reflexivity]. split; [discriminate|]. intros (_ & _ & _ & _ & _ & (_ & W) & Q & _). assert (X : rows = Ok tt) by (apply RI; split; assumption). rewrite RE in X. discriminate.
Qed.

Definition fmm_ok (p : fx_fmm) : Prop :=
  let n := Fmm.m_of (fm_tenor p) in side_ok (fm_dom p) n /\ side_ok (fm_for p) n /\ fcorr_ok (fm_corr p) n.
Lemma fmm_validate_iff p : (fmm_validate p = Ok tt <-> fmm_ok p) /\ (fmm_validate p = Ok tt \/ fmm_validate p = Err EInvalidData).
Proof.
  unfold fmm_validate, fmm_ok. destruct (side_validate_iff (fm_dom p) (fm_tenor p)) as [I1 [E1|E1]]; rewrite E1; cbn [obind].
  2:{ split; [|right; reflexivity]. split; [discriminate|]. intros (X & _). apply I1 in X. congruence. }
  destruct (side_validate_iff (fm_for p) (fm_tenor p)) as [I2 [E2|E2]]; rewrite E2; cbn [obind].
  2:{ split; [|right; reflexivity]. split; [discriminate|]. intros (_ & X & _). apply I2 in X. congruence. }
  destruct (fcorr_validate_iff (fm_corr p) (fm_tenor p)) as [I3 O3]. split; [|exact O3]. rewrite I3. apply I1 in E1. apply I2 in E2. tauto.
Qed.

(** * The coefficients *)
(** the coefficient of rate [j] in its bond, frozen at the initial rate *)
Definition weight (te : Fmm.fmm_tenor) (s : fmm_side) (j : nat) : R :=
  let tau := Fmm.date_at te j - Fmm.date_at te (j - 1) in
  tau * nth (j - 1) (fs_sigmas s) 0 / (1 + tau * nth (j - 1) (Fmm.initial_rates te) 0).
(** and decayed to time [t] *)
Definition decayed (te : Fmm.fmm_tenor) (s : fmm_side) (t : R) (j : nat) : R := weight te s j * Fmm.gamma j t te.

Lemma psi_base_ok s te : length (fs_sigmas s) = Fmm.m_of te -> psi_base s te = Ok (map (fun idx => weight te s (idx + 1)) (seq 0 (Fmm.m_of te))).
Proof.
  intros L. apply omapM_map. intros j Hj. apply in_seq in Hj. rewrite !oindex_ok by (unfold Fmm.m_of in *; lia). cbn [obind].
  unfold weight, Fmm.tau. replace (j + 1 - 1)%nat with j by lia. reflexivity.
Qed.
Lemma psi_at_ok s te t : length (fs_sigmas s) = Fmm.m_of te -> psi_at s te t = Ok (map (fun idx => decayed te s t (idx + 1)) (seq 0 (Fmm.m_of te))).
Proof.
  intros L. unfold psi_at. rewrite (psi_base_ok s te L). cbn [obind]. apply omapM_map. intros j Hj. apply in_seq in Hj.
  rewrite oindex_ok by (rewrite map_length, seq_length; lia). cbn [obind]. rewrite nth_map_seq by lia. reflexivity.
Qed.
Definition a_of (te : Fmm.fmm_tenor) (s : fmm_side) (k : nat) (t : R) : R :=
  P_Hlmm.form (Fmm.m_of te) k (completed (fs_corr s)) (decayed te s t) (decayed te s t).
Lemma a_side_ok s te t k : side_ok s (Fmm.m_of te) -> (1 <= k)%nat -> fmm_a_side s te t k = Ok (a_of te s k t).
Proof.
  intros (L & (Sq & _) & _) K. unfold fmm_a_side. rewrite (psi_at_ok s te t L). cbn [obind]. rewrite quadratic_ok; [|rewrite map_length, seq_length; reflexivity|exact Sq|exact K].
  apply f_equal. unfold a_of, P_Hlmm.form. apply sum_on_ext. intros i Hi. apply in_from_to in Hi. apply sum_on_ext. intros j Hj. apply in_from_to in Hj.
  rewrite !nth_map_seq by lia. replace (i - 1 + 1)%nat with i by lia. replace (j - 1 + 1)%nat with j by lia. reflexivity.
Qed.
(** the mixed terms from [k], given the means of the three square roots *)
Definition f_of (p : fx_fmm) (k : nat) (t a b c : R) : R :=
  let n := Fmm.m_of (fm_tenor p) in let pd := decayed (fm_tenor p) (fm_dom p) t in let pf := decayed (fm_tenor p) (fm_for p) t in
  2 * a * b * sum_on (from_to k n) (fun j => pd j * nth (j - 1) (fc_xi_d (fm_corr p)) 0)
  - 2 * a * c * sum_on (from_to k n) (fun j => pf j * nth (j - 1) (fc_xi_f (fm_corr p)) 0)
  - 2 * b * c * P_Hlmm.form n k (el (fc_cross (fm_corr p))) pd pf.
Lemma cross_ok p t k a b c : fmm_ok p -> (1 <= k)%nat ->
  cross_terms (map (fun idx => decayed (fm_tenor p) (fm_dom p) t (idx + 1)) (seq 0 (Fmm.m_of (fm_tenor p)))) (map (fun idx => decayed (fm_tenor p) (fm_for p) t (idx + 1)) (seq 0 (Fmm.m_of (fm_tenor p))))
    (fc_xi_d (fm_corr p)) (fc_xi_f (fm_corr p)) (fc_cross (fm_corr p)) (Fmm.m_of (fm_tenor p)) k a b c = Ok (f_of p k t a b c).
Proof.
  intros (_ & _ & (_ & Lxd & Lxf & _ & _ & Sc & _)) K. set (n := Fmm.m_of (fm_tenor p)) in *.
  rewrite cross_terms_ok by (rewrite ?map_length, ?seq_length; assumption || reflexivity).
  apply f_equal. unfold f_of. fold n.
  set (pd := decayed (fm_tenor p) (fm_dom p) t). set (pf := decayed (fm_tenor p) (fm_for p) t).
  assert (E : forall q j, (1 <= j <= n)%nat -> nth (j - 1) (map (fun idx => q (idx + 1)%nat) (seq 0 n)) 0 = q j).
  { intros q j Hj. rewrite (nth_map_seq (fun idx => q (idx + 1)%nat)) by lia. cbv beta. replace (j - 1 + 1)%nat with j by lia. reflexivity. }
  assert (A1 : sum_on (from_to k n) (fun j => nth (j - 1) (map (fun idx => pd (idx + 1)%nat) (seq 0 n)) 0 * nth (j - 1) (fc_xi_d (fm_corr p)) 0) = sum_on (from_to k n) (fun j => pd j * nth (j - 1) (fc_xi_d (fm_corr p)) 0)).
  { apply sum_on_ext. intros j Hj. apply in_from_to in Hj. rewrite E by lia. reflexivity. }
  assert (A2 : sum_on (from_to k n) (fun j => nth (j - 1) (map (fun idx => pf (idx + 1)%nat) (seq 0 n)) 0 * nth (j - 1) (fc_xi_f (fm_corr p)) 0) = sum_on (from_to k n) (fun j => pf j * nth (j - 1) (fc_xi_f (fm_corr p)) 0)).
  { apply sum_on_ext. intros j Hj. apply in_from_to in Hj. rewrite E by lia. reflexivity. }
  assert (A3 : sum_on (from_to k n) (fun j => sum_on (from_to k n) (fun i => nth (j - 1) (map (fun idx => pd (idx + 1)%nat) (seq 0 n)) 0 * nth (i - 1) (map (fun idx => pf (idx + 1)%nat) (seq 0 n)) 0 * el (fc_cross (fm_corr p)) (j - 1) (i - 1))) = P_Hlmm.form n k (el (fc_cross (fm_corr p))) pd pf).
  { unfold P_Hlmm.form. apply sum_on_ext. intros j Hj. apply in_from_to in Hj. apply sum_on_ext. intros i Hi. apply in_from_to in Hi. rewrite !E by lia. reflexivity. }
  rewrite A1, A2, A3. reflexivity.
Qed.
Lemma f_ok lg p t k a b c : fmm_ok p -> (1 <= k)%nat ->
  sqrt_mean lg (fm_heston p) t = Ok a -> sqrt_mean lg (fmm_cir (fm_dom p)) t = Ok b -> sqrt_mean lg (fmm_cir (fm_for p)) t = Ok c ->
  fmm_f lg p t k = Ok (f_of p k t a b c).
Proof.
  intros V K E1 E2 E3. pose proof V as ((Ld & _) & (Lf & _) & _). unfold fmm_f. rewrite (psi_at_ok _ _ t Ld), (psi_at_ok _ _ t Lf). cbn [obind].
  rewrite E1. cbn [obind]. rewrite E2. cbn [obind]. rewrite E3. cbn [obind]. apply cross_ok; assumption.
Qed.

(** rates whose period is over have no coefficient, so the first index is immaterial up to the running period *)
Lemma sum_drop k n (f : nat -> R) : (1 <= k)%nat -> (forall j, (1 <= j < k)%nat -> (j <= n)%nat -> f j = 0) -> sum_on (from_to k n) f = sum_on (from_to 1 n) f.
Proof.
  intros K Z. induction k as [|k IH]; [lia|]. destruct (Nat.eq_dec k 0) as [->|K0]; [reflexivity|].
  rewrite <- IH by (try lia; intros j Hj; apply Z; lia).
  destruct (le_lt_dec k n) as [L|L].
  - rewrite (from_to_cons k n) by exact L. rewrite sum_on_cons. replace (k + 1)%nat with (S k) by lia. rewrite (Z k) by lia. ring.
  - rewrite !from_to_nil by lia. reflexivity.
Qed.
Lemma form_drop n k c y z : (1 <= k)%nat -> (forall j, (1 <= j < k)%nat -> (j <= n)%nat -> y j = 0 /\ z j = 0) -> P_Hlmm.form n k c y z = P_Hlmm.form n 1 c y z.
Proof.
  intros K Z. unfold P_Hlmm.form. rewrite <- (sum_drop k n (fun i => sum_on (from_to 1 n) (fun j => y i * z j * c (i - 1)%nat (j - 1)%nat))).
  - apply sum_on_ext. intros i _. apply (sum_drop k n (fun j => y i * z j * c (i - 1)%nat (j - 1)%nat) K). intros j H1 H2. rewrite (proj2 (Z j H1 H2)). ring.
  - exact K.
  - intros j H1 H2. rewrite (proj1 (Z j H1 H2)). rewrite (sum_on_ext _ _ (fun _ => 0 * 0)) by (intros; ring). rewrite sum_on_scal. ring.
Qed.
Lemma decayed_past te s t j : FmmFacts.good_tenor te -> (1 <= j <= Fmm.m_of te)%nat -> Fmm.date_at te j <= t -> decayed te s t j = 0.
Proof. intros G J H. unfold decayed. rewrite (FmmFacts.gamma_after te G) by assumption. ring. Qed.
Definition elapsed (te : Fmm.fmm_tenor) (k : nat) (t : R) : Prop := forall j, (1 <= j < k)%nat -> (j <= Fmm.m_of te)%nat -> Fmm.date_at te j <= t.
Lemma a_of_drop te s k t : FmmFacts.good_tenor te -> (1 <= k)%nat -> elapsed te k t -> a_of te s k t = a_of te s 1 t.
Proof. intros G K H. apply form_drop; [exact K|]. intros j H1 H2. rewrite (decayed_past te s t j G) by (lia || apply H; assumption). split; reflexivity. Qed.
Lemma f_of_drop p k t a b c : FmmFacts.good_tenor (fm_tenor p) -> (1 <= k)%nat -> elapsed (fm_tenor p) k t -> f_of p k t a b c = f_of p 1 t a b c.
Proof.
  intros G K H. unfold f_of.
  assert (Z : forall s j, (1 <= j < k)%nat -> (j <= Fmm.m_of (fm_tenor p))%nat -> decayed (fm_tenor p) s t j = 0).
  { intros s j H1 H2. apply decayed_past; [exact G|lia|apply H; assumption]. }
  rewrite (form_drop _ k) by (exact K || (intros j H1 H2; rewrite !Z by assumption; split; reflexivity)).
  rewrite (sum_drop k _ (fun j => decayed (fm_tenor p) (fm_dom p) t j * nth (j - 1) (fc_xi_d (fm_corr p)) 0) K) by (intros j H1 H2; rewrite Z by assumption; ring).
  rewrite (sum_drop k _ (fun j => decayed (fm_tenor p) (fm_for p) t j * nth (j - 1) (fc_xi_f (fm_corr p)) 0) K) by (intros j H1 H2; rewrite Z by assumption; ring).
  reflexivity.
Qed.
Lemma elapsed_eta te t k : (k <= Fmm.eta te t)%nat -> elapsed te k t.
Proof.
  intros H j J1 J2. destruct (FmmFacts.eta_cases te t) as [(A & B & C)|[A B]].
  - left. apply C. lia.
  - left. apply B. lia.
Qed.
Lemma a_of_end te s k t : FmmFacts.good_tenor te -> (1 <= k)%nat -> Fmm.date_at te (Fmm.m_of te) <= t -> a_of te s k t = 0.
Proof.
  intros G K H. unfold a_of, P_Hlmm.form. transitivity (sum_on (from_to k (Fmm.m_of te)) (fun _ => 0 * 0)).
  - apply sum_on_ext. intros i Hi. apply in_from_to in Hi. rewrite (decayed_past te s t i G).
    + rewrite (sum_on_ext _ _ (fun _ => 0 * 0)) by (intros; ring). rewrite sum_on_scal. ring.
    + lia.
    + pose proof (FmmFacts.dates_le te G i (Fmm.m_of te) ltac:(lia)). lra.
  - rewrite sum_on_scal. ring.
Qed.

(** * How fast they move *)
Definition steady (f : R -> R) : Prop := exists B L, 0 <= B /\ 0 <= L /\ (forall u, Rabs (f u) <= B) /\ forall u v, Rabs (f u - f v) <= L * Rabs (u - v).
Lemma steady_const c : steady (fun _ => c).
Proof.
  exists (Rabs c), 0. split; [apply Rabs_pos|]. split; [lra|]. split; [intros; lra|]. intros u v. replace (c - c) with 0 by ring. rewrite Rabs_R0. lra.
Qed.
Lemma steady_plus f g : steady f -> steady g -> steady (fun u => f u + g u).
Proof.
  intros (B1 & L1 & P1 & Q1 & H1 & K1) (B2 & L2 & P2 & Q2 & H2 & K2). exists (B1 + B2), (L1 + L2). split; [lra|]. split; [lra|]. split.
  - intros u. eapply Rle_trans; [apply Rabs_triang|]. specialize (H1 u). specialize (H2 u). lra.
  - intros u v. replace (f u + g u - (f v + g v)) with ((f u - f v) + (g u - g v)) by ring. eapply Rle_trans; [apply Rabs_triang|]. specialize (K1 u v). specialize (K2 u v). lra.
Qed.
Lemma steady_mult f g : steady f -> steady g -> steady (fun u => f u * g u).
Proof.
  intros (B1 & L1 & P1 & Q1 & H1 & K1) (B2 & L2 & P2 & Q2 & H2 & K2). exists (B1 * B2), (B1 * L2 + B2 * L1).
  split; [apply Rmult_le_pos; assumption|]. split; [apply Rplus_le_le_0_compat; apply Rmult_le_pos; assumption|]. split.
  - intros u. rewrite Rabs_mult. apply Rmult_le_compat; try apply Rabs_pos; [apply H1|apply H2].
  - intros u v. replace (f u * g u - f v * g v) with (f u * (g u - g v) + g v * (f u - f v)) by ring. eapply Rle_trans; [apply Rabs_triang|]. rewrite !Rabs_mult.
    assert (Rabs (f u) * Rabs (g u - g v) <= B1 * (L2 * Rabs (u - v))) by (apply Rmult_le_compat; try apply Rabs_pos; [apply H1|apply K2]).
    assert (Rabs (g v) * Rabs (f u - f v) <= B2 * (L1 * Rabs (u - v))) by (apply Rmult_le_compat; try apply Rabs_pos; [apply H2|apply K1]). lra.
Qed.
Lemma steady_sum (l : list nat) (f : nat -> R -> R) : (forall i, In i l -> steady (f i)) -> steady (fun u => sum_on l (fun i => f i u)).
Proof.
  induction l as [|i l IH]; intros H.
  - exact (steady_const 0).
  - destruct (steady_plus (f i) (fun u => sum_on l (fun j => f j u)) (H i (or_introl eq_refl)) (IH (fun j J => H j (or_intror J)))) as (B & L & A1 & A2 & A3 & A4).
    exists B, L. split; [exact A1|]. split; [exact A2|]. split; intros; rewrite !sum_on_cons; [apply A3|apply A4].
Qed.
Lemma steady_decayed te s j : FmmFacts.good_tenor te -> (1 <= j <= Fmm.m_of te)%nat -> steady (fun t => decayed te s t j).
Proof.
  intros G J. destruct (P_FmmStep.C76_decay te j G J) as (A & B & C & D & _). pose proof (FmmFacts.dates_lt te G (j - 1) j ltac:(lia)) as DL.
  set (x := Fmm.date_at te (j - 1)) in *. set (y := Fmm.date_at te j) in *. unfold decayed. apply steady_mult; [apply steady_const|].
  exists 1, (/ (y - x)). split; [lra|]. split; [left; apply Rinv_0_lt_compat; lra|]. split.
  - intros u. assert (0 <= Fmm.gamma j u te <= 1).
    { destruct (Rle_dec u x) as [H|H]; [rewrite (A u H); lra|]. destruct (Rle_dec y u) as [K|K]; [rewrite (B u K); lra|].
      pose proof (D x u ltac:(lra)) as [D1 _]. pose proof (D u y ltac:(lra)) as [D2 _]. rewrite (A x ltac:(lra)) in D1. rewrite (B y ltac:(lra)) in D2. lra. }
    rewrite Rabs_pos_eq; lra.
  - intros u v. destruct (Rle_dec u v) as [H|H].
    + destruct (D u v H) as [D1 D2]. rewrite Rabs_pos_eq by exact D1. rewrite (Rabs_minus_sym u v), (Rabs_pos_eq (v - u)) by lra. unfold Rdiv in D2. lra.
    + destruct (D v u ltac:(lra)) as [D1 D2]. rewrite Rabs_minus_sym. rewrite Rabs_pos_eq by exact D1. rewrite (Rabs_pos_eq (u - v)) by lra. unfold Rdiv in D2. lra.
Qed.
Lemma steady_form te s s' n k c : FmmFacts.good_tenor te -> (1 <= k)%nat -> (n <= Fmm.m_of te)%nat -> steady (fun t => P_Hlmm.form n k c (decayed te s t) (decayed te s' t)).
Proof.
  intros G K N. unfold P_Hlmm.form. apply (steady_sum (from_to k n) (fun i t => sum_on (from_to k n) (fun j => decayed te s t i * decayed te s' t j * c (i - 1)%nat (j - 1)%nat))).
  intros i Hi. apply in_from_to in Hi. apply (steady_sum (from_to k n) (fun j t => decayed te s t i * decayed te s' t j * c (i - 1)%nat (j - 1)%nat)).
  intros j Hj. apply in_from_to in Hj. apply steady_mult; [apply steady_mult; apply steady_decayed; (exact G || lia)|apply steady_const].
Qed.
Lemma steady_a te s k : FmmFacts.good_tenor te -> (1 <= k)%nat -> steady (a_of te s k).
Proof. intros G K. apply steady_form; (assumption || lia). Qed.
