(** C82: the tenor, the checks and the frozen coefficients of the cross-currency Libor market model *)
From Coq Require Import Bool List Arith Reals Psatz Lia.
Import ListNotations.
From Verif Require Import Outcome ForwardPoints VolSurface Processes ProcessFacts HullWhite Hlmm HlmmFacts.
From Verif Require Hhw1Facts.
Open Scope R_scope.
Global Set Bullet Behavior "Strict Subproofs".

(** A tenor is accepted exactly when it has one date more than it has rates, starts no earlier than today and
    its dates increase; anything else is an assertion failure, never an index out of range. *)
Theorem C82_tenor : forall ds ls,
  (length ds = S (length ls) /\ 0 <= nth 0 ds 0 /\ (forall i j, (i < j < length ds)%nat -> nth i ds 0 < nth j ds 0) ->
   libor_tenor_new ds ls = Ok {| lt_dates := ds; libors := ls |}) /\
  (~ (length ds = S (length ls) /\ 0 <= nth 0 ds 0 /\ (forall i j, (i < j < length ds)%nat -> nth i ds 0 < nth j ds 0)) ->
   libor_tenor_new ds ls = Panic PAssert).
Proof.
  intros ds ls. split.
  - intros (L & Z & M). apply tenor_new_iff. split; [reflexivity|]. unfold good, lt_n, date_k. cbn [lt_dates libors].
    split; [lia|]. split; [exact Z|]. intros i j H. apply M. lia.
  - intros N. destruct (libor_tenor_new ds ls) as [te|e|q] eqn:E.
    + exfalso. apply N. apply tenor_new_iff in E as [-> (L & Z & M)]. unfold lt_n, date_k in *. cbn [lt_dates libors] in *.
      split; [lia|]. split; [exact Z|]. intros i j H. apply M. lia.
    + exfalso. revert E. unfold libor_tenor_new. destruct (Nat.eqb_spec (length ds) (length ls + 1)); [|discriminate]. cbn [negb]. rewrite oindex_ok by lia. cbn [obind].
      destruct (Rle_dec _ _); [|discriminate]. cbn [negb]. destruct (dates_increase ds); discriminate.
    + revert E. unfold libor_tenor_new. destruct (Nat.eqb_spec (length ds) (length ls + 1)); [|cbn [negb]; congruence]. cbn [negb]. rewrite oindex_ok by lia. cbn [obind].
      destruct (Rle_dec _ _); [|cbn [negb]; congruence]. cbn [negb]. destruct (dates_increase ds); cbn [negb]; congruence.
Qed.

(** [m(t)] is the first tenor date not passed, the last one after the end, and the active Libors are those
    whose fixing date is not passed. *)
Theorem C82_active : forall ds ls te t, libor_tenor_new ds ls = Ok te ->
  let n := length ls in
  (lt_m te t <= n)%nat /\
  (forall i, (i < lt_m te t)%nat -> nth i ds 0 < t) /\
  (t <= nth n ds 0 -> t <= nth (lt_m te t) ds 0) /\
  (nth n ds 0 < t -> lt_m te t = n) /\
  (forall j, In j (lt_active te t) <-> (1 <= j <= n)%nat /\ t <= nth (j - 1) ds 0) /\
  NoDup (lt_active te t).
Proof.
  intros ds ls te t H n. apply tenor_new_iff in H as [-> G]. destruct (m_spec _ t G) as (A & B & D). set (te := {| lt_dates := ds; libors := ls |}) in *.
  change (lt_n te) with n in *. change (date_k te) with (fun k => nth k ds 0) in *. cbv beta in *.
  assert (M : forall i j, (i < j <= n)%nat -> nth i ds 0 < nth j ds 0) by apply G.
  split; [exact A|]. split; [exact B|]. split; [intros H; destruct D as [D|[D1 D2]]; [exact D|exfalso; lra]|]. split.
  - intros H. destruct D as [D|[D1 D2]]; [|exact D1]. destruct (Nat.eq_dec (lt_m te t) n) as [E|E]; [exact E|]. pose proof (M (lt_m te t) n ltac:(lia)). exfalso; lra.
  - split.
    + intros j. unfold lt_active. rewrite in_from_to. change (lt_n te) with n. split.
      * intros H. split; [lia|]. destruct D as [D|[D1 D2]]; [|lia]. destruct (Nat.eq_dec (j - 1) (lt_m te t)) as [->|E]; [exact D|]. pose proof (M (lt_m te t) (j - 1)%nat ltac:(lia)). lra.
      * intros [H1 H2]. split; [|lia]. destruct (le_lt_dec (lt_m te t) (j - 1)) as [L|L]; [lia|]. pose proof (B _ L). exfalso; lra.
    + apply seq_NoDup.
Qed.

Theorem C82_accrual : forall ds ls te k, libor_tenor_new ds ls = Ok te ->
  ((1 <= k <= length ls)%nat -> lt_tau te k = Ok (nth k ds 0 - nth (k - 1) ds 0) /\ 0 < nth k ds 0 - nth (k - 1) ds 0) /\
  (~ (1 <= k <= length ls)%nat -> lt_tau te k = Panic PAssert).
Proof.
  intros ds ls te k H. apply tenor_new_iff in H as [-> G]. split.
  - intros K. split; [apply (tau_ok _ k G); exact K|]. destruct G as (_ & _ & M). pose proof (M (k - 1)%nat k ltac:(unfold lt_n; cbn [libors]; lia)) as Q. unfold date_k in Q. cbn [lt_dates] in Q. lra.
  - intros N. unfold lt_tau, lt_n. cbn [libors]. destruct (Nat.leb_spec 1 k), (Nat.leb_spec k (length ls)); try reflexivity. exfalso. apply N. lia.
Qed.

(** The checks accept exactly the sets of the documented shape, up to their slack of [1e-12], and only ever
    return an error. *)
Theorem C82_validate : forall p, let n := length (libors (hl_tenor p)) in
  let matrix m := length m = n /\ forall row, In row m -> length row = n in
  let at_ (m : list (list R)) i j := nth j (nth i m []) 0 in
  let side l := length (lm_sigmas l) = n /\ length (lm_betas l) = n /\ matrix (libor_corr l) /\
    (forall i, (i < n)%nat -> Rabs (at_ (libor_corr l) i i - 1) <= / 10 ^ 12) /\
    (forall i j, (i < n)%nat -> (j < n)%nat -> Rabs (at_ (libor_corr l) i j - at_ (libor_corr l) j i) <= / 10 ^ 12 /\ Rabs (at_ (libor_corr l) i j) <= 1 + / 10 ^ 12) /\
    0 < lm_lambda l /\ 0 < lm_eta l /\ 0 < lm_v0 l in
  let c := hl_corr p in
  (hlmm_validate p = Ok tt <->
   side (hl_dom p) /\ side (hl_for p) /\
   Rabs (xi_sigma c) <= 1 + / 10 ^ 12 /\ length (xi_d c) = n /\ length (xi_f c) = n /\ matrix (cross_corr c) /\
   (forall row r, In row (cross_corr c) -> In r row -> Rabs r <= 1 + / 10 ^ 12) /\
   (forall r, In r (xi_d c) \/ In r (xi_f c) -> Rabs r <= 1 + / 10 ^ 12)) /\
  (hlmm_validate p <> Ok tt -> hlmm_validate p = Err EInvalidData).
Proof.
  intros p n matrix at_ side c. destruct (hlmm_validate_iff p) as [I O]. split.
  - rewrite I. unfold hlmm_ok, lmm_ok, corr_ok, xcorr_ok, close, square, el. fold slack. unfold side, matrix, at_, c, lt_n. fold n. fold slack. tauto.
  - intros N. destruct O as [O|O]; [contradiction|exact O].
Qed.

(** The frozen coefficients, and their bound by the volatilities when the rates are not negative. *)
Theorem C82_psi : forall ds ls te l, libor_tenor_new ds ls = Ok te -> lmm_validate l te = Ok tt ->
  exists psi, lmm_psi l te = Ok psi /\ length psi = length ls /\
  forall j, (j < length ls)%nat ->
    let tau := nth (S j) ds 0 - nth j ds 0 in let r := nth j ls 0 in let s := nth j (lm_sigmas l) 0 in
    (1 + tau * r <> 0 -> nth j psi 0 * (1 + tau * r) = tau * s * r) /\
    (0 <= r -> 0 <= s -> 0 <= nth j psi 0 <= s * (tau * r)) /\
    (0 <= r -> 0 < s -> nth j psi 0 < s).
Proof.
  intros ds ls te l H V. apply tenor_new_iff in H as [-> G]. set (te := {| lt_dates := ds; libors := ls |}) in *.
  apply (proj1 (lmm_validate_iff l te)) in V as (L & _). exists (map (psi_k te l) (seq 0 (lt_n te))).
  split; [apply psi_ok; assumption|]. split; [rewrite map_length, seq_length; reflexivity|].
  intros j Hj tau r s. rewrite nth_map_seq by exact Hj. unfold psi_k. replace (j + 1)%nat with (S j) by lia.
  change (date_k te (S j) - date_k te j) with tau. change (nth j (libors te) 0) with r. fold s.
  assert (T : 0 < tau). { destruct G as (_ & _ & M). pose proof (M j (S j) ltac:(unfold lt_n; cbn [libors te]; lia)) as Q. change (nth j ds 0 < nth (S j) ds 0) in Q. unfold tau. lra. }
  split; [intros N; field; exact N|]. split.
  - intros R0 S0. assert (0 <= tau * r) by (apply Rmult_le_pos; lra). assert (0 <= s * (tau * r)) by (apply Rmult_le_pos; assumption).
    assert (I1 : 0 < / (1 + tau * r)) by (apply Rinv_0_lt_compat; lra). assert (I2 : / (1 + tau * r) <= 1) by (rewrite <- Rinv_1; apply Rinv_le_contravar; lra).
    replace (tau * s * r / (1 + tau * r)) with (s * (tau * r) * / (1 + tau * r)) by (unfold Rdiv; ring). split; nra.
  - intros R0 S0. assert (0 <= tau * r) by (apply Rmult_le_pos; lra). apply (Rmult_lt_reg_r (1 + tau * r)); [lra|].
    replace (tau * s * r / (1 + tau * r) * (1 + tau * r)) with (s * (tau * r)) by (field; lra). nra.
Qed.

(** The displacements are read by no coefficient: the model priced is the one without them. *)
Theorem C82_displacement : forall lg p bd bf t s,
  let with_betas l b := {| lm_sigmas := lm_sigmas l; lm_betas := b; lm_lambda := lm_lambda l; lm_eta := lm_eta l; lm_v0 := lm_v0 l; libor_corr := libor_corr l |} in
  let p' := {| hl_fx0 := hl_fx0 p; hl_heston := hl_heston p; hl_tenor := hl_tenor p; hl_dom := with_betas (hl_dom p) bd; hl_for := with_betas (hl_for p) bf; hl_corr := hl_corr p |} in
  hlmm_a_d p' s = hlmm_a_d p s /\ hlmm_a_f p' s = hlmm_a_f p s /\ hlmm_f lg p' t s = hlmm_f lg p t s.
Proof. intros. repeat split; reflexivity. Qed.

(** * The coefficients of the variance of the forward *)

(** [sum_on (from_to s n) g] adds [g] over the indices [s] to [n]; the [completed] matrix has a unit diagonal
    and repeats the entries above it below. *)
Definition form (n s : nat) (c : nat -> nat -> R) (y z : nat -> R) : R :=
  sum_on (from_to s n) (fun i => sum_on (from_to s n) (fun j => y i * z j * c (i - 1)%nat (j - 1)%nat)).

Lemma form_scal n s c y z a b : form n s c (fun i => a * y i) (fun i => b * z i) = a * b * form n s c y z.
Proof.
  unfold form. rewrite <- sum_on_scal. apply sum_on_ext. intros i _. rewrite <- sum_on_scal. apply sum_on_ext. intros j _. ring.
Qed.
Lemma form_ext n s c y z y' z' : (forall i, (s <= i <= n)%nat -> y i = y' i /\ z i = z' i) -> form n s c y z = form n s c y' z'.
Proof.
  intros H. unfold form. apply sum_on_ext. intros i Hi. apply in_from_to in Hi. apply sum_on_ext. intros j Hj. apply in_from_to in Hj.
  rewrite (proj1 (H i Hi)), (proj2 (H j Hj)). reflexivity.
Qed.

(** the frozen coefficient of rate [j] *)
Definition frozen (te : libor_tenor) (l : dd_sv_lmm) (j : nat) : R :=
  let tau := nth j (lt_dates te) 0 - nth (j - 1) (lt_dates te) 0 in
  tau * nth (j - 1) (lm_sigmas l) 0 * nth (j - 1) (libors te) 0 / (1 + tau * nth (j - 1) (libors te) 0).
Lemma frozen_psi te l j : (1 <= j)%nat -> psi_k te l (j - 1) = frozen te l j.
Proof. intros H. unfold psi_k, frozen, date_k. replace (j - 1 + 1)%nat with j by lia. reflexivity. Qed.

(** Each side's coefficient is the quadratic form of its frozen coefficients over the Libors that are still
    open.  It is not negative when the correlation matrix is positive. *)
Theorem C82_sides : forall ds ls te l s, libor_tenor_new ds ls = Ok te -> lmm_validate l te = Ok tt -> (1 <= s)%nat ->
  hlmm_a_side l te s = Ok (form (length ls) s (completed (libor_corr l)) (frozen te l) (frozen te l)) /\
  ((forall y, 0 <= form (length ls) s (completed (libor_corr l)) y y) -> exists a, hlmm_a_side l te s = Ok a /\ 0 <= a) /\
  (forall i j, (i < length ls)%nat -> (j < length ls)%nat -> Rabs (completed (libor_corr l) i j - nth j (nth i (libor_corr l) []) 0) <= / 10 ^ 12) /\
  ((length ls < s)%nat -> hlmm_a_side l te s = Ok 0).
Proof.
  intros ds ls te l s H V S1. apply tenor_new_iff in H as [-> G]. set (te := {| lt_dates := ds; libors := ls |}) in *.
  apply (proj1 (lmm_validate_iff l te)) in V as (L & _ & (Sq & D & Sy) & _).
  assert (E : hlmm_a_side l te s = Ok (form (length ls) s (completed (libor_corr l)) (frozen te l) (frozen te l))).
  { unfold hlmm_a_side. rewrite (psi_ok te l G L). cbn [obind]. rewrite quadratic_ok; [|rewrite map_length, seq_length; reflexivity|exact Sq|exact S1].
    apply f_equal. unfold form. apply sum_on_ext. intros i Hi. apply in_from_to in Hi. apply sum_on_ext. intros j Hj. apply in_from_to in Hj.
    change (lt_n te) with (length ls) in *. rewrite !nth_map_seq by lia. rewrite !frozen_psi by lia. reflexivity. }
  split; [exact E|]. split; [intros P; eexists; split; [exact E|apply P]|]. split.
  - change (lt_n te) with (length ls) in *. intros i j Hi Hj. fold slack. unfold completed. change (nth j (nth i (libor_corr l) []) 0) with (el (libor_corr l) i j). destruct (Nat.eqb_spec i j) as [->|N].
    + rewrite Rabs_minus_sym. apply D. exact Hj.
    + destruct (Nat.ltb_spec i j).
      * replace (el (libor_corr l) i j - el (libor_corr l) i j) with 0 by ring. rewrite Rabs_R0. apply Rlt_le, slack_pos.
      * apply (Sy j i Hj Hi).
  - intros Q. rewrite E. unfold form. rewrite from_to_nil by exact Q. reflexivity.
Qed.

(** The variance of [x dW + sum y_j dW^d_j + sum z_j dW^f_j] per unit of time, from the correlations. *)
Definition block_variance (p : hlmm) (s : nat) (x : R) (y z : nat -> R) : R :=
  let n := length (libors (hl_tenor p)) in
  x * x + form n s (completed (libor_corr (hl_dom p))) y y + form n s (completed (libor_corr (hl_for p))) z z
  + 2 * sum_on (from_to s n) (fun j => x * y j * nth (j - 1) (xi_d (hl_corr p)) 0)
  + 2 * sum_on (from_to s n) (fun j => x * z j * nth (j - 1) (xi_f (hl_corr p)) 0)
  + 2 * form n s (fun i j => nth j (nth i (cross_corr (hl_corr p)) []) 0) y z.

(** With the square roots replaced by their means, the variance, both sides' terms and the code's [f] add up
    to the variance of the log-forward, whose foreign rates enter with a minus sign.  So the sum is not
    negative when the whole correlation block is positive. *)
Theorem C82_variance : forall lg p ds ls t s, libor_tenor_new ds ls = Ok (hl_tenor p) -> hlmm_validate p = Ok tt -> (1 <= s)%nat -> 0 < kappa (hl_heston p) ->
  exists phi_xi phi_d phi_f a_d a_f f,
    sqrt_mean lg (hl_heston p) t = Ok phi_xi /\
    sqrt_mean lg (side_cir (lm_lambda (hl_dom p)) (lm_eta (hl_dom p)) (lm_v0 (hl_dom p))) t = Ok phi_d /\
    sqrt_mean lg (side_cir (lm_lambda (hl_for p)) (lm_eta (hl_for p)) (lm_v0 (hl_for p))) t = Ok phi_f /\
    hlmm_a_d p s = Ok a_d /\ hlmm_a_f p s = Ok a_f /\ hlmm_f lg p t s = Ok f /\
    phi_xi * phi_xi + a_d * (phi_d * phi_d) + a_f * (phi_f * phi_f) + f
      = block_variance p s phi_xi (fun j => phi_d * frozen (hl_tenor p) (hl_dom p) j) (fun j => - (phi_f) * frozen (hl_tenor p) (hl_for p) j) /\
    ((forall x y z, 0 <= block_variance p s x y z) -> 0 <= phi_xi * phi_xi + a_d * (phi_d * phi_d) + a_f * (phi_f * phi_f) + f) /\
    ((length ls < s)%nat -> f = 0).
Proof.
  intros lg p ds ls t s H V S1 K. apply tenor_new_iff in H as [E G]. assert (N : lt_n (hl_tenor p) = length ls) by (rewrite E; reflexivity).
  apply (proj1 (hlmm_validate_iff p)) in V as (Od & Of & (_ & Lxd & Lxf & Sc & _)).
  destruct Od as (Ld & _ & (Sqd & _) & Kd & _), Of as (Lf & _ & (Sqf & _) & Kf & _).
  destruct (Hhw1Facts.sqrt_mean_total lg (hl_heston p) t K) as [phi_xi E1].
  destruct (Hhw1Facts.sqrt_mean_total lg (side_cir (lm_lambda (hl_dom p)) (lm_eta (hl_dom p)) (lm_v0 (hl_dom p))) t Kd) as [phi_d E2].
  destruct (Hhw1Facts.sqrt_mean_total lg (side_cir (lm_lambda (hl_for p)) (lm_eta (hl_for p)) (lm_v0 (hl_for p))) t Kf) as [phi_f E3].
  assert (SIDE : forall l, length (lm_sigmas l) = lt_n (hl_tenor p) -> square (libor_corr l) (lt_n (hl_tenor p)) ->
    hlmm_a_side l (hl_tenor p) s = Ok (form (lt_n (hl_tenor p)) s (completed (libor_corr l)) (frozen (hl_tenor p) l) (frozen (hl_tenor p) l))).
  { intros l L Sq. unfold hlmm_a_side. rewrite (psi_ok _ l G L). cbn [obind]. rewrite quadratic_ok; [|rewrite map_length, seq_length; reflexivity|exact Sq|exact S1].
    apply f_equal. unfold form. apply sum_on_ext. intros i Hi. apply in_from_to in Hi. apply sum_on_ext. intros j Hj. apply in_from_to in Hj.
    rewrite !nth_map_seq by lia. rewrite !frozen_psi by lia. reflexivity. }
  exists phi_xi, phi_d, phi_f. eexists. eexists. eexists. split; [exact E1|]. split; [exact E2|]. split; [exact E3|].
  split; [apply (SIDE (hl_dom p) Ld Sqd)|]. split; [apply (SIDE (hl_for p) Lf Sqf)|].
  split.
  { unfold hlmm_f. rewrite (psi_ok _ _ G Ld), (psi_ok _ _ G Lf). cbn [obind]. rewrite E1. cbn [obind]. rewrite E2. cbn [obind]. rewrite E3. cbn [obind].
    rewrite cross_terms_ok by (rewrite ?map_length, ?seq_length; assumption || reflexivity).
    rewrite (sum_on_ext (from_to s (lt_n (hl_tenor p))) (fun j => nth (j - 1) (map (psi_k (hl_tenor p) (hl_dom p)) (seq 0 (lt_n (hl_tenor p)))) 0 * nth (j - 1) (xi_d (hl_corr p)) 0) (fun j => frozen (hl_tenor p) (hl_dom p) j * nth (j - 1) (xi_d (hl_corr p)) 0))
      by (intros j Hj; apply in_from_to in Hj; rewrite nth_map_seq by lia; rewrite frozen_psi by lia; reflexivity).
    rewrite (sum_on_ext (from_to s (lt_n (hl_tenor p))) (fun j => nth (j - 1) (map (psi_k (hl_tenor p) (hl_for p)) (seq 0 (lt_n (hl_tenor p)))) 0 * nth (j - 1) (xi_f (hl_corr p)) 0) (fun j => frozen (hl_tenor p) (hl_for p) j * nth (j - 1) (xi_f (hl_corr p)) 0))
      by (intros j Hj; apply in_from_to in Hj; rewrite nth_map_seq by lia; rewrite frozen_psi by lia; reflexivity).
    match goal with |- Ok (_ - _ - _ * ?S) = _ => assert (ES : S = form (lt_n (hl_tenor p)) s (el (cross_corr (hl_corr p))) (frozen (hl_tenor p) (hl_dom p)) (frozen (hl_tenor p) (hl_for p))) end.
    { unfold form. apply sum_on_ext. intros i Hi. apply in_from_to in Hi. apply sum_on_ext. intros j Hj. apply in_from_to in Hj. rewrite !nth_map_seq by lia. rewrite !frozen_psi by lia. reflexivity. }
    rewrite ES. reflexivity. }
  match goal with |- ?A = ?B /\ _ => assert (EQ : A = B) end.
  { unfold block_variance. fold (lt_n (hl_tenor p)). rewrite !form_scal.
    change (fun i j => nth j (nth i (cross_corr (hl_corr p)) []) 0) with (el (cross_corr (hl_corr p))).
    rewrite (sum_on_ext _ (fun j => phi_xi * (phi_d * frozen (hl_tenor p) (hl_dom p) j) * nth (j - 1) (xi_d (hl_corr p)) 0) (fun j => phi_xi * phi_d * (frozen (hl_tenor p) (hl_dom p) j * nth (j - 1) (xi_d (hl_corr p)) 0))) by (intros; ring).
    rewrite (sum_on_ext _ (fun j => phi_xi * (- phi_f * frozen (hl_tenor p) (hl_for p) j) * nth (j - 1) (xi_f (hl_corr p)) 0) (fun j => - (phi_xi * phi_f) * (frozen (hl_tenor p) (hl_for p) j * nth (j - 1) (xi_f (hl_corr p)) 0))) by (intros; ring).
    rewrite !sum_on_scal. ring. }
  split; [exact EQ|]. split; [intros P; rewrite EQ; apply P|]. intros Q. unfold form. rewrite !from_to_nil by lia. rewrite !sum_on_nil. ring.
Qed.

(** a two-period instance: the checks pass and the coefficients are not zero *)
Definition wit_tenor : libor_tenor := {| lt_dates := [0; 1 / 2; 1]; libors := [1 / 50; 1 / 40] |}.
Definition wit_side : dd_sv_lmm :=
  {| lm_sigmas := [1 / 5; 1 / 4]; lm_betas := [1; 1]; lm_lambda := 1; lm_eta := 1 / 10; lm_v0 := 1; libor_corr := [[1; 9 / 10]; [9 / 10; 1]] |}.
Definition wit_heston : cir_process R_numbers :=
  {| kappa := (1 / 2 : num R_numbers); theta := (1 / 10 : num R_numbers); gamma := (3 / 10 : num R_numbers); sigma_0 := (1 / 10 : num R_numbers) |}.
Definition wit_hlmm : hlmm :=
  {| hl_fx0 := 135 / 100; hl_heston := wit_heston; hl_tenor := wit_tenor; hl_dom := wit_side; hl_for := wit_side;
     hl_corr := {| xi_sigma := - (4 / 10); xi_d := [- (15 / 100); - (15 / 100)]; xi_f := [- (15 / 100); - (15 / 100)]; cross_corr := [[1 / 4; 1 / 4]; [1 / 4; 1 / 4]] |} |}.
Lemma wit_tenor_ok : libor_tenor_new [0; 1 / 2; 1] [1 / 50; 1 / 40] = Ok wit_tenor.
Proof.
  apply tenor_new_iff. split; [reflexivity|]. unfold good, date_k, lt_n. cbn. split; [reflexivity|]. split; [lra|].
  intros i j H. destruct i as [|[|i]], j as [|[|[|j]]]; cbn; try lia; lra.
Qed.
Lemma wit_valid : hlmm_validate wit_hlmm = Ok tt.
Proof.
  pose proof slack_pos as SP. assert (A : forall x, -1 <= x <= 1 -> Rabs x <= 1 + slack) by (intros x Hx; assert (Rabs x <= 1) by (apply Rabs_le; lra); lra).
  assert (Z : forall x, close x x) by (intros x; unfold close; replace (x - x) with 0 by ring; rewrite Rabs_R0; lra).
  assert (L : lmm_ok wit_side 2).
  { unfold lmm_ok, corr_ok, square. cbn [lm_sigmas lm_betas libor_corr lm_lambda lm_eta lm_v0 wit_side length]. repeat split; try lra.
    - intros row [<-|[<-|[]]]; reflexivity.
    - intros i Hi. destruct i as [|[|i]]; [apply Z|apply Z|lia].
    - destruct i as [|[|i]], j as [|[|j]]; try lia; apply Z.
    - destruct i as [|[|i]], j as [|[|j]]; try lia; apply A; cbn; lra. }
  apply hlmm_validate_iff. split; [exact L|]. split; [exact L|]. unfold xcorr_ok, square. cbn [xi_sigma xi_d xi_f cross_corr hl_corr wit_hlmm length]. repeat split.
  - apply A. lra.
  - intros row [<-|[<-|[]]]; reflexivity.
  - intros row r [<-|[<-|[]]] [<-|[<-|[]]]; apply A; lra.
  - intros r [[<-|[<-|[]]]|[<-|[<-|[]]]]; apply A; lra.
Qed.
Example C82_witness : exists a, libor_tenor_new [0; 1 / 2; 1] [1 / 50; 1 / 40] = Ok (hl_tenor wit_hlmm) /\ hlmm_validate wit_hlmm = Ok tt /\ 0 < kappa (hl_heston wit_hlmm) /\
  hlmm_a_side wit_side wit_tenor 2 = Ok a /\ 0 < a /\ In 2%nat (lt_active wit_tenor (1 / 4)) /\ ~ In 1%nat (lt_active wit_tenor (1 / 4)).
Proof.
  eexists. split; [exact wit_tenor_ok|]. split; [exact wit_valid|]. split; [cbn; lra|].
  assert (VL : lmm_validate wit_side wit_tenor = Ok tt). { apply lmm_validate_iff. pose proof (proj1 (proj1 (hlmm_validate_iff wit_hlmm)) wit_valid) as (Q & _). exact Q. }
  split; [exact (proj1 (C82_sides _ _ _ wit_side 2 wit_tenor_ok VL ltac:(lia)))|]. split.
  - unfold form, from_to. cbn. unfold completed, frozen. cbn. lra.
  - split; [apply (C82_active _ _ _ (1 / 4) wit_tenor_ok); cbn; split; [lia|lra]|].
    intros I. apply (C82_active _ _ _ (1 / 4) wit_tenor_ok) in I as [_ I]. cbn in I. lra.
Qed.

Print Assumptions C82_tenor.
Print Assumptions C82_active.
Print Assumptions C82_accrual.
Print Assumptions C82_validate.
Print Assumptions C82_psi.
Print Assumptions C82_displacement.
Print Assumptions C82_sides.
Print Assumptions C82_variance.
