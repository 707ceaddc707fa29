(** C84: the checks and the decaying coefficients of the cross-currency forward market model *)
From Coq Require Import Bool List Arith Reals Psatz Lia.
Import ListNotations.
From Verif Require Import Outcome ForwardPoints VolSurface Processes ProcessFacts HullWhite Hlmm HlmmFacts P_Hlmm FxFmm FxFmmFacts.
From Verif Require Fmm FmmFacts P_FmmStep Hhw1Facts.
Open Scope R_scope.
Global Set Bullet Behavior "Strict Subproofs".

(** The checks accept exactly the sets of the documented shape, up to their slack of [1e-12], and only ever
    return an error. *)
Theorem C84_validate : forall p, let m := length (Fmm.initial_rates (fm_tenor p)) in
  let matrix c := length c = m /\ forall row, In row c -> length row = m in
  let at_ (c : list (list R)) i j := nth j (nth i c []) 0 in
  let side s := length (fs_sigmas s) = m /\ (forall x, In x (fs_sigmas s) -> 0 <= x) /\ matrix (fs_corr s) /\
    (forall i, (i < m)%nat -> Rabs (at_ (fs_corr s) i i - 1) <= / 10 ^ 12) /\
    (forall i j, (i < m)%nat -> (j < m)%nat -> Rabs (at_ (fs_corr s) i j - at_ (fs_corr s) j i) <= / 10 ^ 12 /\ Rabs (at_ (fs_corr s) i j) <= 1 + / 10 ^ 12) /\
    0 < fs_lambda s /\ 0 < fs_eta s /\ 0 < fs_v0 s in
  let c := fm_corr p in
  (fmm_validate p = Ok tt <->
   side (fm_dom p) /\ side (fm_for p) /\
   Rabs (fc_xi_sigma c) <= 1 + / 10 ^ 12 /\
   length (fc_xi_d c) = m /\ length (fc_xi_f c) = m /\ length (fc_sigma_d c) = m /\ length (fc_sigma_f c) = m /\ matrix (fc_cross c) /\
   (forall row r, In row (fc_cross c) -> In r row -> Rabs r <= 1 + / 10 ^ 12) /\
   (forall r, In r (fc_xi_d c) \/ In r (fc_xi_f c) \/ In r (fc_sigma_d c) \/ In r (fc_sigma_f c) -> Rabs r <= 1 + / 10 ^ 12)) /\
  (fmm_validate p <> Ok tt -> fmm_validate p = Err EInvalidData).
Proof.
  intros p m matrix at_ side c. destruct (fmm_validate_iff p) as [I O]. split.
  - rewrite I. unfold fmm_ok, side_ok, corr_ok, fcorr_ok, close, square, el. fold slack. unfold side, matrix, at_, c, Fmm.m_of. fold m. fold slack.
    assert (J : (forall r, In r (fc_xi_d (fm_corr p) ++ fc_xi_f (fm_corr p) ++ fc_sigma_d (fm_corr p) ++ fc_sigma_f (fm_corr p)) -> Rabs r <= 1 + slack) <->
      (forall r, In r (fc_xi_d (fm_corr p)) \/ In r (fc_xi_f (fm_corr p)) \/ In r (fc_sigma_d (fm_corr p)) \/ In r (fc_sigma_f (fm_corr p)) -> Rabs r <= 1 + slack)).
    { split; intros H r Hr; apply H; rewrite !in_app_iff in *; tauto. }
    rewrite J. tauto.
  - intros N. destruct O as [O|O]; [contradiction|exact O].
Qed.

(** Each coefficient is [tau sigma gamma(t) / (1 + tau R(0))]: whole before its period, gone after it. *)
Theorem C84_psi : forall ds rs te s t, Fmm.tenor_new ds rs = Ok te -> side_validate s te = Ok tt ->
  exists psi, psi_at s te t = Ok psi /\ length psi = length rs /\
  forall j, (j < length rs)%nat ->
    let a := nth j ds 0 in let b := nth (S j) ds 0 in let tau := b - a in let r := nth j rs 0 in let sg := nth j (fs_sigmas s) 0 in
    (1 + tau * r <> 0 -> t <= a -> nth j psi 0 * (1 + tau * r) = tau * sg) /\
    (1 + tau * r <> 0 -> a <= t <= b -> nth j psi 0 * (1 + tau * r) = (b - t) * sg) /\
    (b <= t -> nth j psi 0 = 0) /\
    (0 <= 1 + tau * r -> 0 <= nth j psi 0) /\
    (0 <= r -> nth j psi 0 <= tau * sg).
Proof.
  intros ds rs te s t H V. apply FmmFacts.tenor_new_spec in H as [E G]. apply (proj1 (side_validate_iff s te)) in V as (L & _ & _ & _ & _ & P).
  assert (M : Fmm.m_of te = length rs) by (rewrite E; reflexivity).
  eexists. split; [apply psi_at_ok; exact L|]. rewrite M. split; [rewrite map_length, seq_length; reflexivity|].
  intros j Hj a b tau r sg. rewrite nth_map_seq by exact Hj.
  assert (DA : Fmm.date_at te j = a) by (rewrite E; reflexivity). assert (DB : Fmm.date_at te (j + 1) = b) by (rewrite E; replace (j + 1)%nat with (S j) by lia; reflexivity).
  pose proof (FmmFacts.dates_lt te G j (j + 1) ltac:(lia)) as DL. rewrite DA, DB in DL.
  destruct (P_FmmStep.C76_decay te (j + 1) G ltac:(lia)) as (A1 & A2 & A3 & A4 & _). replace (j + 1 - 1)%nat with j in * by lia. rewrite DA, DB in *.
  assert (W : weight te s (j + 1) = tau * sg / (1 + tau * r)). { unfold weight. replace (j + 1 - 1)%nat with j by lia. rewrite DA, DB. rewrite E. reflexivity. }
  unfold decayed. rewrite W. set (g := Fmm.gamma (j + 1) t te) in *.
  assert (GB : 0 <= g <= 1).
  { unfold g. destruct (Rle_dec t a) as [K|K]; [rewrite (A1 t K); lra|]. destruct (Rle_dec b t) as [K'|K']; [rewrite (A2 t K'); lra|].
    pose proof (A4 a t ltac:(lra)) as [D1 _]. pose proof (A4 t b ltac:(lra)) as [D2 _]. rewrite (A1 a ltac:(lra)) in D1. rewrite (A2 b ltac:(lra)) in D2. lra. }
  assert (SG : 0 <= sg). { apply P. apply nth_In. lia. }
  assert (TP : 0 < tau) by (unfold tau; lra). assert (TS : 0 <= tau * sg) by (apply Rmult_le_pos; lra).
  split; [intros N K; unfold g; rewrite (A1 t K); field; exact N|].
  split. { intros N K. unfold g. rewrite (A3 t K). fold tau. replace ((b - t) * sg) with (tau * sg * (1 - (t - a) / tau)) by (unfold tau; field; lra). field. split; [lra|exact N]. }
  split; [intros K; unfold g; rewrite (A2 t K); ring|]. split.
  - intros N. apply Rmult_le_pos; [|lra]. unfold Rdiv. destruct N as [N|N]; [apply Rmult_le_pos; [exact TS|left; apply Rinv_0_lt_compat, N]|]. rewrite <- N, Rinv_0. lra.
  - intros N. assert (1 <= 1 + tau * r) by (assert (0 <= tau * r) by (apply Rmult_le_pos; lra); lra).
    assert (Q : tau * sg / (1 + tau * r) <= tau * sg).
    { unfold Rdiv. rewrite <- (Rmult_1_r (tau * sg)) at 2. apply Rmult_le_compat_l; [exact TS|]. rewrite <- Rinv_1. apply Rinv_le_contravar; lra. }
    assert (Q0 : 0 <= tau * sg / (1 + tau * r)) by (apply Rmult_le_pos; [exact TS|left; apply Rinv_0_lt_compat; lra]). nra.
Qed.

(** Each side's coefficient is the quadratic form of the decayed coefficients.  Starting at the first open rate
    loses nothing, so it is continuous in time, at the tenor dates too, and ends at zero. *)
Theorem C84_sides : forall ds rs te s, Fmm.tenor_new ds rs = Ok te -> side_validate s te = Ok tt ->
  let m := length rs in
  let y t j := (nth j ds 0 - nth (j - 1) ds 0) * nth (j - 1) (fs_sigmas s) 0 / (1 + (nth j ds 0 - nth (j - 1) ds 0) * nth (j - 1) rs 0) * Fmm.gamma j t te in
  (forall t k, (1 <= k)%nat -> fmm_a_side s te t k = Ok (form m k (completed (fs_corr s)) (y t) (y t))) /\
  (exists A L, (forall t k, (1 <= k <= Fmm.eta te t)%nat -> fmm_a_side s te t k = Ok (A t)) /\
    (forall u v, Rabs (A u - A v) <= L * Rabs (u - v)) /\ (forall t, nth m ds 0 <= t -> A t = 0) /\
    ((forall z, 0 <= form m 1 (completed (fs_corr s)) z z) -> forall t, 0 <= A t)) /\
  (forall i j, (i < m)%nat -> (j < m)%nat -> Rabs (completed (fs_corr s) i j - nth j (nth i (fs_corr s) []) 0) <= / 10 ^ 12).
Proof.
  intros ds rs te s H V m y. apply FmmFacts.tenor_new_spec in H as [E G]. apply (proj1 (side_validate_iff s te)) in V.
  assert (M : Fmm.m_of te = m) by (rewrite E; reflexivity).
  assert (Y : forall t j, y t j = decayed te s t j) by (intros t j; unfold y, decayed, weight; rewrite E; reflexivity).
  split.
  { intros t k K. rewrite a_side_ok by assumption. apply f_equal. unfold a_of. rewrite M. apply form_ext. intros i _. rewrite !Y. split; reflexivity. }
  split.
  { destruct (steady_a te s 1 G (le_n 1)) as (B & L & _ & _ & _ & Q). exists (a_of te s 1), L. split; [|split; [exact Q|split]].
    - intros t k [K1 K2]. rewrite a_side_ok by assumption. apply f_equal. apply a_of_drop; [exact G|exact K1|apply elapsed_eta, K2].
    - intros t T. apply a_of_end; [exact G|lia|]. rewrite M. rewrite E. exact T.
    - intros P t. unfold a_of. rewrite M. apply P. }
  destruct V as (L & (Sq & D & Sy) & _). rewrite M in *. intros i j Hi Hj. fold slack. unfold completed. change (nth j (nth i (fs_corr s) []) 0) with (el (fs_corr s) i j).
  destruct (Nat.eqb_spec i j) as [->|N]; [rewrite Rabs_minus_sym; apply D; exact Hj|]. destruct (Nat.ltb_spec i j).
  - replace (el (fs_corr s) i j - el (fs_corr s) i j) with 0 by ring. rewrite Rabs_R0. apply Rlt_le, slack_pos.
  - apply (Sy j i Hj Hi).
Qed.

(** The variance of [x dW + sum y_j dW^d_j + sum z_j dW^f_j] per unit of time, from the correlations. *)
Definition fmm_variance (p : fx_fmm) (x : R) (y z : nat -> R) : R :=
  let n := length (Fmm.initial_rates (fm_tenor p)) in
  x * x + form n 1 (completed (fs_corr (fm_dom p))) y y + form n 1 (completed (fs_corr (fm_for p))) z z
  + 2 * sum_on (from_to 1 n) (fun j => x * y j * nth (j - 1) (fc_xi_d (fm_corr p)) 0)
  + 2 * sum_on (from_to 1 n) (fun j => x * z j * nth (j - 1) (fc_xi_f (fm_corr p)) 0)
  + 2 * form n 1 (fun i j => nth j (nth i (fc_cross (fm_corr p)) []) 0) y z.

Lemma sqrt_means lg p t : fmm_ok p -> 0 < kappa (fm_heston p) -> exists a b c, sqrt_mean lg (fm_heston p) t = Ok a /\ sqrt_mean lg (fmm_cir (fm_dom p)) t = Ok b /\ sqrt_mean lg (fmm_cir (fm_for p)) t = Ok c.
Proof.
  intros ((_ & _ & Kd & _) & (_ & _ & Kf & _) & _) K.
  destruct (Hhw1Facts.sqrt_mean_total lg (fm_heston p) t K) as [a E1].
  destruct (Hhw1Facts.sqrt_mean_total lg (fmm_cir (fm_dom p)) t Kd) as [b E2].
  destruct (Hhw1Facts.sqrt_mean_total lg (fmm_cir (fm_for p)) t Kf) as [c E3]. exists a, b, c. split; [exact E1|]. split; [exact E2|exact E3].
Qed.

(** With the square roots replaced by their means, the variance, both sides' terms and the code's [f] add up to
    the variance of the log-forward with every rate at its decayed coefficient. *)
Theorem C84_variance : forall lg p ds rs t k, Fmm.tenor_new ds rs = Ok (fm_tenor p) -> fmm_validate p = Ok tt -> 0 < kappa (fm_heston p) ->
  (1 <= k <= Fmm.eta (fm_tenor p) t)%nat ->
  let w s j := (nth j ds 0 - nth (j - 1) ds 0) * nth (j - 1) (fs_sigmas s) 0 / (1 + (nth j ds 0 - nth (j - 1) ds 0) * nth (j - 1) rs 0) * Fmm.gamma j t (fm_tenor p) in
  exists phi_xi phi_d phi_f a_d a_f f,
    sqrt_mean lg (fm_heston p) t = Ok phi_xi /\
    sqrt_mean lg (side_cir (fs_lambda (fm_dom p)) (fs_eta (fm_dom p)) (fs_v0 (fm_dom p))) t = Ok phi_d /\
    sqrt_mean lg (side_cir (fs_lambda (fm_for p)) (fs_eta (fm_for p)) (fs_v0 (fm_for p))) t = Ok phi_f /\
    fmm_a_d p t k = Ok a_d /\ fmm_a_f p t k = Ok a_f /\ fmm_f lg p t k = Ok f /\
    phi_xi * phi_xi + a_d * (phi_d * phi_d) + a_f * (phi_f * phi_f) + f
      = fmm_variance p phi_xi (fun j => phi_d * w (fm_dom p) j) (fun j => - (phi_f) * w (fm_for p) j) /\
    ((forall x y z, 0 <= fmm_variance p x y z) -> 0 <= phi_xi * phi_xi + a_d * (phi_d * phi_d) + a_f * (phi_f * phi_f) + f) /\
    (nth (length rs) ds 0 <= t -> a_d = 0 /\ a_f = 0 /\ f = 0).
Proof.
  intros lg p ds rs t k H V K [K1 K2] w. apply FmmFacts.tenor_new_spec in H as [E G]. apply (proj1 (fmm_validate_iff p)) in V.
  assert (M : Fmm.m_of (fm_tenor p) = length rs) by (rewrite E; reflexivity).
  assert (W : forall s j, w s j = decayed (fm_tenor p) s t j) by (intros s j; unfold w, decayed, weight; rewrite E; reflexivity).
  destruct (sqrt_means lg p t V K) as (a & b & c & E1 & E2 & E3). pose proof (elapsed_eta (fm_tenor p) t k K2) as EL.
  exists a, b, c, (a_of (fm_tenor p) (fm_dom p) 1 t), (a_of (fm_tenor p) (fm_for p) 1 t), (f_of p 1 t a b c).
  split; [exact E1|]. split; [exact E2|]. split; [exact E3|].
  split; [unfold fmm_a_d; rewrite a_side_ok by (exact K1 || apply V); apply f_equal, a_of_drop; assumption|].
  split; [unfold fmm_a_f; rewrite a_side_ok by (exact K1 || apply V); apply f_equal, a_of_drop; assumption|].
  split; [rewrite (f_ok lg p t k a b c V K1 E1 E2 E3); apply f_equal, f_of_drop; assumption|].
  match goal with |- ?A = ?B /\ _ => assert (EQ : A = B) end.
  { unfold fmm_variance. change (length (Fmm.initial_rates (fm_tenor p))) with (Fmm.m_of (fm_tenor p)). rewrite !form_scal.
    change (fun i j => nth j (nth i (fc_cross (fm_corr p)) []) 0) with (el (fc_cross (fm_corr p))).
    rewrite (sum_on_ext _ (fun j => a * (b * w (fm_dom p) j) * nth (j - 1) (fc_xi_d (fm_corr p)) 0) (fun j => a * b * (decayed (fm_tenor p) (fm_dom p) t j * nth (j - 1) (fc_xi_d (fm_corr p)) 0))) by (intros; rewrite W; ring).
    rewrite (sum_on_ext _ (fun j => a * (- c * w (fm_for p) j) * nth (j - 1) (fc_xi_f (fm_corr p)) 0) (fun j => - (a * c) * (decayed (fm_tenor p) (fm_for p) t j * nth (j - 1) (fc_xi_f (fm_corr p)) 0))) by (intros; rewrite W; ring).
    rewrite !sum_on_scal.
    assert (F : forall x s s', form (Fmm.m_of (fm_tenor p)) 1 x (w s) (w s') = form (Fmm.m_of (fm_tenor p)) 1 x (decayed (fm_tenor p) s t) (decayed (fm_tenor p) s' t)) by (intros; apply form_ext; intros; rewrite !W; split; reflexivity).
    rewrite !F. unfold a_of, f_of. ring. }
  split; [exact EQ|]. split; [intros P; rewrite EQ; apply P|].
  intros T. assert (T' : Fmm.date_at (fm_tenor p) (Fmm.m_of (fm_tenor p)) <= t) by (rewrite M, E; exact T).
  split; [apply a_of_end; (assumption || lia)|]. split; [apply a_of_end; (assumption || lia)|].
  assert (Z : forall s j, (1 <= j <= Fmm.m_of (fm_tenor p))%nat -> decayed (fm_tenor p) s t j = 0).
  { intros s j J. apply decayed_past; [exact G|exact J|]. pose proof (FmmFacts.dates_le (fm_tenor p) G j (Fmm.m_of (fm_tenor p)) ltac:(lia)). lra. }
  unfold f_of, form. set (n := Fmm.m_of (fm_tenor p)) in *.
  rewrite (sum_on_ext (from_to 1 n) (fun j => decayed (fm_tenor p) (fm_dom p) t j * nth (j - 1) (fc_xi_d (fm_corr p)) 0) (fun _ => 0 * 0)) by (intros j J; apply in_from_to in J; rewrite Z by lia; ring).
  rewrite (sum_on_ext (from_to 1 n) (fun j => decayed (fm_tenor p) (fm_for p) t j * nth (j - 1) (fc_xi_f (fm_corr p)) 0) (fun _ => 0 * 0)) by (intros j J; apply in_from_to in J; rewrite Z by lia; ring).
  rewrite (sum_on_ext (from_to 1 n) (fun i => sum_on (from_to 1 n) _) (fun _ => 0 * 0)).
  2:{ intros i Hi. apply in_from_to in Hi. rewrite Z by lia. rewrite (sum_on_ext _ _ (fun _ => 0 * 0)) by (intros; ring). rewrite sum_on_scal. ring. }
  rewrite !sum_on_scal. ring.
Qed.

(** The check asks for no positivity: a block that passes it can give the log-forward a negative variance. *)
Definition bad_side : fmm_side := {| fs_sigmas := [1 / 50; 1 / 50]; fs_lambda := 1; fs_eta := 1 / 10; fs_v0 := 1; fs_corr := [[1; 1 / 2]; [1 / 2; 1]] |}.
Definition wit_fmm_tenor : Fmm.fmm_tenor := {| Fmm.dates := [0; 1 / 2; 1]; Fmm.initial_rates := [1 / 50; 1 / 40] |}.
Definition wit_fmm : fx_fmm :=
  {| fm_fx0 := 135 / 100; fm_heston := wit_heston; fm_tenor := wit_fmm_tenor; fm_dom := bad_side; fm_for := bad_side;
     fm_corr := {| fc_xi_sigma := - (4 / 10); fc_xi_d := [- (15 / 100); - (15 / 100)]; fc_xi_f := [- (15 / 100); - (15 / 100)];
                   fc_sigma_d := [1 / 10; 1 / 10]; fc_sigma_f := [1 / 10; 1 / 10]; fc_cross := [[1; 1]; [1; 1]] |} |}.
Lemma wit_fmm_tenor_ok : Fmm.tenor_new [0; 1 / 2; 1] [1 / 50; 1 / 40] = Ok wit_fmm_tenor.
Proof.
  apply FmmFacts.tenor_new_spec. split; [reflexivity|]. unfold FmmFacts.good_tenor, Fmm.m_of, Fmm.date_at. cbn. split; [lia|]. split; [reflexivity|]. split; [lra|].
  intros i H. destruct i as [|[|i]]; cbn; try lia; lra.
Qed.
Lemma wit_fmm_valid : fmm_validate wit_fmm = Ok tt.
Proof.
  pose proof slack_pos as SP. assert (A : forall x, -1 <= x <= 1 -> Rabs x <= 1 + slack) by (intros x Hx; assert (Rabs x <= 1) by (apply Rabs_le; lra); lra).
  assert (Z : forall x, close x x) by (intros x; unfold close; replace (x - x) with 0 by ring; rewrite Rabs_R0; lra).
  assert (L : side_ok bad_side 2).
  { unfold side_ok, corr_ok, square. cbn [fs_sigmas fs_corr fs_lambda fs_eta fs_v0 bad_side length]. repeat split; try lra.
    - intros row [<-|[<-|[]]]; reflexivity.
    - intros i Hi. destruct i as [|[|i]]; [apply Z|apply Z|lia].
    - destruct i as [|[|i]], j as [|[|j]]; try lia; apply Z.
    - destruct i as [|[|i]], j as [|[|j]]; try lia; apply A; cbn; lra.
    - intros x [<-|[<-|[]]]; lra. }
  apply fmm_validate_iff. split; [exact L|]. split; [exact L|]. unfold fcorr_ok, square. cbn [fc_xi_sigma fc_xi_d fc_xi_f fc_sigma_d fc_sigma_f fc_cross fm_corr wit_fmm length app]. repeat split.
  - apply A. lra.
  - intros row [<-|[<-|[]]]; reflexivity.
  - intros row r [<-|[<-|[]]] [<-|[<-|[]]]; apply A; lra.
  - intros r H. cbn in H. repeat (destruct H as [<-|H]; [apply A; lra|]). contradiction.
Qed.
Theorem C84_positive_refuted : exists p ds rs, Fmm.tenor_new ds rs = Ok (fm_tenor p) /\ fmm_validate p = Ok tt /\ exists x y z, fmm_variance p x y z < 0.
Proof.
  exists wit_fmm, [0; 1 / 2; 1], [1 / 50; 1 / 40]. split; [exact wit_fmm_tenor_ok|]. split; [exact wit_fmm_valid|].
  exists 0, (fun _ => 1), (fun _ => - (1)). unfold fmm_variance, form, from_to. cbn. unfold completed. cbn. lra.
Qed.

Example C84_witness : exists a, Fmm.tenor_new [0; 1 / 2; 1] [1 / 50; 1 / 40] = Ok (fm_tenor wit_fmm) /\ fmm_validate wit_fmm = Ok tt /\ 0 < kappa (fm_heston wit_fmm) /\
  Fmm.eta wit_fmm_tenor (3 / 4) = 2%nat /\ fmm_a_side bad_side wit_fmm_tenor (3 / 4) 2 = Ok a /\ 0 < a.
Proof.
  eexists. split; [exact wit_fmm_tenor_ok|]. split; [exact wit_fmm_valid|]. split; [cbn; lra|].
  assert (VL : side_validate bad_side wit_fmm_tenor = Ok tt). { apply side_validate_iff. pose proof (proj1 (proj1 (fmm_validate_iff wit_fmm)) wit_fmm_valid) as (Q & _). exact Q. }
  destruct (proj1 (FmmFacts.tenor_new_spec _ _ _) wit_fmm_tenor_ok) as [_ G].
  split; [apply (FmmFacts.eta_is _ G); [cbn; lia|unfold Fmm.date_at; cbn; lra|unfold Fmm.date_at; cbn; lra]|].
  split; [exact (proj1 (C84_sides _ _ _ bad_side wit_fmm_tenor_ok VL) (3 / 4) 2%nat ltac:(lia))|].
  unfold form, from_to. cbn. unfold completed. cbn.
  assert (E : Fmm.gamma 2 (3 / 4) wit_fmm_tenor = 1 / 2). { rewrite (FmmFacts.gamma_inside _ G) by (unfold Fmm.date_at; cbn; lia || lra). unfold Fmm.tau, Fmm.date_at. cbn. lra. }
  rewrite E. lra.
Qed.

Print Assumptions C84_validate.
Print Assumptions C84_psi.
Print Assumptions C84_sides.
Print Assumptions C84_variance.
Print Assumptions C84_positive_refuted.
