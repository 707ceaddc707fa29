(** C85: the forward characteristic function of the linearised cross-currency forward market model *)
From Coq Require Import Bool List Arith Reals Psatz Lia.
Import ListNotations.
From Coquelicot Require Import Coquelicot.
From Verif Require Import Outcome ForwardPoints VolSurface Processes ProcessFacts HullWhite CosPricer Complexes CLog Hhw1Chf HestonFacts Simpson Hhw1Facts P_Hhw1Chf
  Hlmm HlmmFacts SegChf HestonLog Riccati SegFacts SegTheory Hlmm1Facts SegConverge FxFmm Fmm1Chf Fmm1Facts.
From Verif Require Fmm FmmFacts FxFmmFacts P_Hlmm P_Hlmm1Chf P_FxFmm.
Open Scope R_scope.
Global Set Bullet Behavior "Strict Subproofs".

(** A model the checks accept, with a random variance and true correlations. *)
Definition open_model (p : fx_fmm) : Prop :=
  (exists ds rs, Fmm.tenor_new ds rs = Ok (fm_tenor p)) /\ fmm_validate p = Ok tt /\
  0 < kappa (fm_heston p) /\ gamma (fm_heston p) <> 0 /\ -1 <= fc_xi_sigma (fm_corr p) <= 1 /\
  P_Hlmm1Chf.semidefinite (fs_corr (fm_dom p)) /\ P_Hlmm1Chf.semidefinite (fs_corr (fm_for p)).

Lemma a_nonneg te s t : FxFmmFacts.side_ok s (Fmm.m_of te) -> P_Hlmm1Chf.semidefinite (fs_corr s) -> 0 <= FxFmmFacts.a_of te s 1 t.
Proof. intros (_ & ((Sq & _) & _) & _) P. unfold P_Hlmm1Chf.semidefinite in P. rewrite Sq in P. apply P. Qed.
Lemma a_eta te s t : FmmFacts.good_tenor te -> FxFmmFacts.side_ok s (Fmm.m_of te) -> fmm_a_side s te t (Fmm.eta te t) = Ok (FxFmmFacts.a_of te s 1 t).
Proof.
  intros G O. pose proof (eta_range te t) as R'. rewrite (FxFmmFacts.a_side_ok s te t _ O) by lia. apply f_equal, FxFmmFacts.a_of_drop; [exact G|lia|]. apply FxFmmFacts.elapsed_eta. lia.
Qed.
Lemma open_facts p : open_model p -> FmmFacts.good_tenor (fm_tenor p) /\ FxFmmFacts.fmm_ok p /\ 0 < kappa (fm_heston p) /\ gamma (fm_heston p) <> 0 /\ -1 <= fc_xi_sigma (fm_corr p) <= 1 /\
  (forall t, 0 <= FxFmmFacts.a_of (fm_tenor p) (fm_dom p) 1 t) /\ (forall t, 0 <= FxFmmFacts.a_of (fm_tenor p) (fm_for p) 1 t).
Proof.
  intros ((ds & rs & T) & V & K & Ga & Rh & Pd & Pf). pose proof (proj1 (FmmFacts.tenor_new_spec _ _ _) T) as [_ G]. pose proof (proj1 (proj1 (FxFmmFacts.fmm_validate_iff p)) V) as O.
  pose proof O as (Od & Of & _). split; [exact G|]. split; [exact O|]. split; [exact K|]. split; [exact Ga|]. split; [exact Rh|]. split; intros t; apply a_nonneg; assumption.
Qed.
Lemma sides_ok p : open_model p -> 0 < fs_lambda (fm_dom p) /\ fs_eta (fm_dom p) <> 0 /\ 0 < fs_v0 (fm_dom p) /\ 0 < fs_lambda (fm_for p) /\ fs_eta (fm_for p) <> 0 /\ 0 < fs_v0 (fm_for p).
Proof. intros M. destruct (open_facts p M) as (_ & O & _). destruct O as ((_ & _ & A & B & D & _) & (_ & _ & A' & B' & D' & _) & _). repeat split; lra. Qed.
Lemma coefs_ok p T E n segs : open_model p -> structured p T E n segs -> (forall s, In s segs -> 0 <= sg_ad s) /\ (forall s, In s segs -> 0 <= sg_af s).
Proof.
  intros M (_ & _ & _ & _ & _ & Ss). destruct (open_facts p M) as (_ & _ & _ & _ & _ & Pd & Pf).
  split; intros s Hs; destruct (Ss s Hs) as (_ & _ & (_ & E1 & E2) & _); [rewrite E1; apply Pd|rewrite E2; apply Pf].
Qed.

(** Building panics exactly on a past expiry, no chunks, a bad number of nodes or parameters the checks refuse;
    what was built evaluates at every complex frequency. *)
Theorem C85_total : forall lg p T n N, (exists ds rs, Fmm.tenor_new ds rs = Ok (fm_tenor p)) -> 0 < kappa (fm_heston p) ->
  (0 < T -> (1 <= n)%nat -> (2 <= N)%nat -> (N mod 2 = 0)%nat -> fmm_validate p = Ok tt ->
    exists q, fmm1_with_resolution p T n N = Ok q /\ g_expiry q = T /\ forall w, exists z, fmm1_evaluate lg p q w = Ok z) /\
  (T <= 0 \/ (n < 1)%nat \/ (N < 2)%nat \/ (N mod 2 <> 0)%nat -> fmm1_with_resolution p T n N = Panic PAssert) /\
  (0 < T -> (1 <= n)%nat -> (2 <= N)%nat -> (N mod 2 = 0)%nat -> fmm_validate p <> Ok tt -> fmm1_with_resolution p T n N = Panic PUnwrap).
Proof.
  intros lg p T n N (ds & rs & TE) K. pose proof (proj1 (FmmFacts.tenor_new_spec _ _ _) TE) as [_ G]. split; [|split].
  - intros HT A B D V. pose proof (proj1 (proj1 (FxFmmFacts.fmm_validate_iff p)) V) as O. destruct (built_ok p T n N G O A B D HT) as [q Q]. exists q. split; [exact Q|]. split; [apply (built p T n N q G O Q)|].
    intros w. eexists. apply (evaluate_ok lg p T n N q w G O K Q).
  - intros D. unfold fmm1_with_resolution. destruct (Rlt_dec 0 T); [|reflexivity]. cbn [negb]. destruct (Nat.leb_spec 1 n); [|reflexivity]. cbn [negb]. destruct (Nat.leb_spec 2 N); [|reflexivity]. destruct (Nat.eqb_spec (N mod 2) 0); [|reflexivity].
    exfalso. destruct D as [D|[D|[D|D]]]; [lra|lia|lia|contradiction].
  - intros HT A B D V. unfold fmm1_with_resolution. destruct (Rlt_dec 0 T); [|exfalso; lra]. cbn [negb]. rewrite (proj2 (Nat.leb_le 1 n) A), (proj2 (Nat.leb_le 2 N) B), (proj2 (Nat.eqb_eq _ 0) D). cbn [andb negb].
    destruct (FxFmmFacts.fmm_validate_iff p) as [_ [Q|Q]]; [contradiction|]. rewrite Q. reflexivity.
Qed.

(** * The covariance at a time of a chunk *)
(** the covariance [f] of the calendar time, with the rates alive then *)
Definition f_at (lg : R -> R) (p : fx_fmm) (t : R) : R := match fmm_f lg p t (Fmm.eta (fm_tenor p) t) with Ok v => v | _ => 0 end.
Lemma f_fmm lg p t k : FxFmmFacts.fmm_ok p -> 0 < kappa (fm_heston p) -> (1 <= k)%nat -> fmm_f lg p t k = Ok (f_code lg p t k).
Proof. intros O K K1. pose proof O as ((_ & _ & Hld & _) & (_ & _ & Hlf & _) & _). apply FxFmmFacts.f_ok; try assumption; apply phi_ok; assumption. Qed.
Lemma f_at_code lg p t : FmmFacts.good_tenor (fm_tenor p) -> FxFmmFacts.fmm_ok p -> 0 < kappa (fm_heston p) -> f_at lg p t = f_code lg p t 1 /\ fmm_f lg p t (Fmm.eta (fm_tenor p) t) = Ok (f_at lg p t).
Proof.
  intros G O K. pose proof (eta_range (fm_tenor p) t) as R'. unfold f_at. rewrite f_fmm by (assumption || lia). split; [|reflexivity]. apply FxFmmFacts.f_of_drop; [exact G|lia|]. apply FxFmmFacts.elapsed_eta. lia.
Qed.
Lemma f_inside lg p T E n segs s x : FmmFacts.good_tenor (fm_tenor p) -> structured p T E n segs -> In s segs -> (sg_start s <= Fmm.m_of (fm_tenor p))%nat ->
  sg_tau s - sg_length s <= x <= sg_tau s -> f_code lg p (T - x) (sg_start s) = f_code lg p (T - x) 1.
Proof.
  intros G ST Hs S1 Hx. pose proof (start_pos p T E n segs s ST Hs) as S0. apply FxFmmFacts.f_of_drop; [exact G|exact S0|]. intros j J1 J2. destruct ST as (_ & _ & _ & _ & _ & Ss). destruct (Ss s Hs) as (_ & _ & (ES & _) & NC).
  destruct (NC j ltac:(lia)) as [Q|Q]; [|lra]. exfalso. destruct (FmmFacts.eta_cases (fm_tenor p) (middle T s)) as [(A & B & D)|[A B]]; [|lia]. specialize (D j ltac:(lia)). unfold middle in D.
  assert (0 <= sg_length s) by lra. lra.
Qed.
Lemma f_outside lg p T E n segs s x : FmmFacts.good_tenor (fm_tenor p) -> structured p T E n segs -> In s segs -> (Fmm.m_of (fm_tenor p) < sg_start s)%nat -> f_code lg p x (sg_start s) = 0 /\ f_code lg p (middle T s) 1 = 0.
Proof.
  intros G ST Hs S1. split; [apply f_of_over; exact S1|]. destruct ST as (_ & _ & _ & _ & _ & Ss). destruct (Ss s Hs) as (_ & _ & (ES & _) & _). rewrite ES in S1.
  transitivity (f_code lg p (middle T s) (Fmm.eta (fm_tenor p) (middle T s))); [|apply f_of_over; exact S1]. symmetry. apply FxFmmFacts.f_of_drop; [exact G|lia|]. apply FxFmmFacts.elapsed_eta. lia.
Qed.
Lemma in_segment_of segs : forall prev s tau, chain prev segs -> In s segs -> sg_tau s - sg_length s < tau < sg_tau s -> in_segment prev segs tau s /\ prev <= sg_tau s - sg_length s.
Proof.
  induction segs as [|x r IH]; intros prev s tau H Hs Ht; [contradiction|]. destruct H as (L & P & H). destruct Hs as [->|Hs]; [split; [left; split; [lra|reflexivity]|lra]|].
  destruct (IH _ s tau H Hs Ht) as [A B]. split; [right; exact A|lra].
Qed.
Lemma chain_below segs : forall prev s, chain prev segs -> In s segs -> sg_tau s <= chain_end prev segs.
Proof. induction segs as [|x r IH]; intros prev s H Hs; [contradiction|]. destruct H as (_ & _ & H). cbn [chain_end]. destruct Hs as [->|Hs]; [apply chain_end_ge; exact H|apply IH; assumption]. Qed.

(** The chunks follow each other from expiry back to today (to within [1e-12] when the first tenor date is that
    close to today), none longer than the expiry over the number of chunks.  Each holds both coefficients at its
    middle.  Its covariance uses the rates alive at the middle: as long as there is one, it is the covariance at
    every time of the chunk, and there is one whenever the expiry is within the tenor. *)
Theorem C85_segments : forall lg p T n N q, open_model p -> fmm1_with_resolution p T n N = Ok q ->
  let te := fm_tenor p in
  exists E, 0 < E <= T /\ T - E <= / 10 ^ 12 /\ (nth 0 (Fmm.dates te) 0 = 0 \/ / 10 ^ 12 < nth 0 (Fmm.dates te) 0 -> E = T) /\
  sum_on (g_segments q) sg_length = E /\
  (forall tau, 0 < tau < E -> (forall s, In s (g_segments q) -> tau <> sg_tau s) -> exists s, In s (g_segments q) /\ sg_tau s - sg_length s < tau < sg_tau s) /\
  forall s, In s (g_segments q) -> let mid := T - (sg_tau s - sg_length s / 2) in
    0 < sg_length s <= T / INR n /\ 0 <= sg_tau s - sg_length s /\ sg_tau s <= E /\
    fmm_a_d p mid (Fmm.eta te mid) = Ok (sg_ad s) /\ fmm_a_f p mid (Fmm.eta te mid) = Ok (sg_af s) /\ sg_start s = Fmm.eta te mid /\
    (T <= nth (length (Fmm.initial_rates te)) (Fmm.dates te) 0 -> (sg_start s <= length (Fmm.initial_rates te))%nat) /\
    ((sg_start s <= length (Fmm.initial_rates te))%nat -> forall tau, sg_tau s - sg_length s <= tau <= sg_tau s -> fmm_f_at lg p q (T - tau) (sg_start s) = fmm_f lg p (T - tau) (Fmm.eta te (T - tau))).
Proof.
  intros lg p T n N q M H te. destruct (open_facts p M) as (G & O & K & _). destruct (built p T n N q G O H) as (_ & _ & _ & HT & _ & _ & _ & CA & E & ST). pose proof ST as (Ch & En & EB & EA & EX & Ss).
  destruct (chain_lengths _ _ Ch) as [L1 L2]. exists E. split; [exact EB|]. fold slack. split; [rewrite Rabs_minus_sym, Rabs_pos_eq in EA by lra; exact EA|]. split; [exact EX|]. split; [rewrite L1, En; ring|]. split.
  { intros tau Ht Hd. rewrite <- En in Ht. destruct (in_segment_exists _ _ tau Ch Ht Hd) as [seg I]. destruct (in_segment_range _ _ _ _ Ch I) as [_ II]. exists seg. split; [exact II|apply (in_segment_bounds _ _ _ _ Ch I)]. }
  intros s Hs mid. destruct (Ss s Hs) as (A & B & (S1 & S2 & S3) & NC). fold te in S1, S2, S3, NC. change (middle T s) with mid in S1, S2, S3. pose proof O as (Od & Of & _).
  split; [split; [apply L2, Hs|exact A]|]. split; [exact B|]. split; [rewrite <- En; apply (chain_below _ _ _ Ch Hs)|]. rewrite S1, S2, S3.
  split; [apply a_eta; assumption|]. split; [apply a_eta; assumption|]. split; [reflexivity|]. split.
  - intros Q. destruct (FmmFacts.eta_cases te mid) as [(X & _)|[X Y]]; [apply X|]. exfalso. specialize (Y (Fmm.m_of te) ltac:(destruct G; unfold te; lia)). unfold Fmm.date_at, mid in Y. pose proof (L2 s Hs). change (length (Fmm.initial_rates te)) with (Fmm.m_of te) in Q. lra.
  - intros Q tau Ht. rewrite <- S1 in *. pose proof (start_pos p T E n _ s ST Hs) as SP. rewrite f_at_ok by assumption. destruct (f_at_code lg p (T - tau) G O K) as [F1 F2]. fold te in F2. rewrite F2, F1. apply f_equal. apply (f_inside lg p T E n (g_segments q)); assumption.
Qed.

(** * The Riccati equations *)
(** The solution of the equation of one side, with the coefficient of the calendar time. *)
Definition side_solution (te : Fmm.fmm_tenor) (s : fmm_side) (u T : R) (D : R -> C) : Prop :=
  D 0 = 0%C /\ (forall tau, ccont D tau) /\ (forall tau, 0 <= tau <= T -> fst (D tau) <= 0) /\
  forall tau a, 0 < tau < T -> fmm_a_side s te (T - tau) (Fmm.eta te (T - tau)) = Ok a ->
    cderive D tau (RtoC (a / 2) * (I_ * RtoC u * (I_ * RtoC u) - I_ * RtoC u) - RtoC (fs_lambda s) * D tau + RtoC (fs_eta s ^ 2 / 2) * (D tau * D tau))%C.
(** The same with the coefficient of the middle of each chunk. *)
Definition chunk_solution (te : Fmm.fmm_tenor) (s : fmm_side) (u T : R) (segs : list segment) (D : R -> C) : Prop :=
  D 0 = 0%C /\ (forall tau, ccont D tau) /\ (forall tau, fst (D tau) <= 0) /\
  forall seg tau a, In seg segs -> sg_tau seg - sg_length seg < tau < sg_tau seg -> let mid := T - (sg_tau seg - sg_length seg / 2) in fmm_a_side s te mid (Fmm.eta te mid) = Ok a ->
    cderive D tau (RtoC (a / 2) * (I_ * RtoC u * (I_ * RtoC u) - I_ * RtoC u) - RtoC (fs_lambda s) * D tau + RtoC (fs_eta s ^ 2 / 2) * (D tau * D tau))%C.
Lemma slope_same s u a d : rslope (fs_lambda s) (fs_eta s) (hb (RtoC u)) a d = (RtoC (a / 2) * (I_ * RtoC u * (I_ * RtoC u) - I_ * RtoC u) - RtoC (fs_lambda s) * d + RtoC (fs_eta s ^ 2 / 2) * (d * d))%C.
Proof.
  unfold rslope. replace (RtoC (a / 2)) with (RtoC (1 / 2) * RtoC a)%C by (apply C_eq; cbn; field).
  replace (RtoC (fs_eta s ^ 2 / 2)) with (RtoC (1 / 2) * RtoC (fs_eta s * fs_eta s))%C by (apply C_eq; cbn; field). unfold hb. ring.
Qed.
Lemma side_solves te s u T D : FmmFacts.good_tenor te -> FxFmmFacts.side_ok s (Fmm.m_of te) ->
  side_solution te s u T D <-> D 0 = 0%C /\ (forall tau, ccont D tau) /\ solves (fs_lambda s) (fs_eta s) (hb (RtoC u)) T [] (fun tau => FxFmmFacts.a_of te s 1 (T - tau)) D.
Proof.
  intros G O. split.
  - intros (Z & Cn & Sg & De). split; [exact Z|]. split; [exact Cn|]. split; [intros; apply Cn|]. split; [exact Sg|]. intros t Ht _. rewrite slope_same. apply (De t); [exact Ht|]. apply a_eta; assumption.
  - intros (Z & Cn & _ & Sg & De). split; [exact Z|]. split; [exact Cn|]. split; [exact Sg|]. intros tau a Ht Ea. rewrite a_eta in Ea by assumption. assert (Q : a = FxFmmFacts.a_of te s 1 (T - tau)) by congruence. rewrite Q, <- slope_same. apply (De tau Ht). intros [].
Qed.
Lemma path_solution p T E n segs u s coef : FmmFacts.good_tenor (fm_tenor p) -> structured p T E n segs -> FxFmmFacts.side_ok s (Fmm.m_of (fm_tenor p)) -> fs_eta s <> 0 ->
  (forall seg, In seg segs -> coef seg = FxFmmFacts.a_of (fm_tenor p) s 1 (middle T seg)) -> (forall seg, In seg segs -> 0 <= coef seg) ->
  chunk_solution (fm_tenor p) s u T segs (path u (fs_lambda s) (fs_eta s) (fs_v0 s) coef segs 0 0).
Proof.
  intros G (Ch & _) O He Co K. assert (Hl : 0 < fs_lambda s) by apply O. assert (S0 : signs u (RtoC 0)) by (split; cbn; lra). split; [apply path_start; exact Ch|]. split; [intros tau; apply path_cont; assumption|].
  split; [intros tau; apply (path_signs u); assumption|]. intros seg tau a Hs Ht mid Ea. rewrite a_eta in Ea by assumption. assert (Q : a = coef seg) by (rewrite (Co seg Hs); change (middle T seg) with mid; congruence). rewrite Q.
  eapply cderive_eq; [apply (path_riccati u (fs_lambda s) (fs_eta s) (fs_v0 s) coef Hl He segs (RtoC 0) 0 tau seg Ch K S0); apply in_segment_of; assumption|]. rewrite <- slope_same. reflexivity.
Qed.

(** The components at a real frequency: both rate coefficients solve the Riccati equation of the model, with the
    coefficient of the middle of each chunk, from zero and never have a positive real part, the variance
    coefficient is Heston's, and the constant is the sum of their integrals and the code's Simpson sum. *)
Theorem C85_riccati : forall lg p T n N q u z, open_model p -> fmm1_with_resolution p T n N = Ok q -> fmm1_components lg p q (RtoC u) = Ok z ->
  let h := fm_heston p in let d := fm_dom p in let f := fm_for p in
  exists E Dd Df, 0 < E <= T /\ (nth 0 (Fmm.dates (fm_tenor p)) 0 = 0 \/ / 10 ^ 12 < nth 0 (Fmm.dates (fm_tenor p)) 0 -> E = T) /\ sum_on (g_segments q) sg_length = E /\
  chunk_solution (fm_tenor p) d u T (g_segments q) Dd /\ chunk_solution (fm_tenor p) f u T (g_segments q) Df /\
  s_b z = (I_ * RtoC u)%C /\ s_c z = heston_c (RtoC u) (kappa h) (gamma h) (fc_xi_sigma (fm_corr p)) T /\ s_dd z = Dd E /\ s_df z = Df E /\
  exists quad, s_a z = (RtoC (kappa h * theta h) * cint (heston_c (RtoC u) (kappa h) (gamma h) (fc_xi_sigma (fm_corr p))) 0 E
    + RtoC (fs_lambda d * fs_v0 d) * cint Dd 0 E + RtoC (fs_lambda f * fs_v0 f) * cint Df 0 E
    + RtoC (- (1 / 2)) * (RtoC u * RtoC u + I_ * RtoC u) * RtoC quad)%C /\
  (forall v, (forall s t, In s (g_segments q) -> fmm_f_at lg p q t (sg_start s) = Ok (v s t)) ->
    quad = sum_on (g_segments q) (fun s => let h := sg_length s / INR N in sum_on (seq 0 (S N)) (fun k => weight k N * v s (T - (sg_tau s - sg_length s + INR k * h))) * h / 3)).
Proof.
  intros lg p T n N q u z M H Hz h d f. destruct (open_facts p M) as (G & O & K & Ga & Rh & _). destruct (sides_ok p M) as (Hld & Hed & _ & Hlf & Hef & _).
  destruct (built p T n N q G O H) as (_ & _ & _ & _ & ET & EN & _ & CA & E & ST). pose proof ST as ST0. destruct ST as (Ch & EE & EB & _ & EX & Ss). destruct (coefs_ok p T E n _ M ST0) as [Kd Kf]. pose proof O as (Od & Of & _).
  rewrite (components_ok lg p T n N q _ G O K H) in Hz. assert (Ez : z = components_of lg p q (RtoC u)) by congruence. rewrite Ez. destruct (chain_lengths _ _ Ch) as [L1 _].
  exists E, (path u (fs_lambda d) (fs_eta d) (fs_v0 d) sg_ad (g_segments q) 0 0), (path u (fs_lambda f) (fs_eta f) (fs_v0 f) sg_af (g_segments q) 0 0).
  split; [exact EB|]. split; [exact EX|]. split; [rewrite L1, EE; ring|]. split; [|split; [|split; [|split; [|split; [|split]]]]].
  - apply (path_solution p T E n); try assumption. intros s Hs. destruct (Ss s Hs) as (_ & _ & (_ & Q & _) & _). exact Q.
  - apply (path_solution p T E n); try assumption. intros s Hs. destruct (Ss s Hs) as (_ & _ & (_ & _ & Q) & _). exact Q.
  - reflexivity.
  - unfold components_of. cbn [s_c seg_value]. rewrite ET. reflexivity.
  - unfold components_of. cbn [s_dd seg_value]. rewrite <- EE. symmetry. apply path_end. exact Ch.
  - unfold components_of. cbn [s_df seg_value]. rewrite <- EE. symmetry. apply path_end. exact Ch.
  - exists (simpson_on (f_code lg p) T N 0 (g_segments q)). split.
    + rewrite <- EE. rewrite <- (seg_integral h (fc_xi_sigma (fm_corr p)) (fs_lambda d) (fs_eta d) (fs_v0 d) (fs_lambda f) (fs_eta f) (fs_v0 f) (f_code lg p) T (g_segments q)) by assumption.
      unfold components_of, seg_value. cbn [s_a]. rewrite ET, EN. reflexivity.
    + intros v Hv. assert (FC : forall s t, In s (g_segments q) -> f_code lg p t (sg_start s) = v s t).
      { intros s t Hs. pose proof (start_pos p T E n _ s ST0 Hs) as SP. specialize (Hv s t Hs). rewrite f_at_ok in Hv by assumption. congruence. }
      clear - Ch FC. revert Ch FC. generalize 0 at 1 2. induction (g_segments q) as [|s r IH]; intros prev Ch FC; [reflexivity|]. destruct Ch as (L & _ & Ch). cbn [simpson_on]. rewrite sum_on_cons. f_equal.
      * unfold simpson. cbv zeta. rewrite <- L. unfold wsum. rewrite <- sum_on_seq. f_equal. f_equal. apply sum_on_ext. intros k _. f_equal. replace (sg_tau s - sg_length s) with prev by lra.
        apply FC. left. reflexivity.
      * apply IH; [exact Ch|]. intros x t Hx. apply FC. right. exact Hx.
Qed.

(** * Convergence *)
Lemma lipschitz_a te s : FmmFacts.good_tenor te -> exists L, 0 <= L /\ forall t t', Rabs (FxFmmFacts.a_of te s 1 t - FxFmmFacts.a_of te s 1 t') <= L * Rabs (t - t').
Proof. intros G. destruct (FxFmmFacts.steady_a te s 1 G ltac:(lia)) as (B & L & _ & HL & _ & H). exists L. split; assumption. Qed.
Lemma middle_near (a : R -> R) T L seg tau h : 0 <= L -> sg_tau seg - sg_length seg <= tau <= sg_tau seg -> sg_length seg <= h ->
  Rabs (a (middle T seg) - a (T - tau)) <= L * Rabs (middle T seg - (T - tau)) -> Rabs (a (middle T seg) - a (T - tau)) <= L * (h / 2).
Proof. intros HL Ht Hh Q. eapply Rle_trans; [exact Q|]. apply Rmult_le_compat_l; [exact HL|]. unfold middle. apply Rabs_le. lra. Qed.

(** For [n] chunks to a segment the coefficient of each side is off by at most [L T / 2 n |u^2 + i u| sqrt (T / 8
    lambda)], whatever Lipschitz constant [L] its coefficient has; and it has one. *)
Theorem C85_error : forall lg p T n N q u z, open_model p -> fmm1_with_resolution p T n N = Ok q -> fmm1_components lg p q (RtoC u) = Ok z ->
  (nth 0 (Fmm.dates (fm_tenor p)) 0 = 0 \/ / 10 ^ 12 < nth 0 (Fmm.dates (fm_tenor p)) 0) ->
  let te := fm_tenor p in
  let lipschitz s L := 0 <= L /\ forall t t' a a', 0 <= t <= T -> 0 <= t' <= T -> fmm_a_side s te t (Fmm.eta te t) = Ok a -> fmm_a_side s te t' (Fmm.eta te t') = Ok a' -> Rabs (a - a') <= L * Rabs (t - t') in
  let bound s L := L * T / (2 * INR n) * (Cmod (RtoC u * RtoC u + I_ * RtoC u)%C * sqrt (T / (8 * fs_lambda s))) in
  (forall D L, side_solution te (fm_dom p) u T D -> lipschitz (fm_dom p) L -> Cmod (s_dd z - D T)%C <= bound (fm_dom p) L) /\
  (forall D L, side_solution te (fm_for p) u T D -> lipschitz (fm_for p) L -> Cmod (s_df z - D T)%C <= bound (fm_for p) L) /\
  exists L, lipschitz (fm_dom p) L /\ lipschitz (fm_for p) L.
Proof.
  intros lg p T n N q u z M H Hz T0 te lipschitz bound. destruct (open_facts p M) as (G & O & K & Ga & Rh & _). destruct (sides_ok p M) as (Hld & Hed & _ & Hlf & Hef & _).
  destruct (built p T n N q G O H) as (N1 & _ & _ & HT & ET & EN & _ & CA & E & ST). pose proof ST as ST0. destruct ST as (Ch & EE & EB & _ & EX & Ss). destruct (coefs_ok p T E n _ M ST0) as [Kd Kf]. pose proof O as (Od & Of & _).
  rewrite (EX T0) in *. clear EX.
  rewrite (components_ok lg p T n N q _ G O K H) in Hz. assert (Ez : z = components_of lg p q (RtoC u)) by congruence. rewrite Ez.
  assert (X : forall s coef D L, FxFmmFacts.side_ok s (Fmm.m_of te) -> fs_eta s <> 0 -> (forall seg, In seg (g_segments q) -> coef seg = FxFmmFacts.a_of te s 1 (middle T seg)) -> (forall seg, In seg (g_segments q) -> 0 <= coef seg) ->
    side_solution te s u T D -> lipschitz s L -> Cmod (side_end (RtoC u) (fs_lambda s) (fs_eta s) (fs_v0 s) coef (g_segments q) 0%C - D T)%C <= bound s L).
  { intros s coef D L Os He Co Kc SD [HL LI]. assert (Hl : 0 < fs_lambda s) by apply Os. apply (side_solves te s u T D G Os) in SD as (Z & Cn & So).
    rewrite <- (path_end u (fs_lambda s) (fs_eta s) (fs_v0 s) coef (g_segments q) 0 0 Ch). rewrite EE.
    assert (Np : 0 < INR n) by (apply lt_0_INR; lia).
    assert (BE : bound s L = L * (T / INR n / 2) * reach (fs_lambda s) (hb (RtoC u)) T).
    { unfold bound, reach. replace (hb (RtoC u)) with (- (RtoC u * RtoC u + I_ * RtoC u))%C by (unfold hb; apply C_eq; unfold I_, Cminus, Cplus, Cmult, Copp, RtoC; cbn; ring). rewrite Cmod_opp. field. lra. }
    rewrite BE. apply (riccati_distance (fs_lambda s) (fs_eta s) (hb (RtoC u)) T (map sg_tau (g_segments q)) [] (piece coef (g_segments q)) (fun tau => FxFmmFacts.a_of te s 1 (T - tau))); try assumption.
    - apply Rmult_le_pos; [exact HL|]. assert (0 < T / INR n) by (apply Rdiv_lt_0_compat; lra). lra.
    - rewrite <- EE at 1. apply path_solves; assumption.
    - rewrite Z. apply path_start. exact Ch.
    - intros t Ht Nt _. rewrite <- EE in Ht. destruct (in_segment_exists _ _ t Ch Ht) as [seg I]; [intros x Hx Q; apply Nt; rewrite Q; apply in_map; exact Hx|]. rewrite EE in Ht.
      destruct (in_segment_range _ _ _ _ Ch I) as [_ II]. pose proof (in_segment_bounds _ _ _ _ Ch I) as IB. rewrite (piece_in coef _ _ _ _ Ch I), (Co seg II). destruct (Ss seg II) as (A & B & _).
      pose proof (chain_below _ _ _ Ch II) as CB. rewrite EE in CB.
      apply (middle_near (FxFmmFacts.a_of te s 1)); [exact HL|lra|exact A|]. apply LI; [unfold middle; lra|lra|apply a_eta; assumption|apply a_eta; assumption].
    - lra. }
  split; [|split].
  - intros D L SD LI. unfold components_of. cbn [s_dd seg_value]. apply X; try assumption. intros s Hs. destruct (Ss s Hs) as (_ & _ & (_ & Q & _) & _). exact Q.
  - intros D L SD LI. unfold components_of. cbn [s_df seg_value]. apply X; try assumption. intros s Hs. destruct (Ss s Hs) as (_ & _ & (_ & _ & Q) & _). exact Q.
  - destruct (lipschitz_a te (fm_dom p) G) as (L1 & P1 & Q1), (lipschitz_a te (fm_for p) G) as (L2 & P2 & Q2). exists (L1 + L2). split; (split; [lra|]); intros t t' a a' _ _ E1 E2; rewrite a_eta in E1, E2 by assumption; inversion E1; inversion E2.
    + eapply Rle_trans; [apply Q1|]. apply Rmult_le_compat_r; [apply Rabs_pos|lra].
    + eapply Rle_trans; [apply Q2|]. apply Rmult_le_compat_r; [apply Rabs_pos|lra].
Qed.

Definition smooth_means (lg : R -> R) (p : fx_fmm) (T : R) : Prop :=
  forall t, 0 <= t <= T -> continuity_pt (phi_of lg (fm_heston p)) t /\ continuity_pt (phi_of lg (fmm_cir (fm_dom p))) t /\ continuity_pt (phi_of lg (fmm_cir (fm_for p))) t.
(** The affine function of the state [x, s, y_d, y_f] at calendar time [t], for given rate coefficients. *)
Definition fmm_affine (lg : R -> R) (p : fx_fmm) (u T : R) (Dd Df : R -> C) (t x s yd yf : R) : C :=
  let h := fm_heston p in
  let C_ tau := heston_c (RtoC u) (kappa h) (gamma h) (fc_xi_sigma (fm_corr p)) tau in
  cexp (RtoC (kappa h * theta h) * cint C_ 0 (T - t)%R + RtoC (fs_lambda (fm_dom p) * fs_v0 (fm_dom p)) * cint Dd 0 (T - t)%R + RtoC (fs_lambda (fm_for p) * fs_v0 (fm_for p)) * cint Df 0 (T - t)%R
    + RtoC (- (1 / 2)) * (RtoC u * RtoC u + I_ * RtoC u) * RtoC (RInt (fun tau => f_at lg p (T - tau)) 0 (T - t)%R)
    + I_ * RtoC u * RtoC x + C_ (T - t)%R * RtoC s + Dd (T - t)%R * RtoC yd + Df (T - t)%R * RtoC yf)%C.
Lemma affine_same lg p u T Dd Df t x s yd yf : affine_of (fm_heston p) (fc_xi_sigma (fm_corr p)) (fs_lambda (fm_dom p)) (fs_v0 (fm_dom p)) (fs_lambda (fm_for p)) (fs_v0 (fm_for p)) Dd Df (fun tau => f_at lg p (T - tau)) u T t x s yd yf
  = fmm_affine lg p u T Dd Df t x s yd yf.
Proof. unfold affine_of, affine_a, fmm_affine. cbv zeta. reflexivity. Qed.

Lemma steady_cont f t : FxFmmFacts.steady f -> continuity_pt f t.
Proof.
  intros (B & L & _ & HL & _ & H) e He. exists (e / (L + 1)). split; [apply Rdiv_lt_0_compat; lra|]. intros y [_ Hy]. cbn in *. unfold R_dist in *. eapply Rle_lt_trans; [apply H|].
  apply (Rmult_lt_compat_r (L + 1)) in Hy; [|lra]. unfold Rdiv in Hy. rewrite Rmult_assoc, Rinv_l, Rmult_1_r in Hy by lra. pose proof (Rabs_pos (y - t)). lra.
Qed.
Lemma cpt_const c t : continuity_pt (fun _ => c) t.
Proof. apply continuity_pt_const. intros ? ?. reflexivity. Qed.
Lemma f_cont lg p T t : FmmFacts.good_tenor (fm_tenor p) -> smooth_means lg p T -> 0 <= t <= T -> continuity_pt (fun t => f_code lg p t 1) t.
Proof.
  intros G Sm Ht. destruct (Sm t Ht) as (C1 & C2 & C3). set (te := fm_tenor p) in *.
  assert (W : forall s (xi : list R), continuity_pt (fun t => sum_on (from_to 1 (Fmm.m_of te)) (fun j => FxFmmFacts.decayed te s t j * nth (j - 1) xi 0)) t).
  { intros s xi. apply steady_cont. apply (FxFmmFacts.steady_sum (from_to 1 (Fmm.m_of te)) (fun j t => FxFmmFacts.decayed te s t j * nth (j - 1) xi 0)). intros j Hj. apply in_from_to in Hj.
    apply FxFmmFacts.steady_mult; [apply FxFmmFacts.steady_decayed; assumption|apply FxFmmFacts.steady_const]. }
  pose proof (steady_cont _ t (FxFmmFacts.steady_form te (fm_dom p) (fm_for p) (Fmm.m_of te) 1 (el (fc_cross (fm_corr p))) G ltac:(lia) ltac:(lia))) as F.
  unfold f_code, FxFmmFacts.f_of. fold te. cbv zeta.
  apply (continuity_pt_minus (fun t => 2 * phi_of lg (fm_heston p) t * phi_of lg (fmm_cir (fm_dom p)) t * sum_on (from_to 1 (Fmm.m_of te)) (fun j => FxFmmFacts.decayed te (fm_dom p) t j * nth (j - 1) (fc_xi_d (fm_corr p)) 0)
      - 2 * phi_of lg (fm_heston p) t * phi_of lg (fmm_cir (fm_for p)) t * sum_on (from_to 1 (Fmm.m_of te)) (fun j => FxFmmFacts.decayed te (fm_for p) t j * nth (j - 1) (fc_xi_f (fm_corr p)) 0))
    (fun t => 2 * phi_of lg (fmm_cir (fm_dom p)) t * phi_of lg (fmm_cir (fm_for p)) t * P_Hlmm.form (Fmm.m_of te) 1 (el (fc_cross (fm_corr p))) (FxFmmFacts.decayed te (fm_dom p) t) (FxFmmFacts.decayed te (fm_for p) t))).
  - apply continuity_pt_minus.
    + apply (continuity_pt_mult (fun t => 2 * phi_of lg (fm_heston p) t * phi_of lg (fmm_cir (fm_dom p)) t)); [|apply W]. apply continuity_pt_mult; [apply continuity_pt_mult; [apply cpt_const|exact C1]|exact C2].
    + apply (continuity_pt_mult (fun t => 2 * phi_of lg (fm_heston p) t * phi_of lg (fmm_cir (fm_for p)) t)); [|apply W]. apply continuity_pt_mult; [apply continuity_pt_mult; [apply cpt_const|exact C1]|exact C3].
  - apply (continuity_pt_mult (fun t => 2 * phi_of lg (fmm_cir (fm_dom p)) t * phi_of lg (fmm_cir (fm_for p)) t)); [|exact F]. apply continuity_pt_mult; [apply continuity_pt_mult; [apply cpt_const|exact C2]|exact C3].
Qed.
Lemma g_cont lg p T x : FmmFacts.good_tenor (fm_tenor p) -> smooth_means lg p T -> 0 <= x <= T -> continuity_pt (fun x => f_code lg p (T - x) 1) x.
Proof. intros G Sm Hx. apply (cpt_reflect (fun t => f_code lg p t 1)). apply (f_cont lg p T); try assumption. lra. Qed.
Lemma lim_over c : is_lim_seq (fun k => c / INR (S k)) 0.
Proof.
  apply (is_lim_seq_incr_1 (fun k => c / INR k)). replace (Finite 0) with (Finite (c * 0)) by (f_equal; ring). apply is_lim_seq_mult'; [apply is_lim_seq_const|].
  exact (is_lim_seq_inv INR p_infty is_lim_seq_INR ltac:(discriminate)).
Qed.

Section Finer.
  Context (lg : R -> R) (p : fx_fmm) (u T : R) (N : nat -> nat) (q : nat -> fmm1_chf).
  Context (M : open_model p) (HT : 0 < T) (T0 : nth 0 (Fmm.dates (fm_tenor p)) 0 = 0 \/ / 10 ^ 12 < nth 0 (Fmm.dates (fm_tenor p)) 0).
  Context (Q : forall k, fmm1_with_resolution p T (S k) (N k) = Ok (q k)).
  Let te := fm_tenor p.
  Local Notation segs k := (g_segments (q k)).
  Lemma finer k : structured p T T (S k) (segs k) /\ (2 <= N k)%nat /\ (N k mod 2 = 0)%nat /\ g_n (q k) = N k /\ g_expiry (q k) = T.
  Proof.
    destruct (open_facts p M) as (G & O & _). destruct (built p T _ _ _ G O (Q k)) as (_ & N2 & NE & _ & ET & EN & _ & _ & E & ST). pose proof ST as (_ & _ & _ & _ & EX & _). rewrite (EX T0) in ST. split; [exact ST|]. split; [exact N2|]. split; [exact NE|]. split; [exact EN|exact ET].
  Qed.
  Lemma quad_limit : smooth_means lg p T -> is_lim_seq (fun k => simpson_on (f_code lg p) T (N k) 0 (segs k)) (RInt (fun tau => f_at lg p (T - tau)) 0 T).
  Proof.
    intros Sm. destruct (open_facts p M) as (G & O & K & _).
    assert (GE : RInt (fun tau => f_at lg p (T - tau)) 0 T = RInt (fun x => f_code lg p (T - x) 1) 0 T) by (apply RInt_ext; intros x _; apply f_at_code; assumption). rewrite GE.
    apply is_lim_seq_spec. intros [eps He]. cbn [pos]. pose proof (Rdiv_lt_0_compat eps (T + 1) He ltac:(lra)) as Hm.
    destruct (Heine_cor2 (f := fun x => f_code lg p (T - x) 1) (a := 0) (b := T) (fun x Hx => g_cont lg p T x G Sm Hx) (mkposreal _ Hm)) as [[d Hd] HU]. cbn [pos] in HU.
    pose proof (proj2 (is_lim_seq_spec _ _) (lim_over T) (mkposreal d Hd)) as [k0 Hk0]. exists k0. intros k Hk. specialize (Hk0 k Hk). cbn [pos] in Hk0. rewrite Rminus_0_r in Hk0. apply Rabs_def2 in Hk0.
    destruct (finer k) as (ST & N2 & NE & _). pose proof ST as (Ch & EE & _ & _ & _ & Ss).
    assert (B : Rabs (simpson_on (f_code lg p) T (N k) 0 (segs k) - RInt (fun x => f_code lg p (T - x) 1) 0 (chain_end 0 (segs k))) <= eps / (T + 1) * (chain_end 0 (segs k) - 0)).
    { apply simpson_on_near; try assumption; [intros x Hx; rewrite EE in Hx; apply (g_cont lg p T x G Sm Hx)|].
      intros s x y Hs Hx Hy. destruct (Ss s Hs) as (LE & LO & _). pose proof (chain_below _ _ _ Ch Hs) as CB. rewrite EE in CB.
      destruct (le_lt_dec (sg_start s) (Fmm.m_of te)) as [S1|S1].
      - rewrite (f_inside lg p T T (S k) (segs k) s x G ST Hs S1 Hx). left. apply HU; [lra|lra|]. apply Rabs_def1; lra.
      - destruct (f_outside lg p T T (S k) (segs k) s (T - x) G ST Hs S1) as [F1 F2]. rewrite F1, <- F2. replace (middle T s) with (T - (sg_tau s - sg_length s / 2)) by reflexivity. left.
        apply (HU (sg_tau s - sg_length s / 2) y); [lra|lra|]. apply Rabs_def1; lra. }
    rewrite EE in B. eapply Rle_lt_trans; [exact B|]. rewrite Rminus_0_r. apply (Rmult_lt_reg_r (T + 1)); [lra|]. replace (eps / (T + 1) * T * (T + 1)) with (eps * T) by (field; lra). nra.
  Qed.
  Lemma side_limit s coef : FxFmmFacts.side_ok s (Fmm.m_of te) -> fs_eta s <> 0 -> P_Hlmm1Chf.semidefinite (fs_corr s) -> (forall k seg, In seg (segs k) -> coef seg = FxFmmFacts.a_of te s 1 (middle T seg)) ->
    exists D, side_solution te s u T D /\ clim (fun k => path u (fs_lambda s) (fs_eta s) (fs_v0 s) coef (segs k) 0%C 0 T) (D T) /\ clim (fun k => cint (path u (fs_lambda s) (fs_eta s) (fs_v0 s) coef (segs k) 0%C 0) 0 T) (cint D 0 T).
  Proof.
    intros Os He PS Co. destruct (open_facts p M) as (G & O & _). assert (Hl : 0 < fs_lambda s) by apply Os. destruct (lipschitz_a te s G) as (L & HL & LI).
    assert (Ch : forall k, chain 0 (segs k)) by (intros k; destruct (finer k) as ((X & _) & _); exact X). assert (En : forall k, chain_end 0 (segs k) = T) by (intros k; destruct (finer k) as ((_ & X & _) & _); exact X).
    assert (Kc : forall k, coefs coef (segs k)) by (intros k seg Hs; rewrite (Co k seg Hs); apply a_nonneg; assumption).
    assert (Ca : forall t, continuity_pt (fun tau => FxFmmFacts.a_of te s 1 (T - tau)) t) by (intros t; apply (cpt_reflect (FxFmmFacts.a_of te s 1)), steady_cont, FxFmmFacts.steady_a; [exact G|lia]).
    assert (Dp : forall k, 0 <= L * (T / INR (S k) / 2)). { intros k. apply Rmult_le_pos; [exact HL|]. assert (0 < T / INR (S k)) by (apply Rdiv_lt_0_compat; [lra|apply lt_0_INR; lia]). lra. }
    assert (Dl : is_lim_seq (fun k => L * (T / INR (S k) / 2)) 0).
    { replace (Finite 0) with (Finite (L * (0 / 2))) by (f_equal; field). apply is_lim_seq_mult'; [apply is_lim_seq_const|]. apply is_lim_seq_mult'; [apply lim_over|apply is_lim_seq_const]. }
    assert (Near : forall k tau seg, in_segment 0 (segs k) tau seg -> Rabs (coef seg - FxFmmFacts.a_of te s 1 (T - tau)) <= L * (T / INR (S k) / 2)).
    { intros k tau seg I. destruct (in_segment_range _ _ _ _ (Ch k) I) as [_ II]. pose proof (in_segment_bounds _ _ _ _ (Ch k) I) as IB. rewrite (Co k seg II). destruct (finer k) as ((_ & _ & _ & _ & _ & Ss) & _). destruct (Ss seg II) as (A & _).
      apply (middle_near (FxFmmFacts.a_of te s 1)); [exact HL|lra|exact A|apply LI]. }
    exists (limit_path u (fs_lambda s) (fs_eta s) (fs_v0 s) coef (fun k => segs k)). split; [|split].
    - apply (side_solves te s u T _ G Os). split; [exact (limit_start u (fs_lambda s) (fs_eta s) (fs_v0 s) T coef (fun k => segs k) (fun tau => FxFmmFacts.a_of te s 1 (T - tau)) (fun k => L * (T / INR (S k) / 2)) Hl He HT Ch En Kc Dp Dl Near)|]. split; [exact (limit_cont u (fs_lambda s) (fs_eta s) (fs_v0 s) T coef (fun k => segs k) (fun tau => FxFmmFacts.a_of te s 1 (T - tau)) (fun k => L * (T / INR (S k) / 2)) Hl He HT Ch En Kc Dp Dl Near)|]. exact (limit_solves u (fs_lambda s) (fs_eta s) (fs_v0 s) T coef (fun k => segs k) (fun tau => FxFmmFacts.a_of te s 1 (T - tau)) (fun k => L * (T / INR (S k) / 2)) Hl He HT Ch En Kc Ca Dp Dl Near).
    - exact (limit_end_clim u (fs_lambda s) (fs_eta s) (fs_v0 s) T coef (fun k => segs k) (fun tau => FxFmmFacts.a_of te s 1 (T - tau)) (fun k => L * (T / INR (S k) / 2)) Hl He HT Ch En Kc Ca Dp Dl Near).
    - exact (limit_cint_clim u (fs_lambda s) (fs_eta s) (fs_v0 s) T coef (fun k => segs k) (fun tau => FxFmmFacts.a_of te s 1 (T - tau)) (fun k => L * (T / INR (S k) / 2)) Hl He HT Ch En Kc Dp Dl Near).
  Qed.
End Finer.

(** As the chunks get finer, with any even number of nodes in each, the value tends to the affine function of
    today's state, at the logarithm of today's rate, for rate coefficients solving the model's Riccati equations;
    there is only one such pair. *)
Theorem C85_limit : forall lg p u T (N : nat -> nat), open_model p -> 0 < T -> (nth 0 (Fmm.dates (fm_tenor p)) 0 = 0 \/ / 10 ^ 12 < nth 0 (Fmm.dates (fm_tenor p)) 0) ->
  (forall k r, nth_error (Fmm.initial_rates (fm_tenor p)) k = Some r -> 1 + (nth (k + 1) (Fmm.dates (fm_tenor p)) 0 - nth k (Fmm.dates (fm_tenor p)) 0) * r <> 0) -> smooth_means lg p T ->
  (forall k, (2 <= N k)%nat /\ (N k mod 2 = 0)%nat) ->
  exists Dd Df z, side_solution (fm_tenor p) (fm_dom p) u T Dd /\ side_solution (fm_tenor p) (fm_for p) u T Df /\
  (forall D tau, 0 <= tau <= T -> (side_solution (fm_tenor p) (fm_dom p) u T D -> D tau = Dd tau) /\ (side_solution (fm_tenor p) (fm_for p) u T D -> D tau = Df tau)) /\
  (forall k, exists q, fmm1_with_resolution p T (S k) (N k) = Ok q /\ fmm1_evaluate lg p q (RtoC u) = Ok (z k)) /\
  clim z (fmm_affine lg p u T Dd Df 0 (ln (fm_fx0 p)) (sigma_0 (fm_heston p)) (fs_v0 (fm_dom p)) (fs_v0 (fm_for p))).
Proof.
  intros lg p u T N M HT T0 LR Sm NN. destruct (open_facts p M) as (G & O & K & Ga & Rh & _). destruct (sides_ok p M) as (Hld & Hed & _ & Hlf & Hef & _). pose proof O as (Od & Of & _).
  set (q := fun k => match fmm1_with_resolution p T (S k) (N k) with Ok q => q | _ => {| g_expiry := 0; g_segments := []; g_psi_d := []; g_psi_f := []; g_substeps := 0; g_n := 0 |} end).
  assert (Q : forall k, fmm1_with_resolution p T (S k) (N k) = Ok (q k)).
  { intros k. destruct (NN k) as [N2 NE]. destruct (built_ok p T (S k) (N k) G O ltac:(lia) N2 NE HT) as [x X]. unfold q. rewrite X. reflexivity. }
  assert (OR : open_rates (fm_tenor p)).
  { intros k Hk. specialize (LR (k - 1)%nat (nth (k - 1) (Fmm.initial_rates (fm_tenor p)) 0)). replace (k - 1 + 1)%nat with k in LR by lia. apply LR. apply nth_error_nth'. unfold Fmm.m_of in Hk. lia. }
  assert (F : forall k, structured p T T (S k) (g_segments (q k))) by (intros k; apply (finer p T N q M T0 Q k)).
  pose proof M as (_ & _ & _ & _ & _ & Pd & Pf).
  destruct (side_limit lg p u T N q M HT T0 Q (fm_dom p) sg_ad Od Hed Pd) as (Dd & SD & E1 & I1). { intros k s Hs. destruct (F k) as (_ & _ & _ & _ & _ & Ss). destruct (Ss s Hs) as (_ & _ & (_ & X & _) & _). exact X. }
  destruct (side_limit lg p u T N q M HT T0 Q (fm_for p) sg_af Of Hef Pf) as (Df & SF & E2 & I2). { intros k s Hs. destruct (F k) as (_ & _ & _ & _ & _ & Ss). destruct (Ss s Hs) as (_ & _ & (_ & _ & X) & _). exact X. }
  exists Dd, Df, (fun k => seg_assemble (components_of lg p (q k) (RtoC u)) (ln (fm_fx0 p)) (sigma_0 (fm_heston p)) (fs_v0 (fm_dom p)) (fs_v0 (fm_for p))).
  split; [exact SD|]. split; [exact SF|]. split; [|split].
  - assert (X : forall s D D', FxFmmFacts.side_ok s (Fmm.m_of (fm_tenor p)) -> side_solution (fm_tenor p) s u T D -> side_solution (fm_tenor p) s u T D' -> forall tau, 0 <= tau <= T -> D' tau = D tau).
    { intros s D D' Os S1 S2 tau Ht. apply (side_solves _ _ _ _ _ G Os) in S1 as (Z1 & _ & So1), S2 as (Z2 & _ & So2).
      assert (B : Cmod (D' tau - D tau)%C <= 0 * reach (fs_lambda s) (hb (RtoC u)) T).
      { eapply riccati_distance; [apply Os|lra|exact So2|exact So1|rewrite Z1, Z2; reflexivity| |exact Ht]. intros t _ _ _. rewrite Rminus_eq_0, Rabs_R0. lra. }
      rewrite Rmult_0_l in B. assert (B0 : Cmod (D' tau - D tau)%C = 0) by (pose proof (Cmod_ge_0 (D' tau - D tau)%C); lra). apply Cmod_eq_0 in B0.
      replace (D' tau) with ((D' tau - D tau) + D tau)%C by ring. rewrite B0. ring. }
    intros D tau Ht. split; intros S1; [apply (X (fm_dom p))|apply (X (fm_for p))]; assumption.
  - intros k. exists (q k). split; [apply Q|]. rewrite (evaluate_ok lg p T _ _ _ _ G O K (Q k)). rewrite (x0_fx p T G OR). reflexivity.
  - rewrite <- affine_same. unfold seg_assemble, affine_of. rewrite Rminus_0_r. apply clim_exp.
    assert (EQ : forall k, components_of lg p (q k) (RtoC u) = seg_value (fm_heston p) (fc_xi_sigma (fm_corr p)) (fs_lambda (fm_dom p)) (fs_eta (fm_dom p)) (fs_v0 (fm_dom p)) (fs_lambda (fm_for p)) (fs_eta (fm_for p)) (fs_v0 (fm_for p)) (f_code lg p) T (g_segments (q k)) (N k) (RtoC u)).
    { intros k. destruct (finer p T N q M T0 Q k) as (_ & _ & _ & EN & ET). unfold components_of. rewrite EN, ET. reflexivity. }
    assert (A : clim (fun k => s_a (components_of lg p (q k) (RtoC u))) (affine_a (fm_heston p) (fc_xi_sigma (fm_corr p)) (fs_lambda (fm_dom p)) (fs_v0 (fm_dom p)) (fs_lambda (fm_for p)) (fs_v0 (fm_for p)) Dd Df (fun tau => f_at lg p (T - tau)) u T)).
    { eapply clim_ext.
      { intros k. symmetry. rewrite EQ. destruct (F k) as (Ch & EE & _). destruct (coefs_ok p T T (S k) _ M (F k)) as [Kd Kf]. rewrite seg_integral by assumption. rewrite EE. reflexivity. }
      unfold affine_a. apply clim_plus; [|apply clim_scal, clim_real, quad_limit; assumption]. apply clim_plus; [apply clim_plus; [apply clim_const|apply clim_scal, I1]|apply clim_scal, I2]. }
    assert (P1 : clim (fun k => s_dd (components_of lg p (q k) (RtoC u))) (Dd T)).
    { eapply clim_ext; [|exact E1]. intros k. rewrite EQ. cbn [s_dd seg_value]. destruct (F k) as (Ch & EE & _). rewrite <- EE at 1. apply path_end. exact Ch. }
    assert (P2 : clim (fun k => s_df (components_of lg p (q k) (RtoC u))) (Df T)).
    { eapply clim_ext; [|exact E2]. intros k. rewrite EQ. cbn [s_df seg_value]. destruct (F k) as (Ch & EE & _). rewrite <- EE at 1. apply path_end. exact Ch. }
    assert (CM : forall (a : nat -> C) x c, clim a x -> clim (fun k => a k * RtoC c)%C (x * RtoC c)%C).
    { intros a x c Ha. eapply clim_ext; [intros k; apply Cmult_comm|]. rewrite Cmult_comm. apply clim_scal, Ha. }
    apply clim_plus; [apply clim_plus; [apply clim_plus; [apply clim_plus; [exact A|]|]|apply CM, P1]|apply CM, P2].
    + eapply clim_ext; [|apply clim_const]. intros k. rewrite EQ. reflexivity.
    + eapply clim_ext; [|apply clim_const]. intros k. rewrite EQ. reflexivity.
Qed.

(** For any such coefficients the affine function is [exp (i u x)] at expiry and, at every time before it,
    solves the backward equation of the model with variance [s + A_d y_d + A_f y_f + f]. *)
Theorem C85_pde : forall lg p u T Dd Df t ad af, open_model p -> smooth_means lg p T ->
  side_solution (fm_tenor p) (fm_dom p) u T Dd -> side_solution (fm_tenor p) (fm_for p) u T Df ->
  0 < t < T -> fmm_a_d p t (Fmm.eta (fm_tenor p) t) = Ok ad -> fmm_a_f p t (Fmm.eta (fm_tenor p) t) = Ok af ->
  let h := fm_heston p in let d := fm_dom p in let f := fm_for p in
  let V := fmm_affine lg p u T Dd Df in
  (forall x s yd yf, V T x s yd yf = cexp (I_ * RtoC u * RtoC x)%C) /\
  exists Vx Vs Vd Vf : R -> R -> R -> R -> C,
  (forall x s yd yf, cderive (fun z => V t z s yd yf) x (Vx x s yd yf)) /\ (forall x s yd yf, cderive (fun z => V t x z yd yf) s (Vs x s yd yf)) /\
  (forall x s yd yf, cderive (fun z => V t x s z yf) yd (Vd x s yd yf)) /\ (forall x s yd yf, cderive (fun z => V t x s yd z) yf (Vf x s yd yf)) /\
  forall x s yd yf, exists Vt Vxx Vss Vsx Vdd Vff,
    cderive (fun z => V z x s yd yf) t Vt /\ cderive (fun z => Vx z s yd yf) x Vxx /\ cderive (fun z => Vs x z yd yf) s Vss /\ cderive (fun z => Vs z s yd yf) x Vsx /\
    cderive (fun z => Vd x s z yf) yd Vdd /\ cderive (fun z => Vf x s yd z) yf Vff /\
    let v := s + ad * yd + af * yf + f_at lg p t in
    (Vt + RtoC (v / 2) * (Vxx - Vx x s yd yf)
     + RtoC (kappa h * (theta h - s)) * Vs x s yd yf + RtoC (gamma h ^ 2 * s / 2) * Vss + RtoC (fc_xi_sigma (fm_corr p) * gamma h * s) * Vsx
     + RtoC (fs_lambda d * (fs_v0 d - yd)) * Vd x s yd yf + RtoC (fs_eta d ^ 2 * yd / 2) * Vdd
     + RtoC (fs_lambda f * (fs_v0 f - yf)) * Vf x s yd yf + RtoC (fs_eta f ^ 2 * yf / 2) * Vff)%C = 0%C.
Proof.
  intros lg p u T Dd Df t ad af M Sm SD SF Ht EA EF h d f V. destruct (open_facts p M) as (G & O & K & Ga & Rh & _).
  destruct SD as (Z1 & C1 & _ & R1'), SF as (Z2 & C2 & _ & R2'). split.
  { intros x s yd yf. unfold V, fmm_affine. cbv zeta. rewrite Rminus_eq_0, heston_c_neg, Z1, Z2 by lra. unfold cint. rewrite !RInt_point. f_equal. apply C_eq; cbn; unfold zero; cbn; ring. }
  assert (FE : forall x, f_at lg p (T - x) = f_code lg p (T - x) 1) by (intros x; apply f_at_code; assumption).
  assert (CG : forall x, 0 <= x <= T -> continuity_pt (fun tau => f_at lg p (T - tau)) x) by (intros x Hx; apply (continuity_pt_ext (fun x => f_code lg p (T - x) 1)); [intros; symmetry; apply FE|apply (g_cont lg p T x G Sm Hx)]).
  assert (XG : ex_RInt (fun tau => f_at lg p (T - tau)) 0 T) by (apply ex_RInt_cont; [lra|exact CG]).
  replace t with (T - (T - t)) in EA by ring. replace t with (T - (T - t)) in EF by ring.
  pose proof (R1' (T - t) ad ltac:(lra) EA) as RD. pose proof (R2' (T - t) af ltac:(lra) EF) as RF.
  pose proof (seg_pde h (fc_xi_sigma (fm_corr p)) (fs_lambda d) (fs_eta d) (fs_v0 d) (fs_lambda f) (fs_eta f) (fs_v0 f) Dd Df (fun tau => f_at lg p (T - tau)) u T T t ad af K Rh ltac:(lra) C1 C2 XG (CG (T - t) ltac:(lra)) RD RF) as P.
  cbv beta zeta in P. replace (T - (T - t)) with t in P by ring. cbv zeta. exact P.
Qed.

(** * The values *)
Lemma components_value lg p T n N q w : FmmFacts.good_tenor (fm_tenor p) -> FxFmmFacts.fmm_ok p -> fmm1_with_resolution p T n N = Ok q ->
  components_of lg p q w = seg_value (fm_heston p) (fc_xi_sigma (fm_corr p)) (fs_lambda (fm_dom p)) (fs_eta (fm_dom p)) (fs_v0 (fm_dom p)) (fs_lambda (fm_for p)) (fs_eta (fm_for p)) (fs_v0 (fm_for p)) (f_code lg p) T (g_segments q) N w.
Proof. intros G O H. destruct (built p T n N q G O H) as (_ & _ & _ & _ & ET & EN & _). unfold components_of. rewrite ET, EN. reflexivity. Qed.

(** A lower bound on the covariance bounds the modulus; where the covariance is not negative it is at most one. *)
Theorem C85_modulus : forall lg p T n N q u z c, open_model p -> 0 <= theta (fm_heston p) -> 0 <= sigma_0 (fm_heston p) -> fmm1_with_resolution p T n N = Ok q -> fmm1_evaluate lg p q (RtoC u) = Ok z ->
  (forall t start v, 0 <= t <= T -> (1 <= start)%nat -> fmm_f lg p t start = Ok v -> - c <= v) -> 0 <= c -> Cmod z <= exp (u ^ 2 * c * T / 2).
Proof.
  intros lg p T n N q u z c M Hth Hs H Hz Lf Hc. destruct (open_facts p M) as (G & O & K & Ga & Rh & _). destruct (sides_ok p M) as (Hld & Hed & Hvd & Hlf & Hef & Hvf).
  destruct (built p T n N q G O H) as (_ & N2 & NE & _ & _ & _ & _ & _ & E & ST). pose proof ST as (Ch & EE & EB & _ & _ & Ss). destruct (coefs_ok p T E n _ M ST) as [Kd Kf].
  rewrite (evaluate_ok lg p T n N q _ G O K H) in Hz. assert (Ez : z = seg_assemble (components_of lg p q (RtoC u)) (x0_val p T) (sigma_0 (fm_heston p)) (fs_v0 (fm_dom p)) (fs_v0 (fm_for p))) by congruence. rewrite Ez.
  rewrite (components_value lg p T n N q _ G O H). eapply Rle_trans; [apply seg_modulus; try assumption; lra|].
  pose proof (P_Hlmm1Chf.simpson_on_ge (f_code lg p) T N (- c) (g_segments q) N2 NE 0 Ch ltac:(lra) ltac:(lra)) as S.
  rewrite EE in S. assert (Q : - c * (E - 0) <= simpson_on (f_code lg p) T N 0 (g_segments q)).
  { apply S. intros s t Hsg Ht. pose proof (start_pos p T E n _ s ST Hsg) as SP. apply (Lf t (sg_start s)); [exact Ht|exact SP|]. apply f_fmm; assumption. }
  assert (L : - (u * u / 2 * simpson_on (f_code lg p) T N 0 (g_segments q)) <= u ^ 2 * c * T / 2).
  { assert (0 <= u * u) by nra. assert (c * E <= c * T) by (apply Rmult_le_compat_l; lra). assert (- simpson_on (f_code lg p) T N 0 (g_segments q) <= c * T) by lra. nra. }
  destruct L as [L|L]; [left; apply exp_increasing; exact L|right; rewrite L; reflexivity].
Qed.

(** The value at zero is one, and at [-i] it is today's rate when the mean reversion exceeds [gamma] times the
    correlation (otherwise the code divides zero by zero). *)
Theorem C85_martingale : forall lg p T n N q, open_model p -> fmm1_with_resolution p T n N = Ok q ->
  fmm1_evaluate lg p q 0%C = Ok (RtoC 1) /\
  (0 < fm_fx0 p -> gamma (fm_heston p) * fc_xi_sigma (fm_corr p) < kappa (fm_heston p) ->
   (forall k r, nth_error (Fmm.initial_rates (fm_tenor p)) k = Some r -> 1 + (nth (k + 1) (Fmm.dates (fm_tenor p)) 0 - nth k (Fmm.dates (fm_tenor p)) 0) * r <> 0) ->
   fmm1_evaluate lg p q (0, -1) = Ok (RtoC (fm_fx0 p))).
Proof.
  intros lg p T n N q M H. destruct (open_facts p M) as (G & O & K & Ga & Rh & _). destruct (sides_ok p M) as (Hld & Hed & Hvd & Hlf & Hef & Hvf). split.
  - rewrite (evaluate_ok lg p T n N q _ G O K H), (components_value lg p T n N q _ G O H). rewrite (seg_flat _ _ _ _ _ _ _ _ _ _ _ _ _ (kappa (fm_heston p))); try assumption.
    + rewrite <- cexp_0. apply f_equal. f_equal. ring.
    + unfold hb. ring.
    + unfold hx. apply C_eq; unfold I_, Cminus, Cplus, Cmult, Copp, RtoC; cbn; ring.
  - intros F KG LR. rewrite (evaluate_ok lg p T n N q _ G O K H), (components_value lg p T n N q _ G O H). assert (Ei : (I_ * (0, -1))%C = 1%C) by (apply C_eq; unfold I_, Cmult, RtoC; cbn; ring).
    rewrite (seg_flat _ _ _ _ _ _ _ _ _ _ _ _ _ (kappa (fm_heston p) - gamma (fm_heston p) * fc_xi_sigma (fm_corr p))); try assumption.
    + rewrite Ei, Cmult_1_l, cexp_real. rewrite (x0_fx p T G); [rewrite exp_ln by exact F; reflexivity|].
      intros k Hk. specialize (LR (k - 1)%nat (nth (k - 1) (Fmm.initial_rates (fm_tenor p)) 0)). replace (k - 1 + 1)%nat with k in LR by lia. apply LR. apply nth_error_nth'. unfold Fmm.m_of in Hk. lia.
    + unfold hb. rewrite Ei. ring.
    + unfold hx. rewrite Ei. apply C_eq; unfold Cminus, Cplus, Cmult, Copp, RtoC; cbn; ring.
    + apply Rlt_Rminus. exact KG.
Qed.

(** The value at the opposite frequency is the conjugate, so the implied density is real. *)
Theorem C85_conjugate : forall lg p T n N q u z, open_model p -> fmm1_with_resolution p T n N = Ok q -> fmm1_evaluate lg p q (RtoC u) = Ok z ->
  fmm1_evaluate lg p q (RtoC (- u)) = Ok (Cconj z).
Proof.
  intros lg p T n N q u z M H Hz. destruct (open_facts p M) as (G & O & K & Ga & Rh & _). destruct (sides_ok p M) as (Hld & Hed & Hvd & Hlf & Hef & Hvf).
  destruct (built p T n N q G O H) as (_ & _ & _ & _ & _ & _ & _ & _ & E & ST). pose proof ST as (Ch & _). destruct (coefs_ok p T E n _ M ST) as [Kd Kf].
  rewrite (evaluate_ok lg p T n N q _ G O K H), (components_value lg p T n N q _ G O H) in Hz. rewrite (evaluate_ok lg p T n N q _ G O K H), (components_value lg p T n N q _ G O H).
  rewrite (seg_conj (fm_heston p) _ _ _ _ _ _ _ _ _ _ K Ga Rh Hld Hed Hlf Hef Ch Kd Kf). apply f_equal. congruence.
Qed.

(** What the pricer is given: the value itself at every real frequency, the expiry, and the logarithm of the
    forward the value at [-i] shows. *)
Theorem C85_pricer : forall lg p T n N q, open_model p -> 0 < fm_fx0 p -> gamma (fm_heston p) * fc_xi_sigma (fm_corr p) < kappa (fm_heston p) ->
  (forall k r, nth_error (Fmm.initial_rates (fm_tenor p)) k = Some r -> 1 + (nth (k + 1) (Fmm.dates (fm_tenor p)) 0 - nth k (Fmm.dates (fm_tenor p)) 0) * r <> 0) -> fmm1_with_resolution p T n N = Ok q ->
  let c := fmm1_forward_chf lg p q in
  CosPricer.expiry c = T /\ (forall u, fmm1_evaluate lg p q (RtoC u) = Ok (CosPricer.evaluate c u)) /\ CosPricer.evaluate c 0 = RtoC 1 /\
  fmm1_evaluate lg p q (0, -1) = Ok (RtoC (exp (CosPricer.log_forward c))).
Proof.
  intros lg p T n N q M F KG LR H c. destruct (open_facts p M) as (G & O & K & _). destruct (built p T n N q G O H) as (_ & _ & _ & _ & ET & _). destruct (C85_martingale lg p T n N q M H) as [Z1 Z2].
  split; [exact ET|]. split; [|split].
  - intros u. cbn [c CosPricer.evaluate fmm1_forward_chf]. rewrite (evaluate_ok lg p T n N q _ G O K H). reflexivity.
  - cbn [c CosPricer.evaluate fmm1_forward_chf]. rewrite Z1. reflexivity.
  - cbn [c CosPricer.log_forward fmm1_forward_chf]. rewrite exp_ln by exact F. apply Z2; assumption.
Qed.

(** The last tenor date is not a boundary: one period of a year and an expiry of three, at the resolution [new]
    uses, is a single chunk whose middle is past the last date.  Both coefficients of the rates are then zero at
    every frequency, though the rates are alive for the first year and the model's are not zero. *)
Definition short_side : fmm_side := {| fs_sigmas := 1 / 50 :: nil; fs_lambda := 1; fs_eta := 1 / 10; fs_v0 := 1; fs_corr := ((1 :: nil) :: nil) |}.
Definition short_tenor : Fmm.fmm_tenor := {| Fmm.dates := [0; 1]; Fmm.initial_rates := 1 / 50 :: nil |}.
Definition short_fmm : fx_fmm :=
  {| fm_fx0 := 135 / 100; fm_heston := {| kappa := (1 / 2 : num R_numbers); theta := (1 / 10 : num R_numbers); gamma := (3 / 10 : num R_numbers); sigma_0 := (1 / 10 : num R_numbers) |};
     fm_tenor := short_tenor; fm_dom := short_side; fm_for := short_side;
     fm_corr := {| fc_xi_sigma := - (4 / 10); fc_xi_d := - (15 / 100) :: nil; fc_xi_f := - (15 / 100) :: nil; fc_sigma_d := 1 / 10 :: nil; fc_sigma_f := 1 / 10 :: nil; fc_cross := ((1 / 4 :: nil) :: nil) |} |}.
Lemma short_open : open_model short_fmm.
Proof.
  split; [exists [0; 1], (1 / 50 :: nil)|split; [|split; [cbn; lra|split; [cbn; lra|split; [cbn; lra|]]]]].
  - apply FmmFacts.tenor_new_spec. split; [reflexivity|]. unfold FmmFacts.good_tenor, Fmm.m_of, Fmm.date_at. cbn. split; [lia|]. split; [reflexivity|]. split; [lra|]. intros i H. destruct i as [|i]; cbn; try lia; lra.
  - pose proof slack_pos as SP. assert (A : forall x, -1 <= x <= 1 -> Rabs x <= 1 + slack) by (intros x Hx; assert (Rabs x <= 1) by (apply Rabs_le; lra); lra).
    assert (Z : forall x, close x x) by (intros x; unfold close; replace (x - x) with 0 by ring; rewrite Rabs_R0; lra).
    assert (L : FxFmmFacts.side_ok short_side 1).
    { unfold FxFmmFacts.side_ok, corr_ok, square. cbn [fs_sigmas fs_corr fs_lambda fs_eta fs_v0 short_side length]. repeat split; try lra.
      - intros row [<-|[]]; reflexivity.
      - intros i Hi. destruct i as [|i]; [apply Z|lia].
      - destruct i as [|i], j as [|j]; try lia; apply Z.
      - destruct i as [|i], j as [|j]; try lia; apply A; cbn; lra.
      - intros x [<-|[]]; lra. }
    apply FxFmmFacts.fmm_validate_iff. split; [exact L|]. split; [exact L|]. unfold FxFmmFacts.fcorr_ok, square. cbn [fc_xi_sigma fc_xi_d fc_xi_f fc_sigma_d fc_sigma_f fc_cross fm_corr short_fmm length app]. repeat split.
    + apply A. lra.
    + intros row [<-|[]]; reflexivity.
    + intros row r [<-|[]] [<-|[]]; apply A; lra.
    + intros r H. cbn in H. repeat (destruct H as [<-|H]; [apply A; lra|]). contradiction.
  - assert (P : P_Hlmm1Chf.semidefinite ((1 :: nil) :: nil)). { intros y. unfold P_Hlmm.form, completed, el, sum_on, from_to. cbn. pose proof (Rle_0_sqr (y 1%nat)) as Q. unfold Rsqr in Q. lra. } split; exact P.
Qed.
Theorem C85_last_period_refuted : exists p T q, open_model p /\ fmm1_new p T = Ok q /\
  (forall lg u, exists z, fmm1_components lg p q (RtoC u) = Ok z /\ s_dd z = 0%C /\ s_df z = 0%C) /\
  (forall t, 0 < t < 1 -> exists a, 0 < a /\ fmm_a_d p t (Fmm.eta (fm_tenor p) t) = Ok a /\ fmm_a_f p t (Fmm.eta (fm_tenor p) t) = Ok a) /\
  (forall u D, u <> 0 -> side_solution (fm_tenor p) (fm_dom p) u T D -> exists tau, 0 < tau < T /\ D tau <> 0%C).
Proof.
  pose proof short_open as M. destruct (open_facts _ M) as (G & O & K & _). destruct (sides_ok _ M) as (Hld & Hed & _ & Hlf & Hef & _). destruct (built_ok short_fmm 3 1 32 G O ltac:(lia) ltac:(lia) eq_refl ltac:(lra)) as [q Q].
  destruct (built short_fmm 3 1 32 q G O Q) as (_ & _ & _ & _ & ET & _ & _ & _ & E & ST).
  assert (TB : tau_boundaries (Fmm.dates short_tenor) (Fmm.m_of short_tenor) 3 = Ok (3 :: nil)).
  { pose proof slack_pos as SP. unfold tau_boundaries. cbn [short_tenor Fmm.m_of Fmm.dates Fmm.initial_rates length pred_index obind from_to seq Nat.sub rev app omapM oindex nth_error map filter].
    rewrite Rminus_0_r. destruct (Rlt_dec 0 3); [|exfalso; lra]. destruct (Rlt_dec 3 (3 + slack)); [|exfalso; lra]. cbn [andb rev app]. rewrite Rminus_eq_0, Rabs_R0. destruct (Rlt_dec slack 0); [exfalso; lra|]. reflexivity. }
  assert (AP : forall s t, s = short_side -> FxFmmFacts.a_of short_tenor s 1 t = (1 / 50 / (1 + 1 / 50)) ^ 2 * Fmm.gamma 1 t short_tenor ^ 2).
  { intros s t ->. unfold FxFmmFacts.a_of, P_Hlmm.form, sum_on, from_to, FxFmmFacts.decayed, FxFmmFacts.weight, Fmm.date_at, completed, el. cbn -[Fmm.gamma]. field. }
  assert (SG : forall s, In s (g_segments q) -> sg_ad s = 0 /\ sg_af s = 0).
  { unfold fmm1_with_resolution in Q. destruct (Rlt_dec 0 3); [|exfalso; lra]. cbn [negb Nat.leb andb Nat.eqb] in Q. change (32 mod 2 =? 0)%nat with true in Q. cbn [negb] in Q.
    rewrite (proj2 (proj1 (FxFmmFacts.fmm_validate_iff short_fmm)) O) in Q. cbn [obind] in Q. change (fm_tenor short_fmm) with short_tenor in Q. rewrite TB in Q. cbn [obind fmm_segments] in Q. destruct (Rle_dec (3 - 0) 0); [exfalso; lra|].
    destruct (chunks_spec short_fmm 3 0 3 1 G O ltac:(lia) ltac:(lra)) as (cs & EC & _ & _ & CS). rewrite EC in Q. cbn [obind] in Q. rewrite app_nil_r in Q.
    assert (SE : g_segments q = cs). { destruct O as ((Ld & _) & (Lf & _) & _). pose proof (FxFmmFacts.psi_base_ok _ _ Ld) as Pd. pose proof (FxFmmFacts.psi_base_ok _ _ Lf) as Pf. change (fm_tenor short_fmm) with short_tenor in Pd, Pf. rewrite Pd in Q. cbn [obind] in Q. rewrite Pf in Q. cbn [obind] in Q. inversion Q. reflexivity. }
    rewrite SE. intros s Hs. destruct (CS s Hs) as (L1 & L2 & L3 & (_ & Q1 & Q2)). cbn [INR] in L1. assert (MI : middle 3 s = 3 / 2) by (unfold middle; lra). rewrite MI in Q1, Q2. rewrite Q1, Q2.
    change (fm_tenor short_fmm) with short_tenor. rewrite !AP by reflexivity. rewrite (FmmFacts.gamma_after short_tenor G) by (unfold Fmm.date_at; cbn; lia || lra). split; ring. }
  assert (GM : forall t, 0 < t < 1 -> Fmm.gamma 1 t short_tenor = 1 - t).
  { intros t Ht. rewrite (FmmFacts.gamma_inside short_tenor G) by (unfold Fmm.date_at; cbn; lia || lra). unfold Fmm.tau, Fmm.date_at. cbn. field. }
  pose proof O as (Od & Of & _).
  exists short_fmm, 3, q. split; [exact M|]. split; [exact Q|]. split; [|split].
  - intros lg u. exists (components_of lg short_fmm q (RtoC u)). split; [apply (components_ok lg short_fmm 3 1 32); assumption|].
    assert (X : forall l e v0 coef segs, 0 < l -> e <> 0 -> (forall s, In s segs -> coef s = 0) -> side_end (RtoC u) l e v0 coef segs 0%C = 0%C).
    { intros l e v0 coef segs Hl He. induction segs as [|s r IH]; intros Co; [reflexivity|]. cbn [side_end]. rewrite (Co s (or_introl eq_refl)).
      assert (A0 : fst (advance_d (RtoC u) l e 0 v0 0%C (sg_length s)) = 0%C).
      { unfold advance_d. destruct (Rle_dec (sg_length s) 0); [reflexivity|]. set (X := (RtoC u * RtoC u + I_ * RtoC u)%C). replace (RtoC (l * l) + RtoC (e * e * 0) * X)%C with (RtoC (l * l)) by (rewrite Rmult_0_r; ring).
        rewrite csqrt_real by nra. rewrite sqrt_square by lra. replace (RtoC l - RtoC l - RtoC (e * e) * 0)%C with (RtoC 0) by ring. cbv zeta. cbn [fst].
        assert (Z : forall z, (0 / z)%C = 0%C) by (intros; unfold Cdiv; ring). rewrite !Z. rewrite Cmult_0_l, Z. ring. }
      rewrite A0. apply IH. intros x Hx. apply Co. right. exact Hx. }
    unfold components_of. cbn [s_dd s_df seg_value]. split; apply X; try assumption; intros s Hs; apply SG, Hs.
  - intros t Ht. exists ((1 / 50 / (1 + 1 / 50)) ^ 2 * (1 - t) ^ 2). split; [apply Rmult_lt_0_compat; apply pow_lt; lra|]. split; [unfold fmm_a_d|unfold fmm_a_f]; rewrite a_eta by assumption; apply f_equal; change (fm_tenor short_fmm) with short_tenor; rewrite AP by reflexivity; rewrite GM by exact Ht; reflexivity.
  - intros u D Hu (Z & Cn & _ & De). apply Classical_Prop.NNPP. intros NE.
    assert (D0 : forall tau, 0 < tau < 3 -> D tau = 0%C) by (intros tau Ht; apply Classical_Prop.NNPP; intros N0; apply NE; exists tau; split; assumption).
    pose proof (De (5 / 2) _ ltac:(lra) (a_eta _ _ _ G Od)) as X. rewrite (D0 (5 / 2) ltac:(lra)) in X.
    assert (X0 : cderive D (5 / 2) 0%C).
    { apply (cderive_ext_loc (fun _ => 0%C)); [|apply cderive_const]. exists (mkposreal (1 / 4) ltac:(lra)). intros y Hy. symmetry. apply D0. unfold ball in Hy. cbn in Hy. unfold AbsRing_ball, abs, minus, plus, opp in Hy. cbn in Hy. apply Rabs_def2 in Hy. lra. }
    destruct X as [X _], X0 as [X0 _]. apply is_derive_unique in X. apply is_derive_unique in X0. rewrite X0 in X. clear X0. revert X. change (fm_tenor short_fmm) with short_tenor. rewrite AP by reflexivity. rewrite GM by lra.
    unfold I_, Cminus, Cplus, Copp, Cmult, RtoC. cbn [fst snd]. intros X. assert (0 < u * u) by (destruct (Rtotal_order u 0) as [Q0|[Q0|Q0]]; nra). nra.
Qed.

(** A two-period model with all correlations: every hypothesis but the smoothness of the means holds for any
    volatility of the variances, and that one where these are below the code's threshold of [1e-14]. *)
Definition wit_sv (g e : R) : fx_fmm :=
  let side := {| fs_sigmas := [1 / 50; 1 / 40]; fs_lambda := 1; fs_eta := e; fs_v0 := 1; fs_corr := [[1; 1 / 2]; [1 / 2; 1]] |} in
  {| fm_fx0 := 135 / 100; fm_heston := {| kappa := (1 / 2 : num R_numbers); theta := (1 / 10 : num R_numbers); gamma := (g : num R_numbers); sigma_0 := (1 / 10 : num R_numbers) |};
     fm_tenor := P_FxFmm.wit_fmm_tenor; fm_dom := side; fm_for := side; fm_corr := fm_corr P_FxFmm.wit_fmm |}.
Lemma wit_open g e : g <> 0 -> 0 < e -> open_model (wit_sv g e).
Proof.
  intros Hg He. split; [exists [0; 1 / 2; 1], [1 / 50; 1 / 40]; exact P_FxFmm.wit_fmm_tenor_ok|]. split.
  { pose proof (proj1 (proj1 (FxFmmFacts.fmm_validate_iff P_FxFmm.wit_fmm)) P_FxFmm.wit_fmm_valid) as (L1 & L2 & L3). apply FxFmmFacts.fmm_validate_iff.
    assert (L : FxFmmFacts.side_ok (fm_dom (wit_sv g e)) 2).
    { destruct L1 as (_ & B & _). unfold FxFmmFacts.side_ok. cbn [wit_sv fm_dom fs_sigmas fs_corr fs_lambda fs_eta fs_v0]. split; [reflexivity|]. split; [exact B|]. repeat split; try lra. intros x [<-|[<-|[]]]; lra. }
    split; [exact L|]. split; [exact L|]. exact L3. }
  split; [cbn; lra|]. split; [exact Hg|]. split; [cbn; lra|].
  assert (P : P_Hlmm1Chf.semidefinite [[1; 1 / 2]; [1 / 2; 1]]).
  { intros y. unfold P_Hlmm.form, completed, el, sum_on, from_to. cbn. pose proof (Rle_0_sqr (y 1%nat + 1 / 2 * y 2%nat)). pose proof (Rle_0_sqr (y 2%nat)). unfold Rsqr in *. nra. }
  split; exact P.
Qed.
Lemma wit_means g e lg T : Rabs g < / 10 ^ 14 -> Rabs e < / 10 ^ 14 ->
  (forall t, phi_of lg (fm_heston (wit_sv g e)) t = sqrt (1 / 10) /\ phi_of lg (fmm_cir (fm_dom (wit_sv g e))) t = 1 /\ phi_of lg (fmm_cir (fm_for (wit_sv g e))) t = 1) /\ smooth_means lg (wit_sv g e) T.
Proof.
  intros G E. assert (Q : forall k v s t, 0 < k -> 0 <= v -> Rabs s < / 10 ^ 14 -> phi_of lg ({| kappa := k; theta := v; gamma := s; sigma_0 := v |} : cir_process R_numbers) t = sqrt v).
  { intros k v s t K V S. unfold phi_of, sqrt_mean, sqrt_mean_tol, cir_mean. cbn [kappa theta gamma sigma_0].
    destruct (Rle_dec t 0); [rewrite Rmax_left by exact V; reflexivity|]. destruct (Rlt_dec 0 k) as [_|X]; [|contradiction]. cbn [negb].
    destruct (Rlt_dec (Rabs s) (/ 10 ^ 14)) as [_|X]; [|contradiction]. f_equal. rewrite Rmax_left; [rring|]. match goal with |- 0 <= ?a => replace a with v by rring end. exact V. }
  assert (A : forall t, phi_of lg (fm_heston (wit_sv g e)) t = sqrt (1 / 10) /\ phi_of lg (fmm_cir (fm_dom (wit_sv g e))) t = 1 /\ phi_of lg (fmm_cir (fm_for (wit_sv g e))) t = 1).
  { intros t. split; [|split].
    - apply (Q (1 / 2) (1 / 10) g t); [lra|lra|exact G].
    - rewrite <- sqrt_1. apply (Q 1 1 e t); [lra|lra|exact E].
    - rewrite <- sqrt_1. apply (Q 1 1 e t); [lra|lra|exact E]. }
  split; [exact A|]. intros t _. split; [|split].
  - apply (continuity_pt_ext (fun _ => sqrt (1 / 10))); [intros; symmetry; apply A|apply continuity_pt_const; intros ? ?; reflexivity].
  - apply (continuity_pt_ext (fun _ => 1)); [intros; symmetry; apply A|apply continuity_pt_const; intros ? ?; reflexivity].
  - apply (continuity_pt_ext (fun _ => 1)); [intros; symmetry; apply A|apply continuity_pt_const; intros ? ?; reflexivity].
Qed.
Lemma wit_bounded g e lg : g <> 0 -> 0 < e -> Rabs g < / 10 ^ 14 -> Rabs e < / 10 ^ 14 ->
  exists c, 0 <= c /\ forall t start v, (1 <= start)%nat -> fmm_f lg (wit_sv g e) t start = Ok v -> - c <= v.
Proof.
  intros Hg He Sg Se. destruct (wit_means g e lg 1 Sg Se) as [Ph _]. pose proof (wit_open g e Hg He) as M. destruct (open_facts _ M) as (G & O & K & _). set (p := wit_sv g e) in *. set (te := fm_tenor p) in *.
  assert (B : forall k, (1 <= k)%nat -> exists B, 0 <= B /\ forall t, Rabs (f_code lg p t k) <= B).
  { intros k K1. assert (W : forall s (xi : list R), FxFmmFacts.steady (fun t => sum_on (from_to k (Fmm.m_of te)) (fun j => FxFmmFacts.decayed te s t j * nth (j - 1) xi 0))).
    { intros s xi. apply (FxFmmFacts.steady_sum (from_to k (Fmm.m_of te)) (fun j t => FxFmmFacts.decayed te s t j * nth (j - 1) xi 0)). intros j Hj. apply in_from_to in Hj.
      apply FxFmmFacts.steady_mult; [apply FxFmmFacts.steady_decayed; (exact G || lia)|apply FxFmmFacts.steady_const]. }
    destruct (W (fm_dom p) (fc_xi_d (fm_corr p))) as (B1 & _ & P1 & _ & H1 & _). destruct (W (fm_for p) (fc_xi_f (fm_corr p))) as (B2 & _ & P2 & _ & H2 & _).
    destruct (FxFmmFacts.steady_form te (fm_dom p) (fm_for p) (Fmm.m_of te) k (el (fc_cross (fm_corr p))) G K1 ltac:(lia)) as (B3 & _ & P3 & _ & H3 & _).
    pose proof (sqrt_pos (1 / 10)) as SP. exists (2 * sqrt (1 / 10) * B1 + 2 * sqrt (1 / 10) * B2 + 2 * B3). split; [nra|]. intros t. specialize (H1 t). specialize (H2 t). specialize (H3 t).
    unfold f_code, FxFmmFacts.f_of. cbv zeta. destruct (Ph t) as (E1 & E2 & E3). fold p in E1, E2, E3. rewrite E1, E2, E3. fold te.
    revert H1 H2 H3. generalize (P_Hlmm.form (Fmm.m_of te) k (el (fc_cross (fm_corr p))) (FxFmmFacts.decayed te (fm_dom p) t) (FxFmmFacts.decayed te (fm_for p) t)).
    generalize (sum_on (from_to k (Fmm.m_of te)) (fun j => FxFmmFacts.decayed te (fm_dom p) t j * nth (j - 1) (fc_xi_d (fm_corr p)) 0)). generalize (sum_on (from_to k (Fmm.m_of te)) (fun j => FxFmmFacts.decayed te (fm_for p) t j * nth (j - 1) (fc_xi_f (fm_corr p)) 0)).
    clear - SP P1 P2 P3. intros x2 x1 x3 H1 H2 H3.
    apply Rabs_le_between in H1. apply Rabs_le_between in H2. apply Rabs_le_between in H3. apply Rabs_le. split; nra. }
  destruct (B 1%nat ltac:(lia)) as (B1 & P1 & H1), (B 2%nat ltac:(lia)) as (B2 & P2 & H2). exists (B1 + B2). split; [lra|].
  intros t k v K1 Hv. rewrite f_fmm in Hv by assumption. assert (EV : v = f_code lg p t k) by congruence. rewrite EV. specialize (H1 t). specialize (H2 t). apply Rabs_le_between in H1. apply Rabs_le_between in H2.
  destruct k as [|[|[|k]]]; [lia|lra|lra|]. unfold f_code. rewrite f_of_over by (cbn; lia). lra.
Qed.
Example C85_witness :
  open_model (wit_sv (3 / 10) (1 / 10)) /\ (exists q, fmm1_with_resolution (wit_sv (3 / 10) (1 / 10)) 1 4 32 = Ok q) /\ 0 < fm_fx0 (wit_sv (3 / 10) (1 / 10)) /\
  gamma (fm_heston (wit_sv (3 / 10) (1 / 10))) * fc_xi_sigma (fm_corr (wit_sv (3 / 10) (1 / 10))) < kappa (fm_heston (wit_sv (3 / 10) (1 / 10))) /\
  nth 0 (Fmm.dates P_FxFmm.wit_fmm_tenor) 0 = 0 /\ (forall k r, nth_error (Fmm.initial_rates P_FxFmm.wit_fmm_tenor) k = Some r -> 1 + (nth (k + 1) (Fmm.dates P_FxFmm.wit_fmm_tenor) 0 - nth k (Fmm.dates P_FxFmm.wit_fmm_tenor) 0) * r <> 0) /\
  (forall u, exists D, side_solution P_FxFmm.wit_fmm_tenor (fm_dom (wit_sv (3 / 10) (1 / 10))) u 1 D) /\
  exists e, 0 < e /\ open_model (wit_sv e e) /\ forall lg, smooth_means lg (wit_sv e e) 1 /\ exists c, 0 <= c /\ forall t start v, (1 <= start)%nat -> fmm_f lg (wit_sv e e) t start = Ok v -> - c <= v.
Proof.
  assert (M : open_model (wit_sv (3 / 10) (1 / 10))) by (apply wit_open; lra). split; [exact M|]. destruct (open_facts _ M) as (G & O & _). pose proof O as (Od & _). destruct (sides_ok _ M) as (_ & Hed & _).
  split; [apply built_ok; try assumption; try lra; [lia|lia|reflexivity]|]. split; [cbn; lra|]. split; [cbn; lra|]. split; [reflexivity|]. split.
  { intros k r Hk. destruct k as [|[|k]]; cbn in Hk; [inversion Hk; cbn; lra|inversion Hk; cbn; lra|destruct k; discriminate]. }
  split.
  { intros u. set (p := wit_sv (3 / 10) (1 / 10)) in *. pose proof M as (_ & _ & _ & _ & _ & Pd & _).
    set (q := fun k => match fmm1_with_resolution p 1 (S k) 2 with Ok q => q | _ => {| g_expiry := 0; g_segments := []; g_psi_d := []; g_psi_f := []; g_substeps := 0; g_n := 0 |} end).
    assert (Q : forall k, fmm1_with_resolution p 1 (S k) 2 = Ok (q k)) by (intros k; destruct (built_ok p 1 (S k) 2 G O ltac:(lia) ltac:(lia) eq_refl ltac:(lra)) as [x X]; unfold q; rewrite X; reflexivity).
    destruct (side_limit ln p u 1 (fun _ => 2%nat) q M ltac:(lra) (or_introl eq_refl) Q (fm_dom p) sg_ad Od Hed Pd) as (D & SD & _); [|exists D; exact SD].
    intros k s Hs. destruct (finer p 1 (fun _ => 2%nat) q M (or_introl eq_refl) Q k) as ((_ & _ & _ & _ & _ & Ss) & _). destruct (Ss s Hs) as (_ & _ & (_ & X & _) & _). exact X. }
  assert (P : 0 < / 10 ^ 15) by (apply Rinv_0_lt_compat, pow_lt; lra).
  assert (S : Rabs (/ 10 ^ 15) < / 10 ^ 14). { rewrite Rabs_pos_eq by lra. apply Rinv_lt_contravar; [apply Rmult_lt_0_compat; apply pow_lt; lra|]. apply Rlt_pow; [lra|lia]. }
  exists (/ 10 ^ 15). split; [exact P|]. split; [apply wit_open; lra|]. intros lg. split; [apply wit_means; exact S|]. apply wit_bounded; try assumption. lra.
Qed.

Print Assumptions C85_total.
Print Assumptions C85_segments.
Print Assumptions C85_riccati.
Print Assumptions C85_error.
Print Assumptions C85_limit.
Print Assumptions C85_pde.
Print Assumptions C85_modulus.
Print Assumptions C85_martingale.
Print Assumptions C85_conjugate.
Print Assumptions C85_pricer.
Print Assumptions C85_last_period_refuted.
Print Assumptions C85_witness.
