(** C83: the forward characteristic function of the linearised cross-currency Libor market model *)
From Coq Require Import Bool List Arith Reals Psatz Lia.
Import ListNotations.
From Coquelicot Require Import Coquelicot.
From Verif Require Import Outcome ForwardPoints VolSurface Processes ProcessFacts HullWhite CosPricer Complexes CLog Hhw1Chf HestonFacts Simpson Hhw1Facts P_Hhw1Chf
  Hlmm HlmmFacts P_Hlmm SegChf HestonLog Riccati SegFacts SegTheory Hlmm1Chf Hlmm1Facts.
Open Scope R_scope.
Global Set Bullet Behavior "Strict Subproofs".

(** A correlation matrix whose quadratic form is never negative. *)
Definition semidefinite (m : list (list R)) : Prop := forall y, 0 <= form (length m) 1 (completed m) y y.

(** A model the checks accept, with at least one rate, a random variance and true correlations. *)
Definition open_model (p : hlmm) : Prop :=
  (exists ds ls, libor_tenor_new ds ls = Ok (hl_tenor p)) /\ hlmm_validate p = Ok tt /\ (1 <= length (libors (hl_tenor p)))%nat /\
  0 < kappa (hl_heston p) /\ gamma (hl_heston p) <> 0 /\ -1 <= xi_sigma (hl_corr p) <= 1 /\
  semidefinite (libor_corr (hl_dom p)) /\ semidefinite (libor_corr (hl_for p)).

Lemma mask_sum s n (g : nat -> R) : (1 <= s)%nat -> (forall i, (i < s)%nat -> g i = 0) -> sum_on (from_to 1 n) g = sum_on (from_to s n) g.
Proof.
  intros H Z. destruct (le_lt_dec s (S n)) as [L|L].
  - unfold from_to. replace (S n - 1)%nat with ((s - 1) + (S n - s))%nat by lia. rewrite seq_app, sum_on_app. replace (1 + (s - 1))%nat with s by lia.
    rewrite (sum_on_ext (seq 1 (s - 1)) g (fun _ => 0)); [|intros i Hi; apply in_seq in Hi; apply Z; lia].
    assert (Z0 : forall l : list nat, sum_on l (fun _ => 0) = 0) by (induction l as [|a l IH]; [reflexivity|rewrite sum_on_cons, IH; ring]). rewrite Z0. ring.
  - rewrite (from_to_nil s n) by lia. rewrite sum_on_nil. rewrite (sum_on_ext (from_to 1 n) g (fun _ => 0)); [|intros i Hi; apply in_from_to in Hi; apply Z; lia].
    induction (from_to 1 n) as [|a l IH]; [reflexivity|rewrite sum_on_cons, IH; ring].
Qed.
Lemma form_mask n s c y : (1 <= s)%nat -> let y' i := if (i <? s)%nat then 0 else y i in form n s c y y = form n 1 c y' y'.
Proof.
  intros H y'. unfold form. rewrite (mask_sum s n (fun i => sum_on (from_to 1 n) (fun j => y' i * y' j * c (i - 1)%nat (j - 1)%nat))) by (first [exact H|intros i Hi; unfold y' at 1; rewrite (proj2 (Nat.ltb_lt i s) Hi);
    rewrite (sum_on_ext _ _ (fun j => 0 * 1)) by (intros; ring); rewrite sum_on_scal; ring]).
  apply sum_on_ext. intros i Hi. apply in_from_to in Hi. rewrite (mask_sum s n (fun j => y' i * y' j * c (i - 1)%nat (j - 1)%nat)) by (first [exact H|intros j Hj; unfold y' at 2; rewrite (proj2 (Nat.ltb_lt j s) Hj); ring]).
  apply sum_on_ext. intros j Hj. apply in_from_to in Hj. unfold y'. rewrite (proj2 (Nat.ltb_ge i s)), (proj2 (Nat.ltb_ge j s)) by lia. reflexivity.
Qed.
Lemma side_nonneg l te ds ls s v : libor_tenor_new ds ls = Ok te -> lmm_validate l te = Ok tt -> semidefinite (libor_corr l) -> (1 <= s)%nat -> hlmm_a_side l te s = Ok v -> 0 <= v.
Proof.
  intros T V P S1 E. pose proof (proj1 (tenor_new_iff _ _ _) T) as [ET _]. destruct (C82_sides ds ls te l s T V S1) as (E' & _). rewrite E' in E. inversion E.
  pose proof (proj1 (proj1 (lmm_validate_iff l te)) V) as (_ & _ & ((Sq & _) & _) & _). rewrite (form_mask _ s _ _ S1). unfold semidefinite in P. rewrite Sq in P. replace (length ls) with (lt_n te) by (rewrite ET; reflexivity). apply P.
Qed.

(** what an accepted model gives the proofs *)
Lemma open_facts p : open_model p -> good (hl_tenor p) /\ hlmm_ok p /\ (1 <= lt_n (hl_tenor p))%nat /\ 0 < kappa (hl_heston p) /\ gamma (hl_heston p) <> 0 /\ -1 <= xi_sigma (hl_corr p) <= 1 /\
  (forall s, (1 <= s)%nat -> 0 <= ad_val p s) /\ (forall s, (1 <= s)%nat -> 0 <= af_val p s).
Proof.
  intros ((ds & ls & T) & V & N1 & K & Ga & Rh & Pd & Pf). pose proof (proj1 (tenor_new_iff _ _ _) T) as [_ G]. pose proof (proj1 (proj1 (hlmm_validate_iff p)) V) as O.
  pose proof O as (Od & Of & _). split; [exact G|]. split; [exact O|]. split; [exact N1|]. split; [exact K|]. split; [exact Ga|]. split; [exact Rh|]. split; intros s S1.
  - apply (side_nonneg (hl_dom p) (hl_tenor p) ds ls s _ T (proj2 (proj1 (lmm_validate_iff _ _)) Od) Pd S1). apply (ad_ok p s G O S1).
  - apply (side_nonneg (hl_for p) (hl_tenor p) ds ls s _ T (proj2 (proj1 (lmm_validate_iff _ _)) Of) Pf S1). apply (af_ok p s G O S1).
Qed.

(** Building panics exactly on a bad number of nodes, a past expiry, parameters the checks refuse or a tenor
    without rates; what was built evaluates at every complex frequency. *)
Theorem C83_total : forall lg p T n, (exists ds ls, libor_tenor_new ds ls = Ok (hl_tenor p)) -> 0 < kappa (hl_heston p) ->
  ((2 <= n)%nat -> (n mod 2 = 0)%nat -> 0 < T -> hlmm_validate p = Ok tt -> libors (hl_tenor p) <> [] ->
    exists q, hlmm1_with_steps p T n = Ok q /\ l_expiry q = T /\ forall w, exists z, hlmm1_evaluate lg p q w = Ok z) /\
  ((n < 2)%nat \/ (n mod 2 <> 0)%nat \/ T <= 0 -> hlmm1_with_steps p T n = Panic PAssert) /\
  ((2 <= n)%nat -> (n mod 2 = 0)%nat -> 0 < T -> hlmm_validate p <> Ok tt -> hlmm1_with_steps p T n = Panic PUnwrap) /\
  ((2 <= n)%nat -> (n mod 2 = 0)%nat -> 0 < T -> hlmm_validate p = Ok tt -> libors (hl_tenor p) = [] -> hlmm1_with_steps p T n = Panic PArith).
Proof.
  intros lg p T n (ds & ls & TE) K. pose proof (proj1 (tenor_new_iff _ _ _) TE) as [_ G]. split; [|split; [|split]].
  - intros A B HT V NE. pose proof (proj1 (proj1 (hlmm_validate_iff p)) V) as O. assert (N1 : (1 <= lt_n (hl_tenor p))%nat) by (unfold lt_n; destruct (libors (hl_tenor p)); [contradiction|cbn; lia]).
    destruct (built_ok p T n G O N1 A B HT) as [q Q]. exists q. split; [exact Q|]. split; [apply (built p T n q G O N1 Q)|]. intros w. eexists. apply (evaluate_ok lg p T n q w G O N1 K Q).
  - intros D. unfold hlmm1_with_steps. destruct (Nat.leb_spec 2 n); [|reflexivity]. destruct (Nat.eqb_spec (n mod 2) 0); [|reflexivity]. cbn [andb negb]. destruct (Rlt_dec 0 T); [|reflexivity]. exfalso. destruct D as [D|[D|D]]; [lia|contradiction|lra].
  - intros A B HT V. unfold hlmm1_with_steps. rewrite (proj2 (Nat.leb_le 2 n) A), (proj2 (Nat.eqb_eq _ 0) B). cbn [andb negb]. destruct (Rlt_dec 0 T); [|exfalso; lra]. cbn [negb].
    destruct (hlmm_validate_iff p) as [_ [Q|Q]]; [contradiction|]. rewrite Q. reflexivity.
  - intros A B HT V NE. unfold hlmm1_with_steps. rewrite (proj2 (Nat.leb_le 2 n) A), (proj2 (Nat.eqb_eq _ 0) B). cbn [andb negb]. destruct (Rlt_dec 0 T); [|exfalso; lra]. cbn [negb].
    rewrite V. cbn [obind]. unfold lt_n. rewrite NE. reflexivity.
Qed.

(** The segments follow each other from expiry back to today (to within [1e-12] when the first tenor date is
    that close to today) and, at every time that is not a tenor date, the segment holds the rates active then
    and both coefficients at that time. *)
Theorem C83_segments : forall p T n q, open_model p -> hlmm1_with_steps p T n = Ok q ->
  exists E, 0 < E <= T /\ T - E <= / 10 ^ 12 /\ (nth 0 (lt_dates (hl_tenor p)) 0 = 0 \/ / 10 ^ 12 < nth 0 (lt_dates (hl_tenor p)) 0 -> E = T) /\
  sum_on (l_segments q) sg_length = E /\ (forall s, In s (l_segments q) -> 0 < sg_length s) /\
  forall tau, 0 < tau < E -> (forall d, In d (removelast (lt_dates (hl_tenor p))) -> T - tau <> d) ->
    exists s, In s (l_segments q) /\ sg_tau s - sg_length s < tau < sg_tau s /\ from_to (sg_start s) (length (libors (hl_tenor p))) = lt_active (hl_tenor p) (T - tau) /\
      hlmm_a_d p (lt_m (hl_tenor p) (T - tau) + 1) = Ok (sg_ad s) /\ hlmm_a_f p (lt_m (hl_tenor p) (T - tau) + 1) = Ok (sg_af s).
Proof.
  intros p T n q M H. destruct (open_facts p M) as (G & O & N1 & _). destruct (built p T n q G O N1 H) as (_ & _ & _ & _ & _ & E & Ch & En & EB & EA & EX & Ss & Is & Ex & _).
  destruct (chain_lengths _ _ Ch) as [L1 L2]. exists E. split; [exact EB|]. fold slack. split; [rewrite Rabs_minus_sym, Rabs_pos_eq in EA by lra; exact EA|]. split; [exact EX|]. split; [rewrite L1, En; ring|]. split; [exact L2|].
  intros tau Ht Hd. destruct (Ex tau Ht) as [seg I].
  { intros k Hk Q. apply (Hd (date_k (hl_tenor p) k)); [|lra]. unfold date_k. destruct G as (L & _). assert (RL : nth k (lt_dates (hl_tenor p)) 0 = nth k (removelast (lt_dates (hl_tenor p))) 0).
    { rewrite (app_removelast_last 0) at 1 by (intros Z; rewrite Z in L; cbn in L; lia). apply app_nth1. rewrite removelast_firstn_len, firstn_length. lia. }
    rewrite RL. apply nth_In. rewrite removelast_firstn_len, firstn_length. lia. }
  destruct (in_segment_range _ _ _ _ Ch I) as [_ II]. destruct (Ss seg II) as (S1 & Sd & Sf). exists seg. split; [exact II|]. split; [apply (in_segment_bounds _ _ _ _ Ch I)|].
  rewrite <- (Is tau seg I). split; [unfold lt_active; rewrite <- (Is tau seg I); reflexivity|]. rewrite Sd, Sf. split; [apply ad_ok; assumption|apply af_ok; assumption].
Qed.

(** The Riccati equation of one side, with the coefficient [a] at the calendar time, wherever it does not jump. *)
Definition side_solution (a_at : nat -> outcome R) (te : libor_tenor) (l : dd_sv_lmm) (u T E : R) (D : R -> C) : Prop :=
  D 0 = 0%C /\ (forall tau, ccont D tau) /\
  forall tau a, 0 < tau < E -> (forall d, In d (removelast (lt_dates te)) -> T - tau <> d) -> a_at (lt_m te (T - tau) + 1)%nat = Ok a ->
    cderive D tau (RtoC (a / 2) * (I_ * RtoC u * (I_ * RtoC u) - I_ * RtoC u) - RtoC (lm_lambda l) * D tau + RtoC (lm_eta l ^ 2 / 2) * (D tau * D tau))%C.

Lemma not_tenor te T tau : good te -> (forall d, In d (removelast (lt_dates te)) -> T - tau <> d) -> forall k, (k < lt_n te)%nat -> tau <> T - date_k te k.
Proof.
  intros G Hd k Hk Q. apply (Hd (date_k te k)); [|lra]. unfold date_k. destruct G as (L & _). assert (RL : nth k (lt_dates te) 0 = nth k (removelast (lt_dates te)) 0).
  { rewrite (app_removelast_last 0) at 1 by (intros Z; rewrite Z in L; cbn in L; lia). apply app_nth1. rewrite removelast_firstn_len, firstn_length. lia. }
  rewrite RL. apply nth_In. rewrite removelast_firstn_len, firstn_length. lia.
Qed.

Lemma path_solution p T E segs u l a_at a_val coef : open_model p -> structured p T E segs -> 0 < lm_lambda l -> lm_eta l <> 0 ->
  (forall s, (1 <= s)%nat -> a_at s = Ok (a_val s)) -> (forall s, In s segs -> coef s = a_val (sg_start s)) -> (forall s, In s segs -> 0 <= coef s) ->
  side_solution a_at (hl_tenor p) l u T E (path u (lm_lambda l) (lm_eta l) (lm_v0 l) coef segs 0 0).
Proof.
  intros M (Ch & En & EB & _ & _ & Ss & Is & Ex & _) Hl He Ok1 Co K. destruct (open_facts p M) as (G & O & N1 & _).
  assert (S0 : signs u (RtoC 0)) by (split; cbn; lra). split; [apply path_start; exact Ch|]. split; [intros tau; apply path_cont; assumption|].
  intros tau a Ht Hd Ea. destruct (Ex tau Ht (not_tenor _ T tau G Hd)) as [seg I]. destruct (in_segment_range _ _ _ _ Ch I) as [_ II].
  assert (EA : a = coef seg) by (rewrite Ok1 in Ea by lia; rewrite (Co seg II), (Is tau seg I); congruence). rewrite EA.
  eapply cderive_eq; [apply (path_riccati u (lm_lambda l) (lm_eta l) (lm_v0 l) coef Hl He segs (RtoC 0) 0 tau seg Ch K S0 I)|].
  replace (RtoC (coef seg / 2)) with (RtoC (1 / 2) * RtoC (coef seg))%C by (apply C_eq; cbn; field).
  replace (RtoC (lm_eta l ^ 2 / 2)) with (RtoC (1 / 2) * RtoC (lm_eta l * lm_eta l))%C by (apply C_eq; cbn; field). unfold hb. ring.
Qed.

Lemma sides_ok p : open_model p -> 0 < lm_lambda (hl_dom p) /\ lm_eta (hl_dom p) <> 0 /\ 0 < lm_v0 (hl_dom p) /\ 0 < lm_lambda (hl_for p) /\ lm_eta (hl_for p) <> 0 /\ 0 < lm_v0 (hl_for p).
Proof. intros M. destruct (open_facts p M) as (_ & O & _). destruct O as ((_ & _ & _ & A & B & D) & (_ & _ & _ & A' & B' & D') & _). repeat split; lra. Qed.
Lemma coefs_ok p T E segs : open_model p -> structured p T E segs -> (forall s, In s segs -> 0 <= sg_ad s) /\ (forall s, In s segs -> 0 <= sg_af s).
Proof.
  intros M (_ & _ & _ & _ & _ & Ss & _). destruct (open_facts p M) as (_ & _ & _ & _ & _ & _ & Pd & Pf).
  split; intros s Hs; destruct (Ss s Hs) as (S1 & E1 & E2); [rewrite E1; apply Pd|rewrite E2; apply Pf]; exact S1.
Qed.

(** The components at a real frequency: both rate coefficients solve the Riccati equation of the model from
    zero and never have a positive real part, the variance coefficient is Heston's, and the constant is the
    sum of their integrals and the code's composite Simpson sum. *)
Theorem C83_riccati : forall lg p T n q u z, open_model p -> hlmm1_with_steps p T n = Ok q -> hlmm1_components lg p q (RtoC u) = Ok z ->
  let h := hl_heston p in
  exists E Dd Df, 0 < E <= T /\ (nth 0 (lt_dates (hl_tenor p)) 0 = 0 \/ / 10 ^ 12 < nth 0 (lt_dates (hl_tenor p)) 0 -> E = T) /\
  side_solution (hlmm_a_d p) (hl_tenor p) (hl_dom p) u T E Dd /\ side_solution (hlmm_a_f p) (hl_tenor p) (hl_for p) u T E Df /\
  (forall tau, fst (Dd tau) <= 0 /\ fst (Df tau) <= 0) /\
  s_b z = (I_ * RtoC u)%C /\ s_c z = heston_c (RtoC u) (kappa h) (gamma h) (xi_sigma (hl_corr p)) T /\ s_dd z = Dd E /\ s_df z = Df E /\
  exists quad, s_a z = (RtoC (kappa h * theta h) * cint (heston_c (RtoC u) (kappa h) (gamma h) (xi_sigma (hl_corr p))) 0 E
    + RtoC (lm_lambda (hl_dom p) * lm_v0 (hl_dom p)) * cint Dd 0 E + RtoC (lm_lambda (hl_for p) * lm_v0 (hl_for p)) * cint Df 0 E
    + RtoC (- (1 / 2)) * (RtoC u * RtoC u + I_ * RtoC u) * RtoC quad)%C /\
  (forall f, (forall s t, In s (l_segments q) -> hlmm_f lg p t (sg_start s) = Ok (f s t)) ->
    quad = sum_on (l_segments q) (fun s => let h := sg_length s / INR n in sum_on (seq 0 (S n)) (fun k => weight k n * f s (T - (sg_tau s - sg_length s + INR k * h))) * h / 3)).
Proof.
  intros lg p T n q u z M H Hz h. destruct (open_facts p M) as (G & O & N1 & K & Ga & Rh & _). destruct (sides_ok p M) as (Hld & Hed & _ & Hlf & Hef & _).
  destruct (built p T n q G O N1 H) as (_ & _ & _ & ET & En & E & ST). pose proof ST as ST0. destruct ST as (Ch & EE & EB & _ & EX & Ss & _). destruct (coefs_ok p T E _ M ST0) as [Kd Kf].
  rewrite (components_ok lg p T n q _ G O N1 K H) in Hz. assert (Ez : z = components_of lg p q (RtoC u)) by congruence. rewrite Ez.
  assert (S0 : signs u (RtoC 0)) by (split; cbn; lra).
  exists E, (path u (lm_lambda (hl_dom p)) (lm_eta (hl_dom p)) (lm_v0 (hl_dom p)) sg_ad (l_segments q) 0 0), (path u (lm_lambda (hl_for p)) (lm_eta (hl_for p)) (lm_v0 (hl_for p)) sg_af (l_segments q) 0 0).
  split; [exact EB|]. split; [exact EX|]. split; [|split; [|split; [|split; [|split; [|split; [|split]]]]]].
  - apply (path_solution p T E _ u _ _ (ad_val p)); try assumption; [intros s Hs; apply ad_ok; assumption|intros s Hs; apply Ss, Hs].
  - apply (path_solution p T E _ u _ _ (af_val p)); try assumption; [intros s Hs; apply af_ok; assumption|intros s Hs; apply Ss, Hs].
  - intros tau. split; apply path_signs; assumption.
  - reflexivity.
  - unfold components_of. cbn [s_c]. rewrite ET. reflexivity.
  - unfold components_of. cbn [s_dd]. rewrite <- EE. symmetry. apply path_end. exact Ch.
  - unfold components_of. cbn [s_df]. rewrite <- EE. symmetry. apply path_end. exact Ch.
  - exists (simpson_on (f_val lg p) T n 0 (l_segments q)). split.
    + rewrite <- EE. rewrite <- (seg_integral h (xi_sigma (hl_corr p)) (lm_lambda (hl_dom p)) (lm_eta (hl_dom p)) (lm_v0 (hl_dom p)) (lm_lambda (hl_for p)) (lm_eta (hl_for p)) (lm_v0 (hl_for p)) (f_val lg p) T (l_segments q)) by assumption.
      unfold components_of, seg_value. cbn [s_a]. rewrite ET, En. reflexivity.
    + intros f Hf. clear - Ch Hf. revert Ch Hf. generalize 0 at 1 2. induction (l_segments q) as [|s r IH]; intros prev Ch Hf; [reflexivity|]. destruct Ch as (L & _ & Ch). cbn [simpson_on]. rewrite sum_on_cons. f_equal.
      * unfold simpson. cbv zeta. rewrite <- L. unfold wsum. rewrite <- sum_on_seq. f_equal. f_equal. apply sum_on_ext. intros k _. f_equal. replace (sg_tau s - sg_length s) with prev by lra.
        unfold f_val. rewrite (Hf s _ (or_introl eq_refl)). reflexivity.
      * apply IH; [exact Ch|]. intros x t Hx. apply Hf. right. exact Hx.
Qed.

(** the covariance [f] of the calendar time, with the rates active then *)
Definition f_at (lg : R -> R) (p : hlmm) (t : R) : R := match hlmm_f lg p t (lt_m (hl_tenor p) t + 1) with Ok v => v | _ => 0 end.
Definition phi_of (lg : R -> R) (c : cir_process R_numbers) (t : R) : R := match sqrt_mean lg c t with Ok v => v | _ => 0 end.
Definition side_process (l : dd_sv_lmm) : cir_process R_numbers := {| kappa := (lm_lambda l : num R_numbers); theta := (lm_v0 l : num R_numbers); gamma := (lm_eta l : num R_numbers); sigma_0 := (lm_v0 l : num R_numbers) |}.
Definition smooth_means (lg : R -> R) (p : hlmm) (T : R) : Prop :=
  forall t, 0 <= t <= T -> continuity_pt (phi_of lg (hl_heston p)) t /\ continuity_pt (phi_of lg (side_process (hl_dom p))) t /\ continuity_pt (phi_of lg (side_process (hl_for p))) t.
(** The affine function of the state [x, s, y_d, y_f] at calendar time [t], for given rate coefficients. *)
Definition hlmm_affine (lg : R -> R) (p : hlmm) (u T : R) (Dd Df : R -> C) (t x s yd yf : R) : C :=
  let h := hl_heston p in
  let C_ tau := heston_c (RtoC u) (kappa h) (gamma h) (xi_sigma (hl_corr p)) tau in
  cexp (RtoC (kappa h * theta h) * cint C_ 0 (T - t)%R + RtoC (lm_lambda (hl_dom p) * lm_v0 (hl_dom p)) * cint Dd 0 (T - t)%R + RtoC (lm_lambda (hl_for p) * lm_v0 (hl_for p)) * cint Df 0 (T - t)%R
    + RtoC (- (1 / 2)) * (RtoC u * RtoC u + I_ * RtoC u) * RtoC (RInt (fun tau => f_at lg p (T - tau)) 0 (T - t)%R)
    + I_ * RtoC u * RtoC x + C_ (T - t)%R * RtoC s + Dd (T - t)%R * RtoC yd + Df (T - t)%R * RtoC yf)%C.

Lemma f_val_cont lg p T s t : open_model p -> smooth_means lg p T -> (1 <= s)%nat -> 0 <= t <= T -> continuity_pt (fun t => f_val lg p t s) t.
Proof.
  intros M Sm S1 Ht. destruct (open_facts p M) as (G & O & N1 & K & _). destruct O as (Od & Of & (_ & Lxd & Lxf & Sc & _)).
  destruct Od as (Ld & _ & _ & Kd & _), Of as (Lf & _ & _ & Kf & _). destruct (Sm t Ht) as (C1 & C2 & C3).
  eapply continuity_pt_ext.
  { intros y. symmetry. unfold f_val, hlmm_f. rewrite (psi_ok _ _ G Ld), (psi_ok _ _ G Lf). cbn [obind].
    assert (Q : forall c, 0 < kappa c -> sqrt_mean lg c y = Ok (phi_of lg c y)) by (intros c Hc; unfold phi_of; destruct (sqrt_mean_total lg c y Hc) as [v ->]; reflexivity).
    change (side_cir (lm_lambda (hl_dom p)) (lm_eta (hl_dom p)) (lm_v0 (hl_dom p))) with (side_process (hl_dom p)). change (side_cir (lm_lambda (hl_for p)) (lm_eta (hl_for p)) (lm_v0 (hl_for p))) with (side_process (hl_for p)).
    rewrite (Q _ K), (Q (side_process (hl_dom p)) Kd), (Q (side_process (hl_for p)) Kf). cbn [obind].
    rewrite cross_terms_ok by (rewrite ?map_length, ?seq_length; assumption || reflexivity). cbv iota beta. reflexivity. }
  apply continuity_pt_minus; [apply continuity_pt_minus|]; (apply continuity_pt_mult; [|apply continuity_pt_const; intros ? ?; reflexivity]);
  (apply continuity_pt_mult; [apply continuity_pt_mult; [apply continuity_pt_const; intros ? ?; reflexivity|]|]); assumption.
Qed.

Lemma structured_f lg p T E segs : open_model p -> structured p T E segs -> forall tau seg, in_segment 0 segs tau seg -> f_val lg p (T - tau) (sg_start seg) = f_at lg p (T - tau).
Proof. intros M (_ & _ & _ & _ & _ & _ & Is & _) tau seg I. unfold f_val, f_at. rewrite (Is tau seg I). reflexivity. Qed.
Lemma affine_same lg p u T Dd Df t x s yd yf : affine_of (hl_heston p) (xi_sigma (hl_corr p)) (lm_lambda (hl_dom p)) (lm_v0 (hl_dom p)) (lm_lambda (hl_for p)) (lm_v0 (hl_for p)) Dd Df (fun tau => f_at lg p (T - tau)) u T t x s yd yf
  = hlmm_affine lg p u T Dd Df t x s yd yf.
Proof. unfold affine_of, affine_a, hlmm_affine. cbv zeta. reflexivity. Qed.
Lemma f_cont_seg lg p T E segs : open_model p -> smooth_means lg p T -> structured p T E segs -> forall s x, In s segs -> 0 <= x <= T -> continuity_pt (fun x => f_val lg p (T - x) (sg_start s)) x.
Proof.
  intros M Sm (_ & _ & _ & _ & _ & Ss & _) s x Hs Hx. apply (cpt_reflect (fun t => f_val lg p t (sg_start s))). apply (f_val_cont lg p T); try assumption; [apply Ss, Hs|lra].
Qed.

(** With finer and finer grids the value tends to the affine function of today's state, at the logarithm of
    today's rate, for rate coefficients solving the model's Riccati equations. *)
Theorem C83_limit : forall lg p u T, open_model p -> 0 < T -> (nth 0 (lt_dates (hl_tenor p)) 0 = 0 \/ / 10 ^ 12 < nth 0 (lt_dates (hl_tenor p)) 0) ->
  (forall k l, nth_error (libors (hl_tenor p)) k = Some l -> 1 + (nth (k + 1) (lt_dates (hl_tenor p)) 0 - nth k (lt_dates (hl_tenor p)) 0) * l <> 0) -> smooth_means lg p T ->
  exists Dd Df z, side_solution (hlmm_a_d p) (hl_tenor p) (hl_dom p) u T T Dd /\ side_solution (hlmm_a_f p) (hl_tenor p) (hl_for p) u T T Df /\
  (forall m, exists q, hlmm1_with_steps p T (2 * S m) = Ok q /\ hlmm1_evaluate lg p q (RtoC u) = Ok (z m)) /\
  clim z (hlmm_affine lg p u T Dd Df 0 (ln (hl_fx0 p)) (sigma_0 (hl_heston p)) (lm_v0 (hl_dom p)) (lm_v0 (hl_for p))).
Proof.
  intros lg p u T M HT T0 LR Sm. destruct (open_facts p M) as (G & O & N1 & K & Ga & Rh & _). destruct (sides_ok p M) as (Hld & Hed & _ & Hlf & Hef & _).
  destruct (structure p T G O N1 HT) as (bs & segs & E & EB & ES & ST). pose proof ST as (Ch & EE & _ & _ & EX & Ss & _). destruct (coefs_ok p T E _ M ST) as [Kd Kf]. specialize (EX T0).
  assert (STT : structured p T T segs) by (rewrite EX in ST; exact ST). rewrite EX in EE. clear EX ST.
  assert (OR : open_rates p).
  { intros k Hk. specialize (LR (k - 1)%nat (nth (k - 1) (libors (hl_tenor p)) 0)). replace (k - 1 + 1)%nat with k in LR by lia. apply LR. apply nth_error_nth'. unfold lt_n in Hk. lia. }
  exists (path u (lm_lambda (hl_dom p)) (lm_eta (hl_dom p)) (lm_v0 (hl_dom p)) sg_ad segs 0 0), (path u (lm_lambda (hl_for p)) (lm_eta (hl_for p)) (lm_v0 (hl_for p)) sg_af segs 0 0).
  exists (fun m => seg_assemble (seg_value (hl_heston p) (xi_sigma (hl_corr p)) (lm_lambda (hl_dom p)) (lm_eta (hl_dom p)) (lm_v0 (hl_dom p)) (lm_lambda (hl_for p)) (lm_eta (hl_for p)) (lm_v0 (hl_for p)) (f_val lg p) T segs (2 * S m) (RtoC u)) (ln (hl_fx0 p)) (sigma_0 (hl_heston p)) (lm_v0 (hl_dom p)) (lm_v0 (hl_for p))).
  split; [|split; [|split]].
  - apply (path_solution p T _ segs u _ _ (ad_val p)); try assumption; [intros s Hs; apply ad_ok; assumption|intros s Hs; apply Ss, Hs].
  - apply (path_solution p T _ segs u _ _ (af_val p)); try assumption; [intros s Hs; apply af_ok; assumption|intros s Hs; apply Ss, Hs].
  - intros m. destruct (built_ok p T (2 * S m) G O N1 ltac:(lia) ltac:(rewrite Nat.mul_comm; apply Nat.mod_mul; lia) HT) as [q Q]. exists q. split; [exact Q|].
    rewrite (evaluate_ok lg p T (2 * S m) q _ G O N1 K Q). rewrite (x0_fx p T G N1 OR).
    assert (EQ : components_of lg p q (RtoC u) = seg_value (hl_heston p) (xi_sigma (hl_corr p)) (lm_lambda (hl_dom p)) (lm_eta (hl_dom p)) (lm_v0 (hl_dom p)) (lm_lambda (hl_for p)) (lm_eta (hl_for p)) (lm_v0 (hl_for p)) (f_val lg p) T segs (2 * S m) (RtoC u)).
    { unfold hlmm1_with_steps in Q. rewrite (proj2 (Nat.leb_le 2 (2 * S m))) in Q by lia. rewrite (proj2 (Nat.eqb_eq _ 0)) in Q by (rewrite Nat.mul_comm; apply Nat.mod_mul; lia). cbn [andb negb] in Q.
      destruct (Rlt_dec 0 T); [|exfalso; lra]. cbn [negb] in Q. rewrite (proj2 (proj1 (hlmm_validate_iff p)) O), EB in Q. cbn [obind] in Q. rewrite ES in Q. cbn [obind] in Q. inversion Q. reflexivity. }
    rewrite EQ. reflexivity.
  - rewrite <- affine_same. apply seg_limit; try assumption.
    + apply (f_cont_seg lg p T T); assumption.
    + exact (structured_f lg p T _ segs M STT).
Qed.

(** For any such coefficients the affine function is [exp (i u x)] at expiry and, at every time that is not a
    tenor date, solves the backward equation of the model with variance [s + A_d y_d + A_f y_f + f]. *)
Theorem C83_pde : forall lg p u T Dd Df t ad af, open_model p -> (nth 0 (lt_dates (hl_tenor p)) 0 = 0 \/ / 10 ^ 12 < nth 0 (lt_dates (hl_tenor p)) 0) -> smooth_means lg p T ->
  side_solution (hlmm_a_d p) (hl_tenor p) (hl_dom p) u T T Dd -> side_solution (hlmm_a_f p) (hl_tenor p) (hl_for p) u T T Df ->
  0 < t < T -> ~ In t (removelast (lt_dates (hl_tenor p))) -> hlmm_a_d p (lt_m (hl_tenor p) t + 1) = Ok ad -> hlmm_a_f p (lt_m (hl_tenor p) t + 1) = Ok af ->
  let h := hl_heston p in let d := hl_dom p in let f := hl_for p in
  let V := hlmm_affine lg p u T Dd Df in
  (forall x s yd yf, V T x s yd yf = cexp (I_ * RtoC u * RtoC x)%C) /\
  exists Vx Vs Vd Vf : R -> R -> R -> R -> C,
  (forall x s yd yf, cderive (fun z => V t z s yd yf) x (Vx x s yd yf)) /\ (forall x s yd yf, cderive (fun z => V t x z yd yf) s (Vs x s yd yf)) /\
  (forall x s yd yf, cderive (fun z => V t x s z yf) yd (Vd x s yd yf)) /\ (forall x s yd yf, cderive (fun z => V t x s yd z) yf (Vf x s yd yf)) /\
  forall x s yd yf, exists Vt Vxx Vss Vsx Vdd Vff,
    cderive (fun z => V z x s yd yf) t Vt /\ cderive (fun z => Vx z s yd yf) x Vxx /\ cderive (fun z => Vs x z yd yf) s Vss /\ cderive (fun z => Vs z s yd yf) x Vsx /\
    cderive (fun z => Vd x s z yf) yd Vdd /\ cderive (fun z => Vf x s yd z) yf Vff /\
    let v := s + ad * yd + af * yf + f_at lg p t in
    (Vt + RtoC (v / 2) * (Vxx - Vx x s yd yf)
     + RtoC (kappa h * (theta h - s)) * Vs x s yd yf + RtoC (gamma h ^ 2 * s / 2) * Vss + RtoC (xi_sigma (hl_corr p) * gamma h * s) * Vsx
     + RtoC (lm_lambda d * (lm_v0 d - yd)) * Vd x s yd yf + RtoC (lm_eta d ^ 2 * yd / 2) * Vdd
     + RtoC (lm_lambda f * (lm_v0 f - yf)) * Vf x s yd yf + RtoC (lm_eta f ^ 2 * yf / 2) * Vff)%C = 0%C.
Proof.
  intros lg p u T Dd Df t ad af M T0 Sm SD SF Ht NT EA EF h d f V. destruct (open_facts p M) as (G & O & N1 & K & Ga & Rh & _).
  destruct SD as (Z1 & C1 & R1'), SF as (Z2 & C2 & R2'). split.
  { intros x s yd yf. unfold V, hlmm_affine. cbv zeta. rewrite Rminus_eq_0, heston_c_neg, Z1, Z2 by lra. unfold cint. rewrite !RInt_point. f_equal. apply C_eq; cbn; unfold zero; cbn; ring. }
  assert (ND : forall x, In x (removelast (lt_dates (hl_tenor p))) -> T - (T - t) <> x) by (intros x Hx Q; apply NT; replace t with (T - (T - t)) by ring; rewrite Q; exact Hx).
  destruct (structure p T G O N1 ltac:(lra)) as (bs & segs & E & _ & _ & ST). pose proof ST as (Ch & EE & _ & _ & EX & _ & Is & Ex & _). specialize (EX T0). rewrite EX in *. clear EX E.
  destruct (Ex (T - t) ltac:(lra) (not_tenor _ T (T - t) G ND)) as [seg I]. destruct (in_segment_range _ _ _ _ Ch I) as [_ II].
  destruct (simpson_on_lim (f_val lg p) T (fun tau => f_at lg p (T - tau)) segs 0 Ch) as [XG _].
  { intros s x Hs Hx. rewrite EE in Hx. apply (f_cont_seg lg p T T segs); assumption. }
  { exact (structured_f lg p T T segs M ST). }
  rewrite EE in XG.
  assert (CG : continuity_pt (fun tau => f_at lg p (T - tau)) (T - t)).
  { apply (continuity_pt_ext_loc (fun tau => f_val lg p (T - tau) (sg_start seg))); [|apply (f_cont_seg lg p T T segs); try assumption; lra].
    assert (LC : forall prev segs tau seg, in_segment prev segs tau seg -> exists e : posreal, forall y, Rabs (y - tau) < e -> in_segment prev segs y seg).
    { clear. intros prev segs. revert prev. induction segs as [|s r IH]; intros prev tau seg I; [contradiction|]. destruct I as [[I ->]|I].
      - exists (mkposreal (Rmin (tau - prev) (sg_tau s - tau)) ltac:(apply Rmin_glb_lt; lra)). intros y Hy. cbn [pos] in Hy. left. split; [|reflexivity]. apply Rabs_def2 in Hy.
        pose proof (Rmin_l (tau - prev) (sg_tau s - tau)). pose proof (Rmin_r (tau - prev) (sg_tau s - tau)). lra.
      - destruct (IH _ _ _ I) as [e He]. exists e. intros y Hy. right. apply He, Hy. }
    destruct (LC _ _ _ _ I) as [e He]. exists e. intros y Hy. apply (structured_f lg p T T segs M ST). apply He. exact Hy. }
  replace t with (T - (T - t)) in EA at 1 by ring. replace t with (T - (T - t)) in EF at 1 by ring.
  pose proof (R1' (T - t) ad ltac:(lra) ND EA) as RD. pose proof (R2' (T - t) af ltac:(lra) ND EF) as RF.
  pose proof (seg_pde h (xi_sigma (hl_corr p)) (lm_lambda d) (lm_eta d) (lm_v0 d) (lm_lambda f) (lm_eta f) (lm_v0 f) Dd Df (fun tau => f_at lg p (T - tau)) u T T t ad af K Rh ltac:(lra) C1 C2 XG CG RD RF) as P.
  cbv beta zeta in P. replace (T - (T - t)) with t in P by ring. cbv zeta. exact P.
Qed.

(** * The values *)
Lemma wsum_one n : (2 <= n)%nat -> (n mod 2 = 0)%nat -> wsum (fun _ => 1) n = 3 * INR n.
Proof.
  intros H E. pose proof (Nat.div_mod n 2 ltac:(lia)) as Q. rewrite E, Nat.add_0_r in Q. rewrite Q. rewrite wsum_panels by lia. rewrite mult_INR. generalize (n / 2)%nat. intros m. cbn [INR].
  induction m as [|m IH]; [cbn; ring|]. cbn [panels]. rewrite IH, S_INR. ring.
Qed.
Lemma simpson_ge g a b n c : (2 <= n)%nat -> (n mod 2 = 0)%nat -> a <= b -> (forall x, a <= x <= b -> c <= g x) -> c * (b - a) <= simpson g a b n.
Proof.
  intros H E L B. unfold simpson. cbv zeta. assert (Hn : 0 < INR n) by (apply lt_0_INR; lia).
  assert (Hh : 0 <= (b - a) / INR n) by (apply Rmult_le_pos; [lra|left; apply Rinv_0_lt_compat, Hn]).
  assert (W : c * (3 * INR n) <= wsum (fun k => g (a + INR k * ((b - a) / INR n))) n).
  { rewrite <- (wsum_one n H E). replace (c * wsum (fun _ => 1) n) with (wsum (fun _ => c) n).
    - apply wsum_le. intros k Hk. apply B. apply le_INR in Hk. pose proof (pos_INR k). split; [nra|].
      assert (INR k * ((b - a) / INR n) <= INR n * ((b - a) / INR n)) by (apply Rmult_le_compat_r; assumption). replace (INR n * ((b - a) / INR n)) with (b - a) in * by (field; lra). lra.
    - unfold wsum. rewrite scal_sum. apply sum_eq. intros i _. ring. }
  assert (Q : c * (3 * INR n) * ((b - a) / INR n) = 3 * (c * (b - a))) by (field; lra). nra.
Qed.
Lemma simpson_on_ge fv T n c segs : (2 <= n)%nat -> (n mod 2 = 0)%nat -> forall prev, chain prev segs -> 0 <= prev -> chain_end prev segs <= T ->
  (forall s t, In s segs -> 0 <= t <= T -> c <= fv t (sg_start s)) -> c * (chain_end prev segs - prev) <= simpson_on fv T n prev segs.
Proof.
  intros H E. induction segs as [|s r IH]; intros prev Ch P0 ET B; cbn [chain_end simpson_on] in *; [lra|]. destruct Ch as (L & P & Ch). pose proof (chain_end_ge _ _ Ch).
  pose proof (IH (sg_tau s) Ch ltac:(lra) ET (fun x t Hx => B x t (or_intror Hx))) as Q.
  pose proof (simpson_ge (fun x => fv (T - x) (sg_start s)) prev (sg_tau s) n c H E ltac:(lra) ltac:(intros x Hx; apply B; [left; reflexivity|lra])). lra.
Qed.

(** A lower bound on the covariance bounds the modulus; where the covariance is not negative it is at most one. *)
Theorem C83_modulus : forall lg p T n q u z c, open_model p -> 0 <= theta (hl_heston p) -> 0 <= sigma_0 (hl_heston p) -> hlmm1_with_steps p T n = Ok q -> hlmm1_evaluate lg p q (RtoC u) = Ok z ->
  (forall t start v, 0 <= t <= T -> (1 <= start)%nat -> hlmm_f lg p t start = Ok v -> - c <= v) -> 0 <= c -> Cmod z <= exp (u ^ 2 * c * T / 2).
Proof.
  intros lg p T n q u z c M Hth Hs H Hz Lf Hc. destruct (open_facts p M) as (G & O & N1 & K & Ga & Rh & _). destruct (sides_ok p M) as (Hld & Hed & Hvd & Hlf & Hef & Hvf).
  destruct (built p T n q G O N1 H) as (N2 & NE & _ & ET & En & E & ST). pose proof ST as (Ch & EE & EB & _ & _ & Ss & _). destruct (coefs_ok p T E _ M ST) as [Kd Kf].
  rewrite (evaluate_ok lg p T n q _ G O N1 K H) in Hz. assert (Ez : z = seg_assemble (components_of lg p q (RtoC u)) (x0_val p T) (sigma_0 (hl_heston p)) (lm_v0 (hl_dom p)) (lm_v0 (hl_for p))) by congruence. rewrite Ez.
  assert (EQ : components_of lg p q (RtoC u) = seg_value (hl_heston p) (xi_sigma (hl_corr p)) (lm_lambda (hl_dom p)) (lm_eta (hl_dom p)) (lm_v0 (hl_dom p)) (lm_lambda (hl_for p)) (lm_eta (hl_for p)) (lm_v0 (hl_for p)) (f_val lg p) T (l_segments q) n (RtoC u)).
  { unfold components_of, seg_value. rewrite ET, En. reflexivity. }
  rewrite EQ. eapply Rle_trans; [apply seg_modulus; try assumption; lra|].
  pose proof (simpson_on_ge (f_val lg p) T n (- c) (l_segments q) N2 NE 0 Ch ltac:(lra) ltac:(lra)) as S.
  rewrite EE in S. assert (Q : - c * (E - 0) <= simpson_on (f_val lg p) T n 0 (l_segments q)).
  { apply S. intros s t Hsg Ht. apply (Lf t (sg_start s)); [exact Ht|apply Ss, Hsg|]. apply f_ok; try assumption. apply Ss, Hsg. }
  assert (L : - (u * u / 2 * simpson_on (f_val lg p) T n 0 (l_segments q)) <= u ^ 2 * c * T / 2).
  { assert (0 <= u * u) by nra. assert (c * E <= c * T) by (apply Rmult_le_compat_l; lra). assert (- simpson_on (f_val lg p) T n 0 (l_segments q) <= c * T) by lra. nra. }
  destruct L as [L|L]; [left; apply exp_increasing; exact L|right; rewrite L; reflexivity].
Qed.

(** The value at zero is one, and at [-i] it is today's rate when the mean reversion exceeds [gamma] times the
    correlation (otherwise the code divides zero by zero). *)
Theorem C83_martingale : forall lg p T n q, open_model p -> hlmm1_with_steps p T n = Ok q ->
  hlmm1_evaluate lg p q 0%C = Ok (RtoC 1) /\
  (0 < hl_fx0 p -> gamma (hl_heston p) * xi_sigma (hl_corr p) < kappa (hl_heston p) ->
   (forall k l, nth_error (libors (hl_tenor p)) k = Some l -> 1 + (nth (k + 1) (lt_dates (hl_tenor p)) 0 - nth k (lt_dates (hl_tenor p)) 0) * l <> 0) ->
   hlmm1_evaluate lg p q (0, -1) = Ok (RtoC (hl_fx0 p))).
Proof.
  intros lg p T n q M H. destruct (open_facts p M) as (G & O & N1 & K & Ga & Rh & _). destruct (sides_ok p M) as (Hld & Hed & Hvd & Hlf & Hef & Hvf).
  destruct (built p T n q G O N1 H) as (_ & _ & _ & ET & En & _).
  assert (EQ : forall w, components_of lg p q w = seg_value (hl_heston p) (xi_sigma (hl_corr p)) (lm_lambda (hl_dom p)) (lm_eta (hl_dom p)) (lm_v0 (hl_dom p)) (lm_lambda (hl_for p)) (lm_eta (hl_for p)) (lm_v0 (hl_for p)) (f_val lg p) T (l_segments q) n w).
  { intros w. unfold components_of, seg_value. rewrite ET, En. reflexivity. }
  split.
  - rewrite (evaluate_ok lg p T n q _ G O N1 K H), EQ. rewrite (seg_flat _ _ _ _ _ _ _ _ _ _ _ _ _ (kappa (hl_heston p))); try assumption.
    + rewrite <- cexp_0. apply f_equal. f_equal. ring.
    + unfold hb. ring.
    + unfold hx. apply C_eq; unfold I_, Cminus, Cplus, Cmult, Copp, RtoC; cbn; ring.
  - intros F KG LR. rewrite (evaluate_ok lg p T n q _ G O N1 K H), EQ. assert (Ei : (I_ * (0, -1))%C = 1%C) by (apply C_eq; unfold I_, Cmult, RtoC; cbn; ring).
    rewrite (seg_flat _ _ _ _ _ _ _ _ _ _ _ _ _ (kappa (hl_heston p) - gamma (hl_heston p) * xi_sigma (hl_corr p))); try assumption.
    + rewrite Ei, Cmult_1_l, cexp_real. rewrite (x0_fx p T G N1); [rewrite exp_ln by exact F; reflexivity|].
      intros k Hk. specialize (LR (k - 1)%nat (nth (k - 1) (libors (hl_tenor p)) 0)). replace (k - 1 + 1)%nat with k in LR by lia. apply LR. apply nth_error_nth'. unfold lt_n in Hk. lia.
    + unfold hb. rewrite Ei. ring.
    + unfold hx. rewrite Ei. apply C_eq; unfold Cminus, Cplus, Cmult, Copp, RtoC; cbn; ring.
    + apply Rlt_Rminus. exact KG.
Qed.

(** The value at the opposite frequency is the conjugate, so the implied density is real. *)
Theorem C83_conjugate : forall lg p T n q u z, open_model p -> hlmm1_with_steps p T n = Ok q -> hlmm1_evaluate lg p q (RtoC u) = Ok z ->
  hlmm1_evaluate lg p q (RtoC (- u)) = Ok (Cconj z).
Proof.
  intros lg p T n q u z M H Hz. destruct (open_facts p M) as (G & O & N1 & K & Ga & Rh & _). destruct (sides_ok p M) as (Hld & Hed & Hvd & Hlf & Hef & Hvf).
  destruct (built p T n q G O N1 H) as (_ & _ & _ & ET & En & E & ST). pose proof ST as (Ch & _). destruct (coefs_ok p T E _ M ST) as [Kd Kf].
  assert (EQ : forall w, components_of lg p q w = seg_value (hl_heston p) (xi_sigma (hl_corr p)) (lm_lambda (hl_dom p)) (lm_eta (hl_dom p)) (lm_v0 (hl_dom p)) (lm_lambda (hl_for p)) (lm_eta (hl_for p)) (lm_v0 (hl_for p)) (f_val lg p) T (l_segments q) n w).
  { intros w. unfold components_of, seg_value. rewrite ET, En. reflexivity. }
  rewrite (evaluate_ok lg p T n q _ G O N1 K H), EQ in Hz. rewrite (evaluate_ok lg p T n q _ G O N1 K H), EQ. rewrite (seg_conj (hl_heston p) _ _ _ _ _ _ _ _ _ _ K Ga Rh Hld Hed Hlf Hef Ch Kd Kf). apply f_equal. congruence.
Qed.

(** What the pricer is given: the value itself at every real frequency, the expiry, and the logarithm of the
    forward the value at [-i] shows. *)
Theorem C83_pricer : forall lg p T n q, open_model p -> 0 < hl_fx0 p -> gamma (hl_heston p) * xi_sigma (hl_corr p) < kappa (hl_heston p) ->
  (forall k l, nth_error (libors (hl_tenor p)) k = Some l -> 1 + (nth (k + 1) (lt_dates (hl_tenor p)) 0 - nth k (lt_dates (hl_tenor p)) 0) * l <> 0) -> hlmm1_with_steps p T n = Ok q ->
  let c := hlmm1_forward_chf lg p q in
  CosPricer.expiry c = T /\ (forall u, hlmm1_evaluate lg p q (RtoC u) = Ok (CosPricer.evaluate c u)) /\ CosPricer.evaluate c 0 = RtoC 1 /\
  hlmm1_evaluate lg p q (0, -1) = Ok (RtoC (exp (CosPricer.log_forward c))).
Proof.
  intros lg p T n q M F KG LR H c. destruct (open_facts p M) as (G & O & N1 & K & _). destruct (built p T n q G O N1 H) as (_ & _ & _ & ET & _). destruct (C83_martingale lg p T n q M H) as [Z1 Z2].
  split; [exact ET|]. split; [|split].
  - intros u. cbn [c CosPricer.evaluate hlmm1_forward_chf]. rewrite (evaluate_ok lg p T n q _ G O N1 K H). reflexivity.
  - cbn [c CosPricer.evaluate hlmm1_forward_chf]. rewrite Z1. reflexivity.
  - cbn [c CosPricer.log_forward hlmm1_forward_chf]. rewrite exp_ln by exact F. apply Z2; assumption.
Qed.

(** A two-period model with all correlations: every hypothesis but the smoothness of the means holds for any
    volatility of the variances, and that one where these are below the code's threshold of [1e-14]. *)
Definition wit_sv (g e : R) : hlmm :=
  let side := {| lm_sigmas := [1 / 5; 1 / 4]; lm_betas := [1; 1]; lm_lambda := 1; lm_eta := e; lm_v0 := 1; libor_corr := [[1; 9 / 10]; [9 / 10; 1]] |} in
  {| hl_fx0 := 135 / 100; hl_heston := {| kappa := (1 / 2 : num R_numbers); theta := (1 / 10 : num R_numbers); gamma := (g : num R_numbers); sigma_0 := (1 / 10 : num R_numbers) |};
     hl_tenor := wit_tenor; hl_dom := side; hl_for := side; hl_corr := hl_corr wit_hlmm |}.
Lemma wit_open g e : g <> 0 -> 0 < e -> open_model (wit_sv g e).
Proof.
  intros Hg He. split; [exists [0; 1 / 2; 1], [1 / 50; 1 / 40]; exact wit_tenor_ok|]. split.
  { pose proof (proj1 (proj1 (hlmm_validate_iff wit_hlmm)) wit_valid) as (L1 & L2 & L3). apply hlmm_validate_iff.
    assert (L : lmm_ok (hl_dom (wit_sv g e)) 2). { destruct L1 as (A & B & D & _ & _ & F). unfold lmm_ok. cbn [wit_sv hl_dom lm_sigmas lm_betas libor_corr lm_lambda lm_eta lm_v0]. split; [exact A|]. split; [exact B|]. split; [exact D|]. repeat split; lra. }
    split; [exact L|]. split; [exact L|]. exact L3. }
  split; [cbn; lia|]. split; [cbn; lra|]. split; [exact Hg|]. split; [cbn; lra|].
  assert (P : semidefinite [[1; 9 / 10]; [9 / 10; 1]]).
  { intros y. unfold form, completed, el, sum_on, from_to. cbn. pose proof (Rle_0_sqr (y 1%nat + 9 / 10 * y 2%nat)). pose proof (Rle_0_sqr (y 2%nat)). unfold Rsqr in *. nra. }
  split; exact P.
Qed.
Lemma wit_means g e lg T : Rabs g < / 10 ^ 14 -> Rabs e < / 10 ^ 14 ->
  (forall t, phi_of lg (hl_heston (wit_sv g e)) t = sqrt (1 / 10) /\ phi_of lg (side_process (hl_dom (wit_sv g e))) t = 1 /\ phi_of lg (side_process (hl_for (wit_sv g e))) t = 1) /\ smooth_means lg (wit_sv g e) T.
Proof.
  intros G E. assert (Q : forall k v s t, 0 < k -> 0 <= v -> Rabs s < / 10 ^ 14 -> phi_of lg ({| kappa := k; theta := v; gamma := s; sigma_0 := v |} : cir_process R_numbers) t = sqrt v).
  { intros k v s t K V S. unfold phi_of, sqrt_mean, sqrt_mean_tol, cir_mean. cbn [kappa theta gamma sigma_0].
    destruct (Rle_dec t 0); [rewrite Rmax_left by exact V; reflexivity|]. destruct (Rlt_dec 0 k) as [_|X]; [|contradiction]. cbn [negb].
    destruct (Rlt_dec (Rabs s) (/ 10 ^ 14)) as [_|X]; [|contradiction]. f_equal. rewrite Rmax_left; [rring|]. match goal with |- 0 <= ?a => replace a with v by rring end. exact V. }
  assert (A : forall t, phi_of lg (hl_heston (wit_sv g e)) t = sqrt (1 / 10) /\ phi_of lg (side_process (hl_dom (wit_sv g e))) t = 1 /\ phi_of lg (side_process (hl_for (wit_sv g e))) t = 1).
  { intros t. split; [|split].
    - apply (Q (1 / 2) (1 / 10) g t); [lra|lra|exact G].
    - rewrite <- sqrt_1. apply (Q 1 1 e t); [lra|lra|exact E].
    - rewrite <- sqrt_1. apply (Q 1 1 e t); [lra|lra|exact E]. }
  split; [exact A|]. intros t _. split; [|split].
  - apply (continuity_pt_ext (fun _ => sqrt (1 / 10))); [intros; symmetry; apply A|apply continuity_pt_const; intros ? ?; reflexivity].
  - apply (continuity_pt_ext (fun _ => 1)); [intros; symmetry; apply A|apply continuity_pt_const; intros ? ?; reflexivity].
  - apply (continuity_pt_ext (fun _ => 1)); [intros; symmetry; apply A|apply continuity_pt_const; intros ? ?; reflexivity].
Qed.
Lemma wit_bounded g e lg : g <> 0 -> 0 < e -> Rabs g < / 10 ^ 14 -> Rabs e < / 10 ^ 14 ->
  exists c, 0 <= c /\ forall t start v, (1 <= start)%nat -> hlmm_f lg (wit_sv g e) t start = Ok v -> - c <= v.
Proof.
  intros Hg He G E. destruct (wit_means g e lg 1 G E) as [Ph _]. pose proof (wit_open g e Hg He) as M. destruct (open_facts _ M) as (GT & O & N1 & K & _).
  destruct O as (Od & Of & (_ & Lxd & Lxf & Sc & _)). destruct Od as (Ld & _ & _ & Kd & _), Of as (Lf & _ & _ & Kf & _).
  assert (X : exists F : nat -> R, (forall s, (3 <= s)%nat -> F s = 0) /\ forall t s, (1 <= s)%nat -> hlmm_f lg (wit_sv g e) t s = Ok (F s)).
  { assert (ME : forall t, sqrt_mean lg (hl_heston (wit_sv g e)) t = Ok (sqrt (1 / 10)) /\ sqrt_mean lg (side_process (hl_dom (wit_sv g e))) t = Ok 1 /\ sqrt_mean lg (side_process (hl_for (wit_sv g e))) t = Ok 1).
    { intros t. assert (Q : forall c, 0 < kappa c -> sqrt_mean lg c t = Ok (phi_of lg c t)) by (intros c Hc; unfold phi_of; destruct (sqrt_mean_total lg c t Hc) as [v ->]; reflexivity).
      destruct (Ph t) as (P1 & P2 & P3). rewrite (Q _ K), (Q (side_process (hl_dom (wit_sv g e))) Kd), (Q (side_process (hl_for (wit_sv g e))) Kf), P1, P2, P3. split; [|split]; reflexivity. }
    assert (SA : forall t s, hlmm_f lg (wit_sv g e) t s = hlmm_f lg (wit_sv g e) 0 s).
    { intros t s. unfold hlmm_f. change (side_cir (lm_lambda (hl_dom (wit_sv g e))) (lm_eta (hl_dom (wit_sv g e))) (lm_v0 (hl_dom (wit_sv g e)))) with (side_process (hl_dom (wit_sv g e))).
      change (side_cir (lm_lambda (hl_for (wit_sv g e))) (lm_eta (hl_for (wit_sv g e))) (lm_v0 (hl_for (wit_sv g e)))) with (side_process (hl_for (wit_sv g e))).
      destruct (ME t) as (A1 & A2 & A3), (ME 0) as (B1 & B2 & B3). rewrite A1, A2, A3, B1, B2, B3. reflexivity. }
    exists (f_val lg (wit_sv g e) 0). split.
    - intros s S3. pose proof (f_ok lg (wit_sv g e) 0 s GT (proj1 (proj2 (open_facts _ M))) K ltac:(lia)) as Q. unfold hlmm_f in Q. rewrite (psi_ok _ _ GT Ld), (psi_ok _ _ GT Lf) in Q. cbn [obind] in Q.
      change (side_cir (lm_lambda (hl_dom (wit_sv g e))) (lm_eta (hl_dom (wit_sv g e))) (lm_v0 (hl_dom (wit_sv g e)))) with (side_process (hl_dom (wit_sv g e))) in Q.
      change (side_cir (lm_lambda (hl_for (wit_sv g e))) (lm_eta (hl_for (wit_sv g e))) (lm_v0 (hl_for (wit_sv g e)))) with (side_process (hl_for (wit_sv g e))) in Q.
      destruct (ME 0) as (B1 & B2 & B3). rewrite B1, B2, B3 in Q. cbn [obind] in Q. unfold cross_terms in Q. change (lt_n (hl_tenor (wit_sv g e))) with 2%nat in Q. rewrite (proj2 (Nat.ltb_lt 2 s)) in Q by lia. congruence.
    - intros t s S1. rewrite SA. apply f_ok; try assumption. exact (proj1 (proj2 (open_facts _ M))). }
  destruct X as (F & F0 & FE). exists (Rabs (F 1%nat) + Rabs (F 2%nat)). pose proof (Rabs_pos (F 1%nat)). pose proof (Rabs_pos (F 2%nat)). split; [lra|].
  intros t s v S1 Hv. rewrite FE in Hv by exact S1. assert (v = F s) by congruence. subst v. pose proof (Rle_abs (- F 1%nat)) as A1. pose proof (Rle_abs (- F 2%nat)) as A2. rewrite Rabs_Ropp in A1, A2.
  destruct s as [|[|[|s]]]; [lia|lra|lra|]. rewrite (F0 (Datatypes.S (Datatypes.S (Datatypes.S s)))) by lia. lra.
Qed.
Example C83_witness :
  open_model (wit_sv (3 / 10) (1 / 10)) /\ (exists q, hlmm1_with_steps (wit_sv (3 / 10) (1 / 10)) 1 32 = Ok q) /\ 0 < hl_fx0 (wit_sv (3 / 10) (1 / 10)) /\
  gamma (hl_heston (wit_sv (3 / 10) (1 / 10))) * xi_sigma (hl_corr (wit_sv (3 / 10) (1 / 10))) < kappa (hl_heston (wit_sv (3 / 10) (1 / 10))) /\
  nth 0 (lt_dates wit_tenor) 0 = 0 /\ (forall k l, nth_error (libors wit_tenor) k = Some l -> 1 + (nth (k + 1) (lt_dates wit_tenor) 0 - nth k (lt_dates wit_tenor) 0) * l <> 0) /\
  ~ In (1 / 4) (removelast (lt_dates wit_tenor)) /\
  exists e, 0 < e /\ open_model (wit_sv e e) /\ forall lg, smooth_means lg (wit_sv e e) 1 /\ exists c, 0 <= c /\ forall t start v, (1 <= start)%nat -> hlmm_f lg (wit_sv e e) t start = Ok v -> - c <= v.
Proof.
  assert (M : open_model (wit_sv (3 / 10) (1 / 10))) by (apply wit_open; lra). split; [exact M|]. destruct (open_facts _ M) as (G & O & N1 & _).
  split; [apply built_ok; try assumption; try lra; [lia|reflexivity]|]. split; [cbn; lra|]. split; [cbn; lra|]. split; [reflexivity|]. split.
  { intros k l Hk. destruct k as [|[|k]]; cbn in Hk; [inversion Hk; cbn; lra|inversion Hk; cbn; lra|destruct k; discriminate]. }
  split; [cbn; intros [Q|[Q|[]]]; lra|].
  assert (P : 0 < / 10 ^ 15) by (apply Rinv_0_lt_compat, pow_lt; lra).
  assert (S : Rabs (/ 10 ^ 15) < / 10 ^ 14). { rewrite Rabs_pos_eq by lra. apply Rinv_lt_contravar; [apply Rmult_lt_0_compat; apply pow_lt; lra|]. apply Rlt_pow; [lra|lia]. }
  exists (/ 10 ^ 15). split; [exact P|]. split; [apply wit_open; lra|]. intros lg. split; [apply wit_means; exact S|]. apply wit_bounded; try assumption. lra.
Qed.

Print Assumptions C83_total.
Print Assumptions C83_segments.
Print Assumptions C83_riccati.
Print Assumptions C83_limit.
Print Assumptions C83_pde.
Print Assumptions C83_modulus.
Print Assumptions C83_martingale.
Print Assumptions C83_conjugate.
Print Assumptions C83_pricer.
Print Assumptions C83_witness.
