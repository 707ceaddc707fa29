(** C86: the path simulator of the cross-currency forward market model. *)
From Coq Require Import Bool List Arith Reals Psatz Lia.
Import ListNotations.
From Verif Require Import Outcome ForwardPoints VolSurface Processes ProcessFacts Hlmm HlmmFacts FxFmm FxFmmFacts FxFmmSim FxFmmSimFacts.
From Verif Require Fmm FmmFacts P_FmmStep Cholesky CholeskyFacts P_Cholesky P_Hhw1Chf P_FxFmm P_Hlmm.
From Verif Require Import MomentFacts.
Open Scope R_scope.
Global Set Bullet Behavior "Strict Subproofs".

(** ** The drivers: the FX rate, its variance, the domestic rates and the foreign rates *)
Definition drivers (m : nat) : list driver := Fx :: Variance :: map Dom (seq 1 m) ++ map For (seq 1 m).
Definition dsum (l : list driver) (f : driver -> R) : R := fold_right Rplus 0 (map f l).

Lemma drivers_places m : drivers m = map (driver_at m) (seq 0 (2 + 2 * m)).
Proof.
  unfold drivers. replace (2 + 2 * m)%nat with (S (S (m + m))) by lia. cbn [seq map]. f_equal. f_equal. rewrite seq_app, map_app. f_equal.
  - rewrite <- (seq_shift m 1), map_map. apply map_ext_in. intros j J. apply in_seq in J. symmetry. exact (proj1 (at_place m (Dom j) ltac:(cbn; lia))).
  - replace (2 + m)%nat with ((1 + m) + 1)%nat by lia. rewrite <- (MomentFacts.seq_shift_add (1 + m) m 1), map_map. apply map_ext_in. intros j J. apply in_seq in J. symmetry. exact (proj1 (at_place m (For j) ltac:(cbn; lia))).
Qed.
Lemma rs_dsum m f : CholeskyFacts.rs (2 + 2 * m) (fun a => f (driver_at m a)) = dsum (drivers m) f.
Proof.
  rewrite drivers_places. generalize (2 + 2 * m)%nat. intros n. rewrite <- lsum_rs. unfold dsum. rewrite map_map. generalize (seq 0 n). induction l as [|a l IH]; cbn; [reflexivity|]. rewrite IH. reflexivity.
Qed.
Lemma in_drivers m d : In d (drivers m) <-> is_driver m d.
Proof.
  unfold drivers. cbn [In]. rewrite in_app_iff, !in_map_iff. split.
  - intros [<-|[<-|[(j & <- & J)|(j & <- & J)]]]; cbn; [exact I|exact I| |]; apply in_seq in J; lia.
  - destruct d as [| |j|j]; cbn; intros H; [left; reflexivity|right; left; reflexivity| |]; right; right; [left|right]; exists j; (split; [reflexivity|apply in_seq; lia]).
Qed.
Lemma quadratic_dsum p x : let m := Fmm.m_of (fm_tenor p) in
  CholeskyFacts.quadratic (rho_table p) x = dsum (drivers m) (fun d => dsum (drivers m) (fun e => x (place m d) * rho p d e * x (place m e))).
Proof.
  cbv zeta. unfold CholeskyFacts.quadratic. set (m := Fmm.m_of (fm_tenor p)). replace (length (rho_table p)) with (2 + 2 * m)%nat by (unfold rho_table; rewrite table_length; reflexivity).
  rewrite <- rs_dsum. apply CholeskyFacts.rs_ext. intros a A. rewrite <- rs_dsum. apply CholeskyFacts.rs_ext. intros b B. unfold rho_table. fold m. rewrite table_entry, (proj2 (Nat.ltb_lt _ _) A), (proj2 (Nat.ltb_lt _ _) B). cbn [andb].
  rewrite (proj2 (place_at m a A)), (proj2 (place_at m b B)). reflexivity.
Qed.

(** A simulator can be built exactly when the parameters are valid and every combination of the drivers has
    positive variance; otherwise there is an error.  The correlation of a domestic rate [i] and a foreign rate
    [j] in that variance is the mean of the entries [i, j] and [j, i] of the cross-currency block. *)
Theorem C86_new : forall p, let m := Fmm.m_of (fm_tenor p) in
  ((exists l, sim_new p = Ok l) \/ sim_new p = Err EInvalidData) /\
  ((exists l, sim_new p = Ok l) <-> fmm_validate p = Ok tt /\
     forall x : driver -> R, (exists d, In d (drivers m) /\ x d <> 0) -> 0 < dsum (drivers m) (fun d => dsum (drivers m) (fun e => x d * rho p d e * x e))).
Proof.
  intros p m. destruct (fmm_validate_iff p) as [I O].
  assert (PD : CholeskyFacts.positive_definite (rho_table p) <-> forall x : driver -> R, (exists d, In d (drivers m) /\ x d <> 0) -> 0 < dsum (drivers m) (fun d => dsum (drivers m) (fun e => x d * rho p d e * x e))).
  { split.
    - intros H x (d & D & N). apply in_drivers in D. destruct (at_place m d D) as [E L]. specialize (H (fun a => x (driver_at m a))). rewrite quadratic_dsum in H. fold m in H.
      replace (dsum (drivers m) (fun d0 => dsum (drivers m) (fun e => x d0 * rho p d0 e * x e))) with (dsum (drivers m) (fun d0 => dsum (drivers m) (fun e => x (driver_at m (place m d0)) * rho p d0 e * x (driver_at m (place m e))))).
      + apply H. exists (place m d). split; [unfold rho_table; rewrite table_length; exact L|]. rewrite E. exact N.
      + unfold dsum. f_equal. apply map_ext_in. intros d0 D0. f_equal. apply map_ext_in. intros e0 E0. apply in_drivers in D0. apply in_drivers in E0. rewrite (proj1 (at_place m d0 D0)), (proj1 (at_place m e0 E0)). reflexivity.
    - intros H x (a & A & N). rewrite quadratic_dsum. fold m. unfold rho_table in A. rewrite table_length in A. destruct (place_at m a A) as [D E]. apply (H (fun d => x (place m d))). exists (driver_at m a). split; [apply in_drivers, D|]. rewrite E. exact N. }
  destruct O as [V|V].
  - destruct (new_cases p (proj1 I V)) as [(l & E & F)|(E & N)].
    + split; [left; exists l; exact E|]. split; [|intros _; exists l; exact E]. intros _. split; [exact V|]. apply PD. apply (CholeskyFacts.factor_positive _ _ F).
    + split; [right; exact E|]. split; [intros (l & E'); congruence|]. intros [_ Q]. exfalso. apply N, PD, Q.
  - assert (E : sim_new p = Err EInvalidData) by (unfold sim_new; rewrite V; reflexivity). split; [right; exact E|]. split; [intros (l & E'); congruence|]. intros [Q _]. congruence.
Qed.

(** The factor kept by the simulator is lower triangular with positive diagonal, and its rows have the
    correlations of the drivers as products. *)
Theorem C86_factor : forall p l, sim_new p = Ok l -> let m := Fmm.m_of (fm_tenor p) in
  (forall a b, (a < b)%nat -> CholeskyFacts.entry l a b = 0) /\ (forall a, (a < 2 + 2 * m)%nat -> 0 < CholeskyFacts.entry l a a) /\
  forall d e, is_driver m d -> is_driver m e -> lsum (seq 0 (2 + 2 * m)) (fun k => CholeskyFacts.entry l (place m d) k * CholeskyFacts.entry l (place m e) k) = rho p d e.
Proof.
  intros p l H m. pose proof (new_valid p l H) as V. destruct (new_cases p V) as [(l' & E & F)|(E & _)]; [|congruence]. assert (l' = l) by congruence. subst l'.
  split; [apply F|]. split; [|intros d e D D'; apply (factor_rho p l d e F D D')]. intros a A. destruct F as (_ & _ & _ & P & _). apply P. unfold rho_table. rewrite table_length. exact A.
Qed.
Lemma built_factor p l : sim_new p = Ok l -> fmm_ok p /\ CholeskyFacts.cholesky_factor (rho_table p) l /\ factor_shape l (2 + 2 * Fmm.m_of (fm_tenor p)).
Proof.
  intros H. pose proof (new_valid p l H) as V. destruct (new_cases p V) as [(l' & E & F)|(E & _)]; [|congruence]. assert (l' = l) by congruence. subst l'. split; [exact V|]. split; [exact F|]. apply factor_shaped, F.
Qed.

(** ** One step *)
Definition tenor_built (p : fx_fmm) : Prop := exists ds rs, Fmm.tenor_new ds rs = Ok (fm_tenor p).
Lemma built_tenor p : tenor_built p -> FmmFacts.good_tenor (fm_tenor p).
Proof. intros (ds & rs & H). apply FmmFacts.tenor_new_spec in H. apply H. Qed.

(** A step succeeds exactly when its length is positive, and panics otherwise; it uses [2 + 2m] draws. *)
Theorem C86_total : forall p l g s dt, tenor_built p -> sim_new p = Ok l -> shaped_state p s ->
  (0 < dt -> exists s', sim_step p l g s dt = Ok (fun i => g (2 + 2 * Fmm.m_of (fm_tenor p) + i)%nat, s') /\ shaped_state p s') /\
  (dt <= 0 -> sim_step p l g s dt = Panic PAssert).
Proof.
  intros p l g s dt T H SH. destruct (built_factor p l H) as (V & _ & FS). split.
  - intros D. destruct (step_form p l g s dt (built_tenor p T) V FS SH D) as (s' & E & ST). exists s'. split; [exact E|]. eapply step_shaped. exact ST.
  - intros D. unfold sim_step. destruct (Fmm.Rltb 0 dt) eqn:E; [apply FmmFacts.Rltb_true in E; lra|reflexivity].
Qed.

(** The step: the log FX rate by the difference of the rates in force less half the variance; the variance by
    full truncation; each rate by the drift and diffusion of equation (5) at the midpoint, with the foreign
    ones shifted by the correlation with the FX rate; the variances of the rates, the state of the period in
    progress and the snapshots.  See [stepped] and [leg_stepped]. *)
Theorem C86_step : forall p l g s dt g' s', tenor_built p -> sim_new p = Ok l -> shaped_state p s -> sim_step p l g s dt = Ok (g', s') -> stepped p l g s dt s'.
Proof.
  intros p l g s dt g' s' T H SH E. destruct (built_factor p l H) as (V & _ & FS). destruct (step_form p l g s dt (built_tenor p T) V FS SH (step_dt _ _ _ _ _ _ E)) as (s1 & E1 & ST).
  rewrite E1 in E. assert (s1 = s') by congruence. subst s1. exact ST.
Qed.

Lemma leg_frozen s te x x' t dt q w j : FmmFacts.good_tenor te -> 0 < dt -> leg_stepped s te x x' t dt q w -> (1 <= j <= Fmm.m_of te)%nat -> Fmm.date_at te j <= t -> rate_of x' j = rate_of x j /\ y_of x' j = y_of x j.
Proof.
  intros G D (_ & RR & YY & _) J L. rewrite (RR j J), (YY j J). rewrite (FmmFacts.gamma_after te G) by (lia || lra). rewrite !Rmin_right by lra. split; ring.
Qed.
(** From its fixing on, a rate and its variance never move again, whatever the steps, in both currencies. *)
Theorem C86_frozen : forall n p l g s dt g' s' j, tenor_built p -> sim_new p = Ok l -> shaped_state p s -> sim_steps n p l g s dt = Ok (g', s') ->
  (1 <= j <= Fmm.m_of (fm_tenor p))%nat -> Fmm.date_at (fm_tenor p) j <= sm_t s ->
  rate_of (sm_d s') j = rate_of (sm_d s) j /\ y_of (sm_d s') j = y_of (sm_d s) j /\ rate_of (sm_f s') j = rate_of (sm_f s) j /\ y_of (sm_f s') j = y_of (sm_f s) j.
Proof.
  induction n as [|n IH]; intros p l g s dt g' s' j T H SH E J L; cbn [sim_steps] in E.
  - assert (s' = s) by congruence. subst s'. split; [reflexivity|]. split; [reflexivity|]. split; reflexivity.
  - apply obind_Ok in E. destruct E as ([g1 s1] & E1 & E). pose proof (step_dt _ _ _ _ _ _ E1) as D. pose proof (C86_step p l g s dt g1 s1 T H SH E1) as ST. pose proof (step_shaped _ _ _ _ _ _ ST) as SH1.
    pose proof ST as (T1 & _ & _ & LD & LF). destruct (leg_frozen _ _ _ _ _ _ _ _ j (built_tenor p T) D LD J L) as [A1 A2]. destruct (leg_frozen _ _ _ _ _ _ _ _ j (built_tenor p T) D LF J L) as [B1 B2].
    destruct (IH p l g1 s1 dt g' s' j T H SH1 E J ltac:(rewrite T1; lra)) as (C1 & C2 & C3 & C4). rewrite C1, C2, C3, C4, A1, A2, B1, B2. split; [reflexivity|]. split; [reflexivity|]. split; reflexivity.
Qed.

(** ** simulate_terminal *)
Definition sound (p : fx_fmm) (T : R) (s : fmm_state) : Prop := shaped_state p s /\ sm_t s = T /\ 0 < sm_fx s /\ 0 <= sm_variance s.
Lemma steps_ok p l dt : FmmFacts.good_tenor (fm_tenor p) -> sim_new p = Ok l -> 0 < dt -> forall n g s, shaped_state p s ->
  exists g' s', sim_steps n p l g s dt = Ok (g', s') /\ (forall i, g' i = g (n * (2 + 2 * Fmm.m_of (fm_tenor p)) + i)%nat) /\
  shaped_state p s' /\ sm_t s' = sm_t s + INR n * dt /\ ((0 < n)%nat -> 0 < sm_fx s' /\ 0 <= sm_variance s').
Proof.
  intros G H D. destruct (built_factor p l H) as (V & _ & FS). induction n as [|n IH]; intros g s SH.
  - exists g, s. split; [reflexivity|]. split; [reflexivity|]. split; [exact SH|]. split; [cbn; ring|lia].
  - destruct (step_form p l g s dt G V FS SH D) as (s1 & E1 & ST). pose proof (step_shaped _ _ _ _ _ _ ST) as SH1.
    set (N := (2 + 2 * Fmm.m_of (fm_tenor p))%nat) in *.
    destruct (IH (fun i => g (N + i)%nat) s1 SH1) as (g' & s' & E & GG & SH' & TT & POS).
    exists g', s'. split; [|split; [|split; [exact SH'|split]]].
    + change (sim_steps (S n) p l g s dt) with (do (g0, s0) <- sim_step p l g s dt; sim_steps n p l g0 s0 dt). rewrite E1. exact E.
    + intros i. rewrite GG. f_equal. cbn [Nat.mul]. lia.
    + rewrite TT. destruct ST as (-> & _). rewrite S_INR. ring.
    + intros _. destruct n as [|n]; [|apply POS; lia]. cbn in E. assert (s' = s1) by congruence. subst s'. destruct ST as (_ & F & W & _). rewrite F, W. split; [apply exp_pos|apply Rmax_r].
Qed.
Lemma paths_ok p l dt n : FmmFacts.good_tenor (fm_tenor p) -> sim_new p = Ok l -> 0 < dt -> (0 < n)%nat -> forall k g,
  exists g' ss, sim_paths k n p l g dt = Ok (g', ss) /\ (forall i, g' i = g (k * (n * (2 + 2 * Fmm.m_of (fm_tenor p))) + i)%nat) /\ length ss = k /\ Forall (sound p (INR n * dt)) ss.
Proof.
  intros G H D N. destruct (initial_ok p G) as (s & lg & E & SH & _ & _ & T0 & _). induction k as [|k IH]; intros g.
  - exists g, []. split; [reflexivity|]. split; [reflexivity|]. split; [reflexivity|constructor].
  - destruct (steps_ok p l dt G H D n g s SH) as (g1 & s1 & E1 & G1 & SH1 & T1 & P1). destruct (IH g1) as (g2 & ss & E2 & G2 & L2 & S2).
    exists g2, (s1 :: ss). split; [|split; [|split]].
    + cbn [sim_paths]. rewrite E. cbn [obind]. rewrite E1. cbn [obind]. rewrite E2. reflexivity.
    + intros i. rewrite G2, G1. f_equal. cbn [Nat.mul]. lia.
    + cbn. rewrite L2. reflexivity.
    + constructor; [|exact S2]. destruct (P1 N) as [A B]. split; [exact SH1|]. split; [rewrite T1, T0; ring|]. split; assumption.
Qed.
(** simulate_terminal returns the requested number of states, all at the horizon, with a positive FX rate and
    a variance that is not negative, and uses [2 + 2m] draws per step; a horizon or a number of steps or paths
    that is not positive panics. *)
Theorem C86_terminal : forall p l g T n k, tenor_built p -> sim_new p = Ok l ->
  (0 < T -> (0 < n)%nat -> (0 < k)%nat -> exists g' ss, simulate_terminal p l g T n k = Ok (g', ss) /\ length ss = k /\ Forall (sound p T) ss /\
     forall i, g' i = g (k * (n * (2 + 2 * Fmm.m_of (fm_tenor p))) + i)%nat) /\
  (T <= 0 \/ n = 0%nat \/ k = 0%nat -> simulate_terminal p l g T n k = Panic PAssert).
Proof.
  intros p l g T n k TB H. unfold simulate_terminal. split.
  - intros T0 N0 K0. rewrite (proj2 (FmmFacts.Rltb_true 0 T) T0), (proj2 (Nat.ltb_lt _ _) N0), (proj2 (Nat.ltb_lt _ _) K0). cbn [andb negb].
    assert (NP : 0 < INR n) by (apply lt_0_INR, N0). destruct (paths_ok p l (T / INR n) n (built_tenor p TB) H ltac:(apply Rdiv_lt_0_compat; assumption) N0 k g) as (g' & ss & E & GG & L & S).
    exists g', ss. split; [exact E|]. split; [exact L|]. split; [|exact GG]. replace (INR n * (T / INR n)) with T in S by (field; lra). exact S.
  - intros C. destruct (Fmm.Rltb 0 T) eqn:E; [|reflexivity]. apply FmmFacts.Rltb_true in E. destruct (Nat.ltb_spec 0 n) as [N|N]; [|reflexivity]. destruct (Nat.ltb_spec 0 k) as [K|K]; [|reflexivity]. exfalso. destruct C as [C|[C|C]]; [lra|lia|lia].
Qed.

(** ** Means and covariances *)
Definition component (d : driver) (s : fmm_state) : R :=
  match d with Fx => ln (sm_fx s) | Variance => 0 | Dom j => rate_of (sm_d s) j | For j => rate_of (sm_f s) j end.
(** the volatility of a driver over a step *)
Definition volatility (p : fx_fmm) (s : fmm_state) (dt : R) (d : driver) : R :=
  let te := fm_tenor p in let mid := sm_t s + dt / 2 in
  match d with
  | Fx => sqrt (Rmax (sm_variance s) 0) | Variance => 0
  | Dom j => vol_of (fm_dom p) j * Fmm.gamma j mid te | For j => vol_of (fm_for p) j * Fmm.gamma j mid te
  end.
(** its mean after the step *)
Definition drifted (p : fx_fmm) (s : fmm_state) (dt : R) (d : driver) : R :=
  let te := fm_tenor p in let t := sm_t s in let mid := t + dt / 2 in let sg := Rmax (sm_variance s) 0 in
  match d with
  | Fx => ln (sm_fx s) + (front te (sm_d s) t - front te (sm_f s) t - sg / 2) * dt
  | Variance => 0
  | Dom j => rate_of (sm_d s) j + volatility p s dt (Dom j) * carry (fm_dom p) te (sm_d s) (Fmm.eta te t) mid j * dt
  | For j => rate_of (sm_f s) j + volatility p s dt (For j) * (carry (fm_for p) te (sm_f s) (Fmm.eta te t) mid j - nth (j - 1) (fc_xi_f (fm_corr p)) 0 * sqrt sg) * dt
  end.
Lemma component_form p l g s dt g' s' d : tenor_built p -> sim_new p = Ok l -> shaped_state p s -> sim_step p l g s dt = Ok (g', s') -> let m := Fmm.m_of (fm_tenor p) in
  d <> Variance -> is_driver m d -> component d s' = drifted p s dt d + lsum (seq 0 (2 + 2 * m)) (fun k => volatility p s dt d * sqrt dt * CholeskyFacts.entry l (place m d) k * g k).
Proof.
  intros T H SH E m ND D. pose proof (C86_step p l g s dt g' s' T H SH E) as (_ & F & _ & (_ & RD & _) & (_ & RF & _)).
  assert (X : forall v, lsum (seq 0 (2 + 2 * m)) (fun k => v * sqrt dt * CholeskyFacts.entry l (place m d) k * g k) = v * (sqrt dt * mix l (2 + 2 * m) (place m d) g)).
  { intros v. unfold mix. rewrite <- Rmult_assoc, <- lsum_scal. apply lsum_ext. intros k _. ring. }
  rewrite X. clear X. destruct d as [| |j|j]; cbn [component drifted volatility is_driver] in *; [|congruence| |].
  - rewrite F, ln_exp. reflexivity.
  - rewrite (RD j D). rewrite Rminus_0_r. reflexivity.
  - rewrite (RF j D). reflexivity.
Qed.
Lemma linear_mean ks f A a g : NoDup ks -> (forall g', f g' = A + lsum ks (fun k => a k * g' k)) -> expectation ks f g A.
Proof.
  intros N H. pose proof (expectation_product ks N f A 1 a (fun _ => 0) g) as Q. cbv beta in Q. replace (A * 1 + lsum ks (fun k => a k * 0)) with A in Q; [apply Q|].
  - intros g' _. rewrite H. rewrite (lsum_zero (fun k => 0 * g' k)) by (intros; ring). ring.
  - rewrite lsum_zero by (intros; ring). ring.
Qed.
(** The log FX rate and the rates of both currencies have the stated means after a step, and their covariances
    are the products of the volatilities and the correlation, times the length of the step. *)
Theorem C86_moments : forall p l s dt, tenor_built p -> sim_new p = Ok l -> shaped_state p s -> 0 < dt -> let m := Fmm.m_of (fm_tenor p) in
  forall d e, d <> Variance -> e <> Variance -> is_driver m d -> is_driver m e -> forall x y,
  (forall g g' s', sim_step p l g s dt = Ok (g', s') -> x g = component d s' /\ y g = component e s') ->
  forall g, expectation (seq 0 (2 + 2 * m)) x g (drifted p s dt d) /\
  expectation (seq 0 (2 + 2 * m)) (fun g => (x g - drifted p s dt d) * (y g - drifted p s dt e)) g (volatility p s dt d * volatility p s dt e * rho p d e * dt).
Proof.
  intros p l s dt T H SH D m d e ND NE Dd De x y Hxy g. destruct (built_factor p l H) as (V & F & FS).
  assert (X : forall g, x g = drifted p s dt d + lsum (seq 0 (2 + 2 * m)) (fun k => volatility p s dt d * sqrt dt * CholeskyFacts.entry l (place m d) k * g k) /\
                        y g = drifted p s dt e + lsum (seq 0 (2 + 2 * m)) (fun k => volatility p s dt e * sqrt dt * CholeskyFacts.entry l (place m e) k * g k)).
  { intros g0. destruct (step_form p l g0 s dt (built_tenor p T) V FS SH D) as (s' & E & _). destruct (Hxy _ _ _ E) as [-> ->].
    split; apply (component_form p l g0 s dt _ s' _ T H SH E); assumption. }
  split.
  - apply (linear_mean _ _ _ (fun k => volatility p s dt d * sqrt dt * CholeskyFacts.entry l (place m d) k) g); [apply seq_NoDup|]. intros g'. apply X.
  - set (a := fun k => volatility p s dt d * sqrt dt * CholeskyFacts.entry l (place m d) k). set (b := fun k => volatility p s dt e * sqrt dt * CholeskyFacts.entry l (place m e) k).
    pose proof (expectation_product (seq 0 (2 + 2 * m)) (seq_NoDup _ _) (fun g => (x g - drifted p s dt d) * (y g - drifted p s dt e)) 0 0 a b g) as Q.
    replace (0 * 0 + lsum (seq 0 (2 + 2 * m)) (fun k => a k * b k)) with (volatility p s dt d * volatility p s dt e * rho p d e * dt) in Q.
    + apply Q. intros g' _. destruct (X g') as [-> ->]. unfold a, b. ring.
    + symmetry. rewrite (lsum_ext _ (fun k => volatility p s dt d * volatility p s dt e * (sqrt dt * sqrt dt) * (CholeskyFacts.entry l (place m d) k * CholeskyFacts.entry l (place m e) k))) by (intros; unfold a, b; ring).
      rewrite lsum_scal, sqrt_sqrt by lra. pose proof (factor_rho p l d e F Dd De) as R1'. fold m in R1'. rewrite R1'. ring.
Qed.

(** The mean of the FX rate grows at the difference of the two rates in force; and in the foreign unit of
    account every foreign rate has the drift of equation (5), without the quanto shift. *)
Theorem C86_quanto : forall p l s dt, tenor_built p -> sim_new p = Ok l -> shaped_state p s -> 0 < dt -> 0 < sm_fx s -> let te := fm_tenor p in let m := Fmm.m_of te in
  let growth := exp ((front te (sm_d s) (sm_t s) - front te (sm_f s) (sm_t s)) * dt) in
  forall j, (1 <= j <= m)%nat -> forall x y, (forall g g' s', sim_step p l g s dt = Ok (g', s') -> x g = sm_fx s' /\ y g = rate_of (sm_f s') j) ->
  forall g, expectation (seq 0 (2 + 2 * m)) x g (sm_fx s * growth) /\
  let mid := sm_t s + dt / 2 in
  expectation (seq 0 (2 + 2 * m)) (fun g => x g * y g) g
    (sm_fx s * growth * (rate_of (sm_f s) j + vol_of (fm_for p) j * Fmm.gamma j mid te * carry (fm_for p) te (sm_f s) (Fmm.eta te (sm_t s)) mid j * dt)).
Proof.
  intros p l s dt T H SH D FX te m growth j J x y Hxy g. destruct (built_factor p l H) as (V & F & FS). set (mid := sm_t s + dt / 2). cbv zeta.
  set (sg := Rmax (sm_variance s) 0). assert (Q : sqrt dt * sqrt dt = dt) by (apply sqrt_sqrt; lra). assert (Q' : sqrt sg * sqrt sg = sg) by (apply sqrt_sqrt, Rmax_r).
  set (a := fun k => sqrt sg * sqrt dt * CholeskyFacts.entry l 0 k). set (v := volatility p s dt (For j)). set (b := fun k => v * sqrt dt * CholeskyFacts.entry l (place m (For j)) k).
  set (A := drifted p s dt Fx). set (B := drifted p s dt (For j)).
  assert (X : forall g, x g = exp (A + lsum (seq 0 (2 + 2 * m)) (fun k => a k * g k)) /\ y g = B + lsum (seq 0 (2 + 2 * m)) (fun k => b k * g k)).
  { intros g0. destruct (step_form p l g0 s dt (built_tenor p T) V FS SH D) as (s' & E & ST). destruct (Hxy _ _ _ E) as [-> ->]. split.
    - pose proof (component_form p l g0 s dt _ s' Fx T H SH E ltac:(discriminate) I) as C. cbn [component place] in C. fold te in C. fold m in C. unfold A, a. replace (sqrt sg) with (volatility p s dt Fx) by reflexivity.
      apply (f_equal exp) in C. rewrite exp_ln in C; [exact C|]. destruct ST as (_ & -> & _). apply exp_pos.
    - apply (component_form p l g0 s dt _ s' (For j) T H SH E ltac:(discriminate) J). }
  assert (AA : lsum (seq 0 (2 + 2 * m)) (fun k => a k * a k) = sg * dt).
  { rewrite (lsum_ext _ (fun k => sqrt sg * sqrt sg * (sqrt dt * sqrt dt) * (CholeskyFacts.entry l 0 k * CholeskyFacts.entry l 0 k))) by (intros; unfold a; ring). rewrite lsum_scal, Q, Q'.
    pose proof (factor_rho p l Fx Fx F I I) as R1'. cbn [place rho] in R1'. fold te in R1'. fold m in R1'. rewrite R1'. ring. }
  assert (AB : lsum (seq 0 (2 + 2 * m)) (fun k => a k * b k) = v * nth (j - 1) (fc_xi_f (fm_corr p)) 0 * sqrt sg * dt).
  { rewrite (lsum_ext _ (fun k => v * sqrt sg * (sqrt dt * sqrt dt) * (CholeskyFacts.entry l 0 k * CholeskyFacts.entry l (place m (For j)) k))) by (intros; unfold a, b; ring). rewrite lsum_scal, Q.
    pose proof (factor_rho p l Fx (For j) F I J) as R1'. cbn [rho] in R1'. change (place (Fmm.m_of (fm_tenor p)) Fx) with 0%nat in R1'. fold te in R1'. fold m in R1'. rewrite R1'. ring. }
  assert (E : exp (A + sg * dt / 2) = sm_fx s * growth).
  { unfold A, growth. cbn [drifted]. fold te sg. set (f1 := front te (sm_d s) (sm_t s)). set (f2 := front te (sm_f s) (sm_t s)). replace (ln (sm_fx s) + (f1 - f2 - sg / 2) * dt + sg * dt / 2) with (ln (sm_fx s) + (f1 - f2) * dt) by field. rewrite exp_plus, exp_ln by exact FX. reflexivity. }
  split.
  - pose proof (expectation_exp (seq 0 (2 + 2 * m)) (seq_NoDup _ _) x A 1 a (fun _ => 0) g) as M. cbv beta in M. rewrite AA, E, (lsum_zero (fun k => a k * 0)), Rplus_0_r, Rmult_1_r in M by (intros; ring). apply M.
    intros g' _. rewrite (proj1 (X g')). rewrite (lsum_zero (fun k => 0 * g' k)) by (intros; ring). ring.
  - pose proof (expectation_exp (seq 0 (2 + 2 * m)) (seq_NoDup _ _) (fun g => x g * y g) A B a b g) as M. rewrite AA, E, AB in M.
    replace (B + v * nth (j - 1) (fc_xi_f (fm_corr p)) 0 * sqrt sg * dt) with (rate_of (sm_f s) j + vol_of (fm_for p) j * Fmm.gamma j mid te * carry (fm_for p) te (sm_f s) (Fmm.eta te (sm_t s)) mid j * dt) in M.
    + apply M. intros g' _. destruct (X g') as [-> ->]. reflexivity.
    + unfold B, v. cbn [drifted volatility]. fold te sg mid. ring.
Qed.

(** ** Whole paths *)
Definition after (p : fx_fmm) (l : list (list R)) (dt : R) (s : fmm_state) (g : rng R_numbers) : fmm_state := match sim_step p l g s dt with Ok (_, s') => s' | _ => s end.
Lemma after_local p l dt s (g g' : rng R_numbers) : (forall i, (i < 2 + 2 * Fmm.m_of (fm_tenor p))%nat -> g i = g' i) -> after p l dt s g = after p l dt s g'.
Proof.
  intros H. unfold after, sim_step. destruct (negb _); [reflexivity|]. cbv zeta.
  replace (map g' (seq 0 (2 + 2 * Fmm.m_of (fm_tenor p)))) with (map g (seq 0 (2 + 2 * Fmm.m_of (fm_tenor p)))) by (apply map_ext_in; intros i I; apply in_seq in I; apply H; lia).
  repeat match goal with
  | |- context [obind ?e _] => lazymatch e with context [obind] => fail | _ => destruct e; cbn [obind]; try reflexivity end
  | |- context [if ?b then _ else _] => destruct b; try reflexivity
  end.
Qed.
(** Along a path the FX rate, carried at the foreign rate in force and discounted at the domestic one over
    every step, has the mean of its start. *)
Theorem C86_paths : forall p l (s : fmm_state) dt n w g, tenor_built p -> sim_new p = Ok l -> shaped_state p s -> 0 < dt -> 0 < sm_fx s -> let te := fm_tenor p in
  (forall g, discounted (sim_step p l) (fun s => exp (front te (sm_f s) (sm_t s) * dt) / exp (front te (sm_d s) (sm_t s) * dt)) sm_fx dt n g s (w g)) ->
  expectation (seq 0 (n * (2 + 2 * Fmm.m_of te))) w g (sm_fx s).
Proof.
  intros p l s dt n w g T H SH D FX te W. destruct (built_factor p l H) as (V & F & FS).
  assert (ST : forall s g, shaped_state p s -> exists s', sim_step p l g s dt = Ok (fun k => g (2 + 2 * Fmm.m_of te + k)%nat, s') /\ stepped p l g s dt s') by (intros s0 g0 SH0; apply (step_form p l g0 s0 dt (built_tenor p T) V FS SH0 D)).
  apply (tower (sim_step p l) (fun s => exp (front te (sm_f s) (sm_t s) * dt) / exp (front te (sm_d s) (sm_t s) * dt)) sm_fx dt (2 + 2 * Fmm.m_of te) (fun s => shaped_state p s /\ 0 < sm_fx s) (after p l dt)); [| | | |split; assumption|exact W].
  - intros s0 g0 [SH0 _]. unfold after. destruct (ST s0 g0 SH0) as (s' & E & _). rewrite E. reflexivity.
  - intros s0 g0 [SH0 _]. unfold after. destruct (ST s0 g0 SH0) as (s' & E & S'). rewrite E. split; [eapply step_shaped; exact S'|]. destruct S' as (_ & -> & _). apply exp_pos.
  - intros s0 g0 g' E. apply after_local, E.
  - intros s0 g0 [SH0 F0]. set (c := exp (front te (sm_f s0) (sm_t s0) * dt) / exp (front te (sm_d s0) (sm_t s0) * dt)).
    assert (M1 : (1 <= Fmm.m_of te)%nat) by apply (built_tenor p T).
    destruct (C86_quanto p l s0 dt T H SH0 D F0 1%nat ltac:(fold te; lia) (fun g => sm_fx (after p l dt s0 g)) (fun g => rate_of (sm_f (after p l dt s0 g)) 1)) with (g := g0) as [Q _].
    { intros g1 g' s' E. unfold after. rewrite E. split; reflexivity. }
    apply (expectation_scal c) in Q. fold te in Q. replace (c * _) with (sm_fx s0) in Q; [exact Q|]. unfold c. set (f1 := front te (sm_f s0) (sm_t s0)). set (f2 := front te (sm_d s0) (sm_t s0)).
    replace ((f2 - f1) * dt) with (f2 * dt + - (f1 * dt)) by ring. rewrite exp_plus, exp_Ropp. field. split; apply Rgt_not_eq, exp_pos.
Qed.

(** ** The domestic currency alone *)
Definition path_of (l : leg) (t : R) : Fmm.fmm_path :=
  {| Fmm.rates := lg_rates l; Fmm.y_diag := lg_y l; Fmm.rates_at_start := lg_rates_at_start l; Fmm.y_at_start := lg_y_at_start l; Fmm.x_active := lg_x l; Fmm.path_t := t |}.
Definition alone (s : fmm_side) (te : Fmm.fmm_tenor) : Fmm.fmm :=
  {| Fmm.tenor := te; Fmm.sigmas := fs_sigmas s; Fmm.correlation := fs_corr s; Fmm.betas := None; Fmm.schedule := None |}.
Lemma oeach_list (f : nat -> outcome R) xs : forall a, (forall i, (i < length xs)%nat -> f (a + i)%nat = Ok (nth i xs 0)) -> Fmm.oeach f (seq a (length xs)) = Ok xs.
Proof.
  induction xs as [|x xs IH]; intros a H; cbn [length seq Fmm.oeach]; [reflexivity|]. pose proof (H 0%nat ltac:(cbn; lia)) as H0. rewrite Nat.add_0_r in H0. rewrite H0. cbn [obind nth]. rewrite IH; [reflexivity|].
  intros i I. replace (S a + i)%nat with (a + S i)%nat by lia. rewrite H by (cbn; lia). reflexivity.
Qed.
Lemma map_list (f : nat -> R) xs n : length xs = n -> (forall j, (1 <= j <= n)%nat -> f j = nth (j - 1) xs 0) -> map f (seq 1 n) = xs.
Proof.
  intros L H. apply (nth_ext _ _ 0 0); [rewrite map_length, seq_length; lia|]. rewrite map_length, seq_length. intros i I. rewrite FmmFacts.map_seq_nth by exact I. rewrite H by lia. f_equal. lia.
Qed.
Lemma leg_alone s te x x' t dt chol z w : FmmFacts.good_tenor te -> side_ok s (Fmm.m_of te) -> shaped (Fmm.m_of te) x -> 0 < dt ->
  leg_stepped s te x x' t dt (fun _ => 0) w -> (forall j, (1 <= j <= Fmm.m_of te)%nat -> Fmm.increment chol z (sqrt dt) (j - 1) = w j) ->
  Fmm.fmm_step (alone s te) chol z (path_of x t) dt = Ok (path_of x' (t + dt)).
Proof.
  intros G (LS & _) (L1 & L2 & L3 & L4) D ((L1' & L2' & L3' & L4') & RR & YY & XX & SS) W. unfold Fmm.fmm_step. rewrite (proj2 (FmmFacts.Rltb_true 0 dt) D). cbn [negb Fmm.tenor Fmm.path_t alone path_of]. set (m := Fmm.m_of te) in *.
  replace (t + 1 / 2 * dt) with (t + dt / 2) by field. set (mid := t + dt / 2) in *. cbv zeta. set (f := alone s te). set (q := path_of x t).
  assert (VOL : forall j u r, Fmm.adapted_vol f j u r = Ok (vol_of s j)) by (intros; unfold Fmm.adapted_vol, Fmm.sigma_at, Fmm.displacement_level; cbn; rewrite Rmult_1_r; reflexivity).
  assert (A1 : Fmm.oeach (fun i => Fmm.adapted_vol f i mid (Fmm.rate q i)) (seq 1 m) = Ok (fs_sigmas s)).
  { rewrite <- LS. apply oeach_list. intros i I. rewrite VOL. unfold vol_of. do 2 f_equal. lia. }
  assert (A2 : Fmm.oeach (Fmm.new_y f q dt mid) (seq 1 m) = Ok (lg_y x')).
  { rewrite <- L2'. apply oeach_list. intros i I. pose proof (YY (1 + i)%nat ltac:(lia)) as Y. unfold Fmm.new_y. rewrite VOL. cbn [obind]. change (Fmm.path_t q) with t. change (Fmm.tenor f) with te. change (Fmm.y_of q (1 + i)) with (y_of x (1 + i)). change (Fmm.rate q (1 + i)) with (rate_of x (1 + i)).
    replace (nth i (lg_y x') 0) with (y_of x' (1 + i)) by (unfold y_of; f_equal; lia). rewrite Y. clear Y. set (Q := (vol_of s (1 + i) / (rate_of x (1 + i) + 1 / Fmm.tau te (1 + i))) ^ 2). set (tj := Fmm.date_at te (1 + i)).
    destruct (Rle_dec tj t).
    - rewrite !Rmin_right by lra. f_equal. ring.
    - f_equal. f_equal. f_equal. rewrite (Rmin_left t) by lra. unfold Rmin. repeat destruct (Rle_dec _ _); lra. }
  rewrite A1, A2. cbn [obind]. clear A1 A2. set (wt := map (fun i => nth (i - 1) (fs_sigmas s) 0 * Fmm.gamma i mid te * Fmm.tau te i / (1 + Fmm.tau te i * Fmm.rate q i)) (seq 1 m)). set (a := Fmm.eta te t) in *. set (b := Fmm.eta te (t + dt)) in *.
  assert (K1 : (1 <= a)%nat) by apply (P_FmmStep.C76_eta te t G).
  assert (A3 : map (Fmm.new_rate f q dt mid a (fs_sigmas s) wt (Fmm.increment chol z (sqrt dt))) (seq 1 m) = lg_rates x').
  { apply map_list; [exact L1'|]. intros j J. pose proof (RR j J) as E. unfold rate_of in E at 1. rewrite E. clear E. unfold Fmm.new_rate. change (Fmm.tenor f) with te. change (Fmm.rate q j) with (rate_of x j). change (nth (j - 1) (fs_sigmas s) 0) with (vol_of s j).
    destruct (Nat.ltb_spec j a) as [X|X].
    - replace (Fmm.gamma j mid te) with 0; [ring|]. symmetry. apply FmmFacts.gamma_after; [exact G|exact J|]. pose proof (proj2 (proj2 (P_FmmStep.C76_eta te t G)) j ltac:(fold a; lia)). unfold mid. lra.
    - destruct (Req_EM_T (Fmm.gamma j mid te) 0) as [->|_]; [ring|]. rewrite (W j J), Rminus_0_r. f_equal. f_equal. f_equal. f_equal. unfold Fmm.range_incl, carry.
      rewrite (FmmFacts.fold_plus (fun i => Fmm.corr (Fmm.correlation f) (i - 1) (j - 1) * nth (i - 1) wt 0)), Rplus_0_l. apply FmmFacts.sum_over_ext. intros i I. unfold wt. rewrite FmmFacts.map_seq_nth by lia. replace (1 + (i - 1))%nat with i by lia. reflexivity. }
  rewrite A3. clear A3.
  assert (A4 : Fmm.new_x f q dt mid a (lg_rates x') (lg_y x') (Fmm.increment chol z (sqrt dt)) = Ok (new_x_of s te x (rate_of x') (y_of x') w t dt)).
  { unfold Fmm.new_x, new_x_of. change (Fmm.tenor f) with te. change (Fmm.path_t q) with t. fold a m. replace (1 <=? a)%nat with true by (symmetry; apply Nat.leb_le; exact K1). cbn [andb]. destruct (Nat.leb_spec a m) as [K|K]; [|reflexivity]. destruct (_ && _); [|reflexivity]. rewrite VOL. cbn [obind]. rewrite (W a ltac:(lia)). change (Fmm.rate q a) with (rate_of x a). fold (rate_of x' a). fold (y_of x' a). change (Fmm.x_active q) with (lg_x x). change (Fmm.y_at_start q) with (lg_y_at_start x). replace (1 / 2 * (rate_of x a + rate_of x' a)) with ((rate_of x a + rate_of x' a) / 2) by field. f_equal. unfold Rdiv. ring. }
  rewrite A4. cbn [obind]. rewrite <- XX. unfold path_of. f_equal. change (Fmm.rates_at_start q) with (lg_rates_at_start x). change (Fmm.y_at_start q) with (lg_y_at_start x).
  assert (BB : forall j, ((a <? j)%nat && (j <=? Nat.min b m)%nat) = true <-> (a < j <= b)%nat /\ (j <= m)%nat) by (intros; rewrite andb_true_iff, Nat.ltb_lt, Nat.leb_le; lia).
  f_equal; unfold Fmm.snapshot; apply map_list; try assumption; intros j J; destruct (SS j J) as [S1 S2]; specialize (BB j); destruct ((a <? j)%nat && (j <=? Nat.min b m)%nat).
  - symmetry. apply S1. apply (proj1 BB). reflexivity.
  - symmetry. apply S2. intros X. assert (true = false); [|discriminate]. symmetry. apply BB. split; [exact X|apply J].
  - symmetry. apply S1. apply (proj1 BB). reflexivity.
  - symmetry. apply S2. intros X. assert (true = false); [|discriminate]. symmetry. apply BB. split; [exact X|apply J].
Qed.
(** The domestic currency is a single-currency forward market model: given the same increments, it takes the
    step of the single-currency simulator; so does a foreign currency whose rates are uncorrelated with the FX rate. *)
Theorem C86_domestic : forall p l g s dt g' s', tenor_built p -> sim_new p = Ok l -> shaped_state p s -> sim_step p l g s dt = Ok (g', s') ->
  let te := fm_tenor p in let m := Fmm.m_of te in let inc := fun i => sqrt dt * lsum (seq 0 (2 + 2 * m)) (fun k => CholeskyFacts.entry l i k * g k) in forall chol z,
  ((forall j, (1 <= j <= m)%nat -> Fmm.increment chol z (sqrt dt) (j - 1) = inc (1 + j)%nat) -> Fmm.fmm_step (alone (fm_dom p) te) chol z (path_of (sm_d s) (sm_t s)) dt = Ok (path_of (sm_d s') (sm_t s'))) /\
  ((forall j, (1 <= j <= m)%nat -> nth (j - 1) (fc_xi_f (fm_corr p)) 0 = 0) -> (forall j, (1 <= j <= m)%nat -> Fmm.increment chol z (sqrt dt) (j - 1) = inc (1 + m + j)%nat) ->
   Fmm.fmm_step (alone (fm_for p) te) chol z (path_of (sm_f s) (sm_t s)) dt = Ok (path_of (sm_f s') (sm_t s'))).
Proof.
  intros p l g s dt g' s' T H SH E te m inc chol z. destruct (built_factor p l H) as (V & _). pose proof V as (OD & OF & _). pose proof (C86_step p l g s dt g' s' T H SH E) as (TT & _ & _ & LD & LF). destruct SH as [SD SF]. pose proof (step_dt _ _ _ _ _ _ E) as D. rewrite TT. split.
  - intros I. eapply leg_alone; [apply built_tenor, T|exact OD|exact SD|exact D|exact LD|]. intros j J. rewrite (I j J). reflexivity.
  - intros Z I. eapply leg_alone; [apply built_tenor, T|exact OF|exact SF|exact D| |intros j J; rewrite (I j J); reflexivity].
    destruct LF as (F1 & F2 & F3 & F4 & F5). split; [exact F1|]. split; [|split; [exact F3|split; [|exact F5]]].
    + intros j J. rewrite (F2 j J). rewrite (Z j J). rewrite Rmult_0_l. reflexivity.
    + rewrite F4. reflexivity.
Qed.

(** ** No forward points *)
Lemma steps_discounted p l dt : forall n g s g' s', sim_steps n p l g s dt = Ok (g', s') -> discounted (sim_step p l) (fun _ => 1) sm_fx dt n g s (sm_fx s').
Proof.
  induction n as [|n IH]; intros g s g' s' E; cbn [sim_steps discounted] in *; [congruence|]. apply obind_Ok in E. destruct E as ([g1 s1] & E1 & E). exists g1, s1, (sm_fx s'). split; [exact E1|]. split; [apply (IH _ _ g'), E|ring].
Qed.
(** Both currencies start from the same rates; when the rates have no volatility, the mean of the FX rate is
    its start at every horizon. *)
Theorem C86_no_carry : forall p l s dt n w g, tenor_built p -> sim_new p = Ok l -> sim_initial p = Ok s -> 0 < dt -> 0 < fm_fx0 p ->
  (forall x, In x (fs_sigmas (fm_dom p)) -> x = 0) -> (forall x, In x (fs_sigmas (fm_for p)) -> x = 0) ->
  (forall g g' s', sim_steps n p l g s dt = Ok (g', s') -> w g = sm_fx s') ->
  expectation (seq 0 (n * (2 + 2 * Fmm.m_of (fm_tenor p)))) w g (fm_fx0 p).
Proof.
  intros p l s dt n w g T H E0 D FX ZD ZF W. destruct (built_factor p l H) as (V & F & FS). pose proof V as ((LD & _) & (LF & _) & _). set (te := fm_tenor p) in *. set (m := Fmm.m_of te) in *.
  destruct (initial_ok p (built_tenor p T)) as (s0 & lg & E & SH & F0 & _ & _ & D0 & F0' & _). assert (s0 = s) by congruence. subst s0. rewrite <- F0.
  assert (VD : forall j, vol_of (fm_dom p) j = 0). { intros j. unfold vol_of. destruct (nth_in_or_default (j - 1) (fs_sigmas (fm_dom p)) 0) as [X|X]; [apply ZD, X|exact X]. }
  assert (VF : forall j, vol_of (fm_for p) j = 0). { intros j. unfold vol_of. destruct (nth_in_or_default (j - 1) (fs_sigmas (fm_for p)) 0) as [X|X]; [apply ZF, X|exact X]. }
  set (Inv := fun s => shaped_state p s /\ 0 < sm_fx s /\ forall j, (1 <= j <= m)%nat -> rate_of (sm_d s) j = rate_of (sm_f s) j).
  assert (ST : forall s g, Inv s -> exists s', sim_step p l g s dt = Ok (fun k => g (2 + 2 * m + k)%nat, s') /\ stepped p l g s dt s') by (intros s1 g1 (SH1 & _); apply (step_form p l g1 s1 dt (built_tenor p T) V FS SH1 D)).
  apply (tower (sim_step p l) (fun _ => 1) sm_fx dt (2 + 2 * m) Inv (after p l dt)).
  - intros s1 g1 I1. unfold after. destruct (ST s1 g1 I1) as (s' & E' & _). rewrite E'. reflexivity.
  - intros s1 g1 I1. unfold after. destruct (ST s1 g1 I1) as (s' & E' & S'). rewrite E'. destruct I1 as (_ & _ & EQ). split; [eapply step_shaped; exact S'|]. destruct S' as (_ & FXX & _ & (_ & RD & _) & (_ & RF & _)). split; [rewrite FXX; apply exp_pos|]. intros j J. fold te m in RD, RF. rewrite (RD j J), (RF j J), VD, VF, (EQ j J). ring.
  - intros s1 g1 g' X. apply after_local, X.
  - intros s1 g1 (SH1 & F1 & EQ). assert (M1 : (1 <= m)%nat) by apply (built_tenor p T).
    destruct (C86_quanto p l s1 dt T H SH1 D F1 1%nat ltac:(fold te m; lia) (fun g => sm_fx (after p l dt s1 g)) (fun g => rate_of (sm_f (after p l dt s1 g)) 1)) with (g := g1) as [Q _].
    { intros g2 g' s' X. unfold after. rewrite X. split; reflexivity. }
    fold te m in Q. replace (front te (sm_d s1) (sm_t s1)) with (front te (sm_f s1) (sm_t s1)) in Q. 2:{ unfold front. symmetry. apply EQ. pose proof (proj1 (P_FmmStep.C76_eta te (sm_t s1) (built_tenor p T))). fold m. lia. }
    unfold Rminus in Q. rewrite Rplus_opp_r, Rmult_0_l, exp_0, Rmult_1_r in Q. apply (expectation_ext _ (fun g => sm_fx (after p l dt s1 g))); [|exact Q]. intros g' _. ring.
  - split; [exact SH|]. split; [rewrite F0; exact FX|]. intros j _. rewrite D0, F0'. reflexivity.
  - intros g1. destruct (steps_ok p l dt (built_tenor p T) H D n g1 s SH) as (g' & s' & E' & _). rewrite (W _ _ _ E'). apply (steps_discounted _ _ _ _ _ _ g'), E'.
Qed.

Local Ltac off := repeat (rewrite CholeskyFacts.upd_other by lia); try reflexivity.
Local Ltac keep := rewrite fold_keep; [|let l := fresh in let j := fresh in let J := fresh in intros l j J; apply in_seq in J; off].
Local Ltac keep2 := rewrite fold_keep; [|let l := fresh in let j := fresh in let J := fresh in intros l j J; apply in_seq in J; keep; reflexivity].
(** The correlation that the matrix holds for a pair of drivers: of two rates
    of one side the entry of that side's matrix, also above the diagonal. *)
Definition joint (p : fx_fmm) (d e : driver) : R :=
  match d, e with
  | Dom i, Dom j => el (fs_corr (fm_dom p)) (i - 1) (j - 1)
  | For i, For j => el (fs_corr (fm_for p)) (i - 1) (j - 1)
  | _, _ => rho p d e
  end.
Lemma joint_all p d e : let m := Fmm.m_of (fm_tenor p) in is_driver m d -> is_driver m e -> joint_entry p (place m d) (place m e) = joint p d e.
Proof.
  cbv zeta. unfold joint_entry. set (m := Fmm.m_of (fm_tenor p)). intros Hd He.
  destruct d as [| |i|i], e as [| |j|j]; cbn [is_driver place rho joint] in *.
  - keep2. keep2. keep2. keep. keep. off.
  - keep2. keep2. keep2. keep. keep. off.
  - keep2. keep2. keep2. keep. apply fold_hit with (i := (j - 1)%nat); [lia| |].
    + intros l. replace (2 + (j - 1))%nat with (1 + j)%nat by lia. rewrite !CholeskyFacts.upd_other by lia. apply CholeskyFacts.upd_same.
    + intros l k K NE. off.
  - keep2. keep2. keep2. keep. apply fold_hit with (i := (j - 1)%nat); [lia| |].
    + intros l. replace (2 + m + (j - 1))%nat with (1 + m + j)%nat by lia. rewrite CholeskyFacts.upd_other by lia. apply CholeskyFacts.upd_same.
    + intros l k K NE. off.
  - keep2. keep2. keep2. keep. keep. apply CholeskyFacts.upd_same.
  - keep2. keep2. keep2. keep. keep. off.
  - keep2. keep2. keep2. apply fold_hit with (i := (j - 1)%nat); [lia| |].
    + intros l. replace (2 + (j - 1))%nat with (1 + j)%nat by lia. rewrite !CholeskyFacts.upd_other by lia. apply CholeskyFacts.upd_same.
    + intros l k K NE. off.
  - keep2. keep2. keep2. apply fold_hit with (i := (j - 1)%nat); [lia| |].
    + intros l. replace (2 + m + (j - 1))%nat with (1 + m + j)%nat by lia. rewrite CholeskyFacts.upd_other by lia. apply CholeskyFacts.upd_same.
    + intros l k K NE. off.
  - keep2. keep2. keep2. keep. apply fold_hit with (i := (i - 1)%nat); [lia| |].
    + intros l. replace (2 + (i - 1))%nat with (1 + i)%nat by lia. rewrite CholeskyFacts.upd_other, CholeskyFacts.upd_other by lia. apply CholeskyFacts.upd_same.
    + intros l k K NE. off.
  - keep2. keep2. keep2. apply fold_hit with (i := (i - 1)%nat); [lia| |].
    + intros l. replace (2 + (i - 1))%nat with (1 + i)%nat by lia. rewrite CholeskyFacts.upd_other, CholeskyFacts.upd_other by lia. apply CholeskyFacts.upd_same.
    + intros l k K NE. off.
  - keep2. keep2. apply fold_hit with (i := (i - 1)%nat); [lia| |].
    + intros l. apply fold_hit with (i := (j - 1)%nat); [lia| |].
      * intros l'. replace (2 + (i - 1))%nat with (1 + i)%nat by lia. replace (2 + (j - 1))%nat with (1 + j)%nat by lia. apply CholeskyFacts.upd_same.
      * intros l' k K NE. off.
    + intros l k K NE. keep. reflexivity.
  - apply fold_hit with (i := (i - 1)%nat); [lia| |].
    + intros l. apply fold_hit with (i := (j - 1)%nat); [lia| |].
      * intros l'. replace (2 + (i - 1))%nat with (1 + i)%nat by lia. replace (2 + m + (j - 1))%nat with (1 + m + j)%nat by lia. rewrite CholeskyFacts.upd_other by lia. rewrite CholeskyFacts.upd_same. unfold cross_at, el. field.
      * intros l' k K NE. off.
    + intros l k K NE. keep. reflexivity.
  - keep2. keep2. keep2. keep. apply fold_hit with (i := (i - 1)%nat); [lia| |].
    + intros l. replace (2 + m + (i - 1))%nat with (1 + m + i)%nat by lia. apply CholeskyFacts.upd_same.
    + intros l k K NE. off.
  - keep2. keep2. keep2. apply fold_hit with (i := (i - 1)%nat); [lia| |].
    + intros l. replace (2 + m + (i - 1))%nat with (1 + m + i)%nat by lia. apply CholeskyFacts.upd_same.
    + intros l k K NE. off.
  - apply fold_hit with (i := (j - 1)%nat); [lia| |].
    + intros l. apply fold_hit with (i := (i - 1)%nat); [lia| |].
      * intros l'. replace (2 + m + (i - 1))%nat with (1 + m + i)%nat by lia. replace (2 + (j - 1))%nat with (1 + j)%nat by lia. rewrite CholeskyFacts.upd_same. unfold cross_at, el. field.
      * intros l' k K NE. off.
    + intros l k K NE. keep. reflexivity.
  - keep2. apply fold_hit with (i := (i - 1)%nat); [lia| |].
    + intros l. apply fold_hit with (i := (j - 1)%nat); [lia| |].
      * intros l'. replace (2 + m + (i - 1))%nat with (1 + m + i)%nat by lia. replace (2 + m + (j - 1))%nat with (1 + m + j)%nat by lia. apply CholeskyFacts.upd_same.
      * intros l' k K NE. off.
    + intros l k K NE. keep. reflexivity.
Qed.

(** The joint matrix holds every correlation at the places of its two drivers;
    off the blocks of the two sides it is symmetric. *)
Theorem C86_matrix : forall p, fmm_validate p = Ok tt -> let m := Fmm.m_of (fm_tenor p) in
  exists c, build_joint_correlation p = Ok c /\ CholeskyFacts.square c /\ length c = (2 + 2 * m)%nat /\
    forall d e, is_driver m d -> is_driver m e -> CholeskyFacts.entry c (place m d) (place m e) = joint p d e.
Proof.
  intros p V m. apply (proj1 (fmm_validate_iff p)) in V. eexists. split; [apply build_ok, V|]. split; [apply table_square|].
  split; [apply table_length|]. intros d e D E. destruct (at_place _ _ D) as [_ D2], (at_place _ _ E) as [_ E2].
  rewrite table_entry. unfold m in *. rewrite (proj2 (Nat.ltb_lt _ _) D2), (proj2 (Nat.ltb_lt _ _) E2). cbn [andb]. apply joint_all; assumption.
Qed.
Print Assumptions C86_matrix.

(** ** Refuted expectations *)
Definition wit_side4 : fmm_side := {| fs_sigmas := [1 / 50; 1 / 50]; fs_lambda := 1; fs_eta := 1 / 10; fs_v0 := 1 / 4; fs_corr := [[1; 0]; [0; 1]] |}.
Definition wit_sim : fx_fmm :=
  {| fm_fx0 := 135 / 100; fm_heston := P_Hlmm.wit_heston; fm_tenor := P_FxFmm.wit_fmm_tenor; fm_dom := wit_side4; fm_for := wit_side4;
     fm_corr := {| fc_xi_sigma := 0; fc_xi_d := [0; 0]; fc_xi_f := [1 / 5; 0]; fc_sigma_d := [0; 0]; fc_sigma_f := [0; 0]; fc_cross := [[0; 14 / 25]; [0; 0]] |} |}.
Lemma wit_sim_valid : fmm_validate wit_sim = Ok tt.
Proof.
  pose proof slack_pos as SP. assert (A : forall x, -1 <= x <= 1 -> Rabs x <= 1 + slack) by (intros x Hx; assert (Rabs x <= 1) by (apply Rabs_le; lra); lra).
  assert (Z : forall x, close x x) by (intros x; unfold close; replace (x - x) with 0 by ring; rewrite Rabs_R0; lra).
  assert (L : side_ok wit_side4 2).
  { unfold side_ok, corr_ok, HlmmFacts.square. cbn [fs_sigmas fs_corr fs_lambda fs_eta fs_v0 wit_side4 length]. repeat split; try lra.
    - intros row [<-|[<-|[]]]; reflexivity.
    - intros i Hi. destruct i as [|[|i]]; [apply Z|apply Z|lia].
    - destruct i as [|[|i]], j as [|[|j]]; try lia; apply Z.
    - destruct i as [|[|i]], j as [|[|j]]; try lia; apply A; cbn; lra.
    - intros x [<-|[<-|[]]]; lra. }
  apply fmm_validate_iff. split; [exact L|]. split; [exact L|]. unfold fcorr_ok, HlmmFacts.square. cbn [fc_xi_sigma fc_xi_d fc_xi_f fc_sigma_d fc_sigma_f fc_cross fm_corr wit_sim length app]. repeat split.
  - apply A. lra.
  - intros row [<-|[<-|[]]]; reflexivity.
  - intros row r [<-|[<-|[]]] [<-|[<-|[]]]; apply A; lra.
  - intros r H. cbn in H. repeat (destruct H as [<-|H]; [apply A; lra|]). contradiction.
Qed.
Lemma wit_sim_built : exists l, sim_new wit_sim = Ok l.
Proof.
  apply (proj2 (proj2 (C86_new wit_sim))). split; [exact wit_sim_valid|]. intros x (d & I & N). apply in_drivers in I.
  assert (E : dsum (drivers (Fmm.m_of (fm_tenor wit_sim))) (fun d => dsum (drivers (Fmm.m_of (fm_tenor wit_sim))) (fun e => x d * rho wit_sim d e * x e)) =
    (x Variance) ^ 2 + (x Fx) ^ 2 + (x (For 1%nat)) ^ 2 + 2 / 5 * x Fx * x (For 1%nat) + (x (Dom 2%nat)) ^ 2 + 14 / 25 * x (Dom 2%nat) * x (For 1%nat) + (x (Dom 1%nat)) ^ 2 + (x (For 2%nat)) ^ 2 + 14 / 25 * x (Dom 1%nat) * x (For 2%nat)).
  { unfold dsum, drivers. cbn. unfold lower, el. cbn. field. }
  rewrite E. set (a := x Fx) in *. set (b := x Variance) in *. set (c := x (Dom 1%nat)) in *. set (e := x (Dom 2%nat)) in *. set (f := x (For 1%nat)) in *. set (h := x (For 2%nat)) in *.
  assert (Q : a <> 0 \/ b <> 0 \/ c <> 0 \/ e <> 0 \/ f <> 0 \/ h <> 0).
  { unfold is_driver in I. change (Fmm.m_of (fm_tenor wit_sim)) with 2%nat in I. destruct d as [| |[|[|[|j]]]|[|[|[|j]]]]; try lia; tauto. }
  assert (S1 : forall z, 0 <= z ^ 2) by (intros; apply pow2_ge_0). assert (S2 : forall z, z <> 0 -> 0 < z ^ 2) by (intros z Hz; assert (0 < z * z) by nra; replace (z ^ 2) with (z * z) by ring; lra).
  assert (P1 : 0 < a ^ 2 / 4 + b ^ 2 / 4 + c ^ 2 / 4 + e ^ 2 / 4 + f ^ 2 / 4 + h ^ 2 / 4).
  { pose proof (S1 a). pose proof (S1 b). pose proof (S1 c). pose proof (S1 e). pose proof (S1 f). pose proof (S1 h). destruct Q as [Q|[Q|[Q|[Q|[Q|Q]]]]]; apply S2 in Q; lra. }
  pose proof (S1 (a + f / 5)). pose proof (S1 (e + 7 / 25 * f)). pose proof (S1 (c + 7 / 25 * h)). pose proof (S1 b). pose proof (S1 f). pose proof (S1 h). pose proof (S1 a). pose proof (S1 c). pose proof (S1 e).
  pose proof (S1 (a + f)). pose proof (S1 (e + f)). pose proof (S1 (c + h)). nra.
Qed.
Lemma wit_sim_tenor : tenor_built wit_sim.
Proof. exists [0; 1 / 2; 1], [1 / 50; 1 / 40]. exact P_FxFmm.wit_fmm_tenor_ok. Qed.
Lemma wit_sim_gamma s : sm_t s = 0 -> volatility wit_sim s (1 / 4) (Dom 1) = 3 / 200 /\ volatility wit_sim s (1 / 4) (For 2) = 1 / 50.
Proof.
  intros T. pose proof (built_tenor _ wit_sim_tenor) as G. unfold volatility. rewrite T. split.
  - rewrite (FmmFacts.gamma_inside _ G) by (cbn; unfold Fmm.date_at; cbn; lra || lia). unfold vol_of, Fmm.tau, Fmm.date_at. cbn. field.
  - rewrite FmmFacts.gamma_before by (unfold Fmm.date_at; cbn; lra). unfold vol_of. cbn. field.
Qed.
(** A cross-currency block that is not symmetric is accepted, but the simulated rates do not have its
    correlations: the entries above and below the diagonal are averaged. *)
Theorem C86_cross_refuted : exists p l s dt, tenor_built p /\ sim_new p = Ok l /\ sim_initial p = Ok s /\ 0 < dt /\
  forall x y, (forall g g' s', sim_step p l g s dt = Ok (g', s') -> x g = rate_of (sm_d s') 1 /\ y g = rate_of (sm_f s') 2) ->
  let asked := nth 1 (nth 0 (fc_cross (fm_corr p)) []) 0 in asked = 14 / 25 /\
  forall g, expectation (seq 0 (2 + 2 * Fmm.m_of (fm_tenor p))) (fun g => (x g - drifted p s dt (Dom 1)) * (y g - drifted p s dt (For 2))) g
    (volatility p s dt (Dom 1) * volatility p s dt (For 2) * (7 / 25) * dt) /\ volatility p s dt (Dom 1) * volatility p s dt (For 2) * (7 / 25) * dt <> volatility p s dt (Dom 1) * volatility p s dt (For 2) * asked * dt.
Proof.
  destruct wit_sim_built as [l H]. pose proof (built_tenor _ wit_sim_tenor) as G. destruct (initial_ok wit_sim G) as (s & lg & E & SH & _ & _ & T0 & _). exists wit_sim, l, s, (1 / 4). split; [exact wit_sim_tenor|]. split; [exact H|]. split; [exact E|]. split; [lra|].
  intros x y X asked. split; [reflexivity|]. intros g. split.
  - pose proof (C86_moments wit_sim l s (1 / 4) wit_sim_tenor H SH ltac:(lra) (Dom 1) (For 2) ltac:(discriminate) ltac:(discriminate) ltac:(cbn; lia) ltac:(cbn; lia) x y X g) as [_ M]. replace (rho wit_sim (Dom 1) (For 2)) with (7 / 25) in M by (cbn; unfold el; cbn; field). exact M.
  - destruct (wit_sim_gamma s T0) as [-> ->]. unfold asked. cbn. lra.
Qed.
(** The initial values of the variances of the two currencies are not kept: nothing the simulator does depends
    on them, and a rate has the variance it would have if they were one. *)
Theorem C86_variance_refuted : exists p l s dt, tenor_built p /\ sim_new p = Ok l /\ sim_initial p = Ok s /\ 0 < dt /\ fs_v0 (fm_dom p) = 1 / 4 /\
  forall x, (forall g g' s', sim_step p l g s dt = Ok (g', s') -> x g = rate_of (sm_d s') 1) ->
  forall g, expectation (seq 0 (2 + 2 * Fmm.m_of (fm_tenor p))) (fun g => (x g - drifted p s dt (Dom 1)) * (x g - drifted p s dt (Dom 1))) g (volatility p s dt (Dom 1) ^ 2 * dt) /\
  volatility p s dt (Dom 1) ^ 2 * dt <> volatility p s dt (Dom 1) ^ 2 * fs_v0 (fm_dom p) * dt.
Proof.
  destruct wit_sim_built as [l H]. pose proof (built_tenor _ wit_sim_tenor) as G. destruct (initial_ok wit_sim G) as (s & lg & E & SH & _ & _ & T0 & _). exists wit_sim, l, s, (1 / 4). split; [exact wit_sim_tenor|]. split; [exact H|]. split; [exact E|]. split; [lra|]. split; [reflexivity|].
  intros x X g. split.
  - pose proof (C86_moments wit_sim l s (1 / 4) wit_sim_tenor H SH ltac:(lra) (Dom 1) (Dom 1) ltac:(discriminate) ltac:(discriminate) ltac:(cbn; lia) ltac:(cbn; lia) x x ltac:(intros g0 g' s' Q; split; apply (X _ _ _ Q)) g) as [_ M]. replace (rho wit_sim (Dom 1) (Dom 1)) with 1 in M by (cbn; unfold lower, el; cbn; reflexivity).
    replace (volatility wit_sim s (1 / 4) (Dom 1) ^ 2 * (1 / 4)) with (volatility wit_sim s (1 / 4) (Dom 1) * volatility wit_sim s (1 / 4) (Dom 1) * 1 * (1 / 4)) by (unfold pow; ring). exact M.
  - destruct (wit_sim_gamma s T0) as [-> _]. cbn. lra.
Qed.
(** Whatever the initial values, the paths are the same. *)
Definition with_v0 (s : fmm_side) (v : R) : fmm_side := {| fs_sigmas := fs_sigmas s; fs_lambda := fs_lambda s; fs_eta := fs_eta s; fs_v0 := v; fs_corr := fs_corr s |}.
Theorem C86_variance : forall p v v' l, 0 < v -> 0 < v' ->
  let q := {| fm_fx0 := fm_fx0 p; fm_heston := fm_heston p; fm_tenor := fm_tenor p; fm_dom := with_v0 (fm_dom p) v; fm_for := with_v0 (fm_for p) v'; fm_corr := fm_corr p |} in
  sim_new p = Ok l -> sim_new q = Ok l /\ forall g s dt, sim_step q l g s dt = sim_step p l g s dt.
Proof.
  intros p v v' l V V' q H. split; [|reflexivity]. destruct (built_factor p l H) as (O & _). unfold sim_new in *.
  assert (SO : forall s n u, 0 < u -> side_ok s n -> side_ok (with_v0 s u) n) by (intros s n u U (A1 & A2 & A3 & A4 & _ & A6); exact (conj A1 (conj A2 (conj A3 (conj A4 (conj U A6)))))).
  assert (OK : fmm_ok q) by (destruct O as (A & B & C); exact (conj (SO _ _ _ V A) (conj (SO _ _ _ V' B) C))).
  rewrite (proj2 (proj1 (fmm_validate_iff p)) O) in H. rewrite (proj2 (proj1 (fmm_validate_iff q)) OK). exact H.
Qed.
Example C86_witness : exists l s s', tenor_built wit_sim /\ sim_new wit_sim = Ok l /\ sim_initial wit_sim = Ok s /\ shaped_state wit_sim s /\ 0 < sm_fx s /\
  0 < kappa (fm_heston wit_sim) /\ rate_of (sm_d s) 1 = 1 / 50 /\ nth 0 (fc_xi_f (fm_corr wit_sim)) 0 = 1 / 5 /\ 0 < volatility wit_sim s (1 / 4) (Dom 1) /\ volatility wit_sim s (1 / 4) Fx <> 0 /\
  sim_step wit_sim l (fun _ => 0) s (1 / 4) = Ok (fun _ => 0, s') /\ rate_of (sm_d s') 1 <> rate_of (sm_d s) 1 /\ rate_of (sm_f s') 1 < rate_of (sm_d s') 1.
Proof.
  destruct wit_sim_built as [l H]. pose proof (built_tenor _ wit_sim_tenor) as G. destruct (initial_ok wit_sim G) as (s & lg & E & SH & F0 & V0 & T0 & D0 & FF0 & R0' & _). destruct (built_factor _ l H) as (V & F & FS).
  destruct (step_form wit_sim l (fun _ => 0) s (1 / 4) G V FS SH ltac:(lra)) as (s' & ES & ST). exists l, s, s'. split; [exact wit_sim_tenor|]. split; [exact H|]. split; [exact E|]. split; [exact SH|]. split; [rewrite F0; cbn; lra|].
  split; [cbn; lra|]. assert (RD : forall j, rate_of (sm_d s) j = nth (j - 1) [1 / 50; 1 / 40] 0) by (intros; rewrite D0; unfold rate_of; rewrite R0'; reflexivity). assert (RF : forall j, rate_of (sm_f s) j = nth (j - 1) [1 / 50; 1 / 40] 0) by (intros; rewrite FF0; unfold rate_of; rewrite R0'; reflexivity).
  split; [rewrite RD; reflexivity|]. split; [reflexivity|]. destruct (wit_sim_gamma s T0) as [V1 _]. split; [rewrite V1; lra|].
  assert (SG : Rmax (sm_variance s) 0 = sigma_0 (fm_heston wit_sim)) by (rewrite V0; apply Rmax_left; cbn; lra). assert (SP : 0 < sqrt (Rmax (sm_variance s) 0)) by (rewrite SG; apply sqrt_lt_R0; cbn; lra).
  split; [unfold volatility; lra|]. split; [exact ES|].
  destruct ST as (_ & _ & _ & (_ & XD & _) & (_ & XF & _)). specialize (XD 1%nat ltac:(cbn; lia)). specialize (XF 1%nat ltac:(cbn; lia)).
  assert (ETA : Fmm.eta (fm_tenor wit_sim) (sm_t s) = 1%nat). { rewrite T0. apply (FmmFacts.eta_is _ G); [cbn; lia|unfold Fmm.date_at; cbn; lra|lia]. }
  assert (Z : forall i, mix l (2 + 2 * Fmm.m_of (fm_tenor wit_sim)) i (fun _ => 0) = 0) by (intros; unfold mix; apply lsum_zero; intros; ring).
  assert (GA : Fmm.gamma 1 (sm_t s + 1 / 4 / 2) (fm_tenor wit_sim) = 3 / 4). { rewrite T0, (FmmFacts.gamma_inside _ G) by (cbn; unfold Fmm.date_at; cbn; lra || lia). unfold Fmm.tau, Fmm.date_at. cbn. field. }
  assert (C : forall x, rate_of x 1 = 1 / 50 -> carry wit_side4 (fm_tenor wit_sim) x 1 (sm_t s + 1 / 4 / 2) 1 = 3 / 400 / (1 + 1 / 100)). { intros x Hx. unfold carry, FmmFacts.sum_over. cbn [Nat.sub seq map fold_right fold_left]. rewrite GA, Hx. unfold el, vol_of, Fmm.tau, Fmm.date_at. cbn. field. }
  rewrite Z, ETA, GA in XD, XF. change (fm_dom wit_sim) with wit_side4 in XD. change (fm_for wit_sim) with wit_side4 in XF. rewrite (C _ (RD 1%nat)) in XD. rewrite (C _ (RF 1%nat)) in XF. rewrite RD in *. rewrite RF in *. change (vol_of wit_side4 1) with (1 / 50) in *. cbn [nth Nat.sub] in *. change (nth 0 (fc_xi_f (fm_corr wit_sim)) 0) with (1 / 5) in XF.
  split; [lra|]. set (q := sqrt (Rmax (sm_variance s) 0)) in *. lra.
Qed.
Print Assumptions C86_new.
Print Assumptions C86_factor.
Print Assumptions C86_total.
Print Assumptions C86_step.
Print Assumptions C86_frozen.
Print Assumptions C86_terminal.
Print Assumptions C86_moments.
Print Assumptions C86_quanto.
Print Assumptions C86_paths.
Print Assumptions C86_domestic.
Print Assumptions C86_no_carry.
Print Assumptions C86_cross_refuted.
Print Assumptions C86_variance_refuted.
Print Assumptions C86_variance.
Print Assumptions C86_witness.
