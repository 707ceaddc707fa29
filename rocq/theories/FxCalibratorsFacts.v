(** Facts about the calibrators of the cross-currency models: the run of the optimiser on a smile. *)
From Coq Require Import Bool List Arith Reals Lra Lia Psatz.
Import ListNotations.
From Verif Require Import Outcome ForwardPoints NelderMead NelderMeadFacts P_NelderMead Processes ProcessFacts Cholesky BlackScholes SmileFit SmileFitFacts FxCalibrators.
From Verif Require CosPricer.
Open Scope R_scope.

(** What a reported error means: the root mean square of the differences between the smile and the market, or the
    penalty where the smile has no volatility at some strike. *)
Definition report (vols : list R -> outcome (list (option R))) (ts : list target) (rmse : R) : Prop :=
  0 <= rmse /\
  ((exists vs, vols (map t_strike ts) = Ok (map Some vs) /\ rmse ^ 2 * INR (length ts) = errors vs ts) \/
   (rmse ^ 2 * INR (length ts) = 10 ^ 6 /\ exists t, In t ts /\ vols [t_strike t] = Ok [None])).

Lemma omapM_some (vol : R -> outcome (option R)) : forall ts vs, omapM vol (map t_strike ts) = Ok (map Some vs) <-> Forall2 (fun t v => vol (t_strike t) = Ok (Some v)) ts vs.
Proof.
  induction ts as [|t ts IH]; intros vs; cbn [map omapM].
  - split; [intros H; destruct vs; [constructor|discriminate]|]. intros H. inversion H. reflexivity.
  - split.
    + intros H. destruct (vol (t_strike t)) as [o| |] eqn:E; cbn [obind] in H; [|discriminate|discriminate]. destruct (omapM vol (map t_strike ts)) as [os| |] eqn:E2; cbn [obind] in H; [|discriminate|discriminate].
      destruct vs as [|v vs]; cbn [map] in H; [discriminate|]. assert (o = Some v /\ os = map Some vs) as (-> & ->) by (split; congruence). constructor; [exact E|]. apply IH. reflexivity.
    + intros H. inversion H as [|? v ? vs' E F]; subst. rewrite E. cbn [obind map]. apply IH in F. rewrite F. reflexivity.
Qed.
Lemma rmse_square f n : (0 < n)%nat -> 0 <= f -> sqrt (f / INR n) ^ 2 * INR n = f.
Proof.
  intros N F. assert (P : 0 < INR n) by (apply lt_0_INR, N). replace (sqrt (f / INR n) ^ 2) with (sqrt (f / INR n) * sqrt (f / INR n)) by ring.
  rewrite sqrt_sqrt; [field; lra|]. unfold Rdiv. apply Rmult_le_pos; [exact F|]. left. apply Rinv_0_lt_compat, P.
Qed.
Lemma length_pos {A} (l : list A) : l <> [] -> (0 < length l)%nat.
Proof. destruct l; [congruence|cbn; lia]. Qed.

Section Generic.
  Context {P : Type}.
  Variables (reify : list R -> P) (valid : P -> bool) (smile : P -> outcome (R -> outcome (option R))).
  Notation objective := (smile_objective reify valid smile).
  Notation fit := (fit_smile reify valid smile).

  Lemma fit_open sort x0 ts opts res : @sorts_floats R_floats sort -> fit sort x0 ts opts = Ok res ->
    let x := m_x (fr_optimiser res) in let f := m_f (fr_optimiser res) in
    fr_params res = reify x /\ fr_rmse res = sqrt (f / INR (length ts)) /\ objective ts x = Ok f /\ exists v, objective ts x0 = Ok v /\ f <= v.
  Proof.
    intros HS H. unfold fit_smile in H. destruct (nm_fit sort (objective ts) x0 opts) as [m| |] eqn:E; cbn [obind] in H; [|discriminate|discriminate].
    destruct (nm_fit_ok _ _ _ _ _ HS E) as (A & B). assert (res = {| fr_params := reify (m_x m); fr_rmse := sqrt (m_f m / INR (length ts)); fr_optimiser := m |}) as -> by congruence.
    cbn [fr_params fr_rmse fr_optimiser]. split; [reflexivity|]. split; [reflexivity|]. split; [exact A|exact B].
  Qed.
  (** the smile of the parameters as a list of volatilities *)
  Definition vols_of (p : P) (ks : list R) : outcome (list (option R)) := do vol <- smile p; omapM vol ks.
  Lemma fit_report sort x0 ts opts res : @sorts_floats R_floats sort -> ts <> [] -> fit sort x0 ts opts = Ok res ->
    (valid (fr_params res) = true /\ report (vols_of (fr_params res)) ts (fr_rmse res)) \/ (valid (fr_params res) = false /\ 0 <= fr_rmse res /\ fr_rmse res ^ 2 * INR (length ts) = 10 ^ 6).
  Proof.
    intros HS NE H. destruct (fit_open _ _ _ _ _ HS H) as (EP & ER & FX & _). apply length_pos in NE. rewrite ER, EP. unfold smile_objective in FX. cbv zeta in FX.
    destruct (valid (reify (m_x (fr_optimiser res)))); cbn [negb] in FX.
    - left. split; [reflexivity|]. split; [apply sqrt_pos|]. unfold vols_of. destruct (smile (reify (m_x (fr_optimiser res)))) as [vol| |]; cbn [obind] in FX |- *; [|discriminate|discriminate].
      destruct (ssr_cases _ _ _ _ FX) as [(vs & F2 & E)|(E & t & I & M)].
      + left. exists vs. split; [apply omapM_some, F2|]. rewrite E, Rplus_0_l. apply rmse_square; [exact NE|apply errors_nonneg].
      + right. rewrite E. split; [apply rmse_square; [exact NE|lra]|]. exists t. split; [exact I|]. cbn [omapM]. rewrite M. reflexivity.
    - right. split; [reflexivity|]. split; [apply sqrt_pos|]. assert (E : m_f (fr_optimiser res) = 10 ^ 6) by congruence. rewrite E. apply rmse_square; [exact NE|lra].
  Qed.
  Lemma fit_improves sort x0 ts opts res vs0 : @sorts_floats R_floats sort -> ts <> [] -> fit sort x0 ts opts = Ok res ->
    valid (reify x0) = true -> vols_of (reify x0) (map t_strike ts) = Ok (map Some vs0) -> errors vs0 ts < 10 ^ 6 ->
    valid (fr_params res) = true /\ exists vs, vols_of (fr_params res) (map t_strike ts) = Ok (map Some vs) /\ fr_rmse res ^ 2 * INR (length ts) = errors vs ts /\ errors vs ts <= errors vs0 ts.
  Proof.
    intros HS NE H V0 E0 L0. destruct (fit_open _ _ _ _ _ HS H) as (EP & ER & FX & v & FV & LE). apply length_pos in NE. unfold smile_objective in FX, FV. cbv zeta in FX, FV.
    rewrite V0 in FV. cbn [negb] in FV. unfold vols_of in E0. destruct (smile (reify x0)) as [vol0| |]; cbn [obind] in E0, FV; [|discriminate|discriminate].
    apply omapM_some in E0. rewrite (ssr_some _ ts vs0 0 E0) in FV. assert (EV : v = errors vs0 ts) by (rewrite Rplus_0_l in FV; congruence). rewrite EV in LE.
    rewrite EP, ER. unfold vols_of. destruct (valid (reify (m_x (fr_optimiser res)))); cbn [negb] in FX; [|assert (m_f (fr_optimiser res) = 10 ^ 6) by congruence; lra]. split; [reflexivity|].
    destruct (smile (reify (m_x (fr_optimiser res)))) as [vol| |]; cbn [obind] in FX |- *; [|discriminate|discriminate].
    destruct (ssr_cases _ _ _ _ FX) as [(vs & F2 & E)|(E & _)]; [|rewrite E in LE; lra]. rewrite Rplus_0_l in E. exists vs. split; [apply omapM_some, F2|].
    rewrite E in LE |- *. split; [apply rmse_square; [exact NE|apply errors_nonneg]|exact LE].
  Qed.
  Lemma fit_total sort x0 ts opts : @sorts_floats R_floats sort -> x0 <> [] -> (forall t, In t ts -> 0 < t_strike t) ->
    (forall x, valid (reify x) = true -> exists vol, smile (reify x) = Ok vol /\ forall k, 0 < k -> exists o, vol k = Ok o) -> exists res, fit sort x0 ts opts = Ok res.
  Proof.
    intros HS NE KP T. unfold fit_smile. destruct (nm_fit_total sort (objective ts) x0 opts HS NE) as (m & ->); [|cbn [obind]; eexists; reflexivity].
    intros x. unfold smile_objective. cbv zeta. destruct (valid (reify x)) eqn:V; cbn [negb]; [|eexists; reflexivity]. destruct (T x V) as (vol & -> & K). cbn [obind]. clear T V.
    generalize 0 as acc. induction ts as [|t ts IH]; intros acc; cbn [ssr]; [eexists; reflexivity|]. destruct (K (t_strike t) (KP t (or_introl eq_refl))) as (o & ->). cbn [obind].
    destruct o; [|eexists; reflexivity]. apply IH. intros t' I. apply KP. right. exact I.
  Qed.
  Lemma fit_panics sort x0 t ts opts : @sorts_floats R_floats sort -> x0 <> [] ->
    (forall x, valid (reify x) = true /\ exists vol, smile (reify x) = Ok vol /\ vol (t_strike t) = Panic PAssert) -> fit sort x0 (t :: ts) opts = Panic PAssert.
  Proof.
    intros HS NE T. assert (A : forall x, objective (t :: ts) x = Panic PAssert).
    { intros x. unfold smile_objective. cbv zeta. destruct (T x) as (-> & vol & -> & K). cbn [negb obind ssr]. rewrite K. reflexivity. }
    unfold fit_smile. rewrite (nm_fit_panics sort _ _ opts PAssert HS NE (A x0)); [reflexivity| |]; intros x e; rewrite A; congruence.
  Qed.
  Lemma fit_invalid sort x0 ts opts : @sorts_floats R_floats sort -> x0 <> [] -> (forall x, valid (reify x) = false) ->
    exists res, fit sort x0 ts opts = Ok res /\ fr_rmse res = sqrt (10 ^ 6 / INR (length ts)) /\ valid (fr_params res) = false.
  Proof.
    intros HS NE V. destruct (nm_fit_total sort (objective ts) x0 opts HS NE) as (m & E).
    { intros x. unfold smile_objective. cbv zeta. rewrite V. eexists. reflexivity. }
    unfold fit_smile. rewrite E. cbn [obind]. eexists. split; [reflexivity|]. destruct (nm_fit_ok _ _ _ _ _ HS E) as (A & _). unfold smile_objective in A. cbv zeta in A. rewrite V in A. cbn [negb] in A.
    cbn [fr_rmse fr_params]. split; [congruence|apply V].
  Qed.
End Generic.

(** * The start *)
Lemma asserts_ok ts T floor : 0 < T -> ts <> [] -> 0 <= floor -> asserts ts T floor = Ok tt.
Proof.
  intros A B D. unfold asserts. destruct (Rlt_dec 0 T); [|contradiction]. cbn [negb]. destruct (Nat.eqb_spec (length ts) 0) as [E|_]; [apply length_pos in B; lia|]. destruct (Rle_dec 0 floor); [reflexivity|contradiction].
Qed.
Lemma asserts_inv ts T floor u : asserts ts T floor = Ok u -> 0 < T /\ ts <> [] /\ 0 <= floor.
Proof.
  unfold asserts. destruct (Rlt_dec 0 T) as [A|]; [|discriminate]. cbn [negb]. destruct (Nat.eqb_spec (length ts) 0) as [|B]; [discriminate|]. destruct (Rle_dec 0 floor) as [D|]; [|discriminate].
  intros _. split; [exact A|]. split; [intros ->; apply B; reflexivity|exact D].
Qed.
Lemma asserts_panic ts T floor : T <= 0 \/ ts = [] \/ floor < 0 -> asserts ts T floor = Panic PAssert.
Proof.
  intros D. unfold asserts. destruct (Rlt_dec 0 T) as [A|]; [|reflexivity]. cbn [negb]. destruct (Nat.eqb_spec (length ts) 0) as [|B]; [reflexivity|]. destruct (Rle_dec 0 floor); [|reflexivity].
  exfalso. destruct D as [D|[->|D]]; [lra|apply B; reflexivity|lra].
Qed.

Definition tiny : R := / 10 ^ 8.
Lemma tiny_pos : 0 < tiny.
Proof. apply Rinv_0_lt_compat, pow_lt. lra. Qed.
Lemma max_pos x : 0 < Rmax x tiny.
Proof. pose proof (Rmax_r x tiny). pose proof tiny_pos. lra. Qed.
Lemma clamp_rho r : -1 < clampR (- (999 / 1000)) (999 / 1000) r < 1.
Proof. pose proof (clampR_bounds (- (999 / 1000)) (999 / 1000) r ltac:(lra)). lra. Qed.

Lemma start_ok (h : cir_process R_numbers) rho floor g : exists a t s,
  start_point h rho floor (Ok g) = Ok [a; g; t; s; atanhR (clampR (- (999 / 1000)) (999 / 1000) rho)] /\
  floor + softplus a = Rmax (kappa h) (floor + tiny) /\ softplus t = Rmax (theta h) tiny /\ softplus s = Rmax (sigma_0 h) tiny.
Proof.
  destruct h as [k th gm s0]. cbn [kappa theta sigma_0]. unfold start_point. cbn [kappa theta sigma_0].
  destruct (softplus_inv (Rmax (k - floor) tiny) (max_pos _)) as (a & EA & SA). destruct (softplus_inv (Rmax th tiny) (max_pos _)) as (t & ET & ST). destruct (softplus_inv (Rmax s0 tiny) (max_pos _)) as (s & ES & SS).
  exists a, t, s. fold tiny. change (num R_numbers) with R in *. cbv zeta. rewrite EA. cbn [obind]. rewrite ET. cbn [obind]. rewrite ES. cbn [obind]. split; [reflexivity|]. split; [|split; assumption]. rewrite SA.
  change (floor + Rmax (k - floor) tiny = Rmax k (floor + tiny)). unfold Rmax. destruct (Rle_dec (k - floor) tiny), (Rle_dec k (floor + tiny)); lra.
Qed.
Lemma free_gamma_ok (h : cir_process R_numbers) : exists g, free_gamma h = Ok g /\ softplus g = Rmax (gamma h) tiny.
Proof. destruct h as [k th gm s0]. unfold free_gamma. cbn [gamma]. fold tiny. apply softplus_inv, max_pos. Qed.
Lemma bound_gamma_ok (h : cir_process R_numbers) gmax : exists g, bound_gamma h gmax = Ok g /\ gmax / (1 + exp (- g)) = gmax * clampR (/ 10 ^ 4) (1 - / 10 ^ 4) (gamma h / gmax).
Proof.
  destruct h as [k th gm s0]. unfold bound_gamma. cbn [gamma]. eexists. split; [reflexivity|]. change (num R_numbers) with R in *.
  pose proof (clampR_bounds (/ 10 ^ 4) (1 - / 10 ^ 4) (gm / gmax) ltac:(lra)) as B. change (@ndiv R_numbers gm gmax) with (gm / gmax) in *.
  set (c := clampR _ _ _) in *. assert (0 < c < 1) by lra. unfold Rdiv. f_equal. rewrite exp_Ropp, exp_ln; [|apply Rdiv_lt_0_compat; lra]. field. lra.
Qed.
Lemma gamma_bounds gmax y : 0 < gmax -> 0 < gmax / (1 + exp (- y)) < gmax.
Proof.
  intros G. pose proof (exp_pos (- y)). split; [apply Rdiv_lt_0_compat; lra|]. apply (Rmult_lt_reg_r (1 + exp (- y))); [lra|]. unfold Rdiv. rewrite Rmult_assoc, Rinv_l by lra. nra.
Qed.
