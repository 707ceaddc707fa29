(** C79: the SABR smile calibrator. *)
From Coq Require Import Bool List Arith Reals Lra Lia Psatz.
Import ListNotations.
From Verif Require Import Outcome NelderMead NelderMeadFacts P_NelderMead Processes ProcessFacts SabrSmile P_SabrSmile SmileFit SmileFitFacts SabrCalibrator.
Open Scope R_scope.

(** The change of variables: softplus is log (1 + e^x) up to e^-35, positive, and undone exactly. *)
Theorem C79_softplus : forall x y, 0 < softplus x /\ Rabs (softplus x - ln (1 + exp x)) <= exp (- (35)) /\
  (0 < y -> exists z, inv_softplus y = Ok z /\ softplus z = y) /\ (y <= 0 -> inv_softplus y = Panic PAssert).
Proof.
  intros x y. split; [apply softplus_pos|]. split; [pose proof (softplus_near x); apply Rabs_le; lra|]. split; [apply softplus_inv|].
  intros H. unfold inv_softplus. destruct (Rlt_dec 0 y); [lra|reflexivity].
Qed.
Print Assumptions C79_softplus.

Definition fitted (p : sabr_params R_numbers) (b : R) : Prop := 0 < alpha p /\ beta p = b /\ -1 < rho p < 1 /\ 0 < nu p.
Lemma reify_some b x : exists p, reify b x = Some p /\ fitted p b /\ alpha p = softplus (nth 0 x 0) /\ rho p = tanh (nth 1 x 0) /\ nu p = softplus (nth 2 x 0).
Proof.
  unfold reify. pose proof (softplus_pos (nth 0 x 0)) as A. pose proof (softplus_pos (nth 2 x 0)) as N. pose proof (tanh_bounds (nth 1 x 0)) as T.
  destruct (Rle_dec _ 0); [lra|]. destruct (Rlt_dec _ 0); [lra|]. cbn [orb]. destruct (Rle_dec _ (- (1))); [lra|]. destruct (Rle_dec 1 _); [lra|]. cbn [orb].
  eexists. split; [reflexivity|]. unfold fitted. cbn [alpha beta rho nu]. repeat split; try lra; apply softplus_pos.
Qed.

(** The start: the initial parameters, floored and clamped. *)
Definition start_params (p : sabr_params R_numbers) : sabr_params R_numbers :=
  @Build_sabr_params R_numbers (Rmax (alpha p) (/ 10 ^ 8)) (beta p) (if Rlt_dec (rho p) (- (999 / 1000)) then - (999 / 1000) else if Rlt_dec (999 / 1000) (rho p) then 999 / 1000 else rho p) (Rmax (nu p) (/ 10 ^ 8)).

Lemma hagan_total p F K T : 0 < F -> 0 < K -> 0 < T -> exists v, hagan_implied_vol p F K T = Ok v.
Proof. intros A B C. unfold hagan_implied_vol. destruct (Rlt_dec 0 F); [|contradiction]. destruct (Rlt_dec 0 K); [|contradiction]. destruct (Rlt_dec 0 T); [|contradiction]. eexists. reflexivity. Qed.

Lemma vols_model p F T : forall ts vs, Forall2 (fun t v => sabr_model p F T (t_strike t) = Ok (Some v)) ts vs <->
  sabr_model_vols p F T (map t_strike ts) = Ok vs /\ (forall v, In v vs -> 0 < v).
Proof.
  induction ts as [|t ts IH]; intros vs; cbn [map sabr_model_vols].
  - split; [intros H; inversion H; split; [reflexivity|intros v []]|]. intros (E & _). injection E as <-. constructor.
  - split.
    + intros H. inversion H as [|? v ? vs' E F']; subst. unfold sabr_model in E. destruct (hagan_implied_vol p F (t_strike t) T) as [w| |]; cbn [obind] in E; [|discriminate|discriminate].
      destruct (Rle_dec w 0) as [L|L]; [discriminate|]. assert (w = v) as -> by congruence. cbn [obind]. destruct (proj1 (IH vs') F') as (-> & P). cbn [obind]. split; [reflexivity|].
      intros x [<- |X]; [lra|apply P, X].
    + intros (E & P). destruct (hagan_implied_vol p F (t_strike t) T) as [w| |] eqn:EH; cbn [obind] in E; [|discriminate|discriminate].
      destruct (sabr_model_vols p F T (map t_strike ts)) as [vs'| |] eqn:EV; cbn [obind] in E; [|discriminate|discriminate]. assert (vs = w :: vs') as -> by congruence.
      constructor; [|apply IH; split; [reflexivity|intros x X; apply P; right; exact X]]. unfold sabr_model. rewrite EH. cbn [obind]. destruct (Rle_dec w 0) as [L|L]; [|reflexivity].
      specialize (P w ltac:(left; reflexivity)). lra.
Qed.

Lemma calibrate_open sort initial F ts T opts res : @sorts_floats R_floats sort -> sabr_calibrate sort initial F ts T opts = Ok res ->
  0 < F /\ 0 < T /\ ts <> [] /\ fitted (fr_params res) (beta initial) /\ fr_rmse res = sqrt (m_f (fr_optimiser res) / INR (length ts)) /\
  ssr (sabr_model (fr_params res) F T) ts 0 = Ok (m_f (fr_optimiser res)) /\
  exists v, ssr (sabr_model (start_params initial) F T) ts 0 = Ok v /\ m_f (fr_optimiser res) <= v.
Proof.
  intros HS H. unfold sabr_calibrate in H. destruct (Rlt_dec 0 F) as [FP|]; [|discriminate]. destruct (Rlt_dec 0 T) as [TP|]; [|discriminate]. cbn [negb] in H.
  destruct (Nat.eqb_spec (length ts) 0) as [|LN]; [discriminate|]. assert (E8 : 0 < / 10 ^ 8) by (apply Rinv_0_lt_compat, pow_lt; lra).
  destruct (softplus_inv (Rmax (alpha initial) (/ 10 ^ 8))) as (a0 & EA & SA); [pose proof (Rmax_r (alpha initial) (/ 10 ^ 8)); lra|]. rewrite EA in H. cbn [obind] in H.
  destruct (softplus_inv (Rmax (nu initial) (/ 10 ^ 8))) as (n0 & EN & SN); [pose proof (Rmax_r (nu initial) (/ 10 ^ 8)); lra|]. rewrite EN in H. cbn [obind] in H.
  set (r0 := atanhR _) in H. destruct (nm_fit sort _ _ opts) as [m| |] eqn:EM; cbn [obind] in H; [|discriminate|discriminate].
  destruct (nm_fit_ok _ _ _ _ _ HS EM) as (FX & v & FV & LE). destruct (reify_some (beta initial) (m_x m)) as (p & RP & FP' & _). rewrite RP in H.
  assert (res = {| fr_params := p; fr_rmse := sqrt (m_f m / INR (length ts)); fr_optimiser := m |}) as -> by congruence. cbn [fr_params fr_rmse fr_optimiser].
  split; [exact FP|]. split; [exact TP|]. split; [intros ->; apply LN; reflexivity|]. split; [exact FP'|]. split; [reflexivity|]. unfold sabr_objective in FX, FV. rewrite RP in FX. split; [exact FX|].
  exists v. split; [|exact LE]. destruct (reify_some (beta initial) [a0; r0; n0]) as (p0 & RP0 & (_ & EB & _) & A0 & R0 & N0). rewrite RP0 in FV. cbn [nth] in *.
  assert (p0 = start_params initial) as <-; [|exact FV]. destruct p0 as [a b r n]. cbn [alpha beta rho nu] in *. unfold start_params. rewrite SA in A0. rewrite SN in N0. subst a b n. f_equal.
  rewrite R0. unfold r0. rewrite tanh_atanh; [reflexivity|]. pose proof (clampR_bounds (- (999 / 1000)) (999 / 1000) (rho initial) ltac:(lra)). lra.
Qed.

Lemma rmse_square f n : (0 < n)%nat -> 0 <= f -> sqrt (f / INR n) ^ 2 * INR n = f.
Proof.
  intros N F. assert (P : 0 < INR n) by (apply lt_0_INR, N). replace (sqrt (f / INR n) ^ 2) with (sqrt (f / INR n) * sqrt (f / INR n)) by ring.
  rewrite sqrt_sqrt; [field; lra|]. unfold Rdiv. apply Rmult_le_pos; [exact F|]. left. apply Rinv_0_lt_compat, P.
Qed.

(** A fit has valid parameters with the exponent of the start; its error is the root mean square of the
    differences between the smile of these parameters and the market, or the sentinel of a smile that is
    not positive at some strike. *)
Theorem C79_fit : forall sort initial F ts T opts res, @sorts_floats R_floats sort -> sabr_calibrate sort initial F ts T opts = Ok res ->
  let p := fr_params res in 0 < alpha p /\ beta p = beta initial /\ -1 < rho p < 1 /\ 0 < nu p /\
  ((exists vs, sabr_model_vols p F T (map t_strike ts) = Ok vs /\ (forall v, In v vs -> 0 < v) /\ 0 <= fr_rmse res /\ fr_rmse res ^ 2 * INR (length ts) = errors vs ts) \/
   (fr_rmse res ^ 2 * INR (length ts) = 10 ^ 6 /\ exists t v, In t ts /\ hagan_implied_vol p F (t_strike t) T = Ok v /\ v <= 0)).
Proof.
  intros sort initial F ts T opts res HS H. destruct (calibrate_open _ _ _ _ _ _ _ HS H) as (FP & TP & NE & (A & B & R & N) & ER & SS & _). cbv zeta.
  split; [exact A|]. split; [exact B|]. split; [exact R|]. split; [exact N|]. assert (LN : (0 < length ts)%nat) by (destruct ts; [congruence|cbn; lia]). rewrite ER.
  destruct (ssr_cases _ _ _ _ SS) as [(vs & F2 & E)|(E & t & I & M)].
  - left. exists vs. apply vols_model in F2. destruct F2 as (EV & P). split; [exact EV|]. split; [exact P|]. split; [apply sqrt_pos|]. rewrite E, Rplus_0_l. apply rmse_square; [exact LN|apply errors_nonneg].
  - right. rewrite E. split; [apply rmse_square; [exact LN|lra]|]. unfold sabr_model in M. destruct (hagan_implied_vol (fr_params res) F (t_strike t) T) as [v| |] eqn:EH; cbn [obind] in M; [|discriminate|discriminate].
    exists t, v. split; [exact I|]. split; [exact EH|]. destruct (Rle_dec v 0); [assumption|discriminate].
Qed.
Print Assumptions C79_fit.

(** A fit is never worse than the start: if the smile of the start is positive and its squared errors add
    to less than 1e6, the smile of the fit is positive and its squared errors add to no more. *)
Theorem C79_improves : forall sort initial F ts T opts res vs0, @sorts_floats R_floats sort -> sabr_calibrate sort initial F ts T opts = Ok res ->
  sabr_model_vols (start_params initial) F T (map t_strike ts) = Ok vs0 -> (forall v, In v vs0 -> 0 < v) -> errors vs0 ts < 10 ^ 6 ->
  exists vs, sabr_model_vols (fr_params res) F T (map t_strike ts) = Ok vs /\ (forall v, In v vs -> 0 < v) /\ fr_rmse res ^ 2 * INR (length ts) = errors vs ts /\ errors vs ts <= errors vs0 ts.
Proof.
  intros sort initial F ts T opts res vs0 HS H E0 P0 L0. destruct (calibrate_open _ _ _ _ _ _ _ HS H) as (FP & TP & NE & _ & ER & SS & v & SV & LE).
  assert (LN : (0 < length ts)%nat) by (destruct ts; [congruence|cbn; lia]).
  rewrite (ssr_some _ ts vs0 0 (proj2 (vols_model _ F T ts vs0) (conj E0 P0))) in SV. assert (EV : 0 + errors vs0 ts = v) by congruence. subst v.
  destruct (ssr_cases _ _ _ _ SS) as [(vs & F2 & E)|(E & _)]; [|rewrite E in LE; lra]. exists vs. apply vols_model in F2. destruct F2 as (EV & P). split; [exact EV|]. split; [exact P|].
  rewrite Rplus_0_l in E. rewrite E in ER, LE. split; [rewrite ER; apply rmse_square; [exact LN|apply errors_nonneg]|lra].
Qed.
Print Assumptions C79_improves.

Lemma model_vols_length p F T : forall ks vs, sabr_model_vols p F T ks = Ok vs -> length vs = length ks.
Proof.
  induction ks as [|k ks IH]; intros vs H; cbn [sabr_model_vols] in H; [injection H as <-; reflexivity|]. destruct (hagan_implied_vol p F k T); cbn [obind] in H; [|discriminate|discriminate].
  destruct (sabr_model_vols p F T ks) as [l| |]; cbn [obind] in H; [|discriminate|discriminate]. injection H as <-. cbn [length]. rewrite (IH l eq_refl). reflexivity.
Qed.

(** Started at parameters that reproduce the market, the fit reproduces it with error zero. *)
Theorem C79_exact : forall sort initial F ts T opts res, @sorts_floats R_floats sort -> sabr_calibrate sort initial F ts T opts = Ok res ->
  sabr_model_vols (start_params initial) F T (map t_strike ts) = Ok (map t_vol ts) -> (forall t, In t ts -> 0 < t_vol t) ->
  fr_rmse res = 0 /\ sabr_model_vols (fr_params res) F T (map t_strike ts) = Ok (map t_vol ts).
Proof.
  intros sort initial F ts T opts res HS H E0 P0. assert (Z : errors (map t_vol ts) ts = 0).
  { clear. induction ts as [|t ts IH]; [reflexivity|]. change (errors (map t_vol (t :: ts)) (t :: ts)) with ((t_vol t - t_vol t) ^ 2 + errors (map t_vol ts) ts). rewrite IH. ring. }
  destruct (C79_improves sort initial F ts T opts res _ HS H E0) as (vs & EV & _ & ER & LE).
  { intros v V. apply in_map_iff in V. destruct V as (t & <- & I). apply P0, I. } { rewrite Z. apply pow_lt. lra. }
  pose proof (errors_nonneg vs ts) as NN. assert (E : errors vs ts = 0) by lra. rewrite E in ER.
  destruct (calibrate_open _ _ _ _ _ _ _ HS H) as (_ & _ & NE & _). assert (0 < INR (length ts)) by (apply lt_0_INR; destruct ts; [congruence|cbn; lia]).
  split; [apply Rmult_integral in ER; destruct ER as [ER|ER]; [|lra]; apply Rsqr_0_uniq; unfold Rsqr; lra|].
  rewrite EV. f_equal. apply errors_zero; [|exact E]. rewrite (model_vols_length _ _ _ _ _ EV), map_length. reflexivity.
Qed.
Print Assumptions C79_exact.

Lemma objective_total b F T ts x : 0 < F -> 0 < T -> (forall t, In t ts -> 0 < t_strike t) -> exists v, sabr_objective b F T ts x = Ok v.
Proof.
  intros FP TP KP. unfold sabr_objective. destruct (reify b x) as [p|]; [|eexists; reflexivity]. generalize 0 as acc. induction ts as [|t ts IH]; intros acc; cbn [ssr]; [eexists; reflexivity|].
  unfold sabr_model at 1. destruct (hagan_total p F (t_strike t) T FP (KP t ltac:(left; reflexivity)) TP) as (v & ->). cbn [obind]. destruct (Rle_dec v 0); [eexists; reflexivity|].
  apply IH. intros t' I. apply KP. right. exact I.
Qed.

(** The fit succeeds on a positive forward, expiry and strikes and at least one target, and panics when the
    forward, the expiry or the first strike is not positive or there is no target. *)
Theorem C79_domain : forall sort initial F ts T opts, @sorts_floats R_floats sort ->
  (0 < F -> 0 < T -> ts <> [] -> (forall t, In t ts -> 0 < t_strike t) -> exists res, sabr_calibrate sort initial F ts T opts = Ok res) /\
  (F <= 0 \/ T <= 0 \/ ts = [] \/ (exists t ts', ts = t :: ts' /\ t_strike t <= 0) -> sabr_calibrate sort initial F ts T opts = Panic PAssert).
Proof.
  intros sort initial F ts T opts HS. assert (E8 : 0 < / 10 ^ 8) by (apply Rinv_0_lt_compat, pow_lt; lra).
  destruct (softplus_inv (Rmax (alpha initial) (/ 10 ^ 8))) as (a0 & EA & SA); [pose proof (Rmax_r (alpha initial) (/ 10 ^ 8)); lra|].
  destruct (softplus_inv (Rmax (nu initial) (/ 10 ^ 8))) as (n0 & EN & SN); [pose proof (Rmax_r (nu initial) (/ 10 ^ 8)); lra|]. unfold sabr_calibrate. rewrite EA, EN. split.
  - intros FP TP NE KP. destruct (Rlt_dec 0 F); [|contradiction]. destruct (Rlt_dec 0 T); [|contradiction]. cbn [negb]. destruct (Nat.eqb_spec (length ts) 0) as [L|_]; [destruct ts; [congruence|discriminate]|]. cbn [obind].
    match goal with |- context [nm_fit sort ?f ?y opts] => destruct (nm_fit_total sort f y opts HS ltac:(discriminate) (fun x => objective_total _ F T ts x FP TP KP)) as (m & ->) end. cbn [obind]. eexists. reflexivity.
  - intros D. destruct (Rlt_dec 0 F) as [FP|]; [|reflexivity]. destruct (Rlt_dec 0 T) as [TP|]; [|reflexivity]. cbn [negb]. destruct (Nat.eqb_spec (length ts) 0) as [L|L]; [reflexivity|]. cbn [obind].
    destruct D as [D|[D|[->|(t & ts' & -> & K)]]]; [lra|lra|exfalso; apply L; reflexivity|].
    assert (P : forall x, sabr_objective (beta initial) F T (t :: ts') x = Panic PAssert).
    { intros x. unfold sabr_objective. destruct (reify_some (beta initial) x) as (p & -> & _). cbn [ssr]. unfold sabr_model at 1. rewrite (C52_domain p F (t_strike t) T) by (right; left; exact K). reflexivity. }
    rewrite (nm_fit_panics sort _ _ opts PAssert HS); [reflexivity|discriminate|apply P|intros x e; rewrite P; discriminate|intros x q; rewrite P; congruence].
Qed.
Print Assumptions C79_domain.

(** *** The sentinel *)
Lemma bad_atm (a r n : R) : 1 / 10 <= a -> -1 < r <= - (9 / 10) -> 1 <= n -> a / 1 * (1 + (0 ^ 2 / 24 * a * a / 1 ^ 2 + 1 / 4 * r * 1 * n * a / 1 + (2 - 3 * r * r) * n * n / 24) * 30) <= 0.
Proof.
  intros A R N. assert (a * n >= 1 / 10) by nra. assert (r * (n * a) <= - (9 / 100)) by nra. assert (r * r >= 81 / 100) by nra. assert (n * n >= 1) by nra. assert ((2 - 3 * r * r) * (n * n) <= - (43 / 100)) by nra.
  replace (a / 1) with a by field. match goal with |- a * ?k <= 0 => assert (k <= 0) by lra; set (c := k) in * end. assert (0 < a) by lra. nra.
Qed.
Lemma bad_smile p : 1 / 10 <= alpha p -> beta p = 1 -> -1 < rho p <= - (9 / 10) -> 1 <= nu p -> sabr_model p 1 30 1 = Ok None.
Proof.
  destruct p as [a b r n]. cbn [alpha beta rho nu]. intros A -> R N. unfold sabr_model. rewrite C52_atm; [|unfold valid_params; cbn [alpha beta rho nu]; lra|lra|lra]. cbn [obind].
  unfold hagan_atm_vol. cbn [alpha beta rho nu]. unfold powfR. destruct (Req_EM_T 1 0) as [Z|_]; [lra|]. replace (1 - 1) with 0 by ring. rewrite Rpower_O by lra.
  match goal with |- context [Rle_dec ?v 0] => destruct (Rle_dec v 0) as [L|L]; [reflexivity|exfalso; apply L] end. apply bad_atm; assumption.
Qed.

Lemma tanh_low x : x <= - (37 / 20) -> tanh x <= - (9 / 10).
Proof.
  intros X. unfold tanh, sinh, cosh. assert (P : 19 <= exp (37 / 10)).
  { replace (37 / 10) with (INR 10 * (37 / 100)) by (cbn; field). assert (E : exp (INR 10 * (37 / 100)) = exp (37 / 100) ^ 10) by (rewrite <- Rpower_pow by apply exp_pos; unfold Rpower; rewrite ln_exp; reflexivity).
    rewrite E. pose proof (exp_ineq1_le (37 / 100)). apply Rle_trans with ((137 / 100) ^ 10); [lra|]. apply pow_incr. lra. }
  assert (Q : exp (37 / 10) <= exp (- x) * exp (- x)) by (rewrite <- exp_plus; destruct (Req_dec (37 / 10) (- x + - x)) as [->|]; [lra|left; apply exp_increasing; lra]).
  pose proof (exp_pos x) as P1. pose proof (exp_pos (- x)) as P2. assert (I : exp x * exp (- x) = 1) by (rewrite <- exp_plus, Rplus_opp_r; apply exp_0).
  set (u := exp x) in *. set (w := exp (- x)) in *. apply (Rmult_le_reg_r ((u + w) / 2)); [lra|]. unfold Rdiv. rewrite Rmult_assoc, Rinv_l by lra. assert (19 * u <= w) by nra. lra.
Qed.

Lemma softplus_mono x y : x <= y <= 35 -> softplus x <= softplus y.
Proof.
  intros H. unfold softplus. destruct (Rlt_dec 35 x); [lra|]. destruct (Rlt_dec 35 y); [lra|]. pose proof (exp_pos x). destruct (Req_dec x y) as [->|NE]; [lra|]. left. apply ln_increasing; [lra|].
  pose proof (exp_increasing x y). lra.
Qed.

Definition fixed_options : nm_options R_floats := {| max_iter := 0; ftol := / 10 ^ 8 : R_floats; xtol := / 10 ^ 8 : R_floats; step_frac := 1 / 20 : R_floats |}.
Definition steep : sabr_params R_numbers := @Build_sabr_params R_numbers (1 / 10) 1 (- (99 / 100)) 1.

(** "The reported error is the root mean square of the errors of the returned smile" fails where the smile
    turns negative: the sentinel gives 1000 for a smile that is 29 volatility points off. *)
Theorem C79_sentinel_refuted : exists initial ts opts res v, valid_params initial /\ ts = [{| t_strike := 1; t_vol := 1 / 5 |}] /\
  sabr_calibrate (@fsort R_floats) initial 1 ts 30 opts = Ok res /\ hagan_implied_vol (fr_params res) 1 1 30 = Ok v /\ Rabs (v - 1 / 5) < 1 /\ fr_rmse res = 1000.
Proof.
  set (ts := [{| t_strike := 1; t_vol := 1 / 5 |}]). exists steep, ts, fixed_options.
  assert (VS : valid_params steep) by (unfold valid_params, steep; cbn [alpha beta rho nu]; lra).
  assert (E8 : / 10 ^ 8 <= 1 / 10) by lra.
  destruct (softplus_inv (1 / 10) ltac:(lra)) as (a0 & EA & SA). destruct (softplus_inv 1 ltac:(lra)) as (n0 & EN & SN).
  set (r0 := atanhR (clampR (- (999 / 1000)) (999 / 1000) (- (99 / 100)))).
  assert (A0 : a0 <= 0).
  { unfold inv_softplus in EA. destruct (Rlt_dec 0 (1 / 10)); [|lra]. destruct (Rlt_dec 35 (1 / 10)); [lra|]. injection EA as <-. rewrite <- ln_1. left. apply ln_increasing.
    - pose proof (exp_ineq1 (1 / 10) ltac:(lra)). lra.
    - assert (exp (1 / 10) < 2); [|lra]. assert (exp (1 / 10) ^ 10 <= 3).
      { rewrite <- Rpower_pow by apply exp_pos. unfold Rpower. rewrite ln_exp. replace (INR 10 * (1 / 10)) with 1 by (cbn; field). apply exp_le_3. }
      destruct (Rlt_le_dec (exp (1 / 10)) 2) as [|G]; [assumption|]. assert (2 ^ 10 <= exp (1 / 10) ^ 10) by (apply pow_incr; lra). lra. }
  assert (N0 : n0 < 1).
  { unfold inv_softplus in EN. destruct (Rlt_dec 0 1); [|lra]. destruct (Rlt_dec 35 1); [lra|]. injection EN as <-. pose proof (exp_ineq1 1 ltac:(lra)). apply Rlt_le_trans with (ln (exp 1)); [apply ln_increasing; lra|rewrite ln_exp; lra]. }
  assert (R0 : r0 <= - (2)).
  { unfold r0. rewrite clampR_id by lra. unfold atanhR. assert (ln ((1 + - (99 / 100)) / (1 - - (99 / 100))) <= - (4)); [|lra].
    replace ((1 + - (99 / 100)) / (1 - - (99 / 100))) with (/ 199) by field. rewrite <- (ln_exp (- (4))). left. apply ln_increasing; [lra|]. rewrite exp_Ropp. assert (exp 4 <= 81).
    { replace 4 with (INR 4 * 1) by (cbn; ring). assert (E : exp (INR 4 * 1) = exp 1 ^ 4) by (rewrite <- Rpower_pow by apply exp_pos; unfold Rpower; rewrite ln_exp; reflexivity). rewrite E.
      apply Rle_trans with (3 ^ 4); [apply pow_incr; split; [left; apply exp_pos|apply exp_le_3]|lra]. }
    apply Rlt_le_trans with (/ 81); [lra|]. apply Rinv_le_contravar; [apply exp_pos|assumption]. }
  assert (TR : tanh r0 = - (99 / 100)) by (unfold r0; rewrite clampR_id by lra; apply tanh_atanh; lra).
  assert (BAD : forall x, 1 / 10 <= softplus (nth 0 x 0) -> tanh (nth 1 x 0) <= - (9 / 10) -> 1 <= softplus (nth 2 x 0) -> sabr_objective 1 1 30 ts x = Ok (10 ^ 6)).
  { intros x A R N. unfold sabr_objective. destruct (reify_some 1 x) as (p & -> & (_ & B & R1 & _) & EA' & ER' & EN'). unfold ts. cbn [ssr t_strike].
    rewrite bad_smile; [reflexivity| | | |]; rewrite ?EA', ?ER', ?EN', ?B; try reflexivity; try assumption. rewrite ER' in R1. lra. }
  assert (DE : forall xi : R, 0 <= (if @flt R_floats f_tiny (Rabs xi) then 1 / 20 * Rabs xi else Rmax (1 / 20) (/ 10 ^ 4)) <= 1 / 20 * Rabs xi + 1 / 20).
  { intros xi. pose proof (Rabs_pos xi). destruct (flt _ _); [lra|]. rewrite Rmax_left by lra. lra. }
  set (f := sabr_objective 1 1 30 ts). set (x0 := [a0; r0; n0]).
  assert (SX : Forall (fun x => f x = Ok (10 ^ 6)) (@initial_simplex R_floats fixed_options x0) /\ exists y1 y2 y3, @initial_simplex R_floats fixed_options x0 = [x0; y1; y2; y3]).
  { split; [|do 3 eexists; reflexivity]. unfold initial_simplex, x0. cbn [length seq map upd]. unfold get. cbn [nth]. change (@step_frac R_floats fixed_options) with (1 / 20).
    change (@fabs R_floats) with Rabs. change (@fmul R_floats) with Rmult. change (@fmax R_floats) with Rmax. change (@fadd R_floats) with Rplus. change (@f_1e4 R_floats) with (/ 10 ^ 4).
    pose proof (DE a0) as DA. pose proof (DE r0) as DR. pose proof (DE n0) as DN.
    match type of DA with 0 <= ?d <= _ => set (da := d) in * end. match type of DR with 0 <= ?d <= _ => set (dr := d) in * end. match type of DN with 0 <= ?d <= _ => set (dn := d) in * end.
    match goal with |- Forall ?P _ => change (Forall P [[a0; r0; n0]; [a0 + da; r0; n0]; [a0; r0 + dr; n0]; [a0; r0; n0 + dn]]) end.
    rewrite (Rabs_left1 a0) in DA by exact A0. rewrite (Rabs_left1 r0) in DR by lra.
    assert (SR : tanh r0 <= - (9 / 10)) by lra. assert (SR' : tanh (r0 + dr) <= - (9 / 10)) by (apply tanh_low; lra).
    assert (SA' : 1 / 10 <= softplus (a0 + da)) by (rewrite <- SA; apply softplus_mono; lra).
    assert (NN : dn <= 2). { assert (B : -1 <= n0). { unfold inv_softplus in EN. destruct (Rlt_dec 0 1); [|lra]. destruct (Rlt_dec 35 1); [lra|]. injection EN as <-. rewrite <- (ln_exp (-1)) at 1. left. apply ln_increasing; [apply exp_pos|]. pose proof (exp_ineq1 1 ltac:(lra)). assert (exp (-1) < 1) by (apply Rlt_le_trans with (exp 0); [apply exp_increasing; lra|rewrite exp_0; lra]). lra. }
      assert (Rabs n0 <= 1) by (apply Rabs_le; lra). lra. }
    assert (SN' : 1 <= softplus (n0 + dn)) by (rewrite <- SN; apply softplus_mono; lra).
    repeat constructor; unfold f; apply BAD; cbn [nth]; rewrite ?SA, ?SN; lra. }
  destruct SX as (SX & y1 & y2 & y3 & EX).
  assert (FIT : nm_fit (@fsort R_floats) f x0 fixed_options = Ok {| m_x := x0 : list R_floats; m_f := 10 ^ 6 : R_floats; m_iterations := 0; m_converged := false |}).
  { unfold nm_fit, nelder_mead_run. rewrite EX in *. inversion SX as [|? ? F0 SX1]; subst. inversion SX1 as [|? ? F1 SX2]; subst. inversion SX2 as [|? ? F2 SX3]; subst. inversion SX3 as [|? ? F3 _]; subst.
    change (length x0 =? 0)%nat with false. cbv iota. change (max_iter fixed_options) with 0%nat. cbn [nm_loop obind map values calls].
    assert (T0 : total_of f x0 = 10 ^ 6) by (unfold total_of; rewrite F0; reflexivity). assert (T1 : total_of f y1 = 10 ^ 6) by (unfold total_of; rewrite F1; reflexivity).
    assert (T2 : total_of f y2 = 10 ^ 6) by (unfold total_of; rewrite F2; reflexivity). assert (T3 : total_of f y3 = 10 ^ 6) by (unfold total_of; rewrite F3; reflexivity).
    rewrite T0, T1, T2, T3. change (existsb is_nan [(10 ^ 6 : R_floats); 10 ^ 6; 10 ^ 6; 10 ^ 6]) with false. cbv iota.
    assert (FL : @flt R_floats (10 ^ 6) (10 ^ 6) = false). { destruct (@flt R_floats (10 ^ 6) (10 ^ 6)) eqn:Q; [|reflexivity]. apply R_lt in Q. exfalso. revert Q. apply Rlt_irrefl. }
    assert (BI : @best_index R_floats [10 ^ 6; 10 ^ 6; 10 ^ 6; 10 ^ 6] = 0%nat). { unfold best_index. cbn [length Nat.sub seq fold_left]. unfold get. cbn [nth]. rewrite FL. cbn [nth]. rewrite FL. cbn [nth]. rewrite FL. reflexivity. }
    match goal with |- context [@best_index ?N ?l] => replace (@best_index N l) with 0%nat by (symmetry; exact BI) end. unfold vertex, get. cbn [simplex nth obind].
    assert (PF : find (panics f) [x0; y1; y2; y3] = None) by (cbn [find]; unfold panics; rewrite F0, F1, F2, F3; reflexivity).
    match goal with |- context [find ?p ?l] => replace (find p l) with (@None (list R)) by (symmetry; exact PF) end. reflexivity. }
  destruct (reify_some 1 x0) as (p & RP & (_ & B & _) & PA & PR & PN). unfold x0 in PA, PR, PN. cbn [nth] in PA, PR, PN. rewrite SA in PA. rewrite TR in PR. rewrite SN in PN.
  eexists. exists (hagan_atm_vol steep 1 30). split; [exact VS|]. split; [reflexivity|]. split.
  { unfold sabr_calibrate. destruct (Rlt_dec 0 1); [|lra]. destruct (Rlt_dec 0 30); [|lra]. cbn [negb]. change (length ts =? 0)%nat with false. cbv iota. cbn [alpha beta rho nu steep].
    rewrite (Rmax_left (1 / 10)) by exact E8. rewrite (Rmax_left 1) by lra. rewrite EA, EN. cbn [obind]. fold r0. fold x0. fold f. rewrite FIT. cbn [obind m_x m_f]. rewrite RP. reflexivity. }
  cbn [fr_params fr_rmse]. assert (p = steep) as ->. { destruct p as [a b r n]. cbn [alpha beta rho nu] in *. unfold steep. rewrite PA, B, PR, PN. reflexivity. }
  split; [apply C52_atm; [exact VS|lra|lra]|]. split.
  - unfold hagan_atm_vol, steep. cbn [alpha beta rho nu]. unfold powfR. destruct (Req_EM_T 1 0) as [Z|_]; [lra|]. replace (1 - 1) with 0 by ring. rewrite Rpower_O by lra. apply Rabs_def1; lra.
  - change (INR (length ts)) with 1. change (@eq R (sqrt (10 ^ 6 / 1)) 1000). replace (10 ^ 6 / 1) with (1000 * 1000) by field. apply sqrt_square. lra.
Qed.
Print Assumptions C79_sentinel_refuted.

Example C79_witness : let p := @Build_sabr_params R_numbers (1 / 5) 1 0 (1 / 10) in let ts := [{| t_strike := 1; t_vol := hagan_atm_vol p 1 1 |}] in
  start_params p = p /\ sabr_model_vols (start_params p) 1 1 (map t_strike ts) = Ok (map t_vol ts) /\ (forall t, In t ts -> 0 < t_vol t) /\
  exists res, sabr_calibrate (@fsort R_floats) p 1 ts 1 fixed_options = Ok res.
Proof.
  cbv zeta. assert (SP : start_params (@Build_sabr_params R_numbers (1 / 5) 1 0 (1 / 10)) = @Build_sabr_params R_numbers (1 / 5) 1 0 (1 / 10)).
  { unfold start_params. cbn [alpha beta rho nu]. rewrite !Rmax_left by lra. destruct (Rlt_dec 0 (- (999 / 1000))); [lra|]. destruct (Rlt_dec (999 / 1000) 0); [lra|]. reflexivity. }
  split; [exact SP|]. rewrite SP. split.
  - cbn [map t_strike sabr_model_vols]. rewrite C52_atm; [reflexivity|unfold valid_params; cbn; lra|lra|lra].
  - split.
    + intros t [<- |[]]. cbn [t_vol]. unfold hagan_atm_vol. cbn [alpha beta rho nu]. unfold powfR. destruct (Req_EM_T 1 0) as [Z|_]; [lra|]. replace (1 - 1) with 0 by ring. rewrite Rpower_O by lra. lra.
    + apply C79_domain; [apply (@fsort_sorts R_floats R_order)|lra|lra|discriminate|]. intros t [<- |[]]. cbn. lra.
Qed.
