(** Facts about the reparameterisation and the run of the optimiser. *)
From Coq Require Import Bool List Arith Reals Lra Lia Psatz.
Import ListNotations.
From Verif Require Import Outcome NelderMead NelderMeadFacts P_NelderMead SmileFit.
Open Scope R_scope.

Lemma exp_gt_1 y : 0 < y -> 1 < exp y.
Proof. intros H. rewrite <- exp_0. apply exp_increasing, H. Qed.
Lemma softplus_pos x : 0 < softplus x.
Proof. unfold softplus. destruct (Rlt_dec 35 x); [lra|]. rewrite <- ln_1. apply ln_increasing; [lra|]. pose proof (exp_pos x). lra. Qed.
Lemma softplus_inv y : 0 < y -> exists x, inv_softplus y = Ok x /\ softplus x = y.
Proof.
  intros Y. unfold inv_softplus. destruct (Rlt_dec 0 y); [|contradiction]. eexists. split; [reflexivity|].
  pose proof (exp_gt_1 y Y) as E. destruct (Rlt_dec 35 y) as [H|H]; unfold softplus.
  - destruct (Rlt_dec 35 y); [reflexivity|contradiction].
  - assert (L : ln (exp y - 1) < y) by (rewrite <- (ln_exp y) at 2; apply ln_increasing; lra).
    destruct (Rlt_dec 35 (ln (exp y - 1))); [lra|]. rewrite exp_ln by lra. replace (1 + (exp y - 1)) with (exp y) by ring. apply ln_exp.
Qed.
(** The shortcut above 35 is within e^-35 of the formula. *)
Lemma softplus_near x : softplus x <= ln (1 + exp x) <= softplus x + exp (- (35)).
Proof.
  unfold softplus. destruct (Rlt_dec 35 x) as [H|H]; [|pose proof (exp_pos (- (35))); lra].
  pose proof (exp_pos x) as E. split.
  - rewrite <- (ln_exp x) at 1. left. apply ln_increasing; lra.
  - assert (B : 1 + exp x <= exp (x + exp (- (35)))).
    { rewrite exp_plus. assert (exp (- (35)) >= exp (- x)) by (apply Rle_ge; left; apply exp_increasing; lra).
      pose proof (exp_ineq1_le (exp (- (35)))). assert (exp x * exp (- x) = 1) by (rewrite <- exp_plus, Rplus_opp_r; apply exp_0). nra. }
    rewrite <- (ln_exp (x + exp (- (35)))). destruct B as [B|B]; [left; apply ln_increasing; lra|rewrite B; lra].
Qed.

Lemma tanh_bounds x : -1 < tanh x < 1.
Proof.
  unfold tanh, sinh, cosh. pose proof (exp_pos x). pose proof (exp_pos (- x)).
  split; apply (Rmult_lt_reg_r ((exp x + exp (- x)) / 2)); try lra; unfold Rdiv; rewrite ?Rmult_assoc, ?Rinv_l by lra; lra.
Qed.
Lemma tanh_atanh r : -1 < r < 1 -> tanh (atanhR r) = r.
Proof.
  intros R1. unfold atanhR. set (q := (1 + r) / (1 - r)). assert (Q : 0 < q) by (apply Rdiv_lt_0_compat; lra).
  unfold tanh, sinh, cosh. set (e := exp (/ 2 * ln q)). assert (E : e * e = q) by (unfold e; rewrite <- exp_plus; replace (/ 2 * ln q + / 2 * ln q) with (ln q) by field; apply exp_ln, Q).
  assert (EP : 0 < e) by apply exp_pos. replace (exp (- (/ 2 * ln q))) with (/ e) by (unfold e; rewrite exp_Ropp; reflexivity).
  replace ((e - / e) / 2 / ((e + / e) / 2)) with ((e * e - 1) / (e * e + 1)) by (field; nra). rewrite E. unfold q. field. lra.
Qed.
Lemma clampR_bounds lo hi x : lo <= hi -> lo <= clampR lo hi x <= hi.
Proof. intros H. unfold clampR. destruct (Rlt_dec x lo), (Rlt_dec hi x); lra. Qed.
Lemma clampR_id lo hi x : lo <= x <= hi -> clampR lo hi x = x.
Proof. intros H. unfold clampR. destruct (Rlt_dec x lo), (Rlt_dec hi x); lra. Qed.

(** The sum of the squared errors. *)
Definition errors (vs : list R) (ts : list target) : R := fold_right Rplus 0 (map (fun vt => (fst vt - t_vol (snd vt)) ^ 2) (combine vs ts)).
Lemma ssr_some model : forall ts vs acc, Forall2 (fun t v => model (t_strike t) = Ok (Some v)) ts vs -> ssr model ts acc = Ok (acc + errors vs ts).
Proof.
  intros ts vs acc H. revert acc. induction H as [|t v ts vs E H IH]; intros acc; cbn [ssr]; [f_equal; unfold errors; cbn; ring|].
  rewrite E. cbn [obind]. rewrite IH. f_equal. unfold errors. cbn [combine map fold_right fst snd]. ring.
Qed.
Lemma ssr_cases model : forall ts acc r, ssr model ts acc = Ok r ->
  (exists vs, Forall2 (fun t v => model (t_strike t) = Ok (Some v)) ts vs /\ r = acc + errors vs ts) \/ (r = 10 ^ 6 /\ exists t, In t ts /\ model (t_strike t) = Ok None).
Proof.
  induction ts as [|t ts IH]; intros acc r H; cbn [ssr] in H.
  - left. exists []. split; [constructor|]. unfold errors. cbn. injection H as <-. ring.
  - destruct (model (t_strike t)) as [[v|]| |] eqn:E; cbn [obind] in H; [|injection H as <-; right; split; [reflexivity|exists t; split; [left; reflexivity|exact E]]|discriminate|discriminate].
    destruct (IH _ _ H) as [(vs & F & ->)|(-> & t' & I & N)]; [left; exists (v :: vs); split; [constructor; assumption|]|right; split; [reflexivity|exists t'; split; [right; exact I|exact N]]].
    unfold errors. cbn [combine map fold_right fst snd]. ring.
Qed.
Lemma errors_nonneg vs ts : 0 <= errors vs ts.
Proof. unfold errors. induction (combine vs ts) as [|a l IH]; cbn [map fold_right]; [lra|]. pose proof (pow2_ge_0 (fst a - t_vol (snd a))). lra. Qed.
Lemma errors_zero : forall vs ts, length vs = length ts -> errors vs ts = 0 -> vs = map t_vol ts.
Proof.
  induction vs as [|v vs IH]; intros [|t ts] L E; try discriminate; [reflexivity|]. change (errors (v :: vs) (t :: ts)) with ((v - t_vol t) ^ 2 + errors vs ts) in E.
  pose proof (errors_nonneg vs ts). pose proof (pow2_ge_0 (v - t_vol t)). cbn [map]. f_equal; [nra|apply IH; [cbn in L; lia|lra]].
Qed.

(** The run with a partial objective: the best of the points it has visited, the start among them. *)
Lemma nm_fit_ok sort f x0 opts m : @sorts_floats R_floats sort -> nm_fit sort f x0 opts = Ok m ->
  f (m_x m) = Ok (m_f m) /\ (exists v, f x0 = Ok v /\ m_f m <= v).
Proof.
  intros HS H. unfold nm_fit in H. destruct (nelder_mead_run sort (total_of f) x0 opts) as [[m' s]| |] eqn:E; cbn [obind] in H; [|discriminate|discriminate].
  destruct (C46_best R_floats sort (total_of f) x0 opts m' s R_order HS E) as (A & B & C & D).
  assert (ALL : forall x, In x (calls s) -> panics f x = false).
  { destruct (find (panics f) (calls s)) as [x|] eqn:FD; [|apply (find_none _ _ FD)]. apply find_some in FD. destruct FD as (_ & P). unfold panics in P. destruct (f x); discriminate. }
  assert (m' = m) as ->. { destruct (find (panics f) (calls s)) as [x|]; [destruct (f x); congruence|congruence]. }
  assert (V : forall x, In x (calls s) -> f x = Ok (total_of f x)). { intros x X. specialize (ALL x X). unfold panics in ALL. unfold total_of. destruct (f x); [reflexivity|discriminate|discriminate]. }
  split; [rewrite B; apply V, A|]. exists (total_of f x0). split; [apply V, C|]. apply R_le, D; [exact C|reflexivity].
Qed.
Lemma nm_fit_total sort f x0 opts : @sorts_floats R_floats sort -> x0 <> [] -> (forall x, exists v, f x = Ok v) -> exists m, nm_fit sort f x0 opts = Ok m.
Proof.
  intros HS NE T. destruct (proj2 (proj2 (C46_total R_floats sort (total_of f) x0 opts R_order HS)) NE ltac:(reflexivity)) as (m & E).
  unfold nelder_mead in E. unfold nm_fit. destruct (nelder_mead_run sort (total_of f) x0 opts) as [[m' s]| |]; cbn [obind] in E |- *; [|discriminate|discriminate].
  destruct (find (panics f) (calls s)) as [x|]; [|eexists; reflexivity]. destruct (T x) as (v & ->). eexists. reflexivity.
Qed.
Lemma nm_fit_panics sort f x0 opts p : @sorts_floats R_floats sort -> x0 <> [] -> f x0 = Panic p -> (forall x e, f x <> Err e) -> (forall x q, f x = Panic q -> q = p) ->
  nm_fit sort f x0 opts = Panic p.
Proof.
  intros HS NE P NER NQ. destruct (proj2 (proj2 (C46_total R_floats sort (total_of f) x0 opts R_order HS)) NE ltac:(reflexivity)) as (m & E).
  unfold nelder_mead in E. unfold nm_fit. destruct (nelder_mead_run sort (total_of f) x0 opts) as [[m' s]| |] eqn:ER; cbn [obind] in E |- *; [|discriminate|discriminate].
  destruct (C46_best R_floats sort (total_of f) x0 opts m' s R_order HS ER) as (_ & _ & C & _).
  destruct (find (panics f) (calls s)) as [x|] eqn:FD.
  - apply find_some in FD. destruct FD as (_ & PX). unfold panics in PX. destruct (f x) as [v|e|q] eqn:FX; [discriminate|exfalso; apply (NER x e FX)|rewrite (NQ x q FX); reflexivity].
  - pose proof (find_none _ _ FD _ C) as X. unfold panics in X. rewrite P in X. discriminate.
Qed.
