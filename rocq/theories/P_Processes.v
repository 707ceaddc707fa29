(** C48: the signs of the simulated processes. *)
From Coq Require Import ZArith Bool List Reals Lra Lia Psatz.
From Flocq Require Import Core BinarySingleNaN.
Import ListNotations.
From Verif Require Import Outcome Date Sorting F64 Simulation SimulationFacts Processes ProcessFacts.
Open Scope R_scope.

(** In binary64, whatever the parameters, the state and the draws (NaN and infinities
    included) and whatever libm computes, the CIR and Heston variances and the SABR
    forward satisfy [x >= 0.0] after a step.  The SABR volatility and the FX and stock
    prices are not [< 0.0] as long as [exp] is not. *)
Theorem C48_float : forall lib_exp lib_ln lib_powf, let N := b64_numbers lib_exp lib_ln lib_powf in
  (forall (p : cir_process N) g state dt, ge0_64 (snd (cir_step p g state dt))) /\
  (forall (p : sabr_params N) g state dt g' s, sabr_step p g state dt = Ok (g', s) ->
     ge0_64 (forward s) /\ ((forall x, not_lt0_64 (lib_exp x)) -> not_lt0_64 (vol s))) /\
  (forall (p : hhw_params N) chol theta_fn g state t dt g' s, hhw_step p chol theta_fn g state t dt = Ok (g', s) ->
     ge0_64 (variance s) /\ ((forall x, not_lt0_64 (lib_exp x)) -> not_lt0_64 (fx s))) /\
  (forall (p : hhw_params N) (st : foreign_stock N) chol g state dt g' s, stock_step p st chol g state dt = Ok (g', s) ->
     ge0_64 (variance (st_fx s)) /\ ge0_64 (stock_variance s) /\
     ((forall x, not_lt0_64 (lib_exp x)) -> not_lt0_64 (fx (st_fx s)) /\ not_lt0_64 (stock s))).
Proof.
  intros e l w N. split; [|split; [|split]].
  - intros p g state dt. apply max_ge0.
  - intros p g state dt g' s H. unfold sabr_step, sabr_step_with_noise in H. destruct (negb _); [discriminate|]. cbn [obind sample_normal] in H. apply Ok_pair in H as [<- <-]. cbn [forward vol].
    split; [apply max_ge0|]. intros E. apply mul_not_lt0; [apply max_ge0|apply E].
  - intros p chol th g state t dt g' s H. unfold hhw_step, hhw_step_at_time in H. destruct (th t) as [a b]. destruct (negb _); [discriminate|]. cbn [obind sample_normal] in H. apply Ok_pair in H as [<- <-]. cbn [variance fx].
    split; [apply max_ge0|]. intros E. apply E.
  - intros p st chol g state dt g' s H. unfold stock_step, stock_step_with_noise in H. destruct (negb _); [discriminate|]. cbn [obind sample_normal] in H. apply Ok_pair in H as [<- <-]. cbn [st_fx stock stock_variance variance fx].
    split; [apply max_ge0|]. split; [apply max_ge0|]. intros E. split; apply E.
Qed.
Print Assumptions C48_float.

(** What holds of a state of each process. *)
Definition sabr_ok (s : sabr_state R_numbers) : Prop := 0 <= forward s /\ 0 < vol s.
Definition hhw_ok (s : hhw_state R_numbers) : Prop := 0 < fx s /\ 0 <= variance s.
Definition stock_ok (s : stock_state R_numbers) : Prop := hhw_ok (st_fx s) /\ 0 < stock s /\ 0 <= stock_variance s.

Lemma sabr_inv p g s dt g' s' : sabr_ok s -> sabr_step p g s dt = Ok (g', s') -> sabr_ok s'.
Proof.
  intros [_ V] H. unfold sabr_step, sabr_step_with_noise in H. destruct (negb _); [discriminate|]. cbn [obind sample_normal] in H. apply Ok_pair in H as [<- <-]. split; cbn [forward vol].
  - apply rmax0.
  - apply Rmult_lt_0_compat; [|apply exp_pos]. apply Rlt_le_trans with (vol s); [exact V|apply Rmax_l].
Qed.
Lemma hhw_inv p chol th g s t dt g' s' : hhw_ok s -> hhw_step p chol th g s t dt = Ok (g', s') -> hhw_ok s'.
Proof.
  intros _ H. unfold hhw_step, hhw_step_at_time in H. destruct (th t). destruct (negb _); [discriminate|]. cbn [obind sample_normal] in H. apply Ok_pair in H as [<- <-]. split; cbn [fx variance]; [apply exp_pos|apply rmax0].
Qed.
Lemma hhw_constant_inv p chol g s dt g' s' dw : hhw_ok s -> hhw_step_constant p chol g s dt = Ok (g', (s', dw)) -> hhw_ok s'.
Proof.
  intros _ H. unfold hhw_step_constant, hhw_step_at_time in H. destruct (negb _); [discriminate|]. cbn [sample_normal] in H. apply Ok_triple in H as (<- & <- & <-). split; cbn [fx variance]; [apply exp_pos|apply rmax0].
Qed.
Lemma stock_inv p st chol g s dt g' s' : stock_ok s -> stock_step p st chol g s dt = Ok (g', s') -> stock_ok s'.
Proof.
  intros _ H. unfold stock_step, stock_step_with_noise in H. destruct (negb _); [discriminate|]. cbn [obind sample_normal] in H. apply Ok_pair in H as [<- <-].
  split; [split|split]; cbn [st_fx fx variance stock stock_variance]; try apply exp_pos; apply rmax0.
Qed.

(** Over the reals, every state recorded by the date-driven runner has the right signs,
    for every model, time grid, sequence of draws and number of paths. *)
Theorem C48_paths : forall sort search, sorts_by (fun d => d) sort -> searches_by (fun d => d) search ->
  forall yf (g : rng R_numbers) v obs n stp,
  (forall (p : cir_process R_numbers) g' r, 0 <= sigma_0 p ->
     simulate_at_dates sort search (fun _ => cir_initial p) (fun g s _ dt => Ok (cir_step p g s dt)) yf g v obs n stp = Ok (g', r) ->
     forall path, In path (paths r) -> forall s, In s path -> 0 <= s) /\
  (forall (p : geometric R_numbers) g' r, 0 < s_0 p ->
     simulate_at_dates sort search (fun _ => s_0 p) (fun g s _ dt => Ok (gbm_step p g s dt)) yf g v obs n stp = Ok (g', r) ->
     forall path, In path (paths r) -> forall s, In s path -> 0 < s) /\
  (forall (p : sabr_params R_numbers) f0 g' r, 0 < alpha p -> 0 < f0 ->
     simulate_at_dates sort search (fun _ => sabr_initial p f0) (fun g s _ dt => sabr_step p g s dt) yf g v obs n stp = Ok (g', r) ->
     forall path, In path (paths r) -> forall s, In s path -> sabr_ok s) /\
  (forall (p : hhw_params R_numbers) chol theta_fn g' r, 0 < fx_0 p -> 0 <= sigma_0 (heston p) ->
     simulate_at_dates sort search (fun _ => hhw_initial p) (fun g s t dt => hhw_step p chol theta_fn g s t dt) yf g v obs n stp = Ok (g', r) ->
     forall path, In path (paths r) -> forall s, In s path -> hhw_ok s) /\
  (forall (p : hhw_params R_numbers) (st : foreign_stock R_numbers) chol g' r, 0 < fx_0 p -> 0 <= sigma_0 (heston p) -> 0 < stock_0 st -> 0 <= sigma_0 (stock_heston st) ->
     simulate_at_dates sort search (fun _ => stock_initial p st) (fun g s _ dt => stock_step p st chol g s dt) yf g v obs n stp = Ok (g', r) ->
     forall path, In path (paths r) -> forall s, In s path -> stock_ok s).
Proof.
  intros sort search HS HF yf g v obs n stp. split; [|split; [|split; [|split]]].
  - intros p g' r P H. revert H. apply (simulate_invariant sort search HS HF _ _ (fun s => 0 <= s)); [intros; exact P|].
    intros m s t dt m1 s1 _ _ E. apply Ok_pair in E as [_ <-]. apply rmax0.
  - intros p g' r P H. revert H. apply (simulate_invariant sort search HS HF _ _ (fun s => 0 < s)); [intros; exact P|].
    intros m s t dt m1 s1 _ I E. apply Ok_pair in E as [_ <-]. apply Rmult_lt_0_compat; [exact I|apply exp_pos].
  - intros p f0 g' r A F H. revert H. apply (simulate_invariant sort search HS HF _ _ sabr_ok); [intros; split; [left; exact F|exact A]|].
    intros m s t dt m1 s1 _. apply sabr_inv.
  - intros p chol th g' r F V H. revert H. apply (simulate_invariant sort search HS HF _ _ hhw_ok); [intros; split; assumption|].
    intros m s t dt m1 s1 _. apply hhw_inv.
  - intros p st chol g' r F V S W H. revert H. apply (simulate_invariant sort search HS HF _ _ stock_ok); [intros; split; [split; assumption|split; assumption]|].
    intros m s t dt m1 s1 _. apply stock_inv.
Qed.
Print Assumptions C48_paths.

(** The same for the equal-step [simulate], which returns one state per path. *)
Theorem C48_terminal : forall t_end n_steps n_paths (g g' : rng R_numbers),
  (forall (p : sabr_params R_numbers) f0 ss, 0 < alpha p -> 0 < f0 ->
     simulate (sabr_step p) (sabr_initial p f0) t_end n_steps n_paths g = Ok (g', ss) -> length ss = n_paths /\ forall s, In s ss -> sabr_ok s) /\
  (forall (p : hhw_params R_numbers) chol ss, 0 < fx_0 p -> 0 <= sigma_0 (heston p) ->
     simulate (fun g s dt => do (g, (s, _)) <- hhw_step_constant p chol g s dt; Ok (g, s)) (hhw_initial p) t_end n_steps n_paths g = Ok (g', ss) ->
     length ss = n_paths /\ forall s, In s ss -> hhw_ok s) /\
  (forall (p : hhw_params R_numbers) (st : foreign_stock R_numbers) chol ss, 0 < fx_0 p -> 0 <= sigma_0 (heston p) -> 0 < stock_0 st -> 0 <= sigma_0 (stock_heston st) ->
     simulate (stock_step p st chol) (stock_initial p st) t_end n_steps n_paths g = Ok (g', ss) -> length ss = n_paths /\ forall s, In s ss -> stock_ok s).
Proof.
  intros t_end n_steps n_paths g g'. split; [|split].
  - intros p f0 ss A F H. revert H. apply (terminal_invariant _ sabr_ok); [split; [left; exact F|exact A]|]. intros g0 s dt g1 s1. apply sabr_inv.
  - intros p chol ss F V H. revert H. apply (terminal_invariant _ hhw_ok); [split; assumption|]. intros g0 s dt g1 s1 I E.
    destruct (hhw_step_constant p chol g0 s dt) as [[g2 [s2 dw]]| |] eqn:X; [|discriminate|discriminate]. cbn [obind] in E. apply Ok_pair in E as [<- <-]. eapply hhw_constant_inv; eassumption.
  - intros p st chol ss F V S W H. revert H. apply (terminal_invariant _ stock_ok); [split; [split; assumption|split; assumption]|]. intros g0 s dt g1 s1. apply stock_inv.
Qed.
Print Assumptions C48_terminal.

(** Zero absorbs the SABR forward when beta is positive, and a variance at zero leaves it
    with a non-negative drift. *)
Theorem C48_zero : (forall (p : sabr_params R_numbers) g (s : sabr_state R_numbers) dt g' (s' : sabr_state R_numbers), 0 < beta p -> forward s <= 0 -> sabr_step p g s dt = Ok (g', s') -> forward s' = 0) /\
  (forall (p : cir_process R_numbers) g s dt, 0 <= kappa p -> 0 <= theta p -> 0 <= dt -> s <= 0 -> snd (cir_step p g s dt) = kappa p * theta p * dt).
Proof.
  split.
  - intros p g s dt g' s' B Z H. unfold sabr_step, sabr_step_with_noise in H. destruct (negb _); [discriminate|]. cbn [obind sample_normal] in H. apply Ok_pair in H as [_ <-]. cbn.
    rewrite (Rmax_right _ _ Z). unfold powfR. destruct (Req_EM_T 0 0) as [_|]; [|lra]. destruct (Req_EM_T (beta p) 0) as [E|_]; [cbn in *; lra|]. rewrite Rmult_0_r, Rmult_0_l, Rplus_0_r. apply Rmax_left. lra.
  - intros p g s dt K T D Z. cbn in *. rewrite (Rmax_right _ _ Z), sqrt_0. rewrite Rmax_left; [ring|]. assert (0 <= kappa p * theta p * dt) by (apply Rmult_le_pos; [apply Rmult_le_pos|]; assumption). lra.
Qed.
Print Assumptions C48_zero.

(** A SABR path that the truncation stops at zero, a CIR step that it stops, and a CIR
    variance that leaves zero. *)
Example C48_witness :
  let p : sabr_params R_numbers := @Build_sabr_params R_numbers (1 / 5) 1 0 0 in
  let c : cir_process R_numbers := @Build_cir_process R_numbers 2 1 1 1 in
  0 < alpha p /\ 0 < beta p /\
  (exists g', @simulate R_numbers _ (sabr_step p) (sabr_initial p 1) 1 1 1 (fun _ => -10) = Ok (g', [@Build_sabr_state R_numbers 0 (1 / 5)])) /\
  snd (@cir_step R_numbers c (fun _ => -10) 1 1) = 0 /\ snd (@cir_step R_numbers c (fun _ => -10) 0 1) = 2 /\
  sorts_by (fun d => d) (isort_by (fun d => d)) /\ searches_by (fun d => d) (lsearch_by (fun d => d)).
Proof.
  cbv zeta. cbn [alpha beta]. split; [cbn; lra|]. split; [cbn; lra|]. split; [|split; [|split; [|split; [apply isort_sorts|apply lsearch_searches]]]].
  - eexists. unfold simulate. cbn [Nat.eqb orb]. replace (negb (nlt n0 (1 : R_numbers))) with false by (cbn; destruct (Rlt_dec 0 1); [reflexivity|lra]).
    cbn [terminals steps]. replace (ndiv (1 : R_numbers) (n_of_nat 1)) with (1 : R_numbers) by (cbn; field).
    unfold sabr_step at 1, sabr_step_with_noise. replace (negb (nlt n0 (1 : R_numbers))) with false by (cbn; destruct (Rlt_dec 0 1); [reflexivity|lra]).
    cbn [obind sample_normal]. apply (f_equal Ok). apply f_equal2; [reflexivity|]. apply (f_equal (fun s => [s])). apply f_equal2; cbn.
    + rewrite sqrt_1, (Rmax_left 1 0), (Rmax_left (1 / 5) 0) by lra. unfold powfR. destruct (Req_EM_T 1 0); [lra|]. rewrite Rpower_1 by lra. apply Rmax_right. lra.
    + rewrite (Rmax_left (1 / 5) 0) by lra. replace (_ + _) with 0 by ring. rewrite exp_0. ring.
  - cbn. rewrite (Rmax_left 1 0), sqrt_1 by lra. apply Rmax_right. lra.
  - cbn. rewrite (Rmax_left 0 0), sqrt_0 by lra. rewrite Rmax_left; lra.
Qed.
