(** C81: the forward characteristic function of the linearised Heston-Hull-White model *)
From Coq Require Import Bool List Arith Reals Psatz Lia.
Import ListNotations.
From Coquelicot Require Import Coquelicot.
From Verif Require Import Outcome ForwardPoints VolSurface Processes ProcessFacts HullWhite Cholesky CosPricer Complexes Hhw1Chf HestonFacts Simpson Hhw1Facts.
Open Scope R_scope.
Global Set Bullet Behavior "Strict Subproofs".

(** * The coefficient of the variance *)

(** At every real frequency the closed form never divides by zero. *)
Theorem C81_denominator : forall u kappa gamma rho tau, 0 < kappa -> -1 <= rho <= 1 -> 0 <= tau ->
  forall x d : C, x = (kappa, - (gamma * rho * u)) -> d = csqrt (x * x + ((gamma ^ 2 * u ^ 2)%R, (gamma ^ 2 * u)%R))%C ->
  0 < fst d /\ (x + d - (x - d) * cexp (- d * RtoC tau))%C <> 0%C.
Proof.
  intros u kappa gamma rho tau K Hr Ht x d Hx Hd.
  assert (Ex : x = hx (RtoC u) kappa gamma rho) by (rewrite hx_real; exact Hx).
  assert (Ed : d = hd (RtoC u) kappa gamma rho).
  { rewrite Hd, Ex. unfold hd. f_equal. apply C_eq; unfold I_, Cminus, Cplus, Cmult, Copp, RtoC; cbn; ring. }
  rewrite Ex, Ed. split; [apply hd_re_pos; assumption|]. apply (hden_neq_0 u kappa gamma rho K Hr tau Ht).
Qed.

(** It solves the Riccati equation of the model from zero. *)
Theorem C81_riccati : forall u kappa gamma rho tau, 0 < kappa -> -1 <= rho <= 1 -> 0 < tau ->
  let c := heston_c (RtoC u) kappa gamma rho in
  let b : C := (0, u) in
  cderive c tau (RtoC (1 / 2) * (b * b - b) - (RtoC kappa - RtoC (gamma * rho) * b) * c tau + RtoC (1 / 2 * gamma ^ 2) * (c tau * c tau))%C /\
  c 0 = 0%C /\ continuity_pt (fun s => fst (c s)) 0 /\ continuity_pt (fun s => snd (c s)) 0.
Proof.
  intros u kappa gamma rho tau K Hr Ht c b. split.
  - eapply cderive_eq; [apply heston_c_derive; [exact Ht|apply hden_neq_0; [exact K|exact Hr|lra]]|].
    fold c. rewrite hb_real, hx_real. unfold b. apply C_eq; unfold Cminus, Cplus, Cmult, Copp, RtoC; cbn; field.
  - split; [apply heston_c_neg; lra|]. apply heston_c_cont; [lra|]. apply hden_neq_0; [exact K|exact Hr|lra].
Qed.

(** Its real part is never positive, so the characteristic function does not grow with the variance. *)
Theorem C81_bounded : forall u kappa gamma rho tau, 0 < kappa -> -1 <= rho <= 1 ->
  fst (heston_c (RtoC u) kappa gamma rho tau) <= 0 /\
  (u <> 0 -> 0 < tau -> fst (heston_c (RtoC u) kappa gamma rho tau) < 0).
Proof. intros u kappa gamma rho tau K Hr. split; [apply heston_c_re_le; assumption|]. intros Hu Ht. apply heston_c_re; assumption. Qed.

(** * The evaluator *)

Theorem C81_total : forall lg p T n,
  ((2 <= n)%nat -> Nat.even n = true -> 0 < kappa (heston (hm p)) ->
   exists q, hhw1_with_steps lg p T n = Ok q /\ h_expiry q = T /\
     (forall u, 0 <= T -> exists z, hhw1_evaluate lg p q u = Ok z) /\
     (forall u, T < 0 -> hhw1_evaluate lg p q u = Panic PAssert) /\
     (forall u tau, 0 <= tau <= T -> exists z, components lg p q u tau = Ok z /\ c_b z = (I_ * u)%C /\ c_c z = heston_c u (kappa (heston (hm p))) (gamma (heston (hm p))) (rho_xi_sigma (hm_corr p)) tau) /\
     (forall u tau, tau < 0 \/ T + / 10 ^ 12 < tau -> components lg p q u tau = Panic PAssert)) /\
  (((n < 2)%nat \/ Nat.even n = false) -> hhw1_with_steps lg p T n = Panic PAssert) /\
  ((2 <= n)%nat -> Nat.even n = true -> kappa (heston (hm p)) <= 0 -> 0 < T -> hhw1_with_steps lg p T n = Panic PAssert).
Proof.
  intros lg p T n.
  assert (EV : forall n, (n mod 2 =? 0)%nat = Nat.even n).
  { intros k. destruct (Nat.even k) eqn:E.
    - apply Nat.even_spec in E as [m ->]. rewrite Nat.mul_comm, Nat.mod_mul by lia. reflexivity.
    - apply Nat.eqb_neq. intros M. assert (Nat.even k = true); [|congruence]. apply Nat.even_spec. exists (k / 2)%nat. pose proof (Nat.div_mod k 2 ltac:(lia)). lia. }
  split; [|split].
  - intros H2 He K. assert (HM : (n mod 2 = 0)%nat) by (apply Nat.eqb_eq; rewrite EV; exact He).
    destruct (with_steps_ok lg p T n K H2 HM) as (q & HQ & HE & HN & HG). exists q. split; [exact HQ|]. split; [exact HE|].
    split; [intros u HT; eexists; apply (evaluate_value lg p T n q u K HT HQ)|]. split; [|split].
    + intros u HT. unfold hhw1_evaluate, components. rewrite HE. destruct (Rle_dec 0 T); [exfalso; lra|]. reflexivity.
    + intros u tau Ht. unfold components. rewrite HE. destruct (Rle_dec 0 tau); [|exfalso; lra].
      assert (P12 : 0 < / 10 ^ 12) by (apply Rinv_0_lt_compat, pow_lt; lra).
      destruct (Rle_dec tau (T + / 10 ^ 12)); [|exfalso; lra]. cbn [andb negb].
      destruct (Rlt_dec _ _).
      * rewrite (cached_value lg p u T n _ K HG). cbn [obind]. eexists. repeat split.
      * rewrite HN. destruct (Rle_lt_dec tau 0) as [Z|Z].
        -- unfold a_of_tau. destruct (Rle_dec tau 0); [|contradiction]. cbn [obind]. eexists. repeat split.
        -- rewrite (a_of_tau_value lg p u tau T n K Z). cbn [obind]. eexists. repeat split.
    + intros u tau Ht. unfold components. rewrite HE. destruct Ht as [Ht|Ht].
      * destruct (Rle_dec 0 tau); [exfalso; lra|]. reflexivity.
      * destruct (Rle_dec 0 tau); [|reflexivity]. destruct (Rle_dec tau (T + / 10 ^ 12)); [exfalso; lra|]. reflexivity.
  - intros H. unfold hhw1_with_steps. rewrite EV. destruct H as [H|H].
    + replace (2 <=? n)%nat with false by (symmetry; apply Nat.leb_gt; exact H). reflexivity.
    + rewrite H, andb_false_r. reflexivity.
  - intros H2 He K HT. unfold hhw1_with_steps. rewrite EV, He, (proj2 (Nat.leb_le 2 n) H2). cbn [andb negb]. unfold grid_build.
    destruct n as [|[|n]]; [lia|lia|]. cbn [seq omapM].
    assert (P1 : 0 < INR 1 * (T / INR (S (S n)))). { rewrite Rmult_1_l. apply Rdiv_lt_0_compat; [exact HT|]. apply lt_0_INR. lia. }
    assert (A0 : exists g, grid_point_at lg p T (T / INR (S (S n))) 0 = Ok g).
    { unfold grid_point_at. cbn [INR]. rewrite Rmult_0_l. unfold sqrt_mean, sqrt_mean_tol. destruct (Rle_dec 0 0) as [_|X]; [|exfalso; lra]. cbn [obind]. eexists. reflexivity. }
    destruct A0 as [g0 ->]. cbn [obind].
    assert (A1 : grid_point_at lg p T (T / INR (S (S n))) 1 = Panic PAssert).
    { unfold grid_point_at, sqrt_mean, sqrt_mean_tol. destruct (Rle_dec _ 0) as [X|_]; [exfalso; lra|].
      destruct (Rlt_dec 0 (kappa (heston (hm p)))) as [X|_]; [exfalso; apply (Rlt_not_le _ _ X K)|]. reflexivity. }
    rewrite A1. reflexivity.
Qed.

(** The cached integral is the one recomputed node by node. *)
Theorem C81_cached : forall lg p T n q u, 0 < kappa (heston (hm p)) -> 0 <= T -> hhw1_with_steps lg p T n = Ok q ->
  a_of_tau_cached p u (h_grid q) = a_of_tau lg p u T T n.
Proof.
  intros lg p T n q u K HT H. destruct (with_steps_inv lg p T n q H) as (_ & _ & _ & _ & HG). rewrite (cached_value lg p u T n _ K HG).
  destruct HT as [HT| <-]; [symmetry; apply a_of_tau_value; assumption|]. unfold a_of_tau. destruct (Rle_dec 0 0) as [_|X]; [|exfalso; lra].
  apply f_equal. unfold csimpson. apply C_eq; cbn [fst snd RtoC]; unfold Rdiv; ring.
Qed.

Lemma wsum_zero f n : (forall k, f k = 0) -> wsum f n = 0.
Proof. intros H. transitivity (wsum (fun _ => 0) n); [|apply wsum_0]. unfold wsum. apply sum_eq. intros i _. rewrite H. reflexivity. Qed.
Lemma csimpson_zero T n (f : R -> C) : (forall s, f s = 0%C) -> csimpson T n f = 0%C.
Proof.
  intros H. unfold csimpson. apply C_eq; cbn [fst snd RtoC].
  - rewrite wsum_zero; [ring|]. intros k. cbv beta. rewrite H. reflexivity.
  - rewrite wsum_zero; [ring|]. intros k. cbv beta. rewrite H. reflexivity.
Qed.

(** Total mass one. *)
Theorem C81_mass : forall lg p T n q, 0 < kappa (heston (hm p)) -> 0 <= T -> hhw1_with_steps lg p T n = Ok q ->
  hhw1_evaluate lg p q 0%C = Ok (RtoC 1).
Proof.
  intros lg p T n q K HT H. rewrite (evaluate_value lg p T n q 0%C K HT H). apply f_equal. unfold chf_value.
  rewrite csimpson_zero.
  - unfold c_of_tau. rewrite heston_c_zero. rewrite <- cexp_0. f_equal. ring.
  - intros s. unfold code_rate, a_rate, c_of_tau. rewrite heston_c_zero. cbv zeta. ring.
Qed.

(** The forward is a martingale: at the frequency [-i] the value is the forward rate, and no division by zero occurs. *)
Theorem C81_martingale : forall lg p T n q, 0 < kappa (heston (hm p)) -> 0 <= T -> 0 < fx_0 (hm p) -> hhw1_with_steps lg p T n = Ok q ->
  hhw1_evaluate lg p q (0, -1) = Ok (RtoC (fx_0 (hm p) * exp ((rd_0 (hm p) - rf_0 (hm p)) * T))) /\
  (kappa (heston (hm p)) <> gamma (heston (hm p)) * rho_xi_sigma (hm_corr p) -> forall tau, 0 < tau ->
   hden (0, -1) (kappa (heston (hm p))) (gamma (heston (hm p))) (rho_xi_sigma (hm_corr p)) tau <> 0%C).
Proof.
  intros lg p T n q K HT F H.
  assert (Ei : (I_ * (0, -1))%C = 1%C) by (apply C_eq; unfold I_, Cmult, RtoC; cbn; ring).
  assert (Eb : hb (0, -1) = 0%C) by (unfold hb; rewrite Ei; ring).
  assert (Z : forall k g r t, heston_c (0, -1) k g r t = 0%C).
  { intros k g r t. destruct (Rle_lt_dec t 0); [apply heston_c_neg; assumption|]. rewrite heston_c_pos by assumption. rewrite Eb. unfold Cdiv. ring. }
  split.
  - rewrite (evaluate_value lg p T n q _ K HT H). apply f_equal. unfold chf_value, c_of_tau. rewrite Z, csimpson_zero.
    + rewrite Ei. replace (0 + 1 * RtoC (x0_of p T) + 0 * RtoC (sigma_0 (heston (hm p))))%C with (RtoC (x0_of p T)) by ring.
      rewrite cexp_real. apply f_equal. unfold x0_of. generalize dependent (fx_0 (hm p) : R). generalize (rd_0 (hm p) : R) (rf_0 (hm p) : R). intros a b f F.
      assert (0 < exp (- b * T)) by apply exp_pos. assert (0 < exp (- a * T)) by apply exp_pos.
      rewrite exp_ln by (apply Rdiv_lt_0_compat; [apply Rmult_lt_0_compat|]; assumption).
      unfold Rdiv. rewrite <- exp_Ropp, Rmult_assoc, <- exp_plus. f_equal. f_equal. ring.
    + intros s. unfold code_rate, a_rate, c_of_tau. rewrite Z, Ei.
      replace ((0, -1) * (0, -1))%C with (- (1))%C by (apply C_eq; unfold Cmult, Copp, RtoC; cbn; ring). cbv zeta. ring.
  - intros Hne tau Ht. unfold hden. set (x := hx (0, -1) _ _ _). set (d := hd _ _ _ _).
    set (k := kappa (heston (hm p)) : R) in *. set (g := gamma (heston (hm p)) : R) in *. set (r := rho_xi_sigma (hm_corr p)) in *.
    assert (Hne' : k - g * r <> 0) by (intro E; apply Hne; unfold Rminus in E; apply Rminus_diag_uniq; exact E).
    assert (Ex : x = RtoC (k - g * r)) by (unfold x, hx; rewrite Ei; apply C_eq; unfold Cminus, Cplus, Cmult, Copp, RtoC; cbn; ring).
    assert (Ed : d = RtoC (Rabs (k - g * r))).
    { unfold d, hd. fold x. rewrite Ei, Ex. replace (RtoC (k - g * r) * RtoC (k - g * r) - RtoC g * RtoC g * 1 * (1 - 1))%C with (RtoC ((k - g * r) * (k - g * r))) by (apply C_eq; unfold Cminus, Cplus, Cmult, Copp, RtoC; cbn; ring).
      rewrite csqrt_real by apply Rle_0_sqr. f_equal. apply sqrt_Rsqr_abs. }
    rewrite Ex, Ed. replace (- RtoC (Rabs (k - g * r)) * RtoC tau)%C with (RtoC (- (Rabs (k - g * r)) * tau)) by (apply C_eq; unfold Cmult, Copp, RtoC; cbn; ring).
    rewrite cexp_real. intro E. apply (f_equal fst) in E. unfold Cminus, Cplus, Cmult, Copp, RtoC in E. cbn in E.
    pose proof (exp_pos (- Rabs (k - g * r) * tau)) as PE. revert E PE. generalize (exp (- Rabs (k - g * r) * tau)). intros e E PE.
    destruct (Rle_lt_dec 0 (k - g * r)) as [S|S].
    + rewrite (Rabs_pos_eq _ S) in E. lra.
    + rewrite (Rabs_left _ S) in E. nra.
Qed.

Lemma Cconj_plus a c : Cconj (a + c)%C = (Cconj a + Cconj c)%C. Proof. destruct a, c. apply C_eq; cbn; ring. Qed.
Lemma Cconj_mult a c : Cconj (a * c)%C = (Cconj a * Cconj c)%C. Proof. destruct a, c. apply C_eq; cbn; ring. Qed.
Lemma Cconj_opp a : Cconj (- a)%C = (- Cconj a)%C. Proof. destruct a. apply C_eq; cbn; ring. Qed.
Lemma Cconj_real a : Cconj (RtoC a) = RtoC a. Proof. apply C_eq; cbn; ring. Qed.

(** A real-valued law: the value at the opposite frequency is the conjugate. *)
Theorem C81_conjugate : forall lg p T n q u z, 0 < kappa (heston (hm p)) -> 0 <= T -> -1 <= rho_xi_sigma (hm_corr p) <= 1 ->
  hhw1_with_steps lg p T n = Ok q -> hhw1_evaluate lg p q (RtoC u) = Ok z -> hhw1_evaluate lg p q (RtoC (- u)) = Ok (Cconj z).
Proof.
  intros lg p T n q u z K HT Hr H Hz. rewrite (evaluate_value lg p T n q (RtoC u) K HT H) in Hz. rewrite (evaluate_value lg p T n q (RtoC (- u)) K HT H).
  assert (Ez : z = chf_value p (csimpson T n (code_rate lg p (RtoC u) T)) (RtoC u) T) by congruence. rewrite Ez. apply f_equal.
  assert (Ei : (I_ * RtoC (- u))%C = Cconj (I_ * RtoC u)%C) by (apply C_eq; unfold I_, Cmult, Cconj, RtoC; cbn; ring).
  assert (Er : forall s, code_rate lg p (RtoC (- u)) T s = Cconj (code_rate lg p (RtoC u) T s)).
  { intros s. unfold code_rate, a_rate, c_of_tau. rewrite (heston_c_conj u _ _ _ s K Hr). cbv zeta. unfold Cminus.
    rewrite !Cconj_plus, !Cconj_mult, !Cconj_plus, !Cconj_opp, !Cconj_mult, !Cconj_real. 
    rewrite Ei, Cconj_mult, Cconj_real. f_equal. f_equal. f_equal. apply C_eq; cbn; ring. }
  unfold chf_value. rewrite <- cexp_conj. f_equal. rewrite !Cconj_plus, !Cconj_mult, !Cconj_real. unfold c_of_tau.
  rewrite (heston_c_conj u _ _ _ T K Hr), Ei, Cconj_mult, Cconj_real. f_equal. f_equal.
  unfold csimpson. apply C_eq; cbn [fst snd Cconj].
  - f_equal. unfold wsum. apply sum_eq. intros i _. rewrite Er. reflexivity.
  - rewrite Ropp_mult_distr_r. f_equal. unfold wsum. rewrite (sum_eq _ (fun k => weight k n * snd (code_rate lg p (RtoC u) T (INR k * (T / INR n))) * -1)) by (intros i _; rewrite Er; cbn [Cconj snd]; ring).
    rewrite <- scal_sum. ring.
Qed.

Lemma exp_le_1 x : x <= 0 -> exp x <= 1.
Proof. intros [H| ->]; [|rewrite exp_0; lra]. rewrite <- exp_0. apply Rlt_le, exp_increasing, H. Qed.
Lemma wsum_nonpos f n : (forall k, f k <= 0) -> wsum f n <= 0.
Proof. intros H. apply Rle_trans with (wsum (fun _ => 0) n); [apply wsum_le; intros; apply H|]. rewrite wsum_0. lra. Qed.

(** Without rate volatilities it is bounded by one, whatever the number of nodes. *)
Theorem C81_modulus : forall lg p T n q u z, 0 < kappa (heston (hm p)) -> 0 <= T -> -1 <= rho_xi_sigma (hm_corr p) <= 1 ->
  0 <= theta (heston (hm p)) -> 0 <= sigma_0 (heston (hm p)) -> hw_sigma (domestic (hm p)) = 0 -> hw_sigma (foreign (hm p)) = 0 ->
  hhw1_with_steps lg p T n = Ok q -> hhw1_evaluate lg p q (RtoC u) = Ok z -> Cmod z <= 1.
Proof.
  intros lg p T n q u z K HT Hr Hth Hs Hd Hf H Hz. rewrite (evaluate_value lg p T n q _ K HT H) in Hz.
  assert (Ez : z = chf_value p (csimpson T n (code_rate lg p (RtoC u) T)) (RtoC u) T) by congruence. rewrite Ez. unfold chf_value. rewrite cexp_mod.
  apply exp_le_1.
  assert (R1 : forall s, fst (code_rate lg p (RtoC u) T s) <= 0).
  { intros s. unfold code_rate, a_rate, zeta_of. rewrite Hd, Hf. cbv zeta. 
    match goal with |- fst ?e <= 0 => assert (E : fst e = kappa (heston (hm p)) * theta (heston (hm p)) * fst (c_of_tau (RtoC u) s p)) end.
    { destruct (c_of_tau (RtoC u) s p) as [c1 c2]. unfold I_, Cminus, Cplus, Cmult, Copp, RtoC. cbn [fst snd].
      generalize (kappa (heston (hm p)) : R) (theta (heston (hm p)) : R) (gamma (heston (hm p)) : R). intros. field. }
    rewrite E. unfold c_of_tau. pose proof (heston_c_re_le u (kappa (heston (hm p))) (gamma (heston (hm p))) (rho_xi_sigma (hm_corr p)) s K Hr) as N.
    revert N. generalize (fst (heston_c (RtoC u) (kappa (heston (hm p))) (gamma (heston (hm p))) (rho_xi_sigma (hm_corr p)) s)). intros c N.
    assert (P : 0 <= kappa (heston (hm p)) * theta (heston (hm p))) by (apply Rmult_le_pos; [apply Rlt_le; exact K|exact Hth]).
    revert P. generalize (kappa (heston (hm p)) * theta (heston (hm p))). intros k P. nra. }
  pose proof (heston_c_re_le u (kappa (heston (hm p))) (gamma (heston (hm p))) (rho_xi_sigma (hm_corr p)) T K Hr) as N.
  fold (c_of_tau (RtoC u) T p) in N. revert N. generalize (c_of_tau (RtoC u) T p). intros [c1 c2] N. cbn [fst] in N.
  assert (W : fst (csimpson T n (code_rate lg p (RtoC u) T)) <= 0).
  { unfold csimpson. cbn [fst].
    assert (W : wsum (fun k => fst (code_rate lg p (RtoC u) T (INR k * (T / INR n)))) n <= 0) by (apply wsum_nonpos; intros; apply R1).
    assert (Hn : 0 <= T / INR n / 3).
    { destruct (with_steps_inv lg p T n q H) as (H2 & _). assert (0 < INR n) by (apply lt_0_INR; lia). apply Rmult_le_pos; [|lra]. apply Rmult_le_pos; [exact HT|]. apply Rlt_le, Rinv_0_lt_compat. assumption. }
    nra. }
  revert W. generalize (csimpson T n (code_rate lg p (RtoC u) T)). intros [w w2] W. cbn [fst] in W.
  revert Hs. generalize (sigma_0 (heston (hm p)) : R). intros s0 Hs. unfold I_, Cplus, Cmult, RtoC. cbn [fst snd]. nra.
Qed.

(** * What the integral should be *)

Definition denominators (p : hhw1) (u : C) (T : R) : Prop :=
  forall s, 0 <= s <= T -> hden u (kappa (heston (hm p))) (gamma (heston (hm p))) (rho_xi_sigma (hm_corr p)) s <> 0%C.

(** The solution of the model's backward equation: the rate at time to expiry [s] takes every factor at the calendar time [T - s]. *)
Definition true_rate (phi : R -> R) (p : hhw1) (u : C) (T s : R) : C :=
  a_rate p u (c_of_tau u s p) (phi (T - s)) (hw_b (domestic (hm p)) (T - s) T) (hw_b (foreign (hm p)) (T - s) T).
Definition affine (phi : R -> R) (p : hhw1) (u : C) (T t x s : R) : C :=
  cexp (cint (true_rate phi p u T) 0 (T - t) + I_ * u * RtoC x + c_of_tau u (T - t) p * RtoC s)%C.

Lemma cint_derive f T t : 0 < t < T -> (forall s, 0 <= s <= T -> ccont f s) -> cderive (fun b => cint f 0 b) t (f t).
Proof.
  intros Ht Hc.
  assert (G : forall g : R -> R, (forall s, 0 <= s <= T -> continuity_pt g s) -> is_derive (fun b => RInt g 0 b) t (g t)).
  { intros g Hg. apply (is_derive_RInt g (fun b => RInt g 0 b) 0 t).
    - exists (mkposreal (Rmin t (T - t)) ltac:(apply Rmin_glb_lt; lra)). intros b Hb.
      apply (@RInt_correct R_CompleteNormedModule). pose proof (Rmin_l t (T - t)). pose proof (Rmin_r t (T - t)).
      apply Rabs_def2 in Hb. unfold minus, plus, opp in Hb. cbn in Hb.
      apply ex_RInt_cont; [lra|]. intros s Hs. apply Hg. lra.
    - apply continuity_pt_filterlim, Hg. lra. }
  split; cbn [cint fst snd]; [apply (G (fun s => fst (f s)))|apply (G (fun s => snd (f s)))]; intros s Hs; apply (Hc s Hs).
Qed.

Lemma cpt_reflect (f : R -> R) T t : continuity_pt f (T - t) -> continuity_pt (fun s => f (T - s)) t.
Proof. intros H. apply (continuity_pt_comp (fun s => T - s) f); [|exact H]. apply derivable_continuous_pt. reg. Qed.

Lemma cderive_reflect f T t l : cderive f (T - t) l -> cderive (fun s => f (T - s)) t (- l)%C.
Proof.
  intros [A B].
  assert (D : is_derive (fun s => T - s) t (-1)). { auto_derive; [exact I|ring]. }
  split.
  - replace (fst (- l)%C) with (scal (-1) (fst l)) by (unfold scal; cbn; unfold mult; cbn; ring). apply (is_derive_comp (fun s => fst (f s)) (fun s => T - s) t _ _ A D).
  - replace (snd (- l)%C) with (scal (-1) (snd l)) by (unfold scal; cbn; unfold mult; cbn; ring). apply (is_derive_comp (fun s => snd (f s)) (fun s => T - s) t _ _ B D).
Qed.

Lemma pde_algebra (k th g rxs rsd rsf rxd rxf rdf a f ph s : R) (c iu u E : C) : iu = (I_ * u)%C ->
  let v := s + a * a + f * f - 2 * rxd * a * ph + 2 * rxf * f * ph - 2 * rdf * a * f in
  let rate := (RtoC (k * th) * c + RtoC (rsd * g * a * ph) * (c * (1 - iu)) + RtoC (rsf * g * f * ph) * (c * iu)
     + (u * u + iu) * RtoC (rxd * a * ph - rxf * f * ph + rdf * a * f - (a * a + f * f) / 2))%C in
  let c' := (RtoC (1 / 2) * (iu * iu - iu) - (RtoC k - RtoC g * RtoC rxs * iu) * c + RtoC (1 / 2) * (RtoC g * RtoC g) * (c * c))%C in
  ((- rate + 0 + (- c' * RtoC s + c * 0)) * E
   - RtoC (v / 2) * (iu * E) + RtoC (v / 2) * (iu * (iu * E))
   + RtoC (k * (th - s) + rsd * g * a * ph) * (c * E)
   + RtoC (g * (rxs * s - rsd * a * ph + rsf * f * ph)) * (iu * (c * E))
   + RtoC (g ^ 2 * s / 2) * (c * (c * E)))%C = 0%C.
Proof.
  intros Hi v rate c'.
  assert (Hu : (u * u)%C = (- (iu * iu))%C).
  { rewrite Hi. destruct u as [u1 u2]. apply C_eq; unfold I_, Cmult, Copp; cbn; ring. }
  unfold rate, c', v. rewrite Hu. clear Hu Hi rate c' v u.
  assert (N2 : (1 + 1)%C <> 0%C) by exact two_neq_0.
  assert (H2 : RtoC 2 = (1 + 1)%C) by (apply C_eq; cbn; ring).
  unfold Rdiv. change (g ^ 2) with (g * (g * 1)). rewrite <- H2 in N2. rewrite ?RtoC_mult, ?RtoC_plus, ?RtoC_minus, ?RtoC_mult, ?RtoC_inv, ?RtoC_plus, ?RtoC_minus, ?RtoC_mult, ?RtoC_plus, ?RtoC_minus, ?RtoC_mult by (intro; lra).
  rewrite H2 in *. field. exact N2.
Qed.

(** [affine] solves the backward equation of the linearised model in the forward measure, with [v] the squared volatility of
    the logarithm of the forward, from the payoff [exp (i u x)] at expiry. *)
Theorem C81_pde : forall p u T phi t, 0 < t < T -> denominators p u T -> (forall s, 0 <= s <= T -> continuity_pt phi s) ->
  let V := affine phi p u T in
  let h := heston (hm p) in
  let r := hm_corr p in
  let a : R := hw_sigma (domestic (hm p)) * hw_b (domestic (hm p)) t T in
  let f : R := hw_sigma (foreign (hm p)) * hw_b (foreign (hm p)) t T in
  (forall x s, V T x s = cexp (I_ * u * RtoC x)%C) /\
  exists Vx Vs : R -> R -> C,
  (forall x s, cderive (fun y => V t y s) x (Vx x s)) /\
  (forall x s, cderive (fun w => V t x w) s (Vs x s)) /\
  forall x s, exists Vt Vxx Vsx Vss,
    cderive (fun t => V t x s) t Vt /\ cderive (fun y => Vx y s) x Vxx /\ cderive (fun y => Vs y s) x Vsx /\ cderive (fun w => Vs x w) s Vss /\
    let v := s + a * a + f * f - 2 * rho_xi_d r * a * phi t + 2 * rho_xi_f r * f * phi t - 2 * rho_d_f r * a * f in
    (Vt - RtoC (v / 2) * Vx x s + RtoC (v / 2) * Vxx
     + RtoC (kappa h * (theta h - s) + rho_sigma_d r * gamma h * a * phi t) * Vs x s
     + RtoC (gamma h * (rho_xi_sigma r * s - rho_sigma_d r * a * phi t + rho_sigma_f r * f * phi t)) * Vsx
     + RtoC (gamma h ^ 2 * s / 2) * Vss)%C = 0%C.
Proof.
  intros p u T phi t Ht Hd Hp V h r a f.
  assert (Hcc : forall s, 0 <= s <= T -> ccont (true_rate phi p u T) s).
  { intros s Hs. unfold true_rate. apply a_rate_cont.
    - apply heston_c_cont; [lra|apply Hd; exact Hs].
    - apply cpt_reflect, Hp. lra.
    - apply (cpt_reflect (fun y => hw_b (domestic (hm p)) y T)), hw_b_cont.
    - apply (cpt_reflect (fun y => hw_b (foreign (hm p)) y T)), hw_b_cont. }
  split.
  { intros x s. unfold V, affine. rewrite Rminus_eq_0. unfold c_of_tau. rewrite heston_c_neg by lra. unfold cint. rewrite !RInt_point.
    f_equal. apply C_eq; cbn; unfold zero; cbn; ring. }
  set (c := c_of_tau u (T - t) p).
  exists (fun x s => I_ * u * V t x s)%C, (fun x s => c * V t x s)%C.
  assert (DX : forall x s, cderive (fun y => V t y s) x (I_ * u * V t x s)%C).
  { intros x s. unfold V, affine. eapply cderive_eq.
    - apply cderive_exp. apply cderive_plus; [|apply cderive_const]. apply cderive_plus; [apply cderive_const|]. apply cderive_scal, cderive_id.
    - cbv beta. ring. }
  assert (DS : forall x s, cderive (fun w => V t x w) s (c * V t x s)%C).
  { intros x s. unfold V, affine. eapply cderive_eq.
    - apply cderive_exp. apply cderive_plus; [apply cderive_const|]. apply cderive_scal, cderive_id.
    - cbv beta. unfold c. ring. }
  split; [exact DX|]. split; [exact DS|]. intros x s.
  assert (HT : 0 < T - t < T) by lra.
  pose proof (cint_derive _ T (T - t) HT Hcc) as DA. apply (cderive_reflect (fun b => cint (true_rate phi p u T) 0 b)) in DA.
  pose proof (heston_c_derive u (kappa h) (gamma h) (rho_xi_sigma r) (T - t) ltac:(lra) (Hd (T - t) ltac:(lra))) as DC.
  apply cderive_reflect in DC.
  eexists. exists (I_ * u * (I_ * u * V t x s))%C, (I_ * u * (c * V t x s))%C, (c * (c * V t x s))%C. split; [|split; [|split; [|split]]].
  - unfold V, affine. apply cderive_exp. apply cderive_plus.
    + apply cderive_plus; [exact DA|apply cderive_const].
    + apply (cderive_mult (fun t => c_of_tau u (T - t) p) (fun _ => RtoC s)); [exact DC|apply cderive_const].
  - apply cderive_scal, DX.
  - eapply cderive_eq; [apply cderive_scal, DX|]. ring.
  - apply cderive_scal, DS.
  - cbv zeta. fold (V t x s).
    change (cexp (cint (true_rate phi p u T) 0 (T - t) + I_ * u * RtoC x + c_of_tau u (T - t) p * RtoC s)%C) with (V t x s).
    pose proof (pde_algebra (kappa h) (theta h) (gamma h) (rho_xi_sigma r) (rho_sigma_d r) (rho_sigma_f r) (rho_xi_d r) (rho_xi_f r) (rho_d_f r) a f (phi t) s c (I_ * u)%C u (V t x s) eq_refl) as P.
    cbv zeta in P.
    assert (ER : true_rate phi p u T (T - t) = a_rate p u c (phi t) (hw_b (domestic (hm p)) t T) (hw_b (foreign (hm p)) t T)).
    { unfold true_rate. replace (T - (T - t)) with t by ring. reflexivity. }
    rewrite ER. unfold a_rate, zeta_of. fold h r. cbv zeta. fold a f. fold (c_of_tau u (T - t) p). fold c. unfold hb, hx. fold h r.
    change (heston_c u (kappa h) (gamma h) (rho_xi_sigma r) (T - t)) with c.
    exact P.
Qed.

Ltac rring := match goal with |- ?a = ?b => change (@eq R a b) end; ring.
Ltac rfield := match goal with |- ?a = ?b => change (@eq R a b) end; field.

(** * What the evaluator converges to *)

Definition clim (z : nat -> C) (l : C) : Prop := is_lim_seq (fun m => fst (z m)) (fst l) /\ is_lim_seq (fun m => snd (z m)) (snd l).

Lemma clim_const c : clim (fun _ => c) c.
Proof. split; apply is_lim_seq_const. Qed.
Lemma clim_plus a b x y : clim a x -> clim b y -> clim (fun m => a m + b m)%C (x + y)%C.
Proof. intros [A B] [D E]. split; [exact (is_lim_seq_plus' _ _ _ _ A D)|exact (is_lim_seq_plus' _ _ _ _ B E)]. Qed.
Lemma clim_exp a x : clim a x -> clim (fun m => cexp (a m)) (cexp x).
Proof.
  intros [A B].
  assert (X : is_lim_seq (fun m => exp (fst (a m))) (exp (fst x))) by (apply (is_lim_seq_continuous exp); [apply derivable_continuous_pt, derivable_pt_exp|exact A]).
  split; cbn [cexp fst snd].
  - apply (is_lim_seq_mult' _ _ _ _ X). apply (is_lim_seq_continuous cos); [apply continuity_cos|exact B].
  - apply (is_lim_seq_mult' _ _ _ _ X). apply (is_lim_seq_continuous sin); [apply continuity_sin|exact B].
Qed.
Lemma clim_unique a x y : clim a x -> clim a y -> x = y.
Proof.
  intros [A B] [D E]. apply is_lim_seq_unique in A, B, D, E. apply C_eq; congruence.
Qed.

Lemma csimpson_clim f T : 0 < T -> (forall s, 0 <= s <= T -> ccont f s) -> clim (fun m => csimpson T (2 * S m) f) (cint f 0 T).
Proof.
  intros HT Hc. split; apply is_lim_seq_spec; intros [eps He]; cbn [pos].
  - destruct (csimpson_limit f T HT Hc eps He) as [N H]. exists N. intros m Hm. apply (H (S m)); lia.
  - destruct (csimpson_limit f T HT Hc eps He) as [N H]. exists N. intros m Hm. apply (H (S m)); lia.
Qed.

Lemma code_rate_cont lg p u T s : 0 <= s <= T -> denominators p u T -> continuity_pt (phi_at lg p) s -> ccont (code_rate lg p u T) s.
Proof.
  intros Hs Hd Hp. unfold code_rate. apply a_rate_cont.
  - apply heston_c_cont; [lra|apply Hd; exact Hs].
  - exact Hp.
  - apply hw_b_cont.
  - apply hw_b_cont.
Qed.

(** With more and more nodes the values converge, to the exponential of the integral of the rate the code samples. *)
Theorem C81_limit : forall lg p u T, 0 < kappa (heston (hm p)) -> 0 < T -> denominators p u T ->
  (forall s, 0 <= s <= T -> continuity_pt (phi_at lg p) s) ->
  exists z, (forall m, exists q, hhw1_with_steps lg p T (2 * S m) = Ok q /\ hhw1_evaluate lg p q u = Ok (z m)) /\
  clim z (cexp (cint (code_rate lg p u T) 0 T + I_ * u * RtoC (x0_of p T) + c_of_tau u T p * RtoC (sigma_0 (heston (hm p))))%C).
Proof.
  intros lg p u T K HT Hd Hp. exists (fun m => chf_value p (csimpson T (2 * S m) (code_rate lg p u T)) u T). split.
  - intros m. destruct (with_steps_ok lg p T (2 * S m) K ltac:(lia) ltac:(rewrite Nat.mul_comm; apply Nat.mod_mul; lia)) as (q & HQ & _).
    exists q. split; [exact HQ|]. apply evaluate_value; [exact K|lra|exact HQ].
  - unfold chf_value. apply clim_exp. apply clim_plus; [|apply clim_const]. apply clim_plus; [|apply clim_const].
    apply csimpson_clim; [exact HT|]. intros s Hs. apply code_rate_cont; [exact Hs|exact Hd|apply Hp; exact Hs].
Qed.

Lemma RInt_reflect (f : R -> R) T : 0 <= T -> (forall s, 0 <= s <= T -> continuity_pt f s) -> RInt (fun s => f (T - s)) 0 T = RInt f 0 T.
Proof.
  intros HT Hc.
  assert (E : RInt (fun y => scal (-1) (f (-1 * y + T))) 0 T = RInt f (-1 * 0 + T) (-1 * T + T)).
  { apply (RInt_comp_lin f (-1) T 0 T). replace (-1 * 0 + T) with T by ring. replace (-1 * T + T) with 0 by ring. apply ex_RInt_swap, ex_RInt_cont; assumption. }
  replace (-1 * 0 + T) with T in E by ring. replace (-1 * T + T) with 0 in E by ring.
  rewrite <- (opp_RInt_swap f 0 T) in E by (apply ex_RInt_cont; assumption).
  assert (E2 : RInt (fun y => scal (-1) (f (-1 * y + T))) 0 T = scal (-1) (RInt (fun s => f (T - s)) 0 T)).
  { rewrite <- (@RInt_scal R_CompleteNormedModule).
    - apply RInt_ext. intros x _. f_equal. f_equal. ring.
    - apply ex_RInt_cont; [exact HT|]. intros s Hs. apply cpt_reflect, Hc. lra. }
  rewrite E2 in E. change (-1 * RInt (fun s => f (T - s)) 0 T = - RInt f 0 T) in E. lra.
Qed.

(** When neither rate is correlated with the variance, the limit is the solution of the model. *)
Theorem C81_time_partial : forall lg p u T, 0 < kappa (heston (hm p)) -> 0 < T -> denominators p u T ->
  (forall s, 0 <= s <= T -> continuity_pt (phi_at lg p) s) ->
  rho_sigma_d (hm_corr p) * hw_sigma (domestic (hm p)) = 0 -> rho_sigma_f (hm_corr p) * hw_sigma (foreign (hm p)) = 0 ->
  exists z, (forall m, exists q, hhw1_with_steps lg p T (2 * S m) = Ok q /\ hhw1_evaluate lg p q u = Ok (z m)) /\
  clim z (affine (phi_at lg p) p u T 0 (x0_of p T) (sigma_0 (heston (hm p)))).
Proof.
  intros lg p u T K HT Hd Hp Z1 Z2. destruct (C81_limit lg p u T K HT Hd Hp) as (z & Hz & L). exists z. split; [exact Hz|].
  unfold affine. rewrite Rminus_0_r.
  assert (E : cint (code_rate lg p u T) 0 T = cint (true_rate (phi_at lg p) p u T) 0 T); [|rewrite <- E; exact L].
  set (kt := kappa (heston (hm p)) * theta (heston (hm p)) : R).
  set (c := fun s => c_of_tau u s p).
  set (zt := fun s => zeta_of p (phi_at lg p s) (hw_b (domestic (hm p)) s T) (hw_b (foreign (hm p)) s T)).
  set (w := (u * u + I_ * u)%C).
  assert (A : forall c' phi bd bf, a_rate p u c' phi bd bf = (RtoC kt * c' + w * RtoC (zeta_of p phi bd bf))%C).
  { intros c' phi bd bf. unfold a_rate. cbv zeta. unfold kt, w.
    assert (Q1 : forall g ph b e r : R, r * e = 0 -> r * g * (e * b) * ph = 0) by (intros g ph b e r Q; replace (r * g * (e * b) * ph) with (r * e * (g * b * ph)) by ring; rewrite Q; ring).
    rewrite (Q1 (gamma (heston (hm p))) phi bd (hw_sigma (domestic (hm p))) (rho_sigma_d (hm_corr p)) Z1).
    rewrite (Q1 (gamma (heston (hm p))) phi bf (hw_sigma (foreign (hm p))) (rho_sigma_f (hm_corr p)) Z2). ring. }
  assert (CZ : forall s, 0 <= s <= T -> continuity_pt zt s).
  { intros s Hs.
    assert (X : ccont (fun s => a_rate p (RtoC 1) (RtoC 0) (phi_at lg p s) (hw_b (domestic (hm p)) s T) (hw_b (foreign (hm p)) s T)) s).
    { apply (a_rate_cont p (RtoC 1) (fun _ => RtoC 0)); [apply ccont_const|apply Hp; exact Hs|apply hw_b_cont|apply hw_b_cont]. }
    destruct X as [X _]. eapply continuity_pt_ext; [|exact X]. intros t. unfold a_rate, zt. cbv zeta. unfold I_, Cminus, Cplus, Cmult, Copp, RtoC. cbn [fst snd]. ring. }
  assert (CC : forall s, 0 <= s <= T -> ccont c s) by (intros s Hs; apply heston_c_cont; [lra|apply Hd; exact Hs]).
  assert (I1 : ex_RInt zt 0 T) by (apply ex_RInt_cont; [lra|exact CZ]).
  assert (I1' : ex_RInt (fun s => zt (T - s)) 0 T) by (apply ex_RInt_cont; [lra|]; intros s Hs; apply cpt_reflect, CZ; lra).
  assert (S : forall (k l : R) (g : R -> R), (forall s, 0 <= s <= T -> continuity_pt g s) ->
    RInt (fun s => k * g s + l * zt s) 0 T = RInt (fun s => k * g s + l * zt (T - s)) 0 T).
  { intros k l g Hg. assert (Ig : ex_RInt g 0 T) by (apply ex_RInt_cont; [lra|exact Hg]).
    transitivity (plus (scal k (RInt g 0 T)) (scal l (RInt zt 0 T))).
    - rewrite <- !(@RInt_scal R_CompleteNormedModule) by assumption. rewrite <- (@RInt_plus R_CompleteNormedModule); [reflexivity|apply @ex_RInt_scal, Ig|apply @ex_RInt_scal, I1].
    - rewrite <- (RInt_reflect zt T) by (try lra; exact CZ).
      rewrite <- !(@RInt_scal R_CompleteNormedModule) by assumption. rewrite <- (@RInt_plus R_CompleteNormedModule); [reflexivity|apply @ex_RInt_scal, Ig|apply @ex_RInt_scal, I1']. }
  unfold cint. apply C_eq; cbn [fst snd].
  - transitivity (RInt (fun s => kt * fst (c s) + fst w * zt s) 0 T); [|rewrite (S kt (fst w) (fun s => fst (c s))) by (intros; apply CC; assumption)]; apply RInt_ext; intros s _.
    + unfold code_rate. rewrite A. fold (c s) (zt s). unfold Cplus, Cmult, RtoC. cbn [fst snd]. rring.
    + unfold true_rate. rewrite A. fold (c s) (zt (T - s)). unfold Cplus, Cmult, RtoC. cbn [fst snd]. rring.
  - transitivity (RInt (fun s => kt * snd (c s) + snd w * zt s) 0 T); [|rewrite (S kt (snd w) (fun s => snd (c s))) by (intros; apply CC; assumption)]; apply RInt_ext; intros s _.
    + unfold code_rate. rewrite A. fold (c s) (zt s). unfold Cplus, Cmult, RtoC. cbn [fst snd]. rring.
    + unfold true_rate. rewrite A. fold (c s) (zt (T - s)). unfold Cplus, Cmult, RtoC. cbn [fst snd]. rring.
Qed.

(** * A rate correlated with the variance *)

Definition p_corr (g rsd etad : R) : hhw1 :=
  {| hm := {| fx_0 := 1; heston := {| kappa := 1; theta := 1; gamma := g; sigma_0 := 1 |} : cir_process R_numbers;
              domestic := {| mean_reversion := 0; hw_sigma := etad |} : hull_white R_numbers;
              foreign := {| mean_reversion := 0; hw_sigma := 0 |} : hull_white R_numbers;
              rd_0 := 0; rf_0 := 0; theta_d := 0; theta_f := 0; hhw_rho_xi_f := 0 |} : hhw_params R_numbers;
     hm_corr := {| rho_xi_sigma := 0; rho_xi_d := 0; rho_xi_f := 0; rho_sigma_d := rsd; rho_sigma_f := 0; rho_d_f := 0 |} |}.

Lemma p_corr_phi lg g rsd etad s : Rabs g < / 10 ^ 14 -> phi_at lg (p_corr g rsd etad) s = 1.
Proof.
  intros G. unfold phi_at, sqrt_mean, sqrt_mean_tol, cir_mean. cbn [p_corr hm heston kappa theta gamma sigma_0].
  destruct (Rle_dec s 0); [rewrite Rmax_left by (cbn; lra); apply sqrt_1|].
  destruct (Rlt_dec 0 1) as [_|X]; [|exfalso; cbn in X; lra]. cbn [negb].
  destruct (Rlt_dec (Rabs g) (/ 10 ^ 14)) as [_|X]; [|contradiction].
  match goal with |- sqrt (Rmax ?a 0) = 1 => replace a with 1 by (cbn; ring) end. rewrite Rmax_left by lra. apply sqrt_1.
Qed.

Definition half_u : C := (0, - (1 / 2)).

Section Half.
  Context (g rsd etad : R).
  Let dd := sqrt (1 + g * g / 4).
  Let den (s : R) := 1 + dd + (dd - 1) * exp (- dd * s).
  Lemma dd_ge : 1 <= dd.
  Proof. unfold dd. rewrite <- sqrt_1 at 1. apply sqrt_le_1_alt. assert (0 <= g * g) by apply Rle_0_sqr. lra. Qed.
  Lemma den_pos s : 0 < den s.
  Proof. unfold den. pose proof dd_ge. pose proof (exp_pos (- dd * s)). assert (0 <= (dd - 1) * exp (- dd * s)) by (apply Rmult_le_pos; lra). lra. Qed.
  Lemma half_i : (I_ * half_u)%C = RtoC (1 / 2).
  Proof. apply C_eq; unfold half_u, I_, Cmult, RtoC; cbn; field. Qed.
  Lemma half_d : hd half_u 1 g 0 = RtoC dd.
  Proof.
    unfold hd, hx. rewrite half_i. unfold dd. rewrite <- csqrt_real by (assert (0 <= g * g) by apply Rle_0_sqr; lra). f_equal.
    apply C_eq; unfold Cminus, Cplus, Cmult, Copp, RtoC; cbn; field.
  Qed.
  Lemma half_den s : hden half_u 1 g 0 s = RtoC (den s).
  Proof.
    unfold hden. rewrite half_d. replace (- RtoC dd * RtoC s)%C with (RtoC (- dd * s)) by (apply C_eq; unfold Cmult, Copp, RtoC; cbn; ring). rewrite cexp_real.
    unfold hx, den. rewrite half_i. apply C_eq; unfold Cminus, Cplus, Cmult, Copp, RtoC; cbn; ring.
  Qed.
  Lemma half_c s : 0 <= s -> heston_c half_u 1 g 0 s = RtoC (- (1 / 4) * ((1 - exp (- dd * s)) / den s)).
  Proof.
    intros Hs. rewrite heston_c_max, Rmax_left by exact Hs. unfold hclosed. rewrite half_den, half_d.
    replace (- RtoC dd * RtoC s)%C with (RtoC (- dd * s)) by (apply C_eq; unfold Cmult, Copp, RtoC; cbn; ring). rewrite cexp_real.
    pose proof (den_pos s) as D. unfold hb. rewrite half_i. generalize dependent (den s). generalize (exp (- dd * s)). intros e n D.
    apply C_eq; unfold Cdiv, Cinv, Cminus, Cplus, Cmult, Copp, RtoC; cbn; field; lra.
  Qed.
  Lemma half_decreasing s t : 0 <= s < t -> fst (heston_c half_u 1 g 0 t) < fst (heston_c half_u 1 g 0 s).
  Proof.
    intros H. rewrite !half_c by lra. cbn [fst RtoC]. pose proof (den_pos s) as Ds. pose proof (den_pos t) as Dt. pose proof dd_ge as Hd.
    assert (E : exp (- dd * t) < exp (- dd * s)) by (apply exp_increasing; nra).
    assert (K : (1 - exp (- dd * s)) / den s < (1 - exp (- dd * t)) / den t).
    { apply Rmult_lt_reg_r with (den s * den t); [apply Rmult_lt_0_compat; assumption|].
      replace ((1 - exp (- dd * s)) / den s * (den s * den t)) with ((1 - exp (- dd * s)) * den t) by (field; lra).
      replace ((1 - exp (- dd * t)) / den t * (den s * den t)) with ((1 - exp (- dd * t)) * den s) by (field; lra).
      unfold den. pose proof (exp_pos (- dd * s)). pose proof (exp_pos (- dd * t)). nra. }
    lra.
  Qed.
  Lemma half_denominators : denominators (p_corr g rsd etad) half_u 1.
  Proof.
    intros s Hs. cbn [p_corr hm heston hm_corr kappa gamma rho_xi_sigma]. rewrite half_den. pose proof (den_pos s). intro E. apply (f_equal fst) in E. cbn in E. lra.
  Qed.
End Half.

(** With a domestic rate correlated with the variance the limit is not the solution of the model: the rate at time to
    expiry [s] is multiplied by the bond volatility at calendar time [s] instead of [T - s]. *)
Theorem C81_time_refuted : exists p u T, 0 < kappa (heston (hm p)) /\ 0 < T /\ denominators p u T /\
  forall lg, (forall s, 0 <= s <= T -> continuity_pt (phi_at lg p) s) /\
  exists z l, (forall m, exists q, hhw1_with_steps lg p T (2 * S m) = Ok q /\ hhw1_evaluate lg p q u = Ok (z m)) /\
  clim z l /\ l <> affine (phi_at lg p) p u T 0 (x0_of p T) (sigma_0 (heston (hm p))).
Proof.
  set (g := / 10 ^ 15). assert (Hg : 0 < g) by (unfold g; apply Rinv_0_lt_compat, pow_lt; lra).
  assert (HG : Rabs g < / 10 ^ 14). { rewrite Rabs_pos_eq by lra. unfold g. apply Rinv_lt_contravar; [apply Rmult_lt_0_compat; apply pow_lt; lra|]. apply Rlt_pow; [lra|lia]. }
  set (p := p_corr g (1 / 2) 1). exists p, half_u, 1.
  assert (HD : denominators p half_u 1) by apply half_denominators.
  assert (K : 0 < kappa (heston (hm p))) by (cbn; lra).
  split; [exact K|]. split; [lra|]. split; [exact HD|]. intros lg.
  assert (HP : forall s, 0 <= s <= 1 -> continuity_pt (phi_at lg p) s).
  { intros s _. apply (continuity_pt_ext (fun _ => 1)); [intros t; symmetry; apply p_corr_phi; exact HG|apply cpt_const]. }
  split; [exact HP|]. destruct (C81_limit lg p half_u 1 K ltac:(lra) HD HP) as (z & Hz & L). exists z. eexists. split; [exact Hz|]. split; [exact L|].
  unfold affine. rewrite Rminus_0_r. intro E. apply (f_equal Cmod) in E. rewrite !cexp_mod in E. apply exp_inv in E.
  assert (E' : fst (cint (code_rate lg p half_u 1) 0 1) = fst (cint (true_rate (phi_at lg p) p half_u 1) 0 1)).
  { revert E. generalize (cint (code_rate lg p half_u 1) 0 1) (cint (true_rate (phi_at lg p) p half_u 1) 0 1).
    generalize (I_ * half_u * RtoC (x0_of p 1))%C (c_of_tau half_u 1 p * RtoC (sigma_0 (heston (hm p))))%C. intros [a1 a2] [b1 b2] [c1 c2] [d1 d2]. cbn. lra. }
  clear E L Hz. cbn [cint fst] in E'.
  set (c := fun s => fst (heston_c half_u 1 g 0 s)).
  assert (HB : forall s T, hw_b ({| mean_reversion := 0; hw_sigma := 1 |} : hull_white R_numbers) s T = - (T - s)).
  { intros s T. unfold hw_b. cbn [mean_reversion]. destruct (Rlt_dec (Rabs 0) tiny) as [_|X]; [reflexivity|]. exfalso. apply X. rewrite Rabs_R0. unfold tiny. apply Rinv_0_lt_compat, pow_lt. lra. }
  assert (AR : forall s b bf, 0 <= s -> fst (a_rate p half_u (c_of_tau half_u s p) 1 b bf) = c s + g / 4 * (b * c s) - b * b / 8).
  { intros s b bf Hs. unfold a_rate, zeta_of, c_of_tau, c. cbn [p p_corr hm heston hm_corr kappa gamma theta rho_xi_sigma rho_sigma_d rho_sigma_f rho_xi_d rho_xi_f rho_d_f domestic foreign hw_sigma].
    rewrite (half_c g s Hs). generalize (- (1 / 4) * ((1 - exp (- sqrt (1 + g * g / 4) * s)) / (1 + sqrt (1 + g * g / 4) + (sqrt (1 + g * g / 4) - 1) * exp (- sqrt (1 + g * g / 4) * s)))).
    intros cc. cbv zeta. rewrite half_i. unfold Cminus, Cplus, Cmult, Copp, RtoC. cbn. field. }
  assert (E1 : RInt (fun s => fst (code_rate lg p half_u 1 s)) 0 1 = RInt (fun s => c s + g / 4 * (- (1 - s) * c s) - (1 - s) * (1 - s) / 8) 0 1).
  { apply RInt_ext. intros s Hs. rewrite Rmin_left, Rmax_right in Hs by lra. unfold code_rate. replace (phi_at lg p s) with 1 by (symmetry; apply p_corr_phi; exact HG).
    rewrite AR by lra. change (domestic (hm p)) with ({| mean_reversion := 0; hw_sigma := 1 |} : hull_white R_numbers). rewrite HB. rfield. }
  assert (E2 : RInt (fun s => fst (true_rate (phi_at lg p) p half_u 1 s)) 0 1 = RInt (fun s => c s + g / 4 * (- s * c s) - s * s / 8) 0 1).
  { apply RInt_ext. intros s Hs. rewrite Rmin_left, Rmax_right in Hs by lra. unfold true_rate. replace (phi_at lg p (1 - s)) with 1 by (symmetry; apply p_corr_phi; exact HG).
    rewrite AR by lra. change (domestic (hm p)) with ({| mean_reversion := 0; hw_sigma := 1 |} : hull_white R_numbers). rewrite HB. replace (1 - (1 - s)) with s by ring. rfield. }
  rewrite E1, E2 in E'. clear E1 E2.
  assert (CC : forall s, 0 <= s <= 1 -> continuity_pt c s). { intros s Hs. apply heston_c_cont; [lra|]. apply (HD s Hs). }
  assert (CP : forall (q : R -> R) s, derivable_pt q s -> continuity_pt q s) by (intros; apply derivable_continuous_pt; assumption).
  assert (IM : forall (q : R -> R), (forall s, derivable_pt q s) -> forall s, 0 <= s <= 1 -> continuity_pt (fun s => q s * c s) s).
  { intros q Hq s Hs. apply (continuity_pt_mult q c); [apply CP, Hq|apply CC, Hs]. }
  (* the difference of the two integrals *)
  set (f1 := fun s => (1 - 2 * s) * (c s - c (1 / 2))).
  assert (F1 : forall s, 0 <= s <= 1 -> continuity_pt f1 s).
  { intros s Hs. apply (continuity_pt_mult (fun s => 1 - 2 * s) (fun s => c s - c (1 / 2))); [apply CP; reg|]. apply (continuity_pt_minus c (fun _ => c (1 / 2))); [apply CC, Hs|apply cpt_const]. }
  set (f2 := fun s => (1 - 2 * s) * (g / 4 * c (1 / 2) + 1 / 8)).
  assert (F2 : forall s, continuity_pt f2 s) by (intros s; unfold f2; apply CP; reg).
  assert (R2 : RInt f2 0 1 = 0).
  { assert (RR : is_RInt f2 0 1 (minus ((1 - 1) * (g / 4 * c (1 / 2) + 1 / 8)) 0)).
    { replace (minus ((1 - 1) * (g / 4 * c (1 / 2) + 1 / 8)) 0) with (minus ((fun s => (s - s * s) * (g / 4 * c (1 / 2) + 1 / 8)) 1) ((fun s => (s - s * s) * (g / 4 * c (1 / 2) + 1 / 8)) 0)) by (unfold minus, plus, opp; cbn; ring).
      apply (is_RInt_derive (fun s => (s - s * s) * (g / 4 * c (1 / 2) + 1 / 8)) f2).
      - intros s _. unfold f2. auto_derive; [exact I|ring].
      - intros s _. apply continuity_pt_filterlim, F2. }
    rewrite (@is_RInt_unique R_CompleteNormedModule _ _ _ _ RR). unfold minus, plus, opp; cbn; ring. }
  assert (I1 : ex_RInt (fun s => c s + g / 4 * (- (1 - s) * c s) - (1 - s) * (1 - s) / 8) 0 1).
  { apply ex_RInt_cont; [lra|]. intros s Hs. apply (continuity_pt_ext (fun s => (1 + g / 4 * - (1 - s)) * c s - (1 - s) * (1 - s) / 8)); [intros; ring|].
    apply (continuity_pt_minus (fun s => (1 + g / 4 * - (1 - s)) * c s) (fun s => (1 - s) * (1 - s) / 8)); [apply IM; [intros; reg|exact Hs]|]. apply CP. reg. }
  assert (I2 : ex_RInt (fun s => c s + g / 4 * (- s * c s) - s * s / 8) 0 1).
  { apply ex_RInt_cont; [lra|]. intros s Hs. apply (continuity_pt_ext (fun s => (1 + g / 4 * - s) * c s - s * s / 8)); [intros; ring|].
    apply (continuity_pt_minus (fun s => (1 + g / 4 * - s) * c s) (fun s => s * s / 8)); [apply IM; [intros; reg|exact Hs]|]. apply CP. reg. }
  assert (X1 : ex_RInt f1 0 1) by (apply ex_RInt_cont; [lra|exact F1]).
  assert (X2 : ex_RInt f2 0 1) by (apply ex_RInt_cont; [lra|intros; apply F2]).
  assert (DIFF : RInt (fun s => c s + g / 4 * (- s * c s) - s * s / 8) 0 1 - RInt (fun s => c s + g / 4 * (- (1 - s) * c s) - (1 - s) * (1 - s) / 8) 0 1 = g / 4 * RInt f1 0 1).
  { transitivity (minus (RInt (fun s => c s + g / 4 * (- s * c s) - s * s / 8) 0 1) (RInt (fun s => c s + g / 4 * (- (1 - s) * c s) - (1 - s) * (1 - s) / 8) 0 1)); [reflexivity|].
    rewrite <- (@RInt_minus R_CompleteNormedModule) by assumption.
    transitivity (RInt (fun s => plus (scal (g / 4) (f1 s)) (f2 s)) 0 1).
    - apply RInt_ext. intros s _. unfold minus, plus, opp, scal. cbn. unfold mult. cbn. unfold f1, f2. rfield.
    - rewrite (@RInt_plus R_CompleteNormedModule); [|apply @ex_RInt_scal, X1|exact X2]. rewrite (@RInt_scal R_CompleteNormedModule) by exact X1. rewrite R2.
      unfold plus, scal. cbn. unfold mult. cbn. ring. }
  assert (POS : 0 < RInt f1 0 1).
  { assert (CH : RInt f1 0 1 = RInt f1 0 (1 / 2) + RInt f1 (1 / 2) 1).
    { symmetry. apply (RInt_Chasles f1 0 (1 / 2) 1); apply ex_RInt_cont; try lra; intros; apply F1; lra. }
    rewrite CH. apply Rplus_lt_0_compat; (apply RInt_gt_0; [lra| |intros s Hs; apply continuity_pt_filterlim, F1; lra]); intros s Hs; unfold f1.
    - assert (c (1 / 2) < c s) by (apply half_decreasing; lra). nra.
    - assert (c s < c (1 / 2)) by (apply half_decreasing; lra). nra. }
  rewrite E' in DIFF. nra.
Qed.

Lemma real_denominators p u T : 0 < kappa (heston (hm p)) -> -1 <= rho_xi_sigma (hm_corr p) <= 1 -> denominators p (RtoC u) T.
Proof. intros K Hr s Hs. apply hden_neq_0; [exact K|exact Hr|lra]. Qed.

Lemma heston_c_flat u k r s : 0 < k -> 0 <= s -> heston_c u k 0 r s = (hb u * RtoC ((1 - exp (- k * s)) / (2 * k)))%C.
Proof.
  intros K Hs. rewrite heston_c_max, Rmax_left by exact Hs. unfold hclosed, hden.
  assert (Ex : hx u k 0 r = RtoC k) by (unfold hx; apply C_eq; unfold Cminus, Cplus, Cmult, Copp, RtoC; cbn; ring).
  assert (Ed : hd u k 0 r = RtoC k).
  { unfold hd. rewrite Ex. replace (RtoC k * RtoC k - RtoC 0 * RtoC 0 * (I_ * u) * (I_ * u - 1))%C with (RtoC (k * k)) by (rewrite RtoC_mult; ring).
    rewrite csqrt_real by nra. rewrite sqrt_square by lra. reflexivity. }
  rewrite Ex, Ed. replace (- RtoC k * RtoC s)%C with (RtoC (- k * s)) by (apply C_eq; unfold Cmult, Copp, RtoC; cbn; ring). rewrite cexp_real.
  generalize (exp (- k * s)). intros e. generalize (hb u). intros [b1 b2].
  apply C_eq; unfold Cdiv, Cinv, Cminus, Cplus, Cmult, Copp, RtoC; cbn; field; lra.
Qed.

(** With a constant variance and deterministic rates the limit is the Black-Scholes characteristic function. *)
Theorem C81_black : forall lg p u T, 0 < kappa (heston (hm p)) -> 0 < T -> gamma (heston (hm p)) = 0 -> theta (heston (hm p)) = sigma_0 (heston (hm p)) ->
  hw_sigma (domestic (hm p)) = 0 -> hw_sigma (foreign (hm p)) = 0 ->
  exists z, (forall m, exists q, hhw1_with_steps lg p T (2 * S m) = Ok q /\ hhw1_evaluate lg p q u = Ok (z m)) /\
  clim z (cexp (I_ * u * RtoC (x0_of p T) - RtoC (sigma_0 (heston (hm p)) * T / 2) * (u * u + I_ * u))%C).
Proof.
  intros lg p u T K HT G TH ED EF.
  assert (HD : denominators p u T).
  { intros s Hs. rewrite G. set (k := kappa (heston (hm p)) : R) in *. change (0 < k) in K.
    assert (Ex : hx u k 0 (rho_xi_sigma (hm_corr p)) = RtoC k) by (unfold hx; apply C_eq; unfold Cminus, Cplus, Cmult, Copp, RtoC; cbn; ring).
    assert (Ed : hd u k 0 (rho_xi_sigma (hm_corr p)) = RtoC k).
    { unfold hd. rewrite Ex. replace (RtoC k * RtoC k - RtoC 0 * RtoC 0 * (I_ * u) * (I_ * u - 1))%C with (RtoC (k * k)) by (rewrite RtoC_mult; ring).
      rewrite csqrt_real by nra. rewrite sqrt_square by lra. reflexivity. }
    unfold hden. rewrite Ex, Ed. intro E. apply (f_equal fst) in E. revert E. generalize (cexp (- RtoC k * RtoC s)%C). intros [e1 e2].
    unfold Cminus, Cplus, Cmult, Copp, RtoC. cbn. lra. }
  assert (HP : forall s, 0 <= s <= T -> continuity_pt (phi_at lg p) s).
  { intros s _. apply (continuity_pt_ext (fun _ => sqrt (Rmax (sigma_0 (heston (hm p))) 0))); [|apply cpt_const]. intros t. unfold phi_at, sqrt_mean, sqrt_mean_tol, cir_mean.
    destruct (Rle_dec t 0); [reflexivity|]. destruct (Rlt_dec 0 (kappa (heston (hm p)))) as [_|X]; [|contradiction]. cbn [negb].
    destruct (Rlt_dec (Rabs (gamma (heston (hm p)))) (/ 10 ^ 14)) as [_|X].
    - f_equal. f_equal. rewrite TH. generalize (exp (- kappa (heston (hm p)) * t)) (sigma_0 (heston (hm p)) : R). intros. rring.
    - exfalso. apply X. rewrite G, Rabs_R0. apply Rinv_0_lt_compat, pow_lt. lra. }
  destruct (C81_limit lg p u T K HT HD HP) as (z & Hz & L). exists z. split; [exact Hz|].
  match type of L with clim _ (cexp ?a) => match goal with |- clim _ (cexp ?b) => replace b with a; [exact L|] end end. clear L Hz z.
  unfold c_of_tau. rewrite G. 
  assert (CR : forall s, 0 <= s -> code_rate lg p u T s = (hb u * RtoC (kappa (heston (hm p)) * theta (heston (hm p)) * ((1 - exp (- kappa (heston (hm p)) * s)) / (2 * kappa (heston (hm p))))))%C).
  { intros s Hs. unfold code_rate, c_of_tau. rewrite G, (heston_c_flat u _ _ s K Hs). unfold a_rate, zeta_of. rewrite ED, EF, G. cbv zeta.
    rewrite !RtoC_mult. replace (rho_xi_d (hm_corr p) * (0 * hw_b (domestic (hm p)) s T) * phi_at lg p s - rho_xi_f (hm_corr p) * (0 * hw_b (foreign (hm p)) s T) * phi_at lg p s +
      rho_d_f (hm_corr p) * (0 * hw_b (domestic (hm p)) s T) * (0 * hw_b (foreign (hm p)) s T) - (0 * hw_b (domestic (hm p)) s T * (0 * hw_b (domestic (hm p)) s T) + 0 * hw_b (foreign (hm p)) s T * (0 * hw_b (foreign (hm p)) s T)) / 2) with 0 by field. ring. }
  rewrite (heston_c_flat u _ _ T K (Rlt_le _ _ HT)). rewrite TH in *.
  set (k := kappa (heston (hm p)) : R) in *. change (0 < k) in K. set (s0 := sigma_0 (heston (hm p)) : R) in *.
  assert (IR : forall b : R, RInt (fun s => b * (k * s0 * ((1 - exp (- k * s)) / (2 * k)))) 0 T = b * (s0 / 2 * (T - (1 - exp (- k * T)) / k))).
  { intros b.
    assert (RR : is_RInt (fun s => b * (k * s0 * ((1 - exp (- k * s)) / (2 * k)))) 0 T (minus (b * (s0 / 2 * (T + exp (- k * T) / k))) (b * (s0 / 2 * (0 + exp (- k * 0) / k))))).
    { apply (is_RInt_derive (fun s => b * (s0 / 2 * (s + exp (- k * s) / k))) (fun s => b * (k * s0 * ((1 - exp (- k * s)) / (2 * k))))).
      - intros s _. auto_derive; [lra|]. field. lra.
      - intros s _. apply continuity_pt_filterlim. apply derivable_continuous_pt. reg. }
    rewrite (@is_RInt_unique R_CompleteNormedModule _ _ _ _ RR). replace (- k * 0) with 0 by ring. rewrite exp_0. unfold minus, plus, opp; cbn. field. lra. }
  assert (EI : cint (code_rate lg p u T) 0 T = (hb u * RtoC (s0 / 2 * (T - (1 - exp (- k * T)) / k)))%C).
  { unfold cint. apply C_eq; cbn [fst snd].
    - transitivity (RInt (fun s => fst (hb u) * (k * s0 * ((1 - exp (- k * s)) / (2 * k)))) 0 T).
      + apply RInt_ext. intros s Hs. rewrite Rmin_left in Hs by lra. rewrite CR by lra. unfold Cmult, RtoC. cbn [fst snd]. rring.
      + rewrite IR. unfold Cmult, RtoC. cbn [fst snd]. rring.
    - transitivity (RInt (fun s => snd (hb u) * (k * s0 * ((1 - exp (- k * s)) / (2 * k)))) 0 T).
      + apply RInt_ext. intros s Hs. rewrite Rmin_left in Hs by lra. rewrite CR by lra. unfold Cmult, RtoC. cbn [fst snd]. rring.
      + rewrite IR. unfold Cmult, RtoC. cbn [fst snd]. rring. }
  rewrite EI.
  assert (HB : hb u = (- (u * u + I_ * u))%C) by (destruct u as [u1 u2]; unfold hb; apply C_eq; unfold I_, Cminus, Cplus, Cmult, Copp; cbn; ring).
  rewrite HB. assert (ES : s0 * T / 2 = s0 / 2 * (T - (1 - exp (- k * T)) / k) + (1 - exp (- k * T)) / (2 * k) * s0) by (field; lra).
  rewrite ES, RtoC_plus, (RtoC_mult ((1 - exp (- k * T)) / (2 * k))). ring.
Qed.

(** * Cases that meet the hypotheses *)

Example C81_witness : exists lg p T u q, 0 < kappa (heston (hm p)) /\ 0 < T /\ 0 < fx_0 (hm p) /\ -1 <= rho_xi_sigma (hm_corr p) <= 1 /\
  0 <= theta (heston (hm p)) /\ 0 <= sigma_0 (heston (hm p)) /\ 0 < hw_sigma (domestic (hm p)) /\ u <> 0 /\
  hhw1_new lg p T = Ok q /\ denominators p (RtoC u) T /\ (forall s, 0 <= s <= T -> continuity_pt (phi_at lg p) s) /\
  rho_sigma_d (hm_corr p) * hw_sigma (domestic (hm p)) = 0 /\ rho_sigma_f (hm_corr p) * hw_sigma (foreign (hm p)) = 0.
Proof.
  exists (fun _ => 0), (p_corr 0 0 1), 1, 1.
  destruct (with_steps_ok (fun _ => 0) (p_corr 0 0 1) 1 128 ltac:(cbn; lra) ltac:(lia) eq_refl) as (q & HQ & _). exists q.
  assert (K : 0 < kappa (heston (hm (p_corr 0 0 1)))) by (cbn; lra).
  split; [exact K|]. split; [lra|]. split; [cbn; lra|]. split; [cbn; lra|]. split; [cbn; lra|]. split; [cbn; lra|]. split; [cbn; lra|]. split; [lra|].
  split; [exact HQ|]. split; [apply real_denominators; [exact K|cbn; lra]|]. split; [|cbn; lra].
  intros s _. apply (continuity_pt_ext (fun _ => 1)); [|apply cpt_const]. intros t. symmetry. apply p_corr_phi. rewrite Rabs_R0. apply Rinv_0_lt_compat, pow_lt. lra.
Qed.
Example C81_witness_black : exists lg p T q, 0 < kappa (heston (hm p)) /\ 0 < T /\ gamma (heston (hm p)) = 0 /\ theta (heston (hm p)) = sigma_0 (heston (hm p)) /\ 0 < sigma_0 (heston (hm p)) /\
  hw_sigma (domestic (hm p)) = 0 /\ hw_sigma (foreign (hm p)) = 0 /\ hhw1_new lg p T = Ok q.
Proof.
  exists (fun _ => 0), (p_corr 0 0 0), 1.
  destruct (with_steps_ok (fun _ => 0) (p_corr 0 0 0) 1 128 ltac:(cbn; lra) ltac:(lia) eq_refl) as (q & HQ & _). exists q.
  repeat split; try (cbn; lra). exact HQ.
Qed.

Print Assumptions C81_denominator.
Print Assumptions C81_riccati.
Print Assumptions C81_bounded.
Print Assumptions C81_total.
Print Assumptions C81_cached.
Print Assumptions C81_mass.
Print Assumptions C81_martingale.
Print Assumptions C81_conjugate.
Print Assumptions C81_modulus.
Print Assumptions C81_pde.
Print Assumptions C81_limit.
Print Assumptions C81_time_partial.
Print Assumptions C81_time_refuted.
Print Assumptions C81_black.
