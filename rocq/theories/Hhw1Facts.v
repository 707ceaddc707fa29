(** Facts on the forward characteristic function of the linearised Heston-Hull-White model. *)
From Coq Require Import Bool List Arith Reals Psatz Lia.
Import ListNotations.
From Coquelicot Require Import Coquelicot.
From Verif Require Import Outcome ForwardPoints VolSurface Processes ProcessFacts HullWhite Cholesky Complexes Hhw1Chf HestonFacts Simpson.
From Verif Require VolFacts.
Open Scope R_scope.
Global Set Bullet Behavior "Strict Subproofs".

(** * Continuity and integrals of complex functions *)

Definition ccont (f : R -> C) (t : R) : Prop := continuity_pt (fun s => fst (f s)) t /\ continuity_pt (fun s => snd (f s)) t.
Definition cint (f : R -> C) (a b : R) : C := (RInt (fun s => fst (f s)) a b, RInt (fun s => snd (f s)) a b).

Lemma cpt_const (c t : R) : continuity_pt (fun _ => c) t.
Proof. apply continuity_pt_const. intros ? ?. reflexivity. Qed.
Lemma ccont_const c t : ccont (fun _ => c) t.
Proof. split; apply cpt_const. Qed.
Lemma ccont_plus f g t : ccont f t -> ccont g t -> ccont (fun s => f s + g s)%C t.
Proof. intros [A B] [D E]. split; [exact (continuity_pt_plus _ _ _ A D)|exact (continuity_pt_plus _ _ _ B E)]. Qed.
Lemma ccont_mult f g t : ccont f t -> ccont g t -> ccont (fun s => f s * g s)%C t.
Proof.
  intros [A B] [D E]. split.
  - exact (continuity_pt_minus _ _ _ (continuity_pt_mult _ _ _ A D) (continuity_pt_mult _ _ _ B E)).
  - exact (continuity_pt_plus _ _ _ (continuity_pt_mult _ _ _ A E) (continuity_pt_mult _ _ _ B D)).
Qed.
Lemma ccont_real (f : R -> R) t : continuity_pt f t -> ccont (fun s => RtoC (f s)) t.
Proof. intros H. split; [exact H|exact (cpt_const 0 t)]. Qed.
Lemma ccont_derive f t l : cderive f t l -> ccont f t.
Proof.
  intros [A B]. split; apply continuity_pt_filterlim.
  - apply (ex_derive_continuous (fun s => fst (f s))). exists (fst l). exact A.
  - apply (ex_derive_continuous (fun s => snd (f s))). exists (snd l). exact B.
Qed.
Lemma ccont_comp f (g : R -> R) t : continuity_pt g t -> ccont f (g t) -> ccont (fun s => f (g s)) t.
Proof. intros G [A B]. split; [exact (continuity_pt_comp g (fun s => fst (f s)) t G A)|exact (continuity_pt_comp g (fun s => snd (f s)) t G B)]. Qed.

Lemma cpt_max0 t : continuity_pt (fun s => Rmax s 0) t.
Proof.
  apply (continuity_pt_ext (fun s => (s + Rabs s) / 2)).
  - intros s. unfold Rmax. destruct (Rle_dec s 0) as [H|H]; [rewrite Rabs_left1 by exact H|rewrite Rabs_pos_eq by lra]; field.
  - apply (continuity_pt_mult (fun s => s + Rabs s) (fun _ => / 2)); [|apply cpt_const].
    apply (continuity_pt_plus (fun s => s) Rabs); [apply derivable_continuous_pt, derivable_pt_id|apply Rcontinuity_abs].
Qed.

Lemma heston_c_max u kappa gamma rho t : heston_c u kappa gamma rho t = hclosed u kappa gamma rho (Rmax t 0).
Proof.
  destruct (Rle_lt_dec t 0) as [H|H].
  - rewrite heston_c_neg, Rmax_right, hclosed_0 by exact H. reflexivity.
  - rewrite heston_c_pos, Rmax_left by lra. reflexivity.
Qed.
Lemma heston_c_cont u kappa gamma rho t : 0 <= t -> hden u kappa gamma rho t <> 0%C -> ccont (heston_c u kappa gamma rho) t.
Proof.
  intros Ht Hn.
  assert (A : ccont (fun s => hclosed u kappa gamma rho (Rmax s 0)) t).
  { apply (ccont_comp (hclosed u kappa gamma rho) (fun s => Rmax s 0)); [apply cpt_max0|]. rewrite Rmax_left by exact Ht. eapply ccont_derive, hclosed_derive, Hn. }
  destruct A as [A B]. split.
  - eapply continuity_pt_ext; [|exact A]. intros s. rewrite heston_c_max. reflexivity.
  - eapply continuity_pt_ext; [|exact B]. intros s. rewrite heston_c_max. reflexivity.
Qed.

Lemma hw_b_cont h T t : continuity_pt (fun s => hw_b h s T) t.
Proof.
  unfold hw_b. destruct (Rlt_dec (Rabs (mean_reversion h)) tiny) as [_|H].
  - apply derivable_continuous_pt. reg.
  - apply (continuity_pt_mult (fun s => exp (- mean_reversion h * (T - s)) - 1) (fun _ => / mean_reversion h)); [|apply cpt_const].
    apply derivable_continuous_pt. set (l := mean_reversion h : R). change (derivable_pt (fun s => exp (- l * (T - s)) - 1) t). reg.
Qed.

(** * The rate of growth of A *)

(** the expected square root of the variance, where it is defined *)
Definition phi_at (lg : R -> R) (p : hhw1) (s : R) : R := match sqrt_mean lg (heston (hm p)) s with Ok v => v | _ => 0 end.

Lemma sqrt_mean_total lg h s : 0 < kappa h -> exists v, sqrt_mean lg h s = Ok v.
Proof.
  intros K. unfold sqrt_mean, sqrt_mean_tol. destruct (Rle_dec s 0); [eexists; reflexivity|]. destruct (Rlt_dec 0 (kappa h)) as [_|N]; [|contradiction].
  cbn [negb]. destruct (Rlt_dec _ _); [eexists; reflexivity|]. destruct (Rlt_dec _ _); eexists; reflexivity.
Qed.
Lemma phi_at_ok lg p s : 0 < kappa (heston (hm p)) -> sqrt_mean lg (heston (hm p)) s = Ok (phi_at lg p s).
Proof. intros K. unfold phi_at. destruct (sqrt_mean_total lg (heston (hm p)) s K) as [v ->]. reflexivity. Qed.

Definition zeta_of (p : hhw1) (phi bd bf : R) : R :=
  let a : R := hw_sigma (domestic (hm p)) * bd in
  let f : R := hw_sigma (foreign (hm p)) * bf in
  rho_xi_d (hm_corr p) * a * phi - rho_xi_f (hm_corr p) * f * phi + rho_d_f (hm_corr p) * a * f - (a * a + f * f) / 2.
Definition a_rate (p : hhw1) (u c : C) (phi bd bf : R) : C :=
  let a : R := hw_sigma (domestic (hm p)) * bd in
  let f : R := hw_sigma (foreign (hm p)) * bf in
  (RtoC (kappa (heston (hm p)) * theta (heston (hm p))) * c
   + RtoC (rho_sigma_d (hm_corr p) * gamma (heston (hm p)) * a * phi) * (c * (1 - I_ * u))
   + RtoC (rho_sigma_f (hm_corr p) * gamma (heston (hm p)) * f * phi) * (c * (I_ * u))
   + (u * u + I_ * u) * RtoC (zeta_of p phi bd bf))%C.

(** the rate the code integrates: the coefficient at time to expiry [s] beside the other factors at calendar time [s] *)
Definition code_rate (lg : R -> R) (p : hhw1) (u : C) (T s : R) : C :=
  a_rate p u (c_of_tau u s p) (phi_at lg p s) (hw_b (domestic (hm p)) s T) (hw_b (foreign (hm p)) s T).

Lemma real_algebra (rsd g ed phi bd rsf ef bf rxd rxf rdf : R) (c o i w t1 : C) (zeta : R) :
  zeta = (rxd * (ed * bd) * phi - rxf * (ef * bf) * phi + rdf * (ed * bd) * (ef * bf) - (ed * bd * (ed * bd) + ef * bf * (ef * bf)) / 2) ->
  forall z, z = zeta ->
  (t1 + RtoC (rsd * g * ed * phi * bd) * c * o + RtoC (rsf * g * ef * phi * bf) * c * i + w * RtoC z)%C
  = (t1 + RtoC (rsd * g * (ed * bd) * phi) * (c * o) + RtoC (rsf * g * (ef * bf) * phi) * (c * i) + w * RtoC zeta)%C.
Proof.
  intros Hz z ->. clear Hz. replace (rsd * g * ed * phi * bd) with (rsd * g * (ed * bd) * phi) by ring. replace (rsf * g * ef * phi * bf) with (rsf * g * (ef * bf) * phi) by ring. ring.
Qed.

Lemma integrand_rate lg p u s T : 0 < kappa (heston (hm p)) -> integrand lg p u s T = Ok (code_rate lg p u T s).
Proof.
  intros K. unfold integrand. rewrite (phi_at_ok lg p s K). cbn [obind]. apply f_equal. unfold code_rate, a_rate.
  apply real_algebra with (rxd := rho_xi_d (hm_corr p)) (rxf := rho_xi_f (hm_corr p)) (rdf := rho_d_f (hm_corr p)); [reflexivity|]. unfold zeta_of.
  generalize (phi_at lg p s) (hw_b (domestic (hm p)) s T) (hw_b (foreign (hm p)) s T) (rho_xi_d (hm_corr p)) (rho_xi_f (hm_corr p)) (rho_d_f (hm_corr p)).
  generalize (hw_sigma (domestic (hm p)) : R) (hw_sigma (foreign (hm p)) : R). intros. cbv zeta. field.
Qed.

(** * The grid *)

Definition csimpson (T : R) (n : nat) (f : R -> C) : C :=
  (T / INR n / 3 * wsum (fun k => fst (f (INR k * (T / INR n)))) n, T / INR n / 3 * wsum (fun k => snd (f (INR k * (T / INR n)))) n).

Lemma a_of_tau_value lg p u tau T n : 0 < kappa (heston (hm p)) -> 0 < tau -> a_of_tau lg p u tau T n = Ok (csimpson tau n (code_rate lg p u T)).
Proof.
  intros K Ht. unfold a_of_tau. destruct (Rle_dec tau 0); [exfalso; lra|].
  rewrite (weighted_sum_ok _ (fun k => code_rate lg p u T (INR k * (tau / INR n)))) by (intros; apply integrand_rate; exact K).
  cbn [obind]. apply f_equal. unfold csimpson, wsum. apply C_eq; unfold Cmult, RtoC; cbn [fst snd]; ring.
Qed.

Lemma omapM_total {A B} (f : A -> outcome B) l : (forall a, In a l -> exists b, f a = Ok b) -> exists r, omapM f l = Ok r.
Proof.
  induction l as [|a l IH]; intros H; [exists nil; reflexivity|]. cbn [omapM]. destruct (H a (or_introl eq_refl)) as [b ->]. cbn [obind].
  destruct IH as [r ->]; [intros; apply H; right; assumption|]. cbn [obind]. eexists; reflexivity.
Qed.

Lemma grid_total lg p T n : 0 < kappa (heston (hm p)) -> exists grid, grid_build lg p T n = Ok grid.
Proof.
  intros K. unfold grid_build. destruct (omapM_total (grid_point_at lg p T (T / INR n)) (seq 0 (S n))) as [ps ->].
  - intros k _. unfold grid_point_at. rewrite (phi_at_ok lg p _ K). cbn [obind]. eexists; reflexivity.
  - eexists; reflexivity.
Qed.

Lemma nth_error_seq0 n k : (k < n)%nat -> nth_error (seq 0 n) k = Some k.
Proof. intros H. rewrite (nth_error_nth' _ 0%nat) by (rewrite seq_length; exact H). rewrite seq_nth by exact H. reflexivity. Qed.

Lemma cached_value lg p u T n grid : 0 < kappa (heston (hm p)) -> grid_build lg p T n = Ok grid ->
  a_of_tau_cached p u grid = Ok (csimpson T n (code_rate lg p u T)).
Proof.
  intros K H. unfold grid_build in H. apply obind_Ok in H as (ps & HP & H). assert (G : grid = {| g_h := T / INR n; g_points := ps |}) by congruence. subst grid.
  destruct (VolFacts.omapM_nth _ _ _ HP) as [L N]. rewrite seq_length in L. unfold a_of_tau_cached. cbn [g_points g_h]. rewrite L. replace (S n - 1)%nat with n by lia.
  rewrite (weighted_sum_ok _ (fun k => code_rate lg p u T (INR k * (T / INR n)))).
  - cbn [obind]. apply f_equal. unfold csimpson, wsum. apply C_eq; unfold Cmult, RtoC; cbn [fst snd]; ring.
  - intros k Hk. destruct (N k k (nth_error_seq0 (S n) k ltac:(lia))) as (q & Eq & Fq). unfold oindex. rewrite Eq. cbn [obind].
    unfold grid_point_at in Fq. rewrite (phi_at_ok lg p _ K) in Fq. cbn [obind] in Fq.
    match type of Fq with Ok ?v = Ok _ => assert (Q : q = v) by congruence end. rewrite Q. cbn [g_phi g_bd g_bf g_zeta_no_phi g_zeta_phi_coef].
    apply f_equal. unfold code_rate, a_rate.
    apply real_algebra with (rxd := rho_xi_d (hm_corr p)) (rxf := rho_xi_f (hm_corr p)) (rdf := rho_d_f (hm_corr p)); [reflexivity|]. unfold zeta_of.
    generalize (phi_at lg p (INR k * (T / INR n))) (hw_b (domestic (hm p)) (INR k * (T / INR n)) T) (hw_b (foreign (hm p)) (INR k * (T / INR n)) T) (rho_xi_d (hm_corr p)) (rho_xi_f (hm_corr p)) (rho_d_f (hm_corr p)).
    generalize (hw_sigma (domestic (hm p)) : R) (hw_sigma (foreign (hm p)) : R). intros. cbv zeta. field.
Qed.

(** * The value *)

Definition x0_of (p : hhw1) (T : R) : R := ln (fx_0 (hm p) * exp (- rf_0 (hm p) * T) / exp (- rd_0 (hm p) * T)).
Definition chf_value (p : hhw1) (a u : C) (T : R) : C :=
  cexp (a + I_ * u * RtoC (x0_of p T) + c_of_tau u T p * RtoC (sigma_0 (heston (hm p))))%C.

Lemma with_steps_ok lg p T n : 0 < kappa (heston (hm p)) -> (2 <= n)%nat -> (n mod 2 = 0)%nat ->
  exists q, hhw1_with_steps lg p T n = Ok q /\ h_expiry q = T /\ h_n q = n /\ grid_build lg p T n = Ok (h_grid q).
Proof.
  intros K H2 HM. unfold hhw1_with_steps. rewrite (proj2 (Nat.leb_le 2 n) H2), HM. cbn [andb negb Nat.eqb].
  destruct (grid_total lg p T n K) as [g ->]. cbn [obind]. eexists. repeat split.
Qed.
Lemma with_steps_inv lg p T n q : hhw1_with_steps lg p T n = Ok q ->
  (2 <= n)%nat /\ (n mod 2 = 0)%nat /\ h_expiry q = T /\ h_n q = n /\ grid_build lg p T n = Ok (h_grid q).
Proof.
  unfold hhw1_with_steps. destruct (2 <=? n)%nat eqn:A; [|discriminate]. destruct (n mod 2 =? 0)%nat eqn:B; [|discriminate]. cbn [andb negb].
  intros H. apply obind_Ok in H as (g & G & H). assert (E : q = {| h_expiry := T; h_n := n; h_grid := g |}) by congruence. subst q.
  apply Nat.leb_le in A. apply Nat.eqb_eq in B. repeat split; assumption.
Qed.

Lemma evaluate_value lg p T n q u : 0 < kappa (heston (hm p)) -> 0 <= T -> hhw1_with_steps lg p T n = Ok q ->
  hhw1_evaluate lg p q u = Ok (chf_value p (csimpson T n (code_rate lg p u T)) u T).
Proof.
  intros K HT H. destruct (with_steps_inv lg p T n q H) as (_ & _ & HE & _ & HG). unfold hhw1_evaluate, components. rewrite HE.
  destruct (Rle_dec 0 T); [|contradiction]. destruct (Rle_dec T (T + / 10 ^ 12)) as [_|X]; [|exfalso; apply X; assert (0 < / 10 ^ 12) by (apply Rinv_0_lt_compat, pow_lt; lra); lra].
  cbn [andb negb]. destruct (Rlt_dec (Rabs (T - T)) (/ 10 ^ 12)) as [_|X].
  - rewrite (cached_value lg p u T n _ K HG). cbn [obind]. reflexivity.
  - exfalso. apply X. unfold Rminus. rewrite Rplus_opp_r, Rabs_R0. apply Rinv_0_lt_compat, pow_lt. lra.
Qed.

(** * Continuity and the limit *)

Lemma a_rate_cont p u (c : R -> C) (phi bd bf : R -> R) t : ccont c t -> continuity_pt phi t -> continuity_pt bd t -> continuity_pt bf t ->
  ccont (fun s => a_rate p u (c s) (phi s) (bd s) (bf s)) t.
Proof.
  intros Hc Hp Hd Hf. unfold a_rate, zeta_of. cbv zeta.
  assert (M : forall (k : R) f, continuity_pt f t -> continuity_pt (fun s => k * f s) t) by (intros k f H; apply (continuity_pt_mult (fun _ => k) f); [apply cpt_const|exact H]).
  pose proof (fun f g : R -> R => continuity_pt_mult f g t) as X.
  pose proof (M (hw_sigma (domestic (hm p))) bd Hd) as A. pose proof (M (hw_sigma (foreign (hm p))) bf Hf) as B.
  set (ad := fun s => hw_sigma (domestic (hm p)) * bd s) in *. set (af := fun s => hw_sigma (foreign (hm p)) * bf s) in *.
  repeat apply ccont_plus.
  - apply (ccont_mult (fun _ => _) c); [apply ccont_const|exact Hc].
  - apply (ccont_mult (fun s => RtoC (rho_sigma_d (hm_corr p) * gamma (heston (hm p)) * ad s * phi s)) (fun s => c s * (1 - I_ * u))%C).
    + apply (ccont_real (fun s => rho_sigma_d (hm_corr p) * gamma (heston (hm p)) * ad s * phi s)). apply (X (fun s => rho_sigma_d (hm_corr p) * gamma (heston (hm p)) * ad s) phi); [apply M, A|exact Hp].
    + apply (ccont_mult c (fun _ => _)); [exact Hc|apply ccont_const].
  - apply (ccont_mult (fun s => RtoC (rho_sigma_f (hm_corr p) * gamma (heston (hm p)) * af s * phi s)) (fun s => c s * (I_ * u))%C).
    + apply (ccont_real (fun s => rho_sigma_f (hm_corr p) * gamma (heston (hm p)) * af s * phi s)). apply (X (fun s => rho_sigma_f (hm_corr p) * gamma (heston (hm p)) * af s) phi); [apply M, B|exact Hp].
    + apply (ccont_mult c (fun _ => _)); [exact Hc|apply ccont_const].
  - apply (ccont_mult (fun _ => _) (fun s => RtoC (rho_xi_d (hm_corr p) * ad s * phi s - rho_xi_f (hm_corr p) * af s * phi s + rho_d_f (hm_corr p) * ad s * af s - (ad s * ad s + af s * af s) / 2))); [apply ccont_const|].
    apply ccont_real.
    apply (continuity_pt_minus (fun s => rho_xi_d (hm_corr p) * ad s * phi s - rho_xi_f (hm_corr p) * af s * phi s + rho_d_f (hm_corr p) * ad s * af s) (fun s => (ad s * ad s + af s * af s) / 2)).
    + apply (continuity_pt_plus (fun s => rho_xi_d (hm_corr p) * ad s * phi s - rho_xi_f (hm_corr p) * af s * phi s) (fun s => rho_d_f (hm_corr p) * ad s * af s)).
      * apply (continuity_pt_minus (fun s => rho_xi_d (hm_corr p) * ad s * phi s) (fun s => rho_xi_f (hm_corr p) * af s * phi s)).
        -- apply (X (fun s => rho_xi_d (hm_corr p) * ad s) phi); [apply M, A|exact Hp].
        -- apply (X (fun s => rho_xi_f (hm_corr p) * af s) phi); [apply M, B|exact Hp].
      * apply (X (fun s => rho_d_f (hm_corr p) * ad s) af); [apply M, A|exact B].
    + apply (X (fun s => ad s * ad s + af s * af s) (fun _ => / 2)); [|apply cpt_const].
      apply (continuity_pt_plus (fun s => ad s * ad s) (fun s => af s * af s)); apply X; assumption.
Qed.

Lemma csimpson_limit f T : 0 < T -> (forall s, 0 <= s <= T -> ccont f s) -> forall eps, 0 < eps ->
  exists N, forall m, (N <= m)%nat -> (1 <= m)%nat ->
  Rabs (fst (csimpson T (2 * m) f) - fst (cint f 0 T)) < eps /\ Rabs (snd (csimpson T (2 * m) f) - snd (cint f 0 T)) < eps.
Proof.
  intros HT Hc eps He.
  destruct (simpson_limit (fun s => fst (f s)) T HT (fun x Hx => proj1 (Hc x Hx)) eps He) as [N1 H1].
  destruct (simpson_limit (fun s => snd (f s)) T HT (fun x Hx => proj2 (Hc x Hx)) eps He) as [N2 H2].
  exists (max N1 N2). intros m Hm Hm1. split; [apply H1; lia|apply H2; lia].
Qed.
