(** The closed form of one segment: the Riccati equation, the integral, and the signs it keeps. *)
From Coq Require Import Bool List Arith Reals Psatz.
Import ListNotations.
From Coquelicot Require Import Coquelicot.
From Verif Require Import Outcome Complexes CLog Hhw1Chf HestonFacts Hhw1Facts SegChf.
Open Scope R_scope.
Global Set Bullet Behavior "Strict Subproofs".

(** a function with a non-positive derivative from [a] on does not grow *)
Lemma decreasing_from (f f' : R -> R) a b : a <= b -> (forall s, a <= s <= b -> is_derive f s (f' s)) -> (forall s, a <= s <= b -> f' s <= 0) -> f b <= f a.
Proof.
  intros Hab D N. destruct Hab as [Hab| ->]; [|right; reflexivity].
  destruct (MVT_gen f a b f') as [c [Hc E]].
  - intros s Hs. rewrite Rmin_left, Rmax_right in Hs by lra. apply D. lra.
  - intros s Hs. rewrite Rmin_left, Rmax_right in Hs by lra. apply continuity_pt_filterlim, (ex_derive_continuous f). exists (f' s). apply D. lra.
  - rewrite Rmin_left, Rmax_right in Hc by lra. pose proof (N c Hc). nra.
Qed.
(** a non-positive solution of a linear inequality stays non-positive *)
Lemma stays_nonpos (f H f' h : R -> R) b : 0 <= b -> (forall s, 0 <= s <= b -> is_derive f s (f' s)) -> (forall s, 0 <= s <= b -> is_derive H s (h s)) ->
  (forall s, 0 <= s <= b -> f' s + h s * f s <= 0) -> f 0 <= 0 -> f b <= 0.
Proof.
  intros Hb Df DH L F0.
  assert (G : f b * exp (H b) <= f 0 * exp (H 0)).
  { apply (decreasing_from (fun s => f s * exp (H s)) (fun s => f' s * exp (H s) + f s * (h s * exp (H s))) 0 b Hb).
    - intros s Hs. apply (derive_mult f (fun s => exp (H s))); [apply Df, Hs|]. apply (is_derive_comp exp H); [apply is_derive_exp|apply DH, Hs].
    - intros s Hs. pose proof (L s Hs). pose proof (exp_pos (H s)). nra. }
  pose proof (exp_pos (H b)). pose proof (exp_pos (H 0)). nra.
Qed.

Lemma hb_code (u : C) : hb u = (- (u * u + I_ * u))%C.
Proof. unfold hb. destruct u as [a b]. apply C_eq; unfold I_, Cminus, Cplus, Cmult, Copp; cbn; ring. Qed.

Lemma fst_scal (c : R) (z : C) : fst (RtoC c * z)%C = c * fst z.
Proof. destruct z. cbn. ring. Qed.
Lemma snd_scal (c : R) (z : C) : snd (RtoC c * z)%C = c * snd z.
Proof. destruct z. cbn. ring. Qed.

Section Closed.
  Context (u lambda eta a : R) (d0 : C).
  Definition rdelta : C := csqrt (RtoC (lambda * lambda) + RtoC (eta * eta * a) * (RtoC u * RtoC u + I_ * RtoC u))%C.
  Definition rnum : C := (RtoC lambda - rdelta - RtoC (eta * eta) * d0)%C.
  Definition rden : C := (RtoC lambda + rdelta - RtoC (eta * eta) * d0)%C.
  Definition rell : C := (rnum / rden)%C.
  Definition re (s : R) : C := (1 - rell * cexp (- rdelta * RtoC s))%C.
  (** the solution, and [eta^2] times its integral *)
  Definition rsol (s : R) : C := (d0 + rnum * (1 - cexp (- rdelta * RtoC s)) / (RtoC (eta * eta) * re s))%C.
  Definition rlog (s : R) : C := ((RtoC lambda - rdelta) * RtoC s - RtoC 2 * cln (re s / (1 - rell)))%C.

  Lemma advance_closed v0 s : 0 < s -> advance_d (RtoC u) lambda eta a v0 d0 s = (rsol s, (RtoC (v0 * lambda / (eta * eta)) * rlog s)%C).
  Proof. intros H. unfold advance_d. destruct (Rle_dec s 0); [exfalso; lra|]. reflexivity. Qed.

  Context (Hl : 0 < lambda) (He : eta <> 0) (Ha : 0 <= a) (Hre : fst d0 <= 0) (Him : u * snd d0 <= 0).

  Lemma eta_sq : 0 < eta * eta.
  Proof. nra. Qed.
  Lemma eta_neq : RtoC (eta * eta) <> 0%C.
  Proof. intros E. apply (f_equal fst) in E. cbn in E. pose proof eta_sq. lra. Qed.
  Lemma delta_sqr : (rdelta * rdelta)%C = (RtoC (lambda * lambda) - RtoC (eta * eta) * (RtoC a * hb (RtoC u)))%C.
  Proof. unfold rdelta. rewrite csqrt_sqr, hb_code. replace (RtoC (eta * eta * a)) with (RtoC (eta * eta) * RtoC a)%C by (apply C_eq; cbn; ring). ring. Qed.
  Lemma delta_parts : 0 < fst rdelta /\ 0 <= u * snd rdelta /\ (u = 0 -> snd rdelta = 0).
  Proof.
    pose proof delta_sqr as Q. rewrite hb_real in Q. pose proof (csqrt_re (RtoC (lambda * lambda) + RtoC (eta * eta * a) * (RtoC u * RtoC u + I_ * RtoC u))%C) as P. fold rdelta in P.
    pose proof (f_equal fst Q) as Q1. pose proof (f_equal snd Q) as Q2. clear Q. generalize dependent rdelta. intros [dr di] P Q1 Q2.
    unfold Cminus, Cplus, Cmult, Copp, RtoC in Q1, Q2. cbn [fst snd] in *. pose proof eta_sq as E.
    assert (S1 : dr * dr - di * di = lambda * lambda + eta * eta * (a * (u * u))) by lra.
    assert (S2 : 2 * (dr * di) = eta * eta * (a * u)) by lra.
    assert (N1 : 0 <= eta * eta * (a * (u * u))) by (apply Rmult_le_pos; [lra|apply Rmult_le_pos; [exact Ha|nra]]).
    assert (Dr : 0 < dr) by (destruct P as [P|P]; [exact P|rewrite <- P in S1; nra]). split; [exact Dr|]. split.
    - assert (2 * dr * (u * di) = eta * eta * (a * (u * u))) by (transitivity (u * (2 * (dr * di))); [ring|rewrite S2; ring]). nra.
    - intros ->. nra.
  Qed.
  Lemma delta_neq : rdelta <> 0%C.
  Proof. intros E. pose proof (proj1 delta_parts) as P. rewrite E in P. cbn in P. lra. Qed.

  (** the ratio is inside the unit circle *)
  Lemma num_den : Cmod rnum < Cmod rden.
  Proof.
    unfold rnum, rden. destruct delta_parts as (P1 & P2 & P3). pose proof eta_sq as E. generalize dependent rdelta. intros [dr di] P1 P2 P3. destruct d0 as [c1 c2]. unfold Cmod. apply sqrt_lt_1_alt.
    unfold Cminus, Cplus, Cmult, Copp, RtoC. cbn [fst snd] in *.
    assert (X : 0 <= - c2 * di). { destruct (Req_dec u 0) as [Z|Z]; [rewrite (P3 Z); lra|]. assert (0 <= (u * u) * (- c2 * di)) by (replace ((u * u) * (- c2 * di)) with (- (u * c2) * (u * di)) by ring; nra). apply (Rmult_le_reg_l (u * u)); [nra|]. lra. }
    assert (Y : 0 < (lambda - eta * eta * c1) * dr) by (apply Rmult_lt_0_compat; nra).
    assert (Z : 0 <= eta * eta * (- c2 * di)) by (apply Rmult_le_pos; lra).
    split; [apply Rplus_le_le_0_compat; apply pow2_ge_0|]. ring_simplify. nra.
  Qed.
  Lemma den_neq : rden <> 0%C.
  Proof. intros E. pose proof num_den as P. rewrite E, Cmod_0 in P. pose proof (Cmod_ge_0 rnum). lra. Qed.
  Lemma ell_small : Cmod rell < 1.
  Proof.
    unfold rell. rewrite Cmod_div by exact den_neq. pose proof num_den. assert (0 < Cmod rden) by (apply Cmod_gt_0, den_neq).
    apply (Rmult_lt_reg_r (Cmod rden)); [assumption|]. unfold Rdiv. rewrite Rmult_assoc, Rinv_l by lra. lra.
  Qed.
  Lemma re_pos s : 0 <= s -> 0 < fst (re s).
  Proof.
    intros H. unfold re. set (z := (rell * cexp (- rdelta * RtoC s))%C).
    assert (M : Cmod z < 1).
    { unfold z. rewrite Cmod_mult, cexp_mod. pose proof ell_small. pose proof (Cmod_ge_0 rell). destruct delta_parts as (P1 & _).
      assert (exp (fst (- rdelta * RtoC s)%C) <= 1).
      { rewrite <- exp_0. replace (fst (- rdelta * RtoC s)%C) with (- (fst rdelta * s)) by (cbn; ring). destruct (Req_dec (fst rdelta * s) 0) as [Z|Z]; [rewrite Z, Ropp_0; lra|left; apply exp_increasing; nra]. }
      pose proof (exp_pos (fst (- rdelta * RtoC s)%C)). nra. }
    pose proof (fst_le_mod z). replace (fst (1 - z)%C) with (1 - fst z) by (cbn; ring). assert (fst z <= Rabs (fst z)) by apply Rle_abs. lra.
  Qed.
  Lemma re_neq s : 0 <= s -> re s <> 0%C.
  Proof. intros H E. pose proof (re_pos s H) as P. rewrite E in P. cbn in P. lra. Qed.
  Lemma re_0 : re 0 = (1 - rell)%C.
  Proof. unfold re. replace (- rdelta * RtoC 0)%C with (RtoC 0) by ring. rewrite cexp_0. ring. Qed.
  Lemma rsol_0 : rsol 0 = d0.
  Proof. unfold rsol. replace (- rdelta * RtoC 0)%C with (RtoC 0) by ring. rewrite cexp_0. unfold Cdiv. ring. Qed.
  Lemma rlog_0 : rlog 0 = 0%C.
  Proof.
    unfold rlog. rewrite <- re_0. replace (re 0 / re 0)%C with (RtoC 1) by (field; apply re_neq; lra). rewrite cln_1. ring.
  Qed.

  Lemma re_derive s : cderive re s (rell * rdelta * cexp (- rdelta * RtoC s))%C.
  Proof.
    unfold re. eapply cderive_eq; [apply cderive_minus; [apply cderive_const|apply cderive_scal, cderive_expl]|]. ring.
  Qed.
  Lemma num_ell : rnum = (rell * rden)%C.
  Proof. unfold rell. field. exact den_neq. Qed.
  Lemma two_delta : (rden - rnum)%C = ((1 + 1) * rdelta)%C.
  Proof. unfold rden, rnum. ring. Qed.
  Lemma rsol_form s : 0 <= s -> (RtoC (eta * eta) * rsol s)%C = (RtoC lambda - rdelta - (1 + 1) * rdelta * rell * cexp (- rdelta * RtoC s) / re s)%C.
  Proof.
    intros H. pose proof (re_neq s H) as N. pose proof eta_neq as NE. pose proof den_neq as ND.
    unfold rsol. set (e := cexp (- rdelta * RtoC s)%C). assert (Re : re s = (1 - rell * e)%C) by reflexivity.
    apply (C_mult_eq_reg _ _ (re s) N).
    transitivity (re s * (RtoC (eta * eta) * d0) + rnum * (1 - e))%C; [field; split; assumption|].
    transitivity (re s * (RtoC lambda - rdelta) - (1 + 1) * rdelta * rell * e)%C; [|field; assumption].
    replace (RtoC (eta * eta) * d0)%C with (RtoC lambda - rdelta - rnum)%C by (unfold rnum; ring).
    transitivity (re s * (RtoC lambda - rdelta) + (rnum * (1 - e) - re s * rnum))%C; [ring|]. rewrite Re.
    transitivity ((1 - rell * e) * (RtoC lambda - rdelta) - rell * e * (rden - rnum))%C; [|rewrite two_delta; ring].
    rewrite num_ell at 1 2. replace (rell * e * (rden - rnum))%C with (rell * e * rden - rell * e * rnum)%C by ring. rewrite num_ell at 1. ring.
  Qed.
  Lemma rsol_derive s : 0 <= s -> cderive rsol s (RtoC (1 / 2) * (RtoC a * hb (RtoC u)) - RtoC lambda * rsol s + RtoC (1 / 2) * RtoC (eta * eta) * (rsol s * rsol s))%C.
  Proof.
    intros H. pose proof (re_neq s H) as N. pose proof eta_neq as NE. pose proof den_neq as ND. pose proof two_neq_0 as N2.
    set (e := cexp (- rdelta * RtoC s)%C).
    assert (D : cderive rsol s (rnum / RtoC (eta * eta) * ((rdelta * e * re s - (1 - e) * (rell * rdelta * e)) / (re s * re s)))%C).
    { apply cderive_ext_loc with (fun t => (d0 + rnum / RtoC (eta * eta) * ((1 - cexp (- rdelta * RtoC t)) / re t))%C).
      - exists (mkposreal 1 Rlt_0_1). intros t _. unfold rsol, Cdiv. destruct (Ceq_dec (re t) 0%C) as [Z|Z].
        + rewrite Z. replace (RtoC (eta * eta) * 0)%C with (RtoC 0) by ring. assert (I0 : (/ RtoC 0)%C = RtoC 0) by (apply C_eq; unfold Cinv, RtoC; cbn; unfold Rdiv; ring). rewrite I0. ring.
        + field. split; assumption.
      - eapply cderive_eq; [apply cderive_plus; [apply cderive_const|apply cderive_scal, cderive_div; [apply cderive_minus; [apply cderive_const|apply cderive_expl]|apply re_derive|exact N]]|].
        cbv beta. fold e. field. split; assumption. }
    eapply cderive_eq; [exact D|].
    apply (C_mult_eq_reg _ _ (RtoC (eta * eta))%C NE).
    transitivity ((1 + 1) * (rdelta * rdelta) * (rell * e) / (re s * re s))%C.
    - assert (Re : re s = (1 - rell * e)%C) by reflexivity.
      transitivity (rnum * (1 - rell) * (rdelta * e) / (re s * re s))%C.
      + transitivity (rnum * (rdelta * e * re s - (1 - e) * (rell * rdelta * e)) / (re s * re s))%C; [field; split; assumption|]. f_equal. rewrite Re. ring.
      + f_equal. transitivity (rnum * rdelta * e - rnum * rell * rdelta * e)%C; [ring|].
        transitivity (rell * rdelta * e * (rden - rnum))%C; [|rewrite two_delta; ring]. rewrite num_ell at 1. ring.
    - rewrite half_eq.
      transitivity (/ (1 + 1) * ((RtoC (eta * eta) * rsol s - RtoC lambda) * (RtoC (eta * eta) * rsol s - RtoC lambda) - rdelta * rdelta))%C.
      + rewrite rsol_form by exact H. fold e. assert (Re : re s = (1 - rell * e)%C) by reflexivity.
        transitivity (/ (1 + 1) * ((1 + 1) * (1 + 1) * (rdelta * rdelta) * (rell * e) * (re s + rell * e) / (re s * re s)))%C; [|field; split; assumption].
        replace (re s + rell * e)%C with (RtoC 1) by (rewrite Re; ring). field. split; assumption.
      + rewrite delta_sqr. replace (RtoC (lambda * lambda)) with (RtoC lambda * RtoC lambda)%C by (apply C_eq; cbn; ring). field. exact N2.
  Qed.
  Lemma rlog_derive s : 0 <= s -> cderive rlog s (RtoC (eta * eta) * rsol s)%C.
  Proof.
    intros H. pose proof (re_neq s H) as N. rewrite rsol_form by exact H.
    assert (N0 : (1 - rell)%C <> 0%C) by (rewrite <- re_0; apply re_neq; lra).
    apply cderive_ext_loc with (fun t => ((RtoC lambda - rdelta) * RtoC t - RtoC 2 * (cln (re t) - cln (1 - rell)))%C).
    - pose proof (re_derive s) as [Dr _].
      assert (Cn : continuous (fun t => fst (re t)) s) by (apply (ex_derive_continuous (fun t => fst (re t))); eexists; exact Dr).
      pose proof (Cn (fun y => 0 < y) (open_gt 0 _ (re_pos s H))) as L. unfold filtermap in L. revert L. apply filter_imp. intros t Ht.
      unfold rlog. rewrite cln_div; [reflexivity|exact Ht|]. rewrite <- re_0. apply re_pos. lra.
    - eapply cderive_eq.
      + apply cderive_minus; [apply cderive_scal, cderive_id|]. apply cderive_scal, cderive_minus; [apply cderive_ln; [apply re_derive|apply re_pos, H]|apply cderive_const].
      + assert (E2 : RtoC 2 = (1 + 1)%C) by (apply C_eq; cbn; ring). rewrite E2. field. exact N.
  Qed.

  Lemma rsol_parts s : let z := (RtoC (1 / 2) * (RtoC a * hb (RtoC u)) - RtoC lambda * rsol s + RtoC (1 / 2) * RtoC (eta * eta) * (rsol s * rsol s))%C in
    fst z = - (1 / 2) * a * (u * u) - lambda * fst (rsol s) + 1 / 2 * (eta * eta) * (fst (rsol s) * fst (rsol s) - snd (rsol s) * snd (rsol s)) /\
    snd z = - (1 / 2) * a * u - lambda * snd (rsol s) + eta * eta * (fst (rsol s) * snd (rsol s)).
  Proof. cbv zeta. rewrite hb_real. generalize (rsol s). intros [x y]. unfold Cminus, Cplus, Cmult, Copp, RtoC. cbn [fst snd]. split; field. Qed.
  (** both signs are kept *)
  Lemma rsol_re s : 0 <= s -> fst (rsol s) <= 0.
  Proof.
    intros H.
    apply (stays_nonpos (fun t => fst (rsol t)) (fun t => lambda * t - 1 / 2 * fst (rlog t)) (fun t => - (1 / 2) * a * (u * u) - lambda * fst (rsol t) + 1 / 2 * (eta * eta) * (fst (rsol t) * fst (rsol t) - snd (rsol t) * snd (rsol t))) (fun t => lambda - 1 / 2 * (eta * eta * fst (rsol t))) s H).
    - intros t Ht. rewrite <- (proj1 (rsol_parts t)). exact (proj1 (rsol_derive t (proj1 Ht))).
    - intros t Ht. pose proof (proj1 (rlog_derive t (proj1 Ht))) as D. rewrite fst_scal in D.
      apply (is_derive_minus (fun t => lambda * t) (fun t => 1 / 2 * fst (rlog t))); [auto_derive; [exact I|ring]|]. apply (is_derive_scal (fun t => fst (rlog t)) t (1 / 2)). exact D.
    - intros t Ht. cbv beta. pose proof eta_sq. assert (0 <= a * (u * u)) by (apply Rmult_le_pos; nra). assert (0 <= eta * eta * (snd (rsol t) * snd (rsol t))) by (apply Rmult_le_pos; nra). nra.
    - rewrite rsol_0. exact Hre.
  Qed.
  Lemma rsol_im s : 0 <= s -> u * snd (rsol s) <= 0.
  Proof.
    intros H.
    apply (stays_nonpos (fun t => u * snd (rsol t)) (fun t => lambda * t - fst (rlog t)) (fun t => u * (- (1 / 2) * a * u - lambda * snd (rsol t) + eta * eta * (fst (rsol t) * snd (rsol t)))) (fun t => lambda - eta * eta * fst (rsol t)) s H).
    - intros t Ht. apply (is_derive_scal (fun t => snd (rsol t)) t u). rewrite <- (proj2 (rsol_parts t)). exact (proj2 (rsol_derive t (proj1 Ht))).
    - intros t Ht. pose proof (proj1 (rlog_derive t (proj1 Ht))) as D. rewrite fst_scal in D.
      apply (is_derive_minus (fun t => lambda * t) (fun t => fst (rlog t))); [auto_derive; [exact I|ring]|exact D].
    - intros t Ht. cbv beta. assert (0 <= a * (u * u)) by (apply Rmult_le_pos; nra). nra.
    - rewrite rsol_0. exact Him.
  Qed.
  Lemma rlog_re s : 0 <= s -> fst (rlog s) <= 0.
  Proof.
    intros H. replace 0 with (fst (rlog 0)) by (rewrite rlog_0; reflexivity).
    apply (decreasing_from (fun t => fst (rlog t)) (fun t => eta * eta * fst (rsol t)) 0 s H).
    - intros t Ht. pose proof (proj1 (rlog_derive t (proj1 Ht))) as D. rewrite fst_scal in D. exact D.
    - intros t Ht. pose proof (rsol_re t (proj1 Ht)). pose proof eta_sq. nra.
  Qed.
End Closed.
