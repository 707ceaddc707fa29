(** Facts on the variance coefficient of the Heston characteristic function. *)
From Coq Require Import Bool List Arith Reals Psatz.
Import ListNotations.
From Coquelicot Require Import Coquelicot.
From Verif Require Import Outcome Complexes Hhw1Chf.
Open Scope R_scope.
Global Set Bullet Behavior "Strict Subproofs".

(** the pieces of the closed form *)
Definition hx (u : C) (kappa gamma rho : R) : C := (RtoC kappa - RtoC gamma * RtoC rho * (I_ * u))%C.
Definition hb (u : C) : C := (I_ * u * (I_ * u) - I_ * u)%C.
Definition hd (u : C) (kappa gamma rho : R) : C :=
  csqrt (hx u kappa gamma rho * hx u kappa gamma rho - RtoC gamma * RtoC gamma * (I_ * u) * (I_ * u - 1))%C.
Definition hden (u : C) (kappa gamma rho tau : R) : C :=
  (hx u kappa gamma rho + hd u kappa gamma rho - (hx u kappa gamma rho - hd u kappa gamma rho) * cexp (- hd u kappa gamma rho * RtoC tau))%C.

Lemma heston_c_pos u kappa gamma rho tau : 0 < tau ->
  heston_c u kappa gamma rho tau = (hb u * (1 - cexp (- hd u kappa gamma rho * RtoC tau)) / hden u kappa gamma rho tau)%C.
Proof. intros H. unfold heston_c. destruct (Rle_dec tau 0); [exfalso; lra|]. reflexivity. Qed.
Lemma heston_c_neg u kappa gamma rho tau : tau <= 0 -> heston_c u kappa gamma rho tau = 0%C.
Proof. intros H. unfold heston_c. destruct (Rle_dec tau 0); [reflexivity|exfalso; lra]. Qed.

Lemma hd_sqr u kappa gamma rho :
  (hd u kappa gamma rho * hd u kappa gamma rho)%C = (hx u kappa gamma rho * hx u kappa gamma rho - RtoC gamma * RtoC gamma * hb u)%C.
Proof. unfold hd. rewrite csqrt_sqr. unfold hb. ring. Qed.

(** the closed form as a function of the time alone, wherever its denominator is not zero *)
Definition hclosed (u : C) (kappa gamma rho tau : R) : C :=
  (hb u * (1 - cexp (- hd u kappa gamma rho * RtoC tau)) / hden u kappa gamma rho tau)%C.

Lemma C_mult_eq_reg (a b c : C) : c <> 0%C -> (c * a)%C = (c * b)%C -> a = b.
Proof.
  intros Hc H. replace a with (/ c * (c * a))%C by (field; exact Hc). rewrite H. field. exact Hc.
Qed.

Lemma riccati_algebra (b x d e D g : C) : D = (x + d - (x - d) * e)%C -> (d * d)%C = (x * x - g * b)%C -> D <> 0%C ->
  ((b * (0 - - d * e) * D - b * (1 - e) * (0 - (x - d) * (- d * e))) / (D * D))%C
  = (RtoC (1 / 2) * b - x * (b * (1 - e) / D) + RtoC (1 / 2) * g * (b * (1 - e) / D * (b * (1 - e) / D)))%C.
Proof.
  intros HD Hd Hn.
  assert (H2 : RtoC (1 / 2) = (/ (1 + 1))%C) by (apply C_eq; unfold Cinv, RtoC; cbn; field).
  assert (N2 : (1 + 1)%C <> 0%C) by (intro E; apply (f_equal fst) in E; cbn in E; lra).
  rewrite H2.
  apply (C_mult_eq_reg _ _ ((1 + 1) * (D * D))%C).
  { apply Cmult_neq_0; [exact N2|]. apply Cmult_neq_0; exact Hn. }
  transitivity ((1 + 1) * (b * (0 - - d * e) * D - b * (1 - e) * (0 - (x - d) * (- d * e))))%C; [field; exact Hn|].
  transitivity (b * D * D - (1 + 1) * x * (b * (1 - e)) * D + (g * b) * b * (1 - e) * (1 - e))%C; [|field; split; assumption].
  replace (g * b)%C with (x * x - d * d)%C by (rewrite Hd; ring).
  rewrite HD. ring.
Qed.

Lemma hclosed_derive u kappa gamma rho tau : hden u kappa gamma rho tau <> 0%C ->
  cderive (hclosed u kappa gamma rho) tau
    (RtoC (1 / 2) * hb u - hx u kappa gamma rho * hclosed u kappa gamma rho tau
     + RtoC (1 / 2) * (RtoC gamma * RtoC gamma) * (hclosed u kappa gamma rho tau * hclosed u kappa gamma rho tau))%C.
Proof.
  intros Hn. unfold hclosed.
  set (x := hx u kappa gamma rho). set (d := hd u kappa gamma rho). set (b := hb u).
  eapply cderive_eq.
  - apply cderive_div; [| |exact Hn].
    + apply cderive_scal, cderive_minus; [apply cderive_const|apply cderive_expl].
    + unfold hden. apply cderive_minus; [apply cderive_const|]. apply cderive_scal, cderive_expl.
  - cbv beta. fold x d.
    apply (riccati_algebra b x d (cexp (- d * RtoC tau)%C) (hden u kappa gamma rho tau) (RtoC gamma * RtoC gamma)%C).
    + reflexivity.
    + apply hd_sqr.
    + exact Hn.
Qed.

Lemma heston_c_derive u kappa gamma rho tau : 0 < tau -> hden u kappa gamma rho tau <> 0%C ->
  cderive (heston_c u kappa gamma rho) tau
    (RtoC (1 / 2) * hb u - hx u kappa gamma rho * heston_c u kappa gamma rho tau
     + RtoC (1 / 2) * (RtoC gamma * RtoC gamma) * (heston_c u kappa gamma rho tau * heston_c u kappa gamma rho tau))%C.
Proof.
  intros Ht Hn. rewrite !heston_c_pos by exact Ht.
  apply cderive_ext_loc with (hclosed u kappa gamma rho).
  - exists (mkposreal tau Ht). intros s Hs. unfold hclosed. rewrite heston_c_pos; [reflexivity|].
    apply Rabs_def2 in Hs. unfold minus, plus, opp in Hs. cbn in Hs. lra.
  - apply (hclosed_derive u kappa gamma rho tau Hn).
Qed.

(** * The denominator never vanishes at real frequencies *)

Lemma cross_algebra (u kappa gamma rho : R) (P Q : C) :
  let x : C := (kappa, - (gamma * rho * u)) in let b : C := (- (u * u), - u) in
  - (1 / 2) * (u * u) * (fst Q * fst Q + snd Q * snd Q) - 1 / 2 * (gamma * gamma) * (fst P * fst P + snd P * snd P)
    - gamma * rho * u * (snd P * fst Q - fst P * snd Q)
  = (fst (RtoC (1 / 2) * b * Q - RtoC (1 / 2) * x * P)%C * fst Q + fst P * fst (RtoC (1 / 2) * x * Q - RtoC (1 / 2) * (RtoC gamma * RtoC gamma) * P)%C)
    + (snd (RtoC (1 / 2) * b * Q - RtoC (1 / 2) * x * P)%C * snd Q + snd P * snd (RtoC (1 / 2) * x * Q - RtoC (1 / 2) * (RtoC gamma * RtoC gamma) * P)%C).
Proof. destruct P as [p1 p2], Q as [q1 q2]. unfold Cminus, Cplus, Cmult, Copp, RtoC. cbn [fst snd]. field. Qed.

Section Real.
  Context (u kappa gamma rho : R) (Hk : 0 < kappa) (Hr : -1 <= rho <= 1).
  Let x := hx (RtoC u) kappa gamma rho.
  Let d := hd (RtoC u) kappa gamma rho.
  Let b := hb (RtoC u).

  Lemma hx_real : x = (kappa, - (gamma * rho * u)).
  Proof. apply C_eq; unfold x, hx, I_, Cminus, Cplus, Cmult, Copp, RtoC; cbn; ring. Qed.
  Lemma hb_real : b = (- (u * u), - u).
  Proof. apply C_eq; unfold b, hb, I_, Cminus, Cplus, Cmult, Copp, RtoC; cbn; ring. Qed.
  Lemma dsq_re_pos : 0 < fst (d * d)%C.
  Proof.
    unfold d. rewrite hd_sqr. fold x b. rewrite hx_real, hb_real. unfold Cminus, Cplus, Cmult, Copp, RtoC. cbn.
    assert (0 < kappa * kappa) by (apply Rmult_lt_0_compat; exact Hk).
    assert (0 <= (gamma * u) * (gamma * u)) by apply Rle_0_sqr.
    assert (0 <= 1 - rho * rho) by nra.
    assert (0 <= (gamma * u) * (gamma * u) * (1 - rho * rho)) by (apply Rmult_le_pos; assumption).
    nra.
  Qed.
  Lemma hd_re_pos : 0 < fst d.
  Proof.
    destruct (Rle_lt_or_eq_dec 0 (fst d) (csqrt_re _)) as [H|H]; [exact H|exfalso].
    pose proof dsq_re_pos as P. change (0 < fst d * fst d - snd d * snd d) in P. rewrite <- H in P. nra.
  Qed.
  Lemma hd_neq_0 : d <> 0%C.
  Proof. intro E. pose proof hd_re_pos as P. rewrite E in P. cbn in P. lra. Qed.

  Let half_d := (RtoC (1 / 2) * d)%C.
  Let Ep (t : R) : C := cexp (half_d * RtoC t)%C.
  Let Em (t : R) : C := cexp (- half_d * RtoC t)%C.
  Let Pf (t : R) : C := (b * / ((1 + 1) * d) * (Ep t - Em t))%C.
  Let Qf (t : R) : C := (/ ((1 + 1) * d) * ((x + d) * Ep t - (x - d) * Em t))%C.

  Lemma two_neq_0 : (1 + 1)%C <> 0%C.
  Proof. intro E; apply (f_equal fst) in E; cbn in E; lra. Qed.
  Lemma half_eq : RtoC (1 / 2) = (/ (1 + 1))%C.
  Proof. apply C_eq; unfold Cinv, RtoC; cbn; field. Qed.

  Lemma Pf_derive t : cderive Pf t (RtoC (1 / 2) * b * Qf t - RtoC (1 / 2) * x * Pf t)%C.
  Proof.
    eapply cderive_eq; [apply cderive_scal, cderive_minus; apply cderive_expl|].
    cbv beta. unfold Pf, Qf. fold (Ep t) (Em t). unfold half_d. rewrite half_eq. pose proof hd_neq_0. pose proof two_neq_0.
    field. split; assumption.
  Qed.
  Lemma Qf_derive t : cderive Qf t (RtoC (1 / 2) * x * Qf t - RtoC (1 / 2) * (RtoC gamma * RtoC gamma) * Pf t)%C.
  Proof.
    eapply cderive_eq; [apply cderive_scal, cderive_minus; apply cderive_scal; apply cderive_expl|].
    cbv beta. unfold Pf, Qf. fold (Ep t) (Em t). unfold half_d. rewrite half_eq. pose proof hd_neq_0 as N. pose proof two_neq_0 as N2.
    transitivity (/ ((1 + 1) * d) * / (1 + 1) * (d * (x + d) * Ep t + d * (x - d) * Em t))%C; [field; split; assumption|].
    transitivity (/ ((1 + 1) * d) * / (1 + 1) * (x * ((x + d) * Ep t - (x - d) * Em t) - (RtoC gamma * RtoC gamma * b) * (Ep t - Em t)))%C; [|field; split; assumption].
    f_equal. replace (RtoC gamma * RtoC gamma * b)%C with (x * x - d * d)%C by (unfold d at 1 2; rewrite hd_sqr; fold x b; ring). ring.
  Qed.
  Lemma Pf_0 : Pf 0 = 0%C.
  Proof.
    unfold Pf, Ep, Em. replace (half_d * RtoC 0)%C with (RtoC 0) by ring. replace (- half_d * RtoC 0)%C with (RtoC 0) by ring. ring.
  Qed.
  Lemma Qf_0 : Qf 0 = 1%C.
  Proof.
    unfold Qf, Ep, Em. replace (half_d * RtoC 0)%C with (RtoC 0) by ring. replace (- half_d * RtoC 0)%C with (RtoC 0) by ring.
    rewrite cexp_0. pose proof hd_neq_0. pose proof two_neq_0. field. split; assumption.
  Qed.

  Let W (t : R) : R := fst (Pf t) * fst (Qf t) + snd (Pf t) * snd (Qf t).
  Let W' (t : R) : R :=
    let P := Pf t in let Q := Qf t in
    - (1 / 2) * (u * u) * (fst Q * fst Q + snd Q * snd Q) - 1 / 2 * (gamma * gamma) * (fst P * fst P + snd P * snd P)
    - gamma * rho * u * (snd P * fst Q - fst P * snd Q).

  Lemma W_derive t : is_derive W t (W' t).
  Proof.
    destruct (Pf_derive t) as [P1 P2], (Qf_derive t) as [Q1 Q2].
    apply (is_derive_ext (fun s => plus (fst (Pf s) * fst (Qf s)) (snd (Pf s) * snd (Qf s)))); [reflexivity|].
    assert (E : W' t = plus
       (fst (RtoC (1 / 2) * b * Qf t - RtoC (1 / 2) * x * Pf t)%C * fst (Qf t) + fst (Pf t) * fst (RtoC (1 / 2) * x * Qf t - RtoC (1 / 2) * (RtoC gamma * RtoC gamma) * Pf t)%C)
       (snd (RtoC (1 / 2) * b * Qf t - RtoC (1 / 2) * x * Pf t)%C * snd (Qf t) + snd (Pf t) * snd (RtoC (1 / 2) * x * Qf t - RtoC (1 / 2) * (RtoC gamma * RtoC gamma) * Pf t)%C)).
    { unfold W'. rewrite hx_real, hb_real. exact (cross_algebra u kappa gamma rho (Pf t) (Qf t)). }
    rewrite E. apply @is_derive_plus; apply derive_mult; assumption.
  Qed.
  Lemma W'_le t : W' t <= 0.
  Proof.
    unfold W'. generalize (fst (Pf t)) (snd (Pf t)) (fst (Qf t)) (snd (Qf t)). intros p1 p2 q1 q2. cbv zeta.
    (* |a|^2 + |b|^2 >= 2 |rho| |<a, b>| with a = u Q, b = gamma P turned *)
    assert (H : forall a1 a2 c1 c2 r : R, -1 <= r <= 1 -> - (2 * r * (a1 * c1 + a2 * c2)) <= a1 * a1 + a2 * a2 + (c1 * c1 + c2 * c2)).
    { intros a1 a2 c1 c2 r Hr'. assert (0 <= (a1 + r * c1) * (a1 + r * c1)) by apply Rle_0_sqr. assert (0 <= (a2 + r * c2) * (a2 + r * c2)) by apply Rle_0_sqr.
      assert (0 <= (1 - r * r)) by nra. assert (0 <= (1 - r * r) * (c1 * c1 + c2 * c2)) by (apply Rmult_le_pos; [assumption|]; nra). nra. }
    pose proof (H (u * q1) (u * q2) (gamma * p2) (- (gamma * p1)) rho Hr). nra.
  Qed.

  Lemma W_neg t : u <> 0 -> 0 < t -> W t < 0.
  Proof.
    intros Hu Ht.
    assert (W0 : W 0 = 0). { unfold W. rewrite Pf_0. cbn. ring. }
    assert (D0 : W' 0 = - (1 / 2) * (u * u)). { unfold W'. rewrite Pf_0, Qf_0. cbn. ring. }
    assert (Hneg : W' 0 < 0) by (rewrite D0; nra).
    pose proof (proj1 (is_derive_Reals _ _ _) (W_derive 0)) as L.
    destruct (L (- W' 0) ltac:(lra)) as [delta Hd].
    pose proof (cond_pos delta) as Pd.
    set (h := Rmin (t / 2) (delta / 2)).
    assert (Hh : 0 < h /\ h < t /\ h < delta).
    { unfold h. pose proof (Rmin_l (t / 2) (delta / 2)). pose proof (Rmin_r (t / 2) (delta / 2)). split; [|lra]. apply Rmin_glb_lt; lra. }
    destruct Hh as (h0 & h1 & h2).
    pose proof (Hd h ltac:(lra) ltac:(rewrite Rabs_pos_eq; lra)) as B. rewrite Rplus_0_l, W0 in B.
    apply Rabs_def2 in B. destruct B as [B _].
    assert (Wh : W h < 0).
    { assert (Q : (W h - 0) / h < 0) by lra. assert (W h = (W h - 0) / h * h) by (field; lra). nra. }
    destruct (MVT_gen W h t W') as [c [_ Hc]].
    - intros s _. apply W_derive.
    - intros s _. apply continuity_pt_filterlim. apply (ex_derive_continuous W). exists (W' s). apply W_derive.
    - pose proof (W'_le c). nra.
  Qed.

  Lemma Qf_neq_0 t : 0 <= t -> Qf t <> 0%C.
  Proof.
    intros Ht E. destruct (Req_dec u 0) as [Hu|Hu].
    - (* b = 0: Q is an exponential *)
      assert (Eb : b = 0%C) by (rewrite hb_real, Hu; apply C_eq; cbn; ring).
      assert (Exd : x = d).
      { assert (Ex : x = RtoC kappa) by (rewrite hx_real, Hu; apply C_eq; cbn; ring).
        unfold d, hd. rewrite Hu. replace (RtoC gamma * RtoC gamma * (I_ * RtoC 0) * (I_ * RtoC 0 - 1))%C with (RtoC 0) by ring.
        rewrite <- Hu. fold x. rewrite Ex. replace (RtoC kappa * RtoC kappa - RtoC u)%C with (RtoC (kappa * kappa)) by (rewrite Hu; apply C_eq; cbn; ring).
        rewrite csqrt_real by nra. rewrite sqrt_square by lra. reflexivity. }
      unfold Qf in E. rewrite Exd in E. pose proof hd_neq_0 as N. pose proof two_neq_0 as N2.
      apply (cexp_neq_0 (half_d * RtoC t)%C). fold (Ep t). rewrite <- E. field. split; assumption.
    - destruct Ht as [Ht| <-].
      + pose proof (W_neg t Hu Ht) as P. unfold W in P. rewrite E in P. cbn in P. lra.
      + rewrite Qf_0 in E. apply (f_equal fst) in E. cbn in E. lra.
  Qed.

  Lemma Em_Ep t : (Ep t * cexp (- d * RtoC t))%C = Em t.
  Proof.
    unfold Ep, Em. rewrite <- cexp_plus. f_equal. unfold half_d. rewrite half_eq. pose proof two_neq_0. field. assumption.
  Qed.
  Lemma hden_Qf t : (Ep t * hden (RtoC u) kappa gamma rho t)%C = ((1 + 1) * d * Qf t)%C.
  Proof.
    unfold hden. fold x d. transitivity ((x + d) * Ep t - (x - d) * (Ep t * cexp (- d * RtoC t)))%C; [ring|]. rewrite Em_Ep.
    unfold Qf. pose proof hd_neq_0 as N. pose proof two_neq_0 as N2. field. split; assumption.
  Qed.
  Lemma hden_neq_0 t : 0 <= t -> hden (RtoC u) kappa gamma rho t <> 0%C.
  Proof.
    intros Ht E. pose proof (hden_Qf t) as H. rewrite E, Cmult_0_r in H.
    assert (K : ((1 + 1) * d * Qf t)%C <> 0%C). { apply Cmult_neq_0; [apply Cmult_neq_0; [exact two_neq_0|exact hd_neq_0]|apply Qf_neq_0; exact Ht]. }
    apply K. symmetry. exact H.
  Qed.
  Lemma hclosed_PQ t : 0 <= t -> hclosed (RtoC u) kappa gamma rho t = (Pf t / Qf t)%C.
  Proof.
    intros Ht. unfold hclosed. fold x d b. pose proof hd_neq_0 as N. pose proof two_neq_0 as N2. pose proof (Qf_neq_0 t Ht) as NQ.
    pose proof (hden_neq_0 t Ht) as ND. pose proof (cexp_neq_0 (half_d * RtoC t)%C) as NE. fold (Ep t) in NE.
    assert (HD : hden (RtoC u) kappa gamma rho t = (/ Ep t * ((1 + 1) * d * Qf t))%C) by (rewrite <- hden_Qf; field; exact NE).
    assert (HE : cexp (- d * RtoC t)%C = (/ Ep t * Em t)%C) by (rewrite <- Em_Ep; field; exact NE).
    rewrite HD, HE. unfold Pf. field. repeat split; assumption.
  Qed.
  Lemma hclosed_re t : 0 <= t -> fst (hclosed (RtoC u) kappa gamma rho t) * (fst (Qf t) * fst (Qf t) + snd (Qf t) * snd (Qf t)) = W t.
  Proof.
    intros Ht. rewrite hclosed_PQ by exact Ht. pose proof (Qf_neq_0 t Ht) as NQ. unfold W. revert NQ. generalize (Pf t) (Qf t). intros [p1 p2] [q1 q2] NQ.
    unfold Cdiv, Cmult, Cinv. cbn. field. intro E. apply NQ. assert (q1 = 0) by nra. assert (q2 = 0) by nra. apply C_eq; cbn; assumption.
  Qed.
  Lemma heston_c_re t : u <> 0 -> 0 < t -> fst (heston_c (RtoC u) kappa gamma rho t) < 0.
  Proof.
    intros Hu Ht. rewrite heston_c_pos by exact Ht. change (fst (hclosed (RtoC u) kappa gamma rho t) < 0).
    pose proof (hclosed_re t (Rlt_le _ _ Ht)) as H. pose proof (W_neg t Hu Ht) as N.
    assert (0 <= fst (Qf t) * fst (Qf t) + snd (Qf t) * snd (Qf t)) by nra. nra.
  Qed.
End Real.

Lemma heston_c_zero kappa gamma rho t : heston_c 0%C kappa gamma rho t = 0%C.
Proof.
  destruct (Rle_lt_dec t 0) as [H|H]; [apply heston_c_neg; exact H|]. rewrite heston_c_pos by exact H.
  replace (hb 0%C) with (RtoC 0) by (unfold hb; ring). unfold Cdiv. ring.
Qed.
Lemma heston_c_re_le u kappa gamma rho t : 0 < kappa -> -1 <= rho <= 1 -> fst (heston_c (RtoC u) kappa gamma rho t) <= 0.
Proof.
  intros Hk Hr. destruct (Req_dec u 0) as [->|Hu]; [rewrite heston_c_zero; cbn; lra|].
  destruct (Rle_lt_dec t 0) as [H|H]; [rewrite heston_c_neg by exact H; cbn; lra|]. apply Rlt_le, heston_c_re; assumption.
Qed.
Lemma heston_c_conj u kappa gamma rho t : 0 < kappa -> -1 <= rho <= 1 ->
  heston_c (RtoC (- u)) kappa gamma rho t = Cconj (heston_c (RtoC u) kappa gamma rho t).
Proof.
  intros Hk Hr. destruct (Rle_lt_dec t 0) as [H|H]; [rewrite !heston_c_neg by exact H; apply C_eq; cbn; ring|].
  rewrite !heston_c_pos by exact H.
  assert (Ex : hx (RtoC (- u)) kappa gamma rho = Cconj (hx (RtoC u) kappa gamma rho)) by (rewrite !hx_real; apply C_eq; cbn; ring).
  assert (Eb : hb (RtoC (- u)) = Cconj (hb (RtoC u))) by (rewrite !hb_real; apply C_eq; cbn; ring).
  assert (Ed : hd (RtoC (- u)) kappa gamma rho = Cconj (hd (RtoC u) kappa gamma rho)).
  { unfold hd. rewrite <- csqrt_conj.
    - f_equal. rewrite Ex. generalize (hx (RtoC u) kappa gamma rho). intros [a c]. apply C_eq; unfold I_, Cminus, Cplus, Cmult, Copp, Cconj, RtoC; cbn; ring.
    - right. apply Rlt_le. pose proof (dsq_re_pos u kappa gamma rho Hk Hr) as P. unfold hd in P. rewrite csqrt_sqr in P. exact P. }
  assert (Em : forall a c : C, Cconj (a * c)%C = (Cconj a * Cconj c)%C) by (intros [] []; apply C_eq; cbn; ring).
  assert (Ep : forall a c : C, Cconj (a + c)%C = (Cconj a + Cconj c)%C) by (intros [] []; apply C_eq; cbn; ring).
  assert (Eo : forall a : C, Cconj (- a)%C = (- Cconj a)%C) by (intros []; apply C_eq; cbn; ring).
  assert (Er : forall a : R, Cconj (RtoC a) = RtoC a) by (intros; apply C_eq; cbn; ring).
  assert (Ei : forall a : C, Cconj (/ a)%C = (/ Cconj a)%C).
  { intros [a1 a2]. unfold Cinv, Cconj. cbn. apply C_eq; cbn; replace (- a2 * (- a2 * 1)) with (a2 * (a2 * 1)) by ring; unfold Rdiv; ring. }
  unfold hden. rewrite Ex, Ed, Eb. unfold Cdiv, Cminus. rewrite !Em, !Ei, !Ep, !Eo, !Em, !Ep, !Eo, !Er.
  rewrite <- !cexp_conj, !Em, !Eo, !Er. reflexivity.
Qed.

(** the coefficient starts from zero, continuously *)
Lemma hclosed_0 u kappa gamma rho : hclosed u kappa gamma rho 0 = 0%C.
Proof. unfold hclosed. replace (- hd u kappa gamma rho * RtoC 0)%C with (RtoC 0) by ring. rewrite cexp_0. unfold Cdiv. ring. Qed.
