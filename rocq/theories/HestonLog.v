(** The logarithm in the closed form of the Heston coefficient never leaves its branch, and the closed form is
    the integral it stands for. *)
From Coq Require Import Bool List Arith Reals Psatz.
Import ListNotations.
From Coquelicot Require Import Coquelicot.
From Verif Require Import Outcome Complexes CLog Hhw1Chf HestonFacts Hhw1Facts SegChf.
Open Scope R_scope.
Global Set Bullet Behavior "Strict Subproofs".

Lemma exp_bound s : PI < s -> exp (- s) * exp (- s) < / 10.
Proof.
  intros H. pose proof PI2_3_2 as P3. assert (A : 4 < exp s) by (pose proof (exp_ineq1 s ltac:(lra)); lra).
  rewrite exp_Ropp. rewrite <- Rinv_mult. apply Rinv_lt_contravar; nra.
Qed.

(** the numbers [w = x / d] and [e] cannot meet on the negative axis *)
Lemma trap_algebra a b k r er ei : 0 <= k -> r = er * er + ei * ei -> r < 1 -> a + 1 + 2 * k = (a - 1) * er - b * ei -> b = (a - 1) * ei + b * er ->
  a < 0 /\ ei * ((a - 1) * (a - 1) + b * b) = - b * (2 + 2 * k) /\ (a * a <= b * b -> / 10 <= r).
Proof.
  intros HK RQ RL E1 E2. pose (NN := (a - 1) * (a - 1) + b * b). fold NN.
  assert (SQ : (a + 1 + 2 * k) * (a + 1 + 2 * k) + b * b = NN * r).
  { transitivity (((a - 1) * er - b * ei) * ((a - 1) * er - b * ei) + ((a - 1) * ei + b * er) * ((a - 1) * ei + b * er)); [rewrite <- E1, <- E2; reflexivity|unfold NN; rewrite RQ; ring]. }
  assert (Nn : 0 <= NN). { unfold NN. pose proof (Rle_0_sqr (a - 1)) as V1. pose proof (Rle_0_sqr b) as V2. unfold Rsqr in V1, V2. lra. }
  assert (A : a < 0).
  { destruct (Rlt_le_dec a 0) as [|Q]; [assumption|]. exfalso. assert (NN * r <= NN) by nra. unfold NN in *.
    assert (a = 0) by nra. assert (k = 0) by nra. subst. nra. }
  split; [exact A|]. split.
  - transitivity ((a - 1) * ((a - 1) * ei + b * er) - b * ((a - 1) * er - b * ei)); [unfold NN; ring|]. rewrite <- E1, <- E2. ring.
  - intros AB. destruct (Rle_lt_dec (/ 10) r) as [|Q]; [assumption|exfalso].
    assert (NR : NN * r < / 10 * NN \/ NN = 0) by (destruct (Req_dec NN 0); [right; assumption|left; nra]).
    destruct NR as [NR|NR]; [|unfold NN in NR; nra].
    destruct (Rle_lt_dec (1 / 4) (b * b)) as [B|B].
    + assert (P : - a <= 2 * (b * b)) by (destruct (Rle_lt_dec (- a) (2 * (b * b))); [assumption|exfalso; nra]).
      assert (0 <= (a + 1 + 2 * k) * (a + 1 + 2 * k)) by apply Rle_0_sqr. unfold NN in *. nra.
    + assert (P : - a < 1 / 2) by nra. assert (1 / 2 * (1 / 2) <= (a + 1 + 2 * k) * (a + 1 + 2 * k)) by (apply Rmult_le_compat; lra).
      assert (0 <= b * b) by apply Rle_0_sqr. unfold NN in *. nra.
Qed.

Lemma split_eq (w e : C) k : (w + 1 + RtoC (2 * k))%C = ((w - 1) * e)%C ->
  fst w + 1 + 2 * k = (fst w - 1) * fst e - snd w * snd e /\ snd w = (fst w - 1) * snd e + snd w * fst e.
Proof.
  intros E. pose proof (f_equal fst E) as Q1. pose proof (f_equal snd E) as Q2. destruct w as [w1 w2], e as [e1 e2].
  unfold Cminus, Cplus, Cmult, Copp, RtoC in Q1, Q2. cbn [fst snd] in *. split; lra.
Qed.

Section Trap.
  Context (x d : C) (X : 0 < fst x) (D : 0 < fst d) (D2 : snd d * snd d < fst d * fst d).

  Lemma trap_d_neq : d <> 0%C.
  Proof. intros E. rewrite E in D. cbn in D. lra. Qed.

  Definition trap (tau : R) : C := (((x + d) - (x - d) * cexp (- d * RtoC tau)) / ((1 + 1) * d))%C.

  Lemma trap_0 : trap 0 = 1%C.
  Proof. unfold trap. replace (- d * RtoC 0)%C with (RtoC 0) by ring. rewrite cexp_0. pose proof trap_d_neq. pose proof two_neq_0. field. split; assumption. Qed.

  Lemma trap_off tau : 0 <= tau -> snd (trap tau) <> 0 \/ 0 < fst (trap tau).
  Proof.
    intros [T| <-]; [|right; rewrite trap_0; cbn; lra].
    destruct (Req_dec (snd (trap tau)) 0) as [Z|Z]; [|left; exact Z]. destruct (Rlt_le_dec 0 (fst (trap tau))) as [P|P]; [right; exact P|exfalso].
    set (k := - fst (trap tau)) in *. assert (K : 0 <= k) by (unfold k; lra).
    set (w := (x / d)%C). set (e := cexp (- d * RtoC tau)%C).
    pose proof trap_d_neq as ND.
    assert (E : (w + 1 + RtoC (2 * k))%C = ((w - 1) * e)%C).
    { assert (TR : trap tau = RtoC (- k)) by (apply C_eq; [unfold k; cbn; ring|rewrite Z; reflexivity]).
      assert (M : ((1 + 1) * d * trap tau)%C = ((x + d) - (x - d) * e)%C) by (unfold trap; fold e; field; split; [exact ND|exact two_neq_0]).
      rewrite TR in M. assert (H2 : RtoC (2 * k) = (- ((1 + 1) * RtoC (- k)))%C) by (apply C_eq; cbn; ring). rewrite H2.
      apply (C_mult_eq_reg _ _ d ND). unfold w. transitivity (x + d - (1 + 1) * d * RtoC (- k))%C; [field; exact ND|]. rewrite M. field. exact ND. }
    pose proof (cexp_mod (- d * RtoC tau)%C) as CM. fold e in CM.
    assert (RE : fst e * fst e + snd e * snd e = exp (- (fst d * tau)) * exp (- (fst d * tau))).
    { unfold Cmod in CM. assert (Q : fst (- d * RtoC tau)%C = - (fst d * tau)) by (cbn; ring). rewrite Q in CM. rewrite <- CM. rewrite sqrt_sqrt by nra. ring. }
    set (r := fst e * fst e + snd e * snd e) in *.
    assert (DT : 0 < fst d * tau) by (apply Rmult_lt_0_compat; assumption).
    assert (RL : r < 1).
    { rewrite RE. assert (exp (- (fst d * tau)) < 1) by (rewrite <- exp_0; apply exp_increasing; lra). pose proof (exp_pos (- (fst d * tau))). nra. }
    destruct (split_eq w e k E) as [E1 E2].
    destruct (trap_algebra (fst w) (snd w) k r (fst e) (snd e) K eq_refl RL E1 E2) as (A & B & G).
    assert (W : fst w * (fst d * fst d + snd d * snd d) = fst x * fst d + snd x * snd d /\ snd w * (fst d * fst d + snd d * snd d) = snd x * fst d - fst x * snd d).
    { unfold w. clear - D. destruct x as [x1 x2], d as [d1 d2]. cbn [fst snd] in *. unfold Cdiv, Cmult, Cinv. cbn [fst snd]. split; field; nra. }
    destruct W as [W1 W2]. set (M := fst d * fst d + snd d * snd d) in *. assert (PM : 0 < M) by (unfold M; nra).
    assert (S0 : fst x * fst d + snd x * snd d < 0) by (rewrite <- W1; nra).
    assert (XD : 0 < fst x * fst d) by (apply Rmult_lt_0_compat; assumption).
    assert (BD : snd w * snd d < 0). { assert (Q : snd w * snd d * M < 0) by (replace (snd w * snd d * M) with (snd w * M * snd d) by ring; rewrite W2; nra). nra. }
    assert (AB : fst w * fst w <= snd w * snd w).
    { assert (Q : (fst x * fst d + snd x * snd d) * (fst x * fst d + snd x * snd d) <= (snd x * fst d - fst x * snd d) * (snd x * fst d - fst x * snd d)).
      { assert (X2 : fst x * fst x < snd x * snd x).
        { assert (V : (fst x * fst d) * (fst x * fst d) < (snd x * snd d) * (snd x * snd d)) by nra.
          assert (snd x * snd d * (snd x * snd d) <= snd x * snd x * (fst d * fst d)) by nra. nra. }
        assert (0 <= (snd x * snd x - fst x * fst x) * (fst d * fst d - snd d * snd d)) by (apply Rmult_le_pos; lra).
        assert (0 <= - 4 * (fst x * fst d) * (snd x * snd d)) by nra. nra. }
      rewrite <- W1, <- W2 in Q. assert (0 < M * M) by nra. nra. }
    specialize (G AB).
    assert (NW : 0 < (fst w - 1) * (fst w - 1) + snd w * snd w) by nra.
    assert (SE : snd e = - (exp (- (fst d * tau)) * sin (snd d * tau))).
    { unfold e, cexp. cbn [fst snd Cmult Copp RtoC]. replace (- fst d * tau - - snd d * 0) with (- (fst d * tau)) by ring. replace (- fst d * 0 + - snd d * tau) with (- (snd d * tau)) by ring. rewrite sin_neg. ring. }
    pose proof (exp_pos (- (fst d * tau))) as EP.
    assert (SB : sin (snd d * tau) * snd d < 0).
    { assert (Q : exp (- (fst d * tau)) * (sin (snd d * tau) * snd d) * ((fst w - 1) * (fst w - 1) + snd w * snd w) < 0).
      { rewrite SE in B. replace (exp (- (fst d * tau)) * (sin (snd d * tau) * snd d) * ((fst w - 1) * (fst w - 1) + snd w * snd w)) with (- snd d * (- (exp (- (fst d * tau)) * sin (snd d * tau)) * ((fst w - 1) * (fst w - 1) + snd w * snd w))) by ring. rewrite B. nra. }
      assert (0 < exp (- (fst d * tau)) * ((fst w - 1) * (fst w - 1) + snd w * snd w)) by (apply Rmult_lt_0_compat; assumption). nra. }
    assert (PT : PI < fst d * tau).
    { destruct (Rlt_le_dec PI (fst d * tau)) as [|L]; [assumption|exfalso]. destruct (Rlt_le_dec 0 (snd d)) as [U|U].
      - assert (snd d < fst d) by nra. assert (0 <= sin (snd d * tau)) by (apply sin_ge_0; nra). nra.
      - assert (- snd d < fst d) by nra. assert (0 <= sin (- (snd d * tau))) by (apply sin_ge_0; nra). rewrite sin_neg in *. nra. }
    pose proof (exp_bound _ PT). lra.
  Qed.

  Lemma trap_derive tau : cderive trap tau (((x - d) * d * cexp (- d * RtoC tau)) / ((1 + 1) * d))%C.
  Proof.
    unfold trap. apply cderive_ext with (fun s => (/ ((1 + 1) * d) * ((x + d) - (x - d) * cexp (- d * RtoC s)))%C); [intros s; unfold Cdiv; ring|].
    eapply cderive_eq; [apply cderive_scal, cderive_minus; [apply cderive_const|apply cderive_scal, cderive_expl]|].
    pose proof trap_d_neq. pose proof two_neq_0. field. split; assumption.
  Qed.
End Trap.

Section A.
  Context (u kappa gamma rho : R) (Hk : 0 < kappa) (Hg : gamma <> 0) (Hr : -1 <= rho <= 1).
  Let x := hx (RtoC u) kappa gamma rho.
  Let d := hd (RtoC u) kappa gamma rho.

  Lemma hx_re : 0 < fst x.
  Proof. unfold x. rewrite hx_real. exact Hk. Qed.
  Lemma hd_re : 0 < fst d.
  Proof. apply hd_re_pos; assumption. Qed.
  Lemma hd_cone : snd d * snd d < fst d * fst d.
  Proof. pose proof (dsq_re_pos u kappa gamma rho Hk Hr) as P. fold d in P. change (fst (d * d)%C) with (fst d * fst d - snd d * snd d) in P. lra. Qed.
  Lemma gamma_neq : RtoC gamma <> 0%C.
  Proof. intros E. apply (f_equal fst) in E. cbn in E. lra. Qed.

  Definition hlog (tau : R) : C := ((x - d) * RtoC tau - RtoC 2 * cln (trap x d tau))%C.
  Lemma hlog_0 : hlog 0 = 0%C.
  Proof. unfold hlog. rewrite trap_0 by (apply hd_re). rewrite cln_1. ring. Qed.

  Lemma ratio_trap tau : ((1 - (x - d) / (x + d) * cexp (- d * RtoC tau)) / (1 - (x - d) / (x + d)))%C = trap x d tau.
  Proof.
    unfold trap. pose proof (trap_d_neq d hd_re) as ND. pose proof two_neq_0 as N2.
    assert (NS : (x + d)%C <> 0%C). { intros E. apply (f_equal fst) in E. change (fst (x + d)%C) with (fst x + fst d) in E. change (fst (RtoC 0)) with 0 in E. pose proof hx_re. pose proof hd_re. lra. }
    assert (E1 : (1 - (x - d) / (x + d))%C = ((1 + 1) * d / (x + d))%C) by (field; exact NS). rewrite E1. field. repeat split; assumption.
  Qed.
  Lemma heston_a_pos theta tau : 0 <= tau -> heston_a (RtoC u) kappa theta gamma rho tau = (RtoC (kappa * theta) / (RtoC gamma * RtoC gamma) * hlog tau)%C.
  Proof.
    intros [H| <-].
    - unfold heston_a. destruct (Rle_dec tau 0); [exfalso; lra|]. cbv zeta. fold (hx (RtoC u) kappa gamma rho). fold (hd (RtoC u) kappa gamma rho). fold x. fold d. rewrite ratio_trap. reflexivity.
    - unfold heston_a. destruct (Rle_dec 0 0) as [_|]; [|exfalso; lra]. rewrite hlog_0. ring.
  Qed.
  Lemma hclosed_trap tau : 0 <= tau -> (RtoC gamma * RtoC gamma * hclosed (RtoC u) kappa gamma rho tau)%C = ((x - d) * (x + d) * (1 - cexp (- d * RtoC tau)) / ((1 + 1) * d * trap x d tau))%C.
  Proof.
    intros H. unfold hclosed. fold d. pose proof (hden_neq_0 u kappa gamma rho Hk Hr tau H) as NH.
    assert (EH : hden (RtoC u) kappa gamma rho tau = ((1 + 1) * d * trap x d tau)%C).
    { unfold hden. fold x. fold d. unfold trap. field. split; [apply trap_d_neq, hd_re|exact two_neq_0]. }
    assert (EG : (RtoC gamma * RtoC gamma * hb (RtoC u))%C = ((x - d) * (x + d))%C).
    { transitivity (x * x - d * d)%C; [|ring]. unfold d. rewrite hd_sqr. fold x. ring. }
    rewrite <- EH. rewrite <- EG. field. exact NH.
  Qed.
  Lemma hlog_derive tau : 0 <= tau -> cderive hlog tau (RtoC gamma * RtoC gamma * hclosed (RtoC u) kappa gamma rho tau)%C.
  Proof.
    intros H. pose proof (trap_d_neq d hd_re) as ND. pose proof two_neq_0 as N2.
    pose proof (trap_off x d hx_re hd_re hd_cone tau H) as OFF.
    assert (NT : trap x d tau <> 0%C). { intros E. rewrite E in OFF. cbn in OFF. destruct OFF as [Q|Q]; [apply Q; reflexivity|lra]. }
    unfold hlog. eapply cderive_eq.
    - apply cderive_minus; [apply cderive_scal, cderive_id|]. apply cderive_scal. apply cderive_ln_off; [apply trap_derive, hd_re|exact OFF].
    - rewrite hclosed_trap by exact H. assert (E2 : RtoC 2 = (1 + 1)%C) by (apply C_eq; cbn; ring). rewrite E2.
      transitivity (((x - d) * ((1 + 1) * d * trap x d tau) - (1 + 1) * ((x - d) * d * cexp (- d * RtoC tau))) / ((1 + 1) * d * trap x d tau))%C; [field; repeat split; assumption|].
      f_equal. unfold trap. transitivity ((x - d) * ((x + d) - (x - d) * cexp (- d * RtoC tau)) - (1 + 1) * ((x - d) * d * cexp (- d * RtoC tau)))%C; [field; split; assumption|ring].
  Qed.
End A.
