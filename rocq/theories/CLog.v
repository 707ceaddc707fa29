(** The principal logarithm of [num_complex], over the real numbers (rounding idealised away). *)
From Coq Require Import Reals Psatz.
From Coquelicot Require Import Coquelicot.
From Verif Require Import Complexes.
Open Scope R_scope.
Global Set Bullet Behavior "Strict Subproofs".

(** [Complex64::arg], that is [f64::atan2], off zero.  Simplification: the angle is taken from the cosine, and
    the sign of a zero imaginary part is ignored. *)
Definition carg (z : C) : R := (if Rlt_dec (snd z) 0 then -1 else 1) * acos (fst z / Cmod z).
(** [Complex64::ln].  At zero the code has an infinite real part; here it is zero. *)
Definition cln (z : C) : C := (ln (Cmod z), carg z).

Lemma cln_cexp w : - PI < snd w <= PI -> cln (cexp w) = w.
Proof.
  intros H. unfold cln, carg. rewrite cexp_mod, ln_exp. unfold cexp. cbn [fst snd].
  replace (exp (fst w) * cos (snd w) / exp (fst w)) with (cos (snd w)) by (field; pose proof (exp_pos (fst w)); lra).
  pose proof (exp_pos (fst w)) as P. apply C_eq; cbn [fst snd]; [reflexivity|].
  destruct (Rlt_dec (exp (fst w) * sin (snd w)) 0) as [N|N].
  - assert (S : sin (snd w) < 0) by nra. assert (snd w < 0). { destruct (Rlt_le_dec (snd w) 0); [assumption|]. pose proof (sin_ge_0 (snd w)). lra. }
    rewrite <- cos_neg, acos_cos by lra. ring.
  - assert (S : 0 <= sin (snd w)) by nra. assert (0 <= snd w). { destruct (Rlt_le_dec (snd w) 0); [|assumption]. pose proof (sin_lt_0_var (snd w)). lra. }
    rewrite acos_cos by lra. ring.
Qed.

(** in the right half plane *)
Lemma cos_atan_sin y : 0 < cos (atan y) /\ sin (atan y) = y * cos (atan y).
Proof.
  pose proof (atan_bound y) as B. assert (Q : 0 < cos (atan y)) by (apply cos_gt_0; lra). split; [exact Q|].
  pose proof (tan_atan y) as T. unfold tan in T. rewrite <- T at 2. field. lra.
Qed.
Lemma polar_right (z : C) : 0 < fst z -> cexp (ln (Cmod z), atan (snd z / fst z)) = z.
Proof.
  intros H. destruct z as [x y]. cbn [fst snd] in *. unfold cexp. cbn [fst snd].
  assert (M : 0 < Cmod (x, y)). { apply Cmod_gt_0. intros E. assert (x = 0) by (change (fst (x, y) = 0); rewrite E; reflexivity). lra. }
  rewrite exp_ln by exact M. destruct (cos_atan_sin (y / x)) as [P S]. pose proof (sin2_cos2 (atan (y / x))) as U. unfold Rsqr in U. rewrite S in *.
  set (c := cos (atan (y / x))) in *. assert (E : Cmod (x, y) * c = x).
  { assert (Q : Cmod (x, y) * Cmod (x, y) = x * x + y * y) by (unfold Cmod; cbn [fst snd]; rewrite sqrt_sqrt by nra; ring).
    assert (W : (c * c) * (x * x + y * y) = x * x). { transitivity (x * x * (y / x * c * (y / x * c) + c * c)); [field; lra|rewrite U; ring]. }
    assert (V : (Cmod (x, y) * c) * (Cmod (x, y) * c) = x * x) by (rewrite <- W, <- Q; ring).
    assert (0 < Cmod (x, y) * c) by (apply Rmult_lt_0_compat; assumption). nra. }
  apply C_eq; cbn [fst snd]; [exact E|]. transitivity (Cmod (x, y) * c * (y / x)); [ring|]. rewrite E. field. lra.
Qed.
Lemma cln_right (z : C) : 0 < fst z -> cln z = (ln (Cmod z), atan (snd z / fst z)).
Proof.
  intros H. rewrite <- (polar_right z H) at 1. apply cln_cexp. cbn [snd]. pose proof (atan_bound (snd z / fst z)). pose proof PI_RGT_0. lra.
Qed.
Lemma cexp_cln_right (z : C) : 0 < fst z -> cexp (cln z) = z.
Proof. intros H. rewrite cln_right by exact H. apply polar_right, H. Qed.
(** of a quotient of two numbers of the right half plane *)
Lemma cln_div (a b : C) : 0 < fst a -> 0 < fst b -> cln (a / b)%C = (cln a - cln b)%C.
Proof.
  intros A B. assert (NB : b <> 0%C) by (intros E; rewrite E in B; cbn in B; lra).
  assert (E : (a / b)%C = cexp (cln a - cln b)%C).
  { unfold Cminus. rewrite cexp_plus, cexp_cln_right by exact A.
    assert (Q : cexp (- cln b)%C = (/ b)%C). { pose proof (cexp_opp (cln b)) as Q. rewrite cexp_cln_right in Q by exact B. transitivity (/ b * (b * cexp (- cln b)))%C; [field; exact NB|rewrite Q; ring]. }
    rewrite Q. reflexivity. }
  rewrite E. apply cln_cexp. rewrite !cln_right by assumption. unfold Cminus, Cplus, Copp. cbn [fst snd].
  pose proof (atan_bound (snd a / fst a)). pose proof (atan_bound (snd b / fst b)). lra.
Qed.
Lemma cln_1 : cln 1%C = 0%C.
Proof. rewrite cln_right by (cbn; lra). apply C_eq; cbn [fst snd RtoC]; [rewrite Cmod_1; apply ln_1|replace (0 / 1) with 0 by field; apply atan_0]. Qed.
Lemma Cmod_conj z : Cmod (Cconj z) = Cmod z.
Proof. unfold Cmod, Cconj. cbn [fst snd]. f_equal. ring. Qed.
(** off the negative axis *)
Lemma cln_conj z : snd z <> 0 \/ 0 < fst z -> cln (Cconj z) = Cconj (cln z).
Proof.
  intros H. destruct (Req_dec (snd z) 0) as [Z|Z].
  - destruct H as [H|H]; [contradiction|]. rewrite !cln_right by exact H. rewrite Cmod_conj. unfold Cconj. cbn [fst snd]. apply C_eq; cbn [fst snd]; [reflexivity|].
    rewrite Z. replace (- 0 / fst z) with 0 by (field; lra). replace (0 / fst z) with 0 by (field; lra). rewrite atan_0. ring.
  - unfold cln, carg. rewrite Cmod_conj. unfold Cconj. cbn [fst snd]. apply C_eq; cbn [fst snd]; [reflexivity|].
    destruct (Rlt_dec (- snd z) 0), (Rlt_dec (snd z) 0); lra.
Qed.

Lemma derive_ln_mod (f : R -> C) t l : cderive f t l -> f t <> 0%C -> is_derive (fun s => ln (Cmod (f s))) t ((fst (f t) * fst l + snd (f t) * snd l) / (fst (f t) ^ 2 + snd (f t) ^ 2)).
Proof.
  intros [A B] NZ. assert (N : 0 < fst (f t) ^ 2 + snd (f t) ^ 2).
  { destruct (f t) as [a b]. cbn [fst snd]. assert (a <> 0 \/ b <> 0) by (destruct (Req_dec a 0) as [->|]; [|tauto]; destruct (Req_dec b 0) as [->|]; [|tauto]; exfalso; apply NZ; reflexivity). nra. }
  assert (Q : is_derive (fun s => fst (f s) ^ 2 + snd (f s) ^ 2) t (2 * (fst (f t) * fst l + snd (f t) * snd l))).
  { apply (is_derive_ext (fun s => fst (f s) * fst (f s) + snd (f s) * snd (f s))); [intros s; cbn; ring|]. evar_last; [exact (is_derive_plus _ _ _ _ _ (derive_mult _ _ _ _ _ A A) (derive_mult _ _ _ _ _ B B))|]. unfold plus. cbn. ring. }
  unfold Cmod. pose proof (is_derive_sqrt _ _ _ Q N) as S. cbv beta in S.
  pose proof (sqrt_lt_R0 _ N) as SP. pose proof (is_derive_comp ln _ t _ _ (is_derive_ln _ SP) S) as L. cbv beta in L.
  evar_last; [exact L|]. unfold scal. cbn. unfold mult. cbn.
  pose proof (sqrt_sqrt _ (Rlt_le _ _ N)) as SS. change (fst (f t) ^ 2) with (fst (f t) * (fst (f t) * 1)) in SS, SP, N. change (snd (f t) ^ 2) with (snd (f t) * (snd (f t) * 1)) in SS, SP, N.
  set (q := sqrt _) in *. rewrite <- SS in *. field. lra.
Qed.
Lemma derive_atan_ratio (f : R -> C) t l : cderive f t l -> 0 < fst (f t) -> is_derive (fun s => atan (snd (f s) / fst (f s))) t ((fst (f t) * snd l - snd (f t) * fst l) / (fst (f t) ^ 2 + snd (f t) ^ 2)).
Proof.
  intros [A B] P. assert (Q : fst (f t) <> 0) by lra. pose proof (is_derive_div _ _ _ _ _ B A Q) as D.
  pose proof (is_derive_comp atan _ t _ _ (is_derive_atan _) D) as L. evar_last; [exact L|]. unfold scal. cbn. unfold mult, Rsqr. cbn. field. nra.
Qed.
Lemma cderive_ln (f : R -> C) t l : cderive f t l -> 0 < fst (f t) -> cderive (fun s => cln (f s)) t (l / f t)%C.
Proof.
  intros D P. apply cderive_ext_loc with (fun s => (ln (Cmod (f s)), atan (snd (f s) / fst (f s))) : C).
  { assert (L : locally t (fun s => 0 < fst (f s))).
    { pose proof (ex_derive_continuous (fun s => fst (f s)) t (ex_intro _ _ (proj1 D))) as Ct. apply (Ct (fun y => 0 < y)). apply (open_gt 0). exact P. }
    eapply filter_imp; [|exact L]. intros s Hs. symmetry. apply cln_right. exact Hs. }
  assert (NZ : f t <> 0%C) by (intros E; rewrite E in P; cbn in P; lra).
  split; cbn [fst snd].
  - evar_last; [apply derive_ln_mod; [exact D|exact NZ]|]. unfold Cdiv, Cmult, Cinv. cbn [fst snd]. field. nra.
  - evar_last; [apply derive_atan_ratio; [exact D|exact P]|]. unfold Cdiv, Cmult, Cinv. cbn [fst snd]. field. nra.
Qed.

(** off the negative axis the logarithm is a turned one of the right half plane *)
Lemma cexp_quarter : cexp (0, PI / 2) = (0, 1).
Proof. unfold cexp. cbn [fst snd]. rewrite exp_0, cos_PI2, sin_PI2. apply C_eq; cbn; ring. Qed.
Lemma cexp_quarter_neg : cexp (0, - (PI / 2)) = (0, -1).
Proof. unfold cexp. cbn [fst snd]. rewrite exp_0, cos_neg, sin_neg, cos_PI2, sin_PI2. apply C_eq; cbn; ring. Qed.
Definition turn_down (z : C) : C := (snd z, - fst z).
Definition turn_up (z : C) : C := (- snd z, fst z).
Lemma cln_upper z : 0 < snd z -> cln z = (cln (turn_down z) + (0, PI / 2)%R)%C.
Proof.
  intros H. assert (E : z = cexp (cln (turn_down z) + (0, PI / 2)%R)%C).
  { rewrite cexp_plus, cexp_cln_right by exact H. rewrite cexp_quarter. apply C_eq; unfold turn_down; cbn; ring. }
  rewrite E at 1. apply cln_cexp. rewrite cln_right by exact H. cbn [fst snd Cplus]. pose proof (atan_bound (snd (turn_down z) / fst (turn_down z))). lra.
Qed.
Lemma cln_lower z : snd z < 0 -> cln z = (cln (turn_up z) + (0, - (PI / 2))%R)%C.
Proof.
  intros H. assert (P : 0 < fst (turn_up z)) by (cbn; lra). assert (E : z = cexp (cln (turn_up z) + (0, - (PI / 2))%R)%C).
  { rewrite cexp_plus, cexp_cln_right by exact P. rewrite cexp_quarter_neg. apply C_eq; unfold turn_up; cbn; ring. }
  rewrite E at 1. apply cln_cexp. rewrite cln_right by exact P. cbn [fst snd Cplus]. pose proof (atan_bound (snd (turn_up z) / fst (turn_up z))). lra.
Qed.
Lemma cderive_ln_off (f : R -> C) t l : cderive f t l -> snd (f t) <> 0 \/ 0 < fst (f t) -> cderive (fun s => cln (f s)) t (l / f t)%C.
Proof.
  intros D H. destruct (Rlt_le_dec 0 (fst (f t))) as [P|P]; [apply cderive_ln; assumption|].
  assert (NZ : snd (f t) <> 0) by (destruct H; [assumption|lra]). clear H.
  assert (NC : f t <> 0%C) by (intros E; rewrite E in NZ; cbn in NZ; lra).
  destruct (Rlt_le_dec 0 (snd (f t))) as [U|U].
  - apply cderive_ext_loc with (fun s => (cln (turn_down (f s)) + (0, PI / 2)%R)%C).
    { assert (L : locally t (fun s => 0 < snd (f s))).
      { pose proof (ex_derive_continuous (fun s => snd (f s)) t (ex_intro _ _ (proj2 D))) as Ct. apply (Ct (fun y => 0 < y)). apply (open_gt 0). exact U. }
      eapply filter_imp; [|exact L]. intros s Hs. symmetry. apply cln_upper, Hs. }
    eapply cderive_eq; [apply cderive_plus; [apply (cderive_ln (fun s => turn_down (f s)) t (turn_down l)); [|exact U]|apply cderive_const]|].
    + split; [exact (proj2 D)|]. exact (is_derive_opp _ _ _ (proj1 D)).
    + destruct (f t) as [a b]. destruct l as [l1 l2]. unfold turn_down. cbn [fst snd] in *. apply C_eq; unfold Cdiv, Cmult, Cinv, Cplus, RtoC; cbn [fst snd]; field; nra.
  - apply cderive_ext_loc with (fun s => (cln (turn_up (f s)) + (0, - (PI / 2))%R)%C).
    { assert (L : locally t (fun s => snd (f s) < 0)).
      { pose proof (ex_derive_continuous (fun s => snd (f s)) t (ex_intro _ _ (proj2 D))) as Ct. apply (Ct (fun y => y < 0)). apply (open_lt 0). lra. }
      eapply filter_imp; [|exact L]. intros s Hs. symmetry. apply cln_lower, Hs. }
    assert (P' : 0 < fst (turn_up (f t))) by (cbn; lra).
    eapply cderive_eq; [apply cderive_plus; [apply (cderive_ln (fun s => turn_up (f s)) t (turn_up l)); [|exact P']|apply cderive_const]|].
    + split; [exact (is_derive_opp _ _ _ (proj2 D))|]. exact (proj1 D).
    + destruct (f t) as [a b]. destruct l as [l1 l2]. unfold turn_up. cbn [fst snd] in *. apply C_eq; unfold Cdiv, Cmult, Cinv, Cplus, RtoC; cbn [fst snd]; field; nra.
Qed.
