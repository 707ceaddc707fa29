(** Complex numbers as the crate [num_complex] has them, over the real numbers (rounding idealised
    away), and what is needed of their calculus. *)
From Coq Require Import Reals Lra Psatz.
From Coquelicot Require Import Coquelicot.
Set Bullet Behavior "Strict Subproofs".
Open Scope R_scope.

(** [Complex64::exp] *)
Definition cexp (z : C) : C := (exp (fst z) * cos (snd z), exp (fst z) * sin (snd z)).
(** [Complex64::sqrt], the principal root.  The code goes through polar coordinates; here the half angle
    is spelled out.  On the negative axis the code's sign follows the sign of the zero imaginary part;
    here it is positive. *)
Definition csqrt (z : C) : C :=
  (sqrt ((Cmod z + fst z) / 2), (if Rlt_dec (snd z) 0 then -1 else 1) * sqrt ((Cmod z - fst z) / 2)).

(** ** Algebra *)
Lemma C_eq (a b : C) : fst a = fst b -> snd a = snd b -> a = b.
Proof. destruct a, b. cbn. intros -> ->. reflexivity. Qed.

Lemma cexp_plus a b : cexp (a + b)%C = (cexp a * cexp b)%C.
Proof.
  unfold cexp, Cplus, Cmult. cbn [fst snd]. rewrite exp_plus, cos_plus, sin_plus. apply C_eq; cbn [fst snd]; ring.
Qed.
Lemma cexp_0 : cexp 0%C = 1%C.
Proof. unfold cexp. cbn [fst snd RtoC]. rewrite exp_0, cos_0, sin_0. apply C_eq; cbn; ring. Qed.
Lemma cexp_mod z : Cmod (cexp z) = exp (fst z).
Proof.
  unfold Cmod, cexp. cbn [fst snd]. replace ((exp (fst z) * cos (snd z)) ^ 2 + (exp (fst z) * sin (snd z)) ^ 2) with (exp (fst z) * exp (fst z)).
  - apply sqrt_square. left. apply exp_pos.
  - pose proof (sin2_cos2 (snd z)) as H. unfold Rsqr in H. replace (exp (fst z) * exp (fst z)) with (exp (fst z) * exp (fst z) * (sin (snd z) * sin (snd z) + cos (snd z) * cos (snd z))) by (rewrite H; ring). ring.
Qed.
Lemma cexp_neq_0 z : cexp z <> 0%C.
Proof. intros E. pose proof (cexp_mod z) as M. rewrite E, Cmod_0 in M. pose proof (exp_pos (fst z)). lra. Qed.
Lemma cexp_real x : cexp (RtoC x) = RtoC (exp x).
Proof. unfold cexp, RtoC. cbn [fst snd]. rewrite cos_0, sin_0. apply C_eq; cbn; ring. Qed.
Lemma cexp_conj z : cexp (Cconj z) = Cconj (cexp z).
Proof. unfold cexp, Cconj. cbn [fst snd]. rewrite cos_neg, sin_neg. apply C_eq; cbn; ring. Qed.
Lemma cexp_opp z : (cexp z * cexp (- z))%C = 1%C.
Proof. rewrite <- cexp_plus. replace (z + - z)%C with (RtoC 0) by (apply C_eq; cbn; ring). apply cexp_0. Qed.

Lemma fst_le_mod z : Rabs (fst z) <= Cmod z.
Proof. unfold Cmod. rewrite <- sqrt_Rsqr_abs. apply sqrt_le_1; unfold Rsqr; nra. Qed.
Lemma csqrt_sqr z : (csqrt z * csqrt z)%C = z.
Proof.
  pose proof (fst_le_mod z) as H. apply Rabs_le_between in H. destruct H as [H1 H2].
  assert (A : sqrt ((Cmod z + fst z) / 2) * sqrt ((Cmod z + fst z) / 2) = (Cmod z + fst z) / 2) by (apply sqrt_sqrt; lra).
  assert (B : sqrt ((Cmod z - fst z) / 2) * sqrt ((Cmod z - fst z) / 2) = (Cmod z - fst z) / 2) by (apply sqrt_sqrt; lra).
  assert (M : Cmod z * Cmod z = fst z ^ 2 + snd z ^ 2) by (unfold Cmod; apply sqrt_sqrt; nra).
  assert (P : sqrt ((Cmod z + fst z) / 2) * sqrt ((Cmod z - fst z) / 2) = Rabs (snd z) / 2).
  { rewrite <- sqrt_mult by lra. replace ((Cmod z + fst z) / 2 * ((Cmod z - fst z) / 2)) with (Rsqr (snd z / 2)) by (unfold Rsqr; nra). rewrite sqrt_Rsqr_abs. unfold Rdiv. rewrite Rabs_mult. rewrite (Rabs_right (/ 2)); lra. }
  unfold csqrt, Cmult. cbn [fst snd]. set (r := sqrt ((Cmod z + fst z) / 2)) in *. set (s := sqrt ((Cmod z - fst z) / 2)) in *.
  apply C_eq; cbn [fst snd]; destruct (Rlt_dec (snd z) 0) as [N|N].
  - replace (r * r - -1 * s * (-1 * s)) with (r * r - s * s) by ring. lra.
  - replace (r * r - 1 * s * (1 * s)) with (r * r - s * s) by ring. lra.
  - replace (r * (-1 * s) + -1 * s * r) with (- 2 * (r * s)) by ring. rewrite P, Rabs_left; lra.
  - replace (r * (1 * s) + 1 * s * r) with (2 * (r * s)) by ring. rewrite P, Rabs_right; lra.
Qed.
Lemma csqrt_re z : 0 <= fst (csqrt z).
Proof. apply sqrt_pos. Qed.
Lemma csqrt_real x : 0 <= x -> csqrt (RtoC x) = RtoC (sqrt x).
Proof.
  intros H. unfold csqrt. assert (M : Cmod (RtoC x) = x) by (rewrite Cmod_R; apply Rabs_right; lra). rewrite M. cbn [fst snd RtoC]. destruct (Rlt_dec 0 0); [lra|]. apply C_eq; cbn [fst snd].
  - replace ((x + x) / 2) with x by field. reflexivity.
  - replace ((x - x) / 2) with 0 by field. rewrite sqrt_0. unfold RtoC. cbn [snd]. ring.
Qed.
(** off the negative axis the root of the conjugate is the conjugate of the root *)
Lemma csqrt_conj z : snd z <> 0 \/ 0 <= fst z -> csqrt (Cconj z) = Cconj (csqrt z).
Proof.
  intros H. unfold csqrt. assert (M : Cmod (Cconj z) = Cmod z) by (unfold Cmod, Cconj; cbn [fst snd]; f_equal; ring). rewrite M. apply C_eq; cbn [fst snd Cconj]; [reflexivity|].
  destruct (Req_dec (snd z) 0) as [Z|NZ].
  - destruct H as [H|H]; [contradiction|]. rewrite Z. replace (Cmod z - fst z) with 0; [replace (0 / 2) with 0 by field; rewrite sqrt_0; ring|]. unfold Cmod. rewrite Z. replace (fst z ^ 2 + 0 ^ 2) with (fst z * fst z) by ring. rewrite sqrt_square by exact H. ring.
  - destruct (Rlt_dec (- snd z) 0), (Rlt_dec (snd z) 0); try lra.
Qed.

(** ** Derivatives in a real variable, part by part *)
Definition cderive (f : R -> C) (t : R) (l : C) : Prop := is_derive (fun s => fst (f s)) t (fst l) /\ is_derive (fun s => snd (f s)) t (snd l).

Lemma cderive_eq f t l m : cderive f t l -> l = m -> cderive f t m.
Proof. intros H <-. exact H. Qed.
Lemma cderive_ext f g t l : (forall s, f s = g s) -> cderive f t l -> cderive g t l.
Proof. intros E [A B]. split; [eapply is_derive_ext; [|exact A]|eapply is_derive_ext; [|exact B]]; intros s; cbn beta; rewrite E; reflexivity. Qed.
Lemma cderive_ext_loc f g t l : locally t (fun s => f s = g s) -> cderive f t l -> cderive g t l.
Proof.
  intros E [A B]. split; [eapply is_derive_ext_loc; [|exact A]|eapply is_derive_ext_loc; [|exact B]]; (eapply filter_imp; [|exact E]); intros s Q; cbn beta; rewrite Q; reflexivity.
Qed.
Lemma cderive_const (c : C) t : cderive (fun _ => c) t 0%C.
Proof. split; [exact (@is_derive_const R_AbsRing R_NormedModule (fst c) t)|exact (@is_derive_const R_AbsRing R_NormedModule (snd c) t)]. Qed.
Lemma cderive_id t : cderive RtoC t 1%C.
Proof. split; [exact (@is_derive_id R_AbsRing t)|exact (@is_derive_const R_AbsRing R_NormedModule 0 t)]. Qed.
Lemma cderive_plus f g t l m : cderive f t l -> cderive g t m -> cderive (fun s => f s + g s)%C t (l + m)%C.
Proof. intros [A B] [D E]. split; [exact (is_derive_plus _ _ _ _ _ A D)|exact (is_derive_plus _ _ _ _ _ B E)]. Qed.
Lemma cderive_minus f g t l m : cderive f t l -> cderive g t m -> cderive (fun s => f s - g s)%C t (l - m)%C.
Proof. intros [A B] [D E]. split; [exact (is_derive_minus _ _ _ _ _ A D)|exact (is_derive_minus _ _ _ _ _ B E)]. Qed.
Lemma derive_mult (f g : R -> R) t l m : is_derive f t l -> is_derive g t m -> is_derive (fun s => f s * g s) t (l * g t + f t * m).
Proof. intros A B. exact (is_derive_mult f g t l m A B Rmult_comm). Qed.
Lemma cderive_mult f g t l m : cderive f t l -> cderive g t m -> cderive (fun s => f s * g s)%C t (l * g t + f t * m)%C.
Proof.
  intros [A B] [D E]. split; unfold Cmult; cbn [fst snd Cplus].
  - evar_last; [exact (is_derive_minus _ _ _ _ _ (derive_mult _ _ _ _ _ A D) (derive_mult _ _ _ _ _ B E))|]. unfold minus, plus, opp. cbn. ring.
  - evar_last; [exact (is_derive_plus _ _ _ _ _ (derive_mult _ _ _ _ _ A E) (derive_mult _ _ _ _ _ B D))|]. unfold plus. cbn. ring.
Qed.
Lemma cderive_scal (c : C) f t l : cderive f t l -> cderive (fun s => c * f s)%C t (c * l)%C.
Proof. intros H. eapply cderive_eq; [apply cderive_mult; [apply cderive_const|exact H]|]. cbv beta. ring. Qed.
Lemma cderive_inv f t l : cderive f t l -> f t <> 0%C -> cderive (fun s => / f s)%C t (- l / (f t * f t))%C.
Proof.
  intros [A B] NZ. assert (N : 0 < fst (f t) ^ 2 + snd (f t) ^ 2).
  { destruct (f t) as [a b]. cbn [fst snd]. assert (a <> 0 \/ b <> 0) by (destruct (Req_dec a 0) as [->|]; [|tauto]; destruct (Req_dec b 0) as [->|]; [|tauto]; exfalso; apply NZ; reflexivity). nra. }
  assert (Q : is_derive (fun s => fst (f s) ^ 2 + snd (f s) ^ 2) t (2 * fst (f t) * fst l + 2 * snd (f t) * snd l)).
  { apply (is_derive_ext (fun s => fst (f s) * fst (f s) + snd (f s) * snd (f s))); [intros s; cbn; ring|]. evar_last; [exact (is_derive_plus _ _ _ _ _ (derive_mult _ _ _ _ _ A A) (derive_mult _ _ _ _ _ B B))|]. unfold plus. cbn. ring. }
  split.
  - eapply is_derive_ext; [intros s; unfold Cinv; cbn [fst]; reflexivity|]. evar_last; [apply (is_derive_div _ _ _ _ _ A Q); lra|]. unfold Cdiv, Cmult, Cinv, Copp. cbn [fst snd]. field. nra.
  - eapply is_derive_ext; [intros s; unfold Cinv; cbn [snd]; reflexivity|]. evar_last; [apply (is_derive_div _ _ _ _ _ (is_derive_opp _ _ _ B) Q); lra|]. unfold Cdiv, Cmult, Cinv, Copp, opp. cbn [fst snd]. cbn. field. nra.
Qed.
Lemma cderive_div f g t l m : cderive f t l -> cderive g t m -> g t <> 0%C -> cderive (fun s => f s / g s)%C t ((l * g t - f t * m) / (g t * g t))%C.
Proof. intros F G NZ. eapply cderive_eq; [apply cderive_mult; [exact F|apply cderive_inv; [exact G|exact NZ]]|]. cbv beta. field. exact NZ. Qed.
Lemma cderive_exp f t l : cderive f t l -> cderive (fun s => cexp (f s)) t (l * cexp (f t))%C.
Proof.
  intros [A B]. split; unfold cexp; cbn [fst snd Cmult].
  - evar_last; [apply derive_mult; [apply (is_derive_comp exp _ _ _ _ (is_derive_exp _) A)|apply (is_derive_comp cos _ _ _ _ (is_derive_cos _) B)]|]. unfold scal. cbn. unfold mult. cbn. ring.
  - evar_last; [apply derive_mult; [apply (is_derive_comp exp _ _ _ _ (is_derive_exp _) A)|apply (is_derive_comp sin _ _ _ _ (is_derive_sin _) B)]|]. unfold scal. cbn. unfold mult. cbn. ring.
Qed.
Lemma cderive_expl z t : cderive (fun s => cexp (z * RtoC s)%C) t (z * cexp (z * RtoC t))%C.
Proof. eapply cderive_eq; [apply cderive_exp, cderive_scal, cderive_id|]. cbv beta. ring. Qed.
