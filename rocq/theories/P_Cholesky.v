(** C50: the Cholesky factorisation. *)
From Coq Require Import Bool List Reals Lra Lia.
Import ListNotations.
From Verif Require Import Outcome Cholesky CholeskyFacts.
Open Scope R_scope.

(** The result is the factor. *)
Theorem C50_factor : forall m l, square m -> symmetric m -> cholesky m = Ok (Some l) -> cholesky_factor m l.
Proof.
  intros m l SQ SY H. destruct (cholesky_cases m SQ SY) as [(l' & E & F)|[E _]]; rewrite E in H; [injection H as <-; exact F|discriminate].
Qed.
Print Assumptions C50_factor.

(** There is a result exactly when the matrix is positive definite, and [None] otherwise;
    nothing else can happen. *)
Theorem C50_definite : forall m, square m -> symmetric m ->
  ((exists l, cholesky m = Ok (Some l)) <-> positive_definite m) /\ (cholesky m = Ok None <-> ~ positive_definite m).
Proof.
  intros m SQ SY. destruct (cholesky_cases m SQ SY) as [(l & E & F)|[E N]].
  - pose proof (factor_positive m l F). split; split; [auto|eauto|rewrite E; discriminate|intros; contradiction].
  - split; split; [intros (l & E'); rewrite E in E'; discriminate|intros; contradiction|auto|auto].
Qed.
Print Assumptions C50_definite.

(** A matrix with a factor gets that one: [None] means that there is none. *)
Theorem C50_unique : forall m l, square m -> symmetric m -> cholesky_factor m l ->
  exists l', cholesky m = Ok (Some l') /\ forall i j, entry l' i j = entry l i j.
Proof.
  intros m l SQ SY F. destruct (cholesky_cases m SQ SY) as [(l' & E & F')|[_ N]]; [|exfalso; apply N; eapply factor_positive; exact F].
  exists l'. split; [exact E|]. intros. eapply factor_unique; eassumption.
Qed.
Print Assumptions C50_unique.

Lemma correlation_square c : square (as_matrix c).
Proof. repeat constructor. Qed.
Lemma correlation_symmetric c : symmetric (as_matrix c).
Proof. intros i j. do 4 (try destruct i as [|i]); do 4 (try destruct j as [|j]); try reflexivity; unfold entry; cbn; try destruct i; try destruct j; reflexivity. Qed.

(** The FX-HHW correlation block is accepted exactly when the variance of every
    combination of the four drivers is positive; every correlation is then strictly
    between -1 and 1. *)
Theorem C50_correlation : forall c, exists b, is_valid c = Ok b /\
  (b = true <-> forall x s d f, x <> 0 \/ s <> 0 \/ d <> 0 \/ f <> 0 ->
     0 < x * x + s * s + d * d + f * f + 2 * rho_xi_sigma c * x * s + 2 * rho_xi_d c * x * d + 2 * rho_xi_f c * x * f
         + 2 * rho_sigma_d c * s * d + 2 * rho_sigma_f c * s * f + 2 * rho_d_f c * d * f) /\
  (b = true -> List.Forall (fun r => -1 < r < 1) [rho_xi_sigma c; rho_xi_d c; rho_xi_f c; rho_sigma_d c; rho_sigma_f c; rho_d_f c]).
Proof.
  intros c. unfold is_valid, cholesky4.
  assert (Q : forall x, quadratic (as_matrix c) x = x 0%nat * x 0%nat + x 1%nat * x 1%nat + x 2%nat * x 2%nat + x 3%nat * x 3%nat
    + 2 * rho_xi_sigma c * x 0%nat * x 1%nat + 2 * rho_xi_d c * x 0%nat * x 2%nat + 2 * rho_xi_f c * x 0%nat * x 3%nat
    + 2 * rho_sigma_d c * x 1%nat * x 2%nat + 2 * rho_sigma_f c * x 1%nat * x 3%nat + 2 * rho_d_f c * x 2%nat * x 3%nat).
  { intros x. unfold quadratic, entry. cbn. ring. }
  assert (P : positive_definite (as_matrix c) <-> forall x s d f, x <> 0 \/ s <> 0 \/ d <> 0 \/ f <> 0 ->
     0 < x * x + s * s + d * d + f * f + 2 * rho_xi_sigma c * x * s + 2 * rho_xi_d c * x * d + 2 * rho_xi_f c * x * f
         + 2 * rho_sigma_d c * s * d + 2 * rho_sigma_f c * s * f + 2 * rho_d_f c * d * f).
  { split.
    - intros PD x s d f NZ. set (v := fun i => match i with 0%nat => x | 1%nat => s | 2%nat => d | _ => f end).
      assert (NZ' : exists i, (i < length (as_matrix c))%nat /\ v i <> 0) by (cbn [as_matrix length]; destruct NZ as [?|[?|[?|?]]]; [exists 0%nat|exists 1%nat|exists 2%nat|exists 3%nat]; split; auto; lia).
      specialize (PD v NZ'). rewrite Q in PD. exact PD.
    - intros H x (i & Hi & NZ). rewrite Q. apply H. cbn in Hi. do 4 (destruct i as [|i]; [tauto|]). lia. }
  destruct (C50_definite (as_matrix c) (correlation_square c) (correlation_symmetric c)) as [A B].
  destruct (cholesky_cases (as_matrix c) (correlation_square c) (correlation_symmetric c)) as [(l & E & F)|[E N]]; rewrite E; cbn [obind].
  - assert (PD := proj1 P (factor_positive _ _ F)). exists true. split; [reflexivity|]. split; [tauto|]. intros _.
    assert (L : forall r, (forall a b, a <> 0 \/ b <> 0 -> 0 < a * a + b * b + 2 * r * a * b) -> -1 < r < 1).
    { intros r H. pose proof (H 1 1 ltac:(left; lra)). pose proof (H 1 (-1) ltac:(left; lra)). lra. }
    repeat apply Forall_cons; try apply Forall_nil; apply L; intros a b NZ.
    + specialize (PD a b 0 0). lra.
    + specialize (PD a 0 b 0). lra.
    + specialize (PD a 0 0 b). lra.
    + specialize (PD 0 a b 0). lra.
    + specialize (PD 0 a 0 b). lra.
    + specialize (PD 0 0 a b). lra.
  - exists false. split; [reflexivity|]. split; [split; [discriminate|intros H; exfalso; apply N, P, H]|discriminate].
Qed.
Print Assumptions C50_correlation.

(** A matrix with rational factor, a singular one and an indefinite one. *)
Example C50_witness : let m := [[4; 2; -2]; [2; 10; 5]; [-2; 5; 6]] in let l := [[2; 0; 0]; [1; 3; 0]; [-1; 2; 1]] in
  square m /\ symmetric m /\ cholesky_factor m l /\
  square [[1; 1]; [1; 1]] /\ symmetric [[1; 1]; [1; 1]] /\ cholesky [[1; 1]; [1; 1]] = Ok None /\
  symmetric [[1; 2]; [2; 1]] /\ cholesky [[1; 2]; [2; 1]] = Ok None.
Proof.
  cbv zeta.
  assert (S3 : forall a b c d e f, symmetric [[a; b; c]; [b; d; e]; [c; e; f]]).
  { intros a b c d e f i j. do 3 (try destruct i as [|i]); do 3 (try destruct j as [|j]); try reflexivity; unfold entry; cbn; try destruct i; try destruct j; reflexivity. }
  assert (S2 : forall a b c, symmetric [[a; b]; [b; c]]).
  { intros a b c i j. do 2 (try destruct i as [|i]); do 2 (try destruct j as [|j]); try reflexivity; unfold entry; cbn; try destruct i; try destruct j; reflexivity. }
  assert (Q2 : forall a b c, square [[a; b]; [b; c]]) by (intros; repeat constructor).
  split; [repeat constructor|]. split; [apply S3|]. split.
  { split; [reflexivity|]. split; [repeat constructor|]. split.
    - intros i j H. do 3 (destruct i as [|i]; [destruct j as [|[|[|j]]]; try lia; try reflexivity; unfold entry; cbn; destruct j; reflexivity|]). unfold entry. rewrite (nth_overflow _ []) by (cbn; lia). destruct j; reflexivity.
    - split.
      + intros i H. cbn in H. do 3 (destruct i as [|i]; [unfold entry; cbn; lra|]). lia.
      + intros i j Hi Hj. cbn in Hi, Hj. do 3 (destruct i as [|i]; [do 3 (destruct j as [|j]; [unfold entry; cbn; lra|]); lia|]). lia. }
  split; [apply Q2|]. split; [apply S2|].
  split. { apply C50_definite; [apply Q2|apply S2|]. intros PD. specialize (PD (fun i => if Nat.eqb i 0 then 1 else -1) ltac:(exists 0%nat; cbn; split; [lia|lra])). unfold quadratic, entry in PD. cbn in PD. lra. }
  split; [apply S2|]. apply C50_definite; [apply Q2|apply S2|]. intros PD. specialize (PD (fun i => if Nat.eqb i 0 then 1 else -1) ltac:(exists 0%nat; cbn; split; [lia|lra])). unfold quadratic, entry in PD. cbn in PD. lra.
Qed.
