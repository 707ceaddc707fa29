(** Facts about the stochastic processes. *)
From Coq Require Import ZArith Bool List Reals Lra Lia Psatz.
From Flocq Require Import Core BinarySingleNaN.
Import ListNotations.
From Verif Require Import Outcome Date Sorting F64 Simulation SimulationFacts Processes.

Lemma Ok_pair {A B} (a c : A) (b d : B) : Ok (a, b) = Ok (c, d) -> a = c /\ b = d.
Proof. intros H. injection H as -> ->. auto. Qed.
Lemma Ok_triple {A B C} (a c : A) (b d : B) (e f : C) : Ok (a, (b, e)) = Ok (c, (d, f)) -> a = c /\ b = d /\ e = f.
Proof. intros H. injection H as -> -> ->. auto. Qed.

(** The real numbers.  [powf x y] is only used with [0 <= x] and [0 <= y]. *)
Definition powfR (x y : R) : R := if Req_EM_T x 0 then if Req_EM_T y 0 then 1%R else 0%R else Rpower x y.
Canonical Structure R_numbers : numbers :=
  {| num := R; n0 := 0%R; n1 := 1%R; nhalf := (/ 2)%R;
     nadd := Rplus; nsub := Rminus; nmul := Rmult; ndiv := Rdiv; nneg := Ropp;
     nmax := Rmax; nsqrt := sqrt; nexp := exp; nln := ln; npowf := powfR;
     nlt := fun x y => if Rlt_dec x y then true else false; nle := fun x y => if Rle_dec x y then true else false; n_of_nat := INR |}.

(** binary64.  [f64::max] returns the other argument when one is NaN. *)
Definition b64_max (x y : f64) : f64 :=
  match Bcompare x y with
  | Some Lt => y
  | Some _ => x
  | None => if is_nan x then y else x
  end.
(** [exp], [ln] and [powf] come from libm: any functions. *)
Definition b64_numbers (lib_exp lib_ln : f64 -> f64) (lib_powf : f64 -> f64 -> f64) : numbers :=
  {| num := f64; n0 := f64_of_Z 0; n1 := f64_of_Z 1; nhalf := f64_lit 1 (-1);
     nadd := fadd; nsub := fsub; nmul := fmul; ndiv := fdiv; nneg := Bopp;
     nmax := b64_max; nsqrt := Bsqrt mode_NE; nexp := lib_exp; nln := lib_ln; npowf := lib_powf;
     nlt := fun x y => match Bcompare x y with Some Lt => true | _ => false end;
     nle := fun x y => match Bcompare x y with Some Lt | Some Eq => true | _ => false end;
     n_of_nat := fun n => f64_of_Z (Z.of_nat n) |}.

(** [x >= 0.0] in binary64, so in particular not NaN; and not [x < 0.0]. *)
Definition ge0_64 (x : f64) : Prop := Bcompare x (f64_of_Z 0) = Some Gt \/ Bcompare x (f64_of_Z 0) = Some Eq.
Definition not_lt0_64 (x : f64) : Prop := Bcompare x (f64_of_Z 0) <> Some Lt.

Lemma zero64 : f64_of_Z 0 = B754_zero false.
Proof. reflexivity. Qed.

Lemma max_ge0 x : ge0_64 (b64_max x (f64_of_Z 0)).
Proof.
  unfold ge0_64, b64_max. rewrite zero64. destruct x as [s|s| |s m e H]; [destruct s; cbn; auto|destruct s; cbn; auto|cbn; auto|].
  destruct s; cbn; auto.
Qed.

(** The sign of a product of numbers that are not negative. *)
Lemma ge0_cases x : ge0_64 x <-> match x with B754_zero _ => True | B754_infinity s => s = false | B754_nan => False | B754_finite s _ _ _ => s = false end.
Proof. unfold ge0_64. rewrite zero64. destruct x as [s|[]| |[] m e H]; cbn; split; intros X; try discriminate; try tauto; auto; destruct X; discriminate. Qed.
Lemma not_lt0_cases x : not_lt0_64 x <-> match x with B754_zero _ => True | B754_infinity s => s = false | B754_nan => True | B754_finite s _ _ _ => s = false end.
Proof. unfold not_lt0_64. rewrite zero64. destruct x as [s|[]| |[] m e H]; cbn; split; intros X; try discriminate; try tauto; congruence. Qed.

Lemma mul_not_lt0 x y : ge0_64 x -> not_lt0_64 y -> not_lt0_64 (fmul x y).
Proof.
  rewrite ge0_cases, !not_lt0_cases. intros X Y. unfold fmul.
  destruct x as [sx|sx| |sx mx ex Hx]; destruct y as [sy|sy| |sy my ey Hy]; try contradiction; subst; try exact I; try reflexivity.
  (* two finite numbers *)
  pose proof (Bmult_correct 53 1024 _ _ mode_NE (B754_finite false mx ex Hx) (B754_finite false my ey Hy)) as C.
  set (r := Bmult mode_NE (B754_finite false mx ex Hx) (B754_finite false my ey Hy)) in *. clearbody r.
  match type of C with (if ?b then _ else _) => destruct b end.
  - destruct C as (_ & _ & S). destruct r as [s|s| |s m e H]; try exact I; exact (S eq_refl).
  - destruct r as [s|s| |s m e H]; cbn in C; try exact I; try discriminate; injection C as ->; reflexivity.
Qed.

Open Scope R_scope.

Lemma rmax0 x : 0 <= Rmax x 0.
Proof. apply Rmax_r. Qed.

(** Every state that the runner records satisfies an invariant of the steps. *)
Lemma simulate_invariant sort search (HS : sorts_by (fun d => d) sort) (HF : searches_by (fun d => d) search) {Md St : Type}
  (init : Md -> St) (step : Md -> St -> R -> R -> outcome (Md * St)) (Inv : St -> Prop) :
  (forall m, Inv (init m)) -> (forall m s t dt m1 s1, 0 < dt -> Inv s -> step m s t dt = Ok (m1, s1) -> Inv s1) ->
  forall yf m v obs n stp m' p, simulate_at_dates sort search init step yf m v obs n stp = Ok (m', p) ->
  forall path, In path (paths p) -> forall s, In s path -> Inv s.
Proof.
  intros I0 IS yf m v obs n stp m' p H path Hp s Hs.
  destruct (simulate_spec sort HS search HF init step yf m v obs n stp m' p H) as (_ & _ & _ & _ & _ & _ & _ & ds & time & _ & _ & C).
  destruct (chained_in _ _ _ _ _ C Hp) as (m1 & m2 & tr & EV & _ & k & _ & F & _).
  assert (X : exists d, In (d, s) tr).
  { clear - F Hs. revert F. generalize (firstn k (sort obs)). intros l0 F. induction F as [|d s' l l' H F IH]; [contradiction|]. destruct Hs as [<-|Hs]; [eauto|apply IH, Hs]. }
  destruct X as (d & X). exact (evolution_inv step time Inv IS _ _ _ _ _ EV (I0 _) _ _ X).
Qed.

(** The same for [simulate]. *)
Lemma steps_invariant {N : numbers} {S} (step : rng N -> S -> N -> outcome (rng N * S)) (Inv : S -> Prop) dt :
  (forall g s g1 s1, Inv s -> step g s dt = Ok (g1, s1) -> Inv s1) ->
  forall n g s g1 s1, Inv s -> steps step n dt g s = Ok (g1, s1) -> Inv s1.
Proof.
  intros IS. induction n as [|n IH]; intros g s g1 s1 I H; cbn [steps] in H; [injection H as <- <-; exact I|].
  destruct (step g s dt) as [[g2 s2]| |] eqn:E; [|discriminate|discriminate]. cbn [obind] in H. eapply IH; [|exact H]. eapply IS; eassumption.
Qed.
Lemma terminal_invariant {N : numbers} {S} (step : rng N -> S -> N -> outcome (rng N * S)) (Inv : S -> Prop) init :
  Inv init -> (forall g s dt g1 s1, Inv s -> step g s dt = Ok (g1, s1) -> Inv s1) ->
  forall t_end n_steps n_paths g g1 ss, simulate step init t_end n_steps n_paths g = Ok (g1, ss) -> length ss = n_paths /\ forall s, In s ss -> Inv s.
Proof.
  intros I0 IS t_end n_steps n_paths g g1 ss H. unfold simulate in H. destruct (_ || _); [discriminate|]. revert H. generalize (ndiv t_end (n_of_nat n_steps)). intros dt.
  revert g g1 ss. induction n_paths as [|k IH]; intros g g1 ss H; cbn [terminals] in H; [injection H as <- <-; split; [reflexivity|intros s []]|].
  destruct (steps step n_steps dt g init) as [[g2 s2]| |] eqn:E; [|discriminate|discriminate]. cbn [obind] in H.
  destruct (terminals step init k n_steps dt g2) as [[g3 ss3]| |] eqn:E2; [|discriminate|discriminate]. cbn [obind] in H. injection H as <- <-.
  destruct (IH g2 g3 ss3 E2) as [L F]. split; [cbn; congruence|]. intros s [<-|Hs]; [|apply F, Hs].
  eapply steps_invariant; [|exact I0|exact E]. intros g' s' g'' s'' I X. eapply IS; eassumption.
Qed.
