(** Rust [while] loops.  [step s] is one iteration: [inl s'] goes round again,
    [inr r] leaves the loop (normally, or by panicking).  The loop is run with
    a bound given in binary, so the bound can exceed every possible number of
    iterations; what is left of it is [inl _], which callers turn into an
    explicit error and the proofs show never happens. *)
From Coq Require Import ZArith Lia.
From Verif Require Import Outcome.

Fixpoint loop {S R : Type} (p : positive) (step : S -> S + R) (s : S) : S + R :=
  match p with
  | xH => step s
  | xO q => match loop q step s with
            | inr r => inr r
            | inl s' => loop q step s'
            end
  | xI q => match step s with
            | inr r => inr r
            | inl s1 =>
              match loop q step s1 with
              | inr r => inr r
              | inl s2 => loop q step s2
              end
            end
  end.

(** Reference semantics of a bounded loop: [n] iterations in unary. *)
Fixpoint iter_loop {S R : Type} (n : nat) (step : S -> S + R) (s : S) : S + R :=
  match n with
  | O => inl s
  | Datatypes.S n' => match step s with inr r => inr r | inl s' => iter_loop n' step s' end
  end.

Lemma iter_loop_add {S R} n m (step : S -> S + R) s :
  iter_loop (n + m) step s =
  match iter_loop n step s with inr r => inr r | inl s' => iter_loop m step s' end.
Proof.
  revert s; induction n as [|n IH]; intros s; simpl; [reflexivity|].
  destruct (step s); [apply IH|reflexivity].
Qed.

Lemma loop_iter {S R} p (step : S -> S + R) s :
  loop p step s = iter_loop (Pos.to_nat p) step s.
Proof.
  revert s; induction p as [q IH|q IH|]; intros s; simpl loop.
  - rewrite Pos2Nat.inj_xI. simpl iter_loop. destruct (step s); [|reflexivity].
    replace (Pos.to_nat q + (Pos.to_nat q + 0))%nat with (Pos.to_nat q + Pos.to_nat q)%nat by lia.
    rewrite iter_loop_add, IH. destruct (iter_loop (Pos.to_nat q) step s0); [apply IH|reflexivity].
  - rewrite Pos2Nat.inj_xO.
    replace (2 * Pos.to_nat q)%nat with (Pos.to_nat q + Pos.to_nat q)%nat by lia.
    rewrite iter_loop_add, IH. destruct (iter_loop (Pos.to_nat q) step s); [apply IH|reflexivity].
  - simpl. now destruct (step s).
Qed.

(** A loop whose state carries a strictly decreasing measure below the bound
    finishes, and every finishing loop satisfies whatever the step preserves. *)
Lemma loop_ind {S R} (step : S -> S + R) (I : S -> Prop) (Q : R -> Prop) (mu : S -> Z) p s :
  I s ->
  (mu s < Zpos p)%Z ->
  (forall s, I s -> (0 <= mu s)%Z) ->
  (forall s s', I s -> step s = inl s' -> I s' /\ (mu s' < mu s)%Z) ->
  (forall s r, I s -> step s = inr r -> Q r) ->
  exists r, loop p step s = inr r /\ Q r.
Proof.
  intros HI Hmu Hpos Hstep Hdone. rewrite loop_iter.
  assert (Hmu' : (mu s < Z.of_nat (Pos.to_nat p))%Z) by lia. clear Hmu.
  revert s HI Hmu'. induction (Pos.to_nat p) as [|n IH]; intros s HI Hmu.
  - specialize (Hpos s HI). lia.
  - simpl. destruct (step s) as [s'|r] eqn:E.
    + destruct (Hstep s s' HI E) as [HI' Hlt]. apply IH; [exact HI'|lia].
    + exists r. split; [reflexivity|eauto].
Qed.

Lemma loop_done {S R} p (step : S -> S + R) s r : step s = inr r -> loop p step s = inr r.
Proof.
  intros H. induction p as [q IH|q IH|]; simpl; [now rewrite H|now rewrite IH|exact H].
Qed.

(** A property of every exit of the step is a property of the loop's result. *)
Lemma loop_exit {S R} (step : S -> S + R) (Q : R -> Prop) p s r :
  (forall s r, step s = inr r -> Q r) -> loop p step s = inr r -> Q r.
Proof.
  intros H. rewrite loop_iter. generalize (Pos.to_nat p). intros n. revert s.
  induction n as [|n IH]; intros s; simpl; [discriminate|].
  destruct (step s) as [s'|r'] eqn:E; [apply IH|intros [= <-]; eauto].
Qed.
