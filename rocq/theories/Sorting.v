(** The contracts of the standard library's slice sort and binary search, and
    one implementation of each that meets them. *)
From Coq Require Import ZArith Lia List Permutation Sorting.Sorted.
Import ListNotations.
Open Scope Z_scope.

(** [slice::sort_unstable_by_key] (and [sort_by_key]): some permutation of the
    slice whose keys do not decrease.  Nothing is said about equal keys. *)
Definition sorts_by {A} (key : A -> Z) (sort : list A -> list A) : Prop :=
  forall l, Permutation l (sort l) /\ StronglySorted (fun a b => key a <= key b) (sort l).

(** [slice::binary_search_by_key] on a sorted slice: [inl i] is Ok(i), the index
    of some element with that key; [inr i] is Err(i), the place where the key
    could be inserted. *)
Definition searches_by {A} (key : A -> Z) (search : list A -> Z -> nat + nat) : Prop :=
  forall l t, StronglySorted (fun a b => key a <= key b) l ->
  match search l t with
  | inl i => exists a, nth_error l i = Some a /\ key a = t
  | inr i => (i <= length l)%nat /\
      (forall j a, nth_error l j = Some a -> (j < i)%nat -> key a < t) /\
      (forall j a, nth_error l j = Some a -> (i <= j)%nat -> t < key a)
  end.

(** Insertion sort and linear search: witnesses that the contracts can be met. *)
Fixpoint insert_by {A} (key : A -> Z) (a : A) (l : list A) : list A :=
  match l with
  | [] => [a]
  | b :: r => if key a <=? key b then a :: b :: r else b :: insert_by key a r
  end.
Definition isort_by {A} (key : A -> Z) (l : list A) : list A := fold_right (insert_by key) [] l.
Fixpoint lsearch_by {A} (key : A -> Z) (l : list A) (t : Z) : nat + nat :=
  match l with
  | [] => inr O
  | b :: r => if key b =? t then inl O
              else if t <? key b then inr O
              else match lsearch_by key r t with inl i => inl (S i) | inr i => inr (S i) end
  end.

Section WithKey.
  Context {A : Type} (key : A -> Z).

  Lemma insert_perm a l : Permutation (a :: l) (insert_by key a l).
  Proof.
    induction l as [|b r IH]; cbn; [reflexivity|]. destruct (key a <=? key b); [reflexivity|].
    rewrite <- IH. apply perm_swap.
  Qed.

  Lemma insert_sorted a l : StronglySorted (fun x y => key x <= key y) l ->
    StronglySorted (fun x y => key x <= key y) (insert_by key a l).
  Proof.
    induction l as [|b r IH]; cbn; intros H; [repeat constructor|].
    inversion H as [|? ? Hr Hb]; subst. destruct (Z.leb_spec (key a) (key b)).
    - constructor; [assumption|]. constructor; [lia|].
      eapply Forall_impl; [|exact Hb]. cbn. intros; lia.
    - constructor; [auto|]. rewrite Forall_forall in *. intros x Hx.
      apply (Permutation_in _ (Permutation_sym (insert_perm a r))) in Hx. destruct Hx as [<-|Hx]; [lia|auto].
  Qed.

  Lemma isort_sorts : sorts_by key (isort_by key).
  Proof.
    intros l. induction l as [|a r [P S]]; cbn; [split; constructor|]. split.
    - rewrite <- insert_perm. constructor. exact P.
    - apply insert_sorted. exact S.
  Qed.

  Lemma lsearch_searches : searches_by key (lsearch_by key).
  Proof.
    intros l t. induction l as [|b r IH]; cbn; intros H.
    - split; [lia|]. split; intros j a E; destruct j; discriminate.
    - inversion H as [|? ? Hr Hb]; subst. rewrite Forall_forall in Hb.
      destruct (Z.eqb_spec (key b) t); [exists b; auto|].
      destruct (Z.ltb_spec t (key b)).
      + split; [lia|]. split; [intros; lia|]. intros [|j] a E _; cbn in E; [injection E as <-; lia|].
        apply nth_error_In in E. specialize (Hb _ E). cbn in Hb. lia.
      + specialize (IH Hr). destruct (lsearch_by key r t) as [i|i]; [exact IH|].
        destruct IH as (Li & Lo & Hi). split; [lia|]. split.
        * intros [|j] a E L; cbn in E; [injection E as <-; lia|]. eapply Lo; [exact E|lia].
        * intros [|j] a E L; [lia|]. cbn in E. eapply Hi; [exact E|lia].
  Qed.
End WithKey.
