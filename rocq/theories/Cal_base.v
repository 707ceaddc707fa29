(** What the shipped calendars share: the Easter tables and table lookups. *)
From Coq Require Import ZArith Bool List Lia.
Import ListNotations.
From Verif Require Import Outcome Date Calendar Cal_easter.
Open Scope Z_scope.

(** [TABLE[y as usize - base]] (src/time/calendars.rs:190, 194; chile.rs:34).
    The index is computed in Z; a negative one is a subtraction overflow with
    overflow checks on and wraps to a huge usize with them off.  Both panic;
    the model does not distinguish the two reasons and reports [PIndex]. *)
Definition table_index (t : list Z) (i : Z) : outcome Z :=
  if i <? 0 then Panic PIndex
  else match nth_error t (Z.to_nat i) with Some v => Ok v | None => Panic PIndex end.

(** src/time/calendars.rs:189-191  Calendar::easter_monday *)
Definition easter_monday (y : Z) : outcome Z := table_index EASTER_MONDAY (y - 1901).

(** src/time/calendars.rs:193-195  Calendar::orthodox_easter_monday *)
Definition orthodox_easter_monday (y : Z) : outcome Z := table_index ORTHODOX_EASTER_MONDAY (y - 1901).

(** [HashSet<(u32,u32,i32)>::contains] (israel.rs:34): membership in the list
    of the set's elements. *)
Definition set_contains (x : Z * Z * Z) (s : list (Z * Z * Z)) : bool :=
  existsb (fun t => match x, t with (a, b, c), (a', b', c') => (a =? a') && (b =? b') && (c =? c') end) s.

(** [if let Some(h) = MAP.get(&y) && h.contains(&(d, m))] (hongkong.rs:32-34) *)
Definition map_contains (y : Z) (x : Z * Z) (mp : list (Z * list (Z * Z))) : bool :=
  existsb (fun e => (fst e =? y) &&
     existsb (fun t => (fst x =? fst t) && (snd x =? snd t)) (snd e)) mp.

(** A chain [a || b || ...] whose operands can panic. *)
Fixpoint oany (l : list (outcome bool)) : outcome bool :=
  match l with [] => Ok false | a :: l => oor a (oany l) end.

Lemma table_index_Ok t i : 0 <= i < Z.of_nat (length t) -> table_index t i = Ok (nth (Z.to_nat i) t 0).
Proof.
  intros H. unfold table_index. destruct (Z.ltb_spec i 0); [lia|].
  rewrite nth_error_nth' with (d := 0) by lia. reflexivity.
Qed.

Lemma table_index_Panic t i : ~ (0 <= i < Z.of_nat (length t)) -> table_index t i = Panic PIndex.
Proof.
  intros H. unfold table_index. destruct (Z.ltb_spec i 0); [reflexivity|].
  destruct (nth_error t (Z.to_nat i)) eqn:E; [|reflexivity].
  assert (nth_error t (Z.to_nat i) <> None) by congruence.
  apply nth_error_Some in H1. lia.
Qed.

(** Every entry is at least 82, so no [em - k] with k <= 81 underflows u32. *)
Lemma easter_bounds :
  forallb (fun e => (82 <=? e) && (e <=? 131)) EASTER_MONDAY = true /\
  forallb (fun e => (82 <=? e) && (e <=? 131)) ORTHODOX_EASTER_MONDAY = true.
Proof. split; vm_compute; reflexivity. Qed.

(** The supported years. *)
Definition supported (y : Z) : Prop := 1901 <= y <= 2199.

Lemma easter_Ok y : supported y -> exists em, easter_monday y = Ok em /\ 82 <= em <= 131.
Proof.
  intros H. unfold easter_monday, supported in *.
  assert (L : length EASTER_MONDAY = 299%nat) by reflexivity.
  rewrite table_index_Ok by lia. eexists; split; [reflexivity|].
  pose proof (proj1 easter_bounds) as B. rewrite forallb_forall in B.
  specialize (B (nth (Z.to_nat (y - 1901)) EASTER_MONDAY 0)).
  assert (I : In (nth (Z.to_nat (y - 1901)) EASTER_MONDAY 0) EASTER_MONDAY) by (apply nth_In; lia).
  specialize (B I). apply andb_true_iff in B. destruct B as [B1 B2].
  apply Z.leb_le in B1. apply Z.leb_le in B2. lia.
Qed.

Lemma orthodox_Ok y : supported y -> exists em, orthodox_easter_monday y = Ok em /\ 82 <= em <= 131.
Proof.
  intros H. unfold orthodox_easter_monday, supported in *.
  assert (L : length ORTHODOX_EASTER_MONDAY = 299%nat) by reflexivity.
  rewrite table_index_Ok by lia. eexists; split; [reflexivity|].
  pose proof (proj2 easter_bounds) as B. rewrite forallb_forall in B.
  specialize (B (nth (Z.to_nat (y - 1901)) ORTHODOX_EASTER_MONDAY 0)).
  assert (I : In (nth (Z.to_nat (y - 1901)) ORTHODOX_EASTER_MONDAY 0) ORTHODOX_EASTER_MONDAY) by (apply nth_In; lia).
  specialize (B I). apply andb_true_iff in B. destruct B as [B1 B2].
  apply Z.leb_le in B1. apply Z.leb_le in B2. lia.
Qed.
