(** The Easter tables against the computus. *)
From Coq Require Import ZArith Bool List Lia.
From Coq Require Import ZifyBool.
Import ListNotations.
From Verif Require Import Outcome Date DateFacts Cal_easter Cal_base EasterSpec.
Open Scope Z_scope.
Ltac Zify.zify_post_hook ::= Z.div_mod_to_equations.

(** One year: the day before the tabulated Monday is a Sunday in the week after
    the full moon. *)
Definition agrees (fm : Z -> date) (y e : Z) : bool :=
  let s := of_ymd y 1 1 + (e - 2) in
  let f := fm y in
  (s mod 7 =? 0) && (f <? s) && (s <=? f + 7).

Fixpoint agrees_from (fm : Z -> date) (y : Z) (l : list Z) : bool :=
  match l with [] => true | e :: l => agrees fm y e && agrees_from fm (y + 1) l end.

Lemma agrees_from_nth fm l : forall y i, agrees_from fm y l = true -> (i < length l)%nat ->
  agrees fm (y + Z.of_nat i) (nth i l 0) = true.
Proof.
  induction l as [|e l IH]; intros y i H L; [simpl in L; lia|].
  cbn [agrees_from] in H. apply andb_true_iff in H. destruct H as [H1 H2].
  destruct i as [|i].
  - replace (y + Z.of_nat 0) with y by lia. exact H1.
  - replace (y + Z.of_nat (S i)) with (y + 1 + Z.of_nat i) by lia.
    apply IH; [exact H2 | simpl in L; lia].
Qed.

Lemma western_check : agrees_from western_full_moon 1901 EASTER_MONDAY = true.
Proof. vm_compute. reflexivity. Qed.
Lemma orthodox_check : agrees_from orthodox_full_moon 1901 ORTHODOX_EASTER_MONDAY = true.
Proof. vm_compute. reflexivity. Qed.

Lemma weekday_sun_mod n : weekday_of n = Sun <-> n mod 7 = 0.
Proof.
  pose proof (weekday_num_of n) as E. split; intros H.
  - rewrite H in E. cbn in E. lia.
  - destruct (weekday_of n); cbn in E; try (exfalso; lia). reflexivity.
Qed.

Lemma agrees_spec fm y e : agrees fm y e = true ->
  first_sunday_after (fm y) (of_ymd y 1 1 + (e - 2)).
Proof.
  unfold agrees. set (s := of_ymd y 1 1 + (e - 2)). cbv zeta.
  rewrite !andb_true_iff, Z.eqb_eq, Z.ltb_lt, Z.leb_le. intros [[A B] C].
  split; [now apply weekday_sun_mod|]. split; [exact B|].
  intros x X. rewrite weekday_sun_mod. change date with Z in *. clearbody s. generalize dependent (fm y).
  intros. lia.
Qed.

Lemma first_sunday_unique f s s' : first_sunday_after f s -> first_sunday_after f s' -> s = s'.
Proof.
  intros (A & B & C) (A' & B' & C'). change date with Z in *.
  destruct (Z.lt_trichotomy s s') as [L|[L|L]]; [|exact L|].
  - exfalso. apply (C' s); [lia|exact A].
  - exfalso. apply (C s'); [lia|exact A'].
Qed.

Lemma jan1_year y k : 0 <= k <= 364 -> year (of_ymd y 1 1 + k) = y.
Proof.
  intros K. assert (V : valid_ymd y 1 1) by (split; [lia|]; pose proof (mlen_bounds y 1); lia).
  assert (V' : valid_ymd y 12 31) by (split; [lia|]; change (mlen y 12) with 31; lia).
  assert (E : of_ymd y 12 31 = of_ymd y 12 1 + 30) by (rewrite of_ymd_day; lia).
  pose proof (year_of_ymd y 1 1 V) as Y1. pose proof (year_of_ymd y 12 31 V') as Y2.
  assert (of_ymd y 1 1 + 364 <= of_ymd y 12 31).
  { clear Y1 Y2.
    pose proof (of_ymd_next_month y 1 ltac:(lia)) as N1. change (1 + 1) with 2 in N1.
    pose proof (of_ymd_next_month y 2 ltac:(lia)) as N2. change (2 + 1) with 3 in N2.
    pose proof (of_ymd_next_month y 3 ltac:(lia)) as N3. change (3 + 1) with 4 in N3.
    pose proof (of_ymd_next_month y 4 ltac:(lia)) as N4. change (4 + 1) with 5 in N4.
    pose proof (of_ymd_next_month y 5 ltac:(lia)) as N5. change (5 + 1) with 6 in N5.
    pose proof (of_ymd_next_month y 6 ltac:(lia)) as N6. change (6 + 1) with 7 in N6.
    pose proof (of_ymd_next_month y 7 ltac:(lia)) as N7. change (7 + 1) with 8 in N7.
    pose proof (of_ymd_next_month y 8 ltac:(lia)) as N8. change (8 + 1) with 9 in N8.
    pose proof (of_ymd_next_month y 9 ltac:(lia)) as N9. change (9 + 1) with 10 in N9.
    pose proof (of_ymd_next_month y 10 ltac:(lia)) as N10. change (10 + 1) with 11 in N10.
    pose proof (of_ymd_next_month y 11 ltac:(lia)) as N11. change (11 + 1) with 12 in N11.
    change (mlen y 1) with 31 in N1.
    change (mlen y 3) with 31 in N3.
    change (mlen y 4) with 30 in N4.
    change (mlen y 5) with 31 in N5.
    change (mlen y 6) with 30 in N6.
    change (mlen y 7) with 31 in N7.
    change (mlen y 8) with 31 in N8.
    change (mlen y 9) with 30 in N9.
    change (mlen y 10) with 31 in N10.
    change (mlen y 11) with 30 in N11.
    pose proof (mlen_bounds y 2). change date with Z in *. lia. }
  change date with Z in *.
  pose proof (year_mono (of_ymd y 1 1) (of_ymd y 1 1 + k) ltac:(lia)).
  pose proof (year_mono (of_ymd y 1 1 + k) (of_ymd y 12 31) ltac:(lia)). lia.
Qed.

Lemma table_easter fm t y : length t = 299%nat -> agrees_from fm 1901 t = true ->
  forallb (fun e => (82 <=? e) && (e <=? 131)) t = true -> supported y ->
  exists em s, table_index t (y - 1901) = Ok em /\ first_sunday_after (fm y) s /\
    s + 1 = of_ymd y 1 1 + (em - 1) /\ 82 <= em <= 131.
Proof.
  intros L A B S. unfold supported in S.
  set (i := Z.to_nat (y - 1901)).
  assert (I : (i < length t)%nat) by lia.
  exists (nth i t 0), (of_ymd y 1 1 + (nth i t 0 - 2)).
  split. { rewrite table_index_Ok by lia. reflexivity. }
  split. { apply agrees_spec. pose proof (agrees_from_nth fm t 1901 i A I) as H.
           replace (1901 + Z.of_nat i) with y in H by lia. exact H. }
  split. { change date with Z. ring. }
  rewrite forallb_forall in B. specialize (B _ (nth_In t 0 I)). lia.
Qed.

Lemma western_easter_monday y : supported y ->
  exists em s, easter_monday y = Ok em /\ western_easter y s /\ s + 1 = of_ymd y 1 1 + (em - 1) /\ 82 <= em <= 131.
Proof.
  intros S. exact (table_easter western_full_moon EASTER_MONDAY y eq_refl western_check (proj1 easter_bounds) S).
Qed.

Lemma orthodox_easter_monday_ok y : supported y ->
  exists em s, orthodox_easter_monday y = Ok em /\ orthodox_easter y s /\ s + 1 = of_ymd y 1 1 + (em - 1) /\ 82 <= em <= 131.
Proof.
  intros S. exact (table_easter orthodox_full_moon ORTHODOX_EASTER_MONDAY y eq_refl orthodox_check (proj2 easter_bounds) S).
Qed.
