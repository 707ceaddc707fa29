(** Proofs about forward points. *)
From Coq Require Import ZArith Lia Lra Bool List Reals Permutation Sorting.Sorted.
Import ListNotations.
From Verif Require Import Outcome Ints Loop Date Calendar CalendarSpec Sorting ForwardPoints.
Open Scope Z_scope.
Local Ltac lia := unfold date in *; Lia.lia.

(** The value that the quotes [D] give at date [t]: a quoted value, or the
    linear interpolation between the nearest quoted dates on either side. *)
Definition points_at (D : list (date * R)) (t : date) (v : R) : Prop :=
  In (t, v) D \/
  ((forall q, In q D -> fst q <> t) /\
   exists s e, In s D /\ In e D /\ fst s < t < fst e /\
     (forall q, In q D -> fst q <= fst s \/ fst e <= fst q) /\
     v = (snd s + (snd e - snd s) * (IZR (t - fst s) / IZR (fst e - fst s)))%R).
Definition out_of_quotes (D : list (date * R)) (t : date) : Prop :=
  (forall q, In q D -> t < fst q) \/ (forall q, In q D -> fst q < t).

Lemma sorted_nth {A} (key : A -> Z) l i j a b : StronglySorted (fun x y => key x <= key y) l ->
  nth_error l i = Some a -> nth_error l j = Some b -> (i <= j)%nat -> key a <= key b.
Proof.
  intros S. revert i j. induction S as [|x r Sr IH Hx]; intros i j Ha Hb L; [destruct i; discriminate|].
  rewrite Forall_forall in Hx. destruct i as [|i], j as [|j]; cbn in *; try lia.
  - congruence || (injection Ha as <-; injection Hb as <-; lia).
  - injection Ha as <-. apply Hx. eapply nth_error_In, Hb.
  - apply (IH i j); auto; lia.
Qed.

Lemma get_forward_cases sort search oc h t c D : sorts_by fst sort -> searches_by fst search ->
  fh_valuation_date h < t -> dated_quotes oc h c = Ok D -> (2 <= length D)%nat ->
  (exists v, get_forward sort search oc h t c = Ok (Some v) /\ points_at D t v) \/
  (get_forward sort search oc h t c = Ok None /\ out_of_quotes D t).
Proof.
  intros Hs Hf Ht HD L2. unfold get_forward, points_at, out_of_quotes. unfold date in *.
  destruct (Z.leb_spec t (fh_valuation_date h)) as [|_]; [lia|]. rewrite HD. cbn [obind].
  destruct (Nat.ltb_spec (length D) 2) as [|_]; [lia|].
  destruct (Hs D) as [P S]. specialize (Hf (sort D) t S).
  assert (LD : length (sort D) = length D) by (symmetry; apply Permutation_length; exact P).
  assert (I : forall q, In q (sort D) <-> In q D).
  { intros q. split; apply Permutation_in; [apply Permutation_sym|]; exact P. }
  destruct (search (sort D) t) as [i|i].
  - destruct Hf as (a & E & K). rewrite E. left. exists (snd a). split; [reflexivity|]. left.
    apply I. rewrite <- K. destruct a; cbn. eapply nth_error_In, E.
  - destruct Hf as (Li & Lo & Hi).
    destruct (Nat.eqb_spec i 0) as [->|N0]; cbn [orb].
    { right. split; [reflexivity|]. left. intros q Hq. apply I in Hq.
      destruct (In_nth_error _ _ Hq) as (j & Ej). apply (Hi j q Ej). lia. }
    destruct (Nat.eqb_spec i (length (sort D))) as [E|NL].
    { right. split; [reflexivity|]. right. intros q Hq. apply I in Hq.
      destruct (In_nth_error _ _ Hq) as (j & Ej). apply (Lo j q Ej).
      assert (nth_error (sort D) j <> None) as Hj by congruence. apply nth_error_Some in Hj. lia. }
    destruct (nth_error (sort D) (i - 1)) as [s|] eqn:Es; [|apply nth_error_None in Es; lia].
    destruct (nth_error (sort D) i) as [e|] eqn:Ee; [|apply nth_error_None in Ee; lia].
    left. eexists. split; [reflexivity|]. right.
    assert (A : @fst Z R s < t) by (apply (Lo _ _ Es); lia).
    assert (B : t < @fst Z R e) by (apply (Hi _ _ Ee); lia).
    split.
    + intros q Hq. apply I in Hq. destruct (In_nth_error _ _ Hq) as (j & Ej).
      destruct (Nat.lt_ge_cases j i) as [Lj|Lj]; [specialize (Lo _ _ Ej Lj)|specialize (Hi _ _ Ej Lj)]; unfold date in *; lia.
    + exists s, e. split; [apply I; eapply nth_error_In, Es|]. split; [apply I; eapply nth_error_In, Ee|].
      split; [lia|]. split.
      * intros q Hq. apply I in Hq. destruct (In_nth_error _ _ Hq) as (j & Ej).
        destruct (Nat.lt_ge_cases j i) as [Lj|Lj].
        -- left. apply (sorted_nth fst (sort D) j (i - 1) q s S Ej Es). lia.
        -- right. apply (sorted_nth fst (sort D) i j e q S Ee Ej). lia.
      * unfold interpolate. unfold date in *. destruct (Z.eqb_spec (fst e - fst s) 0); [lia|reflexivity].
Qed.

Lemma out_not_points D t v : D <> [] -> out_of_quotes D t -> ~ points_at D t v.
Proof.
  intros N O [H|(_ & s & e & Hs & He & L & _)].
  - destruct O as [O|O]; specialize (O _ H); cbn in O; lia.
  - destruct O as [O|O]; [specialize (O _ Hs)|specialize (O _ He)]; lia.
Qed.

Lemma NoDup_fst_inj {A B} (l : list (A * B)) a b b' : NoDup (map fst l) -> In (a, b) l -> In (a, b') l -> b = b'.
Proof.
  induction l as [|[x y] r IH]; cbn; intros N H H'; [contradiction|].
  inversion N as [|? ? Nx Nr]; subst. destruct H as [H|H], H' as [H'|H'].
  - congruence.
  - injection H as -> ->. destruct Nx. apply (in_map fst) in H'. exact H'.
  - injection H' as -> ->. destruct Nx. apply (in_map fst) in H. exact H.
  - eauto.
Qed.

Lemma points_at_unique D D' t v v' : NoDup (map fst D) -> (forall q, In q D <-> In q D') ->
  points_at D t v -> points_at D' t v' -> v = v'.
Proof.
  intros N P [H|(H & s & e & Hs & He & L & M & ->)] [H'|(H' & s' & e' & Hs' & He' & L' & M' & ->)].
  - apply (NoDup_fst_inj D t); [assumption..|apply P; assumption].
  - exfalso. apply P in H. exact (H' _ H eq_refl).
  - exfalso. apply P in H'. exact (H _ H' eq_refl).
  - apply P in Hs', He'.
    assert (fst s = fst s') as Es.
    { destruct (M _ Hs'); destruct (M' s (proj1 (P s) Hs)); lia. }
    assert (fst e = fst e') as Ee.
    { destruct (M _ He'); destruct (M' e (proj1 (P e) He)); lia. }
    assert (s = s').
    { destruct s as [a b], s' as [a' b']; cbn in *. subst a'. f_equal. apply (NoDup_fst_inj D a); assumption. }
    assert (e = e').
    { destruct e as [a b], e' as [a' b']; cbn in *. subst a'. f_equal. apply (NoDup_fst_inj D a); assumption. }
    subst. reflexivity.
Qed.

Lemma points_between D t s e v : NoDup (map fst D) -> In s D -> In e D -> fst s < t < fst e ->
  (forall q, In q D -> fst q <= fst s \/ fst e <= fst q) -> points_at D t v ->
  (Rmin (snd s) (snd e) <= v <= Rmax (snd s) (snd e))%R.
Proof.
  intros N Hs He L M H.
  assert (Hv : points_at D t (snd s + (snd e - snd s) * (IZR (t - fst s) / IZR (fst e - fst s)))%R).
  { right. split; [|exists s, e; auto]. intros q Hq E. destruct (M q Hq); lia. }
  assert (v = (snd s + (snd e - snd s) * (IZR (t - fst s) / IZR (fst e - fst s)))%R) as ->.
  { eapply points_at_unique; [exact N|intros q; reflexivity|exact H|exact Hv]. }
  assert (0 <= IZR (t - fst s) / IZR (fst e - fst s) <= 1)%R as [A B].
  { assert (0 < IZR (fst e - fst s))%R by (apply IZR_lt; lia).
    assert (0 <= IZR (t - fst s))%R by (apply IZR_le; lia).
    assert (IZR (t - fst s) <= IZR (fst e - fst s))%R by (apply IZR_le; lia).
    split; [apply Rmult_le_pos; [assumption|left; apply Rinv_0_lt_compat; assumption]|].
    apply Rmult_le_reg_r with (IZR (fst e - fst s)); [assumption|]. unfold Rdiv.
    rewrite Rmult_assoc, Rinv_l by lra. lra. }
  revert A B. generalize (IZR (t - fst s) / IZR (fst e - fst s))%R. intros w A B.
  unfold Rmin, Rmax. destruct (Rle_dec (snd s) (snd e)); split; nra.
Qed.

Lemma omapM_perm {A B} (f : A -> outcome B) l l' r : Permutation l l' -> omapM f l = Ok r ->
  exists r', omapM f l' = Ok r' /\ Permutation r r'.
Proof.
  intros P. revert r. induction P as [|x l l' P IH|x y l|l l' l'' P IH P' IH']; intros r; cbn.
  - intros E. injection E as <-. exists []. split; constructor.
  - intros E. apply obind_Ok in E. destruct E as (b & Eb & E). apply obind_Ok in E. destruct E as (bs & Ebs & E).
    injection E as <-. destruct (IH _ Ebs) as (r' & Er & Pr). rewrite Eb, Er. cbn. eexists. split; [reflexivity|].
    constructor. exact Pr.
  - intros E. apply obind_Ok in E. destruct E as (b & Eb & E). apply obind_Ok in E. destruct E as (bs & Ebs & E).
    apply obind_Ok in Ebs. destruct Ebs as (b' & Eb' & Ebs). apply obind_Ok in Ebs. destruct Ebs as (bs' & Ebs & E').
    injection E as <-. injection E' as <-. rewrite Eb', Eb, Ebs. cbn. eexists. split; [reflexivity|]. apply perm_swap.
  - intros E. destruct (IH _ E) as (r' & E' & P1). destruct (IH' _ E') as (r'' & E'' & P2).
    exists r''. split; [assumption|]. etransitivity; eassumption.
Qed.

Lemma get_forward_order sort sort' search search' oc h h' t c D :
  sorts_by fst sort -> sorts_by fst sort' -> searches_by fst search -> searches_by fst search' ->
  fh_valuation_date h' = fh_valuation_date h -> fh_spot_lag h' = fh_spot_lag h ->
  Permutation (fh_quotes h) (fh_quotes h') ->
  dated_quotes oc h c = Ok D -> NoDup (map fst D) ->
  get_forward sort search oc h t c = get_forward sort' search' oc h' t c.
Proof.
  intros Hs Hs' Hf Hf' Ev El P HD N.
  assert (HD' : exists D', dated_quotes oc h' c = Ok D' /\ Permutation D D').
  { unfold dated_quotes in *. rewrite Ev, El. eapply omapM_perm; eassumption. }
  destruct HD' as (D' & HD' & PD).
  destruct (Z.le_gt_cases t (fh_valuation_date h)) as [L|L].
  { unfold get_forward. rewrite Ev. destruct (Z.leb_spec t (fh_valuation_date h)); [reflexivity|lia]. }
  assert (LD : length D = length D') by (apply Permutation_length; assumption).
  destruct (Nat.lt_ge_cases (length D) 2) as [L2|L2].
  { unfold get_forward. rewrite Ev, HD, HD'. cbn [obind]. rewrite <- LD.
    destruct (Nat.ltb_spec (length D) 2); [reflexivity|lia]. }
  assert (I : forall q, In q D <-> In q D').
  { intros q. split; apply Permutation_in; [|apply Permutation_sym]; exact PD. }
  assert (ND : D <> []) by (intros ->; cbn in L2; lia).
  assert (ND' : D' <> []) by (intros ->; rewrite LD in L2; cbn in L2; lia).
  destruct (get_forward_cases sort search oc h t c D Hs Hf L HD L2) as [(v & E & V)|[E O]];
  destruct (get_forward_cases sort' search' oc h' t c D' Hs' Hf' ltac:(lia) HD' ltac:(lia)) as [(v' & E' & V')|[E' O']];
  rewrite E, E'.
  - do 2 f_equal. eapply points_at_unique; eassumption.
  - exfalso. apply (out_not_points D' t v ND' O'). destruct V as [V|(V & s & e & Vs & Ve & VL & VM & Vv)].
    + left. apply I. exact V.
    + right. split; [intros q Hq; apply V, I, Hq|]. exists s, e.
      repeat split; try apply I; try assumption; try lia. intros q Hq. apply VM, I, Hq.
  - exfalso. apply (out_not_points D t v' ND O). destruct V' as [V|(V & s & e & Vs & Ve & VL & VM & Vv)].
    + left. apply I. exact V.
    + right. split; [intros q Hq; apply V, I, Hq|]. exists s, e.
      repeat split; try apply I; try assumption; try lia. intros q Hq. apply VM, I, Hq.
  - reflexivity.
Qed.

Lemma get_forward_quoted sort search oc h t c D v :
  sorts_by fst sort -> searches_by fst search -> fh_valuation_date h < t ->
  dated_quotes oc h c = Ok D -> (2 <= length D)%nat -> NoDup (map fst D) -> In (t, v) D ->
  get_forward sort search oc h t c = Ok (Some v).
Proof.
  intros Hs Hf L HD L2 N H.
  destruct (get_forward_cases sort search oc h t c D Hs Hf L HD L2) as [(v' & E & V)|[E O]].
  - rewrite E. do 2 f_equal. eapply points_at_unique; [exact N|intros q; reflexivity|exact V|left; exact H].
  - exfalso. apply (out_not_points D t v); [intros ->; contradiction|exact O|left; exact H].
Qed.

Lemma get_forward_early sort search oc h t c : t <= fh_valuation_date h ->
  get_forward sort search oc h t c = Ok None.
Proof. intros H. unfold get_forward. destruct (Z.leb_spec t (fh_valuation_date h)); [reflexivity|lia]. Qed.

Lemma get_forward_few sort search oc h t c D : dated_quotes oc h c = Ok D -> (length D < 2)%nat ->
  get_forward sort search oc h t c = Ok None.
Proof.
  intros HD L. unfold get_forward. destruct (t <=? fh_valuation_date h); [reflexivity|].
  rewrite HD. cbn [obind]. destruct (Nat.ltb_spec (length D) 2); [reflexivity|lia].
Qed.

Lemma dated_quotes_spec oc h c D : dated_quotes oc h c = Ok D <->
  Forall2 (fun q d => settlement_date_with_lag oc (fq_tenor q) (fh_valuation_date h) c (fh_spot_lag h) = Ok (fst d)
                      /\ snd d = fq_value q) (fh_quotes h) D.
Proof.
  unfold dated_quotes. generalize (fh_quotes h) as l. intros l. revert D.
  induction l as [|q r IH]; intros D; cbn [omapM].
  - split; [intros E; injection E as <-; constructor|intros H; inversion H; reflexivity].
  - split.
    + intros E. apply obind_Ok in E. destruct E as (b & Eb & E). apply obind_Ok in E. destruct E as (bs & Ebs & E).
      injection E as <-. apply obind_Ok in Eb. destruct Eb as (d & Ed & Eb). injection Eb as <-.
      constructor; [split; [exact Ed|reflexivity]|]. apply IH. exact Ebs.
    + intros H. inversion H as [|? d ? D' [Hd Hv] Hr]; subst. rewrite Hd. cbn [obind].
      apply IH in Hr. rewrite Hr. cbn [obind]. rewrite <- Hv. destruct d; reflexivity.
Qed.
