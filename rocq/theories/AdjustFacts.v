(** Proofs about [adjust], [advance], [business_days_between], [end_of_month]
    and the settlement dates. *)
From Coq Require Import ZArith Lia Bool List.
From Coq Require Import ZifyBool.
From Verif Require Import Outcome Ints Loop Date DateFacts Calendar CalendarSpec CalendarFacts.
Open Scope Z_scope.
Ltac Zify.zify_post_hook ::= Z.div_mod_to_equations.

Lemma adjust_F c d r : in_range d ->
  (adjust c d Following = Ok (Some r) <-> in_range r /\ first_open_from c d r).
Proof.
  intros Hd. cbn [adjust]. rewrite obind_Ok. rewrite <- roll_up_Ok by assumption.
  split; [intros (a & H & [= <-]); exact H|intros H; exists r; auto].
Qed.

Lemma adjust_P c d r : in_range d ->
  (adjust c d Preceding = Ok (Some r) <-> in_range r /\ last_open_upto c d r).
Proof.
  intros Hd. cbn [adjust]. rewrite obind_Ok. rewrite <- roll_down_Ok by assumption.
  split; [intros (a & H & [= <-]); exact H|intros H; exists r; auto].
Qed.

Lemma adjust_F_panic c d p : in_range d ->
  (adjust c d Following = Panic p <->
   exists x, d <= x <= date_max /\ (forall y, d <= y < x -> closed c y) /\
     (c x = Panic p \/ (x = date_max /\ closed c x /\ p = PDateRange))).
Proof.
  intros Hd. rewrite <- roll_up_Panic by assumption. cbn [adjust].
  destruct (roll_up c d); simpl; split; congruence.
Qed.

Lemma adjust_P_panic c d p : in_range d ->
  (adjust c d Preceding = Panic p <->
   exists x, date_min <= x <= d /\ (forall y, x < y <= d -> closed c y) /\
     (c x = Panic p \/ (x = date_min /\ closed c x /\ p = PDateRange))).
Proof.
  intros Hd. rewrite <- roll_down_Panic by assumption. cbn [adjust].
  destruct (roll_down c d); simpl; split; congruence.
Qed.

(** adjust never returns [None]: the final [else] of the code is dead. *)
Local Transparent nearest.
Lemma nearest_some c d r : nearest c d = Ok r -> exists x, r = Some x.
Proof.
  unfold nearest. intros H.
  destruct (loop date_fuel (nearest_step c) (d, d)) as [?|o] eqn:E; simpl in H; [discriminate|].
  subst o. revert r E.
  intros r E. assert (forall o, loop date_fuel (nearest_step c) (d, d) = inr o ->
     match o with Ok None => False | _ => True end) as G.
  { intros o Ho.
    refine (loop_exit _ (fun o => match o with Ok None => False | _ => True end) _ _ _ _ Ho).
    intros [d1 d2] q. unfold nearest_step.
    destruct (oand _ _) as [[]| |]; try (intros [= <-]; exact I).
    - destruct (obind (add_days d1 1) _) as [a| |]; try discriminate; intros [= <-]; exact I.
    - destruct (is_holiday c d1); simpl; intros [= <-]; exact I. }
  specialize (G _ E). destruct r; [eauto|contradiction].
Qed.

Lemma adjust_some c d b r : adjust c d b = Ok r -> exists x, r = Some x.
Proof.
  destruct b; cbn [adjust]; intros H;
    repeat (apply obind_Ok in H; destruct H as (? & _ & H));
    repeat match goal with H : (if ?b then _ else _) = _ |- _ => destruct b end;
    repeat (apply obind_Ok in H; destruct H as (? & _ & H));
    try (injection H as <-; eauto). eapply nearest_some; eauto.
Qed.

(** ** Month distance *)
Lemma fom_12 k : fom (k + 12) >= fom k + 365.
Proof.
  unfold fom.
  replace ((k + 12) / 12) with (k / 12 + 1) by lia.
  replace ((k + 12) mod 12) with (k mod 12) by lia.
  assert (1 <= k mod 12 + 1 <= 12) by lia.
  revert H. generalize (k / 12) (k mod 12 + 1). intros y m H.
  rewrite !fom_closed by lia. cbv zeta.
  destruct (m <=? 2); generalize ((153 * ((m + 9) mod 12) + 2) / 5); intros q.
  - assert (G : (y + 1 - 1) / 4 - (y + 1 - 1) / 100 + (y + 1 - 1) / 400 >= (y - 1) / 4 - (y - 1) / 100 + (y - 1) / 400) by lia.
    lia.
  - assert (G : (y + 1) / 4 - (y + 1) / 100 + (y + 1) / 400 >= y / 4 - y / 100 + y / 400) by lia.
    lia.
Qed.

Lemma same_month_mi a b : same_month a b <-> mi a = mi b.
Proof.
  unfold same_month. rewrite !year_mi, !month_mi. 
  generalize (mi a) (mi b). intros; lia.
Qed.

(** Two dates less than eleven months apart with the same month number are in
    the same month. *)
Lemma month_eq_mi a b : a <= b < a + 335 -> month a = month b -> mi a = mi b.
Proof.
  intros H E. rewrite !month_mi in E.
  pose proof (fom_mi_bounds a). pose proof (fom_mi_bounds b).
  pose proof (mi_mono a b ltac:(lia)).
  destruct (Z.eq_dec (mi a) (mi b)) as [|N]; [assumption|exfalso].
  assert (mi a + 12 <= mi b) by (revert E H2 N; generalize (mi a) (mi b); intros; lia).
  pose proof (fom_12 (mi a)). pose proof (fom_succ (mi a)). pose proof (mil_bounds (mi a)).
  assert (fom (mi a + 12) <= fom (mi b)).
  { assert (mi a + 12 = mi b \/ mi a + 12 < mi b) as [->|L] by lia; [lia|].
    pose proof (fom_lt _ _ L). lia. }
  lia.
Qed.

Lemma same_month_between a x b : a <= x <= b -> same_month a b -> same_month a x.
Proof.
  rewrite !same_month_mi. intros H E.
  pose proof (mi_mono a x ltac:(lia)). pose proof (mi_mono x b ltac:(lia)). lia.
Qed.

(** ** Modified conventions *)
Definition ok_some {A} (x : outcome (option A)) (r : A) := x = Ok (Some r).

Lemma adjust_MF c d r : in_range d ->
  (adjust c d ModifiedFollowing = Ok (Some r) <->
   exists f, in_range f /\ first_open_from c d f /\
     ((month f = month d /\ r = f) \/
      (month f <> month d /\ in_range r /\ last_open_upto c d r))).
Proof.
  intros Hd. cbn [adjust]. rewrite obind_Ok. split.
  - intros (f & Hf & H). apply roll_up_Ok in Hf; [|assumption]. exists f.
    split; [apply Hf|]. split; [apply Hf|].
    destruct (Z.eqb_spec (month f) (month d)) as [E|E]; cbn [negb] in H.
    + left. split; congruence.
    + right. split; [assumption|]. apply obind_Ok in H. destruct H as (q & Hq & [= <-]).
      now apply roll_down_Ok in Hq.
  - intros (f & H1 & H2 & H3). exists f. split; [now apply roll_up_Ok|].
    destruct (Z.eqb_spec (month f) (month d)) as [E|E]; cbn [negb];
      destruct H3 as [(H3 & ->)|(H3 & H4)]; try congruence; try contradiction.
    apply obind_Ok. exists r. split; [now apply roll_down_Ok|reflexivity].
Qed.

Lemma adjust_MP c d r : in_range d ->
  (adjust c d ModifiedPreceding = Ok (Some r) <->
   exists f, in_range f /\ last_open_upto c d f /\
     ((month f = month d /\ r = f) \/
      (month f <> month d /\ in_range r /\ first_open_from c d r))).
Proof.
  intros Hd. cbn [adjust]. rewrite obind_Ok. split.
  - intros (f & Hf & H). apply roll_down_Ok in Hf; [|assumption]. exists f.
    split; [apply Hf|]. split; [apply Hf|].
    destruct (Z.eqb_spec (month f) (month d)) as [E|E]; cbn [negb] in H.
    + left. split; congruence.
    + right. split; [assumption|]. apply obind_Ok in H. destruct H as (q & Hq & [= <-]).
      now apply roll_up_Ok in Hq.
  - intros (f & H1 & H2 & H3). exists f. split; [now apply roll_down_Ok|].
    destruct (Z.eqb_spec (month f) (month d)) as [E|E]; cbn [negb];
      destruct H3 as [(H3 & ->)|(H3 & H4)]; try congruence; try contradiction.
    apply obind_Ok. exists r. split; [now apply roll_up_Ok|reflexivity].
Qed.

Lemma adjust_HM c d r : in_range d ->
  (adjust c d HalfMonthModifiedFollowing = Ok (Some r) <->
   exists f, in_range f /\ first_open_from c d f /\
     let crosses := month f <> month d \/ (day d <= 15 /\ 15 < day f) in
     ((~ crosses /\ r = f) \/ (crosses /\ in_range r /\ last_open_upto c d r))).
Proof.
  intros Hd. cbn [adjust]. rewrite obind_Ok. cbv zeta. split.
  - intros (f & Hf & H). apply roll_up_Ok in Hf; [|assumption]. exists f.
    split; [apply Hf|]. split; [apply Hf|].
    destruct (Z.eqb_spec (month f) (month d)) as [E|E]; cbn [negb] in H.
    + destruct ((day d <=? 15) && (15 <? day f)) eqn:E2.
      * right. split; [lia|]. apply obind_Ok in H. destruct H as (q & Hq & [= <-]).
        now apply roll_down_Ok in Hq.
      * left. split; [lia|congruence].
    + right. split; [lia|]. apply obind_Ok in H. destruct H as (q & Hq & [= <-]).
      now apply roll_down_Ok in Hq.
  - intros (f & H1 & H2 & H3). exists f. split; [now apply roll_up_Ok|].
    destruct (Z.eqb_spec (month f) (month d)) as [E|E]; cbn [negb].
    + destruct ((day d <=? 15) && (15 <? day f)) eqn:E2.
      * destruct H3 as [(H3 & ->)|(H3 & H4)]; [lia|].
        apply obind_Ok. exists r. split; [now apply roll_down_Ok|reflexivity].
      * destruct H3 as [(H3 & ->)|(H3 & H4)]; [reflexivity|lia].
    + destruct H3 as [(H3 & ->)|(H3 & H4)]; [lia|].
      apply obind_Ok. exists r. split; [now apply roll_down_Ok|reflexivity].
Qed.

Lemma MF_same_month c d r : in_range d ->
  adjust c d ModifiedFollowing = Ok (Some r) ->
  (exists b, same_month b d /\ opened c b) ->
  (exists x, d <= x <= d + 334 /\ opened c x) ->
  opened c r /\ same_month r d.
Proof.
  intros Hd H (b & Hb & Ob) (x & Hx & Ox). apply adjust_MF in H; [|assumption].
  destruct H as (f & _ & (F1 & F2 & F3) & H).
  assert (Hf : f <= x).
  { destruct (Z_le_gt_dec f x); [assumption|]. exfalso.
    apply (open_closed_False c x); [assumption|apply F3; lia]. }
  destruct H as [(E & ->)|(N & _ & (R1 & R2 & R3))].
  - split; [assumption|]. apply same_month_mi. symmetry. apply month_eq_mi; lia.
  - split; [assumption|].
    assert (b <= d).
    { destruct (Z_le_gt_dec b d); [assumption|]. exfalso. apply N.
      assert (f <= b). { destruct (Z_le_gt_dec f b); [assumption|]. exfalso.
        apply (open_closed_False c b); [assumption|apply F3; lia]. }
      assert (same_month d f) as [_ HM].
      { apply (same_month_between d f b); [lia|]. destruct Hb; split; congruence. }
      congruence. }
    assert (b <= r).
    { destruct (Z_le_gt_dec b r); [assumption|]. exfalso.
      apply (open_closed_False c b); [assumption|apply R3; lia]. }
    pose proof (same_month_between b r d ltac:(lia) Hb) as [? ?].
    destruct Hb; split; congruence.
Qed.

Lemma MP_same_month c d r : in_range d ->
  adjust c d ModifiedPreceding = Ok (Some r) ->
  (exists b, same_month b d /\ opened c b) ->
  (exists x, d - 334 <= x <= d /\ opened c x) ->
  opened c r /\ same_month r d.
Proof.
  intros Hd H (b & Hb & Ob) (x & Hx & Ox). apply adjust_MP in H; [|assumption].
  destruct H as (f & _ & (F1 & F2 & F3) & H).
  assert (Hf : x <= f).
  { destruct (Z_le_gt_dec x f); [assumption|]. exfalso.
    apply (open_closed_False c x); [assumption|apply F3; lia]. }
  destruct H as [(E & ->)|(N & _ & (R1 & R2 & R3))].
  - split; [assumption|]. apply same_month_mi. apply month_eq_mi; lia.
  - split; [assumption|].
    assert (d <= b).
    { destruct (Z_le_gt_dec d b); [assumption|]. exfalso. apply N.
      assert (b <= f). { destruct (Z_le_gt_dec b f); [assumption|]. exfalso.
        apply (open_closed_False c b); [assumption|apply F3; lia]. }
      assert (same_month b f) as [? HM] by (apply (same_month_between b f d); [lia|assumption]).
      destruct Hb; congruence. }
    assert (r <= b).
    { destruct (Z_le_gt_dec r b); [assumption|]. exfalso.
      apply (open_closed_False c b); [assumption|apply R3; lia]. }
    assert (same_month d b) by (destruct Hb; split; congruence).
    pose proof (same_month_between d r b ltac:(lia) H1) as [? ?].
    split; congruence.
Qed.

(** ** Idempotence *)
Lemma first_open_self c d : opened c d -> first_open_from c d d.
Proof. intros H. repeat split; try lia; try assumption. Qed.
Lemma last_open_self c d : opened c d -> last_open_upto c d d.
Proof. intros H. repeat split; try lia; try assumption. Qed.

Lemma nearest_open c d : opened c d -> nearest c d = Ok (Some d).
Proof.
  intros H. unfold nearest.
  assert (E : nearest_step c (d, d) = inr (Ok (Some d))).
  { unfold opened in H. unfold nearest_step, is_holiday. rewrite !H. reflexivity. }
  rewrite (loop_done date_fuel _ _ _ E). reflexivity.
Qed.

Lemma adjust_open c d b : in_range d -> opened c d -> adjust c d b = Ok (Some d).
Proof.
  intros Hd H. destruct b.
  - apply adjust_F; auto using first_open_self.
  - apply adjust_MF; [assumption|]. exists d. auto using first_open_self.
  - apply adjust_HM; [assumption|]. exists d. split; [assumption|]. split; [now apply first_open_self|]. cbv zeta.
    left. split; [lia|reflexivity].
  - apply adjust_P; auto using last_open_self.
  - apply adjust_MP; [assumption|]. exists d. auto using last_open_self.
  - reflexivity.
  - apply nearest_open; assumption.
Qed.

Lemma adjust_result_open c d b r : in_range d ->
  b <> Nearest -> b <> Unadjusted ->
  adjust c d b = Ok (Some r) -> opened c r /\ in_range r.
Proof.
  intros Hd Hn Hu H. destruct b; try congruence.
  - apply adjust_F in H; [|assumption]. destruct H as (? & ? & ? & ?); auto.
  - apply adjust_MF in H; [|assumption].
    destruct H as (f & ? & (? & ? & ?) & [(_ & ->)|(_ & ? & (? & ? & ?))]); auto.
  - apply adjust_HM in H; [|assumption].
    destruct H as (f & ? & (? & ? & ?) & [(_ & ->)|(_ & ? & (? & ? & ?))]); auto.
  - apply adjust_P in H; [|assumption]. destruct H as (? & ? & ? & ?); auto.
  - apply adjust_MP in H; [|assumption].
    destruct H as (f & ? & (? & ? & ?) & [(_ & ->)|(_ & ? & (? & ? & ?))]); auto.
Qed.

(** ** Monotonicity *)
Lemma first_open_mono c a b ra rb : a <= b ->
  first_open_from c a ra -> first_open_from c b rb -> ra <= rb.
Proof.
  intros H (A1 & A2 & A3) (B1 & B2 & B3). destruct (Z_le_gt_dec ra rb); [assumption|].
  exfalso. apply (open_closed_False c rb); [assumption|apply A3; lia].
Qed.
Lemma last_open_mono c a b ra rb : a <= b ->
  last_open_upto c a ra -> last_open_upto c b rb -> ra <= rb.
Proof.
  intros H (A1 & A2 & A3) (B1 & B2 & B3). destruct (Z_le_gt_dec ra rb); [assumption|].
  exfalso. apply (open_closed_False c ra); [assumption|apply B3; lia].
Qed.
Lemma last_ge c b r x : last_open_upto c b r -> opened c x -> x <= b -> x <= r.
Proof.
  intros (A1 & A2 & A3) Hx H. destruct (Z_le_gt_dec x r); [assumption|].
  exfalso. apply (open_closed_False c x); [assumption|apply A3; lia].
Qed.
Lemma first_le c b r x : first_open_from c b r -> opened c x -> b <= x -> r <= x.
Proof.
  intros (A1 & A2 & A3) Hx H. destruct (Z_le_gt_dec r x); [assumption|].
  exfalso. apply (open_closed_False c x); [assumption|apply A3; lia].
Qed.

Lemma adjust_mono c b d1 d2 r1 r2 : in_range d1 -> in_range d2 -> d1 <= d2 ->
  b <> Nearest ->
  (b = ModifiedFollowing \/ b = HalfMonthModifiedFollowing ->
     exists x, d1 <= x <= d1 + 334 /\ opened c x) ->
  (b = ModifiedPreceding -> exists x, d2 - 334 <= x <= d2 /\ opened c x) ->
  adjust c d1 b = Ok (Some r1) -> adjust c d2 b = Ok (Some r2) -> r1 <= r2.
Proof.
  intros Hd1 Hd2 L Hn HF HP H1 H2. destruct b; try congruence.
  - apply adjust_F in H1, H2; try assumption. eapply first_open_mono; [exact L|apply H1|apply H2].
  - destruct (HF (or_introl eq_refl)) as (x & Hx & Ox).
    apply adjust_MF in H1, H2; try assumption.
    destruct H1 as (f1 & _ & F1 & H1), H2 as (f2 & _ & F2 & H2).
    pose proof (first_le _ _ _ _ F1 Ox ltac:(lia)) as Hx1.
    pose proof (first_open_mono _ _ _ _ _ L F1 F2) as Hmono.
    destruct H1 as [(E1 & ->)|(N1 & _ & P1)], H2 as [(E2 & ->)|(N2 & _ & P2)].
    + assumption.
    + destruct (Z_le_gt_dec f1 d2) as [|G]; [eapply last_ge; [exact P2|apply F1|assumption]|].
      exfalso. destruct F1 as (A1 & A2 & A3).
      assert (f2 = f1).
      { eapply first_open_unique; [exact F2|]. split; [lia|]. split; [assumption|]. intros; apply A3; lia. }
      subst f2. apply N2.
      assert (mi d1 = mi f1) as E by (apply month_eq_mi; [lia|congruence]).
      pose proof (same_month_between d1 d2 f1 ltac:(lia) (proj2 (same_month_mi _ _) E)) as [_ E3].
      congruence.
    + destruct P1 as (Q1 & _), F2 as (Q2 & _). lia.
    + eapply last_open_mono; [exact L|exact P1|exact P2].
  - destruct (HF (or_intror eq_refl)) as (x & Hx & Ox).
    apply adjust_HM in H1, H2; try assumption.
    destruct H1 as (f1 & _ & F1 & H1), H2 as (f2 & _ & F2 & H2). cbv zeta in H1, H2.
    pose proof (first_le _ _ _ _ F1 Ox ltac:(lia)) as Hx1.
    pose proof (first_open_mono _ _ _ _ _ L F1 F2) as Hmono.
    destruct H1 as [(E1 & ->)|(N1 & _ & P1)], H2 as [(E2 & ->)|(N2 & _ & P2)].
    + assumption.
    + destruct (Z_le_gt_dec f1 d2) as [|G]; [eapply last_ge; [exact P2|apply F1|assumption]|].
      exfalso. destruct F1 as (A1 & A2 & A3).
      assert (f2 = f1).
      { eapply first_open_unique; [exact F2|]. split; [lia|]. split; [assumption|]. intros; apply A3; lia. }
      subst f2.
      assert (month d1 = month f1) as E0 by lia.
      assert (mi d1 = mi f1) as E by (apply month_eq_mi; lia).
      assert (mi d1 = mi d2) as E4.
      { apply same_month_mi. eapply same_month_between; [|apply same_month_mi; exact E]. lia. }
      pose proof (proj2 (same_month_mi d1 d2) E4) as [_ E3].
      rewrite !day_fom in *. rewrite <- E, <- E4 in *. lia.
    + destruct P1 as (Q1 & _), F2 as (Q2 & _). lia.
    + eapply last_open_mono; [exact L|exact P1|exact P2].
  - apply adjust_P in H1, H2; try assumption. eapply last_open_mono; [exact L|apply H1|apply H2].
  - destruct (HP eq_refl) as (x & Hx & Ox).
    apply adjust_MP in H1, H2; try assumption.
    destruct H1 as (f1 & _ & F1 & H1), H2 as (f2 & _ & F2 & H2).
    pose proof (last_ge _ _ _ _ F2 Ox ltac:(lia)) as Hx1.
    pose proof (last_open_mono _ _ _ _ _ L F1 F2) as Hmono.
    destruct H1 as [(E1 & ->)|(N1 & _ & P1)], H2 as [(E2 & ->)|(N2 & _ & P2)].
    + assumption.
    + destruct F1 as (Q1 & _), P2 as (Q2 & _). lia.
    + destruct (Z_le_gt_dec d1 f2) as [|G]; [eapply first_le; [exact P1|apply F2|assumption]|].
      exfalso. destruct F2 as (A1 & A2 & A3).
      assert (f2 = f1).
      { eapply last_open_unique; [|exact F1]. split; [lia|]. split; [assumption|]. intros; apply A3; lia. }
      subst f2. apply N1.
      assert (mi f1 = mi d2) as E by (apply month_eq_mi; [lia|congruence]).
      pose proof (same_month_between f1 d1 d2 ltac:(lia) (proj2 (same_month_mi _ _) E)) as [_ E3].
      congruence.
    + eapply first_open_mono; [exact L|exact P1|exact P2].
  - cbn [adjust] in H1, H2. congruence.
Qed.
