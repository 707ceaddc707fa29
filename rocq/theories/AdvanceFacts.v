(** Proofs about [nearest], [advance], [business_days_between],
    [end_of_month], joint calendars and settlement dates. *)
From Coq Require Import ZArith Lia Bool List.
From Coq Require Import ZifyBool.
From Verif Require Import Outcome Ints Loop Date DateFacts Calendar CalendarSpec CalendarFacts AdjustFacts.
Open Scope Z_scope.
Ltac Zify.zify_post_hook ::= Z.div_mod_to_equations.

(** ** Nearest *)
Local Transparent nearest.
Lemma nearest_spec c d r : in_range d -> nearest c d = Ok (Some r) ->
  exists k, 0 <= k /\ (forall i, 0 <= i < k -> closed c (d + i) /\ closed c (d - i)) /\
    ((opened c (d + k) /\ r = d - k) \/
     (closed c (d + k) /\ opened c (d - k) /\ r = d + k)).
Proof.
  intros Hd H. unfold nearest in H.
  destruct (loop_ind (nearest_step c)
    (fun s => d <= fst s /\ in_range (fst s) /\ snd s = d - (fst s - d) /\
       forall i, 0 <= i < fst s - d -> closed c (d + i) /\ closed c (d - i))
    (fun o => forall r, o = Ok (Some r) ->
       exists k, 0 <= k /\ (forall i, 0 <= i < k -> closed c (d + i) /\ closed c (d - i)) /\
       ((opened c (d + k) /\ r = d - k) \/
       (closed c (d + k) /\ opened c (d - k) /\ r = d + k)))
    (fun s => date_max - fst s) date_fuel (d, d)) as (o & Ho & HQ).
  - simpl. split; [lia|]. split; [assumption|]. split; [lia|]. intros; lia.
  - simpl. rewrite in_range_val in Hd. rewrite date_max_val. pose proof fuel_big. lia.
  - intros [s1 s2] (_ & Hs & _). simpl in *. unfold in_range in Hs. lia.
  - intros [s1 s2] s' (H1 & H2 & H3 & H4) E. cbn [fst snd] in *. unfold nearest_step in E.
    unfold is_holiday in E.
    destruct (c s1) as [[]| |] eqn:E1; simpl in E; try discriminate.
    destruct (c s2) as [[]| |] eqn:E2; simpl in E; try discriminate.
    destruct (add_days_cases s1 1) as [[HR HA]|[HR HA]]; rewrite HA in E; simpl in E; [|discriminate].
    destruct (add_days_cases s2 (-1)) as [[HR2 HA2]|[HR2 HA2]]; rewrite HA2 in E; simpl in E; [|discriminate].
    injection E as <-. cbn [fst snd]. split; [|lia]. split; [lia|]. split; [assumption|].
    split; [lia|]. intros i Hi. destruct (Z.eq_dec i (s1 - d)) as [->|].
    + replace (d + (s1 - d)) with s1 by lia. replace (d - (s1 - d)) with s2 by lia. split; assumption.
    + apply H4. lia.
  - intros [s1 s2] o (H1 & H2 & H3 & H4) E r' ->. cbn [fst snd] in *. unfold nearest_step in E.
    unfold is_holiday in E. exists (s1 - d). split; [lia|]. split; [assumption|].
    replace (d + (s1 - d)) with s1 by lia. replace (d - (s1 - d)) with s2 by lia.
    destruct (c s1) as [[]| |] eqn:E1; simpl in E; try discriminate.
    + injection E as <-. left. split; [assumption|reflexivity].
    + destruct (c s2) as [[]| |] eqn:E2; simpl in E; try discriminate.
      * rewrite ?E1 in E. simpl in E. injection E as <-. right. repeat split; assumption.
      * destruct (add_days_cases s1 1) as [[HR HA]|[HR HA]]; rewrite HA in E; simpl in E; [|discriminate].
        destruct (add_days_cases s2 (-1)) as [[HR2 HA2]|[HR2 HA2]]; rewrite HA2 in E; simpl in E; discriminate.
  - rewrite Ho in H. simpl in H. subst o. apply HQ. reflexivity.
Qed.
Local Opaque nearest.

(** ** Advancing by business days *)
Lemma open_days_pos c a b x : opened c x -> a <= x < b -> 1 <= open_days c a b.
Proof.
  intros Hx H. pose proof (open_days_nonneg c a b).
  destruct (Z.eq_dec (open_days c a b) 0) as [E|]; [|lia].
  rewrite open_days_zero in E. apply opened_openb in Hx. rewrite (E x H) in Hx. discriminate.
Qed.

Lemma open_days_mono c a b b' : b <= b' -> open_days c a b <= open_days c a b'.
Proof.
  intros H. destruct (Z_le_gt_dec a b).
  - rewrite (open_days_split c a b b') by lia. pose proof (open_days_nonneg c b b'). lia.
  - rewrite (open_days_nil c a b) by lia. apply open_days_nonneg.
Qed.

Lemma open_days_mono_l c a a' b : a <= a' -> open_days c a' b <= open_days c a b.
Proof.
  intros H. destruct (Z_le_gt_dec a' b).
  - rewrite (open_days_split c a a' b) by lia. pose proof (open_days_nonneg c a a'). lia.
  - rewrite (open_days_nil c a' b) by lia. apply open_days_nonneg.
Qed.

Definition fwd_spec c d n r :=
  d < r <= date_max /\ opened c r /\ answers c (d + 1) (r + 1) /\ open_days c (d + 1) (r + 1) = n.
Definition bwd_spec c d n r :=
  date_min <= r < d /\ opened c r /\ answers c r d /\ open_days c r d = n.

Local Transparent advance_days.

Lemma advance_fwd c d n r : in_range d -> 0 < n ->
  (advance_days c d n = Ok r <-> fwd_spec c d n r).
Proof.
  intros Hd Hn. unfold advance_days. replace (0 <? n) with true by lia.
  destruct (loop_ind (advance_step c 1)
    (fun s => d <= fst s /\ in_range (fst s) /\ 0 <= snd s <= n /\
       answers c (d + 1) (fst s + 1) /\ open_days c (d + 1) (fst s + 1) = n - snd s /\
       (snd s = n \/ (d < fst s /\ opened c (fst s))))
    (fun o => (exists r, o = Ok r /\ fwd_spec c d n r) \/
              ((forall r, o <> Ok r) /\ (forall r, ~ fwd_spec c d n r)))
    (fun s => date_max - fst s) date_fuel (d, n)) as (o & Ho & HQ).
  - cbn [fst snd]. split; [lia|]. split; [assumption|]. split; [lia|].
    split; [intros x Hx; lia|]. split; [rewrite open_days_nil by lia; lia|]. lia.
  - cbn [fst]. rewrite in_range_val in Hd. rewrite date_max_val. pose proof fuel_big. lia.
  - intros [s k] (_ & Hs & _). cbn [fst snd] in *. unfold in_range in Hs. lia.
  - intros [s k] s' (H1 & H2 & H3 & H4 & H5 & H6) E. cbn [fst snd] in *.
    unfold advance_step in E. destruct (Z.eqb_spec k 0) as [->|Hk]; [discriminate|].
    destruct (add_days_cases s 1) as [[HR HA]|[HR HA]]; rewrite HA in E; simpl in E; [|discriminate].
    destruct (roll_up c (s + 1)) as [d2| |] eqn:ER; try discriminate. injection E as <-.
    apply roll_up_Ok in ER; [|assumption]. destruct ER as (R1 & R2 & R3 & R4). cbn [fst snd].
    split; [|lia]. split; [lia|]. split; [assumption|]. split; [lia|]. split.
    { intros x Hx. destruct (Z_le_gt_dec x s) as [|G]; [apply H4; lia|].
      destruct (Z.eq_dec x d2) as [->|]; [left; assumption|]. right. apply R4. lia. }
    split; [|right; split; [lia|assumption]].
    rewrite (open_days_split c (d + 1) (s + 1) (d2 + 1)) by lia.
    rewrite (open_days_split c (s + 1) d2 (d2 + 1)) by lia.
    rewrite (open_days_closed c (s + 1) d2) by (intros; apply R4; lia).
    rewrite open_days_one. apply opened_openb in R3. rewrite R3. lia.
  - intros [s k] o (H1 & H2 & H3 & H4 & H5 & H6) E. cbn [fst snd] in *.
    unfold advance_step in E. destruct (Z.eqb_spec k 0) as [->|Hk].
    + injection E as <-. left. exists s. split; [reflexivity|].
      destruct H6 as [H6|(H6 & H7)]; [lia|]. unfold in_range in H2.
      split; [lia|]. split; [assumption|]. split; [assumption|]. lia.
    + right.
      assert (Hgt : forall r, fwd_spec c d n r -> s < r).
      { intros q (Q1 & Q2 & Q3 & Q4). destruct (Z_le_gt_dec q s) as [L|]; [|lia]. exfalso.
        pose proof (open_days_mono c (d + 1) (q + 1) (s + 1) ltac:(lia)). lia. }
      destruct (add_days_cases s 1) as [[HR HA]|[HR HA]]; rewrite HA in E; simpl in E.
      * destruct (roll_up_cases c (s + 1) HR) as [(r' & E' & _)|(x & _ & Hx & Hc & Hf)].
        { rewrite E' in E. discriminate. }
        split. { intros q ->. destruct Hf as [(p & _ & Ef)|[(p & _ & Ef)|(_ & _ & Ef)]]; rewrite Ef in E; discriminate. }
        intros q Q. pose proof (Hgt q Q). destruct Q as (Q1 & Q2 & Q3 & Q4).
        assert (x <= q).
        { destruct (Z_le_gt_dec x q); [assumption|]. exfalso.
          apply (open_closed_False c q); [assumption|apply Hc; lia]. }
        destruct Hf as [(p & Hf & _)|[(p & Hf & _)|(Hf1 & Hf2 & _)]].
        -- destruct (Q3 x ltac:(lia)) as [O|O]; unfold opened, closed in O; congruence.
        -- destruct (Q3 x ltac:(lia)) as [O|O]; unfold opened, closed in O; congruence.
        -- assert (x = q) by lia. subst q. apply (open_closed_False c x); assumption.
      * injection E as <-. split; [intros; discriminate|].
        intros q Q. pose proof (Hgt q Q). destruct Q as (Q1 & _). unfold in_range in *. lia.
  - rewrite Ho. cbn [finish]. destruct HQ as [(r' & -> & Hr')|(N1 & N2)].
    + split; [intros [= <-]; assumption|]. intros Hr. f_equal.
      destruct (Z.lt_trichotomy r r') as [L|[->|G]]; [exfalso| reflexivity| exfalso].
      * destruct Hr as (A1 & A2 & A3 & A4), Hr' as (B1 & B2 & B3 & B4).
        rewrite (open_days_split c (d + 1) (r + 1) (r' + 1)) in B4 by lia.
        pose proof (open_days_pos c (r + 1) (r' + 1) r' B2 ltac:(lia)). lia.
      * destruct Hr as (A1 & A2 & A3 & A4), Hr' as (B1 & B2 & B3 & B4).
        rewrite (open_days_split c (d + 1) (r' + 1) (r + 1)) in A4 by lia.
        pose proof (open_days_pos c (r' + 1) (r + 1) r A2 ltac:(lia)). lia.
    + split; intros Hr; [destruct (N1 r Hr)|destruct (N2 r Hr)].
Qed.

Lemma advance_bwd c d n r : in_range d -> n < 0 ->
  (advance_days c d n = Ok r <-> bwd_spec c d (- n) r).
Proof.
  intros Hd Hn. unfold advance_days. replace (0 <? n) with false by lia.
  assert (Hm : 0 < - n) by lia. revert Hm. generalize (- n). clear n Hn. intros n Hn.
  destruct (loop_ind (advance_step c (-1))
    (fun s => fst s <= d /\ in_range (fst s) /\ 0 <= snd s <= n /\
       answers c (fst s) d /\ open_days c (fst s) d = n - snd s /\
       (snd s = n /\ fst s = d \/ (fst s < d /\ opened c (fst s))))
    (fun o => (exists r, o = Ok r /\ bwd_spec c d n r) \/
              ((forall r, o <> Ok r) /\ (forall r, ~ bwd_spec c d n r)))
    (fun s => fst s - date_min) date_fuel (d, n)) as (o & Ho & HQ).
  - cbn [fst snd]. split; [lia|]. split; [assumption|]. split; [lia|].
    split; [intros x Hx; lia|]. split; [rewrite open_days_nil by lia; lia|]. lia.
  - cbn [fst]. rewrite in_range_val in Hd. rewrite date_min_val. pose proof fuel_big. lia.
  - intros [s k] (_ & Hs & _). cbn [fst snd] in *. unfold in_range in Hs. lia.
  - intros [s k] s' (H1 & H2 & H3 & H4 & H5 & H6) E. cbn [fst snd] in *.
    unfold advance_step in E. destruct (Z.eqb_spec k 0) as [->|Hk]; [discriminate|].
    destruct (add_days_cases s (-1)) as [[HR HA]|[HR HA]]; rewrite HA in E; simpl in E; [|discriminate].
    destruct (roll_down c (s + -1)) as [d2| |] eqn:ER; try discriminate. injection E as <-.
    apply roll_down_Ok in ER; [|assumption]. destruct ER as (R1 & R2 & R3 & R4). cbn [fst snd].
    split; [|lia]. split; [lia|]. split; [assumption|]. split; [lia|]. split.
    { intros x Hx. destruct (Z_le_gt_dec s x) as [|G]; [apply H4; lia|].
      destruct (Z.eq_dec x d2) as [->|]; [left; assumption|]. right. apply R4. lia. }
    split; [|right; split; [lia|assumption]].
    rewrite (open_days_split c d2 s d) by lia.
    rewrite (open_days_split c d2 (d2 + 1) s) by lia.
    rewrite (open_days_closed c (d2 + 1) s) by (intros; apply R4; lia).
    rewrite open_days_one. apply opened_openb in R3. rewrite R3. lia.
  - intros [s k] o (H1 & H2 & H3 & H4 & H5 & H6) E. cbn [fst snd] in *.
    unfold advance_step in E. destruct (Z.eqb_spec k 0) as [->|Hk].
    + injection E as <-. left. exists s. split; [reflexivity|].
      destruct H6 as [H6|(H6 & H7)]; [lia|]. unfold in_range in H2.
      split; [lia|]. split; [assumption|]. split; [assumption|]. lia.
    + right.
      assert (Hgt : forall r, bwd_spec c d n r -> r < s).
      { intros q (Q1 & Q2 & Q3 & Q4). destruct (Z_le_gt_dec s q) as [L|]; [|lia]. exfalso.
        pose proof (open_days_mono_l c s q d ltac:(lia)). lia. }
      destruct (add_days_cases s (-1)) as [[HR HA]|[HR HA]]; rewrite HA in E; simpl in E.
      * destruct (roll_down_cases c (s + -1) HR) as [(r' & E' & _)|(x & _ & Hx & Hc & Hf)].
        { rewrite E' in E. discriminate. }
        split. { intros q ->. destruct Hf as [(p & _ & Ef)|[(p & _ & Ef)|(_ & _ & Ef)]]; rewrite Ef in E; discriminate. }
        intros q Q. pose proof (Hgt q Q). destruct Q as (Q1 & Q2 & Q3 & Q4).
        assert (q <= x).
        { destruct (Z_le_gt_dec q x); [assumption|]. exfalso.
          apply (open_closed_False c q); [assumption|apply Hc; lia]. }
        destruct Hf as [(p & Hf & _)|[(p & Hf & _)|(Hf1 & Hf2 & _)]].
        -- destruct (Q3 x ltac:(lia)) as [O|O]; unfold opened, closed in O; congruence.
        -- destruct (Q3 x ltac:(lia)) as [O|O]; unfold opened, closed in O; congruence.
        -- assert (x = q) by lia. subst q. apply (open_closed_False c x); assumption.
      * injection E as <-. split; [intros; discriminate|].
        intros q Q. pose proof (Hgt q Q). destruct Q as (Q1 & _). unfold in_range in *. lia.
  - rewrite Ho. cbn [finish]. destruct HQ as [(r' & -> & Hr')|(N1 & N2)].
    + split; [intros [= <-]; assumption|]. intros Hr. f_equal.
      destruct (Z.lt_trichotomy r r') as [L|[->|G]]; [exfalso| reflexivity| exfalso].
      * destruct Hr as (A1 & A2 & A3 & A4), Hr' as (B1 & B2 & B3 & B4).
        rewrite (open_days_split c r r' d) in A4 by lia.
        pose proof (open_days_pos c r r' r A2 ltac:(lia)). lia.
      * destruct Hr as (A1 & A2 & A3 & A4), Hr' as (B1 & B2 & B3 & B4).
        rewrite (open_days_split c r' r d) in B4 by lia.
        pose proof (open_days_pos c r' r r' B2 ltac:(lia)). lia.
    + split; intros Hr; [destruct (N1 r Hr)|destruct (N2 r Hr)].
Qed.
Local Opaque advance_days.

Lemma advance_Days oc c d n b e r : n <> 0 ->
  (advance oc c d (Days n) b e = Ok (Some r) <-> advance_days c d n = Ok r).
Proof.
  intros Hn. cbn [advance]. destruct (Z.eqb_spec n 0) as [|_]; [contradiction|].
  rewrite obind_Ok. split; [intros (x & H & [= <-]); exact H|intros H; exists r; auto].
Qed.

Lemma answers_split c a m b : a <= m <= b -> (answers c a b <-> answers c a m /\ answers c m b).
Proof.
  intros H. split.
  - intros HA. split; intros x Hx; apply HA; lia.
  - intros (H1 & H2) x Hx. destruct (Z_lt_ge_dec x m); [apply H1|apply H2]; lia.
Qed.

Lemma advance_round_trip_fwd c d n r : in_range d -> opened c d -> 0 < n ->
  advance_days c d n = Ok r -> advance_days c r (- n) = Ok d.
Proof.
  intros Hd Od Hn H. apply advance_fwd in H; [|assumption|assumption].
  destruct H as (A1 & A2 & A3 & A4). unfold in_range in Hd.
  apply advance_bwd; [unfold in_range; lia|lia|].
  split; [lia|]. split; [assumption|]. split.
  - intros x Hx. destruct (Z.eq_dec x d) as [->|]; [left; assumption|apply A3; lia].
  - rewrite (open_days_split c d (d + 1) r) by lia. rewrite open_days_one.
    rewrite (open_days_split c (d + 1) r (r + 1)) in A4 by lia. rewrite open_days_one in A4.
    apply opened_openb in Od, A2. rewrite Od. rewrite A2 in A4. lia.
Qed.

Lemma advance_round_trip_bwd c d n r : in_range d -> opened c d -> n < 0 ->
  advance_days c d n = Ok r -> advance_days c r (- n) = Ok d.
Proof.
  intros Hd Od Hn H. apply advance_bwd in H; [|assumption|assumption].
  destruct H as (A1 & A2 & A3 & A4). unfold in_range in Hd.
  apply advance_fwd; [unfold in_range; lia|lia|].
  split; [lia|]. split; [assumption|]. split.
  - intros x Hx. destruct (Z.eq_dec x d) as [->|]; [left; assumption|apply A3; lia].
  - rewrite (open_days_split c (r + 1) d (d + 1)) by lia. rewrite open_days_one.
    rewrite (open_days_split c r (r + 1) d) in A4 by lia. rewrite open_days_one in A4.
    apply opened_openb in Od, A2. rewrite Od. rewrite A2 in A4. lia.
Qed.

Lemma advance_add_fwd c d m n a x : in_range d -> 0 < m -> 0 < n ->
  advance_days c d m = Ok a ->
  (advance_days c a n = Ok x <-> advance_days c d (m + n) = Ok x).
Proof.
  intros Hd Hm Hn H. apply advance_fwd in H; [|assumption|assumption].
  destruct H as (A1 & A2 & A3 & A4). unfold in_range in Hd.
  rewrite advance_fwd by (try assumption; unfold in_range; lia).
  rewrite advance_fwd by (try assumption; unfold in_range; lia).
  unfold fwd_spec. split.
  - intros (B1 & B2 & B3 & B4). split; [lia|]. split; [assumption|]. split.
    + apply (answers_split c (d + 1) (a + 1) (x + 1)); [lia|]. auto.
    + rewrite (open_days_split c (d + 1) (a + 1) (x + 1)) by lia. lia.
  - intros (B1 & B2 & B3 & B4).
    assert (a < x).
    { destruct (Z_lt_ge_dec a x); [assumption|]. exfalso.
      pose proof (open_days_mono c (d + 1) (x + 1) (a + 1) ltac:(lia)). lia. }
    rewrite (open_days_split c (d + 1) (a + 1) (x + 1)) in B4 by lia.
    apply (answers_split c (d + 1) (a + 1) (x + 1)) in B3; [|lia].
    split; [lia|]. split; [assumption|]. split; [tauto|lia].
Qed.

Lemma advance_add_bwd c d m n a x : in_range d -> m < 0 -> n < 0 ->
  advance_days c d m = Ok a ->
  (advance_days c a n = Ok x <-> advance_days c d (m + n) = Ok x).
Proof.
  intros Hd Hm Hn H. apply advance_bwd in H; [|assumption|assumption].
  destruct H as (A1 & A2 & A3 & A4). unfold in_range in Hd.
  rewrite advance_bwd by (try assumption; unfold in_range; lia).
  rewrite advance_bwd by (try assumption; unfold in_range; lia).
  unfold bwd_spec. split.
  - intros (B1 & B2 & B3 & B4). split; [lia|]. split; [assumption|]. split.
    + apply (answers_split c x a d); [lia|]. auto.
    + rewrite (open_days_split c x a d) by lia. lia.
  - intros (B1 & B2 & B3 & B4).
    assert (x < a).
    { destruct (Z_lt_ge_dec x a); [assumption|]. exfalso.
      pose proof (open_days_mono_l c a x d ltac:(lia)). lia. }
    rewrite (open_days_split c x a d) in B4 by lia.
    apply (answers_split c x a d) in B3; [|lia].
    split; [lia|]. split; [assumption|]. split; [tauto|lia].
Qed.

(** ** Counting business days *)
Local Transparent count_days.
Lemma count_days_spec c s n : in_range s -> 0 <= n ->
  let e := Z.min (s + n) date_max in
  (answers c s e -> count_days c s n = Ok (open_days c s e)).
Proof.
  intros Hs Hn e HA. unfold count_days.
  destruct (loop_ind (count_step c)
    (fun t => let '(d, k, acc) := t in s <= d /\ in_range d /\ 0 <= k /\ d + k = s + n /\
       acc = open_days c s d)
    (fun o => o = Ok (open_days c s e))
    (fun t => let '(d, k, acc) := t in date_max - d) date_fuel (s, n, 0)) as (o & Ho & HQ).
  - split; [lia|]. split; [assumption|]. split; [assumption|]. split; [reflexivity|].
    now rewrite open_days_nil by lia.
  - rewrite in_range_val in Hs. rewrite date_max_val. pose proof fuel_big. lia.
  - intros [[d k] acc] (_ & H & _). unfold in_range in H. lia.
  - intros [[d k] acc] [[d' k'] acc'] (H1 & H2 & H3 & H4 & H5) E. unfold count_step in E.
    destruct (Z.eqb_spec k 0); [discriminate|].
    destruct (Z.leb_spec date_max d); [discriminate|]. unfold in_range in *.
    assert (He : d < e) by (unfold e; lia).
    destruct (HA d ltac:(lia)) as [O|O]; unfold opened, closed in O; rewrite O in E;
      injection E as <- <- <-; (split; [|lia]); (split; [lia|]); (split; [lia|]); (split; [lia|]);
      (split; [lia|]); rewrite (open_days_split c s d (d + 1)) by lia; rewrite open_days_one;
      unfold openb; rewrite O; lia.
  - intros [[d k] acc] o (H1 & H2 & H3 & H4 & H5) E. unfold count_step in E. unfold in_range in *.
    destruct (Z.eqb_spec k 0).
    + injection E as <-. rewrite H5. f_equal. f_equal. unfold e. lia.
    + destruct (Z.leb_spec date_max d).
      * injection E as <-. rewrite H5. f_equal. f_equal. unfold e. lia.
      * assert (He : d < e) by (unfold e; lia).
        destruct (HA d ltac:(lia)) as [O|O]; unfold opened, closed in O; rewrite O in E; discriminate.
  - rewrite Ho. exact HQ.
Qed.
Local Opaque count_days.

Lemma i64_as_usize_small z : 0 <= z < 2 ^ 64 -> i64_as_usize z = z.
Proof. intros H. unfold i64_as_usize. now apply Z.mod_small. Qed.

Definition opt_or {A} (x : option A) (d : A) : A := match x with Some a => a | None => d end.

(** The general statement: the days counted are those of
    [from + first, to + last) whenever that interval is not reversed. *)
Lemma bdb_ord c from to first last :
  in_range (from + b2z first) -> in_range (to + b2z last) ->
  from + b2z first <= to + b2z last ->
  answers c (from + b2z first) (to + b2z last) ->
  business_days_between_ord c from to first last
  = Ok (open_days c (from + b2z first) (to + b2z last)).
Proof.
  intros H1 H2 H3 H4. unfold business_days_between_ord.
  destruct (add_days_cases to (b2z last)) as [[_ ->]|[N _]]; [|contradiction]. cbn [obind].
  destruct (add_days_cases from (b2z first)) as [[_ ->]|[N _]]; [|contradiction]. cbn [obind].
  rewrite in_range_val in H1, H2.
  rewrite i64_as_usize_small by lia.
  pose proof (count_days_spec c (from + b2z first) (to + b2z last - (from + b2z first))) as G.
  rewrite date_max_val in G. cbv zeta in G.
  replace (Z.min (from + b2z first + (to + b2z last - (from + b2z first))) 95745399)
    with (to + b2z last) in G by lia.
  apply G; [rewrite in_range_val; lia|lia|assumption].
Qed.

(** ... and when it is reversed (same date, first excluded, last excluded) the
    subtraction wraps and every day up to the end of time is counted. *)
Lemma bdb_same_day c d : in_range d -> d < date_max -> answers c (d + 1) date_max ->
  business_days_between c d d (Some true) (Some false) = Ok (open_days c (d + 1) date_max).
Proof.
  intros H1 H2 H3. unfold business_days_between.
  replace (d <? d) with false by lia. unfold business_days_between_ord. cbn [b2z].
  destruct (add_days_cases d 0) as [[_ ->]|[N _]]; [|rewrite Z.add_0_r in N; contradiction]. cbn [obind].
  destruct (add_days_cases d 1) as [[Hr ->]|[N _]]; [|unfold in_range in *; lia]. cbn [obind].
  replace (d + 0 - (d + 1)) with (-1) by lia.
  change (i64_as_usize (-1)) with (2 ^ 64 - 1).
  pose proof (count_days_spec c (d + 1) (2 ^ 64 - 1) Hr ltac:(lia)) as G. cbv zeta in G.
  replace (Z.min (d + 1 + (2 ^ 64 - 1)) date_max) with date_max in G
    by (rewrite in_range_val in H1; rewrite date_max_val; lia).
  now apply G.
Qed.

Lemma bdb_antisym c from to f l : from <> to ->
  business_days_between c to from f l = omap Z.opp (business_days_between c from to f l).
Proof.
  intros H. unfold business_days_between.
  destruct (Z.ltb_spec to from), (Z.ltb_spec from to); try lia.
  - destruct (business_days_between_ord _ _ _ _ _); simpl; try reflexivity. now rewrite Z.opp_involutive.
  - reflexivity.
Qed.

(** ** End of month *)
Definition month_end (d : date) : date := of_ymd (year d) (month d) (mlen (year d) (month d)).

Lemma month_end_fom d : month_end d = fom (mi d + 1) - 1.
Proof.
  unfold month_end. pose proof (ymd_valid d) as V. unfold valid_ymd in V.
  rewrite of_ymd_fom by lia. rewrite <- mi_def, fom_succ, mil_mi. lia.
Qed.

Lemma month_end_bounds d : d <= month_end d.
Proof. rewrite month_end_fom. pose proof (fom_mi_bounds d). lia. Qed.

Lemma month_end_same d : same_month (month_end d) d.
Proof.
  apply same_month_mi. apply mi_unique. rewrite month_end_fom, fom_succ.
  pose proof (mil_bounds (mi d)). lia.
Qed.

Lemma in_range_year d : in_range d -> MIN_YEAR <= year d <= MAX_YEAR.
Proof.
  unfold in_range. rewrite date_min_val, date_max_val. intros (H1 & H2).
  apply year_mono in H1, H2.
  assert (E1 : year (-95746129) = MIN_YEAR) by (vm_compute; reflexivity).
  assert (E2 : year 95745399 = MAX_YEAR) by (vm_compute; reflexivity). lia.
Qed.

Lemma year_in_range d : MIN_YEAR <= year d <= MAX_YEAR -> in_range d.
Proof.
  intros H. unfold in_range. rewrite date_min_val, date_max_val.
  assert (E1 : year (-95746129 - 1) = MIN_YEAR - 1) by (vm_compute; reflexivity).
  assert (E2 : year (95745399 + 1) = MAX_YEAR + 1) by (vm_compute; reflexivity).
  split.
  - destruct (Z_le_gt_dec (-95746129) d) as [|G]; [assumption|].
    pose proof (year_mono d (-95746129 - 1) ltac:(lia)). lia.
  - destruct (Z_le_gt_dec d 95745399) as [|G]; [assumption|].
    pose proof (year_mono (95745399 + 1) d ltac:(lia)). lia.
Qed.

Lemma last_day_of_month_spec d : in_range d ->
  last_day_of_month d = if year d <? MAX_YEAR then Ok (month_end d) else Panic PUnwrap.
Proof.
  intros Hd. unfold last_day_of_month.
  pose proof (in_range_year d Hd) as Hy. pose proof (ymd_valid d) as V. unfold valid_ymd in V.
  unfold from_ymd_opt. cbv zeta.
  assert (Vj : valid_ymdb (year d + 1) 1 1 = true) by (apply valid_ymdb_spec; unfold valid_ymd, mlen; cbn; lia).
  rewrite Vj. cbn [andb].
  destruct (Z.ltb_spec (year d) MAX_YEAR) as [L|G].
  2:{ replace (year d + 1 <=? MAX_YEAR) with false by lia. rewrite andb_false_r. reflexivity. }
  replace (MIN_YEAR <=? year d + 1) with true by lia.
  replace (year d + 1 <=? MAX_YEAR) with true by lia. cbn [andb ounwrap obind].
  match goal with |- context [in_rangeb (?t - 1)] => assert (E : t - 1 = month_end d) end.
  { rewrite month_end_fom, mi_def.
    destruct (Z.eq_dec (month d) 12) as [E12|N12].
    - replace (valid_ymdb (year d) (month d + 1) 1) with false by (rewrite E12; reflexivity).
      cbn [andb]. rewrite of_ymd_fom by lia. replace (12 * year d + (month d - 1) + 1) with (12 * (year d + 1) + (1 - 1)) by lia. lia.
    - replace (valid_ymdb (year d) (month d + 1) 1) with true
        by (symmetry; apply valid_ymdb_spec; pose proof (mlen_bounds (year d) (month d + 1)); unfold valid_ymd; lia).
      replace (MIN_YEAR <=? year d) with true by lia.
      replace (year d <=? MAX_YEAR) with true by lia. cbn [andb].
      rewrite of_ymd_fom by lia. replace (12 * year d + (month d + 1 - 1)) with (12 * year d + (month d - 1) + 1) by lia. lia. }
  rewrite E.
  assert (R : in_range (month_end d)).
  { apply year_in_range. destruct (month_end_same d) as [-> _]. lia. }
  apply in_rangeb_spec in R. now rewrite R.
Qed.

Lemma month_end_in_range d : in_range d -> in_range (month_end d).
Proof.
  intros H. apply year_in_range. destruct (month_end_same d) as [-> _]. now apply in_range_year.
Qed.

Lemma end_of_month_Ok c d r : in_range d -> year d < MAX_YEAR ->
  (end_of_month c d = Ok r <-> in_range r /\ last_open_upto c (month_end d) r).
Proof.
  intros Hd Hy. unfold end_of_month. rewrite last_day_of_month_spec by assumption.
  replace (year d <? MAX_YEAR) with true by lia. cbn [obind].
  apply roll_down_Ok. now apply month_end_in_range.
Qed.

Lemma end_of_month_last_year c d : in_range d -> year d = MAX_YEAR ->
  end_of_month c d = Panic PUnwrap.
Proof.
  intros Hd Hy. unfold end_of_month. rewrite last_day_of_month_spec by assumption.
  replace (year d <? MAX_YEAR) with false by lia. reflexivity.
Qed.

Lemma end_of_month_in_month c d r : in_range d ->
  end_of_month c d = Ok r ->
  (exists b, same_month b d /\ opened c b) -> opened c r /\ same_month r d.
Proof.
  intros Hd H (b & Hb & Ob).
  pose proof (in_range_year d Hd).
  destruct (Z.eq_dec (year d) MAX_YEAR) as [E|N].
  { rewrite end_of_month_last_year in H by assumption. discriminate. }
  apply end_of_month_Ok in H; [|assumption|lia]. destruct H as (_ & HL).
  split; [apply HL|].
  assert (Hbe : b <= month_end d).
  { rewrite month_end_fom. apply same_month_mi in Hb. pose proof (fom_mi_bounds b). rewrite Hb in *. lia. }
  pose proof (last_ge _ _ _ _ HL Ob Hbe). destruct HL as (L1 & _).
  assert (Hbm : same_month b (month_end d)).
  { destruct Hb, (month_end_same d). split; congruence. }
  pose proof (same_month_between b r (month_end d) ltac:(lia) Hbm) as [? ?].
  destruct Hb. split; congruence.
Qed.

Lemma end_of_month_same c d d' : in_range d -> in_range d' -> same_month d d' ->
  end_of_month c d = end_of_month c d'.
Proof.
  intros H H' (E1 & E2). unfold end_of_month. rewrite !last_day_of_month_spec by assumption.
  unfold month_end. now rewrite E1, E2.
Qed.

(** ** Advancing by months *)
Lemma advance_months_false oc c d p b : (exists n, p = Months n \/ p = Years n) ->
  advance oc c d p b (Some false) = (do a <- add_period oc d p; adjust c a b) /\
  advance oc c d p b None = (do a <- add_period oc d p; adjust c a b).
Proof. intros (n & [->| ->]); split; reflexivity. Qed.

Lemma advance_months_eom oc c d p b r : (exists n, p = Months n \/ p = Years n) ->
  (advance oc c d p b (Some true) = Ok (Some r) <->
   exists a x, add_period oc d p = Ok a /\ adjust c a b = Ok (Some x) /\ end_of_month c x = Ok r).
Proof.
  intros (n & H).
  assert (E : advance oc c d p b (Some true) =
    do a <- add_period oc d p;
    do r <- adjust c a b; do r' <- ounwrap r; do e <- end_of_month c r'; Ok (Some e)).
  { destruct H as [->| ->]; reflexivity. }
  rewrite E, obind_Ok. split.
  - intros (a & Ha & H1). apply obind_Ok in H1. destruct H1 as (o & Ho & H1).
    apply obind_Ok in H1. destruct H1 as (x & Hx & H1). destruct o; [|discriminate]. injection Hx as ->.
    apply obind_Ok in H1. destruct H1 as (e & He & [= <-]). eauto.
  - intros (a & x & Ha & Hx & He). exists a. split; [assumption|].
    rewrite Hx. cbn [obind ounwrap]. rewrite He. reflexivity.
Qed.

(** ** Joint calendars *)
Lemma joint_open cs d : opened (joint cs) d <-> forall c, In c cs -> opened c d.
Proof.
  unfold opened. induction cs as [|c cs IH]; cbn [joint In].
  - split; [intros _ c []|reflexivity].
  - destruct (c d) as [[]| |] eqn:E; cbn [obind].
    + rewrite IH. split; [intros H c' [<-|Hc]; auto|intros H c' Hc; auto].
    + split; [discriminate|]. intros H. rewrite <- (H c); auto.
    + split; [discriminate|]. intros H. rewrite <- (H c); auto.
    + split; [discriminate|]. intros H. rewrite <- (H c); auto.
Qed.

