(** More calendar proofs: the [advance] entry point, counting with flags, joint
    calendars. *)
From Coq Require Import ZArith Lia Bool List.
From Coq Require Import ZifyBool.
From Verif Require Import Outcome Ints Loop Date DateFacts Calendar CalendarSpec CalendarFacts
  AdjustFacts AdvanceFacts PeriodFacts.
Open Scope Z_scope.
Ltac Zify.zify_post_hook ::= Z.div_mod_to_equations.

Lemma advance_forward oc c d n b eom r : in_range d -> 0 < n ->
  (advance oc c d (Days n) b eom = Ok (Some r) <->
   d < r <= date_max /\ opened c r /\ answers c (d + 1) (r + 1) /\
   open_days c (d + 1) (r + 1) = n).
Proof. intros Hd Hn. rewrite advance_Days by lia. apply advance_fwd; assumption. Qed.

Lemma advance_backward oc c d n b eom r : in_range d -> 0 < n ->
  (advance oc c d (Days (- n)) b eom = Ok (Some r) <->
   date_min <= r < d /\ opened c r /\ answers c r d /\ open_days c r d = n).
Proof.
  intros Hd Hn. rewrite advance_Days by lia. rewrite advance_bwd by (assumption || lia).
  unfold bwd_spec. now rewrite Z.opp_involutive.
Qed.

Lemma advance_flags oc oc' c d n b b' e e' : n <> 0 ->
  advance oc c d (Days n) b e = advance oc' c d (Days n) b' e'.
Proof. intros H. cbn [advance]. destruct (Z.eqb_spec n 0); [contradiction|reflexivity]. Qed.

Lemma advance_round_trip oc c d r n b b' e e' :
  in_range d -> opened c d -> n <> 0 ->
  advance oc c d (Days n) b e = Ok (Some r) ->
  advance oc c r (Days (- n)) b' e' = Ok (Some d).
Proof.
  intros Hd Od Hn H. rewrite advance_Days in * by lia.
  destruct (Z_lt_ge_dec n 0).
  - now apply advance_round_trip_bwd.
  - apply advance_round_trip_fwd; try assumption. lia.
Qed.

Lemma advance_additive oc c d a x m n b e :
  in_range d -> (0 < m /\ 0 < n) \/ (m < 0 /\ n < 0) ->
  advance oc c d (Days m) b e = Ok (Some a) ->
  (advance oc c a (Days n) b e = Ok (Some x) <-> advance oc c d (Days (m + n)) b e = Ok (Some x)).
Proof.
  intros Hd Hs H. rewrite advance_Days in H by lia. rewrite !advance_Days by lia.
  destruct Hs as [[? ?]|[? ?]].
  - now apply advance_add_fwd.
  - now apply advance_add_bwd.
Qed.

Lemma advance_months oc c d r p b eom :
  in_range d -> period_wf p -> (oc = true \/ no_overflow p) ->
  (exists n, p = Months n \/ p = Years n) -> (eom = None \/ eom = Some false) ->
  (advance oc c d p b eom = Ok (Some r) <->
   exists a, in_range a /\ period_moves 1 d p a /\ adjust c a b = Ok (Some r)).
Proof.
  intros Hd Hw Hno Hp He.
  assert (E : advance oc c d p b eom = (do a <- add_period oc d p; adjust c a b)).
  { destruct Hp as (n & [->| ->]), He as [->| ->]; reflexivity. }
  rewrite E, obind_Ok. split.
  - intros (a & Ha & H). apply add_period_Ok in Ha; try assumption. exists a. tauto.
  - intros (a & Ha & Hm & H). exists a. split; [|assumption]. apply add_period_Ok; auto.
Qed.

Lemma adjust_in_range c d b r : in_range d -> b <> Nearest -> adjust c d b = Ok (Some r) -> in_range r.
Proof.
  intros Hd Hb H. destruct b; try congruence;
    try (refine (proj2 (adjust_result_open c d _ r Hd _ _ H)); discriminate).
  cbn in H. congruence.
Qed.

Local Transparent nearest.
Lemma nearest_in_range c d r : in_range d -> nearest c d = Ok (Some r) -> in_range r.
Proof.
  intros Hd. unfold nearest.
  assert (G : forall n s r, in_range (fst s) -> in_range (snd s) ->
    iter_loop n (nearest_step c) s = inr (Ok (Some r)) -> in_range r).
  { clear. induction n as [|n IH]; intros [s1 s2] r H1 H2; simpl; [discriminate|].
    cbn [fst snd] in *.
    destruct (oand _ _) as [[]| |]; try discriminate.
    - destruct (add_days_cases s1 1) as [[HR HA]|[HR HA]]; rewrite HA; simpl; [|discriminate].
      destruct (add_days_cases s2 (-1)) as [[HR2 HA2]|[HR2 HA2]]; rewrite HA2; simpl; [|discriminate].
      apply IH; assumption.
    - destruct (is_holiday c s1) as [[]| |]; simpl; intros E; try discriminate; injection E as <-; assumption. }
  rewrite loop_iter. destruct (iter_loop _ _ _) as [s|o] eqn:E; cbn [finish]; [discriminate|].
  intros ->. eapply G; [| |exact E]; assumption.
Qed.
Local Opaque nearest.

Lemma adjust_stays c d b r : in_range d -> adjust c d b = Ok (Some r) -> in_range r.
Proof.
  intros Hd H. destruct b; try (eapply adjust_in_range; [exact Hd| |exact H]; discriminate).
  eapply nearest_in_range; eassumption.
Qed.

Lemma advance_months_end oc c d r p b :
  in_range d -> period_wf p -> (oc = true \/ no_overflow p) ->
  (exists n, p = Months n \/ p = Years n) ->
  advance oc c d p b (Some true) = Ok (Some r) ->
  exists a x, in_range a /\ period_moves 1 d p a /\ adjust c a b = Ok (Some x) /\
    last_open_upto c (last_calendar_day x) r.
Proof.
  intros Hd Hw Hno Hp H. apply advance_months_eom in H; [|assumption].
  destruct H as (a & x & Ha & Hx & He). apply add_period_Ok in Ha; try assumption.
  destruct Ha as (Har & Ha). exists a, x. split; [assumption|]. split; [assumption|]. split; [assumption|].
  assert (Hxr : in_range x) by (eapply adjust_stays; [exact Har|exact Hx]).
  pose proof (in_range_year x Hxr).
  destruct (Z.eq_dec (year x) MAX_YEAR) as [E|N].
  { rewrite end_of_month_last_year in He by assumption. discriminate. }
  apply end_of_month_Ok in He; [|assumption|lia]. apply He.
Qed.

Lemma bdb_counts c from to f l :
  let first := match f with Some x => x | None => true end in
  let last := match l with Some x => x | None => false end in
  let a := if first then from + 1 else from in
  let b := if last then to + 1 else to in
  from <= to -> a <= b -> in_range a -> in_range b -> answers c a b ->
  business_days_between c from to f l = Ok (open_days c a b).
Proof.
  intros first last a b H1 H2 H3 H4 H5. unfold business_days_between.
  fold first last. replace (to <? from) with false by lia.
  assert (Ea : from + b2z first = a) by (unfold a; destruct first; cbn; lia).
  assert (Eb : to + b2z last = b) by (unfold b; destruct last; cbn; lia).
  rewrite <- Ea, <- Eb in *. apply bdb_ord; assumption.
Qed.

Lemma bdb_same_day_other c d : in_range d -> in_range (d + 1) -> opened c d \/ closed c d ->
  business_days_between c d d (Some false) (Some false) = Ok 0 /\
  business_days_between c d d (Some true) (Some true) = Ok 0 /\
  business_days_between c d d (Some false) (Some true) = Ok (if openb c d then 1 else 0).
Proof.
  intros H1 H2 H3. repeat split.
  - rewrite (bdb_counts c d d (Some false) (Some false)); cbn; try lia; try assumption.
    + now rewrite open_days_nil by lia.
    + intros x Hx; lia.
  - rewrite (bdb_counts c d d (Some true) (Some true)); cbn; try lia; try assumption.
    + now rewrite open_days_nil by lia.
    + intros x Hx; lia.
  - rewrite (bdb_counts c d d (Some false) (Some true)); cbn; try lia; try assumption.
    + now rewrite open_days_one.
    + intros x Hx. assert (x = d) as -> by lia. assumption.
Qed.

(** ** Joint calendars *)
Lemma joint_answers cs d : (forall c, In c cs -> opened c d \/ closed c d) ->
  opened (joint cs) d \/ closed (joint cs) d.
Proof.
  unfold opened, closed. induction cs as [|c cs IH]; intros H; cbn [joint]; [auto|].
  destruct (H c (or_introl eq_refl)) as [E|E]; rewrite E; cbn [obind]; [|auto].
  apply IH. intros c' Hc. apply H. now right.
Qed.

Lemma joint_closed cs d : (forall c, In c cs -> opened c d \/ closed c d) ->
  (closed (joint cs) d <-> exists c, In c cs /\ closed c d).
Proof.
  intros H. split.
  - unfold closed, opened in *. induction cs as [|c cs IH]; cbn [joint]; [discriminate|].
    destruct (H c (or_introl eq_refl)) as [E|E]; rewrite E; cbn [obind].
    + intros Hc. destruct IH as (c' & Hin & Hc'); [intros; apply H; now right|assumption|].
      exists c'. split; [now right|assumption].
    + intros _. exists c. split; [now left|assumption].
  - intros (c & Hin & Hc). destruct (joint_answers cs d H) as [O|]; [|assumption].
    exfalso. rewrite joint_open in O. apply (open_closed_False c d); auto.
Qed.

Lemma joint_same_members cs cs' d : (forall c, In c cs -> opened c d \/ closed c d) ->
  (forall c, In c cs <-> In c cs') -> joint cs d = joint cs' d.
Proof.
  intros H E.
  assert (H' : forall c, In c cs' -> opened c d \/ closed c d) by (intros c Hc; apply H, E, Hc).
  destruct (joint_answers cs d H) as [O|C].
  - rewrite joint_open in O. assert (O' : opened (joint cs') d) by (apply joint_open; intros c Hc; apply O, E, Hc).
    assert (O2 : opened (joint cs) d) by (apply joint_open; assumption).
    unfold opened in *. congruence.
  - assert (C' : closed (joint cs') d).
    { apply joint_closed; [assumption|]. apply joint_closed in C; [|assumption].
      destruct C as (c & Hin & Hc). exists c. split; [now apply E|assumption]. }
    unfold closed in *. congruence.
Qed.

Lemma joint_app cs cs' d : joint (cs ++ cs') d = do b <- joint cs d; if b then joint cs' d else Ok false.
Proof.
  induction cs as [|c cs IH]; [reflexivity|]. cbn [app joint].
  destruct (c d) as [[]| |]; cbn [obind]; try reflexivity. exact IH.
Qed.

Lemma joint_flatten css d : joint (map joint css) d = joint (concat css) d.
Proof.
  induction css as [|cs css IH]; [reflexivity|]. cbn [map concat joint].
  rewrite joint_app. destruct (joint cs d) as [[]| |]; cbn [obind]; try reflexivity. exact IH.
Qed.
