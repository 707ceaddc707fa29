(** Proofs about the calendar algorithms (Calendar.v). *)
From Coq Require Import ZArith Lia Bool List.
From Coq Require Import ZifyBool.
From Verif Require Import Outcome Ints Loop Date DateFacts Calendar CalendarSpec.
Open Scope Z_scope.
Ltac Zify.zify_post_hook ::= Z.div_mod_to_equations.

Lemma in_range_val d : in_range d <-> -95746129 <= d <= 95745399.
Proof. unfold in_range. rewrite date_min_val, date_max_val. reflexivity. Qed.

Lemma add_days_Ok d n r : add_days d n = Ok r <-> r = d + n /\ in_range (d + n).
Proof. apply mk_date_Ok. Qed.

Lemma add_days_cases d n :
  (in_range (d + n) /\ add_days d n = Ok (d + n)) \/
  (~ in_range (d + n) /\ add_days d n = Panic PDateRange).
Proof.
  unfold add_days, mk_date. destruct (in_rangeb (d + n)) eqn:E.
  - left. now apply in_rangeb_spec in E.
  - right. split; [|reflexivity]. intros H. apply in_rangeb_spec in H. congruence.
Qed.

(** ** Open days *)
Lemma days_of_split a m b : a <= m <= b -> days_of a b = days_of a m ++ days_of m b.
Proof.
  intros H. unfold days_of.
  replace (Z.to_nat (b - a)) with (Z.to_nat (m - a) + Z.to_nat (b - m))%nat by lia.
  rewrite seq_app, map_app. f_equal. simpl.
  assert (G : forall j k s, seq (j + s) k = map (fun i => (j + i)%nat) (seq s k)).
  { intros j k. induction k as [|k IH]; intros s; simpl; [reflexivity|].
    f_equal. rewrite <- IH. f_equal. lia. }
  specialize (G (Z.to_nat (m - a)) (Z.to_nat (b - m)) 0%nat). rewrite Nat.add_0_r in G.
  rewrite G, map_map. apply map_ext. intros i. lia.
Qed.

Lemma days_of_one a : days_of a (a + 1) = a :: nil.
Proof.
  unfold days_of. replace (a + 1 - a) with 1 by lia. simpl. f_equal. lia.
Qed.

Lemma days_of_nil a b : b <= a -> days_of a b = nil.
Proof. intros H. unfold days_of. now replace (Z.to_nat (b - a)) with 0%nat by lia. Qed.

Lemma in_days_of a b x : In x (days_of a b) <-> a <= x < b.
Proof.
  unfold days_of. rewrite in_map_iff. split.
  - intros (i & <- & Hi). apply in_seq in Hi. lia.
  - intros H. exists (Z.to_nat (x - a)). split; [lia|]. apply in_seq. lia.
Qed.

Lemma open_days_split c a m b : a <= m <= b ->
  open_days c a b = open_days c a m + open_days c m b.
Proof.
  intros H. unfold open_days. rewrite (days_of_split a m b H), filter_app, app_length. lia.
Qed.

Lemma open_days_one c a : open_days c a (a + 1) = if openb c a then 1 else 0.
Proof. unfold open_days. rewrite days_of_one. simpl. now destruct (openb c a). Qed.

Lemma open_days_nil c a b : b <= a -> open_days c a b = 0.
Proof. intros H. unfold open_days. now rewrite days_of_nil. Qed.

Lemma open_days_nonneg c a b : 0 <= open_days c a b.
Proof. unfold open_days. lia. Qed.

Lemma filter_le {A} (f : A -> bool) l : (length (filter f l) <= length l)%nat.
Proof. induction l as [|x l IH]; simpl; [lia|]. destruct (f x); simpl; lia. Qed.

Lemma open_days_le c a b : a <= b -> open_days c a b <= b - a.
Proof.
  intros H. unfold open_days, days_of.
  pose proof (filter_le (openb c) (map (fun i => a + Z.of_nat i) (seq 0 (Z.to_nat (b - a))))) as G.
  rewrite map_length, seq_length in G. lia.
Qed.

Lemma open_days_zero c a b : open_days c a b = 0 <-> (forall x, a <= x < b -> openb c x = false).
Proof.
  unfold open_days. split.
  - intros H x Hx. destruct (openb c x) eqn:E; [|reflexivity].
    assert (In x (filter (openb c) (days_of a b))) as G by (apply filter_In; rewrite in_days_of; auto).
    destruct (filter (openb c) (days_of a b)); [contradiction|simpl in H; lia].
  - intros H. destruct (filter (openb c) (days_of a b)) as [|x l] eqn:E; [reflexivity|].
    assert (In x (filter (openb c) (days_of a b))) as G by (rewrite E; left; reflexivity).
    apply filter_In in G. rewrite in_days_of in G. destruct G as [G1 G2].
    rewrite H in G2; [discriminate|exact G1].
Qed.

Lemma opened_openb c x : opened c x <-> openb c x = true.
Proof. unfold opened, openb. destruct (c x) as [[]| |]; split; congruence. Qed.

Lemma closed_openb c x : closed c x -> openb c x = false.
Proof. unfold closed, openb. now intros ->. Qed.

Lemma open_days_closed c a b : (forall x, a <= x < b -> closed c x) -> open_days c a b = 0.
Proof. intros H. apply open_days_zero. intros x Hx. apply closed_openb. auto. Qed.

Lemma open_closed_False c x : opened c x -> closed c x -> False.
Proof. unfold opened, closed. congruence. Qed.

(** ** Rolling *)
Lemma first_open_unique c d r r' : first_open_from c d r -> first_open_from c d r' -> r = r'.
Proof.
  intros (H1 & H2 & H3) (K1 & K2 & K3).
  destruct (Z.lt_trichotomy r r') as [L|[E|G]]; [|exact E|]; exfalso.
  - apply (open_closed_False c r); [assumption|apply K3; lia].
  - apply (open_closed_False c r'); [assumption|apply H3; lia].
Qed.

Lemma last_open_unique c d r r' : last_open_upto c d r -> last_open_upto c d r' -> r = r'.
Proof.
  intros (H1 & H2 & H3) (K1 & K2 & K3).
  destruct (Z.lt_trichotomy r r') as [L|[E|G]]; [|exact E|]; exfalso.
  - apply (open_closed_False c r'); [assumption|apply H3; lia].
  - apply (open_closed_False c r); [assumption|apply K3; lia].
Qed.

Lemma roll_up_cases c d : in_range d ->
  (exists r, roll_up c d = Ok r /\ in_range r /\ first_open_from c d r) \/
  (exists x, roll_up c d <> Ok x /\ d <= x <= date_max /\ (forall y, d <= y < x -> closed c y) /\
     ((exists p, c x = Panic p /\ roll_up c d = Panic p) \/
      (exists e, c x = Err e /\ roll_up c d = Err e) \/
      (x = date_max /\ closed c x /\ roll_up c d = Panic PDateRange))).
Proof.
  intros Hd. unfold roll_up.
  destruct (loop_ind (roll_step c 1)
    (fun s => d <= s /\ in_range s /\ forall x, d <= x < s -> closed c x)
    (fun o => (exists r, o = Ok r /\ in_range r /\ first_open_from c d r) \/
      (exists x, d <= x <= date_max /\ (forall y, d <= y < x -> closed c y) /\
       ((exists p, c x = Panic p /\ o = Panic p) \/
        (exists e, c x = Err e /\ o = Err e) \/
        (x = date_max /\ closed c x /\ o = Panic PDateRange))))
    (fun s => date_max - s) date_fuel d) as (r & Hr & HQ).
  - split; [lia|]. split; [assumption|]. intros; lia.
  - rewrite in_range_val in Hd. rewrite date_max_val. unfold date_fuel. lia.
  - intros s (_ & Hs & _). unfold in_range in Hs. lia.
  - intros s s' (H1 & H2 & H3) E. unfold roll_step in E.
    destruct (c s) as [[]| |] eqn:Ec; try discriminate.
    destruct (add_days_cases s 1) as [[HR HA]|[HR HA]]; rewrite HA in E; [|discriminate].
    injection E as <-. split; [|lia]. split; [lia|]. split; [assumption|].
    intros x Hx. destruct (Z.eq_dec x s) as [->|]; [exact Ec|apply H3; lia].
  - intros s o (H1 & H2 & H3) E. unfold roll_step in E.
    destruct (c s) as [[]|e|p] eqn:Ec.
    + injection E as <-. left. exists s. split; [reflexivity|]. split; [assumption|].
      split; [assumption|]. split; [exact Ec|assumption].
    + destruct (add_days_cases s 1) as [[HR HA]|[HR HA]]; rewrite HA in E; [discriminate|].
      injection E as <-. right. exists s.
      assert (s = date_max) by (unfold in_range in *; lia).
      split; [lia|]. split; [assumption|]. right; right. auto.
    + injection E as <-. right. exists s. unfold in_range in H2.
      split; [lia|]. split; [assumption|]. right; left. eauto.
    + injection E as <-. right. exists s. unfold in_range in H2.
      split; [lia|]. split; [assumption|]. left. eauto.
  - rewrite Hr. cbn [finish]. destruct HQ as [HQ|(x & Hx1 & Hx2 & Hx3)]; [left; exact HQ|].
    right. exists x. split; [|split; [exact Hx1|split; [exact Hx2|exact Hx3]]].
    destruct Hx3 as [(p & _ & ->)|[(e & _ & ->)|(_ & _ & ->)]]; discriminate.
Qed.

Lemma roll_down_cases c d : in_range d ->
  (exists r, roll_down c d = Ok r /\ in_range r /\ last_open_upto c d r) \/
  (exists x, roll_down c d <> Ok x /\ date_min <= x <= d /\ (forall y, x < y <= d -> closed c y) /\
     ((exists p, c x = Panic p /\ roll_down c d = Panic p) \/
      (exists e, c x = Err e /\ roll_down c d = Err e) \/
      (x = date_min /\ closed c x /\ roll_down c d = Panic PDateRange))).
Proof.
  intros Hd. unfold roll_down.
  destruct (loop_ind (roll_step c (-1))
    (fun s => s <= d /\ in_range s /\ forall x, s < x <= d -> closed c x)
    (fun o => (exists r, o = Ok r /\ in_range r /\ last_open_upto c d r) \/
      (exists x, date_min <= x <= d /\ (forall y, x < y <= d -> closed c y) /\
       ((exists p, c x = Panic p /\ o = Panic p) \/
        (exists e, c x = Err e /\ o = Err e) \/
        (x = date_min /\ closed c x /\ o = Panic PDateRange))))
    (fun s => s - date_min) date_fuel d) as (r & Hr & HQ).
  - split; [lia|]. split; [assumption|]. intros; lia.
  - rewrite in_range_val in Hd. rewrite date_min_val. unfold date_fuel. lia.
  - intros s (_ & Hs & _). unfold in_range in Hs. lia.
  - intros s s' (H1 & H2 & H3) E. unfold roll_step in E.
    destruct (c s) as [[]| |] eqn:Ec; try discriminate.
    destruct (add_days_cases s (-1)) as [[HR HA]|[HR HA]]; rewrite HA in E; [|discriminate].
    injection E as <-. split; [|lia]. split; [lia|]. split; [assumption|].
    intros x Hx. destruct (Z.eq_dec x s) as [->|]; [exact Ec|apply H3; lia].
  - intros s o (H1 & H2 & H3) E. unfold roll_step in E.
    destruct (c s) as [[]|e|p] eqn:Ec.
    + injection E as <-. left. exists s. split; [reflexivity|]. split; [assumption|].
      split; [assumption|]. split; [exact Ec|assumption].
    + destruct (add_days_cases s (-1)) as [[HR HA]|[HR HA]]; rewrite HA in E; [discriminate|].
      injection E as <-. right. exists s.
      assert (s = date_min) by (unfold in_range in *; lia).
      split; [lia|]. split; [assumption|]. right; right. auto.
    + injection E as <-. right. exists s. unfold in_range in H2.
      split; [lia|]. split; [assumption|]. right; left. eauto.
    + injection E as <-. right. exists s. unfold in_range in H2.
      split; [lia|]. split; [assumption|]. left. eauto.
  - rewrite Hr. cbn [finish]. destruct HQ as [HQ|(x & Hx1 & Hx2 & Hx3)]; [left; exact HQ|].
    right. exists x. split; [|split; [exact Hx1|split; [exact Hx2|exact Hx3]]].
    destruct Hx3 as [(p & _ & ->)|[(e & _ & ->)|(_ & _ & ->)]]; discriminate.
Qed.

Lemma roll_up_Ok c d r : in_range d ->
  (roll_up c d = Ok r <-> in_range r /\ first_open_from c d r).
Proof.
  intros Hd. split.
  - intros E. destruct (roll_up_cases c d Hd) as [(r' & E' & H)|(x & _ & _ & _ & H)].
    + rewrite E in E'. injection E' as <-. exact H.
    + destruct H as [(p & _ & E')|[(e & _ & E')|(_ & _ & E')]]; congruence.
  - intros (HR & HF). destruct (roll_up_cases c d Hd) as [(r' & E' & _ & H)|(x & _ & Hx & Hc & H)].
    + now rewrite (first_open_unique _ _ _ _ HF H).
    + exfalso. destruct HF as (F1 & F2 & F3).
      assert (c x <> Ok true) as Hx'
        by (destruct H as [(p & H & _)|[(e & H & _)|(_ & H & _)]]; unfold closed in *; congruence).
      destruct (Z.lt_trichotomy r x) as [L|[->|G]].
      * apply (open_closed_False c r); [assumption|apply Hc; lia].
      * contradiction.
      * pose proof (F3 x ltac:(lia)) as Hcx.
        destruct H as [(p & H & _)|[(e & H & _)|(E & H & _)]]; unfold closed in *; try congruence.
        unfold in_range in HR. lia.
Qed.

Lemma roll_down_Ok c d r : in_range d ->
  (roll_down c d = Ok r <-> in_range r /\ last_open_upto c d r).
Proof.
  intros Hd. split.
  - intros E. destruct (roll_down_cases c d Hd) as [(r' & E' & H)|(x & _ & _ & _ & H)].
    + rewrite E in E'. injection E' as <-. exact H.
    + destruct H as [(p & _ & E')|[(e & _ & E')|(_ & _ & E')]]; congruence.
  - intros (HR & HF). destruct (roll_down_cases c d Hd) as [(r' & E' & _ & H)|(x & _ & Hx & Hc & H)].
    + now rewrite (last_open_unique _ _ _ _ HF H).
    + exfalso. destruct HF as (F1 & F2 & F3).
      assert (c x <> Ok true) as Hx'
        by (destruct H as [(p & H & _)|[(e & H & _)|(_ & H & _)]]; unfold closed in *; congruence).
      destruct (Z.lt_trichotomy r x) as [L|[->|G]].
      * pose proof (F3 x ltac:(lia)) as Hcx.
        destruct H as [(p & H & _)|[(e & H & _)|(E & H & _)]]; unfold closed in *; try congruence.
        unfold in_range in HR. lia.
      * contradiction.
      * apply (open_closed_False c r); [assumption|apply Hc; lia].
Qed.

(** The only ways [roll_up] can fail. *)
Lemma roll_up_Panic c d p : in_range d ->
  (roll_up c d = Panic p <->
   exists x, d <= x <= date_max /\ (forall y, d <= y < x -> closed c y) /\
     (c x = Panic p \/ (x = date_max /\ closed c x /\ p = PDateRange))).
Proof.
  intros Hd. split.
  - intros E. destruct (roll_up_cases c d Hd) as [(r' & E' & H)|(x & _ & Hx & Hc & H)]; [congruence|].
    exists x. split; [assumption|]. split; [assumption|].
    destruct H as [(p' & H & E')|[(e & _ & E')|(H1 & H2 & E')]].
    + left; congruence.
    + congruence.
    + right. repeat split; try assumption. congruence.
  - intros (x & Hx & Hc & H).
    destruct (roll_up_cases c d Hd) as [(r' & E' & HR & H')|(x' & _ & Hx' & Hc' & H')].
    + exfalso. destruct H' as (F1 & F2 & F3).
      destruct (Z.lt_trichotomy r' x) as [L|[->|G]].
      * apply (open_closed_False c r'); [assumption|apply Hc; lia].
      * unfold opened, closed in *. destruct H as [H|(_ & H & _)]; congruence.
      * unfold in_range in HR. pose proof (F3 x ltac:(lia)) as Hcx.
        destruct H as [H|(H & _)]; [unfold closed in Hcx; congruence|lia].
    + destruct (Z.lt_trichotomy x' x) as [L|[->|G]].
      * pose proof (Hc x' ltac:(lia)) as Hcx. unfold closed in Hcx.
        destruct H' as [(? & H' & _)|[(? & H' & _)|(H' & _)]]; [congruence|congruence|lia].
      * unfold closed in *.
        destruct H as [H|(H & Hc2 & ->)], H' as [(? & H' & E)|[(? & H' & E)|(H' & ? & E)]]; congruence.
      * pose proof (Hc' x ltac:(lia)) as Hcx. unfold closed in Hcx.
        destruct H as [H|(H & _)]; [congruence|lia].
Qed.

Lemma roll_down_Panic c d p : in_range d ->
  (roll_down c d = Panic p <->
   exists x, date_min <= x <= d /\ (forall y, x < y <= d -> closed c y) /\
     (c x = Panic p \/ (x = date_min /\ closed c x /\ p = PDateRange))).
Proof.
  intros Hd. split.
  - intros E. destruct (roll_down_cases c d Hd) as [(r' & E' & H)|(x & _ & Hx & Hc & H)]; [congruence|].
    exists x. split; [assumption|]. split; [assumption|].
    destruct H as [(p' & H & E')|[(e & _ & E')|(H1 & H2 & E')]].
    + left; congruence.
    + congruence.
    + right. repeat split; try assumption. congruence.
  - intros (x & Hx & Hc & H).
    destruct (roll_down_cases c d Hd) as [(r' & E' & HR & H')|(x' & _ & Hx' & Hc' & H')].
    + exfalso. destruct H' as (F1 & F2 & F3).
      destruct (Z.lt_trichotomy r' x) as [L|[->|G]].
      * unfold in_range in HR. pose proof (F3 x ltac:(lia)) as Hcx.
        destruct H as [H|(H & _)]; [unfold closed in Hcx; congruence|lia].
      * unfold opened, closed in *. destruct H as [H|(_ & H & _)]; congruence.
      * apply (open_closed_False c r'); [assumption|apply Hc; lia].
    + destruct (Z.lt_trichotomy x' x) as [L|[->|G]].
      * pose proof (Hc' x ltac:(lia)) as Hcx. unfold closed in Hcx.
        destruct H as [H|(H & _)]; [congruence|lia].
      * unfold closed in *.
        destruct H as [H|(H & Hc2 & ->)], H' as [(? & H' & E)|[(? & H' & E)|(H' & ? & E)]]; congruence.
      * pose proof (Hc x' ltac:(lia)) as Hcx. unfold closed in Hcx.
        destruct H' as [(? & H' & _)|[(? & H' & _)|(H' & _)]]; [congruence|congruence|lia].
Qed.

Lemma fuel_big : 191491530 < Zpos date_fuel.
Proof. reflexivity. Qed.

(** Unfolding these never helps conversion, and can be expensive. *)
Global Opaque roll_up roll_down nearest advance_days count_days date_fuel.
Global Opaque ymd of_ymd date_min date_max.
