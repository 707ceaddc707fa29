(** Property C94: the calendars of Thailand and Russia, the Thai lunar calendar
    and the holiday laws of the two countries. *)
From Coq Require Import ZArith Bool List Lia.
From Coq Require Import ZifyBool.
Import ListNotations.
From Verif Require Import Outcome Date DateFacts Calendar CalendarSpec CalendarFacts EasterSpec EasterFacts Cal_base Closure ClosureView
  Closure2 Closure3 Closure4 Shipped ShippedFacts HolidayRules HolidayTables HolidayCheck FestivalSpec FestivalLaws P_Festivals ThaiSpec.
From Verif Require Import Cal_thailand Cal_russia.
Open Scope Z_scope.

(** ** The Buddhist days are full moons in their seasons. *)

(** The mean full moon, half a month after the mean conjunction, is on day [d]
    or on the day after it. *)
Definition at_full_moon (d : date) : Prop :=
  exists k, 1000000000 * d <= mean_conjunction k + 14765294430 < 1000000000 * (d + 2).
Definition full_moon_between (a b : Z * Z) (y : Z) (d : date) : Prop :=
  of_ymd y (fst a) (snd a) <= d <= of_ymd y (fst b) (snd b) /\ at_full_moon d.

Definition moon_near (d : date) : Z := (1000000000 * d + 1999999999 - mean_conjunction 0 - 14765294430) / 29530588861.
Definition full_moon_betweenb (f : Z -> date) (a b : Z * Z) (y : Z) : bool :=
  (of_ymd y (fst a) (snd a) <=? f y) && (f y <=? of_ymd y (fst b) (snd b)) &&
  (1000000000 * f y <=? mean_conjunction (moon_near (f y)) + 14765294430) &&
  (mean_conjunction (moon_near (f y)) + 14765294430 <? 1000000000 * (f y + 2)).

Lemma full_moon_sound f a b : forallb (fun i => full_moon_betweenb f a b (2000 + Z.of_nat i)) (seq 0 27) = true ->
  forall y, 2000 <= y <= 2026 -> full_moon_between a b y (f y).
Proof.
  intros H y Y. pose proof (years (full_moon_betweenb f a b) 2000 27 H y ltac:(lia)) as L. unfold full_moon_betweenb in L.
  rewrite !andb_true_iff, !Z.leb_le, Z.ltb_lt in L. destruct L as [[[A B] C] D].
  split; [exact (conj A B)|]. exists (moon_near (f y)). exact (conj C D).
Qed.

Theorem C94_moons : forall y, 2000 <= y <= 2026 ->
  full_moon_between (2, 8) (3, 7) y (makha y) /\ full_moon_between (5, 6) (6, 4) y (wisakha y) /\
  full_moon_between (7, 5) (8, 2) y (asarnha y).
Proof.
  intros y Y. repeat match goal with |- _ /\ _ => split end; apply (full_moon_sound _ _ _); try exact Y; vm_compute; reflexivity.
Qed.
Print Assumptions C94_moons.

(** ** Thailand *)

Definition covered : list Z := [2000; 2001] ++ map (fun i => 2005 + Z.of_nat i) (seq 0 21).
Definition once (d : date) : rule := Once (year d) (month d) (day d).
Definition buddhist_onces : list rule := Eval vm_compute in map once (flat_map buddhist_days covered).

Lemma falls_once x d : falls (once x) d <-> d = x.
Proof. unfold once. cbn [falls]. rewrite of_ymd_ymd. reflexivity. Qed.

Lemma thailand_days : forall d, 1901 <= year d <= 2199 ->
  (closed (shipped_calendar Thailand) d <->
   (weekday_of d = Sat \/ weekday_of d = Sun) \/ Exists (fun r => falls r d) (thailand_rules ++ buddhist_onces)).
Proof. apply (rules_sound view_thailand); [reflexivity | vm_compute; reflexivity | vm_compute; reflexivity]. Qed.

(** Thailand closes on the weekends, on the days of the rules, and on the
    Buddhist days of 2000, 2001 and 2005 to 2025; on no other day. *)
Theorem C94_thailand : forall d, 1901 <= year d <= 2199 ->
  (closed (shipped_calendar Thailand) d <->
   weekend d \/ Exists (fun r => falls r d) thailand_rules \/
   exists y, (2000 <= y <= 2001 \/ 2005 <= y <= 2025) /\ In d (buddhist_days y)).
Proof.
  intros d D. rewrite (thailand_days d D). rewrite Exists_app.
  assert (B : Exists (fun r => falls r d) buddhist_onces <->
              exists y, (2000 <= y <= 2001 \/ 2005 <= y <= 2025) /\ In d (buddhist_days y)).
  { replace buddhist_onces with (map once (flat_map buddhist_days covered)) by (vm_compute; reflexivity).
    rewrite Exists_exists. split.
    - intros (r & I & F). apply in_map_iff in I. destruct I as (x & <- & I). pose proof (proj1 (falls_once x d) F) as Q. rewrite <- Q in I. clear F Q.
      apply in_flat_map in I. destruct I as (y & Y & I). exists y. split; [|exact I].
      unfold covered in Y. apply in_app_or in Y. destruct Y as [Y|Y].
      + left. destruct Y as [<-|[<-|[]]]; lia.
      + right. apply in_map_iff in Y. destruct Y as (i & <- & S). apply in_seq in S. lia.
    - intros (y & Y & I). exists (once d). split; [|apply falls_once; reflexivity].
      apply in_map. apply in_flat_map. exists y. split; [|exact I]. unfold covered. apply in_or_app.
      destruct Y as [Y|Y].
      + left. assert (y = 2000 \/ y = 2001) as [->| ->] by lia; cbn; tauto.
      + right. apply in_map_iff. exists (Z.to_nat (y - 2005)). split; [lia|]. apply in_seq. lia. }
  rewrite B. unfold weekend. reflexivity.
Qed.
Print Assumptions C94_thailand.

(** The Buddhist days of 2002, 2003, 2004 and 2026 and the Coronation days of
    2003 and 2004 are business days. *)
Theorem C94_thailand_refuted :
  ~ (forall y, 2000 <= y <= 2026 -> forall d, In d (buddhist_days y) -> closed (shipped_calendar Thailand) d) /\
  (forall y d, In y [2002; 2003; 2004; 2026] -> In d (buddhist_days y) -> opened (shipped_calendar Thailand) d) /\
  opened (shipped_calendar Thailand) (of_ymd 2003 5 5) /\ opened (shipped_calendar Thailand) (of_ymd 2004 5 5).
Proof.
  assert (O : forall y d, In y [2002; 2003; 2004; 2026] -> In d (buddhist_days y) -> opened (shipped_calendar Thailand) d).
  { assert (A : forallb (fun y => forallb (open_on Thailand) (buddhist_days y)) [2002; 2003; 2004; 2026] = true) by (vm_compute; reflexivity).
    intros y d Y I. apply open_on_spec. rewrite forallb_forall in A. specialize (A y Y). rewrite forallb_forall in A. exact (A d I). }
  repeat match goal with |- _ /\ _ => split end.
  - intros H. specialize (H 2003 ltac:(lia) (makha 2003 + 1)).
    assert (I : In (makha 2003 + 1) (buddhist_days 2003)) by (left; vm_compute; reflexivity).
    exact (not_both _ _ (O 2003 (makha 2003 + 1) ltac:(cbn; tauto) I) (H I)).
  - exact O.
  - apply open_on_spec. vm_compute. reflexivity.
  - apply open_on_spec. vm_compute. reflexivity.
Qed.
Print Assumptions C94_thailand_refuted.

(** ** Russia *)

Theorem C94_russia : forall m d, In m [None; Some russia_Settlement] -> 1901 <= year d <= 2199 ->
  (closed (shipped_calendar (Russia m)) d <-> weekend d \/ Exists (fun r => falls r d) russia_rules).
Proof.
  intros m d M D.
  assert (S : closed (shipped_calendar (Russia (Some russia_Settlement))) d <->
              (weekday_of d = Sat \/ weekday_of d = Sun) \/ Exists (fun r => falls r d) russia_rules).
  { revert d D. apply (rules_sound view_russia_Settlement); [reflexivity | vm_compute; reflexivity | vm_compute; reflexivity]. }
  destruct M as [<-|[<-|[]]]; exact S.
Qed.
Print Assumptions C94_russia.

(** Since 2013 the labour code makes all of 1 to 8 January holidays; the
    calendar opens on the 6th, and on the 8th unless it is a Monday.  Unity Day
    replaced 7 November and 12 December in 2005; the calendar has it, and does
    not have them, in every year before. *)
Definition january_open (k y : Z) : bool :=
  Bool.eqb (open_on (Russia None) (of_ymd y 1 k))
    (match weekday_of (of_ymd y 1 k) with Sat | Sun => false | Mon => k =? 6 | _ => (k =? 6) || (k =? 8) end).
Theorem C94_russia_refuted :
  ~ (forall y k, 2013 <= y <= 2199 -> 1 <= k <= 8 -> closed (shipped_calendar (Russia None)) (of_ymd y 1 k)) /\
  (forall y k, 2013 <= y <= 2199 -> 1 <= k <= 8 ->
    (opened (shipped_calendar (Russia None)) (of_ymd y 1 k) <->
     ~ weekend (of_ymd y 1 k) /\ (k = 6 \/ k = 8 /\ weekday_of (of_ymd y 1 k) <> Mon))) /\
  (forall y, 1992 <= y <= 2004 -> closed (shipped_calendar (Russia None)) (of_ymd y 11 4)) /\
  (forall y m k, 1992 <= y <= 2004 -> In (m, k) [(11, 7); (12, 12)] -> ~ weekend (of_ymd y m k) ->
    opened (shipped_calendar (Russia None)) (of_ymd y m k)).
Proof.
  assert (J : forall y k, 2013 <= y <= 2199 -> 1 <= k <= 8 ->
    (opened (shipped_calendar (Russia None)) (of_ymd y 1 k) <->
     ~ weekend (of_ymd y 1 k) /\ (k = 6 \/ k = 8 /\ weekday_of (of_ymd y 1 k) <> Mon))).
  { intros y k Y K. rewrite <- open_on_spec.
    assert (C : k = 1 \/ k = 2 \/ k = 3 \/ k = 4 \/ k = 5 \/ k = 6 \/ k = 7 \/ k = 8) by lia.
    assert (E : january_open k y = true)
      by (repeat (destruct C as [->|C]; [apply (years (january_open _) 2013 187); [vm_compute; reflexivity|lia]|]);
          subst k; apply (years (january_open 8) 2013 187); [vm_compute; reflexivity|lia]).
    unfold january_open in E. apply eqb_prop in E. rewrite E. unfold weekend. clear E C.
    destruct (weekday_of (of_ymd y 1 k)); rewrite ?orb_true_iff, ?Z.eqb_eq; split; intros H;
      repeat match goal with
      | H : _ /\ _ |- _ => destruct H
      | H : _ \/ _ |- _ => destruct H
      | |- _ /\ _ => split
      end; try discriminate; try congruence; try tauto; try (intros [Q|Q]; discriminate); try (right; split; [assumption|discriminate]). }
  repeat match goal with |- _ /\ _ => split end.
  - intros H. specialize (H 2025 6 ltac:(lia) ltac:(lia)). refine (not_both _ _ _ H). apply open_on_spec. vm_compute. reflexivity.
  - exact J.
  - intros y Y. assert (E : closed_on (Russia None) (of_ymd y 11 4) = true)
      by (apply (years (fun y => closed_on (Russia None) (of_ymd y 11 4)) 1992 13); [vm_compute; reflexivity|lia]).
    apply closed_on_spec. exact E.
  - intros y m k Y I W. apply open_on_spec.
    assert (E : (weekend_day (of_ymd y m k) || open_on (Russia None) (of_ymd y m k)) = true).
    { destruct I as [Q|[Q|[]]]; injection Q as <- <-.
      - apply (years (fun y => weekend_day (of_ymd y 11 7) || open_on (Russia None) (of_ymd y 11 7)) 1992 13); [vm_compute; reflexivity|lia].
      - apply (years (fun y => weekend_day (of_ymd y 12 12) || open_on (Russia None) (of_ymd y 12 12)) 1992 13); [vm_compute; reflexivity|lia]. }
    apply orb_true_iff in E. destruct E as [E|E]; [|exact E]. exfalso. apply W. apply weekend_day_spec. exact E.
Qed.
Print Assumptions C94_russia_refuted.

(** ** The Moscow exchange *)

Definition worked (y m k : Z) : bool := existsb (fun t => match t with (a, b, c) => (y =? a) && (m =? b) && (k =? c) end) moscow_working_weekends.
(** The calendar, closed on its working weekends. *)
Definition moscow_resting (d : date) : outcome bool :=
  if worked (year d) (month d) (day d) then Ok false else shipped_calendar (Russia (Some russia_Exchange)) d.
Definition view_moscow : view_t := fun e k w m o =>
  if (match e with (y, _, _) => worked y m k end) then Ok false else view_russia_Exchange e k w m o.

Lemma moscow_days : forall d, 1901 <= year d <= 2199 ->
  (closed moscow_resting d <-> (weekday_of d = Sat \/ weekday_of d = Sun) \/ Exists (fun r => falls r d) moscow_exchange_rules).
Proof. apply (rules_sound view_moscow); [reflexivity | vm_compute; reflexivity | vm_compute; reflexivity]. Qed.

Lemma worked_spec d : worked (year d) (month d) (day d) = true <-> In d (ymds moscow_working_weekends).
Proof.
  unfold worked. rewrite existsb_exists. split.
  - intros (((a, b), c) & I & E). rewrite !andb_true_iff, !Z.eqb_eq in E. destruct E as [[A B] C].
    unfold ymds. apply in_map_iff. exists (a, b, c). split; [|exact I]. rewrite <- A, <- B, <- C. apply of_ymd_ymd.
  - intros I. unfold ymds in I. apply in_map_iff in I. destruct I as (((a, b), c) & <- & I). exists (a, b, c). split; [exact I|].
    assert (V : valid_ymd a b c).
    { assert (F : forallb (fun t => match t with (a, b, c) => (1 <=? b) && (b <=? 12) && (1 <=? c) && (c <=? mlen a b) end) moscow_working_weekends = true)
        by (vm_compute; reflexivity).
      rewrite forallb_forall in F. specialize (F _ I). cbv beta iota in F. split; lia. }
    rewrite year_of_ymd, month_of_ymd, day_of_ymd by exact V. rewrite !Z.eqb_refl. reflexivity.
Qed.

Theorem C94_moscow : forall d, 1901 <= year d <= 2199 ->
  (closed (shipped_calendar (Russia (Some russia_Exchange))) d <->
   (weekend d \/ Exists (fun r => falls r d) moscow_exchange_rules) /\ ~ In d (ymds moscow_working_weekends)).
Proof.
  intros d D. pose proof (moscow_days d D) as M. rewrite <- worked_spec. unfold weekend. rewrite <- M. unfold closed, moscow_resting.
  destruct (worked (year d) (month d) (day d)) eqn:W; [|intuition congruence].
  assert (O : open_on (Russia (Some russia_Exchange)) d = true).
  { apply worked_spec in W.
    assert (F : forallb (open_on (Russia (Some russia_Exchange))) (ymds moscow_working_weekends) = true) by (vm_compute; reflexivity).
    rewrite forallb_forall in F. exact (F d W). }
  apply open_on_spec in O. split; intros H; [exfalso; exact (not_both _ _ O H)|destruct H as [_ H]; exfalso; apply H; reflexivity].
Qed.
Print Assumptions C94_moscow.

(** From 2021 on the Moscow exchange is open on New Year's Day, the day before
    it being closed. *)
Theorem C94_moscow_refuted :
  ~ (forall y, 2012 <= y <= 2199 -> closed (shipped_calendar (Russia (Some russia_Exchange))) (of_ymd y 1 1)) /\
  (forall y, 2012 <= y <= 2199 ->
    (closed (shipped_calendar (Russia (Some russia_Exchange))) (of_ymd y 1 1) <-> y <= 2020 \/ weekend (of_ymd y 1 1))) /\
  (forall y, 1901 <= y <= 2199 -> closed (shipped_calendar (Russia (Some russia_Exchange))) (of_ymd y 12 31)).
Proof.
  repeat match goal with |- _ /\ _ => split end.
  - intros H. specialize (H 2021 ltac:(lia)). refine (not_both _ _ _ H). apply open_on_spec. vm_compute. reflexivity.
  - intros y Y. rewrite <- closed_on_spec, <- weekend_day_spec.
    assert (E : Bool.eqb (closed_on (Russia (Some russia_Exchange)) (of_ymd y 1 1)) ((y <=? 2020) || weekend_day (of_ymd y 1 1)) = true)
      by (apply (years (fun y => Bool.eqb (closed_on (Russia (Some russia_Exchange)) (of_ymd y 1 1)) ((y <=? 2020) || weekend_day (of_ymd y 1 1))) 2012 188);
          [vm_compute; reflexivity|lia]).
    apply eqb_prop in E. rewrite E, orb_true_iff, Z.leb_le. reflexivity.
  - intros y Y. apply closed_on_spec.
    apply (years (fun y => closed_on (Russia (Some russia_Exchange)) (of_ymd y 12 31)) 1901 299); [vm_compute; reflexivity|lia].
Qed.
Print Assumptions C94_moscow_refuted.

(** Full moons, substitutes, a moved Chulalongkorn day, a working Saturday. *)
Example C94_witness :
  makha 2024 = of_ymd 2024 2 24 /\ weekday_of (makha 2024) = Sat /\ In (of_ymd 2024 2 26) (buddhist_days 2024) /\
  closed (shipped_calendar Thailand) (of_ymd 2024 2 26) /\ opened (shipped_calendar Thailand) (of_ymd 2024 2 27) /\
  closed (shipped_calendar Thailand) (of_ymd 2021 10 22) /\ opened (shipped_calendar Thailand) (of_ymd 2020 4 14) /\
  closed (shipped_calendar (Russia None)) (of_ymd 2022 3 8) /\ opened (shipped_calendar (Russia None)) (of_ymd 2025 1 6) /\
  weekday_of (of_ymd 2012 4 28) = Sat /\ opened (shipped_calendar (Russia (Some russia_Exchange))) (of_ymd 2012 4 28) /\
  weekday_of (of_ymd 2024 1 1) = Mon /\ opened (shipped_calendar (Russia (Some russia_Exchange))) (of_ymd 2024 1 1).
Proof.
  repeat match goal with |- _ /\ _ => split end;
    lazymatch goal with
    | |- opened _ _ => apply open_on_spec; vm_compute; reflexivity
    | |- closed _ _ => apply closed_on_spec; vm_compute; reflexivity
    | |- In _ _ => vm_compute; tauto
    | |- _ => vm_compute; reflexivity
    end.
Qed.
Print Assumptions C94_witness.
