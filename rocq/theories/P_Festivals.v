(** Property C92: the lunar festivals of the calendars of East Asia
    (FestivalSpec.v, FestivalLaws.v). *)
From Coq Require Import ZArith Bool List Lia.
From Coq Require Import ZifyBool.
Import ListNotations.
From Verif Require Import Outcome Date DateFacts Calendar CalendarSpec CalendarFacts Cal_base EasterSpec EasterFacts ShippedFacts Shipped
  Closure ClosureView ClosureIsrael FestivalSpec FestivalLaws.
Open Scope Z_scope.

Definition weekend (d : date) : Prop := weekday_of d = Sat \/ weekday_of d = Sun.
Definition ymds (l : list (Z * Z * Z)) : list date := map (fun t => match t with (y, m, k) => of_ymd y m k end) l.

(** ** The tables are festivals: day [k] of a lunar month that starts at a new
    moon, in the right season. *)

Definition conjunction_before (d : date) : Z := (1000000000 * d + 1625000000 - mean_conjunction 0) / 29530588861.
Definition at_new_moonb (d : date) : bool := 1000000000 * d - 625000000 <=? mean_conjunction (conjunction_before d).

Lemma at_new_moonb_sound d : at_new_moonb d = true -> at_new_moon d.
Proof.
  unfold at_new_moonb. intros H. exists (conjunction_before d). split; [lia|].
  unfold conjunction_before, mean_conjunction. pose proof (Z.mul_div_le (1000000000 * d + 1625000000 - mean_conjunction 0) 29530588861 ltac:(lia)) as M.
  unfold mean_conjunction in M. change date with Z in *. lia.
Qed.

(** Festival [f] is day [k] of its month, between the dates [a] and [b] of the
    year. *)
Definition lunar (f : Z -> date) (k : Z) (a b : Z * Z) : Prop :=
  forall y, 2004 <= y <= 2050 ->
    year (f y) = y /\ at_new_moon (f y - (k - 1)) /\ of_ymd y (fst a) (snd a) <= f y <= of_ymd y (fst b) (snd b).

Lemma years (P : Z -> bool) a n : forallb (fun i => P (a + Z.of_nat i)) (seq 0 n) = true -> forall y, a <= y < a + Z.of_nat n -> P y = true.
Proof.
  rewrite forallb_forall. intros H y Y. specialize (H (Z.to_nat (y - a)) ltac:(apply in_seq; lia)).
  replace (a + Z.of_nat (Z.to_nat (y - a))) with y in H by lia. exact H.
Qed.

Definition lunarb f k (a b : Z * Z) y : bool :=
  (year (f y) =? y) && at_new_moonb (f y - (k - 1)) && (of_ymd y (fst a) (snd a) <=? f y) && (f y <=? of_ymd y (fst b) (snd b)).

Lemma lunarb_sound f k a b : forallb (fun i => lunarb f k a b (2004 + Z.of_nat i)) (seq 0 47) = true -> lunar f k a b.
Proof.
  intros H y Y. pose proof (years (lunarb f k a b) 2004 47 H y ltac:(lia)) as L.
  unfold lunarb in L. rewrite !andb_true_iff, Z.eqb_eq, !Z.leb_le in L. destruct L as [[[A B] C] D].
  split; [exact A|]. split; [apply at_new_moonb_sound; exact B|]. exact (conj C D).
Qed.

Lemma sunday_mod d : weekday_of d = Sun <-> d mod 7 = 0.
Proof.
  assert (W : weekday_of d = Sun <-> (d - 1) mod 7 = 6).
  { pose proof (weekday_num_of d) as N. rewrite <- N. destruct (weekday_of d); cbn [weekday_num]; split; intros E; congruence. }
  rewrite W. change date with Z in *. clear W.
  pose proof (Z.mod_pos_bound (d - 1) 7 ltac:(lia)). pose proof (Z.mod_pos_bound d 7 ltac:(lia)).
  pose proof (Z.div_mod (d - 1) 7 ltac:(lia)). pose proof (Z.div_mod d 7 ltac:(lia)). lia.
Qed.

Theorem C92_tables :
  lunar chinese_new_year 1 (1, 21) (2, 20) /\ lunar seollal 1 (1, 21) (2, 20) /\
  lunar buddhas_birthday 8 (4, 27) (5, 29) /\ lunar korean_buddhas_birthday 8 (4, 27) (5, 29) /\
  lunar dragon_boat 5 (5, 26) (6, 25) /\
  lunar mid_autumn 15 (9, 6) (10, 8) /\ lunar chuseok 15 (9, 6) (10, 8) /\
  lunar chung_yeung 9 (10, 1) (11, 1) /\
  (forall y, western_easter y (easter_sunday y)).
Proof.
  repeat (split; [apply lunarb_sound; vm_compute; reflexivity|]).
  intros y. unfold western_easter, easter_sunday, first_sunday_after. cbv zeta. change date with Z in *.
  generalize (western_full_moon y). intros f. pose proof (Z.mod_pos_bound f 7 ltac:(lia)) as B. pose proof (Z.div_mod f 7 ltac:(lia)) as D.
  split; [|split; [lia|]].
  - apply sunday_mod. replace (f + (7 - f mod 7)) with ((f / 7 + 1) * 7) by lia. apply Z_mod_mult.
  - intros x X W. apply sunday_mod in W. pose proof (Z.div_mod x 7 ltac:(lia)). lia.
Qed.
Print Assumptions C92_tables.

(** ** Days of a year against a list *)

Definition open_on (s : shipped) (d : date) : bool := match shipped_calendar s d with Ok true => true | _ => false end.
Definition closed_on (s : shipped) (d : date) : bool := match shipped_calendar s d with Ok false => true | _ => false end.

Lemma closed_on_spec s d : closed_on s d = true <-> closed (shipped_calendar s) d.
Proof. unfold closed_on, closed. destruct (shipped_calendar s d) as [[]| |]; split; congruence. Qed.
Lemma open_on_spec s d : open_on s d = true <-> opened (shipped_calendar s) d.
Proof. unfold open_on, opened. destruct (shipped_calendar s d) as [[]| |]; split; congruence. Qed.

Lemma not_both s d : opened (shipped_calendar s) d -> closed (shipped_calendar s) d -> False.
Proof. unfold opened, closed. intros -> E. discriminate E. Qed.

Definition year_agrees (s : shipped) (days : Z -> list date) (y : Z) : bool :=
  let l := days y in let j := of_ymd y 1 1 in
  forallb (fun i => let d := j + Z.of_nat i in
    match shipped_calendar s d with Ok b => Bool.eqb b (negb (weekend_day d || among l d)) | _ => false end)
    (seq 0 (if leap y then 366 else 365)).

Lemma among_spec l d : among l d = true <-> In d l.
Proof.
  unfold among. rewrite existsb_exists. split.
  - intros (x & I & E). apply Z.eqb_eq in E. subst x. exact I.
  - intros I. exists d. split; [exact I|apply Z.eqb_refl].
Qed.
Lemma weekend_day_spec d : weekend_day d = true <-> weekend d.
Proof. unfold weekend_day, weekend. destruct (weekday_of d); intuition congruence. Qed.

Lemma by_days s days a n : forallb (fun i => year_agrees s days (a + Z.of_nat i)) (seq 0 n) = true ->
  forall d, a <= year d < a + Z.of_nat n ->
  (closed (shipped_calendar s) d <-> weekend d \/ In d (days (year d))) /\
  (opened (shipped_calendar s) d <-> ~ (weekend d \/ In d (days (year d)))).
Proof.
  intros H d Y. pose proof (years (year_agrees s days) a n H (year d) Y) as G. clear H.
  unfold year_agrees in G. cbv zeta in G. rewrite forallb_forall in G.
  specialize (G (Z.to_nat (ordinal d - 1))). pose proof (ordinal_lo d) as L. pose proof (ordinal_hi d) as U.
  assert (I : In (Z.to_nat (ordinal d - 1)) (seq 0 (if leap (year d) then 366 else 365))).
  { apply in_seq. unfold year_len in U. destruct (leap (year d)); lia. }
  specialize (G I). replace (of_ymd (year d) 1 1 + Z.of_nat (Z.to_nat (ordinal d - 1))) with d in G
    by (unfold ordinal in *; change date with Z in *; lia).
  rewrite <- weekend_day_spec, <- among_spec, <- orb_true_iff. unfold closed, opened.
  destruct (shipped_calendar s d) as [b| |]; try discriminate G. apply eqb_prop in G. subst b.
  destruct (weekend_day d || among (days (year d)) d); cbn; intuition congruence.
Qed.

(** ** South Korea: the law, to 2050 *)

Theorem C92_korea : forall d, 2004 <= year d <= 2050 ->
  (closed (shipped_calendar SouthKorea) d <-> weekend d \/ In d (korea_days (year d))).
Proof.
  intros d Y. apply (by_days SouthKorea korea_days 2004 47); [vm_compute; reflexivity|lia].
Qed.
Print Assumptions C92_korea.

(** Four closings announced for single days are missing: 6 May 2016, 2 October
    2017, 27 January 2025 and the presidential election of 3 June 2025. *)
Definition korea_announced : list date := ymds [(2016, 5, 6); (2017, 10, 2); (2025, 1, 27); (2025, 6, 3)].
Theorem C92_korea_refuted :
  ~ (forall d, 2004 <= year d <= 2050 -> (closed (shipped_calendar SouthKorea) d <-> weekend d \/ In d (korea_days (year d) ++ korea_announced))) /\
  (forall d, In d korea_announced -> opened (shipped_calendar SouthKorea) d).
Proof.
  assert (O : forall d, In d korea_announced -> opened (shipped_calendar SouthKorea) d).
  { apply Forall_forall. repeat (apply Forall_cons; [vm_compute; reflexivity|]). apply Forall_nil. }
  split; [|exact O]. intros H.
  assert (I : In (of_ymd 2016 5 6) korea_announced) by (left; reflexivity).
  pose proof (O _ I) as Op. pose proof (proj2 (H (of_ymd 2016 5 6) ltac:(vm_compute; split; discriminate))) as Cl.
  exact (not_both _ _ Op (Cl (or_intror (in_or_app _ _ _ (or_intror I))))).
Qed.
Print Assumptions C92_korea_refuted.

(** ** Hong Kong: the law to 2025, with eleven exceptions *)

Definition hong_kong_missed : list date := ymds
  [(2004, 12, 27); (2005, 12, 27); (2010, 12, 27); (2021, 12, 27); (2022, 12, 27);
   (2012, 10, 2); (2014, 2, 3); (2019, 5, 13); (2021, 4, 6)].
(** 3 September 2015 was a single holiday; 10 May 2012 was not one. *)
Definition hong_kong_added : list date := ymds [(2012, 5, 10); (2015, 9, 3)].

Definition hong_kong_coded (y : Z) : list date :=
  filter (fun d => negb (among hong_kong_missed d)) (hong_kong_days y) ++ hong_kong_added.

Theorem C92_hong_kong : forall d, 2004 <= year d <= 2025 ->
  (closed (shipped_calendar HongKong) d <->
   weekend d \/ In d (hong_kong_days (year d)) /\ ~ In d hong_kong_missed \/ In d hong_kong_added).
Proof.
  intros d Y. pose proof (proj1 (by_days HongKong hong_kong_coded 2004 22 ltac:(vm_compute; reflexivity) d ltac:(lia))) as E.
  rewrite E. unfold hong_kong_coded. rewrite in_app_iff, filter_In, negb_true_iff.
  rewrite <- not_true_iff_false, among_spec. tauto.
Qed.
Print Assumptions C92_hong_kong.

(** Each of the nine is a holiday the calendar is open on, and the lunar new
    year of 2026 is a business day. *)
Theorem C92_hong_kong_refuted :
  ~ (forall d, 2004 <= year d <= 2025 -> In d (hong_kong_days (year d)) -> closed (shipped_calendar HongKong) d) /\
  (forall d, In d hong_kong_missed -> In d (hong_kong_days (year d)) /\ ~ weekend d /\ opened (shipped_calendar HongKong) d) /\
  ~ weekend (chinese_new_year 2026) /\ opened (shipped_calendar HongKong) (chinese_new_year 2026).
Proof.
  assert (M : forall d, In d hong_kong_missed -> In d (hong_kong_days (year d)) /\ ~ weekend d /\ opened (shipped_calendar HongKong) d).
  { assert (B : forallb (fun d => among (hong_kong_days (year d)) d && negb (weekend_day d) && open_on HongKong d) hong_kong_missed = true)
      by (vm_compute; reflexivity).
    rewrite forallb_forall in B. intros d I. specialize (B d I). rewrite !andb_true_iff, among_spec, negb_true_iff, open_on_spec in B.
    destruct B as [[B1 B2] B3]. rewrite <- not_true_iff_false, weekend_day_spec in B2. auto. }
  split; [|split; [exact M|split; [intros [W|W]; vm_compute in W; discriminate W|vm_compute; reflexivity]]].
  intros H. assert (I : In (of_ymd 2019 5 13) hong_kong_missed) by (vm_compute; tauto).
  assert (Y : 2004 <= year (of_ymd 2019 5 13) <= 2025) by (vm_compute; split; discriminate).
  destruct (M _ I) as (A & _ & O). exact (not_both _ _ O (H _ Y A)).
Qed.
Print Assumptions C92_hong_kong_refuted.

(** ** China *)

(** Three days of the lunar new year, 2004-2026; tomb sweeping, the dragon boat
    festival and mid-autumn since they became holidays in 2008. *)
Definition closed_years (s : shipped) (f : Z -> date) (a n : Z) : bool :=
  forallb (fun i => weekend_day (f (a + Z.of_nat i)) || closed_on s (f (a + Z.of_nat i))) (seq 0 (Z.to_nat n)).

Lemma closed_years_sound s f a n : closed_years s f a n = true -> forall y, a <= y < a + n ->
  weekend (f y) \/ closed (shipped_calendar s) (f y).
Proof.
  intros H y Y. pose proof (years (fun y => weekend_day (f y) || closed_on s (f y)) a (Z.to_nat n) H y ltac:(lia)) as E.
  cbv beta in E. rewrite orb_true_iff, weekend_day_spec, closed_on_spec in E. exact E.
Qed.



Theorem C92_china : forall y, y <= 2026 ->
  (2004 <= y -> forall k, 0 <= k <= 2 -> let d := chinese_new_year y + k in weekend d \/ closed (shipped_calendar China) d) /\
  (2008 <= y ->
    (weekend (qingming y) \/ closed (shipped_calendar China) (qingming y)) /\
    (weekend (dragon_boat y) \/ closed (shipped_calendar China) (dragon_boat y)) /\
    (weekend (mid_autumn y) \/ closed (shipped_calendar China) (mid_autumn y))).
Proof.
  intros y Y. split.
  - intros Y1 k K. cbv zeta.
    assert (Z0 : k = 0 \/ k = 1 \/ k = 2) by lia. destruct Z0 as [->|[->| ->]].
    + apply (closed_years_sound China (fun y => chinese_new_year y + 0) 2004 23); [vm_compute; reflexivity|lia].
    + apply (closed_years_sound China (fun y => chinese_new_year y + 1) 2004 23); [vm_compute; reflexivity|lia].
    + apply (closed_years_sound China (fun y => chinese_new_year y + 2) 2004 23); [vm_compute; reflexivity|lia].
  - intros Y1. split; [|split].
    + apply (closed_years_sound China qingming 2008 19); [vm_compute; reflexivity|lia].
    + apply (closed_years_sound China dragon_boat 2008 19); [vm_compute; reflexivity|lia].
    + apply (closed_years_sound China mid_autumn 2008 19); [vm_compute; reflexivity|lia].
Qed.
Print Assumptions C92_china.

(** Before 2008 neither tomb sweeping nor the dragon boat festival nor
    mid-autumn closed the exchange; the calendar closes 9 June of every earlier
    year as well, the date the festival had in 2008 only. *)
Theorem C92_china_refuted :
  ~ (forall y d, 2004 <= y <= 2007 -> closed (shipped_calendar China) d -> year d = y -> month d = 6 -> weekend d) /\
  (forall y, 2004 <= y <= 2007 -> closed (shipped_calendar China) (of_ymd y 6 9) /\ dragon_boat y <> of_ymd y 6 9) /\
  dragon_boat 2008 + 1 = of_ymd 2008 6 9 /\ ~ weekend (of_ymd 2004 6 9).
Proof.
  assert (K : forall y, 2004 <= y <= 2007 -> closed (shipped_calendar China) (of_ymd y 6 9) /\ dragon_boat y <> of_ymd y 6 9).
  { intros y Y. assert (E : y = 2004 \/ y = 2005 \/ y = 2006 \/ y = 2007) by lia.
    destruct E as [->|[->|[->| ->]]]; (split; [vm_compute; reflexivity|vm_compute; discriminate]). }
  assert (W : ~ weekend (of_ymd 2004 6 9)) by (intros [W|W]; vm_compute in W; discriminate W).
  split; [|split; [exact K|split; [vm_compute; reflexivity|exact W]]].
  intros H. apply W. apply (H 2004); [lia|exact (proj1 (K 2004 ltac:(lia)))|vm_compute; reflexivity|vm_compute; reflexivity].
Qed.
Print Assumptions C92_china_refuted.

(** ** The lists of the other calendars end, and have holes *)

(** On the years 2004-2050 a festival on a weekday is a business day exactly in
    the years of [holes] and after [last]. *)
Definition listed (s : shipped) (f : Z -> date) (holes : list Z) (last : Z) : Prop :=
  forall y, 2004 <= y <= 2050 -> ~ weekend (f y) ->
    (opened (shipped_calendar s) (f y) <-> In y holes \/ last < y) /\
    (closed (shipped_calendar s) (f y) <-> ~ In y holes /\ y <= last).

Definition listedb s f holes last y : bool :=
  weekend_day (f y) ||
  match shipped_calendar s (f y) with Ok b => Bool.eqb b (among holes y || (last <? y)) | _ => false end.

Lemma listed_sound s f holes last : forallb (fun i => listedb s f holes last (2004 + Z.of_nat i)) (seq 0 47) = true -> listed s f holes last.
Proof.
  intros H y Y W. pose proof (years (listedb s f holes last) 2004 47 H y ltac:(lia)) as E. clear H.
  unfold listedb in E. rewrite <- weekend_day_spec in W. apply not_true_is_false in W. rewrite W in E. cbn [orb] in E.
  unfold opened, closed. generalize dependent (shipped_calendar s (f y)). intros o E. destruct o as [b| |]; try discriminate E.
  apply eqb_prop in E. subst b. rewrite <- among_spec, <- Z.ltb_lt. clear W. split.
  - rewrite <- orb_true_iff. destruct (among holes y || (last <? y)); split; congruence.
  - assert (L : y <= last <-> (last <? y) = false) by (rewrite Z.ltb_ge; reflexivity). rewrite L. rewrite not_true_iff_false, <- orb_false_iff.
    destruct (among holes y || (last <? y)); split; congruence.
Qed.

Theorem C92_new_year :
  listed China chinese_new_year [] 2026 /\
  listed HongKong chinese_new_year [] 2025 /\
  (listed Taiwan (fun y => chinese_new_year y - 1) [] 2026 /\ listed Taiwan chinese_new_year [] 2026 /\
   listed Taiwan (fun y => chinese_new_year y + 1) [2010] 2026 /\ listed Taiwan (fun y => chinese_new_year y + 2) [2010] 2026) /\
  (listed Singapore chinese_new_year [2011; 2015; 2016; 2018] 2026 /\ listed Singapore (fun y => chinese_new_year y + 1) [2010; 2011; 2015; 2016] 2026) /\
  listed Indonesia chinese_new_year [2004] 2014.
Proof. repeat match goal with |- _ /\ _ => split end; apply listed_sound; vm_compute; reflexivity. Qed.
Print Assumptions C92_new_year.

Theorem C92_festivals :
  (listed China qingming [2005; 2006; 2007] 2026 /\ listed China dragon_boat [2004; 2006; 2007] 2026 /\ listed China mid_autumn [2004; 2007] 2026) /\
  (listed Taiwan dragon_boat [2010] 2026 /\ listed Taiwan mid_autumn [] 2026).
Proof. repeat match goal with |- _ /\ _ => split end; apply listed_sound; vm_compute; reflexivity. Qed.
Print Assumptions C92_festivals.

(** The lunar new year and the day after it are holidays in Singapore and
    Taiwan every year. *)
Theorem C92_new_year_refuted :
  ~ (forall y k, 2004 <= y <= 2026 -> 0 <= k <= 1 -> weekend (chinese_new_year y + k) \/ closed (shipped_calendar Singapore) (chinese_new_year y + k)) /\
  ~ (forall y k, 2004 <= y <= 2026 -> 0 <= k <= 1 -> weekend (chinese_new_year y + k) \/ closed (shipped_calendar Taiwan) (chinese_new_year y + k)) /\
  (* the entry of 2010 is dated a month early: 15 January for 15 February *)
  (chinese_new_year 2010 + 1 = of_ymd 2010 2 15 /\ opened (shipped_calendar Singapore) (of_ymd 2010 2 15) /\
   closed (shipped_calendar Singapore) (of_ymd 2010 1 15) /\ ~ weekend (of_ymd 2010 1 15)).
Proof.
  assert (A : forall s, opened (shipped_calendar s) (of_ymd 2010 2 15) ->
    ~ (forall y k, 2004 <= y <= 2026 -> 0 <= k <= 1 -> weekend (chinese_new_year y + k) \/ closed (shipped_calendar s) (chinese_new_year y + k))).
  { intros s O H. specialize (H 2010 1 ltac:(lia) ltac:(lia)).
    assert (E : chinese_new_year 2010 + 1 = of_ymd 2010 2 15) by (vm_compute; reflexivity). rewrite E in H.
    destruct H as [[W|W]|Cl]; [vm_compute in W; discriminate W|vm_compute in W; discriminate W|exact (not_both _ _ O Cl)]. }
  split; [apply A; vm_compute; reflexivity|]. split; [apply A; vm_compute; reflexivity|].
  split; [vm_compute; reflexivity|]. split; [vm_compute; reflexivity|]. split; [vm_compute; reflexivity|].
  intros [W|W]; vm_compute in W; discriminate W.
Qed.
Print Assumptions C92_new_year_refuted.

(** A Sunday holiday of Singapore is followed by a holiday on the Monday; the
    calendar applies this to the new year and the national day only. *)
Theorem C92_singapore_monday_refuted :
  ~ (forall y m k, In (m, k) [(1, 1); (5, 1); (8, 9); (12, 25)] -> 2004 <= y <= 2026 -> weekday_of (of_ymd y m k) = Sun ->
       closed (shipped_calendar Singapore) (of_ymd y m k + 1)) /\
  (forall y m k, In (m, k) [(1, 1); (8, 9)] -> 2004 <= y <= 2050 -> weekday_of (of_ymd y m k) = Sun ->
     closed (shipped_calendar Singapore) (of_ymd y m k + 1)) /\
  (forall d, In d (ymds [(2005, 12, 26); (2011, 5, 2); (2011, 12, 26); (2016, 5, 2); (2016, 12, 26)]) ->
     weekday_of (d - 1) = Sun /\ opened (shipped_calendar Singapore) d).
Proof.
  split; [|split].
  - intros H. specialize (H 2005 12 25 ltac:(cbn; tauto) ltac:(lia) ltac:(vm_compute; reflexivity)).
    vm_compute in H. discriminate H.
  - intros y m k I Y W.
    assert (B : forallb (fun i => let y := 2004 + Z.of_nat i in
      forallb (fun t => negb (sunday (of_ymd y (fst t) (snd t))) || closed_on Singapore (of_ymd y (fst t) (snd t) + 1)) [(1, 1); (8, 9)]) (seq 0 47) = true)
      by (vm_compute; reflexivity).
    pose proof (years (fun y => forallb (fun t => negb (sunday (of_ymd y (fst t) (snd t))) || closed_on Singapore (of_ymd y (fst t) (snd t) + 1)) [(1, 1); (8, 9)]) 2004 47 B y ltac:(lia)) as E.
    rewrite forallb_forall in E. specialize (E (m, k) I). cbn [fst snd] in E. unfold sunday in E. rewrite W in E. cbn [negb orb] in E.
    apply closed_on_spec. exact E.
  - apply Forall_forall. repeat (apply Forall_cons; [split; vm_compute; reflexivity|]). apply Forall_nil.
Qed.
Print Assumptions C92_singapore_monday_refuted.

Example C92_witness :
  closed (shipped_calendar SouthKorea) (of_ymd 2023 10 9) /\ closed (shipped_calendar SouthKorea) (chuseok 2024) /\
  closed (shipped_calendar HongKong) (of_ymd 2022 9 12) /\ closed (shipped_calendar China) (chinese_new_year 2024 + 2) /\
  In (of_ymd 2022 9 12) (hong_kong_days 2022) /\ ~ weekend (chinese_new_year 2025) /\
  chinese_new_year 2025 = of_ymd 2025 1 29 /\ western_easter 2025 (of_ymd 2025 4 20).
Proof.
  repeat (split; [vm_compute; try reflexivity; tauto|]).
  split; [intros [W|W]; vm_compute in W; discriminate W|]. split; [vm_compute; reflexivity|].
  replace (of_ymd 2025 4 20) with (easter_sunday 2025) by (vm_compute; reflexivity). apply C92_tables.
Qed.
Print Assumptions C92_witness.
