(** Property C95: the five calendars kept as yearly lists (China, Taiwan,
    Singapore, Indonesia, India) close on nothing but their fixed days, the
    festivals of their countries and a few announced days; outside the listed
    years only the fixed days are left. *)
From Coq Require Import ZArith Bool List Lia.
From Coq Require Import ZifyBool.
Import ListNotations.
From Verif Require Import Outcome Date DateFacts Calendar CalendarSpec CalendarFacts Cal_base EasterSpec EasterFacts ShippedFacts Shipped Closure
  Cal_china Cal_taiwan Cal_singapore Cal_indonesia Cal_india ClosureView ClosureIsrael FestivalSpec FestivalLaws HijriSpec P_Festivals.
Open Scope Z_scope.

(** ** Reasons for a holiday; nothing here models code. *)

(** Lunar day [i] of 1..30 (a thirtieth of the month that starts at the mean
    conjunction [k]), and the civil day [d] of a country [east] billionths of a
    day ahead of Greenwich: they overlap, up to the 15 hours between the true
    and the mean moon. *)
Definition lunar_day (east i : Z) (d : date) : Prop :=
  exists k, mean_conjunction k + (i - 1) * 29530588861 / 30 - 625000000 <= 1000000000 * (d + 1) - east /\
    1000000000 * d - east <= mean_conjunction k + i * 29530588861 / 30 + 625000000.
(** India is 5 hours and a half ahead, Jakarta 7 and Singapore 8. *)
Definition india_east : Z := 229166667.
Definition jakarta_east : Z := 291666667.
Definition singapore_east : Z := 333333333.

Inductive reason :=
| On (m k : Z)                               (* a fixed day *)
| OnMonday (m k : Z)                         (* the same, if it is a Monday *)
| FromEaster (n : Z)                         (* days after Easter Sunday *)
| Between (m k m' k' : Z)                    (* from one day of the year to another *)
| Around (f : Z -> date) (a b : Z)           (* from [a] to [b] days after a festival *)
| Islamic (m k a b : Z)                      (* the same around a day of the Islamic year *)
| Moon (east i m k m' k' : Z)                (* a lunar day in its season *)
| Announced (l : list (Z * Z * Z)).          (* days named one by one *)

Definition gives (r : reason) (d : date) : Prop :=
  match r with
  | On m k => month d = m /\ day d = k
  | OnMonday m k => month d = m /\ day d = k /\ weekday_of d = Mon
  | FromEaster n => d = easter_sunday (year d) + n
  | Between m k m' k' => of_ymd (year d) m k <= d <= of_ymd (year d) m' k'
  | Around f a b => f (year d) + a <= d <= f (year d) + b
  | Islamic m k a b => exists h, hijri h m k + a <= d <= hijri h m k + b
  | Moon east i m k m' k' => lunar_day east i d /\ of_ymd (year d) m k <= d <= of_ymd (year d) m' k'
  | Announced l => In d (ymds l)
  end.
Definition one_of (l : list reason) (d : date) : Prop := exists r, In r l /\ gives r d.

Definition lunar_dayb (east i : Z) (d : date) : bool :=
  let k := (1000000000 * (d + 1) - east - (i - 1) * 29530588861 / 30 + 625000000 - mean_conjunction 0) / 29530588861 in
  1000000000 * d - east <=? mean_conjunction k + i * 29530588861 / 30 + 625000000.

Definition hijri_near (d : date) : Z := (30 * (d - hijri_epoch)) / 10631 + 1.

Definition givesb (r : reason) (d : date) : bool :=
  match r with
  | On m k => (month d =? m) && (day d =? k)
  | OnMonday m k => (month d =? m) && (day d =? k) && weekday_eqb (weekday_of d) Mon
  | FromEaster n => d =? easter_sunday (year d) + n
  | Between m k m' k' => (of_ymd (year d) m k <=? d) && (d <=? of_ymd (year d) m' k')
  | Around f a b => (f (year d) + a <=? d) && (d <=? f (year d) + b)
  | Islamic m k a b => existsb (fun h => (hijri h m k + a <=? d) && (d <=? hijri h m k + b))
      [hijri_near d - 1; hijri_near d; hijri_near d + 1]
  | Moon east i m k m' k' => (of_ymd (year d) m k <=? d) && (d <=? of_ymd (year d) m' k') && lunar_dayb east i d
  | Announced l => existsb (fun t => match t with (y, m, k) => (year d =? y) && (month d =? m) && (day d =? k) end) l
  end.

Lemma lunar_dayb_sound east i d : lunar_dayb east i d = true -> lunar_day east i d.
Proof.
  unfold lunar_dayb, lunar_day. cbv zeta. intros H. apply Z.leb_le in H. eexists. split; [|exact H].
  unfold mean_conjunction in *. change date with Z in *.
  set (x := 1000000000 * (d + 1) - east - (i - 1) * 29530588861 / 30 + 625000000 - (1000000000 * of_ymd 2000 1 6 + 930190000 + 29530588861 * 0)).
  pose proof (Z.mul_div_le x 29530588861 ltac:(lia)). unfold x in *. clear H. lia.
Qed.

Lemma givesb_sound r d : givesb r d = true -> gives r d.
Proof.
  destruct r; cbn [gives givesb]; intros H.
  - apply andb_true_iff in H as [A B]. lia.
  - apply andb_true_iff in H as [A B]. apply andb_true_iff in A as [A C]. split; [lia|split; [lia|]].
    destruct (weekday_of d); try discriminate B; reflexivity.
  - apply Z.eqb_eq in H. exact H.
  - apply andb_true_iff in H as [A B]. apply Z.leb_le in A. apply Z.leb_le in B. split; assumption.
  - apply andb_true_iff in H as [A B]. apply Z.leb_le in A. apply Z.leb_le in B. split; assumption.
  - apply existsb_exists in H as (h & _ & H). exists h. apply andb_true_iff in H as [A B].
    apply Z.leb_le in A. apply Z.leb_le in B. split; assumption.
  - apply andb_true_iff in H as [H L]. apply andb_true_iff in H as [A B]. apply lunar_dayb_sound in L.
    apply Z.leb_le in A. apply Z.leb_le in B. split; [exact L|split; assumption].
  - apply existsb_exists in H as ([[y m] k] & I & E). unfold ymds. apply in_map_iff. exists (y, m, k). split; [|exact I].
    apply andb_true_iff in E as [E K]. apply andb_true_iff in E as [Y M]. apply Z.eqb_eq in Y, M, K. subst y m k. apply of_ymd_ymd.
Qed.

(** Every weekday closing of a year has one of the reasons. *)
Definition has_reason (s : shipped) (l : list reason) (y : Z) : bool :=
  let j := of_ymd y 1 1 in
  forallb (fun i => let d := j + Z.of_nat i in
    if weekend_day d then true else if open_on s d then true else existsb (fun r => givesb r d) l) (seq 0 (if leap y then 366 else 365)).

Lemma has_reason_sound s l a n : forallb (fun i => has_reason s l (a + Z.of_nat i)) (seq 0 n) = true ->
  forall d, a <= year d < a + Z.of_nat n -> closed (shipped_calendar s) d -> weekend d \/ one_of l d.
Proof.
  intros H d Y C. pose proof (years (has_reason s l) a n H (year d) Y) as G. clear H.
  unfold has_reason in G. cbv zeta in G. rewrite forallb_forall in G.
  specialize (G (Z.to_nat (ordinal d - 1))). pose proof (ordinal_lo d) as L. pose proof (ordinal_hi d) as U.
  assert (I : In (Z.to_nat (ordinal d - 1)) (seq 0 (if leap (year d) then 366 else 365))).
  { apply in_seq. unfold year_len in U. destruct (leap (year d)); lia. }
  specialize (G I). replace (of_ymd (year d) 1 1 + Z.of_nat (Z.to_nat (ordinal d - 1))) with d in G
    by (unfold ordinal in *; change date with Z in *; lia).
  destruct (weekend_day d) eqn:W; [left; apply weekend_day_spec; exact W|]. clear W.
  destruct (open_on s d) eqn:O.
  - exfalso. apply open_on_spec in O. exact (not_both s d O C).
  - right. apply existsb_exists in G as (r & I' & G). exists r. split; [exact I'|apply givesb_sound; exact G].
Qed.

Lemma one_of_nil d : one_of [] d <-> False.
Proof. split; [intros (r & [] & _)|intros []]. Qed.
Lemma one_of_cons r l d : one_of (r :: l) d <-> gives r d \/ one_of l d.
Proof.
  split.
  - intros (x & [->|I] & G); [left; exact G|right; exists x; split; assumption].
  - intros [G|(x & I & G)]; [exists r; split; [left; reflexivity|exact G]|exists x; split; [right; exact I|exact G]].
Qed.
Lemma one_of_app l l' d : one_of (l ++ l') d <-> one_of l d \/ one_of l' d.
Proof. induction l as [|r l IH]; cbn [app]; [rewrite one_of_nil; tauto|rewrite !one_of_cons, IH; tauto]. Qed.

Lemma weekend_true d : is_weekend d = true <-> weekend d.
Proof. unfold is_weekend, weekend. destruct (weekday_of d); intuition congruence. Qed.

Lemma easter_offset d : supported (year d) -> exists em, easter_monday (year d) = Ok em /\
  forall n, (ordinal d =? em + n) = true <-> d = easter_sunday (year d) + (n + 1).
Proof.
  intros S. destruct (western_easter_monday (year d) S) as (em & s & E & W & R & _). exists em. split; [exact E|].
  assert (Q : s = easter_sunday (year d)).
  { apply (first_sunday_unique (western_full_moon (year d))); [exact W|apply C92_tables]. }
  intros n. rewrite Z.eqb_eq. unfold ordinal. rewrite <- Q. change date with Z in *. lia.
Qed.

Ltac forget_years d :=
  repeat match goal with
  | |- context [year d =? ?n] => replace (year d =? n) with false by (symmetry; apply Z.eqb_neq; lia)
  | |- context [year d <=? ?n] => (replace (year d <=? n) with false by (symmetry; apply Z.leb_gt; lia)) ||
                                  (replace (year d <=? n) with true by (symmetry; apply Z.leb_le; lia))
  end;
  cbn [andb orb negb]; repeat rewrite ?andb_false_r, ?orb_false_r, ?andb_true_r.

(** ** China *)

Definition china_early : list reason :=
  [On 1 1; On 4 4; On 6 9; On 9 15] ++ map (On 5) [1; 2; 3; 4; 5; 6; 7] ++ map (On 10) [1; 2; 3; 4; 5; 6; 7].
(** The long holidays of the State Council: some days around each festival. *)
Definition china_festivals : list reason :=
  [Between 1 1 1 3; Between 12 31 12 31; Around chinese_new_year (-3) 6; Around qingming (-2) 2; Between 4 29 5 7;
   Around dragon_boat 0 2; Around dragon_boat (-2) 0; Around mid_autumn (-2) 2; Between 9 29 10 8;
   Announced [(2015, 9, 3); (2015, 9, 4)]].
(** Days closed in every year up to 2007 or 2008. *)
Definition china_leftovers : list reason :=
  [Announced [(2005, 4, 4); (2006, 4, 4); (2007, 4, 4); (2004, 6, 9); (2005, 6, 9); (2006, 6, 9); (2004, 9, 15); (2005, 9, 15); (2006, 9, 15)]].

(** ** Taiwan *)

Definition taiwan_fixed : list reason := [On 1 1; On 2 28; On 4 5; On 5 1; On 10 10].
Definition taiwan_festivals : list reason :=
  [Between 1 2 1 2; Between 12 31 12 31; Around chinese_new_year (-6) 5; Between 2 27 3 1; Between 4 2 4 6; Between 4 30 5 2;
   Around dragon_boat (-1) 1; Around mid_autumn (-1) 1; Between 10 9 10 11;
   (* the new year of 12 February 2002 and 1 February 2003, and the festivals of 2003 *)
   Announced [(2002, 2, 11); (2002, 2, 12); (2002, 2, 13); (2002, 2, 14); (2002, 2, 15); (2003, 1, 31); (2003, 2, 3); (2003, 2, 4); (2003, 2, 5);
     (2003, 6, 4); (2003, 9, 11)]].
(** The new year of 14 February 2010, entered a month early. *)
Definition taiwan_misdated : list reason :=
  [Announced [(2010, 1, 13); (2010, 1, 14); (2010, 1, 15); (2010, 1, 18); (2010, 1, 19); (2010, 1, 20); (2010, 1, 21)]].

(** ** Singapore *)

Definition singapore_fixed : list reason := [On 1 1; OnMonday 1 2; FromEaster (-2); On 5 1; On 8 9; OnMonday 8 10; On 12 25].
Definition singapore_festivals : list reason :=
  [Around chinese_new_year 0 2; Islamic 10 1 (-1) 1; Islamic 12 10 (-1) 2;
   Moon singapore_east 15 5 4 6 3;                                        (* Vesak *)
   Moon singapore_east 29 10 14 11 16; Moon singapore_east 30 10 14 11 16;(* Deepavali *)
   Announced [(2022, 5, 2); (2022, 12, 26); (2023, 9, 1)]].               (* holidays on a Sunday; presidential election *)
(** The second day of the new year of 14 February 2010, a month early. *)
Definition singapore_misdated : list reason := [Announced [(2010, 1, 15)]].

(** ** Indonesia *)

Definition indonesia_fixed : list reason := [On 1 1; FromEaster (-2); FromEaster 39; On 8 17; On 12 25].
Definition indonesia_festivals : list reason :=
  [Around chinese_new_year 0 2; Islamic 10 1 (-3) 5; Islamic 12 10 (-1) 0; Islamic 1 1 (-1) 1; Islamic 3 12 (-1) 1; Islamic 7 27 (-1) 1;
   Moon jakarta_east 1 3 5 4 5;                                           (* Nyepi *)
   Moon jakarta_east 15 5 4 6 3;                                          (* Waisak *)
   Between 12 24 12 26; Between 12 31 12 31; FromEaster 40;
   (* joint leave, the election of 2009, Labour Day 2014; no holiday is known for 24 October 2007 *)
   Announced [(2007, 10, 24); (2008, 8, 18); (2009, 1, 2); (2009, 4, 9); (2014, 5, 1)]].

(** ** India *)

Definition india_fixed : list reason := [On 1 26; FromEaster (-2); On 4 14; On 5 1; On 8 15; On 10 2; On 12 25].
Definition india_festivals : list reason :=
  [Islamic 10 1 (-1) 1; Islamic 12 10 0 1; Islamic 1 10 0 1; Islamic 3 12 0 2;
   Moon india_east 29 2 10 3 12;   (* Mahashivratri *)
   Moon india_east 15 2 26 3 31;   (* Holi *)
   Moon india_east 1 3 20 4 15;    (* Gudi Padwa *)
   Moon india_east 9 3 24 4 22;    (* Ram Navami *)
   Moon india_east 13 3 28 4 26;   (* Mahavir Jayanti *)
   Moon india_east 15 4 25 6 1;    (* Buddha Pournima *)
   Moon india_east 4 8 18 9 20;    (* Ganesh Chaturthi *)
   Moon india_east 10 9 22 10 25;  (* Dasara *)
   Moon india_east 30 10 13 11 16; Moon india_east 1 10 13 11 16;   (* Diwali *)
   Moon india_east 15 11 1 12 2;   (* Guru Nanak Jayanti *)
   On 2 19;                        (* Shivaji Jayanti *)
   (* elections, bank closings, the Parsi new year and days of one year only *)
   Announced [(2010, 1, 1); (2019, 4, 1); (2019, 4, 29); (2019, 10, 21); (2020, 4, 1); (2023, 8, 16); (2024, 1, 22); (2024, 4, 1); (2024, 5, 20)]].

(** ** What the calendars close on *)

Lemma or_none (P : Prop) : P \/ False <-> P.
Proof. tauto. Qed.

Ltac plain :=
  match goal with |- (Ok (if ?c then false else true) = Ok false) <-> _ =>
    transitivity (c = true); [destruct c; split; congruence|] end.
Ltac reasons := rewrite <- weekend_true; cbn [app map]; rewrite ?one_of_cons, ?one_of_nil, ?or_none; cbn [gives].

Ltac bools := repeat progress rewrite ?orb_true_iff, ?andb_true_iff; rewrite ?Z.eqb_eq, ?Z.leb_le.
Lemma monday_true w : weekday_eqb w Mon = true <-> w = Mon.
Proof. destruct w; cbn; intuition congruence. Qed.

Lemma china_after d : 2026 < year d -> (closed (shipped_calendar China) d <-> weekend d \/ one_of [On 1 1] d).
Proof.
  intros Y. unfold closed. cbn [shipped_calendar]. unfold china_is_business_day. cbv zeta. forget_years d.
  plain. reasons. bools. tauto.
Qed.
Lemma china_before d : year d < 2004 -> (closed (shipped_calendar China) d <-> weekend d \/ one_of china_early d).
Proof.
  intros Y. unfold closed. cbn [shipped_calendar]. unfold china_is_business_day. cbv zeta. forget_years d.
  plain. unfold china_early. reasons. bools.
  assert (W : 1 <= day d <= 7 <-> day d = 1 \/ day d = 2 \/ day d = 3 \/ day d = 4 \/ day d = 5 \/ day d = 6 \/ day d = 7) by lia.
  tauto.
Qed.
Lemma taiwan_outside d : year d < 2002 \/ 2026 < year d -> (closed (shipped_calendar Taiwan) d <-> weekend d \/ one_of taiwan_fixed d).
Proof.
  intros Y. unfold closed. cbn [shipped_calendar]. unfold taiwan_is_business_day. cbv zeta. forget_years d.
  plain. unfold taiwan_fixed. reasons. bools. tauto.
Qed.
Lemma singapore_outside d : supported (year d) -> year d < 2004 \/ year d = 2011 \/ 2014 < year d < 2019 \/ 2026 < year d ->
  (closed (shipped_calendar Singapore) d <-> weekend d \/ one_of singapore_fixed d).
Proof.
  intros S Y. unfold closed. cbn [shipped_calendar]. unfold singapore_is_business_day. cbv zeta.
  destruct (easter_offset d S) as (em & E & F). rewrite E. cbn [obind]. forget_years d.
  plain. unfold singapore_fixed. reasons. pose proof (F (-3)) as F3.
  bools. rewrite monday_true. change (-3 + 1) with (-2) in F3. rewrite Z.eqb_eq in F3.
  change (em - 3) with (em + -3). tauto.
Qed.
Lemma indonesia_outside d : supported (year d) -> year d < 2005 \/ 2014 < year d ->
  (closed (shipped_calendar Indonesia) d <-> weekend d \/ one_of indonesia_fixed d).
Proof.
  intros S Y. unfold closed. cbn [shipped_calendar]. unfold indonesia_is_business_day. cbv zeta.
  destruct (easter_offset d S) as (em & E & F). rewrite E. cbn [obind]. forget_years d.
  plain. unfold indonesia_fixed. reasons. pose proof (F (-3)) as F3. pose proof (F 38) as F38.
  bools. change (-3 + 1) with (-2) in F3. change (38 + 1) with 39 in F38. rewrite Z.eqb_eq in F3, F38.
  change (em - 3) with (em + -3). tauto.
Qed.
Lemma india_outside d : supported (year d) -> year d < 2005 \/ 2014 < year d < 2019 \/ 2025 < year d ->
  (closed (shipped_calendar India) d <-> weekend d \/ one_of india_fixed d).
Proof.
  intros S Y. unfold closed. cbn [shipped_calendar]. unfold india_is_business_day. cbv zeta.
  destruct (easter_offset d S) as (em & E & F). rewrite E. cbn [obind]. forget_years d.
  plain. unfold india_fixed. reasons. pose proof (F (-3)) as F3.
  bools. change (-3 + 1) with (-2) in F3. rewrite Z.eqb_eq in F3.
  change (em - 3) with (em + -3). tauto.
Qed.

(** The fixed days are closed in the listed years too. *)
Ltac fixed_day M K := rewrite M, K; cbn [Z.eqb Pos.eqb andb orb]; repeat rewrite ?orb_true_r, ?orb_true_l; reflexivity.

Lemma taiwan_kept d : one_of taiwan_fixed d -> (month d = 4 -> ~ In (year d) [2008; 2009; 2012; 2017]) -> closed (shipped_calendar Taiwan) d.
Proof.
  unfold taiwan_fixed. rewrite !one_of_cons, one_of_nil. cbn [gives]. intros G N.
  unfold closed. cbn [shipped_calendar]. unfold taiwan_is_business_day. cbv zeta.
  revert G N. generalize (is_weekend d) (year d) (month d) (day d). clear d. intros w y m k G N.
  destruct G as [[M K]|[[M K]|[[M K]|[[M K]|[[M K]|[]]]]]]; [fixed_day M K|fixed_day M K| |fixed_day M K|fixed_day M K].
  specialize (N M). cbn [In] in N.
  assert (A : forall n, In n [2008; 2009; 2012; 2017] -> (y =? n) = false).
  { intros n I. apply Z.eqb_neq. intros Q. apply N. cbn [In] in I. subst n. exact I. }
  rewrite (A 2008), (A 2009), (A 2012), (A 2017) by (cbn; tauto). subst m k.
  destruct w; reflexivity.
Qed.

Lemma singapore_kept d : supported (year d) -> one_of singapore_fixed d -> closed (shipped_calendar Singapore) d.
Proof.
  intros S. unfold singapore_fixed. rewrite !one_of_cons, one_of_nil. cbn [gives]. intros G.
  unfold closed. cbn [shipped_calendar]. unfold singapore_is_business_day. cbv zeta.
  destruct (easter_offset d S) as (em & E & F). rewrite E. cbn [obind].
  destruct G as [[M K]|[(M & K & W)|[G|[[M K]|[[M K]|[(M & K & W)|[[M K]|[]]]]]]]].
  - fixed_day M K.
  - rewrite (proj2 (monday_true _) W). fixed_day M K.
  - apply (F (-3)) in G. change (em + -3) with (em - 3) in G. rewrite G. repeat rewrite ?orb_true_r, ?orb_true_l. reflexivity.
  - fixed_day M K.
  - fixed_day M K.
  - rewrite (proj2 (monday_true _) W). fixed_day M K.
  - fixed_day M K.
Qed.
Lemma indonesia_kept d : supported (year d) -> one_of indonesia_fixed d -> closed (shipped_calendar Indonesia) d.
Proof.
  intros S. unfold indonesia_fixed. rewrite !one_of_cons, one_of_nil. cbn [gives]. intros G.
  unfold closed. cbn [shipped_calendar]. unfold indonesia_is_business_day. cbv zeta.
  destruct (easter_offset d S) as (em & E & F). rewrite E. cbn [obind].
  destruct G as [[M K]|[G|[G|[[M K]|[[M K]|[]]]]]].
  - fixed_day M K.
  - apply (F (-3)) in G. change (em + -3) with (em - 3) in G. rewrite G. repeat rewrite ?orb_true_r, ?orb_true_l. reflexivity.
  - apply (F 38) in G. rewrite G. repeat rewrite ?orb_true_r, ?orb_true_l. reflexivity.
  - fixed_day M K.
  - fixed_day M K.
Qed.
Lemma india_kept d : supported (year d) -> one_of india_fixed d -> closed (shipped_calendar India) d.
Proof.
  intros S. unfold india_fixed. rewrite !one_of_cons, one_of_nil. cbn [gives]. intros G.
  unfold closed. cbn [shipped_calendar]. unfold india_is_business_day. cbv zeta.
  destruct (easter_offset d S) as (em & E & F). rewrite E. cbn [obind].
  destruct G as [[M K]|[G|[[M K]|[[M K]|[[M K]|[[M K]|[[M K]|[]]]]]]]].
  - fixed_day M K.
  - apply (F (-3)) in G. change (em + -3) with (em - 3) in G. rewrite G. repeat rewrite ?orb_true_r, ?orb_true_l. reflexivity.
  - fixed_day M K.
  - fixed_day M K.
  - fixed_day M K.
  - fixed_day M K.
  - fixed_day M K.
Qed.

Theorem C95_china : forall d,
  (year d < 2004 -> (closed (shipped_calendar China) d <-> weekend d \/ one_of china_early d)) /\
  (2004 <= year d <= 2026 -> closed (shipped_calendar China) d -> weekend d \/ one_of (china_festivals ++ china_leftovers) d) /\
  (2026 < year d -> (closed (shipped_calendar China) d <-> weekend d \/ one_of [On 1 1] d)) /\
  (forall y m k, 2004 <= y <= 2026 -> In (m, k) [(1, 1); (5, 1); (10, 1); (10, 2); (10, 3)] -> d = of_ymd y m k ->
     weekend d \/ closed (shipped_calendar China) d).
Proof.
  intros d. split; [apply china_before|]. split.
  { intros Y. apply (has_reason_sound China (china_festivals ++ china_leftovers) 2004 23); [vm_compute; reflexivity|lia]. }
  split; [apply china_after|]. intros y m k Y I ->. cbn [In] in I.
  destruct I as [I|[I|[I|[I|[I|[]]]]]]; injection I as <- <-.
  - apply (closed_years_sound China (fun y => of_ymd y 1 1) 2004 23); [vm_compute; reflexivity|lia].
  - apply (closed_years_sound China (fun y => of_ymd y 5 1) 2004 23); [vm_compute; reflexivity|lia].
  - apply (closed_years_sound China (fun y => of_ymd y 10 1) 2004 23); [vm_compute; reflexivity|lia].
  - apply (closed_years_sound China (fun y => of_ymd y 10 2) 2004 23); [vm_compute; reflexivity|lia].
  - apply (closed_years_sound China (fun y => of_ymd y 10 3) 2004 23); [vm_compute; reflexivity|lia].
Qed.
Print Assumptions C95_china.

(** The 1st of May and the national days are holidays of every year; the list
    has them up to 2026 only. *)
Theorem C95_china_refuted :
  ~ (forall d, 2004 <= year d -> one_of [On 5 1; On 10 1] d -> closed (shipped_calendar China) d) /\
  (forall d, 2026 < year d -> one_of [On 5 1; On 10 1; On 10 2; On 10 3] d -> ~ weekend d -> opened (shipped_calendar China) d).
Proof.
  assert (K : forall d, 2026 < year d -> one_of [On 5 1; On 10 1; On 10 2; On 10 3] d -> ~ weekend d -> opened (shipped_calendar China) d).
  { intros d Y G W. rewrite !one_of_cons, one_of_nil in G. cbn [gives] in G.
    destruct (china_after d Y) as [A _]. unfold opened, closed in *. revert A.
    assert (T : exists b, shipped_calendar China d = Ok b) by (cbn [shipped_calendar]; unfold china_is_business_day; eexists; reflexivity).
    destruct T as [b T]. rewrite T. destruct b; [reflexivity|]. intros A. exfalso. specialize (A eq_refl).
    rewrite one_of_cons, one_of_nil in A. cbn [gives] in A. destruct A as [A|A]; [exact (W A)|]. lia. }
  split; [|exact K].
  intros H. assert (O : opened (shipped_calendar China) (of_ymd 2027 10 1)) by (vm_compute; reflexivity).
  apply (not_both China _ O). apply H; [vm_compute; discriminate|].
  exists (On 10 1). split; [cbn; tauto|]. split; vm_compute; reflexivity.
Qed.
Print Assumptions C95_china_refuted.

Theorem C95_taiwan : forall d,
  (year d < 2002 \/ 2026 < year d -> (closed (shipped_calendar Taiwan) d <-> weekend d \/ one_of taiwan_fixed d)) /\
  (2002 <= year d <= 2026 -> closed (shipped_calendar Taiwan) d ->
     weekend d \/ one_of taiwan_fixed d \/ one_of (taiwan_festivals ++ taiwan_misdated) d) /\
  (one_of taiwan_fixed d -> (month d = 4 -> ~ In (year d) [2008; 2009; 2012; 2017]) -> closed (shipped_calendar Taiwan) d) /\
  (forall y, 2002 <= y <= 2026 -> d = qingming y -> weekend d \/ closed (shipped_calendar Taiwan) d).
Proof.
  intros d. split; [apply taiwan_outside|]. split.
  { intros Y C. rewrite <- one_of_app. revert C.
    apply (has_reason_sound Taiwan (taiwan_fixed ++ taiwan_festivals ++ taiwan_misdated) 2002 25); [vm_compute; reflexivity|lia]. }
  split; [apply taiwan_kept|]. intros y Y ->.
  apply (closed_years_sound Taiwan qingming 2002 25); [vm_compute; reflexivity|lia].
Qed.
Print Assumptions C95_taiwan.

(** Tomb sweeping is on the 4th or 5th of April; after the listed years the
    calendar closes on the 5th only. *)
Theorem C95_taiwan_refuted :
  ~ (forall y, 2002 <= y <= 2050 -> weekend (qingming y) \/ closed (shipped_calendar Taiwan) (qingming y)) /\
  listed Taiwan qingming [2028; 2029; 2033; 2036; 2040; 2041; 2042; 2044; 2045; 2046; 2050] 2050.
Proof.
  split; [|apply listed_sound; vm_compute; reflexivity].
  intros H. specialize (H 2028 ltac:(lia)). assert (O : opened (shipped_calendar Taiwan) (qingming 2028)) by (vm_compute; reflexivity).
  destruct H as [[W|W]|C]; [vm_compute in W; discriminate W|vm_compute in W; discriminate W|exact (not_both _ _ O C)].
Qed.
Print Assumptions C95_taiwan_refuted.

Theorem C95_singapore : forall d, supported (year d) ->
  (one_of singapore_fixed d -> closed (shipped_calendar Singapore) d) /\
  (year d < 2004 \/ year d = 2011 \/ 2014 < year d < 2019 \/ 2026 < year d ->
     (closed (shipped_calendar Singapore) d <-> weekend d \/ one_of singapore_fixed d)) /\
  (2004 <= year d <= 2026 -> closed (shipped_calendar Singapore) d ->
     weekend d \/ one_of singapore_fixed d \/ one_of (singapore_festivals ++ singapore_misdated) d).
Proof.
  intros d S. split; [apply singapore_kept; exact S|]. split; [apply singapore_outside; exact S|].
  intros Y C. rewrite <- one_of_app. revert C.
  apply (has_reason_sound Singapore (singapore_fixed ++ singapore_festivals ++ singapore_misdated) 2004 23); [vm_compute; reflexivity|lia].
Qed.
Print Assumptions C95_singapore.

(** Vesak and Deepavali are holidays every year; five years have no list. *)
Definition about (r : reason) (d : date) : Prop := gives r (d - 1) /\ gives r d /\ gives r (d + 1).
Definition closed_about (s : shipped) (d : date) : Prop :=
  closed (shipped_calendar s) (d - 1) \/ closed (shipped_calendar s) d \/ closed (shipped_calendar s) (d + 1).
Definition open_about (s : shipped) (d : date) : bool := open_on s (d - 1) && open_on s d && open_on s (d + 1).
Definition aboutb (r : reason) (d : date) : bool := givesb r (d - 1) && givesb r d && givesb r (d + 1).
Lemma open_about_sound s d : open_about s d = true -> ~ closed_about s d.
Proof.
  unfold open_about, closed_about. rewrite !andb_true_iff, !open_on_spec. intros [[A B] C] [D|[D|D]].
  - exact (not_both _ _ A D).
  - exact (not_both _ _ B D).
  - exact (not_both _ _ C D).
Qed.
Lemma aboutb_sound r d : aboutb r d = true -> about r d.
Proof.
  unfold aboutb, about. rewrite !andb_true_iff. intros [[A B] C].
  split; [apply givesb_sound; exact A|split; apply givesb_sound; assumption].
Qed.
Definition deepavali : reason := Moon singapore_east 29 10 14 11 16.
Definition vesak : reason := Moon singapore_east 15 5 4 6 3.
Definition missing (s : shipped) (r : reason) (l : list (Z * Z * Z)) : Prop :=
  forall d, In d (ymds l) -> gives r d /\ opened (shipped_calendar s) d.
Lemma missing_sound s r l : forallb (fun d => givesb r d && open_on s d) (ymds l) = true -> missing s r l.
Proof.
  intros H d I. rewrite forallb_forall in H. specialize (H d I). rewrite andb_true_iff, open_on_spec in H.
  split; [apply givesb_sound|]; tauto.
Qed.

Theorem C95_singapore_refuted :
  ~ (forall d, 2004 <= year d <= 2026 -> about vesak d -> closed_about Singapore d) /\
  missing Singapore vesak [(2011, 5, 17); (2015, 6, 1); (2017, 5, 10); (2018, 5, 29)] /\
  missing Singapore deepavali [(2011, 10, 26); (2015, 11, 10); (2017, 10, 18); (2018, 11, 6)].
Proof.
  split; [|split; apply missing_sound; vm_compute; reflexivity].
  intros H. apply (open_about_sound Singapore (of_ymd 2011 5 17)); [vm_compute; reflexivity|].
  apply H; [vm_compute; split; discriminate|]. apply aboutb_sound. vm_compute. reflexivity.
Qed.
Print Assumptions C95_singapore_refuted.

Theorem C95_indonesia : forall d, supported (year d) ->
  (one_of indonesia_fixed d -> closed (shipped_calendar Indonesia) d) /\
  (year d < 2005 \/ 2014 < year d -> (closed (shipped_calendar Indonesia) d <-> weekend d \/ one_of indonesia_fixed d)) /\
  (2005 <= year d <= 2014 -> closed (shipped_calendar Indonesia) d ->
     weekend d \/ one_of indonesia_fixed d \/ one_of indonesia_festivals d).
Proof.
  intros d S. split; [apply indonesia_kept; exact S|]. split; [apply indonesia_outside; exact S|].
  intros Y C. rewrite <- one_of_app. revert C.
  apply (has_reason_sound Indonesia (indonesia_fixed ++ indonesia_festivals) 2005 10); [vm_compute; reflexivity|lia].
Qed.
Print Assumptions C95_indonesia.

Theorem C95_india : forall d, supported (year d) ->
  (one_of india_fixed d -> closed (shipped_calendar India) d) /\
  (year d < 2005 \/ 2014 < year d < 2019 \/ 2025 < year d -> (closed (shipped_calendar India) d <-> weekend d \/ one_of india_fixed d)) /\
  (2005 <= year d <= 2025 -> closed (shipped_calendar India) d ->
     weekend d \/ one_of india_fixed d \/ one_of india_festivals d).
Proof.
  intros d S. split; [apply india_kept; exact S|]. split; [apply india_outside; exact S|].
  intros Y C. rewrite <- one_of_app. revert C.
  apply (has_reason_sound India (india_fixed ++ india_festivals) 2005 21); [vm_compute; reflexivity|lia].
Qed.
Print Assumptions C95_india.

(** The day after Diwali closes the exchange every year, and Nyepi the one of
    Jakarta; the lists leave out 2015-2018 (India) and all years since 2015
    (Indonesia, where Labour Day is a holiday since 2014). *)
Definition day_after_diwali : reason := Moon india_east 1 10 13 11 16.
Definition nyepi : reason := Moon jakarta_east 1 3 5 4 5.
Theorem C95_holes_refuted :
  ~ (forall d, 2005 <= year d <= 2025 -> about day_after_diwali d -> closed_about India d) /\
  missing India day_after_diwali [(2015, 11, 12); (2016, 10, 31); (2017, 10, 20); (2018, 11, 8)] /\
  ~ (forall d, 2005 <= year d <= 2025 -> about nyepi d -> closed_about Indonesia d) /\
  missing Indonesia nyepi [(2016, 3, 9); (2017, 3, 28); (2019, 3, 7); (2020, 3, 25); (2023, 3, 22); (2024, 3, 11)] /\
  missing Indonesia (On 5 1) [(2015, 5, 1); (2017, 5, 1); (2018, 5, 1)].
Proof.
  split; [|split; [apply missing_sound; vm_compute; reflexivity|split; [|split; apply missing_sound; vm_compute; reflexivity]]].
  - intros H. apply (open_about_sound India (of_ymd 2015 11 12)); [vm_compute; reflexivity|].
    apply H; [vm_compute; split; discriminate|]. apply aboutb_sound. vm_compute. reflexivity.
  - intros H. apply (open_about_sound Indonesia (of_ymd 2020 3 25)); [vm_compute; reflexivity|].
    apply H; [vm_compute; split; discriminate|]. apply aboutb_sound. vm_compute. reflexivity.
Qed.
Print Assumptions C95_holes_refuted.

(** The hypotheses are met: the day after Diwali 2022, Vesak 2024 and Nyepi 2010
    are closed weekdays with their reasons; a Sunday of 2030 is closed. *)
Example C95_witness :
  (closed (shipped_calendar India) (of_ymd 2022 10 26) /\ gives day_after_diwali (of_ymd 2022 10 26)) /\
  (closed (shipped_calendar Singapore) (of_ymd 2024 5 22) /\ gives vesak (of_ymd 2024 5 22)) /\
  (closed (shipped_calendar Indonesia) (of_ymd 2010 3 16) /\ gives nyepi (of_ymd 2010 3 16)) /\
  (closed (shipped_calendar China) (of_ymd 2024 2 14) /\ gives (Around chinese_new_year (-3) 6) (of_ymd 2024 2 14)) /\
  (closed (shipped_calendar Taiwan) (of_ymd 2025 1 31) /\ gives (Around chinese_new_year (-6) 5) (of_ymd 2025 1 31)).
Proof. repeat match goal with |- _ /\ _ => split end; first [apply closed_on_spec; vm_compute; reflexivity|apply givesb_sound; vm_compute; reflexivity]. Qed.
