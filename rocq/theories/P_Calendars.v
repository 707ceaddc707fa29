(** Properties C15-C18: the shipped calendars.  [shipped] (Shipped.v) has one
    value per calendar and market, and [shipped_calendar] is its
    is_business_day; Easter is specified in EasterSpec.v. *)
From Coq Require Import ZArith Bool List Lia.
From Coq Require Import ZifyBool.
Import ListNotations.
From Verif Require Import Outcome Date DateFacts Calendar CalendarSpec CalendarFacts Cal_base Cal_easter Cal_russia
  Cal_target Cal_unitedstates Shipped ShippedFacts EasterSpec EasterFacts Closure ClosureView ClosureIsrael ShippedAdjust.
Open Scope Z_scope.

Definition weekend (d : date) : Prop := weekday_of d = Sat \/ weekday_of d = Sun.

Theorem C15_answers : forall (s : shipped) (d : date), 1901 <= year d <= 2199 ->
  opened (shipped_calendar s) d \/ closed (shipped_calendar s) d.
Proof. exact (fun s d H => match shipped_total s d H with
  | ex_intro _ true E => or_introl E | ex_intro _ false E => or_intror E end). Qed.
Print Assumptions C15_answers.

(** The nine Saturdays and Sundays on which the Russian exchange worked. *)
Theorem C15_weekends : forall (s : shipped) (d : date), 1901 <= year d <= 2199 -> weekend d ->
  (opened (shipped_calendar s) d <->
   s = Russia (Some russia_Exchange) /\
   In (year d, month d, day d)
     [(2012, 3, 11); (2012, 4, 28); (2012, 5, 5); (2012, 5, 12); (2012, 6, 9); (2016, 2, 20);
      (2018, 4, 28); (2018, 6, 9); (2018, 12, 29)]).
Proof.
  intros s d H W. assert (Wb : is_weekend d = true) by (unfold is_weekend; destruct W as [-> | ->]; reflexivity).
  assert (NR : (forall m, s <> Russia m) \/ exists m, s = Russia m) by (destruct s; eauto; left; discriminate).
  destruct NR as [NR|[m ->]].
  - pose proof (shipped_weekend s d H Wb NR) as E. unfold opened. rewrite E.
    split; [discriminate|]. intros [-> _]. exfalso. exact (NR _ eq_refl).
  - unfold opened. rewrite russia_weekend by exact Wb.
    destruct m as [[]|]; try (split; [discriminate|intros [E _]; discriminate E]).
    split.
    + intros E. apply (f_equal (fun o => match o with Ok b => b | _ => false end)) in E. cbv beta iota in E.
      split; [reflexivity|].
      apply existsb_exists in E. destruct E as ([[y m] dd] & I & E). apply Z.eqb_eq in E. subst d.
      assert (V : valid_ymd y m dd).
      { apply valid_ymdb_spec. revert I. unfold russian_makeup_days. cbn [In]. intros I.
        repeat (destruct I as [I|I]; [injection I as <- <- <-; reflexivity|]). destruct I. }
      rewrite year_of_ymd, month_of_ymd, day_of_ymd by exact V. exact I.
    + intros [_ I]. f_equal. apply existsb_exists. exists (year d, month d, day d). split; [exact I|].
      apply Z.eqb_eq. symmetry. apply of_ymd_ymd.
Qed.
Print Assumptions C15_weekends.

Example C15_witness :
  1901 <= year (of_ymd 2018 12 29) <= 2199 /\ weekend (of_ymd 2018 12 29) /\
  opened (shipped_calendar (Russia (Some russia_Exchange))) (of_ymd 2018 12 29) /\
  closed (shipped_calendar (Russia (Some russia_Settlement))) (of_ymd 2018 12 29) /\
  opened (shipped_calendar (UnitedStates (Some unitedstates_NYSE))) (of_ymd 2018 12 31).
Proof.
  split; [vm_compute; split; discriminate|]. split; [left; vm_compute; reflexivity|].
  repeat split; vm_compute; reflexivity.
Qed.

(** The years outside the Easter tables are not supported by every calendar. *)
Example C15_range_needed :
  shipped_calendar Target (of_ymd 1900 12 31) = Panic PIndex /\
  shipped_calendar Target (of_ymd 2200 1 1) = Panic PIndex.
Proof. split; vm_compute; reflexivity. Qed.

(** [closure_bound] (ShippedAdjust.v): Taiwan 17, China 14, Indonesia, Turkey
    and Russia 13, Japan and South Korea 12, every other calendar 11. *)
Theorem C16_opens_soon : forall (s : shipped) (d : date),
  let k := Z.of_nat (closure_bound s) in
  (of_ymd 1901 1 1 <= d <= of_ymd 2199 12 31 - k ->
     exists r, d <= r <= d + k /\ opened (shipped_calendar s) r) /\
  (of_ymd 1901 1 1 + k <= d <= of_ymd 2199 12 31 ->
     exists r, d - k <= r <= d /\ opened (shipped_calendar s) r).
Proof. exact (fun s d => conj (proj1 (shipped_closure s) d) (proj2 (shipped_closure s) d)). Qed.
Print Assumptions C16_opens_soon.

(** Hence rolling under any convention returns a date at most that far away. *)
Theorem C16_adjust_returns : forall (s : shipped) (d : date) (b : convention),
  let k := Z.of_nat (closure_bound s) in
  of_ymd 1901 1 1 + k <= d <= of_ymd 2199 12 31 - k ->
  exists r, adjust (shipped_calendar s) d b = Ok (Some r) /\ Z.abs (r - d) <= k.
Proof. exact shipped_adjust. Qed.
Print Assumptions C16_adjust_returns.

Example C16_witness :
  of_ymd 1901 1 1 + 13 <= of_ymd 2024 12 28 <= of_ymd 2199 12 31 - 13 /\
  adjust (shipped_calendar (Russia (Some russia_Settlement))) (of_ymd 2024 12 28) Following
    = Ok (Some (of_ymd 2024 12 30)) /\
  adjust (shipped_calendar Taiwan) (of_ymd 2023 1 20) Following = Ok (Some (of_ymd 2023 1 30)).
Proof. split; [vm_compute; split; discriminate|]. split; vm_compute; reflexivity. Qed.

(** [ordinal] is the day of the year; a Sunday satisfying [western_easter] is
    unique (C17_easter_unique). *)
Theorem C17_western : forall y : Z, 1901 <= y <= 2199 ->
  exists sunday, western_easter y sunday /\ year (sunday + 1) = y /\
    easter_monday y = Ok (ordinal (sunday + 1)).
Proof.
  intros y H. destruct (western_easter_monday y H) as (em & s & E & W & S1 & B).
  exists s. split; [exact W|].
  assert (Y : year (s + 1) = y) by (rewrite S1; apply jan1_year; lia).
  split; [exact Y|]. rewrite E. f_equal. unfold ordinal. rewrite Y. change date with Z in *. lia.
Qed.
Print Assumptions C17_western.

Theorem C17_orthodox : forall y : Z, 1901 <= y <= 2199 ->
  exists sunday, orthodox_easter y sunday /\ year (sunday + 1) = y /\
    orthodox_easter_monday y = Ok (ordinal (sunday + 1)).
Proof.
  intros y H. destruct (orthodox_easter_monday_ok y H) as (em & s & E & W & S1 & B).
  exists s. split; [exact W|].
  assert (Y : year (s + 1) = y) by (rewrite S1; apply jan1_year; lia).
  split; [exact Y|]. rewrite E. f_equal. unfold ordinal. rewrite Y. change date with Z in *. lia.
Qed.
Print Assumptions C17_orthodox.

Theorem C17_easter_unique : forall full_moon a b : date,
  first_sunday_after full_moon a -> first_sunday_after full_moon b -> a = b.
Proof. exact first_sunday_unique. Qed.
Print Assumptions C17_easter_unique.

Theorem C17_out_of_range : forall y : Z, ~ (1901 <= y <= 2199) ->
  easter_monday y = Panic PIndex /\ orthodox_easter_monday y = Panic PIndex.
Proof.
  intros y H. split; apply table_index_Panic; (replace (Z.of_nat _) with 299 by reflexivity); lia.
Qed.
Print Assumptions C17_out_of_range.

(** Western Easter 2024 was 31 March, Orthodox Easter 5 May. *)
Example C17_witness :
  western_easter 2024 (of_ymd 2024 3 31) /\ orthodox_easter 2024 (of_ymd 2024 5 5) /\
  easter_monday 2024 = Ok 92 /\ orthodox_easter_monday 2024 = Ok 127.
Proof.
  assert (E1 : western_full_moon 2024 = of_ymd 2024 3 25) by (vm_compute; reflexivity).
  assert (E2 : orthodox_full_moon 2024 = of_ymd 2024 4 28) by (vm_compute; reflexivity).
  unfold western_easter, orthodox_easter, first_sunday_after. rewrite E1, E2.
  split; [|split; [|split; vm_compute; reflexivity]];
    (split; [vm_compute; reflexivity|]); (split; [reflexivity|]);
    intros x X Hx; apply weekday_sun_mod in Hx.
  - change (of_ymd 2024 3 25) with 738970 in X. change (of_ymd 2024 3 31) with 738976 in X.
    assert (D := Z.div_mod x 7 ltac:(lia)). change date with Z in *. lia.
  - change (of_ymd 2024 4 28) with 739004 in X. change (of_ymd 2024 5 5) with 739011 in X.
    assert (D := Z.div_mod x 7 ltac:(lia)). change date with Z in *. lia.
Qed.

(** [sunday] is the unique Western Easter Sunday of the year. *)
Theorem C18_target : forall d sunday : date, 1901 <= year d <= 2199 -> western_easter (year d) sunday ->
  (closed (shipped_calendar Target) d <->
   weekend d \/
   (month d = 1 /\ day d = 1) \/
   (month d = 12 /\ day d = 25) \/
   (2000 <= year d /\
      (d = sunday - 2 \/ d = sunday + 1 \/ (month d = 5 /\ day d = 1) \/ (month d = 12 /\ day d = 26))) \/
   (month d = 12 /\ day d = 31 /\ (year d = 1998 \/ year d = 1999 \/ year d = 2001))).
Proof.
  intros d s H W. destruct (western_easter_monday (year d) H) as (em & s' & E & W' & S1 & B).
  assert (s' = s) by (eapply first_sunday_unique; eassumption). subst s'.
  unfold closed. cbn [shipped_calendar]. unfold target_is_business_day. rewrite E. cbn [obind].
  assert (WE : weekend d <-> is_weekend d = true).
  { unfold weekend, is_weekend. destruct (weekday_of d); intuition congruence. }
  rewrite WE. unfold ordinal. generalize dependent (is_weekend d). intros w _ .
  generalize dependent (of_ymd (year d) 1 1). intros j S1. change date with Z in *.
  match goal with |- Ok (if ?b then false else true) = _ <-> _ =>
    transitivity (b = true); [destruct b; split; congruence|] end.
  rewrite ?orb_true_iff, ?andb_true_iff, ?orb_true_iff, ?Z.eqb_eq, ?Z.leb_le.
  assert (X1 : d - j + 1 = em - 3 <-> d = s - 2) by lia. assert (X2 : d - j + 1 = em <-> d = s + 1) by lia.
  rewrite X1, X2. tauto.
Qed.
Print Assumptions C18_target.

Example C18_witness :
  western_easter 2024 (of_ymd 2024 3 31) /\ closed (shipped_calendar Target) (of_ymd 2024 3 29) /\
  closed (shipped_calendar Target) (of_ymd 2001 12 31) /\ opened (shipped_calendar Target) (of_ymd 2024 12 31).
Proof.
  split; [apply C17_witness|]. split; [vm_compute; reflexivity|]. split; vm_compute; reflexivity.
Qed.
