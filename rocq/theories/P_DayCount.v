(** Properties C24-C28: day counters. *)
From Coq Require Import ZArith Bool List Lia Reals Lra.
From Coq Require Import ZifyBool.
Import ListNotations.
From Flocq Require Import Core.
From Verif Require Import Outcome Ints Date DateFacts Calendar CalendarSpec CalendarFacts AdvanceFacts F64 DayCount DayCountSpec DayCountFacts B252Facts.
Open Scope Z_scope.

(** * C24: Actual/N *)
(** The counters and their bases. *)
Definition actual_counters : list ((date -> date -> f64) * Z) :=
  [(actual360, 360); (actual364, 364); (actual366, 366);
   (act365_year_fraction None, 365); (act365_year_fraction (Some Act365Standard), 365)].

Theorem C24_day_count : forall d1 d2 d3 : date,
  (d1 <= d2 -> actual_days d1 d2 = Z.of_nat (length (days_of d1 d2))) /\
  actual_days d1 d2 + actual_days d2 d3 = actual_days d1 d3 /\
  actual_days d2 d1 = - actual_days d1 d2 /\
  act365_day_count None d1 d2 = actual_days d1 d2 /\
  act365_day_count (Some Act365Standard) d1 d2 = actual_days d1 d2.
Proof.
  intros a b c. unfold actual_days, days_of. rewrite map_length, seq_length. unfold date in *.
  repeat split; try reflexivity; lia.
Qed.
Print Assumptions C24_day_count.

(** One correctly rounded division: nothing else happens to the count. *)
Theorem C24_year_fraction : forall f N, In (f, N) actual_counters -> forall d1 d2 : date,
  in_range d1 -> in_range d2 ->
  finite (f d1 d2) /\ f64R (f d1 d2) = rnd (IZR (d2 - d1) / IZR N).
Proof.
  intros f N H d1 d2 R1 R2. pose proof (range_diff _ _ R1 R2) as B.
  cbn in H. repeat (destruct H as [[= <- <-]|H]); try contradiction;
    (split; [apply fraction_ok; [exact B|lia]|apply (fraction_ok (d2 - d1)); [exact B|lia]]).
Qed.
Print Assumptions C24_year_fraction.

Theorem C24_order : forall f N, In (f, N) actual_counters -> forall d1 d2 d3 : date,
  in_range d1 -> in_range d2 -> in_range d3 ->
  (d2 <= d3 -> (f64R (f d1 d2) <= f64R (f d1 d3))%R) /\
  (d1 < d2 <-> (0 < f64R (f d1 d2))%R) /\
  (d1 = d2 <-> f64R (f d1 d2) = 0%R) /\
  f64R (f d2 d1) = (- f64R (f d1 d2))%R.
Proof.
  intros f N H d1 d2 d3 R1 R2 R3.
  assert (NB : 1 <= N <= 1000) by (cbn in H; repeat (destruct H as [[= _ <-]|H]; [lia|]); contradiction).
  assert (E : forall a b, f a b = fraction (b - a) N)
    by (intros a b; cbn in H; repeat (destruct H as [[= <- <-]|H]; [reflexivity|]); contradiction).
  rewrite !E.
  pose proof (range_diff _ _ R1 R2) as B12. pose proof (range_diff _ _ R1 R3) as B13.
  assert (O : f64R (fraction (d1 - d2) N) = (- f64R (fraction (d2 - d1) N))%R).
  { rewrite <- (fraction_opp (d2 - d1) N B12 NB). f_equal. f_equal. lia. }
  assert (P : 0 < d2 - d1 -> (0 < f64R (fraction (d2 - d1) N))%R) by (intros; apply fraction_pos; assumption).
  assert (M : d2 - d1 < 0 -> (f64R (fraction (d2 - d1) N) < 0)%R).
  { intros L. pose proof (fraction_pos (d1 - d2) N ltac:(lia) NB ltac:(lia)) as Q. rewrite O in Q. lra. }
  assert (Z0 : d1 = d2 -> f64R (fraction (d2 - d1) N) = 0%R).
  { intros ->. rewrite Z.sub_diag. rewrite (proj1 (fraction_ok 0 N ltac:(lia) NB)). unfold Rdiv. rewrite Rmult_0_l. apply rnd_0. }
  repeat split.
  - intros L. apply fraction_mono; try assumption. lia.
  - intros L. apply P. lia.
  - intros L. destruct (Z.lt_trichotomy d1 d2) as [|[E2|G]]; [assumption| |].
    + rewrite (Z0 E2) in L. lra.
    + specialize (M ltac:(lia)). lra.
  - exact Z0.
  - intros L. destruct (Z.lt_trichotomy d1 d2) as [G|[E2|G]]; [|assumption|].
    + specialize (P ltac:(lia)). lra.
    + specialize (M ltac:(lia)). lra.
  - exact O.
Qed.
Print Assumptions C24_order.

Example C24_witness :
  let a := of_ymd 2023 1 15 in let b := of_ymd 2024 3 1 in
  in_range a /\ in_range b /\ a < b /\ actual_days a b = 411 /\ In (actual360, 360) actual_counters.
Proof.
  cbv zeta. rewrite !in_range_val. split; [vm_compute; split; discriminate|].
  split; [vm_compute; split; discriminate|]. split; [reflexivity|]. split; [reflexivity|]. left. reflexivity.
Qed.

(** * C25: 30/360 *)
Theorem C25_published : forall (m : thirty360_market) (d1 d2 : date),
  exists x y, adjusted m d1 d2 x y /\
  thirty360_day_count m d1 d2 = 360 * (year d2 - year d1) + 30 * (month d2 - month d1) + (y - x).
Proof. exact thirty_published. Qed.
Print Assumptions C25_published.

(** ... and the published adjustment determines the count. *)
Theorem C25_unique : forall (m : thirty360_market) (d1 d2 : date) x y x' y',
  adjusted m d1 d2 x y -> adjusted m d1 d2 x' y' -> x = x' /\ y = y'.
Proof.
  intros m a b x y x' y'. pose proof (day_bounds a) as [DA MA]. pose proof (day_bounds b) as [DB MB].
  destruct m as [| | | |t|t|]; cbn [adjusted]; cbv zeta.
  - intros (A1 & A2 & A3 & A4 & A5) (B1 & B2 & B3 & B4 & B5).
    assert (X : x = x') by (feb a; [rewrite A1, B1 by assumption|rewrite A2, B2 by assumption]; reflexivity).
    subst x'. split; [reflexivity|].
    feb a; feb b; [rewrite A3, B3 by tauto; reflexivity| | |];
      (destruct (Z.eq_dec x 30); [rewrite A4, B4 by tauto|rewrite A5, B5 by tauto]; reflexivity).
  - lia.
  - lia.
  - lia.
  - intros (A1 & A2 & A3 & A4) (B1 & B2 & B3 & B4). split.
    + feb a; [rewrite A1, B1 by assumption|rewrite A2, B2 by assumption]; reflexivity.
    + feb b; destruct (Z.eq_dec b t); first [rewrite A3, B3 by tauto; reflexivity|rewrite A4, B4 by tauto; reflexivity].
  - intros (A1 & A2 & A3 & A4) (B1 & B2 & B3 & B4). split.
    + feb a; [rewrite A1, B1 by assumption|rewrite A2, B2 by assumption]; reflexivity.
    + feb b; destruct (Z.eq_dec b t); first [rewrite A3, B3 by tauto; reflexivity|rewrite A4, B4 by tauto; reflexivity].
  - lia.
Qed.
Print Assumptions C25_unique.

(** A whole number of years counts 360 each; outside February for the markets
    with an end-of-February rule. *)
Theorem C25_anniversary : forall (m : thirty360_market) (d1 d2 : date),
  month d1 = month d2 -> day d1 = day d2 ->
  (month d1 <> 2 \/ m = European \/ m = ISMA \/ m = NASD \/ m = Italian) ->
  thirty360_day_count m d1 d2 = 360 * (year d2 - year d1).
Proof. exact thirty_anniversary. Qed.
Print Assumptions C25_anniversary.

Theorem C25_month_tolerance : forall (m : thirty360_market) (d1 d2 : date),
  Z.abs (thirty360_day_count m d1 d2 - 30 * (12 * (year d2 - year d1) + (month d2 - month d1))) <= 30.
Proof. exact thirty_near. Qed.
Print Assumptions C25_month_tolerance.

(** The European and Italian counts are differences of a serial number. *)
Theorem C25_additive : forall (m : thirty360_market) (d1 d2 d3 : date), m = European \/ m = Italian ->
  thirty360_day_count m d1 d2 + thirty360_day_count m d2 d3 = thirty360_day_count m d1 d3 /\
  thirty360_day_count m d2 d1 = - thirty360_day_count m d1 d2.
Proof.
  intros m a b c H.
  destruct (thirty_published m a b) as (x1 & y1 & A1 & ->).
  destruct (thirty_published m b c) as (x2 & y2 & A2 & ->).
  destruct (thirty_published m a c) as (x3 & y3 & A3 & ->).
  destruct (thirty_published m b a) as (x4 & y4 & A4 & ->).
  destruct H as [-> | ->]; cbn [adjusted] in *; cbv zeta in *; [lia|].
  assert (S : forall d z, (month d = 2 /\ 28 <= day d -> z = 30) /\ (~ (month d = 2 /\ 28 <= day d) -> z = Z.min (day d) 30) ->
    z = if (month d =? 2) && (28 <=? day d) then 30 else Z.min (day d) 30).
  { clear. intros d z [P Q]. destruct ((month d =? 2) && (28 <=? day d)) eqn:E; [apply P|apply Q]; lia. }
  destruct A1 as [X1%S Y1%S], A2 as [X2%S Y2%S], A3 as [X3%S Y3%S], A4 as [X4%S Y4%S].
  rewrite X1, X2, X3, X4, Y1, Y2, Y3, Y4. clear. split; ring.
Qed.
Print Assumptions C25_additive.

(** "Never negative" fails: a zero-length period at the termination date of a
    30E/360 ISDA (or German) count is negative when it is the end of February. *)
Theorem C25_nonnegative_refuted :
  ~ (forall (m : thirty360_market) (d1 d2 : date), d1 <= d2 -> 0 <= thirty360_day_count m d1 d2).
Proof.
  intros H. specialize (H (ISDA (of_ymd 2023 2 28)) (of_ymd 2023 2 28) (of_ymd 2023 2 28) ltac:(lia)).
  vm_compute in H. apply H. reflexivity.
Qed.
Print Assumptions C25_nonnegative_refuted.

(** That is the only exception. *)
Theorem C25_nonnegative_partial : forall (m : thirty360_market) (d1 d2 : date), d1 <= d2 ->
  (thirty360_day_count m d1 d2 < 0 <->
   last_feb d1 /\ d2 = d1 /\ (m = ISDA d1 \/ m = German d1)).
Proof.
  intros m a b L. split.
  - intros N. destruct (is_last_of_february a) eqn:F.
    + assert (LF : last_feb a) by (apply last_feb_spec; exact F). split; [exact LF|].
      destruct (Z.eq_dec a b) as [<-|NE].
      * split; [reflexivity|].
        destruct m as [| | | |t|t|].
        5: { left. destruct (Z.eq_dec a t) as [->|K]; [reflexivity|]. exfalso.
             enough (0 <= thirty360_day_count (ISDA t) a a) by lia. apply thirty_nonneg; [lia|].
             intros t' [[= <-]|?]; [|discriminate]. tauto. }
        5: { right. destruct (Z.eq_dec a t) as [->|K]; [reflexivity|]. exfalso.
             enough (0 <= thirty360_day_count (German t) a a) by lia. apply thirty_nonneg; [lia|].
             intros t' [?|[= <-]]; [discriminate|]. tauto. }
        all: exfalso; (match type of N with ?c < 0 => enough (0 <= c) by lia end); apply thirty_nonneg;
          [lia|]; intros t' [?|?]; discriminate.
      * exfalso. enough (0 <= thirty360_day_count m a b) by lia. apply thirty_nonneg; [lia|].
        intros t _. tauto.
    + exfalso. apply last_feb_false in F. enough (0 <= thirty360_day_count m a b) by lia. apply thirty_nonneg; [lia|].
      intros t _. tauto.
  - intros (LF & -> & [-> | ->]); cbn [thirty360_day_count]; pose proof (isda_empty_negative a LF); lia.
Qed.
Print Assumptions C25_nonnegative_partial.

Theorem C25_year_fraction : forall (m : thirty360_market) (d1 d2 : date), in_range d1 -> in_range d2 ->
  finite (thirty360_year_fraction m d1 d2) /\
  f64R (thirty360_year_fraction m d1 d2) = rnd (IZR (thirty360_day_count m d1 d2) / 360).
Proof.
  intros m a b Ra Rb. pose proof (thirty_near m a b).
  pose proof (in_range_year a Ra). pose proof (in_range_year b Rb).
  pose proof (day_bounds a) as [_ ?]. pose proof (day_bounds b) as [_ ?].
  change MIN_YEAR with (-262143) in *. change MAX_YEAR with 262142 in *.
  destruct (fraction_ok (thirty360_day_count m a b) 360) as [E F]; [lia|lia|]. split; assumption.
Qed.
Print Assumptions C25_year_fraction.

(** The 30/365 count: within a month the days between, between equal days of
    two months 30 for each month, and additive; these three determine it.  It
    is never negative forwards, and its fraction divides by 365. *)
Theorem C25_thirty365 : forall d1 d2 d3 : date,
  thirty365_day_count d1 d2 + thirty365_day_count d2 d3 = thirty365_day_count d1 d3 /\
  (year d1 = year d2 -> month d1 = month d2 -> thirty365_day_count d1 d2 = d2 - d1) /\
  (day d1 = day d2 -> thirty365_day_count d1 d2 = 30 * (12 * (year d2 - year d1) + (month d2 - month d1))) /\
  (d1 <= d2 -> 0 <= thirty365_day_count d1 d2) /\
  (in_range d1 -> in_range d2 ->
    finite (thirty365_year_fraction d1 d2) /\
    f64R (thirty365_year_fraction d1 d2) = rnd (IZR (thirty365_day_count d1 d2) / 365)).
Proof.
  intros a b c. pose proof (day_bounds a) as [A1 A2]. pose proof (day_bounds b) as [B1 B2].
  assert (Q : forall x y, year x = year y -> month x = month y -> day y - day x = y - x).
  { intros x y Y M. pose proof (of_ymd_ymd x) as X. pose proof (of_ymd_ymd y) as W. rewrite of_ymd_day in X, W.
    rewrite Y, M in X. change date with Z in *. lia. }
  repeat match goal with |- _ /\ _ => split end.
  - unfold thirty365_day_count, thirty. ring.
  - intros Y M. rewrite <- (Q a b Y M). unfold thirty365_day_count, thirty. rewrite Y, M. ring.
  - intros D. unfold thirty365_day_count, thirty. rewrite D. ring.
  - intros L. pose proof (mi_mono a b L) as M. unfold thirty365_day_count, thirty.
    pose proof (mi_def a) as Ma. pose proof (mi_def b) as Mb.
    pose proof (ymd_valid a) as [Va _]. pose proof (ymd_valid b) as [Vb _].
    destruct (Z.eq_dec (mi a) (mi b)) as [E|E].
    + specialize (Q a b ltac:(lia) ltac:(lia)). change date with Z in *. lia.
    + pose proof (mlen_bounds (year a) (month a)). lia.
  - intros Ra Rb. pose proof (in_range_year a Ra). pose proof (in_range_year b Rb).
    change MIN_YEAR with (-262143) in *. change MAX_YEAR with 262142 in *.
    pose proof (ymd_valid a) as [Va _]. pose proof (ymd_valid b) as [Vb _].
    destruct (fraction_ok (thirty365_day_count a b) 365) as [E F]; [unfold thirty365_day_count, thirty; lia|lia|]. split; assumption.
Qed.
Print Assumptions C25_thirty365.

Example C25_witness :
  let a := of_ymd 2007 2 28 in let b := of_ymd 2008 2 28 in
  last_feb a /\ ~ last_feb b /\
  thirty360_day_count USA a b = 358 /\ thirty360_day_count European a b = 360 /\
  thirty360_day_count (ISDA (of_ymd 2010 1 1)) (of_ymd 2007 1 31) (of_ymd 2007 2 28) = 30 /\
  adjusted USA a b 30 28 /\
  thirty365_day_count (of_ymd 2023 1 31) (of_ymd 2023 3 2) = 31 /\ thirty365_day_count (of_ymd 2023 1 31) (of_ymd 2023 2 1) = 0.
Proof.
  cbv zeta.
  assert (A : last_feb (of_ymd 2007 2 28)) by (split; reflexivity).
  assert (B : ~ last_feb (of_ymd 2008 2 28)) by (intros [_ H]; vm_compute in H; discriminate H).
  split; [exact A|]. split; [exact B|]. split; [reflexivity|]. split; [reflexivity|]. split; [reflexivity|].
  split; [cbn [adjusted]; repeat split; intros; try tauto; try reflexivity|]. split; reflexivity.
Qed.

(** * C26: Actual/365 (No Leap) *)
Theorem C26_no_leap_refuted :
  ~ (forall d1 d2 : date, d1 <= d2 ->
     act365_day_count (Some Act365NoLeap) d1 d2 = (d2 - d1) - leap_days_passed d1 d2).
Proof.
  intros H. specialize (H (of_ymd 2023 11 30) (of_ymd 2023 12 1)). vm_compute in H.
  assert (X : 11%Z = 1%Z) by (apply H; discriminate). discriminate X.
Qed.
Print Assumptions C26_no_leap_refuted.

(** The December entry of the month table is ten days too large. *)
Theorem C26_no_leap_partial : forall d1 d2 : date, d1 <= d2 ->
  act365_day_count (Some Act365NoLeap) d1 d2
  = (d2 - d1) - leap_days_passed d1 d2
    + (if month d2 =? 12 then 10 else 0) - (if month d1 =? 12 then 10 else 0).
Proof.
  intros a b L. cbn [act365_day_count]. rewrite nl_count by exact L.
  unfold leap_days_passed, feb29, december. destruct (month b =? 12), (month a =? 12); unfold date in *; lia.
Qed.
Print Assumptions C26_no_leap_partial.

(** Whatever the table says, the count is a difference of serial numbers. *)
Theorem C26_additive : forall d1 d2 d3 : date,
  let n := act365_day_count (Some Act365NoLeap) in
  n d1 d2 + n d2 d3 = n d1 d3 /\ n d2 d1 = - n d1 d2.
Proof. intros a b c. cbn [act365_day_count]. unfold nl_day_count. lia. Qed.
Print Assumptions C26_additive.

Example C26_witness :
  let a := of_ymd 2023 3 15 in let b := of_ymd 2024 3 15 in
  a <= b /\ b - a = 366 /\ leap_days_passed a b = 1 /\ act365_day_count (Some Act365NoLeap) a b = 365.
Proof. cbv zeta. repeat split; vm_compute; congruence. Qed.

(** * C27: Actual/Actual (ISDA) *)
Theorem C27_isda_refuted :
  ~ (forall (d1 d2 : date) v, in_range d1 -> in_range d2 -> d1 < d2 ->
     actact_year_fraction (Some ActActIsda) d1 d2 = Ok v -> (0 < f64R v)%R).
Proof.
  intros H.
  assert (Ra : in_range (of_ymd 2023 1 1)) by (rewrite in_range_val; vm_compute; split; intros; discriminate).
  assert (Rb : in_range (of_ymd 2024 1 1)) by (rewrite in_range_val; vm_compute; split; intros; discriminate).
  destruct (isda_value (of_ymd 2023 1 1) (of_ymd 2024 1 1) Ra Rb ltac:(vm_compute; discriminate) ltac:(vm_compute; reflexivity))
    as (v & E & F & B).
  specialize (H (of_ymd 2023 1 1) (of_ymd 2024 1 1) v Ra Rb ltac:(vm_compute; reflexivity) E).
  rewrite <- actact_isda_pos in B by (vm_compute; intros; discriminate).
  unfold actact_isda in B.
  replace (days_in_leap_years (of_ymd 2023 1 1) (of_ymd 2024 1 1)) with 0 in B by (vm_compute; reflexivity).
  replace (days_in_common_years (of_ymd 2023 1 1) (of_ymd 2024 1 1)) with 365 in B by (vm_compute; reflexivity).
  change (year (of_ymd 2024 1 1) - year (of_ymd 2023 1 1) - 1) with 0 in B.
  apply Rabs_le_inv in B. lra.
Qed.
Print Assumptions C27_isda_refuted.

(** What it computes instead: twice the number of whole years between, minus
    the true fraction (both year-end pieces enter with the wrong sign). *)
Theorem C27_isda_partial : forall d1 d2 : date,
  in_range d1 -> in_range d2 -> d1 < d2 -> year d1 < MAX_YEAR ->
  exists v, actact_year_fraction (Some ActActIsda) d1 d2 = Ok v /\ finite v /\
  (Rabs (f64R v - (2 * IZR (year d2 - year d1 - 1) - actact_isda d1 d2)) <= / 1000000000)%R.
Proof.
  intros a b Ra Rb L Y. destruct (isda_value a b Ra Rb ltac:(lia) Y) as (v & E & F & B).
  exists v. split; [exact E|]. split; [exact F|]. rewrite actact_isda_pos by lia. exact B.
Qed.
Print Assumptions C27_isda_partial.

(** The other order: +the true fraction minus twice the years. *)
Theorem C27_isda_reversed : forall d1 d2 : date,
  in_range d1 -> in_range d2 -> d2 < d1 -> year d1 < MAX_YEAR ->
  exists v, actact_year_fraction (Some ActActIsda) d1 d2 = Ok v /\ finite v /\
  (Rabs (f64R v - (actact_isda d2 d1 - 2 * IZR (year d1 - year d2 + 1))) <= / 1000000000)%R.
Proof.
  intros a b Ra Rb L Y. destruct (isda_value a b Ra Rb ltac:(lia) Y) as (v & E & F & B).
  exists v. split; [exact E|]. split; [exact F|]. rewrite (actact_isda_pos b a) by lia.
  replace (2 * IZR (year b - year a - 1) - (year_pos b - year_pos a))%R
    with (year_pos a - year_pos b - 2 * IZR (year a - year b + 1))%R in B; [exact B|].
  rewrite plus_IZR, !minus_IZR. lra.
Qed.
Print Assumptions C27_isda_reversed.

(** A start date in the last representable year panics. *)
Theorem C27_isda_last_year : forall d1 d2 : date, d1 <> d2 -> year d1 = MAX_YEAR ->
  actact_year_fraction (Some ActActIsda) d1 d2 = Panic PUnwrap /\
  actact_year_fraction (Some ActActIsda) d1 d1 = Ok (f64_of_Z 0).
Proof.
  intros a b N Y. cbn [actact_year_fraction]. unfold isda_year_fraction.
  replace (a =? b) with false by (symmetry; now apply Z.eqb_neq).
  rewrite from_ymd_opt_none by lia. rewrite Z.eqb_refl. split; reflexivity.
Qed.
Print Assumptions C27_isda_last_year.

Example C27_witness :
  let a := of_ymd 2023 7 1 in let b := of_ymd 2024 7 1 in
  in_range a /\ in_range b /\ a < b /\ year a < MAX_YEAR /\
  days_in_leap_years a b = 182 /\ days_in_common_years a b = 184.
Proof. cbv zeta. rewrite !in_range_val. repeat split; vm_compute; try reflexivity; intros; discriminate. Qed.

(** * C28: Business/252 *)
Definition always_open : calendar := fun _ => Ok true.

Theorem C28_business252_refuted :
  ~ (forall (c : calendar) (d1 d2 : date), in_range d1 -> in_range d2 -> d1 < d2 ->
     (forall d, opened c d) -> exists i j, 0 <= i <= 1 /\ 0 <= j <= 1 /\
     b252_day_count c d1 d2 = Ok (open_days c (d1 + i) (d2 + j))).
Proof.
  intros H.
  assert (Ra : in_range (of_ymd 2023 1 15)) by (rewrite in_range_val; vm_compute; split; intros; discriminate).
  assert (Rb : in_range (of_ymd 2023 3 10)) by (rewrite in_range_val; vm_compute; split; intros; discriminate).
  destruct (H always_open (of_ymd 2023 1 15) (of_ymd 2023 3 10) Ra Rb ltac:(vm_compute; reflexivity) ltac:(reflexivity))
    as (i & j & Hi & Hj & E).
  destruct (b252_months always_open (of_ymd 2023 1 15) (of_ymd 2023 3 10) Ra Rb ltac:(vm_compute; reflexivity))
    as (f & rest & MS & E').
  - intros [_ K]. vm_compute in K. discriminate K.
  - vm_compute. discriminate.
  - intros x _. left. reflexivity.
  - rewrite E' in E. rewrite <- MS in E.
    apply (f_equal (fun o => match o with Ok b => b | _ => 0 end)) in E. cbv beta iota in E.
    replace (zsum (map (fun x : Z => open_days always_open (x + 1) (of_ymd 2023 3 10)) (month_starts (of_ymd 2023 1 15) (of_ymd 2023 3 10)))) with 44 in E
      by (vm_compute; reflexivity).
    assert (F : f = of_ymd 2023 2 1).
    { assert (K : hd 0 (month_starts (of_ymd 2023 1 15) (of_ymd 2023 3 10)) = f) by (rewrite MS; reflexivity).
      rewrite <- K. vm_compute. reflexivity. }
    rewrite F in E.
    replace (open_days always_open (of_ymd 2023 1 15 + 1) (of_ymd 2023 2 1)) with 16 in E by (vm_compute; reflexivity).
    pose proof (open_days_le always_open (of_ymd 2023 1 15 + i) (of_ymd 2023 3 10 + j)) as B.
    assert (D : of_ymd 2023 3 10 = of_ymd 2023 1 15 + 54) by (vm_compute; reflexivity).
    unfold date in *. rewrite D in *. lia.
Qed.
Print Assumptions C28_business252_refuted.

(** Within one month: the business days strictly between the dates. *)
Theorem C28_same_month_partial : forall (c : calendar) (d1 d2 : date),
  d1 < d2 -> in_range d1 -> in_range d2 -> same_month d1 d2 -> answers c (d1 + 1) d2 ->
  b252_day_count c d1 d2 = Ok (open_days c (d1 + 1) d2).
Proof. exact b252_same_month. Qed.
Print Assumptions C28_same_month_partial.

(** Over several months: the days up to the first month start, then for every
    month start the days from there to the END of the whole period, so each
    later month is counted again for every month start before it; the month
    starts themselves are missed. *)
Theorem C28_months_partial : forall (c : calendar) (d1 d2 : date),
  in_range d1 -> in_range d2 -> d1 < d2 -> ~ same_month d1 d2 -> day d2 <> 1 -> answers c (d1 + 1) d2 ->
  exists f rest, month_starts d1 d2 = f :: rest /\
  b252_day_count c d1 d2
  = Ok (open_days c (d1 + 1) f + zsum (map (fun x => open_days c (x + 1) d2) (f :: rest))).
Proof. exact b252_months. Qed.
Print Assumptions C28_months_partial.

(** From a date to itself: every business day to the end of representable time. *)
Theorem C28_same_day : forall (c : calendar) (d : date),
  in_range d -> d < date_max -> answers c (d + 1) date_max ->
  b252_day_count c d d = Ok (open_days c (d + 1) date_max).
Proof.
  intros c d R L A. unfold b252_day_count, same_monthb. rewrite !Z.eqb_refl. cbn [andb orb].
  exact (bdb_same_day c d R L A).
Qed.
Print Assumptions C28_same_day.

(** Backwards it is the negated business-day count between, month ends included. *)
Theorem C28_backwards : forall (c : calendar) (d1 d2 : date),
  d2 < d1 -> in_range d1 -> in_range d2 -> answers c (d2 + 1) d1 ->
  b252_day_count c d1 d2 = Ok (- open_days c (d2 + 1) d1).
Proof.
  intros c a b L Ra Rb A. unfold b252_day_count. replace (b <? a) with true by lia. rewrite orb_true_r.
  rewrite bdb_antisym by lia. rewrite between_default by assumption. reflexivity.
Qed.
Print Assumptions C28_backwards.

Example C28_witness :
  let a := of_ymd 2023 1 15 in let b := of_ymd 2023 3 10 in
  in_range a /\ in_range b /\ a < b /\ ~ same_month a b /\ day b <> 1 /\ answers always_open (a + 1) b /\
  month_starts a b = [of_ymd 2023 2 1; of_ymd 2023 3 1].
Proof.
  cbv zeta. rewrite !in_range_val. split; [vm_compute; split; intros; discriminate|].
  split; [vm_compute; split; intros; discriminate|]. split; [reflexivity|].
  split; [intros [_ K]; vm_compute in K; discriminate K|]. split; [vm_compute; discriminate|].
  split; [intros x _; left; reflexivity|]. vm_compute. reflexivity.
Qed.
