(** Properties C19-C22: date arithmetic with tenors, settlement and near
    dates.  Theorems only. *)
From Coq Require Import ZArith Lia.
From Verif Require Import Outcome Ints Date Calendar CalendarSpec CalendarFacts AdvanceFacts PeriodFacts.
Open Scope Z_scope.

(** C19: whenever the tenor's own multiplication fits its machine type,
    [date + period] returns exactly the day [period_moves] describes, in either
    build profile, and fails when that day is not representable. *)
Theorem C19_add : forall oc (d r : date) (p : period), in_range d ->
  (oc = true \/ no_overflow p) -> period_wf p ->
  (add_period oc d p = Ok r <-> in_range r /\ period_moves 1 d p r).
Proof. exact (fun oc d r p => add_period_Ok oc d p r). Qed.
Print Assumptions C19_add.

Theorem C19_sub : forall oc (d r : date) (p : period), in_range d ->
  (oc = true \/ no_overflow p) -> period_wf p ->
  (sub_period oc d p = Ok r <-> in_range r /\ period_moves (-1) d p r).
Proof. exact (fun oc d r p => sub_period_Ok oc d p r). Qed.
Print Assumptions C19_sub.

(** The target day of a month shift exists and is unique. *)
Theorem C19_months_later_exists_unique : forall (d : date) (k : Z),
  exists r, months_later d k r /\ forall r', months_later d k r' -> r' = r.
Proof.
  exact (fun d k => ex_intro _ (shift_months d k)
    (conj (shift_months_later d k)
          (fun r' H => months_later_unique d k r' _ H (shift_months_later d k)))).
Qed.
Print Assumptions C19_months_later_exists_unique.

(** Adding then subtracting returns to the start, unless the day was clamped. *)
Theorem C19_round_trip : forall oc (d r : date) (p : period), in_range d ->
  (oc = true \/ no_overflow p) -> period_wf p ->
  day r = day d \/ (forall n, p <> Months n /\ p <> Years n) ->
  add_period oc d p = Ok r -> sub_period oc r p = Ok d.
Proof. exact (fun oc d r p => add_sub_round_trip oc d p r). Qed.
Print Assumptions C19_round_trip.

Theorem C19_years_are_twelve_months : forall oc (d : date) (n : Z), is_u32 (12 * n) = true ->
  add_period oc d (Years n) = add_period oc d (Months (12 * n)) /\
  sub_period oc d (Years n) = sub_period oc d (Months (12 * n)).
Proof. exact years_months. Qed.
Print Assumptions C19_years_are_twelve_months.

Example C19_witness :
  in_range (of_ymd 2024 1 31) /\ period_wf (Months 1) /\
  add_period true (of_ymd 2024 1 31) (Months 1) = Ok (of_ymd 2024 2 29) /\
  add_period false (of_ymd 2024 2 29) (Years 1) = Ok (of_ymd 2025 2 28) /\
  sub_period true (of_ymd 2024 3 31) (Months 1) = Ok (of_ymd 2024 2 29) /\
  add_period true (of_ymd 2024 1 31) (Weeks 2) = Ok (of_ymd 2024 2 14).
Proof. rewrite in_range_val. vm_compute. intuition discriminate. Qed.

(** C20 is false without overflow checks: 357913942 years is applied as 8
    months, and 2635249153387078803 weeks as 5 days. *)
Theorem C20_never_wrong_refuted :
  ~ (forall oc (d r : date) (p : period), in_range d -> period_wf p ->
       add_period oc d p = Ok r -> period_moves 1 d p r).
Proof.
  intros H. specialize (H false (of_ymd 2024 1 15) (of_ymd 2024 9 15) (Years 357913942)).
  rewrite in_range_val in H.
  destruct (H ltac:(vm_compute; intuition discriminate) ltac:(vm_compute; reflexivity)
              ltac:(vm_compute; reflexivity)) as [E _].
  vm_compute in E. discriminate.
Qed.
Print Assumptions C20_never_wrong_refuted.

Example C20_weeks_wrap : period_wf (Weeks 2635249153387078803) /\
  add_period false (of_ymd 2024 1 15) (Weeks 2635249153387078803) = Ok (of_ymd 2024 1 20).
Proof. vm_compute. split; reflexivity. Qed.

(** With overflow checks a wrong date is never returned, and without them only
    when the multiplication inside the tenor overflows. *)
Theorem C20_never_wrong_partial : forall oc (d r : date) (p : period), in_range d -> period_wf p ->
  (oc = true \/ no_overflow p) ->
  add_period oc d p = Ok r -> in_range r /\ period_moves 1 d p r.
Proof. exact (fun oc d r p Hd Hw Ho => proj1 (add_period_Ok oc d p r Hd Ho Hw)). Qed.
Print Assumptions C20_never_wrong_partial.

(** Scaling a tenor. *)
Theorem C20_scaling_partial : forall oc (k : Z) (p q : period),
  (oc = true \/ match p with
    | Days n | Weeks n => is_i64 (n * k) = true
    | Months n | Years n => is_u32 (n * k) = true | _ => True end) ->
  mul_period oc k p = Ok q ->
  match p with
  | Days n => q = Days (k * n) | Weeks n => q = Weeks (k * n)
  | Months n => q = Months (k * n) | Years n => q = Years (k * n)
  | _ => q = p end.
Proof. exact mul_period_Ok. Qed.
Print Assumptions C20_scaling_partial.

Example C20_partial_witness : period_wf (Years 30) /\ no_overflow (Years 30) /\
  add_period false (of_ymd 2024 1 15) (Years 30) = Ok (of_ymd 2054 1 15) /\
  mul_period true 4 (Months 3) = Ok (Months 12).
Proof. vm_compute. intuition discriminate. Qed.

(** C21.  [base] is the start date of the tenor, [s] the unadjusted end, [e]
    the last business day on or before the end of the month of [s]. *)
Theorem C21_settlement : forall oc (p : period) (v : date) (c : calendar) (lag r : Z),
  in_range v -> (oc = true \/ no_overflow p) -> period_wf p ->
  settlement_date_with_lag oc p v c lag = Ok r ->
  exists base s e,
    base = v + (match p with ON => 0 | TN => 1 | _ => lag end) /\ in_range base /\
    period_moves 1 base p s /\ in_range s /\
    last_open_upto c (last_calendar_day s) e /\
    ((e <= s /\ r = e) \/ (s < e /\ first_open_from c s r /\ r <= e)).
Proof. exact settlement_Ok. Qed.
Print Assumptions C21_settlement.

Theorem C21_settlement_open : forall oc (p : period) (v : date) (c : calendar) (r : date),
  in_range v -> (oc = true \/ no_overflow p) -> period_wf p ->
  settlement_date oc p v c = Ok r -> opened c r.
Proof. exact settlement_opened. Qed.
Print Assumptions C21_settlement_open.

Example C21_witness : in_range (of_ymd 2023 9 28) /\ period_wf (Months 1) /\
  settlement_date true (Months 1) (of_ymd 2023 9 27) weekends_only = Ok (of_ymd 2023 10 30) /\
  settlement_date true (Months 6) (of_ymd 2023 9 28) weekends_only = Ok (of_ymd 2024 3 29) /\
  settlement_date true SPOT (of_ymd 2023 9 28) weekends_only = Ok (of_ymd 2023 9 29).
Proof. rewrite in_range_val. vm_compute. intuition discriminate. Qed.

(** C22 is false: for Tom-Next from Friday 2021-10-29 the near leg rolls to
    Monday 1 November but the far leg is capped at Friday 29 October. *)
Theorem C22_legs_ordered_refuted :
  ~ (forall oc (p : period) (v : date) (c : calendar) (n f : date), in_range v -> opened c v ->
       near_date p v c = Ok (Some n) -> settlement_date oc p v c = Ok f -> n <= f).
Proof.
  intros H. specialize (H true TN (of_ymd 2021 10 29) weekends_only (of_ymd 2021 11 1) (of_ymd 2021 10 29)).
  rewrite in_range_val in H.
  apply (fun G => H ltac:(vm_compute; intuition discriminate) ltac:(vm_compute; reflexivity)
    ltac:(vm_compute; reflexivity) G); vm_compute; reflexivity.
Qed.
Print Assumptions C22_legs_ordered_refuted.

(** Exactly when it holds: the near leg's unadjusted date [b] must not be after
    the last business day [e] of the month of [b + 1]. *)
Theorem C22_legs_ordered_partial : forall oc (p : period) (v : date) (c : calendar) (lag n f : Z),
  in_range v -> (p = ON \/ p = TN \/ p = SN) ->
  near_date_with_lag p v c lag = Ok (Some n) ->
  settlement_date_with_lag oc p v c lag = Ok f ->
  exists b e, (match p with ON => b = v | TN => b = v + 1 | _ => b = v + lag end) /\
    last_open_upto c (last_calendar_day (b + 1)) e /\
    (n <= f <-> b <= e).
Proof. exact near_far. Qed.
Print Assumptions C22_legs_ordered_partial.

Theorem C22_near_date_open_partial : forall (p : period) (v : date) (c : calendar) (lag n : Z),
  in_range v -> near_date_with_lag p v c lag = Ok (Some n) ->
  exists b, (match p with ON => b = v | TN => b = v + 1 | _ => b = v + lag end) /\
    first_open_from c b n.
Proof. exact near_open. Qed.
Print Assumptions C22_near_date_open_partial.

Theorem C22_no_near_leg_partial : forall (p : period) (v : date) (c : calendar),
  p <> ON -> p <> TN -> p <> SN -> near_date p v c = Ok None.
Proof. exact (fun p v c => near_None p v c 2 eq_refl). Qed.
Print Assumptions C22_no_near_leg_partial.

Example C22_partial_witness : in_range (of_ymd 2021 10 26) /\
  near_date TN (of_ymd 2021 10 26) weekends_only = Ok (Some (of_ymd 2021 10 27)) /\
  settlement_date true TN (of_ymd 2021 10 26) weekends_only = Ok (of_ymd 2021 10 28).
Proof. rewrite in_range_val. vm_compute. intuition discriminate. Qed.
