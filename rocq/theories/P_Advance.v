(** Properties C08-C14: moving by business days and months, counting business
    days, month ends and joint calendars.  Theorems only. *)
From Coq Require Import ZArith Lia List.
From Verif Require Import Outcome Ints Date DateFacts Calendar CalendarSpec CalendarFacts AdjustFacts AdvanceFacts JointFacts
  PeriodFacts.
Open Scope Z_scope.

(** C08: [advance] by [n] business days.  The result is open, the calendar was
    asked only about days it answers, and exactly [n] of the days passed are
    open; conversely whenever such a day exists it is returned. *)
Theorem C08_advance_forward :
  forall oc (c : calendar) (d : date) (n : Z) (b : convention) (eom : option bool) (r : date),
  in_range d -> 0 < n ->
  (advance oc c d (Days n) b eom = Ok (Some r) <->
   d < r <= date_max /\ opened c r /\ answers c (d + 1) (r + 1) /\
   open_days c (d + 1) (r + 1) = n).
Proof. exact advance_forward. Qed.
Print Assumptions C08_advance_forward.

Theorem C08_advance_backward :
  forall oc (c : calendar) (d : date) (n : Z) (b : convention) (eom : option bool) (r : date),
  in_range d -> 0 < n ->
  (advance oc c d (Days (- n)) b eom = Ok (Some r) <->
   date_min <= r < d /\ opened c r /\ answers c r d /\ open_days c r d = n).
Proof. exact advance_backward. Qed.
Print Assumptions C08_advance_backward.

Theorem C08_advance_zero :
  forall oc (c : calendar) (d : date) (b : convention) (eom : option bool),
  advance oc c d (Days 0) b eom = adjust c d b.
Proof. exact (fun oc c d b eom => eq_refl). Qed.
Print Assumptions C08_advance_zero.

(** For [n <> 0] the convention and the end-of-month flag play no role. *)
Theorem C08_flags_ignored :
  forall oc oc' (c : calendar) (d : date) (n : Z) (b b' : convention) (e e' : option bool),
  n <> 0 -> advance oc c d (Days n) b e = advance oc' c d (Days n) b' e'.
Proof. exact advance_flags. Qed.
Print Assumptions C08_flags_ignored.

Example C08_witness : in_range (of_ymd 2023 9 30) /\
  advance true weekends_only (of_ymd 2023 9 30) (Days 7) Following None
    = Ok (Some (of_ymd 2023 10 10)) /\
  advance true weekends_only (of_ymd 2023 9 30) (Days (-7)) Following None
    = Ok (Some (of_ymd 2023 9 21)).
Proof. rewrite in_range_val. vm_compute. intuition discriminate. Qed.

Theorem C09_round_trip :
  forall oc (c : calendar) (d r : date) (n : Z) (b b' : convention) (e e' : option bool),
  in_range d -> opened c d -> n <> 0 ->
  advance oc c d (Days n) b e = Ok (Some r) ->
  advance oc c r (Days (- n)) b' e' = Ok (Some d).
Proof. exact advance_round_trip. Qed.
Print Assumptions C09_round_trip.

Theorem C09_additive :
  forall oc (c : calendar) (d a x : date) (m n : Z) (b : convention) (e : option bool),
  in_range d -> (0 < m /\ 0 < n) \/ (m < 0 /\ n < 0) ->
  advance oc c d (Days m) b e = Ok (Some a) ->
  (advance oc c a (Days n) b e = Ok (Some x) <-> advance oc c d (Days (m + n)) b e = Ok (Some x)).
Proof. exact advance_additive. Qed.
Print Assumptions C09_additive.

Example C09_witness : in_range (of_ymd 2023 9 29) /\ opened weekends_only (of_ymd 2023 9 29) /\
  advance true weekends_only (of_ymd 2023 9 29) (Days 3) Following None = Ok (Some (of_ymd 2023 10 4)) /\
  advance true weekends_only (of_ymd 2023 10 4) (Days (-3)) Following None = Ok (Some (of_ymd 2023 9 29)) /\
  advance true weekends_only (of_ymd 2023 10 4) (Days 4) Following None = Ok (Some (of_ymd 2023 10 10)).
Proof. rewrite in_range_val. vm_compute. intuition discriminate. Qed.

(** C10: months and years.  [a] is the same day of the month, clamped, [n]
    (or [12 n]) months later. *)
Theorem C10_advance_months :
  forall oc (c : calendar) (d r : date) (p : period) (b : convention) (eom : option bool),
  in_range d -> period_wf p -> (oc = true \/ no_overflow p) ->
  (exists n, p = Months n \/ p = Years n) -> (eom = None \/ eom = Some false) ->
  (advance oc c d p b eom = Ok (Some r) <->
   exists a, in_range a /\ period_moves 1 d p a /\ adjust c a b = Ok (Some r)).
Proof. exact advance_months. Qed.
Print Assumptions C10_advance_months.

Theorem C10_advance_months_eom :
  forall oc (c : calendar) (d r : date) (p : period) (b : convention),
  in_range d -> period_wf p -> (oc = true \/ no_overflow p) ->
  (exists n, p = Months n \/ p = Years n) ->
  advance oc c d p b (Some true) = Ok (Some r) ->
  exists a x, in_range a /\ period_moves 1 d p a /\ adjust c a b = Ok (Some x) /\
    last_open_upto c (last_calendar_day x) r.
Proof. exact advance_months_end. Qed.
Print Assumptions C10_advance_months_eom.

Example C10_witness : in_range (of_ymd 2023 1 31) /\
  advance true weekends_only (of_ymd 2023 1 31) (Months 1) Following (Some false)
    = Ok (Some (of_ymd 2023 2 28)) /\
  advance true weekends_only (of_ymd 2023 1 20) (Months 3) Following (Some true)
    = Ok (Some (of_ymd 2023 4 28)).
Proof. rewrite in_range_val. vm_compute. intuition discriminate. Qed.

(** C11: the days counted.  [include_first = Some true] (the default) starts
    the count on the day *after* [from]. *)
Theorem C11_counts :
  forall (c : calendar) (from to : date) (f l : option bool),
  let first := match f with Some x => x | None => true end in
  let last := match l with Some x => x | None => false end in
  let a := if first then from + 1 else from in
  let b := if last then to + 1 else to in
  from <= to -> a <= b -> in_range a -> in_range b -> answers c a b ->
  business_days_between c from to f l = Ok (open_days c a b).
Proof. exact bdb_counts. Qed.
Print Assumptions C11_counts.

Theorem C11_antisymmetric :
  forall (c : calendar) (from to : date) (f l : option bool), from <> to ->
  business_days_between c to from f l = omap Z.opp (business_days_between c from to f l).
Proof. exact bdb_antisym. Qed.
Print Assumptions C11_antisymmetric.

Example C11_witness :
  let from := of_ymd 2023 9 28 in let to := of_ymd 2023 10 5 in
  in_range from /\ in_range to /\ from <= to /\
  answers weekends_only from to /\
  business_days_between weekends_only from to (Some false) (Some false) = Ok 5 /\
  business_days_between weekends_only from to None None = Ok 4 /\
  business_days_between weekends_only from to None (Some true) = Ok 5 /\
  business_days_between weekends_only to from None None = Ok (-4).
Proof.
  cbv zeta. rewrite !in_range_val. split; [vm_compute; intuition discriminate|].
  split; [vm_compute; intuition discriminate|]. split; [vm_compute; discriminate|].
  split; [|vm_compute; auto 10].
  intros x _. unfold opened, closed, weekends_only. destruct (is_weekend x); auto.
Qed.

(** C12 is false twice over.  Ten days before the last representable day the
    count of a day against itself is 5, and a first day that is open is not
    counted by [include_first = true]. *)
Theorem C12_same_day_refuted :
  ~ (forall (c : calendar) (d : date), in_range d ->
       (forall x, in_range x -> opened c x \/ closed c x) ->
       business_days_between c d d None None = Ok 0).
Proof.
  intros H. specialize (H weekends_only (95745399 - 10)).
  assert (E : business_days_between weekends_only (95745399 - 10) (95745399 - 10) None None = Ok 5)
    by (vm_compute; reflexivity).
  rewrite H in E; [discriminate|rewrite in_range_val; lia|].
  intros x _. unfold opened, closed, weekends_only. destruct (is_weekend x); auto.
Qed.
Print Assumptions C12_same_day_refuted.

Theorem C12_include_first_refuted :
  ~ (forall (c : calendar) (d : date), in_range d -> in_range (d + 1) -> opened c d ->
       business_days_between c d (d + 1) (Some true) (Some false) = Ok 1).
Proof.
  intros H. specialize (H weekends_only (of_ymd 2023 9 28)).
  rewrite !in_range_val in H.
  assert (E : business_days_between weekends_only (of_ymd 2023 9 28) (of_ymd 2023 9 28 + 1)
                (Some true) (Some false) = Ok 0) by (vm_compute; reflexivity).
  rewrite H in E; [discriminate| | |]; vm_compute; intuition discriminate.
Qed.
Print Assumptions C12_include_first_refuted.

(** What the same-day call does with the default flags: the subtraction of the
    bounds is -1, the cast to [usize] makes it 2^64 - 1, and every day up to
    the end of time is examined. *)
Theorem C12_same_day_partial :
  forall (c : calendar) (d : date), in_range d -> d < date_max ->
  answers c (d + 1) date_max ->
  business_days_between c d d (Some true) (Some false) = Ok (open_days c (d + 1) date_max).
Proof. exact bdb_same_day. Qed.
Print Assumptions C12_same_day_partial.

(** The three other flag combinations are fine on a single day. *)
Theorem C12_same_day_other_flags_partial :
  forall (c : calendar) (d : date), in_range d -> in_range (d + 1) -> opened c d \/ closed c d ->
  business_days_between c d d (Some false) (Some false) = Ok 0 /\
  business_days_between c d d (Some true) (Some true) = Ok 0 /\
  business_days_between c d d (Some false) (Some true) = Ok (if openb c d then 1 else 0).
Proof. exact bdb_same_day_other. Qed.
Print Assumptions C12_same_day_other_flags_partial.

Example C12_partial_witness : in_range (date_max - 10) /\ answers weekends_only (date_max - 9) date_max.
Proof.
  split; [rewrite in_range_val, date_max_val; lia|].
  intros x _. unfold opened, closed, weekends_only. destruct (is_weekend x); auto.
Qed.

(** C13: month ends. *)
Theorem C13_end_of_month :
  forall (c : calendar) (d r : date), in_range d -> year d < MAX_YEAR ->
  (end_of_month c d = Ok r <-> in_range r /\ last_open_upto c (last_calendar_day d) r).
Proof. exact end_of_month_Ok. Qed.
Print Assumptions C13_end_of_month.

Theorem C13_end_of_month_in_month :
  forall (c : calendar) (d r : date), in_range d -> end_of_month c d = Ok r ->
  (exists b, same_month b d /\ opened c b) -> opened c r /\ same_month r d.
Proof. exact end_of_month_in_month. Qed.
Print Assumptions C13_end_of_month_in_month.

Theorem C13_depends_on_month_only :
  forall (c : calendar) (d d' : date), in_range d -> in_range d' -> same_month d d' ->
  end_of_month c d = end_of_month c d'.
Proof. exact end_of_month_same. Qed.
Print Assumptions C13_depends_on_month_only.

(** In the last representable year the method panics for every date, even
    though the month end is representable: [unwrap_or] is eager. *)
Theorem C13_last_year_panics :
  forall (c : calendar) (d : date), in_range d -> year d = MAX_YEAR ->
  end_of_month c d = Panic PUnwrap.
Proof. exact end_of_month_last_year. Qed.
Print Assumptions C13_last_year_panics.

Example C13_witness : in_range (of_ymd 2023 9 10) /\ year (of_ymd 2023 9 10) < MAX_YEAR /\
  end_of_month weekends_only (of_ymd 2023 9 10) = Ok (of_ymd 2023 9 29) /\
  last_calendar_day (of_ymd 2023 9 10) = of_ymd 2023 9 30 /\
  same_month (of_ymd 2023 9 29) (of_ymd 2023 9 10) /\ opened weekends_only (of_ymd 2023 9 29).
Proof. rewrite in_range_val. vm_compute. intuition discriminate. Qed.

(** C14: joint calendars. *)
Theorem C14_joint_open : forall (cs : list calendar) (d : date),
  opened (joint cs) d <-> forall c, In c cs -> opened c d.
Proof. exact joint_open. Qed.
Print Assumptions C14_joint_open.

(** When every member answers, so does the joint calendar; it is closed exactly
    when some member is. *)
Theorem C14_joint_closed : forall (cs : list calendar) (d : date),
  (forall c, In c cs -> opened c d \/ closed c d) ->
  (closed (joint cs) d <-> exists c, In c cs /\ closed c d).
Proof. exact joint_closed. Qed.
Print Assumptions C14_joint_closed.

Theorem C14_joint_order_and_multiplicity : forall (cs cs' : list calendar) (d : date),
  (forall c, In c cs -> opened c d \/ closed c d) ->
  (forall c, In c cs <-> In c cs') -> joint cs d = joint cs' d.
Proof. exact joint_same_members. Qed.
Print Assumptions C14_joint_order_and_multiplicity.

Theorem C14_joint_flatten : forall (css : list (list calendar)) (d : date),
  joint (map joint css) d = joint (concat css) d.
Proof. exact joint_flatten. Qed.
Print Assumptions C14_joint_flatten.

Example C14_witness :
  joint (weekends_only :: (fun d => Ok (negb (d =? of_ymd 2023 9 29))) :: nil) (of_ymd 2023 9 29) = Ok false /\
  joint (weekends_only :: (fun d => Ok (negb (d =? of_ymd 2023 9 29))) :: nil) (of_ymd 2023 9 28) = Ok true.
Proof. vm_compute. split; reflexivity. Qed.
