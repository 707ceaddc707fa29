(** Properties C01-C07: business-day adjustment.  Theorems only; the proofs
    are in CalendarFacts.v and AdjustFacts.v, the vocabulary ([opened],
    [closed], [first_open_from], ...) in CalendarSpec.v. *)
From Coq Require Import ZArith Lia.
From Verif Require Import Outcome Date Calendar CalendarSpec CalendarFacts AdjustFacts AdvanceFacts.
Open Scope Z_scope.

(** 2023-09-30 is a Saturday, 2023-09-29 a Friday, 2023-10-02 a Monday. *)
Definition sat : date := of_ymd 2023 9 30.
Definition fri : date := of_ymd 2023 9 29.
Definition mon : date := of_ymd 2023 10 2.

(** A calendar closed 10-20 January 2023 and at weekends. *)
Definition closure : calendar := fun d =>
  Ok (negb ((of_ymd 2023 1 10 <=? d) && (d <=? of_ymd 2023 1 20)) && negb (is_weekend d))%bool.

Theorem C01_following : forall (c : calendar) (d r : date), in_range d ->
  (adjust c d Following = Ok (Some r) <-> in_range r /\ first_open_from c d r).
Proof. exact adjust_F. Qed.
Print Assumptions C01_following.

(** [adjust] fails only when the calendar panics on an inspected date, or when
    every day up to the last representable one is a holiday. *)
Theorem C01_following_failure : forall (c : calendar) (d : date) (p : panic), in_range d ->
  (adjust c d Following = Panic p <->
   exists x, d <= x <= date_max /\ (forall y, d <= y < x -> closed c y) /\
     (c x = Panic p \/ (x = date_max /\ closed c x /\ p = PDateRange))).
Proof. exact adjust_F_panic. Qed.
Print Assumptions C01_following_failure.

Example C01_witness : in_range sat /\ adjust weekends_only sat Following = Ok (Some mon).
Proof. rewrite in_range_val. vm_compute. intuition discriminate. Qed.
Example C01_failure_witness :
  adjust (fun _ => Ok false) date_max Following = Panic PDateRange.
Proof. vm_compute. reflexivity. Qed.

Theorem C02_preceding : forall (c : calendar) (d r : date), in_range d ->
  (adjust c d Preceding = Ok (Some r) <-> in_range r /\ last_open_upto c d r).
Proof. exact adjust_P. Qed.
Print Assumptions C02_preceding.

Theorem C02_preceding_failure : forall (c : calendar) (d : date) (p : panic), in_range d ->
  (adjust c d Preceding = Panic p <->
   exists x, date_min <= x <= d /\ (forall y, x < y <= d -> closed c y) /\
     (c x = Panic p \/ (x = date_min /\ closed c x /\ p = PDateRange))).
Proof. exact adjust_P_panic. Qed.
Print Assumptions C02_preceding_failure.

Example C02_witness : in_range sat /\ adjust weekends_only sat Preceding = Ok (Some fri).
Proof. rewrite in_range_val. vm_compute. intuition discriminate. Qed.

(** Following unless it changes the month number, else Preceding. *)
Theorem C03_modified_following : forall (c : calendar) (d r : date), in_range d ->
  (adjust c d ModifiedFollowing = Ok (Some r) <->
   exists f, in_range f /\ first_open_from c d f /\
     ((month f = month d /\ r = f) \/
      (month f <> month d /\ in_range r /\ last_open_upto c d r))).
Proof. exact adjust_MF. Qed.
Print Assumptions C03_modified_following.

Theorem C03_modified_preceding : forall (c : calendar) (d r : date), in_range d ->
  (adjust c d ModifiedPreceding = Ok (Some r) <->
   exists f, in_range f /\ last_open_upto c d f /\
     ((month f = month d /\ r = f) \/
      (month f <> month d /\ in_range r /\ first_open_from c d r))).
Proof. exact adjust_MP. Qed.
Print Assumptions C03_modified_preceding.

(** If the month has a business day and the calendar opens within eleven
    months, the result is a business day of the same year and month. *)
Theorem C03_modified_following_same_month : forall (c : calendar) (d r : date), in_range d ->
  adjust c d ModifiedFollowing = Ok (Some r) ->
  (exists b, same_month b d /\ opened c b) ->
  (exists x, d <= x <= d + 334 /\ opened c x) ->
  opened c r /\ same_month r d.
Proof. exact MF_same_month. Qed.
Print Assumptions C03_modified_following_same_month.

Theorem C03_modified_preceding_same_month : forall (c : calendar) (d r : date), in_range d ->
  adjust c d ModifiedPreceding = Ok (Some r) ->
  (exists b, same_month b d /\ opened c b) ->
  (exists x, d - 334 <= x <= d /\ opened c x) ->
  opened c r /\ same_month r d.
Proof. exact MP_same_month. Qed.
Print Assumptions C03_modified_preceding_same_month.

Example C03_witness :
  adjust weekends_only sat ModifiedFollowing = Ok (Some fri) /\
  adjust weekends_only (of_ymd 2023 10 1) ModifiedPreceding = Ok (Some mon) /\
  same_month fri sat /\ opened weekends_only fri /\
  (exists x, sat <= x <= sat + 334 /\ opened weekends_only x) /\
  (exists x, sat - 334 <= x <= sat /\ opened weekends_only x).
Proof.
  split; [vm_compute; reflexivity|]. split; [vm_compute; reflexivity|].
  split; [split; vm_compute; reflexivity|]. split; [vm_compute; reflexivity|].
  split; [exists mon|exists fri]; (split; [|vm_compute; reflexivity]); vm_compute; split; discriminate.
Qed.

Theorem C04_half_month : forall (c : calendar) (d r : date), in_range d ->
  (adjust c d HalfMonthModifiedFollowing = Ok (Some r) <->
   exists f, in_range f /\ first_open_from c d f /\
     let crosses := month f <> month d \/ (day d <= 15 /\ 15 < day f) in
     ((~ crosses /\ r = f) \/ (crosses /\ in_range r /\ last_open_upto c d r))).
Proof. exact adjust_HM. Qed.
Print Assumptions C04_half_month.

Example C04_witness :
  adjust closure (of_ymd 2023 1 12) HalfMonthModifiedFollowing = Ok (Some (of_ymd 2023 1 9)) /\
  adjust closure (of_ymd 2023 1 16) HalfMonthModifiedFollowing = Ok (Some (of_ymd 2023 1 23)).
Proof. vm_compute. split; reflexivity. Qed.

(** C05 is false: on Saturday 2023-09-30 the result is Sunday 2023-10-01, which
    is itself a holiday. *)
Theorem C05_nearest_refuted :
  ~ (forall (c : calendar) (d r : date), in_range d ->
       adjust c d Nearest = Ok (Some r) ->
       opened c r /\ forall x, opened c x -> Z.abs (r - d) <= Z.abs (x - d)).
Proof.
  intros H. specialize (H weekends_only sat (of_ymd 2023 10 1)).
  assert (R : in_range sat) by (rewrite in_range_val; vm_compute; split; discriminate).
  destruct (H R ltac:(vm_compute; reflexivity)) as [O _]. vm_compute in O. discriminate.
Qed.
Print Assumptions C05_nearest_refuted.

(** What Nearest does: it finds the smallest distance [k] at which a business
    day exists, but then returns the other side whenever it can. *)
Theorem C05_nearest_partial : forall (c : calendar) (d r : date), in_range d ->
  adjust c d Nearest = Ok (Some r) ->
  exists k, 0 <= k /\ (forall i, 0 <= i < k -> closed c (d + i) /\ closed c (d - i)) /\
    ((opened c (d + k) /\ r = d - k) \/
     (closed c (d + k) /\ opened c (d - k) /\ r = d + k)).
Proof. exact nearest_spec. Qed.
Print Assumptions C05_nearest_partial.

Example C05_partial_witness : in_range sat /\
  adjust weekends_only sat Nearest = Ok (Some (of_ymd 2023 10 1)).
Proof. rewrite in_range_val. vm_compute. intuition discriminate. Qed.

Theorem C06_business_days_unchanged : forall (c : calendar) (d : date) (b : convention),
  in_range d -> opened c d -> adjust c d b = Ok (Some d).
Proof. exact adjust_open. Qed.
Print Assumptions C06_business_days_unchanged.

Theorem C06_idempotent : forall (c : calendar) (d r : date) (b : convention),
  in_range d -> b <> Nearest -> b <> Unadjusted ->
  adjust c d b = Ok (Some r) -> opened c r /\ adjust c r b = Ok (Some r).
Proof.
  exact (fun c d r b Hd Hn Hu H =>
    match adjust_result_open c d b r Hd Hn Hu H with
    | conj Ho Hr => conj Ho (adjust_open c r b Hr Ho)
    end).
Qed.
Print Assumptions C06_idempotent.

Theorem C06_unadjusted : forall (c : calendar) (d : date), adjust c d Unadjusted = Ok (Some d).
Proof. exact (fun c d => eq_refl). Qed.
Print Assumptions C06_unadjusted.

(** [adjust] never returns [None]. *)
Theorem C06_always_some : forall (c : calendar) (d : date) (b : convention) (r : option date),
  adjust c d b = Ok r -> exists x, r = Some x.
Proof. exact adjust_some. Qed.
Print Assumptions C06_always_some.

Example C06_witness : in_range fri /\ opened weekends_only fri /\
  adjust weekends_only sat ModifiedFollowing = Ok (Some fri).
Proof. rewrite in_range_val. vm_compute. intuition discriminate. Qed.

Theorem C07_monotone : forall (c : calendar) (b : convention) (d1 d2 r1 r2 : date),
  in_range d1 -> in_range d2 -> d1 <= d2 ->
  b <> Nearest ->
  (b = ModifiedFollowing \/ b = HalfMonthModifiedFollowing ->
     exists x, d1 <= x <= d1 + 334 /\ opened c x) ->
  (b = ModifiedPreceding -> exists x, d2 - 334 <= x <= d2 /\ opened c x) ->
  adjust c d1 b = Ok (Some r1) -> adjust c d2 b = Ok (Some r2) -> r1 <= r2.
Proof. exact adjust_mono. Qed.
Print Assumptions C07_monotone.

Example C07_witness : in_range fri /\ in_range sat /\ fri <= sat /\
  (exists x, fri <= x <= fri + 334 /\ opened weekends_only x) /\
  (exists x, sat - 334 <= x <= sat /\ opened weekends_only x) /\
  adjust weekends_only fri ModifiedFollowing = Ok (Some fri) /\
  adjust weekends_only sat ModifiedFollowing = Ok (Some fri).
Proof.
  rewrite !in_range_val. split; [vm_compute; split; discriminate|].
  split; [vm_compute; split; discriminate|]. split; [vm_compute; discriminate|].
  split; [exists mon; vm_compute; intuition discriminate|].
  split; [exists fri; vm_compute; intuition discriminate|].
  vm_compute. split; reflexivity.
Qed.

(** The eleven-month hypothesis cannot be dropped: with a calendar closed for a
    year, Modified Following looks only at the month *number* and jumps a year
    ahead. *)
Definition year_long_closure : calendar := fun d =>
  Ok (negb ((of_ymd 2020 1 15 <=? d) && (d <=? of_ymd 2021 1 10)))%bool.
Example C07_needs_short_closures :
  adjust year_long_closure (of_ymd 2020 1 15) ModifiedFollowing = Ok (Some (of_ymd 2021 1 11)) /\
  adjust year_long_closure (of_ymd 2020 3 1) ModifiedFollowing = Ok (Some (of_ymd 2020 1 14)).
Proof. vm_compute. split; reflexivity. Qed.
