(** Specification vocabulary for the calendar properties: what it means to be
    the first/last open day, and how many open days an interval contains.
    Nothing here refers to the code's own loops. *)
From Coq Require Import ZArith Bool List.
From Verif Require Import Outcome Date Calendar.
Open Scope Z_scope.

(** The calendar answers "business day" / "holiday" on [d]. *)
Definition opened (c : calendar) (d : date) : Prop := c d = Ok true.
Definition closed (c : calendar) (d : date) : Prop := c d = Ok false.
(** The calendar answers (does not panic) on every date of [a, b). *)
Definition answers (c : calendar) (a b : date) : Prop :=
  forall x, a <= x < b -> opened c x \/ closed c x.

(** [r] is the earliest open day on or after [d] / latest on or before [d]. *)
Definition first_open_from (c : calendar) (d r : date) : Prop :=
  d <= r /\ opened c r /\ forall x, d <= x < r -> closed c x.
Definition last_open_upto (c : calendar) (d r : date) : Prop :=
  r <= d /\ opened c r /\ forall x, r < x <= d -> closed c x.

(** The days of the half-open interval [a, b), and how many of them are open. *)
Definition days_of (a b : date) : list date :=
  map (fun i => a + Z.of_nat i) (seq 0 (Z.to_nat (b - a))).
Definition openb (c : calendar) (d : date) : bool :=
  match c d with Ok true => true | _ => false end.
Definition open_days (c : calendar) (a b : date) : Z :=
  Z.of_nat (length (filter (openb c) (days_of a b))).

(** Same calendar month. *)
Definition same_month (a b : date) : Prop := year a = year b /\ month a = month b.

(** [r] is [k] months after [d] (before, for negative [k]): the same day of the
    month, or the last day of the month when the month is too short. *)
Definition months_later (d : date) (k : Z) (r : date) : Prop :=
  12 * year r + month r = 12 * year d + month d + k /\
  day r = Z.min (day d) (mlen (year r) (month r)).

(** What a tenor means: [r] is [d] moved by [p], forwards ([sg] = 1) or
    backwards ([sg] = -1).  No machine integers here. *)
Definition period_moves (sg : Z) (d : date) (p : period) (r : date) : Prop :=
  match p with
  | ON | TN | SN => r = d + sg
  | SPOT => r = d
  | Days n => r = d + sg * n
  | Weeks n => r = d + sg * (7 * n)
  | Months n => months_later d (sg * n) r
  | Years n => months_later d (sg * (12 * n)) r
  end.

(** The last calendar day of the month of [d]. *)
Definition last_calendar_day (d : date) : date :=
  of_ymd (year d) (month d) (mlen (year d) (month d)).
