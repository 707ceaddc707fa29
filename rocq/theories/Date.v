(** Calendar dates: the part of chrono's [NaiveDate] that finquant uses.

    finquant (Cargo.toml:16) depends on chrono 0.4.41.  chrono is not part of
    /repo, so this file models its documented contract: a [NaiveDate] is a day
    of the proleptic Gregorian calendar, between [NaiveDate::MIN]
    (-262143-01-01) and [NaiveDate::MAX] (262142-12-31).

    A date is represented by its day number counted from the common era
    (chrono's [num_days_from_ce]): 0001-01-01 is day 1.  Year, month, day,
    weekday and ordinal are *computed* from the day number. *)
From Coq Require Import ZArith Lia Bool List.
From Coq Require Import ZifyBool.
From Verif Require Import Outcome.
Import ListNotations.
Open Scope Z_scope.
Ltac Zify.zify_post_hook ::= Z.div_mod_to_equations.

Definition date := Z.

(** Weekday, chrono [Weekday]. *)
Inductive weekday : Set := Mon | Tue | Wed | Thu | Fri | Sat | Sun.

Definition weekday_eqb (a b : weekday) : bool :=
  match a, b with
  | Mon, Mon | Tue, Tue | Wed, Wed | Thu, Thu | Fri, Fri | Sat, Sat | Sun, Sun => true
  | _, _ => false
  end.

(** ISO number of the weekday from Monday (0) to Sunday (6); chrono
    [Weekday::num_days_from_monday]. *)
Definition weekday_num (w : weekday) : Z :=
  match w with Mon => 0 | Tue => 1 | Wed => 2 | Thu => 3 | Fri => 4 | Sat => 5 | Sun => 6 end.

Definition weekday_of_num (n : Z) : weekday :=
  if n =? 0 then Mon else if n =? 1 then Tue else if n =? 2 then Wed
  else if n =? 3 then Thu else if n =? 4 then Fri else if n =? 5 then Sat else Sun.

(** chrono [Datelike::weekday]; 0001-01-01 was a Monday. *)
Definition weekday_of (d : date) : weekday := weekday_of_num ((d - 1) mod 7).

(** Gregorian leap years, chrono [NaiveDate::leap_year]. *)
Definition leap (y : Z) : bool :=
  (y mod 4 =? 0) && (negb (y mod 100 =? 0) || (y mod 400 =? 0)).

(** Length of a month. *)
Definition mlen (y m : Z) : Z :=
  if m =? 2 then (if leap y then 29 else 28)
  else if (m =? 4) || (m =? 6) || (m =? 9) || (m =? 11) then 30
  else 31.

(** Day number of a civil date (days-from-civil algorithm, years starting in
    March); models chrono [NaiveDate::from_ymd_opt] on valid input. *)
Definition of_ymd (y m d : Z) : date :=
  let y' := if m <=? 2 then y - 1 else y in
  let era := y' / 400 in
  let yoe := y' mod 400 in
  let mp := (m + 9) mod 12 in
  let doy := (153 * mp + 2) / 5 + d - 1 in
  let doe := yoe * 365 + yoe / 4 - yoe / 100 + doy in
  era * 146097 + doe - 305.

(** Civil date of a day number; chrono [year()], [month()], [day()]. *)
Definition ymd (n : date) : Z * Z * Z :=
  let z := n + 305 in
  let era := z / 146097 in
  let doe := z mod 146097 in
  let yoe := (doe - doe / 1460 + doe / 36524 - doe / 146096) / 365 in
  let doy := doe - (365 * yoe + yoe / 4 - yoe / 100) in
  let mp := (5 * doy + 2) / 153 in
  let d := doy - (153 * mp + 2) / 5 + 1 in
  let m := if mp <? 10 then mp + 3 else mp - 9 in
  let y := yoe + era * 400 + (if m <=? 2 then 1 else 0) in
  (y, m, d).

Definition year (n : date) : Z := fst (fst (ymd n)).
Definition month (n : date) : Z := snd (fst (ymd n)).
Definition day (n : date) : Z := snd (ymd n).
(** Day of the year, 1-based; chrono [Datelike::ordinal]. *)
Definition ordinal (n : date) : Z := n - of_ymd (year n) 1 1 + 1.

(** A civil triple that denotes a date. *)
Definition valid_ymd (y m d : Z) : Prop := 1 <= m <= 12 /\ 1 <= d <= mlen y m.
Definition valid_ymdb (y m d : Z) : bool :=
  (1 <=? m) && (m <=? 12) && (1 <=? d) && (d <=? mlen y m).

(** chrono 0.4.41 [NaiveDate::MIN] / [NaiveDate::MAX]. *)
Definition MIN_YEAR : Z := -262143.
Definition MAX_YEAR : Z := 262142.
Definition date_min : date := of_ymd MIN_YEAR 1 1.
Definition date_max : date := of_ymd MAX_YEAR 12 31.
Definition in_rangeb (d : date) : bool := (date_min <=? d) && (d <=? date_max).
Definition in_range (d : date) : Prop := date_min <= d <= date_max.

(** A day number produced by date arithmetic: panics outside the range, as
    chrono's [Add]/[Sub] impls on [NaiveDate] do ("overflowed"). *)
Definition mk_date (d : date) : outcome date :=
  if in_rangeb d then Ok d else Panic PDateRange.

(** [date + ONE_DAY] and friends: chrono [NaiveDate + TimeDelta] with a whole
    number of days. chrono additionally rejects day counts outside i32, which
    the range check already implies. *)
Definition add_days (d n : Z) : outcome date := mk_date (d + n).

(** chrono [NaiveDate::from_ymd_opt]. *)
Definition from_ymd_opt (y m d : Z) : option date :=
  if valid_ymdb y m d && (MIN_YEAR <=? y) && (y <=? MAX_YEAR)
  then Some (of_ymd y m d) else None.

(** chrono [NaiveDate::checked_add_months] / [checked_sub_months] with a signed
    number of months: same day of the month, clamped to the month's length. *)
Definition shift_months (n : date) (k : Z) : date :=
  let '(y, m, d) := ymd n in
  let mi := 12 * y + (m - 1) + k in
  let y' := mi / 12 in
  let m' := mi mod 12 + 1 in
  of_ymd y' m' (Z.min d (mlen y' m')).

Definition add_months (n : date) (k : Z) : outcome date := mk_date (shift_months n k).
