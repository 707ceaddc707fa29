(** Specification vocabulary for the day counters, independent of the code. *)
From Coq Require Import ZArith Bool List Reals.
From Verif Require Import Date DayCount CalendarSpec.
Open Scope Z_scope.

(** The last day of February. *)
Definition last_feb (d : date) : Prop := month d = 2 /\ day d = mlen (year d) 2.

(** The published 30/360 day adjustments: [adjusted m a b x y] when a period
    from [a] to [b] is counted with start day [x] and end day [y].
    European = 30E/360; ISMA and NASD = 30/360 Bond Basis; USA = 30/360 US
    (with the end-of-February rules); ISDA and German = 30E/360 ISDA (the
    termination date keeps its day if it is the last day of February);
    Italian = 30E/360 with 28 and 29 February counted as the 30th. *)
Definition adjusted (m : thirty360_market) (a b : date) (x y : Z) : Prop :=
  match m with
  | European => x = Z.min (day a) 30 /\ y = Z.min (day b) 30
  | ISMA | NASD =>
      x = Z.min (day a) 30 /\
      (30 <= day a -> y = Z.min (day b) 30) /\ (day a < 30 -> y = day b)
  | USA =>
      (last_feb a -> x = 30) /\ (~ last_feb a -> x = Z.min (day a) 30) /\
      (last_feb a /\ last_feb b -> y = 30) /\
      (~ (last_feb a /\ last_feb b) -> x = 30 -> y = Z.min (day b) 30) /\
      (~ (last_feb a /\ last_feb b) -> x <> 30 -> y = day b)
  | ISDA t | German t =>
      (last_feb a -> x = 30) /\ (~ last_feb a -> x = Z.min (day a) 30) /\
      (last_feb b /\ b <> t -> y = 30) /\ (~ (last_feb b /\ b <> t) -> y = Z.min (day b) 30)
  | Italian =>
      let eff d := fun z => (month d = 2 /\ 28 <= day d -> z = 30) /\ (~ (month d = 2 /\ 28 <= day d) -> z = Z.min (day d) 30) in
      eff a x /\ eff b y
  end.

(** Days of the half-open interval [a, b) lying in leap / ordinary years. *)
Definition days_in_leap_years (a b : date) : Z :=
  Z.of_nat (length (filter (fun d => leap (year d)) (days_of a b))).
Definition days_in_common_years (a b : date) : Z :=
  Z.of_nat (length (filter (fun d => negb (leap (year d))) (days_of a b))).

(** Actual/Actual (ISDA): leap-year days over 366 plus the others over 365. *)
Definition actact_isda (a b : date) : R :=
  (IZR (days_in_leap_years a b) / 366 + IZR (days_in_common_years a b) / 365)%R.

(** 29 Februaries among the days after [a] up to and including [b]. *)
Definition leap_days_passed (a b : date) : Z :=
  Z.of_nat (length (filter (fun d => (month d =? 2) && (day d =? 29)) (days_of (a + 1) (b + 1)))).

(** The first days of months after [a] up to and including [b]. *)
Definition month_starts (a b : date) : list date :=
  filter (fun d => day d =? 1) (days_of (a + 1) (b + 1)).
Definition zsum (l : list Z) : Z := fold_right Z.add 0 l.
