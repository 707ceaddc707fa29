(** Day counters.  Counts are exact integers (an i64 never overflows on
    NaiveDate inputs: all intermediate values are below 2^40); year fractions
    are binary64 (F64.v). *)
From Coq Require Import ZArith Bool List.
Import ListNotations.
From Verif Require Import Outcome Ints Loop Date Calendar F64.
Open Scope Z_scope.

(** [(d2 - d1).num_days()]: src/time/daycounters/actual360.rs:12-15,
    actual364.rs:12-15, actual366.rs:12-15, actual365fixed.rs:18-21
    (regular_day_count), actualactual.rs:68-71 *)
Definition actual_days (d1 d2 : date) : Z := d2 - d1.

(** [day_count as f64 / basis] *)
Definition fraction (n basis : Z) : f64 := fdiv (f64_of_Z n) (f64_of_Z basis).

(** src/time/daycounters/actual360.rs:17-19  Actual360::year_fraction *)
Definition actual360 (d1 d2 : date) : f64 := fraction (actual_days d1 d2) 360.
(** src/time/daycounters/actual364.rs:17-19  Actual364::year_fraction *)
Definition actual364 (d1 d2 : date) : f64 := fraction (actual_days d1 d2) 364.
(** src/time/daycounters/actual366.rs:17-19  Actual366::year_fraction *)
Definition actual366 (d1 d2 : date) : f64 := fraction (actual_days d1 d2) 366.

(** src/time/daycounters/actual365fixed.rs:7-11  enum Actual365FixedMarket *)
Inductive act365_market : Set := Act365Standard | Act365NoLeap.

(** src/time/daycounters/actual365fixed.rs:24  MONTH_OFFSET *)
Definition MONTH_OFFSET : list Z := [0; 31; 59; 90; 120; 151; 181; 212; 243; 273; 304; 344].

(** src/time/daycounters/actual365fixed.rs:23-36  Actual365Fixed::nl_day_count.
    The index is in range because a month is 1..12. *)
Definition nl_serial (d : date) : Z :=
  let s := day d + nth (Z.to_nat (month d - 1)) MONTH_OFFSET 0 + year d * 365 in
  if (month d =? 2) && (day d =? 29) then s - 1 else s.
Definition nl_day_count (d1 d2 : date) : Z := nl_serial d2 - nl_serial d1.

(** src/time/daycounters/actual365fixed.rs:41-46  Actual365Fixed::day_count *)
Definition act365_day_count (m : option act365_market) (d1 d2 : date) : Z :=
  match m with
  | Some Act365Standard | None => actual_days d1 d2
  | Some Act365NoLeap => nl_day_count d1 d2
  end.
(** src/time/daycounters/actual365fixed.rs:48-50  Actual365Fixed::year_fraction *)
Definition act365_year_fraction (m : option act365_market) (d1 d2 : date) : f64 :=
  fraction (act365_day_count m d1 d2) 365.

(** 360 * (yy2 - yy1) + 30 * (mm2 - mm1) + (dd2 - dd1), the last line of every
    function of src/time/daycounters/thirty360.rs *)
Definition thirty (y1 m1 d1 y2 m2 d2 : Z) : Z := 360 * (y2 - y1) + 30 * (m2 - m1) + (d2 - d1).

(** src/time/daycounters/thirty365.rs:12-21  Thirty365::day_count *)
Definition thirty365_day_count (a b : date) : Z :=
  thirty (year a) (month a) (day a) (year b) (month b) (day b).
(** src/time/daycounters/thirty365.rs:23-25  Thirty365::year_fraction *)
Definition thirty365_year_fraction (a b : date) : f64 := fraction (thirty365_day_count a b) 365.

(** src/time/daycounters/thirty360.rs:28-30  Thirty360::is_last_of_february *)
Definition is_last_of_february (d : date) : bool :=
  (month d =? 2) && (day d =? 28 + (if leap (year d) then 1 else 0)).

(** src/time/daycounters/thirty360.rs:32-60  Thirty360::us_day_count *)
Definition us_day_count (a b : date) : Z :=
  let dd1 := day a in let dd2 := day b in
  let '(dd1, dd2) :=
    if is_last_of_february a then (30, if is_last_of_february b then 30 else dd2) else (dd1, dd2) in
  let dd2 := if (dd2 =? 31) && (30 <=? dd1) then 30 else dd2 in
  let dd1 := if dd1 =? 31 then 30 else dd1 in
  thirty (year a) (month a) dd1 (year b) (month b) dd2.

(** src/time/daycounters/thirty360.rs:62-77  Thirty360::isma_day_count *)
Definition isma_day_count (a b : date) : Z :=
  let dd1 := day a in let dd2 := day b in
  let dd1 := if dd1 =? 31 then 30 else dd1 in
  let dd2 := if (dd2 =? 31) && (dd1 =? 30) then 30 else dd2 in
  thirty (year a) (month a) dd1 (year b) (month b) dd2.

(** src/time/daycounters/thirty360.rs:79-93  Thirty360::eu_day_count *)
Definition eu_day_count (a b : date) : Z :=
  let dd1 := day a in let dd2 := day b in
  let dd1 := if dd1 =? 31 then 30 else dd1 in
  let dd2 := if dd2 =? 31 then 30 else dd2 in
  thirty (year a) (month a) dd1 (year b) (month b) dd2.

(** src/time/daycounters/thirty360.rs:95-115  Thirty360::italy_day_count *)
Definition italy_day_count (a b : date) : Z :=
  let dd1 := day a in let dd2 := day b in
  let dd1 := if dd1 =? 31 then 30 else dd1 in
  let dd2 := if dd2 =? 31 then 30 else dd2 in
  let dd1 := if (month a =? 2) && (27 <? dd1) then 30 else dd1 in
  let dd2 := if (month b =? 2) && (27 <? dd2) then 30 else dd2 in
  thirty (year a) (month a) dd1 (year b) (month b) dd2.

(** src/time/daycounters/thirty360.rs:117-138  Thirty360::isda_day_count *)
Definition isda_day_count (a b termination : date) : Z :=
  let dd1 := day a in let dd2 := day b in
  let dd1 := if dd1 =? 31 then 30 else dd1 in
  let dd2 := if dd2 =? 31 then 30 else dd2 in
  let dd1 := if is_last_of_february a then 30 else dd1 in
  let dd2 := if negb (b =? termination) && is_last_of_february b then 30 else dd2 in
  thirty (year a) (month a) dd1 (year b) (month b) dd2.

(** src/time/daycounters/thirty360.rs:140-160  Thirty360::nasd_day_count *)
Definition nasd_day_count (a b : date) : Z :=
  let dd1 := day a in let dd2 := day b in let mm2 := month b in
  let dd1 := if dd1 =? 31 then 30 else dd1 in
  let dd2 := if (dd2 =? 31) && (30 <=? dd1) then 30 else dd2 in
  let '(dd2, mm2) := if (dd2 =? 31) && (dd1 <? 30) then (1, mm2 + 1) else (dd2, mm2) in
  thirty (year a) (month a) dd1 (year b) mm2 dd2.

(** src/time/daycounters/thirty360.rs:9-17  enum Thirty360Market *)
Inductive thirty360_market : Set :=
| USA | European | Italian | ISMA | ISDA (termination : date) | German (termination : date) | NASD.

(** src/time/daycounters/thirty360.rs:173-189  Thirty360::day_count *)
Definition thirty360_day_count (m : thirty360_market) (a b : date) : Z :=
  match m with
  | USA => us_day_count a b
  | European => eu_day_count a b
  | Italian => italy_day_count a b
  | ISMA => isma_day_count a b
  | ISDA t => isda_day_count a b t
  | German t => isda_day_count a b t
  | NASD => nasd_day_count a b
  end.
(** src/time/daycounters/thirty360.rs:191-193  Thirty360::year_fraction *)
Definition thirty360_year_fraction (m : thirty360_market) (a b : date) : f64 :=
  fraction (thirty360_day_count m a b) 360.

(** src/time/daycounters/actualactual.rs:20-34  ActualActual::isda_year_fraction.
    [from_ymd_opt(y1 + 1, 1, 1).unwrap()] panics when y1 is the last year. *)
Definition isda_year_fraction (d1 d2 : date) : outcome f64 :=
  if d1 =? d2 then Ok (f64_of_Z 0)
  else
    let y1 := year d1 in let y2 := year d2 in
    let dib1 := if leap y1 then f64_of_Z 366 else f64_of_Z 365 in
    let dib2 := if leap y2 then f64_of_Z 366 else f64_of_Z 365 in
    let sum := fsub (f64_of_Z (y2 - y1)) (f64_of_Z 1) in
    do n <- ounwrap (from_ymd_opt (y1 + 1) 1 1);
    let sum := fadd sum (fdiv (f64_of_Z (d1 - n)) dib1) in
    do n <- ounwrap (from_ymd_opt y2 1 1);
    Ok (fadd sum (fdiv (f64_of_Z (n - d2)) dib2)).

(** One pass of the loop at src/time/daycounters/actualactual.rs:43-52; the
    state is ([new_d2], [temp], [sum]).  [sum] counts whole years in f64, all
    exact, so it is kept as an integer and converted at the end. *)
Definition euro_step (d1 : date) (s : date * date * Z) : (date * date * Z) + outcome (date * Z) :=
  let '(new_d2, temp, sum) := s in
  if negb (d1 <? temp) then inr (Ok (new_d2, sum))
  else
    match (do t <- add_months new_d2 (-12);
           if (day t =? 28) && (month t =? 2) && leap (year t) then add_days t 1 else Ok t) with
    | Ok t => if d1 <=? t then inl (t, t, sum + 1) else inl (new_d2, t, sum)
    | Err e => inr (Err e)
    | Panic p => inr (Panic p)
    end.

(** src/time/daycounters/actualactual.rs:36-67  ActualActual::euro_year_fraction *)
Definition euro_year_fraction (d1 d2 : date) : outcome f64 :=
  if d1 =? d2 then Ok (f64_of_Z 0)
  else
    do r <- finish (loop date_fuel (euro_step d1) (d2, d2, 0));
    let '(new_d2, sum) := r in
    do den <- (if leap (year new_d2)
               then do t <- ounwrap (from_ymd_opt (year new_d2) 2 29);
                    Ok (if (t <? new_d2) && (d1 <=? t) then 366 else 365)
               else if leap (year d1)
               then do t <- ounwrap (from_ymd_opt (year d1) 2 29);
                    Ok (if (t <? new_d2) && (d1 <=? t) then 366 else 365)
               else Ok 365);
    Ok (fadd (f64_of_Z sum) (fdiv (f64_of_Z (d1 - new_d2)) (f64_of_Z den))).

(** src/time/daycounters/actualactual.rs:9-12  enum ActualActualMarket *)
Inductive actact_market : Set := ActActIsda | ActActEuro.

(** src/time/daycounters/actualactual.rs:73-78  ActualActual::year_fraction *)
Definition actact_year_fraction (m : option actact_market) (d1 d2 : date) : outcome f64 :=
  match m with
  | Some ActActIsda | None => isda_year_fraction d1 d2
  | Some ActActEuro => euro_year_fraction d1 d2
  end.

(** src/time/daycounters/business252.rs:15-17  Business252::same_month *)
Definition same_monthb (a b : date) : bool := (year a =? year b) && (month a =? month b).

(** src/time/daycounters/business252.rs:27-30  the while loop; state ([d], [total]) *)
Definition b252_step (c : calendar) (d2 : date) (s : date * Z) : (date * Z) + outcome (date * Z) :=
  let '(d, total) := s in
  if same_monthb d d2 then inr (Ok (d, total))
  else match (do n <- business_days_between c d d2 None None;
              do d' <- add_months d 1; Ok (d', total + n)) with
       | Ok s' => inl s'
       | Err e => inr (Err e)
       | Panic p => inr (Panic p)
       end.

(** src/time/daycounters/business252.rs:21-36  Business252::day_count *)
Definition b252_day_count (c : calendar) (d1 d2 : date) : outcome Z :=
  if same_monthb d1 d2 || (d2 <? d1) then business_days_between c d1 d2 None None
  else
    do f <- ounwrap (from_ymd_opt (year d1) (month d1) 1);
    do d <- add_months f 1;
    do n <- business_days_between c d1 d None None;
    do r <- finish (loop date_fuel (b252_step c d2) (d, n));
    let '(d, total) := r in
    do n <- business_days_between c d d2 None None;
    Ok (total + n).

(** src/time/daycounters/business252.rs:38-41  Business252::year_fraction *)
Definition b252_year_fraction (c : calendar) (d1 d2 : date) : outcome f64 :=
  do n <- b252_day_count c d1 d2; Ok (fraction n 252).

(** [x.round() as i64]: round half away from zero, then the saturating cast
    (NaN becomes 0). *)
Definition f64_round_i64 (x : f64) : Z :=
  match x with
  | BinarySingleNaN.B754_nan => 0
  | BinarySingleNaN.B754_zero _ => 0
  | BinarySingleNaN.B754_infinity s => if s then i64_min else i64_max
  | BinarySingleNaN.B754_finite s m e _ =>
      let a := if 0 <=? e then Z.pos m * 2 ^ e else (2 * Z.pos m + 2 ^ (- e)) / (2 * 2 ^ (- e)) in
      Z.max i64_min (Z.min i64_max (if s then - a else a))
  end.

(** src/time/daycounters.rs:22-26  DayCounters::year_fraction_to_date, over the
    implementor's [year_fraction]; 365.25 is 1461 / 4. *)
Definition year_fraction_to_date (oc : bool) (yf : date -> date -> outcome f64) (ref : date) (t : f64) : outcome date :=
  let k := f64_lit 1461 (-2) in
  do guess <- add_period oc ref (Days (f64_round_i64 (fmul t k)));
  do gt <- yf ref guess;
  add_period oc guess (Days (f64_round_i64 (fmul (fsub t gt) k))).
