(** The stripped yield curve.  Rates and discount factors are real numbers
    (rounding idealised away); dates are exact.  Division by zero in Rust gives
    an infinity or NaN; in the model it gives an unspecified real, so theorems
    that divide carry the hypothesis that the divisor is not zero. *)
From Coq Require Import ZArith Bool List Reals.
Import ListNotations.
From Verif Require Import Outcome Ints Loop Date Calendar.
Open Scope Z_scope.

(** src/markets/termstructures/yieldcurve.rs:31-36  enum InterestRateQuoteEnum *)
Inductive quote_source : Set := SourceOIS | SourceFutures | SourceSwap.
Definition quote_source_eqb (a b : quote_source) : bool :=
  match a, b with
  | SourceOIS, SourceOIS | SourceFutures, SourceFutures | SourceSwap, SourceSwap => true
  | _, _ => false
  end.

(** src/markets/termstructures/yieldcurve.rs:78-88  struct StrippedCurve *)
Record pillar := {
  first_settle_date : date;
  p_date : date;
  market_rate : R;
  p_zero_rate : R;
  p_discount : R;
  source : quote_source;
  hidden_pillar : bool }.

(** The derived [PartialEq] (line 78): all fields are compared. *)
Definition Reqb (x y : R) : bool := if Req_EM_T x y then true else false.
Definition pillar_eqb (a b : pillar) : bool :=
  (first_settle_date a =? first_settle_date b) && (p_date a =? p_date b) &&
  Reqb (market_rate a) (market_rate b) && Reqb (p_zero_rate a) (p_zero_rate b) &&
  Reqb (p_discount a) (p_discount b) && quote_source_eqb (source a) (source b) &&
  Bool.eqb (hidden_pillar a) (hidden_pillar b).

(** src/markets/termstructures/yieldcurve.rs:196-202  struct YieldTermStructure.
    Simplification: its [calendar] and [day_counter] fields are never read. *)
Record curve := { c_valuation_date : date; stripped_curves : list pillar }.

(** src/time/daycounters/actual365fixed.rs:48-50 with the default market, as a
    real number: the number of days over 365. *)
Definition yf365 (d1 d2 : date) : R := (IZR (d2 - d1) / 365)%R.

(** src/markets/termstructures/yieldcurve.rs:224-230  the first loop: [second] is
    the first visible pillar on or after the target, [first] the entry before
    it; without a break [first] ends as the last entry. *)
Fixpoint scan_pillars (target : date) (first second : pillar) (l : list pillar) : pillar * pillar :=
  match l with
  | [] => (first, second)
  | c :: r => if (target <=? p_date c) && negb (hidden_pillar c) then (first, c)
              else scan_pillars target c second r
  end.

(** src/markets/termstructures/yieldcurve.rs:219-244  step_function_forward_zero_rate.
    [InterpolationMethodEnum] is not modelled: both variants call this function
    (lines 247-259). *)
Definition zero_rate (y : curve) (d : date) : outcome R :=
  do target <- add_days d 1;
  match stripped_curves y with
  | [] => Panic PUnwrap
  | head :: _ =>
      let '(first, second) := scan_pillars target head head (stripped_curves y) in
      let true_first := match find (fun c => negb (hidden_pillar c)) (stripped_curves y) with
                        | Some c => c | None => head end in
      if pillar_eqb second true_first then Ok (p_zero_rate true_first)
      else
        let d1 := IZR (target - p_date first) in
        let d2 := IZR (p_date second - target) in
        Ok ((d1 * p_zero_rate second + d2 * p_zero_rate first) / (d1 + d2))%R
  end.

(** src/markets/termstructures/yieldcurve.rs:262-270  discount *)
Definition discount (y : curve) (d : date) : outcome R :=
  do z <- zero_rate y d;
  Ok (exp (- z * yf365 (c_valuation_date y) d))%R.

(** src/markets/termstructures/yieldcurve.rs:279-288  shifted_discount *)
Definition shifted_discount (y : curve) (d : date) (shift_bp : R) : outcome R :=
  do base <- discount y d;
  Ok (base * exp (- shift_bp * (1 / 10000) * yf365 (c_valuation_date y) d))%R.

(** src/markets/termstructures/yieldcurve.rs:291-311  forward_rate *)
Definition forward_rate (oc : bool) (y : curve) (start : date) (tenor : period) : outcome R :=
  do e <- add_period oc start tenor;
  let yf1 := yf365 (c_valuation_date y) start in
  let yf2 := yf365 (c_valuation_date y) e in
  do z1 <- zero_rate y start;
  do z2 <- zero_rate y e;
  Ok (ln (exp (- z1 * yf1) / exp (- z2 * yf2)) / (yf2 - yf1))%R.

(** src/markets/termstructures/yieldcurve.rs:50-75
    InterestRateQuote::retrieve_related_stripped_curve *)
Fixpoint scan_related (target : date) (first second : pillar) (l : list pillar) : pillar * pillar :=
  match l with
  | [] => (first, second)
  | c :: r => if (first_settle_date c <? target) && (target <=? p_date c) then (first, c)
              else scan_related target c second r
  end.
Definition related_pillar (l : list pillar) (target : date) : outcome pillar :=
  match l with
  | [] => Panic PUnwrap
  | head :: _ =>
      let '(first, second) := scan_related target head head l in
      let first := if pillar_eqb second head then head else first in
      Ok (if p_date second - target <=? target - p_date first then second else first)
  end.
