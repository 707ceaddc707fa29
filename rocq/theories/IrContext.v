(** The bundle of interest rate market data: a curve, an optional caplet surface
    and the currency, built from its parts or from raw quotes. *)
From Coq Require Import ZArith Bool List Reals.
Import ListNotations.
From Verif Require Import Outcome Date Fx YieldCurve FxForward Swap Bootstrap CapSurface.
Open Scope Z_scope.

(** src/markets/interestrate/volsurface.rs:73-77  struct IRCapMarketData.
    Simplification: the observers are left out (see Observers.v). *)
Record cap_market := { cm_valuation_date : date; cm_quotes : list cap_quote }.

(** src/markets/interestrate/market_context.rs:48-57  struct IrMarketContext.
    Simplification: the surface is its pillars; its [valuation_date] field
    (volsurface.rs:141) is written and never read. *)
Record ir_context := {
  ic_valuation_date : date; ic_currency : currency; ic_curve : curve; ic_caps : option (list caplet_pillar) }.

(** src/markets/interestrate/market_context.rs:60-73  new *)
Definition ir_context_new (v : date) (c : currency) (y : curve) (s : option (list caplet_pillar)) : ir_context :=
  {| ic_valuation_date := v; ic_currency := c; ic_curve := y; ic_caps := s |}.

(** src/markets/interestrate/market_context.rs:77-98  from_raw_quotes, with
    IRNormalVolSurface::new and rebuild (volsurface.rs:146-159).  [sort_quotes],
    [sort], [brent] and [brent_vol] are the standard library's sorts and the
    external root finder as in Bootstrap.v and CapSurface.v.  Simplification:
    the calendar and day counter stored in the curve are never read. *)
Definition from_raw_quotes (sort : list date -> list date) (sort_quotes : list cap_quote -> list cap_quote)
    (brent brent_vol : R -> R -> (R -> outcome R) -> outcome R) (oc : bool) (depth : positive) (now : date)
    (v : date) (c : currency) (m : yield_market) (caps : option cap_market) : outcome ir_context :=
  do stripped <- get_stripped_curve sort brent oc depth now m;
  let y := {| c_valuation_date := v; stripped_curves := stripped |} in
  do surface <- match caps with
                | Some md => do pillars <- strip_caplet_vols sort_quotes sort brent_vol y (cm_valuation_date md) (cm_quotes md);
                             Ok (Some pillars)
                | None => Ok None
                end;
  Ok (ir_context_new v c y surface).

(** src/markets/interestrate/market_context.rs:101-104  rate *)
Definition ic_rate (x : ir_context) (d : date) : outcome R := zero_rate (ic_curve x) d.
(** src/markets/interestrate/market_context.rs:107-110  discount *)
Definition ic_discount (x : ir_context) (d : date) : outcome R := discount (ic_curve x) d.
(** src/markets/interestrate/market_context.rs:114-123  caplet_vol *)
Definition ic_caplet_vol (x : ir_context) (expiry : date) (strike : R) : outcome R :=
  match ic_caps x with
  | None => Err EInvalidData
  | Some pillars => caplet_volatility pillars expiry strike
  end.

(** src/derivatives/interestrate/swap.rs:434-440, 444-448  mtm and dv01 of a swap, taking the context *)
Definition ic_swap_mtm (oc : bool) (legs : list leg) (x : ir_context) : outcome currency_value :=
  swap_mtm oc legs (ic_valuation_date x) (ic_curve x).
Definition ic_swap_dv01 (oc : bool) (legs : list leg) (x : ir_context) : outcome R :=
  swap_dv01 oc legs (ic_valuation_date x) (ic_curve x).
(** src/derivatives/interestrate/cap.rs:132-190  mtm, dv01, gamma and vega of a cap and
    src/derivatives/interestrate/basic.rs:130-137  modified_duration, taking the context *)
Definition ic_cap_mtm (cf : cap_floor) (x : ir_context) : outcome currency_value := cap_mtm cf (ic_curve x) (ic_caps x).
Definition ic_cap_dv01 (cf : cap_floor) (x : ir_context) : outcome R := cap_dv01 cf (ic_curve x) (ic_caps x).
Definition ic_cap_gamma (cf : cap_floor) (x : ir_context) (bp : R) (mode : shift_mode) : outcome R :=
  cap_gamma cf (ic_curve x) (ic_caps x) bp mode.
Definition ic_cap_vega (cf : cap_floor) (x : ir_context) (bp : R) : outcome R := cap_vega cf (ic_curve x) (ic_caps x) bp.
Definition ic_cap_modified_duration (cf : cap_floor) (x : ir_context) : outcome R :=
  cap_modified_duration cf (ic_curve x) (ic_caps x).
