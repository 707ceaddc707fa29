(** The bundle of FX market data: two curves, the forwards and the volatility
    surface, built from its parts, from raw quotes, or for linear products. *)
From Coq Require Import ZArith Bool List Reals.
Import ListNotations.
From Verif Require Import Outcome Date Calendar Fx ForwardPoints YieldCurve FxForward Swap Bootstrap VolSurface.
Open Scope Z_scope.

(** src/markets/forex/quotes/forwardpoints.rs:72-86  FXForwardHelper::with_spot_lag *)
Definition with_spot_lag (v : date) (spot : R) (lag : Z) (quotes : list fwd_quote) : fwd_helper :=
  {| fh_valuation_date := v; fh_spot_ref := spot; fh_spot_lag := lag; fh_quotes := quotes |}.
(** src/markets/forex/quotes/forwardpoints.rs:66-68  FXForwardHelper::new *)
Definition helper_new (v : date) (spot : R) (quotes : list fwd_quote) : fwd_helper := with_spot_lag v spot 2 quotes.
(** src/derivatives/forex/basic.rs:226-233  FXUnderlying::forward_helper *)
Definition pair_forward_helper (p : fx_pair) (v : date) (spot : R) (quotes : list fwd_quote) : fwd_helper :=
  with_spot_lag v spot (settles p) quotes.

(** src/markets/forex/market_context.rs:66-77  struct FxMarketContext: the fields
    of [fx_market] (FxForward.v) with the pair (domestic, foreign) and the surface. *)
Record fx_context := { xc_market : fx_market; xc_pair : currency * currency; xc_surface : vol_surface }.

(** src/markets/forex/market_context.rs:82-100  new *)
Definition fx_context_new (v : date) (spot : R) (pair : currency * currency) (dom frn : curve) (forwards : fwd_helper)
    (surface : vol_surface) : fx_context :=
  {| xc_market := {| fm_valuation_date := v; fm_spot := spot; fm_domestic := dom; fm_foreign := frn; fm_forwards := forwards |};
     xc_pair := pair; xc_surface := surface |}.

(** src/markets/forex/market_context.rs:118-154  from_raw_quotes.  [sort] and
    [brent] are as in Bootstrap.v and [sort_smiles] as in VolSurface.v.
    Simplification: the calendars and day counters stored in the curves are
    never read. *)
Definition fx_from_raw_quotes (sort : list date -> list date) (sort_smiles : list smile -> list smile)
    (brent : R -> R -> (R -> outcome R) -> outcome R) (oc : bool) (depth : positive) (now : date)
    (v : date) (spot : R) (pair : currency * currency) (dom frn : yield_market)
    (quotes : list fwd_quote) (pillars : list vol_pillar) : outcome fx_context :=
  do ds <- get_stripped_curve sort brent oc depth now dom;
  let dom_curve := {| c_valuation_date := v; stripped_curves := ds |} in
  do fs <- get_stripped_curve sort brent oc depth now frn;
  let frn_curve := {| c_valuation_date := v; stripped_curves := fs |} in
  let forwards := helper_new v spot quotes in
  do surface <- surface_new sort_smiles v pillars;
  Ok (fx_context_new v spot pair dom_curve frn_curve forwards surface).

(** src/markets/forex/market_context.rs:170-173  rate_d *)
Definition xc_rate_d (x : fx_context) (d : date) : outcome R := zero_rate (fm_domestic (xc_market x)) d.
(** src/markets/forex/market_context.rs:176-179  rate_f *)
Definition xc_rate_f (x : fx_context) (d : date) : outcome R := zero_rate (fm_foreign (xc_market x)) d.
(** src/markets/forex/market_context.rs:182-185  discount_d *)
Definition xc_discount_d (x : fx_context) (d : date) : outcome R := discount (fm_domestic (xc_market x)) d.
(** src/markets/forex/market_context.rs:188-191  discount_f *)
Definition xc_discount_f (x : fx_context) (d : date) : outcome R := discount (fm_foreign (xc_market x)) d.
(** src/markets/forex/market_context.rs:194-196  implied_vol *)
Definition xc_implied_vol (search : list smile -> Z -> nat + nat) (x : fx_context) (expiry : date) (strike : R) : outcome R :=
  surface_volatility search (xc_surface x) expiry strike.
(** src/markets/forex/market_context.rs:160-167  forward_at (FxForward.v), on the context *)
Definition xc_forward_at (sort : list (date * R) -> list (date * R)) (search : list (date * R) -> Z -> nat + nat)
    (oc : bool) (x : fx_context) (d : date) (c : calendar) : outcome R := forward_at sort search oc (xc_market x) d c.

(** src/markets/forex/market_context.rs:236-254  trivial_vol_surface *)
Definition trivial_vol_surface (sort_smiles : list smile -> list smile) (v : date) : outcome vol_surface :=
  do expiry <- add_days v 365;
  surface_new sort_smiles v
    [{| vp_expiry := expiry; vp_forward := 1;
        vp_quotes := [QAtm (10 / 100); QPut (25 / 100) (10 / 100); QCall (25 / 100) (10 / 100)] |}].

(** src/markets/forex/market_context.rs:211-229  for_linear *)
Definition for_linear (sort_smiles : list smile -> list smile) (v : date) (spot : R) (pair : currency * currency)
    (dom frn : curve) (forwards : fwd_helper) : outcome fx_context :=
  do surface <- trivial_vol_surface sort_smiles v;
  Ok (fx_context_new v spot pair dom frn forwards surface).
