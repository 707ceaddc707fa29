(** The FX forward contract and the part of the market context it reads. *)
From Coq Require Import ZArith Bool List Reals.
Import ListNotations.
From Verif Require Import Outcome Ints Loop Date Calendar Sorting Fx ForwardPoints YieldCurve.
Open Scope Z_scope.

(** src/derivatives/basic.rs:4-8  enum Direction *)
Inductive direction : Set := Buy | Sell.
(** [direction as i8 as f64] *)
Definition sign (d : direction) : R := match d with Buy => 1%R | Sell => (-1)%R end.

(** src/derivatives/forex/forward.rs:9-16  struct FXForward, with the two fields
    of BasicInfo (src/derivatives/basic.rs:17-23) that the pricer reads.
    Simplification: the notional currency ranges over the codes of Fx.v. *)
Record fx_forward := {
  ff_direction : direction; ff_expiry : date; ff_asset : fx_pair;
  ff_notional_currency : currency; ff_notional : R; ff_strike : R }.

(** src/markets/forex/market_context.rs:66-77  struct FxMarketContext.
    Simplification: pair and vol_surface are not read by linear products. *)
Record fx_market := {
  fm_valuation_date : date; fm_spot : R; fm_domestic : curve; fm_foreign : curve; fm_forwards : fwd_helper }.

(** src/derivatives/forex/basic.rs:252-255  struct CurrencyValue *)
Definition currency_value : Type := currency * R.

Definition currency_eq_dec (a b : currency) : {a = b} + {a <> b}.
Proof. decide equality. Defined.

Section Pricing.
  (** The standard library's sort and binary search (Sorting.v). *)
  Context (sort : list (date * R) -> list (date * R)) (search : list (date * R) -> Z -> nat + nat).

  (** src/derivatives/forex/forward.rs:19-50  FXForward::mtm *)
  Definition forward_mtm (oc : bool) (f : fx_forward) (m : fx_market) : outcome currency_value :=
    do cal <- pair_calendar (ff_asset f);
    do fp <- get_forward sort search oc (fm_forwards m) (ff_expiry f) cal;
    match fp with
    | None => Err ETradeExpired
    | Some points =>
        let outright := (fm_spot m + points / IZR (forward_points_converter (ff_asset f)))%R in
        do df <- discount (fm_domestic m) (ff_expiry f);
        do frn <- frn_currency (ff_asset f);
        let payoff :=
          if currency_eq_dec (ff_notional_currency f) frn
          then (ff_notional f * sign (ff_direction f) * (outright - ff_strike f))%R
          else (- ff_notional f / ff_strike f * sign (ff_direction f) * (outright - ff_strike f))%R in
        do dom <- dom_currency (ff_asset f);
        Ok (dom, (payoff * df)%R)
    end.

  (** src/derivatives/forex/forward.rs:54-64  FXForward::delta *)
  Definition forward_delta (f : fx_forward) (m : fx_market) : outcome currency_value :=
    do frn <- frn_currency (ff_asset f);
    let delta :=
      if currency_eq_dec (ff_notional_currency f) frn
      then (ff_notional f * sign (ff_direction f))%R
      else (- ff_notional f / ff_strike f * sign (ff_direction f))%R in
    Ok (frn, delta).

  (** src/derivatives/forex/forward.rs:66-68  FXForward::gamma *)
  Definition forward_gamma (f : fx_forward) (m : fx_market) : outcome R := Ok 0%R.

  (** src/markets/forex/market_context.rs:160-167  FxMarketContext::forward_at *)
  Definition forward_at (oc : bool) (m : fx_market) (d : date) (c : calendar) : outcome R :=
    do fp <- get_forward sort search oc (fm_forwards m) d c;
    match fp with Some v => Ok v | None => Err EInvalidData end.
End Pricing.
