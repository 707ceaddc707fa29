(** The FX vanilla option (real arithmetic). *)
From Coq Require Import ZArith Bool List Reals.
Import ListNotations.
From Verif Require Import Outcome Ints Date Calendar Fx ForwardPoints YieldCurve FxForward Normal BlackScholes.
Open Scope R_scope.

(** src/derivatives/forex/option.rs:82-93  struct FXVanillaOption, with the two
    fields of BasicInfo (src/derivatives/basic.rs:17-23) that the pricer reads. *)
Record fx_option := {
  fo_direction : direction; fo_expiry : date; fo_asset : fx_pair; fo_type : option_type;
  fo_notional_currency : currency; fo_notional : R; fo_strike : R; fo_volatility : R }.

(** src/derivatives/forex/option.rs:98-106  struct BsContext *)
Record bs_ctx := {
  bc_forward : R; bc_spot : R; bc_strike : R; bc_year_fraction : R; bc_discount : R; bc_sqrt_v : R; bc_d1 : R }.

Section Pricing.
  (** The standard library's sort and binary search (Sorting.v). *)
  Context (sort : list (date * R) -> list (date * R)) (search : list (date * R) -> Z -> nat + nat).

  (** src/derivatives/forex/option.rs:109-139  bs_context.  Simplification: the
      square root of a negative number is NaN in Rust and zero here. *)
  Definition bs_context (oc : bool) (o : fx_option) (m : fx_market) : outcome bs_ctx :=
    do cal <- pair_calendar (fo_asset o);
    do fp <- get_forward sort search oc (fm_forwards m) (fo_expiry o) cal;
    match fp with
    | None => Err ETradeExpired
    | Some forward_points =>
        let forward := fm_spot m + forward_points / IZR (forward_points_converter (fo_asset o)) in
        let year_fraction := yf365 (fm_valuation_date m) (fo_expiry o) in
        let variance := fo_volatility o * fo_volatility o * year_fraction in
        let sqrt_v := sqrt variance in
        let d1 := (ln (forward / fo_strike o) + 1 / 2 * variance) / sqrt_v in
        do df <- discount (fm_domestic m) (fo_expiry o);
        Ok {| bc_forward := forward; bc_spot := fm_spot m; bc_strike := fo_strike o;
              bc_year_fraction := year_fraction; bc_discount := df; bc_sqrt_v := sqrt_v; bc_d1 := d1 |}
    end.

  (** src/derivatives/forex/option.rs:149-178  mtm *)
  Definition option_mtm (oc : bool) (o : fx_option) (m : fx_market) : outcome currency_value :=
    do ctx <- bs_context oc o m;
    let variance := bc_sqrt_v ctx * bc_sqrt_v ctx in
    let premium := black_scholes (bc_forward ctx) (bc_strike ctx) variance (bc_discount ctx) (fo_type o) in
    let s := - sign (fo_direction o) in
    do frn <- frn_currency (fo_asset o);
    Ok (fo_notional_currency o,
        if currency_eq_dec (fo_notional_currency o) frn
        then s * fo_notional o * premium / bc_spot ctx
        else s * fo_notional o * premium / bc_strike ctx).

  (** src/derivatives/forex/option.rs:184-193  delta *)
  Definition option_delta (oc : bool) (o : fx_option) (m : fx_market) : outcome currency_value :=
    do ctx <- bs_context oc o m;
    let w := omega (fo_type o) in
    let fwd_delta_per_unit := w * cdf (w * bc_d1 ctx) in
    do frn <- frn_currency (fo_asset o);
    Ok (frn, fo_notional o * sign (fo_direction o) * fwd_delta_per_unit).

  (** src/derivatives/forex/option.rs:197-204  gamma *)
  Definition option_gamma (oc : bool) (o : fx_option) (m : fx_market) : outcome R :=
    do ctx <- bs_context oc o m;
    if Rle_dec (bc_sqrt_v ctx) 0 then Ok 0
    else
      let gamma_per_unit := bc_discount ctx * pdf (bc_d1 ctx) / (bc_forward ctx * bc_sqrt_v ctx) in
      Ok (fo_notional o * sign (fo_direction o) * gamma_per_unit).

  (** src/derivatives/forex/option.rs:211-224  vega *)
  Definition option_vega (oc : bool) (o : fx_option) (m : fx_market) : outcome R :=
    do ctx <- bs_context oc o m;
    if Rle_dec (bc_year_fraction ctx) 0 then Ok 0
    else
      let v := bc_discount ctx * bc_forward ctx * pdf (bc_d1 ctx) * sqrt (bc_year_fraction ctx) in
      do frn <- frn_currency (fo_asset o);
      let scale := if currency_eq_dec (fo_notional_currency o) frn
                   then fo_notional o / bc_spot ctx else fo_notional o / bc_strike ctx in
      Ok (sign (fo_direction o) * scale * v / 100).
End Pricing.
