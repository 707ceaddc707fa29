(** The closed-form SABR smile, over the real numbers (rounding idealised away).
    [powi] is the power by a natural number, [powf] of a positive number is [Rpower]. *)
From Coq Require Import Bool List Reals.
From Verif Require Import Outcome Processes ProcessFacts.
Open Scope R_scope.

(** src/models/forex/sabr.rs:100-108  [z_over_x] in hagan_implied_vol *)
Definition z_over_x (rho z : R) : R :=
  if Rlt_dec (Rabs z) (/ 10 ^ 8) then 1 - 1 / 2 * rho * z + 1 / 12 * (3 * rho * rho - 2) * z * z
  else
    let num := sqrt (1 - 2 * rho * z + z * z) + z - rho in
    let den := 1 - rho in
    z / ln (num / den).

(** src/models/forex/sabr.rs:78-122  hagan_implied_vol.
    Simplification: [SabrParams] holds any numbers, as its fields are public. *)
Definition hagan_implied_vol (p : sabr_params R_numbers) (forward strike t : R) : outcome R :=
  if negb (if Rlt_dec 0 forward then true else false) then Panic PAssert
  else if negb (if Rlt_dec 0 strike then true else false) then Panic PAssert
  else if negb (if Rlt_dec 0 t then true else false) then Panic PAssert
  else
    let one_minus_beta := 1 - beta p in
    let log_fk := ln (forward / strike) in
    let fk_half := powfR (forward * strike) (1 / 2 * one_minus_beta) in
    let fk_full := fk_half * fk_half in
    let z := if Rlt_dec 0 (alpha p) then nu p / alpha p * fk_half * log_fk else 0 in
    let zx := z_over_x (rho p) z in
    let log_fk_sq := log_fk * log_fk in
    let expansion_denom := 1 + one_minus_beta ^ 2 / 24 * log_fk_sq + one_minus_beta ^ 4 / 1920 * log_fk_sq * log_fk_sq in
    let time_correction := 1 + (one_minus_beta ^ 2 / 24 * alpha p * alpha p / fk_full + 1 / 4 * rho p * beta p * nu p * alpha p / fk_half + (2 - 3 * rho p * rho p) * nu p * nu p / 24) * t in
    Ok (alpha p / (fk_half * expansion_denom) * zx * time_correction).

(** src/models/forex/sabr.rs:126-141  hagan_atm_vol *)
Definition hagan_atm_vol (p : sabr_params R_numbers) (forward t : R) : R :=
  let one_minus_beta := 1 - beta p in
  let f_1mb := powfR forward one_minus_beta in
  let correction := 1 + (one_minus_beta ^ 2 / 24 * alpha p * alpha p / f_1mb ^ 2 + 1 / 4 * rho p * beta p * nu p * alpha p / f_1mb + (2 - 3 * rho p * rho p) * nu p * nu p / 24) * t in
  alpha p / f_1mb * correction.
