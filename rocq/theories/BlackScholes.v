(** The Black and Bachelier formulas and the implied volatility, over the real
    numbers (rounding left out).  Rust's [ln] of a non-positive number and division
    by zero give NaN or infinities; here they are unspecified reals, so theorems
    carry positivity hypotheses where they matter. *)
From Coq Require Import Reals.
From Verif Require Import Normal.
Open Scope R_scope.

(** src/models/common/black_scholes.rs:18-26  bs_call_forward *)
Definition bs_call_forward (forward strike sigma t discount : R) : R :=
  if Rle_dec sigma 0 then discount * Rmax (forward - strike) 0
  else if Rle_dec t 0 then discount * Rmax (forward - strike) 0
  else
    let sqrt_t := sqrt t in
    let d1 := (ln (forward / strike) + 1 / 2 * sigma * sigma * t) / (sigma * sqrt_t) in
    let d2 := d1 - sigma * sqrt_t in
    discount * (forward * cdf d1 - strike * cdf d2).

(** src/models/common/black_scholes.rs:29-37  bs_put_forward *)
Definition bs_put_forward (forward strike sigma t discount : R) : R :=
  if Rle_dec sigma 0 then discount * Rmax (strike - forward) 0
  else if Rle_dec t 0 then discount * Rmax (strike - forward) 0
  else
    let sqrt_t := sqrt t in
    let d1 := (ln (forward / strike) + 1 / 2 * sigma * sigma * t) / (sigma * sqrt_t) in
    let d2 := d1 - sigma * sqrt_t in
    discount * (strike * cdf (- d2) - forward * cdf (- d1)).

(** src/models/common/black_scholes.rs:81-96  the bisection loop; [n] iterations
    are left (200 at the start). *)
Fixpoint bisect (n : nat) (pricer : R -> R) (target tol lo hi : R) : R :=
  match n with
  | O => 1 / 2 * (lo + hi)
  | S n =>
      let mid := 1 / 2 * (lo + hi) in
      if Rlt_dec (hi - lo) (/ 10 ^ 12) then mid
      else
        let p := pricer mid in
        if Rlt_dec (Rabs (p - target)) tol then mid
        else if Rlt_dec p target then bisect n pricer target tol mid hi
        else bisect n pricer target tol lo mid
  end.

(** src/models/common/black_scholes.rs:57-98  bs_implied_vol_tol *)
Definition bs_implied_vol_tol (target forward strike t discount : R) (is_call : bool) (tol : R) : option R :=
  let pricer := fun sigma => if is_call then bs_call_forward forward strike sigma t discount
                             else bs_put_forward forward strike sigma t discount in
  let lo := / 10 ^ 8 in
  let hi := 5 in
  if Rlt_dec target (pricer lo - tol) then None
  else if Rlt_dec (pricer hi + tol) target then None
  else Some (bisect 200 pricer target tol lo hi).

(** src/models/common/black_scholes.rs:43-52  bs_implied_vol *)
Definition bs_implied_vol (target forward strike t discount : R) (is_call : bool) : option R :=
  bs_implied_vol_tol target forward strike t discount is_call (/ 10 ^ 8).

(** src/models/common/bachelier.rs:22-29  bachelier_call *)
Definition bachelier_call (forward strike variance : R) : R :=
  if Rle_dec variance 0 then Rmax (forward - strike) 0
  else
    let sqrt_v := sqrt variance in
    let d := (forward - strike) / sqrt_v in
    sqrt_v * pdf d + (forward - strike) * cdf d.

(** src/models/common/bachelier.rs:32-39  bachelier_put *)
Definition bachelier_put (forward strike variance : R) : R :=
  if Rle_dec variance 0 then Rmax (strike - forward) 0
  else
    let sqrt_v := sqrt variance in
    let d := (forward - strike) / sqrt_v in
    sqrt_v * pdf d + (strike - forward) * cdf (- d).

(** src/models/common/bachelier.rs:44-51  bachelier_vega_variance *)
Definition bachelier_vega_variance (forward strike variance : R) : R :=
  if Rle_dec variance 0 then 0
  else
    let sqrt_v := sqrt variance in
    let d := (forward - strike) / sqrt_v in
    pdf d / (2 * sqrt_v).

(** src/derivatives/forex/option.rs:31-35  enum OptionType, :37-43 omega *)
Inductive option_type : Set := Call | Put.
Definition omega (o : option_type) : R := match o with Call => 1 | Put => -1 end.

(** src/derivatives/forex/option.rs:56-77  black_scholes *)
Definition black_scholes (forward strike variance discount : R) (o : option_type) : R :=
  if Rle_dec variance 0 then
    discount * match o with Call => Rmax (forward - strike) 0 | Put => Rmax (strike - forward) 0 end
  else
    let sqrt_v := sqrt variance in
    let d1 := (ln (forward / strike) + 1 / 2 * variance) / sqrt_v in
    let d2 := d1 - sqrt_v in
    discount * (omega o * forward * cdf (omega o * d1) - omega o * strike * cdf (omega o * d2)).
