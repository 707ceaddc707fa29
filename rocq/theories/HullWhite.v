(** Closed forms of the Hull-White and Cox-Ingersoll-Ross models, over the real numbers
    (rounding idealised away). *)
From Coq Require Import Bool List Reals.
Import ListNotations.
From Verif Require Import Outcome Processes ProcessFacts.
Open Scope R_scope.

(** [1.0e-12], below which the mean reversion counts as zero *)
Definition tiny : R := / 10 ^ 12.

(** src/models/interestrate/hull_white.rs:39-45  HullWhite1F::b *)
Definition hw_b (p : hull_white R_numbers) (t T : R) : R :=
  let tau := T - t in
  let lambda := mean_reversion p in
  if Rlt_dec (Rabs lambda) tiny then - tau
  else (exp (- lambda * tau) - 1) / lambda.

(** src/models/interestrate/hull_white.rs:50-60  HullWhite1F::short_rate_variance *)
Definition short_rate_variance (p : hull_white R_numbers) (t1 t2 : R) : R :=
  let tau := t2 - t1 in
  let lambda := mean_reversion p in
  if Rle_dec tau 0 then 0
  else if Rlt_dec (Rabs lambda) tiny then hw_sigma p * hw_sigma p * tau
  else let a := 2 * lambda in hw_sigma p * hw_sigma p / a * (1 - exp (- a * tau)).

(** src/models/interestrate/hull_white.rs:75-88  the closure [tau_fn] *)
Definition bond_antiderivative (lambda T s : R) : R :=
  if Rlt_dec (Rabs lambda) tiny then - (T - s) ^ 3 / 3
  else
    let e1 := exp (- lambda * (T - s)) in
    let e2 := exp (- (2) * lambda * (T - s)) in
    1 / (lambda * lambda) * (- (1 / 2) / lambda * e2 + 2 / lambda * e1 + s).

(** src/models/interestrate/hull_white.rs:68-90  HullWhite1F::bond_log_variance *)
Definition bond_log_variance (p : hull_white R_numbers) (s1 s2 T : R) : outcome R :=
  if negb (if Rle_dec s1 s2 then true else false) then Panic PAssert
  else if Req_EM_T s2 s1 then Ok 0
  else
    let eta := hw_sigma p in
    let tau_fn := bond_antiderivative (mean_reversion p) T in
    Ok (eta * eta * (tau_fn s2 - tau_fn s1)).

(** src/models/interestrate/hull_white.rs:112-132  HullWhite1F::discount_affine *)
Definition discount_affine (p : hull_white R_numbers) (t T r_t p0t p0T f0t : R) : R :=
  let b := hw_b p t T in
  let lambda := mean_reversion p in
  let eta := hw_sigma p in
  let convexity :=
    if Rlt_dec (Rabs lambda) tiny then eta * eta * t * b * b * (1 / 2)
    else eta * eta / (4 * lambda) * (1 - exp (- (2) * lambda * t)) * b * b in
  p0T / p0t * exp (- b * f0t - convexity + b * r_t).

(** src/models/common/cir.rs:54-60  CirProcess::mean *)
Definition cir_mean (p : cir_process R_numbers) (t : R) : R :=
  if Rle_dec t 0 then sigma_0 p
  else let decay := exp (- kappa p * t) in sigma_0 p * decay + theta p * (1 - decay).

(** src/models/common/cir.rs:64-73  CirProcess::variance *)
Definition cir_variance (p : cir_process R_numbers) (t : R) : R :=
  if Rle_dec t 0 then 0
  else
    let decay := exp (- kappa p * t) in
    let g2_over_k := gamma p * gamma p / kappa p in
    let one_minus := 1 - decay in
    sigma_0 p * g2_over_k * decay * one_minus + theta p * (g2_over_k * (1 / 2)) * one_minus * one_minus.

(** src/models/common/cir.rs:131-141  the loop of sqrt_mean_tol: [fuel] is [2001 - k] *)
Fixpoint sqrt_series (fuel : nat) (half_eps a b tol : R) (k : nat) (term sum : R) : R :=
  match fuel with
  | O => sum
  | S fuel =>
      let ratio := half_eps * (b + INR k) / (INR (S k) * (a + INR k)) in
      let term := term * ratio in
      let sum := sum + term in
      if Rle_dec (Rabs term) (tol * Rabs sum) then sum
      else if (2000 <? S k)%nat then sum
      else sqrt_series fuel half_eps a b tol (S k) term sum
  end.

(** src/models/common/cir.rs:86-142  CirProcess::sqrt_mean_tol.  [ln_gamma] is
    [statrs::function::gamma::ln_gamma]. *)
Definition sqrt_mean_tol (ln_gamma : R -> R) (p : cir_process R_numbers) (t tol : R) : outcome R :=
  if Rle_dec t 0 then Ok (sqrt (Rmax (sigma_0 p) 0))
  else if negb (if Rlt_dec 0 (kappa p) then true else false) then Panic PAssert
  else if Rlt_dec (Rabs (gamma p)) (/ 10 ^ 14) then Ok (sqrt (Rmax (cir_mean p t) 0))
  else
    let one_minus := 1 - exp (- kappa p * t) in
    let c := gamma p * gamma p * one_minus / (4 * kappa p) in
    let ell := 4 * kappa p * theta p / (gamma p * gamma p) in
    let eps := 4 * kappa p * sigma_0 p * exp (- kappa p * t) / (gamma p * gamma p * one_minus) in
    if Rlt_dec 500 eps then
      let m := Rmax (cir_mean p t) (/ 10 ^ 300) in
      let v := cir_variance p t in
      Ok (sqrt (Rmax (m * (1 - v / (8 * m * m))) 0))
    else
      let half_eps := 1 / 2 * eps in
      let a := 1 / 2 * ell in
      let b := 1 / 2 * (ell + 1) in
      let term := exp (ln_gamma b - ln_gamma a) in
      let sum := sqrt_series 2001 half_eps a b tol 0 term term in
      Ok (sqrt (2 * c) * exp (- (1 / 2) * eps) * sum).

(** src/models/common/cir.rs:81-83  CirProcess::sqrt_mean *)
Definition sqrt_mean (ln_gamma : R -> R) (p : cir_process R_numbers) (t : R) : outcome R :=
  sqrt_mean_tol ln_gamma p t (/ 10 ^ 14).

(** src/models/common/cir.rs:146-152  CirProcess::sqrt_mean_infinity *)
Definition sqrt_mean_infinity (ln_gamma : R -> R) (p : cir_process R_numbers) : outcome R :=
  if negb (if Rlt_dec 0 (kappa p) then true else false) then Panic PAssert
  else if negb (if Rlt_dec 0 (gamma p) then true else false) then Panic PAssert
  else
    let ell := 4 * kappa p * theta p / (gamma p * gamma p) in
    let gamma_ratio := exp (ln_gamma (1 / 2 * (ell + 1)) - ln_gamma (1 / 2 * ell)) in
    Ok (gamma p / sqrt (2 * kappa p) * gamma_ratio).

(** src/models/common/cir.rs:183-187  struct SqrtMeanProxy *)
Record sqrt_mean_proxy := { beta1 : R; beta2 : R; beta3 : R }.

(** src/models/common/cir.rs:164-172  CirProcess::sqrt_mean_proxy *)
Definition sqrt_mean_proxy_of (ln_gamma : R -> R) (p : cir_process R_numbers) : outcome sqrt_mean_proxy :=
  do b1 <- sqrt_mean_infinity ln_gamma p;
  let b2 := sqrt (Rmax (sigma_0 p) 0) - b1 in
  Ok {| beta1 := b1; beta2 := b2; beta3 := kappa p |}.

(** src/models/common/cir.rs:190-192  SqrtMeanProxy::eval *)
Definition proxy_eval (q : sqrt_mean_proxy) (t : R) : R := beta1 q + beta2 q * exp (- beta3 q * t).

(** src/models/common/cir.rs:176-178  CirProcess::feller_satisfied *)
Definition feller_satisfied (p : cir_process R_numbers) : bool :=
  if Rle_dec (gamma p * gamma p) (2 * kappa p * theta p) then true else false.
