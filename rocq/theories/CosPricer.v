(** The Fourier-cosine (COS) pricer of a characteristic function. *)
From Coq Require Import Bool List Reals.
From Verif Require Import Outcome.
Open Scope R_scope.

(* src/models/common/cos_pricer.rs:29-42  [ForwardChf].  The pricer only evaluates at real
   frequencies ([Complex64::new(u, 0.0)]), so the characteristic function is a function of a real
   frequency; its complex value is a pair of reals. *)
Record forward_chf := { evaluate : R -> R * R; expiry : R; log_forward : R; typical_variance : R }.

(* src/models/common/cos_pricer.rs:98-104  [CosPricer] *)
Record cos_pricer := { chf : forward_chf; n_terms : nat; range : R * R }.

(* src/models/common/cos_pricer.rs:110-121  [CosPricer::new].  The square root of a negative number
   is not a number in the code and [max] then gives 1e-6; here it is zero and [max] gives the same. *)
Definition cos_new (c : forward_chf) : cos_pricer :=
  let t := expiry c in
  let half_width := 10 * Rmax (sqrt (typical_variance c * t)) (/ 10 ^ 6) in
  let a := log_forward c - half_width in
  let b := log_forward c + half_width in
  {| chf := c; n_terms := 128; range := (a, b) |}.

(* src/models/common/cos_pricer.rs:124-128  [CosPricer::with_n_terms] *)
Definition with_n_terms (p : cos_pricer) (n : nat) : outcome cos_pricer :=
  if negb (Nat.leb 2 n) then Panic PAssert else
  Ok {| chf := chf p; n_terms := n; range := range p |}.

(* src/models/common/cos_pricer.rs:131-135  [CosPricer::with_range] *)
Definition with_range (p : cos_pricer) (a b : R) : outcome cos_pricer :=
  if Rlt_dec a b then Ok {| chf := chf p; n_terms := n_terms p; range := (a, b) |} else Panic PAssert.

(* src/models/common/cos_pricer.rs:185-194  [chi_k] *)
Definition chi_k (k : nat) (a b c d : R) : R :=
  let width := b - a in
  let k_pi_w := INR k * PI / width in
  let arg_d := k_pi_w * (d - a) in
  let arg_c := k_pi_w * (c - a) in
  let denom := 1 + k_pi_w * k_pi_w in
  let term_cos := cos arg_d * exp d - cos arg_c * exp c in
  let term_sin := sin arg_d * exp d - sin arg_c * exp c in
  (term_cos + k_pi_w * term_sin) / denom.

(* src/models/common/cos_pricer.rs:200-207  [psi_k] *)
Definition psi_k (k : nat) (a b c d : R) : R :=
  if Nat.eqb k 0 then d - c else
  let width := b - a in
  let k_pi_w := INR k * PI / width in
  (sin (k_pi_w * (d - a)) - sin (k_pi_w * (c - a))) / k_pi_w.

(* the body of the loop at src/models/common/cos_pricer.rs:163-179; [Complex64::exp] of an
   imaginary number is its cosine and sine *)
Definition term (c : forward_chf) (a b strike : R) (is_call : bool) (k : nat) : R :=
  let width := b - a in
  let log_k := ln strike in
  let '(c', d) := if is_call then (log_k, b) else (a, log_k) in
  let u := INR k * PI / width in
  let chi := chi_k k a b c' d in
  let psi := psi_k k a b c' d in
  let vk := if is_call then (2 / width) * (chi - strike * psi) else (2 / width) * (- chi + strike * psi) in
  let phi := evaluate c u in
  let shift := (cos (- u * a), sin (- u * a)) in
  let term_re := fst phi * fst shift - snd phi * snd shift in
  let weight := if Nat.eqb k 0 then 1 / 2 else 1 in
  weight * term_re * vk.

(* src/models/common/cos_pricer.rs:151-181  [CosPricer::price_european] *)
Definition price_european (p : cos_pricer) (strike discount : R) (is_call : bool) : outcome R :=
  if Rlt_dec 0 strike then
    let '(a, b) := range p in
    let total := fold_left (fun total k => total + term (chf p) a b strike is_call k) (seq 0 (n_terms p)) 0 in
    Ok (discount * total)
  else Panic PAssert.

(* src/models/common/cos_pricer.rs:142-144  [CosPricer::call] *)
Definition call (p : cos_pricer) (strike discount : R) : outcome R := price_european p strike discount true.
(* src/models/common/cos_pricer.rs:147-149  [CosPricer::put] *)
Definition put (p : cos_pricer) (strike discount : R) : outcome R := price_european p strike discount false.
