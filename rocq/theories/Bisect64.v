(** The three bisections of the code in binary64.  The function whose root is sought is an
    arbitrary function on doubles: it contains exponentials and normal distribution
    functions, which IEEE 754 does not determine. *)
From Coq Require Import Bool List Arith ZArith.
Import ListNotations.
From Flocq Require Import Core BinarySingleNaN.
From Verif Require Import Outcome F64 Clock64 Chol64.
Open Scope Z_scope.

(** the literals [1.0e-8], [1.0e-12], [1.0e-14], [1.0e-10] and [1.0e-6] *)
Definition lit_8 : f64 := f64_lit 3022314549036573 (-78).
Definition lit_12 : f64 := f64_lit 4951760157141521 (-92).
Definition lit_14 : f64 := f64_lit 6338253001141147 (-99).
Definition lit_10 : f64 := f64_lit 7737125245533627 (-86).
Definition lit_6 : f64 := f64_lit 4722366482869645 (-72).
(** [f64::abs] *)
Definition fabs : f64 -> f64 := Babs.

(** src/models/common/black_scholes.rs:82, src/models/forex/sabr_effective.rs:276,
    src/models/forex/sabr_time_dependent_calibrator.rs:308
    [0.5 * (lo + hi)] *)
Definition middle64 (lo hi : f64) : f64 := fmul half64 (fadd lo hi).

(** src/models/common/black_scholes.rs:81-96  the loop of bs_implied_vol_tol *)
Fixpoint implied_loop64 (n : nat) (pricer : f64 -> f64) (target tol lo hi : f64) : f64 :=
  match n with
  | O => middle64 lo hi
  | S n =>
      let mid := middle64 lo hi in
      if Bltb (fsub hi lo) lit_12 then mid
      else
        let p := pricer mid in
        if Bltb (fabs (fsub p target)) tol then mid
        else if Bltb p target then implied_loop64 n pricer target tol mid hi
        else implied_loop64 n pricer target tol lo mid
  end.
(** src/models/common/black_scholes.rs:57-98  bs_implied_vol_tol *)
Definition implied64 (pricer : f64 -> f64) (target tol : f64) : option f64 :=
  let lo := lit_8 in
  let hi := f64_of_Z 5 in
  let p_lo := pricer lo in
  let p_hi := pricer hi in
  if Bltb target (fsub p_lo tol) || Bltb (fadd p_hi tol) target then None
  else Some (implied_loop64 200 pricer target tol lo hi).

(** src/models/forex/sabr_effective.rs:257-264  the widening of the bracket; [n] expansions
    are left *)
Fixpoint widen64 (n : nat) (f : f64 -> f64) (hi : f64) : f64 :=
  match n with
  | O => hi
  | S n => if Bltb (f hi) zero64 then widen64 n f (fmul hi (f64_of_Z 2)) else hi
  end.
(** src/models/forex/sabr_effective.rs:275-286  the bisection *)
Fixpoint effective_loop64 (n : nat) (f : f64 -> f64) (lo hi : f64) : f64 * f64 :=
  match n with
  | O => (lo, hi)
  | S n =>
      let mid := middle64 lo hi in
      let '(lo, hi) := if Bltb zero64 (f mid) then (lo, mid) else (mid, hi) in
      if Bltb (fsub hi lo) lit_14 then (lo, hi) else effective_loop64 n f lo hi
  end.
(** src/models/forex/sabr_effective.rs:255-288  effective_vol_vol after its early return;
    [rhs] is [rhs_at_gamma_tilde(., expiry, i_val)] *)
Definition effective64 (rhs : f64 -> f64) (lhs : f64) : outcome f64 :=
  let f x := fsub (rhs x) lhs in
  let hi := widen64 20 f (f64_of_Z 4) in
  if negb (Bleb zero64 (f hi)) then Panic PAssert
  else
    let '(lo, hi) := effective_loop64 60 f zero64 hi in
    Ok (fsqrt (middle64 lo hi)).

(** src/models/forex/sabr_time_dependent_calibrator.rs:307-319  the loop of bisect *)
Fixpoint bisect_loop64 (n : nat) (f : f64 -> f64) (tol lo hi : f64) : f64 :=
  match n with
  | O => middle64 lo hi
  | S n =>
      let mid := middle64 lo hi in
      let f_mid := f mid in
      if Bltb (fabs f_mid) tol || Bltb (fsub hi lo) tol then mid
      else if Bltb f_mid zero64 then bisect_loop64 n f tol mid hi
      else bisect_loop64 n f tol lo mid
  end.
(** src/models/forex/sabr_time_dependent_calibrator.rs:296-320  bisect *)
Definition bisect64 (f : f64 -> f64) (lo hi tol : f64) (max_iter : nat) : f64 :=
  let f_lo := f lo in
  let f_hi := f hi in
  if Bltb zero64 f_lo then lo
  else if Bltb f_hi zero64 then hi
  else bisect_loop64 max_iter f tol lo hi.
