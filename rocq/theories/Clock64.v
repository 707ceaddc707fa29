(** The clocks of the path simulators in binary64: the accumulated time [t += dt], the
    midpoint passed to the piecewise-constant schedules, and the tests made on the time.
    Only the times are modelled; what is simulated along them is in SabrEffective.v, Fmm.v,
    FxFmmSim.v and Slv.v, over the reals. *)
From Coq Require Import Bool List Arith ZArith.
Import ListNotations.
From Flocq Require Import Core BinarySingleNaN.
From Verif Require Import Outcome F64.
Open Scope Z_scope.

(** [0.0], [0.5] and the literal [1.0e-15] *)
Definition zero64 : f64 := f64_of_Z 0.
Definition half64 : f64 := f64_lit 1 (-1).
Definition tol15 : f64 := f64_lit 5070602400912918 (-102).

(** src/models/interestrate/fmm.rs:554, src/models/forex/fx_fmm_simulator.rs:309,
    src/models/forex/sabr_time_dependent.rs:183, src/models/forex/sabr_slv.rs:102
    [let dt = t_end / n_steps as f64] *)
Definition step64 (t_end : f64) (n_steps : nat) : f64 := fdiv t_end (f64_of_Z (Z.of_nat n_steps)).

(** src/models/interestrate/fmm.rs:526, src/models/forex/fx_fmm_simulator.rs:284,
    src/models/forex/sabr_slv.rs:160, src/models/forex/sabr_time_dependent.rs:191,196
    the time after [n] executions of [t += dt] *)
Definition clock64 (dt : f64) (n : nat) : f64 := Nat.iter n (fun t => fadd t dt) zero64.

(** src/models/forex/sabr_time_dependent.rs:193, src/models/forex/sabr_slv.rs:116,
    src/models/interestrate/fmm.rs:430
    [t + 0.5 * dt] *)
Definition mid64 (dt t : f64) : f64 := fadd t (fmul half64 dt).

(** src/models/forex/sabr_effective.rs:49-52  PiecewiseConstant *)
Record schedule64 := { knots64 : list f64; values64 : list f64 }.

(** src/models/forex/sabr_effective.rs:65-67  the loop over the knots *)
Fixpoint increasing64 (l : list f64) : bool :=
  match l with x :: (y :: _) as l' => Bltb x y && increasing64 l' | _ => true end.
(** src/models/forex/sabr_effective.rs:55-69  PiecewiseConstant::new *)
Definition schedule64_new (ks vs : list f64) : outcome schedule64 :=
  if negb (2 <=? length ks)%nat then Panic PAssert
  else if negb (length vs + 1 =? length ks)%nat then Panic PAssert
  else if negb (Bltb (Babs (nth 0 ks zero64)) tol15) then Panic PAssert
  else if negb (increasing64 ks) then Panic PAssert
  else Ok {| knots64 := ks; values64 := vs |}.

(** src/models/forex/sabr_effective.rs:89-94  the loop of [at], [ks] the knots from the second
    on and [vs] the values *)
Fixpoint scan64 (ks vs : list f64) (t : f64) (last : f64) : outcome f64 :=
  match ks, vs with
  | k :: ks', v :: vs' => if Bleb t (fadd k tol15) then Ok v else scan64 ks' vs' t last
  | [], _ => Ok last
  | _ :: _, [] => if Bleb t (fadd (hd zero64 ks) tol15) then Panic PIndex else Ok last
  end.
(** src/models/forex/sabr_effective.rs:84-95  PiecewiseConstant::at, for a constructed schedule
    (neither list is empty) *)
Definition schedule64_at (s : schedule64) (t : f64) : outcome f64 :=
  let final_time := last (knots64 s) zero64 in
  if negb (Bleb zero64 t && Bleb t (fadd final_time tol15)) then Panic PAssert
  else if Bleb t (nth 0 (knots64 s) zero64) then Ok (nth 0 (values64 s) zero64)
  else scan64 (tl (knots64 s)) (values64 s) t (last (values64 s) zero64).

(** src/models/forex/sabr_time_dependent.rs:191-197, src/models/forex/sabr_slv.rs:115-117,160
    one path of simulate: the values of a schedule met at the successive midpoints *)
Fixpoint lookups64 (n : nat) (s : schedule64) (dt t : f64) : outcome (list f64) :=
  match n with
  | O => Ok []
  | S n =>
      do v <- schedule64_at s (mid64 dt t);
      do vs <- lookups64 n s dt (fadd t dt);
      Ok (v :: vs)
  end.

(** src/models/interestrate/fmm.rs:99-106  FmmTenor::eta, [j] the index of the first of [ds]
    (the dates from the second on) *)
Fixpoint eta64_from (j : nat) (ds : list f64) (t : f64) : nat :=
  match ds with
  | [] => j
  | d :: ds => if Bleb t d then j else eta64_from (S j) ds t
  end.
Definition eta64 (dates : list f64) (t : f64) : nat := eta64_from 1 (tl dates) t.

(** src/models/interestrate/fmm.rs:533-540, src/models/forex/fx_fmm_simulator.rs:287-297
    whether the step numbered [i] (from 1) records the start values of period [k] *)
Definition records64 (dates : list f64) (dt : f64) (i k : nat) : bool :=
  let m := (length dates - 1)%nat in
  let eta_old := eta64 dates (clock64 dt (i - 1)) in
  let eta_new := eta64 dates (clock64 dt i) in
  (eta_old <? eta_new)%nat && (eta_old <? k)%nat && (k <=? Nat.min eta_new m)%nat.

(** src/models/interestrate/fmm.rs:761-764  the beginning of bond_price: [Ok true] is the
    return of 1 *)
Definition bond_start64 (t big_t : f64) : outcome bool :=
  if negb (Bleb (fsub t tol15) big_t) then Panic PAssert
  else Ok (Bltb (Babs (fsub big_t t)) tol15).
