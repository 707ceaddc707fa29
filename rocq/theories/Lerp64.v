(** Linear interpolation in binary64: forward points, caplet smiles, the local-variance grid
    and the total variance of the FX surface. *)
From Coq Require Import Bool List Arith ZArith.
Import ListNotations.
From Flocq Require Import Core BinarySingleNaN.
From Verif Require Import Outcome F64 Clock64 Chol64 Bisect64.
Open Scope Z_scope.

(** [f64::EPSILON] *)
Definition eps64 : f64 := f64_lit 1 (-52).
(** src/markets/forex/quotes/forwardpoints.rs:133-144  interpolation between two dated quotes;
    a date is a number of days *)
Definition points64 (s e : Z * f64) (target : Z) : f64 :=
  let total := f64_of_Z (fst e - fst s) in
  if Bltb (fabs total) eps64 then snd s
  else
    let weight := fdiv (f64_of_Z (target - fst s)) total in
    fadd (snd s) (fmul (fsub (snd e) (snd s)) weight).

(** src/markets/interestrate/volsurface.rs:200-210  the scan of the windows *)
Fixpoint scan_nodes64 (nodes : list (f64 * f64)) (strike : f64) : option f64 :=
  match nodes with
  | p :: ((q :: _) as r) =>
      if Bleb (fst p) strike && Bleb strike (fst q) then
        let t := fdiv (fsub strike (fst p)) (fsub (fst q) (fst p)) in
        Some (fadd (snd p) (fmul t (fsub (snd q) (snd p))))
      else scan_nodes64 r strike
  | _ => None
  end.
(** src/markets/interestrate/volsurface.rs:186-213  interpolate_nodes *)
Definition interpolate_nodes64 (nodes : list (f64 * f64)) (strike : f64) : outcome f64 :=
  match nodes with
  | [] => Err EInvalidData
  | [p] => Ok (snd p)
  | first :: r =>
      let last := List.last r first in
      if Bleb strike (fst first) then Ok (snd first)
      else if Bleb (fst last) strike then Ok (snd last)
      else Ok (match scan_nodes64 nodes strike with Some v => v | None => snd last end)
  end.

(** src/models/forex/dupire_local_vol.rs:173-180  the scan of bracket, from the entry [i] on,
    after the entry [prev] *)
Fixpoint scan_bracket64 (x prev : f64) (i : nat) (l : list f64) : option (nat * nat * f64) :=
  match l with
  | [] => None
  | y :: l => if Bleb x y then Some ((i - 1)%nat, i, fdiv (fsub x prev) (fsub y prev)) else scan_bracket64 x y (S i) l
  end.
(** src/models/forex/dupire_local_vol.rs:164-183  bracket *)
Definition bracket64 (xs : list f64) (x : f64) : outcome (nat * nat * f64) :=
  match xs with
  | [] => Panic PIndex
  | x0 :: rest =>
      let n := (length xs - 1)%nat in
      if Bleb x x0 then Ok (0%nat, 0%nat, zero64)
      else if Bleb (last xs zero64) x then Ok (n, n, zero64)
      else match scan_bracket64 x x0 1 rest with
           | Some r => Ok r
           | None => Ok (n, n, zero64)
           end
  end.
(** src/models/forex/dupire_local_vol.rs:132-143  DupireLocalVol::local_variance; the grid is its
    expiries, strikes and variances *)
Definition local_variance64 (expiries strikes : list f64) (variance : list (list f64)) (t k : f64) : outcome f64 :=
  do (i, wt) <- bracket64 expiries t;
  let '(i0, i1) := i in
  do (j, wk) <- bracket64 strikes k;
  let '(j0, j1) := j in
  do v00 <- index64 variance i0 j0;
  do v01 <- index64 variance i0 j1;
  do v10 <- index64 variance i1 j0;
  do v11 <- index64 variance i1 j1;
  let v0 := fadd v00 (fmul wk (fsub v01 v00)) in
  let v1 := fadd v10 (fmul wk (fsub v11 v10)) in
  Ok (fadd v0 (fmul wt (fsub v1 v0))).
(** src/models/forex/dupire_local_vol.rs:146-148  DupireLocalVol::local_vol *)
Definition local_vol64 (expiries strikes : list f64) (variance : list (list f64)) (t k : f64) : outcome f64 :=
  do v <- local_variance64 expiries strikes variance t k; Ok (fsqrt v).

(** src/markets/forex/quotes/volsurface.rs:134-143  FXVolSurface::volatility between two
    expiries: the volatilities and year fractions of both, and the year fraction asked for *)
Definition between64 (sigma_lo sigma_hi yf_lo yf_hi yf : f64) : f64 :=
  let var_lo := fmul (fmul sigma_lo sigma_lo) yf_lo in
  let var_hi := fmul (fmul sigma_hi sigma_hi) yf_hi in
  let weight := fdiv (fsub yf yf_lo) (fsub yf_hi yf_lo) in
  let var_target := fadd var_lo (fmul weight (fsub var_hi var_lo)) in
  fsqrt (fdiv var_target yf).
