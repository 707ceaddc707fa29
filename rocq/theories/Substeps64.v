(** The sub-steps of the FX-FMM1 characteristic function in binary64. *)
From Coq Require Import Bool List Arith ZArith.
Import ListNotations.
From Flocq Require Import Core BinarySingleNaN.
From Verif Require Import Outcome F64 Clock64 Bisect64 Segments64.
Open Scope Z_scope.

(** src/models/interestrate/fmm.rs:85-87, 99-106  FmmTenor::eta of [m] rates: the search of
    [first_alive64] over the dates 1 to [m] *)
Definition eta64 (m : nat) (dates : list f64) (t : f64) : nat := first_alive64 (m + 1) 1 (firstn m (tl dates)) t.

(** src/models/forex/fx_fmm1_chf.rs:158-176  the [i]th of the [n] sub-steps of a segment, without
    the two coefficients *)
Definition substep64 (m : nat) (dates : list f64) (expiry prev tau_j h : f64) (n i : nat) : segment64 :=
  let lo := fadd prev (fmul (f64_of_Z (Z.of_nat i)) h) in
  let hi := if (i + 1 =? n)%nat then tau_j else fadd lo h in
  let t_mid := fsub expiry (fmul half64 (fadd lo hi)) in
  {| tau64 := hi; length64 := fsub hi lo; start64 := Nat.min (eta64 m dates t_mid) (m + 1) |}.
(** src/models/forex/fx_fmm1_chf.rs:157-177  the sub-steps of a segment *)
Definition chunk64 (m : nat) (dates : list f64) (expiry : f64) (n : nat) (prev tau_j : f64) : list segment64 :=
  let h := fdiv (fsub tau_j prev) (f64_of_Z (Z.of_nat n)) in
  map (substep64 m dates expiry prev tau_j h n) (seq 0 n).
(** src/models/forex/fx_fmm1_chf.rs:149-179  the loop over the boundaries *)
Fixpoint sub_segments64 (m : nat) (dates : list f64) (expiry : f64) (n : nat) (prev : f64) (bs : list f64) : list segment64 :=
  match bs with
  | [] => []
  | tau_j :: bs =>
      if Bleb (fsub tau_j prev) zero64 then sub_segments64 m dates expiry n tau_j bs
      else chunk64 m dates expiry n prev tau_j ++ sub_segments64 m dates expiry n tau_j bs
  end.
(** src/models/forex/fx_fmm1_chf.rs:114-179  the sub-steps of an expiry; of the checks in front
    only those on the expiry and the number of sub-steps are here *)
Definition build_substeps64 (m : nat) (dates : list f64) (expiry : f64) (n : nat) : outcome (list segment64) :=
  if negb (Bltb zero64 expiry) then Panic PAssert
  else if (n <? 1)%nat then Panic PAssert
  else
    do bs <- tau_boundaries64 dates m expiry;
    Ok (sub_segments64 m dates expiry n zero64 bs).
