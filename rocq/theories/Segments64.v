(** The segments of the FX-HLMM1 and FX-FMM1 characteristic functions in binary64: tenor dates
    seen back from the expiry, and the rate that is the first alive on each segment. *)
From Coq Require Import Bool List Arith ZArith.
Import ListNotations.
From Flocq Require Import Core BinarySingleNaN.
From Verif Require Import Outcome F64 Clock64 Bisect64.
Open Scope Z_scope.

(** src/models/forex/fx_hlmm.rs:93-100  LiborTenor::m on the dates from the [k]th on, of [n]
    rates *)
Fixpoint first_alive64 (n k : nat) (dates : list f64) (t : f64) : nat :=
  match dates with
  | [] => n
  | tk :: dates => if Bleb t tk then k else first_alive64 n (S k) dates t
  end.
(** src/models/forex/fx_hlmm.rs:93-100  LiborTenor::m *)
Definition m64 (n : nat) (dates : list f64) (t : f64) : nat := first_alive64 n 0 dates t.

(** src/models/forex/fx_hlmm1_chf.rs:99-114, src/models/forex/fx_fmm1_chf.rs:134-146  the
    boundaries of the segments, for a tenor of [n] rates and one more date.  No rates make
    [n - 1] overflow. *)
Definition tau_boundaries64 (dates : list f64) (n : nat) (expiry : f64) : outcome (list f64) :=
  if (n =? 0)%nat then Panic PArith
  else
    let bs := filter (fun tau_b => Bltb zero64 tau_b && Bltb tau_b (fadd expiry lit_12)) (map (fun d => fsub expiry d) (rev (firstn n dates))) in
    let missing := match rev bs with [] => true | t :: _ => Bltb lit_12 (fabs (fsub t expiry)) end in
    Ok (if missing then bs ++ [expiry] else bs).

(** src/models/forex/fx_hlmm1_chf.rs:59-71  struct Segment, without the two coefficients, which
    depend on the index alone *)
Record segment64 := { tau64 : f64; length64 : f64; start64 : nat }.
(** src/models/forex/fx_hlmm1_chf.rs:116-138  the loop building the segments *)
Fixpoint segments64 (n : nat) (dates : list f64) (expiry prev : f64) (bs : list f64) : list segment64 :=
  match bs with
  | [] => []
  | tau_j :: bs =>
      let len := fsub tau_j prev in
      if Bleb len zero64 then segments64 n dates expiry tau_j bs
      else
        let t_mid := fsub expiry (fmul half64 (fadd prev tau_j)) in
        {| tau64 := tau_j; length64 := len; start64 := m64 n dates t_mid + 1 |} :: segments64 n dates expiry tau_j bs
  end.
(** src/models/forex/fx_hlmm1_chf.rs:95-138  the segments of an expiry *)
Definition build_segments64 (n : nat) (dates : list f64) (expiry : f64) : outcome (list segment64) :=
  do bs <- tau_boundaries64 dates n expiry;
  Ok (segments64 n dates expiry zero64 bs).
