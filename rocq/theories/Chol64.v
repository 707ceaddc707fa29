(** The Cholesky factorisation in binary64: the same loops as in Cholesky.v, with the
    arithmetic, the square root and the comparison of Rust's [f64]. *)
From Coq Require Import Bool List Arith ZArith.
Import ListNotations.
From Flocq Require Import Core BinarySingleNaN.
From Verif Require Import Outcome F64 Clock64.
Open Scope Z_scope.

(** [f64::sqrt], correctly rounded *)
Definition fsqrt : f64 -> f64 := Bsqrt mode_NE.
(** [1.0] *)
Definition one64 : f64 := f64_of_Z 1.

(** [l[i][j] = x] *)
Definition upd64 (l : nat -> nat -> f64) (i j : nat) (x : f64) : nat -> nat -> f64 :=
  fun a b => if ((a =? i) && (b =? j))%nat then x else l a b.

(** [m[i][j]] *)
Definition index64 (m : list (list f64)) (i j : nat) : outcome f64 :=
  match nth_error m i with
  | Some row => match nth_error row j with Some x => Ok x | None => Panic PIndex end
  | None => Panic PIndex
  end.

(** src/models/interestrate/fmm.rs:879-882  the partial sum *)
Definition residual64 (l : nat -> nat -> f64) (x : f64) (i j : nat) : f64 :=
  fold_left (fun sum k => fsub sum (fmul (l i k) (l j k))) (seq 0 j) x.

(** src/models/interestrate/fmm.rs:878-891  the loop over the columns of row [i]; the
    comparison [sum <= 0.0] is false of a NaN *)
Fixpoint cells64 (m : list (list f64)) (i : nat) (js : list nat) (l : nat -> nat -> f64) : outcome (option (nat -> nat -> f64)) :=
  match js with
  | [] => Ok (Some l)
  | j :: js =>
      do x <- index64 m i j;
      let sum := residual64 l x i j in
      if (i =? j)%nat then
        if Bleb sum zero64 then Ok None
        else cells64 m i js (upd64 l i i (fsqrt sum))
      else cells64 m i js (upd64 l i j (fdiv sum (l j j)))
  end.

(** src/models/interestrate/fmm.rs:877-892  the loop over the rows *)
Fixpoint rows64 (m : list (list f64)) (is : list nat) (l : nat -> nat -> f64) : outcome (option (nat -> nat -> f64)) :=
  match is with
  | [] => Ok (Some l)
  | i :: is =>
      do r <- cells64 m i (seq 0 (S i)) l;
      match r with None => Ok None | Some l => rows64 m is l end
  end.

(** src/models/interestrate/fmm.rs:874-894 and src/models/forex/fx_fmm_simulator.rs:408-428
    cholesky *)
Definition cholesky64 (m : list (list f64)) : outcome (option (list (list f64))) :=
  let n := length m in
  do r <- rows64 m (seq 0 n) (fun _ _ => zero64);
  Ok (match r with
      | None => None
      | Some l => Some (map (fun i => map (l i) (seq 0 n)) (seq 0 n))
      end).

(** src/models/forex/fx_hhw.rs:34-42  struct Correlation4x4 *)
Record correlation64 := {
  xi_sigma64 : f64; xi_d64 : f64; xi_f64 : f64; sigma_d64 : f64; sigma_f64 : f64; d_f64 : f64 }.

(** src/models/forex/fx_hhw.rs:46-61  Correlation4x4::as_matrix *)
Definition matrix64 (c : correlation64) : list (list f64) :=
  [[one64; xi_sigma64 c; xi_d64 c; xi_f64 c];
   [xi_sigma64 c; one64; sigma_d64 c; sigma_f64 c];
   [xi_d64 c; sigma_d64 c; one64; d_f64 c];
   [xi_f64 c; sigma_f64 c; d_f64 c; one64]].

(** src/models/forex/fx_hhw.rs:66-69, 82-101  Correlation4x4::cholesky.  [cholesky_4x4] is
    the same text as [cholesky] with the size fixed at 4. *)
Definition factor64 (c : correlation64) : outcome (option (list (list f64))) := cholesky64 (matrix64 c).

(** src/models/forex/fx_hhw.rs:74-76  Correlation4x4::is_valid *)
Definition valid64 (c : correlation64) : outcome bool :=
  do r <- factor64 c; Ok (match r with Some _ => true | None => false end).
