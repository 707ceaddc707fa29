(** Cholesky factorisation, over the real numbers (rounding idealised away).  The
    matrix being built is a function of its indices, turned into rows at the end; all
    indices used are below its size. *)
From Coq Require Import Bool List Reals.
Import ListNotations.
From Verif Require Import Outcome.
Open Scope R_scope.

(** [l[i][j] = x] *)
Definition upd (l : nat -> nat -> R) (i j : nat) (x : R) : nat -> nat -> R :=
  fun a b => if ((a =? i) && (b =? j))%nat then x else l a b.

(** [m[i][j]] *)
Definition index (m : list (list R)) (i j : nat) : outcome R :=
  match nth_error m i with
  | Some row => match nth_error row j with Some x => Ok x | None => Panic PIndex end
  | None => Panic PIndex
  end.

(** src/models/interestrate/fmm.rs:879-882  the partial sum *)
Definition residual (l : nat -> nat -> R) (x : R) (i j : nat) : R :=
  fold_left (fun sum k => sum - l i k * l j k) (seq 0 j) x.

(** src/models/interestrate/fmm.rs:878-891  the loop over the columns of row [i] *)
Fixpoint cells (m : list (list R)) (i : nat) (js : list nat) (l : nat -> nat -> R) : outcome (option (nat -> nat -> R)) :=
  match js with
  | [] => Ok (Some l)
  | j :: js =>
      do x <- index m i j;
      let sum := residual l x i j in
      if (i =? j)%nat then
        if Rle_dec sum 0 then Ok None
        else cells m i js (upd l i i (sqrt sum))
      else cells m i js (upd l i j (sum / l j j))
  end.

(** src/models/interestrate/fmm.rs:877-892  the loop over the rows *)
Fixpoint rows (m : list (list R)) (is : list nat) (l : nat -> nat -> R) : outcome (option (nat -> nat -> R)) :=
  match is with
  | [] => Ok (Some l)
  | i :: is =>
      do r <- cells m i (seq 0 (S i)) l;
      match r with None => Ok None | Some l => rows m is l end
  end.

(** src/models/interestrate/fmm.rs:874-894 and src/models/forex/fx_fmm_simulator.rs:408-428
    cholesky *)
Definition cholesky (m : list (list R)) : outcome (option (list (list R))) :=
  let n := length m in
  do r <- rows m (seq 0 n) (fun _ _ => 0);
  Ok (match r with
      | None => None
      | Some l => Some (map (fun i => map (l i) (seq 0 n)) (seq 0 n))
      end).

(** src/models/forex/fx_hhw.rs:34-42  struct Correlation4x4 *)
Record correlation4 := {
  rho_xi_sigma : R; rho_xi_d : R; rho_xi_f : R; rho_sigma_d : R; rho_sigma_f : R; rho_d_f : R }.

(** src/models/forex/fx_hhw.rs:46-61  Correlation4x4::as_matrix *)
Definition as_matrix (c : correlation4) : list (list R) :=
  let a := rho_xi_sigma c in let b := rho_xi_d c in let c' := rho_xi_f c in
  let d := rho_sigma_d c in let e := rho_sigma_f c in let f := rho_d_f c in
  [[1; a; b; c'];
   [a; 1; d; e];
   [b; d; 1; f];
   [c'; e; f; 1]].

(** src/models/forex/fx_hhw.rs:66-69, 82-101  Correlation4x4::cholesky.  [cholesky_4x4] is
    the same text as [cholesky] with the size fixed at 4. *)
Definition cholesky4 (c : correlation4) : outcome (option (list (list R))) := cholesky (as_matrix c).

(** src/models/forex/fx_hhw.rs:74-76  Correlation4x4::is_valid *)
Definition is_valid (c : correlation4) : outcome bool :=
  do r <- cholesky4 c; Ok (match r with Some _ => true | None => false end).
