(** Rust machine integers, as far as finquant's observable behaviour depends
    on them.  [oc] is the build profile: [true] = overflow checks on (debug,
    test), [false] = off (plain release), where the operation wraps. *)
From Coq Require Import ZArith.
From Verif Require Import Outcome.
Open Scope Z_scope.

Definition i64_min : Z := - 2 ^ 63.
Definition i64_max : Z := 2 ^ 63 - 1.
Definition u32_max : Z := 2 ^ 32 - 1.
Definition is_i64 (z : Z) : bool := (i64_min <=? z) && (z <=? i64_max).
Definition is_u32 (z : Z) : bool := (0 <=? z) && (z <=? u32_max).
Definition wrap_i64 (z : Z) : Z := (z + 2 ^ 63) mod 2 ^ 64 - 2 ^ 63.
Definition wrap_u32 (z : Z) : Z := z mod 2 ^ 32.

(** i64 multiplication *)
Definition mul_i64 (oc : bool) (a b : Z) : outcome Z :=
  if is_i64 (a * b) then Ok (a * b)
  else if oc then Panic PArith else Ok (wrap_i64 (a * b)).

(** u32 multiplication *)
Definition mul_u32 (oc : bool) (a b : Z) : outcome Z :=
  if is_u32 (a * b) then Ok (a * b)
  else if oc then Panic PArith else Ok (wrap_u32 (a * b)).

(** [x as usize] for an i64 on a 64-bit target. *)
Definition i64_as_usize (z : Z) : Z := z mod 2 ^ 64.
