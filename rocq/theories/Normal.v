(** The standard normal density and distribution function, as real functions. *)
From Coq Require Import Reals.
From Coquelicot Require Import Coquelicot.
Open Scope R_scope.

(** src/math/normal.rs:19-22  pdf (statrs' [Normal::pdf] for mean 0, deviation 1) *)
Definition pdf (x : R) : R := exp (- (x * x) / 2) / sqrt (2 * PI).

(** src/math/normal.rs:14-17  cdf: statrs computes [erfc (- x / sqrt 2) / 2], which
    is one half plus the integral of the density from 0.  Simplification: the
    error of that approximation and rounding are left out. *)
Definition cdf (x : R) : R := 1 / 2 + RInt pdf 0 x.
