(** The checks of model parameters in binary64: the comparisons of Rust's [f64], false whenever
    one side is NaN.  A check that returns an error when a comparison holds and an assertion
    that panics unless one holds then part ways. *)
From Coq Require Import Bool List Arith ZArith.
Import ListNotations.
From Flocq Require Import Core BinarySingleNaN.
From Verif Require Import Outcome F64 Clock64 Chol64 Bisect64 Floor64.
From Verif Require Hlmm.
Open Scope Z_scope.

(** [1.0 + 1e-12] *)
Definition cap64 : f64 := fadd one64 lit_12.
(** src/models/forex/fx_hlmm.rs:248-257, src/models/forex/fx_fmm.rs:237-247  a correlation out
    of range *)
Definition check_entry64 (c : f64) : outcome unit := if Bltb cap64 (fabs c) then Err EInvalidData else Ok tt.
(** src/models/forex/fx_hlmm.rs:160-177 and src/models/forex/fx_fmm.rs:98-115  the checks of a
    correlation matrix that already has [n] rows *)
Definition check_corr64 (c : list (list f64)) (n : nat) : outcome unit :=
  do _ <- Hlmm.ofor (fun row : list f64 => if negb (length row =? n)%nat then Err EInvalidData else Ok tt) c;
  Hlmm.ofor (fun i =>
    do d <- index64 c i i;
    if Bltb lit_12 (fabs (fsub d one64)) then Err EInvalidData
    else Hlmm.ofor (fun j =>
      do x <- index64 c i j; do y <- index64 c j i;
      if Bltb lit_12 (fabs (fsub x y)) then Err EInvalidData
      else if Bltb cap64 (fabs x) then Err EInvalidData else Ok tt) (seq 0 n)) (seq 0 n).
(** src/models/forex/fx_hlmm.rs:141-182  DdSvLmm::validate, for a tenor of [n] periods *)
Definition lmm_validate64 (n : nat) (sigmas betas : list f64) (lambda eta v0 : f64) (corr : list (list f64)) : outcome unit :=
  if negb (length sigmas =? n)%nat then Err EInvalidData
  else if negb (length betas =? n)%nat then Err EInvalidData
  else if negb (length corr =? n)%nat then Err EInvalidData
  else
    do _ <- check_corr64 corr n;
    if Bleb lambda zero64 || Bleb eta zero64 || Bleb v0 zero64 then Err EInvalidData else Ok tt.
(** src/models/forex/fx_hlmm.rs:216-259  FxHlmmCorrelations::validate *)
Definition hlmm_corr_validate64 (n : nat) (xi_sigma : f64) (xi_d xi_f : list f64) (cross : list (list f64)) : outcome unit :=
  if Bltb cap64 (fabs xi_sigma) then Err EInvalidData
  else if negb (length xi_d =? n)%nat then Err EInvalidData
  else if negb (length xi_f =? n)%nat then Err EInvalidData
  else if negb (length cross =? n)%nat then Err EInvalidData
  else
    do _ <- Hlmm.ofor (fun row : list f64 => if negb (length row =? n)%nat then Err EInvalidData else Hlmm.ofor check_entry64 row) cross;
    do _ <- Hlmm.ofor check_entry64 xi_d;
    Hlmm.ofor check_entry64 xi_f.
(** src/models/forex/fx_fmm.rs:86-125  FmmSide::validate, for a tenor of [m] rates *)
Definition side_validate64 (m : nat) (sigmas : list f64) (lambda eta v0 : f64) (corr : list (list f64)) : outcome unit :=
  if negb (length sigmas =? m)%nat then Err EInvalidData
  else if negb (length corr =? m)%nat then Err EInvalidData
  else
    do _ <- check_corr64 corr m;
    if Bleb lambda zero64 || Bleb eta zero64 || Bleb v0 zero64 then Err EInvalidData
    else Hlmm.ofor (fun s => if negb (is_finite s) || Bltb s zero64 then Err EInvalidData else Ok tt) sigmas.
(** src/models/forex/fx_fmm.rs:191-249  FxFmmCorrelations::validate *)
Definition fmm_corr_validate64 (m : nat) (xi_sigma : f64) (xi_d xi_f sigma_d sigma_f : list f64) (cross : list (list f64)) : outcome unit :=
  if Bltb cap64 (fabs xi_sigma) then Err EInvalidData
  else if negb (length xi_d =? m)%nat then Err EInvalidData
  else if negb (length xi_f =? m)%nat then Err EInvalidData
  else if negb (length sigma_d =? m)%nat then Err EInvalidData
  else if negb (length sigma_f =? m)%nat then Err EInvalidData
  else if negb (length cross =? m)%nat then Err EInvalidData
  else
    do _ <- Hlmm.ofor (fun row : list f64 => if negb (length row =? m)%nat then Err EInvalidData else Hlmm.ofor check_entry64 row) cross;
    Hlmm.ofor check_entry64 (xi_d ++ xi_f ++ sigma_d ++ sigma_f).
(** src/models/forex/fx_hhw_stock.rs:110-115  the two correlations of FxHhwStockSimulator::new *)
Definition stock_check64 (xi_sf sf_omega : f64) : outcome unit :=
  if Bltb one64 (fabs xi_sf) then Err EInvalidData
  else if Bltb one64 (fabs sf_omega) then Err EInvalidData
  else Ok tt.

(** src/models/interestrate/fmm.rs:230-264  the assertions of Fmm::new, for a tenor of [m]
    rates.  Simplification: an index out of range, which fails one of the assertions on the
    lengths too, is not told apart from a failed assertion. *)
Definition fmm_new64 (m : nat) (sigmas : list f64) (c : list (list f64)) : outcome unit :=
  if negb (length sigmas =? m)%nat then Panic PAssert
  else if negb (length c =? m)%nat then Panic PAssert
  else if negb (forallb (fun i =>
      (length (nth i c []) =? m)%nat &&
      Bltb (fabs (fsub (cell64 c i i) one64)) lit_12 &&
      forallb (fun j => Bltb (fabs (fsub (cell64 c i j) (cell64 c j i))) lit_12 && Bleb (fabs (cell64 c i j)) cap64) (seq 0 m)) (seq 0 m)) then Panic PAssert
  else if negb (forallb (fun s => is_finite s && Bleb zero64 s) sigmas) then Panic PAssert
  else Ok tt.
(** src/models/forex/sabr.rs:44-55  the assertions of SabrParams::new *)
Definition sabr_new64 (alpha beta rho nu : f64) : outcome unit :=
  if negb (Bltb zero64 alpha) then Panic PAssert
  else if negb (Bleb zero64 beta && Bleb beta one64) then Panic PAssert
  else if negb (Bltb (Bopp one64) rho && Bltb rho one64) then Panic PAssert
  else if negb (Bleb zero64 nu) then Panic PAssert
  else Ok tt.
(** src/models/forex/sabr_time_dependent.rs:53-67  the assertions of
    TimeDependentSabrParams::new after those on the knots *)
Definition td_new64 (alphas rhos nus : list f64) (beta forward_0 : f64) : outcome unit :=
  if negb (Bleb zero64 beta && Bleb beta one64) then Panic PAssert
  else if negb (Bltb zero64 forward_0) then Panic PAssert
  else if negb (forallb (fun a => Bltb zero64 a) alphas) then Panic PAssert
  else if negb (forallb (fun n => Bleb zero64 n) nus) then Panic PAssert
  else if negb (forallb (fun r => Bltb (Bopp one64) r && Bltb r one64) rhos) then Panic PAssert
  else Ok tt.
(** src/models/interestrate/fmm.rs:67-82  the assertions of FmmTenor::new; without the first,
    src/models/forex/fx_hlmm.rs:62-76  LiborTenor::new, which then indexes out of range on no
    dates *)
Definition tenor_new64 (ds rates : list f64) : outcome unit :=
  if negb (2 <=? length ds)%nat then Panic PAssert
  else if negb (length ds =? length rates + 1)%nat then Panic PAssert
  else if negb (Bleb zero64 (nth 0 ds zero64)) then Panic PAssert
  else if negb (increasing64 ds) then Panic PAssert
  else Ok tt.
