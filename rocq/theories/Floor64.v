(** Floors and clamps in binary64: what [f64::max] and [f64::clamp] make of the arithmetic
    they are applied to, NaN and the infinities included.  Exponentials and powers, which
    IEEE 754 does not determine, are arbitrary functions on doubles. *)
From Coq Require Import Bool List Arith ZArith.
Import ListNotations.
From Flocq Require Import Core BinarySingleNaN.
From Verif Require Import Outcome F64 Clock64 Chol64 Bisect64 Lerp64.
Open Scope Z_scope.

(** [f64::max]: a NaN on one side gives the other side.  Simplification: of two zeros of
    different sign the first is taken, where Rust leaves the choice open. *)
Definition fmax (x y : f64) : f64 := if is_nan x then y else if is_nan y then x else if Bltb x y then y else x.
(** [f64::clamp] with bounds in order, as in Rust's core library: two comparisons, so a NaN
    passes through *)
Definition fclamp (x lo hi : f64) : f64 :=
  let x := if Bltb x lo then lo else x in
  if Bltb hi x then hi else x.

(** src/models/common/cir.rs:233-240  CirSimulator::step, with the normal draw [z] *)
Definition cir_step64 (kappa theta gamma dt state z : f64) : f64 :=
  let sigma := fmax state zero64 in
  fmax (fadd (fadd sigma (fmul (fmul kappa (fsub theta sigma)) dt))
             (fmul (fmul (fmul gamma (fsqrt sigma)) (fsqrt dt)) z)) zero64.
(** src/models/forex/fx_hhw.rs:249-259, src/models/forex/fx_hhw_stock.rs:170-180,
    src/models/forex/fx_fmm_simulator.rs:161-166  the variance of one step, with the
    increment [dw] *)
Definition variance_step64 (kappa theta gamma dt state dw : f64) : f64 :=
  let sigma := fmax state zero64 in
  let sqrt_sigma := fsqrt sigma in
  fmax (fadd (fadd sigma (fmul (fmul kappa (fsub theta sigma)) dt))
             (fmul (fmul gamma sqrt_sigma) dw)) zero64.
(** src/models/forex/fx_hhw_stock.rs:191-201  the stock variance of one step; [rho_swo] and
    [rho_xsf] are the two correlations and [sqrt_sigma] the square root of the FX variance *)
Definition stock_variance64 (kappa theta gamma rho_swo rho_xsf sqrt_sigma dt state dw : f64) : f64 :=
  let omega := fmax state zero64 in
  let sqrt_omega := fsqrt omega in
  let drift := fsub (fmul kappa (fsub theta omega)) (fmul (fmul (fmul (fmul rho_swo rho_xsf) gamma) sqrt_omega) sqrt_sigma) in
  fmax (fadd (fadd omega (fmul drift dt)) (fmul (fmul gamma sqrt_omega) dw)) zero64.

(** src/models/forex/sabr.rs:197-221, src/models/forex/sabr_time_dependent.rs:135-175
    step_with_noise after its assertion: the forward and the volatility of one step.
    [sq] is the square root of one minus the square of rho. *)
Definition sabr_step64 (powf : f64 -> f64 -> f64) (exp : f64 -> f64) (beta rho nu sq dt z1 z2 : f64) (state : f64 * f64) : f64 * f64 :=
  let sqrt_dt := fsqrt dt in
  let dw_f := fmul sqrt_dt z1 in
  let dw_a := fmul sqrt_dt (fadd (fmul rho z1) (fmul sq z2)) in
  let f := fmax (fst state) zero64 in
  let alpha := fmax (snd state) zero64 in
  let diffusion_f := fmul (fmul alpha (powf f beta)) dw_f in
  let new_forward := fmax (fadd f diffusion_f) zero64 in
  let log_drift := fmul (fmul (fmul (Bopp half64) nu) nu) dt in
  let log_diffusion := fmul nu dw_a in
  (new_forward, fmul alpha (exp (fadd log_drift log_diffusion))).

(** src/models/forex/sabr_slv.rs:140-146  the leverage: [lv_var] is the local variance at
    the time and the floored forward, [e_vol2] the mean of its bin and [p] the power of the forward *)
Definition leverage64 (lv_var e_vol2 p : f64) : f64 :=
  let f_scaling := fmul p p in
  let denom := fmax (fmul e_vol2 f_scaling) lit_12 in
  let sigma_slv_sq := fmax (fdiv lv_var denom) zero64 in
  fsqrt sigma_slv_sq.
(** src/models/forex/sabr_slv.rs:131-158  one step of one path; [lookup] is lookup_bin on
    the bins of the slice and [lv] the local variance at the middle of the step *)
Definition slv_step64 (powf : f64 -> f64 -> f64) (exp lookup lv : f64 -> f64) (beta rho nu sq dt sqrt_dt z1 z2 : f64) (state : f64 * f64) : f64 * f64 :=
  let dw_f := fmul sqrt_dt z1 in
  let dw_a := fmul sqrt_dt (fadd (fmul rho z1) (fmul sq z2)) in
  let f := fmax (fst state) lit_12 in
  let vol := fmax (snd state) zero64 in
  let sigma_slv := leverage64 (lv f) (lookup f) (powf f (fsub beta one64)) in
  let diffusion_f := fmul (fmul (fmul sigma_slv vol) (powf f beta)) dw_f in
  (fmax (fadd f diffusion_f) zero64, fmul vol (exp (fadd (fmul (fmul (fmul (Bopp half64) nu) nu) dt) (fmul nu dw_a)))).

(** src/derivatives/forex/option.rs:65-68, src/models/common/bachelier.rs:24 and 34,
    src/models/common/black_scholes.rs:20 and 31  the intrinsic value of a call (a put with the
    two exchanged) *)
Definition intrinsic64 (forward strike : f64) : f64 := fmax (fsub forward strike) zero64.

(** [0.01] and [2.0] *)
Definition lit_2 : f64 := f64_lit 5764607523034235 (-59).
Definition two64 : f64 := f64_of_Z 2.
(** [c[i][j]]; the asserts of [build] put every index it uses in range *)
Definition cell64 (c : list (list f64)) (i j : nat) : f64 := nth j (nth i c []) zero64.
(** src/models/forex/dupire_local_vol.rs:187-196  fd_t *)
Definition fd_t64 (c : list (list f64)) (ts : list f64) (i j : nat) : f64 :=
  let n := length ts in
  if (i =? 0)%nat then fdiv (fsub (cell64 c 1 j) (cell64 c 0 j)) (fsub (nth 1 ts zero64) (nth 0 ts zero64))
  else if (i =? n - 1)%nat then fdiv (fsub (cell64 c (n - 1) j) (cell64 c (n - 2) j)) (fsub (nth (n - 1) ts zero64) (nth (n - 2) ts zero64))
  else fdiv (fsub (cell64 c (i + 1) j) (cell64 c (i - 1) j)) (fsub (nth (i + 1) ts zero64) (nth (i - 1) ts zero64)).
(** src/models/forex/dupire_local_vol.rs:199-208  fd_k *)
Definition fd_k64 (row ks : list f64) (j : nat) : f64 :=
  let n := length ks in
  if (j =? 0)%nat then fdiv (fsub (nth 1 row zero64) (nth 0 row zero64)) (fsub (nth 1 ks zero64) (nth 0 ks zero64))
  else if (j =? n - 1)%nat then fdiv (fsub (nth (n - 1) row zero64) (nth (n - 2) row zero64)) (fsub (nth (n - 1) ks zero64) (nth (n - 2) ks zero64))
  else fdiv (fsub (nth (j + 1) row zero64) (nth (j - 1) row zero64)) (fsub (nth (j + 1) ks zero64) (nth (j - 1) ks zero64)).
(** src/models/forex/dupire_local_vol.rs:220-232  fd_kk.  The recursion at the ends is taken
    once: with three strikes or more, 1 and [n - 2] are inside. *)
Definition fd_kk64 (row ks : list f64) (j : nat) : f64 :=
  let n := length ks in
  let j := if (j =? 0)%nat then 1%nat else if (j =? n - 1)%nat then (n - 2)%nat else j in
  let h1 := fsub (nth j ks zero64) (nth (j - 1) ks zero64) in
  let h2 := fsub (nth (j + 1) ks zero64) (nth j ks zero64) in
  let hs := fadd h1 h2 in
  fdiv (fmul two64 (fadd (fsub (fmul (nth (j + 1) row zero64) h1) (fmul (nth j row zero64) hs)) (fmul (nth (j - 1) row zero64) h2)))
       (fmul (fmul h1 h2) hs).
(** src/models/forex/dupire_local_vol.rs:106-116  the guard and the clamp at a node *)
Definition node64 (numer denom vol : f64) : f64 :=
  let var := if Bltb lit_8 denom && Bltb zero64 numer then fdiv (fmul two64 numer) denom else fmul vol vol in
  fclamp var (fmul lit_2 lit_2) (fmul two64 two64).
(** src/models/forex/dupire_local_vol.rs:101-104  the numerator at a node *)
Definition numer64 (c : list (list f64)) (ts ks : list f64) (rd rf : f64) (i j : nat) : f64 :=
  let k := nth j ks zero64 in
  fadd (fadd (fd_t64 c ts i j) (fmul (fmul (fsub rd rf) k) (fd_k64 (nth i c []) ks j))) (fmul rf (cell64 c i j)).
(** src/models/forex/dupire_local_vol.rs:98-118  the variance at a node *)
Definition node_variance64 (c : list (list f64)) (ts ks : list f64) (vols : list (list f64)) (rd rf : f64) (i j : nat) : f64 :=
  let k := nth j ks zero64 in
  node64 (numer64 c ts ks rd rf i j) (fmul (fmul k k) (fd_kk64 (nth i c []) ks j)) (cell64 vols i j).
(** src/models/forex/dupire_local_vol.rs:75-80  the asserts over [windows(2)] *)
Fixpoint increasing64 (l : list f64) : bool :=
  match l with
  | a :: ((b :: _) as l') => Bltb a b && increasing64 l'
  | _ => true
  end.
(** src/models/forex/dupire_local_vol.rs:59-126  build, after the call prices [c] have been
    computed: the variances.  Simplification: the call prices are an argument. *)
Definition build64 (c : list (list f64)) (ts ks : list f64) (vols : list (list f64)) (spot rd rf : f64) : outcome (list (list f64)) :=
  if negb (3 <=? length ts)%nat then Panic PAssert
  else if negb (3 <=? length ks)%nat then Panic PAssert
  else if negb (length vols =? length ts)%nat then Panic PAssert
  else if negb (forallb (fun row => (length row =? length ks)%nat) vols) then Panic PAssert
  else if negb (increasing64 ts) then Panic PAssert
  else if negb (increasing64 ks) then Panic PAssert
  else if negb (Bltb zero64 spot) then Panic PAssert
  else Ok (map (fun i => map (node_variance64 c ts ks vols rd rf i) (seq 0 (length ks))) (seq 0 (length ts))).
