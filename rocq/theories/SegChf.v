(** What the forward characteristic functions of the FX-HLMM1 and FX-FMM1 models share, over the real numbers
    (rounding idealised away).  A complex division by zero, not a number in the code, is zero here; the
    theorems show where it does not arise. *)
From Coq Require Import Bool List Arith Reals.
Import ListNotations.
From Coquelicot Require Import Coquelicot.
From Verif Require Import Outcome ForwardPoints VolSurface Processes ProcessFacts HullWhite Complexes CLog Hhw1Chf Hlmm.
Open Scope R_scope.

(** src/models/forex/fx_hlmm1_chf.rs:41-48, src/models/forex/fx_fmm1_chf.rs:42-49  struct ChfComponents *)
Record seg_components := { s_a : C; s_b : C; s_c : C; s_dd : C; s_df : C }.
(** src/models/forex/fx_hlmm1_chf.rs:52-54, src/models/forex/fx_fmm1_chf.rs:53-55  ChfComponents::assemble *)
Definition seg_assemble (q : seg_components) (x sigma v_d v_f : R) : C :=
  cexp (s_a q + s_b q * RtoC x + s_c q * RtoC sigma + s_dd q * RtoC v_d + s_df q * RtoC v_f)%C.

(** src/models/forex/fx_hlmm1_chf.rs:59-71, src/models/forex/fx_fmm1_chf.rs:59-72  struct Segment, struct SubSegment *)
Record segment := { sg_tau : R; sg_length : R; sg_start : nat; sg_ad : R; sg_af : R }.

(** src/models/forex/fx_hlmm1_chf.rs:277-300, src/models/forex/fx_fmm1_chf.rs:331-354  heston_a_closed_form *)
Definition heston_a (u : C) (kappa theta gamma rho tau : R) : C :=
  if Rle_dec tau 0 then 0%C
  else
    let iu := (I_ * u)%C in
    let x := (RtoC kappa - RtoC gamma * RtoC rho * iu)%C in
    let d := csqrt (x * x - RtoC gamma * RtoC gamma * iu * (iu - 1))%C in
    let g := ((x - d) / (x + d))%C in
    let e := cexp (- d * RtoC tau)%C in
    (RtoC (kappa * theta) / (RtoC gamma * RtoC gamma) * ((x - d) * RtoC tau - RtoC 2 * cln ((1 - g * e) / (1 - g))))%C.
(** src/models/forex/fx_hlmm1_chf.rs:263-275, src/models/forex/fx_fmm1_chf.rs:318-329  heston_a_increment *)
Definition heston_a_increment (u : C) (kappa theta gamma rho tau1 tau2 : R) : C :=
  (heston_a u kappa theta gamma rho tau2 - heston_a u kappa theta gamma rho tau1)%C.

(** src/models/forex/fx_hlmm1_chf.rs:306-340, src/models/forex/fx_fmm1_chf.rs:359-389  advance_d_riccati *)
Definition advance_d (u : C) (lambda eta a_j v_0 : R) (d_prev : C) (s : R) : C * C :=
  if Rle_dec s 0 then (d_prev, RtoC 0)
  else
    let iu := (I_ * u)%C in
    let u2_plus_iu := (u * u + iu)%C in
    let eta_sq := eta * eta in
    let delta := csqrt (RtoC (lambda * lambda) + RtoC (eta_sq * a_j) * u2_plus_iu)%C in
    let denom := (RtoC lambda + delta - RtoC eta_sq * d_prev)%C in
    let num := (RtoC lambda - delta - RtoC eta_sq * d_prev)%C in
    let ell := (num / denom)%C in
    let e := cexp (- delta * RtoC s)%C in
    let chi := (num * (1 - e) / (RtoC eta_sq * (1 - ell * e)))%C in
    let d_new := (d_prev + chi)%C in
    let coef := RtoC (v_0 * lambda / eta_sq) in
    let delta_a := (coef * ((RtoC lambda - delta) * RtoC s - RtoC 2 * cln ((1 - ell * e) / (1 - ell))))%C in
    (d_new, delta_a).

(** src/models/forex/fx_hlmm1_chf.rs:349-366, src/models/forex/fx_fmm1_chf.rs:396-413  simpson_f_integral, on
    the code's [f] at the calendar time *)
Definition f_integral (f : R -> nat -> outcome R) (expiry tau1 tau2 : R) (start n : nat) : outcome C :=
  let h := (tau2 - tau1) / INR n in
  do acc <- oadd (fun k =>
    let s := tau1 + INR k * h in
    let t := expiry - s in
    do val <- f t start;
    Ok (weight k n * val)) (seq 0 (S n)) 0;
  Ok (RtoC (acc * h / 3)).

Section Components.
  Context (heston : cir_process R_numbers) (rho : R) (ld ed vd lf ef vf : R).
  Context (f : R -> nat -> outcome R) (expiry : R) (n : nat).

  (** src/models/forex/fx_hlmm1_chf.rs:167-221, src/models/forex/fx_fmm1_chf.rs:227-280  the loop over the segments *)
  Fixpoint run_segments (u : C) (segs : list segment) (a d_d d_f : C) (tau_prev : R) : outcome (C * C * C) :=
    match segs with
    | [] => Ok (a, d_d, d_f)
    | seg :: segs =>
        let s_j := sg_length seg in
        let tau_j := sg_tau seg in
        let (d_d_new, delta_a_dd) := advance_d u ld ed (sg_ad seg) vd d_d s_j in
        let (d_f_new, delta_a_df) := advance_d u lf ef (sg_af seg) vf d_f s_j in
        let delta_a_c := heston_a_increment u (kappa heston) (theta heston) (gamma heston) rho tau_prev tau_j in
        do fi <- f_integral f expiry tau_prev tau_j (sg_start seg) n;
        let u2_plus_iu := (u * u + I_ * u)%C in
        let delta_a_f := (RtoC (- (1 / 2)) * u2_plus_iu * fi)%C in
        run_segments u segs (a + (delta_a_c + delta_a_dd + delta_a_df + delta_a_f))%C d_d_new d_f_new tau_j
    end.

  (** src/models/forex/fx_hlmm1_chf.rs:153-224, src/models/forex/fx_fmm1_chf.rs:214-283  components *)
  Definition seg_run (u : C) (segs : list segment) : outcome seg_components :=
    let b := (I_ * u)%C in
    let c := heston_c u (kappa heston) (gamma heston) rho expiry in
    do (a, d_d, d_f) <- run_segments u segs 0%C 0%C 0%C 0;
    Ok {| s_a := a; s_b := b; s_c := c; s_dd := d_d; s_df := d_f |}.
End Components.

(** src/models/forex/fx_hlmm1_chf.rs:99-114, src/models/forex/fx_fmm1_chf.rs:134-146  the boundaries of the segments *)
Definition tau_boundaries (dates : list R) (n : nat) (expiry : R) : outcome (list R) :=
  do last <- pred_index n;
  do ds <- omapM (oindex dates) (rev (from_to 0 last));
  let bs := filter (fun tau_b => (if Rlt_dec 0 tau_b then true else false) && (if Rlt_dec tau_b (expiry + slack) then true else false))
    (map (fun d => expiry - d) ds) in
  let missing := match rev bs with [] => true | t :: _ => if Rlt_dec slack (Rabs (t - expiry)) then true else false end in
  Ok (if missing then bs ++ expiry :: nil else bs).
