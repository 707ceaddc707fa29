(** Piecewise-constant schedules, the effective parameters of the time-dependent SABR model
    and its path simulator, over the real numbers (rounding idealised away). *)
From Coq Require Import Bool List Arith Reals.
Import ListNotations.
From Verif Require Import Outcome Processes ProcessFacts.
Open Scope R_scope.

Definition Rltb (x y : R) : bool := if Rlt_dec x y then true else false.
Definition Rleb (x y : R) : bool := if Rle_dec x y then true else false.
(** [assert_eq!] on two vectors *)
Definition same_list (l m : list R) : bool := if list_eq_dec Req_EM_T l m then true else false.

(** src/models/forex/sabr_effective.rs:49-52  struct PiecewiseConstant *)
Record schedule := { knots : list R; values : list R }.

(** src/models/forex/sabr_effective.rs:63-65  the loop of asserts in PiecewiseConstant::new *)
Fixpoint increasing (prev : R) (l : list R) : bool :=
  match l with [] => true | x :: l => Rltb prev x && increasing x l end.

(** src/models/forex/sabr_effective.rs:55-67  PiecewiseConstant::new *)
Definition schedule_new (ks vs : list R) : outcome schedule :=
  if negb (2 <=? length ks)%nat then Panic PAssert
  else if negb (length vs + 1 =? length ks)%nat then Panic PAssert
  else match ks with
       | [] => Panic PIndex
       | k0 :: rest =>
           if negb (Rltb (Rabs k0) (/ 10 ^ 15)) then Panic PAssert
           else if negb (increasing k0 rest) then Panic PAssert
           else Ok {| knots := ks; values := vs |}
       end.

(** src/models/forex/sabr_effective.rs:71-73  PiecewiseConstant::constant *)
Definition schedule_constant (t v : R) : outcome schedule := schedule_new [0; t] [v].

(** src/models/forex/sabr_effective.rs:75-77  PiecewiseConstant::n_segments *)
Definition n_segments (s : schedule) : nat := length (values s).

(** [last().unwrap()] *)
Definition last_unwrap (l : list R) : outcome R := match rev l with [] => Panic PUnwrap | x :: _ => Ok x end.

(** src/models/forex/sabr_effective.rs:79-81  PiecewiseConstant::final_time *)
Definition final_time (s : schedule) : outcome R := last_unwrap (knots s).

(** src/models/forex/sabr_effective.rs:89-94  the loop of PiecewiseConstant::at over the
    knots after the first and the values, which it indexes one place behind *)
Fixpoint at_from (t : R) (ks vs : list R) (otherwise : outcome R) : outcome R :=
  match ks with
  | [] => otherwise
  | k :: ks =>
      if Rle_dec t (k + / 10 ^ 15) then match vs with [] => Panic PIndex | v :: _ => Ok v end
      else at_from t ks (tl vs) otherwise
  end.

(** src/models/forex/sabr_effective.rs:84-95  PiecewiseConstant::at *)
Definition schedule_at (s : schedule) (t : R) : outcome R :=
  do last <- final_time s;
  if negb (Rleb 0 t && Rleb t (last + / 10 ^ 15)) then Panic PAssert
  else match knots s with
       | [] => Panic PIndex
       | k0 :: rest =>
           if Rle_dec t k0 then match values s with [] => Panic PIndex | v :: _ => Ok v end
           else at_from t rest (values s) (last_unwrap (values s))
       end.

(** [f64::exp_m1] *)
Definition exp_m1 (x : R) : R := exp x - 1.

(** src/models/forex/sabr_effective.rs:101-109  exp_seg *)
Definition exp_seg (c delta : R) : R :=
  let cd := c * delta in
  if Rlt_dec (Rabs cd) (/ 10 ^ 8) then delta * (1 + 1 / 2 * cd + cd * cd / 6 + cd * cd * cd / 24)
  else exp_m1 cd / c.

(** src/models/forex/sabr_effective.rs:116-129  exp_seg_diff_kernel *)
Definition exp_seg_diff_kernel (gamma_sq delta : R) : R :=
  if Rlt_dec (Rabs (gamma_sq * delta)) (/ 10 ^ 4) then
    let g := gamma_sq in
    let d := delta in
    1 / 2 * d * d + 7 / 6 * g * d * d * d + 43 / 24 * g * g * d * d * d * d
  else
    let e6 := exp_seg (6 * gamma_sq) delta in
    let e1 := exp_seg gamma_sq delta in
    (e6 - e1) / (5 * gamma_sq).

(** src/models/forex/sabr_effective.rs:149-154  the number of knots up to the expiry *)
Fixpoint count_while (f : R -> bool) (l : list R) : nat :=
  match l with [] => 0%nat | x :: l => if f x then S (count_while f l) else 0%nat end.
(** src/models/forex/sabr_effective.rs:155-157  the differences of successive knots *)
Fixpoint differences (n : nat) (l : list R) : list R :=
  match n, l with
  | S n, a :: (b :: _) as r => (b - a) :: differences n r
  | _, _ => []
  end.
(** [v[..n].to_vec()] *)
Definition slice_to (n : nat) (l : list R) : outcome (list R) :=
  if (n <=? length l)%nat then Ok (firstn n l) else Panic PIndex.

(** src/models/forex/sabr_effective.rs:134-161  aligned_segments.  The three vectors, of
    the same length by construction, are returned as a list of triples. *)
Definition aligned_segments (gamma omega1 : schedule) (expiry : R) : outcome (list (R * R * R)) :=
  if negb (same_list (knots gamma) (knots omega1)) then Panic PAssert
  else if negb (existsb (fun t => Rltb (Rabs (t - expiry)) (/ 10 ^ 12)) (knots gamma)) then Panic PAssert
  else
    let n := (count_while (fun t => Rleb t (expiry + / 10 ^ 12)) (knots gamma) - 1)%nat in
    let deltas := differences n (knots gamma) in
    do gs <- slice_to n (values gamma);
    do os <- slice_to n (values omega1);
    Ok (combine (combine deltas gs) os).

(** src/models/forex/sabr_effective.rs:164-174  i_integral, the loop *)
Fixpoint i_from (g_prev total : R) (segs : list (R * R * R)) : R :=
  match segs with
  | [] => total
  | (delta, g, o) :: segs =>
      let g_sq := g * g in
      let o_sq := o * o in
      let total := total + o_sq * exp g_prev * exp_seg g_sq delta in
      let g_prev := g_prev + g_sq * delta in
      i_from g_prev total segs
  end.
Definition i_integral (segs : list (R * R * R)) : R := i_from 0 0 segs.

(** src/models/forex/sabr_effective.rs:177-197  lhs_double_integral, the loop *)
Fixpoint lhs_from (g_prev h_prev total : R) (segs : list (R * R * R)) : R :=
  match segs with
  | [] => total
  | (delta, g, o) :: segs =>
      let g_sq := g * g in
      let o_sq := o * o in
      let o4 := o_sq * o_sq in
      let piece_a := o_sq * exp g_prev * h_prev * exp_seg g_sq delta in
      let piece_b := o4 * exp (6 * g_prev) * exp_seg_diff_kernel g_sq delta in
      let total := total + (piece_a + piece_b) in
      let h_prev := h_prev + o_sq * exp (5 * g_prev) * exp_seg (5 * g_sq) delta in
      let g_prev := g_prev + g_sq * delta in
      lhs_from g_prev h_prev total segs
  end.
Definition lhs_double_integral (segs : list (R * R * R)) : R := lhs_from 0 0 0 segs.

(** src/models/forex/sabr_effective.rs:214-228  rhs_at_gamma_tilde *)
Definition rhs_at_gamma_tilde (gamma_tilde_sq expiry i_val : R) : R :=
  let x := gamma_tilde_sq * expiry in
  let denom := exp_m1 x in
  if Rlt_dec (Rabs denom) (/ 10 ^ 300) then 1 / 2 * i_val * i_val
  else
    let inner :=
      if Rlt_dec (Rabs x) (/ 10 ^ 3) then
        let x2 := x * x in
        5 / 2 * x2 + 35 / 6 * x2 * x + 215 / 24 * x2 * x2 + 1295 / 120 * x2 * x2 * x
      else exp_m1 (6 * x) / 6 - exp_m1 x in
    i_val * i_val / (5 * denom * denom) * inner.

(** src/models/forex/sabr_effective.rs:257-264  the widening of the bracket *)
Fixpoint widen (n : nat) (f : R -> R) (hi : R) : R :=
  match n with
  | O => hi
  | S n => if Rlt_dec (f hi) 0 then widen n f (hi * 2) else hi
  end.

(** src/models/forex/sabr_effective.rs:275-286  the bisection *)
Fixpoint bisect (n : nat) (f : R -> R) (lo hi : R) : R * R :=
  match n with
  | O => (lo, hi)
  | S n =>
      let mid := 1 / 2 * (lo + hi) in
      let '(lo, hi) := if Rlt_dec 0 (f mid) then (lo, mid) else (mid, hi) in
      if Rlt_dec (hi - lo) (/ 10 ^ 14) then (lo, hi) else bisect n f lo hi
  end.

(** src/models/forex/sabr_effective.rs:238-288  effective_vol_vol *)
Definition effective_vol_vol (gamma omega1 : schedule) (expiry : R) : outcome R :=
  do segs <- aligned_segments gamma omega1 expiry;
  let i_val := i_integral segs in
  let lhs := lhs_double_integral segs in
  let rhs_at_zero := 1 / 2 * i_val * i_val in
  if Rle_dec lhs (rhs_at_zero * (1 + / 10 ^ 12)) then Ok 0
  else
    let f x := rhs_at_gamma_tilde x expiry i_val - lhs in
    let hi := widen 20 f 4 in
    if negb (Rleb 0 (f hi)) then Panic PAssert
    else
      let '(lo, hi) := bisect 60 f 0 hi in
      Ok (sqrt (1 / 2 * (lo + hi))).

(** src/models/forex/sabr_effective.rs:315-340  effective_term_structure.  Simplification:
    with an expiry of zero and no volatility of volatility the code divides zero by zero
    and its assert fails on the NaN. *)
Definition effective_term_structure (gamma omega1 : schedule) (expiry : R) : outcome R :=
  do segs <- aligned_segments gamma omega1 expiry;
  let i_val := i_integral segs in
  do gamma_tilde <- effective_vol_vol gamma omega1 expiry;
  let x := gamma_tilde * gamma_tilde * expiry in
  do omega_sq <-
    (if Rlt_dec (Rabs x) (/ 10 ^ 6) then
       if Req_EM_T expiry 0 then Panic PAssert else Ok (i_val / expiry)
     else Ok (gamma_tilde * gamma_tilde * i_val / exp_m1 x));
  if negb (Rleb 0 omega_sq) then Panic PAssert else Ok (sqrt omega_sq).

(** src/models/forex/sabr_effective.rs:372-382  the integral in effective_correlation *)
Fixpoint rho_integral (total : R) (segs : list (R * R * R)) (rs : list R) : outcome R :=
  match segs, rs with
  | [], _ => Ok total
  | _, [] => Panic PIndex
  | (delta, g, o) :: segs, r :: rs =>
      if negb (Rltb (/ 10 ^ 15) (Rabs o)) then Panic PAssert
      else rho_integral (total + r * g / o * delta) segs rs
  end.

(** src/models/forex/sabr_effective.rs:358-392  effective_correlation.  Simplification: the
    quotient is asked for with a non-zero expiry only (at zero the code returns zero or
    divides by it; [effective_term_structure] has then panicked). *)
Definition effective_correlation (gamma omega1 rho : schedule) (expiry : R) : outcome R :=
  if negb (same_list (knots gamma) (knots rho)) then Panic PAssert
  else
    do segs <- aligned_segments gamma omega1 expiry;
    do rs <- slice_to (length segs) (values rho);
    do integral <- rho_integral 0 segs rs;
    do gamma_tilde <- effective_vol_vol gamma omega1 expiry;
    do omega_tilde <- effective_term_structure gamma omega1 expiry;
    if Rlt_dec (Rabs gamma_tilde) (/ 10 ^ 15) then Ok 0
    else Ok (omega_tilde / (gamma_tilde * expiry) * integral).

(** src/models/forex/sabr_time_dependent.rs:31-37  struct TimeDependentSabrParams *)
Record td_params := { td_alpha : schedule; td_rho : schedule; td_nu : schedule; td_beta : R; td_forward_0 : R }.

(** src/models/forex/sabr_time_dependent.rs:44-75  TimeDependentSabrParams::new *)
Definition td_new (alpha rho nu : schedule) (beta forward_0 : R) : outcome td_params :=
  if negb (same_list (knots alpha) (knots rho)) then Panic PAssert
  else if negb (same_list (knots alpha) (knots nu)) then Panic PAssert
  else if negb (Rleb 0 beta && Rleb beta 1) then Panic PAssert
  else if negb (Rltb 0 forward_0) then Panic PAssert
  else if negb (forallb (fun a => Rltb 0 a) (values alpha)) then Panic PAssert
  else if negb (forallb (fun n => Rleb 0 n) (values nu)) then Panic PAssert
  else if negb (forallb (fun r => Rltb (-1) r && Rltb r 1) (values rho)) then Panic PAssert
  else Ok {| td_alpha := alpha; td_rho := rho; td_nu := nu; td_beta := beta; td_forward_0 := forward_0 |}.

(** src/models/forex/sabr_time_dependent.rs:80-87  TimeDependentSabrParams::at *)
Definition td_at (p : td_params) (t : R) : outcome (sabr_params R_numbers) :=
  do a <- schedule_at (td_alpha p) t;
  do r <- schedule_at (td_rho p) t;
  do n <- schedule_at (td_nu p) t;
  Ok (@Build_sabr_params R_numbers a (td_beta p) r n).

(** src/models/forex/sabr_time_dependent.rs:89-91  TimeDependentSabrParams::horizon *)
Definition td_horizon (p : td_params) : outcome R := final_time (td_alpha p).

(** src/models/forex/sabr_time_dependent.rs:135-175
    TimeDependentSabrSimulator::step_with_noise *)
Definition td_step_with_noise (p : td_params) (g : rng R_numbers) (state : sabr_state R_numbers) (t_mid dt : R) :
  outcome (rng R_numbers * (sabr_state R_numbers * (R * R))) :=
  if negb (Rltb 0 dt) then Panic PAssert
  else
    do p <- td_at p t_mid;
    let sqrt_one_minus_rho_sq := sqrt (1 - rho p * rho p) in
    let '(z1, g) := sample_normal g in
    let '(z2, g) := sample_normal g in
    let sqrt_dt := sqrt dt in
    let dw_f := sqrt_dt * z1 in
    let dw_a := sqrt_dt * (rho p * z1 + sqrt_one_minus_rho_sq * z2) in
    let f := Rmax (forward state) 0 in
    let alpha := Rmax (vol state) 0 in
    let diffusion_f := alpha * powfR f (beta p) * dw_f in
    let new_forward := Rmax (f + diffusion_f) 0 in
    let log_drift := - (1 / 2) * nu p * nu p * dt in
    let log_diffusion := nu p * dw_a in
    let new_vol := alpha * exp (log_drift + log_diffusion) in
    Ok (g, (@Build_sabr_state R_numbers new_forward new_vol, (dw_f, dw_a))).

(** src/models/forex/sabr_time_dependent.rs:230-232  SimulationModel::step *)
Definition td_step (p : td_params) (g : rng R_numbers) (state : sabr_state R_numbers) (t dt : R) : outcome (rng R_numbers * sabr_state R_numbers) :=
  do (g, (s, _)) <- td_step_with_noise p g state t dt; Ok (g, s).

(** src/models/forex/sabr_time_dependent.rs:223-228  SimulationModel::initial_state *)
Definition td_initial (p : td_params) : outcome (sabr_state R_numbers) :=
  do a <- schedule_at (td_alpha p) 0; Ok (@Build_sabr_state R_numbers (td_forward_0 p) a).

(** src/models/forex/sabr_time_dependent.rs:191-197  the steps of one path in simulate *)
Fixpoint td_steps (n : nat) (p : td_params) (dt t : R) (g : rng R_numbers) (s : sabr_state R_numbers) : outcome (rng R_numbers * sabr_state R_numbers) :=
  match n with
  | O => Ok (g, s)
  | S n =>
      let t_mid := t + 1 / 2 * dt in
      do (g, (s, _)) <- td_step_with_noise p g s t_mid dt;
      td_steps n p dt (t + dt) g s
  end.
Fixpoint td_paths (n_paths n_steps : nat) (p : td_params) (dt : R) (g : rng R_numbers) (s0 : sabr_state R_numbers) : outcome (rng R_numbers * list (sabr_state R_numbers)) :=
  match n_paths with
  | O => Ok (g, [])
  | S k =>
      do (g, s) <- td_steps n_steps p dt 0 g s0;
      do (g, ss) <- td_paths k n_steps p dt g s0;
      Ok (g, s :: ss)
  end.
(** src/models/forex/sabr_time_dependent.rs:181-201  TimeDependentSabrSimulator::simulate *)
Definition td_simulate (p : td_params) (t_end : R) (n_steps n_paths : nat) (g : rng R_numbers) : outcome (rng R_numbers * list (sabr_state R_numbers)) :=
  if (n_steps =? 0)%nat || (n_paths =? 0)%nat || negb (Rltb 0 t_end) then Panic PAssert
  else
    do s0 <- td_initial p;
    td_paths n_paths n_steps p (t_end / INR n_steps) g s0.

(** src/models/forex/sabr_time_dependent.rs:211  the closure [all_eq] *)
Fixpoint all_eq (vs : list R) : bool :=
  match vs with
  | a :: (b :: _) as r => Rltb (Rabs (a - b)) (/ 10 ^ 12) && all_eq r
  | _ => true
  end.
(** src/models/forex/sabr_time_dependent.rs:207-217  reduces_to_constant: the parameters
    and the initial forward of the simulator it returns *)
Definition reduces_to_constant (p : td_params) : outcome (option (sabr_params R_numbers * R)) :=
  if negb (all_eq (values (td_alpha p))) || negb (all_eq (values (td_rho p))) || negb (all_eq (values (td_nu p))) then Ok None
  else match values (td_alpha p), values (td_rho p), values (td_nu p) with
       | a :: _, r :: _, n :: _ => do q <- @sabr_new R_numbers a (td_beta p) r n; Ok (Some (q, td_forward_0 p))
       | _, _, _ => Panic PIndex
       end.
