(** The path simulator of the cross-currency forward market model, over the real numbers (rounding idealised
    away).  The stream of standard normal draws is an argument; the pseudo-random generator behind it and its
    seed are not modelled. *)
From Coq Require Import Bool List Arith Reals.
Import ListNotations.
From Verif Require Import Outcome ForwardPoints VolSurface Processes ProcessFacts Hlmm FxFmm.
From Verif Require Fmm Cholesky.
Open Scope R_scope.

(** [l[i] = x] *)
Definition oset (l : list R) (i : nat) (x : R) : outcome (list R) :=
  if (i <? length l)%nat then Ok (firstn i l ++ x :: skipn (S i) l) else Panic PIndex.
(** [for i in is] over a mutable accumulator *)
Fixpoint ofold {A} (f : A -> nat -> outcome A) (is : list nat) (a : A) : outcome A :=
  match is with
  | [] => Ok a
  | i :: is => do a <- f a i; ofold f is a
  end.

(** src/models/forex/fx_fmm_simulator.rs:59-73  struct FxFmmState.  The fields of one currency are grouped
    into a record of their own. *)
Record leg := { lg_rates : list R; lg_y : list R; lg_rates_at_start : list R; lg_y_at_start : list R; lg_x : R }.
Record fmm_state := { sm_fx : R; sm_variance : R; sm_d : leg; sm_f : leg; sm_t : R }.

(** src/models/forex/fx_fmm_simulator.rs:77-96  the fields of one currency in FxFmmState::initial *)
Definition initial_leg (te : Fmm.fmm_tenor) : outcome leg :=
  let m := Fmm.m_of te in
  do r0 <- oindex (Fmm.initial_rates te) 0;
  do ras <- oset (repeat 0 m) 0 r0;
  Ok {| lg_rates := Fmm.initial_rates te; lg_y := repeat 0 m; lg_rates_at_start := ras; lg_y_at_start := repeat 0 m; lg_x := 0 |}.
(** src/models/forex/fx_fmm_simulator.rs:76-97  FxFmmState::initial *)
Definition sim_initial (p : fx_fmm) : outcome fmm_state :=
  do d <- initial_leg (fm_tenor p);
  do f <- initial_leg (fm_tenor p);
  Ok {| sm_fx := fm_fx0 p; sm_variance := sigma_0 (fm_heston p); sm_d := d; sm_f := f; sm_t := 0 |}.

(** src/models/forex/fx_fmm_simulator.rs:353-404  build_joint_correlation.  The matrix is a function of its
    indices while it is being written, and is turned into rows at the end; all indices written are below its
    size [2 + 2m].  Every vector read is checked to be long enough before the matrix is returned: the panic of
    a short one is the same. *)
Definition cross_at (c : list (list R)) (i j : nat) : R := nth j (nth i c []) 0.
Definition joint_entry (p : fx_fmm) (a b : nat) : R :=
  let m := Fmm.m_of (fm_tenor p) in
  let c := fm_corr p in
  let l0 : nat -> nat -> R := fun i j => if (i =? j)%nat then 1 else 0 in
  let l1 := Cholesky.upd (Cholesky.upd l0 0 1 (fc_xi_sigma c)) 1 0 (fc_xi_sigma c) in
  let l2 := fold_left (fun l j =>
    Cholesky.upd (Cholesky.upd (Cholesky.upd (Cholesky.upd l
      0 (2 + j) (nth j (fc_xi_d c) 0))
      (2 + j) 0 (nth j (fc_xi_d c) 0))
      0 (2 + m + j) (nth j (fc_xi_f c) 0))
      (2 + m + j) 0 (nth j (fc_xi_f c) 0)) (seq 0 m) l1 in
  let l3 := fold_left (fun l j =>
    Cholesky.upd (Cholesky.upd (Cholesky.upd (Cholesky.upd l
      1 (2 + j) (nth j (fc_sigma_d c) 0))
      (2 + j) 1 (nth j (fc_sigma_d c) 0))
      1 (2 + m + j) (nth j (fc_sigma_f c) 0))
      (2 + m + j) 1 (nth j (fc_sigma_f c) 0)) (seq 0 m) l2 in
  let l4 := fold_left (fun l i => fold_left (fun l j =>
    Cholesky.upd l (2 + i) (2 + j) (cross_at (fs_corr (fm_dom p)) i j)) (seq 0 m) l) (seq 0 m) l3 in
  let l5 := fold_left (fun l i => fold_left (fun l j =>
    Cholesky.upd l (2 + m + i) (2 + m + j) (cross_at (fs_corr (fm_for p)) i j)) (seq 0 m) l) (seq 0 m) l4 in
  let l6 := fold_left (fun l i => fold_left (fun l j =>
    let sym := 1 / 2 * (cross_at (fc_cross c) i j + cross_at (fc_cross c) j i) in
    Cholesky.upd (Cholesky.upd l (2 + i) (2 + m + j) sym) (2 + m + j) (2 + i) sym) (seq 0 m) l) (seq 0 m) l5 in
  l6 a b.
Definition long (m : nat) (v : list R) : bool := (m <=? length v)%nat.
Definition long_square (m : nat) (c : list (list R)) : bool := (m <=? length c)%nat && forallb (long m) (firstn m c).
Definition build_joint_correlation (p : fx_fmm) : outcome (list (list R)) :=
  let m := Fmm.m_of (fm_tenor p) in
  let c := fm_corr p in
  let n := (2 + 2 * m)%nat in
  if long m (fc_xi_d c) && long m (fc_xi_f c) && long m (fc_sigma_d c) && long m (fc_sigma_f c) &&
     long_square m (fs_corr (fm_dom p)) && long_square m (fs_corr (fm_for p)) && long_square m (fc_cross c)
  then Ok (map (fun a => map (joint_entry p a) (seq 0 n)) (seq 0 n))
  else Panic PIndex.

(** src/models/forex/fx_fmm_simulator.rs:111-120  FxFmmSimulator::new: the factor it keeps.  The two messages
    are one error. *)
Definition sim_new (p : fx_fmm) : outcome (list (list R)) :=
  match fmm_validate p with
  | Ok _ =>
      do corr <- build_joint_correlation p;
      do r <- Cholesky.cholesky corr;
      match r with Some chol => Ok chol | None => Err EInvalidData end
  | Err _ => Err EInvalidData
  | Panic r => Panic r
  end.

(** src/models/forex/fx_fmm_simulator.rs:139-153  the correlated increments *)
Definition sim_dw (chol : list (list R)) (z : list R) (sqrt_dt : R) : list R :=
  map (fun i => fold_left Rplus (map (fun ab : R * R => fst ab * snd ab) (firstn (i + 1) (combine (nth i chol []) z))) 0 * sqrt_dt) (seq 0 (length chol)).

(** src/models/forex/fx_fmm_simulator.rs:342-344  side_adapted_vol *)
Definition side_adapted_vol (s : fmm_side) (j : nat) (r_j : R) : outcome R := oindex (fs_sigmas s) (j - 1).

(** src/models/forex/fx_fmm_simulator.rs:178-189 and 207-218  one entry of [gamma_mid], [adapted] and
    [drift_weight] *)
Definition at_mid (s : fmm_side) (te : Fmm.fmm_tenor) (rates : list R) (t_mid : R) (i : nat) : outcome (R * R * R) :=
  let g := Fmm.gamma i t_mid te in
  do r_i <- oindex rates (i - 1);
  do sig <- side_adapted_vol s i r_i;
  let tau_i := Fmm.tau te i in
  Ok (g, sig, sig * g * tau_i / (1 + tau_i * r_i)).

(** src/models/forex/fx_fmm_simulator.rs:190-204  the domestic rates *)
Definition new_rates_d (s : fmm_side) (rates : list R) (mid : list (R * R * R)) (dw : list R) (dt : R) (eta_old m : nat) : outcome (list R) :=
  ofold (fun new j =>
    do x <- oindex mid (j - 1);
    let gamma_j := fst (fst x) in
    if Req_EM_T gamma_j 0 then Ok new
    else
      let sig_j := snd (fst x) in
      do sum <- ofold (fun sum i => do c <- entry (fs_corr s) (i - 1) (j - 1); do y <- oindex mid (i - 1); Ok (sum + c * snd y)) (Fmm.range_incl eta_old j) 0;
      let drift := sig_j * gamma_j * sum in
      do w <- oindex dw (j - 1);
      let diffusion := sig_j * gamma_j * w in
      do r <- oindex rates (j - 1);
      oset new (j - 1) (r + drift * dt + diffusion)) (Fmm.range_incl eta_old m) rates.
(** src/models/forex/fx_fmm_simulator.rs:219-237  the foreign rates, with the quanto shift *)
Definition new_rates_f (s : fmm_side) (rho_xi_f : list R) (sqrt_sigma : R) (rates : list R) (mid : list (R * R * R)) (dw : list R) (dt : R) (eta_old m : nat) : outcome (list R) :=
  ofold (fun new j =>
    do x <- oindex mid (j - 1);
    let gamma_j := fst (fst x) in
    if Req_EM_T gamma_j 0 then Ok new
    else
      let sig_j := snd (fst x) in
      do sum <- ofold (fun sum i => do c <- entry (fs_corr s) (i - 1) (j - 1); do y <- oindex mid (i - 1); Ok (sum + c * snd y)) (Fmm.range_incl eta_old j) 0;
      do rho <- oindex rho_xi_f (j - 1);
      let quanto := sig_j * gamma_j * rho * sqrt_sigma in
      let drift := sig_j * gamma_j * sum - quanto in
      do w <- oindex dw (j - 1);
      let diffusion := sig_j * gamma_j * w in
      do r <- oindex rates (j - 1);
      oset new (j - 1) (r + drift * dt + diffusion)) (Fmm.range_incl eta_old m) rates.

(** src/models/forex/fx_fmm_simulator.rs:240-255  the variances of one currency.  The code's loop handles both
    currencies at each date. *)
Definition new_y (s : fmm_side) (te : Fmm.fmm_tenor) (rates y : list R) (t dt : R) : outcome (list R) :=
  ofold (fun y j =>
    let tj := Fmm.date_at te j in
    if Rle_dec tj t then Ok y
    else
      let eff_dt := Rmin (tj - t) dt in
      let tau_j := Fmm.tau te j in
      do r <- oindex rates (j - 1);
      do sig <- side_adapted_vol s j r;
      let integrand := (sig / (r + 1 / tau_j)) ^ 2 in
      do y_j <- oindex y (j - 1);
      oset y (j - 1) (y_j + integrand * eff_dt)) (seq 1 (Fmm.m_of te)) y.

(** src/models/forex/fx_fmm_simulator.rs:258-277  the state of the period in progress, of one currency *)
Definition new_x (s : fmm_side) (te : Fmm.fmm_tenor) (l : leg) (rates' y' dw : list R) (t dt : R) (eta_old : nat) : outcome R :=
  if (1 <=? eta_old)%nat && (eta_old <=? Fmm.m_of te)%nat then
    let k := eta_old in
    let tk_minus_1 := Fmm.date_at te (k - 1) in
    let tk := Fmm.date_at te k in
    if Fmm.Rltb tk_minus_1 t && Fmm.Rltb t tk then
      let tau_k := Fmm.tau te k in
      let g_k := 1 / tau_k in
      do r_old <- oindex (lg_rates l) (k - 1);
      do r_new <- oindex rates' (k - 1);
      let r_mid := 1 / 2 * (r_old + r_new) in
      do sig <- side_adapted_vol s k r_mid;
      do y_new <- oindex y' (k - 1);
      do y_start <- oindex (lg_y_at_start l) (k - 1);
      let y_k := y_new - y_start in
      do w <- oindex dw (k - 1);
      Ok (lg_x l + (g_k * y_k * dt + sig / (r_mid + 1 / tau_k) * w))
    else Ok (lg_x l)
  else Ok (lg_x l).

(** src/models/forex/fx_fmm_simulator.rs:280-297  the commit and the snapshots, of one currency; the loop does
    nothing unless [eta_old < eta_new] *)
Definition commit_leg (l : leg) (rates' y' : list R) (x' : R) (eta_old eta_new m : nat) : outcome leg :=
  ofold (fun l k =>
    do r <- oindex (lg_rates l) (k - 1);
    do ras <- oset (lg_rates_at_start l) (k - 1) r;
    do y <- oindex (lg_y l) (k - 1);
    do yas <- oset (lg_y_at_start l) (k - 1) y;
    Ok {| lg_rates := lg_rates l; lg_y := lg_y l; lg_rates_at_start := ras; lg_y_at_start := yas; lg_x := 0 |})
    (Fmm.range_incl (eta_old + 1) (Nat.min eta_new m))
    {| lg_rates := rates'; lg_y := y'; lg_rates_at_start := lg_rates_at_start l; lg_y_at_start := lg_y_at_start l; lg_x := x' |}.

(** [v[a..b]] *)
Definition oslice (v : list R) (a b : nat) : outcome (list R) :=
  if (b <=? length v)%nat then Ok (firstn (b - a) (skipn a v)) else Panic PIndex.

(** src/models/forex/fx_fmm_simulator.rs:127-298  FxFmmSimulator::step, on the stream of draws [g]; returns
    what is left of the stream.  [k - 1] is only taken of [k >= 1]: [eta] is never zero and a tenor has at
    least one rate. *)
Definition sim_step (p : fx_fmm) (chol : list (list R)) (g : rng R_numbers) (s : fmm_state) (dt : R) : outcome (rng R_numbers * fmm_state) :=
  if negb (Fmm.Rltb 0 dt) then Panic PAssert
  else
    let te := fm_tenor p in
    let m := Fmm.m_of te in
    let n := (2 + 2 * m)%nat in
    let t := sm_t s in
    let t_mid := t + 1 / 2 * dt in
    let dw := sim_dw chol (map g (seq 0 n)) (sqrt dt) in
    do dw_fx <- oindex dw 0;
    do dw_sigma <- oindex dw 1;
    do dw_d <- oslice dw 2 (2 + m);
    do dw_f <- oslice dw (2 + m) (2 + 2 * m);
    let sigma := Rmax (sm_variance s) 0 in
    let sqrt_sigma := sqrt sigma in
    let new_variance := Rmax (sigma + kappa (fm_heston p) * (theta (fm_heston p) - sigma) * dt + gamma (fm_heston p) * sqrt_sigma * dw_sigma) 0 in
    let eta_old := Fmm.eta te t in
    let k := Nat.min eta_old m in
    if (k =? 0)%nat then Panic PArith
    else
    do rd_now <- oindex (lg_rates (sm_d s)) (k - 1);
    do rf_now <- oindex (lg_rates (sm_f s)) (k - 1);
    let log_fx := ln (sm_fx s) + (rd_now - rf_now - 1 / 2 * sigma) * dt + sqrt_sigma * dw_fx in
    let new_fx := exp log_fx in
    do mid_d <- omapM (at_mid (fm_dom p) te (lg_rates (sm_d s)) t_mid) (seq 1 m);
    do rates_d <- new_rates_d (fm_dom p) (lg_rates (sm_d s)) mid_d dw_d dt eta_old m;
    do mid_f <- omapM (at_mid (fm_for p) te (lg_rates (sm_f s)) t_mid) (seq 1 m);
    do rates_f <- new_rates_f (fm_for p) (fc_xi_f (fm_corr p)) sqrt_sigma (lg_rates (sm_f s)) mid_f dw_f dt eta_old m;
    do y_d <- new_y (fm_dom p) te (lg_rates (sm_d s)) (lg_y (sm_d s)) t dt;
    do y_f <- new_y (fm_for p) te (lg_rates (sm_f s)) (lg_y (sm_f s)) t dt;
    do x_d <- new_x (fm_dom p) te (sm_d s) rates_d y_d dw_d t dt eta_old;
    do x_f <- new_x (fm_for p) te (sm_f s) rates_f y_f dw_f t dt eta_old;
    let t' := t + dt in
    let eta_new := Fmm.eta te t' in
    do d <- commit_leg (sm_d s) rates_d y_d x_d eta_old eta_new m;
    do f <- commit_leg (sm_f s) rates_f y_f x_f eta_old eta_new m;
    Ok (fun i => g (n + i)%nat, {| sm_fx := new_fx; sm_variance := new_variance; sm_d := d; sm_f := f; sm_t := t' |}).

(** src/models/forex/fx_fmm_simulator.rs:313-315  one path of simulate_terminal *)
Fixpoint sim_steps (n : nat) (p : fx_fmm) (chol : list (list R)) (g : rng R_numbers) (s : fmm_state) (dt : R) : outcome (rng R_numbers * fmm_state) :=
  match n with
  | O => Ok (g, s)
  | S n => do (g, s) <- sim_step p chol g s dt; sim_steps n p chol g s dt
  end.
(** src/models/forex/fx_fmm_simulator.rs:311-317  the loop over the paths *)
Fixpoint sim_paths (paths n : nat) (p : fx_fmm) (chol : list (list R)) (g : rng R_numbers) (dt : R) : outcome (rng R_numbers * list fmm_state) :=
  match paths with
  | O => Ok (g, [])
  | S paths =>
      do s <- sim_initial p;
      do (g, s) <- sim_steps n p chol g s dt;
      do (g, l) <- sim_paths paths n p chol g dt;
      Ok (g, s :: l)
  end.
(** src/models/forex/fx_fmm_simulator.rs:302-319  FxFmmSimulator::simulate_terminal *)
Definition simulate_terminal (p : fx_fmm) (chol : list (list R)) (g : rng R_numbers) (t_end : R) (n_steps n_paths : nat) : outcome (rng R_numbers * list fmm_state) :=
  if negb (Fmm.Rltb 0 t_end && (0 <? n_steps)%nat && (0 <? n_paths)%nat) then Panic PAssert
  else sim_paths n_paths n_steps p chol g (t_end / INR n_steps).

(** src/models/forex/fx_fmm_simulator.rs:329-333  SimulationModel::step, which does not look at the time it is
    given *)
Definition model_step (p : fx_fmm) (chol : list (list R)) (g : rng R_numbers) (s : fmm_state) (t dt : R) : outcome (rng R_numbers * fmm_state) :=
  sim_step p chol g s dt.
