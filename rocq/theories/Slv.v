(** The stochastic-local-volatility (SLV) simulator: the time-dependent SABR model whose
    volatility is scaled at every step so that the paths follow a Dupire surface, over the real
    numbers (rounding idealised away). *)
From Coq Require Import Bool List Arith Reals Permutation Sorting.Sorted.
Import ListNotations.
From Verif Require Import Outcome Processes ProcessFacts SabrEffective.
From Verif Require Dupire.
Open Scope R_scope.

(** The contract of [slice::sort_by] on pairs with the first component as key: a permutation
    in which the keys do not decrease. *)
Definition sorts (sort : list (R * R) -> list (R * R)) : Prop :=
  forall l, Permutation l (sort l) /\ StronglySorted (fun a b => fst a <= fst b) (sort l).

(** src/models/forex/sabr_slv.rs:68-76  struct TimeDependentSabrSlvSimulator, without the
    generator *)
Record slv := { params : td_params; dupire : Dupire.local_vol_grid; n_bins : nat }.

(** src/models/forex/sabr_slv.rs:79-86  new *)
Definition slv_new (p : td_params) (d : Dupire.local_vol_grid) : slv := {| params := p; dupire := d; n_bins := 50 |}.

(** src/models/forex/sabr_slv.rs:88-92  with_bins *)
Definition with_bins (s : slv) (n : nat) : outcome slv :=
  if negb (2 <=? n)%nat then Panic PAssert else Ok {| params := params s; dupire := dupire s; n_bins := n |}.

(** src/models/forex/sabr_slv.rs:180-186  one bin: its upper bound and the mean of the squares *)
Definition bin_of (b : list (R * R)) : R * R :=
  (fst (last b (0, 0)), fold_left (fun s x => s + snd x) b 0 / INR (length b)).

(** src/models/forex/sabr_slv.rs:178-188  the loop over the sorted population.  A bin is at
    least one long, so [fuel], the length of the population, suffices. *)
Fixpoint bins (fuel size : nat) (l : list (R * R)) : list (R * R) :=
  match fuel with
  | O => []
  | S fuel => match l with [] => [] | _ => bin_of (firstn size l) :: bins fuel size (skipn size l) end
  end.

(** src/models/forex/sabr_slv.rs:170-190  bin_vol_sq_by_forward.  The two vectors, of the same
    length by construction, are returned as a list of pairs. *)
Definition bin_vol_sq_by_forward (sort : list (R * R) -> list (R * R)) (states : list (sabr_state R_numbers)) (n_bins : nat) : outcome (list (R * R)) :=
  let n := length states in
  let indexed := sort (map (fun s => (forward s, vol s * vol s)) states) in
  if (n_bins =? 0)%nat then Panic PArith
  else
    let bin_size := Nat.div (n + (n_bins - 1)) n_bins in
    Ok (bins n bin_size indexed).

(** src/models/forex/sabr_slv.rs:195-203  lookup_bin *)
Definition lookup_bin (f : R) (bs : list (R * R)) : outcome R :=
  match find (fun b => Rleb f (fst b)) bs with
  | Some b => Ok (snd b)
  | None => match rev bs with [] => Panic PUnwrap | b :: _ => Ok (snd b) end
  end.

(** src/models/forex/sabr_slv.rs:131-158  the step of one path *)
Definition slv_path_step (d : Dupire.local_vol_grid) (pm : sabr_params R_numbers) (bs : list (R * R)) (t_mid dt : R)
    (g : rng R_numbers) (state : sabr_state R_numbers) : outcome (rng R_numbers * sabr_state R_numbers) :=
  let sqrt_dt := sqrt dt in
  let sqrt_1mr2 := sqrt (1 - rho pm * rho pm) in
  let '(z1, g) := sample_normal g in
  let '(z2, g) := sample_normal g in
  let dw_f := sqrt_dt * z1 in
  let dw_a := sqrt_dt * (rho pm * z1 + sqrt_1mr2 * z2) in
  let f := Rmax (forward state) (/ 10 ^ 12) in
  let v := Rmax (vol state) 0 in
  do lv_var <- Dupire.local_variance d t_mid f;
  do e_vol2 <- lookup_bin f bs;
  let f_beta_m1 := powfR f (beta pm - 1) in
  let f_scaling := f_beta_m1 * f_beta_m1 in
  let denom := Rmax (e_vol2 * f_scaling) (/ 10 ^ 12) in
  let sigma_slv_sq := Rmax (lv_var / denom) 0 in
  let sigma_slv := sqrt sigma_slv_sq in
  let diffusion_f := sigma_slv * v * powfR f (beta pm) * dw_f in
  let new_f := Rmax (f + diffusion_f) 0 in
  let new_vol := v * exp ((- (1 / 2) * nu pm * nu pm) * dt + nu pm * dw_a) in
  Ok (g, @Build_sabr_state R_numbers new_f new_vol).

(** src/models/forex/sabr_slv.rs:130-159  the loop over the paths *)
Fixpoint slv_paths (d : Dupire.local_vol_grid) (pm : sabr_params R_numbers) (bs : list (R * R)) (t_mid dt : R)
    (g : rng R_numbers) (states : list (sabr_state R_numbers)) : outcome (rng R_numbers * list (sabr_state R_numbers)) :=
  match states with
  | [] => Ok (g, [])
  | s :: states =>
      do (g, s) <- slv_path_step d pm bs t_mid dt g s;
      do (g, ss) <- slv_paths d pm bs t_mid dt g states;
      Ok (g, s :: ss)
  end.

(** src/models/forex/sabr_slv.rs:116-160  one step of the population *)
Definition slv_step (sort : list (R * R) -> list (R * R)) (m : slv) (t dt : R) (g : rng R_numbers) (states : list (sabr_state R_numbers)) :
    outcome (rng R_numbers * list (sabr_state R_numbers)) :=
  let t_mid := t + 1 / 2 * dt in
  do pm <- td_at (params m) t_mid;
  do bs <- bin_vol_sq_by_forward sort states (n_bins m);
  slv_paths (dupire m) pm bs t_mid dt g states.

(** src/models/forex/sabr_slv.rs:114-161  the loop over the steps *)
Fixpoint slv_steps (sort : list (R * R) -> list (R * R)) (n : nat) (m : slv) (t dt : R) (g : rng R_numbers) (states : list (sabr_state R_numbers)) :
    outcome (rng R_numbers * list (sabr_state R_numbers)) :=
  match n with
  | O => Ok (g, states)
  | S n => do (g, states) <- slv_step sort m t dt g states; slv_steps sort n m (t + dt) dt g states
  end.

(** src/models/forex/sabr_slv.rs:100-163  simulate *)
Definition slv_simulate (sort : list (R * R) -> list (R * R)) (m : slv) (t_end : R) (n_steps n_paths : nat) (g : rng R_numbers) :
    outcome (rng R_numbers * list (sabr_state R_numbers)) :=
  if (n_steps =? 0)%nat || (n_paths =? 0)%nat || negb (Rltb 0 t_end) then Panic PAssert
  else
    let dt := t_end / INR n_steps in
    do alpha0 <- schedule_at (td_alpha (params m)) 0;
    let states := repeat (@Build_sabr_state R_numbers (td_forward_0 (params m)) alpha0) n_paths in
    slv_steps sort n_steps m 0 dt g states.
