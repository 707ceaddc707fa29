(** The Monte Carlo runner.  Times and states are real numbers (rounding idealised
    away); dates are exact. *)
From Coq Require Import ZArith Bool List Reals.
Import ListNotations.
From Verif Require Import Outcome Date.
Open Scope R_scope.

(** src/models/common/simulation.rs:54-58  struct DatedPaths *)
Record dated_paths (St : Type) := {
  dp_valuation_date : date; observation_dates : list date; paths : list (list St) }.
Arguments dp_valuation_date {_}. Arguments observation_dates {_}. Arguments paths {_}.

(** [Vec::dedup] *)
Fixpoint dedup (l : list date) : list date :=
  match l with
  | [] => []
  | a :: r => match r with
              | [] => [a]
              | b :: _ => if (a =? b)%Z then dedup r else a :: dedup r
              end
  end.

(** src/models/common/simulation.rs:121-130  the uniform grid after [cur].  [fuel]
    is the number of days left, which bounds the number of iterations. *)
Fixpoint uniform_grid (fuel : nat) (last cur : date) (max_step_days : Z) : outcome (list date) :=
  if (cur <? last)%Z then
    match fuel with
    | O => Panic PStack
    | S fuel =>
        let next := (cur + max_step_days)%Z in
        if in_rangeb next then
          let capped := if (next >? last)%Z then last else next in
          do r <- uniform_grid fuel last capped max_step_days; Ok (capped :: r)
        else Panic PUnwrap
    end
  else Ok [].

Section Simulation.
  (** [slice::sort] and [slice::binary_search] on dates. *)
  Context (sort : list date -> list date) (search : list date -> date -> nat + nat).

  (** src/models/common/simulation.rs:116-135  the sorted observations and the grid *)
  Definition build_grid (valuation_date : date) (obs : list date) (max_step_days : Z) : outcome (list date) :=
    do last <- ounwrap (match obs with [] => None | a :: r => Some (List.last (a :: r) a) end);
    do u <- uniform_grid (Z.to_nat (last - valuation_date)) last valuation_date max_step_days;
    Ok (dedup (sort (valuation_date :: u ++ obs))).

  (** src/models/common/simulation.rs:138-144  obs_indices *)
  Fixpoint find_indices (grid obs : list date) : outcome (list nat) :=
    match obs with
    | [] => Ok []
    | d :: r => match search grid d with
                | inl i => do is <- find_indices grid r; Ok (i :: is)
                | inr _ => Panic PUnwrap
                end
    end.

  (** src/models/common/simulation.rs:148-151  yf: an error counts as 0 *)
  Fixpoint year_fractions (yf : date -> date -> outcome R) (valuation_date : date) (grid : list date) : outcome (list R) :=
    match grid with
    | [] => Ok []
    | d :: r => do y <- match yf valuation_date d with Err _ => Ok 0 | o => o end;
                do ys <- year_fractions yf valuation_date r; Ok (y :: ys)
    end.

  (** src/models/common/simulation.rs:32-47  trait SimulationModel: [Md] is the model with
      its random number generator, [St] the state of a path.  A step may panic. *)
  Context {Md St : Type} (initial_state : Md -> St) (step : Md -> St -> R -> R -> outcome (Md * St)).

  (** src/models/common/simulation.rs:164-167  the states pushed at grid index [i], and
      the observation indices left *)
  Fixpoint capture (i : nat) (state : St) (obs_indices : list nat) : list St * list nat :=
    match obs_indices with
    | [] => ([], [])
    | k :: r => if (k =? i)%nat then let '(p, r) := capture i state r in (state :: p, r) else ([], obs_indices)
    end.

  (** src/models/common/simulation.rs:157-168  the walk along the grid, from index [i] *)
  Fixpoint walk (i : nat) (prev : R) (yfs : list R) (m : Md) (state : St) (obs_indices : list nat) : outcome (Md * list St) :=
    match yfs with
    | [] => Ok (m, [])
    | y :: r =>
        let dt := y - prev in
        if Rle_dec dt 0 then walk (S i) y r m state obs_indices
        else
          do (m, state) <- step m state (1 / 2 * (y + prev)) dt;
          let '(pushed, obs_indices) := capture i state obs_indices in
          do (m, path) <- walk (S i) y r m state obs_indices;
          Ok (m, pushed ++ path)
    end.

  (** src/models/common/simulation.rs:153-169  all paths *)
  Fixpoint walks (n : nat) (yfs : list R) (m : Md) (obs_indices : list nat) : outcome (Md * list (list St)) :=
    match n with
    | O => Ok (m, [])
    | S n =>
        do (m, path) <- match yfs with
                        | [] => Ok (m, [])
                        | y :: r => walk 1 y r m (initial_state m) obs_indices
                        end;
        do (m, ps) <- walks n yfs m obs_indices; Ok (m, path :: ps)
    end.

  (** src/models/common/simulation.rs:95-175  simulate_at_dates *)
  Definition simulate_at_dates (yf : date -> date -> outcome R) (m : Md) (valuation_date : date) (obs_dates : list date)
    (n_paths : nat) (max_step_days : Z) : outcome (Md * dated_paths St) :=
    if (n_paths =? 0)%nat then Panic PAssert
    else if (max_step_days <=? 0)%Z then Panic PAssert
    else if match obs_dates with [] => true | _ => false end then Panic PAssert
    else if negb (forallb (fun d => valuation_date <? d)%Z obs_dates) then Panic PAssert
    else
      let obs := sort obs_dates in
      do grid <- build_grid valuation_date obs max_step_days;
      do obs_indices <- find_indices grid obs;
      do yfs <- year_fractions yf valuation_date grid;
      do (m, ps) <- walks n_paths yfs m obs_indices;
      Ok (m, {| dp_valuation_date := valuation_date; observation_dates := obs; paths := ps |}).

  (** src/models/common/simulation.rs:61-63  n_paths *)
  Definition n_paths (p : dated_paths St) : nat := length (paths p).

  (** src/models/common/simulation.rs:67-70  states_at *)
  Fixpoint index_all (idx : nat) (ps : list (list St)) : outcome (list St) :=
    match ps with
    | [] => Ok []
    | p :: r => match nth_error p idx with
                | Some s => do ss <- index_all idx r; Ok (s :: ss)
                | None => Panic PIndex
                end
    end.
  Definition states_at (p : dated_paths St) (d : date) : outcome (option (list St)) :=
    match search (observation_dates p) d with
    | inl idx => do ss <- index_all idx (paths p); Ok (Some ss)
    | inr _ => Ok None
    end.

  (** src/models/common/simulation.rs:73-79  sample *)
  Definition sample (p : dated_paths St) (d : date) (extract : St -> R) : outcome (option (list R)) :=
    match search (observation_dates p) d with
    | inl idx => do ss <- index_all idx (paths p); Ok (Some (map extract ss))
    | inr _ => Ok None
    end.
End Simulation.
