(** The Nelder-Mead optimiser, over any number type with a partial comparison: it
    covers binary64, where a comparison with NaN has no result, as well as the reals. *)
From Coq Require Import Arith Bool List.
Import ListNotations.
From Verif Require Import Outcome.

(** What the optimiser uses of [f64].  [fcmp] is [partial_cmp]. *)
Record floats := {
  fl :> Type;
  f_of_nat : nat -> fl;
  f_half : fl; f_tiny : fl; f_1e4 : fl;
  fadd : fl -> fl -> fl; fsub : fl -> fl -> fl; fmul : fl -> fl -> fl; fdiv : fl -> fl -> fl;
  fabs : fl -> fl; fmax : fl -> fl -> fl; fmin : fl -> fl -> fl;
  fcmp : fl -> fl -> option comparison }.
Arguments f_of_nat {_}. Arguments f_half {_}. Arguments f_tiny {_}. Arguments f_1e4 {_}.
Arguments fadd {_}. Arguments fsub {_}. Arguments fmul {_}. Arguments fdiv {_}.
Arguments fabs {_}. Arguments fmax {_}. Arguments fmin {_}. Arguments fcmp {_}.

(** [<] and [>=] on [f64]: false when there is no comparison. *)
Definition flt {N : floats} (x y : N) : bool := match fcmp x y with Some Lt => true | _ => false end.
Definition fge {N : floats} (x y : N) : bool := match fcmp x y with Some Gt | Some Eq => true | _ => false end.
Definition is_nan {N : floats} (x : N) : bool := match fcmp x x with None => true | _ => false end.

(** Assignment to an index of a vector. *)
Fixpoint upd {A} (i : nat) (a : A) (l : list A) : list A :=
  match l, i with
  | [], _ => []
  | _ :: r, O => a :: r
  | b :: r, S i => b :: upd i a r
  end.

(** src/math/optimize.rs:26-39  struct NelderMeadOptions *)
Record nm_options (N : floats) := { max_iter : nat; ftol : N; xtol : N; step_frac : N }.
Arguments max_iter {_}. Arguments ftol {_}. Arguments xtol {_}. Arguments step_frac {_}.

(** src/math/optimize.rs:13-22  struct Minimum *)
Record minimum (N : floats) := { m_x : list N; m_f : N; m_iterations : nat; m_converged : bool }.
Arguments m_x {_}. Arguments m_f {_}. Arguments m_iterations {_}. Arguments m_converged {_}.

(** The mutable variables [simplex] and [values], and a record of the points at which
    the objective has been evaluated. *)
Record nm_state (N : floats) := { simplex : list (list N); values : list N; calls : list (list N) }.
Arguments simplex {_}. Arguments values {_}. Arguments calls {_}.

Section NelderMead.
  (** [sort key l] is [l.sort_by(|a, b| key a cmp key b)].  [f] is the objective.
      Simplification: the code takes any [FnMut]; here the objective is a function of
      its argument.  Indexing is [nth] with a default that the invariant of
      NelderMeadFacts.v shows is never used. *)
  Context {N : floats} (sort : (nat -> N) -> list nat -> list nat) (f : list N -> N).

  Definition get (l : list N) (i : nat) : N := nth i l (f_of_nat 0).
  Definition vertex (s : nm_state N) (i : nat) : list N := nth i (simplex s) [].

  (** src/math/optimize.rs:62-74  the initial simplex *)
  Definition initial_simplex (opts : nm_options N) (x0 : list N) : list (list N) :=
    x0 :: map (fun i =>
      let xi := get x0 i in
      let delta := if flt f_tiny (fabs xi) then fmul (step_frac opts) (fabs xi) else fmax (step_frac opts) f_1e4 in
      upd i (fadd xi delta) x0) (seq 0 (length x0)).

  (** src/math/optimize.rs:90-100  x_spread *)
  Definition x_spread (n : nat) (s : nm_state N) (order : list nat) (best : nat) : N :=
    fold_left fmax (map (fun i =>
      let b := get (vertex s best) i in
      let hi := fold_left (fun hi idx => fmax hi (get (vertex s idx) i)) order b in
      let lo := fold_left (fun lo idx => fmin lo (get (vertex s idx) i)) order b in
      fsub hi lo) (seq 0 n)) (f_of_nat 0).

  (** src/math/optimize.rs:107-118  the centroid of all but the worst *)
  Definition centroid (n : nat) (s : nm_state N) (order : list nat) : list N :=
    map (fun j => fdiv (fold_left (fun c idx => fadd c (get (vertex s idx) j)) (firstn n order) (f_of_nat 0)) (f_of_nat n)) (seq 0 n).

  (** Replacement of one vertex and its value. *)
  Definition replace (s : nm_state N) (i : nat) (x : list N) (v : N) : nm_state N :=
    {| simplex := upd i x (simplex s); values := upd i v (values s); calls := calls s |}.
  (** An evaluation of the objective. *)
  Definition called (s : nm_state N) (x : list N) : nm_state N :=
    {| simplex := simplex s; values := values s; calls := calls s ++ [x] |}.

  (** src/math/optimize.rs:159-166  one step of the shrink loop *)
  Definition shrink_one (n best : nat) (s : nm_state N) (idx : nat) : nm_state N :=
    let shrunk := map (fun j => fadd (get (vertex s best) j) (fmul f_half (fsub (get (vertex s idx) j) (get (vertex s best) j)))) (seq 0 n) in
    replace (called s shrunk) idx shrunk (f shrunk).

  (** src/math/optimize.rs:79-166  one iteration; [true] is the break of line 103.
      Sorting two or more values of which one is NaN calls [unwrap] on a comparison
      without result. *)
  Definition nm_step (n : nat) (opts : nm_options N) (s : nm_state N) : outcome (nm_state N * bool) :=
    if existsb is_nan (values s) then Panic PUnwrap
    else
      let value i := get (values s) i in
      let order := sort value (seq 0 (S n)) in
      let best := nth 0 order O in
      let worst := nth n order O in
      let second_worst := nth (n - 1) order O in
      let f_spread := fsub (value worst) (value best) in
      if flt (fabs f_spread) (ftol opts) && flt (x_spread n s order best) (xtol opts) then Ok (s, true)
      else
        let c := centroid n s order in
        let x_r := map (fun j => fadd (get c j) (fsub (get c j) (get (vertex s worst) j))) (seq 0 n) in
        let f_r := f x_r in
        let s := called s x_r in
        if flt f_r (value second_worst) && fge f_r (value best) then Ok (replace s worst x_r f_r, false)
        else if flt f_r (value best) then
          let x_e := map (fun j => fadd (get c j) (fmul (f_of_nat 2) (fsub (get x_r j) (get c j)))) (seq 0 n) in
          let f_e := f x_e in
          let s := called s x_e in
          Ok (if flt f_e f_r then replace s worst x_e f_e else replace s worst x_r f_r, false)
        else
          let x_c := map (fun j => fadd (get c j) (fmul f_half (fsub (get (vertex s worst) j) (get c j)))) (seq 0 n) in
          let f_c := f x_c in
          let s := called s x_c in
          if flt f_c (value worst) then Ok (replace s worst x_c f_c, false)
          else Ok (fold_left (shrink_one n best) (tl order) s, false).

  (** src/math/optimize.rs:76-167  the loop, with [k] iterations left *)
  Fixpoint nm_loop (k n : nat) (opts : nm_options N) (s : nm_state N) (iteration : nat) : outcome (nm_state N * nat * bool) :=
    match k with
    | O => Ok (s, iteration, false)
    | S k => do (s, stop) <- nm_step n opts s;
             if stop then Ok (s, S iteration, true) else nm_loop k n opts s (S iteration)
    end.

  (** src/math/optimize.rs:169-171  min_by: the first of the least values *)
  Definition best_index (vs : list N) : nat :=
    fold_left (fun b i => if flt (get vs i) (get vs b) then i else b) (seq 1 (length vs - 1)) O.

  (** src/math/optimize.rs:54-178  nelder_mead, with the final simplex and the record of
      evaluations *)
  Definition nelder_mead_run (x0 : list N) (opts : nm_options N) : outcome (minimum N * nm_state N) :=
    let n := length x0 in
    if (n =? 0)%nat then Panic PAssert
    else
      let sx := initial_simplex opts x0 in
      do (s, iteration, converged) <- nm_loop (max_iter opts) n opts {| simplex := sx; values := map f sx; calls := sx |} 0;
      if existsb is_nan (values s) then Panic PUnwrap
      else
        let b := best_index (values s) in
        Ok ({| m_x := vertex s b; m_f := get (values s) b; m_iterations := iteration; m_converged := converged |}, s).
  Definition nelder_mead (x0 : list N) (opts : nm_options N) : outcome (minimum N) :=
    do (m, _) <- nelder_mead_run x0 opts; Ok m.
End NelderMead.
