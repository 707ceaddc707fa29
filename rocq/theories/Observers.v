(** Observers of market data. *)
From Coq Require Import ZArith Bool List Reals Arith.
Import ListNotations.
From Verif Require Import Outcome Date YieldCurve ForwardPoints CapSurface Bootstrap.

(** An [Rc<RefCell<dyn Observer>>] (src/patterns/observer.rs:12, 19-22) is an index into a heap of
    cells.  [alive]: the strong count is not zero.  [borrowed]: some code outside holds a borrow.  The
    content is updated by an [update] that gets the data of the observable and returns the new content
    and a result; the content may change even when an error is returned.
    Simplification: [update] cannot reach other cells or the observable's list; the two implementations
    in src do not. *)
Record cell (O : Type) := { alive : bool; borrowed : bool; content : O }.
Arguments alive {O}. Arguments borrowed {O}. Arguments content {O}.
Record observable (D : Type) := { data : D; observers : list nat }.
Arguments data {D}. Arguments observers {D}.

Section Notify.
Context {D O : Type} (update : D -> O -> O * outcome unit).

Definition set_cell (h : list (cell O)) (a : nat) (c : cell O) : list (cell O) :=
  firstn a h ++ match skipn a h with [] => [] | _ :: t => c :: t end.

(** [Weak::upgrade] *)
Definition upgrade (h : list (cell O)) (a : nat) : option nat :=
  match nth_error h a with Some c => if alive c then Some a else None | None => None end.
Definition upgraded (h : list (cell O)) (l : list nat) : list nat :=
  flat_map (fun a => match upgrade h a with Some b => [b] | None => [] end) l.

(** [observer_rc.borrow_mut().update(self)] *)
Definition update_cell (h : list (cell O)) (a : nat) (d : D) : list (cell O) * outcome unit :=
  match nth_error h a with
  | None => (h, Panic PUnwrap)
  | Some c =>
      if borrowed c then (h, Panic PBorrow)
      else let '(o, r) := update d (content c) in
           (set_cell h a {| alive := alive c; borrowed := false; content := o |}, r)
  end.

(** src/markets/termstructures/yieldcurve.rs:184-186, src/markets/interestrate/volsurface.rs:100-102,
    src/markets/forex/quotes/forwardpoints.rs:170-172  the loop over the observers *)
Fixpoint update_all (h : list (cell O)) (l : list nat) (d : D) : list (cell O) * outcome unit :=
  match l with
  | [] => (h, Ok tt)
  | a :: r => match update_cell h a d with
              | (h', Ok _) => update_all h' r d
              | (h', e) => (h', e)
              end
  end.

(** src/markets/termstructures/yieldcurve.rs:174-176, src/markets/interestrate/volsurface.rs:90-92,
    src/markets/forex/quotes/forwardpoints.rs:152-154  attach *)
Definition attach (m : observable D) (a : nat) : observable D :=
  {| data := data m; observers := observers m ++ [a] |}.

(** src/markets/termstructures/yieldcurve.rs:177-188, src/markets/interestrate/volsurface.rs:93-104
    notify_observers *)
Definition notify (h : list (cell O)) (m : observable D) : list (cell O) * outcome unit :=
  update_all h (upgraded h (observers m)) (data m).

(** src/markets/forex/quotes/forwardpoints.rs:156-174  notify_observers, which first removes the dead *)
Definition notify_pruning (h : list (cell O)) (m : observable D) : observable D * (list (cell O) * outcome unit) :=
  let live := filter (fun a => match upgrade h a with Some _ => true | None => false end) (observers m) in
  let m' := {| data := data m; observers := live |} in
  (m', update_all h (upgraded h live) (data m)).

(** What a program can do with one observable. *)
Inductive op :=
| NewObserver (o : O)        (* Rc::new(RefCell::new(o)) *)
| DropObserver (a : nat)     (* the last Rc to it goes away *)
| Attach (a : nat)
| SetData (d : D)            (* the public fields are assigned *)
| Notify.
Record world := { heap : list (cell O); subject : observable D }.
Definition exec (prune : bool) (w : world) (o : op) : world :=
  match o with
  | NewObserver c => {| heap := heap w ++ [{| alive := true; borrowed := false; content := c |}]; subject := subject w |}
  | DropObserver a =>
      {| heap := match nth_error (heap w) a with
                 | Some c => set_cell (heap w) a {| alive := false; borrowed := borrowed c; content := content c |}
                 | None => heap w end;
         subject := subject w |}
  | Attach a => {| heap := heap w; subject := attach (subject w) a |}
  | SetData d => {| heap := heap w; subject := {| data := d; observers := observers (subject w) |} |}
  | Notify =>
      if prune then let '(m, (h, _)) := notify_pruning (heap w) (subject w) in {| heap := h; subject := m |}
      else {| heap := fst (notify (heap w) (subject w)); subject := subject w |}
  end.
Definition run (prune : bool) (d : D) (ops : list op) : world :=
  fold_left (exec prune) ops {| heap := []; subject := {| data := d; observers := [] |} |}.
End Notify.
Arguments op : clear implicits.
Arguments world : clear implicits.

(** The three observables. *)
Inductive market_data :=
| YieldData (m : yield_market)
| ForwardData (h : fwd_helper)
| CapData (valuation_date : date) (quotes : list cap_quote).
(** The two observers.  Simplification: of [IRNormalVolSurface] (volsurface.rs:141-144) the two fields. *)
Inductive market_observer :=
| CurveObserver (y : curve)
| SurfaceObserver (valuation_date : date) (pillars : list caplet_pillar).

(** src/markets/termstructures/yieldcurve.rs:314-323, src/markets/interestrate/volsurface.rs:225-227
    update.  The [downcast_ref] succeeds on yield market data only. *)
Definition market_update (sort : list date -> list date) (brent : R -> R -> (R -> outcome R) -> outcome R) (oc : bool)
    (depth : positive) (now : date) (d : market_data) (o : market_observer) : market_observer * outcome unit :=
  match o with
  | SurfaceObserver _ _ => (o, Ok tt)
  | CurveObserver y =>
      match d with
      | YieldData m =>
          match get_stripped_curve sort brent oc depth now m with
          | Ok l => (CurveObserver {| c_valuation_date := c_valuation_date y; stripped_curves := l |}, Ok tt)
          | Err e => (o, Err e)
          | Panic p => (o, Panic p)
          end
      | _ => (o, Ok tt)
      end
  end.
