(** Vocabulary for the yield-curve properties. *)
From Coq Require Import ZArith Bool List Reals Sorting.Sorted.
Import ListNotations.
From Verif Require Import Outcome Date Calendar YieldCurve.
Open Scope Z_scope.

(** Pillars in date order; entries with the same date are the same pillar (the
    bootstrap repeats entries, see C61). *)
Definition ordered_curve (l : list pillar) : Prop :=
  StronglySorted (fun a b => p_date a <= p_date b) l /\
  forall a b, In a l -> In b l -> p_date a = p_date b -> a = b.

Definition visible (p : pillar) : Prop := hidden_pillar p = false.

(** The value at [t] of the straight line through the rates of [a] and [b]. *)
Definition line_through (a b : pillar) (t : date) : R :=
  (p_zero_rate a + (p_zero_rate b - p_zero_rate a) * (IZR (t - p_date a) / IZR (p_date b - p_date a)))%R.

(** The curve with every zero rate raised by [s]. *)
Definition raise_pillar (s : R) (p : pillar) : pillar :=
  {| first_settle_date := first_settle_date p; p_date := p_date p; market_rate := market_rate p;
     p_zero_rate := (p_zero_rate p + s)%R; p_discount := p_discount p; source := source p;
     hidden_pillar := hidden_pillar p |}.
Definition raise_curve (s : R) (y : curve) : curve :=
  {| c_valuation_date := c_valuation_date y; stripped_curves := map (raise_pillar s) (stripped_curves y) |}.
