(** What the bootstrap should deliver, said without the code's own helpers. *)
From Coq Require Import ZArith List Reals.
Import ListNotations.
From Verif Require Import Outcome Date Calendar Shipped Cal_unitedstates Cal_unitedkingdom Fx YieldCurve Swap Bootstrap.
Open Scope Z_scope.

(** The published terms of each index: currency, the calendar of the publishing
    centre and the number of days in the accrual year. *)
Definition published (c : index_code) : currency * shipped * Z :=
  match c with
  | AONIA => (AUD, Australia None, 365)
  | CDOR _ => (CAD, Canada None, 365)
  | EONIA | ESTR | EUIBOR _ => (EUR, Target, 360)
  | SONIA => (GBP, UnitedKingdom (Some unitedkingdom_Exchange), 365)
  | SOFR => (USD, UnitedStates (Some unitedstates_SOFR), 360)
  end.

(** An index accrues actual days over a year of [n] days. *)
Definition actual_over (n : Z) (dc : day_counter) : Prop :=
  forall a b : date, dc_yf dc a b = Ok (IZR (b - a) / IZR n)%R.

Definition as_published (c : index_code) : Prop :=
  let '(cur, cal, n) := published c in
  ix_currency (from_enum c) = cur /\ actual_over n (ix_day_counter (from_enum c)) /\
  forall d, ix_calendar (from_enum c) d = shipped_calendar cal d.

(** The overnight indices. *)
Definition overnight : list index_code := [AONIA; EONIA; ESTR; SONIA; SOFR].

(** How many of the dates in a list equal [d]. *)
Definition occurrences (d : date) (l : list date) : nat := count_occ Z.eq_dec l d.
