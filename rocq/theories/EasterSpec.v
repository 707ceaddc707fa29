(** Easter, defined independently of the code: the first Sunday strictly after
    the ecclesiastical (paschal) full moon.  The full moon is computed from the
    golden number by the rules of the Gregorian reform (Western) and of the
    Julian calendar (Orthodox). *)
From Coq Require Import ZArith Bool.
From Verif Require Import Date.
Open Scope Z_scope.

(** Western paschal full moon, as a day number: 31 March + [n] - 31, where the
    epact is the Julian one (11 days per golden year) corrected by the solar
    and lunar equations, with the two Clavius exceptions (epacts 24 and 25). *)
Definition golden_number (y : Z) : Z := y mod 19 + 1.
Definition solar_equation (y : Z) : Z := 3 * (y / 100 + 1) / 4 - 12.
Definition lunar_equation (y : Z) : Z := (8 * (y / 100 + 1) + 5) / 25 - 5.
Definition epact (y : Z) : Z :=
  (11 * golden_number y + 20 + lunar_equation y - solar_equation y) mod 30.
Definition clavius_epact (y : Z) : Z :=
  let e := epact y in
  if ((e =? 25) && (11 <? golden_number y)) || (e =? 24) then e + 1 else e.
Definition western_full_moon (y : Z) : date :=
  let n := 44 - clavius_epact y in
  of_ymd y 3 1 + (if n <? 21 then n + 30 else n) - 1.

(** Day number of a date of the Julian calendar given as "[k] days after
    1 March": Julian 1 March of year 1 is the Gregorian 27 February of year 1;
    Julian leap years are the multiples of four. *)
Definition julian_march (y k : Z) : date := of_ymd 1 2 27 + 365 * (y - 1) + y / 4 + k.

(** Orthodox paschal full moon: Julian 21 March plus the age correction of the
    19-year cycle. *)
Definition orthodox_full_moon (y : Z) : date :=
  julian_march y (20 + (19 * (y mod 19) + 15) mod 30).

(** [s] is the first Sunday strictly after day [fm]. *)
Definition first_sunday_after (fm s : date) : Prop :=
  weekday_of s = Sun /\ fm < s /\ forall x, fm < x < s -> weekday_of x <> Sun.

Definition western_easter (y : Z) (s : date) : Prop := first_sunday_after (western_full_moon y) s.
Definition orthodox_easter (y : Z) (s : date) : Prop := first_sunday_after (orthodox_full_moon y) s.
