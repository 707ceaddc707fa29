(** Vocabulary for the swap properties. *)
From Coq Require Import ZArith Bool List Reals.
Import ListNotations.
From Verif Require Import Outcome Ints Date Calendar CalendarSpec Names YieldCurve FxForward Swap.
Open Scope Z_scope.

(** [n] payment intervals of a frequency, as a tenor without machine integers. *)
Definition intervals (f : frequency) (n : Z) : option period :=
  match f with
  | NoFrequency => Some ON
  | Annual => Some (Years n)
  | Semiannual => Some (Months (6 * n))
  | EveryFourthMonth => Some (Months (4 * n))
  | Quarterly => Some (Months (3 * n))
  | Bimonthly => Some (Months (2 * n))
  | Monthly => Some (Months n)
  | EveryFourthWeek => Some (Weeks (4 * n))
  | Biweekly => Some (Weeks (2 * n))
  | Weekly => Some (Weeks n)
  | Daily => Some (Days n)
  | Once | OtherFrequency => None
  end.

(** Each period starts where the one before it ended. *)
Fixpoint contiguous (start : date) (s : list accrual) : Prop :=
  match s with
  | [] => True
  | a :: r => accrual_start a = start /\ contiguous (accrual_end a) r
  end.

(** The calendar opens within eleven months on either side of [d]. *)
Definition opens_around (c : calendar) (d : date) : Prop :=
  (exists x, d <= x <= d + 334 /\ opened c x) /\ (exists x, d - 334 <= x <= d /\ opened c x).

(** The sum of [f] over a list, with [f] total on it. *)
Definition total {A} (f : A -> R) (l : list A) : R := fold_right (fun a x => (f a + x)%R) 0%R l.

(** A solution of [f r = 0] as a root finder with tolerance [eps] reports it:
    [f] is within [eps] of zero at [r], or changes sign within [eps] of [r]. *)
Definition root_within (eps : R) (f : R -> outcome R) (r : R) : Prop :=
  exists y, f r = Ok y /\
    ((Rabs y <= eps)%R \/ exists r' y', (Rabs (r' - r) <= eps)%R /\ f r' = Ok y' /\ (y * y' <= 0)%R).

(** The same leg with the other direction, and with every amount multiplied by [k]. *)
Definition flip_leg (l : leg) : leg :=
  {| l_type := l_type l; l_direction := match l_direction l with Buy => Sell | Sell => Buy end;
     l_index := l_index l; l_notional := l_notional l; l_frequency := l_frequency l; l_tenor := l_tenor l;
     l_duration := l_duration l; l_day_counter := l_day_counter l; l_calendar := l_calendar l;
     l_convention := l_convention l; l_pay_delay := l_pay_delay l;
     l_days_before_accrual := l_days_before_accrual l; l_schedule := l_schedule l |}.
Definition scale_accrual (k : R) (a : accrual) : accrual :=
  {| accrual_start := accrual_start a; accrual_end := accrual_end a; pay_date := pay_date a;
     reset_date := reset_date a; amortisation := (k * amortisation a)%R; balance := (k * balance a)%R |}.
Definition scale_leg (k : R) (l : leg) : leg :=
  {| l_type := l_type l; l_direction := l_direction l;
     l_index := l_index l; l_notional := (k * l_notional l)%R; l_frequency := l_frequency l; l_tenor := l_tenor l;
     l_duration := l_duration l; l_day_counter := l_day_counter l; l_calendar := l_calendar l;
     l_convention := l_convention l; l_pay_delay := l_pay_delay l;
     l_days_before_accrual := l_days_before_accrual l; l_schedule := map (scale_accrual k) (l_schedule l) |}.

(** The pillar with another zero rate. *)
Definition with_zero (p : pillar) (z : R) : pillar :=
  {| first_settle_date := first_settle_date p; p_date := p_date p; market_rate := market_rate p;
     p_zero_rate := z; p_discount := p_discount p; source := source p; hidden_pillar := hidden_pillar p |}.
