(** Names and codes of business-day conventions and frequencies.  A [&str] is
    its UTF-8 bytes ([string]); matching on it is byte equality. *)
From Coq Require Import ZArith Bool String List.
From Verif Require Import Outcome Date Calendar.
Open Scope string_scope.

(** src/time/businessdayconvention.rs:16-26  BusinessDayConvention::name *)
Definition convention_name (b : convention) : string :=
  match b with
  | Following => "Following"
  | ModifiedFollowing => "Modified Following"
  | HalfMonthModifiedFollowing => "Half-Month Modified Following"
  | Preceding => "Preceding"
  | ModifiedPreceding => "Modified Preceding"
  | Unadjusted => "Unadjusted"
  | Nearest => "Nearest"
  end.

(** src/time/businessdayconvention.rs:28-45  BusinessDayConvention::from_code *)
Definition convention_from_code (s : string) : option convention :=
  if s =? "Following" then Some Following
  else if (s =? "Modified Following") || (s =? "ModifiedFollowing") then Some ModifiedFollowing
  else if (s =? "Half-Month Modified Following") || (s =? "HalfMonthModifiedFollowing")
  then Some HalfMonthModifiedFollowing
  else if s =? "Preceding" then Some Preceding
  else if (s =? "Modified Preceding") || (s =? "ModifiedPreceding") then Some ModifiedPreceding
  else if s =? "Unadjusted" then Some Unadjusted
  else if s =? "Nearest" then Some Nearest
  else None.

(** src/time/frequency.rs:8-22  enum Frequency *)
Inductive frequency : Set :=
| NoFrequency | Once | Annual | Semiannual | EveryFourthMonth | Quarterly | Bimonthly | Monthly
| EveryFourthWeek | Biweekly | Weekly | Daily | OtherFrequency.

(** src/time/frequency.rs:25-41  Frequency::name *)
Definition frequency_name (f : frequency) : string :=
  match f with
  | NoFrequency => "No-Frequency"
  | Once => "Once"
  | Annual => "Annual"
  | Semiannual => "Semiannual"
  | EveryFourthMonth => "Every-Fourth-Month"
  | Quarterly => "Quarterly"
  | Bimonthly => "Bimonthly"
  | Monthly => "Monthly"
  | EveryFourthWeek => "Every-Fourth-Week"
  | Biweekly => "Biweekly"
  | Weekly => "Weekly"
  | Daily => "Daily"
  | OtherFrequency => "Unknown Frequency"
  end.

(** src/time/frequency.rs:43-59  Frequency::period *)
Definition frequency_period (f : frequency) : option period :=
  match f with
  | NoFrequency => Some ON
  | Once => None
  | Annual => Some (Years 1)
  | Semiannual => Some (Months 6)
  | EveryFourthMonth => Some (Months 4)
  | Quarterly => Some (Months 3)
  | Bimonthly => Some (Months 2)
  | Monthly => Some (Months 1)
  | EveryFourthWeek => Some (Weeks 4)
  | Biweekly => Some (Weeks 2)
  | Weekly => Some (Weeks 1)
  | Daily => Some (Days 1)
  | OtherFrequency => None
  end.

(** src/time/frequency.rs:8-22  the [repr(i16)] discriminants: events per year *)
Definition frequency_repr (f : frequency) : Z :=
  match f with
  | NoFrequency => -1
  | Once => 0
  | Annual => 1
  | Semiannual => 2
  | EveryFourthMonth => 3
  | Quarterly => 4
  | Bimonthly => 6
  | Monthly => 12
  | EveryFourthWeek => 13
  | Biweekly => 26
  | Weekly => 52
  | Daily => 365
  | OtherFrequency => 999
  end%Z.

(** src/time/frequency.rs:61-76  Frequency::from_code *)
Definition frequency_from_code (s : string) : option frequency :=
  if s =? "Once" then Some NoFrequency
  else if s =? "Annual" then Some Annual
  else if s =? "Semiannual" then Some Semiannual
  else if (s =? "EveryFourthMonth") || (s =? "Every-Fourth-Month") then Some EveryFourthMonth
  else if s =? "Quarterly" then Some Quarterly
  else if s =? "Bimonthly" then Some Bimonthly
  else if s =? "Monthly" then Some Monthly
  else if (s =? "EveryFourthWeek") || (s =? "Every-Fourth-Week") then Some EveryFourthWeek
  else if s =? "Biweekly" then Some Biweekly
  else if s =? "Weekly" then Some Weekly
  else if s =? "Daily" then Some Daily
  else None.
