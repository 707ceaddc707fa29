(** Holiday certificates: the shipped calendars against their rules
    (HolidayTables.v), day by day.  Nothing here models code. *)
From Coq Require Import ZArith Bool List.
From Verif Require Import Outcome Date Calendar CalendarSpec Cal_base ShippedFacts Closure ClosureView Closure1 Closure2 Closure3
  Closure4 Shipped HolidayRules HolidayTables HolidayCheck.
From Verif Require Import Cal_poland Cal_italy Cal_austria Cal_germany Cal_france Cal_brazil Cal_australia Cal_canada Cal_newzealand
  Cal_unitedkingdom Cal_unitedstates Cal_chile Cal_japan.
Open Scope Z_scope.

Lemma holidays_switzerland : forall d, 1901 <= year d <= 2199 ->
  (closed (shipped_calendar Switzerland) d <-> (weekday_of d = Sat \/ weekday_of d = Sun) \/ Exists (fun r => falls r d) switzerland_rules).
Proof. apply (rules_sound view_switzerland); [reflexivity | vm_compute; reflexivity | vm_compute; reflexivity]. Qed.

Lemma holidays_norway : forall d, 1901 <= year d <= 2199 ->
  (closed (shipped_calendar Norway) d <-> (weekday_of d = Sat \/ weekday_of d = Sun) \/ Exists (fun r => falls r d) norway_rules).
Proof. apply (rules_sound view_norway); [reflexivity | vm_compute; reflexivity | vm_compute; reflexivity]. Qed.

Lemma holidays_sweden : forall d, 1901 <= year d <= 2199 ->
  (closed (shipped_calendar Sweden) d <-> (weekday_of d = Sat \/ weekday_of d = Sun) \/ Exists (fun r => falls r d) sweden_rules).
Proof. apply (rules_sound view_sweden); [reflexivity | vm_compute; reflexivity | vm_compute; reflexivity]. Qed.

Lemma holidays_iceland : forall d, 1901 <= year d <= 2199 ->
  (closed (shipped_calendar Iceland) d <-> (weekday_of d = Sat \/ weekday_of d = Sun) \/ Exists (fun r => falls r d) iceland_rules).
Proof. apply (rules_sound view_iceland); [reflexivity | vm_compute; reflexivity | vm_compute; reflexivity]. Qed.

Lemma holidays_czechrepublic : forall d, 1901 <= year d <= 2199 ->
  (closed (shipped_calendar CzechRepublic) d <-> (weekday_of d = Sat \/ weekday_of d = Sun) \/ Exists (fun r => falls r d) czech_rules).
Proof. apply (rules_sound view_czechrepublic); [reflexivity | vm_compute; reflexivity | vm_compute; reflexivity]. Qed.

Lemma holidays_poland_Settlement : forall d, 1901 <= year d <= 2199 ->
  (closed (shipped_calendar (Poland (Some poland_Settlement))) d <-> (weekday_of d = Sat \/ weekday_of d = Sun) \/ Exists (fun r => falls r d) poland_rules).
Proof. apply (rules_sound view_poland_Settlement); [reflexivity | vm_compute; reflexivity | vm_compute; reflexivity]. Qed.

Lemma holidays_italy_Settlement : forall d, 1901 <= year d <= 2199 ->
  (closed (shipped_calendar (Italy (Some italy_Settlement))) d <-> (weekday_of d = Sat \/ weekday_of d = Sun) \/ Exists (fun r => falls r d) italy_rules).
Proof. apply (rules_sound view_italy_Settlement); [reflexivity | vm_compute; reflexivity | vm_compute; reflexivity]. Qed.

Lemma holidays_austria_Settlement : forall d, 1901 <= year d <= 2199 ->
  (closed (shipped_calendar (Austria (Some austria_Settlement))) d <-> (weekday_of d = Sat \/ weekday_of d = Sun) \/ Exists (fun r => falls r d) austria_rules).
Proof. apply (rules_sound view_austria_Settlement); [reflexivity | vm_compute; reflexivity | vm_compute; reflexivity]. Qed.

Lemma holidays_germany_Settlement : forall d, 1901 <= year d <= 2199 ->
  (closed (shipped_calendar (Germany (Some germany_Settlement))) d <-> (weekday_of d = Sat \/ weekday_of d = Sun) \/ Exists (fun r => falls r d) germany_rules).
Proof. apply (rules_sound view_germany_Settlement); [reflexivity | vm_compute; reflexivity | vm_compute; reflexivity]. Qed.

Lemma holidays_germany_Eurex : forall d, 1901 <= year d <= 2199 ->
  (closed (shipped_calendar (Germany (Some germany_Eurex))) d <-> (weekday_of d = Sat \/ weekday_of d = Sun) \/ Exists (fun r => falls r d) eurex_rules).
Proof. apply (rules_sound view_germany_Eurex); [reflexivity | vm_compute; reflexivity | vm_compute; reflexivity]. Qed.

Lemma holidays_france_Exchange : forall d, 1901 <= year d <= 2199 ->
  (closed (shipped_calendar (France (Some france_Exchange))) d <-> (weekday_of d = Sat \/ weekday_of d = Sun) \/ Exists (fun r => falls r d) euronext_rules).
Proof. apply (rules_sound view_france_Exchange); [reflexivity | vm_compute; reflexivity | vm_compute; reflexivity]. Qed.

Lemma holidays_mexico : forall d, 1901 <= year d <= 2199 ->
  (closed (shipped_calendar Mexico) d <-> (weekday_of d = Sat \/ weekday_of d = Sun) \/ Exists (fun r => falls r d) mexico_rules).
Proof. apply (rules_sound view_mexico); [reflexivity | vm_compute; reflexivity | vm_compute; reflexivity]. Qed.

Lemma holidays_brazil_Exchange : forall d, 1901 <= year d <= 2199 ->
  (closed (shipped_calendar (Brazil (Some brazil_Exchange))) d <-> (weekday_of d = Sat \/ weekday_of d = Sun) \/ Exists (fun r => falls r d) brazil_exchange_rules).
Proof. apply (rules_sound view_brazil_Exchange); [reflexivity | vm_compute; reflexivity | vm_compute; reflexivity]. Qed.

Lemma holidays_australia_ASX : forall d, 1901 <= year d <= 2199 ->
  (closed (shipped_calendar (Australia (Some australia_ASX))) d <-> (weekday_of d = Sat \/ weekday_of d = Sun) \/ Exists (fun r => falls r d) australia_asx_rules).
Proof. apply (rules_sound view_australia_ASX); [reflexivity | vm_compute; reflexivity | vm_compute; reflexivity]. Qed.

Lemma holidays_canada_TSX : forall d, 1901 <= year d <= 2199 ->
  (closed (shipped_calendar (Canada (Some canada_TSX))) d <-> (weekday_of d = Sat \/ weekday_of d = Sun) \/ Exists (fun r => falls r d) canada_tsx_rules).
Proof. apply (rules_sound view_canada_TSX); [reflexivity | vm_compute; reflexivity | vm_compute; reflexivity]. Qed.

Lemma holidays_newzealand_Auckland : forall d, 1901 <= year d <= 2199 ->
  (closed (shipped_calendar (NewZealand (Some newzealand_Auckland))) d <-> (weekday_of d = Sat \/ weekday_of d = Sun) \/ Exists (fun r => falls r d) auckland_rules).
Proof. apply (rules_sound view_newzealand_Auckland); [reflexivity | vm_compute; reflexivity | vm_compute; reflexivity]. Qed.

Lemma holidays_unitedstates_Settlement : forall d, 1901 <= year d <= 2199 ->
  (closed (shipped_calendar (UnitedStates (Some unitedstates_Settlement))) d <-> (weekday_of d = Sat \/ weekday_of d = Sun) \/ Exists (fun r => falls r d) us_settlement_rules).
Proof. apply (rules_sound view_unitedstates_Settlement); [reflexivity | vm_compute; reflexivity | vm_compute; reflexivity]. Qed.

Lemma holidays_unitedstates_GovernmentBond : forall d, 1901 <= year d <= 2199 ->
  (closed (shipped_calendar (UnitedStates (Some unitedstates_GovernmentBond))) d <-> (weekday_of d = Sat \/ weekday_of d = Sun) \/ Exists (fun r => falls r d) us_bond_rules).
Proof. apply (rules_sound view_unitedstates_GovernmentBond); [reflexivity | vm_compute; reflexivity | vm_compute; reflexivity]. Qed.

Lemma holidays_unitedstates_NERC : forall d, 1901 <= year d <= 2199 ->
  (closed (shipped_calendar (UnitedStates (Some unitedstates_NERC))) d <-> (weekday_of d = Sat \/ weekday_of d = Sun) \/ Exists (fun r => falls r d) us_nerc_rules).
Proof. apply (rules_sound view_unitedstates_NERC); [reflexivity | vm_compute; reflexivity | vm_compute; reflexivity]. Qed.

Lemma holidays_unitedstates_NYSE : forall d, 1901 <= year d <= 2199 ->
  (closed (shipped_calendar (UnitedStates (Some unitedstates_NYSE))) d <-> (weekday_of d = Sat \/ weekday_of d = Sun) \/ Exists (fun r => falls r d) (us_nyse_rules_with (election_years (Nth 1 Tue 11)))).
Proof. apply (rules_sound view_unitedstates_NYSE); [reflexivity | vm_compute; reflexivity | vm_compute; reflexivity]. Qed.

Lemma holidays_chile : forall d, 1901 <= year d <= 2199 ->
  (closed (shipped_calendar Chile) d <-> (weekday_of d = Sat \/ weekday_of d = Sun) \/ Exists (fun r => falls r d) (chile_rules_with (fun y => nth (Z.to_nat (y - 2021)) chile_ABORIGINAL_PEOPLE_DAY 0))).
Proof. apply (rules_sound view_chile); [reflexivity | vm_compute; reflexivity | vm_compute; reflexivity]. Qed.

Lemma holidays_japan : forall d, 1901 <= year d <= 2199 ->
  (closed (shipped_calendar Japan) d <-> (weekday_of d = Sat \/ weekday_of d = Sun) \/ Exists (fun r => falls r d) (japan_rules_with japan_vernal_equinox_day japan_autumnal_equinox_day)).
Proof. apply (rules_sound view_japan); [reflexivity | vm_compute; reflexivity | vm_compute; reflexivity]. Qed.

Lemma holidays_france_Settlement : forall d, 1901 <= year d <= 2199 ->
  (closed (shipped_calendar (France (Some france_Settlement))) d <-> (weekday_of d = Sat \/ weekday_of d = Sun) \/ Exists (fun r => falls r d) (france_rules_with (Fixed 5 10) (Fixed 5 21))).
Proof. apply (rules_sound view_france_Settlement); [reflexivity | vm_compute; reflexivity | vm_compute; reflexivity]. Qed.
