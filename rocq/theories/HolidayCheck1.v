(** Holiday certificates: the shipped calendars against their rules
    (HolidayTables.v), day by day.  Nothing here models code. *)
From Coq Require Import ZArith Bool List.
From Verif Require Import Outcome Date Calendar CalendarSpec Cal_base ShippedFacts Closure ClosureView Closure1 Closure2 Closure3
  Closure4 Shipped HolidayRules HolidayTables HolidayCheck.
From Verif Require Import Cal_poland Cal_italy Cal_austria Cal_germany Cal_france Cal_brazil Cal_australia Cal_canada Cal_newzealand
  Cal_unitedkingdom Cal_unitedstates Cal_chile Cal_japan.
Open Scope Z_scope.

Lemma holidays_target : forall d, 1901 <= year d <= 2199 ->
  (closed (shipped_calendar Target) d <-> (weekday_of d = Sat \/ weekday_of d = Sun) \/ Exists (fun r => falls r d) target_rules).
Proof. apply (rules_sound view_target); [reflexivity | vm_compute; reflexivity | vm_compute; reflexivity]. Qed.

Lemma holidays_hungary : forall d, 1901 <= year d <= 2199 ->
  (closed (shipped_calendar Hungary) d <-> (weekday_of d = Sat \/ weekday_of d = Sun) \/ Exists (fun r => falls r d) hungary_rules).
Proof. apply (rules_sound view_hungary); [reflexivity | vm_compute; reflexivity | vm_compute; reflexivity]. Qed.

Lemma holidays_finland : forall d, 1901 <= year d <= 2199 ->
  (closed (shipped_calendar Finland) d <-> (weekday_of d = Sat \/ weekday_of d = Sun) \/ Exists (fun r => falls r d) finland_rules).
Proof. apply (rules_sound view_finland); [reflexivity | vm_compute; reflexivity | vm_compute; reflexivity]. Qed.

Lemma holidays_denmark : forall d, 1901 <= year d <= 2199 ->
  (closed (shipped_calendar Denmark) d <-> (weekday_of d = Sat \/ weekday_of d = Sun) \/ Exists (fun r => falls r d) denmark_rules).
Proof. apply (rules_sound view_denmark); [reflexivity | vm_compute; reflexivity | vm_compute; reflexivity]. Qed.

Lemma holidays_romania : forall d, 1901 <= year d <= 2199 ->
  (closed (shipped_calendar Romania) d <-> (weekday_of d = Sat \/ weekday_of d = Sun) \/ Exists (fun r => falls r d) romania_rules).
Proof. apply (rules_sound view_romania); [reflexivity | vm_compute; reflexivity | vm_compute; reflexivity]. Qed.

Lemma holidays_slovakia : forall d, 1901 <= year d <= 2199 ->
  (closed (shipped_calendar Slovakia) d <-> (weekday_of d = Sat \/ weekday_of d = Sun) \/ Exists (fun r => falls r d) slovakia_rules).
Proof. apply (rules_sound view_slovakia); [reflexivity | vm_compute; reflexivity | vm_compute; reflexivity]. Qed.

Lemma holidays_poland_WSE : forall d, 1901 <= year d <= 2199 ->
  (closed (shipped_calendar (Poland (Some poland_WSE))) d <-> (weekday_of d = Sat \/ weekday_of d = Sun) \/ Exists (fun r => falls r d) poland_wse_rules).
Proof. apply (rules_sound view_poland_WSE); [reflexivity | vm_compute; reflexivity | vm_compute; reflexivity]. Qed.

Lemma holidays_italy_Exchange : forall d, 1901 <= year d <= 2199 ->
  (closed (shipped_calendar (Italy (Some italy_Exchange))) d <-> (weekday_of d = Sat \/ weekday_of d = Sun) \/ Exists (fun r => falls r d) italy_exchange_rules).
Proof. apply (rules_sound view_italy_Exchange); [reflexivity | vm_compute; reflexivity | vm_compute; reflexivity]. Qed.

Lemma holidays_austria_Exchange : forall d, 1901 <= year d <= 2199 ->
  (closed (shipped_calendar (Austria (Some austria_Exchange))) d <-> (weekday_of d = Sat \/ weekday_of d = Sun) \/ Exists (fun r => falls r d) austria_exchange_rules).
Proof. apply (rules_sound view_austria_Exchange); [reflexivity | vm_compute; reflexivity | vm_compute; reflexivity]. Qed.

Lemma holidays_germany_FrankfurtStockExchange : forall d, 1901 <= year d <= 2199 ->
  (closed (shipped_calendar (Germany (Some germany_FrankfurtStockExchange))) d <-> (weekday_of d = Sat \/ weekday_of d = Sun) \/ Exists (fun r => falls r d) frankfurt_rules).
Proof. apply (rules_sound view_germany_FrankfurtStockExchange); [reflexivity | vm_compute; reflexivity | vm_compute; reflexivity]. Qed.

Lemma holidays_germany_Euwax : forall d, 1901 <= year d <= 2199 ->
  (closed (shipped_calendar (Germany (Some germany_Euwax))) d <-> (weekday_of d = Sat \/ weekday_of d = Sun) \/ Exists (fun r => falls r d) euwax_rules).
Proof. apply (rules_sound view_germany_Euwax); [reflexivity | vm_compute; reflexivity | vm_compute; reflexivity]. Qed.

Lemma holidays_southafrica : forall d, 1901 <= year d <= 2199 ->
  (closed (shipped_calendar SouthAfrica) d <-> (weekday_of d = Sat \/ weekday_of d = Sun) \/ Exists (fun r => falls r d) southafrica_rules).
Proof. apply (rules_sound view_southafrica); [reflexivity | vm_compute; reflexivity | vm_compute; reflexivity]. Qed.

Lemma holidays_brazil_Settlement : forall d, 1901 <= year d <= 2199 ->
  (closed (shipped_calendar (Brazil (Some brazil_Settlement))) d <-> (weekday_of d = Sat \/ weekday_of d = Sun) \/ Exists (fun r => falls r d) brazil_rules).
Proof. apply (rules_sound view_brazil_Settlement); [reflexivity | vm_compute; reflexivity | vm_compute; reflexivity]. Qed.

Lemma holidays_australia_Settlement : forall d, 1901 <= year d <= 2199 ->
  (closed (shipped_calendar (Australia (Some australia_Settlement))) d <-> (weekday_of d = Sat \/ weekday_of d = Sun) \/ Exists (fun r => falls r d) australia_rules).
Proof. apply (rules_sound view_australia_Settlement); [reflexivity | vm_compute; reflexivity | vm_compute; reflexivity]. Qed.

Lemma holidays_canada_Settlement : forall d, 1901 <= year d <= 2199 ->
  (closed (shipped_calendar (Canada (Some canada_Settlement))) d <-> (weekday_of d = Sat \/ weekday_of d = Sun) \/ Exists (fun r => falls r d) canada_rules).
Proof. apply (rules_sound view_canada_Settlement); [reflexivity | vm_compute; reflexivity | vm_compute; reflexivity]. Qed.

Lemma holidays_newzealand_Wellington : forall d, 1901 <= year d <= 2199 ->
  (closed (shipped_calendar (NewZealand (Some newzealand_Wellington))) d <-> (weekday_of d = Sat \/ weekday_of d = Sun) \/ Exists (fun r => falls r d) wellington_rules).
Proof. apply (rules_sound view_newzealand_Wellington); [reflexivity | vm_compute; reflexivity | vm_compute; reflexivity]. Qed.

Lemma holidays_unitedkingdom_Settlement : forall d, 1901 <= year d <= 2199 ->
  (closed (shipped_calendar (UnitedKingdom (Some unitedkingdom_Settlement))) d <-> (weekday_of d = Sat \/ weekday_of d = Sun) \/ Exists (fun r => falls r d) unitedkingdom_rules).
Proof. apply (rules_sound view_unitedkingdom_Settlement); [reflexivity | vm_compute; reflexivity | vm_compute; reflexivity]. Qed.

Lemma holidays_unitedstates_Libor : forall d, 1901 <= year d <= 2199 ->
  (closed (shipped_calendar (UnitedStates (Some unitedstates_Libor))) d <-> (weekday_of d = Sat \/ weekday_of d = Sun) \/ Exists (fun r => falls r d) us_libor_rules).
Proof. apply (rules_sound view_unitedstates_Libor); [reflexivity | vm_compute; reflexivity | vm_compute; reflexivity]. Qed.

Lemma holidays_unitedstates_SOFR : forall d, 1901 <= year d <= 2199 ->
  (closed (shipped_calendar (UnitedStates (Some unitedstates_SOFR))) d <-> (weekday_of d = Sat \/ weekday_of d = Sun) \/ Exists (fun r => falls r d) us_sofr_rules).
Proof. apply (rules_sound view_unitedstates_SOFR); [reflexivity | vm_compute; reflexivity | vm_compute; reflexivity]. Qed.

Lemma holidays_unitedstates_FederalReserve : forall d, 1901 <= year d <= 2199 ->
  (closed (shipped_calendar (UnitedStates (Some unitedstates_FederalReserve))) d <-> (weekday_of d = Sat \/ weekday_of d = Sun) \/ Exists (fun r => falls r d) (us_fed_rules_with juneteenth)).
Proof. apply (rules_sound view_unitedstates_FederalReserve); [reflexivity | vm_compute; reflexivity | vm_compute; reflexivity]. Qed.

Lemma holidays_argentina : forall d, 1901 <= year d <= 2199 ->
  (closed (shipped_calendar Argentina) d <-> (weekday_of d = Sat \/ weekday_of d = Sun) \/ Exists (fun r => falls r d) (argentina_rules_with nil)).
Proof. apply (rules_sound view_argentina); [reflexivity | vm_compute; reflexivity | vm_compute; reflexivity]. Qed.

Lemma holidays_botswana : forall d, 1901 <= year d <= 2199 ->
  (closed (shipped_calendar Botswana) d <-> (weekday_of d = Sat \/ weekday_of d = Sun) \/ Exists (fun r => falls r d) botswana_rules).
Proof. apply (rules_sound view_botswana); [reflexivity | vm_compute; reflexivity | vm_compute; reflexivity]. Qed.

Lemma holidays_ukraine : forall d, 1901 <= year d <= 2199 ->
  (closed (shipped_calendar Ukraine) d <-> (weekday_of d = Sat \/ weekday_of d = Sun) \/ Exists (fun r => falls r d) (ukraine_rules_with FromEaster)).
Proof. apply (rules_sound view_ukraine); [reflexivity | vm_compute; reflexivity | vm_compute; reflexivity]. Qed.
