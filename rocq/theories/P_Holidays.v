(** Property C90: the shipped calendars and the holiday laws they are named
    after.  The laws are lists of rules over dates (HolidayRules.v,
    HolidayTables.v). *)
From Coq Require Import ZArith Bool List Lia.
From Coq Require Import ZifyBool.
Import ListNotations.
From Verif Require Import Outcome Date DateFacts Calendar CalendarSpec CalendarFacts EasterSpec EasterFacts Shipped HolidayRules HolidayTables
  Cal_base HolidayCheck HolidayCheck1 HolidayCheck2 ShippedFacts.
From Verif Require Import Cal_poland Cal_italy Cal_austria Cal_germany Cal_france Cal_brazil Cal_australia Cal_canada Cal_newzealand
  Cal_unitedkingdom Cal_unitedstates Cal_chile Cal_japan.
Open Scope Z_scope.

Definition weekend (d : date) : Prop := weekday_of d = Sat \/ weekday_of d = Sun.

(** In the years of the Easter tables, calendar [s] closes on the weekends, on
    the days of [rules], and on no other day. *)
Definition closes_on (s : shipped) (rules : list rule) : Prop :=
  forall d, 1901 <= year d <= 2199 ->
    (closed (shipped_calendar s) d <-> weekend d \/ Exists (fun r => falls r d) rules).

Definition follows_the_law : list (shipped * list rule) :=
  [(Target, target_rules); (Switzerland, switzerland_rules); (Hungary, hungary_rules); (Norway, norway_rules);
   (Finland, finland_rules); (Sweden, sweden_rules); (Denmark, denmark_rules); (Iceland, iceland_rules); (Romania, romania_rules);
   (CzechRepublic, czech_rules); (Slovakia, slovakia_rules);
   (Poland None, poland_rules); (Poland (Some poland_Settlement), poland_rules); (Poland (Some poland_WSE), poland_wse_rules);
   (Italy None, italy_rules); (Italy (Some italy_Settlement), italy_rules); (Italy (Some italy_Exchange), italy_exchange_rules);
   (Austria None, austria_rules); (Austria (Some austria_Settlement), austria_rules);
   (Austria (Some austria_Exchange), austria_exchange_rules);
   (Germany None, frankfurt_rules); (Germany (Some germany_Settlement), germany_rules);
   (Germany (Some germany_FrankfurtStockExchange), frankfurt_rules); (Germany (Some germany_Xetra), frankfurt_rules);
   (Germany (Some germany_Eurex), eurex_rules); (Germany (Some germany_Euwax), euwax_rules);
   (France (Some france_Exchange), euronext_rules); (SouthAfrica, southafrica_rules); (Botswana, botswana_rules);
   (Mexico, mexico_rules); (Brazil None, brazil_rules); (Brazil (Some brazil_Settlement), brazil_rules);
   (Brazil (Some brazil_Exchange), brazil_exchange_rules);
   (Australia None, australia_rules); (Australia (Some australia_Settlement), australia_rules);
   (Australia (Some australia_ASX), australia_asx_rules);
   (Canada None, canada_rules); (Canada (Some canada_Settlement), canada_rules); (Canada (Some canada_TSX), canada_tsx_rules);
   (NewZealand None, wellington_rules); (NewZealand (Some newzealand_Wellington), wellington_rules);
   (NewZealand (Some newzealand_Auckland), auckland_rules);
   (UnitedKingdom None, unitedkingdom_rules); (UnitedKingdom (Some unitedkingdom_Settlement), unitedkingdom_rules);
   (UnitedKingdom (Some unitedkingdom_Exchange), unitedkingdom_rules);
   (UnitedKingdom (Some unitedkingdom_Metals), unitedkingdom_rules);
   (UnitedStates None, us_settlement_rules); (UnitedStates (Some unitedstates_Settlement), us_settlement_rules);
   (UnitedStates (Some unitedstates_Libor), us_libor_rules); (UnitedStates (Some unitedstates_GovernmentBond), us_bond_rules);
   (UnitedStates (Some unitedstates_SOFR), us_sofr_rules); (UnitedStates (Some unitedstates_NERC), us_nerc_rules)].

Theorem C90_follows : forall s rules, In (s, rules) follows_the_law -> closes_on s rules.
Proof.
  assert (P : Forall (fun x => closes_on (fst x) (snd x)) follows_the_law).
  { repeat (apply Forall_cons; [cbn [fst snd]|]); try apply Forall_nil.
    - exact holidays_target.
    - exact holidays_switzerland.
    - exact holidays_hungary.
    - exact holidays_norway.
    - exact holidays_finland.
    - exact holidays_sweden.
    - exact holidays_denmark.
    - exact holidays_iceland.
    - exact holidays_romania.
    - exact holidays_czechrepublic.
    - exact holidays_slovakia.
    - exact holidays_poland_Settlement.
    - exact holidays_poland_Settlement.
    - exact holidays_poland_WSE.
    - exact holidays_italy_Settlement.
    - exact holidays_italy_Settlement.
    - exact holidays_italy_Exchange.
    - exact holidays_austria_Settlement.
    - exact holidays_austria_Settlement.
    - exact holidays_austria_Exchange.
    - exact holidays_germany_FrankfurtStockExchange.
    - exact holidays_germany_Settlement.
    - exact holidays_germany_FrankfurtStockExchange.
    - exact holidays_germany_FrankfurtStockExchange.
    - exact holidays_germany_Eurex.
    - exact holidays_germany_Euwax.
    - exact holidays_france_Exchange.
    - exact holidays_southafrica.
    - exact holidays_botswana.
    - exact holidays_mexico.
    - exact holidays_brazil_Settlement.
    - exact holidays_brazil_Settlement.
    - exact holidays_brazil_Exchange.
    - exact holidays_australia_Settlement.
    - exact holidays_australia_Settlement.
    - exact holidays_australia_ASX.
    - exact holidays_canada_Settlement.
    - exact holidays_canada_Settlement.
    - exact holidays_canada_TSX.
    - exact holidays_newzealand_Wellington.
    - exact holidays_newzealand_Wellington.
    - exact holidays_newzealand_Auckland.
    - exact holidays_unitedkingdom_Settlement.
    - exact holidays_unitedkingdom_Settlement.
    - exact holidays_unitedkingdom_Settlement.
    - exact holidays_unitedkingdom_Settlement.
    - exact holidays_unitedstates_Settlement.
    - exact holidays_unitedstates_Settlement.
    - exact holidays_unitedstates_Libor.
    - exact holidays_unitedstates_GovernmentBond.
    - exact holidays_unitedstates_SOFR.
    - exact holidays_unitedstates_NERC. }
  intros s rules I. exact (proj1 (Forall_forall _ _) P (s, rules) I).
Qed.
Print Assumptions C90_follows.

(** The other calendars built on rules, each with the departure from its law
    written into the rules: Western for Orthodox Easter in Ukraine, 10 and
    21 May for Ascension Day and Whit Monday in France, no Christmas Day in
    Argentina, the first Tuesday of November for the election day of the New
    York exchange, the moved Juneteenth at the Federal Reserve, the code's own
    equinoxes in Japan and solstices in Chile. *)
Theorem C90_departures :
  closes_on Ukraine (ukraine_rules_with FromEaster) /\
  closes_on (France None) (france_rules_with (Fixed 5 10) (Fixed 5 21)) /\
  closes_on (France (Some france_Settlement)) (france_rules_with (Fixed 5 10) (Fixed 5 21)) /\
  closes_on Argentina (argentina_rules_with []) /\
  closes_on (UnitedStates (Some unitedstates_NYSE)) (us_nyse_rules_with (election_years (Nth 1 Tue 11))) /\
  closes_on (UnitedStates (Some unitedstates_FederalReserve)) (us_fed_rules_with juneteenth) /\
  closes_on Japan (japan_rules_with japan_vernal_equinox_day japan_autumnal_equinox_day) /\
  closes_on Chile (chile_rules_with (fun y => nth (Z.to_nat (y - 2021)) chile_ABORIGINAL_PEOPLE_DAY 0)).
Proof.
  exact (conj holidays_ukraine (conj holidays_france_Settlement (conj holidays_france_Settlement (conj holidays_argentina
    (conj holidays_unitedstates_NYSE (conj holidays_unitedstates_FederalReserve (conj holidays_japan holidays_chile))))))).
Qed.
Print Assumptions C90_departures.

(** A day that the rules name but the calendar opens on refutes [closes_on]. *)
Lemma open_refutes s rules r d : 1901 <= year d <= 2199 -> opened (shipped_calendar s) d ->
  In r rules -> falls r d -> ~ closes_on s rules.
Proof.
  intros Y O I H C. assert (X : closed (shipped_calendar s) d).
  { apply (C d Y). right. apply Exists_exists. exists r. split; assumption. }
  unfold opened, closed in *. congruence.
Qed.

(** And so does a closed working day that no rule names. *)
Lemma closed_refutes s rules d : 1901 <= year d <= 2199 -> closed (shipped_calendar s) d ->
  ~ weekend d -> (forall r, In r rules -> ~ falls r d) -> ~ closes_on s rules.
Proof.
  intros Y O W N C. destruct (proj1 (C d Y) O) as [X|X]; [exact (W X)|].
  apply Exists_exists in X. destruct X as (r & I & H). exact (N r I H).
Qed.

(** A rule on a given day is decided by [rule_view]. *)
Ltac by_view := apply rule_view_falls; [vm_compute; split; discriminate|vm_compute; reflexivity|vm_compute; reflexivity].

(** Orthodox Easter Monday, 6 May 2024. *)
Theorem C90_ukraine_refuted : ~ closes_on Ukraine (ukraine_rules_with FromOrthodoxEaster).
Proof.
  apply (open_refutes _ _ (FromOrthodoxEaster 1) (of_ymd 2024 5 6));
    [vm_compute; split; discriminate|vm_compute; reflexivity|cbn; tauto|by_view].
Qed.
Print Assumptions C90_ukraine_refuted.

(** Ascension Day, 9 May 2024. *)
Theorem C90_france_refuted : ~ closes_on (France (Some france_Settlement)) (france_rules_with ascension whit_monday).
Proof.
  apply (open_refutes _ _ ascension (of_ymd 2024 5 9));
    [vm_compute; split; discriminate|vm_compute; reflexivity|cbn; tauto|by_view].
Qed.
Print Assumptions C90_france_refuted.

(** The two fixed days are right together, in the years of an Easter on 1 April. *)
Theorem C90_france_years : forall y, 1901 <= y <= 2199 ->
  closed (shipped_calendar (France (Some france_Settlement))) (of_ymd y 5 10) /\
  closed (shipped_calendar (France (Some france_Settlement))) (of_ymd y 5 21) /\
  (falls ascension (of_ymd y 5 10) <-> western_easter y (of_ymd y 4 1)) /\
  (falls whit_monday (of_ymd y 5 21) <-> western_easter y (of_ymd y 4 1)).
Proof.
  intros y Y.
  assert (V : forall k, 1 <= k <= 31 -> valid_ymd y 5 k) by (intros k K; split; [lia|]; change (mlen y 5) with 31; lia).
  assert (A : of_ymd y 5 1 = of_ymd y 4 1 + 30) by (change 5 with (4 + 1); rewrite of_ymd_next_month by lia; reflexivity).
  assert (D1 : of_ymd y 5 10 = of_ymd y 5 1 + 9) by (rewrite of_ymd_day; reflexivity).
  assert (D2 : of_ymd y 5 21 = of_ymd y 5 1 + 20) by (rewrite of_ymd_day; reflexivity).
  split; [|split; [|split]].
  - apply (proj2 (holidays_france_Settlement (of_ymd y 5 10) ltac:(rewrite year_of_ymd by (apply V; lia); exact Y))). right.
    apply Exists_exists. exists (Fixed 5 10). split; [cbn; tauto|]. cbn [falls]. unfold on.
    rewrite month_of_ymd, day_of_ymd by (apply V; lia). tauto.
  - apply (proj2 (holidays_france_Settlement (of_ymd y 5 21) ltac:(rewrite year_of_ymd by (apply V; lia); exact Y))). right.
    apply Exists_exists. exists (Fixed 5 21). split; [cbn; tauto|]. cbn [falls]. unfold on.
    rewrite month_of_ymd, day_of_ymd by (apply V; lia). tauto.
  - cbn [ascension falls]. rewrite year_of_ymd by (apply V; lia). split.
    + intros (s & W & E). replace (of_ymd y 4 1) with s by (change date with Z in *; lia). exact W.
    + intros W. exists (of_ymd y 4 1). split; [exact W|]. change date with Z in *. lia.
  - cbn [whit_monday falls]. rewrite year_of_ymd by (apply V; lia). split.
    + intros (s & W & E). replace (of_ymd y 4 1) with s by (change date with Z in *; lia). exact W.
    + intros W. exists (of_ymd y 4 1). split; [exact W|]. change date with Z in *. lia.
Qed.
Print Assumptions C90_france_years.

(** Every Christmas Day that is not on a weekend is a business day in
    Argentina. *)
Theorem C90_argentina_refuted :
  ~ closes_on Argentina (argentina_rules_with [christmas]) /\
  forall d, 1901 <= year d <= 2199 -> falls christmas d -> ~ weekend d -> opened (shipped_calendar Argentina) d.
Proof.
  split.
  - apply (open_refutes _ _ christmas (of_ymd 2024 12 25));
      [vm_compute; split; discriminate|vm_compute; reflexivity|cbn; tauto|by_view].
  - intros d Y [M D] W. destruct (shipped_total Argentina d Y) as ([] & E); [exact E|exfalso].
    cbn [shipped_calendar] in E. unfold Cal_argentina.argentina_is_business_day in E.
    destruct (western_easter_monday (year d) Y) as (em & s & Em & We & S1 & B). rewrite Em in E. cbn [obind] in E.
    assert (Wb : is_weekend d = false) by (unfold is_weekend, weekend in *; destruct (weekday_of d); tauto).
    assert (O : 300 <= ordinal d).
    { unfold ordinal. pose proof (of_ymd_ymd d) as Q. rewrite of_ymd_day, M, D in Q.
      pose proof (of_ymd_next_year (year d)). pose proof (Closure.jan1_next (year d)) as J. unfold Closure.year_len in J.
      change date with Z in *. destruct (leap (year d)); lia. }
    rewrite M, D, Wb in E. cbn -[Z.add Z.sub Z.opp] in E.
    destruct (Z.eqb_spec (ordinal d) (em - 4)); [lia|]. destruct (Z.eqb_spec (ordinal d) (em - 3)); [lia|].
    rewrite ?andb_false_r in E. cbn in E. congruence.
Qed.
Print Assumptions C90_argentina_refuted.

(** Election day 1960, Tuesday 8 November (the calendar closes on the 1st), and
    the day of mourning of 9 January 2025. *)
Theorem C90_nyse_refuted :
  ~ closes_on (UnitedStates (Some unitedstates_NYSE)) (us_nyse_rules_with (election_years election_day)) /\
  falls election_day (of_ymd 1960 11 8) /\
  opened (shipped_calendar (UnitedStates (Some unitedstates_NYSE))) (of_ymd 1960 11 8) /\
  closed (shipped_calendar (UnitedStates (Some unitedstates_NYSE))) (of_ymd 1960 11 1) /\
  opened (shipped_calendar (UnitedStates (Some unitedstates_NYSE))) (of_ymd 2025 1 9) /\
  closed (shipped_calendar (UnitedStates (Some unitedstates_GovernmentBond))) (of_ymd 2025 1 9).
Proof.
  split; [|split; [by_view|repeat split; vm_compute; reflexivity]].
  apply (open_refutes _ _ (until 1968 election_day) (of_ymd 1960 11 8));
    [vm_compute; split; discriminate|vm_compute; reflexivity|cbn; tauto|by_view].
Qed.
Print Assumptions C90_nyse_refuted.

(** Friday 18 June 2027, before Saturday 19 June: the Federal Reserve keeps its
    other Saturday holidays on the Saturday. *)
Theorem C90_fed_refuted :
  ~ closes_on (UnitedStates (Some unitedstates_FederalReserve)) (us_fed_rules_with (since 2022 (SundayToMonday 6 19))).
Proof.
  apply (closed_refutes _ _ (of_ymd 2027 6 18)); [vm_compute; split; discriminate|vm_compute; reflexivity| |].
  - intros [W|W]; vm_compute in W; discriminate W.
  - intros r I F. apply rule_view_falls in F; [| vm_compute; split; discriminate|].
    + revert F. apply not_true_iff_false. revert r I. apply Forall_forall.
      unfold us_fed_rules_with. repeat (apply Forall_cons; [vm_compute; reflexivity|]). apply Forall_nil.
    + revert r I F. cut (forall r, In r (us_fed_rules_with (since 2022 (SundayToMonday 6 19))) -> rule_ok r = true); [intros G r I _; exact (G r I)|].
      apply Forall_forall. repeat (apply Forall_cons; [vm_compute; reflexivity|]). apply Forall_nil.
Qed.
Print Assumptions C90_fed_refuted.

(** The equinoxes of the code and of the formula, from 1980 to 2099. *)
Definition wrong_vernal : list Z :=
  [1981; 1982; 1983; 1985; 1986; 1987; 1989; 1990; 1991; 1994; 1995; 1998; 1999; 2002; 2003; 2006; 2007; 2010; 2011; 2031; 2035;
   2039; 2043; 2047; 2051; 2055; 2092; 2096].
Definition wrong_autumnal : list Z :=
  [2012; 2016; 2032; 2036; 2040; 2044; 2045; 2048; 2049; 2052; 2053; 2056; 2057; 2060; 2061; 2064; 2065; 2068; 2069; 2072; 2073;
   2076; 2077; 2078; 2080; 2081; 2082; 2084; 2085; 2086; 2088; 2089; 2090; 2092; 2093; 2094; 2096; 2097; 2098].

Theorem C90_equinoxes : forall y, 1980 <= y <= 2099 ->
  (japan_vernal_equinox_day y <> vernal_equinox y <-> In y wrong_vernal) /\
  (japan_autumnal_equinox_day y <> autumnal_equinox y <-> In y wrong_autumnal).
Proof.
  intros y Y.
  assert (C : forallb (fun i => let y := 1980 + Z.of_nat i in
    Bool.eqb (negb (japan_vernal_equinox_day y =? vernal_equinox y)) (existsb (Z.eqb y) wrong_vernal) &&
    Bool.eqb (negb (japan_autumnal_equinox_day y =? autumnal_equinox y)) (existsb (Z.eqb y) wrong_autumnal)) (seq 0 120) = true)
    by (vm_compute; reflexivity).
  rewrite forallb_forall in C. specialize (C (Z.to_nat (y - 1980)) ltac:(apply in_seq; lia)). cbv zeta in C.
  replace (1980 + Z.of_nat (Z.to_nat (y - 1980))) with y in C by lia.
  apply andb_true_iff in C. destruct C as [C1 C2]. apply eqb_prop in C1, C2.
  assert (X : forall l, existsb (Z.eqb y) l = true <-> In y l).
  { intros l. rewrite existsb_exists. split; [intros (x & I & E); apply Z.eqb_eq in E; subst x; exact I|].
    intros I. exists y. split; [exact I|apply Z.eqb_refl]. }
  rewrite <- !X, <- C1, <- C2, !negb_true_iff, !Z.eqb_neq. tauto.
Qed.
Print Assumptions C90_equinoxes.

(** The vernal equinox of 2007 was on Wednesday 21 March and the autumnal one of
    2016 on Thursday 22 September: both are business days of the code. *)
Theorem C90_japan_refuted :
  ~ closes_on Japan (japan_rules_with vernal_equinox autumnal_equinox) /\
  falls (Yearly (fun y => SundayToMonday 3 (vernal_equinox y))) (of_ymd 2007 3 21) /\
  falls (Yearly (fun y => SundayToMonday 9 (autumnal_equinox y))) (of_ymd 2016 9 22) /\
  opened (shipped_calendar Japan) (of_ymd 2007 3 21) /\ opened (shipped_calendar Japan) (of_ymd 2016 9 22).
Proof.
  assert (F1 : falls (Yearly (fun y => SundayToMonday 3 (vernal_equinox y))) (of_ymd 2007 3 21)) by by_view.
  assert (F2 : falls (Yearly (fun y => SundayToMonday 9 (autumnal_equinox y))) (of_ymd 2016 9 22)) by by_view.
  split; [|split; [exact F1|split; [exact F2|split; vm_compute; reflexivity]]].
  apply (open_refutes _ _ (Yearly (fun y => SundayToMonday 3 (vernal_equinox y))) (of_ymd 2007 3 21));
    [vm_compute; split; discriminate|vm_compute; reflexivity|cbn; tauto|exact F1].
Qed.
Print Assumptions C90_japan_refuted.

(** Thanksgiving 2024, Independence Day observed on Friday 3 July 2026, the
    Chilean St Peter and St Paul of 2025 (Sunday 29 June, so not moved). *)
Example C90_witness :
  In (UnitedStates None, us_settlement_rules) follows_the_law /\ 1901 <= year (of_ymd 2026 7 3) <= 2199 /\
  falls thanksgiving (of_ymd 2024 11 28) /\ falls (Observed 7 4) (of_ymd 2026 7 3) /\
  closed (shipped_calendar (UnitedStates None)) (of_ymd 2026 7 3) /\
  opened (shipped_calendar (UnitedStates (Some unitedstates_Libor))) (of_ymd 2026 7 3) /\
  falls christmas (of_ymd 2024 12 25) /\ ~ weekend (of_ymd 2024 12 25) /\
  closed (shipped_calendar (Canada None)) (of_ymd 2023 10 2) /\ falls (OrMonday 9 30) (of_ymd 2023 10 2).
Proof.
  split; [cbn; tauto|]. split; [vm_compute; split; discriminate|].
  split; [by_view|]. split; [by_view|]. split; [vm_compute; reflexivity|]. split; [vm_compute; reflexivity|].
  split; [by_view|]. split; [intros [W|W]; vm_compute in W; discriminate W|]. split; [vm_compute; reflexivity|by_view].
Qed.
