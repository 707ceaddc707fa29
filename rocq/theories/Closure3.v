(** Closure certificates (generated by tools/closure.py). *)
From Coq Require Import ZArith Bool List.
From Verif Require Import Outcome Date Calendar CalendarSpec Cal_base ShippedFacts Closure ClosureView Shipped.
From Verif Require Import Cal_australia.
From Verif Require Import Cal_brazil.
From Verif Require Import Cal_chile.
From Verif Require Import Cal_finland.
From Verif Require Import Cal_germany.
From Verif Require Import Cal_hongkong.
From Verif Require Import Cal_indonesia.
From Verif Require Import Cal_mexico.
From Verif Require Import Cal_poland.
From Verif Require Import Cal_russia.
From Verif Require Import Cal_southkorea.
From Verif Require Import Cal_target.
From Verif Require Import Cal_unitedkingdom.
From Verif Require Import Cal_unitedstates.
Open Scope Z_scope.

Definition view_australia_ASX : view_t := ltac:(
  let t := eval cbv beta iota zeta delta [australia_shared_holiday australia_extra_holiday australia_settlement_is_business_day australia_asx_is_business_day australia_is_business_day is_weekend] in (australia_is_business_day (Some australia_ASX)) in mkview t).
Lemma closure_australia_ASX : closes_at_most 11 (australia_is_business_day (Some australia_ASX)).
Proof. apply (view_sound view_australia_ASX 11); [reflexivity | vm_compute; reflexivity | vm_compute; reflexivity]. Qed.

Definition view_brazil_Settlement : view_t := ltac:(
  let t := eval cbv beta iota zeta delta [brazil_settlement_is_business_day brazil_exchange_is_business_day brazil_is_business_day is_weekend] in (brazil_is_business_day (Some brazil_Settlement)) in mkview t).
Lemma closure_brazil_Settlement : closes_at_most 9 (brazil_is_business_day (Some brazil_Settlement)).
Proof. apply (view_sound view_brazil_Settlement 9); [reflexivity | vm_compute; reflexivity | vm_compute; reflexivity]. Qed.

Definition view_chile : view_t := ltac:(
  let t := eval cbv beta iota zeta delta [chile_is_aboriginal_people_day chile_is_business_day is_weekend] in chile_is_business_day in mkview t).
Lemma closure_chile : closes_at_most 10 chile_is_business_day.
Proof. apply (view_sound view_chile 10); [reflexivity | vm_compute; reflexivity | vm_compute; reflexivity]. Qed.

Definition view_finland : view_t := ltac:(
  let t := eval cbv beta iota zeta delta [finland_is_business_day is_weekend] in finland_is_business_day in mkview t).
Lemma closure_finland : closes_at_most 10 finland_is_business_day.
Proof. apply (view_sound view_finland 10); [reflexivity | vm_compute; reflexivity | vm_compute; reflexivity]. Qed.

Definition view_germany_FrankfurtStockExchange : view_t := ltac:(
  let t := eval cbv beta iota zeta delta [germany_settlement_is_business_day germany_frankfurt_stock_exchange_is_business_day germany_eurex_is_business_day germany_euwax_is_business_day germany_is_business_day is_weekend] in (germany_is_business_day (Some germany_FrankfurtStockExchange)) in mkview t).
Lemma closure_germany_FrankfurtStockExchange : closes_at_most 10 (germany_is_business_day (Some germany_FrankfurtStockExchange)).
Proof. apply (view_sound view_germany_FrankfurtStockExchange 10); [reflexivity | vm_compute; reflexivity | vm_compute; reflexivity]. Qed.

Definition view_hongkong : view_t := ltac:(
  let t := eval cbv beta iota zeta delta [hongkong_is_fixed_or_observed_holiday hongkong_is_business_day is_weekend] in hongkong_is_business_day in mkview t).
Lemma closure_hongkong : closes_at_most 11 hongkong_is_business_day.
Proof. apply (view_sound view_hongkong 11); [reflexivity | vm_compute; reflexivity | vm_compute; reflexivity]. Qed.

Definition view_indonesia : view_t := ltac:(
  let t := eval cbv beta iota zeta delta [indonesia_is_business_day is_weekend] in indonesia_is_business_day in mkview t).
Lemma closure_indonesia : closes_at_most 13 indonesia_is_business_day.
Proof. apply (view_sound view_indonesia 13); [reflexivity | vm_compute; reflexivity | vm_compute; reflexivity]. Qed.

Definition view_mexico : view_t := ltac:(
  let t := eval cbv beta iota zeta delta [mexico_is_business_day is_weekend] in mexico_is_business_day in mkview t).
Lemma closure_mexico : closes_at_most 11 mexico_is_business_day.
Proof. apply (view_sound view_mexico 11); [reflexivity | vm_compute; reflexivity | vm_compute; reflexivity]. Qed.

Definition view_poland_Settlement : view_t := ltac:(
  let t := eval cbv beta iota zeta delta [poland_settlement_is_business_day poland_wse_is_business_day poland_is_business_day is_weekend] in (poland_is_business_day (Some poland_Settlement)) in mkview t).
Lemma closure_poland_Settlement : closes_at_most 9 (poland_is_business_day (Some poland_Settlement)).
Proof. apply (view_sound view_poland_Settlement 9); [reflexivity | vm_compute; reflexivity | vm_compute; reflexivity]. Qed.

Definition view_russia_Exchange : view_t := ltac:(
  let t := eval cbv beta iota zeta delta [russia_is_extra_holiday_settlement russia_is_extra_holiday_exchange russia_is_working_weekend russia_settlement_is_business_day russia_exchange_is_business_day russia_is_business_day is_weekend] in (russia_is_business_day (Some russia_Exchange)) in mkview t).
Lemma closure_russia_Exchange : closes_at_most 12 (russia_is_business_day (Some russia_Exchange)).
Proof. apply (view_sound view_russia_Exchange 12); [reflexivity | vm_compute; reflexivity | vm_compute; reflexivity]. Qed.

Definition view_southkorea : view_t := ltac:(
  let t := eval cbv beta iota zeta delta [southkorea_is_business_day is_weekend] in southkorea_is_business_day in mkview t).
Lemma closure_southkorea : closes_at_most 12 southkorea_is_business_day.
Proof. apply (view_sound view_southkorea 12); [reflexivity | vm_compute; reflexivity | vm_compute; reflexivity]. Qed.

Definition view_target : view_t := ltac:(
  let t := eval cbv beta iota zeta delta [target_is_business_day is_weekend] in target_is_business_day in mkview t).
Lemma closure_target : closes_at_most 10 target_is_business_day.
Proof. apply (view_sound view_target 10); [reflexivity | vm_compute; reflexivity | vm_compute; reflexivity]. Qed.

Definition view_unitedkingdom_Settlement : view_t := ltac:(
  let t := eval cbv beta iota zeta delta [unitedkingdom_special_bank_holiday unitedkingdom_settlement_is_business_day unitedkingdom_exchange_is_business_day unitedkingdom_metals_is_business_day unitedkingdom_is_business_day is_weekend] in (unitedkingdom_is_business_day (Some unitedkingdom_Settlement)) in mkview t).
Lemma closure_unitedkingdom_Settlement : closes_at_most 10 (unitedkingdom_is_business_day (Some unitedkingdom_Settlement)).
Proof. apply (view_sound view_unitedkingdom_Settlement 10); [reflexivity | vm_compute; reflexivity | vm_compute; reflexivity]. Qed.

Definition view_unitedstates_Libor : view_t := ltac:(
  let t := eval cbv beta iota zeta delta [unitedstates_is_washington_birthday unitedstates_is_memorial_day unitedstates_is_labor_day unitedstates_is_columbus_day unitedstates_is_veterans_day unitedstates_is_veterans_day_no_saturday unitedstates_is_juneteenth unitedstates_settlement_is_business_day unitedstates_libor_is_business_day unitedstates_nyse_is_business_day unitedstates_government_bond_is_business_day unitedstates_sofr_is_business_day unitedstates_nerc_is_business_day unitedstates_federal_reserve_is_holiday unitedstates_is_business_day is_weekend] in (unitedstates_is_business_day (Some unitedstates_Libor)) in mkview t).
Lemma closure_unitedstates_Libor : closes_at_most 9 (unitedstates_is_business_day (Some unitedstates_Libor)).
Proof. apply (view_sound view_unitedstates_Libor 9); [reflexivity | vm_compute; reflexivity | vm_compute; reflexivity]. Qed.

Definition view_unitedstates_NERC : view_t := ltac:(
  let t := eval cbv beta iota zeta delta [unitedstates_is_washington_birthday unitedstates_is_memorial_day unitedstates_is_labor_day unitedstates_is_columbus_day unitedstates_is_veterans_day unitedstates_is_veterans_day_no_saturday unitedstates_is_juneteenth unitedstates_settlement_is_business_day unitedstates_libor_is_business_day unitedstates_nyse_is_business_day unitedstates_government_bond_is_business_day unitedstates_sofr_is_business_day unitedstates_nerc_is_business_day unitedstates_federal_reserve_is_holiday unitedstates_is_business_day is_weekend] in (unitedstates_is_business_day (Some unitedstates_NERC)) in mkview t).
Lemma closure_unitedstates_NERC : closes_at_most 9 (unitedstates_is_business_day (Some unitedstates_NERC)).
Proof. apply (view_sound view_unitedstates_NERC 9); [reflexivity | vm_compute; reflexivity | vm_compute; reflexivity]. Qed.

