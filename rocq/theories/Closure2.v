(** Closure certificates (generated by tools/closure.py). *)
From Coq Require Import ZArith Bool List.
From Verif Require Import Outcome Date Calendar CalendarSpec Cal_base ShippedFacts Closure ClosureView Shipped.
From Verif Require Import Cal_australia.
From Verif Require Import Cal_botswana.
From Verif Require Import Cal_canada.
From Verif Require Import Cal_denmark.
From Verif Require Import Cal_germany.
From Verif Require Import Cal_india.
From Verif Require Import Cal_japan.
From Verif Require Import Cal_norway.
From Verif Require Import Cal_russia.
From Verif Require Import Cal_southafrica.
From Verif Require Import Cal_taiwan.
From Verif Require Import Cal_ukraine.
From Verif Require Import Cal_unitedstates.
Open Scope Z_scope.

Definition view_australia_Settlement : view_t := ltac:(
  let t := eval cbv beta iota zeta delta [australia_shared_holiday australia_extra_holiday australia_settlement_is_business_day australia_asx_is_business_day australia_is_business_day is_weekend] in (australia_is_business_day (Some australia_Settlement)) in mkview t).
Lemma closure_australia_Settlement : closes_at_most 11 (australia_is_business_day (Some australia_Settlement)).
Proof. apply (view_sound view_australia_Settlement 11); [reflexivity | vm_compute; reflexivity | vm_compute; reflexivity]. Qed.

Definition view_botswana : view_t := ltac:(
  let t := eval cbv beta iota zeta delta [botswana_is_business_day is_weekend] in botswana_is_business_day in mkview t).
Lemma closure_botswana : closes_at_most 10 botswana_is_business_day.
Proof. apply (view_sound view_botswana 10); [reflexivity | vm_compute; reflexivity | vm_compute; reflexivity]. Qed.

Definition view_canada_TSX : view_t := ltac:(
  let t := eval cbv beta iota zeta delta [canada_shared_holiday canada_extra_holiday canada_settlement_is_business_day canada_tsx_is_business_day canada_is_business_day is_weekend] in (canada_is_business_day (Some canada_TSX)) in mkview t).
Lemma closure_canada_TSX : closes_at_most 10 (canada_is_business_day (Some canada_TSX)).
Proof. apply (view_sound view_canada_TSX 10); [reflexivity | vm_compute; reflexivity | vm_compute; reflexivity]. Qed.

Definition view_denmark : view_t := ltac:(
  let t := eval cbv beta iota zeta delta [denmark_is_business_day is_weekend] in denmark_is_business_day in mkview t).
Lemma closure_denmark : closes_at_most 11 denmark_is_business_day.
Proof. apply (view_sound view_denmark 11); [reflexivity | vm_compute; reflexivity | vm_compute; reflexivity]. Qed.

Definition view_germany_Settlement : view_t := ltac:(
  let t := eval cbv beta iota zeta delta [germany_settlement_is_business_day germany_frankfurt_stock_exchange_is_business_day germany_eurex_is_business_day germany_euwax_is_business_day germany_is_business_day is_weekend] in (germany_is_business_day (Some germany_Settlement)) in mkview t).
Lemma closure_germany_Settlement : closes_at_most 10 (germany_is_business_day (Some germany_Settlement)).
Proof. apply (view_sound view_germany_Settlement 10); [reflexivity | vm_compute; reflexivity | vm_compute; reflexivity]. Qed.

Definition view_germany_Euwax : view_t := ltac:(
  let t := eval cbv beta iota zeta delta [germany_settlement_is_business_day germany_frankfurt_stock_exchange_is_business_day germany_eurex_is_business_day germany_euwax_is_business_day germany_is_business_day is_weekend] in (germany_is_business_day (Some germany_Euwax)) in mkview t).
Lemma closure_germany_Euwax : closes_at_most 10 (germany_is_business_day (Some germany_Euwax)).
Proof. apply (view_sound view_germany_Euwax 10); [reflexivity | vm_compute; reflexivity | vm_compute; reflexivity]. Qed.

Definition view_india : view_t := ltac:(
  let t := eval cbv beta iota zeta delta [india_is_business_day is_weekend] in india_is_business_day in mkview t).
Lemma closure_india : closes_at_most 10 india_is_business_day.
Proof. apply (view_sound view_india 10); [reflexivity | vm_compute; reflexivity | vm_compute; reflexivity]. Qed.

Definition view_japan : view_t := ltac:(
  let t := eval cbv beta iota zeta delta [japan_vernal_equinox_day japan_autumnal_equinox_day japan_is_business_day is_weekend] in japan_is_business_day in mkview t).
Lemma closure_japan : closes_at_most 12 japan_is_business_day.
Proof. apply (view_sound view_japan 12); [reflexivity | vm_compute; reflexivity | vm_compute; reflexivity]. Qed.

Definition view_norway : view_t := ltac:(
  let t := eval cbv beta iota zeta delta [norway_is_business_day is_weekend] in norway_is_business_day in mkview t).
Lemma closure_norway : closes_at_most 11 norway_is_business_day.
Proof. apply (view_sound view_norway 11); [reflexivity | vm_compute; reflexivity | vm_compute; reflexivity]. Qed.

Definition view_russia_Settlement : view_t := ltac:(
  let t := eval cbv beta iota zeta delta [russia_is_extra_holiday_settlement russia_is_extra_holiday_exchange russia_is_working_weekend russia_settlement_is_business_day russia_exchange_is_business_day russia_is_business_day is_weekend] in (russia_is_business_day (Some russia_Settlement)) in mkview t).
Lemma closure_russia_Settlement : closes_at_most 13 (russia_is_business_day (Some russia_Settlement)).
Proof. apply (view_sound view_russia_Settlement 13); [reflexivity | vm_compute; reflexivity | vm_compute; reflexivity]. Qed.

Definition view_southafrica : view_t := ltac:(
  let t := eval cbv beta iota zeta delta [southafrica_is_business_day is_weekend] in southafrica_is_business_day in mkview t).
Lemma closure_southafrica : closes_at_most 11 southafrica_is_business_day.
Proof. apply (view_sound view_southafrica 11); [reflexivity | vm_compute; reflexivity | vm_compute; reflexivity]. Qed.

Definition view_taiwan : view_t := ltac:(
  let t := eval cbv beta iota zeta delta [taiwan_is_business_day is_weekend] in taiwan_is_business_day in mkview t).
Lemma closure_taiwan : closes_at_most 17 taiwan_is_business_day.
Proof. apply (view_sound view_taiwan 17); [reflexivity | vm_compute; reflexivity | vm_compute; reflexivity]. Qed.

Definition view_ukraine : view_t := ltac:(
  let t := eval cbv beta iota zeta delta [ukraine_is_business_day is_weekend] in ukraine_is_business_day in mkview t).
Lemma closure_ukraine : closes_at_most 9 ukraine_is_business_day.
Proof. apply (view_sound view_ukraine 9); [reflexivity | vm_compute; reflexivity | vm_compute; reflexivity]. Qed.

Definition view_unitedstates_Settlement : view_t := ltac:(
  let t := eval cbv beta iota zeta delta [unitedstates_is_washington_birthday unitedstates_is_memorial_day unitedstates_is_labor_day unitedstates_is_columbus_day unitedstates_is_veterans_day unitedstates_is_veterans_day_no_saturday unitedstates_is_juneteenth unitedstates_settlement_is_business_day unitedstates_libor_is_business_day unitedstates_nyse_is_business_day unitedstates_government_bond_is_business_day unitedstates_sofr_is_business_day unitedstates_nerc_is_business_day unitedstates_federal_reserve_is_holiday unitedstates_is_business_day is_weekend] in (unitedstates_is_business_day (Some unitedstates_Settlement)) in mkview t).
Lemma closure_unitedstates_Settlement : closes_at_most 9 (unitedstates_is_business_day (Some unitedstates_Settlement)).
Proof. apply (view_sound view_unitedstates_Settlement 9); [reflexivity | vm_compute; reflexivity | vm_compute; reflexivity]. Qed.

Definition view_unitedstates_SOFR : view_t := ltac:(
  let t := eval cbv beta iota zeta delta [unitedstates_is_washington_birthday unitedstates_is_memorial_day unitedstates_is_labor_day unitedstates_is_columbus_day unitedstates_is_veterans_day unitedstates_is_veterans_day_no_saturday unitedstates_is_juneteenth unitedstates_settlement_is_business_day unitedstates_libor_is_business_day unitedstates_nyse_is_business_day unitedstates_government_bond_is_business_day unitedstates_sofr_is_business_day unitedstates_nerc_is_business_day unitedstates_federal_reserve_is_holiday unitedstates_is_business_day is_weekend] in (unitedstates_is_business_day (Some unitedstates_SOFR)) in mkview t).
Lemma closure_unitedstates_SOFR : closes_at_most 9 (unitedstates_is_business_day (Some unitedstates_SOFR)).
Proof. apply (view_sound view_unitedstates_SOFR 9); [reflexivity | vm_compute; reflexivity | vm_compute; reflexivity]. Qed.

