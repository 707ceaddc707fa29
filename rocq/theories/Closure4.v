(** Closure certificates (generated by tools/closure.py). *)
From Coq Require Import ZArith Bool List.
From Verif Require Import Outcome Date Calendar CalendarSpec Cal_base ShippedFacts Closure ClosureView Shipped.
From Verif Require Import Cal_austria.
From Verif Require Import Cal_brazil.
From Verif Require Import Cal_china.
From Verif Require Import Cal_france.
From Verif Require Import Cal_germany.
From Verif Require Import Cal_hungary.
From Verif Require Import Cal_italy.
From Verif Require Import Cal_newzealand.
From Verif Require Import Cal_poland.
From Verif Require Import Cal_singapore.
From Verif Require Import Cal_sweden.
From Verif Require Import Cal_thailand.
From Verif Require Import Cal_unitedkingdom.
From Verif Require Import Cal_unitedstates.
Open Scope Z_scope.

Definition view_austria_Settlement : view_t := ltac:(
  let t := eval cbv beta iota zeta delta [austria_settlement_is_business_day austria_exchange_is_business_day austria_is_business_day is_weekend] in (austria_is_business_day (Some austria_Settlement)) in mkview t).
Lemma closure_austria_Settlement : closes_at_most 9 (austria_is_business_day (Some austria_Settlement)).
Proof. apply (view_sound view_austria_Settlement 9); [reflexivity | vm_compute; reflexivity | vm_compute; reflexivity]. Qed.

Definition view_brazil_Exchange : view_t := ltac:(
  let t := eval cbv beta iota zeta delta [brazil_settlement_is_business_day brazil_exchange_is_business_day brazil_is_business_day is_weekend] in (brazil_is_business_day (Some brazil_Exchange)) in mkview t).
Lemma closure_brazil_Exchange : closes_at_most 10 (brazil_is_business_day (Some brazil_Exchange)).
Proof. apply (view_sound view_brazil_Exchange 10); [reflexivity | vm_compute; reflexivity | vm_compute; reflexivity]. Qed.

Definition view_china : view_t := ltac:(
  let t := eval cbv beta iota zeta delta [china_is_business_day is_weekend] in china_is_business_day in mkview t).
Lemma closure_china : closes_at_most 14 china_is_business_day.
Proof. apply (view_sound view_china 14); [reflexivity | vm_compute; reflexivity | vm_compute; reflexivity]. Qed.

Definition view_france_Settlement : view_t := ltac:(
  let t := eval cbv beta iota zeta delta [france_settlement_is_business_day france_exchange_is_business_day france_is_business_day is_weekend] in (france_is_business_day (Some france_Settlement)) in mkview t).
Lemma closure_france_Settlement : closes_at_most 9 (france_is_business_day (Some france_Settlement)).
Proof. apply (view_sound view_france_Settlement 9); [reflexivity | vm_compute; reflexivity | vm_compute; reflexivity]. Qed.

Definition view_germany_Xetra : view_t := ltac:(
  let t := eval cbv beta iota zeta delta [germany_settlement_is_business_day germany_frankfurt_stock_exchange_is_business_day germany_eurex_is_business_day germany_euwax_is_business_day germany_is_business_day is_weekend] in (germany_is_business_day (Some germany_Xetra)) in mkview t).
Lemma closure_germany_Xetra : closes_at_most 10 (germany_is_business_day (Some germany_Xetra)).
Proof. apply (view_sound view_germany_Xetra 10); [reflexivity | vm_compute; reflexivity | vm_compute; reflexivity]. Qed.

Definition view_hungary : view_t := ltac:(
  let t := eval cbv beta iota zeta delta [hungary_is_business_day is_weekend] in hungary_is_business_day in mkview t).
Lemma closure_hungary : closes_at_most 10 hungary_is_business_day.
Proof. apply (view_sound view_hungary 10); [reflexivity | vm_compute; reflexivity | vm_compute; reflexivity]. Qed.

Definition view_italy_Settlement : view_t := ltac:(
  let t := eval cbv beta iota zeta delta [italy_settlement_is_business_day italy_exchange_is_business_day italy_is_business_day is_weekend] in (italy_is_business_day (Some italy_Settlement)) in mkview t).
Lemma closure_italy_Settlement : closes_at_most 9 (italy_is_business_day (Some italy_Settlement)).
Proof. apply (view_sound view_italy_Settlement 9); [reflexivity | vm_compute; reflexivity | vm_compute; reflexivity]. Qed.

Definition view_newzealand_Wellington : view_t := ltac:(
  let t := eval cbv beta iota zeta delta [newzealand_common_is_business_day newzealand_wellington_is_business_day newzealand_auckland_is_business_day newzealand_is_business_day is_weekend] in (newzealand_is_business_day (Some newzealand_Wellington)) in mkview t).
Lemma closure_newzealand_Wellington : closes_at_most 10 (newzealand_is_business_day (Some newzealand_Wellington)).
Proof. apply (view_sound view_newzealand_Wellington 10); [reflexivity | vm_compute; reflexivity | vm_compute; reflexivity]. Qed.

Definition view_poland_WSE : view_t := ltac:(
  let t := eval cbv beta iota zeta delta [poland_settlement_is_business_day poland_wse_is_business_day poland_is_business_day is_weekend] in (poland_is_business_day (Some poland_WSE)) in mkview t).
Lemma closure_poland_WSE : closes_at_most 9 (poland_is_business_day (Some poland_WSE)).
Proof. apply (view_sound view_poland_WSE 9); [reflexivity | vm_compute; reflexivity | vm_compute; reflexivity]. Qed.

Definition view_singapore : view_t := ltac:(
  let t := eval cbv beta iota zeta delta [singapore_is_business_day is_weekend] in singapore_is_business_day in mkview t).
Lemma closure_singapore : closes_at_most 10 singapore_is_business_day.
Proof. apply (view_sound view_singapore 10); [reflexivity | vm_compute; reflexivity | vm_compute; reflexivity]. Qed.

Definition view_sweden : view_t := ltac:(
  let t := eval cbv beta iota zeta delta [sweden_is_business_day is_weekend] in sweden_is_business_day in mkview t).
Lemma closure_sweden : closes_at_most 10 sweden_is_business_day.
Proof. apply (view_sound view_sweden 10); [reflexivity | vm_compute; reflexivity | vm_compute; reflexivity]. Qed.

Definition view_thailand : view_t := ltac:(
  let t := eval cbv beta iota zeta delta [thailand_is_business_day is_weekend] in thailand_is_business_day in mkview t).
Lemma closure_thailand : closes_at_most 10 thailand_is_business_day.
Proof. apply (view_sound view_thailand 10); [reflexivity | vm_compute; reflexivity | vm_compute; reflexivity]. Qed.

Definition view_unitedkingdom_Exchange : view_t := ltac:(
  let t := eval cbv beta iota zeta delta [unitedkingdom_special_bank_holiday unitedkingdom_settlement_is_business_day unitedkingdom_exchange_is_business_day unitedkingdom_metals_is_business_day unitedkingdom_is_business_day is_weekend] in (unitedkingdom_is_business_day (Some unitedkingdom_Exchange)) in mkview t).
Lemma closure_unitedkingdom_Exchange : closes_at_most 10 (unitedkingdom_is_business_day (Some unitedkingdom_Exchange)).
Proof. apply (view_sound view_unitedkingdom_Exchange 10); [reflexivity | vm_compute; reflexivity | vm_compute; reflexivity]. Qed.

Definition view_unitedstates_NYSE : view_t := ltac:(
  let t := eval cbv beta iota zeta delta [unitedstates_is_washington_birthday unitedstates_is_memorial_day unitedstates_is_labor_day unitedstates_is_columbus_day unitedstates_is_veterans_day unitedstates_is_veterans_day_no_saturday unitedstates_is_juneteenth unitedstates_settlement_is_business_day unitedstates_libor_is_business_day unitedstates_nyse_is_business_day unitedstates_government_bond_is_business_day unitedstates_sofr_is_business_day unitedstates_nerc_is_business_day unitedstates_federal_reserve_is_holiday unitedstates_is_business_day is_weekend] in (unitedstates_is_business_day (Some unitedstates_NYSE)) in mkview t).
Lemma closure_unitedstates_NYSE : closes_at_most 10 (unitedstates_is_business_day (Some unitedstates_NYSE)).
Proof. apply (view_sound view_unitedstates_NYSE 10); [reflexivity | vm_compute; reflexivity | vm_compute; reflexivity]. Qed.

Definition view_unitedstates_FederalReserve : view_t := ltac:(
  let t := eval cbv beta iota zeta delta [unitedstates_is_washington_birthday unitedstates_is_memorial_day unitedstates_is_labor_day unitedstates_is_columbus_day unitedstates_is_veterans_day unitedstates_is_veterans_day_no_saturday unitedstates_is_juneteenth unitedstates_settlement_is_business_day unitedstates_libor_is_business_day unitedstates_nyse_is_business_day unitedstates_government_bond_is_business_day unitedstates_sofr_is_business_day unitedstates_nerc_is_business_day unitedstates_federal_reserve_is_holiday unitedstates_is_business_day is_weekend] in (unitedstates_is_business_day (Some unitedstates_FederalReserve)) in mkview t).
Lemma closure_unitedstates_FederalReserve : closes_at_most 9 (unitedstates_is_business_day (Some unitedstates_FederalReserve)).
Proof. apply (view_sound view_unitedstates_FederalReserve 9); [reflexivity | vm_compute; reflexivity | vm_compute; reflexivity]. Qed.

