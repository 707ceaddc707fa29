(** Closure certificates (generated by tools/closure.py). *)
From Coq Require Import ZArith Bool List.
From Verif Require Import Outcome Date Calendar CalendarSpec Cal_base ShippedFacts Closure ClosureView Shipped.
From Verif Require Import Cal_argentina.
From Verif Require Import Cal_austria.
From Verif Require Import Cal_canada.
From Verif Require Import Cal_czechrepublic.
From Verif Require Import Cal_france.
From Verif Require Import Cal_germany.
From Verif Require Import Cal_iceland.
From Verif Require Import Cal_italy.
From Verif Require Import Cal_newzealand.
From Verif Require Import Cal_romania.
From Verif Require Import Cal_slovakia.
From Verif Require Import Cal_switzerland.
From Verif Require Import Cal_turkey.
From Verif Require Import Cal_unitedkingdom.
From Verif Require Import Cal_unitedstates.
Open Scope Z_scope.

Definition view_argentina : view_t := ltac:(
  let t := eval cbv beta iota zeta delta [argentina_is_business_day is_weekend] in argentina_is_business_day in mkview t).
Lemma closure_argentina : closes_at_most 10 argentina_is_business_day.
Proof. apply (view_sound view_argentina 10); [reflexivity | vm_compute; reflexivity | vm_compute; reflexivity]. Qed.

Definition view_austria_Exchange : view_t := ltac:(
  let t := eval cbv beta iota zeta delta [austria_settlement_is_business_day austria_exchange_is_business_day austria_is_business_day is_weekend] in (austria_is_business_day (Some austria_Exchange)) in mkview t).
Lemma closure_austria_Exchange : closes_at_most 10 (austria_is_business_day (Some austria_Exchange)).
Proof. apply (view_sound view_austria_Exchange 10); [reflexivity | vm_compute; reflexivity | vm_compute; reflexivity]. Qed.

Definition view_canada_Settlement : view_t := ltac:(
  let t := eval cbv beta iota zeta delta [canada_shared_holiday canada_extra_holiday canada_settlement_is_business_day canada_tsx_is_business_day canada_is_business_day is_weekend] in (canada_is_business_day (Some canada_Settlement)) in mkview t).
Lemma closure_canada_Settlement : closes_at_most 10 (canada_is_business_day (Some canada_Settlement)).
Proof. apply (view_sound view_canada_Settlement 10); [reflexivity | vm_compute; reflexivity | vm_compute; reflexivity]. Qed.

Definition view_czechrepublic : view_t := ltac:(
  let t := eval cbv beta iota zeta delta [czechrepublic_is_business_day is_weekend] in czechrepublic_is_business_day in mkview t).
Lemma closure_czechrepublic : closes_at_most 11 czechrepublic_is_business_day.
Proof. apply (view_sound view_czechrepublic 11); [reflexivity | vm_compute; reflexivity | vm_compute; reflexivity]. Qed.

Definition view_france_Exchange : view_t := ltac:(
  let t := eval cbv beta iota zeta delta [france_settlement_is_business_day france_exchange_is_business_day france_is_business_day is_weekend] in (france_is_business_day (Some france_Exchange)) in mkview t).
Lemma closure_france_Exchange : closes_at_most 10 (france_is_business_day (Some france_Exchange)).
Proof. apply (view_sound view_france_Exchange 10); [reflexivity | vm_compute; reflexivity | vm_compute; reflexivity]. Qed.

Definition view_germany_Eurex : view_t := ltac:(
  let t := eval cbv beta iota zeta delta [germany_settlement_is_business_day germany_frankfurt_stock_exchange_is_business_day germany_eurex_is_business_day germany_euwax_is_business_day germany_is_business_day is_weekend] in (germany_is_business_day (Some germany_Eurex)) in mkview t).
Lemma closure_germany_Eurex : closes_at_most 10 (germany_is_business_day (Some germany_Eurex)).
Proof. apply (view_sound view_germany_Eurex 10); [reflexivity | vm_compute; reflexivity | vm_compute; reflexivity]. Qed.

Definition view_iceland : view_t := ltac:(
  let t := eval cbv beta iota zeta delta [iceland_is_business_day is_weekend] in iceland_is_business_day in mkview t).
Lemma closure_iceland : closes_at_most 11 iceland_is_business_day.
Proof. apply (view_sound view_iceland 11); [reflexivity | vm_compute; reflexivity | vm_compute; reflexivity]. Qed.

Definition view_italy_Exchange : view_t := ltac:(
  let t := eval cbv beta iota zeta delta [italy_settlement_is_business_day italy_exchange_is_business_day italy_is_business_day is_weekend] in (italy_is_business_day (Some italy_Exchange)) in mkview t).
Lemma closure_italy_Exchange : closes_at_most 10 (italy_is_business_day (Some italy_Exchange)).
Proof. apply (view_sound view_italy_Exchange 10); [reflexivity | vm_compute; reflexivity | vm_compute; reflexivity]. Qed.

Definition view_newzealand_Auckland : view_t := ltac:(
  let t := eval cbv beta iota zeta delta [newzealand_common_is_business_day newzealand_wellington_is_business_day newzealand_auckland_is_business_day newzealand_is_business_day is_weekend] in (newzealand_is_business_day (Some newzealand_Auckland)) in mkview t).
Lemma closure_newzealand_Auckland : closes_at_most 10 (newzealand_is_business_day (Some newzealand_Auckland)).
Proof. apply (view_sound view_newzealand_Auckland 10); [reflexivity | vm_compute; reflexivity | vm_compute; reflexivity]. Qed.

Definition view_romania : view_t := ltac:(
  let t := eval cbv beta iota zeta delta [romania_is_business_day is_weekend] in romania_is_business_day in mkview t).
Lemma closure_romania : closes_at_most 10 romania_is_business_day.
Proof. apply (view_sound view_romania 10); [reflexivity | vm_compute; reflexivity | vm_compute; reflexivity]. Qed.

Definition view_slovakia : view_t := ltac:(
  let t := eval cbv beta iota zeta delta [slovakia_is_business_day is_weekend] in slovakia_is_business_day in mkview t).
Lemma closure_slovakia : closes_at_most 11 slovakia_is_business_day.
Proof. apply (view_sound view_slovakia 11); [reflexivity | vm_compute; reflexivity | vm_compute; reflexivity]. Qed.

Definition view_switzerland : view_t := ltac:(
  let t := eval cbv beta iota zeta delta [switzerland_is_business_day is_weekend] in switzerland_is_business_day in mkview t).
Lemma closure_switzerland : closes_at_most 10 switzerland_is_business_day.
Proof. apply (view_sound view_switzerland 10); [reflexivity | vm_compute; reflexivity | vm_compute; reflexivity]. Qed.

Definition view_turkey : view_t := ltac:(
  let t := eval cbv beta iota zeta delta [turkey_is_business_day is_weekend] in turkey_is_business_day in mkview t).
Lemma closure_turkey : closes_at_most 13 turkey_is_business_day.
Proof. apply (view_sound view_turkey 13); [reflexivity | vm_compute; reflexivity | vm_compute; reflexivity]. Qed.

Definition view_unitedkingdom_Metals : view_t := ltac:(
  let t := eval cbv beta iota zeta delta [unitedkingdom_special_bank_holiday unitedkingdom_settlement_is_business_day unitedkingdom_exchange_is_business_day unitedkingdom_metals_is_business_day unitedkingdom_is_business_day is_weekend] in (unitedkingdom_is_business_day (Some unitedkingdom_Metals)) in mkview t).
Lemma closure_unitedkingdom_Metals : closes_at_most 10 (unitedkingdom_is_business_day (Some unitedkingdom_Metals)).
Proof. apply (view_sound view_unitedkingdom_Metals 10); [reflexivity | vm_compute; reflexivity | vm_compute; reflexivity]. Qed.

Definition view_unitedstates_GovernmentBond : view_t := ltac:(
  let t := eval cbv beta iota zeta delta [unitedstates_is_washington_birthday unitedstates_is_memorial_day unitedstates_is_labor_day unitedstates_is_columbus_day unitedstates_is_veterans_day unitedstates_is_veterans_day_no_saturday unitedstates_is_juneteenth unitedstates_settlement_is_business_day unitedstates_libor_is_business_day unitedstates_nyse_is_business_day unitedstates_government_bond_is_business_day unitedstates_sofr_is_business_day unitedstates_nerc_is_business_day unitedstates_federal_reserve_is_holiday unitedstates_is_business_day is_weekend] in (unitedstates_is_business_day (Some unitedstates_GovernmentBond)) in mkview t).
Lemma closure_unitedstates_GovernmentBond : closes_at_most 9 (unitedstates_is_business_day (Some unitedstates_GovernmentBond)).
Proof. apply (view_sound view_unitedstates_GovernmentBond 9); [reflexivity | vm_compute; reflexivity | vm_compute; reflexivity]. Qed.

