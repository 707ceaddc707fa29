(** UnitedStates calendar (src/time/calendars/unitedstates.rs), generated from the Rust text by
    tools/calendars.py.  [||], [&&] are Rust's short-circuit operators; [oor], [oand]
    the same when an operand can panic.  Integers are unbounded: the only
    subtractions are of literals at most 81 from Easter-table entries, which are
    at least 82 (Cal_base.v, [easter_bounds]), so nothing wraps. *)
From Coq Require Import ZArith Bool List.
Import ListNotations.
From Verif Require Import Outcome Date Calendar Cal_base.
Open Scope Z_scope.

(** src/time/calendars/unitedstates.rs:8-16  enum UnitedStatesMarket *)
Inductive unitedstates_market : Set := unitedstates_Settlement | unitedstates_Libor |
     unitedstates_NYSE | unitedstates_GovernmentBond | unitedstates_SOFR | unitedstates_NERC |
     unitedstates_FederalReserve.

(** src/time/calendars/unitedstates.rs:24-30  UnitedStates::is_washington_birthday *)
Definition unitedstates_is_washington_birthday (date : date) : bool :=
  let d := day date in let w := weekday_of date in let m := month date in let y := year date in
  ((1971 <=? y) && (15 <=? d) && (d <=? 21) && (weekday_eqb w Mon) && (m =? 2)
     || (y <? 1971) && ((d =? 22) || (d =? 23) && (weekday_eqb w Mon)
     || (d =? 21) && (weekday_eqb w Fri)) && (m =? 2)).

(** src/time/calendars/unitedstates.rs:32-38  UnitedStates::is_memorial_day *)
Definition unitedstates_is_memorial_day (date : date) : bool :=
  let d := day date in let w := weekday_of date in let m := month date in let y := year date in
  ((1971 <=? y) && (25 <=? d) && (weekday_eqb w Mon) && (m =? 5) || (y <? 1971) && ((d =? 30)
     || (d =? 31) && (weekday_eqb w Mon) || (d =? 29) && (weekday_eqb w Fri)) && (m =? 5)).

(** src/time/calendars/unitedstates.rs:40-43  UnitedStates::is_labor_day *)
Definition unitedstates_is_labor_day (date : date) : bool :=
  let d := day date in let w := weekday_of date in let m := month date in
  ((d <=? 7) && (weekday_eqb w Mon) && (m =? 9)).

(** src/time/calendars/unitedstates.rs:45-48  UnitedStates::is_columbus_day *)
Definition unitedstates_is_columbus_day (date : date) : bool :=
  let d := day date in let w := weekday_of date in let m := month date in let y := year date in
  ((8 <=? d) && (d <=? 14) && (weekday_eqb w Mon) && (m =? 10) && (1971 <=? y)).

(** src/time/calendars/unitedstates.rs:50-58  UnitedStates::is_veterans_day *)
Definition unitedstates_is_veterans_day (date : date) : bool :=
  let d := day date in let w := weekday_of date in let m := month date in let y := year date in
  (((y <=? 1970) || (1978 <=? y)) && ((d =? 11) || (d =? 12) && (weekday_eqb w Mon)
     || (d =? 10) && (weekday_eqb w Fri)) && (m =? 11)
     || (1970 <? y) && (y <? 1978) && (22 <=? d) && (d <=? 28) && (weekday_eqb w Mon) && (m =? 10)).

(** src/time/calendars/unitedstates.rs:60-66  UnitedStates::is_veterans_day_no_saturday *)
Definition unitedstates_is_veterans_day_no_saturday (date : date) : bool :=
  let d := day date in let w := weekday_of date in let m := month date in let y := year date in
  (((y <=? 1970) || (1978 <=? y)) && ((d =? 11)
     || (d =? 12) && (weekday_eqb w Mon)) && (m =? 11)
     || (1970 <? y) && (y <? 1978) && (22 <=? d) && (d <=? 28) && (weekday_eqb w Mon) && (m =? 10)).

(** src/time/calendars/unitedstates.rs:68-73  UnitedStates::is_juneteenth *)
Definition unitedstates_is_juneteenth (date : date) : bool :=
  let d := day date in let w := weekday_of date in let m := month date in let y := year date in
  (((d =? 19) || (d =? 20) && (weekday_eqb w Mon)
     || (d =? 18) && (weekday_eqb w Fri)) && (m =? 6) && (2022 <=? y)).

(** src/time/calendars/unitedstates.rs:75-108  UnitedStates::settlement_is_business_day *)
Definition unitedstates_settlement_is_business_day (date : date) : bool :=
  let d := day date in let w := weekday_of date in let m := month date in let y := year date in
  if ((is_weekend date)
     || ((d =? 1) || (d =? 2) && (weekday_eqb w Mon)) && (m =? 1)
     || (d =? 31) && (weekday_eqb w Fri) && (m =? 12)
     || (15 <=? d) && (d <=? 21) && (weekday_eqb w Mon) && (m =? 1) && (1983 <=? y)
     || (unitedstates_is_washington_birthday date)
     || (unitedstates_is_memorial_day date)
     || (unitedstates_is_juneteenth date)
     || ((d =? 4) || (d =? 5) && (weekday_eqb w Mon) || (d =? 3) && (weekday_eqb w Fri)) && (m =? 7)
     || (unitedstates_is_labor_day date)
     || (unitedstates_is_columbus_day date)
     || (unitedstates_is_veterans_day date)
     || (22 <=? d) && (d <=? 28) && (weekday_eqb w Thu) && (m =? 11)
     || ((d =? 25) || (d =? 26) && (weekday_eqb w Mon)
     || (d =? 24) && (weekday_eqb w Fri)) && (m =? 12))
  then false else
  true.

(** src/time/calendars/unitedstates.rs:110-116  UnitedStates::libor_is_business_day *)
Definition unitedstates_libor_is_business_day (date : date) : bool :=
  let d := day date in let w := weekday_of date in let m := month date in let y := year date in
  if (((d =? 5) && (weekday_eqb w Mon) || (d =? 3) && (weekday_eqb w Fri)) && (m =? 7)
     && (2015 <=? y))
  then true else
  (unitedstates_settlement_is_business_day date).

(** src/time/calendars/unitedstates.rs:118-204  UnitedStates::nyse_is_business_day *)
Definition unitedstates_nyse_is_business_day (date : date) : outcome bool :=
  let d := day date in let w := weekday_of date in let m := month date in let y := year date in
     let dd := ordinal date in
  do em <- (easter_monday y);
  Ok (if ((is_weekend date)
     || ((d =? 1) || (d =? 2) && (weekday_eqb w Mon)) && (m =? 1)
     || (unitedstates_is_washington_birthday date)
     || (dd =? (em - 3))
     || (unitedstates_is_memorial_day date)
     || (unitedstates_is_juneteenth date)
     || ((d =? 4) || (d =? 5) && (weekday_eqb w Mon) || (d =? 3) && (weekday_eqb w Fri)) && (m =? 7)
     || (unitedstates_is_labor_day date)
     || (22 <=? d) && (d <=? 28) && (weekday_eqb w Thu) && (m =? 11)
     || ((d =? 25) || (d =? 26) && (weekday_eqb w Mon)
     || (d =? 24) && (weekday_eqb w Fri)) && (m =? 12))
  then false else
  if ((1998 <=? y) && (15 <=? d) && (d <=? 21) && (weekday_eqb w Mon) && (m =? 1))
  then false else
  if (((y <=? 1968) || (y <=? 1980) && ((Z.rem y 4) =? 0)) && (m =? 11) && (d <=? 7)
     && (weekday_eqb w Tue))
  then false else
  if ((y =? 2018) && (m =? 12) && (d =? 5)
     || (y =? 2012) && (m =? 10) && ((d =? 29) || (d =? 30))
     || (y =? 2007) && (m =? 1) && (d =? 2)
     || (y =? 2004) && (m =? 6) && (d =? 11)
     || (y =? 2001) && (m =? 9) && (11 <=? d) && (d <=? 14)
     || (y =? 1994) && (m =? 4) && (d =? 27)
     || (y =? 1985) && (m =? 9) && (d =? 27)
     || (y =? 1977) && (m =? 7) && (d =? 14)
     || (y =? 1973) && (m =? 1) && (d =? 25)
     || (y =? 1972) && (m =? 12) && (d =? 28)
     || (y =? 1969) && (m =? 7) && (d =? 21)
     || (y =? 1969) && (m =? 3) && (d =? 31)
     || (y =? 1969) && (m =? 2) && (d =? 10)
     || (y =? 1968) && (m =? 7) && (d =? 5)
     || (y =? 1968) && (163 <=? dd) && (weekday_eqb w Wed)
     || (y =? 1968) && (m =? 4) && (d =? 9)
     || (y =? 1963) && (m =? 11) && (d =? 25)
     || (y =? 1961) && (m =? 5) && (d =? 29)
     || (y =? 1958) && (m =? 12) && (d =? 26)
     || ((y =? 1954) || (y =? 1956) || (y =? 1965)) && (m =? 12) && (d =? 24))
  then false else
  true).

(** src/time/calendars/unitedstates.rs:206-264  UnitedStates::government_bond_is_business_day *)
Definition unitedstates_government_bond_is_business_day (date : date) : outcome bool :=
  let d := day date in let w := weekday_of date in let m := month date in let y := year date in
     let dd := ordinal date in
  do em <- (easter_monday y);
  Ok (if ((is_weekend date)
     || ((d =? 1) || (d =? 2) && (weekday_eqb w Mon)) && (m =? 1)
     || (15 <=? d) && (d <=? 21) && (weekday_eqb w Mon) && (m =? 1) && (1983 <=? y)
     || (unitedstates_is_washington_birthday date)
     || (dd =? (em - 3)) && ((y <? 1996) || (7 <? d))
     || (unitedstates_is_memorial_day date)
     || (unitedstates_is_juneteenth date)
     || ((d =? 4) || (d =? 5) && (weekday_eqb w Mon) || (d =? 3) && (weekday_eqb w Fri)) && (m =? 7)
     || (unitedstates_is_labor_day date)
     || (unitedstates_is_columbus_day date)
     || (unitedstates_is_veterans_day_no_saturday date)
     || (22 <=? d) && (d <=? 28) && (weekday_eqb w Thu) && (m =? 11)
     || ((d =? 25) || (d =? 26) && (weekday_eqb w Mon)
     || (d =? 24) && (weekday_eqb w Fri)) && (m =? 12))
  then false else
  if ((y =? 2018) && (d =? 5) && (m =? 12)
     || (y =? 2025) && (d =? 9) && (m =? 1)
     || (y =? 2012) && (m =? 10) && (d =? 30)
     || (y =? 2004) && (m =? 6) && (d =? 11))
  then false else
  true).

(** src/time/calendars/unitedstates.rs:266-276  UnitedStates::sofr_is_business_day *)
Definition unitedstates_sofr_is_business_day (date : date) : outcome bool :=
  let y := year date in let dd := ordinal date in
  do v3 <- (do v2 <- (do v1 <- (easter_monday y); Ok (v1 - 3)); Ok (dd =? v2));
  if v3 then Ok false else
  (unitedstates_government_bond_is_business_day date).

(** src/time/calendars/unitedstates.rs:278-298  UnitedStates::nerc_is_business_day *)
Definition unitedstates_nerc_is_business_day (date : date) : bool :=
  let d := day date in let w := weekday_of date in let m := month date in
  if ((is_weekend date)
     || ((d =? 1) || (d =? 2) && (weekday_eqb w Mon)) && (m =? 1)
     || (unitedstates_is_memorial_day date)
     || ((d =? 4) || (d =? 5) && (weekday_eqb w Mon)) && (m =? 7)
     || (unitedstates_is_labor_day date)
     || (22 <=? d) && (d <=? 28) && (weekday_eqb w Thu) && (m =? 11)
     || ((d =? 25) || (d =? 26) && (weekday_eqb w Mon)) && (m =? 12))
  then false else
  true.

(** src/time/calendars/unitedstates.rs:300-331  UnitedStates::federal_reserve_is_holiday *)
Definition unitedstates_federal_reserve_is_holiday (date : date) : bool :=
  let d := day date in let w := weekday_of date in let m := month date in let y := year date in
  if ((is_weekend date)
     || ((d =? 1) || (d =? 2) && (weekday_eqb w Mon)) && (m =? 1)
     || (15 <=? d) && (d <=? 21) && (weekday_eqb w Mon) && (m =? 1) && (1983 <=? y)
     || (unitedstates_is_washington_birthday date)
     || (unitedstates_is_memorial_day date)
     || (unitedstates_is_juneteenth date)
     || ((d =? 4) || (d =? 5) && (weekday_eqb w Mon)) && (m =? 7)
     || (unitedstates_is_labor_day date)
     || (unitedstates_is_columbus_day date)
     || (unitedstates_is_veterans_day_no_saturday date)
     || (22 <=? d) && (d <=? 28) && (weekday_eqb w Thu) && (m =? 11)
     || ((d =? 25) || (d =? 26) && (weekday_eqb w Mon)) && (m =? 12))
  then false else
  true.

(** src/time/calendars/unitedstates.rs:336-347  UnitedStates::is_business_day *)
Definition unitedstates_is_business_day (market : option unitedstates_market) (date : date) :
     outcome bool :=
  match market with
  | Some unitedstates_Settlement => Ok (unitedstates_settlement_is_business_day date)
  | Some unitedstates_Libor => Ok (unitedstates_libor_is_business_day date)
  | Some unitedstates_NYSE => (unitedstates_nyse_is_business_day date)
  | Some unitedstates_GovernmentBond => (unitedstates_government_bond_is_business_day date)
  | Some unitedstates_SOFR => (unitedstates_sofr_is_business_day date)
  | Some unitedstates_NERC => Ok (unitedstates_nerc_is_business_day date)
  | Some unitedstates_FederalReserve => Ok (unitedstates_federal_reserve_is_holiday date)
  | None => Ok (unitedstates_settlement_is_business_day date)
  end.
