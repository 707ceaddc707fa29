(** UnitedKingdom calendar (src/time/calendars/unitedkingdom.rs), generated from the Rust text by
    tools/calendars.py.  [||], [&&] are Rust's short-circuit operators; [oor], [oand]
    the same when an operand can panic.  Integers are unbounded: the only
    subtractions are of literals at most 81 from Easter-table entries, which are
    at least 82 (Cal_base.v, [easter_bounds]), so nothing wraps. *)
From Coq Require Import ZArith Bool List.
Import ListNotations.
From Verif Require Import Outcome Date Calendar Cal_base.
Open Scope Z_scope.

(** src/time/calendars/unitedkingdom.rs:8-12  enum UnitedKingdomMarket *)
Inductive unitedkingdom_market : Set := unitedkingdom_Settlement | unitedkingdom_Exchange |
     unitedkingdom_Metals.

(** src/time/calendars/unitedkingdom.rs:20-48  UnitedKingdom::special_bank_holiday *)
Definition unitedkingdom_special_bank_holiday (date : date) : bool :=
  let d := day date in let w := weekday_of date in let m := month date in let y := year date in
  if ((d <=? 7) && (weekday_eqb w Mon) && (m =? 5) && (negb (y =? 1995)) && (negb (y =? 2020))
     || (d =? 8) && (m =? 5) && ((y =? 1995) || (y =? 2020))
     || (25 <=? d) && (weekday_eqb w Mon) && (m =? 5) && (negb (y =? 2002))
     && (negb (y =? 2012)) && (negb (y =? 2022))
     || ((d =? 3) || (d =? 4)) && (m =? 6) && (y =? 2002)
     || ((d =? 4) || (d =? 5)) && (m =? 6) && (y =? 2012)
     || ((d =? 2) || (d =? 3)) && (m =? 6) && (y =? 2022)
     || (25 <=? d) && (weekday_eqb w Mon) && (m =? 8)
     || (d =? 29) && (m =? 4) && (y =? 2011)
     || (d =? 19) && (m =? 9) && (y =? 2022)
     || (d =? 8) && (m =? 5) && (y =? 2023))
  then true else
  false.

(** src/time/calendars/unitedkingdom.rs:50-72  UnitedKingdom::settlement_is_business_day *)
Definition unitedkingdom_settlement_is_business_day (date : date) : outcome bool :=
  let d := day date in let w := weekday_of date in let m := month date in let y := year date in
     let dd := ordinal date in
  do em <- (easter_monday y);
  Ok (if ((is_weekend date)
     || ((d =? 1) || ((d =? 2) || (d =? 3)) && (weekday_eqb w Mon)) && (m =? 1)
     || (dd =? (em - 3))
     || (dd =? em)
     || (unitedkingdom_special_bank_holiday date)
     || ((d =? 25) || (d =? 27) && ((weekday_eqb w Mon) || (weekday_eqb w Tue))) && (m =? 12)
     || ((d =? 26) || (d =? 28) && ((weekday_eqb w Mon) || (weekday_eqb w Tue))) && (m =? 12)
     || (d =? 31) && (m =? 12) && (y =? 1999))
  then false else
  true).

(** src/time/calendars/unitedkingdom.rs:73-75  UnitedKingdom::exchange_is_business_day *)
Definition unitedkingdom_exchange_is_business_day (date : date) : outcome bool :=
  (unitedkingdom_settlement_is_business_day date).

(** src/time/calendars/unitedkingdom.rs:76-78  UnitedKingdom::metals_is_business_day *)
Definition unitedkingdom_metals_is_business_day (date : date) : outcome bool :=
  (unitedkingdom_settlement_is_business_day date).

(** src/time/calendars/unitedkingdom.rs:83-90  UnitedKingdom::is_business_day *)
Definition unitedkingdom_is_business_day (market : option unitedkingdom_market) (date : date) :
     outcome bool :=
  match market with
  | Some unitedkingdom_Settlement => (unitedkingdom_settlement_is_business_day date)
  | Some unitedkingdom_Exchange => (unitedkingdom_exchange_is_business_day date)
  | Some unitedkingdom_Metals => (unitedkingdom_metals_is_business_day date)
  | None => (unitedkingdom_settlement_is_business_day date)
  end.
