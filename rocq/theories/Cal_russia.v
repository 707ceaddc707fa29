(** Russia calendar (src/time/calendars/russia.rs), generated from the Rust text by
    tools/calendars.py.  [||], [&&] are Rust's short-circuit operators; [oor], [oand]
    the same when an operand can panic.  Integers are unbounded: the only
    subtractions are of literals at most 81 from Easter-table entries, which are
    at least 82 (Cal_base.v, [easter_bounds]), so nothing wraps. *)
From Coq Require Import ZArith Bool List.
Import ListNotations.
From Verif Require Import Outcome Date Calendar Cal_base.
Open Scope Z_scope.

(** src/time/calendars/russia.rs:9-12  enum RussiaMarket *)
Inductive russia_market : Set := russia_Settlement | russia_Exchange.

(** src/time/calendars/russia.rs:20-29  Russia::is_extra_holiday_settlement *)
Definition russia_is_extra_holiday_settlement (date : date) : bool :=
  let d := day date in let m := month date in let y := year date in
  (if (((y =? 2017))) then (((m =? 2) && (d =? 24))
   || ((m =? 5) && (d =? 8))
   || ((m =? 11) && (d =? 6)))
  else if (((y =? 2018))) then (((m =? 3) && (d =? 9))
   || ((m =? 4) && (d =? 30))
   || ((m =? 5) && (d =? 2))
   || ((m =? 6) && (d =? 11))
   || ((m =? 12) && (d =? 31)))
  else if (((y =? 2019))) then (((m =? 5) && (d =? 2))
   || ((m =? 5) && (d =? 3))
   || ((m =? 5) && (d =? 9)))
  else if (((y =? 2020))) then (((m =? 3) && (d =? 30))
   || ((m =? 3) && (d =? 31))
   || ((m =? 4) && (d =? 1))
   || ((m =? 4) && (d =? 2))
   || ((m =? 4) && (d =? 3)))
  else false).

(** src/time/calendars/russia.rs:31-51  Russia::is_extra_holiday_exchange *)
Definition russia_is_extra_holiday_exchange (date : date) : bool :=
  let d := day date in let m := month date in let y := year date in
  (if (((y =? 2012))) then (((m =? 1) && (d =? 2))
   || ((m =? 3) && (d =? 9))
   || ((m =? 4) && (d =? 30))
   || ((m =? 6) && (d =? 11)))
  else if (((y =? 2013))) then (((m =? 1) && (d =? 1))
   || ((m =? 1) && (d =? 2))
   || ((m =? 1) && (d =? 3))
   || ((m =? 1) && (d =? 4))
   || ((m =? 1) && (d =? 7)))
  else if (((y =? 2014))) then (((m =? 1) && (d =? 1))
   || ((m =? 1) && (d =? 2))
   || ((m =? 1) && (d =? 3))
   || ((m =? 1) && (d =? 7)))
  else if (((y =? 2015))) then (((m =? 1) && (d =? 1))
   || ((m =? 1) && (d =? 2))
   || ((m =? 1) && (d =? 7)))
  else if (((y =? 2016))) then (((m =? 1) && (d =? 1))
   || ((m =? 1) && (d =? 7))
   || ((m =? 1) && (d =? 8))
   || ((m =? 5) && (d =? 2))
   || ((m =? 5) && (d =? 3))
   || ((m =? 6) && (d =? 13))
   || ((m =? 12) && (d =? 30)))
  else if (((y =? 2017))) then (((m =? 1) && (d =? 2))
   || ((m =? 5) && (d =? 8)))
  else if (((y =? 2018))) then (((m =? 1) && (d =? 1))
   || ((m =? 1) && (d =? 2))
   || ((m =? 1) && (d =? 8))
   || ((m =? 12) && (d =? 31)))
  else if (((y =? 2019))) then (((m =? 1) && (d =? 1))
   || ((m =? 1) && (d =? 2))
   || ((m =? 1) && (d =? 7))
   || ((m =? 12) && (d =? 31)))
  else if (((y =? 2020))) then (((m =? 1) && (d =? 1))
   || ((m =? 1) && (d =? 2))
   || ((m =? 1) && (d =? 7))
   || ((m =? 2) && (d =? 24))
   || ((m =? 6) && (d =? 24))
   || ((m =? 7) && (d =? 1)))
  else false).

(** src/time/calendars/russia.rs:53-61  Russia::is_working_weekend *)
Definition russia_is_working_weekend (date : date) : bool :=
  let d := day date in let m := month date in let y := year date in
  (if (((y =? 2012))) then (((m =? 3) && (d =? 11))
   || ((m =? 4) && (d =? 28))
   || ((m =? 5) && (d =? 5))
   || ((m =? 5) && (d =? 12))
   || ((m =? 6) && (d =? 9)))
  else if (((y =? 2016))) then (((m =? 2) && (d =? 20)))
  else if (((y =? 2018))) then (((m =? 4) && (d =? 28))
   || ((m =? 6) && (d =? 9))
   || ((m =? 12) && (d =? 29)))
  else false).

(** src/time/calendars/russia.rs:63-100  Russia::settlement_is_business_day *)
Definition russia_settlement_is_business_day (date : date) : bool :=
  let d := day date in let w := weekday_of date in let m := month date in let y := year date in
  if ((is_weekend date)
     || (russia_is_extra_holiday_settlement date)
     || (y <=? 2005) && (d <=? 2) && (m =? 1)
     || (2005 <=? y) && (d <=? 5) && (m =? 1)
     || (y =? 2012) && (d =? 6) && (m =? 1)
     || ((d =? 7) || ((d =? 8) || (d =? 9)) && (weekday_eqb w Mon)) && (m =? 1)
     || ((d =? 23) || ((d =? 24) || (d =? 25)) && (weekday_eqb w Mon)) && (m =? 2)
     || ((d =? 8) || ((d =? 9) || (d =? 10)) && (weekday_eqb w Mon)) && (m =? 3)
     || ((d =? 1) || ((d =? 2) || (d =? 3)) && (weekday_eqb w Mon)) && (m =? 5)
     || ((d =? 9) || ((d =? 10) || (d =? 11)) && (weekday_eqb w Mon)) && (m =? 5)
     || ((d =? 12) || ((d =? 13) || (d =? 14)) && (weekday_eqb w Mon)) && (m =? 6)
     || ((d =? 4) || ((d =? 5) || (d =? 6)) && (weekday_eqb w Mon)) && (m =? 11))
  then false else
  true.

(** src/time/calendars/russia.rs:102-131  Russia::exchange_is_business_day *)
Definition russia_exchange_is_business_day (date : date) : bool :=
  let d := day date in let w := weekday_of date in let m := month date in
  if (russia_is_working_weekend date)
  then true else
  if ((is_weekend date)
     || (russia_is_extra_holiday_exchange date)
     || (d =? 23) && (m =? 2)
     || ((d =? 8) || ((d =? 9) || (d =? 10)) && (weekday_eqb w Mon)) && (m =? 3)
     || (d =? 1) && (m =? 5)
     || ((d =? 9) || ((d =? 10) || (d =? 11)) && (weekday_eqb w Mon)) && (m =? 5)
     || (d =? 12) && (m =? 6)
     || ((d =? 4) || ((d =? 5) || (d =? 6)) && (weekday_eqb w Mon)) && (m =? 11)
     || (d =? 31) && (m =? 12))
  then false else
  true.

(** src/time/calendars/russia.rs:136-142  Russia::is_business_day *)
Definition russia_is_business_day (market : option russia_market) (date : date) : outcome bool :=
  Ok (
  match market with
  | Some russia_Settlement => (russia_settlement_is_business_day date)
  | Some russia_Exchange => (russia_exchange_is_business_day date)
  | None => (russia_settlement_is_business_day date)
  end).
