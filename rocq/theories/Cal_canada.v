(** Canada calendar (src/time/calendars/canada.rs), generated from the Rust text by
    tools/calendars.py.  [||], [&&] are Rust's short-circuit operators; [oor], [oand]
    the same when an operand can panic.  Integers are unbounded: the only
    subtractions are of literals at most 81 from Easter-table entries, which are
    at least 82 (Cal_base.v, [easter_bounds]), so nothing wraps. *)
From Coq Require Import ZArith Bool List.
Import ListNotations.
From Verif Require Import Outcome Date Calendar Cal_base.
Open Scope Z_scope.

(** src/time/calendars/canada.rs:9-12  enum CanadaMarket *)
Inductive canada_market : Set := canada_Settlement | canada_TSX.

(** src/time/calendars/canada.rs:20-55  Canada::shared_holiday *)
Definition canada_shared_holiday (date : date) : outcome bool :=
  let d := day date in let w := weekday_of date in let m := month date in let y := year date in
     let dd := ordinal date in
  do em <- (easter_monday y);
  Ok (if ((is_weekend date)
     || ((d =? 1) || ((d =? 2) || (d =? 3)) && (weekday_eqb w Mon)) && (m =? 1)
     || (15 <=? d) && (d <=? 21) && (weekday_eqb w Mon) && (m =? 2) && (2008 <=? y)
     || (dd =? (em - 3))
     || (17 <? d) && (d <=? 24) && (weekday_eqb w Mon) && (m =? 5)
     || ((d =? 1) || ((d =? 2) || (d =? 3)) && (weekday_eqb w Mon)) && (m =? 7)
     || (d <=? 7) && (weekday_eqb w Mon) && (m =? 8)
     || (d <=? 7) && (weekday_eqb w Mon) && (m =? 9)
     || ((d =? 30) && (m =? 9) || (d <=? 2) && (m =? 10) && (weekday_eqb w Mon)) && (2021 <=? y)
     || (7 <? d) && (d <=? 14) && (weekday_eqb w Mon) && (m =? 10)
     || ((d =? 25) || (d =? 27) && ((weekday_eqb w Mon) || (weekday_eqb w Tue))) && (m =? 12)
     || ((d =? 26) || (d =? 28) && ((weekday_eqb w Mon) || (weekday_eqb w Tue))) && (m =? 12))
  then true else
  false).

(** src/time/calendars/canada.rs:57-61  Canada::extra_holiday *)
Definition canada_extra_holiday (date : date) : bool :=
  let d := day date in let w := weekday_of date in let m := month date in
  (((d =? 11) || ((d =? 12) || (d =? 13)) && (weekday_eqb w Mon)) && (m =? 11)).

(** src/time/calendars/canada.rs:63-65  Canada::settlement_is_business_day *)
Definition canada_settlement_is_business_day (date : date) : outcome bool :=
  (onot (do v1 <- (canada_shared_holiday date); Ok (v1 || (canada_extra_holiday date)))).

(** src/time/calendars/canada.rs:67-69  Canada::tsx_is_business_day *)
Definition canada_tsx_is_business_day (date : date) : outcome bool :=
  (onot (canada_shared_holiday date)).

(** src/time/calendars/canada.rs:74-80  Canada::is_business_day *)
Definition canada_is_business_day (market : option canada_market) (date : date) : outcome bool :=
  match market with
  | Some canada_Settlement => (canada_settlement_is_business_day date)
  | Some canada_TSX => (canada_tsx_is_business_day date)
  | None => (canada_settlement_is_business_day date)
  end.
