(** Australia calendar (src/time/calendars/australia.rs), generated from the Rust text by
    tools/calendars.py.  [||], [&&] are Rust's short-circuit operators; [oor], [oand]
    the same when an operand can panic.  Integers are unbounded: the only
    subtractions are of literals at most 81 from Easter-table entries, which are
    at least 82 (Cal_base.v, [easter_bounds]), so nothing wraps. *)
From Coq Require Import ZArith Bool List.
Import ListNotations.
From Verif Require Import Outcome Date Calendar Cal_base.
Open Scope Z_scope.

(** src/time/calendars/australia.rs:8-11  enum AustraliaMarket *)
Inductive australia_market : Set := australia_Settlement | australia_ASX.

(** src/time/calendars/australia.rs:19-49  Australia::shared_holiday *)
Definition australia_shared_holiday (date : date) : outcome bool :=
  let d := day date in let w := weekday_of date in let m := month date in let y := year date in
     let dd := ordinal date in
  do em <- (easter_monday y);
  Ok (if ((is_weekend date)
     || ((d =? 1) || ((d =? 2) || (d =? 3)) && (weekday_eqb w Mon)) && (m =? 1)
     || ((d =? 26) || ((d =? 27) || (d =? 28)) && (weekday_eqb w Mon)) && (m =? 1)
     || (dd =? (em - 3))
     || (dd =? em)
     || (d =? 25) && (m =? 4)
     || (7 <? d) && (d <=? 14) && (weekday_eqb w Mon) && (m =? 6)
     || ((d =? 25) || (d =? 27) && ((weekday_eqb w Mon) || (weekday_eqb w Tue))) && (m =? 12)
     || ((d =? 26) || (d =? 28) && ((weekday_eqb w Mon) || (weekday_eqb w Tue))) && (m =? 12)
     || (d =? 22) && (m =? 9) && (y =? 2022))
  then true else
  false).

(** src/time/calendars/australia.rs:50-56  Australia::extra_holiday *)
Definition australia_extra_holiday (date : date) : bool :=
  let d := day date in let w := weekday_of date in let m := month date in
  (((m =? 10) || (m =? 8)) && (weekday_eqb w Mon) && (d <=? 7)).

(** src/time/calendars/australia.rs:57-59  Australia::settlement_is_business_day *)
Definition australia_settlement_is_business_day (date : date) : outcome bool :=
  (onot (do v1 <- (australia_shared_holiday date); Ok (v1 || (australia_extra_holiday date)))).

(** src/time/calendars/australia.rs:60-62  Australia::asx_is_business_day *)
Definition australia_asx_is_business_day (date : date) : outcome bool :=
  (onot (australia_shared_holiday date)).

(** src/time/calendars/australia.rs:67-73  Australia::is_business_day *)
Definition australia_is_business_day (market : option australia_market) (date : date) : outcome
     bool :=
  match market with
  | Some australia_Settlement => (australia_settlement_is_business_day date)
  | Some australia_ASX => (australia_asx_is_business_day date)
  | None => (australia_settlement_is_business_day date)
  end.
