(** Brazil calendar (src/time/calendars/brazil.rs), generated from the Rust text by
    tools/calendars.py.  [||], [&&] are Rust's short-circuit operators; [oor], [oand]
    the same when an operand can panic.  Integers are unbounded: the only
    subtractions are of literals at most 81 from Easter-table entries, which are
    at least 82 (Cal_base.v, [easter_bounds]), so nothing wraps. *)
From Coq Require Import ZArith Bool List.
Import ListNotations.
From Verif Require Import Outcome Date Calendar Cal_base.
Open Scope Z_scope.

(** src/time/calendars/brazil.rs:9-12  enum BrazilMarket *)
Inductive brazil_market : Set := brazil_Settlement | brazil_Exchange.

(** src/time/calendars/brazil.rs:20-57  Brazil::settlement_is_business_day *)
Definition brazil_settlement_is_business_day (date : date) : outcome bool :=
  let d := day date in let m := month date in let y := year date in let dd := ordinal date in
  do em <- (easter_monday y);
  Ok (if ((is_weekend date)
     || (d =? 1) && (m =? 1)
     || (d =? 21) && (m =? 4)
     || (d =? 1) && (m =? 5)
     || (d =? 7) && (m =? 9)
     || (d =? 12) && (m =? 10)
     || (d =? 2) && (m =? 11)
     || (d =? 15) && (m =? 11)
     || (d =? 20) && (m =? 11) && (2024 <=? y)
     || (d =? 25) && (m =? 12)
     || (dd =? (em - 3))
     || (dd =? (em - 49))
     || (dd =? (em - 48))
     || (dd =? (em + 59)))
  then false else
  true).

(** src/time/calendars/brazil.rs:59-101  Brazil::exchange_is_business_day *)
Definition brazil_exchange_is_business_day (date : date) : outcome bool :=
  let d := day date in let w := weekday_of date in let m := month date in let y := year date in
     let dd := ordinal date in
  do em <- (easter_monday y);
  Ok (if ((is_weekend date)
     || (d =? 1) && (m =? 1)
     || (d =? 25) && (m =? 1) && (y <? 2022)
     || (d =? 21) && (m =? 4)
     || (d =? 1) && (m =? 5)
     || (d =? 9) && (m =? 7) && (y <? 2022)
     || (d =? 7) && (m =? 9)
     || (d =? 12) && (m =? 10)
     || (d =? 2) && (m =? 11)
     || (d =? 15) && (m =? 11)
     || (d =? 20) && (m =? 11) && (2007 <=? y) && (negb (y =? 2022)) && (negb (y =? 2023))
     || (d =? 24) && (m =? 12)
     || (d =? 25) && (m =? 12)
     || (dd =? (em - 3))
     || (dd =? (em - 49))
     || (dd =? (em - 48))
     || (dd =? (em + 59))
     || (m =? 12) && ((d =? 31) || (29 <=? d) && (weekday_eqb w Fri)))
  then false else
  true).

(** src/time/calendars/brazil.rs:106-112  Brazil::is_business_day *)
Definition brazil_is_business_day (market : option brazil_market) (date : date) : outcome bool :=
  match market with
  | Some brazil_Settlement => (brazil_settlement_is_business_day date)
  | Some brazil_Exchange => (brazil_exchange_is_business_day date)
  | None => (brazil_settlement_is_business_day date)
  end.
