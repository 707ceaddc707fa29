(** Italy calendar (src/time/calendars/italy.rs), generated from the Rust text by
    tools/calendars.py.  [||], [&&] are Rust's short-circuit operators; [oor], [oand]
    the same when an operand can panic.  Integers are unbounded: the only
    subtractions are of literals at most 81 from Easter-table entries, which are
    at least 82 (Cal_base.v, [easter_bounds]), so nothing wraps. *)
From Coq Require Import ZArith Bool List.
Import ListNotations.
From Verif Require Import Outcome Date Calendar Cal_base.
Open Scope Z_scope.

(** src/time/calendars/italy.rs:9-12  enum ItalyMarket *)
Inductive italy_market : Set := italy_Settlement | italy_Exchange.

(** src/time/calendars/italy.rs:20-53  Italy::settlement_is_business_day *)
Definition italy_settlement_is_business_day (date : date) : outcome bool :=
  let d := day date in let m := month date in let y := year date in let dd := ordinal date in
  do em <- (easter_monday y);
  Ok (if ((is_weekend date)
     || (d =? 1) && (m =? 1)
     || (d =? 6) && (m =? 1)
     || (dd =? em)
     || (d =? 25) && (m =? 4)
     || (d =? 1) && (m =? 5)
     || (d =? 2) && (m =? 6) && (2000 <=? y)
     || (d =? 15) && (m =? 8)
     || (d =? 1) && (m =? 11)
     || (d =? 8) && (m =? 12)
     || (d =? 25) && (m =? 12)
     || (d =? 26) && (m =? 12)
     || (d =? 31) && (m =? 12) && (y =? 1999))
  then false else
  true).

(** src/time/calendars/italy.rs:55-81  Italy::exchange_is_business_day *)
Definition italy_exchange_is_business_day (date : date) : outcome bool :=
  let d := day date in let m := month date in let y := year date in let dd := ordinal date in
  do em <- (easter_monday y);
  Ok (if ((is_weekend date)
     || (d =? 1) && (m =? 1)
     || (dd =? (em - 3))
     || (dd =? em)
     || (d =? 1) && (m =? 5)
     || (d =? 15) && (m =? 8)
     || (d =? 24) && (m =? 12)
     || (d =? 25) && (m =? 12)
     || (d =? 26) && (m =? 12)
     || (d =? 31) && (m =? 12))
  then false else
  true).

(** src/time/calendars/italy.rs:86-92  Italy::is_business_day *)
Definition italy_is_business_day (market : option italy_market) (date : date) : outcome bool :=
  match market with
  | Some italy_Settlement => (italy_settlement_is_business_day date)
  | Some italy_Exchange => (italy_exchange_is_business_day date)
  | None => (italy_settlement_is_business_day date)
  end.
