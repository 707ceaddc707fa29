(** Austria calendar (src/time/calendars/austria.rs), generated from the Rust text by
    tools/calendars.py.  [||], [&&] are Rust's short-circuit operators; [oor], [oand]
    the same when an operand can panic.  Integers are unbounded: the only
    subtractions are of literals at most 81 from Easter-table entries, which are
    at least 82 (Cal_base.v, [easter_bounds]), so nothing wraps. *)
From Coq Require Import ZArith Bool List.
Import ListNotations.
From Verif Require Import Outcome Date Calendar Cal_base.
Open Scope Z_scope.

(** src/time/calendars/austria.rs:9-12  enum AustriaMarket *)
Inductive austria_market : Set := austria_Settlement | austria_Exchange.

(** src/time/calendars/austria.rs:20-56  Austria::settlement_is_business_day *)
Definition austria_settlement_is_business_day (date : date) : outcome bool :=
  let d := day date in let m := month date in let y := year date in let dd := ordinal date in
  do em <- (easter_monday y);
  Ok (if ((is_weekend date)
     || (d =? 1) && (m =? 1)
     || (d =? 6) && (m =? 1)
     || (dd =? em)
     || (dd =? (em + 38))
     || (dd =? (em + 49))
     || (dd =? (em + 59))
     || (d =? 1) && (m =? 5)
     || (d =? 15) && (m =? 8)
     || (d =? 26) && (m =? 10) && (1967 <=? y)
     || (d =? 12) && (m =? 11) && (1919 <=? y) && (y <=? 1934)
     || (d =? 1) && (m =? 11)
     || (d =? 8) && (m =? 12)
     || (d =? 25) && (m =? 12)
     || (d =? 26) && (m =? 12))
  then false else
  true).

(** src/time/calendars/austria.rs:58-88  Austria::exchange_is_business_day *)
Definition austria_exchange_is_business_day (date : date) : outcome bool :=
  let d := day date in let m := month date in let y := year date in let dd := ordinal date in
  do em <- (easter_monday y);
  Ok (if ((is_weekend date)
     || (d =? 1) && (m =? 1)
     || (dd =? (em - 3))
     || (dd =? em)
     || (dd =? (em + 49))
     || (d =? 1) && (m =? 5)
     || (d =? 26) && (m =? 10) && (1967 <=? y)
     || (d =? 12) && (m =? 11) && (1919 <=? y) && (y <=? 1934)
     || (d =? 24) && (m =? 12)
     || (d =? 25) && (m =? 12)
     || (d =? 26) && (m =? 12)
     || (d =? 31) && (m =? 12))
  then false else
  true).

(** src/time/calendars/austria.rs:93-99  Austria::is_business_day *)
Definition austria_is_business_day (market : option austria_market) (date : date) : outcome bool :=
  match market with
  | Some austria_Settlement => (austria_settlement_is_business_day date)
  | Some austria_Exchange => (austria_exchange_is_business_day date)
  | None => (austria_settlement_is_business_day date)
  end.
