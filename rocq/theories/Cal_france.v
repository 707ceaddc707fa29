(** France calendar (src/time/calendars/france.rs), generated from the Rust text by
    tools/calendars.py.  [||], [&&] are Rust's short-circuit operators; [oor], [oand]
    the same when an operand can panic.  Integers are unbounded: the only
    subtractions are of literals at most 81 from Easter-table entries, which are
    at least 82 (Cal_base.v, [easter_bounds]), so nothing wraps. *)
From Coq Require Import ZArith Bool List.
Import ListNotations.
From Verif Require Import Outcome Date Calendar Cal_base.
Open Scope Z_scope.

(** src/time/calendars/france.rs:9-12  enum FranceMarket *)
Inductive france_market : Set := france_Settlement | france_Exchange.

(** src/time/calendars/france.rs:20-51  France::settlement_is_business_day *)
Definition france_settlement_is_business_day (date : date) : outcome bool :=
  let d := day date in let m := month date in let y := year date in let dd := ordinal date in
  do em <- (easter_monday y);
  Ok (if ((is_weekend date)
     || (d =? 1) && (m =? 1)
     || (dd =? em)
     || (d =? 1) && (m =? 5)
     || (d =? 8) && (m =? 5)
     || (d =? 10) && (m =? 5)
     || (d =? 21) && (m =? 5)
     || (d =? 14) && (m =? 7)
     || (d =? 15) && (m =? 8)
     || (d =? 1) && (m =? 11)
     || (d =? 11) && (m =? 11)
     || (d =? 25) && (m =? 12))
  then false else
  true).

(** src/time/calendars/france.rs:53-79  France::exchange_is_business_day *)
Definition france_exchange_is_business_day (date : date) : outcome bool :=
  let d := day date in let m := month date in let y := year date in let dd := ordinal date in
  do em <- (easter_monday y);
  Ok (if ((is_weekend date)
     || (d =? 1) && (m =? 1)
     || (dd =? (em - 3))
     || (dd =? em)
     || (d =? 1) && (m =? 5)
     || (d =? 24) && (m =? 12)
     || (d =? 25) && (m =? 12)
     || (d =? 26) && (m =? 12)
     || (d =? 31) && (m =? 12))
  then false else
  true).

(** src/time/calendars/france.rs:84-90  France::is_business_day *)
Definition france_is_business_day (market : option france_market) (date : date) : outcome bool :=
  match market with
  | Some france_Settlement => (france_settlement_is_business_day date)
  | Some france_Exchange => (france_exchange_is_business_day date)
  | None => (france_settlement_is_business_day date)
  end.
