(** Germany calendar (src/time/calendars/germany.rs), generated from the Rust text by
    tools/calendars.py.  [||], [&&] are Rust's short-circuit operators; [oor], [oand]
    the same when an operand can panic.  Integers are unbounded: the only
    subtractions are of literals at most 81 from Easter-table entries, which are
    at least 82 (Cal_base.v, [easter_bounds]), so nothing wraps. *)
From Coq Require Import ZArith Bool List.
Import ListNotations.
From Verif Require Import Outcome Date Calendar Cal_base.
Open Scope Z_scope.

(** src/time/calendars/germany.rs:9-15  enum GermanyMarket *)
Inductive germany_market : Set := germany_Settlement | germany_FrankfurtStockExchange |
     germany_Xetra | germany_Eurex | germany_Euwax.

(** src/time/calendars/germany.rs:23-54  Germany::settlement_is_business_day *)
Definition germany_settlement_is_business_day (date : date) : outcome bool :=
  let d := day date in let m := month date in let y := year date in let dd := ordinal date in
  do em <- (easter_monday y);
  Ok (if ((is_weekend date)
     || (d =? 1) && (m =? 1)
     || (dd =? (em - 3))
     || (dd =? em)
     || (dd =? (em + 38))
     || (dd =? (em + 49))
     || (dd =? (em + 59))
     || (d =? 1) && (m =? 5)
     || (d =? 3) && (m =? 10)
     || (d =? 24) && (m =? 12)
     || (d =? 25) && (m =? 12)
     || (d =? 26) && (m =? 12))
  then false else
  true).

(** src/time/calendars/germany.rs:56-79  Germany::frankfurt_stock_exchange_is_business_day *)
Definition germany_frankfurt_stock_exchange_is_business_day (date : date) : outcome bool :=
  let d := day date in let m := month date in let y := year date in let dd := ordinal date in
  do em <- (easter_monday y);
  Ok (if ((is_weekend date)
     || (d =? 1) && (m =? 1)
     || (dd =? (em - 3))
     || (dd =? em)
     || (d =? 1) && (m =? 5)
     || (d =? 24) && (m =? 12)
     || (d =? 25) && (m =? 12)
     || (d =? 26) && (m =? 12))
  then false else
  true).

(** src/time/calendars/germany.rs:81-85  Germany::eurex_is_business_day *)
Definition germany_eurex_is_business_day (date : date) : outcome bool :=
  let d := day date in let m := month date in
  (onot (oany [(onot (germany_frankfurt_stock_exchange_is_business_day date));
     Ok ((d =? 31) && (m =? 12))])).

(** src/time/calendars/germany.rs:87-92  Germany::euwax_is_business_day *)
Definition germany_euwax_is_business_day (date : date) : outcome bool :=
  let y := year date in let dd := ordinal date in
  do em <- (easter_monday y);
  (oand (germany_frankfurt_stock_exchange_is_business_day date) (Ok (negb (dd =? (em + 49))))).

(** src/time/calendars/germany.rs:97-108  Germany::is_business_day *)
Definition germany_is_business_day (market : option germany_market) (date : date) : outcome bool :=
  match market with
  | Some germany_Settlement => (germany_settlement_is_business_day date)
  | Some germany_FrankfurtStockExchange => (germany_frankfurt_stock_exchange_is_business_day date)
  | Some germany_Xetra => (germany_frankfurt_stock_exchange_is_business_day date)
  | Some germany_Eurex => (germany_eurex_is_business_day date)
  | Some germany_Euwax => (germany_euwax_is_business_day date)
  | None => (germany_frankfurt_stock_exchange_is_business_day date)
  end.
