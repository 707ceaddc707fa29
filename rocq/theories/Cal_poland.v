(** Poland calendar (src/time/calendars/poland.rs), generated from the Rust text by
    tools/calendars.py.  [||], [&&] are Rust's short-circuit operators; [oor], [oand]
    the same when an operand can panic.  Integers are unbounded: the only
    subtractions are of literals at most 81 from Easter-table entries, which are
    at least 82 (Cal_base.v, [easter_bounds]), so nothing wraps. *)
From Coq Require Import ZArith Bool List.
Import ListNotations.
From Verif Require Import Outcome Date Calendar Cal_base.
Open Scope Z_scope.

(** src/time/calendars/poland.rs:9-12  enum PolandMarket *)
Inductive poland_market : Set := poland_Settlement | poland_WSE.

(** src/time/calendars/poland.rs:20-52  Poland::settlement_is_business_day *)
Definition poland_settlement_is_business_day (date : date) : outcome bool :=
  let d := day date in let m := month date in let y := year date in let dd := ordinal date in
  do em <- (easter_monday y);
  Ok (if ((is_weekend date)
     || (dd =? em)
     || (dd =? (em + 59))
     || (d =? 1) && (m =? 1)
     || (d =? 6) && (m =? 1) && (2011 <=? y)
     || (d =? 1) && (m =? 5)
     || (d =? 3) && (m =? 5)
     || (d =? 15) && (m =? 8)
     || (d =? 1) && (m =? 11)
     || (d =? 11) && (m =? 11)
     || (d =? 25) && (m =? 12)
     || (d =? 26) && (m =? 12))
  then false else
  true).

(** src/time/calendars/poland.rs:54-61  Poland::wse_is_business_day *)
Definition poland_wse_is_business_day (date : date) : outcome bool :=
  let d := day date in let m := month date in
  if (((d =? 24) || (d =? 31)) && (m =? 12))
  then Ok false else
  (poland_settlement_is_business_day date).

(** src/time/calendars/poland.rs:65-71  Poland::is_business_day *)
Definition poland_is_business_day (market : option poland_market) (date : date) : outcome bool :=
  match market with
  | Some poland_Settlement => (poland_settlement_is_business_day date)
  | Some poland_WSE => (poland_wse_is_business_day date)
  | None => (poland_settlement_is_business_day date)
  end.
