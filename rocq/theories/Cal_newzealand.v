(** NewZealand calendar (src/time/calendars/newzealand.rs), generated from the Rust text by
    tools/calendars.py.  [||], [&&] are Rust's short-circuit operators; [oor], [oand]
    the same when an operand can panic.  Integers are unbounded: the only
    subtractions are of literals at most 81 from Easter-table entries, which are
    at least 82 (Cal_base.v, [easter_bounds]), so nothing wraps. *)
From Coq Require Import ZArith Bool List.
Import ListNotations.
From Verif Require Import Outcome Date Calendar Cal_base.
Open Scope Z_scope.

(** src/time/calendars/newzealand.rs:9-12  enum NewZealandMarket *)
Inductive newzealand_market : Set := newzealand_Wellington | newzealand_Auckland.

(** src/time/calendars/newzealand.rs:19-77  NewZealand::common_is_business_day *)
Definition newzealand_common_is_business_day (date : date) : outcome bool :=
  let d := day date in let w := weekday_of date in let m := month date in let y := year date in
     let dd := ordinal date in
  do em <- (easter_monday y);
  Ok (if ((is_weekend date)
     || ((d =? 1) || (d =? 3) && ((weekday_eqb w Mon) || (weekday_eqb w Tue))) && (m =? 1)
     || ((d =? 2) || (d =? 4) && ((weekday_eqb w Mon) || (weekday_eqb w Tue))) && (m =? 1)
     || (d =? 6) && (m =? 2)
     || ((d =? 7) || (d =? 8)) && (weekday_eqb w Mon) && (m =? 2) && (2013 <? y)
     || (dd =? (em - 3))
     || (dd =? em)
     || (d =? 25) && (m =? 4)
     || ((d =? 26) || (d =? 27)) && (weekday_eqb w Mon) && (m =? 4) && (2013 <? y)
     || (d <=? 7) && (weekday_eqb w Mon) && (m =? 6)
     || (22 <=? d) && (d <=? 28) && (weekday_eqb w Mon) && (m =? 10)
     || ((d =? 25) || (d =? 27) && ((weekday_eqb w Mon) || (weekday_eqb w Tue))) && (m =? 12)
     || ((d =? 26) || (d =? 28) && ((weekday_eqb w Mon) || (weekday_eqb w Tue))) && (m =? 12)
     || (d =? 20) && (m =? 6) && (y =? 2025)
     || (d =? 21) && (m =? 6) && ((y =? 2030) || (y =? 2052))
     || (d =? 24) && (m =? 6) && ((y =? 2022) || (y =? 2033) || (y =? 2044))
     || (d =? 25) && (m =? 6) && ((y =? 2027) || (y =? 2038) || (y =? 2049))
     || (d =? 28) && (m =? 6) && (y =? 2024)
     || (d =? 29) && (m =? 6) && ((y =? 2035) || (y =? 2046))
     || (d =? 30) && (m =? 6) && (y =? 2051)
     || (d =? 2) && (m =? 7) && (y =? 2032)
     || (d =? 3) && (m =? 7) && ((y =? 2043) || (y =? 2048))
     || (d =? 6) && (m =? 7) && ((y =? 2029) || (y =? 2040))
     || (d =? 7) && (m =? 7) && ((y =? 2034) || (y =? 2045))
     || (d =? 10) && (m =? 7) && ((y =? 2026) || (y =? 2037))
     || (d =? 11) && (m =? 7) && ((y =? 2031) || (y =? 2042))
     || (d =? 14) && (m =? 7) && ((y =? 2023) || (y =? 2028))
     || (d =? 15) && (m =? 7) && ((y =? 2039) || (y =? 2050))
     || (d =? 18) && (m =? 7) && (y =? 2036)
     || (d =? 19) && (m =? 7) && ((y =? 2041) || (y =? 2047))
     || (d =? 26) && (m =? 9) && (y =? 2022))
  then false else
  true).

(** src/time/calendars/newzealand.rs:78-85  NewZealand::wellington_is_business_day *)
Definition newzealand_wellington_is_business_day (date : date) : outcome bool :=
  do v1 <- (onot (newzealand_common_is_business_day date));
  if v1 then Ok false else
  Ok (let d := day date in let w := weekday_of date in let m := month date in
  (negb ((19 <=? d) && (d <=? 25) && (weekday_eqb w Mon) && (m =? 1)))).

(** src/time/calendars/newzealand.rs:86-93  NewZealand::auckland_is_business_day *)
Definition newzealand_auckland_is_business_day (date : date) : outcome bool :=
  do v1 <- (onot (newzealand_common_is_business_day date));
  if v1 then Ok false else
  Ok (let d := day date in let w := weekday_of date in let m := month date in
  (negb ((26 <=? d) && (weekday_eqb w Mon) && (m =? 1)
     || (d =? 1) && (weekday_eqb w Mon) && (m =? 2)))).

(** src/time/calendars/newzealand.rs:97-103  NewZealand::is_business_day *)
Definition newzealand_is_business_day (market : option newzealand_market) (date : date) : outcome
     bool :=
  match market with
  | Some newzealand_Wellington => (newzealand_wellington_is_business_day date)
  | Some newzealand_Auckland => (newzealand_auckland_is_business_day date)
  | None => (newzealand_wellington_is_business_day date)
  end.
