(** Japan calendar (src/time/calendars/japan.rs), generated from the Rust text by
    tools/calendars.py.  [||], [&&] are Rust's short-circuit operators; [oor], [oand]
    the same when an operand can panic.  Integers are unbounded: the only
    subtractions are of literals at most 81 from Easter-table entries, which are
    at least 82 (Cal_base.v, [easter_bounds]), so nothing wraps. *)
From Coq Require Import ZArith Bool List.
Import ListNotations.
From Verif Require Import Outcome Date Calendar Cal_base.
Open Scope Z_scope.

(** src/time/calendars/japan.rs:12-17  Japan::vernal_equinox_day *)
Definition japan_vernal_equinox_day (y : Z) : Z :=
  (if (((y =? 2014))
   || ((y =? 2015))
   || ((y =? 2018))
   || ((y =? 2019))
   || ((y =? 2022))
   || ((y =? 2023))
   || ((y =? 2027))) then 21
  else 20).

(** src/time/calendars/japan.rs:18-23  Japan::autumnal_equinox_day *)
Definition japan_autumnal_equinox_day (y : Z) : Z :=
  (if (((y =? 2020))
   || ((y =? 2024))
   || ((y =? 2028))) then 22
  else 23).

(** src/time/calendars/japan.rs:28-133  Japan::is_business_day *)
Definition japan_is_business_day (date : date) : outcome bool :=
  Ok (
  let d := day date in let w := weekday_of date in let m := month date in let y := year date in
  let ve := (japan_vernal_equinox_day y) in
  let ae := (japan_autumnal_equinox_day y) in
  if ((is_weekend date)
     || (d =? 1) && (m =? 1)
     || (d =? 2) && (m =? 1)
     || (d =? 3) && (m =? 1)
     || (weekday_eqb w Mon) && (8 <=? d) && (d <=? 14) && (m =? 1) && (2000 <=? y)
     || ((d =? 15) || (d =? 16) && (weekday_eqb w Mon)) && (m =? 1) && (y <? 2000)
     || ((d =? 11) || (d =? 12) && (weekday_eqb w Mon)) && (m =? 2)
     || ((d =? 23) || (d =? 24) && (weekday_eqb w Mon)) && (m =? 2) && (2020 <=? y)
     || ((d =? 23) || (d =? 24) && (weekday_eqb w Mon)) && (m =? 12) && (1989 <=? y) && (y <? 2019)
     || ((d =? ve) || (d =? (ve + 1)) && (weekday_eqb w Mon)) && (m =? 3)
     || ((d =? 29) || (d =? 30) && (weekday_eqb w Mon)) && (m =? 4)
     || (d =? 3) && (m =? 5)
     || (d =? 4) && (m =? 5)
     || (d =? 5) && (m =? 5)
     || (d =? 6) && (m =? 5) && ((weekday_eqb w Mon) || (weekday_eqb w Tue) || (weekday_eqb w Wed))
     || (weekday_eqb w Mon) && (15 <=? d) && (d <=? 21) && (m =? 7) && ((2003 <=? y)
     && (y <? 2020) || (2022 <=? y))
     || ((d =? 20) || (d =? 21) && (weekday_eqb w Mon)) && (m =? 7) && (1996 <=? y) && (y <? 2003)
     || (d =? 23) && (m =? 7) && (y =? 2020)
     || (d =? 22) && (m =? 7) && (y =? 2021)
     || ((d =? 11) || (d =? 12) && (weekday_eqb w Mon)) && (m =? 8) && ((2016 <=? y)
     && (y <? 2020) || (2022 <=? y))
     || (d =? 10) && (m =? 8) && (y =? 2020)
     || (d =? 9) && (m =? 8) && (y =? 2021)
     || (weekday_eqb w Mon) && (15 <=? d) && (d <=? 21) && (m =? 9) && (2003 <=? y)
     || ((d =? 15) || (d =? 16) && (weekday_eqb w Mon)) && (m =? 9) && (y <? 2003)
     || (weekday_eqb w Tue) && ((d + 1) =? ae) && (16 <=? d) && (d <=? 22) && (m =? 9)
     && (2003 <=? y)
     || ((d =? ae) || (d =? (ae + 1)) && (weekday_eqb w Mon)) && (m =? 9)
     || (weekday_eqb w Mon) && (8 <=? d) && (d <=? 14) && (m =? 10) && ((2000 <=? y)
     && (y <? 2020) || (2022 <=? y))
     || ((d =? 10) || (d =? 11) && (weekday_eqb w Mon)) && (m =? 10) && (y <? 2000)
     || (d =? 24) && (m =? 7) && (y =? 2020)
     || (d =? 23) && (m =? 7) && (y =? 2021)
     || ((d =? 3) || (d =? 4) && (weekday_eqb w Mon)) && (m =? 11)
     || ((d =? 23) || (d =? 24) && (weekday_eqb w Mon)) && (m =? 11)
     || (d =? 31) && (m =? 12)
     || (d =? 10) && (m =? 4) && (y =? 1959)
     || (d =? 24) && (m =? 2) && (y =? 1989)
     || (d =? 12) && (m =? 11) && (y =? 1990)
     || (d =? 9) && (m =? 6) && (y =? 1993)
     || (d =? 30) && (m =? 4) && (y =? 2019)
     || (d =? 1) && (m =? 5) && (y =? 2019)
     || (d =? 2) && (m =? 5) && (y =? 2019)
     || (d =? 22) && (m =? 10) && (y =? 2019))
  then false else
  true).
