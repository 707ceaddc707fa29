(** Chile calendar (src/time/calendars/chile.rs), generated from the Rust text by
    tools/calendars.py.  [||], [&&] are Rust's short-circuit operators; [oor], [oand]
    the same when an operand can panic.  Integers are unbounded: the only
    subtractions are of literals at most 81 from Easter-table entries, which are
    at least 82 (Cal_base.v, [easter_bounds]), so nothing wraps. *)
From Coq Require Import ZArith Bool List.
Import ListNotations.
From Verif Require Import Outcome Date Calendar Cal_base.
Open Scope Z_scope.

(** src/time/calendars/chile.rs:8-27  ABORIGINAL_PEOPLE_DAY *)
Definition chile_ABORIGINAL_PEOPLE_DAY : list Z :=
  [21; 21; 21; 20; 20; 21; 21; 20; 20; 21; 21; 20; 20; 21; 21; 20; 20; 21; 21; 20; 20; 21; 21; 20;
     20; 21; 21; 20; 20; 20; 21; 20; 20; 20; 21; 20; 20; 20; 21; 20; 20; 20; 21; 20; 20; 20; 21;
     20; 20; 20; 21; 20; 20; 20; 21; 20; 20; 20; 20; 20; 20; 20; 20; 20; 20; 20; 20; 20; 20; 20;
     20; 20; 20; 20; 20; 20; 20; 20; 20; 21; 21; 21; 21; 21; 21; 21; 21; 20; 21; 21; 21; 20; 21;
     21; 21; 20; 21; 21; 21; 20; 21; 21; 21; 20; 21; 21; 21; 20; 21; 21; 21; 20; 21; 21; 21; 20;
     20; 21; 21; 20; 20; 21; 21; 20; 20; 21; 21; 20; 20; 21; 21; 20; 20; 21; 21; 20; 20; 21; 21;
     20; 20; 21; 21; 20; 20; 21; 21; 20; 20; 20; 21; 20; 20; 20; 21; 20; 20; 20; 21; 20; 20; 20;
     21; 20; 20; 20; 21; 20; 20; 20; 21; 20; 20; 20; 21; 20; 20; 20; 20].

(** src/time/calendars/chile.rs:33-36  Chile::is_aboriginal_people_day *)
Definition chile_is_aboriginal_people_day (date : date) : outcome bool :=
  let d := day date in let m := month date in let y := year date in
  (oand (Ok ((m =? 6)
     && (2021 <=? y))) (do v1 <- (table_index chile_ABORIGINAL_PEOPLE_DAY (y - 2021));
     Ok (d =? v1))).

(** src/time/calendars/chile.rs:40-95  Chile::is_business_day *)
Definition chile_is_business_day (date : date) : outcome bool :=
  let d := day date in let w := weekday_of date in let m := month date in let y := year date in
     let dd := ordinal date in
  do em <- (easter_monday y);
  do v1 <- (oany [Ok (is_weekend date);
     Ok ((d =? 1) && (m =? 1));
     Ok ((d =? 2) && (m =? 1) && (weekday_eqb w Mon) && (2016 <? y));
     Ok ((d =? 16) && (m =? 1) && (y =? 2018));
     Ok (dd =? (em - 3));
     Ok (dd =? (em - 2));
     Ok ((d =? 19) && (m =? 4) && (y =? 2017));
     Ok ((d =? 1) && (m =? 5));
     Ok ((d =? 21) && (m =? 5));
     (chile_is_aboriginal_people_day date);
     Ok ((26 <=? d) && (d <=? 29) && (m =? 6) && (weekday_eqb w Mon));
     Ok ((d =? 2) && (m =? 7) && (weekday_eqb w Mon));
     Ok ((d =? 16) && (m =? 7));
     Ok ((d =? 15) && (m =? 8));
     Ok ((d =? 16) && (m =? 9) && (y =? 2022));
     Ok ((d =? 17) && (m =? 9) && ((weekday_eqb w Mon) && (2007 <=? y)
     || (weekday_eqb w Fri) && (2016 <? y)));
     Ok ((d =? 18) && (m =? 9));
     Ok ((d =? 19) && (m =? 9));
     Ok ((d =? 20) && (m =? 9) && (weekday_eqb w Fri) && (2007 <=? y));
     Ok ((9 <=? d) && (d <=? 12) && (m =? 10) && (weekday_eqb w Mon));
     Ok ((d =? 15) && (m =? 10) && (weekday_eqb w Mon));
     Ok (((d =? 27) && (m =? 10) && (weekday_eqb w Fri)
     || (d =? 31) && (m =? 10) && (negb (weekday_eqb w Tue)) && (negb (weekday_eqb w Wed))
     || (d =? 2) && (m =? 11) && (weekday_eqb w Fri)) && (2008 <=? y));
     Ok ((d =? 1) && (m =? 11));
     Ok ((d =? 8) && (m =? 12));
     Ok ((d =? 25) && (m =? 12));
     Ok ((d =? 31) && (m =? 12))]);
  if v1 then Ok false else
  Ok true.
