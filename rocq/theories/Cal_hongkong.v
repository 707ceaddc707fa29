(** HongKong calendar (src/time/calendars/hongkong.rs), generated from the Rust text by
    tools/calendars.py.  [||], [&&] are Rust's short-circuit operators; [oor], [oand]
    the same when an operand can panic.  Integers are unbounded: the only
    subtractions are of literals at most 81 from Easter-table entries, which are
    at least 82 (Cal_base.v, [easter_bounds]), so nothing wraps. *)
From Coq Require Import ZArith Bool List.
Import ListNotations.
From Verif Require Import Outcome Date Calendar Cal_base.
Open Scope Z_scope.

(** src/time/calendars/hongkong.rs:43-136  SPECIAL_HOLIDAYS *)
Definition hongkong_SPECIAL_HOLIDAYS : list (Z * list (Z * Z)) :=
  [(2004, [(22, 1); (23, 1); (24, 1); (5, 4); (26, 5); (22, 6); (29, 9); (22, 10)]);
   (2005, [(9, 2); (10, 2); (11, 2); (5, 4); (16, 5); (11, 6); (19, 9); (11, 10)]);
   (2006, [(28, 1); (29, 1); (30, 1); (31, 1); (5, 4); (5, 5); (31, 5); (7, 10); (30, 10)]);
   (2007, [(17, 2); (18, 2); (19, 2); (20, 2); (5, 4); (24, 5); (19, 6); (26, 9); (19, 10)]);
   (2008, [(7, 2); (8, 2); (9, 2); (4, 4); (12, 5); (9, 6); (15, 9); (7, 10)]);
   (2009, [(26, 1); (27, 1); (28, 1); (4, 4); (2, 5); (28, 5); (3, 10); (26, 10)]);
   (2010, [(15, 2); (16, 2); (6, 4); (21, 5); (16, 6); (23, 9)]);
   (2011, [(3, 2); (4, 2); (5, 4); (10, 5); (6, 6); (13, 9); (5, 10); (27, 12)]);
   (2012, [(23, 1); (24, 1); (25, 1); (4, 4); (10, 5); (1, 10); (23, 10)]);
   (2013, [(11, 2); (12, 2); (13, 2); (4, 4); (17, 5); (12, 6); (20, 9); (14, 10)]);
   (2014, [(31, 1); (1, 2); (2, 2); (6, 5); (2, 6); (9, 9); (2, 10)]);
   (2015, [(19, 2); (20, 2); (7, 4); (25, 5); (20, 6); (3, 9); (28, 9); (21, 10)]);
   (2016, [(8, 2); (9, 2); (10, 2); (4, 4); (9, 6); (16, 9); (10, 10); (27, 12)]);
   (2017, [(30, 1); (31, 1); (4, 4); (3, 5); (30, 5); (5, 10)]);
   (2018, [(16, 2); (19, 2); (5, 4); (22, 5); (18, 6); (25, 9); (17, 10)]);
   (2019, [(5, 2); (6, 2); (7, 2); (5, 4); (7, 6); (7, 10)]);
   (2020, [(27, 1); (28, 1); (4, 4); (30, 4); (25, 6); (2, 10); (26, 10)]);
   (2021, [(12, 2); (15, 2); (5, 4); (19, 5); (14, 6); (22, 9); (14, 10)]);
   (2022, [(1, 2); (2, 2); (3, 2); (5, 4); (9, 5); (3, 6); (12, 9); (4, 10)]);
   (2023, [(23, 1); (24, 1); (25, 1); (5, 4); (26, 5); (22, 6); (23, 10)]);
   (2024, [(12, 2); (13, 2); (4, 4); (15, 5); (10, 6); (18, 9); (11, 10)]);
   (2025, [(29, 1); (30, 1); (31, 1); (4, 4); (5, 5); (7, 10); (29, 10)])].

(** src/time/calendars/hongkong.rs:139-153  HongKong::is_fixed_or_observed_holiday *)
Definition hongkong_is_fixed_or_observed_holiday (d : Z) (m : Z) (w : weekday) : bool :=
  (((d =? 1) && (m =? 1))
   || ((d =? 2) && (m =? 1) && (weekday_eqb w Mon))
   || ((d =? 1) && (m =? 5))
   || ((d =? 2) && (m =? 5) && (weekday_eqb w Mon))
   || ((d =? 1) && (m =? 7))
   || ((d =? 2) && (m =? 7) && (weekday_eqb w Mon))
   || ((d =? 1) && (m =? 10))
   || ((d =? 2) && (m =? 10) && (weekday_eqb w Mon))
   || ((d =? 25) && (m =? 12))
   || ((d =? 26) && (m =? 12))).

(** src/time/calendars/hongkong.rs:14-39  HongKong::is_business_day *)
Definition hongkong_is_business_day (date : date) : outcome bool :=
  let d := day date in let w := weekday_of date in let m := month date in let y := year date in
     let dd := ordinal date in
  do em <- (easter_monday y);
  Ok (if (is_weekend date)
  then false else
  if (hongkong_is_fixed_or_observed_holiday d m w)
  then false else
  if ((dd =? (em - 3)) || (dd =? em))
  then false else
  if (map_contains y (d, m) hongkong_SPECIAL_HOLIDAYS)
  then false else
  true).
