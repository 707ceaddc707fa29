(** Turkey calendar (src/time/calendars/turkey.rs), generated from the Rust text by
    tools/calendars.py.  [||], [&&] are Rust's short-circuit operators; [oor], [oand]
    the same when an operand can panic.  Integers are unbounded: the only
    subtractions are of literals at most 81 from Easter-table entries, which are
    at least 82 (Cal_base.v, [easter_bounds]), so nothing wraps. *)
From Coq Require Import ZArith Bool List.
Import ListNotations.
From Verif Require Import Outcome Date Calendar Cal_base.
Open Scope Z_scope.

(** src/time/calendars/turkey.rs:13-295  Turkey::is_business_day *)
Definition turkey_is_business_day (date : date) : outcome bool :=
  Ok (
  let d := day date in let m := month date in let y := year date in
  if ((is_weekend date)
     || (d =? 1) && (m =? 1)
     || (d =? 23) && (m =? 4)
     || (d =? 1) && (m =? 5)
     || (d =? 19) && (m =? 5)
     || (d =? 15) && (m =? 7) && (2017 <=? y)
     || (d =? 30) && (m =? 8)
     || (d =? 29) && (m =? 10))
  then false else
  if (y =? 2004)
  then if ((m =? 2) && (d <=? 4) || (m =? 11) && (14 <=? d) && (d <=? 16))
  then false else
  true else
  if (y =? 2005)
  then if ((m =? 1) && (19 <=? d) && (d <=? 21) || (m =? 11) && (2 <=? d) && (d <=? 5))
  then false else
  true else
  if (y =? 2006)
  then if ((m =? 1) && (10 <=? d) && (d <=? 13) || (m =? 10) && (23 <=? d) && (d <=? 25)
     || (m =? 12) && (d =? 31))
  then false else
  true else
  if (y =? 2007)
  then if ((m =? 1) && (d <=? 3) || (m =? 10) && (12 <=? d) && (d <=? 14)
     || (m =? 12) && (20 <=? d) && (d <=? 23))
  then false else
  true else
  if (y =? 2008)
  then if ((m =? 9) && (d =? 30) || (m =? 10) && (d <=? 2) || (m =? 12) && (8 <=? d) && (d <=? 11))
  then false else
  true else
  if (y =? 2009)
  then if ((m =? 9) && (20 <=? d) && (d <=? 22) || (m =? 11) && (27 <=? d) && (d <=? 30))
  then false else
  true else
  if (y =? 2010)
  then if ((m =? 9) && (9 <=? d) && (d <=? 11) || (m =? 11) && (16 <=? d) && (d <=? 19))
  then false else
  true else
  if (y =? 2011)
  then if ((m =? 10) && (d =? 1) || (m =? 11) && (9 <=? d) && (d <=? 13))
  then false else
  true else
  if (y =? 2012)
  then if ((m =? 8) && (18 <=? d) && (d <=? 21) || (m =? 10) && (24 <=? d) && (d <=? 28))
  then false else
  true else
  if (y =? 2013)
  then if ((m =? 8) && (7 <=? d) && (d <=? 10) || (m =? 10) && (14 <=? d) && (d <=? 18)
     || (m =? 10) && (d =? 28))
  then false else
  true else
  if (y =? 2014)
  then if ((m =? 7) && (27 <=? d) && (d <=? 30) || (m =? 10) && (4 <=? d) && (d <=? 7)
     || (m =? 10) && (d =? 29))
  then false else
  true else
  if (y =? 2015)
  then if ((m =? 7) && (17 <=? d) && (d <=? 19) || (m =? 10) && (24 <=? d) && (d <=? 27))
  then false else
  true else
  if (y =? 2016)
  then if ((m =? 7) && (5 <=? d) && (d <=? 7) || (m =? 9) && (12 <=? d) && (d <=? 15))
  then false else
  true else
  if (y =? 2017)
  then if ((m =? 6) && (25 <=? d) && (d <=? 27) || (m =? 9) && (1 <=? d) && (d <=? 4))
  then false else
  true else
  if (y =? 2018)
  then if ((m =? 6) && (15 <=? d) && (d <=? 17) || (m =? 8) && (21 <=? d) && (d <=? 24))
  then false else
  true else
  if (y =? 2019)
  then if ((m =? 6) && (4 <=? d) && (d <=? 6) || (m =? 8) && (11 <=? d) && (d <=? 14))
  then false else
  true else
  if (y =? 2020)
  then if ((m =? 5) && (24 <=? d) && (d <=? 26) || (m =? 7) && (d =? 31)
     || (m =? 8) && (1 <=? d) && (d <=? 3))
  then false else
  true else
  if (y =? 2021)
  then if ((m =? 5) && (13 <=? d) && (d <=? 15) || (m =? 7) && (20 <=? d) && (d <=? 23))
  then false else
  true else
  if (y =? 2022)
  then if ((m =? 5) && (2 <=? d) && (d <=? 4) || (m =? 7) && (9 <=? d) && (d <=? 12))
  then false else
  true else
  if (y =? 2023)
  then if ((m =? 4) && (21 <=? d) && (d <=? 23) || (m =? 6) && (28 <=? d) && (d <=? 30))
  then false else
  true else
  if (y =? 2024)
  then if ((m =? 4) && (10 <=? d) && (d <=? 12) || (m =? 6) && (17 <=? d) && (d <=? 19))
  then false else
  true else
  if (y =? 2025)
  then if ((m =? 3) && (d =? 31) || (m =? 4) && (1 <=? d) && (d <=? 2)
     || (m =? 6) && (6 <=? d) && (d <=? 9))
  then false else
  true else
  if (y =? 2026)
  then if ((m =? 3) && (20 <=? d) && (d <=? 22) || (m =? 5) && (26 <=? d) && (d <=? 29))
  then false else
  true else
  if (y =? 2027)
  then if ((m =? 3) && (10 <=? d) && (d <=? 12) || (m =? 5) && (16 <=? d) && (d <=? 19))
  then false else
  true else
  if (y =? 2028)
  then if ((m =? 2) && (27 <=? d) && (d <=? 29) || (m =? 5) && (4 <=? d) && (d <=? 7))
  then false else
  true else
  if (y =? 2029)
  then if ((m =? 2) && (15 <=? d) && (d <=? 17) || (m =? 4) && (23 <=? d) && (d <=? 26))
  then false else
  true else
  if (y =? 2030)
  then if ((m =? 2) && (5 <=? d) && (d <=? 7) || (m =? 4) && (13 <=? d) && (d <=? 16))
  then false else
  true else
  if (y =? 2031)
  then if ((m =? 1) && (25 <=? d) && (d <=? 27) || (m =? 4) && (2 <=? d) && (d <=? 5))
  then false else
  true else
  if (y =? 2032)
  then if ((m =? 1) && (14 <=? d) && (d <=? 16) || (m =? 3) && (21 <=? d) && (d <=? 24))
  then false else
  true else
  if (y =? 2033)
  then if ((m =? 1) && (3 <=? d) && (d <=? 5) || (m =? 12) && (d =? 23)
     || (m =? 3) && (11 <=? d) && (d <=? 14))
  then false else
  true else
  if (y =? 2034)
  then if ((m =? 12) && (12 <=? d) && (d <=? 14) || (m =? 2) && (d =? 28)
     || (m =? 3) && (1 <=? d) && (d <=? 3))
  then false else
  true else
  true).
