(** Festivals of the Chinese lunisolar calendar, 2004-2050, as data: computed
    from the true conjunctions and the sun's longitude, for the meridian of
    Beijing and for that of Korea.  Nothing here models code.  P_Festivals.v
    shows that every date lies at the right phase of the mean moon and in the
    right season, and compares the shipped calendars with them. *)
From Coq Require Import ZArith List.
Import ListNotations.
From Verif Require Import Date EasterSpec.
Open Scope Z_scope.

(** The date of a year in a table of (month, day) that starts with 2004. *)
Definition dated (t : list (Z * Z)) (y : Z) : date :=
  let '(m, d) := nth (Z.to_nat (y - 2004)) t (1, 1) in of_ymd y m d.

(** First day of the first month. *)
Definition chinese_new_year : Z -> date := dated
  [(1, 22); (2, 9); (1, 29); (2, 18); (2, 7); (1, 26); (2, 14); (2, 3); (1, 23); (2, 10); (1, 31); (2, 19);
   (2, 8); (1, 28); (2, 16); (2, 5); (1, 25); (2, 12); (2, 1); (1, 22); (2, 10); (1, 29); (2, 17); (2, 6);
   (1, 26); (2, 13); (2, 3); (1, 23); (2, 11); (1, 31); (2, 19); (2, 8); (1, 28); (2, 15); (2, 4); (1, 24);
   (2, 12); (2, 1); (1, 22); (2, 10); (1, 30); (2, 17); (2, 6); (1, 26); (2, 14); (2, 2); (1, 23)].

(** Eighth day of the fourth month. *)
Definition buddhas_birthday : Z -> date := dated
  [(5, 26); (5, 15); (5, 5); (5, 24); (5, 12); (5, 2); (5, 21); (5, 10); (4, 28); (5, 17); (5, 6); (5, 25);
   (5, 14); (5, 3); (5, 22); (5, 12); (4, 30); (5, 19); (5, 8); (5, 26); (5, 15); (5, 5); (5, 24); (5, 13);
   (5, 2); (5, 20); (5, 9); (5, 28); (5, 16); (5, 6); (5, 25); (5, 15); (5, 3); (5, 22); (5, 11); (4, 30);
   (5, 18); (5, 7); (5, 26); (5, 16); (5, 5); (5, 24); (5, 13); (5, 2); (5, 20); (5, 9); (5, 28)].

(** Fifth day of the fifth month. *)
Definition dragon_boat : Z -> date := dated
  [(6, 22); (6, 11); (5, 31); (6, 19); (6, 8); (5, 28); (6, 16); (6, 6); (6, 23); (6, 12); (6, 2); (6, 20);
   (6, 9); (5, 30); (6, 18); (6, 7); (6, 25); (6, 14); (6, 3); (6, 22); (6, 10); (5, 31); (6, 19); (6, 9);
   (5, 28); (6, 16); (6, 5); (6, 24); (6, 12); (6, 1); (6, 20); (6, 10); (5, 30); (6, 18); (6, 7); (5, 27);
   (6, 14); (6, 3); (6, 22); (6, 11); (5, 31); (6, 19); (6, 8); (5, 29); (6, 15); (6, 4); (6, 23)].

(** Fifteenth day of the eighth month. *)
Definition mid_autumn : Z -> date := dated
  [(9, 28); (9, 18); (10, 6); (9, 25); (9, 14); (10, 3); (9, 22); (9, 12); (9, 30); (9, 19); (9, 8); (9, 27);
   (9, 15); (10, 4); (9, 24); (9, 13); (10, 1); (9, 21); (9, 10); (9, 29); (9, 17); (10, 6); (9, 25); (9, 15);
   (10, 3); (9, 22); (9, 12); (10, 1); (9, 19); (9, 8); (9, 27); (9, 16); (10, 4); (9, 24); (9, 13); (10, 2);
   (9, 20); (9, 10); (9, 28); (9, 17); (10, 5); (9, 25); (9, 15); (10, 4); (9, 22); (9, 11); (9, 30)].

(** Ninth day of the ninth month. *)
Definition chung_yeung : Z -> date := dated
  [(10, 22); (10, 11); (10, 30); (10, 19); (10, 7); (10, 26); (10, 16); (10, 5); (10, 23); (10, 13); (10, 2); (10, 21);
   (10, 9); (10, 28); (10, 17); (10, 7); (10, 25); (10, 14); (10, 4); (10, 23); (10, 11); (10, 29); (10, 18); (10, 8);
   (10, 26); (10, 16); (10, 5); (10, 24); (10, 12); (10, 1); (10, 20); (10, 9); (10, 27); (10, 17); (10, 7); (10, 26);
   (10, 14); (10, 3); (10, 22); (10, 11); (10, 29); (10, 18); (10, 8); (10, 27); (10, 16); (10, 5); (10, 24)].

(** First day of the first month, in Korea. *)
Definition seollal : Z -> date := dated
  [(1, 22); (2, 9); (1, 29); (2, 18); (2, 7); (1, 26); (2, 14); (2, 3); (1, 23); (2, 10); (1, 31); (2, 19);
   (2, 8); (1, 28); (2, 16); (2, 5); (1, 25); (2, 12); (2, 1); (1, 22); (2, 10); (1, 29); (2, 17); (2, 7);
   (1, 27); (2, 13); (2, 3); (1, 23); (2, 11); (1, 31); (2, 19); (2, 8); (1, 28); (2, 15); (2, 4); (1, 24);
   (2, 12); (2, 1); (1, 22); (2, 10); (1, 30); (2, 17); (2, 6); (1, 26); (2, 14); (2, 2); (1, 23)].

(** Eighth day of the fourth month, in Korea. *)
Definition korean_buddhas_birthday : Z -> date := dated
  [(5, 26); (5, 15); (5, 5); (5, 24); (5, 12); (5, 2); (5, 21); (5, 10); (5, 28); (5, 17); (5, 6); (5, 25);
   (5, 14); (5, 3); (5, 22); (5, 12); (4, 30); (5, 19); (5, 8); (5, 27); (5, 15); (5, 5); (5, 24); (5, 13);
   (5, 2); (5, 20); (5, 9); (5, 28); (5, 16); (5, 6); (5, 25); (5, 15); (5, 3); (5, 22); (5, 11); (4, 30);
   (5, 18); (5, 7); (5, 26); (5, 16); (5, 5); (5, 24); (5, 13); (5, 2); (5, 20); (5, 9); (5, 28)].

(** Fifteenth day of the eighth month, in Korea. *)
Definition chuseok : Z -> date := dated
  [(9, 28); (9, 18); (10, 6); (9, 25); (9, 14); (10, 3); (9, 22); (9, 12); (9, 30); (9, 19); (9, 8); (9, 27);
   (9, 15); (10, 4); (9, 24); (9, 13); (10, 1); (9, 21); (9, 10); (9, 29); (9, 17); (10, 6); (9, 25); (9, 15);
   (10, 3); (9, 22); (9, 12); (10, 1); (9, 19); (9, 8); (9, 27); (9, 16); (10, 4); (9, 24); (9, 13); (10, 2);
   (9, 21); (9, 10); (9, 28); (9, 17); (10, 5); (9, 25); (9, 15); (10, 4); (9, 22); (9, 11); (9, 30)].

(** The day the sun reaches longitude 15 degrees, 4 or 5 April: the usual
    formula of the 21st century. *)
Definition qingming (y : Z) : date := of_ymd y 4 ((2422 * (y - 2000) + 48100) / 10000 - (y - 2000) / 4).

(** The mean conjunctions, in billionths of a day: the one of 6 January 2000,
    Beijing time, and the mean month. *)
Definition mean_conjunction (k : Z) : Z := 1000000000 * of_ymd 2000 1 6 + 930190000 + 29530588861 * k.

(** The true conjunction is within 15 hours of the mean one; so a lunar month
    that starts on day [d] has a mean conjunction between 15 hours before [d]
    and 15 hours after its end. *)
Definition at_new_moon (d : date) : Prop :=
  exists k, 1000000000 * d - 625000000 <= mean_conjunction k <= 1000000000 * d + 1625000000.

(** Western Easter Sunday, as a function. *)
Definition easter_sunday (y : Z) : date := let f := western_full_moon y in f + (7 - f mod 7).
