(** The civil (tabular) Islamic calendar, written from its published rules and
    not from /repo: the feasts that the calendars of Turkey, Singapore,
    Indonesia and India list by hand.

    The tabular calendar is an arithmetic approximation; the announced feasts
    follow the sighting of the crescent and differ from it by at most two days,
    which every statement of P_Hijri.v allows for. *)
From Coq Require Import ZArith Bool List.
Import ListNotations.
From Verif Require Import Date.
Open Scope Z_scope.

(** Eleven years in thirty have a day more. *)
Definition hijri_leap (h : Z) : bool := existsb (Z.eqb (h mod 30)) [2; 5; 7; 10; 13; 16; 18; 21; 24; 26; 29].
Definition hijri_year_len (h : Z) : Z := if hijri_leap h then 355 else 354.

(** Months of 30 and 29 days in turn; the twelfth takes the leap day. *)
Definition hijri_month_len (h m : Z) : Z :=
  if Z.odd m then 30 else if (m =? 12) && hijri_leap h then 30 else 29.

(** The epoch is 16 July 622 of the Julian calendar, 19 July of ours. *)
Definition hijri_epoch : date := of_ymd 622 7 19.

(** First day of year [h], in closed form. *)
Definition hijri_new_year (h : Z) : date := hijri_epoch + 354 * (h - 1) + (3 + 11 * h) / 30.

(** The days of [h] before month [m]. *)
Definition hijri_before (m : Z) : Z := (59 * (m - 1) + 1) / 2.

Definition hijri (h m k : Z) : date := hijri_new_year h + hijri_before m + (k - 1).

(** The feast of breaking the fast, 1 Shawwal, and the feast of sacrifice, 10
    Dhu al-Hijja. *)
Definition fitr (h : Z) : date := hijri h 10 1.
Definition adha (h : Z) : date := hijri h 12 10.
