(** The Hebrew calendar, defined from its own rules and without reference to
    any code: the mean conjunction of each Tishri, the four postponements of
    the new year, and the holidays counted from it.  P_Hebrew.v compares the
    tables of the shipped calendar of Israel with it. *)
From Coq Require Import ZArith Bool List.
Import ListNotations.
From Verif Require Import Date.
Open Scope Z_scope.

(** The years of 13 months: the 3rd, 6th, 8th, 11th, 14th, 17th and 19th of
    every cycle of 19. *)
Definition embolismic (y : Z) : Prop := In (y mod 19) [3; 6; 8; 11; 14; 17; 0].
Definition embolismicb (y : Z) : bool := existsb (Z.eqb (y mod 19)) [3; 6; 8; 11; 14; 17; 0].

(** Months elapsed before the year [y] (year 1 is the first); the number grows
    by 12 or 13 a year ([C91_rules]). *)
Definition months_before (y : Z) : Z := (235 * y - 234) / 19.

(** An hour has 1080 parts, a day 24 hours, the mean month 29 days 12 hours
    and 793 parts.  Time is counted from the eve of Monday of the week of the
    first conjunction, which came 5 hours and 204 parts later. *)
Definition hour : Z := 1080.
Definition parts_a_day : Z := 24 * hour.
Definition mean_month : Z := 29 * parts_a_day + 12 * hour + 793.
Definition molad (y : Z) : Z := 5 * hour + 204 + mean_month * months_before y.

(** Day number of the Monday time is counted from, 7 September -3760 in the
    Gregorian calendar. *)
Definition hebrew_epoch : date := of_ymd (-3760) 9 7.

(** Day and time of day of the conjunction. *)
Definition molad_day (y : Z) : date := hebrew_epoch + molad y / parts_a_day.
Definition molad_time (y : Z) : Z := molad y mod parts_a_day.

Definition forbidden (w : weekday) : bool := match w with Sun | Wed | Fri => true | _ => false end.

(** 1 Tishri of the year [y]: the day of the conjunction, or the next one if
    the conjunction is at noon or later; then the next day if that is a Sunday,
    a Wednesday or a Friday; Thursday for a Tuesday conjunction of a 12-month
    year at 9 hours 204 parts or later; Tuesday for a Monday conjunction, after
    a year of 13 months, at 15 hours 589 parts or later. *)
Definition tishri1 (y : Z) : date :=
  let q := molad_day y in
  let t := molad_time y in
  let q1 := if 18 * hour <=? t then q + 1 else q in
  if forbidden (weekday_of q1) then q1 + 1
  else match weekday_of q with
       | Tue => if negb (embolismicb y) && (9 * hour + 204 <=? t) then q + 2 else q1
       | Mon => if embolismicb (y - 1) && (15 * hour + 589 <=? t) then q + 1 else q1
       | _ => q1
       end.

(** The six months from Nisan to Elul have 30, 29, 30, 29, 30 and 29 days and
    end the year, and Adar (the second one, if there are two) has 29; so dates
    from Adar on are counted back from the next new year. *)
Definition adar (y k : Z) : date := tishri1 (y + 1) - 177 - 29 + (k - 1).
Definition nisan (y k : Z) : date := tishri1 (y + 1) - 177 + (k - 1).
Definition iyar (y k : Z) : date := tishri1 (y + 1) - 147 + (k - 1).
Definition sivan (y k : Z) : date := tishri1 (y + 1) - 118 + (k - 1).
Definition av (y k : Z) : date := tishri1 (y + 1) - 59 + (k - 1).

(** The holidays of the civil year [y]; its spring lies in the Hebrew year
    [y + 3760], its autumn in the next. *)
Definition purim (y : Z) : date := adar (y + 3760) 14.
Definition passover (y : Z) : date := nisan (y + 3760) 15.
Definition shavuot (y : Z) : date := sivan (y + 3760) 6.
(** 5 Iyar, kept away from the Sabbath: brought forward to Thursday from a
    Friday or a Saturday and, since 2004, put off from a Monday to Tuesday. *)
Definition independence_day (y : Z) : date :=
  let d := iyar (y + 3760) 5 in
  match weekday_of d with
  | Fri => d - 1
  | Sat => d - 2
  | Mon => if 2004 <=? y then d + 1 else d
  | _ => d
  end.
(** 9 Av, put off from a Saturday to Sunday. *)
Definition tisha_beav (y : Z) : date :=
  let d := av (y + 3760) 9 in match weekday_of d with Sat => d + 1 | _ => d end.
Definition rosh_hashanah (y : Z) : date := tishri1 (y + 3761).
Definition yom_kippur (y : Z) : date := rosh_hashanah y + 9.
Definition sukkot (y : Z) : date := rosh_hashanah y + 14.
Definition simchat_torah (y : Z) : date := rosh_hashanah y + 21.
