(** The vocabulary in which holiday laws are written: fixed dates, the n-th
    weekday of a month, Easter and its satellites, and the usual ways of moving
    a holiday off a weekend.  It is defined on dates alone, without reference
    to any code; P_Holidays.v compares the shipped calendars with lists of such
    rules. *)
From Coq Require Import ZArith List.
From Verif Require Import Date EasterSpec.
Open Scope Z_scope.

Inductive rule : Type :=
| Fixed (m k : Z)                       (** the [k]-th of month [m] *)
| OrMonday (m k : Z)                    (** that date, and the Monday after it if it falls on a weekend *)
| SundayToMonday (m k : Z)              (** that date, and the Monday after it if it is a Sunday *)
| Observed (m k : Z)                    (** that date, the Friday before a Saturday, the Monday after a Sunday *)
| TwoDays (m k : Z)                     (** that date and the next, with a substitute weekday for each lost to a weekend *)
| ToMonday (l : weekday) (m k : Z)      (** Tuesdays to [l] go back to their Monday, later weekdays on to the next *)
| ToFriday (m k : Z)                    (** a Tuesday goes back to the Friday before, a Wednesday on to the Friday after *)
| Nth (n : Z) (w : weekday) (m : Z)     (** the [n]-th [w] of month [m] *)
| LastOf (w : weekday) (m : Z)          (** the last [w] of month [m] *)
| FirstFrom (w : weekday) (m k : Z)     (** the first [w] on or after the [k]-th of month [m] *)
| FromEaster (k : Z)                    (** [k] days after Western Easter Sunday *)
| FromOrthodoxEaster (k : Z)            (** [k] days after Orthodox Easter Sunday *)
| LastWorkday (m : Z)                   (** the last Monday-to-Friday day of month [m] *)
| During (a b : Z) (r : rule)           (** [r], in the years [a] to [b] only *)
| OnA (w : weekday) (r : rule)          (** [r], if it falls on a [w] *)
| Yearly (f : Z -> rule)                (** a rule that depends on the year of the date *)
| PastDay (k : Z) (r : rule)            (** [r], unless it falls in the first [k] days of a month *)
| Once (y m k : Z).                     (** a single day *)

Definition on (m k : Z) (h : date) : Prop := month h = m /\ day h = k.

Fixpoint falls (r : rule) (d : date) : Prop :=
  match r with
  | Fixed m k => on m k d
  | OrMonday m k => exists h, on m k h /\
      (d = h \/ (weekday_of h = Sat \/ weekday_of h = Sun) /\ weekday_of d = Mon /\ h < d < h + 7)
  | SundayToMonday m k => exists h, on m k h /\ (d = h \/ weekday_of h = Sun /\ d = h + 1)
  | Observed m k => exists h, on m k h /\
      (d = h \/ weekday_of h = Sat /\ d = h - 1 \/ weekday_of h = Sun /\ d = h + 1)
  | TwoDays m k => exists h, on m k h /\
      (d = h \/ d = h + 1 \/
       (* one of the two is lost: the first weekday after them *)
       (weekday_of h = Fri /\ d = h + 3) \/ (weekday_of h = Sun /\ d = h + 2) \/
       (* both are lost: the Monday and the Tuesday *)
       (weekday_of h = Sat /\ (d = h + 2 \/ d = h + 3)))
  | ToMonday l m k => exists h, on m k h /\
      let i := weekday_num (weekday_of h) in
      (i <= weekday_num l /\ d = h - i \/ weekday_num l < i <= 4 /\ d = h + (7 - i) \/ 4 < i /\ d = h)
  | ToFriday m k => exists h, on m k h /\
      match weekday_of h with Tue => d = h - 4 | Wed => d = h + 2 | _ => d = h end
  | Nth n w m => weekday_of d = w /\ month d = m /\ month (d - 7 * (n - 1)) = m /\ month (d - 7 * n) <> m
  | LastOf w m => weekday_of d = w /\ month d = m /\ month (d + 7) <> m
  | FirstFrom w m k => exists h, on m k h /\ weekday_of d = w /\ h <= d < h + 7
  | FromEaster k => exists s, western_easter (year d) s /\ d = s + k
  | FromOrthodoxEaster k => exists s, orthodox_easter (year d) s /\ d = s + k
  | LastWorkday m => month d = m /\ ~ (weekday_of d = Sat \/ weekday_of d = Sun) /\
      forall x, d < x -> year x = year d -> month x = m -> weekday_of x = Sat \/ weekday_of x = Sun
  | OnA w r => weekday_of d = w /\ falls r d
  | Yearly f => falls (f (year d)) d
  | PastDay k r => k < day d /\ falls r d
  | During a b r => a <= year d <= b /\ falls r d
  | Once y m k => d = of_ymd y m k
  end.
