(** Specification vocabulary for the IMM properties. *)
From Coq Require Import ZArith Bool String Ascii List.
From Verif Require Import Date Calendar CalendarSpec.
Open Scope Z_scope.

(** [d] is the third Wednesday of its month: a Wednesday with exactly two
    Wednesdays before it in the month. *)
Definition is_third_wednesday (d : date) : Prop :=
  weekday_of d = Wed /\
  length (filter (fun x => weekday_eqb (weekday_of x) Wed) (days_of (of_ymd (year d) (month d) 1) d)) = 2%nat.

(** An IMM date of the serial cycle / of the main (quarterly) cycle. *)
Definition imm_day (main_cycle : bool) (d : date) : Prop :=
  is_third_wednesday d /\
  (main_cycle = true -> month d = 3 \/ month d = 6 \/ month d = 9 \/ month d = 12).

(** [r] is the first IMM date after [d]. *)
Definition next_imm (main_cycle : bool) (d r : date) : Prop :=
  d < r /\ imm_day main_cycle r /\ forall x, d < x < r -> ~ imm_day main_cycle x.

(** The published futures month letters, January to December, as character codes. *)
Definition codes (s : string) : list Z := map (fun c => Z.of_N (N_of_ascii c)) (list_ascii_of_string s).
Definition month_letters : list Z := codes "FGHJKMNQUVXZ".
(** The letters accepted in a code, in either case. *)
Definition accepted_letters (main_cycle : bool) : list Z :=
  codes (if main_cycle then "HMUZhmuz" else "FGHJKMNQUVXZfghjkmnquvxz").
