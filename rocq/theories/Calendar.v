(** Business-day conventions, periods and the [Calendar] trait's provided
    methods, over an arbitrary calendar. *)
From Coq Require Import ZArith Lia Bool List String.
From Verif Require Import Outcome Ints Loop Date.
Open Scope Z_scope.

(** src/time/businessdayconvention.rs:5-13  enum BusinessDayConvention *)
Inductive convention : Set :=
| Following | ModifiedFollowing | HalfMonthModifiedFollowing
| Preceding | ModifiedPreceding | Unadjusted | Nearest.

(** src/time/period.rs:29-41  enum Period.  [Days]/[Weeks] carry an i64,
    [Months]/[Years] a u32; [period_wf] states those ranges. *)
Inductive period : Set :=
| ON | TN | SPOT | SN | Days (n : Z) | Weeks (n : Z) | Months (n : Z) | Years (n : Z).

Definition period_wf (p : period) : Prop :=
  match p with
  | Days n | Weeks n => is_i64 n = true
  | Months n | Years n => is_u32 n = true
  | _ => True
  end.

(** chrono [Duration::try_days]: [None] when the duration does not fit in
    i64 milliseconds. *)
Definition max_delta_secs : Z := 9223372036854775.
Definition try_days (n : Z) : option Z :=
  if (- max_delta_secs <=? n * 86400) && (n * 86400 <=? max_delta_secs) then Some n else None.

(** src/time/period.rs:149-174  impl Add<Period> for NaiveDate *)
Definition add_period (oc : bool) (d : date) (p : period) : outcome date :=
  match p with
  | ON | TN | SN => add_days d 1
  | SPOT => Ok d
  | Days n =>
      match try_days n with None => Err EPeriodOutOfBounds | Some k => add_days d k end
  | Weeks n =>
      do w <- mul_i64 oc n 7;
      match try_days w with None => Err EPeriodOutOfBounds | Some k => add_days d k end
  | Months n => add_months d n
  | Years n => do k <- mul_u32 oc n 12; add_months d k
  end.

(** src/time/period.rs:176-201  impl Sub<Period> for NaiveDate *)
Definition sub_period (oc : bool) (d : date) (p : period) : outcome date :=
  match p with
  | ON | TN | SN => add_days d (-1)
  | SPOT => Ok d
  | Days n =>
      match try_days n with None => Err EPeriodOutOfBounds | Some k => add_days d (-k) end
  | Weeks n =>
      do w <- mul_i64 oc n 7;
      match try_days w with None => Err EPeriodOutOfBounds | Some k => add_days d (-k) end
  | Months n => add_months d (-n)
  | Years n => do k <- mul_u32 oc n 12; add_months d (-k)
  end.

(** src/time/period.rs:203-218  impl Mul<Period> for u32 *)
Definition mul_period (oc : bool) (k : Z) (p : period) : outcome period :=
  match p with
  | ON => Ok ON | TN => Ok TN | SPOT => Ok SPOT | SN => Ok SN
  | Days n => do r <- mul_i64 oc n k; Ok (Days r)
  | Weeks n => do r <- mul_i64 oc n k; Ok (Weeks r)
  | Months n => do r <- mul_u32 oc n k; Ok (Months r)
  | Years n => do r <- mul_u32 oc n k; Ok (Years r)
  end.

(** A calendar is its [is_business_day] method (src/time/calendars.rs:202).
    Simplification: the method is a pure function of the date, which may
    panic ([Panic _]); trait implementors in /repo have no state that changes. *)
Definition calendar := date -> outcome bool.

(** src/time/calendars.rs:204-206  Calendar::is_holiday *)
Definition is_holiday (c : calendar) (d : date) : outcome bool := onot (c d).

(** Loop bound: more than the number of representable dates (191491529), so a
    loop that moves the date by at least a day per iteration cannot use it up. *)
Definition date_fuel : positive := 268435456.

Definition finish {S A} (x : S + outcome A) : outcome A :=
  match x with inr r => r | inl _ => Panic PStack end.

(** [while is_holiday(d) { d += ONE_DAY }] (src/time/calendars.rs:219-221) *)
Definition roll_step (c : calendar) (dir : Z) (d : date) : date + outcome date :=
  match c d with
  | Ok true => inr (Ok d)
  | Ok false => match add_days d dir with
                | Ok d' => inl d'
                | Err e => inr (Err e)
                | Panic p => inr (Panic p)
                end
  | Err e => inr (Err e)
  | Panic p => inr (Panic p)
  end.
Definition roll_up (c : calendar) (d : date) : outcome date :=
  finish (loop date_fuel (roll_step c 1) d).
(** [while is_holiday(d) { d -= ONE_DAY }] (src/time/calendars.rs:237-239) *)
Definition roll_down (c : calendar) (d : date) : outcome date :=
  finish (loop date_fuel (roll_step c (-1)) d).

(** src/time/calendars.rs:243-253  the Nearest branch: [d1] walks up and [d2]
    down while both are holidays ([&&] short-circuits). *)
Definition nearest_step (c : calendar) (s : date * date) : (date * date) + outcome (option date) :=
  let '(d1, d2) := s in
  match oand (is_holiday c d1) (is_holiday c d2) with
  | Ok true =>
      match (do a <- add_days d1 1; do b <- add_days d2 (-1); Ok (a, b)) with
      | Ok s' => inl s'
      | Err e => inr (Err e)
      | Panic p => inr (Panic p)
      end
  | Ok false => inr (do h <- is_holiday c d1; Ok (Some (if h then d1 else d2)))
  | Err e => inr (Err e)
  | Panic p => inr (Panic p)
  end.
Definition nearest (c : calendar) (d : date) : outcome (option date) :=
  finish (loop date_fuel (nearest_step c) (d, d)).

(** src/time/calendars.rs:208-258  Calendar::adjust.  The recursive calls at
    lines 226, 232 and 241 are to the Preceding/Following branches and are
    inlined as [roll_down]/[roll_up]. *)
Definition adjust (c : calendar) (d : date) (b : convention) : outcome (option date) :=
  match b with
  | Unadjusted => Ok (Some d)
  | Following => do r <- roll_up c d; Ok (Some r)
  | ModifiedFollowing =>
      do r <- roll_up c d;
      if negb (month r =? month d) then do q <- roll_down c d; Ok (Some q)
      else Ok (Some r)
  | HalfMonthModifiedFollowing =>
      do r <- roll_up c d;
      if negb (month r =? month d) then do q <- roll_down c d; Ok (Some q)
      else if (day d <=? 15) && (15 <? day r) then do q <- roll_down c d; Ok (Some q)
      else Ok (Some r)
  | Preceding => do r <- roll_down c d; Ok (Some r)
  | ModifiedPreceding =>
      do r <- roll_down c d;
      if negb (month r =? month d) then do q <- roll_up c d; Ok (Some q)
      else Ok (Some r)
  | Nearest => nearest c d
  end.

(** src/time/calendars.rs:172-179  Calendar::last_day_of_month.  The argument
    of [unwrap_or] is evaluated eagerly, so the method panics for every date
    of the last representable year. *)
Definition last_day_of_month (d : date) : outcome date :=
  do jan <- ounwrap (from_ymd_opt (year d + 1) 1 1);
  let first := match from_ymd_opt (year d) (month d + 1) 1 with
               | Some x => x | None => jan end in
  if in_rangeb (first - 1) then Ok (first - 1) else Panic PUnwrap.

(** src/time/calendars.rs:181-187  Calendar::end_of_month *)
Definition end_of_month (c : calendar) (d : date) : outcome date :=
  do l <- last_day_of_month d; roll_down c l.

(** src/time/calendars.rs:197-200  Calendar::is_weekend *)
Definition is_weekend (d : date) : bool :=
  match weekday_of d with Sat | Sun => true | _ => false end.

(** src/time/calendars/weekendsonly.rs:11-15  WeekendsOnly::is_business_day *)
Definition weekends_only : calendar := fun d => Ok (negb (is_weekend d)).

(** src/time/calendars.rs:278-304  the [Period::Days] branch of advance:
    [n] more business days in direction [dir].  Each outer iteration steps one
    day and then rolls to a business day. *)
Definition advance_step (c : calendar) (dir : Z) (s : date * Z) : (date * Z) + outcome date :=
  let '(d, n) := s in
  if n =? 0 then inr (Ok d)
  else match (do d1 <- add_days d dir;
              (if dir =? 1 then roll_up c d1 else roll_down c d1)) with
       | Ok d2 => inl (d2, n - 1)
       | Err e => inr (Err e)
       | Panic p => inr (Panic p)
       end.
Definition advance_days (c : calendar) (d : date) (n : Z) : outcome date :=
  if 0 <? n then finish (loop date_fuel (advance_step c 1) (d, n))
  else finish (loop date_fuel (advance_step c (-1)) (d, - n)).

(** src/time/calendars.rs:260-310  Calendar::advance *)
Definition advance (oc : bool) (c : calendar) (d : date) (p : period) (b : convention)
    (eom : option bool) : outcome (option date) :=
  let eom := match eom with Some x => x | None => false end in
  match p with
  | Months _ | Years _ =>
      do a <- add_period oc d p;
      if eom then
        do r <- adjust c a b;
        do r' <- ounwrap r;
        do e <- end_of_month c r';
        Ok (Some e)
      else adjust c a b
  | Days n =>
      if n =? 0 then adjust c d b
      else do r <- advance_days c d n; Ok (Some r)
  | _ => do a <- add_period oc d p; adjust c a b
  end.

(** src/time/calendars.rs:328-335  the counting loop over
    [from.iter_days().take(n)].  chrono's day iterator stops before
    [NaiveDate::MAX] (it has no way to yield it). *)
Definition count_step (c : calendar) (s : date * Z * Z) : (date * Z * Z) + outcome Z :=
  let '(d, n, acc) := s in
  if n =? 0 then inr (Ok acc)
  else if date_max <=? d then inr (Ok acc)
  else match c d with
       | Ok b => inl (d + 1, n - 1, if b then acc + 1 else acc)
       | Err e => inr (Err e)
       | Panic p => inr (Panic p)
       end.
Definition count_days (c : calendar) (start : date) (n : Z) : outcome Z :=
  finish (loop date_fuel (count_step c) (start, n, 0)).

Definition b2z (b : bool) : Z := if b then 1 else 0.

(** src/time/calendars.rs:312-337  Calendar::business_days_between.  The
    recursive call for [from > to] is inlined. *)
Definition business_days_between_ord (c : calendar) (from to : date)
    (first last : bool) : outcome Z :=
  do t <- add_days to (b2z last);
  do f <- add_days from (b2z first);
  count_days c f (i64_as_usize (t - f)).
Definition business_days_between (c : calendar) (from to : date)
    (include_first include_last : option bool) : outcome Z :=
  let first := match include_first with Some x => x | None => true end in
  let last := match include_last with Some x => x | None => false end in
  if to <? from
  then omap Z.opp (business_days_between_ord c to from first last)
  else business_days_between_ord c from to first last.

(** src/time/calendars/jointcalendar.rs:19-30  JointCalendar::is_business_day:
    the first member that is closed decides, otherwise open. *)
Fixpoint joint (cs : list calendar) : calendar := fun d =>
  match cs with
  | nil => Ok true
  | (c :: cs)%list => do b <- c d; if b then joint cs d else Ok false
  end.

(** src/time/period.rs:97-119  Period::settlement_date_with_lag *)
Definition settlement_date_with_lag (oc : bool) (p : period) (v : date) (c : calendar)
    (lag : Z) : outcome date :=
  match try_days lag with
  | None => Err EPeriodOutOfBounds
  | Some off =>
      do t <- match p with
              | ON => Ok v
              | TN => add_days v 1
              | _ => add_days v off
              end;
      do s <- add_period oc t p;
      do e <- end_of_month c s;
      do s' <- (if e <=? s then end_of_month c s else Ok s);
      roll_up c s'
  end.
(** src/time/period.rs:62-68  Period::settlement_date *)
Definition settlement_date oc p v c := settlement_date_with_lag oc p v c 2.

(** src/time/period.rs:122-146  Period::near_date_with_lag *)
Definition near_date_with_lag (p : period) (v : date) (c : calendar) (lag : Z)
    : outcome (option date) :=
  match try_days lag with
  | None => Err EPeriodOutOfBounds
  | Some off =>
      match p with
      | ON => do r <- roll_up c v; Ok (Some r)
      | TN => do d <- add_days v 1; do r <- roll_up c d; Ok (Some r)
      | SN => do d <- add_days v off; do r <- roll_up c d; Ok (Some r)
      | _ => Ok None
      end
  end.
(** src/time/period.rs:87-93  Period::near_date *)
Definition near_date p v c := near_date_with_lag p v c 2.
