(** Interest rate swaps: schedules, cash flows, value and risk.  Amounts, rates
    and year fractions are real numbers (rounding idealised away); dates and
    machine integers are exact. *)
From Coq Require Import ZArith Bool List Reals.
Import ListNotations.
From Verif Require Import Outcome Ints Loop Date Calendar Names Fx YieldCurve FxForward.
Open Scope Z_scope.

(** src/time/daycounters.rs  trait DayCounters, as far as the pricers use it:
    any pair of functions.  Simplification: the year fraction is a real. *)
Record day_counter := { dc_count : date -> date -> outcome Z; dc_yf : date -> date -> outcome R }.

(** src/markets/interestrate/interestrateindex.rs:26-34  struct InterestRateIndex *)
Record rate_index := {
  ix_period : period; ix_settlement_days : Z; ix_currency : currency; ix_calendar : calendar;
  ix_convention : convention; ix_day_counter : day_counter; ix_end_of_month : bool }.

(** src/derivatives/interestrate/swap.rs:23-27  enum InterestRateSwapLegType *)
Inductive leg_type : Type := Float (spread : R) | Fixed (coupon : R).

(** src/derivatives/interestrate/swap.rs:194-202  struct InterestRateSchedulePeriod *)
Record accrual := {
  accrual_start : date; accrual_end : date; pay_date : date; reset_date : date;
  amortisation : R; balance : R }.

(** src/derivatives/interestrate/swap.rs:29-42, 71-79  structs ScheduleDetail and
    InterestRateSwapLeg in one record.  Simplification: the [settlement_days]
    field of ScheduleDetail is never read and is left out. *)
Record leg := {
  l_type : leg_type; l_direction : direction; l_index : rate_index; l_notional : R;
  l_frequency : frequency; l_tenor : period; l_duration : period; l_day_counter : day_counter;
  l_calendar : calendar; l_convention : convention; l_pay_delay : Z; l_days_before_accrual : Z;
  l_schedule : list accrual }.

(** src/derivatives/interestrate/swap.rs:100-107  effective_date *)
Definition effective_date (oc : bool) (l : leg) (v : date) : outcome (option date) :=
  advance oc (l_calendar l) v (Days (ix_settlement_days (l_index l))) (l_convention l)
    (Some (ix_end_of_month (l_index l))).

(** src/derivatives/interestrate/swap.rs:131-140  the number in a tenor; the
    [as u32] cast keeps the low 32 bits. *)
Definition period_num (p : period) : Z :=
  match p with
  | Days n | Weeks n => wrap_u32 n
  | Months n | Years n => n
  | _ => 1
  end.

(** i64 negation (line 175) *)
Definition neg_i64 (oc : bool) (a : Z) : outcome Z :=
  if is_i64 (- a) then Ok (- a) else if oc then Panic PArith else Ok (wrap_i64 (- a)).

(** u32 increment (line 148) *)
Definition succ_u32 (oc : bool) (a : Z) : outcome Z :=
  if is_u32 (a + 1) then Ok (a + 1) else if oc then Panic PArith else Ok (wrap_u32 (a + 1)).

(** src/derivatives/interestrate/swap.rs:149-184  one turn of the loop *)
Definition schedule_period (oc : bool) (l : leg) (effective start : date) (n : Z) : outcome accrual :=
  do f <- ounwrap (frequency_period (l_frequency l));
  do p <- mul_period oc n f;
  do e <- advance oc (l_calendar l) effective p (l_convention l) (Some (ix_end_of_month (l_index l)));
  do e <- ounwrap e;
  do pay <- advance oc (l_calendar l) e (Days (l_pay_delay l)) (l_convention l) (Some false);
  do pay <- ounwrap pay;
  do k <- neg_i64 oc (l_days_before_accrual l);
  do reset <- advance oc (l_calendar l) start (Days k) (l_convention l) (Some false);
  do reset <- ounwrap reset;
  Ok {| accrual_start := start; accrual_end := e; pay_date := pay; reset_date := reset;
        amortisation := l_notional l; balance := l_notional l |}.

(** src/derivatives/interestrate/swap.rs:145-186  the loop [for n in 1..(num + 1)] *)
Fixpoint schedule_loop (oc : bool) (l : leg) (effective start : date) (n : Z) (k : nat) : outcome (list accrual) :=
  match k with
  | O => Ok []
  | S k' => do a <- schedule_period oc l effective start n;
            do r <- schedule_loop oc l effective (accrual_end a) (n + 1) k';
            Ok (a :: r)
  end.

(** src/derivatives/interestrate/swap.rs:123-191  generate_schedule *)
Definition generate_schedule (oc : bool) (l : leg) (v : date) : outcome (list accrual) :=
  match l_schedule l with
  | [] =>
      do e <- effective_date oc l v;
      do e <- ounwrap e;
      let t := period_num (l_tenor l) in
      if t =? 0 then Panic PArith
      else
        do last <- succ_u32 oc (period_num (l_duration l) / t);
        schedule_loop oc l e e 1 (Z.to_nat (last - 1))
  | s => Ok s
  end.

(** src/derivatives/interestrate/swap.rs:313-367  calculate_period_cashflow: the
    present value.  Simplification: the other fields of InterestRateCashflow are
    only reported. *)
Definition period_pv (disc : date -> outcome R) (l : leg) (a : accrual) : outcome R :=
  do _ <- dc_count (l_day_counter l) (accrual_start a) (accrual_end a);
  do yf <- dc_yf (l_day_counter l) (accrual_start a) (accrual_end a);
  do rate <- match l_type l with
             | Fixed coupon => Ok coupon
             | Float spread =>
                 do df_start <- disc (accrual_start a);
                 do df_end <- disc (accrual_end a);
                 Ok ((df_start / df_end - 1) / yf + spread)%R
             end;
  do df <- disc (pay_date a);
  Ok (rate * yf * balance a * df * sign (l_direction l))%R.

(** src/derivatives/interestrate/swap.rs:403-419  the same in pv_under_shift,
    without the call of day_count *)
Definition period_pv_shift (disc : date -> outcome R) (l : leg) (a : accrual) : outcome R :=
  do yf <- dc_yf (l_day_counter l) (accrual_start a) (accrual_end a);
  do rate <- match l_type l with
             | Fixed coupon => Ok coupon
             | Float spread =>
                 do df_start <- disc (accrual_start a);
                 do df_end <- disc (accrual_end a);
                 Ok ((df_start / df_end - 1) / yf + spread)%R
             end;
  do df <- disc (pay_date a);
  Ok (rate * yf * balance a * df * sign (l_direction l))%R.

(** The inner loops (lines 295-298, 402-420) *)
Fixpoint sum_pv (f : accrual -> outcome R) (acc : R) (s : list accrual) : outcome R :=
  match s with
  | [] => Ok acc
  | a :: r => do x <- f a; sum_pv f (acc + x)%R r
  end.

(** The final exchange (lines 302-308, 424-428); [schedule.last()] *)
Definition add_final (disc : date -> outcome R) (l : leg) (acc : R) (s : list accrual) : outcome R :=
  match rev s with
  | [] => Ok acc
  | last :: _ => do df <- disc (pay_date last); Ok (acc + balance last * df * sign (l_direction l))%R
  end.

(** src/derivatives/interestrate/swap.rs:283-311  npv, for the discount function
    of the term structure *)
Fixpoint npv_loop (pv : (date -> outcome R) -> leg -> accrual -> outcome R) (disc : date -> outcome R)
    (oc : bool) (v : date) (acc : R) (legs : list leg) : outcome R :=
  match legs with
  | [] => Ok acc
  | l :: r => do s <- generate_schedule oc l v;
              do acc <- sum_pv (pv disc l) acc s;
              do acc <- add_final disc l acc s;
              npv_loop pv disc oc v acc r
  end.
Definition npv (oc : bool) (legs : list leg) (v : date) (y : curve) : outcome R :=
  npv_loop period_pv (discount y) oc v 0 legs.

(** src/derivatives/interestrate/swap.rs:388-431  pv_under_shift *)
Definition pv_under_shift (oc : bool) (legs : list leg) (v : date) (y : curve) (bp : R) : outcome R :=
  npv_loop period_pv_shift (fun d => shifted_discount y d bp) oc v 0 legs.

(** src/derivatives/interestrate/swap.rs:373-378  currency *)
Definition swap_currency (legs : list leg) : outcome currency :=
  match legs with [] => Err EInvalidData | l :: _ => Ok (ix_currency (l_index l)) end.

(** src/derivatives/interestrate/swap.rs:434-440  mtm *)
Definition swap_mtm (oc : bool) (legs : list leg) (v : date) (y : curve) : outcome currency_value :=
  do pv <- pv_under_shift oc legs v y 0;
  do c <- swap_currency legs;
  Ok (c, pv).

(** src/derivatives/interestrate/swap.rs:444-448  dv01 *)
Definition swap_dv01 (oc : bool) (legs : list leg) (v : date) (y : curve) : outcome R :=
  do base <- pv_under_shift oc legs v y 0;
  do up <- pv_under_shift oc legs v y 1;
  Ok (up - base)%R.

(** src/derivatives/interestrate/basic.rs:67-79  enum RateShiftMode *)
Inductive shift_mode : Set := Zeros | Instruments | Forwards | Swaps.

(** src/derivatives/interestrate/swap.rs:455-474  gamma *)
Definition swap_gamma (oc : bool) (legs : list leg) (v : date) (y : curve) (bp : R) (m : shift_mode) : outcome R :=
  match m with
  | Zeros =>
      do base <- pv_under_shift oc legs v y 0;
      do up <- pv_under_shift oc legs v y bp;
      do down <- pv_under_shift oc legs v y (- bp);
      Ok (up + down - 2 * base)%R
  | _ => Err EInvalidData
  end.

(** src/derivatives/interestrate/swap.rs:480-482  vega *)
Definition swap_vega (oc : bool) (legs : list leg) (v : date) (y : curve) (bp : R) : outcome R := Ok 0%R.

(** src/derivatives/interestrate/swap.rs:490-496  settle_date *)
Definition swap_settle_date (oc : bool) (legs : list leg) (v : date) : outcome date :=
  match legs with
  | [] => Ok v
  | l :: _ => do e <- effective_date oc l v; ounwrap e
  end.

(** src/derivatives/interestrate/swap.rs:498-515  maturity_date *)
Fixpoint last_ends (oc : bool) (legs : list leg) (v : date) : outcome (list date) :=
  match legs with
  | [] => Ok []
  | l :: r => do s <- generate_schedule oc l v;
              match rev s with
              | [] => Panic PUnwrap
              | a :: _ => do es <- last_ends oc r v; Ok (accrual_end a :: es)
              end
  end.
Definition swap_maturity_date (oc : bool) (legs : list leg) (v : date) : outcome date :=
  do es <- last_ends oc legs v;
  Ok (match es with [] => v | e :: r => fold_left Z.max r e end).

(** src/derivatives/interestrate/swap.rs:234-241  amend_last *)
Definition amend_last (z : R) (l : list pillar) : outcome (list pillar) :=
  match rev l with
  | [] => Panic PUnwrap
  | p :: r => Ok (rev r ++ [{| first_settle_date := first_settle_date p; p_date := p_date p;
                               market_rate := market_rate p; p_zero_rate := z; p_discount := p_discount p;
                               source := source p; hidden_pillar := hidden_pillar p |}])
  end.

(** src/derivatives/interestrate/swap.rs:243-259  calculate_npv *)
Definition calculate_npv (oc : bool) (legs : list leg) (z : R) (v : date) (l : list pillar) : outcome R :=
  do l' <- amend_last z l;
  npv oc legs v {| c_valuation_date := v; stripped_curves := l' |}.

(** src/derivatives/interestrate/swap.rs:261-276  solve_zero_rate.  [brent lo hi f]
    stands for [roots::find_root_brent] with SimpleConvergency {eps: 1e-15,
    max_iter: 100} followed by [unwrap]; only its contract is known
    (SwapSpec.v). *)
Definition solve_zero_rate (brent : R -> R -> (R -> outcome R) -> outcome R)
    (oc : bool) (legs : list leg) (v : date) (l : list pillar) : outcome R :=
  brent 0%R (1 / 2)%R (fun x => calculate_npv oc legs x v l).
