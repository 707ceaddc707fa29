(** Caps and floors, and the caplet volatility surface (real arithmetic). *)
From Coq Require Import ZArith Bool List Reals.
Import ListNotations.
From Verif Require Import Outcome Ints Date Calendar Fx ForwardPoints YieldCurve FxForward Swap Normal BlackScholes VolSurface.
Open Scope R_scope.

(** src/derivatives/interestrate/basic.rs:11-15  enum CapFloorKind *)
Inductive cap_kind : Set := Cap | Floor.
(** src/derivatives/interestrate/basic.rs:17-31  enum CapStyle *)
Inductive cap_style : Set := ForwardLooking | BackwardCompounded.

(** src/derivatives/interestrate/basic.rs:37-60  caplet_total_variance *)
Definition caplet_total_variance (style : cap_style) (sigma yf_start yf_end : R) : R :=
  if Rle_dec yf_end 0 then 0
  else
    let sig2 := sigma * sigma in
    match style with
    | ForwardLooking => sig2 * Rmax yf_start 0
    | BackwardCompounded =>
        let te_minus_ts := yf_end - yf_start in
        if Rle_dec 0 yf_start then sig2 * (yf_start + te_minus_ts / 3)
        else sig2 * yf_end ^ 3 / (3 * te_minus_ts * te_minus_ts)
    end.

(** src/markets/interestrate/volsurface.rs:46-56  struct CapQuote.  Simplification:
    the currency is never read. *)
Record cap_quote := {
  cq_strike : R; cq_notional : R; cq_direction : direction; cq_kind : cap_kind; cq_style : cap_style;
  cq_schedule : list accrual; cq_day_counter : day_counter; cq_market_npv : R }.

(** src/markets/interestrate/volsurface.rs:59-66  last_accrual_start *)
Definition last_accrual_start (q : cap_quote) : outcome date :=
  match rev (cq_schedule q) with [] => Err EInvalidData | a :: _ => Ok (accrual_start a) end.

(** src/markets/interestrate/volsurface.rs:119-124  struct CapletVolPillar *)
Record caplet_pillar := { cp_expiry : date; cp_nodes : list (R * R) }.

(** src/markets/interestrate/volsurface.rs:240-243  struct StripPoint *)
Record strip_point := { sp_expiry : date; sp_sigma : R }.

(** src/markets/interestrate/volsurface.rs:200-210  the scan of the windows *)
Fixpoint scan_nodes (nodes : list (R * R)) (strike : R) : option R :=
  match nodes with
  | p :: ((q :: _) as r) =>
      if Rle_dec (fst p) strike then
        if Rle_dec strike (fst q) then
          Some (let t := (strike - fst p) / (fst q - fst p) in snd p + t * (snd q - snd p))
        else scan_nodes r strike
      else scan_nodes r strike
  | _ => None
  end.

(** src/markets/interestrate/volsurface.rs:186-213  interpolate_nodes *)
Definition interpolate_nodes (nodes : list (R * R)) (strike : R) : outcome R :=
  match nodes with
  | [] => Err EInvalidData
  | [p] => Ok (snd p)
  | first :: r =>
      let last := List.last r first in
      if Rle_dec strike (fst first) then Ok (snd first)
      else if Rle_dec (fst last) strike then Ok (snd last)
      else Ok (match scan_nodes nodes strike with Some v => v | None => snd last end)
  end.

(** src/markets/interestrate/volsurface.rs:168-181  caplet_volatility.
    Simplification: the surface is its list of pillars; its [valuation_date] field
    is never read. *)
Definition caplet_volatility (pillars : list caplet_pillar) (expiry : date) (strike : R) : outcome R :=
  match pillars with
  | [] => Err EInvalidData
  | first :: r =>
      let p := match find (fun p => (expiry <=? cp_expiry p)%Z) pillars with
               | Some p => p | None => List.last r first end in
      interpolate_nodes (cp_nodes p) strike
  end.

(** src/markets/interestrate/volsurface.rs:402-409  caplet_sigma_for_start *)
Fixpoint caplet_sigma_for_start (start : date) (strip : list strip_point) (fallback : R) : R :=
  match strip with
  | [] => fallback
  | s :: r => if (start <=? sp_expiry s)%Z then sp_sigma s else caplet_sigma_for_start start r fallback
  end.

(** src/markets/interestrate/volsurface.rs:367-397  one caplet of price_cap_with_strip *)
Definition quote_caplet (y : curve) (valuation_date : date) (q : cap_quote) (strip : list strip_point)
    (trial : R) (a : accrual) : outcome R :=
  let sigma := caplet_sigma_for_start (accrual_start a) strip trial in
  let yf_start := yf365 valuation_date (accrual_start a) in
  let yf_end := yf365 valuation_date (accrual_end a) in
  let v := caplet_total_variance (cq_style q) sigma yf_start yf_end in
  do tau <- dc_yf (cq_day_counter q) (accrual_start a) (accrual_end a);
  do df_start <- discount y (accrual_start a);
  do df_end <- discount y (accrual_end a);
  do df_pay <- discount y (pay_date a);
  let forward := (df_start / df_end - 1) / tau in
  let opt := match cq_kind q with
             | Cap => bachelier_call forward (cq_strike q) v
             | Floor => bachelier_put forward (cq_strike q) v
             end in
  Ok (sign (cq_direction q) * cq_notional q * tau * df_pay * opt).

(** src/markets/interestrate/volsurface.rs:357-400  price_cap_with_strip *)
Definition price_cap_with_strip (y : curve) (valuation_date : date) (q : cap_quote) (strip : list strip_point)
    (trial : R) : outcome R :=
  sum_pv (quote_caplet y valuation_date q strip trial) 0 (cq_schedule q).

(** The key of the sort at line 313 *)
Definition quote_key (valuation_date : date) (q : cap_quote) : Z :=
  match last_accrual_start q with Ok d => d | _ => valuation_date end.

Section Strip.
  (** [sort]: [slice::sort_by_key] on quotes (Sorting.v).  [sort_dates]: [slice::sort]
      on dates.  [brent lo hi f]: [roots::find_root_brent] with SimpleConvergency
      {eps: 1e-10, max_iter: 200}; a failure is Err.  Where pricing fails the code
      hands the root finder NaN; here the function handed over is undefined there
      and the root finder's contract says nothing. *)
  Context (sort : list cap_quote -> list cap_quote) (sort_dates : list date -> list date)
          (brent : R -> R -> (R -> outcome R) -> outcome R).

  (** src/markets/interestrate/volsurface.rs:321-350  the loop of strip_one_strike *)
  Fixpoint strip_loop (y : curve) (valuation_date : date) (strip : list strip_point) (quotes : list cap_quote)
    : outcome (list strip_point) :=
    match quotes with
    | [] => Ok strip
    | q :: r =>
        do last_start <- last_accrual_start q;
        if match rev strip with [] => false | last :: _ => (last_start <=? sp_expiry last)%Z end
        then strip_loop y valuation_date strip r
        else
          do sigma <- brent (/ 10 ^ 5) (1 / 10)
            (fun x => do npv <- price_cap_with_strip y valuation_date q strip x; Ok (npv - cq_market_npv q));
          strip_loop y valuation_date (strip ++ [{| sp_expiry := last_start; sp_sigma := sigma |}]) r
    end.

  (** src/markets/interestrate/volsurface.rs:307-352  strip_one_strike *)
  Definition strip_one_strike (y : curve) (valuation_date : date) (quotes : list cap_quote) : outcome (list strip_point) :=
    strip_loop y valuation_date [] (sort quotes).

  (** src/markets/interestrate/volsurface.rs:253-263  the grouping by strike *)
  Fixpoint add_to_group (groups : list (R * list cap_quote)) (q : cap_quote) : list (R * list cap_quote) :=
    match groups with
    | [] => [(cq_strike q, [q])]
    | (k, qs) :: r => if Rlt_dec (Rabs (k - cq_strike q)) (/ 10 ^ 12) then (k, qs ++ [q]) :: r
                      else (k, qs) :: add_to_group r q
    end.
  (** src/markets/interestrate/volsurface.rs:253-267  the groups in strike order *)
  Definition group_quotes (quotes : list cap_quote) : list (R * list cap_quote) :=
    rsort fst (fold_left add_to_group quotes []).

  (** [Vec::dedup] *)
  Fixpoint dedup (l : list date) : list date :=
    match l with
    | a :: ((b :: _) as r) => if (a =? b)%Z then dedup r else a :: dedup r
    | _ => l
    end.

  (** [rfind] *)
  Definition rfind (p : strip_point -> bool) (l : list strip_point) : option strip_point := find p (rev l).

  (** src/markets/interestrate/volsurface.rs:286-294  the nodes of one pillar *)
  Fixpoint pillar_nodes (columns : list (R * list strip_point)) (exp : date) : list (R * R) :=
    match columns with
    | [] => []
    | (k, strip) :: r =>
        match rfind (fun p => (sp_expiry p <=? exp)%Z) strip with
        | Some p => (k, sp_sigma p) :: pillar_nodes r exp
        | None => pillar_nodes r exp
        end
    end.

  (** src/markets/interestrate/volsurface.rs:247-301  strip_caplet_vols *)
  Definition strip_caplet_vols (y : curve) (valuation_date : date) (quotes : list cap_quote) : outcome (list caplet_pillar) :=
    do columns <- omapM (fun g => do s <- strip_one_strike y valuation_date (snd g); Ok (fst g, s)) (group_quotes quotes);
    let all_expiries := dedup (sort_dates (flat_map (fun c => map sp_expiry (snd c)) columns)) in
    Ok (flat_map (fun exp =>
          let nodes := rsort fst (pillar_nodes columns exp) in
          match nodes with [] => [] | _ => [{| cp_expiry := exp; cp_nodes := nodes |}] end) all_expiries).
End Strip.

(** src/derivatives/interestrate/cap.rs:39-50  struct CapFloor, as far as it is read *)
Record cap_floor := {
  cf_direction : direction; cf_kind : cap_kind; cf_style : cap_style; cf_currency : currency;
  cf_notional : R; cf_strike : R; cf_valuation_date : date; cf_schedule : list accrual; cf_day_counter : day_counter }.

(** src/derivatives/interestrate/cap.rs:61-112  caplet_market and the body of the
    loop of pv_under_shift *)
Definition caplet_pv (c : cap_floor) (y : curve) (vs : list caplet_pillar) (rate_shift_bp vol_shift_bp : R) (a : accrual)
  : outcome R :=
  do tau <- dc_yf (cf_day_counter c) (accrual_start a) (accrual_end a);
  do df_start <- shifted_discount y (accrual_start a) rate_shift_bp;
  do df_end <- shifted_discount y (accrual_end a) rate_shift_bp;
  do df_pay <- shifted_discount y (pay_date a) rate_shift_bp;
  let forward := (df_start / df_end - 1) / tau in
  let yf_start := yf365 (cf_valuation_date c) (accrual_start a) in
  let yf_end := yf365 (cf_valuation_date c) (accrual_end a) in
  do sigma_base <- caplet_volatility vs (accrual_start a) (cf_strike c);
  let sigma := sigma_base + vol_shift_bp * (1 / 10000) in
  let variance := caplet_total_variance (cf_style c) sigma yf_start yf_end in
  let opt := match cf_kind c with
             | Cap => bachelier_call forward (cf_strike c) variance
             | Floor => bachelier_put forward (cf_strike c) variance
             end in
  Ok (sign (cf_direction c) * cf_notional c * tau * df_pay * opt).

(** src/derivatives/interestrate/cap.rs:95-113  pv_under_shift *)
Definition cap_pv (c : cap_floor) (y : curve) (vs : list caplet_pillar) (rate_shift_bp vol_shift_bp : R) : outcome R :=
  sum_pv (caplet_pv c y vs rate_shift_bp vol_shift_bp) 0 (cf_schedule c).

(** src/derivatives/interestrate/cap.rs:124-129  unpack; [None] is a market context
    without a cap surface *)
Definition cap_unpack (vs : option (list caplet_pillar)) : outcome (list caplet_pillar) :=
  match vs with Some v => Ok v | None => Err EInvalidData end.
(** src/derivatives/interestrate/cap.rs:132-139  mtm *)
Definition cap_mtm (c : cap_floor) (y : curve) (vs : option (list caplet_pillar)) : outcome currency_value :=
  do vs <- cap_unpack vs;
  do pv <- cap_pv c y vs 0 0;
  Ok (cf_currency c, pv).

(** src/derivatives/interestrate/cap.rs:145-150  dv01 *)
Definition cap_dv01 (c : cap_floor) (y : curve) (vs : option (list caplet_pillar)) : outcome R :=
  do vs <- cap_unpack vs;
  do base <- cap_pv c y vs 0 0;
  do up <- cap_pv c y vs 1 0;
  Ok (up - base).

(** src/derivatives/interestrate/cap.rs:154-167  gamma and 182-190 *)
Definition cap_gamma (c : cap_floor) (y : curve) (vs : option (list caplet_pillar)) (bp : R) (m : shift_mode) : outcome R :=
  match m with
  | Zeros =>
      do vs <- cap_unpack vs;
      do base <- cap_pv c y vs 0 0;
      do up <- cap_pv c y vs bp 0;
      do down <- cap_pv c y vs (- bp) 0;
      Ok (up + down - 2 * base)
  | _ => Err EInvalidData
  end.

(** src/derivatives/interestrate/cap.rs:174-179  vega *)
Definition cap_vega (c : cap_floor) (y : curve) (vs : option (list caplet_pillar)) (vol_shift_bp : R) : outcome R :=
  do vs <- cap_unpack vs;
  do base <- cap_pv c y vs 0 0;
  do up <- cap_pv c y vs 0 vol_shift_bp;
  Ok (up - base).

(** src/derivatives/interestrate/cap.rs:196-242  one term of analytic_vega_1bp, which
    no caller uses; [continue] adds nothing *)
Definition caplet_vega (c : cap_floor) (y : curve) (vs : list caplet_pillar) (a : accrual) : outcome R :=
  do tau <- dc_yf (cf_day_counter c) (accrual_start a) (accrual_end a);
  do df_start <- shifted_discount y (accrual_start a) 0;
  do df_end <- shifted_discount y (accrual_end a) 0;
  do df_pay <- shifted_discount y (pay_date a) 0;
  let forward := (df_start / df_end - 1) / tau in
  let yf_start := yf365 (cf_valuation_date c) (accrual_start a) in
  let yf_end := yf365 (cf_valuation_date c) (accrual_end a) in
  do sigma <- caplet_volatility vs (accrual_start a) (cf_strike c);
  let variance := caplet_total_variance (cf_style c) (sigma + 0 * (1 / 10000)) yf_start yf_end in
  if Rle_dec variance 0 then Ok 0
  else if Rle_dec sigma 0 then Ok 0
  else
    let t_var := match cf_style c with
                 | ForwardLooking => Rmax yf_start 0
                 | BackwardCompounded =>
                     let te_minus_ts := yf_end - yf_start in
                     if Rle_dec 0 yf_start then yf_start + te_minus_ts / 3
                     else yf_end ^ 3 / (3 * te_minus_ts * te_minus_ts)
                 end in
    let dv_dsigma := 2 * sigma * t_var in
    let vega_per_v := bachelier_vega_variance forward (cf_strike c) variance in
    Ok (sign (cf_direction c) * cf_notional c * tau * df_pay * vega_per_v * dv_dsigma * (1 / 10000)).
(** src/derivatives/interestrate/cap.rs:196-242  analytic_vega_1bp *)
Definition analytic_vega_1bp (c : cap_floor) (y : curve) (vs : list caplet_pillar) : outcome R :=
  sum_pv (caplet_vega c y vs) 0 (cf_schedule c).

(** src/derivatives/interestrate/basic.rs:130-137  modified_duration *)
Definition cap_modified_duration (c : cap_floor) (y : curve) (vs : option (list caplet_pillar)) : outcome R :=
  do (_, pv) <- cap_mtm c y vs;
  if Rlt_dec (Rabs pv) (/ 10 ^ 12) then Ok 0
  else do dv01 <- cap_dv01 c y vs; Ok (- dv01 * 10000 / pv).
