(** The FX volatility surface (real arithmetic). *)
From Coq Require Import ZArith Bool List Reals Lra Ranalysis5.
From Coquelicot Require Import Coquelicot.
Import ListNotations.
From Verif Require Import Outcome Date Sorting ForwardPoints YieldCurve Normal NormalFacts.
Open Scope R_scope.

(** A quantile of the standard normal distribution: for [0 < p < 1] there is an
    [x] with [cdf x = p]; it is unique because [cdf] increases. *)
Lemma quantile_exists (p : R) : 0 < p < 1 -> { x : R | cdf x = p }.
Proof.
  intros [P0 P1]. set (X := 1 + 2 / p). set (Y := 1 + 2 / (1 - p)).
  assert (HX : 0 < 2 / p) by (apply Rdiv_lt_0_compat; lra).
  assert (HY : 0 < 2 / (1 - p)) by (apply Rdiv_lt_0_compat; lra).
  assert (T : forall e, 0 < e -> 1 - cdf (1 + 2 / e) < e).
  { intros e He. assert (0 < 2 / e) by (apply Rdiv_lt_0_compat; lra).
    pose proof (cdf_tail (1 + 2 / e) ltac:(lra)) as A. pose proof (exp_sq_le (1 + 2 / e) ltac:(lra)) as B.
    assert (C : 2 / (1 + 2 / e) < e).
    { apply (Rmult_lt_reg_r (1 + 2 / e)); [lra|]. unfold Rdiv at 1. rewrite Rmult_assoc, Rinv_l, Rmult_1_r by lra.
      replace (e * (1 + 2 / e)) with (e + 2) by (field; lra). lra. }
    lra. }
  pose proof (T p P0) as TX. pose proof (T (1 - p) ltac:(lra)) as TY. fold X in TX. fold Y in TY.
  assert (A : cdf (- X) < p) by (rewrite cdf_opp; lra).
  destruct (IVT_interv (fun x => cdf x - p) (- X) Y) as (x & _ & E).
  - intros x _. apply derivable_continuous_pt. exists (pdf x). apply is_derive_Reals.
    evar_last; [apply (@is_derive_minus R_AbsRing R_NormedModule); [apply is_derive_cdf|apply @is_derive_const]|].
    unfold minus, plus, opp, zero; cbn. ring.
  - unfold X, Y. lra.
  - lra.
  - lra.
  - exists x. lra.
Qed.

(** src/math/normal.rs:24-32  inverse_cdf.  Simplification: statrs' quantile
    approximation is the exact quantile. *)
Definition inverse_cdf (p : R) : outcome R :=
  match Rlt_dec 0 p with
  | left A => match Rlt_dec p 1 with
              | left B => Ok (proj1_sig (quantile_exists p (conj A B)))
              | right _ => Panic PAssert
              end
  | right _ => Panic PAssert
  end.

(** [slice::sort_by] with [partial_cmp] on real keys.  The standard library's sort
    is stable, so it is this function. *)
Fixpoint rinsert {A} (key : A -> R) (a : A) (l : list A) : list A :=
  match l with
  | [] => [a]
  | b :: r => if Rle_dec (key a) (key b) then a :: b :: r else b :: rinsert key a r
  end.
Definition rsort {A} (key : A -> R) (l : list A) : list A := fold_right (rinsert key) [] l.

(** Indexing a slice. *)
Definition oindex {A} (l : list A) (i : nat) : outcome A :=
  match nth_error l i with Some a => Ok a | None => Panic PIndex end.

(** src/markets/forex/quotes/volsurface.rs:51-64  enum FXVolQuote *)
Inductive vol_quote : Type :=
| QAtm (vol : R)
| QCall (delta vol : R)
| QPut (delta vol : R)
| QRiskReversal (delta vol : R)
| QButterfly (delta vol : R).

(** src/markets/forex/quotes/volsurface.rs:68-74  struct FXDeltaVolPillar *)
Record vol_pillar := { vp_expiry : date; vp_forward : R; vp_quotes : list vol_quote }.

(** src/markets/forex/quotes/volsurface.rs:155-173  struct SmileSection *)
Record smile := {
  sm_expiry : date; sm_year_fraction : R; sm_forward : R; sm_sigma_ref : R;
  sm_a : R; sm_b : R; sm_c : R; sm_knots : list (R * R); sm_min : R; sm_max : R }.

(** src/markets/forex/quotes/volsurface.rs:177-182  struct DeltaPair *)
Record delta_pair := { dp_delta : R; dp_call : R; dp_put : R }.

(** src/markets/forex/quotes/volsurface.rs:384-390  struct PartialDelta *)
Record partial_delta := { pd_call : option R; pd_put : option R; pd_rr : option R; pd_bf : option R }.
Definition no_quotes : partial_delta := {| pd_call := None; pd_put := None; pd_rr := None; pd_bf := None |}.

(** src/markets/forex/quotes/volsurface.rs:320-328  find_or_insert, followed by the
    assignment [f] to the entry found. *)
Fixpoint update_bucket (buckets : list (R * partial_delta)) (delta : R) (f : partial_delta -> partial_delta)
  : list (R * partial_delta) :=
  match buckets with
  | [] => [(delta, f no_quotes)]
  | (d, p) :: r => if Rlt_dec (Rabs (d - delta)) (/ 10 ^ 9) then (d, f p) :: r else (d, p) :: update_bucket r delta f
  end.

(** src/markets/forex/quotes/volsurface.rs:343-355  the four assignments *)
Definition set_call (v : R) (p : partial_delta) : partial_delta :=
  {| pd_call := Some v; pd_put := pd_put p; pd_rr := pd_rr p; pd_bf := pd_bf p |}.
Definition set_put (v : R) (p : partial_delta) : partial_delta :=
  {| pd_call := pd_call p; pd_put := Some v; pd_rr := pd_rr p; pd_bf := pd_bf p |}.
Definition set_rr (v : R) (p : partial_delta) : partial_delta :=
  {| pd_call := pd_call p; pd_put := pd_put p; pd_rr := Some v; pd_bf := pd_bf p |}.
Definition set_bf (v : R) (p : partial_delta) : partial_delta :=
  {| pd_call := pd_call p; pd_put := pd_put p; pd_rr := pd_rr p; pd_bf := Some v |}.

(** src/markets/forex/quotes/volsurface.rs:422-430  validate_delta *)
Definition validate_delta (delta : R) : outcome unit :=
  if Rlt_dec 0 delta then if Rlt_dec delta (1 / 2) then Ok tt else Err EInvalidData else Err EInvalidData.

(** src/markets/forex/quotes/volsurface.rs:330-358  the loop over the quotes *)
Fixpoint collect_quotes (atm : option R) (buckets : list (R * partial_delta)) (quotes : list vol_quote)
  : outcome (option R * list (R * partial_delta)) :=
  match quotes with
  | [] => Ok (atm, buckets)
  | QAtm v :: r => match atm with Some _ => Err EInvalidData | None => collect_quotes (Some v) buckets r end
  | QCall d v :: r => do _ <- validate_delta d; collect_quotes atm (update_bucket buckets d (set_call v)) r
  | QPut d v :: r => do _ <- validate_delta d; collect_quotes atm (update_bucket buckets d (set_put v)) r
  | QRiskReversal d v :: r => do _ <- validate_delta d; collect_quotes atm (update_bucket buckets d (set_rr v)) r
  | QButterfly d v :: r => do _ <- validate_delta d; collect_quotes atm (update_bucket buckets d (set_bf v)) r
  end.

(** src/markets/forex/quotes/volsurface.rs:392-420  resolve_partial *)
Definition resolve_partial (delta : R) (p : partial_delta) (atm_vol : R) : outcome delta_pair :=
  match pd_call p, pd_put p with
  | Some c, Some q => Ok {| dp_delta := delta; dp_call := c; dp_put := q |}
  | _, _ =>
      match pd_rr p, pd_bf p with
      | Some rr, Some bf => Ok {| dp_delta := delta; dp_call := atm_vol + bf + 1 / 2 * rr;
                                  dp_put := atm_vol + bf - 1 / 2 * rr |}
      | _, _ => Err EInvalidData
      end
  end.

(** src/markets/forex/quotes/volsurface.rs:314-382  normalise_quotes *)
Definition normalise_quotes (quotes : list vol_quote) : outcome (R * list delta_pair) :=
  do (atm, buckets) <- collect_quotes None [] quotes;
  match atm with
  | None => Err EInvalidData
  | Some atm_vol =>
      do pairs <- omapM (fun '(d, p) => resolve_partial d p atm_vol) buckets;
      let pairs := rsort dp_delta pairs in
      match pairs with
      | [] => Err EInvalidData
      | _ => Ok (atm_vol, pairs)
      end
  end.

(** src/markets/forex/quotes/volsurface.rs:436-438  atm_dns_strike *)
Definition atm_dns_strike (sigma forward year_fraction : R) : R :=
  forward * exp (1 / 2 * sigma * sigma * year_fraction).
(** src/markets/forex/quotes/volsurface.rs:441-445  strike_from_call_delta *)
Definition strike_from_call_delta (delta sigma forward sqrt_t : R) : outcome R :=
  do d1 <- inverse_cdf delta;
  Ok (forward * exp (1 / 2 * sigma * sigma * sqrt_t * sqrt_t - d1 * sigma * sqrt_t)).
(** src/markets/forex/quotes/volsurface.rs:448-452  strike_from_put_delta *)
Definition strike_from_put_delta (delta sigma forward sqrt_t : R) : outcome R :=
  do d1 <- inverse_cdf (1 - delta);
  Ok (forward * exp (1 / 2 * sigma * sigma * sqrt_t * sqrt_t - d1 * sigma * sqrt_t)).

(** src/markets/forex/quotes/volsurface.rs:456-470  fit_quadratic_three_points *)
Definition fit_quadratic (p0 p1 p2 : R * R) : R * R * R :=
  let '(x0, y0) := p0 in let '(x1, y1) := p1 in let '(x2, y2) := p2 in
  let d01 := x0 - x1 in let d02 := x0 - x2 in let d12 := x1 - x2 in
  let denom0 := d01 * d02 in let denom1 := - d01 * d12 in let denom2 := d02 * d12 in
  let a := y0 / denom0 + y1 / denom1 + y2 / denom2 in
  let b := - (y0 * (x1 + x2) / denom0 + y1 * (x0 + x2) / denom1 + y2 * (x0 + x1) / denom2) in
  let c := y0 * (x1 * x2) / denom0 + y1 * (x0 * x2) / denom1 + y2 * (x0 * x1) / denom2 in
  (a, b, c).

(** src/markets/forex/quotes/volsurface.rs:485-492  the scan of the windows *)
Fixpoint scan_windows (knots : list (R * R)) (x : R) : R :=
  match knots with
  | lo :: ((hi :: _) as r) =>
      if Rle_dec (fst lo) x then
        if Rle_dec x (fst hi) then
          let w := (x - fst lo) / (fst hi - fst lo) in snd lo + w * (snd hi - snd lo)
        else scan_windows r x
      else scan_windows r x
  | _ => 0
  end.

(** src/markets/forex/quotes/volsurface.rs:472-493  piecewise_linear_interp *)
Definition piecewise_linear_interp (knots : list (R * R)) (x : R) : R :=
  match knots with
  | [] => 0
  | [k] => snd k
  | first :: r =>
      let last := List.last r first in
      if Rle_dec x (fst first) then snd first
      else if Rle_dec (fst last) x then snd last
      else scan_windows knots x
  end.

(** src/markets/forex/quotes/volsurface.rs:228-236  the test on neighbouring strikes *)
Fixpoint strikes_increase (l : list (R * R)) : bool :=
  match l with
  | p :: ((q :: _) as r) => if Rle_dec (fst q) (fst p) then false else strikes_increase r
  | _ => true
  end.

(** src/markets/forex/quotes/volsurface.rs:185-289  SmileSection::from_pillar *)
Definition from_pillar (p : vol_pillar) (year_fraction : R) : outcome smile :=
  if Rle_dec year_fraction 0 then Err EInvalidData
  else if Rle_dec (vp_forward p) 0 then Err EInvalidData
  else
    let sqrt_t := sqrt year_fraction in
    let f := vp_forward p in
    do (atm_vol, delta_pairs) <- normalise_quotes (vp_quotes p);
    let sigma_ref := 15 / 10 * atm_vol in
    let sorted := rsort dp_delta delta_pairs in
    do puts <- omapM (fun q => do k <- strike_from_put_delta (dp_delta q) (dp_put q) f sqrt_t; Ok (k, dp_put q)) sorted;
    do calls <- omapM (fun q => do k <- strike_from_call_delta (dp_delta q) (dp_call q) f sqrt_t; Ok (k, dp_call q)) (rev sorted);
    let strikes_vols := puts ++ [(atm_dns_strike atm_vol f year_fraction, atm_vol)] ++ calls in
    if strikes_increase strikes_vols then
      let xs := map (fun kv => cdf (ln (f / fst kv) / (sigma_ref * sqrt_t))) strikes_vols in
      let atm_idx := length sorted in
      let hi_idx := (length strikes_vols - 1)%nat in
      do x_lo <- oindex xs 0; do x_atm <- oindex xs atm_idx; do x_hi <- oindex xs hi_idx;
      do p_lo <- oindex strikes_vols 0; do p_atm <- oindex strikes_vols atm_idx; do p_hi <- oindex strikes_vols hi_idx;
      let '(a, b, c) := fit_quadratic (x_lo, snd p_lo) (x_atm, snd p_atm) (x_hi, snd p_hi) in
      let knots := map (fun '(idx, ((k, sigma), x)) =>
          let residual := if (idx =? 0)%nat || (idx =? atm_idx)%nat || (idx =? hi_idx)%nat then 0
                          else sigma - (a * x * x + b * x + c) in
          (ln (k / f), residual))
        (combine (seq 0 (length strikes_vols)) (combine strikes_vols xs)) in
      Ok {| sm_expiry := vp_expiry p; sm_year_fraction := year_fraction; sm_forward := f; sm_sigma_ref := sigma_ref;
            sm_a := a; sm_b := b; sm_c := c; sm_knots := rsort fst knots;
            sm_min := ln (fst p_lo / f); sm_max := ln (fst p_hi / f) |}
    else Err EInvalidData.

(** src/markets/forex/quotes/volsurface.rs:291-302  SmileSection::volatility *)
Definition smile_volatility (s : smile) (strike : R) : R :=
  let d_a := ln (sm_forward s / strike) / (sm_sigma_ref s * sqrt (sm_year_fraction s)) in
  let x := cdf d_a in
  let sigma_q := sm_a s * x * x + sm_b s * x + sm_c s in
  let log_m := ln (strike / sm_forward s) in
  let residual := if Rlt_dec log_m (sm_min s) then 0
                  else if Rlt_dec (sm_max s) log_m then 0
                  else piecewise_linear_interp (sm_knots s) log_m in
  sigma_q + residual.

(** src/markets/forex/quotes/volsurface.rs:78-81  struct FXVolSurface *)
Record vol_surface := { vs_valuation_date : date; vs_smiles : list smile }.

Section Surface.
  (** The standard library's sort and binary search (Sorting.v). *)
  Context (sort : list smile -> list smile) (search : list smile -> Z -> nat + nat).

  (** src/markets/forex/quotes/volsurface.rs:86-105  FXVolSurface::new *)
  Definition surface_new (valuation_date : date) (pillars : list vol_pillar) : outcome vol_surface :=
    match pillars with
    | [] => Err EInvalidData
    | _ =>
        do smiles <- omapM (fun p => from_pillar p (yf365 valuation_date (vp_expiry p))) pillars;
        Ok {| vs_valuation_date := valuation_date; vs_smiles := sort smiles |}
    end.

  (** src/markets/forex/quotes/volsurface.rs:109-147  FXVolSurface::volatility *)
  Definition surface_volatility (v : vol_surface) (expiry : date) (strike : R) : outcome R :=
    if Rle_dec strike 0 then Err EInvalidData
    else
      let target_yf := yf365 (vs_valuation_date v) expiry in
      if Rle_dec target_yf 0 then Err EInvalidData
      else
        match search (vs_smiles v) expiry with
        | inl i => do s <- oindex (vs_smiles v) i; Ok (smile_volatility s strike)
        | inr pos =>
            if (pos =? 0)%nat then do s <- oindex (vs_smiles v) 0; Ok (smile_volatility s strike)
            else if (pos =? length (vs_smiles v))%nat then
              do s <- oindex (vs_smiles v) (pos - 1); Ok (smile_volatility s strike)
            else
              do lo <- oindex (vs_smiles v) (pos - 1);
              do hi <- oindex (vs_smiles v) pos;
              let sigma_lo := smile_volatility lo strike in
              let sigma_hi := smile_volatility hi strike in
              let var_lo := sigma_lo * sigma_lo * sm_year_fraction lo in
              let var_hi := sigma_hi * sigma_hi * sm_year_fraction hi in
              let weight := (target_yf - sm_year_fraction lo) / (sm_year_fraction hi - sm_year_fraction lo) in
              let var_target := var_lo + weight * (var_hi - var_lo) in
              Ok (sqrt (var_target / target_yf))
        end.
End Surface.
