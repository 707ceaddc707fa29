(** Properties C34 and C58: the FX forward. *)
From Coq Require Import ZArith Lia Lra Bool List Reals.
Import ListNotations.
From Verif Require Import Outcome Ints Date DateFacts Calendar CalendarSpec CalendarFacts Sorting Shipped
  Fx FxFacts ForwardPoints ForwardPointsFacts YieldCurve YieldCurveSpec YieldCurveFacts FxForward FxForwardFacts
  P_ForwardPoints P_YieldCurve.
Open Scope Z_scope.

Definition with_notional (f : fx_forward) (ccy : currency) (n : R) (d : direction) : fx_forward :=
  {| ff_direction := d; ff_expiry := ff_expiry f; ff_asset := ff_asset f;
     ff_notional_currency := ccy; ff_notional := n; ff_strike := ff_strike f |}.
Definition with_strike (f : fx_forward) (k : R) : fx_forward :=
  {| ff_direction := ff_direction f; ff_expiry := ff_expiry f; ff_asset := ff_asset f;
     ff_notional_currency := ff_notional_currency f; ff_notional := ff_notional f; ff_strike := k |}.
Definition with_spot (m : fx_market) (s : R) : fx_market :=
  {| fm_valuation_date := fm_valuation_date m; fm_spot := s; fm_domestic := fm_domestic m;
     fm_foreign := fm_foreign m; fm_forwards := fm_forwards m |}.
Definition opposite (d : direction) : direction := match d with Buy => Sell | Sell => Buy end.

Section C34.
  Context (sort : list (date * R) -> list (date * R)) (search : list (date * R) -> Z -> nat + nat).
  Notation mtm := (forward_mtm sort search).

  (** Buying [N] units of foreign currency forward at [K] is worth the
      discounted difference between what they fetch and what is paid, in
      domestic currency. *)
Theorem C34_value : forall oc (f : fx_forward) (m : fx_market) (cal : calendar) (dom : currency) (pts df : R),
    frn_currency (ff_asset f) = Ok (ff_notional_currency f) -> dom_currency (ff_asset f) = Ok dom ->
    pair_calendar (ff_asset f) = Ok cal -> ff_direction f = Buy ->
    get_forward sort search oc (fm_forwards m) (ff_expiry f) cal = Ok (Some pts) ->
    discount (fm_domestic m) (ff_expiry f) = Ok df ->
    let F := (fm_spot m + pts / (if forward_points_converter (ff_asset f) =? 100 then 100 else 10000))%R in
    mtm oc f m = Ok (dom, (df * (ff_notional f * F - ff_notional f * ff_strike f))%R).
  Proof.
    intros oc f m cal dom pts df Hn Hd Hc B G P F. apply (mtm_inv sort search oc f m).
    exists cal, (ff_notional_currency f), dom, pts, df. repeat (split; [assumption|]).
    f_equal. unfold foreign_amount. destruct (currency_eq_dec _ _) as [_|N]; [|destruct N; reflexivity].
    rewrite B. cbn [sign]. unfold F.
    destruct (converter_jpy (ff_asset f)) as [[-> _]|[-> _]]; cbn [Z.eqb Pos.eqb]; ring.
  Qed.

Theorem C34_linear : forall oc (f : fx_forward) (m : fx_market) (a b n1 n2 : R) (c : currency) (v1 v2 : R),
    mtm oc (with_notional f (ff_notional_currency f) n1 (ff_direction f)) m = Ok (c, v1) ->
    mtm oc (with_notional f (ff_notional_currency f) n2 (ff_direction f)) m = Ok (c, v2) ->
    mtm oc (with_notional f (ff_notional_currency f) (a * n1 + b * n2) (ff_direction f)) m
    = Ok (c, (a * v1 + b * v2)%R).
  Proof.
    intros oc f m a b n1 n2 c v1 v2 H1 H2. apply mtm_inv in H1, H2. apply mtm_inv.
    destruct H1 as (cal & frn & dom & pts & df & A1 & A2 & A3 & A4 & A5 & A6).
    destruct H2 as (cal' & frn' & dom' & pts' & df' & B1 & B2 & B3 & B4 & B5 & B6).
    cbn [with_notional ff_asset ff_expiry] in *.
    assert (cal' = cal) by congruence. assert (frn' = frn) by congruence. assert (dom' = dom) by congruence. subst.
    assert (pts' = pts) by congruence. assert (df' = df) by congruence. subst.
    exists cal, frn, dom, pts, df. repeat (split; [assumption|]).
    apply (f_equal fst) in A6 as C1. cbn [fst] in C1. apply (f_equal snd) in A6, B6. cbn [snd] in A6, B6. subst.
    f_equal. unfold foreign_amount. cbn [with_notional ff_notional_currency ff_notional ff_direction ff_strike].
    destruct (currency_eq_dec _ _); [ring|unfold Rdiv; ring].
  Qed.

Theorem C34_antisymmetric : forall oc (f : fx_forward) (m : fx_market) (c : currency) (v : R),
    mtm oc f m = Ok (c, v) ->
    mtm oc (with_notional f (ff_notional_currency f) (ff_notional f) (opposite (ff_direction f))) m = Ok (c, (- v)%R).
  Proof.
    intros oc f m c v H. apply mtm_inv in H. apply mtm_inv.
    destruct H as (cal & frn & dom & pts & df & A1 & A2 & A3 & A4 & A5 & A6).
    exists cal, frn, dom, pts, df. repeat (split; [assumption|]).
    apply (f_equal fst) in A6 as C1. cbn [fst] in C1. apply (f_equal snd) in A6. cbn [snd] in A6. subst. f_equal.
    unfold foreign_amount. cbn [with_notional ff_notional_currency ff_notional ff_direction ff_strike ff_asset].
    destruct (currency_eq_dec _ _), (ff_direction f); cbn [opposite sign]; unfold Rdiv; ring.
  Qed.

  (** Struck at the market forward, the contract is worth nothing, whatever the
      notional currency; conversely a non-trivial contract worth nothing is
      struck at the market forward. *)
Theorem C34_at_market : forall oc (f : fx_forward) (m : fx_market) (cal : calendar) (c : currency) (v pts : R),
    mtm oc f m = Ok (c, v) -> pair_calendar (ff_asset f) = Ok cal ->
    get_forward sort search oc (fm_forwards m) (ff_expiry f) cal = Ok (Some pts) ->
    ff_notional f <> 0%R -> ff_strike f <> 0%R ->
    (v = 0%R <-> ff_strike f = (fm_spot m + pts / IZR (forward_points_converter (ff_asset f)))%R).
  Proof.
    intros oc f m cal c v pts H Hc G Nn Ns. apply mtm_inv in H.
    destruct H as (cal' & frn & dom & pts' & df & A1 & A2 & A3 & A4 & A5 & A6).
    assert (cal' = cal) by congruence. subst. assert (pts' = pts) by congruence. subst.
    apply (f_equal snd) in A6. cbn [snd] in A6. subst.
    apply discount_pos in A5.
    assert (Hf : foreign_amount f frn <> 0%R).
    { unfold foreign_amount. assert (sign (ff_direction f) <> 0)%R by (destruct (ff_direction f); cbn; lra).
      assert (/ ff_strike f <> 0)%R by (apply Rinv_neq_0_compat; assumption).
      destruct (currency_eq_dec _ _); [apply Rmult_integral_contrapositive_currified; assumption|].
      unfold Rdiv. repeat apply Rmult_integral_contrapositive_currified; try assumption. apply Ropp_neq_0_compat. assumption. }
    split.
    - intros H. apply Rmult_integral in H. destruct H as [H|H]; [|lra].
      apply Rmult_integral in H. destruct H as [H|H]; [contradiction|]. lra.
    - intros H. rewrite H. ring.
  Qed.

  (** Buying [N] foreign at [K] is selling [N K] domestic at [K]. *)
Theorem C34_both_notionals : forall oc (f : fx_forward) (m : fx_market) (frn dom : currency) (n : R) (d : direction),
    frn_currency (ff_asset f) = Ok frn -> dom_currency (ff_asset f) = Ok dom -> ff_strike f <> 0%R ->
    mtm oc (with_notional f frn n d) m = mtm oc (with_notional f dom (n * ff_strike f) (opposite d)) m.
  Proof.
    intros oc f m frn dom n d F D K.
    assert (ND : dom <> frn).
    { destruct (pair_halves (ff_asset f)) as (dom' & frn' & D' & F' & N & _). congruence. }
    unfold forward_mtm. cbn [with_notional ff_notional_currency ff_notional ff_direction ff_strike ff_asset ff_expiry].
    destruct (pair_calendar (ff_asset f)) as [cal| |]; cbn [obind]; try reflexivity.
    destruct (get_forward sort search oc (fm_forwards m) (ff_expiry f) cal) as [[pts|]| |]; cbn [obind]; try reflexivity.
    destruct (discount (fm_domestic m) (ff_expiry f)) as [df| |]; cbn [obind]; try reflexivity.
    rewrite F, D. cbn [obind].
    destruct (currency_eq_dec frn frn) as [_|N]; [|congruence].
    destruct (currency_eq_dec dom frn) as [E|_]; [congruence|].
    f_equal. f_equal. generalize (pts / IZR (forward_points_converter (ff_asset f)))%R. intros x.
    destruct d; cbn [opposite sign]; field; assumption.
  Qed.

  (** The value moves with spot by exactly delta times the discount factor. *)
Theorem C34_delta_partial : forall oc (f : fx_forward) (m : fx_market) (c c' : currency) (v delta df s : R),
    mtm oc f m = Ok (c, v) -> forward_delta f m = Ok (c', delta) ->
    discount (fm_domestic m) (ff_expiry f) = Ok df ->
    frn_currency (ff_asset f) = Ok c' /\
    mtm oc f (with_spot m s) = Ok (c, (v + delta * df * (s - fm_spot m))%R).
  Proof.
    intros oc f m c c' v delta df s H HD P. apply mtm_inv in H.
    destruct H as (cal & frn & dom & pts & df' & A1 & A2 & A3 & A4 & A5 & A6).
    assert (df' = df) by congruence. subst.
    apply (f_equal fst) in A6 as C1. cbn [fst] in C1. apply (f_equal snd) in A6. cbn [snd] in A6. subst.
    unfold forward_delta in HD. rewrite A2 in HD. cbn [obind] in HD.
    apply (f_equal (fun o => match o with Ok x => x | _ => (EUR, 0%R) end)) in HD.
    apply (f_equal fst) in HD as C1. cbn [fst] in C1. apply (f_equal snd) in HD. cbn [snd] in HD. subst.
    split; [assumption|]. apply mtm_inv. exists cal, c', dom, pts, df.
    repeat (split; [assumption|]). f_equal. unfold foreign_amount. cbn [with_spot fm_spot]. ring.
  Qed.

  (** No quote for the expiry: the trade is reported expired. *)
Theorem C34_expired : forall oc (f : fx_forward) (m : fx_market) (cal : calendar),
    pair_calendar (ff_asset f) = Ok cal ->
    get_forward sort search oc (fm_forwards m) (ff_expiry f) cal = Ok None -> mtm oc f m = Err ETradeExpired.
  Proof.
    intros oc f m cal C G. unfold forward_mtm. rewrite C. cbn [obind]. rewrite G. reflexivity.
  Qed.
End C34.
Print Assumptions C34_value.
Print Assumptions C34_linear.
Print Assumptions C34_antisymmetric.
Print Assumptions C34_at_market.
Print Assumptions C34_both_notionals.
Print Assumptions C34_delta_partial.
Print Assumptions C34_expired.

(** A concrete market: EURUSD, the quotes of C33_witness at the pair's own
    calendar, and a flat domestic curve at 5%. *)
Definition C34_market : fx_market :=
  {| fm_valuation_date := of_ymd 2023 10 13; fm_spot := 1%R;
     fm_domestic := {| c_valuation_date := of_ymd 2023 10 13;
                       stripped_curves := [pl (of_ymd 2024 10 14) (5 / 100) false] |};
     fm_foreign := two_pillars; fm_forwards := C33_helper |}.
Definition C34_forward : fx_forward :=
  {| ff_direction := Buy; ff_expiry := of_ymd 2023 11 15; ff_asset := EURUSD;
     ff_notional_currency := EUR; ff_notional := 1000%R; ff_strike := (9 / 10)%R |}.
Lemma C34_points : forall cal, pair_calendar EURUSD = Ok cal ->
  get_forward (isort_by fst) (lsearch_by fst) true C33_helper (of_ymd 2023 11 15) cal = Ok (Some 10%R).
Proof.
  intros cal H.
  apply (C33_quoted _ _ true C33_helper (of_ymd 2023 11 15) cal C33_dated).
  - apply isort_sorts.
  - apply lsearch_searches.
  - vm_compute. reflexivity.
  - apply dated_quotes_spec. injection H as <-. unfold C33_helper, C33_dated.
    cbn [fh_quotes fh_valuation_date fh_spot_lag].
    repeat constructor; cbn [fst fq_tenor]; vm_compute; reflexivity.
  - cbn. lia.
  - apply C33_witness.
  - right. right. left. reflexivity.
Qed.
Lemma C34_df : discount (fm_domestic C34_market) (of_ymd 2023 11 15) = Ok (exp (- (5 / 100) * (33 / 365)))%R.
Proof.
  unfold discount.
  rewrite (zero_rate_front (fm_domestic C34_market) (of_ymd 2023 11 15) [] (pl (of_ymd 2024 10 14) (5 / 100) false) []).
  - cbn [obind]. unfold yf365. cbn [fm_domestic C34_market c_valuation_date pl p_zero_rate].
    replace (of_ymd 2023 11 15 - of_ymd 2023 10 13) with 33 by (vm_compute; reflexivity). reflexivity.
  - apply in_range_val. vm_compute. split; discriminate.
  - reflexivity.
  - intros p [].
  - reflexivity.
  - unfold pl. cbn [p_date]. vm_compute. discriminate.
Qed.
Lemma C34_witness_value : exists cal, pair_calendar EURUSD = Ok cal /\
  forward_mtm (isort_by fst) (lsearch_by fst) true C34_forward C34_market
  = Ok (USD, (exp (- (5 / 100) * (33 / 365)) * (1000 * (1 + 10 / 10000) - 1000 * (9 / 10)))%R).
Proof.
  destruct (pair_calendar EURUSD) as [cal| |] eqn:C; [|discriminate..].
  exists cal. split; [reflexivity|].
  apply (C34_value (isort_by fst) (lsearch_by fst) true C34_forward C34_market cal USD 10%R); try reflexivity.
  - exact C.
  - apply C34_points. exact C.
  - exact C34_df.
Qed.

Example C34_witness : exists cal v,
  pair_calendar (ff_asset C34_forward) = Ok cal /\ frn_currency EURUSD = Ok EUR /\ dom_currency EURUSD = Ok USD /\
  get_forward (isort_by fst) (lsearch_by fst) true (fm_forwards C34_market) (ff_expiry C34_forward) cal = Ok (Some 10%R) /\
  forward_mtm (isort_by fst) (lsearch_by fst) true C34_forward C34_market = Ok (USD, v) /\
  ff_notional C34_forward <> 0%R /\ ff_strike C34_forward <> 0%R.
Proof.
  destruct C34_witness_value as (cal & C & V). exists cal. eexists.
  split; [exact C|]. split; [reflexivity|]. split; [reflexivity|]. split; [apply C34_points; exact C|].
  split; [exact V|]. cbn. split; lra.
Qed.

(** The delta claim is false: [delta] leaves out the discount factor. *)
Theorem C34_delta_refuted :
  ~ (forall sort search oc (f : fx_forward) (m : fx_market) (c c' : currency) (v delta s v' : R),
     sorts_by fst sort -> searches_by fst search ->
     forward_mtm sort search oc f m = Ok (c, v) -> forward_delta f m = Ok (c', delta) ->
     forward_mtm sort search oc f (with_spot m s) = Ok (c, v') ->
     (v' - v)%R = (delta * (s - fm_spot m))%R).
Proof.
  intros H. destruct C34_witness_value as (cal & C & V).
  assert (D : forward_delta C34_forward C34_market = Ok (EUR, (1000 * 1)%R)) by reflexivity.
  pose proof (C34_delta_partial (isort_by fst) (lsearch_by fst) true _ _ _ _ _ _ _ 2%R V D C34_df) as [_ V'].
  specialize (H _ _ _ _ _ _ _ _ _ _ _ (isort_sorts fst) (lsearch_searches fst) V D V').
  cbn [C34_market fm_spot] in H.
  assert (E : (exp (- (5 / 100) * (33 / 365)) < 1)%R).
  { rewrite <- exp_0. apply exp_increasing. lra. }
  lra.
Qed.
Print Assumptions C34_delta_refuted.

(** C58 is false: [forward_at] returns the raw points, not spot plus points. *)
Theorem C58_forward_at_refuted :
  ~ (forall sort search oc (m : fx_market) (p : fx_pair) (cal : calendar) (d : date) (pts x : R),
     sorts_by fst sort -> searches_by fst search -> pair_calendar p = Ok cal ->
     get_forward sort search oc (fm_forwards m) d cal = Ok (Some pts) ->
     forward_at sort search oc m d cal = Ok x ->
     x = (fm_spot m + pts / IZR (forward_points_converter p))%R).
Proof.
  intros H. destruct C34_witness_value as (cal & C & _).
  specialize (H (isort_by fst) (lsearch_by fst) true C34_market EURUSD cal (of_ymd 2023 11 15) 10%R 10%R
    (isort_sorts fst) (lsearch_searches fst) C (C34_points cal C)).
  unfold forward_at in H. cbn [C34_market fm_forwards] in H. rewrite (C34_points cal C) in H. cbn [obind] in H.
  specialize (H eq_refl). cbn [fm_spot C34_market forward_points_converter] in H. lra.
Qed.
Print Assumptions C58_forward_at_refuted.

(** What it returns: the interpolated points, and an error outside the quotes. *)
Theorem C58_forward_at_partial : forall sort search oc (m : fx_market) (cal : calendar) (d : date),
  (forall pts, get_forward sort search oc (fm_forwards m) d cal = Ok (Some pts) <->
               forward_at sort search oc m d cal = Ok pts) /\
  (get_forward sort search oc (fm_forwards m) d cal = Ok None -> forward_at sort search oc m d cal = Err EInvalidData).
Proof.
  intros sort search oc m cal d. unfold forward_at.
  destruct (get_forward sort search oc (fm_forwards m) d cal) as [[x|]| |]; cbn [obind];
    (split; [intros pts; split; congruence|congruence]).
Qed.
Print Assumptions C58_forward_at_partial.
