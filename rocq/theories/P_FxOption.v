(** Property C63: the FX vanilla option. *)
From Coq Require Import ZArith Lia Lra Bool List Reals.
From Coquelicot Require Import Coquelicot.
Import ListNotations.
From Verif Require Import Outcome Ints Date DateFacts Calendar Sorting Fx FxFacts ForwardPoints YieldCurve YieldCurveFacts
  FxForward P_ForwardPoints P_YieldCurve P_FxForward Normal NormalFacts BlackScholes BlackFacts P_BlackScholes FxOption.
Open Scope R_scope.

(** The model price per unit of foreign currency, by option type. *)
Definition unit_price (o : option_type) (F K sigma t D : R) : R :=
  match o with Call => bs_call_forward F K sigma t D | Put => bs_put_forward F K sigma t D end.

Definition with_vol (o : fx_option) (v : R) : fx_option :=
  {| fo_direction := fo_direction o; fo_expiry := fo_expiry o; fo_asset := fo_asset o; fo_type := fo_type o;
     fo_notional_currency := fo_notional_currency o; fo_notional := fo_notional o; fo_strike := fo_strike o;
     fo_volatility := v |}.
Definition with_type (o : fx_option) (ty : option_type) : fx_option :=
  {| fo_direction := fo_direction o; fo_expiry := fo_expiry o; fo_asset := fo_asset o; fo_type := ty;
     fo_notional_currency := fo_notional_currency o; fo_notional := fo_notional o; fo_strike := fo_strike o;
     fo_volatility := fo_volatility o |}.

(** What the option's market provides: the forward, the discount factor and the
    time to expiry in years, all valid. *)
Record quoted (sort : list (date * R) -> list (date * R)) (search : list (date * R) -> Z -> nat + nat)
    (oc : bool) (o : fx_option) (m : fx_market) (frn : currency) (points D : R) : Prop := {
  q_frn : frn_currency (fo_asset o) = Ok frn;
  q_points : exists cal, pair_calendar (fo_asset o) = Ok cal /\
             get_forward sort search oc (fm_forwards m) (fo_expiry o) cal = Ok (Some points);
  q_discount : discount (fm_domestic m) (fo_expiry o) = Ok D }.

Lemma var_pos v t : 0 < v -> 0 < t -> 0 < v * v * t.
Proof. intros. repeat apply Rmult_lt_0_compat; assumption. Qed.

Lemma sqrt_var v t : 0 < v -> 0 < t -> sqrt (v * v * t) = v * sqrt t.
Proof. intros. rewrite sqrt_mult, sqrt_square by nra. reflexivity. Qed.

Section C63.
  Context (sort : list (date * R) -> list (date * R)) (search : list (date * R) -> Z -> nat + nat).
  Notation quoted := (quoted sort search).
  Definition outright (o : fx_option) (m : fx_market) (points : R) : R :=
    fm_spot m + points / (if (forward_points_converter (fo_asset o) =? 100)%Z then 100 else 10000).
  Definition years (o : fx_option) (m : fx_market) : R := IZR (fo_expiry o - fm_valuation_date m) / 365.

  Lemma ctx_of oc o m frn pts D : quoted oc o m frn pts D ->
    bs_context sort search oc o m = Ok
      {| bc_forward := outright o m pts; bc_spot := fm_spot m; bc_strike := fo_strike o;
         bc_year_fraction := years o m; bc_discount := D;
         bc_sqrt_v := sqrt (fo_volatility o * fo_volatility o * years o m);
         bc_d1 := (ln (outright o m pts / fo_strike o) + 1 / 2 * (fo_volatility o * fo_volatility o * years o m))
                  / sqrt (fo_volatility o * fo_volatility o * years o m) |}.
  Proof.
    intros [HF (cal & HC & HG) HD]. unfold bs_context. rewrite HC. cbn [obind]. rewrite HG. cbn [obind]. rewrite HD. cbn [obind].
    assert (E : fm_spot m + pts / IZR (forward_points_converter (fo_asset o)) = outright o m pts).
    { unfold outright. destruct (converter_jpy (fo_asset o)) as [[-> _]|[-> _]]; reflexivity. }
    rewrite E. reflexivity.
  Qed.

  Lemma quoted_vol oc o m frn pts D v : quoted oc o m frn pts D -> quoted oc (with_vol o v) m frn pts D.
  Proof. intros [A B C]. constructor; assumption. Qed.
  Lemma quoted_type oc o m frn pts D ty : quoted oc o m frn pts D -> quoted oc (with_type o ty) m frn pts D.
  Proof. intros [A B C]. constructor; assumption. Qed.
  Lemma quoted_spot oc o m frn pts D s : quoted oc o m frn pts D -> quoted oc o (with_spot m s) frn pts D.
  Proof. intros [A B C]. constructor; assumption. Qed.

  (** The premium: the Black price of the foreign amount, converted at spot for a
      foreign notional; a domestic notional buys [notional / strike] foreign.
      It is reported with the sign of a payment: negative for the buyer. *)
Theorem C63_value : forall oc o m frn points D, quoted oc o m frn points D ->
    0 < years o m -> 0 < fo_volatility o ->
    option_mtm sort search oc o m = Ok (fo_notional_currency o,
      - sign (fo_direction o) * unit_price (fo_type o) (outright o m points) (fo_strike o) (fo_volatility o) (years o m) D *
      (if currency_eq_dec (fo_notional_currency o) frn then fo_notional o / fm_spot m else fo_notional o / fo_strike o)).
  Proof.
    intros oc o m frn pts D Q HT HV. unfold option_mtm. rewrite (ctx_of _ _ _ _ _ _ Q). cbn [obind].
    rewrite (q_frn _ _ _ _ _ _ _ _ Q). cbn [obind bc_sqrt_v bc_forward bc_strike bc_discount bc_spot].
    assert (V : 0 < fo_volatility o * fo_volatility o * years o m) by (apply var_pos; assumption).
    rewrite sqrt_sqrt by lra.
    assert (E : black_scholes (outright o m pts) (fo_strike o) (fo_volatility o * fo_volatility o * years o m) D (fo_type o)
      = unit_price (fo_type o) (outright o m pts) (fo_strike o) (fo_volatility o) (years o m) D).
    { unfold unit_price. destruct (fo_type o); apply C35_same_formula; lra. }
    rewrite E. f_equal. f_equal. destruct (currency_eq_dec _ _); unfold Rdiv; ring.
  Qed.

  (** A call less a put is a forward. *)
Theorem C63_parity : forall oc o m frn points D vc vp, quoted oc o m frn points D ->
    0 < years o m -> 0 < fo_volatility o -> fo_notional_currency o = frn -> fo_direction o = Buy ->
    option_mtm sort search oc (with_type o Call) m = Ok (frn, vc) ->
    option_mtm sort search oc (with_type o Put) m = Ok (frn, vp) ->
    vp - vc = D * fo_notional o * (outright o m points - fo_strike o) / fm_spot m.
  Proof.
    intros oc o m frn pts D vc vp Q HT HV HN HB Hc Hp.
    rewrite (C63_value _ _ _ _ _ _ (quoted_type _ _ _ _ _ _ Call Q) HT HV) in Hc.
    rewrite (C63_value _ _ _ _ _ _ (quoted_type _ _ _ _ _ _ Put Q) HT HV) in Hp.
    apply (f_equal (fun x => match x with Ok y => snd y | _ => 0 end)) in Hc, Hp. cbn [snd] in Hc, Hp.
    cbn [with_type fo_notional_currency fo_type fo_direction fo_notional fo_strike fo_volatility] in Hc, Hp.
    destruct (currency_eq_dec (fo_notional_currency o) frn) as [_|N]; [|contradiction]. rewrite HB in Hc, Hp. cbn [sign] in Hc, Hp.
    change (outright (with_type o Call) m pts) with (outright o m pts) in Hc.
    change (outright (with_type o Put) m pts) with (outright o m pts) in Hp.
    change (years (with_type o Call) m) with (years o m) in Hc. change (years (with_type o Put) m) with (years o m) in Hp.
    cbn [unit_price] in Hc, Hp.
    pose proof (parity (outright o m pts) (fo_strike o) (fo_volatility o) (years o m) D) as P.
    rewrite <- Hc, <- Hp.
    transitivity ((bs_call_forward (outright o m pts) (fo_strike o) (fo_volatility o) (years o m) D
      - bs_put_forward (outright o m pts) (fo_strike o) (fo_volatility o) (years o m) D) * (fo_notional o / fm_spot m));
      [ring|rewrite P; unfold Rdiv; ring].
  Qed.

  (** The value of the premium in domestic currency, as a function of spot; it is
      what C63_value reports, times spot for a foreign notional. *)
  Definition premium_at (o : fx_option) (m : fx_market) (points D : R) (s : R) : R :=
    unit_price (fo_type o) (outright o (with_spot m s) points) (fo_strike o) (fo_volatility o) (years o m) D.

  Lemma d1_same o m pts : 0 < years o m -> 0 < fo_volatility o ->
    (ln (outright o m pts / fo_strike o) + 1 / 2 * (fo_volatility o * fo_volatility o * years o m))
      / sqrt (fo_volatility o * fo_volatility o * years o m)
    = dplus (outright o m pts) (fo_strike o) (fo_volatility o * sqrt (years o m)).
  Proof.
    intros HT HV. assert (Q : sqrt (fo_volatility o * fo_volatility o * years o m) = fo_volatility o * sqrt (years o m)).
    { apply sqrt_var; assumption. }
    rewrite Q. unfold dplus. do 2 f_equal.
    rewrite <- (sqrt_sqrt (years o m)) at 1 by lra. field.
  Qed.

  Lemma derive_premium_spot o m pts D :
    0 < outright o m pts -> 0 < fo_strike o -> 0 < years o m -> 0 < fo_volatility o ->
    is_derive (premium_at o m pts D) (fm_spot m)
      (D * (omega (fo_type o) * cdf (omega (fo_type o) * dplus (outright o m pts) (fo_strike o) (fo_volatility o * sqrt (years o m))))).
  Proof.
    intros HF HK HT HV.
    destruct (C35_greeks (outright o m pts) (fo_strike o) (fo_volatility o) (years o m) D HF HK HV HT) as (DC & DP & _).
    assert (E : (ln (outright o m pts / fo_strike o) + fo_volatility o * fo_volatility o * years o m / 2) / (fo_volatility o * sqrt (years o m))
      = dplus (outright o m pts) (fo_strike o) (fo_volatility o * sqrt (years o m))).
    { unfold dplus. do 2 f_equal. rewrite <- (sqrt_sqrt (years o m)) at 1 by lra. field. }
    cbv zeta in DC, DP. rewrite E in DC, DP. set (d := dplus _ _ _) in *.
    set (c := if (forward_points_converter (fo_asset o) =? 100)%Z then 100 else 10000).
    assert (DI : is_derive (fun s => s + pts / c) (fm_spot m) 1) by (auto_derive; [exact I|ring]).
    unfold premium_at, outright. cbn [with_spot fm_spot]. fold c. unfold outright in DC, DP. fold c in DC, DP.
    destruct (fo_type o); cbn [unit_price omega].
    - evar_last; [apply (is_derive_comp (fun F => bs_call_forward F (fo_strike o) (fo_volatility o) (years o m) D) (fun s => s + pts / c)); [exact DC|exact DI]|].
      unfold scal; cbn; unfold mult; cbn. rewrite !Rmult_1_l. reflexivity.
    - evar_last; [apply (is_derive_comp (fun F => bs_put_forward F (fo_strike o) (fo_volatility o) (years o m) D) (fun s => s + pts / c)); [exact DP|exact DI]|].
      unfold scal; cbn; unfold mult; cbn. replace (-1 * d) with (- d) by ring. ring.
  Qed.

  (** [delta] is the derivative of the value by spot with the opposite sign, and
      without the discount factor; for a domestic notional it also leaves out the
      conversion of the notional at the strike. *)
Theorem C63_delta_partial : forall oc o m frn points D, quoted oc o m frn points D ->
    0 < outright o m points -> 0 < fm_spot m -> 0 < fo_strike o -> 0 < years o m -> 0 < fo_volatility o ->
    exists delta value,
      option_delta sort search oc o m = Ok (frn, delta) /\
      (forall s, 0 < s -> option_mtm sort search oc o (with_spot m s) = Ok (fo_notional_currency o, value s)) /\
      (fo_notional_currency o = frn -> is_derive (fun s => s * value s) (fm_spot m) (- (D * delta))) /\
      (fo_notional_currency o <> frn -> is_derive value (fm_spot m) (- (D * delta / fo_strike o))).
  Proof.
    intros oc o m frn pts D Q HF HS HK HT HV.
    exists (fo_notional o * sign (fo_direction o) *
            (omega (fo_type o) * cdf (omega (fo_type o) * dplus (outright o m pts) (fo_strike o) (fo_volatility o * sqrt (years o m))))),
      (fun s => - sign (fo_direction o) * premium_at o m pts D s *
        (if currency_eq_dec (fo_notional_currency o) frn then fo_notional o / s else fo_notional o / fo_strike o)).
    pose proof (derive_premium_spot o m pts D HF HK HT HV) as DP.
    split; [|split; [|split]].
    - unfold option_delta. rewrite (ctx_of _ _ _ _ _ _ Q). cbn [obind bc_d1]. rewrite (q_frn _ _ _ _ _ _ _ _ Q). cbn [obind].
      rewrite d1_same by assumption. reflexivity.
    - intros s Hs. rewrite (C63_value _ _ _ _ _ _ (quoted_spot _ _ _ _ _ _ s Q) HT HV). reflexivity.
    - intros E. destruct (currency_eq_dec _ _) as [_|N]; [|contradiction].
      apply (is_derive_ext_loc (fun s => - sign (fo_direction o) * fo_notional o * premium_at o m pts D s)).
      { apply locally_pos; [exact HS|]. intros s Hs. match goal with |- ?a = ?b => change (@eq R a b) end. field. lra. }
      evar_last; [apply (is_derive_scal (premium_at o m pts D)); exact DP|]. unfold scal; cbn; unfold mult; cbn. ring.
    - intros E. destruct (currency_eq_dec _ _) as [N|_]; [contradiction|].
      apply (is_derive_ext (fun s => - sign (fo_direction o) * (fo_notional o / fo_strike o) * premium_at o m pts D s)).
      { intros s. match goal with |- ?a = ?b => change (@eq R a b) end. ring. }
      evar_last; [apply (is_derive_scal (premium_at o m pts D)); exact DP|]. unfold scal; cbn; unfold mult; cbn. unfold Rdiv. ring.
  Qed.

  (** [gamma] is the derivative of the discounted [delta] by spot. *)
Theorem C63_gamma : forall oc o m frn points D, quoted oc o m frn points D ->
    0 < outright o m points -> 0 < fo_strike o -> 0 < years o m -> 0 < fo_volatility o ->
    exists gamma delta,
      option_gamma sort search oc o m = Ok gamma /\
      (forall s, option_delta sort search oc o (with_spot m s) = Ok (frn, delta s)) /\
      is_derive (fun s => D * delta s) (fm_spot m) gamma.
  Proof.
    intros oc o m frn pts D Q HF HK HT HV.
    pose proof (sqrt_t_pos (fo_volatility o) (years o m) HV HT) as P.
    set (s0 := fo_volatility o * sqrt (years o m)) in *.
    exists (fo_notional o * sign (fo_direction o) *
            (D * pdf (dplus (outright o m pts) (fo_strike o) s0) / (outright o m pts * s0))),
      (fun s => fo_notional o * sign (fo_direction o) *
        (omega (fo_type o) * cdf (omega (fo_type o) * dplus (outright o (with_spot m s) pts) (fo_strike o) s0))).
    assert (QV : sqrt (fo_volatility o * fo_volatility o * years o m) = s0).
    { unfold s0. apply sqrt_var; assumption. }
    split; [|split].
    - unfold option_gamma. rewrite (ctx_of _ _ _ _ _ _ Q). cbn [obind bc_sqrt_v bc_d1 bc_discount bc_forward].
      rewrite d1_same by assumption. rewrite QV. destruct (Rle_dec s0 0); [lra|]. reflexivity.
    - intros s. unfold option_delta. rewrite (ctx_of _ _ _ _ _ _ (quoted_spot _ _ _ _ _ _ s Q)). cbn [obind bc_d1].
      rewrite (q_frn _ _ _ _ _ _ _ _ Q). cbn [obind].
      rewrite (d1_same o (with_spot m s) pts) by assumption. reflexivity.
    - assert (DD : is_derive (fun s => cdf (dplus (outright o (with_spot m s) pts) (fo_strike o) s0)) (fm_spot m)
        (pdf (dplus (outright o m pts) (fo_strike o) s0) / (outright o m pts * s0))).
      { evar_last.
        - apply (is_derive_comp (fun F => cdf (dplus F (fo_strike o) s0)) (fun s => outright o (with_spot m s) pts)).
          + change (outright o (with_spot m (fm_spot m)) pts) with (outright o m pts). apply derive_delta; lra.
          + instantiate (1 := 1). unfold outright. cbn [with_spot fm_spot]. auto_derive; [exact I|ring].
        - unfold scal; cbn; unfold mult; cbn. ring. }
      set (n := fo_notional o * sign (fo_direction o)). destruct (fo_type o); cbn [omega].
      + apply (is_derive_ext (fun s => D * n * cdf (dplus (outright o (with_spot m s) pts) (fo_strike o) s0))).
        { intros s. match goal with |- ?a = ?b => change (@eq R a b) end. rewrite !Rmult_1_l. ring. }
        evar_last; [apply (is_derive_scal (fun s => cdf (dplus (outright o (with_spot m s) pts) (fo_strike o) s0))); exact DD|].
        unfold scal; cbn; unfold mult; cbn. unfold Rdiv. ring.
      + apply (is_derive_ext (fun s => D * n * cdf (dplus (outright o (with_spot m s) pts) (fo_strike o) s0) - D * n)).
        { intros s. match goal with |- ?a = ?b => change (@eq R a b) end. replace (-1 * dplus (outright o (with_spot m s) pts) (fo_strike o) s0)
            with (- dplus (outright o (with_spot m s) pts) (fo_strike o) s0) by ring. rewrite cdf_opp. ring. }
        evar_last.
        * apply (@is_derive_minus R_AbsRing R_NormedModule); [|apply @is_derive_const].
          apply (is_derive_scal (fun s => cdf (dplus (outright o (with_spot m s) pts) (fo_strike o) s0))); exact DD.
        * unfold minus, plus, opp, zero, scal; cbn; unfold mult; cbn. unfold Rdiv. ring.
  Qed.

  (** [vega] is a hundredth of the derivative of the value by volatility, with the
      opposite sign, in either notional currency. *)
Theorem C63_vega_partial : forall oc o m frn points D, quoted oc o m frn points D ->
    0 < outright o m points -> 0 < fo_strike o -> 0 < years o m -> 0 < fo_volatility o ->
    exists vega value,
      option_vega sort search oc o m = Ok vega /\
      (forall v, 0 < v -> option_mtm sort search oc (with_vol o v) m = Ok (fo_notional_currency o, value v)) /\
      is_derive value (fo_volatility o) (- (100 * vega)).
  Proof.
    intros oc o m frn pts D Q HF HK HT HV.
    set (scale := if currency_eq_dec (fo_notional_currency o) frn then fo_notional o / fm_spot m else fo_notional o / fo_strike o).
    exists (sign (fo_direction o) * scale *
            (D * outright o m pts * pdf (dplus (outright o m pts) (fo_strike o) (fo_volatility o * sqrt (years o m))) * sqrt (years o m)) / 100),
      (fun v => - sign (fo_direction o) * unit_price (fo_type o) (outright o m pts) (fo_strike o) v (years o m) D * scale).
    split; [|split].
    - unfold option_vega. rewrite (ctx_of _ _ _ _ _ _ Q). cbn [obind bc_year_fraction bc_d1 bc_discount bc_forward bc_spot bc_strike].
      destruct (Rle_dec (years o m) 0); [lra|]. rewrite (q_frn _ _ _ _ _ _ _ _ Q). cbn [obind]. rewrite d1_same by assumption. reflexivity.
    - intros v Hv. rewrite (C63_value _ _ _ _ _ _ (quoted_vol _ _ _ _ _ _ v Q)); [reflexivity|exact HT|exact Hv].
    - destruct (C35_greeks (outright o m pts) (fo_strike o) (fo_volatility o) (years o m) D HF HK HV HT) as (_ & _ & _ & DC & DP).
      assert (E : (ln (outright o m pts / fo_strike o) + fo_volatility o * fo_volatility o * years o m / 2) / (fo_volatility o * sqrt (years o m))
        = dplus (outright o m pts) (fo_strike o) (fo_volatility o * sqrt (years o m))).
      { unfold dplus. do 2 f_equal. rewrite <- (sqrt_sqrt (years o m)) at 1 by lra. field. }
      cbv zeta in DC, DP. rewrite E in DC, DP. set (d := dplus _ _ _) in *.
      apply (is_derive_ext (fun v => - sign (fo_direction o) * scale * unit_price (fo_type o) (outright o m pts) (fo_strike o) v (years o m) D)).
      { intros v. match goal with |- ?a = ?b => change (@eq R a b) end. ring. }
      evar_last.
      + apply (is_derive_scal (fun v => unit_price (fo_type o) (outright o m pts) (fo_strike o) v (years o m) D)).
        unfold unit_price. destruct (fo_type o); [exact DC|exact DP].
      + unfold scal; cbn; unfold mult; cbn. field.
  Qed.

Theorem C63_expired : forall oc o m cal, pair_calendar (fo_asset o) = Ok cal ->
    get_forward sort search oc (fm_forwards m) (fo_expiry o) cal = Ok None ->
    option_mtm sort search oc o m = Err ETradeExpired /\ option_delta sort search oc o m = Err ETradeExpired /\
    option_gamma sort search oc o m = Err ETradeExpired /\ option_vega sort search oc o m = Err ETradeExpired.
  Proof.
    intros oc o m cal C G. assert (E : bs_context sort search oc o m = Err ETradeExpired).
    { unfold bs_context. rewrite C. cbn [obind]. rewrite G. reflexivity. }
    unfold option_mtm, option_delta, option_gamma, option_vega. rewrite E. cbn [obind]. repeat split.
  Qed.
End C63.
Print Assumptions C63_value.
Print Assumptions C63_parity.
Print Assumptions C63_delta_partial.
Print Assumptions C63_gamma.
Print Assumptions C63_vega_partial.
Print Assumptions C63_expired.

(** The market of C34 and an option bought on it. *)
Definition C63_option : fx_option :=
  {| fo_direction := Buy; fo_expiry := of_ymd 2023 11 15; fo_asset := EURUSD; fo_type := Call;
     fo_notional_currency := EUR; fo_notional := 1000; fo_strike := 1; fo_volatility := 1 / 10 |}.
Example C63_witness :
  quoted (isort_by fst) (lsearch_by fst) true C63_option C34_market EUR 10 (exp (- (5 / 100) * (33 / 365))) /\
  outright C63_option C34_market 10 = 1 + 10 / 10000 /\ years C63_option C34_market = 33 / 365 /\
  0 < years C63_option C34_market /\ 0 < fo_volatility C63_option /\ 0 < fo_strike C63_option /\ 0 < fm_spot C34_market.
Proof.
  assert (Y : years C63_option C34_market = 33 / 365).
  { unfold years. replace (fo_expiry C63_option - fm_valuation_date C34_market)%Z with 33%Z by (vm_compute; reflexivity). reflexivity. }
  split; [|split; [reflexivity|split; [exact Y|]]].
  - constructor; [reflexivity| |exact C34_df].
    destruct C34_witness_value as (cal & C & _). exists cal. split; [exact C|]. apply C34_points. exact C.
  - rewrite Y. cbn. repeat split; lra.
Qed.

(** The claims "delta is the derivative by spot" and "vega is the derivative by
    volatility per percent" of the reported value are false. *)
Theorem C63_delta_refuted :
  ~ (forall sort search oc o m frn delta (value : R -> R), sorts_by fst sort -> searches_by fst search ->
     0 < fm_spot m -> 0 < fo_strike o -> 0 < fo_volatility o -> fo_notional_currency o = frn ->
     option_delta sort search oc o m = Ok (frn, delta) ->
     (forall s, 0 < s -> option_mtm sort search oc o (with_spot m s) = Ok (frn, value s)) ->
     is_derive (fun s => s * value s) (fm_spot m) delta).
Proof.
  intros H. destruct C63_witness as (Q & EF & EY & HY & HV & HK & HS).
  assert (HF : 0 < outright C63_option C34_market 10) by (rewrite EF; lra).
  destruct (C63_delta_partial _ _ _ _ _ _ _ _ Q HF HS HK HY HV) as (delta & value & E1 & E2 & E3 & _).
  specialize (E3 eq_refl).
  specialize (H _ _ true C63_option C34_market EUR delta value (isort_sorts fst) (lsearch_searches fst) HS HK HV eq_refl E1 E2).
  apply is_derive_unique in H, E3. rewrite H in E3.
  assert (P : 0 < delta).
  { unfold option_delta in E1. rewrite (ctx_of _ _ _ _ _ _ _ _ Q) in E1. cbn [obind bc_d1 C63_option fo_asset frn_currency] in E1.
    apply (f_equal (fun x => match x with Ok y => snd y | _ => 0 end)) in E1. cbn [frn_currency obind snd fo_notional fo_direction fo_type sign omega] in E1.
    match type of E1 with match ?x with _ => _ end = _ => change x with (Ok EUR) in E1 | _ => idtac end.
    cbv beta iota in E1. cbn in E1. rewrite <- E1.
    match goal with |- context [cdf ?d] => pose proof (cdf_bounds d) end. lra. }
  pose proof (exp_pos (- (5 / 100) * (33 / 365))). nra.
Qed.
Print Assumptions C63_delta_refuted.

Theorem C63_vega_refuted :
  ~ (forall sort search oc o m vega (value : R -> R), sorts_by fst sort -> searches_by fst search ->
     0 < fm_spot m -> 0 < fo_strike o -> 0 < fo_volatility o ->
     option_vega sort search oc o m = Ok vega ->
     (forall v, 0 < v -> option_mtm sort search oc (with_vol o v) m = Ok (fo_notional_currency o, value v)) ->
     is_derive value (fo_volatility o) (100 * vega)).
Proof.
  intros H. destruct C63_witness as (Q & EF & EY & HY & HV & HK & HS).
  assert (HF : 0 < outright C63_option C34_market 10) by (rewrite EF; lra).
  destruct (C63_vega_partial _ _ _ _ _ _ _ _ Q HF HK HY HV) as (vega & value & E1 & E2 & E3).
  specialize (H _ _ true C63_option C34_market vega value (isort_sorts fst) (lsearch_searches fst) HS HK HV E1 E2).
  apply is_derive_unique in H, E3. rewrite H in E3.
  assert (vega = 0) by lra.
  unfold option_vega in E1. rewrite (ctx_of _ _ _ _ _ _ _ _ Q) in E1. cbn [obind bc_d1 bc_year_fraction bc_discount bc_forward bc_spot bc_strike] in E1.
  destruct (Rle_dec (years C63_option C34_market) 0); [lra|]. rewrite (q_frn _ _ _ _ _ _ _ _ Q) in E1. cbn [obind] in E1.
  cbn [C63_option fo_notional_currency fo_direction sign fo_notional C34_market fm_spot] in E1.
  destruct (currency_eq_dec EUR EUR) as [_|N]; [|congruence].
  apply (f_equal (fun x => match x with Ok y => y | _ => 0 end)) in E1. cbv beta iota in E1. fold C34_market C63_option in E1.
  match type of E1 with context [pdf ?d] => pose proof (pdf_pos d) as PP; set (p := pdf d) in * end.
  pose proof (exp_pos (- (5 / 100) * (33 / 365))) as PE. pose proof (sqrt_lt_R0 _ HY) as PY.
  rewrite H0 in E1.
  assert (0 < exp (- (5 / 100) * (33 / 365)) * outright C63_option C34_market 10 * p * sqrt (years C63_option C34_market))
    by (apply Rmult_lt_0_compat; [apply Rmult_lt_0_compat; [apply Rmult_lt_0_compat; [exact PE|exact HF]|exact PP]|exact PY]).
  lra.
Qed.
Print Assumptions C63_vega_refuted.
