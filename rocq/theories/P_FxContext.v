(** C89: the FX market context, from raw quotes to lookups. *)
From Coq Require Import ZArith Lia Bool List Reals Lra Permutation.
Import ListNotations.
From Verif Require Import Outcome Ints Date DateFacts Calendar CalendarFacts Shipped Sorting Fx FxFacts ForwardPoints ForwardPointsFacts
  YieldCurve YieldCurveSpec YieldCurveFacts FxForward Swap Bootstrap VolSurface VolFacts IrContext FxContext
  P_ForwardPoints P_YieldCurve P_VolSurface P_IrContext P_CapSurface P_Cap.
Open Scope R_scope.
Local Ltac lia := unfold date in *; Lia.lia.

Lemma raw_open sort ss brent oc depth now v spot pair dom frn qs ps x :
  fx_from_raw_quotes sort ss brent oc depth now v spot pair dom frn qs ps = Ok x <->
  exists ds fs s, get_stripped_curve sort brent oc depth now dom = Ok ds /\ get_stripped_curve sort brent oc depth now frn = Ok fs /\
    surface_new ss v ps = Ok s /\
    x = fx_context_new v spot pair {| c_valuation_date := v; stripped_curves := ds |} {| c_valuation_date := v; stripped_curves := fs |} (helper_new v spot qs) s.
Proof.
  unfold fx_from_raw_quotes. split.
  - intros H. apply obind_Ok in H as (ds & E1 & H). apply obind_Ok in H as (fs & E2 & H). apply obind_Ok in H as (s & E3 & H).
    exists ds, fs, s. repeat (split; [assumption|]). congruence.
  - intros (ds & fs & s & -> & -> & E & ->). cbn [obind]. rewrite E. reflexivity.
Qed.

Section C89.
  Context (sort : list date -> list date) (ss : list smile -> list smile) (brent : R -> R -> (R -> outcome R) -> outcome R)
    (oc : bool) (depth : positive) (now : date).
  Notation raw := (fx_from_raw_quotes sort ss brent oc depth now).

  (** A context is built exactly when both legs' rate contexts and the surface
      are; it keeps the date, spot and pair, and each leg answers as the rate
      context built from that leg's quotes. *)
Theorem C89_raw : forall sq bv v spot pair dom frn qs ps,
    let leg c m := from_raw_quotes sort sq brent bv oc depth now v c m None in
    ((exists x, raw v spot pair dom frn qs ps = Ok x) <->
     (exists yd, leg (fst pair) dom = Ok yd) /\ (exists yf, leg (snd pair) frn = Ok yf) /\ (exists s, surface_new ss v ps = Ok s)) /\
    forall x yd yf, raw v spot pair dom frn qs ps = Ok x -> leg (fst pair) dom = Ok yd -> leg (snd pair) frn = Ok yf ->
      fm_valuation_date (xc_market x) = v /\ fm_spot (xc_market x) = spot /\ xc_pair x = pair /\
      forall d, xc_rate_d x d = ic_rate yd d /\ xc_discount_d x d = ic_discount yd d /\
                xc_rate_f x d = ic_rate yf d /\ xc_discount_f x d = ic_discount yf d.
  Proof.
    intros sq bv v spot pair dom frn qs ps leg. split.
    - split.
      + intros [x H]. apply raw_open in H as (ds & fs & s & E1 & E2 & E3 & _). unfold leg, from_raw_quotes. rewrite E1, E2. cbn [obind]. split; [|split]; eexists; [reflexivity|reflexivity|exact E3].
      + intros ([yd H1] & [yf H2] & [sf H3]). unfold leg in H1, H2. destruct (from_raw_open _ _ _ _ _ _ _ _ _ _ _ _ H1) as (ds & E1 & _).
        destruct (from_raw_open _ _ _ _ _ _ _ _ _ _ _ _ H2) as (fs & E2 & _). eexists. apply raw_open. exists ds, fs, sf. eauto.
    - intros x yd yf H H1 H2. unfold leg in H1, H2. apply raw_open in H as (ds & fs & s & E1 & E2 & E3 & ->).
      destruct (from_raw_open _ _ _ _ _ _ _ _ _ _ _ _ H1) as (ds' & F1 & _ & _ & C1 & _).
      destruct (from_raw_open _ _ _ _ _ _ _ _ _ _ _ _ H2) as (fs' & F2 & _ & _ & C2 & _).
      assert (ds' = ds) by congruence. assert (fs' = fs) by congruence. subst.
      repeat (split; [reflexivity|]). intros d. unfold ic_rate, ic_discount. rewrite C1, C2. repeat split.
  Qed.

  (** No lookup depends on more than its own raw quotes. *)
Theorem C89_independent : forall v spot spot' pair pair' dom dom' frn frn' qs qs' ps ps' x x',
    raw v spot pair dom frn qs ps = Ok x -> raw v spot' pair' dom' frn' qs' ps' = Ok x' ->
    (dom = dom' -> forall d, xc_rate_d x d = xc_rate_d x' d /\ xc_discount_d x d = xc_discount_d x' d) /\
    (frn = frn' -> forall d, xc_rate_f x d = xc_rate_f x' d /\ xc_discount_f x d = xc_discount_f x' d) /\
    (qs = qs' -> forall so se oc d c, xc_forward_at so se oc x d c = xc_forward_at so se oc x' d c) /\
    (ps = ps' -> forall se e K, xc_implied_vol se x e K = xc_implied_vol se x' e K).
  Proof.
    intros v spot spot' pair pair' dom dom' frn frn' qs qs' ps ps' x x' H H'.
    apply raw_open in H as (ds & fs & s & E1 & E2 & E3 & ->). apply raw_open in H' as (ds' & fs' & s' & F1 & F2 & F3 & ->).
    split; [|split; [|split]].
    - intros <- d. assert (ds' = ds) by congruence. subst. split; reflexivity.
    - intros <- d. assert (fs' = fs) by congruence. subst. split; reflexivity.
    - intros <- so se oc' d c. reflexivity.
    - intros <- se e K. assert (s' = s) by congruence. subst. reflexivity.
  Qed.

  (** Volatilities: on a pillar's expiry the at-the-money quote is returned at the
      delta-neutral strike. *)
Theorem C89_implied_vol : forall se v spot pair dom frn qs ps x p a,
    sorts_by sm_expiry ss -> searches_by sm_expiry se ->
    raw v spot pair dom frn qs ps = Ok x -> NoDup (map vp_expiry ps) -> In p ps -> In (QAtm a) (vp_quotes p) -> a <> 0 ->
    xc_implied_vol se x (vp_expiry p) (vp_forward p * exp (a * a * (IZR (vp_expiry p - v) / 365) / 2)) = Ok a /\
    (forall e K, (e <= v)%Z \/ K <= 0 -> xc_implied_vol se x e K = Err EInvalidData).
  Proof.
    intros se v spot pair dom frn qs ps x p a HS HB H ND I A NZ. apply raw_open in H as (ds & fs & s & _ & _ & E & ->).
    unfold xc_implied_vol. cbn [fx_context_new xc_surface]. split.
    - destruct (C44_atm ss se HS HB _ _ _ _ _ E ND I A NZ) as (K & _ & V & _ & EK). rewrite <- EK. exact V.
    - intros e K C. apply (C44_errors ss se HS HB v ps); [exact E|]. destruct C as [C|C]; [right; exact C|left; exact C].
  Qed.
End C89.
Print Assumptions C89_raw.
Print Assumptions C89_independent.
Print Assumptions C89_implied_vol.

(** ** Forwards *)
Lemma Forall2_omapM {A B} (f : A -> outcome B) (l : list A) : (forall a, In a l -> exists b, f a = Ok b) -> exists r, omapM f l = Ok r.
Proof.
  induction l as [|a l IH]; intros H; [exists []; reflexivity|]. destruct (H a (or_introl eq_refl)) as [b E].
  destruct IH as [r E']; [intros a' I; apply H; right; exact I|]. exists (b :: r). cbn [omapM]. rewrite E. cbn [obind]. rewrite E'. reflexivity.
Qed.
Lemma Forall2_in_l {A B} (P : A -> B -> Prop) l r a : Forall2 P l r -> In a l -> exists b, In b r /\ P a b.
Proof. induction 1 as [|x y l r H F IH]; intros I; [destruct I|]. destruct I as [<-|I]; [exists y; split; [left; reflexivity|exact H]|]. destruct (IH I) as (b & J & Q). exists b. split; [right; exact J|exact Q]. Qed.
Lemma Forall2_in_r {A B} (P : A -> B -> Prop) l r b : Forall2 P l r -> In b r -> exists a, In a l /\ P a b.
Proof. induction 1 as [|x y l r H F IH]; intros I; [destruct I|]. destruct I as [<-|I]; [exists x; split; [left; reflexivity|exact H]|]. destruct (IH I) as (a & J & Q). exists a. split; [right; exact J|exact Q]. Qed.

(** Quotes whose settlement dates for the pair exist and are distinct. *)
Definition dates_apart (oc : bool) (p : fx_pair) (v : date) (qs : list fwd_quote) : Prop :=
  (2 <= length qs)%nat /\ (forall q, In q qs -> exists d, pair_settlement_date oc p (fq_tenor q) v = Ok d) /\
  NoDup (map (fun q => pair_settlement_date oc p (fq_tenor q) v) qs).

Lemma helper_quoted so se oc p cal v spot qs q d : sorts_by fst so -> searches_by fst se -> pair_calendar p = Ok cal ->
  dates_apart oc p v qs -> In q qs -> pair_settlement_date oc p (fq_tenor q) v = Ok d -> (v < d)%Z ->
  get_forward so se oc (with_spot_lag v spot (settles p) qs) d cal = Ok (Some (fq_value q)).
Proof.
  intros HS HB HC (L & EX & ND) I E LT. set (h := with_spot_lag v spot (settles p) qs).
  assert (SD : forall t, pair_settlement_date oc p t v = settlement_date_with_lag oc t v cal (settles p)) by (intros t; unfold pair_settlement_date; rewrite HC; reflexivity).
  destruct (Forall2_omapM (fun q => do d <- settlement_date_with_lag oc (fq_tenor q) (fh_valuation_date h) cal (fh_spot_lag h); Ok (d, fq_value q)) (fh_quotes h)) as [D ED].
  { intros q' I'. destruct (EX q' I') as [d' E']. rewrite SD in E'. exists (d', fq_value q'). cbn [h with_spot_lag fh_valuation_date fh_spot_lag]. rewrite E'. reflexivity. }
  assert (F := ED). apply (proj1 (dated_quotes_spec oc h cal D)) in F. cbn [h with_spot_lag fh_valuation_date fh_spot_lag fh_quotes] in F.
  apply (C33_quoted so se oc h d cal D).
  - exact HS.
  - exact HB.
  - exact LT.
  - exact ED.
  - replace (length D) with (length qs); [exact L|]. clear - F. induction F; cbn [length]; congruence.
  - clear - F ND SD. revert ND. induction F as [|q e l r [H _] F IH]; cbn [map]; intros ND; [constructor|]. inversion ND as [|? ? NI ND']; subst. constructor; [|apply IH; exact ND'].
    intros J. apply NI. apply in_map_iff in J as (e' & E1 & J). destruct (Forall2_in_r _ _ _ _ F J) as (q' & I' & H' & _).
    apply in_map_iff. exists q'. split; [|exact I']. rewrite !SD, H, H'. congruence.
  - destruct (Forall2_in_l _ _ _ _ F I) as ([d' w] & J & H & W). cbn [fst snd] in H, W. rewrite SD in E. assert (d' = d) by congruence. subst. exact J.
Qed.

(** With the pair's own helper, every quote is returned on its settlement date. *)
Theorem C89_pair_helper : forall so se oc p cal v spot qs x q d, sorts_by fst so -> searches_by fst se ->
  pair_calendar p = Ok cal -> fm_forwards (xc_market x) = pair_forward_helper p v spot qs ->
  dates_apart oc p v qs -> In q qs -> pair_settlement_date oc p (fq_tenor q) v = Ok d -> (v < d)%Z ->
  xc_forward_at so se oc x d cal = Ok (fq_value q).
Proof.
  intros so se oc p cal v spot qs x q d HS HB HC E A I ED L. unfold xc_forward_at, forward_at. rewrite E. unfold pair_forward_helper.
  rewrite (helper_quoted so se oc p cal v spot qs q d HS HB HC A I ED L). reflexivity.
Qed.
Print Assumptions C89_pair_helper.

(** With the raw-quote constructor this holds of pairs that settle on the second day... *)
Theorem C89_forward_partial : forall sort ss brent oc depth now so se p cal v spot pair dom frn qs ps x q d, sorts_by fst so -> searches_by fst se ->
  fx_from_raw_quotes sort ss brent oc depth now v spot pair dom frn qs ps = Ok x -> pair_calendar p = Ok cal -> settles p = 2%Z ->
  dates_apart oc p v qs -> In q qs -> pair_settlement_date oc p (fq_tenor q) v = Ok d -> (v < d)%Z ->
  xc_forward_at so se oc x d cal = Ok (fq_value q).
Proof.
  intros sort ss brent oc depth now so se p cal v spot pair dom frn qs ps x q d HS HB H HC S2 A I ED L. apply raw_open in H as (ds & fs & s & _ & _ & _ & ->).
  unfold xc_forward_at, forward_at. cbn [fx_context_new xc_market fm_forwards]. unfold helper_new. rewrite <- S2.
  rewrite (helper_quoted so se oc p cal v spot qs q d HS HB HC A I ED L). reflexivity.
Qed.
Print Assumptions C89_forward_partial.

(** ** The placeholder surface *)
Lemma placeholder_normal : normalise_quotes [QAtm (10 / 100); QPut (25 / 100) (10 / 100); QCall (25 / 100) (10 / 100)] =
  Ok (10 / 100, [{| dp_delta := 25 / 100; dp_call := 10 / 100; dp_put := 10 / 100 |}]).
Proof.
  unfold normalise_quotes. cbn [collect_quotes].
  assert (V : validate_delta (25 / 100) = Ok tt). { unfold validate_delta. destruct (Rlt_dec 0 (25 / 100)); [|lra]. destruct (Rlt_dec (25 / 100) (1 / 2)); [reflexivity|lra]. }
  rewrite !V. cbn [obind update_bucket].
  destruct (Rlt_dec (Rabs (25 / 100 - 25 / 100)) (/ 10 ^ 9)) as [_|N]; [|exfalso; apply N, abs0].
  cbn [collect_quotes obind omapM resolve_partial set_call set_put no_quotes pd_call pd_put pd_rr pd_bf rsort fold_right rinsert]. reflexivity.
Qed.

(** [for_linear] succeeds exactly when the date a year on exists, keeps the parts
    it is given, and prices every strike and expiry at ten per cent. *)
Theorem C89_linear : forall ss se v spot pair dom frn fw, sorts_by sm_expiry ss -> searches_by sm_expiry se -> in_range v ->
  (in_range (v + 365)%Z -> exists x, for_linear ss v spot pair dom frn fw = Ok x /\
     fm_valuation_date (xc_market x) = v /\ fm_spot (xc_market x) = spot /\ xc_pair x = pair /\ fm_forwards (xc_market x) = fw /\
     (forall d, xc_rate_d x d = zero_rate dom d /\ xc_rate_f x d = zero_rate frn d /\ xc_discount_d x d = discount dom d /\ xc_discount_f x d = discount frn d) /\
     (forall e K, (v < e)%Z -> 0 < K -> xc_implied_vol se x e K = Ok (1 / 10)) /\
     (forall e K, (e <= v)%Z \/ K <= 0 -> xc_implied_vol se x e K = Err EInvalidData)) /\
  (~ in_range (v + 365)%Z -> for_linear ss v spot pair dom frn fw = Panic PDateRange).
Proof.
  intros ss se v spot pair dom frn fw HS HB RV. split.
  - intros RE. set (p := {| vp_expiry := (v + 365)%Z; vp_forward := 1; vp_quotes := [QAtm (10 / 100); QPut (25 / 100) (10 / 100); QCall (25 / 100) (10 / 100)] |}).
    assert (Y : yf365 v (v + 365)%Z = 1) by (unfold yf365; replace (v + 365 - v)%Z with 365%Z by lia; lra).
    destruct (one_delta p 1 (10 / 100) (25 / 100) (10 / 100) (10 / 100)) as (m & Em & FLAT); try (cbn; lra); [exact placeholder_normal|].
    assert (E : surface_new ss v [p] = Ok {| vs_valuation_date := v; vs_smiles := [m] |}).
    { unfold surface_new. cbn [omapM]. change (vp_expiry p) with (v + 365)%Z. rewrite Y, Em. cbn [obind].
      destruct (HS [m]) as [P _]. apply Permutation_length_1_inv in P. rewrite P. reflexivity. }
    unfold for_linear, trivial_vol_surface, add_days. rewrite (proj2 (mk_date_Ok _ _) (conj eq_refl RE)). cbn [obind]. fold p. rewrite E. cbn [obind].
    eexists. split; [reflexivity|]. repeat (split; [reflexivity|]). split; [intros d; repeat split|].
    unfold xc_implied_vol. cbn [fx_context_new xc_surface].
    pose proof (C44_errors ss se HS HB v [p]) as [_ ERR]. specialize (ERR _ E). split; [|intros e K C; apply ERR; destruct C; [right|left]; assumption].
    intros e K LE HK.
    rewrite (C44_outside ss se HS HB v [p] _ p e K E); [|repeat constructor; intros []|left; reflexivity|exact LE|exact HK|].
    + destruct (at_pillar ss se HS HB v [p] _ p E) as (m' & Em' & _ & VOL); [repeat constructor; intros []|left; reflexivity|].
      rewrite VOL by exact HK. change (vp_expiry p) with (v + 365)%Z in Em'. rewrite Y in Em'. assert (m' = m) by congruence. subst m'.
      rewrite FLAT by reflexivity. f_equal. lra.
    + destruct (Z.le_ge_cases e (vp_expiry p)) as [C|C]; [left|right]; (split; [exact C|intros q [<-|[]]; lia]).
  - intros N. unfold for_linear, trivial_vol_surface, add_days, mk_date. destruct (in_rangeb (v + 365)%Z) eqn:E; [|reflexivity].
    exfalso. apply N. apply in_rangeb_spec. exact E.
Qed.
Print Assumptions C89_linear.

(** ** Concrete contexts *)
Definition one_swap : yield_market := swap_market [par_swap (1 / 50) [year0]].
Lemma strip_one_swap : get_stripped_curve (isort_by (fun d : date => d)) (two_points 0 z_one) true 10 0%Z one_swap = Ok [swap_entry (today + 365 * 1)%Z (1 / 50) z_one 0].
Proof.
  unfold get_stripped_curve, one_swap, swap_market. cbn [ym_cash ym_futures ym_swaps ym_valuation_date cash_maturities obind]. change (isort_by _ []) with (@nil date). cbn [cash_loop obind futures_loop]. unfold z_one. rewrite strip_one by lra. reflexivity.
Qed.
Definition flat_pillar : vol_pillar :=
  {| vp_expiry := (today + 365)%Z; vp_forward := 1; vp_quotes := [QAtm (10 / 100); QPut (25 / 100) (10 / 100); QCall (25 / 100) (10 / 100)] |}.
Lemma flat_surface : exists s, surface_new (isort_by sm_expiry) today [flat_pillar] = Ok s.
Proof.
  assert (Y : yf365 today (today + 365)%Z = 1) by (unfold yf365; replace (today + 365 - today)%Z with 365%Z by lia; lra).
  destruct (one_delta flat_pillar 1 (10 / 100) (25 / 100) (10 / 100) (10 / 100)) as (m & Em & _); try (cbn; lra); [exact placeholder_normal|].
  unfold surface_new. cbn [omapM]. change (vp_expiry flat_pillar) with (today + 365)%Z. rewrite Y, Em. cbn [obind]. eauto.
Qed.
Definition week_quotes : list fwd_quote := [{| fq_tenor := Weeks 1; fq_value := 10 |}; {| fq_tenor := Weeks 2; fq_value := 20 |}].
Definition sample_raw (pair : currency * currency) : outcome fx_context :=
  fx_from_raw_quotes (isort_by (fun d : date => d)) (isort_by sm_expiry) (two_points 0 z_one) true 10 0%Z today 1 pair one_swap one_swap week_quotes [flat_pillar].
Lemma sample_open pair : exists s, surface_new (isort_by sm_expiry) today [flat_pillar] = Ok s /\
  let y := {| c_valuation_date := today; stripped_curves := [swap_entry (today + 365 * 1)%Z (1 / 50) z_one 0] |} in
  sample_raw pair = Ok (fx_context_new today 1 pair y y (helper_new today 1 week_quotes) s).
Proof.
  destruct flat_surface as [s E]. exists s. split; [exact E|]. intros y. apply raw_open. eexists _, _, s.
  split; [exact strip_one_swap|]. split; [exact strip_one_swap|]. split; [exact E|reflexivity].
Qed.
Lemma apart_of p d1 d2 : pair_settlement_date true p (Weeks 1) today = Ok d1 -> pair_settlement_date true p (Weeks 2) today = Ok d2 -> d1 <> d2 -> dates_apart true p today week_quotes.
Proof.
  intros E1 E2 N. split; [cbn; lia|]. split.
  - intros q [<-|[<-|[]]]; cbn [fq_tenor]; eauto.
  - cbn [week_quotes map fq_tenor]. rewrite E1, E2. constructor; [intros [H|[]]; congruence|]. constructor; [intros []|constructor].
Qed.

(** ...but not of the others: the US dollar against the Canadian dollar settles a
    day earlier than the constructor assumes. *)
Theorem C89_forward_refuted :
  ~ (forall sort ss brent oc depth now so se p cal v spot pair dom frn qs ps x q d,
     sorts_by (fun d : date => d) sort -> sorts_by sm_expiry ss -> sorts_by fst so -> searches_by fst se ->
     fx_from_raw_quotes sort ss brent oc depth now v spot pair dom frn qs ps = Ok x ->
     pair_calendar p = Ok cal -> dom_currency p = Ok (fst pair) -> frn_currency p = Ok (snd pair) ->
     dates_apart oc p v qs -> In q qs -> pair_settlement_date oc p (fq_tenor q) v = Ok d -> (v < d)%Z ->
     xc_forward_at so se oc x d cal = Ok (fq_value q)).
Proof.
  intros H. destruct (sample_open (CAD, USD)) as (s & _ & E). cbv zeta in E.
  destruct (pair_calendar USDCAD) as [cal| |] eqn:C; [|discriminate..].
  assert (S1 : pair_settlement_date true USDCAD (Weeks 1) today = Ok (of_ymd 2024 1 10)) by (vm_compute; reflexivity).
  assert (S2 : pair_settlement_date true USDCAD (Weeks 2) today = Ok (of_ymd 2024 1 17)) by (vm_compute; reflexivity).
  assert (A : dates_apart true USDCAD today week_quotes) by (apply (apart_of _ _ _ S1 S2); vm_compute; discriminate).
  specialize (H _ _ _ _ _ _ (isort_by fst) (lsearch_by fst) USDCAD cal _ _ _ _ _ _ _ _ {| fq_tenor := Weeks 2; fq_value := 20 |} (of_ymd 2024 1 17)
    (isort_sorts _) (isort_sorts _) (isort_sorts _) (lsearch_searches _) E C eq_refl eq_refl A (or_intror (or_introl eq_refl)) S2 ltac:(vm_compute; reflexivity)).
  unfold xc_forward_at, forward_at in H. cbn [fx_context_new xc_market fm_forwards] in H.
  set (D := [(of_ymd 2024 1 11, 10); (of_ymd 2024 1 18, 20)]).
  destruct (C33_between (isort_by fst) (lsearch_by fst) true (helper_new today 1 week_quotes) (of_ymd 2024 1 17) cal D (of_ymd 2024 1 11, 10) (of_ymd 2024 1 18, 20)) as (w & V & EQ & _).
  - apply isort_sorts.
  - apply lsearch_searches.
  - vm_compute. reflexivity.
  - apply dated_quotes_spec. cbn [helper_new with_spot_lag fh_quotes fh_valuation_date fh_spot_lag week_quotes]. injection C as <-.
    repeat constructor; cbn [fst fq_tenor]; vm_compute; reflexivity.
  - unfold D. cbn [map fst]. constructor; [intros [X|[]]; vm_compute in X; discriminate|]. constructor; [intros []|constructor].
  - left. reflexivity.
  - right. left. reflexivity.
  - vm_compute. split; reflexivity.
  - intros q [<-|[<-|[]]]; [left|right]; apply Z.le_refl.
  - rewrite V in H. cbn [obind fq_value] in H. assert (w = 20) by congruence. subst w. cbn [fst snd] in EQ.
    replace (of_ymd 2024 1 18 - of_ymd 2024 1 11)%Z with 7%Z in EQ by (vm_compute; reflexivity).
    replace (of_ymd 2024 1 17 - of_ymd 2024 1 11)%Z with 6%Z in EQ by (vm_compute; reflexivity). lra.
Qed.
Print Assumptions C89_forward_refuted.

(** Covered interest parity, which the documentation states of the forwards, is
    not imposed: the quotes and the curves need not agree. *)
Theorem C89_parity_refuted :
  ~ (forall sort ss brent oc depth now so se p cal v spot pair dom frn qs ps x d points Dd Df,
     sorts_by (fun d : date => d) sort -> sorts_by sm_expiry ss -> sorts_by fst so -> searches_by fst se ->
     fx_from_raw_quotes sort ss brent oc depth now v spot pair dom frn qs ps = Ok x ->
     pair_calendar p = Ok cal -> dom_currency p = Ok (fst pair) -> frn_currency p = Ok (snd pair) ->
     xc_forward_at so se oc x d cal = Ok points -> xc_discount_d x d = Ok Dd -> xc_discount_f x d = Ok Df ->
     spot + points / IZR (forward_points_converter p) = spot * Df / Dd).
Proof.
  intros H. destruct (sample_open (USD, EUR)) as (s & _ & E). cbv zeta in E.
  destruct (pair_calendar EURUSD) as [cal| |] eqn:C; [|discriminate..].
  assert (S1 : pair_settlement_date true EURUSD (Weeks 1) today = Ok (of_ymd 2024 1 11)) by (vm_compute; reflexivity).
  assert (S2 : pair_settlement_date true EURUSD (Weeks 2) today = Ok (of_ymd 2024 1 18)) by (vm_compute; reflexivity).
  assert (A : dates_apart true EURUSD today week_quotes) by (apply (apart_of _ _ _ S1 S2); vm_compute; discriminate).
  pose proof (C89_forward_partial _ _ _ _ _ _ (isort_by fst) (lsearch_by fst) EURUSD cal _ _ _ _ _ _ _ _ {| fq_tenor := Weeks 2; fq_value := 20 |} (of_ymd 2024 1 18)
    (isort_sorts _) (lsearch_searches _) E C eq_refl A (or_intror (or_introl eq_refl)) S2 ltac:(vm_compute; reflexivity)) as F.
  set (y := {| c_valuation_date := today; stripped_curves := [swap_entry (today + 365 * 1)%Z (1 / 50) z_one 0] |}) in *.
  assert (X : exists D, discount y (of_ymd 2024 1 18) = Ok D).
  { apply C38_defined. split; [vm_compute; split; discriminate|discriminate]. }
  destruct X as [D ED]. assert (P : 0 < D) by (apply (C38_positive _ _ _ ED)).
  specialize (H _ _ _ _ _ _ (isort_by fst) (lsearch_by fst) EURUSD cal _ _ _ _ _ _ _ _ (of_ymd 2024 1 18) 20 D D
    (isort_sorts _) (isort_sorts _) (isort_sorts _) (lsearch_searches _) E C eq_refl eq_refl F ED ED).
  cbn [forward_points_converter] in H. unfold Rdiv in H at 2. rewrite Rmult_1_l, Rinv_r in H by lra. lra.
Qed.
Print Assumptions C89_parity_refuted.

(** The documentation of [for_linear] says the domestic curve stands in for the
    foreign one; it does not. *)
Theorem C89_stand_in_refuted :
  ~ (forall ss v spot pair dom frn fw x, sorts_by sm_expiry ss -> for_linear ss v spot pair dom frn fw = Ok x ->
     forall d, xc_discount_f x d = xc_discount_d x d).
Proof.
  intros H. set (y := fun z => {| c_valuation_date := today; stripped_curves := [swap_entry (today + 365 * 1)%Z (1 / 50) z 0] |}).
  destruct (C89_linear (isort_by sm_expiry) (lsearch_by sm_expiry) today 1 (USD, EUR) (y 0) (y 1) (helper_new today 1 [])
    (isort_sorts _) (lsearch_searches _)) as [OK _]; [vm_compute; split; discriminate|].
  destruct OK as (x & E & _ & _ & _ & _ & L & _); [vm_compute; split; discriminate|].
  specialize (H _ _ _ _ _ _ _ _ (isort_sorts _) E (today + 365 * 1)%Z). destruct (L (today + 365 * 1)%Z) as (_ & _ & L1 & L2). rewrite L1, L2 in H.
  pose proof (one_entry 0 (1 / 50) 0 0 1 ltac:(lia)) as E0. pose proof (one_entry 0 (1 / 50) 1 0 1 ltac:(lia)) as E1. rewrite today0 in E0, E1.
  unfold y in H. rewrite E0, E1 in H. assert (X : exp (- (1) * IZR (1 - 0)) = exp (- 0 * IZR (1 - 0))) by congruence. apply exp_inv in X. change (1 - 0)%Z with 1%Z in X. lra.
Qed.
Print Assumptions C89_stand_in_refuted.

Example C89_witness : exists x cal, sample_raw (USD, EUR) = Ok x /\ sorts_by (fun d : date => d) (isort_by (fun d : date => d)) /\
  sorts_by sm_expiry (isort_by sm_expiry) /\ searches_by sm_expiry (lsearch_by sm_expiry) /\ pair_calendar EURUSD = Ok cal /\ settles EURUSD = 2%Z /\
  dates_apart true EURUSD today week_quotes /\ pair_settlement_date true EURUSD (Weeks 2) today = Ok (of_ymd 2024 1 18) /\ (today < of_ymd 2024 1 18)%Z /\
  xc_forward_at (isort_by fst) (lsearch_by fst) true x (of_ymd 2024 1 18) cal = Ok 20 /\
  dates_apart true USDCAD today week_quotes /\ settles USDCAD = 1%Z /\ NoDup (map vp_expiry [flat_pillar]) /\ In (QAtm (10 / 100)) (vp_quotes flat_pillar) /\
  xc_discount_d x (today + 365 * 1)%Z = Ok (exp (- z_one * IZR (1 - 0))) /\ in_range today /\ in_range (today + 365)%Z /\ in_range date_max /\ ~ in_range (date_max + 365)%Z.
Proof.
  destruct (sample_open (USD, EUR)) as (s & _ & E). cbv zeta in E. eexists.
  destruct (pair_calendar EURUSD) as [cal| |] eqn:C; [|discriminate..]. exists cal. split; [exact E|].
  assert (S1 : pair_settlement_date true EURUSD (Weeks 1) today = Ok (of_ymd 2024 1 11)) by (vm_compute; reflexivity).
  assert (S2 : pair_settlement_date true EURUSD (Weeks 2) today = Ok (of_ymd 2024 1 18)) by (vm_compute; reflexivity).
  assert (A : dates_apart true EURUSD today week_quotes) by (apply (apart_of _ _ _ S1 S2); vm_compute; discriminate).
  repeat (split; [first [apply isort_sorts|apply lsearch_searches|reflexivity|exact A|exact S2]|]).
  split. { exact (C89_forward_partial _ _ _ _ _ _ (isort_by fst) (lsearch_by fst) EURUSD cal _ _ _ _ _ _ _ _ {| fq_tenor := Weeks 2; fq_value := 20 |} (of_ymd 2024 1 18)
    (isort_sorts _) (lsearch_searches _) E C eq_refl A (or_intror (or_introl eq_refl)) S2 ltac:(vm_compute; reflexivity)). }
  split. { apply (apart_of _ (of_ymd 2024 1 10) (of_ymd 2024 1 17)); [vm_compute; reflexivity|vm_compute; reflexivity|vm_compute; discriminate]. }
  split; [reflexivity|]. split; [repeat constructor; intros []|]. split; [left; reflexivity|].
  split. { pose proof (one_entry 0 (1 / 50) z_one 0 1 ltac:(lia)) as E1. rewrite today0 in E1. exact E1. }
  split; [vm_compute; split; discriminate|]. split; [vm_compute; split; discriminate|]. split; [vm_compute; split; discriminate|].
  intros [_ X]. vm_compute in X. apply X. reflexivity.
Qed.
Print Assumptions C89_witness.
