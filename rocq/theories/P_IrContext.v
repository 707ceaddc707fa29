(** C88: the interest rate market context, from raw quotes to prices. *)
From Coq Require Import ZArith Lia Bool List Reals Lra Permutation Sorting.Sorted.
Import ListNotations.
From Verif Require Import Outcome Ints Date DateFacts Calendar CalendarFacts Names Shipped Sorting Fx YieldCurve YieldCurveSpec YieldCurveFacts FxForward
  Swap SwapSpec SwapValueFacts P_Swap Bootstrap BootstrapFacts Normal BlackScholes CapSurface CapFacts IrContext P_YieldCurve P_Bootstrap P_BlackScholes P_CapSurface P_Cap VolFacts.
Open Scope R_scope.
Local Ltac lia := unfold date in *; Lia.lia.

Lemma from_raw_open sort sq brent bv oc depth now v c m caps x : from_raw_quotes sort sq brent bv oc depth now v c m caps = Ok x ->
  exists ps, get_stripped_curve sort brent oc depth now m = Ok ps /\ ic_valuation_date x = v /\ ic_currency x = c /\
    ic_curve x = {| c_valuation_date := v; stripped_curves := ps |} /\
    ((caps = None /\ ic_caps x = None) \/ exists md vs, caps = Some md /\ ic_caps x = Some vs /\ strip_caplet_vols sq sort bv (ic_curve x) (cm_valuation_date md) (cm_quotes md) = Ok vs).
Proof.
  unfold from_raw_quotes. intros H. destruct (get_stripped_curve sort brent oc depth now m) as [ps| |]; cbn [obind] in H; [|discriminate|discriminate].
  cbv zeta in H. exists ps. split; [reflexivity|]. destruct caps as [md|].
  - destruct (strip_caplet_vols _ _ _ _ _ _) as [vs| |] eqn:E; cbn [obind] in H; [|discriminate|discriminate].
    assert (X : ir_context_new v c {| c_valuation_date := v; stripped_curves := ps |} (Some vs) = x) by congruence. subst x. cbn.
    repeat (split; [reflexivity|]). right. exists md, vs. split; [reflexivity|]. split; [reflexivity|exact E].
  - cbn [obind] in H. assert (X : ir_context_new v c {| c_valuation_date := v; stripped_curves := ps |} None = x) by congruence. subst x. cbn.
    repeat (split; [reflexivity|]). left. split; reflexivity.
Qed.

(** A context from raw quotes is of the given date and currency and has a surface exactly
    when cap quotes are given.  Its discount factors are positive, one today, and belong to
    its zero rates; there is one for a date exactly when the next day is on the calendar
    and the market has a quote at all. *)
Theorem C88_context : forall sort sq brent bv oc depth now v c m caps x, sorts_by (fun d : date => d) sort ->
  from_raw_quotes sort sq brent bv oc depth now v c m caps = Ok x ->
  ic_valuation_date x = v /\ ic_currency x = c /\ (ic_caps x = None <-> caps = None) /\
  (forall d y, ic_discount x d = Ok y -> 0 < y /\ exists z, ic_rate x d = Ok z /\ y = exp (- z * (IZR (d - v) / 365))) /\
  (forall y, ic_discount x v = Ok y -> y = 1) /\
  (forall d, (exists y, ic_discount x d = Ok y) <-> in_range (d + 1)%Z /\ (ym_cash m <> [] \/ ym_futures m <> [] \/ ym_swaps m <> [])).
Proof.
  intros sort sq brent bv oc depth now v c m caps x HS H. destruct (from_raw_open _ _ _ _ _ _ _ _ _ _ _ _ H) as (ps & EP & EV & EC & EY & CP).
  split; [exact EV|]. split; [exact EC|]. split; [destruct CP as [(-> & ->)|(md & vs & -> & -> & _)]; split; congruence|].
  unfold ic_discount, ic_rate. rewrite EY. split; [|split].
  - intros d y E. split; [apply (C38_positive _ _ _ E)|]. unfold discount in E. destruct (zero_rate _ d) as [z| |]; cbn [obind] in E; [|discriminate|discriminate].
    exists z. split; [reflexivity|]. cbn [c_valuation_date] in E. unfold yf365 in E. congruence.
  - intros y E. exact (C38_one {| c_valuation_date := v; stripped_curves := ps |} y E).
  - intros d. rewrite (C38_defined {| c_valuation_date := v; stripped_curves := ps |} d). cbn [stripped_curves].
    destruct (C61_structure _ _ _ _ _ _ _ HS EP) as (cash & futs & swaps & -> & C1 & C2 & F & W).
    assert (X : cash ++ futs ++ swaps <> [] <-> ym_cash m <> [] \/ ym_futures m <> [] \/ ym_swaps m <> []); [|rewrite X; reflexivity].
    split.
    + intros N. destruct cash as [|p cash].
      * destruct futs as [|p futs]; [|right; left; intros Z; rewrite Z in F; inversion F].
        destruct swaps as [|p swaps]; [exfalso; apply N; reflexivity|right; right; intros Z; rewrite Z in W; inversion W].
      * left. destruct (C1 p (or_introl eq_refl)) as (q & I & _). intros Z. rewrite Z in I. exact I.
    + intros N E. apply app_eq_nil in E. destruct E as [-> E]. apply app_eq_nil in E. destruct E as [-> ->]. destruct N as [N|[N|N]].
      * destruct (ym_cash m) as [|q r]; [exact (N eq_refl)|]. destruct (C2 q (or_introl eq_refl)) as (p & [] & _).
      * inversion F. congruence.
      * inversion W. congruence.
Qed.
Print Assumptions C88_context.

(** Without a surface every cap request is an error; with one, volatilities are read off it. *)
Theorem C88_surface : forall x cf,
  (ic_caps x = None -> (forall e k, ic_caplet_vol x e k = Err EInvalidData) /\ ic_cap_mtm cf x = Err EInvalidData /\ ic_cap_dv01 cf x = Err EInvalidData /\
    (forall bp mode, ic_cap_gamma cf x bp mode = Err EInvalidData) /\ (forall bp, ic_cap_vega cf x bp = Err EInvalidData) /\ ic_cap_modified_duration cf x = Err EInvalidData) /\
  (forall vs, ic_caps x = Some vs -> StronglySorted (fun a b => (cp_expiry a < cp_expiry b)%Z) vs -> forall p k v, In p vs -> increases (cp_nodes p) -> In (k, v) (cp_nodes p) ->
    ic_caplet_vol x (cp_expiry p) k = Ok v).
Proof.
  intros x cf. split.
  - intros N. unfold ic_caplet_vol, ic_cap_mtm, ic_cap_dv01, ic_cap_gamma, ic_cap_vega, ic_cap_modified_duration, cap_modified_duration, cap_mtm, cap_dv01, cap_gamma, cap_vega. rewrite N. cbn.
    repeat split. intros bp []; reflexivity.
  - intros vs E S p k v I INC IN. unfold ic_caplet_vol. rewrite E. rewrite (P_Cap.C64_expiry vs (cp_expiry p) k p S I).
    + apply (proj1 (P_Cap.C64_strike _ INC)), IN.
    + left. split; [lia|]. intros p' I' L. exact L.
Qed.
Print Assumptions C88_surface.

(** The last swap quote is priced by the context at zero within the root finder's tolerance, when
    the date of the context is the date of the quotes. *)
Theorem C88_last_swap : forall brent eps, (forall lo hi f r, brent lo hi f = Ok r -> root_within eps f r) ->
  forall sort sq bv oc depth now v c m caps x l legs before,
  from_raw_quotes sort sq brent bv oc depth now v c m caps = Ok x -> v = ym_valuation_date m -> ym_swaps m = before ++ [l :: legs] ->
  exists init p y, stripped_curves (ic_curve x) = init ++ [p] /\ ic_swap_mtm oc (l :: legs) x = Ok (ix_currency (l_index l), y) /\
    (Rabs y <= eps \/ exists z' y', Rabs (z' - p_zero_rate p) <= eps /\ npv oc (l :: legs) v {| c_valuation_date := v; stripped_curves := init ++ [with_zero p z'] |} = Ok y' /\ y * y' <= 0).
Proof.
  intros brent eps HB sort sq bv oc depth now v c m caps x l legs before H EV ES. destruct (from_raw_open _ _ _ _ _ _ _ _ _ _ _ _ H) as (ps & EP & E1 & _ & EY & _).
  destruct (C61_swaps brent eps HB sort oc depth now m ps (length before) (l :: legs) EP) as (init & p & (after & -> & LA) & y & NP & RT).
  { rewrite ES, nth_error_app2 by lia. rewrite Nat.sub_diag. reflexivity. }
  assert (AN : after = []). { rewrite ES, app_length in LA. cbn [length] in LA. destruct after; [reflexivity|cbn [length] in LA; lia]. }
  subst after. exists init, p, y. rewrite EY. split; [reflexivity|].
  assert (WZ : with_zero p (p_zero_rate p) = p) by (destruct p; reflexivity). rewrite WZ in NP. split.
  - unfold ic_swap_mtm. rewrite E1, EY. apply C43_mtm. rewrite EV. exact NP.
  - destruct RT as [A|(r' & y' & A & B & C)]; [left; exact A|right]. exists r', y'. rewrite EV. split; [exact A|]. split; [exact B|exact C].
Qed.
Print Assumptions C88_last_swap.

(** A quoted cap is priced by the context at its quote, under the conditions of [C45_partial] on the grid of quotes. *)
Theorem C88_caps_partial : forall sort sq brent bv tol oc depth now v c m md x,
  sorts_by (quote_key (cm_valuation_date md)) sq -> sorts_by (fun d : date => d) sort -> finds_roots tol bv ->
  from_raw_quotes sort sq brent bv oc depth now v c m (Some md) = Ok x ->
  forall q e cur w, let quotes := cm_quotes md in
  (forall q q', In q quotes -> In q' quotes -> Rabs (cq_strike q - cq_strike q') < / 10 ^ 12 -> cq_strike q = cq_strike q') ->
  In q quotes -> last_accrual_start q = Ok e -> (forall a, In a (cq_schedule q) -> (accrual_start a <= e)%Z) ->
  (forall q', In q' quotes -> cq_strike q' = cq_strike q -> last_accrual_start q' = Ok e -> q' = q) ->
  (forall q' e', In q' quotes -> last_accrual_start q' = Ok e' -> (e' < e)%Z -> exists q'', In q'' quotes /\ cq_strike q'' = cq_strike q /\ last_accrual_start q'' = Ok e') ->
  ic_cap_mtm (quoted_cap q cur (cm_valuation_date md)) x = Ok (cur, w) -> Rabs (w - cq_market_npv q) <= tol.
Proof.
  intros sort sq brent bv tol oc depth now v c m md x S1 S2 FR H q e cur w quotes K1 IQ LE AS U C MT.
  destruct (from_raw_open _ _ _ _ _ _ _ _ _ _ _ _ H) as (ps & _ & _ & _ & _ & [(X & _)|(md' & vs & X & EC & SV)]); [discriminate|].
  assert (md' = md) by congruence. subst md'. unfold ic_cap_mtm in MT. rewrite EC in MT.
  exact (C45_partial sq sort bv tol (ic_curve x) (cm_valuation_date md) S1 S2 FR quotes vs q e cur w K1 SV IQ LE AS U C MT).
Qed.
Print Assumptions C88_caps_partial.

(** ** A market of par swaps *)
Definition dated_leg (t : leg_type) (dir : direction) (s : list accrual) : leg :=
  {| l_type := t; l_direction := dir; l_index := sample_index; l_notional := 1; l_frequency := Annual; l_tenor := Years 1; l_duration := Years 1;
     l_day_counter := act365; l_calendar := weekends_only; l_convention := ModifiedFollowing; l_pay_delay := 0; l_days_before_accrual := 2; l_schedule := s |}.
Definition par_swap (c : R) (s : list accrual) : list leg := [dated_leg (Fixed c) Buy s; dated_leg (Float 0) Sell s].
Definition year0 := year_accrual today 0.
Definition year1 := year_accrual today 1.
Definition swap_market (l : list (list leg)) : yield_market := {| ym_valuation_date := today; ym_cash := []; ym_futures := []; ym_swaps := l |}.
Definition swap_entry (d : date) (c z df : R) : pillar :=
  {| first_settle_date := of_ymd 2024 1 4; p_date := d; market_rate := c; p_zero_rate := z; p_discount := df; source := SourceSwap; hidden_pillar := false |}.
(** A root finder that tries two points and is exact. *)
Definition two_points (a b : R) (lo hi : R) (f : R -> outcome R) : outcome R :=
  match f a with
  | Ok y => if Req_EM_T y 0 then Ok a else
      match f b with Ok y => if Req_EM_T y 0 then Ok b else Err EInvalidData | _ => Err EInvalidData end
  | _ => Err EInvalidData
  end.
Lemma two_points_exact a b lo hi f r : two_points a b lo hi f = Ok r -> f r = Ok 0.
Proof.
  unfold two_points. intros H. destruct (f a) as [y| |] eqn:E; try discriminate. destruct (Req_EM_T y 0) as [->|]; [apply Ok_R in H; subst r; exact E|].
  destruct (f b) as [y'| |] eqn:E'; try discriminate. destruct (Req_EM_T y' 0) as [->|]; [apply Ok_R in H; subst r; exact E'|discriminate].
Qed.
Lemma settle_swap c s : swap_settle_date true (par_swap c s) today = Ok (of_ymd 2024 1 4).
Proof. vm_compute. reflexivity. Qed.
Lemma year_yf n : dc_yf act365 (today + 365 * n)%Z (today + 365 * (n + 1))%Z = Ok 1.
Proof. cbn [dc_yf act365]. unfold yf365. replace (today + 365 * (n + 1) - (today + 365 * n))%Z with 365%Z by ring. f_equal. lra. Qed.

(** The values of the one and two year swaps on any curve. *)
Lemma value1 c v y D0 D1 : discount y (today + 365 * 0)%Z = Ok D0 -> discount y (today + 365 * 1)%Z = Ok D1 -> D1 <> 0 -> npv true (par_swap c [year0]) v y = Ok ((1 + c) * D1 - D0).
Proof.
  intros H0 H1 N. unfold npv, par_swap. cbn [npv_loop generate_schedule dated_leg l_schedule obind sum_pv add_final rev app].
  unfold period_pv. cbn [l_day_counter dated_leg l_type l_direction year0 year_accrual accrual_start accrual_end pay_date balance]. rewrite !(year_yf 0).
  change (0 + 1)%Z with 1%Z. rewrite H0, H1. cbn [dc_count act365 obind sign]. f_equal. field. exact N.
Qed.
Lemma value2 c v y D0 D1 D2 : discount y (today + 365 * 0)%Z = Ok D0 -> discount y (today + 365 * 1)%Z = Ok D1 -> discount y (today + 365 * 2)%Z = Ok D2 -> D1 <> 0 -> D2 <> 0 ->
  npv true (par_swap c [year0; year1]) v y = Ok (c * D1 + (1 + c) * D2 - D0).
Proof.
  intros H0 H1 H2 N1 N2. unfold npv, par_swap. cbn [npv_loop generate_schedule dated_leg l_schedule obind sum_pv add_final rev app].
  unfold period_pv. cbn [l_day_counter dated_leg l_type l_direction year0 year1 year_accrual accrual_start accrual_end pay_date balance]. rewrite !(year_yf 0), !(year_yf 1).
  change (0 + 1)%Z with 1%Z. change (1 + 1)%Z with 2%Z. rewrite H0, H1, H2. cbn [dc_count act365 obind sign]. f_equal. field. split; assumption.
Qed.

(** Curves of one and two entries. *)
Lemma yf_year v n : yf365 (today + 365 * v)%Z (today + 365 * n)%Z = IZR (n - v).
Proof. unfold yf365. replace (today + 365 * n - (today + 365 * v))%Z with (365 * (n - v))%Z by ring. rewrite mult_IZR. field. Qed.
Lemma one_entry v c z df n : (0 <= n <= 3)%Z -> discount {| c_valuation_date := (today + 365 * v)%Z; stripped_curves := [swap_entry (today + 365 * 1)%Z c z df] |} (today + 365 * n)%Z = Ok (exp (- z * IZR (n - v))).
Proof.
  intros H. pose proof (sample_range n H) as RG. unfold discount.
  assert (E : zero_rate {| c_valuation_date := (today + 365 * v)%Z; stripped_curves := [swap_entry (today + 365 * 1)%Z c z df] |} (today + 365 * n)%Z = Ok z).
  { destruct (Z.le_gt_cases n 0).
    - apply (zero_rate_front _ _ [] (swap_entry (today + 365 * 1)%Z c z df) []); [exact RG|reflexivity|intros p []|reflexivity|cbn [swap_entry p_date]; lia].
    - apply (zero_rate_beyond_visible _ _ (swap_entry (today + 365 * 1)%Z c z df) []); [exact RG|reflexivity|reflexivity|intros p [<-|[]] _; cbn [swap_entry p_date]; lia]. }
  rewrite E. cbn [obind c_valuation_date]. rewrite yf_year. reflexivity.
Qed.
Definition two_curve (c1 z1 d1 c2 z2 d2 : R) : curve :=
  {| c_valuation_date := (today + 365 * 0)%Z; stripped_curves := [swap_entry (today + 365 * 1)%Z c1 z1 d1; swap_entry (today + 365 * 2)%Z c2 z2 d2] |}.
Lemma two_entries c1 z1 d1 c2 z2 d2 : let y := two_curve c1 z1 d1 c2 z2 d2 in
  discount y (today + 365 * 0)%Z = Ok 1 /\ discount y (today + 365 * 1)%Z = Ok (exp (- (z1 + (z2 - z1) / 365))) /\ discount y (today + 365 * 2)%Z = Ok (exp (- z1 * 2)).
Proof.
  intros y. set (p := swap_entry (today + 365 * 1)%Z c1 z1 d1) in *. set (q := swap_entry (today + 365 * 2)%Z c2 z2 d2) in *.
  assert (Z0 : zero_rate y (today + 365 * 0)%Z = Ok z1) by (apply (zero_rate_front _ _ [] p [q]); [apply sample_range; lia|reflexivity|intros x []|reflexivity|cbn [p swap_entry p_date]; lia]).
  assert (Z2 : zero_rate y (today + 365 * 2)%Z = Ok z1) by (apply (zero_rate_beyond_visible _ _ p [q]); [apply sample_range; lia|reflexivity|reflexivity|intros x [<-|[<-|[]]] _; cbn [p q swap_entry p_date]; lia]).
  assert (Z1 : zero_rate y (today + 365 * 1)%Z = Ok (z1 + (z2 - z1) / 365)).
  { destruct (zero_rate_inside y (today + 365 * 1)%Z [] p p q []) as (_ & E); [apply sample_range; lia| |reflexivity|intros x [<-|[]]; right; cbn [p swap_entry p_date]; lia|left; reflexivity|reflexivity|reflexivity|cbn [q swap_entry p_date]; lia|].
    - split.
      + cbn [y two_curve stripped_curves]. fold p q. constructor; [constructor; [constructor|constructor]|]. constructor; [|constructor]. cbn [p q swap_entry p_date]. lia.
      + intros a b [<-|[<-|[]]] [<-|[<-|[]]] D; try reflexivity; exfalso; cbn [p q swap_entry p_date] in D; lia.
    - rewrite E. unfold line_through. cbn [p q swap_entry p_zero_rate p_date]. replace (today + 365 * 1 + 1 - (today + 365 * 1))%Z with 1%Z by ring. replace (today + 365 * 2 - (today + 365 * 1))%Z with 365%Z by ring. f_equal. field. }
  unfold discount. rewrite Z0, Z1, Z2. cbn [obind]. change (c_valuation_date y) with (today + 365 * 0)%Z. rewrite !yf_year. cbn [Z.sub Z.opp Z.add Z.pos_sub]. split; [|split; f_equal; f_equal; lra].
  f_equal. replace (- z1 * 0) with 0 by ring. apply exp_0.
Qed.

Lemma step1 brent c z r :
  (brent 0 (1 / 2) (fun x => npv true (par_swap c [year0]) today {| c_valuation_date := today; stripped_curves := [swap_entry (today + 365 * 1)%Z c x 0] |}) = Ok z) ->
  swaps_loop brent true today [] (par_swap c [year0] :: r) = swaps_loop brent true today [swap_entry (today + 365 * 1)%Z c z 0] r.
Proof.
  intros B. cbn [swaps_loop]. rewrite settle_swap.
  assert (M : swap_maturity_date true (par_swap c [year0]) today = Ok (today + 365 * 1)%Z) by (unfold swap_maturity_date, par_swap; cbn; f_equal; lia).
  rewrite M. cbn [obind nth_error par_swap ounwrap reference_rate dated_leg l_type app]. unfold solve_zero_rate.
  change (fun x => calculate_npv true (par_swap c [year0]) x today [_]) with (fun x => npv true (par_swap c [year0]) today {| c_valuation_date := today; stripped_curves := [swap_entry (today + 365 * 1)%Z c x 0] |}).
  unfold par_swap, dated_leg in B |- *. rewrite B. cbn. reflexivity.
Qed.
Lemma step2 brent c z p r :
  (brent 0 (1 / 2) (fun x => npv true (par_swap c [year0; year1]) today {| c_valuation_date := today; stripped_curves := [p; swap_entry (today + 365 * 2)%Z c x 0] |}) = Ok z) ->
  swaps_loop brent true today [p] (par_swap c [year0; year1] :: r) = swaps_loop brent true today [p; swap_entry (today + 365 * 2)%Z c z 0] r.
Proof.
  intros B. cbn [swaps_loop]. rewrite settle_swap.
  assert (M : swap_maturity_date true (par_swap c [year0; year1]) today = Ok (today + 365 * 2)%Z) by (unfold swap_maturity_date, par_swap; cbn; f_equal; lia).
  rewrite M. cbn [obind nth_error par_swap ounwrap reference_rate dated_leg l_type app]. unfold solve_zero_rate.
  change (fun x => calculate_npv true (par_swap c [year0; year1]) x today [p; _]) with (fun x => npv true (par_swap c [year0; year1]) today {| c_valuation_date := today; stripped_curves := [p; swap_entry (today + 365 * 2)%Z c x 0] |}).
  unfold par_swap, dated_leg in B |- *. rewrite B. cbn. reflexivity.
Qed.
Lemma today0 : (today + 365 * 0)%Z = today. Proof. lia. Qed.
Lemma one_value c x : npv true (par_swap c [year0]) today {| c_valuation_date := today; stripped_curves := [swap_entry (today + 365 * 1)%Z c x 0] |} = Ok ((1 + c) * exp (- x) - 1).
Proof.
  rewrite (value1 c today _ 1 (exp (- x))); [reflexivity| | |apply Rgt_not_eq, exp_pos].
  - pose proof (one_entry 0 c x 0 0 ltac:(lia)) as E. rewrite today0 in E |- *. rewrite E. f_equal. cbn [Z.sub]. replace (- x * _) with 0 by (change (0 - 0)%Z with 0%Z; ring). apply exp_0.
  - pose proof (one_entry 0 c x 0 1 ltac:(lia)) as E. rewrite today0 in E. rewrite E. f_equal. f_equal. change (1 - 0)%Z with 1%Z. ring.
Qed.
Lemma two_value c1 z1 c2 x : npv true (par_swap c2 [year0; year1]) today {| c_valuation_date := today; stripped_curves := [swap_entry (today + 365 * 1)%Z c1 z1 0; swap_entry (today + 365 * 2)%Z c2 x 0] |}
  = Ok (c2 * exp (- (z1 + (x - z1) / 365)) + (1 + c2) * exp (- z1 * 2) - 1).
Proof.
  destruct (two_entries c1 z1 0 c2 x 0) as (A & B & C). unfold two_curve in A, B, C. rewrite today0 in A, B, C. rewrite (value2 c2 today _ 1 _ (exp (- z1 * 2)) ltac:(rewrite today0; exact A) B C); [reflexivity| |]; apply Rgt_not_eq, exp_pos.
Qed.
Lemma strip_one c r : 0 < c -> swaps_loop (two_points 0 (ln (1 + c))) true today [] (par_swap c [year0] :: r) =
  swaps_loop (two_points 0 (ln (1 + c))) true today [swap_entry (today + 365 * 1)%Z c (ln (1 + c)) 0] r.
Proof.
  intros P. apply step1. unfold two_points. rewrite !one_value. rewrite Ropp_0, exp_0. destruct (Req_EM_T _ 0) as [E|_]; [exfalso; lra|].
  destruct (Req_EM_T _ 0) as [_|E]; [reflexivity|]. exfalso. apply E. rewrite exp_Ropp, exp_ln by lra. field. lra.
Qed.
Definition z_one : R := ln (1 + 1 / 50).
(** The two-year par rate for a solved rate of zero. *)
Definition c_two : R := (1 - exp (- z_one * 2)) / (exp (- (z_one + (0 - z_one) / 365)) + exp (- z_one * 2)).
Lemma z_one_pos : 0 < z_one.
Proof. unfold z_one. rewrite <- ln_1. apply ln_increasing; lra. Qed.
Definition two_market := swap_market [par_swap (1 / 50) [year0]; par_swap c_two [year0; year1]].
Lemma strip_two : get_stripped_curve (isort_by (fun d : date => d)) (two_points 0 z_one) true 10 0%Z two_market =
  Ok [swap_entry (today + 365 * 1)%Z (1 / 50) z_one 0; swap_entry (today + 365 * 2)%Z c_two 0 0].
Proof.
  unfold get_stripped_curve, two_market, swap_market. cbn [ym_cash ym_futures ym_swaps ym_valuation_date cash_maturities obind].
  change (isort_by _ []) with (@nil date). cbn [cash_loop obind futures_loop]. unfold z_one at 1. rewrite strip_one by lra. fold z_one.
  rewrite (step2 _ c_two 0); [reflexivity|]. unfold two_points. rewrite !two_value. destruct (Req_EM_T _ 0) as [_|E]; [reflexivity|]. exfalso. apply E.
  pose proof (exp_pos (- (z_one + (0 - z_one) / 365))). pose proof (exp_pos (- z_one * 2)). unfold c_two. set (a := exp (- (z_one + (0 - z_one) / 365))) in *. set (b := exp (- z_one * 2)) in *. field. lra.
Qed.

(** Even an exact root finder does not price every swap quote at zero: a later quote changes the rate at the maturity of an earlier one. *)
Theorem C88_earlier_swap_refuted :
  ~ (forall sort sq brent bv oc depth now v c m caps x w cur y, sorts_by (fun d : date => d) sort -> (forall lo hi f r, brent lo hi f = Ok r -> f r = Ok 0) ->
     from_raw_quotes sort sq brent bv oc depth now v c m caps = Ok x -> v = ym_valuation_date m -> In w (ym_swaps m) -> ic_swap_mtm oc w x = Ok (cur, y) -> y = 0).
Proof.
  intros H. set (y0 := (1 + 1 / 50) * exp (- (z_one + (0 - z_one) / 365)) - 1).
  specialize (H (isort_by (fun d : date => d)) (fun l => l) (two_points 0 z_one) (fun _ _ _ => Err EInvalidData) true 10%positive 0%Z today EUR two_market None).
  unfold from_raw_quotes in H. rewrite strip_two in H. cbn [obind] in H. specialize (H _ (par_swap (1 / 50) [year0]) EUR y0 (isort_sorts _) (two_points_exact 0 z_one) eq_refl eq_refl (or_introl eq_refl)).
  assert (E : y0 = 0).
  { apply H. unfold ic_swap_mtm. cbn [ir_context_new ic_valuation_date ic_curve]. apply C43_mtm.
    destruct (two_entries (1 / 50) z_one 0 c_two 0 0) as (A & B & _). unfold two_curve in A, B. rewrite today0 in A, B.
    fold (par_swap (1 / 50) [year0]). rewrite (value1 (1 / 50) today _ 1 (exp (- (z_one + (0 - z_one) / 365)))); [reflexivity|rewrite today0; exact A|exact B|apply Rgt_not_eq, exp_pos]. }
  unfold y0 in E. pose proof z_one_pos as P. assert (L : exp (- z_one) < exp (- (z_one + (0 - z_one) / 365))) by (apply exp_increasing; lra).
  assert (N : exp (- z_one) = / (1 + 1 / 50)) by (rewrite exp_Ropp; unfold z_one; rewrite exp_ln by lra; reflexivity). rewrite N in L. lra.
Qed.
Print Assumptions C88_earlier_swap_refuted.

(** The dates of the quotes and of the context are not compared: the discount factor is one on the latter. *)
Theorem C88_date_refuted :
  ~ (forall sort sq brent bv oc depth now v c m caps x y, sorts_by (fun d : date => d) sort -> (forall lo hi f r, brent lo hi f = Ok r -> f r = Ok 0) ->
     from_raw_quotes sort sq brent bv oc depth now v c m caps = Ok x -> ic_discount x (ym_valuation_date m) = Ok y -> y = 1).
Proof.
  intros H. specialize (H (isort_by (fun d : date => d)) (fun l => l) (two_points 0 z_one) (fun _ _ _ => Err EInvalidData) true 10%positive 0%Z (today + 365 * 1)%Z EUR (swap_market [par_swap (1 / 50) [year0]]) None).
  assert (S : get_stripped_curve (isort_by (fun d : date => d)) (two_points 0 z_one) true 10 0%Z (swap_market [par_swap (1 / 50) [year0]]) = Ok [swap_entry (today + 365 * 1)%Z (1 / 50) z_one 0]).
  { unfold get_stripped_curve, swap_market. cbn [ym_cash ym_futures ym_swaps ym_valuation_date cash_maturities obind]. change (isort_by _ []) with (@nil date). cbn [cash_loop obind futures_loop]. unfold z_one. rewrite strip_one by lra. reflexivity. }
  unfold from_raw_quotes in H. rewrite S in H. cbn [obind] in H. specialize (H _ (exp (- z_one * IZR (0 - 1))) (isort_sorts _) (two_points_exact 0 z_one) eq_refl).
  assert (E : exp (- z_one * IZR (0 - 1)) = 1). { apply H. unfold ic_discount. cbn [ir_context_new ic_curve ym_valuation_date swap_market]. rewrite <- today0 at 2. apply (one_entry 1 (1 / 50) z_one 0 0). lia. }
  replace (- z_one * IZR (0 - 1)) with z_one in E by (change (0 - 1)%Z with (-1)%Z; ring). unfold z_one in E. rewrite exp_ln in E by lra. lra.
Qed.
Print Assumptions C88_date_refuted.

(** A market of one swap and one cap: the context is built, the swap is priced at zero and the cap at its quote. *)
Example C88_witness : forall npv0, npv0 = exp (- z_one * 2) * bachelier_call (1 / 50) (1 / 50) (1 / 100 * (1 / 100) * 1) ->
  let q := sample_quote (1 / 50) [period1] npv0 in let m := swap_market [par_swap (1 / 50) [year0]] in
  exists x, from_raw_quotes (isort_by (fun d : date => d)) (isort_by (quote_key today)) (two_points 0 z_one) tries true 10 0%Z today EUR m (Some {| cm_valuation_date := today; cm_quotes := [q] |}) = Ok x /\
    sorts_by (fun d : date => d) (isort_by (fun d : date => d)) /\ sorts_by (quote_key today) (isort_by (quote_key today)) /\ (forall lo hi f r, two_points 0 z_one lo hi f = Ok r -> root_within 0 f r) /\ finds_roots 0 tries /\
    ic_swap_mtm true (par_swap (1 / 50) [year0]) x = Ok (EUR, 0) /\ ic_cap_mtm (quoted_cap q EUR today) x = Ok (EUR, npv0) /\ last_accrual_start q = Ok expiry1 /\ ic_caplet_vol x expiry1 (1 / 50) = Ok (1 / 100).
Proof.
  intros npv0 E0 q m. pose proof z_one_pos as ZP.
  assert (S : get_stripped_curve (isort_by (fun d : date => d)) (two_points 0 z_one) true 10 0%Z m = Ok [swap_entry (today + 365 * 1)%Z (1 / 50) z_one 0]).
  { unfold get_stripped_curve, m, swap_market. cbn [ym_cash ym_futures ym_swaps ym_valuation_date cash_maturities obind]. change (isort_by _ []) with (@nil date). cbn [cash_loop obind futures_loop]. unfold z_one. rewrite strip_one by lra. reflexivity. }
  set (y := {| c_valuation_date := today; stripped_curves := [swap_entry (today + 365 * 1)%Z (1 / 50) z_one 0] |}).
  assert (D : forall n, (0 <= n <= 3)%Z -> discount y (today + 365 * n)%Z = Ok (exp (- z_one * IZR n))).
  { intros n H. pose proof (one_entry 0 (1 / 50) z_one 0 n H) as E. rewrite today0 in E. rewrite Z.sub_0_r in E. exact E. }
  assert (YF : forall n, yf365 today (today + 365 * n)%Z = IZR n) by (intros n; rewrite <- today0 at 1; rewrite yf_year, Z.sub_0_r; reflexivity).
  assert (QC : quote_caplet y today q [] (1 / 100) period1 = Ok npv0).
  { apply quote_caplet_iff. exists 1, (exp (- z_one * 1)), (exp (- z_one * 2)), (exp (- z_one * 2)).
    cbn [period1 year_accrual accrual_start accrual_end pay_date q sample_quote cq_day_counter cq_kind cq_strike cq_style cq_direction cq_notional].
    split; [apply year_yf|]. split; [apply D; lia|]. split; [apply D; lia|]. split; [apply D; lia|]. rewrite !YF. cbn [kind_price sign caplet_sigma_for_start].
    assert (FW : (exp (- z_one * 1) / exp (- z_one * 2) - 1) / 1 = 1 / 50).
    { unfold Rdiv at 2. rewrite <- exp_Ropp, <- exp_plus. replace (- z_one * 1 + - (- z_one * 2)) with z_one by ring. unfold z_one. rewrite exp_ln by lra. field. }
    rewrite FW. assert (V : caplet_total_variance ForwardLooking (1 / 100) 1 2 = 1 / 100 * (1 / 100) * 1) by (unfold caplet_total_variance; destruct (Rle_dec _ 0); [lra|]; rewrite Rmax_left by lra; ring).
    change (1 + 1)%Z with 2%Z. rewrite V, E0. ring. }
  assert (VS : strip_caplet_vols (isort_by (quote_key today)) (isort_by (fun d : date => d)) tries y today [q] = Ok [{| cp_expiry := expiry1; cp_nodes := [(1 / 50, 1 / 100)] |}]).
  { unfold strip_caplet_vols, group_quotes. cbn [fold_left add_to_group q sample_quote cq_strike]. fold q. change (VolSurface.rsort fst [(1 / 50, [q])]) with [(1 / 50, [q])].
    cbn [ForwardPoints.omapM fst snd]. unfold strip_one_strike. change (isort_by (quote_key today) [q]) with [q]. cbn [strip_loop]. change (last_accrual_start q) with (Ok expiry1). cbn [obind rev].
    assert (T : tries (/ 10 ^ 5) (1 / 10) (fun x => do npv <- price_cap_with_strip y today q [] x; Ok (npv - cq_market_npv q)) = Ok (1 / 100)).
    { unfold tries, price_cap_with_strip. cbn [q sample_quote cq_schedule]. fold q. cbn [sum_pv]. rewrite QC. cbn [obind q sample_quote cq_market_npv]. destruct (Req_EM_T _ 0) as [_|N]; [reflexivity|exfalso; apply N; ring]. }
    rewrite T. cbn [obind app strip_loop flat_map map snd sp_expiry]. change (isort_by (fun d : date => d) [expiry1]) with [expiry1]. cbn [dedup flat_map]. cbn [pillar_nodes rfind rev app find sp_expiry]. rewrite Z.leb_refl. reflexivity. }
  unfold from_raw_quotes. rewrite S. cbn [obind cm_valuation_date cm_quotes]. fold y. rewrite VS. cbn [obind]. eexists. split; [reflexivity|].
  split; [apply isort_sorts|]. split; [apply isort_sorts|]. split. { intros lo hi f r H. exists 0. split; [apply (two_points_exact _ _ _ _ _ _ H)|left; rewrite Rabs_R0; lra]. }
  split; [exact tries_finds|]. split; [|split; [|split; [reflexivity|]]].
  - unfold ic_swap_mtm. cbn [ir_context_new ic_valuation_date ic_curve]. apply C43_mtm. fold (par_swap (1 / 50) [year0]). unfold y. rewrite one_value. f_equal. rewrite exp_Ropp. unfold z_one. rewrite exp_ln by lra. field.
  - unfold ic_cap_mtm, cap_mtm. cbn [ir_context_new ic_curve ic_caps cap_unpack obind].
    assert (E : cap_pv (quoted_cap q EUR today) y [{| cp_expiry := expiry1; cp_nodes := [(1 / 50, 1 / 100)] |}] 0 0 = Ok npv0); [|rewrite E; reflexivity].
    assert (TR : sum_pv (quote_caplet y today q [] (1 / 100)) 0 [period1] = Ok npv0) by (cbn [sum_pv]; rewrite QC; cbn [obind]; f_equal; ring).
    revert TR. apply sum_pv_transfer. intros a x [<-|[]] H0. apply quote_caplet_iff in H0 as (tau & ds & de & dp & H1 & H2 & H3 & H4 & ->).
    apply caplet_pv_iff. cbn [quoted_cap cf_day_counter cf_strike cf_style cf_kind cf_direction cf_notional cf_valuation_date].
    exists tau, ds, de, dp, (1 / 100).
    split; [exact H1|]. split; [apply shifted_zero, H2|]. split; [apply shifted_zero, H3|]. split; [apply shifted_zero, H4|].
    split; [reflexivity|rewrite Rmult_0_l, Rplus_0_r; reflexivity].
  - unfold ic_caplet_vol. cbn [ir_context_new ic_caps]. unfold caplet_volatility. cbn [find cp_expiry]. rewrite Z.leb_refl. reflexivity.
Qed.
Print Assumptions C88_witness.
