(** C45: stripping caplet volatilities from cap quotes. *)
From Coq Require Import ZArith Lia Bool List Reals Lra Permutation Sorting.Sorted.
Import ListNotations.
From Verif Require Import Outcome Date DateFacts CalendarFacts Sorting Fx ForwardPoints YieldCurve YieldCurveFacts FxForward Swap SwapValueFacts
  Normal BlackScholes VolSurface VolFacts Bootstrap CapSurface CapFacts P_BlackScholes.
Open Scope R_scope.
Local Ltac lia := unfold date in *; Lia.lia.

(** The quoted cap, as a deal valued on the surface. *)
Definition quoted_cap (q : cap_quote) (cur : currency) (vd : date) : cap_floor :=
  {| cf_direction := cq_direction q; cf_kind := cq_kind q; cf_style := cq_style q; cf_currency := cur;
     cf_notional := cq_notional q; cf_strike := cq_strike q; cf_valuation_date := vd;
     cf_schedule := cq_schedule q; cf_day_counter := cq_day_counter q |}.

(** A root finder whose results leave at most [tol]: where it returns a point, and
    the function has a value all over the bracket, the value there is that small. *)
Definition finds_roots (tol : R) (brent : R -> R -> (R -> outcome R) -> outcome R) : Prop :=
  forall lo hi f r, brent lo hi f = Ok r -> (forall x, lo <= x <= hi -> exists w, f x = Ok w) ->
  exists w, f r = Ok w /\ Rabs w <= tol.

(** Every quoted cap of a surface is repriced, provided that its column (the quotes
    with its strike) also has a quote for each other quoted expiry up to its own. *)
Theorem C45_partial : forall sort sort_dates brent tol (y : curve) (vd : date),
  sorts_by (quote_key vd) sort -> sorts_by (fun d : date => d) sort_dates -> finds_roots tol brent ->
  forall quotes vs q e cur w,
  (forall q q', In q quotes -> In q' quotes -> Rabs (cq_strike q - cq_strike q') < / 10 ^ 12 -> cq_strike q = cq_strike q') ->
  strip_caplet_vols sort sort_dates brent y vd quotes = Ok vs ->
  In q quotes -> last_accrual_start q = Ok e ->
  (forall a, In a (cq_schedule q) -> (accrual_start a <= e)%Z) ->
  (forall q', In q' quotes -> cq_strike q' = cq_strike q -> last_accrual_start q' = Ok e -> q' = q) ->
  (forall q' e', In q' quotes -> last_accrual_start q' = Ok e' -> (e' < e)%Z ->
     exists q'', In q'' quotes /\ cq_strike q'' = cq_strike q /\ last_accrual_start q'' = Ok e') ->
  cap_mtm (quoted_cap q cur vd) y (Some vs) = Ok (cur, w) ->
  Rabs (w - cq_market_npv q) <= tol.
Proof.
  intros sort sort_dates brent tol y vd HS HD HB quotes vs q e cur w SEP ST IQ HE LE UN COMP M.
  destruct (columns_spec sort sort_dates brent y vd HS HD quotes vs SEP ST) as (columns & expiries & SC & KC & COL & SE & EI & EV).
  destruct (KC q IQ) as (strip & IS). destruct (COL _ _ IS) as (_ & SA & QS & PS).
  destruct (QS q IQ eq_refl) as (e' & HE' & IE). assert (e' = e) by congruence. subst e'.
  apply in_map_iff in IE as (p & Ep & Ip). pose proof Ip as Ip'. apply in_split in Ip' as (pre & post & ESP).
  destruct (PS _ _ _ ESP) as (q' & Iq' & Sq' & Lq' & Bq'). rewrite Ep in Lq'.
  assert (q' = q) by (apply UN; assumption). subst q'. clear Iq' Sq' Lq'.
  assert (LK : forall a, In a (cq_schedule q) -> caplet_volatility vs (accrual_start a) (cq_strike q) =
    Ok (caplet_sigma_for_start (accrual_start a) pre (sp_sigma p))).
  { intros a Ia. rewrite EV, (lookup brent columns expiries (cq_strike q) strip p (accrual_start a) 0 SC SE EI IS SA Ip).
    - rewrite ESP, sigma_split; [reflexivity|]. rewrite Ep. apply LE, Ia.
    - rewrite Ep. apply LE, Ia.
    - intros d Id Ld. rewrite Ep in Ld. destruct (Z.eq_dec d e) as [->|N]; [rewrite <- Ep; apply in_map; exact Ip|].
      apply EI in Id as (k1 & s1 & p1 & I1 & I2 & E1). apply in_split in I2 as (l1 & r1 & E2).
      destruct (COL _ _ I1) as (_ & _ & _ & PS1). destruct (PS1 _ _ _ E2) as (q1 & J1 & _ & J3 & _). rewrite E1 in J3.
      destruct (COMP q1 d J1 J3 ltac:(lia)) as (q2 & J4 & J5 & J6). destruct (QS q2 J4 J5) as (d' & J7 & J8). assert (d' = d) by congruence. subst d'. exact J8. }
  unfold cap_mtm in M. cbn [cap_unpack obind] in M. apply obind_Ok in M as (w' & M & E). assert (w' = w) by congruence. subst w'. clear E.
  unfold cap_pv in M. cbn [quoted_cap cf_schedule] in M.
  assert (TR : sum_pv (quote_caplet y vd q pre (sp_sigma p)) 0 (cq_schedule q) = Ok w).
  { revert M. apply sum_pv_transfer. intros a x Ia H. apply caplet_pv_iff in H as (tau & ds & de & dp & s & H1 & H2 & H3 & H4 & H5 & ->).
    cbn [quoted_cap cf_day_counter cf_strike cf_style cf_kind cf_direction cf_notional cf_valuation_date] in *.
    apply shifted_zero in H2. apply shifted_zero in H3. apply shifted_zero in H4. rewrite (LK a Ia) in H5. apply Ok_R in H5. subst s.
    apply quote_caplet_iff. exists tau, ds, de, dp. repeat (split; [assumption|]). rewrite Rmult_0_l, Rplus_0_r. reflexivity. }
  assert (TOT : forall x, / 10 ^ 5 <= x <= 1 / 10 -> exists w, residual y vd q pre x = Ok w).
  { intros x _. unfold residual, price_cap_with_strip. destruct (sum_pv_ok (quote_caplet y vd q pre x) (cq_schedule q) 0) as (w0 & ->); [|eexists; reflexivity].
    intros a Ia. destruct (sum_pv_each _ _ _ _ TR a Ia) as (x0 & H0). apply quote_caplet_iff in H0 as (tau & ds & de & dp & H1 & H2 & H3 & H4 & _).
    eexists. apply quote_caplet_iff. exists tau, ds, de, dp. repeat (split; [eassumption|]). reflexivity. }
  destruct (HB _ _ _ _ Bq' TOT) as (z & Hz & Lz). unfold residual, price_cap_with_strip in Hz. rewrite TR in Hz. cbn [obind] in Hz.
  apply Ok_R in Hz. rewrite Hz. exact Lz.
Qed.
Print Assumptions C45_partial.

(** A flat curve at zero. *)
Definition flat_curve (v : date) : curve :=
  {| c_valuation_date := v;
     stripped_curves := [{| first_settle_date := v; p_date := (v + 3650)%Z; market_rate := 0; p_zero_rate := 0; p_discount := 1;
                            source := SourceOIS; hidden_pillar := false |}] |}.
Definition year_accrual (v : date) (n : Z) : accrual :=
  {| accrual_start := (v + 365 * n)%Z; accrual_end := (v + 365 * (n + 1))%Z; pay_date := (v + 365 * (n + 1))%Z; reset_date := (v + 365 * n)%Z;
     amortisation := 0; balance := 1 |}.
Definition today := of_ymd 2024 1 2.
Definition sample_quote (k : R) (s : list accrual) (npv : R) : cap_quote :=
  {| cq_strike := k; cq_notional := 1; cq_direction := Buy; cq_kind := Cap; cq_style := ForwardLooking; cq_schedule := s;
     cq_day_counter := act365; cq_market_npv := npv |}.
(** A root finder that tries two points. *)
Definition tries (lo hi : R) (f : R -> outcome R) : outcome R :=
  match f (1 / 100) with
  | Ok z => if Req_EM_T z 0 then Ok (1 / 100) else
      match f (2 / 100) with
      | Ok z => if Req_EM_T z 0 then Ok (2 / 100) else Err EInvalidData
      | _ => Err EInvalidData
      end
  | _ => Err EInvalidData
  end.
Lemma tries_finds : finds_roots 0 tries.
Proof.
  intros lo hi f r H _. unfold tries in H. destruct (f (1 / 100)) as [z| |] eqn:E; try discriminate. destruct (Req_EM_T z 0) as [->|N].
  - apply Ok_R in H. subst r. exists 0. rewrite Rabs_R0. split; [exact E|lra].
  - destruct (f (2 / 100)) as [z'| |] eqn:E'; try discriminate. destruct (Req_EM_T z' 0) as [->|N']; [|discriminate].
    apply Ok_R in H. subst r. exists 0. rewrite Rabs_R0. split; [exact E'|lra].
Qed.

Lemma flat_discount d : in_range (d + 1)%Z -> discount (flat_curve today) d = Ok 1.
Proof.
  intros R. unfold discount, zero_rate. rewrite (proj2 (add_days_Ok d 1 (d + 1)%Z) (conj eq_refl R)). cbn [obind flat_curve stripped_curves].
  set (pl := {| first_settle_date := _ |}).
  assert (E : (let '(first, second) := scan_pillars (d + 1)%Z pl pl [pl] in
     let true_first := match find (fun c => negb (hidden_pillar c)) [pl] with Some c => c | None => pl end in
     if pillar_eqb second true_first then Ok (p_zero_rate true_first)
     else let d1 := IZR (d + 1 - p_date first)%Z in let d2 := IZR (p_date second - (d + 1))%Z in
        Ok ((d1 * p_zero_rate second + d2 * p_zero_rate first) / (d1 + d2))) = Ok 0).
  { assert (X : scan_pillars (d + 1)%Z pl pl [pl] = (pl, pl)) by (cbn [scan_pillars]; destruct ((d + 1 <=? p_date pl)%Z && negb (hidden_pillar pl)); reflexivity).
    rewrite X. cbv zeta. cbn [find hidden_pillar pl negb]. fold pl. unfold pillar_eqb, Reqb. rewrite !Z.eqb_refl.
    repeat (destruct (Req_EM_T _ _); [|congruence]). reflexivity. }
  cbv zeta in E. rewrite E. cbn [obind]. replace (- 0 * _) with 0 by ring. rewrite exp_0. reflexivity.
Qed.

Lemma sample_range n : (0 <= n <= 3)%Z -> in_range (today + 365 * n + 1)%Z.
Proof. intros H. apply in_range_val. assert (E : today = of_ymd 2024 1 2) by reflexivity. set (t := of_ymd 2024 1 2) in *. vm_compute in t. subst t. lia. Qed.

Lemma sample_caplet k s npv pre x n : (0 <= n <= 2)%Z ->
  quote_caplet (flat_curve today) today (sample_quote k s npv) pre x (year_accrual today n) =
  Ok (bachelier_call 0 k (caplet_sigma_for_start (today + 365 * n)%Z pre x * caplet_sigma_for_start (today + 365 * n)%Z pre x * IZR n)).
Proof.
  intros H. apply quote_caplet_iff. exists 1, 1, 1, 1.
  assert (Y : forall m, yf365 today (today + 365 * m)%Z = IZR m).
  { intros m. unfold yf365. replace (today + 365 * m - today)%Z with (365 * m)%Z by ring. rewrite mult_IZR. field. }
  cbn [year_accrual accrual_start accrual_end pay_date sample_quote cq_day_counter cq_kind cq_strike cq_style cq_direction cq_notional act365 dc_yf].
  split. { unfold yf365. replace (today + 365 * (n + 1) - (today + 365 * n))%Z with 365%Z by ring. f_equal. lra. }
  split; [apply flat_discount, sample_range; lia|]. split; [apply flat_discount, sample_range; lia|]. split; [apply flat_discount, sample_range; lia|].
  rewrite !Y. cbn [kind_price sign]. replace ((1 / 1 - 1) / 1) with 0 by field.
  assert (V : caplet_total_variance ForwardLooking (caplet_sigma_for_start (today + 365 * n)%Z pre x) (IZR n) (IZR (n + 1)%Z)
    = caplet_sigma_for_start (today + 365 * n)%Z pre x * caplet_sigma_for_start (today + 365 * n)%Z pre x * IZR n).
  { unfold caplet_total_variance. rewrite plus_IZR. assert (0 <= IZR n) by (apply IZR_le; lia). destruct (Rle_dec _ 0); [lra|]. rewrite Rmax_left by lra. reflexivity. }
  rewrite V. ring.
Qed.

Definition period1 := year_accrual today 1.
Definition period2 := year_accrual today 2.
Definition expiry1 := (today + 365 * 1)%Z.
Definition expiry2 := (today + 365 * 2)%Z.
Lemma pillars_of k1 k2 e1 e2 s1 s2 : k1 < k2 -> e1 = expiry1 -> e2 = expiry2 ->
  let columns := [(k1, [{| sp_expiry := e1; sp_sigma := s1 |}]); (k2, [{| sp_expiry := e2; sp_sigma := s2 |}])] in
  flat_map (fun exp => match rsort fst (pillar_nodes columns exp) with [] => []
                       | _ => [{| cp_expiry := exp; cp_nodes := rsort fst (pillar_nodes columns exp) |}] end)
    (dedup (isort_by (fun d : date => d) (flat_map (fun c => map sp_expiry (snd c)) columns)))
  = [{| cp_expiry := expiry1; cp_nodes := [(k1, s1)] |}; {| cp_expiry := expiry2; cp_nodes := [(k1, s1); (k2, s2)] |}].
Proof.
  intros L -> -> columns.
  assert (E1 : pillar_nodes columns expiry1 = [(k1, s1)]) by (vm_compute; reflexivity).
  assert (E2 : pillar_nodes columns expiry2 = [(k1, s1); (k2, s2)]) by (vm_compute; reflexivity).
  replace (dedup _) with [expiry1; expiry2] by (vm_compute; reflexivity).
  cbn [flat_map]. rewrite E1, E2. cbn [rsort fold_right rinsert fst]. destruct (Rle_dec k1 k2); [|lra]. reflexivity.
Qed.

Lemma sample_residual1 k npv x : residual (flat_curve today) today (sample_quote k [period1] npv) [] x = Ok (bachelier_call 0 k (x * x * 1) - npv).
Proof.
  unfold residual, price_cap_with_strip. cbn [sample_quote cq_schedule sum_pv]. unfold period1.
  fold (sample_quote k [period1] npv). rewrite sample_caplet by lia. cbn [obind caplet_sigma_for_start sample_quote cq_market_npv]. f_equal. ring.
Qed.
Lemma sample_residual2 k npv x : residual (flat_curve today) today (sample_quote k [period1; period2] npv) [] x =
  Ok (bachelier_call 0 k (x * x * 1) + bachelier_call 0 k (x * x * 2) - npv).
Proof.
  unfold residual, price_cap_with_strip. cbn [sample_quote cq_schedule sum_pv]. 
  fold (sample_quote k [period1; period2] npv). unfold period1 at 2. rewrite sample_caplet by lia. cbn [obind].
  unfold period2 at 2. rewrite sample_caplet by lia. cbn [obind caplet_sigma_for_start sample_quote cq_market_npv]. f_equal. ring.
Qed.
Lemma call_less k x y n : 0 < x < y -> 0 < n -> bachelier_call 0 k (x * x * n) < bachelier_call 0 k (y * y * n).
Proof.
  intros H N. assert (x * x < y * y) by nra. assert (0 < y * y) by nra.
  apply C37_increasing; [apply Rmult_lt_0_compat; assumption|apply Rmult_lt_compat_r; assumption].
Qed.
Lemma sample_solve1 k lo hi : tries lo hi (residual (flat_curve today) today (sample_quote k [period1] (bachelier_call 0 k (1 / 100 * (1 / 100) * 1))) [])
  = Ok (1 / 100).
Proof. unfold tries. rewrite sample_residual1. destruct (Req_EM_T _ 0); [reflexivity|]. exfalso. apply n. ring. Qed.
Lemma sample_solve2 k lo hi : tries lo hi (residual (flat_curve today) today (sample_quote k [period1; period2]
    (bachelier_call 0 k (2 / 100 * (2 / 100) * 1) + bachelier_call 0 k (2 / 100 * (2 / 100) * 2))) []) = Ok (2 / 100).
Proof.
  unfold tries. rewrite !sample_residual2.
  pose proof (call_less k (1 / 100) (2 / 100) 1 ltac:(lra) ltac:(lra)). pose proof (call_less k (1 / 100) (2 / 100) 2 ltac:(lra) ltac:(lra)).
  destruct (Req_EM_T _ 0); [lra|]. destruct (Req_EM_T _ 0); [reflexivity|]. exfalso. apply n0. ring.
Qed.

Definition early_quote : cap_quote := sample_quote 0 [period1] (bachelier_call 0 0 (1 / 100 * (1 / 100) * 1)).
Definition late_quote : cap_quote := sample_quote 1 [period1; period2]
  (bachelier_call 0 1 (2 / 100 * (2 / 100) * 1) + bachelier_call 0 1 (2 / 100 * (2 / 100) * 2)).
Lemma sample_surface : strip_caplet_vols (isort_by (quote_key today)) (isort_by (fun d : date => d)) tries (flat_curve today) today [early_quote; late_quote]
  = Ok [{| cp_expiry := expiry1; cp_nodes := [(0, 1 / 100)] |}; {| cp_expiry := expiry2; cp_nodes := [(0, 1 / 100); (1, 2 / 100)] |}].
Proof.
  assert (G : group_quotes [early_quote; late_quote] = [(0, [early_quote]); (1, [late_quote])]).
  { unfold group_quotes. cbn [fold_left add_to_group early_quote late_quote sample_quote cq_strike]. fold early_quote late_quote.
    assert (P : / 10 ^ 12 <= / 1) by (apply Rinv_le_contravar; [lra|apply pow_R1_Rle; lra]).
    destruct (Rlt_dec (Rabs (0 - 1)) (/ 10 ^ 12)) as [C|C]; [exfalso; rewrite Rabs_left in C by lra; lra|].
    cbn [rsort fold_right rinsert fst]. destruct (Rle_dec 0 1); [|lra]. reflexivity. }
  unfold strip_caplet_vols. rewrite G. cbn [omapM fst snd]. unfold strip_one_strike. cbn [isort_by fold_right insert_by strip_loop].
  change (last_accrual_start early_quote) with (Ok expiry1). change (last_accrual_start late_quote) with (Ok expiry2). cbn [obind rev].
  change (fun x => do npv <- price_cap_with_strip (flat_curve today) today early_quote [] x; Ok (npv - cq_market_npv early_quote))
    with (residual (flat_curve today) today early_quote []).
  change (fun x => do npv <- price_cap_with_strip (flat_curve today) today late_quote [] x; Ok (npv - cq_market_npv late_quote))
    with (residual (flat_curve today) today late_quote []).
  unfold early_quote at 1. rewrite sample_solve1. cbn [obind app strip_loop]. unfold late_quote at 1. rewrite sample_solve2. cbn [obind app strip_loop].
  f_equal. apply (pillars_of 0 1 expiry1 expiry2 (1 / 100) (2 / 100)); [lra|reflexivity|reflexivity].
Qed.

(** Without the complete column the claim is false: a strike quoted for the second
    expiry only takes its first caplet's volatility from the other strike. *)
Theorem C45_refuted :
  ~ (forall sort sort_dates brent tol (y : curve) (vd : date),
     sorts_by (quote_key vd) sort -> sorts_by (fun d : date => d) sort_dates -> finds_roots tol brent ->
     forall quotes vs q e cur w,
     (forall q q', In q quotes -> In q' quotes -> Rabs (cq_strike q - cq_strike q') < / 10 ^ 12 -> cq_strike q = cq_strike q') ->
     strip_caplet_vols sort sort_dates brent y vd quotes = Ok vs ->
     In q quotes -> last_accrual_start q = Ok e ->
     (forall a, In a (cq_schedule q) -> (accrual_start a <= e)%Z) ->
     (forall q', In q' quotes -> cq_strike q' = cq_strike q -> last_accrual_start q' = Ok e -> q' = q) ->
     cap_mtm (quoted_cap q cur vd) y (Some vs) = Ok (cur, w) ->
     Rabs (w - cq_market_npv q) <= tol).
Proof.
  intros H.
  set (w := bachelier_call 0 1 (1 / 100 * (1 / 100) * 1) + bachelier_call 0 1 (2 / 100 * (2 / 100) * 2)).
  specialize (H _ _ _ _ (flat_curve today) today (isort_sorts (quote_key today)) (isort_sorts (fun d : date => d)) tries_finds
    [early_quote; late_quote]
    [{| cp_expiry := expiry1; cp_nodes := [(0, 1 / 100)] |}; {| cp_expiry := expiry2; cp_nodes := [(0, 1 / 100); (1, 2 / 100)] |}]
    late_quote expiry2 USD w).
  assert (NZ : forall q q', In q [early_quote; late_quote] -> In q' [early_quote; late_quote] ->
    Rabs (cq_strike q - cq_strike q') < / 10 ^ 12 -> cq_strike q = cq_strike q').
  { assert (P : / 10 ^ 12 <= / 1) by (apply Rinv_le_contravar; [lra|apply pow_R1_Rle; lra]).
    intros q q' [<-|[<-|[]]] [<-|[<-|[]]]; cbn [early_quote late_quote sample_quote cq_strike]; intros L; try reflexivity;
      [rewrite Rabs_left in L by lra|rewrite Rabs_right in L by lra]; lra. }
  assert (M : cap_mtm (quoted_cap late_quote USD today) (flat_curve today)
    (Some [{| cp_expiry := expiry1; cp_nodes := [(0, 1 / 100)] |}; {| cp_expiry := expiry2; cp_nodes := [(0, 1 / 100); (1, 2 / 100)] |}]) = Ok (USD, w)).
  { unfold cap_mtm. cbn [cap_unpack obind]. set (vs := [_; _]).
    assert (L1 : caplet_volatility vs expiry1 1 = Ok (1 / 100)) by reflexivity.
    assert (L2 : caplet_volatility vs expiry2 1 = Ok (2 / 100)).
    { change (interpolate_nodes [(0, 1 / 100); (1, 2 / 100)] 1 = Ok (2 / 100)). apply interpolate_knot; [|right; left; reflexivity].
      repeat constructor; cbn; lra. }
    assert (E : cap_pv (quoted_cap late_quote USD today) (flat_curve today) vs 0 0 = Ok w); [|rewrite E; reflexivity].
    unfold cap_pv. cbn [quoted_cap cf_schedule late_quote sample_quote cq_schedule].
    set (v0 := {| sp_expiry := expiry1; sp_sigma := 1 / 100 |}).
    assert (TR : sum_pv (quote_caplet (flat_curve today) today late_quote [v0] (2 / 100)) 0 [period1; period2] = Ok w).
    { cbn [sum_pv]. unfold period1, late_quote at 1. rewrite sample_caplet by lia. cbn [obind]. unfold period2, late_quote at 1. rewrite sample_caplet by lia. cbn [obind].
      f_equal. unfold w. change (caplet_sigma_for_start (today + 365 * 1)%Z [v0] (2 / 100)) with (1 / 100).
      change (caplet_sigma_for_start (today + 365 * 2)%Z [v0] (2 / 100)) with (2 / 100). ring. }
    revert TR. apply sum_pv_transfer. intros a x I H0. apply quote_caplet_iff in H0 as (tau & ds & de & dp & H1 & H2 & H3 & H4 & ->).
    apply caplet_pv_iff. cbn [quoted_cap cf_day_counter cf_strike cf_style cf_kind cf_direction cf_notional cf_valuation_date].
    exists tau, ds, de, dp, (caplet_sigma_for_start (accrual_start a) [v0] (2 / 100)).
    split; [exact H1|]. split; [apply shifted_zero, H2|]. split; [apply shifted_zero, H3|]. split; [apply shifted_zero, H4|].
    split; [|rewrite Rmult_0_l, Rplus_0_r; reflexivity]. destruct I as [<-|[<-|[]]]; [exact L1|exact L2]. }
  specialize (H NZ sample_surface (or_intror (or_introl eq_refl)) eq_refl).
  assert (Rabs (w - cq_market_npv late_quote) <= 0).
  { apply H.
    - intros a [<-|[<-|[]]]; vm_compute; discriminate.
    - intros q' [<-|[<-|[]]] E _; [exfalso; cbn [early_quote late_quote sample_quote cq_strike] in E; lra|reflexivity].
    - exact M. }
  pose proof (call_less 1 (1 / 100) (2 / 100) 1 ltac:(lra) ltac:(lra)) as L. cbn [late_quote sample_quote cq_market_npv] in H0. unfold w in H0.
  rewrite Rabs_left in H0 by lra. lra.
Qed.
Print Assumptions C45_refuted.

(** The hypotheses of [C45_partial] hold of the first cap of that surface. *)
Example C45_witness :
  sorts_by (quote_key today) (isort_by (quote_key today)) /\ sorts_by (fun d : date => d) (isort_by (fun d : date => d)) /\ finds_roots 0 tries /\
  exists vs w, strip_caplet_vols (isort_by (quote_key today)) (isort_by (fun d : date => d)) tries (flat_curve today) today [early_quote; late_quote] = Ok vs /\
  last_accrual_start early_quote = Ok expiry1 /\
  (forall a, In a (cq_schedule early_quote) -> (accrual_start a <= expiry1)%Z) /\
  (forall q', In q' [early_quote; late_quote] -> cq_strike q' = cq_strike early_quote -> last_accrual_start q' = Ok expiry1 -> q' = early_quote) /\
  (forall q' e', In q' [early_quote; late_quote] -> last_accrual_start q' = Ok e' -> (e' < expiry1)%Z ->
     exists q'', In q'' [early_quote; late_quote] /\ cq_strike q'' = cq_strike early_quote /\ last_accrual_start q'' = Ok e') /\
  cap_mtm (quoted_cap early_quote USD today) (flat_curve today) (Some vs) = Ok (USD, w).
Proof.
  split; [apply isort_sorts|]. split; [apply isort_sorts|]. split; [exact tries_finds|].
  eexists _, (bachelier_call 0 0 (1 / 100 * (1 / 100) * 1)). split; [exact sample_surface|]. split; [reflexivity|].
  split; [intros a [<-|[]]; vm_compute; discriminate|].
  split; [intros q' [<-|[<-|[]]] E _; [reflexivity|exfalso; cbn [early_quote late_quote sample_quote cq_strike] in E; lra]|].
  split.
  { intros q' e' [<-|[<-|[]]] E L; [change (last_accrual_start early_quote) with (Ok expiry1) in E|change (last_accrual_start late_quote) with (Ok expiry2) in E];
      injection E as <-; exfalso; vm_compute in L; discriminate. }
  unfold cap_mtm. cbn [cap_unpack obind]. set (vs := [_; _]).
  assert (E : cap_pv (quoted_cap early_quote USD today) (flat_curve today) vs 0 0 = Ok (bachelier_call 0 0 (1 / 100 * (1 / 100) * 1))); [|rewrite E; reflexivity].
  assert (TR : sum_pv (quote_caplet (flat_curve today) today early_quote [] (1 / 100)) 0 [period1] = Ok (bachelier_call 0 0 (1 / 100 * (1 / 100) * 1))).
  { cbn [sum_pv]. unfold period1, early_quote at 1. rewrite sample_caplet by lia. cbn [obind caplet_sigma_for_start]. f_equal. ring. }
  revert TR. apply sum_pv_transfer. intros a x [<-|[]] H0. apply quote_caplet_iff in H0 as (tau & ds & de & dp & H1 & H2 & H3 & H4 & ->).
  apply caplet_pv_iff. cbn [quoted_cap cf_day_counter cf_strike cf_style cf_kind cf_direction cf_notional cf_valuation_date].
  exists tau, ds, de, dp, (1 / 100).
  split; [exact H1|]. split; [apply shifted_zero, H2|]. split; [apply shifted_zero, H3|]. split; [apply shifted_zero, H4|].
  split; [reflexivity|rewrite Rmult_0_l, Rplus_0_r; reflexivity].
Qed.
