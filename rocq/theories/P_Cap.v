(** C64-C68: caplet volatilities, caplet variance, and the value and risk of caps and floors. *)
From Coq Require Import ZArith Lia Bool List Reals Lra Permutation Sorting.Sorted.
From Coquelicot Require Import Coquelicot.
Import ListNotations.
From Verif Require Import Outcome Date DateFacts CalendarFacts Sorting Fx ForwardPoints YieldCurve YieldCurveSpec YieldCurveFacts FxForward Swap SwapValueFacts
  Normal BlackScholes BlackFacts VolSurface VolFacts Bootstrap CapSurface CapFacts P_BlackScholes P_CapSurface.
Open Scope R_scope.
Local Ltac lia := unfold date in *; Lia.lia.

(** ** C64: the volatility of a caplet *)
Lemma scan_nodes_between l i a b k : increases l -> nth_error l i = Some a -> nth_error l (S i) = Some b -> fst a <= k <= fst b ->
  scan_nodes l k = Some (snd a + (k - fst a) / (fst b - fst a) * (snd b - snd a)).
Proof.
  revert i. induction l as [|lo r IH]; intros i S Ea Eb K; [destruct i; discriminate|]. inversion S as [|? ? S' F]; subst.
  destruct r as [|hi r]; [destruct i as [|[|i]]; discriminate|]. cbn [scan_nodes].
  destruct i as [|i].
  - cbn in Ea, Eb. injection Ea as ->. injection Eb as ->. destruct (Rle_dec (fst a) k); [|lra]. destruct (Rle_dec k (fst b)); [reflexivity|lra].
  - change (nth_error (hi :: r) i = Some a) in Ea. change (nth_error (hi :: r) (Datatypes.S i) = Some b) in Eb.
    pose proof (IH i S' Ea Eb K) as E. rewrite Forall_forall in F.
    assert (fst lo < fst a) by (apply F; eapply nth_error_In; exact Ea).
    destruct (Rle_dec (fst lo) k); [|exact E]. destruct (Rle_dec k (fst hi)) as [C|C]; [|exact E].
    (* k is the knot [hi] itself *)
    assert (fst hi <= fst a). { destruct i as [|i]; [cbn in Ea; injection Ea as ->; lra|]. left. apply (increases_nth (hi :: r) 0 (Datatypes.S i) hi a S' eq_refl Ea). lia. }
    assert (EK : k = fst hi) by lra. assert (EA : fst a = fst hi) by lra.
    assert (a = hi). { destruct i as [|i]; [cbn in Ea; congruence|]. pose proof (increases_nth (hi :: r) 0 (Datatypes.S i) hi a S' eq_refl Ea ltac:(lia)). lra. }
    subst a. inversion S' as [|? ? _ F']; subst. f_equal. cbv zeta.
    assert (fst hi < fst b) by (rewrite Forall_forall in F'; apply F'; apply (nth_error_In r i); exact Eb).
    unfold Rdiv. replace (fst hi - fst hi) with 0 by ring. rewrite !Rmult_0_l, Rplus_0_r. field. pose proof (F hi (or_introl eq_refl)). cbv beta in *. lra.
Qed.

(** In strike: exact at the nodes, linear between neighbours, flat outside. *)
Theorem C64_strike : forall nodes, increases nodes ->
  (forall k v, In (k, v) nodes -> interpolate_nodes nodes k = Ok v) /\
  (forall i k1 v1 k2 v2 k, nth_error nodes i = Some (k1, v1) -> nth_error nodes (S i) = Some (k2, v2) -> k1 <= k <= k2 ->
     exists v, interpolate_nodes nodes k = Ok v /\ (v - v1) * (k2 - k1) = (v2 - v1) * (k - k1) /\ Rmin v1 v2 <= v <= Rmax v1 v2) /\
  (forall k1 v1 k, In (k1, v1) nodes -> (forall n, In n nodes -> k1 <= fst n) -> k <= k1 -> interpolate_nodes nodes k = Ok v1) /\
  (forall k1 v1 k, In (k1, v1) nodes -> (forall n, In n nodes -> fst n <= k1) -> k1 <= k -> interpolate_nodes nodes k = Ok v1).
Proof.
  intros nodes S. split; [intros k v; apply interpolate_knot, S|]. split; [|split].
  - intros i k1 v1 k2 v2 k E1 E2 K. pose proof (increases_nth _ _ _ _ _ S E1 E2 ltac:(lia)) as LK. cbn [fst] in LK.
    set (v := v1 + (k - k1) / (k2 - k1) * (v2 - v1)).
    assert (EV : interpolate_nodes nodes k = Ok v).
    { destruct (Req_dec k k1) as [->|N1].
      { rewrite (interpolate_knot _ k1 v1 S (nth_error_In _ _ E1)). f_equal. unfold v, Rdiv. replace (k1 - k1) with 0 by ring. ring. }
      destruct (Req_dec k k2) as [->|N2].
      { rewrite (interpolate_knot _ k2 v2 S (nth_error_In _ _ E2)). f_equal. unfold v. field. lra. }
      destruct nodes as [|a [|b r]]; [destruct i; discriminate|destruct i as [|[|i]]; discriminate|].
      unfold interpolate_nodes. cbv zeta.
      assert (LE : last (b :: r) a = last (a :: b :: r) a) by reflexivity. rewrite LE.
      pose proof (increases_last (a :: b :: r) a S ltac:(discriminate) _ (nth_error_In _ _ E2)) as HL.
      destruct (Rle_dec k (fst a)) as [C|C].
      { exfalso. destruct i as [|i]; [cbn in E1; injection E1 as ->; cbn [fst] in C; lra|].
        pose proof (increases_nth _ 0 (Datatypes.S i) a _ S eq_refl E1 ltac:(lia)). cbn [fst] in *. lra. }
      destruct (Rle_dec (fst (last (a :: b :: r) a)) k) as [C'|C'].
      { exfalso. destruct HL as [HL|HL]; [rewrite <- HL in C'; cbn [fst] in C'; lra|cbn [fst] in HL; lra]. }
      rewrite (scan_nodes_between _ i (k1, v1) (k2, v2) k S E1 E2 K). reflexivity. }
    exists v. split; [exact EV|]. split; [unfold v; field; lra|].
    assert (T : 0 <= (k - k1) / (k2 - k1) <= 1).
    { split; [apply Rmult_le_pos; [lra|left; apply Rinv_0_lt_compat; lra]|]. apply (Rmult_le_reg_r (k2 - k1)); [lra|]. unfold Rdiv. rewrite Rmult_assoc, Rinv_l by lra. lra. }
    unfold v. set (t := (k - k1) / (k2 - k1)) in *. unfold Rmin, Rmax. destruct (Rle_dec v1 v2); nra.
  - intros k1 v1 k I M L. destruct nodes as [|a [|b r]]; [destruct I|destruct I as [->|[]]; reflexivity|].
    assert (EA : a = (k1, v1)). { destruct I as [E|I]; [exact E|]. inversion S as [|? ? _ F]; subst. rewrite Forall_forall in F. specialize (F _ I). cbn [fst] in F.
      pose proof (M a (or_introl eq_refl)). lra. }
    unfold interpolate_nodes. cbv zeta. rewrite EA. cbn [fst snd]. destruct (Rle_dec k k1); [reflexivity|lra].
  - intros k1 v1 k I M L. destruct nodes as [|a [|b r]]; [destruct I|destruct I as [->|[]]; reflexivity|].
    unfold interpolate_nodes. cbv zeta.
    assert (LE : last (b :: r) a = last (a :: b :: r) a) by reflexivity. rewrite LE.
    assert (EL : (k1, v1) = last (a :: b :: r) a).
    { destruct (increases_last (a :: b :: r) a S ltac:(discriminate) _ I) as [E|HL]; [exact E|]. cbn [fst] in HL.
      assert (IL : In (last (a :: b :: r) a) (a :: b :: r)).
      { destruct (exists_last (l := a :: b :: r) ltac:(discriminate)) as (l' & z & Ez). rewrite Ez, last_last. apply in_app_iff. right. left. reflexivity. }
      pose proof (M _ IL). lra. }
    rewrite <- EL. cbn [fst snd]. inversion S as [|? ? _ F]; subst. rewrite Forall_forall in F.
    destruct (Rle_dec k (fst a)) as [C|C].
    { exfalso. destruct I as [->|I]; cbn [fst] in *; [|specialize (F _ I); cbn [fst] in F; lra].
      specialize (F b (or_introl eq_refl)). pose proof (M b (or_intror (or_introl eq_refl))). cbn [fst] in *. lra. }
    destruct (Rle_dec k1 k); [reflexivity|lra].
Qed.
Print Assumptions C64_strike.

(** In expiry: the earliest pillar at or after the date; after the last one, the last. *)
Theorem C64_expiry : forall pillars e k p, StronglySorted (fun a b => (cp_expiry a < cp_expiry b)%Z) pillars -> In p pillars ->
  ((e <= cp_expiry p)%Z /\ (forall p', In p' pillars -> (e <= cp_expiry p')%Z -> (cp_expiry p <= cp_expiry p')%Z)) \/
  ((cp_expiry p < e)%Z /\ (forall p', In p' pillars -> (cp_expiry p' <= cp_expiry p)%Z)) ->
  caplet_volatility pillars e k = interpolate_nodes (cp_nodes p) k.
Proof.
  intros pillars e k p S I [[L M]|[L M]].
  - assert (F : find (fun p => (e <=? cp_expiry p)%Z) pillars = Some p).
    { clear k. induction S as [|a r S IH F]; [destruct I|]. cbn [find]. destruct (Z.leb_spec e (cp_expiry a)) as [C|C].
      - destruct I as [->|I]; [reflexivity|]. rewrite Forall_forall in F. specialize (F p I). pose proof (M a (or_introl eq_refl) C). cbv beta in F. lia.
      - destruct I as [->|I]; [lia|]. apply IH; [exact I|]. intros; apply M; [right; assumption|assumption]. }
    unfold caplet_volatility. rewrite F. destruct pillars; [destruct I|reflexivity].
  - assert (F : find (fun p => (e <=? cp_expiry p)%Z) pillars = None).
    { destruct (find _ pillars) as [p'|] eqn:E; [|reflexivity]. apply find_some in E as [E1 E2]. apply Z.leb_le in E2. specialize (M p' E1). lia. }
    unfold caplet_volatility. rewrite F. destruct pillars as [|a r]; [destruct I|].
    replace (last r a) with (last (a :: r) a) by (destruct r; reflexivity).
    assert (EL : last (a :: r) a = p); [|rewrite EL; reflexivity].
    destruct (exists_last (l := a :: r) ltac:(discriminate)) as (l' & z & Ez). rewrite Ez in *. rewrite last_last.
    apply in_app_iff in I as [I|[E|[]]]; [|exact E]. exfalso. clear - S I M. induction l' as [|x l' IH]; [destruct I|].
    cbn in S. inversion S as [|? ? S' F]; subst. destruct I as [->|I].
    + rewrite Forall_forall in F. assert (J : In z (l' ++ [z])) by (apply in_app_iff; right; left; reflexivity).
      specialize (F z J). specialize (M z (or_intror J)). cbv beta in F. lia.
    + apply IH; [exact S'|exact I|intros; apply M; right; assumption].
Qed.
Print Assumptions C64_expiry.

(** A stripped surface has its pillars in date order and its nodes in strike order, none
    empty; from any quote at all, every lookup on it succeeds. *)
Theorem C64_stripped : forall sort sort_dates brent (y : curve) (vd : date) quotes vs,
  sorts_by (quote_key vd) sort -> sorts_by (fun d : date => d) sort_dates ->
  (forall q q', In q quotes -> In q' quotes -> Rabs (cq_strike q - cq_strike q') < / 10 ^ 12 -> cq_strike q = cq_strike q') ->
  strip_caplet_vols sort sort_dates brent y vd quotes = Ok vs ->
  StronglySorted (fun a b => (cp_expiry a < cp_expiry b)%Z) vs /\
  (forall p, In p vs -> increases (cp_nodes p) /\ cp_nodes p <> [] /\ forall k v, In (k, v) (cp_nodes p) -> exists q, In q quotes /\ cq_strike q = k) /\
  (forall e, (exists p, In p vs /\ cp_expiry p = e) <-> (exists q, In q quotes /\ last_accrual_start q = Ok e)) /\
  (quotes <> [] -> forall e k, exists v, caplet_volatility vs e k = Ok v).
Proof.
  intros sort sort_dates brent y vd quotes vs HS HD SEP ST.
  destruct (columns_spec sort sort_dates brent y vd HS HD quotes vs SEP ST) as (columns & expiries & SC & KC & COL & SE & EI & ->).
  set (f := fun exp => {| cp_expiry := exp; cp_nodes := pillar_nodes columns exp |}).
  assert (NN : forall d, In d expiries -> pillar_nodes columns d <> []).
  { intros d Id. apply EI in Id as (k & s & p & I1 & I2 & E). destruct (COL _ _ I1) as (_ & SA & _). pose proof (rfind_at s p SA I2) as F. rewrite E in F.
    assert (NI : In (k, sp_sigma p) (pillar_nodes columns d)) by (apply pillar_nodes_in; eauto). intros X. rewrite X in NI. destruct NI. }
  assert (PIL : forall p, In p (map f expiries) -> increases (cp_nodes p) /\ cp_nodes p <> [] /\ forall k v, In (k, v) (cp_nodes p) -> exists q, In q quotes /\ cq_strike q = k).
  { intros p Ip. apply in_map_iff in Ip as (d & <- & Id). cbn [f cp_nodes]. split; [apply pillar_nodes_increase, SC|]. split; [apply NN, Id|].
    intros k v Ik. apply pillar_nodes_in in Ik as (s & p & I1 & _). destruct (COL _ _ I1) as (X & _). exact X. }
  split.
  { clear - SE. induction SE as [|a r S IH F]; cbn [map]; constructor; [exact IH|]. rewrite Forall_forall in *. intros p Ip. apply in_map_iff in Ip as (d & <- & Id).
    cbn [f cp_expiry]. apply F, Id. }
  split; [exact PIL|]. split.
  { intros e. split.
    - intros (p & Ip & <-). apply in_map_iff in Ip as (d & <- & Id). cbn [f cp_expiry]. apply EI in Id as (k & s & p & I1 & I2 & E).
      apply in_split in I2 as (l1 & r1 & E2). destruct (COL _ _ I1) as (_ & _ & _ & PS). destruct (PS _ _ _ E2) as (q & J1 & _ & J3 & _). rewrite E in J3. eauto.
    - intros (q & Iq & Eq). destruct (KC q Iq) as (s & Is). destruct (COL _ _ Is) as (_ & _ & QS & _). destruct (QS q Iq eq_refl) as (e' & E' & Ie).
      assert (e' = e) by congruence. subst e'. apply in_map_iff in Ie as (p & Ep & Ip). exists (f e). split; [|reflexivity]. apply in_map. apply EI. eauto 6. }
  intros NQ e k. unfold caplet_volatility. destruct (map f expiries) as [|a r] eqn:EM.
  { exfalso. destruct quotes as [|q quotes]; [congruence|]. destruct (KC q (or_introl eq_refl)) as (s & Is). destruct (COL _ _ Is) as (_ & _ & QS & _).
    destruct (QS q (or_introl eq_refl) eq_refl) as (e' & E' & Ie). apply in_map_iff in Ie as (p & Ep & Ip).
    assert (In e' expiries) by (apply EI; eauto 6). destruct expiries; [contradiction|discriminate]. }
  set (p := match find _ _ with Some p => p | None => _ end).
  assert (Ip : In p (a :: r)).
  { unfold p. destruct (find _ _) as [p'|] eqn:E; [apply find_some in E; apply E|].
    replace (last r a) with (last (a :: r) a) by (destruct r; reflexivity).
    destruct (exists_last (l := a :: r) ltac:(discriminate)) as (l' & z & Ez). rewrite Ez, last_last. apply in_app_iff. right. left. reflexivity. }
  destruct (PIL p Ip) as (_ & NE & _). destruct (cp_nodes p) as [|n1 [|n2 rn]]; [congruence|eexists; reflexivity|].
  unfold interpolate_nodes. cbv zeta. destruct (Rle_dec _ _); [eexists; reflexivity|]. destruct (Rle_dec _ _); [eexists; reflexivity|]. eexists; reflexivity.
Qed.
Print Assumptions C64_stripped.

(** A surface that has not been stripped has no volatility. *)
Theorem C64_unstripped : forall e k, caplet_volatility [] e k = Err EInvalidData.
Proof. reflexivity. Qed.
Print Assumptions C64_unstripped.

Example C64_witness : exists vs, strip_caplet_vols (isort_by (quote_key today)) (isort_by (fun d : date => d)) tries (flat_curve today) today [early_quote; late_quote] = Ok vs /\
  caplet_volatility vs expiry2 (1 / 4) = Ok (5 / 400) /\ caplet_volatility vs (expiry2 + 50)%Z 7 = Ok (2 / 100).
Proof.
  eexists. split; [exact sample_surface|]. set (n := [(0, 1 / 100); (1, 2 / 100)]).
  assert (S : increases n) by (repeat constructor; cbn; lra). destruct (C64_strike n S) as (_ & B & _ & C). split.
  - destruct (B 0%nat 0 (1 / 100) 1 (2 / 100) (1 / 4) eq_refl eq_refl ltac:(lra)) as (v & E & X & _). 
    change (interpolate_nodes n (1 / 4) = Ok (5 / 400)). rewrite E. f_equal. lra.
  - change (interpolate_nodes n 7 = Ok (2 / 100)). apply (C 1 (2 / 100)); [right; left; reflexivity|intros m [<-|[<-|[]]]; cbn; lra|lra].
Qed.

(** ** C65: the variance of a caplet *)
Lemma RInt_square a b c d s : d <> 0 ->
  is_RInt (fun u => (s * ((c - u) / d)) ^ 2) a b (s * s * ((c - a) ^ 3 - (c - b) ^ 3) / (3 * d * d)).
Proof.
  intros N.
  assert (E : s * s * ((c - a) ^ 3 - (c - b) ^ 3) / (3 * d * d) = minus (- (s * s * (c - b) ^ 3 / (3 * d * d))) (- (s * s * (c - a) ^ 3 / (3 * d * d)))).
  { unfold minus, plus, opp; cbn. field. exact N. }
  rewrite E. apply (is_RInt_derive (fun u => - (s * s * (c - u) ^ 3 / (3 * d * d)))).
  - intros x _. auto_derive; [exact I|]. field. exact N.
  - intros x _. apply (ex_derive_continuous (fun u => (s * ((c - u) / d)) ^ 2)). auto_derive. exact I.
Qed.

(** A forward-looking caplet is volatile until it fixes at the start of its period; a
    compounded one until the end, its volatility running off linearly over the period
    as the rate fixes day by day.  The total variance is the integral of the squared
    instantaneous volatility from today. *)
Theorem C65_integral : forall sigma ts te, ts < te -> 0 < te ->
  is_RInt (fun u => if Rlt_dec u ts then sigma ^ 2 else 0) 0 te (caplet_total_variance ForwardLooking sigma ts te) /\
  is_RInt (fun u => (sigma * Rmin 1 ((te - u) / (te - ts))) ^ 2) 0 te (caplet_total_variance BackwardCompounded sigma ts te).
Proof.
  intros sigma ts te L P. unfold caplet_total_variance. destruct (Rle_dec te 0); [lra|].
  assert (TAIL : forall a, ts <= a -> a <= te ->
    is_RInt (fun u => (sigma * Rmin 1 ((te - u) / (te - ts))) ^ 2) a te (sigma * sigma * (te - a) ^ 3 / (3 * (te - ts) * (te - ts)))).
  { intros a A1 A2. evar_last; [apply (is_RInt_ext (fun u => (sigma * ((te - u) / (te - ts))) ^ 2))|].
    - intros u. rewrite Rmin_left, Rmax_right by lra. intros U. rewrite Rmin_right; [reflexivity|].
      apply (Rmult_le_reg_r (te - ts)); [lra|]. unfold Rdiv. rewrite Rmult_assoc, Rinv_l by lra. lra.
    - apply (RInt_square a te te (te - ts) sigma). lra.
    - match goal with |- ?x = ?z => change (@eq R x z) end. field. lra. }
  split.
  - destruct (Rle_dec 0 ts) as [C|C].
    + rewrite Rmax_left by lra. evar_last; [apply (@is_RInt_Chasles R_NormedModule _ 0 ts te)|].
      * apply (is_RInt_ext (fun _ => sigma ^ 2)).
        { intros u. rewrite Rmin_left, Rmax_right by lra. intros U. destruct (Rlt_dec u ts); [reflexivity|lra]. }
        apply (@is_RInt_const R_NormedModule).
      * apply (is_RInt_ext (fun _ => 0)).
        { intros u. rewrite Rmin_left, Rmax_right by lra. intros U. destruct (Rlt_dec u ts); [lra|reflexivity]. }
        apply (@is_RInt_const R_NormedModule).
      * unfold plus, scal; cbn; unfold mult; cbn. ring.
    + rewrite Rmax_right by lra. rewrite Rmult_0_r. evar_last; [apply (is_RInt_ext (fun _ => 0))|].
      * intros u. rewrite Rmin_left, Rmax_right by lra. intros U. destruct (Rlt_dec u ts); [lra|reflexivity].
      * apply (@is_RInt_const R_NormedModule).
      * unfold scal; cbn; unfold mult; cbn. ring.
  - cbv zeta. destruct (Rle_dec 0 ts) as [C|C].
    + evar_last; [apply (@is_RInt_Chasles R_NormedModule _ 0 ts te)|].
      * apply (is_RInt_ext (fun _ => sigma ^ 2)).
        { intros u. rewrite Rmin_left, Rmax_right by lra. intros U. rewrite Rmin_left; [f_equal; ring|].
          apply (Rmult_le_reg_r (te - ts)); [lra|]. unfold Rdiv. rewrite Rmult_assoc, Rinv_l by lra. lra. }
        apply (@is_RInt_const R_NormedModule).
      * apply TAIL; lra.
      * unfold plus, scal; cbn; unfold mult; cbn. match goal with |- ?x = ?z => change (@eq R x z) end. field. lra.
    + evar_last; [apply TAIL; lra|]. match goal with |- ?x = ?z => change (@eq R x z) end. rewrite Rminus_0_r. reflexivity.
Qed.
Print Assumptions C65_integral.

(** Nothing is left after the end of the period; the variance is never negative, scales
    with the square of the volatility, and compounding adds to it. *)
Theorem C65_bounds : forall style sigma ts te, ts < te ->
  (te <= 0 -> caplet_total_variance style sigma ts te = 0) /\
  0 <= caplet_total_variance style sigma ts te <= sigma * sigma * Rmax te 0 /\
  (forall k, caplet_total_variance style (k * sigma) ts te = k * k * caplet_total_variance style sigma ts te) /\
  (0 < te -> sigma <> 0 -> caplet_total_variance ForwardLooking sigma ts te < caplet_total_variance BackwardCompounded sigma ts te).
Proof.
  intros style sigma ts te L. assert (SQ : 0 <= sigma * sigma) by nra.
  assert (CUBE : 0 < te -> ~ 0 <= ts -> 0 < te ^ 3 / (3 * (te - ts) * (te - ts)) <= te).
  { intros P C. assert (Q : 0 < 3 * (te - ts) * (te - ts)) by nra. split; [apply Rdiv_lt_0_compat; [apply pow_lt, P|exact Q]|].
    apply (Rmult_le_reg_r _ _ _ Q). unfold Rdiv. rewrite Rmult_assoc, Rinv_l by lra. nra. }
  assert (ASSOC : sigma * sigma * te ^ 3 / (3 * (te - ts) * (te - ts)) = sigma * sigma * (te ^ 3 / (3 * (te - ts) * (te - ts)))) by (unfold Rdiv; ring).
  split; [|split; [|split]].
  - intros P. unfold caplet_total_variance. destruct (Rle_dec te 0); [reflexivity|lra].
  - unfold caplet_total_variance. destruct (Rle_dec te 0); [rewrite Rmax_right by lra; lra|]. rewrite (Rmax_left te) by lra.
    destruct style.
    + unfold Rmax. destruct (Rle_dec ts 0); split; nra.
    + cbv zeta. destruct (Rle_dec 0 ts) as [C|C]; [split; nra|]. rewrite ASSOC. destruct (CUBE ltac:(lra) C). split; nra.
  - intros k. unfold caplet_total_variance. destruct (Rle_dec te 0); [ring|]. destruct style; cbv zeta; [ring|].
    destruct (Rle_dec 0 ts); [ring|]. unfold Rdiv. ring.
  - intros P N. assert (0 < sigma * sigma) by nra. unfold caplet_total_variance. destruct (Rle_dec te 0); [lra|]. cbv zeta.
    destruct (Rle_dec 0 ts) as [C|C]; [rewrite Rmax_left by lra; nra|]. rewrite Rmax_right by lra. rewrite ASSOC. destruct (CUBE P C). nra.
Qed.
Print Assumptions C65_bounds.

Example C65_witness : caplet_total_variance ForwardLooking (1 / 100) 2 3 = 2 / 10000 /\
  caplet_total_variance BackwardCompounded (1 / 100) 2 3 = 7 / 30000 /\ caplet_total_variance BackwardCompounded (1 / 100) (-1) 1 = 1 / 120000.
Proof.
  unfold caplet_total_variance. destruct (Rle_dec 3 0); [lra|]. destruct (Rle_dec 0 2); [|lra]. destruct (Rle_dec 0 (-1)); [lra|]. destruct (Rle_dec 1 0); [lra|].
  rewrite Rmax_left by lra. repeat split; field.
Qed.

(** ** C66: the value of a cap *)
Definition with_kind (k : cap_kind) (c : cap_floor) : cap_floor :=
  {| cf_direction := cf_direction c; cf_kind := k; cf_style := cf_style c; cf_currency := cf_currency c; cf_notional := cf_notional c;
     cf_strike := cf_strike c; cf_valuation_date := cf_valuation_date c; cf_schedule := cf_schedule c; cf_day_counter := cf_day_counter c |}.
Definition with_deal (d : direction) (n : R) (c : cap_floor) : cap_floor :=
  {| cf_direction := d; cf_kind := cf_kind c; cf_style := cf_style c; cf_currency := cf_currency c; cf_notional := n;
     cf_strike := cf_strike c; cf_valuation_date := cf_valuation_date c; cf_schedule := cf_schedule c; cf_day_counter := cf_day_counter c |}.

(** The market of one period: accrual, discount factors at start, end and payment, and volatility. *)
Definition period_market (c : cap_floor) (y : curve) (vs : list caplet_pillar) (a : accrual) (tau ds de dp s : R) : Prop :=
  dc_yf (cf_day_counter c) (accrual_start a) (accrual_end a) = Ok tau /\
  discount y (accrual_start a) = Ok ds /\ discount y (accrual_end a) = Ok de /\ discount y (pay_date a) = Ok dp /\
  caplet_volatility vs (accrual_start a) (cf_strike c) = Ok s.

(** The value is the sum over the periods of accrual times discount factor times the
    Bachelier price on the simply compounded forward rate. *)
Theorem C66_value : forall c y vs w, cap_mtm c y (Some vs) = Ok (cf_currency c, w) <->
  exists xs, Forall2 (fun a x => exists tau ds de dp s, period_market c y vs a tau ds de dp s /\
      let F := (ds - de) / de / tau in
      let V := caplet_total_variance (cf_style c) s (IZR (accrual_start a - cf_valuation_date c) / 365) (IZR (accrual_end a - cf_valuation_date c) / 365) in
      x = tau * dp * match cf_kind c with Cap => bachelier_call F (cf_strike c) V | Floor => bachelier_put F (cf_strike c) V end)
    (cf_schedule c) xs /\ w = sign (cf_direction c) * cf_notional c * sumR xs.
Proof.
  intros c y vs w. unfold cap_mtm. cbn [cap_unpack obind]. set (g := sign (cf_direction c) * cf_notional c).
  set (P := fun a x => exists tau ds de dp s, _ /\ _).
  assert (ONE : forall a x, caplet_pv c y vs 0 0 a = Ok x <-> exists x', P a x' /\ x = g * x').
  { intros a x. rewrite caplet_pv_iff. split.
    - intros (tau & ds & de & dp & s & H1 & H2 & H3 & H4 & H5 & ->). apply shifted_zero in H2. apply shifted_zero in H3. apply shifted_zero in H4.
      eexists. split; [exists tau, ds, de, dp, s; split; [repeat split; eassumption|]; cbv zeta; reflexivity|].
      assert (de <> 0). { unfold discount in H3. apply obind_Ok in H3 as (z & _ & H3). apply Ok_R in H3. subst de. pose proof (exp_pos (- z * yf365 (c_valuation_date y) (accrual_end a))). lra. }
      unfold g, kind_price, yf365. rewrite Rmult_0_l, Rplus_0_r. replace (ds / de - 1) with ((ds - de) / de) by (field; assumption).
      destruct (cf_kind c); ring.
    - intros (x' & (tau & ds & de & dp & s & (H1 & H2 & H3 & H4 & H5) & ->) & ->). exists tau, ds, de, dp, s.
      split; [exact H1|]. split; [apply shifted_zero, H2|]. split; [apply shifted_zero, H3|]. split; [apply shifted_zero, H4|]. split; [exact H5|].
      assert (de <> 0). { unfold discount in H3. apply obind_Ok in H3 as (z & _ & H3). apply Ok_R in H3. subst de. pose proof (exp_pos (- z * yf365 (c_valuation_date y) (accrual_end a))). lra. }
      unfold g, kind_price, yf365. rewrite Rmult_0_l, Rplus_0_r. replace (ds / de - 1) with ((ds - de) / de) by (field; assumption).
      destruct (cf_kind c); ring. }
  split.
  - intros H. apply obind_Ok in H as (w' & H & E). assert (w' = w) by congruence. subst w'. clear E.
    apply sum_pv_iff in H as (ys & F & ->). 
    assert (X : exists xs, Forall2 P (cf_schedule c) xs /\ sumR ys = g * sumR xs).
    { clear - F ONE. induction F as [|a x s ys E F IH]; [exists []; split; [constructor|cbn; ring]|].
      apply ONE in E as (x' & Px & ->). destruct IH as (xs & Fx & Ex). exists (x' :: xs). split; [constructor; assumption|]. cbn [sumR]. rewrite Ex. ring. }
    destruct X as (xs & Fx & Ex). exists xs. split; [exact Fx|]. rewrite Ex. unfold g. ring.
  - intros (xs & F & ->). assert (E : cap_pv c y vs 0 0 = Ok (g * sumR xs)); [|rewrite E; reflexivity].
    apply sum_pv_iff. exists (map (Rmult g) xs). split.
    + clear - F ONE. induction F as [|a x s xs E F IH]; cbn [map]; constructor; [apply ONE; eauto|exact IH].
    + clear. induction xs as [|x xs IH]; cbn [map sumR]; [ring|]. rewrite Rplus_0_l in *. rewrite <- IH. ring.
Qed.
Print Assumptions C66_value.

(** A cap less the floor at the same strike is a swap: each period receives the forward
    rate and pays the strike. *)
Theorem C66_parity : forall c y vs wc wf cur,
  cap_mtm (with_kind Cap c) y (Some vs) = Ok (cur, wc) -> cap_mtm (with_kind Floor c) y (Some vs) = Ok (cur, wf) ->
  exists xs, Forall2 (fun a x => exists tau ds de dp s, period_market c y vs a tau ds de dp s /\
      (tau <> 0 -> x = (ds / de - (1 + cf_strike c * tau)) * dp))
    (cf_schedule c) xs /\ wc - wf = sign (cf_direction c) * cf_notional c * sumR xs.
Proof.
  intros c y vs wc wf cur HC HF.
  assert (EC : cur = cf_currency c). { unfold cap_mtm in HC. cbn [cap_unpack obind] in HC. apply obind_Ok in HC as (w & _ & E). cbn in E. congruence. }
  subst cur. apply (C66_value (with_kind Cap c) y vs wc) in HC as (xc & FC & ->). apply (C66_value (with_kind Floor c) y vs wf) in HF as (xf & FF & ->).
  cbn [with_kind cf_direction cf_notional cf_schedule cf_kind cf_strike cf_style cf_valuation_date] in *.
  assert (X : exists xs, Forall2 (fun a x => exists tau ds de dp s, period_market c y vs a tau ds de dp s /\
      (tau <> 0 -> x = (ds / de - (1 + cf_strike c * tau)) * dp)) (cf_schedule c) xs /\ sumR xc - sumR xf = sumR xs).
  { revert xf FF. induction FC as [|a x s xs (tau & ds & de & dp & sg & M & ->) F IH]; intros xf FF.
    - inversion FF; subst. exists []. split; [constructor|cbn; ring].
    - inversion FF as [|? x2 ? xf' (tau2 & ds2 & de2 & dp2 & sg2 & M2 & ->) F2]; subst. destruct (IH _ F2) as (xs' & Fx & Ex).
      destruct M as (M1 & M2' & M3 & M4 & M5), M2 as (N1 & N2 & N3 & N4 & N5). cbn [with_kind cf_day_counter cf_strike] in *.
      assert (tau2 = tau /\ ds2 = ds /\ de2 = de /\ dp2 = dp /\ sg2 = sg) as (-> & -> & -> & -> & ->) by (repeat split; congruence).
      match goal with |- context [tau * dp * bachelier_call ?F ?K ?V] => pose proof (bparity F K V) as BP; set (vc := bachelier_call F K V) in *; set (vp := bachelier_put F K V) in * end.
      exists (tau * dp * vc - tau * dp * vp :: xs'). split.
      + constructor; [|exact Fx]. exists tau, ds, de, dp, sg. split; [repeat split; assumption|]. intros NT.
        assert (de <> 0). { unfold discount in M3. apply obind_Ok in M3 as (z & _ & M3). apply Ok_R in M3. subst de. pose proof (exp_pos (- z * yf365 (c_valuation_date y) (accrual_end a))). lra. }
        replace (tau * dp * vc - tau * dp * vp) with (tau * dp * (vc - vp)) by ring. rewrite BP. field. split; assumption.
      + cbn [sumR]. rewrite <- Ex. ring. }
  destruct X as (xs & Fx & Ex). exists xs. split; [exact Fx|]. rewrite <- Ex. ring.
Qed.
Print Assumptions C66_parity.

(** The seller's value is the buyer's with the other sign, and value scales with the notional. *)
Theorem C66_deal : forall c y vs n k w, cap_mtm (with_deal Buy n c) y (Some vs) = Ok (cf_currency c, w) ->
  cap_mtm (with_deal Buy (k * n) c) y (Some vs) = Ok (cf_currency c, k * w) /\
  cap_mtm (with_deal Sell (k * n) c) y (Some vs) = Ok (cf_currency c, - (k * w)).
Proof.
  intros c y vs n k w H. apply (C66_value (with_deal Buy n c) y vs w) in H as (xs & F & ->). split.
  - apply (C66_value (with_deal Buy (k * n) c) y vs). exists xs. split; [exact F|]. cbn [with_deal cf_direction cf_notional sign]. ring.
  - apply (C66_value (with_deal Sell (k * n) c) y vs). exists xs. split; [exact F|]. cbn [with_deal cf_direction cf_notional sign]. ring.
Qed.
Print Assumptions C66_deal.

(** A bought cap is worth at least its periods' discounted intrinsic values, so it is never negative. *)
Theorem C66_intrinsic : forall c y vs w cur, cf_direction c = Buy -> 0 <= cf_notional c ->
  (forall a tau, In a (cf_schedule c) -> dc_yf (cf_day_counter c) (accrual_start a) (accrual_end a) = Ok tau -> 0 < tau) ->
  cap_mtm c y (Some vs) = Ok (cur, w) ->
  exists xs, Forall2 (fun a x => exists tau ds de dp s, period_market c y vs a tau ds de dp s /\ 0 < dp /\
      let payer := (ds / de - (1 + cf_strike c * tau)) * dp in x = Rmax (match cf_kind c with Cap => payer | Floor => - payer end) 0)
    (cf_schedule c) xs /\ cf_notional c * sumR xs <= w /\ 0 <= w.
Proof.
  intros c y vs w cur B N T H.
  assert (EC : cur = cf_currency c). { unfold cap_mtm in H. cbn [cap_unpack obind] in H. apply obind_Ok in H as (w' & _ & E). congruence. }
  subst cur. apply C66_value in H as (xs & F & ->). rewrite B. cbn [sign].
  assert (X : exists zs, Forall2 (fun a x => exists tau ds de dp s, period_market c y vs a tau ds de dp s /\ 0 < dp /\
      let payer := (ds / de - (1 + cf_strike c * tau)) * dp in x = Rmax (match cf_kind c with Cap => payer | Floor => - payer end) 0)
      (cf_schedule c) zs /\ sumR zs <= sumR xs /\ 0 <= sumR zs).
  { induction F as [|a x s xs (tau & ds & de & dp & sg & M & ->) F IH]; [exists []; split; [constructor|cbn; lra]|].
    destruct IH as (zs & Fz & L & P); [intros; eapply T; [right; eassumption|eassumption]|].
    pose proof M as (M1 & M2 & M3 & M4 & M5). pose proof (T a tau (or_introl eq_refl) M1) as TP.
    assert (POS : forall d p, discount y d = Ok p -> 0 < p).
    { intros d p Hd. unfold discount in Hd. apply obind_Ok in Hd as (z & _ & Hd). apply Ok_R in Hd. subst p. apply exp_pos. }
    pose proof (POS _ _ M3) as PE. pose proof (POS _ _ M4) as PP.
    exists (Rmax (match cf_kind c with Cap => (ds / de - (1 + cf_strike c * tau)) * dp | Floor => - ((ds / de - (1 + cf_strike c * tau)) * dp) end) 0 :: zs).
    split; [constructor; [exists tau, ds, de, dp, sg; split; [exact M|]; split; [exact PP|reflexivity]|exact Fz]|].
    cbn [sumR]. match goal with |- context [bachelier_call ?F ?K ?V] => set (FF := F); set (VV := V) end.
    destruct (C37_intrinsic FF (cf_strike c) VV) as (I1 & I2 & _).
    assert (E : (ds / de - (1 + cf_strike c * tau)) * dp = tau * dp * (FF - cf_strike c)) by (unfold FF; field; lra).
    assert (Q : 0 < tau * dp) by (apply Rmult_lt_0_compat; assumption).
    rewrite E. clear - I1 I2 Q L P. destruct (cf_kind c).
    + assert (J : Rmax (tau * dp * (FF - cf_strike c)) 0 <= tau * dp * bachelier_call FF (cf_strike c) VV).
      { apply Rle_trans with (tau * dp * Rmax (FF - cf_strike c) 0); [|apply Rmult_le_compat_l; lra].
        apply Rmax_lub; [apply Rmult_le_compat_l; [lra|apply Rmax_l]|apply Rmult_le_pos; [lra|apply Rmax_r]]. }
      pose proof (Rmax_r (tau * dp * (FF - cf_strike c)) 0). lra.
    + assert (J : Rmax (- (tau * dp * (FF - cf_strike c))) 0 <= tau * dp * bachelier_put FF (cf_strike c) VV).
      { apply Rle_trans with (tau * dp * Rmax (cf_strike c - FF) 0); [|apply Rmult_le_compat_l; lra].
        apply Rmax_lub; [replace (- (tau * dp * (FF - cf_strike c))) with (tau * dp * (cf_strike c - FF)) by ring; apply Rmult_le_compat_l; [lra|apply Rmax_l]|apply Rmult_le_pos; [lra|apply Rmax_r]]. }
      pose proof (Rmax_r (- (tau * dp * (FF - cf_strike c))) 0). lra. }
  destruct X as (zs & Fz & L & P). exists zs. split; [exact Fz|]. split.
  - rewrite Rmult_1_l. apply Rmult_le_compat_l; assumption.
  - rewrite Rmult_1_l. apply Rmult_le_pos; [exact N|lra].
Qed.
Print Assumptions C66_intrinsic.

Lemma sample_value : exists w, 0 < w /\ cap_mtm (quoted_cap early_quote USD today) (flat_curve today)
  (Some [{| cp_expiry := expiry1; cp_nodes := [(0, 1 / 100)] |}]) = Ok (USD, w).
Proof.
  exists (bachelier_call 0 0 (1 / 100 * (1 / 100) * 1)). split.
  { destruct (C37_intrinsic 0 0 (1 / 100 * (1 / 100) * 1)) as (_ & _ & X). destruct X as [X _]; [lra|]. pose proof (Rmax_r (0 - 0) 0). lra. }
  unfold cap_mtm. cbn [cap_unpack obind]. set (vs := [_]).
  assert (E : cap_pv (quoted_cap early_quote USD today) (flat_curve today) vs 0 0 = Ok (bachelier_call 0 0 (1 / 100 * (1 / 100) * 1))); [|rewrite E; reflexivity].
  assert (TR : sum_pv (quote_caplet (flat_curve today) today early_quote [] (1 / 100)) 0 [period1] = Ok (bachelier_call 0 0 (1 / 100 * (1 / 100) * 1))).
  { cbn [sum_pv]. unfold period1, early_quote at 1. rewrite sample_caplet by lia. cbn [obind caplet_sigma_for_start]. f_equal. ring. }
  revert TR. apply sum_pv_transfer. intros a x [<-|[]] H0. apply quote_caplet_iff in H0 as (tau & ds & de & dp & H1 & H2 & H3 & H4 & ->).
  apply caplet_pv_iff. cbn [quoted_cap cf_day_counter cf_strike cf_style cf_kind cf_direction cf_notional cf_valuation_date].
  exists tau, ds, de, dp, (1 / 100).
  split; [exact H1|]. split; [apply shifted_zero, H2|]. split; [apply shifted_zero, H3|]. split; [apply shifted_zero, H4|].
  split; [reflexivity|rewrite Rmult_0_l, Rplus_0_r; reflexivity].
Qed.

Example C66_witness : let c := quoted_cap early_quote USD today in let vs := [{| cp_expiry := expiry1; cp_nodes := [(0, 1 / 100)] |}] in
  exists wc wf, cap_mtm (with_kind Cap c) (flat_curve today) (Some vs) = Ok (USD, wc) /\ cap_mtm (with_kind Floor c) (flat_curve today) (Some vs) = Ok (USD, wf) /\ cf_direction c = Buy /\ 0 < cf_notional c /\ 0 < wc.
Proof.
  cbv zeta. destruct sample_value as (w & P & E). exists w. set (c := quoted_cap early_quote USD today) in *. set (vs := [_]) in *.
  assert (D0 : discount (flat_curve today) (accrual_start period1) = Ok 1) by (apply flat_discount, sample_range; lia).
  assert (D1 : discount (flat_curve today) (accrual_end period1) = Ok 1) by (apply flat_discount, sample_range; lia).
  assert (D2 : discount (flat_curve today) (pay_date period1) = Ok 1) by (apply flat_discount, sample_range; lia).
  destruct (sum_pv_ok (caplet_pv (with_kind Floor c) (flat_curve today) vs 0 0) [period1] 0) as (wf & F).
  { intros a [<-|[]]. eexists. apply caplet_pv_iff. eexists _, 1, 1, 1, (1 / 100).
    split; [reflexivity|]. split; [apply shifted_zero, D0|]. split; [apply shifted_zero, D1|]. split; [apply shifted_zero, D2|]. split; reflexivity. }
  exists wf. split; [exact E|]. split; [|split; [reflexivity|split; [cbn; lra|exact P]]].
  unfold cap_mtm. cbn [cap_unpack obind]. unfold cap_pv. change (cf_schedule (with_kind Floor c)) with [period1]. rewrite F. reflexivity.
Qed.

(** ** C67: vega *)
Lemma kind_price_le k F K V W : V <= W -> kind_price k F K V <= kind_price k F K W.
Proof.
  intros [L| ->]; [|lra]. destruct (Rle_dec W 0) as [N|N].
  - unfold kind_price, bachelier_call, bachelier_put. destruct (Rle_dec V 0); [|lra]. destruct (Rle_dec W 0); [|lra]. destruct k; lra.
  - destruct (C37_increasing F K V W ltac:(lra) L). destruct k; cbn; lra.
Qed.
Lemma variance_scale style s ts te : ts < te -> caplet_total_variance style s ts te = s * s * caplet_total_variance style 1 ts te.
Proof. intros L. destruct (C65_bounds style 1 ts te L) as (_ & _ & X & _). rewrite <- (X s), Rmult_1_r. reflexivity. Qed.

(** Raising every volatility never lowers the value of a bought cap or floor, and
    raises it as soon as one period still has some variance to come. *)
Theorem C67_vega_sign : forall c y vs bp w, cf_direction c = Buy -> 0 < cf_notional c -> 0 < bp ->
  (forall a, In a (cf_schedule c) -> (accrual_start a < accrual_end a)%Z) ->
  (forall a tau, In a (cf_schedule c) -> dc_yf (cf_day_counter c) (accrual_start a) (accrual_end a) = Ok tau -> 0 < tau) ->
  (forall a s, In a (cf_schedule c) -> caplet_volatility vs (accrual_start a) (cf_strike c) = Ok s -> 0 <= s) ->
  cap_vega c y (Some vs) bp = Ok w ->
  0 <= w /\
  ((exists a, In a (cf_schedule c) /\ (cf_valuation_date c < match cf_style c with ForwardLooking => accrual_start a | BackwardCompounded => accrual_end a end)%Z) ->
   0 < w).
Proof.
  intros c y vs bp w B N P ORD T V H. unfold cap_vega in H. cbn [cap_unpack obind] in H.
  apply obind_Ok in H as (base & HB & H). apply obind_Ok in H as (up & HU & H). apply Ok_R in H. subst w.
  apply sum_pv_iff in HB as (xs & FB & ->). apply sum_pv_iff in HU as (ys & FU & ->). rewrite !Rplus_0_l.
  set (live a := (cf_valuation_date c < match cf_style c with ForwardLooking => accrual_start a | BackwardCompounded => accrual_end a end)%Z).
  assert (X : sumR xs <= sumR ys /\ ((exists a, In a (cf_schedule c) /\ live a) -> sumR xs < sumR ys)).
  { revert ys FU. induction FB as [|a x s xs E F IH]; intros ys FU.
    - inversion FU; subst. split; [cbn; lra|]. intros (a & [] & _).
    - inversion FU as [|? x2 ? ys' E2 F2]; subst.
      destruct (IH ltac:(intros; apply ORD; right; assumption) ltac:(intros; eapply T; [right; eassumption|eassumption]) ltac:(intros; eapply V; [right; eassumption|eassumption]) ys' F2) as [L1 L2].
      apply caplet_pv_iff in E as (tau & ds & de & dp & sg & H1 & H2 & H3 & H4 & H5 & ->).
      apply caplet_pv_iff in E2 as (tau2 & ds2 & de2 & dp2 & sg2 & G1 & G2 & G3 & G4 & G5 & ->).
      assert (tau2 = tau /\ ds2 = ds /\ de2 = de /\ dp2 = dp /\ sg2 = sg) as (-> & -> & -> & -> & ->) by (repeat split; congruence).
      pose proof (T a tau (or_introl eq_refl) H1) as TP. pose proof (V a sg (or_introl eq_refl) H5) as VP. pose proof (ORD a (or_introl eq_refl)) as OA.
      assert (DP : 0 < dp). { apply shifted_zero in H4. unfold discount in H4. apply obind_Ok in H4 as (z & _ & H4). apply Ok_R in H4. subst dp. apply exp_pos. }
      rewrite B. cbn [sign]. set (g := 1 * cf_notional c * tau * dp). assert (GP : 0 < g) by (unfold g; repeat apply Rmult_lt_0_compat; lra).
      set (ts := yf365 (cf_valuation_date c) (accrual_start a)). set (te := yf365 (cf_valuation_date c) (accrual_end a)).
      assert (TE : ts < te). { unfold ts, te, yf365, Rdiv. apply Rmult_lt_compat_r; [lra|]. apply IZR_lt. lia. }
      rewrite (variance_scale _ (sg + 0 * (1 / 10000)) ts te TE), (variance_scale _ (sg + bp * (1 / 10000)) ts te TE).
      destruct (C65_bounds (cf_style c) 1 ts te TE) as (_ & [U0 _] & _ & _). set (u := caplet_total_variance (cf_style c) 1 ts te) in *.
      assert (SQ : (sg + 0 * (1 / 10000)) * (sg + 0 * (1 / 10000)) < (sg + bp * (1 / 10000)) * (sg + bp * (1 / 10000))) by nra.
      pose proof (kind_price_le (cf_kind c) ((ds / de - 1) / tau) (cf_strike c) ((sg + 0 * (1 / 10000)) * (sg + 0 * (1 / 10000)) * u) ((sg + bp * (1 / 10000)) * (sg + bp * (1 / 10000)) * u) ltac:(nra)) as KL.
      cbn [sumR]. split; [pose proof (Rmult_le_compat_l g _ _ ltac:(lra) KL); lra|].
      intros (b & [<-|Ib] & Lb).
      + assert (UP : 0 < u).
        { unfold u, caplet_total_variance. unfold live in Lb.
          assert (TP' : 0 < te). { unfold te, yf365, Rdiv. apply Rmult_lt_0_compat; [apply IZR_lt; destruct (cf_style c); lia|lra]. }
          destruct (Rle_dec te 0); [lra|]. cbv zeta. destruct (cf_style c).
          - assert (0 < ts). { unfold ts, yf365, Rdiv. apply Rmult_lt_0_compat; [apply IZR_lt; lia|lra]. } rewrite Rmax_left by lra. lra.
          - destruct (Rle_dec 0 ts); [lra|]. unfold Rdiv. apply Rmult_lt_0_compat; [rewrite !Rmult_1_l; apply pow_lt, TP'|]. apply Rinv_0_lt_compat. nra. }
        assert (KS : kind_price (cf_kind c) ((ds / de - 1) / tau) (cf_strike c) ((sg + 0 * (1 / 10000)) * (sg + 0 * (1 / 10000)) * u) < kind_price (cf_kind c) ((ds / de - 1) / tau) (cf_strike c) ((sg + bp * (1 / 10000)) * (sg + bp * (1 / 10000)) * u)).
        { destruct (C37_increasing ((ds / de - 1) / tau) (cf_strike c) ((sg + 0 * (1 / 10000)) * (sg + 0 * (1 / 10000)) * u) ((sg + bp * (1 / 10000)) * (sg + bp * (1 / 10000)) * u)); [nra|nra|]. destruct (cf_kind c); assumption. }
        pose proof (Rmult_lt_compat_l g _ _ GP KS). lra.
      + specialize (L2 (ex_intro _ b (conj Ib Lb))). pose proof (Rmult_le_compat_l g _ _ ltac:(lra) KL). lra. }
  destruct X as [X1 X2]. split; [lra|]. intros L. specialize (X2 L). lra.
Qed.
Print Assumptions C67_vega_sign.

(** The closed form is the derivative of the value by the volatility shift, per basis point. *)
Theorem C67_analytic : forall c y vs w,
  (forall a, In a (cf_schedule c) -> (accrual_start a < accrual_end a)%Z) ->
  (forall a s, In a (cf_schedule c) -> caplet_volatility vs (accrual_start a) (cf_strike c) = Ok s -> 0 < s) ->
  analytic_vega_1bp c y vs = Ok w ->
  exists g : R -> R, (forall bp, cap_pv c y vs 0 bp = Ok (g bp)) /\ is_derive g 0 w.
Proof.
  intros c y vs w ORD V H. apply sum_pv_iff in H as (xs & F & ->).
  assert (ONE : forall a x, In a (cf_schedule c) -> caplet_vega c y vs a = Ok x ->
    exists g : R -> R, (forall bp, caplet_pv c y vs 0 bp a = Ok (g bp)) /\ is_derive g 0 x).
  { intros a x Ia H. unfold caplet_vega in H. apply obind_Ok in H as (tau & H1 & H). apply obind_Ok in H as (ds & H2 & H). apply obind_Ok in H as (de & H3 & H).
    apply obind_Ok in H as (dp & H4 & H). cbv zeta in H. apply obind_Ok in H as (sg & H5 & H).
    set (ts := yf365 (cf_valuation_date c) (accrual_start a)) in *. set (te := yf365 (cf_valuation_date c) (accrual_end a)) in *.
    assert (TE : ts < te). { pose proof (ORD a Ia). unfold ts, te, yf365, Rdiv. apply Rmult_lt_compat_r; [lra|]. apply IZR_lt. lia. }
    pose proof (V a sg Ia H5) as SP. set (Fw := (ds / de - 1) / tau) in *. set (k := sign (cf_direction c) * cf_notional c * tau * dp).
    set (u := caplet_total_variance (cf_style c) 1 ts te) in *.
    exists (fun bp => k * kind_price (cf_kind c) Fw (cf_strike c) (caplet_total_variance (cf_style c) (sg + bp * (1 / 10000)) ts te)). split.
    { intros bp. apply caplet_pv_iff. exists tau, ds, de, dp, sg. repeat (split; [assumption|]). reflexivity. }
    apply (is_derive_ext (fun bp => k * kind_price (cf_kind c) Fw (cf_strike c) ((sg + bp * (1 / 10000)) * (sg + bp * (1 / 10000)) * u))).
    { intros bp. rewrite (variance_scale _ (sg + bp * (1 / 10000)) ts te TE). reflexivity. }
    destruct (C65_bounds (cf_style c) 1 ts te TE) as (_ & [U0 _] & _ & _). fold u in U0.
    assert (EV : caplet_total_variance (cf_style c) (sg + 0 * (1 / 10000)) ts te = sg * sg * u).
    { rewrite Rmult_0_l, Rplus_0_r. apply variance_scale, TE. }
    rewrite EV in H. destruct (Rle_dec (sg * sg * u) 0) as [Z|Z].
    - apply Ok_R in H. subst x. assert (EU : u = 0).
      { apply Rle_antisym; [|exact U0]. apply (Rmult_le_reg_l (sg * sg)); [nra|]. rewrite Rmult_0_r. exact Z. }
      rewrite EU.
      apply (is_derive_ext (fun _ => k * kind_price (cf_kind c) Fw (cf_strike c) 0)); [intros bp; rewrite Rmult_0_r; reflexivity|]. apply @is_derive_const.
    - destruct (Rle_dec sg 0); [lra|]. apply Ok_R in H.
      assert (ET : match cf_style c with ForwardLooking => Rmax ts 0 | BackwardCompounded => if Rle_dec 0 ts then ts + (te - ts) / 3 else te ^ 3 / (3 * (te - ts) * (te - ts)) end = u).
      { unfold u, caplet_total_variance in *. destruct (Rle_dec te 0) as [N|N].
        - exfalso. apply Z. rewrite Rmult_0_r. lra.
        - cbv zeta. destruct (cf_style c); [ring|]. destruct (Rle_dec 0 ts); [ring|]. unfold Rdiv. ring. }
      rewrite ET in H. subst x.
      assert (D : is_derive (fun W => kind_price (cf_kind c) Fw (cf_strike c) W) ((sg + 0 * (1 / 10000)) * (sg + 0 * (1 / 10000)) * u) (bachelier_vega_variance Fw (cf_strike c) (sg * sg * u))).
      { replace ((sg + 0 * (1 / 10000)) * (sg + 0 * (1 / 10000)) * u) with (sg * sg * u) by ring.
        destruct (C37_greeks Fw (cf_strike c) (sg * sg * u) ltac:(lra)) as (D1 & D2 & _). destruct (cf_kind c); cbn [kind_price]; assumption. }
      evar_last.
      + apply (is_derive_scal (fun bp => kind_price (cf_kind c) Fw (cf_strike c) ((sg + bp * (1 / 10000)) * (sg + bp * (1 / 10000)) * u)) 0 k).
        apply (is_derive_comp (fun W => kind_price (cf_kind c) Fw (cf_strike c) W) (fun bp => (sg + bp * (1 / 10000)) * (sg + bp * (1 / 10000)) * u)); [exact D|].
        instantiate (1 := 2 * sg * (1 / 10000) * u). auto_derive; [exact I|]. ring.
      + unfold scal; cbn; unfold mult; cbn. unfold k. ring. }
  unfold cap_pv. assert (X : exists g : R -> R, (forall bp acc, sum_pv (caplet_pv c y vs 0 bp) acc (cf_schedule c) = Ok (acc + g bp)) /\ is_derive g 0 (sumR xs)).
  { clear ORD V. induction F as [|a x s xs E F IH].
    - exists (fun _ => 0). split; [intros bp acc; cbn; f_equal; ring|]. apply @is_derive_const.
    - destruct (ONE a x (or_introl eq_refl) E) as (g1 & E1 & D1). destruct IH as (g2 & E2 & D2); [intros; apply ONE; [right; assumption|assumption]|].
      exists (fun bp => g1 bp + g2 bp). split; [intros bp acc; cbn [sum_pv]; rewrite E1; cbn [obind]; rewrite E2; f_equal; ring|].
      cbn [sumR]. apply (@is_derive_plus R_AbsRing R_NormedModule); assumption. }
  destruct X as (g & E & D). exists g. split; [intros bp; rewrite E; f_equal; ring|]. rewrite Rplus_0_l. exact D.
Qed.
Print Assumptions C67_analytic.

Example C67_witness : let c := quoted_cap early_quote USD today in let vs := [{| cp_expiry := expiry1; cp_nodes := [(0, 1 / 100)] |}] in
  cf_direction c = Buy /\ 0 < cf_notional c /\ (forall a, In a (cf_schedule c) -> (accrual_start a < accrual_end a)%Z) /\
  (forall a tau, In a (cf_schedule c) -> dc_yf (cf_day_counter c) (accrual_start a) (accrual_end a) = Ok tau -> 0 < tau) /\
  (forall a s, In a (cf_schedule c) -> caplet_volatility vs (accrual_start a) (cf_strike c) = Ok s -> 0 < s) /\
  (exists a, In a (cf_schedule c) /\ (cf_valuation_date c < accrual_start a)%Z) /\
  (exists w, cap_vega c (flat_curve today) (Some vs) 1 = Ok w) /\ (exists w, analytic_vega_1bp c (flat_curve today) vs = Ok w).
Proof.
  cbv zeta. set (c := quoted_cap early_quote USD today). set (vs := [_]).
  assert (SCH : cf_schedule c = [period1]) by reflexivity.
  assert (D0 : discount (flat_curve today) (accrual_start period1) = Ok 1) by (apply flat_discount, sample_range; lia).
  assert (D1 : discount (flat_curve today) (accrual_end period1) = Ok 1) by (apply flat_discount, sample_range; lia).
  assert (D2 : discount (flat_curve today) (pay_date period1) = Ok 1) by (apply flat_discount, sample_range; lia).
  assert (PV : forall bp, exists w, cap_pv c (flat_curve today) vs 0 bp = Ok w).
  { intros bp. apply sum_pv_ok. rewrite SCH. intros a [<-|[]]. eexists. apply caplet_pv_iff. eexists _, 1, 1, 1, (1 / 100).
    split; [reflexivity|]. split; [apply shifted_zero, D0|]. split; [apply shifted_zero, D1|]. split; [apply shifted_zero, D2|]. split; reflexivity. }
  split; [reflexivity|]. split; [cbn; lra|]. rewrite SCH. split; [intros a [<-|[]]; vm_compute; reflexivity|].
  split. { intros a tau [<-|[]] E. apply Ok_R in E. subst tau. unfold yf365. apply Rdiv_lt_0_compat; [|lra]. apply IZR_lt. vm_compute. reflexivity. }
  split. { intros a s [<-|[]] E. change (Ok (1 / 100) = Ok s) in E. apply Ok_R in E. subst s. lra. }
  split. { exists period1. split; [left; reflexivity|vm_compute; reflexivity]. }
  split.
  - destruct (PV 0) as (w0 & E0), (PV 1) as (w1 & E1). exists (w1 - w0). unfold cap_vega. cbn [cap_unpack obind]. rewrite E0. cbn [obind]. rewrite E1. reflexivity.
  - apply sum_pv_ok. rewrite SCH. intros a [<-|[]]. unfold caplet_vega.
    change (dc_yf (cf_day_counter c) (accrual_start period1) (accrual_end period1)) with (Ok (yf365 (accrual_start period1) (accrual_end period1))). cbn [obind].
    rewrite (proj2 (shifted_zero _ _ _) D0). cbn [obind]. rewrite (proj2 (shifted_zero _ _ _) D1). cbn [obind]. rewrite (proj2 (shifted_zero _ _ _) D2). cbn [obind]. cbv zeta.
    change (caplet_volatility vs (accrual_start period1) (cf_strike c)) with (Ok (1 / 100)). cbn [obind].
    destruct (Rle_dec _ _); [eexists; reflexivity|]. destruct (Rle_dec _ _); eexists; reflexivity.
Qed.

(** ** C68: rate risk *)
(** Pricing under a shift is pricing on the curve with every zero rate raised by it. *)
Lemma cap_raised c y vs rs v w : ordered_curve (stripped_curves y) ->
  cap_pv c y vs rs v = Ok w -> cap_pv c (raise_curve (rs / 10000) y) vs 0 v = Ok w.
Proof.
  intros O. apply sum_pv_transfer. intros a x _ H. apply caplet_pv_iff in H as (tau & ds & de & dp & s & H1 & H2 & H3 & H4 & H5 & ->).
  replace (rs / 10000) with (rs * (1 / 10000)) by field.
  apply caplet_pv_iff. exists tau, ds, de, dp, s. split; [exact H1|].
  split; [apply shifted_zero, shifted_is_raised; assumption|]. split; [apply shifted_zero, shifted_is_raised; assumption|].
  split; [apply shifted_zero, shifted_is_raised; assumption|]. split; [exact H5|reflexivity].
Qed.

Theorem C68_dv01 : forall c y vs w, ordered_curve (stripped_curves y) -> cap_dv01 c y (Some vs) = Ok w ->
  exists up base, cap_mtm c y (Some vs) = Ok (cf_currency c, base) /\
    cap_mtm c (raise_curve (1 / 10000) y) (Some vs) = Ok (cf_currency c, up) /\ w = up - base.
Proof.
  intros c y vs w O H. unfold cap_dv01 in H. cbn [cap_unpack obind] in H. apply obind_Ok in H as (base & HB & H). apply obind_Ok in H as (up & HU & H).
  apply Ok_R in H. subst w. exists up, base. unfold cap_mtm. cbn [cap_unpack obind]. rewrite HB. split; [reflexivity|].
  rewrite (cap_raised _ _ _ _ _ _ O HU). split; reflexivity.
Qed.
Print Assumptions C68_dv01.

Theorem C68_gamma : forall c y vs bp w, ordered_curve (stripped_curves y) -> cap_gamma c y (Some vs) bp Zeros = Ok w ->
  exists up down base, cap_mtm c y (Some vs) = Ok (cf_currency c, base) /\
    cap_mtm c (raise_curve (bp / 10000) y) (Some vs) = Ok (cf_currency c, up) /\
    cap_mtm c (raise_curve (- bp / 10000) y) (Some vs) = Ok (cf_currency c, down) /\ w = (up - base) - (base - down).
Proof.
  intros c y vs bp w O H. unfold cap_gamma in H. cbn [cap_unpack obind] in H. apply obind_Ok in H as (base & HB & H). apply obind_Ok in H as (up & HU & H).
  apply obind_Ok in H as (down & HD & H). apply Ok_R in H. subst w. exists up, down, base. unfold cap_mtm. cbn [cap_unpack obind]. rewrite HB.
  rewrite (cap_raised _ _ _ _ _ _ O HU), (cap_raised _ _ _ _ _ _ O HD). repeat split. ring.
Qed.
Print Assumptions C68_gamma.

(** Other shift modes, and markets without caplet volatilities, are errors and not numbers. *)
Theorem C68_errors : forall c y bp m vs,
  (m <> Zeros -> cap_gamma c y vs bp m = Err EInvalidData) /\
  cap_mtm c y None = Err EInvalidData /\ cap_dv01 c y None = Err EInvalidData /\ cap_vega c y None bp = Err EInvalidData /\
  cap_gamma c y None bp m = Err EInvalidData /\ cap_modified_duration c y None = Err EInvalidData.
Proof. intros c y bp m vs. split; [intros N; destruct m; [congruence|reflexivity..]|]. repeat split. destruct m; reflexivity. Qed.
Print Assumptions C68_errors.

(** Modified duration: the relative fall in value per unit of rate, over one basis point. *)
Theorem C68_duration : forall c y vs w, ordered_curve (stripped_curves y) -> cap_modified_duration c y (Some vs) = Ok w ->
  exists base, cap_mtm c y (Some vs) = Ok (cf_currency c, base) /\
    ((Rabs base < / 10 ^ 12 /\ w = 0) \/
     (/ 10 ^ 12 <= Rabs base /\ exists up, cap_mtm c (raise_curve (1 / 10000) y) (Some vs) = Ok (cf_currency c, up) /\
        w = - ((up - base) / base) / (1 / 10000))).
Proof.
  intros c y vs w O H. unfold cap_modified_duration in H. apply obind_Ok in H as ([cur base] & HM & H).
  assert (cur = cf_currency c). { unfold cap_mtm in HM. cbn [cap_unpack obind] in HM. apply obind_Ok in HM as (w' & _ & E). congruence. }
  subst cur. exists base. split; [exact HM|]. cbv beta iota in H. destruct (Rlt_dec _ _) as [C|C].
  - apply Ok_R in H. subst w. left. split; [exact C|reflexivity].
  - right. split; [lra|]. apply obind_Ok in H as (d & HD & H). apply Ok_R in H. subst w.
    destruct (C68_dv01 _ _ _ _ O HD) as (up & base' & E1 & E2 & ->). assert (base' = base) by congruence. subst base'.
    exists up. split; [exact E2|]. assert (base <> 0). { intros ->. apply C. rewrite Rabs_R0. apply Rinv_0_lt_compat, pow_lt. lra. }
    field. assumption.
Qed.
Print Assumptions C68_duration.

Lemma flat_ordered : ordered_curve (stripped_curves (flat_curve today)).
Proof. split; [repeat constructor|]. intros a b [<-|[]] [<-|[]] _. reflexivity. Qed.

Example C68_witness : let c := quoted_cap early_quote USD today in let vs := [{| cp_expiry := expiry1; cp_nodes := [(0, 1 / 100)] |}] in
  ordered_curve (stripped_curves (flat_curve today)) /\
  exists a b d, cap_dv01 c (flat_curve today) (Some vs) = Ok a /\ cap_gamma c (flat_curve today) (Some vs) 25 Zeros = Ok b /\
    cap_modified_duration c (flat_curve today) (Some vs) = Ok d.
Proof.
  cbv zeta. split; [exact flat_ordered|]. set (c := quoted_cap early_quote USD today). set (vs := [_]).
  assert (SCH : cf_schedule c = [period1]) by reflexivity.
  assert (D0 : discount (flat_curve today) (accrual_start period1) = Ok 1) by (apply flat_discount, sample_range; lia).
  assert (D1 : discount (flat_curve today) (accrual_end period1) = Ok 1) by (apply flat_discount, sample_range; lia).
  assert (D2 : discount (flat_curve today) (pay_date period1) = Ok 1) by (apply flat_discount, sample_range; lia).
  assert (PV : forall bp, exists w, cap_pv c (flat_curve today) vs bp 0 = Ok w).
  { intros bp. apply sum_pv_ok. rewrite SCH. intros a [<-|[]].
    destruct (proj2 (shifted_total (flat_curve today) (accrual_start period1) bp) (ex_intro _ _ D0)) as (x0 & X0).
    destruct (proj2 (shifted_total (flat_curve today) (accrual_end period1) bp) (ex_intro _ _ D1)) as (x1 & X1).
    destruct (proj2 (shifted_total (flat_curve today) (pay_date period1) bp) (ex_intro _ _ D2)) as (x2 & X2).
    eexists. apply caplet_pv_iff. eexists _, x0, x1, x2, (1 / 100). split; [reflexivity|]. repeat (split; [assumption|]). split; reflexivity. }
  destruct (PV 0) as (w0 & E0), (PV 1) as (w1 & E1), (PV 25) as (w2 & E2), (PV (- (25))) as (w3 & E3).
  exists (w1 - w0), (w2 + w3 - 2 * w0). assert (DV : cap_dv01 c (flat_curve today) (Some vs) = Ok (w1 - w0)).
  { unfold cap_dv01. cbn [cap_unpack obind]. rewrite E0. cbn [obind]. rewrite E1. reflexivity. }
  assert (EX : exists d, cap_modified_duration c (flat_curve today) (Some vs) = Ok d).
  { unfold cap_modified_duration, cap_mtm. cbn [cap_unpack obind]. rewrite E0. cbn [obind]. destruct (Rlt_dec _ _); [eexists; reflexivity|]. rewrite DV. eexists; reflexivity. }
  destruct EX as (d & ED). exists d. split; [exact DV|]. split; [|exact ED].
  unfold cap_gamma. cbn [cap_unpack obind]. rewrite E0. cbn [obind]. rewrite E2. cbn [obind]. rewrite E3. reflexivity.
Qed.
