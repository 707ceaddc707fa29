(** Property C44: the FX volatility surface passes through its quotes. *)
From Coq Require Import ZArith Lia Bool List Reals Lra Permutation Sorting.Sorted.
From Coquelicot Require Import Coquelicot.
Import ListNotations.
From Verif Require Import Outcome Date Sorting ForwardPoints ForwardPointsFacts YieldCurve Normal NormalFacts VolSurface VolFacts.
Open Scope R_scope.

(** The Black–Scholes d1 of a forward [F] at strike [K]; the forward delta of a
    call is [cdf d1], of a put [cdf (- d1)] in absolute value. *)
Definition fwd_d1 (F K v t : R) : R := (ln (F / K) + v * v * t / 2) / (v * sqrt t).

Lemma fwd_ratio F E : 0 < F -> ln (F / (F * exp E)) = - E.
Proof.
  intros HF. replace (F / (F * exp E)) with (exp (- E)); [apply ln_exp|].
  rewrite exp_Ropp. field. split; [apply Rgt_not_eq, exp_pos|lra].
Qed.

Lemma d1_of_strike F v t z : 0 < F -> 0 < t -> v <> 0 ->
  fwd_d1 F (F * exp (1 / 2 * v * v * sqrt t * sqrt t - z * v * sqrt t)) v t = z.
Proof.
  intros HF Ht Hv. unfold fwd_d1. rewrite fwd_ratio by exact HF.
  assert (Q : 0 < sqrt t) by (apply sqrt_lt_R0; exact Ht).
  assert (E : t = sqrt t * sqrt t) by (rewrite sqrt_sqrt; lra). remember (sqrt t) as q. rewrite E. field. lra.
Qed.

Lemma call_strike_delta d v F t k : 0 < F -> 0 < t -> v <> 0 ->
  strike_from_call_delta d v F (sqrt t) = Ok k -> cdf (fwd_d1 F k v t) = d.
Proof.
  intros HF Ht Hv H. unfold strike_from_call_delta in H. apply obind_Ok in H as (z & Hz & H).
  apply (f_equal (fun o => match o with Ok y => y | _ => 0 end)) in H. cbv beta iota in H. subst k.
  rewrite d1_of_strike by assumption. apply inverse_cdf_inv. exact Hz.
Qed.
Lemma put_strike_delta d v F t k : 0 < F -> 0 < t -> v <> 0 ->
  strike_from_put_delta d v F (sqrt t) = Ok k -> cdf (- fwd_d1 F k v t) = d.
Proof.
  intros HF Ht Hv H. unfold strike_from_put_delta in H. apply obind_Ok in H as (z & Hz & H).
  apply (f_equal (fun o => match o with Ok y => y | _ => 0 end)) in H. cbv beta iota in H. subst k.
  rewrite d1_of_strike by assumption. rewrite cdf_opp. apply inverse_cdf_inv in Hz. lra.
Qed.

Lemma map_inj_in {A B} (f : A -> B) l a b : NoDup (map f l) -> In a l -> In b l -> f a = f b -> a = b.
Proof.
  induction l as [|x r IH]; cbn; intros N Ia Ib E; [destruct Ia|]. inversion N as [|? ? NI N']; subst.
  destruct Ia as [<-|Ia], Ib as [<-|Ib]; [reflexivity| | |apply IH; assumption].
  - exfalso. apply NI. rewrite E. apply in_map. exact Ib.
  - exfalso. apply NI. rewrite <- E. apply in_map. exact Ia.
Qed.

Section C44.
  Context (sort : list smile -> list smile) (search : list smile -> Z -> nat + nat).
  Context (HS : sorts_by sm_expiry sort) (HB : searches_by sm_expiry search).
  Notation surface_new := (surface_new sort).
  Notation surface_volatility := (surface_volatility search).

  Lemma new_inv vd ps s : surface_new vd ps = Ok s ->
    vs_valuation_date s = vd /\ ps <> [] /\ StronglySorted (fun a b => (sm_expiry a <= sm_expiry b)%Z) (vs_smiles s) /\
    (forall p, In p ps -> exists m, In m (vs_smiles s) /\ from_pillar p (yf365 vd (vp_expiry p)) = Ok m) /\
    (forall m, In m (vs_smiles s) -> exists p, In p ps /\ from_pillar p (yf365 vd (vp_expiry p)) = Ok m).
  Proof.
    unfold VolSurface.surface_new. destruct ps as [|p0 pr] eqn:EP; [discriminate|]. rewrite <- EP. intros H.
    apply obind_Ok in H as (ms & HM & H). apply (f_equal (fun o => match o with Ok y => y | _ => s end)) in H. cbv beta iota in H. subst s.
    cbn [vs_valuation_date vs_smiles]. destruct (HS ms) as [P S].
    split; [reflexivity|]. split; [rewrite EP; discriminate|]. split; [exact S|]. split.
    - intros p I. destruct (omapM_in _ _ _ _ HM I) as (m & J & E). exists m. split; [apply (Permutation_in _ P); exact J|exact E].
    - intros m I. apply (Permutation_in _ (Permutation_sym P)) in I. apply (omapM_in_inv _ _ _ _ HM) in I as (p & J & E). eauto.
  Qed.

  Lemma smile_expiry p t m : from_pillar p t = Ok m -> sm_expiry m = vp_expiry p /\ sm_year_fraction m = t /\ 0 < t.
  Proof. intros H. destruct (from_pillar_built _ _ _ H) as (atm & prs & sv & B). split; [apply (b_expiry _ _ _ _ _ _ B)|split; [apply (b_year _ _ _ _ _ _ B)|apply (b_t _ _ _ _ _ _ B)]]. Qed.

  Lemma at_pillar vd ps s p : surface_new vd ps = Ok s -> NoDup (map vp_expiry ps) -> In p ps ->
    exists m, from_pillar p (yf365 vd (vp_expiry p)) = Ok m /\ In m (vs_smiles s) /\
      forall K, 0 < K -> surface_volatility s (vp_expiry p) K = Ok (smile_volatility m K).
  Proof.
    intros H ND I. destruct (new_inv _ _ _ H) as (EV & NE & SS & A & B). destruct (A p I) as (m & Im & Em).
    exists m. split; [exact Em|]. split; [exact Im|]. intros K HK. unfold VolSurface.surface_volatility.
    destruct (Rle_dec K 0); [lra|]. destruct (smile_expiry _ _ _ Em) as (X1 & X2 & X3). rewrite EV. cbv zeta.
    destruct (Rle_dec (yf365 vd (vp_expiry p)) 0); [lra|].
    pose proof (HB (vs_smiles s) (vp_expiry p) SS) as SB. destruct (search (vs_smiles s) (vp_expiry p)) as [i|i].
    - destruct SB as (a & Ea & Ka). unfold oindex. rewrite Ea. cbn [obind].
      destruct (B a (nth_error_In _ _ Ea)) as (p' & Ip' & Ep'). destruct (smile_expiry _ _ _ Ep') as (Y1 & _).
      assert (p' = p) by (apply (map_inj_in vp_expiry ps); [exact ND|exact Ip'|exact I|congruence]). subst p'.
      assert (a = m) by congruence. subst a. reflexivity.
    - destruct SB as (_ & SL & SR). apply In_nth_error in Im as (j & Ej). exfalso.
      destruct (Nat.lt_ge_cases j i) as [C|C]; [specialize (SL j m Ej C)|specialize (SR j m Ej C)]; lia.
  Qed.

  (** Valid inputs: what a surface that was built has been checked for. *)
Theorem C44_checked : forall vd ps s, surface_new vd ps = Ok s ->
    ps <> [] /\ forall p, In p ps -> (vd < vp_expiry p)%Z /\ 0 < vp_forward p /\
    (exists v l r, vp_quotes p = l ++ QAtm v :: r /\ forall v', ~ In (QAtm v') (l ++ r)) /\
    (forall d v, In (QCall d v) (vp_quotes p) \/ In (QPut d v) (vp_quotes p) \/
                 In (QRiskReversal d v) (vp_quotes p) \/ In (QButterfly d v) (vp_quotes p) -> 0 < d < 1 / 2).
  Proof.
    intros vd ps s H. destruct (new_inv _ _ _ H) as (EV & NE & SS & A & _). split; [exact NE|]. intros p I.
    destruct (A p I) as (m & _ & Em). destruct (from_pillar_built _ _ _ Em) as (atm & prs & sv & B).
    destruct (normalise_inv _ _ _ (b_norm _ _ _ _ _ _ B)) as (N1 & N2 & _).
    split; [|split; [apply (b_f _ _ _ _ _ _ B)|split]].
    - pose proof (b_t _ _ _ _ _ _ B) as T. unfold yf365 in T. apply Z.nle_gt. intros C.
      assert (IZR (vp_expiry p - vd) <= 0) by (apply (IZR_le _ 0); unfold date in *; lia).
      unfold Rdiv in T. assert (0 < / 365) by lra. nra.
    - destruct N1 as (l & r & E1 & E2). exists atm, l, r. auto.
    - intros d v [J|[J|[J|J]]]; [apply (N2 KCall d v)|apply (N2 KPut d v)|apply (N2 KRr d v)|apply (N2 KBf d v)]; exact J.
  Qed.

  Lemma atm_unique Q v w prs : normalise_quotes Q = Ok (w, prs) -> In (QAtm v) Q -> v = w.
  Proof.
    intros HN I. destruct (normalise_inv _ _ _ HN) as ((l & r & E & N) & _). rewrite E in I.
    apply in_app_iff in I as [I|[I|I]]; [exfalso; apply (N v), in_app_iff; left; exact I|congruence|exfalso; apply (N v), in_app_iff; right; exact I].
  Qed.

  (** The ATM quote is the volatility at the delta-neutral straddle strike, where
      the call and the put have opposite deltas. *)
Theorem C44_atm : forall vd ps s p v, surface_new vd ps = Ok s -> NoDup (map vp_expiry ps) -> In p ps ->
    In (QAtm v) (vp_quotes p) -> v <> 0 ->
    exists K, 0 < K /\ surface_volatility s (vp_expiry p) K = Ok v /\
      fwd_d1 (vp_forward p) K v (IZR (vp_expiry p - vd) / 365) = 0 /\
      K = vp_forward p * exp (v * v * (IZR (vp_expiry p - vd) / 365) / 2).
  Proof.
    intros vd ps s p v H ND I IA Hv. destruct (at_pillar _ _ _ _ H ND I) as (m & Em & _ & VOL).
    destruct (from_pillar_built _ _ _ Em) as (atm & prs & sv & B).
    assert (v = atm) by (eapply atm_unique; [apply (b_norm _ _ _ _ _ _ B)|exact IA]). subst atm.
    pose proof (b_atm _ _ _ _ _ _ B) as IK. unfold yf365 in *. set (t := IZR (vp_expiry p - vd) / 365) in *.
    pose proof (b_t _ _ _ _ _ _ B) as T. pose proof (b_f _ _ _ _ _ _ B) as F.
    exists (atm_dns_strike v (vp_forward p) t). pose proof (b_pos _ _ _ _ _ _ B _ _ IK) as PK.
    split; [exact PK|]. split; [rewrite VOL by exact PK; f_equal; apply (b_smile _ _ _ _ _ _ B Hv _ _ IK)|].
    unfold atm_dns_strike. split.
    - unfold fwd_d1. rewrite fwd_ratio by exact F. assert (Q : 0 < sqrt t) by (apply sqrt_lt_R0; exact T). field. lra.
    - do 2 f_equal. lra.
  Qed.

  (** A quoted call and put: the surface returns each quote at the strike that has
      the quoted delta. *)
Theorem C44_quoted_partial : forall vd ps s p a d vc vp, surface_new vd ps = Ok s -> NoDup (map vp_expiry ps) -> In p ps ->
    well_separated (vp_quotes p) -> In (QAtm a) (vp_quotes p) -> a <> 0 ->
    In (QCall d vc) (vp_quotes p) -> In (QPut d vp) (vp_quotes p) -> vc <> 0 -> vp <> 0 ->
    exists Kc Kp, 0 < Kp < Kc /\
      surface_volatility s (vp_expiry p) Kc = Ok vc /\ cdf (fwd_d1 (vp_forward p) Kc vc (IZR (vp_expiry p - vd) / 365)) = d /\
      surface_volatility s (vp_expiry p) Kp = Ok vp /\ cdf (- fwd_d1 (vp_forward p) Kp vp (IZR (vp_expiry p - vd) / 365)) = d.
  Proof.
    intros vd ps s p a d vc vp H ND I WS IA Ha IC IP Hc Hp. destruct (at_pillar _ _ _ _ H ND I) as (m & Em & _ & VOL).
    destruct (from_pillar_built _ _ _ Em) as (atm & prs & sv & B).
    assert (a = atm) by (eapply atm_unique; [apply (b_norm _ _ _ _ _ _ B)|exact IA]). subst atm.
    pose proof (normalise_direct _ _ _ _ _ _ (b_norm _ _ _ _ _ _ B) WS IC IP) as IQ.
    destruct (b_call _ _ _ _ _ _ B _ IQ) as (kc & Ec & Ic). destruct (b_put _ _ _ _ _ _ B _ IQ) as (kp & Ep & Ip).
    cbn [dp_delta dp_call dp_put] in Ec, Ic, Ep, Ip. exists kc, kp.
    pose proof (b_pos _ _ _ _ _ _ B _ _ Ic) as Pc. pose proof (b_pos _ _ _ _ _ _ B _ _ Ip) as Pp.
    pose proof (b_t _ _ _ _ _ _ B) as T. pose proof (b_f _ _ _ _ _ _ B) as F.
    rewrite !VOL by assumption. rewrite (b_smile _ _ _ _ _ _ B Ha _ _ Ic), (b_smile _ _ _ _ _ _ B Ha _ _ Ip).
    unfold yf365 in *. repeat split.
    - exact Pp.
    - exact (b_order _ _ _ _ _ _ B _ _ _ _ IQ IQ Ep Ec).
    - eapply call_strike_delta; [exact F|exact T|exact Hc|exact Ec].
    - eapply put_strike_delta; [exact F|exact T|exact Hp|exact Ep].
  Qed.

  (** A quoted risk reversal and butterfly (with no call and put to override them):
      the volatilities the surface returns at the two strikes of that delta differ
      by the risk reversal, and their mean exceeds the ATM volatility by the butterfly. *)
Theorem C44_rr_bf : forall vd ps s p a d rr bf, surface_new vd ps = Ok s -> NoDup (map vp_expiry ps) -> In p ps ->
    well_separated (vp_quotes p) -> In (QAtm a) (vp_quotes p) -> a <> 0 ->
    In (QRiskReversal d rr) (vp_quotes p) -> In (QButterfly d bf) (vp_quotes p) ->
    ~ ((exists v, In (QCall d v) (vp_quotes p)) /\ (exists v, In (QPut d v) (vp_quotes p))) ->
    a + bf + rr / 2 <> 0 -> a + bf - rr / 2 <> 0 ->
    exists Kc Kp vc vp, 0 < Kp < Kc /\ vc - vp = rr /\ (vc + vp) / 2 - a = bf /\
      surface_volatility s (vp_expiry p) Kc = Ok vc /\ cdf (fwd_d1 (vp_forward p) Kc vc (IZR (vp_expiry p - vd) / 365)) = d /\
      surface_volatility s (vp_expiry p) Kp = Ok vp /\ cdf (- fwd_d1 (vp_forward p) Kp vp (IZR (vp_expiry p - vd) / 365)) = d.
  Proof.
    intros vd ps s p a d rr bf H ND I WS IA Ha IC IP NB Hc Hp. destruct (at_pillar _ _ _ _ H ND I) as (m & Em & _ & VOL).
    destruct (from_pillar_built _ _ _ Em) as (atm & prs & sv & B).
    assert (a = atm) by (eapply atm_unique; [apply (b_norm _ _ _ _ _ _ B)|exact IA]). subst atm.
    pose proof (normalise_rr_bf _ _ _ _ _ _ (b_norm _ _ _ _ _ _ B) WS IC IP NB) as IQ.
    destruct (b_call _ _ _ _ _ _ B _ IQ) as (kc & Ec & Ic). destruct (b_put _ _ _ _ _ _ B _ IQ) as (kp & Ep & Ip).
    cbn [dp_delta dp_call dp_put] in Ec, Ic, Ep, Ip. exists kc, kp, (a + bf + 1 / 2 * rr), (a + bf - 1 / 2 * rr).
    pose proof (b_pos _ _ _ _ _ _ B _ _ Ic) as Pc. pose proof (b_pos _ _ _ _ _ _ B _ _ Ip) as Pp.
    pose proof (b_t _ _ _ _ _ _ B) as T. pose proof (b_f _ _ _ _ _ _ B) as F.
    rewrite !VOL by assumption. rewrite (b_smile _ _ _ _ _ _ B Ha _ _ Ic), (b_smile _ _ _ _ _ _ B Ha _ _ Ip).
    unfold yf365 in *. repeat split; try lra.
    - exact (b_order _ _ _ _ _ _ B _ _ _ _ IQ IQ Ep Ec).
    - eapply call_strike_delta; [exact F|exact T|lra|exact Ec].
    - eapply put_strike_delta; [exact F|exact T|lra|exact Ep].
  Qed.

  Lemma yf_lt vd a b : (a < b)%Z -> yf365 vd a < yf365 vd b.
  Proof. intros L. unfold yf365, Rdiv. apply Rmult_lt_compat_r; [lra|]. apply IZR_lt. unfold date in *. lia. Qed.

  (** Between neighbouring expiries the total variance at a strike is linear in time. *)
Theorem C44_between : forall vd ps s p1 p2 e K v1 v2, surface_new vd ps = Ok s -> NoDup (map vp_expiry ps) ->
    In p1 ps -> In p2 ps -> (vp_expiry p1 < e < vp_expiry p2)%Z ->
    (forall p, In p ps -> (vp_expiry p <= vp_expiry p1)%Z \/ (vp_expiry p2 <= vp_expiry p)%Z) -> 0 < K ->
    surface_volatility s (vp_expiry p1) K = Ok v1 -> surface_volatility s (vp_expiry p2) K = Ok v2 ->
    exists v, surface_volatility s e K = Ok v /\ 0 <= v /\
      let t1 := IZR (vp_expiry p1 - vd) / 365 in let t2 := IZR (vp_expiry p2 - vd) / 365 in let t := IZR (e - vd) / 365 in
      v * v * t * (t2 - t1) = v1 * v1 * t1 * (t2 - t) + v2 * v2 * t2 * (t - t1).
  Proof.
    intros vd ps s p1 p2 e K v1 v2 H ND I1 I2 [L1 L2] ADJ HK HV1 HV2.
    destruct (at_pillar _ _ _ _ H ND I1) as (m1 & Em1 & Im1 & VOL1). destruct (at_pillar _ _ _ _ H ND I2) as (m2 & Em2 & Im2 & VOL2).
    rewrite VOL1 in HV1 by exact HK. rewrite VOL2 in HV2 by exact HK.
    apply (f_equal (fun o => match o with Ok y => y | _ => 0 end)) in HV1, HV2. cbv beta iota in HV1, HV2.
    destruct (new_inv _ _ _ H) as (EV & NE & SS & A & B).
    destruct (smile_expiry _ _ _ Em1) as (X1 & X2 & X3). destruct (smile_expiry _ _ _ Em2) as (Y1 & Y2 & Y3).
    pose proof (yf_lt vd _ _ L1) as M1. pose proof (yf_lt vd _ _ L2) as M2.
    assert (UNI : forall m, In m (vs_smiles s) -> forall p q, In p ps -> from_pillar p q = Ok m -> sm_expiry m = vp_expiry p).
    { intros m _ p q _ E. apply (smile_expiry _ _ _ E). }
    assert (DET : forall m p m', In m (vs_smiles s) -> In p ps -> from_pillar p (yf365 vd (vp_expiry p)) = Ok m' -> sm_expiry m = vp_expiry p -> m = m').
    { intros m p m' Im Ip Ep Ex. destruct (B m Im) as (p' & Ip' & Ep'). destruct (smile_expiry _ _ _ Ep') as (Z1 & _).
      assert (p' = p) by (apply (map_inj_in vp_expiry ps); [exact ND|exact Ip'|exact Ip|congruence]). subst p'. congruence. }
    unfold VolSurface.surface_volatility. destruct (Rle_dec K 0); [lra|]. rewrite EV. cbv zeta.
    destruct (Rle_dec (yf365 vd e) 0); [lra|].
    pose proof (HB (vs_smiles s) e SS) as SB. destruct (search (vs_smiles s) e) as [i|i].
    - destruct SB as (b & Eb & Kb). exfalso. destruct (B b (nth_error_In _ _ Eb)) as (p' & Ip' & Ep').
      destruct (smile_expiry _ _ _ Ep') as (Z1 & _). destruct (ADJ p' Ip'); unfold date in *; lia.
    - destruct SB as (SI & SL & SR).
      apply In_nth_error in Im1 as (j1 & Ej1). apply In_nth_error in Im2 as (j2 & Ej2).
      assert (J1 : (j1 < i)%nat). { destruct (Nat.lt_ge_cases j1 i) as [C|C]; [exact C|]. specialize (SR j1 m1 Ej1 C). unfold date in *; lia. }
      assert (J2 : (i <= j2)%nat). { destruct (Nat.lt_ge_cases j2 i) as [C|C]; [specialize (SL j2 m2 Ej2 C); unfold date in *; lia|exact C]. }
      assert (J3 : (j2 < length (vs_smiles s))%nat) by (apply nth_error_Some; congruence).
      destruct (Nat.eqb_spec i 0); [lia|]. destruct (Nat.eqb_spec i (length (vs_smiles s))); [lia|].
      destruct (nth_error (vs_smiles s) (i - 1)) as [lo|] eqn:Elo; [|apply nth_error_None in Elo; lia].
      destruct (nth_error (vs_smiles s) i) as [hi|] eqn:Ehi; [|apply nth_error_None in Ehi; lia].
      assert (lo = m1).
      { apply (DET lo p1 m1); [eapply nth_error_In; exact Elo|exact I1|exact Em1|].
        destruct (B lo (nth_error_In _ _ Elo)) as (p' & Ip' & Ep'). destruct (smile_expiry _ _ _ Ep') as (Z1 & _).
        pose proof (SL (i - 1)%nat lo Elo ltac:(lia)) as Q1.
        assert (Q2 : (sm_expiry m1 <= sm_expiry lo)%Z).
        { destruct (Nat.eq_dec j1 (i - 1)) as [E|N]; [assert (m1 = lo) by congruence; subst; lia|].
          apply (sorted_nth sm_expiry (vs_smiles s) j1 (i - 1) m1 lo SS Ej1 Elo). lia. }
        destruct (ADJ p' Ip'); unfold date in *; lia. }
      assert (hi = m2).
      { apply (DET hi p2 m2); [eapply nth_error_In; exact Ehi|exact I2|exact Em2|].
        destruct (B hi (nth_error_In _ _ Ehi)) as (p' & Ip' & Ep'). destruct (smile_expiry _ _ _ Ep') as (Z1 & _).
        pose proof (SR i hi Ehi ltac:(lia)) as Q1.
        assert (Q2 : (sm_expiry hi <= sm_expiry m2)%Z).
        { destruct (Nat.eq_dec i j2) as [E|N]; [assert (m2 = hi) by congruence; subst; lia|].
          apply (sorted_nth sm_expiry (vs_smiles s) i j2 hi m2 SS Ehi Ej2). lia. }
        destruct (ADJ p' Ip'); unfold date in *; lia. }
      subst lo hi. unfold oindex. rewrite Elo, Ehi. cbn [obind]. rewrite HV1, HV2, X2, Y2.
      unfold yf365 in *. set (t1 := IZR (vp_expiry p1 - vd) / 365) in *. set (t2 := IZR (vp_expiry p2 - vd) / 365) in *. set (t := IZR (e - vd) / 365) in *.
      set (w := (t - t1) / (t2 - t1)). assert (W : 0 <= w <= 1).
      { unfold w. split; [apply Rlt_le, Rdiv_lt_0_compat; lra|]. apply (Rmult_le_reg_r (t2 - t1)); [lra|]. unfold Rdiv. rewrite Rmult_assoc, Rinv_l, Rmult_1_r by lra. lra. }
      assert (P : 0 <= v1 * v1 * t1 + w * (v2 * v2 * t2 - v1 * v1 * t1)).
      { replace (v1 * v1 * t1 + w * (v2 * v2 * t2 - v1 * v1 * t1)) with ((1 - w) * (v1 * v1 * t1) + w * (v2 * v2 * t2)) by ring.
        assert (0 <= v1 * v1 * t1) by (apply Rmult_le_pos; [apply Rle_0_sqr|lra]).
        assert (0 <= v2 * v2 * t2) by (apply Rmult_le_pos; [apply Rle_0_sqr|lra]).
        apply Rplus_le_le_0_compat; apply Rmult_le_pos; lra. }
      eexists. split; [reflexivity|]. split; [apply sqrt_pos|]. cbv zeta.
      rewrite sqrt_sqrt by (apply Rmult_le_pos; [exact P|apply Rlt_le, Rinv_0_lt_compat; lra]).
      unfold w. field. lra.
  Qed.

  (** Before the first expiry, and after the last, the volatility is that expiry's. *)
Theorem C44_outside : forall vd ps s p e K, surface_new vd ps = Ok s -> NoDup (map vp_expiry ps) -> In p ps -> (vd < e)%Z -> 0 < K ->
    ((e <= vp_expiry p)%Z /\ (forall q, In q ps -> (vp_expiry p <= vp_expiry q)%Z)) \/
    ((vp_expiry p <= e)%Z /\ (forall q, In q ps -> (vp_expiry q <= vp_expiry p)%Z)) ->
    surface_volatility s e K = surface_volatility s (vp_expiry p) K.
  Proof.
    intros vd ps s p e K H ND I LE HK C.
    destruct (Z.eq_dec e (vp_expiry p)) as [->|NE]; [reflexivity|].
    destruct (at_pillar _ _ _ _ H ND I) as (m & Em & Im & VOL). rewrite VOL by exact HK.
    destruct (new_inv _ _ _ H) as (EV & NN & SS & A & B). destruct (smile_expiry _ _ _ Em) as (X1 & X2 & X3).
    assert (EXP : forall m', In m' (vs_smiles s) -> exists q, In q ps /\ sm_expiry m' = vp_expiry q /\ from_pillar q (yf365 vd (vp_expiry q)) = Ok m').
    { intros m' Im'. destruct (B m' Im') as (q & Iq & Eq). exists q. split; [exact Iq|]. split; [apply (smile_expiry _ _ _ Eq)|exact Eq]. }
    unfold VolSurface.surface_volatility. destruct (Rle_dec K 0); [lra|]. rewrite EV. cbv zeta.
    assert (T : 0 < yf365 vd e). { unfold yf365, Rdiv. apply Rmult_lt_0_compat; [apply IZR_lt; unfold date in *; lia|lra]. }
    destruct (Rle_dec (yf365 vd e) 0); [lra|].
    pose proof (HB (vs_smiles s) e SS) as SB. destruct (search (vs_smiles s) e) as [i|i].
    - destruct SB as (b & Eb & Kb). exfalso. destruct (EXP b (nth_error_In _ _ Eb)) as (q & Iq & Z1 & _).
      destruct C as [[C1 C2]|[C1 C2]]; specialize (C2 q Iq); unfold date in *; lia.
    - destruct SB as (SI & SL & SR). apply In_nth_error in Im as (j & Ej).
      assert (J3 : (j < length (vs_smiles s))%nat) by (apply nth_error_Some; congruence).
      assert (SAME : forall k m', nth_error (vs_smiles s) k = Some m' -> (sm_expiry m' = vp_expiry p)%Z -> m' = m).
      { intros k m' Ek Ex. destruct (EXP m' (nth_error_In _ _ Ek)) as (q & Iq & Z1 & Eq).
        assert (q = p) by (apply (map_inj_in vp_expiry ps); [exact ND|exact Iq|exact I|congruence]). subst q. congruence. }
      destruct C as [[C1 C2]|[C1 C2]].
      + assert (i = 0)%nat.
        { destruct i as [|i]; [reflexivity|]. exfalso. destruct (nth_error (vs_smiles s) 0) as [b|] eqn:Eb; [|apply nth_error_None in Eb; lia].
          pose proof (SL O b Eb ltac:(lia)). destruct (EXP b (nth_error_In _ _ Eb)) as (q & Iq & Z1 & _). specialize (C2 q Iq). unfold date in *; lia. }
        subst i. cbn [Nat.eqb]. destruct (nth_error (vs_smiles s) 0) as [b|] eqn:Eb; [|apply nth_error_None in Eb; lia].
        unfold oindex. rewrite Eb. cbn [obind]. do 2 f_equal. apply (SAME O b Eb).
        destruct (EXP b (nth_error_In _ _ Eb)) as (q & Iq & Z1 & _). specialize (C2 q Iq).
        assert (Q2 : (sm_expiry b <= sm_expiry m)%Z).
        { destruct (Nat.eq_dec j 0) as [E|N]; [assert (m = b) by congruence; subst; lia|].
          apply (sorted_nth sm_expiry (vs_smiles s) 0 j b m SS Eb Ej). lia. }
        unfold date in *; lia.
      + assert (i = length (vs_smiles s)).
        { destruct (Nat.eq_dec i (length (vs_smiles s))) as [E|N]; [exact E|]. exfalso.
          destruct (nth_error (vs_smiles s) i) as [b|] eqn:Eb; [|apply nth_error_None in Eb; lia].
          pose proof (SR i b Eb ltac:(lia)). destruct (EXP b (nth_error_In _ _ Eb)) as (q & Iq & Z1 & _). specialize (C2 q Iq). unfold date in *; lia. }
        destruct (Nat.eqb_spec i 0); [lia|]. destruct (Nat.eqb_spec i (length (vs_smiles s))); [|lia].
        destruct (nth_error (vs_smiles s) (i - 1)) as [b|] eqn:Eb; [|apply nth_error_None in Eb; lia].
        unfold oindex. rewrite Eb. cbn [obind]. do 2 f_equal. apply (SAME _ b Eb).
        destruct (EXP b (nth_error_In _ _ Eb)) as (q & Iq & Z1 & _). specialize (C2 q Iq).
        assert (Q2 : (sm_expiry m <= sm_expiry b)%Z).
        { destruct (Nat.eq_dec j (i - 1)) as [E|N]; [assert (m = b) by congruence; subst; lia|].
          apply (sorted_nth sm_expiry (vs_smiles s) j (i - 1) m b SS Ej Eb). lia. }
        unfold date in *; lia.
  Qed.

  (** Neither building nor querying panics; out-of-range queries are errors and all
      others succeed. *)
Theorem C44_errors : forall vd ps,
    (forall w, surface_new vd ps <> Panic w) /\
    forall s, surface_new vd ps = Ok s -> forall e K,
      (K <= 0 \/ (e <= vd)%Z -> surface_volatility s e K = Err EInvalidData) /\
      (0 < K -> (vd < e)%Z -> exists v, surface_volatility s e K = Ok v).
  Proof.
    intros vd ps. split.
    { intros w. unfold VolSurface.surface_new. destruct ps; [discriminate|]. apply obind_no_panic; [|discriminate].
      intros u. apply omapM_no_panic. intros p _ u'. apply from_pillar_no_panic. }
    intros s H e K. destruct (new_inv _ _ _ H) as (EV & NN & SS & A & _). unfold VolSurface.surface_volatility. rewrite EV. split.
    - intros C. destruct (Rle_dec K 0); [reflexivity|]. cbv zeta. destruct (Rle_dec (yf365 vd e) 0) as [|N]; [reflexivity|].
      exfalso. destruct C as [C|C]; [lra|]. apply N. unfold yf365, Rdiv.
      assert (IZR (e - vd) <= 0) by (apply (IZR_le _ 0); unfold date in *; lia). assert (0 < / 365) by lra. nra.
    - intros HK L. destruct (Rle_dec K 0); [lra|]. cbv zeta.
      assert (T : 0 < yf365 vd e). { unfold yf365, Rdiv. apply Rmult_lt_0_compat; [apply IZR_lt; unfold date in *; lia|lra]. }
      destruct (Rle_dec (yf365 vd e) 0); [lra|].
      assert (LN : (0 < length (vs_smiles s))%nat).
      { destruct ps as [|p pr]; [contradiction|]. destruct (A p (or_introl eq_refl)) as (m & Im & _). destruct (vs_smiles s); [destruct Im|cbn; lia]. }
      pose proof (HB (vs_smiles s) e SS) as SB. destruct (search (vs_smiles s) e) as [i|i].
      + destruct SB as (b & Eb & _). unfold oindex. rewrite Eb. cbn [obind]. eauto.
      + destruct SB as (SI & _). destruct (Nat.eqb_spec i 0).
        { destruct (oindex_ok (vs_smiles s) 0 LN) as (a & ->). cbn [obind]. eauto. }
        destruct (Nat.eqb_spec i (length (vs_smiles s))).
        { destruct (oindex_ok (vs_smiles s) (i - 1) ltac:(lia)) as (a & ->). cbn [obind]. eauto. }
        destruct (oindex_ok (vs_smiles s) (i - 1) ltac:(lia)) as (a & ->). destruct (oindex_ok (vs_smiles s) i ltac:(lia)) as (b & ->).
        cbn [obind]. eauto.
  Qed.
End C44.

(** ** A quote the surface ignores *)
Lemma interp_zero l x : List.Forall (fun p : R * R => snd p = 0) l -> piecewise_linear_interp l x = 0.
Proof.
  intros F. assert (SC : scan_windows l x = 0).
  { induction l as [|lo [|hi r] IH]; [reflexivity|reflexivity|]. inversion F as [|? ? F1 F2]; subst. inversion F2 as [|? ? F3 F4]; subst.
    change (scan_windows (lo :: hi :: r) x) with
      (if Rle_dec (fst lo) x then if Rle_dec x (fst hi) then
         let w := (x - fst lo) / (fst hi - fst lo) in snd lo + w * (snd hi - snd lo)
       else scan_windows (hi :: r) x else scan_windows (hi :: r) x).
    rewrite (IH F2). destruct (Rle_dec (fst lo) x); [|reflexivity]. destruct (Rle_dec x (fst hi)); [|reflexivity].
    cbv zeta. rewrite F1, F3. ring. }
  unfold piecewise_linear_interp. destruct l as [|a [|b r]]; [reflexivity|inversion F; assumption|]. cbv zeta.
  destruct (Rle_dec x (fst a)); [inversion F; assumption|].
  destruct (Rle_dec (fst (last (b :: r) a)) x); [|exact SC].
  rewrite Forall_forall in F. apply F. right.
  assert (X : forall (m : list (R * R)) d, m <> [] -> In (last m d) m).
  { induction m as [|c m IHm]; [contradiction|]. intros d _. destruct m; [left; reflexivity|]. right. apply IHm. discriminate. }
  apply X. discriminate.
Qed.

(** Quantiles stay away from zero. *)
Lemma cdf_slope x : 0 <= x -> cdf x <= 1 / 2 + x.
Proof.
  intros Hx. pose proof (nondecreasing_of_derive (fun x => x - cdf x) (fun x => 1 - pdf x) 0 x Hx) as N.
  cbv beta in N. rewrite cdf_0 in N. cut (0 - 1 / 2 <= x - cdf x); [lra|]. apply N; clear N.
  - intros y _. evar_last; [apply (@is_derive_minus R_AbsRing R_NormedModule); [apply @is_derive_id|apply is_derive_cdf]|].
    unfold minus, plus, opp, one; cbn. ring.
  - intros y _. assert (pdf y <= 1); [|lra]. unfold pdf.
    assert (1 <= sqrt (2 * PI)). { rewrite <- sqrt_1. apply sqrt_le_1; pose proof PI2_3_2; pose proof PI_RGT_0; unfold PI2 in *; lra. }
    assert (exp (- (y * y) / 2) <= 1). { rewrite <- exp_0. destruct (Req_dec y 0) as [->|N]; [right; f_equal; lra|left; apply exp_increasing; nra]. }
    apply (Rmult_le_reg_r (sqrt (2 * PI))); [lra|]. unfold Rdiv. rewrite Rmult_assoc, Rinv_l, Rmult_1_r by lra. lra.
Qed.
Lemma upper_quantile z p : cdf z = p -> 1 / 2 < p -> p - 1 / 2 <= z.
Proof.
  intros E P. destruct (Rle_lt_dec z 0) as [C|C]; [apply cdf_le in C; rewrite cdf_0 in C; lra|].
  pose proof (cdf_slope z ltac:(lra)). lra.
Qed.
Lemma lower_quantile z p : cdf z = p -> p < 1 / 2 -> z <= p - 1 / 2.
Proof.
  intros E P. pose proof (upper_quantile (- z) (1 - p)) as U. rewrite cdf_opp, E in U. specialize (U eq_refl ltac:(lra)). lra.
Qed.

(** One delta, quoted [vp] and [vc] around [atm]: the three strikes increase when
    the volatilities are close enough. *)
Lemma one_delta p t atm d vc vp : 0 < t -> 0 < vp_forward p -> 0 < atm -> 0 < vc -> 0 < vp -> 0 < d < 1 / 2 ->
  normalise_quotes (vp_quotes p) = Ok (atm, [{| dp_delta := d; dp_call := vc; dp_put := vp |}]) ->
  (vp * vp - atm * atm) * sqrt t < 2 * vp * (1 / 2 - d) -> (atm * atm - vc * vc) * sqrt t < 2 * vc * (1 / 2 - d) ->
  exists s, from_pillar p t = Ok s /\ (atm = vc -> atm = vp -> forall K, smile_volatility s K = atm).
Proof.
  intros Ht HF Ha Hc Hp Hd HN S1 S2. unfold from_pillar.
  destruct (Rle_dec t 0); [lra|]. destruct (Rle_dec (vp_forward p) 0); [lra|].
  rewrite HN. cbn [obind rsort fold_right rinsert omapM rev app dp_delta dp_call dp_put].
  set (F := vp_forward p) in *. assert (Q : 0 < sqrt t) by (apply sqrt_lt_R0; exact Ht).
  assert (Et : t = sqrt t * sqrt t) by (rewrite sqrt_sqrt; lra).
  unfold strike_from_put_delta, strike_from_call_delta, atm_dns_strike.
  destruct (inverse_cdf_ok (1 - d)) as (zp & -> & Zp); [lra|]. destruct (inverse_cdf_ok d) as (zc & -> & Zc); [lra|].
  cbn [obind length app].
  pose proof (upper_quantile zp (1 - d) Zp ltac:(lra)) as Up. pose proof (lower_quantile zc d Zc ltac:(lra)) as Uc.
  remember (sqrt t) as q eqn:Eq. rewrite Et.
  set (e0 := 1 / 2 * vp * vp * q * q - zp * vp * q). set (e1 := 1 / 2 * atm * atm * (q * q)). set (e2 := 1 / 2 * vc * vc * q * q - zc * vc * q).
  assert (L1 : e0 < e1).
  { unfold e0, e1. apply Rminus_lt.
    replace (_ - _) with (q * ((vp * vp - atm * atm) * q / 2 - zp * vp)) by field.
    assert (vp * (1 / 2 - d) <= zp * vp) by (rewrite (Rmult_comm zp); apply Rmult_le_compat_l; lra).
    assert ((vp * vp - atm * atm) * q / 2 - zp * vp < 0) by lra. 
    rewrite <- (Rmult_0_r q). apply Rmult_lt_compat_l; lra. }
  assert (L2 : e1 < e2).
  { unfold e1, e2. apply Rminus_lt.
    replace (_ - _) with (q * ((atm * atm - vc * vc) * q / 2 + zc * vc)) by field.
    assert (zc * vc <= - (vc * (1 / 2 - d))). { replace (- (vc * (1 / 2 - d))) with ((d - 1 / 2) * vc) by ring. apply Rmult_le_compat_r; lra. }
    assert ((atm * atm - vc * vc) * q / 2 + zc * vc < 0) by lra.
    rewrite <- (Rmult_0_r q). apply Rmult_lt_compat_l; lra. }
  assert (K1 : F * exp e0 < F * exp e1) by (apply Rmult_lt_compat_l; [lra|apply exp_increasing; exact L1]).
  assert (K2 : F * exp e1 < F * exp e2) by (apply Rmult_lt_compat_l; [lra|apply exp_increasing; exact L2]).
  cbn [strikes_increase fst]. destruct (Rle_dec (F * exp e1) (F * exp e0)); [lra|]. destruct (Rle_dec (F * exp e2) (F * exp e1)); [lra|].
  cbn [map fst snd oindex nth_error obind length Nat.sub].
  rewrite !fwd_ratio by lra. set (x0 := cdf _). set (x1 := cdf _). set (x2 := cdf _).
  cbn [fit_quadratic]. cbv zeta.
  eexists. split; [reflexivity|]. intros Ec Ep K. subst vc. subst vp. unfold smile_volatility.
  cbn [sm_forward sm_sigma_ref sm_year_fraction sm_a sm_b sm_c sm_min sm_max sm_knots].
  assert (M : 0 < 15 / 10 * atm * q) by (apply Rmult_lt_0_compat; lra).
  assert (D : forall a b, a < b -> cdf (- b / (15 / 10 * atm * q)) < cdf (- a / (15 / 10 * atm * q))).
  { intros a b L. apply cdf_increasing. apply Rmult_lt_compat_r; [apply Rinv_0_lt_compat; exact M|lra]. }
  pose proof (D _ _ L1) as D1. pose proof (D _ _ L2) as D2. fold x0 x1 x2 in D1, D2.
  set (knots := rsort _ _). assert (KZ : List.Forall (fun p : R * R => snd p = 0) knots).
  { apply Forall_forall. intros k I. apply (Permutation_in _ (Permutation_sym (rsort_perm fst _))) in I.
    cbn in I. destruct I as [<-|[<-|[<-|[]]]]; reflexivity. }
  set (x := cdf _). rewrite (interp_zero knots _ KZ).
  match goal with |- _ + ?r = _ => assert (R0 : r = 0) end.
  { destruct (Rlt_dec _ _); [reflexivity|]. destruct (Rlt_dec _ _); reflexivity. }
  rewrite R0. field. repeat split; lra.
Qed.

(** A call quoted together with a risk reversal and a butterfly, but no put, is
    accepted and ignored: the surface is built and nowhere returns the quote. *)
Definition ignored_call : list vol_quote :=
  [QAtm (1 / 10); QCall (1 / 4) (2 / 10); QRiskReversal (1 / 4) 0; QButterfly (1 / 4) 0].

Lemma abs0 x : Rabs (x - x) < / 10 ^ 9.
Proof. rewrite Rminus_diag_eq, Rabs_R0 by reflexivity. apply Rinv_0_lt_compat, pow_lt. lra. Qed.

Lemma ignored_normal : normalise_quotes ignored_call = Ok (1 / 10, [{| dp_delta := 1 / 4; dp_call := 1 / 10; dp_put := 1 / 10 |}]).
Proof.
  unfold normalise_quotes, ignored_call. cbn [collect_quotes].
  assert (V : validate_delta (1 / 4) = Ok tt). { unfold validate_delta. destruct (Rlt_dec 0 (1 / 4)); [|lra]. destruct (Rlt_dec (1 / 4) (1 / 2)); [reflexivity|lra]. }
  rewrite !V. cbn [obind update_bucket].
  destruct (Rlt_dec (Rabs (1 / 4 - 1 / 4)) (/ 10 ^ 9)) as [_|N]; [|exfalso; apply N, abs0]. cbn [update_bucket].
  destruct (Rlt_dec (Rabs (1 / 4 - 1 / 4)) (/ 10 ^ 9)) as [_|N]; [|exfalso; apply N, abs0].
  cbn [collect_quotes obind omapM resolve_partial set_call set_rr set_bf no_quotes pd_call pd_put pd_rr pd_bf rsort fold_right rinsert].
  do 4 f_equal; lra.
Qed.

Lemma ignored_separated : well_separated ignored_call.
Proof.
  intros k k' d d' v v' I I' _. cbn in I, I'.
  destruct I as [I|[I|[I|[I|[]]]]], I' as [I'|[I'|[I'|[I'|[]]]]]; destruct k, k'; cbn in I, I'; try discriminate;
    injection I as <- <-; injection I' as <- <-; (split; [reflexivity|intros E; (reflexivity || discriminate)]).
Qed.

Theorem C44_quoted_refuted : exists sort search, sorts_by sm_expiry sort /\ searches_by sm_expiry search /\
  exists vd p s d v, surface_new sort vd [p] = Ok s /\ well_separated (vp_quotes p) /\ In (QCall d v) (vp_quotes p) /\
    forall e K, surface_volatility search s e K <> Ok v.
Proof.
  exists (isort_by sm_expiry), (lsearch_by sm_expiry). split; [apply isort_sorts|]. split; [apply lsearch_searches|].
  set (p := {| vp_expiry := 365%Z; vp_forward := 1; vp_quotes := ignored_call |}).
  destruct (one_delta p 1 (1 / 10) (1 / 4) (1 / 10) (1 / 10)) as (m & Em & FLAT); try (cbn; lra).
  { exact ignored_normal. }
  exists 0%Z, p, {| vs_valuation_date := 0%Z; vs_smiles := [m] |}, (1 / 4), (2 / 10).
  assert (Y : yf365 0%Z (vp_expiry p) = 1) by (unfold yf365; cbn; lra).
  split; [unfold surface_new; cbn [omapM]; rewrite Y, Em; reflexivity|]. split; [exact ignored_separated|].
  split; [right; left; reflexivity|].
  intros e K. unfold surface_volatility. destruct (Rle_dec K 0); [discriminate|]. cbn [vs_valuation_date vs_smiles]. cbv zeta.
  destruct (Rle_dec (yf365 0%Z e) 0); [discriminate|].
  assert (X : forall s, Ok (smile_volatility m K) <> Ok s \/ s = 1 / 10).
  { intros s. destruct (Req_dec s (1 / 10)) as [E|N]; [right; exact E|left]. rewrite FLAT by reflexivity. congruence. }
  assert (G : Ok (smile_volatility m K) <> Ok (2 / 10)) by (destruct (X (2 / 10)) as [E|E]; [exact E|lra]).
  cbn [lsearch_by]. destruct (sm_expiry m =? e)%Z; [exact G|]. destruct (e <? sm_expiry m)%Z; exact G.
Qed.

(** ** A surface with two expiries *)
Definition two_quotes : list vol_quote := [QAtm (1 / 10); QCall (1 / 4) (11 / 100); QPut (1 / 4) (12 / 100)].
Lemma two_normal : normalise_quotes two_quotes = Ok (1 / 10, [{| dp_delta := 1 / 4; dp_call := 11 / 100; dp_put := 12 / 100 |}]).
Proof.
  unfold normalise_quotes, two_quotes. cbn [collect_quotes].
  assert (V : validate_delta (1 / 4) = Ok tt). { unfold validate_delta. destruct (Rlt_dec 0 (1 / 4)); [|lra]. destruct (Rlt_dec (1 / 4) (1 / 2)); [reflexivity|lra]. }
  rewrite !V. cbn [obind update_bucket].
  destruct (Rlt_dec (Rabs (1 / 4 - 1 / 4)) (/ 10 ^ 9)) as [_|N]; [|exfalso; apply N, abs0].
  reflexivity.
Qed.
Lemma two_separated : well_separated two_quotes.
Proof.
  intros k k' d d' v v' I I' _. cbn in I, I'.
  destruct I as [I|[I|[I|[]]]], I' as [I'|[I'|[I'|[]]]]; destruct k, k'; cbn in I, I'; try discriminate;
    injection I as <- <-; injection I' as <- <-; (split; [reflexivity|intros E; (reflexivity || discriminate)]).
Qed.
Definition rr_quotes : list vol_quote := [QAtm (1 / 10); QRiskReversal (1 / 4) (- (1 / 100)); QButterfly (1 / 4) (1 / 100)].
Lemma rr_normal : normalise_quotes rr_quotes = Ok (1 / 10, [{| dp_delta := 1 / 4; dp_call := 105 / 1000; dp_put := 115 / 1000 |}]).
Proof.
  unfold normalise_quotes, rr_quotes. cbn [collect_quotes].
  assert (V : validate_delta (1 / 4) = Ok tt). { unfold validate_delta. destruct (Rlt_dec 0 (1 / 4)); [|lra]. destruct (Rlt_dec (1 / 4) (1 / 2)); [reflexivity|lra]. }
  rewrite !V. cbn [obind update_bucket].
  destruct (Rlt_dec (Rabs (1 / 4 - 1 / 4)) (/ 10 ^ 9)) as [_|N]; [|exfalso; apply N, abs0].
  cbn [collect_quotes obind omapM resolve_partial set_call set_rr set_bf no_quotes pd_call pd_put pd_rr pd_bf rsort fold_right rinsert].
  do 4 f_equal; lra.
Qed.
Lemma rr_separated : well_separated rr_quotes.
Proof.
  intros k k' d d' v v' I I' _. cbn in I, I'.
  destruct I as [I|[I|[I|[]]]], I' as [I'|[I'|[I'|[]]]]; destruct k, k'; cbn in I, I'; try discriminate;
    injection I as <- <-; injection I' as <- <-; (split; [reflexivity|intros E; (reflexivity || discriminate)]).
Qed.

Example C44_witness : let p1 := {| vp_expiry := 365%Z; vp_forward := 1; vp_quotes := two_quotes |} in
  let p2 := {| vp_expiry := 730%Z; vp_forward := 11 / 10; vp_quotes := rr_quotes |} in
  exists s, surface_new (isort_by sm_expiry) 0%Z [p1; p2] = Ok s /\ NoDup (map vp_expiry [p1; p2]) /\
    well_separated (vp_quotes p1) /\ well_separated (vp_quotes p2) /\
    sorts_by sm_expiry (isort_by sm_expiry) /\ searches_by sm_expiry (lsearch_by sm_expiry).
Proof.
  intros p1 p2.
  destruct (one_delta p1 1 (1 / 10) (1 / 4) (11 / 100) (12 / 100)) as (m1 & E1 & _); try (cbn; lra); [exact two_normal|rewrite sqrt_1; lra|rewrite sqrt_1; lra|].
  assert (S2 : 0 < sqrt 2 < 2).
  { split; [apply sqrt_lt_R0; lra|]. rewrite <- (sqrt_square 2) at 2 by lra. apply sqrt_lt_1; lra. }
  destruct (one_delta p2 2 (1 / 10) (1 / 4) (105 / 1000) (115 / 1000)) as (m2 & E2 & _); try (cbn; lra); [exact rr_normal|].
  assert (Y1 : yf365 0%Z (vp_expiry p1) = 1) by (unfold yf365; cbn; lra).
  assert (Y2 : yf365 0%Z (vp_expiry p2) = 2) by (unfold yf365; cbn; lra).
  eexists. split; [unfold surface_new; cbn [omapM]; rewrite Y1, E1, Y2, E2; reflexivity|].
  split; [cbn; repeat constructor; cbn; [intros [H|[]]; discriminate|intros []]|]. split; [exact two_separated|]. split; [exact rr_separated|].
  split; [apply isort_sorts|apply lsearch_searches].
Qed.

Print Assumptions C44_checked.
Print Assumptions C44_atm.
Print Assumptions C44_quoted_partial.
Print Assumptions C44_rr_bf.
Print Assumptions C44_between.
Print Assumptions C44_outside.
Print Assumptions C44_errors.
Print Assumptions C44_quoted_refuted.
