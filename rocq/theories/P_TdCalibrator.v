(** C80: the calibrator of the time-dependent SABR model, and the strips of smile it is fed. *)
From Coq Require Import Bool List Arith ZArith Reals Lra Lia Psatz.
Import ListNotations.
From Verif Require Import Outcome Date Sorting ForwardPoints YieldCurve VolSurface VolFacts P_VolSurface NelderMead NelderMeadFacts P_NelderMead Processes ProcessFacts SabrSmile P_SabrSmile SabrEffective SabrEffectiveFacts P_SabrEffective SmileFit SmileFitFacts SabrCalibrator P_SabrCalibrator TdCalibrator TdCalibratorFacts.
Open Scope R_scope.

(** The bisection, on any function: what [hits] says of the segments below holds of the code's own search. *)
Theorem C80_bisect : forall f hi x, / 10 ^ 6 <= hi -> segment_value f hi = Ok x -> hits f 0 hi x.
Proof. intros f hi x HI H. apply (segment_hits f f 0 hi x HI); [|exact H]. intros y u E. exists u. split; [exact E|ring]. Qed.
Print Assumptions C80_bisect.

Section Cal.
  Context (sort : (nat -> R) -> list nat -> list nat) (pillars : list pillar_target) (b F0 : R) (opts : nm_options R_floats) (res : td_result).
  Hypothesis CAL : calibrate_time_dependent sort pillars b F0 opts = Ok res.

  Lemma cal_open : exists mk r1 nus als rhos, let ks := 0 :: map pt_expiry pillars in let tm := combine (map pt_expiry pillars) mk in
    pillars <> [] /\ omapM (stage1 sort b opts) pillars = Ok mk /\ omapM pillar_rmse (combine pillars mk) = Ok r1 /\ stage2 ks tm [] = Ok nus /\ stage3 ks nus tm [] = Ok als /\ stage4 ks nus als tm 0 [] = Ok rhos /\
    length mk = length pillars /\ length r1 = length pillars /\ length tm = length pillars /\ length nus = length pillars /\ length als = length pillars /\ length rhos = length pillars /\
    (forall i, (S i < length ks)%nat -> nth i ks 0 < nth (S i) ks 0) /\
    tr_params res = {| td_alpha := {| knots := ks; values := als |}; td_rho := {| knots := ks; values := rhos |}; td_nu := {| knots := ks; values := nus |}; td_beta := b; td_forward_0 := F0 |} /\
    0 <= b <= 1 /\ 0 < F0 /\ diagnose (tr_params res) 0 (combine tm r1) = Ok (tr_per_pillar res).
  Proof.
    pose proof CAL as H. unfold calibrate_time_dependent in H. destruct (Nat.eqb_spec (length pillars) 0) as [|LN]; [discriminate|]. destruct (sorted_pillars pillars); cbn [negb] in H; [|discriminate].
    cbv zeta in H. ob H mk EM. ob H r1 ER. ob H nus EN. ob H ns ENS. ob H als EA. ob H sa EAS. ob H rhos ERH. ob H sr ERS. ob H p EP. ob H ds ED.
    assert (res = {| tr_params := p; tr_per_pillar := ds |}) as -> by congruence. cbn [tr_params tr_per_pillar].
    pose proof (proj1 (C55_new _ _ _) ENS) as (-> & _ & L1 & _ & INC). pose proof (proj1 (C55_new _ _ _) EAS) as (-> & _ & L2 & _). pose proof (proj1 (C55_new _ _ _) ERS) as (-> & _ & L3 & _).
    destruct (omapM_nth _ _ _ EM) as (LM & _). destruct (omapM_nth _ _ _ ER) as (LR & _). cbn [length] in *. rewrite map_length in *. rewrite combine_length, LM, Nat.min_id in LR.
    exists mk, r1, nus, als, rhos. cbv zeta. rewrite combine_length, map_length, LM, Nat.min_id. unfold td_new in EP. cbn [knots values] in EP.
    unfold same_list in EP. destruct (list_eq_dec Req_EM_T _ _) as [_|]; [|discriminate]. cbn [negb] in EP.
    destruct (Rleb 0 b && Rleb b 1) eqn:EB; cbn [negb] in EP; [|discriminate]. apply andb_prop in EB as [B1 B2]. apply Rleb_true in B1. apply Rleb_true in B2.
    destruct (Rltb 0 F0) eqn:EF; cbn [negb] in EP; [|discriminate]. apply Rltb_true in EF.
    destruct (forallb _ als); cbn [negb] in EP; [|discriminate]. destruct (forallb _ nus); cbn [negb] in EP; [|discriminate]. destruct (forallb _ rhos); cbn [negb] in EP; [|discriminate].
    split; [intros ->; apply LN; reflexivity|]. do 5 (split; [assumption|]). split; [reflexivity|]. split; [exact LR|]. split; [reflexivity|]. split; [lia|]. split; [lia|]. split; [lia|]. split; [cbn [length]; rewrite ?map_length; exact INC|]. split; [congruence|]. split; [lra|]. split; [exact EF|exact ED].
  Qed.

  Lemma nth_error_zip {A B} : forall (l : list A) (m : list B) i a c, nth_error l i = Some a -> nth_error m i = Some c -> nth_error (combine l m) i = Some (a, c).
  Proof. induction l as [|x l IH]; intros [|y m] [|i] a c E1 E2; cbn in *; try discriminate; [congruence|]. apply IH; assumption. Qed.

  (** The pillars, one by one. *)
  Lemma cal_pillar : exists mk nus als us, let ks := 0 :: map pt_expiry pillars in
    let rhos := map (clampR (- (999 / 1000)) (999 / 1000)) us in
    tr_params res = {| td_alpha := {| knots := ks; values := als |}; td_rho := {| knots := ks; values := rhos |}; td_nu := {| knots := ks; values := nus |}; td_beta := b; td_forward_0 := F0 |} /\
    omapM (stage1 sort b opts) pillars = Ok mk /\ length (tr_per_pillar res) = length pillars /\ length us = length pillars /\ length nus = length pillars /\ length als = length pillars /\
    (forall i, (S i < length ks)%nat -> nth i ks 0 < nth (S i) ks 0) /\
    forall i pi, nth_error pillars i = Some pi -> let t := pt_expiry pi in
      let kp := firstn (S (S i)) ks in let sub vs := {| knots := kp; values := firstn (S i) vs |} in
      exists d g w r x y, nth_error (tr_per_pillar res) i = Some d /\ dg_expiry d = t /\ nth_error mk i = Some (dg_market d) /\ stage1 sort b opts pi = Ok (dg_market d) /\ pillar_rmse (pi, dg_market d) = Ok (dg_stage1_rmse d) /\
        nth_error nus i = Some x /\ hits (fun y => effective_vol_vol {| knots := kp; values := firstn i nus ++ [y] |} {| knots := kp; values := repeat (alpha (dg_market d)) (S i) |} t) (nu (dg_market d)) (Rmax (nu (dg_market d) * 2) (1 / 10)) x /\
        nth_error als i = Some y /\ hits (fun y => effective_term_structure (sub nus) {| knots := kp; values := firstn i als ++ [y] |} t) (alpha (dg_market d)) (Rmax (alpha (dg_market d) * 4) (1 / 2)) y /\
        effective_vol_vol (sub nus) (sub als) t = Ok g /\ effective_term_structure (sub nus) (sub als) t = Ok w /\ effective_correlation (sub nus) (sub als) (sub rhos) t = Ok r /\
        weight ks nus als i <> 0 /\ sum_f_R0 (fun k => nth k us 0 * weight ks nus als k) i = rho (dg_market d) * g * t / w /\
        0 <= dg_post_fit_rmse d /\ dg_post_fit_rmse d ^ 2 * 3 = (g - nu (dg_market d)) ^ 2 + (w - alpha (dg_market d)) ^ 2 + (r - rho (dg_market d)) ^ 2.
  Proof.
    destruct cal_open as (mk & r1 & nus & als & rhos & H). cbv zeta in H. destruct H as (NE & EM & ER & E2 & E3 & E4 & LM & LR & LT & LN & LA & LU & INC & EP & HB & HF & ED).
    destruct (stage4_spec _ _ _ _ _ _ _ E4) as (us & EU & LU' & SP4). cbn [length Nat.add app] in EU, LU', SP4. subst rhos. exists mk, nus, als, us. cbv zeta. split; [exact EP|]. split; [exact EM|]. destruct (diagnose_spec _ _ _ _ ED) as (LD & DS). rewrite combine_length, LT, LR, Nat.min_id in LD. split; [exact LD|]. split; [lia|]. do 2 (split; [assumption|]). split; [exact INC|].
    intros i pi EI. destruct (proj2 (omapM_nth _ _ _ EM) i pi EI) as (m & Em & S1).
    pose proof (nth_error_zip _ _ _ _ _ EI Em) as EZ. destruct (proj2 (omapM_nth _ _ _ ER) i _ EZ) as (q & Eq & Q1).
    assert (ET : nth_error (combine (map pt_expiry pillars) mk) i = Some (pt_expiry pi, m)) by (apply nth_error_zip; [apply map_nth_error; exact EI|exact Em]).
    pose proof (nth_error_zip _ _ _ _ _ ET Eq) as ED'. destruct (DS i _ _ _ ED') as (d & g & w & r & X1 & X2 & X3 & X4 & X5 & X6 & X7 & X8 & X9). cbn [Nat.add] in *. rewrite EP in X5, X6, X7. cbn [td_alpha td_rho td_nu knots values] in X5, X6, X7. subst m q.
    destruct (stage2_spec _ _ _ _ E2) as (n2 & EE2 & _ & SP2). destruct (SP2 i _ _ ET) as (x & Ex & Hx). destruct (stage3_spec _ _ _ _ _ E3) as (n3 & EE3 & _ & SP3). destruct (SP3 i _ _ ET) as (y & Ey & Hy).
    destruct (SP4 i _ _ ET) as (g' & w' & G' & W' & SN & SUM). cbn [length Nat.add app] in *.
    exists d, g, w, r, x, y. do 2 (split; [assumption|]). split; [exact Em|]. split; [exact S1|]. split; [exact Q1|]. do 7 (split; [assumption|]). split; [exact SN|]. split; [|split; assumption].
    assert (g' = g) as -> by congruence. assert (w' = w) as -> by congruence. rewrite Rplus_0_l in SUM. exact SUM.
  Qed.
End Cal.

Lemma nth_firstn_lt (l : list R) n k : (k < n)%nat -> nth k (firstn n l) 0 = nth k l 0.
Proof. revert l k. induction n as [|n IH]; intros [|a l] k K; try lia; [reflexivity|]. destruct k as [|k]; [reflexivity|]. cbn. apply IH. lia. Qed.

Lemma prefix_new ks vs i : (forall j, (S j < length ks)%nat -> nth j ks 0 < nth (S j) ks 0) -> nth 0 ks 0 = 0 -> (S i < length ks)%nat -> (i < length vs)%nat ->
  schedule_new (firstn (S (S i)) ks) (firstn (S i) vs) = Ok {| knots := firstn (S (S i)) ks; values := firstn (S i) vs |}.
Proof.
  intros INC K0 LK LV. apply C55_new. split; [reflexivity|]. rewrite !firstn_length. split; [lia|]. split; [lia|]. split.
  - rewrite nth_firstn_lt, K0, Rabs_R0 by lia. apply Rinv_0_lt_compat, pow_lt. lra.
  - intros j J. rewrite !nth_firstn_lt by lia. apply INC. lia.
Qed.

Lemma prefix_correlation ks nus als rhos i t g w r : (forall j, (S j < length ks)%nat -> nth j ks 0 < nth (S j) ks 0) -> nth 0 ks 0 = 0 -> (S i < length ks)%nat -> (i < length nus)%nat -> (i < length als)%nat -> (i < length rhos)%nat ->
  (forall a, In a als -> / 10 ^ 6 <= a) -> t = nth (S i) ks 0 -> let sub vs := {| knots := firstn (S (S i)) ks; values := firstn (S i) vs |} in
  effective_vol_vol (sub nus) (sub als) t = Ok g -> effective_term_structure (sub nus) (sub als) t = Ok w -> effective_correlation (sub nus) (sub als) (sub rhos) t = Ok r ->
  0 < w /\ 0 < t /\ 0 <= g /\ r = (if Rlt_dec g (/ 10 ^ 15) then 0 else w / (g * t) * sum_f_R0 (fun k => nth k rhos 0 * weight ks nus als k) i).
Proof.
  intros INC K0 LK LN LA LR PA ET sub G W C. assert (LNs : length (firstn (S i) nus) = S i) by (rewrite firstn_length; lia).
  pose proof (step_market _ _ _ _ _ (prefix_new ks nus i INC K0 LK LN) (prefix_new ks als i INC K0 LK LA)) as M. rewrite LNs, nth_firstn_lt in M by lia. rewrite <- ET in M.
  destruct (market_segments _ _ _ _ _ _ _ _ _ M) as (segs & ES & SEG & FO & SP & P & LS). rewrite !firstn_firstn, !Nat.min_id in ES.
  assert (TP : 0 < t). { rewrite nth_firstn_lt, K0 in SP by lia. destruct segs as [|s segs]; [discriminate|]. pose proof (P s ltac:(left; reflexivity)). destruct s as [[dd gg] oo]. cbn [span fst] in *. destruct FO as (_ & _ & FO). pose proof (span_nonneg _ _ _ _ FO). lra. }
  assert (E6 : / 10 ^ 15 < / 10 ^ 6) by (apply Rinv_lt_contravar; lra). assert (E15 : 0 < / 10 ^ 15) by (apply Rinv_0_lt_compat, pow_lt; lra).
  assert (NZ : forall o, In o (firstn (S i) als) -> / 10 ^ 15 < Rabs o). { intros o I. assert (/ 10 ^ 6 <= o) by (apply PA; rewrite <- (firstn_skipn (S i) als); apply in_or_app; left; exact I). rewrite Rabs_right by lra. lra. }
  assert (GP : 0 <= g) by (destruct (vol_vol_bracket _ _ _ _ _ SEG P ltac:(lra) G) as (GP & _); exact GP).
  split.
  { apply (term_positive _ _ _ _ _ SEG); [|intros ->; discriminate|exact TP|exact W]. intros s I. split; [apply P, I|]. rewrite ES in I. destruct s as [p o]. apply in_combine_r in I. apply NZ in I. cbn. intros ->. rewrite Rabs_R0 in I. lra. }
  split; [exact TP|]. split; [exact GP|]. unfold effective_correlation in C. cbn [knots values sub] in C. unfold same_list in C. destruct (list_eq_dec Req_EM_T _ _) as [_|]; [|contradiction]. cbn [negb] in C.
  unfold sub in C at 1 2. rewrite SEG in C. cbn [obind] in C. ob C rs ER. rewrite LS in ER. apply slice_to_ok in ER as (_ & ->). rewrite firstn_firstn, Nat.min_id in C. ob C qi EQ. fold (sub nus) (sub als) in C. unfold sub in G, W. fold (sub nus) (sub als) in G, W. rewrite G in C. cbn [obind] in C. rewrite W in C. cbn [obind] in C.
  rewrite (Rabs_right g) in C by lra.
  assert (LRs : length (firstn (S i) rhos) = S i) by (rewrite firstn_length; lia).
  assert (EQ' : qi = sum_f_R0 (fun k => nth k rhos 0 * weight ks nus als k) i).
  { rewrite ES in EQ. rewrite <- LRs in EQ at 1. rewrite rho_integral_sum in EQ.
    - rewrite LRs in EQ. replace (S i - 1)%nat with i in EQ by lia. rewrite Rplus_0_l in EQ. assert (qi = sum_f_R0 (fun k => nth k (firstn (S i) rhos) 0 * weight (firstn (S (S i)) ks) (firstn (S i) nus) (firstn (S i) als) k) i) as -> by congruence.
      apply sum_eq. intros k K. unfold weight. rewrite !nth_firstn_lt by lia. reflexivity.
    - rewrite LRs. exact LNs.
    - rewrite LRs, firstn_length. lia.
    - rewrite LRs, firstn_length. lia.
    - intros k K. apply NZ, nth_In. rewrite LRs in K. rewrite firstn_length. lia.
    - intros Z. rewrite Z in LRs. discriminate. }
  rewrite <- EQ'. destruct (Rlt_dec g (/ 10 ^ 15)); congruence.
Qed.

(** A calibration returns parameters the simulator accepts: the knots are 0 and the expiries, increasing; one
    value of each kind to a pillar, the volatilities at least 1e-6 and the correlations inside plus or minus 0.999. *)
Theorem C80_valid : forall sort pillars b F0 opts res, calibrate_time_dependent sort pillars b F0 opts = Ok res ->
  let p := tr_params res in let ks := 0 :: map pt_expiry pillars in
  pillars <> [] /\ (forall i, (S i < length ks)%nat -> nth i ks 0 < nth (S i) ks 0) /\ knots (td_alpha p) = ks /\ knots (td_rho p) = ks /\ knots (td_nu p) = ks /\
  length (values (td_alpha p)) = length pillars /\ length (values (td_rho p)) = length pillars /\ length (values (td_nu p)) = length pillars /\
  td_beta p = b /\ 0 <= b <= 1 /\ td_forward_0 p = F0 /\ 0 < F0 /\
  (forall a, In a (values (td_alpha p)) -> / 10 ^ 6 <= a) /\ (forall n, In n (values (td_nu p)) -> / 10 ^ 6 <= n) /\ (forall r, In r (values (td_rho p)) -> - (999 / 1000) <= r <= 999 / 1000) /\
  map dg_expiry (tr_per_pillar res) = map pt_expiry pillars.
Proof.
  intros sort pillars b F0 opts res CAL. cbv zeta. destruct (cal_open _ _ _ _ _ _ CAL) as (mk & r1 & nus & als & rhos & H). cbv zeta in H. destruct H as (NE & _ & _ & _ & _ & _ & _ & _ & _ & LN & LA & LR & INC & EP & HB & HF & _).
  destruct (cal_pillar _ _ _ _ _ _ CAL) as (mk' & nus' & als' & us & H). cbv zeta in H. destruct H as (EP' & _ & LD & LU & _ & _ & _ & PIL). rewrite EP in EP'. assert (nus' = nus /\ als' = als /\ rhos = map (clampR (- (999 / 1000)) (999 / 1000)) us) as (-> & -> & ER) by (repeat split; congruence).
  rewrite EP. cbn [td_alpha td_rho td_nu td_beta td_forward_0 knots values]. split; [exact NE|]. split; [exact INC|]. do 3 (split; [reflexivity|]). do 3 (split; [assumption|]). split; [reflexivity|]. split; [exact HB|]. split; [reflexivity|]. split; [exact HF|].
  assert (AT : forall i x, nth_error als i = Some x \/ nth_error nus i = Some x -> exists pi, nth_error pillars i = Some pi).
  { intros i x H. destruct (nth_error pillars i) as [pi|] eqn:E; [exists pi; reflexivity|]. apply nth_error_None in E. destruct H as [H|H]; assert (nth_error als i = None /\ nth_error nus i = None) as [Z1 Z2] by (split; apply nth_error_None; lia); congruence. }
  split; [|split; [|split]].
  - intros a I. apply In_nth_error in I as (i & E). destruct (AT i a (or_introl E)) as (pi & EI). destruct (PIL i pi EI) as (d & g & w & r & x & y & _ & _ & _ & _ & _ & Ex & Hx & Ey & Hy & _). assert (y = a) as <- by congruence. destruct Hy as ((L & _) & _). exact L.
  - intros a I. apply In_nth_error in I as (i & E). destruct (AT i a (or_intror E)) as (pi & EI). destruct (PIL i pi EI) as (d & g & w & r & x & y & _ & _ & _ & _ & _ & Ex & Hx & Ey & Hy & _). assert (x = a) as <- by congruence. destruct Hx as ((L & _) & _). exact L.
  - intros r I. rewrite ER in I. apply in_map_iff in I as (u & <- & _). apply clampR_bounds. lra.
  - apply (nth_ext _ _ 0 0); [rewrite !map_length; exact LD|]. intros i I. rewrite map_length in I. rewrite LD in I. destruct (nth_error pillars i) as [pi|] eqn:EI; [|apply nth_error_None in EI; lia].
    destruct (PIL i pi EI) as (d & g & w & r & x & y & Ed & DE & _). erewrite nth_error_nth; [|apply map_nth_error; exact Ed]. erewrite nth_error_nth; [|apply map_nth_error; exact EI]. exact DE.
Qed.
Print Assumptions C80_valid.

(** Stage 2: each volatility of volatility gives the prefix of the schedule, with the volatility held flat at
    the market's, the market's effective volatility of volatility, in the sense of the bisection. *)
Theorem C80_nu : forall sort pillars b F0 opts res i pi d x, calibrate_time_dependent sort pillars b F0 opts = Ok res -> nth_error pillars i = Some pi -> nth_error (tr_per_pillar res) i = Some d ->
  let nus := values (td_nu (tr_params res)) in let ks := firstn (S (S i)) (0 :: map pt_expiry pillars) in nth_error nus i = Some x ->
  hits (fun y => effective_vol_vol {| knots := ks; values := firstn i nus ++ [y] |} {| knots := ks; values := repeat (alpha (dg_market d)) (S i) |} (pt_expiry pi)) (nu (dg_market d)) (Rmax (nu (dg_market d) * 2) (1 / 10)) x /\
  firstn (S i) nus = firstn i nus ++ [x].
Proof.
  intros sort pillars b F0 opts res i pi d x CAL EI ED. destruct (cal_pillar _ _ _ _ _ _ CAL) as (mk & nus & als & us & H). cbv zeta in *. destruct H as (EP & _ & _ & _ & _ & _ & _ & PIL).
  rewrite EP. cbn [td_nu values]. intros EX. destruct (PIL i pi EI) as (d' & g & w & r & x' & y & Ed & _ & _ & _ & _ & Ex & Hx & _). assert (d' = d) as -> by congruence. assert (x' = x) as -> by congruence. split; [exact Hx|]. apply firstn_snoc_nth, Ex.
Qed.
Print Assumptions C80_nu.

(** Stage 3: each volatility gives the prefix of both schedules the market's effective volatility. *)
Theorem C80_alpha : forall sort pillars b F0 opts res i pi d x, calibrate_time_dependent sort pillars b F0 opts = Ok res -> nth_error pillars i = Some pi -> nth_error (tr_per_pillar res) i = Some d ->
  let nus := values (td_nu (tr_params res)) in let als := values (td_alpha (tr_params res)) in let ks := firstn (S (S i)) (0 :: map pt_expiry pillars) in nth_error als i = Some x ->
  hits (fun y => effective_term_structure {| knots := ks; values := firstn (S i) nus |} {| knots := ks; values := firstn i als ++ [y] |} (pt_expiry pi)) (alpha (dg_market d)) (Rmax (alpha (dg_market d) * 4) (1 / 2)) x /\
  firstn (S i) als = firstn i als ++ [x].
Proof.
  intros sort pillars b F0 opts res i pi d x CAL EI ED. destruct (cal_pillar _ _ _ _ _ _ CAL) as (mk & nus & als & us & H). cbv zeta in *. destruct H as (EP & _ & _ & _ & _ & _ & _ & PIL).
  rewrite EP. cbn [td_nu td_alpha values]. intros EX. destruct (PIL i pi EI) as (d' & g & w & r & x' & y & Ed & _ & _ & _ & _ & _ & _ & Ey & Hy & _). assert (d' = d) as -> by congruence. assert (y = x) as -> by congruence. split; [exact Hy|]. apply firstn_snoc_nth, Ey.
Qed.
Print Assumptions C80_alpha.

(** Stage 4: there are unclamped correlations, the returned ones are these clamped, and the effective correlation
    of each prefix is the market's plus the weighted sum of what the clamps up to it moved. *)
Theorem C80_rho : forall sort pillars b F0 opts res, calibrate_time_dependent sort pillars b F0 opts = Ok res ->
  let p := tr_params res in let ks := 0 :: map pt_expiry pillars in let rhos := values (td_rho p) in
  let S_ k := (nth (S k) ks 0 - nth k ks 0) * nth k (values (td_nu p)) 0 / nth k (values (td_alpha p)) 0 in
  exists us, length us = length pillars /\ (forall k, (k < length pillars)%nat -> nth k rhos 0 = Rmax (- (999 / 1000)) (Rmin (999 / 1000) (nth k us 0))) /\
  forall i pi d, nth_error pillars i = Some pi -> nth_error (tr_per_pillar res) i = Some d -> let sub vs := {| knots := firstn (S (S i)) ks; values := firstn (S i) vs |} in let T := pt_expiry pi in
  exists g w r, effective_vol_vol (sub (values (td_nu p))) (sub (values (td_alpha p))) T = Ok g /\ effective_term_structure (sub (values (td_nu p))) (sub (values (td_alpha p))) T = Ok w /\
    effective_correlation (sub (values (td_nu p))) (sub (values (td_alpha p))) (sub rhos) T = Ok r /\ 0 < w /\ 0 <= g /\ 0 < T /\
    (/ 10 ^ 15 <= g -> r = rho (dg_market d) + w / (g * T) * sum_f_R0 (fun k => (nth k rhos 0 - nth k us 0) * S_ k) i) /\ (g < / 10 ^ 15 -> r = 0).
Proof.
  intros sort pillars b F0 opts res CAL. cbv zeta. pose proof (C80_valid _ _ _ _ _ _ CAL) as V. cbv zeta in V. destruct V as (_ & INC & _ & _ & _ & _ & _ & _ & _ & _ & _ & _ & PA & _).
  destruct (cal_pillar _ _ _ _ _ _ CAL) as (mk & nus & als & us & H). cbv zeta in H. destruct H as (EP & _ & LD & LU & LN & LA & _ & PIL).
  rewrite EP in *. cbn [td_nu td_alpha td_rho values] in *. exists us. split; [exact LU|]. set (c := clampR (- (999 / 1000)) (999 / 1000)) in *. split.
  { intros k K. rewrite (nth_indep _ 0 (c 0)) by (rewrite map_length; lia). rewrite map_nth. unfold c, clampR. destruct (Rlt_dec _ _) as [A|A].
    - rewrite Rmin_right by lra. rewrite Rmax_left by lra. reflexivity.
    - destruct (Rlt_dec (999 / 1000) _) as [B|B]; [rewrite Rmin_left by lra; rewrite Rmax_right by lra; reflexivity|]. rewrite Rmin_right by lra. rewrite Rmax_right by lra. reflexivity. }
  intros i pi d EI ED. destruct (PIL i pi EI) as (d' & g & w & r & x & y & Ed & DE & _ & _ & _ & _ & _ & _ & _ & G & W & C & SN & SUM & _). assert (d' = d) as -> by congruence.
  assert (II : (i < length pillars)%nat) by (apply nth_error_Some; congruence).
  assert (TT : pt_expiry pi = nth (S i) (0 :: map pt_expiry pillars) 0) by (cbn [nth]; symmetry; apply nth_error_nth, map_nth_error, EI).
  destruct (prefix_correlation (0 :: map pt_expiry pillars) nus als (map c us) i (pt_expiry pi) g w r INC eq_refl) as (WP & TP & GP & ER); try assumption; try (cbn [length]; rewrite map_length; lia); try lia; try (rewrite map_length; lia).
  exists g, w, r. do 3 (split; [assumption|]). split; [exact WP|]. split; [exact GP|]. split; [exact TP|]. split.
  - intros HG. destruct (Rlt_dec g (/ 10 ^ 15)) as [|_]; [lra|]. rewrite ER.
    rewrite (sum_eq (fun k => nth k (map c us) 0 * weight (0 :: map pt_expiry pillars) nus als k) (fun k => nth k us 0 * weight (0 :: map pt_expiry pillars) nus als k + (nth k (map c us) 0 - nth k us 0) * weight (0 :: map pt_expiry pillars) nus als k)) by (intros k K; ring).
    rewrite plus_sum, SUM, Rmult_plus_distr_l. unfold weight. f_equal. assert (0 < / 10 ^ 15) by (apply Rinv_0_lt_compat, pow_lt; lra).
    assert (Q : forall ro : R, w / (g * pt_expiry pi) * (ro * g * pt_expiry pi / w) = ro) by (intros ro; field; lra). apply Q.
  - intros HG. destruct (Rlt_dec g (/ 10 ^ 15)) as [_|]; [exact ER|lra].
Qed.
Print Assumptions C80_rho.

(** So where no correlation up to a pillar is at the clamp, the effective correlation is the market's. *)
Theorem C80_rho_exact : forall sort pillars b F0 opts res i pi d g, calibrate_time_dependent sort pillars b F0 opts = Ok res -> nth_error pillars i = Some pi -> nth_error (tr_per_pillar res) i = Some d ->
  let p := tr_params res in let sub vs := {| knots := firstn (S (S i)) (knots (td_nu p)); values := firstn (S i) vs |} in
  (forall k r, (k <= i)%nat -> nth_error (values (td_rho p)) k = Some r -> - (999 / 1000) < r < 999 / 1000) ->
  effective_vol_vol (sub (values (td_nu p))) (sub (values (td_alpha p))) (pt_expiry pi) = Ok g -> / 10 ^ 15 <= g ->
  effective_correlation (sub (values (td_nu p))) (sub (values (td_alpha p))) (sub (values (td_rho p))) (pt_expiry pi) = Ok (rho (dg_market d)).
Proof.
  intros sort pillars b F0 opts res i pi d g CAL EI ED. cbv zeta. intros IN EG HG. pose proof (C80_valid _ _ _ _ _ _ CAL) as V. cbv zeta in V. destruct V as (_ & _ & _ & _ & KN & _ & LR & _).
  rewrite KN in *. pose proof (C80_rho _ _ _ _ _ _ CAL) as R. cbv zeta in R. destruct R as (us & LU & CL & PIL). destruct (PIL i pi d EI ED) as (g' & w & r & G & W & C & WP & GP & TP & ER & _). assert (g' = g) as -> by congruence.
  rewrite C. apply (f_equal (@Ok R)). rewrite (ER HG). assert (Q : forall ro k s : R, s = 0 -> ro + k * s = ro) by (intros ro k s ->; ring). apply Q. rewrite (sum_eq _ (fun _ => 0)); [rewrite (sum_cte 0 i); ring|].
  intros k K. assert (KL : (k < length pillars)%nat) by (apply Nat.le_lt_trans with i; [exact K|apply nth_error_Some; congruence]).
  destruct (nth_error (values (td_rho (tr_params res))) k) as [rk|] eqn:EK; [|apply nth_error_None in EK; lia]. specialize (IN k rk K EK). specialize (CL k KL). rewrite (nth_error_nth _ _ 0 EK) in *.
  replace (nth k us 0) with rk; [ring|]. revert CL. unfold Rmax, Rmin. repeat destruct (Rle_dec _ _); lra.
Qed.
Print Assumptions C80_rho_exact.

Lemma square_errors_spec p F T : forall kvs ss s, square_errors p F T kvs ss = Ok s -> exists vs, sabr_model_vols p F T (map fst kvs) = Ok vs /\ s = ss + errors vs (map (fun kv => {| t_strike := fst kv; t_vol := snd kv |}) kvs).
Proof.
  induction kvs as [|[k v] kvs IH]; intros ss s H; cbn [square_errors] in H.
  - exists []. split; [reflexivity|]. unfold errors. cbn. injection H as <-. ring.
  - ob H m EM. destruct (IH _ _ H) as (vs & EV & ->). exists (m :: vs). cbn [map fst sabr_model_vols]. rewrite EM. cbn [obind]. rewrite EV. split; [reflexivity|]. unfold errors. cbn [combine map fold_right fst snd t_vol]. ring.
Qed.
Lemma map_fst_combine {A B} : forall (l : list A) (m : list B), length l = length m -> map fst (combine l m) = l.
Proof. induction l as [|a l IH]; intros [|b m] L; cbn in *; try discriminate; [reflexivity|]. rewrite IH by lia. reflexivity. Qed.

(** Stage 1: the market's parameters at a pillar are the constant SABR fit to its smile from the seed with the
    middle quote, and the reported error is the root mean square of that smile's errors: never the sentinel. *)
Theorem C80_stage1 : forall sort pillars b F0 opts res i pi d, @sorts_floats R_floats sort -> calibrate_time_dependent sort pillars b F0 opts = Ok res -> nth_error pillars i = Some pi -> nth_error (tr_per_pillar res) i = Some d ->
  let n := length (pt_vols pi) in let seed := @Build_sabr_params R_numbers (nth (n / 2) (pt_vols pi) 0) b (- (1 / 5)) (3 / 10) in
  let ts := map (fun kv => {| t_strike := fst kv; t_vol := snd kv |}) (combine (pt_strikes pi) (pt_vols pi)) in
  length (pt_strikes pi) = n /\ (0 < n)%nat /\ 0 < alpha seed /\ (exists fit, sabr_calibrate sort seed (pt_forward pi) ts (pt_expiry pi) opts = Ok fit /\ dg_market d = fr_params fit) /\
  beta (dg_market d) = b /\ 0 < alpha (dg_market d) /\ -1 < rho (dg_market d) < 1 /\ 0 < nu (dg_market d) /\
  exists vs, sabr_model_vols (dg_market d) (pt_forward pi) (pt_expiry pi) (pt_strikes pi) = Ok vs /\ 0 <= dg_stage1_rmse d /\ dg_stage1_rmse d ^ 2 * INR n = errors vs ts.
Proof.
  intros sort pillars b F0 opts res i pi d HS CAL EI ED. cbv zeta. destruct (cal_pillar _ _ _ _ _ _ CAL) as (mk & nus & als & us & H). cbv zeta in H. destruct H as (_ & _ & _ & _ & _ & _ & _ & PIL).
  destruct (PIL i pi EI) as (d' & g & w & r & x & y & Ed & _ & _ & S1 & Q1 & _). assert (d' = d) as -> by congruence. clear PIL. unfold stage1 in S1. ob S1 v EV. apply oindex_nth in EV as (LV & ->). ob S1 seed ESD. ob S1 tg ETG. ob S1 fit EF.
  unfold targets_from_grid in ETG. destruct (Nat.eqb_spec (length (pt_strikes pi)) (length (pt_vols pi))) as [LL|]; [|discriminate]. match type of ETG with Ok ?u = _ => assert (tg = u) as -> by congruence end.
  unfold sabr_new in ESD. destruct (@nlt R_numbers _ _) eqn:E1 in ESD; cbn [negb] in ESD; [|discriminate]. destruct (_ && _) eqn:E2 in ESD; cbn [negb] in ESD; [|discriminate]. destruct (_ && _) eqn:E3 in ESD; cbn [negb] in ESD; [|discriminate]. destruct (@nle R_numbers _ _) eqn:E4 in ESD; cbn [negb] in ESD; [|discriminate].
  match type of ESD with Ok ?u = _ => assert (seed = u) as -> by congruence end. clear ESD.
  replace (- (20 / 100)) with (- (1 / 5)) in EF by lra. replace (30 / 100) with (3 / 10) in EF by lra.
  assert (EM : fr_params fit = dg_market d) by congruence. split; [exact LL|]. split; [destruct (pt_vols pi); cbn in *; lia|]. split.
  { cbn [alpha]. assert (Q : forall u v : R, @nlt R_numbers u v = true -> u < v) by (intros u v; cbn; destruct (Rlt_dec u v); [auto|discriminate]). exact (Q _ _ E1). }
  split; [exists fit; split; [exact EF|symmetry; exact EM]|]. pose proof (C79_fit _ _ _ _ _ _ _ HS EF) as C. cbv zeta in C. rewrite EM in C. destruct C as (A & B & R & N & _). cbn [beta] in B.
  split; [exact B|]. split; [exact A|]. split; [exact R|]. split; [exact N|]. unfold pillar_rmse in Q1. ob Q1 ss ESS. destruct (square_errors_spec _ _ _ _ _ _ ESS) as (vs & VS & ->). rewrite map_fst_combine in VS by exact LL. exists vs. split; [exact VS|].
  match type of Q1 with Ok ?u = _ => assert (dg_stage1_rmse d = u) as -> by congruence end. split; [apply sqrt_pos|]. rewrite LL, Rplus_0_l. apply rmse_square; [lia|apply errors_nonneg].
Qed.
Print Assumptions C80_stage1.

(** The post-fit error of a pillar is the root mean square of what the three effective parameters of its prefix
    miss of the market's: zero exactly when none does. *)
Theorem C80_post_fit : forall sort pillars b F0 opts res i pi d, calibrate_time_dependent sort pillars b F0 opts = Ok res -> nth_error pillars i = Some pi -> nth_error (tr_per_pillar res) i = Some d ->
  let p := tr_params res in let sub vs := {| knots := firstn (S (S i)) (0 :: map pt_expiry pillars); values := firstn (S i) vs |} in let T := pt_expiry pi in
  exists g w r, effective_vol_vol (sub (values (td_nu p))) (sub (values (td_alpha p))) T = Ok g /\ effective_term_structure (sub (values (td_nu p))) (sub (values (td_alpha p))) T = Ok w /\
    effective_correlation (sub (values (td_nu p))) (sub (values (td_alpha p))) (sub (values (td_rho p))) T = Ok r /\
    0 <= dg_post_fit_rmse d /\ dg_post_fit_rmse d ^ 2 * 3 = (g - nu (dg_market d)) ^ 2 + (w - alpha (dg_market d)) ^ 2 + (r - rho (dg_market d)) ^ 2.
Proof.
  intros sort pillars b F0 opts res i pi d CAL EI ED. cbv zeta. destruct (cal_pillar _ _ _ _ _ _ CAL) as (mk & nus & als & us & H). cbv zeta in H. destruct H as (EP & _ & _ & _ & _ & _ & _ & PIL). rewrite EP. cbn [td_nu td_alpha td_rho values].
  destruct (PIL i pi EI) as (d' & g & w & r & x & y & Ed & _ & _ & _ & _ & _ & _ & _ & _ & G & W & C & _ & _ & P1 & P2). assert (d' = d) as -> by congruence. exists g, w, r. repeat (split; [assumption|]). exact P2.
Qed.
Print Assumptions C80_post_fit.

Lemma fold_max_spec : forall l x0, (forall x, In x l -> x <= fold_left Rmax l x0) /\ x0 <= fold_left Rmax l x0 /\ (In (fold_left Rmax l x0) l \/ fold_left Rmax l x0 = x0).
Proof.
  induction l as [|a l IH]; intros x0; cbn [fold_left]; [split; [intros x []|split; [lra|right; reflexivity]]|]. destruct (IH (Rmax x0 a)) as (A & B & C). pose proof (Rmax_l x0 a). pose proof (Rmax_r x0 a). split; [|split].
  - intros x [<- |I]; [lra|apply A, I].
  - lra.
  - destruct C as [C|C]; [left; right; exact C|]. rewrite C. unfold Rmax. destruct (Rle_dec x0 a); [left; left; reflexivity|right; reflexivity].
Qed.

(** The surface calibrator: the parameters of the calibration of the strips' pillars, and the largest of the
    stage-1 errors. *)
Theorem C80_surface : forall sort b F0 strips opts p rmse, calibrate_surface sort b F0 strips opts = Ok (p, rmse) ->
  exists res, calibrate_time_dependent sort (map (fun s => {| pt_expiry := st_expiry_yf s; pt_forward := st_forward s; pt_strikes := st_strikes s; pt_vols := st_vols s |}) strips) b F0 opts = Ok res /\ p = tr_params res /\
  (forall d, In d (tr_per_pillar res) -> dg_stage1_rmse d <= rmse) /\ exists d, In d (tr_per_pillar res) /\ dg_stage1_rmse d = rmse.
Proof.
  intros sort b F0 strips opts p rmse H. unfold calibrate_surface in H. ob H res E. cbv zeta in H. exists res. split; [exact E|]. split; [congruence|].
  assert (rmse = fold_left Rmax (map dg_stage1_rmse (tr_per_pillar res)) 0) as -> by congruence. destruct (fold_max_spec (map dg_stage1_rmse (tr_per_pillar res)) 0) as (A & B & C). split; [intros d I; apply A, in_map, I|].
  destruct C as [C|C]; [apply in_map_iff in C as (d & ED & I); exists d; split; assumption|]. pose proof (cal_pillar _ _ _ _ _ _ E) as P. destruct P as (mk & nus & als & us & P). cbv zeta in P. destruct P as (_ & _ & LD & _ & _ & _ & _ & PIL).
  destruct (cal_open _ _ _ _ _ _ E) as (m0 & q0 & n0 & a0 & u0 & NE & _). destruct (map strip_pillar strips) as [|pi pis]; [congruence|]. destruct (PIL 0%nat pi eq_refl) as (d & g & w & r & x & y & Ed & _ & _ & _ & Q & _).
  exists d. apply nth_error_In in Ed. split; [exact Ed|]. assert (dg_stage1_rmse d <= 0) by (rewrite <- C; apply A, in_map, Ed). unfold pillar_rmse in Q. ob Q ss ESS. match type of Q with Ok ?u = _ => assert (EQ : dg_stage1_rmse d = u) by congruence end.
  rewrite C. rewrite EQ in *. match goal with |- sqrt ?u = 0 => pose proof (sqrt_pos u); lra end.
Qed.
Print Assumptions C80_surface.

(** Bad input is a panic: no pillars, expiries that do not increase, a pillar at or before time zero, a quote
    missing, a grid of different lengths, a middle quote or forward that is not positive. *)
Theorem C80_domain : forall sort pillars b F0 opts, @sorts_floats R_floats sort ->
  (pillars = [] \/ (exists i p q, nth_error pillars i = Some p /\ nth_error pillars (S i) = Some q /\ pt_expiry q <= pt_expiry p) -> calibrate_time_dependent sort pillars b F0 opts = Panic PAssert) /\
  ((exists p, In p pillars /\ (pt_expiry p <= 0 \/ pt_vols p = [] \/ length (pt_strikes p) <> length (pt_vols p) \/ nth (length (pt_vols p) / 2) (pt_vols p) 0 <= 0 \/ pt_forward p <= 0)) \/ b < 0 \/ 1 < b \/ F0 <= 0 ->
   forall res, calibrate_time_dependent sort pillars b F0 opts <> Ok res).
Proof.
  intros sort pillars b F0 opts HS. split.
  - intros [->|(i & p & q & E1 & E2 & LE)]; [reflexivity|]. unfold calibrate_time_dependent. destruct (length pillars =? 0)%nat; [reflexivity|]. replace (sorted_pillars pillars) with false; [reflexivity|].
    revert i E1 E2. induction pillars as [|a l IH]; intros i E1 E2; [destruct i; discriminate|]. destruct l as [|c l]; [destruct i as [|[|i]]; discriminate|]. cbn [sorted_pillars]. destruct i as [|i].
    + cbn in E1, E2. assert (a = p /\ c = q) as [-> ->] by (split; congruence). unfold Rltb. destruct (Rlt_dec _ _); [lra|reflexivity].
    + change (false = Rltb (pt_expiry a) (pt_expiry c) && sorted_pillars (c :: l)). rewrite <- (IH i E1 E2). symmetry. apply andb_false_r.
  - intros D res CAL. pose proof (C80_valid _ _ _ _ _ _ CAL) as V. cbv zeta in V. destruct V as (_ & INC & _ & _ & _ & _ & _ & _ & _ & HB & _ & HF & _). destruct D as [(p & I & D)|D]; [|lra].
    apply In_nth_error in I as (i & EI). assert (II : (i < length pillars)%nat) by (apply nth_error_Some; congruence).
    destruct (cal_pillar _ _ _ _ _ _ CAL) as (mk & nus & als & us & P). cbv zeta in P. destruct P as (_ & _ & _ & _ & _ & _ & _ & PIL). destruct (PIL i p EI) as (d & g & w & r & x & y & Ed & _). clear PIL.
    pose proof (C80_stage1 _ _ _ _ _ _ _ _ _ HS CAL EI Ed) as S1. cbv zeta in S1. destruct S1 as (LL & LP & AP & (fit & EF & _) & _). cbn [alpha] in AP.
    destruct (calibrate_open _ _ _ _ _ _ _ HS EF) as (FP & TP & _). destruct D as [D|[D|[D|[D|D]]]]; try lra; [|congruence]. rewrite D in LP. cbn in LP. lia.
Qed.
Print Assumptions C80_domain.

(** *** One pillar *)
Lemma twice_le x : 2 * x <= 1 + x ^ 2.
Proof. pose proof (pow2_ge_0 (x - 1)) as H. replace ((x - 1) ^ 2) with (x ^ 2 - 2 * x + 1) in H by ring. lra. Qed.
Lemma square_step x y e M : 0 <= x <= y -> y - x <= e -> y <= M -> y ^ 2 <= x ^ 2 + e * (2 * M).
Proof. intros H E L. replace (y ^ 2) with (x ^ 2 + (y - x) * (x + y)) by ring. apply Rplus_le_compat_l, Rmult_le_compat; lra. Qed.
Lemma square_step' x y e : 0 <= x <= y -> y - x <= e -> e <= / 10 ^ 9 -> y ^ 2 <= x ^ 2 + e * (2 + x ^ 2).
Proof. intros H E L. replace (y ^ 2) with (x ^ 2 + (y - x) * (x + y)) by ring. apply Rplus_le_compat_l, Rmult_le_compat; try lra. pose proof (twice_le x). lra. Qed.
Lemma square_lt x M : 0 <= M -> x ^ 2 < M ^ 2 -> x <= M.
Proof. intros P H. destruct (Rle_dec x M) as [|N]; [assumption|]. exfalso. assert (M ^ 2 <= x ^ 2) by (apply pow_incr; lra). lra. Qed.
Lemma abs_between x e : Rabs x <= e -> - e <= x <= e.
Proof. unfold Rabs. destruct (Rcase_abs x); lra. Qed.
Definition one (T x : R) : schedule := {| knots := [0; T]; values := [x] |}.
Lemma one_new T x : 0 < T -> schedule_new [0; T] [x] = Ok (one T x).
Proof.
  intros TP. apply C55_new. split; [reflexivity|]. split; [cbn; lia|]. split; [reflexivity|]. split; [cbn [nth]; rewrite Rabs_R0; apply Rinv_0_lt_compat, pow_lt; lra|]. intros i I. destruct i as [|i]; [cbn; exact TP|cbn in I; lia].
Qed.
Lemma one_market T x o : 0 < T -> market [0; T] [x] [o] 1 T (fun _ => x) (fun _ => o) (one T x) (one T o).
Proof. intros TP. apply constant_market; [apply one_new, TP|apply one_new, TP|cbn; lia|reflexivity|cbn; lia|]. intros k K. assert (k = 0%nat) as -> by lia. split; reflexivity. Qed.
Lemma one_vv T x o : / 10 ^ 4 <= T <= 100 -> 0 <= x <= 2000 -> exists v, effective_vol_vol (one T x) (one T o) T = Ok v.
Proof.
  intros HT HX. assert (TP : 0 < T) by (pose proof (Rinv_0_lt_compat (10 ^ 4) ltac:(apply pow_lt; lra)); lra). apply (C74_total _ _ _ _ _ _ _ _ _ (one_market T x o TP) TP).
  cbn [nth]. rewrite Coquelicot.RInt.RInt_const. match goal with |- ?s + 1 <= _ => change s with ((T - 0) * x ^ 2) end. assert (x * x <= 4000000) by nra. assert (0 <= T * (4000000 - x * x)) by (apply Rmult_le_pos; lra). lra.
Qed.
Lemma one_vv_close T x o v : / 10 ^ 4 <= T <= 100 -> 0 <= x -> o <> 0 -> effective_vol_vol (one T x) (one T o) T = Ok v -> 0 <= v /\ - (3 / 10 ^ 7) <= v ^ 2 - x ^ 2 <= 3 / 10 ^ 7.
Proof.
  intros HT HX HO V. assert (TP : 0 < T) by (pose proof (Rinv_0_lt_compat (10 ^ 4) ltac:(apply pow_lt; lra)); lra).
  destruct (C55_constant [0; T] [x] [o] 1 T x o (one T x) (one T o) v (one_new T x TP) (one_new T o TP) ltac:(cbn; lia) eq_refl eq_refl TP ltac:(cbn; lia) ltac:(intros k K; assert (k = 0%nat) as -> by lia; split; reflexivity) HO HX V) as (VP & B).
  split; [exact VP|]. assert (Rabs (v ^ 2 - x ^ 2) <= 3 / 10 ^ 7); [|apply abs_between in H; lra]. apply (Rmult_le_reg_r T _ _ TP). assert (3 / 10 ^ 7 * / 10 ^ 4 <= 3 / 10 ^ 7 * T) by (apply Rmult_le_compat_l; lra). lra.
Qed.
Lemma one_ts T x o : / 10 ^ 4 <= T <= 100 -> 0 <= x <= 2000 -> o <> 0 -> exists w, effective_term_structure (one T x) (one T o) T = Ok w /\ 0 <= w /\ w ^ 2 <= o ^ 2 * (1 + 4 / 10 ^ 6) /\ o ^ 2 <= w ^ 2 * (1 + 4 / 10 ^ 6).
Proof.
  intros HT HX HO. assert (TP : 0 < T) by (pose proof (Rinv_0_lt_compat (10 ^ 4) ltac:(apply pow_lt; lra)); lra). destruct (one_vv T x o HT HX) as (v & V).
  destruct (C74_term _ _ _ _ _ _ _ _ _ v _ (one_market T x o TP) (proj1 (constant_moments T x o TP)) TP V) as (w & W & WP & _). exists w. split; [exact W|]. split; [exact WP|].
  pose proof (C55_constant_volatility [0; T] [x] [o] 1 T x o (one T x) (one T o) v w (one_new T x TP) (one_new T o TP) ltac:(cbn; lia) eq_refl eq_refl TP ltac:(cbn; lia) ltac:(intros k K; assert (k = 0%nat) as -> by lia; split; reflexivity) HO ltac:(lra) V W) as B.
  cbv zeta in B. set (dd := 3 / 10 ^ 11 + 2 / 10 ^ 12 * T + _) in B. assert (D : 0 <= dd <= 2 / 10 ^ 6). { unfold dd. assert (0 < / 10 ^ 6) by (apply Rinv_0_lt_compat, pow_lt; lra). destruct (Rlt_dec _ _); lra. }
  assert (ED : exp dd <= 1 + 4 / 10 ^ 6). { pose proof (exp_ineq1_le (- dd)) as E. pose proof (exp_pos dd) as P. assert (I : exp dd * exp (- dd) = 1) by (rewrite <- exp_plus, Rplus_opp_r; apply exp_0). assert (exp dd * (1 - 2 / 10 ^ 6) <= 1) by nra. nra. }
  pose proof (pow2_ge_0 o). pose proof (pow2_ge_0 w). destruct B as [B1 B2]. split; [apply Rle_trans with (o ^ 2 * exp dd); [exact B1|apply Rmult_le_compat_l; assumption]|apply Rle_trans with (w ^ 2 * exp dd); [exact B2|apply Rmult_le_compat_l; assumption]].
Qed.

Lemma square_errors_total p F T : 0 < F -> 0 < T -> forall kvs ss, (forall kv, In kv kvs -> 0 < fst kv) -> exists s, square_errors p F T kvs ss = Ok s.
Proof.
  intros FP TP. induction kvs as [|[k v] kvs IH]; intros ss P; cbn [square_errors]; [eexists; reflexivity|]. destruct (hagan_total p F k T FP (P (k, v) ltac:(left; reflexivity)) TP) as (m & ->). cbn [obind]. apply IH. intros kv I. apply P. right. exact I.
Qed.

Lemma near_nu T o n u dl : / 10 ^ 4 <= T <= 100 -> o <> 0 -> 0 < u <= 1000 -> / 10 ^ 6 <= n -> dl <= 2 / 10 ^ 10 ->
  let g y := effective_vol_vol (one T y) (one T o) T in
  (exists v, g n = Ok v /\ Rabs (v - u) < / 10 ^ 10) \/ (exists a b va vb, / 10 ^ 6 <= a <= n /\ n <= b /\ b - a <= dl /\ g a = Ok va /\ g b = Ok vb /\ va <= u <= vb) \/ (n = / 10 ^ 6 /\ exists v, g n = Ok v /\ u < v) ->
  Rabs (n ^ 2 - u ^ 2) <= 2 / 10 ^ 6.
Proof.
  intros HT HO HU HN HD g H. assert (E6 : 0 < / 10 ^ 6) by (apply Rinv_0_lt_compat, pow_lt; lra).
  destruct H as [(v & G & B)|[(a & c & va & vb & A & C & W & GA & GB & S)|(EN & v & G & B)]].
  - destruct (one_vv_close T n o v HT ltac:(lra) HO G) as (VP & Q). apply Rabs_def2 in B. apply Rabs_le. assert (- (3 / 10 ^ 7) <= v ^ 2 - u ^ 2 <= 3 / 10 ^ 7). { destruct (Rle_dec v u); [pose proof (square_step v u (/ 10 ^ 10) 1000 ltac:(lra) ltac:(lra) ltac:(lra)); assert (v ^ 2 <= u ^ 2) by (apply pow_incr; lra)|pose proof (square_step u v (/ 10 ^ 10) 1001 ltac:(lra) ltac:(lra) ltac:(lra)); assert (u ^ 2 <= v ^ 2) by (apply pow_incr; lra)]; lra. } lra.
  - destruct (one_vv_close T a o va HT ltac:(lra) HO GA) as (VA & QA). destruct (one_vv_close T c o vb HT ltac:(lra) HO GB) as (VB & QB).
    assert (va ^ 2 <= u ^ 2) by (apply pow_incr; lra). assert (u ^ 2 <= vb ^ 2) by (apply pow_incr; lra). assert (a ^ 2 <= u ^ 2 + 3 / 10 ^ 7) by lra. assert (u ^ 2 <= c ^ 2 + 3 / 10 ^ 7) by lra. assert (u ^ 2 <= 1000 ^ 2) by (apply pow_incr; lra). assert (a <= 1001) by (apply square_lt; lra). pose proof (square_step a n (2 / 10 ^ 10) 1002 ltac:(lra) ltac:(lra) ltac:(lra)). pose proof (square_step n c (2 / 10 ^ 10) 1002 ltac:(lra) ltac:(lra) ltac:(lra)). apply Rabs_le. lra.
  - destruct (one_vv_close T n o v HT ltac:(lra) HO G) as (VP & Q). assert (u ^ 2 <= v ^ 2) by (apply pow_incr; lra). assert (0 <= u ^ 2) by apply pow2_ge_0. assert (n ^ 2 <= / 10 ^ 6) by (rewrite EN; apply Rle_trans with (/ 10 ^ 6 * 1); [cbn [pow]; apply Rmult_le_compat_l; lra|lra]). apply Rabs_le. lra.
Qed.
Lemma near_alpha T x a u dl : / 10 ^ 4 <= T <= 100 -> 0 <= x <= 2000 -> 0 < u <= 1000 -> / 10 ^ 6 <= a -> dl <= 2 / 10 ^ 10 ->
  let g y := effective_term_structure (one T x) (one T y) T in
  (exists v, g a = Ok v /\ Rabs (v - u) < / 10 ^ 10) \/ (exists p q vp vq, / 10 ^ 6 <= p <= a /\ a <= q /\ q - p <= dl /\ g p = Ok vp /\ g q = Ok vq /\ vp <= u <= vq) \/ (a = / 10 ^ 6 /\ exists v, g a = Ok v /\ u < v) ->
  Rabs (a ^ 2 - u ^ 2) <= 2 / 10 ^ 5 * (1 + u ^ 2).
Proof.
  intros HT HX HU HN HD g H. assert (E6 : 0 < / 10 ^ 6) by (apply Rinv_0_lt_compat, pow_lt; lra). assert (U2 : 0 <= u ^ 2) by apply pow2_ge_0. pose proof (twice_le u) as U1.
  destruct H as [(v & G & B)|[(p & c & va & vb & A & C & W & GA & GB & S)|(EN & v & G & B)]].
  - destruct (one_ts T x a HT HX ltac:(lra)) as (w & W & WP & Q1 & Q2). assert (v = w) as -> by (unfold g in G; congruence). apply Rabs_def2 in B. assert (- (/ 10 ^ 9 * (1 + u ^ 2)) <= w ^ 2 - u ^ 2 <= / 10 ^ 9 * (1 + u ^ 2)). { destruct (Rle_dec w u); [pose proof (square_step' w u (/ 10 ^ 10) ltac:(lra) ltac:(lra) ltac:(lra)); assert (w ^ 2 <= u ^ 2) by (apply pow_incr; lra)|pose proof (square_step' u w (/ 10 ^ 10) ltac:(lra) ltac:(lra) ltac:(lra)); assert (u ^ 2 <= w ^ 2) by (apply pow_incr; lra)]; lra. } apply Rabs_le. split; lra.
  - destruct (one_ts T x p HT HX ltac:(lra)) as (wp & WP & PP & P1 & P2). destruct (one_ts T x c HT HX ltac:(lra)) as (wq & WQ & QP & Q1 & Q2). assert (va = wp) as -> by (unfold g in GA; congruence). assert (vb = wq) as -> by (unfold g in GB; congruence).
    assert (wp ^ 2 <= u ^ 2) by (apply pow_incr; lra). assert (u ^ 2 <= wq ^ 2) by (apply pow_incr; lra). assert (p ^ 2 <= u ^ 2 * (1 + 4 / 10 ^ 6)) by lra. assert (u ^ 2 <= c ^ 2 * (1 + 4 / 10 ^ 6)) by lra. pose proof (square_step' p a (2 / 10 ^ 10) ltac:(lra) ltac:(lra) ltac:(lra)). pose proof (square_step' p c (2 / 10 ^ 10) ltac:(lra) ltac:(lra) ltac:(lra)). assert (p ^ 2 <= a ^ 2) by (apply pow_incr; lra). apply Rabs_le. split; lra.
  - destruct (one_ts T x a HT HX ltac:(lra)) as (w & W & WP & Q1 & Q2). assert (v = w) as -> by (unfold g in G; congruence). assert (u ^ 2 <= w ^ 2) by (apply pow_incr; lra). assert (a ^ 2 <= / 10 ^ 6) by (rewrite EN; apply Rle_trans with (/ 10 ^ 6 * 1); [cbn [pow]; apply Rmult_le_compat_l; lra|lra]). apply Rabs_le. pose proof (pow2_ge_0 a). split; lra.
Qed.

(** A single pillar: with a year fraction between 1e-4 and 100, positive strikes, a positive middle quote and a fit that is not extreme,
    the calibration succeeds and returns the constant fit, to the accuracy of the effective parameters. *)
Theorem C80_single : forall sort pi b F0 opts, @sorts_floats R_floats sort -> / 10 ^ 4 <= pt_expiry pi <= 100 -> 0 < pt_forward pi -> length (pt_strikes pi) = length (pt_vols pi) -> pt_vols pi <> [] ->
  (forall k, In k (pt_strikes pi) -> 0 < k) -> 0 < nth (length (pt_vols pi) / 2) (pt_vols pi) 0 -> 0 <= b <= 1 -> 0 < F0 ->
  (forall m, stage1 sort b opts pi = Ok m -> alpha m <= 1000 /\ nu m <= 1000) ->
  exists res d n a r, calibrate_time_dependent sort [pi] b F0 opts = Ok res /\ tr_per_pillar res = [d] /\ values (td_nu (tr_params res)) = [n] /\ values (td_alpha (tr_params res)) = [a] /\ values (td_rho (tr_params res)) = [r] /\
    Rabs (n ^ 2 - nu (dg_market d) ^ 2) <= 2 / 10 ^ 6 /\ Rabs (a ^ 2 - alpha (dg_market d) ^ 2) <= 2 / 10 ^ 5 * (1 + alpha (dg_market d) ^ 2).
Proof.
  intros sort pi b F0 opts HS HT FP LL NE KP VP HB HF HM. set (T := pt_expiry pi) in *. assert (TP : 0 < T) by (pose proof (Rinv_0_lt_compat (10 ^ 4) ltac:(apply pow_lt; lra)); lra).
  assert (EX : exists res, calibrate_time_dependent sort [pi] b F0 opts = Ok res).
  { unfold calibrate_time_dependent. cbn [length Nat.eqb sorted_pillars negb]. cbv zeta.
    assert (S1 : exists m, stage1 sort b opts pi = Ok m).
    { unfold stage1. destruct (oindex_ok (pt_vols pi) (length (pt_vols pi) / 2)) as (v & EV). { apply Nat.div_lt; [destruct (pt_vols pi); [congruence|cbn; lia]|lia]. }
      rewrite EV. cbn [obind]. apply oindex_nth in EV as (_ & EV). rewrite <- EV in VP.
      assert (SN : @sabr_new R_numbers v b (- (20 / 100)) (30 / 100) = Ok (@Build_sabr_params R_numbers v b (- (20 / 100)) (30 / 100))).
      { unfold sabr_new. cbn. destruct (Rlt_dec 0 v); [|lra]. destruct (Rle_dec 0 b); [|lra]. destruct (Rle_dec b 1); [|lra]. destruct (Rlt_dec (- (1)) (- (20 / 100))); [|lra]. destruct (Rlt_dec (- (20 / 100)) 1); [|lra]. destruct (Rle_dec 0 (30 / 100)); [|lra]. reflexivity. }
      rewrite SN. cbn [obind]. unfold targets_from_grid. rewrite LL, Nat.eqb_refl. cbn [obind].
      match goal with |- context [sabr_calibrate sort ?s ?f ?ts ?t opts] => destruct (proj1 (C79_domain sort s f ts t opts HS)) as (fit & EF); [exact FP|exact TP| | |] end.
      - destruct (pt_vols pi); [congruence|]. destruct (pt_strikes pi); [discriminate|]. discriminate.
      - intros t I. apply in_map_iff in I as ([k u] & <- & I). cbn. apply in_combine_l in I. apply KP, I.
      - rewrite EF. cbn [obind]. eexists. reflexivity. }
    destruct S1 as (m & S1). destruct (HM m S1) as (MA & MN). pose proof S1 as S1'.
    assert (MP : 0 < alpha m /\ -1 < rho m < 1 /\ 0 < nu m).
    { unfold stage1 in S1'. ob S1' v EV. ob S1' seed ESD. ob S1' tg ETG. ob S1' fit EF. destruct (calibrate_open _ _ _ _ _ _ _ HS EF) as (_ & _ & _ & (A & _ & R & N) & _). assert (m = fr_params fit) as -> by congruence. repeat split; tauto. }
    cbn [omapM]. rewrite S1. cbn [obind combine map omapM]. unfold pillar_rmse. destruct (square_errors_total m (pt_forward pi) T FP TP (combine (pt_strikes pi) (pt_vols pi)) 0) as (ss & SS).
    { intros [k u] I. apply in_combine_l in I. apply KP, I. } fold T. rewrite SS. cbn [obind combine]. cbn [stage2 length app]. cbv zeta.
    assert (UP : forall x, upto [0; T] 0 [x] = Ok (one T x)) by (intros x; unfold upto; cbn [slice_to length Nat.leb firstn obind]; apply one_new, TP).
    cbn [repeat]. rewrite UP. cbn [obind].
    destruct MP as (AP & RP & NP). assert (E6 : 0 < / 10 ^ 6 < 1 / 10) by (split; [apply Rinv_0_lt_compat, pow_lt|]; lra).
    assert (HH : forall (u k l : R), 0 < u <= 1000 -> k = 2 \/ k = 4 -> 1 / 10 <= l <= 1 -> l <= Rmax (u * k) l /\ u * k <= Rmax (u * k) l /\ Rmax (u * k) l <= 1000 * k) by (intros u k l U K L; pose proof (Rmax_l (u * k) l); pose proof (Rmax_r (u * k) l); unfold Rmax in *; destruct K as [-> | ->]; destruct (Rle_dec _ l); lra).
    destruct (HH (nu m) 2 (1 / 10) ltac:(lra) ltac:(left; reflexivity) ltac:(lra)) as (H1 & H2 & H3). set (hi := Rmax (nu m * 2) (1 / 10)) in *.
    match goal with |- context [segment_value ?f hi] => set (f2 := f) end.
    assert (T2 : forall x, / 10 ^ 6 <= x <= hi -> exists v, f2 x = Ok v). { intros x X. unfold f2. rewrite UP. cbn [obind]. destruct (one_vv T x (alpha m) HT ltac:(lra)) as (v & ->). cbn [obind]. eexists. reflexivity. }
    destruct (T2 hi ltac:(lra)) as (v2 & E2). assert (P2 : 0 <= v2).
    { unfold f2 in E2. rewrite UP in E2. cbn [obind] in E2. ob E2 g EG. destruct (one_vv_close T hi (alpha m) g HT ltac:(lra) ltac:(lra) EG) as (GP & GC). assert (v2 = g - nu m) as -> by congruence.
      assert (K : forall n h : R, 0 < n -> 1 / 10 <= h -> n * 2 <= h -> g ^ 2 - h ^ 2 >= - (3 / 10 ^ 7) -> 0 <= g - n) by (intros n h; intros; nra). apply (K (nu m) hi NP H1 H2). lra. }
    destruct (segment_total f2 hi v2 ltac:(lra) T2 E2 P2) as (n & EN & NB). rewrite EN. cbn [obind].
    replace (schedule_new [0; T] [n]) with (Ok (one T n)) by (symmetry; apply one_new, TP). cbn [obind]. cbn [stage3 length app]. cbv zeta. cbn [slice_to length Nat.leb firstn obind]. rewrite UP. cbn [obind].
    destruct (HH (alpha m) 4 (1 / 2) ltac:(lra) ltac:(right; reflexivity) ltac:(lra)) as (A1 & A2 & A3). set (ha := Rmax (alpha m * 4) (1 / 2)) in *. 
    match goal with |- context [segment_value ?f ha] => set (f3 := f) end.
    assert (T3 : forall x, / 10 ^ 6 <= x <= ha -> exists v, f3 x = Ok v). { intros x X. unfold f3. rewrite UP. cbn [obind]. destruct (one_ts T n x HT ltac:(lra) ltac:(lra)) as (v & -> & _). cbn [obind]. eexists. reflexivity. }
    destruct (T3 ha ltac:(lra)) as (v3 & E3). assert (P3 : 0 <= v3).
    { unfold f3 in E3. rewrite UP in E3. cbn [obind] in E3. ob E3 g EG. destruct (one_ts T n ha HT ltac:(lra) ltac:(lra)) as (w & W & WP & _ & WC). assert (g = w) as -> by congruence. assert (v3 = w - alpha m) as -> by congruence.
      assert (K : forall n h : R, 0 < n -> 1 / 2 <= h -> n * 4 <= h -> h ^ 2 <= w ^ 2 * (1 + 4 / 10 ^ 6) -> 0 <= w - n). { intros n0 h N0 HH0 N4 HW. destruct (Rle_dec n0 w) as [|NL]; [lra|]. exfalso. assert (w ^ 2 <= n0 ^ 2) by (apply pow_incr; lra). nra. } apply (K (alpha m) ha AP A1 A2 WC). }
    destruct (segment_total f3 ha v3 ltac:(lra) T3 E3 P3) as (a & EA & AB). rewrite EA. cbn [obind].
    replace (schedule_new [0; T] [a]) with (Ok (one T a)) by (symmetry; apply one_new, TP). cbn [obind]. cbn [stage4 length app]. cbv zeta. cbn [slice_to length Nat.leb firstn obind]. repeat (progress (rewrite ?UP; cbn [slice_to length Nat.leb firstn obind])).
    destruct (one_vv T n a HT ltac:(lra)) as (g & EG). destruct (one_ts T n a HT ltac:(lra) ltac:(lra)) as (w & EW & _). rewrite EG. cbn [obind]. rewrite EW. cbn [obind oindex nth_error].
    assert (SB : / 10 ^ 15 < Rabs ((T - 0) * n / a)).
    { assert (Q : / 10 ^ 4 * / 10 ^ 6 / 4000 <= (T - 0) * n / a). { unfold Rdiv. apply Rmult_le_compat; [lra|lra| |apply Rinv_le_contravar; lra]. rewrite Rminus_0_r. apply Rmult_le_compat; lra. }
      rewrite Rabs_right by lra. apply Rlt_le_trans with (2 := Q). lra. }
    rewrite (proj2 (Rltb_true _ _) SB). cbn [negb]. match goal with |- context [clampR ?l ?h ?u] => set (r := clampR l h u); assert (RB : l <= r <= h) by (apply clampR_bounds; lra) end. cbn [obind].
    replace (schedule_new [0; T] [r]) with (Ok (one T r)) by (symmetry; apply one_new, TP). cbn [obind]. unfold td_new. cbn [one knots values]. unfold same_list. destruct (list_eq_dec Req_EM_T [0; T] [0; T]) as [_|]; [|contradiction]. cbn [negb].
    rewrite (proj2 (Rleb_true 0 b)) by lra. rewrite (proj2 (Rleb_true b 1)) by lra. rewrite (proj2 (Rltb_true 0 F0)) by exact HF. cbn [andb negb forallb]. rewrite (proj2 (Rltb_true 0 a)) by lra. rewrite (proj2 (Rleb_true 0 n)) by lra. rewrite (proj2 (Rltb_true (-1) r)) by lra. rewrite (proj2 (Rltb_true r 1)) by lra. cbn [andb negb obind].
    cbn [diagnose td_alpha td_nu td_rho]. change (values (one T n)) with [n]. change (values (one T a)) with [a]. change (values (one T r)) with [r]. change (knots (one T a)) with [0; T]. cbn [slice_to length Nat.leb firstn obind]. repeat (progress (rewrite ?UP; cbn [slice_to length Nat.leb firstn obind])). rewrite EG. cbn [obind]. rewrite EW. cbn [obind].
    assert (EC : exists c, effective_correlation (one T n) (one T a) (one T r) T = Ok c).
    { destruct (market_segments _ _ _ _ _ _ _ _ _ (one_market T n a TP)) as (segs & ES & SEG & _). cbn [differences firstn combine] in ES. unfold effective_correlation. cbn [one knots values]. unfold same_list. destruct (list_eq_dec Req_EM_T [0; T] [0; T]) as [_|]; [|contradiction]. cbn [negb]. fold (one T n) (one T a). rewrite SEG. cbn [obind]. subst segs.
      cbn [length slice_to Nat.leb firstn obind rho_integral]. assert (/ 10 ^ 15 < Rabs a) by (rewrite Rabs_right by lra; apply Rlt_le_trans with (/ 10 ^ 6); [apply Rinv_lt_contravar; lra|lra]). rewrite (proj2 (Rltb_true _ _) H). cbn [negb obind]. rewrite EG. cbn [obind]. rewrite EW. cbn [obind]. destruct (Rlt_dec (Rabs g) (/ 10 ^ 15)); eexists; reflexivity. }
    destruct EC as (c & ->). cbn [obind]. eexists. reflexivity. }
  destruct EX as (res & CAL). exists res. pose proof (C80_valid _ _ _ _ _ _ CAL) as V. cbv zeta in V. destruct V as (_ & _ & _ & _ & _ & LA & LR & LN & _ & _ & _ & _ & PA & PN & _ & DE).
  destruct (tr_per_pillar res) as [|d [|]] eqn:ED; try discriminate. destruct (values (td_nu (tr_params res))) as [|n [|]] eqn:EN; try discriminate. destruct (values (td_alpha (tr_params res))) as [|a [|]] eqn:EA; try discriminate. destruct (values (td_rho (tr_params res))) as [|r [|]] eqn:ER; try discriminate.
  exists d, n, a, r. split; [exact CAL|]. do 4 (split; [reflexivity|]).
  destruct (cal_pillar _ _ _ _ _ _ CAL) as (mk & nus & als & us & P). cbv zeta in P. destruct P as (EP & _ & _ & _ & _ & _ & _ & PIL). destruct (PIL 0%nat pi eq_refl) as (d' & g & w & r' & x & y & Ed & _ & _ & S1 & _). rewrite ED in Ed. assert (d' = d) as -> by (cbn in Ed; congruence). clear PIL Ed.
  destruct (HM _ S1) as (MA & MN). pose proof (C80_stage1 _ _ _ _ _ _ 0%nat pi d HS CAL eq_refl ltac:(rewrite ED; reflexivity)) as ST. cbv zeta in ST. destruct ST as (_ & _ & _ & _ & _ & AP & _ & NP & _).
  pose proof (C80_nu _ _ _ _ _ _ 0%nat pi d n CAL eq_refl ltac:(rewrite ED; reflexivity)) as HN. pose proof (C80_alpha _ _ _ _ _ _ 0%nat pi d a CAL eq_refl ltac:(rewrite ED; reflexivity)) as HA. cbv zeta in HN, HA. rewrite EN in HN, HA. rewrite EA in HA. specialize (HN eq_refl). specialize (HA eq_refl). destruct HN as (HN & _). destruct HA as (HA & _).
  cbn [firstn map app repeat] in HN, HA. fold T in HN, HA.
  assert (D60 : forall h : R, 0 <= h <= 4000 -> / 10 ^ 10 + h / 2 ^ 60 <= 2 / 10 ^ 10). { intros h Hh. assert (h / 2 ^ 60 <= / 10 ^ 10); [|lra]. apply (Rmult_le_reg_r (2 ^ 60)); [apply pow_lt; lra|]. unfold Rdiv. rewrite Rmult_assoc, Rinv_l, Rmult_1_r by (apply pow_nonzero; lra). lra. }
  assert (NB : Rabs (n ^ 2 - nu (dg_market d) ^ 2) <= 2 / 10 ^ 6).
  { destruct HN as (_ & HN). apply (near_nu T (alpha (dg_market d)) n (nu (dg_market d)) (/ 10 ^ 10 + Rmax (nu (dg_market d) * 2) (1 / 10) / 2 ^ 60) HT); [lra|lra|apply PN; left; reflexivity| |exact HN]. apply D60. unfold Rmax. destruct (Rle_dec _ _); [lra|]. split; [apply Rle_trans with (1 / 10); lra|]. apply Rle_trans with (1000 * 2); [apply Rmult_le_compat_r; lra|lra]. }
  split; [exact NB|]. assert (N2 : n <= 2000). { apply abs_between in NB. assert (K : forall u v : R, 0 < u <= 1000 -> v ^ 2 - u ^ 2 <= 2 / 10 ^ 6 -> v <= 2000) by (intros u v U B; nra). apply (K (nu (dg_market d))); lra. }
  destruct HA as (_ & HA). assert (NP' : 0 <= n) by (pose proof (PN n ltac:(left; reflexivity)); assert (0 < / 10 ^ 6) by (apply Rinv_0_lt_compat, pow_lt; lra); lra).
  apply (near_alpha T n a (alpha (dg_market d)) (/ 10 ^ 10 + Rmax (alpha (dg_market d) * 4) (1 / 2) / 2 ^ 60) HT); [lra|lra|apply PA; left; reflexivity| |exact HA].
  apply D60. unfold Rmax. destruct (Rle_dec _ _); [lra|]. split; [apply Rle_trans with (1 / 2); lra|]. apply Rle_trans with (1000 * 4); [apply Rmult_le_compat_r; lra|lra].
Qed.
Print Assumptions C80_single.
(** *** Where the clamp bites *)
Definition two (x y : R) : schedule := {| knots := knots_012; values := [x; y] |}.
Lemma two_effective : exists v w, effective_vol_vol (two 1 1) (two 1 1) 2 = Ok v /\ effective_term_structure (two 1 1) (two 1 1) 2 = Ok w /\ 0 <= v /\ - (3 / 10 ^ 7) <= v ^ 2 - 1 <= 3 / 10 ^ 7 /\ 0 <= w /\ w ^ 2 <= 1 + 4 / 10 ^ 6 /\ 1 <= w ^ 2 * (1 + 4 / 10 ^ 6).
Proof.
  assert (CV : forall k, (k < 2)%nat -> nth k [1; 1] 0 = 1 /\ nth k [1; 1] 0 = 1). { intros k K. destruct k as [|[|k]]; [split; reflexivity|split; reflexivity|lia]. }
  pose proof (constant_market knots_012 [1; 1] [1; 1] 2 2 1 1 (two 1 1) (two 1 1) (new_012 1 1) (new_012 1 1) ltac:(cbn; lia) eq_refl ltac:(cbn; lia) CV) as M.
  destruct (C74_total _ _ _ _ _ _ _ _ _ M ltac:(lra)) as [v V]. { cbn [nth knots_012]. rewrite Coquelicot.RInt.RInt_const. match goal with |- ?s + 1 <= _ => change s with ((2 - 0) * 1 ^ 2) end. lra. }
  destruct (C74_term _ _ _ _ _ _ _ _ _ v _ M (proj1 (constant_moments 2 1 1 ltac:(lra))) ltac:(lra) V) as (w & W & WP & _).
  exists v, w. split; [exact V|]. split; [exact W|].
  destruct (C55_constant knots_012 [1; 1] [1; 1] 2 2 1 1 (two 1 1) (two 1 1) v (new_012 1 1) (new_012 1 1) ltac:(cbn; lia) eq_refl eq_refl ltac:(lra) ltac:(cbn; lia) CV ltac:(lra) ltac:(lra) V) as (VP & B).
  split; [exact VP|]. rewrite pow1 in B. split; [apply abs_between; lra|]. split; [exact WP|].
  pose proof (C55_constant_volatility knots_012 [1; 1] [1; 1] 2 2 1 1 (two 1 1) (two 1 1) v w (new_012 1 1) (new_012 1 1) ltac:(cbn; lia) eq_refl eq_refl ltac:(lra) ltac:(cbn; lia) CV ltac:(lra) ltac:(lra) V W) as C.
  cbv zeta in C. set (dd := 3 / 10 ^ 11 + 2 / 10 ^ 12 * 2 + _) in C. assert (D : 0 <= dd <= 2 / 10 ^ 6). { unfold dd. assert (0 < / 10 ^ 6) by (apply Rinv_0_lt_compat, pow_lt; lra). destruct (Rlt_dec _ _); lra. }
  assert (ED : exp dd <= 1 + 4 / 10 ^ 6). { pose proof (exp_ineq1_le (- dd)) as E. pose proof (exp_pos dd) as P. assert (I : exp dd * exp (- dd) = 1) by (rewrite <- exp_plus, Rplus_opp_r; apply exp_0). assert (exp dd * (1 - 2 / 10 ^ 6) <= 1) by nra. nra. }
  pose proof (pow2_ge_0 w). destruct C as [B1 B2]. split; [lra|]. apply Rle_trans with (w ^ 2 * exp dd); [lra|apply Rmult_le_compat_l; assumption].
Qed.
Lemma near_one v : 0 <= v -> 1 - 1 / 10 ^ 5 <= v ^ 2 <= 1 + 1 / 10 ^ 5 -> 1 - 1 / 10 ^ 5 <= v <= 1 + 1 / 10 ^ 5.
Proof.
  intros P [L U]. split.
  - destruct (Rle_dec (1 - 1 / 10 ^ 5) v) as [|N]; [assumption|]. exfalso. assert (v * v <= 1 * v) by (apply Rmult_le_compat_r; lra). lra.
  - destruct (Rle_dec v (1 + 1 / 10 ^ 5)) as [|N]; [assumption|]. exfalso. assert (1 * v <= v * v) by (apply Rmult_le_compat_r; lra). lra.
Qed.
Lemma quotient_near v w : 1 - 1 / 10 ^ 5 <= v <= 1 + 1 / 10 ^ 5 -> 1 - 1 / 10 ^ 5 <= w <= 1 + 1 / 10 ^ 5 -> 1 - 3 / 10 ^ 5 <= v / w <= 1 + 3 / 10 ^ 5.
Proof.
  intros V W. assert (WP : 0 < w) by lra. split; apply (Rmult_le_reg_r w); try exact WP; replace (v / w * w) with v by (field; lra); lra.
Qed.
Lemma two_correlation x y v w : effective_vol_vol (two 1 1) (two 1 1) 2 = Ok v -> effective_term_structure (two 1 1) (two 1 1) 2 = Ok w -> 1 / 2 < v ->
  effective_correlation (two 1 1) (two 1 1) (two x y) 2 = Ok (w / (v * 2) * (x + y)).
Proof.
  intros V W VP. unfold effective_correlation. assert (SL : same_list (knots (two 1 1)) (knots (two x y)) = true) by (unfold same_list; destruct (list_eq_dec _ _ _) as [|N]; [reflexivity|exfalso; apply N; reflexivity]). rewrite SL. cbn [negb].
  rewrite (segments_012 1 1 1 1 : aligned_segments (two 1 1) (two 1 1) 2 = _). cbn [obind length]. unfold slice_to. change (2 <=? length (values (two x y)))%nat with true. cbn [firstn two values obind].
  assert (LT : Rltb (/ 10 ^ 15) (Rabs 1) = true). { rewrite Rabs_R1. unfold Rltb. destruct (Rlt_dec (/ 10 ^ 15) 1) as [|N]; [reflexivity|exfalso; apply N; lra]. }
  cbn [rho_integral]. rewrite LT. cbn [negb obind]. fold (two 1 1). rewrite V, W. cbn [obind].
  destruct (Rlt_dec (Rabs v) (/ 10 ^ 15)) as [N|_]; [rewrite Rabs_right in N by lra; lra|]. f_equal. field. lra.
Qed.

(** "Every pillar's correlation is reached when it can be" fails: once a segment's value is clamped, the later
    segments are found from the sum of the unclamped ones.  Here the second pillar misses its market
    correlation of one half, though with the first segment's value as it stands a value well inside the clamp
    reaches it exactly. *)
Theorem C80_clamp_refuted : exists ks nus als m1 m2 r1 r2 c r2',
  (-1 < rho m1 < 1 /\ -1 < rho m2 < 1) /\
  stage4 ks nus als [(nth 1 ks 0, m1); (nth 2 ks 0, m2)] 0 [] = Ok [r1; r2] /\
  effective_correlation {| knots := ks; values := nus |} {| knots := ks; values := als |} {| knots := ks; values := [r1; r2] |} (nth 2 ks 0) = Ok c /\ c < rho m2 - 4 / 10 ^ 4 /\
  - (999 / 1000) < r2' < 999 / 1000 /\
  effective_correlation {| knots := ks; values := nus |} {| knots := ks; values := als |} {| knots := ks; values := [r1; r2'] |} (nth 2 ks 0) = Ok (rho m2).
Proof.
  set (m1 := @Build_sabr_params R_numbers 1 1 (9999 / 10000) 1). set (m2 := @Build_sabr_params R_numbers 1 1 (1 / 2) 1).
  destruct two_effective as (v2 & w2 & V2 & W2 & VP2 & VB2 & WP2 & WU2 & WL2).
  assert (HT : / 10 ^ 4 <= 1 <= 100) by lra. destruct (one_vv 1 1 1 HT ltac:(lra)) as (v1 & V1). destruct (one_vv_close 1 1 1 v1 HT ltac:(lra) ltac:(lra) V1) as (VP1 & VB1).
  destruct (one_ts 1 1 1 HT ltac:(lra) ltac:(lra)) as (w1 & W1 & WP1 & WU1 & WL1).
  assert (NV1 : 1 - 1 / 10 ^ 5 <= v1 <= 1 + 1 / 10 ^ 5) by (apply near_one; [exact VP1|lra]). assert (NV2 : 1 - 1 / 10 ^ 5 <= v2 <= 1 + 1 / 10 ^ 5) by (apply near_one; [exact VP2|lra]).
  assert (NW1 : 1 - 1 / 10 ^ 5 <= w1 <= 1 + 1 / 10 ^ 5) by (apply near_one; [exact WP1|lra]). assert (NW2 : 1 - 1 / 10 ^ 5 <= w2 <= 1 + 1 / 10 ^ 5) by (apply near_one; [exact WP2|lra]).
  pose proof (quotient_near v1 w1 NV1 NW1) as Q1. pose proof (quotient_near v2 w2 NV2 NW2) as Q2. pose proof (quotient_near w2 v2 NW2 NV2) as Q3.
  set (u1 := 9999 / 10000 * (v1 / w1)). set (u2 := v2 / w2 - u1). assert (B1 : 999 / 1000 + 85 / 10 ^ 5 <= u1 <= 1) by (unfold u1; lra). assert (B2 : - (1 / 1000) <= u2 <= 1 / 1000) by (unfold u2, u1; lra).
  exists knots_012, [1; 1], [1; 1], m1, m2, (999 / 1000), u2, (w2 / (v2 * 2) * (999 / 1000 + u2)), (v2 / w2 - 999 / 1000).
  split; [unfold m1, m2; cbn [rho]; lra|]. cbn [nth knots_012].
  split. { assert (S1 : slice_to 1 [1; 1] = Ok [1]) by reflexivity. assert (S2 : slice_to 2 [1; 1] = Ok [1; 1]) by reflexivity.
    assert (U1 : upto knots_012 0 [1] = Ok (one 1 1)) by (unfold upto; change (slice_to 2 knots_012) with (@Ok (list R) [0; 1]); cbn [obind]; apply one_new; lra).
    assert (U2 : upto knots_012 1 [1; 1] = Ok (two 1 1)) by (unfold upto; change (slice_to 3 knots_012) with (@Ok (list R) knots_012); cbn [obind]; apply new_012).
    assert (LT : Rltb (/ 10 ^ 15) (Rabs 1) = true). { rewrite Rabs_R1. unfold Rltb. destruct (Rlt_dec (/ 10 ^ 15) 1) as [|N]; [reflexivity|exfalso; apply N; lra]. }
    assert (E1 : (1 - 0) * 1 / 1 = 1) by field. assert (E2 : (2 - 1) * 1 / 1 = 1) by field.
    cbn [stage4 length]. rewrite S1. cbn [obind]. rewrite U1. cbn [obind]. rewrite V1, W1. cbn [obind]. unfold oindex at 1 2 3 4. cbn [nth_error obind knots_012]. rewrite E1, LT. cbn [negb app length].
    rewrite S2. cbn [obind]. fold knots_012. rewrite U2. cbn [obind]. rewrite V2, W2. cbn [obind]. unfold oindex. cbn [nth_error obind knots_012]. rewrite E2, LT. cbn [negb app]. f_equal.
    assert (X1 : (rho m1 * v1 * 1 / w1 - 0) / 1 = u1) by (unfold u1, m1; cbn [rho]; field; lra). assert (X2 : (rho m2 * v2 * 2 / w2 - (0 + (rho m1 * v1 * 1 / w1 - 0) / 1 * 1)) / 1 = u2) by (unfold u2; rewrite <- X1; unfold m1, m2; cbn [rho]; field; lra).
    match goal with |- [clampR _ _ ?a; clampR _ _ ?b] = _ => replace a with u1 by (symmetry; exact X1); replace b with u2 by (symmetry; exact X2) end.
    f_equal; [|f_equal]; unfold clampR; repeat (destruct (Rlt_dec _ _)); lra. }
  split; [apply (two_correlation (999 / 1000) u2 v2 w2 V2 W2); lra|].
  split. { replace (w2 / (v2 * 2) * (999 / 1000 + u2)) with (1 / 2 - w2 / v2 / 2 * (u1 - 999 / 1000)) by (unfold u2; field; lra). unfold m2. cbn [rho].
    assert ((1 / 2 - 2 / 10 ^ 5) * (85 / 10 ^ 5) <= w2 / v2 / 2 * (u1 - 999 / 1000)) by (apply Rmult_le_compat; lra). lra. }
  split; [lra|]. etransitivity; [apply (two_correlation (999 / 1000) (v2 / w2 - 999 / 1000) v2 w2 V2 W2); lra|]. unfold m2. cbn [rho]. apply (f_equal (@Ok R)). field. lra.
Qed.
Print Assumptions C80_clamp_refuted.
(** *** The strips *)

(** A strip holds the surface's own volatility at each of the strikes, the forward and strikes it was given
    and the Act/365 time from the date it was given; each adapter passes on all of it. *)
Theorem C80_strip : forall search surface val e F strikes s, smile_strip search surface val e F strikes = Ok s ->
  (strikes <> [] /\ st_strikes s = strikes /\ st_forward s = F /\ st_expiry_yf s = IZR (e - val) / 365) /\
  (length (st_vols s) = length strikes /\ forall i k, nth_error strikes i = Some k -> exists v, nth_error (st_vols s) i = Some v /\ surface_volatility search surface e k = Ok v) /\
  (map t_strike (strip_targets s) = strikes /\ map t_vol (strip_targets s) = st_vols s) /\
  (pt_expiry (strip_pillar s) = IZR (e - val) / 365 /\ pt_forward (strip_pillar s) = F) /\
  targets_from_grid (pt_strikes (strip_pillar s)) (pt_vols (strip_pillar s)) = Ok (strip_targets s).
Proof.
  intros search surface val e F strikes s H. unfold smile_strip in H. destruct strikes as [|k0 ks]; [discriminate|]. cbv zeta in H. ob H vols EV. injection H as <-. destruct (omapM_nth _ _ _ EV) as [L N].
  split; [split; [discriminate|]; split; [reflexivity|]; split; reflexivity|]. cbn [st_vols st_strikes]. split; [split; [exact L|exact N]|].
  unfold strip_targets, strip_pillar. cbn [st_vols st_strikes pt_strikes pt_vols pt_expiry pt_forward st_forward st_expiry_yf]. set (strikes := k0 :: ks) in *.
  split. { rewrite !map_map. cbn [t_strike t_vol]. clear -L. revert vols L. induction strikes as [|a l IH]; intros [|w vs] L; cbn [length] in L; try discriminate; [split; reflexivity|]. destruct (IH vs ltac:(lia)) as [A B]. cbn [combine map fst snd]. rewrite A, B. split; reflexivity. }
  split; [split; reflexivity|]. unfold targets_from_grid. rewrite <- L, Nat.eqb_refl. reflexivity.
Qed.
Print Assumptions C80_strip.

(** Of a surface that was built: the strip panics on no strikes, is an error on an expiry at or before the
    surface's date or on a strike that is not positive, and succeeds otherwise.  The date it is asked from
    plays no part. *)
Theorem C80_strip_domain : forall sort search vd ps surface val e F strikes, sorts_by sm_expiry sort -> searches_by sm_expiry search -> surface_new sort vd ps = Ok surface ->
  (strikes = [] -> smile_strip search surface val e F strikes = Panic PAssert) /\
  (strikes <> [] -> (e <= vd)%Z \/ (exists k, In k strikes /\ k <= 0) -> smile_strip search surface val e F strikes = Err EInvalidData) /\
  (strikes <> [] -> (vd < e)%Z -> (forall k, In k strikes -> 0 < k) -> exists s, smile_strip search surface val e F strikes = Ok s).
Proof.
  intros sort search vd ps surface val e F strikes HS HB NEW. destruct (C44_errors sort search HS HB vd ps) as [_ Q]. specialize (Q surface NEW).
  split; [intros ->; reflexivity|]. split.
  - intros NE C. destruct strikes as [|k0 ks]; [contradiction|]. unfold smile_strip. cbv zeta.
    assert (G : forall l, (l <> [] /\ (e <= vd)%Z \/ exists k, In k l /\ k <= 0) -> omapM (fun k => surface_volatility search surface e k) l = Err EInvalidData).
    { induction l as [|k l IH]; intros D; [destruct D as [[D _]|(k & [] & _)]; contradiction|]. cbn [omapM]. destruct (Q e k) as [QE QO]. destruct (Z_le_gt_dec e vd) as [L|G]; [rewrite QE by (right; exact L); reflexivity|].
      destruct (Rle_dec k 0) as [LE|GT]; [rewrite QE by (left; exact LE); reflexivity|]. destruct QO as (v & ->); [lra|apply Z.gt_lt; exact G|]. cbn [obind]. rewrite IH; [reflexivity|]. right. destruct D as [[_ D]|(k' & [<- |I] & D)]; [exfalso; unfold date in *; lia|lra|]. exists k'. split; assumption. }
    rewrite G; [reflexivity|]. destruct C as [C|C]; [left; split; [discriminate|exact C]|right; exact C].
  - intros NE L P. destruct strikes as [|k0 ks]; [contradiction|]. unfold smile_strip. cbv zeta.
    assert (G : forall l, (forall k, In k l -> 0 < k) -> exists vs, omapM (fun k => surface_volatility search surface e k) l = Ok vs).
    { induction l as [|k l IH]; intros D; [eexists; reflexivity|]. cbn [omapM]. destruct (proj2 (Q e k) (D k ltac:(left; reflexivity)) L) as (v & ->). cbn [obind]. destruct IH as (vs & ->); [intros k' I; apply D; right; exact I|]. cbn [obind]. eexists. reflexivity. }
    destruct (G _ P) as (vs & ->). cbn [obind]. eexists. reflexivity.
Qed.
Print Assumptions C80_strip_domain.

(** "The year fraction is from the surface's valuation date" fails: it is from the date passed in, which is
    never checked against the surface's; the same volatilities then carry another expiry, or one in the past. *)
Theorem C80_strip_clock_refuted : exists sort search vd ps surface e, sorts_by sm_expiry sort /\ searches_by sm_expiry search /\ surface_new sort vd ps = Ok surface /\
  exists s s' s'', smile_strip search surface vd e 1 [1] = Ok s /\ smile_strip search surface (e - 73)%Z e 1 [1] = Ok s' /\ smile_strip search surface (e + 73)%Z e 1 [1] = Ok s'' /\
  (st_vols s' = st_vols s /\ st_vols s'' = st_vols s) /\ st_expiry_yf s = 1 /\ st_expiry_yf s' = 1 / 5 /\ st_expiry_yf s'' = - (1 / 5).
Proof.
  destruct C44_witness as (surface & NEW & _ & _ & _ & HS & HB). do 4 eexists. exists surface, 365%Z. split; [exact HS|]. split; [exact HB|]. split; [exact NEW|].
  destruct (proj2 (proj2 (C80_strip_domain _ _ _ _ surface 0%Z 365%Z 1 [1] HS HB NEW)) ltac:(discriminate) ltac:(reflexivity) ltac:(intros k [<- |[]]; lra)) as (s & E).
  unfold smile_strip in *. cbv zeta in *. ob E vols EV. rewrite EV. cbn [obind]. do 3 eexists. split; [reflexivity|]. split; [reflexivity|]. split; [reflexivity|]. cbn [st_vols st_expiry_yf]. split; [split; reflexivity|].
  unfold yf365. change (365 - 0)%Z with 365%Z. change (365 - (365 - 73))%Z with 73%Z. change (365 - (365 + 73))%Z with (-73)%Z. lra.
Qed.
Print Assumptions C80_strip_clock_refuted.

(** *** A calibration that runs *)
Lemma small_inv y x : 0 < y <= 1 / 2 -> inv_softplus y = Ok x -> x <= 0.
Proof.
  intros Y E. unfold inv_softplus in E. destruct (Rlt_dec 0 y); [|lra]. destruct (Rlt_dec 35 y); [lra|]. injection E as <-. rewrite <- ln_1. left. apply ln_increasing; [pose proof (exp_ineq1 y ltac:(lra)); lra|].
  assert (exp y <= exp (1 / 2)) by (destruct (Req_dec y (1 / 2)) as [->|]; [lra|left; apply exp_increasing; lra]). assert (S : exp (1 / 2) * exp (1 / 2) <= 3) by (rewrite <- exp_plus; replace (1 / 2 + 1 / 2) with 1 by field; apply exp_le_3).
  destruct (Rlt_le_dec (exp (1 / 2)) 2) as [|G]; [lra|]. assert (2 * 2 <= exp (1 / 2) * exp (1 / 2)) by (apply Rmult_le_compat; lra). lra.
Qed.
Lemma softplus_small x : x <= 1 -> softplus x <= 3.
Proof.
  intros H. apply Rle_trans with (softplus 1); [apply softplus_mono; lra|]. unfold softplus. destruct (Rlt_dec 35 1); [lra|]. pose proof exp_le_3. apply Rle_trans with (ln (exp 3)); [|rewrite ln_exp; lra].
  pose proof (exp_pos 1). pose proof (exp_ineq1 3 ltac:(lra)). assert (D : 1 + exp 1 <= exp 3) by lra. destruct D as [D|D]; [left; apply ln_increasing; lra|rewrite D; lra].
Qed.
Lemma fixed_fit sort f x0 m : Forall (fun x => x <= 0) x0 -> nm_fit sort f x0 fixed_options = Ok m -> Forall (fun x => x <= 1) (m_x m).
Proof.
  intros X H. unfold nm_fit in H. ob H ms E. destruct ms as [m' s]. assert (m' = m) as ->. { destruct (find _ _); [destruct (f _); congruence|congruence]. } clear H.
  unfold nelder_mead_run in E. cbv zeta in E. match type of E with (if ?c then _ else _) = _ => destruct c; [discriminate E|] end. cbn [max_iter fixed_options nm_loop obind] in E. destruct (existsb _ _); [discriminate|]. injection E as <- _. cbn [m_x]. unfold vertex. cbn [simplex].
  match goal with |- context [nth ?b ?l []] => destruct (nth_in_or_default b l []) as [I|D]; [set (y := nth b l []) in *|rewrite D; constructor] end.
  assert (X1 : Forall (fun x => x <= 1) x0) by (eapply Forall_impl; [|exact X]; cbn; intros; lra).
  unfold initial_simplex in I. destruct I as [<- |I]; [exact X1|]. apply in_map_iff in I as (i & <- & _).
  assert (U : forall j l (v : R), Forall (fun x => x <= 1) l -> v <= 1 -> Forall (fun x => x <= 1) (upd j v l)).
  { intros j l v FL V. revert j. induction FL as [|a l A FL IH]; intros [|j]; cbn [upd]; try constructor; try assumption. apply IH. }
  apply U; [exact X1|]. assert (G : @get R_floats x0 i <= 0). { unfold get. change (nth i x0 0 <= 0). destruct (nth_in_or_default i x0 0) as [I|D]; [rewrite Forall_forall in X; apply X; exact I|rewrite D; lra]. }
  change (@step_frac R_floats fixed_options) with (1 / 20). change (@fabs R_floats) with Rabs. change (@fmul R_floats) with Rmult. change (@fmax R_floats) with Rmax. change (@fadd R_floats) with Rplus. change (@f_1e4 R_floats) with (/ 10 ^ 4).
  set (z := @get R_floats x0 i) in *. clearbody z. change R in z. assert (Z : z <= 0) by exact G. rewrite (Rabs_left1 z) by exact Z. destruct (flt _ _); [lra|]. rewrite Rmax_left by lra. lra.
Qed.
Definition sample_pillar : pillar_target := {| pt_expiry := 1; pt_forward := 1; pt_strikes := [9 / 10; 1; 11 / 10]; pt_vols := [11 / 50; 1 / 5; 21 / 100] |}.
Lemma sample_small sort m : stage1 sort 1 fixed_options sample_pillar = Ok m -> alpha m <= 1000 /\ nu m <= 1000.
Proof.
  intros H. unfold stage1 in H. cbn [pt_vols sample_pillar length Nat.div Nat.divmod fst] in H. unfold oindex in H. cbn [nth_error obind] in H. ob H seed ES. ob H tg ET. ob H res ER. injection H as <-.
  apply C52_new in ES as (-> & _). clear ET. unfold sabr_calibrate in ER. cbn [alpha beta rho nu pt_expiry pt_forward sample_pillar] in ER.
  destruct (negb _) in ER; [discriminate|]. destruct (length tg =? 0)%nat in ER; [discriminate|].
  match type of ER with context [Rmax ?u ?v] => rewrite (Rmax_left u v) in ER by lra end. ob ER a0 EA.
  match type of ER with context [Rmax ?u ?v] => rewrite (Rmax_left u v) in ER by lra end. ob ER n00 EN. ob ER m EM. injection ER as <-. cbn [fr_params].
  assert (X : Forall (fun x => x <= 1) (m_x m)).
  { apply (fixed_fit _ _ _ _) in EM; [exact EM|]. constructor; [apply (small_inv _ _) in EA; [exact EA|lra]|]. constructor; [|constructor; [apply (small_inv _ _) in EN; [exact EN|lra]|constructor]].
    rewrite clampR_id by lra. unfold atanhR. assert (ln ((1 + - (20 / 100)) / (1 - - (20 / 100))) <= 0); [|lra]. replace ((1 + - (20 / 100)) / (1 - - (20 / 100))) with (2 / 3) by field. rewrite <- ln_1. left. apply ln_increasing; lra. }
  assert (C : forall i, nth i (m_x m) 0 <= 1). { intros i. destruct (nth_in_or_default i (m_x m) 0) as [I|D]; [rewrite Forall_forall in X; apply X, I|rewrite D; lra]. }
  destruct (reify_some 1 (m_x m)) as (p & -> & _ & EA' & _ & EN'). rewrite EA', EN'. split; (apply Rle_trans with 3; [apply softplus_small, C|lra]).
Qed.

(** The sample pillar's calibration succeeds, so it meets the hypotheses of every theorem above that speaks of a
    calibration's result. *)
Example C80_witness : (forall m, stage1 (@fsort R_floats) 1 fixed_options sample_pillar = Ok m -> alpha m <= 1000 /\ nu m <= 1000) /\
  exists res, calibrate_time_dependent (@fsort R_floats) [sample_pillar] 1 1 fixed_options = Ok res.
Proof.
  split; [apply sample_small|]. destruct (C80_single (@fsort R_floats) sample_pillar 1 1 fixed_options) as (res & _ & _ & _ & _ & E & _); try (cbn [sample_pillar pt_expiry pt_forward]; lra).
  - apply (@fsort_sorts R_floats R_order).
  - reflexivity.
  - discriminate.
  - cbn [sample_pillar pt_strikes]. intros k [<- |[<- |[<- |[]]]]; lra.
  - cbn. lra.
  - apply sample_small.
  - exists res. exact E.
Qed.
Example C80_strip_witness : exists sort search vd ps surface s, sorts_by sm_expiry sort /\ searches_by sm_expiry search /\ surface_new sort vd ps = Ok surface /\ smile_strip search surface vd 500%Z 1 [9 / 10; 1; 11 / 10] = Ok s.
Proof.
  destruct C44_witness as (surface & NEW & _ & _ & _ & HS & HB). do 4 eexists. exists surface.
  destruct (proj2 (proj2 (C80_strip_domain _ _ _ _ surface 0%Z 500%Z 1 [9 / 10; 1; 11 / 10] HS HB NEW)) ltac:(discriminate) ltac:(reflexivity) ltac:(intros k [<- |[<- |[<- |[]]]]; lra)) as (s & E).
  exists s. split; [exact HS|]. split; [exact HB|]. split; [exact NEW|exact E].
Qed.
