(** Properties C35, C36 and C37: the Black and Bachelier formulas. *)
From Coq Require Import Reals Lra Lia.
From Coquelicot Require Import Coquelicot.
From Verif Require Import Normal NormalFacts BlackScholes BlackFacts.
Open Scope R_scope.

(** ** C35 *)

(** [cdf] is the normal distribution function: it integrates the bell curve and
    runs from zero to one. *)
Theorem C35_normal : (forall x, is_derive cdf x (exp (- (x * x) / 2) / sqrt (2 * PI))) /\
  is_lim cdf m_infty 0 /\ is_lim cdf p_infty 1.
Proof. exact (conj is_derive_cdf (conj is_lim_cdf_m is_lim_cdf_p)). Qed.
Print Assumptions C35_normal.

Theorem C35_parity : forall F K sigma t D,
  bs_call_forward F K sigma t D - bs_put_forward F K sigma t D = D * (F - K).
Proof. exact parity. Qed.
Print Assumptions C35_parity.

(** The prices are the discounted expected payoffs of a lognormal forward. *)
Theorem C35_expectation : forall F K sigma t D, 0 < F -> 0 < K -> 0 < sigma -> 0 < t -> D <> 0 ->
  let S z := F * exp (sigma * sqrt t * z - sigma * sqrt t * (sigma * sqrt t) / 2) in
  let density z := exp (- (z * z) / 2) / sqrt (2 * PI) in
  is_RInt_gen (fun z => Rmax (S z - K) 0 * density z) (Rbar_locally m_infty) (Rbar_locally p_infty)
    (bs_call_forward F K sigma t D / D) /\
  is_RInt_gen (fun z => Rmax (K - S z) 0 * density z) (Rbar_locally m_infty) (Rbar_locally p_infty)
    (bs_put_forward F K sigma t D / D).
Proof.
  intros F K sigma t D HF HK HS HT HD S density. pose proof (sqrt_t_pos sigma t HS HT) as P. split.
  - rewrite call_bval by assumption. replace (D * bval F K (sigma * sqrt t) / D) with (bval F K (sigma * sqrt t)) by (field; exact HD).
    exact (bval_expectation F K _ HF HK P).
  - rewrite put_bval by assumption. replace (D * bval K F (sigma * sqrt t) / D) with (bval K F (sigma * sqrt t)) by (field; exact HD).
    exact (bval_expectation_put F K _ HF HK P).
Qed.
Print Assumptions C35_expectation.

Theorem C35_bounds : forall F K sigma t D, 0 < F -> 0 < K -> 0 < sigma -> 0 < t -> 0 < D ->
  D * Rmax (F - K) 0 < bs_call_forward F K sigma t D < D * F /\
  D * Rmax (K - F) 0 < bs_put_forward F K sigma t D < D * K.
Proof.
  intros F K sigma t D HF HK HS HT HD. pose proof (sqrt_t_pos sigma t HS HT) as P.
  rewrite call_bval, put_bval by assumption.
  repeat split; apply Rmult_lt_compat_l; try assumption; first [apply bval_lower; assumption|apply bval_upper; assumption].
Qed.
Print Assumptions C35_bounds.

(** At or below zero volatility or time the price is intrinsic; it is continuous
    there, and it increases strictly from there, towards the upper bound. *)
Theorem C35_increasing : forall F K t D a b, 0 < F -> 0 < K -> 0 < t -> 0 < D -> 0 < b -> a < b ->
  bs_call_forward F K a t D < bs_call_forward F K b t D /\ bs_put_forward F K a t D < bs_put_forward F K b t D.
Proof.
  intros F K t D a b HF HK HT HD HB L. destruct (Rle_dec a 0) as [A|A].
  - rewrite call_intrinsic, put_intrinsic by (left; exact A). destruct (C35_bounds F K b t D HF HK HB HT HD) as [[? _] [? _]].
    split; assumption.
  - split.
    + apply (pricer_strict F K t D true); lra.
    + apply (pricer_strict F K t D false); lra.
Qed.
Print Assumptions C35_increasing.

(** In the time to expiry as well. *)
Theorem C35_increasing_time : forall F K sigma D a b, 0 < F -> 0 < K -> 0 < sigma -> 0 < D -> 0 < b -> a < b ->
  bs_call_forward F K sigma a D < bs_call_forward F K sigma b D /\
  bs_put_forward F K sigma a D < bs_put_forward F K sigma b D.
Proof.
  intros F K sigma D a b HF HK HS HD HB L. destruct (Rle_dec a 0) as [A|A].
  - rewrite call_intrinsic, put_intrinsic by (right; exact A). destruct (C35_bounds F K sigma b D HF HK HS HB HD) as [[? _] [? _]].
    split; assumption.
  - assert (E : sigma * sqrt a < sigma * sqrt b) by (apply Rmult_lt_compat_l; [exact HS|]; apply sqrt_lt_1_alt; lra).
    pose proof (sqrt_t_pos sigma a HS ltac:(lra)).
    rewrite !call_bval, !put_bval by lra.
    split; apply Rmult_lt_compat_l; try exact HD; apply bval_increasing; assumption.
Qed.
Print Assumptions C35_increasing_time.

Theorem C35_limits : forall F K t D eps, 0 < F -> 0 < K -> 0 < t -> 0 < D -> 0 < eps ->
  (exists delta, 0 < delta /\ forall sigma, sigma < delta ->
     D * Rmax (F - K) 0 <= bs_call_forward F K sigma t D < D * Rmax (F - K) 0 + eps /\
     D * Rmax (K - F) 0 <= bs_put_forward F K sigma t D < D * Rmax (K - F) 0 + eps) /\
  (exists M, 0 < M /\ forall sigma, M < sigma ->
     D * F - eps < bs_call_forward F K sigma t D < D * F /\
     D * K - eps < bs_put_forward F K sigma t D < D * K).
Proof.
  intros F K t D eps HF HK HT HD He. assert (Q : 0 < sqrt t) by (apply sqrt_lt_R0, HT).
  assert (He' : 0 < eps / D) by (apply Rdiv_lt_0_compat; assumption).
  assert (SC : forall x, D * (x + eps / D) = D * x + eps) by (intros; field; lra).
  assert (SC' : forall x, D * (x - eps / D) = D * x - eps) by (intros; field; lra).
  split.
  - destruct (bval_at_0 F K (eps / D) HF HK He') as (d1 & Hd1 & C1).
    destruct (bval_at_0 K F (eps / D) HK HF He') as (d2 & Hd2 & C2).
    exists (Rmin d1 d2 / sqrt t). pose proof (Rmin_l d1 d2). pose proof (Rmin_r d1 d2).
    split; [apply Rdiv_lt_0_compat; [apply Rmin_glb_lt|]; assumption|].
    intros sigma Hs. destruct (Rle_dec sigma 0) as [A|A].
    + rewrite call_intrinsic, put_intrinsic by (left; exact A). repeat split; lra.
    + destruct (C35_bounds F K sigma t D HF HK ltac:(lra) HT HD) as [[B1 _] [B2 _]].
      apply (Rmult_lt_compat_r (sqrt t)) in Hs; [|exact Q]. unfold Rdiv in Hs. rewrite Rmult_assoc, Rinv_l, Rmult_1_r in Hs by lra.
      pose proof (sqrt_t_pos sigma t ltac:(lra) HT) as P.
      split; split; [lra| |lra|].
      * rewrite call_bval, <- SC by lra. apply Rmult_lt_compat_l; [exact HD|]. apply C1; lra.
      * rewrite put_bval, <- SC by lra. apply Rmult_lt_compat_l; [exact HD|]. apply C2; lra.
  - destruct (bval_at_infinity F K (eps / D) HF HK He') as (m1 & Hm1 & C1).
    destruct (bval_at_infinity K F (eps / D) HK HF He') as (m2 & Hm2 & C2).
    exists (Rmax m1 m2 / sqrt t). pose proof (Rmax_l m1 m2). pose proof (Rmax_r m1 m2).
    assert (HM : 0 < Rmax m1 m2 / sqrt t) by (apply Rdiv_lt_0_compat; lra).
    split; [exact HM|]. intros sigma Hs.
    destruct (C35_bounds F K sigma t D HF HK ltac:(lra) HT HD) as [[_ B1] [_ B2]].
    assert (Hs' : Rmax m1 m2 < sigma * sqrt t).
    { apply (Rmult_lt_compat_r (sqrt t)) in Hs; [|exact Q]. unfold Rdiv in Hs. rewrite Rmult_assoc, Rinv_l, Rmult_1_r in Hs by lra. exact Hs. }
    split; split; [|exact B1| |exact B2].
    + rewrite call_bval, <- SC' by lra. apply Rmult_lt_compat_l; [exact HD|]. apply C1; lra.
    + rewrite put_bval, <- SC' by lra. apply Rmult_lt_compat_l; [exact HD|]. apply C2; lra.
Qed.
Print Assumptions C35_limits.

(** The sensitivities. *)
Lemma locally_pos (P : R -> Prop) x : 0 < x -> (forall y, 0 < y -> P y) -> locally x P.
Proof.
  intros Hx H. exists (mkposreal x Hx). intros y Hy. apply H. change (Rabs (y - x) < x) in Hy. apply Rabs_def2 in Hy. lra.
Qed.

Theorem C35_greeks : forall F K sigma t D, 0 < F -> 0 < K -> 0 < sigma -> 0 < t ->
  let d1 := (ln (F / K) + sigma * sigma * t / 2) / (sigma * sqrt t) in
  is_derive (fun F => bs_call_forward F K sigma t D) F (D * cdf d1) /\
  is_derive (fun F => bs_put_forward F K sigma t D) F (- (D * cdf (- d1))) /\
  is_derive (fun K => bs_call_forward F K sigma t D) K (- (D * cdf (d1 - sigma * sqrt t))) /\
  is_derive (fun s => bs_call_forward F K s t D) sigma (D * F * pdf d1 * sqrt t) /\
  is_derive (fun s => bs_put_forward F K s t D) sigma (D * F * pdf d1 * sqrt t).
Proof.
  intros F K sigma t D HF HK HS HT d1. pose proof (sqrt_t_pos sigma t HS HT) as P.
  assert (E : d1 = dplus F K (sigma * sqrt t)).
  { unfold d1, dplus. do 2 f_equal. rewrite <- (sqrt_sqrt t) at 1 by lra. field. }
  assert (DF : is_derive (fun F => bs_call_forward F K sigma t D) F (D * cdf d1)).
  { apply (is_derive_ext (fun G => D * bval G K (sigma * sqrt t))); [intros G; symmetry; apply call_bval; assumption|].
    apply (is_derive_scal (fun G => bval G K (sigma * sqrt t))). rewrite E. apply derive_bval_F; lra. }
  assert (DS : is_derive (fun s => bs_call_forward F K s t D) sigma (D * F * pdf d1 * sqrt t)).
  { apply (is_derive_ext_loc (fun s => D * bval F K (s * sqrt t))).
    { apply locally_pos; [exact HS|]. intros s Hs. symmetry. apply call_bval; assumption. }
    evar_last.
    - apply (is_derive_scal (fun s => bval F K (s * sqrt t))). apply (is_derive_comp (fun u => bval F K u) (fun s => s * sqrt t)).
      + apply derive_bval_s; lra.
      + instantiate (1 := sqrt t). auto_derive; [exact I|ring].
    - unfold scal, mult; cbn; unfold mult; cbn. rewrite E. ring. }
  split; [exact DF|]. split.
  - apply (is_derive_ext (fun G => bs_call_forward G K sigma t D - D * (G - K))).
    { intros G. pose proof (parity G K sigma t D). lra. }
    evar_last.
    + apply (@is_derive_minus R_AbsRing R_NormedModule); [exact DF|].
      instantiate (1 := D). auto_derive; [exact I|ring].
    + unfold minus, plus, opp; cbn. rewrite cdf_opp. ring.
  - split; [|split; [exact DS|]].
    + apply (is_derive_ext (fun k => D * bval F k (sigma * sqrt t))); [intros k; symmetry; apply call_bval; assumption|].
      evar_last; [apply (is_derive_scal (fun k => bval F k (sigma * sqrt t))); apply derive_bval_K; lra|].
      rewrite E. unfold scal, mult; cbn; unfold mult; cbn. ring.
    + apply (is_derive_ext (fun s => bs_call_forward F K s t D - D * (F - K))).
      { intros s. pose proof (parity F K s t D). lra. }
      evar_last.
      * apply (@is_derive_minus R_AbsRing R_NormedModule); [exact DS|apply @is_derive_const].
      * unfold minus, plus, opp, zero; cbn. ring.
Qed.
Print Assumptions C35_greeks.

(** The pricer of the FX option module is the same formula in total variance. *)
Theorem C35_same_formula : forall F K sigma t D,
  0 < t -> 0 <= sigma ->
  black_scholes F K (sigma * sigma * t) D Call = bs_call_forward F K sigma t D /\
  black_scholes F K (sigma * sigma * t) D Put = bs_put_forward F K sigma t D.
Proof.
  intros F K sigma t D HT HS. destruct HS as [HS|<-].
  - assert (V : 0 < sigma * sigma * t) by (repeat apply Rmult_lt_0_compat; assumption).
    assert (Q : sqrt (sigma * sigma * t) = sigma * sqrt t) by (rewrite sqrt_mult, sqrt_square by nra; reflexivity).
    unfold black_scholes, bs_call_forward, bs_put_forward, omega.
    destruct (Rle_dec (sigma * sigma * t) 0); [lra|]. destruct (Rle_dec sigma 0); [lra|]. destruct (Rle_dec t 0); [lra|].
    cbv zeta. rewrite Q. replace (1 / 2 * (sigma * sigma * t)) with (1 / 2 * sigma * sigma * t) by ring.
    set (d := (ln (F / K) + 1 / 2 * sigma * sigma * t) / (sigma * sqrt t)). split.
    + rewrite !Rmult_1_l. ring.
    + replace (-1 * d) with (- d) by ring. replace (-1 * (d - sigma * sqrt t)) with (- (d - sigma * sqrt t)) by ring. ring.
  - rewrite call_intrinsic, put_intrinsic by (left; lra). unfold black_scholes.
    destruct (Rle_dec (0 * 0 * t) 0) as [_|N]; [split; reflexivity|lra].
Qed.
Print Assumptions C35_same_formula.

Example C35_witness : bs_call_forward 100 100 (1 / 5) 1 (9 / 10) = 90 * (2 * cdf (1 / 10) - 1) /\
  1 / 2 < cdf (1 / 10) < 1.
Proof.
  split.
  - unfold bs_call_forward. destruct (Rle_dec (1 / 5) 0); [lra|]. destruct (Rle_dec 1 0); [lra|]. cbv zeta.
    rewrite sqrt_1. replace (100 / 100) with 1 by field. rewrite ln_1.
    replace ((0 + 1 / 2 * (1 / 5) * (1 / 5) * 1) / (1 / 5 * 1)) with (1 / 10) by field.
    replace (1 / 10 - 1 / 5 * 1) with (- (1 / 10)) by field. rewrite cdf_opp. field.
  - split; [rewrite <- cdf_0; apply cdf_increasing; lra|apply cdf_bounds].
Qed.

(** ** C36 *)
Definition price (call : bool) (F K sigma t D : R) : R :=
  if call then bs_call_forward F K sigma t D else bs_put_forward F K sigma t D.

(** Whatever is returned reprices within tolerance, or is the middle of a window
    narrower than 1e-12 that brackets the target (up to the ends of the search
    range). *)
Theorem C36_result : forall target F K t D call tol r,
  bs_implied_vol_tol target F K t D call tol = Some r ->
  / 10 ^ 8 <= r <= 5 /\
  (Rabs (price call F K r t D - target) < tol \/
   exists a b, b - a < / 10 ^ 12 /\ / 10 ^ 8 <= a <= r /\ r <= b <= 5 /\
     (price call F K a t D <= target \/ (a = / 10 ^ 8 /\ price call F K a t D <= target + tol)) /\
     (target <= price call F K b t D \/ (b = 5 /\ target <= price call F K b t D + tol))).
Proof.
  intros target F K t D call tol r. unfold bs_implied_vol_tol. fold (price call F K (/ 10 ^ 8) t D) (price call F K 5 t D).
  destruct (Rlt_dec _ _) as [|L1]; [discriminate|]. destruct (Rlt_dec _ _) as [|L2]; [discriminate|].
  intros E. apply (f_equal (fun o => match o with Some x => x | None => 0 end)) in E. cbv beta iota in E.
  pose proof window_200 as W. assert (L : / 10 ^ 8 <= 5).
  { apply Rle_trans with (/ 1); [|lra]. apply Rinv_le_contravar; [lra|]. apply pow_R1_Rle. lra. }
  pose proof (bisect_spec (fun sigma => price call F K sigma t D) target tol 200 _ _ L W) as S. cbv zeta in S.
  change (bisect 200 (fun sigma => price call F K sigma t D) target tol (/ 10 ^ 8) 5 = r) in E. rewrite E in S. destruct S as [B S]. split; [exact B|].
  destruct S as [S|(a & b & Ha & Hb & Hw & Ca & Cb & _)]; [left; exact S|right].
  exists a, b. split; [exact Hw|]. split; [exact Ha|]. split; [exact Hb|]. split.
  - destruct Ca as [->|Ca]; [right; split; [reflexivity|]|left; lra].
    lra.
  - destruct Cb as [->|Cb]; [right; split; [reflexivity|]|left; lra].
    lra.
Qed.
Print Assumptions C36_result.

(** A price from inside the bracket is inverted. *)
Theorem C36_inverts : forall F K t D call tol sigma, 0 < F -> 0 < K -> 0 < t -> 0 < D -> 0 < tol ->
  / 10 ^ 8 <= sigma <= 5 ->
  exists r, bs_implied_vol_tol (price call F K sigma t D) F K t D call tol = Some r /\
    (Rabs (price call F K r t D - price call F K sigma t D) < tol \/ Rabs (r - sigma) < / 10 ^ 12).
Proof.
  intros F K t D call tol sigma HF HK HT HD Htol Hs.
  assert (P0 : 0 < / 10 ^ 8) by (apply Rinv_0_lt_compat, pow_lt; lra).
  assert (MI : forall a b, 0 < a -> a < b -> price call F K a t D < price call F K b t D).
  { intros a b Ha L. apply pricer_strict; assumption. }
  assert (ML : forall a b, 0 < a -> a <= b -> price call F K a t D <= price call F K b t D).
  { intros a b Ha [L| ->]; [left; apply MI; assumption|lra]. }
  destruct (bs_implied_vol_tol (price call F K sigma t D) F K t D call tol) as [r|] eqn:E.
  - exists r. split; [reflexivity|]. destruct (C36_result _ _ _ _ _ _ _ _ E) as [B [S|(a & b & Hw & Ha & Hb & Ca & Cb)]]; [left; exact S|right].
    assert (a <= sigma).
    { destruct Ca as [Ca|[-> _]]; [|lra]. destruct (Rle_dec a sigma) as [L|L]; [exact L|].
      pose proof (MI sigma a ltac:(lra) ltac:(lra)). lra. }
    assert (sigma <= b).
    { destruct Cb as [Cb|[-> _]]; [|lra]. destruct (Rle_dec sigma b) as [L|L]; [exact L|].
      pose proof (MI b sigma ltac:(lra) ltac:(lra)). lra. }
    apply Rabs_def1; lra.
  - exfalso. unfold bs_implied_vol_tol in E. fold (price call F K (/ 10 ^ 8) t D) (price call F K 5 t D) in E.
    cbv zeta in E.
    pose proof (ML (/ 10 ^ 8) sigma P0 ltac:(lra)). pose proof (ML sigma 5 ltac:(lra) ltac:(lra)).
    destruct (Rlt_dec _ _) as [L|_] in E; [lra|]. destruct (Rlt_dec _ _) as [L|_] in E; [lra|discriminate].
Qed.
Print Assumptions C36_inverts.

(** [None] exactly when the target misses the prices at the ends of the bracket by
    more than the tolerance; in particular always below intrinsic value less the
    tolerance and above the upper bound plus the tolerance. *)
Theorem C36_none : forall target F K t D call tol, 0 < F -> 0 < K -> 0 < t -> 0 < D -> 0 < tol ->
  (bs_implied_vol_tol target F K t D call tol = None <->
   target < price call F K (/ 10 ^ 8) t D - tol \/ price call F K 5 t D + tol < target) /\
  (target <= D * Rmax (if call then F - K else K - F) 0 - tol \/ D * (if call then F else K) + tol <= target ->
   bs_implied_vol_tol target F K t D call tol = None).
Proof.
  intros target F K t D call tol HF HK HT HD Htol.
  assert (P0 : 0 < / 10 ^ 8) by (apply Rinv_0_lt_compat, pow_lt; lra).
  assert (I : bs_implied_vol_tol target F K t D call tol = None <->
    target < price call F K (/ 10 ^ 8) t D - tol \/ price call F K 5 t D + tol < target).
  { unfold bs_implied_vol_tol. fold (price call F K (/ 10 ^ 8) t D) (price call F K 5 t D). cbv zeta.
    destruct (Rlt_dec _ _) as [L|L]; [split; [left; exact L|reflexivity]|].
    destruct (Rlt_dec _ _) as [L'|L']; [split; [right; exact L'|reflexivity]|].
    split; [discriminate|intros [?|?]; contradiction]. }
  split; [exact I|]. intros H. apply I.
  destruct (C35_bounds F K (/ 10 ^ 8) t D HF HK P0 HT HD) as [[B1 _] [B2 _]].
  destruct (C35_bounds F K 5 t D HF HK ltac:(lra) HT HD) as [[_ B3] [_ B4]].
  unfold price. destruct call; destruct H as [H|H]; [left|right|left|right]; lra.
Qed.
Print Assumptions C36_none.

(** "[None] only outside the no-arbitrage bounds" is false: a volatility above five
    has a price strictly between the bounds and is not found. *)
Theorem C36_none_refuted :
  ~ (forall target F K t D call, 0 < F -> 0 < K -> 0 < t -> 0 < D ->
     bs_implied_vol target F K t D call = None ->
     target <= D * Rmax (if call then F - K else K - F) 0 \/ D * (if call then F else K) <= target).
Proof.
  intros H.
  assert (P8 : 0 < / 10 ^ 8) by (apply Rinv_0_lt_compat, pow_lt; lra).
  destruct (C35_bounds 1 1 5 1 1 ltac:(lra) ltac:(lra) ltac:(lra) ltac:(lra) ltac:(lra)) as [[L U] _].
  set (c := bs_call_forward 1 1 5 1 1) in *.
  assert (Hgap : 0 < 1 - c) by lra.
  set (e := / 10 ^ 8) in *. set (D := 4 * e / (1 - c)).
  assert (HD : 0 < D) by (unfold D; apply Rdiv_lt_0_compat; lra).
  assert (ED : D - D * c = 4 * e) by (unfold D; field; lra).
  assert (EC : bs_call_forward 1 1 5 1 D = D * c).
  { unfold c. rewrite !call_bval by lra. ring. }
  assert (L0 : Rmax (1 - 1) 0 = 0) by (rewrite Rmax_left; lra). rewrite L0, Rmult_0_r in L.
  assert (0 < D * c) by (apply Rmult_lt_0_compat; lra).
  specialize (H (D * c + 2 * e) 1 1 1 D true ltac:(lra) ltac:(lra) ltac:(lra) HD).
  destruct H as [H|H].
  - apply (proj1 (C36_none (D * c + 2 * e) 1 1 1 D true e ltac:(lra) ltac:(lra) ltac:(lra) HD P8)). right.
    unfold price. rewrite EC. lra.
  - rewrite L0 in H. lra.
  - lra.
Qed.
Print Assumptions C36_none_refuted.

(** What holds: a target strictly inside the bounds has exactly one volatility,
    and [None] means that it is outside the bracket. *)
Theorem C36_none_partial : forall target F K t D (call : bool) tol, 0 < F -> 0 < K -> 0 < t -> 0 < D -> 0 < tol ->
  D * Rmax (if call then F - K else K - F) 0 < target < D * (if call then F else K) ->
  exists sigma, 0 < sigma /\ price call F K sigma t D = target /\
    (forall s, 0 < s -> price call F K s t D = target -> s = sigma) /\
    (bs_implied_vol_tol target F K t D call tol = None -> sigma < / 10 ^ 8 \/ 5 < sigma).
Proof.
  intros target F K t D call tol HF HK HT HD Htol [L U].
  assert (Q : 0 < sqrt t) by (apply sqrt_lt_R0, HT).
  assert (P0 : 0 < / 10 ^ 8) by (apply Rinv_0_lt_compat, pow_lt; lra).
  assert (X : exists sigma, 0 < sigma /\ price call F K sigma t D = target).
  { assert (EX : exists s, 0 < s /\ (if call then bval F K s else bval K F s) = target / D).
    { assert (T1 : Rmax (if call then F - K else K - F) 0 < target / D).
      { apply (Rmult_lt_reg_l D); [exact HD|]. replace (D * (target / D)) with target by (field; lra). exact L. }
      assert (T2 : target / D < (if call then F else K)).
      { apply (Rmult_lt_reg_l D); [exact HD|]. replace (D * (target / D)) with target by (field; lra). exact U. }
      destruct call; apply bval_onto; try assumption; split; assumption. }
    destruct EX as (s & Hs & Es). exists (s / sqrt t). assert (Hst : 0 < s / sqrt t) by (apply Rdiv_lt_0_compat; assumption).
    split; [exact Hst|]. unfold price. destruct call; [rewrite call_bval by assumption|rewrite put_bval by assumption];
      replace (s / sqrt t * sqrt t) with s by (field; lra); rewrite Es; field; lra. }
  destruct X as (sigma & Hs & Es). exists sigma. split; [exact Hs|]. split; [exact Es|]. split.
  - intros s Hs' E'. destruct (Rtotal_order s sigma) as [C|[C|C]]; [|exact C|].
    + pose proof (pricer_strict F K t D call s sigma HF HK HT HD Hs' C) as M. fold (price call F K s t D) (price call F K sigma t D) in M. lra.
    + pose proof (pricer_strict F K t D call sigma s HF HK HT HD Hs C) as M. fold (price call F K s t D) (price call F K sigma t D) in M. lra.
  - intros N. destruct (Rlt_dec sigma (/ 10 ^ 8)) as [C|C]; [left; exact C|]. destruct (Rlt_dec 5 sigma) as [C'|C']; [right; exact C'|].
    destruct (C36_inverts F K t D call tol sigma HF HK HT HD Htol ltac:(lra)) as (r & Er & _). rewrite Es in Er. congruence.
Qed.
Print Assumptions C36_none_partial.

Example C36_witness : exists r, bs_implied_vol (price true 100 100 (1 / 5) 1 (9 / 10)) 100 100 1 (9 / 10) true = Some r /\
  90 * (2 * cdf (1 / 10) - 1) = price true 100 100 (1 / 5) 1 (9 / 10).
Proof.
  assert (0 < / 10 ^ 8) by (apply Rinv_0_lt_compat, pow_lt; lra).
  assert (/ 10 ^ 8 <= 1 / 5) by (cbn [pow]; lra).
  destruct (C36_inverts 100 100 1 (9 / 10) true (/ 10 ^ 8) (1 / 5)) as (r & E & _); try lra.
  exists r. split; [exact E|]. symmetry. apply C35_witness.
Qed.

(** ** C37 *)
Theorem C37_parity : forall F K V, bachelier_call F K V - bachelier_put F K V = F - K.
Proof. exact bparity. Qed.
Print Assumptions C37_parity.

(** The prices are the expected payoffs of a normal forward. *)
Theorem C37_expectation : forall F K V, 0 < V ->
  let S z := F + sqrt V * z in
  let density z := exp (- (z * z) / 2) / sqrt (2 * PI) in
  is_RInt_gen (fun z => Rmax (S z - K) 0 * density z) (Rbar_locally m_infty) (Rbar_locally p_infty) (bachelier_call F K V) /\
  is_RInt_gen (fun z => Rmax (K - S z) 0 * density z) (Rbar_locally m_infty) (Rbar_locally p_infty) (bachelier_put F K V).
Proof. intros F K V HV. exact (conj (bcall_expectation F K V HV) (bput_expectation F K V HV)). Qed.
Print Assumptions C37_expectation.

Theorem C37_intrinsic : forall F K V,
  Rmax (F - K) 0 <= bachelier_call F K V /\ Rmax (K - F) 0 <= bachelier_put F K V /\
  (0 < V -> Rmax (F - K) 0 < bachelier_call F K V /\ Rmax (K - F) 0 < bachelier_put F K V).
Proof.
  intros F K V. pose proof (bparity F K V) as P.
  assert (S : 0 < V -> Rmax (F - K) 0 < bachelier_call F K V /\ Rmax (K - F) 0 < bachelier_put F K V).
  { intros HV. pose proof (bcall_pos F K V HV). pose proof (bcall_above F K V HV).
    split; unfold Rmax; destruct (Rle_dec _ _); lra. }
  destruct (Rle_dec V 0) as [N|N].
  - unfold bachelier_call, bachelier_put. destruct (Rle_dec V 0); [|lra]. repeat split; lra.
  - destruct (S ltac:(lra)). repeat split; lra.
Qed.
Print Assumptions C37_intrinsic.

Theorem C37_increasing : forall F K V W, 0 < W -> V < W ->
  bachelier_call F K V < bachelier_call F K W /\ bachelier_put F K V < bachelier_put F K W.
Proof.
  intros F K V W HW L. assert (C : bachelier_call F K V < bachelier_call F K W).
  - destruct (Rle_dec V 0) as [N|N].
    + unfold bachelier_call at 1. destruct (Rle_dec V 0); [|lra]. apply C37_intrinsic. exact HW.
    + apply (increasing_of_derive (fun V => bachelier_call F K V) (fun V => bachelier_vega_variance F K V) V W L).
      * intros x X. apply derive_bcall_V. lra.
      * intros x X. unfold bachelier_vega_variance. destruct (Rle_dec x 0); [lra|]. cbv zeta.
        apply Rdiv_lt_0_compat; [apply pdf_pos|]. pose proof (sqrt_lt_R0 x ltac:(lra)). lra.
  - split; [exact C|]. pose proof (bparity F K V). pose proof (bparity F K W). lra.
Qed.
Print Assumptions C37_increasing.

Theorem C37_greeks : forall F K V, 0 < V ->
  is_derive (fun V => bachelier_call F K V) V (bachelier_vega_variance F K V) /\
  is_derive (fun V => bachelier_put F K V) V (bachelier_vega_variance F K V) /\
  is_derive (fun F => bachelier_call F K V) F (cdf ((F - K) / sqrt V)) /\
  is_derive (fun F => bachelier_put F K V) F (- cdf (- ((F - K) / sqrt V))).
Proof.
  intros F K V HV. pose proof (derive_bcall_V F K V HV) as DV. pose proof (derive_bcall_F F K V HV) as DF.
  split; [exact DV|]. split; [|split; [exact DF|]].
  - apply (is_derive_ext (fun W => bachelier_call F K W - (F - K))).
    { intros W. pose proof (bparity F K W). lra. }
    evar_last; [apply (@is_derive_minus R_AbsRing R_NormedModule); [exact DV|apply @is_derive_const]|].
    unfold minus, plus, opp, zero; cbn. ring.
  - apply (is_derive_ext (fun G => bachelier_call G K V - (G - K))).
    { intros G. pose proof (bparity G K V). lra. }
    evar_last; [apply (@is_derive_minus R_AbsRing R_NormedModule); [exact DF|instantiate (1 := 1); auto_derive; [exact I|ring]]|].
    unfold minus, plus, opp; cbn. rewrite cdf_opp. ring.
Qed.
Print Assumptions C37_greeks.

(** The usual vega in [sigma], with [V = sigma^2 t]. *)
Theorem C37_vega_sigma : forall F K sigma t, 0 < sigma -> 0 < t ->
  is_derive (fun s => bachelier_call F K (s * s * t)) sigma (2 * sigma * t * bachelier_vega_variance F K (sigma * sigma * t)).
Proof.
  intros F K sigma t HS HT.
  assert (HV : 0 < sigma * sigma * t) by (repeat apply Rmult_lt_0_compat; assumption).
  evar_last.
  - apply (is_derive_comp (fun V => bachelier_call F K V) (fun s => s * s * t)); [apply derive_bcall_V, HV|].
    instantiate (1 := 2 * sigma * t). auto_derive; [exact I|ring].
  - unfold scal; cbn; unfold mult; cbn. ring.
Qed.
Print Assumptions C37_vega_sigma.

Example C37_witness : bachelier_call 3 1 4 = 2 * pdf 1 + 2 * cdf 1 /\ bachelier_put 3 1 4 = 2 * pdf 1 - 2 * cdf (-1) /\ 0 < 4.
Proof.
  assert (Q : sqrt 4 = 2) by (replace 4 with (2 * 2) by ring; apply sqrt_square; lra).
  unfold bachelier_call, bachelier_put. destruct (Rle_dec 4 0); [lra|]. cbv zeta. rewrite Q.
  replace ((3 - 1) / 2) with 1 by field. replace (Ropp (IZR 1)) with (-1) by ring. repeat split; lra.
Qed.
