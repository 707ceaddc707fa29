(** Facts about the calibrator of the time-dependent SABR model. *)
From Coq Require Import Bool List Arith ZArith Reals Lra Lia Psatz.
Import ListNotations.
From Verif Require Import Outcome Date ForwardPoints YieldCurve VolSurface VolFacts NelderMead P_NelderMead Processes ProcessFacts SabrSmile SabrEffective SabrEffectiveFacts P_SabrEffective SmileFit SmileFitFacts SabrCalibrator P_SabrCalibrator TdCalibrator.
Open Scope R_scope.

Ltac rb := unfold Rltb, Rleb in *; repeat match goal with
  | H : context [if ?d then true else false] |- _ => destruct d; cbn [negb andb orb] in H
  | |- context [if ?d then true else false] => destruct d; cbn [negb andb orb] end.
Ltac ob H x E := apply obind_Ok in H as (x & E & H).

Lemma Rltb_true x y : Rltb x y = true <-> x < y.
Proof. unfold Rltb. destruct (Rlt_dec x y); split; intros; auto; discriminate. Qed.
Lemma Rleb_true x y : Rleb x y = true <-> x <= y.
Proof. unfold Rleb. destruct (Rle_dec x y); split; intros; auto; discriminate. Qed.

(** *** The bracket and the bisection *)
Lemma root_loop_spec f tol : forall n lo hi x, root_loop n f lo hi tol = Ok x -> lo <= hi -> (exists v, f lo = Ok v /\ v <= 0) -> (exists v, f hi = Ok v /\ 0 <= v) ->
  lo <= x <= hi /\ ((exists v, f x = Ok v /\ Rabs v < tol) \/
  exists a b va vb, lo <= a <= x /\ x <= b <= hi /\ f a = Ok va /\ f b = Ok vb /\ va <= 0 <= vb /\ (b - a < tol \/ b - a = (hi - lo) / 2 ^ n)).
Proof.
  induction n as [|n IH]; intros lo hi x H LE (vl & FL & VL) (vh & FH & VH); cbn [root_loop] in H.
  - assert (x = 1 / 2 * (lo + hi)) as -> by congruence. split; [lra|]. right. exists lo, hi, vl, vh. do 2 (split; [lra|]). do 2 (split; [assumption|]). split; [lra|]. right. cbn. lra.
  - cbv zeta in H. ob H v FM. set (mid := 1 / 2 * (lo + hi)) in *. assert (M : lo <= mid <= hi) by (unfold mid; lra).
    destruct (Rltb (Rabs v) tol) eqn:E1; cbn [orb] in H.
    { apply Rltb_true in E1. assert (x = mid) as -> by congruence. split; [lra|]. left. exists v. split; assumption. }
    destruct (Rltb (hi - lo) tol) eqn:E2.
    { apply Rltb_true in E2. assert (x = mid) as -> by congruence. split; [lra|]. right. exists lo, hi, vl, vh. do 2 (split; [lra|]). do 2 (split; [assumption|]). split; [lra|]. left. exact E2. }
    destruct (Rltb v 0) eqn:E3.
    + apply Rltb_true in E3. destruct (IH mid hi x H ltac:(lra)) as (BX & D); [exists v; split; [exact FM|lra]|exists vh; split; assumption|]. split; [lra|].
      destruct D as [D|(a & b & va & vb & A & B & FA & FB & S & W)]; [left; exact D|]. right. exists a, b, va, vb. split; [lra|]. split; [lra|]. repeat (split; [assumption|]). destruct W as [W|W]; [left; exact W|].
      right. rewrite W. unfold mid. cbn [pow]. field. apply pow_nonzero. lra.
    + assert (0 <= v) by (unfold Rltb in E3; destruct (Rlt_dec v 0); [discriminate|lra]). destruct (IH lo mid x H ltac:(lra)) as (BX & D); [exists vl; split; assumption|exists v; split; assumption|]. split; [lra|].
      destruct D as [D|(a & b & va & vb & A & B & FA & FB & S & W)]; [left; exact D|]. right. exists a, b, va, vb. split; [lra|]. split; [lra|]. repeat (split; [assumption|]). destruct W as [W|W]; [left; exact W|].
      right. rewrite W. unfold mid. cbn [pow]. field. apply pow_nonzero. lra.
Qed.

Lemma widen_to_spec f : forall n hi v h w, f hi = Ok v -> widen_to n f hi v = Ok (h, w) -> 0 <= hi -> f h = Ok w /\ hi <= h <= hi * 2 ^ n.
Proof.
  induction n as [|n IH]; intros hi v h w F H P; cbn [widen_to] in H; [assert (h = hi /\ w = v) as [-> ->] by (split; congruence); cbn; split; [exact F|lra]|].
  destruct (Rltb v 0).
  - cbv zeta in H. ob H v' F'. destruct (IH _ _ _ _ F' H ltac:(lra)) as (E & B). split; [exact E|]. cbn [pow]. lra.
  - assert (h = hi /\ w = v) as [-> ->] by (split; congruence). split; [exact F|]. assert (1 <= 2 ^ S n) by (apply pow_R1_Rle; lra). nra.
Qed.

(** What the search returns: a value where the function is within 1e-10 of zero, or one that lies between
    two close points where the function has opposite signs, or the lower end where it is positive. *)
Definition hits (g : R -> outcome R) (target hi x : R) : Prop :=
  / 10 ^ 6 <= x <= hi * 2 ^ 20 /\
  ((exists v, g x = Ok v /\ Rabs (v - target) < / 10 ^ 10) \/
   (exists a b va vb, / 10 ^ 6 <= a <= x /\ x <= b /\ b - a <= / 10 ^ 10 + hi / 2 ^ 60 /\ g a = Ok va /\ g b = Ok vb /\ va <= target <= vb) \/
   (x = / 10 ^ 6 /\ exists v, g x = Ok v /\ target < v)).

Lemma segment_hits f g target hi x : / 10 ^ 6 <= hi -> (forall y u, f y = Ok u -> exists z, g y = Ok z /\ u = z - target) -> segment_value f hi = Ok x -> hits g target hi x.
Proof.
  intros HI OPEN H. unfold segment_value in H. cbv zeta in H. ob H v F. ob H hw W. destruct hw as [h w].
  assert (E6 : 0 < / 10 ^ 6) by (apply Rinv_0_lt_compat, pow_lt; lra). destruct (widen_to_spec f 20 hi v h w F W ltac:(lra)) as (FH & B).
  destruct (Rleb 0 w) eqn:EW; cbn [negb] in H; [|discriminate]. apply Rleb_true in EW. unfold root in H. ob H vl FL. ob H vh FH'. assert (vh = w) as -> by congruence.
  destruct (Rltb 0 vl) eqn:EL.
  { apply Rltb_true in EL. assert (x = / 10 ^ 6) as -> by congruence. destruct (OPEN _ _ FL) as (z & G & ->). split; [lra|]. right. right. split; [reflexivity|]. exists z. split; [exact G|lra]. }
  assert (vl <= 0) by (unfold Rltb in EL; destruct (Rlt_dec 0 vl); [discriminate|lra]). destruct (Rltb w 0) eqn:EH; [apply Rltb_true in EH; lra|].
  destruct (root_loop_spec f (/ 10 ^ 10) 80 (/ 10 ^ 6) h x H ltac:(lra)) as (BX & D); [exists vl; split; assumption|exists w; split; assumption|]. split; [lra|].
  destruct D as [(u & FX & U)|(a & b & va & vb & A & BB & FA & FB & S & WD)].
  - destruct (OPEN _ _ FX) as (z & G & ->). left. exists z. split; assumption.
  - right. left. destruct (OPEN _ _ FA) as (za & GA & ->). destruct (OPEN _ _ FB) as (zb & GB & ->). exists a, b, za, zb. split; [lra|]. split; [lra|]. split; [|repeat split; try assumption; lra].
    assert (P60 : 0 < 2 ^ 60) by (apply pow_lt; lra). assert (0 < / 10 ^ 10) by (apply Rinv_0_lt_compat, pow_lt; lra). assert (0 <= hi / 2 ^ 60) by (unfold Rdiv; apply Rmult_le_pos; [lra|left; apply Rinv_0_lt_compat; exact P60]).
    destruct WD as [WD|WD]; [lra|]. assert ((h - / 10 ^ 6) / 2 ^ 80 <= hi / 2 ^ 60); [|lra].
    replace (2 ^ 80) with (2 ^ 20 * 2 ^ 60) by (rewrite <- pow_add; reflexivity). apply (Rmult_le_reg_r (2 ^ 20 * 2 ^ 60)); [apply Rmult_lt_0_compat; apply pow_lt; lra|].
    replace ((h - / 10 ^ 6) / (2 ^ 20 * 2 ^ 60) * (2 ^ 20 * 2 ^ 60)) with (h - / 10 ^ 6) by (field; split; apply pow_nonzero; lra). replace (hi / 2 ^ 60 * (2 ^ 20 * 2 ^ 60)) with (hi * 2 ^ 20) by (field; apply pow_nonzero; lra). lra.
Qed.

Lemma root_loop_total f tol : forall n lo hi, lo <= hi -> (forall x, lo <= x <= hi -> exists v, f x = Ok v) -> exists x, root_loop n f lo hi tol = Ok x /\ lo <= x <= hi.
Proof.
  induction n as [|n IH]; intros lo hi LE T; cbn [root_loop]; [eexists; split; [reflexivity|lra]|]. cbv zeta. set (mid := 1 / 2 * (lo + hi)). assert (M : lo <= mid <= hi) by (unfold mid; lra).
  destruct (T mid M) as (v & ->). cbn [obind]. destruct (Rltb (Rabs v) tol || Rltb (hi - lo) tol); [eexists; split; [reflexivity|lra]|]. destruct (Rltb v 0).
  - destruct (IH mid hi ltac:(lra)) as (x & -> & B); [intros x X; apply T; lra|]. eexists. split; [reflexivity|lra].
  - destruct (IH lo mid ltac:(lra)) as (x & -> & B); [intros x X; apply T; lra|]. eexists. split; [reflexivity|lra].
Qed.
Lemma segment_total f hi v : / 10 ^ 6 <= hi -> (forall x, / 10 ^ 6 <= x <= hi -> exists v, f x = Ok v) -> f hi = Ok v -> 0 <= v -> exists x, segment_value f hi = Ok x /\ / 10 ^ 6 <= x <= hi.
Proof.
  intros HI T FH V. unfold segment_value. cbv zeta. rewrite FH. cbn [obind widen_to]. assert (EV : Rltb v 0 = false) by (unfold Rltb; destruct (Rlt_dec v 0); [lra|reflexivity]). rewrite EV. cbn [obind].
  rewrite (proj2 (Rleb_true 0 v) V). cbn [negb]. unfold root. destruct (T (/ 10 ^ 6) ltac:(lra)) as (u & ->). cbn [obind]. rewrite FH. cbn [obind]. destruct (Rltb 0 u); [eexists; split; [reflexivity|lra]|]. rewrite EV. apply root_loop_total; assumption.
Qed.

(** *** Prefixes *)
Lemma slice_to_ok n l l' : slice_to n l = Ok l' -> (n <= length l)%nat /\ l' = firstn n l.
Proof. unfold slice_to. destruct (Nat.leb_spec n (length l)); intros E; [split; [assumption|congruence]|discriminate]. Qed.
Lemma upto_ok ks i vs s : upto ks i vs = Ok s -> s = {| knots := firstn (S (S i)) ks; values := vs |} /\ schedule_new (firstn (S (S i)) ks) vs = Ok s /\ (S i < length ks)%nat /\ length vs = S i.
Proof.
  unfold upto. intros H. ob H k E. apply slice_to_ok in E as (L & ->). pose proof (proj1 (C55_new _ _ _) H) as (-> & _ & L2 & _). split; [reflexivity|]. split; [exact H|]. split; [lia|]. rewrite firstn_length in L2. lia.
Qed.
Lemma firstn_snoc_nth {A} (l : list A) i x : nth_error l i = Some x -> firstn (S i) l = firstn i l ++ [x].
Proof. revert i. induction l as [|a l IH]; intros [|i] E; cbn in E; try discriminate; [injection E as <-; reflexivity|]. change (a :: firstn (S i) l = a :: (firstn i l ++ [x])). rewrite (IH i E). reflexivity. Qed.

Lemma stage2_spec ks : forall l nus0 nus, stage2 ks l nus0 = Ok nus -> exists new, nus = nus0 ++ new /\ length new = length l /\
  forall j e m, nth_error l j = Some (e, m) -> let i := (length nus0 + j)%nat in exists x, nth_error nus i = Some x /\
    hits (fun y => effective_vol_vol {| knots := firstn (S (S i)) ks; values := firstn i nus ++ [y] |} {| knots := firstn (S (S i)) ks; values := repeat (alpha m) (S i) |} e) (nu m) (Rmax (nu m * 2) (1 / 10)) x.
Proof.
  induction l as [|[e m] l IH]; intros nus0 nus H; cbn [stage2] in H; cbv zeta in H.
  - assert (nus = nus0) as -> by congruence. exists []. rewrite app_nil_r. split; [reflexivity|]. split; [reflexivity|]. intros [|j] e m E; discriminate.
  - ob H om EO. ob H x EX. destruct (IH _ _ H) as (new & E & L & N). exists (x :: new). split; [rewrite E, <- app_assoc; reflexivity|]. split; [cbn; f_equal; exact L|].
    apply upto_ok in EO as (-> & _ & LK & _).
    intros [|j] e' m' Ej; cbn [nth_error] in Ej.
    + assert (e' = e /\ m' = m) as [-> ->] by (split; congruence). cbv zeta. rewrite Nat.add_0_r. exists x. split; [rewrite E, <- app_assoc, nth_error_app2, Nat.sub_diag by lia; reflexivity|].
      rewrite E, <- app_assoc, firstn_app, Nat.sub_diag, firstn_all. cbn [firstn]. rewrite app_nil_r.
      assert (HI : / 10 ^ 6 <= Rmax (nu m * 2) (1 / 10)) by (pose proof (Rmax_r (nu m * 2) (1 / 10)); lra).
      revert EX. apply segment_hits; [exact HI|]. intros y u Q. ob Q s ES. ob Q z EZ. apply upto_ok in ES as (-> & _). exists z. split; [exact EZ|congruence].
    + destruct (N j e' m' Ej) as (x' & Ex' & HX). cbv zeta in *. rewrite app_length in Ex', HX. cbn [length] in Ex', HX. replace (length nus0 + S j)%nat with (length nus0 + 1 + j)%nat by lia. exists x'. split; assumption.
Qed.

Lemma stage3_spec ks nus : forall l als0 als, stage3 ks nus l als0 = Ok als -> exists new, als = als0 ++ new /\ length new = length l /\
  forall j e m, nth_error l j = Some (e, m) -> let i := (length als0 + j)%nat in exists x, nth_error als i = Some x /\
    hits (fun y => effective_term_structure {| knots := firstn (S (S i)) ks; values := firstn (S i) nus |} {| knots := firstn (S (S i)) ks; values := firstn i als ++ [y] |} e) (alpha m) (Rmax (alpha m * 4) (1 / 2)) x.
Proof.
  induction l as [|[e m] l IH]; intros als0 als H; cbn [stage3] in H; cbv zeta in H.
  - assert (als = als0) as -> by congruence. exists []. rewrite app_nil_r. split; [reflexivity|]. split; [reflexivity|]. intros [|j] e m E; discriminate.
  - ob H ns EN. ob H om EO. ob H x EX. destruct (IH _ _ H) as (new & E & L & N). exists (x :: new). split; [rewrite E, <- app_assoc; reflexivity|]. split; [cbn; f_equal; exact L|].
    apply slice_to_ok in EN as (LN & ->). apply upto_ok in EO as (-> & _ & LK & _).
    intros [|j] e' m' Ej; cbn [nth_error] in Ej.
    + assert (e' = e /\ m' = m) as [-> ->] by (split; congruence). cbv zeta. rewrite Nat.add_0_r. exists x. split; [rewrite E, <- app_assoc, nth_error_app2, Nat.sub_diag by lia; reflexivity|].
      rewrite E, <- app_assoc, (firstn_app (length als0) als0), Nat.sub_diag, firstn_all. cbn [firstn]. rewrite app_nil_r.
      assert (HI : / 10 ^ 6 <= Rmax (alpha m * 4) (1 / 2)) by (pose proof (Rmax_r (alpha m * 4) (1 / 2)); lra).
      revert EX. apply segment_hits; [exact HI|]. intros y u Q. ob Q s ES. ob Q z EZ. apply upto_ok in ES as (-> & _). exists z. split; [exact EZ|congruence].
    + destruct (N j e' m' Ej) as (x' & Ex' & HX). cbv zeta in *. rewrite app_length in Ex', HX. cbn [length] in Ex', HX. replace (length als0 + S j)%nat with (length als0 + 1 + j)%nat by lia. exists x'. split; assumption.
Qed.

(** The weight of segment [k] in the correlation. *)
Definition weight (ks nus als : list R) (k : nat) : R := (nth (S k) ks 0 - nth k ks 0) * nth k nus 0 / nth k als 0.

Lemma oindex_nth (l : list R) i a : oindex l i = Ok a -> (i < length l)%nat /\ a = nth i l 0.
Proof. intros H. apply oindex_inv in H. split; [apply nth_error_Some; congruence|]. symmetry. apply nth_error_nth, H. Qed.

Lemma stage4_spec ks nus als : forall l tail rhos0 rhos, stage4 ks nus als l tail rhos0 = Ok rhos -> exists us, rhos = rhos0 ++ map (clampR (- (999 / 1000)) (999 / 1000)) us /\ length us = length l /\
  forall j t m, nth_error l j = Some (t, m) -> let i := (length rhos0 + j)%nat in
    let sub_nu := {| knots := firstn (S (S i)) ks; values := firstn (S i) nus |} in let sub_alpha := {| knots := firstn (S (S i)) ks; values := firstn (S i) als |} in
    exists g w, effective_vol_vol sub_nu sub_alpha t = Ok g /\ effective_term_structure sub_nu sub_alpha t = Ok w /\ weight ks nus als i <> 0 /\
      tail + sum_f_R0 (fun k => nth k us 0 * weight ks nus als (length rhos0 + k)) j = rho m * g * t / w.
Proof.
  induction l as [|[t m] l IH]; intros tail rhos0 rhos H; cbn [stage4] in H; cbv zeta in H.
  - assert (rhos = rhos0) as -> by congruence. exists []. cbn. rewrite app_nil_r. split; [reflexivity|]. split; [reflexivity|]. intros [|j] e m E; discriminate.
  - ob H ns EN. ob H sn ESN. ob H al EA. ob H sa ESA. ob H g EG. ob H w EW. ob H k1 K1. ob H k0 K0. ob H n_i NI. ob H a_i AI.
    destruct (Rltb (/ 10 ^ 15) (Rabs ((k1 - k0) * n_i / a_i))) eqn:ES; cbn [negb] in H; [|discriminate]. apply Rltb_true in ES.
    apply slice_to_ok in EN as (LN & ->). apply slice_to_ok in EA as (LA & ->). apply upto_ok in ESN as (-> & _ & LK & _). apply upto_ok in ESA as (-> & _).
    apply oindex_nth in K1 as (_ & ->). apply oindex_nth in K0 as (_ & ->). apply oindex_nth in NI as (_ & ->). apply oindex_nth in AI as (_ & ->).
    change ((nth (S (length rhos0)) ks 0 - nth (length rhos0) ks 0) * nth (length rhos0) nus 0 / nth (length rhos0) als 0) with (weight ks nus als (length rhos0)) in *.
    set (s := weight ks nus als (length rhos0)) in *. set (u := (rho m * g * t / w - tail) / s) in *.
    assert (SN : s <> 0). { intros Z. rewrite Z, Rabs_R0 in ES. assert (0 < / 10 ^ 15) by (apply Rinv_0_lt_compat, pow_lt; lra). lra. }
    destruct (IH _ _ _ H) as (us & E & L & N). exists (u :: us). split; [rewrite E, <- app_assoc; reflexivity|]. split; [cbn; f_equal; exact L|].
    assert (US : u * s = rho m * g * t / w - tail) by (unfold u, Rdiv at 1; rewrite Rmult_assoc, Rinv_l, Rmult_1_r by exact SN; reflexivity).
    intros [|j] t' m' Ej; cbn [nth_error] in Ej.
    + assert (t' = t /\ m' = m) as [-> ->] by (split; congruence). cbv zeta. rewrite Nat.add_0_r. exists g, w. split; [exact EG|]. split; [exact EW|]. split; [exact SN|].
      cbn [sum_f_R0 nth]. rewrite Nat.add_0_r. fold s. rewrite US. ring.
    + destruct (N j t' m' Ej) as (g' & w' & EG' & EW' & SN' & SUM). cbv zeta in *. rewrite app_length in EG', EW', SN', SUM. cbn [length] in EG', EW', SN', SUM. replace (length rhos0 + S j)%nat with (length rhos0 + 1 + j)%nat by lia.
      exists g', w'. split; [exact EG'|]. split; [exact EW'|]. split; [exact SN'|]. rewrite <- SUM, decomp_sum by lia. cbn [nth pred]. rewrite Nat.add_0_r. fold s.
      rewrite (sum_eq (fun i => nth i us 0 * weight ks nus als (length rhos0 + S i)) (fun k => nth k us 0 * weight ks nus als (length rhos0 + 1 + k))) by (intros k _; do 2 f_equal; lia). ring.
Qed.

Lemma diagnose_spec p : forall l i0 ds, diagnose p i0 l = Ok ds -> length ds = length l /\
  forall j t m r1, nth_error l j = Some (t, m, r1) -> let i := (i0 + j)%nat in let ks := firstn (S (S i)) (knots (td_alpha p)) in
    let sub vs := {| knots := ks; values := firstn (S i) vs |} in
    exists d g w r, nth_error ds j = Some d /\ dg_expiry d = t /\ dg_market d = m /\ dg_stage1_rmse d = r1 /\
      effective_vol_vol (sub (values (td_nu p))) (sub (values (td_alpha p))) t = Ok g /\ effective_term_structure (sub (values (td_nu p))) (sub (values (td_alpha p))) t = Ok w /\
      effective_correlation (sub (values (td_nu p))) (sub (values (td_alpha p))) (sub (values (td_rho p))) t = Ok r /\
      0 <= dg_post_fit_rmse d /\ dg_post_fit_rmse d ^ 2 * 3 = (g - nu m) ^ 2 + (w - alpha m) ^ 2 + (r - rho m) ^ 2.
Proof.
  induction l as [|[[t m] r1] l IH]; intros i0 ds H; cbn [diagnose] in H; cbv zeta in H.
  - injection H as <-. split; [reflexivity|]. intros [|j] t m r1 E; discriminate.
  - ob H ns EN. ob H sn ESN. ob H al EA. ob H sa ESA. ob H rs ER. ob H sr ESR. ob H g EG. ob H w EW. ob H r EC. ob H ds' ED. destruct (IH _ _ ED) as (L & N).
    apply slice_to_ok in EN as (LN & ->). apply slice_to_ok in EA as (LA & ->). apply slice_to_ok in ER as (LR & ->). apply upto_ok in ESN as (-> & _ & LK & _). apply upto_ok in ESA as (-> & _). apply upto_ok in ESR as (-> & _).
    match type of H with Ok (?d :: _) = _ => set (D := d) in * end. assert (ds = D :: ds') as -> by congruence. split; [cbn; f_equal; exact L|].
    intros [|j] t' m' r1' Ej; cbn [nth_error] in Ej.
    + assert (t' = t /\ m' = m /\ r1' = r1) as (-> & -> & ->) by (repeat split; congruence). cbv zeta. rewrite Nat.add_0_r. exists D, g, w, r. split; [reflexivity|]. do 3 (split; [reflexivity|]). do 3 (split; [assumption|]).
      unfold D. cbn [dg_post_fit_rmse]. split; [apply sqrt_pos|]. cbn [map fold_left].
      assert (SQ : forall a b c : R, sqrt ((0 + a * a + b * b + c * c) / 3) ^ 2 * 3 = a ^ 2 + b ^ 2 + c ^ 2). { intros a b c. replace (sqrt ((0 + a * a + b * b + c * c) / 3) ^ 2) with (sqrt ((0 + a * a + b * b + c * c) / 3) * sqrt ((0 + a * a + b * b + c * c) / 3)) by ring. rewrite sqrt_sqrt by nra. field. }
      apply SQ.
    + destruct (N j t' m' r1' Ej) as (d & g' & w' & r' & R). cbv zeta in *. replace (i0 + S j)%nat with (S i0 + j)%nat by lia. exists d, g', w', r'. exact R.
Qed.

(** *** The effective parameters of a prefix *)
Fixpoint step_of (ks vs : list R) (t : R) : R :=
  match ks, vs with
  | _ :: ((k1 :: _) as r), v :: vs => if Rlt_dec t k1 then v else step_of r vs t
  | _, _ => 0
  end.
Lemma step_of_nth : forall vs ks k t, length ks = S (length vs) -> (k < length vs)%nat -> (forall i, (S i < length ks)%nat -> nth i ks 0 < nth (S i) ks 0) -> nth k ks 0 < t < nth (S k) ks 0 -> step_of ks vs t = nth k vs 0.
Proof.
  induction vs as [|v vs IH]; intros ks k t L K INC T; [cbn in K; lia|]. destruct ks as [|k0 [|k1 r]]; cbn in L; try lia. cbn [step_of]. destruct k as [|k].
  - cbn in T. destruct (Rlt_dec t k1); [reflexivity|lra].
  - destruct (Rlt_dec t k1) as [LT|_].
    + exfalso. assert (M : forall j, (j <= k)%nat -> k1 <= nth j (k1 :: r) 0).
      { induction j as [|j IHj]; intros J; [cbn; lra|]. specialize (INC (S j) ltac:(cbn in *; lia)). specialize (IHj ltac:(lia)). cbn [nth] in *. lra. }
      specialize (M k ltac:(lia)). destruct T as [T _]. cbn [nth] in *. lra.
    + change (step_of (k1 :: r) vs t = nth k vs 0). apply IH; [cbn; lia|cbn in K; lia| |exact T]. intros i I. apply (INC (S i)). cbn in *. lia.
Qed.
Lemma step_market ks gs os gamma omega : schedule_new ks gs = Ok gamma -> schedule_new ks os = Ok omega -> market ks gs os (length gs) (nth (length gs) ks 0) (step_of ks gs) (step_of ks os) gamma omega.
Proof.
  intros G O. pose proof (proj1 (C55_new _ _ _) G) as (_ & _ & LG & _ & INC). pose proof (proj1 (C55_new _ _ _) O) as (_ & _ & LO & _).
  split; [exact G|]. split; [exact O|]. split; [lia|]. split; [reflexivity|]. split; [lia|]. intros k t K T. split; apply step_of_nth; try assumption; lia.
Qed.

Lemma E_exact_pos c d : 0 <= c -> 0 < d -> 0 < E_exact c d.
Proof.
  intros C D. unfold E_exact. destruct (Req_EM_T c 0) as [|N]; [assumption|]. apply Rdiv_lt_0_compat; [|lra]. pose proof (exp_gt_1 (c * d) ltac:(apply Rmult_lt_0_compat; lra)). lra.
Qed.
Lemma I_exact_nonneg segs : (forall s, In s segs -> 0 < fst (fst s)) -> forall g0, 0 <= I_exact g0 segs.
Proof. intros P g0. pose proof (i_close segs P g0). lra. Qed.
Lemma term_positive gamma omega T w segs : aligned_segments gamma omega T = Ok segs -> (forall s, In s segs -> 0 < fst (fst s) /\ snd s <> 0) -> segs <> [] -> 0 < T ->
  effective_term_structure gamma omega T = Ok w -> 0 < w.
Proof.
  intros SEG P NE TP H. unfold effective_term_structure in H. rewrite SEG in H. cbn [obind] in H. ob H v V. assert (P1 : forall s, In s segs -> 0 < fst (fst s)) by (intros s I; apply P, I).
  assert (IP : 0 < i_integral segs).
  { unfold i_integral. pose proof (i_close segs P1 0) as [[I0 I1] I2]. assert (0 < I_exact 0 segs); [|assert (0 < / 10 ^ 30) by (apply Rinv_0_lt_compat, pow_lt; lra); nra].
    destruct segs as [|[[d g] o] r]; [congruence|]. cbn [I_exact]. destruct (P (d, g, o) ltac:(left; reflexivity)) as [D O]. cbn [fst snd] in D, O.
    pose proof (I_exact_nonneg r ltac:(intros s I; apply P1; right; exact I) (0 + g ^ 2 * d)) as R0. pose proof (E_exact_pos (g ^ 2) d (pow2_ge_0 g) D). assert (0 < o ^ 2) by (replace (o ^ 2) with (Rsqr o) by (unfold Rsqr; ring); apply Rsqr_pos_lt; exact O). pose proof (exp_pos 0).
    match goal with |- 0 < ?a + ?b => assert (0 < a); [|assert (0 <= b) by first [exact R0|apply I_exact_nonneg; intros s I; apply P1; right; exact I]; lra] end. repeat (apply Rmult_lt_0_compat; try assumption). }
  set (i := i_integral segs) in *. ob H q Q. destruct (Rleb 0 q); cbn [negb] in H; [|discriminate]. assert (w = sqrt q) as -> by congruence. apply sqrt_lt_R0.
  destruct (Rlt_dec _ _) as [S|S].
  - destruct (Req_EM_T T 0); [discriminate|]. assert (q = i / T) as -> by congruence. apply Rdiv_lt_0_compat; assumption.
  - assert (q = v * v * i / exp_m1 (v * v * T)) as -> by congruence. assert (0 < v * v). { destruct (Req_dec v 0) as [->|N]; [|nra]. exfalso. apply S. replace (0 * 0 * T) with 0 by ring. rewrite Rabs_R0. apply Rinv_0_lt_compat, pow_lt. lra. }
    apply Rdiv_lt_0_compat; [apply Rmult_lt_0_compat; assumption|]. unfold exp_m1. pose proof (exp_gt_1 (v * v * T) ltac:(apply Rmult_lt_0_compat; assumption)). lra.
Qed.

Lemma rho_integral_sum : forall rs ks gs os total, length gs = length rs -> length os = length rs -> length ks = S (length rs) -> (forall k, (k < length rs)%nat -> / 10 ^ 15 < Rabs (nth k os 0)) -> rs <> [] ->
  rho_integral total (combine (combine (differences (length rs) ks) gs) os) rs = Ok (total + sum_f_R0 (fun k => nth k rs 0 * weight ks gs os k) (length rs - 1)).
Proof.
  induction rs as [|r rs IH]; intros ks gs os total LG LO LK NZ NE; [congruence|]. destruct gs as [|g gs]; [discriminate|]. destruct os as [|o os]; [discriminate|]. destruct ks as [|k0 [|k1 ks]]; cbn in LK; try lia.
  cbn [length differences combine rho_integral]. pose proof (NZ 0%nat ltac:(cbn; lia)) as O. cbn [nth] in O. rewrite (proj2 (Rltb_true _ _) O). cbn [negb].
  assert (ON : o <> 0). { intros ->. rewrite Rabs_R0 in O. assert (0 < / 10 ^ 15) by (apply Rinv_0_lt_compat, pow_lt; lra). lra. }
  assert (E0 : nth 0 (r :: rs) 0 * weight (k0 :: k1 :: ks) (g :: gs) (o :: os) 0 = r * g / o * (k1 - k0)) by (unfold weight; cbn [nth]; field; exact ON).
  destruct rs as [|r' rs'].
  - cbn [length differences combine rho_integral Nat.sub sum_f_R0]. rewrite E0. destruct gs; [|discriminate]. reflexivity.
  - rewrite IH; [|cbn in *; lia|cbn in *; lia|cbn in *; lia| |discriminate].
    + f_equal. replace (S (length (r' :: rs')) - 1)%nat with (S (length (r' :: rs') - 1)) by (cbn; lia). rewrite (decomp_sum (fun k => nth k (r :: r' :: rs') 0 * _)) by lia. cbn [pred]. rewrite E0. rewrite Rplus_assoc. f_equal. 
    + intros k K. apply (NZ (S k)). cbn in *. lia.
Qed.
