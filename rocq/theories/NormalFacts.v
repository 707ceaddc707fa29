(** Facts about the normal distribution, with the Gaussian integral. *)
From Coq Require Import Reals Lra Lia.
From Coquelicot Require Import Coquelicot.
From Verif Require Import Normal.
Open Scope R_scope.

Lemma sqrt2pi_pos : 0 < sqrt (2 * PI).
Proof. apply sqrt_lt_R0. pose proof PI_RGT_0. lra. Qed.

Lemma pdf_pos x : 0 < pdf x.
Proof. apply Rdiv_lt_0_compat; [apply exp_pos|apply sqrt2pi_pos]. Qed.

Lemma pdf_even x : pdf (- x) = pdf x.
Proof. unfold pdf. replace (- x * - x) with (x * x) by ring. reflexivity. Qed.

Lemma is_derive_pdf x : is_derive pdf x (- x * pdf x).
Proof.
  unfold pdf. pose proof sqrt2pi_pos as P. revert P. generalize (sqrt (2 * PI)). intros s P.
  auto_derive; [exact I|]. unfold Rdiv. generalize (exp (- (x * x) * / 2)). intros e. field. lra.
Qed.

Lemma continuous_pdf x : continuous pdf x.
Proof. apply (@ex_derive_continuous R_AbsRing R_NormedModule). eexists. apply is_derive_pdf. Qed.

Lemma ex_RInt_pdf a b : ex_RInt pdf a b.
Proof. apply (@ex_RInt_continuous R_CompleteNormedModule). intros z _. apply continuous_pdf. Qed.

Lemma is_derive_cdf x : is_derive cdf x (pdf x).
Proof.
  unfold cdf.
  apply (is_derive_ext (fun x => plus (1 / 2) (RInt pdf 0 x))); [reflexivity|].
  replace (pdf x) with (plus (zero : R_AbelianGroup) (pdf x)) by (unfold plus, zero; cbn; ring).
  apply (@is_derive_plus R_AbsRing R_NormedModule); [apply @is_derive_const|].
  apply (@is_derive_RInt R_NormedModule pdf (fun x => RInt pdf 0 x) 0 x); [|apply continuous_pdf].
  apply filter_forall. intros y. apply (@RInt_correct R_CompleteNormedModule). apply ex_RInt_pdf.
Qed.

Lemma continuous_cdf x : continuous cdf x.
Proof. apply (@ex_derive_continuous R_AbsRing R_NormedModule). eexists. apply is_derive_cdf. Qed.

Lemma cdf_0 : cdf 0 = 1 / 2.
Proof. unfold cdf. rewrite RInt_point. unfold zero. cbn. lra. Qed.

(** A function with a positive derivative on an interval increases strictly. *)
Lemma increasing_of_derive (f df : R -> R) (a b : R) : a < b ->
  (forall x, a <= x <= b -> is_derive f x (df x)) -> (forall x, a < x < b -> 0 < df x) -> f a < f b.
Proof.
  intros L D P.
  destruct (MVT_cor2 f df a b L) as (c & E & C); [intros c C; apply is_derive_Reals, D, C|].
  specialize (P c C). nra.
Qed.
Lemma nondecreasing_of_derive (f df : R -> R) (a b : R) : a <= b ->
  (forall x, a <= x <= b -> is_derive f x (df x)) -> (forall x, a < x < b -> 0 <= df x) -> f a <= f b.
Proof.
  intros L D P. destruct L as [L|<-]; [|lra].
  destruct (MVT_cor2 f df a b L) as (c & E & C); [intros c C; apply is_derive_Reals, D, C|].
  specialize (P c C). nra.
Qed.
Lemma constant_of_derive (f : R -> R) (a b : R) : (forall x, is_derive f x 0) -> f a = f b.
Proof.
  intros D. destruct (Rtotal_order a b) as [L|[->|L]]; [|reflexivity|].
  - destruct (MVT_cor2 f (fun _ => 0) a b L) as (c & E & C); [intros c C; apply is_derive_Reals, D|]. lra.
  - destruct (MVT_cor2 f (fun _ => 0) b a L) as (c & E & C); [intros c C; apply is_derive_Reals, D|]. lra.
Qed.

Lemma cdf_increasing a b : a < b -> cdf a < cdf b.
Proof. intros L. apply (increasing_of_derive cdf pdf a b L); intros; [apply is_derive_cdf|apply pdf_pos]. Qed.
Lemma cdf_le a b : a <= b -> cdf a <= cdf b.
Proof. intros [L|<-]; [left; apply cdf_increasing, L|lra]. Qed.

Lemma cdf_opp x : cdf (- x) = 1 - cdf x.
Proof.
  assert (D : forall y, is_derive (fun y => cdf (- y) + cdf y) y 0).
  { intros y. pose proof (is_derive_cdf y). pose proof (is_derive_cdf (- y)).
    auto_derive.
    - split; [eexists; eassumption|]. split; [eexists; eassumption|exact I].
    - replace (Derive (fun x => cdf x) (- y)) with (pdf (- y)) by (symmetry; apply is_derive_unique, H0).
      replace (Derive (fun x => cdf x) y) with (pdf y) by (symmetry; apply is_derive_unique, H). rewrite pdf_even. ring. }
  pose proof (constant_of_derive _ x 0 D) as E. cbv beta in E. rewrite Ropp_0, cdf_0 in E. lra.
Qed.

(** ** The Gaussian integral *)
Definition bell (t : R) : R := exp (- (t * t)).
Definition G (x : R) : R := RInt bell 0 x.
Definition H (x : R) : R := RInt (fun t => exp (- (x * x) * (1 + t * t)) / (1 + t * t)) 0 1.

Lemma sq1 t : 0 < 1 + t * t.
Proof. pose proof (Rle_0_sqr t) as P. unfold Rsqr in P. lra. Qed.

Lemma continuous_bell x : continuous bell x.
Proof. apply (@ex_derive_continuous R_AbsRing R_NormedModule). unfold bell. auto_derive. exact I. Qed.
Lemma ex_RInt_bell a b : ex_RInt bell a b.
Proof. apply (@ex_RInt_continuous R_CompleteNormedModule). intros z _. apply continuous_bell. Qed.
Lemma is_derive_G x : is_derive G x (bell x).
Proof.
  unfold G. apply (@is_derive_RInt R_NormedModule bell (fun x => RInt bell 0 x) 0 x); [|apply continuous_bell].
  apply filter_forall. intros y. apply (@RInt_correct R_CompleteNormedModule). apply ex_RInt_bell.
Qed.

Lemma continuous_kernel x t : continuous (fun t => exp (- (x * x) * (1 + t * t)) / (1 + t * t)) t.
Proof.
  apply (@ex_derive_continuous R_AbsRing R_NormedModule). auto_derive. pose proof (sq1 t). lra.
Qed.
Lemma derive_kernel x t : is_derive (fun x => exp (- (x * x) * (1 + t * t)) / (1 + t * t)) x (-2 * x * exp (- (x * x) * (1 + t * t))).
Proof. pose proof (sq1 t). auto_derive; [lra|]. field. lra. Qed.

Lemma is_derive_H x : is_derive H x (RInt (fun t => -2 * x * exp (- (x * x) * (1 + t * t))) 0 1).
Proof.
  unfold H.
  replace (RInt (fun t => -2 * x * exp (- (x * x) * (1 + t * t))) 0 1)
    with (RInt (fun t => Derive (fun u => exp (- (u * u) * (1 + t * t)) / (1 + t * t)) x) 0 1).
  2:{ apply RInt_ext. intros t _. apply is_derive_unique, derive_kernel. }
  apply (is_derive_RInt_param (fun x t => exp (- (x * x) * (1 + t * t)) / (1 + t * t)) 0 1 x).
  - apply filter_forall. intros y t _. eexists. apply derive_kernel.
  - intros t _. 
    apply (continuity_2d_pt_ext (fun u v => -2 * u * exp (- (u * u) * (1 + v * v)))).
    { intros u v. symmetry. apply is_derive_unique, derive_kernel. }
    apply continuity_2d_pt_mult.
    + apply continuity_2d_pt_mult; [apply continuity_2d_pt_const|apply continuity_2d_pt_id1].
    + apply (continuity_1d_2d_pt_comp exp).
      * apply derivable_continuous_pt, derivable_pt_exp.
      * apply continuity_2d_pt_mult.
        -- apply continuity_2d_pt_opp, continuity_2d_pt_mult; apply continuity_2d_pt_id1.
        -- apply continuity_2d_pt_plus; [apply continuity_2d_pt_const|].
           apply continuity_2d_pt_mult; apply continuity_2d_pt_id2.
  - apply filter_forall. intros y. apply (@ex_RInt_continuous R_CompleteNormedModule). intros z _. apply continuous_kernel.
Qed.

Lemma derive_H_value x : RInt (fun t => -2 * x * exp (- (x * x) * (1 + t * t))) 0 1 = - (2 * G x * bell x).
Proof.
  unfold G.
  replace (RInt bell 0 x) with (RInt (fun t => x * bell (x * t + 0)) 0 1).
  - replace (- (2 * RInt (fun t => x * bell (x * t + 0)) 0 1 * bell x)) with (scal (-2 * bell x) (RInt (fun t => x * bell (x * t + 0)) 0 1))
      by (unfold scal; cbn; unfold mult; cbn; ring).
    rewrite <- (@RInt_scal R_CompleteNormedModule).
    + apply RInt_ext. intros t _. unfold scal; cbn; unfold mult; cbn. unfold bell.
      replace (- (x * x) * (1 + t * t)) with (- (x * x) + - ((x * t + 0) * (x * t + 0))) by ring.
      rewrite exp_plus. ring.
    + apply (@ex_RInt_continuous R_CompleteNormedModule). intros z _.
      apply (@ex_derive_continuous R_AbsRing R_NormedModule). unfold bell. auto_derive. exact I.
  - rewrite <- (RInt_ext (fun t => scal x (bell (x * t + 0)))) by (intros; reflexivity).
    rewrite (@RInt_comp_lin R_CompleteNormedModule); [f_equal; ring|]. apply ex_RInt_bell.
Qed.

Lemma H_0 : H 0 = PI / 4.
Proof.
  unfold H. rewrite <- atan_1.
  transitivity (RInt (fun t => / (1 + t ^ 2)) 0 1).
  - apply RInt_ext. intros t _. pose proof (sq1 t). replace (- (0 * 0) * (1 + t * t)) with 0 by ring. rewrite exp_0.
    replace (t ^ 2) with (t * t) by ring. unfold Rdiv. rewrite Rmult_1_l. reflexivity.
  - transitivity (minus (atan 1) (atan 0)); [|unfold minus, plus, opp; cbn; rewrite atan_0; ring].
    apply is_RInt_unique, (@is_RInt_derive R_CompleteNormedModule).
    + intros x _. replace (x ^ 2) with (Rsqr x) by (unfold Rsqr; ring); apply is_derive_atan.
    + intros x _. apply (@ex_derive_continuous R_AbsRing R_NormedModule). auto_derive. pose proof (sq1 x).
      replace (x ^ 2) with (x * x) by ring. lra.
Qed.

Lemma gauss_identity x : G x * G x + H x = PI / 4.
Proof.
  rewrite <- H_0. replace (H 0) with (G 0 * G 0 + H 0).
  - apply (constant_of_derive (fun x => G x * G x + H x)). intros y.
    pose proof (is_derive_G y) as D1. pose proof (is_derive_H y) as D2. rewrite derive_H_value in D2.
    auto_derive.
    + repeat split; first [eexists; eassumption|exact I].
    + replace (Derive (fun x => G x) y) with (bell y) by (symmetry; apply is_derive_unique, D1).
      replace (Derive (fun x => H x) y) with (- (2 * G y * bell y)) by (symmetry; apply is_derive_unique, D2). ring.
  - replace (G 0) with 0; [ring|]. unfold G. rewrite RInt_point. reflexivity.
Qed.

Lemma H_bounds x : 0 <= H x <= bell x * (PI / 4).
Proof.
  split.
  - unfold H. apply RInt_ge_0; [lra| |].
    + apply (@ex_RInt_continuous R_CompleteNormedModule). intros z _. apply continuous_kernel.
    + intros t _. apply Rlt_le, Rdiv_lt_0_compat; [apply exp_pos|apply sq1].
  - rewrite <- H_0. unfold H.
    change (bell x * RInt (fun t => exp (- (0 * 0) * (1 + t * t)) / (1 + t * t)) 0 1)
      with (scal (bell x) (RInt (fun t => exp (- (0 * 0) * (1 + t * t)) / (1 + t * t)) 0 1)).
    rewrite <- (@RInt_scal R_CompleteNormedModule);
      [|apply (@ex_RInt_continuous R_CompleteNormedModule); intros z _; apply continuous_kernel].
    apply RInt_le; [lra| | |].
    + apply (@ex_RInt_continuous R_CompleteNormedModule). intros z _. apply continuous_kernel.
    + apply (@ex_RInt_scal R_CompleteNormedModule), (@ex_RInt_continuous R_CompleteNormedModule). intros z _. apply continuous_kernel.
    + intros t T. unfold scal; cbn; unfold mult; cbn. unfold bell.
      replace (- (x * x) * (1 + t * t)) with (- (x * x) + - (x * x * (t * t))) by ring.
      replace (- (0 * 0) * (1 + t * t)) with 0 by ring. rewrite exp_0, exp_plus.
      assert (exp (- (x * x * (t * t))) <= 1).
      { rewrite <- exp_0. destruct (Req_dec (x * x * (t * t)) 0) as [E|N].
        - rewrite E, Ropp_0. lra.
        - left. apply exp_increasing. pose proof (Rle_0_sqr (x * t)) as Q. unfold Rsqr in Q. nra. }
      pose proof (exp_pos (- (x * x))). pose proof (sq1 t). unfold Rdiv.
      assert (0 < / (1 + t * t)) by (apply Rinv_0_lt_compat; assumption).
      assert (Q : 0 <= exp (- (x * x)) * / (1 + t * t) * (1 - exp (- (x * x * (t * t))))) by (apply Rmult_le_pos; [apply Rmult_le_pos; lra|lra]).
      lra.
Qed.


Lemma cdf_G x : cdf x = 1 / 2 + G (x / sqrt 2) / sqrt PI.
Proof.
  unfold cdf. f_equal. assert (S2 : 0 < sqrt 2) by (apply sqrt_lt_R0; lra).
  assert (SP : 0 < sqrt PI) by (apply sqrt_lt_R0, PI_RGT_0).
  assert (E : sqrt (2 * PI) = sqrt 2 * sqrt PI) by (apply sqrt_mult; [lra|pose proof PI_RGT_0; lra]).
  assert (Q : sqrt 2 * sqrt 2 = 2) by (apply sqrt_sqrt; lra).
  unfold G. replace (RInt bell 0 (x / sqrt 2)) with (RInt (fun t => / sqrt 2 * bell (/ sqrt 2 * t + 0)) 0 x).
  - replace (RInt (fun t => / sqrt 2 * bell (/ sqrt 2 * t + 0)) 0 x / sqrt PI)
      with (scal (/ sqrt PI) (RInt (fun t => / sqrt 2 * bell (/ sqrt 2 * t + 0)) 0 x)) by (unfold scal; cbn; unfold mult; cbn; field; lra).
    rewrite <- (@RInt_scal R_CompleteNormedModule).
    + apply RInt_ext. intros t _. unfold scal; cbn; unfold mult; cbn. unfold pdf, bell. rewrite E.
      replace (- ((/ sqrt 2 * t + 0) * (/ sqrt 2 * t + 0))) with (- (t * t) / (sqrt 2 * sqrt 2)) by (field; lra).
      rewrite Q. field. lra.
    + apply (@ex_RInt_continuous R_CompleteNormedModule). intros z _.
      apply (@ex_derive_continuous R_AbsRing R_NormedModule). unfold bell. auto_derive. exact I.
  - rewrite <- (RInt_ext (fun t => scal (/ sqrt 2) (bell (/ sqrt 2 * t + 0)))) by (intros; reflexivity).
    rewrite (@RInt_comp_lin R_CompleteNormedModule); [f_equal; field; lra|]. apply ex_RInt_bell.
Qed.

Lemma cdf_product x : 0 <= 4 * (cdf x * (1 - cdf x)) <= exp (- (x * x) / 2).
Proof.
  pose proof (cdf_G x) as E. pose proof (gauss_identity (x / sqrt 2)) as Id. pose proof (H_bounds (x / sqrt 2)) as B.
  assert (SP : 0 < sqrt PI) by (apply sqrt_lt_R0, PI_RGT_0).
  assert (QP : sqrt PI * sqrt PI = PI) by (apply sqrt_sqrt; pose proof PI_RGT_0; lra).
  assert (S2 : 0 < sqrt 2) by (apply sqrt_lt_R0; lra).
  assert (Q : sqrt 2 * sqrt 2 = 2) by (apply sqrt_sqrt; lra).
  assert (EB : bell (x / sqrt 2) = exp (- (x * x) / 2)).
  { unfold bell. f_equal. rewrite <- Q at 3. field. lra. }
  rewrite EB in B.
  assert (K : 4 * (cdf x * (1 - cdf x)) = 4 / PI * H (x / sqrt 2)).
  { rewrite E. transitivity (1 - 4 * (G (x / sqrt 2) * G (x / sqrt 2)) / (sqrt PI * sqrt PI)); [field; lra|].
    rewrite QP. replace (H (x / sqrt 2)) with (PI / 4 - G (x / sqrt 2) * G (x / sqrt 2)) by lra. field. pose proof PI_RGT_0; lra. }
  rewrite K. pose proof PI_RGT_0 as P. assert (P4 : 0 < 4 / PI) by (apply Rdiv_lt_0_compat; lra).
  split; [nra|]. replace (exp (- (x * x) / 2)) with (4 / PI * (exp (- (x * x) / 2) * (PI / 4))) by (field; lra). nra.
Qed.

Lemma cdf_bounds x : 0 < cdf x < 1.
Proof.
  assert (A : forall y, 0 <= cdf y <= 1).
  { intros y. pose proof (cdf_product y) as P. split; nra. }
  split.
  - pose proof (A (x - 1)). pose proof (cdf_increasing (x - 1) x ltac:(lra)). lra.
  - pose proof (A (x + 1)). pose proof (cdf_increasing x (x + 1) ltac:(lra)). lra.
Qed.

(** A tail bound. *)
Lemma cdf_tail x : 0 <= x -> 1 - cdf x <= exp (- (x * x) / 2) / 2.
Proof.
  intros X. pose proof (cdf_product x). pose proof (cdf_bounds x).
  assert (1 / 2 <= cdf x) by (rewrite <- cdf_0; apply cdf_le, X). nra.
Qed.

Lemma exp_sq_le x : 1 <= x -> exp (- (x * x) / 2) <= 2 / x.
Proof.
  intros X. replace (- (x * x) / 2) with (- (x * x / 2)) by field. rewrite exp_Ropp.
  assert (E : 1 + x * x / 2 <= exp (x * x / 2)) by (left; apply exp_ineq1; nra).
  unfold Rdiv at 2. rewrite <- (Rinv_inv 2) at 2. rewrite <- Rinv_mult. apply Rinv_le_contravar; nra.
Qed.

(** Arbitrarily close to one, and to zero. *)
Lemma cdf_near_1 eps : 0 < eps -> exists X, 0 < X /\ forall x, X <= x -> 1 - eps < cdf x.
Proof.
  intros Hp. exists (1 + 2 / eps). assert (0 < 2 / eps) by (apply Rdiv_lt_0_compat; lra). split; [lra|].
  intros x Hx. pose proof (cdf_tail x ltac:(lra)) as T. pose proof (exp_sq_le x ltac:(lra)) as E.
  assert (2 / x < eps).
  { apply (Rmult_lt_reg_r x); [lra|]. unfold Rdiv. rewrite Rmult_assoc, Rinv_l by lra.
    assert (2 / eps * eps = 2) by (field; lra). nra. }
  lra.
Qed.

Lemma is_lim_cdf_p : is_lim cdf p_infty 1.
Proof.
  apply is_lim_spec. intros eps. destruct (cdf_near_1 eps (cond_pos eps)) as (X & _ & K). exists X. intros x Hx.
  pose proof (K x (Rlt_le _ _ Hx)). pose proof (cdf_bounds x). rewrite Rabs_left; lra.
Qed.
Lemma is_lim_cdf_m : is_lim cdf m_infty 0.
Proof.
  apply is_lim_spec. intros eps. destruct (cdf_near_1 eps (cond_pos eps)) as (X & _ & K). exists (- X). intros x Hx.
  pose proof (K (- x) ltac:(lra)) as L. rewrite cdf_opp in L. pose proof (cdf_bounds x). rewrite Rabs_right; lra.
Qed.

(** ** [x * cdf x + pdf x], the normal option value *)
Definition nval (x : R) : R := x * cdf x + pdf x.

Lemma is_derive_nval x : is_derive nval x (cdf x).
Proof.
  unfold nval. pose proof (is_derive_cdf x) as D1. pose proof (is_derive_pdf x) as D2.
  auto_derive; [repeat split; first [eexists; eassumption|exact I]|].
  replace (Derive (fun x => cdf x) x) with (pdf x) by (symmetry; apply is_derive_unique, D1).
  replace (Derive (fun x => pdf x) x) with (- x * pdf x) by (symmetry; apply is_derive_unique, D2). ring.
Qed.

Lemma nval_increasing a b : a < b -> nval a < nval b.
Proof. intros L. apply (increasing_of_derive nval cdf a b L); intros; [apply is_derive_nval|apply cdf_bounds]. Qed.

Lemma nval_opp x : nval x - nval (- x) = x.
Proof. unfold nval. rewrite cdf_opp, pdf_even. ring. Qed.

(** [pdf x - pdf y] is at least [x] times the mass between [x] and [y]. *)
Lemma mills x y : 0 <= x -> x <= y -> x * (cdf y - cdf x) <= pdf x - pdf y.
Proof.
  intros X L.
  assert (K : - x * cdf x - pdf x <= - x * cdf y - pdf y).
  { apply (nondecreasing_of_derive (fun t => - x * cdf t - pdf t) (fun t => (t - x) * pdf t) x y L).
    - intros t T. pose proof (is_derive_cdf t) as D1. pose proof (is_derive_pdf t) as D2.
      auto_derive; [repeat split; first [eexists; eassumption|exact I]|].
      replace (Derive (fun x => cdf x) t) with (pdf t) by (symmetry; apply is_derive_unique, D1).
      replace (Derive (fun x => pdf x) t) with (- t * pdf t) by (symmetry; apply is_derive_unique, D2). ring.
    - intros t T. pose proof (pdf_pos t). nra. }
  lra.
Qed.

Lemma nval_nonneg x : 0 <= nval x.
Proof.
  destruct (Rle_dec 0 x) as [X|X].
  - unfold nval. pose proof (cdf_bounds x). pose proof (pdf_pos x). nra.
  - replace x with (- - x) by ring. assert (Y : 0 < - x) by lra. revert Y. generalize (- x). clear x X. intros x X.
    unfold nval. rewrite cdf_opp, pdf_even. apply Rnot_lt_le. intros N.
    destruct (cdf_near_1 ((x * (1 - cdf x) - pdf x) / x)) as (Y & Y0 & K); [apply Rdiv_lt_0_compat; lra|].
    pose proof (K (Y + x) ltac:(lra)) as K'. pose proof (mills x (Y + x) ltac:(lra) ltac:(lra)) as M.
    pose proof (pdf_pos (Y + x)).
    assert (x * (1 - (x * (1 - cdf x) - pdf x) / x) = x - (x * (1 - cdf x) - pdf x)) by (field; lra). nra.
Qed.

Lemma nval_pos x : 0 < nval x.
Proof. pose proof (nval_nonneg (x - 1)). pose proof (nval_increasing (x - 1) x ltac:(lra)). lra. Qed.

Lemma nval_above x : x < nval x.
Proof. pose proof (nval_pos (- x)). pose proof (nval_opp x). lra. Qed.

(** The ratio [pdf / cdf] decreases. *)
Lemma mills_ratio_decreasing a b : a < b -> pdf b * cdf a < pdf a * cdf b.
Proof.
  intros L. pose proof (cdf_bounds a) as Ca. pose proof (cdf_bounds b) as Cb.
  assert (K : - (pdf a / cdf a) < - (pdf b / cdf b)).
  { apply (increasing_of_derive (fun t => - (pdf t / cdf t)) (fun t => pdf t * nval t / (cdf t * cdf t)) a b L).
    - intros t _. pose proof (is_derive_cdf t) as D1. pose proof (is_derive_pdf t) as D2. pose proof (cdf_bounds t).
      auto_derive; [repeat split; first [eexists; eassumption|exact I|lra]|].
      replace (Derive (fun x => cdf x) t) with (pdf t) by (symmetry; apply is_derive_unique, D1).
      replace (Derive (fun x => pdf x) t) with (- t * pdf t) by (symmetry; apply is_derive_unique, D2). unfold nval. field. lra.
    - intros t _. pose proof (cdf_bounds t). pose proof (nval_pos t). pose proof (pdf_pos t).
      apply Rdiv_lt_0_compat; apply Rmult_lt_0_compat; lra. }
  assert (E : pdf b / cdf b < pdf a / cdf a) by lra.
  apply (Rmult_lt_compat_r (cdf a * cdf b)) in E; [|nra].
  replace (pdf b / cdf b * (cdf a * cdf b)) with (pdf b * cdf a) in E by (field; lra).
  replace (pdf a / cdf a * (cdf a * cdf b)) with (pdf a * cdf b) in E by (field; lra). exact E.
Qed.
