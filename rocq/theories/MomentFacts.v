(** Expectations against the standard normal density. *)
From Coq Require Import Bool List Reals Lra Lia.
From Coquelicot Require Import Coquelicot.
Import ListNotations.
From Verif Require Import Outcome Normal NormalFacts BlackScholes BlackFacts Processes ProcessFacts.
Open Scope R_scope.

(** [f Z] has mean [m] for a standard normal [Z]. *)
Definition mean (f : R -> R) (m : R) : Prop := is_RInt_gen (fun z => f z * pdf z) (Rbar_locally m_infty) (Rbar_locally p_infty) m.

Lemma mean_ext f g m n : (forall z, f z = g z) -> m = n -> mean f m -> mean g n.
Proof.
  intros E <- H. unfold mean in *. revert H. apply is_RInt_gen_ext. apply filter_forall. intros [a b] x _. rewrite E. reflexivity.
Qed.

Lemma integral_all (f A : R -> R) (l h : R) :
  (forall z, is_derive A z (f z)) -> (forall z, continuous f z) -> is_lim A m_infty l -> is_lim A p_infty h ->
  is_RInt_gen f (Rbar_locally m_infty) (Rbar_locally p_infty) (h - l).
Proof.
  intros D C L H. unfold is_RInt_gen. apply (filterlimi_lim_ext_loc (fun ab => plus (A (snd ab)) (opp (A (fst ab))))).
  - apply filter_forall. intros [a b]. cbn [fst snd]. apply (is_RInt_derive A f); intros; [apply D|apply C].
  - apply (filterlim_comp_2 (F := filter_prod (Rbar_locally m_infty) (Rbar_locally p_infty)) (G := locally h) (H := locally (opp l)) (fun ab => A (snd ab)) (fun ab => opp (A (fst ab))) plus).
    + apply (filterlim_comp _ _ _ snd A _ (Rbar_locally p_infty)); [apply filterlim_snd|exact H].
    + apply (filterlim_comp _ _ _ (fun ab => A (fst ab)) opp _ (locally l)); [|apply (@filterlim_opp R_AbsRing R_NormedModule)].
      apply (filterlim_comp _ _ _ fst A _ (Rbar_locally m_infty)); [apply filterlim_fst|exact L].
    + apply (@filterlim_plus R_AbsRing R_NormedModule).
Qed.

(** The density vanishes faster than linearly. *)
Lemma z_pdf_bound x : 1 <= x -> 0 <= x * pdf x <= 2 / x.
Proof.
  intros H. pose proof (pdf_pos x) as P. split; [nra|].
  assert (E : exp (- (x * x) / 2) <= 2 / (x * x)).
  { pose proof (exp_ineq1_le (x * x / 2)) as I. replace (- (x * x) / 2) with (- (x * x / 2)) by field. rewrite exp_Ropp.
    apply Rle_trans with (/ (x * x / 2)); [apply Rinv_le_contravar; nra|]. right. field. lra. }
  assert (B : pdf x <= exp (- (x * x) / 2)).
  { unfold pdf. assert (1 <= sqrt (2 * PI)). { rewrite <- sqrt_1. apply sqrt_le_1; pose proof PI2_1; lra. }
    replace (exp _) with (exp (- (x * x) / 2)) by (f_equal; try field; try ring).
    pose proof (exp_pos (- (x * x) / 2)) as X. apply Rmult_le_reg_r with (sqrt (2 * PI)); [lra|]. unfold Rdiv. rewrite Rmult_assoc, Rinv_l by lra. nra. }
  apply Rle_trans with (x * (2 / (x * x))); [apply Rmult_le_compat_l; lra|]. right. field. lra.
Qed.

Lemma lim_z_pdf : is_lim (fun z => z * pdf z) p_infty 0 /\ is_lim (fun z => z * pdf z) m_infty 0.
Proof.
  assert (P : is_lim (fun z => z * pdf z) p_infty 0).
  { apply (is_lim_le_le_loc (fun _ => 0) (fun z => 2 / z)).
    - exists 1. intros x Hx. apply z_pdf_bound. lra.
    - apply is_lim_const.
    - replace (Finite 0) with (Rbar_mult 2 (Rbar_inv p_infty)) by (cbn; f_equal; ring).
      apply (is_lim_scal_l (fun z => / z) 2 p_infty (Rbar_inv p_infty)). apply is_lim_inv; [apply is_lim_id|discriminate]. }
  split; [exact P|].
  apply (is_lim_ext (fun z => - ((- z) * pdf (- z)))); [intros z; rewrite pdf_even; ring|].
  replace (Finite 0) with (Rbar_opp 0) by (cbn; f_equal; ring). apply is_lim_opp.
  apply (is_lim_comp (fun z => z * pdf z) Ropp m_infty 0 p_infty); [exact P| |exists 0; intros; discriminate].
  replace p_infty with (Rbar_opp m_infty) by reflexivity. apply is_lim_opp, is_lim_id.
Qed.

(** The means of a polynomial of degree two and of an exponential times an affine map. *)
Lemma mean_square a b c : mean (fun z => a + b * z + c * (z * z)) (a + c).
Proof.
  unfold mean. replace (a + c) with ((a + c) - 0) by ring.
  apply (integral_all _ (fun z => (a + c) * cdf z - b * pdf z - c * (z * pdf z))).
  - intros z. evar_last.
    + apply (@is_derive_minus R_AbsRing R_NormedModule); [apply (@is_derive_minus R_AbsRing R_NormedModule)|].
      * apply (is_derive_scal cdf), is_derive_cdf.
      * apply (is_derive_scal pdf), is_derive_pdf.
      * apply (is_derive_scal (fun z => z * pdf z)). apply (is_derive_mult (fun z => z) pdf); [apply @is_derive_id|apply is_derive_pdf|intros; apply Rmult_comm].
    + unfold minus, plus, opp, zero, scal, mult, one; cbn; unfold mult; cbn. ring.
  - intros z. apply (continuous_mult (fun z => a + b * z + c * (z * z)) pdf); [|apply continuous_pdf].
    apply (ex_derive_continuous (fun z => a + b * z + c * (z * z))). auto_derive. exact I.
  - evar_last; [apply (is_lim_minus' _ _ _ _ _ (is_lim_minus' _ _ _ _ _ (is_lim_scal_l cdf (a + c) m_infty 0 is_lim_cdf_m) (is_lim_scal_l pdf b m_infty 0 (proj2 lim_pdf))) (is_lim_scal_l (fun z => z * pdf z) c m_infty 0 (proj2 lim_z_pdf)))|].
    cbn. f_equal. ring.
  - evar_last; [apply (is_lim_minus' _ _ _ _ _ (is_lim_minus' _ _ _ _ _ (is_lim_scal_l cdf (a + c) p_infty 1 is_lim_cdf_p) (is_lim_scal_l pdf b p_infty 0 (proj1 lim_pdf))) (is_lim_scal_l (fun z => z * pdf z) c p_infty 0 (proj1 lim_z_pdf)))|].
    cbn. f_equal. ring.
Qed.

Lemma lim_pdf_shift s : is_lim (fun z => pdf (z - s)) p_infty 0 /\ is_lim (fun z => pdf (z - s)) m_infty 0.
Proof.
  split.
  - apply (is_lim_comp pdf (fun z => z - s) p_infty 0 p_infty); [apply lim_pdf| |exists 0; intros; discriminate].
    replace p_infty with (Rbar_plus p_infty (- s)) at 2 by reflexivity. apply is_lim_plus with p_infty (Finite (- s)); [apply is_lim_id|apply is_lim_const|reflexivity].
  - apply (is_lim_comp pdf (fun z => z - s) m_infty 0 m_infty); [apply lim_pdf| |exists 0; intros; discriminate].
    replace m_infty with (Rbar_plus m_infty (- s)) at 2 by reflexivity. apply is_lim_plus with m_infty (Finite (- s)); [apply is_lim_id|apply is_lim_const|reflexivity].
Qed.

Lemma exp_pdf a b z : exp (a + b * z) * pdf z = exp (a + b * b / 2) * pdf (z - b).
Proof.
  unfold pdf. unfold Rdiv. rewrite <- !Rmult_assoc, <- !exp_plus. f_equal. f_equal. field.
Qed.

Lemma mean_exp_affine a b c d : mean (fun z => exp (a + b * z) * (c + d * z)) (exp (a + b * b / 2) * (c + d * b)).
Proof.
  set (E := exp (a + b * b / 2)). unfold mean. replace (E * (c + d * b)) with (E * (c + d * b) - 0) by ring.
  apply (integral_all _ (fun z => E * (c + d * b) * cdf (z - b) - E * d * pdf (z - b))).
  - intros z. evar_last.
    + apply (@is_derive_minus R_AbsRing R_NormedModule).
      * apply (is_derive_scal (fun z => cdf (z - b))). apply (is_derive_comp cdf (fun z => z - b)); [apply is_derive_cdf|]. instantiate (1 := 1). auto_derive; [exact I|ring].
      * apply (is_derive_scal (fun z => pdf (z - b))). apply (is_derive_comp pdf (fun z => z - b)); [apply is_derive_pdf|]. instantiate (1 := 1). auto_derive; [exact I|ring].
    + unfold minus, plus, opp, zero, scal, mult, one; cbn; unfold mult; cbn.
      transitivity (exp (a + b * z) * pdf z * (c + d * z)); [|ring]. rewrite exp_pdf. fold E. ring.
  - intros z. apply (continuous_mult (fun z => exp (a + b * z) * (c + d * z)) pdf); [|apply continuous_pdf].
    apply (ex_derive_continuous (fun z => exp (a + b * z) * (c + d * z))). auto_derive. exact I.
  - evar_last; [apply (is_lim_minus' _ _ _ _ _ (is_lim_scal_l (fun z => cdf (z - b)) (E * (c + d * b)) m_infty 0 (proj2 (lim_shift b))) (is_lim_scal_l (fun z => pdf (z - b)) (E * d) m_infty 0 (proj2 (lim_pdf_shift b))))|].
    cbn. f_equal. ring.
  - evar_last; [apply (is_lim_minus' _ _ _ _ _ (is_lim_scal_l (fun z => cdf (z - b)) (E * (c + d * b)) p_infty 1 (proj1 (lim_shift b))) (is_lim_scal_l (fun z => pdf (z - b)) (E * d) p_infty 0 (proj1 (lim_pdf_shift b))))|].
    cbn. f_equal. ring.
Qed.

Lemma mean_exp a b : mean (fun z => exp (a + b * z)) (exp (a + b * b / 2)).
Proof. eapply mean_ext; [| |apply (mean_exp_affine a b 1 0)]; [intros z; cbn; ring|ring]. Qed.
Lemma mean_affine c d : mean (fun z => c + d * z) c.
Proof. eapply mean_ext; [| |apply (mean_square c d 0)]; [intros z; cbn; ring|ring]. Qed.

(** Truncating a normal variable at zero raises its mean. *)
Lemma mean_truncated m s : 0 < s -> exists v, mean (fun z => Rmax (m + s * z) 0) v /\ Rmax m 0 < v.
Proof.
  intros S. assert (V : 0 < s * s) by nra. exists (bachelier_call m 0 (s * s)). split.
  - eapply mean_ext; [| |apply (bcall_expectation m 0 (s * s) V)]; [|reflexivity]. intros z. cbn beta. rewrite sqrt_square by lra. f_equal. ring.
  - pose proof (nval_above ((m - 0) / sqrt (s * s))) as A. pose proof (nval_pos ((m - 0) / sqrt (s * s))) as B.
    rewrite sqrt_square in A, B by lra. assert (E : bachelier_call m 0 (s * s) = s * nval ((m - 0) / s)).
    { unfold bachelier_call, nval. destruct (Rle_dec (s * s) 0); [lra|]. rewrite sqrt_square by lra. cbv zeta. field. lra. }
    rewrite E. apply Rmax_case; [|nra]. apply Rmult_lt_reg_r with (/ s); [apply Rinv_0_lt_compat, S|]. replace (s * nval ((m - 0) / s) * / s) with (nval ((m - 0) / s)) by (field; lra). replace (m * / s) with ((m - 0) / s) by (field; lra). exact A.
Qed.

(** Over several draws: [expectation ks f g m] says that integrating the draws numbered
    [ks] out of [f], the others being those of [g], gives [m]. *)
Definition put (k : nat) (z : R) (g : nat -> R) : nat -> R := fun i => if (i =? k)%nat then z else g i.
Fixpoint expectation (ks : list nat) (f : (nat -> R) -> R) (g : nat -> R) (m : R) : Prop :=
  match ks with
  | [] => m = f g
  | k :: ks => exists h, (forall z, expectation ks f (put k z g) (h z)) /\ mean h m
  end.

Definition agree_off (ks : list nat) (g g' : nat -> R) : Prop := forall i, ~ In i ks -> g' i = g i.

Lemma agree_put k ks z g g' : agree_off ks (put k z g) g' -> agree_off (k :: ks) g g'.
Proof. intros H i N. cbn [In] in N. rewrite (H i) by tauto. unfold put. destruct (Nat.eqb_spec i k); [subst; tauto|reflexivity]. Qed.
Lemma agree_put_self k ks z g g' : ~ In k ks -> agree_off ks (put k z g) g' -> g' k = z.
Proof. intros N H. rewrite (H k N). unfold put. rewrite Nat.eqb_refl. reflexivity. Qed.

Lemma expectation_ext ks : forall f f' g m, (forall g', agree_off ks g g' -> f g' = f' g') -> expectation ks f g m -> expectation ks f' g m.
Proof.
  induction ks as [|k ks IH]; intros f f' g m H E; cbn [expectation] in *.
  - rewrite E. apply H. intros i _. reflexivity.
  - destruct E as (h & E & M). exists h. split; [|exact M]. intros z. apply (IH f); [|apply E]. intros g' A. apply H. eapply agree_put, A.
Qed.

Lemma expectation_scal c ks : forall f g m, expectation ks f g m -> expectation ks (fun g => c * f g) g (c * m).
Proof.
  induction ks as [|k ks IH]; intros f g m E; cbn [expectation] in *; [rewrite E; reflexivity|].
  destruct E as (h & E & M). exists (fun z => c * h z). split; [intros z; apply IH, E|].
  unfold mean in *. evar_last; [|reflexivity].
  apply (is_RInt_gen_ext (fun z => scal c (h z * pdf z))).
  - apply filter_forall. intros [a b] x _. unfold scal; cbn; unfold mult; cbn. ring.
  - apply (is_RInt_gen_scal (fun z => h z * pdf z) c m M).
Qed.

(** First one block of draws, then the next. *)
Lemma expectation_app ks1 ks2 : forall f F g m, (forall g', agree_off ks1 g g' -> expectation ks2 f g' (F g')) -> expectation ks1 F g m -> expectation (ks1 ++ ks2) f g m.
Proof.
  induction ks1 as [|k ks IH]; intros f F g m H E; cbn [expectation app] in *.
  - rewrite E. apply H. intros i _. reflexivity.
  - destruct E as (h & E & M). exists h. split; [|exact M]. intros z. apply (IH f F); [|apply E]. intros g' A. apply H. eapply agree_put, A.
Qed.

Lemma expectation_shift n ks : forall f g m, expectation ks f (fun k => g (n + k)%nat) m -> expectation (map (Nat.add n) ks) (fun g => f (fun k => g (n + k)%nat)) g m.
Proof.
  induction ks as [|k ks IH]; intros f g m E; cbn [expectation map] in *; [exact E|].
  destruct E as (h & E & M). exists h. split; [|exact M]. intros z. apply IH. specialize (E z).
  replace (fun i => put (n + k) z g (n + i)%nat) with (put k z (fun i => g (n + i)%nat)); [exact E|].
  apply FunctionalExtensionality.functional_extensionality. intros i. unfold put.
  destruct (Nat.eqb_spec i k), (Nat.eqb_spec (n + i) (n + k)); try reflexivity; lia.
Qed.

(** Sum of [f k] over a list. *)
Fixpoint lsum (ks : list nat) (f : nat -> R) : R := match ks with [] => 0 | k :: ks => f k + lsum ks f end.

(** The mean of a product of affine functions of the draws, and of an exponential times
    an affine function. *)
Lemma expectation_product ks : NoDup ks -> forall f A B a b g,
  (forall g', agree_off ks g g' -> f g' = (A + lsum ks (fun k => a k * g' k)) * (B + lsum ks (fun k => b k * g' k))) ->
  expectation ks f g (A * B + lsum ks (fun k => a k * b k)).
Proof.
  induction ks as [|k ks IH]; intros ND f A B a b g H; cbn [expectation lsum] in *.
  - rewrite H by (intros i _; reflexivity). ring.
  - inversion ND as [|? ? NI ND']; subst. exists (fun z => (A + a k * z) * (B + b k * z) + lsum ks (fun k => a k * b k)). split.
    + intros z. apply (IH ND'). intros g' AG. rewrite (H g' (agree_put _ _ _ _ _ AG)), (agree_put_self _ _ _ _ _ NI AG). ring.
    + eapply mean_ext; [| |apply (mean_square (A * B + lsum ks (fun k => a k * b k)) (A * b k + a k * B) (a k * b k))]; [intros z; cbn beta; ring|ring].
Qed.
Lemma expectation_exp ks : NoDup ks -> forall f A B a b g,
  (forall g', agree_off ks g g' -> f g' = exp (A + lsum ks (fun k => a k * g' k)) * (B + lsum ks (fun k => b k * g' k))) ->
  expectation ks f g (exp (A + lsum ks (fun k => a k * a k) / 2) * (B + lsum ks (fun k => a k * b k))).
Proof.
  induction ks as [|k ks IH]; intros ND f A B a b g H; cbn [expectation lsum] in *.
  - rewrite H by (intros i _; reflexivity). replace (0 / 2) with 0 by field. reflexivity.
  - inversion ND as [|? ? NI ND']; subst. exists (fun z => exp (A + a k * z + lsum ks (fun k => a k * a k) / 2) * (B + b k * z + lsum ks (fun k => a k * b k))). split.
    + intros z. apply (IH ND'). intros g' AG. rewrite (H g' (agree_put _ _ _ _ _ AG)), (agree_put_self _ _ _ _ _ NI AG). f_equal; [f_equal; ring|ring].
    + eapply mean_ext; [| |apply (mean_exp_affine (A + lsum ks (fun k => a k * a k) / 2) (a k) (B + lsum ks (fun k => a k * b k)) (b k))]; [intros z; cbn beta; f_equal; [f_equal; ring|ring]|].
      f_equal; [f_equal; field|ring].
Qed.

(** The tower property along [steps]: each step uses the next [d] draws, and [v] of the
    state, discounted by [c] of the state before the step, keeps its mean. *)
Fixpoint discounted {S : Type} (step : rng R_numbers -> S -> R -> outcome (rng R_numbers * S)) (c v : S -> R) (dt : R) (n : nat) (g : rng R_numbers) (s : S) (x : R) : Prop :=
  match n with
  | O => x = v s
  | Datatypes.S n => exists g1 s1 y, step g s dt = Ok (g1, s1) /\ discounted step c v dt n g1 s1 y /\ x = c s * y
  end.

Lemma seq_shift_add d n : forall a, map (Nat.add d) (seq a n) = seq (d + a) n.
Proof. induction n as [|n IH]; intros a; cbn; [reflexivity|]. rewrite IH. f_equal. f_equal. lia. Qed.

Lemma tower {S : Type} (step : rng R_numbers -> S -> R -> outcome (rng R_numbers * S)) (c v : S -> R) (dt : R) (d : nat) (Inv : S -> Prop) (F : S -> rng R_numbers -> S) :
  (forall s g, Inv s -> step g s dt = Ok (fun k => g (d + k)%nat, F s g)) ->
  (forall s g, Inv s -> Inv (F s g)) ->
  (forall s g g', (forall i, (i < d)%nat -> g i = g' i) -> F s g = F s g') ->
  (forall s g, Inv s -> expectation (seq 0 d) (fun g => c s * v (F s g)) g (v s)) ->
  forall n s g w, Inv s -> (forall g, discounted step c v dt n g s (w g)) -> expectation (seq 0 (n * d)) w g (v s).
Proof.
  intros ST IN LOC M.
  set (D := fix D (n : nat) (g : nat -> R) (s : S) : R := match n with O => v s | Datatypes.S n => c s * D n (fun k => g (d + k)%nat) (F s g) end).
  assert (U : forall n g s x, Inv s -> discounted step c v dt n g s x -> x = D n g s).
  { induction n as [|n IH]; intros g s x I H; cbn [discounted D] in *; [exact H|]. destruct H as (g1 & s1 & y & E & Y & ->).
    rewrite (ST _ _ I) in E. apply Ok_pair in E as [<- <-]. rewrite (IH _ _ _ (IN _ _ I) Y). reflexivity. }
  assert (T : forall n s g, Inv s -> expectation (seq 0 (n * d)) (fun g => D n g s) g (v s)).
  { induction n as [|n IH]; intros s g I; [reflexivity|]. cbn [Nat.mul]. rewrite seq_app.
    apply expectation_app with (F := fun g => c s * v (F s g)); [|apply M, I]. intros g1 _. cbn [Nat.add].
    replace (seq d (n * d)) with (map (Nat.add d) (seq 0 (n * d))) by (rewrite seq_shift_add, Nat.add_0_r; reflexivity).
    apply (expectation_ext _ (fun g => c s * D n (fun k => g (d + k)%nat) (F s g1))).
    - intros g' A. cbn [D]. rewrite (LOC s g' g1); [reflexivity|]. intros i L. apply A. rewrite in_map_iff. intros (j & <- & _). lia.
    - apply expectation_scal. apply (expectation_shift d _ (fun g => D n g (F s g1))). apply IH, IN, I. }
  intros n s g w I H. apply (expectation_ext _ (fun g => D n g s)); [|apply T, I]. intros g' _. symmetry. apply U; [exact I|apply H].
Qed.
