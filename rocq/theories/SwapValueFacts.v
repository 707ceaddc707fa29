(** Proofs about swap values. *)
From Coq Require Import ZArith Lia Lra Bool List Reals.
Import ListNotations.
From Verif Require Import Outcome Ints Date Calendar CalendarSpec CalendarFacts Names YieldCurve YieldCurveSpec
  YieldCurveFacts FxForward Swap SwapSpec.
Open Scope Z_scope.

Lemma Ok_R (x y : R) : Ok x = Ok y -> x = y.
Proof. congruence. Qed.

Fixpoint sumR (l : list R) : R := match l with [] => 0%R | x :: r => (x + sumR r)%R end.
Definition leg_value (pv : (date -> outcome R) -> leg -> accrual -> outcome R) (disc : date -> outcome R)
    (oc : bool) (v : date) (l : leg) : outcome R :=
  do s <- generate_schedule oc l v; do acc <- sum_pv (pv disc l) 0%R s; add_final disc l acc s.

Lemma sum_pv_iff f s : forall acc w,
  sum_pv f acc s = Ok w <-> exists xs, Forall2 (fun a x => f a = Ok x) s xs /\ w = (acc + sumR xs)%R.
Proof.
  induction s as [|a s IH]; intros acc w; cbn [sum_pv].
  - split.
    + intros H. apply Ok_R in H. subst w. exists []. split; [constructor|cbn; lra].
    + intros (xs & H & ->). inversion H; subst. cbn. f_equal. lra.
  - rewrite obind_Ok. split.
    + intros (x & Hx & H). apply IH in H. destruct H as (xs & F & ->). exists (x :: xs).
      split; [constructor; assumption|cbn; lra].
    + intros (xs & H & ->). inversion H as [|? x ? xs' Hx F]; subst. exists x. split; [assumption|].
      apply IH. exists xs'. split; [assumption|cbn; lra].
Qed.

Lemma add_final_acc disc l s acc w :
  add_final disc l acc s = Ok w <-> exists z, add_final disc l 0%R s = Ok z /\ w = (acc + z)%R.
Proof.
  unfold add_final. destruct (rev s) as [|a r].
  - split; [intros H; apply Ok_R in H; subst; eexists; split; [reflexivity|lra]
           |intros (z & H & ->); apply Ok_R in H; subst; f_equal; lra].
  - destruct (disc (pay_date a)) as [df| |]; cbn [obind].
    + split; [intros H; apply Ok_R in H; subst; eexists; split; [reflexivity|lra]
             |intros (z & H & ->); apply Ok_R in H; subst; f_equal; lra].
    + split; [discriminate|intros (z & H & _); discriminate].
    + split; [discriminate|intros (z & H & _); discriminate].
Qed.

Lemma leg_value_iff pv disc oc v l w : leg_value pv disc oc v l = Ok w <->
  exists s xs z, generate_schedule oc l v = Ok s /\ Forall2 (fun a x => pv disc l a = Ok x) s xs /\
    add_final disc l 0%R s = Ok z /\ w = (sumR xs + z)%R.
Proof.
  unfold leg_value. rewrite obind_Ok. split.
  - intros (s & Hs & H). apply obind_Ok in H. destruct H as (a & Ha & H).
    apply sum_pv_iff in Ha. destruct Ha as (xs & F & ->). apply add_final_acc in H. destruct H as (z & Hz & ->).
    exists s, xs, z. repeat (split; [assumption|]). lra.
  - intros (s & xs & z & Hs & F & Hz & ->). exists s. split; [assumption|]. apply obind_Ok.
    exists (0 + sumR xs)%R. split; [apply sum_pv_iff; eauto|]. apply add_final_acc. exists z. split; [assumption|lra].
Qed.

Lemma npv_cons pv disc oc v l r : forall acc w,
  npv_loop pv disc oc v acc (l :: r) = Ok w <->
  exists x, leg_value pv disc oc v l = Ok x /\ npv_loop pv disc oc v (acc + x)%R r = Ok w.
Proof.
  intros acc w. cbn [npv_loop]. rewrite obind_Ok. split.
  - intros (s & Hs & H). apply obind_Ok in H. destruct H as (a & Ha & H). apply obind_Ok in H.
    destruct H as (b & Hb & H). apply sum_pv_iff in Ha. destruct Ha as (xs & F & ->).
    apply add_final_acc in Hb. destruct Hb as (z & Hz & ->).
    exists (sumR xs + z)%R. split; [apply leg_value_iff; exists s, xs, z; auto|]. rewrite <- H. f_equal. lra.
  - intros (x & Hx & H). apply leg_value_iff in Hx. destruct Hx as (s & xs & z & Hs & F & Hz & ->).
    exists s. split; [assumption|]. apply obind_Ok. exists (acc + sumR xs)%R. split; [apply sum_pv_iff; eauto|].
    apply obind_Ok. exists (acc + sumR xs + z)%R. split; [apply add_final_acc; eauto|]. rewrite <- H. f_equal. lra.
Qed.

Lemma npv_iff pv disc oc v legs : forall acc w,
  npv_loop pv disc oc v acc legs = Ok w <->
  exists xs, Forall2 (fun l x => leg_value pv disc oc v l = Ok x) legs xs /\ w = (acc + sumR xs)%R.
Proof.
  induction legs as [|l r IH]; intros acc w.
  - cbn [npv_loop]. split.
    + intros H. apply Ok_R in H. subst w. exists []. split; [constructor|cbn; lra].
    + intros (xs & H & ->). inversion H; subst. cbn. f_equal. lra.
  - rewrite npv_cons. split.
    + intros (x & Hx & H). apply IH in H. destruct H as (xs & F & ->). exists (x :: xs).
      split; [constructor; assumption|cbn; lra].
    + intros (xs & H & ->). inversion H as [|? x ? xs' Hx F]; subst. exists x. split; [assumption|].
      apply IH. exists xs'. split; [assumption|cbn; lra].
Qed.

Lemma sumR_app a b : sumR (a ++ b) = (sumR a + sumR b)%R.
Proof. induction a as [|x a IH]; cbn; [lra|]. rewrite IH. lra. Qed.

Lemma npv_app pv disc oc v a b w :
  npv_loop pv disc oc v 0%R (a ++ b) = Ok w <->
  exists x y, npv_loop pv disc oc v 0%R a = Ok x /\ npv_loop pv disc oc v 0%R b = Ok y /\ w = (x + y)%R.
Proof.
  rewrite npv_iff. split.
  - intros (xs & F & ->). apply Forall2_app_inv_l in F. destruct F as (x1 & x2 & F1 & F2 & ->).
    exists (0 + sumR x1)%R, (0 + sumR x2)%R. rewrite sumR_app.
    split; [apply npv_iff; eauto|]. split; [apply npv_iff; eauto|lra].
  - intros (x & y & A & B & ->). apply npv_iff in A, B. destruct A as (x1 & F1 & ->), B as (x2 & F2 & ->).
    exists (x1 ++ x2). split; [apply Forall2_app; assumption|rewrite sumR_app; lra].
Qed.

Lemma npv_perm pv disc oc v a b w : Permutation.Permutation a b ->
  npv_loop pv disc oc v 0%R a = Ok w -> npv_loop pv disc oc v 0%R b = Ok w.
Proof.
  intros P. revert w. induction P as [|l a b P IH|l m a|a b c P1 IH1 P2 IH2]; intros w H.
  - exact H.
  - apply npv_iff in H. destruct H as (xs & F & E). inversion F as [|? x ? xs' Hx F' E1 E2]; subst.
    assert (G : npv_loop pv disc oc v 0%R a = Ok (0 + sumR xs')%R) by (apply npv_iff; eauto).
    apply IH, npv_iff in G. destruct G as (ys & G & E). apply npv_iff. exists (x :: ys).
    split; [constructor; assumption|cbn; lra].
  - apply npv_iff in H. destruct H as (xs & F & E). inversion F as [|? x ? xs' Hx F' E1 E2]; subst.
    inversion F' as [|? y ? ys Hy F'']; subst. apply npv_iff. exists (y :: x :: ys).
    split; [repeat constructor; assumption|cbn; lra].
  - auto.
Qed.

(** ** Direction and notional *)

Lemma schedule_loop_flip oc l eff k : forall st n,
  schedule_loop oc (flip_leg l) eff st n k = schedule_loop oc l eff st n k.
Proof.
  induction k as [|k IH]; intros st n; [reflexivity|]. cbn [schedule_loop].
  change (schedule_period oc (flip_leg l) eff st n) with (schedule_period oc l eff st n).
  destruct (schedule_period oc l eff st n); cbn [obind]; try reflexivity. rewrite IH. reflexivity.
Qed.

Lemma generate_flip oc l v : generate_schedule oc (flip_leg l) v = generate_schedule oc l v.
Proof.
  unfold generate_schedule. cbn [flip_leg l_schedule l_tenor l_duration]. destruct (l_schedule l); [|reflexivity].
  change (effective_date oc (flip_leg l) v) with (effective_date oc l v).
  destruct (effective_date oc l v) as [e| |]; cbn [obind]; try reflexivity.
  destruct (ounwrap e); cbn [obind]; try reflexivity. destruct (_ =? _); try reflexivity.
  destruct (succ_u32 _ _); cbn [obind]; try reflexivity. apply schedule_loop_flip.
Qed.

Lemma sign_flip l : sign (l_direction (flip_leg l)) = (- sign (l_direction l))%R.
Proof. cbn [flip_leg l_direction]. destruct (l_direction l); cbn [sign]; lra. Qed.

Lemma period_flip disc l a x : period_pv disc l a = Ok x -> period_pv disc (flip_leg l) a = Ok (- x)%R.
Proof.
  unfold period_pv. rewrite sign_flip. cbn [flip_leg l_day_counter l_type]. intros H.
  apply obind_Ok in H. destruct H as (c & Hc & H). apply obind_Ok in H. destruct H as (yf & Hyf & H).
  apply obind_Ok in H. destruct H as (r & Hr & H). apply obind_Ok in H. destruct H as (df & Hdf & H).
  apply Ok_R in H. subst x. rewrite Hc, Hyf. cbn [obind]. rewrite Hr. cbn [obind]. rewrite Hdf. cbn [obind].
  f_equal. lra.
Qed.

Lemma leg_flip disc oc v l x : leg_value period_pv disc oc v l = Ok x ->
  leg_value period_pv disc oc v (flip_leg l) = Ok (- x)%R.
Proof.
  intros H. apply leg_value_iff in H. destruct H as (s & xs & z & Hs & F & Hz & ->). apply leg_value_iff.
  exists s, (map Ropp xs), (- z)%R. rewrite generate_flip. split; [assumption|]. split.
  { clear Hs Hz. induction F; constructor; auto using period_flip. }
  split.
  { unfold add_final in *. destruct (rev s); [apply Ok_R in Hz; subst; f_equal; lra|].
    destruct (disc (pay_date a)); cbn [obind] in *; try discriminate. apply Ok_R in Hz. subst z.
    rewrite sign_flip. f_equal. lra. }
  clear. assert (E : sumR (map Ropp xs) = (- sumR xs)%R) by (induction xs as [|a xs IH]; cbn; [lra|rewrite IH; lra]).
  lra.
Qed.

Lemma schedule_loop_scale oc k l eff m : forall st n,
  schedule_loop oc (scale_leg k l) eff st n m =
  (do s <- schedule_loop oc l eff st n m; Ok (map (scale_accrual k) s)).
Proof.
  induction m as [|m IH]; intros st n; [reflexivity|]. cbn [schedule_loop].
  assert (E : schedule_period oc (scale_leg k l) eff st n =
    do a <- schedule_period oc l eff st n; Ok (scale_accrual k a)).
  { unfold schedule_period. cbn [scale_leg l_frequency l_calendar l_convention l_index l_pay_delay l_days_before_accrual l_notional].
    repeat match goal with |- context [obind ?x _] => destruct x; cbn [obind]; try reflexivity end. }
  rewrite E. destruct (schedule_period oc l eff st n) as [a| |]; cbn [obind]; try reflexivity.
  rewrite IH. cbn [scale_accrual accrual_end]. destruct (schedule_loop oc l eff (accrual_end a) (n + 1) m); reflexivity.
Qed.

Lemma generate_scale oc k l v : generate_schedule oc (scale_leg k l) v =
  (do s <- generate_schedule oc l v; Ok (map (scale_accrual k) s)).
Proof.
  unfold generate_schedule. cbn [scale_leg l_schedule l_tenor l_duration].
  destruct (l_schedule l) as [|a r]; [|reflexivity]. cbn [map].
  change (effective_date oc (scale_leg k l) v) with (effective_date oc l v).
  destruct (effective_date oc l v) as [e| |]; cbn [obind]; try reflexivity.
  destruct (ounwrap e); cbn [obind]; try reflexivity. destruct (_ =? _); try reflexivity.
  destruct (succ_u32 _ _); cbn [obind]; try reflexivity. apply schedule_loop_scale.
Qed.

Lemma period_scale disc k l a x : period_pv disc l a = Ok x ->
  period_pv disc (scale_leg k l) (scale_accrual k a) = Ok (k * x)%R.
Proof.
  unfold period_pv. cbn [scale_leg l_day_counter l_type l_direction scale_accrual accrual_start accrual_end pay_date balance].
  intros H. apply obind_Ok in H. destruct H as (c & Hc & H). apply obind_Ok in H. destruct H as (yf & Hyf & H).
  apply obind_Ok in H. destruct H as (r & Hr & H). apply obind_Ok in H. destruct H as (df & Hdf & H).
  apply Ok_R in H. subst x. rewrite Hc, Hyf. cbn [obind]. rewrite Hr. cbn [obind]. rewrite Hdf. cbn [obind].
  f_equal. lra.
Qed.

Lemma leg_scale disc oc v k l x : leg_value period_pv disc oc v l = Ok x ->
  leg_value period_pv disc oc v (scale_leg k l) = Ok (k * x)%R.
Proof.
  intros H. apply leg_value_iff in H. destruct H as (s & xs & z & Hs & F & Hz & ->). apply leg_value_iff.
  exists (map (scale_accrual k) s), (map (Rmult k) xs), (k * z)%R. rewrite generate_scale, Hs.
  split; [reflexivity|]. split.
  { clear Hs Hz. induction F; cbn [map]; constructor; auto using period_scale. }
  split.
  { unfold add_final in *. rewrite <- map_rev. destruct (rev s); cbn [map].
    - apply Ok_R in Hz; subst; f_equal; lra.
    - cbn [scale_accrual pay_date balance scale_leg l_direction].
      destruct (disc (pay_date a)); cbn [obind] in *; try discriminate. apply Ok_R in Hz. subst z. f_equal. lra. }
  clear. assert (E : sumR (map (Rmult k) xs) = (k * sumR xs)%R) by (induction xs as [|a xs IH]; cbn; [lra|rewrite IH; lra]).
  lra.
Qed.

Lemma npv_map disc oc v legs (g : leg -> leg) (k : R) w :
  (forall l x, In l legs -> leg_value period_pv disc oc v l = Ok x -> leg_value period_pv disc oc v (g l) = Ok (k * x)%R) ->
  npv_loop period_pv disc oc v 0%R legs = Ok w -> npv_loop period_pv disc oc v 0%R (map g legs) = Ok (k * w)%R.
Proof.
  intros G H. apply npv_iff in H. destruct H as (xs & F & ->). apply npv_iff. exists (map (Rmult k) xs). split.
  - clear -F G. induction F as [|l x legs xs Hx F IH]; cbn [map]; constructor.
    + apply G; [left; reflexivity|assumption].
    + apply IH. intros l' x' I. apply G. right; assumption.
  - clear. assert (E : sumR (map (Rmult k) xs) = (k * sumR xs)%R) by (induction xs as [|a xs IH]; cbn; [lra|rewrite IH; lra]).
    lra.
Qed.

(** ** The floating leg *)

Lemma last_shift {A} (x d : A) l : last (x :: l) d = last l x.
Proof. revert x d. induction l as [|y l IH]; intros x d; [reflexivity|]. change (last (x :: y :: l) d) with (last (y :: l) d). rewrite !IH. reflexivity. Qed.

Lemma float_telescopes disc l N s : l_type l = Float 0 -> forall st ds xs,
  contiguous st s -> disc st = Ok ds -> (forall d p, disc d = Ok p -> (0 < p)%R) ->
  (forall a, In a s -> pay_date a = accrual_end a /\ balance a = N) ->
  (forall a t, In a s -> dc_yf (l_day_counter l) (accrual_start a) (accrual_end a) = Ok t -> t <> 0%R) ->
  Forall2 (fun a x => period_pv disc l a = Ok x) s xs ->
  exists de, disc (last (map accrual_end s) st) = Ok de /\ sumR xs = (sign (l_direction l) * N * (ds - de))%R.
Proof.
  intros T. induction s as [|a s IH]; intros st ds xs C D Pos B Y F.
  - inversion F; subst. exists ds. split; [exact D|]. cbn. lra.
  - inversion F as [|? x ? xs' Hx F']; subst. destruct C as [Ca C]. subst st.
    unfold period_pv in Hx. rewrite T in Hx.
    apply obind_Ok in Hx. destruct Hx as (c & Hc & H). apply obind_Ok in H. destruct H as (yf & Hyf & H).
    apply obind_Ok in H. destruct H as (r & Hr & H). apply obind_Ok in H. destruct H as (df & Hdf & H).
    apply obind_Ok in Hr. destruct Hr as (d1 & Hd1 & Hr). apply obind_Ok in Hr. destruct Hr as (d2 & Hd2 & Hr).
    apply Ok_R in Hr. apply Ok_R in H. destruct (B a (or_introl eq_refl)) as [Bp Bb].
    rewrite Bp, Hd2 in Hdf. apply Ok_R in Hdf. subst df.
    rewrite D in Hd1. apply Ok_R in Hd1. subst d1.
    pose proof (Y a yf (or_introl eq_refl) Hyf) as Ny. pose proof (Pos _ _ Hd2) as Pd.
    destruct (IH (accrual_end a) d2 xs' C Hd2 Pos) as (de & De & E); auto.
    { intros a' I. apply B. right; assumption. } { intros a' t I. apply Y. right; assumption. }
    exists de. split.
    { cbn [map]. rewrite last_shift. exact De. }
    cbn [sumR]. rewrite E. subst x r. rewrite Bb. field. split; lra.
Qed.

(** ** Shifts *)

Lemma period_shift disc disc' l a x : (forall d p, disc d = Ok p -> disc' d = Ok p) ->
  period_pv disc l a = Ok x -> period_pv_shift disc' l a = Ok x.
Proof.
  intros D. unfold period_pv, period_pv_shift. intros H.
  apply obind_Ok in H. destruct H as (c & _ & H). apply obind_Ok in H. destruct H as (yf & Hyf & H).
  apply obind_Ok in H. destruct H as (r & Hr & H). apply obind_Ok in H. destruct H as (df & Hdf & H).
  rewrite Hyf. cbn [obind]. apply D in Hdf.
  assert (Hr' : match l_type l with Fixed coupon => Ok coupon | Float spread =>
     do df_start <- disc' (accrual_start a); do df_end <- disc' (accrual_end a);
     Ok ((df_start / df_end - 1) / yf + spread)%R end = Ok r).
  { destruct (l_type l); [|exact Hr]. apply obind_Ok in Hr. destruct Hr as (d1 & H1 & Hr).
    apply obind_Ok in Hr. destruct Hr as (d2 & H2 & Hr). rewrite (D _ _ H1). cbn [obind]. rewrite (D _ _ H2). exact Hr. }
  rewrite Hr'. cbn [obind]. rewrite Hdf. exact H.
Qed.

Lemma period_unshift disc disc' l a x : (forall d p, disc d = Ok p -> disc' d = Ok p) ->
  (exists n, dc_count (l_day_counter l) (accrual_start a) (accrual_end a) = Ok n) ->
  period_pv_shift disc l a = Ok x -> period_pv disc' l a = Ok x.
Proof.
  intros D (n & Hn). unfold period_pv, period_pv_shift. intros H.
  rewrite Hn. cbn [obind]. apply obind_Ok in H. destruct H as (yf & Hyf & H).
  apply obind_Ok in H. destruct H as (r & Hr & H). apply obind_Ok in H. destruct H as (df & Hdf & H).
  rewrite Hyf. cbn [obind]. apply D in Hdf.
  assert (Hr' : match l_type l with Fixed coupon => Ok coupon | Float spread =>
     do df_start <- disc' (accrual_start a); do df_end <- disc' (accrual_end a);
     Ok ((df_start / df_end - 1) / yf + spread)%R end = Ok r).
  { destruct (l_type l); [|exact Hr]. apply obind_Ok in Hr. destruct Hr as (d1 & H1 & Hr).
    apply obind_Ok in Hr. destruct Hr as (d2 & H2 & Hr). rewrite (D _ _ H1). cbn [obind]. rewrite (D _ _ H2). exact Hr. }
  rewrite Hr'. cbn [obind]. rewrite Hdf. exact H.
Qed.

Lemma npv_transfer pv pv' disc disc' oc v legs w :
  (forall d p, disc d = Ok p -> disc' d = Ok p) ->
  (forall l a x, In l legs -> pv disc l a = Ok x -> pv' disc' l a = Ok x) ->
  npv_loop pv disc oc v 0%R legs = Ok w -> npv_loop pv' disc' oc v 0%R legs = Ok w.
Proof.
  intros D G H. apply npv_iff in H. destruct H as (xs & F & ->). apply npv_iff. exists xs. split; [|reflexivity].
  clear -F G D. induction F as [|l x legs xs Hx F IH]; constructor.
  - apply leg_value_iff in Hx. destruct Hx as (s & ys & z & Hs & F' & Hz & ->). apply leg_value_iff.
    exists s, ys, z. split; [assumption|]. split.
    + clear -F' G. induction F' as [|a y s ys Hy F' IH]; constructor; [apply G; [left; reflexivity|assumption]|assumption].
    + split; [|reflexivity]. unfold add_final in *. destruct (rev s) as [|a r]; [assumption|].
      apply obind_Ok in Hz. destruct Hz as (df & Hdf & Hz). rewrite (D _ _ Hdf). exact Hz.
  - apply IH. intros l' a' x' I. apply G. right; assumption.
Qed.
