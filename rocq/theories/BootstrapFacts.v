(** Proofs about the bootstrap. *)
From Coq Require Import ZArith Lia Lra Bool List Reals Permutation Sorting.Sorted.
Import ListNotations.
From Verif Require Import Outcome Ints Date DateFacts Calendar CalendarSpec CalendarFacts AdjustFacts AdvanceFacts
  Names Shipped Sorting Fx Imm YieldCurve YieldCurveSpec YieldCurveFacts FxForward Swap SwapSpec SwapFacts SwapValueFacts
  Bootstrap.
Open Scope Z_scope.
Local Ltac lia := unfold date in *; Lia.lia.

Lemma unwrapped_Ok x d : unwrapped x = Ok d <-> x = Ok (Some d).
Proof.
  unfold unwrapped. rewrite obind_Ok. split.
  - intros (o & -> & H). destruct o; [|discriminate]. cbn in H. congruence.
  - intros ->. exists (Some d). auto.
Qed.

Lemma result_unwrap_Ok {A} (x : outcome A) a : result_unwrap x = Ok a <-> x = Ok a.
Proof. destruct x; cbn; split; congruence. Qed.

(** ** Cash *)

Lemma ois_zero_inv oc q v z : ois_zero_rate oc q v = Ok z ->
  exists s m t, ois_settle oc q v = Ok s /\ ois_maturity oc q v = Ok m /\
    dc_yf (ix_day_counter (ois_index q)) s m = Ok t /\
    z = (- ln (1 / (1 + t * ois_value q)) / yf365 s m)%R.
Proof.
  unfold ois_zero_rate. intros H. apply obind_Ok in H. destruct H as (s & Hs & H).
  apply obind_Ok in H. destruct H as (m & Hm & H). apply obind_Ok in H. destruct H as (t & Ht & H).
  cbv zeta in H. apply Ok_R in H. exists s, m, t. auto.
Qed.

Lemma yf365_nonzero s m : s <> m -> (yf365 s m <> 0)%R.
Proof.
  intros N. unfold yf365, Rdiv. apply Rmult_integral_contrapositive_currified; [|lra].
  apply not_0_IZR. lia.
Qed.

Lemma exp_solve (x t : R) : (0 < x)%R -> (t <> 0)%R -> exp (- (- ln x / t) * t) = x.
Proof. intros Hx Ht. replace (- (- ln x / t) * t)%R with (ln x) by (field; exact Ht). apply exp_ln, Hx. Qed.

Lemma ois_reprices oc q v z s m t : ois_zero_rate oc q v = Ok z ->
  ois_settle oc q v = Ok s -> ois_maturity oc q v = Ok m -> dc_yf (ix_day_counter (ois_index q)) s m = Ok t ->
  s <> m -> (0 < 1 + t * ois_value q)%R -> ((1 + t * ois_value q) * exp (- z * yf365 s m) = 1)%R.
Proof.
  intros H Hs Hm Ht N P. apply ois_zero_inv in H. destruct H as (s' & m' & t' & Hs' & Hm' & Ht' & ->).
  rewrite Hs in Hs'. injection Hs' as <-. rewrite Hm in Hm'. injection Hm' as <-.
  rewrite Ht in Ht'. apply Ok_R in Ht'. subst t'.
  rewrite exp_solve; [field; lra| |apply yf365_nonzero, N]. apply Rdiv_lt_0_compat; lra.
Qed.

(** ** The cash part of the curve *)

Lemma cash_maturities_inv oc v l ms : cash_maturities oc v l = Ok ms ->
  Forall2 (fun q m => ois_maturity oc q v = Ok m) l ms.
Proof.
  revert ms. induction l as [|q r IH]; intros ms H; cbn [cash_maturities] in H.
  - injection H as <-. constructor.
  - apply obind_Ok in H. destruct H as (m & Hm & H). apply obind_Ok in H. destruct H as (ms' & Hms & H).
    injection H as <-. apply (proj1 (result_unwrap_Ok _ _)) in Hm. constructor; [exact Hm|apply IH, Hms].
Qed.

Lemma cash_pillar_inv oc v q p : cash_pillar oc v q = Ok p ->
  ois_settle oc q v = Ok (first_settle_date p) /\ ois_maturity oc q v = Ok (p_date p) /\
  market_rate p = ois_value q /\ ois_zero_rate oc q v = Ok (p_zero_rate p) /\ ois_discount oc q v = Ok (p_discount p) /\
  source p = SourceOIS /\ (hidden_pillar p = true <-> ix_period (ois_index q) = Weeks 1).
Proof.
  unfold cash_pillar. intros H. apply obind_Ok in H. destruct H as (s & Hs & H). apply obind_Ok in H.
  destruct H as (m & Hm & H). apply obind_Ok in H. destruct H as (z & Hz & H). apply obind_Ok in H.
  destruct H as (d & Hd & H). apply (f_equal (fun o => match o with Ok x => x | _ => p end)) in H. subst p. cbn [first_settle_date p_date market_rate p_zero_rate p_discount source hidden_pillar].
  repeat (split; [assumption||reflexivity|]).
  destruct (ix_period (ois_index q)) as [| | | |n|n|n|n]; try (split; [discriminate|congruence]).
  destruct n as [|[?|?|]|?]; split; congruence.
Qed.

Definition matures oc v m q : bool := match ois_maturity oc q v with Ok m' => m' =? m | _ => false end.

Lemma cash_at_inv oc v m l ps : cash_at oc v m l = Ok ps ->
  Forall2 (fun q p => cash_pillar oc v q = Ok p) (filter (matures oc v m) l) ps.
Proof.
  revert ps. induction l as [|q r IH]; intros ps H; cbn [cash_at] in H.
  - injection H as <-. constructor.
  - apply obind_Ok in H. destruct H as (m' & Hm & H). apply (proj1 (result_unwrap_Ok _ _)) in Hm.
    cbn [filter]. unfold matures at 1. rewrite Hm. destruct (m' =? m).
    + apply obind_Ok in H. destruct H as (p & Hp & H). apply obind_Ok in H. destruct H as (ps' & Hps & H).
      injection H as <-. constructor; [exact Hp|apply IH, Hps].
    + apply IH, H.
Qed.

Lemma cash_loop_inv oc v l ms ps : cash_loop oc v l ms = Ok ps ->
  Forall2 (fun q p => cash_pillar oc v q = Ok p) (flat_map (fun m => filter (matures oc v m) l) ms) ps.
Proof.
  revert ps. induction ms as [|m r IH]; intros ps H; cbn [cash_loop] in H.
  - injection H as <-. constructor.
  - apply obind_Ok in H. destruct H as (p1 & H1 & H). apply obind_Ok in H. destruct H as (p2 & H2 & H).
    injection H as <-. cbn [flat_map]. apply Forall2_app; [apply cash_at_inv, H1|apply IH, H2].
Qed.

Lemma Forall2_length' {A B} (R : A -> B -> Prop) l1 l2 : Forall2 R l1 l2 -> length l1 = length l2.
Proof. induction 1; cbn; congruence. Qed.

(** Dates of the cash part do not decrease. *)
Lemma cash_at_dates oc v m l ps p : cash_at oc v m l = Ok ps -> In p ps -> p_date p = m.
Proof.
  intros H I. apply cash_at_inv in H. remember (filter (matures oc v m) l) as qs eqn:E.
  assert (G : forall q, In q qs -> matures oc v m q = true) by (intros q Iq; subst qs; apply filter_In in Iq; apply Iq).
  clear E. induction H as [|q p' qs ps Hp F IH]; [destruct I|].
  destruct I as [->|I].
  - apply cash_pillar_inv in Hp. destruct Hp as (_ & Hm & _). pose proof (G q (or_introl eq_refl)) as M.
    unfold matures in M. rewrite Hm in M. apply Z.eqb_eq in M. exact M.
  - apply IH; [exact I|]. intros q' Iq. apply G. right; exact Iq.
Qed.

Lemma cash_loop_dates oc v l ms : forall ps p, cash_loop oc v l ms = Ok ps -> In p ps -> In (p_date p) ms.
Proof.
  induction ms as [|m r IH]; intros ps p H I; cbn [cash_loop] in H.
  - injection H as <-. destruct I.
  - apply obind_Ok in H. destruct H as (p1 & H1 & H). apply obind_Ok in H. destruct H as (p2 & H2 & H).
    injection H as <-. apply in_app_or in I. destruct I as [I|I].
    + left. symmetry. eapply cash_at_dates; eassumption.
    + right. eapply IH; eassumption.
Qed.

Lemma sorted_app {A} (R : A -> A -> Prop) l1 l2 : StronglySorted R l1 -> StronglySorted R l2 ->
  (forall a b, In a l1 -> In b l2 -> R a b) -> StronglySorted R (l1 ++ l2).
Proof.
  intros S1 S2 H. induction l1 as [|a l1 IH]; [exact S2|]. inversion S1 as [|? ? S1' F]; subst. cbn. constructor.
  - apply IH; [exact S1'|]. intros x y Ix Iy. apply H; [right; exact Ix|exact Iy].
  - apply Forall_app. split; [exact F|]. apply Forall_forall. intros y Iy. apply H; [left; reflexivity|exact Iy].
Qed.

Lemma cash_loop_sorted oc v l ms : StronglySorted Z.le ms -> forall ps, cash_loop oc v l ms = Ok ps ->
  StronglySorted (fun a b => p_date a <= p_date b) ps.
Proof.
  induction ms as [|m r IH]; intros S ps H; cbn [cash_loop] in H.
  - injection H as <-. constructor.
  - apply obind_Ok in H. destruct H as (p1 & H1 & H). apply obind_Ok in H. destruct H as (p2 & H2 & H).
    injection H as <-. inversion S as [|? ? S' F]; subst. apply sorted_app.
    + assert (G : forall p, In p p1 -> p_date p = m) by (intros p; eapply cash_at_dates; eassumption).
      clear -G. induction p1 as [|a p1 IH]; constructor.
      * apply IH. intros p I. apply G. right; exact I.
      * apply Forall_forall. intros b I. rewrite (G a (or_introl eq_refl)), (G b (or_intror I)). lia.
    + apply IH; assumption.
    + intros a b Ia Ib. rewrite (cash_at_dates _ _ _ _ _ _ H1 Ia). rewrite Forall_forall in F. apply F.
      eapply cash_loop_dates; eassumption.
Qed.

(** Counting entries. *)
Lemma flat_map_length {A B} (f : A -> list B) l : length (flat_map f l) = fold_right (fun a n => (length (f a) + n)%nat) 0%nat l.
Proof. induction l as [|a l IH]; cbn; [reflexivity|]. rewrite app_length, IH. reflexivity. Qed.

Lemma fold_count_perm {A} (f : A -> nat) l l' : Permutation l l' ->
  fold_right (fun a n => (f a + n)%nat) 0%nat l = fold_right (fun a n => (f a + n)%nat) 0%nat l'.
Proof. induction 1; cbn; lia. Qed.

(** With distinct maturities every quote has one entry. *)
Lemma filter_single oc v l ms q m : Forall2 (fun q m => ois_maturity oc q v = Ok m) l ms -> NoDup ms ->
  In q l -> ois_maturity oc q v = Ok m -> filter (matures oc v m) l = [q].
Proof.
  intros F. revert q m. induction F as [|q0 m0 l ms H F IH]; intros q m Nd I Hm; [destruct I|].
  inversion Nd as [|? ? N1 N2]; subst. cbn [filter]. unfold matures at 1. rewrite H.
  assert (None_ : forall x, ~ In x ms -> filter (matures oc v x) l = []).
  { clear -F. intros x Nx. induction F as [|q m l ms H F IH]; [reflexivity|]. cbn [filter]. unfold matures at 1. rewrite H.
    destruct (Z.eqb_spec m x) as [->|]; [exfalso; apply Nx; left; reflexivity|]. apply IH. intros I. apply Nx. right; exact I. }
  destruct I as [->|I].
  - rewrite Hm in H. injection H as <-. rewrite Z.eqb_refl. rewrite None_ by assumption. reflexivity.
  - assert (In m ms).
    { clear -F I Hm. induction F as [|q' m' l ms H F IH]; [destruct I|]. destruct I as [->|I]; [left; congruence|right; auto]. }
    destruct (Z.eqb_spec m0 m) as [->|]; [contradiction|]. apply IH; assumption.
Qed.

(** ** Futures and swaps *)

Lemma futures_loop_inv oc depth now v l : forall outputs ps, futures_loop oc depth now v outputs l = Ok ps ->
  exists fs, ps = outputs ++ fs /\
    Forall2 (fun f p => fut_settle oc depth now f v = Ok (first_settle_date p) /\
                        fut_maturity oc depth now f v = Ok (p_date p) /\ market_rate p = fut_value f /\
                        source p = SourceFutures /\ hidden_pillar p = false) l fs.
Proof.
  induction l as [|f r IH]; intros outputs ps H; cbn [futures_loop] in H.
  - injection H as <-. exists []. rewrite app_nil_r. split; [reflexivity|constructor].
  - apply obind_Ok in H. destruct H as (s & Hs & H). apply obind_Ok in H. destruct H as (m & Hm & H).
    apply obind_Ok in H. destruct H as (z & Hz & H). apply obind_Ok in H. destruct H as (d & Hd & H).
    apply IH in H. destruct H as (fs & -> & F). eexists. rewrite <- app_assoc. cbn [app]. split; [reflexivity|].
    constructor; [cbn; auto|exact F].
Qed.

(** Entry [i] among the futures is computed from the entries before it. *)
Lemma futures_loop_zero oc depth now v l : forall outputs ps, futures_loop oc depth now v outputs l = Ok ps ->
  exists fs, ps = outputs ++ fs /\ length fs = length l /\
    forall i f p, nth_error l i = Some f -> nth_error fs i = Some p ->
      fut_zero_rate oc depth now f v (outputs ++ firstn i fs) = Ok (p_zero_rate p) /\
      fut_discount oc depth now f v (outputs ++ firstn i fs) = Ok (p_discount p).
Proof.
  induction l as [|f r IH]; intros outputs ps H; cbn [futures_loop] in H.
  - injection H as <-. exists []. rewrite app_nil_r. repeat (split; [reflexivity|]). intros [|i] f p H; discriminate.
  - apply obind_Ok in H. destruct H as (s & Hs & H). apply obind_Ok in H. destruct H as (m & Hm & H).
    apply obind_Ok in H. destruct H as (z & Hz & H). apply obind_Ok in H. destruct H as (d & Hd & H).
    apply IH in H. destruct H as (fs & -> & L & F). eexists. rewrite <- app_assoc. cbn [app]. split; [reflexivity|].
    split; [cbn; congruence|]. intros [|i] f' p Hi Hp; cbn in Hi, Hp.
    + injection Hi as <-. injection Hp as <-. cbn [firstn p_zero_rate p_discount]. rewrite app_nil_r. auto.
    + destruct (F i f' p Hi Hp) as [A B]. cbn [firstn]. rewrite <- app_assoc in A, B. cbn [app] in A, B. auto.
Qed.

Lemma swaps_loop_inv brent oc v l : forall outputs ps, swaps_loop brent oc v outputs l = Ok ps ->
  exists ss, ps = outputs ++ ss /\
    Forall2 (fun w p => swap_settle_date oc w v = Ok (first_settle_date p) /\
                        swap_maturity_date oc w v = Ok (p_date p) /\ p_discount p = 0%R /\
                        source p = SourceSwap /\ hidden_pillar p = false /\ exists f r, w = f :: r /\ market_rate p = reference_rate f) l ss.
Proof.
  induction l as [|w r IH]; intros outputs ps H; cbn [swaps_loop] in H.
  - injection H as <-. exists []. rewrite app_nil_r. split; [reflexivity|constructor].
  - apply obind_Ok in H. destruct H as (s & Hs & H). apply obind_Ok in H. destruct H as (m & Hm & H).
    apply obind_Ok in H. destruct H as (f & Hf & H). cbv zeta in H. apply obind_Ok in H. destruct H as (z & Hz & H).
    unfold amend_last in H. rewrite rev_unit in H. cbn [obind] in H. rewrite rev_involutive in H.
    apply IH in H. destruct H as (ss & -> & F). eexists. rewrite <- app_assoc. cbn [app]. split; [reflexivity|].
    constructor; [|exact F]. cbn. repeat (split; [solve [auto]|]). destruct w as [|f' r']; [discriminate Hf|]. injection Hf as <-. eauto.
Qed.

(** ** The first future *)

Lemma cum_discount_eq l : forall prev acc, cum_discount prev l acc = (acc * cum_discount prev l 1)%R.
Proof.
  induction l as [|p r IH]; intros prev acc; cbn [cum_discount]; [ring|].
  rewrite IH, (IH _ (1 * _)%R). ring.
Qed.
Lemma cum_discount_pos l : forall prev, (0 < cum_discount prev l 1)%R.
Proof.
  induction l as [|p r IH]; intros prev; cbn [cum_discount]; [lra|]. rewrite cum_discount_eq.
  apply Rmult_lt_0_compat; [|apply IH]. rewrite Rmult_1_l. apply exp_pos.
Qed.

Lemma related_scan_in t l : forall first second a b, related_scan t first second l = (a, b) ->
  (a = first \/ In a l) /\ (b = second \/ In b l).
Proof.
  induction l as [|c r IH]; intros first second a b H; cbn [related_scan] in H.
  - injection H as <- <-. auto.
  - destruct (_ && _).
    + injection H as <- <-. split; [auto|right; left; reflexivity].
    + apply IH in H. destruct H as [[->|H1] [->|H2]]; cbn; auto.
Qed.
Lemma related_in l t p : related_pillar l t = Ok p -> In p l.
Proof.
  unfold related_pillar. destruct l as [|h r]; [discriminate|]. destruct (related_scan t h h (h :: r)) as [a b] eqn:E.
  apply related_scan_in in E. intros H. apply (f_equal (fun o => match o with Ok x => x | _ => h end)) in H. subst p.
  destruct E as [[->|E1] [->|E2]]; destruct (pillar_eqb _ _); destruct (_ <=? _); cbn; auto.
Qed.
