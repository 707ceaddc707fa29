(** Properties C41 to C43: interest rate swaps. *)
From Coq Require Import ZArith Lia Lra Bool List Reals Permutation.
From Coq Require Import ZifyBool.
Import ListNotations.
From Verif Require Import Outcome Ints Date DateFacts Calendar CalendarSpec CalendarFacts AdjustFacts AdvanceFacts
  PeriodFacts Names Shipped ShippedAdjust ClosureView Fx YieldCurve YieldCurveSpec YieldCurveFacts FxForward P_YieldCurve
  Swap SwapSpec SwapFacts SwapValueFacts.
Open Scope Z_scope.
Ltac Zify.zify_post_hook ::= Z.div_mod_to_equations.
Local Ltac lia := unfold date in *; Lia.lia.

(** A five-year annual leg on the weekends-only calendar. *)
Definition sample_counter : day_counter :=
  {| dc_count := fun a b => Ok (b - a); dc_yf := fun a b => Ok (yf365 a b) |}.
Definition sample_index : rate_index :=
  {| ix_period := Months 6; ix_settlement_days := 2; ix_currency := EUR; ix_calendar := weekends_only;
     ix_convention := ModifiedFollowing; ix_day_counter := sample_counter; ix_end_of_month := false |}.
Definition sample_leg (t : leg_type) (dir : direction) (n : R) (tenor duration : period) (delay : Z) : leg :=
  {| l_type := t; l_direction := dir; l_index := sample_index; l_notional := n; l_frequency := Annual;
     l_tenor := tenor; l_duration := duration; l_day_counter := sample_counter; l_calendar := weekends_only;
     l_convention := ModifiedFollowing; l_pay_delay := delay; l_days_before_accrual := 2; l_schedule := [] |}.


Lemma weekends_around d : of_ymd 1902 1 1 <= d <= of_ymd 2198 1 1 -> opens_around weekends_only d.
Proof.
  intros H. destruct closure_weekends_only as [U D].
  assert (K : of_ymd 1901 1 1 + 100 < of_ymd 1902 1 1 /\ of_ymd 2198 1 1 + 100 < of_ymd 2199 12 31) by (vm_compute; split; reflexivity).
  split.
  - destruct (U d) as (r & R & O); [lia|]. exists r. split; [lia|exact O].
  - destruct (D d) as (r & R & O); [lia|]. exists r. split; [lia|exact O].
Qed.

(** ** C41: schedules *)

(** A leg without a schedule of its own gets contiguous periods from its
    effective date, each carrying the leg's notional. *)
Theorem C41_contiguous : forall oc (l : leg) (v : date) (s : list accrual),
  l_schedule l = [] -> generate_schedule oc l v = Ok s ->
  exists eff, advance oc (l_calendar l) v (Days (ix_settlement_days (l_index l))) (l_convention l)
                (Some (ix_end_of_month (l_index l))) = Ok (Some eff) /\
    contiguous eff s /\
    forall a, In a s -> balance a = l_notional l /\ amortisation a = l_notional l.
Proof.
  intros oc l v s E H. destruct (generate_inv _ _ _ _ E H) as (eff & last & He & _ & _ & Hl).
  destruct (schedule_loop_inv _ _ _ _ _ _ _ Hl) as (_ & C & N). exists eff. split; [exact He|]. split; [exact C|].
  intros a I. apply In_nth_error in I. destruct I as (i & I). apply N, schedule_period_inv in I.
  destruct I as (p & k & _ & _ & _ & _ & _ & _ & A & B). auto.
Qed.
Print Assumptions C41_contiguous.

(** An explicit schedule is used as it is. *)
Theorem C41_explicit : forall oc (l : leg) (v : date), l_schedule l <> [] ->
  generate_schedule oc l v = Ok (l_schedule l).
Proof. intros oc l v N. unfold generate_schedule. destruct (l_schedule l); congruence. Qed.
Print Assumptions C41_explicit.

(** The number of periods is the quotient of the numbers in duration and tenor,
    rounded down; so it is right when the two have the same unit. *)
Theorem C41_count_partial : forall oc (l : leg) (v : date) (s : list accrual) (unit : Z -> period) (t d : Z),
  (unit = Days \/ unit = Weeks \/ unit = Months \/ unit = Years) ->
  l_schedule l = [] -> l_tenor l = unit t -> l_duration l = unit d -> 1 <= t -> 0 <= d -> d < u32_max -> t < u32_max ->
  generate_schedule oc l v = Ok s ->
  t * Z.of_nat (length s) <= d < t * (Z.of_nat (length s) + 1).
Proof.
  intros oc l v s unit t d U E Ht Hd T1 D0 DM TM H.
  destruct (generate_inv _ _ _ _ E H) as (eff & last & _ & _ & Hs & Hl).
  destruct (schedule_loop_inv _ _ _ _ _ _ _ Hl) as (L & _ & _).
  assert (Nt : period_num (l_tenor l) = t).
  { rewrite Ht. unfold u32_max in *. destruct U as [->|[->|[->| ->]]]; cbn [period_num]; unfold wrap_u32;
      try rewrite Z.mod_small; lia. }
  assert (Nd : period_num (l_duration l) = d).
  { rewrite Hd. unfold u32_max in *. destruct U as [->|[->|[->| ->]]]; cbn [period_num]; unfold wrap_u32;
      try rewrite Z.mod_small; lia. }
  rewrite Nt, Nd in Hs. unfold succ_u32 in Hs.
  assert (Q : 0 <= d / t <= d).
  { split; [apply Z.div_pos; lia|]. apply Z.div_le_upper_bound; nia. }
  replace (is_u32 (d / t + 1)) with true in Hs by (symmetry; unfold is_u32; unfold u32_max in *; lia).
  injection Hs as <-. rewrite L. replace (d / t + 1 - 1) with (d / t) by ring. rewrite Z2Nat.id by apply Q.
  pose proof (Z.div_mod d t ltac:(lia)). pose proof (Z.mod_pos_bound d t ltac:(lia)). nia.
Qed.
Print Assumptions C41_count_partial.

(** The units are ignored: a one-year leg with a three-month tenor has no periods
    at all, and a tenor of zero panics. *)
Theorem C41_count_refuted :
  (exists oc l v, l_schedule l = [] /\ l_tenor l = Months 3 /\ l_duration l = Years 1 /\
     generate_schedule oc l v = Ok []) /\
  (exists oc l v, l_schedule l = [] /\ l_tenor l = Months 0 /\ l_duration l = Months 12 /\
     generate_schedule oc l v = Panic PArith).
Proof.
  split.
  - exists true, (sample_leg (Fixed 0) Buy 0 (Months 3) (Years 1) 0), (of_ymd 2023 10 13). vm_compute. auto.
  - exists true, (sample_leg (Fixed 0) Buy 0 (Months 0) (Months 12) 0), (of_ymd 2023 10 13). vm_compute. auto.
Qed.
Print Assumptions C41_count_refuted.

(** A negative tenor is not rejected: the cast makes it a huge one, and the leg
    has no periods. *)
Theorem C41_negative_tenor : forall oc (l : leg) (v : date) (s : list accrual) (unit : Z -> period) (t d : Z),
  (unit = Days \/ unit = Weeks) -> l_schedule l = [] -> l_tenor l = unit t -> l_duration l = unit d ->
  - 2 ^ 32 < t < 0 -> 0 <= d < 2 ^ 32 + t -> generate_schedule oc l v = Ok s -> s = [].
Proof.
  intros oc l v s unit t d U E Ht Hd T D H.
  destruct (generate_inv _ _ _ _ E H) as (eff & last & _ & _ & Hs & Hl).
  destruct (schedule_loop_inv _ _ _ _ _ _ _ Hl) as (L & _ & _).
  assert (Nt : period_num (l_tenor l) = t + 2 ^ 32).
  { rewrite Ht. assert (W : wrap_u32 t = t + 2 ^ 32) by (unfold wrap_u32; symmetry; apply (Z.mod_unique _ _ (-1)); lia).
    destruct U as [->| ->]; exact W. }
  assert (Nd : period_num (l_duration l) = d).
  { rewrite Hd. assert (W : wrap_u32 d = d) by (unfold wrap_u32; apply Z.mod_small; lia). destruct U as [->| ->]; exact W. }
  rewrite Nt, Nd, Z.div_small in Hs by lia. change (succ_u32 oc 0) with (Ok 1) in Hs.
  assert (X : last = 1) by congruence. rewrite X in L. destruct s; [reflexivity|discriminate L].
Qed.
Print Assumptions C41_negative_tenor.

Example C41_negative_tenor_witness :
  generate_schedule true (sample_leg (Fixed 0) Buy 0 (Days (-7)) (Days 30) 0) (of_ymd 2023 10 13) = Ok [].
Proof. vm_compute. reflexivity. Qed.

(** A duration of minus one with a tenor of one makes the count overflow: a panic where
    overflow is checked, and no periods where it is not. *)
Theorem C41_overflow : forall oc (l : leg) (v eff : date) (unit : Z -> period),
  (unit = Days \/ unit = Weeks) -> l_schedule l = [] -> l_tenor l = unit 1 -> l_duration l = unit (-1) -> effective_date oc l v = Ok (Some eff) ->
  generate_schedule oc l v = if oc then Panic PArith else Ok [].
Proof.
  intros oc l v eff unit U E Ht Hd He. unfold generate_schedule. rewrite E, He, Ht, Hd. cbn [obind ounwrap].
  destruct U as [->| ->]; destruct oc; reflexivity.
Qed.
Print Assumptions C41_overflow.
Example C41_overflow_witness : let l := sample_leg (Fixed 0) Buy 0 (Days 1) (Days (-1)) 0 in
  effective_date true l (of_ymd 2023 10 13) = effective_date false l (of_ymd 2023 10 13) /\ generate_schedule true l (of_ymd 2023 10 13) = Panic PArith /\ generate_schedule false l (of_ymd 2023 10 13) = Ok [].
Proof. vm_compute. auto. Qed.

Lemma schedule_length oc l eff last s q : succ_u32 oc q = Ok last ->
  schedule_loop oc l eff eff 1 (Z.to_nat (last - 1)) = Ok s -> Z.of_nat (length s) <= u32_max.
Proof.
  intros Hs Hl. destruct (schedule_loop_inv _ _ _ _ _ _ _ Hl) as (L & _ & _). rewrite L.
  unfold succ_u32 in Hs. destruct (is_u32 (q + 1)) eqn:E.
  - injection Hs as <-. unfold is_u32 in E. lia.
  - destruct oc; [discriminate|]. apply (f_equal (fun o => match o with Ok x => x | _ => 0 end)) in Hs.
    unfold wrap_u32 in Hs. pose proof (Z.mod_pos_bound (q + 1) (2 ^ 32) ltac:(lia)). unfold u32_max. lia.
Qed.

(** Period [i] (from zero) ends [i + 1] payment intervals after the effective date. *)
Theorem C41_ends : forall oc (l : leg) (v : date) (s : list accrual) (i : nat) (a : accrual),
  l_schedule l = [] -> generate_schedule oc l v = Ok s -> nth_error s i = Some a ->
  (oc = true \/ 12 * Z.of_nat (length s) <= u32_max) ->
  exists eff p, effective_date oc l v = Ok (Some eff) /\ intervals (l_frequency l) (Z.of_nat i + 1) = Some p /\
    period_wf p /\
    advance oc (l_calendar l) eff p (l_convention l) (Some (ix_end_of_month (l_index l)))
    = Ok (Some (accrual_end a)).
Proof.
  intros oc l v s i a E H I O. destruct (generate_inv _ _ _ _ E H) as (eff & last & He & _ & Hs & Hl).
  pose proof (schedule_length _ _ _ _ _ _ Hs Hl) as LM.
  destruct (schedule_loop_inv _ _ _ _ _ _ _ Hl) as (_ & C & N).
  assert (B : (i < length s)%nat) by (apply nth_error_Some; congruence).
  pose proof (N i a I) as P. apply schedule_period_inv in P. destruct P as (p & k & Hp & Ha & _).
  replace (1 + Z.of_nat i) with (Z.of_nat i + 1) in Hp by ring.
  apply steps in Hp; [|lia|destruct O; [left; assumption|right; lia]]. destruct Hp as [Ip Wp]. exists eff, p. auto.
Qed.
Print Assumptions C41_ends.

(** So when tenor and frequency agree the last period ends at the effective date
    plus the whole duration. *)
Theorem C41_maturity : forall oc (l : leg) (v : date) (s : list accrual) (a : accrual) (k : Z),
  l_schedule l = [] -> generate_schedule oc l v = Ok (s ++ [a]) -> l_frequency l <> NoFrequency ->
  intervals (l_frequency l) 1 = Some (l_tenor l) -> intervals (l_frequency l) k = Some (l_duration l) ->
  1 <= k -> 12 * k < u32_max ->
  exists eff, effective_date oc l v = Ok (Some eff) /\
    advance oc (l_calendar l) eff (l_duration l) (l_convention l) (Some (ix_end_of_month (l_index l)))
    = Ok (Some (accrual_end a)).
Proof.
  intros oc l v s a k E H Nf I1 Ik Hk KM.
  assert (L : Z.of_nat (length (s ++ [a])) = k).
  { assert (exists unit t d, (unit = Days \/ unit = Weeks \/ unit = Months \/ unit = Years) /\
      l_tenor l = unit t /\ l_duration l = unit d /\ 1 <= t <= 12 /\ d = t * k) as (unit & t & d & U & Ht & Hd & T & D).
    { unfold u32_max in *. destruct (l_frequency l); cbn [intervals] in *; try congruence;
        apply some_inj in I1; apply some_inj in Ik; rewrite <- I1, <- Ik.
      - exists Years, 1, k. repeat split; auto; lia.
      - exists Months, 6, (6 * k). repeat split; auto; lia.
      - exists Months, 4, (4 * k). repeat split; auto; lia.
      - exists Months, 3, (3 * k). repeat split; auto; lia.
      - exists Months, 2, (2 * k). repeat split; auto; lia.
      - exists Months, 1, k. repeat split; auto; lia.
      - exists Weeks, 4, (4 * k). repeat split; auto; lia.
      - exists Weeks, 2, (2 * k). repeat split; auto; lia.
      - exists Weeks, 1, k. repeat split; auto; lia.
      - exists Days, 1, k. repeat split; auto; lia. }
    pose proof (C41_count_partial oc l v (s ++ [a]) unit t d U E Ht Hd) as C. subst d. unfold u32_max in *.
    specialize (C ltac:(lia) ltac:(nia) ltac:(nia) ltac:(lia) H). nia. }
  destruct (C41_ends oc l v (s ++ [a]) (length s) a E H) as (eff & p & He & Ip & _ & Ha).
  - rewrite nth_error_app2, Nat.sub_diag by auto. reflexivity.
  - right. lia.
  - exists eff. split; [exact He|]. rewrite app_length in L. cbn [length] in L.
    replace (Z.of_nat (length s) + 1) with k in Ip by lia. rewrite Ik in Ip. apply some_inj in Ip. rewrite Ip. exact Ha.
Qed.
Print Assumptions C41_maturity.

Lemma effective_facts oc l v eff : in_range v -> l_convention l <> Nearest -> effective_date oc l v = Ok (Some eff) ->
  in_range eff /\ adjust (l_calendar l) eff (l_convention l) = Ok (Some eff).
Proof.
  intros Rv Nn He. unfold effective_date in He. split; [eapply advance_range|eapply advance_fixed]; eassumption.
Qed.

(** Every date of the schedule is a business day, under each convention that
    produces business days (Nearest is C06). *)
Theorem C41_open : forall oc (l : leg) (v : date) (s : list accrual) (a : accrual),
  in_range v -> l_schedule l = [] -> l_convention l <> Nearest -> l_convention l <> Unadjusted ->
  generate_schedule oc l v = Ok s -> In a s ->
  opened (l_calendar l) (accrual_start a) /\ opened (l_calendar l) (accrual_end a) /\
  opened (l_calendar l) (pay_date a) /\ opened (l_calendar l) (reset_date a).
Proof.
  intros oc l v s a Rv E Nn Nu H I. destruct (generate_inv _ _ _ _ E H) as (eff & last & He & _ & Hs & Hl).
  destruct (schedule_loop_inv _ _ _ _ _ _ _ Hl) as (_ & C & N).
  destruct (advance_open _ _ _ _ _ _ _ Rv Nn Nu He) as [Oe Re].
  assert (Ends : forall b, In b s -> opened (l_calendar l) (accrual_end b) /\ in_range (accrual_end b)).
  { intros b Ib. apply In_nth_error in Ib. destruct Ib as (i & Ib). apply N, schedule_period_inv in Ib.
    destruct Ib as (p & k & _ & Ha & _). eapply advance_open; [exact Re|exact Nn|exact Nu|exact Ha]. }
  assert (Start : opened (l_calendar l) (accrual_start a) /\ in_range (accrual_start a)).
  { clear -C I Oe Re Ends. revert eff Oe Re C. induction s as [|b s IH]; intros eff Oe Re C; [destruct I|].
    destruct C as [Cb C]. destruct I as [->|I]; [rewrite Cb; auto|].
    apply (IH I (fun x Ix => Ends x (or_intror Ix)) (accrual_end b)); [apply Ends; left; reflexivity..|exact C]. }
  split; [apply Start|]. split; [apply Ends; exact I|].
  destruct (Ends a I) as [_ Ra]. apply In_nth_error in I. destruct I as (i & Ia). apply N, schedule_period_inv in Ia.
  destruct Ia as (p & k & _ & _ & Hp & _ & Hr & _).
  split; [eapply advance_open in Hp|eapply advance_open in Hr]; try assumption; try apply Hp; try apply Hr. apply Start.
Qed.
Print Assumptions C41_open.

Lemma contiguous_nth s : forall st i a, contiguous st s -> nth_error s i = Some a ->
  match i with
  | O => accrual_start a = st
  | S j => exists b, nth_error s j = Some b /\ accrual_start a = accrual_end b
  end.
Proof.
  induction s as [|x s IH]; intros st [|i] a C H; cbn in H; try discriminate.
  - injection H as <-. apply C.
  - destruct C as [_ C]. pose proof (IH _ i a C H) as G. destruct i as [|j].
    + exists x. auto.
    + exact G.
Qed.

(** The periods run forwards (so, by contiguity, the ends never go backwards), on
    a calendar that opens at least every eleven months around the unadjusted
    dates. *)
Theorem C41_order : forall oc (l : leg) (v eff : date) (s : list accrual) (a : accrual),
  in_range v -> l_schedule l = [] -> l_convention l <> Nearest ->
  (ix_end_of_month (l_index l) = true -> l_convention l <> Unadjusted) ->
  generate_schedule oc l v = Ok s -> effective_date oc l v = Ok (Some eff) ->
  (oc = true \/ 12 * Z.of_nat (length s) <= u32_max) ->
  opens_around (l_calendar l) eff ->
  (forall n p d, 1 <= n <= Z.of_nat (length s) -> intervals (l_frequency l) n = Some p -> in_range d ->
     period_moves 1 eff p d -> opens_around (l_calendar l) d) ->
  In a s -> accrual_start a <= accrual_end a.
Proof.
  intros oc l v eff s a Rv E Nn Nu H He O Oe Op I.
  destruct (effective_facts oc l v eff Rv Nn He) as [Re Fe].
  destruct (generate_inv _ _ _ _ E H) as (eff' & last & He' & _ & Hs & Hl).
  assert (eff' = eff) by congruence. subst eff'.
  pose proof (schedule_length _ _ _ _ _ _ Hs Hl) as LM.
  destruct (schedule_loop_inv _ _ _ _ _ _ _ Hl) as (_ & C & N).
  apply In_nth_error in I. destruct I as (i & I).
  assert (B : (i < length s)%nat) by (apply nth_error_Some; congruence).
  pose proof (contiguous_nth s eff i a C I) as Cs.
  destruct (C41_ends oc l v s i a E H I O) as (eff' & q & He2 & Iq & Wq & Hq).
  assert (eff' = eff) by congruence. subst eff'.
  assert (Om : oc = true \/ 12 * (Z.of_nat i + 1) <= u32_max) by (destruct O; [left; assumption|right; lia]).
  assert (Opn : forall n p d, 1 <= n <= Z.of_nat (length s) -> intervals (l_frequency l) n = Some p -> period_wf p ->
    add_period oc eff p = Ok d -> opens_around (l_calendar l) d).
  { intros n p d Hn Ip Wp Hd. apply add_period_Ok in Hd; [|assumption| |assumption].
    - destruct Hd. eapply Op; eassumption.
    - eapply intervals_no_overflow; [| |exact Ip]; [lia|]. destruct O; [left; assumption|right; lia]. }
  destruct i as [|j].
  - rewrite Cs. apply (first_end oc (l_calendar l) (l_frequency l) 1 q (l_convention l) (ix_end_of_month (l_index l)) eff
      (accrual_end a)); auto; try lia.
    + intros p d Ip Hd. change (Z.of_nat 0 + 1) with 1 in Iq. rewrite Iq in Ip. apply some_inj in Ip. subst p.
      eapply Opn; [|exact Iq|exact Wq|exact Hd]. lia.
  - destruct Cs as (b & Ib & ->).
    assert (Ob : oc = true \/ 12 * Z.of_nat (length s) <= u32_max) by assumption.
    destruct (C41_ends oc l v s j b E H Ib Ob) as (eff' & p & He3 & Ip & Wp & Hp).
    assert (eff' = eff) by congruence. subst eff'.
    apply (period_end_mono oc (l_calendar l) (l_frequency l) (Z.of_nat j + 1) (Z.of_nat (S j) + 1) p q (l_convention l)
      (ix_end_of_month (l_index l)) eff); auto; try lia.
    intros p' d [Ip'|Ip'] Hd.
    + rewrite Ip in Ip'. apply some_inj in Ip'. subst p'. eapply Opn; [|exact Ip|exact Wp|exact Hd]. lia.
    + rewrite Iq in Ip'. apply some_inj in Ip'. subst p'. eapply Opn; [|exact Iq|exact Wq|exact Hd]. lia.
Qed.
Print Assumptions C41_order.

(** Payment is [pay_delay] business days after the period end, the reset
    [days_before_accrual] business days before the period start. *)
Theorem C41_pay : forall oc (l : leg) (v : date) (s : list accrual) (a : accrual),
  in_range v -> l_schedule l = [] -> l_convention l <> Nearest -> generate_schedule oc l v = Ok s -> In a s ->
  (l_pay_delay l = 0 -> pay_date a = accrual_end a) /\
  (0 < l_pay_delay l ->
     accrual_end a < pay_date a /\ opened (l_calendar l) (pay_date a) /\
     open_days (l_calendar l) (accrual_end a + 1) (pay_date a + 1) = l_pay_delay l) /\
  (l_days_before_accrual l = 0 -> reset_date a = accrual_start a) /\
  (0 < l_days_before_accrual l <= i64_max ->
     reset_date a < accrual_start a /\ opened (l_calendar l) (reset_date a) /\
     open_days (l_calendar l) (reset_date a) (accrual_start a) = l_days_before_accrual l).
Proof.
  intros oc l v s a Rv E Nn H I. destruct (generate_inv _ _ _ _ E H) as (eff & last & He & _ & Hs & Hl).
  destruct (schedule_loop_inv _ _ _ _ _ _ _ Hl) as (_ & C & N).
  destruct (effective_facts oc l v eff Rv Nn He) as [Re Fe].
  assert (Ends : forall b, In b s -> in_range (accrual_end b) /\
     adjust (l_calendar l) (accrual_end b) (l_convention l) = Ok (Some (accrual_end b))).
  { intros b Ib. apply In_nth_error in Ib. destruct Ib as (i & Ib). apply N, schedule_period_inv in Ib.
    destruct Ib as (p & k & _ & Ha & _). split; [eapply advance_range|eapply advance_fixed]; eassumption. }
  assert (Start : in_range (accrual_start a) /\
     adjust (l_calendar l) (accrual_start a) (l_convention l) = Ok (Some (accrual_start a))).
  { clear -C I Re Fe Ends. revert eff Re Fe C. induction s as [|b s IH]; intros eff Re Fe C; [destruct I|].
    destruct C as [Cb C]. destruct I as [->|I]; [rewrite Cb; auto|].
    apply (IH I (fun x Ix => Ends x (or_intror Ix)) (accrual_end b)); [apply Ends; left; reflexivity..|exact C]. }
  destruct (Ends a I) as [Ra Fa]. apply In_nth_error in I. destruct I as (i & Ia). apply N, schedule_period_inv in Ia.
  destruct Ia as (p & k & _ & _ & Hp & Hk & Hr & _).
  split.
  { intros Z0. rewrite Z0 in Hp. cbn [advance Z.eqb] in Hp. rewrite Fa in Hp. congruence. }
  split.
  { intros P. apply advance_Days in Hp; [|lia]. apply advance_fwd in Hp; [|assumption|lia].
    destruct Hp as (A & B & _ & D). auto. split; [lia|auto]. }
  split.
  { intros Z0. rewrite Z0 in Hk. change (neg_i64 oc 0) with (@Ok Z 0) in Hk. injection Hk as <-.
    cbn [advance Z.eqb] in Hr. destruct Start as [_ Fs]. rewrite Fs in Hr. congruence. }
  intros P. unfold neg_i64 in Hk. replace (is_i64 (- l_days_before_accrual l)) with true in Hk
    by (symmetry; unfold is_i64, i64_min, i64_max in *; lia).
  apply (f_equal (fun o => match o with Ok x => x | _ => 0 end)) in Hk. subst k.
  apply advance_Days in Hr; [|lia]. apply advance_bwd in Hr; [|apply Start|lia].
  destruct Hr as (A & B & _ & D). split; [lia|]. split; [exact B|]. lia.
Qed.
Print Assumptions C41_pay.

Example C41_witness : forall n c, exists s a,
  let l := sample_leg (Fixed c) Buy n (Years 1) (Years 5) 2 in let v := of_ymd 2023 10 13 in
  in_range v /\ l_schedule l = [] /\ generate_schedule true l v = Ok (s ++ [a]) /\ length s = 4%nat /\
  effective_date true l v = Ok (Some (of_ymd 2023 10 17)) /\ accrual_end a = of_ymd 2028 10 17 /\
  pay_date a = of_ymd 2028 10 19 /\ reset_date a = of_ymd 2027 10 14 /\
  intervals (l_frequency l) 1 = Some (l_tenor l) /\ intervals (l_frequency l) 5 = Some (l_duration l) /\
  opens_around (l_calendar l) (of_ymd 2023 10 17).
Proof.
  intros n c.
  exists (map (fun '(a, b, p, r) => {| accrual_start := a; accrual_end := b; pay_date := p; reset_date := r;
                                      amortisation := n; balance := n |})
    [(of_ymd 2023 10 17, of_ymd 2024 10 17, of_ymd 2024 10 21, of_ymd 2023 10 13);
     (of_ymd 2024 10 17, of_ymd 2025 10 17, of_ymd 2025 10 21, of_ymd 2024 10 15);
     (of_ymd 2025 10 17, of_ymd 2026 10 19, of_ymd 2026 10 21, of_ymd 2025 10 15);
     (of_ymd 2026 10 19, of_ymd 2027 10 18, of_ymd 2027 10 20, of_ymd 2026 10 15)]),
    {| accrual_start := of_ymd 2027 10 18; accrual_end := of_ymd 2028 10 17; pay_date := of_ymd 2028 10 19;
       reset_date := of_ymd 2027 10 14; amortisation := n; balance := n |}.
  cbv zeta. split; [apply in_range_val; vm_compute; split; discriminate|]. split; [reflexivity|].
  split; [vm_compute; reflexivity|]. split; [reflexivity|]. split; [vm_compute; reflexivity|].
  split; [reflexivity|]. split; [reflexivity|]. split; [reflexivity|]. split; [reflexivity|]. split; [reflexivity|].
  apply weekends_around. vm_compute. split; discriminate.
Qed.

(** ** C42: value *)

(** One leg: the signed, discounted interest of every period, plus the last
    period's balance on its payment date. *)
Theorem C42_value : forall oc (l : leg) (v : date) (y : curve) (s : list accrual) (P : date -> R) (T : date -> date -> R),
  generate_schedule oc l v = Ok s ->
  (forall a, In a s ->
     discount y (accrual_start a) = Ok (P (accrual_start a)) /\ discount y (accrual_end a) = Ok (P (accrual_end a)) /\
     discount y (pay_date a) = Ok (P (pay_date a)) /\
     dc_yf (l_day_counter l) (accrual_start a) (accrual_end a) = Ok (T (accrual_start a) (accrual_end a)) /\
     exists n, dc_count (l_day_counter l) (accrual_start a) (accrual_end a) = Ok n) ->
  let rate a := match l_type l with
                | Fixed coupon => coupon
                | Float spread => ((P (accrual_start a) / P (accrual_end a) - 1) / T (accrual_start a) (accrual_end a)
                                   + spread)%R
                end in
  npv oc [l] v y
  = Ok (sign (l_direction l) *
        (total (fun a => rate a * T (accrual_start a) (accrual_end a) * balance a * P (pay_date a)) s
         + last (map (fun a => balance a * P (pay_date a)) s) 0))%R.
Proof.
  intros oc l v y s P T Hs HP rate. unfold npv. rewrite npv_iff.
  set (val a := (rate a * T (accrual_start a) (accrual_end a) * balance a * P (pay_date a))%R).
  assert (L : leg_value period_pv (discount y) oc v l = Ok (sign (l_direction l) * (total val s
                + last (map (fun a => balance a * P (pay_date a)) s) 0))%R).
  { apply leg_value_iff. exists s, (map (fun a => val a * sign (l_direction l))%R s).
    exists (last (map (fun a => balance a * P (pay_date a)) s) 0 * sign (l_direction l))%R.
    split; [exact Hs|]. split.
    - clear Hs. induction s as [|a s IH]; cbn [map]; constructor.
      + destruct (HP a (or_introl eq_refl)) as (H1 & H2 & H3 & H4 & n & H5). unfold period_pv, val, rate.
        rewrite H5, H4. cbn [obind]. destruct (l_type l).
        * rewrite H1, H2. cbn [obind]. rewrite H3. reflexivity.
        * cbn [obind]. rewrite H3. reflexivity.
      + apply IH. intros b I. apply HP. right; exact I.
    - split.
      + unfold add_final. destruct s as [|a s] using rev_ind; [cbn; f_equal; lra|].
        rewrite rev_unit, map_app. cbn [map]. rewrite last_last. destruct (HP a) as (_ & _ & H3 & _); [apply in_or_app; right; left; reflexivity|].
        rewrite H3. cbn [obind]. f_equal. lra.
      + assert (E : sumR (map (fun a => val a * sign (l_direction l))%R s) = (sign (l_direction l) * total val s)%R).
        { clear. induction s as [|a s IH]; cbn [map sumR]; unfold total in *; cbn [fold_right]; [lra|rewrite IH; lra]. }
        rewrite E. lra. }
  exists [(sign (l_direction l) * (total val s + last (map (fun a => balance a * P (pay_date a)) s) 0))%R].
  split; [repeat constructor; exact L|cbn [sumR]; lra].
Qed.
Print Assumptions C42_value.

Theorem C42_additive : forall oc (a b : list leg) (v : date) (y : curve) (w : R),
  npv oc (a ++ b) v y = Ok w <-> exists x z, npv oc a v y = Ok x /\ npv oc b v y = Ok z /\ w = (x + z)%R.
Proof. intros. apply npv_app. Qed.
Print Assumptions C42_additive.

Theorem C42_order_free : forall oc (a b : list leg) (v : date) (y : curve) (w : R),
  Permutation a b -> npv oc a v y = Ok w -> npv oc b v y = Ok w.
Proof. intros oc a b v y w. apply npv_perm. Qed.
Print Assumptions C42_order_free.

Theorem C42_antisymmetric : forall oc (legs : list leg) (v : date) (y : curve) (w : R),
  npv oc legs v y = Ok w -> npv oc (map flip_leg legs) v y = Ok (- w)%R.
Proof.
  intros oc legs v y w H. replace (- w)%R with (-1 * w)%R by ring. apply npv_map; [|exact H].
  intros l x _ Hx. replace (-1 * x)%R with (- x)%R by ring. apply leg_flip, Hx.
Qed.
Print Assumptions C42_antisymmetric.

Theorem C42_linear : forall oc (legs : list leg) (v : date) (y : curve) (k w : R),
  npv oc legs v y = Ok w -> npv oc (map (scale_leg k) legs) v y = Ok (k * w)%R.
Proof.
  intros oc legs v y k w H. apply npv_map; [|exact H]. intros l x _. apply leg_scale.
Qed.
Print Assumptions C42_linear.

(** A floating leg without spread, contiguous from [start], with a constant
    balance [N] paid at the period ends: the interest telescopes to
    [N (P(start) - P(end))], and the final exchange adds [N P(end)]. *)
Theorem C42_floating : forall oc (l : leg) (v start : date) (y : curve) (s : list accrual) (N ps w : R),
  l_type l = Float 0 -> generate_schedule oc l v = Ok s -> s <> [] -> contiguous start s ->
  (forall a, In a s -> pay_date a = accrual_end a /\ balance a = N) ->
  (forall a t, In a s -> dc_yf (l_day_counter l) (accrual_start a) (accrual_end a) = Ok t -> t <> 0%R) ->
  discount y start = Ok ps -> npv oc [l] v y = Ok w -> w = (sign (l_direction l) * N * ps)%R.
Proof.
  intros oc l v start y s N ps w T Hs Ne C B Y D H. apply npv_iff in H. destruct H as (xs & F & ->).
  inversion F as [|? x ? r Hx F' E1 E2]; subst. inversion F'; subst.
  apply leg_value_iff in Hx. destruct Hx as (s' & ys & z & Hs' & G & Hz & ->).
  rewrite Hs in Hs'. injection Hs' as <-.
  destruct (float_telescopes (discount y) l N s T start ps ys C D (discount_pos y) B Y G) as (de & De & E).
  cbn [sumR]. rewrite E. unfold add_final in Hz. destruct s as [|a s] using rev_ind; [congruence|]. clear IHs.
  rewrite rev_unit in Hz. rewrite map_app in De. cbn [map] in De. rewrite last_last in De.
  destruct (B a) as [B1 B2]; [apply in_or_app; right; left; reflexivity|]. rewrite B1, De in Hz. cbn [obind] in Hz.
  apply Ok_R in Hz. subst z. rewrite B2. ring.
Qed.
Print Assumptions C42_floating.

(** So a generated floating leg with no spread and no payment delay is worth its
    notional on the effective date. *)
Theorem C42_floating_generated : forall oc (l : leg) (v eff : date) (y : curve) (s : list accrual) (ps w : R),
  in_range v -> l_convention l <> Nearest -> l_schedule l = [] -> l_type l = Float 0 -> l_pay_delay l = 0 ->
  generate_schedule oc l v = Ok s -> s <> [] -> effective_date oc l v = Ok (Some eff) ->
  (forall a t, In a s -> dc_yf (l_day_counter l) (accrual_start a) (accrual_end a) = Ok t -> t <> 0%R) ->
  discount y eff = Ok ps -> npv oc [l] v y = Ok w -> w = (sign (l_direction l) * l_notional l * ps)%R.
Proof.
  intros oc l v eff y s ps w Rv Nn E T Pd Hs Ne He Y D H.
  destruct (C41_contiguous oc l v s E Hs) as (eff' & He' & C & B).
  fold (effective_date oc l v) in He'. assert (eff' = eff) by congruence. subst eff'.
  apply (C42_floating oc l v eff y s (l_notional l) ps w); auto.
  intros a I. split; [|apply B; exact I]. apply (C41_pay oc l v s a); auto.
Qed.
Print Assumptions C42_floating_generated.

Lemma two_pillars_discounts d : in_range (d + 1) -> exists p, discount two_pillars d = Ok p.
Proof. intros R. apply discount_total. split; [exact R|discriminate]. Qed.

Lemma npv_defined oc l v s y : generate_schedule oc l v = Ok s -> l_day_counter l = sample_counter ->
  (forall a, In a s -> in_range (accrual_start a + 1) /\ in_range (accrual_end a + 1) /\ in_range (pay_date a + 1)) ->
  stripped_curves y <> [] -> exists w, npv oc [l] v y = Ok w.
Proof.
  intros Hs Dc R Ne.
  set (P d := match discount y d with Ok p => p | _ => 0%R end).
  assert (HP : forall d, in_range (d + 1) -> discount y d = Ok (P d)).
  { intros d Rd. unfold P. destruct (proj2 (discount_total y d) (conj Rd Ne)) as (p & ->). reflexivity. }
  eexists. apply (C42_value oc l v y s P yf365 Hs).
  intros a I. destruct (R a I) as (R1 & R2 & R3). rewrite Dc. cbn [sample_counter dc_yf dc_count]. eauto 10.
Qed.

Example C42_witness : forall n c, exists s w x,
  let l := sample_leg (Float 0) Buy n (Years 1) (Years 5) 0 in
  let f := sample_leg (Fixed c) Sell n (Years 1) (Years 5) 0 in
  let v := of_ymd 2023 10 13 in
  generate_schedule true l v = Ok s /\ length s = 5%nat /\ in_range v /\
  (forall a t, In a s -> dc_yf (l_day_counter l) (accrual_start a) (accrual_end a) = Ok t -> t <> 0%R) /\
  npv true [l] v two_pillars = Ok w /\ npv true [f] v two_pillars = Ok x /\
  npv true [l; f] v two_pillars = Ok (w + x)%R.
Proof.
  intros n c.
  set (s := map (fun '(a, b, r) => {| accrual_start := a; accrual_end := b; pay_date := b; reset_date := r;
                                      amortisation := n; balance := n |})
    [(of_ymd 2023 10 17, of_ymd 2024 10 17, of_ymd 2023 10 13);
     (of_ymd 2024 10 17, of_ymd 2025 10 17, of_ymd 2024 10 15);
     (of_ymd 2025 10 17, of_ymd 2026 10 19, of_ymd 2025 10 15);
     (of_ymd 2026 10 19, of_ymd 2027 10 18, of_ymd 2026 10 15);
     (of_ymd 2027 10 18, of_ymd 2028 10 17, of_ymd 2027 10 14)]).
  assert (R : forall a, In a s -> in_range (accrual_start a + 1) /\ in_range (accrual_end a + 1) /\ in_range (pay_date a + 1)).
  { intros a I. unfold s in I. cbn [map In] in I.
    repeat (destruct I as [<-|I]; [cbn [accrual_start accrual_end pay_date];
      repeat split; apply in_range_val; vm_compute; split; discriminate|]). destruct I. }
  assert (G : forall t d, generate_schedule true (sample_leg t d n (Years 1) (Years 5) 0) (of_ymd 2023 10 13) = Ok s)
    by (intros; vm_compute; reflexivity).
  destruct (npv_defined true (sample_leg (Float 0) Buy n (Years 1) (Years 5) 0) (of_ymd 2023 10 13) s two_pillars)
    as (w & Hw); [apply G|reflexivity|exact R|discriminate|].
  destruct (npv_defined true (sample_leg (Fixed c) Sell n (Years 1) (Years 5) 0) (of_ymd 2023 10 13) s two_pillars)
    as (x & Hx); [apply G|reflexivity|exact R|discriminate|].
  exists s, w, x. cbv zeta. split; [apply G|]. split; [reflexivity|].
  split; [apply in_range_val; vm_compute; split; discriminate|]. split.
  - intros a t I H. cbn [sample_leg l_day_counter sample_counter dc_yf] in H. apply Ok_R in H. subst t. unfold yf365.
    assert (K : 0 < accrual_end a - accrual_start a).
    { unfold s in I. cbn [map In] in I.
      repeat (destruct I as [<-|I]; [cbn [accrual_start accrual_end]; vm_compute; reflexivity|]). destruct I. }
    apply IZR_lt in K. apply Rgt_not_eq. apply Rdiv_lt_0_compat; [exact K|lra].
  - split; [exact Hw|]. split; [exact Hx|]. apply (C42_additive true [_] [_]). eauto.
Qed.

(** ** C43: risk *)

(** The shift pricer with no shift is the plain pricer. *)
Theorem C43_unshifted : forall oc (legs : list leg) (v : date) (y : curve) (w : R),
  npv oc legs v y = Ok w -> pv_under_shift oc legs v y 0 = Ok w.
Proof.
  intros oc legs v y w. apply npv_transfer.
  - intros d p H. apply shifted_zero, H.
  - intros l a x _. apply period_shift. intros d p H. apply shifted_zero, H.
Qed.
Print Assumptions C43_unshifted.

Theorem C43_mtm : forall oc (l : leg) (legs : list leg) (v : date) (y : curve) (w : R),
  npv oc (l :: legs) v y = Ok w -> swap_mtm oc (l :: legs) v y = Ok (ix_currency (l_index l), w).
Proof.
  intros oc l legs v y w H. unfold swap_mtm. rewrite (C43_unshifted _ _ _ _ _ H). reflexivity.
Qed.
Print Assumptions C43_mtm.

(** The shift pricer with a shift is the plain pricer on the curve with every
    zero rate raised by the shift. *)
Theorem C43_shifted : forall oc (legs : list leg) (v : date) (y : curve) (bp w : R),
  ordered_curve (stripped_curves y) ->
  (forall l a b, In l legs -> exists n, dc_count (l_day_counter l) a b = Ok n) ->
  pv_under_shift oc legs v y bp = Ok w -> npv oc legs v (raise_curve (bp * (1 / 10000)) y) = Ok w.
Proof.
  intros oc legs v y bp w O Dc. apply npv_transfer.
  - intros d p. apply shifted_is_raised, O.
  - intros l a x I. apply period_unshift; [|apply Dc, I]. intros d p. apply shifted_is_raised, O.
Qed.
Print Assumptions C43_shifted.

(** So dv01 is the change in value when every zero rate rises one basis point,
    and gamma the second difference. *)
Theorem C43_dv01 : forall oc (legs : list leg) (v : date) (y : curve) (w : R),
  ordered_curve (stripped_curves y) ->
  (forall l a b, In l legs -> exists n, dc_count (l_day_counter l) a b = Ok n) ->
  swap_dv01 oc legs v y = Ok w ->
  exists up base, npv oc legs v y = Ok base /\ npv oc legs v (raise_curve (1 / 10000) y) = Ok up /\
    w = (up - base)%R.
Proof.
  intros oc legs v y w O Dc H. unfold swap_dv01 in H. apply obind_Ok in H. destruct H as (base & Hb & H).
  apply obind_Ok in H. destruct H as (up & Hu & H). apply Ok_R in H. subst w. exists up, base.
  split; [|split; [|reflexivity]].
  - apply (npv_transfer period_pv_shift period_pv (fun d => shifted_discount y d 0) (discount y) oc v legs); [| |exact Hb].
    + intros d p. apply shifted_zero.
    + intros l a x I. apply period_unshift; [|apply Dc, I]. intros d p. apply shifted_zero.
  - apply C43_shifted in Hu; [|assumption..]. replace (1 * (1 / 10000))%R with (1 / 10000)%R in Hu by ring. exact Hu.
Qed.
Print Assumptions C43_dv01.

Theorem C43_gamma : forall oc (legs : list leg) (v : date) (y : curve) (bp w : R),
  ordered_curve (stripped_curves y) ->
  (forall l a b, In l legs -> exists n, dc_count (l_day_counter l) a b = Ok n) ->
  swap_gamma oc legs v y bp Zeros = Ok w ->
  exists up down base, npv oc legs v y = Ok base /\
    npv oc legs v (raise_curve (bp / 10000) y) = Ok up /\
    npv oc legs v (raise_curve (- (bp / 10000)) y) = Ok down /\
    w = ((up - base) - (base - down))%R.
Proof.
  intros oc legs v y bp w O Dc H. unfold swap_gamma in H. apply obind_Ok in H. destruct H as (base & Hb & H).
  apply obind_Ok in H. destruct H as (up & Hu & H). apply obind_Ok in H. destruct H as (down & Hd & H).
  apply Ok_R in H. subst w. exists up, down, base.
  split; [|split; [|split; [|ring]]].
  - apply (npv_transfer period_pv_shift period_pv (fun d => shifted_discount y d 0) (discount y) oc v legs); [| |exact Hb].
    + intros d p. apply shifted_zero.
    + intros l a x I. apply period_unshift; [|apply Dc, I]. intros d p. apply shifted_zero.
  - apply C43_shifted in Hu; [|assumption..]. replace (bp * (1 / 10000))%R with (bp / 10000)%R in Hu by lra. exact Hu.
  - apply C43_shifted in Hd; [|assumption..]. replace (- bp * (1 / 10000))%R with (- (bp / 10000))%R in Hd by lra. exact Hd.
Qed.
Print Assumptions C43_gamma.

(** Only parallel zero-rate shifts are supported, and a swap has no vega. *)
Theorem C43_modes : forall oc (legs : list leg) (v : date) (y : curve) (bp : R) (m : shift_mode),
  (m <> Zeros -> swap_gamma oc legs v y bp m = Err EInvalidData) /\ swap_vega oc legs v y bp = Ok 0%R.
Proof. intros oc legs v y bp m. split; [intros N; destruct m; [destruct N|..]; reflexivity|reflexivity]. Qed.
Print Assumptions C43_modes.

Lemma Forall2_In_r {A B} (R : A -> B -> Prop) l1 l2 y : Forall2 R l1 l2 -> In y l2 -> exists x, In x l1 /\ R x y.
Proof.
  intros F. induction F as [|a b l1 l2 H F IH]; intros I; [destruct I|].
  destruct I as [->|I]; [exists a; cbn; auto|]. destruct (IH I) as (x & Ix & Hx). exists x. cbn; auto.
Qed.
Lemma Forall2_In_l {A B} (R : A -> B -> Prop) l1 l2 x : Forall2 R l1 l2 -> In x l1 -> exists y, In y l2 /\ R x y.
Proof.
  intros F. induction F as [|a b l1 l2 H F IH]; intros I; [destruct I|].
  destruct I as [->|I]; [exists b; cbn; auto|]. destruct (IH I) as (y & Iy & Hy). exists y. cbn; auto.
Qed.

(** The maturity is the latest of the legs' last period ends. *)
Theorem C43_maturity : forall oc (legs : list leg) (v m : date), legs <> [] ->
  swap_maturity_date oc legs v = Ok m ->
  (exists l s a, In l legs /\ generate_schedule oc l v = Ok (s ++ [a]) /\ accrual_end a = m) /\
  (forall l, In l legs -> exists s a, generate_schedule oc l v = Ok (s ++ [a]) /\ accrual_end a <= m).
Proof.
  intros oc legs v m Ne H. unfold swap_maturity_date in H. apply obind_Ok in H. destruct H as (es & He & H).
  assert (F : Forall2 (fun l e => exists s a, generate_schedule oc l v = Ok (s ++ [a]) /\ accrual_end a = e) legs es).
  { clear -He. revert es He. induction legs as [|l r IH]; intros es He; cbn [last_ends] in He.
    - injection He as <-. constructor.
    - apply obind_Ok in He. destruct He as (s & Hs & He). destruct (rev s) as [|a t] eqn:E; [discriminate|].
      apply obind_Ok in He. destruct He as (es' & He' & He). injection He as <-. constructor; [|apply IH, He'].
      exists (rev t), a. split; [|reflexivity]. rewrite Hs. f_equal. rewrite <- (rev_involutive s), E. reflexivity. }
  destruct es as [|e es]; [inversion F; congruence|]. injection H as <-.
  assert (M : forall es e, In (fold_left Z.max es e) (e :: es) /\ forall x, In x (e :: es) -> x <= fold_left Z.max es e).
  { clear. induction es as [|x es IH]; intros e; cbn [fold_left].
    - split; [left; reflexivity|]. intros x [->|[]]. lia.
    - destruct (IH (Z.max e x)) as [A B]. split.
      + destruct A as [A|A]; [|right; right; exact A]. rewrite <- A. destruct (Z.max_spec e x) as [[_ ->]|[_ ->]]; cbn; auto.
      + pose proof (B (Z.max e x) (or_introl eq_refl)). intros z [->|[->|Iz]]; [lia|lia|apply B; right; exact Iz]. }
  destruct (M es e) as [A B]. split.
  - destruct (Forall2_In_r _ _ _ _ F A) as (l & I & s & a & Hs & Ha). exists l, s, a. auto.
  - intros l I. destruct (Forall2_In_l _ _ _ _ F I) as (x & Ix & s & a & Hs & Ha). exists s, a.
    split; [exact Hs|]. rewrite Ha. apply B, Ix.
Qed.
Print Assumptions C43_maturity.

(** The solved zero rate, put on the last pillar, reprices the swap to within the
    root finder's tolerance.  [brent] is the external root finder: the hypothesis
    is its documented contract. *)
Theorem C43_solve : forall brent eps,
  (forall lo hi f r, brent lo hi f = Ok r -> root_within eps f r) ->
  forall oc (legs : list leg) (v : date) (init : list pillar) (p : pillar) (z : R),
  solve_zero_rate brent oc legs v (init ++ [p]) = Ok z ->
  root_within eps (fun x => npv oc legs v {| c_valuation_date := v; stripped_curves := init ++ [with_zero p x] |}) z.
Proof.
  intros brent eps B oc legs v init p z H. apply B in H.
  assert (E : forall x, calculate_npv oc legs x v (init ++ [p]) =
    npv oc legs v {| c_valuation_date := v; stripped_curves := init ++ [with_zero p x] |}).
  { intros x. unfold calculate_npv, amend_last. rewrite rev_unit. cbn [obind]. rewrite rev_involutive. reflexivity. }
  destruct H as (w & Hw & H). exists w. rewrite <- E. split; [exact Hw|].
  destruct H as [H|(r' & y' & H1 & H2 & H3)]; [left; exact H|right]. exists r', y'. rewrite <- E. auto.
Qed.
Print Assumptions C43_solve.

(** The solve looks for the rate between nothing and fifty percent, and nowhere else.  Given a
    root finder that answers inside its bracket, and answers whenever the function is defined
    on the bracket and changes sign over it: the rate is in that range, and there is one
    whenever the value of the swap changes sign between the two ends. *)
Theorem C43_bracket : forall brent,
  (forall lo hi f r, brent lo hi f = Ok r -> (lo <= r <= hi)%R) ->
  (forall lo hi f a b, (lo < hi)%R -> (forall x, (lo <= x <= hi)%R -> exists y, f x = Ok y) -> f lo = Ok a -> f hi = Ok b -> (a * b <= 0)%R -> exists r, brent lo hi f = Ok r) ->
  forall oc (legs : list leg) (v : date) (init : list pillar) (p : pillar),
  let value x := npv oc legs v {| c_valuation_date := v; stripped_curves := init ++ [with_zero p x] |} in
  (forall z, solve_zero_rate brent oc legs v (init ++ [p]) = Ok z -> (0 <= z <= 1 / 2)%R) /\
  (forall a b, (forall x, (0 <= x <= 1 / 2)%R -> exists y, value x = Ok y) -> value 0%R = Ok a -> value (1 / 2)%R = Ok b -> (a * b <= 0)%R ->
     exists z, solve_zero_rate brent oc legs v (init ++ [p]) = Ok z).
Proof.
  intros brent B1 B2 oc legs v init p value. split; [intros z; apply B1|]. intros a b D A B S.
  assert (E : forall x, calculate_npv oc legs x v (init ++ [p]) = value x) by (intros x; unfold value, calculate_npv, amend_last; rewrite rev_unit; cbn [obind]; rewrite rev_involutive; reflexivity).
  apply (B2 0%R (1 / 2)%R _ a b); [lra| |rewrite E; exact A|rewrite E; exact B|exact S]. intros x X. rewrite E. apply D, X.
Qed.
Print Assumptions C43_bracket.
(** Such a root finder exists: one that checks the signs and answers the lower end. *)
Example C43_witness_bracket : exists brent : R -> R -> (R -> outcome R) -> outcome R,
  (forall lo hi f r, brent lo hi f = Ok r -> (lo <= r <= hi)%R) /\
  (forall lo hi f a b, (lo < hi)%R -> (forall x, (lo <= x <= hi)%R -> exists y, f x = Ok y) -> f lo = Ok a -> f hi = Ok b -> (a * b <= 0)%R -> exists r, brent lo hi f = Ok r).
Proof.
  exists (fun lo hi f => if Rle_dec lo hi then match f lo, f hi with Ok a, Ok b => if Rle_dec (a * b) 0 then Ok lo else Err EInvalidData | _, _ => Err EInvalidData end else Err EInvalidData). split.
  - intros lo hi f r H. destruct (Rle_dec lo hi) as [L|]; [|discriminate]. destruct (f lo), (f hi); try discriminate. destruct (Rle_dec _ 0); [|discriminate]. injection H as <-. lra.
  - intros lo hi f a b L D A B S. destruct (Rle_dec lo hi) as [|N]; [|lra]. rewrite A, B. destruct (Rle_dec (a * b) 0) as [|N]; [eauto|contradiction].
Qed.

(** A swap settles when its first leg does, and on the valuation date when it has no legs; a
    first leg without an effective date panics. *)
Theorem C43_settle : forall oc (v : date), swap_settle_date oc [] v = Ok v /\ swap_maturity_date oc [] v = Ok v /\
  forall l r, (forall d, swap_settle_date oc (l :: r) v = Ok d <-> effective_date oc l v = Ok (Some d)) /\
    (effective_date oc l v = Ok None -> swap_settle_date oc (l :: r) v = Panic PUnwrap) /\
    (forall e, effective_date oc l v = Err e -> swap_settle_date oc (l :: r) v = Err e).
Proof.
  intros oc v. split; [reflexivity|]. split; [reflexivity|]. intros l r. cbn [swap_settle_date]. split; [|split].
  - intros d. destruct (effective_date oc l v) as [[e|]| |]; cbn; split; congruence.
  - intros ->. reflexivity.
  - intros e ->. reflexivity.
Qed.
Print Assumptions C43_settle.

Example C43_witness : forall n c, exists w b g x,
  let l := sample_leg (Fixed c) Buy n (Years 1) (Years 5) 0 in let v := of_ymd 2023 10 13 in
  ordered_curve (stripped_curves two_pillars) /\
  (forall a b, exists n, dc_count (l_day_counter l) a b = Ok n) /\
  npv true [l] v two_pillars = Ok x /\ swap_dv01 true [l] v two_pillars = Ok w /\
  swap_gamma true [l] v two_pillars 25 Zeros = Ok g /\ pv_under_shift true [l] v two_pillars 10 = Ok b /\
  swap_maturity_date true [l] v = Ok (of_ymd 2028 10 17).
Proof.
  intros n c.
  set (s := map (fun '(a, b, r) => {| accrual_start := a; accrual_end := b; pay_date := b; reset_date := r;
                                      amortisation := n; balance := n |})
    [(of_ymd 2023 10 17, of_ymd 2024 10 17, of_ymd 2023 10 13);
     (of_ymd 2024 10 17, of_ymd 2025 10 17, of_ymd 2024 10 15);
     (of_ymd 2025 10 17, of_ymd 2026 10 19, of_ymd 2025 10 15);
     (of_ymd 2026 10 19, of_ymd 2027 10 18, of_ymd 2026 10 15);
     (of_ymd 2027 10 18, of_ymd 2028 10 17, of_ymd 2027 10 14)]).
  assert (R : forall a, In a s -> in_range (accrual_start a + 1) /\ in_range (accrual_end a + 1) /\ in_range (pay_date a + 1)).
  { intros a I. unfold s in I. cbn [map In] in I.
    repeat (destruct I as [<-|I]; [cbn [accrual_start accrual_end pay_date];
      repeat split; apply in_range_val; vm_compute; split; discriminate|]). destruct I. }
  assert (G : generate_schedule true (sample_leg (Fixed c) Buy n (Years 1) (Years 5) 0) (of_ymd 2023 10 13) = Ok s)
    by (vm_compute; reflexivity).
  assert (V : forall bp, exists w, pv_under_shift true [sample_leg (Fixed c) Buy n (Years 1) (Years 5) 0]
                (of_ymd 2023 10 13) two_pillars bp = Ok w).
  { intros bp. destruct (npv_defined true (sample_leg (Fixed c) Buy n (Years 1) (Years 5) 0) (of_ymd 2023 10 13) s
      (raise_curve (bp * (1 / 10000)) two_pillars)) as (w & Hw); [apply G|reflexivity|exact R|discriminate|].
    exists w. apply (npv_transfer period_pv period_pv_shift (discount (raise_curve (bp * (1 / 10000)) two_pillars))
      (fun d => shifted_discount two_pillars d bp)); [| |exact Hw].
    - intros d p Hd. destruct (proj2 (shifted_total two_pillars d bp)) as (p' & Hp).
      { apply discount_total. split; [|discriminate]. eapply discount_total. eauto. }
      pose proof (shifted_is_raised _ _ _ _ two_pillars_ordered Hp) as E. rewrite Hd in E. apply Ok_R in E. subst p'. exact Hp.
    - intros l a x _. apply period_shift. intros d p Hd. destruct (proj2 (shifted_total two_pillars d bp)) as (p' & Hp).
      { apply discount_total. split; [|discriminate]. eapply discount_total. eauto. }
      pose proof (shifted_is_raised _ _ _ _ two_pillars_ordered Hp) as E. rewrite Hd in E. apply Ok_R in E. subst p'. exact Hp. }
  destruct (npv_defined true (sample_leg (Fixed c) Buy n (Years 1) (Years 5) 0) (of_ymd 2023 10 13) s two_pillars)
    as (x & Hx); [apply G|reflexivity|exact R|discriminate|].
  destruct (V 0%R) as (v0 & V0), (V 1%R) as (v1 & V1), (V 25%R) as (v2 & V2), (V (- (25))%R) as (v3 & V3), (V 10%R) as (v4 & V4).
  exists (v1 - v0)%R, v4, (v2 + v3 - 2 * v0)%R, x. cbv zeta. split; [exact two_pillars_ordered|].
  split; [intros; eexists; reflexivity|]. split; [exact Hx|].
  split; [unfold swap_dv01; rewrite V0; cbn [obind]; rewrite V1; reflexivity|].
  split; [unfold swap_gamma; rewrite V0; cbn [obind]; rewrite V2; cbn [obind]; rewrite V3; reflexivity|].
  split; [exact V4|]. unfold swap_maturity_date. cbn [last_ends]. rewrite G. reflexivity.
Qed.
