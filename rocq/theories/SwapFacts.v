(** Proofs about swap schedules. *)
From Coq Require Import ZArith Lia Bool List Reals.
From Coq Require Import ZifyBool.
Import ListNotations.
From Verif Require Import Outcome Ints Loop Date DateFacts Calendar CalendarSpec CalendarFacts AdjustFacts AdvanceFacts
  PeriodFacts Names YieldCurve FxForward Swap SwapSpec.
Open Scope Z_scope.
Ltac Zify.zify_post_hook ::= Z.div_mod_to_equations.
Local Ltac lia := unfold date in *; Lia.lia.

(** ** Advancing *)

Lemma add_period_range oc d p a : in_range d -> add_period oc d p = Ok a -> in_range a.
Proof.
  intros Hd H. destruct p; cbn [add_period] in H.
  1,2,4: apply add_days_Ok in H; destruct H as [-> H]; exact H.
  - injection H as <-. exact Hd.
  - destruct (try_days n); [|discriminate]. apply add_days_Ok in H; destruct H as [-> H]; exact H.
  - apply obind_Ok in H. destruct H as (w & _ & H). destruct (try_days w); [|discriminate].
    apply add_days_Ok in H; destruct H as [-> H]; exact H.
  - apply add_months_Ok in H. apply H.
  - apply obind_Ok in H. destruct H as (w & _ & H). apply add_months_Ok in H. apply H.
Qed.

Lemma adjust_range c d b r : in_range d -> b <> Nearest -> adjust c d b = Ok (Some r) -> in_range r.
Proof.
  intros Hd Hn H. destruct b; try congruence;
    try (eapply adjust_result_open in H; [apply H|assumption|congruence..]).
  cbn in H. injection H as <-. exact Hd.
Qed.

Lemma adjust_fixed c d b r : in_range d -> b <> Nearest -> adjust c d b = Ok (Some r) -> adjust c r b = Ok (Some r).
Proof.
  intros Hd Hn H. destruct b; try congruence;
    try (eapply adjust_result_open in H; [apply adjust_open; apply H|assumption|congruence..]).
  reflexivity.
Qed.

Lemma end_of_month_open c d r : in_range d -> end_of_month c d = Ok r ->
  in_range r /\ last_open_upto c (month_end d) r.
Proof.
  intros Hd H. pose proof (in_range_year d Hd).
  destruct (Z.eq_dec (year d) MAX_YEAR) as [E|N].
  - rewrite end_of_month_last_year in H by assumption. discriminate.
  - apply end_of_month_Ok in H; [exact H|assumption|lia].
Qed.

(** The shapes of [advance]. *)
Lemma advance_cases oc c d p b eom r : in_range d -> b <> Nearest ->
  advance oc c d p b (Some eom) = Ok (Some r) ->
  (exists n, p = Days n /\ n <> 0 /\ advance_days c d n = Ok r) \/
  ((forall n, n <> 0 -> p <> Days n) /\ exists a, add_period oc d p = Ok a /\ in_range a /\
     (adjust c a b = Ok (Some r) /\ (eom = false \/ (forall n, p <> Months n /\ p <> Years n)) \/
      (eom = true /\ exists n, p = Months n \/ p = Years n) /\
        exists x, adjust c a b = Ok (Some x) /\ in_range x /\ in_range r /\ last_open_upto c (month_end x) r)).
Proof.
  intros Hd Hn H.
  assert (G : forall q, q = p -> (exists n, q = Months n \/ q = Years n) ->
    (exists a, add_period oc d p = Ok a /\ in_range a /\
     (adjust c a b = Ok (Some r) /\ (eom = false \/ (forall n, p <> Months n /\ p <> Years n)) \/
      (eom = true /\ exists n, p = Months n \/ p = Years n) /\
        exists x, adjust c a b = Ok (Some x) /\ in_range x /\ in_range r /\ last_open_upto c (month_end x) r))).
  { intros q -> E. destruct eom.
    - apply advance_months_eom in H; [|exact E]. destruct H as (a & x & Ha & Hx & He).
      exists a. pose proof (add_period_range _ _ _ _ Hd Ha) as Ra. split; [assumption|]. split; [assumption|]. right.
      split; [split; [reflexivity|exact E]|]. exists x. pose proof (adjust_range _ _ _ _ Ra Hn Hx) as Rx.
      destruct (end_of_month_open _ _ _ Rx He). auto.
    - destruct (advance_months_false oc c d p b E) as [E1 _]. rewrite E1 in H. apply obind_Ok in H.
      destruct H as (a & Ha & H). exists a. pose proof (add_period_range _ _ _ _ Hd Ha).
      split; [assumption|]. split; [assumption|]. left. auto. }
  destruct p.
  1,2,3,4,6: (right; split; [congruence|]; cbn [advance] in H; apply obind_Ok in H; destruct H as (a & Ha & H);
     exists a; pose proof (add_period_range _ _ _ _ Hd Ha); split; [assumption|]; split; [assumption|];
     left; split; [assumption|right; split; congruence]).
  - destruct (Z.eq_dec n 0) as [->|N].
    + right. split; [congruence|]. cbn [advance Z.eqb] in H. exists d.
      split; [cbn; rewrite add_days_one; apply add_days_Ok; split; [lia|rewrite Z.mul_0_r, Z.add_0_r; assumption]|].
      split; [assumption|]. left. split; [assumption|right; split; congruence].
    + left. exists n. apply advance_Days in H; [|exact N]. auto.
  - right. split; [congruence|]. eapply G; [reflexivity|]. eauto.
  - right. split; [congruence|]. eapply G; [reflexivity|]. eauto.
Qed.

Lemma advance_days_range c d n r : in_range d -> n <> 0 -> advance_days c d n = Ok r -> in_range r /\ opened c r.
Proof.
  intros Hd N H. destruct (Z.lt_trichotomy n 0) as [L|[L|L]]; [|lia|].
  - apply advance_bwd in H; [|assumption|lia]. destruct H as (A & B & _).
    split; [|exact B]. unfold in_range in *. lia.
  - apply advance_fwd in H; [|assumption|lia]. destruct H as (A & B & _).
    split; [|exact B]. unfold in_range in *. lia.
Qed.

Lemma advance_open oc c d p b eom r : in_range d -> b <> Nearest -> b <> Unadjusted ->
  advance oc c d p b (Some eom) = Ok (Some r) -> opened c r /\ in_range r.
Proof.
  intros Hd Hn Hu H. apply advance_cases in H; try assumption.
  destruct H as [(n & -> & N & H)|(_ & a & Ha & Ra & [[H _]|(_ & x & _ & _ & R & L)])].
  - apply advance_days_range in H; [tauto|assumption..].
  - apply adjust_result_open in H; assumption.
  - split; [apply L|exact R].
Qed.

Lemma advance_range oc c d p b eom r : in_range d -> b <> Nearest ->
  advance oc c d p b (Some eom) = Ok (Some r) -> in_range r.
Proof.
  intros Hd Hn H. apply advance_cases in H; try assumption.
  destruct H as [(n & -> & N & H)|(_ & a & Ha & Ra & [[H _]|(_ & x & _ & _ & R & L)])].
  - apply advance_days_range in H; [apply H|assumption..].
  - eapply adjust_range; eassumption.
  - exact R.
Qed.

(** Results are fixed points of [adjust] (the end-of-month rule gives an open day). *)
Lemma advance_fixed oc c d p b eom r : in_range d -> b <> Nearest ->
  advance oc c d p b (Some eom) = Ok (Some r) -> adjust c r b = Ok (Some r).
Proof.
  intros Hd Hn H. pose proof (advance_range _ _ _ _ _ _ _ Hd Hn H) as R. apply advance_cases in H; try assumption.
  destruct H as [(n & -> & N & H)|(_ & a & Ha & Ra & [[H _]|(_ & x & _ & _ & _ & L)])].
  - apply advance_days_range in H; [|assumption..]. apply adjust_open; apply H.
  - eapply adjust_fixed; [exact Ra|exact Hn|exact H].
  - apply adjust_open; [exact R|apply L].
Qed.

(** ** The frequency table *)

Lemma mul_u32_iff oc a n r : 0 <= a <= 12 -> 1 <= n -> (oc = true \/ 12 * n <= u32_max) ->
  (mul_u32 oc a n = Ok r <-> r = a * n /\ is_u32 (a * n) = true).
Proof.
  intros Ha Hn Ho. unfold mul_u32. destruct (is_u32 (a * n)) eqn:E.
  - split; [intros [= <-]; auto|intros [-> _]; reflexivity].
  - destruct oc; [split; [discriminate|intros [_ H]; discriminate]|].
    exfalso. unfold is_u32 in E. destruct Ho as [|Ho]; [discriminate|]. nia.
Qed.

Lemma mul_i64_iff oc a n r : 0 <= a <= 12 -> 1 <= n <= u32_max -> (mul_i64 oc a n = Ok r <-> r = a * n).
Proof.
  intros Ha Hn. unfold mul_i64. replace (is_i64 (a * n)) with true.
  - split; [intros [= <-]; auto|intros ->; reflexivity].
  - symmetry. unfold is_i64, i64_min, i64_max, u32_max in *. nia.
Qed.

Lemma steps oc f n p : 1 <= n <= u32_max -> (oc = true \/ 12 * n <= u32_max) ->
  ((do q <- ounwrap (frequency_period f); mul_period oc n q) = Ok p <->
   intervals f n = Some p /\ period_wf p).
Proof.
  intros Hn Ho. destruct f; cbn [frequency_period ounwrap obind mul_period intervals].
  1: split; [intros [= <-]; split; [reflexivity|exact I]|intros ([= <-] & _); reflexivity].
  all: try (split; [discriminate|intros (H & _); discriminate]).
  all: rewrite obind_Ok.
  all: assert (U := fun a r H => mul_u32_iff oc a n r H (proj1 Hn) Ho); assert (V := fun a r H => mul_i64_iff oc a n r H Hn).
  all: (split; [intros (x & H & E); apply (f_equal (fun o => match o with Ok y => Some y | _ => None end)) in E;
          apply (f_equal (fun o => match o with Some y => y | _ => ON end)) in E; subst p|intros (E & W)]).
  all: try (apply (f_equal (fun o => match o with Some y => y | _ => ON end)) in E; subst p).
  all: cbn [period_wf] in *.
  all: try (apply V in H; [|lia]; subst x; split; [f_equal; f_equal; lia|unfold is_i64, i64_min, i64_max, u32_max in *; lia]).
  all: try (apply U in H; [|lia]; destruct H as [-> H]; split; [f_equal; f_equal; lia|exact H]).
  all: eexists; (split; [first [apply V; [lia|reflexivity]|apply U; [lia|split; [reflexivity|]; rewrite <- W; f_equal; lia]]|f_equal; f_equal; lia]).
Qed.

(** ** Order *)

Lemma some_inj {A} (a b : A) : Some a = Some b -> a = b.
Proof. congruence. Qed.

Lemma months_later_0 d : months_later d 0 d.
Proof.
  split; [lia|]. pose proof (ymd_valid d) as V. unfold valid_ymd in V. lia.
Qed.

Lemma months_later_mono d k k' r r' : k <= k' -> months_later d k r -> months_later d k' r' -> r <= r'.
Proof.
  intros L H H'. destruct (Z.eq_dec k k') as [<-|N].
  - rewrite (months_later_unique d k r r') by assumption. lia.
  - destruct H as [H _], H' as [H' _]. assert (M : mi r < mi r') by (rewrite !mi_def; lia).
    pose proof (fom_mi_bounds r). pose proof (fom_mi_bounds r').
    assert (mi r + 1 = mi r' \/ mi r + 1 < mi r') as [E|G] by lia; [rewrite E in *; lia|].
    pose proof (fom_lt _ _ G). lia.
Qed.

Lemma month_end_mono a b : a <= b -> month_end a <= month_end b.
Proof.
  intros H. rewrite !month_end_fom. pose proof (mi_mono a b H) as M.
  destruct (Z.eq_dec (mi a) (mi b)) as [->|N]; [lia|]. pose proof (fom_lt (mi a + 1) (mi b + 1)). lia.
Qed.

Lemma intervals_no_overflow oc f n p : 1 <= n <= u32_max -> (oc = true \/ 12 * n <= u32_max) ->
  intervals f n = Some p -> oc = true \/ no_overflow p.
Proof.
  intros Hn Ho H. destruct f; cbn [intervals] in H; try discriminate; apply some_inj in H; subst p; cbn [no_overflow];
    try (right; exact I); (destruct Ho as [Ho|Ho]; [left; exact Ho|right]);
    unfold is_u32, is_i64, i64_min, i64_max, u32_max in *; lia.
Qed.

(** The shifted dates before adjustment, for frequencies other than Daily. *)
Lemma raw_mono oc f n m p q d a b : in_range d -> 1 <= n <= m -> m <= u32_max -> (oc = true \/ 12 * m <= u32_max) ->
  f <> Daily -> intervals f n = Some p -> intervals f m = Some q -> period_wf p -> period_wf q ->
  add_period oc d p = Ok a -> add_period oc d q = Ok b -> d <= a <= b.
Proof.
  intros Hd Hn Hm Ho Hf Ip Iq Wp Wq A B.
  apply add_period_Ok in A; [|assumption|apply (intervals_no_overflow oc f n p); [lia|destruct Ho; [left; assumption|right; lia]|exact Ip]|assumption].
  apply add_period_Ok in B; [|assumption|apply (intervals_no_overflow oc f m q); [lia|assumption|exact Iq]|assumption].
  destruct A as [_ A], B as [_ B]. pose proof (months_later_0 d) as Z0.
  destruct f; cbn [intervals] in *; try discriminate; try congruence;
    apply some_inj in Ip; subst p; apply some_inj in Iq; subst q; cbn [period_moves] in *;
    try (split; [eapply (months_later_mono d); [|exact Z0|exact A]|eapply (months_later_mono d); [|exact A|exact B]]; lia); lia.
Qed.

Lemma advance_days_mono c d n m r s : in_range d -> 1 <= n <= m ->
  advance_days c d n = Ok r -> advance_days c d m = Ok s -> d < r <= s.
Proof.
  intros Hd H A B. apply advance_fwd in A; [|assumption|lia]. apply advance_fwd in B; [|assumption|lia].
  destruct A as (A1 & A2 & A3 & A4), B as (B1 & B2 & B3 & B4).
  destruct (Z_le_gt_dec r s); [lia|]. exfalso.
  rewrite (open_days_split c (d + 1) (s + 1) (r + 1)) in A4 by lia.
  pose proof (open_days_pos c (s + 1) (r + 1) r A2). lia.
Qed.

Lemma intervals_kind f n m p q k : intervals f n = Some p -> intervals f m = Some q ->
  p = Months k \/ p = Years k -> exists j, q = Months j \/ q = Years j.
Proof.
  intros Ip Iq H. destruct f; cbn [intervals] in *; try discriminate;
    apply some_inj in Ip; apply some_inj in Iq; subst p q;
    destruct H as [H|H]; try discriminate; eauto.
Qed.

Lemma period_end_mono oc c f n m p q b eom d r s : in_range d -> b <> Nearest ->
  1 <= n <= m -> m <= u32_max -> (oc = true \/ 12 * m <= u32_max) ->
  (forall p a, intervals f n = Some p \/ intervals f m = Some p -> add_period oc d p = Ok a -> opens_around c a) ->
  intervals f n = Some p -> intervals f m = Some q -> period_wf p -> period_wf q ->
  advance oc c d p b (Some eom) = Ok (Some r) -> advance oc c d q b (Some eom) = Ok (Some s) -> r <= s.
Proof.
  intros Hd Hb Hn Hm Ho Op Ip Iq Wp Wq A B.
  apply advance_cases in A; [|assumption..]. apply advance_cases in B; [|assumption..].
  assert (f = Daily \/ f <> Daily) as [->|Nd] by (destruct f; ((left; reflexivity) || (right; discriminate))).
  { cbn in Ip, Iq. apply some_inj in Ip; subst p. apply some_inj in Iq; subst q.
    destruct A as [(n' & E & N & A)|(N & _)]; [injection E as <-|exfalso; apply (N n); [lia|reflexivity]].
    destruct B as [(m' & E & M & B)|(M & _)]; [injection E as <-|exfalso; apply (M m); [lia|reflexivity]].
    pose proof (advance_days_mono c d n m r s Hd ltac:(lia) A B). lia. }
  destruct A as [(n' & -> & _)|(_ & a & Ha & Ra & A)];
    [destruct f; cbn in Ip; (discriminate || congruence)|].
  destruct B as [(n' & -> & _)|(_ & x & Hx & Rx & B)];
    [destruct f; cbn in Iq; (discriminate || congruence)|].
  pose proof (raw_mono oc f n m p q d a x Hd Hn Hm Ho Nd Ip Iq Wp Wq Ha Hx) as M.
  destruct (Op p a (or_introl Ip) Ha) as [Oa1 Oa2]. destruct (Op q x (or_intror Iq) Hx) as [Ox1 Ox2].
  destruct A as [[A Ea]|((Ea & Pa) & a' & A & Ra' & Rr & La)], B as [[B Eb]|((Eb & Pb) & x' & B & Rx' & Rs & Lx)].
  - apply (adjust_mono c b a x r s); auto; lia.
  - exfalso. destruct Ea as [Ea|Ea]; [congruence|]. destruct Pb as (k & Pb).
    destruct (intervals_kind f m n q p k Iq Ip Pb) as (j & E). destruct (Ea j). tauto.
  - exfalso. destruct Eb as [Eb|Eb]; [congruence|]. destruct Pa as (k & Pa).
    destruct (intervals_kind f n m p q k Ip Iq Pa) as (j & E). destruct (Eb j). tauto.
  - assert (a' <= x') by (apply (adjust_mono c b a x a' x'); auto; lia).
    eapply last_open_mono; [|exact La|exact Lx]. apply month_end_mono. lia.
Qed.

(** The first end is not before the (adjusted) effective date. *)
Lemma first_end oc c f n p b eom d r : in_range d -> b <> Nearest -> (eom = true -> b <> Unadjusted) ->
  1 <= n <= u32_max -> (oc = true \/ 12 * n <= u32_max) ->
  opens_around c d -> (forall p a, intervals f n = Some p -> add_period oc d p = Ok a -> opens_around c a) ->
  intervals f n = Some p -> period_wf p -> adjust c d b = Ok (Some d) ->
  advance oc c d p b (Some eom) = Ok (Some r) -> d <= r.
Proof.
  intros Hd Hb Hu Hn Ho Od Op Ip Wp Fd A. apply advance_cases in A; [|assumption..].
  destruct A as [(k & -> & N & A)|(_ & a & Ha & Ra & A)].
  - destruct f; cbn [intervals] in Ip; try discriminate. apply some_inj in Ip. injection Ip as ->. apply advance_fwd in A; [|assumption|lia].
    destruct A as [A _]. lia.
  - assert (Nd : f <> Daily \/ f = Daily) by (destruct f; ((left; discriminate) || (right; reflexivity))).
    assert (L : d <= a).
    { destruct Nd as [Nd|Ed].
      - pose proof (raw_mono oc f n n p p d a a Hd). apply H; try assumption; lia.
      - subst f. cbn in Ip. apply some_inj in Ip; subst p. cbn [add_period] in Ha. destruct (try_days n) eqn:E; [|discriminate].
        apply add_days_Ok in Ha. unfold try_days in E. destruct Ha as [-> _].
        assert (z = n) by (revert E; repeat match goal with |- context [if ?x then _ else _] => destruct x end; congruence). lia. }
    destruct (Op p a Ip Ha) as [Oa1 Oa2]. destruct Od as [Od1 Od2].
    destruct A as [[A Ea]|((Ea & Pa) & a' & A & Ra' & Rr & La)].
    + apply (adjust_mono c b d a d r); auto.
    + assert (d <= a') by (apply (adjust_mono c b d a d a'); auto).
      destruct (adjust_result_open c a b a') as [Oa' _]; auto.
      pose proof (last_ge _ _ _ _ La Oa' (month_end_bounds a')). lia.
Qed.

(** ** The schedule *)

Lemma schedule_loop_inv oc l eff k : forall start n s, schedule_loop oc l eff start n k = Ok s ->
  length s = k /\ contiguous start s /\
  forall i a, nth_error s i = Some a -> schedule_period oc l eff (accrual_start a) (n + Z.of_nat i) = Ok a.
Proof.
  induction k as [|k IH]; intros start n s H; cbn [schedule_loop] in H.
  - injection H as <-. split; [reflexivity|]. split; [exact I|]. intros [|i] a; discriminate.
  - apply obind_Ok in H. destruct H as (a & Ha & H). apply obind_Ok in H. destruct H as (r & Hr & H).
    injection H as <-. destruct (IH _ _ _ Hr) as (L & C & N).
    assert (E : accrual_start a = start).
    { unfold schedule_period in Ha. repeat (apply obind_Ok in Ha; destruct Ha as (? & _ & Ha)). injection Ha as <-. reflexivity. }
    split; [cbn; congruence|]. split; [split; assumption|].
    intros [|i] a' Hi; cbn in Hi.
    + injection Hi as <-. rewrite E, Z.add_0_r. exact Ha.
    + apply N in Hi. rewrite <- Hi. f_equal. lia.
Qed.

Lemma schedule_period_inv oc l eff start n a : schedule_period oc l eff start n = Ok a ->
  exists p k,
    (do q <- ounwrap (frequency_period (l_frequency l)); mul_period oc n q) = Ok p /\
    advance oc (l_calendar l) eff p (l_convention l) (Some (ix_end_of_month (l_index l))) = Ok (Some (accrual_end a)) /\
    advance oc (l_calendar l) (accrual_end a) (Days (l_pay_delay l)) (l_convention l) (Some false) = Ok (Some (pay_date a)) /\
    neg_i64 oc (l_days_before_accrual l) = Ok k /\
    advance oc (l_calendar l) start (Days k) (l_convention l) (Some false) = Ok (Some (reset_date a)) /\
    accrual_start a = start /\ amortisation a = l_notional l /\ balance a = l_notional l.
Proof.
  unfold schedule_period. intros H.
  apply obind_Ok in H. destruct H as (q & Hq & H). apply obind_Ok in H. destruct H as (p & Hp & H).
  apply obind_Ok in H. destruct H as (e & He & H). apply obind_Ok in H. destruct H as (e' & He' & H).
  apply obind_Ok in H. destruct H as (y & Hy & H). apply obind_Ok in H. destruct H as (y' & Hy' & H).
  apply obind_Ok in H. destruct H as (k & Hk & H).
  apply obind_Ok in H. destruct H as (x & Hx & H). apply obind_Ok in H. destruct H as (x' & Hx' & H).
  injection H as <-. cbn. destruct e; [|discriminate]. destruct y; [|discriminate]. destruct x; [|discriminate].
  cbn in He', Hy', Hx'. injection He' as ->. injection Hy' as ->. injection Hx' as ->.
  exists p, k. rewrite Hq. cbn [obind]. auto 10.
Qed.

Lemma generate_inv oc l v s : l_schedule l = [] -> generate_schedule oc l v = Ok s ->
  exists eff last, effective_date oc l v = Ok (Some eff) /\ period_num (l_tenor l) <> 0 /\
    succ_u32 oc (period_num (l_duration l) / period_num (l_tenor l)) = Ok last /\
    schedule_loop oc l eff eff 1 (Z.to_nat (last - 1)) = Ok s.
Proof.
  intros E H. unfold generate_schedule in H. rewrite E in H.
  apply obind_Ok in H. destruct H as (e & He & H). apply obind_Ok in H. destruct H as (e' & He' & H).
  cbv zeta in H. destruct (Z.eqb_spec (period_num (l_tenor l)) 0) as [|N]; [discriminate|].
  apply obind_Ok in H. destruct H as (last & Hl & H).
  destruct e; [|discriminate]. cbn in He'. injection He' as ->. eauto 10.
Qed.
