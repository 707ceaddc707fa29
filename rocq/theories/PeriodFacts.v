(** Proofs about periods and settlement dates. *)
From Coq Require Import ZArith Lia Bool List.
From Coq Require Import ZifyBool.
From Verif Require Import Outcome Ints Loop Date DateFacts Calendar CalendarSpec CalendarFacts
  AdjustFacts AdvanceFacts.
Open Scope Z_scope.
Ltac Zify.zify_post_hook ::= Z.div_mod_to_equations.

Lemma date_eq_ymd a b : year a = year b -> month a = month b -> day a = day b -> a = b.
Proof. intros H1 H2 H3. rewrite <- (of_ymd_ymd a), <- (of_ymd_ymd b). now rewrite H1, H2, H3. Qed.

Lemma months_later_unique d k r r' : months_later d k r -> months_later d k r' -> r = r'.
Proof.
  intros (A1 & A2) (B1 & B2).
  assert (E : mi r = mi r') by (rewrite !mi_def; lia).
  assert (Ey : year r = year r') by (rewrite !year_mi, E; reflexivity).
  assert (Em : month r = month r') by (rewrite !month_mi, E; reflexivity).
  apply date_eq_ymd; [assumption|assumption|]. now rewrite A2, B2, Ey, Em.
Qed.

Lemma shift_months_later d k : months_later d k (shift_months d k).
Proof.
  destruct (shift_months_spec d k) as (H1 & H2). split; [|exact H2].
  rewrite !mi_def in H1. lia.
Qed.

Lemma add_months_Ok d k r : add_months d k = Ok r <-> in_range r /\ months_later d k r.
Proof.
  unfold add_months. rewrite mk_date_Ok. split.
  - intros (-> & H). split; [assumption|apply shift_months_later].
  - intros (H1 & H2). assert (r = shift_months d k) as ->.
    { eapply months_later_unique; [exact H2|apply shift_months_later]. }
    auto.
Qed.

Lemma try_days_some n : - 191491530 <= n <= 191491530 -> try_days n = Some n.
Proof.
  intros H. unfold try_days, max_delta_secs.
  match goal with |- (if ?b then _ else _) = _ => destruct b eqn:E end; [reflexivity|lia].
Qed.

Lemma try_days_cases n : try_days n = Some n \/ (try_days n = None /\ ~ (- 191491530 <= n <= 191491530)).
Proof.
  unfold try_days, max_delta_secs.
  match goal with |- context [if ?b then _ else _] => destruct b eqn:E end; [auto|right].
  split; [reflexivity|lia].
Qed.

Definition no_overflow (p : period) : Prop :=
  match p with
  | Weeks n => is_i64 (7 * n) = true
  | Years n => is_u32 (12 * n) = true
  | _ => True
  end.

Lemma days_branch d n k r : in_range d ->
  (match try_days n with None => Err EPeriodOutOfBounds | Some j => add_days d (k * j) end = Ok r <->
   in_range r /\ r = d + k * n) \/ ~ (k = 1 \/ k = -1).
Proof.
  intros Hd. destruct (Z.eq_dec k 1) as [->|]; [left|destruct (Z.eq_dec k (-1)) as [->|]; [left|right; lia]];
  (destruct (try_days_cases n) as [E|(E & N)]; rewrite E;
   [rewrite add_days_Ok; split; [intros (-> & H); auto|intros (H & ->); auto]
   |split; [discriminate|intros (H & ->); rewrite in_range_val in *; lia]]).
Qed.

Lemma add_days_opp d n : add_days d (- n) = add_days d (-1 * n).
Proof. f_equal; lia. Qed.
Lemma add_days_one d n : add_days d n = add_days d (1 * n).
Proof. f_equal; lia. Qed.

Lemma mul_i64_no oc n k : is_i64 (n * k) = true -> mul_i64 oc n k = Ok (n * k).
Proof. intros H. unfold mul_i64. now rewrite H. Qed.
Lemma mul_u32_no oc n k : is_u32 (n * k) = true -> mul_u32 oc n k = Ok (n * k).
Proof. intros H. unfold mul_u32. now rewrite H. Qed.

Lemma add_period_Ok oc d p r : in_range d -> (oc = true \/ no_overflow p) -> period_wf p ->
  (add_period oc d p = Ok r <-> in_range r /\ period_moves 1 d p r).
Proof.
  intros Hd Hno Hw. destruct p; cbn [add_period period_moves].
  - rewrite add_days_Ok. split; [intros (-> & H); auto|intros (H & ->); auto].
  - rewrite add_days_Ok. split; [intros (-> & H); auto|intros (H & ->); auto].
  - split; [intros [= <-]; auto|intros (H & ->); auto].
  - rewrite add_days_Ok. split; [intros (-> & H); auto|intros (H & ->); auto].
  - destruct (days_branch d n 1 r Hd) as [G|G]; [|lia]. rewrite <- G.
    destruct (try_days n); [now rewrite <- add_days_one|reflexivity].
  - destruct (is_i64 (n * 7)) eqn:E.
    + rewrite mul_i64_no by assumption. cbn [obind].
      destruct (days_branch d (n * 7) 1 r Hd) as [G|G]; [|lia].
      replace (1 * (7 * n)) with (1 * (n * 7)) by lia. rewrite <- G.
      destruct (try_days (n * 7)); [now rewrite <- add_days_one|reflexivity].
    + cbn [no_overflow] in Hno. replace (7 * n) with (n * 7) in Hno by lia.
      destruct Hno as [->|]; [|congruence].
      unfold mul_i64. rewrite E. cbn [obind]. split; [discriminate|].
      intros (H & ->). rewrite in_range_val in *. unfold is_i64, i64_min, i64_max in E. lia.
  - rewrite add_months_Ok. now replace (1 * n) with n by lia.
  - destruct (is_u32 (n * 12)) eqn:E.
    + rewrite mul_u32_no by assumption. cbn [obind]. rewrite add_months_Ok.
      now replace (1 * (12 * n)) with (n * 12) by lia.
    + cbn [no_overflow] in Hno. replace (12 * n) with (n * 12) in Hno by lia.
      destruct Hno as [->|]; [|congruence].
      unfold mul_u32. rewrite E. cbn [obind]. split; [discriminate|].
      intros (H & (H1 & _)). exfalso.
      apply in_range_year in H, Hd. unfold MIN_YEAR, MAX_YEAR in *.
      pose proof (ymd_valid r) as Vr. pose proof (ymd_valid d) as Vd. unfold valid_ymd in *.
      cbn [period_wf] in Hw. unfold is_u32, u32_max in *. lia.
Qed.

Lemma sub_period_Ok oc d p r : in_range d -> (oc = true \/ no_overflow p) -> period_wf p ->
  (sub_period oc d p = Ok r <-> in_range r /\ period_moves (-1) d p r).
Proof.
  intros Hd Hno Hw. destruct p; cbn [sub_period period_moves].
  - rewrite add_days_Ok. split; [intros (-> & H); auto|intros (H & ->); auto].
  - rewrite add_days_Ok. split; [intros (-> & H); auto|intros (H & ->); auto].
  - split; [intros [= <-]; auto|intros (H & ->); auto].
  - rewrite add_days_Ok. split; [intros (-> & H); auto|intros (H & ->); auto].
  - destruct (days_branch d n (-1) r Hd) as [G|G]; [|lia]. rewrite <- G.
    destruct (try_days n); reflexivity.
  - destruct (is_i64 (n * 7)) eqn:E.
    + rewrite mul_i64_no by assumption. cbn [obind].
      destruct (days_branch d (n * 7) (-1) r Hd) as [G|G]; [|lia].
      replace (-1 * (7 * n)) with (-1 * (n * 7)) by lia. rewrite <- G.
      destruct (try_days (n * 7)); reflexivity.
    + cbn [no_overflow] in Hno. replace (7 * n) with (n * 7) in Hno by lia.
      destruct Hno as [->|]; [|congruence].
      unfold mul_i64. rewrite E. cbn [obind]. split; [discriminate|].
      intros (H & ->). rewrite in_range_val in *. unfold is_i64, i64_min, i64_max in E. lia.
  - rewrite add_months_Ok. now replace (-1 * n) with (- n) by lia.
  - destruct (is_u32 (n * 12)) eqn:E.
    + rewrite mul_u32_no by assumption. cbn [obind]. rewrite add_months_Ok.
      now replace (-1 * (12 * n)) with (- (n * 12)) by lia.
    + cbn [no_overflow] in Hno. replace (12 * n) with (n * 12) in Hno by lia.
      destruct Hno as [->|]; [|congruence].
      unfold mul_u32. rewrite E. cbn [obind]. split; [discriminate|].
      intros (H & (H1 & _)). exfalso.
      apply in_range_year in H, Hd. unfold MIN_YEAR, MAX_YEAR in *.
      pose proof (ymd_valid r) as Vr. pose proof (ymd_valid d) as Vd. unfold valid_ymd in *.
      cbn [period_wf] in Hw. unfold is_u32, u32_max in *. lia.
Qed.

Lemma add_sub_round_trip oc d p r : in_range d -> (oc = true \/ no_overflow p) -> period_wf p ->
  day r = day d \/ (forall n, p <> Months n /\ p <> Years n) ->
  add_period oc d p = Ok r -> sub_period oc r p = Ok d.
Proof.
  intros Hd Hno Hw Hday H. apply add_period_Ok in H; try assumption. destruct H as (Hr & H).
  apply sub_period_Ok; try assumption. split; [assumption|].
  destruct p; cbn [period_moves] in *; try lia.
  - destruct H as (H1 & H2). destruct Hday as [Hday|Hday]; [|destruct (Hday n); congruence].
    pose proof (ymd_valid d) as V. unfold valid_ymd in V. split; lia.
  - destruct H as (H1 & H2). destruct Hday as [Hday|Hday]; [|destruct (Hday n); congruence].
    pose proof (ymd_valid d) as V. unfold valid_ymd in V. split; lia.
Qed.

Lemma years_months oc d n : is_u32 (12 * n) = true ->
  add_period oc d (Years n) = add_period oc d (Months (12 * n)) /\
  sub_period oc d (Years n) = sub_period oc d (Months (12 * n)).
Proof.
  intros H. cbn [add_period sub_period]. replace (12 * n) with (n * 12) in * by lia.
  rewrite mul_u32_no by assumption. split; reflexivity.
Qed.

(** Multiplying a tenor and applying it once is applying the scaled tenor; in
    the wrapping profile only when nothing overflows. *)
Lemma mul_period_Ok oc k p q : (oc = true \/ match p with
    | Days n | Weeks n => is_i64 (n * k) = true
    | Months n | Years n => is_u32 (n * k) = true | _ => True end) ->
  mul_period oc k p = Ok q ->
  match p with
  | Days n => q = Days (k * n) | Weeks n => q = Weeks (k * n)
  | Months n => q = Months (k * n) | Years n => q = Years (k * n)
  | _ => q = p end.
Proof.
  intros Hno H. destruct p; cbn [mul_period] in H; try congruence;
  apply obind_Ok in H; destruct H as (r & Hr & [= <-]); f_equal;
  unfold mul_i64, mul_u32 in Hr;
  match type of Hr with (if ?b then _ else _) = _ => destruct b eqn:E end;
  try (injection Hr as <-; lia); destruct Hno as [->|]; discriminate || congruence.
Qed.

(** ** Settlement dates *)
Lemma settlement_Ok oc p v c lag r :
  in_range v -> (oc = true \/ no_overflow p) -> period_wf p ->
  settlement_date_with_lag oc p v c lag = Ok r ->
  exists base s e,
    base = v + (match p with ON => 0 | TN => 1 | _ => lag end) /\ in_range base /\
    period_moves 1 base p s /\ in_range s /\
    last_open_upto c (last_calendar_day s) e /\
    ((e <= s /\ r = e) \/ (s < e /\ first_open_from c s r /\ r <= e)).
Proof.
  intros Hv Hno Hw H. unfold settlement_date_with_lag in H.
  destruct (try_days lag) as [off|] eqn:Et; [|discriminate].
  assert (off = lag) as ->.
  { destruct (try_days_cases lag) as [E|(E & _)]; congruence. }
  apply obind_Ok in H. destruct H as (base & Hb & H).
  apply obind_Ok in H. destruct H as (s & Hs & H).
  apply obind_Ok in H. destruct H as (e & He & H).
  apply obind_Ok in H. destruct H as (s' & Hs' & H).
  assert (Hbase : base = v + (match p with ON => 0 | TN => 1 | _ => lag end) /\ in_range base).
  { destruct p; try (apply add_days_Ok in Hb; destruct Hb as (-> & Hb); auto; fail).
    injection Hb as <-. split; [lia|assumption]. }
  destruct Hbase as (Eb & Hbr). apply add_period_Ok in Hs; try assumption. destruct Hs as (Hsr & Hs).
  exists base, s, e. split; [assumption|]. split; [assumption|]. split; [assumption|]. split; [assumption|].
  assert (Hy : year s < MAX_YEAR).
  { pose proof (in_range_year s Hsr). destruct (Z.eq_dec (year s) MAX_YEAR) as [Ey|]; [|lia].
    rewrite end_of_month_last_year in He by assumption. discriminate. }
  pose proof He as He'. apply end_of_month_Ok in He'; try assumption. destruct He' as (Her & HL).
  split; [exact HL|].
  destruct (Z.leb_spec e s) as [L|G].
  - rewrite He in Hs'. injection Hs' as <-.
    assert (Hopen : opened c e) by apply HL.
    apply roll_up_Ok in H; [|assumption]. destruct H as (_ & H).
    left. split; [assumption|]. eapply first_open_unique; [exact H|now apply first_open_self].
  - injection Hs' as <-. apply roll_up_Ok in H; [|assumption]. destruct H as (_ & H).
    right. split; [lia|]. split; [assumption|].
    eapply first_le; [exact H|apply HL|lia].
Qed.

Lemma near_None p v c lag : try_days lag = Some lag -> p <> ON -> p <> TN -> p <> SN ->
  near_date_with_lag p v c lag = Ok None.
Proof.
  intros E H1 H2 H3. unfold near_date_with_lag. rewrite E. destruct p; congruence.
Qed.

Definition near_base (p : period) (v lag : Z) : option Z :=
  match p with ON => Some v | TN => Some (v + 1) | SN => Some (v + lag) | _ => None end.

Lemma near_Ok p v c lag n : in_range v ->
  near_date_with_lag p v c lag = Ok (Some n) ->
  exists b, near_base p v lag = Some b /\ in_range b /\ in_range n /\ first_open_from c b n.
Proof.
  intros Hv H. unfold near_date_with_lag in H.
  destruct (try_days_cases lag) as [E|(E & _)]; rewrite E in H; [|discriminate].
  destruct p; try discriminate; cbn [near_base].
  - apply obind_Ok in H. destruct H as (r & Hr & [= <-]). apply roll_up_Ok in Hr; [|assumption].
    exists v. tauto.
  - apply obind_Ok in H. destruct H as (d & Hd & H). apply add_days_Ok in Hd. destruct Hd as (-> & Hd).
    apply obind_Ok in H. destruct H as (r & Hr & [= <-]). apply roll_up_Ok in Hr; [|assumption].
    eexists. repeat split; try apply Hr; try apply Hd.
  - apply obind_Ok in H. destruct H as (d & Hd & H). apply add_days_Ok in Hd. destruct Hd as (-> & Hd).
    apply obind_Ok in H. destruct H as (r & Hr & [= <-]). apply roll_up_Ok in Hr; [|assumption].
    eexists. repeat split; try apply Hr; try apply Hd.
Qed.

(** Exactly when the legs of a one-day swap are in order. *)
Lemma near_far_iff oc p v c lag n f :
  in_range v -> (p = ON \/ p = TN \/ p = SN) ->
  near_date_with_lag p v c lag = Ok (Some n) ->
  settlement_date_with_lag oc p v c lag = Ok f ->
  exists b e, near_base p v lag = Some b /\
    last_open_upto c (last_calendar_day (b + 1)) e /\
    (n <= f <-> b <= e).
Proof.
  intros Hv Hp Hn Hf. apply near_Ok in Hn; [|assumption]. destruct Hn as (b & Eb & Hb & _ & Fn).
  apply settlement_Ok in Hf; [|assumption|right; destruct Hp as [->|[->| ->]]; exact I|destruct Hp as [->|[->| ->]]; exact I].
  destruct Hf as (base & s & e & E1 & Hbr & Hs & Hsr & HL & Hcase).
  assert (base = b /\ s = b + 1) as [-> ->].
  { destruct Hp as [->|[->| ->]]; cbn in *; injection Eb as <-; lia. }
  exists b, e. split; [assumption|]. split; [assumption|].
  destruct Hcase as [(L & ->)|(L & Ff & Le)].
  - split.
    + intros H. destruct Fn as (F1 & _). lia.
    + intros H. eapply first_le; [exact Fn|apply HL|assumption].
  - split; [lia|]. intros _. eapply first_open_mono; [|exact Fn|exact Ff]. lia.
Qed.

Lemma settlement_opened oc p v c r :
  in_range v -> (oc = true \/ no_overflow p) -> period_wf p ->
  settlement_date oc p v c = Ok r -> opened c r.
Proof.
  intros Hv Ho Hw H. apply settlement_Ok in H; try assumption.
  destruct H as (b0 & s0 & e & _ & _ & _ & _ & HL & [(_ & ->)|(_ & HF & _)]); [apply HL|apply HF].
Qed.

Lemma near_far oc p v c lag n f :
  in_range v -> (p = ON \/ p = TN \/ p = SN) ->
  near_date_with_lag p v c lag = Ok (Some n) ->
  settlement_date_with_lag oc p v c lag = Ok f ->
  exists b e, (match p with ON => b = v | TN => b = v + 1 | _ => b = v + lag end) /\
    last_open_upto c (last_calendar_day (b + 1)) e /\
    (n <= f <-> b <= e).
Proof.
  intros Hv Hp Hn Hf. destruct (near_far_iff oc p v c lag n f Hv Hp Hn Hf) as (b & e & E & H).
  exists b, e. split; [|exact H]. destruct Hp as [->|[->| ->]]; cbn in E; congruence.
Qed.

Lemma near_open p v c lag n :
  in_range v -> near_date_with_lag p v c lag = Ok (Some n) ->
  exists b, (match p with ON => b = v | TN => b = v + 1 | _ => b = v + lag end) /\
    first_open_from c b n.
Proof.
  intros Hv H. apply near_Ok in H; [|assumption]. destruct H as (b & E & _ & _ & F).
  exists b. split; [|exact F]. destruct p; cbn in E; congruence.
Qed.
