(** Facts about the day counters. *)
From Coq Require Import ZArith Bool List Lia Reals Lra Psatz.
From Coq Require Import ZifyBool.
Import ListNotations.
From Flocq Require Import Core BinarySingleNaN Relative.
From Verif Require Import Outcome Ints Loop Date DateFacts Calendar CalendarSpec CalendarFacts AdvanceFacts F64 DayCount DayCountSpec EasterFacts Closure.
Open Scope Z_scope.
Ltac Zify.zify_post_hook ::= Z.div_mod_to_equations.

(** * Actual/N *)
Lemma fraction_ok n N : Z.abs n <= 2 ^ 50 -> 1 <= N <= 1000 ->
  f64R (fraction n N) = rnd (IZR n / IZR N) /\ finite (fraction n N).
Proof.
  intros Hn HN. unfold fraction.
  destruct (f64_of_Z_ok n) as [A FA]; [lia|]. destruct (f64_of_Z_ok N) as [B FB]; [lia|].
  assert (N0 : (0 < IZR N)%R) by (apply IZR_lt; lia).
  destruct (fdiv_ok (f64_of_Z n) (f64_of_Z N) (2 ^ 50) FA) as [C FC].
  - rewrite B. lra.
  - lia.
  - rewrite A, B. unfold Rdiv. rewrite Rabs_mult, <- abs_IZR.
    rewrite Rabs_pos_eq by (left; apply Rinv_0_lt_compat; exact N0).
    apply Rle_trans with (IZR (Z.abs n) * 1)%R.
    + apply Rmult_le_compat_l; [apply IZR_le; lia|].
      rewrite <- Rinv_1. apply Rinv_le; [lra|]. apply IZR_le. lia.
    + rewrite Rmult_1_r. apply IZR_le. lia.
  - rewrite C, A, B. split; [reflexivity|exact FC].
Qed.

Lemma range_diff a b : in_range a -> in_range b -> Z.abs (b - a) <= 2 ^ 50.
Proof. rewrite !in_range_val. change date with Z in *. lia. Qed.

Lemma fraction_mono n n' N : Z.abs n <= 2 ^ 50 -> Z.abs n' <= 2 ^ 50 -> 1 <= N <= 1000 -> n <= n' ->
  (f64R (fraction n N) <= f64R (fraction n' N))%R.
Proof.
  intros A B C L. rewrite (proj1 (fraction_ok n N A C)), (proj1 (fraction_ok n' N B C)). apply rnd_mono.
  apply Rmult_le_compat_r; [|apply IZR_le; lia]. left. apply Rinv_0_lt_compat, IZR_lt. lia.
Qed.

Lemma fraction_pos n N : Z.abs n <= 2 ^ 50 -> 1 <= N <= 1000 -> 0 < n -> (0 < f64R (fraction n N))%R.
Proof.
  intros A C L. rewrite (proj1 (fraction_ok _ _ A C)).
  apply Rlt_le_trans with (bpow radix2 (-10)); [apply bpow_gt_0|].
  rewrite <- (rnd_id (bpow radix2 (-10))) by (apply generic_format_bpow; unfold FLT_exp; lia).
  apply rnd_mono. change (bpow radix2 (-10)) with (/ 1024)%R.
  apply Rle_trans with (1 / IZR N)%R.
  - unfold Rdiv. rewrite Rmult_1_l. apply Rinv_le; [apply IZR_lt; lia|]. apply IZR_le. lia.
  - apply Rmult_le_compat_r; [left; apply Rinv_0_lt_compat, IZR_lt; lia|]. apply IZR_le. lia.
Qed.

Lemma rnd_opp x : rnd (- x) = (- rnd x)%R.
Proof. apply round_NE_opp. Qed.

Lemma fraction_opp n N : Z.abs n <= 2 ^ 50 -> 1 <= N <= 1000 ->
  f64R (fraction (- n) N) = (- f64R (fraction n N))%R.
Proof.
  intros A C. rewrite (proj1 (fraction_ok n N A C)), (proj1 (fraction_ok (- n) N ltac:(lia) C)).
  rewrite opp_IZR, <- rnd_opp. f_equal. unfold Rdiv. ring.
Qed.

(** One rounding: the relative error of an Actual/N fraction is at most 2^-53. *)
Lemma fraction_error n N : Z.abs n <= 2 ^ 50 -> 1 <= N <= 1000 ->
  (Rabs (f64R (fraction n N) - IZR n / IZR N) <= / IZR (2 ^ 53) * Rabs (IZR n / IZR N))%R.
Proof.
  intros A C. rewrite (proj1 (fraction_ok n N A C)).
  destruct (Z.eq_dec n 0) as [->|NZ].
  { unfold Rdiv. rewrite Rmult_0_l, rnd_0. rewrite Rminus_0_r, Rabs_R0. lra. }
  assert (N0 : (0 < IZR N)%R) by (apply IZR_lt; lia).
  pose proof (relative_error_N_FLT radix2 (-1074) 53 ltac:(lia) (fun n => negb (Z.even n)) (IZR n / IZR N)) as E.
  change (bpow radix2 (-53 + 1)) with (/ IZR (2 ^ 52))%R in E.
  unfold rnd. fold ZnearestE in E.
  replace (/ IZR (2 ^ 53))%R with (/ 2 * / IZR (2 ^ 52))%R.
  - apply E. unfold Rdiv. rewrite Rabs_mult, (Rabs_pos_eq (/ IZR N)) by (left; apply Rinv_0_lt_compat; exact N0).
    apply Rle_trans with (bpow radix2 (-10)); [apply bpow_le; lia|].
    change (bpow radix2 (-10)) with (/ 1024)%R. rewrite <- abs_IZR.
    apply Rle_trans with (1 * / IZR N)%R.
    + rewrite Rmult_1_l. apply Rinv_le; [lra|]. apply IZR_le. lia.
    + apply Rmult_le_compat_r; [left; apply Rinv_0_lt_compat; exact N0|]. apply IZR_le. lia.
  - rewrite <- Rinv_mult. f_equal.
Qed.

(** * The next day *)
Lemma next_day n :
  (day n < mlen (year n) (month n) /\ year (n + 1) = year n /\ month (n + 1) = month n /\ day (n + 1) = day n + 1) \/
  (day n = mlen (year n) (month n) /\ month n < 12 /\ year (n + 1) = year n /\ month (n + 1) = month n + 1 /\ day (n + 1) = 1) \/
  (day n = mlen (year n) (month n) /\ month n = 12 /\ year (n + 1) = year n + 1 /\ month (n + 1) = 1 /\ day (n + 1) = 1).
Proof.
  pose proof (ymd_valid n) as [V1 V2]. pose proof (of_ymd_ymd n) as R.
  destruct (Z_lt_ge_dec (day n) (mlen (year n) (month n))) as [L|L].
  - left. assert (R' : n + 1 = of_ymd (year n) (month n) (day n + 1)).
    { rewrite of_ymd_day. rewrite of_ymd_day in R. change date with Z in *. lia. }
    assert (V : valid_ymd (year n) (month n) (day n + 1)) by (split; lia).
    rewrite R', year_of_ymd, month_of_ymd, day_of_ymd by exact V. auto.
  - right. assert (E : day n = mlen (year n) (month n)) by lia.
    destruct (Z.eq_dec (month n) 12) as [M|M].
    + right. assert (R' : n + 1 = of_ymd (year n + 1) 1 1).
      { rewrite of_ymd_next_year. rewrite of_ymd_day, M in R. rewrite M in L, V2.
        change (mlen (year n) 12) with 31 in *. change date with Z in *. lia. }
      assert (V : valid_ymd (year n + 1) 1 1) by (split; [lia|]; change (mlen (year n + 1) 1) with 31; lia).
      rewrite R', year_of_ymd, month_of_ymd, day_of_ymd by exact V. auto.
    + left. assert (R' : n + 1 = of_ymd (year n) (month n + 1) 1).
      { rewrite of_ymd_next_month by lia. rewrite of_ymd_day in R. change date with Z in *. lia. }
      assert (V : valid_ymd (year n) (month n + 1) 1).
      { split; [lia|]. pose proof (mlen_bounds (year n) (month n + 1)). lia. }
      rewrite R', year_of_ymd, month_of_ymd, day_of_ymd by exact V. split; [exact E|]. split; [lia|auto].
Qed.

Definition feb29 (d : date) : bool := (month d =? 2) && (day d =? 29).
Definition december (d : date) : Z := if month d =? 12 then 1 else 0.

Lemma nl_step n : nl_serial (n + 1) - nl_serial n =
  1 - (if feb29 (n + 1) then 1 else 0) + 10 * (december (n + 1) - december n).
Proof.
  pose proof (ymd_valid n) as [V1 V2]. pose proof (next_day n) as N.
  unfold nl_serial, feb29, december. cbv zeta.
  assert (M : month n = 1 \/ month n = 2 \/ month n = 3 \/ month n = 4 \/ month n = 5 \/ month n = 6 \/
              month n = 7 \/ month n = 8 \/ month n = 9 \/ month n = 10 \/ month n = 11 \/ month n = 12) by lia.
  destruct N as [(A & B & C & D)|[(A & B & C & D & E)|(A & B & C & D & E)]].
  - rewrite B, C, D. clear B C D.
    repeat (destruct M as [M|M]; [rewrite M in *; cbn [Z.eqb Pos.eqb andb]; try lia|]).
    + unfold mlen in A. cbn in A. destruct (Z.eqb_spec (day n + 1) 29), (Z.eqb_spec (day n) 29); destruct (leap (year n)); lia.
    + rewrite M in *. cbn [Z.eqb Pos.eqb andb]. lia.
  - rewrite C, D, E, A. clear C D E. generalize (year n * 365). intros Y. clear V1 V2 A. unfold mlen.
    generalize dependent (month n). generalize (leap (year n)). intros lp mo B M.
    replace (mo + 1 - 1) with mo by ring. replace (mo + 1 =? 12) with (mo =? 11) by lia.
    replace (mo + 1 =? 2) with (mo =? 1) by lia.
    repeat (destruct M as [M|M]; [subst mo; destruct lp;
      repeat match goal with |- context [nth (Z.to_nat ?k) MONTH_OFFSET 0] =>
        let v := eval compute in (nth (Z.to_nat k) MONTH_OFFSET 0) in change (nth (Z.to_nat k) MONTH_OFFSET 0) with v end;
      cbn -[Z.add Z.sub Z.mul]; lia|]).
    lia.
  - rewrite C, D, E, A, B. change (mlen (year n) 12) with 31.
    change (nth (Z.to_nat (1 - 1)) MONTH_OFFSET 0) with 0. change (nth (Z.to_nat (12 - 1)) MONTH_OFFSET 0) with 344.
    cbn -[Z.add Z.sub Z.mul]. lia.
Qed.

Lemma days_of_S a b : a <= b -> days_of a (b + 1) = days_of a b ++ [b].
Proof.
  intros H. unfold days_of. replace (Z.to_nat (b + 1 - a)) with (Z.to_nat (b - a) + 1)%nat by (change date with Z in *; lia).
  rewrite seq_app, map_app. cbn [seq map]. do 2 f_equal. change date with Z in *. lia.
Qed.

Lemma nl_count a b : a <= b -> nl_day_count a b =
  (b - a) - Z.of_nat (length (filter feb29 (days_of (a + 1) (b + 1)))) + 10 * (december b - december a).
Proof.
  intros H. unfold nl_day_count. change date with Z in *.
  replace b with (a + (b - a)) by ring. assert (K : 0 <= b - a) by lia. generalize dependent (b - a). clear H b.
  intros k K. pattern k. apply natlike_ind; [| |exact K].
  - replace (a + 0) with a by ring. unfold days_of. rewrite (Z.sub_diag (a + 1)).
    cbn [Z.to_nat seq map filter length]. lia.
  - clear k K. intros k K IH. replace (a + Z.succ k) with (a + k + 1) by lia.
    rewrite (days_of_S (a + 1) (a + k + 1)) by lia. rewrite filter_app, app_length.
    pose proof (nl_step (a + k)) as E. cbn [filter].
    destruct (feb29 (a + k + 1)); cbn [length]; unfold date in *; lia.
Qed.

(** * 30/360 *)
Lemma eu_serial a b :
  eu_day_count a b = (360 * year b + 30 * month b + Z.min (day b) 30) - (360 * year a + 30 * month a + Z.min (day a) 30).
Proof.
  pose proof (ymd_valid a) as [A1 A2]. pose proof (ymd_valid b) as [B1 B2].
  pose proof (mlen_bounds (year a) (month a)). pose proof (mlen_bounds (year b) (month b)).
  unfold eu_day_count, thirty. cbv zeta.
  destruct (Z.eqb_spec (day a) 31), (Z.eqb_spec (day b) 31); lia.
Qed.

Ltac by_ifs := repeat match goal with
  | |- context [if ?b then _ else _] =>
    lazymatch b with context [if _ then _ else _] => fail | _ => destruct b eqn:? end
  | _ : context [if ?b then _ else _] |- _ =>
    lazymatch b with context [if _ then _ else _] => fail | _ => destruct b eqn:? end
  end; try lia.

Lemma nasd_isma a b : nasd_day_count a b = isma_day_count a b.
Proof.
  pose proof (ymd_valid a) as [A1 A2]. pose proof (mlen_bounds (year a) (month a)).
  unfold nasd_day_count, isma_day_count, thirty. cbv zeta. by_ifs.
Qed.

(** * 30/360, published rules *)
Lemma last_feb_spec d : is_last_of_february d = true <-> last_feb d.
Proof.
  unfold is_last_of_february, last_feb, mlen. cbn [Z.eqb Pos.eqb]. destruct (leap (year d)); lia.
Qed.

Lemma last_feb_false d : is_last_of_february d = false <-> ~ last_feb d.
Proof. rewrite <- last_feb_spec. destruct (is_last_of_february d); split; congruence. Qed.

Lemma day_bounds d : 1 <= day d <= 31 /\ 1 <= month d <= 12.
Proof.
  pose proof (ymd_valid d) as [A1 A2]. pose proof (mlen_bounds (year d) (month d)). lia.
Qed.

Ltac feb d := destruct (is_last_of_february d) eqn:?F;
  [assert (last_feb d) by (apply last_feb_spec; assumption)
  |assert (~ last_feb d) by (apply last_feb_false; assumption)].

Lemma thirty_published m a b : exists x y, adjusted m a b x y /\
  thirty360_day_count m a b = 360 * (year b - year a) + 30 * (month b - month a) + (y - x).
Proof.
  pose proof (day_bounds a) as [DA MA]. pose proof (day_bounds b) as [DB MB].
  destruct m as [| | | |t|t|]; cbn [thirty360_day_count adjusted].
  - unfold us_day_count. cbv zeta.
    feb a; feb b;
      assert (LA : last_feb a -> day a < 30) by (unfold last_feb, mlen; cbn [Z.eqb Pos.eqb]; destruct (leap (year a)); lia);
      assert (LB : last_feb b -> day b < 30) by (unfold last_feb, mlen; cbn [Z.eqb Pos.eqb]; destruct (leap (year b)); lia);
      eexists; eexists; (split; [|unfold thirty; reflexivity]);
      (repeat split; intros; try tauto; by_ifs).
  - eexists; eexists. split; [|unfold eu_day_count, thirty; cbv zeta; reflexivity]. split; by_ifs.
  - eexists; eexists. split; [|unfold italy_day_count, thirty; cbv zeta; reflexivity]. cbv zeta.
    repeat split; intros; by_ifs.
  - eexists; eexists. split; [|unfold isma_day_count, thirty; cbv zeta; reflexivity]. repeat split; intros; by_ifs.
  - unfold isda_day_count, thirty. cbv zeta. feb a; feb b; eexists; eexists; (split; [|reflexivity]);
      repeat split; intros; try tauto; by_ifs; exfalso; (match goal with H : ~ (_ /\ _) |- _ => apply H end); (split; [assumption|lia]).
  - unfold isda_day_count, thirty. cbv zeta. feb a; feb b; eexists; eexists; (split; [|reflexivity]);
      repeat split; intros; try tauto; by_ifs; exfalso; (match goal with H : ~ (_ /\ _) |- _ => apply H end); (split; [assumption|lia]).
  - rewrite nasd_isma. eexists; eexists. split; [|unfold isma_day_count, thirty; cbv zeta; reflexivity]. repeat split; intros; by_ifs.
Qed.

Lemma last_feb_day d : last_feb d -> month d = 2 /\ 28 <= day d <= 29.
Proof. intros [A B]. split; [exact A|]. rewrite B. unfold mlen. cbn [Z.eqb Pos.eqb]. destruct (leap (year d)); lia. Qed.

Lemma adjusted_bounds m a b x y : adjusted m a b x y -> 1 <= x <= 30 /\ 1 <= y <= 31.
Proof.
  pose proof (day_bounds a) as [DA MA]. pose proof (day_bounds b) as [DB MB].
  destruct m as [| | | |t|t|]; cbn [adjusted]; cbv zeta; intros H.
  - destruct H as (H1 & H2 & H3 & H4 & H5). feb a; feb b; [| | |];
      (assert (x <= 30) by (first [rewrite H1 by tauto | rewrite H2 by tauto]; lia));
      (assert (1 <= x) by (first [rewrite H1 by tauto | rewrite H2 by tauto]; lia));
      destruct (Z.eq_dec x 30); first [specialize (H3 ltac:(tauto)); lia | specialize (H4 ltac:(tauto) ltac:(tauto)); lia | specialize (H5 ltac:(tauto) ltac:(tauto)); lia].
  - lia.
  - lia.
  - lia.
  - destruct H as (H1 & H2 & H3 & H4). feb a; feb b; destruct (Z.eq_dec b t);
    (split; [first [rewrite H1 by tauto | rewrite H2 by tauto]|first [rewrite H3 by tauto | rewrite H4 by tauto]]; lia).
  - destruct H as (H1 & H2 & H3 & H4). feb a; feb b; destruct (Z.eq_dec b t);
    (split; [first [rewrite H1 by tauto | rewrite H2 by tauto]|first [rewrite H3 by tauto | rewrite H4 by tauto]]; lia).
  - lia.
Qed.

Lemma thirty_near m a b :
  Z.abs (thirty360_day_count m a b - 30 * (12 * (year b - year a) + (month b - month a))) <= 30.
Proof.
  destruct (thirty_published m a b) as (x & y & H & ->). pose proof (adjusted_bounds m a b x y H). lia.
Qed.

(** In the same month the adjusted days keep their order, except on the
    termination date of the ISDA flavours. *)
Lemma adjusted_same m a b x y : same_month a b -> day a <= day b -> adjusted m a b x y ->
  (forall t, m = ISDA t \/ m = German t -> ~ (last_feb a /\ a = b /\ b = t)) -> x <= y.
Proof.
  pose proof (day_bounds a) as [DA MA]. pose proof (day_bounds b) as [DB MB].
  intros [SY SM] L. pose proof (ymd_valid b) as [_ VB].
  assert (FE : last_feb a -> last_feb b /\ a = b).
  { intros [F1 F2]. rewrite SY in F2. rewrite <- SM in VB. rewrite F1 in VB.
    assert (day a = day b) by lia.
    split; [split; [congruence|rewrite <- F2; congruence]|].
    pose proof (day_fom a) as Xa. pose proof (day_fom b) as Xb. assert (mi a = mi b) as Xm by (rewrite !mi_def; lia). rewrite Xm in Xa. unfold date in *. lia. }
  destruct m as [| | | |t|t|]; cbn [adjusted]; cbv zeta; intros H N.
  - destruct H as (H1 & H2 & H3 & H4 & H5). feb a.
    + rewrite H1, H3 by tauto. lia.
    + rewrite (H2 ltac:(assumption)) in *. destruct (Z.eq_dec (Z.min (day a) 30) 30).
      * rewrite H4 by tauto. lia.
      * rewrite H5 by tauto. lia.
  - lia.
  - lia.
  - lia.
  - destruct H as (H1 & H2 & H3 & H4). specialize (N t (or_introl eq_refl)). feb a.
    + rewrite H1 by assumption. rewrite H3 by tauto. lia.
    + rewrite H2 by assumption. destruct (Z.eq_dec b t); [rewrite H4 by tauto; lia|]. feb b; [rewrite H3 by tauto|rewrite H4 by tauto]; lia.
  - destruct H as (H1 & H2 & H3 & H4). specialize (N t (or_intror eq_refl)). feb a.
    + rewrite H1 by assumption. rewrite H3 by tauto. lia.
    + rewrite H2 by assumption. destruct (Z.eq_dec b t); [rewrite H4 by tauto; lia|]. feb b; [rewrite H3 by tauto|rewrite H4 by tauto]; lia.
  - lia.
Qed.

Lemma thirty_nonneg m a b : a <= b ->
  (forall t, m = ISDA t \/ m = German t -> ~ (last_feb a /\ a = b /\ b = t)) ->
  0 <= thirty360_day_count m a b.
Proof.
  intros L N. destruct (thirty_published m a b) as (x & y & H & ->).
  pose proof (adjusted_bounds m a b x y H).
  pose proof (mi_mono a b L) as MI. pose proof (mi_def a). pose proof (mi_def b).
  pose proof (day_bounds a) as [DA MA]. pose proof (day_bounds b) as [DB MB].
  destruct (Z.eq_dec (mi a) (mi b)) as [E|E].
  - assert (S : same_month a b) by (unfold same_month; lia).
    assert (day a <= day b) by (rewrite !day_fom, E; lia).
    pose proof (adjusted_same m a b x y S ltac:(assumption) H N). destruct S. lia.
  - lia.
Qed.

(** The last day of February counted to itself under the ISDA flavours. *)
Lemma isda_empty_negative a : last_feb a ->
  isda_day_count a a a = day a - 30 /\ -2 <= isda_day_count a a a <= -1.
Proof.
  intros L. pose proof (last_feb_day a L) as [_ D]. pose proof L as F. apply last_feb_spec in F.
  unfold isda_day_count, thirty. cbv zeta. rewrite F, Z.eqb_refl. cbn [negb andb].
  replace (day a =? 31) with false by lia. lia.
Qed.

(** The same day a whole number of years later. *)
Lemma thirty_anniversary m a b : month a = month b -> day a = day b ->
  (month a <> 2 \/ m = European \/ m = ISMA \/ m = NASD \/ m = Italian) ->
  thirty360_day_count m a b = 360 * (year b - year a).
Proof.
  intros M D C. destruct (thirty_published m a b) as (x & y & H & ->). rewrite M.
  enough (x = y) by lia.
  assert (NF : month a <> 2 -> ~ last_feb a /\ ~ last_feb b).
  { intros K. split; intros [K1 _]; congruence. }
  pose proof (day_bounds a) as [DA _].
  destruct m as [| | | |t|t|]; cbn [adjusted] in H; cbv zeta in H.
  - destruct C as [C|[C|[C|[C|C]]]]; try discriminate. destruct (NF C) as [N1 N2].
    destruct H as (_ & H2 & _ & H4 & H5). rewrite D in H2. specialize (H2 N1).
    destruct (Z.eq_dec x 30) as [E|E].
    + rewrite H4 by tauto. exact H2.
    + rewrite H5 by tauto. lia.
  - lia.
  - lia.
  - lia.
  - destruct C as [C|[C|[C|[C|C]]]]; try discriminate. destruct (NF C) as [N1 N2].
    destruct H as (_ & H2 & _ & H4). rewrite H2, H4 by tauto. now rewrite D.
  - destruct C as [C|[C|[C|[C|C]]]]; try discriminate. destruct (NF C) as [N1 N2].
    destruct H as (_ & H2 & _ & H4). rewrite H2, H4 by tauto. now rewrite D.
  - lia.
Qed.

(** * Actual/Actual (ISDA) *)
Definition year_pos (d : date) : R := (IZR (year d) + IZR (d - of_ymd (year d) 1 1) / IZR (year_len (year d)))%R.

Lemma year_len_bounds y : 365 <= year_len y <= 366.
Proof. unfold year_len. destruct (leap y); lia. Qed.

Lemma jan1_fom y : of_ymd y 1 1 = fom (12 * y).
Proof. rewrite of_ymd_fom by lia. replace (12 * y + (1 - 1)) with (12 * y) by lia. lia. Qed.

Lemma jan1_bounds d : of_ymd (year d) 1 1 <= d < of_ymd (year d) 1 1 + year_len (year d).
Proof.
  rewrite <- jan1_next, !jan1_fom.
  pose proof (day_bounds d) as [_ M]. pose proof (mi_def d) as E. pose proof (fom_mi_bounds d) as B.
  assert (L : fom (12 * year d) <= fom (mi d)).
  { destruct (Z.eq_dec (12 * year d) (mi d)) as [<-|]; [lia|]. pose proof (fom_lt (12 * year d) (mi d) ltac:(lia)). lia. }
  assert (U : fom (mi d + 1) <= fom (12 * (year d + 1))).
  { destruct (Z.eq_dec (mi d + 1) (12 * (year d + 1))) as [<-|]; [lia|]. pose proof (fom_lt (mi d + 1) (12 * (year d + 1)) ltac:(lia)). lia. }
  lia.
Qed.

Lemma year_pos_step (n : date) : (year_pos (n + 1)%Z = year_pos n + / IZR (year_len (year n)))%R.
Proof.
  pose proof (jan1_bounds n) as B. pose proof (year_len_bounds (year n)) as LB.
  assert (P : (0 < IZR (year_len (year n)))%R) by (apply IZR_lt; lia).
  unfold year_pos. destruct (Z.eq_dec (n + 1) (of_ymd (year n) 1 1 + year_len (year n))) as [E|E].
  - pose proof E as E'. rewrite <- jan1_next in E'.
    assert (Y : year (n + 1) = year n + 1).
    { rewrite E'. apply year_of_ymd. split; [lia|]. change (mlen (year n + 1) 1) with 31. lia. }
    rewrite Y, <- E', Z.sub_diag.
    replace (n - of_ymd (year n) 1 1) with (year_len (year n) - 1) by (unfold date in *; lia).
    rewrite plus_IZR, minus_IZR. unfold Rdiv. rewrite Rmult_0_l. field. lra.
  - replace (year (n + 1)) with (year n).
    2:{ replace (n + 1) with (of_ymd (year n) 1 1 + (n + 1 - of_ymd (year n) 1 1)) by (unfold date in *; lia).
        symmetry. apply year_in. unfold date in *. lia. }
    replace (n + 1 - of_ymd (year n) 1 1) with (n - of_ymd (year n) 1 1 + 1) by (unfold date in *; lia).
    rewrite plus_IZR. field. lra.
Qed.

Lemma actact_isda_pos a b : a <= b -> actact_isda a b = (year_pos b - year_pos a)%R.
Proof.
  intros L. replace b with (a + (b - a)) by lia.
  assert (K : 0 <= b - a) by lia. generalize dependent (b - a). clear b L.
  intros k K. pattern k. apply natlike_ind; [| |exact K].
  - rewrite Z.add_0_r. unfold actact_isda, days_in_leap_years, days_in_common_years, days_of.
    rewrite Z.sub_diag. cbn. lra.
  - clear k K. intros k K IH. replace (a + Z.succ k) with (a + k + 1) by lia.
    rewrite year_pos_step. unfold actact_isda, days_in_leap_years, days_in_common_years in *.
    rewrite days_of_S by lia. rewrite !filter_app, !app_length. cbn [filter].
    unfold year_len. destruct (leap (year (a + k))); cbn [negb length].
    + rewrite Nat.add_0_r, Nat2Z.inj_add, plus_IZR. change (Z.of_nat 1) with 1. lra.
    + rewrite Nat.add_0_r, Nat2Z.inj_add, plus_IZR. change (Z.of_nat 1) with 1. lra.
Qed.

Lemma from_ymd_opt_jan1 y : MIN_YEAR <= y <= MAX_YEAR -> from_ymd_opt y 1 1 = Some (of_ymd y 1 1).
Proof.
  intros H. unfold from_ymd_opt. replace (valid_ymdb y 1 1) with true; [|unfold valid_ymdb; change (mlen y 1) with 31; lia].
  replace (MIN_YEAR <=? y) with true by lia. replace (y <=? MAX_YEAR) with true by lia. reflexivity.
Qed.

Lemma from_ymd_opt_none y m d : MAX_YEAR < y -> from_ymd_opt y m d = None.
Proof. intros H. unfold from_ymd_opt. replace (y <=? MAX_YEAR) with false by lia. now rewrite andb_false_r. Qed.

(** What ActualActual::isda_year_fraction computes, exactly. *)
Lemma isda_value (a b : date) : in_range a -> in_range b -> a <> b -> year a < MAX_YEAR ->
  exists v, isda_year_fraction a b = Ok v /\ finite v /\
  (Rabs (f64R v - (2 * IZR (year b - year a - 1) - (year_pos b - year_pos a))) <= / 1000000000)%R.
Proof.
  intros Ra Rb N Y. unfold isda_year_fraction. replace (a =? b) with false by (symmetry; now apply Z.eqb_neq).
  pose proof (in_range_year a Ra) as Ya. pose proof (in_range_year b Rb) as Yb.
  rewrite (from_ymd_opt_jan1 (year a + 1)) by lia. rewrite (from_ymd_opt_jan1 (year b)) by lia. cbn [ounwrap obind].
  eexists. split; [reflexivity|].
  set (n1 := a - of_ymd (year a + 1) 1 1). set (n2 := of_ymd (year b) 1 1 - b).
  pose proof (jan1_bounds a) as Ba. pose proof (jan1_bounds b) as Bb.
  pose proof (year_len_bounds (year a)) as La. pose proof (year_len_bounds (year b)) as Lb.
  assert (N1 : n1 = (a - of_ymd (year a) 1 1) - year_len (year a)) by (unfold n1; rewrite jan1_next; unfold date in *; lia).
  assert (N2 : n2 = - (b - of_ymd (year b) 1 1)) by (unfold n2; unfold date in *; lia).
  replace (if leap (year a) then f64_of_Z 366 else f64_of_Z 365) with (f64_of_Z (year_len (year a))) by (unfold year_len; destruct (leap (year a)); reflexivity).
  replace (if leap (year b) then f64_of_Z 366 else f64_of_Z 365) with (f64_of_Z (year_len (year b))) by (unfold year_len; destruct (leap (year b)); reflexivity).
  change (fdiv (f64_of_Z n1) (f64_of_Z (year_len (year a)))) with (fraction n1 (year_len (year a))).
  change (fdiv (f64_of_Z n2) (f64_of_Z (year_len (year b)))) with (fraction n2 (year_len (year b))).
  change MIN_YEAR with (-262143) in *. change MAX_YEAR with 262142 in *.
  destruct (f64_of_Z_ok (year b - year a) ltac:(lia)) as [Z1 F1].
  destruct (f64_of_Z_ok 1 ltac:(lia)) as [Z2 F2].
  set (s := year b - year a) in *.
  destruct (fsub_ok (f64_of_Z s) (f64_of_Z 1) (2 ^ 20) F1 F2 ltac:(lia)) as [Z3 F3].
  { rewrite Z1, Z2, <- minus_IZR, <- abs_IZR. apply IZR_le. lia. }
  rewrite Z1, Z2, <- minus_IZR, rnd_Z in Z3 by lia.
  destruct (fraction_ok n1 (year_len (year a)) ltac:(lia) ltac:(lia)) as [_ F4].
  destruct (fraction_ok n2 (year_len (year b)) ltac:(lia) ltac:(lia)) as [_ F5].
  pose proof (fraction_error n1 (year_len (year a)) ltac:(lia) ltac:(lia)) as E1.
  pose proof (fraction_error n2 (year_len (year b)) ltac:(lia) ltac:(lia)) as E2.
  set (q1 := fraction n1 (year_len (year a))) in *. set (q2 := fraction n2 (year_len (year b))) in *.
  assert (P1 : (0 < IZR (year_len (year a)))%R) by (apply IZR_lt; lia).
  assert (P2 : (0 < IZR (year_len (year b)))%R) by (apply IZR_lt; lia).
  assert (A1 : (-1 <= IZR n1 / IZR (year_len (year a)) <= 0)%R).
  { split; [apply Rmult_le_reg_r with (IZR (year_len (year a))); [assumption|]; unfold Rdiv; rewrite Rmult_assoc, Rinv_l, <- mult_IZR, Rmult_1_r by lra; apply IZR_le; lia|].
    apply Rmult_le_reg_r with (IZR (year_len (year a))); [assumption|]; unfold Rdiv; rewrite Rmult_assoc, Rinv_l, Rmult_0_l, Rmult_1_r by lra; apply IZR_le; lia. }
  assert (A2 : (-1 <= IZR n2 / IZR (year_len (year b)) <= 0)%R).
  { split; [apply Rmult_le_reg_r with (IZR (year_len (year b))); [assumption|]; unfold Rdiv; rewrite Rmult_assoc, Rinv_l, <- mult_IZR, Rmult_1_r by lra; apply IZR_le; lia|].
    apply Rmult_le_reg_r with (IZR (year_len (year b))); [assumption|]; unfold Rdiv; rewrite Rmult_assoc, Rinv_l, Rmult_0_l, Rmult_1_r by lra; apply IZR_le; lia. }
  assert (EQ : (2 * IZR (s - 1) - (year_pos b - year_pos a) = IZR (s - 1) + IZR n1 / IZR (year_len (year a)) + IZR n2 / IZR (year_len (year b)))%R).
  { unfold year_pos. rewrite N1, N2, opp_IZR, !minus_IZR. unfold s. rewrite !minus_IZR. field. lra. }
  rewrite EQ.
  set (r1 := (IZR n1 / IZR (year_len (year a)))%R) in *. set (r2 := (IZR n2 / IZR (year_len (year b)))%R) in *.
  assert (B1 : (Rabs (f64R q1 - r1) <= / IZR (2 ^ 53))%R).
  { eapply Rle_trans; [exact E1|]. rewrite <- (Rmult_1_r (/ IZR (2 ^ 53))) at 2. apply Rmult_le_compat_l; [left; apply Rinv_0_lt_compat, IZR_lt; lia|]. apply Rabs_le; lra. }
  assert (B2 : (Rabs (f64R q2 - r2) <= / IZR (2 ^ 53))%R).
  { eapply Rle_trans; [exact E2|]. rewrite <- (Rmult_1_r (/ IZR (2 ^ 53))) at 2. apply Rmult_le_compat_l; [left; apply Rinv_0_lt_compat, IZR_lt; lia|]. apply Rabs_le; lra. }
  clear E1 E2. apply Rabs_le_inv in B1, B2.
  assert (TINY : (0 < / IZR (2 ^ 53) <= / 100000000000)%R).
  { split; [apply Rinv_0_lt_compat, IZR_lt; lia|]. apply Rinv_le_contravar; [lra|apply IZR_le; lia]. }
  assert (BS : (-524300 <= IZR (s - 1) <= 524300)%R) by (split; apply IZR_le; lia).
  change (bpow radix2 20) with (IZR (2 ^ 20)) in *.
  set (s0 := fsub (f64_of_Z s) (f64_of_Z 1)) in *.
  assert (G1 : (Rabs (f64R s0 + f64R q1) <= IZR (2 ^ 20))%R) by (rewrite Z3; apply Rabs_le; change (2 ^ 20) with 1048576; lra).
  destruct (fadd_ok s0 q1 (2 ^ 20) F3 F4 ltac:(lia) G1) as [Z4 F6].
  pose proof (rnd_error _ 20 ltac:(lia) G1) as X1. rewrite <- Z4, Z3 in X1.
  change (bpow radix2 (20 - 54)) with (/ IZR (2 ^ 34))%R in X1.
  assert (T2 : (0 < / IZR (2 ^ 34) <= / 10000000000)%R).
  { split; [apply Rinv_0_lt_compat, IZR_lt; lia|]. apply Rinv_le_contravar; [lra|apply IZR_le; lia]. }
  apply Rabs_le_inv in X1.
  assert (G2 : (Rabs (f64R (fadd s0 q1) + f64R q2) <= IZR (2 ^ 20))%R) by (apply Rabs_le; change (2 ^ 20) with 1048576; lra).
  destruct (fadd_ok (fadd s0 q1) q2 (2 ^ 20) F6 F5 ltac:(lia) G2) as [Z5 F7].
  pose proof (rnd_error _ 20 ltac:(lia) G2) as X2. rewrite <- Z5 in X2.
  change (bpow radix2 (20 - 54)) with (/ IZR (2 ^ 34))%R in X2. apply Rabs_le_inv in X2.
  split; [exact F7|]. apply Rabs_le. lra.
Qed.
