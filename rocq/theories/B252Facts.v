(** Facts about the Business/252 day counter. *)
From Coq Require Import ZArith Bool List Lia.
From Coq Require Import ZifyBool.
Import ListNotations.
From Verif Require Import Outcome Ints Loop Date DateFacts Calendar CalendarSpec CalendarFacts AdvanceFacts PeriodFacts DayCount DayCountSpec.
Open Scope Z_scope.
Ltac Zify.zify_post_hook ::= Z.div_mod_to_equations.

Lemma in_days_of a b x : In x (days_of a b) <-> a <= x < b.
Proof.
  unfold days_of. rewrite in_map_iff. split.
  - intros (i & <- & H). apply in_seq in H. unfold date in *. lia.
  - intros H. exists (Z.to_nat (x - a)). split; [unfold date in *; lia|]. apply in_seq. unfold date in *. lia.
Qed.

Lemma days_of_cons a b : a < b -> days_of a b = a :: days_of (a + 1) b.
Proof.
  intros H. unfold days_of. replace (Z.to_nat (b - a)) with (S (Z.to_nat (b - (a + 1)))) by (unfold date in *; lia).
  cbn [seq map]. f_equal; [unfold date in *; lia|]. rewrite <- seq_shift, map_map. apply map_ext. intros i. unfold date in *. lia.
Qed.

Lemma days_of_nil a b : b <= a -> days_of a b = [].
Proof. intros H. unfold days_of. replace (Z.to_nat (b - a)) with 0%nat by (unfold date in *; lia). reflexivity. Qed.

Lemma filter_skip a m b : a <= m -> (forall x, a <= x < m -> x < b -> day x <> 1) ->
  filter (fun d => day d =? 1) (days_of a b) = filter (fun d => day d =? 1) (days_of m b).
Proof.
  intros H. replace m with (a + (m - a)) by lia. assert (K : 0 <= m - a) by lia.
  revert K. generalize (m - a). clear m H. intros k K. revert a. pattern k. apply natlike_ind; [| |exact K].
  - intros a _. now rewrite Z.add_0_r.
  - clear k K. intros k K IH a H. destruct (Z_lt_ge_dec a b) as [L|L].
    + rewrite (days_of_cons a b L). cbn [filter].
      replace (day a =? 1) with false by (specialize (H a ltac:(lia) L); lia).
      replace (a + Z.succ k) with (a + 1 + k) by lia. apply IH. intros x Hx. apply H. lia.
    + rewrite !days_of_nil by lia. reflexivity.
Qed.

Lemma day_fom_1 k : day (fom k) = 1.
Proof. rewrite day_fom. pose proof (mi_fom k 0) as E. rewrite Z.add_0_r in E. pose proof (mil_bounds k). rewrite E by lia. lia. Qed.
Lemma mi_fom0 k : mi (fom k) = k.
Proof. pose proof (mi_fom k 0) as E. rewrite Z.add_0_r in E. pose proof (mil_bounds k). apply E. lia. Qed.

Lemma month_starts_at k b : month_starts (fom k - 1) b =
  if fom k <=? b then fom k :: month_starts (fom (k + 1) - 1) b else [].
Proof.
  unfold month_starts. replace (fom k - 1 + 1) with (fom k) by (unfold date in *; lia).
  replace (fom (k + 1) - 1 + 1) with (fom (k + 1)) by (unfold date in *; lia).
  destruct (Z.leb_spec (fom k) b) as [L|L].
  - rewrite days_of_cons by (unfold date in *; lia). cbn [filter]. rewrite day_fom_1. cbn [Z.eqb Pos.eqb]. f_equal.
    pose proof (fom_lt k (k + 1) ltac:(lia)). apply filter_skip; [unfold date in *; lia|].
    intros x [X1 X2] _. rewrite day_fom.
    rewrite (mi_unique x k) by (unfold date in *; lia). unfold date in *. lia.
  - rewrite days_of_nil by (unfold date in *; lia). reflexivity.
Qed.

Lemma month_starts_from a b : month_starts a b = month_starts (fom (mi a + 1) - 1) b.
Proof.
  unfold month_starts. pose proof (fom_mi_bounds a). apply filter_skip; [unfold date in *; lia|].
  intros x X _. rewrite day_fom. rewrite (mi_unique x (mi a)) by (unfold date in *; lia). unfold date in *. lia.
Qed.

Lemma same_monthb_mi a b : same_monthb a b = (mi a =? mi b).
Proof.
  unfold same_monthb. rewrite !mi_def. pose proof (ymd_valid a) as [? _]. pose proof (ymd_valid b) as [? _]. lia.
Qed.

Lemma between_default c a b : a < b -> in_range a -> in_range b -> answers c (a + 1) b ->
  business_days_between c a b None None = Ok (open_days c (a + 1) b).
Proof.
  intros L Ra Rb A. unfold business_days_between. replace (b <? a) with false by lia.
  pose proof (bdb_ord c a b true false) as G. cbn [b2z] in G. rewrite Z.add_0_r in G.
  apply G; try assumption; unfold in_range, date in *; lia.
Qed.

Lemma add_month_fom k : in_range (fom (k + 1)) -> add_months (fom k) 1 = Ok (fom (k + 1)).
Proof.
  intros H. apply add_months_Ok. split; [exact H|]. split.
  - pose proof (mi_fom0 (k + 1)) as A. pose proof (mi_fom0 k) as B. rewrite mi_def in A, B. lia.
  - rewrite !day_fom_1. pose proof (mlen_bounds (year (fom (k + 1))) (month (fom (k + 1)))). lia.
Qed.

Lemma first_of_month d : in_range d -> from_ymd_opt (year d) (month d) 1 = Some (fom (mi d)).
Proof.
  intros R. unfold from_ymd_opt. pose proof (ymd_valid d) as [V _]. pose proof (in_range_year d R).
  replace (valid_ymdb (year d) (month d) 1) with true
    by (unfold valid_ymdb; pose proof (mlen_bounds (year d) (month d)); lia).
  replace (MIN_YEAR <=? year d) with true by lia. replace (year d <=? MAX_YEAR) with true by lia.
  rewrite of_ymd_fom by lia. cbn [andb]. rewrite mi_def. do 2 f_equal. lia.
Qed.

(** The loop: from the first of month [k] to the month of [b]. *)
Lemma b252_loop c b t0 k0 : in_range b -> k0 <= mi b -> day b <> 1 -> in_range (fom k0) -> answers c (fom k0 + 1) b ->
  exists r, loop date_fuel (b252_step c b) (fom k0, t0) = inr (Ok (fom (mi b), r)) /\
  r + open_days c (fom (mi b) + 1) b =
  t0 + zsum (map (fun x => open_days c (x + 1) b) (month_starts (fom k0 - 1) b)).
Proof.
  intros Rb K0 NB R0 A.
  set (T := t0 + zsum (map (fun x => open_days c (x + 1) b) (month_starts (fom k0 - 1) b))).
  pose proof (fom_mi_bounds b) as FB.
  assert (NFB : fom (mi b) < b) by (rewrite day_fom in NB; unfold date in *; lia).
  destruct (loop_ind (b252_step c b)
    (fun s => exists k, k0 <= k <= mi b /\ fst s = fom k /\
       snd s + zsum (map (fun x => open_days c (x + 1) b) (month_starts (fom k - 1) b)) = T)
    (fun o => exists r, o = Ok (fom (mi b), r) /\ r + open_days c (fom (mi b) + 1) b = T)
    (fun s => mi b - mi (fst s)) date_fuel (fom k0, t0)) as (o & E & r & -> & Q).
  - exists k0. cbn [fst snd]. split; [lia|]. split; reflexivity.
  - cbn [fst]. rewrite mi_fom0.
    pose proof (in_range_year _ Rb). pose proof (in_range_year _ R0).
    pose proof (mi_fom0 k0) as E0. rewrite mi_def in E0 |- *.
    pose proof (ymd_valid b) as [V1 _]. pose proof (ymd_valid (fom k0)) as [V2 _].
    change MIN_YEAR with (-262143) in *. change MAX_YEAR with 262142 in *. pose proof fuel_big. lia.
  - intros [d t] (k & Hk & -> & _). cbn [fst]. rewrite mi_fom0. lia.
  - intros [d t] [d' t'] (k & Hk & Hd & HT) S. cbn [fst snd] in *. subst d.
    unfold b252_step in S. rewrite same_monthb_mi, mi_fom0 in S.
    destruct (Z.eqb_spec k (mi b)) as [|N]; [discriminate|].
    assert (M1 : fom (k + 1) <= fom (mi b)).
    { destruct (Z.eq_dec (k + 1) (mi b)) as [<-|]; [lia|]. pose proof (fom_lt (k + 1) (mi b) ltac:(lia)). lia. }
    assert (M0 : fom k0 <= fom k).
    { destruct (Z.eq_dec k0 k) as [->|]; [lia|]. pose proof (fom_lt k0 k ltac:(lia)). lia. }
    pose proof (fom_lt k (k + 1) ltac:(lia)) as M2.
    rewrite between_default in S.
    2-4: unfold in_range, date in *; lia.
    2:{ intros x Hx. apply A. unfold date in *. lia. }
    cbn [obind] in S. rewrite add_month_fom in S by (unfold in_range, date in *; lia).
    cbn [obind] in S. injection S as <- <-.
    rewrite !mi_fom0. split; [|lia].
    exists (k + 1). split; [lia|]. split; [reflexivity|].
    rewrite (month_starts_at k) in HT. replace (fom k <=? b) with true in HT by (unfold date in *; lia).
    cbn [map zsum fold_right] in HT. fold (zsum (map (fun x => open_days c (x + 1) b) (month_starts (fom (k + 1) - 1) b))) in HT.
    lia.
  - intros [d t] o (k & Hk & Hd & HT) S. cbn [fst snd] in *. subst d.
    unfold b252_step in S. rewrite same_monthb_mi, mi_fom0 in S.
    destruct (Z.eqb_spec k (mi b)) as [->|N].
    + injection S as <-. exists t. split; [reflexivity|]. rewrite <- HT.
      rewrite (month_starts_at (mi b)). replace (fom (mi b) <=? b) with true by (unfold date in *; lia).
      rewrite (month_starts_at (mi b + 1)). replace (fom (mi b + 1) <=? b) with false by (unfold date in *; lia).
      cbn [map zsum fold_right]. lia.
    + exfalso.
      assert (M1 : fom (k + 1) <= fom (mi b)).
      { destruct (Z.eq_dec (k + 1) (mi b)) as [<-|]; [lia|]. pose proof (fom_lt (k + 1) (mi b) ltac:(lia)). lia. }
      assert (M0 : fom k0 <= fom k).
      { destruct (Z.eq_dec k0 k) as [->|]; [lia|]. pose proof (fom_lt k0 k ltac:(lia)). lia. }
      pose proof (fom_lt k (k + 1) ltac:(lia)) as M2.
      rewrite between_default in S.
      2-4: unfold in_range, date in *; lia.
      2:{ intros x Hx. apply A. unfold date in *. lia. }
      cbn [obind] in S. rewrite add_month_fom in S by (unfold in_range, date in *; lia). discriminate.
  - exists r. split; [exact E|exact Q].
Qed.

Lemma b252_same_month c a b : a < b -> in_range a -> in_range b -> same_month a b -> answers c (a + 1) b ->
  b252_day_count c a b = Ok (open_days c (a + 1) b).
Proof.
  intros L Ra Rb [S1 S2] A. unfold b252_day_count, same_monthb. rewrite S1, S2, !Z.eqb_refl. cbn [andb orb].
  now apply between_default.
Qed.

Lemma b252_months c a b : in_range a -> in_range b -> a < b -> ~ same_month a b -> day b <> 1 -> answers c (a + 1) b ->
  exists f rest, month_starts a b = f :: rest /\
  b252_day_count c a b = Ok (open_days c (a + 1) f + zsum (map (fun x => open_days c (x + 1) b) (f :: rest))).
Proof.
  intros Ra Rb L N NB A.
  pose proof (mi_mono a b ltac:(lia)) as M.
  assert (NM : mi a <> mi b).
  { intros E. apply N. pose proof (mi_def a). pose proof (mi_def b). pose proof (ymd_valid a) as [? _]. pose proof (ymd_valid b) as [? _]. unfold same_month. lia. }
  pose proof (fom_mi_bounds a) as Ba. pose proof (fom_mi_bounds b) as Bb.
  assert (M1 : fom (mi a + 1) <= fom (mi b)).
  { destruct (Z.eq_dec (mi a + 1) (mi b)) as [<-|]; [lia|]. pose proof (fom_lt (mi a + 1) (mi b) ltac:(lia)). lia. }
  assert (NFB : fom (mi b) < b) by (rewrite day_fom in NB; unfold date in *; lia).
  assert (R1 : in_range (fom (mi a + 1))) by (unfold in_range, date in *; lia).
  exists (fom (mi a + 1)), (month_starts (fom (mi a + 1 + 1) - 1) b).
  assert (MS : month_starts a b = fom (mi a + 1) :: month_starts (fom (mi a + 1 + 1) - 1) b).
  { rewrite month_starts_from, month_starts_at. replace (fom (mi a + 1) <=? b) with true by (unfold date in *; lia). reflexivity. }
  split; [exact MS|]. rewrite <- MS. unfold b252_day_count.
  rewrite same_monthb_mi. replace (mi a =? mi b) with false by lia. replace (b <? a) with false by lia. cbn [orb].
  rewrite first_of_month by assumption. cbn [ounwrap obind].
  rewrite add_month_fom by assumption. cbn [obind].
  rewrite between_default; try assumption; [|unfold date in *; lia|intros x Hx; apply A; unfold date in *; lia].
  cbn [obind].
  destruct (b252_loop c b (open_days c (a + 1) (fom (mi a + 1))) (mi a + 1)) as (r & E & Q); try assumption; [lia| |].
  { intros x Hx. apply A. unfold date in *. lia. }
  rewrite (f_equal finish E). cbn [finish obind].
  rewrite between_default; try assumption; [|unfold in_range, date in *; lia|intros x Hx; apply A; unfold date in *; lia].
  cbn [obind]. rewrite Q. rewrite <- month_starts_from. reflexivity.
Qed.
