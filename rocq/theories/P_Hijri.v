(** Property C93: the Islamic feasts of the calendars of Turkey, Singapore,
    Indonesia and India (HijriSpec.v). *)
From Coq Require Import ZArith Bool List Lia.
From Coq Require Import ZifyBool.
Import ListNotations.
From Verif Require Import Outcome Date DateFacts Calendar CalendarSpec CalendarFacts Cal_base ShippedFacts Shipped
  Closure ClosureView ClosureIsrael FestivalSpec FestivalLaws P_Festivals HijriSpec.
Open Scope Z_scope.
Local Ltac Zify.zify_post_hook ::= Z.to_euclidean_division_equations.

(** ** The closed form is the calendar of the rules *)

Theorem C93_rules :
  hijri_new_year 1 = hijri_epoch /\
  (forall h, hijri_new_year (h + 1) = hijri_new_year h + hijri_year_len h) /\
  (forall h m, 1 <= m <= 11 -> hijri h (m + 1) 1 = hijri h m 1 + hijri_month_len h m) /\
  (forall h, hijri (h + 1) 1 1 = hijri h 12 1 + hijri_month_len h 12) /\
  (forall h, hijri_new_year (h + 30) = hijri_new_year h + 10631).
Proof.
  split; [reflexivity|]. assert (Y : forall h, hijri_new_year (h + 1) = hijri_new_year h + hijri_year_len h).
  { intros h. unfold hijri_new_year, hijri_year_len, hijri_leap. generalize hijri_epoch. intros e. change date with Z in *.
    assert (M : h = 30 * (h / 30) + h mod 30) by (apply Z.div_mod; lia).
    pose proof (Z.mod_pos_bound h 30 ltac:(lia)) as B. set (q := h / 30) in *. set (r := h mod 30) in *. clearbody q r. subst h.
    replace (3 + 11 * (30 * q + r + 1)) with (14 + 11 * r + (11 * q) * 30) by lia.
    replace (3 + 11 * (30 * q + r)) with (3 + 11 * r + (11 * q) * 30) by lia. rewrite !Z.div_add by lia.
    assert (C : (14 + 11 * r) / 30 = (3 + 11 * r) / 30 + if existsb (Z.eqb r) [2; 5; 7; 10; 13; 16; 18; 21; 24; 26; 29] then 1 else 0).
    { assert (A : forallb (fun i => let r := Z.of_nat i in (14 + 11 * r) / 30 =? (3 + 11 * r) / 30 + (if existsb (Z.eqb r) [2; 5; 7; 10; 13; 16; 18; 21; 24; 26; 29] then 1 else 0)) (seq 0 30) = true) by (vm_compute; reflexivity).
      rewrite forallb_forall in A. specialize (A (Z.to_nat r) ltac:(apply in_seq; lia)). cbv zeta in A. rewrite Z2Nat.id in A by lia.
      apply Z.eqb_eq in A. exact A. }
    rewrite C. destruct (existsb _ _); lia. }
  split; [exact Y|]. split; [|split].
  - intros h m M. unfold hijri. assert (S : hijri_before (m + 1) = hijri_before m + hijri_month_len h m).
    { unfold hijri_month_len, hijri_before.
      assert (E : m = 1 \/ m = 2 \/ m = 3 \/ m = 4 \/ m = 5 \/ m = 6 \/ m = 7 \/ m = 8 \/ m = 9 \/ m = 10 \/ m = 11) by lia.
      repeat (destruct E as [->|E]; [reflexivity|]). subst m. reflexivity. }
    rewrite S. lia.
  - intros h. unfold hijri. rewrite Y. unfold hijri_year_len, hijri_month_len. cbn [Z.odd Z.eqb Pos.eqb andb].
    change (hijri_before 1) with 0. change (hijri_before 12) with 325. destruct (hijri_leap h); lia.
  - intros h. unfold hijri_new_year. generalize hijri_epoch. intros e. change date with Z in *.
    replace (3 + 11 * (h + 30)) with (3 + 11 * h + 11 * 30) by lia. rewrite Z.div_add by lia. lia.
Qed.
Print Assumptions C93_rules.

(** ** Turkey *)

(** [n] consecutive days from [d] are closed or weekend days. *)
Definition shut (s : shipped) (d : date) (n : Z) : Prop :=
  forall i, 0 <= i < n -> weekend (d + i) \/ closed (shipped_calendar s) (d + i).
Definition shutb (s : shipped) (d : date) (n : nat) : bool :=
  forallb (fun i => weekend_day (d + Z.of_nat i) || closed_on s (d + Z.of_nat i)) (seq 0 n).

Lemma shutb_sound s d n : shutb s d n = true -> shut s d (Z.of_nat n).
Proof.
  unfold shutb. rewrite forallb_forall. intros H i I. specialize (H (Z.to_nat i) ltac:(apply in_seq; lia)).
  rewrite Z2Nat.id in H by lia. rewrite orb_true_iff, weekend_day_spec, closed_on_spec in H. exact H.
Qed.

Lemma shift_in (P : Z -> bool) : existsb P [-2; -1; 0; 1] = true -> exists k, -2 <= k <= 1 /\ P k = true.
Proof.
  rewrite existsb_exists. intros (k & I & H). exists k. split; [|exact H]. cbn in I. lia.
Qed.

Definition shut_near (f : Z -> date) (n : nat) (but : list Z) (h : Z) : bool :=
  among but h || existsb (fun k => shutb Turkey (f h + k) n) [-2; -1; 0; 1].
Lemma shut_near_sound f n but h : shut_near f n but h = true -> ~ In h but -> exists k, -2 <= k <= 1 /\ shut Turkey (f h + k) (Z.of_nat n).
Proof.
  unfold shut_near. intros E N. rewrite <- among_spec in N. apply not_true_is_false in N. rewrite N in E. cbn [orb] in E.
  apply shift_in in E. destruct E as (k & K & E). exists k. split; [exact K|]. exact (shutb_sound _ _ _ E).
Qed.

(** The three days of breaking the fast and the four of sacrifice are closed at
    the date of the calendar or up to two days before and one after it, except
    in 1432 (2011) and for the sacrifice of 1436 (2015). *)
Theorem C93_turkey :
  (forall h, 1425 <= h <= 1456 -> h <> 1432 -> exists k, -2 <= k <= 1 /\ shut Turkey (fitr h + k) 3) /\
  (forall h, 1424 <= h <= 1455 -> h <> 1432 -> h <> 1436 -> exists k, -2 <= k <= 1 /\ shut Turkey (adha h + k) 4).
Proof.
  split.
  - intros h H N. pose proof (years (shut_near fitr 3 [1432]) 1425 32 ltac:(vm_compute; reflexivity) h ltac:(lia)) as E.
    apply shut_near_sound in E; [exact E|]. cbn. lia.
  - intros h H N M. pose proof (years (shut_near adha 4 [1432; 1436]) 1424 32 ltac:(vm_compute; reflexivity) h ltac:(lia)) as E.
    apply shut_near_sound in E; [exact E|]. cbn. lia.
Qed.
Print Assumptions C93_turkey.

(** The national days: new year, 23 April, 1 and 19 May, 15 July (since 2017),
    30 August and 29 October. *)
Definition turkey_days (y : Z) : list date :=
  ymds [(y, 1, 1); (y, 4, 23); (y, 5, 1); (y, 5, 19); (y, 8, 30); (y, 10, 29)] ++ (if 2017 <=? y then [of_ymd y 7 15] else []).

(** A feast is near: at most two days before and [n] after its first day. *)
Definition in_feast (d : date) : Prop :=
  exists h, fitr h - 2 <= d <= fitr h + 4 \/ adha h - 2 <= d <= adha h + 5.

(** The other closings on weekdays: the day before the republic day of 2013, and
    26 and 27 October 2015. *)
Definition turkey_odd : list date := ymds [(2013, 10, 28); (2015, 10, 26); (2015, 10, 27)].

Definition in_feastb (y : Z) (d : date) : bool :=
  existsb (fun i => let h := (y - 622) * 33 / 32 - 1 + Z.of_nat i in
    (fitr h - 2 <=? d) && (d <=? fitr h + 4) || (adha h - 2 <=? d) && (d <=? adha h + 5)) (seq 0 4).
Lemma in_feastb_sound y d : in_feastb y d = true -> in_feast d.
Proof.
  unfold in_feastb. rewrite existsb_exists. cbv zeta. intros (i & _ & H). exists ((y - 622) * 33 / 32 - 1 + Z.of_nat i).
  rewrite orb_true_iff, !andb_true_iff, !Z.leb_le in H. exact H.
Qed.

Definition turkey_year (y : Z) : bool :=
  let l := turkey_days y in
  forallb (fun i => let d := of_ymd y 1 1 + Z.of_nat i in
    match shipped_calendar Turkey d with
    | Ok true => negb (weekend_day d || among l d)
    | Ok false => weekend_day d || among l d || in_feastb y d || among turkey_odd d
    | _ => false end) (seq 0 (if leap y then 366 else 365)).

Theorem C93_turkey_only : forall d, 2004 <= year d <= 2050 ->
  (weekend d \/ In d (turkey_days (year d)) -> closed (shipped_calendar Turkey) d) /\
  (closed (shipped_calendar Turkey) d -> weekend d \/ In d (turkey_days (year d)) \/ in_feast d \/ In d turkey_odd).
Proof.
  intros d Y. assert (B : forallb (fun i => turkey_year (2004 + Z.of_nat i)) (seq 0 47) = true) by (vm_compute; reflexivity).
  pose proof (years turkey_year 2004 47 B (year d) ltac:(lia)) as G. clear B.
  unfold turkey_year in G. cbv zeta in G. rewrite forallb_forall in G.
  specialize (G (Z.to_nat (ordinal d - 1))). pose proof (ordinal_lo d) as L. pose proof (ordinal_hi d) as U.
  assert (I : In (Z.to_nat (ordinal d - 1)) (seq 0 (if leap (year d) then 366 else 365))).
  { apply in_seq. unfold year_len in U. destruct (leap (year d)); lia. }
  specialize (G I). replace (of_ymd (year d) 1 1 + Z.of_nat (Z.to_nat (ordinal d - 1))) with d in G
    by (unfold ordinal in *; change date with Z in *; lia).
  rewrite <- weekend_day_spec, <- !among_spec. unfold closed.
  generalize dependent (shipped_calendar Turkey d). intros o G. destruct o as [[]| |]; try discriminate G.
  - apply negb_true_iff, orb_false_iff in G. destruct G as [G1 G2]. split; [|discriminate]. intros [W|W]; congruence.
  - split; [reflexivity|]. intros _. rewrite !orb_true_iff in G. destruct G as [[[G|G]|G]|G]; [tauto|tauto|apply in_feastb_sound in G; tauto|tauto].
Qed.
Print Assumptions C93_turkey_only.

(** The sacrifice of 2015 began on 24 September (a Thursday); the calendar closes
    on 24-27 October instead. In 2011 the sacrifice was 6-9 November and the
    fast ended on 30 August; the calendar is open on 31 August, 1 September and
    7-8 November, and closes on 10 and 11 November. *)
Theorem C93_turkey_refuted :
  ~ (forall h, 1424 <= h <= 1455 -> exists k, -2 <= k <= 2 /\ shut Turkey (adha h + k) 4) /\
  ~ (forall h, 1425 <= h <= 1456 -> exists k, -2 <= k <= 2 /\ shut Turkey (fitr h + k) 3) /\
  (adha 1436 = of_ymd 2015 9 24 /\ opened (shipped_calendar Turkey) (of_ymd 2015 9 24) /\ opened (shipped_calendar Turkey) (of_ymd 2015 9 25) /\
   closed (shipped_calendar Turkey) (of_ymd 2015 10 26) /\ closed (shipped_calendar Turkey) (of_ymd 2015 10 27) /\
   ~ in_feast (of_ymd 2015 10 26)) /\
  (forall d, In d (ymds [(2011, 8, 31); (2011, 9, 1); (2011, 11, 7); (2011, 11, 8)]) -> in_feast d /\ opened (shipped_calendar Turkey) d).
Proof.
  assert (S : forall d n, shut Turkey d n -> forall i, 0 <= i < n -> weekend_day (d + i) || closed_on Turkey (d + i) = true).
  { intros d n H i I. rewrite orb_true_iff, weekend_day_spec, closed_on_spec. exact (H i I). }
  assert (N : forall (f : Z -> date) h n, forallb (fun k => negb (shutb Turkey (f h + k) n)) [-2; -1; 0; 1; 2] = true ->
    ~ exists k, -2 <= k <= 2 /\ shut Turkey (f h + k) (Z.of_nat n)).
  { intros f h n B (k & K & H). rewrite forallb_forall in B. specialize (B k ltac:(cbn; lia)). apply negb_true_iff in B.
    enough (E : shutb Turkey (f h + k) n = true) by congruence. unfold shutb. rewrite forallb_forall. intros i I. apply in_seq in I.
    apply (S _ _ H). lia. }
  split; [|split; [|split]].
  - intros H. refine (N adha 1436 4%nat _ (H 1436 _)); [vm_compute; reflexivity|lia].
  - intros H. refine (N fitr 1432 3%nat _ (H 1432 _)); [vm_compute; reflexivity|lia].
  - split; [vm_compute; reflexivity|]. split; [vm_compute; reflexivity|]. split; [vm_compute; reflexivity|].
    split; [vm_compute; reflexivity|]. split; [vm_compute; reflexivity|].
    intros (h & H). unfold fitr, adha, hijri, hijri_new_year in H.
    change hijri_epoch with 227015 in H. change (hijri_before 10) with 266 in H. change (hijri_before 12) with 325 in H.
    change (of_ymd 2015 10 26) with 735897 in H. lia.
  - apply Forall_forall. repeat (apply Forall_cons; [split; [|vm_compute; reflexivity]|]); [..|apply Forall_nil];
      apply (in_feastb_sound 2011); vm_compute; reflexivity.
Qed.
Print Assumptions C93_turkey_refuted.

(** ** Singapore, Indonesia and India *)

(** Some weekday at most two days from the feast is closed. *)
Definition marked (s : shipped) (d : date) : Prop :=
  exists k, -2 <= k <= 2 /\ ~ weekend (d + k) /\ closed (shipped_calendar s) (d + k).
Definition markedb (s : shipped) (d : date) : bool :=
  existsb (fun k => negb (weekend_day (d + k)) && closed_on s (d + k)) [-2; -1; 0; 1; 2].

Lemma markedb_spec s d : markedb s d = true <-> marked s d.
Proof.
  unfold markedb, marked. rewrite existsb_exists. split; intros (k & I & H); exists k.
  - rewrite andb_true_iff, negb_true_iff, <- not_true_iff_false, weekend_day_spec, closed_on_spec in H. split; [cbn in I; lia|exact H].
  - split; [cbn; lia|]. rewrite andb_true_iff, negb_true_iff, <- not_true_iff_false, weekend_day_spec, closed_on_spec. exact H.
Qed.

Definition feasts (s : shipped) (f : Z -> date) (a b : Z) (holes : list Z) : Prop :=
  forall h, a <= h <= b -> (marked s (f h) <-> ~ In h holes).
Lemma feasts_sound s f a b holes :
  forallb (fun i => Bool.eqb (markedb s (f (a + Z.of_nat i))) (negb (among holes (a + Z.of_nat i)))) (seq 0 (Z.to_nat (b - a + 1))) = true ->
  feasts s f a b holes.
Proof.
  intros B h H. pose proof (years (fun h => Bool.eqb (markedb s (f h)) (negb (among holes h))) a (Z.to_nat (b - a + 1)) B h ltac:(lia)) as E.
  cbv beta in E. apply eqb_prop in E. rewrite <- markedb_spec, <- among_spec, E. destruct (among holes h); cbn; intuition congruence.
Qed.

(** Singapore has no feasts in 2011 and 2015-2018 (years 1432 and 1436-1439) and
    none after 2026; in 1428, 1444 and 1446 the feast fell on a weekend. The
    lists of Indonesia end in 2014, those of India in 2014 and again in 2025. *)
Theorem C93_others :
  feasts Singapore fitr 1425 1459 ([1432; 1436; 1437; 1438; 1439] ++ [1428; 1444] ++ [1448; 1449; 1450; 1451; 1452; 1453; 1454; 1455; 1456; 1457; 1458; 1459]) /\
  feasts Singapore adha 1424 1459 ([1432; 1436; 1437; 1438; 1439] ++ [1446] ++ [1448; 1449; 1450; 1451; 1452; 1453; 1454; 1455; 1456; 1457; 1458; 1459]) /\
  feasts Indonesia fitr 1426 1441 [1436; 1437; 1438; 1439; 1440; 1441] /\
  feasts Indonesia adha 1425 1446 [1432; 1435; 1436; 1437; 1438; 1439; 1440; 1441; 1442; 1443; 1444; 1445; 1446] /\
  feasts India fitr 1426 1446 [1428; 1436; 1437; 1438; 1439; 1442; 1444] /\
  feasts India adha 1425 1446 [1430; 1436; 1437; 1438; 1439; 1441; 1443; 1446].
Proof. repeat match goal with |- _ /\ _ => split end; apply feasts_sound; vm_compute; reflexivity. Qed.
Print Assumptions C93_others.

(** Of the feasts without a closing near them, some are on weekdays: the end of
    the fast in 1437 (July 2016) and the sacrifice of 1439 (August 2018). *)
Theorem C93_others_refuted : forall s, In s [Singapore; Indonesia; India] ->
  ~ (forall h, 1426 <= h <= 1446 -> weekend (fitr h) \/ weekend (fitr h - 1) \/ marked s (fitr h)) /\
  ~ (forall h, 1426 <= h <= 1446 -> weekend (adha h) \/ weekend (adha h - 1) \/ marked s (adha h)).
Proof.
  intros s I. assert (P : ~ marked s (fitr 1437) /\ ~ marked s (adha 1439)).
  { rewrite <- !markedb_spec. cbn in I. destruct I as [<-|[<-|[<-|[]]]]; split; vm_compute; discriminate. }
  destruct P as [P1 P2]. assert (Wk : forall d, weekend_day d = false -> ~ weekend d).
  { intros d E W. apply weekend_day_spec in W. congruence. }
  split; intros H.
  - destruct (H 1437 ltac:(lia)) as [W|[W|W]]; [revert W; apply Wk; vm_compute; reflexivity|revert W; apply Wk; vm_compute; reflexivity|exact (P1 W)].
  - destruct (H 1439 ltac:(lia)) as [W|[W|W]]; [revert W; apply Wk; vm_compute; reflexivity|revert W; apply Wk; vm_compute; reflexivity|exact (P2 W)].
Qed.
Print Assumptions C93_others_refuted.

Example C93_witness :
  fitr 1446 = of_ymd 2025 3 31 /\ adha 1445 = of_ymd 2024 6 17 /\
  closed (shipped_calendar Turkey) (of_ymd 2025 3 31) /\ shut Turkey (adha 1445 - 1) 4 /\
  marked Singapore (fitr 1446) /\ marked Indonesia (fitr 1430) /\ marked India (adha 1445) /\
  hijri_year_len 1445 = 355 /\ in_feast (of_ymd 2025 3 31).
Proof.
  split; [vm_compute; reflexivity|]. split; [vm_compute; reflexivity|]. split; [vm_compute; reflexivity|].
  split; [apply (shutb_sound Turkey _ 4); vm_compute; reflexivity|].
  split; [apply markedb_spec; vm_compute; reflexivity|]. split; [apply markedb_spec; vm_compute; reflexivity|].
  split; [apply markedb_spec; vm_compute; reflexivity|]. split; [vm_compute; reflexivity|].
  apply (in_feastb_sound 2025). vm_compute. reflexivity.
Qed.
Print Assumptions C93_witness.
