(** Property C91: the tables of the calendar of Israel and the Hebrew calendar
    (HebrewSpec.v). *)
From Coq Require Import ZArith Bool List Lia.
From Coq Require Import ZifyBool.
Import ListNotations.
From Verif Require Import Outcome Date DateFacts Calendar CalendarSpec CalendarFacts Cal_base EasterSpec EasterFacts ShippedFacts Shipped
  Closure ClosureView Cal_israel ClosureIsrael HolidayCheck HebrewSpec.
Open Scope Z_scope.

(** ** The calendar itself: a year has 12 or 13 months and one of six lengths,
    and does not start on a Sunday, a Wednesday or a Friday. *)

Lemma months_step y : months_before (y + 1) = months_before y + (if embolismicb y then 13 else 12).
Proof.
  unfold months_before, embolismicb.
  pose proof (Z.div_mod y 19 ltac:(lia)) as D. pose proof (Z.mod_pos_bound y 19 ltac:(lia)) as B.
  set (r := y mod 19) in *. set (k := y / 19) in *. clearbody r k. subst y.
  replace (235 * (19 * k + r + 1) - 234) with (235 * r + 1 + (235 * k) * 19) by ring.
  replace (235 * (19 * k + r) - 234) with (235 * r - 234 + (235 * k) * 19) by ring.
  rewrite !Z.div_add by lia.
  assert (X : (235 * r + 1) / 19 = (235 * r - 234) / 19 + (if existsb (Z.eqb r) [3; 6; 8; 11; 14; 17; 0] then 13 else 12)).
  { assert (C : r = 0 \/ r = 1 \/ r = 2 \/ r = 3 \/ r = 4 \/ r = 5 \/ r = 6 \/ r = 7 \/ r = 8 \/ r = 9 \/ r = 10 \/ r = 11 \/ r = 12 \/
      r = 13 \/ r = 14 \/ r = 15 \/ r = 16 \/ r = 17 \/ r = 18) by lia.
    repeat destruct C as [C|C]; subst r; reflexivity. }
  rewrite X. ring.
Qed.

Lemma embolismicb_spec y : embolismicb y = true <-> embolismic y.
Proof.
  unfold embolismicb, embolismic. rewrite existsb_exists. split.
  - intros (x & I & E). apply Z.eqb_eq in E. rewrite E. exact I.
  - intros I. exists (y mod 19). split; [exact I|apply Z.eqb_refl].
Qed.

Lemma no_two y : embolismicb y = true -> embolismicb (y + 1) = false /\ embolismicb (y - 1) = false.
Proof.
  unfold embolismicb. intros H.
  assert (A : (y + 1) mod 19 = (y mod 19 + 1) mod 19) by (rewrite Zplus_mod_idemp_l; reflexivity).
  assert (B : (y - 1) mod 19 = (y mod 19 - 1) mod 19) by (rewrite Zminus_mod_idemp_l; reflexivity).
  rewrite A, B. apply existsb_exists in H. destruct H as (x & I & E). apply Z.eqb_eq in E. rewrite E.
  clear A B E. cbn [In] in I. repeat destruct I as [I|I]; try subst x; try (split; reflexivity). destruct I.
Qed.

(** 1 Tishri as a function of weekday number, time and the kind of the year
    and of the one before. *)
Definition shift (r t : Z) (e p : bool) : Z :=
  let s := if 18 * 1080 <=? t then 1 else 0 in
  if forbidden (weekday_of_num ((r + s) mod 7)) then s + 1
  else if (r =? 1) && (negb e && (9 * 1080 + 204 <=? t)) then 2
  else if (r =? 0) && (p && (15 * 1080 + 589 <=? t)) then 1
  else s.

(** The time of day matters through the three hours of the rules only. *)
Definition band (i t : Z) : Prop :=
  match i with
  | 0 => t < 9924 | 1 => 9924 <= t < 16789 | 2 => 16789 <= t < 19440 | _ => 19440 <= t
  end.
Lemma shift_band t : band 0 t \/ band 1 t \/ band 2 t \/ band 3 t.
Proof. cbn. lia. Qed.

Definition shift_in (i r : Z) (e p : bool) : Z :=
  let s := if 3 <=? i then 1 else 0 in
  if forbidden (weekday_of_num ((r + s) mod 7)) then s + 1
  else if (r =? 1) && (negb e && (1 <=? i)) then 2
  else if (r =? 0) && (p && (2 <=? i)) then 1
  else s.

Lemma shift_of i r e p t : band i t -> 0 <= i <= 3 -> shift r t e p = shift_in i r e p.
Proof.
  intros H I. unfold shift, shift_in. change (18 * 1080) with 19440. change (9 * 1080 + 204) with 9924. change (15 * 1080 + 589) with 16789.
  assert (C : i = 0 \/ i = 1 \/ i = 2 \/ i = 3) by lia.
  repeat destruct C as [C|C]; subst i; cbn [band] in H;
    destruct (Z.leb_spec 19440 t), (Z.leb_spec 9924 t), (Z.leb_spec 16789 t); try (exfalso; lia); reflexivity.
Qed.

Lemma tishri1_shift y :
  tishri1 y = molad_day y + shift ((molad_day y - 1) mod 7) (molad_time y) (embolismicb y) (embolismicb (y - 1)).
Proof.
  unfold tishri1, shift, hour. cbv zeta. set (q := molad_day y). set (t := molad_time y). clearbody q t.
  change date with Z in *.
  assert (W : forall s, weekday_of (q + s) = weekday_of_num (((q - 1) mod 7 + s) mod 7)).
  { intros s. unfold weekday_of. f_equal. rewrite Zplus_mod_idemp_l. f_equal. ring. }
  pose proof (Z.mod_pos_bound (q - 1) 7 ltac:(lia)) as B.
  replace (if 18 * 1080 <=? t then q + 1 else q) with (q + (if 18 * 1080 <=? t then 1 else 0)) by (destruct (18 * 1080 <=? t); ring).
  rewrite W. set (s := if 18 * 1080 <=? t then 1 else 0). destruct (forbidden _); [ring|].
  replace (weekday_of q) with (weekday_of_num ((q - 1) mod 7)) by reflexivity.
  set (r := (q - 1) mod 7) in *. clearbody r.
  assert (C : r = 0 \/ r = 1 \/ r = 2 \/ r = 3 \/ r = 4 \/ r = 5 \/ r = 6) by lia.
  repeat destruct C as [C|C]; subst r; cbn [weekday_of_num Z.eqb Pos.eqb andb]; try ring;
    match goal with |- context [if ?b then _ else _] => destruct b; ring end.
Qed.

Lemma molad_step y : exists c, (c = 0 \/ c = 1) /\
  let k := if embolismicb y then 383 else 354 in
  let u := if embolismicb y then 23269 else 9516 in
  molad_day (y + 1) = molad_day y + k + c /\ molad_time (y + 1) = molad_time y + u - 25920 * c /\
  0 <= molad_time y < 25920 /\ 0 <= molad_time (y + 1) < 25920.
Proof.
  cbv zeta. unfold molad_day, molad_time, molad. rewrite months_step.
  change parts_a_day with 25920. change mean_month with 765433. change (5 * hour + 204) with 5604.
  set (m := months_before y). clearbody m. change date with Z in *. set (h := hebrew_epoch). clearbody h.
  set (k := if embolismicb y then 383 else 354). set (u := if embolismicb y then 23269 else 9516).
  assert (E : 5604 + 765433 * (m + (if embolismicb y then 13 else 12)) = 5604 + 765433 * m + (k * 25920 + u)).
  { unfold k, u. destruct (embolismicb y); ring. }
  rewrite E. set (M := 5604 + 765433 * m). clearbody M.
  assert (U : 0 <= u < 25920) by (unfold u; destruct (embolismicb y); lia). clearbody k u. clear E.
  pose proof (Z.div_mod M 25920 ltac:(lia)). pose proof (Z.mod_pos_bound M 25920 ltac:(lia)).
  pose proof (Z.div_mod (M + (k * 25920 + u)) 25920 ltac:(lia)). pose proof (Z.mod_pos_bound (M + (k * 25920 + u)) 25920 ltac:(lia)).
  exists ((M + (k * 25920 + u)) / 25920 - M / 25920 - k). split; [|split; [|split]]; lia.
Qed.

Lemma molad_days_apart y : exists r, 0 <= r < 7 /\ (molad_day y - 1) mod 7 = r /\
  forall n, (molad_day y + n - 1) mod 7 = (r + n) mod 7.
Proof.
  exists ((molad_day y - 1) mod 7). split; [apply Z.mod_pos_bound; lia|]. split; [reflexivity|].
  intros n. change date with Z in *. rewrite Zplus_mod_idemp_l. f_equal. ring.
Qed.

Lemma shift_allowed r t e p : 0 <= r < 7 -> forbidden (weekday_of_num ((r + shift r t e p) mod 7)) = false.
Proof.
  intros B. unfold shift. cbv zeta.
  assert (C : r = 0 \/ r = 1 \/ r = 2 \/ r = 3 \/ r = 4 \/ r = 5 \/ r = 6) by lia.
  destruct (18 * 1080 <=? t); repeat destruct C as [C|C]; subst r; destruct e, p;
    cbn [andb negb]; try reflexivity; cbn;
    repeat match goal with |- context [if ?b then _ else _] => destruct b; cbn end; reflexivity.
Qed.

Theorem C91_rules : forall y,
  months_before 1 = 0 /\
  months_before (y + 1) = months_before y + (if embolismicb y then 13 else 12) /\
  (embolismicb y = true <-> embolismic y) /\
  forbidden (weekday_of (tishri1 y)) = false /\
  (embolismic y -> In (tishri1 (y + 1) - tishri1 y) [383; 384; 385]) /\
  (~ embolismic y -> In (tishri1 (y + 1) - tishri1 y) [353; 354; 355]).
Proof.
  intros y. split; [reflexivity|]. split; [apply months_step|]. split; [apply embolismicb_spec|].
  split.
  { rewrite tishri1_shift. destruct (molad_days_apart y) as (r & B & E & N). rewrite E. unfold weekday_of. rewrite N.
    apply shift_allowed. exact B. }
  assert (L : if embolismicb y then 383 <= tishri1 (y + 1) - tishri1 y <= 385 else 353 <= tishri1 (y + 1) - tishri1 y <= 355).
  { rewrite !tishri1_shift. replace (y + 1 - 1) with y by lia.
    destruct (molad_step y) as (c & C & Q & T & B & B'). cbv zeta in Q, T.
    destruct (molad_days_apart y) as (r & R & E & N). rewrite E.
    rewrite Q in *. rewrite T in *.
    replace (molad_day y + (if embolismicb y then 383 else 354) + c - 1)
      with (molad_day y + ((if embolismicb y then 383 else 354) + c) - 1) by (change date with Z in *; lia).
    rewrite N.
    pose proof (no_two y) as TW. change date with Z in *. set (q := molad_day y) in *. set (t := molad_time y) in *. clearbody q t.
    assert (C7 : r = 0 \/ r = 1 \/ r = 2 \/ r = 3 \/ r = 4 \/ r = 5 \/ r = 6) by lia.
    remember (t + (if embolismicb y then 23269 else 9516) - 25920 * c) as t' eqn:Et. clear T Q E N.
    destruct (embolismicb y) eqn:Ey; [destruct (TW eq_refl) as [-> ->]|destruct (embolismicb (y - 1)), (embolismicb (y + 1))];
      clear TW Ey; destruct (shift_band t) as [St|[St|[St|St]]]; destruct (shift_band t') as [St'|[St'|[St'|St']]];
      destruct C as [-> | ->];
      try (exfalso; cbn [band] in St, St'; lia); repeat destruct C7 as [C7|C7]; subst r;
      rewrite (shift_of _ _ _ _ t St ltac:(lia)), (shift_of _ _ _ _ t' St' ltac:(lia));
      match goal with |- ?a <= q + ?k + ?c' + ?x - (q + ?z) <= ?b =>
        let x' := eval vm_compute in x in let z' := eval vm_compute in z in change x with x'; change z with z' end;
      clear - q; lia. }
  split; intros H.
  - apply embolismicb_spec in H. rewrite H in L. change date with Z in *. cbn [In]. lia.
  - destruct (embolismicb y) eqn:Ey; [exfalso; apply H, embolismicb_spec; exact Ey|].
    change date with Z in *. cbn [In]. lia.
Qed.
Print Assumptions C91_rules.

(** ** The tables *)

(** In the years 2000 to 2050 the table [s] names the day [h y] of each year [y]
    and no other; in other years, none. *)
Definition names (s : list (Z * Z * Z)) (h : Z -> date) : Prop :=
  forall d, israel_is_named_holiday s d = true <-> 2000 <= year d <= 2050 /\ d = h (year d).

(** The two days the tables misplace. *)
Definition table_rosh_hashanah (y : Z) : date := if y =? 2001 then rosh_hashanah y - 1 else rosh_hashanah y.
Definition table_independence_day (y : Z) : date := if y =? 2038 then independence_day y - 1 else independence_day y.

Definition table_right (s : list (Z * Z * Z)) (h : Z -> date) : bool :=
  forallb (fun i => let y := 2000 + Z.of_nat i in of_ymd y 1 1 + entry s y - 1 =? h y) (seq 0 51).

Lemma entry_missing s y : forallb (fun x => (2000 <=? snd x) && (snd x <=? 2050)) s = true -> ~ 2000 <= y <= 2050 -> entry s y = -1000.
Proof.
  induction s as [|[[d m] y'] s IH]; intros A N; [reflexivity|].
  cbn [forallb snd] in A. apply andb_true_iff in A. destruct A as [A B]. cbn [entry].
  replace (y =? y') with false by lia. apply IH; assumption.
Qed.

Lemma entry_right s h : table_right s h = true -> forall y, 2000 <= y <= 2050 -> of_ymd y 1 1 + entry s y - 1 = h y.
Proof.
  unfold table_right. rewrite forallb_forall. intros C y Y. specialize (C (Z.to_nat (y - 2000)) ltac:(apply in_seq; lia)).
  cbv zeta in C. replace (2000 + Z.of_nat (Z.to_nat (y - 2000))) with y in C by lia. apply Z.eqb_eq in C. exact C.
Qed.

(** Comparing days of the year is comparing days. *)
Lemma entry_day s h d k : table_right s h = true -> 2000 <= year d <= 2050 ->
  (ordinal d + k =? entry s (year d)) = (d + k =? h (year d)).
Proof.
  intros C Y. rewrite <- (entry_right s h C _ Y). unfold ordinal. change date with Z in *. lia.
Qed.

Lemma names_table s h : tidy s 0 = true -> table_right s h = true ->
  forallb (fun x => (2000 <=? snd x) && (snd x <=? 2050)) s = true -> names s h.
Proof.
  intros T C A d. rewrite (named_here s d T).
  destruct (Z_le_gt_dec 2000 (year d)) as [L|L]; [destruct (Z_le_gt_dec (year d) 2050) as [U|U]|].
  - rewrite <- (Z.add_0_r (ordinal d)), (entry_day s h d 0 C) by lia. rewrite Z.add_0_r, Z.eqb_eq. intuition lia.
  - rewrite entry_missing by (exact A || lia). pose proof (ordinal_lo d). intuition lia.
  - rewrite entry_missing by (exact A || lia). pose proof (ordinal_lo d). intuition lia.
Qed.

Theorem C91_tables :
  names israel_PURIM purim /\
  names israel_PASSOVER passover /\
  names israel_SHAVUOT shavuot /\
  names israel_FAST_DAY tisha_beav /\
  names israel_INDEPENDENCE_DAY table_independence_day /\
  names israel_NEW_YEAR table_rosh_hashanah.
Proof.
  repeat (split; [apply names_table; vm_compute; reflexivity|]). apply names_table; vm_compute; reflexivity.
Qed.
Print Assumptions C91_tables.

(** The new year of 2001 is a day early, and with it Yom Kippur, Sukkot and
    Simchat Torah; the Independence Day of 2038 is 5 Iyar itself, a Monday. *)
Theorem C91_tables_refuted :
  ~ names israel_NEW_YEAR rosh_hashanah /\ ~ names israel_INDEPENDENCE_DAY independence_day /\
  (forall m, opened (shipped_calendar (Israel m)) (yom_kippur 2001)) /\
  (forall m, opened (shipped_calendar (Israel m)) (independence_day 2038)) /\
  yom_kippur 2001 = of_ymd 2001 9 27 /\ independence_day 2038 = of_ymd 2038 5 11.
Proof.
  split; [|split; [|split; [|split; [|split; reflexivity]]]].
  - intros H. assert (Q : 2000 <= year (of_ymd 2001 9 18) <= 2050) by (vm_compute; split; discriminate).
    assert (E : of_ymd 2001 9 18 = rosh_hashanah (year (of_ymd 2001 9 18))) by (vm_compute; reflexivity).
    pose proof (proj2 (H (of_ymd 2001 9 18)) (conj Q E)) as N. clear - N. vm_compute in N. discriminate N.
  - intros H. assert (Q : 2000 <= year (of_ymd 2038 5 11) <= 2050) by (vm_compute; split; discriminate).
    assert (E : of_ymd 2038 5 11 = independence_day (year (of_ymd 2038 5 11))) by (vm_compute; reflexivity).
    pose proof (proj2 (H (of_ymd 2038 5 11)) (conj Q E)) as N. clear - N. vm_compute in N. discriminate N.
  - intros [[]|]; vm_compute; reflexivity.
  - intros [[]|]; vm_compute; reflexivity.
Qed.
Print Assumptions C91_tables_refuted.

(** ** The two markets *)

Definition weekend (d : date) : Prop := weekday_of d = Sat \/ weekday_of d = Sun.

(** The closings of the Tel Aviv exchange in the year [y]. *)
Definition tel_aviv_days (y : Z) : list date :=
  (* Purim; Passover, the last day of it and the eves of both *)
  [purim y; passover y; passover y + 5; passover y + 6]
  ++ (if y <=? 2020 then [passover y - 1] else [])
  (* Memorial Day and Independence Day; Shavuot; the fast *)
  ++ [table_independence_day y - 1; table_independence_day y; shavuot y; tisha_beav y]
  ++ (if y <=? 2020 then [shavuot y - 1] else [])
  (* the two days of the new year; Yom Kippur, Sukkot, Simchat Torah and their eves *)
  ++ (let n := table_rosh_hashanah y in [n; n + 1; n + 8; n + 9; n + 13; n + 14; n + 20; n + 21]
      ++ (if y <=? 2019 then [n - 1] else [])).

(** The days without a SHIR fixing in the year [y]. *)
Definition shir_days (y : Z) : list date :=
  [purim y; purim y + 1; passover y - 1; passover y; passover y + 6; table_independence_day y; shavuot y; tisha_beav y]
  ++ (let n := table_rosh_hashanah y in [n - 1; n; n + 1; n + 8; n + 9; n + 14; n + 21]).

(** Those abroad. *)
Definition shir_abroad (d : date) : Prop :=
  day d = 1 /\ month d = 1 \/ day d = 25 /\ month d = 12 \/ day d = 26 /\ month d = 12 \/
  (exists s, western_easter (year d) s /\ d = s - 2) \/
  (month d = 5 /\ weekday_of d = Mon /\ month (d + 7) <> 5 /\ year d <> 2022) \/
  In d [of_ymd 2022 6 3; of_ymd 2022 11 1; of_ymd 2023 1 2; of_ymd 2023 4 10; of_ymd 2024 2 27].

Lemma right_purim : table_right israel_PURIM purim = true. Proof. vm_compute. reflexivity. Qed.
Lemma right_passover : table_right israel_PASSOVER passover = true. Proof. vm_compute. reflexivity. Qed.
Lemma right_shavuot : table_right israel_SHAVUOT shavuot = true. Proof. vm_compute. reflexivity. Qed.
Lemma right_fast : table_right israel_FAST_DAY tisha_beav = true. Proof. vm_compute. reflexivity. Qed.
Lemma right_independence : table_right israel_INDEPENDENCE_DAY table_independence_day = true. Proof. vm_compute. reflexivity. Qed.
Lemma right_new_year : table_right israel_NEW_YEAR table_rosh_hashanah = true. Proof. vm_compute. reflexivity. Qed.

Lemma closed_by b P : (b = true <-> P) -> (@Ok bool (negb b) = Ok false <-> P).
Proof. intros <-. destruct b; cbn; split; congruence. Qed.

(** Days of the year and days. *)
Lemma same_day j e h d : j + e - 1 = h -> (d - j + 1 =? e) = (h =? d).
Proof. lia. Qed.
Lemma before_day j e h d : j + e - 1 = h -> (d - j + 1 + 1 =? e) = (h - 1 =? d).
Proof. lia. Qed.
Lemma after_day j e h d p : j + e - 1 = h -> (d - j + 1 + Zneg p =? e) = (h + Zpos p =? d).
Proof. lia. Qed.

Ltac pick := first [assumption | left; pick | right; pick].
Ltac by_tables Y :=
  pose proof (entry_right _ _ right_purim _ Y) as Tp; pose proof (entry_right _ _ right_passover _ Y) as Ta;
  pose proof (entry_right _ _ right_shavuot _ Y) as Ts; pose proof (entry_right _ _ right_fast _ Y) as Tf;
  pose proof (entry_right _ _ right_independence _ Y) as Ti; pose proof (entry_right _ _ right_new_year _ Y) as Tn;
  cbn [israel_env iy ipurim ipass iind ishav ifast inew]; unfold ordinal;
  revert Tp Ta Ts Tf Ti Tn;
  match type of Y with 2000 <= ?y <= _ =>
    generalize (entry israel_PURIM y) (entry israel_PASSOVER y) (entry israel_SHAVUOT y) (entry israel_FAST_DAY y)
      (entry israel_INDEPENDENCE_DAY y) (entry israel_NEW_YEAR y);
    generalize (purim y) (passover y) (shavuot y) (tisha_beav y) (table_independence_day y) (table_rosh_hashanah y)
  end; intros dp da ds df di dn ep ea es ef ei en Tp Ta Ts Tf Ti Tn; change date with Z in *;
  rewrite ?(same_day _ _ _ _ Tp), ?(same_day _ _ _ _ Ta), ?(same_day _ _ _ _ Ts), ?(same_day _ _ _ _ Tf), ?(same_day _ _ _ _ Ti),
    ?(same_day _ _ _ _ Tn), ?(before_day _ _ _ _ Tp), ?(before_day _ _ _ _ Ta), ?(before_day _ _ _ _ Ts), ?(before_day _ _ _ _ Tn),
    ?(before_day _ _ _ _ Ti), ?(after_day _ _ _ _ _ Tp), ?(after_day _ _ _ _ _ Ta), ?(after_day _ _ _ _ _ Tn).

Lemma not_weekend d : is_weekend d = false -> ~ weekend d.
Proof. unfold is_weekend, weekend. destruct (weekday_of d); intros H [W|W]; congruence. Qed.
Lemma is_weekend_spec d : is_weekend d = true -> weekend d.
Proof. unfold is_weekend, weekend. destruct (weekday_of d); intros H; try discriminate H; auto. Qed.

Theorem C91_tel_aviv : forall d, 2000 <= year d <= 2050 ->
  (closed (shipped_calendar (Israel (Some israel_TelAviv))) d <-> weekend d \/ In d (tel_aviv_days (year d))).
Proof.
  intros d Y. unfold closed. cbn [shipped_calendar israel_is_business_day].
  rewrite tel_aviv_view by (unfold supported; lia). unfold view_telaviv. fold (is_weekend d).
  destruct (is_weekend d) eqn:W.
  { split; [intros _; left; apply is_weekend_spec; exact W|reflexivity]. }
  assert (T : weekend d \/ In d (tel_aviv_days (year d)) <-> In d (tel_aviv_days (year d))).
  { pose proof (not_weekend d W). tauto. }
  rewrite T. clear T W. apply closed_by. unfold tel_aviv_days. cbv zeta. rewrite !in_app_iff. by_tables Y.
  destruct (year d <=? 2020), (year d <=? 2019); cbn [In andb]; rewrite !orb_true_iff, ?Z.eqb_eq; clear;
    (split; intros H; repeat destruct H as [H|H]; try pick; try discriminate H; destruct H).
Qed.
Print Assumptions C91_tel_aviv.

Lemma once_day d y m k : valid_ymd y m k -> ((day d =? k) && (month d =? m) && (year d =? y)) = (of_ymd y m k =? d).
Proof.
  intros V. apply eq_true_iff_eq. rewrite !andb_true_iff, !Z.eqb_eq. split.
  - intros [[<- <-] <-]. apply of_ymd_ymd.
  - intros <-. rewrite day_of_ymd, month_of_ymd, year_of_ymd by exact V. auto.
Qed.

Theorem C91_shir : forall m d, m <> Some israel_TelAviv -> 2000 <= year d <= 2050 ->
  (closed (shipped_calendar (Israel m)) d <-> weekend d \/ In d (shir_days (year d)) \/ shir_abroad d).
Proof.
  intros mk d M Y. unfold closed. cbn [shipped_calendar].
  replace (israel_is_business_day mk d) with (israel_shir_is_business_day d) by (destruct mk as [[]|]; congruence || reflexivity).
  rewrite shir_view by (unfold supported; lia). unfold view_shir. fold (is_weekend d).
  destruct (is_weekend d) eqn:W.
  { split; [intros _; left; apply is_weekend_spec; exact W|reflexivity]. }
  destruct (western_easter_monday (year d) ltac:(unfold supported; lia)) as (em & s & Em & We & S1 & B).
  cbn [israel_env iem]. rewrite Em.
  assert (T : weekend d \/ In d (shir_days (year d)) \/ shir_abroad d <-> In d (shir_days (year d)) \/ shir_abroad d).
  { pose proof (not_weekend d W). tauto. }
  rewrite T. clear T W. apply closed_by.
  assert (G : (ordinal d =? em - 3) = true <-> exists s, western_easter (year d) s /\ d = s - 2).
  { rewrite Z.eqb_eq. unfold ordinal. change date with Z in *. split.
    - intros E. exists s. split; [exact We|lia].
    - intros (s' & We' & E). assert (s' = s) by (eapply first_sunday_unique; eassumption). lia. }
  assert (S : ((25 <=? day d) && weekday_eqb (weekday_of d) Mon && (month d =? 5) && negb (year d =? 2022)) = true <->
    month d = 5 /\ weekday_of d = Mon /\ month (d + 7) <> 5 /\ year d <> 2022).
  { rewrite !andb_true_iff, negb_true_iff, weekday_eqb_eq, Z.eqb_neq, Z.eqb_eq, Z.leb_le.
    pose proof (month_ahead d) as A. split.
    - intros [[[D Wd] Mo] Yr]. rewrite Mo in A. change (mlen (year d) 5) with 31 in A. repeat split; [exact Mo|exact Wd|lia|exact Yr].
    - intros (Mo & Wd & N & Yr). rewrite Mo in A. change (mlen (year d) 5) with 31 in A. repeat split; [lia|exact Wd|exact Mo|exact Yr]. }
  rewrite !orb_true_iff, S, G. unfold shir_days, shir_abroad. cbv zeta. rewrite in_app_iff.
  cbn [israel_env iy]. rewrite !once_day by (split; [lia|vm_compute; split; discriminate]).
  clear G S S1 B We Em. set (Pe := exists s, _). set (Ps := _ /\ weekday_of d = Mon /\ _). clearbody Pe Ps.
  generalize (of_ymd 2022 6 3) (of_ymd 2022 11 1) (of_ymd 2023 1 2) (of_ymd 2023 4 10) (of_ymd 2024 2 27). intros o1 o2 o3 o4 o5.
  by_tables Y. rewrite !andb_true_iff, !Z.eqb_eq. cbn [In].
  set (P1 := day d = 1 /\ _). set (P2 := day d = 25 /\ _). set (P3 := day d = 26 /\ _). clearbody P1 P2 P3. clear.
  split; intros H; repeat destruct H as [H|H]; try pick; destruct H.
Qed.
Print Assumptions C91_shir.

(** The tables end with 2050 and start with 2000: before and after, the
    exchange closes on Saturdays and Sundays only. *)
Theorem C91_expired : forall d, 1901 <= year d < 2000 \/ 2050 < year d <= 2199 ->
  (closed (shipped_calendar (Israel (Some israel_TelAviv))) d <-> weekend d).
Proof.
  intros d Y. unfold closed. cbn [shipped_calendar israel_is_business_day].
  rewrite tel_aviv_view by (unfold supported; lia). unfold view_telaviv. fold (is_weekend d).
  destruct (is_weekend d) eqn:W.
  { split; [intros _; apply is_weekend_spec; exact W|reflexivity]. }
  split; [|intros H; destruct (not_weekend d W H)].
  cbn [israel_env iy ipurim ipass iind ishav ifast inew].
  rewrite !entry_missing by first [lia | reflexivity].
  pose proof (ordinal_lo d) as L. set (o := ordinal d) in *. clearbody o.
  repeat match goal with |- context [?a =? -1000] => replace (a =? -1000) with false by lia end.
  rewrite !andb_false_r. discriminate.
Qed.
Print Assumptions C91_expired.

(** Until the end of 2025 the exchange traded from Sunday to Thursday; the
    calendar never opens on a Sunday and opens on Fridays. *)
Theorem C91_week_refuted :
  (forall m d, 1901 <= year d <= 2199 -> weekday_of d = Sun -> closed (shipped_calendar (Israel m)) d) /\
  ~ (forall d, 2000 <= year d <= 2025 -> weekday_of d = Fri -> closed (shipped_calendar (Israel (Some israel_TelAviv))) d) /\
  ~ (forall d, 2000 <= year d <= 2025 -> weekday_of d = Sun -> ~ In d (tel_aviv_days (year d)) ->
      opened (shipped_calendar (Israel (Some israel_TelAviv))) d).
Proof.
  assert (S : forall m d, 1901 <= year d <= 2199 -> weekday_of d = Sun -> closed (shipped_calendar (Israel m)) d).
  { intros m d Y W. unfold closed. cbn [shipped_calendar].
    assert (E : israel_tel_aviv_is_business_day d = Ok false) by
      (rewrite tel_aviv_view by exact Y; unfold view_telaviv; rewrite W; reflexivity).
    assert (E' : israel_shir_is_business_day d = Ok false) by
      (rewrite shir_view by exact Y; unfold view_shir; rewrite W; reflexivity).
    destruct m as [[]|]; assumption. }
  split; [exact S|split].
  - intros H. specialize (H (of_ymd 2024 1 5)).
    assert (N : closed (shipped_calendar (Israel (Some israel_TelAviv))) (of_ymd 2024 1 5))
      by (apply H; vm_compute; [split; discriminate|reflexivity]).
    vm_compute in N. discriminate N.
  - intros H. specialize (H (of_ymd 2024 1 7)).
    assert (N : opened (shipped_calendar (Israel (Some israel_TelAviv))) (of_ymd 2024 1 7)).
    { apply H; [vm_compute; split; discriminate|vm_compute; reflexivity|].
      intros I. apply (in_map (Z.eqb (of_ymd 2024 1 7))) in I. rewrite Z.eqb_refl in I.
      revert I. vm_compute. intros I. repeat destruct I as [I|I]; try discriminate I. destruct I. }
    vm_compute in N. discriminate N.
Qed.
Print Assumptions C91_week_refuted.

(** The new year of 5785, a year of 13 months and its neighbours, Yom Kippur
    and Independence Day of 2024, and the last year of the tables. *)
Example C91_witness :
  tishri1 5785 = of_ymd 2024 10 3 /\ embolismic 5784 /\ ~ embolismic 5785 /\
  tishri1 5785 - tishri1 5784 = 383 /\ tishri1 5786 - tishri1 5785 = 355 /\
  yom_kippur 2024 = of_ymd 2024 10 12 /\ independence_day 2024 = of_ymd 2024 5 14 /\
  In (of_ymd 2024 5 14) (tel_aviv_days 2024) /\
  closed (shipped_calendar (Israel (Some israel_TelAviv))) (of_ymd 2024 5 13) /\
  closed (shipped_calendar (Israel None)) (of_ymd 2024 3 29) /\
  closed (shipped_calendar (Israel None)) (of_ymd 2050 9 16) /\
  opened (shipped_calendar (Israel None)) (of_ymd 2051 9 7) /\ rosh_hashanah 2051 = of_ymd 2051 9 7.
Proof.
  split; [reflexivity|]. split; [cbn; tauto|].
  split; [intros H; apply embolismicb_spec in H; vm_compute in H; discriminate H|].
  split; [vm_compute; reflexivity|]. split; [vm_compute; reflexivity|]. split; [vm_compute; reflexivity|]. split; [vm_compute; reflexivity|].
  split; [vm_compute; tauto|]. repeat split; vm_compute; reflexivity.
Qed.
