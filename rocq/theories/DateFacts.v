(** Facts about the calendar arithmetic of [Date]: the day-number and civil
    representations are inverse to each other, and day number order is the
    order of (year, month, day).  Only proofs here. *)
From Coq Require Import ZArith Lia Bool List.
From Coq Require Import ZifyBool.
From Verif Require Import Outcome Date.
Open Scope Z_scope.
Ltac Zify.zify_post_hook ::= Z.div_mod_to_equations.

(** ** Periodicity over 400-year eras *)

Lemma leap_period y k : leap (y + 400 * k) = leap y.
Proof. unfold leap. 
  replace ((y + 400*k) mod 4) with (y mod 4) by lia.
  replace ((y + 400*k) mod 100) with (y mod 100) by lia.
  replace ((y + 400*k) mod 400) with (y mod 400) by lia.
  reflexivity.
Qed.

Lemma mlen_period y k m : mlen (y + 400 * k) m = mlen y m.
Proof. unfold mlen. now rewrite leap_period. Qed.

Lemma of_ymd_period y k m d : of_ymd (y + 400 * k) m d = of_ymd y m d + 146097 * k.
Proof.
  unfold of_ymd.
  destruct (m <=? 2).
  - replace (y + 400*k - 1) with (y - 1 + k * 400) by lia.
    rewrite Z.div_add, Z.mod_add by lia. cbv zeta. change date with Z. ring.
  - replace (y + 400*k) with (y + k * 400) by lia.
    rewrite Z.div_add, Z.mod_add by lia. cbv zeta. change date with Z. ring.
Qed.

Lemma ymd_period n k :
  ymd (n + 146097 * k) = (fst (fst (ymd n)) + 400 * k, snd (fst (ymd n)), snd (ymd n)).
Proof.
  unfold ymd. 
  replace (n + 146097*k + 305) with (n + 305 + k * 146097) by lia.
  rewrite Z.div_add, Z.mod_add by lia. cbn [fst snd].
  f_equal. f_equal. ring.
Qed.

(** ** The two conversions are inverse *)

Lemma valid_ymdb_spec y m d : valid_ymdb y m d = true <-> valid_ymd y m d.
Proof. unfold valid_ymdb, valid_ymd. lia. Qed.

Lemma mlen_bounds y m : 28 <= mlen y m <= 31.
Proof. unfold mlen. repeat match goal with |- context [if ?b then _ else _] => destruct b end; lia. Qed.

(** Days before March-year [k] of an era. *)
Definition ydays (k : Z) : Z := 365 * k + k / 4 - k / 100.

Lemma yoe_lower doe : 0 <= doe < 146097 ->
  let yoe := (doe - doe / 1460 + doe / 36524 - doe / 146096) / 365 in
  0 <= yoe < 400 /\ ydays yoe <= doe.
Proof. intros H. unfold ydays. cbv zeta. lia. Qed.

Lemma yoe_upper doe : 0 <= doe < 146097 ->
  let yoe := (doe - doe / 1460 + doe / 36524 - doe / 146096) / 365 in
  doe < ydays (yoe + 1) \/ (yoe = 399 /\ doe = 146096).
Proof. intros H. unfold ydays. cbv zeta. lia. Qed.

(** A March-year has 366 days exactly when the February that ends it is in a leap year. *)
Lemma ydays_step k : 0 <= k < 400 ->
  ydays (k + 1) - ydays k + (if k =? 399 then 1 else 0) = if leap (k + 1) then 366 else 365.
Proof.
  intros H. unfold ydays, leap.
  destruct (k =? 399) eqn:E1;
  destruct ((k + 1) mod 4 =? 0) eqn:E2; destruct ((k + 1) mod 100 =? 0) eqn:E3;
  destruct ((k + 1) mod 400 =? 0) eqn:E4; cbn [andb orb negb]; lia.
Qed.

(** Month of a day of the March-year. *)
Lemma march_month doy : 0 <= doy <= 365 ->
  let mp := (5 * doy + 2) / 153 in
  0 <= mp <= 11 /\ (153 * mp + 2) / 5 <= doy /\
  (mp < 11 -> doy < (153 * (mp + 1) + 2) / 5).
Proof. intros H. cbv zeta. lia. Qed.

Lemma ymd_props n :
  let '(y, m, d) := ymd n in valid_ymd y m d /\ of_ymd y m d = n.
Proof.
  unfold ymd. set (z := n + 305). set (era := z / 146097). set (doe := z mod 146097).
  assert (Hdoe : 0 <= doe < 146097) by (subst doe; apply Z.mod_pos_bound; lia).
  assert (Hz : z = 146097 * era + doe) by (subst era doe; apply Z.div_mod; lia).
  pose proof (yoe_lower doe Hdoe) as [Hyoe Hlo]. pose proof (yoe_upper doe Hdoe) as Hhi.
  cbv zeta in Hyoe, Hlo, Hhi.
  set (yoe := (doe - doe / 1460 + doe / 36524 - doe / 146096) / 365) in *.
  pose proof (ydays_step yoe Hyoe) as Hstep.
  change (365 * yoe + yoe / 4 - yoe / 100) with (ydays yoe).
  set (doy := doe - ydays yoe).
  assert (Hdoy : 0 <= doy < (if leap (yoe + 1) then 366 else 365)).
  { subst doy. destruct (yoe =? 399) eqn:E in Hstep.
    - assert (yoe = 399) as E' by lia. rewrite E' in *.
      change (leap (399 + 1)) with true. change (ydays 399) with 145731 in *. lia.
    - destruct (leap (yoe + 1)); lia. }
  assert (Hleap : leap (yoe + era * 400 + 1) = leap (yoe + 1)).
  { replace (yoe + era * 400 + 1) with (yoe + 1 + 400 * era) by lia. apply leap_period. }
  assert (Hdoy' : 0 <= doy <= 365) by (destruct (leap (yoe + 1)); lia).
  pose proof (march_month doy Hdoy') as (Hmp & Hdlo & Hdhi). cbv zeta in Hmp, Hdlo, Hdhi.
  set (mp := (5 * doy + 2) / 153) in *.
  assert (Hn : n = 146097 * era + ydays yoe + doy - 305) by (subst z doy; lia).
  clearbody doe doy era. clearbody yoe. clearbody mp. clear Hz z Hlo Hhi Hstep Hdoe.
  assert (Hback : forall m d y', y' = yoe + era * 400 ->
     (m + 9) mod 12 = mp -> d = doy - (153 * mp + 2) / 5 + 1 ->
     y' / 400 * 146097 + (y' mod 400 * 365 + y' mod 400 / 4 - y' mod 400 / 100
       + ((153 * ((m + 9) mod 12) + 2) / 5 + d - 1)) - 305 = n).
  { intros m d y' -> -> ->.
    replace ((yoe + era * 400) / 400) with era by lia.
    replace ((yoe + era * 400) mod 400) with yoe by lia. 
    rewrite Hn. unfold ydays. lia. }
  destruct (mp <? 10) eqn:Em.
  - replace (mp + 3 <=? 2) with false by lia. rewrite Z.add_0_r.
    split.
    + assert (Hc : mp = 0 \/ mp = 1 \/ mp = 2 \/ mp = 3 \/ mp = 4 \/ mp = 5 \/ mp = 6 \/
                   mp = 7 \/ mp = 8 \/ mp = 9) by lia.
      specialize (Hdhi ltac:(lia)).
      unfold valid_ymd, mlen.
      decompose [or] Hc; subst mp; cbn in *; lia.
    + unfold of_ymd. replace (mp + 3 <=? 2) with false by lia.
      apply Hback; [reflexivity| |reflexivity]. lia.
  - replace (mp - 9 <=? 2) with true by lia.
    split.
    + assert (Hc : mp = 10 \/ mp = 11) by lia.
      unfold valid_ymd, mlen. rewrite Hleap.
      destruct Hc as [E|E]; subst mp; cbn in *.
      * specialize (Hdhi ltac:(lia)). lia.
      * destruct (leap (yoe + 1)); lia.
    + unfold of_ymd. replace (mp - 9 <=? 2) with true by lia.
      apply Hback; [lia| |reflexivity]. lia.
Qed.

Lemma ymd_valid n : valid_ymd (year n) (month n) (day n).
Proof. pose proof (ymd_props n) as H. unfold year, month, day. destruct (ymd n) as [[y m] d]. apply H. Qed.

Lemma of_ymd_ymd n : of_ymd (year n) (month n) (day n) = n.
Proof. pose proof (ymd_props n) as H. unfold year, month, day. destruct (ymd n) as [[y m] d]. apply H. Qed.

Lemma ymd_eta n : ymd n = (year n, month n, day n).
Proof. unfold year, month, day. now destruct (ymd n) as [[? ?] ?]. Qed.

(** ** Months as consecutive intervals of day numbers *)

(** Month index: months counted from January of year 0. *)
Definition mi (n : date) : Z := 12 * year n + (month n - 1).
(** First day of the month with index [k]. *)
Definition fom (k : Z) : date := of_ymd (k / 12) (k mod 12 + 1) 1.
Definition mil (k : Z) : Z := mlen (k / 12) (k mod 12 + 1).

Lemma of_ymd_day y m d : of_ymd y m d = of_ymd y m 1 + (d - 1).
Proof. unfold of_ymd. cbv zeta. change date with Z. ring. Qed.

Lemma fom_mi n : fom (mi n) = n - (day n - 1).
Proof.
  unfold fom, mi. pose proof (ymd_valid n) as V. unfold valid_ymd in V.
  replace ((12 * year n + (month n - 1)) / 12) with (year n) by lia.
  replace ((12 * year n + (month n - 1)) mod 12 + 1) with (month n) by lia.
  rewrite <- (of_ymd_ymd n) at 3. rewrite (of_ymd_day _ _ (day n)). lia.
Qed.

Lemma mil_mi n : mil (mi n) = mlen (year n) (month n).
Proof.
  unfold mil, mi. pose proof (ymd_valid n) as V. unfold valid_ymd in V.
  replace ((12 * year n + (month n - 1)) / 12) with (year n) by lia.
  replace ((12 * year n + (month n - 1)) mod 12 + 1) with (month n) by lia.
  reflexivity.
Qed.

Lemma era_days k :
  k / 400 * 146097 + (k mod 400 * 365 + k mod 400 / 4 - k mod 400 / 100)
  = 365 * k + k / 4 - k / 100 + k / 400.
Proof.
  set (q := k / 400). set (r := k mod 400).
  assert (E : k = 400 * q + r) by (apply Z.div_mod; lia).
  assert (0 <= r < 400) by (apply Z.mod_pos_bound; lia).
  clearbody q r. subst k.
  replace (400 * q + r) with (r + 100 * q * 4) at 2 by lia.
  replace (400 * q + r) with (r + 4 * q * 100) at 2 by lia.
  rewrite !Z.div_add by lia. lia.
Qed.

Lemma fom_closed y m : 1 <= m <= 12 ->
  of_ymd y m 1 = (let y' := if m <=? 2 then y - 1 else y in
    365 * y' + y' / 4 - y' / 100 + y' / 400 + (153 * ((m + 9) mod 12) + 2) / 5 - 305).
Proof.
  intros H. unfold of_ymd. cbv zeta.
  rewrite <- (era_days (if m <=? 2 then y - 1 else y)). change date with Z. ring.
Qed.

Lemma of_ymd_next_month y m : 1 <= m <= 11 -> of_ymd y (m + 1) 1 = of_ymd y m 1 + mlen y m.
Proof.
  intros H. rewrite !fom_closed by lia. unfold mlen, leap.
  assert (Hc : m = 1 \/ m = 2 \/ m = 3 \/ m = 4 \/ m = 5 \/ m = 6 \/ m = 7 \/ m = 8 \/ m = 9 \/
               m = 10 \/ m = 11) by lia.
  pose proof (Z.eq_dec m 2) as D.
  destruct D as [->|D].
  - change (2 + 1 <=? 2) with false. change (2 <=? 2) with true. cbv iota zeta.
    change ((153 * ((2 + 1 + 9) mod 12) + 2) / 5) with 0.
    change ((153 * ((2 + 9) mod 12) + 2) / 5) with 337.
    change (2 =? 2) with true. cbv iota. clear.
    destruct (y mod 4 =? 0) eqn:E2; destruct (y mod 100 =? 0) eqn:E3;
    destruct (y mod 400 =? 0) eqn:E4; cbn [andb orb negb]; lia.
  - replace (m + 1 <=? 2) with (m <=? 2) by lia. cbv zeta.
    generalize (if m <=? 2 then y - 1 else y) as y'. intros y'.
    assert (Hs : (153 * ((m + 1 + 9) mod 12) + 2) / 5
             = (153 * ((m + 9) mod 12) + 2) / 5 +
               (if m =? 2 then if (y mod 4 =? 0) && (negb (y mod 100 =? 0) || (y mod 400 =? 0)) then 29 else 28
                else if (m =? 4) || (m =? 6) || (m =? 9) || (m =? 11) then 30 else 31)).
    { decompose [or] Hc; subst m; try (exfalso; lia); reflexivity. }
    rewrite Hs. change date with Z. ring.
Qed.

Lemma of_ymd_next_year y : of_ymd (y + 1) 1 1 = of_ymd y 12 1 + 31.
Proof.
  rewrite !fom_closed by lia. change (1 <=? 2) with true. change (12 <=? 2) with false.
  cbv iota zeta. replace (y + 1 - 1) with y by lia.
  change ((153 * ((1 + 9) mod 12) + 2) / 5) with 306.
  change ((153 * ((12 + 9) mod 12) + 2) / 5) with 275. change date with Z. ring.
Qed.

Lemma fom_succ k : fom (k + 1) = fom k + mil k.
Proof.
  unfold fom, mil. destruct (Z.eq_dec (k mod 12) 11) as [E|E].
  - replace ((k + 1) / 12) with (k / 12 + 1) by lia.
    replace ((k + 1) mod 12 + 1) with 1 by lia. rewrite E.
    rewrite of_ymd_next_year. reflexivity.
  - replace ((k + 1) / 12) with (k / 12) by lia.
    replace ((k + 1) mod 12 + 1) with (k mod 12 + 1 + 1) by lia.
    apply of_ymd_next_month. lia.
Qed.

Lemma mil_bounds k : 28 <= mil k <= 31.
Proof. apply mlen_bounds. Qed.

Lemma fom_lt k k' : k < k' -> fom k + 28 <= fom k'.
Proof.
  intros H. assert (exists j, k' = k + 1 + Z.of_nat j) as [j ->]
    by (exists (Z.to_nat (k' - k - 1)); lia).
  clear H. induction j as [|j IH].
  - rewrite Z.add_0_r, fom_succ. pose proof (mil_bounds k). lia.
  - replace (k + 1 + Z.of_nat (S j)) with (k + 1 + Z.of_nat j + 1) by lia.
    rewrite (fom_succ (k + 1 + Z.of_nat j)).
    pose proof (mil_bounds (k + 1 + Z.of_nat j)). lia.
Qed.

Lemma fom_mi_bounds n : fom (mi n) <= n < fom (mi n + 1).
Proof.
  rewrite fom_succ, fom_mi, mil_mi. pose proof (ymd_valid n) as V.
  unfold valid_ymd in V. lia.
Qed.

Lemma mi_unique n k : fom k <= n < fom (k + 1) -> mi n = k.
Proof.
  intros H. pose proof (fom_mi_bounds n).
  destruct (Z.lt_trichotomy (mi n) k) as [L|[E|G]]; [|exact E|].
  - assert (mi n + 1 = k \/ mi n + 1 < k) as [<-|L'] by lia; [lia|].
    pose proof (fom_lt _ _ L'). lia.
  - assert (k + 1 = mi n \/ k + 1 < mi n) as [E|L'] by lia; [rewrite E in *; lia|].
    pose proof (fom_lt _ _ L'). lia.
Qed.

Lemma ymd_of_ymd y m d : valid_ymd y m d -> ymd (of_ymd y m d) = (y, m, d).
Proof.
  intros V. unfold valid_ymd in V.
  assert (Hf : of_ymd y m d = fom (12 * y + (m - 1)) + (d - 1)).
  { unfold fom.
    replace ((12 * y + (m - 1)) / 12) with y by lia.
    replace ((12 * y + (m - 1)) mod 12 + 1) with m by lia. apply of_ymd_day. }
  revert Hf. generalize (of_ymd y m d) as n. intros n Hf.
  assert (Hl : mil (12 * y + (m - 1)) = mlen y m).
  { unfold mil. replace ((12 * y + (m - 1)) / 12) with y by lia.
    replace ((12 * y + (m - 1)) mod 12 + 1) with m by lia. reflexivity. }
  assert (Hm : mi n = 12 * y + (m - 1)).
  { apply mi_unique. rewrite fom_succ, Hl. lia. }
  pose proof (fom_mi n) as Hfm. rewrite Hm in Hfm.
  pose proof (ymd_valid n) as Vn. unfold valid_ymd in Vn. unfold mi in Hm.
  rewrite (ymd_eta n). destruct V as [Vm _]. clear Hl. revert Hm Hfm Vn Hf.
  generalize (year n) (month n) (day n) (fom (12 * y + (m - 1))).
  intros yn mn dn f Hm Hfm [Vn _] Hf.
  assert (yn = y) as -> by lia. assert (mn = m) as -> by lia.
  assert (dn = d) as -> by lia. reflexivity.
Qed.

Lemma year_of_ymd y m d : valid_ymd y m d -> year (of_ymd y m d) = y.
Proof. intros V. unfold year. now rewrite ymd_of_ymd. Qed.
Lemma month_of_ymd y m d : valid_ymd y m d -> month (of_ymd y m d) = m.
Proof. intros V. unfold month. now rewrite ymd_of_ymd. Qed.
Lemma day_of_ymd y m d : valid_ymd y m d -> day (of_ymd y m d) = d.
Proof. intros V. unfold day. now rewrite ymd_of_ymd. Qed.

Lemma mi_mono a b : a <= b -> mi a <= mi b.
Proof.
  intros H. destruct (Z_le_gt_dec (mi a) (mi b)) as [|G]; [assumption|].
  pose proof (fom_mi_bounds a). pose proof (fom_mi_bounds b).
  assert (mi b + 1 = mi a \/ mi b + 1 < mi a) as [E|L] by lia;
    [rewrite E in *; lia|]. pose proof (fom_lt _ _ L). lia.
Qed.

Lemma year_mi n : year n = mi n / 12.
Proof. unfold mi. pose proof (ymd_valid n) as V. unfold valid_ymd in V. lia. Qed.
Lemma month_mi n : month n = mi n mod 12 + 1.
Proof. unfold mi. pose proof (ymd_valid n) as V. unfold valid_ymd in V. lia. Qed.
Lemma day_fom n : day n = n - fom (mi n) + 1.
Proof. rewrite fom_mi. lia. Qed.

Lemma of_ymd_fom y m d : 1 <= m <= 12 -> of_ymd y m d = fom (12 * y + (m - 1)) + (d - 1).
Proof.
  intros H. unfold fom.
  replace ((12 * y + (m - 1)) / 12) with y by lia.
  replace ((12 * y + (m - 1)) mod 12 + 1) with m by lia.
  apply of_ymd_day.
Qed.

(** Year, month and day are determined by position in the month intervals. *)
Lemma mi_fom k i : 0 <= i < mil k -> mi (fom k + i) = k.
Proof. intros H. apply mi_unique. rewrite fom_succ. lia. Qed.

Lemma mi_of_ymd y m d : valid_ymd y m d -> mi (of_ymd y m d) = 12 * y + (m - 1).
Proof. intros V. unfold mi. now rewrite year_of_ymd, month_of_ymd. Qed.

Lemma mi_def n : mi n = 12 * year n + (month n - 1).
Proof. reflexivity. Qed.

Lemma date_lt_mi a b : a < b -> mi a < mi b \/ (mi a = mi b /\ day a < day b).
Proof.
  intros H. pose proof (mi_mono a b (Z.lt_le_incl _ _ H)) as Hm.
  rewrite !day_fom. revert Hm. generalize (mi a) (mi b). intros ka kb Hm.
  destruct (Z.eq_dec ka kb) as [->|]; [right|left; lia].
  split; [reflexivity|]. generalize (fom kb). intros f. lia.
Qed.

(** Order of days is the lexicographic order of (year, month, day). *)
Lemma date_lt_lex a b :
  a < b <-> year a < year b \/ (year a = year b /\ (month a < month b \/
            (month a = month b /\ day a < day b))).
Proof.
  pose proof date_lt_mi as L.
  destruct (ymd_valid a) as [Va _]. destruct (ymd_valid b) as [Vb _].
  pose proof (L a b) as Lab. pose proof (L b a) as Lba.
  pose proof (mi_def a) as Ea. pose proof (mi_def b) as Eb.
  assert (Eab : a = b -> year a = year b /\ month a = month b /\ day a = day b)
    by (intros ->; auto).
  clear L. revert Va Vb Lab Lba Eab Ea Eb.
  generalize (mi a) (mi b) (year a) (month a) (day a) (year b) (month b) (day b).
  intros ka kb ya ma da yb mb db Va Vb Lab Lba Eab Ea Eb.
  split; intros H.
  - specialize (Lab H). clear Lba Eab H. lia.
  - destruct (Z.lt_trichotomy a b) as [|[E|G]]; [assumption| |].
    + specialize (Eab E). clear Lab Lba E. lia.
    + specialize (Lba G). clear Lab Eab G. lia.
Qed.

Lemma year_mono a b : a <= b -> year a <= year b.
Proof. intros H. rewrite !year_mi. pose proof (mi_mono a b H). lia. Qed.

(** ** Shifting by whole months *)
Lemma shift_months_spec n k :
  mi (shift_months n k) = mi n + k /\
  day (shift_months n k) = Z.min (day n) (mlen (year (shift_months n k)) (month (shift_months n k))).
Proof.
  unfold shift_months. rewrite (ymd_eta n).
  set (j := 12 * year n + (month n - 1) + k).
  pose proof (ymd_valid n) as Vn. unfold valid_ymd in Vn.
  pose proof (mlen_bounds (j / 12) (j mod 12 + 1)).
  assert (V : valid_ymd (j / 12) (j mod 12 + 1) (Z.min (day n) (mlen (j / 12) (j mod 12 + 1))))
    by (unfold valid_ymd; lia).
  rewrite mi_of_ymd, day_of_ymd, year_of_ymd, month_of_ymd by exact V.
  split; [|reflexivity]. unfold mi. subst j. lia.
Qed.

(** ** One-step characterisation: the civil date advances like a wall calendar. *)
Lemma weekday_cycle n : weekday_of (n + 7) = weekday_of n.
Proof. unfold weekday_of. replace ((n + 7 - 1) mod 7) with ((n - 1) mod 7) by lia. reflexivity. Qed.

Lemma weekday_num_of n : weekday_num (weekday_of n) = (n - 1) mod 7.
Proof.
  unfold weekday_of, weekday_of_num.
  repeat match goal with |- context [if ?b then _ else _] => destruct b eqn:?E end; simpl; lia.
Qed.

Lemma weekday_eqb_eq a b : weekday_eqb a b = true <-> a = b.
Proof. destruct a, b; simpl; split; intros H; congruence. Qed.

(** ** Range *)
Lemma in_rangeb_spec d : in_rangeb d = true <-> in_range d.
Proof. unfold in_rangeb, in_range. lia. Qed.

Lemma mk_date_Ok d r : mk_date d = Ok r <-> r = d /\ in_range d.
Proof.
  unfold mk_date. destruct (in_rangeb d) eqn:E.
  - apply in_rangeb_spec in E. split; [intros [= <-]; auto|intros (-> & _); reflexivity].
  - split; [discriminate|]. intros (_ & H). apply in_rangeb_spec in H. congruence.
Qed.

Lemma mk_date_not_Err d e : mk_date d <> Err e.
Proof. unfold mk_date. now destruct (in_rangeb d). Qed.

Lemma date_min_val : date_min = -95746129.
Proof. vm_compute; reflexivity. Qed.
Lemma date_max_val : date_max = 95745399.
Proof. vm_compute; reflexivity. Qed.
