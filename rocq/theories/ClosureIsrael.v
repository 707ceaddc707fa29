(** Closure certificate for the Israel calendar, whose rule looks up moved
    dates in tables.  Nothing here models code. *)
From Coq Require Import ZArith Bool List Lia.
From Coq Require Import ZifyBool.
Import ListNotations.
From Verif Require Import Outcome Date DateFacts Calendar CalendarSpec CalendarFacts Cal_base ShippedFacts
  EasterFacts Closure ClosureView Cal_israel.
Open Scope Z_scope.

(** Day of year of the (single) entry of year [y], or a number no day has. *)
Fixpoint entry (s : list (Z * Z * Z)) (y : Z) : Z :=
  match s with
  | [] => -1000
  | (d, m, y') :: s => if y =? y' then of_ymd y m d - of_ymd y 1 1 + 1 else entry s y
  end.

(** One entry per year, all valid, all between days 50 and 300. *)
Fixpoint tidy (s : list (Z * Z * Z)) (seen : Z) : bool :=
  match s with
  | [] => true
  | (d, m, y) :: s =>
    (seen <? y) && valid_ymdb y m d &&
    (50 <=? of_ymd y m d - of_ymd y 1 1 + 1) && (of_ymd y m d - of_ymd y 1 1 + 1 <=? 300) && tidy s y
  end.

Lemma tidy_later s : forall seen x, tidy s seen = true -> year x <= seen ->
  set_contains (day x, month x, year x) s = false.
Proof.
  induction s as [|[[d m] y] s IH]; intros seen x T Y; [reflexivity|].
  cbn [tidy] in T. rewrite !andb_true_iff, Z.ltb_lt in T. destruct T as [[[[A _] _] _] B].
  unfold set_contains. cbn [existsb]. apply orb_false_iff. split; [lia|].
  apply (IH y); [exact B|lia].
Qed.

Lemma entry_range s : forall seen y, tidy s seen = true -> entry s y = -1000 \/ 50 <= entry s y <= 300.
Proof.
  induction s as [|[[d m] y'] s IH]; intros seen y T; [left; reflexivity|].
  cbn [tidy] in T. rewrite !andb_true_iff, !Z.leb_le in T. destruct T as [[[_ A] B] C].
  cbn [entry]. destruct (Z.eqb_spec y y') as [->|N]; [right; lia|]. eapply IH. exact C.
Qed.

Lemma ordinal_lo x : 1 <= ordinal x.
Proof.
  unfold ordinal. pose proof (of_ymd_ymd x) as R.
  assert (of_ymd (year x) 1 1 <= x).
  { destruct (Z_le_gt_dec (of_ymd (year x) 1 1) x) as [L|L]; [exact L|]. exfalso.
    assert (J : of_ymd (year x) 1 1 = of_ymd (year x - 1) 1 1 + year_len (year x - 1)).
    { pose proof (jan1_next (year x - 1)) as J. replace (year x - 1 + 1) with (year x) in J by lia. exact J. }
    assert (V : valid_ymd (year x - 1) 12 31) by (split; [lia|]; change (mlen (year x - 1) 12) with 31; lia).
    pose proof (year_of_ymd _ _ _ V) as Y.
    assert (E : of_ymd (year x) 1 1 - 1 = of_ymd (year x - 1) 12 31).
    { pose proof (of_ymd_next_year (year x - 1)) as N. replace (year x - 1 + 1) with (year x) in N by lia.
      rewrite (of_ymd_day (year x - 1) 12 31). change date with Z in *. lia. }
    pose proof (year_mono x (of_ymd (year x - 1) 12 31)) as M. change date with Z in *. lia. }
  change date with Z in *. lia.
Qed.

Lemma contains_entry s : forall seen x, tidy s seen = true ->
  set_contains (day x, month x, year x) s = (ordinal x =? entry s (year x)).
Proof.
  induction s as [|[[d m] y] s IH]; intros seen x T.
  - cbn [entry]. pose proof (ordinal_lo x). unfold set_contains. cbn [existsb]. lia.
  - pose proof T as T'. cbn [tidy] in T. rewrite !andb_true_iff in T. destruct T as [[[[A V] _] _] B].
    apply valid_ymdb_spec in V.
    unfold set_contains. cbn [existsb entry]. fold (set_contains (day x, month x, year x) s).
    destruct (Z.eqb_spec (year x) y) as [E|N].
    + rewrite (tidy_later s y x B) by lia. rewrite orb_false_r, andb_true_r.
      apply eq_true_iff_eq. rewrite andb_true_iff, !Z.eqb_eq. rewrite E. unfold ordinal. rewrite E.
      split.
      * intros [Ed Em]. rewrite <- (of_ymd_ymd x) at 1. rewrite E, Ed, Em. reflexivity.
      * intros O. assert (X : x = of_ymd y m d) by (change date with Z in *; lia).
        rewrite X, day_of_ymd, month_of_ymd by exact V. auto.
    + rewrite andb_false_r. cbn [orb]. apply (IH y). exact B.
Qed.

Lemma ordinal_shift n k : year (n + k) = year n -> ordinal (n + k) = ordinal n + k.
Proof. intros E. unfold ordinal. rewrite E. change date with Z. ring. Qed.

Lemma ordinal_hi x : ordinal x <= year_len (year x).
Proof.
  unfold ordinal. destruct (Z_le_gt_dec (x - of_ymd (year x) 1 1 + 1) (year_len (year x))) as [L|L]; [exact L|].
  exfalso. pose proof (jan1_next (year x)) as J.
  assert (V : valid_ymd (year x + 1) 1 1) by (split; [lia|]; pose proof (mlen_bounds (year x + 1) 1); lia).
  pose proof (year_of_ymd _ _ _ V) as Y. pose proof (year_mono (of_ymd (year x + 1) 1 1) x) as M.
  change date with Z in *. lia.
Qed.

Lemma year_len_bounds y : 365 <= year_len y <= 366.
Proof. unfold year_len. destruct (leap y); lia. Qed.

Lemma jan1_valid y : valid_ymd y 1 1.
Proof. split; [lia|]. change (mlen y 1) with 31. lia. Qed.

Lemma year_step x y : x <= y -> y <= x + 40 -> year y = year x \/ year y = year x + 1.
Proof.
  intros A B. pose proof (year_mono x y A). destruct (Z_le_gt_dec (year y) (year x + 1)) as [L|L]; [lia|].
  exfalso. pose proof (ordinal_lo x). pose proof (ordinal_lo y). pose proof (ordinal_hi x). pose proof (ordinal_hi y).
  unfold ordinal in *.
  pose proof (jan1_next (year x)) as J. pose proof (jan1_next (year x + 1)) as J'.
  pose proof (year_len_bounds (year x + 1)). pose proof (year_len_bounds (year x)).
  assert (of_ymd (year x + 1 + 1) 1 1 <= of_ymd (year y) 1 1).
  { destruct (Z_le_gt_dec (of_ymd (year x + 1 + 1) 1 1) (of_ymd (year y) 1 1)) as [Q|Q]; [exact Q|exfalso].
    pose proof (year_mono (of_ymd (year y) 1 1) (of_ymd (year x + 1 + 1) 1 1) ltac:(change date with Z in *; lia)) as M.
    rewrite !year_of_ymd in M by apply jan1_valid.
    replace (year y) with (year x + 1 + 1) in * by lia. change date with Z in *. lia. }
  change date with Z in *. lia.
Qed.

(** Looking up the date [k] days away is comparing days of the year. *)
Lemma named_shift s n k : tidy s 0 = true -> -40 <= k <= 40 ->
  israel_is_named_holiday s (n + k) = (ordinal n + k =? entry s (year n)).
Proof.
  intros T K. unfold israel_is_named_holiday. rewrite (contains_entry s 0) by exact T.
  destruct (Z.eq_dec (year (n + k)) (year n)) as [E|N].
  - rewrite ordinal_shift, E by exact E. reflexivity.
  - pose proof (entry_range s 0 (year n) T) as R. pose proof (entry_range s 0 (year (n + k)) T) as R'.
    pose proof (ordinal_lo n). pose proof (ordinal_hi n). pose proof (ordinal_lo (n + k)). pose proof (ordinal_hi (n + k)).
    pose proof (year_len_bounds (year n)). pose proof (year_len_bounds (year (n + k))).
    unfold ordinal in *.
    assert (D : (k < 0 /\ year n = year (n + k) + 1) \/ (0 < k /\ year (n + k) = year n + 1)).
    { change date with Z in *. destruct (Z_lt_ge_dec k 0) as [L|L].
      - left. destruct (year_step (n + k) n) as [Q|Q]; lia.
      - right. destruct (Z.eq_dec k 0) as [Q|Q]; [exfalso; apply N; f_equal; lia|].
        destruct (year_step n (n + k)) as [Q'|Q']; lia. }
    destruct D as [[D Y]|[D Y]].
    + pose proof (jan1_next (year (n + k))) as J. rewrite <- Y in J.
      rewrite Y in R. apply eq_true_iff_eq. rewrite !Z.eqb_eq. rewrite Y in *. change date with Z in *. lia.
    + pose proof (jan1_next (year n)) as J. rewrite <- Y in J.
      rewrite Y in R'. apply eq_true_iff_eq. rewrite !Z.eqb_eq. rewrite Y in *. change date with Z in *. lia.
Qed.

Lemma named_add s n k : tidy s 0 = true -> -40 <= k <= 40 -> supported (year n) ->
  (do v <- add_days n k; Ok (israel_is_named_holiday s v)) = Ok (ordinal n + k =? entry s (year n)).
Proof.
  intros T K S.
  assert (A : add_days n k = Ok (n + k)) by (apply add_days_Ok; split; [reflexivity|]; apply supported_in_range; [exact S|lia]).
  rewrite A. cbn [obind]. rewrite named_shift by assumption. reflexivity.
Qed.

Lemma named_here s n : tidy s 0 = true -> israel_is_named_holiday s n = (ordinal n =? entry s (year n)).
Proof.
  intros T. unfold israel_is_named_holiday. apply (contains_entry s 0). exact T.
Qed.

(** What the Israel rule needs to know about the year: its number, Easter
    Monday and the six named days. *)
Record ienv : Type := { iy : Z; iem : outcome Z; ipurim : Z; ipass : Z; iind : Z; ishav : Z; ifast : Z; inew : Z }.
Definition israel_env (y : Z) : ienv :=
  {| iy := y; iem := easter_monday y; ipurim := entry israel_PURIM y; ipass := entry israel_PASSOVER y;
     iind := entry israel_INDEPENDENCE_DAY y; ishav := entry israel_SHAVUOT y;
     ifast := entry israel_FAST_DAY y; inew := entry israel_NEW_YEAR y |}.

Definition view_telaviv (e : ienv) (d : Z) (w : weekday) (m o : Z) : outcome bool :=
  if (match w with Sat | Sun => true | _ => false end) then Ok false else
  Ok (negb ((o =? ipurim e) || ((iy e <=? 2020) && (o + 1 =? ipass e)) || (o =? ipass e) || (o + -5 =? ipass e)
     || (o + -6 =? ipass e) || (o + 1 =? iind e) || (o =? iind e) || ((iy e <=? 2020) && (o + 1 =? ishav e))
     || (o =? ishav e) || (o =? ifast e) || ((iy e <=? 2019) && (o + 1 =? inew e)) || (o =? inew e)
     || (o + -1 =? inew e) || (o + -8 =? inew e) || (o + -9 =? inew e) || (o + -13 =? inew e)
     || (o + -14 =? inew e) || (o + -20 =? inew e) || (o + -21 =? inew e))).

Definition view_shir (e : ienv) (d : Z) (w : weekday) (m o : Z) : outcome bool :=
  if (match w with Sat | Sun => true | _ => false end) then Ok false else
  match iem e with
  | Ok em =>
    Ok (negb ((o =? ipurim e) || (o + -1 =? ipurim e) || (o + 1 =? ipass e) || (o =? ipass e) || (o + -6 =? ipass e)
     || (o =? iind e) || (o =? ishav e) || (o =? ifast e) || (o + 1 =? inew e) || (o =? inew e)
     || (o + -1 =? inew e) || (o + -8 =? inew e) || (o + -9 =? inew e) || (o + -14 =? inew e) || (o + -21 =? inew e)
     || ((d =? 27) && (m =? 2) && (iy e =? 2024)) || ((d =? 1) && (m =? 1)) || (o =? em - 3)
     || ((25 <=? d) && (weekday_eqb w Mon) && (m =? 5) && (negb (iy e =? 2022)))
     || ((d =? 3) && (m =? 6) && (iy e =? 2022)) || ((d =? 25) && (m =? 12)) || ((d =? 26) && (m =? 12))
     || ((d =? 1) && (m =? 11) && (iy e =? 2022)) || ((d =? 2) && (m =? 1) && (iy e =? 2023))
     || ((d =? 10) && (m =? 4) && (iy e =? 2023))))
  | _ => Ok false
  end.

Lemma tidy_purim : tidy israel_PURIM 0 = true. Proof. vm_compute. reflexivity. Qed.
Lemma tidy_pass : tidy israel_PASSOVER 0 = true. Proof. vm_compute. reflexivity. Qed.
Lemma tidy_ind : tidy israel_INDEPENDENCE_DAY 0 = true. Proof. vm_compute. reflexivity. Qed.
Lemma tidy_shav : tidy israel_SHAVUOT 0 = true. Proof. vm_compute. reflexivity. Qed.
Lemma tidy_fast : tidy israel_FAST_DAY 0 = true. Proof. vm_compute. reflexivity. Qed.
Lemma tidy_new : tidy israel_NEW_YEAR 0 = true. Proof. vm_compute. reflexivity. Qed.

Lemma oany_Ok l : oany (map Ok l) = Ok (existsb (fun b => b) l).
Proof. induction l as [|[] l IH]; cbn; [reflexivity|reflexivity|exact IH]. Qed.

Lemma tel_aviv_view n : supported (year n) ->
  israel_tel_aviv_is_business_day n = view_telaviv (israel_env (year n)) (day n) (weekday_of n) (month n) (ordinal n).
Proof.
  intros Sy. unfold israel_tel_aviv_is_business_day, view_telaviv, is_weekend. cbv zeta.
  destruct (match weekday_of n with Sat | Sun => true | _ => false end); [reflexivity|].
  rewrite !named_add by (first [exact tidy_pass | exact tidy_ind | exact tidy_shav | exact tidy_new | exact Sy | lia]).
  rewrite !named_here by (first [exact tidy_purim | exact tidy_pass | exact tidy_ind | exact tidy_shav | exact tidy_fast | exact tidy_new]).
  cbn [israel_env iy ipurim ipass iind ishav ifast inew].
  unfold oand, obind.
  repeat match goal with |- context [if year n <=? ?k then Ok ?b else Ok false] =>
    replace (if year n <=? k then Ok b else Ok false) with (Ok (A := bool) ((year n <=? k) && b))
      by (destruct (year n <=? k); reflexivity) end.
  match goal with |- context [oany ?l] =>
    let rec go l := lazymatch l with nil => constr:(@nil bool) | cons (Ok ?b) ?l' => let r := go l' in constr:(cons b r) end in
    let r := go l in change (oany l) with (oany (map (@Ok bool) r)) end.
  rewrite oany_Ok. cbn [existsb]. rewrite orb_false_r, <- !orb_assoc.
  match goal with |- (if ?b then _ else _) = Ok (negb ?c) => change c with b; destruct b; reflexivity end.
Qed.

Lemma shir_view n : supported (year n) ->
  israel_shir_is_business_day n = view_shir (israel_env (year n)) (day n) (weekday_of n) (month n) (ordinal n).
Proof.
  intros Sy. unfold israel_shir_is_business_day, view_shir, is_weekend. cbv zeta.
  destruct (easter_Ok (year n) Sy) as (em & E & _). cbn [israel_env iem]. rewrite E. cbn [obind].
  destruct (match weekday_of n with Sat | Sun => true | _ => false end); [reflexivity|].
  rewrite !named_add by (first [exact tidy_purim | exact tidy_pass | exact tidy_new | exact Sy | lia]).
  rewrite !named_here by (first [exact tidy_purim | exact tidy_pass | exact tidy_ind | exact tidy_shav | exact tidy_fast | exact tidy_new]).
  cbn [israel_env iy ipurim ipass iind ishav ifast inew].
  unfold obind.
  match goal with |- context [oany ?l] =>
    let rec go l := lazymatch l with nil => constr:(@nil bool) | cons (Ok ?b) ?l' => let r := go l' in constr:(cons b r) end in
    let r := go l in change (oany l) with (oany (map (@Ok bool) r)) end.
  rewrite oany_Ok. cbn [existsb]. rewrite orb_false_r, <- !orb_assoc.
  match goal with |- (if ?b then _ else _) = Ok (negb ?c) => change c with b; destruct b; reflexivity end.
Qed.

Lemma closure_israel_TelAviv : closes_at_most 10 (israel_is_business_day (Some israel_TelAviv)).
Proof.
  apply (closure_sound view_telaviv israel_env 10 israel_tel_aviv_is_business_day tel_aviv_view); [lia|vm_compute; reflexivity].
Qed.

Lemma closure_israel_Shir : closes_at_most 11 (israel_is_business_day (Some israel_Shir)).
Proof.
  apply (closure_sound view_shir israel_env 11 israel_shir_is_business_day shir_view); [lia|vm_compute; reflexivity].
Qed.
