(** A checkable certificate that a calendar never stays closed for long: walk
    through the years once, looking only as often as needed, and prove that a
    successful walk bounds the distance to the next and to the previous
    business day.  Nothing here models code. *)
From Coq Require Import ZArith Bool List Lia.
From Coq Require Import ZifyBool.
Import ListNotations.
From Verif Require Import Outcome Date DateFacts Calendar CalendarSpec CalendarFacts EasterFacts Cal_base ShippedFacts.
Open Scope Z_scope.
Ltac Zify.zify_post_hook ::= Z.div_mod_to_equations.

(** What a calendar rule looks at, apart from the year: day of month, weekday,
    month, day of year. *)
Definition parts_t : Type := (Z * weekday * Z * Z)%type.
Definition parts (n : date) : parts_t := (day n, weekday_of n, month n, ordinal n).

Definition nextw (w : weekday) : weekday :=
  match w with Mon => Tue | Tue => Wed | Wed => Thu | Thu => Fri | Fri => Sat | Sat => Sun | Sun => Mon end.
Definition mlen' (lp : bool) (m : Z) : Z := mlen (if lp then 4 else 1) m.
Definition nextp (lp : bool) (x : parts_t) : parts_t :=
  let '(d, w, m, o) := x in
  if d <? mlen' lp m then (d + 1, nextw w, m, o + 1) else (1, nextw w, m + 1, o + 1).

Fixpoint days_from (k : nat) (lp : bool) (x : parts_t) : list parts_t :=
  match k with O => [] | S k => x :: days_from k lp (nextp lp x) end.

Definition year_days (lp : bool) (w : weekday) : list parts_t :=
  days_from (if lp then 366 else 365)%nat lp (1, w, 1, 1).

(** The fourteen kinds of year. *)
Definition common_years : list (list parts_t) := Eval vm_compute in
  map (year_days false) [Mon; Tue; Wed; Thu; Fri; Sat; Sun].
Definition leap_years : list (list parts_t) := Eval vm_compute in
  map (year_days true) [Mon; Tue; Wed; Thu; Fri; Sat; Sun].
Definition wnat (w : weekday) : nat :=
  match w with Mon => 0 | Tue => 1 | Wed => 2 | Thu => 3 | Fri => 4 | Sat => 5 | Sun => 6 end%nat.
Definition the_year (lp : bool) (w : weekday) : list parts_t :=
  nth (wnat w) (if lp then leap_years else common_years) [].

Lemma the_year_days lp w : the_year lp w = year_days lp w.
Proof. destruct lp, w; vm_compute; reflexivity. Qed.

Definition dates (n : Z) (k : nat) : list Z := map (fun i => n + Z.of_nat i) (seq 0 k).

Lemma dates_S n k : dates n (S k) = n :: dates (n + 1) k.
Proof.
  unfold dates. cbn [seq map]. f_equal; [lia|]. rewrite <- seq_shift, map_map.
  apply map_ext. intros i. lia.
Qed.

Lemma weekday_next n : weekday_of (n + 1) = nextw (weekday_of n).
Proof.
  pose proof (weekday_num_of n) as A. pose proof (weekday_num_of (n + 1)) as B.
  destruct (weekday_of n); destruct (weekday_of (n + 1)); cbn in A, B; try reflexivity; exfalso; lia.
Qed.

Lemma mlen_leap y m : mlen y m = mlen' (leap y) m.
Proof. unfold mlen', mlen. destruct (leap y); reflexivity. Qed.

Lemma parts_next n : year (n + 1) = year n -> parts (n + 1) = nextp (leap (year n)) (parts n).
Proof.
  intros Y. unfold parts, nextp. rewrite weekday_next.
  assert (O : ordinal (n + 1) = ordinal n + 1) by (unfold ordinal; rewrite Y; change date with Z; ring).
  rewrite O, <- mlen_leap.
  pose proof (ymd_valid n) as [V1 V2]. pose proof (of_ymd_ymd n) as R.
  destruct (Z.ltb_spec (day n) (mlen (year n) (month n))) as [L|L].
  - assert (R' : n + 1 = of_ymd (year n) (month n) (day n + 1)).
    { rewrite of_ymd_day. rewrite of_ymd_day in R. change date with Z in *. lia. }
    assert (V : valid_ymd (year n) (month n) (day n + 1)) by (split; lia).
    rewrite R', day_of_ymd, month_of_ymd by exact V. reflexivity.
  - destruct (Z.eq_dec (month n) 12) as [M|M].
    + exfalso. assert (R' : n + 1 = of_ymd (year n + 1) 1 1).
      { rewrite of_ymd_next_year. rewrite of_ymd_day, M in R. rewrite M in L, V2.
        change (mlen (year n) 12) with 31 in *. change date with Z in *. lia. }
      rewrite R' in Y. rewrite year_of_ymd in Y by (split; [lia|]; pose proof (mlen_bounds (year n + 1) 1); lia).
      lia.
    + assert (R' : n + 1 = of_ymd (year n) (month n + 1) 1).
      { rewrite of_ymd_next_month by lia. rewrite of_ymd_day in R. change date with Z in *. lia. }
      assert (V : valid_ymd (year n) (month n + 1) 1).
      { split; [lia|]. pose proof (mlen_bounds (year n) (month n + 1)). lia. }
      rewrite R', day_of_ymd, month_of_ymd by exact V. reflexivity.
Qed.

Lemma days_from_parts k : forall n y, (forall i, 0 <= i < Z.of_nat k -> year (n + i) = y) ->
  days_from k (leap y) (parts n) = map parts (dates n k).
Proof.
  induction k as [|k IH]; intros n y Y; [reflexivity|].
  rewrite dates_S. cbn [days_from map]. f_equal.
  assert (Yn : year n = y) by (replace n with (n + 0) by lia; apply Y; lia).
  destruct k as [|k]; [reflexivity|].
  assert (Yn1 : year (n + 1) = y) by (apply Y; lia).
  assert (PN : nextp (leap y) (parts n) = parts (n + 1)).
  { pose proof (parts_next n ltac:(congruence)) as PN. rewrite Yn in PN. symmetry. exact PN. }
  rewrite PN.
  apply IH. intros i I. replace (n + 1 + i) with (n + (1 + i)) by lia. apply Y. lia.
Qed.

Definition year_len (y : Z) : Z := if leap y then 366 else 365.

Lemma jan1_next y : of_ymd (y + 1) 1 1 = of_ymd y 1 1 + year_len y.
Proof.
  rewrite of_ymd_next_year.
  pose proof (of_ymd_next_month y 1 ltac:(lia)) as N1. pose proof (of_ymd_next_month y 2 ltac:(lia)) as N2.
  pose proof (of_ymd_next_month y 3 ltac:(lia)) as N3. pose proof (of_ymd_next_month y 4 ltac:(lia)) as N4.
  pose proof (of_ymd_next_month y 5 ltac:(lia)) as N5. pose proof (of_ymd_next_month y 6 ltac:(lia)) as N6.
  pose proof (of_ymd_next_month y 7 ltac:(lia)) as N7. pose proof (of_ymd_next_month y 8 ltac:(lia)) as N8.
  pose proof (of_ymd_next_month y 9 ltac:(lia)) as N9. pose proof (of_ymd_next_month y 10 ltac:(lia)) as N10.
  pose proof (of_ymd_next_month y 11 ltac:(lia)) as N11.
  change (1 + 1) with 2 in *. change (2 + 1) with 3 in *. change (3 + 1) with 4 in *. change (4 + 1) with 5 in *.
  change (5 + 1) with 6 in *. change (6 + 1) with 7 in *. change (7 + 1) with 8 in *. change (8 + 1) with 9 in *.
  change (9 + 1) with 10 in *. change (10 + 1) with 11 in *. change (11 + 1) with 12 in *.
  change (mlen y 1) with 31 in *. change (mlen y 3) with 31 in *. change (mlen y 4) with 30 in *.
  change (mlen y 5) with 31 in *. change (mlen y 6) with 30 in *. change (mlen y 7) with 31 in *.
  change (mlen y 8) with 31 in *. change (mlen y 9) with 30 in *. change (mlen y 10) with 31 in *.
  change (mlen y 11) with 30 in *.
  assert (M : mlen y 2 = if leap y then 29 else 28) by reflexivity. rewrite M in *. unfold year_len.
  change date with Z in *. destruct (leap y); lia.
Qed.

Lemma year_in y i : 0 <= i < year_len y -> year (of_ymd y 1 1 + i) = y.
Proof.
  intros I. destruct (Z.eq_dec i 365) as [->|N].
  - assert (L : leap y = true) by (unfold year_len in I; destruct (leap y); [reflexivity|lia]).
    pose proof (jan1_next y) as J. unfold year_len in J. rewrite L in J.
    assert (V : valid_ymd y 12 31) by (split; [lia|]; change (mlen y 12) with 31; lia).
    rewrite of_ymd_next_year in J.
    replace (of_ymd y 1 1 + 365) with (of_ymd y 12 31); [apply year_of_ymd; exact V|].
    rewrite (of_ymd_day y 12 31). change date with Z in *. lia.
  - apply jan1_year. unfold year_len in I. destruct (leap y); lia.
Qed.

(** A rule in the form the walk evaluates: [E] is what it needs to know about
    the year. *)
Section walk.
Context {E : Type} (F : E -> Z -> weekday -> Z -> Z -> outcome bool) (env : Z -> E) (K : nat).

Definition is_open (e : E) (p : parts_t) : bool :=
  let '(d, w, m, o) := p in match F e d w m o with Ok true => true | _ => false end.

(** [carry] days have passed since the last known business day. *)
Fixpoint walk (e : E) (l : list parts_t) (carry : nat) : option nat :=
  match l with
  | [] => Some carry
  | p :: l =>
    match carry with
    | S (S (S (S (S (S _))))) =>
      if is_open e p then walk e l O
      else if Nat.leb K carry then None else walk e l (S carry)
    | _ => walk e l (S carry)
    end
  end.

Fixpoint walk_years (k : nat) (y : Z) (w : weekday) (carry : nat) : bool :=
  match k with
  | O => true
  | S k =>
    let lp := leap y in
    match walk (env y) (the_year lp w) carry with
    | None => false
    | Some c => walk_years k (y + 1) (if lp then nextw (nextw w) else nextw w) c
    end
  end.

Context (c : calendar).
Hypothesis view : forall n, supported (year n) ->
  c n = F (env (year n)) (day n) (weekday_of n) (month n) (ordinal n).
Hypothesis K6 : (6 <= K)%nat.

Let start : Z := of_ymd 1901 1 1.

Definition covered (n : Z) (carry : nat) : Prop :=
  (carry <= K)%nat /\ start <= n - Z.of_nat carry /\
  (n - Z.of_nat carry = start \/ opened c (n - Z.of_nat carry - 1)) /\
  (forall x, start <= x < n - Z.of_nat carry -> exists r, x <= r <= x + Z.of_nat K /\ opened c r) /\
  (forall x, start + Z.of_nat K <= x < n -> exists r, x - Z.of_nat K <= r <= x /\ opened c r).

Lemma covered_open n carry : covered n carry -> opened c n -> covered (n + 1) 0.
Proof.
  intros (A & B & D & G & H) O. repeat split; try lia.
  - right. replace (n + 1 - Z.of_nat 0 - 1) with n by lia. exact O.
  - intros x X. destruct (Z_lt_ge_dec x (n - Z.of_nat carry)) as [L|L].
    + apply G; lia.
    + exists n. split; [lia|exact O].
  - intros x X. destruct (Z.eq_dec x n) as [->|N].
    + exists n. split; [lia|exact O].
    + apply H; lia.
Qed.

Lemma covered_skip n carry : covered n carry -> (carry < K)%nat -> covered (n + 1) (S carry).
Proof.
  intros (A & B & D & G & H) L.
  assert (Q : n + 1 - Z.of_nat (S carry) = n - Z.of_nat carry) by lia.
  unfold covered. rewrite Q. repeat split; try lia; auto.
  intros x X. destruct (Z.eq_dec x n) as [->|N]; [|apply H; lia].
  destruct D as [D|D]; [exfalso; lia|].
  exists (n - Z.of_nat carry - 1). split; [lia|exact D].
Qed.

Lemma walk_covered k : forall n carry carry' y,
  supported y -> (forall i, 0 <= i < Z.of_nat k -> year (n + i) = y) ->
  walk (env y) (map parts (dates n k)) carry = Some carry' ->
  covered n carry -> covered (n + Z.of_nat k) carry'.
Proof.
  induction k as [|k IH]; intros n carry carry' y Sy Y W C.
  - cbn in W. injection W as <-. replace (n + Z.of_nat 0) with n by lia. exact C.
  - rewrite dates_S in W. cbn [map walk] in W.
    assert (Yn : year n = y) by (replace n with (n + 0) by lia; apply Y; lia).
    assert (Y' : forall i, 0 <= i < Z.of_nat k -> year (n + 1 + i) = y).
    { intros i I. replace (n + 1 + i) with (n + (1 + i)) by lia. apply Y. lia. }
    replace (n + Z.of_nat (S k)) with (n + 1 + Z.of_nat k) by lia.
    assert (Skip : (carry < K)%nat -> walk (env y) (map parts (dates (n + 1) k)) (S carry) = Some carry' ->
              covered (n + 1 + Z.of_nat k) carry').
    { intros L W'. eapply IH; eauto. apply covered_skip; assumption. }
    destruct (Nat.le_gt_cases 6 carry) as [L6|L6].
    + assert (W' : (if is_open (env y) (parts n) then walk (env y) (map parts (dates (n + 1) k)) O
        else if Nat.leb K carry then None else walk (env y) (map parts (dates (n + 1) k)) (S carry)) = Some carry').
      { do 6 (destruct carry as [|carry]; [exfalso; lia|]). exact W. }
      clear W. destruct (is_open (env y) (parts n)) eqn:O.
      * eapply IH; eauto. eapply covered_open; [exact C|].
        unfold opened. rewrite view by (rewrite Yn; exact Sy). rewrite Yn.
        unfold is_open, parts in O. destruct (F (env y) (day n) (weekday_of n) (month n) (ordinal n)) as [[]| |];
          try discriminate O. reflexivity.
      * destruct (Nat.leb_spec K carry); [discriminate W'|]. apply Skip; [lia|exact W'].
    + apply Skip; [lia|].
      do 6 (destruct carry as [|carry]; [exact W|]). exfalso. lia.
Qed.

Lemma walk_years_covered k : forall y w carry,
  1901 <= y -> y + Z.of_nat k <= 2200 -> w = weekday_of (of_ymd y 1 1) ->
  walk_years k y w carry = true -> covered (of_ymd y 1 1) carry ->
  exists carry', covered (of_ymd (y + Z.of_nat k) 1 1) carry'.
Proof.
  induction k as [|k IH]; intros y w carry Y1 Y2 W R C.
  - exists carry. replace (y + Z.of_nat 0) with y by lia. exact C.
  - cbn [walk_years] in R. destruct (walk (env y) (the_year (leap y) w) carry) as [c'|] eqn:Q; [|discriminate R].
    assert (V1 : valid_ymd y 1 1) by (split; [lia|]; pose proof (mlen_bounds y 1); lia).
    assert (P : (1, w, 1, 1) = parts (of_ymd y 1 1)).
    { unfold parts, ordinal. rewrite day_of_ymd, month_of_ymd, year_of_ymd by exact V1. rewrite W.
      f_equal. change date with Z. ring. }
    assert (L : Z.of_nat (if leap y then 366 else 365)%nat = year_len y)
      by (unfold year_len; destruct (leap y); reflexivity).
    rewrite the_year_days in Q. unfold year_days in Q. rewrite P in Q.
    rewrite days_from_parts in Q by (intros i I; apply year_in; rewrite <- L; exact I).
    apply walk_covered in Q; [|unfold supported; lia| intros i I; apply year_in; rewrite <- L; exact I|exact C].
    rewrite L, <- jan1_next in Q.
    replace (y + Z.of_nat (S k)) with (y + 1 + Z.of_nat k) by lia.
    eapply IH; [lia|lia| |exact R|exact Q].
    rewrite jan1_next, W. unfold year_len. destruct (leap y).
    + replace (of_ymd y 1 1 + 366) with (of_ymd y 1 1 + 1 + 1 + 7 * 52) by lia.
      rewrite <- !weekday_next.
      generalize (of_ymd y 1 1 + 1 + 1). intros z. clear.
      pose proof (weekday_num_of z). pose proof (weekday_num_of (z + 7 * 52)).
      destruct (weekday_of z), (weekday_of (z + 7 * 52)); cbn in *; try reflexivity; exfalso; lia.
    + replace (of_ymd y 1 1 + 365) with (of_ymd y 1 1 + 1 + 7 * 52) by lia.
      rewrite <- !weekday_next.
      generalize (of_ymd y 1 1 + 1). intros z. clear.
      pose proof (weekday_num_of z). pose proof (weekday_num_of (z + 7 * 52)).
      destruct (weekday_of z), (weekday_of (z + 7 * 52)); cbn in *; try reflexivity; exfalso; lia.
Qed.

Theorem closure_sound : walk_years 299 1901 Tue 0 = true ->
  (forall x, of_ymd 1901 1 1 <= x <= of_ymd 2199 12 31 - Z.of_nat K ->
     exists r, x <= r <= x + Z.of_nat K /\ opened c r) /\
  (forall x, of_ymd 1901 1 1 + Z.of_nat K <= x <= of_ymd 2199 12 31 ->
     exists r, x - Z.of_nat K <= r <= x /\ opened c r).
Proof.
  intros W.
  assert (C0 : covered (of_ymd 1901 1 1) 0).
  { unfold covered, start. repeat split; try lia. }
  assert (WD : Tue = weekday_of (of_ymd 1901 1 1)) by reflexivity.
  destruct (walk_years_covered 299 1901 Tue 0 ltac:(lia) ltac:(lia) WD W C0)
    as (carry & A & B & D & G & H).
  change (1901 + Z.of_nat 299) with (2199 + 1) in *.
  assert (X : of_ymd (2199 + 1) 1 1 = of_ymd 2199 12 31 + 1) by reflexivity.
  rewrite X in *. fold start. split; intros x I; [apply G | apply H]; change date with Z in *; lia.
Qed.
End walk.
