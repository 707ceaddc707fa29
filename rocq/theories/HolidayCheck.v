(** A checkable certificate that a calendar closes on exactly the weekends and
    the days of a list of rules.  Nothing here models code. *)
From Coq Require Import ZArith Bool List Lia.
From Coq Require Import ZifyBool.
Import ListNotations.
From Verif Require Import Outcome Date DateFacts Calendar CalendarSpec CalendarFacts EasterSpec EasterFacts Cal_base
  ShippedFacts Closure ClosureView HolidayRules.
Open Scope Z_scope.
Ltac Zify.zify_post_hook ::= Z.div_mod_to_equations.

(** The civil date before and after. *)
Definition prev3 (t : Z * Z * Z) : Z * Z * Z :=
  match t with (y, m, k) =>
    if 1 <? k then (y, m, k - 1) else if m =? 1 then (y - 1, 12, 31) else (y, m - 1, mlen y (m - 1)) end.
Definition next3 (t : Z * Z * Z) : Z * Z * Z :=
  match t with (y, m, k) =>
    if k <? mlen y m then (y, m, k + 1) else if m =? 12 then (y + 1, 1, 1) else (y, m + 1, 1) end.
Definition civil (d : date) : Z * Z * Z := (year d, month d, day d).

Lemma civil_of y m k : valid_ymd y m k -> civil (of_ymd y m k) = (y, m, k).
Proof. intros V. unfold civil. rewrite year_of_ymd, month_of_ymd, day_of_ymd by exact V. reflexivity. Qed.

Lemma civil_next d : civil (d + 1) = next3 (civil d).
Proof.
  unfold next3, civil at 2. pose proof (ymd_valid d) as [V1 V2]. pose proof (of_ymd_ymd d) as Q.
  rewrite of_ymd_day in Q.
  destruct (Z.ltb_spec (day d) (mlen (year d) (month d))) as [L|L].
  - rewrite <- civil_of by (split; lia). f_equal. rewrite of_ymd_day. change date with Z in *. lia.
  - destruct (Z.eqb_spec (month d) 12) as [M|M].
    + rewrite <- civil_of by (split; [lia|]; pose proof (mlen_bounds (year d + 1) 1); lia). f_equal.
      rewrite of_ymd_next_year. rewrite M in *. change (mlen (year d) 12) with 31 in *. change date with Z in *. lia.
    + rewrite <- civil_of by (split; [lia|]; pose proof (mlen_bounds (year d) (month d + 1)); lia). f_equal.
      rewrite of_ymd_next_month by lia. change date with Z in *. lia.
Qed.

Lemma prev3_next3 d : prev3 (next3 (civil d)) = civil d.
Proof.
  unfold next3, civil. pose proof (ymd_valid d) as [V1 V2].
  destruct (Z.ltb_spec (day d) (mlen (year d) (month d))) as [L|L].
  - unfold prev3. destruct (Z.ltb_spec 1 (day d + 1)); [|lia]. f_equal. lia.
  - destruct (Z.eqb_spec (month d) 12) as [M|M].
    + unfold prev3. cbn. rewrite M in *. change (mlen (year d) 12) with 31 in *. repeat f_equal; lia.
    + unfold prev3. change (1 <? 1) with false. cbv iota. destruct (Z.eqb_spec (month d + 1) 1); [lia|].
      replace (month d + 1 - 1) with (month d) by lia. f_equal. lia.
Qed.

Lemma civil_prev d : civil (d - 1) = prev3 (civil d).
Proof.
  pose proof (civil_next (d - 1)) as N. replace (d - 1 + 1) with d in N by (change date with Z; lia).
  rewrite N, prev3_next3. reflexivity.
Qed.

Definition back (j : nat) (t : Z * Z * Z) : Z * Z * Z := Nat.iter j prev3 t.

Lemma civil_back j d : civil (d - Z.of_nat j) = back j (civil d).
Proof.
  induction j as [|j IH].
  - cbn. replace (d - 0) with d by (change date with Z; lia). reflexivity.
  - change (back (S j) (civil d)) with (prev3 (back j (civil d))). rewrite <- IH, <- civil_prev. f_equal. change date with Z. lia.
Qed.

Lemma civil_ahead j d : civil (d + Z.of_nat j) = Nat.iter j next3 (civil d).
Proof.
  induction j as [|j IH].
  - cbn. replace (d + 0) with d by (change date with Z; lia). reflexivity.
  - change (Nat.iter (S j) next3 (civil d)) with (next3 (Nat.iter j next3 (civil d))). rewrite <- IH, <- civil_next.
    f_equal. change date with Z. lia.
Qed.

Definition at_md (m k : Z) (t : Z * Z * Z) : bool := match t with (_, m', k') => (m' =? m) && (k' =? k) end.

Lemma at_md_on m k d : at_md m k (civil d) = true <-> on m k d.
Proof. unfold at_md, civil, on. lia. Qed.

Definition ago (j : nat) (m k : Z) (t : Z * Z * Z) : bool := at_md m k (back j t).

Lemma ago_on j m k d : ago j m k (civil d) = true <-> on m k (d - Z.of_nat j).
Proof. unfold ago. rewrite <- civil_back. apply at_md_on. Qed.

Lemma month_back d j : 0 <= j <= 31 -> (month (d - j) = month d <-> j < day d).
Proof.
  intros J. rewrite !month_mi.
  pose proof (fom_mi_bounds d) as B. pose proof (day_fom d) as D. pose proof (fom_succ (mi d - 1)) as S1.
  pose proof (fom_succ (mi d - 2)) as S2. pose proof (mil_bounds (mi d - 1)) as M1. pose proof (mil_bounds (mi d - 2)) as M2.
  replace (mi d - 1 + 1) with (mi d) in S1 by lia. replace (mi d - 2 + 1) with (mi d - 1) in S2 by lia.
  change date with Z in *.
  destruct (Z_lt_ge_dec j (day d)) as [L|L].
  - rewrite (mi_unique (d - j) (mi d)) by lia. tauto.
  - destruct (Z_lt_ge_dec (d - j) (fom (mi d - 1))) as [A|A].
    + rewrite (mi_unique (d - j) (mi d - 2)) by (replace (mi d - 2 + 1) with (mi d - 1) by lia; lia). lia.
    + rewrite (mi_unique (d - j) (mi d - 1)) by (replace (mi d - 1 + 1) with (mi d) by lia; lia). lia.
Qed.

Lemma month_ahead d : month (d + 7) = month d <-> day d + 7 <= mlen (year d) (month d).
Proof.
  rewrite !month_mi.
  pose proof (fom_mi_bounds d) as B. pose proof (day_fom d) as D. pose proof (fom_succ (mi d)) as S1.
  pose proof (fom_succ (mi d + 1)) as S2. pose proof (mil_bounds (mi d)) as M1. pose proof (mil_bounds (mi d + 1)) as M2.
  pose proof (mil_mi d) as E. rewrite !month_mi in E. rewrite <- E. change date with Z in *.
  destruct (Z_lt_ge_dec (d + 7) (fom (mi d + 1))) as [L|L].
  - rewrite (mi_unique (d + 7) (mi d)) by lia. lia.
  - rewrite (mi_unique (d + 7) (mi d + 1)) by lia. lia.
Qed.

(** A rule as a function of the parts of the date. *)
Fixpoint rule_view (r : rule) (e : env_t) (k : Z) (w : weekday) (m o : Z) : bool :=
  match e with (y, em, om) =>
    let t := (y, m, k) in
    match r with
    | Fixed a b => at_md a b t
    | OrMonday a b => if at_md a b t then true else if weekday_eqb w Mon then ago 1 a b t || ago 2 a b t else false
    | SundayToMonday a b => if at_md a b t then true else if weekday_eqb w Mon then ago 1 a b t else false
    | Observed a b => if at_md a b t then true else
        match w with Mon => ago 1 a b t | Fri => at_md a b (next3 t) | _ => false end
    | TwoDays a b => if at_md a b t then true else if ago 1 a b t then true else
        match w with Mon => ago 3 a b t || ago 2 a b t | Tue => ago 2 a b t || ago 3 a b t | _ => false end
    | ToMonday l a b => match w with
        | Mon => existsb (fun j => if (Z.of_nat j <=? weekday_num l) then at_md a b (Nat.iter j next3 t) else false) [0; 1; 2; 3; 4]%nat ||
                 existsb (fun j => if (weekday_num l <? 7 - Z.of_nat j) then ago j a b t else false) [3; 4; 5; 6]%nat
        | Sat | Sun => at_md a b t
        | _ => false end
    | ToFriday a b => match w with
        | Fri => at_md a b t || at_md a b (Nat.iter 4 next3 t) || ago 2 a b t
        | Tue | Wed => false
        | _ => at_md a b t end
    | Nth n a b => if m =? b then weekday_eqb w a && (7 * (n - 1) <? k) && (k <=? 7 * n) else false
    | LastOf a b => if m =? b then weekday_eqb w a && (mlen y m <? k + 7) else false
    | FirstFrom a b c => if weekday_eqb w a then existsb (fun j => ago j b c t) [0; 1; 2; 3; 4; 5; 6]%nat else false
    | FromEaster j => match em with Ok x => o =? x - 1 + j | _ => false end
    | FromOrthodoxEaster j => match om with Ok x => o =? x - 1 + j | _ => false end
    | LastWorkday a => if m =? a then
        match w with Sat | Sun => false | Fri => mlen y m <=? k + 2 | _ => k =? mlen y m end else false
    | OnA a r => if weekday_eqb w a then rule_view r e k w m o else false
    | Yearly f => rule_view (f y) e k w m o
    | PastDay a r => if a <? k then rule_view r e k w m o else false
    | During a b r => if (a <=? y) && (y <=? b) then rule_view r e k w m o else false
    | Once a b c => if (y =? a) then (m =? b) && (k =? c) else false
    end end.

(** The rules the certificate understands. *)
Fixpoint rule_ok (r : rule) : bool :=
  match r with
  | ToMonday l _ _ => weekday_num l <=? 4
  | Nth n _ _ => (1 <=? n) && (n <=? 4)
  | During _ _ r => rule_ok r
  | PastDay _ r => rule_ok r
  | Yearly f => forallb (fun i => rule_ok (f (1901 + Z.of_nat i))) (seq 0 299)
  | OnA _ r => rule_ok r
  | Once y m k => valid_ymdb y m k
  | _ => true
  end.

Lemma wd7 (a b : date) : weekday_of a = weekday_of b <-> (a - b) mod 7 = 0.
Proof.
  pose proof (weekday_num_of a) as A. pose proof (weekday_num_of b) as B. split.
  - intros E. rewrite E in A. change date with Z in *. lia.
  - intros E. destruct (weekday_of a), (weekday_of b); cbn in A, B; try reflexivity; exfalso; change date with Z in *; lia.
Qed.

Lemma wd_num (d : date) (w : weekday) : weekday_of d = w <-> (d - 1) mod 7 = weekday_num w.
Proof.
  pose proof (weekday_num_of d) as A. split; [intros <-; symmetry; exact A|].
  intros E. rewrite <- A in E. destruct (weekday_of d), w; cbn in E; congruence.
Qed.

Lemma rule_view_falls r d : supported (year d) -> rule_ok r = true ->
  (rule_view r (year_env (year d)) (day d) (weekday_of d) (month d) (ordinal d) = true <-> falls r d).
Proof.
  intros Sy. pose proof (ago_on 1) as A1. pose proof (ago_on 2) as A2. pose proof (ago_on 3) as A3.
  pose proof at_md_on as A0.
  induction r as [a b|a b|a b|a b|a b|l a b|a b|n a b|a b|a b c|j|j|a|a b r IH|a r IH|f IH|a r IH|a b c]; intros K; cbn [rule_view falls rule_ok] in *;
    unfold year_env; fold (civil d).
  - apply A0.
  - destruct (at_md a b (civil d)) eqn:E0.
    + split; [intros _|reflexivity]. exists d. split; [apply A0, E0|left; reflexivity].
    + destruct (weekday_eqb (weekday_of d) Mon) eqn:W.
      * apply weekday_eqb_eq in W. rewrite orb_true_iff, A1, A2. split.
        -- intros [H|H]; eexists; (split; [exact H|]); right;
             rewrite !wd_num in *; cbn [weekday_num] in *; change date with Z in *; lia.
        -- intros (h & H & [-> | (Wh & Wd & L)]).
           ++ apply A0 in H. congruence.
           ++ rewrite !wd_num in *; cbn [weekday_num] in *; change date with Z in *.
              assert (C : h = d - 1 \/ h = d - 2) by lia. destruct C; subst h; tauto.
      * split; [discriminate|]. intros (h & H & [-> | (Wh & Wd & L)]).
        -- apply A0 in H. congruence.
        -- rewrite Wd in W. discriminate W.
  - destruct (at_md a b (civil d)) eqn:E0.
    + split; [intros _|reflexivity]. exists d. split; [apply A0, E0|left; reflexivity].
    + destruct (weekday_eqb (weekday_of d) Mon) eqn:W.
      * apply weekday_eqb_eq in W. rewrite A1. split.
        -- intros H; eexists; (split; [exact H|]); right;
             rewrite !wd_num in *; cbn [weekday_num] in *; change date with Z in *; lia.
        -- intros (h & H & [-> | (Wh & ->)]).
           ++ apply A0 in H. congruence.
           ++ replace (h + 1 - Z.of_nat 1) with h by (change date with Z; lia). exact H.
      * split; [discriminate|]. intros (h & H & [-> | (Wh & ->)]).
        -- apply A0 in H. congruence.
        -- rewrite weekday_next, Wh in W. discriminate W.
  - destruct (at_md a b (civil d)) eqn:E0.
    + split; [intros _|reflexivity]. exists d. split; [apply A0, E0|left; reflexivity].
    + rewrite <- civil_next. specialize (A1 a b d). specialize (A0 a b).
      split.
      * intros H. destruct (weekday_of d) eqn:W; try discriminate H.
        -- apply A1 in H. eexists; (split; [exact H|]); right.
           rewrite !wd_num in *; cbn [weekday_num] in *; change date with Z in *; lia.
        -- apply A0 in H. eexists; (split; [exact H|]); right.
           rewrite !wd_num in *; cbn [weekday_num] in *; change date with Z in *; lia.
      * intros (h & H & [-> | [(Wh & ->)|(Wh & ->)]]).
        -- apply A0 in H. congruence.
        -- assert (W : weekday_of (h - 1) = Fri) by (rewrite !wd_num in *; cbn [weekday_num] in *; change date with Z in *; lia).
           rewrite W. apply A0. replace (h - 1 + 1) with h by (change date with Z; lia). exact H.
        -- assert (W : weekday_of (h + 1) = Mon) by (rewrite !wd_num in *; cbn [weekday_num] in *; change date with Z in *; lia).
           rewrite W. apply A1. replace (h + 1 - Z.of_nat 1) with h by (change date with Z; lia). exact H.
  - destruct (at_md a b (civil d)) eqn:E0.
    + split; [intros _|reflexivity]. exists d. split; [apply A0, E0|left; reflexivity].
    + destruct (ago 1 a b (civil d)) eqn:E1.
      * split; [intros _|reflexivity]. apply A1 in E1. eexists. split; [exact E1|]. right; left. change date with Z. lia.
      * specialize (A1 a b d). specialize (A2 a b d). specialize (A3 a b d). split.
        -- intros H. destruct (weekday_of d) eqn:W; try discriminate H;
             apply orb_true_iff in H; destruct H as [H|H]; (apply A2 in H || apply A3 in H);
             eexists; (split; [exact H|]); right; right;
             rewrite !wd_num in *; cbn [weekday_num] in *; change date with Z in *; lia.
        -- intros (h & H & C). assert (Z' : d <> h) by (intros ->; apply A0 in H; congruence).
           assert (Z1 : d <> h + 1).
           { intros ->. replace (h + 1 - Z.of_nat 1) with h in A1 by (change date with Z; lia). apply A1 in H. congruence. }
           assert (T2 : d = h + 2 -> ago 2 a b (civil d) = true).
           { intros ->. apply A2. replace (h + 2 - Z.of_nat 2) with h by (change date with Z; lia). exact H. }
           assert (T3 : d = h + 3 -> ago 3 a b (civil d) = true).
           { intros ->. apply A3. replace (h + 3 - Z.of_nat 3) with h by (change date with Z; lia). exact H. }
           destruct C as [C|[C|C]]; [congruence|congruence|].
           assert (W : (weekday_of d = Mon \/ weekday_of d = Tue) /\ (d = h + 2 \/ d = h + 3)).
           { rewrite !wd_num in *; cbn [weekday_num] in *; change date with Z in *; lia. }
           destruct W as [[-> | ->] [D|D]]; rewrite ?(T2 D), ?(T3 D), ?orb_true_r; reflexivity.
  - assert (C0 : forall h j, on a b h -> d = h - Z.of_nat j -> at_md a b (Nat.iter j next3 (civil d)) = true).
    { intros h j H ->. rewrite <- civil_ahead. apply A0.
      replace (h - Z.of_nat j + Z.of_nat j) with h by (change date with Z; lia). exact H. }
    assert (C1 : forall h j, on a b h -> d = h + Z.of_nat j -> ago j a b (civil d) = true).
    { intros h j H ->. apply ago_on. replace (h + Z.of_nat j - Z.of_nat j) with h by (change date with Z; lia). exact H. }
    assert (Kl : 0 <= weekday_num l <= 4) by (destruct l; cbn in *; lia). clear K.
    set (N := weekday_num l) in *. clearbody N.
    assert (NW : forall z : date, weekday_num (weekday_of z) = (z - 1) mod 7) by (intros z; apply weekday_num_of).
    split.
    + destruct (weekday_of d) eqn:W; try discriminate; rewrite wd_num in W; cbn [weekday_num] in W.
      * rewrite orb_true_iff, !existsb_exists. intros [(j & I & H)|(j & I & H)].
        -- destruct (Z.leb_spec (Z.of_nat j) N) as [L|L]; [|discriminate H]. rewrite <- civil_ahead in H. apply A0 in H.
           eexists. split; [exact H|]. cbv zeta. rewrite NW. cbn [In] in I. change date with Z in *. lia.
        -- destruct (Z.ltb_spec N (7 - Z.of_nat j)) as [L|L]; [|discriminate H]. apply ago_on in H.
           eexists. split; [exact H|]. cbv zeta. rewrite NW. cbn [In] in I. change date with Z in *. lia.
      * intros H. apply A0 in H. exists d. split; [exact H|]. cbv zeta. rewrite NW. change date with Z in *. lia.
      * intros H. apply A0 in H. exists d. split; [exact H|]. cbv zeta. rewrite NW. change date with Z in *. lia.
    + intros (h & H & C). cbv zeta in C. rewrite NW in C.
      destruct C as [(L & E)|[(L & E)|(L & E)]].
      * assert (W : weekday_of d = Mon) by (rewrite wd_num; cbn [weekday_num]; change date with Z in *; lia). rewrite W.
        apply orb_true_iff. left. apply existsb_exists. exists (Z.to_nat ((h - 1) mod 7)). split.
        -- cbn [In]. change date with Z in *. lia.
        -- destruct (Z.leb_spec (Z.of_nat (Z.to_nat ((h - 1) mod 7))) N); [|change date with Z in *; lia].
           apply (C0 h); [exact H|]. change date with Z in *. lia.
      * assert (W : weekday_of d = Mon) by (rewrite wd_num; cbn [weekday_num]; change date with Z in *; lia). rewrite W.
        apply orb_true_iff. right. apply existsb_exists. exists (Z.to_nat (7 - (h - 1) mod 7)). split.
        -- cbn [In]. change date with Z in *. lia.
        -- destruct (Z.ltb_spec N (7 - Z.of_nat (Z.to_nat (7 - (h - 1) mod 7)))); [|change date with Z in *; lia].
           apply (C1 h); [exact H|]. change date with Z in *. lia.
      * assert (W : weekday_of d = Sat \/ weekday_of d = Sun) by (rewrite !wd_num; cbn [weekday_num]; change date with Z in *; lia).
        subst h. destruct W as [-> | ->]; apply A0; exact H.
  - rewrite <- (civil_ahead 4). specialize (A2 a b d). split.
    + intros H.
      assert (C : at_md a b (civil d) = true /\ weekday_of d <> Tue /\ weekday_of d <> Wed \/
        weekday_of d = Fri /\ (at_md a b (civil (d + Z.of_nat 4)) = true \/ ago 2 a b (civil d) = true)).
      { destruct (weekday_of d) eqn:W; try discriminate H; rewrite ?orb_true_iff in H;
          try (left; repeat split; [exact H|congruence..]).
        destruct H as [[H|H]|H]; [left; repeat split; [exact H|congruence..]|right; tauto..]. }
      destruct C as [(C & N1 & N2)|(W & [C|C])].
      * exists d. split; [apply A0, C|]. destruct (weekday_of d); congruence.
      * apply A0 in C. eexists. split; [exact C|].
        assert (W' : weekday_of (d + Z.of_nat 4) = Tue) by (rewrite wd_num in *; cbn [weekday_num] in *; change date with Z in *; lia).
        rewrite W'. change date with Z. lia.
      * apply A2 in C. eexists. split; [exact C|].
        assert (W' : weekday_of (d - Z.of_nat 2) = Wed) by (rewrite wd_num in *; cbn [weekday_num] in *; change date with Z in *; lia).
        rewrite W'. change date with Z. lia.
    + intros (h & H & C).
      destruct (weekday_of h) eqn:W; subst d;
        try (rewrite W; apply A0 in H; rewrite ?H; reflexivity).
      * assert (W' : weekday_of (h - 4) = Fri) by (rewrite wd_num in *; cbn [weekday_num] in *; change date with Z in *; lia).
        rewrite W'. replace (h - 4 + Z.of_nat 4) with h by (change date with Z; lia). apply A0 in H. rewrite H.
        rewrite orb_true_r. reflexivity.
      * assert (W' : weekday_of (h + 2) = Fri) by (rewrite wd_num in *; cbn [weekday_num] in *; change date with Z in *; lia).
        rewrite W'. replace (h + 2 - Z.of_nat 2) with h in A2 by (change date with Z; lia). apply A2 in H. rewrite H.
        apply orb_true_r.
  - unfold civil. destruct (Z.eqb_spec (month d) b) as [M|M]; [|split; [discriminate|tauto]].
    rewrite !andb_true_iff, weekday_eqb_eq, Z.ltb_lt, Z.leb_le.
    pose proof (month_back d (7 * (n - 1)) ltac:(lia)). pose proof (month_back d (7 * n) ltac:(lia)).
    rewrite <- M. change date with Z in *. rewrite H, H0. intuition lia.
  - unfold civil. destruct (Z.eqb_spec (month d) b) as [M|M]; [|split; [discriminate|tauto]].
    rewrite !andb_true_iff, weekday_eqb_eq, Z.ltb_lt. pose proof (month_ahead d).
    rewrite <- M. change date with Z in *. rewrite H. intuition lia.
  - destruct (weekday_eqb (weekday_of d) a) eqn:W.
    + apply weekday_eqb_eq in W. rewrite existsb_exists. split.
      * intros (j & I & H). apply ago_on in H. eexists. split; [exact H|]. split; [exact W|].
        cbn [In] in I. change date with Z in *. lia.
      * intros (h & H & _ & L). exists (Z.to_nat (d - h)). split.
        -- cbn [In]. change date with Z in *. lia.
        -- apply ago_on. replace (d - Z.of_nat (Z.to_nat (d - h))) with h by (change date with Z in *; lia). exact H.
    + split; [discriminate|]. intros (h & H & Wd & _). apply weekday_eqb_eq in Wd. congruence.
  - destruct (western_easter_monday (year d) Sy) as (em & s & E & W & S1 & B). rewrite E, Z.eqb_eq.
    unfold ordinal. split.
    + intros Q. exists s. split; [exact W|]. change date with Z in *. lia.
    + intros (s' & W' & Q). assert (s' = s) by (eapply first_sunday_unique; eassumption). subst s'.
      change date with Z in *. lia.
  - destruct (orthodox_easter_monday_ok (year d) Sy) as (em & s & E & W & S1 & B). rewrite E, Z.eqb_eq.
    unfold ordinal. split.
    + intros Q. exists s. split; [exact W|]. change date with Z in *. lia.
    + intros (s' & W' & Q). assert (s' = s) by (eapply first_sunday_unique; eassumption). subst s'.
      change date with Z in *. lia.
  - unfold civil. destruct (Z.eqb_spec (month d) a) as [M|M]; [|split; [discriminate|tauto]].
    pose proof (ymd_valid d) as [V1 V2]. pose proof (of_ymd_ymd d) as Q. rewrite of_ymd_day in Q.
    assert (In1 : forall x, d < x -> year x = year d -> month x = a -> exists j, x = d + j /\ 1 <= j <= mlen (year d) (month d) - day d).
    { intros x L Yx Mx. exists (x - d). pose proof (ymd_valid x) as [V1' V2']. pose proof (of_ymd_ymd x) as Q'.
      rewrite of_ymd_day in Q'. rewrite Yx, Mx, <- M in *. change date with Z in *. lia. }
    assert (In2 : forall j, 1 <= j <= mlen (year d) (month d) - day d -> year (d + j) = year d /\ month (d + j) = a).
    { intros j J. assert (E : d + j = of_ymd (year d) (month d) (day d + j))
        by (rewrite of_ymd_day; change date with Z in *; lia).
      assert (V : valid_ymd (year d) (month d) (day d + j)) by (split; lia).
      rewrite E, year_of_ymd, month_of_ymd by exact V. tauto. }
    set (L := mlen (year d) (month d)) in *. clearbody L.
    assert (NX : forall w', weekday_of d = w' -> w' <> Sat -> w' <> Sun ->
      ((forall x, d < x -> year x = year d -> month x = a -> weekday_of x = Sat \/ weekday_of x = Sun) <->
       match w' with Fri => L <= day d + 2 | _ => day d = L end)).
    { intros w' Wd N1 N2. split.
      - intros H. assert (T : forall j, 1 <= j <= L - day d -> weekday_of (d + j) = Sat \/ weekday_of (d + j) = Sun).
        { intros j J. destruct (In2 j J). apply H; [change date with Z in *; lia|assumption..]. }
        pose proof (T 1) as T1. pose proof (T 3) as T3. clear T H In1 In2.
        destruct w'; try congruence; rewrite !wd_num in *; cbn [weekday_num] in *; change date with Z in *; lia.
      - intros H x Lx Yx Mx. destruct (In1 x Lx Yx Mx) as (j & -> & J). clear In1 In2.
        destruct w'; try congruence; rewrite !wd_num in *; cbn [weekday_num] in *; change date with Z in *; lia. }
    specialize (NX (weekday_of d) eq_refl). clear In1 In2.
    destruct (weekday_of d) eqn:W; try (rewrite NX by discriminate; rewrite ?Z.eqb_eq, ?Z.leb_le; intuition congruence);
      split; try discriminate; tauto.
  - specialize (IH K). unfold year_env in IH.
    destruct ((a <=? year d) && (year d <=? b)) eqn:G; [|split; [discriminate|intros [? _]; lia]].
    rewrite IH. split; [intros; split; [lia|assumption]|tauto].
  - specialize (IH K). unfold year_env in IH.
    destruct (weekday_eqb (weekday_of d) a) eqn:W.
    + apply weekday_eqb_eq in W. fold (civil d) in IH. rewrite IH. tauto.
    + split; [discriminate|]. intros [E _]. apply weekday_eqb_eq in E. congruence.
  - apply (IH (year d)). rewrite forallb_forall in K. unfold supported in Sy. specialize (K (Z.to_nat (year d - 1901))).
    replace (1901 + Z.of_nat (Z.to_nat (year d - 1901))) with (year d) in K by lia. apply K. apply in_seq. lia.
  - specialize (IH K). unfold year_env in IH.
    destruct (Z.ltb_spec a (day d)); [rewrite IH; tauto|split; [discriminate|intros [? _]; lia]].
  - apply valid_ymdb_spec in K.
    destruct (Z.eqb_spec (year d) a) as [Y|Y].
    + rewrite andb_true_iff, !Z.eqb_eq. split.
      * intros [<- <-]. rewrite <- Y. symmetry. apply of_ymd_ymd.
      * intros ->. rewrite month_of_ymd, day_of_ymd by exact K. tauto.
    + split; [discriminate|]. intros ->. rewrite year_of_ymd in Y by exact K. congruence.
Qed.

(** The months a rule can fall in, so that a day is compared with few rules. *)
Definition near_month (a b m : Z) (f g : Z) : bool := if (b + f <=? 28) && (g <? b) then m =? a else true.

Fixpoint may (r : rule) (e : env_t) (m : Z) : bool :=
  match e with (y, em, om) =>
    match r with
    | Fixed a b => m =? a
    | OrMonday a b => near_month a b m 2 0
    | SundayToMonday a b => near_month a b m 1 0
    | Observed a b => near_month a b m 1 1
    | TwoDays a b => near_month a b m 3 0
    | ToMonday l a b => near_month a b m 6 4
    | ToFriday a b => near_month a b m 2 4
    | Nth n a b => m =? b
    | LastOf a b => m =? b
    | FirstFrom a b c => near_month b c m 6 0
    | FromEaster j => match em with Ok x => let t := x - 1 + j in (28 * (m - 1) <? t) && (t <=? 31 * m) | _ => false end
    | FromOrthodoxEaster j => match om with Ok x => let t := x - 1 + j in (28 * (m - 1) <? t) && (t <=? 31 * m) | _ => false end
    | LastWorkday a => m =? a
    | OnA a r => may r e m
    | Yearly f => may (f y) e m
    | PastDay a r => may r e m
    | During a b r => if (a <=? y) && (y <=? b) then may r e m else false
    | Once a b c => if y =? a then m =? b else false
    end end.

Lemma ago_month j : forall a b y m k, ago j a b (y, m, k) = true -> b + Z.of_nat j <= 28 -> m = a.
Proof.
  assert (G : forall a b t, ago j a b t = true -> b + Z.of_nat j <= 28 -> at_md a (b + Z.of_nat j) t = true).
  { unfold ago. induction j as [|j IH]; intros a b t H L.
    - cbn in H. replace (b + Z.of_nat 0) with b by lia. exact H.
    - change (back (S j) t) with (prev3 (back j t)) in H. replace (b + Z.of_nat (S j)) with (b + 1 + Z.of_nat j) by lia.
      apply IH; [|lia]. destruct (back j t) as [[y m] k]. unfold prev3 in H. unfold at_md in *.
      destruct (1 <? k) eqn:K; [lia|]. destruct (m =? 1); [lia|]. pose proof (mlen_bounds y (m - 1)). lia. }
  intros a b y m k H L. specialize (G a b (y, m, k) H L). unfold at_md in G. lia.
Qed.

Lemma ahead_month j : forall a b y m k, at_md a b (Nat.iter j next3 (y, m, k)) = true -> Z.of_nat j < b -> m = a.
Proof.
  assert (G : forall a b t, at_md a b (Nat.iter j next3 t) = true -> Z.of_nat j < b -> at_md a (b - Z.of_nat j) t = true).
  { induction j as [|j IH]; intros a b t H L.
    - cbn in H. replace (b - Z.of_nat 0) with b by lia. exact H.
    - change (Nat.iter (S j) next3 t) with (next3 (Nat.iter j next3 t)) in H. replace (b - Z.of_nat (S j)) with (b - 1 - Z.of_nat j) by lia.
      apply IH; [|lia]. destruct (Nat.iter j next3 t) as [[y m] k]. unfold next3 in H. unfold at_md in *.
      destruct (k <? mlen y m) eqn:K; [lia|]. destruct (m =? 12); lia. }
  intros a b y m k H L. specialize (G a b (y, m, k) H L). unfold at_md in G. lia.
Qed.

Lemma month_start y : forall j, 0 <= j <= 11 -> 28 * j <= of_ymd y (1 + j) 1 - of_ymd y 1 1 <= 31 * j.
Proof.
  intros j J. assert (P : forall i : nat, (i <= 11)%nat -> 28 * Z.of_nat i <= of_ymd y (1 + Z.of_nat i) 1 - of_ymd y 1 1 <= 31 * Z.of_nat i).
  { induction i as [|i IH]; intros L; [change (1 + Z.of_nat 0) with 1; change date with Z; lia|]. specialize (IH ltac:(lia)).
    replace (1 + Z.of_nat (S i)) with (1 + Z.of_nat i + 1) by lia. rewrite of_ymd_next_month by lia.
    pose proof (mlen_bounds y (1 + Z.of_nat i)). change date with Z in *. lia. }
  specialize (P (Z.to_nat j) ltac:(lia)). rewrite Z2Nat.id in P by lia. exact P.
Qed.

Lemma ordinal_month d : 28 * (month d - 1) < ordinal d <= 31 * month d.
Proof.
  pose proof (ymd_valid d) as [V1 V2]. pose proof (of_ymd_ymd d) as Q. rewrite of_ymd_day in Q.
  pose proof (mlen_bounds (year d) (month d)). pose proof (month_start (year d) (month d - 1) ltac:(lia)) as S.
  replace (1 + (month d - 1)) with (month d) in S by lia. unfold ordinal. change date with Z in *. lia.
Qed.

Lemma may_sound r e k w m o : 28 * (m - 1) < o <= 31 * m -> rule_view r e k w m o = true -> may r e m = true.
Proof.
  intros O. destruct e as [[y em] om].
  assert (N : forall a b f g, (b + f <= 28 -> g < b -> m = a) -> near_month a b m f g = true).
  { intros a b f g H. unfold near_month. destruct ((b + f <=? 28) && (g <? b)) eqn:E; [|reflexivity]. specialize (H ltac:(lia) ltac:(lia)). lia. }
  assert (A0 : forall a b, at_md a b (y, m, k) = true -> m = a) by (unfold at_md; intros; lia).
  assert (A1 : forall j a b, ago j a b (y, m, k) = true -> b + Z.of_nat j <= 28 -> m = a) by (intros j a b; apply ago_month).
  assert (A2 : forall j a b, at_md a b (Nat.iter j next3 (y, m, k)) = true -> Z.of_nat j < b -> m = a) by (intros j a b; apply ahead_month).
  induction r as [a b|a b|a b|a b|a b|l a b|a b|n a b|a b|a b c|j|j|a|a b r IH|a r IH|f IH|a r IH|a b c]; cbn [rule_view may]; intros H.
  - apply A0 in H. lia.
  - apply N. intros L1 L2. destruct (at_md a b (y, m, k)) eqn:E; [apply (A0 a b E)|]. destruct (weekday_eqb w Mon); [|discriminate].
    apply orb_true_iff in H. destruct H as [H|H]; apply A1 in H; [exact H|lia|exact H|lia].
  - apply N. intros L1 L2. destruct (at_md a b (y, m, k)) eqn:E; [apply (A0 a b E)|]. destruct (weekday_eqb w Mon); [|discriminate].
    apply A1 in H; [exact H|lia].
  - apply N. intros L1 L2. destruct (at_md a b (y, m, k)) eqn:E; [apply (A0 a b E)|].
    destruct w; try discriminate H; [apply A1 in H; [exact H|lia]|apply (A2 1%nat a b H); lia].
  - apply N. intros L1 L2. destruct (at_md a b (y, m, k)) eqn:E; [apply (A0 a b E)|].
    destruct (ago 1 a b (y, m, k)) eqn:E1; [apply A1 in E1; [exact E1|lia]|].
    destruct w; try discriminate H; apply orb_true_iff in H; destruct H as [H|H]; apply A1 in H; (exact H || lia).
  - apply N. intros L1 L2. destruct w; try discriminate H; try (apply (A0 a b H)).
    apply orb_true_iff in H. rewrite !existsb_exists in H. destruct H as [(j & I & H)|(j & I & H)].
    + destruct (Z.of_nat j <=? weekday_num l); [|discriminate]. apply (A2 j a b H). cbn in I. lia.
    + destruct (weekday_num l <? 7 - Z.of_nat j); [|discriminate]. apply (A1 j a b H). cbn in I. lia.
  - apply N. intros L1 L2. destruct w; try discriminate H; try (apply (A0 a b H)).
    rewrite !orb_true_iff in H. destruct H as [[H|H]|H]; [apply (A0 a b H)|apply (A2 4%nat a b H); lia|apply (A1 2%nat a b H); lia].
  - destruct (m =? b); [reflexivity|exact H].
  - destruct (m =? b); [reflexivity|exact H].
  - apply N. intros L1 L2. destruct (weekday_eqb w a); [|discriminate]. rewrite existsb_exists in H. destruct H as (j & I & H).
    apply (A1 j b c H). cbn in I. lia.
  - destruct em; try discriminate H. cbv zeta. lia.
  - destruct om; try discriminate H. cbv zeta. lia.
  - destruct (m =? a); [reflexivity|exact H].
  - destruct ((a <=? y) && (y <=? b)); [exact (IH H)|exact H].
  - destruct (weekday_eqb w a); [exact (IH H)|discriminate].
  - exact (IH y H).
  - destruct (a <? k); [exact (IH H)|discriminate].
  - destruct (y =? a); [|exact H]. rewrite andb_true_iff in H. exact (proj1 H).
Qed.

Section check.
Context (F : view_t) (rules : list rule).

Definition weekendb (w : weekday) : bool := match w with Sat | Sun => true | _ => false end.

Definition agrees_at (e : env_t) (p : parts_t) : bool :=
  let '(d, w, m, o) := p in
  match F e d w m o with
  | Ok b => Bool.eqb b (if weekendb w then false else negb (existsb (fun r => rule_view r e d w m o) rules))
  | _ => false end.

(** The same, with the rules of the month. *)
Definition agrees_fast (e : env_t) (l1 l2 l3 l4 l5 l6 l7 l8 l9 l10 l11 l12 : list rule) (p : parts_t) : bool :=
  let '(d, w, m, o) := p in
  match F e d w m o with
  | Ok b =>
    if weekendb w then negb b else
    Bool.eqb b (negb (existsb (fun r => rule_view r e d w m o)
      match m with 1 => l1 | 2 => l2 | 3 => l3 | 4 => l4 | 5 => l5 | 6 => l6 | 7 => l7 | 8 => l8 | 9 => l9 | 10 => l10 | 11 => l11 | _ => l12 end))
  | _ => false end.

Definition agrees_year (e : env_t) (l : list parts_t) : bool :=
  let of_month m := filter (fun r => may r e m) rules in
  let l1 := of_month 1 in let l2 := of_month 2 in let l3 := of_month 3 in let l4 := of_month 4 in
  let l5 := of_month 5 in let l6 := of_month 6 in let l7 := of_month 7 in let l8 := of_month 8 in
  let l9 := of_month 9 in let l10 := of_month 10 in let l11 := of_month 11 in let l12 := of_month 12 in
  forallb (agrees_fast e l1 l2 l3 l4 l5 l6 l7 l8 l9 l10 l11 l12) l.

Lemma agrees_year_at d l : In (parts d) l -> agrees_year (year_env (year d)) l = true -> agrees_at (year_env (year d)) (parts d) = true.
Proof.
  intros I H. unfold agrees_year in H. cbv zeta in H. rewrite forallb_forall in H. specialize (H _ I). unfold agrees_fast, agrees_at, parts in *.
  destruct (F (year_env (year d)) (day d) (weekday_of d) (month d) (ordinal d)) as [b| |]; try discriminate H.
  destruct (weekendb (weekday_of d)); [destruct b; [discriminate H|reflexivity]|].
  assert (E : existsb (fun r => rule_view r (year_env (year d)) (day d) (weekday_of d) (month d) (ordinal d)) (filter (fun r => may r (year_env (year d)) (month d)) rules) =
              existsb (fun r => rule_view r (year_env (year d)) (day d) (weekday_of d) (month d) (ordinal d)) rules).
  { apply eq_true_iff_eq. rewrite !existsb_exists. split; intros (r & Ir & Hr); exists r; (split; [|exact Hr]).
    - apply filter_In in Ir. tauto.
    - apply filter_In. split; [exact Ir|]. exact (may_sound _ _ _ _ _ _ (ordinal_month d) Hr). }
  rewrite <- E. clear E I. pose proof (ymd_valid d) as [V _].
  assert (C : month d = 1 \/ month d = 2 \/ month d = 3 \/ month d = 4 \/ month d = 5 \/ month d = 6 \/ month d = 7 \/ month d = 8 \/
              month d = 9 \/ month d = 10 \/ month d = 11 \/ month d = 12) by lia.
  repeat (destruct C as [C|C]; [rewrite C in *; exact H|]). rewrite C in *. exact H.
Qed.

Fixpoint agree_years (k : nat) (y : Z) (w : weekday) : bool :=
  match k with
  | O => true
  | S k =>
    let lp := leap y in let e := year_env y in
    if agrees_year e (the_year lp w)
    then agree_years k (y + 1) (if lp then nextw (nextw w) else nextw w) else false
  end.

Lemma agree_years_day k : forall y w, w = weekday_of (of_ymd y 1 1) -> agree_years k y w = true ->
  forall d, y <= year d < y + Z.of_nat k -> agrees_at (year_env (year d)) (parts d) = true.
Proof.
  induction k as [|k IH]; intros y w W H d D; [exfalso; lia|].
  cbn [agree_years] in H. destruct (agrees_year (year_env y) (the_year (leap y) w)) eqn:Q; [|discriminate H].
  destruct (Z.eq_dec (year d) y) as [Y|Y].
  - rewrite <- Y in Q at 1. apply (agrees_year_at d _) in Q; [exact Q|]. clear Q H. rewrite the_year_days. unfold year_days.
    assert (V1 : valid_ymd y 1 1) by (split; [lia|]; pose proof (mlen_bounds y 1); lia).
    assert (P : (1, w, 1, 1) = parts (of_ymd y 1 1)).
    { unfold parts, ordinal. rewrite day_of_ymd, month_of_ymd, year_of_ymd by exact V1. rewrite W.
      f_equal. change date with Z. ring. }
    assert (L : Z.of_nat (if leap y then 366 else 365)%nat = year_len y)
      by (unfold year_len; destruct (leap y); reflexivity).
    rewrite P, days_from_parts by (intros i I; apply year_in; rewrite <- L; exact I).
    apply in_map. unfold dates.
    assert (J0 : of_ymd y 1 1 <= d).
    { destruct (Z_lt_ge_dec d (of_ymd y 1 1)) as [A|A]; [exfalso|change date with Z in *; lia].
      assert (A' : d <= of_ymd y 1 1 - 1) by (change date with Z in *; lia). apply year_mono in A'.
      pose proof (civil_prev (of_ymd y 1 1)) as C. rewrite (civil_of y 1 1 V1) in C. cbn in C. unfold civil in C.
      assert (year (of_ymd y 1 1 - 1) = y - 1) by congruence. lia. }
    assert (J1 : d < of_ymd (y + 1) 1 1).
    { destruct (Z_lt_ge_dec d (of_ymd (y + 1) 1 1)) as [A|A]; [exact A|exfalso].
      assert (A' : of_ymd (y + 1) 1 1 <= d) by (change date with Z in *; lia). apply year_mono in A'.
      rewrite year_of_ymd in A' by (split; [lia|]; pose proof (mlen_bounds (y + 1) 1); lia). lia. }
    rewrite jan1_next in J1.
    apply in_map_iff. exists (Z.to_nat (d - of_ymd y 1 1)). split; [change date with Z in *; lia|].
    apply in_seq. change date with Z in *. lia.
  - apply (IH (y + 1) (if leap y then nextw (nextw w) else nextw w)); [|exact H|lia].
    rewrite jan1_next, W. unfold year_len. destruct (leap y); rewrite <- !weekday_next; apply wd7; change date with Z in *;
      [replace (of_ymd y 1 1 + 1 + 1 - (of_ymd y 1 1 + 366)) with (-364) by lia
      |replace (of_ymd y 1 1 + 1 - (of_ymd y 1 1 + 365)) with (-364) by lia]; reflexivity.
Qed.

Theorem rules_sound (c : calendar) :
  (forall n, c n = F (year_env (year n)) (day n) (weekday_of n) (month n) (ordinal n)) ->
  forallb rule_ok rules = true -> agree_years 299 1901 Tue = true ->
  forall d, 1901 <= year d <= 2199 ->
  (closed c d <-> (weekday_of d = Sat \/ weekday_of d = Sun) \/ Exists (fun r => falls r d) rules).
Proof.
  intros V K A d D. pose proof (agree_years_day 299 1901 Tue eq_refl A d ltac:(lia)) as G.
  unfold agrees_at, parts in G. unfold closed. rewrite V.
  destruct (F (year_env (year d)) (day d) (weekday_of d) (month d) (ordinal d)) as [b| |]; try discriminate G.
  apply eqb_prop in G. rewrite forallb_forall in K.
  assert (X : existsb (fun r => rule_view r (year_env (year d)) (day d) (weekday_of d) (month d) (ordinal d)) rules = true <->
              Exists (fun r => falls r d) rules).
  { rewrite existsb_exists, Exists_exists. split; intros (r & I & H); exists r; (split; [exact I|]);
      apply (rule_view_falls r d D (K r I)); exact H. }
  rewrite <- X. clear X.
  destruct (weekday_of d) eqn:W; cbn [weekendb] in G; subst b;
    match goal with |- context [existsb ?f ?l] => destruct (existsb f l) end; cbn;
    split; intros H; try reflexivity; try tauto; try (exfalso; intuition congruence); try (left; tauto); try (right; reflexivity);
    try discriminate H.
Qed.
End check.
