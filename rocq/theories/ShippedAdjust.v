(** From the closure certificates to rolling: every shipped calendar opens
    soon, so [adjust] returns and stays near.  Nothing here models code. *)
From Coq Require Import ZArith Bool List Lia.
From Verif Require Import Outcome Loop Date DateFacts Calendar CalendarSpec CalendarFacts AdjustFacts Cal_base
  ShippedFacts Shipped Closure ClosureView Closure1 Closure2 Closure3 Closure4 ClosureIsrael.
From Verif Require Import Cal_russia.
Open Scope Z_scope.

(** The longest run of closed days, rounded up, of each shipped calendar. *)
Definition closure_bound (s : shipped) : nat :=
  match s with
  | Taiwan => 17
  | China => 14
  | Indonesia | Turkey | Russia _ => 13
  | Japan | SouthKorea => 12
  | _ => 11
  end.

Lemma closes_weaken K K' c : (K <= K')%nat -> closes_at_most K c -> closes_at_most K' c.
Proof.
  intros L [U D]. split; intros x X.
  - destruct (U x) as (r & R & O); [lia|]. exists r. split; [lia|exact O].
  - destruct (D x) as (r & R & O); [lia|]. exists r. split; [lia|exact O].
Qed.

Lemma closure_weekends_only : closes_at_most 7 weekends_only.
Proof.
  split; intros x _.
  - destruct (is_weekend x) eqn:W.
    + exists (x + (if weekday_eqb (weekday_of x) Sat then 2 else 1)).
      unfold is_weekend in W. destruct (weekday_of x) eqn:E; try discriminate W; cbn [weekday_eqb].
      * split; [lia|]. unfold opened, weekends_only, is_weekend.
        replace (x + 2) with (x + 1 + 1) by ring. rewrite !weekday_next, E. reflexivity.
      * split; [lia|]. unfold opened, weekends_only, is_weekend. rewrite weekday_next, E. reflexivity.
    + exists x. split; [lia|]. unfold opened, weekends_only. rewrite W. reflexivity.
  - destruct (is_weekend x) eqn:W.
    + exists (x - 2).
      assert (E1 : weekday_of x = nextw (nextw (weekday_of (x - 2)))).
      { rewrite <- !weekday_next. f_equal. ring. }
      unfold is_weekend in W. split; [lia|]. unfold opened, weekends_only, is_weekend.
      destruct (weekday_of x) eqn:E; try discriminate W;
        destruct (weekday_of (x - 2)); try discriminate E1; reflexivity.
    + exists x. split; [lia|]. unfold opened, weekends_only. rewrite W. reflexivity.
Qed.

Lemma shipped_closure s : closes_at_most (closure_bound s) (shipped_calendar s).
Proof.
  destruct s as [ |  | m | m |  | m | m |  |  |  |  |  | m | m |  |  |  |  |  | m | m |  |  | m |  | m |  | m |  |  |  |  |  |  |  |  |  |  |  | m | m]; cbn [closure_bound shipped_calendar].
  - apply (closes_weaken 7); [lia|exact closure_weekends_only].
  - apply (closes_weaken 10); [lia|exact closure_argentina].
  - destruct m as [[| ] | ].
    + apply (closes_weaken 11); [lia|exact closure_australia_Settlement].
    + apply (closes_weaken 11); [lia|exact closure_australia_ASX].
    + apply (closes_weaken 11); [lia|exact closure_australia_Settlement].
  - destruct m as [[| ] | ].
    + apply (closes_weaken 9); [lia|exact closure_austria_Settlement].
    + apply (closes_weaken 10); [lia|exact closure_austria_Exchange].
    + apply (closes_weaken 9); [lia|exact closure_austria_Settlement].
  - apply (closes_weaken 10); [lia|exact closure_botswana].
  - destruct m as [[| ] | ].
    + apply (closes_weaken 9); [lia|exact closure_brazil_Settlement].
    + apply (closes_weaken 10); [lia|exact closure_brazil_Exchange].
    + apply (closes_weaken 9); [lia|exact closure_brazil_Settlement].
  - destruct m as [[| ] | ].
    + apply (closes_weaken 10); [lia|exact closure_canada_Settlement].
    + apply (closes_weaken 10); [lia|exact closure_canada_TSX].
    + apply (closes_weaken 10); [lia|exact closure_canada_Settlement].
  - apply (closes_weaken 10); [lia|exact closure_chile].
  - apply (closes_weaken 14); [lia|exact closure_china].
  - apply (closes_weaken 11); [lia|exact closure_czechrepublic].
  - apply (closes_weaken 11); [lia|exact closure_denmark].
  - apply (closes_weaken 10); [lia|exact closure_finland].
  - destruct m as [[| ] | ].
    + apply (closes_weaken 9); [lia|exact closure_france_Settlement].
    + apply (closes_weaken 10); [lia|exact closure_france_Exchange].
    + apply (closes_weaken 9); [lia|exact closure_france_Settlement].
  - destruct m as [[| | | | ] | ].
    + apply (closes_weaken 10); [lia|exact closure_germany_Settlement].
    + apply (closes_weaken 10); [lia|exact closure_germany_FrankfurtStockExchange].
    + apply (closes_weaken 10); [lia|exact closure_germany_Xetra].
    + apply (closes_weaken 10); [lia|exact closure_germany_Eurex].
    + apply (closes_weaken 10); [lia|exact closure_germany_Euwax].
    + apply (closes_weaken 10); [lia|exact closure_germany_FrankfurtStockExchange].
  - apply (closes_weaken 11); [lia|exact closure_hongkong].
  - apply (closes_weaken 10); [lia|exact closure_hungary].
  - apply (closes_weaken 11); [lia|exact closure_iceland].
  - apply (closes_weaken 10); [lia|exact closure_india].
  - apply (closes_weaken 13); [lia|exact closure_indonesia].
  - destruct m as [[| ] | ].
    + apply (closes_weaken 10); [lia|exact closure_israel_TelAviv].
    + apply (closes_weaken 11); [lia|exact closure_israel_Shir].
    + apply (closes_weaken 11); [lia|exact closure_israel_Shir].
  - destruct m as [[| ] | ].
    + apply (closes_weaken 9); [lia|exact closure_italy_Settlement].
    + apply (closes_weaken 10); [lia|exact closure_italy_Exchange].
    + apply (closes_weaken 9); [lia|exact closure_italy_Settlement].
  - apply (closes_weaken 12); [lia|exact closure_japan].
  - apply (closes_weaken 11); [lia|exact closure_mexico].
  - destruct m as [[| ] | ].
    + apply (closes_weaken 10); [lia|exact closure_newzealand_Wellington].
    + apply (closes_weaken 10); [lia|exact closure_newzealand_Auckland].
    + apply (closes_weaken 10); [lia|exact closure_newzealand_Wellington].
  - apply (closes_weaken 11); [lia|exact closure_norway].
  - destruct m as [[| ] | ].
    + apply (closes_weaken 9); [lia|exact closure_poland_Settlement].
    + apply (closes_weaken 9); [lia|exact closure_poland_WSE].
    + apply (closes_weaken 9); [lia|exact closure_poland_Settlement].
  - apply (closes_weaken 10); [lia|exact closure_romania].
  - destruct m as [[| ] | ].
    + apply (closes_weaken 13); [lia|exact closure_russia_Settlement].
    + apply (closes_weaken 12); [lia|exact closure_russia_Exchange].
    + apply (closes_weaken 13); [lia|exact closure_russia_Settlement].
  - apply (closes_weaken 10); [lia|exact closure_singapore].
  - apply (closes_weaken 11); [lia|exact closure_slovakia].
  - apply (closes_weaken 11); [lia|exact closure_southafrica].
  - apply (closes_weaken 12); [lia|exact closure_southkorea].
  - apply (closes_weaken 10); [lia|exact closure_sweden].
  - apply (closes_weaken 10); [lia|exact closure_switzerland].
  - apply (closes_weaken 17); [lia|exact closure_taiwan].
  - apply (closes_weaken 10); [lia|exact closure_target].
  - apply (closes_weaken 10); [lia|exact closure_thailand].
  - apply (closes_weaken 13); [lia|exact closure_turkey].
  - apply (closes_weaken 9); [lia|exact closure_ukraine].
  - destruct m as [[| | ] | ].
    + apply (closes_weaken 10); [lia|exact closure_unitedkingdom_Settlement].
    + apply (closes_weaken 10); [lia|exact closure_unitedkingdom_Exchange].
    + apply (closes_weaken 10); [lia|exact closure_unitedkingdom_Metals].
    + apply (closes_weaken 10); [lia|exact closure_unitedkingdom_Settlement].
  - destruct m as [[| | | | | | ] | ].
    + apply (closes_weaken 9); [lia|exact closure_unitedstates_Settlement].
    + apply (closes_weaken 9); [lia|exact closure_unitedstates_Libor].
    + apply (closes_weaken 10); [lia|exact closure_unitedstates_NYSE].
    + apply (closes_weaken 9); [lia|exact closure_unitedstates_GovernmentBond].
    + apply (closes_weaken 9); [lia|exact closure_unitedstates_SOFR].
    + apply (closes_weaken 9); [lia|exact closure_unitedstates_NERC].
    + apply (closes_weaken 9); [lia|exact closure_unitedstates_FederalReserve].
    + apply (closes_weaken 9); [lia|exact closure_unitedstates_Settlement].
Qed.

(** Walking outwards finds the nearest open day within the bound. *)
Local Transparent nearest.
Lemma nearest_bounded c d K : (forall x, d - K <= x <= d + K -> total (c x)) ->
  (forall x, d - K <= x <= d + K -> in_range x) -> K <= 100 ->
  (exists r, d <= r <= d + K /\ opened c r) ->
  exists r, nearest c d = Ok (Some r) /\ Z.abs (r - d) <= K.
Proof.
  intros T R K1 (r0 & R0 & O0).
  set (I := fun s : date * date => exists i, 0 <= i <= K /\ s = (d + i, d - i) /\ forall j, 0 <= j < i -> closed c (d + j)).
  set (Q := fun o : outcome (option date) => exists r, o = Ok (Some r) /\ Z.abs (r - d) <= K).
  destruct (loop_ind (nearest_step c) I Q (fun s => K + d - fst s) date_fuel (d, d)) as (o & E & r & -> & Qr).
  - exists 0. split; [lia|]. split; [f_equal; change date with Z; ring|]. intros; lia.
  - cbn [fst]. pose proof fuel_big. change date with Z in *. lia.
  - intros s (i & Hi & -> & _). cbn [fst]. change date with Z in *. lia.
  - intros s s' (i & Hi & -> & C) E. unfold nearest_step in E.
    destruct (T (d + i)) as [a Ea]; [change date with Z in *; lia|].
    destruct (T (d - i)) as [b Eb]; [change date with Z in *; lia|].
    unfold is_holiday, onot, omap in E. rewrite Ea, Eb in E. cbn in E.
    destruct a; cbn in E; [discriminate E|]. destruct b; cbn in E; [discriminate E|].
    assert (NE : i < K).
    { destruct (Z.eq_dec i K) as [->|N]; [|lia]. exfalso.
      destruct (Z.eq_dec r0 (d + K)) as [->|N].
      - unfold opened in O0. congruence.
      - specialize (C (r0 - d) ltac:(change date with Z in *; lia)).
        replace (d + (r0 - d)) with r0 in C by (change date with Z; ring).
        unfold opened, closed in *. congruence. }
    assert (A1 : add_days (d + i) 1 = Ok (d + i + 1)).
    { apply add_days_Ok. split; [reflexivity|]. apply R. change date with Z in *. lia. }
    assert (A2 : add_days (d - i) (-1) = Ok (d - i + -1)).
    { apply add_days_Ok. split; [reflexivity|]. apply R. change date with Z in *. lia. }
    rewrite A1, A2 in E. cbn in E. injection E as <-. split.
    + exists (i + 1). split; [lia|]. split; [f_equal; change date with Z; ring|].
      intros j J. destruct (Z.eq_dec j i) as [->|N]; [exact Ea|apply C; lia].
    + cbn [fst]. change date with Z in *. lia.
  - intros s o (i & Hi & -> & C) E. unfold nearest_step in E.
    destruct (T (d + i)) as [a Ea]; [change date with Z in *; lia|].
    destruct (T (d - i)) as [b Eb]; [change date with Z in *; lia|].
    unfold is_holiday, onot, omap in E. rewrite Ea, Eb in E. cbn in E.
    destruct a; cbn in E; [injection E as <-; exists (d - i); split; [reflexivity|change date with Z in *; lia]|].
    destruct b; cbn in E; [injection E as <-; exists (d + i); split; [reflexivity|change date with Z in *; lia]|].
    exfalso.
    assert (NE : i < K).
    { destruct (Z.eq_dec i K) as [->|N]; [|lia]. exfalso.
      destruct (Z.eq_dec r0 (d + K)) as [->|N].
      - unfold opened in O0. congruence.
      - specialize (C (r0 - d) ltac:(change date with Z in *; lia)).
        replace (d + (r0 - d)) with r0 in C by (change date with Z; ring).
        unfold opened, closed in *. congruence. }
    assert (A1 : add_days (d + i) 1 = Ok (d + i + 1)).
    { apply add_days_Ok. split; [reflexivity|]. apply R. change date with Z in *. lia. }
    assert (A2 : add_days (d - i) (-1) = Ok (d - i + -1)).
    { apply add_days_Ok. split; [reflexivity|]. apply R. change date with Z in *. lia. }
    rewrite A1, A2 in E. discriminate E.
  - exists r. split; [|exact Qr]. exact (f_equal finish E).
Qed.

(** The first open day after [d] exists when some open day does and the
    calendar answers on the way. *)
Lemma first_open_exists c d K : (forall x, d <= x <= d + K -> total (c x)) ->
  (exists r, d <= r <= d + K /\ opened c r) -> exists r, first_open_from c d r /\ r <= d + K.
Proof.
  intros T (r & R & O). revert R O.
  assert (G : forall k, 0 <= k -> forall r, d <= r <= d + K -> r - d <= k -> opened c r -> exists r, first_open_from c d r /\ r <= d + K).
  { intros k Hk. pattern k. apply natlike_ind; [| |exact Hk].
    - intros r' R' L O. exists r'. split; [|lia]. split; [lia|]. split; [exact O|]. intros x X. lia.
    - intros k' Hk' IH r' R' L O.
      assert (D : (exists x, d <= x < r' /\ opened c x) \/ (forall x, d <= x < r' -> closed c x)).
      { assert (Gen : forall n, 0 <= n -> n <= r' - d ->
          (exists x, d <= x < d + n /\ opened c x) \/ (forall x, d <= x < d + n -> closed c x)).
        { intros n Hn. pattern n. apply natlike_ind; [| |exact Hn].
          - intros _. right. intros x X. lia.
          - intros m Hm IHm Lm. destruct IHm as [(x & X & Ox)|C]; [lia| |].
            + left. exists x. split; [lia|exact Ox].
            + destruct (T (d + m)) as [[] E]; [lia| |].
              * left. exists (d + m). split; [lia|exact E].
              * right. intros x X. destruct (Z.eq_dec x (d + m)) as [->|N]; [exact E|apply C; lia]. }
        destruct (Gen (r' - d)) as [(x & X & Ox)|C]; [lia|lia| |].
        - left. exists x. split; [lia|exact Ox].
        - right. intros x X. apply C. lia. }
      destruct D as [(x & X & Ox)|C].
      + apply (IH x); [lia|lia|exact Ox].
      + exists r'. split; [|lia]. split; [lia|]. split; assumption. }
  intros R O. apply (G (r - d)) with r; lia || assumption.
Qed.

Lemma last_open_exists c d K : (forall x, d - K <= x <= d -> total (c x)) ->
  (exists r, d - K <= r <= d /\ opened c r) -> exists r, last_open_upto c d r /\ d - K <= r.
Proof.
  intros T (r & R & O).
  destruct (first_open_exists (fun x => c (- x)) (- d) K) as (r' & (A & B & C) & L).
  - intros x X. apply T. lia.
  - exists (- r). split; [lia|]. unfold opened. rewrite Z.opp_involutive. exact O.
  - exists (- r'). split; [|change date with Z in *; lia]. split; [change date with Z in *; lia|]. split; [exact B|].
    intros x X. specialize (C (- x) ltac:(change date with Z in *; lia)). unfold closed in *. rewrite Z.opp_involutive in C. exact C.
Qed.

Lemma adjust_near c d K b : 0 <= K <= 100 ->
  (forall x, d - K <= x <= d + K -> total (c x)) ->
  (forall x, d - K <= x <= d + K -> in_range x) ->
  (exists r, d <= r <= d + K /\ opened c r) -> (exists r, d - K <= r <= d /\ opened c r) ->
  exists r, adjust c d b = Ok (Some r) /\ Z.abs (r - d) <= K.
Proof.
  intros HK T R U D.
  assert (Rd : in_range d) by (apply R; change date with Z in *; lia).
  destruct (first_open_exists c d K) as (f & F & Lf); [intros; apply T; change date with Z in *; lia|exact U|].
  destruct (last_open_exists c d K) as (p & P & Lp); [intros; apply T; change date with Z in *; lia|exact D|].
  assert (Rf : in_range f) by (apply R; destruct F; change date with Z in *; lia).
  assert (Rp : in_range p) by (apply R; destruct P; change date with Z in *; lia).
  assert (Bf : Z.abs (f - d) <= K) by (destruct F; change date with Z in *; lia).
  assert (Bp : Z.abs (p - d) <= K) by (destruct P; change date with Z in *; lia).
  destruct b.
  - exists f. split; [apply adjust_F; auto|exact Bf].
  - destruct (Z.eq_dec (month f) (month d)) as [M|M].
    + exists f. split; [apply adjust_MF; eauto 10|exact Bf].
    + exists p. split; [apply adjust_MF; eauto 10|exact Bp].
  - assert (M : (month f <> month d \/ (day d <= 15 /\ 15 < day f)) \/ ~ (month f <> month d \/ (day d <= 15 /\ 15 < day f))) by lia.
    destruct M as [M|M].
    + exists p. split; [apply adjust_HM; eauto 10|exact Bp].
    + exists f. split; [apply adjust_HM; eauto 10|exact Bf].
  - exists p. split; [apply adjust_P; auto|exact Bp].
  - destruct (Z.eq_dec (month p) (month d)) as [M|M].
    + exists p. split; [apply adjust_MP; eauto 10|exact Bp].
    + exists f. split; [apply adjust_MP; eauto 10|exact Bf].
  - exists d. split; [reflexivity|]. change date with Z in *. lia.
  - cbn [adjust]. apply nearest_bounded; auto. lia.
Qed.

Lemma shipped_adjust s d b :
  of_ymd 1901 1 1 + Z.of_nat (closure_bound s) <= d <= of_ymd 2199 12 31 - Z.of_nat (closure_bound s) ->
  exists r, adjust (shipped_calendar s) d b = Ok (Some r) /\ Z.abs (r - d) <= Z.of_nat (closure_bound s).
Proof.
  intros D. assert (B : 0 <= Z.of_nat (closure_bound s) <= 100) by (destruct s; cbn; lia).
  destruct (shipped_closure s) as [U L].
  change (of_ymd 1901 1 1) with 693961 in *. change (of_ymd 2199 12 31) with 803168 in *.
  apply adjust_near; [exact B| | | |].
  - intros x X. apply shipped_total, supported_range. change date with Z in *. lia.
  - intros x X. apply in_range_val. change date with Z in *. lia.
  - apply U. change date with Z in *. lia.
  - apply L. change date with Z in *. lia.
Qed.
