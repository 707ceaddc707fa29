(** Facts about the shipped calendars: they answer on every supported year and
    close at weekends. *)
From Coq Require Import ZArith Bool List Lia.
From Coq Require Import ZifyBool.
Import ListNotations.
From Verif Require Import Outcome Date DateFacts Calendar CalendarSpec CalendarFacts PeriodFacts Cal_base Shipped.
From Verif Require Import Cal_argentina Cal_australia Cal_austria Cal_botswana Cal_brazil
  Cal_canada Cal_chile Cal_china Cal_czechrepublic Cal_denmark Cal_finland Cal_france Cal_germany
  Cal_hongkong Cal_hungary Cal_iceland Cal_india Cal_indonesia Cal_israel Cal_italy Cal_japan
  Cal_mexico Cal_newzealand Cal_norway Cal_poland Cal_romania Cal_russia Cal_singapore
  Cal_slovakia Cal_southafrica Cal_southkorea Cal_sweden Cal_switzerland Cal_taiwan Cal_target
  Cal_thailand Cal_turkey Cal_ukraine Cal_unitedkingdom Cal_unitedstates.
Open Scope Z_scope.

Definition total {A} (x : outcome A) : Prop := exists a, x = Ok a.

Lemma total_Ok {A} (a : A) : total (Ok a).
Proof. eexists; reflexivity. Qed.
Lemma total_bind {A B} (x : outcome A) (f : A -> outcome B) :
  total x -> (forall a, x = Ok a -> total (f a)) -> total (obind x f).
Proof. intros [a ->] H. simpl. auto. Qed.
Lemma total_if {A} (b : bool) (x y : outcome A) :
  (b = true -> total x) -> (b = false -> total y) -> total (if b then x else y).
Proof. destruct b; auto. Qed.
Lemma total_oor x y : total x -> total y -> total (oor x y).
Proof. intros [a ->] H. destruct a; simpl; auto using total_Ok. Qed.
Lemma total_oand x y : total x -> (x = Ok true -> total y) -> total (oand x y).
Proof. intros [a ->] H. destruct a; simpl; auto using total_Ok. Qed.
Lemma total_onot x : total x -> total (onot x).
Proof. intros [a ->]. apply total_Ok. Qed.
Lemma total_oany_nil : total (oany []).
Proof. apply total_Ok. Qed.
Lemma total_oany_cons x l : total x -> total (oany l) -> total (oany (x :: l)).
Proof. apply total_oor. Qed.
Lemma total_easter y : supported y -> total (easter_monday y).
Proof. intros H. destruct (easter_Ok y H) as (em & -> & _). apply total_Ok. Qed.
Lemma total_orthodox y : supported y -> total (orthodox_easter_monday y).
Proof. intros H. destruct (orthodox_Ok y H) as (em & -> & _). apply total_Ok. Qed.
Lemma supported_range d : supported (year d) <-> 693961 <= d <= 803168.
Proof.
  assert (A : of_ymd 1901 1 1 = 693961) by reflexivity.
  assert (B : of_ymd 2199 12 31 = 803168) by reflexivity.
  assert (A' : of_ymd 1900 12 31 = 693960) by reflexivity.
  assert (B' : of_ymd 2200 1 1 = 803169) by reflexivity.
  assert (VA : year 693961 = 1901) by (rewrite <- A; apply year_of_ymd, valid_ymdb_spec; reflexivity).
  assert (VB : year 803168 = 2199) by (rewrite <- B; apply year_of_ymd, valid_ymdb_spec; reflexivity).
  assert (VA' : year 693960 = 1900) by (rewrite <- A'; apply year_of_ymd, valid_ymdb_spec; reflexivity).
  assert (VB' : year 803169 = 2200) by (rewrite <- B'; apply year_of_ymd, valid_ymdb_spec; reflexivity).
  clear A B A' B'.
  unfold supported. split; intros H.
  - destruct (Z_le_gt_dec 693961 d) as [L|L].
    + split; [exact L|]. destruct (Z_le_gt_dec d 803168) as [M|M]; [exact M|].
      pose proof (year_mono 803169 d ltac:(lia)). lia.
    + pose proof (year_mono d 693960 ltac:(lia)). lia.
  - pose proof (year_mono 693961 d ltac:(lia)). pose proof (year_mono d 803168 ltac:(lia)). lia.
Qed.

Lemma supported_in_range d k : supported (year d) -> -400 <= k <= 400 -> in_range (d + k).
Proof. intros H K. apply supported_range in H. apply in_range_val. change date with Z in *. lia. Qed.

Lemma total_add_days d k : supported (year d) -> -400 <= k <= 400 -> total (add_days d k).
Proof.
  intros H K. exists (d + k). apply add_days_Ok. split; [reflexivity|]. now apply supported_in_range.
Qed.

Lemma total_chile d : supported (year d) -> total (chile_is_aboriginal_people_day d).
Proof.
  intros H. unfold chile_is_aboriginal_people_day.
  apply total_oand; [apply total_Ok|]. intros E. injection E as E.
  apply andb_true_iff in E. destruct E as [_ E]. apply Z.leb_le in E.
  apply total_bind; [|intros; apply total_Ok].
  assert (L : length chile_ABORIGINAL_PEOPLE_DAY = 179%nat) by reflexivity.
  unfold supported in H. rewrite table_index_Ok by lia. apply total_Ok.
Qed.

(** Syntax-directed search; no step backtracks. *)
Ltac opentot :=
  lazymatch goal with
  | |- total (Ok _) => apply total_Ok
  | |- total (easter_monday _) => apply total_easter; assumption
  | |- total (orthodox_easter_monday _) => apply total_orthodox; assumption
  | |- total (chile_is_aboriginal_people_day _) => apply total_chile; assumption
  | |- total (add_days _ _) => apply total_add_days; [assumption | lia]
  | |- total (oany []) => apply total_oany_nil
  | |- total (oany (_ :: _)) => apply total_oany_cons; opentot
  | |- total (oand _ _) => apply total_oand; [opentot | intros _; opentot]
  | |- total (onot _) => apply total_onot; opentot
  | |- total (oor _ _) => apply total_oor; opentot
  | |- total (obind _ _) => apply total_bind; [opentot | intros ? _; opentot]
  | |- total (if _ then _ else _) => apply total_if; intros _; opentot
  | |- total (match ?m with Some _ => _ | None => _ end) => destruct m as [[]|]; opentot
  | |- total (?f _ _) => unfold f; cbv zeta; opentot
  | |- total (?f _) => unfold f; cbv zeta; opentot
  end.

Lemma shipped_total s d : supported (year d) -> total (shipped_calendar s d).
Proof.
  intros H. destruct s; cbn [shipped_calendar]; opentot.
Qed.

Ltac unfold_cal :=
  repeat match goal with
  | |- (match ?m with Some _ => _ | None => _ end) = Ok _ => destruct m as [[]|]
  | |- Ok (match ?m with Some _ => _ | None => _ end) = Ok _ => destruct m as [[]|]
  | |- ?f _ _ = Ok _ => unfold f; cbv zeta
  | |- ?f _ = Ok _ => unfold f; cbv zeta
  end.

Lemma shipped_weekend s d : supported (year d) -> is_weekend d = true ->
  (forall m, s <> Russia m) -> shipped_calendar s d = Ok false.
Proof.
  intros H W NR. destruct (total_easter _ H) as [em E]. destruct (total_orthodox _ H) as [om O].
  assert (NM : weekday_eqb (weekday_of d) Mon = false /\ weekday_eqb (weekday_of d) Fri = false).
  { unfold is_weekend in W. destruct (weekday_of d); try discriminate W; split; reflexivity. }
  destruct NM as [NM NF].
  destruct s; cbn [shipped_calendar]; try (exfalso; eapply NR; reflexivity).
  all: try (unfold_cal; rewrite ?E, ?O; cbn [obind oany oor oand onot omap]; rewrite ?W;
            cbn [orb negb]; reflexivity).
  all: match goal with |- ?f ?m _ = _ => unfold f; destruct m as [[]|] end.
  all: unfold australia_settlement_is_business_day, australia_asx_is_business_day, australia_shared_holiday,
    canada_settlement_is_business_day, canada_tsx_is_business_day, canada_shared_holiday,
    germany_settlement_is_business_day, germany_eurex_is_business_day, germany_euwax_is_business_day,
    germany_frankfurt_stock_exchange_is_business_day,
    newzealand_wellington_is_business_day, newzealand_auckland_is_business_day, newzealand_common_is_business_day,
    poland_wse_is_business_day, poland_settlement_is_business_day,
    unitedstates_libor_is_business_day, unitedstates_settlement_is_business_day,
    unitedstates_sofr_is_business_day, unitedstates_government_bond_is_business_day,
    unitedstates_nyse_is_business_day, unitedstates_nerc_is_business_day,
    unitedstates_federal_reserve_is_holiday; cbv zeta;
    rewrite ?E, ?NM, ?NF, ?andb_false_r; cbn [obind oany oor oand onot omap]; rewrite ?W;
    cbn [orb andb negb obind oany oor oand onot omap]; try reflexivity.
  all: match goal with |- (if ?b then _ else _) = _ => destruct b; reflexivity end.
Qed.

(** The Russian exchange's make-up working days, as the calendar declares them. *)
Definition russian_makeup_days : list (Z * Z * Z) :=
  [(2012, 3, 11); (2012, 4, 28); (2012, 5, 5); (2012, 5, 12); (2012, 6, 9); (2016, 2, 20);
   (2018, 4, 28); (2018, 6, 9); (2018, 12, 29)].

Lemma russia_weekend m d : is_weekend d = true ->
  shipped_calendar (Russia m) d =
  Ok (match m with Some russia_Exchange =>
        existsb (fun t => match t with (y, mo, da) => d =? of_ymd y mo da end) russian_makeup_days
      | _ => false end).
Proof.
  intros W. cbn [shipped_calendar]. unfold russia_is_business_day. f_equal.
  assert (S : russia_settlement_is_business_day d = false).
  { unfold russia_settlement_is_business_day; cbv zeta; rewrite W; reflexivity. }
  destruct m as [[]|]; try exact S.
  unfold russia_exchange_is_business_day; cbv zeta; rewrite W; cbn [orb].
  assert (K : russia_is_working_weekend d =
     existsb (fun t => match t with (y, mo, da) => d =? of_ymd y mo da end) russian_makeup_days).
  2: rewrite K; destruct existsb; reflexivity.
  assert (Q : forall y m da, valid_ymdb y m da = true ->
     (d =? of_ymd y m da) = (year d =? y) && ((month d =? m) && (day d =? da))).
  { intros y m da V. apply valid_ymdb_spec in V.
    apply eq_true_iff_eq. rewrite !andb_true_iff, !Z.eqb_eq. split.
    - intros ->. rewrite year_of_ymd, month_of_ymd, day_of_ymd by exact V. auto.
    - intros (<- & <- & <-). symmetry. apply of_ymd_ymd. }
  unfold russian_makeup_days. cbn [existsb].
  rewrite !Q by reflexivity.
  unfold russia_is_working_weekend. cbv zeta.
  destruct (Z.eqb_spec (year d) 2012) as [->|]; [cbn [andb orb Z.eqb Pos.eqb]; rewrite ?orb_false_r, ?orb_assoc; reflexivity|].
  destruct (Z.eqb_spec (year d) 2016) as [->|]; [cbn [andb orb Z.eqb Pos.eqb]; rewrite ?orb_false_r, ?orb_assoc; reflexivity|].
  destruct (Z.eqb_spec (year d) 2018) as [_|_]; [cbn [andb orb Z.eqb Pos.eqb]; rewrite ?orb_false_r, ?orb_assoc; reflexivity|].
  reflexivity.
Qed.
