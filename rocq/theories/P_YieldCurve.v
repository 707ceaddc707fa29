(** Properties C38 to C40: the stripped yield curve. *)
From Coq Require Import ZArith Lia Lra Bool List Reals Sorting.Sorted.
Import ListNotations.
From Verif Require Import Outcome Ints Date DateFacts Calendar CalendarSpec CalendarFacts
  YieldCurve YieldCurveSpec YieldCurveFacts.
Open Scope Z_scope.

(** C38 *)
Theorem C38_defined : forall (y : curve) (d : date),
  (exists x, discount y d = Ok x) <-> in_range (d + 1) /\ stripped_curves y <> [].
Proof. exact discount_total. Qed.
Print Assumptions C38_defined.

Theorem C38_positive : forall (y : curve) (d : date) (x : R), discount y d = Ok x -> (0 < x)%R.
Proof. exact discount_pos. Qed.
Print Assumptions C38_positive.

Theorem C38_one : forall (y : curve) (x : R), discount y (c_valuation_date y) = Ok x -> x = 1%R.
Proof. exact discount_valuation. Qed.
Print Assumptions C38_one.

Theorem C38_forward : forall oc (y : curve) (start : date) (tenor : period) (e : date) (f d1 d2 : R),
  add_period oc start tenor = Ok e -> e <> start ->
  forward_rate oc y start tenor = Ok f -> discount y start = Ok d1 -> discount y e = Ok d2 ->
  d2 = (d1 * exp (- f * (IZR (e - start) / 365)))%R.
Proof. exact forward_discount. Qed.
Print Assumptions C38_forward.

Theorem C38_forward_defined : forall oc (y : curve) (start : date) (tenor : period) (e : date),
  add_period oc start tenor = Ok e -> in_range (start + 1) -> in_range (e + 1) -> stripped_curves y <> [] ->
  exists f, forward_rate oc y start tenor = Ok f.
Proof.
  intros oc y start tenor e E R1 R2 N. unfold forward_rate. rewrite E. cbn [obind].
  destruct (proj2 (zero_rate_total y start) (conj R1 N)) as (z1 & ->).
  destruct (proj2 (zero_rate_total y e) (conj R2 N)) as (z2 & ->). cbn. eauto.
Qed.
Print Assumptions C38_forward_defined.

Definition pl (d : date) (z : R) (hid : bool) : pillar :=
  {| first_settle_date := of_ymd 2023 10 13; p_date := d; market_rate := z; p_zero_rate := z; p_discount := 1%R;
     source := SourceOIS; hidden_pillar := hid |}.
Definition two_pillars : curve :=
  {| c_valuation_date := of_ymd 2023 10 13;
     stripped_curves := [pl (of_ymd 2023 11 13) (1 / 100) false; pl (of_ymd 2024 10 14) (3 / 100) false] |}.

Example C38_witness :
  (exists f d1 d2, add_period true (of_ymd 2023 12 1) (Months 3) = Ok (of_ymd 2024 3 1) /\
    of_ymd 2024 3 1 <> of_ymd 2023 12 1 /\
    forward_rate true two_pillars (of_ymd 2023 12 1) (Months 3) = Ok f /\
    discount two_pillars (of_ymd 2023 12 1) = Ok d1 /\ discount two_pillars (of_ymd 2024 3 1) = Ok d2).
Proof.
  assert (A : add_period true (of_ymd 2023 12 1) (Months 3) = Ok (of_ymd 2024 3 1)) by (vm_compute; reflexivity).
  assert (R1 : in_range (of_ymd 2023 12 1 + 1)) by (apply in_range_val; vm_compute; split; discriminate).
  assert (R2 : in_range (of_ymd 2024 3 1 + 1)) by (apply in_range_val; vm_compute; split; discriminate).
  assert (N : stripped_curves two_pillars <> []) by discriminate.
  destruct (C38_forward_defined true two_pillars _ _ _ A R1 R2 N) as (f & F).
  destruct (proj2 (C38_defined two_pillars _) (conj R1 N)) as (d1 & D1).
  destruct (proj2 (C38_defined two_pillars _) (conj R2 N)) as (d2 & D2).
  exists f, d1, d2. split; [exact A|]. split; [intros H; vm_compute in H; discriminate|]. auto.
Qed.

(** C39 *)
Theorem C39_shift : forall (y : curve) (d : date) (bp x : R), ordered_curve (stripped_curves y) ->
  shifted_discount y d bp = Ok x -> discount (raise_curve (bp * (1 / 10000)) y) d = Ok x.
Proof. exact shifted_is_raised. Qed.
Print Assumptions C39_shift.

Theorem C39_defined : forall (y : curve) (d : date) (bp : R),
  (exists x, shifted_discount y d bp = Ok x) <-> (exists x, discount y d = Ok x).
Proof. exact shifted_total. Qed.
Print Assumptions C39_defined.

Theorem C39_zero : forall (y : curve) (d : date) (x : R), shifted_discount y d 0 = Ok x <-> discount y d = Ok x.
Proof. exact shifted_zero. Qed.
Print Assumptions C39_zero.

Lemma two_pillars_ordered : ordered_curve (stripped_curves two_pillars).
Proof.
  split.
  - cbn [two_pillars stripped_curves]. repeat constructor. unfold pl. cbn [p_date]. vm_compute. discriminate.
  - cbn [two_pillars stripped_curves In]. intros a b [<-|[<-|[]]] [<-|[<-|[]]]; unfold pl; cbn [p_date]; intros H;
      try reflexivity; vm_compute in H; discriminate.
Qed.
Example C39_witness :
  ordered_curve (stripped_curves two_pillars) /\ exists x, shifted_discount two_pillars (of_ymd 2024 3 1) 25 = Ok x.
Proof.
  split; [exact two_pillars_ordered|]. apply C39_defined, C38_defined.
  split; [apply in_range_val; vm_compute; split; discriminate|discriminate].
Qed.

(** C40 is false in both halves: the rate at the first of two pillars is not
    that pillar's rate (the look-up is made for the following day), and beyond
    the last pillar the rate of the first pillar is returned. *)
Theorem C40_refuted :
  (exists y p z, ordered_curve (stripped_curves y) /\ In p (stripped_curves y) /\
     (forall q, In q (stripped_curves y) -> visible q) /\
     zero_rate y (p_date p) = Ok z /\ z <> p_zero_rate p) /\
  (exists y d z, ordered_curve (stripped_curves y) /\
     (forall q, In q (stripped_curves y) -> visible q /\ p_date q < d) /\
     zero_rate y d = Ok z /\
     forall last, In last (stripped_curves y) -> (forall q, In q (stripped_curves y) -> p_date q <= p_date last) ->
       z <> p_zero_rate last).
Proof.
  split.
  - exists two_pillars, (pl (of_ymd 2023 11 13) (1 / 100) false).
    destruct (zero_rate_inside two_pillars (of_ymd 2023 11 13) [] (pl (of_ymd 2023 11 13) (1 / 100) false)
                (pl (of_ymd 2023 11 13) (1 / 100) false) (pl (of_ymd 2024 10 14) (3 / 100) false) []) as [_ Z].
    + apply in_range_val. vm_compute. split; discriminate.
    + exact two_pillars_ordered.
    + reflexivity.
    + intros p [<-|[]]. right. unfold pl. cbn [p_date]. vm_compute. reflexivity.
    + left. reflexivity.
    + reflexivity.
    + reflexivity.
    + unfold pl. cbn [p_date]. vm_compute. discriminate.
    + eexists. split; [exact two_pillars_ordered|]. split; [left; reflexivity|].
      split; [intros q [<-|[<-|[]]]; reflexivity|]. split; [exact Z|].
      unfold line_through, pl. cbn [p_zero_rate p_date].
      replace (of_ymd 2023 11 13 + 1 - of_ymd 2023 11 13)%Z with 1%Z by (vm_compute; reflexivity).
      replace (of_ymd 2024 10 14 - of_ymd 2023 11 13)%Z with 336%Z by (vm_compute; reflexivity). lra.
  - exists two_pillars, (of_ymd 2025 1 1).
    eexists. split; [exact two_pillars_ordered|].
    split; [intros q [<-|[<-|[]]]; (split; [reflexivity|unfold pl; cbn [p_date]; vm_compute; reflexivity])|].
    split.
    + apply (zero_rate_beyond_visible two_pillars _ (pl (of_ymd 2023 11 13) (1 / 100) false)
               [pl (of_ymd 2024 10 14) (3 / 100) false]).
      * apply in_range_val. vm_compute. split; discriminate.
      * reflexivity.
      * reflexivity.
      * intros p [<-|[<-|[]]] _; unfold pl; cbn [p_date]; vm_compute; reflexivity.
    + intros last [<-|[<-|[]]] H.
      * specialize (H _ (or_intror (or_introl eq_refl))). unfold pl in H. cbn [p_date] in H. vm_compute in H. destruct H; reflexivity.
      * unfold pl. cbn [p_zero_rate]. lra.
Qed.
Print Assumptions C40_refuted.

(** What is returned.  Write [t = d + 1].  Let [q] be the first visible pillar
    on or after [t].  Without a visible pillar before it, [q]'s rate. *)
Theorem C40_first_partial : forall (y : curve) (d : date) (pre : list pillar) (q : pillar) (post : list pillar),
  in_range (d + 1) -> stripped_curves y = pre ++ q :: post ->
  (forall p, In p pre -> hidden_pillar p = true) -> visible q -> d + 1 <= p_date q ->
  zero_rate y d = Ok (p_zero_rate q).
Proof. exact zero_rate_front. Qed.
Print Assumptions C40_first_partial.

(** With a visible pillar before it, the straight line through [q] and the entry
    [a] just before it, evaluated at [t]. *)
Theorem C40_line_partial : forall (y : curve) (d : date) (pre : list pillar) (v a q : pillar) (post : list pillar),
  in_range (d + 1) -> ordered_curve (stripped_curves y) ->
  stripped_curves y = pre ++ a :: q :: post ->
  (forall p, In p (pre ++ [a]) -> hidden_pillar p = true \/ p_date p < d + 1) ->
  In v (pre ++ [a]) -> visible v -> visible q -> d + 1 <= p_date q ->
  p_date a <> p_date q /\ zero_rate y d = Ok (line_through a q (d + 1)).
Proof. exact zero_rate_inside. Qed.
Print Assumptions C40_line_partial.

(** Hence, when all pillars are visible, the rate lies between the rates of the
    pillars around [t], and a pillar's rate is attained on the day before it. *)
Theorem C40_between_partial : forall (y : curve) (d : date) (pre : list pillar) (a q : pillar) (post : list pillar),
  in_range (d + 1) -> ordered_curve (stripped_curves y) ->
  stripped_curves y = pre ++ a :: q :: post -> (forall p, In p (stripped_curves y) -> visible p) ->
  p_date a < d + 1 <= p_date q ->
  exists z, zero_rate y d = Ok z /\
    (Rmin (p_zero_rate a) (p_zero_rate q) <= z <= Rmax (p_zero_rate a) (p_zero_rate q))%R /\
    (d + 1 = p_date q -> z = p_zero_rate q).
Proof.
  intros y d pre a q post R O E V L.
  assert (Ia : In a (stripped_curves y)) by (rewrite E; apply in_or_app; right; left; reflexivity).
  assert (Iq : In q (stripped_curves y)) by (rewrite E; apply in_or_app; right; right; left; reflexivity).
  destruct (zero_rate_inside y d pre a a q post R O E) as [_ Z].
  - intros p Hp. right. destruct O as [S _]. rewrite E in S.
    apply in_app_or in Hp. destruct Hp as [Hp|[<-|[]]]; [|unfold date in *; lia].
    assert (p_date p <= p_date a); [|unfold date in *; lia].
    clear - S Hp. induction pre as [|x pre IH]; [contradiction|]. inversion S as [|? ? S' F]; subst.
    destruct Hp as [->|Hp]; [|apply IH; assumption]. rewrite Forall_forall in F. apply F.
    apply in_or_app. right. left. reflexivity.
  - apply in_or_app. right. left. reflexivity.
  - apply V. exact Ia.
  - apply V. exact Iq.
  - apply L.
  - eexists. split; [exact Z|]. split; [apply line_between; unfold date in *; lia|].
    intros X. unfold line_through. rewrite X.
    assert (IZR (p_date q - p_date a) <> 0)%R by (intros H; apply eq_IZR_R0 in H; unfold date in *; lia). field. assumption.
Qed.
Print Assumptions C40_between_partial.

(** Beyond the last visible pillar: the first entry's rate when that entry is
    visible, otherwise the straight line through the last entry and the first. *)
Theorem C40_beyond_partial : forall (y : curve) (d : date) (h : pillar) (rest : list pillar),
  in_range (d + 1) -> stripped_curves y = h :: rest ->
  (forall p, In p (h :: rest) -> visible p -> p_date p < d + 1) ->
  (visible h -> zero_rate y d = Ok (p_zero_rate h)) /\
  (forall v, hidden_pillar h = true -> ordered_curve (stripped_curves y) -> In v rest -> visible v ->
     zero_rate y d = Ok (line_through (last rest h) h (d + 1))).
Proof.
  intros y d h rest R E H. split.
  - intros V. exact (zero_rate_beyond_visible y d h rest R E V H).
  - intros v Hh O Iv Vv. exact (zero_rate_beyond_hidden y d h rest v R E O Hh Iv Vv H).
Qed.
Print Assumptions C40_beyond_partial.

Example C40_witness :
  in_range (of_ymd 2024 3 1 + 1) /\ ordered_curve (stripped_curves two_pillars) /\
  (forall p, In p (stripped_curves two_pillars) -> visible p) /\
  stripped_curves two_pillars = [] ++ pl (of_ymd 2023 11 13) (1 / 100) false :: pl (of_ymd 2024 10 14) (3 / 100) false :: [] /\
  of_ymd 2023 11 13 < of_ymd 2024 3 1 + 1 <= of_ymd 2024 10 14 /\
  (forall p, In p (stripped_curves two_pillars) -> visible p -> p_date p < of_ymd 2025 1 1 + 1).
Proof.
  split; [apply in_range_val; vm_compute; split; discriminate|]. split; [exact two_pillars_ordered|].
  split; [intros q [<-|[<-|[]]]; reflexivity|]. split; [reflexivity|].
  split; [vm_compute; split; [reflexivity|discriminate]|].
  intros p [<-|[<-|[]]] _; unfold pl; cbn [p_date]; vm_compute; reflexivity.
Qed.
