(** Property C33: forward points.  [D] is the list of quotes with their
    settlement dates; [sort] and [search] are any sort and binary search. *)
From Coq Require Import ZArith Lia Lra Bool List Reals Permutation.
Import ListNotations.
From Verif Require Import Outcome Ints Date DateFacts Calendar CalendarSpec CalendarFacts Sorting
  Shipped Fx ForwardPoints ForwardPointsFacts.
Open Scope Z_scope.

(** The dated quotes: one per quote, in order, at its settlement date. *)
Theorem C33_dates : forall oc (h : fwd_helper) (c : calendar) (D : list (date * R)),
  dated_quotes oc h c = Ok D <->
  Forall2 (fun q d => settlement_date_with_lag oc (fq_tenor q) (fh_valuation_date h) c (fh_spot_lag h) = Ok (fst d)
                      /\ snd d = fq_value q) (fh_quotes h) D.
Proof. exact dated_quotes_spec. Qed.
Print Assumptions C33_dates.

Theorem C33_quoted : forall sort search oc (h : fwd_helper) (t : date) (c : calendar) (D : list (date * R)) (v : R),
  sorts_by fst sort -> searches_by fst search -> fh_valuation_date h < t ->
  dated_quotes oc h c = Ok D -> (2 <= length D)%nat -> NoDup (map fst D) -> In (t, v) D ->
  get_forward sort search oc h t c = Ok (Some v).
Proof. exact get_forward_quoted. Qed.
Print Assumptions C33_quoted.

(** Strictly between neighbouring quotes: on the straight line, hence between. *)
Theorem C33_between : forall sort search oc (h : fwd_helper) (t : date) (c : calendar) (D : list (date * R)) (s e : date * R),
  sorts_by fst sort -> searches_by fst search -> fh_valuation_date h < t ->
  dated_quotes oc h c = Ok D -> NoDup (map fst D) ->
  In s D -> In e D -> fst s < t < fst e -> (forall q, In q D -> fst q <= fst s \/ fst e <= fst q) ->
  exists v, get_forward sort search oc h t c = Ok (Some v) /\
    ((v - snd s) * IZR (fst e - fst s) = (snd e - snd s) * IZR (t - fst s))%R /\
    (Rmin (snd s) (snd e) <= v <= Rmax (snd s) (snd e))%R.
Proof.
  intros sort search oc h t c D s e Hs Hf Ht HD N Is Ie L M.
  assert (L2 : (2 <= length D)%nat).
  { destruct D as [|x [|y r]]; cbn; try lia; [contradiction|].
    destruct Is as [<-|[]], Ie as [<-|[]]. unfold date in *. lia. }
  destruct (get_forward_cases sort search oc h t c D Hs Hf Ht HD L2) as [(v & E & V)|[E O]].
  - exists v. split; [exact E|]. split; [|exact (points_between D t s e v N Is Ie L M V)].
    assert (V' : points_at D t (snd s + (snd e - snd s) * (IZR (t - fst s) / IZR (fst e - fst s)))%R).
    { right. split; [|exists s, e; auto]. intros q Hq X. destruct (M q Hq); unfold date in *; lia. }
    rewrite (points_at_unique D D t v _ N (fun q => conj (fun x => x) (fun x => x)) V V').
    field. intros X. apply eq_IZR_R0 in X. unfold date in *. lia.
  - exfalso. destruct O as [O|O]; [specialize (O _ Is)|specialize (O _ Ie)]; unfold date in *; lia.
Qed.
Print Assumptions C33_between.

Theorem C33_outside : forall sort search oc (h : fwd_helper) (t : date) (c : calendar) (D : list (date * R)),
  sorts_by fst sort -> searches_by fst search -> dated_quotes oc h c = Ok D ->
  t <= fh_valuation_date h \/ (length D < 2)%nat \/
  (forall q, In q D -> t < fst q) \/ (forall q, In q D -> fst q < t) ->
  get_forward sort search oc h t c = Ok None.
Proof.
  intros sort search oc h t c D Hs Hf HD H.
  destruct (Z.le_gt_cases t (fh_valuation_date h)) as [L|L]; [apply get_forward_early; exact L|].
  destruct (Nat.lt_ge_cases (length D) 2) as [S|S]; [apply get_forward_few with D; assumption|].
  destruct (get_forward_cases sort search oc h t c D Hs Hf ltac:(unfold date in *; lia) HD S) as [(v & E & V)|[E O]]; [|exact E].
  exfalso. apply (out_not_points D t v); [intros ->; cbn in S; lia| |exact V].
  destruct H as [H|[H|H]]; [unfold date in *; lia|lia|exact H].
Qed.
Print Assumptions C33_outside.

(** The order of the quotes does not matter, nor the sorting algorithm. *)
Theorem C33_order : forall sort sort' search search' oc (h h' : fwd_helper) (t : date) (c : calendar) (D : list (date * R)),
  sorts_by fst sort -> sorts_by fst sort' -> searches_by fst search -> searches_by fst search' ->
  fh_valuation_date h' = fh_valuation_date h -> fh_spot_lag h' = fh_spot_lag h ->
  Permutation (fh_quotes h) (fh_quotes h') ->
  dated_quotes oc h c = Ok D -> NoDup (map fst D) ->
  get_forward sort search oc h t c = get_forward sort' search' oc h' t c.
Proof. exact get_forward_order. Qed.
Print Assumptions C33_order.

(** An out-of-range tenor or a calendar failure is an error, never a price. *)
Theorem C33_errors : forall sort search oc (h : fwd_helper) (t : date) (c : calendar),
  fh_valuation_date h < t -> (forall D, dated_quotes oc h c <> Ok D) ->
  forall r, get_forward sort search oc h t c <> Ok r.
Proof.
  intros sort search oc h t c L N r. unfold get_forward. destruct (Z.leb_spec t (fh_valuation_date h)); [unfold date in *; lia|].
  destruct (dated_quotes oc h c) as [D| |]; [destruct (N D eq_refl)|discriminate..].
Qed.
Print Assumptions C33_errors.

Definition C33_helper : fwd_helper :=
  {| fh_valuation_date := of_ymd 2023 10 13; fh_spot_ref := 1%R; fh_spot_lag := 2;
     fh_quotes := [{| fq_tenor := Months 3; fq_value := 30%R |}; {| fq_tenor := SPOT; fq_value := 0%R |};
                   {| fq_tenor := Months 1; fq_value := 10%R |}] |}.
Definition C33_dated : list (date * R) :=
  [(of_ymd 2024 1 16, 30%R); (of_ymd 2023 10 16, 0%R); (of_ymd 2023 11 15, 10%R)].
Example C33_witness :
  sorts_by (@fst Z R) (isort_by fst) /\ searches_by (@fst Z R) (lsearch_by fst) /\
  dated_quotes true C33_helper (shipped_calendar (UnitedStates None)) = Ok C33_dated /\
  NoDup (map fst C33_dated) /\ (2 <= length C33_dated)%nat /\
  fh_valuation_date C33_helper < of_ymd 2023 12 1.
Proof.
  split; [apply isort_sorts|]. split; [apply lsearch_searches|].
  split; [|split; [|split; [cbn; lia|vm_compute; reflexivity]]].
  - apply dated_quotes_spec. unfold C33_helper, C33_dated. cbn [fh_quotes fh_valuation_date fh_spot_lag].
    repeat constructor; cbn [fst fq_tenor]; vm_compute; reflexivity.
  - unfold C33_dated. cbn [map fst]. repeat constructor; cbn [In]; intros H;
      repeat (destruct H as [H|H]; [vm_compute in H; discriminate|]); exact H.
Qed.
