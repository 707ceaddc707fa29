(** C47: the Monte Carlo runner records every observation date. *)
From Coq Require Import ZArith Lia Bool List Reals Lra Permutation Sorting.Sorted.
From Flocq Require Import Core.
Import ListNotations.
From Coq Require Import ZifyBool.
From Verif Require Import Outcome Date DateFacts Sorting CalendarFacts F64 DayCount DayCountFacts P_DayCount Simulation SimulationFacts.
Open Scope R_scope.
Local Ltac lia := unfold date in *; Lia.lia.

(** Time passes: the day counter has a value for every date up to the last observation,
    and a later date has a larger one. *)
Definition time_passes (yf : date -> date -> outcome R) (time : date -> R) (v : date) (obs : list date) : Prop :=
  (forall d, (v <= d)%Z -> (exists o, In o obs /\ (d <= o)%Z) -> yf v d = Ok (time d)) /\
  (forall a b, (v <= a < b)%Z -> (exists o, In o obs /\ (b <= o)%Z) -> time a < time b).

Lemma Ok_real (x y : R) : Ok x = Ok y -> x = y.
Proof. intros H. apply (f_equal (fun o => match o with Ok z => z | _ => 0 end)) in H. exact H. Qed.

Lemma forall2_length {A B} (Q : A -> B -> Prop) l l' : Forall2 Q l l' -> length l = length l'.
Proof. induction 1; cbn; congruence. Qed.

(** Where time passes, every path is a trajectory of the model, and the states it was
    recorded with are those at the observation dates, one for each, in order. *)
Lemma complete sort search (HS : sorts_by (fun d => d) sort) (HF : searches_by (fun d => d) search) {Md St : Type}
  (init : Md -> St) (step : Md -> St -> R -> R -> outcome (Md * St)) yf time m v obs n stp m' p :
  time_passes yf time v obs -> simulate_at_dates sort search init step yf m v obs n stp = Ok (m', p) ->
  Permutation obs (observation_dates p) /\ StronglySorted Z.le (observation_dates p) /\ length (paths p) = n /\
  exists ds, StronglySorted Z.lt (v :: ds) /\ (forall a b, consecutive a b (v :: ds) -> (a < b <= a + stp)%Z) /\
    (forall o, In o obs -> In o ds) /\ (forall d, In d ds -> exists o, In o obs /\ (d <= o)%Z) /\
    chained (fun m path m1 => exists tr, evolution step time m (init m) v tr m1 /\ map fst tr = ds /\
      Forall2 (fun d s => In (d, s) tr) (observation_dates p) path) m (paths p) m'.
Proof.
  intros [T1 T2] H. destruct (simulate_spec sort HS search HF init step yf m v obs n stp m' p H) as (N & S & NE & V & _ & EO & L & ds & time' & HG & T & C).
  assert (V' : forall d, In d (sort obs) -> (v < d)%Z) by (intros d Hd; apply V, (sort_in sort HS), Hd).
  destruct (grid_spec sort HS v (sort obs) stp (v :: ds) S (sort_sorted sort HS obs) V' HG) as (SG & _ & GO & GL & _ & GC).
  assert (GU : forall d, In d (v :: ds) -> (v <= d)%Z /\ exists o, In o obs /\ (d <= o)%Z).
  { intros d Hd. split.
    - destruct Hd as [<-|Hd]; [lia|]. inversion SG as [|? ? _ F]; subst. rewrite Forall_forall in F. specialize (F d Hd). lia.
    - destruct (GL d Hd) as (o & Io & Lo). exists o. split; [apply (sort_in sort HS), Io|exact Lo]. }
  assert (TE : forall d, In d (v :: ds) -> time' d = time d).
  { intros d Hd. destruct (GU d Hd) as [A B]. pose proof (T1 d A B) as E. destruct (T d Hd) as [E'|[(e & E') _]]; rewrite E in E'; [injection E' as ->; reflexivity|discriminate]. }
  rewrite EO. split; [apply HS|]. split; [apply (sort_sorted sort HS)|]. split; [exact L|].
  exists ds. split; [exact SG|]. split; [exact GC|].
  split. { intros o Io. apply (sort_in sort HS) in Io. destruct (GO o Io) as [<-|I]; [specialize (V' v Io); lia|exact I]. }
  split; [intros d Hd; apply GU; right; exact Hd|].
  revert C. apply chained_mono. intros m0 path m1 (tr & EV & M & k & K & F & P1 & P2). exists tr.
  assert (EV' : evolution step time m0 (init m0) v tr m1).
  { clear - EV TE M. assert (TE' : forall d, In d (v :: map fst tr) -> time' d = time d) by (rewrite M; exact TE). clear TE M.
    induction EV as [m s d0|m s d0 d ma s1 tr mb Lt HSt EV IH|m s d0 d tr mb Le EV IH]; [constructor| |].
    - cbn [map fst] in TE'. rewrite (TE' d0), (TE' d) in * by (cbn; auto). apply ev_step with ma; [exact Lt|exact HSt|]. apply IH. intros x Hx. apply TE'. right. exact Hx.
    - cbn [map fst] in TE'. rewrite (TE' d0), (TE' d) in * by (cbn; auto). apply ev_skip; [exact Le|]. apply IH. intros x Hx. apply TE'. right. exact Hx. }
  split; [exact EV'|]. split; [exact M|].
  assert (KE : k = length (sort obs)).
  { destruct (Nat.lt_ge_cases k (length (sort obs))) as [KL|KL]; [|lia]. exfalso. destruct (P2 KL) as (q & d & E1 & E2 & E3).
    pose proof E2 as (l1 & l2 & E4). assert (Iq : In q (v :: ds)) by (rewrite E4; apply in_app_iff; right; left; reflexivity).
    assert (Id : In d (v :: ds)) by (rewrite E4; apply in_app_iff; right; right; left; reflexivity).
    rewrite (TE q Iq), (TE d Id) in E3. pose proof (GC q d E2). destruct (GU q Iq) as [A _]. destruct (GU d Id) as [_ B]. pose proof (T2 q d ltac:(lia) B). lra. }
  rewrite KE in F. rewrite firstn_all in F. exact F.
Qed.

(** Partial: the claim holds where time passes between any two dates; without that
    observations are lost ([C47_refuted], [C47_lost]). *)
Theorem C47_complete_partial : forall sort search, sorts_by (fun d => d) sort -> searches_by (fun d => d) search ->
  forall (Md St : Type) (init : Md -> St) (step : Md -> St -> R -> R -> outcome (Md * St)) yf time m v obs n stp m' p,
  time_passes yf time v obs -> simulate_at_dates sort search init step yf m v obs n stp = Ok (m', p) ->
  Permutation obs (observation_dates p) /\ StronglySorted Z.le (observation_dates p) /\ length (paths p) = n /\
  exists ds, StronglySorted Z.lt (v :: ds) /\ (forall a b, consecutive a b (v :: ds) -> (a < b <= a + stp)%Z) /\
    (forall o, In o obs -> In o ds) /\ (forall d, In d ds -> exists o, In o obs /\ (d <= o)%Z) /\
    chained (fun m path m1 => exists tr, evolution step time m (init m) v tr m1 /\ map fst tr = ds /\
      Forall2 (fun d s => In (d, s) tr) (observation_dates p) path) m (paths p) m'.
Proof. intros sort search HS HF Md St init step yf time m v obs n stp m' p T H. eapply complete; eassumption. Qed.
Print Assumptions C47_complete_partial.

(** [states_at] then returns the states of the paths at that date, and nothing for a date
    that was not observed. *)
Theorem C47_states_at_partial : forall sort search, sorts_by (fun d => d) sort -> searches_by (fun d => d) search ->
  forall (Md St : Type) (init : Md -> St) (step : Md -> St -> R -> R -> outcome (Md * St)) yf time m v obs n stp m' p,
  time_passes yf time v obs -> simulate_at_dates sort search init step yf m v obs n stp = Ok (m', p) ->
  forall d, (In d obs -> exists ss, states_at search p d = Ok (Some ss) /\ length ss = n /\
      chained (fun m s m1 => exists tr, evolution step time m (init m) v tr m1 /\ In (d, s) tr) m ss m' /\
      forall g, sample search p d g = Ok (Some (map g ss))) /\
    (~ In d obs -> states_at search p d = Ok None /\ forall g, sample search p d g = Ok None).
Proof.
  intros sort search HS HF Md St init step yf time m v obs n stp m' p T H d.
  destruct (complete sort search HS HF init step yf time m v obs n stp m' p T H) as (P & S & L & ds & _ & _ & _ & _ & C). split.
  - intros I. apply (Permutation_in _ P) in I. destruct (search_found search HF _ _ S I) as (i & E & N).
    assert (X : exists ss, index_all i (paths p) = Ok ss /\ length ss = length (paths p) /\
      chained (fun m s m1 => exists tr, evolution step time m (init m) v tr m1 /\ In (d, s) tr) m ss m').
    { clear - C N. induction C as [m|m a m1 r m2 HP C IH]; [exists []; cbn; repeat split; constructor|].
      destruct HP as (tr & EV & _ & F). destruct IH as (ss & E1 & E2 & E3). cbn [index_all].
      assert (G : exists s, nth_error a i = Some s /\ In (d, s) tr).
      { clear - F N. revert i N. induction F as [|d' s l l' HI F IH]; intros i N; [destruct i; discriminate|]. destruct i as [|i]; [cbn in *; injection N as ->; eauto|]. cbn in *. apply IH, N. }
      destruct G as (s & G1 & G2). rewrite G1, E1. cbn [obind]. exists (s :: ss). split; [reflexivity|]. split; [cbn; rewrite E2; reflexivity|]. apply ch_cons with m1; [eauto|exact E3]. }
    destruct X as (ss & X1 & X2 & X3). exists ss. unfold states_at, sample. rewrite E, X1. cbn [obind]. split; [reflexivity|]. split; [lia|]. split; [exact X3|reflexivity].
  - intros I. assert (I' : ~ In d (observation_dates p)) by (intros X; apply I, (Permutation_in _ (Permutation_sym P)), X).
    destruct (search_missing search HF _ _ S I') as (i & E). unfold states_at, sample. rewrite E. split; reflexivity.
Qed.
Print Assumptions C47_states_at_partial.

(** In general a path has the states of the observations before the first at which the
    year fraction does not exceed that of the grid date before it; that one and all later
    ones are missing. *)
Theorem C47_lost : forall sort search, sorts_by (fun d => d) sort -> searches_by (fun d => d) search ->
  forall (Md St : Type) (init : Md -> St) (step : Md -> St -> R -> R -> outcome (Md * St)) yf m v obs n stp m' p,
  simulate_at_dates sort search init step yf m v obs n stp = Ok (m', p) ->
  exists ds time, (forall d, In d (v :: ds) -> yf v d = Ok (time d) \/ (exists e, yf v d = Err e) /\ time d = 0) /\
    StronglySorted Z.lt (v :: ds) /\ (forall a b, consecutive a b (v :: ds) -> (a < b <= a + stp)%Z) /\ (forall o, In o obs -> In o ds) /\
    forall path, In path (paths p) -> exists k, length path = k /\
      (forall d, In d (firstn k (observation_dates p)) -> exists q, consecutive q d (v :: ds) /\ time q < time d) /\
      (k = length obs \/ exists q d, nth_error (observation_dates p) k = Some d /\ consecutive q d (v :: ds) /\ time d <= time q).
Proof.
  intros sort search HS HF Md St init step yf m v obs n stp m' p H.
  destruct (simulate_spec sort HS search HF init step yf m v obs n stp m' p H) as (N & S & NE & V & _ & EO & L & ds & time & HG & T & C).
  assert (V' : forall d, In d (sort obs) -> (v < d)%Z) by (intros d Hd; apply V, (sort_in sort HS), Hd).
  destruct (grid_spec sort HS v (sort obs) stp (v :: ds) S (sort_sorted sort HS obs) V' HG) as (SG & _ & GO & GL & _ & GC).
  exists ds, time. split; [exact T|]. split; [exact SG|]. split; [exact GC|].
  split. { intros o Io. apply (sort_in sort HS) in Io. destruct (GO o Io) as [<-|I]; [specialize (V' v Io); lia|exact I]. }
  intros path I. destruct (chained_in _ _ _ _ _ C I) as (m1 & m2 & tr & EV & M & k & K & F & P1 & P2). rewrite EO. exists k.
  assert (LP : length (firstn k (sort obs)) = length path) by (apply (forall2_length _ _ _ F)). rewrite firstn_length_le in LP by exact K.
  split; [lia|]. split; [exact P1|]. destruct (Nat.lt_ge_cases k (length (sort obs))) as [KL|KL]; [right; apply P2, KL|left].
  destruct (HS obs) as [PM _]. apply Permutation_length in PM. lia.
Qed.
Print Assumptions C47_lost.

(** The run fails only on its assertions, if a step or the day counter panics, or if the
    grid would leave the calendar. *)
Theorem C47_total : forall sort search, sorts_by (fun d => d) sort -> searches_by (fun d => d) search ->
  forall (Md St : Type) (init : Md -> St) (step : Md -> St -> R -> R -> outcome (Md * St)) yf m v obs n stp,
  (forall m s t dt, 0 < dt -> exists r, step m s t dt = Ok r) -> (forall d p, yf v d <> Panic p) -> in_range v ->
  (forall d, In d obs -> in_range (d + stp - 1)%Z) ->
  ((exists r, simulate_at_dates sort search init step yf m v obs n stp = Ok r) <->
   (0 < n)%nat /\ (0 < stp)%Z /\ obs <> [] /\ forall d, In d obs -> (v < d)%Z) /\
  (~ ((0 < n)%nat /\ (0 < stp)%Z /\ obs <> [] /\ forall d, In d obs -> (v < d)%Z) ->
   simulate_at_dates sort search init step yf m v obs n stp = Panic PAssert).
Proof.
  intros sort search HS HF Md St init step yf m v obs n stp OKS OKY RV RO.
  assert (A : (0 < n)%nat /\ (0 < stp)%Z /\ obs <> [] /\ (forall d, In d obs -> (v < d)%Z) -> exists r, simulate_at_dates sort search init step yf m v obs n stp = Ok r).
  { intros (N & S & NE & V). unfold simulate_at_dates. destruct (Nat.eqb_spec n 0) as [|_]; [lia|]. destruct (Z.leb_spec stp 0) as [|_]; [lia|].
    destruct obs as [|o0 obs0] eqn:EO; [congruence|]. rewrite <- EO in *.
    match goal with |- context [if negb ?b then _ else _] => assert (FA : b = true) by (apply forallb_forall; intros d Hd; specialize (V d Hd); lia); rewrite FA end. cbn [negb]. cbv zeta.
    assert (V' : forall d, In d (sort obs) -> (v < d)%Z) by (intros d Hd; apply V, (sort_in sort HS), Hd).
    destruct (grid_total sort v (sort obs) stp S) as (grid & HG).
    - intros E. destruct (HS obs) as [P _]. rewrite E in P. apply Permutation_sym, Permutation_nil in P. congruence.
    - apply (sort_sorted sort HS).
    - exact RV.
    - intros d Hd. pose proof (V' d Hd). assert (Hd' : In d obs) by (apply (sort_in sort HS), Hd). clear Hd. rename Hd' into Hd. pose proof (RO d Hd) as R. split; [|exact R].
      apply (proj1 (in_range_val _)) in R. apply (proj1 (in_range_val _)) in RV. apply in_range_val. lia.
    - rewrite HG. cbn [obind]. destruct (grid_spec sort HS v (sort obs) stp grid S (sort_sorted sort HS obs) V' HG) as (SG & (ds & ->) & GO & _).
      destruct (indices_total search HF (v :: ds) (sort obs) SG GO) as (is & HI). match goal with |- context [find_indices ?a ?b ?c] => replace (find_indices a b c) with (Ok (A := list nat) is) by (symmetry; exact HI) end. cbn [obind].
      destruct (times_total yf v (v :: ds)) as (ys & HY); [intros d p _; apply OKY|]. match goal with |- context [year_fractions ?a ?b ?c] => replace (year_fractions a b c) with (Ok (A := list R) ys) by (symmetry; exact HY) end. cbn [obind]. destruct (times_spec yf v _ _ HY) as (time & -> & _).
      assert (W : forall k m, exists r, walks init step k (map time (v :: ds)) m is = Ok r).
      { induction k as [|k IH]; intros m0; cbn [walks map]; [eauto|]. destruct (walk_total step time OKS ds 1 v m0 (init m0) is) as ([m1 q] & ->). cbn [obind].
        destruct (IH m1) as ([m2 ps] & E). cbn [map] in E. rewrite E. cbn [obind]. eauto. }
      destruct (W n m) as ([m1 ps] & ->). cbn [obind]. eauto. }
  split; [split; [|exact A]|].
  - intros ([m' p] & H). destruct (simulate_spec sort HS search HF init step yf m v obs n stp m' p H) as (N & S & NE & V & _). auto.
  - intros NO. unfold simulate_at_dates. destruct (Nat.eqb_spec n 0) as [|N]; [reflexivity|]. destruct (Z.leb_spec stp 0) as [|S]; [reflexivity|].
    destruct obs as [|o0 obs0] eqn:EO; [reflexivity|]. rewrite <- EO in *. match goal with |- context [if negb ?b then _ else _] => destruct b eqn:FA; [|reflexivity] end.
    exfalso. apply NO. split; [lia|]. split; [lia|]. split; [rewrite EO; discriminate|]. intros d Hd. rewrite forallb_forall in FA. specialize (FA d Hd). lia.
Qed.
Print Assumptions C47_total.

(** With the Actual/N day counters time passes, so nothing is lost. *)
Theorem C47_actual : forall f N, In (f, N) actual_counters -> forall v obs, in_range v -> (forall d, In d obs -> in_range d) ->
  time_passes (fun a b => Ok (f64R (f a b))) (fun d => f64R (f v d)) v obs.
Proof.
  intros f N H v obs RV RO. split; [reflexivity|]. intros a b L (o & Io & Lo). specialize (RO o Io).
  assert (RA : in_range a) by (apply in_range_val; apply (proj1 (in_range_val _)) in RV; apply (proj1 (in_range_val _)) in RO; lia).
  assert (RB : in_range b) by (apply in_range_val; apply (proj1 (in_range_val _)) in RV; apply (proj1 (in_range_val _)) in RO; lia).
  rewrite (proj2 (C24_year_fraction f N H v a RV RA)), (proj2 (C24_year_fraction f N H v b RV RB)).
  assert (NB : (360 <= N <= 366)%Z) by (cbn in H; repeat (destruct H as [[= _ <-]|H]); try contradiction; lia).
  assert (D : (0 <= a - v <= 191491528 /\ 0 <= b - v <= 191491528)%Z) by (apply (proj1 (in_range_val _)) in RV; apply (proj1 (in_range_val _)) in RO; lia).
  assert (NR : 360 <= IZR N <= 366) by (split; apply IZR_le; lia).
  assert (BD : forall x, (0 <= x <= 191491528)%Z -> Rabs (IZR x / IZR N) <= bpow radix2 20).
  { intros x Hx. rewrite Rabs_pos_eq.
    - apply Rle_trans with (191491528 / 360); [|cbn; lra]. unfold Rdiv. apply Rmult_le_compat; [apply IZR_le; lia|left; apply Rinv_0_lt_compat; lra|apply IZR_le; lia|apply Rinv_le_contravar; lra].
    - apply Rmult_le_pos; [apply IZR_le; lia|left; apply Rinv_0_lt_compat; lra]. }
  pose proof (rnd_error (IZR (a - v) / IZR N) 20 ltac:(Lia.lia) (BD _ (proj1 D))) as EA. pose proof (rnd_error (IZR (b - v) / IZR N) 20 ltac:(Lia.lia) (BD _ (proj2 D))) as EB.
  assert (G : / 366 <= IZR (b - v) / IZR N - IZR (a - v) / IZR N).
  { replace (IZR (b - v) / IZR N - IZR (a - v) / IZR N) with (IZR (b - a) * / IZR N).
    - rewrite <- (Rmult_1_l (/ 366)). apply Rmult_le_compat; [lra|lra|apply IZR_le; lia|apply Rinv_le_contravar; lra].
    - unfold Rdiv. rewrite <- Rmult_minus_distr_r, <- minus_IZR. f_equal. f_equal. lia. }
  apply Rabs_le_inv in EA. apply Rabs_le_inv in EB.
  assert (P : bpow radix2 (20 - 53 - 1) < / 1000) by (cbn; lra). assert (P1 : bpow radix2 (20 - 53) < / 1000) by (cbn; lra). assert (P2 : bpow radix2 (20 - 54) < / 1000) by (cbn; lra). lra.
Qed.
Print Assumptions C47_actual.

(** 30/360 counts no day from the 30th to the 31st, so an observation on the 31st is
    never recorded, nor is anything after it, and [states_at] panics. *)
Theorem C47_refuted : exists (market : thirty360_market) (v : date) (obs : list date) (stp : Z), obs <> [] /\ (forall d, In d obs -> (v < d)%Z) /\ (0 < stp)%Z /\
  forall sort search, sorts_by (fun d => d) sort -> searches_by (fun d => d) search ->
  forall (Md St : Type) (init : Md -> St) (step : Md -> St -> R -> R -> outcome (Md * St)) m n,
  (forall m s t dt, 0 < dt -> exists r, step m s t dt = Ok r) -> (0 < n)%nat ->
  exists m' p, simulate_at_dates sort search init step (fun a b => Ok (f64R (thirty360_year_fraction market a b))) m v obs n stp = Ok (m', p) /\
    length (paths p) = n /\ (forall path, In path (paths p) -> path = []) /\ forall d, In d obs -> states_at search p d = Panic PIndex.
Proof.
  set (v := of_ymd 2025 1 30). set (obs := [of_ymd 2025 1 31; of_ymd 2025 2 1]). exists European, v, obs, 1%Z.
  assert (OB : forall d, In d obs -> (v < d)%Z) by (intros d [<-|[<-|[]]]; reflexivity).
  assert (RB : in_range v /\ forall d, In d obs -> in_range (d + 1 - 1)%Z).
  { split; [split; vm_compute; congruence|]. intros d [<-|[<-|[]]]; split; vm_compute; congruence. }
  assert (NE : obs <> []) by discriminate.
  split; [exact NE|]. split; [exact OB|]. split; [lia|].
  intros sort search HS HF Md St init step m n OKS N. set (yf := fun a b => Ok (f64R (thirty360_year_fraction European a b))).
  destruct (C47_total sort search HS HF Md St init step yf m v obs n 1 OKS ltac:(discriminate) (proj1 RB) (proj2 RB)) as [[_ A] _].
  destruct (A (conj N (conj Z.lt_0_1 (conj NE OB)))) as ([m' p] & H). exists m', p. split; [exact H|].
  destruct (simulate_spec sort HS search HF init step yf m v obs n 1 m' p H) as (_ & _ & _ & _ & _ & EO & L & _).
  split; [exact L|].
  assert (PE : forall path, In path (paths p) -> path = []).
  { intros path I. destruct (C47_lost sort search HS HF Md St init step yf m v obs n 1 m' p H) as (ds & time & T & SG & GC & GO & K).
    destruct (K path I) as (k & LK & K1 & _). destruct k as [|k]; [destruct path; [reflexivity|discriminate]|exfalso].
    assert (F : exists r, observation_dates p = of_ymd 2025 1 31 :: r).
    { rewrite EO. destruct (HS obs) as [P S]. destruct (sort obs) as [|a r]; [exfalso; apply Permutation_sym, Permutation_nil in P; discriminate P|]. exists r. f_equal.
      assert (Ia : In a obs) by (apply (Permutation_in _ (Permutation_sym P)); left; reflexivity). destruct Ia as [E|[E|[]]]; [symmetry; exact E|exfalso].
      assert (Ib : In (of_ymd 2025 1 31) (a :: r)) by (apply (Permutation_in _ P); left; reflexivity). destruct Ib as [E'|Ib]; [rewrite <- E in E'; vm_compute in E'; discriminate|].
      apply StronglySorted_inv in S. destruct S as [_ F]. rewrite Forall_forall in F. specialize (F _ Ib). cbv beta in F. rewrite <- E in F. vm_compute in F. congruence. }
    destruct F as (r & F). rewrite F in K1. destruct (K1 (of_ymd 2025 1 31)) as (q & CQ & LT); [left; reflexivity|].
    pose proof (GC _ _ CQ) as B. destruct CQ as (l1 & l2 & E). assert (Iq : In q (v :: ds)) by (rewrite E; apply in_app_iff; right; left; reflexivity).
    assert (Id : In (of_ymd 2025 1 31) (v :: ds)) by (rewrite E; apply in_app_iff; right; right; left; reflexivity).
    assert (EQ : q = v) by (change (of_ymd 2025 1 31) with (v + 1)%Z in B; lia).
    pose proof (T q Iq) as Tq. pose proof (T _ Id) as Td. unfold yf in Tq, Td. destruct Tq as [Tq|[(e & Tq) _]]; [|discriminate]. destruct Td as [Td|[(e & Td) _]]; [|discriminate].
    apply Ok_real in Tq. apply Ok_real in Td. rewrite <- Tq, <- Td, EQ in LT.
    replace (thirty360_year_fraction European v (of_ymd 2025 1 31)) with (thirty360_year_fraction European v v) in LT by reflexivity. lra. }
  split; [exact PE|]. intros d I. pose proof (sort_sorted sort HS obs) as S.
  assert (I' : In d (observation_dates p)) by (rewrite EO; apply (sort_in sort HS), I). unfold states_at. rewrite EO in I' |- *.
  destruct (search_found search HF _ _ S I') as (i & E & _). rewrite E. destruct (paths p) as [|a r]; [cbn in L; lia|]. cbn [index_all].
  rewrite (PE a (or_introl eq_refl)). destruct i; reflexivity.
Qed.
Print Assumptions C47_refuted.

(** Over a grid of at most 3 days to two observations, one of them twice: the path has
    four days' state three times. *)
Example C47_witness : let v := of_ymd 2025 1 30 in let obs := [of_ymd 2025 2 5; of_ymd 2025 2 3; of_ymd 2025 2 5] in
  let step := fun (m : nat) (s : Z) (_ _ : R) => Ok (S m, (s + Z.of_nat m)%Z) in
  time_passes (fun a b => Ok (f64R (act365_year_fraction None a b))) (fun d => f64R (act365_year_fraction None v d)) v obs /\
  build_grid (isort_by (fun d => d)) v (isort_by (fun d => d) obs) 3 = Ok [v; v + 3; v + 4; v + 6]%Z /\
  exists p m', simulate_at_dates (isort_by (fun d => d)) (lsearch_by (fun d => d)) (fun _ => 100%Z) step (fun a b => Ok (f64R (act365_year_fraction None a b))) 1%nat v obs 2 3 = Ok (m', p) /\
    m' = 7%nat /\ paths p = [[103; 106; 106]; [109; 115; 115]]%Z.
Proof.
  cbv zeta. set (v := of_ymd 2025 1 30). set (obs := [of_ymd 2025 2 5; of_ymd 2025 2 3; of_ymd 2025 2 5]).
  assert (RV : in_range v) by (split; vm_compute; congruence).
  assert (RO : forall d, In d obs -> in_range d) by (intros d [<-|[<-|[<-|[]]]]; split; vm_compute; congruence).
  assert (TP := C47_actual (act365_year_fraction None) 365 ltac:(cbn; auto) v obs RV RO).
  split; [exact TP|]. split; [vm_compute; reflexivity|].
  assert (AC : forall a b, (v <= a < b)%Z -> (b <= of_ymd 2025 2 5)%Z -> ~ f64R (act365_year_fraction None v b) - f64R (act365_year_fraction None v a) <= 0).
  { intros a b A B C. pose proof (proj2 TP a b A (ex_intro _ (of_ymd 2025 2 5) (conj (or_introl eq_refl) B))). cbv beta in *. lra. }
  unfold simulate_at_dates. cbn [Nat.eqb Z.leb]. match goal with |- context [if negb ?b then _ else _] => assert (EB : b = true) by (vm_compute; reflexivity); rewrite EB end. cbn [negb].
  change (match obs with [] => true | _ => false end) with false. cbv zeta.
  assert (EG : build_grid (isort_by (fun d => d)) v (isort_by (fun d => d) obs) 3 = Ok [v; v + 3; v + 4; v + 6]%Z) by (vm_compute; reflexivity). cbn [Z.compare]. rewrite EG. cbn [obind].
  assert (EI : find_indices (lsearch_by (fun d => d)) [v; v + 3; v + 4; v + 6]%Z (isort_by (fun d => d) obs) = Ok [2; 3; 3]%nat) by (vm_compute; reflexivity). rewrite EI. cbn [obind].
  cbn [year_fractions obind]. cbn [walks walk].
  repeat (match goal with |- context [Rle_dec ?x 0] => destruct (Rle_dec x 0) as [C|_]; [exfalso; revert C; apply AC; split + idtac; vm_compute; congruence|] end; cbn [obind capture Nat.eqb]).
  eexists _, _. split; [reflexivity|]. split; reflexivity.
Qed.
