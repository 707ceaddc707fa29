(** Proofs about the FX volatility surface. *)
From Coq Require Import ZArith Lia Bool List Reals Lra Permutation Sorting.Sorted.
From Coquelicot Require Import Coquelicot.
Import ListNotations.
From Verif Require Import Outcome Date Sorting ForwardPoints ForwardPointsFacts YieldCurve Normal NormalFacts VolSurface.
Open Scope R_scope.

(** ** Sorting on real keys *)
Section RSort.
  Context {A : Type} (key : A -> R).
  Lemma rinsert_perm a l : Permutation (a :: l) (rinsert key a l).
  Proof.
    induction l as [|b r IH]; cbn; [reflexivity|]. destruct (Rle_dec (key a) (key b)); [reflexivity|].
    rewrite <- IH. apply perm_swap.
  Qed.
  Lemma rsort_perm l : Permutation l (rsort key l).
  Proof. induction l as [|a r IH]; cbn; [constructor|]. rewrite <- rinsert_perm. constructor. exact IH. Qed.
  Lemma rinsert_sorted a l : StronglySorted (fun x y => key x <= key y) l -> StronglySorted (fun x y => key x <= key y) (rinsert key a l).
  Proof.
    induction l as [|b r IH]; cbn; intros H; [repeat constructor|].
    inversion H as [|? ? Hr Hb]; subst. destruct (Rle_dec (key a) (key b)).
    - constructor; [assumption|]. constructor; [assumption|]. eapply Forall_impl; [|exact Hb]. cbn. intros; lra.
    - constructor; [auto|]. rewrite Forall_forall in *. intros x Hx.
      apply (Permutation_in _ (Permutation_sym (rinsert_perm a r))) in Hx. destruct Hx as [<-|Hx]; [lra|auto].
  Qed.
  Lemma rsort_sorted l : StronglySorted (fun x y => key x <= key y) (rsort key l).
  Proof. induction l as [|a r IH]; cbn; [constructor|]. apply rinsert_sorted. exact IH. Qed.
  Lemma rsort_id l : StronglySorted (fun x y => key x <= key y) l -> rsort key l = l.
  Proof.
    induction 1 as [|a r S IH F]; [reflexivity|]. cbn. fold (rsort key r). rewrite IH. destruct r as [|b r]; [reflexivity|].
    cbn. inversion F; subst. destruct (Rle_dec (key a) (key b)); [reflexivity|contradiction].
  Qed.
End RSort.

(** ** Quantile *)
Lemma inverse_cdf_ok p : 0 < p < 1 -> exists x, inverse_cdf p = Ok x /\ cdf x = p.
Proof.
  intros [A B]. unfold inverse_cdf. destruct (Rlt_dec 0 p) as [A'|]; [|lra]. destruct (Rlt_dec p 1) as [B'|]; [|lra].
  exists (proj1_sig (quantile_exists p (conj A' B'))). split; [reflexivity|]. apply proj2_sig.
Qed.
Lemma inverse_cdf_inv p x : inverse_cdf p = Ok x -> cdf x = p.
Proof.
  unfold inverse_cdf. destruct (Rlt_dec 0 p); [|discriminate]. destruct (Rlt_dec p 1); [|discriminate].
  intros H. apply (f_equal (fun o => match o with Ok y => y | _ => 0 end)) in H. cbv beta iota in H. rewrite <- H. apply proj2_sig.
Qed.

(** ** Interpolation *)
Definition increases (l : list (R * R)) : Prop := StronglySorted (fun a b => fst a < fst b) l.

Lemma scan_knot l x y : increases l -> (2 <= length l)%nat -> In (x, y) l -> scan_windows l x = y.
Proof.
  induction l as [|lo [|hi r] IH]; intros S L I; cbn [length] in L; [lia|lia|].
  inversion S as [|? ? S' F]; subst. inversion F as [|? ? F1 F2]; subst.
  cbn [scan_windows].
  destruct I as [->|[->|I]]; cbn [fst snd] in *.
  - destruct (Rle_dec x x); [|lra]. destruct (Rle_dec x (fst hi)); [|lra]. cbv zeta. unfold Rdiv. ring_simplify. ring.
  - destruct (Rle_dec (fst lo) x); [|lra]. destruct (Rle_dec x x); [|lra]. cbv zeta. field. lra.
  - assert (fst hi < x). { inversion S' as [|? ? _ F3]; subst. rewrite Forall_forall in F3. exact (F3 _ I). }
    destruct r as [|k r]; [destruct I|].
    assert (E : scan_windows (hi :: k :: r) x = y) by (apply IH; [exact S'|cbn; lia|right; exact I]).
    destruct (Rle_dec (fst lo) x); [|exact E]. destruct (Rle_dec x (fst hi)); [lra|exact E].
Qed.

Lemma increases_last l d : increases l -> l <> [] -> forall p, In p l -> p = last l d \/ fst p < fst (last l d).
Proof.
  induction l as [|a r IH]; intros S N p I; [contradiction|].
  inversion S as [|? ? S' F]; subst. destruct r as [|b r]; [destruct I as [<-|[]]; left; reflexivity|].
  destruct I as [<-|I].
  - right. rewrite Forall_forall in F. apply F. change (In (last (b :: r) d) (b :: r)).
    clear. revert b. induction r as [|c r IH]; intros b; [left; reflexivity|]. right. apply IH.
  - apply (IH S' ltac:(discriminate) p I).
Qed.

Lemma interp_knot l x y : increases l -> In (x, y) l -> piecewise_linear_interp l x = y.
Proof.
  intros S I. destruct l as [|a [|b r]]; [destruct I|destruct I as [->|[]]; reflexivity|].
  unfold piecewise_linear_interp. cbv zeta.
  assert (LE : last (b :: r) a = last (a :: b :: r) a) by reflexivity. rewrite LE.
  pose proof (increases_last (a :: b :: r) a S ltac:(discriminate) _ I) as HL.
  inversion S as [|? ? S' F]; subst. rewrite Forall_forall in F.
  destruct (Rle_dec x (fst a)) as [C|C].
  - destruct I as [->|I]; [reflexivity|]. specialize (F _ I). cbn [fst] in F. lra.
  - destruct (Rle_dec (fst (last (a :: b :: r) a)) x) as [C'|C'].
    + destruct HL as [E|HL]; [rewrite <- E; reflexivity|]. cbn [fst] in HL. lra.
    + apply scan_knot; [exact S|cbn; lia|exact I].
Qed.

(** ** The quadratic *)
Lemma fit_exact x0 y0 x1 y1 x2 y2 a b c : x0 <> x1 -> x0 <> x2 -> x1 <> x2 ->
  fit_quadratic (x0, y0) (x1, y1) (x2, y2) = (a, b, c) ->
  a * x0 * x0 + b * x0 + c = y0 /\ a * x1 * x1 + b * x1 + c = y1 /\ a * x2 * x2 + b * x2 + c = y2.
Proof.
  intros N1 N2 N3 E. unfold fit_quadratic in E.
  apply (f_equal (fun t => (fst (fst t), snd (fst t), snd t))) in E. cbn [fst snd] in E.
  assert (Ea := f_equal (fun t => fst (fst t)) E). assert (Eb := f_equal (fun t => snd (fst t)) E). assert (Ec := f_equal snd E).
  cbn [fst snd] in Ea, Eb, Ec. rewrite <- Ea, <- Eb, <- Ec. repeat split; field; repeat split; lra.
Qed.

(** ** Lists *)
Lemma omapM_nth {A B} (f : A -> outcome B) l r : omapM f l = Ok r ->
  length r = length l /\ forall i a, nth_error l i = Some a -> exists b, nth_error r i = Some b /\ f a = Ok b.
Proof.
  revert r. induction l as [|a l IH]; cbn [omapM]; intros r H.
  - injection H as <-. split; [reflexivity|]. intros [|i] a E; discriminate.
  - apply obind_Ok in H as (b & Hb & H). apply obind_Ok in H as (bs & Hbs & H). injection H as <-.
    destruct (IH _ Hbs) as [L N]. split; [cbn; f_equal; exact L|].
    intros [|i] a' E; [injection E as <-; exists b; split; [reflexivity|exact Hb]|]. apply N in E. exact E.
Qed.
Lemma omapM_in {A B} (f : A -> outcome B) l r a : omapM f l = Ok r -> In a l -> exists b, In b r /\ f a = Ok b.
Proof.
  intros H I. apply In_nth_error in I as (i & E). destruct (proj2 (omapM_nth f l r H) i a E) as (b & Eb & F).
  exists b. split; [eapply nth_error_In; exact Eb|exact F].
Qed.
Lemma omapM_in_inv {A B} (f : A -> outcome B) l r b : omapM f l = Ok r -> In b r -> exists a, In a l /\ f a = Ok b.
Proof.
  intros H I. apply In_nth_error in I as (i & E). destruct (omapM_nth f l r H) as [L N].
  destruct (nth_error l i) as [a|] eqn:Ea.
  - destruct (N i a Ea) as (b' & Eb & F). exists a. split; [eapply nth_error_In; exact Ea|]. congruence.
  - apply nth_error_None in Ea. rewrite <- L in Ea. apply nth_error_None in Ea. congruence.
Qed.

Lemma strikes_increase_spec l : strikes_increase l = true -> increases l.
Proof.
  intros H. apply Sorted_StronglySorted; [intros x y z; apply Rlt_trans|].
  induction l as [|p [|q r] IH]; [constructor|repeat constructor|].
  cbn [strikes_increase] in H. destruct (Rle_dec (fst q) (fst p)); [discriminate|].
  constructor; [apply IH; exact H|]. constructor. lra.
Qed.

Lemma increases_nth l i j a b : increases l -> nth_error l i = Some a -> nth_error l j = Some b -> (i < j)%nat -> fst a < fst b.
Proof.
  intros S. revert i j. induction S as [|x r S IH F]; intros i j Ei Ej L; [destruct i; discriminate|].
  destruct j as [|j]; [lia|]. cbn in Ej. destruct i as [|i].
  - injection Ei as <-. rewrite Forall_forall in F. apply F. eapply nth_error_In. exact Ej.
  - apply (IH i j Ei Ej). lia.
Qed.

(** Every put strike is below every call strike. *)
Lemma app_order l m r a b : increases (l ++ m :: r) -> In a l -> In b r -> fst a < fst b.
Proof.
  induction l as [|x l IH]; cbn; intros S Ia Ib; [destruct Ia|]. inversion S as [|? ? S' F]; subst.
  destruct Ia as [<-|Ia]; [|apply IH; assumption]. rewrite Forall_forall in F. apply F.
  apply in_app_iff. right. right. exact Ib.
Qed.

(** ** One expiry *)
(** What [from_pillar] builds: the strikes with their volatilities, in order. *)
Record built (p : vol_pillar) (t : R) (s : smile) (atm : R) (pairs : list delta_pair) (sv : list (R * R)) : Prop := {
  b_t : 0 < t;
  b_f : 0 < vp_forward p;
  b_norm : normalise_quotes (vp_quotes p) = Ok (atm, pairs);
  b_inc : increases sv;
  b_atm : In (atm_dns_strike atm (vp_forward p) t, atm) sv;
  b_put : forall q, In q pairs -> exists k, strike_from_put_delta (dp_delta q) (dp_put q) (vp_forward p) (sqrt t) = Ok k /\ In (k, dp_put q) sv;
  b_call : forall q, In q pairs -> exists k, strike_from_call_delta (dp_delta q) (dp_call q) (vp_forward p) (sqrt t) = Ok k /\ In (k, dp_call q) sv;
  b_order : forall q q' k k', In q pairs -> In q' pairs -> strike_from_put_delta (dp_delta q) (dp_put q) (vp_forward p) (sqrt t) = Ok k ->
    strike_from_call_delta (dp_delta q') (dp_call q') (vp_forward p) (sqrt t) = Ok k' -> k < k';
  b_pos : forall k v, In (k, v) sv -> 0 < k;
  b_smile : atm <> 0 -> forall k v, In (k, v) sv -> smile_volatility s k = v;
  b_expiry : sm_expiry s = vp_expiry p;
  b_year : sm_year_fraction s = t }.

Lemma ln_lt_inv' x y : 0 < x -> x < y -> ln x < ln y.
Proof. intros; apply ln_increasing; assumption. Qed.

Lemma nth_error_combine {A B} (l : list A) (m : list B) i a b :
  nth_error l i = Some a -> nth_error m i = Some b -> nth_error (combine l m) i = Some (a, b).
Proof.
  revert m i. induction l as [|x l IH]; intros [|y m] [|i]; cbn; try discriminate.
  - intros E F. injection E as <-. injection F as <-. reflexivity.
  - apply IH.
Qed.

Lemma nth_error_seq n m i : (i < m)%nat -> nth_error (seq n m) i = Some (n + i)%nat.
Proof.
  revert n i. induction m as [|m IH]; intros n [|i] L; cbn; try lia; [f_equal; lia|]. rewrite IH by lia. f_equal. lia.
Qed.

Lemma oindex_inv {A} (l : list A) i a : oindex l i = Ok a -> nth_error l i = Some a.
Proof. unfold oindex. destruct (nth_error l i) as [x|]; [congruence|discriminate]. Qed.

(** The knots before sorting. *)
Definition knot_list (sv : list (R * R)) (xs : list R) (f a b c : R) (atm_idx hi_idx : nat) : list (R * R) :=
  map (fun '(idx, ((k, sigma), x)) =>
          let residual := if (idx =? 0)%nat || (idx =? atm_idx)%nat || (idx =? hi_idx)%nat then 0
                          else sigma - (a * x * x + b * x + c) in
          (ln (k / f), residual))
        (combine (seq 0 (length sv)) (combine sv xs)).

Lemma knot_nth sv g f a b c ai hi i k v : nth_error sv i = Some (k, v) ->
  nth_error (knot_list sv (map g sv) f a b c ai hi) i =
  Some (ln (k / f), if (i =? 0)%nat || (i =? ai)%nat || (i =? hi)%nat then 0
                    else v - (a * g (k, v) * g (k, v) + b * g (k, v) + c)).
Proof.
  intros E. unfold knot_list.
  assert (L : (i < length sv)%nat) by (apply nth_error_Some; congruence).
  rewrite (map_nth_error _ i _ (d := (i, ((k, v), g (k, v))))); [reflexivity|].
  apply nth_error_combine; [rewrite nth_error_seq by exact L; reflexivity|].
  apply nth_error_combine; [exact E|]. apply map_nth_error. exact E.
Qed.
Lemma knot_length sv g f a b c ai hi : length (knot_list sv (map g sv) f a b c ai hi) = length sv.
Proof. unfold knot_list. rewrite map_length, combine_length, combine_length, seq_length, map_length. lia. Qed.

Lemma increases_of_nth l : (forall i a b, nth_error l i = Some a -> nth_error l (S i) = Some b -> fst a < fst b) -> increases l.
Proof.
  intros H. apply Sorted_StronglySorted; [intros x y z; apply Rlt_trans|].
  induction l as [|p [|q r] IH]; [constructor|repeat constructor|].
  constructor; [apply IH; intros i; apply (H (S i))|]. constructor. apply (H O); reflexivity.
Qed.

Lemma from_pillar_built p t s : from_pillar p t = Ok s -> exists atm pairs sv, built p t s atm pairs sv.
Proof.
  unfold from_pillar. destruct (Rle_dec t 0) as [|Ht]; [discriminate|]. destruct (Rle_dec (vp_forward p) 0) as [|Hf]; [discriminate|].
  intros H. apply obind_Ok in H as ([atm pairs] & HN & H). cbv zeta in H.
  set (f := vp_forward p) in *. set (q := sqrt t) in *. set (sorted := rsort dp_delta pairs) in *.
  apply obind_Ok in H as (puts & HP & H). apply obind_Ok in H as (calls & HC & H).
  set (sv := puts ++ [(atm_dns_strike atm f t, atm)] ++ calls) in *.
  destruct (strikes_increase sv) eqn:HI; [|discriminate]. apply strikes_increase_spec in HI.
  set (g := fun kv : R * R => cdf (ln (f / fst kv) / (15 / 10 * atm * q))) in *.
  apply obind_Ok in H as (x0 & X0 & H). apply obind_Ok in H as (x1 & X1 & H). apply obind_Ok in H as (x2 & X2 & H).
  apply obind_Ok in H as ([k0 v0] & P0 & H). apply obind_Ok in H as ([k1 v1] & P1 & H). apply obind_Ok in H as ([k2 v2] & P2 & H).
  set (fit := fit_quadratic _ _ _) in H. destruct fit as [[a b] c] eqn:HF. subst fit. cbn [fst snd] in *.
  apply oindex_inv in X0, X1, X2, P0, P1, P2.
  assert (EX : forall i k v x, nth_error (map g sv) i = Some x -> nth_error sv i = Some (k, v) -> x = g (k, v)).
  { intros i k v x E1 E2. rewrite (map_nth_error g i sv E2) in E1. congruence. }
  apply (EX _ _ _ _ X0) in P0 as Ex0. apply (EX _ _ _ _ X1) in P1 as Ex1. apply (EX _ _ _ _ X2) in P2 as Ex2.
  assert (Lp : length puts = length sorted) by apply (omapM_nth _ _ _ HP).
  assert (Lc : length calls = length sorted) by (rewrite (proj1 (omapM_nth _ _ _ HC)); apply rev_length).
  assert (Ls : length sv = (2 * length sorted + 1)%nat) by (unfold sv; rewrite !app_length; cbn [length]; lia).
  assert (Np : (1 <= length pairs)%nat).
  { unfold normalise_quotes in HN. apply obind_Ok in HN as ([am bk] & _ & HN). destruct am; [|discriminate].
    apply obind_Ok in HN as (ps & _ & HN). destruct (rsort dp_delta ps) eqn:E; [discriminate|].
    apply (f_equal (fun o => match o with Ok y => length (snd y) | _ => O end)) in HN. cbn [snd length] in HN. lia. }
  assert (Ns : length sorted = length pairs) by (symmetry; apply Permutation_length, rsort_perm).
  assert (POS : forall k v, In (k, v) sv -> 0 < k).
  { intros k v I. unfold sv in I. rewrite !in_app_iff in I. destruct I as [I|[[E|[]]|I]].
    - apply (omapM_in_inv _ _ _ _ HP) in I as (d & _ & E). apply obind_Ok in E as (k' & E1 & E2).
      unfold strike_from_put_delta in E1. apply obind_Ok in E1 as (z & _ & E1).
      apply (f_equal (fun o => match o with Ok y => y | _ => 0 end)) in E1. cbv beta iota in E1.
      apply (f_equal (fun o => match o with Ok y => fst y | _ => 0 end)) in E2. cbn [fst] in E2. subst.
      apply Rmult_lt_0_compat; [lra|apply exp_pos].
    - apply (f_equal fst) in E. cbn [fst] in E. subst. unfold atm_dns_strike. apply Rmult_lt_0_compat; [lra|apply exp_pos].
    - apply (omapM_in_inv _ _ _ _ HC) in I as (d & _ & E). apply obind_Ok in E as (k' & E1 & E2).
      unfold strike_from_call_delta in E1. apply obind_Ok in E1 as (z & _ & E1).
      apply (f_equal (fun o => match o with Ok y => y | _ => 0 end)) in E1. cbv beta iota in E1.
      apply (f_equal (fun o => match o with Ok y => fst y | _ => 0 end)) in E2. cbn [fst] in E2. subst.
      apply Rmult_lt_0_compat; [lra|apply exp_pos]. }
  exists atm, pairs, sv. 
  apply (f_equal (fun o => match o with Ok y => y | _ => s end)) in H. cbv beta iota in H.
  constructor.
  - lra.
  - fold f. lra.
  - exact HN.
  - exact HI.
  - unfold sv. fold f. apply in_app_iff. right. left. reflexivity.
  - intros d I. apply (Permutation_in _ (rsort_perm dp_delta pairs)) in I. fold sorted in I.
    destruct (omapM_in _ _ _ _ HP I) as (kv & Ikv & E). apply obind_Ok in E as (k & E1 & E2).
    exists k. split; [exact E1|]. unfold sv. apply in_app_iff. left.
    apply (f_equal (fun o => match o with Ok y => y | _ => kv end)) in E2. cbv beta iota in E2. rewrite E2. exact Ikv.
  - intros d I. apply (Permutation_in _ (rsort_perm dp_delta pairs)) in I. fold sorted in I. apply in_rev in I.
    destruct (omapM_in _ _ _ _ HC I) as (kv & Ikv & E). apply obind_Ok in E as (k & E1 & E2).
    exists k. split; [exact E1|]. unfold sv. apply in_app_iff. right. right.
    apply (f_equal (fun o => match o with Ok y => y | _ => kv end)) in E2. cbv beta iota in E2. rewrite E2. exact Ikv.
  - intros d d' k k' I I' Ek Ek'. fold f in Ek, Ek'. fold q in Ek, Ek'. apply (Permutation_in _ (rsort_perm dp_delta pairs)) in I, I'. fold sorted in I, I'. apply in_rev in I'.
    destruct (omapM_in _ _ _ _ HP I) as (kv & Ikv & E). rewrite Ek in E. cbn [obind] in E.
    destruct (omapM_in _ _ _ _ HC I') as (kv' & Ikv' & E'). rewrite Ek' in E'. cbn [obind] in E'.
    apply (f_equal (fun o => match o with Ok y => fst y | _ => 0 end)) in E, E'. cbn [fst] in E, E'. rewrite E, E'.
    apply (app_order puts _ calls kv kv' HI Ikv Ikv').
  - exact POS.
  - intros Ha k v I. subst s. unfold smile_volatility.
    cbn [sm_forward sm_sigma_ref sm_year_fraction sm_a sm_b sm_c sm_min sm_max sm_knots]. fold q.
    assert (Q : 0 < q) by (apply sqrt_lt_R0; lra).
    change (cdf (ln (f / k) / (15 / 10 * atm * q))) with (g (k, v)).
    set (hi := (length sv - 1)%nat) in *.
    change (map _ (combine (seq 0 (length sv)) (combine sv (map g sv)))) with (knot_list sv (map g sv) f a b c (length sorted) hi).
    assert (KI : increases (knot_list sv (map g sv) f a b c (length sorted) hi)).
    { apply increases_of_nth. intros i u w Eu Ew.
      assert (Li : (S i < length sv)%nat).
      { rewrite <- (knot_length sv g f a b c (length sorted) hi). apply nth_error_Some. congruence. }
      destruct (nth_error sv i) as [[ki vi]|] eqn:Ei; [|apply nth_error_None in Ei; lia].
      destruct (nth_error sv (S i)) as [[kj vj]|] eqn:Ej; [|apply nth_error_None in Ej; lia].
      rewrite (knot_nth sv g f a b c (length sorted) hi i ki vi Ei) in Eu.
      rewrite (knot_nth sv g f a b c (length sorted) hi (S i) kj vj Ej) in Ew.
      apply (f_equal (fun o => match o with Some y => fst y | None => 0 end)) in Eu, Ew. cbn [fst] in Eu, Ew. rewrite <- Eu, <- Ew.
      pose proof (increases_nth sv i (S i) _ _ HI Ei Ej ltac:(lia)) as L. cbn [fst] in L.
      pose proof (POS ki vi (nth_error_In _ _ Ei)).
      apply ln_increasing; [apply Rdiv_lt_0_compat; lra|]. apply Rmult_lt_compat_r; [apply Rinv_0_lt_compat; lra|exact L]. }
    rewrite rsort_id.
    2: { clear - KI. induction KI as [|u l S IH F]; constructor; [exact IH|]. eapply Forall_impl; [|exact F]. cbn. intros; lra. }
    apply In_nth_error in I as (i & Ei).
    assert (Li : (i < length sv)%nat) by (apply nth_error_Some; congruence).
    pose proof (POS k v (nth_error_In _ _ Ei)) as Pk.
    assert (MONO : forall i j ki vi kj vj, nth_error sv i = Some (ki, vi) -> nth_error sv j = Some (kj, vj) -> (i < j)%nat -> ki < kj).
    { intros i' j' ki vi kj vj E1 E2 L. exact (increases_nth sv i' j' _ _ HI E1 E2 L). }
    assert (LNM : forall u w, 0 < u -> u < w -> ln (u / f) < ln (w / f)).
    { intros u w Hu L. apply ln_increasing; [apply Rdiv_lt_0_compat; lra|]. apply Rmult_lt_compat_r; [apply Rinv_0_lt_compat; lra|exact L]. }
    assert (Lmin : ln (k0 / f) <= ln (k / f)).
    { destruct i as [|i]; [assert (k = k0) by congruence; subst; lra|]. left. apply LNM; [apply (POS k0 v0 (nth_error_In _ _ P0))|].
      apply (MONO 0%nat (S i) k0 v0 k v P0 Ei). lia. }
    assert (Lmax : ln (k / f) <= ln (k2 / f)).
    { destruct (Nat.eq_dec i hi) as [->|N]; [assert (k = k2) by congruence; subst; lra|]. left. apply LNM; [exact Pk|].
      apply (MONO i hi k v k2 v2 Ei P2). unfold hi in *. lia. }
    destruct (Rlt_dec (ln (k / f)) (ln (k0 / f))); [lra|]. destruct (Rlt_dec (ln (k2 / f)) (ln (k / f))); [lra|].
    pose proof (knot_nth sv g f a b c (length sorted) hi i k v Ei) as KN.
    rewrite (interp_knot _ _ _ KI (nth_error_In _ _ KN)).
    assert (GN : forall u w vu vw, 0 < u -> u < w -> g (u, vu) <> g (w, vw)).
    { intros u w vu vw Hu L. unfold g. cbn [fst].
      assert (Hl : ln (f / w) < ln (f / u)).
      { apply ln_increasing; [apply Rdiv_lt_0_compat; lra|]. apply Rmult_lt_compat_l; [lra|]. apply Rinv_lt_contravar; [nra|exact L]. }
      set (m := 15 / 10 * atm * q). assert (Hm : m <> 0) by (unfold m; apply Rmult_integral_contrapositive_currified; lra).
      assert (NE : ln (f / u) / m <> ln (f / w) / m).
      { intros E. apply (f_equal (fun z => z * m)) in E. unfold Rdiv in E. rewrite !Rmult_assoc, Rinv_l, !Rmult_1_r in E by exact Hm. lra. }
      intros E. destruct (Rtotal_order (ln (f / u) / m) (ln (f / w) / m)) as [C|[C|C]]; [|contradiction|];
        apply cdf_increasing in C; lra. }
    pose proof (POS k0 v0 (nth_error_In _ _ P0)) as Pk0. pose proof (POS k1 v1 (nth_error_In _ _ P1)) as Pk1.
    assert (L01 : k0 < k1) by (apply (MONO _ _ _ _ _ _ P0 P1); lia).
    assert (L12 : k1 < k2) by (apply (MONO _ _ _ _ _ _ P1 P2); unfold hi; lia).
    assert (FE : a * x0 * x0 + b * x0 + c = v0 /\ a * x1 * x1 + b * x1 + c = v1 /\ a * x2 * x2 + b * x2 + c = v2).
    { apply (fit_exact x0 v0 x1 v1 x2 v2 a b c); [rewrite Ex0, Ex1|rewrite Ex0, Ex2|rewrite Ex1, Ex2|exact HF]; apply GN; lra. }
    destruct FE as (F0 & F1 & F2).
    destruct (Nat.eqb_spec i 0) as [->|N0]; cbn [orb].
    { rewrite P0 in Ei. assert (k = k0) by congruence. assert (v = v0) by congruence. subst k v. rewrite <- Ex0. lra. }
    destruct (Nat.eqb_spec i (length sorted)) as [->|N1]; cbn [orb].
    { rewrite P1 in Ei. assert (k = k1) by congruence. assert (v = v1) by congruence. subst k v. rewrite <- Ex1. lra. }
    destruct (Nat.eqb_spec i hi) as [->|N2].
    { rewrite P2 in Ei. assert (k = k2) by congruence. assert (v = v2) by congruence. subst k v. rewrite <- Ex2. lra. }
    lra.
  - subst s. reflexivity.
  - subst s. reflexivity.
Qed.

(** ** Collecting the quotes *)
Inductive kind := KCall | KPut | KRr | KBf.
Definition quote_of (k : kind) (d v : R) : vol_quote :=
  match k with KCall => QCall d v | KPut => QPut d v | KRr => QRiskReversal d v | KBf => QButterfly d v end.
Definition get (k : kind) (p : partial_delta) : option R :=
  match k with KCall => pd_call p | KPut => pd_put p | KRr => pd_rr p | KBf => pd_bf p end.
Definition set (k : kind) (v : R) : partial_delta -> partial_delta :=
  match k with KCall => set_call v | KPut => set_put v | KRr => set_rr v | KBf => set_bf v end.
Definition kind_eq_dec (a b : kind) : {a = b} + {a <> b}.
Proof. decide equality. Defined.

Lemma get_set_same k v p : get k (set k v p) = Some v.
Proof. destruct k; reflexivity. Qed.
Lemma get_set_other k k' v p : k <> k' -> get k (set k' v p) = get k p.
Proof. destruct k, k'; intros; try reflexivity; contradiction. Qed.
Lemma get_none k : get k no_quotes = None.
Proof. destruct k; reflexivity. Qed.

(** Deltas that differ, differ by at least the bucket width; a kind is quoted once
    per delta. *)
Definition well_separated (Q : list vol_quote) : Prop :=
  forall k k' d d' v v', In (quote_of k d v) Q -> In (quote_of k' d' v') Q -> Rabs (d - d') < / 10 ^ 9 ->
  d = d' /\ (k = k' -> v = v').

Lemma update_in B d f : NoDup (map fst B) -> (forall d', In d' (map fst B) -> Rabs (d' - d) < / 10 ^ 9 -> d' = d) ->
  NoDup (map fst (update_bucket B d f)) /\
  (forall d', In d' (map fst (update_bucket B d f)) <-> d' = d \/ In d' (map fst B)) /\
  (forall d' p', In (d', p') (update_bucket B d f) <->
     (d' <> d /\ In (d', p') B) \/ (d' = d /\ ((exists p, In (d, p) B /\ p' = f p) \/ (~ In d (map fst B) /\ p' = f no_quotes)))).
Proof.
  induction B as [|[e p] r IH]; cbn [update_bucket map fst]; intros ND SEP.
  - cbn. repeat split.
    + constructor; [intros []|constructor].
    + intros [E|[]]; auto.
    + intros [->|[]]; auto.
    + intros [E|[]]. injection E as <- <-. right. split; [reflexivity|]. right. auto.
    + intros [[_ []]|[-> [(q & [] & _)|[_ ->]]]]. left. reflexivity.
  - inversion ND as [|? ? NI ND']; subst.
    destruct (Rlt_dec (Rabs (e - d)) (/ 10 ^ 9)) as [C|C].
    + assert (E : e = d) by (apply SEP; [left; reflexivity|exact C]). subst e. cbn [map fst]. repeat split.
      * exact ND.
      * intros [E|E]; [left; congruence|right; right; exact E].
      * intros [->|[E|E]]; [left; reflexivity|left; exact E|right; exact E].
      * intros [E|I].
        { injection E as <- <-. right. split; [reflexivity|]. left. exists p. split; [left; reflexivity|reflexivity]. }
        left. split; [|right; exact I]. intros ->. apply NI. apply in_map_iff. exists (d, p'). split; [reflexivity|exact I].
      * intros [[N [E|I]]|[-> [(q & [E|I] & ->)|[N _]]]].
        { congruence. }
        { right. exact I. }
        { left. congruence. }
        { exfalso. apply NI. apply in_map_iff. exists (d, q). split; [reflexivity|exact I]. }
        { exfalso. apply N. left. reflexivity. }
    + destruct (IH ND') as (A1 & A2 & A3); [intros d' I; apply SEP; right; exact I|].
      assert (NE : e <> d). { intros ->. apply C. rewrite Rminus_diag_eq, Rabs_R0 by reflexivity. apply Rinv_0_lt_compat, pow_lt. lra. }
      cbn [map fst]. repeat split.
      * constructor; [|exact A1]. rewrite A2. intros [E|E]; [congruence|contradiction].
      * intros [E|E]; [right; left; exact E|]. apply A2 in E as [E|E]; [left; exact E|right; right; exact E].
      * intros [E|[E|E]]; [right; apply A2; left; exact E|left; exact E|right; apply A2; right; exact E].
      * intros [E|I].
        { injection E as <- <-. left. split; [exact NE|left; reflexivity]. }
        apply A3 in I as [[N I]|[-> [(q & I & ->)|[N ->]]]].
        { left. split; [exact N|right; exact I]. }
        { right. split; [reflexivity|]. left. exists q. split; [right; exact I|reflexivity]. }
        { right. split; [reflexivity|]. right. split; [intros [E|E]; [congruence|contradiction]|reflexivity]. }
      * intros [[N [E|I]]|[-> [(q & [E|I] & ->)|[N ->]]]].
        { left. exact E. }
        { right. apply A3. left. auto. }
        { congruence. }
        { right. apply A3. right. split; [reflexivity|]. left. exists q. auto. }
        { right. apply A3. right. split; [reflexivity|]. right. split; [intros E; apply N; right; exact E|reflexivity]. }
Qed.

(** What the buckets hold once the quotes [Q] have been read. *)
Definition holds (Q : list vol_quote) (B : list (R * partial_delta)) : Prop :=
  NoDup (map fst B) /\
  (forall d, In d (map fst B) <-> exists k v, In (quote_of k d v) Q) /\
  (forall d p k v, In (d, p) B -> (get k p = Some v <-> In (quote_of k d v) Q)).

Lemma quote_of_inj k k' d d' v v' : quote_of k d v = quote_of k' d' v' -> k = k' /\ d = d' /\ v = v'.
Proof. destruct k, k'; cbn; intros E; try discriminate; injection E as <- <-; auto. Qed.

Lemma holds_step Q B k d v : well_separated (Q ++ [quote_of k d v]) -> holds Q B ->
  holds (Q ++ [quote_of k d v]) (update_bucket B d (set k v)).
Proof.
  intros WS (ND & KEY & VAL).
  assert (NEW : In (quote_of k d v) (Q ++ [quote_of k d v])) by (apply in_app_iff; right; left; reflexivity).
  assert (OLD : forall q, In q Q -> In q (Q ++ [quote_of k d v])) by (intros; apply in_app_iff; left; assumption).
  destruct (update_in B d (set k v) ND) as (A1 & A2 & A3).
  { intros d' I C. apply KEY in I as (k' & v' & I). apply (proj1 (WS k' k d' d v' v (OLD _ I) NEW C)). }
  assert (SAME : forall v', In (quote_of k d v') Q -> v' = v).
  { intros v' I. apply (proj2 (WS k k d d v' v (OLD _ I) NEW ltac:(rewrite Rminus_diag_eq, Rabs_R0 by reflexivity; apply Rinv_0_lt_compat, pow_lt; lra))). reflexivity. }
  split; [exact A1|]. split.
  - intros d'. rewrite A2. split.
    + intros [->|I]; [exists k, v; exact NEW|]. apply KEY in I as (k' & v' & I). exists k', v'. auto.
    + intros (k' & v' & I). apply in_app_iff in I as [I|[E|[]]]; [right; apply KEY; eauto|].
      apply quote_of_inj in E as (_ & E & _). left. congruence.
  - intros d' p' k' v' I. apply A3 in I as [[N I]|[-> [(p & I & ->)|[N ->]]]].
    + rewrite (VAL _ _ k' v' I). split; [auto|]. intros J. apply in_app_iff in J as [J|[E|[]]]; [exact J|].
      apply quote_of_inj in E as (_ & E & _). congruence.
    + destruct (kind_eq_dec k' k) as [->|NK].
      * rewrite get_set_same. split.
        { intros E. assert (v = v') by congruence. subst. exact NEW. }
        { intros J. apply in_app_iff in J as [J|[E|[]]]; [f_equal; symmetry; auto|].
          apply quote_of_inj in E as (_ & _ & E). congruence. }
      * rewrite get_set_other by exact NK. rewrite (VAL _ _ k' v' I). split; [auto|].
        intros J. apply in_app_iff in J as [J|[E|[]]]; [exact J|]. apply quote_of_inj in E as (E & _). congruence.
    + destruct (kind_eq_dec k' k) as [->|NK].
      * rewrite get_set_same. split.
        { intros E. assert (v = v') by congruence. subst. exact NEW. }
        { intros J. apply in_app_iff in J as [J|[E|[]]]; [f_equal; symmetry; auto|].
          apply quote_of_inj in E as (_ & _ & E). congruence. }
      * rewrite get_set_other by exact NK. rewrite get_none. split; [discriminate|].
        intros J. exfalso. apply in_app_iff in J as [J|[E|[]]].
        { apply N. apply KEY. eauto. }
        { apply quote_of_inj in E as (E & _). congruence. }
Qed.

Lemma holds_atm Q B v : holds Q B -> holds (Q ++ [QAtm v]) B.
Proof.
  intros (ND & KEY & VAL).
  assert (X : forall k d w, In (quote_of k d w) (Q ++ [QAtm v]) <-> In (quote_of k d w) Q).
  { intros k d w. rewrite in_app_iff. split; [intros [I|[E|[]]]; [exact I|destruct k; discriminate]|auto]. }
  split; [exact ND|]. split.
  - intros d. rewrite KEY. split; intros (k & w & I); exists k, w; apply X; exact I.
  - intros d p k w I. rewrite X. apply VAL. exact I.
Qed.

Lemma validate_ok d u : validate_delta d = Ok u -> 0 < d < 1 / 2.
Proof. unfold validate_delta. destruct (Rlt_dec 0 d); [|discriminate]. destruct (Rlt_dec d (1 / 2)); [|discriminate]. intros _. lra. Qed.

(** Without any hypothesis on the quotes. *)
Lemma collect_valid quotes : forall atm B atm' B', collect_quotes atm B quotes = Ok (atm', B') ->
  (forall d, In d (map fst B) -> 0 < d < 1 / 2) ->
  (forall d, In d (map fst B') -> 0 < d < 1 / 2) /\
  (forall k d v, In (quote_of k d v) quotes -> 0 < d < 1 / 2) /\
  (match atm with
   | Some a => atm' = Some a /\ (forall v, ~ In (QAtm v) quotes)
   | None => match atm' with None => forall v, ~ In (QAtm v) quotes
                           | Some a => exists l r, quotes = l ++ QAtm a :: r /\ (forall v, ~ In (QAtm v) (l ++ r)) end
   end).
Proof.
  assert (UB : forall B d f, 0 < d < 1 / 2 -> (forall d, In d (map fst B) -> 0 < d < 1 / 2) ->
    forall d', In d' (map fst (update_bucket B d f)) -> 0 < d' < 1 / 2).
  { intros B d f Hd. induction B as [|[e p] r IH]; cbn [update_bucket map fst In]; intros HB d'.
    - intros [<-|[]]. exact Hd.
    - destruct (Rlt_dec (Rabs (e - d)) (/ 10 ^ 9)); cbn [map fst In].
      + intros [<-|I]; apply HB; auto.
      + intros [<-|I]; [apply HB; auto|]. apply IH; [|exact I]. intros. apply HB. auto. }
  assert (CONS : forall (q : vol_quote) atm atm' quotes, (forall v, q <> QAtm v) ->
    (match atm with
     | Some a => atm' = Some a /\ (forall v, ~ In (QAtm v) quotes)
     | None => match atm' with None => forall v, ~ In (QAtm v) quotes
               | Some a => exists l r, quotes = l ++ QAtm a :: r /\ (forall v, ~ In (QAtm v) (l ++ r)) end
     end) ->
    (match atm with
     | Some a => atm' = Some a /\ (forall v, ~ In (QAtm v) (q :: quotes))
     | None => match atm' with None => forall v, ~ In (QAtm v) (q :: quotes)
               | Some a => exists l r, q :: quotes = l ++ QAtm a :: r /\ (forall v, ~ In (QAtm v) (l ++ r)) end
     end)).
  { intros q atm atm' qs Hq. destruct atm as [a|].
    - intros [E N]. split; [exact E|]. intros v [I|I]; [apply (Hq v); exact I|apply (N v); exact I].
    - destruct atm' as [a|].
      + intros (l & r & -> & N). exists (q :: l), r. split; [reflexivity|]. intros v [I|I]; [apply (Hq v); exact I|apply (N v); exact I].
      + intros N v [I|I]; [apply (Hq v); exact I|apply (N v); exact I]. }
  assert (STEP : forall k0 d0 v0 qs atm B atm' B',
    (forall atm B atm' B', collect_quotes atm B qs = Ok (atm', B') ->
      (forall d, In d (map fst B) -> 0 < d < 1 / 2) ->
      (forall d, In d (map fst B') -> 0 < d < 1 / 2) /\
      (forall k d v, In (quote_of k d v) qs -> 0 < d < 1 / 2) /\
      (match atm with
       | Some a => atm' = Some a /\ (forall v, ~ In (QAtm v) qs)
       | None => match atm' with None => forall v, ~ In (QAtm v) qs
                 | Some a => exists l r, qs = l ++ QAtm a :: r /\ (forall v, ~ In (QAtm v) (l ++ r)) end
       end)) ->
    (do _ <- validate_delta d0; collect_quotes atm (update_bucket B d0 (set k0 v0)) qs) = Ok (atm', B') ->
    (forall d, In d (map fst B) -> 0 < d < 1 / 2) ->
    (forall d, In d (map fst B') -> 0 < d < 1 / 2) /\
    (forall k d v, In (quote_of k d v) (quote_of k0 d0 v0 :: qs) -> 0 < d < 1 / 2) /\
    (match atm with
     | Some a => atm' = Some a /\ (forall v, ~ In (QAtm v) (quote_of k0 d0 v0 :: qs))
     | None => match atm' with None => forall v, ~ In (QAtm v) (quote_of k0 d0 v0 :: qs)
               | Some a => exists l r, quote_of k0 d0 v0 :: qs = l ++ QAtm a :: r /\ (forall v, ~ In (QAtm v) (l ++ r)) end
     end)).
  { intros k0 d0 v0 qs atm B atm' B' IH H HB. apply obind_Ok in H as (u & Hu & H). apply validate_ok in Hu.
    destruct (IH _ _ _ _ H) as (A1 & A2 & A3); [intros d; apply UB; assumption|].
    split; [exact A1|]. split.
    - intros k d v [E|I]; [apply quote_of_inj in E as (_ & -> & _); exact Hu|eapply A2; exact I].
    - apply CONS; [|exact A3]. intros v; destruct k0; discriminate. }
  induction quotes as [|q qs IH]; intros atm B atm' B' H HB.
  - cbn in H. assert (atm' = atm /\ B' = B) as [-> ->] by (split; congruence).
    split; [exact HB|]. split; [intros k d v []|]. destruct atm; [split; [reflexivity|intros v []]|intros v []].
  - destruct q as [v0|d0 v0|d0 v0|d0 v0|d0 v0].
    + cbn [collect_quotes] in H. destruct atm as [a|]; [discriminate|].
      destruct (IH _ _ _ _ H HB) as (A1 & A2 & A3 & A4). split; [exact A1|]. split.
      * intros k d v [E|I]; [destruct k; discriminate|eapply A2; exact I].
      * subst atm'. exists [], qs. split; [reflexivity|exact A4].
    + exact (STEP KCall d0 v0 qs atm B atm' B' IH H HB).
    + exact (STEP KPut d0 v0 qs atm B atm' B' IH H HB).
    + exact (STEP KRr d0 v0 qs atm B atm' B' IH H HB).
    + exact (STEP KBf d0 v0 qs atm B atm' B' IH H HB).
Qed.

Lemma collect_holds quotes : forall atm Q B atm' B', well_separated (Q ++ quotes) -> holds Q B ->
  collect_quotes atm B quotes = Ok (atm', B') -> holds (Q ++ quotes) B'.
Proof.
  induction quotes as [|q qs IH]; intros atm Q B atm' B' WS HB H.
  - cbn in H. rewrite app_nil_r. assert (B' = B) as -> by congruence. exact HB.
  - assert (ASSOC : Q ++ q :: qs = (Q ++ [q]) ++ qs) by (rewrite <- app_assoc; reflexivity).
    assert (WS' : well_separated (Q ++ [q])).
    { intros k k' d d' v v' I J. apply WS; rewrite ASSOC; apply in_app_iff; left; assumption. }
    rewrite ASSOC in *.
    assert (STEP : forall k d v, q = quote_of k d v ->
      (do _ <- validate_delta d; collect_quotes atm (update_bucket B d (set k v)) qs) = Ok (atm', B') -> holds ((Q ++ [q]) ++ qs) B').
    { intros k d v -> E. apply obind_Ok in E as (u & _ & E). eapply IH; [exact WS| |exact E]. apply holds_step; assumption. }
    destruct q as [v0|d0 v0|d0 v0|d0 v0|d0 v0]; cbn [collect_quotes] in H.
    + destruct atm; [discriminate|]. eapply IH; [exact WS| |exact H]. apply holds_atm. exact HB.
    + exact (STEP KCall d0 v0 eq_refl H).
    + exact (STEP KPut d0 v0 eq_refl H).
    + exact (STEP KRr d0 v0 eq_refl H).
    + exact (STEP KBf d0 v0 eq_refl H).
Qed.

Lemma holds_nil : holds [] [].
Proof. split; [constructor|]. split; [intros d; split; [intros []|intros (k & v & [])]|intros d p k v []]. Qed.

Lemma normalise_inv Q atm pairs : normalise_quotes Q = Ok (atm, pairs) ->
  (exists l r, Q = l ++ QAtm atm :: r /\ forall v, ~ In (QAtm v) (l ++ r)) /\
  (forall k d v, In (quote_of k d v) Q -> 0 < d < 1 / 2) /\
  (forall p, In p pairs -> 0 < dp_delta p < 1 / 2) /\
  exists B, collect_quotes None [] Q = Ok (Some atm, B) /\
    (forall d p, In (d, p) B -> exists q, In q pairs /\ resolve_partial d p atm = Ok q).
Proof.
  unfold normalise_quotes. intros H. apply obind_Ok in H as ([am B] & HC & H).
  destruct am as [a|]; [|discriminate]. apply obind_Ok in H as (ps & HP & H).
  assert (E : a = atm /\ rsort dp_delta ps = pairs).
  { destruct (rsort dp_delta ps); [discriminate|]. split; congruence. }
  destruct E as [-> <-]. destruct (collect_valid Q None [] _ _ HC) as (A1 & A2 & A3); [intros d []|].
  split; [exact A3|]. split; [exact A2|]. split.
  - intros p I. apply (Permutation_in _ (Permutation_sym (rsort_perm dp_delta ps))) in I.
    apply (omapM_in_inv _ _ _ _ HP) in I as ([d q] & I & E).
    assert (dp_delta p = d) as ->.
    { unfold resolve_partial in E. destruct (pd_call q), (pd_put q), (pd_rr q), (pd_bf q); try discriminate;
        apply (f_equal (fun o => match o with Ok y => dp_delta y | _ => 0 end)) in E; cbn [dp_delta] in E; symmetry; exact E. }
    apply A1. apply in_map_iff. exists (d, q). split; [reflexivity|exact I].
  - exists B. split; [exact HC|]. intros d p I. destruct (omapM_in _ _ _ _ HP I) as (q & J & E).
    exists q. split; [|exact E]. apply (Permutation_in _ (rsort_perm dp_delta ps)). exact J.
Qed.

(** A delta quoted as a call and a put. *)
Lemma normalise_direct Q atm pairs d vc vp : normalise_quotes Q = Ok (atm, pairs) -> well_separated Q ->
  In (QCall d vc) Q -> In (QPut d vp) Q -> In {| dp_delta := d; dp_call := vc; dp_put := vp |} pairs.
Proof.
  intros H WS IC IP. destruct (normalise_inv _ _ _ H) as (_ & _ & _ & B & HC & HR).
  destruct (collect_holds Q None [] [] _ _ WS holds_nil HC) as (_ & KEY & VAL). cbn [app] in KEY, VAL.
  assert (K : In d (map fst B)) by (apply KEY; exists KCall, vc; exact IC).
  apply in_map_iff in K as ([d' p] & E & I). cbn in E. subst d'.
  pose proof (proj2 (VAL d p KCall vc I) IC) as C. pose proof (proj2 (VAL d p KPut vp I) IP) as P. cbn [get] in C, P.
  destruct (HR d p I) as (q & J & E). unfold resolve_partial in E. rewrite C, P in E. injection E as <-. exact J.
Qed.

(** A delta quoted as a risk reversal and a butterfly, without both a call and a put. *)
Lemma normalise_rr_bf Q atm pairs d rr bf : normalise_quotes Q = Ok (atm, pairs) -> well_separated Q ->
  In (QRiskReversal d rr) Q -> In (QButterfly d bf) Q ->
  ~ ((exists v, In (QCall d v) Q) /\ (exists v, In (QPut d v) Q)) ->
  In {| dp_delta := d; dp_call := atm + bf + 1 / 2 * rr; dp_put := atm + bf - 1 / 2 * rr |} pairs.
Proof.
  intros H WS IC IP N. destruct (normalise_inv _ _ _ H) as (_ & _ & _ & B & HC & HR).
  destruct (collect_holds Q None [] [] _ _ WS holds_nil HC) as (_ & KEY & VAL). cbn [app] in KEY, VAL.
  assert (K : In d (map fst B)) by (apply KEY; exists KRr, rr; exact IC).
  apply in_map_iff in K as ([d' p] & E & I). cbn in E. subst d'.
  pose proof (proj2 (VAL d p KRr rr I) IC) as C. pose proof (proj2 (VAL d p KBf bf I) IP) as P. cbn [get] in C, P.
  destruct (HR d p I) as (q & J & E). unfold resolve_partial in E. rewrite C, P in E.
  destruct (pd_call p) as [c|] eqn:Ec; [destruct (pd_put p) as [u|] eqn:Eu|].
  - exfalso. apply N. split; [exists c; apply (VAL d p KCall c I); exact Ec|exists u; apply (VAL d p KPut u I); exact Eu].
  - injection E as <-. exact J.
  - injection E as <-. exact J.
Qed.

(** ** No panics *)
Lemma omapM_no_panic {A B} (f : A -> outcome B) l w : (forall a, In a l -> forall w, f a <> Panic w) -> omapM f l <> Panic w.
Proof.
  induction l as [|a r IH]; cbn [omapM]; intros H; [discriminate|].
  destruct (f a) as [b| |w'] eqn:E; cbn; [|discriminate|exfalso; apply (H a (or_introl eq_refl) w'); exact E].
  destruct (omapM f r) as [bs| |w'] eqn:E2; cbn; [discriminate|discriminate|].
  intros X. apply IH; [intros; apply H; right; assumption|]. congruence.
Qed.

Lemma obind_no_panic {A B} (o : outcome A) (k : A -> outcome B) w : (forall w, o <> Panic w) -> (forall a, o = Ok a -> k a <> Panic w) -> obind o k <> Panic w.
Proof. intros H K. destruct o as [a|e|u]; cbn; [apply K; reflexivity|discriminate|exfalso; apply (H u); reflexivity]. Qed.

Lemma validate_no_panic d w : validate_delta d <> Panic w.
Proof. unfold validate_delta. destruct (Rlt_dec 0 d); [destruct (Rlt_dec d (1/2))|]; discriminate. Qed.

Lemma collect_no_panic Q : forall atm B w, collect_quotes atm B Q <> Panic w.
Proof.
  induction Q as [|q r IH]; intros atm B w; cbn [collect_quotes]; [discriminate|].
  destruct q; [destruct atm; [discriminate|apply IH]|..]; (apply obind_no_panic; [intros; apply validate_no_panic|intros; apply IH]).
Qed.

Lemma normalise_no_panic Q w : normalise_quotes Q <> Panic w.
Proof.
  unfold normalise_quotes. apply obind_no_panic; [intros; apply collect_no_panic|]. intros [[a|] B] _; [|discriminate].
  apply obind_no_panic.
  - intros u. apply omapM_no_panic. intros [d p] _ u'. unfold resolve_partial.
    destruct (pd_call p), (pd_put p), (pd_rr p), (pd_bf p); discriminate.
  - intros ps _. destruct (rsort dp_delta ps); discriminate.
Qed.

Lemma oindex_ok {A} (l : list A) i : (i < length l)%nat -> exists a, oindex l i = Ok a.
Proof. intros L. unfold oindex. destruct (nth_error l i) as [a|] eqn:E; [exists a; reflexivity|]. apply nth_error_None in E. lia. Qed.

Lemma from_pillar_no_panic p t w : from_pillar p t <> Panic w.
Proof.
  unfold from_pillar. destruct (Rle_dec t 0); [discriminate|]. destruct (Rle_dec (vp_forward p) 0); [discriminate|].
  apply obind_no_panic; [intros; apply normalise_no_panic|]. intros [atm pairs] HN. cbv zeta.
  destruct (normalise_inv _ _ _ HN) as (_ & _ & HD & _).
  assert (HS : forall q, In q (rsort dp_delta pairs) -> 0 < dp_delta q < 1 / 2).
  { intros q I. apply HD. apply (Permutation_in _ (Permutation_sym (rsort_perm dp_delta pairs))). exact I. }
  set (sorted := rsort dp_delta pairs) in *.
  apply obind_no_panic.
  { intros u. apply omapM_no_panic. intros q I u'. apply HS in I. unfold strike_from_put_delta.
    destruct (inverse_cdf_ok (1 - dp_delta q)) as (x & E & _); [lra|]. rewrite E. cbn. discriminate. }
  intros puts HP. apply obind_no_panic.
  { intros u. apply omapM_no_panic. intros q I u'. apply in_rev in I. apply HS in I. unfold strike_from_call_delta.
    destruct (inverse_cdf_ok (dp_delta q)) as (x & E & _); [lra|]. rewrite E. cbn. discriminate. }
  intros calls HC.
  set (sv := puts ++ _ ++ calls). destruct (strikes_increase sv); [|discriminate].
  assert (Lp : length puts = length sorted) by apply (omapM_nth _ _ _ HP).
  assert (Ls : (length sorted < length sv)%nat) by (unfold sv; rewrite !app_length; cbn [length]; lia).
  set (xs := map _ sv). assert (Lx : length xs = length sv) by apply map_length.
  destruct (oindex_ok xs 0) as (a0 & ->); [lia|]. cbn [obind]. destruct (oindex_ok xs (length sorted)) as (a1 & ->); [lia|]. cbn [obind].
  destruct (oindex_ok xs (length sv - 1)) as (a2 & ->); [lia|]. cbn [obind].
  destruct (oindex_ok sv 0) as (b0 & ->); [lia|]. cbn [obind]. destruct (oindex_ok sv (length sorted)) as (b1 & ->); [lia|]. cbn [obind].
  destruct (oindex_ok sv (length sv - 1)) as (b2 & ->); [lia|]. cbn [obind].
  destruct (fit_quadratic _ _ _) as [[a b] c]. discriminate.
Qed.
