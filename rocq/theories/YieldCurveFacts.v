(** Proofs about the yield curve. *)
From Coq Require Import ZArith Lia Lra Bool List Reals Sorting.Sorted.
From Coq Require Import ZifyBool.
Import ListNotations.
From Verif Require Import Outcome Ints Loop Date DateFacts Calendar CalendarSpec CalendarFacts YieldCurve YieldCurveSpec.
Open Scope Z_scope.
Local Ltac lia := unfold date in *; Lia.lia.

Lemma Reqb_eq x y : Reqb x y = true <-> x = y.
Proof. unfold Reqb. destruct (Req_EM_T x y); split; congruence. Qed.

Lemma quote_source_eqb_eq x y : quote_source_eqb x y = true <-> x = y.
Proof. destruct x, y; cbn; split; congruence. Qed.

Lemma pillar_eqb_eq a b : pillar_eqb a b = true <-> a = b.
Proof.
  unfold pillar_eqb. rewrite !andb_true_iff, !Z.eqb_eq, !Reqb_eq, quote_source_eqb_eq, Bool.eqb_true_iff.
  destruct a, b; cbn. split.
  - intros ((((((-> & ->) & ->) & ->) & ->) & ->) & ->). reflexivity.
  - intros E. injection E as -> -> -> -> -> -> ->. tauto.
Qed.

Lemma zero_rate_total y d : (exists z, zero_rate y d = Ok z) <->
  in_range (d + 1) /\ stripped_curves y <> [].
Proof.
  unfold zero_rate. destruct (add_days_cases d 1) as [[R E]|[R E]]; rewrite E; cbn [obind].
  - destruct (stripped_curves y) as [|h l]; [split; [intros (z & H); discriminate|intros (_ & H); congruence]|].
    destruct (scan_pillars (d + 1) h h (h :: l)) as [a b].
    split; [intros _; split; [assumption|discriminate]|intros _].
    destruct (pillar_eqb b _); eauto.
  - split; [intros (z & H); discriminate|intros (H & _); contradiction].
Qed.

Lemma discount_total y d : (exists z, discount y d = Ok z) <->
  in_range (d + 1) /\ stripped_curves y <> [].
Proof.
  rewrite <- zero_rate_total. unfold discount. split.
  - intros (z & H). apply obind_Ok in H. destruct H as (a & E & _). eauto.
  - intros (z & H). rewrite H. cbn. eauto.
Qed.

Lemma discount_pos y d x : discount y d = Ok x -> (0 < x)%R.
Proof.
  unfold discount. intros H. apply obind_Ok in H. destruct H as (z & _ & E). injection E as <-. apply exp_pos.
Qed.

Lemma discount_valuation y x : discount y (c_valuation_date y) = Ok x -> x = 1%R.
Proof.
  unfold discount. intros H. apply obind_Ok in H. destruct H as (z & _ & E). injection E as <-.
  unfold yf365. rewrite Z.sub_diag. unfold Rdiv. rewrite Rmult_0_l, Rmult_0_r. apply exp_0.
Qed.

Lemma forward_discount oc y start tenor e f d1 d2 :
  add_period oc start tenor = Ok e -> e <> start ->
  forward_rate oc y start tenor = Ok f -> discount y start = Ok d1 -> discount y e = Ok d2 ->
  d2 = (d1 * exp (- f * yf365 start e))%R.
Proof.
  intros He Hne. unfold forward_rate, discount. rewrite He. cbn [obind].
  destruct (zero_rate y start) as [z1| |]; cbn [obind]; try discriminate.
  destruct (zero_rate y e) as [z2| |]; cbn [obind]; try discriminate.
  intros F D1 D2. apply (f_equal (fun o => match o with Ok x => x | _ => 0%R end)) in F, D1, D2.
  subst f d1 d2. set (a := yf365 (c_valuation_date y) start). set (b := yf365 (c_valuation_date y) e).
  assert (Hab : yf365 start e = (b - a)%R).
  { unfold a, b, yf365. rewrite !minus_IZR. field. }
  assert (Hn : (b - a <> 0)%R).
  { rewrite <- Hab. unfold yf365. intros H.
    assert (IZR (e - start) = 0)%R as H0 by lra. apply eq_IZR_R0 in H0. lia. }
  rewrite Hab. rewrite <- exp_plus.
  replace (exp (- z1 * a) / exp (- z2 * b))%R with (exp (- z1 * a + z2 * b)).
  2:{ replace (- z1 * a + z2 * b)%R with (- z1 * a + - (- z2 * b))%R by ring.
      rewrite exp_plus, exp_Ropp. reflexivity. }
  rewrite ln_exp. f_equal. field. assumption.
Qed.

(** ** The pillar scan *)

Definition hit (t : date) (c : pillar) : bool := (t <=? p_date c) && negb (hidden_pillar c).

Lemma scan_hit t a b pre q post : (forall p, In p pre -> hit t p = false) -> hit t q = true ->
  scan_pillars t a b (pre ++ q :: post) = (last pre a, q).
Proof.
  revert a. induction pre as [|p pre IH]; intros a Hp Hq; cbn.
  - unfold hit in Hq. rewrite Hq. reflexivity.
  - pose proof (Hp p (or_introl eq_refl)) as E. unfold hit in E. rewrite E.
    rewrite IH; [|intros x Hx; apply Hp; right; exact Hx|exact Hq].
    destruct pre as [|p' pre']; [reflexivity|]. f_equal. cbn [last].
    clear. revert p'. induction pre' as [|x r IH]; intros p'; [reflexivity|]. apply IH.
Qed.

Lemma scan_miss t a b l : (forall p, In p l -> hit t p = false) -> scan_pillars t a b l = (last l a, b).
Proof.
  revert a. induction l as [|p l IH]; intros a Hp; cbn; [reflexivity|].
  pose proof (Hp p (or_introl eq_refl)) as E. unfold hit in E. rewrite E.
  rewrite IH; [|intros x Hx; apply Hp; right; exact Hx].
  destruct l as [|p' r]; [reflexivity|]. f_equal. clear. revert p'.
  induction r as [|x r IH]; intros p'; [reflexivity|]. apply IH.
Qed.

Lemma last_In {A} (l : list A) d : l <> [] -> In (last l d) l.
Proof.
  induction l as [|x r IH]; [congruence|]. intros _. destruct r; [left; reflexivity|]. right. apply IH. discriminate.
Qed.

Lemma sorted_last l d p : StronglySorted (fun a b => p_date a <= p_date b) l -> In p l -> p_date p <= p_date (last l d).
Proof.
  intros S. induction S as [|x l Sl IH F]; intros Hp; [contradiction|]. destruct l as [|z l'].
  - destruct Hp as [->|[]]. cbn. lia.
  - change (last (x :: z :: l') d) with (last (z :: l') d). destruct Hp as [->|Hp]; [|apply IH; exact Hp].
    rewrite Forall_forall in F. apply F. apply last_In. discriminate.
Qed.

Lemma find_first {A} (f : A -> bool) pre q post : (forall p, In p pre -> f p = false) -> f q = true ->
  find f (pre ++ q :: post) = Some q.
Proof.
  induction pre as [|p pre IH]; intros Hp Hq; cbn; [rewrite Hq; reflexivity|].
  rewrite (Hp p (or_introl eq_refl)). apply IH; [|exact Hq]. intros x Hx. apply Hp. right. exact Hx.
Qed.

Lemma weighted_line a b t : p_date a <> p_date b ->
  ((IZR (t - p_date a) * p_zero_rate b + IZR (p_date b - t) * p_zero_rate a) /
   (IZR (t - p_date a) + IZR (p_date b - t)))%R = line_through a b t.
Proof.
  intros N. unfold line_through. rewrite <- plus_IZR. replace (t - p_date a + (p_date b - t)) with (p_date b - p_date a) by lia.
  assert (IZR (p_date b - p_date a) <> 0)%R by (intros H; apply eq_IZR_R0 in H; lia).
  rewrite !minus_IZR in *. field. assumption.
Qed.

(** [q] is the first visible pillar on or after [t]. *)
Lemma zero_rate_front y d pre q post :
  in_range (d + 1) -> stripped_curves y = pre ++ q :: post ->
  (forall p, In p pre -> hidden_pillar p = true) -> visible q -> d + 1 <= p_date q ->
  zero_rate y d = Ok (p_zero_rate q).
Proof.
  intros R E Hp Hq L. unfold zero_rate. destruct (add_days_cases d 1) as [[_ A]|[N _]]; [|contradiction].
  rewrite A. cbn [obind].
  assert (H1 : forall h, scan_pillars (d + 1) h h (stripped_curves y) = (last pre h, q)).
  { intros h. rewrite E. apply scan_hit.
    - intros p Hip. unfold hit. rewrite (Hp p Hip). apply andb_false_r.
    - unfold hit. rewrite Hq. cbn. rewrite andb_true_r. lia. }
  assert (H2 : find (fun c => negb (hidden_pillar c)) (stripped_curves y) = Some q).
  { rewrite E. apply find_first; [|rewrite Hq; reflexivity]. intros p Hip. rewrite (Hp p Hip). reflexivity. }
  destruct (stripped_curves y) as [|h l]; [destruct pre; discriminate|].
  rewrite H1, H2. rewrite (proj2 (pillar_eqb_eq q q) eq_refl). reflexivity.
Qed.

Lemma zero_rate_inside y d pre v a q post :
  in_range (d + 1) -> ordered_curve (stripped_curves y) ->
  stripped_curves y = pre ++ a :: q :: post ->
  (forall p, In p (pre ++ [a]) -> hidden_pillar p = true \/ p_date p < d + 1) ->
  In v (pre ++ [a]) -> visible v ->
  visible q -> d + 1 <= p_date q ->
  p_date a <> p_date q /\ zero_rate y d = Ok (line_through a q (d + 1)).
Proof.
  intros R [S U] E Hp Hv Vv Hq L. unfold zero_rate.
  destruct (add_days_cases d 1) as [[_ A]|[N _]]; [|contradiction].
  rewrite A. cbn [obind].
  assert (E' : stripped_curves y = (pre ++ [a]) ++ q :: post) by (rewrite E, <- app_assoc; reflexivity).
  assert (Hit : forall p, In p (pre ++ [a]) -> hit (d + 1) p = false).
  { intros p Hip. unfold hit. destruct (Hp p Hip) as [H|H]; [rewrite H; apply andb_false_r|].
    apply andb_false_intro1. lia. }
  assert (Hitq : hit (d + 1) q = true) by (unfold hit; rewrite Hq; cbn; rewrite andb_true_r; lia).
  assert (H1 : forall h, scan_pillars (d + 1) h h (stripped_curves y) = (a, q)).
  { intros h. rewrite E', scan_hit; [|exact Hit|exact Hitq]. rewrite last_last. reflexivity. }
  assert (Na : p_date a <> p_date q).
  { intros Ed. assert (a = q).
    { apply U; [rewrite E; apply in_or_app; right; left; reflexivity
               |rewrite E; apply in_or_app; right; right; left; reflexivity|exact Ed]. }
    subst a. rewrite (Hit q) in Hitq; [discriminate|]. apply in_or_app. right. left. reflexivity. }
  split; [exact Na|].
  assert (exists tf, find (fun c => negb (hidden_pillar c)) (stripped_curves y) = Some tf /\ In tf (pre ++ [a])) as (tf & H2 & Itf).
  { rewrite E'. clear - Hv Vv. revert Hv. generalize (pre ++ [a]). intros l. induction l as [|x r IH]; cbn; [contradiction|].
    intros H. destruct (hidden_pillar x) eqn:Hx; cbn.
    - destruct H as [->|H]; [unfold visible in Vv; congruence|]. destruct (IH H) as (tf & F & I). eauto.
    - exists x. auto. }
  destruct (stripped_curves y) as [|h l]; [destruct pre; discriminate|].
  rewrite H1, H2. destruct (pillar_eqb q tf) eqn:Eq.
  - apply pillar_eqb_eq in Eq. subst tf. rewrite (Hit q Itf) in Hitq. discriminate.
  - f_equal. apply weighted_line. exact Na.
Qed.

Lemma zero_rate_beyond_visible y d h rest :
  in_range (d + 1) -> stripped_curves y = h :: rest -> visible h ->
  (forall p, In p (h :: rest) -> visible p -> p_date p < d + 1) ->
  zero_rate y d = Ok (p_zero_rate h).
Proof.
  intros R E Vh Hp. unfold zero_rate. destruct (add_days_cases d 1) as [[_ A]|[N _]]; [|contradiction].
  rewrite A. cbn [obind]. rewrite E.
  rewrite scan_miss.
  2:{ intros p Hip. unfold hit. destruct (hidden_pillar p) eqn:Hh; [apply andb_false_r|].
      apply andb_false_intro1. specialize (Hp p Hip Hh). lia. }
  cbn [find]. rewrite Vh. cbn [negb]. rewrite (proj2 (pillar_eqb_eq h h) eq_refl). reflexivity.
Qed.

Lemma zero_rate_beyond_hidden y d h rest v :
  in_range (d + 1) -> stripped_curves y = h :: rest -> ordered_curve (stripped_curves y) ->
  hidden_pillar h = true -> In v rest -> visible v ->
  (forall p, In p (h :: rest) -> visible p -> p_date p < d + 1) ->
  zero_rate y d = Ok (line_through (last rest h) h (d + 1)).
Proof.
  intros R E [S U] Hh Iv Vv Hp. unfold zero_rate. destruct (add_days_cases d 1) as [[_ A]|[N _]]; [|contradiction].
  rewrite A. cbn [obind]. rewrite E in *.
  rewrite scan_miss.
  2:{ intros p Hip. unfold hit. destruct (hidden_pillar p) eqn:Hh'; [apply andb_false_r|].
      apply andb_false_intro1. specialize (Hp p Hip Hh'). lia. }
  assert (exists tf, find (fun c => negb (hidden_pillar c)) (h :: rest) = Some tf /\ visible tf) as (tf & -> & Vtf).
  { cbn [find]. rewrite Hh. cbn [negb]. clear - Iv Vv. induction rest as [|x r IH]; cbn; [contradiction|].
    destruct (hidden_pillar x) eqn:Hx; cbn.
    - destruct Iv as [->|Iv]; [unfold visible in Vv; congruence|]. apply IH. exact Iv.
    - exists x. auto. }
  destruct (pillar_eqb h tf) eqn:Eq; [apply pillar_eqb_eq in Eq; unfold visible in *; congruence|].
  assert (EL : last (h :: rest) h = last rest h) by (destruct rest; [contradiction|reflexivity]).
  rewrite EL. f_equal. apply weighted_line.
  intros Ed. assert (IL : In (last rest h) rest) by (apply last_In; intros ->; contradiction).
  assert (AllEq : p_date v = p_date h).
  { inversion S as [|? ? Sr Fh]; subst. rewrite Forall_forall in Fh. specialize (Fh v Iv) as Lv. cbn in Lv.
    assert (Ll : p_date v <= p_date (last rest h)).
    { clear - Sr Iv. induction Sr as [|x r Sr IH F]; [contradiction|]. destruct r as [|z r'].
      - destruct Iv as [->|[]]. cbn. lia.
      - change (last (x :: z :: r') h) with (last (z :: r') h). destruct Iv as [->|Iv]; [|apply IH; exact Iv].
        rewrite Forall_forall in F. apply F. apply last_In. discriminate. }
    lia. }
  assert (v = h) by (apply U; [right; exact Iv|left; reflexivity|exact AllEq]). subst. unfold visible in *. congruence.
Qed.

Lemma line_between a b t : p_date a < p_date b -> p_date a <= t <= p_date b ->
  (Rmin (p_zero_rate a) (p_zero_rate b) <= line_through a b t <= Rmax (p_zero_rate a) (p_zero_rate b))%R.
Proof.
  intros L H. unfold line_through.
  assert (0 <= IZR (t - p_date a) / IZR (p_date b - p_date a) <= 1)%R as [A B].
  { assert (0 < IZR (p_date b - p_date a))%R by (apply IZR_lt; lia).
    assert (0 <= IZR (t - p_date a))%R by (apply IZR_le; lia).
    assert (IZR (t - p_date a) <= IZR (p_date b - p_date a))%R by (apply IZR_le; lia).
    split; [apply Rmult_le_pos; [assumption|left; apply Rinv_0_lt_compat; assumption]|].
    apply Rmult_le_reg_r with (IZR (p_date b - p_date a)); [assumption|]. unfold Rdiv.
    rewrite Rmult_assoc, Rinv_l by lra. lra. }
  revert A B. generalize (IZR (t - p_date a) / IZR (p_date b - p_date a))%R. intros w A B.
  unfold Rmin, Rmax. destruct (Rle_dec (p_zero_rate a) (p_zero_rate b)); split; nra.
Qed.

(** ** Parallel shifts *)

Lemma raise_inj s a b : raise_pillar s a = raise_pillar s b -> a = b.
Proof.
  destruct a, b. unfold raise_pillar. cbn. intros E. injection E as -> -> -> E -> -> ->.
  apply Rplus_eq_reg_r in E. subst. reflexivity.
Qed.

Lemma raise_eqb s a b : pillar_eqb (raise_pillar s a) (raise_pillar s b) = pillar_eqb a b.
Proof.
  destruct (pillar_eqb a b) eqn:E.
  - apply pillar_eqb_eq in E. subst. apply pillar_eqb_eq. reflexivity.
  - destruct (pillar_eqb (raise_pillar s a) (raise_pillar s b)) eqn:E'; [|reflexivity].
    apply pillar_eqb_eq, raise_inj in E'. subst. rewrite (proj2 (pillar_eqb_eq b b) eq_refl) in E. discriminate.
Qed.

Lemma scan_raise s t a b l : scan_pillars t (raise_pillar s a) (raise_pillar s b) (map (raise_pillar s) l) =
  let '(x, z) := scan_pillars t a b l in (raise_pillar s x, raise_pillar s z).
Proof.
  revert a. induction l as [|c r IH]; intros a; cbn; [reflexivity|].
  destruct ((t <=? p_date c) && negb (hidden_pillar c)); [reflexivity|]. apply IH.
Qed.

Lemma find_raise s l : find (fun c => negb (hidden_pillar c)) (map (raise_pillar s) l) =
  option_map (raise_pillar s) (find (fun c => negb (hidden_pillar c)) l).
Proof.
  induction l as [|c r IH]; cbn; [reflexivity|]. destruct (hidden_pillar c); [exact IH|reflexivity].
Qed.

Lemma scan_dates t h r a q : ordered_curve (h :: r) -> scan_pillars t h h (h :: r) = (a, q) ->
  p_date a = p_date q ->
  q = match find (fun c => negb (hidden_pillar c)) (h :: r) with Some c => c | None => h end.
Proof.
  intros [S U] E D.
  destruct (existsb (hit t) (h :: r)) eqn:X.
  - (* there is a hit *)
    assert (exists pre q' post, h :: r = pre ++ q' :: post /\ (forall p, In p pre -> hit t p = false) /\ hit t q' = true)
      as (pre & q' & post & E1 & E2 & E3).
    { clear - X. revert X. generalize (h :: r). intros l. induction l as [|c l IH]; cbn; [discriminate|].
      destruct (hit t c) eqn:Hc; [intros _; exists [], c, l; repeat split; auto; intros p []|].
      cbn. intros H. destruct (IH H) as (pre & q & post & -> & A & B). exists (c :: pre), q, post.
      split; [reflexivity|]. split; [|exact B]. intros p [<-|Hp]; auto. }
    rewrite E1, scan_hit in E by assumption. injection E as Ea Eq. subst q'.
    destruct pre as [|p0 pre].
    { cbn in E1. injection E1 as -> ->. cbn [find]. unfold hit in E3. apply andb_true_iff in E3.
      destruct E3 as [_ ->]. reflexivity. }
    assert (In a (p0 :: pre)) as Ia by (rewrite <- Ea; apply last_In; discriminate).
    assert (a = q) as ->.
    { apply U; [rewrite E1; apply in_or_app; left; exact Ia|rewrite E1; apply in_or_app; right; left; reflexivity|exact D]. }
    rewrite (E2 q Ia) in E3. discriminate.
  - assert (Hm : forall p, In p (h :: r) -> hit t p = false).
    { intros p Hp. destruct (hit t p) eqn:Hh; [|reflexivity].
      assert (existsb (hit t) (h :: r) = true) by (apply existsb_exists; eauto). congruence. }
    rewrite scan_miss in E by assumption. injection E as Ea Eq. subst q.
    assert (All : forall p, In p (h :: r) -> p = h).
    { intros p Hp. apply U; [exact Hp|left; reflexivity|].
      assert (L1 : p_date h <= p_date p).
      { destruct Hp as [->|Hp]; [lia|]. inversion S as [|? ? _ F]; subst. rewrite Forall_forall in F. apply F. exact Hp. }
      assert (L2 : p_date p <= p_date a).
      { rewrite <- Ea. exact (sorted_last (h :: r) h p S Hp). }
      lia. }
    destruct (find (fun c => negb (hidden_pillar c)) (h :: r)) as [c|] eqn:F; [|reflexivity].
    apply find_some in F. symmetry. apply All. apply F.
Qed.

Lemma zero_rate_raise s y d z : ordered_curve (stripped_curves y) -> zero_rate y d = Ok z ->
  zero_rate (raise_curve s y) d = Ok (z + s)%R.
Proof.
  intros O. unfold zero_rate, raise_curve. cbn [stripped_curves].
  destruct (add_days d 1) as [t| |]; cbn [obind]; try discriminate.
  destruct (stripped_curves y) as [|h r]; [discriminate|]. cbn [map].
  change (raise_pillar s h :: map (raise_pillar s) r) with (map (raise_pillar s) (h :: r)).
  rewrite scan_raise, find_raise.
  destruct (scan_pillars t h h (h :: r)) as [a q] eqn:E.
  pose proof (scan_dates t h r a q O E) as Hd. revert Hd.
  destruct (find (fun c => negb (hidden_pillar c)) (h :: r)) as [tf|] eqn:F; cbn [option_map]; intros Hd;
  rewrite raise_eqb.
  - destruct (pillar_eqb q tf) eqn:Q.
    + intros H. apply (f_equal (fun o => match o with Ok x => x | _ => 0%R end)) in H. subst z. reflexivity.
    + intros H. apply (f_equal (fun o => match o with Ok x => x | _ => 0%R end)) in H. subst z. f_equal.
      assert (N : p_date a <> p_date q).
      { intros X. rewrite (Hd X) in Q. rewrite (proj2 (pillar_eqb_eq tf tf) eq_refl) in Q. discriminate. }
      cbn [raise_pillar p_date p_zero_rate].
      assert (IZR (t - p_date a) + IZR (p_date q - t) <> 0)%R.
      { rewrite <- plus_IZR. intros X. apply eq_IZR_R0 in X. lia. }
      field. assumption.
  - destruct (pillar_eqb q h) eqn:Q.
    + intros H. apply (f_equal (fun o => match o with Ok x => x | _ => 0%R end)) in H. subst z. reflexivity.
    + intros H. apply (f_equal (fun o => match o with Ok x => x | _ => 0%R end)) in H. subst z. f_equal.
      assert (N : p_date a <> p_date q).
      { intros X. rewrite (Hd X) in Q. rewrite (proj2 (pillar_eqb_eq h h) eq_refl) in Q. discriminate. }
      cbn [raise_pillar p_date p_zero_rate].
      assert (IZR (t - p_date a) + IZR (p_date q - t) <> 0)%R.
      { rewrite <- plus_IZR. intros X. apply eq_IZR_R0 in X. lia. }
      field. assumption.
Qed.

Lemma shifted_is_raised y d bp x : ordered_curve (stripped_curves y) ->
  shifted_discount y d bp = Ok x -> discount (raise_curve (bp * (1 / 10000)) y) d = Ok x.
Proof.
  intros O H. unfold shifted_discount, discount in H. apply obind_Ok in H. destruct H as (b & H & E).
  apply obind_Ok in H. destruct H as (z & Z & B).
  apply (f_equal (fun o => match o with Ok x => x | _ => 0%R end)) in E, B. subst x b.
  unfold discount. rewrite (zero_rate_raise _ y d z O Z). cbn [obind]. f_equal.
  rewrite <- exp_plus. f_equal. cbn [raise_curve c_valuation_date]. ring.
Qed.

Lemma shifted_total y d bp : (exists x, shifted_discount y d bp = Ok x) <-> (exists x, discount y d = Ok x).
Proof.
  unfold shifted_discount. split; intros (x & H).
  - apply obind_Ok in H. destruct H as (b & H & _). eauto.
  - rewrite H. cbn. eauto.
Qed.

Lemma shifted_zero y d x : shifted_discount y d 0 = Ok x <-> discount y d = Ok x.
Proof.
  unfold shifted_discount. destruct (discount y d) as [b| |]; cbn [obind]; try tauto.
  replace (- 0 * (1 / 10000) * yf365 (c_valuation_date y) d)%R with 0%R by ring. rewrite exp_0, Rmult_1_r. tauto.
Qed.
