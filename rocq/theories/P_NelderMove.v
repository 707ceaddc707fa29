(** C46, continued: the moves of the simplex, over the reals. *)
From Coq Require Import Arith Lia Bool List Permutation Sorting.Sorted Reals Lra.
Import ListNotations.
From Flocq Require IEEE754.BinarySingleNaN IEEE754.Binary IEEE754.Bits.
From Verif Require Import Outcome NelderMead NelderMeadFacts P_NelderMead.
Open Scope R_scope.

Definition coordinate (x : list R) (j : nat) : R := nth j x 0.
Definition sum_at (s : nm_state R_floats) (j : nat) : R := fold_right Rplus 0 (map (fun v => coordinate v j) (simplex s)).
(** One vertex has moved to [x] after evaluations at [points]. *)
Definition moved (n : nat) (s s' : nm_state R_floats) (w : nat) (x : list R) (points : list (list R)) : Prop :=
  calls s' = calls s ++ points /\ vertex s' w = x /\ forall i, (i <= n)%nat -> i <> w -> vertex s' i = vertex s i.

Section Moves.
  Context (sort : (nat -> R_floats) -> list nat -> list nat) (HS : @sorts_floats R_floats sort) (f : list R_floats -> R_floats).

  Lemma second_spec n x0 s i : (1 <= n)%nat -> @Inv R_floats f n x0 s -> let order := sort (fun i => get (values s) i) (seq 0 (S n)) in
    (i <= n)%nat -> i <> nth n order 0%nat -> (f (vertex s i) <= f (vertex s (nth (n - 1) order 0%nat))) /\ nth (n - 1) order 0%nat <> nth n order 0%nat.
  Proof.
    intros L I order Hi NE.
    assert (NN : existsb NelderMead.is_nan (values s) = false) by (apply not_true_is_false; intros E; apply existsb_exists in E as (v & _ & E); rewrite R_not_nan in E; discriminate).
    destruct (@order_spec R_floats R_order sort HS f n x0 s L I NN) as (P & LO & ND & IO & _ & _ & _ & _ & _ & Rs & _). fold order in P, LO, ND, IO, Rs.
    destruct (HS (fun i => get (values s) i) (seq 0 (S n)) ltac:(intros; apply R_not_nan)) as [_ SS]. fold order in SS.
    split; [|intros E; apply (proj1 (NoDup_nth order 0%nat) ND) in E; lia].
    destruct (In_nth order i 0%nat (proj2 (IO i) Hi)) as (k & Lk & Ek). assert (K : (k <= n - 1)%nat) by (destruct (Nat.eq_dec k n) as [->|]; [congruence|lia]).
    rewrite <- (proj1 (@value_nth R_floats f _ _ _ _ I Hi)), <- (proj1 (@value_nth R_floats f _ _ _ _ I Rs)). rewrite <- Ek.
    destruct (Nat.eq_dec k (n - 1)) as [->|NK]; [apply Rle_refl|]. apply R_le.
    assert (B : (n - 1 < length order)%nat) by lia. assert (A : (k < n - 1)%nat) by lia. clear - SS A B. revert A B. generalize (n - 1)%nat as b. revert k.
    induction SS as [|x r SS IH F]; intros a b A B; [cbn in B; lia|]. destruct b as [|b]; [lia|]. cbn [nth]. destruct a as [|a].
    - rewrite Forall_forall in F. apply F. apply nth_In. cbn in B. lia.
    - apply IH; cbn in B; lia.
  Qed.

  Lemma fold_sum (g : nat -> R) l : forall a, fold_left (fun c i => c + g i) l a = a + fold_right Rplus 0 (map g l).
  Proof. induction l as [|x l IH]; intros a; cbn [fold_left map fold_right]; [ring|]. rewrite IH. ring. Qed.
  Lemma sum_permutation l l' : Permutation l l' -> fold_right Rplus 0 l = fold_right Rplus 0 l'.
  Proof. induction 1; cbn [fold_right]; lra. Qed.
  Lemma sum_app l l' : fold_right Rplus 0 (l ++ l') = fold_right Rplus 0 l + fold_right Rplus 0 l'.
  Proof. induction l as [|x l IH]; cbn [app fold_right]; lra. Qed.
  Lemma vertices (s : nm_state R_floats) : simplex s = map (vertex s) (seq 0 (length (simplex s))).
  Proof.
    unfold vertex. generalize (simplex s) as l. induction l as [|x l IH]; [reflexivity|]. cbn [length seq map nth]. f_equal. rewrite <- seq_shift, map_map. cbn [nth]. exact IH.
  Qed.
  Lemma centroid_spec n (s : nm_state R_floats) order j : (1 <= n)%nat -> length (simplex s) = S n -> Permutation (seq 0 (S n)) order -> (j < n)%nat ->
    INR n * coordinate (@centroid R_floats n s order) j + coordinate (vertex s (nth n order 0%nat)) j = sum_at s j.
  Proof.
    intros L LS P Hj. assert (LO : length order = S n) by (rewrite <- (Permutation_length P), seq_length; reflexivity). assert (N0 : INR n <> 0) by (apply not_0_INR; lia).
    unfold coordinate at 1. unfold centroid. rewrite nth_indep with (d' := (fun j => fdiv (fold_left (fun c idx => fadd c (get (vertex s idx) j)) (firstn n order) (f_of_nat 0)) (f_of_nat n)) 0%nat) by (rewrite map_length, seq_length; exact Hj).
    rewrite (map_nth (fun j => fdiv (fold_left (fun c idx => fadd c (get (vertex s idx) j)) (firstn n order) (f_of_nat 0)) (f_of_nat n))). rewrite seq_nth by exact Hj. cbn [Nat.add].
    change (fdiv ?a ?b) with (a / b)%R. change (@f_of_nat R_floats n) with (INR n). change (@f_of_nat R_floats 0) with 0.
    change (@fold_left (fl R_floats) nat (fun c idx => fadd c (@get R_floats (vertex s idx) j)) (firstn n order) 0) with (fold_left (fun c idx => c + (fun idx => coordinate (vertex s idx) j) idx) (firstn n order) 0).
    rewrite fold_sum, Rplus_0_l. unfold sum_at. rewrite (vertices s), map_map, LS. rewrite (sum_permutation _ _ (Permutation_map (fun i => coordinate (vertex s i) j) P)).
    assert (EO : order = firstn n order ++ [nth n order 0%nat]). { rewrite <- (firstn_skipn n order) at 1. f_equal. assert (LK : length (skipn n order) = 1%nat) by (rewrite skipn_length; lia). destruct (skipn n order) as [|a [|? ?]] eqn:E; try discriminate LK. rewrite <- (firstn_skipn n order), E, app_nth2; rewrite firstn_length, Nat.min_l by lia; [|lia]. rewrite Nat.sub_diag. reflexivity. }
    rewrite EO at 3. rewrite map_app, sum_app. cbn [map fold_right]. field. exact N0.
  Qed.

  Lemma coordinate_map (g : nat -> R) n j : (j < n)%nat -> coordinate (map g (seq 0 n)) j = g j.
  Proof. intros H. unfold coordinate. rewrite nth_indep with (d' := g 0%nat) by (rewrite map_length, seq_length; exact H). rewrite map_nth, seq_nth by exact H. reflexivity. Qed.

  Lemma shrink_spec n b idxs : forall s, length (simplex s) = S n -> NoDup idxs -> ~ In b idxs -> (forall i, In i idxs -> (i <= n)%nat) ->
    let s' := fold_left (shrink_one f n b) idxs s in length (calls s') = (length (calls s) + length idxs)%nat /\
    (forall i, ~ In i idxs -> vertex s' i = vertex s i) /\
    forall i j, In i idxs -> (j < n)%nat -> coordinate (vertex s' i) j = (coordinate (vertex s i) j + coordinate (vertex s b) j) / 2.
  Proof.
    induction idxs as [|a r IH]; intros s LS ND NB RNG; cbn zeta; [cbn; split; [lia|split; [reflexivity|intros ? ? []]]|]. cbn [fold_left]. inversion ND as [|? ? NI ND']; subst.
    set (s1 := shrink_one f n b s a). assert (L1 : length (simplex s1) = S n) by (unfold s1, shrink_one, replace, called; cbn [simplex]; rewrite upd_length; exact LS).
    assert (La : (a <= n)%nat) by (apply RNG; left; reflexivity).
    assert (V1 : forall i, i <> a -> vertex s1 i = vertex s i) by (intros i Hi; unfold s1, shrink_one, replace, called, vertex; cbn [simplex]; apply upd_nth_ne; congruence).
    destruct (IH s1 L1 ND' ltac:(intros H; apply NB; right; exact H) ltac:(intros i H; apply RNG; right; exact H)) as (C & A & B). cbn zeta in *.
    assert (NBa : b <> a) by (intros ->; apply NB; left; reflexivity).
    split; [rewrite C; unfold s1, shrink_one, replace, called; cbn [calls]; rewrite app_length; cbn [length]; lia|]. split.
    - intros i Hi. rewrite A by (intros H; apply Hi; right; exact H). apply V1. intros ->. apply Hi. left. reflexivity.
    - intros i j [<-|Hi] Hj.
      + rewrite A by exact NI. assert (E : vertex s1 a = map (fun j => coordinate (vertex s b) j + / 2 * (coordinate (vertex s a) j - coordinate (vertex s b) j)) (seq 0 n)) by (unfold s1, shrink_one, replace, called, vertex at 1; cbn [simplex]; rewrite upd_nth_eq by lia; apply map_ext; intros; cbn; unfold coordinate, get; cbn; lra).
        rewrite E, coordinate_map by exact Hj. lra.
      + rewrite B by assumption. rewrite (V1 i), (V1 b); [reflexivity|exact NBa|intros ->; contradiction].
  Qed.
End Moves.

(** An iteration that does not stop moves the simplex as Nelder and Mead have it.  With [b] a best and [w] a worst vertex, [c] the centroid of all but [w],
    [r] the reflection, [e] the expansion and [k] the contraction of [w], it tries [r]; if that is the best yet it tries [e] as well and keeps the better;
    if it is between the best and some other vertex it keeps it; otherwise it keeps [k] if that is better than [w], and halves the simplex towards [b] if not. *)
Theorem C46_moves sort (f : list R -> R) x0 (opts : nm_options R_floats) n s s' : @sorts_floats R_floats sort -> (1 <= n)%nat -> @Inv R_floats f n x0 s -> @nm_step R_floats sort f n opts s = Ok (s', false) ->
  exists b w c r e k, (b <= n /\ w <= n /\ b <> w)%nat /\ (forall i, (i <= n)%nat -> f (vertex s b) <= f (vertex s i) <= f (vertex s w)) /\
    (forall j, (j < n)%nat -> INR n * coordinate c j + coordinate (vertex s w) j = sum_at s j /\ coordinate r j - coordinate c j = coordinate c j - coordinate (vertex s w) j /\
       coordinate e j - coordinate c j = 2 * (coordinate r j - coordinate c j) /\ coordinate k j = (coordinate (vertex s w) j + coordinate c j) / 2) /\
    (f r < f (vertex s b) -> moved n s s' w (if Rlt_dec (f e) (f r) then e else r) [r; e]) /\
    (f (vertex s b) <= f r -> (exists i, (i <= n)%nat /\ i <> w /\ f r < f (vertex s i)) -> moved n s s' w r [r]) /\
    ((forall i, (i <= n)%nat -> i <> w -> f (vertex s i) <= f r) ->
       (f k < f (vertex s w) -> moved n s s' w k [r; k]) /\
       (f (vertex s w) <= f k -> vertex s' b = vertex s b /\ length (calls s') = (length (calls s) + 2 + n)%nat /\
          forall i j, (i <= n)%nat -> i <> b -> (j < n)%nat -> coordinate (vertex s' i) j = (coordinate (vertex s i) j + coordinate (vertex s b) j) / 2)).
Proof.
  intros HS L I H.
  assert (NN : existsb NelderMead.is_nan (values s) = false) by (apply not_true_is_false; intros E; apply existsb_exists in E as (v & _ & E); rewrite R_not_nan in E; discriminate).
  destruct (@order_spec R_floats R_order sort HS f n x0 s L I NN) as (P & LO & ND & IO & MIN & MAX & _ & Rb & Rw & Rs & NE & rest & EO). cbv zeta in *.
  pose proof (fun i => second_spec sort HS f n x0 s i L I) as SEC. cbv zeta in SEC.
  assert (VAL : forall i, (i <= n)%nat -> @get R_floats (values s) i = f (vertex s i)) by (intros i Hi; apply (@value_nth R_floats f _ _ _ _ I Hi)).
  unfold nm_step in H. rewrite NN in H. cbv zeta in H.
  set (order := sort (fun i => @get R_floats (values s) i) (seq 0 (S n))) in *. set (b := nth 0 order 0%nat) in *. set (w := nth n order 0%nat) in *. set (sw := nth (n - 1) order 0%nat) in *.
  destruct (flt _ (ftol opts) && flt _ (xtol opts)); [discriminate H|].
  pose proof I as (LS & _). set (c := @centroid R_floats n s order) in *.
  set (r := map (fun j => @fadd R_floats (get c j) (fsub (get c j) (get (vertex s w) j))) (seq 0 n)) in *.
  set (e := map (fun j => @fadd R_floats (get c j) (fmul (f_of_nat 2) (fsub (get r j) (get c j)))) (seq 0 n)) in *.
  set (k := map (fun j => @fadd R_floats (get c j) (fmul f_half (fsub (get (vertex s w) j) (get c j)))) (seq 0 n)) in *.
  change (vertex (called s r) w) with (vertex s w) in H. fold k in H. rewrite !VAL in H by assumption.
  assert (MV : forall x pts s1, simplex s1 = simplex s -> calls s1 = calls s ++ pts -> moved n s (@replace R_floats s1 w x (f x)) w x pts).
  { intros x pts s1 E1 E2. split; [exact E2|]. unfold vertex, replace. cbn [simplex]. rewrite E1. split; [apply upd_nth_eq; lia|]. intros i _ Hi. apply upd_nth_ne. congruence. }
  exists b, w, c, r, e, k. split; [auto|]. split; [intros i Hi; split; apply R_le; [apply MIN|apply MAX]; exact Hi|]. split.
  { intros j Hj. split; [apply centroid_spec; assumption|]. 
    assert (ER : coordinate r j = coordinate c j + (coordinate c j - coordinate (vertex s w) j)) by (unfold r; exact (coordinate_map (fun j => coordinate c j + (coordinate c j - coordinate (vertex s w) j)) n j Hj)).
    assert (EE : coordinate e j = coordinate c j + INR 2 * (coordinate r j - coordinate c j)) by (unfold e; exact (coordinate_map (fun j => coordinate c j + INR 2 * (coordinate r j - coordinate c j)) n j Hj)).
    assert (EK : coordinate k j = coordinate c j + @f_half R_floats * (coordinate (vertex s w) j - coordinate c j)) by (unfold k; exact (coordinate_map (fun j => coordinate c j + @f_half R_floats * (coordinate (vertex s w) j - coordinate c j)) n j Hj)).
    cbn in EE. change (@f_half R_floats) with (/ 2) in EK || cbn in EK. split; [lra|]. split; lra. }
  assert (FGE : forall x y, @fge R_floats x y = true <-> y <= x). { intros x y. unfold fge. pose proof (R_lt x y) as RL. unfold flt in RL. pose proof (R_le y x) as RG. unfold fle in RG. pose proof (cmp_flip R_floats R_order y x) as FL. destruct (@fcmp R_floats x y) as [[]|] eqn:E.
    - split; [intros _; apply RG|reflexivity]. right. destruct (@fcmp R_floats y x) as [[]|]; cbn in FL; congruence.
    - split; [discriminate|]. intros G. assert (x < y) by (apply RL; reflexivity). lra.
    - split; [intros _; apply RG|reflexivity]. left. destruct (@fcmp R_floats y x) as [[]|]; cbn in FL; congruence.
    - exfalso. apply (cmp_def R_floats R_order) in E as [E|E]; rewrite R_not_nan in E; discriminate. }
  assert (FLT : forall x y, @flt R_floats x y = false <-> y <= x). { intros x y. pose proof (R_lt x y) as RL. destruct (flt x y); split; intros G; try discriminate; try reflexivity; [assert (x < y) by (apply RL; reflexivity); lra|]. apply Rnot_lt_le. intros K. apply RL in K. discriminate. }
  split; [|split].
  - intros HR. assert (G1 : @fge R_floats (f r) (f (vertex s b)) = false) by (apply not_true_is_false; intros G; apply FGE in G; lra). rewrite G1, andb_false_r in H. assert (G2 : @flt R_floats (f r) (f (vertex s b)) = true) by (apply R_lt; exact HR). rewrite G2 in H. injection H as <-.
    destruct (Rlt_dec (f e) (f r)) as [G3|G3].
    + assert (G4 : @flt R_floats (f e) (f r) = true) by (apply R_lt; exact G3). rewrite G4. apply MV; [reflexivity|cbn [called calls]; rewrite <- app_assoc; reflexivity].
    + assert (G4 : @flt R_floats (f e) (f r) = false) by (apply FLT; lra). rewrite G4. apply MV; [reflexivity|cbn [called calls]; rewrite <- app_assoc; reflexivity].
  - intros HR (i & Hi & Ni & HI). destruct (SEC i Hi Ni) as [S1 S2]. assert (G1 : @flt R_floats (f r) (f (vertex s sw)) = true) by (apply R_lt; lra). assert (G2 : @fge R_floats (f r) (f (vertex s b)) = true) by (apply FGE; exact HR). rewrite G1, G2 in H. cbn [andb] in H. injection H as <-. apply MV; reflexivity.
  - intros ALL. destruct (SEC b Rb NE) as [_ S2]. assert (G1 : @flt R_floats (f r) (f (vertex s sw)) = false) by (apply FLT, ALL; assumption). assert (G2 : @flt R_floats (f r) (f (vertex s b)) = false) by (apply FLT, ALL; [exact Rb|exact NE]). rewrite G1, G2 in H. cbn [andb] in H. split.
    + intros HK. assert (G3 : @flt R_floats (f k) (f (vertex s w)) = true) by (apply R_lt; exact HK). rewrite G3 in H. injection H as <-. apply MV; [reflexivity|cbn [called calls]; rewrite <- app_assoc; reflexivity].
    + intros HK. assert (G3 : @flt R_floats (f k) (f (vertex s w)) = false) by (apply FLT; exact HK). rewrite G3 in H. injection H as <-.
      assert (ND2 : NoDup (tl order) /\ ~ In b (tl order)) by (rewrite EO in ND |- *; inversion ND; split; assumption).
      set (s2 := called (called s r) k). assert (L2 : length (simplex s2) = S n) by exact LS.
      destruct (shrink_spec f n b (tl order) s2 L2 (proj1 ND2) (proj2 ND2)) as (C1 & C2 & C3); [intros i Hi; apply IO; rewrite EO; right; rewrite EO in Hi; exact Hi|]. cbv zeta in *.
      split; [rewrite C2 by apply ND2; reflexivity|]. split.
      * rewrite C1. unfold s2, called. cbn [calls]. rewrite !app_length. cbn [length]. rewrite EO in LO |- *. cbn [tl length] in LO |- *. lia.
      * intros i j Hi Nb Hj. rewrite C3; [reflexivity| |exact Hj]. apply IO in Hi. rewrite EO in Hi |- *. destruct Hi as [Hi|Hi]; [congruence|exact Hi].
Qed.
Print Assumptions C46_moves.

(** The paraboloid from (3, -1), with no tolerance on the values: the first iteration does not stop. *)
Definition strict : nm_options R_floats := @Build_nm_options R_floats 500 0 0 (/ 20).
Definition first_simplex : nm_state R_floats := {| simplex := @initial_simplex R_floats strict [3; -1]; values := map bowl (@initial_simplex R_floats strict [3; -1]); calls := @initial_simplex R_floats strict [3; -1] |}.
Example C46_witness_moves : @sorts_floats R_floats fsort /\ @Inv R_floats bowl 2 [3; -1] first_simplex /\ exists s', @nm_step R_floats fsort bowl 2 strict first_simplex = Ok (s', false).
Proof.
  split; [exact (fsort_sorts R_order)|]. split; [exact (initial_inv R_order bowl strict [3; -1])|].
  unfold nm_step. assert (NN : existsb NelderMead.is_nan (values first_simplex) = false) by reflexivity. rewrite NN. cbv zeta.
  match goal with |- context [@flt R_floats (fabs ?v) (ftol strict)] => assert (F : @flt R_floats (fabs v) (ftol strict) = false) by (apply not_true_is_false; intros E; apply R_lt in E; cbn [ftol strict fabs R_floats] in E; match type of E with (Rabs ?u < _) => pose proof (Rabs_pos u); lra end); rewrite F end.
  cbn [andb]. repeat match goal with |- context [if ?b then Ok _ else _] => destruct b end; eexists; reflexivity.
Qed.

(** In binary64: a start at which the objective is NaN aborts the search, and an objective that is never NaN does not. *)
Theorem C46_nan sort (f : list b64_floats -> b64_floats) x0 opts : @sorts_floats b64_floats sort -> x0 <> [] ->
  (Binary.is_nan 53 1024 (f x0) = true -> @nelder_mead b64_floats sort f x0 opts = Panic PUnwrap) /\
  ((forall x, length x = length x0 -> Binary.is_nan 53 1024 (f x) = false) -> exists m, @nelder_mead b64_floats sort f x0 opts = Ok m).
Proof.
  intros HS NE. destruct (C46_total b64_floats sort f x0 opts b64_order HS) as (_ & A & B). split.
  - intros H. apply A; [exact NE|]. rewrite b64_nan. exact H.
  - intros H. apply B; [exact NE|]. intros x Lx. rewrite b64_nan. apply H. exact Lx.
Qed.
Print Assumptions C46_nan.
Example C46_witness_nan64 : @sorts_floats b64_floats fsort /\ Binary.is_nan 53 1024 (Bits.b64_div BinarySingleNaN.mode_NE P_NelderMead.zero64 P_NelderMead.zero64) = true /\ Binary.is_nan 53 1024 P_NelderMead.zero64 = false.
Proof. split; [exact (fsort_sorts b64_order)|split; reflexivity]. Qed.
