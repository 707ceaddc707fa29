(** C78: the stochastic-local-volatility simulator. *)
From Coq Require Import Bool List Arith Reals Permutation Sorting.Sorted Lra Lia Psatz.
Import ListNotations.
From Verif Require Import Outcome Processes ProcessFacts SabrEffective P_SabrEffective P_SabrTime Slv.
From Verif Require Dupire DupireFacts P_Dupire.
Open Scope R_scope.

(** ** Bins *)
Definition sum (l : list R) : R := fold_right Rplus 0 l.
Lemma fold_sum (b : list (R * R)) : forall s, fold_left (fun s x => s + snd x) b s = s + sum (map snd b).
Proof. induction b as [|x b IH]; intros s; cbn [fold_left map sum fold_right]; [unfold sum; cbn [fold_right map]; ring|]. rewrite IH. unfold sum. cbn [map fold_right]. ring. Qed.

(** Consecutive runs of [size] of a list. *)
Fixpoint runs {A} (fuel size : nat) (l : list A) : list (list A) :=
  match fuel with
  | O => []
  | S fuel => match l with [] => [] | _ => firstn size l :: runs fuel size (skipn size l) end
  end.
Lemma bins_runs size : forall fuel l, bins fuel size l = map bin_of (runs fuel size l).
Proof. induction fuel as [|fuel IH]; intros l; [reflexivity|]. cbn. destruct l; [reflexivity|]. cbn [map]. rewrite IH. reflexivity. Qed.
Lemma runs_concat {A} size : forall fuel (l : list A), (1 <= size)%nat -> (length l <= fuel)%nat -> concat (runs fuel size l) = l.
Proof.
  induction fuel as [|fuel IH]; intros l S L; [destruct l; [reflexivity|cbn in L; lia]|]. destruct l as [|a l]; [reflexivity|].
  cbn [runs concat]. rewrite IH; [apply firstn_skipn|exact S|]. rewrite skipn_length. cbn [length Nat.mul] in *. lia.
Qed.
Lemma runs_nonempty {A} size : forall fuel (l : list A), (1 <= size)%nat -> forall c, In c (runs fuel size l) -> c <> [] /\ (length c <= size)%nat.
Proof.
  induction fuel as [|fuel IH]; intros l S c C; [destruct C|]. destruct l as [|a l]; [destruct C|]. cbn [runs] in C. destruct C as [<- |C]; [|apply (IH _ S _ C)].
  split; [destruct size; [lia|discriminate]|]. rewrite firstn_length. lia.
Qed.
(** All but the last run are full. *)
Lemma runs_full {A} size : forall fuel (l : list A) m, (1 <= size)%nat -> (S m < length (runs fuel size l))%nat -> length (nth m (runs fuel size l) []) = size.
Proof.
  induction fuel as [|fuel IH]; intros l m S L; [cbn in L; lia|]. destruct l as [|a l]; [cbn in L; lia|]. cbn [runs length] in L |- *.
  destruct m as [|m].
  - cbn [nth]. rewrite firstn_length, Nat.min_l; [reflexivity|]. destruct (le_lt_dec size (length (a :: l))) as [H|H]; [exact H|].
    rewrite skipn_all2 in L by lia. destruct fuel; cbn in L; lia.
  - cbn [nth]. apply IH; [exact S|lia].
Qed.
Lemma runs_length {A} size : forall fuel (l : list A) k, (1 <= size)%nat -> (length l <= k * size)%nat -> (length (runs fuel size l) <= k)%nat.
Proof.
  induction fuel as [|fuel IH]; intros l k S L; [cbn; lia|]. destruct l as [|a l]; [cbn; lia|]. cbn [runs length].
  destruct k as [|k]; [cbn in L; lia|]. apply le_n_S, IH; [exact S|]. rewrite skipn_length. cbn [length Nat.mul] in *. lia.
Qed.

Lemma last_in {A} (d : A) l : l <> [] -> In (last l d) l.
Proof. intros H. destruct (exists_last H) as (l' & a & ->). rewrite last_last. apply in_or_app. right. left. reflexivity. Qed.

Lemma sorted_app (l m : list (R * R)) : StronglySorted (fun a b => fst a <= fst b) (l ++ m) ->
  StronglySorted (fun a b => fst a <= fst b) l /\ StronglySorted (fun a b => fst a <= fst b) m /\ forall x y, In x l -> In y m -> fst x <= fst y.
Proof.
  induction l as [|a l IH]; cbn; intros H; [repeat split; [constructor|exact H|intros x y []]|].
  inversion H as [|? ? H1 H2]; subst. destruct (IH H1) as (A & B & C). rewrite Forall_forall in H2. split; [|split; [exact B|]].
  - constructor; [exact A|]. apply Forall_forall. intros x X. apply H2, in_or_app. left. exact X.
  - intros x y [<- |X] Y; [apply H2, in_or_app; right; exact Y|apply C; assumption].
Qed.

Lemma sorted_last (l : list (R * R)) d x : StronglySorted (fun a b => fst a <= fst b) l -> In x l -> fst x <= fst (last l d).
Proof.
  intros S X. assert (NE : l <> []) by (intros ->; destruct X). destruct (exists_last NE) as (l' & a & ->). rewrite last_last.
  destruct (sorted_app _ _ S) as (_ & _ & H). apply in_app_or in X. destruct X as [X|[<- |[]]]; [apply H; [exact X|left; reflexivity]|lra].
Qed.

Lemma nodup_app {A} (l m : list A) : NoDup (l ++ m) -> forall x y, In x l -> In y m -> x <> y.
Proof.
  induction l as [|a l IH]; cbn [app]; intros H x y X Y E; [destruct X|]. inversion H as [|? ? N1 N2]; subst. destruct X as [<- |X].
  - apply N1, in_or_app. right. exact Y.
  - exact (IH N2 y y X Y eq_refl).
Qed.

(** In a sorted list with distinct keys every element looks up the bin of its own run. *)
Lemma lookup_own : forall cs m c x, StronglySorted (fun a b => fst a <= fst b) (concat cs) -> NoDup (map fst (concat cs)) -> (forall c, In c cs -> c <> []) ->
  nth_error cs m = Some c -> In x c -> lookup_bin (fst x) (map bin_of cs) = Ok (snd (bin_of c)).
Proof.
  intros cs m c x S ND NE M X. unfold lookup_bin.
  enough (F : find (fun b => Rleb (fst x) (fst b)) (map bin_of cs) = Some (bin_of c)) by (rewrite F; reflexivity).
  revert m M S ND NE. induction cs as [|c0 cs IH]; intros m M S ND NE; [destruct m; discriminate|].
  cbn [concat] in S, ND. destruct (sorted_app _ _ S) as (S0 & S1 & S2). destruct m as [|m]; cbn [nth_error] in M.
  - injection M as ->. cbn [map find]. assert (L := sorted_last c (0, 0) x S0 X). unfold bin_of at 1. cbn [fst].
    unfold Rleb. destruct (Rle_dec (fst x) (fst (last c (0, 0)))); [reflexivity|lra].
  - cbn [map find]. assert (XC : In x (concat cs)). { apply in_concat. exists c. split; [eapply nth_error_In; exact M|exact X]. }
    assert (N0 : c0 <> []) by (apply NE; left; reflexivity). pose proof (last_in (0, 0) c0 N0) as L0.
    assert (LT : fst (last c0 (0, 0)) < fst x).
    { destruct (S2 _ _ L0 XC) as [H|H]; [exact H|]. exfalso. rewrite map_app in ND.
      apply (nodup_app _ _ ND (fst x) (fst x)); [rewrite <- H; apply in_map, L0|apply in_map, XC|reflexivity]. }
    unfold bin_of at 1. cbn [fst]. unfold Rleb at 1. destruct (Rle_dec (fst x) (fst (last c0 (0, 0)))); [lra|].
    apply (IH m); try assumption.
    + rewrite map_app in ND. clear - ND. induction (map fst c0) as [|b l IH]; [exact ND|]. cbn in ND. inversion ND; subst. apply IH. assumption.
    + intros c' C'. apply NE. right. exact C'.
Qed.

Notation pair_of := (fun s : sabr_state R_numbers => (forward s, vol s * vol s)).
Notation state := (sabr_state R_numbers).

Lemma runs_map {A B} (f : A -> B) size : forall fuel l, runs fuel size (map f l) = map (map f) (runs fuel size l).
Proof.
  induction fuel as [|fuel IH]; intros l; [reflexivity|]. destruct l as [|a l]; [reflexivity|].
  change (map f (a :: l)) with (f a :: map f l). cbn [runs map]. f_equal; [rewrite <- firstn_map; reflexivity|].
  change (f a :: map f l) with (map f (a :: l)). rewrite skipn_map. apply IH.
Qed.

(** The bins of a population: at most [k] groups of consecutive paths in the order of their forwards, all
    of one size but the last, which may be smaller; the size is the least that gives [k] groups at most.
    A bin holds the greatest forward of its group and the mean of the squared volatilities; when the
    forwards are distinct every path finds the mean of its own group. *)
Theorem C78_bins : forall sort (states : list state) k, sorts sort -> states <> [] ->
  (k = 0%nat -> bin_vol_sq_by_forward sort states k = Panic PArith) /\
  ((0 < k)%nat -> exists bs (groups : list (list state)) size,
    bin_vol_sq_by_forward sort states k = Ok bs /\ Permutation (concat groups) states /\
    length groups = length bs /\ (1 <= length bs <= k)%nat /\ (k * (size - 1) < length states <= k * size)%nat /\
    (forall m, (S m < length groups)%nat -> length (nth m groups []) = size) /\
    (forall m g, nth_error groups m = Some g -> (1 <= length g <= size)%nat) /\
    (forall m n g h s s', (m < n)%nat -> nth_error groups m = Some g -> nth_error groups n = Some h -> In s g -> In s' h -> forward s <= forward s') /\
    (forall m g, nth_error groups m = Some g -> exists u e, nth_error bs m = Some (u, e) /\
       (forall s, In s g -> forward s <= u) /\ (exists s, In s g /\ forward s = u) /\
       INR (length g) * e = sum (map (fun s => vol s ^ 2) g) /\
       (NoDup (map forward states) -> forall s, In s g -> lookup_bin (forward s) bs = Ok e))).
Proof.
  intros sort states k HS NE. split; [intros ->; reflexivity|]. intros K.
  assert (N : (1 <= length states)%nat) by (destruct states; [congruence|cbn; lia]).
  set (size := Nat.div (length states + (k - 1)) k).
  assert (SZ : (k * (size - 1) < length states <= k * size)%nat).
  { unfold size. pose proof (Nat.div_mod (length states + (k - 1)) k ltac:(lia)) as D.
    pose proof (Nat.mod_upper_bound (length states + (k - 1)) k ltac:(lia)) as M. set (q := ((length states + (k - 1)) / k)%nat) in *.
    destruct q as [|q]; [lia|]. replace (S q - 1)%nat with q by lia. lia. }
  assert (S1 : (1 <= size)%nat). { destruct size; lia. }
  destruct (HS (map pair_of states)) as (PM & SO). apply Permutation_sym in PM.
  destruct (Permutation_map_inv _ _ PM) as (ordered & EO & PO).
  set (groups := runs (length states) size ordered).
  assert (LO : length ordered = length states) by (apply Permutation_length; symmetry; exact PO).
  assert (CG : concat groups = ordered) by (apply runs_concat; lia).
  exists (bins (length states) size (sort (map pair_of states))), groups, size.
  assert (EB : bins (length states) size (sort (map pair_of states)) = map bin_of (map (map pair_of) groups)).
  { rewrite bins_runs, EO, runs_map. reflexivity. }
  split. { unfold bin_vol_sq_by_forward. destruct (Nat.eqb_spec k 0); [lia|]. reflexivity. }
  split. { rewrite CG. symmetry. exact PO. }
  split. { rewrite EB, !map_length. reflexivity. }
  split.
  { rewrite EB, !map_length. split; [|apply runs_length; lia]. destruct groups as [|c cs] eqn:EG; [|cbn; lia]. exfalso. cbn in CG. rewrite <- CG in LO. cbn in LO. lia. }
  split; [exact SZ|].
  split; [intros m M; apply runs_full; assumption|].
  assert (GN : forall m g, nth_error groups m = Some g -> g <> [] /\ (length g <= size)%nat).
  { intros m g M. apply (runs_nonempty size (length states) ordered S1). eapply nth_error_In. exact M. }
  split. { intros m g M. destruct (GN m g M) as (A & B). split; [|exact B]. destruct g; [congruence|cbn; lia]. }
  assert (SC : StronglySorted (fun a b => fst a <= fst b) (concat (map (map pair_of) groups))).
  { rewrite <- concat_map, CG. rewrite EO in SO. exact SO. }
  split.
  { intros m n g h s s' MN MG NH. revert SC. clear - MN MG NH. revert n m MN MG NH.
    induction groups as [|c cs IH]; intros n m MN MG NH SC X Y; [destruct m; discriminate|]. cbn [map concat] in SC.
    destruct (sorted_app _ _ SC) as (_ & S1 & S2). destruct n as [|n]; [lia|]. destruct m as [|m].
    - cbn in MG. injection MG as ->. apply (S2 (pair_of s) (pair_of s')).
      + apply (in_map pair_of), X.
      + apply in_concat. exists (map pair_of h). split; [apply in_map; cbn in NH; eapply nth_error_In; exact NH|apply (in_map pair_of), Y].
    - apply (IH n m); try assumption. lia. }
  intros m g M. destruct (GN m g M) as (GE & _).
  assert (NB : nth_error (bins (length states) size (sort (map pair_of states))) m = Some (bin_of (map pair_of g))).
  { rewrite EB, nth_error_map, nth_error_map, M. reflexivity. }
  exists (fst (bin_of (map pair_of g))), (snd (bin_of (map pair_of g))). split; [rewrite NB; reflexivity|].
  assert (SG : StronglySorted (fun a b => fst a <= fst b) (map pair_of g)).
  { revert SC. clear - M. revert m M. induction groups as [|c cs IH]; intros m M SC; [destruct m; discriminate|]. cbn [map concat] in SC.
    destruct (sorted_app _ _ SC) as (S0 & S1 & _). destruct m; [injection M as ->; exact S0|apply (IH m); assumption]. }
  split. { intros s X. unfold bin_of. cbn [fst]. apply (sorted_last (map pair_of g) (0, 0) (pair_of s) SG), (in_map pair_of), X. }
  split.
  { assert (L : In (last (map pair_of g) (0, 0)) (map pair_of g)) by (apply last_in; intros E; apply GE; destruct g; [reflexivity|discriminate]).
    apply in_map_iff in L. destruct L as (s & E & X). exists s. split; [exact X|]. unfold bin_of. cbn [fst]. exact (f_equal fst E). }
  split.
  { unfold bin_of. cbn [snd]. rewrite fold_sum, map_length, map_map.
    assert (0 < INR (length g)) by (apply lt_0_INR; destruct g; [congruence|cbn; lia]).
    replace (map (fun s : state => vol s ^ 2) g) with (map (fun s : state => snd (pair_of s)) g) by (apply map_ext; intros s; cbn [snd]; ring).
    match goal with |- context [sum ?l] => set (S := sum l) end. change (INR (length g) * ((0 + S) / INR (length g)) = S). field. lra. }
  intros ND s X. rewrite EB. apply (lookup_own (map (map pair_of) groups) m (map pair_of g) (pair_of s)).
  - exact SC.
  - rewrite <- concat_map, CG, map_map. cbn [fst]. apply (Permutation_NoDup (l := map forward states)); [apply Permutation_map, PO|exact ND].
  - intros c C. apply in_map_iff in C. destruct C as (c' & <- & C'). apply In_nth_error in C'. destruct C' as (m' & C'). destruct (GN m' c' C') as (A & _).
    intros E. apply A. destruct c'; [reflexivity|discriminate].
  - rewrite nth_error_map, M. reflexivity.
  - apply (in_map pair_of), X.
Qed.
Print Assumptions C78_bins.

Lemma powf_pos x y : 0 < x -> powfR x y = Rpower x y.
Proof. intros H. unfold powfR. destruct (Req_EM_T x 0); [lra|reflexivity]. Qed.

Lemma eps_pos : 0 < / 10 ^ 12.
Proof. apply Rinv_0_lt_compat, pow_lt. lra. Qed.

(** A step of one path: the forward moves with the local volatility of the surface times the ratio of
    its own volatility to the root mean square found in the bins, whatever the exponent beta; the
    volatility moves by the exact lognormal step; two draws are used. *)
Theorem C78_path : forall d pm bs t dt (g : rng R_numbers) (s : state) lv e,
  let f := Rmax (forward s) (/ 10 ^ 12) in
  Dupire.local_variance d t f = Ok lv -> 0 <= lv -> lookup_bin f bs = Ok e -> 0 <= vol s -> / 10 ^ 12 <= e * Rpower f (2 * beta pm - 2) ->
  exists s', slv_path_step d pm bs t dt g s = Ok (fun k => g (S (S k)), s') /\
    forward s' = Rmax (f + f * (sqrt lv * (vol s / sqrt e)) * (sqrt dt * g 0%nat)) 0 /\
    vol s' = vol s * exp (nu pm * (sqrt dt * (rho pm * g 0%nat + sqrt (1 - rho pm ^ 2) * g 1%nat)) - nu pm ^ 2 / 2 * dt).
Proof.
  intros d pm bs t dt g s lv e f LV L0 LE V0 DE. unfold slv_path_step. cbn [sample_normal]. fold f. rewrite LV. cbn [obind]. rewrite LE. cbn [obind].
  eexists. split; [reflexivity|]. cbn [forward vol]. rewrite (Rmax_left (vol s) 0) by exact V0.
  assert (FP : 0 < f) by (unfold f; eapply Rlt_le_trans; [apply eps_pos|apply Rmax_r]).
  rewrite !powf_pos by exact FP. rewrite <- Rpower_plus. replace (beta pm - 1 + (beta pm - 1)) with (2 * beta pm - 2) by (cbn; ring).
  set (P := Rpower f (2 * beta pm - 2)) in *. assert (PP : 0 < P) by (unfold P, Rpower; apply exp_pos).
  pose proof eps_pos as EP. rewrite (Rmax_left (e * P)) by exact DE.
  assert (E0 : 0 < e) by nra. assert (EPP : 0 < e * P) by lra.
  assert (Q : 0 <= lv / (e * P)) by (unfold Rdiv; apply Rmult_le_pos; [exact L0|left; apply Rinv_0_lt_compat, EPP]).
  rewrite (Rmax_left (lv / (e * P))) by exact Q.
  assert (SP : sqrt P = Rpower f (beta pm - 1)).
  { unfold P. replace (2 * beta pm - 2) with ((beta pm - 1) + (beta pm - 1)) by (cbn; ring). rewrite Rpower_plus. apply sqrt_square. left. unfold Rpower. apply exp_pos. }
  split.
  - f_equal. f_equal. rewrite sqrt_div_alt by exact EPP. rewrite sqrt_mult by lra. rewrite SP.
    assert (RF : Rpower f (beta pm) = f * Rpower f (beta pm - 1)).
    { rewrite <- (Rpower_1 f FP) at 2. rewrite <- Rpower_plus. f_equal. assert (HB : forall b : R, b = 1 + (b - 1)) by (intros; ring). apply HB. }
    rewrite RF. assert (0 < sqrt e) by (apply sqrt_lt_R0, E0). assert (0 < Rpower f (beta pm - 1)) by (unfold Rpower; apply exp_pos).
    set (x := Rpower f (beta pm - 1)) in *. match goal with |- ?a = ?b => change (@eq R a b) end. cbn [num R_numbers nadd] in *. field. split; lra.
  - f_equal. f_equal. replace (rho pm ^ 2) with (rho pm * rho pm) by (cbn; ring). match goal with |- ?a = ?b => change (@eq R a b) end. cbn. lra.
Qed.
Print Assumptions C78_path.

(** The compensator mimics the surface: with distinct forwards and positive volatilities, over each
    group of the population the squares of the factors that multiply the local volatility average to
    one. *)
Theorem C78_mimics : forall sort (states : list state) k, sorts sort -> states <> [] -> (0 < k)%nat -> NoDup (map forward states) -> (forall s, In s states -> 0 < vol s) ->
  exists bs (groups : list (list state)), bin_vol_sq_by_forward sort states k = Ok bs /\ Permutation (concat groups) states /\ (length groups <= k)%nat /\
    forall g, In g groups -> exists e, 0 < e /\ (forall s, In s g -> lookup_bin (forward s) bs = Ok e) /\
      sum (map (fun s => (vol s / sqrt e) ^ 2) g) = INR (length g).
Proof.
  intros sort states k HS NE K ND VP. destruct (proj2 (C78_bins sort states k HS NE) K) as (bs & groups & size & EB & PM & LG & LB & _ & _ & GS & _ & GB).
  exists bs, groups. split; [exact EB|]. split; [exact PM|]. split; [lia|]. intros g G.
  apply In_nth_error in G. destruct G as (m & M). destruct (GB m g M) as (u & e & _ & _ & _ & SE & LK). specialize (LK ND).
  assert (SP : 0 < sum (map (fun s => vol s ^ 2) g)).
  { assert (GI : forall s, In s g -> 0 < vol s) by (intros s X; apply VP, (Permutation_in _ PM), in_concat; exists g; split; [eapply nth_error_In; exact M|exact X]).
    pose proof (GS m g M) as L. destruct g as [|s g]; [cbn in L; lia|]. clear - GI. unfold sum. cbn [map fold_right].
    assert (0 < vol s ^ 2) by (apply pow_lt, GI; left; reflexivity).
    assert (0 <= fold_right Rplus 0 (map (fun s : state => vol s ^ 2) g)).
    { clear. induction g as [|a g IH]; [cbn; lra|]. cbn [map fold_right]. pose proof (pow2_ge_0 (vol a)). lra. }
    lra. }
  assert (LP : 0 < INR (length g)) by (apply lt_0_INR; pose proof (GS m g M); lia).
  assert (E0 : 0 < e) by nra. exists e. split; [exact E0|]. split; [exact LK|].
  assert (R : forall l : list state, sum (map (fun s => (vol s / sqrt e) ^ 2) l) = sum (map (fun s => vol s ^ 2) l) / e).
  { assert (Q : sqrt e * sqrt e = e) by (apply sqrt_sqrt; lra). assert (0 < sqrt e) by (apply sqrt_lt_R0, E0).
    induction l as [|a l IH]; unfold sum in *; cbn [map fold_right]; [field; lra|]. rewrite IH. rewrite <- Q at 2 3. field. lra. }
  rewrite R, <- SE. field. lra.
Qed.
Print Assumptions C78_mimics.

(** When every path has the same volatility, as at the start and whenever the volatility of volatility
    is zero, every path finds its square, ties or not, and the forward follows the local volatility. *)
Theorem C78_same_vol : forall sort (states : list state) k a f, sorts sort -> states <> [] -> (0 < k)%nat -> (forall s, In s states -> vol s = a) ->
  exists bs, bin_vol_sq_by_forward sort states k = Ok bs /\ lookup_bin f bs = Ok (a ^ 2) /\
    (forall d pm t dt (g : rng R_numbers) s lv, In s states -> f = Rmax (forward s) (/ 10 ^ 12) -> 0 < a -> Dupire.local_variance d t f = Ok lv -> 0 <= lv ->
       / 10 ^ 12 <= a ^ 2 * Rpower f (2 * beta pm - 2) ->
       exists s', slv_path_step d pm bs t dt g s = Ok (fun k => g (S (S k)), s') /\ forward s' = Rmax (f + f * sqrt lv * (sqrt dt * g 0%nat)) 0).
Proof.
  intros sort states k a f HS NE K SV. destruct (proj2 (C78_bins sort states k HS NE) K) as (bs & groups & size & EB & PM & LG & LB & _ & _ & GS & _ & GB).
  exists bs. split; [exact EB|].
  assert (ALL : forall b, In b bs -> snd b = a ^ 2).
  { intros b B. apply In_nth_error in B. destruct B as (m & M). assert (ML : (m < length groups)%nat) by (rewrite LG; apply nth_error_Some; congruence).
    destruct (nth_error groups m) as [g|] eqn:EG; [|apply nth_error_None in EG; lia]. destruct (GB m g EG) as (u & e & M' & _ & _ & SE & _).
    rewrite M in M'. injection M' as ->. cbn [snd]. pose proof (GS m g EG) as L. assert (LP : 0 < INR (length g)) by (apply lt_0_INR; lia).
    assert (GI : forall s, In s g -> vol s = a) by (intros s X; apply SV, (Permutation_in _ PM), in_concat; exists g; split; [eapply nth_error_In; exact EG|exact X]).
    assert (R : sum (map (fun s => vol s ^ 2) g) = INR (length g) * a ^ 2).
    { clear - GI. induction g as [|s g IH]; unfold sum in *; [cbn; ring|]. cbn [map fold_right length]. rewrite IH by (intros; apply GI; right; assumption).
      rewrite (GI s) by (left; reflexivity). rewrite S_INR. ring. }
    rewrite R in SE. apply (Rmult_eq_reg_l (INR (length g))); [exact SE|lra]. }
  assert (LK : lookup_bin f bs = Ok (a ^ 2)).
  { unfold lookup_bin. destruct (find _ bs) as [b|] eqn:F; [apply find_some in F; rewrite (ALL b (proj1 F)); reflexivity|].
    destruct (rev bs) as [|b r] eqn:ER; [apply (f_equal (@length _)) in ER; rewrite rev_length in ER; cbn in ER; lia|].
    rewrite (ALL b) by (apply in_rev; rewrite ER; left; reflexivity). reflexivity. }
  split; [exact LK|]. intros d pm t dt g s lv X -> A LV L0 DE.
  destruct (C78_path d pm bs t dt g s lv (a ^ 2) LV L0 LK) as (s' & E & F & _).
  - rewrite (SV s X). lra.
  - exact DE.
  - exists s'. split; [exact E|]. rewrite F, (SV s X). replace (a ^ 2) with (a * a) by ring. rewrite sqrt_square by lra. f_equal. f_equal.
    match goal with |- ?x = ?y => change (@eq R x y) end. field. lra.
Qed.
Print Assumptions C78_same_vol.

(** The simulation on accepted schedules and a built surface succeeds up to the horizon, with one state
    per path, the forward non-negative and the volatility positive. *)
Theorem C78_simulate : forall sort ks av rv nv b f p ts ss vols spot rd rf d k T n m g, sorts sort -> accepted ks av rv nv b f p ->
  Dupire.build ts ss vols spot rd rf = Ok d -> (0 < k)%nat -> (0 < n)%nat -> (0 < m)%nat -> 0 < T <= nth (length av) ks 0 ->
  exists g' out, slv_simulate sort {| params := p; dupire := d; n_bins := k |} T n m g = Ok (g', out) /\ length out = m /\
    forall s, In s out -> 0 <= forward s /\ 0 < vol s.
Proof.
  intros sort ks av rv nv b f p ts ss vols spot rd rf d k T n m g HS ACC DB K N M [T0 T1].
  pose proof (fun t => C73_at _ _ _ _ _ _ _ t ACC) as AT.
  destruct (accepted_open _ _ _ _ _ _ _ ACC) as (EP & A & _ & _ & _ & _ & LK & VA & _ & _ & _ & F).
  unfold slv_simulate. destruct (Nat.eqb_spec n 0) as [|_]; [lia|]. destruct (Nat.eqb_spec m 0) as [|_]; [lia|]. cbn [orb]. rewrite (proj2 (Rltb_spec 0 T) T0). cbn [negb params].
  assert (IN : exists v, schedule_at (td_alpha p) 0 = Ok v /\ 0 < v).
  { destruct (proj1 (AT 0) ltac:(lra)) as (i & q & I & _ & _ & Q & EA & _). exists (alpha q). split; [|rewrite EA; apply VA, nth_In, I].
    unfold td_at in Q. destruct (schedule_at (td_alpha p) 0) as [a| |]; [|discriminate|discriminate]. cbn [obind] in Q. destruct (schedule_at (td_rho p) 0) as [r| |]; [|discriminate|discriminate]. cbn [obind] in Q. destruct (schedule_at (td_nu p) 0) as [u| |]; [|discriminate|discriminate]. cbn [obind] in Q.
    assert (EQ : @Build_sabr_params R_numbers a (td_beta p) r u = q) by congruence. rewrite <- EQ. reflexivity. }
  destruct IN as (v & IN & V). rewrite IN. cbn [obind]. set (dt := T / INR n).
  set (s0 := @Build_sabr_state R_numbers (td_forward_0 p) v).
  set (good := fun l : list state => length l = m /\ forall s, In s l -> 0 <= forward s /\ 0 < vol s).
  assert (G0 : good (repeat s0 m)).
  { split; [apply repeat_length|]. intros s X. apply repeat_spec in X. subst s. unfold s0. cbn [forward vol]. rewrite EP. cbn [td_forward_0]. split; [left; exact F|exact V]. }
  assert (STEP : forall j g l, (j < n)%nat -> good l -> exists g' l', slv_step sort {| params := p; dupire := d; n_bins := k |} (INR j * dt) dt g l = Ok (g', l') /\ good l').
  { intros j g1 l J (LL & GL). pose proof (grid n j T ltac:(lia) T0) as G. cbv zeta in G. fold dt in G.
    destruct (proj1 (AT (INR j * dt + 1 / 2 * dt)) ltac:(lra)) as (i & pm & _ & _ & _ & Q & _).
    unfold slv_step. cbn [params dupire n_bins]. rewrite Q. cbn [obind].
    assert (NE : l <> []) by (intros ->; cbn in LL; lia).
    destruct (proj2 (C78_bins sort l k HS NE) K) as (bs & groups & size & EB & _ & _ & LB & _). rewrite EB. cbn [obind].
    assert (LKT : forall f, exists e, lookup_bin f bs = Ok e).
    { intros f0. unfold lookup_bin. destruct (find _ bs); [eexists; reflexivity|]. destruct (rev bs) eqn:ER; [|eexists; reflexivity].
      apply (f_equal (@length _)) in ER. rewrite rev_length in ER. cbn in ER. lia. }
    clear EB NE. unfold good. rewrite <- LL. clear LL. revert g1. induction l as [|s l IH]; intros g1; [exists g1, []; split; [reflexivity|split; [reflexivity|intros x []]]|].
    cbn [slv_paths]. unfold slv_path_step at 1. cbn [sample_normal].
    destruct (P_Dupire.C77_range ts ss vols spot rd rf d (INR j * dt + 1 / 2 * dt) (Rmax (forward s) (/ 10 ^ 12)) DB) as (_ & lv & LV & _). rewrite LV. cbn [obind].
    destruct (LKT (Rmax (forward s) (/ 10 ^ 12))) as (e & LE). rewrite LE. cbn [obind].
    match goal with |- context [slv_paths d pm bs ?t dt ?g2 l] => destruct (IH ltac:(intros x X; apply GL; right; exact X) g2) as (g' & l' & E & LE' & GE) end.
    rewrite E. cbn [obind]. do 2 eexists. split; [reflexivity|]. split; [cbn [length]; rewrite LE'; reflexivity|].
    intros x [<- |X]; [|apply GE, X]. cbn [forward vol]. split; [apply Rmax_r|]. apply Rmult_lt_0_compat; [|apply exp_pos].
    eapply Rlt_le_trans; [apply (GL s); left; reflexivity|apply Rmax_l]. }
  assert (ALL : forall l j g st, (j + l <= n)%nat -> good st -> exists g' st', slv_steps sort l {| params := p; dupire := d; n_bins := k |} (INR j * dt) dt g st = Ok (g', st') /\ good st').
  { induction l as [|l IH]; intros j g1 st J G; cbn [slv_steps]; [exists g1, st; split; [reflexivity|exact G]|].
    destruct (STEP j g1 st ltac:(lia) G) as (g2 & st2 & E & G2). rewrite E. cbn [obind].
    replace (INR j * dt + dt) with (INR (S j) * dt) by (rewrite S_INR; ring). apply IH; [lia|exact G2]. }
  destruct (ALL n 0%nat g (repeat s0 m) ltac:(lia) G0) as (g' & out & E & L & P). replace (INR 0 * dt) with 0 in E by (cbn; ring).
  exists g', out. split; [exact E|]. split; assumption.
Qed.
Print Assumptions C78_simulate.

(** Fifty bins by default; fewer than two are refused, any other number replaces
    the bins and nothing else. *)
Theorem C78_construct : forall p d s n,
  (params (slv_new p d) = p /\ dupire (slv_new p d) = d /\ n_bins (slv_new p d) = 50%nat) /\
  ((n < 2)%nat -> with_bins s n = Panic PAssert) /\
  ((2 <= n)%nat -> exists s', with_bins s n = Ok s' /\ n_bins s' = n /\ params s' = params s /\ dupire s' = dupire s).
Proof.
  intros p d s n. split; [repeat split|]. unfold with_bins. split; intros N.
  - rewrite (proj2 (Nat.leb_gt 2 n)) by lia. reflexivity.
  - rewrite (proj2 (Nat.leb_le 2 n)) by lia. eexists. repeat split.
Qed.
Print Assumptions C78_construct.

(** A step of the population: the parameters and the local variance are read at the middle of the step,
    the bins are those of the population before it, and path [j] uses draws [2j] and [2j + 1]. *)
Theorem C78_step : forall sort s t dt g l g' out, slv_step sort s t dt g l = Ok (g', out) ->
  exists pm bs, td_at (params s) (t + dt / 2) = Ok pm /\ bin_vol_sq_by_forward sort l (n_bins s) = Ok bs /\ length out = length l /\
    (forall k, g' k = g (2 * length l + k)%nat) /\
    forall j a, nth_error l j = Some a -> exists h h' b, (forall k, h k = g (2 * j + k)%nat) /\
      slv_path_step (dupire s) pm bs (t + dt / 2) dt h a = Ok (h', b) /\ nth_error out j = Some b.
Proof.
  intros sort s t dt g l g' out E. unfold slv_step in E. replace (t + dt / 2) with (t + 1 / 2 * dt) by field.
  destruct (td_at (params s) (t + 1 / 2 * dt)) as [pm| |]; cbn [obind] in E; [|discriminate|discriminate].
  destruct (bin_vol_sq_by_forward sort l (n_bins s)) as [bs| |]; cbn [obind] in E; [|discriminate|discriminate].
  exists pm, bs. split; [reflexivity|]. split; [reflexivity|]. revert g g' out E. induction l as [|a l IH]; intros g g' out E.
  - cbn [slv_paths] in E. assert (g' = g /\ out = []) as (-> & ->) by (split; congruence). split; [reflexivity|]. split; [reflexivity|]. intros [|j] a A; discriminate.
  - cbn [slv_paths] in E. destruct (slv_path_step (dupire s) pm bs (t + 1 / 2 * dt) dt g a) as [[g1 b]| |] eqn:EA; cbn [obind] in E; [|discriminate|discriminate].
    destruct (slv_paths (dupire s) pm bs (t + 1 / 2 * dt) dt g1 l) as [[g2 o]| |] eqn:EL; cbn [obind] in E; [|discriminate|discriminate].
    assert (g' = g2 /\ out = b :: o) as (-> & ->) by (split; congruence).
    assert (G1 : g1 = fun k => g (S (S k))).
    { unfold slv_path_step in EA. cbn [sample_normal] in EA. destruct (Dupire.local_variance _ _ _); cbn [obind] in EA; [|discriminate|discriminate].
      destruct (lookup_bin _ _); cbn [obind] in EA; [|discriminate|discriminate]. congruence. }
    destruct (IH g1 g2 o EL) as (LO & GK & PJ). split; [cbn [length]; rewrite LO; reflexivity|]. split.
    + intros k. rewrite GK, G1. f_equal. cbn [length]. lia.
    + intros [|j] x X.
      * cbn in X. injection X as <-. exists g, g1, b. split; [intros k; reflexivity|]. split; [exact EA|reflexivity].
      * cbn in X. destruct (PJ j x X) as (h & h' & y & HK & EH & NO). exists h, h', y. split; [|split; [exact EH|exact NO]].
        intros k. rewrite HK, G1. f_equal. lia.
Qed.
Print Assumptions C78_step.

(** The whole run: all paths start at the forward of the parameters and at the initial volatility, and
    the populations follow each other by steps of length T / n at the times j T / n. *)
Theorem C78_run : forall sort s T n m g g' out, slv_simulate sort s T n m g = Ok (g', out) ->
  (0 < n)%nat /\ (0 < m)%nat /\ 0 < T /\ exists v (gs : nat -> rng R_numbers) (pop : nat -> list state),
    schedule_at (td_alpha (params s)) 0 = Ok v /\ gs 0%nat = g /\ gs n = g' /\ pop n = out /\
    length (pop 0%nat) = m /\ (forall a, In a (pop 0%nat) -> forward a = td_forward_0 (params s) /\ vol a = v) /\
    forall j, (j < n)%nat -> slv_step sort s (INR j * (T / INR n)) (T / INR n) (gs j) (pop j) = Ok (gs (S j), pop (S j)).
Proof.
  intros sort s T n m g g' out E. unfold slv_simulate in E. destruct (Nat.eqb_spec n 0) as [|N]; [discriminate|]. destruct (Nat.eqb_spec m 0) as [|M]; [discriminate|]. cbn [orb] in E.
  destruct (Rltb 0 T) eqn:ET; [|discriminate]. apply Rltb_spec in ET. cbn [negb] in E. split; [lia|]. split; [lia|]. split; [exact ET|].
  destruct (schedule_at (td_alpha (params s)) 0) as [v| |]; cbn [obind] in E; [|discriminate|discriminate]. exists v.
  set (dt := T / INR n) in *. set (st0 := repeat _ m) in E.
  assert (ALL : forall l j g st, slv_steps sort l s (INR j * dt) dt g st = Ok (g', out) ->
    exists (gs : nat -> rng R_numbers) (pop : nat -> list state), gs j = g /\ pop j = st /\ gs (j + l)%nat = g' /\ pop (j + l)%nat = out /\
      forall i, (j <= i < j + l)%nat -> slv_step sort s (INR i * dt) dt (gs i) (pop i) = Ok (gs (S i), pop (S i))).
  { induction l as [|l IH]; intros j g1 st EL; cbn [slv_steps] in EL.
    - assert (g' = g1 /\ out = st) as (-> & ->) by (split; congruence). exists (fun _ => g1), (fun _ => st). repeat (split; [reflexivity|]). intros; lia.
    - destruct (slv_step sort s (INR j * dt) dt g1 st) as [[g2 st2]| |] eqn:ES; cbn [obind] in EL; [|discriminate|discriminate].
      replace (INR j * dt + dt) with (INR (S j) * dt) in EL by (rewrite S_INR; ring). destruct (IH (S j) g2 st2 EL) as (gs & pop & A & B & C & D & F).
      exists (fun i => if (i <=? j)%nat then g1 else gs i), (fun i => if (i <=? j)%nat then st else pop i).
      rewrite (proj2 (Nat.leb_le j j)) by lia. rewrite (proj2 (Nat.leb_gt (j + S l) j)) by lia. replace (j + S l)%nat with (S j + l)%nat by lia.
      repeat (split; [first [reflexivity|assumption]|]). intros i I. destruct (Nat.eq_dec i j) as [->|NE].
      + rewrite (proj2 (Nat.leb_le j j)) by lia. rewrite (proj2 (Nat.leb_gt (S j) j)) by lia. rewrite A, B. exact ES.
      + rewrite (proj2 (Nat.leb_gt i j)) by lia. rewrite (proj2 (Nat.leb_gt (S i) j)) by lia. apply F. lia. }
  replace 0 with (INR 0 * dt) in E by (cbn; ring). destruct (ALL n 0%nat g st0 E) as (gs & pop & A & B & C & D & F). cbn [Nat.add] in *.
  exists gs, pop. split; [reflexivity|]. split; [exact A|]. split; [exact C|]. split; [exact D|]. rewrite B. split; [apply repeat_length|].
  split; [intros a X; unfold st0 in X; apply repeat_spec in X; subst a; split; reflexivity|]. intros j J. apply F. lia.
Qed.
Print Assumptions C78_run.

(** A sort that meets the contract. *)
Fixpoint insert_pair (x : R * R) (l : list (R * R)) : list (R * R) :=
  match l with [] => [x] | y :: l' => if Rle_dec (fst x) (fst y) then x :: l else y :: insert_pair x l' end.
Definition sort_pairs (l : list (R * R)) : list (R * R) := fold_right insert_pair [] l.
Lemma insert_perm x : forall l, Permutation (x :: l) (insert_pair x l).
Proof. induction l as [|y l IH]; cbn; [apply Permutation_refl|]. destruct (Rle_dec _ _); [apply Permutation_refl|]. eapply Permutation_trans; [apply perm_swap|]. apply perm_skip, IH. Qed.
Lemma insert_sorted x : forall l, StronglySorted (fun a b => fst a <= fst b) l -> StronglySorted (fun a b => fst a <= fst b) (insert_pair x l).
Proof.
  induction l as [|y l IH]; intros S; cbn [insert_pair]; [repeat constructor|]. inversion S; subst. destruct (Rle_dec (fst x) (fst y)) as [H|H].
  - constructor; [exact S|]. constructor; [exact H|]. eapply Forall_impl; [|eassumption]. intros a A. cbv beta in A. lra.
  - constructor; [apply IH; assumption|]. rewrite Forall_forall in *. intros a A. apply (Permutation_in _ (Permutation_sym (insert_perm x l))) in A. destruct A as [<- |A]; [lra|auto].
Qed.
Lemma sort_pairs_sorts : sorts sort_pairs.
Proof.
  intros l. split; induction l as [|x l IH]; cbn [sort_pairs fold_right].
  - constructor.
  - eapply Permutation_trans; [apply perm_skip, IH|apply insert_perm].
  - constructor.
  - apply insert_sorted, IH.
Qed.

Definition st (f v : R) : state := @Build_sabr_state R_numbers f v.

(** Absorbed paths do not find their own group: two paths at zero with volatility two form the first
    bin, but their forward, floored, lies above that bin's bound, and they find the second's mean;
    the factor on the local volatility is two for both of them instead of one. *)
Theorem C78_absorbed_refuted : exists sort states bs, sorts sort /\ bin_vol_sq_by_forward sort states 2 = Ok bs /\
  (forall a, In a states -> 0 <= forward a /\ 0 < vol a) /\
  exists s, In s states /\ lookup_bin (forward s) bs = Ok (vol s ^ 2) /\ lookup_bin (Rmax (forward s) (/ 10 ^ 12)) bs = Ok ((vol s / 2) ^ 2).
Proof.
  exists sort_pairs, [st 0 2; st 0 2; st 1 1; st 2 1]. eexists. split; [exact sort_pairs_sorts|]. split; [reflexivity|]. split.
  { intros a A. cbn in A. destruct A as [<- |[<- |[<- |[<- |[]]]]]; cbn; lra. }
  exists (st 0 2). split; [left; reflexivity|].
  assert (E : sort_pairs (map pair_of [st 0 2; st 0 2; st 1 1; st 2 1]) = [(0, 2 * 2); (0, 2 * 2); (1, 1 * 1); (2, 1 * 1)]).
  { unfold sort_pairs, st. cbn [map forward vol fold_right insert_pair fst].
    repeat (match goal with |- context [if Rle_dec ?a ?b then _ else _] => destruct (Rle_dec a b); [|exfalso; cbn in *; lra] end; cbn [insert_pair fst]). reflexivity. }
  rewrite E. cbn [length st]. change (Nat.div (4 + (2 - 1)) 2) with 2%nat. cbn [bins firstn skipn].
  unfold bin_of. cbn [last fst snd fold_left length INR forward vol].
  pose proof eps_pos as EP. assert (E1 : / 10 ^ 12 < 1). { rewrite <- Rinv_1 at 1. apply Rinv_lt_contravar; [|apply Rlt_pow_R1; [lra|lia]]. rewrite Rmult_1_l. apply pow_lt. lra. }
  unfold lookup_bin. cbn [find fst]. change (forward (st 0 2)) with 0. change (vol (st 0 2)) with 2. rewrite (Rmax_right 0) by lra. split.
  - rewrite (proj2 (Rleb_spec 0 0)) by lra. cbn [snd]. f_equal. field.
  - destruct (Rleb (/ 10 ^ 12) 0) eqn:F; [apply Rleb_spec in F; lra|]. rewrite (proj2 (Rleb_spec (/ 10 ^ 12) 2)) by lra. cbn [snd]. f_equal. field.
Qed.
Print Assumptions C78_absorbed_refuted.

Example C78_witness : sorts sort_pairs /\ NoDup (map forward [st 1 1; st 2 2; st 3 1]) /\
  exists p d, accepted knots_012 [1 / 10; 1 / 5] [- (1 / 2); 1 / 4] [1; 1 / 2] (1 / 2) 1 p /\ 0 < 2 <= nth 2 knots_012 0 /\
    Dupire.build [1 / 4; 1 / 2; 1] [9 / 10; 1; 11 / 10] (repeat (repeat (1 / 5) 3) 3) 1 (5 / 100) (2 / 100) = Ok d.
Proof.
  split; [exact sort_pairs_sorts|]. split; [cbn; repeat constructor; cbn; intuition lra|]. destruct P_Dupire.C77_witness as (d & D). destruct C73_witness as (p & A & B).
  exists p, d. split; [exact A|]. split; [exact B|exact D].
Qed.
