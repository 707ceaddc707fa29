(** What a run of the Monte Carlo engine should be, and proofs that it is. *)
From Coq Require Import ZArith Lia Bool List Reals Lra Permutation Sorting.Sorted.
Import ListNotations.
From Verif Require Import Outcome Date Sorting CalendarFacts Simulation.
Open Scope R_scope.
Local Ltac lia := unfold date in *; Lia.lia.

(** ** Specification *)

(** The trajectory of a path along dates with given times: the state advances over each
    step of positive length, from the middle of the step, and stays over any other. *)
Inductive evolution {Md St} (step : Md -> St -> R -> R -> outcome (Md * St)) (time : date -> R) :
  Md -> St -> date -> list (date * St) -> Md -> Prop :=
| ev_nil m s d0 : evolution step time m s d0 [] m
| ev_step m s d0 d m1 s1 tr m2 : time d0 < time d ->
    step m s ((time d0 + time d) / 2) (time d - time d0) = Ok (m1, s1) ->
    evolution step time m1 s1 d tr m2 -> evolution step time m s d0 ((d, s1) :: tr) m2
| ev_skip m s d0 d tr m2 : time d <= time d0 ->
    evolution step time m s d tr m2 -> evolution step time m s d0 ((d, s) :: tr) m2.

(** Paths one after the other, each starting with the generator where the last left it. *)
Inductive chained {Md A} (P : Md -> A -> Md -> Prop) : Md -> list A -> Md -> Prop :=
| ch_nil m : chained P m [] m
| ch_cons m a m1 r m2 : P m a m1 -> chained P m1 r m2 -> chained P m (a :: r) m2.

Definition consecutive {A} (a b : A) (l : list A) : Prop := exists l1 l2, l = l1 ++ a :: b :: l2.

(** ** The grid *)

Lemma dedup_in l x : In x (dedup l) <-> In x l.
Proof.
  induction l as [|a r IH]; [reflexivity|]. cbn [dedup]. destruct r as [|b r']; [reflexivity|].
  destruct (Z.eqb_spec a b) as [->|N].
  - rewrite IH. cbn. tauto.
  - cbn [In]. rewrite IH. reflexivity.
Qed.
Lemma dedup_sorted l : StronglySorted Z.le l -> StronglySorted Z.lt (dedup l).
Proof.
  induction l as [|a r IH]; intros S; [constructor|]. cbn [dedup]. inversion S as [|? ? Sr Fr]; subst. destruct r as [|b r']; [constructor; constructor|].
  destruct (Z.eqb_spec a b) as [->|N]; [apply IH, Sr|]. constructor; [apply IH, Sr|]. rewrite Forall_forall. intros x Hx. apply (proj1 (dedup_in _ _)) in Hx.
  inversion Sr as [|? ? _ Fb]; subst. rewrite Forall_forall in Fr, Fb. pose proof (Fr b (or_introl eq_refl)).
  destruct Hx as [<-|Hx]; [lia|]. specialize (Fb x Hx). lia.
Qed.

Lemma uniform_spec fuel : forall last cur step u, (0 < step)%Z -> uniform_grid fuel last cur step = Ok u ->
  (forall x, In x u -> (cur < x <= last)%Z /\ (x = last \/ exists k, (0 < k)%Z /\ x = (cur + k * step)%Z)) /\
  (forall x, (cur <= x < last)%Z -> exists y, In y u /\ (x < y <= x + step)%Z).
Proof.
  induction fuel as [|fuel IH]; intros last cur step u P H; cbn [uniform_grid] in H; destruct (Z.ltb_spec cur last) as [L|L]; try discriminate.
  - injection H as <-. split; [contradiction|lia].
  - destruct (in_rangeb (cur + step)%Z) eqn:R; [|discriminate]. apply obind_Ok in H as (r & Hr & E). injection E as <-.
    set (c := if (cur + step >? last)%Z then last else (cur + step)%Z) in *.
    assert (C : (cur < c <= last)%Z /\ (c <= cur + step)%Z /\ (c = last \/ c = cur + step)%Z) by (unfold c; destruct (Z.gtb_spec (cur + step)%Z last); lia).
    destruct (IH last c step r P Hr) as [A B]. split.
    + intros x [<-|Hx]; [split; [lia|]; destruct C as (_ & _ & [C|C]); [left; exact C|right; exists 1%Z; lia]|].
      destruct (A x Hx) as [A1 [A2|(k & A2 & A3)]]; (split; [lia|]); [left; exact A2|].
      destruct C as (_ & _ & [C|C]); [lia|]. right. exists (k + 1)%Z. lia.
    + intros x Hx. destruct (Z.ltb_spec x c) as [X|X]; [exists c; split; [left; reflexivity|lia]|].
      destruct (B x ltac:(lia)) as (y & Iy & Ly). exists y. split; [right; exact Iy|exact Ly].
  - injection H as <-. split; [contradiction|lia].
Qed.

Lemma uniform_total fuel : forall last cur step, (0 < step)%Z -> (last - cur <= Z.of_nat fuel)%Z ->
  in_range cur -> in_range (last + step - 1)%Z -> exists u, uniform_grid fuel last cur step = Ok u.
Proof.
  induction fuel as [|fuel IH]; intros last cur step P F C R; cbn [uniform_grid]; destruct (Z.ltb_spec cur last) as [L|L]; eauto.
  - lia.
  - assert (IR : in_rangeb (cur + step)%Z = true).
    { apply (proj1 (in_range_val _)) in C. apply (proj1 (in_range_val _)) in R. unfold in_rangeb. apply andb_true_iff. pose proof (in_range_val (cur + step)%Z) as [_ V]. 
      assert (X : in_range (cur + step)%Z) by (apply V; lia). unfold in_range in X. lia. }
    rewrite IR. cbv zeta. match goal with |- context [uniform_grid fuel last ?x step] => set (c := x) end.
    assert (B : (cur < c <= last)%Z) by (unfold c; destruct (Z.gtb_spec (cur + step)%Z last); lia).
    destruct (IH last c step P ltac:(lia)) as (u & ->); [|exact R|cbn [obind]; eauto].
    apply in_range_val. apply (proj1 (in_range_val _)) in C. apply (proj1 (in_range_val _)) in R. lia.
Qed.

Lemma sorted_app_lt (a b : date) l1 l2 : StronglySorted Z.lt (l1 ++ a :: b :: l2) ->
  (a < b)%Z /\ forall x, In x (l1 ++ a :: b :: l2) -> (x <= a \/ b <= x)%Z.
Proof.
  induction l1 as [|c r IH]; cbn [app]; intros S; inversion S as [|? ? S1 F1]; subst; rewrite Forall_forall in F1.
  - inversion S1 as [|? ? S2 F2]; subst. rewrite Forall_forall in F2. split; [apply F1; left; reflexivity|].
    intros x [<-|[<-|Hx]]; [lia|lia|]. specialize (F2 x Hx). lia.
  - destruct (IH S1) as [A B]. split; [exact A|]. intros x [<-|Hx]; [|apply B, Hx]. left. specialize (F1 a). assert (In a (r ++ a :: b :: l2)) by (apply in_app_iff; right; left; reflexivity). specialize (F1 H). lia.
Qed.

Lemma last_in (a : date) r : In (List.last (a :: r) a) (a :: r).
Proof.
  assert (G : forall (l : list date) d, l <> [] -> In (List.last l d) l).
  { induction l as [|x l IH]; intros d N; [congruence|]. destruct l as [|y l]; [left; reflexivity|]. right. apply IH. discriminate. }
  apply G. discriminate.
Qed.
Lemma last_max (a : date) r : StronglySorted Z.le (a :: r) -> forall x, In x (a :: r) -> (x <= List.last (a :: r) a)%Z.
Proof.
  assert (G : forall (l : list date) d, StronglySorted Z.le l -> forall x, In x l -> (x <= List.last l d)%Z).
  { induction l as [|y l IH]; intros d S x Hx; [contradiction|]. inversion S as [|? ? S1 F1]; subst. rewrite Forall_forall in F1. destruct l as [|z l].
    - destruct Hx as [<-|[]]. cbn. lia.
    - destruct Hx as [<-|Hx]; [|apply IH; assumption]. pose proof (F1 z (or_introl eq_refl)). specialize (IH d S1 z (or_introl eq_refl)). cbn [List.last] in *. lia. }
  intros S x Hx. apply G; assumption.
Qed.

Section Grid.
  Context (sort : list date -> list date) (HS : sorts_by (fun d => d) sort).
  Lemma sort_in l x : In x (sort l) <-> In x l.
  Proof. destruct (HS l) as [P _]. split; intros H; [apply (Permutation_in _ (Permutation_sym P)), H|apply (Permutation_in _ P), H]. Qed.
  Lemma sort_sorted l : StronglySorted Z.le (sort l).
  Proof. apply HS. Qed.

  (** The grid starts at the valuation date, contains the observation dates, ends with
      the last of them, increases, and has no gap longer than the step. *)
  Lemma grid_spec v obs n grid : (0 < n)%Z -> StronglySorted Z.le obs -> (forall d, In d obs -> (v < d)%Z) -> build_grid sort v obs n = Ok grid ->
    StronglySorted Z.lt grid /\ (exists ds, grid = v :: ds) /\ (forall d, In d obs -> In d grid) /\
    (forall x, In x grid -> exists d, In d obs /\ (x <= d)%Z) /\
    (forall x, In x grid -> x = v \/ In x obs \/ exists k, (0 < k)%Z /\ x = (v + k * n)%Z) /\
    (forall a b, consecutive a b grid -> (a < b <= a + n)%Z).
  Proof.
    intros P S V H. unfold build_grid in H. apply obind_Ok in H as (last & HL & H). apply obind_Ok in H as (u & HU & H). injection H as <-.
    destruct obs as [|a r]; [discriminate|]. cbn in HL. injection HL as HL. change (List.last (a :: r) a = last) in HL.
    assert (IL : In last (a :: r)) by (rewrite <- HL; apply last_in).
    assert (ML : forall x, In x (a :: r) -> (x <= last)%Z) by (rewrite <- HL; apply last_max, S).
    destruct (uniform_spec _ _ _ _ _ P HU) as [U1 U2].
    set (obs := a :: r) in *. set (g := dedup (sort (v :: u ++ obs))).
    assert (GI : forall x, In x g <-> x = v \/ In x u \/ In x obs).
    { intros x. unfold g. rewrite dedup_in, sort_in. cbn [In]. rewrite in_app_iff. split; intros [|]; auto. }
    assert (SG : StronglySorted Z.lt g) by (apply dedup_sorted, sort_sorted).
    assert (GM : forall x, In x g -> (v <= x <= last)%Z).
    { intros x Hx. apply GI in Hx as [->|[Hx|Hx]]; [specialize (V last IL); lia|destruct (U1 x Hx); lia|]. specialize (V x Hx). specialize (ML x Hx). lia. }
    split; [exact SG|]. split.
    { assert (G0 : forall l : list date, (forall x, In x l -> (v <= x)%Z) -> In v l -> StronglySorted Z.lt l -> exists ds, l = v :: ds).
      { clear. intros [|x ds] M I S; [contradiction|]. exists ds. f_equal. inversion S as [|? ? _ F]; subst. rewrite Forall_forall in F.
        destruct I as [E|I]; [exact E|]. specialize (F v I). specialize (M x (or_introl eq_refl)). lia. }
      apply G0; [intros x Hx; apply GM, Hx|apply GI; left; reflexivity|exact SG]. }
    split; [intros d Hd; apply GI; right; right; exact Hd|].
    split; [intros x Hx; exists last; split; [exact IL|apply GM, Hx]|].
    split. { intros x Hx. apply GI in Hx as [->|[Hx|Hx]]; auto. destruct (U1 x Hx) as [_ [->|Hk]]; auto. }
    intros x y (l1 & l2 & E). change (g = l1 ++ x :: y :: l2) in E. rewrite E in SG. destruct (sorted_app_lt x y l1 l2 SG) as [L M]. split; [exact L|].
    assert (Gx : In x g) by (rewrite E; apply in_app_iff; right; left; reflexivity). assert (Gy : In y g) by (rewrite E; apply in_app_iff; right; right; left; reflexivity).
    destruct (U2 x) as (z & Iz & Lz). { pose proof (GM x Gx). pose proof (GM y Gy). lia. }
    assert (Iz' : In z (l1 ++ x :: y :: l2)) by (rewrite <- E; apply GI; right; left; exact Iz). destruct (M z Iz') as [|]; lia.
  Qed.

  Lemma grid_total v obs n : (0 < n)%Z -> obs <> [] -> StronglySorted Z.le obs -> in_range v -> (forall d, In d obs -> in_range d /\ in_range (d + n - 1)%Z) ->
    exists grid, build_grid sort v obs n = Ok grid.
  Proof.
    intros P N S V R. unfold build_grid. destruct obs as [|a r]; [congruence|]. cbn [ounwrap obind].
    set (last := List.last (a :: r) a). destruct (R last (last_in a r)) as [R1 R2].
    match goal with |- context [uniform_grid ?f ?l v n] => change (uniform_grid f l v n) with (uniform_grid (Z.to_nat (last - v)%Z) last v n) end.
    destruct (uniform_total (Z.to_nat (last - v)%Z) last v n P) as (u & ->); [lia|exact V|exact R2|]. cbn [obind]. eauto.
  Qed.
End Grid.

(** ** The walk *)

Lemma times_spec (yf : date -> date -> outcome R) v grid : forall ys, year_fractions yf v grid = Ok ys ->
  exists time, ys = map time grid /\ forall d, In d grid -> yf v d = Ok (time d) \/ (exists e, yf v d = Err e) /\ time d = 0.
Proof.
  intros ys H. exists (fun d => match yf v d with Ok y => y | _ => 0 end). revert ys H.
  induction grid as [|d r IH]; intros ys H; cbn [year_fractions] in H; [injection H as <-; split; [reflexivity|contradiction]|].
  apply obind_Ok in H as (y & Hy & H). apply obind_Ok in H as (ys' & Hys & H). apply (f_equal (fun o => match o with Ok y => y | _ => [] end)) in H; cbv beta iota in H. subst ys.
  destruct (IH _ Hys) as [-> C]. cbn [map]. split.
  - f_equal. destruct (yf v d); [congruence|congruence|discriminate].
  - intros x [<-|Hx]; [|apply C, Hx]. destruct (yf v d) as [w|e|p]; [left; reflexivity|right; split; [eauto|reflexivity]|discriminate].
Qed.

Lemma times_total (yf : date -> date -> outcome R) v grid : (forall d p, In d grid -> yf v d <> Panic p) -> exists ys, year_fractions yf v grid = Ok ys.
Proof.
  induction grid as [|d r IH]; intros H; cbn [year_fractions]; [eauto|]. destruct IH as (ys & E); [intros x p Hx; apply H; right; exact Hx|].
  pose proof (H d) as Hd. destruct (yf v d) as [w|e|p]; cbn [obind]; rewrite ?E; cbn [obind]; eauto. exfalso. apply (Hd p); [left|]; reflexivity.
Qed.

Section Walk.
  Context {Md St : Type} (step : Md -> St -> R -> R -> outcome (Md * St)) (time : date -> R).

  Lemma capture_stuck i (s : St) idxs : hd_error idxs <> Some i -> capture i s idxs = ([], idxs).
  Proof. destruct idxs as [|k r]; [reflexivity|]. cbn. intros H. destruct (Nat.eqb_spec k i); [congruence|reflexivity]. Qed.

  Lemma capture_split i (s : St) idxs : StronglySorted le idxs -> (forall j, In j idxs -> (i <= j)%nat) ->
    exists c rest, idxs = repeat i c ++ rest /\ capture i s idxs = (repeat s c, rest) /\ (forall j, In j rest -> (S i <= j)%nat) /\ StronglySorted le rest.
  Proof.
    induction idxs as [|k r IH]; intros S L; [exists 0%nat, []; repeat split; [contradiction|constructor]|].
    inversion S as [|? ? Sr Fr]; subst. cbn [capture]. destruct (Nat.eqb_spec k i) as [->|N].
    - destruct IH as (c & rest & E1 & E2 & E3 & E4); [exact Sr|intros j Hj; apply L; right; exact Hj|].
      exists (Datatypes.S c), rest. cbn [repeat app]. rewrite E2, <- E1. repeat split; assumption.
    - exists 0%nat, (k :: r). cbn. repeat split; [|exact S]. rewrite Forall_forall in Fr. intros j [<-|Hj]; [specialize (L k (or_introl eq_refl)); lia|].
      specialize (Fr j Hj). specialize (L k (or_introl eq_refl)). lia.
  Qed.

  Lemma half_sum a b : 1 / 2 * (b + a) = (a + b) / 2. Proof. field. Qed.

  (** Once an observation has been passed over, nothing more is recorded. *)
  Lemma walk_stuck ds : forall i d0 m s idxs m' path, (exists k r, idxs = k :: r /\ (k < i)%nat) ->
    walk step i (time d0) (map time ds) m s idxs = Ok (m', path) ->
    path = [] /\ exists tr, evolution step time m s d0 tr m' /\ map fst tr = ds.
  Proof.
    induction ds as [|d ds IH]; intros i d0 m s idxs m' path B H; cbn [map walk] in H.
    - injection H as <- <-. split; [reflexivity|]. exists []. split; [constructor|reflexivity].
    - assert (B' : exists k r, idxs = k :: r /\ (k < S i)%nat) by (destruct B as (k & r & -> & L); exists k, r; split; [reflexivity|lia]).
      destruct (Rle_dec (time d - time d0) 0) as [L|L].
      + destruct (IH _ _ _ _ _ _ _ B' H) as (E & tr & V & M). split; [exact E|]. exists ((d, s) :: tr). split; [apply ev_skip; [lra|exact V]|cbn; rewrite M; reflexivity].
      + apply obind_Ok in H as ([m1 s1] & HS & H). cbv beta iota in H. rewrite capture_stuck in H by (destruct B as (k & r & -> & L'); cbn; intros X; injection X as ->; lia).
        apply obind_Ok in H as ([m2 p2] & HW & H). cbv beta iota in H. cbn [app] in H. injection H as <- <-.
        destruct (IH _ _ _ _ _ _ _ B' HW) as (E & tr & V & M). split; [exact E|]. exists ((d, s1) :: tr). split; [|cbn; rewrite M; reflexivity].
        apply ev_step with m1; [lra| |exact V]. rewrite <- half_sum. exact HS.
  Qed.

  Definition positive_at (i : nat) (d0 : date) (ds : list date) (j : nat) : Prop :=
    time (nth (j - i) (d0 :: ds) d0) < time (nth (j - i) ds d0).

  Lemma positive_shift i d0 d ds j : (S i <= j < S i + length ds)%nat -> (positive_at i d0 (d :: ds) j <-> positive_at (S i) d ds j).
  Proof.
    intros L. unfold positive_at. replace (j - i)%nat with (S (j - S i)) by lia. assert (B : (j - S i < length ds)%nat) by lia. generalize dependent (j - S i)%nat. intros k B.
    change (nth (S k) (d0 :: d :: ds) d0) with (nth k (d :: ds) d0). change (nth (S k) (d :: ds) d0) with (nth k ds d0).
    rewrite (nth_indep (d :: ds) d0 d), (nth_indep ds d0 d) by (cbn [length]; lia). reflexivity.
  Qed.

  Lemma walk_spec ds : forall i d0 m s idxs m' path, StronglySorted le idxs -> (forall j, In j idxs -> (i <= j < i + length ds)%nat) ->
    walk step i (time d0) (map time ds) m s idxs = Ok (m', path) ->
    exists tr k, evolution step time m s d0 tr m' /\ map fst tr = ds /\ (k <= length idxs)%nat /\
      Forall2 (fun j st => exists d, nth_error tr (j - i) = Some (d, st)) (firstn k idxs) path /\
      (forall j, In j (firstn k idxs) -> positive_at i d0 ds j) /\
      ((k < length idxs)%nat -> ~ positive_at i d0 ds (nth k idxs 0%nat)).
  Proof.
    induction ds as [|d ds IH]; intros i d0 m s idxs m' path S B H; cbn [map] in H.
    - cbn in H. injection H as <- <-. destruct idxs as [|j r]; [|specialize (B j (or_introl eq_refl)); cbn in B; lia].
      exists [], 0%nat. split; [constructor|]. split; [reflexivity|]. split; [cbn; lia|]. split; [constructor|]. split; [contradiction|cbn; lia].
    - cbn [walk] in H. destruct (Rle_dec (time d - time d0) 0) as [L|L].
      + destruct idxs as [|j0 r0].
        { destruct (IH (Datatypes.S i) d m s [] m' path ltac:(constructor) ltac:(contradiction) H) as (tr & k & V & M & K & F & _ & _).
          exists ((d, s) :: tr), 0%nat. split; [apply ev_skip; [lra|exact V]|]. split; [cbn; rewrite M; reflexivity|]. split; [cbn; lia|].
          cbn in K. replace k with 0%nat in F by lia. cbn in F. inversion F. split; [constructor|]. split; [contradiction|cbn; lia]. }
        destruct (Nat.eq_dec j0 i) as [->|N].
        * destruct (walk_stuck ds (Datatypes.S i) d m s (i :: r0) m' path) as (E & tr & V & M); [exists i, r0; split; [reflexivity|lia]|exact H|]. subst path.
          exists ((d, s) :: tr), 0%nat. split; [apply ev_skip; [lra|exact V]|]. split; [cbn; rewrite M; reflexivity|]. split; [lia|]. split; [constructor|]. split; [contradiction|].
          intros _ X. unfold positive_at in X. cbn [nth] in X. replace (i - i)%nat with 0%nat in X by lia. cbn [nth] in X. lra.
        * assert (G : forall j, In j (j0 :: r0) -> (Datatypes.S i <= j < Datatypes.S i + length ds)%nat).
          { intros j Hj. pose proof (B j Hj) as Bj. pose proof (B j0 (or_introl eq_refl)) as B0. cbn [length] in Bj, B0. inversion S as [|? ? _ F]; subst. rewrite Forall_forall in F. destruct Hj as [<-|Hj]; [lia|]. specialize (F j Hj). lia. }
          destruct (IH (Datatypes.S i) d m s (j0 :: r0) m' path S G H) as (tr & k & V & M & K & F & P1 & P2).
          assert (SH : forall j, In j (j0 :: r0) -> (positive_at i d0 (d :: ds) j <-> positive_at (Datatypes.S i) d ds j)).
          { intros j Hj. apply positive_shift, G, Hj. }
          exists ((d, s) :: tr), k. split; [apply ev_skip; [lra|exact V]|]. split; [cbn; rewrite M; reflexivity|]. split; [exact K|]. split.
          { clear - F G. assert (Q : forall j, In j (firstn k (j0 :: r0)) -> (Datatypes.S i <= j)%nat) by (intros j Hj; rewrite <- (firstn_skipn k (j0 :: r0)) in G; apply G, in_app_iff; left; exact Hj).
            revert F Q. generalize (firstn k (j0 :: r0)). intros l F. induction F as [|j st l l' Hx F IH]; intros Q; constructor.
            - destruct Hx as (dd & E). exists dd. specialize (Q j (or_introl eq_refl)). replace (j - i)%nat with (Datatypes.S (j - Datatypes.S i)) by lia. exact E.
            - apply IH. intros x Hx'. apply Q. right. exact Hx'. }
          split. { intros j Hj. apply SH; [|apply P1, Hj]. rewrite <- (firstn_skipn k (j0 :: r0)). apply in_app_iff. left. exact Hj. }
          intros KL X. apply (P2 KL). apply SH; [apply nth_In, KL|exact X].
      + apply obind_Ok in H as ([m1 s1] & HS & H). cbv beta iota in H.
        destruct (capture_split i s1 idxs S) as (c & rest & E1 & E2 & E3 & E4); [intros j Hj; apply B, Hj|]. rewrite E2 in H. cbv beta iota in H.
        apply obind_Ok in H as ([m2 p2] & HW & H). cbv beta iota in H. injection H as <- <-.
        assert (G : forall j, In j rest -> (Datatypes.S i <= j < Datatypes.S i + length ds)%nat).
        { intros j Hj. pose proof (E3 j Hj). assert (Ij : In j idxs) by (rewrite E1; apply in_app_iff; right; exact Hj). specialize (B j Ij). cbn [length] in B. lia. }
        destruct (IH (Datatypes.S i) d m1 s1 rest m2 p2 E4 G HW) as (tr & k & V & M & K & F & P1 & P2).
        assert (SH : forall j, In j rest -> (positive_at i d0 (d :: ds) j <-> positive_at (Datatypes.S i) d ds j)).
        { intros j Hj. apply positive_shift, G, Hj. }
        assert (PI : positive_at i d0 (d :: ds) i) by (unfold positive_at; replace (i - i)%nat with 0%nat by lia; cbn [nth]; lra).
        assert (FN : firstn (c + k) idxs = repeat i c ++ firstn k rest).
        { rewrite E1, firstn_app, repeat_length. replace (c + k - c)%nat with k by lia. f_equal. rewrite firstn_all2; [reflexivity|rewrite repeat_length; lia]. }
        exists ((d, s1) :: tr), (c + k)%nat. split; [apply ev_step with m1; [lra| |exact V]; rewrite <- half_sum; exact HS|]. split; [cbn; rewrite M; reflexivity|].
        split; [rewrite E1, app_length, repeat_length; lia|]. rewrite FN. split.
        { apply Forall2_app.
          - clear. induction c as [|c IHc]; cbn; constructor; [|exact IHc]. exists d. replace (i - i)%nat with 0%nat by lia. reflexivity.
          - assert (Q : forall j, In j (firstn k rest) -> (Datatypes.S i <= j)%nat) by (intros j Hj; apply E3; rewrite <- (firstn_skipn k rest); apply in_app_iff; left; exact Hj).
            clear - F Q. revert F Q. generalize (firstn k rest). intros l F. induction F as [|j st l l' Hx F IH]; intros Q; constructor.
            + destruct Hx as (dd & E). exists dd. specialize (Q j (or_introl eq_refl)). replace (j - i)%nat with (Datatypes.S (j - Datatypes.S i)) by lia. exact E.
            + apply IH. intros x Hx'. apply Q. right. exact Hx'. }
        split. { intros j Hj. apply in_app_iff in Hj as [Hj|Hj]; [apply repeat_spec in Hj; subst j; exact PI|]. apply SH; [|apply P1, Hj]. rewrite <- (firstn_skipn k rest). apply in_app_iff. left. exact Hj. }
        intros KL X. rewrite E1, app_length, repeat_length in KL. rewrite E1, app_nth2 in X by (rewrite repeat_length; lia). rewrite repeat_length in X. replace (c + k - c)%nat with k in X by lia.
        apply P2; [lia|]. apply SH; [apply nth_In; lia|exact X].
  Qed.

  Lemma walk_total (OKS : forall m s t dt, 0 < dt -> exists r, step m s t dt = Ok r) ds : forall i d0 m s idxs, exists r, walk step i (time d0) (map time ds) m s idxs = Ok r.
  Proof.
    induction ds as [|d ds IH]; intros i d0 m s idxs; cbn [map walk]; [eauto|]. destruct (Rle_dec _ 0) as [L|L]; [apply IH|].
    destruct (OKS m s (1 / 2 * (time d + time d0)) (time d - time d0)) as ([m1 s1] & ->); [lra|]. cbn [obind]. destruct (capture i s1 idxs) as [p rem].
    destruct (IH (S i) d m1 s1 rem) as ([m2 p2] & ->). cbn [obind]. eauto.
  Qed.
End Walk.

(** Strictly increasing lists determine positions. *)
Lemma sorted_lt_nth (l : list date) i j d0 : StronglySorted Z.lt l -> (i < length l)%nat -> (j < length l)%nat -> (nth i l d0 <= nth j l d0)%Z -> (i <= j)%nat.
Proof.
  revert i j. induction l as [|a r IH]; intros i j S Li Lj H; [cbn in Li; lia|]. inversion S as [|? ? Sr F]; subst. rewrite Forall_forall in F.
  destruct i as [|i]; [lia|]. destruct j as [|j]; [|cbn in *; specialize (IH i j Sr ltac:(lia) ltac:(lia) H); lia].
  cbn [nth] in H. specialize (F (nth i r d0)). cbn in Li. assert (In (nth i r d0) r) by (apply nth_In; lia). specialize (F H0). lia.
Qed.

Section Indices.
  Context (search : list date -> date -> nat + nat) (HF : searches_by (fun d => d) search).
  Lemma lt_le_sorted (l : list date) : StronglySorted Z.lt l -> StronglySorted Z.le l.
  Proof.
    induction 1 as [|a r S IH F]; constructor; [exact IH|]. rewrite Forall_forall in *. intros x Hx. specialize (F x Hx). lia.
  Qed.
  Lemma search_found (l : list date) (d : date) : StronglySorted Z.le l -> In d l -> exists i, search l d = inl i /\ nth_error l i = Some d.
  Proof.
    intros S I. specialize (HF l d S). destruct (search l d) as [i|i].
    - destruct HF as (a & E & <-). eauto.
    - destruct HF as (_ & A & B). apply In_nth_error in I as (j & E). exfalso. destruct (Nat.lt_ge_cases j i) as [L|L]; [specialize (A j d E L)|specialize (B j d E L)]; lia.
  Qed.
  Lemma search_missing (l : list date) (d : date) : StronglySorted Z.le l -> ~ In d l -> exists i, search l d = inr i.
  Proof.
    intros S I. specialize (HF l d S). destruct (search l d) as [i|i]; [|eauto]. destruct HF as (a & E & <-). exfalso. apply I, (nth_error_In _ _ E).
  Qed.

  Lemma indices_total (grid obs : list date) : StronglySorted Z.lt grid -> (forall d, In d obs -> In d grid) -> exists is, find_indices search grid obs = Ok is.
  Proof.
    intros S. induction obs as [|d r IH]; intros H; cbn [find_indices]; [eauto|].
    destruct (search_found grid d (lt_le_sorted _ S) (H d (or_introl eq_refl))) as (i & -> & _). destruct IH as (is & ->); [intros x Hx; apply H; right; exact Hx|]. cbn [obind]. eauto.
  Qed.

  Lemma indices_spec (grid obs : list date) : forall is, StronglySorted Z.lt grid -> find_indices search grid obs = Ok is -> Forall2 (fun i d => nth_error grid i = Some d) is obs.
  Proof.
    induction obs as [|d r IH]; intros is S H; cbn [find_indices] in H; [injection H as <-; constructor|].
    pose proof (HF grid d (lt_le_sorted _ S)) as E. destruct (search grid d) as [i|i]; [|discriminate]. apply obind_Ok in H as (is' & H & X). injection X as <-.
    destruct E as (a & E & <-). constructor; [exact E|apply IH; assumption].
  Qed.

  Lemma indices_sorted (grid : list date) : forall (obs : list date) is, StronglySorted Z.lt grid -> StronglySorted Z.le obs -> Forall2 (fun i d => nth_error grid i = Some d) is obs -> StronglySorted le is.
  Proof.
    intros obs is SG SO F. induction F as [|i d is obs E F IH]; [constructor|]. inversion SO as [|? ? S1 F1]; subst. constructor; [apply IH, S1|].
    rewrite Forall_forall in *. intros j Hj. clear IH SO S1. induction F as [|j' d' is obs E' F IH]; [contradiction|]. destruct Hj as [->|Hj].
    - specialize (F1 d' (or_introl eq_refl)). apply (sorted_lt_nth grid i j d SG).
      + apply nth_error_Some. congruence.
      + apply nth_error_Some. congruence.
      + rewrite (nth_error_nth _ _ _ E), (nth_error_nth _ _ _ E'). exact F1.
    - apply IH; [|exact Hj]. intros x Hx. apply F1. right. exact Hx.
  Qed.
End Indices.

(** ** The run *)

Lemma nth_consecutive (v : date) ds k : (k < length ds)%nat -> consecutive (nth k (v :: ds) v) (nth k ds v) (v :: ds).
Proof.
  revert v k. induction ds as [|d ds IH]; intros v k L; [cbn in L; lia|]. destruct k as [|k].
  - exists [], ds. reflexivity.
  - cbn [length] in L. destruct (IH d k ltac:(lia)) as (l1 & l2 & E). exists (v :: l1), l2. cbn [app].
    change (nth (S k) (v :: d :: ds) v) with (nth k (d :: ds) v). change (nth (S k) (d :: ds) v) with (nth k ds v).
    rewrite (nth_indep (d :: ds) v d), (nth_indep ds v d) by (cbn [length]; lia). rewrite <- E. reflexivity.
Qed.

(** What is recorded of a trajectory: the states at a leading part of the observation
    dates.  It ends before the first date at which no time has passed since the grid
    date before it. *)
Definition recorded {St} (time : date -> R) (grid obs : list date) (tr : list (date * St)) (path : list St) : Prop :=
  exists k, (k <= length obs)%nat /\ Forall2 (fun d s => In (d, s) tr) (firstn k obs) path /\
    (forall d, In d (firstn k obs) -> exists q, consecutive q d grid /\ time q < time d) /\
    ((k < length obs)%nat -> exists q d, nth_error obs k = Some d /\ consecutive q d grid /\ time d <= time q).

Section RunFacts.
  Context (sort : list date -> list date) (HS : sorts_by (fun d => d) sort) (search : list date -> date -> nat + nat) (HF : searches_by (fun d => d) search).
  Context {Md St : Type} (initial_state : Md -> St) (step : Md -> St -> R -> R -> outcome (Md * St)).

  Lemma path_spec time (v : date) (ds obs : list date) is m s m' path : StronglySorted Z.lt (v :: ds) -> StronglySorted Z.le obs -> (forall d, In d obs -> (v < d)%Z) ->
    Forall2 (fun i d => nth_error (v :: ds) i = Some d) is obs -> walk step 1 (time v) (map time ds) m s is = Ok (m', path) ->
    exists tr, evolution step time m s v tr m' /\ map fst tr = ds /\ recorded time (v :: ds) obs tr path.
  Proof.
    intros SG SO V F H.
    assert (B : forall j, In j is -> (1 <= j < 1 + length ds)%nat).
    { clear - V F. induction F as [|i d is obs E F IH]; [contradiction|]. intros j [<-|Hj].
      - assert (L : (i < length (v :: ds))%nat) by (apply nth_error_Some; congruence). cbn [length] in L. destruct i as [|i]; [cbn in E; injection E as ->; specialize (V d (or_introl eq_refl)); lia|lia].
      - apply IH; [intros x Hx; apply V; right; exact Hx|exact Hj]. }
    destruct (walk_spec step time ds 1 v m s is m' path (indices_sorted (v :: ds) obs is SG SO F) B H) as (tr & k & EV & M & K & R & P1 & P2).
    exists tr. split; [exact EV|]. split; [exact M|]. exists k.
    assert (LEN : length is = length obs) by (clear - F; induction F; cbn; congruence).
    assert (PD : forall j, In j is -> forall d, nth_error (v :: ds) j = Some d -> consecutive (nth (j - 1) (v :: ds) v) d (v :: ds) /\ d = nth (j - 1) ds v).
    { intros j Hj d E. pose proof (B j Hj) as Bj. assert (D : d = nth (j - 1) ds v).
      { destruct j as [|j]; [lia|]. cbn in E. replace (Datatypes.S j - 1)%nat with j by lia. symmetry. apply nth_error_nth, E. }
      split; [|exact D]. rewrite D. apply nth_consecutive. lia. }
    assert (FK : Forall2 (fun i d => nth_error (v :: ds) i = Some d) (firstn k is) (firstn k obs)).
    { clear - F. revert k. induction F as [|i d is obs E F IH]; intros [|k]; cbn; constructor; auto. }
    assert (INK : forall j, In j (firstn k is) -> In j is) by (intros j Hj; rewrite <- (firstn_skipn k is); apply in_app_iff; left; exact Hj).
    split; [lia|]. split; [|split].
    - clear - R FK M B INK. revert R FK INK. generalize (firstn k obs). generalize (firstn k is). intros is' obs' R FK INK. revert obs' FK. induction R as [|j st is' path Hj R IH]; intros obs' FK; inversion FK as [|? d ? obs'' E FK' E1 E2]; subst; constructor.
      + destruct Hj as (d' & N). assert (ED : d' = d); [|subst d'; apply (nth_error_In _ _ N)].
        pose proof (B j (INK j (or_introl eq_refl))). destruct j as [|j]; [lia|]. cbn in E. replace (Datatypes.S j - 1)%nat with j in N by lia.
        apply (map_nth_error fst) in N. cbn [fst] in N. congruence.
      + apply IH; [intros x Hx; apply INK; right; exact Hx|exact FK'].
    - intros d Hd. assert (X : exists j, In j (firstn k is) /\ nth_error (v :: ds) j = Some d).
      { clear - FK Hd. induction FK as [|i d' l l' E FK IH]; [contradiction|]. destruct Hd as [<-|Hd]; [exists i; split; [left; reflexivity|exact E]|]. destruct (IH Hd) as (j & A & C). exists j. split; [right; exact A|exact C]. }
      destruct X as (j & Ij & Ej). destruct (PD j (INK j Ij) d Ej) as [C D]. eexists. split; [exact C|]. specialize (P1 j Ij). unfold positive_at in P1. rewrite D. exact P1.
    - intros KL. rewrite <- LEN in KL. specialize (P2 KL). assert (X : exists j d, nth k is 0%nat = j /\ In j is /\ nth_error obs k = Some d /\ nth_error (v :: ds) j = Some d).
      { clear - F KL. revert k KL. induction F as [|i d is obs E F IH]; intros k KL; [cbn in KL; lia|]. destruct k as [|k]; [exists i, d; cbn; auto|]. cbn [length] in KL.
        destruct (IH k ltac:(lia)) as (j & d' & A & C & D & G). exists j, d'. cbn. auto. }
      destruct X as (j & d & E1 & Ij & E2 & E3). destruct (PD j Ij d E3) as [C D]. eexists. exists d. split; [exact E2|]. split; [exact C|].
      rewrite E1 in P2. unfold positive_at in P2. rewrite <- D in P2. lra.
  Qed.

  Lemma walks_spec time (v : date) (ds obs : list date) is : StronglySorted Z.lt (v :: ds) -> StronglySorted Z.le obs -> (forall d, In d obs -> (v < d)%Z) ->
    Forall2 (fun i d => nth_error (v :: ds) i = Some d) is obs ->
    forall n m m' ps, walks initial_state step n (map time (v :: ds)) m is = Ok (m', ps) ->
    length ps = n /\ chained (fun m path m1 => exists tr, evolution step time m (initial_state m) v tr m1 /\ map fst tr = ds /\ recorded time (v :: ds) obs tr path) m ps m'.
  Proof.
    intros SG SO V F n. induction n as [|n IH]; intros m m' ps H; cbn [walks] in H; [injection H as <- <-; split; [reflexivity|constructor]|].
    apply obind_Ok in H as ([m1 path] & H1 & H). cbv beta iota in H. apply obind_Ok in H as ([m2 ps'] & H2 & H). cbv beta iota in H. injection H as <- <-.
    destruct (IH _ _ _ H2) as [L C]. split; [cbn; rewrite L; reflexivity|]. apply ch_cons with m1; [|exact C]. cbn [map] in H1.
    apply (path_spec time v ds obs is); assumption.
  Qed.

  Lemma simulate_spec yf m v obs n stp m' p : simulate_at_dates sort search initial_state step yf m v obs n stp = Ok (m', p) ->
    (0 < n)%nat /\ (0 < stp)%Z /\ obs <> [] /\ (forall d, In d obs -> (v < d)%Z) /\
    dp_valuation_date p = v /\ observation_dates p = sort obs /\ length (paths p) = n /\
    exists ds time, build_grid sort v (sort obs) stp = Ok (v :: ds) /\
      (forall d, In d (v :: ds) -> yf v d = Ok (time d) \/ (exists e, yf v d = Err e) /\ time d = 0) /\
      chained (fun m path m1 => exists tr, evolution step time m (initial_state m) v tr m1 /\ map fst tr = ds /\ recorded time (v :: ds) (sort obs) tr path) m (paths p) m'.
  Proof.
    intros H. unfold simulate_at_dates in H. destruct (Nat.eqb_spec n 0) as [|N]; [discriminate|]. destruct (Z.leb_spec stp 0) as [|S]; [discriminate|].
    destruct obs as [|o0 obs0] eqn:EO; [discriminate|]. rewrite <- EO in *. assert (NE : obs <> []) by (rewrite EO; discriminate).
    match type of H with (if negb ?b then _ else _) = _ => destruct b eqn:FA; [|discriminate] end. cbn [negb] in H. cbv zeta in H.
    assert (V : forall d, In d obs -> (v < d)%Z) by (intros d Hd; rewrite forallb_forall in FA; specialize (FA d Hd); lia).
    assert (V' : forall d, In d (sort obs) -> (v < d)%Z) by (intros d Hd; apply V, (sort_in sort HS), Hd).
    apply obind_Ok in H as (grid & HG & H). apply obind_Ok in H as (is & HI & H). apply obind_Ok in H as (ys & HY & H). apply obind_Ok in H as ([m1 ps] & HW & H). cbv beta iota in H.
    injection H as <- <-. cbn [dp_valuation_date observation_dates paths].
    destruct (grid_spec sort HS v (sort obs) stp grid S (sort_sorted sort HS obs) V' HG) as (SG & (ds & ->) & _).
    destruct (times_spec yf v (v :: ds) ys HY) as (time & -> & T).
    destruct (walks_spec time v ds (sort obs) is SG (sort_sorted sort HS obs) V' (indices_spec search HF _ _ _ SG HI) n m m1 ps HW) as [L C].
    split; [lia|]. split; [exact S|]. split; [exact NE|]. split; [exact V|]. split; [reflexivity|]. split; [reflexivity|]. split; [exact L|].
    exists ds, time. split; [exact HG|]. split; [exact T|exact C].
  Qed.

  Lemma chained_mono {A} (P Q : Md -> A -> Md -> Prop) : (forall m a m1, P m a m1 -> Q m a m1) -> forall m l m', chained P m l m' -> chained Q m l m'.
  Proof. intros I m l m' C. induction C as [|m a m1 r m2 H C IH]; [constructor|]. apply ch_cons with m1; [apply I, H|exact IH]. Qed.
  Lemma chained_in {A} (P : Md -> A -> Md -> Prop) m l m' a : chained P m l m' -> In a l -> exists m1 m2, P m1 a m2.
  Proof. intros C. induction C as [|m b m1 r m2 H C IH]; [contradiction|]. intros [<-|I]; [eauto|apply IH, I]. Qed.

  (** An invariant of the steps holds along every trajectory. *)
  Lemma evolution_inv time (Inv : St -> Prop) : (forall m s t dt m1 s1, 0 < dt -> Inv s -> step m s t dt = Ok (m1, s1) -> Inv s1) ->
    forall m s d0 tr m', evolution step time m s d0 tr m' -> Inv s -> forall d s', In (d, s') tr -> Inv s'.
  Proof.
    intros P m s d0 tr m' E. induction E as [|m s d0 d m1 s1 tr m2 L HS' E IH|m s d0 d tr m2 L E IH]; intros I d' s' H; [contradiction| |].
    - assert (I1 : Inv s1) by (eapply P; [|exact I|exact HS']; lra). destruct H as [H|H]; [injection H as <- <-; exact I1|apply (IH I1 d' s' H)].
    - destruct H as [H|H]; [injection H as <- <-; exact I|apply (IH I d' s' H)].
  Qed.
End RunFacts.
