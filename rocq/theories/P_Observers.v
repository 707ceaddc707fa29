(** C51: notification. *)
From Coq Require Import ZArith Bool List Reals Arith Lra Lia.
Import ListNotations.
From Verif Require Import Outcome Ints Date Calendar YieldCurve FxForward Swap ForwardPoints CapSurface Bootstrap Sorting YieldCurveFacts BootstrapFacts P_Bootstrap Observers.
Open Scope nat_scope.

Section Notification.
Context {D O : Type} (update : D -> O -> O * outcome unit).

(** [n] successful updates in a row. *)
Inductive updates (d : D) : nat -> O -> O -> Prop :=
| no_update o : updates d 0 o o
| one_more n o o1 o2 : updates d n o o1 -> update d o1 = (o2, Ok tt) -> updates d (S n) o o2.
(** How often [a] occurs. *)
Definition times (a : nat) (l : list nat) : nat := count_occ Nat.eq_dec l a.
(** The cells of [h'] are those of [h], with [a] updated as often as it occurs in [called]. *)
Definition updated (d : D) (called : list nat) (h h' : list (cell O)) : Prop :=
  length h' = length h /\ forall a c, nth_error h a = Some c -> exists o, nth_error h' a = Some {| alive := alive c; borrowed := borrowed c; content := o |} /\ updates d (times a called) (content c) o.

Lemma set_cell_length (h : list (cell O)) a c : length (set_cell h a c) = length h.
Proof.
  unfold set_cell. transitivity (length (firstn a h ++ skipn a h)); [|rewrite firstn_skipn; reflexivity]. rewrite !app_length. f_equal. destruct (skipn a h); reflexivity.
Qed.
Lemma set_cell_nth (h : list (cell O)) a c b : (a < length h)%nat -> nth_error (set_cell h a c) b = if b =? a then Some c else nth_error h b.
Proof.
  intros A. unfold set_cell. assert (L : length (firstn a h) = a) by (rewrite firstn_length; lia). destruct (skipn a h) as [|x t] eqn:S; [apply (f_equal (@length _)) in S; rewrite skipn_length in S; cbn in S; lia|].
  assert (HH : h = firstn a h ++ x :: t) by (rewrite <- S; symmetry; apply firstn_skipn). destruct (Nat.eqb_spec b a) as [-> | NE].
  - rewrite nth_error_app2 by lia. rewrite L, Nat.sub_diag. reflexivity.
  - assert (EB : nth_error h b = nth_error (firstn a h ++ x :: t) b) by (rewrite <- HH; reflexivity). rewrite EB. destruct (le_lt_dec a b) as [G|G]; [|rewrite !nth_error_app1 by lia; reflexivity]. rewrite !nth_error_app2 by lia. rewrite L. destruct (b - a)%nat as [|n] eqn:E; [lia|]. reflexivity.
Qed.
Lemma updated_refl d h : updated d [] h h.
Proof. split; [reflexivity|]. intros a c H. exists (content c). split; [destruct c; exact H|constructor]. Qed.
Lemma updates_shift d n o o1 o2 : update d o = (o1, Ok tt) -> updates d n o1 o2 -> updates d (S n) o o2.
Proof. intros U H. induction H as [o1|n o1 o2 o3 H IH V]; [econstructor; [constructor|exact U]|]. econstructor; [apply IH, U|exact V]. Qed.

(** Every call of a notification, in order: it succeeds if every update does; otherwise it stops at the first
    observer that fails, or that somebody is using, and the later ones are not called. *)
Lemma calls d : forall l h, (forall a, In a l -> (a < length h)%nat) ->
  match update_all update h l d with
  | (h', Ok _) => updated d l h h' /\ (forall a c, In a l -> nth_error h a = Some c -> borrowed c = false)
  | (h', r) => exists before a after hm c, l = before ++ a :: after /\ updated d before h hm /\ (forall b x, In b before -> nth_error h b = Some x -> borrowed x = false) /\ nth_error hm a = Some c /\
      ((borrowed c = true /\ r = Panic PBorrow /\ h' = hm) \/
       (borrowed c = false /\ exists o, update d (content c) = (o, r) /\ h' = set_cell hm a {| alive := alive c; borrowed := false; content := o |}))
  end.
Proof.
  induction l as [|a l IH]; intros h IN; cbn [update_all]; [split; [apply updated_refl|intros a c []]|].
  assert (A : (a < length h)%nat) by (apply IN; left; reflexivity). unfold update_cell. destruct (nth_error h a) as [c|] eqn:C; [|apply nth_error_None in C; lia]. destruct (borrowed c) eqn:B.
  - exists [], a, l, h, c. split; [reflexivity|]. split; [apply updated_refl|]. split; [intros b x []|]. split; [exact C|]. left. split; [exact B|]. split; reflexivity.
  - destruct (update d (content c)) as [o r] eqn:U. destruct r as [[]|e|p].
    + set (h1 := set_cell h a _). assert (L1 : length h1 = length h) by apply set_cell_length. specialize (IH h1 ltac:(intros x X; rewrite L1; apply IN; right; exact X)).
      assert (STEP : forall called h2, updated d called h1 h2 -> updated d (a :: called) h h2).
      { intros called h2 [L2 H2]. split; [lia|]. intros b x X. unfold times. cbn [count_occ]. assert (N1 := set_cell_nth h a {| alive := alive c; borrowed := false; content := o |} b A). fold h1 in N1. destruct (Nat.eqb_spec b a) as [-> | NE].
        - rewrite C in X. injection X as <-. destruct (H2 a _ N1) as (o' & O1 & O2). exists o'. split; [cbn [alive borrowed] in O1; rewrite O1, B; reflexivity|]. destruct (Nat.eq_dec a a); [|congruence]. eapply updates_shift; [exact U|exact O2].
        - rewrite X in N1. destruct (H2 b _ N1) as (o' & O1 & O2). exists o'. split; [exact O1|]. destruct (Nat.eq_dec a b); [congruence|exact O2]. }
      assert (FREE : forall called, (forall b x, In b called -> nth_error h1 b = Some x -> borrowed x = false) -> forall b x, In b (a :: called) -> nth_error h b = Some x -> borrowed x = false).
      { intros called B2 b x [<- | I] X; [rewrite C in X; injection X as <-; exact B|]. destruct (Nat.eq_dec b a) as [-> | NE]; [rewrite C in X; injection X as <-; exact B|]. apply (B2 b x I). unfold h1. rewrite set_cell_nth by exact A. destruct (Nat.eqb_spec b a); [contradiction|exact X]. }
      destruct (update_all update h1 l d) as [h' r']. destruct r' as [[]|e|p].
      * destruct IH as [U2 B2]. split; [apply STEP, U2|]. apply FREE, B2.
      * destruct IH as (before & b & after & hm & x & E & U2 & B2 & R). exists (a :: before), b, after, hm, x. split; [rewrite E; reflexivity|]. split; [apply STEP, U2|]. split; [apply FREE, B2|exact R].
      * destruct IH as (before & b & after & hm & x & E & U2 & B2 & R). exists (a :: before), b, after, hm, x. split; [rewrite E; reflexivity|]. split; [apply STEP, U2|]. split; [apply FREE, B2|exact R].
    + exists [], a, l, h, c. split; [reflexivity|]. split; [apply updated_refl|]. split; [intros b x []|]. split; [exact C|]. right. split; [exact B|]. exists o. split; [exact U|reflexivity].
    + exists [], a, l, h, c. split; [reflexivity|]. split; [apply updated_refl|]. split; [intros b x []|]. split; [exact C|]. right. split; [exact B|]. exists o. split; [exact U|reflexivity].
Qed.

(** ** Histories *)
Definition created (ops : list (op D O)) : nat := length (filter (fun o => match o with NewObserver _ => true | _ => false end) ops).
Definition dropped (ops : list (op D O)) (a : nat) : bool := existsb (fun o => match o with DropObserver b => b =? a | _ => false end) ops.
Definition attached (ops : list (op D O)) : list nat := flat_map (fun o => match o with Attach a => [a] | _ => [] end) ops.
Definition current (d : D) (ops : list (op D O)) : D := fold_left (fun x o => match o with SetData y => y | _ => x end) ops d.
(** The handles a program can hold: an observer is attached or dropped after its creation and before its drop. *)
Definition usable (before : list (op D O)) (o : op D O) : Prop :=
  match o with Attach a | DropObserver a => (a < created before)%nat /\ dropped before a = false | _ => True end.
Definition legal (ops : list (op D O)) : Prop := forall before o after, ops = before ++ o :: after -> usable before o.
(** The observers a notification must reach. *)
Definition due (ops : list (op D O)) : list nat := filter (fun a => negb (dropped ops a)) (attached ops).

Lemma created_app x y : created (x ++ y) = (created x + created y)%nat.
Proof. unfold created. rewrite filter_app, app_length. reflexivity. Qed.
Lemma dropped_app x y a : dropped (x ++ y) a = dropped x a || dropped y a.
Proof. apply existsb_app. Qed.
Lemma attached_app x y : attached (x ++ y) = attached x ++ attached y.
Proof. apply flat_map_app. Qed.
Lemma legal_app x o : legal (x ++ [o]) -> legal x /\ usable x o.
Proof.
  intros L. split; [|apply (L x o []); reflexivity]. intros b q a ->. apply (L b q (a ++ [o])). rewrite <- app_assoc. reflexivity.
Qed.
Lemma upgraded_filter (h : list (cell O)) l : upgraded h l = filter (fun a => match upgrade h a with Some _ => true | None => false end) l.
Proof.
  unfold upgraded. induction l as [|a l IH]; [reflexivity|]. cbn. unfold upgrade at 1 3. destruct (nth_error h a) as [c|]; [|exact IH]. destruct (alive c); cbn; [f_equal|]; exact IH.
Qed.
Lemma filter_twice {A} (p q : A -> bool) l : (forall x, In x l -> q x = true -> p x = true) -> filter q (filter p l) = filter q l.
Proof.
  induction l as [|x l IH]; intros H; [reflexivity|]. cbn. destruct (p x) eqn:P; cbn; [destruct (q x); [f_equal|]; apply IH; intros; apply H; try right; assumption|]. destruct (q x) eqn:Q; [rewrite (H x (or_introl eq_refl) Q) in P; discriminate|]. apply IH; intros; apply H; try right; assumption.
Qed.
(** Nothing that a notification does changes who is alive. *)
Lemma calls_alive d : forall l h, length (fst (update_all update h l d)) = length h /\ forall a, option_map (fun c => (alive c, borrowed c)) (nth_error (fst (update_all update h l d)) a) = option_map (fun c => (alive c, borrowed c)) (nth_error h a).
Proof.
  assert (ONE : forall h a, length (fst (update_cell update h a d)) = length h /\ forall b, option_map (fun c => (alive c, borrowed c)) (nth_error (fst (update_cell update h a d)) b) = option_map (fun c => (alive c, borrowed c)) (nth_error h b)).
  { intros h a. unfold update_cell. destruct (nth_error h a) as [c|] eqn:C; [|split; reflexivity]. destruct (borrowed c) eqn:B; [split; reflexivity|]. destruct (update d (content c)) as [o r]. cbn [fst]. split; [apply set_cell_length|]. intros b. rewrite set_cell_nth by (apply nth_error_Some; congruence). destruct (Nat.eqb_spec b a) as [-> | NE]; [rewrite C; cbn; rewrite B; reflexivity|reflexivity]. }
  induction l as [|a l IH]; intros h; [split; reflexivity|]. cbn [update_all]. pose proof (ONE h a) as [L N]. destruct (update_cell update h a d) as [h1 r]. cbn [fst] in L, N. destruct r; [|split; assumption|split; assumption]. destruct (IH h1) as [L2 N2]. split; [lia|]. intros b. rewrite N2. apply N.
Qed.
Lemma current_snoc d x o : current d (x ++ [o]) = match o with SetData y => y | _ => current d x end.
Proof. unfold current. rewrite fold_left_app. reflexivity. Qed.
Lemma due_new x c : due (x ++ [NewObserver c]) = due x.
Proof. unfold due. rewrite attached_app. cbn. rewrite app_nil_r. apply filter_ext. intros a. rewrite dropped_app. cbn. rewrite orb_false_r. reflexivity. Qed.
Lemma due_data x d : due (x ++ [SetData d]) = due x.
Proof. unfold due. rewrite attached_app. cbn. rewrite app_nil_r. apply filter_ext. intros a. rewrite dropped_app. cbn. rewrite orb_false_r. reflexivity. Qed.
Lemma due_notify x : due (x ++ [Notify]) = due x.
Proof. unfold due. rewrite attached_app. cbn. rewrite app_nil_r. apply filter_ext. intros a. rewrite dropped_app. cbn. rewrite orb_false_r. reflexivity. Qed.

(** The state of every history. *)
Lemma history prune d : forall ops, legal ops ->
  let w := run update prune d ops in
  length (heap w) = created ops /\
  (forall a c, nth_error (heap w) a = Some c -> alive c = negb (dropped ops a) /\ borrowed c = false) /\
  data (subject w) = current d ops /\
  (forall a, In a (observers (subject w)) -> (a < created ops)%nat) /\ (forall a, In a (attached ops) -> (a < created ops)%nat) /\
  filter (fun a => negb (dropped ops a)) (observers (subject w)) = due ops /\
  (prune = false -> observers (subject w) = attached ops).
Proof.
  induction ops as [|o ops IH] using rev_ind; intros L.
  { cbn. split; [reflexivity|]. split; [intros [|a] c H; discriminate|]. split; [reflexivity|]. split; [intros a []|]. split; [intros a []|]. split; reflexivity. }
  apply legal_app in L. destruct L as [L US]. specialize (IH L). cbv zeta in *. unfold run in *. rewrite fold_left_app. cbn [fold_left]. set (w := fold_left (exec update prune) ops _) in *. clearbody w. destruct IH as (I1 & I2 & I3 & I4 & I5 & I6 & I7).
  destruct o as [c|a|a|y|].
  - cbn [exec heap subject]. assert (CR : created (ops ++ [NewObserver c]) = S (created ops)) by (rewrite created_app; cbn; lia). rewrite CR. split; [rewrite app_length; cbn; lia|]. split.
    + intros a x H. rewrite dropped_app. cbn. rewrite orb_false_r. destruct (Nat.eq_dec a (length (heap w))) as [-> | NE].
      * rewrite nth_error_app2, Nat.sub_diag in H by lia. injection H as <-. cbn. split; [|reflexivity]. (* a fresh cell has not been dropped *)
        assert (FR : forall l b, legal l -> (created l <= b)%nat -> dropped l b = false).
        { clear. induction l as [|o l IH] using rev_ind; intros b LG B; [reflexivity|]. apply legal_app in LG. destruct LG as [LG U]. rewrite created_app in B. rewrite dropped_app, (IH b LG) by lia. destruct o; try reflexivity. cbn in *. destruct (Nat.eqb_spec a b) as [-> |]; [lia|reflexivity]. }
        rewrite FR; [reflexivity|exact L|lia].
      * rewrite nth_error_app1 in H; [apply I2, H|]. assert (a < length (heap w ++ [{| alive := true; borrowed := false; content := c |}]))%nat by (apply nth_error_Some; congruence). rewrite app_length in *. cbn in *. lia.
    + split; [rewrite current_snoc; exact I3|]. split; [intros a A; pose proof (I4 a A); lia|]. split; [intros a A; rewrite attached_app in A; cbn in A; rewrite app_nil_r in A; pose proof (I5 a A); lia|]. split.
      * rewrite due_new, <- I6. apply filter_ext. intros a. rewrite dropped_app. cbn. rewrite orb_false_r. reflexivity.
      * intros P. rewrite attached_app. cbn. rewrite app_nil_r. apply I7, P.
  - cbn [exec heap subject]. cbn in US. assert (CR : created (ops ++ [DropObserver a]) = created ops) by (rewrite created_app; cbn; lia). rewrite CR. destruct (nth_error (heap w) a) as [x|] eqn:X; [|apply nth_error_None in X; lia].
    assert (DR : forall b, dropped (ops ++ [DropObserver a]) b = dropped ops b || (a =? b)) by (intros b; rewrite dropped_app; cbn; rewrite orb_false_r; reflexivity).
    split; [rewrite set_cell_length; exact I1|]. split.
    + intros b c H. rewrite set_cell_nth in H by lia. rewrite DR. destruct (Nat.eqb_spec b a) as [-> | NE].
      * injection H as <-. cbn. rewrite Nat.eqb_refl, orb_true_r. split; [reflexivity|]. apply (I2 a x X).
      * destruct (Nat.eqb_spec a b); [congruence|]. rewrite orb_false_r. apply I2, H.
    + split; [rewrite current_snoc; exact I3|]. split; [exact I4|]. assert (AT : attached (ops ++ [DropObserver a]) = attached ops) by (rewrite attached_app; cbn; apply app_nil_r). rewrite AT. split; [exact I5|]. split; [|exact I7].
      unfold due. rewrite AT. apply (f_equal (filter (fun b => negb (a =? b)))) in I6. unfold due in I6. assert (FF : forall l, filter (fun b => negb (a =? b)) (filter (fun b => negb (dropped ops b)) l) = filter (fun b => negb (dropped (ops ++ [DropObserver a]) b)) l).
      { induction l as [|b l IHl]; [reflexivity|]. cbn [filter]. rewrite DR. destruct (dropped ops b); cbn [negb orb filter]; [exact IHl|]. destruct (a =? b); cbn [negb]; [exact IHl|f_equal; exact IHl]. } rewrite !FF in I6. exact I6.
  - cbn [exec heap subject attach observers data]. cbn in US. assert (CR : created (ops ++ [Attach a]) = created ops) by (rewrite created_app; cbn; lia). assert (DR : forall b, dropped (ops ++ [Attach a]) b = dropped ops b) by (intros b; rewrite dropped_app; cbn; apply orb_false_r). assert (AT : attached (ops ++ [Attach a]) = attached ops ++ [a]) by (rewrite attached_app; reflexivity).
    rewrite CR, AT. split; [exact I1|]. split; [intros b c H; rewrite DR; apply I2, H|]. split; [rewrite current_snoc; exact I3|]. split; [intros b B; apply in_app_or in B; destruct B as [B|[<- |[]]]; [apply I4, B|apply US]|]. split; [intros b B; apply in_app_or in B; destruct B as [B|[<- |[]]]; [apply I5, B|apply US]|]. split.
    + unfold due. rewrite AT, !filter_app. unfold due in I6. f_equal. transitivity (filter (fun b => negb (dropped ops b)) (observers (subject w))); [apply filter_ext; intros b; rewrite DR; reflexivity|]. rewrite I6. apply filter_ext; intros b; rewrite DR; reflexivity.
    + intros P. rewrite I7 by exact P. reflexivity.
  - cbn [exec heap subject observers data]. assert (CR : created (ops ++ [SetData y]) = created ops) by (rewrite created_app; cbn; lia). assert (DR : forall b, dropped (ops ++ [SetData y]) b = dropped ops b) by (intros b; rewrite dropped_app; cbn; apply orb_false_r). assert (AT : attached (ops ++ [SetData y]) = attached ops) by (rewrite attached_app; cbn; apply app_nil_r).
    rewrite CR, AT, due_data. split; [exact I1|]. split; [intros b c H; rewrite DR; apply I2, H|]. split; [rewrite current_snoc; reflexivity|]. split; [exact I4|]. split; [exact I5|]. split; [|exact I7]. rewrite <- I6. apply filter_ext; intros b; rewrite DR; reflexivity.
  - assert (CR : created (ops ++ [Notify]) = created ops) by (rewrite created_app; cbn; lia). assert (DR : forall b, dropped (ops ++ [Notify]) b = dropped ops b) by (intros b; rewrite dropped_app; cbn; apply orb_false_r). assert (AT : attached (ops ++ [Notify]) = attached ops) by (rewrite attached_app; cbn; apply app_nil_r).
    rewrite CR, AT, due_notify, current_snoc.
    assert (HP : forall l dd, length (fst (update_all update (heap w) l dd)) = created ops /\ forall a c, nth_error (fst (update_all update (heap w) l dd)) a = Some c -> alive c = negb (dropped (ops ++ [Notify]) a) /\ borrowed c = false).
    { intros l dd. destruct (calls_alive dd l (heap w)) as [L1 N1]. split; [lia|]. intros a c H. rewrite DR. specialize (N1 a). rewrite H in N1. cbn in N1. destruct (nth_error (heap w) a) as [x|] eqn:X; [|discriminate]. cbn in N1. injection N1 as -> ->. apply (I2 a x X). }
    destruct prune; cbn [exec].
    + unfold notify_pruning. set (live := filter _ (observers (subject w))). set (l := upgraded (heap w) live). destruct (HP l (data (subject w))) as [H1 H2]. destruct (update_all update (heap w) l (data (subject w))) as [h r]. cbn [fst heap subject observers data] in *. split; [exact H1|]. split; [exact H2|]. split; [exact I3|]. split; [intros a A; apply filter_In in A; apply I4, A|]. split; [exact I5|]. split; [|discriminate].
      rewrite <- I6. unfold live. rewrite filter_twice; [apply filter_ext; intros b; rewrite DR; reflexivity|]. intros a A Q. rewrite DR in Q. unfold upgrade. destruct (nth_error (heap w) a) as [x|] eqn:X; [|apply nth_error_None in X; specialize (I4 a A); lia]. destruct (I2 a x X) as [-> _]. rewrite Q. reflexivity.
    + unfold notify. destruct (HP (upgraded (heap w) (observers (subject w))) (data (subject w))) as [H1 H2]. cbn [heap subject]. split; [exact H1|]. split; [exact H2|]. split; [exact I3|]. split; [exact I4|]. split; [exact I5|]. split; [|exact I7]. rewrite <- I6. apply filter_ext; intros b; rewrite DR; reflexivity.
Qed.

(** After every history, with either kind of notification: the observers called are those attached and not dropped, in
    the order of attachment and as often as attached, each with the data as last set.  A success means each was
    called; a failure is that of the first update to fail, and the later observers have not been called. *)
Theorem C51_notify : forall prune d ops, legal ops ->
  let w := run update prune d ops in
  let now := current d ops in
  let '(h', r) := if prune then snd (notify_pruning update (heap w) (subject w)) else notify update (heap w) (subject w) in
  match r with
  | Ok _ => updated now (due ops) (heap w) h'
  | _ => exists before a after hm c o, due ops = before ++ a :: after /\ updated now before (heap w) hm /\ nth_error hm a = Some c /\ update now (content c) = (o, r) /\
      forall b, nth_error h' b = if b =? a then Some {| alive := alive c; borrowed := false; content := o |} else nth_error hm b
  end.
Proof.
  intros prune d ops L w now. destruct (history prune d ops L) as (I1 & I2 & I3 & I4 & I5 & I6 & I7). fold w in I1, I2, I3, I4, I6, I7. fold now in I3.
  assert (UP : forall l, (forall a, In a l -> (a < created ops)%nat) -> upgraded (heap w) l = filter (fun a => negb (dropped ops a)) l).
  { intros l IN. rewrite upgraded_filter. apply filter_ext_in. intros a A. unfold upgrade. destruct (nth_error (heap w) a) as [x|] eqn:X; [|apply nth_error_None in X; specialize (IN a A); lia]. destruct (I2 a x X) as [-> _]. destruct (dropped ops a); reflexivity. }
  assert (CALL : (if prune then snd (notify_pruning update (heap w) (subject w)) else notify update (heap w) (subject w)) = update_all update (heap w) (due ops) now).
  { destruct prune; unfold notify_pruning, notify; cbn [snd]; rewrite I3; f_equal.
    - rewrite <- upgraded_filter, UP, UP by (assumption || (intros a A; rewrite UP in A by assumption; apply filter_In in A; apply I4, A)). rewrite filter_twice by (intros; assumption). exact I6.
    - rewrite UP by exact I4. exact I6. }
  rewrite CALL. pose proof (calls now (due ops) (heap w)) as C. assert (IN : forall a, In a (due ops) -> (a < length (heap w))%nat) by (intros a A; rewrite I1; apply filter_In in A; apply I5, A). specialize (C IN). destruct (update_all update (heap w) (due ops) now) as [h' r].
  assert (FAIL : forall rr, (exists before a after hm c, due ops = before ++ a :: after /\ updated now before (heap w) hm /\ (forall b x, In b before -> nth_error (heap w) b = Some x -> borrowed x = false) /\ nth_error hm a = Some c /\ ((borrowed c = true /\ rr = Panic PBorrow /\ h' = hm) \/ (borrowed c = false /\ exists o, update now (content c) = (o, rr) /\ h' = set_cell hm a {| alive := alive c; borrowed := false; content := o |}))) ->
    exists before a after hm c o, due ops = before ++ a :: after /\ updated now before (heap w) hm /\ nth_error hm a = Some c /\ update now (content c) = (o, rr) /\ forall b, nth_error h' b = if b =? a then Some {| alive := alive c; borrowed := false; content := o |} else nth_error hm b).
  { intros rr (before & a & after & hm & c & E & U & _ & N & [(B & _ & _)|(B & o & UO & H)]).
    - exfalso. destruct U as [UL UU]. destruct (nth_error (heap w) a) as [x|] eqn:X; [|apply nth_error_None in X; assert (a < length hm)%nat by (apply nth_error_Some; congruence); lia]. destruct (UU a x X) as (o & Q & _). rewrite N in Q. injection Q as ->. cbn in B. destruct (I2 a x X) as [_ Z]. congruence.
    - exists before, a, after, hm, c, o. split; [exact E|]. split; [exact U|]. split; [exact N|]. split; [exact UO|]. intros b. rewrite H. apply set_cell_nth. apply nth_error_Some. congruence. }
  destruct r as [[]|e|p]; [apply C|apply FAIL, C|apply FAIL, C].
Qed.

(** The forwards helper forgets dropped observers at a notification; the other two keep them. *)
Theorem C51_prune : forall d ops, legal ops ->
  observers (fst (notify_pruning update (heap (run update true d ops)) (subject (run update true d ops)))) = due ops /\
  observers (subject (run update false d ops)) = attached ops.
Proof.
  intros d ops L. split; [|apply (history false d ops L); reflexivity]. destruct (history true d ops L) as (I1 & I2 & I3 & I4 & I5 & I6 & _). cbn. rewrite <- I6. apply filter_ext_in. intros a A. unfold upgrade. destruct (nth_error _ a) as [x|] eqn:X; [|apply nth_error_None in X; specialize (I4 a A); lia]. destruct (I2 a x X) as [-> _]. destruct (dropped ops a); reflexivity.
Qed.

(** An observer that is being used when its turn comes makes the notification fail, by a panic if no update fails. *)
Theorem C51_borrowed : forall (h : list (cell O)) (m : observable D) a c, In a (observers m) -> nth_error h a = Some c -> alive c = true -> borrowed c = true ->
  (forall h', notify update h m <> (h', Ok tt)) /\
  ((forall o, exists o', update (data m) o = (o', Ok tt)) -> exists h', notify update h m = (h', Panic PBorrow)).
Proof.
  intros h m a c IA C AL B. unfold notify. set (l := upgraded h (observers m)). assert (IN : forall b, In b l -> b < length h).
  { intros b H. unfold l in H. rewrite upgraded_filter in H. apply filter_In in H. destruct H as [_ H]. unfold upgrade in H. apply nth_error_Some. destruct (nth_error h b); [discriminate|discriminate H]. }
  assert (LA : In a l). { unfold l. rewrite upgraded_filter. apply filter_In. split; [exact IA|]. unfold upgrade. rewrite C, AL. reflexivity. }
  pose proof (calls (data m) l h IN) as K. destruct (update_all update h l (data m)) as [h' r]. destruct r as [[]|e|p].
  - destruct K as [_ K]. specialize (K a c LA C). congruence.
  - split; [discriminate|]. intros OKS. destruct K as (b & x & f & hm & y & _ & _ & _ & _ & [(_ & E & _)|(_ & o & U & _)]); [discriminate|]. destruct (OKS (content y)) as (o' & V). congruence.
  - split; [discriminate|]. intros OKS. destruct K as (b & x & f & hm & y & _ & _ & _ & _ & [(_ & E & _)|(_ & o & U & _)]); [exists h'; congruence|]. destruct (OKS (content y)) as (o' & V). congruence.
Qed.
End Notification.

Print Assumptions C51_notify.
Print Assumptions C51_prune.
Print Assumptions C51_borrowed.

(** ** The curve and the surface *)
Section Market.
Context (sort : list date -> list date) (brent : R -> R -> (R -> outcome R) -> outcome R) (oc : bool) (depth : positive) (now : date).
Let upd := market_update sort brent oc depth now.
Let strip := get_stripped_curve sort brent oc depth now.

Lemma curve_updates m : forall n y o, updates upd (YieldData m) (S n) (CurveObserver y) o ->
  exists l, strip m = Ok l /\ o = CurveObserver {| c_valuation_date := c_valuation_date y; stripped_curves := l |}.
Proof.
  induction n as [|n IH]; intros y o H; inversion H as [|k x o1 o2 H1 U]; subst.
  - inversion H1; subst. unfold upd in U. cbn in U. unfold strip. destruct (get_stripped_curve sort brent oc depth now m) as [l|e|p]; inversion U. exists l. split; reflexivity.
  - destruct (IH y o1 H1) as (l & L & ->). unfold upd in U. cbn in U. unfold strip in *. rewrite L in U. inversion U. exists l. split; [exact L|reflexivity].
Qed.
Lemma other_updates d : (forall m, d <> YieldData m) -> forall n y o, updates upd d n (CurveObserver y) o -> o = CurveObserver y.
Proof.
  intros ND. induction n as [|n IH]; intros y o H; inversion H as [|k x o1 o2 H1 U]; subst; [reflexivity|]. rewrite (IH y o1 H1) in U. unfold upd in U. destruct d as [m| |]; [exfalso; exact (ND m eq_refl)|cbn in U; congruence|cbn in U; congruence].
Qed.
Lemma surface_updates d : forall n v p o, updates upd d n (SurfaceObserver v p) o -> o = SurfaceObserver v p.
Proof. induction n as [|n IH]; intros v p o H; inversion H as [|k x o1 o2 H1 U]; subst; [reflexivity|]. rewrite (IH v p o1 H1) in U. cbn in U. congruence. Qed.

(** After a successful notification of yield market data, whatever happened before, every attached live curve has the
    pillars stripped from the data as they are now; an error leaves the pillars alone.  Notifications by the other two
    kinds of data do not touch a curve. *)
Theorem C51_curve : forall prune d ops, legal ops ->
  let w := run upd prune d ops in
  let '(h', r) := if prune then snd (notify_pruning upd (heap w) (subject w)) else notify upd (heap w) (subject w) in
  forall a c y, nth_error (heap w) a = Some c -> content c = CurveObserver y ->
  exists y', option_map content (nth_error h' a) = Some (CurveObserver y') /\ c_valuation_date y' = c_valuation_date y /\
    (r = Ok tt -> forall m, current d ops = YieldData m -> In a (due ops) -> strip m = Ok (stripped_curves y')) /\
    (r <> Ok tt -> y' = y) /\
    (~ In a (due ops) \/ (forall m, current d ops <> YieldData m) -> y' = y).
Proof.
  intros prune d ops L w. pose proof (C51_notify upd prune d ops L) as N. cbv zeta in N. fold w in N. destruct (if prune then _ else _) as [h' r]. intros a c y C Y.
  assert (SEV : forall called h2, updated upd (current d ops) called (heap w) h2 -> exists y' x, nth_error h2 a = Some x /\ content x = CurveObserver y' /\ c_valuation_date y' = c_valuation_date y /\ (forall m, current d ops = YieldData m -> In a called -> strip m = Ok (stripped_curves y')) /\ (~ In a called \/ (forall m, current d ops <> YieldData m) -> y' = y)).
  { intros called h2 [_ U]. destruct (U a c C) as (o & O1 & O2). rewrite Y in O2. destruct (times a called) as [|n] eqn:T.
    - inversion O2; subst. exists y. eexists. split; [exact O1|]. split; [reflexivity|]. split; [reflexivity|]. split; [|reflexivity]. intros m _ I. apply (count_occ_In Nat.eq_dec) in I. unfold times in T. lia.
    - assert (I : In a called) by (apply (count_occ_In Nat.eq_dec); unfold times in T; lia). destruct (current d ops) as [m|f|v q] eqn:CU.
      + destruct (curve_updates m n y o O2) as (l & SL & ->). eexists. eexists. split; [exact O1|]. split; [reflexivity|]. split; [reflexivity|]. split; [intros m' E _; injection E as <-; exact SL|]. intros [X|X]; [contradiction|exfalso; exact (X m eq_refl)].
      + assert (ND : forall m, ForwardData f <> YieldData m) by discriminate. rewrite (other_updates _ ND _ _ _ O2) in O1. exists y. eexists. split; [exact O1|]. split; [reflexivity|]. split; [reflexivity|]. split; [discriminate|reflexivity].
      + assert (ND : forall m, CapData v q <> YieldData m) by discriminate. rewrite (other_updates _ ND _ _ _ O2) in O1. exists y. eexists. split; [exact O1|]. split; [reflexivity|]. split; [reflexivity|]. split; [discriminate|reflexivity]. }
  assert (FAIL : r <> Ok tt -> (exists before a0 after hm c0 o, due ops = before ++ a0 :: after /\ updated upd (current d ops) before (heap w) hm /\ nth_error hm a0 = Some c0 /\ upd (current d ops) (content c0) = (o, r) /\ forall b, nth_error h' b = if b =? a0 then Some {| alive := alive c0; borrowed := false; content := o |} else nth_error hm b) -> exists y', option_map content (nth_error h' a) = Some (CurveObserver y') /\ c_valuation_date y' = c_valuation_date y /\ y' = y).
  { intros NR (before & a0 & after & hm & c0 & o & E & U & N0 & UO & HB).
    (* a failing update comes from a curve and from yield data whose stripping fails, so nothing has changed *)
    assert (FL : exists m y0, current d ops = YieldData m /\ content c0 = CurveObserver y0 /\ o = CurveObserver y0 /\ forall l, strip m <> Ok l).
    { unfold upd, market_update in UO. destruct (content c0) as [y0|v q]; [|inversion UO; congruence]. destruct (current d ops) as [m|f|v q]; [|inversion UO; congruence|inversion UO; congruence]. exists m, y0. unfold strip. destruct (get_stripped_curve sort brent oc depth now m) as [l|e|p]; inversion UO; [congruence|split; [reflexivity|split; [reflexivity|split; [reflexivity|intros l; discriminate]]]|split; [reflexivity|split; [reflexivity|split; [reflexivity|intros l; discriminate]]]]. }
    destruct FL as (m & y0 & CU & C0 & -> & BAD). destruct (SEV before hm U) as (y' & x & X1 & X2 & X3 & X4 & X5). assert (y' = y) as ->. { destruct (in_dec Nat.eq_dec a before) as [I|I]; [exfalso; exact (BAD _ (X4 m CU I))|apply X5; left; exact I]. }
    exists y. split; [|split; reflexivity]. rewrite HB. destruct (Nat.eqb_spec a a0) as [-> |]; [|rewrite X1; cbn; rewrite X2; reflexivity]. rewrite X1 in N0. injection N0 as <-. cbn. congruence. }
  destruct r as [[]|e|p].
  - destruct (SEV (due ops) h' N) as (y' & x & X1 & X2 & X3 & X4 & X5). exists y'. split; [rewrite X1; cbn; rewrite X2; reflexivity|]. split; [exact X3|]. split; [intros _; exact X4|]. split; [congruence|exact X5].
  - destruct (FAIL ltac:(discriminate) N) as (y' & F1 & F2 & F3). exists y'. split; [exact F1|]. split; [exact F2|]. split; [discriminate|]. split; intros _; exact F3.
  - destruct (FAIL ltac:(discriminate) N) as (y' & F1 & F2 & F3). exists y'. split; [exact F1|]. split; [exact F2|]. split; [discriminate|]. split; intros _; exact F3.
Qed.

(** The cap quotes say that a notification re-strips an attached surface.  It never changes it. *)
Theorem C51_surface_refuted : forall prune d ops, legal ops ->
  let w := run upd prune d ops in
  let '(h', r) := if prune then snd (notify_pruning upd (heap w) (subject w)) else notify upd (heap w) (subject w) in
  forall a c v p, nth_error (heap w) a = Some c -> content c = SurfaceObserver v p -> option_map content (nth_error h' a) = Some (SurfaceObserver v p).
Proof.
  intros prune d ops L w. pose proof (C51_notify upd prune d ops L) as N. cbv zeta in N. fold w in N. destruct (if prune then _ else _) as [h' r]. intros a c v p C Y.
  assert (SEV : forall called h2, updated upd (current d ops) called (heap w) h2 -> exists x, nth_error h2 a = Some x /\ content x = SurfaceObserver v p).
  { intros called h2 [_ U]. destruct (U a c C) as (o & O1 & O2). rewrite Y in O2. rewrite (surface_updates _ _ _ _ _ O2) in O1. eexists. split; [exact O1|reflexivity]. }
  assert (FAIL : (exists before a0 after hm c0 o, due ops = before ++ a0 :: after /\ updated upd (current d ops) before (heap w) hm /\ nth_error hm a0 = Some c0 /\ upd (current d ops) (content c0) = (o, r) /\ forall b, nth_error h' b = if b =? a0 then Some {| alive := alive c0; borrowed := false; content := o |} else nth_error hm b) -> option_map content (nth_error h' a) = Some (SurfaceObserver v p)).
  { intros (before & a0 & after & hm & c0 & o & E & U & N0 & UO & HB). destruct (SEV before hm U) as (x & X1 & X2). rewrite HB. destruct (Nat.eqb_spec a a0) as [-> |]; [|rewrite X1; cbn; rewrite X2; reflexivity]. rewrite X1 in N0. injection N0 as <-. rewrite X2 in UO. cbn in UO. cbn. congruence. }
  destruct r as [[]|e|q]; [|apply FAIL, N|apply FAIL, N]. destruct (SEV (due ops) h' N) as (x & X1 & X2). rewrite X1. cbn. rewrite X2. reflexivity.
Qed.
End Market.
Print Assumptions C51_curve.
Print Assumptions C51_surface_refuted.

(** A notified curve keeps its own valuation date.  When the market data move to the next day, its discount factors are
    not those of the data. *)
Theorem C51_valuation_date_refuted : exists sort brent oc depth now m y ops,
  let upd := market_update sort brent oc depth now in
  sorts_by (fun d : date => d) sort /\ legal ops /\ due ops = [0] /\ current (YieldData m) ops = YieldData m /\
  exists h' y' l d1 d2, notify upd (heap (run upd false (YieldData m) ops)) (subject (run upd false (YieldData m) ops)) = (h', Ok tt) /\
  nth_error h' 0 = Some {| alive := true; borrowed := false; content := CurveObserver y' |} /\ c_valuation_date y = Z.pred (ym_valuation_date m) /\ ops = [NewObserver (CurveObserver y); Attach 0] /\
  get_stripped_curve sort brent oc depth now m = Ok l /\
  discount y' (of_ymd 2024 1 16) = Ok d1 /\ discount {| c_valuation_date := ym_valuation_date m; stripped_curves := l |} (of_ymd 2024 1 16) = Ok d2 /\ (d1 < d2)%R.
Proof.
  set (q := euribor_quote (Months 3) (1 / 20)). set (m := cash_market [q]). set (y := {| c_valuation_date := Z.pred (of_ymd 2023 10 13); stripped_curves := [] |}).
  exists (isort_by (fun d : date => d)), (fun _ _ _ => Panic PUnwrap), true, 10%positive, 0%Z, m, y, [NewObserver (CurveObserver y); Attach 0]. cbv zeta. set (upd := market_update _ _ _ _ _).
  destruct (euribor_pillar (1 / 20)) as (p & P). fold q in P. assert (Hm : ois_maturity true q (of_ymd 2023 10 13) = Ok (of_ymd 2024 1 17)) by (vm_compute; reflexivity). assert (Hs : ois_settle true q (of_ymd 2023 10 13) = Ok (of_ymd 2023 10 17)) by (vm_compute; reflexivity).
  assert (E : get_stripped_curve (isort_by (fun d : date => d)) (fun _ _ _ => Panic PUnwrap) true 10 0%Z m = Ok [p]).
  { unfold get_stripped_curve, m, cash_market. cbn [ym_valuation_date ym_cash ym_futures ym_swaps cash_maturities]. rewrite Hm. cbn [result_unwrap obind]. replace (isort_by _ _) with [of_ymd 2024 1 17] by (vm_compute; reflexivity).
    cbn [cash_loop cash_at]. rewrite Hm. cbn [result_unwrap obind]. rewrite Z.eqb_refl, P. cbn [obind app futures_loop swaps_loop]. reflexivity. }
  split; [apply isort_sorts|]. split.
  { intros before o after H. destruct before as [|x [|x' before]]; cbn in H.
    - injection H as <- _. exact I.
    - injection H as <- <- _. cbn. split; [lia|reflexivity].
    - injection H as _ _ H. destruct before; discriminate. }
  split; [reflexivity|]. split; [reflexivity|].
  apply cash_pillar_inv in P. destruct P as (_ & PD & _ & PZ & _ & _ & PH). assert (HV : hidden_pillar p = false). { destruct (hidden_pillar p); [|reflexivity]. exfalso. assert (X : Months 3 = Weeks 1) by (apply PH; reflexivity). discriminate X. }
  assert (ZP : (0 < p_zero_rate p)%R).
  { unfold ois_zero_rate in PZ. rewrite Hs, Hm in PZ. cbn [obind] in PZ. assert (DY : dc_yf (ix_day_counter (ois_index q)) (of_ymd 2023 10 17) (of_ymd 2024 1 17) = Ok (92 / 360)%R).
    { change (Ok (IZR (of_ymd 2024 1 17 - of_ymd 2023 10 17) / 360)%R = Ok (92 / 360)%R). replace (of_ymd 2024 1 17 - of_ymd 2023 10 17)%Z with 92%Z by (vm_compute; reflexivity). reflexivity. }
    rewrite DY in PZ. cbn [obind] in PZ. assert (Q : p_zero_rate p = (- ln (1 / (1 + 92 / 360 * (1 / 20))) / yf365 (of_ymd 2023 10 17) (of_ymd 2024 1 17))%R) by (change (ois_value q) with (1 / 20)%R in PZ; congruence). rewrite Q. apply Rdiv_lt_0_compat.
    - assert (ln (1 / (1 + 92 / 360 * (1 / 20))) < ln 1)%R by (apply ln_increasing; lra). rewrite ln_1 in H. lra.
    - unfold yf365. replace (of_ymd 2024 1 17 - of_ymd 2023 10 17)%Z with 92%Z by (vm_compute; reflexivity). lra. }
  assert (ZR : forall v, zero_rate {| c_valuation_date := v; stripped_curves := [p] |} (of_ymd 2024 1 16) = Ok (p_zero_rate p)).
  { intros v. unfold zero_rate. replace (add_days (of_ymd 2024 1 16) 1) with (Ok (of_ymd 2024 1 17)) by (vm_compute; reflexivity). cbn [obind stripped_curves scan_pillars find]. rewrite HV. cbn [negb]. destruct (_ && _); rewrite (proj2 (pillar_eqb_eq p p) eq_refl); reflexivity. }
  assert (STEP : notify upd (heap (run upd false (YieldData m) [NewObserver (CurveObserver y); Attach 0])) (subject (run upd false (YieldData m) [NewObserver (CurveObserver y); Attach 0])) = ([{| alive := true; borrowed := false; content := CurveObserver {| c_valuation_date := c_valuation_date y; stripped_curves := [p] |} |}], Ok tt)).
  { change (update_all upd [{| alive := true; borrowed := false; content := CurveObserver y |}] [0] (YieldData m) = ([{| alive := true; borrowed := false; content := CurveObserver {| c_valuation_date := c_valuation_date y; stripped_curves := [p] |} |}], Ok tt)). cbn [update_all]. unfold update_cell. cbn [nth_error borrowed content alive]. unfold upd, market_update. rewrite E. reflexivity. }
  eexists. eexists. exists [p]. eexists. eexists. split; [exact STEP|]. split; [reflexivity|]. split; [reflexivity|]. split; [reflexivity|]. split; [exact E|]. unfold discount. rewrite !ZR. cbn [obind]. split; [reflexivity|]. split; [reflexivity|]. apply exp_increasing. unfold yf365. cbn [c_valuation_date y m cash_market ym_valuation_date].
  replace (of_ymd 2024 1 16 - Z.pred (of_ymd 2023 10 13))%Z with 96%Z by (vm_compute; reflexivity). replace (of_ymd 2024 1 16 - of_ymd 2023 10 13)%Z with 95%Z by (vm_compute; reflexivity). nra.
Qed.
Print Assumptions C51_valuation_date_refuted.

(** A history with two observers, one dropped, and a double attachment. *)
Example C51_witness : let ops := [NewObserver 0; NewObserver 5; Attach 1; Attach 0; Attach 1; DropObserver 0; SetData 3; Notify] : list (op nat nat) in
  legal ops /\ due ops = [1; 1] /\ current 0 ops = 3 /\ map content (heap (run (fun d o => (d + o, Ok tt)) true 0 ops)) = [0; 11].
Proof.
  cbv zeta. split; [|repeat split; reflexivity]. intros before o after H.
  do 8 (destruct before as [|? before]; cbn [app] in H; [injection H; intros _ <-; cbn; try exact I; try (split; [lia|reflexivity])|injection H; clear H; intros H <-]); try (destruct before; discriminate H).
Qed.
