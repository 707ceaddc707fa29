(** Proofs about the optimiser. *)
From Coq Require Import Arith Lia Bool List Permutation Sorting.Sorted.
Import ListNotations.
From Verif Require Import Outcome NelderMead.

Definition fle {N : floats} (x y : N) : Prop := fcmp x y = Some Lt \/ fcmp x y = Some Eq.

(** The laws of [partial_cmp] on floats: a total preorder on what is not NaN. *)
Record float_order (N : floats) : Prop := {
  cmp_flip : forall x y : N, fcmp y x = option_map CompOpp (fcmp x y);
  cmp_refl : forall x : N, is_nan x = false -> fcmp x x = Some Eq;
  cmp_def : forall x y : N, fcmp x y = None <-> is_nan x = true \/ is_nan y = true;
  cmp_trans : forall x y z : N, fle x y -> fle y z -> fle x z }.

(** The contract of [slice::sort_by] with [partial_cmp]. *)
Definition sorts_floats {N : floats} (sort : (nat -> N) -> list nat -> list nat) : Prop :=
  forall key l, (forall i, In i l -> is_nan (key i) = false) ->
  Permutation l (sort key l) /\ StronglySorted (fun a b => fle (key a) (key b)) (sort key l).

Section Order.
  Context {N : floats} (O : float_order N).
  Lemma fle_refl (x : N) : is_nan x = false -> fle x x.
  Proof. intros H. right. apply (cmp_refl N O), H. Qed.
  Lemma fle_nan (x y : N) : fle x y -> is_nan x = false /\ is_nan y = false.
  Proof.
    intros H. destruct (is_nan x) eqn:X; [exfalso|destruct (is_nan y) eqn:Y; [exfalso|auto]].
    - assert (E : fcmp x y = None) by (apply (cmp_def N O); auto). destruct H; congruence.
    - assert (E : fcmp x y = None) by (apply (cmp_def N O); auto). destruct H; congruence.
  Qed.
  Lemma fle_total (x y : N) : is_nan x = false -> is_nan y = false -> fle x y \/ fcmp y x = Some Lt.
  Proof.
    intros X Y. destruct (fcmp x y) as [[]|] eqn:E.
    - left. right. exact E.
    - left. left. exact E.
    - right. rewrite (cmp_flip N O x y), E. reflexivity.
    - exfalso. apply (cmp_def N O) in E as [E|E]; congruence.
  Qed.
  Lemma flt_true (x y : N) : flt x y = true <-> fcmp x y = Some Lt.
  Proof. unfold flt. destruct (fcmp x y) as [[]|]; split; congruence. Qed.
  Lemma flt_false (x y : N) : is_nan x = false -> is_nan y = false -> flt x y = false -> fle y x.
  Proof. intros X Y H. destruct (fle_total y x Y X) as [L|L]; [exact L|]. apply flt_true in L. congruence. Qed.
End Order.

Lemma upd_length {A} i (a : A) l : length (upd i a l) = length l.
Proof. revert i. induction l as [|b r IH]; intros [|i]; cbn; auto. Qed.
Lemma upd_map {A B} (g : A -> B) i a l : map g (upd i a l) = upd i (g a) (map g l).
Proof. revert i. induction l as [|b r IH]; intros [|i]; cbn; auto. f_equal. apply IH. Qed.
Lemma upd_nth_eq {A} i (a d : A) l : (i < length l)%nat -> nth i (upd i a l) d = a.
Proof. revert i. induction l as [|b r IH]; intros [|i] L; cbn in *; try lia; auto. apply IH. lia. Qed.
Lemma upd_nth_ne {A} i j (a d : A) l : i <> j -> nth j (upd i a l) d = nth j l d.
Proof. revert i j. induction l as [|b r IH]; intros [|i] [|j] L; cbn; auto; try lia; try congruence. Qed.
Lemma upd_in {A} i (a : A) l x : In x (upd i a l) -> x = a \/ In x l.
Proof.
  revert i. induction l as [|b r IH]; intros [|i]; cbn; auto; intros [H|H]; auto.
  destruct (IH _ H); auto.
Qed.

Section Run.
  Context {N : floats} (O : float_order N) (sort : (nat -> N) -> list nat -> list nat) (HS : sorts_floats sort) (f : list N -> N).

  (** The invariant: [n+1] vertices of [n] coordinates, all evaluated, with their values;
      and some vertex is at least as good as any point evaluated so far. *)
  Definition Inv (n : nat) (x0 : list N) (s : nm_state N) : Prop :=
    length (simplex s) = S n /\ (forall x, In x (simplex s) -> length x = n /\ In x (calls s)) /\
    values s = map f (simplex s) /\ In x0 (calls s) /\ (forall p, In p (calls s) -> length p = n) /\
    (forall p, In p (calls s) -> is_nan (f p) = false -> exists v, In v (simplex s) /\ fle (f v) (f p)).

  Lemma value_nth n x0 s i : Inv n x0 s -> (i <= n)%nat -> get (values s) i = f (vertex s i) /\ In (vertex s i) (simplex s).
  Proof.
    intros (L & _ & V & _) H. unfold get, vertex. rewrite V. split.
    - rewrite (nth_indep _ (f_of_nat 0) (f [])) by (rewrite map_length; lia). apply map_nth.
    - apply nth_In. lia.
  Qed.

  Lemma vertex_index n x0 s v : Inv n x0 s -> In v (simplex s) -> exists i, (i <= n)%nat /\ vertex s i = v.
  Proof. intros (L & _) I. apply (In_nth _ _ []) in I as (i & Li & E). exists i. split; [lia|exact E]. Qed.

  Lemma initial_inv opts (x0 : list N) : Inv (length x0) x0 {| simplex := initial_simplex opts x0; values := map f (initial_simplex opts x0); calls := initial_simplex opts x0 |}.
  Proof.
    assert (LEN : forall x, In x (initial_simplex opts x0) -> length x = length x0).
    { intros x [<-|I]; [reflexivity|]. apply in_map_iff in I as (i & <- & _). cbv zeta. apply upd_length. }
    split; [cbn; f_equal; rewrite map_length, seq_length; reflexivity|]. cbn [simplex values calls].
    split; [intros x I; split; [apply LEN, I|exact I]|]. split; [reflexivity|]. split; [left; reflexivity|]. split; [exact LEN|].
    intros p I H. exists p. split; [exact I|apply (fle_refl O), H].
  Qed.

  (** The order found by the sort. *)
  Lemma order_spec n x0 s : (1 <= n)%nat -> Inv n x0 s -> existsb is_nan (values s) = false ->
    let order := sort (fun i => get (values s) i) (seq 0 (S n)) in
    Permutation (seq 0 (S n)) order /\ length order = S n /\ NoDup order /\
    (forall i, In i order <-> (i <= n)%nat) /\
    (forall i, (i <= n)%nat -> fle (f (vertex s (nth 0 order 0%nat))) (f (vertex s i))) /\
    (forall i, (i <= n)%nat -> fle (f (vertex s i)) (f (vertex s (nth n order 0%nat)))) /\
    fle (f (vertex s (nth 0 order 0%nat))) (f (vertex s (nth (n - 1) order 0%nat))) /\
    (nth 0 order 0%nat <= n)%nat /\ (nth n order 0%nat <= n)%nat /\ (nth (n - 1) order 0%nat <= n)%nat /\
    nth 0 order 0%nat <> nth n order 0%nat /\ exists r, order = nth 0 order 0%nat :: r.
  Proof.
    intros L I NN order.
    assert (VN : forall i, In i (seq 0 (S n)) -> is_nan (get (values s) i) = false).
    { intros i Ii. apply in_seq in Ii. destruct (is_nan (get (values s) i)) eqn:E; [|reflexivity].
      rewrite <- NN. symmetry. apply existsb_exists. exists (get (values s) i). split; [|exact E]. apply nth_In.
      destruct I as (LI & _ & V & _). rewrite V, map_length. lia. }
    destruct (HS (fun i => get (values s) i) _ VN) as [P S]. fold order in P, S.
    assert (LO : length order = Datatypes.S n) by (rewrite <- (Permutation_length P), seq_length; reflexivity).
    assert (ND : NoDup order) by (apply (Permutation_NoDup P), seq_NoDup).
    assert (IO : forall i, In i order <-> (i <= n)%nat).
    { intros i. split; intros H; [apply (Permutation_in _ (Permutation_sym P)), in_seq in H; lia|]. apply (Permutation_in _ P), in_seq. lia. }
    assert (RNG : forall k, (k <= n)%nat -> (nth k order 0 <= n)%nat) by (intros k Hk; apply IO, nth_In; lia).
    assert (MON : forall a b, (a <= b)%nat -> (b <= n)%nat -> fle (get (values s) (nth a order 0%nat)) (get (values s) (nth b order 0%nat))).
    { intros a b Lab Lb. destruct (Nat.eq_dec a b) as [->|NE].
      - apply (fle_refl O). apply VN. apply in_seq. pose proof (RNG b Lb). lia.
      - clear - S Lab Lb NE LO. assert (B : (b < length order)%nat) by lia. clear Lb LO. assert (A : (a < b)%nat) by lia. clear Lab NE.
        revert a b A B. induction S as [|x r S IH F]; intros a b A B; [cbn in B; lia|]. destruct b as [|b]; [lia|]. cbn [nth]. destruct a as [|a].
        + rewrite Forall_forall in F. apply F. apply nth_In. cbn in B. lia.
        + apply IH; cbn in B; lia. }
    assert (POS : forall i, (i <= n)%nat -> exists k, (k <= n)%nat /\ nth k order 0%nat = i).
    { intros i Hi. apply IO in Hi. apply (In_nth _ _ 0%nat) in Hi as (k & Lk & E). exists k. split; [lia|exact E]. }
    assert (VV : forall i, (i <= n)%nat -> get (values s) i = f (vertex s i)) by (intros i Hi; apply (value_nth n x0 s i I Hi)).
    split; [exact P|]. split; [exact LO|]. split; [exact ND|]. split; [exact IO|].
    split. { intros i Hi. destruct (POS i Hi) as (k & Lk & E). pose proof (MON 0%nat k ltac:(lia) Lk) as M. rewrite E, !VV in M; [exact M|exact Hi|apply RNG; lia]. }
    split. { intros i Hi. destruct (POS i Hi) as (k & Lk & E). pose proof (MON k n Lk ltac:(lia)) as M. rewrite E, !VV in M; [exact M|apply RNG; lia|exact Hi]. }
    split. { pose proof (MON 0%nat (n - 1)%nat ltac:(lia) ltac:(lia)) as M. rewrite !VV in M; [exact M|apply RNG; lia|apply RNG; lia]. }
    split; [apply RNG; lia|]. split; [apply RNG; lia|]. split; [apply RNG; lia|]. split.
    { intros E. apply (proj1 (NoDup_nth order 0%nat) ND) in E; lia. }
    destruct order as [|a r]; [discriminate|]. exists r. reflexivity.
  Qed.

  (** Replacing a vertex other than the best by an evaluated point. *)
  Lemma replace_inv n x0 s b w x extra : Inv n x0 s -> (b <= n)%nat -> (w <= n)%nat -> b <> w -> length x = n -> In x extra ->
    (forall p, In p extra -> length p = n) ->
    (forall i, (i <= n)%nat -> fle (f (vertex s b)) (f (vertex s i))) ->
    (forall p, In p extra -> is_nan (f p) = false -> fle (f (vertex s b)) (f p) \/ fle (f x) (f p)) ->
    Inv n x0 {| simplex := upd w x (simplex s); values := upd w (f x) (values s); calls := calls s ++ extra |}.
  Proof.
    intros I Lb Lw NE Lx Ix LE B EX. pose proof I as (L & A & V & X0 & C & D). split; [cbn; rewrite upd_length; exact L|]. cbn [simplex values calls].
    split. { intros y Iy. apply upd_in in Iy as [->|Iy]; [split; [exact Lx|apply in_app_iff; right; exact Ix]|].
      destruct (A y Iy). split; [assumption|apply in_app_iff; left; assumption]. }
    split; [rewrite V; symmetry; apply upd_map|]. split; [apply in_app_iff; left; exact X0|].
    split; [intros p Ip; apply in_app_iff in Ip as [Ip|Ip]; [apply C, Ip|apply LE, Ip]|].
    assert (IB : In (vertex s b) (upd w x (simplex s))).
    { unfold vertex. rewrite <- (upd_nth_ne w b x [] (simplex s)) by congruence. apply nth_In. rewrite upd_length. lia. }
    assert (IX : In x (upd w x (simplex s))).
    { rewrite <- (upd_nth_eq w x [] (simplex s)) at 1 by lia. apply nth_In. rewrite upd_length. lia. }
    intros p Ip H. apply in_app_iff in Ip as [Ip|Ip].
    - destruct (D p Ip H) as (v & Iv & Lv). destruct (vertex_index n x0 s v I Iv) as (i & Li & <-).
      exists (vertex s b). split; [exact IB|]. apply (cmp_trans N O) with (f (vertex s i)); [apply B, Li|exact Lv].
    - destruct (EX p Ip H) as [E|E]; [exists (vertex s b)|exists x]; auto.
  Qed.

  Lemma called_inv n x0 s b extra : Inv n x0 s -> (b <= n)%nat -> (forall p, In p extra -> length p = n) ->
    (forall p, In p extra -> is_nan (f p) = false -> fle (f (vertex s b)) (f p)) ->
    Inv n x0 {| simplex := simplex s; values := values s; calls := calls s ++ extra |}.
  Proof.
    intros I Lb LE EX. pose proof I as (L & A & V & X0 & C & D). split; [exact L|]. cbn [simplex values calls].
    split; [intros x Ix; destruct (A x Ix); split; [assumption|apply in_app_iff; left; assumption]|]. split; [exact V|].
    split; [apply in_app_iff; left; exact X0|]. split; [intros p Ip; apply in_app_iff in Ip as [Ip|Ip]; auto|].
    intros p Ip H. apply in_app_iff in Ip as [Ip|Ip]; [apply D; assumption|]. exists (vertex s b). split; [|apply EX; assumption].
    apply nth_In. rewrite L. lia.
  Qed.

  (** During the shrink the vertices other than the best are replaced one by one;
      a replaced vertex need not be better, so the best is all that bounds the past. *)
  Definition Shr (n : nat) (x0 : list N) (b : nat) (xb : list N) (s : nm_state N) : Prop :=
    length (simplex s) = S n /\ (forall x, In x (simplex s) -> length x = n /\ In x (calls s)) /\
    values s = map f (simplex s) /\ In x0 (calls s) /\ (forall p, In p (calls s) -> length p = n) /\ vertex s b = xb /\
    (forall p, In p (calls s) -> is_nan (f p) = false -> fle (f xb) (f p) \/ exists v, In v (simplex s) /\ fle (f v) (f p)).

  Lemma shrink_inv n x0 b xb idxs : forall s, (b <= n)%nat -> NoDup idxs -> ~ In b idxs -> (forall i, In i idxs -> (i <= n)%nat) ->
    (forall i, In i idxs -> is_nan (f (vertex s i)) = false -> fle (f xb) (f (vertex s i))) ->
    Shr n x0 b xb s -> Shr n x0 b xb (fold_left (shrink_one f n b) idxs s) /\
      length (calls (fold_left (shrink_one f n b) idxs s)) = (length (calls s) + length idxs)%nat.
  Proof.
    induction idxs as [|i r IH]; intros s Lb ND NB RNG DOM I; [split; [exact I|cbn; lia]|]. cbn [fold_left].
    inversion ND as [|? ? NI ND']; subst. set (s' := shrink_one f n b s i).
    set (x := map (fun j => fadd (get (vertex s b) j) (fmul f_half (fsub (get (vertex s i) j) (get (vertex s b) j)))) (seq 0 n)).
    assert (ES : s' = {| simplex := upd i x (simplex s); values := upd i (f x) (values s); calls := calls s ++ [x] |}) by reflexivity.
    assert (Lx : length x = n) by (unfold x; rewrite map_length, seq_length; reflexivity).
    pose proof (RNG i (or_introl eq_refl)) as Li.
    destruct I as (L & A & V & X0 & C & B & D).
    assert (VNE : forall j, j <> i -> vertex s' j = vertex s j) by (intros j Hj; rewrite ES; unfold vertex; cbn [simplex]; apply upd_nth_ne; congruence).
    assert (IX : In x (upd i x (simplex s))) by (rewrite <- (upd_nth_eq i x [] (simplex s)) at 1 by lia; apply nth_In; rewrite upd_length; lia).
    destruct (IH s') as [IH1 IH2].
    - exact Lb.
    - exact ND'.
    - intros Hb. apply NB. right. exact Hb.
    - intros j Hj. apply RNG. right. exact Hj.
    - intros j Hj. rewrite (VNE j) by (intros ->; contradiction). apply DOM. right. exact Hj.
    - rewrite ES. split; [cbn; rewrite upd_length; exact L|]. cbn [simplex values calls].
      split. { intros z Iz. apply upd_in in Iz as [->|Iz]; [split; [exact Lx|apply in_app_iff; right; left; reflexivity]|].
        destruct (A z Iz). split; [assumption|apply in_app_iff; left; assumption]. }
      split; [rewrite V; symmetry; apply upd_map|]. split; [apply in_app_iff; left; exact X0|].
      split; [intros p Ip; apply in_app_iff in Ip as [Ip|[<-|[]]]; [apply C, Ip|exact Lx]|].
      split. { rewrite <- B. rewrite <- (VNE b) by (intros ->; apply NB; left; reflexivity). rewrite ES. reflexivity. }
      intros p Ip H. apply in_app_iff in Ip as [Ip|[<-|[]]].
      + destruct (D p Ip H) as [E|(v & Iv & Lv)]; [left; exact E|].
        apply (In_nth _ _ []) in Iv as (k & Lk & Ek). destruct (Nat.eq_dec k i) as [->|NE].
        * left. destruct (fle_nan O _ _ Lv) as [Hv _].
          apply (cmp_trans N O) with (f v); [|exact Lv]. change (vertex s i = v) in Ek. subst v. apply DOM; [left; reflexivity|exact Hv].
        * right. exists v. split; [|exact Lv]. rewrite <- Ek. rewrite <- (upd_nth_ne i k x [] (simplex s)) by congruence.
          apply nth_In. rewrite upd_length. exact Lk.
      + right. exists x. split; [exact IX|apply (fle_refl O), H].
    - split; [exact IH1|]. rewrite IH2, ES. cbn [calls length]. rewrite app_length. cbn. lia.
  Qed.

  Lemma step_inv n x0 opts s s' stop : (1 <= n)%nat -> Inv n x0 s -> nm_step sort f n opts s = Ok (s', stop) ->
    Inv n x0 s' /\ (length (calls s') <= length (calls s) + (n + 2))%nat /\ (stop = true -> s' = s).
  Proof.
    intros L I H. unfold nm_step in H. destruct (existsb is_nan (values s)) eqn:NN; [discriminate|]. cbv zeta in H.
    destruct (order_spec n x0 s L I NN) as (P & LO & ND & IO & MIN & MAX & B2 & Rb & Rw & Rs & NE & r & EO). cbv zeta in *.
    set (order := sort (fun i => get (values s) i) (seq 0 (S n))) in *.
    set (best := nth 0 order 0%nat) in *. set (worst := nth n order 0%nat) in *. set (second := nth (n - 1) order 0%nat) in *.
    destruct (value_nth n x0 s best I Rb) as [Vb Ib]. destruct (value_nth n x0 s worst I Rw) as [Vw Iw]. destruct (value_nth n x0 s second I Rs) as [Vs Is].
    assert (NB : is_nan (f (vertex s best)) = false) by (apply (fle_nan O _ _ (MIN best Rb))).
    assert (NW : is_nan (f (vertex s worst)) = false) by (apply (fle_nan O _ _ (MIN worst Rw))).
    assert (NS : is_nan (f (vertex s second)) = false) by (apply (fle_nan O _ _ (MIN second Rs))).
    rewrite Vb, Vw, Vs in H.
    destruct (flt _ (ftol opts) && _).
    { injection H as <- <-. split; [exact I|]. split; [lia|reflexivity]. }
    match type of H with context [called s ?x] => set (x_r := x) in * end.
    assert (Lr : length x_r = n) by (unfold x_r; rewrite map_length, seq_length; reflexivity).
    destruct (flt (f x_r) (f (vertex s second)) && fge (f x_r) (f (vertex s best))) eqn:C1.
    { injection H as <- <-. apply andb_true_iff in C1 as [C1 C2].
      split; [|split; [cbn; rewrite app_length; cbn; lia|discriminate]].
      apply (replace_inv n x0 s best worst x_r [x_r]); try assumption; [left; reflexivity|intros p [<-|[]]; exact Lr|].
      intros p [<-|[]] Hp. right. apply (fle_refl O), Hp. }
    destruct (flt (f x_r) (f (vertex s best))) eqn:C2.
    { match type of H with context [called (called s x_r) ?x] => set (x_e := x) in * end.
      assert (Le : length x_e = n) by (unfold x_e; rewrite map_length, seq_length; reflexivity).
      assert (NR : is_nan (f x_r) = false).
      { apply flt_true in C2. apply (fle_nan O (f x_r) (f (vertex s best))). left. exact C2. }
      assert (LEN : forall p, In p [x_r; x_e] -> length p = n) by (intros p [<-|[<-|[]]]; assumption).
      destruct (flt (f x_e) (f x_r)) eqn:C3; injection H as <- <-; (split; [|split; [cbn; rewrite !app_length; cbn; lia|discriminate]]).
      - unfold replace, called. cbn [simplex values calls]. rewrite <- app_assoc. apply (replace_inv n x0 s best worst x_e [x_r; x_e]); try assumption; [right; left; reflexivity|].
        intros p [<-|[<-|[]]] Hp; right; [left; apply flt_true, C3|apply (fle_refl O), Hp].
      - unfold replace, called. cbn [simplex values calls]. rewrite <- app_assoc. apply (replace_inv n x0 s best worst x_r [x_r; x_e]); try assumption; [left; reflexivity|].
        intros p [<-|[<-|[]]] Hp; right; [apply (fle_refl O), Hp|]. apply (flt_false O); assumption. }
    match type of H with context [called (called s x_r) ?x] => set (x_c := x) in * end.
    assert (Lc : length x_c = n) by (unfold x_c; rewrite map_length, seq_length; reflexivity).
    assert (LEN : forall p, In p [x_r; x_c] -> length p = n) by (intros p [<-|[<-|[]]]; assumption).
    assert (R1 : is_nan (f x_r) = false -> fle (f (vertex s best)) (f x_r)) by (intros Hn; apply (flt_false O); assumption).
    destruct (flt (f x_c) (f (vertex s worst))) eqn:C3.
    { injection H as <- <-. split; [|split; [cbn; rewrite !app_length; cbn; lia|discriminate]].
      unfold replace, called. cbn [simplex values calls]. rewrite <- app_assoc. apply (replace_inv n x0 s best worst x_c [x_r; x_c]); try assumption; [right; left; reflexivity|].
      intros p [<-|[<-|[]]] Hp; [left; apply R1, Hp|right; apply (fle_refl O), Hp]. }
    injection H as <- <-. set (s1 := called (called s x_r) x_c).
    assert (I1 : Inv n x0 s1).
    { unfold s1, called. cbn [simplex values calls]. rewrite <- app_assoc. apply (called_inv n x0 s best [x_r; x_c] I Rb LEN).
      intros p [<-|[<-|[]]] Hp; [apply R1, Hp|]. apply (cmp_trans N O) with (f (vertex s worst)); [apply MIN, Rw|apply (flt_false O); assumption]. }
    rewrite EO. cbn [tl]. rewrite EO in ND, IO. apply NoDup_cons_iff in ND as [NI ND'].
    destruct (shrink_inv n x0 best (vertex s best) r s1) as [(A1 & A2 & A3 & A4 & A5 & A6 & A7) LC].
    - exact Rb.
    - exact ND'.
    - exact NI.
    - intros i Hi. apply IO. right. exact Hi.
    - intros i Hi _. apply MIN. apply IO. right. exact Hi.
    - destruct I1 as (B1 & B2' & B3 & B4 & B5 & B6). repeat (split; [assumption|]). split; [reflexivity|]. intros p Ip Hp. right. apply B6; assumption.
    - split; [|split; [|discriminate]].
      + repeat (split; [assumption|]). intros p Ip Hp. destruct (A7 p Ip Hp) as [E|E]; [|exact E]. exists (vertex s best). split; [|exact E].
        rewrite <- A6. apply nth_In. rewrite A1. lia.
      + rewrite LC. unfold s1. cbn [called calls]. rewrite !app_length. cbn. rewrite EO in LO. cbn in LO. lia.
  Qed.

  Lemma loop_inv n x0 opts k : forall s it s' it' cv, (1 <= n)%nat -> Inv n x0 s -> nm_loop sort f k n opts s it = Ok (s', it', cv) ->
    Inv n x0 s' /\ (it <= it' <= it + k)%nat /\ (length (calls s') <= length (calls s) + (it' - it) * (n + 2))%nat /\
    (cv = false -> it' = (it + k)%nat) /\ (cv = true -> nm_step sort f n opts s' = Ok (s', true)).
  Proof.
    induction k as [|k IH]; intros s it s' it' cv L I H; cbn [nm_loop] in H.
    - injection H as <- <- <-. split; [exact I|]. split; [lia|]. split; [lia|]. split; [lia|discriminate].
    - apply obind_Ok in H as ([s1 stop] & H1 & H). cbv beta iota in H. destruct (step_inv n x0 opts s s1 stop L I H1) as (I1 & L1 & E1).
      destruct stop.
      + injection H as <- <- <-. specialize (E1 eq_refl). subst s1. split; [exact I|]. split; [lia|]. split; [lia|]. split; [discriminate|]. intros _. exact H1.
      + destruct (IH _ _ _ _ _ L I1 H) as (A & B & C & D & E). split; [exact A|]. split; [lia|]. split; [nia|]. split; [intros Hc; specialize (D Hc); lia|exact E].
  Qed.

  Lemma best_index_spec (vs : list N) : vs <> [] -> (forall v, In v vs -> is_nan v = false) ->
    (best_index vs < length vs)%nat /\ forall i, (i < length vs)%nat -> fle (get vs (best_index vs)) (get vs i).
  Proof.
    intros NE NN. unfold best_index. destruct vs as [|v0 r]; [congruence|]. set (vs := v0 :: r) in *.
    assert (NI : forall i, (i < length vs)%nat -> is_nan (get vs i) = false) by (intros i Hi; apply NN, nth_In, Hi).
    assert (G : forall k, (S k <= length vs)%nat ->
      let b := fold_left (fun b i => if flt (get vs i) (get vs b) then i else b) (seq 1 k) 0%nat in
      (b <= k)%nat /\ forall i, (i <= k)%nat -> fle (get vs b) (get vs i)).
    { induction k as [|k IHk]; intros Lk.
      - cbn [seq fold_left]. split; [lia|]. intros i Hi. replace i with 0%nat by lia. apply (fle_refl O), NI. lia.
      - rewrite seq_S, fold_left_app. cbn [fold_left]. destruct (IHk ltac:(lia)) as [B1 B2]. cbv zeta in B1, B2.
        set (b := fold_left _ (seq 1 k) 0%nat) in *. cbv zeta. replace (1 + k)%nat with (S k) by lia.
        destruct (flt (get vs (S k)) (get vs b)) eqn:C.
        + split; [lia|]. intros i Hi. destruct (Nat.eq_dec i (S k)) as [->|Ni]; [apply (fle_refl O), NI; lia|].
          apply (cmp_trans N O) with (get vs b); [left; apply flt_true, C|apply B2; lia].
        + split; [lia|]. intros i Hi. destruct (Nat.eq_dec i (S k)) as [->|Ni]; [|apply B2; lia].
          apply (flt_false O); [apply NI; lia|apply NI; lia|exact C]. }
    destruct (G (length vs - 1)%nat) as [G1 G2]; [subst vs; cbn; lia|]. assert (0 < length vs)%nat by (subst vs; cbn; lia). split; [lia|]. intros i Hi. apply G2. lia.
  Qed.

  Lemma run_spec opts x0 m s : nelder_mead_run sort f x0 opts = Ok (m, s) ->
    (1 <= length x0)%nat /\ Inv (length x0) x0 s /\ existsb is_nan (values s) = false /\
    m_x m = vertex s (best_index (values s)) /\ m_f m = get (values s) (best_index (values s)) /\
    (best_index (values s) <= length x0)%nat /\
    (forall i, (i <= length x0)%nat -> fle (m_f m) (f (vertex s i))) /\
    (m_iterations m <= max_iter opts)%nat /\ (length (calls s) <= (length x0 + 1) + m_iterations m * (length x0 + 2))%nat /\
    (m_converged m = false -> m_iterations m = max_iter opts) /\ (m_converged m = true -> nm_step sort f (length x0) opts s = Ok (s, true)).
  Proof.
    intros H. unfold nelder_mead_run in H. cbv zeta in H. destruct (length x0 =? 0)%nat eqn:Z; [discriminate|]. apply Nat.eqb_neq in Z.
    apply obind_Ok in H as ([[s' it] cv] & HL & H). cbv beta iota in H. destruct (existsb is_nan (values s')) eqn:NN; [discriminate|].
    injection H as <- <-. cbn [m_x m_f m_iterations m_converged].
    destruct (loop_inv (length x0) x0 opts _ _ _ _ _ _ ltac:(lia) (initial_inv opts x0) HL) as (I & B & C & D & E).
    pose proof I as (L & _ & V & _).
    assert (LV : length (values s') = S (length x0)) by (rewrite V, map_length; exact L).
    assert (NV : forall v, In v (values s') -> is_nan v = false).
    { intros v Iv. destruct (is_nan v) eqn:Ev; [|reflexivity]. rewrite <- NN. symmetry. apply existsb_exists. eauto. }
    destruct (best_index_spec (values s') ltac:(intros X; rewrite X in LV; discriminate) NV) as [B1 B2].
    split; [lia|]. split; [exact I|]. split; [exact NN|]. split; [reflexivity|]. split; [reflexivity|]. split; [lia|].
    split. { intros i Hi. rewrite <- (proj1 (value_nth _ _ _ i I Hi)). apply B2. lia. }
    split; [lia|]. split; [|split; [intros Hc; specialize (D Hc); lia|exact E]].
    cbn [calls initial_simplex length] in C. rewrite map_length, seq_length in C. lia.
  Qed.

  (** With no NaN anywhere, every iteration succeeds. *)
  Lemma loop_total n x0 opts k : forall s it, (1 <= n)%nat -> Inv n x0 s -> (forall x, length x = n -> is_nan (f x) = false) ->
    exists r, nm_loop sort f k n opts s it = Ok r.
  Proof.
    induction k as [|k IH]; intros s it L I NF; cbn [nm_loop]; [eauto|].
    assert (NN : existsb is_nan (values s) = false).
    { destruct (existsb is_nan (values s)) eqn:E; [|reflexivity]. apply existsb_exists in E as (v & Iv & Ev). destruct I as (_ & A & V & _).
      rewrite V in Iv. apply in_map_iff in Iv as (x & <- & Ix). rewrite NF in Ev; [discriminate|apply A, Ix]. }
    assert (ST : exists p, nm_step sort f n opts s = Ok p).
    { unfold nm_step. rewrite NN. cbv zeta. destruct (_ && _); [eauto|]. destruct (_ && _); [eauto|]. destruct (flt _ _); [eauto|]. destruct (flt _ _); eauto. }
    destruct ST as ([s1 stop] & ST). rewrite ST. cbn [obind]. destruct stop; [eauto|]. apply IH; [exact L|apply (step_inv n x0 opts s s1 false L I ST)|exact NF].
  Qed.
End Run.

(** An insertion sort meets the contract. *)
Section Sort.
  Context {N : floats} (O : float_order N).
  Fixpoint finsert (key : nat -> N) (a : nat) (l : list nat) : list nat :=
    match l with [] => [a] | b :: r => if flt (key b) (key a) then b :: finsert key a r else a :: l end.
  Definition fsort (key : nat -> N) (l : list nat) : list nat := fold_right (finsert key) [] l.

  Lemma finsert_perm key a l : Permutation (a :: l) (finsert key a l).
  Proof.
    induction l as [|b r IH]; cbn; [constructor; constructor|]. destruct (flt (key b) (key a)); [|apply Permutation_refl].
    apply Permutation_trans with (b :: a :: r); [constructor|]. constructor. exact IH.
  Qed.
  Lemma fsort_sorts : sorts_floats fsort.
  Proof.
    intros key l. induction l as [|a l IH]; intros H; cbn; [split; constructor|].
    destruct IH as [P S]; [intros i Hi; apply H; right; exact Hi|]. fold (fsort key l) in *.
    split; [apply Permutation_trans with (a :: fsort key l); [constructor; exact P|apply finsert_perm]|].
    assert (NN : forall i, In i (fsort key l) -> is_nan (key i) = false) by (intros i Hi; apply H; right; apply (Permutation_in _ (Permutation_sym P)), Hi).
    assert (NA : is_nan (key a) = false) by (apply H; left; reflexivity).
    clear P H. induction S as [|b r S IH F]; cbn; [constructor; constructor|].
    destruct (flt (key b) (key a)) eqn:E.
    - constructor; [apply IH; intros i Hi; apply NN; right; exact Hi|]. rewrite Forall_forall in *. intros i Hi.
      apply (Permutation_in _ (Permutation_sym (finsert_perm key a r))) in Hi. destruct Hi as [<-|Hi]; [left; apply flt_true, E|apply F, Hi].
    - constructor; [constructor; assumption|]. constructor; [apply (flt_false O); [apply NN; left; reflexivity|exact NA|exact E]|].
      rewrite Forall_forall in *. intros i Hi. apply (cmp_trans N O) with (key b); [apply (flt_false O); [apply NN; left; reflexivity|exact NA|exact E]|apply F, Hi].
  Qed.
End Sort.

(** More iterations extend the same run. *)
Section Prefix.
  Context {N : floats} (sort : (nat -> N) -> list nat -> list nat) (f : list N -> N).
  Lemma shrink_calls n b idxs : forall s, exists e, calls (fold_left (shrink_one f n b) idxs s) = calls s ++ e.
  Proof.
    induction idxs as [|i r IH]; intros s; cbn [fold_left]; [exists []; rewrite app_nil_r; reflexivity|].
    destruct (IH (shrink_one f n b s i)) as (e & ->). eexists. cbn [shrink_one replace called calls]. rewrite <- app_assoc. reflexivity.
  Qed.
  Lemma step_calls n opts s s' stop : nm_step sort f n opts s = Ok (s', stop) -> exists e, calls s' = calls s ++ e.
  Proof.
    intros H. unfold nm_step in H. destruct (existsb is_nan (values s)); [discriminate|]. cbv zeta in H.
    destruct (_ && _); [injection H as <- _; exists []; rewrite app_nil_r; reflexivity|].
    destruct (_ && _); [injection H as <- _; eexists; reflexivity|].
    destruct (flt _ _); [injection H as <- _; destruct (flt _ _); eexists; cbn [replace called calls]; rewrite <- app_assoc; reflexivity|].
    destruct (flt _ _); injection H as <- _; [eexists; cbn [replace called calls]; rewrite <- app_assoc; reflexivity|].
    match goal with |- context [fold_left (shrink_one f n ?b) ?l ?t] => destruct (shrink_calls n b l t) as (e & ->) end.
    eexists. cbn [called calls]. rewrite <- !app_assoc. reflexivity.
  Qed.
  Lemma loop_calls n opts k : forall s it s' it' cv, nm_loop sort f k n opts s it = Ok (s', it', cv) -> exists e, calls s' = calls s ++ e.
  Proof.
    induction k as [|k IH]; intros s it s' it' cv H; cbn [nm_loop] in H.
    - injection H as <- _ _. exists []. rewrite app_nil_r. reflexivity.
    - apply obind_Ok in H as ([s1 stop] & H1 & H). cbv beta iota in H. destruct (step_calls _ _ _ _ _ H1) as (e1 & E1).
      destruct stop; [injection H as <- _ _; eauto|]. destruct (IH _ _ _ _ _ H) as (e2 & ->). rewrite E1, <- app_assoc. eauto.
  Qed.
  Lemma loop_app n opts k j : forall s it s1 it1 cv1 s2 it2 cv2, nm_loop sort f k n opts s it = Ok (s1, it1, cv1) ->
    nm_loop sort f (k + j) n opts s it = Ok (s2, it2, cv2) -> exists e, calls s2 = calls s1 ++ e.
  Proof.
    induction k as [|k IH]; intros s it s1 it1 cv1 s2 it2 cv2 H G; cbn [nm_loop] in H.
    - injection H as <- _ _. apply (loop_calls _ _ _ _ _ _ _ _ G).
    - cbn [nm_loop plus] in G. apply obind_Ok in H as ([t stop] & H1 & H). cbv beta iota in H. rewrite H1 in G. cbn [obind] in G.
      destruct stop; [|apply (IH _ _ _ _ _ _ _ _ H G)]. injection H as <- _ _. injection G as <- _ _. exists []. rewrite app_nil_r. reflexivity.
  Qed.
End Prefix.
