(** C46: the Nelder-Mead optimiser. *)
From Coq Require Import ZArith Arith Lia Bool List Permutation Sorting.Sorted Reals Lra.
From Flocq Require Import Core IEEE754.BinarySingleNaN IEEE754.Binary IEEE754.Bits.
Import ListNotations.
From Verif Require Import Outcome NelderMead NelderMeadFacts.

(** The reals, and binary64 with rounding to nearest even, as number types. *)
Definition R_floats : floats :=
  {| fl := R; f_of_nat := INR; f_half := (/ 2)%R; f_tiny := (/ 10 ^ 12)%R; f_1e4 := (/ 10 ^ 4)%R;
     fadd := Rplus; fsub := Rminus; fmul := Rmult; fdiv := Rdiv; fabs := Rabs; fmax := Rmax; fmin := Rmin;
     fcmp := fun x y => Some (if Rlt_dec x y then Lt else if Rlt_dec y x then Gt else Eq) |}.

(** [f64::max] and [f64::min] return the other argument when one is NaN. *)
Definition b64_pick (lt : bool) (x y : binary64) : binary64 :=
  match b64_compare x y with
  | Some Lt => if lt then x else y
  | Some _ => if lt then y else x
  | None => if Binary.is_nan 53 1024 x then y else x
  end.
Definition b64_floats : floats :=
  {| fl := binary64;
     f_of_nat := fun n => Binary.binary_normalize 53 1024 eq_refl eq_refl mode_NE (Z.of_nat n) 0 false;
     f_half := Binary.binary_normalize 53 1024 eq_refl eq_refl mode_NE 1 (-1) false;
     f_tiny := b64_of_bits 4427486594234968593; f_1e4 := b64_of_bits 4547007122018943789;
     fadd := b64_plus mode_NE; fsub := b64_minus mode_NE; fmul := b64_mult mode_NE; fdiv := b64_div mode_NE;
     fabs := b64_abs; fmax := b64_pick false; fmin := b64_pick true; fcmp := b64_compare |}.

Lemma R_order : float_order R_floats.
Proof.
  split; unfold fle, NelderMead.is_nan; cbn [fl fcmp R_floats].
  - intros x y. repeat destruct Rlt_dec; try reflexivity; lra.
  - intros x _. repeat destruct Rlt_dec; try reflexivity; lra.
  - intros x y. split; [discriminate|]. intros [H|H]; repeat destruct Rlt_dec in H; discriminate.
  - intros x y z. repeat destruct Rlt_dec; intros [A|A] [B|B]; try discriminate; auto; lra.
Qed.

Lemma R_not_nan (x : R_floats) : NelderMead.is_nan x = false.
Proof. reflexivity. Qed.

Lemma R_lt (x y : R_floats) : flt x y = true <-> (x < y)%R.
Proof. unfold flt. cbn. repeat destruct Rlt_dec; split; intros; try reflexivity; try discriminate; try contradiction; assumption. Qed.
Lemma R_le (x y : R_floats) : fle x y <-> (x <= y)%R.
Proof. unfold fle. cbn. repeat destruct Rlt_dec; split; intros H; try (destruct H; discriminate); try lra; auto. Qed.

Lemma b64_nan (x : b64_floats) : NelderMead.is_nan x = Binary.is_nan 53 1024 x.
Proof.
  unfold NelderMead.is_nan. cbn [fcmp b64_floats fl]. unfold b64_compare.
  destruct (Binary.is_finite 53 1024 x) eqn:F.
  - rewrite Bcompare_correct by assumption. destruct x; try reflexivity; discriminate.
  - destruct x as [|[]| |]; try reflexivity; discriminate.
Qed.

Lemma b64_order : float_order b64_floats.
Proof.
  split.
  - intros x y. cbn [fcmp b64_floats fl]. unfold b64_compare. rewrite Bcompare_swap. destruct (Bcompare 53 1024 x y); reflexivity.
  - intros x H. rewrite b64_nan in H. cbn [fcmp b64_floats fl]. unfold b64_compare.
    destruct (Binary.is_finite 53 1024 x) eqn:F.
    + rewrite Bcompare_correct by assumption. rewrite Rcompare_Eq; reflexivity.
    + destruct x as [|[]| |]; try reflexivity; discriminate.
  - intros x y. rewrite !b64_nan. cbn [fcmp b64_floats fl]. unfold b64_compare.
    destruct (Binary.is_finite 53 1024 x) eqn:F; destruct (Binary.is_finite 53 1024 y) eqn:G.
    + rewrite Bcompare_correct by assumption. split; [discriminate|]. destruct x, y; cbn; try discriminate; intros [|]; discriminate.
    + destruct x as [|[]| |[]], y as [|[]| |]; try discriminate; cbn; split; auto; try discriminate; intros [|]; discriminate.
    + destruct x as [|[]| |], y as [|[]| |[]]; try discriminate; cbn; split; auto; try discriminate; intros [|]; discriminate.
    + destruct x as [|[]| |], y as [|[]| |]; try discriminate; cbn; split; auto; try discriminate; intros [|]; discriminate.
  - intros x y z. unfold fle. cbn [fcmp b64_floats fl]. unfold b64_compare.
    destruct (Binary.is_finite 53 1024 x) eqn:F; destruct (Binary.is_finite 53 1024 y) eqn:G; destruct (Binary.is_finite 53 1024 z) eqn:K.
    + rewrite !Bcompare_correct by assumption. generalize (B2R 53 1024 x) (B2R 53 1024 y) (B2R 53 1024 z). clear. intros a b c.
      destruct (Rcompare_spec a b); destruct (Rcompare_spec b c); destruct (Rcompare_spec a c); intros [A|A] [B|B]; try discriminate; auto; lra.
    + destruct z as [|[]| |]; try discriminate; destruct x as [|[]| |[]]; try discriminate; destruct y as [|[]| |[]]; try discriminate; cbn; intros [|] [|]; try discriminate; auto.
    + destruct y as [|[]| |]; try discriminate; destruct x as [|[]| |[]]; try discriminate; destruct z as [|[]| |[]]; try discriminate; cbn; intros [|] [|]; try discriminate; auto.
    + destruct y as [|[]| |]; try discriminate; destruct x as [|[]| |[]]; try discriminate; destruct z as [|[]| |]; try discriminate; cbn; intros [|] [|]; try discriminate; auto.
    + destruct x as [|[]| |]; try discriminate; destruct y as [|[]| |[]]; try discriminate; destruct z as [|[]| |[]]; try discriminate; cbn; intros [|] [|]; try discriminate; auto.
    + destruct x as [|[]| |]; try discriminate; destruct y as [|[]| |[]]; try discriminate; destruct z as [|[]| |]; try discriminate; cbn; intros [|] [|]; try discriminate; auto.
    + destruct x as [|[]| |]; try discriminate; destruct y as [|[]| |]; try discriminate; destruct z as [|[]| |[]]; try discriminate; cbn; intros [|] [|]; try discriminate; auto.
    + destruct x as [|[]| |]; try discriminate; destruct y as [|[]| |]; try discriminate; destruct z as [|[]| |]; try discriminate; cbn; intros [|] [|]; try discriminate; auto.
Qed.

Section Claims.
  Context {N : floats} (O : float_order N) (sort : (nat -> N) -> list nat -> list nat) (HS : sorts_floats sort).

  (** The reported point was evaluated, the reported value is the objective there, and
      no evaluated point is better; in particular not the start. *)
  Lemma best_spec (f : list N -> N) x0 opts m s : nelder_mead_run sort f x0 opts = Ok (m, s) ->
    nelder_mead sort f x0 opts = Ok m /\ In (m_x m) (calls s) /\ m_f m = f (m_x m) /\ NelderMead.is_nan (m_f m) = false /\
    In x0 (calls s) /\ (forall p, In p (calls s) -> length p = length x0) /\
    forall p, In p (calls s) -> NelderMead.is_nan (f p) = false -> fle (m_f m) (f p).
  Proof.
    intros H. split; [unfold nelder_mead; rewrite H; reflexivity|].
    destruct (run_spec O sort HS f opts x0 m s H) as (L & I & NN & EX & EF & LB & MIN & _).
    destruct (value_nth f _ _ _ _ I LB) as [VB IB]. pose proof I as (LS & A & V & X0 & C & D).
    rewrite <- EX in VB, IB. rewrite <- EF in VB.
    split; [apply A, IB|]. split; [exact VB|]. split.
    { apply (fle_nan O (m_f m) (f (vertex s (best_index (values s))))). apply MIN, LB. }
    split; [exact X0|]. split; [exact C|]. intros p Ip Hp.
    destruct (D p Ip Hp) as (v & Iv & Lv). destruct (vertex_index f _ _ _ v I Iv) as (i & Li & <-).
    apply (cmp_trans N O) with (f (vertex s i)); [apply MIN, Li|exact Lv].
  Qed.
End Claims.

Theorem C46_best : forall (N : floats) sort (f : list N -> N) x0 opts m s, float_order N -> sorts_floats sort ->
  nelder_mead_run sort f x0 opts = Ok (m, s) ->
  In (m_x m) (calls s) /\ m_f m = f (m_x m) /\ In x0 (calls s) /\
  forall p, In p (calls s) -> NelderMead.is_nan (f p) = false -> fle (m_f m) (f p).
Proof.
  intros N sort f x0 opts m s O HS H. destruct (best_spec O sort HS f x0 opts m s H) as (_ & A & B & _ & C & _ & D). auto.
Qed.
Print Assumptions C46_best.

Theorem C46_start : forall (N : floats) sort (f : list N -> N) x0 opts m, float_order N -> sorts_floats sort ->
  nelder_mead sort f x0 opts = Ok m -> length (m_x m) = length x0 /\ m_f m = f (m_x m) /\ (NelderMead.is_nan (f x0) = false -> fle (f (m_x m)) (f x0)).
Proof.
  intros N sort f x0 opts m O HS H. unfold nelder_mead in H. apply obind_Ok in H as ([m' s] & H & E). injection E as <-.
  destruct (best_spec O sort HS f x0 opts m' s H) as (_ & A & B & _ & C & L & D). split; [apply L, A|]. split; [exact B|]. intros X. rewrite <- B. apply D; assumption.
Qed.
Print Assumptions C46_start.

(** Iterations and evaluations are bounded, and the flag tells which limit stopped it. *)
Theorem C46_cap : forall (N : floats) sort (f : list N -> N) x0 opts m s, float_order N -> sorts_floats sort ->
  nelder_mead_run sort f x0 opts = Ok (m, s) ->
  (m_iterations m <= max_iter opts)%nat /\ (m_converged m = false -> m_iterations m = max_iter opts) /\
  (length (calls s) <= (length x0 + 1) + m_iterations m * (length x0 + 2))%nat.
Proof.
  intros N sort f x0 opts m s O HS H. destruct (run_spec O sort HS f opts x0 m s H) as (_ & _ & _ & _ & _ & _ & _ & A & B & C & _). auto.
Qed.
Print Assumptions C46_cap.

(** The run fails on an empty start, or where a vertex value is NaN; otherwise it returns. *)
Theorem C46_total : forall (N : floats) sort (f : list N -> N) x0 opts, float_order N -> sorts_floats sort ->
  (x0 = [] -> nelder_mead sort f x0 opts = Panic PAssert) /\
  (x0 <> [] -> NelderMead.is_nan (f x0) = true -> nelder_mead sort f x0 opts = Panic PUnwrap) /\
  (x0 <> [] -> (forall x, length x = length x0 -> NelderMead.is_nan (f x) = false) -> exists m, nelder_mead sort f x0 opts = Ok m).
Proof.
  intros N sort f x0 opts O HS. split; [intros ->; reflexivity|]. split.
  - intros NE X. unfold nelder_mead, nelder_mead_run. cbv zeta.
    destruct (length x0 =? 0)%nat eqn:Z; [destruct x0; [congruence|discriminate]|].
    set (s0 := {| simplex := _; values := _; calls := _ |}).
    assert (E : existsb NelderMead.is_nan (values s0) = true) by (cbn; rewrite X; reflexivity).
    destruct (max_iter opts) as [|k]; cbn [nm_loop obind].
    + rewrite E. reflexivity.
    + unfold nm_step. rewrite E. reflexivity.
  - intros NE NF. assert (L : (1 <= length x0)%nat) by (destruct x0; [congruence|cbn; lia]).
    unfold nelder_mead, nelder_mead_run. cbv zeta. rewrite (proj2 (Nat.eqb_neq _ _)) by lia.
    set (s0 := {| simplex := _; values := _; calls := _ |}).
    pose proof (initial_inv O f opts x0) as I0. fold s0 in I0.
    destruct (loop_total O sort HS f (length x0) x0 opts (max_iter opts) s0 0 L I0 NF) as ([[s it] cv] & E). rewrite E. cbn [obind].
    destruct (loop_inv O sort HS f _ _ _ _ _ _ _ _ _ L I0 E) as ((_ & A & V & _) & _).
    destruct (existsb NelderMead.is_nan (values s)) eqn:NN; [|cbn [obind]; eauto].
    apply existsb_exists in NN as (v & Iv & Ev). rewrite V in Iv. apply in_map_iff in Iv as (x & <- & Ix). rewrite NF in Ev; [discriminate|apply A, Ix].
Qed.
Print Assumptions C46_total.

(** More iterations never end at a worse point. *)
Theorem C46_more : forall (N : floats) sort (f : list N -> N) x0 opts opts' m m', float_order N -> sorts_floats sort ->
  ftol opts' = ftol opts -> xtol opts' = xtol opts -> step_frac opts' = step_frac opts -> (max_iter opts <= max_iter opts')%nat ->
  nelder_mead sort f x0 opts = Ok m -> nelder_mead sort f x0 opts' = Ok m' -> fle (m_f m') (m_f m).
Proof.
  intros N sort f x0 [k ft xt sf] [k' ft' xt' sf'] m m' O HS. cbn [ftol xtol step_frac max_iter]. intros -> -> -> L H H'.
  unfold nelder_mead in H, H'. apply obind_Ok in H as ([m0 s] & H & E). injection E as <-. apply obind_Ok in H' as ([m1 s'] & H' & E). injection E as <-.
  destruct (best_spec O sort HS f _ _ _ _ H) as (_ & A & B & NB & _). destruct (best_spec O sort HS f _ _ _ _ H') as (_ & _ & _ & _ & _ & _ & D).
  rewrite B. apply D; [|rewrite <- B; exact NB].
  unfold nelder_mead_run in H, H'. cbv zeta in H, H'. destruct (length x0 =? 0)%nat; [discriminate|].
  apply obind_Ok in H as ([[t it] cv] & H1 & H2). apply obind_Ok in H' as ([[t' it'] cv'] & H1' & H2'). cbv beta iota in H2, H2'.
  destruct (existsb _ (values t)); [discriminate|]. destruct (existsb _ (values t')); [discriminate|]. injection H2 as _ <-. injection H2' as _ <-.
  cbn [max_iter] in H1, H1'. replace k' with (k + (k' - k))%nat in H1' by lia.
  assert (EQ : forall j s i, nm_loop sort f j (length x0) {| max_iter := k; ftol := ft; xtol := xt; step_frac := sf |} s i =
    nm_loop sort f j (length x0) {| max_iter := k'; ftol := ft; xtol := xt; step_frac := sf |} s i).
  { induction j as [|j IH]; intros s0 i; [reflexivity|]. cbn [nm_loop]. change (nm_step sort f (length x0) {| max_iter := k; ftol := ft; xtol := xt; step_frac := sf |} s0) with (nm_step sort f (length x0) {| max_iter := k'; ftol := ft; xtol := xt; step_frac := sf |} s0).
    destruct (nm_step _ _ _ _ s0) as [[u []]|e|e]; cbn [obind]; [reflexivity|apply IH|reflexivity|reflexivity]. }
  rewrite EQ in H1. change (initial_simplex {| max_iter := k; ftol := ft; xtol := xt; step_frac := sf |} x0) with (initial_simplex {| max_iter := k'; ftol := ft; xtol := xt; step_frac := sf |} x0) in H1.
  replace (k + (k' - k))%nat with (k + (k' - k))%nat in H1' by lia.
  assert (X : exists e, calls t' = calls t ++ e).
  { eapply (loop_app sort f _ _ k (k' - k)); [exact H1|]. replace k' with (k + (k' - k))%nat at 2 by lia. exact H1'. }
  destruct X as (e & ->). apply in_app_iff. left. exact A.
Qed.
Print Assumptions C46_more.

(** On the reals, convergence means that the vertices of the final simplex, of which the
    reported point is one, agree to the two tolerances. *)
Lemma fold_max (l : list R) a : (a <= fold_left Rmax l a)%R /\ (forall x, In x l -> (x <= fold_left Rmax l a)%R).
Proof.
  revert a. induction l as [|b r IH]; intros a; cbn; [split; [lra|contradiction]|]. destruct (IH (Rmax a b)) as [A B].
  pose proof (Rmax_l a b). pose proof (Rmax_r a b). split; [lra|]. intros x [<-|Hx]; [lra|apply B, Hx].
Qed.
Lemma fold_hi {A} (g : A -> R) l a : (forall x, In x l -> (g x <= fold_left (fun h i => Rmax h (g i)) l a)%R) /\ (a <= fold_left (fun h i => Rmax h (g i)) l a)%R.
Proof.
  revert a. induction l as [|b r IH]; intros a; cbn; [split; [contradiction|lra]|]. destruct (IH (Rmax a (g b))) as [A1 B].
  pose proof (Rmax_l a (g b)). pose proof (Rmax_r a (g b)). split; [|lra]. intros x [<-|Hx]; [lra|apply A1, Hx].
Qed.
Lemma fold_lo {A} (g : A -> R) l a : (forall x, In x l -> (fold_left (fun h i => Rmin h (g i)) l a <= g x)%R) /\ (fold_left (fun h i => Rmin h (g i)) l a <= a)%R.
Proof.
  revert a. induction l as [|b r IH]; intros a; cbn; [split; [contradiction|lra]|]. destruct (IH (Rmin a (g b))) as [A1 B].
  pose proof (Rmin_l a (g b)). pose proof (Rmin_r a (g b)). split; [|lra]. intros x [<-|Hx]; [lra|apply A1, Hx].
Qed.

Theorem C46_converged : forall sort (f : list R -> R) (x0 : list R) (opts : nm_options R_floats) m s, @sorts_floats R_floats sort ->
  @nelder_mead_run R_floats sort f x0 opts = Ok (m, s) -> m_converged m = true ->
  In (m_x m) (simplex s) /\ length (simplex s) = S (length x0) /\
  forall v w, In v (simplex s) -> In w (simplex s) ->
  (Rabs (f v - f w) < ftol opts)%R /\ forall i, (i < length x0)%nat -> (Rabs (nth i v 0 - nth i w 0) < xtol opts)%R.
Proof.
  intros sort f x0 opts m s HS H C.
  destruct (@run_spec R_floats R_order sort HS f opts x0 m s H) as (L & I & NN & EX & _ & LB & _ & _ & _ & _ & ST). specialize (ST C).
  split; [rewrite EX; apply (@value_nth R_floats f _ _ _ _ I LB)|]. split; [apply I|].
  destruct (@order_spec R_floats R_order sort HS f (length x0) x0 s L I NN) as (P & LO & ND & IO & MIN & MAX & B2 & Rb & Rw & Rs & NE & r & EO).
  unfold nm_step in ST. rewrite NN in ST. cbv zeta in *. change (@length (fl R_floats) x0) with (@length R x0) in *.
  set (order := sort (fun i => @get R_floats (values s) i) (seq 0 (S (length x0)))) in *.
  set (best := nth 0 order 0%nat) in *. set (worst := nth (length x0) order 0%nat) in *.
  destruct (flt _ (ftol opts) && flt _ (xtol opts)) eqn:B.
  2:{ exfalso. repeat match type of ST with (if ?c then _ else _) = _ => destruct c end; discriminate. }
  clear ST. apply andb_true_iff in B as [BF BX]. apply R_lt in BF. apply R_lt in BX.
  rewrite (proj1 (@value_nth R_floats f _ _ _ _ I Rb)), (proj1 (@value_nth R_floats f _ _ _ _ I Rw)) in BF. cbn [fabs fsub R_floats fl] in BF.
  intros v w Iv Iw. destruct (@vertex_index R_floats f _ _ _ v I Iv) as (a & La & <-). destruct (@vertex_index R_floats f _ _ _ w I Iw) as (b & Lb & <-). split.
  - pose proof (proj1 (R_le _ _) (MIN a La)). pose proof (proj1 (R_le _ _) (MIN b Lb)). pose proof (proj1 (R_le _ _) (MAX a La)). pose proof (proj1 (R_le _ _) (MAX b Lb)).
    apply Rabs_def2 in BF. apply Rabs_def1; lra.
  - intros i Hi. unfold x_spread in BX. cbn [fmax fsub fmin R_floats fl] in BX.
    match type of BX with (fold_left Rmax ?l ?z < _)%R => pose proof (proj2 (fold_max l z)) as FM end.
    assert (Ii : In i (seq 0 (length x0))) by (apply in_seq; lia).
    specialize (FM _ (in_map _ _ _ Ii)). cbv zeta beta in FM. cbn [fsub fmin R_floats fl] in FM.
    pose proof (fold_hi (fun idx => @get R_floats (vertex s idx) i) order (@get R_floats (vertex s best) i)) as [HI _].
    pose proof (fold_lo (fun idx => @get R_floats (vertex s idx) i) order (@get R_floats (vertex s best) i)) as [LW _].
    pose proof (HI a (proj2 (IO a) La)). pose proof (HI b (proj2 (IO b) Lb)). pose proof (LW a (proj2 (IO a) La)). pose proof (LW b (proj2 (IO b) Lb)).
    change (nth i (vertex s a) 0%R) with (@get R_floats (vertex s a) i). change (nth i (vertex s b) 0%R) with (@get R_floats (vertex s b) i).
    apply Rabs_def1; lra.
Qed.
Print Assumptions C46_converged.

(** Cases: a paraboloid on the reals; an objective that is NaN everywhere on binary64. *)
Definition bowl (x : list R) : R := fold_left (fun a b => a + (b - 1) * (b - 1))%R x 0%R.
Definition bowl_options : nm_options R_floats := @Build_nm_options R_floats 500 (/ 10 ^ 8)%R (/ 10 ^ 8)%R (/ 20)%R.
Example C46_witness : exists m s, @nelder_mead_run R_floats fsort bowl [3; -1]%R bowl_options = Ok (m, s) /\ (m_f m <= 8)%R.
Proof.
  destruct (proj2 (proj2 (C46_total R_floats fsort bowl [3; -1]%R bowl_options R_order (fsort_sorts R_order)))) as (m & H); [discriminate|intros; apply R_not_nan|].
  destruct (C46_start R_floats fsort bowl [3; -1]%R bowl_options m R_order (fsort_sorts R_order) H) as (_ & E & B).
  unfold nelder_mead in H. apply obind_Ok in H as ([m' s] & H & E'). injection E' as <-. exists m', s. split; [exact H|].
  specialize (B (R_not_nan _)). apply R_le in B. rewrite E. replace 8%R with (bowl [3; -1]%R) by (unfold bowl; cbn; ring). exact B.
Qed.
Definition zero64 : binary64 := B754_zero 53 1024 false.
Definition b64_options : nm_options b64_floats := @Build_nm_options b64_floats 3 zero64 zero64 zero64.
Example C46_witness_nan : @nelder_mead b64_floats fsort (fun x => b64_div mode_NE zero64 zero64) [zero64] b64_options = Panic PUnwrap.
Proof. apply (C46_total b64_floats fsort _ [zero64] b64_options b64_order (fsort_sorts b64_order)); [discriminate|]. rewrite b64_nan. reflexivity. Qed.
(** One that converges at the first iteration. *)
Definition loose : nm_options R_floats := @Build_nm_options R_floats 1 1%R 1%R (/ 2)%R.
Example C46_witness_converged : exists m s, @nelder_mead_run R_floats fsort (fun _ => 0%R) [1%R] loose = Ok (m, s) /\ m_converged m = true.
Proof.
  set (x0 := [1%R] : list R_floats). set (f := (fun _ => 0%R) : list R_floats -> R_floats).
  set (s0 := {| simplex := initial_simplex loose x0; values := map f (initial_simplex loose x0); calls := initial_simplex loose x0 |}).
  assert (ST : nm_step fsort f 1 loose s0 = Ok (s0, true)).
  { unfold nm_step. assert (NN : existsb NelderMead.is_nan (values s0) = false) by reflexivity. rewrite NN. cbv zeta.
    assert (V : forall k, @get R_floats (values s0) k = 0%R) by (intros [|[|[|k]]]; reflexivity).
    set (order := fsort _ _).
    assert (OO : order = [0%nat; 1%nat]).
    { unfold order, fsort. cbn [seq fold_right finsert]. unfold flt. rewrite !V. cbn [fcmp R_floats]. destruct (Rlt_dec 0 0); [lra|]. reflexivity. }
    rewrite OO. cbn [nth].
    match goal with |- (if ?a && ?b then _ else _) = _ => assert (A : a = true); [|assert (B : b = true); [|rewrite A, B; reflexivity]] end.
    - apply R_lt. rewrite !V. cbn. rewrite Rminus_0_r, Rabs_R0. lra.
    - apply R_lt. assert (T : @flt R_floats f_tiny (@fabs R_floats 1%R) = true) by (apply R_lt; cbn; rewrite Rabs_R1; lra).
      unfold x_spread, s0, initial_simplex, x0. cbn [seq map fold_left length vertex simplex nth get upd]. rewrite T.
      cbn [fadd fmul step_frac loose fabs fmax fmin fsub f_of_nat INR xtol R_floats fl nth get]. rewrite Rabs_R1. unfold Rmax, Rmin. repeat destruct Rle_dec; lra. }
  exists {| m_x := vertex s0 (best_index (values s0)); m_f := get (values s0) (best_index (values s0)); m_iterations := 1; m_converged := true |}, s0.
  split; [|reflexivity]. unfold nelder_mead_run. cbn [length Nat.eqb x0 max_iter loose nm_loop]. fold x0 loose.
  change {| simplex := initial_simplex loose x0; values := map f (initial_simplex loose x0); calls := initial_simplex loose x0 |} with s0.
  rewrite ST. cbn [obind]. assert (NN : existsb NelderMead.is_nan (values s0) = false) by reflexivity. rewrite NN. reflexivity.
Qed.
