(** C99: linear interpolation in binary64. *)
From Coq Require Import Bool List Arith ZArith Reals Lra Lia Psatz Sorting.Sorted.
Import ListNotations.
From Flocq Require Import Core BinarySingleNaN.
From Verif Require Import Outcome F64 Clock64 Clock64Facts Chol64 Chol64Facts Bisect64 Bisect64Facts P_Bisect64 ForwardPoints CapSurface Dupire Lerp64 Lerp64Facts.
Open Scope R_scope.

(** The scan of [bracket], against the scan over real numbers. *)
Lemma scan_spec x : forall l prev i, Forall knot (prev :: l) -> StronglySorted (fun a b => f64R a < f64R b) (prev :: l) -> Bleb x prev = false -> (1 <= i)%nat ->
  match scan_bracket64 x prev i l with
  | Some (a, b, w) => exists m p y, nth_error (prev :: l) m = Some p /\ nth_error (prev :: l) (S m) = Some y /\ a = (i - 1 + m)%nat /\ b = (i + m)%nat /\ finite x /\ f64R p < f64R x <= f64R y /\ w = fdiv (fsub x p) (fsub y p) /\ scan (f64R x) (f64R prev) i (map f64R l) = Some (a, b, (f64R x - f64R p) / (f64R y - f64R p))
  | None => forall y, In y l -> Bleb x y = false
  end.
Proof.
  induction l as [|y l IH]; intros prev i K S B I; cbn [scan_bracket64]; [intros y []|]. inversion K as [|? ? KP K']; subst. inversion K' as [|? ? KY _]; subst. inversion S as [|? ? S' L]; subst.
  destruct (Bleb x y) eqn:E.
  - destruct (finite_between x prev y (proj1 KP) (proj1 KY) B E) as [FX O]. exists 0%nat, prev, y. repeat split; try reflexivity; try assumption; try lra; try lia. cbn [scan map]. destruct (Rle_dec (f64R x) (f64R y)); [reflexivity|lra].
  - specialize (IH y (Datatypes.S i) K' S' E ltac:(lia)). destruct (scan_bracket64 x y (Datatypes.S i) l) as [[[a b] w]|].
    + destruct IH as (m & p & q & N1 & N2 & A1 & B1 & FX & O & W & SC). exists (Datatypes.S m), p, q. repeat split; try assumption; try lra; try lia. cbn [scan map]. apply Bleb_false in E; [|exact FX|exact (proj1 KY)]. destruct (Rle_dec (f64R x) (f64R y)); [lra|exact SC].
    + intros z [<-|Z]; [exact E|exact (IH z Z)].
Qed.
Lemma sorted_between (l : list f64) : StronglySorted (fun a b => f64R a < f64R b) l -> forall m p y, nth_error l m = Some p -> nth_error l (S m) = Some y -> f64R p < f64R y.
Proof.
  induction 1 as [|a l S IH F]; intros m p y N1 N2; [destruct m; discriminate|]. destruct m as [|m]; cbn in N1, N2; [|exact (IH m p y N1 N2)]. replace p with a by congruence. rewrite Forall_forall in F. apply F, nth_error_In with 0%nat. exact N2.
Qed.
Lemma last_In {A} (l : list A) d : l <> [] -> In (last l d) l.
Proof. induction l as [|a [|b r] IH]; intros N; [congruence|left; reflexivity|]. right. apply IH. discriminate. Qed.
Lemma last_f64R l : l <> [] -> last (map f64R l) 0 = f64R (last l zero64).
Proof. induction l as [|a [|b r] IH]; intros N; [congruence|reflexivity|]. change (last (map f64R (b :: r)) 0 = f64R (last (b :: r) zero64)). apply IH. discriminate. Qed.

(** On a strictly increasing grid of finite numbers the two indices and the weight are always
    usable: in range, and a finite weight between zero and one, whatever is looked up.  A finite
    point strictly inside is put between the two neighbours around it, with a weight within three
    half-units in the last place of the exact one.  Everything below the grid is put on its first
    point and everything above, and NaN as well, on its last. *)
Theorem C99_bracket xs x : grid64 xs -> xs <> [] ->
  exists i j w, bracket64 xs x = Ok (i, j, w) /\ (i < length xs)%nat /\ (j < length xs)%nat /\ finite w /\ 0 <= f64R w <= 1 /\
    ((i = j /\ w = zero64) \/
     (j = S i /\ finite x /\ exists p y, nth_error xs i = Some p /\ nth_error xs j = Some y /\ f64R p < f64R x <= f64R y /\ Rabs (f64R w - (f64R x - f64R p) / (f64R y - f64R p)) <= 3 * u53)) /\
    (is_nan x = true -> i = (length xs - 1)%nat /\ j = i) /\
    (finite x -> f64R x <= f64R (nth 0 xs zero64) -> i = 0%nat /\ j = 0%nat) /\
    (finite x -> f64R (nth 0 xs zero64) < f64R x -> f64R (last xs zero64) <= f64R x -> i = (length xs - 1)%nat /\ j = i) /\
    (finite x -> f64R (nth 0 xs zero64) < f64R x < f64R (last xs zero64) -> j = S i) /\
    (finite x -> exists t, bracket (map f64R xs) (f64R x) = Ok (i, j, t) /\ 0 <= t <= 1 /\ Rabs (f64R w - t) <= 3 * u53).
Proof.
  intros [K S] N. pose proof u53_pos as U. destruct zero64_ok as [Z0 FZ]. destruct xs as [|x0 rest]; [congruence|]. inversion K as [|? ? K0 KR]; subst.
  assert (KL : knot (last (x0 :: rest) zero64)) by (rewrite Forall_forall in K; apply K, last_In; discriminate).
  assert (FLAT : Rabs (f64R zero64 - 0) <= 3 * u53) by (rewrite Z0, Rminus_diag_eq, Rabs_R0 by reflexivity; lra).
  unfold bracket64, bracket. rewrite last_f64R by discriminate. cbn [map]. cbn [nth]. set (n := (length (x0 :: rest) - 1)%nat). assert (EN : (length (f64R x0 :: map f64R rest) - 1)%nat = n) by (cbn; rewrite map_length; reflexivity). rewrite EN. assert (NL : (n < length (x0 :: rest))%nat) by (unfold n; cbn; lia).
  destruct (Bleb x x0) eqn:E0.
  - exists 0%nat, 0%nat, zero64. split; [reflexivity|]. split; [cbn; lia|]. split; [cbn; lia|]. split; [exact FZ|]. rewrite Z0. split; [lra|]. split; [left; split; reflexivity|]. split; [intros NA; destruct x; try discriminate NA; discriminate E0|]. split; [intros; split; reflexivity|].
    split; [intros FX C _; exfalso; apply Bleb_R in E0; [lra|exact FX|exact (proj1 K0)]|]. split; [intros FX C; exfalso; apply Bleb_R in E0; [lra|exact FX|exact (proj1 K0)]|].
    intros FX. exists 0. apply Bleb_R in E0; [|exact FX|exact (proj1 K0)]. destruct (Rle_dec (f64R x) (f64R x0)); [|lra]. rewrite Z0 in FLAT. repeat split; [lra|lra|exact FLAT].
  - destruct (Bleb (last (x0 :: rest) zero64) x) eqn:E1.
    + exists n, n, zero64. split; [reflexivity|]. split; [exact NL|]. split; [exact NL|]. split; [exact FZ|]. rewrite Z0. split; [lra|]. split; [left; split; reflexivity|]. split; [intros; split; reflexivity|]. split; [intros FX C; exfalso; apply Bleb_false in E0; [lra|exact FX|exact (proj1 K0)]|]. split; [intros; split; reflexivity|].
      split; [intros FX C; exfalso; apply Bleb_R in E1; [lra|exact (proj1 KL)|exact FX]|]. intros FX. exists 0. apply Bleb_false in E0; [|exact FX|exact (proj1 K0)]. apply Bleb_R in E1; [|exact (proj1 KL)|exact FX]. destruct (Rle_dec (f64R x) (f64R x0)); [lra|]. destruct (Rle_dec (f64R (last (x0 :: rest) zero64)) (f64R x)); [|lra]. rewrite Z0 in FLAT. repeat split; [lra|lra|exact FLAT].
    + pose proof (scan_spec x rest x0 1 K S E0 ltac:(lia)) as H. destruct (scan_bracket64 x x0 1 rest) as [[[a b] w]|].
      * destruct H as (m & p & y & N1 & N2 & A & B & FX & O & W & SC). replace (1 - 1 + m)%nat with m in A by lia. replace (1 + m)%nat with (Datatypes.S m) in B by lia. subst a b. rewrite Forall_forall in K. destruct (K p (nth_error_In _ _ N1)) as [FP BP]. destruct (K y (nth_error_In _ _ N2)) as [FY BY].
        pose proof (sorted_between _ S m p y N1 N2) as L. destruct (weight_ok p y x FP FY FX BP BY ltac:(lra) L) as (FW & W01 & WE). rewrite <- W in FW, W01, WE.
        exists m, (Datatypes.S m), w. split; [reflexivity|]. split; [apply nth_error_Some; congruence|]. split; [apply nth_error_Some; congruence|]. split; [exact FW|]. split; [exact W01|]. split; [right; split; [reflexivity|]; split; [exact FX|]; exists p, y; repeat split; try assumption; lra|].
        split; [intros NA; destruct x; discriminate|]. apply Bleb_false in E0; [|exact FX|exact (proj1 K0)]. apply Bleb_false in E1; [|exact (proj1 KL)|exact FX]. split; [intros; exfalso; lra|]. split; [intros; exfalso; lra|]. split; [intros; reflexivity|]. intros _. exists ((f64R x - f64R p) / (f64R y - f64R p)).
        destruct (Rle_dec (f64R x) (f64R x0)); [lra|]. destruct (Rle_dec (f64R (last (x0 :: rest) zero64)) (f64R x)); [lra|]. rewrite SC. split; [reflexivity|]. split; [|exact WE]. split; [apply quotient_pos; lra|]. apply Rmult_le_reg_r with (f64R y - f64R p); [lra|]. unfold Rdiv. rewrite Rmult_assoc, Rinv_l by lra. lra.
      * assert (G : finite x -> False). { intros FX. assert (In (last (x0 :: rest) zero64) (x0 :: rest)) as [Q|Q] by (apply last_In; discriminate); [rewrite <- Q in E1; apply Bleb_false in E1; [|exact (proj1 K0)|exact FX]; apply Bleb_false in E0; [lra|exact FX|exact (proj1 K0)]|]. specialize (H _ Q). apply Bleb_false in H; [|exact FX|exact (proj1 KL)]. apply Bleb_false in E1; [lra|exact (proj1 KL)|exact FX]. }
        exists n, n, zero64. split; [reflexivity|]. split; [exact NL|]. split; [exact NL|]. split; [exact FZ|]. rewrite Z0. split; [lra|]. split; [left; split; reflexivity|]. split; [intros; split; reflexivity|]. split; [intros FX; destruct (G FX)|]. split; [intros FX; destruct (G FX)|]. split; intros FX; destruct (G FX).
Qed.
Print Assumptions C99_bracket.

Lemma index_ok (rows : list (list f64)) n m (Q : f64 -> Prop) i j : length rows = n -> Forall (fun r => length r = m /\ Forall Q r) rows -> (i < n)%nat -> (j < m)%nat ->
  exists v, index64 rows i j = Ok v /\ Q v /\ forall E K, variance_at {| expiries := E; strikes := K; variance := map (map f64R) rows |} i j = Ok (f64R v).
Proof.
  intros L F I J. unfold index64, variance_at. cbn [variance]. rewrite <- L in I. destruct (nth_error rows i) as [r|] eqn:E; [|apply nth_error_None in E; lia]. rewrite Forall_forall in F. destruct (F r (nth_error_In _ _ E)) as [LR QR]. destruct (nth_error r j) as [v|] eqn:V; [|apply nth_error_None in V; lia].
  rewrite Forall_forall in QR. exists v. split; [reflexivity|]. split; [exact (QR v (nth_error_In _ _ V))|]. intros. rewrite (map_nth_error _ _ _ E), (map_nth_error _ _ _ V). reflexivity.
Qed.
Lemma index_In (rows : list (list f64)) (Q : f64 -> Prop) i j v : Forall (Forall Q) rows -> index64 rows i j = Ok v -> Q v.
Proof.
  intros F. unfold index64. destruct (nth_error rows i) as [r|] eqn:E; [|discriminate]. destruct (nth_error r j) as [x|] eqn:X; [|discriminate]. intros H. replace v with x by congruence. rewrite Forall_forall in F. pose proof (F r (nth_error_In _ _ E)) as G. rewrite Forall_forall in G. exact (G x (nth_error_In _ _ X)).
Qed.
(** One interpolation of the local variance. *)
Lemma step_ok (a b w : f64) M : finite a -> finite b -> finite w -> sized M -> M <= IZR (2 ^ 50) -> 0 <= f64R a <= M -> 0 <= f64R b <= M -> 0 <= f64R w <= 1 ->
  let v := fadd a (fmul w (fsub b a)) in finite v /\ 0 <= f64R v <= M + 6 * u53 * M /\ (forall m, m <= f64R a -> m <= f64R b -> m - 6 * u53 * M <= f64R v) /\ forall t, Rabs (f64R w - t) <= 3 * u53 -> Rabs (f64R v - (f64R a + t * (f64R b - f64R a))) <= 12 * u53 * M.
Proof.
  intros FA FB FW Z B BA BB BW v. assert (AA : Rabs (f64R a) <= M) by (apply Rabs_le; lra). assert (AB : Rabs (f64R b) <= M) by (apply Rabs_le; lra). destruct (product_ok a b w M FA FB FW B AA AB BW) as [_ [FP EP]].
  destruct (lerp_spec a b w _ M FA FB FW Z B AA AB BW FP EP) as (FV & _ & _ & P & A). fold v in FV, P, A. split; [exact FV|]. split; [split; [apply P; lra|]|].
  - apply Rabs_le_inv in A. assert (0 <= (M - f64R a) * (1 - f64R w)) by (apply Rmult_le_pos; lra). assert (0 <= (M - f64R b) * f64R w) by (apply Rmult_le_pos; lra). lra.
  - split; [intros m MA MB; apply Rabs_le_inv in A; assert (0 <= (f64R a - m) * (1 - f64R w)) by (apply Rmult_le_pos; lra); assert (0 <= (f64R b - m) * f64R w) by (apply Rmult_le_pos; lra); lra|]. intros t T. rewrite (Rmult_comm t). exact (lerp_close a b w _ M t FA FB FW Z B AA AB BW T FP EP).
Qed.

(** On a rectangular grid of finite non-negative variances the local variance is always a finite
    non-negative number, at any time and strike whatever, and above the largest entry by no more
    than a relative 2^-48; nor is it further below the smallest.  Its square root is taken without a NaN.  At a finite time and strike
    it is within 2^-48 of the largest entry of the interpolation in exact arithmetic. *)
Theorem C99_local_variance E K V M t k : grid64 E -> grid64 K -> E <> [] -> K <> [] -> length V = length E -> Forall (fun r => length r = length K /\ Forall (fun v => finite v /\ 0 <= f64R v <= M) r) V -> sized M -> M <= IZR (2 ^ 49) ->
  exists v, local_variance64 E K V t k = Ok v /\ finite v /\ 0 <= f64R v <= M * (1 + 32 * u53) /\
    (forall m, Forall (Forall (fun x => m <= f64R x)) V -> m - 32 * u53 * M <= f64R v) /\
    local_vol64 E K V t k = Ok (fsqrt v) /\ finite (fsqrt v) /\ 0 <= f64R (fsqrt v) /\
    (finite t -> finite k -> exists r, local_variance {| expiries := map f64R E; strikes := map f64R K; variance := map (map f64R) V |} (f64R t) (f64R k) = Ok r /\ Rabs (f64R v - r) <= 32 * u53 * M).
Proof.
  intros GE GK NE NK LV FV Z B. pose proof u53_pos as U. pose proof u53_eq as UE. assert (P50 : IZR (2 ^ 50) = 2 * IZR (2 ^ 49)) by (change (2 ^ 50)%Z with (2 * 2 ^ 49)%Z; apply mult_IZR). assert (PZ : 0 < M) by (destruct Z as [Z _]; pose proof (bpow_gt_0 radix2 (-100)); lra).
  destruct (C99_bracket E t GE NE) as (i0 & i1 & wt & BT & I0 & I1 & FT & W1 & _ & _ & _ & _ & _ & RT). destruct (C99_bracket K k GK NK) as (j0 & j1 & wk & BK & J0 & J1 & FK & W2 & _ & _ & _ & _ & _ & RK).
  unfold local_vol64, local_variance64. rewrite BT, BK. cbn [obind].
  destruct (index_ok V _ _ _ i0 j0 LV FV I0 J0) as (v00 & X00 & [F00 B00] & Y00). destruct (index_ok V _ _ _ i0 j1 LV FV I0 J1) as (v01 & X01 & [F01 B01] & Y01). destruct (index_ok V _ _ _ i1 j0 LV FV I1 J0) as (v10 & X10 & [F10 B10] & Y10). destruct (index_ok V _ _ _ i1 j1 LV FV I1 J1) as (v11 & X11 & [F11 B11] & Y11).
  rewrite X00, X01, X10, X11. cbn [obind]. assert (B' : M <= IZR (2 ^ 50)) by lra.
  destruct (step_ok v00 v01 wk M F00 F01 FK Z B' B00 B01 W2) as (F0 & L0 & LO0 & A0). destruct (step_ok v10 v11 wk M F10 F11 FK Z B' B10 B11 W2) as (F1 & L1 & LO1 & A1). set (v0 := fadd v00 _) in *. set (v1 := fadd v10 _) in *.
  set (M' := M + 6 * u53 * M) in *. assert (UM : 0 < u53 * M) by (apply Rmult_lt_0_compat; lra). assert (SM : u53 * (u53 * M) <= u53 * M / 100) by (assert (0 <= (1 / 100 - u53) * (u53 * M)) by (apply Rmult_le_pos; lra); lra). assert (SM1 : u53 * M <= M / 100) by (assert (0 <= (1 / 100 - u53) * M) by (apply Rmult_le_pos; lra); lra). assert (Z' : sized M') by (destruct Z as [Z1 Z2]; split; [unfold M'; lra|]; apply Rle_trans with (IZR (2 ^ 50)); [unfold M'; lra|apply IZR_le; lia]).
  assert (B2 : M' <= IZR (2 ^ 50)) by (unfold M'; lra). destruct (step_ok v0 v1 wt M' F0 F1 FT Z' B2 L0 L1 W1) as (FF & LF & LOF & AF). set (v := fadd v0 _) in *. exists v. split; [reflexivity|]. split; [exact FF|]. split; [unfold M' in LF; lra|]. split.
  { intros m G. specialize (LO0 m (index_In V _ _ _ _ G X00) (index_In V _ _ _ _ G X01)). specialize (LO1 m (index_In V _ _ _ _ G X10) (index_In V _ _ _ _ G X11)). specialize (LOF _ LO0 LO1). unfold M' in LOF. lra. }
  split; [reflexivity|].
  destruct (sqrt_close v FF ltac:(lra)) as (FS & PS & _). split; [exact FS|]. split; [exact PS|].
  intros Ft Fk. destruct (RT Ft) as (tt & ET & T01 & TE). destruct (RK Fk) as (kk & EK & K01 & KE). unfold local_variance. cbn [expiries strikes]. rewrite ET, EK. cbn [obind]. rewrite Y00, Y01, Y10, Y11. cbn [obind]. eexists. split; [reflexivity|].
  specialize (A0 kk KE). specialize (A1 kk KE). specialize (AF tt TE). set (r0 := f64R v00 + kk * (f64R v01 - f64R v00)) in *. set (r1 := f64R v10 + kk * (f64R v11 - f64R v10)) in *. apply Rabs_le_inv in A0, A1, AF. clearbody r0 r1 v0 v1 v.
  assert (G1 : 0 <= (12 * u53 * M - (f64R v0 - r0)) * (1 - tt)) by (apply Rmult_le_pos; lra). assert (G2 : 0 <= (12 * u53 * M + (f64R v0 - r0)) * (1 - tt)) by (apply Rmult_le_pos; lra). assert (G3 : 0 <= (12 * u53 * M - (f64R v1 - r1)) * tt) by (apply Rmult_le_pos; lra). assert (G4 : 0 <= (12 * u53 * M + (f64R v1 - r1)) * tt) by (apply Rmult_le_pos; lra).
  assert (E12 : 12 * u53 * M' <= 13 * (u53 * M)) by (unfold M'; lra). apply Rabs_le. lra.
Qed.
Print Assumptions C99_local_variance.

(** The scan of the smile, against the scan over real numbers. *)
Definition real_nodes (l : list (f64 * f64)) : list (R * R) := map (fun p => (f64R (fst p), f64R (snd p))) l.
Lemma scan_nodes_spec k : forall l v, scan_nodes64 l k = Some v ->
  exists p q, In p l /\ In q l /\ Bleb (fst p) k = true /\ Bleb k (fst q) = true /\ v = fadd (snd p) (fmul (fdiv (fsub k (fst p)) (fsub (fst q) (fst p))) (fsub (snd q) (snd p))) /\
    (StronglySorted (fun a b => f64R (fst a) < f64R (fst b)) l -> f64R (fst p) < f64R (fst q)) /\
    (Forall (fun p => finite (fst p)) l -> finite k -> scan_nodes (real_nodes l) (f64R k) = Some (f64R (snd p) + (f64R k - f64R (fst p)) / (f64R (fst q) - f64R (fst p)) * (f64R (snd q) - f64R (snd p)))).
Proof.
  induction l as [|p [|q r] IH]; intros v H; [discriminate|discriminate|]. cbn [scan_nodes64] in H. destruct (Bleb (fst p) k) eqn:E1; cbn [andb] in H; [destruct (Bleb k (fst q)) eqn:E2; cbn [andb] in H|].
  - exists p, q. split; [left; reflexivity|]. split; [right; left; reflexivity|]. split; [exact E1|]. split; [exact E2|]. split; [congruence|]. split; [intros S; inversion S as [|? ? _ L]; subst; inversion L; subst; assumption|].
    intros F FK. inversion F as [|? ? F1 F']; subst. inversion F' as [|? ? F2 _]; subst. apply Bleb_R in E1; [|exact F1|exact FK]. apply Bleb_R in E2; [|exact FK|exact F2]. cbn [real_nodes map scan_nodes fst snd]. destruct (Rle_dec (f64R (fst p)) (f64R k)); [|lra]. destruct (Rle_dec (f64R k) (f64R (fst q))); [reflexivity|lra].
  - destruct (IH v H) as (p' & q' & I1 & I2 & L1 & L2 & EV & S' & R'). exists p', q'. split; [right; exact I1|]. split; [right; exact I2|]. split; [exact L1|]. split; [exact L2|]. split; [exact EV|]. split; [intros S; inversion S; subst; apply S'; assumption|].
    intros F FK. inversion F as [|? ? F1 F']; subst. inversion F' as [|? ? F2 _]; subst. rewrite <- (R' F' FK). apply Bleb_false in E2; [|exact FK|exact F2]. cbn [real_nodes map scan_nodes fst snd]. destruct (Rle_dec (f64R (fst p)) (f64R k)); [|reflexivity]. destruct (Rle_dec (f64R k) (f64R (fst q))); [lra|reflexivity].
  - destruct (IH v H) as (p' & q' & I1 & I2 & L1 & L2 & EV & S' & R'). exists p', q'. split; [right; exact I1|]. split; [right; exact I2|]. split; [exact L1|]. split; [exact L2|]. split; [exact EV|]. split; [intros S; inversion S; subst; apply S'; assumption|].
    intros F FK. inversion F as [|? ? F1 F']; subst. rewrite <- (R' F' FK). apply Bleb_false in E1; [|exact F1|exact FK]. cbn [real_nodes map scan_nodes fst snd]. destruct (Rle_dec (f64R (fst p)) (f64R k)); [lra|reflexivity].
Qed.
Lemma scan_nodes_none k : finite k -> forall l, Forall (fun p => finite (fst p)) l -> scan_nodes64 l k = None -> scan_nodes (real_nodes l) (f64R k) = None.
Proof.
  intros FK. induction l as [|p [|q r] IH]; intros F H; [reflexivity|reflexivity|]. inversion F as [|? ? F1 F']; subst. inversion F' as [|? ? F2 _]; subst. cbn [scan_nodes64] in H. cbn [real_nodes map scan_nodes fst snd]. destruct (Bleb (fst p) k) eqn:E1; cbn [andb] in H; [destruct (Bleb k (fst q)) eqn:E2; cbn [andb] in H; [discriminate|]|].
  - apply Bleb_false in E2; [|exact FK|exact F2]. destruct (Rle_dec (f64R (fst p)) (f64R k)); [|exact (IH F' H)]. destruct (Rle_dec (f64R k) (f64R (fst q))); [lra|exact (IH F' H)].
  - apply Bleb_false in E1; [|exact F1|exact FK]. destruct (Rle_dec (f64R (fst p)) (f64R k)); [lra|exact (IH F' H)].
Qed.
Lemma last_real a l : last (real_nodes l) (f64R (fst a), f64R (snd a)) = (f64R (fst (last l a)), f64R (snd (last l a))).
Proof. induction l as [|b [|c r] IH]; [reflexivity|reflexivity|exact IH]. Qed.

(** A caplet smile of finite volatilities over strictly increasing finite strikes answers every
    strike, NaN and the infinities included, with a finite volatility no larger than the largest
    quote by more than a relative 2^-50, and not negative when no quote is.  Beyond either end
    it is the quote at that end exactly, and for NaN the quote at the upper end.  At a finite strike it is within 2^-49 of the largest
    quote of the interpolation in exact arithmetic. *)
Theorem C99_smile nodes k M : nodes <> [] -> Forall (fun p => knot (fst p) /\ finite (snd p) /\ Rabs (f64R (snd p)) <= M) nodes -> StronglySorted (fun a b => f64R (fst a) < f64R (fst b)) nodes -> sized M -> M <= IZR (2 ^ 50) ->
  exists v, interpolate_nodes64 nodes k = Ok v /\ finite v /\ Rabs (f64R v) <= M * (1 + 8 * u53) /\
    (Forall (fun p => 0 <= f64R (snd p)) nodes -> 0 <= f64R v) /\
    (finite k -> f64R k <= f64R (fst (hd (zero64, zero64) nodes)) -> v = snd (hd (zero64, zero64) nodes)) /\
    (finite k -> f64R (fst (last nodes (zero64, zero64))) <= f64R k -> v = snd (last nodes (zero64, zero64))) /\
    (is_nan k = true -> v = snd (last nodes (zero64, zero64))) /\
    (finite k -> exists r, interpolate_nodes (real_nodes nodes) (f64R k) = Ok r /\ Rabs (f64R v - r) <= 12 * u53 * M).
Proof.
  intros N F S Z B. pose proof u53_pos as U. assert (PZ : 0 < M) by (destruct Z as [Z _]; pose proof (bpow_gt_0 radix2 (-100)); lra). assert (UM : 0 < u53 * M) by (apply Rmult_lt_0_compat; lra).
  assert (FK : Forall (fun p => finite (fst p)) nodes) by (revert F; apply Forall_impl; intros p ((A & _) & _); exact A).
  assert (QUOTE : forall p, In p nodes -> finite (snd p) /\ Rabs (f64R (snd p)) <= M * (1 + 8 * u53) /\ (Forall (fun p => 0 <= f64R (snd p)) nodes -> 0 <= f64R (snd p))).
  { intros p I. rewrite Forall_forall in F. destruct (F p I) as (_ & A & C). split; [exact A|]. split; [lra|]. intros G. rewrite Forall_forall in G. exact (G p I). }
  assert (REFL : forall x, Rabs (x - x) <= 12 * u53 * M) by (intros x; rewrite Rminus_diag_eq, Rabs_R0 by reflexivity; lra).
  destruct nodes as [|a [|b r]]; [congruence| |].
  - destruct (QUOTE a (or_introl eq_refl)) as (Q1 & Q2 & Q3). exists (snd a). cbn [interpolate_nodes64 hd last real_nodes map interpolate_nodes fst snd]. repeat split; try assumption; try reflexivity. intros _. exists (f64R (snd a)). split; [reflexivity|apply REFL].
  - set (l := a :: b :: r) in *. set (z := last (b :: r) a). assert (EZ : forall d, last l d = z). { intros d. unfold z, l. clear. revert a. induction r as [|c r IH] using rev_ind; intros a; [reflexivity|]. change (a :: b :: r ++ [c]) with ((a :: b :: r) ++ [c]). change (b :: r ++ [c]) with ((b :: r) ++ [c]). rewrite !last_last. reflexivity. }
    assert (IZ : In z l) by (rewrite <- (EZ a); apply last_In; discriminate). assert (FA : finite (fst a)) by (inversion FK; assumption). assert (FZ : finite (fst z)) by (rewrite Forall_forall in FK; exact (FK z IZ)).
    assert (AZ : f64R (fst a) < f64R (fst z)). { unfold l in S. inversion S as [|? ? _ L]; subst. rewrite Forall_forall in L. apply L. unfold z. apply last_In. discriminate. }
    change (interpolate_nodes64 l k) with (if Bleb k (fst a) then Ok (snd a) else if Bleb (fst z) k then Ok (snd z) else Ok (match scan_nodes64 l k with Some v => v | None => snd z end)).
    assert (ER : interpolate_nodes (real_nodes l) (f64R k) = (if Rle_dec (f64R k) (f64R (fst a)) then Ok (f64R (snd a)) else if Rle_dec (f64R (fst z)) (f64R k) then Ok (f64R (snd z)) else Ok (match scan_nodes (real_nodes l) (f64R k) with Some v => v | None => f64R (snd z) end))).
    { change (real_nodes l) with ((f64R (fst a), f64R (snd a)) :: (f64R (fst b), f64R (snd b)) :: real_nodes r). cbn [interpolate_nodes]. change ((f64R (fst b), f64R (snd b)) :: real_nodes r) with (real_nodes (b :: r)). rewrite last_real. fold z. cbn [fst snd]. reflexivity. }
    rewrite ER. rewrite EZ. change (hd (zero64, zero64) l) with a. destruct (Bleb k (fst a)) eqn:E0.
    + exists (snd a). destruct (QUOTE a (or_introl eq_refl)) as (Q1 & Q2 & Q3). split; [reflexivity|]. split; [exact Q1|]. split; [exact Q2|]. split; [exact Q3|]. split; [reflexivity|]. split; [intros G1 G2; apply Bleb_R in E0; [lra|exact G1|exact FA]|]. split; [intros NA; destruct k; try discriminate NA; discriminate E0|]. intros G1. exists (f64R (snd a)). apply Bleb_R in E0; [|exact G1|exact FA]. destruct (Rle_dec (f64R k) (f64R (fst a))); [|lra]. split; [reflexivity|apply REFL].
    + destruct (Bleb (fst z) k) eqn:E1.
      * exists (snd z). destruct (QUOTE z IZ) as (Q1 & Q2 & Q3). split; [reflexivity|]. split; [exact Q1|]. split; [exact Q2|]. split; [exact Q3|]. split; [intros G1 G2; apply Bleb_false in E0; [lra|exact G1|exact FA]|]. split; [reflexivity|]. split; [reflexivity|]. intros G1. exists (f64R (snd z)). apply Bleb_false in E0; [|exact G1|exact FA]. apply Bleb_R in E1; [|exact FZ|exact G1]. destruct (Rle_dec (f64R k) (f64R (fst a))); [lra|]. destruct (Rle_dec (f64R (fst z)) (f64R k)); [|lra]. split; [reflexivity|apply REFL].
      * destruct (scan_nodes64 l k) as [v|] eqn:E2.
        -- destruct (scan_nodes_spec k l v E2) as (p & q & IP & IQ & L1 & L2 & EV & SL & RV). specialize (SL S). rewrite Forall_forall in F. destruct (F p IP) as ((FP & BP) & FSP & BSP). destruct (F q IQ) as ((FQ & BQ) & FSQ & BSQ).
           assert (G1 : finite k). { destruct k as [?|[|]| |? ? ? ?]; [reflexivity| | | |reflexivity]; exfalso. - destruct (fst p) as [?|?| |? ? ? ?]; try discriminate FP; discriminate L1. - destruct (fst q) as [?|?| |? ? ? ?]; try discriminate FQ; discriminate L2. - destruct (fst q); discriminate L2. }
           pose proof (proj1 (Bleb_R _ _ FP G1) L1) as O1. pose proof (proj1 (Bleb_R _ _ G1 FQ) L2) as O2. destruct (weight_ok (fst p) (fst q) k FP FQ G1 BP BQ (conj O1 O2) SL) as (FW & W01 & WE). set (w := fdiv (fsub k (fst p)) (fsub (fst q) (fst p))) in *.
           destruct (product_ok (snd p) (snd q) w M FSP FSQ FW B BSP BSQ W01) as [_ [FPR EPR]]. destruct (lerp_spec (snd p) (snd q) w _ M FSP FSQ FW Z B BSP BSQ W01 FPR EPR) as (FV & _ & _ & PV & AV). pose proof (lerp_close (snd p) (snd q) w _ M _ FSP FSQ FW Z B BSP BSQ W01 WE FPR EPR) as CL. rewrite <- EV in FV, PV, AV, CL.
           exists v. split; [reflexivity|]. split; [exact FV|]. split.
           { apply Rabs_le_inv in AV, BSP, BSQ. assert (0 <= (M - f64R (snd p)) * (1 - f64R w)) by (apply Rmult_le_pos; lra). assert (0 <= (M + f64R (snd p)) * (1 - f64R w)) by (apply Rmult_le_pos; lra). assert (0 <= (M - f64R (snd q)) * f64R w) by (apply Rmult_le_pos; lra). assert (0 <= (M + f64R (snd q)) * f64R w) by (apply Rmult_le_pos; lra). apply Rabs_le. lra. }
           split; [intros G; rewrite Forall_forall in G; apply PV; apply G; assumption|]. apply Bleb_false in E0; [|exact G1|exact FA]. apply Bleb_false in E1; [|exact FZ|exact G1]. split; [intros; exfalso; lra|]. split; [intros; exfalso; lra|]. split; [intros NA; destruct k; discriminate|]. intros _. destruct (Rle_dec (f64R k) (f64R (fst a))); [lra|]. destruct (Rle_dec (f64R (fst z)) (f64R k)); [lra|]. rewrite (RV FK G1). eexists. split; [reflexivity|]. rewrite (Rmult_comm (_ / _)). exact CL.
        -- exists (snd z). destruct (QUOTE z IZ) as (Q1 & Q2 & Q3). split; [reflexivity|]. split; [exact Q1|]. split; [exact Q2|]. split; [exact Q3|]. split; [intros G1 G2; apply Bleb_false in E0; [lra|exact G1|exact FA]|]. split; [reflexivity|]. split; [reflexivity|]. intros G1. exists (f64R (snd z)). apply Bleb_false in E0; [|exact G1|exact FA]. apply Bleb_false in E1; [|exact FZ|exact G1]. destruct (Rle_dec (f64R k) (f64R (fst a))); [lra|]. destruct (Rle_dec (f64R (fst z)) (f64R k)); [lra|]. rewrite (scan_nodes_none k G1 l FK E2). split; [reflexivity|apply REFL].
Qed.
Print Assumptions C99_smile.

(** Between two dated forward points the answer never leaves the range of the two, moves with
    the date in the direction of the quotes and is within 2^-49 of the larger of the exact
    interpolation.  On one and the same date the first quote is used. *)
Theorem C99_points s e target M : (fst s <= target < fst e)%Z -> (fst e - fst s <= 2 ^ 40)%Z -> finite (snd s) -> finite (snd e) -> sized M -> M <= IZR (2 ^ 50) -> Rabs (f64R (snd s)) <= M -> Rabs (f64R (snd e)) <= M -> f64R (snd s) = f64R (snd e) \/ bpow radix2 (-900) <= Rabs (f64R (snd e) - f64R (snd s)) ->
  let v := points64 s e target in finite v /\ Rmin (f64R (snd s)) (f64R (snd e)) <= f64R v <= Rmax (f64R (snd s)) (f64R (snd e)) /\
  Rabs (f64R v - interpolate (fst s, f64R (snd s)) (fst e, f64R (snd e)) target) <= 12 * u53 * M /\
  (forall later, (target <= later < fst e)%Z -> (f64R (snd s) <= f64R (snd e) -> f64R v <= f64R (points64 s e later)) /\ (f64R (snd e) <= f64R (snd s) -> f64R (points64 s e later) <= f64R v)) /\
  points64 s (fst s, snd e) target = snd s.
Proof.
  intros T L FS FE Z B BS BE G v. pose proof u53_pos as U. pose proof u53_eq as UE. set (n := (fst e - fst s)%Z) in *. destruct (f64_of_Z_ok n ltac:(lia)) as [EN FN].
  assert (NP : 1 <= IZR n) by (apply IZR_le; lia). assert (NB : IZR n <= 1099511627776) by (apply IZR_le; exact L). destruct (lit_ok 1 (-52) 1 ltac:(lia) ltac:(lia) ltac:(lia)) as [E52 F52]; [change (IZR 1 * bpow radix2 (-52)) with (1 * / 4503599627370496); rewrite Rabs_pos_eq; lra|]. fold eps64 in E52, F52. change (IZR 1 * bpow radix2 (-52)) with (1 * / 4503599627370496) in E52.
  assert (EPS : Bltb (fabs (f64_of_Z n)) eps64 = false). { destruct (Bltb _ _) eqn:E; [|reflexivity]. apply Bltb_R in E; [|unfold fabs, finite; rewrite is_finite_Babs; exact FN|exact F52]. assert (EB : f64R (fabs (f64_of_Z n)) = Rabs (f64R (f64_of_Z n))) by (unfold f64R, fabs; apply B2R_Babs). rewrite EB, EN, Rabs_pos_eq, E52 in E by lra. lra. }
  assert (OPEN : forall d, (fst s <= d)%Z -> points64 s e d = fadd (snd s) (fmul (fsub (snd e) (snd s)) (fdiv (f64_of_Z (d - fst s)) (f64_of_Z n)))) by (intros d D; unfold points64; cbv zeta; fold n; rewrite EPS; reflexivity).
  assert (WT : forall d, (fst s <= d < fst e)%Z -> let w := fdiv (f64_of_Z (d - fst s)) (f64_of_Z n) in finite w /\ f64R w = rnd (IZR (d - fst s) / IZR n) /\ 0 <= f64R w <= 1 - / 2199023255552 /\ Rabs (f64R w - IZR (d - fst s) / IZR n) <= 3 * u53).
  { intros d D w. destruct (f64_of_Z_ok (d - fst s) ltac:(lia)) as [ED FD]. assert (D0 : 0 <= IZR (d - fst s)) by (apply IZR_le; lia). assert (D1 : IZR (d - fst s) <= IZR n - 1) by (rewrite <- minus_IZR; apply IZR_le; lia). assert (Q : 0 <= IZR (d - fst s) / IZR n) by (apply quotient_pos; lra).
    assert (Q1 : IZR (d - fst s) / IZR n <= 1 - / 1099511627776). { apply Rmult_le_reg_r with (IZR n); [lra|]. unfold Rdiv. rewrite Rmult_assoc, Rinv_l by lra. lra. }
    destruct (fdiv_ok (f64_of_Z (d - fst s)) (f64_of_Z n) 1 FD ltac:(lra) ltac:(lia)) as [EW FW]; [rewrite ED, EN, Rabs_pos_eq by lra; lra|]. rewrite ED, EN in EW. fold w in EW, FW. assert (R : Rabs (f64R w - IZR (d - fst s) / IZR n) <= u53 / 2). { rewrite EW. apply Rle_trans with (bpow radix2 (0 - 54)); [apply rnd_error; [lia|]; rewrite Rabs_pos_eq by lra; change (bpow radix2 0) with 1; lra|]. change (bpow radix2 (0 - 54)) with (/ 18014398509481984). lra. }
    split; [exact FW|]. split; [exact EW|]. split; [|lra]. split; [rewrite EW, <- rnd_0; apply rnd_mono; lra|]. apply Rabs_le_inv in R. lra. }
  destruct (WT target T) as (FW & EW & W01 & WE). set (w := fdiv (f64_of_Z (target - fst s)) (f64_of_Z n)) in *. assert (W1 : 0 <= f64R w <= 1) by lra. destruct (product_ok (snd s) (snd e) w M FS FE FW B BS BE W1) as [[FP EP] _].
  destruct (lerp_spec (snd s) (snd e) w _ M FS FE FW Z B BS BE W1 FP EP) as (FV & SV & DV & _ & _). pose proof (lerp_close (snd s) (snd e) w _ M _ FS FE FW Z B BS BE W1 WE FP EP) as CL. unfold v. rewrite (OPEN target ltac:(lia)). fold w. set (p := fmul (fsub (snd e) (snd s)) w) in *. set (y := fadd (snd s) p) in *.
  assert (P51 : IZR (2 ^ 51) = 2 * IZR (2 ^ 50)) by (change (2 ^ 51)%Z with (2 * 2 ^ 50)%Z; apply mult_IZR). pose proof BS as BS'. pose proof BE as BE'. apply Rabs_le_inv in BS', BE'. destruct (fsub_ok (snd e) (snd s) (2 ^ 51) FE FS ltac:(lia)) as [ED FD]; [apply Rabs_le; lra|].
  assert (EO : f64R (Bopp (snd s)) = - f64R (snd s)) by (unfold f64R; apply B2R_Bopp). destruct (rnd_plus (snd e) (Bopp (snd s))) as (e1 & E1 & R1). rewrite EO in R1. fold (f64R (snd e) - f64R (snd s)) in R1. rewrite <- ED in R1.
  assert (PB : Rabs (f64R p) <= Rabs (f64R (snd e) - f64R (snd s))).
  { rewrite EP. set (x := f64R (snd e) - f64R (snd s)) in *. set (d := f64R (fsub (snd e) (snd s))) in *. assert (AD : Rabs d <= Rabs x * (1 + u53)). { rewrite R1, Rabs_mult. apply Rmult_le_compat_l; [apply Rabs_pos|]. apply Rabs_le_inv in E1. apply Rabs_le. lra. }
    assert (ADW : Rabs (d * f64R w) <= Rabs x * (1 - / 4398046511104)). { rewrite Rabs_mult, (Rabs_pos_eq (f64R w)) by lra. apply Rle_trans with (Rabs x * (1 + u53) * (1 - / 2199023255552)); [apply Rmult_le_compat; [apply Rabs_pos|lra|exact AD|lra]|]. rewrite Rmult_assoc. apply Rmult_le_compat_l; [apply Rabs_pos|]. lra. }
    destruct (Rle_lt_dec (bpow radix2 (-1022)) (Rabs (d * f64R w))) as [C|C].
    - destruct (rnd_rel _ C) as (e2 & E2 & ->). rewrite Rabs_mult. apply Rle_trans with (Rabs x * (1 - / 4398046511104) * (1 + u53)). + apply Rmult_le_compat; [apply Rabs_pos|apply Rabs_pos|exact ADW|]. apply Rabs_le_inv in E2. apply Rabs_le. lra. + rewrite Rmult_assoc, <- (Rmult_1_r (Rabs x)) at 1. rewrite Rmult_1_r. rewrite <- (Rmult_1_r (Rabs x)) at 2. apply Rmult_le_compat_l; [apply Rabs_pos|]. lra.
    - destruct G as [G|G]; [replace (d * f64R w) with 0; [rewrite rnd_0, Rabs_R0; apply Rabs_pos|]; rewrite R1; unfold x; rewrite G; ring|]. fold x in G. apply Rle_trans with (2 := G). assert (RE : Rabs (rnd (d * f64R w) - d * f64R w) <= bpow radix2 (-1021 - 54)) by (apply rnd_error; [lia|]; apply Rle_trans with (bpow radix2 (-1022)); [lra|apply bpow_le; lia]).
      pose proof (bpow_le radix2 (-1021 - 54) (-1022) ltac:(lia)) as B1. assert (B2 : 2 * bpow radix2 (-1022) <= bpow radix2 (-900)) by (change 2 with (bpow radix2 1); rewrite <- bpow_plus; apply bpow_le; lia). apply Rabs_le_inv in RE. assert (- bpow radix2 (-1022) < d * f64R w < bpow radix2 (-1022)) by (apply Rabs_lt_inv; exact C). apply Rabs_le. lra. }
  destruct (fadd_ok (snd s) p (2 ^ 53) FS FP ltac:(lia)) as [EY _]. { apply Rle_trans with (IZR (2 ^ 52)); [|apply IZR_le; lia]. assert (P52 : IZR (2 ^ 52) = 4 * IZR (2 ^ 50)) by (change (2 ^ 52)%Z with (4 * 2 ^ 50)%Z; apply mult_IZR). assert (Rabs (f64R (snd e) - f64R (snd s)) <= 2 * M) by (apply Rabs_le; lra). pose proof (Rabs_triang (f64R (snd s)) (f64R p)). lra. } fold y in EY.
  split; [exact FV|]. split; [|split; [|split]].
  - apply Rabs_le_inv in PB. destruct (Rle_lt_dec (f64R (snd s)) (f64R (snd e))) as [O|O].
    + rewrite Rmin_left, Rmax_right by lra. split; [exact (SV O)|]. rewrite EY, <- (rnd_id _ (format64 (snd e))). apply rnd_mono. rewrite Rabs_pos_eq in PB by lra. lra.
    + rewrite Rmin_right, Rmax_left by lra. split; [|apply DV; lra]. rewrite EY, <- (rnd_id _ (format64 (snd e))) at 1. apply rnd_mono. rewrite Rabs_left1 in PB by lra. lra.
  - unfold interpolate. cbn [fst snd]. fold n. destruct (n =? 0)%Z eqn:E0; [apply Z.eqb_eq in E0; lia|]. exact CL.
  - intros later LT. rewrite (OPEN later ltac:(lia)). destruct (WT later ltac:(lia)) as (FW2 & EW2 & W02 & _). set (w2 := fdiv (f64_of_Z (later - fst s)) (f64_of_Z n)) in *. assert (W12 : 0 <= f64R w2 <= 1) by lra. destruct (product_ok (snd s) (snd e) w2 M FS FE FW2 B BS BE W12) as [[FP2 EP2] _]. set (p2 := fmul (fsub (snd e) (snd s)) w2) in *.
    assert (ABS : Rabs (f64R (snd s) + f64R p2) <= IZR (2 ^ 53)). { rewrite EP2. set (d := f64R (fsub (snd e) (snd s))) in *. assert (DB : Rabs (rnd (d * f64R w2)) <= IZR (2 ^ 51)). { apply rnd_bound; [lia|]. rewrite Rabs_mult, (Rabs_pos_eq (f64R w2)) by lra. assert (Rabs d <= IZR (2 ^ 51)) by (rewrite ED; apply rnd_bound; [lia|apply Rabs_le; lra]). rewrite <- (Rmult_1_r (IZR (2 ^ 51))). apply Rmult_le_compat; [apply Rabs_pos|lra|assumption|lra]. } assert (P53 : IZR (2 ^ 53) = 8 * IZR (2 ^ 50)) by (change (2 ^ 53)%Z with (8 * 2 ^ 50)%Z; apply mult_IZR). assert (0 <= IZR (2 ^ 50)) by (apply IZR_le; lia). pose proof (Rabs_triang (f64R (snd s)) (rnd (d * f64R w2))). lra. }
    destruct (fadd_ok (snd s) p2 (2 ^ 53) FS FP2 ltac:(lia) ABS) as [EY2 _]. assert (WW : f64R w <= f64R w2) by (rewrite EW, EW2; apply rnd_mono, Rmult_le_compat_r; [left; apply Rinv_0_lt_compat; lra|apply IZR_le; lia]). rewrite EY, EY2.
    split; intros O; apply rnd_mono, Rplus_le_compat_l; rewrite EP, EP2; apply rnd_mono; set (d := f64R (fsub (snd e) (snd s))) in *.
    + apply Rmult_le_compat_l; [rewrite ED, <- rnd_0; apply rnd_mono; lra|exact WW]. + assert (d <= 0) by (rewrite ED, <- rnd_0; apply rnd_mono; lra). assert (0 <= - d * (f64R w2 - f64R w)) by (apply Rmult_le_pos; lra). lra.
  - unfold points64. cbn [fst snd]. rewrite Z.sub_diag. reflexivity.
Qed.
Print Assumptions C99_points.

(** Rounding, with no condition on the size. *)
Lemma rnd_abs x : Rabs (rnd x - x) <= u53 * Rabs x + bpow radix2 (-1075).
Proof.
  pose proof u53_pos as U. pose proof (bpow_gt_0 radix2 (-1075)) as T. pose proof (Rabs_pos x) as A. assert (UA : 0 <= u53 * Rabs x) by (apply Rmult_le_pos; lra). destruct (Rle_lt_dec (bpow radix2 (-1022)) (Rabs x)) as [C|C].
  - destruct (rnd_rel _ C) as (e & E & ->). replace (x * (1 + e) - x) with (e * x) by ring. rewrite Rabs_mult. assert (Rabs e * Rabs x <= u53 * Rabs x) by (apply Rmult_le_compat_r; lra). lra.
  - assert (Rabs (rnd x - x) <= bpow radix2 (-1021 - 54)) by (apply rnd_error; [lia|]; apply Rle_trans with (bpow radix2 (-1022)); [lra|apply bpow_le; lia]). change (bpow radix2 (-1021 - 54)) with (bpow radix2 (-1075)) in H. lra.
Qed.
(** The total variance of one expiry. *)
Lemma total_ok (s y : f64) M : finite s -> finite y -> 0 <= f64R s <= 1024 -> 0 <= f64R y <= 1024 -> f64R s * f64R s * f64R y <= M -> sized M ->
  let v := fmul (fmul s s) y in finite v /\ 0 <= f64R v /\ Rabs (f64R v - f64R s * f64R s * f64R y) <= 3 * u53 * M.
Proof.
  intros FS FY BS BY BM [Z _] v. pose proof u53_pos as U. pose proof u53_eq as UE. assert (BP : 0 < bpow radix2 (-100)) by apply bpow_gt_0. set (a := f64R s * f64R s) in *. assert (A0 : 0 <= a) by (apply Rmult_le_pos; lra). assert (A1 : a <= 1048576) by (replace 1048576 with (1024 * 1024) by ring; apply Rmult_le_compat; lra).
  destruct (fmul_ok s s (2 ^ 20) FS FS ltac:(lia)) as [EA FA]; [fold a; rewrite Rabs_pos_eq by lra; exact A1|]. fold a in EA. pose proof (rnd_abs a) as RA. rewrite <- EA, (Rabs_pos_eq a) in RA by lra. assert (PA : 0 <= f64R (fmul s s)) by (rewrite EA, <- rnd_0; apply rnd_mono; lra). assert (QA : f64R (fmul s s) <= 1048576) by (rewrite EA, <- (rnd_Z 1048576) by lia; apply rnd_mono; exact A1). set (x := f64R (fmul s s)) in *. set (y' := f64R y) in *.
  assert (XY : 0 <= x * y') by (apply Rmult_le_pos; lra). destruct (fmul_ok (fmul s s) y (2 ^ 30) FA FY ltac:(lia)) as [EV FV]; [fold x y'; rewrite Rabs_pos_eq by lra; apply Rle_trans with (1048576 * 1024); [apply Rmult_le_compat; lra|change (2 ^ 30)%Z with 1073741824%Z; lra]|]. fold v x y' in EV. split; [exact FV|]. split; [rewrite EV, <- rnd_0; apply rnd_mono; exact XY|].
  pose proof (rnd_abs (x * y')) as RV. rewrite <- EV, (Rabs_pos_eq (x * y')) in RV by lra. pose proof (tiny_u53 (-1065) ltac:(lia)) as T. assert (T1 : bpow radix2 (-1065) = 1024 * bpow radix2 (-1075)) by (change 1024 with (bpow radix2 10); rewrite <- bpow_plus; reflexivity). pose proof (bpow_gt_0 radix2 (-1075)) as T0. assert (UM : u53 * bpow radix2 (-100) <= u53 * M) by (apply Rmult_le_compat_l; lra).
  assert (T2 : 4096 * bpow radix2 (-1075) <= u53 * M / 100). { assert (4096 * bpow radix2 (-1075) <= u53 * bpow radix2 (-100) / 100); [|lra]. pose proof (tiny_u53 (-1000) ltac:(lia)) as T'. assert (409600 * bpow radix2 (-1075) <= bpow radix2 (-1000)); [|lra]. apply Rle_trans with (bpow radix2 20 * bpow radix2 (-1075)); [apply Rmult_le_compat_r; [lra|]; change (bpow radix2 20) with 1048576; lra|]. rewrite <- bpow_plus. apply bpow_le. lia. }
  apply Rabs_le_inv in RA, RV. set (tn := bpow radix2 (-1075)) in *. assert (DX : - (u53 * M + 1024 * tn) <= x * y' - a * y' <= u53 * M + 1024 * tn). { assert (G1 : 0 <= (u53 * a + tn - (x - a)) * y') by (apply Rmult_le_pos; lra). assert (G2 : 0 <= (u53 * a + tn + (x - a)) * y') by (apply Rmult_le_pos; lra). assert (G3 : 0 <= u53 * (M - a * y')) by (apply Rmult_le_pos; lra). assert (G4 : 0 <= tn * (1024 - y')) by (apply Rmult_le_pos; lra). lra. }
  assert (UXY : u53 * (x * y') <= u53 * (M + u53 * M + 1024 * tn)) by (apply Rmult_le_compat_l; lra). assert (M0 : 0 < u53 * M) by (apply Rmult_lt_0_compat; lra). assert (UU : 0 <= (1 / 100 - u53) * (u53 * M)) by (apply Rmult_le_pos; lra). assert (UT : 0 <= (1 - u53) * tn) by (apply Rmult_le_pos; lra). apply Rabs_le. lra.
Qed.

(** Between two expiries of the FX surface the volatility is a finite non-negative number, never
    NaN, and its total variance is within 2^-48 of the larger of the two of the interpolation
    of the total variances in exact arithmetic. *)
Theorem C99_surface sl sh yl yh y M : finite sl -> finite sh -> finite yl -> finite yh -> finite y -> 0 <= f64R sl <= 1024 -> 0 <= f64R sh <= 1024 -> / 1048576 <= f64R yl -> f64R yl < f64R yh <= 1024 -> f64R yl <= f64R y <= f64R yh ->
  sized M -> M <= IZR (2 ^ 30) -> f64R sl * f64R sl * f64R yl <= M -> f64R sh * f64R sh * f64R yh <= M ->
  let v := between64 sl sh yl yh y in finite v /\ 0 <= f64R v /\
  Rabs (f64R v * f64R v * f64R y - (f64R sl * f64R sl * f64R yl + (f64R y - f64R yl) / (f64R yh - f64R yl) * (f64R sh * f64R sh * f64R yh - f64R sl * f64R sl * f64R yl))) <= 32 * u53 * M.
Proof.
  intros FSL FSH FYL FYH FY BSL BSH BYL BYH BY Z BM ML MH v. pose proof u53_pos as U. pose proof u53_eq as UE. destruct (total_ok sl yl M FSL FYL BSL ltac:(lra) ML Z) as (FL & PL & AL). destruct (total_ok sh yh M FSH FYH BSH ltac:(lra) MH Z) as (FH & PH & AH). pose proof Z as [Z1 Z2]. assert (BP : 0 < bpow radix2 (-100)) by apply bpow_gt_0. assert (M0 : 0 < u53 * M) by (apply Rmult_lt_0_compat; lra).
  assert (L1 : 0 <= f64R sl * f64R sl * f64R yl) by (apply Rmult_le_pos; [apply Rmult_le_pos|]; lra). assert (H1 : 0 <= f64R sh * f64R sh * f64R yh) by (apply Rmult_le_pos; [apply Rmult_le_pos|]; lra).
  assert (P30 : IZR (2 ^ 30) = 1073741824) by reflexivity. assert (P50 : IZR (2 ^ 50) = 1125899906842624) by reflexivity. assert (SM : 0 <= (1 / 100 - u53) * M) by (apply Rmult_le_pos; lra). assert (UU : 0 <= (1 / 100 - u53) * (u53 * M)) by (apply Rmult_le_pos; lra).
  destruct (weight_ok yl yh y FYL FYH FY) as (FW & W01 & WE); [apply Rabs_le; lra|apply Rabs_le; lra|lra|lra|]. set (M' := M + 3 * u53 * M). assert (Z' : sized M') by (split; unfold M'; [lra|apply Rle_trans with (IZR (2 ^ 50)); [lra|apply IZR_le; lia]]). apply Rabs_le_inv in AL, AH.
  unfold v, between64. cbv zeta. set (vl := fmul (fmul sl sl) yl) in *. set (vh := fmul (fmul sh sh) yh) in *. set (w := fdiv (fsub y yl) (fsub yh yl)) in *. destruct (step_ok vl vh w M' FL FH FW Z' ltac:(unfold M'; lra) ltac:(unfold M'; lra) ltac:(unfold M'; lra) W01) as (FT & BT & _ & AT). specialize (AT _ WE). set (t := fadd vl (fmul w (fsub vh vl))) in *.
  set (q := (f64R y - f64R yl) / (f64R yh - f64R yl)) in *. assert (Q01 : 0 <= q <= 1). { split; [apply quotient_pos; lra|]. apply Rmult_le_reg_r with (f64R yh - f64R yl); [lra|]. unfold q, Rdiv. rewrite Rmult_assoc, Rinv_l by lra. lra. }
  set (a := f64R sl * f64R sl * f64R yl) in *. set (b := f64R sh * f64R sh * f64R yh) in *. clearbody a b q w vl vh. apply Rabs_le_inv in AT.
  assert (G1 : 0 <= (3 * u53 * M - (f64R vl - a)) * (1 - q)) by (apply Rmult_le_pos; lra). assert (G2 : 0 <= (3 * u53 * M + (f64R vl - a)) * (1 - q)) by (apply Rmult_le_pos; lra). assert (G3 : 0 <= (3 * u53 * M - (f64R vh - b)) * q) by (apply Rmult_le_pos; lra). assert (G4 : 0 <= (3 * u53 * M + (f64R vh - b)) * q) by (apply Rmult_le_pos; lra).
  assert (UM' : u53 * M' <= u53 * M * (103 / 100)) by (unfold M'; lra). assert (TM : f64R t <= 2 * M) by (unfold M' in *; lra).
  assert (DT : - (16 * (u53 * M)) <= f64R t - (a + q * (b - a)) <= 16 * (u53 * M)) by lra. clear G1 G2 G3 G4 AT AL AH.
  assert (Y0 : 0 < f64R y) by lra. assert (TY : 0 <= f64R t / f64R y) by (apply quotient_pos; lra). assert (TYB : f64R t / f64R y <= IZR (2 ^ 52)). { apply Rmult_le_reg_r with (f64R y); [exact Y0|]. unfold Rdiv. rewrite Rmult_assoc, Rinv_l by lra. change (IZR (2 ^ 52)) with 4503599627370496. lra. }
  destruct (fdiv_ok t y (2 ^ 52) FT ltac:(lra) ltac:(lia)) as [ED FD]; [rewrite Rabs_pos_eq by lra; exact TYB|]. pose proof (rnd_abs (f64R t / f64R y)) as RD. rewrite <- ED, (Rabs_pos_eq (f64R t / f64R y)) in RD by lra. assert (PD : 0 <= f64R (fdiv t y)) by (rewrite ED, <- rnd_0; apply rnd_mono; exact TY). destruct (sqrt_close (fdiv t y) FD PD) as (FV & PV & SV). split; [exact FV|]. split; [exact PV|].
  set (d := f64R (fdiv t y)) in *. set (r := f64R (fsqrt (fdiv t y))) in *. clearbody r d. apply Rabs_le_inv in RD. set (tn := bpow radix2 (-1075)) in *.
  assert (T2 : 1024 * tn <= u53 * M / 100). { assert (1024 * tn <= u53 * bpow radix2 (-100) / 100); [|assert (u53 * bpow radix2 (-100) <= u53 * M) by (apply Rmult_le_compat_l; lra); lra]. pose proof (tiny_u53 (-1000) ltac:(lia)) as T'. assert (102400 * tn <= bpow radix2 (-1000)); [|lra]. unfold tn. apply Rle_trans with (bpow radix2 20 * bpow radix2 (-1075)); [apply Rmult_le_compat_r; [apply bpow_ge_0|]; change (bpow radix2 20) with 1048576; lra|]. rewrite <- bpow_plus. apply bpow_le. lia. }
  assert (TP : 0 < tn) by apply bpow_gt_0. assert (EQ : f64R t / f64R y * f64R y = f64R t) by (field; lra). set (x := f64R t / f64R y) in *. clearbody x tn.
  assert (D1 : 0 <= (u53 * x + tn - (d - x)) * f64R y) by (apply Rmult_le_pos; lra). assert (D2 : 0 <= (u53 * x + tn + (d - x)) * f64R y) by (apply Rmult_le_pos; lra). assert (D3 : 0 <= tn * (1024 - f64R y)) by (apply Rmult_le_pos; lra). assert (DE : - (u53 * f64R t + 1024 * tn) <= d * f64R y - f64R t <= u53 * f64R t + 1024 * tn). { rewrite <- EQ. lra. }
  assert (S1 : 0 <= (r * r - (1 - 4 * u53) * d) * f64R y) by (apply Rmult_le_pos; lra). assert (S2 : 0 <= ((1 + 4 * u53) * d - r * r) * f64R y) by (apply Rmult_le_pos; lra). assert (UT : u53 * f64R t <= u53 * (M' + 6 * u53 * M')) by (apply Rmult_le_compat_l; lra). assert (UT2 : u53 * (M' + 6 * u53 * M') <= u53 * M * (11 / 10)). { assert (M' + 6 * u53 * M' <= M * (11 / 10)); [|assert (u53 * (M' + 6 * u53 * M') <= u53 * (M * (11 / 10))) by (apply Rmult_le_compat_l; lra); lra]. assert (0 <= (1 / 1000 - u53) * M') by (apply Rmult_le_pos; unfold M'; lra). assert (0 <= (1 / 1000 - u53) * M) by (apply Rmult_le_pos; lra). unfold M' in *. lra. }
  assert (UDY : u53 * (d * f64R y) <= u53 * M * (13 / 10)). { assert (d * f64R y <= M * (13 / 10)); [|assert (u53 * (d * f64R y) <= u53 * (M * (13 / 10))) by (apply Rmult_le_compat_l; lra); lra]. assert (f64R t <= M * (11 / 10)). { assert (0 <= (1 / 1000 - u53) * M') by (apply Rmult_le_pos; unfold M'; lra). assert (0 <= (1 / 1000 - u53) * M) by (apply Rmult_le_pos; lra). unfold M' in *. lra. } lra. }
  assert (DY0 : 0 <= u53 * (d * f64R y)) by (apply Rmult_le_pos; [lra|apply Rmult_le_pos; lra]). apply Rabs_le. lra.
Qed.
Print Assumptions C99_surface.

(** 0.17 and 0.43, and the strikes 0.01, 0.02 and 0.03. *)
Definition v17 : f64 := f64_lit 6124895493223875 (-55).
Definition v43 : f64 := f64_lit 7746191359077253 (-54).
Definition k1 : f64 := f64_lit 5764607523034235 (-59).
Definition k2 : f64 := f64_lit 5764607523034235 (-58).
Definition k3 : f64 := f64_lit 1080863910568919 (-55).
(** At a quoted strike the smile need not give the quote back: with 17% at 1% and 43% at 2%
    and at 3%, the answer at 2% is above 43%, above every quote.  The same holds of the
    local variance on its grid. *)
Theorem C99_quoted_refuted : exists nodes k q, In (k, q) nodes /\ Forall (fun p => finite (fst p) /\ finite (snd p)) nodes /\ forallb (fun p => Bleb (snd p) q) nodes = true /\
  match interpolate_nodes64 nodes k with Ok v => Bltb q v | _ => false end = true /\
  match local_variance64 [k1; k2; k3] (map fst nodes) (repeat (map snd nodes) 3) k1 k with Ok v => Bltb q v | _ => false end = true.
Proof.
  exists [(k1, v17); (k2, v43); (k3, v43)], k2, v43. split; [right; left; reflexivity|]. split; [repeat constructor; vm_compute; reflexivity|]. split; [vm_compute; reflexivity|]. split; vm_compute; reflexivity.
Qed.
Print Assumptions C99_quoted_refuted.

Example C99_witness : grid64 [k1; k2; k3] /\
  match bracket64 [k1; k2; k3] (f64_lit 6917529027641083 (-58)) with Ok (i, j, w) => Nat.eqb i 1 && Nat.eqb j 2 && Bltb (f64_lit 1 (-3)) w && Bltb w half64 | _ => false end = true /\
  match local_variance64 [k1; k2; k3] [k1; k2; k3] (repeat [v17; v43; v43] 3) B754_nan B754_nan with Ok v => Bleb v v43 && Bleb v43 v | _ => false end = true /\
  (let v := points64 (0%Z, v17) (30%Z, v43) 10 in Bltb v17 v && Bltb v v43) = true /\
  (let v := between64 v17 v43 (f64_of_Z 1) (f64_of_Z 2) (f64_lit 3 (-1)) in Bltb v17 v && Bltb v v43) = true.
Proof.
  split; [|repeat split; vm_compute; reflexivity]. destruct (lit_value 5764607523034235 (-59)) as [E1 F1]; [lia|lia|cbn; lia|]. destruct (lit_value 5764607523034235 (-58)) as [E2 F2]; [lia|lia|cbn; lia|]. destruct (lit_value 1080863910568919 (-55)) as [E3 F3]; [lia|lia|cbn; lia|]. fold k1 in E1, F1. fold k2 in E2, F2. fold k3 in E3, F3. cbn [Z.opp Z.pow Z.pow_pos Pos.iter Z.mul Pos.mul] in E1, E2, E3.
  assert (P : 1 <= IZR (2 ^ 50)) by (apply IZR_le; lia). split.
  - constructor; [split; [exact F1|apply Rabs_le; lra]|]. constructor; [split; [exact F2|apply Rabs_le; lra]|]. constructor; [split; [exact F3|apply Rabs_le; lra]|]. constructor.
  - constructor; [constructor; [constructor; [constructor|constructor]|constructor; [lra|constructor]]|constructor; [lra|constructor; [lra|constructor]]].
Qed.
Print Assumptions C99_witness.

(** The hypotheses of the other theorems are met by the same numbers. *)
Lemma v_ok : (finite v17 /\ f64R v17 = 6124895493223875 / 36028797018963968) /\ (finite v43 /\ f64R v43 = 7746191359077253 / 18014398509481984).
Proof. destruct (lit_value 6124895493223875 (-55)) as [E1 F1]; [lia|lia|cbn; lia|]. destruct (lit_value 7746191359077253 (-54)) as [E2 F2]; [lia|lia|cbn; lia|]. split; split; assumption. Qed.
Lemma k_ok : (finite k1 /\ f64R k1 = 5764607523034235 / 576460752303423488) /\ (finite k2 /\ f64R k2 = 5764607523034235 / 288230376151711744) /\ (finite k3 /\ f64R k3 = 1080863910568919 / 36028797018963968).
Proof. destruct (lit_value 5764607523034235 (-59)) as [E1 F1]; [lia|lia|cbn; lia|]. destruct (lit_value 5764607523034235 (-58)) as [E2 F2]; [lia|lia|cbn; lia|]. destruct (lit_value 1080863910568919 (-55)) as [E3 F3]; [lia|lia|cbn; lia|]. repeat split; assumption. Qed.
Example C99_witness_hypotheses :
  (exists v, local_variance64 [k1; k2; k3] [k1; k2; k3] (repeat [v17; v43; v43] 3) k2 k3 = Ok v /\ finite v) /\
  (exists v, interpolate_nodes64 [(k1, v17); (k2, v43); (k3, v43)] k2 = Ok v /\ Rabs (f64R v) <= 1 + 8 * u53) /\
  finite (points64 (0%Z, v17) (30%Z, v43) 10) /\ finite (between64 v17 v43 (f64_of_Z 1) (f64_of_Z 2) (f64_of_Z 2)).
Proof.
  destruct v_ok as [[F17 E17] [F43 E43]]. destruct k_ok as [[FK1 EK1] [[FK2 EK2] [FK3 EK3]]]. destruct C99_witness as [G _]. assert (P : 1 <= IZR (2 ^ 49)) by (apply IZR_le; lia). assert (P50 : 1 <= IZR (2 ^ 50)) by (apply IZR_le; lia). assert (Z1 : sized 1) by (split; [change 1 with (bpow radix2 0); apply bpow_le; lia|apply IZR_le; lia]). assert (B900 : bpow radix2 (-900) <= / 4) by (change (/ 4) with (bpow radix2 (-2)); apply bpow_le; lia). split; [|split; [|split]].
  - destruct (C99_local_variance [k1; k2; k3] [k1; k2; k3] (repeat [v17; v43; v43] 3) 1 k2 k3 G G) as (v & E & F & _); [discriminate|discriminate|reflexivity| |exact Z1|exact P|exists v; split; assumption]. cbn [repeat]. assert (R : length [v17; v43; v43] = length [k1; k2; k3] /\ Forall (fun v => finite v /\ 0 <= f64R v <= 1) [v17; v43; v43]). { split; [reflexivity|]. constructor; [split; [exact F17|lra]|]. constructor; [split; [exact F43|lra]|]. constructor; [split; [exact F43|lra]|]. constructor. } constructor; [exact R|]. constructor; [exact R|]. constructor; [exact R|]. constructor.
  - destruct (C99_smile [(k1, v17); (k2, v43); (k3, v43)] k2 1) as (v & E & _ & B & _); [discriminate| | |exact Z1|exact P50|exists v; split; [exact E|lra]].
    + constructor; [split; [split; [exact FK1|apply Rabs_le; cbn [fst]; lra]|split; [exact F17|cbn [snd]; apply Rabs_le; lra]]|]. constructor; [split; [split; [exact FK2|apply Rabs_le; cbn [fst]; lra]|split; [exact F43|cbn [snd]; apply Rabs_le; lra]]|]. constructor; [split; [split; [exact FK3|apply Rabs_le; cbn [fst]; lra]|split; [exact F43|cbn [snd]; apply Rabs_le; lra]]|]. constructor.
    + constructor; [constructor; [constructor; [constructor|constructor]|constructor; [cbn [fst]; lra|constructor]]|constructor; [cbn [fst]; lra|constructor; [cbn [fst]; lra|constructor]]].
  - apply (C99_points (0%Z, v17) (30%Z, v43) 10 1); cbn [fst snd]; [lia|lia|exact F17|exact F43|exact Z1|exact P50|apply Rabs_le; lra|apply Rabs_le; lra|right; rewrite Rabs_pos_eq; lra].
  - destruct (f64_of_Z_ok 1 ltac:(lia)) as [E1 F1]. destruct (f64_of_Z_ok 2 ltac:(lia)) as [E2 F2]. apply (C99_surface v17 v43 (f64_of_Z 1) (f64_of_Z 2) (f64_of_Z 2) 1); try assumption; rewrite ?E1, ?E2, ?E17, ?E43; lra.
Qed.
Print Assumptions C99_witness_hypotheses.
