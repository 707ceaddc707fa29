(** C77: the Dupire local-volatility surface. *)
From Coq Require Import Bool List Arith Reals Lra Lia.
Import ListNotations.
From Coquelicot Require Import Coquelicot.
From Verif Require Import Outcome Normal NormalFacts BlackScholes BlackFacts Dupire DupireFacts.
Open Scope R_scope.

(** A market grid the surface can be built from. *)
Definition strictly_increasing (l : list R) : Prop := forall a b, (a < b)%nat -> (b < length l)%nat -> nth a l 0 < nth b l 0.
Definition valid (ts ks : list R) (vols : list (list R)) (spot : R) : Prop :=
  (3 <= length ts)%nat /\ (3 <= length ks)%nat /\ length vols = length ts /\ (forall row, In row vols -> length row = length ks) /\
  strictly_increasing ts /\ strictly_increasing ks /\ 0 < spot.

Lemma strictly_increasing_iff l : strictly_increasing l <-> increasing l = true.
Proof.
  split.
  - intros H. apply increasing_step. intros m M. apply H; lia.
  - intros H a b A B. apply increasing_lt; assumption.
Qed.

Lemma build_ok ts ks vols spot rd rf : valid ts ks vols spot ->
  build ts ks vols spot rd rf = Ok {| expiries := ts; strikes := ks;
    variance := map (fun i => map (node_variance (call_prices ts ks vols spot rd rf) ts ks vols rd rf i) (seq 0 (length ks))) (seq 0 (length ts)) |}.
Proof.
  intros (A & B & C & D & E & F & G). unfold build.
  rewrite (proj2 (Nat.leb_le _ _) A), (proj2 (Nat.leb_le _ _) B), (proj2 (Nat.eqb_eq _ _) C). cbn [negb].
  replace (forallb (fun row => (length row =? length ks)%nat) vols) with true.
  - cbn [negb]. rewrite strictly_increasing_iff in E, F. rewrite E, F, (proj2 (Rltb_true _ _) G). reflexivity.
  - symmetry. apply forallb_forall. intros r R. apply Nat.eqb_eq, D, R.
Qed.

Lemma build_inv ts ks vols spot rd rf : (valid ts ks vols spot) \/ build ts ks vols spot rd rf = Panic PAssert.
Proof.
  unfold build. destruct (Nat.leb_spec 3 (length ts)) as [A|]; [|right; reflexivity]. cbn [negb].
  destruct (Nat.leb_spec 3 (length ks)) as [B|]; [|right; reflexivity]. cbn [negb].
  destruct (Nat.eqb_spec (length vols) (length ts)) as [C|]; [|right; reflexivity]. cbn [negb].
  destruct (forallb _ vols) eqn:D; [|right; reflexivity]. cbn [negb].
  destruct (increasing ts) eqn:E; [|right; reflexivity]. destruct (increasing ks) eqn:F; [|right; reflexivity]. cbn [negb].
  destruct (Rltb 0 spot) eqn:G; [|right; reflexivity]. left.
  rewrite <- strictly_increasing_iff in E, F. rewrite forallb_forall in D. repeat split; try assumption.
  - intros r R. apply Nat.eqb_eq, D, R.
  - apply Rltb_true, G.
Qed.

Lemma node_at ts ks vols spot rd rf g i j : build ts ks vols spot rd rf = Ok g -> (i < length ts)%nat -> (j < length ks)%nat ->
  variance_at g i j = Ok (node_variance (call_prices ts ks vols spot rd rf) ts ks vols rd rf i j).
Proof.
  intros B I J. destruct (build_inv ts ks vols spot rd rf) as [V|P]; [|congruence]. rewrite (build_ok _ _ _ _ rd rf V) in B. injection B as <-.
  unfold variance_at. cbn [variance]. rewrite nth_error_map, nth_error_nth' with (d := 0%nat) by (rewrite seq_length; exact I).
  rewrite seq_nth by exact I. cbn [option_map Nat.add]. rewrite nth_error_map, nth_error_nth' with (d := 0%nat) by (rewrite seq_length; exact J).
  rewrite seq_nth by exact J. reflexivity.
Qed.

Lemma clamp_bounds x : 1 / 10000 <= clamp x (1 / 100 * (1 / 100)) (2 * 2) <= 4.
Proof. unfold clamp. destruct (Rlt_dec x _); [lra|]. destruct (Rlt_dec _ x); lra. Qed.

(** A surface is built exactly from a valid grid; its axes are the grid's, it has a value at every
    node, and every value is between the squares of 1% and 200%. *)
Theorem C77_build : forall ts ks vols spot rd rf,
  (valid ts ks vols spot <-> exists g, build ts ks vols spot rd rf = Ok g) /\
  (~ valid ts ks vols spot -> build ts ks vols spot rd rf = Panic PAssert) /\
  (forall g, build ts ks vols spot rd rf = Ok g ->
     expiries g = ts /\ strikes g = ks /\
     t_range g = Ok (nth 0 ts 0, nth (length ts - 1) ts 0) /\ k_range g = Ok (nth 0 ks 0, nth (length ks - 1) ks 0) /\
     (forall i j, (i < length ts)%nat -> (j < length ks)%nat -> exists v, variance_at g i j = Ok v /\ 1 / 10000 <= v <= 4)).
Proof.
  intros ts ks vols spot rd rf. split; [|split].
  - split.
    + intros V. eexists. apply build_ok, V.
    + intros (g & E). destruct (build_inv ts ks vols spot rd rf) as [V|P]; [exact V|congruence].
  - intros NV. destruct (build_inv ts ks vols spot rd rf) as [V|P]; [contradiction|exact P].
  - intros g E. destruct (build_inv ts ks vols spot rd rf) as [V|P]; [|congruence].
    assert (E' := E). rewrite (build_ok _ _ _ _ rd rf V) in E'. destruct V as (A & B & _).
    assert (R : forall l : list R, (3 <= length l)%nat -> range_of l = Ok (nth 0 l 0, nth (length l - 1) l 0)).
    { intros l L. unfold range_of. destruct l as [|a l]; [cbn in L; lia|]. rewrite last_nth by discriminate. reflexivity. }
    split; [injection E' as <-; reflexivity|]. split; [injection E' as <-; reflexivity|].
    split; [injection E' as <-; apply R, A|]. split; [injection E' as <-; apply R, B|].
    intros i j I J. eexists. split; [apply (node_at _ _ _ _ _ _ _ _ _ E); assumption|apply clamp_bounds].
Qed.
Print Assumptions C77_build.

(** Dupire's equation: the flat-volatility Black price, as a function of expiry and strike, has
    derivatives with which the formula of the module gives back the square of the volatility. *)
Theorem C77_equation : forall spot rd rf sigma T K, 0 < spot -> 0 < sigma -> 0 < T -> 0 < K ->
  let C T K := bs_call_forward (spot * exp ((rd - rf) * T)) K sigma T (exp (- rd * T)) in
  exists (CT : R) (CK CKK : R -> R),
    is_derive (fun T => C T K) T CT /\ (forall K, 0 < K -> is_derive (fun K => C T K) K (CK K)) /\ is_derive CK K (CKK K) /\
    0 < CKK K /\
    2 * (CT + (rd - rf) * K * CK K + rf * C T K) / (K ^ 2 * CKK K) = sigma ^ 2.
Proof.
  intros spot rd rf sigma T K HS Hs HT HK C. exists (px_T spot rd rf sigma T K), (px_K spot rd rf sigma T), (px_KK spot rd rf sigma T).
  split; [apply derive_px_T; assumption|]. split; [intros; apply derive_px_K; assumption|]. split; [apply derive_px_KK; assumption|].
  pose proof (px_KK_pos spot rd rf sigma Hs T K HT HK) as P. split; [exact P|].
  pose proof (dupire_equation spot rd rf sigma Hs T K HT HK) as E. unfold px in E. fold (C T K) in E. rewrite E. field. split; lra.
Qed.
Print Assumptions C77_equation.

(** The differences are exact on what they should be exact on, at every node of every grid: the first
    differences on affine functions, the second difference on quadratic ones. *)
Theorem C77_exact : forall ks (a b c : R) j, (3 <= length ks)%nat -> strictly_increasing ks -> (j < length ks)%nat ->
  fd_k (map (fun k => a + b * k) ks) ks j = b /\
  fd_kk (map (fun k => a + b * k + c * k ^ 2) ks) ks j = 2 * c /\
  (forall rows n, (n < length (nth 0 rows []))%nat -> (forall i, nth n (nth i rows []) 0 = a + b * nth i ks 0) -> fd_t rows ks j n = b).
Proof.
  intros ks a b c j N SI J. pose proof SI as I. rewrite strictly_increasing_iff in I.
  assert (MS : exists d, mesh ks d).
  { exists (1 + (nth (length ks - 1) ks 0 - nth 0 ks 0)). intros m M.
    assert (nth 0 ks 0 <= nth m ks 0) by (destruct m; [lra|apply Rlt_le, SI; lia]).
    assert (nth (S m) ks 0 <= nth (length ks - 1) ks 0) by (destruct (Nat.eq_dec (S m) (length ks - 1)) as [->|]; [lra|apply Rlt_le, SI; lia]). lra. }
  destruct MS as (d & MS).
  assert (MN : forall (f : R -> R) m, (m < length ks)%nat -> nth m (map f ks) 0 = f (nth m ks 0)).
  { intros f m M. rewrite (nth_indep _ 0 (f 0)) by (rewrite map_length; exact M). apply map_nth. }
  split; [|split].
  - destruct (fd_k_mvt (fun k => a + b * k) (fun _ => b) ks (map (fun k => a + b * k) ks) j d) as (x & _ & E); try assumption.
    + intros m M. rewrite MN by exact M. reflexivity.
    + intros x _. auto_derive; [exact Logic.I|]. ring.
  - destruct (fd_kk_mvt (fun k => a + b * k + c * k ^ 2) (fun k => b + 2 * c * k) (fun _ => 2 * c) ks (map (fun k => a + b * k + c * k ^ 2) ks) j d) as (x & _ & E); try assumption.
    + intros m M. rewrite MN by exact M. reflexivity.
    + intros x _. auto_derive; [exact Logic.I|]. ring.
    + intros x _. auto_derive; [exact Logic.I|]. ring.
  - intros rows n _ H. destruct (fd_t_k rows ks j n) as [E|[E|E]]; [|lia|lia]. rewrite E.
    destruct (fd_k_mvt (fun k => a + b * k) (fun _ => b) ks (map (fun m => cell rows m n) (seq 0 (length ks))) j d) as (x & _ & E'); try assumption.
    + intros m M. rewrite (nth_indep _ 0 (cell rows 0 n)) by (rewrite map_length, seq_length; exact M).
      rewrite (map_nth (fun m => cell rows m n)), seq_nth by exact M. apply H.
    + intros x _. auto_derive; [exact Logic.I|]. ring.
Qed.
Print Assumptions C77_exact.

(** Consistency: from the Black prices of a flat volatility, the value at a node tends to the square of
    that volatility (kept between the bounds) as the grid around it is refined, whatever the grid, and
    at the edges of the grid too. *)
Theorem C77_flat : forall spot rd rf sigma T K eps, 0 < spot -> 0 < sigma -> 0 < T -> 0 < K -> 0 < eps ->
  exists delta, 0 < delta /\ forall ts ks vols g i j,
    build ts ks vols spot rd rf = Ok g -> (forall row v, In row vols -> In v row -> v = sigma) ->
    nth_error ts i = Some T -> nth_error ks j = Some K ->
    (forall m, (S m < length ts)%nat -> nth (S m) ts 0 - nth m ts 0 < delta) ->
    (forall m, (S m < length ks)%nat -> nth (S m) ks 0 - nth m ks 0 < delta) ->
    exists v, variance_at g i j = Ok v /\ Rabs (v - Rmax (1 / 10000) (Rmin 4 (sigma ^ 2))) < eps.
Proof.
  intros spot rd rf sigma T K eps HS Hs HT HK HE.
  set (CT := px_T spot rd rf sigma T K). set (CK := px_K spot rd rf sigma T K). set (CKK := px_KK spot rd rf sigma T K).
  set (n := CT + (rd - rf) * K * CK + rf * px spot rd rf sigma T K). set (d := K * K * CKK).
  assert (HD : 0 < d) by (unfold d; apply Rmult_lt_0_compat; [apply Rmult_lt_0_compat; exact HK|apply px_KK_pos; assumption]).
  assert (Q : 2 * n / d = sigma * sigma).
  { unfold n, CT, CK. rewrite (dupire_equation spot rd rf sigma Hs T K HT HK). unfold d, CKK. field. split; [apply Rgt_not_eq, px_KK_pos; assumption|lra]. }
  destruct (quotient_near n d eps HD HE) as (eta & Heta & QN).
  set (M := Rabs ((rd - rf) * K) + K * K + 1).
  assert (HM : 1 <= M) by (unfold M; pose proof (Rabs_pos ((rd - rf) * K)); pose proof (Rmult_lt_0_compat K K HK HK); lra).
  assert (HE3 : 0 < eta / (2 * M)) by (apply Rdiv_lt_0_compat; lra).
  destruct (near (fun T => px_T spot rd rf sigma T K) T (eta / (2 * M)) (continuous_px_T spot rd rf sigma HS Hs T K HT HK) HE3) as (e1 & He1 & N1).
  destruct (near (fun K => px_K spot rd rf sigma T K) K (eta / (2 * M)) (continuous_px_K spot rd rf sigma HS Hs T K HT HK) HE3) as (e2 & He2 & N2).
  destruct (near (fun K => px_KK spot rd rf sigma T K) K (eta / (2 * M)) (continuous_px_KK spot rd rf sigma HS Hs T K HT HK) HE3) as (e3 & He3 & N3).
  set (delta := Rmin (Rmin (T / 2) (K / 2)) (Rmin (e1 / 2) (Rmin (e2 / 2) (e3 / 2)))).
  assert (L : delta <= T / 2 /\ delta <= K / 2 /\ delta <= e1 / 2 /\ delta <= e2 / 2 /\ delta <= e3 / 2).
  { unfold delta. repeat split.
    - eapply Rle_trans; [apply Rmin_l|apply Rmin_l].
    - eapply Rle_trans; [apply Rmin_l|apply Rmin_r].
    - eapply Rle_trans; [apply Rmin_r|apply Rmin_l].
    - eapply Rle_trans; [apply Rmin_r|]. eapply Rle_trans; [apply Rmin_r|apply Rmin_l].
    - eapply Rle_trans; [apply Rmin_r|]. eapply Rle_trans; [apply Rmin_r|apply Rmin_r]. }
  assert (Hdelta : 0 < delta) by (unfold delta; repeat apply Rmin_pos; lra). clearbody delta.
  exists delta. split; [exact Hdelta|]. intros ts ks vols g i j B FV ET EK MT MK.
  destruct (build_inv ts ks vols spot rd rf) as [V|P]; [|congruence]. pose proof V as (LT & LK & LV & LR & IT & IK & _).
  assert (I : (i < length ts)%nat) by (apply nth_error_Some; congruence). assert (J : (j < length ks)%nat) by (apply nth_error_Some; congruence).
  assert (NT : nth i ts 0 = T) by (apply nth_error_nth, ET). assert (NK : nth j ks 0 = K) by (apply nth_error_nth, EK).
  assert (FC : forall a b, (a < length ts)%nat -> (b < length ks)%nat -> cell vols a b = sigma).
  { intros a b A' B'. unfold cell. assert (R : In (nth a vols []) vols) by (apply nth_In; lia). apply (FV (nth a vols [])); [exact R|apply nth_In; rewrite (LR _ R); exact B']. }
  eexists. split; [apply (node_at _ _ _ _ _ _ _ _ _ B I J)|].
  set (c := call_prices ts ks vols spot rd rf).
  assert (RowJ : forall a b, (a < length ts)%nat -> (b < length ks)%nat -> nth b (nth a c []) 0 = px spot rd rf sigma (nth a ts 0) (nth b ks 0)).
  { intros a b A' B'. unfold c, call_prices.
    set (h := fun i => map (fun j => bs_call_forward (spot * exp ((rd - rf) * nth i ts 0)) (nth j ks 0) (cell vols i j) (nth i ts 0) (exp (- rd * nth i ts 0))) (seq 0 (length ks))).
    rewrite (nth_indep _ [] (h 0%nat)) by (rewrite map_length, seq_length; exact A'). rewrite (map_nth h), seq_nth by exact A'. unfold h at 1. cbn [Nat.add].
    set (h' := fun j => bs_call_forward (spot * exp ((rd - rf) * nth a ts 0)) (nth j ks 0) (cell vols a j) (nth a ts 0) (exp (- rd * nth a ts 0))).
    rewrite (nth_indep _ 0 (h' 0%nat)) by (rewrite map_length, seq_length; exact B'). rewrite (map_nth h'), seq_nth by exact B'. unfold h'. cbn [Nat.add].
    rewrite FC by assumption. reflexivity. }
  assert (XT : exists x, Rabs (x - T) < 2 * delta /\ fd_t c ts i j = px_T spot rd rf sigma x K).
  { destruct (fd_t_k c ts i j) as [E|[E|E]]; [|lia|lia]. rewrite E, <- NT. apply (fd_k_mvt (fun T => px spot rd rf sigma T K) (fun T => px_T spot rd rf sigma T K)); try assumption.
    - apply strictly_increasing_iff, IT.
    - intros m Hm. rewrite (nth_indep _ 0 (cell c 0 j)) by (rewrite map_length, seq_length; exact Hm).
      rewrite (map_nth (fun m => cell c m j)), seq_nth by exact Hm. unfold cell. cbn [Nat.add]. rewrite RowJ by assumption. rewrite NK. reflexivity.
    - intros x X. rewrite NT in X. apply Rabs_def2 in X. apply derive_px_T; try assumption. lra. }
  assert (XK : exists x, Rabs (x - K) < 2 * delta /\ fd_k (nth i c []) ks j = px_K spot rd rf sigma T x).
  { rewrite <- NK. apply (fd_k_mvt (fun K => px spot rd rf sigma T K) (fun K => px_K spot rd rf sigma T K)); try assumption.
    - apply strictly_increasing_iff, IK.
    - intros m Hm. rewrite RowJ by assumption. rewrite NT. reflexivity.
    - intros x X. rewrite NK in X. apply Rabs_def2 in X. apply derive_px_K; try assumption. lra. }
  assert (XKK : exists x, Rabs (x - K) < 2 * delta /\ fd_kk (nth i c []) ks j = px_KK spot rd rf sigma T x).
  { rewrite <- NK. apply (fd_kk_mvt (fun K => px spot rd rf sigma T K) (fun K => px_K spot rd rf sigma T K) (fun K => px_KK spot rd rf sigma T K)); try assumption.
    - apply strictly_increasing_iff, IK.
    - intros m Hm. rewrite RowJ by assumption. rewrite NT. reflexivity.
    - intros x X. rewrite NK in X. apply Rabs_def2 in X. apply derive_px_K; try assumption. lra.
    - intros x X. rewrite NK in X. apply Rabs_def2 in X. apply derive_px_KK; try assumption. lra. }
  destruct XT as (x1 & X1 & E1). destruct XK as (x2 & X2 & E2). destruct XKK as (x3 & X3 & E3).
  assert (B1 : Rabs (fd_t c ts i j - CT) < eta / (2 * M)) by (rewrite E1; apply N1; lra).
  assert (B2 : Rabs (fd_k (nth i c []) ks j - CK) < eta / (2 * M)) by (rewrite E2; apply N2; lra).
  assert (B3 : Rabs (fd_kk (nth i c []) ks j - CKK) < eta / (2 * M)) by (rewrite E3; apply N3; lra).
  unfold node_variance. cbv zeta. rewrite NK. unfold cell at 1 2. rewrite RowJ by assumption. rewrite NT, NK, FC by assumption.
  replace (Rmax (1 / 10000) (Rmin 4 (sigma ^ 2))) with (clamp (sigma * sigma) (1 / 100 * (1 / 100)) (2 * 2)).
  2: { unfold clamp. replace (sigma ^ 2) with (sigma * sigma) by ring. destruct (Rlt_dec (sigma * sigma) _) as [H|H].
       - rewrite Rmin_right, Rmax_left by lra. lra.
       - destruct (Rlt_dec _ (sigma * sigma)) as [H'|H'].
         + rewrite Rmin_left, Rmax_right by lra. lra.
         + rewrite Rmin_right, Rmax_right by lra. lra. }
  apply clamp_near; [lra|]. destruct (_ && _).
  - rewrite <- Q. assert (K2 : 0 < K * K) by (apply Rmult_lt_0_compat; exact HK).
    set (e := eta / (2 * M)) in *. assert (Ee : 2 * M * e = eta) by (unfold e; field; lra).
    apply QN.
    + unfold n. set (u := fd_t c ts i j) in *. set (w := fd_k (nth i c []) ks j) in *.
      replace (u + (rd - rf) * K * w + rf * px spot rd rf sigma T K - (CT + (rd - rf) * K * CK + rf * px spot rd rf sigma T K)) with ((u - CT) + (rd - rf) * K * (w - CK)) by ring.
      eapply Rle_lt_trans; [apply Rabs_triang|]. rewrite Rabs_mult.
      assert (Rabs ((rd - rf) * K) * Rabs (w - CK) <= Rabs ((rd - rf) * K) * e) by (apply Rmult_le_compat_l; [apply Rabs_pos|lra]).
      assert (0 < K * K * e) by (apply Rmult_lt_0_compat; lra).
      assert (0 <= Rabs ((rd - rf) * K) * e) by (apply Rmult_le_pos; [apply Rabs_pos|lra]).
      rewrite <- Ee. unfold M. lra.
    + unfold d. set (w := fd_kk (nth i c []) ks j) in *. replace (K * K * w - K * K * CKK) with (K * K * (w - CKK)) by ring.
      rewrite Rabs_mult, (Rabs_right (K * K)) by lra.
      assert (K * K * Rabs (w - CKK) <= K * K * e) by (apply Rmult_le_compat_l; lra).
      assert (0 <= Rabs ((rd - rf) * K) * e) by (apply Rmult_le_pos; [apply Rabs_pos|lra]).
      assert (0 < K * K * e) by (apply Rmult_lt_0_compat; lra).
      rewrite <- Ee. unfold M. lra.
  - replace (sigma * sigma - sigma * sigma) with 0 by ring. rewrite Rabs_R0. exact HE.
Qed.
Print Assumptions C77_flat.

(** Interpolation: in every cell of the grid, its edges included, the surface is the bilinear
    interpolation of the four corners. *)
Theorem C77_bilinear : forall ts ks vols spot rd rf g i j t k, build ts ks vols spot rd rf = Ok g ->
  (S i < length ts)%nat -> (S j < length ks)%nat -> nth i ts 0 <= t <= nth (S i) ts 0 -> nth j ks 0 <= k <= nth (S j) ks 0 ->
  let a := (t - nth i ts 0) / (nth (S i) ts 0 - nth i ts 0) in
  let b := (k - nth j ks 0) / (nth (S j) ks 0 - nth j ks 0) in
  exists v00 v01 v10 v11,
    variance_at g i j = Ok v00 /\ variance_at g i (S j) = Ok v01 /\ variance_at g (S i) j = Ok v10 /\ variance_at g (S i) (S j) = Ok v11 /\
    local_variance g t k = Ok ((1 - a) * (1 - b) * v00 + (1 - a) * b * v01 + a * (1 - b) * v10 + a * b * v11).
Proof.
  intros ts ks vols spot rd rf g i j t k B I J T K a b.
  destruct (build_inv ts ks vols spot rd rf) as [V|P]; [|congruence]. pose proof V as (LT & LK & _ & _ & IT & IK & _).
  rewrite strictly_increasing_iff in IT, IK.
  set (v := node_variance (call_prices ts ks vols spot rd rf) ts ks vols rd rf).
  assert (VA : forall i j, (i < length ts)%nat -> (j < length ks)%nat -> variance_at g i j = Ok (v i j)) by (intros; apply (node_at _ _ _ _ _ _ _ _ _ B); assumption).
  exists (v i j), (v i (S j)), (v (S i) j), (v (S i) (S j)). rewrite !VA by lia. repeat (split; [reflexivity|]).
  assert (TS : ts <> []) by (intros ->; cbn in LT; lia). assert (KS : ks <> []) by (intros ->; cbn in LK; lia).
  destruct (bracket_total ts t TS IT) as (i0 & i1 & wt & BT & I0 & I1 & _). destruct (bracket_total ks k KS IK) as (j0 & j1 & wk & BK & J0 & J1 & _).
  unfold local_variance. replace (expiries g) with ts by (rewrite (build_ok _ _ _ _ rd rf V) in B; injection B as <-; reflexivity).
  replace (strikes g) with ks by (rewrite (build_ok _ _ _ _ rd rf V) in B; injection B as <-; reflexivity).
  rewrite BT. cbn [obind]. rewrite BK. cbn [obind]. rewrite !VA by assumption. cbn [obind]. f_equal.
  pose proof (fun v => bracket_value ts t i v i0 i1 wt IT I T BT) as ET. pose proof (fun v => bracket_value ks k j v j0 j1 wk IK J K BK) as EK.
  fold a in ET. fold b in EK. rewrite !EK. rewrite (ET (fun m => v m j + b * (v m (S j) - v m j))). ring.
Qed.
Print Assumptions C77_bilinear.

(** Outside the grid the point is moved to the nearest point of it, and at every point of the plane
    the surface has a value, between the squares of 1% and 200%. *)
Theorem C77_range : forall ts ks vols spot rd rf g t k, build ts ks vols spot rd rf = Ok g ->
  local_variance g t k = local_variance g (Rmin (Rmax t (nth 0 ts 0)) (nth (length ts - 1) ts 0)) (Rmin (Rmax k (nth 0 ks 0)) (nth (length ks - 1) ks 0)) /\
  exists v, local_variance g t k = Ok v /\ 1 / 10000 <= v <= 4 /\ exists s, local_vol g t k = Ok s /\ 1 / 100 <= s <= 2 /\ s ^ 2 = v.
Proof.
  intros ts ks vols spot rd rf g t k B.
  destruct (build_inv ts ks vols spot rd rf) as [V|P]; [|congruence]. pose proof V as (LT & LK & _ & _ & IT & IK & _).
  rewrite strictly_increasing_iff in IT, IK.
  assert (VA : forall i j, (i < length ts)%nat -> (j < length ks)%nat -> exists v, variance_at g i j = Ok v /\ 1 / 10000 <= v <= 4).
  { intros i j I J. eexists. split; [apply (node_at _ _ _ _ _ _ _ _ _ B); assumption|apply clamp_bounds]. }
  assert (TS : ts <> []) by (intros ->; cbn in LT; lia). assert (KS : ks <> []) by (intros ->; cbn in LK; lia).
  assert (ET : expiries g = ts) by (rewrite (build_ok _ _ _ _ rd rf V) in B; injection B as <-; reflexivity).
  assert (EK : strikes g = ks) by (rewrite (build_ok _ _ _ _ rd rf V) in B; injection B as <-; reflexivity).
  split.
  - unfold local_variance. rewrite ET, EK, <- (bracket_clamp ts t TS IT), <- (bracket_clamp ks k KS IK). reflexivity.
  - assert (E : exists v, local_variance g t k = Ok v /\ 1 / 10000 <= v <= 4).
    { destruct (bracket_total ts t TS IT) as (i0 & i1 & wt & BT & I0 & I1 & WT). destruct (bracket_total ks k KS IK) as (j0 & j1 & wk & BK & J0 & J1 & WK).
      destruct (VA i0 j0 I0 J0) as (v00 & E00 & H00). destruct (VA i0 j1 I0 J1) as (v01 & E01 & H01).
      destruct (VA i1 j0 I1 J0) as (v10 & E10 & H10). destruct (VA i1 j1 I1 J1) as (v11 & E11 & H11).
      unfold local_variance. rewrite ET, EK, BT. cbn [obind]. rewrite BK. cbn [obind]. rewrite E00, E01, E10, E11. cbn [obind].
      eexists. split; [reflexivity|].
      assert (Mix : forall x y w, 0 <= w <= 1 -> 1 / 10000 <= x <= 4 -> 1 / 10000 <= y <= 4 -> 1 / 10000 <= x + w * (y - x) <= 4).
      { intros x y w W X Y. replace (x + w * (y - x)) with ((1 - w) * x + w * y) by ring. nra. }
      apply Mix; [exact WT|apply Mix; assumption|apply Mix; assumption]. }
    destruct E as (v & E & H). exists v. split; [exact E|]. split; [exact H|]. exists (sqrt v).
    unfold local_vol. rewrite E. split; [reflexivity|].
    assert (S2 : sqrt v * sqrt v = v) by (apply sqrt_sqrt; lra). pose proof (sqrt_pos v) as P.
    split; [|cbn; lra]. split; nra.
Qed.
Print Assumptions C77_range.

(** Where the call prices at an inner node show butterfly arbitrage, the value is the square of the
    market volatility there, kept between the bounds. *)
Theorem C77_fallback : forall ts ks vols spot rd rf g i j, build ts ks vols spot rd rf = Ok g ->
  (i < length ts)%nat -> (0 < j)%nat -> (S j < length ks)%nat ->
  let price m := bs_call_forward (spot * exp ((rd - rf) * nth i ts 0)) (nth m ks 0) (nth m (nth i vols []) 0) (nth i ts 0) (exp (- rd * nth i ts 0)) in
  let lambda := (nth (j + 1) ks 0 - nth j ks 0) / (nth (j + 1) ks 0 - nth (j - 1) ks 0) in
  lambda * price (j - 1)%nat + (1 - lambda) * price (j + 1)%nat <= price j ->
  variance_at g i j = Ok (Rmax (1 / 10000) (Rmin 4 (nth j (nth i vols []) 0 ^ 2))).
Proof.
  intros ts ks vols spot rd rf g i j B I J0 J price lambda A.
  destruct (build_inv ts ks vols spot rd rf) as [V|P]; [|congruence]. pose proof V as (LT & LK & _ & _ & IT & IK & _).
  rewrite (node_at _ _ _ _ _ _ _ i j B I) by lia. f_equal.
  set (c := call_prices ts ks vols spot rd rf).
  assert (Row : forall m, (m < length ks)%nat -> nth m (nth i c []) 0 = price m).
  { intros m Hm. unfold c, call_prices.
    set (h := fun i => map (fun j => bs_call_forward (spot * exp ((rd - rf) * nth i ts 0)) (nth j ks 0) (cell vols i j) (nth i ts 0) (exp (- rd * nth i ts 0))) (seq 0 (length ks))).
    rewrite (nth_indep _ [] (h 0%nat)) by (rewrite map_length, seq_length; exact I). rewrite (map_nth h), seq_nth by exact I. unfold h at 1. cbn [Nat.add].
    rewrite (nth_indep _ 0 (price 0%nat)) by (rewrite map_length, seq_length; exact Hm). unfold cell.
    rewrite (map_nth price), seq_nth by exact Hm. reflexivity. }
  unfold node_variance. cbv zeta.
  assert (Z : fd_kk (nth i c []) ks j <= 0).
  { unfold fd_kk. cbv zeta. destruct (Nat.eqb_spec j 0); [lia|]. destruct (Nat.eqb_spec j (length ks - 1)); [lia|].
    rewrite !Row by lia. assert (H1 := IK (j - 1)%nat j ltac:(lia) ltac:(lia)). assert (H2 := IK j (j + 1)%nat ltac:(lia) ltac:(lia)).
    set (h1 := nth j ks 0 - nth (j - 1) ks 0) in *. set (h2 := nth (j + 1) ks 0 - nth j ks 0) in *.
    assert (P1 : 0 < h1) by (unfold h1; lra). assert (P2 : 0 < h2) by (unfold h2; lra).
    assert (Lm : lambda = h2 / (h1 + h2)).
    { unfold lambda, h1, h2. f_equal. ring. }
    rewrite Lm in A. clear Lm lambda.
    replace (2 * (price (j + 1)%nat * h1 - price j * (h1 + h2) + price (j - 1)%nat * h2) / (h1 * h2 * (h1 + h2)))
      with ((h2 / (h1 + h2) * price (j - 1)%nat + (1 - h2 / (h1 + h2)) * price (j + 1)%nat - price j) * (2 / (h1 * h2))) by (field; lra).
    assert (0 < 2 / (h1 * h2)) by (apply Rdiv_lt_0_compat; [lra|apply Rmult_lt_0_compat; assumption]). nra. }
  assert (F : Rltb (/ 10 ^ 8) (nth j ks 0 * nth j ks 0 * fd_kk (nth i c []) ks j) = false).
  { apply Rltb_false. assert (0 <= nth j ks 0 * nth j ks 0) by apply Rle_0_sqr.
    assert (0 < / 10 ^ 8) by (apply Rinv_0_lt_compat, pow_lt; lra). nra. }
  rewrite F. cbn [andb]. unfold clamp, cell. set (s := nth j (nth i vols []) 0). replace (s ^ 2) with (s * s) by ring.
  destruct (Rlt_dec (s * s) _) as [H|H].
  - rewrite Rmin_right, Rmax_left by lra. lra.
  - destruct (Rlt_dec _ (s * s)) as [H'|H'].
    + rewrite Rmin_left, Rmax_right by lra. lra.
    + rewrite Rmin_right, Rmax_right by lra. lra.
Qed.
Print Assumptions C77_fallback.

(** The documentation says (lines 32-36) that a denominator that is not positive is raised to a small
    positive floor.  It is not: here the numerator is positive and the denominator is zero, and with any
    floor up to a thousandth the value would be the upper bound 4; it is 1/10000. *)
Theorem C77_floor_refuted : exists ts ks vols spot rd rf g, build ts ks vols spot rd rf = Ok g /\
  let c := call_prices ts ks vols spot rd rf in
  let k := nth 1 ks 0 in
  fd_kk (nth 1 c []) ks 1 = 0 /\
  (forall floor, 0 < floor <= / 1000 ->
     4 < 2 * (fd_t c ts 1 1 + (rd - rf) * k * fd_k (nth 1 c []) ks 1 + rf * cell c 1 1) / Rmax (k * k * fd_kk (nth 1 c []) ks 1) floor) /\
  variance_at g 1 1 = Ok (1 / 10000).
Proof.
  set (ts := [1; 2; 3]). set (ks := [1; 2; 3]). set (vols := [[0; 0; 0]; [0; 0; 0]; [0; 0; 0]]).
  assert (V : valid ts ks vols 10).
  { assert (SI : strictly_increasing ts).
    { intros a b A B. destruct a as [|[|[|]]], b as [|[|[|]]]; cbn in *; try lia; lra. }
    split; [cbn; lia|]. split; [cbn; lia|]. split; [reflexivity|]. split; [|split; [exact SI|split; [exact SI|lra]]].
    intros r R. cbn in R. destruct R as [<- |[<- |[<- |[]]]]; reflexivity. }
  assert (B := build_ok ts ks vols 10 1 0 V).
  set (c := call_prices ts ks vols 10 1 0) in *.
  assert (FW : forall t, 1 <= t -> 10 < 10 * exp ((1 - 0) * t)) by (intros t T; pose proof (exp_ineq1 ((1 - 0) * t) ltac:(lra)); lra).
  assert (PR : forall t k, 1 <= t -> k <= 10 -> bs_call_forward (10 * exp ((1 - 0) * t)) k 0 t (exp (- (1) * t)) = 10 - k * exp (- t)).
  { intros t k T K. rewrite call_intrinsic by (left; lra). pose proof (FW t T). rewrite Rmax_left by lra.
    replace (exp (- (1) * t)) with (exp (- t)) by (f_equal; ring). rewrite Rmult_minus_distr_l.
    replace (exp (- t) * (10 * exp ((1 - 0) * t))) with 10; [ring|].
    replace ((1 - 0) * t) with t by ring. replace (exp (- t) * (10 * exp t)) with (10 * (exp t * exp (- t))) by ring. rewrite <- exp_plus.
    replace (t + - t) with 0 by ring. rewrite exp_0. ring. }
  assert (C1 : nth 1 c [] = [10 - 1 * exp (- 2); 10 - 2 * exp (- 2); 10 - 3 * exp (- 2)]).
  { unfold c, call_prices, ts, ks, vols, cell. cbn [map seq length nth]. repeat f_equal; apply PR; lra. }
  assert (C0 : nth 0 c [] = [10 - 1 * exp (- 1); 10 - 2 * exp (- 1); 10 - 3 * exp (- 1)]).
  { unfold c, call_prices, ts, ks, vols, cell. cbn [map seq length nth]. repeat f_equal; apply PR; lra. }
  assert (C2 : nth 2 c [] = [10 - 1 * exp (- 3); 10 - 2 * exp (- 3); 10 - 3 * exp (- 3)]).
  { unfold c, call_prices, ts, ks, vols, cell. cbn [map seq length nth]. repeat f_equal; apply PR; lra. }
  assert (KK : fd_kk (nth 1 c []) ks 1 = 0).
  { rewrite C1. unfold fd_kk, ks. cbn [length nth Nat.eqb Nat.sub Nat.add]. field. }
  assert (NU : fd_t c ts 1 1 + (1 - 0) * 2 * fd_k (nth 1 c []) ks 1 + 0 * cell c 1 1 = (exp (- 1) - exp (- 3)) - 2 * exp (- 2)).
  { unfold fd_t, fd_k, cell, ts, ks. cbn [length nth Nat.eqb Nat.sub Nat.add]. rewrite C1, C0, C2. cbn [nth]. field. }
  assert (POS : 2 / 1000 < (exp (- 1) - exp (- 3)) - 2 * exp (- 2)).
  { assert (EN : exp (- 1) = / exp 1) by (rewrite <- exp_Ropp; f_equal; lra).
    assert (X : 1 / 3 < exp (- 1)).
    { rewrite EN. pose proof exp_le_3 as E3. assert (exp 1 < 3).
      { destruct E3 as [E3|E3]; [exact E3|]. exfalso. pose proof (exp_pos (1/2)).
        assert (Q : exp (- (1 / 3)) >= 1 - 1 / 3) by (pose proof (exp_ineq1_le (- (1 / 3))); lra).
        assert (Q' : exp (- (1 / 3)) * exp (- (1 / 3)) * exp (- (1 / 3)) = / 3).
        { rewrite <- !exp_plus. replace (- (1 / 3) + - (1 / 3) + - (1 / 3)) with (- (1)) by field. rewrite exp_Ropp, E3. reflexivity. }
        assert (Q2 : exp (- (1 / 6)) >= 1 - 1 / 6) by (pose proof (exp_ineq1_le (- (1 / 6))); lra).
        assert (Q3 : exp (- (1 / 6)) * exp (- (1 / 6)) = exp (- (1 / 3))) by (rewrite <- exp_plus; f_equal; field).
        assert (25 / 36 <= exp (- (1 / 3))) by nra. assert (625 / 1296 <= exp (- (1 / 3)) * exp (- (1 / 3))) by nra.
        assert (15625 / 46656 <= exp (- (1 / 3)) * exp (- (1 / 3)) * exp (- (1 / 3))) by nra. lra. }
      apply (Rmult_lt_reg_r (exp 1)); [apply exp_pos|]. rewrite Rinv_l by (apply Rgt_not_eq, exp_pos). lra. }
    assert (Y : exp (- 1) <= 2 / 5).
    { rewrite EN. assert (Z : 5 / 2 <= exp 1).
      { assert (Q : 1 + 1 / 4 <= exp (1 / 4)) by (pose proof (exp_ineq1_le (1 / 4)); lra).
        assert (Q5 : 1 + 1 / 8 <= exp (1 / 8)) by (pose proof (exp_ineq1_le (1 / 8)); lra).
        assert (Q6 : exp (1 / 8) * exp (1 / 8) = exp (1 / 4)) by (rewrite <- exp_plus; f_equal; field).
        assert (Q7 : exp (1 / 4) * exp (1 / 4) = exp (1 / 2)) by (rewrite <- exp_plus; f_equal; field).
        assert (Q8 : exp (1 / 2) * exp (1 / 2) = exp 1) by (rewrite <- exp_plus; f_equal; field).
        assert (81 / 64 <= exp (1 / 4)) by nra. assert (6561 / 4096 <= exp (1 / 2)) by nra. nra. }
      apply (Rmult_le_reg_r (exp 1)); [apply exp_pos|]. rewrite Rinv_l by (apply Rgt_not_eq, exp_pos). lra. }
    set (x := exp (- 1)) in *. assert (E2 : exp (- 2) = x * x) by (unfold x; rewrite <- exp_plus; f_equal; ring).
    assert (E3 : exp (- 3) = x * x * x) by (unfold x; rewrite <- !exp_plus; f_equal; ring). rewrite E2, E3.
    replace (x - x * x * x - 2 * (x * x)) with (x * (1 - x * x - 2 * x)) by ring. nra. }
  eexists ts, ks, vols, 10, 1, 0, _. split; [exact B|]. cbv zeta. fold c. change (nth 1 ks 0) with 2. split; [exact KK|]. split.
  - intros floor (F0 & F1). rewrite NU, KK, Rmult_0_r, Rmax_right by lra.
    apply (Rmult_lt_reg_r floor); [exact F0|]. unfold Rdiv. rewrite Rmult_assoc, Rinv_l by lra. lra.
  - rewrite (node_at _ _ _ _ _ _ _ 1 1 B) by (cbn; lia). f_equal. unfold node_variance. cbv zeta. fold c. change (nth 1 ks 0) with 2. rewrite KK.
    replace (Rltb (/ 10 ^ 8) (2 * 2 * 0)) with false.
    + cbn [andb]. unfold cell, vols. cbn [nth]. unfold clamp. destruct (Rlt_dec (0 * 0) (1 / 100 * (1 / 100))); lra.
    + symmetry. apply Rltb_false. assert (0 < / 10 ^ 8) by (apply Rinv_0_lt_compat, pow_lt; lra). lra.
Qed.
Print Assumptions C77_floor_refuted.

(** A flat 20% market meets the hypotheses. *)
Example C77_witness : exists g, build [1 / 4; 1 / 2; 1] [9 / 10; 1; 11 / 10] (repeat (repeat (1 / 5) 3) 3) 1 (5 / 100) (2 / 100) = Ok g.
Proof.
  eexists. apply build_ok. repeat split; try (cbn; lia); try lra.
  - intros r R. cbn in R. destruct R as [<- |[<- |[<- |[]]]]; reflexivity.
  - intros a b A B. destruct a as [|[|[|]]], b as [|[|[|]]]; cbn in *; try lia; lra.
  - intros a b A B. destruct a as [|[|[|]]], b as [|[|[|]]]; cbn in *; try lia; lra.
Qed.
