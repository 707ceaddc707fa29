(** C105: the net present value of a swap in binary64. *)
From Coq Require Import Bool List ZArith Reals Lra Lia Psatz.
Import ListNotations.
From Flocq Require Import Core BinarySingleNaN.
From Verif Require Import F64 Clock64 Clock64Facts Chol64 Chol64Facts P_Chol64 Floor64 P_Floor64 Validate64 P_Validate64 Forward64 P_Forward64 SwapNpv64.
Open Scope R_scope.

(** Opposite to the last bit, but for the sign of a zero. *)
Definition opposite (a b : f64) : Prop := b = Bopp a \/ exists s s', a = B754_zero s /\ b = B754_zero s'.
Lemma zero_form (x : f64) : finite x -> f64R x = 0 -> exists s, x = B754_zero s.
Proof.
  intros F H. destruct x as [s|s| |s m e B]; try discriminate F; [exists s; reflexivity|]. exfalso. unfold f64R in H. cbn [B2R] in H. apply eq_0_F2R in H. destruct s; discriminate H.
Qed.
Lemma add_opposite a b x : opposite a b -> opposite (fadd a x) (fadd b (Bopp x)).
Proof.
  intros [->|(s & s' & -> & ->)]; [|destruct x as [t|t| |t m e B]; [right; destruct s, s', t; cbn; eauto|left; reflexivity|left; reflexivity|left; reflexivity]].
  destruct (is_finite a) eqn:FA, (is_finite x) eqn:FX.
  - pose proof (Bplus_correct 53 1024 _ _ mode_NE a x FA FX) as C. pose proof (Bplus_correct 53 1024 _ _ mode_NE (Bopp a) (Bopp x) ltac:(rewrite is_finite_Bopp; exact FA) ltac:(rewrite is_finite_Bopp; exact FX)) as D.
    rewrite !B2R_Bopp in D. replace (- B2R a + - B2R x) with (- (B2R a + B2R x)) in D by ring. cbn [round_mode] in *. rewrite round_NE_opp, Rabs_Ropp in D.
    assert (NA : is_nan a = false) by (destruct a; try discriminate; reflexivity).
    destruct (Rlt_bool _ _).
    + destruct C as (C1 & C2 & _), D as (D1 & D2 & _). destruct (Req_dec (round radix2 (SpecFloat.fexp 53 1024) ZnearestE (B2R a + B2R x)) 0) as [E|E].
      * right. rewrite E in C1, D1. rewrite Ropp_0 in D1. destruct (zero_form _ C2 C1) as (s & S). destruct (zero_form _ D2 D1) as (s' & S'). exists s, s'. split; assumption.
      * left. apply B2R_inj; [| |rewrite B2R_Bopp; unfold fadd; rewrite C1, D1; reflexivity].
        -- unfold fadd. destruct (Bplus mode_NE (Bopp a) (Bopp x)); try discriminate D2; [|reflexivity]. exfalso. cbn [B2R] in D1. lra.
        -- unfold fadd. destruct (Bplus mode_NE a x); try discriminate C2; [|reflexivity]. exfalso. cbn [B2R] in C1. lra.
    + left. destruct C as [C _], D as [D _]. apply B2SF_inj. unfold fadd. rewrite D. rewrite Bsign_Bopp by exact NA. destruct (Bplus mode_NE a x); cbn [B2SF] in C; unfold binary_overflow in *; cbn [overflow_to_inf] in *; try discriminate C. cbn [Bopp B2SF]. injection C as ->. reflexivity.
  - left. destruct a as [s|s| |s m e B], x as [s'|s'| |s' m' e' B']; try discriminate; try reflexivity; destruct s, s'; reflexivity.
  - left. destruct a as [s|s| |s m e B], x as [s'|s'| |s' m' e' B']; try discriminate; try reflexivity; destruct s, s'; reflexivity.
  - left. destruct a as [s|s| |s m e B], x as [s'|s'| |s' m' e' B']; try discriminate; try reflexivity; destruct s, s'; reflexivity.
Qed.
Definition reversed (l : leg64) : leg64 := {| buy64 := negb (buy64 l); periods64 := periods64 l |}.
Lemma mul_reversed x buy : fmul x (sign64 (negb buy)) = Bopp (fmul x (sign64 buy)).
Proof. destruct buy; cbn [negb sign64]; rewrite mul_opp_r, ?Bopp_involutive; reflexivity. Qed.
Lemma flows_reversed l : flows64 (reversed l) = map (@Bopp 53 1024) (flows64 l).
Proof.
  unfold flows64, principal64, reversed. cbn [buy64 periods64]. rewrite map_app, map_map. f_equal.
  - apply map_ext. intros p. unfold period_pv64. apply mul_reversed.
  - destruct (rev (periods64 l)); [reflexivity|]. cbn [map]. rewrite mul_reversed. reflexivity.
Qed.

(** Turning every leg round turns the value round, to the last bit but for the sign of a zero, whatever the numbers, NaN and
    infinities included. *)
Theorem C105_antisymmetric legs : opposite (npv64 legs) (npv64 (map reversed legs)).
Proof.
  unfold npv64. assert (E : concat (map flows64 (map reversed legs)) = map (@Bopp 53 1024) (concat (map flows64 legs))) by (rewrite concat_map, !map_map; f_equal; apply map_ext, flows_reversed). rewrite E.
  assert (G : forall l a b, opposite a b -> opposite (fold_left fadd l a) (fold_left fadd (map (@Bopp 53 1024) l) b)) by (induction l as [|x l IH]; intros a b H; [exact H|cbn [fold_left map]; apply IH, add_opposite, H]).
  apply G. right. destruct zero64_ok as [V F]. destruct (zero_form zero64 F V) as (s & S). exists s, s. split; exact S.
Qed.
Print Assumptions C105_antisymmetric.

(** The sum is that of exact arithmetic to two roundings for each of the flows. *)
Definition total (l : list f64) : R := fold_right (fun x s => f64R x + s) 0 l.
Definition size (l : list f64) : R := fold_right (fun x s => Rabs (f64R x) + s) 0 l.
Lemma sum_err l : forall a (S A : R) k, finite a -> Forall finite l -> INR (k + length l) <= 1048576 -> Rabs S <= A -> A + size l <= 1125899906842624 -> Rabs (f64R a - S) <= 2 * INR k * u53 * A ->
  finite (fold_left fadd l a) /\ Rabs (f64R (fold_left fadd l a) - (S + total l)) <= 2 * INR (k + length l) * u53 * (A + size l).
Proof.
  pose proof u53_pos as U. pose proof u53_eq as UE. induction l as [|x l IH]; intros a S A k FA FL K HS HA E.
  - cbn [fold_left total size fold_right length] in *. rewrite !Rplus_0_r, Nat.add_0_r. split; assumption.
  - inversion FL as [|? ? FX FL']; subst. cbn [fold_left total size fold_right length] in *. fold (total l) in *. fold (size l) in *. pose proof (Rabs_pos (f64R x)) as X0. pose proof (Rabs_pos S) as S0.
    assert (SZ : forall m, 0 <= size m) by (induction m as [|y m IHm]; cbn; [lra|]; pose proof (Rabs_pos (f64R y)); fold (size m); lra). pose proof (SZ l) as L0.
    assert (KB : 0 <= INR k <= 1048576) by (split; [apply pos_INR|]; apply Rle_trans with (2 := K); apply le_INR; lia).
    set (b := u53 * A). assert (B0 : 0 <= b) by (unfold b; apply Rmult_le_pos; lra). set (A' := A + Rabs (f64R x)).
    assert (E' : 2 * INR k * u53 * A <= A / 1000) by (replace (2 * INR k * u53 * A) with (INR k * u53 * (2 * A)) by ring; assert (INR k * u53 <= / 10000) by nra; apply Rle_trans with (/ 10000 * (2 * A)); [apply Rmult_le_compat_r; lra|lra]).
    assert (AX : Rabs (f64R a + f64R x) <= 2 * A'). { replace (f64R a + f64R x) with ((f64R a - S) + (S + f64R x)) by ring. eapply Rle_trans; [apply Rabs_triang|]. pose proof (Rabs_triang S (f64R x)). unfold A'. lra. }
    destruct (fadd_ok a x 4503599627370496 FA FX ltac:(lia)) as [V F]; [unfold A' in AX; lra|].
    assert (N : Rabs (f64R (fadd a x) - (S + f64R x)) <= 2 * INR (k + 1) * u53 * A').
    { destruct (rnd_plus a x) as (e & EE & VE). rewrite V, VE. replace ((f64R a + f64R x) * (1 + e) - (S + f64R x)) with ((f64R a - S) + (f64R a + f64R x) * e) by ring. eapply Rle_trans; [apply Rabs_triang|]. rewrite Rabs_mult.
      assert (M : Rabs (f64R a + f64R x) * Rabs e <= 2 * A' * u53) by (apply Rmult_le_compat; [apply Rabs_pos|apply Rabs_pos|exact AX|exact EE]). rewrite plus_INR. cbn [INR].
      assert (Q : 2 * INR k * u53 * A <= 2 * INR k * u53 * A') by (apply Rmult_le_compat_l; [apply Rmult_le_pos; [|lra]; lra|unfold A'; lra]). lra. }
    destruct (IH (fadd a x) (S + f64R x) A' (k + 1)%nat F FL' ltac:(replace (k + 1 + length l)%nat with (k + Datatypes.S (length l))%nat by lia; exact K) ltac:(unfold A'; eapply Rle_trans; [apply Rabs_triang|]; lra) ltac:(unfold A'; lra) N) as [F2 E2].
    split; [exact F2|]. replace (S + (f64R x + total l)) with (S + f64R x + total l) by ring. replace (k + Datatypes.S (length l))%nat with (k + 1 + length l)%nat by lia. replace (A + (Rabs (f64R x) + size l)) with (A' + size l) by (unfold A'; ring). exact E2.
Qed.
Theorem C105_sum legs : let flows := concat (map flows64 legs) in
  Forall finite flows -> INR (length flows) <= 1048576 -> size flows <= 1125899906842624 ->
  finite (npv64 legs) /\ Rabs (f64R (npv64 legs) - total flows) <= 2 * INR (length flows) * u53 * size flows.
Proof.
  cbv zeta. intros F L S. destruct zero64_ok as [V0 F0]. unfold npv64. destruct (sum_err (concat (map flows64 legs)) zero64 0 0 0 F0 F L ltac:(rewrite Rabs_R0; lra) ltac:(lra) ltac:(rewrite V0, Rminus_0_r, Rabs_R0; cbn [INR]; lra)) as [A B]. rewrite !Rplus_0_l in B. split; [exact A|exact B].
Qed.
Print Assumptions C105_sum.

(** Each flow is its reset rate times year fraction, balance, discount factor and direction to six roundings. *)
Lemma mul_sign buy (x : f64) : finite x -> f64R (fmul x (sign64 buy)) = (if buy then f64R x else - f64R x) /\ finite (fmul x (sign64 buy)).
Proof.
  intros F. destruct (mul_direction buy x F) as [V G]. unfold direction64 in *. unfold sign64. split; [|exact G]. rewrite V. destruct buy; ring.
Qed.
Lemma below (x y B : R) (b : Z) : Rabs (x - y) <= B -> Rabs y + B <= IZR b -> Rabs x <= IZR b.
Proof. intros H1 H2. replace x with ((x - y) + y) by ring. eapply Rle_trans; [apply Rabs_triang|]. lra. Qed.
Lemma product_bound x y P Q : Rabs x <= P -> Rabs y <= Q -> Rabs (x * y) <= P * Q.
Proof. intros. rewrite Rabs_mult. apply Rmult_le_compat; auto using Rabs_pos. Qed.
Lemma product3_err (a b c d : f64) : finite a -> finite b -> finite c -> finite d -> Rabs (f64R a) <= 16 -> Rabs (f64R b) <= 128 -> Rabs (f64R c) <= 1099511627776 -> Rabs (f64R d) <= 2 ->
  finite (fmul (fmul (fmul a b) c) d) /\ Rabs (f64R (fmul (fmul (fmul a b) c) d) - f64R a * f64R b * f64R c * f64R d) <= 6 * u53 * Rabs (f64R a * f64R b * f64R c * f64R d) + bpow radix2 (-1000).
Proof.
  intros FA FB FC FD HA HB HC HD. set (x := f64R a) in *. set (y := f64R b) in *. set (z := f64R c) in *. set (w := f64R d) in *. set (t := bpow radix2 (-1075)).
  assert (T0 : 0 < t) by apply bpow_gt_0. assert (T1 : bpow radix2 (-1000) = 37778931862957161709568 * t) by (unfold t; change (-1000)%Z with (75 + -1075)%Z; rewrite bpow_plus; reflexivity).
  assert (T3 : 37778931862957161709568 * t <= / 1000) by (rewrite <- T1; apply Rle_trans with (bpow radix2 (-10)); [apply bpow_le; lia|]; change (bpow radix2 (-10)) with (/ 1024); lra).
  pose proof u53_pos as U. pose proof u53_eq as UE.
  pose proof (product_bound _ _ _ _ HA HB) as XY. pose proof (product_bound _ _ _ _ XY HC) as XYZ. pose proof (product_bound _ _ _ _ XYZ HD) as XYZW.
  destruct (fmul_ok a b 2048 FA FB ltac:(lia) ltac:(fold x y; lra)) as [V1 F1]. fold x y in V1.
  assert (E0 : forall r, Rabs (r - r) <= 0 * u53 * Rabs r + 0) by (intros r; rewrite Rminus_diag_eq, Rabs_R0 by reflexivity; lra).
  assert (E0' : forall r, Rabs (r - r) <= 0 * u53 * Rabs r) by (intros r; specialize (E0 r); lra).
  pose proof (prod_err x y x y (Rabs x) (Rabs y) 0 0 0 ltac:(lra) ltac:(lra) ltac:(lra) (Rle_refl _) (Rle_refl _) (E0 x) (E0' y)) as P1. fold t in P1. rewrite <- V1, <- Rabs_mult in P1. ring_simplify (0 + 0 + 2) in P1.
  assert (P1' : Rabs (f64R (fmul a b) - x * y) <= 2 * u53 * Rabs (x * y) + t) by (replace (2 * u53 * Rabs (x * y) + t) with (2 * u53 * Rabs (x * y) + 2 * 0 * Rabs y + t) by ring; exact P1).
  pose proof (prod_err _ z _ z (Rabs (x * y)) (Rabs z) 2 0 t ltac:(lra) ltac:(lra) ltac:(lra) (Rle_refl _) (Rle_refl _) P1' (E0' z)) as P2. fold t in P2. rewrite <- Rabs_mult in P2. pose proof (Rabs_pos z) as Z0. pose proof (Rabs_pos w) as W0. pose proof (Rabs_pos (x * y)) as XY0. pose proof (Rabs_pos (x * y * z)) as XYZ0.
  assert (G1 : Rabs (f64R (fmul a b)) <= 2049) by (apply (below _ (x * y) (2 * u53 * Rabs (x * y) + t) 2049 P1'); assert (u53 * Rabs (x * y) <= u53 * 2048) by (apply Rmult_le_compat_l; lra); lra).
  destruct (fmul_ok (fmul a b) c 4503599627370496 F1 FC ltac:(lia)) as [V2 F2]; [fold z; pose proof (product_bound _ _ _ _ G1 HC) as G; fold z in G; lra|]. fold z in V2. rewrite <- V2 in P2.
  assert (D2 : 2 * t * Rabs z + t <= 4398046511104 * t) by (assert (t * Rabs z <= t * 1099511627776) by (apply Rmult_le_compat_l; lra); lra).
  assert (P2' : Rabs (f64R (fmul (fmul a b) c) - x * y * z) <= 4 * u53 * Rabs (x * y * z) + 4398046511104 * t) by (replace (2 + 0 + 2) with 4 in P2 by ring; lra).
  pose proof (prod_err _ w _ w (Rabs (x * y * z)) (Rabs w) 4 0 (4398046511104 * t) ltac:(lra) ltac:(lra) ltac:(lra) (Rle_refl _) (Rle_refl _) P2' (E0' w)) as P3. fold t in P3. rewrite <- Rabs_mult in P3.
  assert (G2 : Rabs (f64R (fmul (fmul a b) c)) <= 2251799813685250) by (apply (below _ (x * y * z) (4 * u53 * Rabs (x * y * z) + 4398046511104 * t) _ P2'); assert (u53 * Rabs (x * y * z) <= u53 * (16 * 128 * 1099511627776)) by (apply Rmult_le_compat_l; lra); lra).
  destruct (fmul_ok (fmul (fmul a b) c) d 9007199254740991 F2 FD ltac:(lia)) as [V3 F3]; [fold w; pose proof (product_bound _ _ _ _ G2 HD) as G; fold w in G; lra|]. fold w in V3. rewrite <- V3 in P3.
  split; [exact F3|]. rewrite T1. replace (4 + 0 + 2) with 6 in P3 by ring. assert (t * Rabs w <= t * 2) by (apply Rmult_le_compat_l; lra). lra.
Qed.
Theorem C105_flow (buy : bool) (p : period64) (r := f64R (reset_rate64 p)) (exact := (if buy then 1 else -1) * (r * f64R (yf64 p) * f64R (balance64 p) * f64R (df64 p))) :
  finite (reset_rate64 p) -> finite (yf64 p) -> finite (balance64 p) -> finite (df64 p) ->
  Rabs r <= 16 -> Rabs (f64R (yf64 p)) <= 128 -> Rabs (f64R (balance64 p)) <= 1099511627776 -> Rabs (f64R (df64 p)) <= 2 ->
  finite (period_pv64 buy p) /\ Rabs (f64R (period_pv64 buy p) - exact) <= 6 * u53 * Rabs exact + bpow radix2 (-1000).
Proof.
  intros FR FY FB FD HR HY HB HD. destruct (product3_err _ _ _ _ FR FY FB FD HR HY HB HD) as [F E]. unfold period_pv64. destruct (mul_sign buy _ F) as [V G]. split; [exact G|]. rewrite V. unfold exact. fold r in E.
  destruct buy; [rewrite Rmult_1_l; exact E|]. set (q := r * f64R (yf64 p) * f64R (balance64 p) * f64R (df64 p)) in *. replace (-1 * q) with (- q) by ring. rewrite Rabs_Ropp. match goal with |- Rabs (- ?v - - q) <= _ => replace (- v - - q) with (- (v - q)) by ring end. rewrite Rabs_Ropp. exact E.
Qed.
Print Assumptions C105_flow.

(** A leg has a flow for each of its periods, in order, and one more: the balance of the last period at its discount factor, to two roundings. *)
Theorem C105_principal (buy : bool) (ps : list period64) (p : period64) (exact := (if buy then 1 else -1) * (f64R (balance64 p) * f64R (df64 p))) :
  finite (balance64 p) -> finite (df64 p) -> Rabs (f64R (balance64 p)) <= 1099511627776 -> Rabs (f64R (df64 p)) <= 2 ->
  exists q, flows64 {| buy64 := buy; periods64 := ps ++ [p] |} = map (period_pv64 buy) (ps ++ [p]) ++ [q] /\ finite q /\ Rabs (f64R q - exact) <= 2 * u53 * Rabs exact + bpow radix2 (-1075).
Proof.
  intros FB FD HB HD. unfold flows64, principal64. cbn [buy64 periods64]. rewrite rev_unit. eexists. split; [reflexivity|].
  destruct (fmul_ok (balance64 p) (df64 p) 2199023255552 FB FD ltac:(lia)) as [V F]; [pose proof (product_bound _ _ _ _ HB HD); lra|]. destruct (mul_sign buy _ F) as [V2 F2]. split; [exact F2|]. rewrite V2.
  set (x := f64R (balance64 p)) in *. set (y := f64R (df64 p)) in *.
  assert (P : Rabs (f64R (fmul (balance64 p) (df64 p)) - x * y) <= 2 * u53 * Rabs (x * y) + bpow radix2 (-1075)).
  { rewrite V. pose proof (prod_err x y x y (Rabs x) (Rabs y) 0 0 0 ltac:(lra) ltac:(lra) ltac:(lra) (Rle_refl _) (Rle_refl _) ltac:(rewrite Rminus_diag_eq, Rabs_R0 by reflexivity; lra) ltac:(rewrite Rminus_diag_eq, Rabs_R0 by reflexivity; lra)) as P1. rewrite <- Rabs_mult in P1. replace (0 + 0 + 2) with 2 in P1 by ring. lra. }
  unfold exact. destruct buy; [rewrite Rmult_1_l; exact P|]. replace (-1 * (x * y)) with (- (x * y)) by ring. rewrite Rabs_Ropp. match goal with |- Rabs (- ?v - - ?q) <= _ => replace (- v - - q) with (- (v - q)) by ring end. rewrite Rabs_Ropp. exact P.
Qed.
Print Assumptions C105_principal.

(** Put together: the value is the sum of signed products of exact arithmetic to two roundings a flow and seven more. *)
Definition exact_sign (buy : bool) : R := if buy then 1 else -1.
Definition exact_flows (l : leg64) : list R :=
  map (fun p => exact_sign (buy64 l) * (f64R (reset_rate64 p) * f64R (yf64 p) * f64R (balance64 p) * f64R (df64 p))) (periods64 l) ++
  match rev (periods64 l) with [] => [] | p :: _ => [exact_sign (buy64 l) * (f64R (balance64 p) * f64R (df64 p))] end.
Definition usable (p : period64) : Prop := (finite (reset_rate64 p) /\ finite (yf64 p) /\ finite (balance64 p) /\ finite (df64 p)) /\
  Rabs (f64R (reset_rate64 p)) <= 16 /\ Rabs (f64R (yf64 p)) <= 128 /\ Rabs (f64R (balance64 p)) <= 1099511627776 /\ Rabs (f64R (df64 p)) <= 2.
Definition near_flow (x : f64) (e : R) : Prop := finite x /\ Rabs (f64R x - e) <= 6 * u53 * Rabs e + bpow radix2 (-1000).
Definition sum (l : list R) : R := fold_right Rplus 0 l.
Definition magnitude (l : list R) : R := fold_right (fun e s => Rabs e + s) 0 l.
Lemma flows_near l : Forall usable (periods64 l) -> Forall2 near_flow (flows64 l) (exact_flows l).
Proof.
  intros U. assert (A : Forall2 near_flow (map (period_pv64 (buy64 l)) (periods64 l)) (map (fun p => exact_sign (buy64 l) * (f64R (reset_rate64 p) * f64R (yf64 p) * f64R (balance64 p) * f64R (df64 p))) (periods64 l))).
  { induction U as [|p ps H U IH]; [constructor|]. cbn [map]. constructor; [|exact IH]. destruct H as ((F1 & F2 & F3 & F4) & B1 & B2 & B3 & B4). exact (C105_flow (buy64 l) p F1 F2 F3 F4 B1 B2 B3 B4). }
  destruct l as [buy ps]. cbn [buy64 periods64] in *. destruct ps as [|p0 ps0] using rev_ind; [constructor|]. clear IHps0. apply Forall_app in U as [_ U]. inversion U as [|? ? H _]; subst. destruct H as ((_ & _ & F3 & F4) & _ & _ & B3 & B4).
  destruct (C105_principal buy ps0 p0 F3 F4 B3 B4) as (q & E & FQ & EQ). rewrite E. unfold exact_flows. cbn [buy64 periods64]. rewrite rev_unit. apply Forall2_app; [exact A|]. constructor; [|constructor]. split; [exact FQ|]. fold (exact_sign buy) in EQ. eapply Rle_trans; [exact EQ|]. pose proof u53_pos. apply Rplus_le_compat; [apply Rmult_le_compat_r; [apply Rabs_pos|lra]|apply bpow_le; lia].
Qed.
Lemma near_sum xs es : Forall2 near_flow xs es -> Forall finite xs /\ length es = length xs /\ Rabs (total xs - sum es) <= 6 * u53 * magnitude es + INR (length xs) * bpow radix2 (-1000) /\ size xs <= magnitude es + 6 * u53 * magnitude es + INR (length xs) * bpow radix2 (-1000) /\ 0 <= magnitude es.
Proof.
  induction 1 as [|x e xs es [F H] _ (A & LE & B & C & D)]; [cbn; rewrite Rminus_0_r, Rabs_R0; repeat split; try constructor; lra|].
  cbn [total sum size magnitude fold_right]. fold (total xs) (sum es) (size xs) (magnitude es). change (length (x :: xs)) with (S (length xs)). rewrite S_INR. set (t := bpow radix2 (-1000)) in *. split; [constructor; assumption|]. split; [cbn [length]; congruence|]. pose proof (Rabs_pos e) as E0. split; [|split; [|lra]].
  - replace (f64R x + total xs - (e + sum es)) with ((f64R x - e) + (total xs - sum es)) by ring. eapply Rle_trans; [apply Rabs_triang|]. lra.
  - assert (X : Rabs (f64R x) <= Rabs e + (6 * u53 * Rabs e + t)) by (replace (f64R x) with (e + (f64R x - e)) by ring; eapply Rle_trans; [apply Rabs_triang|]; lra). lra.
Qed.
Lemma combine_err (v T S A Z n t : R) : 0 <= n <= 1048576 -> 0 <= A -> 0 <= t -> Rabs (v - T) <= 2 * n * u53 * Z -> Z <= A + 6 * u53 * A + n * t -> Rabs (T - S) <= 6 * u53 * A + n * t -> Rabs (v - S) <= (2 * n + 7) * u53 * A + 2 * n * t.
Proof.
  intros N A0 T0 H1 H2 H3. pose proof u53_pos as U. pose proof u53_eq as UE. replace (v - S) with ((v - T) + (T - S)) by ring. eapply Rle_trans; [apply Rabs_triang|].
  assert (NU : 0 <= n * u53 <= / 1000000) by (split; [apply Rmult_le_pos; lra|]; apply Rle_trans with (1048576 * u53); [apply Rmult_le_compat_r; lra|lra]).
  assert (P1 : 2 * n * u53 * Z <= 2 * (n * u53) * (A + 6 * u53 * A + n * t)) by (replace (2 * n * u53 * Z) with (2 * (n * u53) * Z) by ring; apply Rmult_le_compat_l; lra).
  assert (UA : 0 <= u53 * A) by (apply Rmult_le_pos; lra). assert (NT : 0 <= n * t) by (apply Rmult_le_pos; lra).
  assert (P2 : n * u53 * (u53 * A) <= / 1000000 * (u53 * A)) by (apply Rmult_le_compat_r; lra). assert (P3 : n * u53 * (n * t) <= / 1000000 * (n * t)) by (apply Rmult_le_compat_r; lra).
  replace (2 * (n * u53) * (A + 6 * u53 * A + n * t)) with (2 * n * (u53 * A) + 12 * (n * u53 * (u53 * A)) + 2 * (n * u53 * (n * t))) in P1 by ring. replace ((2 * n + 7) * u53 * A) with (2 * n * (u53 * A) + 7 * (u53 * A)) by ring. lra.
Qed.
Theorem C105_accuracy legs (es := concat (map exact_flows legs)) (n := INR (length es)) : Forall (fun l => Forall usable (periods64 l)) legs -> n <= 1048576 -> magnitude es <= 1000000000000000 ->
  finite (npv64 legs) /\ Rabs (f64R (npv64 legs) - sum es) <= (2 * n + 7) * u53 * magnitude es + 2 * n * bpow radix2 (-1000).
Proof.
  intros U N M. pose proof u53_pos as U0. pose proof u53_eq as UE. assert (F2 : Forall2 near_flow (concat (map flows64 legs)) es).
  { unfold es. clear - U. induction U as [|l legs H U IH]; [constructor|]. cbn [map concat]. apply Forall2_app; [apply flows_near; exact H|exact IH]. }
  destruct (near_sum _ _ F2) as (A & LE & B & C & D). set (t := bpow radix2 (-1000)) in *. assert (T0 : 0 <= t) by (apply bpow_ge_0). assert (T1 : t <= / 1048576) by (apply Rle_trans with (bpow radix2 (-20)); [apply bpow_le; lia|]; change (bpow radix2 (-20)) with (/ 1048576); lra).
  rewrite <- LE in B, C. fold n in B, C. assert (N0 : 0 <= n) by apply pos_INR. assert (NT : n * t <= 1) by (apply Rle_trans with (1048576 * / 1048576); [apply Rmult_le_compat; lra|lra]).
  assert (UM : u53 * magnitude es <= / 1000 * magnitude es) by (apply Rmult_le_compat_r; lra).
  destruct (C105_sum legs A) as [F E]; [rewrite <- LE; exact N|lra|]. split; [exact F|]. rewrite <- LE in E. fold n in E. exact (combine_err _ _ _ _ _ n t ltac:(lra) D T0 E C B).
Qed.
Print Assumptions C105_accuracy.

(** A fixed period resets at its coupon, and a floating one at the simple forward rate of the two discount factors plus the spread, to five roundings of
    the ratio plus one over the year fraction plus the spread.  For a short period that is far more than five roundings of the rate. *)
Lemma ratio_err q x r y : 0 < q <= 1048576 -> Rabs (x - q) <= u53 * q -> / 1024 <= y -> Rabs (r - (x - 1)) <= u53 * Rabs (x - 1) -> Rabs (r / y - (q - 1) / y) <= 21 / 10 * u53 * ((q + 1) / y).
Proof.
  intros Q X Y R. pose proof u53_pos as U. pose proof u53_eq as UE. assert (YI : 0 < / y) by (apply Rinv_0_lt_compat; lra).
  assert (X1 : Rabs (x - 1) <= 101 / 100 * (q + 1)). { replace (x - 1) with ((x - q) + (q + -1)) by ring. eapply Rle_trans; [apply Rabs_triang|]. assert (Rabs (q + -1) <= q + 1) by (apply Rabs_le; lra). assert (u53 * q <= / 100 * q) by (apply Rmult_le_compat_r; lra). lra. }
  assert (T : Rabs (r - (q - 1)) <= 21 / 10 * u53 * (q + 1)). { replace (r - (q - 1)) with ((r - (x - 1)) + (x - q)) by ring. eapply Rle_trans; [apply Rabs_triang|]. assert (u53 * Rabs (x - 1) <= u53 * (101 / 100 * (q + 1))) by (apply Rmult_le_compat_l; lra). assert (0 <= u53 * q) by (apply Rmult_le_pos; lra). lra. }
  replace (r / y - (q - 1) / y) with ((r - (q - 1)) * / y) by (unfold Rdiv; ring). rewrite Rabs_mult, (Rabs_pos_eq (/ y)) by lra. replace (21 / 10 * u53 * ((q + 1) / y)) with (21 / 10 * u53 * (q + 1) * / y) by (unfold Rdiv; ring). apply Rmult_le_compat_r; lra.
Qed.
Theorem C105_reset p : match terms64 p with
  | Fixed64 coupon => reset_rate64 p = coupon
  | Float64 spread ds de => let q := f64R ds / f64R de in let y := f64R (yf64 p) in
    finite ds -> finite de -> finite (yf64 p) -> finite spread -> f64R de <> 0 -> / 1048576 <= q <= 1048576 -> / 1024 <= y -> Rabs (f64R spread) <= 1024 ->
    finite (reset_rate64 p) /\ Rabs (f64R (reset_rate64 p) - ((q - 1) / y + f64R spread)) <= 5 * u53 * ((q + 1) / y + Rabs (f64R spread)) + bpow radix2 (-990)
  end.
Proof.
  unfold reset_rate64. destruct (terms64 p) as [coupon|spread ds de]; [reflexivity|]. cbv zeta. intros FS FE FY FP NE Q Y SP. set (q := f64R ds / f64R de) in *. set (y := f64R (yf64 p)) in *. set (sp := f64R spread) in *.
  pose proof u53_pos as U. pose proof u53_eq as UE. set (t := bpow radix2 (-1000)). assert (T0 : 0 < t) by apply bpow_gt_0. assert (T1 : bpow radix2 (-990) = 1024 * t) by (unfold t; change (-990)%Z with (10 + -1000)%Z; rewrite bpow_plus; reflexivity).
  assert (T3 : t <= / 1000) by (apply Rle_trans with (bpow radix2 (-10)); [apply bpow_le; lia|]; change (bpow radix2 (-10)) with (/ 1024); lra).
  destruct (fdiv_ok ds de 1048576 FS NE ltac:(lia)) as [V1 F1]; [fold q; rewrite Rabs_pos_eq; lra|]. fold q in V1. destruct one64_ok as [VO FO].
  assert (E1 : Rabs (f64R (fdiv ds de) - q) <= u53 * q). { destruct (rnd_rel q) as (e & E & H); [rewrite Rabs_pos_eq by lra; apply Rle_trans with (bpow radix2 (-20)); [apply bpow_le; lia|]; change (bpow radix2 (-20)) with (/ 1048576); lra|]. rewrite V1, H. replace (q * (1 + e) - q) with (e * q) by ring. rewrite Rabs_mult, (Rabs_pos_eq q) by lra. apply Rmult_le_compat_r; lra. }
  assert (B1 : Rabs (f64R (fdiv ds de)) <= 1048577) by (apply (below _ q (u53 * q) 1048577 E1); rewrite Rabs_pos_eq by lra; assert (u53 * q <= / 1048576 * q) by (apply Rmult_le_compat_r; lra); lra).
  destruct (fsub_ok (fdiv ds de) one64 1048579 F1 FO ltac:(lia)) as [V2 F2]; [rewrite VO; replace (f64R (fdiv ds de) - 1) with (f64R (fdiv ds de) + -1) by ring; eapply Rle_trans; [apply Rabs_triang|]; rewrite (Rabs_left (-1)) by lra; lra|]. rewrite VO in V2.
  assert (E2 : Rabs (f64R (fsub (fdiv ds de) one64) - (f64R (fdiv ds de) - 1)) <= u53 * Rabs (f64R (fdiv ds de) - 1)). { destruct (rnd_minus (fdiv ds de) one64) as (e & E & H). rewrite VO in H. rewrite V2, H. replace ((f64R (fdiv ds de) - 1) * (1 + e) - (f64R (fdiv ds de) - 1)) with (e * (f64R (fdiv ds de) - 1)) by ring. rewrite Rabs_mult. apply Rmult_le_compat_r; [apply Rabs_pos|exact E]. }
  pose proof (ratio_err q _ _ y ltac:(lra) E1 Y E2) as E3. set (r := f64R (fsub (fdiv ds de) one64)) in *. assert (YI : 0 < / y <= 1024) by (split; [apply Rinv_0_lt_compat; lra|]; replace 1024 with (/ / 1024) by (field; lra); apply Rinv_le; lra).
  set (h := (q + 1) / y) in *. assert (H0 : 0 <= h <= 1073742848) by (unfold h, Rdiv; split; [apply Rmult_le_pos; lra|]; apply Rle_trans with (1048577 * 1024); [apply Rmult_le_compat; lra|lra]).
  assert (G : Rabs ((q - 1) / y) <= h) by (unfold h, Rdiv; rewrite Rabs_mult, (Rabs_pos_eq (/ y)) by lra; apply Rmult_le_compat_r; [lra|]; apply Rabs_le; lra).
  assert (UH : 0 <= u53 * h <= h / 100000) by (split; [apply Rmult_le_pos; lra|]; replace (h / 100000) with (/ 100000 * h) by field; apply Rmult_le_compat_r; lra).
  assert (R3 : Rabs (r / y) <= 1001 / 1000 * h). { replace (r / y) with ((r / y - (q - 1) / y) + (q - 1) / y) by ring. eapply Rle_trans; [apply Rabs_triang|]. lra. }
  destruct (fdiv_ok (fsub (fdiv ds de) one64) (yf64 p) 2147483648 F2 ltac:(fold y; apply Rgt_not_eq; lra) ltac:(lia)) as [V3 F3]; [fold y r; lra|]. fold y r in V3.
  pose proof (rnd_abs (r / y)) as E4. rewrite <- V3 in E4. fold t in E4. set (x := f64R (fdiv (fsub (fdiv ds de) one64) (yf64 p))) in *.
  assert (UR : u53 * Rabs (r / y) <= 1001 / 1000 * (u53 * h)) by (replace (1001 / 1000 * (u53 * h)) with (u53 * (1001 / 1000 * h)) by ring; apply Rmult_le_compat_l; lra).
  assert (E5 : Rabs (x - (q - 1) / y) <= 32 / 10 * (u53 * h) + t). { replace (x - (q - 1) / y) with ((x - r / y) + (r / y - (q - 1) / y)) by ring. eapply Rle_trans; [apply Rabs_triang|]. lra. }
  assert (X1 : Rabs x <= 1001 / 1000 * h + t). { replace x with ((x - (q - 1) / y) + (q - 1) / y) by ring. eapply Rle_trans; [apply Rabs_triang|]. lra. }
  pose proof (Rabs_pos sp) as SP0. assert (XS : Rabs (x + sp) <= 1001 / 1000 * h + t + Rabs sp) by (eapply Rle_trans; [apply Rabs_triang|]; lra).
  destruct (fadd_ok (fdiv (fsub (fdiv ds de) one64) (yf64 p)) spread 4294967296 F3 FP ltac:(lia)) as [V4 F4]; [fold x sp; lra|]. fold x sp in V4. split; [exact F4|]. rewrite V4, T1.
  destruct (rnd_plus (fdiv (fsub (fdiv ds de) one64) (yf64 p)) spread) as (e & E & H). fold x sp in H. rewrite H. replace ((x + sp) * (1 + e) - ((q - 1) / y + sp)) with ((x - (q - 1) / y) + e * (x + sp)) by ring. eapply Rle_trans; [apply Rabs_triang|]. rewrite Rabs_mult.
  assert (M : Rabs e * Rabs (x + sp) <= u53 * (1001 / 1000 * h + t + Rabs sp)) by (apply Rmult_le_compat; auto using Rabs_pos). assert (UT : u53 * t <= t) by (replace t with (1 * t) at 2 by ring; apply Rmult_le_compat_r; lra). assert (US : 0 <= u53 * Rabs sp) by (apply Rmult_le_pos; lra). lra.
Qed.
Print Assumptions C105_reset.

(** A floating period of no length is worth NaN, and so is any swap that has one. *)
Lemma add_nan_l x : fadd B754_nan x = B754_nan. Proof. destruct x; reflexivity. Qed.
Lemma add_nan_r x : fadd x B754_nan = B754_nan. Proof. destruct x; reflexivity. Qed.
Lemma fold_nan l : fold_left fadd l B754_nan = B754_nan. Proof. induction l as [|x l IH]; [reflexivity|]. cbn [fold_left]. rewrite add_nan_l. exact IH. Qed.
Lemma sum_nan l : forall a, In B754_nan l -> fold_left fadd l a = B754_nan.
Proof. induction l as [|x l IH]; intros a []; cbn [fold_left]; [subst x; rewrite add_nan_r; apply fold_nan|apply IH; assumption]. Qed.
Lemma mul_nan x : fmul B754_nan x = B754_nan. Proof. destruct x; reflexivity. Qed.
Lemma self_ratio (d : f64) : finite d -> f64R d <> 0 -> f64R (fdiv d d) = 1 /\ finite (fdiv d d).
Proof. intros F N. destruct (fdiv_ok d d 1 F N ltac:(lia)) as [V G]; [unfold Rdiv; rewrite Rinv_r, Rabs_R1 by exact N; lra|]. split; [|exact G]. rewrite V. unfold Rdiv. rewrite Rinv_r by exact N. exact (rnd_Z 1 ltac:(lia)). Qed.
Theorem C105_no_length_refuted legs l p spread d s : In l legs -> In p (periods64 l) -> terms64 p = Float64 spread d d -> finite d -> f64R d <> 0 -> yf64 p = B754_zero s -> npv64 legs = B754_nan.
Proof.
  intros HL HP T F N Y. unfold npv64. apply sum_nan. apply in_concat. exists (flows64 l). split; [apply in_map; exact HL|]. unfold flows64. apply in_or_app. left. apply in_map_iff. exists p. split; [|exact HP].
  unfold period_pv64, reset_rate64. rewrite T, Y. destruct (self_ratio d F N) as [V G]. destruct one64_ok as [V1 F1]. destruct (fsub_ok (fdiv d d) one64 1 G F1 ltac:(lia)) as [V2 F2]; [rewrite V, V1; rewrite Rminus_diag_eq, Rabs_R0 by reflexivity; lra|].
  assert (Z2 : f64R (fsub (fdiv d d) one64) = 0) by (rewrite V2, V, V1; replace (1 - 1) with 0 by ring; exact (rnd_Z 0 ltac:(lia))). destruct (zero_form _ F2 Z2) as (s' & ->). change (fdiv (B754_zero s') (B754_zero s)) with (@B754_nan 53 1024). rewrite add_nan_l. rewrite !mul_nan. reflexivity.
Qed.
Print Assumptions C105_no_length_refuted.

(** A leg and the same leg turned round do not always add up to nothing: half a year at 5% on a balance of one. *)
Definition percent5 : f64 := fdiv (f64_of_Z 5) (f64_of_Z 100).
Definition half64 : f64 := fdiv one64 (f64_of_Z 2).
Definition half_year : leg64 := {| buy64 := true; periods64 := [{| yf64 := half64; balance64 := one64; terms64 := Fixed64 percent5; df64 := one64 |}] |}.
Theorem C105_cancel_refuted : npv64 [half_year; reversed half_year] = Bopp (fdiv one64 (f64_of_Z 9007199254740992)) /\ npv64 [half_year; reversed half_year] <> B754_zero false /\ npv64 [half_year; reversed half_year] <> B754_zero true.
Proof.
  split; [apply B2SF_inj; vm_compute; reflexivity|]. split; intros E; apply (f_equal (@B2SF 53 1024)) in E; vm_compute in E; discriminate.
Qed.
Print Assumptions C105_cancel_refuted.

(** Half a year at 5% against the curve, on a balance of a million: the flows are finite and of a size the theorem on sums covers, and so is the fixed
    period for the theorem on flows; and a floating period that starts and ends on one day. *)
Definition million : f64 := f64_of_Z 1000000.
Definition df_97 : f64 := fdiv (f64_of_Z 97) (f64_of_Z 100).
Definition fixed_period : period64 := {| yf64 := half64; balance64 := million; terms64 := Fixed64 percent5; df64 := df_97 |}.
Definition par : list leg64 := [{| buy64 := true; periods64 := [fixed_period] |};
  {| buy64 := false; periods64 := [{| yf64 := half64; balance64 := million; terms64 := Float64 zero64 one64 df_97; df64 := df_97 |}] |}].
Definition no_length : period64 := {| yf64 := zero64; balance64 := million; terms64 := Float64 percent5 df_97 df_97; df64 := df_97 |}.
Lemma within (x : f64) (b : Z) : (0 <= b <= 2 ^ 53)%Z -> finite x -> Bleb x (f64_of_Z b) = true -> Bleb (Bopp x) (f64_of_Z b) = true -> Rabs (f64R x) <= IZR b.
Proof.
  intros B F H1 H2. destruct (f64_of_Z_ok b ltac:(lia)) as [V G]. apply Bleb_R in H1; [|exact F|exact G]. apply Bleb_R in H2; [|unfold finite; rewrite is_finite_Bopp; exact F|exact G]. unfold f64R in *. rewrite B2R_Bopp in H2. rewrite V in *. apply Rabs_le. lra.
Qed.
Example C105_witness :
  (Forall finite (concat (map flows64 par)) /\ length (concat (map flows64 par)) = 4%nat /\ size (concat (map flows64 par)) <= 4000000) /\
  (finite (reset_rate64 fixed_period) /\ Rabs (f64R (reset_rate64 fixed_period)) <= 16 /\ Rabs (f64R (yf64 fixed_period)) <= 128 /\ Rabs (f64R (balance64 fixed_period)) <= 1099511627776 /\ Rabs (f64R (df64 fixed_period)) <= 2) /\
  Bltb (npv64 par) zero64 = true /\
  (finite df_97 /\ f64R df_97 <> 0 /\ yf64 no_length = B754_zero false /\ npv64 [{| buy64 := true; periods64 := [fixed_period; no_length] |}] = B754_nan).
Proof.
  assert (D : finite df_97 /\ f64R df_97 <> 0). { split; [vm_compute; reflexivity|]. intros E. destruct (zero_form df_97 ltac:(vm_compute; reflexivity) E) as (s & S). apply (f_equal (@B2SF 53 1024)) in S. vm_compute in S. discriminate. }
  assert (Y : yf64 no_length = B754_zero false) by (apply B2SF_inj; vm_compute; reflexivity).
  split; [|split; [|split; [vm_compute; reflexivity|split; [apply D|split; [apply D|split; [exact Y|]]]]]].
  - split; [|split; [reflexivity|]].
    + apply Forall_forall. assert (B : forallb (@is_finite 53 1024) (concat (map flows64 par)) = true) by (vm_compute; reflexivity). rewrite forallb_forall in B. exact B.
    + assert (B : forallb (fun x => is_finite x && Bleb x (f64_of_Z 1000000) && Bleb (Bopp x) (f64_of_Z 1000000)) (concat (map flows64 par)) = true) by (vm_compute; reflexivity). rewrite forallb_forall in B.
      assert (H : forall x, In x (concat (map flows64 par)) -> Rabs (f64R x) <= 1000000) by (intros x I; specialize (B x I); apply andb_prop in B as [B B3]; apply andb_prop in B as [B1 B2]; exact (within x 1000000 ltac:(lia) B1 B2 B3)).
      assert (L : length (concat (map flows64 par)) = 4%nat) by reflexivity. destruct (concat (map flows64 par)) as [|a [|b [|c [|d [|e l]]]]]; try discriminate L. cbn [size fold_right]. pose proof (H a ltac:(cbn; tauto)). pose proof (H b ltac:(cbn; tauto)). pose proof (H c ltac:(cbn; tauto)). pose proof (H d ltac:(cbn; tauto)). lra.
  - split; [vm_compute; reflexivity|]. split; [apply (within _ 16); [lia|vm_compute; reflexivity..]|]. split; [apply (within _ 128); [lia|vm_compute; reflexivity..]|]. split; [apply (within _ 1099511627776); [lia|vm_compute; reflexivity..]|apply (within _ 2); [lia|vm_compute; reflexivity..]].
  - apply (C105_no_length_refuted _ {| buy64 := true; periods64 := [fixed_period; no_length] |} no_length percent5 df_97 false); [left; reflexivity|right; left; reflexivity|reflexivity|apply D|apply D|exact Y].
Qed.
(** The floating period of that swap. *)
Example C105_witness_reset : let p := {| yf64 := half64; balance64 := million; terms64 := Float64 zero64 one64 df_97; df64 := df_97 |} in
  In p (concat (map periods64 par)) /\ finite one64 /\ finite df_97 /\ finite (yf64 p) /\ finite zero64 /\ f64R df_97 <> 0 /\ / 1048576 <= f64R one64 / f64R df_97 <= 1048576 /\ / 1024 <= f64R (yf64 p) /\ Rabs (f64R zero64) <= 1024.
Proof.
  cbv zeta. destruct one64_ok as [V1 F1]. destruct zero64_ok as [V0 F0]. assert (FD : finite df_97) by (vm_compute; reflexivity). assert (FH : finite half64) by (vm_compute; reflexivity).
  assert (H2 : / 2 <= f64R half64) by (destruct (f64_of_Z_ok 2 ltac:(lia)) as [V2 F2]; destruct (fdiv_ok one64 (f64_of_Z 2) 1 F1 ltac:(rewrite V2; lra) ltac:(lia)) as [V G]; [rewrite V1, V2, Rabs_pos_eq; lra|]; unfold half64; rewrite V, V1, V2; replace (1 / 2) with (F2R (Float radix2 1 (-1))) by (unfold F2R; cbn; lra); unfold rnd; rewrite round_generic; [unfold F2R; cbn; lra|apply valid_rnd_N|apply generic_format_FLT; exists (Float radix2 1 (-1)); [reflexivity|cbn; lia|cbn; lia]]).
  assert (D : f64R half64 <= f64R df_97 <= 1) by (split; [apply Bleb_R; [exact FH|exact FD|vm_compute; reflexivity]|rewrite <- V1; apply Bleb_R; [exact FD|exact F1|vm_compute; reflexivity]]).
  split; [right; left; reflexivity|]. split; [exact F1|]. split; [exact FD|]. split; [exact FH|]. split; [exact F0|]. split; [apply Rgt_not_eq; lra|]. split; [|split; [cbn [yf64]; lra|rewrite V0, Rabs_R0; lra]].
  rewrite V1. unfold Rdiv. rewrite Rmult_1_l. split; [apply Rle_trans with (/ 1); [lra|apply Rinv_le; lra]|apply Rle_trans with (/ / 2); [apply Rinv_le; lra|rewrite Rinv_inv; lra]].
Qed.
(** The whole of it, floating leg included. *)
Lemma unit_usable p : is_finite (reset_rate64 p) = true -> is_finite (yf64 p) = true -> is_finite (balance64 p) = true -> is_finite (df64 p) = true ->
  Rabs (f64R (reset_rate64 p)) <= 1 -> Rabs (f64R (yf64 p)) <= 1 -> Rabs (f64R (balance64 p)) <= 1000000 -> Rabs (f64R (df64 p)) <= 1 ->
  usable p /\ forall buy, Rabs (exact_sign buy * (f64R (reset_rate64 p) * f64R (yf64 p) * f64R (balance64 p) * f64R (df64 p))) <= 1000000 /\ Rabs (exact_sign buy * (f64R (balance64 p) * f64R (df64 p))) <= 1000000.
Proof.
  intros F1 F2 F3 F4 B1 B2 B3 B4. split; [repeat split; try assumption; lra|]. intros buy. assert (S : Rabs (exact_sign buy) <= 1) by (destruct buy; cbn [exact_sign]; [rewrite Rabs_R1|rewrite Rabs_left]; lra).
  pose proof (product_bound _ _ _ _ S (product_bound _ _ _ _ (product_bound _ _ _ _ (product_bound _ _ _ _ B1 B2) B3) B4)). pose proof (product_bound _ _ _ _ S (product_bound _ _ _ _ B3 B4)). split; lra.
Qed.
Example C105_witness_accuracy : Forall (fun l => Forall usable (periods64 l)) par /\ length (concat (map exact_flows par)) = 4%nat /\ magnitude (concat (map exact_flows par)) <= 4000000.
Proof.
  assert (P1 : forall p, In p (concat (map periods64 par)) -> usable p /\ forall buy, Rabs (exact_sign buy * (f64R (reset_rate64 p) * f64R (yf64 p) * f64R (balance64 p) * f64R (df64 p))) <= 1000000 /\ Rabs (exact_sign buy * (f64R (balance64 p) * f64R (df64 p))) <= 1000000).
  { intros p [<-|[<-|[]]]; (apply unit_usable; [vm_compute; reflexivity..| | | |]; [apply (within _ 1)|apply (within _ 1)|apply (within _ 1000000)|apply (within _ 1)]; first [split; lia|vm_compute; reflexivity]). }
  destruct (P1 _ (or_introl eq_refl)) as [U1 M1]. destruct (P1 _ (or_intror (or_introl eq_refl))) as [U2 M2]. split; [constructor; [constructor; [exact U1|constructor]|constructor; [constructor; [exact U2|constructor]|constructor]]|]. split; [reflexivity|].
  unfold par, exact_flows. cbn [map concat periods64 buy64 rev app magnitude fold_right]. destruct (M1 true), (M2 false). lra.
Qed.
