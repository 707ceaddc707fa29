(** C103: the value of an FX forward in binary64. *)
From Coq Require Import Bool List ZArith Reals Lra Lia Psatz.
From Flocq Require Import Core BinarySingleNaN.
From Verif Require Import F64 Clock64 Clock64Facts Chol64 Chol64Facts P_Chol64 Bisect64 Bisect64Facts Floor64 P_Floor64 Validate64 P_Validate64 Fx FxFacts Forward64.
Open Scope R_scope.

Lemma mul_opp (x y : f64) : fmul (Bopp x) y = Bopp (fmul x y).
Proof.
  unfold fmul. destruct (is_finite x) eqn:FX, (is_finite y) eqn:FY.
  - pose proof (Bmult_correct 53 1024 _ _ mode_NE x y) as C. pose proof (Bmult_correct 53 1024 _ _ mode_NE (Bopp x) y) as D.
    rewrite B2R_Bopp, is_finite_Bopp, FX, FY in D. rewrite FX, FY in C. cbn [andb] in *.
    replace (- B2R x * B2R y) with (- (B2R x * B2R y)) in D by ring. cbn [round_mode] in *. rewrite round_NE_opp, Rabs_Ropp in D.
    assert (NX : is_nan x = false) by (destruct x; try discriminate; reflexivity). rewrite Bsign_Bopp in D by exact NX.
    destruct (Rlt_bool _ _).
    + destruct C as (C1 & C2 & C3), D as (D1 & D2 & D3). assert (N1 : is_nan (Bmult mode_NE x y) = false) by (destruct (Bmult mode_NE x y); try discriminate; reflexivity). assert (N2 : is_nan (Bmult mode_NE (Bopp x) y) = false) by (destruct (Bmult mode_NE (Bopp x) y); try discriminate; reflexivity).
      apply B2R_Bsign_inj; [exact D2|rewrite is_finite_Bopp; exact C2|rewrite B2R_Bopp, C1, D1; reflexivity|]. rewrite Bsign_Bopp by exact N1; rewrite (C3 N1), (D3 N2). destruct (Bsign x), (Bsign y); reflexivity.
    + apply B2SF_inj. rewrite D. destruct (Bmult mode_NE x y) as [s|s| |s m e B]; cbn [B2SF] in C; unfold binary_overflow in *; cbn [overflow_to_inf] in *; try discriminate C. cbn [Bopp B2SF]. injection C as ->. destruct (Bsign x), (Bsign y); reflexivity.
  - destruct x as [s|s| |s m e B], y as [s'|s'| |s' m' e' B']; try discriminate; try reflexivity; destruct s, s'; reflexivity.
  - destruct x as [s|s| |s m e B], y as [s'|s'| |s' m' e' B']; try discriminate; try reflexivity; destruct s, s'; reflexivity.
  - destruct x as [s|s| |s m e B], y as [s'|s'| |s' m' e' B']; try discriminate; try reflexivity; destruct s, s'; reflexivity.
Qed.
Lemma mul_opp_r (x y : f64) : fmul x (Bopp y) = Bopp (fmul x y).
Proof.
  assert (C : forall a b : f64, fmul a b = fmul b a); [|rewrite C, mul_opp, C; reflexivity].
  intros a b. unfold fmul. destruct (is_finite a) eqn:FA, (is_finite b) eqn:FB.
  - pose proof (Bmult_correct 53 1024 _ _ mode_NE a b) as C. pose proof (Bmult_correct 53 1024 _ _ mode_NE b a) as D. rewrite FA, FB, (Rmult_comm (B2R b)), (xorb_comm (Bsign b)) in *. cbn [andb] in *. destruct (Rlt_bool _ _).
    + destruct C as (C1 & C2 & C3), D as (D1 & D2 & D3). assert (N1 : is_nan (Bmult mode_NE a b) = false) by (destruct (Bmult mode_NE a b); try discriminate; reflexivity). assert (N2 : is_nan (Bmult mode_NE b a) = false) by (destruct (Bmult mode_NE b a); try discriminate; reflexivity).
      apply B2R_Bsign_inj; [exact C2|exact D2|congruence|rewrite (C3 N1), (D3 N2); reflexivity].
    + apply B2SF_inj. congruence.
  - destruct a as [s|s| |s m e B], b as [s'|s'| |s' m' e' B']; try discriminate; try reflexivity; destruct s, s'; reflexivity.
  - destruct a as [s|s| |s m e B], b as [s'|s'| |s' m' e' B']; try discriminate; try reflexivity; destruct s, s'; reflexivity.
  - destruct a as [s|s| |s m e B], b as [s'|s'| |s' m' e' B']; try discriminate; try reflexivity; destruct s, s'; reflexivity.
Qed.

(** Buying and selling are worth opposite amounts to the last bit, whatever the inputs, NaN and infinities included. *)
Theorem C103_antisymmetric p foreign buy notional strike spot points df :
  forward64 p foreign (negb buy) notional strike spot points df = Bopp (forward64 p foreign buy notional strike spot points df) /\
  delta64 foreign (negb buy) notional strike = Bopp (delta64 foreign buy notional strike).
Proof.
  assert (D : delta64 foreign (negb buy) notional strike = Bopp (delta64 foreign buy notional strike)).
  { unfold delta64. destruct foreign, buy; cbn [negb direction64]; rewrite mul_opp_r, ?Bopp_involutive; reflexivity. }
  split; [|exact D]. unfold forward64. rewrite D, !mul_opp. reflexivity.
Qed.
Print Assumptions C103_antisymmetric.

Lemma mul_one (x : f64) : finite x -> f64R (fmul x one64) = f64R x /\ finite (fmul x one64).
Proof.
  intros F. pose proof (Bmult_correct 53 1024 _ _ mode_NE x one64) as C. destruct one64_ok as [V1 F1]. unfold f64R, finite in *. rewrite V1, Rmult_1_r, F, F1 in C. cbn [andb] in C.
  pose proof (rnd_id _ (format64 x)) as E. unfold rnd, f64R in E. cbn [round_mode] in C. change (SpecFloat.fexp 53 1024) with (FLT_exp (-1074) 53) in C. unfold ZnearestE in *. rewrite E in C. rewrite Rlt_bool_true in C by (apply abs_B2R_lt_emax). destruct C as (C1 & C2 & _). split; assumption.
Qed.
Lemma mul_direction buy (x : f64) : finite x -> f64R (fmul x (direction64 buy)) = f64R x * (if buy then 1 else -1) /\ finite (fmul x (direction64 buy)).
Proof.
  intros F. destruct (mul_one x F) as [V G]. destruct buy; cbn [direction64]; [split; [rewrite V; ring|exact G]|]. rewrite mul_opp_r. split; [unfold f64R in *; rewrite B2R_Bopp, V; ring|unfold finite in *; rewrite is_finite_Bopp; exact G].
Qed.
Lemma converter_ok p : finite (converter64 p) /\ f64R (converter64 p) = IZR (forward_points_converter p) /\ 100 <= IZR (forward_points_converter p).
Proof.
  unfold converter64. assert (K : (forward_points_converter p = 100 \/ forward_points_converter p = 10000)%Z) by (destruct (converter_jpy p) as [[E _]|[E _]]; [left|right]; exact E).
  destruct (f64_of_Z_ok (forward_points_converter p)) as [V F]; [destruct K as [-> | ->]; lia|]. split; [exact F|]. split; [exact V|]. apply IZR_le. destruct K as [-> | ->]; lia.
Qed.

(** A contract made at the market, struck at the outright forward itself, is worth nothing to the last bit. *)
Theorem C103_market p foreign buy notional spot points df : let strike := outright64 p spot points in
  finite strike -> finite (delta64 foreign buy notional strike) -> finite df -> finite (forward64 p foreign buy notional strike spot points df) /\ f64R (forward64 p foreign buy notional strike spot points df) = 0.
Proof.
  cbv zeta. set (k := outright64 p spot points). intros FK FD FF. unfold forward64. fold k.
  destruct (fsub_ok k k 0 FK FK ltac:(lia)) as [V F]; [rewrite Rminus_diag_eq, Rabs_R0 by reflexivity; lra|]. rewrite Rminus_diag_eq, rnd_0 in V by reflexivity.
  destruct (fmul_ok (delta64 foreign buy notional k) (fsub k k) 0 FD F ltac:(lia)) as [V2 F2]; [rewrite V, Rmult_0_r, Rabs_R0; lra|]. rewrite V, Rmult_0_r, rnd_0 in V2.
  destruct (fmul_ok _ df 0 F2 FF ltac:(lia)) as [V3 F3]; [rewrite V2, Rmult_0_l, Rabs_R0; lra|]. rewrite V2, Rmult_0_l, rnd_0 in V3. split; [exact F3|exact V3].
Qed.
Print Assumptions C103_market.

(** The forward less the strike: four roundings of everything added up. *)
Lemma gap_err p spot points strike (c := IZR (forward_points_converter p)) (B := Rabs (f64R spot) + Rabs (f64R points / c) + Rabs (f64R strike)) :
  finite spot -> finite points -> finite strike -> B <= 2048 ->
  finite (fsub (outright64 p spot points) strike) /\ Rabs (f64R (fsub (outright64 p spot points) strike) - (f64R spot + f64R points / c - f64R strike)) <= 4 * u53 * B + 5 * bpow radix2 (-1000).
Proof.
  intros FS FP FK HB. destruct (converter_ok p) as (FC & VC & CC). fold c in VC, CC. pose proof u53_pos as U. pose proof u53_eq as UE. set (t := bpow radix2 (-1000)). assert (T : 0 < t <= / 1000) by (split; [apply bpow_gt_0|apply Rle_trans with (bpow radix2 (-10)); [apply bpow_le; lia|]; change (bpow radix2 (-10)) with (/ 1024); lra]).
  set (s := f64R spot) in *. set (k := f64R strike) in *. set (q := f64R points / c) in *. pose proof (Rabs_pos s) as S0. pose proof (Rabs_pos q) as Q0. pose proof (Rabs_pos k) as K0. assert (B0 : 0 <= B) by (unfold B; lra).
  set (b := u53 * B). assert (HB' : 0 <= b <= / 1000) by (unfold b; nra). assert (UB : 0 <= u53 * b <= b / 1000) by nra. assert (UT : 0 <= u53 * t <= t / 1000) by nra.
  unfold outright64. destruct (fdiv_ok points (converter64 p) 2048 FP ltac:(rewrite VC; lra) ltac:(lia)) as [VQ FQ]; [rewrite VC; fold q; unfold B in HB; lra|]. rewrite VC in VQ. fold q in VQ. pose proof (rnd_abs q) as EQ. rewrite <- VQ in EQ. fold t in EQ. set (q' := f64R (fdiv points (converter64 p))) in *.
  assert (E1 : Rabs (q' - q) <= b + t) by (apply Rle_trans with (1 := EQ); unfold b, B; nra). clear EQ.
  assert (A1 : Rabs (s + q') <= B + b + t) by (replace (s + q') with (s + q + (q' - q)) by ring; eapply Rle_trans; [apply Rabs_triang|]; pose proof (Rabs_triang s q); unfold B; lra).
  destruct (fadd_ok spot (fdiv points (converter64 p)) 4096 FS FQ ltac:(lia)) as [VF FF]; [fold s q'; lra|]. fold s q' in VF. pose proof (rnd_abs (s + q')) as EF. rewrite <- VF in EF. fold t in EF. set (f := f64R (fadd spot (fdiv points (converter64 p)))) in *.
  assert (E2 : Rabs (f - (s + q')) <= b + b / 500 + 2 * t) by (apply Rle_trans with (1 := EF); apply Rle_trans with (u53 * (B + b + t) + t); [apply Rplus_le_compat_r, Rmult_le_compat_l; lra|]; replace (u53 * (B + b + t)) with (b + u53 * b + u53 * t) by (unfold b; ring); lra). clear EF.
  assert (E3 : Rabs (f - (s + q)) <= 2 * b + b / 500 + 3 * t) by (replace (f - (s + q)) with ((f - (s + q')) + (q' - q)) by ring; eapply Rle_trans; [apply Rabs_triang|]; lra).
  assert (A2 : Rabs (f - k) <= B + 3 * b + 3 * t). { replace (f - k) with ((f - (s + q)) + (s + q + - k)) by ring. eapply Rle_trans; [apply Rabs_triang|]. pose proof (Rabs_triang (s + q) (- k)) as R1. pose proof (Rabs_triang s q) as R2. rewrite Rabs_Ropp in R1. unfold B. lra. }
  destruct (fsub_ok (fadd spot (fdiv points (converter64 p))) strike 4096 FF FK ltac:(lia)) as [VX FX]; [fold f k; lra|]. fold f k in VX. split; [exact FX|]. rewrite VX. pose proof (rnd_abs (f - k)) as EX. fold t in EX.
  assert (E4 : Rabs (rnd (f - k) - (f - k)) <= b + b / 100 + t + t / 100) by (apply Rle_trans with (1 := EX); apply Rle_trans with (u53 * (B + 3 * b + 3 * t) + t); [apply Rplus_le_compat_r, Rmult_le_compat_l; lra|]; replace (u53 * (B + 3 * b + 3 * t)) with (b + 3 * (u53 * b) + 3 * (u53 * t)) by (unfold b; ring); lra).
  replace (rnd (f - k) - (s + q - k)) with ((rnd (f - k) - (f - k)) + (f - (s + q))) by ring. eapply Rle_trans; [apply Rabs_triang|]. replace (4 * u53 * B) with (4 * b) by (unfold b; ring). apply Rle_trans with ((b + b / 100 + t + t / 100) + (2 * b + b / 500 + 3 * t)); [lra|].
  lra.
Qed.

(** The value of a contract: [w] is the notional in foreign currency with its sign, exact, and
    [m] roundings were made in computing it. *)
Lemma value_err (d x df : f64) w gap B G m : finite d -> finite x -> finite df -> 0 <= m <= 1 -> Rabs w <= G -> G <= 1099511627776 -> Rabs (f64R d - w) <= m * u53 * G -> Rabs gap <= B -> B <= 2048 -> 0 <= f64R df <= 1 ->
  Rabs (f64R x - gap) <= 4 * u53 * B + 5 * bpow radix2 (-1000) ->
  finite (fmul (fmul d x) df) /\ Rabs (f64R (fmul (fmul d x) df) - w * gap * f64R df) <= (8 + m) * u53 * (G * B * f64R df) + bpow radix2 (-900).
Proof.
  intros FD FX FF M HW HG ED HGAP HB HF EX. pose proof u53_pos as U. pose proof u53_eq as UE. set (t := bpow radix2 (-1000)) in *. assert (T0 : 0 < t) by apply bpow_gt_0.
  assert (T1 : bpow radix2 (-1075) <= t) by (apply bpow_le; lia). assert (T2 : bpow radix2 (-900) = 1267650600228229401496703205376 * t) by (unfold t; change (-900)%Z with (100 + -1000)%Z; rewrite bpow_plus; reflexivity).
  assert (T3 : t <= / 1000000000000000000) by (apply Rle_trans with (bpow radix2 (-60)); [apply bpow_le; lia|]; change (bpow radix2 (-60)) with (/ 1152921504606846976); lra).
  pose proof (Rabs_pos w) as W0. pose proof (Rabs_pos gap) as G0. assert (GP : 0 <= G) by lra. assert (BP : 0 <= B) by lra. assert (GB : 0 <= G * B) by nra.
  pose proof (prod_err (f64R x) (f64R d) gap w B G 4 m (5 * t) ltac:(lra) ltac:(lra) ltac:(lra) HGAP HW EX ED) as P1.
  assert (XB : Rabs (f64R x) <= 2049). { replace (f64R x) with (f64R x - gap + gap) by ring. eapply Rle_trans; [apply Rabs_triang|]. assert (4 * u53 * B <= 1 / 4) by nra. lra. }
  assert (DB : Rabs (f64R d) <= 1099511627777). { replace (f64R d) with (f64R d - w + w) by ring. eapply Rle_trans; [apply Rabs_triang|]. assert (m * u53 * G <= 1) by nra. lra. }
  destruct (fmul_ok d x 4503599627370496 FD FX ltac:(lia)) as [V1 F1]; [rewrite Rabs_mult; apply Rle_trans with (1099511627777 * 2049); [apply Rmult_le_compat; try apply Rabs_pos; assumption|lra]|].
  rewrite (Rmult_comm (f64R d)) in V1. rewrite <- V1 in P1. set (y := f64R (fmul d x)) in *.
  assert (P1' : Rabs (y - gap * w) <= (6 + m) * u53 * (G * B) + (10 * t * G + t)) by (apply Rle_trans with (1 := P1); replace ((4 + m + 2) * u53 * (B * G)) with ((6 + m) * u53 * (G * B)) by ring; lra).
  assert (GW : Rabs (gap * w) <= G * B) by (rewrite Rabs_mult, Rmult_comm; apply Rmult_le_compat; assumption).
  assert (TG : 0 <= t * G <= 1099511627776 * t) by nra.
  pose proof (prod_err y (f64R df) (gap * w) (f64R df) (G * B) (f64R df) (6 + m) 0 (10 * t * G + t) ltac:(lra) ltac:(lra) ltac:(nra) GW ltac:(rewrite Rabs_pos_eq; lra) P1' ltac:(rewrite Rminus_diag_eq, Rabs_R0 by reflexivity; lra)) as P2.
  assert (YB : Rabs y <= 4503599627370496) by (rewrite V1; apply rnd_bound; [lia|]; rewrite Rabs_mult; apply Rle_trans with (2049 * 1099511627777); [apply Rmult_le_compat; try apply Rabs_pos; assumption|lra]).
  destruct (fmul_ok (fmul d x) df 4503599627370496 F1 FF ltac:(lia)) as [V2 F2]; [fold y; rewrite Rabs_mult, (Rabs_pos_eq (f64R df)) by lra; pose proof (Rabs_pos y); nra|]. fold y in V2. split; [exact F2|]. rewrite V2.
  replace (w * gap * f64R df) with (gap * w * f64R df) by ring. apply Rle_trans with (1 := P2). replace ((6 + m + 0 + 2) * u53 * (G * B * f64R df)) with ((8 + m) * u53 * (G * B * f64R df)) by ring.
  assert (TD : 2 * (10 * t * G + t) * f64R df <= 2 * (10 * t * G + t)) by (rewrite <- (Rmult_1_r (2 * (10 * t * G + t))) at 2; apply Rmult_le_compat_l; [nra|lra]). lra.
Qed.

(** The value is the exact one to within nine roundings of the notional times everything that is
    added up, for forwards and strikes up to 2048 and notionals up to 2^40, about a trillion. *)
Theorem C103_accuracy p buy notional strike spot points df (c := IZR (forward_points_converter p)) (B := Rabs (f64R spot) + Rabs (f64R points / c) + Rabs (f64R strike)) :
  finite notional -> finite strike -> finite spot -> finite points -> finite df -> B <= 2048 -> 0 <= f64R df <= 1 ->
  (Rabs (f64R notional) <= 1099511627776 ->
    let v := forward64 p true buy notional strike spot points df in
    finite v /\ Rabs (f64R v - f64R notional * (if buy then 1 else -1) * (f64R spot + f64R points / c - f64R strike) * f64R df) <= 8 * u53 * (Rabs (f64R notional) * B * f64R df) + bpow radix2 (-900)) /\
  (1 <= Rabs (f64R notional) <= 1073741824 -> / 1024 <= f64R strike ->
    let v := forward64 p false buy notional strike spot points df in
    finite v /\ Rabs (f64R v - - f64R notional / f64R strike * (if buy then 1 else -1) * (f64R spot + f64R points / c - f64R strike) * f64R df) <= 9 * u53 * (Rabs (f64R notional) / f64R strike * B * f64R df) + bpow radix2 (-900)).
Proof.
  intros FN FK FS FP FF HB HF. destruct (gap_err p spot points strike FS FP FK HB) as [FX EX]. fold c in EX. fold B in EX.
  assert (GAP : Rabs (f64R spot + f64R points / c - f64R strike) <= B) by (pose proof (Rabs_triang (f64R spot + f64R points / c) (- f64R strike)) as R1; pose proof (Rabs_triang (f64R spot) (f64R points / c)) as R2; rewrite Rabs_Ropp in R1; unfold B, Rminus; lra).
  assert (SG : Rabs (if buy then 1 else -1) = 1) by (destruct buy; [apply Rabs_pos_eq; lra|rewrite Rabs_left; lra]).
  split.
  - intros HN v. unfold v, forward64, delta64. destruct (mul_direction buy notional FN) as [VD FD]. pose proof u53_pos as U.
    destruct (value_err (fmul notional (direction64 buy)) _ df (f64R notional * (if buy then 1 else -1)) _ B (Rabs (f64R notional)) 0 FD FX FF ltac:(lra) ltac:(rewrite Rabs_mult, SG; lra) HN ltac:(rewrite VD, Rminus_diag_eq, Rabs_R0 by reflexivity; lra) GAP HB HF EX) as [F E]. split; [exact F|]. rewrite Rplus_0_r in E. exact E.
  - intros HN HK v. unfold v, forward64, delta64. pose proof u53_pos as U. set (n := f64R notional) in *. set (k := f64R strike) in *. set (dir := if buy then 1 else -1) in *.
    assert (FO : finite (Bopp notional)) by (unfold finite in *; rewrite is_finite_Bopp; exact FN). assert (VO : f64R (Bopp notional) = - n) by (unfold n, f64R; apply B2R_Bopp).
    assert (KB : k <= 2048) by (pose proof (Rabs_pos (f64R spot)); pose proof (Rabs_pos (f64R points / c)); unfold B in HB; rewrite (Rabs_pos_eq k) in HB by lra; lra).
    assert (AB : Rabs (- n / k) = Rabs n / k) by (unfold Rdiv; rewrite Rabs_mult, Rabs_Ropp, (Rabs_pos_eq (/ k)); [reflexivity|left; apply Rinv_0_lt_compat; lra]).
    assert (IK : / 2048 <= / k <= 1024) by (split; [apply Rinv_le_contravar; lra|rewrite <- (Rinv_inv 1024); apply Rinv_le_contravar; lra]).
    assert (QB : / 2048 <= Rabs n / k <= 1099511627776) by (unfold Rdiv; split; nra).
    destruct (fdiv_ok (Bopp notional) strike 1099511627776 FO ltac:(fold k; lra) ltac:(lia)) as [VQ FQ]; [rewrite VO; fold k; rewrite AB; lra|]. rewrite VO in VQ. fold k in VQ.
    assert (NU : bpow radix2 (-1022) <= Rabs (- n / k)) by (rewrite AB; apply Rle_trans with (bpow radix2 (-11)); [apply bpow_le; lia|]; change (bpow radix2 (-11)) with (/ 2048); lra).
    destruct (rnd_rel _ NU) as (e & E & VE). rewrite VE in VQ. destruct (mul_direction buy _ FQ) as [VD FD]. fold dir in VD. rewrite VQ in VD.
    destruct (value_err _ _ df (- n / k * dir) _ B (Rabs n / k) 1 FD FX FF ltac:(lra) ltac:(rewrite Rabs_mult, SG, AB; lra) ltac:(lra) ltac:(rewrite VD; replace (- n / k * (1 + e) * dir - - n / k * dir) with (- n / k * dir * e) by ring; rewrite !Rabs_mult, SG, AB, Rmult_1_r, Rmult_1_l, Rmult_comm; apply Rmult_le_compat_r; [lra|exact E]) GAP HB HF EX) as [F E2]. split; [exact F|]. replace (8 + 1) with 9 in E2 by ring. exact E2.
Qed.
Print Assumptions C103_accuracy.

(** Nothing checks the strike: a notional in domestic currency with a strike of zero is sold as
    infinitely many units of foreign currency. *)
Theorem C103_zero_strike_refuted (notional : f64) : finite notional -> 0 < f64R notional -> delta64 false true notional zero64 = B754_infinity true /\
  forall p spot, finite spot -> 0 < f64R spot -> forward64 p false true notional zero64 spot zero64 one64 = B754_infinity true.
Proof.
  intros F H. assert (D : delta64 false true notional zero64 = B754_infinity true) by (destruct notional as [s|s| |s m e B]; try discriminate F; [cbn in H; lra|destruct s; [exfalso|reflexivity]]; unfold f64R in H; cbn [B2R] in H; pose proof (F2R_lt_0 radix2 (Float radix2 (cond_Zopp true (Z.pos m)) e) ltac:(cbn; lia)); lra).
  split; [exact D|]. intros p spot FS HS. unfold forward64. rewrite D. destruct (converter_ok p) as (FC & VC & CC). destruct zero64_ok as [V0 F0].
  destruct (fdiv_ok zero64 (converter64 p) 0 F0 ltac:(rewrite VC; lra) ltac:(lia)) as [V1 F1]; [rewrite V0; unfold Rdiv; rewrite Rmult_0_l, Rabs_R0; lra|]. rewrite V0 in V1. unfold Rdiv in V1. rewrite Rmult_0_l, rnd_0 in V1.
  assert (X : finite (fsub (outright64 p spot zero64) zero64) /\ f64R (fsub (outright64 p spot zero64) zero64) = f64R spot).
  { assert (ADD : forall x y : f64, finite x -> finite y -> f64R y = 0 -> finite (fadd x y) /\ f64R (fadd x y) = f64R x).
    { intros x y Fx Fy Vy. pose proof (Bplus_correct 53 1024 _ _ mode_NE x y Fx Fy) as C. unfold f64R in Vy. rewrite Vy, Rplus_0_r in C. pose proof (rnd_id _ (format64 x)) as E. unfold rnd, f64R in E. cbn [round_mode] in C. change (SpecFloat.fexp 53 1024) with (FLT_exp (-1074) 53) in C. rewrite E in C. rewrite Rlt_bool_true in C by (apply abs_B2R_lt_emax). destruct C as (C1 & C2 & _). split; [exact C2|exact C1]. }
    unfold outright64. destruct (ADD spot _ FS F1 V1) as [FA VA]. pose proof (Bminus_correct 53 1024 _ _ mode_NE (fadd spot (fdiv zero64 (converter64 p))) zero64 FA F0) as C. unfold f64R in V0. rewrite V0, Rminus_0_r in C. pose proof (rnd_id _ (format64 (fadd spot (fdiv zero64 (converter64 p))))) as E. unfold rnd, f64R in E. cbn [round_mode] in C. change (SpecFloat.fexp 53 1024) with (FLT_exp (-1074) 53) in C. rewrite E in C. rewrite Rlt_bool_true in C by (apply abs_B2R_lt_emax). destruct C as (C1 & C2 & _). split; [exact C2|unfold f64R in *; unfold fsub; rewrite C1; exact VA]. }
  destruct X as [FX VX]. destruct (fsub (outright64 p spot zero64) zero64) as [s|s| |s m e B]; try discriminate FX; [cbn in VX; lra|]. destruct s; [|reflexivity]. exfalso. unfold f64R in VX at 1. cbn [B2R] in VX. pose proof (F2R_lt_0 radix2 (Float radix2 (cond_Zopp true (Z.pos m)) e) ltac:(cbn; lia)). lra.
Qed.
Print Assumptions C103_zero_strike_refuted.

Lemma mul_value (x y : f64) : finite (fmul x y) -> f64R (fmul x y) = rnd (f64R x * f64R y).
Proof.
  intros F. pose proof (Bmult_correct 53 1024 _ _ mode_NE x y) as C. destruct (Rlt_bool _ _); [destruct C as (C & _); exact C|]. exfalso. unfold finite, fmul in F. destruct (Bmult mode_NE x y); cbn [B2SF] in C; unfold binary_overflow in C; cbn [overflow_to_inf] in C; discriminate.
Qed.
Lemma mul_finite (x y : f64) : finite (fmul x y) -> finite x /\ finite y.
Proof. unfold finite, fmul. destruct x as [s|s| |s m e B], y as [s'|s'| |s' m' e' B']; intros F; try discriminate F; split; reflexivity. Qed.
Lemma sub_value (x y : f64) : finite x -> finite y -> finite (fsub x y) -> f64R (fsub x y) = rnd (f64R x - f64R y).
Proof.
  intros Fx Fy F. pose proof (Bminus_correct 53 1024 _ _ mode_NE x y Fx Fy) as C. destruct (Rlt_bool _ _); [destruct C as (C & _); exact C|]. exfalso. destruct C as [C _]. unfold finite, fsub in F. destruct (Bminus mode_NE x y); cbn [B2SF] in C; unfold binary_overflow in C; cbn [overflow_to_inf] in C; discriminate.
Qed.
Lemma sub_finite (x y : f64) : finite (fsub x y) -> finite x /\ finite y.
Proof. unfold finite, fsub. destruct x as [[|]|[|]| |s m e B], y as [[|]|[|]| |s' m' e' B']; intros F; try discriminate F; split; reflexivity. Qed.

(** As long as its value is finite, whatever the size of its terms: a bought contract above the strike is never worth less than
    nothing, nor one below it more, and the other way round for one bought in domestic currency. *)
Theorem C103_sign p notional strike spot points df : 0 <= f64R notional -> 0 <= f64R df ->
  (let v := forward64 p true true notional strike spot points df in
   finite v -> (f64R strike <= f64R (outright64 p spot points) -> 0 <= f64R v) /\ (f64R (outright64 p spot points) <= f64R strike -> f64R v <= 0)) /\
  (let v := forward64 p false true notional strike spot points df in
   0 < f64R strike -> finite v -> (f64R strike <= f64R (outright64 p spot points) -> f64R v <= 0) /\ (f64R (outright64 p spot points) <= f64R strike -> 0 <= f64R v)).
Proof.
  intros HN HD. assert (R0 : forall x, 0 <= x -> 0 <= rnd x) by (intros x H; rewrite <- rnd_0; apply rnd_mono, H). assert (R1 : forall x, x <= 0 -> rnd x <= 0) by (intros x H; rewrite <- rnd_0; apply rnd_mono, H).
  assert (COMMON : forall d, finite (fmul (fmul d (fsub (outright64 p spot points) strike)) df) -> finite d /\ f64R (fmul (fmul d (fsub (outright64 p spot points) strike)) df) = rnd (rnd (f64R d * rnd (f64R (outright64 p spot points) - f64R strike)) * f64R df)).
  { intros d F. rewrite (mul_value _ _ F). destruct (mul_finite _ _ F) as [F1 _]. rewrite (mul_value _ _ F1). destruct (mul_finite _ _ F1) as [FD FX]. destruct (sub_finite _ _ FX) as [FO FK]. rewrite (sub_value _ _ FO FK FX). split; [exact FD|reflexivity]. }
  assert (POS : forall d g, 0 <= d -> (0 <= g -> 0 <= rnd (rnd (d * rnd g) * f64R df)) /\ (g <= 0 -> rnd (rnd (d * rnd g) * f64R df) <= 0)).
  { intros d g H. split; intros G; [apply R0, Rmult_le_pos; [apply R0, Rmult_le_pos; [exact H|apply R0, G]|exact HD]|]. apply R1. assert (rnd (d * rnd g) <= 0) by (apply R1; pose proof (R1 g G); nra). nra. }
  assert (NEG : forall d g, d <= 0 -> (0 <= g -> rnd (rnd (d * rnd g) * f64R df) <= 0) /\ (g <= 0 -> 0 <= rnd (rnd (d * rnd g) * f64R df))).
  { intros d g H. split; intros G; [apply R1; assert (rnd (d * rnd g) <= 0) by (apply R1; pose proof (R0 g G); nra); nra|]. apply R0, Rmult_le_pos; [|exact HD]. apply R0. pose proof (R1 g G). nra. }
  split; [intros v F|intros v HK F]; unfold v, forward64, delta64 in *; destruct (COMMON _ F) as [FD E]; rewrite E; clear E.
  - destruct (mul_finite _ _ FD) as [FN _]. destruct (mul_direction true notional FN) as [VD _]. rewrite VD, Rmult_1_r. destruct (POS (f64R notional) (f64R (outright64 p spot points) - f64R strike) HN) as [P1 P2]. split; intros; [apply P1|apply P2]; lra.
  - destruct (mul_finite _ _ FD) as [FQ _]. destruct (mul_direction true _ FQ) as [VD _]. rewrite VD, Rmult_1_r. assert (Q : f64R (fdiv (Bopp notional) strike) <= 0).
    { rewrite (div_value _ _ (Rgt_not_eq _ _ HK) FQ). apply R1. assert (VO : f64R (Bopp notional) = - f64R notional) by (unfold f64R; apply B2R_Bopp). rewrite VO. unfold Rdiv. pose proof (Rinv_0_lt_compat _ HK). nra. }
    destruct (NEG _ (f64R (outright64 p spot points) - f64R strike) Q) as [P1 P2]. split; intros; [apply P1|apply P2]; lra.
Qed.
Print Assumptions C103_sign.

(** A million euros bought against dollars at 1.25 with 80 forward points, discounted by
    a quarter: worth 6000 dollars, and nothing if struck at the outright forward. *)
Example C103_witness : let spot := f64_lit 5 (-2) in let df := f64_lit 3 (-2) in let n := f64_of_Z 1000000 in let points := f64_of_Z 80 in
  finite spot /\ finite df /\ finite n /\ finite points /\ 0 <= f64R df <= 1 /\ 1 <= Rabs (f64R n) <= 1073741824 /\ / 1024 <= f64R spot /\
  Rabs (f64R spot) + Rabs (f64R points / IZR (forward_points_converter EURUSD)) + Rabs (f64R spot) <= 2048 /\
  Bltb (fabs (fsub (forward64 EURUSD true true n spot spot points df) (f64_of_Z 6000))) (f64_lit 1 (-20)) = true /\
  Beqb (forward64 EURUSD true true n (outright64 EURUSD spot points) spot points df) zero64 = true.
Proof.
  cbv zeta. assert (P : bpow radix2 (-2) = / 4) by reflexivity. destruct (lit_ok 5 (-2) 2) as [VS FS]; [reflexivity|lia|lia|rewrite P, Rabs_pos_eq; lra|]. destruct (lit_ok 3 (-2) 2) as [VD FD]; [reflexivity|lia|lia|rewrite P, Rabs_pos_eq; lra|]. rewrite P in VS, VD. destruct (f64_of_Z_ok 1000000 ltac:(lia)) as [VN FN]. destruct (f64_of_Z_ok 80 ltac:(lia)) as [VP FP].
  split; [exact FS|]. split; [exact FD|]. split; [exact FN|]. split; [exact FP|]. split; [rewrite VD; lra|]. split; [rewrite VN, Rabs_pos_eq; lra|]. split; [rewrite VS; lra|]. split; [|split; vm_compute; reflexivity].
  rewrite VS, VP. change (forward_points_converter EURUSD) with 10000%Z. rewrite !Rabs_pos_eq by lra. lra.
Qed.
