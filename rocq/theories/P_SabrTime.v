(** C73: the time-dependent SABR simulator. *)
From Coq Require Import Bool List Arith Reals Lra Lia Psatz.
Import ListNotations.
From Verif Require Import Outcome Processes ProcessFacts SabrEffective P_SabrEffective P_Processes.
Open Scope R_scope.

Lemma same_list_spec l m : same_list l m = true <-> l = m.
Proof. unfold same_list. destruct (list_eq_dec Req_EM_T l m); split; congruence. Qed.
Lemma Rltb_spec x y : Rltb x y = true <-> x < y.
Proof. unfold Rltb. destruct (Rlt_dec x y); split; try discriminate; tauto. Qed.
Lemma Rleb_spec x y : Rleb x y = true <-> x <= y.
Proof. unfold Rleb. destruct (Rle_dec x y); split; try discriminate; tauto. Qed.
Lemma guard {A} b (k : outcome A) r : (if negb b then Panic PAssert else k) = Ok r <-> b = true /\ k = Ok r.
Proof. destruct b; cbn [negb]; split; [intros H; split; [reflexivity|exact H]|intros [_ H]; exact H|discriminate|intros [H _]; discriminate]. Qed.

(** The constructor accepts exactly the schedules it says it does. *)
Theorem C73_new : forall a r n b f p, td_new a r n b f = Ok p <->
  p = {| td_alpha := a; td_rho := r; td_nu := n; td_beta := b; td_forward_0 := f |} /\ knots r = knots a /\ knots n = knots a /\ 0 <= b <= 1 /\ 0 < f /\
  (forall v, In v (values a) -> 0 < v) /\ (forall v, In v (values n) -> 0 <= v) /\ (forall v, In v (values r) -> -1 < v < 1).
Proof.
  intros a r n b f p. unfold td_new. rewrite !guard, !same_list_spec, !andb_true_iff, !forallb_forall, !Rleb_spec, Rltb_spec. split.
  - intros (A & B & C & D & E & F & G & H). split; [congruence|]. split; [symmetry; exact A|]. split; [symmetry; exact B|]. split; [exact C|]. split; [exact D|]. split; [intros v V; apply Rltb_spec, E, V|]. split; [intros v V; apply Rleb_spec, F, V|].
    intros v V. specialize (G v V). apply andb_true_iff in G. rewrite !Rltb_spec in G. exact G.
  - intros (-> & A & B & C & D & E & F & G). split; [symmetry; exact A|]. split; [symmetry; exact B|]. split; [exact C|]. split; [exact D|]. split; [intros v V; apply Rltb_spec, E, V|]. split; [intros v V; apply Rleb_spec, F, V|]. split; [|reflexivity].
    intros v V. apply andb_true_iff. rewrite !Rltb_spec. apply G, V.
Qed.
Print Assumptions C73_new.

(** Three schedules on the same knots, accepted by the constructors. *)
Definition accepted (ks av rv nv : list R) (b f : R) (p : td_params) : Prop :=
  exists a r n, schedule_new ks av = Ok a /\ schedule_new ks rv = Ok r /\ schedule_new ks nv = Ok n /\ td_new a r n b f = Ok p.
Lemma accepted_open ks av rv nv b f p : accepted ks av rv nv b f p ->
  p = {| td_alpha := {| knots := ks; values := av |}; td_rho := {| knots := ks; values := rv |}; td_nu := {| knots := ks; values := nv |}; td_beta := b; td_forward_0 := f |} /\
  schedule_new ks av = Ok {| knots := ks; values := av |} /\ schedule_new ks rv = Ok {| knots := ks; values := rv |} /\ schedule_new ks nv = Ok {| knots := ks; values := nv |} /\
  length av = length rv /\ length av = length nv /\ length ks = S (length av) /\ (forall v, In v av -> 0 < v) /\ (forall v, In v nv -> 0 <= v) /\ (forall v, In v rv -> -1 < v < 1) /\ 0 <= b <= 1 /\ 0 < f.
Proof.
  intros (a & r & n & A & R & N & T). pose proof (proj1 (C55_new _ _ _) A) as (EA & _ & LA & _). pose proof (proj1 (C55_new _ _ _) R) as (ER & _ & LR & _). pose proof (proj1 (C55_new _ _ _) N) as (EN & _ & LN & _). subst a r n.
  apply (proj1 (C73_new _ _ _ _ _ _)) in T. destruct T as (-> & _ & _ & B & F & VA & VN & VR). cbn [values] in *. repeat (split; [solve [reflexivity|assumption|lia]|]). exact F.
Qed.
(* the value of a schedule depends on the time only through the knots *)
Lemma at_index ks av a t n : schedule_new ks av = Ok a -> (n < length av)%nat -> 0 <= t -> t <= nth (S n) ks 0 + / 10 ^ 15 -> n = 0%nat \/ nth n ks 0 + / 10 ^ 15 < t -> schedule_at a t = Ok (nth n av 0).
Proof.
  intros A N T0 T1 T2. pose proof (proj1 (C55_new _ _ _) A) as (_ & _ & L & _ & INC). pose proof (Rinv_0_lt_compat (10 ^ 15) ltac:(lra)) as TP.
  assert (MONO : forall i j, (i < j)%nat -> (j < length ks)%nat -> nth i ks 0 < nth j ks 0). { intros i j IJ. induction IJ as [|j IJ IH]; intros J; [apply INC, J|]. specialize (IH ltac:(lia)). specialize (INC j J). lra. }
  assert (BL : nth (S n) ks 0 <= nth (length av) ks 0). { destruct (Nat.eq_dec (S n) (length av)) as [->|]; [lra|]. left. apply MONO; lia. }
  destruct (proj1 (C55_at_partial _ _ _ t A) ltac:(lra)) as (m & ML & V & C & D). rewrite V. do 2 f_equal. destruct (Nat.lt_total m n) as [H|[H|H]]; [|exact H|].
  - exfalso. destruct T2 as [->|T2]; [lia|]. assert (nth (S m) ks 0 <= nth n ks 0); [|lra]. destruct (Nat.eq_dec (S m) n) as [->|]; [lra|]. left. apply MONO; lia.
  - exfalso. destruct D as [->|D]; [lia|]. assert (nth (S n) ks 0 <= nth m ks 0); [|lra]. destruct (Nat.eq_dec (S n) m) as [<-|]; [lra|]. left. apply MONO; lia.
Qed.

(** The parameters at any time up to the horizon are those of one segment, the same for the
    three schedules, and the constant-parameter constructor accepts them: the loop never
    meets a bad state.  Beyond the horizon the lookup panics. *)
Theorem C73_at : forall ks av rv nv b f p t, accepted ks av rv nv b f p ->
  (0 <= t <= nth (length av) ks 0 -> exists n q, (n < length av)%nat /\ (n = 0%nat \/ nth n ks 0 < t) /\ t <= nth (S n) ks 0 + / 10 ^ 15 /\
    td_at p t = Ok q /\ alpha q = nth n av 0 /\ rho q = nth n rv 0 /\ nu q = nth n nv 0 /\ beta q = b /\ sabr_new (alpha q) (beta q) (rho q) (nu q) = Ok q) /\
  (t < 0 \/ nth (length av) ks 0 + / 10 ^ 15 < t -> td_at p t = Panic PAssert) /\
  (exists h, td_horizon p = Ok h /\ h = nth (length av) ks 0).
Proof.
  intros ks av rv nv b f p t H. destruct (accepted_open _ _ _ _ _ _ _ H) as (-> & A & R & N & L1 & L2 & LK & VA & VN & VR & B & _). pose proof (Rinv_0_lt_compat (10 ^ 15) ltac:(lra)) as TP. split; [|split].
  - intros T. destruct (proj1 (C55_at_partial _ _ _ t A) ltac:(lra)) as (n & NL & V & C & D).
    exists n, (@Build_sabr_params R_numbers (nth n av 0) b (nth n rv 0) (nth n nv 0)). split; [exact NL|]. split; [destruct D as [D|D]; [left; exact D|right; lra]|]. split; [exact C|].
    split; [|cbn [alpha rho nu beta]; repeat (split; [reflexivity|])].
    + unfold td_at. cbn [td_alpha td_rho td_nu td_beta]. rewrite V, (at_index _ _ _ t n R) by (try lra; try lia; assumption). cbn [obind]. rewrite (at_index _ _ _ t n N) by (try lra; try lia; assumption). reflexivity.
    + specialize (VA (nth n av 0) (nth_In _ _ NL)). specialize (VR (nth n rv 0) (nth_In rv 0 (n := n) ltac:(lia))). specialize (VN (nth n nv 0) (nth_In nv 0 (n := n) ltac:(lia))).
      unfold sabr_new. cbn. destruct (Rlt_dec 0 (nth n av 0)); [|contradiction]. destruct (Rle_dec 0 b); [|lra]. destruct (Rle_dec b 1); [|lra]. destruct (Rlt_dec (- (1)) (nth n rv 0)); [|lra]. destruct (Rlt_dec (nth n rv 0) 1); [|lra]. destruct (Rle_dec 0 (nth n nv 0)); [|lra]. reflexivity.
  - intros T. unfold td_at. cbn [td_alpha]. rewrite (proj1 (proj2 (C55_at_partial _ _ _ t A)) ltac:(lra)). reflexivity.
  - exists (nth (length av) ks 0). split; [|reflexivity]. unfold td_horizon, final_time. cbn [td_alpha knots]. rewrite last_unwrap_nth by (intros ->; cbn in LK; lia). rewrite LK. do 2 f_equal. lia.
Qed.
Print Assumptions C73_at.

(** A step is that of the constant-parameter simulator with the parameters of the segment. *)
Lemma step_reduces p g s t dt q : td_at p t = Ok q -> td_step_with_noise p g s t dt = sabr_step_with_noise q g s dt.
Proof.
  intros A. unfold td_step_with_noise, sabr_step_with_noise, Rltb. cbn [nlt R_numbers n0]. destruct (Rlt_dec 0 dt) as [D|D]; cbn [negb]; [|reflexivity]. rewrite A. cbn [obind]. cbn [sample_normal].
  assert (E : - (1 / 2) = - / 2) by lra. unfold sqrt_one_minus_rho_sq. cbn. rewrite E. reflexivity.
Qed.
Theorem C73_step : forall ks av rv nv b f p g s t dt n, accepted ks av rv nv b f p -> (n < length av)%nat -> 0 <= t -> nth n ks 0 + / 10 ^ 15 < t -> t <= nth (S n) ks 0 ->
  let q := @Build_sabr_params R_numbers (nth n av 0) b (nth n rv 0) (nth n nv 0) in
  td_step_with_noise p g s t dt = sabr_step_with_noise q g s dt /\ td_step p g s t dt = sabr_step q g s dt.
Proof.
  intros ks av rv nv b f p g s t dt n H N T0 T1 T2. cbv zeta. destruct (accepted_open _ _ _ _ _ _ _ H) as (-> & A & R & V & L1 & L2 & _). pose proof (Rinv_0_lt_compat (10 ^ 15) ltac:(lra)) as TP.
  assert (Q : td_at {| td_alpha := {| knots := ks; values := av |}; td_rho := {| knots := ks; values := rv |}; td_nu := {| knots := ks; values := nv |}; td_beta := b; td_forward_0 := f |} t = Ok (@Build_sabr_params R_numbers (nth n av 0) b (nth n rv 0) (nth n nv 0))).
  { unfold td_at. cbn [td_alpha td_rho td_nu td_beta]. rewrite (at_index _ _ _ t n A), (at_index _ _ _ t n R), (at_index _ _ _ t n V) by (try lra; try lia; right; assumption). reflexivity. }
  split; [apply step_reduces, Q|]. unfold td_step, sabr_step. rewrite (step_reduces _ _ _ _ _ _ Q). reflexivity.
Qed.
Print Assumptions C73_step.

(** ** The equal-step simulation *)
Lemma grid n k T : (k < n)%nat -> 0 < T -> let dt := T / INR n in 0 < dt /\ 0 <= INR k * dt + 1 / 2 * dt <= T.
Proof.
  intros K TP. cbv zeta. assert (NP : 0 < INR n) by (apply lt_0_INR; lia). assert (D : 0 < T / INR n) by (apply Rdiv_lt_0_compat; assumption). split; [exact D|]. assert (KN : INR k + 1 <= INR n) by (rewrite <- S_INR; apply le_INR; lia). pose proof (pos_INR k) as KP.
  assert (E : INR n * (T / INR n) = T) by (field; lra). set (d := T / INR n) in *. split; [nra|]. nra.
Qed.
(* the steps of a path when every midpoint is within the horizon *)
Lemma steps_follow p dt : forall n k g s, (forall j, (k <= j < k + n)%nat -> exists q, td_at p (INR j * dt + 1 / 2 * dt) = Ok q) ->
  forall (P : rng R_numbers -> sabr_state R_numbers -> Prop), 0 < dt -> P g s ->
  (forall j g s q g' s', (k <= j < k + n)%nat -> P g s -> td_at p (INR j * dt + 1 / 2 * dt) = Ok q -> sabr_step q g s dt = Ok (g', s') -> P g' s') ->
  exists g' s', td_steps n p dt (INR k * dt) g s = Ok (g', s') /\ P g' s'.
Proof.
  induction n as [|n IH]; intros k g s H P D PS ST; cbn [td_steps]; [exists g, s; split; [reflexivity|exact PS]|].
  destruct (H k ltac:(lia)) as [q A]. rewrite (step_reduces _ g s _ dt _ A).
  assert (SX : exists g' s' d, sabr_step_with_noise q g s dt = Ok (g', (s', d))). { unfold sabr_step_with_noise. cbn [nlt R_numbers n0]. destruct (Rlt_dec 0 dt); [|contradiction]. cbn [negb sample_normal]. do 3 eexists. reflexivity. }
  destruct SX as (g1 & s1 & d1 & SX). rewrite SX. cbn [obind]. replace (INR k * dt + dt) with (INR (S k) * dt) by (rewrite S_INR; ring).
  apply IH; [intros j J; apply H; lia|exact D| |intros j g0 s0 q0 g' s' J; apply ST; lia].
  apply (ST k g s q g1 s1 ltac:(lia) PS A). unfold sabr_step. rewrite SX. reflexivity.
Qed.

(** Up to the horizon the simulation succeeds, with one state per path, the forward
    non-negative and the volatility positive. *)
Theorem C73_simulate : forall ks av rv nv b f p T n m g, accepted ks av rv nv b f p -> (0 < n)%nat -> (0 < m)%nat -> 0 < T <= nth (length av) ks 0 ->
  exists g' ss, td_simulate p T n m g = Ok (g', ss) /\ length ss = m /\ forall s, In s ss -> 0 <= forward s /\ 0 < vol s.
Proof.
  intros ks av rv nv b f p T n m g H N M [T0 T1]. pose proof (fun t => C73_at _ _ _ _ _ _ _ t H) as AT. destruct (accepted_open _ _ _ _ _ _ _ H) as (EP & A & _ & _ & _ & _ & LK & VA & _ & _ & _ & F). unfold td_simulate.
  destruct (Nat.eqb_spec n 0) as [|_]; [lia|]. destruct (Nat.eqb_spec m 0) as [|_]; [lia|]. cbn [orb]. rewrite (proj2 (Rltb_spec 0 T) T0). cbn [negb].
  pose proof (Rinv_0_lt_compat (10 ^ 15) ltac:(lra)) as TP. pose proof (proj1 (C55_new _ _ _) A) as (_ & L2 & _).
  assert (IN : exists v, td_initial p = Ok (@Build_sabr_state R_numbers f v) /\ 0 < v).
  { destruct (proj1 (AT 0) ltac:(lra)) as (k & q & K & _ & _ & Q & EA & _ & _ & _ & NW). exists (alpha q). split.
    - unfold td_initial. unfold td_at in Q. destruct (schedule_at (td_alpha p) 0) as [a| |]; [|discriminate|discriminate]. cbn [obind] in Q |- *. destruct (schedule_at (td_rho p) 0) as [r| |]; [|discriminate|discriminate]. cbn [obind] in Q. destruct (schedule_at (td_nu p) 0) as [u| |]; [|discriminate|discriminate]. cbn [obind] in Q.
      assert (EQ : @Build_sabr_params R_numbers a (td_beta p) r u = q) by congruence. rewrite <- EQ. rewrite EP. reflexivity.
    - rewrite EA. apply VA, nth_In, K. }
  destruct IN as (v & IN & V). rewrite IN. cbn [obind]. set (s0 := @Build_sabr_state R_numbers f v). set (dt := T / INR n).
  clear M. revert g. induction m as [|m IH]; intros g; [exists g, []; split; [reflexivity|]; split; [reflexivity|intros s []]|]. cbn [td_paths].
  destruct (steps_follow p dt n 0 g s0) with (P := fun (_ : rng R_numbers) s => sabr_ok s) as (g1 & s1 & E1 & OK1).
  - intros j J. pose proof (grid n j T ltac:(lia) T0) as G. cbv zeta in G. fold dt in G. destruct (proj1 (AT (INR j * dt + 1 / 2 * dt)) ltac:(lra)) as (k & q & _ & _ & _ & Q & _). exists q. exact Q.
  - apply (grid n 0 T ltac:(lia) T0).
  - split; cbn; lra.
  - intros j g2 s2 q g3 s3 _ OK2 _ ST. exact (sabr_inv q g2 s2 dt g3 s3 OK2 ST).
  - replace (INR 0 * dt) with 0 in E1 by (cbn; ring). rewrite E1. cbn [obind]. destruct (IH g1) as (g2 & ss & E2 & LE & OKS). rewrite E2. cbn [obind]. exists g2, (s1 :: ss). split; [reflexivity|]. split; [cbn; lia|]. intros s [<-|S]; [exact OK1|exact (OKS s S)].
Qed.
Print Assumptions C73_simulate.

(** Flat schedules, on however many segments: the simulation is that of the constant-parameter
    simulator, draw for draw. *)
Theorem C73_flat : forall ks av rv nv b f p T n m g a r u, accepted ks av rv nv b f p -> 0 < T <= nth (length av) ks 0 ->
  (forall v, In v av -> v = a) -> (forall v, In v rv -> v = r) -> (forall v, In v nv -> v = u) ->
  let q := @Build_sabr_params R_numbers a b r u in td_simulate p T n m g = simulate (sabr_step q) (sabr_initial q f) T n m g.
Proof.
  intros ks av rv nv b f p T n m g a r u H [T0 T1] CA CR CN. cbv zeta. set (q := @Build_sabr_params R_numbers a b r u). pose proof (fun t => C73_at _ _ _ _ _ _ _ t H) as AT.
  destruct (accepted_open _ _ _ _ _ _ _ H) as (EP & A & _ & _ & L1 & L2 & _).
  assert (QT : forall t, 0 <= t <= nth (length av) ks 0 -> td_at p t = Ok q).
  { intros t Ht. destruct (proj1 (AT t) Ht) as (k & q' & K & _ & _ & Q & E1 & E2 & E3 & E4 & _). rewrite Q. apply (f_equal Ok). destruct q' as [a' b' r' u']. cbn [alpha beta rho nu] in *. unfold q. rewrite E1, E2, E3, E4, (CA (nth k av 0)), (CR (nth k rv 0)), (CN (nth k nv 0)) by (apply nth_In; lia). reflexivity. }
  unfold td_simulate, simulate. cbn [nlt R_numbers n0]. unfold Rltb. destruct (Nat.eqb_spec n 0) as [|N]; [reflexivity|]. destruct (Nat.eqb_spec m 0) as [|_]; [reflexivity|]. destruct (Rlt_dec 0 T) as [_|]; [|contradiction]. cbn [orb negb].
  assert (IN : td_initial p = Ok (sabr_initial q f)).
  { pose proof (QT 0 ltac:(lra)) as Q. unfold td_initial. unfold td_at in Q. destruct (schedule_at (td_alpha p) 0) as [a'| |]; [|discriminate|discriminate]. cbn [obind] in Q |- *. destruct (schedule_at (td_rho p) 0) as [r'| |]; [|discriminate|discriminate]. cbn [obind] in Q. destruct (schedule_at (td_nu p) 0) as [u'| |]; [|discriminate|discriminate]. cbn [obind] in Q.
    assert (EQ : @Build_sabr_params R_numbers a' (td_beta p) r' u' = q) by congruence. rewrite <- EQ, EP. reflexivity. }
  rewrite IN. cbn [obind ndiv n_of_nat R_numbers]. set (s0 := sabr_initial q f). set (dt := T / INR n) in *.
  assert (ST : forall l k g s, (k + l <= n)%nat -> td_steps l p dt (INR k * dt) g s = steps (sabr_step q) l dt g s).
  { induction l as [|l IH]; intros k g0 s K; cbn [td_steps steps]; [reflexivity|]. pose proof (grid n k T ltac:(lia) T0) as G. cbv zeta in G. fold dt in G.
    rewrite (step_reduces p g0 s (INR k * dt + 1 / 2 * dt) dt q) by (apply QT; lra). unfold sabr_step at 1. destruct (sabr_step_with_noise q g0 s dt) as [[g1 [s1 d]]| |]; cbn [obind]; [|reflexivity|reflexivity].
    replace (INR k * dt + dt) with (INR (S k) * dt) by (rewrite S_INR; ring). apply IH. lia. }
  revert g. induction m as [|m IH]; intros g; cbn [td_paths terminals]; [reflexivity|]. pose proof (ST n 0%nat g s0 ltac:(lia)) as S0. replace (INR 0 * dt) with 0 in S0 by (cbn; ring). rewrite S0.
  destruct (steps (sabr_step q) n dt g s0) as [[g1 s1]| |]; cbn [obind]; [|reflexivity|reflexivity]. rewrite IH. reflexivity.
Qed.
Print Assumptions C73_flat.

(** The whole simulation, written out.  One step of a path from [s] to [s'] over [dt], the
    parameters being those of the segment holding the time [t]. *)
Definition moves (ks rv nv : list R) (b dt t z1 z2 : R) (s s' : sabr_state R_numbers) : Prop :=
  exists k, (k < length rv)%nat /\ (k = 0%nat \/ nth k ks 0 < t) /\ t <= nth (S k) ks 0 + / 10 ^ 15 /\
  forward s' = Rmax (forward s + vol s * powfR (forward s) b * (sqrt dt * z1)) 0 /\
  vol s' = vol s * exp (nth k nv 0 * (sqrt dt * (nth k rv 0 * z1 + sqrt (1 - nth k rv 0 * nth k rv 0) * z2)) - (nth k nv 0) ^ 2 * dt / 2).
Lemma steps_move ks av rv nv b f p dt : accepted ks av rv nv b f p -> 0 < dt -> forall l j g s, (forall i, (j <= i < j + l)%nat -> 0 <= INR i * dt + 1 / 2 * dt <= nth (length av) ks 0) -> sabr_ok s ->
  exists g' tr, td_steps l p dt (INR j * dt) g s = Ok (g', tr l) /\ tr 0%nat = s /\ (forall k, g' k = g (2 * l + k)%nat) /\
  forall i, (i < l)%nat -> moves ks rv nv b dt ((INR (j + i) + 1 / 2) * dt) (g (2 * i)%nat) (g (2 * i + 1)%nat) (tr i) (tr (S i)).
Proof.
  intros H D. induction l as [|l IH]; intros j g s I S; cbn [td_steps].
  - exists g, (fun _ => s). split; [reflexivity|]. split; [reflexivity|]. split; [intros k; f_equal|intros i L; lia].
  - destruct (proj1 (C73_at _ _ _ _ _ _ _ (INR j * dt + 1 / 2 * dt) H) (I j ltac:(lia))) as (k & q & K & K1 & K2 & A & _ & R & N & B & _).
    pose proof (step_reduces _ g s _ dt _ A) as ST. destruct (accepted_open _ _ _ _ _ _ _ H) as (_ & _ & _ & _ & LR & _).
    destruct (sabr_step_with_noise q g s dt) as [[g1 [s1 d]]| |] eqn:E; [|exfalso|exfalso];
      unfold sabr_step_with_noise in E; cbn [nlt R_numbers n0] in E; destruct (Rlt_dec 0 dt) as [_|]; try contradiction; cbn [negb obind sample_normal] in E; [|discriminate E|discriminate E].
    rewrite ST. cbn [obind]. apply Ok_pair in E as [EG ES].
    assert (OK1 : sabr_ok s1).
    { apply (sabr_inv q g s dt g1 s1 S). unfold sabr_step. rewrite <- (step_reduces _ g s _ dt _ A), ST. reflexivity. }
    replace (INR j * dt + dt) with (INR (Datatypes.S j) * dt) by (rewrite S_INR; ring).
    destruct (IH (Datatypes.S j) g1 s1) as (g' & tr & E' & T0 & G' & M); [intros i L; apply I; lia|exact OK1|].
    exists g', (fun i => match i with O => s | Datatypes.S i => tr i end). split; [exact E'|]. split; [reflexivity|]. split; [intros i; rewrite G', <- EG; f_equal; lia|].
    intros [|i] L.
    + cbv beta iota. rewrite T0. exists k. split; [lia|]. replace ((INR (j + 0) + 1 / 2) * dt) with (INR j * dt + 1 / 2 * dt) by (rewrite Nat.add_0_r; ring). split; [exact K1|]. split; [exact K2|].
      destruct S as [SF SV]. assert (ES' := f_equal fst ES). cbn [fst] in ES'. rewrite <- ES'. cbn [forward vol]. unfold sqrt_one_minus_rho_sq. cbn.
      rewrite (Rmax_left (forward s) 0), (Rmax_left (vol s) 0) by lra. rewrite R, N, B. cbn [Nat.mul Nat.add]. split; [reflexivity|]. f_equal. f_equal. field.
    + specialize (M i ltac:(lia)). replace (j + Datatypes.S i)%nat with (Datatypes.S j + i)%nat by lia. rewrite <- EG in M. replace (2 * Datatypes.S i)%nat with (Datatypes.S (Datatypes.S (2 * i))) by lia. replace (2 * Datatypes.S i + 1)%nat with (Datatypes.S (Datatypes.S (2 * i + 1))) by lia. exact M.
Qed.
(** Path [i] takes the normals from the [2 n i]-th on, starts from the forward and the first
    volatility, and moves at each of its [n] steps with the parameters of the segment holding
    the middle of the step. *)
Theorem C73_paths : forall ks av rv nv b f p T n m g, accepted ks av rv nv b f p -> (0 < n)%nat -> (0 < m)%nat -> 0 < T <= nth (length av) ks 0 ->
  exists g' ss tr, td_simulate p T n m g = Ok (g', ss) /\ length ss = m /\ (forall k, g' k = g (2 * n * m + k)%nat) /\
  forall i s, nth_error ss i = Some s -> tr i n = s /\ forward (tr i 0%nat) = f /\ vol (tr i 0%nat) = nth 0 av 0 /\
  forall j, (j < n)%nat -> moves ks rv nv b (T / INR n) ((INR j + 1 / 2) * (T / INR n)) (g (2 * (n * i + j))%nat) (g (2 * (n * i + j) + 1)%nat) (tr i j) (tr i (S j)).
Proof.
  intros ks av rv nv b f p T n m g H N M [T0 T1]. destruct (accepted_open _ _ _ _ _ _ _ H) as (EP & A & _ & _ & _ & _ & LK & VA & _ & _ & _ & F). unfold td_simulate.
  destruct (Nat.eqb_spec n 0) as [|_]; [lia|]. destruct (Nat.eqb_spec m 0) as [|_]; [lia|]. cbn [orb]. rewrite (proj2 (Rltb_spec 0 T) T0). cbn [negb].
  pose proof (Rinv_0_lt_compat (10 ^ 15) ltac:(lra)) as TP. pose proof (proj1 (C55_new _ _ _) A) as (_ & L2 & _ & K0 & INC).
  assert (IN : td_initial p = Ok (@Build_sabr_state R_numbers f (nth 0 av 0))).
  { unfold td_initial. rewrite EP. cbn [td_alpha td_forward_0]. assert (B0 : 0 <= nth 1 ks 0 + / 10 ^ 15) by (specialize (INC 0%nat ltac:(lia)); apply Rabs_def2 in K0; lra). rewrite (at_index _ _ _ 0 0 A) by (try lia; try lra; left; reflexivity). reflexivity. }
  assert (V : 0 < nth 0 av 0) by (apply VA, nth_In; lia). rewrite IN. cbn [obind]. set (s0 := @Build_sabr_state R_numbers f (nth 0 av 0)). pose proof (grid n 0 T N T0) as [DT _]. cbv zeta in DT.
  assert (GR : forall i, (0 <= i < 0 + n)%nat -> 0 <= INR i * (T / INR n) + 1 / 2 * (T / INR n) <= nth (length av) ks 0) by (intros i I; pose proof (grid n i T ltac:(lia) T0) as G; cbv zeta in G; lra).
  set (dt := T / INR n) in *. clear M. revert g. induction m as [|m IH]; intros g; cbn [td_paths].
  - exists g, [], (fun _ _ => s0). split; [reflexivity|]. split; [reflexivity|]. split; [intros k; f_equal; lia|]. intros i s E. destruct i; discriminate E.
  - destruct (steps_move _ _ _ _ _ _ _ dt H DT n 0 g s0 GR ltac:(split; cbn; lra)) as (g1 & tr1 & E1 & T1' & G1 & M1). replace (INR 0 * dt) with 0 in E1 by (cbn; ring). rewrite E1. cbn [obind].
    destruct (IH g1) as (g2 & ss & tr & E2 & LE & G2 & P). rewrite E2. cbn [obind]. exists g2, (tr1 n :: ss), (fun i => match i with O => tr1 | Datatypes.S i => tr i end). split; [reflexivity|]. split; [cbn; lia|]. split; [intros k; rewrite G2, G1; f_equal; lia|].
    intros [|i] s ES.
    + assert (tr1 n = s) by (cbn in ES; congruence). split; [assumption|]. rewrite T1'. split; [reflexivity|]. split; [reflexivity|]. intros j J. specialize (M1 j J). replace (n * 0 + j)%nat with j by lia. exact M1.
    + destruct (P i s ES) as (P1 & P2 & P3 & P4). split; [exact P1|]. split; [exact P2|]. split; [exact P3|]. intros j J. specialize (P4 j J). rewrite !G1 in P4.
      replace (2 * (n * Datatypes.S i + j))%nat with (2 * n + 2 * (n * i + j))%nat by lia. replace (2 * n + 2 * (n * i + j) + 1)%nat with (2 * n + (2 * (n * i + j) + 1))%nat by lia. exact P4.
Qed.
Print Assumptions C73_paths.

(** [reduces_to_constant] answers with the parameters of the first segment when adjacent
    segments agree to 1e-12, and with nothing otherwise. *)
Lemma all_eq_spec vs : all_eq vs = true <-> forall i, (S i < length vs)%nat -> Rabs (nth i vs 0 - nth (S i) vs 0) < / 10 ^ 12.
Proof.
  induction vs as [|a [|b vs] IH]; [split; [intros _ i H; cbn in H; lia|reflexivity]|split; [intros _ i H; cbn in H; lia|reflexivity]|].
  change (all_eq (a :: b :: vs)) with (Rltb (Rabs (a - b)) (/ 10 ^ 12) && all_eq (b :: vs)). rewrite andb_true_iff, Rltb_spec, IH. split.
  - intros [X Y] i H. destruct i as [|i]; [exact X|]. apply (Y i). cbn in *. lia.
  - intros X. split; [apply (X 0%nat); cbn; lia|]. intros i H. apply (X (S i)). cbn in *. lia.
Qed.
Theorem C73_constant : forall ks av rv nv b f p, accepted ks av rv nv b f p ->
  (forall q, reduces_to_constant p = Ok (Some q) <-> q = (@Build_sabr_params R_numbers (nth 0 av 0) b (nth 0 rv 0) (nth 0 nv 0), f) /\
    forall l i, In l [av; rv; nv] -> (S i < length l)%nat -> Rabs (nth i l 0 - nth (S i) l 0) < / 10 ^ 12) /\
  (exists r, reduces_to_constant p = Ok r).
Proof.
  intros ks av rv nv b f p H. destruct (accepted_open _ _ _ _ _ _ _ H) as (-> & A & R & N & L1 & L2 & LK & VA & VN & VR & B & _). pose proof (proj1 (C55_new _ _ _) A) as (_ & L3 & _).
  unfold reduces_to_constant. cbn [td_alpha td_rho td_nu td_beta td_forward_0 values].
  destruct av as [|a av]; [cbn in *; lia|]. destruct rv as [|r rv]; [cbn in *; lia|]. destruct nv as [|u nv]; [cbn in *; lia|]. cbn [nth].
  assert (NW : @sabr_new R_numbers a b r u = Ok (@Build_sabr_params R_numbers a b r u)).
  { specialize (VA a (or_introl eq_refl)). specialize (VR r (or_introl eq_refl)). specialize (VN u (or_introl eq_refl)). unfold sabr_new. cbn. destruct (Rlt_dec 0 a); [|contradiction]. destruct (Rle_dec 0 b); [|lra]. destruct (Rle_dec b 1); [|lra]. destruct (Rlt_dec (- (1)) r); [|lra]. destruct (Rlt_dec r 1); [|lra]. destruct (Rle_dec 0 u); [|lra]. reflexivity. }
  rewrite NW. cbn [obind].
  pose proof (all_eq_spec (a :: av)) as SA. pose proof (all_eq_spec (r :: rv)) as SR. pose proof (all_eq_spec (u :: nv)) as SN.
  destruct (all_eq (a :: av)) eqn:EA; [destruct (all_eq (r :: rv)) eqn:ER; [destruct (all_eq (u :: nv)) eqn:EN|]|]; cbn [negb orb]; (split; [|eexists; reflexivity]); intros q.
  - split; [intros E; split; [congruence|]|intros [-> _]; reflexivity]. intros l i [<-|[<-|[<-|[]]]]; [apply SA, eq_refl|apply SR, eq_refl|apply SN, eq_refl].
  - split; [discriminate|]. intros [_ X]. assert (F : false = true) by (apply SN; intros i; apply X; right; right; left; reflexivity). discriminate.
  - split; [discriminate|]. intros [_ X]. assert (F : false = true) by (apply SR; intros i; apply X; right; left; reflexivity). discriminate.
  - split; [discriminate|]. intros [_ X]. assert (F : false = true) by (apply SA; intros i; apply X; left; reflexivity). discriminate.
Qed.
Print Assumptions C73_constant.

(** ** What the documentation says, and is not so *)

(** The volatility schedule is only read at time zero: two simulators whose volatility
    schedules start with the same value simulate the same paths, whatever the values on the
    later segments. *)
Theorem C73_alpha_ignored : forall ks av av' rv nv b f p p' T n m g, accepted ks av rv nv b f p -> accepted ks av' rv nv b f p' -> nth 0 av 0 = nth 0 av' 0 ->
  td_simulate p T n m g = td_simulate p' T n m g.
Proof.
  intros ks av av' rv nv b f p p' T n m g H H' E0. destruct (accepted_open _ _ _ _ _ _ _ H) as (EP & A & R & N & L1 & L2 & LK & _). destruct (accepted_open _ _ _ _ _ _ _ H') as (EP' & A' & _ & _ & L1' & L2' & _). pose proof (proj1 (C55_new _ _ _) A) as (_ & K2 & _ & K0 & INC).
  pose proof (Rinv_0_lt_compat (10 ^ 15) ltac:(lra)) as TP.
  assert (ST : forall g s t dt, td_step_with_noise p g s t dt = td_step_with_noise p' g s t dt).
  { intros g0 s t dt. unfold td_step_with_noise. destruct (negb (Rltb 0 dt)); [reflexivity|]. unfold td_at. rewrite EP, EP'. cbn [td_alpha td_rho td_nu td_beta].
    destruct (Rle_dec 0 t) as [T0|T0]; [destruct (Rle_dec t (nth (length av) ks 0 + / 10 ^ 15)) as [T1|T1]|].
    - destruct (proj1 (C55_at_partial _ _ _ t A) ltac:(lra)) as (k & KL & V & C & D). rewrite V, (at_index _ _ _ t k A' ltac:(lia) T0 C D), (at_index _ _ _ t k R ltac:(lia) T0 C D), (at_index _ _ _ t k N ltac:(lia) T0 C D). reflexivity.
    - rewrite (proj1 (proj2 (C55_at_partial _ _ _ t A)) ltac:(lra)), (proj1 (proj2 (C55_at_partial _ _ _ t A')) ltac:(replace (length av') with (length av) by lia; lra)). reflexivity.
    - rewrite (proj1 (proj2 (C55_at_partial _ _ _ t A)) ltac:(lra)), (proj1 (proj2 (C55_at_partial _ _ _ t A')) ltac:(lra)). reflexivity. }
  assert (SS : forall l dt t g s, td_steps l p dt t g s = td_steps l p' dt t g s).
  { induction l as [|l IH]; intros dt t g0 s; cbn [td_steps]; [reflexivity|]. rewrite ST. destruct (td_step_with_noise p' g0 s (t + 1 / 2 * dt) dt) as [[g1 [s1 d]]| |]; cbn [obind]; [apply IH|reflexivity|reflexivity]. }
  assert (IN : td_initial p = td_initial p').
  { unfold td_initial. rewrite EP, EP'. cbn [td_alpha td_forward_0]. assert (B0 : 0 <= nth 1 ks 0 + / 10 ^ 15) by (specialize (INC 0%nat ltac:(lia)); apply Rabs_def2 in K0; lra). rewrite (at_index _ _ _ 0 0 A) by (try lia; try lra; left; reflexivity). rewrite (at_index _ _ _ 0 0 A') by (try lia; try lra; left; reflexivity). rewrite E0. reflexivity. }
  unfold td_simulate. rewrite IN. destruct ((n =? 0)%nat || (m =? 0)%nat || negb (Rltb 0 T)); [reflexivity|]. destruct (td_initial p') as [s0| |]; cbn [obind]; [|reflexivity|reflexivity].
  generalize (T / INR n). intros dt. revert g. induction m as [|m IH]; intros g; cbn [td_paths]; [reflexivity|]. rewrite SS. destruct (td_steps n p' dt 0 g s0) as [[g1 s1]| |]; cbn [obind]; [|reflexivity|reflexivity]. rewrite IH. reflexivity.
Qed.
Print Assumptions C73_alpha_ignored.

Lemma accepted_012 a1 a2 r1 r2 n1 n2 b f : 0 < a1 -> 0 < a2 -> -1 < r1 < 1 -> -1 < r2 < 1 -> 0 <= n1 -> 0 <= n2 -> 0 <= b <= 1 -> 0 < f ->
  accepted knots_012 [a1; a2] [r1; r2] [n1; n2] b f {| td_alpha := {| knots := knots_012; values := [a1; a2] |}; td_rho := {| knots := knots_012; values := [r1; r2] |}; td_nu := {| knots := knots_012; values := [n1; n2] |}; td_beta := b; td_forward_0 := f |}.
Proof.
  intros A1 A2 R1 R2 N1 N2 B F. do 3 eexists. split; [apply new_012|]. split; [apply new_012|]. split; [apply new_012|]. apply (proj2 (C73_new _ _ _ _ _ _)). split; [reflexivity|]. split; [reflexivity|]. split; [reflexivity|]. split; [exact B|]. split; [exact F|].
  split; [intros v [<-|[<-|[]]]; assumption|]. split; intros v [<-|[<-|[]]]; assumption.
Qed.

(** So with no vol-vol, where the volatility should follow its schedule, it stays at the
    first value for ever. *)
Theorem C73_alpha_refuted : exists ks av rv nv b f p T, accepted ks av rv nv b f p /\ (forall v, In v nv -> v = 0) /\ T = nth (length av) ks 0 /\ nth 1 av 0 = 2 * nth 0 av 0 /\
  forall n m g g' ss, td_simulate p T n m g = Ok (g', ss) -> forall s, In s ss -> vol s = nth 0 av 0.
Proof.
  pose proof (accepted_012 (1 / 10) (1 / 5) 0 0 0 0 1 1 ltac:(lra) ltac:(lra) ltac:(lra) ltac:(lra) ltac:(lra) ltac:(lra) ltac:(lra) ltac:(lra)) as H.
  pose proof (accepted_012 (1 / 10) (1 / 10) 0 0 0 0 1 1 ltac:(lra) ltac:(lra) ltac:(lra) ltac:(lra) ltac:(lra) ltac:(lra) ltac:(lra) ltac:(lra)) as H'.
  do 7 eexists. exists 2. split; [exact H|]. split; [intros v [<-|[<-|[]]]; reflexivity|]. split; [reflexivity|]. split; [cbn; lra|].
  intros n m g g' ss E. rewrite (C73_alpha_ignored _ _ _ _ _ _ _ _ _ 2 n m g H H' eq_refl) in E.
  rewrite (C73_flat _ _ _ _ _ _ _ 2 n m g (1 / 10) 0 0 H') in E; [|cbn; lra|intros v [<-|[<-|[]]]; reflexivity|intros v [<-|[<-|[]]]; reflexivity|intros v [<-|[<-|[]]]; reflexivity].
  set (q := @Build_sabr_params R_numbers (1 / 10) 1 0 0) in *. cbn [nth].
  refine (proj2 (terminal_invariant _ (fun s => vol s = 1 / 10) _ _ _ _ _ _ _ _ _ E)); [reflexivity|].
  intros g0 s dt g1 s1 V ST. unfold sabr_step, sabr_step_with_noise in ST. destruct (negb _); [discriminate|]. cbn [obind sample_normal] in ST. apply Ok_pair in ST as [_ <-]. cbn. rewrite V. rewrite Rmax_left by lra.
  match goal with |- _ * exp ?e = _ => replace e with 0 by ring end. rewrite exp_0. ring.
Qed.
Print Assumptions C73_alpha_refuted.

(** The date-driven runner passes the start of the step; from a knot, the lookup gives the
    segment before it, so the first step of every segment after the first takes the wrong
    vol-vol (here none, when it should be one). *)
Theorem C73_knot_refuted : exists ks av rv nv b f p, accepted ks av rv nv b f p /\
  forall g s dt, 0 < dt -> nth 1 ks 0 + dt <= nth 2 ks 0 -> 0 < vol s ->
  exists g' s', td_step p g s (nth 1 ks 0) dt = Ok (g', s') /\ vol s' = vol s /\
  forall t q g'' s'', nth 1 ks 0 + / 10 ^ 15 < t <= nth 1 ks 0 + dt -> td_at p t = Ok q -> sabr_step q g s dt = Ok (g'', s'') -> vol s'' = vol s * exp (sqrt dt * g 1%nat - dt / 2).
Proof.
  pose proof (accepted_012 (1 / 10) (1 / 10) 0 0 0 1 1 1 ltac:(lra) ltac:(lra) ltac:(lra) ltac:(lra) ltac:(lra) ltac:(lra) ltac:(lra) ltac:(lra)) as H.
  do 7 eexists. split; [exact H|]. cbn [nth knots_012]. intros g s dt D D1 V. pose proof (Rinv_0_lt_compat (10 ^ 15) ltac:(lra)) as TP. assert (T15 : / 10 ^ 15 < 1) by lra.
  assert (Q1 : td_at {| td_alpha := {| knots := knots_012; values := [1 / 10; 1 / 10] |}; td_rho := {| knots := knots_012; values := [0; 0] |}; td_nu := {| knots := knots_012; values := [0; 1] |}; td_beta := 1; td_forward_0 := 1 |} 1 = Ok (@Build_sabr_params R_numbers (1 / 10) 1 0 0)).
  { unfold td_at. cbn [td_alpha td_rho td_nu td_beta]. rewrite (at_index _ _ _ 1 0 (new_012 (1 / 10) (1 / 10))), (at_index _ _ _ 1 0 (new_012 0 0)), (at_index _ _ _ 1 0 (new_012 0 1)) by (cbn; try lra; try lia; left; reflexivity). reflexivity. }
  assert (Q2 : forall t, 1 + / 10 ^ 15 < t <= 1 + dt -> td_at {| td_alpha := {| knots := knots_012; values := [1 / 10; 1 / 10] |}; td_rho := {| knots := knots_012; values := [0; 0] |}; td_nu := {| knots := knots_012; values := [0; 1] |}; td_beta := 1; td_forward_0 := 1 |} t = Ok (@Build_sabr_params R_numbers (1 / 10) 1 0 1)).
  { intros t T. unfold td_at. cbn [td_alpha td_rho td_nu td_beta]. rewrite (at_index _ _ _ t 1 (new_012 (1 / 10) (1 / 10))), (at_index _ _ _ t 1 (new_012 0 0)), (at_index _ _ _ t 1 (new_012 0 1)) by (cbn; try lra; try lia; right; lra). reflexivity. }
  unfold td_step. rewrite (step_reduces _ g s _ dt _ Q1). unfold sabr_step_with_noise at 1. cbn [nlt R_numbers n0]. destruct (Rlt_dec 0 dt); [|contradiction]. cbn [negb obind sample_normal]. do 2 eexists. split; [reflexivity|]. split.
  - cbn. rewrite Rmax_left by (left; exact V). match goal with |- _ * exp ?e = _ => replace e with 0 by ring end. rewrite exp_0. ring.
  - intros t q g'' s'' T E ST. rewrite (Q2 t T) in E. assert (EQ : q = @Build_sabr_params R_numbers (1 / 10) 1 0 1) by congruence. subst q. unfold sabr_step, sabr_step_with_noise in ST. cbn [nlt R_numbers n0] in ST. destruct (Rlt_dec 0 dt); [|contradiction]. cbn [negb obind sample_normal] in ST. apply Ok_pair in ST as [_ <-]. cbn. rewrite Rmax_left by (left; exact V).
    unfold sqrt_one_minus_rho_sq. cbn. rewrite Rmult_0_r, Rminus_0_r, sqrt_1. do 2 f_equal. field.
Qed.
Print Assumptions C73_knot_refuted.

Example C73_witness : exists p, accepted knots_012 [1 / 10; 1 / 5] [- (1 / 2); 1 / 4] [1; 1 / 2] (1 / 2) 1 p /\ 0 < 2 <= nth 2 knots_012 0.
Proof. eexists. split; [apply accepted_012; lra|cbn; lra]. Qed.
