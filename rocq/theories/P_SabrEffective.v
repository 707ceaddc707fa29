(** C55: piecewise-constant schedules and the effective parameters of constant schedules.
    C74: the effective parameters solve the matching equations of the paper. *)
From Coq Require Import Bool List Arith Reals Lra Lia Psatz.
From Coquelicot Require Import Coquelicot.
Import ListNotations.
From Verif Require Import Outcome Processes ProcessFacts SabrEffective SabrEffectiveFacts.
Open Scope R_scope.

Local Ltac bools := unfold Rltb, Rleb in *; repeat (destruct (Rlt_dec _ _) || destruct (Rle_dec _ _)).

Lemma increasing_spec : forall l x, increasing x l = true <-> forall i, (i < length l)%nat -> nth i (x :: l) 0 < nth i l 0.
Proof.
  induction l as [|y l IH]; intros x; cbn [increasing length].
  - split; [intros _ i H; lia|reflexivity].
  - rewrite andb_true_iff, IH. unfold Rltb. split.
    + intros [A B] i H. destruct i as [|i]; [cbn; destruct (Rlt_dec x y); [assumption|discriminate]|]. cbn [nth]. apply B. lia.
    + intros H. split; [destruct (Rlt_dec x y) as [|N]; [reflexivity|exfalso; apply N, (H 0%nat); lia]|]. intros i Hi. apply (H (S i)). lia.
Qed.

(** The constructor accepts exactly the strictly increasing knots from zero, with one value
    per segment. *)
Theorem C55_new : forall ks vs s, schedule_new ks vs = Ok s <->
  s = {| knots := ks; values := vs |} /\ (2 <= length ks)%nat /\ length ks = S (length vs) /\ Rabs (nth 0 ks 0) < / 10 ^ 15 /\
  (forall i, (S i < length ks)%nat -> nth i ks 0 < nth (S i) ks 0).
Proof.
  intros ks vs s. unfold schedule_new. destruct (Nat.leb_spec 2 (length ks)) as [L|L]; cbn [negb]; [|split; [discriminate|lia]].
  destruct (Nat.eqb_spec (length vs + 1) (length ks)) as [E|E]; cbn [negb]; [|split; [discriminate|intros (_ & _ & H & _); lia]].
  destruct ks as [|k0 rest]; [cbn in L; lia|]. unfold Rltb. cbn [nth]. destruct (Rlt_dec (Rabs k0) (/ 10 ^ 15)) as [K|K]; cbn [negb]; [|split; [discriminate|intros (_ & _ & _ & H & _); contradiction]].
  destruct (increasing k0 rest) eqn:I; cbn [negb].
  - rewrite increasing_spec in I. split.
    + intros H. assert (s = {| knots := k0 :: rest; values := vs |}) by congruence. split; [assumption|]. split; [exact L|]. split; [lia|]. split; [exact K|]. intros i Hi. cbn [length] in Hi. change (nth (S i) (k0 :: rest) 0) with (nth i rest 0). apply I. lia.
    + intros (-> & _). reflexivity.
  - split; [discriminate|]. intros (_ & _ & _ & _ & H). assert (increasing k0 rest = true); [|congruence]. apply increasing_spec. intros i Hi. apply (H i). cbn [length]. lia.
Qed.
Print Assumptions C55_new.

Lemma last_unwrap_nth l : l <> [] -> last_unwrap l = Ok (nth (length l - 1) l 0).
Proof.
  intros NE. unfold last_unwrap. destruct (exists_last NE) as (m & x & ->). rewrite rev_app_distr. cbn. rewrite app_length. cbn. rewrite app_nth2 by lia. replace (length m + 1 - 1 - length m)%nat with 0%nat by lia. reflexivity.
Qed.
Lemma at_from_spec t : forall ks vs x, length ks = length vs -> ks <> [] -> t <= nth (length ks - 1) ks 0 + / 10 ^ 15 ->
  exists n, (n < length vs)%nat /\ at_from t ks vs x = Ok (nth n vs 0) /\ t <= nth n ks 0 + / 10 ^ 15 /\ forall m, (m < n)%nat -> nth m ks 0 + / 10 ^ 15 < t.
Proof.
  induction ks as [|k ks IH]; intros vs x L NE T; [contradiction|]. destruct vs as [|v vs]; [cbn in L; lia|]. cbn [at_from tl].
  destruct (Rle_dec t (k + / 10 ^ 15)) as [A|A].
  - exists 0%nat. cbn. repeat split; [lia|exact A|lia].
  - destruct ks as [|k' ks]; [cbn in T; contradiction|]. destruct (IH vs x ltac:(cbn in *; lia) ltac:(discriminate)) as (n & N & V & B & C).
    { cbn [length] in *. rewrite Nat.sub_succ, Nat.sub_0_r in T. cbn [nth] in T |- *. rewrite Nat.sub_succ, Nat.sub_0_r. exact T. }
    exists (S n). split; [cbn; lia|]. split; [exact V|]. split; [exact B|]. intros m M. destruct m as [|m]; [cbn; lra|]. apply C. lia.
Qed.

(** What [at] returns: the value of the first segment whose right end, moved by 1e-15, is
    not before [t].  So the right end belongs to the segment (as the struct's documentation
    has it), and so do the 1e-15 after it; outside of the horizon it panics. *)
Theorem C55_at_partial : forall ks vs s t, schedule_new ks vs = Ok s ->
  (0 <= t <= nth (length vs) ks 0 + / 10 ^ 15 -> exists n, (n < length vs)%nat /\ schedule_at s t = Ok (nth n vs 0) /\ t <= nth (S n) ks 0 + / 10 ^ 15 /\ (n = 0%nat \/ nth n ks 0 + / 10 ^ 15 < t)) /\
  (~ 0 <= t <= nth (length vs) ks 0 + / 10 ^ 15 -> schedule_at s t = Panic PAssert) /\
  (forall n, (n < length vs)%nat -> 0 <= t -> nth n ks 0 + / 10 ^ 15 < t -> t <= nth (S n) ks 0 -> schedule_at s t = Ok (nth n vs 0)).
Proof.
  intros ks vs s t N. apply (proj1 (C55_new ks vs s)) in N. destruct N as (-> & L & E & Z & I). set (s := {| knots := ks; values := vs |}). pose proof (Rinv_0_lt_compat (10 ^ 15) ltac:(lra)) as TP.
  assert (LU : final_time s = Ok (nth (length vs) ks 0)). { unfold final_time. cbn [knots s]. rewrite last_unwrap_nth by (intros ->; cbn in L; lia). rewrite E. do 2 f_equal. lia. }
  assert (MONO : forall i j, (i < j)%nat -> (j < length ks)%nat -> nth i ks 0 < nth j ks 0).
  { intros i j IJ. induction IJ as [|j IJ IH]; intros J; [apply I, J|]. specialize (IH ltac:(lia)). specialize (I j J). lra. }
  assert (MAIN : 0 <= t <= nth (length vs) ks 0 + / 10 ^ 15 -> exists n, (n < length vs)%nat /\ schedule_at s t = Ok (nth n vs 0) /\ t <= nth (S n) ks 0 + / 10 ^ 15 /\ (n = 0%nat \/ nth n ks 0 + / 10 ^ 15 < t)).
  { intros [T0 T1]. unfold schedule_at. rewrite LU. cbn [obind]. unfold Rleb. destruct (Rle_dec 0 t) as [_|]; [|contradiction]. destruct (Rle_dec t (nth (length vs) ks 0 + / 10 ^ 15)) as [_|]; [|contradiction]. cbn [andb negb]. unfold s. cbn [knots values].
    destruct ks as [|k0 rest]; [cbn in L; lia|]. cbn [length] in *. destruct vs as [|v vs]; [cbn in *; lia|]. destruct (Rle_dec t k0) as [A|A].
    - exists 0%nat. cbn [nth]. specialize (I 0%nat ltac:(lia)). cbn [nth] in I. repeat split; [cbn; lia|cbn; lra|left; reflexivity].
    - destruct (at_from_spec t rest (v :: vs) (last_unwrap (v :: vs)) ltac:(lia) ltac:(intros ->; cbn in *; lia)) as (n & NL & V & B & C).
      { replace (length rest - 1)%nat with (length vs) by (cbn in *; lia). exact T1. }
      exists n. split; [exact NL|]. split; [exact V|]. split; [exact B|]. destruct n as [|n]; [left; reflexivity|right]. exact (C n ltac:(lia)). }
  split; [exact MAIN|]. split.
  - intros H. unfold schedule_at. rewrite LU. cbn [obind]. unfold Rleb. destruct (Rle_dec 0 t) as [A|A]; [|reflexivity]. destruct (Rle_dec t (nth (length vs) ks 0 + / 10 ^ 15)) as [B|B]; [exfalso; apply H; split; assumption|reflexivity].
  - intros n NL T0 A B. assert (BL : nth (S n) ks 0 <= nth (length vs) ks 0). { destruct (Nat.eq_dec (S n) (length vs)) as [->|NE]; [lra|]. left. apply MONO; lia. }
    destruct (MAIN ltac:(lra)) as (m & ML & V & C & D). rewrite V. do 2 f_equal. destruct (Nat.lt_total m n) as [H|[H|H]]; [|exact H|].
    + exfalso. assert (nth (S m) ks 0 <= nth n ks 0); [|lra]. destruct (Nat.eq_dec (S m) n) as [->|]; [lra|]. left. apply MONO; lia.
    + exfalso. destruct D as [D|D]; [lia|]. assert (nth (S n) ks 0 <= nth m ks 0); [|lra]. destruct (Nat.eq_dec (S n) m) as [<-|]; [lra|]. left. apply MONO; lia.
Qed.
Print Assumptions C55_at_partial.

(** [at] is documented to be right-continuous: it is not. *)
Theorem C55_refuted : exists ks vs s v w, schedule_new ks vs = Ok s /\ schedule_at s 1 = Ok v /\ (forall t, 1 + / 10 ^ 15 < t <= 2 -> schedule_at s t = Ok w) /\ v <> w.
Proof.
  exists [0; 1; 2], [3; 4], {| knots := [0; 1; 2]; values := [3; 4] |}, 3, 4.
  assert (N : schedule_new [0; 1; 2] [3; 4] = Ok {| knots := [0; 1; 2]; values := [3; 4] |}).
  { apply (proj2 (C55_new _ _ _)). split; [reflexivity|]. split; [cbn; lia|]. split; [reflexivity|]. split; [cbn [nth]; rewrite Rabs_R0; apply Rinv_0_lt_compat; lra|]. intros i H. destruct i as [|[|i]]; cbn [nth]; [lra|lra|cbn in H; lia]. }
  pose proof (Rinv_0_lt_compat (10 ^ 15) ltac:(lra)) as TP. assert (TS : / 10 ^ 15 < 1) by lra.
  split; [exact N|]. split; [|split; [|lra]].
  - apply (proj2 (proj2 (C55_at_partial _ _ _ 1 N)) 0%nat); cbn; [lia|lra|lra|lra].
  - intros t T. apply (proj2 (proj2 (C55_at_partial _ _ _ t N)) 1%nat); cbn; [lia|lra|lra|lra].
Qed.
Print Assumptions C55_refuted.

(** ** The segments up to an expiry *)
Lemma count_prefix f : forall l n, (n < length l)%nat -> (forall i, (i <= n)%nat -> f (nth i l 0) = true) -> ((S n < length l)%nat -> f (nth (S n) l 0) = false) -> count_while f l = S n.
Proof.
  induction l as [|x l IH]; intros n L A B; [cbn in L; lia|]. cbn [count_while]. pose proof (A 0%nat ltac:(lia)) as A0. cbn in A0. rewrite A0. f_equal. destruct n as [|n].
  - destruct l as [|y l]; [reflexivity|]. cbn [count_while]. specialize (B ltac:(cbn; lia)). cbn in B. rewrite B. reflexivity.
  - apply IH; [cbn in L; lia|intros i Hi; apply (A (S i)); lia|]. intros H. apply B. cbn. lia.
Qed.
Lemma segments_follow gam om : forall n ks gs os, (n < length ks)%nat -> length ks = S (length gs) -> length ks = S (length os) ->
  (forall i, (S i < length ks)%nat -> nth i ks 0 < nth (S i) ks 0) ->
  (forall k t, (k < n)%nat -> nth k ks 0 < t < nth (S k) ks 0 -> gam t = nth k gs 0 /\ om t = nth k os 0) ->
  let segs := combine (combine (differences n ks) (firstn n gs)) (firstn n os) in
  follows (nth 0 ks 0) segs gam om /\ nth 0 ks 0 + span segs = nth n ks 0 /\ (forall s, In s segs -> 0 < fst (fst s)) /\ length segs = n.
Proof.
  induction n as [|n IH]; intros ks gs os L LG LO INC V; cbv zeta.
  - cbn. split; [exact I|]. split; [ring|]. split; [intros s []|reflexivity].
  - destruct ks as [|a [|b ks]]; [cbn in L; lia|cbn in L; lia|]. destruct gs as [|g gs]; [cbn in LG; lia|]. destruct os as [|o os]; [cbn in LO; lia|].
    assert (DE : differences (S n) (a :: b :: ks) = (b - a) :: differences n (b :: ks)) by reflexivity. rewrite DE. cbn [firstn combine]. specialize (IH (b :: ks) gs os ltac:(cbn in *; lia) ltac:(cbn in *; lia) ltac:(cbn in *; lia) (fun i H => INC (S i) ltac:(cbn in *; lia)) (fun k t H T => V (S k) t ltac:(lia) T)). cbv zeta in IH.
    set (r := combine (combine (differences n (b :: ks)) (firstn n gs)) (firstn n os)) in *. destruct IH as (F & SP & P & LN). cbn [nth] in F, SP |- *.
    pose proof (INC 0%nat ltac:(cbn; lia)) as AB. cbn in AB. split; [|split; [|split]].
    + cbn [follows]. split; [lra|]. replace (a + (b - a)) with b by ring. split; [|exact F]. intros t T. apply (V 0%nat t ltac:(lia)). exact T.
    + cbn [span]. rewrite <- SP. ring.
    + intros s [<-|H]; [cbn; lra|exact (P s H)].
    + cbn [length]. rewrite LN. reflexivity.
Qed.

(** Schedules on the same knots, an expiry on one of them (and no other knot within 1e-12
    of it), and functions of time with the values of the schedules between the knots. *)
Definition market (ks gs os : list R) (n : nat) (T : R) (gam om : R -> R) (gamma omega : schedule) : Prop :=
  schedule_new ks gs = Ok gamma /\ schedule_new ks os = Ok omega /\ (n < length ks)%nat /\ T = nth n ks 0 /\ ((S n < length ks)%nat -> T + / 10 ^ 12 < nth (S n) ks 0) /\
  (forall k t, (k < n)%nat -> nth k ks 0 < t < nth (S k) ks 0 -> gam t = nth k gs 0 /\ om t = nth k os 0).

Lemma market_segments ks gs os n T gam om gamma omega : market ks gs os n T gam om gamma omega ->
  exists segs, segs = combine (combine (differences n ks) (firstn n gs)) (firstn n os) /\ aligned_segments gamma omega T = Ok segs /\ follows (nth 0 ks 0) segs gam om /\ nth 0 ks 0 + span segs = T /\ (forall s, In s segs -> 0 < fst (fst s)) /\ length segs = n.
Proof.
  intros (G & O & N & ET & GAP & V). apply (proj1 (C55_new _ _ _)) in G. apply (proj1 (C55_new _ _ _)) in O. destruct G as (-> & L & LG & _ & INC). destruct O as (-> & _ & LO & _).
  pose proof (segments_follow gam om n ks gs os N LG LO INC V) as H. cbv zeta in H. set (segs := combine (combine (differences n ks) (firstn n gs)) (firstn n os)) in *. exists segs. rewrite ET. split; [reflexivity|]. split; [|exact H].
  assert (MONO : forall i j, (i < j)%nat -> (j < length ks)%nat -> nth i ks 0 < nth j ks 0).
  { intros i j IJ. induction IJ as [|j IJ IH]; intros J; [apply INC, J|]. specialize (IH ltac:(lia)). specialize (INC j J). lra. }
  pose proof (Rinv_0_lt_compat (10 ^ 12) ltac:(lra)) as TP. unfold aligned_segments. cbn [knots values]. unfold same_list. destruct (list_eq_dec Req_EM_T ks ks) as [_|]; [|contradiction]. cbn [negb].
  replace (existsb (fun t => Rltb (Rabs (t - nth n ks 0)) (/ 10 ^ 12)) ks) with true; cbn [negb].
  - rewrite (count_prefix _ ks n N).
    + replace (S n - 1)%nat with n by lia. unfold slice_to. destruct (Nat.leb_spec n (length gs)) as [_|]; [|lia]. destruct (Nat.leb_spec n (length os)) as [_|]; [|lia]. reflexivity.
    + intros i Hi. unfold Rleb. destruct (Rle_dec (nth i ks 0) (nth n ks 0 + / 10 ^ 12)) as [|NL]; [reflexivity|]. exfalso. apply NL. destruct (Nat.eq_dec i n) as [->|NE]; [lra|]. specialize (MONO i n ltac:(lia) N). lra.
    + intros Hi. unfold Rleb. specialize (GAP Hi). destruct (Rle_dec (nth (S n) ks 0) (nth n ks 0 + / 10 ^ 12)); [lra|reflexivity].
  - symmetry. apply existsb_exists. exists (nth n ks 0). split; [apply nth_In, N|]. unfold Rltb. rewrite Rminus_diag_eq, Rabs_R0 by reflexivity. destruct (Rlt_dec 0 (/ 10 ^ 12)); [reflexivity|contradiction].
Qed.

(** The integrals of the paper: [I] and the left-hand side. *)
Definition first_moment (a T : R) (gam om : R -> R) (I : R) : Prop :=
  is_RInt (fun t => om t ^ 2 * exp (RInt (fun s => gam s ^ 2) a t)) a T I.
Definition second_moment (a T : R) (gam om : R -> R) (L : R) : Prop :=
  is_RInt (fun t => om t ^ 2 * RInt (fun s => om s ^ 2 * exp (6 * RInt (fun u => gam u ^ 2) a s + RInt (fun u => gam u ^ 2) s t)) a t) a T L.

Lemma first_moment_segs a segs gam om : follows a segs gam om -> first_moment a (a + span segs) gam om (I_exact 0 segs).
Proof.
  intros F. unfold first_moment. apply (is_RInt_ext (fun t => om t ^ 2 * exp (0 + RInt (fun s => gam s ^ 2) a t))); [|apply I_exact_int, F]. intros x _. rewrite Rplus_0_l. reflexivity.
Qed.
Lemma second_moment_segs a segs gam om : follows a segs gam om -> second_moment a (a + span segs) gam om (L_exact 0 0 segs).
Proof.
  intros F. unfold second_moment. pose proof (span_nonneg _ _ _ _ F) as SN.
  apply (is_RInt_ext (fun t => om t ^ 2 * exp (0 + RInt (fun u => gam u ^ 2) a t) * (0 + RInt (fun s => om s ^ 2 * exp (5 * (0 + RInt (fun u => gam u ^ 2) a s))) a t))); [|apply L_exact_int, F].
  intros x X. rewrite Rmin_left, Rmax_right in X by lra. rewrite !Rplus_0_l, Rmult_assoc. apply f_equal.
  symmetry. apply is_RInt_unique.
  apply (is_RInt_ext (fun s => scal (exp (RInt (fun u => gam u ^ 2) a x)) (om s ^ 2 * exp (5 * (0 + RInt (fun u => gam u ^ 2) a s))))).
  - intros s Hs. rewrite Rmin_left, Rmax_right in Hs by lra. match goal with |- scal ?u ?v = ?w => change (u * v = w) end.
    assert (C : RInt (fun u => gam u ^ 2) a x = RInt (fun u => gam u ^ 2) a s + RInt (fun u => gam u ^ 2) s x).
    { symmetry. apply (RInt_Chasles (V := R_CompleteNormedModule) (fun u => gam u ^ 2) a s x).
      - apply (ex_RInt_Chasles_1 (V := R_CompleteNormedModule)) with (a + span segs); [lra|]. exact (gamma_square _ _ _ _ F).
      - apply (ex_RInt_Chasles_2 (V := R_CompleteNormedModule)) with a; [lra|]. apply (ex_RInt_Chasles_1 (V := R_CompleteNormedModule)) with (a + span segs); [lra|]. exact (gamma_square _ _ _ _ F). }
    rewrite C, Rplus_0_l. set (A := RInt (fun u => gam u ^ 2) a s). set (B := RInt (fun u => gam u ^ 2) s x). replace (6 * A + B) with (A + B + 5 * A) by ring. rewrite (exp_plus (A + B) (5 * A)). ring.
  - apply (@is_RInt_scal R_NormedModule). apply (is_RInt_ext (fun s => om s ^ 2 * exp (5 * (0 + RInt (fun u => gam u ^ 2) a s)))); [intros s _; reflexivity|].
    evar_last; [apply (@RInt_correct R_CompleteNormedModule), (ex_RInt_Chasles_1 (V := R_CompleteNormedModule)) with (a + span segs); [lra|]; exact (omega_square segs a 0 gam om F)|].
    apply RInt_ext. intros s _. rewrite Rplus_0_l. reflexivity.
Qed.

(** ** The root *)
Lemma widen_spec f : forall n h, 0 < h -> exists j, (j <= n)%nat /\ widen n f h = h * 2 ^ j /\ (0 <= f (widen n f h) \/ j = n).
Proof.
  induction n as [|n IH]; intros h H; cbn [widen]; [exists 0%nat; split; [lia|]; split; [cbn; ring|right; reflexivity]|].
  destruct (Rlt_dec (f h) 0) as [L|L].
  - destruct (IH (h * 2) ltac:(lra)) as (j & J & E & D). exists (S j). split; [lia|]. split; [rewrite E; cbn; ring|]. destruct D as [D|D]; [left; exact D|right; lia].
  - exists 0%nat. split; [lia|]. split; [cbn; ring|left; lra].
Qed.
Lemma bisect_spec f : forall n lo hi lo' hi', bisect n f lo hi = (lo', hi') -> lo <= hi -> f lo <= 0 -> 0 <= f hi ->
  lo <= lo' /\ lo' <= hi' /\ hi' <= hi /\ f lo' <= 0 /\ 0 <= f hi' /\ (hi' - lo' < / 10 ^ 14 \/ hi' - lo' = (hi - lo) / 2 ^ n).
Proof.
  induction n as [|n IH]; intros lo hi lo' hi' B L FL FH; cbn [bisect] in B.
  - assert (lo = lo' /\ hi = hi') as [<- <-] by (split; congruence). split; [lra|]; split; [lra|]; split; [lra|]; split; [lra|]; split; [lra|]. right. cbn. field.
  - set (mid := 1 / 2 * (lo + hi)) in *. assert (M : lo <= mid <= hi) by (unfold mid; lra).
    destruct (Rlt_dec 0 (f mid)) as [P|P].
    + destruct (Rlt_dec (mid - lo) (/ 10 ^ 14)) as [W|W].
      * assert (lo = lo' /\ mid = hi') as [<- <-] by (split; congruence). split; [lra|]; split; [lra|]; split; [lra|]; split; [lra|]; split; [lra|]. left. exact W.
      * destruct (IH lo mid lo' hi' B ltac:(lra) FL ltac:(lra)) as (A1 & A2 & A3 & A4 & A5 & A6). split; [lra|]; split; [lra|]; split; [lra|]; split; [lra|]; split; [lra|]. destruct A6 as [A6|A6]; [left; exact A6|right]. rewrite A6. unfold mid. cbn [pow]. field. apply pow_nonzero. lra.
    + destruct (Rlt_dec (hi - mid) (/ 10 ^ 14)) as [W|W].
      * assert (mid = lo' /\ hi = hi') as [<- <-] by (split; congruence). split; [lra|]; split; [lra|]; split; [lra|]; split; [lra|]; split; [lra|]. left. exact W.
      * destruct (IH mid hi lo' hi' B ltac:(lra) ltac:(lra) FH) as (A1 & A2 & A3 & A4 & A5 & A6). split; [lra|]; split; [lra|]; split; [lra|]; split; [lra|]; split; [lra|]. destruct A6 as [A6|A6]; [left; exact A6|right]. rewrite A6. unfold mid. cbn [pow]. field. apply pow_nonzero. lra.
Qed.

Lemma rhs_scale x i J : 0 <= x -> 0 <= i <= J -> J <= i * (1 + eps30) -> rhs_exact x i <= rhs_exact x J <= rhs_exact x i * (1 + / 10 ^ 20).
Proof.
  intros X I H. unfold rhs_exact. pose proof (quartic_pos (exp x) (exp_ge_1 x X)) as Q. assert (B : 0 < eps30 <= / 10 ^ 29) by (unfold eps30; split; [apply Rinv_0_lt_compat|apply Rinv_le_contravar]; lra).
  assert (A : i * i <= J * J) by nra. assert (II : 0 <= i * i) by nra.
  assert (C : J * J <= i * i * (1 + / 10 ^ 20)).
  { apply Rle_trans with (i * (1 + eps30) * (i * (1 + eps30))); [apply Rmult_le_compat; lra|]. replace (i * (1 + eps30) * (i * (1 + eps30))) with (i * i * ((1 + eps30) * (1 + eps30))) by ring. apply Rmult_le_compat_l; [exact II|]. assert (eps30 * eps30 <= eps30) by nra. assert (3 * / 10 ^ 29 <= / 10 ^ 20) by lra. lra. }
  set (q := quartic (exp x)) in *. split; [|replace (i * i * q / 30 * (1 + / 10 ^ 20)) with (i * i * (1 + / 10 ^ 20) * q / 30) by field]; apply Rmult_le_compat_r; try lra; apply Rmult_le_compat_r; lra.
Qed.

(** What the result satisfies: a bracket of width at most 4e-12 around its square, between
    whose ends the right-hand side of the paper's equation crosses the left-hand side up to a
    relative error of 2e-11. *)
Lemma vol_vol_bracket segs T gamma omega v : aligned_segments gamma omega T = Ok segs -> (forall s, In s segs -> 0 < fst (fst s)) -> 0 <= T ->
  effective_vol_vol gamma omega T = Ok v ->
  let I := I_exact 0 segs in let L := L_exact 0 0 segs in
  0 <= v /\ exists lo hi, 0 <= lo <= v ^ 2 /\ v ^ 2 <= hi /\ hi - v ^ 2 <= 2 / 10 ^ 12 /\ v ^ 2 - lo <= 2 / 10 ^ 12 /\
  L <= rhs_exact (hi * T) I * (1 + 2 / 10 ^ 11) /\ (v = 0 /\ lo = 0 \/ rhs_exact (lo * T) I <= L * (1 + 2 / 10 ^ 11)).
Proof.
  intros SEG P T0 E. cbv zeta. unfold effective_vol_vol in E. rewrite SEG in E. cbn [obind] in E. fold (i_integral segs) in *.
  destruct (i_close segs P 0) as [[I0 I1] I2]. destruct (lhs_close segs P 0 0 0 ltac:(lra) ltac:(lra)) as [[L0 L1] L2]. fold eps30 in I2. unfold i_integral, lhs_double_integral in E.
  set (i := i_from 0 0 segs) in *. set (lhs := lhs_from 0 0 0 segs) in *. set (I := I_exact 0 segs) in *. set (L := L_exact 0 0 segs) in *.
  assert (TP : 0 < / 10 ^ 12) by (apply Rinv_0_lt_compat; lra). assert (TP11 : 0 < / 10 ^ 11) by (apply Rinv_0_lt_compat; lra).
  assert (Q1 : rhs_exact 0 i = 1 / 2 * i * i) by (unfold rhs_exact, quartic; rewrite exp_0; field).
  destruct (Rle_dec lhs (1 / 2 * i * i * (1 + / 10 ^ 12))) as [Z|Z].
  - assert (v = 0) by congruence. subst v. split; [lra|]. exists 0, 0. split; [cbn; lra|]. split; [cbn; lra|]. split; [cbn; lra|]. split; [cbn; lra|]. split; [|left; split; reflexivity].
    rewrite Rmult_0_l. destruct (rhs_scale 0 i I ltac:(lra) ltac:(lra) I2) as [S1 _]. rewrite Q1 in S1. set (J := rhs_exact 0 I) in *. set (q := 1 / 2 * i * i) in *. assert (0 <= q) by (unfold q; nra).
    apply Rle_trans with (q * (1 + / 10 ^ 12) * (1 + / 10 ^ 11)); [apply Rle_trans with (lhs * (1 + / 10 ^ 11)); [exact L2|apply Rmult_le_compat_r; lra]|]. apply Rle_trans with (q * (1 + 2 / 10 ^ 11)); [|apply Rmult_le_compat_r; lra].
    rewrite Rmult_assoc. apply Rmult_le_compat_l; [assumption|]. lra.
  - cbv zeta in E. set (f := fun x => rhs_at_gamma_tilde x T i - lhs) in *.
    destruct (widen_spec f 20 4 ltac:(lra)) as (j & J & W & _). set (h := widen 20 f 4) in *. unfold Rleb in E. change (rhs_at_gamma_tilde h T i - lhs) with (f h) in E. destruct (Rle_dec 0 (f h)) as [FH|]; [|discriminate]. cbn [negb] in E.
    destruct (bisect 60 f 0 h) as [lo hi] eqn:B. assert (EV : v = sqrt (1 / 2 * (lo + hi))) by congruence.
    assert (HP : 0 < h <= 4 * 2 ^ 20). { rewrite W. assert (1 <= 2 ^ j) by (apply pow_R1_Rle; lra). assert (2 ^ j <= 2 ^ 20) by (apply Rle_pow; [lra|exact J]). lra. }
    assert (F0 : f 0 <= 0). { unfold f, rhs_at_gamma_tilde, exp_m1. cbv zeta. rewrite Rmult_0_l, exp_0. replace (1 - 1) with 0 by ring. rewrite Rabs_R0. destruct (Rlt_dec 0 (/ 10 ^ 300)) as [_|N]; [|exfalso; apply N, Rinv_0_lt_compat, pow_lt; lra]. assert (0 <= i * i) by nra. lra. }
    destruct (bisect_spec f 60 0 h lo hi B ltac:(lra) F0 FH) as (A1 & A2 & A3 & A4 & A5 & A6).
    assert (WD : hi - lo <= 4 / 10 ^ 12). { destruct A6 as [A6|A6]; [assert (/ 10 ^ 14 <= / 10 ^ 12) by (apply Rinv_le_contravar; lra); lra|]. rewrite A6. apply Rle_trans with (4 * 2 ^ 20 / 2 ^ 60); [apply Rmult_le_compat_r; [left; apply Rinv_0_lt_compat, pow_lt; lra|lra]|]. lra. }
    assert (V2 : v ^ 2 = 1 / 2 * (lo + hi)). { rewrite EV. cbn [pow]. rewrite Rmult_1_r. apply sqrt_sqrt. lra. }
    split; [rewrite EV; apply sqrt_pos|]. exists lo, hi. rewrite V2. split; [lra|]. split; [lra|]. split; [lra|]. split; [lra|].
    unfold f in A4, A5. assert (S20 : / 10 ^ 20 < / 10 ^ 12) by (apply Rinv_lt_contravar; lra). assert (P20 : 0 < / 10 ^ 20) by (apply Rinv_0_lt_compat; lra). split; [|right].
    + destruct (rhs_close hi T i ltac:(lra) T0) as [C1 _]. destruct (rhs_scale (hi * T) i I ltac:(apply Rmult_le_pos; lra) ltac:(lra) I2) as [S1 _].
      apply Rle_trans with (lhs * (1 + / 10 ^ 11)); [exact L2|]. apply Rle_trans with (rhs_exact (hi * T) I * (1 + / 10 ^ 11)); [apply Rmult_le_compat_r; lra|]. apply Rmult_le_compat_l; [|lra]. lra.
    + destruct (rhs_close lo T i ltac:(lra) T0) as [_ C2]. destruct (rhs_scale (lo * T) i I ltac:(apply Rmult_le_pos; lra) ltac:(lra) I2) as [_ S2].
      apply Rle_trans with (1 := S2). apply Rle_trans with (L * (1 + / 10 ^ 11) * (1 + / 10 ^ 20)).
      * apply Rmult_le_compat_r; [lra|]. apply Rle_trans with (1 := C2). apply Rmult_le_compat_r; [lra|]. lra.
      * rewrite Rmult_assoc. apply Rmult_le_compat_l; lra.
Qed.

(** The effective vol-vol is the solution of the paper's equation: [v^2 T] is within 2e-11,
    and 2e-12 per year, of the solution [g^2 T] (which is unique; the limit of the equation as
    [g] goes to zero is [L = I^2 / 2]). *)
Theorem C74_root : forall ks gs os n T gam om gamma omega v I L g, market ks gs os n T gam om gamma omega ->
  first_moment (nth 0 ks 0) T gam om I -> second_moment (nth 0 ks 0) T gam om L -> 0 < I -> 0 < T ->
  (0 < g /\ L = 1 / 5 * (I / (exp (g ^ 2 * T) - 1)) ^ 2 * (exp (6 * (g ^ 2 * T)) / 6 - exp (g ^ 2 * T) + 5 / 6) \/ g = 0 /\ L = I ^ 2 / 2) ->
  effective_vol_vol gamma omega T = Ok v -> 0 <= v /\ Rabs (v ^ 2 * T - g ^ 2 * T) <= 2 / 10 ^ 11 + 2 / 10 ^ 12 * T.
Proof.
  intros ks gs os n T gam om gamma omega v J L g M FM SM IP TP EQ V. destruct (market_segments _ _ _ _ _ _ _ _ _ M) as (segs & _ & SEG & F & SP & P & _).
  pose proof (first_moment_segs _ _ _ _ F) as FM'. pose proof (second_moment_segs _ _ _ _ F) as SM'. rewrite SP in FM', SM'.
  assert (EI : J = I_exact 0 segs) by (rewrite <- (is_RInt_unique _ _ _ _ FM), <- (is_RInt_unique _ _ _ _ FM'); reflexivity).
  assert (EL : L = L_exact 0 0 segs) by (rewrite <- (is_RInt_unique _ _ _ _ SM), <- (is_RInt_unique _ _ _ _ SM'); reflexivity).
  destruct (vol_vol_bracket segs T gamma omega v SEG P ltac:(lra) V) as (V0 & lo & hi & A & B & C & D & X & Y). rewrite <- EI, <- EL in X, Y. split; [exact V0|].
  assert (G : 0 <= g) by (destruct EQ as [[G _]|[-> _]]; lra). assert (G2 : 0 <= g ^ 2 * T) by (apply Rmult_le_pos; [apply pow_le, G|lra]).
  assert (LE : L = rhs_exact (g ^ 2 * T) J).
  { destruct EQ as [[GP ->]|[-> ->]]; [apply rhs_formula, Rgt_not_eq, Rmult_lt_0_compat; [apply pow_lt, GP|exact TP]|]. unfold rhs_exact, quartic. replace (0 ^ 2 * T) with 0 by ring. rewrite exp_0. field. }
  rewrite LE in X, Y. assert (T11 : 0 < / 10 ^ 11) by (apply Rinv_0_lt_compat; lra).
  assert (HT : 0 <= hi * T) by (apply Rmult_le_pos; lra). assert (LT : 0 <= lo * T) by (apply Rmult_le_pos; lra).
  pose proof (rhs_inverse _ _ J (2 / 10 ^ 11) G2 HT IP ltac:(lra) X) as U1.
  assert (U2 : lo * T <= g ^ 2 * T + 2 / 10 ^ 11).
  { destruct Y as [[_ ->]|Y]; [lra|]. exact (rhs_inverse _ _ J (2 / 10 ^ 11) LT G2 IP ltac:(lra) Y). }
  assert ((hi - v ^ 2) * T <= 2 / 10 ^ 12 * T) by (apply Rmult_le_compat_r; lra). assert ((v ^ 2 - lo) * T <= 2 / 10 ^ 12 * T) by (apply Rmult_le_compat_r; lra).
  apply Rabs_le. lra.
Qed.
Print Assumptions C74_root.

(** ** Existence, and no panic *)
Fixpoint gamma_total (segs : list (R * R * R)) : R := match segs with [] => 0 | (d, g, _) :: r => g ^ 2 * d + gamma_total r end.
Lemma gamma_total_int segs : forall a gam om, follows a segs gam om -> RInt (fun u => gam u ^ 2) a (a + span segs) = gamma_total segs.
Proof.
  induction segs as [|[[d g] o] r IH]; intros a gam om F; cbn [span gamma_total].
  - rewrite Rplus_0_r. apply (@RInt_point R_CompleteNormedModule).
  - pose proof F as (D & V & F'). pose proof (span_nonneg _ _ _ _ F'). rewrite (gamma_later a d g o r gam om _ F) by lra. replace (a + (d + span r)) with (a + d + span r) by ring. rewrite (IH _ _ _ F'). reflexivity.
Qed.
Lemma gamma_total_pos segs : (forall s, In s segs -> 0 < fst (fst s)) -> 0 <= gamma_total segs.
Proof.
  intros P. induction segs as [|[[d g] o] r IH]; cbn [gamma_total]; [lra|]. specialize (IH (fun s H => P s (or_intror H))). assert (D : 0 < d) by exact (P _ (or_introl eq_refl)). assert (0 <= g ^ 2) by (apply pow2_ge_0). nra.
Qed.
Lemma kernels_compare c d : 0 <= c -> 0 <= d -> let z := exp (c * d) in
  E_exact c d <= E_exact (5 * c) d <= z ^ 4 * E_exact c d /\ E_exact c d ^ 2 / 2 <= K_exact c d <= z ^ 4 * (E_exact c d ^ 2 / 2).
Proof.
  intros C D z. assert (Z : 1 <= z) by (apply exp_ge_1, Rmult_le_pos; assumption). unfold K_exact, E_exact. destruct (Req_EM_T c 0) as [E|NE].
  - destruct (Req_EM_T (5 * c) 0) as [_|N]; [|lra]. assert (z = 1) by (unfold z; rewrite E, Rmult_0_l; apply exp_0). rewrite H. cbn. lra.
  - destruct (Req_EM_T (5 * c) 0) as [N|_]; [lra|]. destruct (Req_EM_T (6 * c) 0) as [N|_]; [lra|]. rewrite !Rmult_assoc. rewrite exp_6.
    replace (exp (5 * (c * d))) with (z ^ 5) by (unfold z; rewrite <- Rpower_pow by apply exp_pos; unfold Rpower; rewrite ln_exp; f_equal; cbn; ring). fold z. assert (CP : 0 < c) by lra.
    replace ((z ^ 5 - 1) / (5 * c)) with ((z - 1) / c * ((z ^ 4 + z ^ 3 + z ^ 2 + z + 1) / 5)) by (field; lra).
    replace (((z ^ 6 - 1) / (6 * c) - (z - 1) / c) / (5 * c)) with (((z - 1) / c) ^ 2 / 2 * (quartic z / 15)) by (unfold quartic; field; lra).
    assert (E0 : 0 <= (z - 1) / c) by (apply Rdiv_le_0_compat; lra). set (e := (z - 1) / c) in *. assert (E2 : 0 <= e ^ 2 / 2) by (pose proof (pow2_ge_0 e); lra).
    assert (Z2 : 1 <= z ^ 2) by (apply pow_R1_Rle, Z). assert (Z3 : 1 <= z ^ 3) by (apply pow_R1_Rle, Z). assert (Z4 : 1 <= z ^ 4) by (apply pow_R1_Rle, Z). assert (z <= z ^ 4 /\ z ^ 2 <= z ^ 4 /\ z ^ 3 <= z ^ 4) as (Y1 & Y2 & Y3) by (split; [replace z with (z ^ 1) at 1 by ring|split]; apply Rle_pow; lia || exact Z).
    pose proof (quartic_pos z Z). assert (quartic z <= 15 * z ^ 4) by (unfold quartic; lra).
    split; split.
    + rewrite <- (Rmult_1_r e) at 1. apply Rmult_le_compat_l; lra.
    + rewrite (Rmult_comm (z ^ 4)). apply Rmult_le_compat_l; lra.
    + rewrite <- (Rmult_1_r (e ^ 2 / 2)) at 1. apply Rmult_le_compat_l; lra.
    + rewrite (Rmult_comm (z ^ 4)). apply Rmult_le_compat_l; lra.
Qed.
Lemma L_bounds segs : (forall s, In s segs -> 0 < fst (fst s)) -> forall g0 h H G, 0 <= g0 -> g0 + gamma_total segs <= G -> 0 <= H <= h -> h <= exp (4 * G) * H ->
  I_exact g0 segs ^ 2 / 2 + H * I_exact g0 segs <= L_exact g0 h segs <= exp (4 * G) * (I_exact g0 segs ^ 2 / 2 + H * I_exact g0 segs) /\ 0 <= I_exact g0 segs.
Proof.
  intros P. induction segs as [|[[d g] o] r IH]; intros g0 h H G G0 GT HH HG; cbn [I_exact L_exact gamma_total] in *; [cbn; lra|].
  assert (D : 0 < d) by exact (P _ (or_introl eq_refl)). assert (C : 0 <= g ^ 2) by apply pow2_ge_0. pose proof (gamma_total_pos r (fun s Hs => P s (or_intror Hs))) as TP.
  destruct (kernels_compare (g ^ 2) d C ltac:(lra)) as [[A1 A2] [A3 A4]]. pose proof (E_mono (g ^ 2) d C ltac:(lra)) as E0. set (z := exp (g ^ 2 * d)) in *. set (E := E_exact (g ^ 2) d) in *. set (E5 := E_exact (5 * g ^ 2) d) in *. set (K := K_exact (g ^ 2) d) in *.
  assert (CD : 0 <= g ^ 2 * d) by (apply Rmult_le_pos; lra).
  (* the exponentials *)
  assert (X1 : exp g0 * 1 <= exp (5 * g0)) by (rewrite Rmult_1_r; destruct (Req_dec g0 0) as [->|]; [rewrite Rmult_0_r; lra|left; apply exp_increasing; lra]).
  assert (Z4 : z ^ 4 = exp (4 * (g ^ 2 * d))) by (unfold z; rewrite <- Rpower_pow by apply exp_pos; unfold Rpower; rewrite ln_exp; f_equal; cbn; ring).
  assert (EG : exp (4 * g0) * z ^ 4 <= exp (4 * G)). { rewrite Z4, <- exp_plus. assert (4 * g0 + 4 * (g ^ 2 * d) <= 4 * G) by lra. destruct H0 as [H0|H0]; [left; apply exp_increasing, H0|right; f_equal; exact H0]. }
  assert (P4 : exp (5 * g0) = exp (4 * g0) * exp g0) by (rewrite <- exp_plus; f_equal; ring). assert (P6 : exp (6 * g0) = exp (4 * g0) * (exp g0 * exp g0)) by (rewrite <- !exp_plus; f_equal; ring).
  assert (E4 : 1 <= exp (4 * g0)) by (apply exp_ge_1; lra). pose proof (exp_pos g0) as EP. pose proof (exp_pos (4 * G)) as EGP. set (w := o ^ 2 * exp g0) in *. assert (W : 0 <= w) by (apply Rmult_le_pos; [apply pow2_ge_0|lra]).
  set (A := w * E). assert (A0 : 0 <= A) by (apply Rmult_le_pos; assumption).
  (* the new inner sums *)
  set (h1 := o ^ 2 * exp (5 * g0) * E5). assert (H1 : A <= h1 <= exp (4 * G) * A).
  { unfold h1, A. rewrite P4. replace (o ^ 2 * (exp (4 * g0) * exp g0) * E5) with (w * (exp (4 * g0) * E5)) by (unfold w; ring). split.
    - apply Rmult_le_compat_l; [exact W|]. apply Rle_trans with (1 * E5); [lra|]. apply Rmult_le_compat_r; lra.
    - replace (exp (4 * G) * (w * E)) with (w * (exp (4 * G) * E)) by ring. apply Rmult_le_compat_l; [exact W|]. apply Rle_trans with (exp (4 * g0) * (z ^ 4 * E)); [apply Rmult_le_compat_l; lra|]. rewrite <- Rmult_assoc. apply Rmult_le_compat_r; lra. }
  set (k1 := o ^ 4 * exp (6 * g0) * K). assert (K1 : A ^ 2 / 2 <= k1 <= exp (4 * G) * (A ^ 2 / 2)).
  { unfold k1, A. rewrite P6. replace (o ^ 4 * (exp (4 * g0) * (exp g0 * exp g0)) * K) with (w * w * (exp (4 * g0) * K)) by (unfold w; ring). replace ((w * E) ^ 2 / 2) with (w * w * (E ^ 2 / 2)) by field. assert (WW : 0 <= w * w) by nra. assert (E2 : 0 <= E ^ 2 / 2) by (pose proof (pow2_ge_0 E); lra). split.
    - apply Rmult_le_compat_l; [exact WW|]. apply Rle_trans with (1 * K); [lra|]. apply Rmult_le_compat_r; lra.
    - replace (exp (4 * G) * (w * w * (E ^ 2 / 2))) with (w * w * (exp (4 * G) * (E ^ 2 / 2))) by ring. apply Rmult_le_compat_l; [exact WW|]. apply Rle_trans with (exp (4 * g0) * (z ^ 4 * (E ^ 2 / 2))); [apply Rmult_le_compat_l; lra|]. rewrite <- Rmult_assoc. apply Rmult_le_compat_r; lra. }
  destruct (IH (fun s Hs => P s (or_intror Hs)) (g0 + g ^ 2 * d) (h + h1) (H + A) G ltac:(lra) ltac:(lra) ltac:(lra)) as [[B1 B2] B3]; [lra|].
  set (Ir := I_exact (g0 + g ^ 2 * d) r) in *. set (Lr := L_exact (g0 + g ^ 2 * d) (h + h1) r) in *.
  assert (Q1 : H * A <= w * h * E <= exp (4 * G) * (H * A)).
  { replace (w * h * E) with (h * A) by (unfold A; ring). split; [apply Rmult_le_compat_r; lra|]. rewrite <- Rmult_assoc. apply Rmult_le_compat_r; lra. }
  fold A. split; [split|lra].
  - replace ((A + Ir) ^ 2 / 2 + H * (A + Ir)) with (H * A + A ^ 2 / 2 + (Ir ^ 2 / 2 + (H + A) * Ir)) by field. lra.
  - replace (exp (4 * G) * ((A + Ir) ^ 2 / 2 + H * (A + Ir))) with (exp (4 * G) * (H * A) + exp (4 * G) * (A ^ 2 / 2) + exp (4 * G) * (Ir ^ 2 / 2 + (H + A) * Ir)) by field. lra.
Qed.
Lemma rhs_enough x G J : 0 <= G -> 0 <= J -> G + 1 <= x -> exp (4 * G) * (J ^ 2 / 2) * (1 + / 10 ^ 10) <= rhs_exact x J.
Proof.
  intros G0 JP X. unfold rhs_exact. pose proof (exp_ineq1_le 1) as E1. assert (Z : 2 * exp G <= exp x).
  { apply Rle_trans with (exp (1 + G)); [rewrite exp_plus; apply Rmult_le_compat_r; [left; apply exp_pos|lra]|]. destruct (Req_dec (1 + G) x) as [->|]; [lra|left; apply exp_increasing; lra]. }
  assert (Z4 : (2 * exp G) ^ 4 <= exp x ^ 4) by (apply pow_incr; pose proof (exp_pos G); lra). rewrite Rpow_mult_distr in Z4.
  assert (E4 : exp G ^ 4 = exp (4 * G)) by (rewrite <- Rpower_pow by apply exp_pos; unfold Rpower; rewrite ln_exp; f_equal; cbn; ring). rewrite E4 in Z4.
  pose proof (exp_pos (4 * G)) as EP. assert (Q : 16 * exp (4 * G) <= quartic (exp x)). { unfold quartic. assert (0 < exp x) by apply exp_pos. assert (0 < exp x ^ 3) by (apply pow_lt; lra). assert (0 < exp x ^ 2) by (apply pow_lt; lra). lra. }
  assert (0 <= J * J) by nra. replace (J * J * quartic (exp x) / 30) with (J * J * (quartic (exp x) / 30)) by field. replace (exp (4 * G) * (J ^ 2 / 2) * (1 + / 10 ^ 10)) with (J * J * (exp (4 * G) / 2 * (1 + / 10 ^ 10))) by field. apply Rmult_le_compat_l; [assumption|]. assert (/ 10 ^ 10 < / 100) by (apply Rinv_lt_contravar; lra). nra.
Qed.

(** The equation has a solution. *)
Theorem C74_solution : forall ks gs os n T gam om gamma omega I L, market ks gs os n T gam om gamma omega ->
  first_moment (nth 0 ks 0) T gam om I -> second_moment (nth 0 ks 0) T gam om L -> 0 < I -> 0 < T ->
  exists g, 0 <= g /\ g ^ 2 * T <= RInt (fun u => gam u ^ 2) (nth 0 ks 0) T + 1 /\
  (0 < g /\ L = 1 / 5 * (I / (exp (g ^ 2 * T) - 1)) ^ 2 * (exp (6 * (g ^ 2 * T)) / 6 - exp (g ^ 2 * T) + 5 / 6) \/ g = 0 /\ L = I ^ 2 / 2).
Proof.
  intros ks gs os n T gam om gamma omega J L M FM SM IP TP. destruct (market_segments _ _ _ _ _ _ _ _ _ M) as (segs & _ & SEG & F & SP & P & _).
  pose proof (first_moment_segs _ _ _ _ F) as FM'. pose proof (second_moment_segs _ _ _ _ F) as SM'. rewrite SP in FM', SM'.
  assert (EI : J = I_exact 0 segs) by (rewrite <- (is_RInt_unique _ _ _ _ FM), <- (is_RInt_unique _ _ _ _ FM'); reflexivity).
  assert (EL : L = L_exact 0 0 segs) by (rewrite <- (is_RInt_unique _ _ _ _ SM), <- (is_RInt_unique _ _ _ _ SM'); reflexivity).
  pose proof (gamma_total_int _ _ _ _ F) as GI. rewrite SP in GI. rewrite GI. set (G := gamma_total segs) in *. pose proof (gamma_total_pos segs P) as G0. fold G in G0.
  destruct (L_bounds segs P 0 0 0 G ltac:(lra) ltac:(unfold G; lra) ltac:(lra) ltac:(lra)) as [[B1 B2] _]. rewrite <- EI, <- EL, Rmult_0_l, Rplus_0_r in *.
  destruct (Req_dec L (J ^ 2 / 2)) as [E|NE].
  - exists 0. split; [lra|]. split; [cbn; lra|]. right. split; [reflexivity|exact E].
  - assert (R0 : rhs_exact 0 J = J ^ 2 / 2) by (unfold rhs_exact, quartic; rewrite exp_0; field).
    assert (RG : L <= rhs_exact (G + 1) J). { pose proof (rhs_enough (G + 1) G J G0 ltac:(lra) ltac:(lra)) as H. assert (0 < / 10 ^ 10) by (apply Rinv_0_lt_compat; lra). assert (0 <= exp (4 * G) * (J ^ 2 / 2)) by (apply Rmult_le_pos; [left; apply exp_pos|pose proof (pow2_ge_0 J); lra]). nra. }
    destruct (IVT_gen (fun x => rhs_exact x J) 0 (G + 1) L) as (x & X & E).
    + intros x. apply continuity_pt_filterlim, (ex_derive_continuous (fun x => rhs_exact x J)). unfold rhs_exact, quartic. auto_derive. exact Logic.I.
    + rewrite R0. rewrite Rmin_left, Rmax_right by lra. lra.
    + rewrite Rmin_left, Rmax_right in X by lra. assert (XP : 0 < x). { destruct X as [[X|X] _]; [exact X|]. exfalso. apply NE. rewrite <- E, <- X. exact R0. }
      exists (sqrt (x / T)). assert (SQ : sqrt (x / T) ^ 2 * T = x). { cbn [pow]. rewrite Rmult_1_r, sqrt_sqrt by (apply Rdiv_le_0_compat; lra). field. lra. }
      split; [apply sqrt_pos|]. rewrite SQ. split; [lra|]. left. split; [apply sqrt_lt_R0, Rdiv_lt_0_compat; lra|]. rewrite rhs_formula by lra. symmetry. exact E.
Qed.
Print Assumptions C74_solution.

(** ... and only one. *)
Theorem C74_unique : forall T I L g g', 0 < I -> 0 < T -> 0 <= g -> 0 <= g' ->
  (0 < g /\ L = 1 / 5 * (I / (exp (g ^ 2 * T) - 1)) ^ 2 * (exp (6 * (g ^ 2 * T)) / 6 - exp (g ^ 2 * T) + 5 / 6) \/ g = 0 /\ L = I ^ 2 / 2) ->
  (0 < g' /\ L = 1 / 5 * (I / (exp (g' ^ 2 * T) - 1)) ^ 2 * (exp (6 * (g' ^ 2 * T)) / 6 - exp (g' ^ 2 * T) + 5 / 6) \/ g' = 0 /\ L = I ^ 2 / 2) -> g = g'.
Proof.
  intros T J L g g' IP TP G G' E E'.
  assert (LE : forall h, 0 <= h -> 0 < h /\ L = 1 / 5 * (J / (exp (h ^ 2 * T) - 1)) ^ 2 * (exp (6 * (h ^ 2 * T)) / 6 - exp (h ^ 2 * T) + 5 / 6) \/ h = 0 /\ L = J ^ 2 / 2 -> L = rhs_exact (h ^ 2 * T) J).
  { intros h H [[HP ->]|[-> ->]]; [apply rhs_formula, Rgt_not_eq, Rmult_lt_0_compat; [apply pow_lt, HP|exact TP]|]. unfold rhs_exact, quartic. replace (0 ^ 2 * T) with 0 by ring. rewrite exp_0. field. }
  pose proof (LE g G E) as A. pose proof (LE g' G' E') as B.
  assert (ST : forall a b, 0 <= a < b -> rhs_exact (a ^ 2 * T) J < rhs_exact (b ^ 2 * T) J).
  { intros a b AB. unfold rhs_exact. assert (S2 : a ^ 2 * T < b ^ 2 * T) by (apply Rmult_lt_compat_r; [exact TP|nra]). apply exp_increasing in S2. pose proof (exp_pos (a ^ 2 * T)) as P. set (y := exp (a ^ 2 * T)) in *. set (z := exp (b ^ 2 * T)) in *.
    assert (Q : quartic y < quartic z). { unfold quartic. assert (y ^ 2 <= z ^ 2) by (apply pow_incr; lra). assert (y ^ 3 <= z ^ 3) by (apply pow_incr; lra). assert (y ^ 4 <= z ^ 4) by (apply pow_incr; lra). lra. }
    apply Rmult_lt_compat_r; [lra|]. apply Rmult_lt_compat_l; [nra|exact Q]. }
  destruct (Rtotal_order g g') as [H|[H|H]]; [|exact H|]; [specialize (ST g g' ltac:(lra))|specialize (ST g' g ltac:(lra))]; lra.
Qed.
Print Assumptions C74_unique.

(** The search ends with a result as long as the total squared vol-vol is not of the order
    of a million per year. *)
Theorem C74_total : forall ks gs os n T gam om gamma omega, market ks gs os n T gam om gamma omega -> 0 < T ->
  RInt (fun u => gam u ^ 2) (nth 0 ks 0) T + 1 <= 2 ^ 22 * T -> exists v, effective_vol_vol gamma omega T = Ok v.
Proof.
  intros ks gs os n T gam om gamma omega M TP B. destruct (market_segments _ _ _ _ _ _ _ _ _ M) as (segs & _ & SEG & F & SP & P & _).
  pose proof (gamma_total_int _ _ _ _ F) as GI. rewrite SP in GI. rewrite GI in B. set (G := gamma_total segs) in *. pose proof (gamma_total_pos segs P) as G0. fold G in G0.
  unfold effective_vol_vol. rewrite SEG. cbn [obind]. unfold i_integral, lhs_double_integral.
  destruct (i_close segs P 0) as [[I0 I1] I2]. destruct (lhs_close segs P 0 0 0 ltac:(lra) ltac:(lra)) as [[L0 L1] L2]. fold eps30 in I2.
  destruct (L_bounds segs P 0 0 0 G ltac:(lra) ltac:(unfold G; lra) ltac:(lra) ltac:(lra)) as [[_ B2] _]. rewrite Rmult_0_l, Rplus_0_r in B2.
  set (i := i_from 0 0 segs) in *. set (lhs := lhs_from 0 0 0 segs) in *. destruct (Rle_dec lhs (1 / 2 * i * i * (1 + / 10 ^ 12))) as [Z|Z]; [exists 0; reflexivity|].
  set (f := fun x => rhs_at_gamma_tilde x T i - lhs) in *. destruct (widen_spec f 20 4 ltac:(lra)) as (j & J & W & D). cbv zeta. fold f. set (h := widen 20 f 4) in *.
  assert (FH : 0 <= f h).
  { destruct D as [D|D]; [exact D|]. rewrite D in W. assert (H22 : h = 2 ^ 22) by (rewrite W; lra). rewrite H22. unfold f.
    destruct (rhs_close (2 ^ 22) T i ltac:(apply pow_le; lra) ltac:(lra)) as [_ C]. pose proof (rhs_enough (2 ^ 22 * T) G i G0 I0 B) as H.
    set (Q := exp (4 * G)) in *. assert (QP : 0 < Q) by apply exp_pos. set (I := I_exact 0 segs) in *. set (x := rhs_at_gamma_tilde (2 ^ 22) T i) in *.
    assert (BB : 0 < eps30 <= / 10 ^ 29) by (unfold eps30; split; [apply Rinv_0_lt_compat|apply Rinv_le_contravar]; lra).
    assert (IJ : I ^ 2 / 2 <= i ^ 2 / 2 * (1 + / 10 ^ 20)).
    { assert (I ^ 2 <= (i * (1 + eps30)) ^ 2) by (apply pow_incr; lra). rewrite Rpow_mult_distr in H0. assert ((1 + eps30) ^ 2 <= 1 + / 10 ^ 20) by (cbn; assert (eps30 * eps30 <= eps30) by nra; assert (3 * / 10 ^ 29 <= / 10 ^ 20) by lra; lra). assert (0 <= i ^ 2) by apply pow2_ge_0. assert (i ^ 2 * (1 + eps30) ^ 2 <= i ^ 2 * (1 + / 10 ^ 20)) by (apply Rmult_le_compat_l; assumption). lra. }
    assert (i2 : 0 <= i ^ 2 / 2) by (pose proof (pow2_ge_0 i); lra). set (y := i ^ 2 / 2) in *.
    assert (LH : lhs <= Q * y * (1 + / 10 ^ 20)) by (apply Rle_trans with (Q * (I ^ 2 / 2)); [lra|]; rewrite Rmult_assoc; apply Rmult_le_compat_l; lra).
    assert (QY : 0 <= Q * y) by (apply Rmult_le_pos; lra).
    assert (S1 : / 10 ^ 20 < / 10 ^ 11) by (apply Rinv_lt_contravar; lra). assert (S2 : 0 < / 10 ^ 20) by (apply Rinv_0_lt_compat; lra).
    assert (KEY : Q * y * (1 + / 10 ^ 20) * (1 + / 10 ^ 11) <= Q * y * (1 + / 10 ^ 10)) by (rewrite Rmult_assoc; apply Rmult_le_compat_l; [exact QY|]; lra).
    assert (lhs * (1 + / 10 ^ 11) <= x * (1 + / 10 ^ 11)) by (apply Rle_trans with (Q * y * (1 + / 10 ^ 20) * (1 + / 10 ^ 11)); [apply Rmult_le_compat_r; lra|lra]). apply Rmult_le_reg_r in H0; lra. }
  change (rhs_at_gamma_tilde h T i - lhs) with (f h). unfold Rleb. destruct (Rle_dec 0 (f h)) as [_|]; [|contradiction]. cbn [negb]. destruct (bisect 60 f 0 h) as [lo hi]. eexists. reflexivity.
Qed.
Print Assumptions C74_total.

(** The effective term structure matches the first moment: with constant parameters [w] and
    [v] it would be [w^2 (exp(v^2 T) - 1) / v^2]; below 1e-6 the code takes the limit
    [w^2 T]. *)
Theorem C74_term : forall ks gs os n T gam om gamma omega v I, market ks gs os n T gam om gamma omega ->
  first_moment (nth 0 ks 0) T gam om I -> 0 < T -> effective_vol_vol gamma omega T = Ok v ->
  exists w, effective_term_structure gamma omega T = Ok w /\ 0 <= w /\
  (/ 10 ^ 6 <= v ^ 2 * T -> Rabs (w ^ 2 * (exp (v ^ 2 * T) - 1) / v ^ 2 - I) <= I / 10 ^ 30) /\
  (v ^ 2 * T < / 10 ^ 6 -> Rabs (w ^ 2 * T - I) <= I / 10 ^ 30).
Proof.
  intros ks gs os n T gam om gamma omega v J M FM TP V. destruct (market_segments _ _ _ _ _ _ _ _ _ M) as (segs & _ & SEG & F & SP & P & _).
  pose proof (first_moment_segs _ _ _ _ F) as FM'. rewrite SP in FM'. assert (EI : J = I_exact 0 segs) by (rewrite <- (is_RInt_unique _ _ _ _ FM), <- (is_RInt_unique _ _ _ _ FM'); reflexivity).
  destruct (i_close segs P 0) as [[I0 I1] I2]. rewrite <- EI in I1, I2. unfold effective_term_structure. rewrite SEG. cbn [obind]. rewrite V. cbn [obind]. unfold i_integral. set (i := i_from 0 0 segs) in *.
  assert (VT : 0 <= v ^ 2 * T) by (apply Rmult_le_pos; [apply pow2_ge_0|lra]). replace (v * v * T) with (v ^ 2 * T) by ring. rewrite (Rabs_right (v ^ 2 * T)) by lra. set (x := v ^ 2 * T) in *. assert (P30 : 0 < / 10 ^ 30) by (apply Rinv_0_lt_compat; lra).
  assert (CL : Rabs (i - J) <= J / 10 ^ 30). { apply Rabs_le. assert (i * / 10 ^ 30 <= J * / 10 ^ 30) by (apply Rmult_le_compat_r; lra). unfold Rdiv. lra. }
  destruct (Rlt_dec x (/ 10 ^ 6)) as [S|S].
  - destruct (Req_EM_T T 0) as [Z|_]; [lra|]. cbn [obind]. assert (Q : 0 <= i / T) by (apply Rdiv_le_0_compat; lra). unfold Rleb. destruct (Rle_dec 0 (i / T)) as [_|]; [|contradiction]. cbn [negb].
    exists (sqrt (i / T)). split; [reflexivity|]. split; [apply sqrt_pos|]. split; [intros H; exfalso; exact (Rlt_not_le _ _ S H)|]. intros _. cbn [pow]. rewrite Rmult_1_r, sqrt_sqrt by exact Q. replace (i / T * T) with i by (field; lra). exact CL.
  - cbn [obind]. assert (X0 : 0 < x) by (pose proof (Rinv_0_lt_compat (10 ^ 6) ltac:(lra)); lra). assert (V2 : 0 < v ^ 2) by (destruct (Req_dec (v ^ 2) 0) as [Z|NZ]; [unfold x in X0; rewrite Z in X0; lra|pose proof (pow2_ge_0 v); lra]).
    assert (EP : 0 < exp_m1 x) by (unfold exp_m1; pose proof (exp_gt_1 x X0); lra). replace (v * v * i / exp_m1 x) with (v ^ 2 * i / exp_m1 x) by (field; lra).
    assert (Q : 0 <= v ^ 2 * i / exp_m1 x) by (apply Rdiv_le_0_compat; [apply Rmult_le_pos; lra|exact EP]). unfold Rleb. destruct (Rle_dec 0 (v ^ 2 * i / exp_m1 x)) as [_|]; [|contradiction]. cbn [negb].
    exists (sqrt (v ^ 2 * i / exp_m1 x)). split; [reflexivity|]. split; [apply sqrt_pos|]. split; [|intros H; contradiction]. intros _. rewrite pow2_sqrt by exact Q.
    unfold exp_m1 in *. match goal with |- Rabs (?u - J) <= _ => replace u with i by (field; repeat split; first [lra|intros Z; rewrite Z in V2; cbn in V2; lra]) end. exact CL.
Qed.
Print Assumptions C74_term.

(** The effective correlation is the average of [rho gamma / omega], scaled by the other two
    effective parameters. *)
Lemma rho_follow (gam om rh : R -> R) : forall n ks gs os rs, (n < length ks)%nat -> length ks = S (length gs) -> length ks = S (length os) -> length ks = S (length rs) ->
  (forall i, (S i < length ks)%nat -> nth i ks 0 < nth (S i) ks 0) ->
  (forall k t, (k < n)%nat -> nth k ks 0 < t < nth (S k) ks 0 -> gam t = nth k gs 0 /\ om t = nth k os 0) ->
  (forall k t, (k < n)%nat -> nth k ks 0 < t < nth (S k) ks 0 -> rh t = nth k rs 0) ->
  (forall k, (k < n)%nat -> / 10 ^ 15 < Rabs (nth k os 0)) ->
  forall total, exists S, is_RInt (fun t => rh t * gam t / om t) (nth 0 ks 0) (nth n ks 0) S /\
  rho_integral total (combine (combine (differences n ks) (firstn n gs)) (firstn n os)) (firstn n rs) = Ok (total + S).
Proof.
  induction n as [|n IH]; intros ks gs os rs L LG LO LR INC V VR NZ total.
  - exists 0. split; [apply (@is_RInt_point R_NormedModule)|]. cbn. f_equal. ring.
  - destruct ks as [|a [|b ks]]; [cbn in L; lia|cbn in L; lia|]. destruct gs as [|g gs]; [cbn in LG; lia|]. destruct os as [|o os]; [cbn in LO; lia|]. destruct rs as [|q rs]; [cbn in LR; lia|].
    assert (DE : differences (S n) (a :: b :: ks) = (b - a) :: differences n (b :: ks)) by reflexivity. rewrite DE. cbn [firstn combine rho_integral].
    destruct (IH (b :: ks) gs os rs ltac:(cbn in *; lia) ltac:(cbn in *; lia) ltac:(cbn in *; lia) ltac:(cbn in *; lia) (fun i H => INC (S i) ltac:(cbn in *; lia)) (fun k t H T => V (S k) t ltac:(lia) T) (fun k t H T => VR (S k) t ltac:(lia) T) (fun k H => NZ (S k) ltac:(lia)) (total + q * g / o * (b - a))) as (S1 & IS & E).
    pose proof (NZ 0%nat ltac:(lia)) as O. cbn [nth] in O. unfold Rltb. destruct (Rlt_dec (/ 10 ^ 15) (Rabs o)) as [_|]; [|contradiction]. cbn [negb]. pose proof (INC 0%nat ltac:(cbn; lia)) as AB. cbn in AB.
    exists (q * g / o * (b - a) + S1). split.
    + apply (is_RInt_Chasles (V := R_NormedModule) _ a b (nth (S n) (a :: b :: ks) 0)); [|exact IS]. apply (is_RInt_ext (fun _ => q * g / o)).
      * intros x X. rewrite Rmin_left, Rmax_right in X by lra. destruct (V 0%nat x ltac:(lia) X) as [-> ->]. rewrite (VR 0%nat x ltac:(lia) X). reflexivity.
      * evar_last; [apply (@is_RInt_const R_NormedModule)|]. unfold scal; cbn; unfold mult; cbn. apply Rmult_comm.
    + rewrite E. f_equal. ring.
Qed.
Theorem C74_correlation : forall ks gs os rs n T gam om rh gamma omega rho v w Q, market ks gs os n T gam om gamma omega -> schedule_new ks rs = Ok rho ->
  (forall k t, (k < n)%nat -> nth k ks 0 < t < nth (S k) ks 0 -> rh t = nth k rs 0) -> (forall k, (k < n)%nat -> / 10 ^ 15 < Rabs (nth k os 0)) ->
  is_RInt (fun t => rh t * gam t / om t) (nth 0 ks 0) T Q -> effective_vol_vol gamma omega T = Ok v -> effective_term_structure gamma omega T = Ok w ->
  effective_correlation gamma omega rho T = Ok (if Rlt_dec (Rabs v) (/ 10 ^ 15) then 0 else w / (v * T) * Q).
Proof.
  intros ks gs os rs n T gam om rh gamma omega rho v w Q M RN VR NZ IS V W. pose proof (market_segments _ _ _ _ _ _ _ _ _ M) as (segs & ES & SEG & _ & _ & _ & LN).
  destruct M as (G & O & N & ET & _ & VG). apply (proj1 (C55_new _ _ _)) in G. apply (proj1 (C55_new _ _ _)) in O. apply (proj1 (C55_new _ _ _)) in RN. destruct G as (EG & _ & LG & _ & INC). destruct O as (EO & _ & LO & _). destruct RN as (ER & _ & LR & _).
  unfold effective_correlation. rewrite EG, ER. cbn [knots values]. unfold same_list. destruct (list_eq_dec Req_EM_T ks ks) as [_|]; [|contradiction]. cbn [negb]. rewrite <- EG, SEG. cbn [obind]. rewrite LN. unfold slice_to. destruct (Nat.leb_spec n (length rs)) as [_|]; [|lia]. cbn [obind].
  destruct (rho_follow gam om rh n ks gs os rs N LG LO LR INC VG VR NZ 0) as (S1 & IS1 & E). rewrite ES, E. cbn [obind]. rewrite V. cbn [obind]. rewrite W. cbn [obind].
  assert (S1 = Q). { rewrite ET in IS. rewrite <- (is_RInt_unique _ _ _ _ IS1), <- (is_RInt_unique _ _ _ _ IS). reflexivity. } subst S1. rewrite Rplus_0_l. destruct (Rlt_dec (Rabs v) (/ 10 ^ 15)); reflexivity.
Qed.
Print Assumptions C74_correlation.

(** ** Constant schedules (on any number of segments) *)
Lemma constant_market ks gs os n T g o gamma omega : schedule_new ks gs = Ok gamma -> schedule_new ks os = Ok omega -> (n < length ks)%nat -> T = nth n ks 0 ->
  ((S n < length ks)%nat -> T + / 10 ^ 12 < nth (S n) ks 0) -> (forall k, (k < n)%nat -> nth k gs 0 = g /\ nth k os 0 = o) -> market ks gs os n T (fun _ => g) (fun _ => o) gamma omega.
Proof.
  intros G O N ET GAP C. repeat (split; [assumption|]). intros k t K _. destruct (C k K) as [-> ->]. split; reflexivity.
Qed.
Lemma constant_moments T g o : 0 < T -> first_moment 0 T (fun _ => g) (fun _ => o) (o ^ 2 * E_exact (g ^ 2) T) /\ second_moment 0 T (fun _ => g) (fun _ => o) (o ^ 4 * K_exact (g ^ 2) T).
Proof.
  intros TP. assert (F : follows 0 [(T, g, o)] (fun _ => g) (fun _ => o)) by (cbn; split; [exact TP|]; split; [intros; split; reflexivity|exact I]).
  pose proof (first_moment_segs _ _ _ _ F) as A. pose proof (second_moment_segs _ _ _ _ F) as B.
  replace (0 + span [(T, g, o)]) with T in A, B by (cbn [span]; ring).
  replace (I_exact 0 [(T, g, o)]) with (o ^ 2 * E_exact (g ^ 2) T) in A by (cbn [I_exact]; rewrite exp_0; ring).
  replace (L_exact 0 0 [(T, g, o)]) with (o ^ 4 * K_exact (g ^ 2) T) in B by (cbn [L_exact]; replace (6 * 0) with 0 by ring; rewrite exp_0; ring). split; assumption.
Qed.
Lemma constant_root T g o : 0 < T -> 0 <= g -> let J := o ^ 2 * E_exact (g ^ 2) T in let L := o ^ 4 * K_exact (g ^ 2) T in
  0 < g /\ L = 1 / 5 * (J / (exp (g ^ 2 * T) - 1)) ^ 2 * (exp (6 * (g ^ 2 * T)) / 6 - exp (g ^ 2 * T) + 5 / 6) \/ g = 0 /\ L = J ^ 2 / 2.
Proof.
  intros TP G. cbv zeta. destruct G as [G|<-].
  - left. split; [exact G|]. assert (G2 : 0 < g ^ 2) by (apply pow_lt, G). unfold K_exact, E_exact. destruct (Req_EM_T (g ^ 2) 0) as [Z|_]; [lra|]. destruct (Req_EM_T (6 * g ^ 2) 0) as [Z|_]; [lra|].
    pose proof (exp_gt_1 (g ^ 2 * T) ltac:(apply Rmult_lt_0_compat; assumption)) as X. rewrite (Rmult_assoc 6). set (x := g ^ 2 * T) in *. set (c := g ^ 2) in *. field. lra.
  - right. split; [reflexivity|]. unfold K_exact, E_exact. destruct (Req_EM_T (0 ^ 2) 0) as [_|N]; [|exfalso; apply N; ring]. field.
Qed.

(** Constant schedules recover their vol-vol, and then their volatility (to the relative
    precision of the first-moment match) and their correlation. *)
Theorem C55_constant : forall ks gs os n T g o gamma omega v, schedule_new ks gs = Ok gamma -> schedule_new ks os = Ok omega -> (n < length ks)%nat -> T = nth n ks 0 -> nth 0 ks 0 = 0 -> 0 < T ->
  ((S n < length ks)%nat -> T + / 10 ^ 12 < nth (S n) ks 0) -> (forall k, (k < n)%nat -> nth k gs 0 = g /\ nth k os 0 = o) -> o <> 0 -> 0 <= g ->
  effective_vol_vol gamma omega T = Ok v -> 0 <= v /\ Rabs (v ^ 2 - g ^ 2) * T <= 2 / 10 ^ 11 + 2 / 10 ^ 12 * T.
Proof.
  intros ks gs os n T g o gamma omega v G O N ET Z TP GAP C NZ GP V. pose proof (constant_market ks gs os n T g o gamma omega G O N ET GAP C) as M. destruct (constant_moments T g o TP) as [FM SM]. rewrite <- Z in FM, SM.
  destruct (C74_root _ _ _ _ _ _ _ _ _ v _ _ g M FM SM) as [A B].
  - apply Rmult_lt_0_compat; [apply pow2_gt_0, NZ|]. pose proof (pow2_ge_0 g) as G2. unfold E_exact. destruct (Req_EM_T (g ^ 2) 0) as [_|NG]; [exact TP|]. apply Rdiv_lt_0_compat; [|lra]. pose proof (exp_gt_1 (g ^ 2 * T) ltac:(apply Rmult_lt_0_compat; lra)). lra.
  - exact TP.
  - exact (constant_root T g o TP GP).
  - exact V.
  - split; [exact A|]. rewrite <- (Rabs_right T) at 1 by lra. rewrite <- Rabs_mult. replace ((v ^ 2 - g ^ 2) * T) with (v ^ 2 * T - g ^ 2 * T) by ring. exact B.
Qed.
Print Assumptions C55_constant.

(** the mean of an exponential over the unit interval *)
Lemma mean_exp_bounds x y : 0 <= x <= y -> E_exact x 1 <= E_exact y 1 <= exp (y - x) * E_exact x 1.
Proof.
  intros [X Y]. split.
  - apply (is_RInt_le (fun u => exp (x * u)) (fun u => exp (y * u)) 0 1); [lra|apply E_exact_int|apply E_exact_int|]. intros u U. destruct (Req_dec x y) as [->|]; [lra|]. left. apply exp_increasing. nra.
  - apply (is_RInt_le (fun u => exp (y * u)) (fun u => exp (y - x) * exp (x * u)) 0 1); [lra|apply E_exact_int|apply (@is_RInt_scal R_NormedModule), E_exact_int|].
    intros u U. rewrite <- exp_plus. assert (Q : y * u <= y - x + x * u) by nra. destruct Q as [Q|Q]; [left; apply exp_increasing, Q|right; f_equal; exact Q].
Qed.
Lemma E_unit c T : 0 <= c -> 0 < T -> E_exact c T = T * E_exact (c * T) 1.
Proof.
  intros C TP. unfold E_exact. destruct (Req_EM_T c 0) as [->|NZ]; [rewrite Rmult_0_l; destruct (Req_EM_T 0 0); [ring|contradiction]|].
  destruct (Req_EM_T (c * T) 0) as [Z|_]; [apply Rmult_integral in Z; destruct Z; lra|]. rewrite Rmult_1_r. field. lra.
Qed.
Theorem C55_constant_volatility : forall ks gs os n T g o gamma omega v w, schedule_new ks gs = Ok gamma -> schedule_new ks os = Ok omega -> (n < length ks)%nat -> T = nth n ks 0 -> nth 0 ks 0 = 0 -> 0 < T ->
  ((S n < length ks)%nat -> T + / 10 ^ 12 < nth (S n) ks 0) -> (forall k, (k < n)%nat -> nth k gs 0 = g /\ nth k os 0 = o) -> o <> 0 -> 0 <= g ->
  effective_vol_vol gamma omega T = Ok v -> effective_term_structure gamma omega T = Ok w ->
  let d := 3 / 10 ^ 11 + 2 / 10 ^ 12 * T + (if Rlt_dec (v ^ 2 * T) (/ 10 ^ 6) then / 10 ^ 6 else 0) in
  w ^ 2 <= o ^ 2 * exp d /\ o ^ 2 <= w ^ 2 * exp d.
Proof.
  intros ks gs os n T g o gamma omega v w G O N ET Z TP GAP C NZ GP V W. destruct (C55_constant ks gs os n T g o gamma omega v G O N ET Z TP GAP C NZ GP V) as [V0 VB].
  pose proof (constant_market ks gs os n T g o gamma omega G O N ET GAP C) as M. destruct (constant_moments T g o TP) as [FM _]. rewrite <- Z in FM.
  destruct (C74_term _ _ _ _ _ _ _ _ _ v _ M FM TP V) as (w' & W' & W0 & HL & HS). assert (w' = w) by congruence. subst w'.
  assert (G2 : 0 <= g ^ 2) by apply pow2_ge_0. assert (V2 : 0 <= v ^ 2) by apply pow2_ge_0. assert (O2 : 0 < o ^ 2) by (apply pow2_gt_0, NZ).
  set (x := g ^ 2 * T) in *. set (y := v ^ 2 * T) in *. assert (XY : Rabs (y - x) <= 2 / 10 ^ 11 + 2 / 10 ^ 12 * T). { unfold x, y. replace (v ^ 2 * T - g ^ 2 * T) with ((v ^ 2 - g ^ 2) * T) by ring. rewrite Rabs_mult, (Rabs_right T) by lra. exact VB. }
  assert (X0 : 0 <= x) by (apply Rmult_le_pos; lra). assert (Y0 : 0 <= y) by (apply Rmult_le_pos; lra). apply Rabs_le_between in XY.
  rewrite (E_unit (g ^ 2) T G2 TP) in HL, HS. fold x in HL, HS. set (e := E_exact x 1) in *. assert (E1 : 1 <= e). { unfold e. destruct (mean_exp_bounds 0 x ltac:(lra)) as [A _]. replace (E_exact 0 1) with 1 in A; [exact A|]. unfold E_exact. destruct (Req_EM_T 0 0); [reflexivity|contradiction]. }
  assert (BIG : forall a b c, a <= b -> 0 <= c -> c * exp a <= c * exp b) by (intros a b c [AB| ->] CP; [apply Rmult_le_compat_l; [exact CP|left; apply exp_increasing, AB]|lra]).
  assert (P30 : 0 < / 10 ^ 30) by (apply Rinv_0_lt_compat; lra). assert (S30 : / 10 ^ 30 < / 10 ^ 12) by (apply Rinv_lt_contravar; lra).
  set (d0 := 2 / 10 ^ 11 + 2 / 10 ^ 12 * T) in *.
  (* w^2 T f is within 1e-30 of o^2 T e, for the f used by the branch, and e and f differ by at most exp(d') *)
  assert (MAIN : forall f d', Rabs (w ^ 2 * T * f - o ^ 2 * (T * e)) <= o ^ 2 * (T * e) / 10 ^ 30 -> 1 <= f -> 0 <= d' -> e <= f * exp d' -> f <= e * exp d' -> w ^ 2 <= o ^ 2 * exp (d' + / 10 ^ 11) /\ o ^ 2 <= w ^ 2 * exp (d' + / 10 ^ 11)).
  { intros f d' A F D EF FE. apply Rabs_le_between in A. pose proof (exp_ineq1_le (/ 10 ^ 11)) as EX. rewrite exp_plus. set (q := exp (/ 10 ^ 11)) in *. pose proof (exp_pos d') as DP. set (k := exp d') in *. assert (W2 : 0 <= w ^ 2) by apply pow2_ge_0.
    assert (P11 : 0 < / 10 ^ 11) by (apply Rinv_0_lt_compat; lra). assert (T1211 : / 10 ^ 12 * 10 = / 10 ^ 11) by lra.
    assert (OTE : 0 < o ^ 2 * (T * e)) by (apply Rmult_lt_0_compat; [exact O2|apply Rmult_lt_0_compat; lra]). split.
    - apply Rmult_le_reg_r with (T * f); [apply Rmult_lt_0_compat; lra|]. apply Rle_trans with (o ^ 2 * (T * e) * (1 + / 10 ^ 30)); [lra|].
      apply Rle_trans with (o ^ 2 * (T * (f * k)) * q); [|right; ring]. apply Rmult_le_compat; [lra|lra| |lra]. apply Rmult_le_compat_l; [lra|]. apply Rmult_le_compat_l; lra.
    - apply Rmult_le_reg_r with (T * e); [apply Rmult_lt_0_compat; lra|].
      assert (B : o ^ 2 * (T * e) <= w ^ 2 * T * f * q).
      { assert (L1 : o ^ 2 * (T * e) * (1 - / 10 ^ 30) <= w ^ 2 * T * f) by lra. assert (L2 : 1 <= (1 - / 10 ^ 30) * q) by nra. apply Rle_trans with (o ^ 2 * (T * e) * ((1 - / 10 ^ 30) * q)); [rewrite <- (Rmult_1_r (o ^ 2 * (T * e))) at 1; apply Rmult_le_compat_l; lra|]. rewrite <- Rmult_assoc. apply Rmult_le_compat_r; lra. }
      apply Rle_trans with (1 := B). apply Rle_trans with (w ^ 2 * T * (e * k) * q); [|right; ring]. apply Rmult_le_compat_r; [lra|]. apply Rmult_le_compat_l; [apply Rmult_le_pos; lra|exact FE]. }
  assert (D0 : 0 <= d0) by (unfold d0; assert (0 < / 10 ^ 11) by (apply Rinv_0_lt_compat; lra); assert (0 < / 10 ^ 12) by (apply Rinv_0_lt_compat; lra); assert (0 <= 2 / 10 ^ 12 * T) by (apply Rmult_le_pos; lra); lra).
  assert (XYB : E_exact y 1 <= e * exp d0 /\ e <= E_exact y 1 * exp d0).
  { destruct (Rle_dec x y) as [L|L].
    - destruct (mean_exp_bounds x y (conj X0 L)) as [A B]. fold e in A, B. split.
      + apply Rle_trans with (1 := B). rewrite Rmult_comm. apply BIG; lra.
      + apply Rle_trans with (E_exact y 1 * 1); [lra|]. apply Rmult_le_compat_l; [lra|apply exp_ge_1, D0].
    - destruct (mean_exp_bounds y x ltac:(lra)) as [A B]. fold e in A, B. destruct (mean_exp_bounds 0 y ltac:(lra)) as [C1 _]. assert (E01 : E_exact 0 1 = 1) by (unfold E_exact; destruct (Req_EM_T 0 0); [reflexivity|contradiction]). rewrite E01 in C1. split.
      + apply Rle_trans with (e * 1); [lra|]. apply Rmult_le_compat_l; [lra|apply exp_ge_1, D0].
      + apply Rle_trans with (1 := B). rewrite Rmult_comm. apply BIG; lra. }
  destruct XYB as [XB1 XB2]. destruct (mean_exp_bounds 0 y ltac:(lra)) as [Y1 Y2]. assert (E01 : E_exact 0 1 = 1) by (unfold E_exact; destruct (Req_EM_T 0 0); [reflexivity|contradiction]). rewrite E01 in Y1, Y2. rewrite Rminus_0_r, Rmult_1_r in Y2.
  cbv zeta. destruct (Rlt_dec y (/ 10 ^ 6)) as [SM|SM].
  - replace (3 / 10 ^ 11 + 2 / 10 ^ 12 * T + / 10 ^ 6) with (d0 + / 10 ^ 6 + / 10 ^ 11) by (unfold d0; lra). apply (MAIN 1 (d0 + / 10 ^ 6)).
    + rewrite Rmult_1_r. apply HS, SM.
    + lra.
    + pose proof (Rinv_0_lt_compat (10 ^ 6)); lra.
    + rewrite Rmult_1_l. apply Rle_trans with (1 := XB2). apply Rle_trans with (exp y * exp d0); [apply Rmult_le_compat_r; [left; apply exp_pos|exact Y2]|]. rewrite <- exp_plus. left. apply exp_increasing. lra.
    + apply Rle_trans with (1 * 1); [lra|]. apply Rmult_le_compat; [lra|lra|lra|]. apply exp_ge_1. pose proof (Rinv_0_lt_compat (10 ^ 6)); lra.
  - replace (3 / 10 ^ 11 + 2 / 10 ^ 12 * T + 0) with (d0 + / 10 ^ 11) by (unfold d0; lra). apply (MAIN (E_exact y 1) d0); [|exact Y1|exact D0|exact XB2|exact XB1].
    assert (YP : 0 < y) by (pose proof (Rinv_0_lt_compat (10 ^ 6)); lra). assert (VP : v ^ 2 <> 0) by (intros Q; unfold y in YP; rewrite Q in YP; lra).
    replace (w ^ 2 * T * E_exact y 1) with (w ^ 2 * (exp y - 1) / v ^ 2); [apply HL; lra|]. unfold E_exact. destruct (Req_EM_T y 0) as [Q|_]; [lra|]. rewrite Rmult_1_r. unfold y. assert (v <> 0) by (intros Q; apply VP; rewrite Q; ring). field. split; lra.
Qed.
Print Assumptions C55_constant_volatility.

Theorem C55_constant_correlation : forall ks gs os rs n T g o r gamma omega rho v w, schedule_new ks gs = Ok gamma -> schedule_new ks os = Ok omega -> schedule_new ks rs = Ok rho -> (n < length ks)%nat -> T = nth n ks 0 -> nth 0 ks 0 = 0 -> 0 < T ->
  ((S n < length ks)%nat -> T + / 10 ^ 12 < nth (S n) ks 0) -> (forall k, (k < n)%nat -> nth k gs 0 = g /\ nth k os 0 = o) -> (forall k, (k < n)%nat -> nth k rs 0 = r) -> / 10 ^ 15 < Rabs o -> / 10 ^ 15 <= v ->
  effective_vol_vol gamma omega T = Ok v -> effective_term_structure gamma omega T = Ok w -> effective_correlation gamma omega rho T = Ok (r * (w / o) * (g / v)).
Proof.
  intros ks gs os rs n T g o r gamma omega rho v w G O RN N ET Z TP GAP C CR NZ VP V W. pose proof (constant_market ks gs os n T g o gamma omega G O N ET GAP C) as M.
  pose proof (Rinv_0_lt_compat (10 ^ 15) ltac:(lra)) as P15. assert (ON : o <> 0) by (intros Q; rewrite Q, Rabs_R0 in NZ; lra).
  rewrite (C74_correlation ks gs os rs n T (fun _ => g) (fun _ => o) (fun _ => r) gamma omega rho v w (r * g / o * T) M RN).
  - rewrite (Rabs_right v) by lra. destruct (Rlt_dec v (/ 10 ^ 15)) as [L|_]; [lra|]. f_equal. field. repeat split; [lra|exact ON|lra].
  - intros k t K _. symmetry. apply CR, K.
  - intros k K. destruct (C k K) as [_ ->]. exact NZ.
  - rewrite Z. evar_last; [apply (@is_RInt_const R_NormedModule)|]. unfold scal; cbn; unfold mult; cbn. ring.
  - exact V.
  - exact W.
Qed.
Print Assumptions C55_constant_correlation.

(** ** What the comments say of constant schedules, and is not so *)
Definition knots_012 := [0; 1; 2].
Lemma new_012 a b : schedule_new knots_012 [a; b] = Ok {| knots := knots_012; values := [a; b] |}.
Proof.
  apply (proj2 (C55_new _ _ _)). split; [reflexivity|]. split; [cbn; lia|]. split; [reflexivity|]. split; [cbn [nth knots_012]; rewrite Rabs_R0; apply Rinv_0_lt_compat; lra|].
  intros i H. destruct i as [|[|i]]; cbn [nth knots_012]; [lra|lra|cbn in H; lia].
Qed.
Definition two_values (a b : R) (t : R) : R := if Rlt_dec t 1 then a else b.
Lemma market_012 g1 g2 o1 o2 : market knots_012 [g1; g2] [o1; o2] 2 2 (two_values g1 g2) (two_values o1 o2) {| knots := knots_012; values := [g1; g2] |} {| knots := knots_012; values := [o1; o2] |}.
Proof.
  split; [apply new_012|]. split; [apply new_012|]. split; [cbn; lia|]. split; [reflexivity|]. split; [intros H; cbn in H; lia|].
  intros k t K T. unfold two_values. destruct k as [|[|k]]; [| |lia]; cbn [nth knots_012] in *; destruct (Rlt_dec t 1); try lra; split; reflexivity.
Qed.
Lemma segments_012 g1 g2 o1 o2 : aligned_segments {| knots := knots_012; values := [g1; g2] |} {| knots := knots_012; values := [o1; o2] |} 2 = Ok [(1, g1, o1); (1, g2, o2)].
Proof.
  destruct (market_segments _ _ _ _ _ _ _ _ _ (market_012 g1 g2 o1 o2)) as (segs & E & A & _). rewrite A, E. cbn. replace (1 - 0) with 1 by ring. replace (2 - 1) with 1 by ring. reflexivity.
Qed.
Lemma gamma_012 g1 g2 : RInt (fun u => two_values g1 g2 u ^ 2) 0 2 = g1 ^ 2 + g2 ^ 2.
Proof.
  apply is_RInt_unique. apply (is_RInt_Chasles (V := R_NormedModule)) with 1.
  - apply (is_RInt_ext (fun _ => g1 ^ 2)); [intros x X; rewrite Rmin_left, Rmax_right in X by lra; unfold two_values; destruct (Rlt_dec x 1); [reflexivity|lra]|]. evar_last; [apply (@is_RInt_const R_NormedModule)|]. match goal with |- scal ?u ?v = ?w => change (u * v = w) end. ring.
  - apply (is_RInt_ext (fun _ => g2 ^ 2)); [intros x X; rewrite Rmin_left, Rmax_right in X by lra; unfold two_values; destruct (Rlt_dec x 1); [lra|reflexivity]|]. evar_last; [apply (@is_RInt_const R_NormedModule)|]. match goal with |- scal ?u ?v = ?w => change (u * v = w) end. ring.
Qed.
Lemma ln2_bounds : 1 / 2 <= ln 2 < 1.
Proof.
  split.
  - apply Rnot_lt_le. intros H. apply exp_increasing in H. rewrite exp_ln in H by lra. pose proof exp_half. lra.
  - apply exp_lt_inv. rewrite exp_ln by lra. pose proof (exp_ineq1 1 ltac:(lra)). lra.
Qed.
Lemma quartic_le y z : 0 <= y <= z -> quartic y <= quartic z.
Proof.
  intros H. unfold quartic. assert (y ^ 2 <= z ^ 2) by (apply pow_incr, H). assert (y ^ 3 <= z ^ 3) by (apply pow_incr, H). assert (y ^ 4 <= z ^ 4) by (apply pow_incr, H). lra.
Qed.
Lemma K_ln2 : K_exact (ln 2) 1 = 57 / (30 * ln 2 ^ 2) /\ E_exact (ln 2) 1 = 1 / ln 2 /\ E_exact (5 * ln 2) 1 = 31 / (5 * ln 2).
Proof.
  pose proof ln2_bounds as B. unfold K_exact, E_exact. destruct (Req_EM_T (ln 2) 0) as [Z|_]; [lra|]. destruct (Req_EM_T (6 * ln 2) 0) as [Z|_]; [lra|]. destruct (Req_EM_T (5 * ln 2) 0) as [Z|_]; [lra|]. rewrite !Rmult_1_r, exp_6.
  replace (exp (5 * ln 2)) with (exp (ln 2) ^ 5) by (rewrite <- Rpower_pow by apply exp_pos; unfold Rpower; rewrite ln_exp; f_equal; cbn; ring). rewrite exp_ln by lra. repeat split; field; lra.
Qed.
Lemma sqrt_ln2 : sqrt (ln 2) ^ 2 = ln 2.
Proof. apply pow2_sqrt. pose proof ln2_bounds. lra. Qed.

(** With a constant vol-vol the effective vol-vol is not that constant whatever the
    volatility schedule. *)
Theorem C55_gamma_refuted : exists ks g os gamma omega T v, schedule_new ks [g; g] = Ok gamma /\ schedule_new ks os = Ok omega /\ 0 < g /\ T = nth 2 ks 0 /\
  effective_vol_vol gamma omega T = Ok v /\ g ^ 2 + 1 / 20 < v ^ 2.
Proof.
  pose proof ln2_bounds as B. pose proof sqrt_ln2 as SQ. set (g := sqrt (ln 2)) in *. assert (GP : 0 < g) by (apply sqrt_lt_R0; lra).
  destruct (C74_total _ _ _ _ _ _ _ _ _ (market_012 g g 0 1) ltac:(lra)) as [v V]; [cbn [nth knots_012]; rewrite gamma_012, SQ; lra|].
  exists knots_012, g, [0; 1], {| knots := knots_012; values := [g; g] |}, {| knots := knots_012; values := [0; 1] |}, 2, v.
  split; [apply new_012|]. split; [apply new_012|]. split; [exact GP|]. split; [reflexivity|]. split; [exact V|]. apply Rnot_le_lt. intros VL.
  destruct (vol_vol_bracket _ _ _ _ _ (segments_012 g g 0 1) ltac:(intros s [<-|[<-|[]]]; cbn; lra) ltac:(lra) V) as (_ & lo & hi & A & A1 & A2 & _ & X & _).
  destruct K_ln2 as (K & E & E5).
  assert (EI : I_exact 0 [(1, g, 0); (1, g, 1)] = 2 / ln 2). { cbn [I_exact]. rewrite SQ, E, Rplus_0_l, Rmult_1_r, exp_0, exp_ln by lra. field. lra. }
  assert (EL : L_exact 0 0 [(1, g, 0); (1, g, 1)] = 912 / 30 * (4 / ln 2 ^ 2)).
  { cbn [L_exact]. rewrite SQ, E5, E, K, !Rplus_0_l, !Rmult_1_r, exp_6. replace (5 * 0) with 0 by ring. rewrite !exp_0, exp_6, exp_ln by lra. field. lra. }
  rewrite EI, EL in X. unfold rhs_exact in X.
  match type of X with _ <= ?r => replace r with (quartic (exp (hi * 2)) / 30 * (1 + 2 / 10 ^ 11) * (4 / ln 2 ^ 2)) in X by (field; lra) end.
  apply Rmult_le_reg_r in X; [|apply Rdiv_lt_0_compat; [lra|apply pow_lt; lra]].
  assert (EX : exp (hi * 2) <= 9 / 2).
  { replace (hi * 2) with (ln 2 + ln 2 + (hi * 2 - 2 * ln 2)) by ring. rewrite !exp_plus, exp_ln by lra. pose proof (exp_ineq1_le (- (hi * 2 - 2 * ln 2))) as Q. rewrite exp_Ropp in Q. rewrite SQ in VL. set (y := hi * 2 - 2 * ln 2) in *. assert (Y : y <= 11 / 100) by (unfold y; lra). pose proof (exp_pos y) as YP.
    assert (Q2 : 89 / 100 * exp y <= 1). { apply Rle_trans with (/ exp y * exp y); [apply Rmult_le_compat_r; lra|right; field; lra]. } lra. }
  pose proof (exp_pos (hi * 2)) as EP. pose proof (quartic_le (exp (hi * 2)) (9 / 2) ltac:(lra)) as QL. assert (QV : quartic (9 / 2) < 700) by (unfold quartic; lra). lra.
Qed.
Print Assumptions C55_gamma_refuted.

(** A constant correlation is not returned exactly, even when the volatility is constant. *)
Theorem C55_rho_refuted : exists ks gs o r gamma omega rho T r', schedule_new ks gs = Ok gamma /\ schedule_new ks [o; o] = Ok omega /\ schedule_new ks [r; r] = Ok rho /\ 0 < o /\ T = nth 2 ks 0 /\
  effective_correlation gamma omega rho T = Ok r' /\ r = 1 / 2 /\ r' < 9 / 20.
Proof.
  pose proof ln2_bounds as B. pose proof sqrt_ln2 as SQ. set (g := sqrt (ln 2)) in *. assert (GP : 0 < g) by (apply sqrt_lt_R0; lra).
  set (gamma := {| knots := knots_012; values := [g; 0] |}). set (omega := {| knots := knots_012; values := [1; 1] |}). set (rho := {| knots := knots_012; values := [1 / 2; 1 / 2] |}). pose proof (market_012 g 0 1 1) as M. fold gamma in M. fold omega in M.
  destruct (C74_total _ _ _ _ _ _ _ _ _ M ltac:(lra)) as [v V]; [cbn [nth knots_012]; rewrite gamma_012, SQ; lra|].
  pose proof (segments_012 g 0 1 1) as SEG. fold gamma in SEG. fold omega in SEG.
  destruct (vol_vol_bracket _ _ _ _ _ SEG ltac:(intros s [<-|[<-|[]]]; cbn; lra) ltac:(lra) V) as (V0 & lo & hi & A & A1 & A2 & _ & X & _).
  destruct K_ln2 as (K & E & E5).
  assert (EI : I_exact 0 [(1, g, 1); (1, 0, 1)] = (1 + 2 * ln 2) / ln 2).
  { cbn [I_exact]. rewrite SQ, E, Rplus_0_l, Rmult_1_r, exp_0, exp_ln by lra. unfold E_exact. destruct (Req_EM_T (0 ^ 2) 0) as [_|N]; [|exfalso; apply N; ring]. field. lra. }
  assert (EL : L_exact 0 0 [(1, g, 1); (1, 0, 1)] = 57 / (30 * ln 2 ^ 2) + 62 / (5 * ln 2) + 32).
  { cbn [L_exact]. rewrite SQ, E5, E, K, !Rplus_0_l, !Rmult_1_r, exp_6. replace (5 * 0) with 0 by ring. rewrite !exp_0, exp_6, exp_ln by lra. unfold K_exact, E_exact. destruct (Req_EM_T (0 ^ 2) 0) as [_|N]; [|exfalso; apply N; ring]. field. lra. }
  rewrite EI, EL in X. unfold rhs_exact in X. assert (C2 : 0 < ln 2 ^ 2) by (apply pow_lt; lra).
  assert (X' : 90 * ((1 + 2 * ln 2) / ln 2) ^ 2 <= quartic (exp (hi * 2)) * (1 + 2 / 10 ^ 11) * ((1 + 2 * ln 2) / ln 2) ^ 2).
  { apply Rle_trans with (30 * (57 / (30 * ln 2 ^ 2) + 62 / (5 * ln 2) + 32)); [|lra].
    replace (90 * ((1 + 2 * ln 2) / ln 2) ^ 2) with ((90 * (1 + 2 * ln 2) ^ 2) / ln 2 ^ 2) by (field; lra). replace (30 * (57 / (30 * ln 2 ^ 2) + 62 / (5 * ln 2) + 32)) with ((57 + 372 * ln 2 + 960 * ln 2 ^ 2) / ln 2 ^ 2) by (field; lra).
    apply Rmult_le_compat_r; [left; apply Rinv_0_lt_compat, C2|]. nra. }
  apply Rmult_le_reg_r in X'; [|apply pow_lt, Rdiv_lt_0_compat; lra].
  assert (EV : 2 < exp (v ^ 2 * 2)).
  { apply Rnot_le_lt. intros EV. assert (EH : exp (hi * 2) <= 21 / 10).
    { replace (hi * 2) with (v ^ 2 * 2 + (hi * 2 - v ^ 2 * 2)) by ring. rewrite exp_plus. pose proof (exp_ineq1_le (- (hi * 2 - v ^ 2 * 2))) as Q. rewrite exp_Ropp in Q. set (y := hi * 2 - v ^ 2 * 2) in *. assert (Y : y <= 1 / 100) by (unfold y; lra). pose proof (exp_pos y) as YP. pose proof (exp_pos (v ^ 2 * 2)) as VP.
      assert (Q2 : 99 / 100 * exp y <= 1). { apply Rle_trans with (/ exp y * exp y); [apply Rmult_le_compat_r; lra|right; field; lra]. } apply Rle_trans with (2 * (100 / 99)); [|lra]. apply Rmult_le_compat; lra. }
    pose proof (exp_pos (hi * 2)) as EP. pose proof (quartic_le (exp (hi * 2)) (21 / 10) ltac:(lra)) as QL. assert (QV : quartic (21 / 10) < 70) by (unfold quartic; lra). lra. }
  assert (V2 : 1 / 5 < v ^ 2). { apply Rnot_le_lt. intros H. assert (HH : v ^ 2 * 2 <= 1 / 2) by lra. pose proof exp_half. destruct HH as [HH|HH]; [apply exp_increasing in HH; lra|rewrite HH in EV; lra]. }
  assert (VP : 1 / 10 < v) by nra.
  destruct (market_segments _ _ _ _ _ _ _ _ _ M) as (segs & _ & SEG' & F & SP & _). assert (ES : segs = [(1, g, 1); (1, 0, 1)]) by congruence.
  pose proof (first_moment_segs _ _ _ _ F) as FM. rewrite SP, ES, EI in FM. destruct (C74_term _ _ _ _ _ _ _ _ _ v _ M FM ltac:(lra) V) as (w & W & W0 & HL & _). specialize (HL ltac:(lra)).
  pose proof (Rinv_0_lt_compat (10 ^ 15) ltac:(lra)) as P15.
  exists knots_012, [g; 0], 1, (1 / 2), gamma, omega, rho, 2, (w / (v * 2) * (1 / 2 * g)).
  split; [apply new_012|]. split; [apply new_012|]. split; [apply new_012|]. split; [lra|]. split; [reflexivity|]. split; [|split; [reflexivity|]].
  - rewrite (C74_correlation knots_012 [g; 0] [1; 1] [1 / 2; 1 / 2] 2 2 (two_values g 0) (two_values 1 1) (fun _ => 1 / 2) gamma omega rho v w (1 / 2 * g) M (new_012 _ _)).
    + rewrite (Rabs_right v) by lra. destruct (Rlt_dec v (/ 10 ^ 15)) as [L|_]; [lra|]. reflexivity.
    + intros k t H _. destruct k as [|[|k]]; [reflexivity|reflexivity|lia].
    + intros k H. destruct k as [|[|k]]; [| |lia]; cbn [nth]; rewrite Rabs_R1; lra.
    + cbn [nth knots_012]. replace (1 / 2 * g) with (1 / 2 * g + 0) by ring. apply (is_RInt_Chasles (V := R_NormedModule)) with 1.
      * apply (is_RInt_ext (fun _ => 1 / 2 * g)); [intros x Y; rewrite Rmin_left, Rmax_right in Y by lra; unfold two_values; destruct (Rlt_dec x 1); [apply eq_sym; match goal with |- ?a = ?b => change (@eq R a b) end; field|lra]|]. evar_last; [apply (@is_RInt_const R_NormedModule)|]. match goal with |- scal ?u ?v = ?w => change (u * v = w) end. ring.
      * apply (is_RInt_ext (fun _ => 0)); [intros x Y; rewrite Rmin_left, Rmax_right in Y by lra; unfold two_values; destruct (Rlt_dec x 1); [lra|apply eq_sym; match goal with |- ?a = ?b => change (@eq R a b) end; field]|]. evar_last; [apply (@is_RInt_const R_NormedModule)|]. match goal with |- scal ?u ?v = ?w => change (u * v = w) end. ring.
    + exact V.
    + exact W.
  - apply Rabs_le_between in HL. assert (P30 : / 10 ^ 30 <= / 100) by (apply Rinv_le_contravar; lra). set (q := (1 + 2 * ln 2) / ln 2) in *. assert (QP : 0 < q) by (unfold q; apply Rdiv_lt_0_compat; lra). assert (QC : q * ln 2 < 3) by (unfold q; replace ((1 + 2 * ln 2) / ln 2 * ln 2) with (1 + 2 * ln 2) by (field; lra); lra).
    assert (H1 : w ^ 2 * (exp (v ^ 2 * 2) - 1) / v ^ 2 <= q * (101 / 100)). { assert (q * / 10 ^ 30 <= q * / 100) by (apply Rmult_le_compat_l; lra). unfold Rdiv in HL |- *. lra. }
    assert (H2 : w ^ 2 / v ^ 2 <= q * (101 / 100)).
    { apply Rle_trans with (2 := H1). replace (w ^ 2 * (exp (v ^ 2 * 2) - 1) / v ^ 2) with (w ^ 2 / v ^ 2 * (exp (v ^ 2 * 2) - 1)) by (field; lra). rewrite <- (Rmult_1_r (w ^ 2 / v ^ 2)) at 1. apply Rmult_le_compat_l; [|lra]. apply Rdiv_le_0_compat; [apply pow2_ge_0|lra]. }
    replace (w / (v * 2) * (1 / 2 * g)) with (w / v * g / 4) by (field; lra). set (z := w / v) in *. assert (Z2 : z ^ 2 <= q * (101 / 100)) by (unfold z; replace ((w / v) ^ 2) with (w ^ 2 / v ^ 2) by (field; lra); exact H2).
    assert (ZG : (z * g) ^ 2 < 304 / 100). { replace ((z * g) ^ 2) with (z ^ 2 * g ^ 2) by ring. rewrite SQ. apply Rle_lt_trans with (q * (101 / 100) * ln 2); [apply Rmult_le_compat_r; lra|]. lra. }
    assert (ZB : z * g < 9 / 5) by nra. lra.
Qed.
Print Assumptions C55_rho_refuted.

(** ** Witnesses *)
Example C55_witness : exists s, schedule_new knots_012 [1 / 10; 3 / 10] = Ok s /\ schedule_at s (3 / 2) = Ok (3 / 10).
Proof.
  exists {| knots := knots_012; values := [1 / 10; 3 / 10] |}. split; [apply new_012|]. pose proof (Rinv_0_lt_compat (10 ^ 15) ltac:(lra)) as P15. assert (/ 10 ^ 15 < / 10) by (apply Rinv_lt_contravar; lra).
  apply (proj2 (proj2 (C55_at_partial _ _ _ (3 / 2) (new_012 _ _))) 1%nat); cbn; [lia|lra|lra|lra].
Qed.
(* the hypotheses of the constant-schedule theorems, on two segments *)
Example C55_constant_witness : exists gamma omega rho v w, schedule_new knots_012 [1; 1] = Ok gamma /\ schedule_new knots_012 [1 / 5; 1 / 5] = Ok omega /\ schedule_new knots_012 [- (1 / 2); - (1 / 2)] = Ok rho /\
  (forall k, (k < 2)%nat -> nth k [1; 1] 0 = 1 /\ nth k [1 / 5; 1 / 5] 0 = 1 / 5) /\ / 10 ^ 15 < Rabs (1 / 5) /\ / 10 ^ 15 <= v /\ effective_vol_vol gamma omega 2 = Ok v /\ effective_term_structure gamma omega 2 = Ok w.
Proof.
  pose proof (market_012 1 1 (1 / 5) (1 / 5)) as M. destruct (C74_total _ _ _ _ _ _ _ _ _ M ltac:(lra)) as [v V]; [cbn [nth knots_012]; rewrite gamma_012; lra|].
  destruct (market_segments _ _ _ _ _ _ _ _ _ M) as (segs & _ & _ & F & SP & _). pose proof (first_moment_segs _ _ _ _ F) as FM. rewrite SP in FM. destruct (C74_term _ _ _ _ _ _ _ _ _ v _ M FM ltac:(lra) V) as (w & W & _).
  exists {| knots := knots_012; values := [1; 1] |}, {| knots := knots_012; values := [1 / 5; 1 / 5] |}, {| knots := knots_012; values := [- (1 / 2); - (1 / 2)] |}, v, w.
  assert (C : forall k, (k < 2)%nat -> nth k [1; 1] 0 = 1 /\ nth k [1 / 5; 1 / 5] 0 = 1 / 5) by (intros [|[|k]] K; [cbn; split; reflexivity|cbn; split; reflexivity|lia]).
  split; [apply new_012|]. split; [apply new_012|]. split; [apply new_012|]. split; [exact C|]. split; [rewrite Rabs_right by lra; apply Rlt_le_trans with (/ 10); [apply Rinv_lt_contravar; lra|lra]|]. split; [|split; [exact V|exact W]].
  destruct (C55_constant knots_012 [1; 1] [1 / 5; 1 / 5] 2 2 1 (1 / 5) _ _ v (new_012 _ _) (new_012 _ _) ltac:(cbn; lia) eq_refl eq_refl ltac:(lra) ltac:(intros H; cbn in H; lia) C ltac:(lra) ltac:(lra) V) as [V0 VB].
  assert (P11 : / 10 ^ 11 <= / 100) by (apply Rinv_le_contravar; lra). assert (P12 : / 10 ^ 12 <= / 100) by (apply Rinv_le_contravar; lra). assert (P15 : / 10 ^ 15 <= / 100) by (apply Rinv_le_contravar; lra).
  assert (AB : Rabs (v ^ 2 - 1 ^ 2) <= 1 / 2) by lra. apply Rabs_le_between in AB. nra.
Qed.
Example C74_witness : exists v I L g, market knots_012 [1; 1 / 2] [1 / 5; 1 / 10] 2 2 (two_values 1 (1 / 2)) (two_values (1 / 5) (1 / 10)) {| knots := knots_012; values := [1; 1 / 2] |} {| knots := knots_012; values := [1 / 5; 1 / 10] |} /\
  first_moment 0 2 (two_values 1 (1 / 2)) (two_values (1 / 5) (1 / 10)) I /\ second_moment 0 2 (two_values 1 (1 / 2)) (two_values (1 / 5) (1 / 10)) L /\ 0 < I /\
  (0 < g /\ L = 1 / 5 * (I / (exp (g ^ 2 * 2) - 1)) ^ 2 * (exp (6 * (g ^ 2 * 2)) / 6 - exp (g ^ 2 * 2) + 5 / 6) \/ g = 0 /\ L = I ^ 2 / 2) /\
  effective_vol_vol {| knots := knots_012; values := [1; 1 / 2] |} {| knots := knots_012; values := [1 / 5; 1 / 10] |} 2 = Ok v /\ Rabs (v ^ 2 * 2 - g ^ 2 * 2) <= 2 / 10 ^ 11 + 2 / 10 ^ 12 * 2.
Proof.
  pose proof (market_012 1 (1 / 2) (1 / 5) (1 / 10)) as M. destruct (C74_total _ _ _ _ _ _ _ _ _ M ltac:(lra)) as [v V]; [cbn [nth knots_012]; rewrite gamma_012; lra|].
  destruct (market_segments _ _ _ _ _ _ _ _ _ M) as (segs & ES & _ & F & SP & _). pose proof (first_moment_segs _ _ _ _ F) as FM. pose proof (second_moment_segs _ _ _ _ F) as SM. rewrite SP in FM, SM.
  assert (IP : 0 < I_exact 0 segs).
  { rewrite ES. cbn [I_exact differences knots_012 firstn combine]. pose proof (E_mono (1 ^ 2) 1) as _. assert (EP : forall c d, 0 < d -> 0 <= c -> 0 < E_exact c d). { intros c d D C. unfold E_exact. destruct (Req_EM_T c 0); [exact D|]. apply Rdiv_lt_0_compat; [|lra]. pose proof (exp_gt_1 (c * d) ltac:(apply Rmult_lt_0_compat; lra)). lra. }
    pose proof (EP (1 ^ 2) (1 - 0) ltac:(lra) ltac:(lra)). pose proof (EP ((1 / 2) ^ 2) (2 - 1) ltac:(lra) ltac:(lra)). pose proof (exp_pos 0). pose proof (exp_pos (0 + 1 ^ 2 * (1 - 0))).
    assert (0 < (1 / 5) ^ 2 * exp 0 * E_exact (1 ^ 2) (1 - 0)) by (apply Rmult_lt_0_compat; [apply Rmult_lt_0_compat; lra|assumption]). assert (0 < (1 / 10) ^ 2 * exp (0 + 1 ^ 2 * (1 - 0)) * E_exact ((1 / 2) ^ 2) (2 - 1)) by (apply Rmult_lt_0_compat; [apply Rmult_lt_0_compat; lra|assumption]). lra. }
  destruct (C74_solution _ _ _ _ _ _ _ _ _ _ _ M FM SM IP ltac:(lra)) as (g & G0 & _ & EQ).
  exists v, (I_exact 0 segs), (L_exact 0 0 segs), g. split; [exact M|]. split; [exact FM|]. split; [exact SM|]. split; [exact IP|]. split; [exact EQ|]. split; [exact V|].
  exact (proj2 (C74_root _ _ _ _ _ _ _ _ _ v _ _ g M FM SM IP ltac:(lra) EQ V)).
Qed.

(** An expiry off the knots by 1e-12 or more, or schedules on different knots, give a panic, not
    the parameters of some other expiry. *)
Theorem C74_refuses : forall gamma omega rho T,
  (List.Forall (fun t => / 10 ^ 12 <= Rabs (t - T)) (knots gamma) \/ knots gamma <> knots omega ->
     effective_vol_vol gamma omega T = Panic PAssert /\ effective_term_structure gamma omega T = Panic PAssert /\ effective_correlation gamma omega rho T = Panic PAssert) /\
  (knots gamma <> knots rho -> effective_correlation gamma omega rho T = Panic PAssert).
Proof.
  intros gamma omega rho T. split.
  - intros H. assert (A : aligned_segments gamma omega T = Panic PAssert).
    { unfold aligned_segments, same_list. destruct (list_eq_dec Req_EM_T (knots gamma) (knots omega)) as [E|_]; [|reflexivity]. destruct H as [H|H]; [|congruence]. cbn [negb].
      assert (N : existsb (fun t => Rltb (Rabs (t - T)) (/ 10 ^ 12)) (knots gamma) = false). { clear E. induction H as [|t l B F IH]; [reflexivity|]. cbn [existsb]. rewrite IH. unfold Rltb. destruct (Rlt_dec (Rabs (t - T)) (/ 10 ^ 12)); [lra|reflexivity]. } rewrite N. reflexivity. }
    unfold effective_term_structure, effective_correlation, effective_vol_vol. rewrite A. cbn [obind]. repeat split. destruct (negb (same_list (knots gamma) (knots rho))); reflexivity.
  - intros H. unfold effective_correlation, same_list. destruct (list_eq_dec Req_EM_T (knots gamma) (knots rho)) as [E|_]; [congruence|reflexivity].
Qed.
Print Assumptions C74_refuses.
Example C74_witness_refuses : List.Forall (fun t => / 10 ^ 12 <= Rabs (t - 1 / 2)) [0; 1; 2].
Proof. repeat constructor; (unfold Rabs; destruct (Rcase_abs _)); cbn [pow]; lra. Qed.
