(** C96: the clocks of the path simulators in binary64. *)
From Coq Require Import Bool List Arith ZArith Reals Lra Lia Psatz.
Import ListNotations.
From Flocq Require Import Core BinarySingleNaN.
From Verif Require Import Outcome F64 Clock64 Clock64Facts.
Open Scope R_scope.

(** ** The clock against the exact grid *)

(** Up to 2^24 steps, whatever the length of the simulation between 2^-900 and 2^40 years: after
    [k] steps the clock is within an eighth of a step of [k] times the exact step, and every
    midpoint lies in the middle half of its step, so inside the simulated period. *)
Theorem C96_clock : forall T n k, sensible T -> (0 < n)%nat -> (Z.of_nat n <= 2 ^ 24)%Z -> (k <= n)%nat ->
  let h := f64R T / INR n in let t := clock64 (step64 T n) k in
  finite t /\ Rabs (f64R t - INR k * h) <= h / 8 /\
  ((k < n)%nat -> let m := mid64 (step64 T n) t in finite m /\ (INR k + 1 / 4) * h <= f64R m <= (INR k + 3 / 4) * h /\ 0 < f64R m < f64R T).
Proof.
  intros T n k S N NB K. cbv zeta. destruct (clock_near T n k S N NB K) as [F C]. split; [exact F|]. split; [exact C|]. intros KN. destruct (mid_near T n k S N NB KN) as [FM M]. split; [exact FM|]. split; [exact M|].
  destruct S as (_ & T0 & _). pose proof (bpow_gt_0 radix2 (-900)) as TP. pose proof (lt_INR 0 n N) as NP. cbn [INR] in NP. assert (H0 : 0 < f64R T / INR n) by (apply Rdiv_lt_0_compat; lra). assert (NH : INR n * (f64R T / INR n) = f64R T) by (field; lra). set (h := f64R T / INR n) in *.
  assert (K1 : INR k + 1 <= INR n) by (rewrite <- S_INR; apply le_INR, KN). pose proof (pos_INR k). nra.
Qed.
Print Assumptions C96_clock.

(** A step that is a whole number of a power of two, the number of steps times that whole number
    at most 2^53: the clock is exact. *)
Theorem C96_exact : forall d n m e, finite d -> f64R d = IZR m * bpow radix2 e -> (0 < m)%Z -> (-1074 <= e)%Z -> (Z.of_nat n * m <= 2 ^ 53)%Z -> INR n * f64R d <= IZR (2 ^ 53) ->
  forall k, (k <= n)%nat -> finite (clock64 d k) /\ f64R (clock64 d k) = INR k * f64R d.
Proof. exact clock_exact. Qed.
Print Assumptions C96_exact.

(** ** The schedules met at the midpoints *)
Definition ordered (l : list f64) : Prop := forall i j x y, (i < j)%nat -> nth_error l i = Some x -> nth_error l j = Some y -> f64R x < f64R y.
Lemma increasing_ordered l : (forall x, In x l -> finite x) -> increasing64 l = true -> ordered l.
Proof.
  induction l as [|a [|b l] IH]; intros F I i j x y IJ X Y.
  - destruct i; discriminate.
  - destruct j as [|j]; [lia|]. cbn in Y. destruct j; discriminate.
  - cbn [increasing64] in I. apply andb_true_iff in I as [AB I]. apply Bltb_R in AB; [|apply F; left; reflexivity|apply F; right; left; reflexivity]. specialize (IH (fun z Z => F z (or_intror Z)) I).
    destruct j as [|j]; [lia|]. destruct i as [|i]; [|apply (IH i j x y ltac:(lia) X Y)]. cbn in X. assert (x = a) by congruence. subst x. destruct j as [|j]; [cbn in Y; assert (y = b) by congruence; subst y; exact AB|]. apply Rlt_trans with (1 := AB). apply (IH 0%nat (S j) b y ltac:(lia) eq_refl Y).
Qed.
Lemma scan_total : forall ks vs t l, length vs = length ks -> exists v, scan64 ks vs t l = Ok v.
Proof. induction ks as [|k ks IH]; intros [|v vs] t l L; cbn [scan64]; try discriminate; [exists l; reflexivity|]. destruct (Bleb t (fadd k tol15)); [exists v; reflexivity|]. apply IH. cbn in L. lia. Qed.
Lemma scan_at : forall ks vs t l i v, nth_error vs i = Some v -> length vs = length ks ->
  (forall j k, (j < i)%nat -> nth_error ks j = Some k -> Bleb t (fadd k tol15) = false) -> (forall k, nth_error ks i = Some k -> Bleb t (fadd k tol15) = true) -> scan64 ks vs t l = Ok v.
Proof.
  induction ks as [|k ks IH]; intros [|w vs] t l i v V L A B; cbn [scan64]; try discriminate; [destruct i; discriminate|]. destruct i as [|i].
  - rewrite (B k eq_refl). cbn in V. congruence.
  - rewrite (A 0%nat k ltac:(lia) eq_refl). apply (IH vs t l i v V); [cbn in L; lia| |exact B]. intros j k' J K. apply (A (S j) k' ltac:(lia) K).
Qed.
Lemma nth_error_last {A} (l : list A) d : l <> [] -> nth_error l (length l - 1) = Some (last l d).
Proof. induction l as [|a [|b l] IH]; [contradiction|reflexivity|]. intros _. specialize (IH ltac:(discriminate)). change (last (a :: b :: l) d) with (last (b :: l) d). cbn [length] in *. replace (S (S (length l)) - 1)%nat with (S (S (length l) - 1)) by lia. exact IH. Qed.

(** A schedule the constructor accepts, its knots between 0 and 2^50. *)
Definition built (ks vs : list f64) (s : schedule64) : Prop := schedule64_new ks vs = Ok s /\ forall k, In k ks -> moderate k.
Lemma built_open ks vs s : built ks vs s -> s = {| knots64 := ks; values64 := vs |} /\ (2 <= length ks)%nat /\ (length vs + 1 = length ks)%nat /\ ordered ks /\ Rabs (f64R (nth 0 ks zero64)) < f64R tol15.
Proof.
  intros [N F]. unfold schedule64_new in N. destruct (Nat.leb_spec 2 (length ks)) as [L|]; cbn [negb] in N; [|discriminate]. destruct (Nat.eqb_spec (length vs + 1) (length ks)) as [E|]; cbn [negb] in N; [|discriminate].
  destruct (Bltb (Babs (nth 0 ks zero64)) tol15) eqn:B; cbn [negb] in N; [|discriminate]. destruct (increasing64 ks) eqn:I; cbn [negb] in N; [|discriminate]. split; [congruence|]. split; [exact L|]. split; [exact E|]. split; [apply increasing_ordered; [intros k K; apply F, K|exact I]|].
  assert (F0 : finite (nth 0 ks zero64)) by (apply F, nth_In; lia). apply Bltb_R in B; [|unfold finite; rewrite is_finite_Babs; exact F0|apply tol15_ok]. unfold f64R in B at 1. rewrite B2R_Babs in B. exact B.
Qed.

(** Simulating up to the horizon or less, every lookup succeeds; and a step inside a segment (its
    ends in exact arithmetic) meets the value of that segment, as long as the steps are longer
    than 1e-10. *)
Theorem C96_lookup : forall ks vs s T n, built ks vs s -> sensible T -> f64R T <= f64R (last ks zero64) -> (0 < n)%nat -> (Z.of_nat n <= 2 ^ 24)%Z ->
  exists l, lookups64 n s (step64 T n) zero64 = Ok l /\ length l = n /\
  forall k i v x y, let h := f64R T / INR n in (k < n)%nat -> nth_error vs i = Some v -> nth_error ks i = Some x -> nth_error ks (S i) = Some y ->
  f64R x <= INR k * h -> (INR k + 1) * h <= f64R y -> / 10000000000 <= h -> nth_error l k = Some v.
Proof.
  intros ks vs s T n B ST TL N NB. destruct (built_open _ _ _ B) as (-> & L2 & LV & O & Z0). destruct B as [_ F]. set (s := {| knots64 := ks; values64 := vs |}). set (d := step64 T n).
  assert (FL : moderate (last ks zero64)). { apply F. pose proof (nth_error_last ks zero64 ltac:(intros ->; cbn in L2; lia)) as E. apply nth_error_In in E. exact E. }
  assert (GUARD : forall k, (k < n)%nat -> (Bleb zero64 (mid64 d (clock64 d k)) && Bleb (mid64 d (clock64 d k)) (fadd (last ks zero64) tol15))%bool = true).
  { intros k K. destruct (C96_clock T n k ST N NB ltac:(lia)) as (_ & _ & M). destruct (M K) as (FM & _ & MP). fold d in FM, MP. apply andb_true_iff. split; apply Bleb_R; [apply zero64_ok|exact FM|rewrite (proj1 zero64_ok); lra|exact FM|apply tol_value, FL|]. pose proof (tol_ge _ FL). lra. }
  assert (ALL : forall k, (k < n)%nat -> exists v, schedule64_at s (mid64 d (clock64 d k)) = Ok v).
  { intros k K. unfold schedule64_at, s. cbn [knots64 values64]. rewrite (GUARD k K). cbn [negb]. destruct (Bleb _ (nth 0 ks zero64)); [eexists; reflexivity|]. apply scan_total. destruct ks; [cbn in L2; lia|cbn [tl length] in *; lia]. }
  assert (EX : exists l, lookups64 n s d zero64 = Ok l).
  { assert (G : forall m k, (k + m <= n)%nat -> exists l, lookups64 m s d (clock64 d k) = Ok l).
    { induction m as [|m IH]; intros k K; cbn [lookups64]; [eexists; reflexivity|]. destruct (ALL k ltac:(lia)) as [v ->]. cbn [obind]. destruct (IH (S k) ltac:(lia)) as [l E]. change (clock64 d (S k)) with (fadd (clock64 d k) d) in E. rewrite E. cbn [obind]. eexists. reflexivity. }
    exact (G n 0%nat ltac:(lia)). }
  destruct EX as [l EL]. exists l. split; [exact EL|]. destruct (proj1 (lookups_map s d n 0 l) EL) as [LL LA]. split; [exact LL|]. intros k i v x y. cbv zeta. intros K V X Y XL YL HL. set (h := f64R T / INR n) in *.
  destruct (nth_error l k) as [w|] eqn:W; [|apply nth_error_None in W; lia]. specialize (LA k w W). cbn [Nat.add] in LA.
  destruct (C96_clock T n k ST N NB ltac:(lia)) as (_ & _ & M). destruct (M K) as (FM & ML & _). fold d h in FM, ML. set (m := mid64 d (clock64 d k)) in *.
  assert (E : schedule64_at s m = Ok v).
  { unfold schedule64_at, s. cbn [knots64 values64]. unfold m at 1 2. rewrite (GUARD k K). cbn [negb]. destruct ks as [|k0 ks]; [cbn in L2; lia|]. cbn [nth tl].
    assert (X0 : f64R k0 <= f64R x). { destruct i as [|i]; [cbn in X; assert (k0 = x) by congruence; subst x; lra|]. left. apply (O 0%nat (S i) k0 x ltac:(lia) eq_refl X). }
    destruct (Bleb m k0) eqn:B0; [apply Bleb_R in B0; [nra|exact FM|apply F; left; reflexivity]|].
    apply (scan_at ks vs m _ i v V); [cbn in LV; lia| |].
    - intros j z J Z1. assert (MZ : moderate z) by (apply F; right; apply nth_error_In in Z1; exact Z1). destruct (Bleb m (fadd z tol15)) eqn:BZ; [|reflexivity]. exfalso. apply Bleb_R in BZ; [|exact FM|apply tol_value, MZ].
      assert (ZX : f64R z <= f64R x). { destruct (Nat.eq_dec (S j) i) as [<-|NE]; [cbn in X; assert (z = x) by congruence; subst z; lra|]. left. apply (O (S j) i z x ltac:(lia) Z1 X). }
      pose proof (tol_far z (f64R m) MZ ltac:(lra)). lra.
    - intros z Z1. cbn in Y. assert (z = y) by congruence. subst z. assert (MY : moderate y) by (apply F; right; apply nth_error_In in Y; exact Y). apply Bleb_R; [exact FM|apply tol_value, MY|]. pose proof (tol_ge y MY). lra. }
  congruence.
Qed.
Print Assumptions C96_lookup.

(** ** The tolerance of 1e-15 *)

(** Below sixteen years the next number after the last knot is still accepted; from sixteen
    years on the tolerance rounds away and every number above the last knot panics. *)
Theorem C96_tolerance : forall ks vs s t, built ks vs s -> finite t -> let x := f64R (last ks zero64) in
  (16 <= x -> x < f64R t -> schedule64_at s t = Panic PAssert) /\
  (x < 16 -> 0 <= f64R t <= succ radix2 (FLT_exp (-1074) 53) x -> exists v, schedule64_at s t = Ok v).
Proof.
  intros ks vs s t B FT. cbv zeta. destruct (built_open _ _ _ B) as (-> & L2 & LV & O & Z0). destruct B as [_ F].
  assert (FL : moderate (last ks zero64)). { apply F. pose proof (nth_error_last ks zero64 ltac:(intros ->; cbn in L2; lia)) as E. apply nth_error_In in E. exact E. }
  unfold schedule64_at. cbn [knots64 values64]. split.
  - intros X T. destruct (Bleb t (fadd (last ks zero64) tol15)) eqn:E; [|rewrite andb_false_r; reflexivity]. exfalso. apply Bleb_R in E; [|exact FT|apply tol_value, FL]. rewrite tol_lost in E by assumption. lra.
  - intros X [T0 T1]. replace (Bleb zero64 t && Bleb t (fadd (last ks zero64) tol15))%bool with true. 2:{ symmetry. apply andb_true_iff. split; apply Bleb_R; [apply zero64_ok|exact FT|rewrite (proj1 zero64_ok); lra|exact FT|apply tol_value, FL|]. pose proof (tol_next _ FL X). lra. }
    cbn [negb]. destruct (Bleb t (nth 0 ks zero64)); [eexists; reflexivity|]. apply scan_total. destruct ks; [cbn in L2; lia|cbn [tl length] in *; lia].
Qed.
Print Assumptions C96_tolerance.

(** At an interior knot: the next number after it still has the value of the segment ending there
    below sixteen years, and the value of the segment starting there from sixteen years on. *)
Lemma ordered_le l i j x y : ordered l -> (i <= j)%nat -> nth_error l i = Some x -> nth_error l j = Some y -> f64R x <= f64R y.
Proof. intros O IJ X Y. destruct (Nat.eq_dec i j) as [->|NE]; [assert (x = y) by congruence; subst y; lra|]. left. apply (O i j x y ltac:(lia) X Y). Qed.
Lemma knot_at ks vs s t i w z v : built ks vs s -> finite t -> nth_error ks i = Some w -> nth_error ks (S i) = Some z -> nth_error vs i = Some v ->
  0 <= f64R t -> f64R (fadd w tol15) < f64R t -> f64R t <= f64R (fadd z tol15) -> schedule64_at s t = Ok v.
Proof.
  intros B FT W Z1 V T0 T1 T2. destruct (built_open _ _ _ B) as (-> & L2 & LV & O & Z0). destruct B as [_ F]. unfold schedule64_at. cbn [knots64 values64].
  pose proof (nth_error_last ks zero64 ltac:(intros ->; cbn in L2; lia)) as EL. assert (FL : moderate (last ks zero64)) by (apply F; apply nth_error_In in EL; exact EL). assert (MW : moderate w) by (apply F; apply nth_error_In in W; exact W). assert (MZ : moderate z) by (apply F; apply nth_error_In in Z1; exact Z1).
  assert (mono : forall a b, moderate a -> moderate b -> f64R a <= f64R b -> f64R (fadd a tol15) <= f64R (fadd b tol15)) by (intros a b A B H; rewrite (proj2 (tol_value a A)), (proj2 (tol_value b B)); apply rnd_mono; lra).
  assert (ZL : f64R z <= f64R (last ks zero64)) by (apply (ordered_le ks (S i) (length ks - 1)); [exact O|assert (S i < length ks)%nat by (apply nth_error_Some; congruence); lia|exact Z1|exact EL]).
  replace (Bleb zero64 t && Bleb t (fadd (last ks zero64) tol15))%bool with true. 2:{ symmetry. apply andb_true_iff. split; apply Bleb_R; [apply zero64_ok|exact FT|rewrite (proj1 zero64_ok); lra|exact FT|apply tol_value, FL|]. pose proof (mono z (last ks zero64) MZ FL ZL). lra. }
  cbn [negb]. destruct ks as [|k0 ks]; [cbn in L2; lia|]. cbn [nth tl]. pose proof (tol_ge w MW) as TW.
  destruct (Bleb t k0) eqn:B0; [apply Bleb_R in B0; [|exact FT|apply F; left; reflexivity]; pose proof (ordered_le (k0 :: ks) 0 i k0 w O ltac:(lia) eq_refl W); lra|].
  apply (scan_at ks vs t _ i v V); [cbn in LV; lia| |].
  - intros j z' J Z'. assert (MZ' : moderate z') by (apply F; right; apply nth_error_In in Z'; exact Z'). destruct (Bleb t (fadd z' tol15)) eqn:BZ; [|reflexivity]. exfalso. apply Bleb_R in BZ; [|exact FT|apply tol_value, MZ'].
    pose proof (ordered_le (k0 :: ks) (S j) i z' w O ltac:(lia) Z' W) as ZW. pose proof (mono z' w MZ' MW ZW). lra.
  - intros z' Z'. cbn in Z1. assert (z' = z) by congruence. subst z'. apply Bleb_R; [exact FT|apply tol_value, MZ|exact T2].
Qed.
Theorem C96_knot : forall ks vs s t i w x v, built ks vs s -> finite t -> nth_error ks i = Some w -> nth_error ks (S i) = Some x -> nth_error vs i = Some v -> f64R w + / 1000000000000 <= f64R x ->
  (f64R t = f64R x -> schedule64_at s t = Ok v) /\
  (f64R x < 16 -> f64R x < f64R t <= succ radix2 (FLT_exp (-1074) 53) (f64R x) -> schedule64_at s t = Ok v) /\
  (16 <= f64R x -> forall y v', nth_error ks (S (S i)) = Some y -> nth_error vs (S i) = Some v' -> f64R x < f64R t <= f64R y -> schedule64_at s t = Ok v').
Proof.
  intros ks vs s t i w x v B FT W X V WX. assert (MW : moderate w) by (apply (proj2 B); apply nth_error_In in W; exact W). assert (MX : moderate x) by (apply (proj2 B); apply nth_error_In in X; exact X). pose proof (proj1 (proj2 MX)) as X0. split; [|split].
  - intros E. apply (knot_at ks vs s t i w x v B FT W X V); [lra|apply tol_far; [exact MW|lra]|pose proof (tol_ge x MX); lra].
  - intros X16 [T1 T2]. apply (knot_at ks vs s t i w x v B FT W X V); [lra|apply tol_far; [exact MW|lra]|pose proof (tol_next x MX X16); lra].
  - intros X16 y v' Y V' [T1 T2]. assert (MY : moderate y) by (apply (proj2 B); apply nth_error_In in Y; exact Y). apply (knot_at ks vs s t (S i) x y v' B FT X Y V'); [lra|rewrite tol_lost by assumption; exact T1|pose proof (tol_ge y MY); lra].
Qed.
Print Assumptions C96_knot.

(** ** The period of a tenor and the start values recorded *)
Lemma eta_from_min t : forall ds j, (j <= eta64_from j ds t)%nat.
Proof. induction ds as [|x ds IH]; intros j; cbn [eta64_from]; [apply le_n|]. destruct (Bleb t x); [apply le_n|]. specialize (IH (S j)). lia. Qed.
Lemma eta_from_ge : forall ds j t k, (forall x, In x ds -> finite x) -> finite t -> ordered ds -> (j <= k)%nat -> (k < j + length ds)%nat ->
  (S k <= eta64_from j ds t)%nat <-> f64R (nth (k - j) ds zero64) < f64R t.
Proof.
  induction ds as [|d ds IH]; intros j t k F FT O J K; [cbn in K; lia|]. cbn [eta64_from]. assert (FD : finite d) by (apply F; left; reflexivity).
  destruct (Bleb t d) eqn:B.
  - apply Bleb_R in B; [|exact FT|exact FD]. split; [lia|]. intros H. exfalso. destruct (k - j)%nat as [|i] eqn:KJ; [cbn [nth] in H; lra|]. cbn [nth] in H. assert (LI : (i < length ds)%nat) by (cbn in K; lia). pose proof (O 0%nat (S i) d (nth i ds zero64) ltac:(lia) eq_refl (nth_error_nth' ds zero64 LI)). lra.
  - assert (DT : f64R d < f64R t). { destruct (Rlt_le_dec (f64R d) (f64R t)) as [|H]; [assumption|]. apply Bleb_R in H; [congruence|exact FT|exact FD]. }
    destruct (Nat.eq_dec j k) as [->|NE].
    + rewrite Nat.sub_diag. cbn [nth]. split; [intros _; exact DT|]. intros _. apply eta_from_min.
    + rewrite (IH (S j) t k); [|intros x X; apply F; right; exact X|exact FT| |lia|cbn in K; lia].
      * replace (k - j)%nat with (S (k - S j)) by lia. reflexivity.
      * intros a b x y AB X Y. apply (O (S a) (S b) x y ltac:(lia) X Y).
Qed.
Lemma eta_ge dates t k : (forall x, In x dates -> finite x) -> finite t -> ordered dates -> (2 <= k)%nat -> (k <= length dates)%nat ->
  (k <= eta64 dates t)%nat <-> f64R (nth (k - 1) dates zero64) < f64R t.
Proof.
  intros F FT O K1 K2. destruct dates as [|d0 ds]; [cbn in K2; lia|]. unfold eta64. cbn [tl]. replace k with (S (k - 1)) at 1 by lia. rewrite eta_from_ge; [|intros x X; apply F; right; exact X|exact FT| |lia|cbn in K2; lia].
  - replace (k - 1)%nat with (S (k - 1 - 1)) at 2 by lia. reflexivity.
  - intros a b x y AB X Y. apply (O (S a) (S b) x y ltac:(lia) X Y).
Qed.
Lemma records_iff dates dt i k : (forall x, In x dates -> finite x) -> ordered dates -> finite (clock64 dt (i - 1)) -> finite (clock64 dt i) -> (2 <= k)%nat -> (k < length dates)%nat ->
  records64 dates dt i k = true <-> f64R (clock64 dt (i - 1)) <= f64R (nth (k - 1) dates zero64) < f64R (clock64 dt i).
Proof.
  intros F O F1 F2 K1 K2. unfold records64. rewrite !andb_true_iff, !Nat.ltb_lt, Nat.leb_le. pose proof (eta_ge dates _ k F F1 O K1 ltac:(lia)) as E1. pose proof (eta_ge dates _ k F F2 O K1 ltac:(lia)) as E2. split.
  - intros [[_ A] B]. split; [|apply E2; lia]. destruct (Rle_lt_dec (f64R (clock64 dt (i - 1))) (f64R (nth (k - 1) dates zero64))) as [|H]; [assumption|]. apply E1 in H. lia.
  - intros [A B]. apply E2 in B. assert (~ (k <= eta64 dates (clock64 dt (i - 1)))%nat) by (intros H; apply E1 in H; lra). lia.
Qed.

(** The start values of the period beginning at the date reached by step [j] of the exact grid
    are recorded exactly once: at step [j] when the rounded clock is past the date there, and one
    step too late otherwise. *)
Theorem C96_records : forall dates T n j k, (forall x, In x dates -> finite x) -> ordered dates -> sensible T -> (0 < n)%nat -> (Z.of_nat n <= 2 ^ 24)%Z ->
  (2 <= k)%nat -> (k < length dates)%nat -> (0 < j < n)%nat -> f64R (nth (k - 1) dates zero64) = INR j * (f64R T / INR n) ->
  let dt := step64 T n in let late := if Rlt_dec (f64R (nth (k - 1) dates zero64)) (f64R (clock64 dt j)) then false else true in
  forall i, (0 < i <= n)%nat -> records64 dates dt i k = true <-> i = (if late then S j else j).
Proof.
  intros dates T n j k F O ST N NB K1 K2 J D. cbv zeta. intros i I. destruct (clock_near T n (i - 1) ST N NB ltac:(lia)) as [F1 C1]. destruct (clock_near T n i ST N NB ltac:(lia)) as [F2 C2]. destruct (clock_near T n j ST N NB ltac:(lia)) as [F3 C3].
  rewrite (records_iff dates (step64 T n) i k F O F1 F2 K1 K2). rewrite D. destruct ST as (_ & T0 & _). pose proof (bpow_gt_0 radix2 (-900)) as TP. pose proof (lt_INR 0 n N) as NP. cbn [INR] in NP. assert (H0 : 0 < f64R T / INR n) by (apply Rdiv_lt_0_compat; lra). set (h := f64R T / INR n) in *. set (t := fun a => f64R (clock64 (step64 T n) a)) in *. fold (t (i - 1)%nat) (t i) in *. fold (t j) in *.
  apply Rabs_le_inv in C1, C2, C3.
  assert (LT : forall a b, (a < b)%nat -> INR a * h + h <= INR b * h) by (intros a b AB; assert (INR a + 1 <= INR b) by (rewrite <- S_INR; apply le_INR; lia); nra).
  destruct (Nat.lt_total i j) as [H|[H|H]].
  - pose proof (LT i j H). split; [lra|]. intros E. destruct (Rlt_dec (INR j * h) (t j)); lia.
  - subst i. assert (E : (j - 1 < j)%nat) by lia. apply LT in E. destruct (Rlt_dec (INR j * h) (t j)) as [R|R]; [split; [reflexivity|lra]|split; [lra|lia]].
  - pose proof (LT j i H) as JI. destruct (Nat.eq_dec i (S j)) as [->|NE].
    + replace (S j - 1)%nat with j in * by lia. destruct (Rlt_dec (INR j * h) (t j)) as [R|R]; [split; [lra|lia]|split; [reflexivity|lra]].
    + assert (E : (j < i - 1)%nat) by lia. apply LT in E. split; [lra|]. intros E'. destruct (Rlt_dec (INR j * h) (t j)); lia.
Qed.
Print Assumptions C96_records.

Definition z64 (n : Z) : f64 := f64_of_Z n.
Lemma z64_sensible n : (0 < n <= 2 ^ 40)%Z -> sensible (z64 n).
Proof.
  intros N. destruct (f64_of_Z_ok n ltac:(lia)) as [E F]. split; [exact F|]. change (f64R (z64 n)) with (f64R (f64_of_Z n)). rewrite E. split; [|rewrite big40; apply IZR_le; lia]. apply Rle_trans with (bpow radix2 0); [apply bpow_le; lia|]. change (bpow radix2 0) with 1. apply IZR_le. lia.
Qed.
Lemma z64_moderate n : (0 <= n <= 2 ^ 50)%Z -> moderate (z64 n).
Proof. intros N. destruct (f64_of_Z_ok n ltac:(lia)) as [E F]. split; [exact F|]. change (f64R (z64 n)) with (f64R (f64_of_Z n)). rewrite E. split; apply IZR_le; lia. Qed.
Definition dates_012 : list f64 := [z64 0; z64 1; z64 2].
Lemma dates_012_ok : (forall x, In x dates_012 -> finite x) /\ ordered dates_012.
Proof. assert (F : forall x, In x dates_012 -> finite x) by (intros x [<-|[<-|[<-|[]]]]; reflexivity). split; [exact F|]. apply increasing_ordered; [exact F|]. vm_compute. reflexivity. Qed.

(** So which step records the start of a period depends on how the additions happen to round:
    with the same tenor and horizon, twenty steps record it one step after its date, a hundred
    steps at its date. *)
Theorem C96_records_refuted : exists dates T n j n' j' k, (forall x, In x dates -> finite x) /\ ordered dates /\ sensible T /\ (2 <= k < length dates)%nat /\
  f64R (nth (k - 1) dates zero64) = INR j * (f64R T / INR n) /\ f64R (nth (k - 1) dates zero64) = INR j' * (f64R T / INR n') /\
  records64 dates (step64 T n) j k = false /\ records64 dates (step64 T n) (S j) k = true /\ records64 dates (step64 T n') j' k = true /\ records64 dates (step64 T n') (S j') k = false.
Proof.
  exists dates_012, (z64 2), 20%nat, 10%nat, 100%nat, 50%nat, 2%nat. split; [apply dates_012_ok|]. split; [apply dates_012_ok|]. split; [apply z64_sensible; lia|]. split; [cbn; lia|].
  assert (E1 : f64R (nth (2 - 1) dates_012 zero64) = 1) by (change (nth (2 - 1) dates_012 zero64) with (f64_of_Z 1); apply (f64_of_Z_ok 1); lia). assert (E2 : f64R (z64 2) = 2) by (apply (f64_of_Z_ok 2); lia). rewrite E1, E2, !INR_IZR_INZ. cbn [Z.of_nat Pos.of_succ_nat Pos.succ].
  split; [field|]. split; [field|]. repeat match goal with |- _ /\ _ => split end; vm_compute; reflexivity.
Qed.
Print Assumptions C96_records_refuted.

(** ** The price of a bond at the end of the simulation *)

(** A maturity not before the simulated time is accepted, and the time itself gives one; from
    sixteen years on, a time past the maturity by as little as one unit in the last place
    panics. *)
Theorem C96_bond : forall t T, moderate t -> moderate T ->
  (f64R t <= f64R T -> exists b, bond_start64 t T = Ok b) /\ (t = T -> bond_start64 t T = Ok true) /\ (16 <= f64R T < f64R t -> bond_start64 t T = Panic PAssert).
Proof.
  intros t T M MT. destruct tol15_ok as [_ FTol]. pose proof tol15_bounds as [T0 T1]. pose proof i50 as [I0 I1].
  assert (SUB : finite (fsub t tol15) /\ f64R (fsub t tol15) <= f64R t).
  { destruct M as [F [X0 X1]]. destruct (fsub_ok t tol15 (2 ^ 50) F FTol) as [E FA]; [lia| |]. { assert (1 <= IZR (2 ^ 50)) by (apply IZR_le; discriminate). apply Rabs_le. lra. } split; [exact FA|]. rewrite E. rewrite <- (rnd_id (f64R t)) at 2 by apply format64. apply rnd_mono. lra. }
  unfold bond_start64. split; [|split].
  - intros L. replace (Bleb (fsub t tol15) T) with true by (symmetry; apply Bleb_R; [apply SUB|apply MT|lra]). cbn [negb]. eexists. reflexivity.
  - intros <-. replace (Bleb (fsub t tol15) t) with true by (symmetry; apply Bleb_R; [apply SUB|apply M|apply SUB]). cbn [negb]. f_equal. destruct M as [F [X0 X1]]. destruct (fsub_ok t t 0 F F) as [E FA]; [lia|rewrite Rminus_eq_0, Rabs_R0; lra|]. apply Bltb_R; [unfold finite; rewrite is_finite_Babs; exact FA|exact FTol|]. unfold f64R at 1. rewrite B2R_Babs. fold (f64R (fsub t t)). rewrite E, Rminus_eq_0, rnd_0, Rabs_R0. lra.
  - intros [L H]. destruct (tol_sub_lost t M ltac:(lra)) as [FS ES]. destruct (Bleb (fsub t tol15) T) eqn:B; [|reflexivity]. apply Bleb_R in B; [lra|exact FS|apply MT].
Qed.
Print Assumptions C96_bond.

(** The clock overshoots: after 100 steps to two years, or 50 steps to thirty, asking for the
    bond maturing at the horizon panics. *)
Theorem C96_bond_refuted : exists T n T' n', sensible T /\ sensible T' /\ (0 < n <= 1000)%nat /\ (0 < n' <= 1000)%nat /\ f64R T = 2 /\ f64R T' = 30 /\
  bond_start64 (clock64 (step64 T n) n) T = Panic PAssert /\ bond_start64 (clock64 (step64 T' n') n') T' = Panic PAssert.
Proof.
  exists (z64 2), 100%nat, (z64 30), 50%nat. split; [apply z64_sensible; lia|]. split; [apply z64_sensible; lia|]. split; [lia|]. split; [lia|]. split; [apply (f64_of_Z_ok 2); lia|]. split; [apply (f64_of_Z_ok 30); lia|]. split; vm_compute; reflexivity.
Qed.
Print Assumptions C96_bond_refuted.

(** With a step that is added without error the horizon is met, the bond maturing there is worth
    one, and the start of a period is recorded one step after its date. *)
Theorem C96_exact_grid : forall T n m e, sensible T -> (0 < n)%nat -> (Z.of_nat n <= 2 ^ 24)%Z -> f64R T = INR n * (IZR m * bpow radix2 e) -> (0 < m)%Z -> (-1074 <= e)%Z -> (Z.of_nat n * m <= 2 ^ 53)%Z ->
  f64R (clock64 (step64 T n) n) = f64R T /\ bond_start64 (clock64 (step64 T n) n) T = Ok true /\
  forall dates j k, (forall x, In x dates -> finite x) -> ordered dates -> (2 <= k)%nat -> (k < length dates)%nat -> (0 < j < n)%nat -> f64R (nth (k - 1) dates zero64) = INR j * (f64R T / INR n) ->
  forall i, (0 < i <= n)%nat -> records64 dates (step64 T n) i k = true <-> i = S j.
Proof.
  intros T n m e ST N NB TV M E NM. pose proof (lt_INR 0 n N) as NP. cbn [INR] in NP. destruct (step_value T n ST N NB) as (FD & _). pose proof ST as (FT & T0 & T1). pose proof (bpow_gt_0 radix2 (-900)) as TP.
  assert (TN : f64R T / INR n = IZR m * bpow radix2 e) by (rewrite TV; field; lra).
  assert (DV : f64R (step64 T n) = IZR m * bpow radix2 e).
  { destruct (f64_of_Z_ok (Z.of_nat n) ltac:(lia)) as [EN FN]. rewrite <- INR_IZR_INZ in EN. destruct (fdiv_ok T (f64_of_Z (Z.of_nat n)) (2 ^ 40) FT) as [EV _]; [rewrite EN; lra|lia| |].
    - rewrite EN. rewrite Rabs_pos_eq by (apply Rlt_le, Rdiv_lt_0_compat; lra). rewrite <- big40. assert (1 <= INR n) by (apply (le_INR 1); lia). apply Rle_trans with (2 := T1). apply Rmult_le_reg_r with (INR n); [lra|]. unfold Rdiv. rewrite Rmult_assoc, Rinv_l, Rmult_1_r by lra. nra.
    - unfold step64. rewrite EV, EN, TN. apply rnd_id, format_dyadic; [|exact E]. rewrite Z.abs_eq by lia. nia. }
  assert (CE : forall k, (k <= n)%nat -> finite (clock64 (step64 T n) k) /\ f64R (clock64 (step64 T n) k) = INR k * (f64R T / INR n)).
  { intros k K. destruct (clock_exact (step64 T n) n m e FD DV M E NM) with (k := k) as [F V]; [|exact K|split; [exact F|rewrite V, DV, TN; reflexivity]]. rewrite DV, <- TV. rewrite big40 in T1. apply Rle_trans with (1 := T1). apply IZR_le. discriminate. }
  assert (TE : f64R (clock64 (step64 T n) n) = f64R T) by (rewrite (proj2 (CE n (le_n n))); field; lra). split; [exact TE|]. split.
  - assert (EQ : clock64 (step64 T n) n = T). { apply (B2R_inj 53 1024); [|  |exact TE].
      - apply is_finite_strict_B2R. unfold f64R in TE, T0. rewrite TE. lra.
      - apply is_finite_strict_B2R. unfold f64R in T0. lra. }
    rewrite EQ. assert (MT : moderate T) by (split; [exact FT|split; [lra|apply Rle_trans with (1 := T1); rewrite big40; apply IZR_le; discriminate]]). apply (C96_bond T T MT MT). reflexivity.
  - intros dates j k F O K1 K2 J D i I. rewrite (C96_records dates T n j k F O ST N NB K1 K2 J D i I). destruct (Rlt_dec _ _) as [L|L]; [|reflexivity]. rewrite D, (proj2 (CE j ltac:(lia))) in L. lra.
Qed.
Print Assumptions C96_exact_grid.

Example C96_witness : exists s, built [z64 0; z64 1; z64 30] [z64 3; z64 4] s /\ sensible (z64 30) /\ f64R (z64 30) <= f64R (last [z64 0; z64 1; z64 30] zero64) /\
  (exists m e, f64R (z64 2) = INR 8 * (IZR m * bpow radix2 e) /\ (0 < m)%Z /\ (-1074 <= e)%Z /\ (Z.of_nat 8 * m <= 2 ^ 53)%Z) /\ f64R (nth (2 - 1) dates_012 zero64) = INR 4 * (f64R (z64 2) / INR 8).
Proof.
  exists {| knots64 := [z64 0; z64 1; z64 30]; values64 := [z64 3; z64 4] |}. split; [split|].
  - assert (A : increasing64 [z64 0; z64 1; z64 30] = true) by (vm_compute; reflexivity). assert (B : Bltb (Babs (nth 0 [z64 0; z64 1; z64 30] zero64)) tol15 = true) by (vm_compute; reflexivity). unfold schedule64_new. rewrite A, B. reflexivity.
  - intros k [<-|[<-|[<-|[]]]]; apply z64_moderate; lia.
  - split; [apply z64_sensible; lia|]. split; [cbn [last]; lra|]. assert (E2 : f64R (z64 2) = 2) by (apply (f64_of_Z_ok 2); lia). split.
    + exists 1%Z, (-2)%Z. rewrite E2. change (bpow radix2 (-2)) with (/ 4). cbn [INR]. split; [lra|lia].
    + change (nth (2 - 1) dates_012 zero64) with (f64_of_Z 1). rewrite (proj1 (f64_of_Z_ok 1 ltac:(lia))), E2. cbn [INR]. lra.
Qed.
Example C96_witness_knot : built [z64 0; z64 20; z64 30] [z64 3; z64 4] {| knots64 := [z64 0; z64 20; z64 30]; values64 := [z64 3; z64 4] |} /\ f64R (z64 0) + / 1000000000000 <= f64R (z64 20) /\ 16 <= f64R (z64 20) /\ f64R (z64 20) < f64R (z64 21) <= f64R (z64 30).
Proof.
  split; [split|].
  - assert (A : increasing64 [z64 0; z64 20; z64 30] = true) by (vm_compute; reflexivity). assert (B : Bltb (Babs (nth 0 [z64 0; z64 20; z64 30] zero64)) tol15 = true) by (vm_compute; reflexivity). unfold schedule64_new. rewrite A, B. reflexivity.
  - intros k [<-|[<-|[<-|[]]]]; apply z64_moderate; lia.
  - unfold z64. rewrite (proj1 (f64_of_Z_ok 0 ltac:(lia))), (proj1 (f64_of_Z_ok 20 ltac:(lia))), (proj1 (f64_of_Z_ok 21 ltac:(lia))), (proj1 (f64_of_Z_ok 30 ltac:(lia))). lra.
Qed.
