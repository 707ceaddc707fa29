(** Theorems about Substeps64.v. *)
From Coq Require Import Bool List Arith ZArith Reals Lra Lia Psatz Sorted.
Import ListNotations.
From Flocq Require Import Core BinarySingleNaN.
From Verif Require Import Outcome F64 Clock64 Clock64Facts Chol64 Chol64Facts P_Chol64 Bisect64 Bisect64Facts Floor64 P_Floor64 Validate64 P_Validate64 Segments64 P_Segments64 Substeps64.
Open Scope R_scope.

(** The exact boundary after [i] of [n] equal steps from [a] to [b]. *)
Definition cut (a b : R) (n i : nat) : R := a + INR i / INR n * (b - a).

(** The index [j] of the rate that is fixing between the dates [d] and [D]: the dates 1 to
    [j - 1] are [d] or before it and the [j]th, unless there is none, is [D] or after it. *)
Definition fixing (m : nat) (dates : list f64) (d D : R) (j : nat) : Prop :=
  (1 <= j <= m + 1)%nat /\ (forall k, (1 <= k < j)%nat -> f64R (nth k dates zero64) <= d) /\ ((j <= m)%nat -> D <= f64R (nth j dates zero64)).

Lemma eta_fixing m dates d D t : length dates = S m -> Forall (fun x => finite x /\ (f64R x <= d \/ D <= f64R x)) dates -> finite t -> d < f64R t <= D -> fixing m dates d D (eta64 m dates t).
Proof.
  intros L F Ft Ht. destruct dates as [|d0 dates]; [discriminate|]. cbn [length] in L. assert (LM : length dates = m) by lia. clear L. unfold eta64. cbn [tl]. rewrite firstn_all2 by lia. inversion F as [|? ? _ F']; subst. clear F.
  unfold fixing. set (all := d0 :: dates).
  assert (G : forall pre l, all = pre ++ l -> (forall k, (1 <= k < length pre)%nat -> f64R (nth k all zero64) <= d) -> (1 <= length pre)%nat -> Forall (fun x => finite x /\ (f64R x <= d \/ D <= f64R x)) l -> length all = S (length dates) ->
    fixing (length dates) all d D (first_alive64 (length dates + 1) (length pre) l t)).
  { intros pre l. revert pre. induction l as [|x l IH]; intros pre E P LP Fl LA; cbn [first_alive64].
    - rewrite app_nil_r in E. unfold fixing. split; [lia|]. split; [|lia]. intros k K. apply P. rewrite <- E, LA. lia.
    - inversion Fl as [|? ? [Fx Hx] Fl']; subst. assert (NX : nth (length pre) all zero64 = x) by (rewrite E, app_nth2, Nat.sub_diag by lia; reflexivity). destruct (Bleb t x) eqn:B.
      + apply (Bleb_R _ _ Ft Fx) in B. unfold fixing. split; [|split; [exact P|]].
        * rewrite E, app_length in LA. cbn [length] in LA. lia.
        * intros _. rewrite NX. lra.
      + assert (X : f64R x <= d). { destruct Hx as [K|K]; [exact K|]. assert (Bleb t x = true); [|congruence]. apply (Bleb_R _ _ Ft Fx). lra. }
        replace (S (length pre)) with (length (pre ++ [x])) by (rewrite app_length; cbn; lia). apply IH; [rewrite E, <- app_assoc; reflexivity| |rewrite app_length; cbn; lia|exact Fl'|exact LA].
        intros k K. rewrite app_length in K. cbn [length] in K. destruct (Nat.eq_dec k (length pre)) as [->|N]; [rewrite NX; exact X|apply P; lia]. }
  apply (G [d0] dates); [reflexivity|cbn [length]; intros k K; lia|cbn; lia|exact F'|reflexivity].
Qed.

Lemma part w x : 0 <= w <= 1 -> 0 <= x -> 0 <= w * x <= x.
Proof. intros. nra. Qed.
Lemma scale q x u : 0 <= q <= 1025 -> - u <= x <= u -> - (u * 1025) <= q * x <= u * 1025.
Proof. intros. nra. Qed.
Lemma share n q c h z : 1 <= n -> q * n = c -> Rabs (n * h - c) <= z -> Rabs (h - q) <= z.
Proof. intros N Q H. rewrite <- Q in H. replace (n * h - q * n) with (n * (h - q)) in H by ring. rewrite Rabs_mult, (Rabs_pos_eq n) in H by lra. pose proof (Rabs_pos (h - q)). nra. Qed.

Section Chunk.
  Context (e prev tau : f64) (D d : R) (n : nat).
  Context (Fe : finite e) (Fp : finite prev) (Ft : finite tau) (He : / 1048576 <= f64R e <= 1024) (N : (1 <= n <= 1024)%nat).
  Context (HP : Rabs (f64R prev - (f64R e - D)) <= / 8796093022208) (HT : Rabs (f64R tau - (f64R e - d)) <= / 8796093022208) (H0 : 0 <= d) (HD : d + / 1048576 <= D <= f64R e).
  Notation a := (f64R prev). Notation b := (f64R tau).
  Notation h := (fdiv (fsub tau prev) (f64_of_Z (Z.of_nat n))).
  Let eps := / 8796093022208.
  Lemma nR : 1 <= INR n <= 1024.
  Proof. split; [apply (le_INR 1), N|]. replace 1024 with (INR 1024) by (rewrite INR_IZR_INZ; reflexivity). apply le_INR, N. Qed.
  Lemma ends : - eps <= a /\ b <= 1024 + eps /\ / 1048576 - 2 * eps <= b - a.
  Proof. unfold eps. apply Rabs_le_inv in HP, HT. lra. Qed.
  Lemma h_ok : finite h /\ Rabs (INR n * f64R h - (b - a)) <= 3 * eps /\ / 2147483648 <= f64R h <= 1025.
  Proof.
    pose proof ends as (E1 & E2 & E3). pose proof nR as NR. assert (EP : 0 < eps <= / 8000000000000) by (unfold eps; lra).
    destruct (fsub_ok tau prev 2048 Ft Fp ltac:(lia)) as [VL FL]; [apply Rabs_le; lra|]. pose proof (err_11 (b - a) ltac:(apply Rabs_le; lra)) as EL. rewrite <- VL in EL. fold eps in EL. apply Rabs_le_inv in EL.
    destruct (f64_of_Z_ok (Z.of_nat n) ltac:(lia)) as [VN FN]. rewrite <- INR_IZR_INZ in VN.
    set (len := f64R (fsub tau prev)) in *. assert (LEN : / 2000000 <= len <= 1024 + 4 * eps) by lra. set (q := len / INR n).
    assert (Q1 : q * INR n = len) by (unfold q; field; lra). assert (Q2 : / 2048000000 - 0 <= q <= 1024 + 4 * eps). { split; [apply Rmult_le_reg_r with (INR n); [lra|]; rewrite Q1; lra|]. apply Rmult_le_reg_r with (INR n); [lra|]. rewrite Q1. apply Rle_trans with ((1024 + 4 * eps) * 1); [lra|]. apply Rmult_le_compat_l; lra. }
    destruct (fdiv_ok (fsub tau prev) (f64_of_Z (Z.of_nat n)) 2048 FL ltac:(rewrite VN; lra) ltac:(lia)) as [VH FH]; [rewrite VN; fold len; fold q; apply Rabs_le; lra|]. rewrite VN in VH. fold len in VH. fold q in VH.
    assert (T : bpow radix2 (-1022) <= Rabs q). { rewrite Rabs_pos_eq by lra. apply Rle_trans with (bpow radix2 (-31)); [apply bpow_le; lia|]. assert (bpow radix2 (-31) = / 2147483648) by reflexivity. lra. }
    destruct (rnd_rel q T) as (x & X & VX). rewrite VX in VH. pose proof u53_eq as UE. pose proof u53_pos as U. apply Rabs_le_inv in X.
    split; [exact FH|]. rewrite VH. assert (QX : Rabs (q * INR n * x) <= 2 * eps). { rewrite Q1, Rabs_mult, (Rabs_pos_eq len) by lra. apply Rle_trans with (1025 * u53); [apply Rmult_le_compat; [lra|apply Rabs_pos|lra|apply Rabs_le; lra]|unfold eps; lra]. }
    apply Rabs_le_inv in QX. split; [apply Rabs_le; replace (INR n * (q * (1 + x))) with (q * INR n + q * INR n * x) by ring; rewrite Q1 in *; lra|]. pose proof (scale q x u53 ltac:(lra) X) as B1. rewrite Rmult_plus_distr_l, Rmult_1_r. lra.
  Qed.
  Lemma lo_ok i : (i < n)%nat -> finite (fadd prev (fmul (f64_of_Z (Z.of_nat i)) h)) /\ Rabs (f64R (fadd prev (fmul (f64_of_Z (Z.of_nat i)) h)) - cut a b n i) <= 6 * eps.
  Proof.
    intros I. pose proof ends as (E1 & E2 & E3). pose proof nR as NR. assert (EP : 0 < eps <= / 8000000000000) by (unfold eps; lra). destruct h_ok as (FH & VH & RH).
    destruct (f64_of_Z_ok (Z.of_nat i) ltac:(lia)) as [VI FI]. rewrite <- INR_IZR_INZ in VI. set (hh := f64R h) in *. assert (I0 : 0 <= INR i <= INR n) by (split; [apply pos_INR|apply le_INR; lia]).
    set (w := INR i / INR n). assert (W : 0 <= w <= 1). { unfold w. split; [apply Rmult_le_pos; [lra|left; apply Rinv_0_lt_compat; lra]|]. apply Rmult_le_reg_r with (INR n); [lra|]. unfold Rdiv. rewrite Rmult_assoc, Rinv_l by lra. lra. }
    assert (WI : INR i = w * INR n) by (unfold w; field; lra). assert (P : Rabs (INR i * hh - w * (b - a)) <= 3 * eps). { rewrite WI. replace (w * INR n * hh - w * (b - a)) with (w * (INR n * hh - (b - a))) by ring. rewrite Rabs_mult, (Rabs_pos_eq w) by lra. pose proof (part w _ W (Rabs_pos (INR n * hh - (b - a)))). lra. }
    apply Rabs_le_inv in P. pose proof (part w (b - a) W ltac:(lra)) as WB.
    destruct (fmul_ok (f64_of_Z (Z.of_nat i)) h 2048 FI FH ltac:(lia)) as [VM FM]; [rewrite VI; fold hh; apply Rabs_le; lra|]. rewrite VI in VM. fold hh in VM. pose proof (err_11 (INR i * hh) ltac:(apply Rabs_le; lra)) as EM. rewrite <- VM in EM. fold eps in EM. apply Rabs_le_inv in EM.
    destruct (fadd_ok prev (fmul (f64_of_Z (Z.of_nat i)) h) 4096 Fp FM ltac:(lia)) as [VA FA]; [apply Rabs_le; lra|]. pose proof (err_11 (a + f64R (fmul (f64_of_Z (Z.of_nat i)) h)) ltac:(apply Rabs_le; lra)) as EA. rewrite <- VA in EA. fold eps in EA. apply Rabs_le_inv in EA.
    split; [exact FA|]. unfold cut. fold w. apply Rabs_le. lra.
  Qed.
  Lemma cut_range i : (i <= n)%nat -> a <= cut a b n i <= b.
  Proof.
    intros I. pose proof ends as (E1 & E2 & E3). pose proof nR as NR. assert (EP : 0 < eps <= / 8000000000000) by (unfold eps; lra). assert (I0 : 0 <= INR i <= INR n) by (split; [apply pos_INR|apply le_INR; lia]). unfold cut. set (w := INR i / INR n). assert (W : 0 <= w <= 1). { unfold w. split; [apply Rmult_le_pos; [lra|left; apply Rinv_0_lt_compat; lra]|]. apply Rmult_le_reg_r with (INR n); [lra|]. unfold Rdiv. rewrite Rmult_assoc, Rinv_l by lra. lra. } pose proof (part w (b - a) W ltac:(lra)). lra.
  Qed.
  Lemma cut_step i : cut a b n (i + 1) - cut a b n i = (b - a) / INR n /\ / 1100000000 <= (b - a) / INR n.
  Proof.
    pose proof ends as (E1 & E2 & E3). pose proof nR as NR. assert (EP : 0 < eps <= / 8000000000000) by (unfold eps; lra). split; [unfold cut; rewrite plus_INR; cbn [INR]; field; lra|]. apply Rmult_le_reg_r with (INR n); [lra|]. unfold Rdiv. rewrite Rmult_assoc, Rinv_l by lra. lra.
  Qed.
  Lemma cut_end : cut a b n n = b.
  Proof. unfold cut. pose proof nR. field. lra. Qed.
  Lemma substep_ok m dates i : (i < n)%nat -> length dates = S m -> Forall (fun x => finite x /\ (f64R x <= d \/ D <= f64R x)) dates ->
    let s := substep64 m dates e prev tau h n i in
    finite (tau64 s) /\ Rabs (f64R (tau64 s) - cut a b n (i + 1)) <= / 549755813888 /\ ((i + 1 = n)%nat -> tau64 s = tau) /\
    finite (length64 s) /\ 0 < f64R (length64 s) /\ Rabs (f64R (length64 s) - (b - a) / INR n) <= / 274877906944 /\ fixing m dates d D (start64 s).
  Proof.
    intros I L F. cbv zeta. unfold substep64. cbv zeta. cbn [tau64 length64 start64].
    pose proof ends as (E1 & E2 & E3). pose proof nR as NR. assert (EP : 0 < eps <= / 8000000000000) by (unfold eps; lra). destruct h_ok as (FH & VH & RH). destruct (lo_ok i I) as [FL VL]. pose proof (cut_range i ltac:(lia)) as C0. pose proof (cut_range (i + 1) ltac:(lia)) as C1. destruct (cut_step i) as [CS CL].
    set (lo := fadd prev (fmul (f64_of_Z (Z.of_nat i)) h)) in *. apply Rabs_le_inv in VL.
    assert (HH : Rabs (f64R h - (b - a) / INR n) <= 3 * eps). { apply (share (INR n) _ (b - a)); [lra|field; lra|exact VH]. } apply Rabs_le_inv in HH.
    set (hi := if (i + 1 =? n)%nat then tau else fadd lo h).
    assert (HI : finite hi /\ Rabs (f64R hi - cut a b n (i + 1)) <= 10 * eps /\ ((i + 1 = n)%nat -> hi = tau)).
    { unfold hi. destruct (Nat.eqb_spec (i + 1) n) as [E|E].
      - split; [exact Ft|]. split; [|reflexivity]. rewrite E, cut_end, Rminus_diag_eq, Rabs_R0 by reflexivity. lra.
      - destruct (fadd_ok lo h 4096 FL FH ltac:(lia)) as [VA FA]; [apply Rabs_le; lra|]. pose proof (err_11 (f64R lo + f64R h) ltac:(apply Rabs_le; lra)) as EA. rewrite <- VA in EA. fold eps in EA. apply Rabs_le_inv in EA. split; [exact FA|]. split; [apply Rabs_le; lra|intros K; contradiction]. }
    destruct HI as (FI & VI & LI). apply Rabs_le_inv in VI. clearbody hi lo.
    destruct (fsub_ok hi lo 4096 FI FL ltac:(lia)) as [VS FS]; [apply Rabs_le; lra|]. pose proof (err_11 (f64R hi - f64R lo) ltac:(apply Rabs_le; lra)) as ES. rewrite <- VS in ES. fold eps in ES. apply Rabs_le_inv in ES.
    assert (RA : Rabs (f64R lo + f64R hi) <= 4096) by (apply Rabs_le; lra). destruct (fadd_ok lo hi 4096 FL FI ltac:(lia) RA) as [VA FA]. pose proof (rnd_error (f64R lo + f64R hi) 12 ltac:(lia) RA) as EA. rewrite <- VA in EA. change (bpow radix2 (12 - 54)) with (/ 4398046511104) in EA. replace (/ 4398046511104) with (2 * eps) in EA by (unfold eps; lra). apply Rabs_le_inv in EA.
    destruct half64_ok as [VHF FHF]. destruct (fmul_ok half64 (fadd lo hi) 4096 FHF FA ltac:(lia)) as [VM FM]; [rewrite VHF; apply Rabs_le; lra|]. pose proof (err_11 (f64R half64 * f64R (fadd lo hi)) ltac:(rewrite VHF; apply Rabs_le; lra)) as EM. rewrite <- VM, VHF in EM. fold eps in EM. apply Rabs_le_inv in EM.
    destruct (fsub_ok e (fmul half64 (fadd lo hi)) 4096 Fe FM ltac:(lia)) as [VT FT]; [apply Rabs_le; lra|]. pose proof (err_11 (f64R e - f64R (fmul half64 (fadd lo hi))) ltac:(apply Rabs_le; lra)) as ET. rewrite <- VT in ET. fold eps in ET. apply Rabs_le_inv in ET.
    apply Rabs_le_inv in HP, HT. fold eps in HP, HT.
    split; [exact FI|]. split; [apply Rabs_le; unfold eps in *; lra|]. split; [exact LI|]. split; [exact FS|]. split; [lra|]. split; [apply Rabs_le; unfold eps in *; lra|].
    pose proof (eta_fixing m dates d D (fsub e (fmul half64 (fadd lo hi))) L F FT ltac:(lra)) as FX. destruct FX as (F1 & F2 & F3). rewrite Nat.min_l by lia. split; [exact F1|split; [exact F2|exact F3]].
  Qed.
End Chunk.

(** The sub-steps of the segments from the date [D] back over the dates [ds], [n] to each
    segment: their ends are the exact ones to within 2^-38 years, some 0.1 milliseconds, the last to one
    rounding, their
    lengths are positive and as near to an [n]th of the segment, and each has the rate that is
    fixing between the two dates. *)
Fixpoint sliced (e : R) (m : nat) (dates : list f64) (n : nat) (D : R) (ds : list R) (subs : list segment64) : Prop :=
  match ds with
  | [] => subs = []
  | d :: ds => exists c rest, subs = c ++ rest /\ length c = n /\
      (forall i, (i < n)%nat -> let s := nth i c {| tau64 := zero64; length64 := zero64; start64 := 0 |} in
        finite (tau64 s) /\ Rabs (f64R (tau64 s) - cut (e - D) (e - d) n (i + 1)) <= / 274877906944 /\ ((i + 1 = n)%nat -> f64R (tau64 s) = rnd (e - d)) /\
        finite (length64 s) /\ 0 < f64R (length64 s) /\ Rabs (f64R (length64 s) - (D - d) / INR n) <= / 137438953472 /\ fixing m dates d D (start64 s)) /\
      sliced e m dates n d ds rest
  end.
Fixpoint dates_around (dates : list f64) (D : R) (ds : list R) : Prop :=
  match ds with [] => True | d :: ds => 0 <= d /\ d + / 1048576 <= D /\ Forall (fun x => finite x /\ (f64R x <= d \/ D <= f64R x)) dates /\ dates_around dates d ds end.
Definition seen (e : f64) (d : R) (b : f64) : Prop := finite b /\ f64R b = rnd (f64R e - d) /\ Rabs (f64R b - (f64R e - d)) <= / 8796093022208.

Lemma cut_near n i a b a' b' : (1 <= n)%nat -> (i <= n)%nat -> Rabs (a - a') <= / 8796093022208 -> Rabs (b - b') <= / 8796093022208 -> Rabs (cut a b n i - cut a' b' n i) <= / 4398046511104.
Proof.
  intros N I A B. assert (NR : 1 <= INR n) by (apply (le_INR 1), N). assert (I0 : 0 <= INR i <= INR n) by (split; [apply pos_INR|apply le_INR; lia]). unfold cut. set (w := INR i / INR n). assert (W : 0 <= w <= 1). { unfold w. split; [apply Rmult_le_pos; [lra|left; apply Rinv_0_lt_compat; lra]|]. apply Rmult_le_reg_r with (INR n); [lra|]. unfold Rdiv. rewrite Rmult_assoc, Rinv_l by lra. lra. }
  replace (a + w * (b - a) - (a' + w * (b' - a'))) with ((1 - w) * (a - a') + w * (b - b')) by ring. eapply Rle_trans; [apply Rabs_triang|]. rewrite !Rabs_mult, (Rabs_pos_eq (1 - w)), (Rabs_pos_eq w) by lra. pose proof (part (1 - w) _ ltac:(lra) (Rabs_pos (a - a'))). pose proof (part w _ W (Rabs_pos (b - b'))). lra.
Qed.
Lemma nth_near n a b a' b' : (1 <= n)%nat -> Rabs (a - a') <= / 8796093022208 -> Rabs (b - b') <= / 8796093022208 -> Rabs ((b - a) / INR n - (b' - a') / INR n) <= / 4398046511104.
Proof.
  intros N A B. assert (NR : 1 <= INR n) by (apply (le_INR 1), N). apply (share (INR n) _ (b' - a')); [exact NR|field; lra|]. replace (INR n * ((b - a) / INR n) - (b' - a')) with ((b - b') - (a - a')) by (field; lra). apply Rabs_le_inv in A, B. apply Rabs_le. lra.
Qed.

Lemma slice e m dates n : finite e -> / 1048576 <= f64R e <= 1024 -> (1 <= n <= 1024)%nat -> length dates = S m -> forall bs ds prev D, D <= f64R e -> seen e D prev -> Forall2 (seen e) ds bs -> dates_around dates D ds -> sliced (f64R e) m dates n D ds (sub_segments64 m dates e n prev bs).
Proof.
  intros Fe He N L. induction bs as [|b bs IH]; intros ds prev D HD (FP & RP & HP) S A; inversion S as [|d ? ds' ? (FB & RB & HB) S']; subst; [reflexivity|]. destruct A as (A0 & A1 & A2 & A3). cbn [sub_segments64 sliced].
  destruct (step_ok e Fe He prev b D d FP FB HP HB A0 (conj A1 HD)) as (NS & _). rewrite NS.
  exists (chunk64 m dates e n prev b), (sub_segments64 m dates e n b bs). split; [reflexivity|]. split; [unfold chunk64; cbv zeta; rewrite map_length, seq_length; reflexivity|]. split.
  - intros i I. cbv zeta. unfold chunk64. cbv zeta. rewrite nth_indep with (d' := substep64 m dates e prev b (fdiv (fsub b prev) (f64_of_Z (Z.of_nat n))) n 0) by (rewrite map_length, seq_length; exact I). rewrite map_nth, seq_nth by exact I. cbn [plus].
    destruct (substep_ok e prev b D d n Fe FP FB He N HP HB A0 (conj A1 HD) m dates i I L A2) as (T1 & T2 & T3 & T4 & T5 & T6 & T7).
    pose proof (cut_near n (i + 1) _ _ _ _ ltac:(lia) ltac:(lia) HP HB) as CN. pose proof (nth_near n _ _ _ _ ltac:(lia) HP HB) as LN. replace (f64R e - d - (f64R e - D)) with (D - d) in LN by ring. apply Rabs_le_inv in CN, LN, T2, T6.
    split; [exact T1|]. split; [apply Rabs_le; lra|]. split; [intros K; rewrite (T3 K); exact RB|]. split; [exact T4|]. split; [exact T5|]. split; [apply Rabs_le; lra|exact T7].
  - apply IH; [lra|repeat split; assumption|exact S'|exact A3].
Qed.

Lemma spaced_boundaries n dates e lo hi final : (0 < n)%nat -> dates = (lo ++ hi) ++ [final] -> n = length (lo ++ hi) -> finite e -> / 1048576 <= f64R e <= 1024 -> spaced e lo hi ->
  exists bs, tau_boundaries64 dates n e = Ok bs /\
    ((exists d lo', lo = d :: lo' /\ f64R d = 0) -> bs = map (fun d => fsub e d) (rev lo)) /\
    ((lo = [] \/ exists d lo', lo = d :: lo' /\ / 1048576 <= f64R d) -> bs = map (fun d => fsub e d) (rev lo) ++ [e]).
Proof.
  intros N ED EN Fe He (LO & HI & SL). unfold tau_boundaries64. destruct (Nat.eqb_spec n 0) as [E|_]; [lia|]. cbv zeta.
  assert (FN : firstn n dates = lo ++ hi) by (rewrite ED, EN, firstn_app, firstn_all, Nat.sub_diag; cbn [firstn]; apply app_nil_r). rewrite FN. destruct zero64_ok as [V0 F0]. destruct lit_12_ok as (FL & L1 & L2). cbn [pow] in L1, L2.
  destruct (fadd_ok e lit_12 2048 Fe FL ltac:(lia)) as [VS FS]; [apply Rabs_le; lra|]. pose proof (err_11 (f64R e + f64R lit_12) ltac:(apply Rabs_le; lra)) as ES. rewrite <- VS in ES. apply Rabs_le_inv in ES.
  assert (BACK : forall d, In d lo -> finite (fsub e d) /\ f64R (fsub e d) = rnd (f64R e - f64R d) /\ f64R (fsub e d) <= f64R e). { intros d I. rewrite Forall_forall in LO. destruct (LO d I) as (Fd & Hd & Ld). apply back_ok; [exact Fe|lra|exact Fd|lra]. }
  assert (FB : filter (fun tau_b => Bltb zero64 tau_b && Bltb tau_b (fadd e lit_12)) (map (fun d => fsub e d) (rev (lo ++ hi))) = map (fun d => fsub e d) (rev lo)).
  { rewrite rev_app_distr, map_app, filter_app. rewrite filter_none, filter_all; [reflexivity| |].
    - apply Forall_forall. intros b I. apply in_map_iff in I. destruct I as (d & <- & I). apply in_rev in I. destruct (BACK d I) as (F & V & L). rewrite Forall_forall in LO. destruct (LO d I) as (Fd & Hd & Ld). apply andb_true_iff. split; [apply (Bltb_R _ _ F0 F); rewrite V, V0; apply rnd_sub_pos; lra|apply (Bltb_R _ _ F FS); lra].
    - apply Forall_forall. intros b I. apply in_map_iff in I. destruct I as (d & <- & I). apply in_rev in I. rewrite Forall_forall in HI. destruct (HI d I) as (Fd & Hd). destruct (fsub_ok e d 1099511627776 Fe Fd ltac:(lia)) as [V F]; [apply Rabs_le; lra|]. apply andb_false_iff. left. apply (lt_false _ _ F0 F). rewrite V, V0, <- rnd_0. apply rnd_mono. lra. }
  rewrite FB. set (missing := match rev (map (fun d => fsub e d) (rev lo)) with [] => true | t :: _ => Bltb lit_12 (fabs (fsub t e)) end).
  assert (MISS : match lo with [] => missing = true | d :: _ => (f64R d = 0 -> missing = false) /\ (/ 1048576 <= f64R d -> missing = true) end).
  { unfold missing. rewrite <- map_rev, rev_involutive. destruct lo as [|d lo']; [reflexivity|]. cbn [map]. destruct (BACK d (or_introl eq_refl)) as (F & V & L). inversion LO as [|? ? (Fd & Hd & Ld) _]; subst.
    destruct (back_near e Fe He d Fd ltac:(lra)) as [_ NB]. apply Rabs_le_inv in NB.
    destruct (fsub_ok (fsub e d) e 4096 F Fe ltac:(lia)) as [V2 F2]; [apply Rabs_le; lra|]. destruct (fabs_ok _ F2) as [FA VA]. rewrite V2 in VA. pose proof (err_11 (f64R (fsub e d) - f64R e) ltac:(apply Rabs_le; lra)) as E2. apply Rabs_le_inv in E2. split; intros K.
    - apply (lt_false _ _ FL FA). rewrite VA, V, K, Rminus_0_r, (rnd_id _ (format64 e)), Rminus_diag_eq, rnd_0, Rabs_R0 by reflexivity. lra.
    - apply (Bltb_R _ _ FL FA). rewrite VA. assert (K2 : rnd (f64R (fsub e d) - f64R e) <= - / 2000000) by lra. rewrite Rabs_left1 by lra. lra. }
  exists (if missing then map (fun d => fsub e d) (rev lo) ++ [e] else map (fun d => fsub e d) (rev lo)). split; [reflexivity|]. split.
  - intros (d & lo' & EL & Hd). assert (M0 : missing = false) by (rewrite EL in MISS; apply MISS, Hd). rewrite M0. reflexivity.
  - intros C. assert (M1 : missing = true) by (destruct C as [->|(d & lo' & EL & Hd)]; [exact MISS|rewrite EL in MISS; apply MISS, Hd]). rewrite M1. reflexivity.
Qed.

(** Back over dates at least 2^-20 apart, there is no tenor date strictly between two of them. *)
Lemma around_lo dates : Forall finite dates -> forall lo hi D, dates = lo ++ hi -> Forall (fun a => 0 <= f64R a) lo -> StronglySorted (fun a b => f64R a + / 1048576 <= f64R b) lo -> Forall (fun a => f64R a + / 1048576 <= D) lo -> Forall (fun h => D <= f64R h) hi ->
  dates_around dates D (map f64R (rev lo)).
Proof.
  intros F. induction lo as [|d lo IH] using rev_ind; intros hi D E P S LD HD; [exact I|]. rewrite rev_app_distr. cbn [rev app map dates_around].
  apply Forall_app in P. destruct P as [P P']. inversion P' as [|? ? Pd _]; subst. apply Forall_app in LD. destruct LD as [LD LD']. inversion LD' as [|? ? Ld _]; subst.
  assert (SL : StronglySorted (fun a b => f64R a + / 1048576 <= f64R b) lo /\ Forall (fun a => f64R a + / 1048576 <= f64R d) lo).
  { clear -S. induction lo as [|a lo IH]; [split; constructor|]. inversion S as [|? ? S' F]; subst. destruct (IH S') as [I1 I2]. apply Forall_app in F. destruct F as [F1 F2]. inversion F2; subst. split; constructor; assumption. }
  destruct SL as [SL LO]. split; [exact Pd|]. split; [exact Ld|]. split.
  - apply Forall_forall. intros x I. rewrite Forall_forall in F. split; [apply F, I|]. apply in_app_or in I. destruct I as [I|I]; [apply in_app_or in I; destruct I as [I|[<-|[]]]; left; [rewrite Forall_forall in LO; specialize (LO x I); lra|lra]|right; rewrite Forall_forall in HD; apply HD, I].
  - apply (IH (d :: hi)); [rewrite <- app_assoc; reflexivity|exact P|exact SL|exact LO|]. constructor; [lra|]. eapply Forall_impl; [|exact HD]. cbv beta. intros h K. lra.
Qed.
Lemma around_app dates l : forall D, dates_around dates D l -> 0 + / 1048576 <= last l D -> Forall (fun x => finite x /\ last l D <= f64R x) dates -> dates_around dates D (l ++ [0]).
Proof.
  induction l as [|d l IH]; intros D A H F; cbn [app dates_around].
  - cbn [last] in *. split; [lra|]. split; [exact H|]. split; [|exact I]. eapply Forall_impl; [|exact F]. cbv beta. intros x [K1 K2]. split; [exact K1|right; exact K2].
  - destruct A as (A0 & A1 & A2 & A3). assert (EQ : last (d :: l) D = last l d). { destruct l as [|y l]; [reflexivity|]. clear. change (last (d :: y :: l) D) with (last (y :: l) D). revert y. induction l as [|z l IH]; intros y; [reflexivity|]. apply (IH z). } rewrite EQ in *. split; [exact A0|]. split; [exact A1|]. split; [exact A2|]. apply IH; assumption.
Qed.

(** The sub-steps of FX-FMM1: [n] to each date before the expiry [e], and [n] more up to today
    if the first date lies ahead. *)
Theorem C102_substeps m dates e lo hi final n : (0 < m)%nat -> dates = (lo ++ hi) ++ [final] -> m = length (lo ++ hi) -> finite final -> f64R e <= f64R final -> finite e -> / 1048576 <= f64R e <= 1024 -> spaced e lo hi -> (1 <= n <= 1024)%nat ->
  exists subs, build_substeps64 m dates e n = Ok subs /\
    ((exists d lo', lo = d :: lo' /\ f64R d = 0) -> sliced (f64R e) m dates n (f64R e) (map f64R (rev lo)) subs) /\
    ((lo = [] \/ exists d lo', lo = d :: lo' /\ / 1048576 <= f64R d) -> sliced (f64R e) m dates n (f64R e) (map f64R (rev lo) ++ [0]) subs).
Proof.
  intros M ED EM FF HF Fe He SP N. destruct (spaced_boundaries m dates e lo hi final M ED EM Fe He SP) as (bs & EB & B1 & B2). destruct SP as (LO & HI & SL). destruct zero64_ok as [V0 F0].
  unfold build_substeps64. assert (P : Bltb zero64 e = true) by (apply (Bltb_R _ _ F0 Fe); lra). rewrite P. cbn [negb]. destruct (Nat.ltb_spec n 1) as [K|_]; [lia|]. rewrite EB. cbn [obind]. eexists. split; [reflexivity|].
  assert (L : length dates = S m) by (rewrite ED, app_length; cbn [length]; lia).
  assert (FA : Forall finite dates). { rewrite ED. apply Forall_app. split; [apply Forall_app; split; [eapply Forall_impl; [|exact LO]|eapply Forall_impl; [|exact HI]]; cbv beta; intros x K; apply K|constructor; [exact FF|constructor]]. }
  assert (AR : dates_around dates (f64R e) (map f64R (rev lo))). { apply (around_lo dates FA lo (hi ++ [final])); [rewrite ED, app_assoc; reflexivity| |exact SL| |apply Forall_app; split; [eapply Forall_impl; [|exact HI]; cbv beta; intros x K; apply K|constructor; [exact HF|constructor]]]; (eapply Forall_impl; [|exact LO]); cbv beta; intros x K; apply K. }
  assert (SB : Forall2 (seen e) (map f64R (rev lo)) (map (fun d => fsub e d) (rev lo))).
  { assert (LR : Forall (fun d => finite d /\ 0 <= f64R d <= f64R e) (rev lo)) by (apply Forall_forall; intros x I; apply in_rev in I; rewrite Forall_forall in LO; destruct (LO x I) as (K1 & K2 & K3); split; [exact K1|lra]). clear -LR Fe He. induction LR as [|d l [Fd Hd] _ IH]; [constructor|]. cbn [map]. constructor; [|exact IH]. destruct (back_near e Fe He d Fd Hd) as [K1 K2]. split; [exact K1|]. split; [|exact K2]. apply (fsub_ok e d 2048 Fe Fd ltac:(lia)). apply Rabs_le. lra. }
  assert (S0 : seen e (f64R e) zero64) by (split; [exact F0|]; split; [rewrite V0, Rminus_diag_eq, rnd_0; reflexivity|]; rewrite V0; replace (0 - (f64R e - f64R e)) with 0 by ring; rewrite Rabs_R0; lra).
  split; intros C.
  - rewrite (B1 C). apply slice; [exact Fe|exact He|exact N|exact L|lra|exact S0|exact SB|exact AR].
  - rewrite (B2 C). apply slice; [exact Fe|exact He|exact N|exact L|lra|exact S0| |].
    + apply Forall2_app; [exact SB|]. constructor; [|constructor]. split; [exact Fe|]. split; [rewrite Rminus_0_r, (rnd_id _ (format64 e)); reflexivity|]. replace (f64R e - (f64R e - 0)) with 0 by ring. rewrite Rabs_R0. lra.
    + assert (LAST : last (map f64R (rev lo)) (f64R e) = match lo with [] => f64R e | d :: _ => f64R d end) by (destruct lo as [|d lo']; [reflexivity|]; cbn [rev]; rewrite map_app; cbn [map]; apply last_last).
      apply around_app; [exact AR| |]; rewrite LAST.
      * destruct C as [->|(d & lo' & -> & Hd)]; lra.
      * rewrite ED. apply Forall_forall. intros x I. split; [rewrite Forall_forall in FA; apply FA; rewrite ED; exact I|]. apply in_app_or in I. destruct I as [I|[<-|[]]]; [apply in_app_or in I; destruct I as [I|I]|].
        -- destruct lo as [|d lo']; [destruct I|]. destruct I as [<-|I]; [lra|]. inversion SL as [|? ? _ K]; subst. rewrite Forall_forall in K. specialize (K x I). lra.
        -- rewrite Forall_forall in HI. destruct (HI x I) as [_ K]. destruct lo as [|d lo']; [lra|]. inversion LO as [|? ? (_ & _ & K') _]; subst. lra.
        -- destruct lo as [|d lo']; [lra|]. inversion LO as [|? ? (_ & _ & K') _]; subst. lra.
Qed.
Print Assumptions C102_substeps.

(** An expiry that is not positive, NaN among them, or no sub-steps are refused. *)
Theorem C102_refuses m dates e n : (e = B754_nan \/ (finite e /\ f64R e <= 0) \/ n = 0%nat) -> build_substeps64 m dates e n = Panic PAssert.
Proof.
  intros H. unfold build_substeps64. destruct (Bltb zero64 e) eqn:E; cbn [negb]; [|reflexivity]. destruct H as [->|[[F H]| ->]]; [discriminate E| |reflexivity]. apply (Bltb_R _ _ (proj2 zero64_ok) F) in E. rewrite (proj1 zero64_ok) in E. lra.
Qed.
Print Assumptions C102_refuses.
Example C102_witness_refuses : build_substeps64 1 [zero64; one64] B754_nan 4 = Panic PAssert /\ build_substeps64 1 [zero64; one64] zero64 4 = Panic PAssert /\ build_substeps64 1 [zero64; one64] one64 0 = Panic PAssert.
Proof. split; [|split]; apply C102_refuses; [left; reflexivity|right; left; split; [apply zero64_ok|rewrite (proj1 zero64_ok); lra]|right; right; reflexivity]. Qed.

(** A tenor of today, half a year, one year and two, with the expiry at one and a half and three
    sub-steps to a segment: one segment for each of the three dates before it, with the rates 3, 2 and 1. *)
Example C102_witness_substeps : let e := f64_lit 3 (-1) in
  spaced e [zero64; half64; one64] [] /\ / 1048576 <= f64R e <= 1024 /\ f64R e <= f64R two64 /\
  exists subs, build_substeps64 3 [zero64; half64; one64; two64] e 3 = Ok subs /\ map start64 subs = [3; 3; 3; 2; 2; 2; 1; 1; 1]%nat.
Proof.
  cbv zeta. destruct zero64_ok as [V0 F0], one64_ok as [V1 F1], half64_ok as [VH FH]. destruct (f64_of_Z_ok 2 ltac:(lia)) as [V2 F2]. fold two64 in V2, F2. assert (P : bpow radix2 (-1) = / 2) by reflexivity. destruct (lit_ok 3 (-1) 2) as [VE FE]; [reflexivity|lia|lia|rewrite P, Rabs_pos_eq; lra|]. rewrite P in VE.
  split; [|split; [rewrite VE; lra|split; [rewrite VE, V2; lra|]]].
  - split; [repeat constructor; try assumption; rewrite ?V0, ?VH, ?V1, ?VE; lra|]. split; [constructor|]. repeat constructor; rewrite ?V0, ?VH, ?V1; lra.
  - assert (K : match build_substeps64 3 [zero64; half64; one64; two64] (f64_lit 3 (-1)) 3 with Ok subs => map start64 subs | _ => [] end = [3; 3; 3; 2; 2; 2; 1; 1; 1]%nat) by (vm_compute; reflexivity).
    destruct (build_substeps64 3 [zero64; half64; one64; two64] (f64_lit 3 (-1)) 3) as [subs| |]; try discriminate K. exists subs. split; [reflexivity|exact K].
Qed.
