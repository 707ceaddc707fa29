(** Theorems about Segments64.v. *)
From Coq Require Import Bool List Arith ZArith Reals Lra Lia Psatz Sorted.
Import ListNotations.
From Flocq Require Import Core BinarySingleNaN.
From Verif Require Import Outcome F64 Clock64 Clock64Facts Chol64 Chol64Facts P_Chol64 Bisect64 Bisect64Facts Floor64 P_Floor64 Validate64 P_Validate64 Segments64.
Open Scope R_scope.

(** Segments from [prev] to the expiry [e]: each begins where the last ended and is longer than
    nothing, its length is right to one rounding, and the last ends at the expiry to within
    1.001e-12. *)
Fixpoint laid (e prev : R) (segs : list segment64) : Prop :=
  match segs with
  | [] => Rabs (prev - e) <= 1001 / 10 ^ 15
  | s :: segs => finite (tau64 s) /\ finite (length64 s) /\ prev < f64R (tau64 s) <= e /\ 0 < f64R (length64 s) /\
      Rabs (f64R (length64 s) - (f64R (tau64 s) - prev)) <= u53 * (f64R (tau64 s) - prev) /\ laid e (f64R (tau64 s)) segs
  end.
Definition tenor64 (dates : list f64) : Prop :=
  Forall (fun d => finite d /\ 0 <= f64R d <= 1099511627776) dates /\ StronglySorted (fun a b => f64R a < f64R b) dates.

Lemma sorted_snoc {A} (P : A -> A -> Prop) l a : StronglySorted P l -> Forall (fun x => P x a) l -> StronglySorted P (l ++ [a]).
Proof. induction 1 as [|b l S IH F]; intros H; [repeat constructor|]. inversion H; subst. cbn [app]. constructor; [apply IH; assumption|]. apply Forall_app. split; [exact F|constructor; [assumption|constructor]]. Qed.
Lemma sorted_filter {A} (P : A -> A -> Prop) (f : A -> bool) l : StronglySorted P l -> StronglySorted P (filter f l).
Proof. induction 1 as [|b l S IH F]; [constructor|]. cbn [filter]. destruct (f b); [|exact IH]. constructor; [exact IH|]. apply Forall_forall. intros x I. apply filter_In in I. rewrite Forall_forall in F. apply F, I. Qed.
Lemma sorted_firstn {A} (P : A -> A -> Prop) n l : StronglySorted P l -> StronglySorted P (firstn n l).
Proof. intros S. revert n. induction S as [|b l S IH F]; intros n; [rewrite firstn_nil; constructor|]. destruct n; [constructor|]. cbn [firstn]. constructor; [apply IH|]. apply Forall_forall. intros x I. rewrite Forall_forall in F. apply F. rewrite <- (firstn_skipn n l). apply in_or_app. left. exact I. Qed.

Section Cover.
  Context (e : f64) (Fe : finite e) (He : 0 < f64R e <= 1099511627776).
  Lemma back_ok d : finite d -> 0 <= f64R d <= 1099511627776 -> finite (fsub e d) /\ f64R (fsub e d) = rnd (f64R e - f64R d) /\ f64R (fsub e d) <= f64R e.
  Proof.
    intros F H. destruct (fsub_ok e d 2199023255552 Fe F ltac:(lia)) as [V G]; [apply Rabs_le; lra|]. split; [exact G|]. split; [exact V|]. rewrite V. rewrite <- (rnd_id _ (format64 e)) at 2. apply rnd_mono. lra.
  Qed.
  Lemma back_sorted l : Forall (fun d => finite d /\ 0 <= f64R d <= 1099511627776) l -> StronglySorted (fun a b => f64R a < f64R b) l ->
    StronglySorted (fun a b => f64R a <= f64R b) (map (fun d => fsub e d) (rev l)).
  Proof.
    intros H S. induction S as [|a l S IH F]; [constructor|]. inversion H; subst. cbn [rev]. rewrite map_app. apply sorted_snoc; [apply IH; assumption|].
    apply Forall_forall. intros x I. apply in_map_iff in I. destruct I as (d & <- & I). apply in_rev in I. rewrite Forall_forall in *. destruct (H3 d I) as [Fd Hd]. destruct H2 as [Fa Ha]. destruct (back_ok d Fd Hd) as (_ & -> & _). destruct (back_ok a Fa Ha) as (_ & -> & _). apply rnd_mono. specialize (F d I). lra.
  Qed.
  Lemma laid_segments n dates : forall bs prev, finite prev -> 0 <= f64R prev <= f64R e -> StronglySorted (fun a b => f64R a <= f64R b) (prev :: bs) -> Forall (fun b => finite b /\ f64R b <= f64R e) bs ->
    Rabs (f64R (last bs prev) - f64R e) <= 1001 / 10 ^ 15 -> laid (f64R e) (f64R prev) (segments64 n dates e prev bs).
  Proof.
    induction bs as [|b bs IH]; intros prev FP HP S G L; [exact L|]. inversion G as [|? ? [FB HB] G']; subst. inversion S as [|? ? S' FS]; subst. inversion FS as [|? ? PB FS']; subst.
    assert (LB : Rabs (f64R (last bs b) - f64R e) <= 1001 / 10 ^ 15). { replace (last bs b) with (last (b :: bs) prev); [exact L|]. clear. revert b prev. induction bs as [|c bs IH]; intros b prev; [reflexivity|]. change (last (b :: c :: bs) prev) with (last (c :: bs) prev). rewrite (IH c prev). destruct bs; [reflexivity|]. cbn [last]. clear. revert f c b. induction bs as [|g bs IH]; intros f c b; [reflexivity|]. cbn. apply (IH g c b). }
    pose proof (IH b FB ltac:(lra) S' G' LB) as REST. cbn [segments64]. cbv zeta.
    destruct (fsub_ok b prev 2199023255552 FB FP ltac:(lia)) as [V FL]; [apply Rabs_le; lra|]. destruct (Bleb (fsub b prev) zero64) eqn:E.
    - apply (Bleb_R _ _ FL (proj2 zero64_ok)) in E. rewrite V, (proj1 zero64_ok) in E. assert (EQ : f64R b = f64R prev). { apply Rle_antisym; [|exact PB]. apply Rnot_lt_le. intros K. apply rnd_sub_pos in K. lra. } rewrite <- EQ. exact REST.
    - cbn [laid tau64 length64]. assert (LT : f64R prev < f64R b). { apply Rnot_le_lt. intros K. assert (Z0 : Bleb (fsub b prev) zero64 = true); [|congruence]. apply (Bleb_R _ _ FL (proj2 zero64_ok)). rewrite V, (proj1 zero64_ok), <- rnd_0. apply rnd_mono. lra. }
      split; [exact FB|]. split; [exact FL|]. split; [lra|]. split; [rewrite V; apply rnd_sub_pos, LT|]. split; [|exact REST]. rewrite V. destruct (rnd_minus b prev) as (ep & EP & ->). replace ((f64R b - f64R prev) * (1 + ep) - (f64R b - f64R prev)) with (ep * (f64R b - f64R prev)) by ring. rewrite Rabs_mult, (Rabs_pos_eq (f64R b - f64R prev)) by lra. apply Rmult_le_compat_r; [lra|exact EP].
  Qed.
  Lemma boundaries_ok dates n bs : tenor64 dates -> tau_boundaries64 dates n e = Ok bs ->
    Forall (fun b => finite b /\ f64R b <= f64R e) bs /\ StronglySorted (fun a b => f64R a <= f64R b) (zero64 :: bs) /\ Rabs (f64R (last bs zero64) - f64R e) <= 1001 / 10 ^ 15.
  Proof.
    intros [D S] H. unfold tau_boundaries64 in H. destruct (n =? 0)%nat; [discriminate|]. cbv zeta in H.
    set (raw := filter _ (map _ (rev (firstn n dates)))) in H.
    assert (DF : Forall (fun d => finite d /\ 0 <= f64R d <= 1099511627776) (firstn n dates)). { apply Forall_forall. intros d I. rewrite Forall_forall in D. apply D. rewrite <- (firstn_skipn n dates). apply in_or_app. left. exact I. }
    assert (GR : Forall (fun b => finite b /\ 0 < f64R b <= f64R e) raw).
    { apply Forall_forall. intros b I. unfold raw in I. apply filter_In in I. destruct I as [I B]. apply in_map_iff in I. destruct I as (d & <- & I). apply in_rev in I. rewrite Forall_forall in DF. destruct (DF d I) as [Fd Hd]. destruct (back_ok d Fd Hd) as (FB & _ & LE). apply andb_true_iff in B. destruct B as [B _]. apply (Bltb_R _ _ (proj2 zero64_ok) FB) in B. rewrite (proj1 zero64_ok) in B. split; [exact FB|split; [exact B|exact LE]]. }
    assert (SR : StronglySorted (fun a b => f64R a <= f64R b) raw) by (apply sorted_filter, back_sorted; [exact DF|apply sorted_firstn, S]).
    assert (ZF : forall l, Forall (fun b => finite b /\ 0 < f64R b <= f64R e) l -> Forall (fun b => f64R zero64 <= f64R b) l) by (intros l K; eapply Forall_impl; [|exact K]; cbv beta; intros b [_ K']; rewrite (proj1 zero64_ok); lra).
    assert (OUT : forall l, Forall (fun b => finite b /\ 0 < f64R b <= f64R e) l -> Forall (fun b => finite b /\ f64R b <= f64R e) l) by (intros l K; eapply Forall_impl; [|exact K]; cbv beta; intros b [K1 K2]; split; [exact K1|lra]).
    assert (PUSH : Forall (fun b => finite b /\ f64R b <= f64R e) (raw ++ [e]) /\ StronglySorted (fun a b => f64R a <= f64R b) (zero64 :: raw ++ [e]) /\ Rabs (f64R (last (raw ++ [e]) zero64) - f64R e) <= 1001 / 10 ^ 15).
    { assert (GE : Forall (fun b => finite b /\ 0 < f64R b <= f64R e) (raw ++ [e])) by (apply Forall_app; split; [exact GR|constructor; [split; [exact Fe|lra]|constructor]]). split; [apply OUT, GE|]. split; [constructor; [|apply ZF, GE]; apply sorted_snoc; [exact SR|]; eapply Forall_impl; [|exact GR]; cbv beta; intros b [_ K]; lra|]. rewrite last_last, Rminus_diag_eq, Rabs_R0 by reflexivity. cbn [pow]. lra. }
    destruct (rev raw) as [|t r] eqn:ER; [inversion H; subst; exact PUSH|]. destruct (Bltb lit_12 (fabs (fsub t e))) eqn:EM; [inversion H; subst; exact PUSH|]. inversion H; subst bs. split; [apply OUT, GR|]. split; [constructor; [exact SR|apply ZF, GR]|].
    assert (EL : raw = rev r ++ [t]) by (rewrite <- (rev_involutive raw), ER; reflexivity). rewrite EL, last_last. rewrite EL in GR. apply Forall_app in GR. destruct GR as [_ GR]. inversion GR as [|? ? [FT HT] _]; subst.
    destruct (fsub_ok t e 1099511627776 FT Fe ltac:(lia)) as [V FS]; [apply Rabs_le; lra|]. destruct (fabs_ok _ FS) as [FA VA]. destruct lit_12_ok as (FL & _ & L2). apply (lt_false _ _ FL FA) in EM. rewrite VA, V in EM. apply near_small. lra.
  Qed.
End Cover.

(** Whatever the spacing of the dates, the segments lie end to end from zero to the expiry. *)
Theorem C102_cover n dates e segs : tenor64 dates -> finite e -> 0 < f64R e <= 1099511627776 -> build_segments64 n dates e = Ok segs -> laid (f64R e) 0 segs.
Proof.
  intros D Fe He H. unfold build_segments64 in H. destruct (tau_boundaries64 dates n e) as [bs| |] eqn:E; try discriminate. cbn [obind] in H. inversion H; subst segs. destruct (boundaries_ok e Fe He dates n bs D E) as (G & S & L).
  rewrite <- (proj1 zero64_ok). apply laid_segments; [exact He|apply zero64_ok|rewrite (proj1 zero64_ok); lra|exact S|exact G|exact L].
Qed.
Print Assumptions C102_cover.

Section Index.
  Context (e : f64) (Fe : finite e) (He : / 1048576 <= f64R e <= 1024).
  Lemma err_11 x : Rabs x <= 2048 -> Rabs (rnd x - x) <= / 8796093022208.
  Proof. intros H. exact (rnd_error x 11 ltac:(lia) H). Qed.
  (** One step back, from a date [D] to a date [d]. *)
  Lemma step_ok prev tau D d : finite prev -> finite tau -> Rabs (f64R prev - (f64R e - D)) <= / 8796093022208 -> Rabs (f64R tau - (f64R e - d)) <= / 8796093022208 -> 0 <= d -> d + / 1048576 <= D <= f64R e ->
    Bleb (fsub tau prev) zero64 = false /\ finite (fsub e (fmul half64 (fadd prev tau))) /\ d < f64R (fsub e (fmul half64 (fadd prev tau))) <= D.
  Proof.
    intros FP FT HP HT H0 HD. apply Rabs_le_inv in HP, HT. assert (U : / 8796093022208 <= / 8000000000000) by lra. assert (U' : / 1048576 > 0) by lra.
    destruct (fsub_ok tau prev 2048 FT FP ltac:(lia)) as [VL FL]; [apply Rabs_le; lra|].
    destruct (fadd_ok prev tau 4096 FP FT ltac:(lia)) as [VA FA]; [apply Rabs_le; lra|]. assert (RA : Rabs (f64R prev + f64R tau) <= 2048) by (apply Rabs_le; lra). pose proof (err_11 _ RA) as EA. rewrite <- VA in EA. apply Rabs_le_inv in EA.
    destruct half64_ok as [VH FH]. destruct (fmul_ok half64 (fadd prev tau) 4096 FH FA ltac:(lia)) as [VM FM]; [rewrite VH; apply Rabs_le; lra|]. assert (RM : Rabs (f64R half64 * f64R (fadd prev tau)) <= 2048) by (rewrite VH; apply Rabs_le; lra). pose proof (err_11 _ RM) as EM. rewrite <- VM, VH in EM. apply Rabs_le_inv in EM.
    destruct (fsub_ok e (fmul half64 (fadd prev tau)) 4096 Fe FM ltac:(lia)) as [VS FS]; [apply Rabs_le; lra|]. assert (RS : Rabs (f64R e - f64R (fmul half64 (fadd prev tau))) <= 2048) by (apply Rabs_le; lra). pose proof (err_11 _ RS) as ES. rewrite <- VS in ES. apply Rabs_le_inv in ES.
    split; [|split; [exact FS|lra]]. destruct (Bleb (fsub tau prev) zero64) eqn:E; [|reflexivity]. exfalso. apply (Bleb_R _ _ FL (proj2 zero64_ok)) in E. rewrite VL, (proj1 zero64_ok) in E. pose proof (rnd_sub_pos tau prev ltac:(lra)). lra.
  Qed.
  Lemma back_near d : finite d -> 0 <= f64R d <= f64R e -> finite (fsub e d) /\ Rabs (f64R (fsub e d) - (f64R e - f64R d)) <= / 8796093022208.
  Proof. intros F H. destruct (fsub_ok e d 2048 Fe F ltac:(lia)) as [V G]; [apply Rabs_le; lra|]. split; [exact G|]. rewrite V. apply err_11. apply Rabs_le. lra. Qed.
  Lemma alive n : forall A k x r t, finite t -> Forall finite (A ++ [x]) -> Forall (fun a => f64R a < f64R t) A -> (f64R t <= f64R x \/ r = [] /\ n = (k + length A)%nat) -> first_alive64 n k (A ++ x :: r) t = (k + length A)%nat.
  Proof.
    induction A as [|a A IH]; intros k x r t Ft F L H; inversion F as [|? ? Fa F']; subst; cbn [app first_alive64].
    - cbn [length] in *. destruct (Bleb t x) eqn:E; [lia|]. destruct H as [H|[-> ->]]; [apply (Bleb_R _ _ Ft Fa) in H; congruence|]. reflexivity.
    - inversion L as [|? ? La L']; subst. destruct (Bleb t a) eqn:E; [apply (Bleb_R _ _ Ft Fa) in E; lra|]. rewrite (IH (S k) x r t Ft F' L'); [cbn [length]; lia|]. destruct H as [H|[H1 H2]]; [left; exact H|right; split; [exact H1|cbn [length] in *; lia]].
  Qed.
  Definition early (d : f64) : Prop := finite d /\ 0 <= f64R d.
  Lemma walk n dates tail : forall lo x r prev D, dates = lo ++ x :: r -> Forall early (lo ++ [x]) -> StronglySorted (fun a b => f64R a + / 1048576 <= f64R b) lo -> Forall (fun a => f64R a + / 1048576 <= D) lo -> D <= f64R e -> (D <= f64R x \/ r = [] /\ n = length lo) ->
    finite prev -> Rabs (f64R prev - (f64R e - D)) <= / 8796093022208 ->
    exists segs prev', segments64 n dates e prev (map (fun d => fsub e d) (rev lo) ++ tail) = segs ++ segments64 n dates e prev' tail /\ map start64 segs = rev (seq 2 (length lo)) /\ map tau64 segs = map (fun d => fsub e d) (rev lo) /\
      finite prev' /\ Rabs (f64R prev' - (f64R e - match lo with [] => D | d :: _ => f64R d end)) <= / 8796093022208.
  Proof.
    induction lo as [|d lo IH] using rev_ind; intros x r prev D ED EA SS LD DE NX FP HP.
    - exists [], prev. cbn. repeat split; assumption.
    - apply Forall_app in LD. destruct LD as [LD LD']. inversion LD' as [|? ? Ld _]; subst. rewrite <- app_assoc in EA. apply Forall_app in EA. destruct EA as [EA EA']. inversion EA' as [|? ? [Fd Hd] EX]; subst. inversion EX as [|? ? [Fx Hx] _]; subst.
      assert (SL : StronglySorted (fun a b => f64R a + / 1048576 <= f64R b) lo /\ Forall (fun a => f64R a + / 1048576 <= f64R d) lo).
      { clear -SS. induction lo as [|a lo IH]; [split; constructor|]. inversion SS as [|? ? S' F]; subst. destruct (IH S') as [I1 I2]. apply Forall_app in F. destruct F as [F1 F2]. inversion F2; subst. split; constructor; assumption. }
      destruct SL as [SL LO]. destruct (back_near d Fd ltac:(lra)) as [FB HB].
      destruct (step_ok prev (fsub e d) D (f64R d) FP FB HP HB Hd ltac:(lra)) as (NS & FM & [M1 M2]).
      rewrite rev_app_distr. cbn [rev app map]. cbn [segments64]. cbv zeta. rewrite NS.
      assert (IDX : m64 n ((lo ++ [d]) ++ x :: r) (fsub e (fmul half64 (fadd prev (fsub e d)))) = length (lo ++ [d])).
      { unfold m64. rewrite alive; [reflexivity|exact FM| | |].
        - rewrite <- app_assoc. apply Forall_app. split; [eapply Forall_impl; [|exact EA]; intros a [K _]; exact K|]. constructor; [exact Fd|constructor; [exact Fx|constructor]].
        - apply Forall_app. split; [eapply Forall_impl; [|exact LO]; cbv beta; intros a K; lra|constructor; [exact M1|constructor]].
        - destruct NX as [NX|NX]; [left; lra|right; exact NX]. }
      rewrite IDX. destruct (IH d (x :: r) (fsub e d) (f64R d)) as (segs & prev' & E1 & E2 & E3 & E4 & E5); [rewrite <- app_assoc; reflexivity|apply Forall_app; split; [exact EA|constructor; [split; assumption|constructor]]|exact SL|exact LO|lra|left; lra|exact FB|exact HB|].
      rewrite E1. exists ({| tau64 := fsub e d; length64 := fsub (fsub e d) prev; start64 := length (lo ++ [d]) + 1 |} :: segs), prev'. split; [reflexivity|]. split; [|split; [|split; [exact E4|]]].
      + cbn [map start64]. rewrite E2, app_length. cbn [length]. replace (length lo + 1)%nat with (S (length lo)) by lia. rewrite seq_S, rev_app_distr. cbn [rev app]. f_equal. lia.
      + cbn [map tau64]. rewrite E3. reflexivity.
      + destruct lo; exact E5.
  Qed.
End Index.

(** The dates before the expiry [e] are at least 2^-20 years, half a minute, before it and apart; the first of all is
    today or as far ahead. *)
Definition spaced (e : f64) (lo hi : list f64) : Prop :=
  Forall (fun d => finite d /\ 0 <= f64R d /\ f64R d + / 1048576 <= f64R e) lo /\ Forall (fun d => finite d /\ f64R e <= f64R d <= 1099511627776) hi /\
  StronglySorted (fun a b => f64R a + / 1048576 <= f64R b) lo.
Lemma filter_all {A} (f : A -> bool) l : Forall (fun a => f a = true) l -> filter f l = l.
Proof. induction 1 as [|a l H F IH]; [reflexivity|]. cbn [filter]. rewrite H, IH. reflexivity. Qed.
Lemma filter_none {A} (f : A -> bool) l : Forall (fun a => f a = false) l -> filter f l = [].
Proof. induction 1 as [|a l H F IH]; [reflexivity|]. cbn [filter]. rewrite H, IH. reflexivity. Qed.

(** Then there is a segment for each of them, and one more up to today if the first lies
    ahead: with the rounded boundaries that exact arithmetic has, and with the index of the
    first rate alive that exact arithmetic finds. *)
Theorem C102_index n dates e lo hi final : (0 < n)%nat -> dates = (lo ++ hi) ++ [final] -> n = length (lo ++ hi) -> finite final -> 0 <= f64R final -> finite e -> / 1048576 <= f64R e <= 1024 -> spaced e lo hi ->
  exists segs, build_segments64 n dates e = Ok segs /\
    ((exists d lo', lo = d :: lo' /\ f64R d = 0) -> map start64 segs = rev (seq 2 (length lo)) /\ map tau64 segs = map (fun d => fsub e d) (rev lo)) /\
    ((lo = [] \/ exists d lo', lo = d :: lo' /\ / 1048576 <= f64R d) -> map start64 segs = rev (seq 1 (S (length lo))) /\ map tau64 segs = map (fun d => fsub e d) (rev lo) ++ [e]).
Proof.
  intros N ED EN FF HF Fe He (LO & HI & SL). unfold build_segments64, tau_boundaries64. destruct (Nat.eqb_spec n 0) as [E|_]; [lia|]. cbv zeta.
  assert (FN : firstn n dates = lo ++ hi) by (rewrite ED, EN, firstn_app, firstn_all, Nat.sub_diag; cbn [firstn]; apply app_nil_r). rewrite FN. destruct zero64_ok as [V0 F0]. destruct lit_12_ok as (FL & L1 & L2). cbn [pow] in L1, L2.
  destruct (fadd_ok e lit_12 2048 Fe FL ltac:(lia)) as [VS FS]; [apply Rabs_le; lra|]. pose proof (err_11 (f64R e + f64R lit_12) ltac:(apply Rabs_le; lra)) as ES. rewrite <- VS in ES. apply Rabs_le_inv in ES.
  assert (BACK : forall d, In d lo -> finite (fsub e d) /\ f64R (fsub e d) = rnd (f64R e - f64R d) /\ f64R (fsub e d) <= f64R e). { intros d I. rewrite Forall_forall in LO. destruct (LO d I) as (Fd & Hd & Ld). apply back_ok; [exact Fe|lra|exact Fd|lra]. }
  assert (FB : filter (fun tau_b => Bltb zero64 tau_b && Bltb tau_b (fadd e lit_12)) (map (fun d => fsub e d) (rev (lo ++ hi))) = map (fun d => fsub e d) (rev lo)).
  { rewrite rev_app_distr, map_app, filter_app. rewrite filter_none, filter_all; [reflexivity| |].
    - apply Forall_forall. intros b I. apply in_map_iff in I. destruct I as (d & <- & I). apply in_rev in I. destruct (BACK d I) as (F & V & L). rewrite Forall_forall in LO. destruct (LO d I) as (Fd & Hd & Ld). apply andb_true_iff. split; [apply (Bltb_R _ _ F0 F); rewrite V, V0; apply rnd_sub_pos; lra|apply (Bltb_R _ _ F FS); lra].
    - apply Forall_forall. intros b I. apply in_map_iff in I. destruct I as (d & <- & I). apply in_rev in I. rewrite Forall_forall in HI. destruct (HI d I) as (Fd & Hd). destruct (fsub_ok e d 1099511627776 Fe Fd ltac:(lia)) as [V F]; [apply Rabs_le; lra|]. apply andb_false_iff. left. apply (lt_false _ _ F0 F). rewrite V, V0, <- rnd_0. apply rnd_mono. lra. }
  rewrite FB.
  (* the walk over the dates before the expiry *)
  assert (W : forall tail, exists segs prev', segments64 n dates e zero64 (map (fun d => fsub e d) (rev lo) ++ tail) = segs ++ segments64 n dates e prev' tail /\ map start64 segs = rev (seq 2 (length lo)) /\ map tau64 segs = map (fun d => fsub e d) (rev lo) /\
      finite prev' /\ Rabs (f64R prev' - (f64R e - match lo with [] => f64R e | d :: _ => f64R d end)) <= / 8796093022208).
  { intros tail. destruct hi as [|h hi].
    - apply (walk e Fe He n dates tail lo final [] zero64 (f64R e)); [rewrite ED, app_nil_r; reflexivity| |exact SL| |lra| |exact F0|rewrite V0; replace (0 - (f64R e - f64R e)) with 0 by ring; rewrite Rabs_R0; lra].
      + apply Forall_app. split; [eapply Forall_impl; [|exact LO]; intros d (K1 & K2 & _); split; assumption|constructor; [split; assumption|constructor]].
      + eapply Forall_impl; [|exact LO]. intros d (_ & _ & K). exact K.
      + right. split; [reflexivity|]. rewrite app_nil_r in EN. exact EN.
    - pose proof (Forall_inv HI) as [Fh Hh]. apply (walk e Fe He n dates tail lo h (hi ++ [final]) zero64 (f64R e)); [rewrite ED, <- app_assoc; reflexivity| |exact SL| |lra|left; lra|exact F0|rewrite V0; replace (0 - (f64R e - f64R e)) with 0 by ring; rewrite Rabs_R0; lra].
      + apply Forall_app. split; [eapply Forall_impl; [|exact LO]; intros d (K1 & K2 & _); split; assumption|constructor; [split; [exact Fh|lra]|constructor]].
      + eapply Forall_impl; [|exact LO]. intros d (_ & _ & K). exact K. }
  (* the last segment *)
  assert (LAST : (lo = [] \/ exists d lo', lo = d :: lo' /\ / 1048576 <= f64R d) -> forall prev', finite prev' -> Rabs (f64R prev' - (f64R e - match lo with [] => f64R e | d :: _ => f64R d end)) <= / 8796093022208 -> map start64 (segments64 n dates e prev' [e]) = [1%nat] /\ map tau64 (segments64 n dates e prev' [e]) = [e]).
  { intros C prev' FP HP. set (D := match lo with [] => f64R e | d :: _ => f64R d end) in *.
    assert (X : exists x r, dates = x :: r /\ finite x /\ D <= f64R x). { destruct lo as [|d lo']; [destruct hi as [|h hi]; [cbn in EN; lia|]; inversion HI as [|? ? [Fh Hh] _]; subst; exists h, (hi ++ [final]); split; [reflexivity|]; split; [exact Fh|apply Hh]|]. exists d, ((lo' ++ hi) ++ [final]). rewrite ED. split; [reflexivity|]. inversion LO as [|? ? (Fd & _) _]; subst. split; [exact Fd|unfold D; lra]. }
    destruct X as (x & r & EX & Fx & DX). assert (DR : / 1048576 <= D <= f64R e). { unfold D. destruct C as [->|(d & lo' & -> & Hd)]; [lra|]. inversion LO as [|? ? (_ & _ & K) _]; subst. lra. }
    destruct (step_ok e Fe He prev' e D 0 FP Fe HP ltac:(replace (f64R e - (f64R e - 0)) with 0 by ring; rewrite Rabs_R0; lra) ltac:(lra) ltac:(lra)) as (NS & FM & M1 & M2).
    cbn [segments64]. cbv zeta. rewrite NS. cbn [map start64 tau64]. rewrite EX. unfold m64. cbn [first_alive64]. assert (B : Bleb (fsub e (fmul half64 (fadd prev' e))) x = true) by (apply (Bleb_R _ _ FM Fx); lra). rewrite B. split; reflexivity. }
  set (missing := match rev (map (fun d => fsub e d) (rev lo)) with [] => true | t :: _ => Bltb lit_12 (fabs (fsub t e)) end).
  assert (MISS : match lo with [] => missing = true | d :: _ => (f64R d = 0 -> missing = false) /\ (/ 1048576 <= f64R d -> missing = true) end).
  { unfold missing. rewrite <- map_rev, rev_involutive. destruct lo as [|d lo']; [reflexivity|]. cbn [map]. destruct (BACK d (or_introl eq_refl)) as (F & V & L). inversion LO as [|? ? (Fd & Hd & Ld) _]; subst.
    destruct (back_near e Fe He d Fd ltac:(lra)) as [_ NB]. apply Rabs_le_inv in NB.
    destruct (fsub_ok (fsub e d) e 4096 F Fe ltac:(lia)) as [V2 F2]; [apply Rabs_le; lra|]. destruct (fabs_ok _ F2) as [FA VA]. rewrite V2 in VA. pose proof (err_11 (f64R (fsub e d) - f64R e) ltac:(apply Rabs_le; lra)) as E2. apply Rabs_le_inv in E2. split; intros K.
    - apply (lt_false _ _ FL FA). rewrite VA, V, K, Rminus_0_r, (rnd_id _ (format64 e)), Rminus_diag_eq, rnd_0, Rabs_R0 by reflexivity. lra.
    - apply (Bltb_R _ _ FL FA). rewrite VA. assert (K2 : rnd (f64R (fsub e d) - f64R e) <= - / 2000000) by lra. rewrite Rabs_left1 by lra. lra. }
  exists (segments64 n dates e zero64 (if missing then map (fun d => fsub e d) (rev lo) ++ [e] else map (fun d => fsub e d) (rev lo))). split; [reflexivity|]. split.
  - intros (d & lo' & EL & Hd). assert (M0 : missing = false) by (rewrite EL in MISS; apply MISS, Hd). rewrite M0. destruct (W []) as (segs & prev' & E1 & E2 & E3 & _). rewrite app_nil_r in E1. rewrite E1. cbn [segments64]. rewrite app_nil_r. split; assumption.
  - intros C. assert (M1 : missing = true) by (destruct C as [->|(d & lo' & EL & Hd)]; [exact MISS|rewrite EL in MISS; apply MISS, Hd]). rewrite M1. destruct (W [e]) as (segs & prev' & E1 & E2 & E3 & E4 & E5). destruct (LAST C prev' E4 E5) as [S1 T1]. rewrite E1, !map_app, S1, T1, E2, E3. split; [|reflexivity]. cbn [seq rev]. reflexivity.
Qed.
Print Assumptions C102_index.

(** Without the spacing the index can be the wrong one: with an expiry one unit in the last
    place after a tenor date, the middle of the sliver between them rounds onto the date, and
    the sliver is given the rate that has just been fixed. *)
Theorem C102_adjacent_refuted : let e := f64_lit 4503599627370497 (-52) in let dates := [zero64; one64; two64] in
  tenor64 dates /\ finite e /\ f64R one64 < (f64R one64 + f64R e) / 2 < f64R two64 /\
  exists segs, build_segments64 2 dates e = Ok segs /\ map start64 segs = [2%nat; 2%nat].
Proof.
  cbv zeta. set (e := f64_lit 4503599627370497 (-52)). destruct zero64_ok as [V0 F0], one64_ok as [V1 F1]. destruct (f64_of_Z_ok 2 ltac:(lia)) as [V2 F2]. fold two64 in V2, F2.
  assert (P : bpow radix2 (-52) = / 4503599627370496) by reflexivity. destruct (lit_ok 4503599627370497 (-52) 2) as [VE FE]; [reflexivity|lia|lia|rewrite P, Rabs_pos_eq; lra|]. fold e in VE, FE. rewrite P in VE.
  split; [|split; [exact FE|]]; [|split; [lra|]].
  - split; [repeat constructor; try assumption; try rewrite V0; try rewrite V1; try rewrite V2; lra|repeat constructor; try rewrite V0; try rewrite V1; try rewrite V2; lra].
  - assert (K : match build_segments64 2 [zero64; one64; two64] e with Ok segs => map start64 segs | _ => [] end = [2%nat; 2%nat]) by (vm_compute; reflexivity).
    destruct (build_segments64 2 [zero64; one64; two64] e) as [segs| |]; try discriminate K. exists segs. split; [reflexivity|exact K].
Qed.
Print Assumptions C102_adjacent_refuted.

(** A tenor of today, half a year and one year with the expiry at three quarters: the date
    after the expiry is skipped, and the segments have the rates 3 and 2 first alive.  Starting
    the tenor at a quarter of a year adds the segment up to today, with all rates alive. *)
Example C102_witness : let q := f64_lit 3 (-2) in let f := f64_lit 1 (-2) in
  spaced q [zero64; half64] [] /\ tenor64 [zero64; half64; one64] /\ / 1048576 <= f64R q <= 1024 /\
  (exists segs, build_segments64 2 [zero64; half64; one64] q = Ok segs /\ map start64 segs = [3%nat; 2%nat]) /\
  (exists segs, build_segments64 2 [f; half64; one64] q = Ok segs /\ map start64 segs = [3%nat; 2%nat; 1%nat]) /\
  (exists segs, build_segments64 2 [one64; two64; f64_of_Z 3] q = Ok segs /\ map start64 segs = [1%nat]).
Proof.
  cbv zeta. destruct zero64_ok as [V0 F0], one64_ok as [V1 F1], half64_ok as [VH FH]. assert (P : bpow radix2 (-2) = / 4) by reflexivity. destruct (lit_ok 3 (-2) 2) as [VQ FQ]; [reflexivity|lia|lia|rewrite P, Rabs_pos_eq; lra|]. rewrite P in VQ.
  split; [|split; [|split; [rewrite VQ; lra|]]].
  - split; [repeat constructor; try assumption; rewrite ?V0, ?VH, ?VQ; lra|]. split; [constructor|]. repeat constructor; rewrite ?V0, ?VH; lra.
  - split; repeat constructor; try assumption; rewrite ?V0, ?VH, ?V1; lra.
  - assert (G : forall n ds e l, l <> [] -> match build_segments64 n ds e with Ok segs => map start64 segs | _ => [] end = l -> exists segs, build_segments64 n ds e = Ok segs /\ map start64 segs = l) by (intros n ds e l NL K; destruct (build_segments64 n ds e) as [segs| |]; [exists segs; split; [reflexivity|exact K]|congruence|congruence]).
    split; [|split]; (apply G; [discriminate|vm_compute; reflexivity]).
Qed.
