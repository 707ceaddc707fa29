(** The forward characteristic function of the cross-currency forward market model: its quadrature, its segments
    and its value in closed form. *)
From Coq Require Import Bool List Arith Reals Psatz Lia.
Import ListNotations.
From Coquelicot Require Import Coquelicot.
From Verif Require Import Outcome ForwardPoints VolSurface Processes ProcessFacts HullWhite CosPricer Complexes CLog Hhw1Chf HestonFacts Simpson Hhw1Facts P_Hhw1Chf
  Hlmm HlmmFacts SegChf HestonLog Riccati SegFacts SegTheory Hlmm1Facts SegConverge FxFmm Fmm1Chf.
From Verif Require Fmm FmmFacts FxFmmFacts P_Hlmm P_Hlmm1Chf.
Open Scope R_scope.
Global Set Bullet Behavior "Strict Subproofs".

(** * Quadrature of a function known to within an error *)
Lemma part_whole (x y : R) : y <> 0 -> x = x / y * y.
Proof. intros H. field. exact H. Qed.
Lemma simpson_near (g G : R -> R) a b n e : (2 <= n)%nat -> (n mod 2 = 0)%nat -> a < b -> ex_RInt G a b ->
  (forall x y, a <= x <= b -> a <= y <= b -> Rabs (g x - G y) <= e) -> Rabs (simpson g a b n - RInt G a b) <= e * (b - a).
Proof.
  intros N2 NE H EX B. set (c := RInt G a b / (b - a)).
  assert (Q : forall x, a <= x <= b -> c - e <= g x <= c + e).
  { intros x Hx. assert (U : RInt G a b <= (g x + e) * (b - a)).
    { replace ((g x + e) * (b - a)) with (RInt (fun _ => g x + e) a b) by (rewrite RInt_const; unfold scal; cbn; unfold mult; cbn; ring).
      apply RInt_le; [lra|exact EX|apply ex_RInt_const|]. intros y Hy. specialize (B x y Hx ltac:(lra)). apply Rabs_le_between in B. lra. }
    assert (L : (g x - e) * (b - a) <= RInt G a b).
    { replace ((g x - e) * (b - a)) with (RInt (fun _ => g x - e) a b) by (rewrite RInt_const; unfold scal; cbn; unfold mult; cbn; ring).
      apply RInt_le; [lra|apply ex_RInt_const|exact EX|]. intros y Hy. specialize (B x y Hx ltac:(lra)). apply Rabs_le_between in B. lra. }
    assert (E : RInt G a b = c * (b - a)) by (apply part_whole; lra). rewrite E in U, L. apply Rmult_le_reg_r in U; [|lra]. apply Rmult_le_reg_r in L; [|lra]. lra. }
  assert (E : RInt G a b = c * (b - a)) by (apply part_whole; lra). rewrite E.
  pose proof (P_Hlmm1Chf.simpson_ge g a b n (c - e) N2 NE ltac:(lra) ltac:(intros x Hx; apply Q, Hx)) as L1.
  pose proof (P_Hlmm1Chf.simpson_ge (fun x => - g x) a b n (- (c + e)) N2 NE ltac:(lra) ltac:(intros x Hx; destruct (Q x Hx); lra)) as L2.
  assert (M : simpson (fun x => - g x) a b n = - simpson g a b n).
  { unfold simpson, wsum. cbv zeta. rewrite (sum_eq _ (fun k => Hhw1Chf.weight k n * g (a + INR k * ((b - a) / INR n)) * -1)) by (intros; ring). rewrite <- scal_sum. field. apply Rgt_not_eq, lt_0_INR. lia. }
  rewrite M in L2. apply Rabs_le. lra.
Qed.
Lemma simpson_on_near fv T (G : R -> R) n e segs : (2 <= n)%nat -> (n mod 2 = 0)%nat -> forall prev, chain prev segs -> (forall x, prev <= x <= chain_end prev segs -> continuity_pt G x) ->
  (forall s x y, In s segs -> sg_tau s - sg_length s <= x <= sg_tau s -> sg_tau s - sg_length s <= y <= sg_tau s -> Rabs (fv (T - x) (sg_start s) - G y) <= e) ->
  Rabs (simpson_on fv T n prev segs - RInt G prev (chain_end prev segs)) <= e * (chain_end prev segs - prev).
Proof.
  intros N2 NE. induction segs as [|s r IH]; intros prev H Cn B; cbn [chain_end simpson_on].
  - rewrite RInt_point. unfold zero. cbn. rewrite Rminus_0_r, Rabs_R0. lra.
  - destruct H as (L & H & K). pose proof (chain_end_ge _ _ K) as GE. cbn [chain_end] in Cn.
    assert (X0 : ex_RInt G prev (sg_tau s)) by (apply ex_RInt_cont; [lra|intros x Hx; apply Cn; lra]).
    assert (X1 : ex_RInt G (sg_tau s) (chain_end (sg_tau s) r)) by (apply ex_RInt_cont; [lra|intros x Hx; apply Cn; lra]).
    pose proof (IH (sg_tau s) K ltac:(intros x Hx; apply Cn; lra) (fun s' x y Hs => B s' x y (or_intror Hs))) as A1.
    pose proof (simpson_near (fun x => fv (T - x) (sg_start s)) G prev (sg_tau s) n e N2 NE H X0) as A2.
    assert (A3 : Rabs (simpson (fun x => fv (T - x) (sg_start s)) prev (sg_tau s) n - RInt G prev (sg_tau s)) <= e * (sg_tau s - prev)).
    { apply A2. intros x y Hx Hy. apply (B s); [left; reflexivity|lra|lra]. }
    assert (CH : RInt G prev (chain_end (sg_tau s) r) = RInt G prev (sg_tau s) + RInt G (sg_tau s) (chain_end (sg_tau s) r)) by (symmetry; apply (@RInt_Chasles R_CompleteNormedModule); assumption).
    rewrite CH. set (p := simpson _ _ _ _) in *. set (q := simpson_on _ _ _ _ _) in *. replace (p + q - (RInt G prev (sg_tau s) + RInt G (sg_tau s) (chain_end (sg_tau s) r))) with ((p - RInt G prev (sg_tau s)) + (q - RInt G (sg_tau s) (chain_end (sg_tau s) r))) by ring.
    eapply Rle_trans; [apply Rabs_triang|]. lra.
Qed.

(** * The code's covariance *)
Definition phi_of (lg : R -> R) (c : cir_process R_numbers) (t : R) : R := match sqrt_mean lg c t with Ok v => v | _ => 0 end.
Definition f_code (lg : R -> R) (p : fx_fmm) (t : R) (k : nat) : R :=
  FxFmmFacts.f_of p k t (phi_of lg (fm_heston p) t) (phi_of lg (fmm_cir (fm_dom p)) t) (phi_of lg (fmm_cir (fm_for p)) t).
Lemma phi_ok lg c t : 0 < kappa c -> sqrt_mean lg c t = Ok (phi_of lg c t).
Proof. intros H. unfold phi_of. destruct (sqrt_mean_total lg c t H) as [v ->]. reflexivity. Qed.
Lemma f_of_over p k t a b c : (Fmm.m_of (fm_tenor p) < k)%nat -> FxFmmFacts.f_of p k t a b c = 0.
Proof. intros H. unfold FxFmmFacts.f_of, P_Hlmm.form. rewrite from_to_nil by exact H. cbn. ring. Qed.
Definition cached (p : fx_fmm) (q : fmm1_chf) : Prop := psi_base (fm_dom p) (fm_tenor p) = Ok (g_psi_d q) /\ psi_base (fm_for p) (fm_tenor p) = Ok (g_psi_f q).

Lemma side_mixed_ok p s xi k t psi : length (fs_sigmas s) = Fmm.m_of (fm_tenor p) -> length xi = Fmm.m_of (fm_tenor p) -> psi_base s (fm_tenor p) = Ok psi -> (1 <= k)%nat ->
  side_mixed p psi xi k t = Ok (sum_on (from_to k (Fmm.m_of (fm_tenor p))) (fun j => FxFmmFacts.decayed (fm_tenor p) s t j * nth (j - 1) xi 0)).
Proof.
  intros L X E K. rewrite (FxFmmFacts.psi_base_ok s _ L) in E. assert (Ep : psi = map (fun idx => FxFmmFacts.weight (fm_tenor p) s (idx + 1)) (seq 0 (Fmm.m_of (fm_tenor p)))) by congruence. subst psi.
  unfold side_mixed. rewrite (oadd_ok _ (fun j => FxFmmFacts.decayed (fm_tenor p) s t j * nth (j - 1) xi 0)); [rewrite Rplus_0_l; reflexivity|].
  intros j Hj. apply in_from_to in Hj. destruct j as [|j]; [lia|]. cbn [pred_index obind]. rewrite !oindex_ok by (rewrite ?map_length, ?seq_length; lia). cbn [obind].
  rewrite nth_map_seq by lia. replace (Datatypes.S j - 1)%nat with j by lia. unfold FxFmmFacts.decayed. replace (j + 1)%nat with (Datatypes.S j) by lia. reflexivity.
Qed.
Lemma f_at_ok lg p q t k : FxFmmFacts.fmm_ok p -> 0 < kappa (fm_heston p) -> cached p q -> (1 <= k)%nat -> fmm_f_at lg p q t k = Ok (f_code lg p t k).
Proof.
  intros V K (Ed & Ef) K1. pose proof V as ((Ld & _ & Hld & _) & (Lf & _ & Hlf & _) & (_ & Lxd & Lxf & _ & _ & Sc & _)). unfold fmm_f_at, f_code. set (n := Fmm.m_of (fm_tenor p)) in *.
  destruct (Nat.ltb_spec n k) as [H|H]; [rewrite f_of_over by exact H; reflexivity|].
  rewrite (phi_ok lg _ t K). cbn [obind]. rewrite (phi_ok lg (fmm_cir (fm_dom p)) t Hld). cbn [obind]. rewrite (phi_ok lg (fmm_cir (fm_for p)) t Hlf). cbn [obind].
  rewrite (side_mixed_ok p (fm_dom p) _ k t _ Ld Lxd Ed K1). cbn [obind]. rewrite (side_mixed_ok p (fm_for p) _ k t _ Lf Lxf Ef K1). cbn [obind]. fold n.
  rewrite (FxFmmFacts.psi_base_ok _ _ Ld) in Ed. rewrite (FxFmmFacts.psi_base_ok _ _ Lf) in Ef. fold n in Ed, Ef.
  assert (Pd : g_psi_d q = map (fun idx => FxFmmFacts.weight (fm_tenor p) (fm_dom p) (idx + 1)) (seq 0 n)) by congruence.
  assert (Pf : g_psi_f q = map (fun idx => FxFmmFacts.weight (fm_tenor p) (fm_for p) (idx + 1)) (seq 0 n)) by congruence. rewrite Pd, Pf. clear Pd Pf Ed Ef.
  rewrite (oadd_ok _ (fun '(j, i) => FxFmmFacts.decayed (fm_tenor p) (fm_dom p) t j * FxFmmFacts.decayed (fm_tenor p) (fm_for p) t i * el (fc_cross (fm_corr p)) (j - 1) (i - 1))).
  2:{ intros [j i] Hjk. apply in_flat_map in Hjk as (j' & Hj & Hjk). apply in_map_iff in Hjk as (i' & E & Hk). injection E as -> ->.
    apply in_from_to in Hj. apply in_from_to in Hk. destruct j as [|j]; [lia|]. destruct i as [|i]; [lia|]. cbn [pred_index obind].
    rewrite !oindex_ok by (rewrite map_length, seq_length; lia). cbn [obind]. rewrite (entry_ok (fc_cross (fm_corr p)) n) by (try exact Sc; lia). cbn [obind]. rewrite !nth_map_seq by lia.
    replace (Datatypes.S j - 1)%nat with j by lia. replace (Datatypes.S i - 1)%nat with i by lia. unfold FxFmmFacts.decayed. replace (j + 1)%nat with (Datatypes.S j) by lia. replace (i + 1)%nat with (Datatypes.S i) by lia. apply f_equal. ring. }
  cbn [obind]. apply f_equal. rewrite sum_on_flat, Rplus_0_l. unfold FxFmmFacts.f_of. fold n.
  assert (E : sum_on (from_to k n) (fun j => sum_on (map (pair j) (from_to k n)) (fun '(j, i) => FxFmmFacts.decayed (fm_tenor p) (fm_dom p) t j * FxFmmFacts.decayed (fm_tenor p) (fm_for p) t i * el (fc_cross (fm_corr p)) (j - 1) (i - 1)))
    = P_Hlmm.form n k (el (fc_cross (fm_corr p))) (FxFmmFacts.decayed (fm_tenor p) (fm_dom p) t) (FxFmmFacts.decayed (fm_tenor p) (fm_for p) t)).
  { unfold P_Hlmm.form. apply sum_on_ext. intros j _. rewrite sum_on_map. reflexivity. }
  rewrite E. ring.
Qed.

(** * The segments *)
Lemma chain_app a : forall prev r, chain prev a -> chain (chain_end prev a) r -> chain prev (a ++ r) /\ chain_end prev (a ++ r) = chain_end (chain_end prev a) r.
Proof. induction a as [|s a IH]; intros prev r H K; cbn [app chain chain_end] in *; [split; [exact K|reflexivity]|]. destruct H as (L & P & H). destruct (IH _ r H K) as [A B]. repeat split; assumption. Qed.
Lemma eta_range te t : (1 <= Fmm.eta te t <= Fmm.m_of te + 1)%nat.
Proof. destruct (FmmFacts.eta_cases te t) as [(A & _)|[A _]]; lia. Qed.

(** the middle of a segment, as a calendar time *)
Definition middle (T : R) (s : segment) : R := T - (sg_tau s - sg_length s / 2).
(** what every segment of a grid up to [h] wide is *)
Definition sampled (p : fx_fmm) (T : R) (s : segment) : Prop :=
  let te := fm_tenor p in
  sg_start s = Fmm.eta te (middle T s) /\ sg_ad s = FxFmmFacts.a_of te (fm_dom p) 1 (middle T s) /\ sg_af s = FxFmmFacts.a_of te (fm_for p) 1 (middle T s).

Lemma chunks_spec p T prev b n : FmmFacts.good_tenor (fm_tenor p) -> FxFmmFacts.fmm_ok p -> (1 <= n)%nat -> prev < b ->
  exists cs, fmm_chunks p T prev b n = Ok cs /\ chain prev cs /\ chain_end prev cs = b /\ forall s, In s cs -> sg_length s = (b - prev) / INR n /\ prev <= sg_tau s - sg_length s /\ sg_tau s <= b /\ sampled p T s.
Proof.
  intros G (Od & Of & _) N1 H. set (h := (b - prev) / INR n). assert (Np : 0 < INR n) by (apply lt_0_INR; lia). assert (Hp : 0 < h) by (apply Rdiv_lt_0_compat; lra). assert (Eb : prev + INR n * h = b) by (unfold h; field; lra).
  set (mid := fun i => T - (prev + INR (i + 1) * h - h / 2)).
  set (g := fun i => {| sg_tau := prev + INR (i + 1) * h; sg_length := h; sg_start := Fmm.eta (fm_tenor p) (mid i); sg_ad := FxFmmFacts.a_of (fm_tenor p) (fm_dom p) 1 (mid i); sg_af := FxFmmFacts.a_of (fm_tenor p) (fm_for p) 1 (mid i) |}).
  exists (map g (seq 0 n)). split; [|split; [|split]].
  - unfold fmm_chunks. fold h. apply omapM_map. intros i Hi. apply in_seq in Hi. cbv zeta.
    assert (Hhi : (if (i + 1 =? n)%nat then b else prev + INR i * h + h) = prev + INR (i + 1) * h).
    { destruct (Nat.eqb_spec (i + 1) n) as [E|E]; [rewrite E; lra|]. rewrite plus_INR. cbn [INR]. ring. }
    rewrite Hhi. replace (T - 1 / 2 * (prev + INR i * h + (prev + INR (i + 1) * h))) with (mid i) by (unfold mid; rewrite plus_INR; cbn [INR]; field).
    pose proof (eta_range (fm_tenor p) (mid i)) as ER. rewrite Nat.min_l by lia.
    unfold fmm_a_d, fmm_a_f. rewrite (FxFmmFacts.a_side_ok _ _ _ _ Od) by lia. cbn [obind]. rewrite (FxFmmFacts.a_side_ok _ _ _ _ Of) by lia. cbn [obind].
    rewrite !(FxFmmFacts.a_of_drop _ _ (Fmm.eta (fm_tenor p) (mid i)) _ G) by (lia || (apply FxFmmFacts.elapsed_eta; lia)).
    apply f_equal. unfold g. f_equal. rewrite plus_INR. cbn [INR]. ring.
  - assert (X : forall r i, (i + r <= n)%nat -> chain (prev + INR i * h) (map g (seq i r))).
    { induction r as [|r IH]; intros i Hi; [exact I|]. cbn [seq map chain]. unfold g at 1 2 3. cbn [sg_length sg_tau]. specialize (IH (Datatypes.S i) ltac:(lia)). replace (i + 1)%nat with (Datatypes.S i) by lia. rewrite S_INR in *. split; [ring|]. split; [lra|].
      unfold g at 1. cbn [sg_tau]. replace (i + 1)%nat with (Datatypes.S i) by lia. rewrite S_INR. exact IH. }
    specialize (X n 0%nat ltac:(lia)). cbn [INR] in X. rewrite Rmult_0_l, Rplus_0_r in X. exact X.
  - assert (X : forall r i, chain_end (prev + INR i * h) (map g (seq i r)) = prev + INR (i + r) * h).
    { induction r as [|r IH]; intros i; [cbn; rewrite Nat.add_0_r; reflexivity|]. cbn [seq map chain_end]. unfold g at 1. cbn [sg_tau]. replace (i + 1)%nat with (Datatypes.S i) by lia. rewrite IH. replace (Datatypes.S i + r)%nat with (i + Datatypes.S r)%nat by lia. reflexivity. }
    specialize (X n 0%nat). cbn [INR] in X. rewrite Rmult_0_l, Rplus_0_r in X. rewrite X. cbn [Nat.add]. exact Eb.
  - intros s Hs. apply in_map_iff in Hs as (i & <- & Hi). apply in_seq in Hi. unfold g at 1 2 3 4. cbn [sg_length sg_tau]. split; [reflexivity|]. split.
    { rewrite plus_INR. cbn [INR]. pose proof (pos_INR i). nra. }
    split. { rewrite <- Eb. assert (INR (i + 1) <= INR n) by (apply le_INR; lia). nra. }
    unfold sampled, middle, g. cbn [sg_start sg_ad sg_af sg_tau sg_length]. fold (mid i). repeat split; reflexivity.
Qed.
Lemma last_cons (b : R) r prev : last (b :: r) prev = last r b.
Proof. destruct r as [|c r]; [reflexivity|]. cbn [last]. revert c. induction r as [|d r IH]; intros c; [reflexivity|]. cbn [last] in *. apply IH. Qed.
Lemma segments_spec p T n : FmmFacts.good_tenor (fm_tenor p) -> FxFmmFacts.fmm_ok p -> (1 <= n)%nat -> forall bs prev, rising prev bs -> 0 <= prev -> (forall b, In b bs -> b <= T) ->
  exists segs, fmm_segments p T n prev bs = Ok segs /\ chain prev segs /\ chain_end prev segs = last bs prev /\
    forall s, In s segs -> sg_length s <= T / INR n /\ prev <= sg_tau s - sg_length s /\ sampled p T s /\ forall b, b <= prev \/ In b bs -> b <= sg_tau s - sg_length s \/ sg_tau s <= b.
Proof.
  intros G O N1. assert (Np : 0 < INR n) by (apply lt_0_INR; lia). induction bs as [|b r IH]; intros prev RI P0 LT; cbn [fmm_segments].
  - exists []. split; [reflexivity|]. split; [exact I|]. split; [reflexivity|]. intros s [].
  - destruct RI as [Hb RI]. destruct (Rle_dec (b - prev) 0) as [Q|_]; [exfalso; lra|]. pose proof (LT b (or_introl eq_refl)) as LB.
    destruct (chunks_spec p T prev b n G O N1 Hb) as (cs & E1 & Ch1 & En1 & S1). destruct (IH b RI ltac:(lra) (fun x Hx => LT x (or_intror Hx))) as (segs & E2 & Ch2 & En2 & S2).
    rewrite E1. cbn [obind]. rewrite E2. cbn [obind]. exists (cs ++ segs). split; [reflexivity|]. destruct (chain_app cs prev segs Ch1 ltac:(rewrite En1; exact Ch2)) as [A B]. split; [exact A|]. split; [rewrite B, En1, En2, last_cons; reflexivity|].
    intros s Hs. apply in_app_iff in Hs as [Hs|Hs].
    + destruct (S1 s Hs) as (L1 & L2 & L3 & L4). split; [rewrite L1; apply Rmult_le_compat_r; [left; apply Rinv_0_lt_compat, Np|lra]|]. split; [exact L2|]. split; [exact L4|].
      intros x [X|[<-|X]]; [left; lra|right; exact L3|]. right. pose proof (rising_above r b x RI X). lra.
    + destruct (S2 s Hs) as (L1 & L2 & L3 & L4). split; [exact L1|]. split; [lra|]. split; [exact L3|]. intros x [X|[<-|X]]; apply L4; [left; lra|left; lra|right; exact X].
Qed.

Definition structured (p : fx_fmm) (T E : R) (n : nat) (segs : list segment) : Prop :=
  chain 0 segs /\ chain_end 0 segs = E /\ 0 < E <= T /\ Rabs (E - T) <= slack /\
  (Fmm.date_at (fm_tenor p) 0 = 0 \/ slack < Fmm.date_at (fm_tenor p) 0 -> E = T) /\
  forall s, In s segs -> sg_length s <= T / INR n /\ 0 <= sg_tau s - sg_length s /\ sampled p T s /\
    forall k, (k < Fmm.m_of (fm_tenor p))%nat -> T - Fmm.date_at (fm_tenor p) k <= sg_tau s - sg_length s \/ sg_tau s <= T - Fmm.date_at (fm_tenor p) k.
Lemma structure p T n : FmmFacts.good_tenor (fm_tenor p) -> FxFmmFacts.fmm_ok p -> (1 <= n)%nat -> 0 < T ->
  exists bs segs E, tau_boundaries (Fmm.dates (fm_tenor p)) (Fmm.m_of (fm_tenor p)) T = Ok bs /\ fmm_segments p T n 0 bs = Ok segs /\ structured p T E n segs.
Proof.
  intros G O N1 HT. pose proof G as (M1 & L & Z & _).
  destruct (boundaries_spec (Fmm.dates (fm_tenor p)) (Fmm.m_of (fm_tenor p)) T M1 ltac:(lia) Z ltac:(intros i j H; apply (FmmFacts.dates_lt _ G); lia) HT) as (bs & EB & RI & NE & LE & AL & ON & LA & LX).
  destruct (segments_spec p T n G O N1 bs 0 RI ltac:(lra) LE) as (segs & ES & Ch & En & Ss).
  assert (P0 : In (last bs 0) bs) by (clear - NE; destruct bs as [|b r]; [contradiction|]; clear NE; revert b; induction r as [|c r IH]; intros b; [left; reflexivity|right; apply (IH c)]).
  exists bs, segs, (last bs 0). split; [exact EB|]. split; [exact ES|]. split; [exact Ch|]. split; [exact En|]. split; [split; [apply (rising_above bs 0); assumption|apply LE, P0]|]. split; [exact LA|]. split; [exact LX|].
  intros s Hs. destruct (Ss s Hs) as (L1 & L2 & L3 & L4). split; [exact L1|]. split; [exact L2|]. split; [exact L3|]. intros k Hk. apply L4.
  destruct (Rlt_le_dec 0 (T - Fmm.date_at (fm_tenor p) k)) as [P|P]; [right; apply AL; assumption|left; exact P].
Qed.
Lemma built p T n N q : FmmFacts.good_tenor (fm_tenor p) -> FxFmmFacts.fmm_ok p -> fmm1_with_resolution p T n N = Ok q ->
  (1 <= n)%nat /\ (2 <= N)%nat /\ (N mod 2 = 0)%nat /\ 0 < T /\ g_expiry q = T /\ g_n q = N /\ g_substeps q = n /\ cached p q /\ exists E, structured p T E n (g_segments q).
Proof.
  intros G O H. unfold fmm1_with_resolution in H. destruct (Rlt_dec 0 T) as [HT|HT]; [|discriminate]. cbn [negb] in H. destruct (Nat.leb_spec 1 n) as [A|A]; [|discriminate]. cbn [negb] in H.
  destruct (Nat.leb_spec 2 N) as [B|B]; [|discriminate]. destruct (Nat.eqb_spec (N mod 2) 0) as [D|D]; [|discriminate]. cbn [andb negb] in H.
  rewrite (proj2 (proj1 (FxFmmFacts.fmm_validate_iff p)) O) in H. cbn [obind] in H.
  destruct (structure p T n G O A HT) as (bs & segs & E & EB & ES & ST). rewrite EB in H. cbn [obind] in H. rewrite ES in H. cbn [obind] in H.
  destruct (psi_base (fm_dom p) (fm_tenor p)) as [pd| |] eqn:Pd; [|discriminate|discriminate]. cbn [obind] in H. destruct (psi_base (fm_for p) (fm_tenor p)) as [pf| |] eqn:Pf; [|discriminate|discriminate]. cbn [obind] in H.
  inversion H. subst q. cbn [g_expiry g_n g_segments g_psi_d g_psi_f g_substeps]. unfold cached. cbn [g_psi_d g_psi_f]. rewrite Pd, Pf. repeat split; try assumption. exists E. exact ST.
Qed.
Lemma built_ok p T n N : FmmFacts.good_tenor (fm_tenor p) -> FxFmmFacts.fmm_ok p -> (1 <= n)%nat -> (2 <= N)%nat -> (N mod 2 = 0)%nat -> 0 < T ->
  exists q, fmm1_with_resolution p T n N = Ok q.
Proof.
  intros G O A B D HT. unfold fmm1_with_resolution. destruct (Rlt_dec 0 T); [|exfalso; lra]. cbn [negb]. rewrite (proj2 (Nat.leb_le 1 n) A), (proj2 (Nat.leb_le 2 N) B), (proj2 (Nat.eqb_eq _ 0) D). cbn [andb negb].
  rewrite (proj2 (proj1 (FxFmmFacts.fmm_validate_iff p)) O). cbn [obind].
  destruct (structure p T n G O A HT) as (bs & segs & E & EB & ES & ST). rewrite EB. cbn [obind]. rewrite ES. cbn [obind]. destruct O as ((Ld & _) & (Lf & _) & _).
  rewrite (FxFmmFacts.psi_base_ok _ _ Ld), (FxFmmFacts.psi_base_ok _ _ Lf). cbn [obind]. eexists. reflexivity.
Qed.

(** * The evaluation *)
Definition components_of (lg : R -> R) (p : fx_fmm) (q : fmm1_chf) (w : C) : seg_components :=
  seg_value (fm_heston p) (fc_xi_sigma (fm_corr p)) (fs_lambda (fm_dom p)) (fs_eta (fm_dom p)) (fs_v0 (fm_dom p)) (fs_lambda (fm_for p)) (fs_eta (fm_for p)) (fs_v0 (fm_for p))
    (f_code lg p) (g_expiry q) (g_segments q) (g_n q) w.
Lemma start_pos p T E n segs s : structured p T E n segs -> In s segs -> (1 <= sg_start s)%nat.
Proof. intros (_ & _ & _ & _ & _ & Ss) Hs. destruct (Ss s Hs) as (_ & _ & (E1 & _) & _). rewrite E1. apply eta_range. Qed.
Lemma components_ok lg p T n N q w : FmmFacts.good_tenor (fm_tenor p) -> FxFmmFacts.fmm_ok p -> 0 < kappa (fm_heston p) -> fmm1_with_resolution p T n N = Ok q ->
  fmm1_components lg p q w = Ok (components_of lg p q w).
Proof.
  intros G O K H. destruct (built p T n N q G O H) as (_ & N2 & _ & _ & _ & EN & _ & CA & E & ST).
  unfold fmm1_components. rewrite (seg_run_value _ _ _ _ _ _ _ _ (fmm_f_at lg p q) (f_code lg p)).
  - rewrite Nat.max_l by lia. reflexivity.
  - intros s t Hs. apply f_at_ok; try assumption. exact (start_pos p T E n _ s ST Hs).
Qed.

Fixpoint discount (te : Fmm.fmm_tenor) (ks : list nat) (acc : R) : R :=
  match ks with [] => acc | k :: ks => discount te ks (acc / (1 + Fmm.tau te k * nth (k - 1) (Fmm.initial_rates te) 0)) end.
Lemma discount_ok p : forall ks acc, (forall k, In k ks -> (1 <= k <= Fmm.m_of (fm_tenor p))%nat) -> rate_discount_loop p ks acc = Ok (discount (fm_tenor p) ks acc).
Proof.
  induction ks as [|k ks IH]; intros acc H; [reflexivity|]. pose proof (H k (or_introl eq_refl)) as Hk. cbn [rate_discount_loop discount].
  destruct k as [|k]; [lia|]. cbn [pred_index obind]. rewrite oindex_ok by (unfold Fmm.m_of in *; lia). cbn [obind]. replace (Datatypes.S k - 1)%nat with k by lia. apply IH. intros j Hj. apply H. right. exact Hj.
Qed.
Definition open_rates (te : Fmm.fmm_tenor) : Prop := forall k, (1 <= k <= Fmm.m_of te)%nat -> 1 + Fmm.tau te k * nth (k - 1) (Fmm.initial_rates te) 0 <> 0.
Lemma discount_neq te : forall ks acc, acc <> 0 -> (forall k, In k ks -> 1 + Fmm.tau te k * nth (k - 1) (Fmm.initial_rates te) 0 <> 0) -> discount te ks acc <> 0.
Proof.
  induction ks as [|k ks IH]; intros acc A H; [exact A|]. cbn [discount]. apply IH; [|intros j Hj; apply H; right; exact Hj].
  apply Rmult_integral_contrapositive_currified; [exact A|]. apply Rinv_neq_0_compat, H. left. reflexivity.
Qed.
Lemma discounts_ok p T : FmmFacts.good_tenor (fm_tenor p) -> exists d, fmm_discounts p T = Ok (d, d) /\ (open_rates (fm_tenor p) -> d <> 0).
Proof.
  intros (M1 & L & _). unfold fmm_discounts. rewrite oindex_ok by lia. cbn [obind]. rewrite discount_ok by (intros k Hk; apply in_from_to in Hk; exact Hk). cbn [obind].
  assert (D : open_rates (fm_tenor p) -> discount (fm_tenor p) (from_to 1 (Fmm.m_of (fm_tenor p))) 1 <> 0).
  { intros H. apply discount_neq; [lra|]. intros k Hk. apply H. apply in_from_to. exact Hk. }
  destruct (Rlt_dec (nth (Fmm.m_of (fm_tenor p)) (Fmm.dates (fm_tenor p)) 0 + slack) T).
  - destruct (Fmm.m_of (fm_tenor p)) as [|i] eqn:EN; [lia|]. cbn [pred_index obind]. rewrite oindex_ok by (unfold Fmm.m_of in EN; lia). cbn [obind]. eexists. split; [reflexivity|].
    intros H. apply Rmult_integral_contrapositive_currified; [apply D, H|]. apply Rgt_not_eq, exp_pos.
  - eexists. split; [reflexivity|exact D].
Qed.
Definition x0_val (p : fx_fmm) (T : R) : R := match fmm_discounts p T with Ok (d, f) => ln (fm_fx0 p * f / d) | _ => 0 end.
Lemma x0_fx p T : FmmFacts.good_tenor (fm_tenor p) -> open_rates (fm_tenor p) -> x0_val p T = ln (fm_fx0 p).
Proof. intros G Q. destruct (discounts_ok p T G) as (d & ED & DN). unfold x0_val. rewrite ED. f_equal. field. apply DN, Q. Qed.
Lemma evaluate_ok lg p T n N q w : FmmFacts.good_tenor (fm_tenor p) -> FxFmmFacts.fmm_ok p -> 0 < kappa (fm_heston p) -> fmm1_with_resolution p T n N = Ok q ->
  fmm1_evaluate lg p q w = Ok (seg_assemble (components_of lg p q w) (x0_val p T) (sigma_0 (fm_heston p)) (fs_v0 (fm_dom p)) (fs_v0 (fm_for p))).
Proof.
  intros G O K H. destruct (discounts_ok p T G) as (d & ED & _). unfold fmm1_evaluate. rewrite (components_ok lg p T n N q w G O K H). cbn [obind].
  destruct (built p T n N q G O H) as (_ & _ & _ & _ & -> & _). unfold x0_val. rewrite ED. reflexivity.
Qed.
