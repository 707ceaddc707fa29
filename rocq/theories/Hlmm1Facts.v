(** Facts on the segments of the FX-HLMM1 characteristic function. *)
From Coq Require Import Bool List Arith Reals Psatz Lia Sorted.
Import ListNotations.
From Coquelicot Require Import Coquelicot.
From Verif Require Import Outcome ForwardPoints VolSurface Processes ProcessFacts HullWhite CosPricer Complexes CLog Hhw1Chf HestonFacts Simpson Hhw1Facts Hlmm HlmmFacts SegChf HestonLog Riccati SegFacts Hlmm1Chf.
Open Scope R_scope.
Global Set Bullet Behavior "Strict Subproofs".

(** * The boundaries *)
Fixpoint rising (prev : R) (bs : list R) : Prop := match bs with [] => True | b :: r => prev < b /\ rising b r end.
Lemma rising_sorted bs : forall prev, StronglySorted Rlt bs -> (forall b, In b bs -> prev < b) -> rising prev bs.
Proof.
  induction bs as [|b r IH]; intros prev S H; cbn; [exact I|]. apply StronglySorted_inv in S as [S F]. split; [apply H; left; reflexivity|].
  apply IH; [exact S|]. intros x Hx. exact (proj1 (Forall_forall _ _) F x Hx).
Qed.
Lemma rising_above bs : forall prev b, rising prev bs -> In b bs -> prev < b.
Proof. induction bs as [|c r IH]; intros prev b H I; [contradiction|]. destruct H as [H G]. destruct I as [<-|I]; [exact H|]. pose proof (IH _ _ G I). lra. Qed.
Lemma sorted_filter (p : R -> bool) l : StronglySorted Rlt l -> StronglySorted Rlt (filter p l).
Proof.
  induction l as [|a l IH]; intros S; cbn; [constructor|]. apply StronglySorted_inv in S as [S F]. destruct (p a); [|apply IH, S]. constructor; [apply IH, S|].
  apply Forall_forall. intros x Hx. apply filter_In in Hx as [Hx _]. exact (proj1 (Forall_forall _ _) F x Hx).
Qed.
Lemma sorted_snoc l b : StronglySorted Rlt l -> (forall x, In x l -> x < b) -> StronglySorted Rlt (l ++ b :: nil).
Proof.
  induction l as [|a l IH]; intros S H; cbn; [constructor; constructor|]. apply StronglySorted_inv in S as [S F]. constructor.
  - apply IH; [exact S|]. intros x Hx. apply H. right. exact Hx.
  - apply Forall_app. split; [exact F|]. constructor; [apply H; left; reflexivity|constructor].
Qed.
Lemma sorted_taus (d : nat -> R) T n : (forall i j, (i < j < n)%nat -> d i < d j) -> StronglySorted Rlt (map (fun k => T - d k) (rev (seq 0 n))).
Proof.
  induction n as [|n IH]; intros H; [constructor|]. rewrite seq_S, rev_app_distr. cbn [rev app map]. constructor.
  - apply IH. intros i j Hij. apply H. lia.
  - apply Forall_forall. intros x Hx. apply in_map_iff in Hx as (k & <- & Hk). apply in_rev in Hk. apply in_seq in Hk. pose proof (H k n ltac:(lia)). cbn [Nat.add]. lra.
Qed.

Lemma boundaries_spec dates n T : (1 <= n)%nat -> (n <= length dates)%nat -> 0 <= nth 0 dates 0 -> (forall i j, (i < j < n)%nat -> nth i dates 0 < nth j dates 0) -> 0 < T ->
  exists bs, tau_boundaries dates n T = Ok bs /\ rising 0 bs /\ bs <> [] /\ (forall b, In b bs -> b <= T) /\
    (forall k, (k < n)%nat -> 0 < T - nth k dates 0 -> In (T - nth k dates 0) bs) /\
    (forall b, In b bs -> b = T \/ exists k, (k < n)%nat /\ b = T - nth k dates 0) /\
    Rabs (last bs 0 - T) <= slack /\ (nth 0 dates 0 = 0 \/ slack < nth 0 dates 0 -> last bs 0 = T).
Proof.
  intros N1 N2 Z M HT. pose proof slack_pos as SP. set (d := fun k => nth k dates 0).
  set (p := fun tau_b => (if Rlt_dec 0 tau_b then true else false) && (if Rlt_dec tau_b (T + slack) then true else false)).
  set (bs0 := filter p (map (fun k => T - d k) (rev (seq 0 n)))).
  assert (E : tau_boundaries dates n T = Ok (if match rev bs0 with [] => true | t :: _ => if Rlt_dec slack (Rabs (t - T)) then true else false end then bs0 ++ T :: nil else bs0)).
  { unfold tau_boundaries. destruct n as [|n']; [lia|]. cbn [pred_index obind]. unfold from_to. rewrite Nat.sub_0_r.
    rewrite (omapM_map _ d). 2:{ intros k Hk. apply in_rev in Hk. apply in_seq in Hk. apply oindex_ok. lia. }
    cbn [obind]. rewrite map_map. reflexivity. }
  assert (D0 : forall k, (k < n)%nat -> d 0%nat <= d k).
  { intros k Hk. destruct k as [|k]; [right; reflexivity|]. left. apply M. lia. }
  assert (IN : forall b, In b bs0 <-> exists k, (k < n)%nat /\ b = T - d k /\ 0 < b).
  { intros b. unfold bs0. rewrite filter_In, in_map_iff. split.
    - intros [(k & <- & Hk) P]. apply in_rev in Hk. apply in_seq in Hk. exists k. split; [lia|]. split; [reflexivity|]. unfold p in P. destruct (Rlt_dec 0 (T - d k)); [assumption|discriminate].
    - intros (k & Hk & -> & P). split; [exists k; split; [reflexivity|]; apply -> in_rev; apply in_seq; lia|]. unfold p. destruct (Rlt_dec 0 (T - d k)); [|exfalso; lra].
      pose proof (D0 k Hk). unfold d in *. destruct (Rlt_dec (T - nth k dates 0) (T + slack)); [reflexivity|exfalso; lra]. }
  assert (SO : StronglySorted Rlt bs0) by (apply sorted_filter, sorted_taus; exact M).
  assert (LE : forall b, In b bs0 -> 0 < b <= T - d 0%nat).
  { intros b Hb. apply IN in Hb as (k & Hk & -> & P). pose proof (D0 k Hk). lra. }
  destruct (Rlt_le_dec (d 0%nat) T) as [H0|H0].
  - assert (EB : exists X, bs0 = X ++ (T - d 0%nat) :: nil).
    { unfold bs0. destruct n as [|n']; [lia|]. cbn [seq rev]. rewrite map_app, filter_app. cbn [map filter]. eexists. f_equal.
      unfold p. destruct (Rlt_dec 0 (T - d 0%nat)); [|exfalso; lra]. unfold d in *. destruct (Rlt_dec (T - nth 0 dates 0) (T + slack)); [reflexivity|exfalso; lra]. }
    destruct EB as [X EB]. rewrite EB in E at 1. rewrite rev_app_distr in E. cbn [rev app] in E.
    assert (ER : Rabs (T - d 0%nat - T) = d 0%nat). { replace (T - d 0%nat - T) with (- d 0%nat) by ring. rewrite Rabs_Ropp. apply Rabs_pos_eq. exact Z. }
    rewrite ER in E. destruct (Rlt_dec slack (d 0%nat)) as [Q|Q].
    + exists (bs0 ++ T :: nil). split; [exact E|]. split.
      { apply rising_sorted; [apply sorted_snoc; [exact SO|]; intros x Hx; pose proof (LE x Hx); lra|]. intros b Hb. apply in_app_iff in Hb as [Hb|[<-|[]]]; [apply LE, Hb|exact HT]. }
      split; [destruct bs0; discriminate|]. split.
      { intros b Hb. apply in_app_iff in Hb as [Hb|[<-|[]]]; [pose proof (LE b Hb); unfold d in *; lra|lra]. }
      split; [intros k Hk P; apply in_app_iff; left; apply IN; exists k; repeat split; assumption|]. split.
      { intros b Hb. apply in_app_iff in Hb as [Hb|[<-|[]]]; [right; apply IN in Hb as (k & Hk & -> & _); exists k; split; [exact Hk|reflexivity]|left; reflexivity]. }
      rewrite last_last. split; [|reflexivity]. replace (T - T) with 0 by ring. rewrite Rabs_R0. lra.
    + exists bs0. split; [exact E|]. split; [apply rising_sorted; [exact SO|intros b Hb; apply LE, Hb]|]. split; [rewrite EB; destruct X; discriminate|]. split.
      { intros b Hb. pose proof (LE b Hb). unfold d in *. lra. }
      split; [intros k Hk P; apply IN; exists k; repeat split; assumption|]. split.
      { intros b Hb. right. apply IN in Hb as (k & Hk & -> & _). exists k. split; [exact Hk|reflexivity]. }
      rewrite EB, last_last, ER. split; [lra|]. intros [C|C]; [change (nth 0 dates 0) with (d 0%nat) in C; lra|contradiction].
  - assert (EB : bs0 = []). { destruct bs0 as [|b r]; [reflexivity|]. pose proof (LE b (or_introl eq_refl)). lra. }
    rewrite EB in E. cbn [rev app] in E. exists (T :: nil). split; [exact E|]. split; [split; [exact HT|exact I]|]. split; [discriminate|]. split; [intros b [<-|[]]; lra|].
    split; [intros k Hk P; exfalso; pose proof (D0 k Hk); unfold d in *; lra|]. split; [intros b [<-|[]]; left; reflexivity|]. cbn [last].
    split; [|reflexivity]. replace (T - T) with 0 by ring. rewrite Rabs_R0. lra.
Qed.
Lemma boundaries_none dates T : tau_boundaries dates 0 T = Panic PArith.
Proof. reflexivity. Qed.

(** * The segments *)
Lemma m_same te t t' : good te -> (forall k, (k < lt_n te)%nat -> (t <= date_k te k <-> t' <= date_k te k)) -> lt_m te t = lt_m te t'.
Proof.
  intros G H. destruct (m_spec te t' G) as (A & B & D). apply m_unique; [exact G|exact A| |].
  - intros i Hi. pose proof (B i Hi) as Q. destruct (Rlt_le_dec (date_k te i) t) as [|L]; [assumption|]. apply (H i ltac:(lia)) in L. lra.
  - destruct (Nat.eq_dec (lt_m te t') (lt_n te)) as [E|N]; [right; exact E|]. left. destruct D as [D|[D _]]; [|contradiction]. apply (H (lt_m te t') ltac:(lia)). exact D.
Qed.

Definition ad_val (p : hlmm) (s : nat) : R := match hlmm_a_d p s with Ok v => v | _ => 0 end.
Definition af_val (p : hlmm) (s : nat) : R := match hlmm_a_f p s with Ok v => v | _ => 0 end.
Definition f_val (lg : R -> R) (p : hlmm) (t : R) (s : nat) : R := match hlmm_f lg p t s with Ok v => v | _ => 0 end.

Lemma side_total l te s : good te -> lmm_ok l (lt_n te) -> (1 <= s)%nat -> exists v, hlmm_a_side l te s = Ok v.
Proof.
  intros G (L & _ & (Sq & _) & _) H. unfold hlmm_a_side. rewrite (psi_ok te l G L). cbn [obind]. rewrite quadratic_ok; [eexists; reflexivity|rewrite map_length, seq_length; reflexivity|exact Sq|exact H].
Qed.
Lemma ad_ok p s : good (hl_tenor p) -> hlmm_ok p -> (1 <= s)%nat -> hlmm_a_d p s = Ok (ad_val p s).
Proof. intros G (O & _) H. unfold ad_val. destruct (side_total (hl_dom p) (hl_tenor p) s G O H) as [v E]. unfold hlmm_a_d. rewrite E. reflexivity. Qed.
Lemma af_ok p s : good (hl_tenor p) -> hlmm_ok p -> (1 <= s)%nat -> hlmm_a_f p s = Ok (af_val p s).
Proof. intros G (_ & O & _) H. unfold af_val. destruct (side_total (hl_for p) (hl_tenor p) s G O H) as [v E]. unfold hlmm_a_f. rewrite E. reflexivity. Qed.
Lemma f_ok lg p t s : good (hl_tenor p) -> hlmm_ok p -> 0 < kappa (hl_heston p) -> (1 <= s)%nat -> hlmm_f lg p t s = Ok (f_val lg p t s).
Proof.
  intros G (Od & Of & (_ & Lxd & Lxf & Sc & _)) K H. unfold f_val.
  destruct Od as (Ld & _ & _ & Kd & _), Of as (Lf & _ & _ & Kf & _).
  assert (X : exists v, hlmm_f lg p t s = Ok v).
  { unfold hlmm_f. rewrite (psi_ok _ _ G Ld), (psi_ok _ _ G Lf). cbn [obind].
    destruct (sqrt_mean_total lg (hl_heston p) t K) as [a ->]. cbn [obind].
    destruct (sqrt_mean_total lg (side_cir (lm_lambda (hl_dom p)) (lm_eta (hl_dom p)) (lm_v0 (hl_dom p))) t Kd) as [b ->]. cbn [obind].
    destruct (sqrt_mean_total lg (side_cir (lm_lambda (hl_for p)) (lm_eta (hl_for p)) (lm_v0 (hl_for p))) t Kf) as [c ->]. cbn [obind].
    rewrite cross_terms_ok by (rewrite ?map_length, ?seq_length; assumption || reflexivity). eexists. reflexivity. }
  destruct X as [v ->]. reflexivity.
Qed.

Lemma segments_spec p T : good (hl_tenor p) -> hlmm_ok p -> forall bs prev, rising prev bs -> 0 <= prev ->
  (forall k, (k < lt_n (hl_tenor p))%nat -> 0 < T - date_k (hl_tenor p) k -> T - date_k (hl_tenor p) k <= prev \/ In (T - date_k (hl_tenor p) k) bs) ->
  exists segs, hlmm_segments p T prev bs = Ok segs /\ chain prev segs /\ map sg_tau segs = bs /\ chain_end prev segs = last bs prev /\
    (forall s, In s segs -> (1 <= sg_start s)%nat /\ sg_ad s = ad_val p (sg_start s) /\ sg_af s = af_val p (sg_start s)) /\
    (forall tau seg, in_segment prev segs tau seg -> sg_start seg = (lt_m (hl_tenor p) (T - tau) + 1)%nat).
Proof.
  intros G O. induction bs as [|b r IH]; intros prev RI P0 CR; cbn [hlmm_segments].
  - exists []. split; [reflexivity|]. split; [exact I|]. split; [reflexivity|]. split; [reflexivity|]. split; [intros s []|intros tau seg []].
  - destruct RI as [Hb RI]. destruct (Rle_dec (b - prev) 0) as [Q|_]; [exfalso; lra|].
    set (st := (lt_m (hl_tenor p) (T - 1 / 2 * (prev + b)) + 1)%nat). rewrite (ad_ok p st G O ltac:(unfold st; lia)), (af_ok p st G O ltac:(unfold st; lia)). cbn [obind].
    destruct (IH b RI ltac:(lra)) as (segs & E & Ch & Ts & En & Ss & Is).
    { intros k Hk P. destruct (CR k Hk P) as [Q|[Q|Q]]; [left; lra|left; lra|right; exact Q]. }
    rewrite E. cbn [obind]. eexists. split; [reflexivity|]. split; [split; [reflexivity|split; [exact Hb|exact Ch]]|]. cbn [map sg_tau chain_end]. split; [rewrite Ts; reflexivity|]. split.
    { rewrite En. destruct r as [|c r]; [reflexivity|]. cbn [last]. clear. revert c. induction r as [|d r IH]; intros c; [reflexivity|]. cbn [last] in *. apply IH. }
    split.
    + intros s [<-|Hs]; [|apply Ss, Hs]. cbn [sg_start sg_ad sg_af]. split; [unfold st; lia|]. split; reflexivity.
    + intros tau seg [[I ->]|I]; [|apply Is; exact I]. cbn [sg_start sg_tau] in *. unfold st. f_equal. apply m_same; [exact G|]. intros k Hk.
      destruct (Rle_lt_dec (T - date_k (hl_tenor p) k) 0) as [N|N]; [split; lra|]. destruct (CR k Hk N) as [Q|[Q|Q]].
      * split; lra.
      * split; lra.
      * pose proof (rising_above r b _ RI Q). split; lra.
Qed.

Lemma in_segment_exists segs : forall prev tau, chain prev segs -> prev < tau < chain_end prev segs -> (forall s, In s segs -> tau <> sg_tau s) -> exists seg, in_segment prev segs tau seg.
Proof.
  induction segs as [|s r IH]; intros prev tau H R N; cbn [chain_end] in R; [exfalso; lra|]. destruct H as (_ & H & G).
  destruct (Rtotal_order tau (sg_tau s)) as [L|[L|L]].
  - exists s. left. split; [lra|reflexivity].
  - exfalso. apply (N s); [left; reflexivity|exact L].
  - destruct (IH (sg_tau s) tau G ltac:(lra) (fun x Hx => N x (or_intror Hx))) as [seg I]. exists seg. right. exact I.
Qed.
Lemma chain_lengths segs : forall prev, chain prev segs -> sum_on segs sg_length = chain_end prev segs - prev /\ forall s, In s segs -> 0 < sg_length s.
Proof.
  induction segs as [|s r IH]; intros prev H; cbn [chain_end]; [split; [rewrite sum_on_nil; ring|intros s []]|]. destruct H as (L & H & G). destruct (IH _ G) as [A B]. rewrite sum_on_cons, A. split; [lra|].
  intros x [<-|Hx]; [lra|apply B, Hx].
Qed.
Lemma in_segment_bounds segs : forall prev tau seg, chain prev segs -> in_segment prev segs tau seg -> sg_tau seg - sg_length seg < tau < sg_tau seg.
Proof. induction segs as [|s r IH]; intros prev tau seg H I; [contradiction|]. destruct H as (L & H & G). destruct I as [[I ->]|I]; [lra|]. eapply IH; eassumption. Qed.

Definition structured (p : hlmm) (T E : R) (segs : list segment) : Prop :=
  chain 0 segs /\ chain_end 0 segs = E /\ 0 < E <= T /\ Rabs (E - T) <= slack /\
  (date_k (hl_tenor p) 0 = 0 \/ slack < date_k (hl_tenor p) 0 -> E = T) /\
  (forall s, In s segs -> (1 <= sg_start s)%nat /\ sg_ad s = ad_val p (sg_start s) /\ sg_af s = af_val p (sg_start s)) /\
  (forall tau seg, in_segment 0 segs tau seg -> sg_start seg = (lt_m (hl_tenor p) (T - tau) + 1)%nat) /\
  (forall tau, 0 < tau < E -> (forall k, (k < lt_n (hl_tenor p))%nat -> tau <> T - date_k (hl_tenor p) k) -> exists seg, in_segment 0 segs tau seg) /\
  (forall tau seg, in_segment 0 segs tau seg -> forall k, (k < lt_n (hl_tenor p))%nat -> tau <> T - date_k (hl_tenor p) k).

Lemma structure p T : good (hl_tenor p) -> hlmm_ok p -> (1 <= lt_n (hl_tenor p))%nat -> 0 < T ->
  exists bs segs E, tau_boundaries (lt_dates (hl_tenor p)) (lt_n (hl_tenor p)) T = Ok bs /\ hlmm_segments p T 0 bs = Ok segs /\ structured p T E segs.
Proof.
  intros G O N1 HT. pose proof G as (L & Z & M).
  destruct (boundaries_spec (lt_dates (hl_tenor p)) (lt_n (hl_tenor p)) T N1 ltac:(lia) Z ltac:(intros i j H; apply M; lia) HT) as (bs & EB & RI & NE & LE & AL & ON & LA & LX).
  destruct (segments_spec p T G O bs 0 RI ltac:(lra) ltac:(intros k Hk P; right; apply AL; assumption)) as (segs & ES & Ch & Ts & En & Ss & Is).
  assert (P0 : In (last bs 0) bs) by (clear - NE; destruct bs as [|b r]; [contradiction|]; clear NE; revert b; induction r as [|c r IH]; intros b; [left; reflexivity|right; apply (IH c)]).
  exists bs, segs, (last bs 0). split; [exact EB|]. split; [exact ES|]. split; [exact Ch|]. split; [exact En|]. split; [split; [apply (rising_above bs 0); assumption|apply LE, P0]|]. split; [exact LA|]. split; [exact LX|]. split; [exact Ss|]. split; [exact Is|]. split.
  - intros tau Ht Hk. apply in_segment_exists; [exact Ch|rewrite En; exact Ht|]. intros s Hs E.
    assert (B : In (sg_tau s) bs) by (rewrite <- Ts; apply in_map; exact Hs). destruct (ON _ B) as [Q|(k & K1 & Q)].
    + pose proof (LE _ P0). lra.
    + apply (Hk k K1). rewrite E. exact Q.
  - intros tau seg I k K1 E. pose proof (in_segment_range _ _ _ _ Ch I) as [Rg _].
    assert (B : In (T - date_k (hl_tenor p) k) bs) by (apply AL; [exact K1|unfold date_k in *; lra]).
    rewrite <- Ts in B. rewrite <- E in B. clear - Ch I B. revert Ch I B. generalize 0. induction segs as [|s r IH]; intros prev Ch I B; [contradiction|]. destruct Ch as (_ & H & G).
    assert (AB : forall segs prev x, chain prev segs -> In x (map sg_tau segs) -> prev < x).
    { clear. induction segs as [|s r IH]; intros prev x Ch I; [contradiction|]. destruct Ch as (_ & H & G). destruct I as [<-|I]; [exact H|]. pose proof (IH _ _ G I). lra. }
    destruct I as [[I ->]|I]; destruct B as [B|B].
    + lra.
    + pose proof (AB _ _ _ G B). lra.
    + pose proof (in_segment_range _ _ _ _ G I). lra.
    + apply (IH _ G I B).
Qed.
Lemma built p T n q : good (hl_tenor p) -> hlmm_ok p -> (1 <= lt_n (hl_tenor p))%nat -> hlmm1_with_steps p T n = Ok q ->
  (2 <= n)%nat /\ (n mod 2 = 0)%nat /\ 0 < T /\ l_expiry q = T /\ l_n q = n /\ exists E, structured p T E (l_segments q).
Proof.
  intros G O N1 H. unfold hlmm1_with_steps in H. destruct (Nat.leb_spec 2 n) as [A|A]; [|discriminate]. destruct (Nat.eqb_spec (n mod 2) 0) as [B|B]; [|discriminate]. cbn [andb negb] in H.
  destruct (Rlt_dec 0 T) as [HT|HT]; [|discriminate]. cbn [negb] in H. rewrite (proj2 (proj1 (hlmm_validate_iff p)) O) in H. cbn [obind] in H.
  destruct (structure p T G O N1 HT) as (bs & segs & E & EB & ES & ST). rewrite EB in H. cbn [obind] in H. rewrite ES in H. cbn [obind] in H. inversion H. subst q. cbn [l_expiry l_n l_segments].
  repeat split; try assumption. exists E. exact ST.
Qed.
Lemma built_ok p T n : good (hl_tenor p) -> hlmm_ok p -> (1 <= lt_n (hl_tenor p))%nat -> (2 <= n)%nat -> (n mod 2 = 0)%nat -> 0 < T ->
  exists q, hlmm1_with_steps p T n = Ok q.
Proof.
  intros G O N1 A B HT. unfold hlmm1_with_steps. rewrite (proj2 (Nat.leb_le 2 n) A), (proj2 (Nat.eqb_eq _ 0) B). cbn [andb negb].
  destruct (Rlt_dec 0 T); [|exfalso; lra]. cbn [negb]. rewrite (proj2 (proj1 (hlmm_validate_iff p)) O). cbn [obind].
  destruct (structure p T G O N1 HT) as (bs & segs & E & EB & ES & ST). rewrite EB. cbn [obind]. rewrite ES. eexists. reflexivity.
Qed.

(** * The evaluation *)
Definition components_of (lg : R -> R) (p : hlmm) (q : hlmm1_chf) (w : C) : seg_components :=
  let h := hl_heston p in
  {| s_a := (heston_a w (kappa h) (theta h) (gamma h) (xi_sigma (hl_corr p)) (chain_end 0 (l_segments q))
       + side_sum w (lm_lambda (hl_dom p)) (lm_eta (hl_dom p)) (lm_v0 (hl_dom p)) sg_ad (l_segments q) 0
       + side_sum w (lm_lambda (hl_for p)) (lm_eta (hl_for p)) (lm_v0 (hl_for p)) sg_af (l_segments q) 0
       + RtoC (- (1 / 2)) * (w * w + I_ * w) * RtoC (simpson_on (f_val lg p) (l_expiry q) (l_n q) 0 (l_segments q)))%C;
     s_b := (I_ * w)%C; s_c := heston_c w (kappa h) (gamma h) (xi_sigma (hl_corr p)) (l_expiry q);
     s_dd := side_end w (lm_lambda (hl_dom p)) (lm_eta (hl_dom p)) (lm_v0 (hl_dom p)) sg_ad (l_segments q) 0;
     s_df := side_end w (lm_lambda (hl_for p)) (lm_eta (hl_for p)) (lm_v0 (hl_for p)) sg_af (l_segments q) 0 |}.
Lemma components_ok lg p T n q w : good (hl_tenor p) -> hlmm_ok p -> (1 <= lt_n (hl_tenor p))%nat -> 0 < kappa (hl_heston p) -> hlmm1_with_steps p T n = Ok q ->
  hlmm1_components lg p q w = Ok (components_of lg p q w).
Proof.
  intros G O N1 K H. destruct (built p T n q G O N1 H) as (_ & _ & _ & _ & _ & E & ST). destruct ST as (_ & _ & _ & _ & _ & Ss & _).
  unfold hlmm1_components. rewrite (seg_run_value _ _ _ _ _ _ _ _ (hlmm_f lg p) (f_val lg p)); [reflexivity|]. intros s t Hs. apply f_ok; try assumption. apply Ss, Hs.
Qed.

Fixpoint discount (te : libor_tenor) (ks : list nat) (acc : R) : R :=
  match ks with [] => acc | k :: ks => discount te ks (acc / (1 + (date_k te k - date_k te (k - 1)) * nth (k - 1) (libors te) 0)) end.
Lemma discount_ok p : good (hl_tenor p) -> forall ks acc, (forall k, In k ks -> (1 <= k <= lt_n (hl_tenor p))%nat) -> discount_loop p ks acc = Ok (discount (hl_tenor p) ks acc).
Proof.
  intros G. induction ks as [|k ks IH]; intros acc H; [reflexivity|]. pose proof (H k (or_introl eq_refl)) as Hk. cbn [discount_loop discount]. rewrite (tau_ok _ k G Hk). cbn [obind].
  destruct k as [|k]; [lia|]. cbn [pred_index obind]. rewrite oindex_ok by (unfold lt_n in *; lia). cbn [obind]. replace (Datatypes.S k - 1)%nat with k by lia. apply IH. intros j Hj. apply H. right. exact Hj.
Qed.
Lemma discount_neq te : forall ks acc, acc <> 0 -> (forall k, In k ks -> 1 + (date_k te k - date_k te (k - 1)) * nth (k - 1) (libors te) 0 <> 0) -> discount te ks acc <> 0.
Proof.
  induction ks as [|k ks IH]; intros acc A H; [exact A|]. cbn [discount]. apply IH; [|intros j Hj; apply H; right; exact Hj].
  apply Rmult_integral_contrapositive_currified; [exact A|]. apply Rinv_neq_0_compat, H. left. reflexivity.
Qed.
Lemma discounts_ok p T : good (hl_tenor p) -> (1 <= lt_n (hl_tenor p))%nat -> exists d, hlmm_discounts p T = Ok (d, d) /\
  ((forall k, (1 <= k <= lt_n (hl_tenor p))%nat -> 1 + (date_k (hl_tenor p) k - date_k (hl_tenor p) (k - 1)) * nth (k - 1) (libors (hl_tenor p)) 0 <> 0) -> d <> 0).
Proof.
  intros G N1. pose proof G as (L & _ & _). unfold hlmm_discounts. rewrite oindex_ok by lia. cbn [obind]. rewrite (discount_ok p G) by (intros k Hk; apply in_from_to in Hk; exact Hk). cbn [obind].
  assert (D : (forall k, (1 <= k <= lt_n (hl_tenor p))%nat -> 1 + (date_k (hl_tenor p) k - date_k (hl_tenor p) (k - 1)) * nth (k - 1) (libors (hl_tenor p)) 0 <> 0) -> discount (hl_tenor p) (from_to 1 (lt_n (hl_tenor p))) 1 <> 0).
  { intros H. apply discount_neq; [lra|]. intros k Hk. apply H. apply in_from_to. exact Hk. }
  destruct (Rlt_dec (nth (lt_n (hl_tenor p)) (lt_dates (hl_tenor p)) 0 + slack) T).
  - destruct (lt_n (hl_tenor p)) as [|i] eqn:EN; [lia|]. cbn [pred_index obind]. rewrite oindex_ok by (unfold lt_n in EN; lia). cbn [obind]. eexists. split; [reflexivity|].
    intros H. apply Rmult_integral_contrapositive_currified; [apply D, H|]. apply Rgt_not_eq, exp_pos.
  - eexists. split; [reflexivity|exact D].
Qed.
(** the logarithm of the forward the code starts from *)
Definition x0_val (p : hlmm) (T : R) : R := match hlmm_discounts p T with Ok (d, f) => ln (hl_fx0 p * f / d) | _ => 0 end.
Definition open_rates (p : hlmm) : Prop :=
  forall k, (1 <= k <= lt_n (hl_tenor p))%nat -> 1 + (date_k (hl_tenor p) k - date_k (hl_tenor p) (k - 1)) * nth (k - 1) (libors (hl_tenor p)) 0 <> 0.
Lemma x0_fx p T : good (hl_tenor p) -> (1 <= lt_n (hl_tenor p))%nat -> open_rates p -> x0_val p T = ln (hl_fx0 p).
Proof. intros G N1 Q. destruct (discounts_ok p T G N1) as (d & ED & DN). unfold x0_val. rewrite ED. f_equal. field. apply DN, Q. Qed.
Lemma evaluate_ok lg p T n q w : good (hl_tenor p) -> hlmm_ok p -> (1 <= lt_n (hl_tenor p))%nat -> 0 < kappa (hl_heston p) -> hlmm1_with_steps p T n = Ok q ->
  hlmm1_evaluate lg p q w = Ok (seg_assemble (components_of lg p q w) (x0_val p T) (sigma_0 (hl_heston p)) (lm_v0 (hl_dom p)) (lm_v0 (hl_for p))).
Proof.
  intros G O N1 K H. destruct (discounts_ok p T G N1) as (d & ED & _). unfold hlmm1_evaluate. rewrite (components_ok lg p T n q w G O N1 K H). cbn [obind].
  destruct (built p T n q G O N1 H) as (_ & _ & _ & -> & _). unfold x0_val. rewrite ED. reflexivity.
Qed.
