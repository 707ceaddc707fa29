(** C75, C76: the path step of the forward market model, its decay and its volatilities. *)
From Coq Require Import Bool List Reals Lra Lia.
From Coquelicot Require Import Coquelicot.
Import ListNotations.
From Verif Require Import Outcome Fmm FmmFacts P_Fmm.
Open Scope R_scope.

(** The models of the constructors. *)
Definition good_schedule (m : nat) (s : vol_schedule) : Prop :=
  match s with
  | PiecewiseConstant l => length l = m /\ forall j, (j < m)%nat -> nth j l [] <> [] /\ forall i, (S i < length (nth j l []))%nat -> fst (nth i (nth j l []) (0, 0)) < fst (nth (S i) (nth j l []) (0, 0))
  | HoLeeEquivalent _ _ => True
  end.
Definition good_model (f : fmm) : Prop :=
  let m := m_of (tenor f) in
  good_tenor (tenor f) /\ length (sigmas f) = m /\ (forall j, (j < m)%nat -> 0 <= nth j (sigmas f) 0) /\
  (forall bs, betas f = Some bs -> length bs = m /\ forall j, (j < m)%nat -> 0 <= nth j bs 0 <= 1) /\
  (forall s, schedule f = Some s -> good_schedule m s).
Definition good_path (f : fmm) (p : fmm_path) : Prop := length (rates p) = m_of (tenor f) /\ length (y_diag p) = m_of (tenor f).

(** ** C76: construction, decay, volatility *)
Lemma forallb_nth {A} (g : A -> bool) l d : forallb g l = true <-> forall i, (i < length l)%nat -> g (nth i l d) = true.
Proof.
  rewrite forallb_forall. split; [intros H i I; apply H, nth_In, I|]. intros H x X. destruct (In_nth l x d X) as (i & I & <-). apply H, I.
Qed.
Theorem C76_new : forall te ss c f, good_tenor te -> (fmm_new te ss c = Ok f <->
  f = {| tenor := te; sigmas := ss; correlation := c; betas := None; schedule := None |} /\ length ss = m_of te /\ (forall j, (j < m_of te)%nat -> 0 <= nth j ss 0) /\
  length c = m_of te /\ forall i, (i < m_of te)%nat -> length (nth i c []) = m_of te /\ Rabs (corr c i i - 1) < / 10 ^ 12 /\ forall j, (j < m_of te)%nat -> Rabs (corr c i j - corr c j i) < / 10 ^ 12 /\ Rabs (corr c i j) <= 1 + / 10 ^ 12).
Proof.
  intros te ss c f G. unfold fmm_new. set (m := m_of te). destruct (Nat.eqb_spec (length ss) m) as [A|A]; cbn [negb]; [|split; [discriminate|intros (_ & X & _); contradiction]].
  destruct (Nat.eqb_spec (length c) m) as [B|B]; cbn [negb]; [|split; [discriminate|intros (_ & _ & _ & X & _); contradiction]].
  set (g := fun i : nat => _). assert (GI : forall i, g i = true <-> length (nth i c []) = m /\ Rabs (corr c i i - 1) < / 10 ^ 12 /\ forall j, (j < m)%nat -> Rabs (corr c i j - corr c j i) < / 10 ^ 12 /\ Rabs (corr c i j) <= 1 + / 10 ^ 12).
  { intros i. unfold g. rewrite !andb_true_iff, Nat.eqb_eq, Rltb_true, forallb_forall. split.
    - intros [[X Y] Z]. repeat split; try assumption; (specialize (Z j ltac:(apply in_seq; lia)); rewrite andb_true_iff, Rltb_true, Rleb_true in Z; apply Z).
    - intros (X & Y & Z). split; [split; assumption|]. intros j J. apply in_seq in J. rewrite andb_true_iff, Rltb_true, Rleb_true. apply Z. lia. }
  destruct (forallb g (seq 0 m)) eqn:C; cbn [negb].
  - destruct (forallb (fun s => Rleb 0 s) ss) eqn:D; cbn [negb].
    + split.
      * intros E. split; [congruence|]. split; [exact A|]. split; [intros j J; apply Rleb_true; apply (proj1 (forallb_nth _ ss 0) D); lia|]. split; [exact B|]. intros i I. apply GI. rewrite forallb_forall in C. apply C. apply in_seq. lia.
      * intros (-> & _). reflexivity.
    + split; [discriminate|]. intros (_ & _ & X & _). exfalso. enough (forallb (fun s => Rleb 0 s) ss = true) by congruence. apply (forallb_nth _ ss 0). intros i I. apply Rleb_true, X. lia.
  - split; [discriminate|]. intros (_ & _ & _ & _ & X). exfalso. enough (forallb g (seq 0 m) = true) by congruence. apply forallb_forall. intros i I. apply in_seq in I. apply GI, X. lia.
Qed.
Print Assumptions C76_new.
Theorem C76_with : forall f, good_model f ->
  (forall bs, (exists g, with_betas f bs = Ok g) <-> length bs = m_of (tenor f) /\ forall j, (j < m_of (tenor f))%nat -> 0 <= nth j bs 0 <= 1) /\
  (forall bs g, with_betas f bs = Ok g -> good_model g /\ betas g = Some bs /\ schedule g = schedule f) /\
  (forall s g, with_vol_schedule f s = Ok g <-> good_schedule (m_of (tenor f)) s /\ g = {| tenor := tenor f; sigmas := sigmas f; correlation := correlation f; betas := betas f; schedule := Some s |}) /\
  (forall s g, with_vol_schedule f s = Ok g -> good_model g).
Proof.
  intros f (G & A & B & C & D). assert (SP : forall s g, with_vol_schedule f s = Ok g <-> good_schedule (m_of (tenor f)) s /\ g = {| tenor := tenor f; sigmas := sigmas f; correlation := correlation f; betas := betas f; schedule := Some s |}).
  { intros s g. unfold with_vol_schedule. destruct s as [l|v a]; cbn [good_schedule].
    - set (h := fun per_rate : list (R * R) => _). assert (HI : forall q, h q = true <-> q <> [] /\ forall i, (S i < length q)%nat -> fst (nth i q (0, 0)) < fst (nth (S i) q (0, 0))).
      { intros q. unfold h. rewrite andb_true_iff, increasing_spec, map_length, negb_true_iff, Nat.eqb_neq. assert (N : forall i, nth i (map fst q) 0 = fst (nth i q (0, 0))) by (intros i; change 0 with (fst (0, 0)) at 1; apply map_nth). split.
        - intros [X Y]. split; [intros ->; apply X; reflexivity|]. intros i I. rewrite <- !N. apply Y, I.
        - intros [X Y]. split; [destruct q; [contradiction|discriminate]|]. intros i I. rewrite !N. apply Y, I. }
      destruct (Nat.eqb_spec (length l) (m_of (tenor f))) as [L|L]; cbn [negb]; [|split; [discriminate|intros [[X _] _]; contradiction]]. destruct (forallb h l) eqn:F; cbn [negb].
      + split; [intros E; split; [|congruence]|intros [_ ->]; reflexivity]. split; [exact L|]. intros j J. apply HI. apply (proj1 (forallb_nth h l []) F). lia.
      + split; [discriminate|]. intros [[_ X] _]. exfalso. enough (forallb h l = true) by congruence. apply (forallb_nth h l []). intros i I. apply HI, X. lia.
    - split; [intros E; split; [exact I|congruence]|intros [_ ->]; reflexivity]. }
  split; [|split; [|split; [exact SP|]]].
  - intros bs. unfold with_betas. destruct (Nat.eqb_spec (length bs) (m_of (tenor f))) as [L|L]; cbn [negb]; [|split; [intros [g E]; discriminate|intros [X _]; contradiction]]. destruct (forallb _ bs) eqn:F; cbn [negb].
    + split; [|intros _; eexists; reflexivity]. intros _. split; [exact L|]. intros j J. pose proof (proj1 (forallb_nth _ bs 0) F j ltac:(lia)) as Q. cbv beta in Q. rewrite andb_true_iff, !Rleb_true in Q. exact Q.
    + split; [intros [g E]; discriminate|]. intros [_ X]. exfalso. match type of F with ?e = _ => enough (e = true) by congruence end. apply (forallb_nth _ bs 0). intros i I. rewrite andb_true_iff, !Rleb_true. apply X. lia.
  - intros bs g. unfold with_betas. destruct (Nat.eqb_spec (length bs) (m_of (tenor f))) as [L|L]; cbn [negb]; [|discriminate]. destruct (forallb _ bs) eqn:F; cbn [negb]; [|discriminate]. intros E. assert (g = {| tenor := tenor f; sigmas := sigmas f; correlation := correlation f; betas := Some bs; schedule := schedule f |}) as -> by congruence.
    split; [|split; reflexivity]. unfold good_model. cbn [tenor sigmas betas schedule]. split; [exact G|]. split; [exact A|]. split; [exact B|]. split; [|exact D].
    intros bs' E'. assert (bs' = bs) as -> by congruence. split; [exact L|]. intros j J. pose proof (proj1 (forallb_nth _ bs 0) F j ltac:(lia)) as Q. cbv beta in Q. rewrite andb_true_iff, !Rleb_true in Q. exact Q.
  - intros s g E. apply SP in E. destruct E as [S ->]. unfold good_model. cbn [tenor sigmas betas schedule]. split; [exact G|]. split; [exact A|]. split; [exact B|]. split; [exact C|].
    intros s' E'. assert (s' = s) as -> by congruence. exact S.
Qed.
Print Assumptions C76_with.

(** The volatility of a rate is its schedule times its level; the level is one without displacements and mixes the
    current and the initial rate with them. *)
Theorem C76_level : forall f j t r s, sigma_at f j t = Ok s ->
  (betas f = None -> adapted_vol f j t r = Ok s) /\
  (forall bs, betas f = Some bs -> let b := nth (j - 1) bs 0 in let r0 := nth (j - 1) (initial_rates (tenor f)) 0 in
     exists l, adapted_vol f j t r = Ok (s * l) /\ l - r0 = b * (r - r0) /\ (b = 0 -> l = r0) /\ (b = 1 -> l = r) /\ (0 <= b <= 1 -> Rmin r0 r <= l <= Rmax r0 r)) /\
  (schedule f = None -> s = nth (j - 1) (sigmas f) 0) /\ (forall q, schedule f = Some q -> schedule_at q j t (tenor f) = Ok s).
Proof.
  intros f j t r s S. unfold adapted_vol, displacement_level. rewrite S. cbn [obind]. split; [intros ->; f_equal; ring|]. split.
  - intros bs E. cbv zeta. rewrite E. set (b := nth (j - 1) bs 0). set (r0 := nth (j - 1) (initial_rates (tenor f)) 0). eexists. split; [reflexivity|]. split; [ring|]. split; [intros ->; ring|]. split; [intros ->; ring|]. intros B. split; unfold Rmin, Rmax; destruct (Rle_dec _ _); nra.
  - unfold sigma_at in S. split; [intros E; rewrite E in S; congruence|]. intros q E. rewrite E in S. exact S.
Qed.
Print Assumptions C76_level.
(** The struct documents the default level as the rate plus one over the period length; it is one. *)
Theorem C76_level_refuted : exists f, good_model f /\ betas f = None /\ forall j t r, (1 <= j <= m_of (tenor f))%nat -> 0 < r -> exists s, sigma_at f j t = Ok s /\ exists v, adapted_vol f j t r = Ok v /\ v < s * (r + 1 / tau (tenor f) j).
Proof.
  set (te := {| dates := [0; 1 / 2; 1]; initial_rates := [1 / 50; 1 / 50] |}). exists {| tenor := te; sigmas := [1 / 100; 1 / 100]; correlation := [[1; 0]; [0; 1]]; betas := None; schedule := None |}.
  split. { split; [|split; [reflexivity|split; [intros [|[|j]] J; cbn; try lra; cbn in J; lia|split; intros; discriminate]]]. unfold good_tenor, te, m_of, date_at. cbn. split; [lia|]. split; [reflexivity|]. split; [lra|]. intros [|[|i]] I; [lra|lra|lia]. }
  split; [reflexivity|]. intros j t r J P. exists (1 / 100). cbn [tenor] in *. assert (j = 1 \/ j = 2)%nat as [-> | ->] by (cbn in J; lia).
  - split; [reflexivity|]. eexists. split; [reflexivity|]. unfold tau, te, date_at. cbn. lra.
  - split; [reflexivity|]. eexists. split; [reflexivity|]. unfold tau, te, date_at. cbn. lra.
Qed.
Print Assumptions C76_level_refuted.

(** The decay is one before its period, zero after it, linear in it, decreasing and continuous. *)
Theorem C76_decay : forall te j, good_tenor te -> (1 <= j <= m_of te)%nat ->
  (forall t, t <= date_at te (j - 1) -> gamma j t te = 1) /\ (forall t, date_at te j <= t -> gamma j t te = 0) /\
  (forall t, date_at te (j - 1) <= t <= date_at te j -> gamma j t te = 1 - (t - date_at te (j - 1)) / (date_at te j - date_at te (j - 1))) /\
  (forall s t, s <= t -> 0 <= gamma j s te - gamma j t te <= (t - s) / (date_at te j - date_at te (j - 1))) /\
  big_g j (date_at te (j - 1)) (date_at te j) te = 1.
Proof.
  intros te j G J. pose proof (tau_pos te G j J) as TP. pose proof (dates_lt te G (j - 1) j ltac:(lia)) as DL. split; [intros; apply gamma_before; assumption|]. split; [intros; apply gamma_after; assumption|]. split; [intros t T; rewrite (gamma_inside te G) by assumption; unfold tau in *; field; lra|]. split.
  - set (a := date_at te (j - 1)) in *. set (b := date_at te j) in *. intros s t ST. assert (CL : forall u, gamma j u te = (b - Rmin b (Rmax a u)) / (b - a)).
    { intros u. destruct (Rle_dec u a) as [A|A]; [rewrite gamma_before by exact A; rewrite Rmax_left, Rmin_right by lra; field; lra|]. destruct (Rle_dec b u) as [B|B]; [rewrite (gamma_after te G) by (assumption || exact B); rewrite Rmax_right, Rmin_left by lra; field; lra|]. rewrite (gamma_inside te G) by (assumption || (fold a b; lra)). rewrite Rmax_right, Rmin_right by lra. reflexivity. }
    rewrite !CL. replace ((b - Rmin b (Rmax a s)) / (b - a) - (b - Rmin b (Rmax a t)) / (b - a)) with ((Rmin b (Rmax a t) - Rmin b (Rmax a s)) / (b - a)) by (field; lra).
    assert (0 <= Rmin b (Rmax a t) - Rmin b (Rmax a s) <= t - s). { unfold Rmin, Rmax. repeat destruct (Rle_dec _ _); lra. } split; [apply Rdiv_le_0_compat; lra|]. apply Rmult_le_compat_r; [|lra]. left. apply Rinv_0_lt_compat. lra.
  - rewrite (big_g_inside te G) by (assumption || lra). unfold tau. field. lra.
Qed.
Print Assumptions C76_decay.

(** [eta] is the first index whose date is not before [t]. *)
Theorem C76_eta : forall te t, good_tenor te -> let k := eta te t in
  (1 <= k <= m_of te + 1)%nat /\ ((k <= m_of te)%nat -> t <= date_at te k) /\ (forall i, (1 <= i < k)%nat -> date_at te i < t).
Proof.
  intros te t G k. destruct (eta_cases te t) as [(A & B & C)|[A B]]; fold k in A.
  - fold k in B, C. split; [lia|]. split; [intros _; exact B|exact C].
  - split; [lia|]. split; [lia|]. intros i I. apply B. lia.
Qed.
Print Assumptions C76_eta.

(** The Hull-White schedule is the integral of the discounted volatility over the period, up to
    the end of the period; below 1e-12 the mean reversion counts as none. *)
Theorem C76_ho_lee : forall te vol a j t, good_tenor te -> (1 <= j <= m_of te)%nat -> t < date_at te j ->
  exists s, schedule_at (HoLeeEquivalent vol a) j t te = Ok s /\
    (/ 10 ^ 12 <= Rabs a -> is_RInt (fun u => vol * exp (- a * (u - t))) (date_at te (j - 1)) (date_at te j) s) /\
    (Rabs a < / 10 ^ 12 -> s = vol * tau te j).
Proof.
  intros te vol a j t G J T. unfold schedule_at. destruct (Rle_dec (date_at te j) t); [lra|]. set (x := date_at te (j - 1)). set (y := date_at te j). destruct (Rlt_dec (Rabs a) (/ 10 ^ 12)) as [A|A].
  - eexists. split; [reflexivity|]. split; [lra|]. reflexivity.
  - eexists. split; [reflexivity|]. split; [|lra]. intros _. assert (NA : a <> 0) by (intros ->; apply A; rewrite Rabs_R0; apply Rinv_0_lt_compat; lra).
    replace (vol * (exp (- a * (x - t)) - exp (- a * (y - t))) / a) with ((fun u => - (vol / a) * exp (- a * (u - t))) y - (fun u => - (vol / a) * exp (- a * (u - t))) x) by (field; exact NA).
    apply (is_RInt_derive (fun u => - (vol / a) * exp (- a * (u - t)))).
    + intros u _. auto_derive; [exact I|]. match goal with |- ?a = ?b => change (@eq R a b) end. unfold Rminus. field. exact NA.
    + intros u _. apply (ex_derive_continuous (fun u => vol * exp (- a * (u - t)))). auto_derive. exact I.
Qed.
Print Assumptions C76_ho_lee.
(** The two branches agree in the limit. *)
Theorem C76_ho_lee_limit : forall vol x y t, is_lim (fun a => vol * (exp (- a * (x - t)) - exp (- a * (y - t))) / a) 0 (vol * (y - x)).
Proof.
  intros vol x y t. set (h := fun a => vol * (exp (- a * (x - t)) - exp (- a * (y - t)))). assert (D : is_derive h 0 (vol * (y - x))). { unfold h. auto_derive; [exact I|]. rewrite !Ropp_0, !Rmult_0_l, exp_0. match goal with |- ?a = ?b => change (@eq R a b) end. ring. }
  apply is_derive_Reals in D. apply is_lim_spec. intros eps. destruct (D eps (cond_pos eps)) as [d H]. exists d. intros a A NA. assert (A0 : Rabs a < d) by (change (Rabs (a - 0) < d) in A; rewrite Rminus_0_r in A; exact A). specialize (H a NA A0). rewrite Rplus_0_l in H. replace (h 0) with 0 in H by (unfold h; rewrite Ropp_0, !Rmult_0_l; ring). rewrite Rminus_0_r in H. exact H.
Qed.
Print Assumptions C76_ho_lee_limit.

(** A piecewise constant schedule gives the value of the last knot not after [t], and that of the first
    knot before it. *)
Theorem C76_piecewise : forall te l j t, good_schedule (m_of te) (PiecewiseConstant l) -> (1 <= j <= m_of te)%nat ->
  exists i, (i < length (nth (j - 1) l []))%nat /\ schedule_at (PiecewiseConstant l) j t te = Ok (snd (nth i (nth (j - 1) l []) (0, 0))) /\
  (forall a, (a < length (nth (j - 1) l []))%nat -> (a <= i)%nat /\ (0 < i)%nat -> fst (nth a (nth (j - 1) l []) (0, 0)) <= t) /\
  (forall a, (i < a < length (nth (j - 1) l []))%nat -> t < fst (nth a (nth (j - 1) l []) (0, 0))).
Proof.
  intros te l j t [L H] J. destruct (H (j - 1)%nat ltac:(lia)) as [NE INC]. unfold schedule_at. assert (E : nth_error l (j - 1) = Some (nth (j - 1) l [])) by (apply nth_error_nth'; lia). rewrite E. set (q := nth (j - 1) l []) in *. clearbody q. clear E H L.
  assert (AUX : forall q last, (forall i, (S i < length q)%nat -> fst (nth i q (0, 0)) < fst (nth (S i) q (0, 0))) ->
     (last_knot q t last = last /\ (forall a, (a < length q)%nat -> t < fst (nth a q (0, 0)))) \/
     exists i, (i < length q)%nat /\ last_knot q t last = snd (nth i q (0, 0)) /\ (forall a, (a <= i)%nat -> fst (nth a q (0, 0)) <= t) /\ forall a, (i < a < length q)%nat -> t < fst (nth a q (0, 0))).
  { clear. induction q as [|[s v] q IH]; intros last INC; [left; split; [reflexivity|cbn; intros; lia]|]. cbn [last_knot]. destruct (Rle_dec s t) as [A|A].
    - right. destruct (IH v) as [[E B]|(i & I & E & B & C)].
      + intros i I. apply (INC (S i)). cbn in *. lia.
      + exists 0%nat. split; [cbn; lia|]. split; [exact E|]. split; [intros a AA; assert (a = 0%nat) as -> by lia; exact A|]. intros [|a] AA; [lia|]. apply B. cbn in AA. lia.
      + exists (S i). split; [cbn; lia|]. split; [exact E|]. split; [intros [|a] AA; [exact A|apply B; lia]|]. intros [|a] AA; [lia|]. apply C. cbn in AA. lia.
    - left. split; [reflexivity|]. assert (K : forall a, (a < S (length q))%nat -> s <= fst (nth a ((s, v) :: q) (0, 0))). { induction a as [|a IHa]; intros AA; [cbn; lra|]. specialize (IHa ltac:(lia)). pose proof (INC a ltac:(cbn; lia)). lra. } intros a AA. pose proof (K a AA). lra. }
  destruct q as [|[s0 v0] q]; [contradiction|]. destruct (AUX ((s0, v0) :: q) v0 INC) as [[E B]|(i & I & E & B & C)].
  - exists 0%nat. split; [cbn; lia|]. split; [f_equal; exact E|]. split; [intros; lia|]. intros a A. apply B. lia.
  - exists i. split; [exact I|]. split; [f_equal; exact E|]. split; [intros a _ [A _]; apply B, A|exact C].
Qed.
Print Assumptions C76_piecewise.

(** ** C75: the step *)
Lemma vol_total f i t r : good_model f -> (1 <= i <= m_of (tenor f))%nat -> exists v, adapted_vol f i t r = Ok v.
Proof.
  intros (G & A & B & C & D) K. unfold adapted_vol, sigma_at. destruct (schedule f) as [s|] eqn:S; [|eexists; reflexivity]. specialize (D s eq_refl). destruct s as [l|v a].
  - destruct (C76_piecewise (tenor f) l i t D K) as (n & _ & E & _). rewrite E. eexists. reflexivity.
  - unfold schedule_at. destruct (Rle_dec _ _); [eexists; reflexivity|]. destruct (Rlt_dec _ _); eexists; reflexivity.
Qed.
(** A step of positive length of a valid model never panics. *)
Theorem C75_total : forall f chol z p dt, good_model f -> (0 < dt <-> exists p', fmm_step f chol z p dt = Ok p').
Proof.
  intros f chol z p dt G. unfold fmm_step. destruct (Rltb 0 dt) eqn:E; cbn [negb].
  2: { split; [intros L; apply Rltb_true in L; congruence|intros [p' X]; discriminate]. }
  split; [|intros _; apply Rltb_true, E]. intros _.
  destruct (oeach_total (fun i => adapted_vol f i (path_t p + 1 / 2 * dt) (rate p i)) (seq 1 (m_of (tenor f)))) as [ad AD]. { intros i I. apply in_seq in I. apply vol_total; [exact G|lia]. } rewrite AD. cbn [obind].
  destruct (oeach_total (new_y f p dt (path_t p + 1 / 2 * dt)) (seq 1 (m_of (tenor f)))) as [ny NY]. { intros i I. apply in_seq in I. unfold new_y. destruct (Rle_dec _ _); [eexists; reflexivity|]. destruct (vol_total f i (path_t p + 1 / 2 * dt) (rate p i) G ltac:(lia)) as [v V]. rewrite V. eexists. reflexivity. } rewrite NY. cbn [obind].
  match goal with |- context [obind ?e _] => assert (X : exists nx, e = Ok nx); [|destruct X as [nx NX]; rewrite NX; eexists; reflexivity] end.
  unfold new_x. set (k := eta (tenor f) (path_t p)). destruct ((1 <=? k)%nat && (k <=? m_of (tenor f))%nat) eqn:K; [|eexists; reflexivity]. apply andb_true_iff in K. destruct (_ && _); [|eexists; reflexivity]. destruct K as [K1 K2]. apply Nat.leb_le in K1, K2. match goal with |- context [adapted_vol f k ?t ?r] => destruct (vol_total f k t r G ltac:(lia)) as [v V]; rewrite V end. eexists. reflexivity.
Qed.
Print Assumptions C75_total.

(** Equation (5), equation (31), and the snapshots. *)
Theorem C75_step : forall f chol z p dt p', good_tenor (tenor f) -> fmm_step f chol z p dt = Ok p' ->
  let te := tenor f in let t := path_t p in let mid := t + dt / 2 in let m := m_of te in
  path_t p' = t + dt /\ good_path f p' /\
  exists v, (forall i, (1 <= i <= m)%nat -> adapted_vol f i mid (rate p i) = Ok (v i)) /\
  forall j, (1 <= j <= m)%nat ->
  (date_at te j <= mid -> rate p' j = rate p j) /\
  (mid < date_at te j -> rate p' j = rate p j
      + v j * gamma j mid te * sum_over (fun i => corr (correlation f) (i - 1) (j - 1) * (tau te i * v i * gamma i mid te / (1 + tau te i * rate p i))) (eta te t) (S j - eta te t) * dt
      + v j * gamma j mid te * (sqrt dt * sum_over (fun l => nth l (nth (j - 1) chol []) 0 * z l) 0 j)) /\
  y_of p' j = y_of p j + (v j / (rate p j + 1 / tau te j)) ^ 2 * (Rmin (t + dt) (date_at te j) - Rmin t (date_at te j)) /\
  ((eta te t < j <= eta te (t + dt))%nat -> nth (j - 1) (rates_at_start p') 0 = rate p' j /\ nth (j - 1) (y_at_start p') 0 = y_of p' j /\ x_active p' = 0) /\
  (~ (eta te t < j <= eta te (t + dt))%nat -> nth (j - 1) (rates_at_start p') 0 = nth (j - 1) (rates_at_start p) 0 /\ nth (j - 1) (y_at_start p') 0 = nth (j - 1) (y_at_start p) 0).
Proof.
  intros f chol z p dt p' G H. cbv zeta. set (te := tenor f) in *. set (t := path_t p). set (m := m_of te). set (mid := t + dt / 2).
  unfold fmm_step in H. fold te in H. fold t in H. fold m in H. destruct (Rltb 0 dt) eqn:DT; cbn [negb] in H; [|discriminate]. apply Rltb_true in DT. replace (t + 1 / 2 * dt) with mid in H by (unfold mid; field).
  apply obind_Ok in H. destruct H as (ad & AD & H). apply obind_Ok in H. destruct H as (ny & NY & H). apply obind_Ok in H. destruct H as (nx & NX & H). clear NX.
  destruct (oeach_seq _ 1 m ad 0 AD) as [LA VA]. destruct (oeach_seq _ 1 m ny 0 NY) as [LN VN]. clear AD NY.
  set (wt := map (fun i => nth (i - 1) ad 0 * gamma i mid te * tau te i / (1 + tau te i * rate p i)) (seq 1 m)) in H. set (nr := map _ (seq 1 m)) in H.
  assert (P' : p' = {| rates := nr; y_diag := ny; rates_at_start := snapshot (rates_at_start p) nr (eta te t) (eta te (t + dt)) m; y_at_start := snapshot (y_at_start p) ny (eta te t) (eta te (t + dt)) m; x_active := if (eta te t + 1 <=? Nat.min (eta te (t + dt)) m)%nat then 0 else nx; path_t := t + dt |}) by congruence. clear H. subst p'.
  split; [reflexivity|]. split; [split; cbn [rates y_diag]; [unfold nr; rewrite map_length, seq_length; reflexivity|exact LN]|].
  exists (fun i => nth (i - 1) ad 0). assert (VV : forall i, (1 <= i <= m)%nat -> adapted_vol f i mid (rate p i) = Ok (nth (i - 1) ad 0)). { intros i I. pose proof (VA (i - 1)%nat ltac:(lia)) as V. cbv beta in V. replace (1 + (i - 1))%nat with i in V by lia. exact V. } split; [exact VV|]. clear VA LA.
  intros j J. assert (NR : rate {| rates := nr; y_diag := ny; rates_at_start := snapshot (rates_at_start p) nr (eta te t) (eta te (t + dt)) m; y_at_start := snapshot (y_at_start p) ny (eta te t) (eta te (t + dt)) m; x_active := if (eta te t + 1 <=? Nat.min (eta te (t + dt)) m)%nat then 0 else nx; path_t := t + dt |} j = new_rate f p dt mid (eta te t) ad wt (increment chol z (sqrt dt)) j).
  { unfold rate. cbn [rates]. unfold nr. rewrite map_seq_nth by lia. f_equal. lia. }
  split; [|split; [|split; [|split]]].
  - intros L. rewrite NR. unfold new_rate. fold te. rewrite (gamma_after te G) by (assumption || lia). destruct (j <? eta te t)%nat; [reflexivity|]. destruct (Req_EM_T 0 0); [reflexivity|congruence].
  - intros L. rewrite NR. unfold new_rate. fold te. destruct (Nat.ltb_spec j (eta te t)) as [X|X].
    { exfalso. destruct (C76_eta te t G) as (_ & _ & E). pose proof (E j ltac:(lia)). unfold mid in L. lra. }
    destruct (Req_EM_T (gamma j mid te) 0) as [Z|_].
    { exfalso. destruct (Rle_dec mid (date_at te (j - 1))) as [B|B]; [rewrite gamma_before in Z by exact B; lra|]. pose proof (tau_pos te G j J) as TP. rewrite (gamma_inside te G) in Z by (assumption || lra). assert (0 < (date_at te j - mid) / tau te j) by (apply Rdiv_lt_0_compat; lra). lra. }
    assert (S1 : fold_left (fun s i => s + corr (correlation f) (i - 1) (j - 1) * nth (i - 1) wt 0) (range_incl (eta te t) j) 0 = sum_over (fun i => corr (correlation f) (i - 1) (j - 1) * (tau te i * nth (i - 1) ad 0 * gamma i mid te / (1 + tau te i * rate p i))) (eta te t) (S j - eta te t)).
    { unfold range_incl. rewrite (fold_plus (fun i => corr (correlation f) (i - 1) (j - 1) * nth (i - 1) wt 0)), Rplus_0_l. apply sum_over_ext. intros i I. destruct (C76_eta te t G) as (E1 & _). unfold wt. rewrite map_seq_nth by lia. replace (1 + (i - 1))%nat with i by lia. f_equal. unfold Rdiv. ring. }
    assert (S2 : increment chol z (sqrt dt) (j - 1) = sqrt dt * sum_over (fun l => nth l (nth (j - 1) chol []) 0 * z l) 0 j).
    { unfold increment. rewrite (fold_plus (fun k => nth k (nth (j - 1) chol []) 0 * z k)), Rplus_0_l, Rmult_comm. replace (S (j - 1)) with j by lia. reflexivity. }
    rewrite S1, S2. reflexivity.
  - unfold y_of at 1. cbn [y_diag]. pose proof (VN (j - 1)%nat ltac:(lia)) as Y. cbv beta in Y. replace (1 + (j - 1))%nat with j in Y by lia. unfold new_y in Y. fold te t in Y. destruct (Rle_dec (date_at te j) t) as [L|L].
    + assert (E : nth (j - 1) ny 0 = y_of p j) by congruence. rewrite E, !Rmin_right by lra. ring.
    + rewrite (VV j J) in Y. cbn [obind] in Y. set (u := Rmin (date_at te j - t) dt) in Y. set (yy := (nth (j - 1) ad 0 / (rate p j + 1 / tau te j)) ^ 2) in *. assert (E : nth (j - 1) ny 0 = y_of p j + yy * u) by congruence. rewrite E. f_equal. f_equal. unfold u. rewrite (Rmin_left t) by lra. unfold Rmin. repeat destruct (Rle_dec _ _); lra.
  - intros R1. cbn [rates_at_start y_at_start x_active]. unfold snapshot. rewrite !map_seq_nth by lia. replace (1 + (j - 1))%nat with j by lia. assert (B : ((eta te t <? j) && (j <=? Nat.min (eta te (t + dt)) m))%nat = true) by (apply andb_true_iff; split; [apply Nat.ltb_lt; lia|apply Nat.leb_le; lia]). rewrite B. split; [reflexivity|]. split; [reflexivity|]. destruct (Nat.leb_spec (eta te t + 1) (Nat.min (eta te (t + dt)) m)); [reflexivity|lia].
  - intros R1. cbn [rates_at_start y_at_start]. unfold snapshot. rewrite !map_seq_nth by lia. replace (1 + (j - 1))%nat with j by lia. assert (B : ((eta te t <? j) && (j <=? Nat.min (eta te (t + dt)) m))%nat = false) by (apply andb_false_iff; rewrite Nat.ltb_ge, Nat.leb_gt; lia). rewrite B. split; reflexivity.
Qed.
Print Assumptions C75_step.

(** Equation (33) for the state of the period in progress, at the midpoint of the old and the new rate. *)
Theorem C75_x : forall f chol z p dt p', good_tenor (tenor f) -> fmm_step f chol z p dt = Ok p' ->
  let te := tenor f in let t := path_t p in let k := eta te t in eta te (t + dt) = k ->
  (t <= date_at te (k - 1) \/ (k <= m_of te)%nat /\ t = date_at te k \/ (m_of te < k)%nat -> x_active p' = x_active p) /\
  ((k <= m_of te)%nat -> date_at te (k - 1) < t < date_at te k -> exists w, let mean := (rate p k + rate p' k) / 2 in
     adapted_vol f k (t + dt / 2) mean = Ok w /\
     x_active p' = x_active p + (y_of p' k - nth (k - 1) (y_at_start p) 0) / tau te k * dt + w / (mean + 1 / tau te k) * (sqrt dt * sum_over (fun l => nth l (nth (k - 1) chol []) 0 * z l) 0 k)).
Proof.
  intros f chol z p dt p' G H. cbv zeta. set (te := tenor f) in *. set (t := path_t p). set (k := eta te t). intros SAME.
  unfold fmm_step in H. fold te t k in H. destruct (Rltb 0 dt) eqn:DT; cbn [negb] in H; [|discriminate]. replace (t + 1 / 2 * dt) with (t + dt / 2) in H by field.
  apply obind_Ok in H. destruct H as (ad & AD & H). apply obind_Ok in H. destruct H as (ny & NY & H). apply obind_Ok in H. destruct H as (nx & NX & H). rewrite SAME in H.
  set (nr := map (new_rate _ _ _ _ _ _ _ _) _) in *.
  assert (XX : x_active p' = nx). { apply (f_equal (fun o => match o with Ok q => x_active q | _ => 0 end)) in H. cbn [x_active] in H. rewrite <- H. destruct (Nat.leb_spec (k + 1) (Nat.min k (m_of te))); [lia|reflexivity]. }
  assert (RR : forall j, rate p' j = nth (j - 1) nr 0) by (intros j; apply (f_equal (fun o => match o with Ok q => rate q j | _ => 0 end)) in H; rewrite <- H; reflexivity).
  assert (YY : forall j, y_of p' j = nth (j - 1) ny 0) by (intros j; apply (f_equal (fun o => match o with Ok q => y_of q j | _ => 0 end)) in H; rewrite <- H; reflexivity).
  clear H AD NY. rewrite XX. unfold new_x in NX. fold te t in NX. assert (K1 : (1 <= k)%nat) by apply (C76_eta te t G). split.
  - intros C. destruct ((1 <=? k)%nat && (k <=? m_of te)%nat) eqn:K; [|congruence]. apply andb_true_iff in K. destruct K as [_ K]. apply Nat.leb_le in K. destruct (Rltb (date_at te (k - 1)) t && Rltb t (date_at te k)) eqn:B; [|congruence]. apply andb_true_iff in B. rewrite !Rltb_true in B. exfalso. destruct C as [C|[[_ C]|C]]; [lra|lra|lia].
  - intros KM IN. replace ((1 <=? k)%nat && (k <=? m_of te)%nat) with true in NX by (symmetry; apply andb_true_iff; split; apply Nat.leb_le; lia). replace (Rltb (date_at te (k - 1)) t && Rltb t (date_at te k)) with true in NX by (symmetry; apply andb_true_iff; split; apply Rltb_true; lra). apply obind_Ok in NX. destruct NX as (w & W & NX). exists w. rewrite RR, YY. replace (1 / 2 * (rate p k + nth (k - 1) nr 0)) with ((rate p k + nth (k - 1) nr 0) / 2) in W, NX by field. split; [exact W|].
    assert (S2 : increment chol z (sqrt dt) (k - 1) = sqrt dt * sum_over (fun l => nth l (nth (k - 1) chol []) 0 * z l) 0 k).
    { unfold increment. rewrite (fold_plus (fun i => nth i (nth (k - 1) chol []) 0 * z i)), Rplus_0_l, Rmult_comm. replace (S (k - 1)) with k by lia. reflexivity. }
    rewrite S2 in NX. match type of NX with Ok ?e = _ => assert (nx = e) as -> by congruence end. unfold Rdiv. ring.
Qed.
Print Assumptions C75_x.

(** From its fixing on, a rate and its variance never move again, whatever the steps. *)
Theorem C75_frozen : forall n f chol draws p dt p' j, good_tenor (tenor f) -> (1 <= j <= m_of (tenor f))%nat -> date_at (tenor f) j <= path_t p -> fmm_steps n f chol draws p dt = Ok p' -> rate p' j = rate p j /\ y_of p' j = y_of p j.
Proof.
  induction n as [|n IH]; intros f chol draws p dt p' j G J L H; cbn in H; [assert (p' = p) as -> by congruence; split; reflexivity|].
  apply obind_Ok in H. destruct H as (q & Q & H). assert (DT : 0 < dt) by (unfold fmm_step in Q; destruct (Rltb 0 dt) eqn:E; [apply Rltb_true, E|discriminate]). pose proof (C75_step f chol (draws 0%nat) p dt q G Q) as S. cbv zeta in S. destruct S as (T & _ & v & _ & S). destruct (S j J) as (A & _ & B & _).
  destruct (IH f chol _ q dt p' j G J ltac:(rewrite T; lra) H) as [E1 E2]. rewrite E1, E2. split; [apply A; lra|]. rewrite B, !Rmin_right by lra. ring.
Qed.
Print Assumptions C75_frozen.

(** The snapshots are said to hold the rate at the start of its period.  On a grid that contains the start they hold
    the rate one step later. *)
Theorem C75_snapshot_refuted : exists f chol z1 z2 p1 p2, good_model f /\ fmm_step f chol z1 (initial_path f) 1 = Ok p1 /\ path_t p1 = date_at (tenor f) 1 /\ fmm_step f chol z2 p1 (1 / 2) = Ok p2 /\
  eta (tenor f) (path_t p2) = 2%nat /\ rate p1 2 < nth 1 (rates_at_start p2) 0.
Proof.
  set (te := {| dates := [0; 1; 2]; initial_rates := [1 / 50; 1 / 50] |}). set (f := {| tenor := te; sigmas := [1 / 100; 1 / 100]; correlation := [[1; 0]; [0; 1]]; betas := None; schedule := None |}). set (chol := [[1; 0]; [0; 1]]). set (z := fun _ : nat => 1).
  assert (D0 : date_at te 0 = 0) by reflexivity. assert (D1 : date_at te 1 = 1) by reflexivity. assert (D2 : date_at te 2 = 2) by reflexivity.
  assert (G : good_tenor te). { unfold good_tenor, te, m_of, date_at. cbn. split; [lia|]. split; [reflexivity|]. split; [lra|]. intros [|[|i]] I; [lra|lra|lia]. }
  assert (GM : good_model f). { split; [exact G|]. split; [reflexivity|]. split; [intros [|[|j]] J; cbn; try lra; cbn in J; lia|]. split; [intros; discriminate|intros; discriminate]. }
  destruct (proj1 (C75_total f chol z (initial_path f) 1 GM) ltac:(lra)) as [p1 S1]. destruct (proj1 (C75_total f chol z p1 (1 / 2) GM) ltac:(lra)) as [p2 S2]. exists f, chol, z, z, p1, p2.
  pose proof (C75_step f chol z _ _ p1 G S1) as H1. cbv zeta in H1. destruct H1 as (T1 & _ & v1 & V1 & H1). pose proof (C75_step f chol z _ _ p2 G S2) as H2. cbv zeta in H2. destruct H2 as (T2 & _ & v2 & V2 & H2). change (tenor f) with te in *. change (path_t (initial_path f)) with 0 in *.
  assert (PT1 : path_t p1 = 1) by lra. rewrite PT1 in *. assert (M : m_of te = 2%nat) by reflexivity. assert (E1 : eta te 1 = 1%nat) by (apply eta_is; [exact G|lia|rewrite D1; lra|lia]). assert (E2 : eta te (1 + 1 / 2) = 2%nat) by (apply eta_is; [exact G|lia|rewrite D2; lra|intros _; cbn [Nat.sub]; rewrite D1; lra]).
  split; [exact GM|]. split; [exact S1|]. split; [symmetry; exact D1|]. split; [exact S2|]. split; [rewrite T2; exact E2|].
  destruct (H1 2%nat ltac:(lia)) as (_ & A1 & _). destruct (H2 2%nat ltac:(lia)) as (_ & A2 & _ & SN & _). rewrite E1, E2 in SN. destruct (SN ltac:(lia)) as (SR & _). cbn [Nat.sub] in SR. rewrite SR.
  assert (AV : forall i t r, (1 <= i <= 2)%nat -> adapted_vol f i t r = Ok (1 / 100)). { intros i t r I. unfold adapted_vol, sigma_at, displacement_level. cbn [schedule f betas obind]. assert (SI : nth (i - 1) (sigmas f) 0 = 1 / 100) by (assert (i = 1 \/ i = 2)%nat as [-> | ->] by lia; reflexivity). change (Ok (nth (i - 1) (sigmas f) 0 * 1) = Ok (1 / 100)). rewrite SI. f_equal. ring. }
  assert (VV : forall i, (1 <= i <= 2)%nat -> v1 i = 1 / 100 /\ v2 i = 1 / 100). { intros i I. pose proof (V1 i I) as X1. pose proof (V2 i I) as X2. rewrite AV in X1, X2 by exact I. split; congruence. }
  destruct (VV 1%nat ltac:(lia)) as [Va1 Vb1]. destruct (VV 2%nat ltac:(lia)) as [Va2 Vb2].
  assert (T12 : tau te 2 = 1) by (unfold tau; cbn [Nat.sub]; rewrite D1, D2; ring).
  assert (POS1 : 1 / 50 <= rate p1 2).
  { rewrite A1 by (rewrite D2; lra). rewrite Va2. assert (E0 : eta te 0 = 1%nat) by (apply eta_is; [exact G|lia|rewrite D1; lra|lia]). rewrite E0. cbn [Nat.sub]. unfold sum_over. cbn [seq map fold_right]. change (corr (correlation f) (1 - 1) 1) with 0. change (corr (correlation f) (2 - 1) 1) with 1. rewrite Va2, T12. change (rate (initial_path f) 2) with (1 / 50). rewrite (gamma_before te 2) by (cbn [Nat.sub]; rewrite D1; lra). change (nth 0 (nth 1 chol []) 0) with 0. change (nth 1 (nth 1 chol []) 0) with 1. unfold z. rewrite sqrt_1. lra. }
  rewrite A2 by (rewrite D2; lra). rewrite Vb2, E1. cbn [Nat.sub]. unfold sum_over. cbn [seq map fold_right]. change (corr (correlation f) (1 - 1) 1) with 0. change (corr (correlation f) (2 - 1) 1) with 1. change (nth 0 (nth 1 chol []) 0) with 0. change (nth 1 (nth 1 chol []) 0) with 1. unfold z. rewrite Vb2, T12. set (g := gamma 2 (1 + 1 / 2 / 2) te).
  assert (GV : g = 3 / 4). { unfold g. rewrite (gamma_inside te G) by (lia || (cbn [Nat.sub]; rewrite D1, D2; lra)). rewrite T12, D2. field. } rewrite GV.
  assert (SQ : 0 < sqrt (1 / 2)) by (apply sqrt_lt_R0; lra). assert (DR : 0 < 1 * (1 / 100) * (3 / 4) / (1 + 1 * rate p1 2)) by (apply Rdiv_lt_0_compat; lra). lra.
Qed.
Print Assumptions C75_snapshot_refuted.

(** ** Without volatility *)
Lemma product_growth te p p0 k : (forall s, 0 < p0 s) -> (forall j, (1 <= j <= k)%nat -> growth te p j * p0 (date_at te j) = p0 (date_at te (j - 1))) -> product (growth te p) 1 k = p0 (date_at te 0) / p0 (date_at te k).
Proof.
  intros P H. induction k as [|k IH]; [unfold product; cbn; pose proof (P (date_at te 0)); field; lra|]. rewrite product_S, IH by (intros; apply H; lia). replace (1 + k)%nat with (S k) by lia. pose proof (H (S k) ltac:(lia)) as E. replace (S k - 1)%nat with k in E by lia. pose proof (P (date_at te (S k))). pose proof (P (date_at te k)). rewrite <- E in *. assert (growth te p (S k) <> 0) by (intros Z; rewrite Z in *; lra). field. split; [lra|assumption].
Qed.
Definition still (f : fmm) (p : fmm_path) : Prop :=
  let te := tenor f in 0 <= path_t p /\ x_active p = 0 /\ forall j, (1 <= j <= m_of te)%nat ->
  rate p j = nth (j - 1) (initial_rates te) 0 /\ y_of p j = 0 /\ nth (j - 1) (y_at_start p) 0 = 0 /\ ((j <= eta te (path_t p))%nat -> nth (j - 1) (rates_at_start p) 0 = nth (j - 1) (initial_rates te) 0).
Lemma still_x f chol z p dt p' : good_tenor (tenor f) -> (forall i t r, (1 <= i <= m_of (tenor f))%nat -> adapted_vol f i t r = Ok 0) -> still f p -> fmm_step f chol z p dt = Ok p' -> x_active p' = 0.
Proof.
  intros G V (_ & X & S) H. set (te := tenor f) in *. unfold fmm_step in H. fold te in H. destruct (Rltb 0 dt) eqn:DT; cbn [negb] in H; [|discriminate].
  apply obind_Ok in H. destruct H as (ad & AD & H). apply obind_Ok in H. destruct H as (ny & NY & H). apply obind_Ok in H. destruct H as (nx & NX & H). destruct (oeach_seq _ 1 (m_of te) ny 0 NY) as [LN VN].
  assert (E : x_active p' = if (eta te (path_t p) + 1 <=? Nat.min (eta te (path_t p + dt)) (m_of te))%nat then 0 else nx) by (apply (f_equal (fun o => match o with Ok q => x_active q | _ => 0 end)) in H; symmetry; exact H). rewrite E. destruct (_ <=? _)%nat; [reflexivity|]. clear E H.
  unfold new_x in NX. fold te in NX. set (k := eta te (path_t p)) in *. destruct ((1 <=? k)%nat && (k <=? m_of te)%nat) eqn:K; [|congruence]. apply andb_true_iff in K. destruct K as [K1 K2]. apply Nat.leb_le in K1, K2. destruct (_ && _); [|congruence]. rewrite V in NX by (fold te; lia). cbn [obind] in NX.
  destruct (S k ltac:(lia)) as (R0 & Y0 & YS & _). pose proof (VN (k - 1)%nat ltac:(lia)) as Y. replace (1 + (k - 1))%nat with k in Y by lia. unfold new_y in Y. fold te in Y. rewrite V in Y by (fold te; lia). cbn [obind] in Y. assert (YN : nth (k - 1) ny 0 = 0). { destruct (Rle_dec _ _); [assert (nth (k - 1) ny 0 = y_of p k) by congruence; lra|]. match type of Y with Ok ?e = _ => assert (nth (k - 1) ny 0 = e) as -> by congruence end. rewrite Y0. unfold Rdiv. ring. }
  match type of NX with Ok ?e = _ => assert (nx = e) as -> by congruence end. rewrite X, YN, YS. unfold Rdiv. ring.
Qed.
Lemma still_step f chol z p dt p' : good_tenor (tenor f) -> (forall i t r, (1 <= i <= m_of (tenor f))%nat -> adapted_vol f i t r = Ok 0) -> still f p -> fmm_step f chol z p dt = Ok p' -> still f p'.
Proof.
  intros G V ST H. pose proof (still_x f chol z p dt p' G V ST H) as X'. destruct ST as (T0 & X & S). assert (DT : 0 < dt) by (unfold fmm_step in H; destruct (Rltb 0 dt) eqn:E; [apply Rltb_true, E|discriminate]).
  pose proof (C75_step f chol z p dt p' G H) as C. cbv zeta in C. destruct C as (T & _ & v & VV & C). split; [rewrite T; lra|]. split; [exact X'|]. intros j J. destruct (S j J) as (R0 & Y0 & YS & RS). destruct (C j J) as (A1 & A2 & A3 & A4 & A5).
  assert (VZ : forall i, (1 <= i <= m_of (tenor f))%nat -> v i = 0) by (intros i I; pose proof (VV i I) as Q; rewrite V in Q by exact I; congruence).
  assert (RJ : rate p' j = rate p j). { destruct (Rle_dec (date_at (tenor f) j) (path_t p + dt / 2)) as [L|L]; [apply A1, L|]. rewrite A2 by lra. rewrite (VZ j J). ring. }
  assert (YJ : y_of p' j = 0) by (rewrite A3, (VZ j J), Y0; unfold Rdiv; ring).
  split; [rewrite RJ; exact R0|]. split; [exact YJ|]. set (a := eta (tenor f) (path_t p)) in *. set (b := eta (tenor f) (path_t p + dt)) in *. destruct (le_lt_dec j a) as [L|L].
  - destruct (A5 ltac:(lia)) as [B1 B2]. split; [rewrite B2; exact YS|]. intros _. rewrite B1. apply RS, L.
  - destruct (le_lt_dec j b) as [L'|L'].
    + destruct (A4 ltac:(lia)) as (B1 & B2 & _). split; [rewrite B2; exact YJ|]. intros _. rewrite B1, RJ. exact R0.
    + destruct (A5 ltac:(lia)) as [B1 B2]. split; [rewrite B2; exact YS|]. rewrite T. fold b. lia.
Qed.
Lemma still_steps n : forall f chol draws p dt p', good_tenor (tenor f) -> (forall i t r, (1 <= i <= m_of (tenor f))%nat -> adapted_vol f i t r = Ok 0) -> still f p -> fmm_steps n f chol draws p dt = Ok p' -> still f p'.
Proof.
  induction n as [|n IH]; intros f chol draws p dt p' G V S H; cbn in H; [assert (p' = p) as -> by congruence; exact S|]. apply obind_Ok in H. destruct H as (q & Q & H). exact (IH f chol _ q dt p' G V (still_step f chol (draws 0%nat) p dt q G V S Q) H).
Qed.
Lemma still_initial f : good_tenor (tenor f) -> date_at (tenor f) 0 = 0 -> still f (initial_path f).
Proof.
  intros G Z. set (te := tenor f) in *. assert (M : (1 <= m_of te)%nat) by apply G. split; [cbn; lra|]. split; [reflexivity|]. intros j J. split; [reflexivity|]. split; [apply nth_repeat0|]. split; [apply nth_repeat0|].
  assert (E : eta te 0 = 1%nat) by (apply eta_is; [exact G|lia|rewrite <- Z; apply dates_le; [exact G|lia]|lia]). change (path_t (initial_path f)) with 0. fold te. rewrite E. intros J1. assert (j = 1%nat) as -> by lia. cbn [initial_path rates_at_start Nat.sub]. fold te. rewrite map_seq_nth by lia. reflexivity.
Qed.

(** With no volatility and rates read off a curve, every path reprices the curve at every later time, and its bank
    account is the inverse of the discount factor. *)
Theorem C75_deterministic : forall n f chol draws dt p p0, good_tenor (tenor f) -> date_at (tenor f) 0 = 0 -> (forall i t r, (1 <= i <= m_of (tenor f))%nat -> adapted_vol f i t r = Ok 0) -> (forall s, 0 < p0 s) -> p0 0 = 1 -> fits (tenor f) p0 ->
  fmm_steps n f chol draws (initial_path f) dt = Ok p ->
  let te := tenor f in let t := path_t p in let k := eta te t in
  (t <= date_at te (k - 1) \/ date_at te (k - 1) + tiny < t) ->
  (forall T, t + tiny <= T <= date_at te (m_of te) -> bond_price f p T p0 = Ok (p0 T / p0 t)) /\
  ((k <= m_of te)%nat -> t = date_at te k \/ t + tiny <= date_at te k -> bank_account f p p0 = Ok (1 / p0 t)).
Proof.
  intros n f chol draws dt p p0 G Z V P P1 F H te t k OFF. pose proof tiny_pos as TP. destruct (still_steps n f chol draws _ dt p G V (still_initial f G Z) H) as (T0 & X & S). cbv zeta in S. fold te in G, Z, V, F, S. fold t in T0, S. fold k in S. assert (M : (1 <= m_of te)%nat) by apply G.
  assert (GR : forall j, (1 <= j <= m_of te)%nat -> growth te p j * p0 (date_at te j) = p0 (date_at te (j - 1)) /\ 0 < growth te p j).
  { intros j J. pose proof (F j J) as E. destruct (S j J) as (R0 & _). unfold growth. rewrite R0. split; [exact E|]. pose proof (P (date_at te j)). pose proof (P (date_at te (j - 1))). apply Rnot_le_lt. intros L. assert ((1 + tau te j * nth (j - 1) (initial_rates te) 0) * p0 (date_at te j) <= 0) by nra. lra. }
  assert (PP : positive_path te p). { intros j J. destruct (GR j J) as [_ Q]. split; [exact Q|]. intros L. destruct (S j J) as (R0 & _ & _ & RS). rewrite (RS L), <- R0. exact Q. }
  assert (K1 : (1 <= k)%nat) by (destruct (eta_cases te t) as [(A & _)|[A _]]; fold k in A; lia).
  assert (FV : forall U, (k <= m_of te)%nat -> date_at te (k - 1) <= t <= U -> U <= date_at te k -> front_value p0 te p k U = p0 U / p0 t).
  { intros U KM _ _. unfold front_value. fold t. destruct (S k ltac:(lia)) as (R0 & Y0 & YS & RS). rewrite (RS ltac:(lia)), Y0, YS, X. replace ((1 + tau te k * nth (k - 1) (initial_rates te) 0) * (p0 (date_at te k) / p0 (date_at te (k - 1)))) with 1 by (unfold Rdiv; rewrite <- Rmult_assoc, (F k) by lia; pose proof (P (date_at te (k - 1))); field; lra). unfold Rpower. rewrite ln_1, Rmult_0_r, exp_0. match goal with |- _ * exp ?e = _ => replace e with 0 by field end. rewrite exp_0. ring. }
  assert (FIRST : t <= date_at te (k - 1) -> t = date_at te (k - 1) /\ k = 1%nat). { intros L. destruct (Nat.eq_dec k 1) as [E|NE]; [rewrite E in *; cbn [Nat.sub] in *; rewrite Z in *; split; [lra|reflexivity]|]. destruct (C76_eta te t G) as (_ & _ & A). fold k in A. pose proof (A (k - 1)%nat ltac:(lia)). lra. }
  assert (SPV : forall U, (k <= m_of te)%nat -> t <= U <= date_at te k -> same_period p0 te p k U = p0 U / p0 t).
  { intros U KM UR. unfold same_period. fold t. destruct (Rle_dec t (date_at te (k - 1))) as [L|L].
    - destruct (FIRST L) as [E _]. rewrite back_fit by (assumption || (apply GR; lia) || (apply S; lia)). rewrite E. reflexivity.
    - apply FV; [exact KM|lra|lra]. }
  split.
  - intros T TT. pose proof (C54_bond f p T p0 G P PP) as B. cbv zeta in B. fold te in B. fold t in B. fold k in B. rewrite B; [|exact OFF|intros _; rewrite Z; lra|exact TT]. apply (f_equal Ok). set (nn := eta te T).
    assert (NN : (nn <= m_of te)%nat) by (rewrite <- (eta_date te G (m_of te)) by lia; apply eta_mono; lra). assert (KN : (k <= nn)%nat) by (apply eta_mono; lra). destruct (C76_eta te T G) as (_ & TN & _). fold nn in TN. specialize (TN NN). destruct (C76_eta te t G) as (_ & TK & _). fold k in TK. specialize (TK ltac:(lia)).
    destruct (Nat.eqb_spec nn k) as [E|NE]; [rewrite E in TN; apply SPV; [lia|lra]|]. rewrite SPV by (lia || lra). replace (nn - (k + 1))%nat with (nn - 1 - k)%nat by lia. rewrite (telescope te p p0 k (nn - 1)) by (assumption || lia || (intros; apply GR; lia)). rewrite back_fit by (assumption || (apply GR; lia) || (apply S; lia)).
    pose proof (P (date_at te k)). pose proof (P (date_at te (nn - 1))). pose proof (P t). field. repeat split; lra.
  - intros KM TK. pose proof (C54_bank f p p0 G P PP) as (B1 & _ & B3 & B4). fold te in B1, B3, B4. fold t in B1, B3, B4. fold k in B1, B4. assert (PG : forall i, (i <= m_of te)%nat -> product (growth te p) 1 i = 1 / p0 (date_at te i)) by (intros i I; rewrite (product_growth te p p0) by (assumption || (intros; apply GR; lia)); rewrite Z, P1; reflexivity). destruct TK as [E|L].
    + rewrite B1 by assumption. rewrite PG by exact KM. rewrite <- E. reflexivity.
    + destruct OFF as [A|A].
      * destruct (FIRST A) as [E K]. rewrite B3; [|rewrite K in A; exact A|rewrite K in L; exact L]. rewrite E, K. cbn [Nat.sub]. rewrite Z, P1. f_equal. field.
      * rewrite B4 by assumption. rewrite PG by exact KM. rewrite FV by (lia || lra || (split; lra)). apply (f_equal Ok). pose proof (P (date_at te k)). pose proof (P t). field. lra.
Qed.
Print Assumptions C75_deterministic.

(** The hypotheses of the deterministic case are met by a quarterly grid and a flat curve. *)
Example C75_witness : exists f p0, good_tenor (tenor f) /\ date_at (tenor f) 0 = 0 /\ (forall i t r, (1 <= i <= m_of (tenor f))%nat -> adapted_vol f i t r = Ok 0) /\ (forall s, 0 < p0 s) /\ p0 0 = 1 /\ fits (tenor f) p0 /\ (2 <= m_of (tenor f))%nat /\ p0 1 <> 1.
Proof.
  set (r := / 20). set (te := {| dates := [0; 1 / 4; 1 / 2]; initial_rates := [4 * (exp (r / 4) - 1); 4 * (exp (r / 4) - 1)] |}). exists {| tenor := te; sigmas := [0; 0]; correlation := [[1; 0]; [0; 1]]; betas := None; schedule := None |}, (flat_p0 r). cbn [tenor].
  split. { unfold good_tenor, te, m_of, date_at. cbn. split; [lia|]. split; [reflexivity|]. split; [lra|]. intros [|[|i]] I; [lra|lra|lia]. }
  split; [reflexivity|]. split. { intros i t q I. unfold adapted_vol, sigma_at, displacement_level. cbn [schedule betas obind sigmas]. assert (i = 1 \/ i = 2)%nat as [-> | ->] by (cbn in I; lia); cbn [nth Nat.sub]; f_equal; ring. }
  split; [intros; apply exp_pos|]. split; [unfold flat_p0; rewrite Rmult_0_r; apply exp_0|]. split.
  { intros j J. unfold tau, date_at, flat_p0. assert (j = 1 \/ j = 2)%nat as [-> | ->] by (cbn in J; lia); cbn [nth Nat.sub dates te initial_rates].
    - replace (1 + (1 / 4 - 0) * (4 * (exp (r / 4) - 1))) with (exp (r / 4)) by field. rewrite <- exp_plus. f_equal. field.
    - replace (1 + (1 / 2 - 1 / 4) * (4 * (exp (r / 4) - 1))) with (exp (r / 4)) by field. rewrite <- exp_plus. f_equal. field. }
  split; [cbn; lia|]. unfold flat_p0. intros E. assert (E' : exp (- r * 1) = exp 0) by (rewrite exp_0; exact E). apply exp_inv in E'. unfold r in E'. lra.
Qed.
Example C76_witness : good_schedule 2 (PiecewiseConstant [[(0, 1 / 100); (1, 1 / 50)]; [(0, 1 / 80)]]).
Proof. split; [reflexivity|]. intros [|[|j]] J; [| |lia]; cbn; (split; [discriminate|]); intros [|i] I; cbn in I |- *; try lia; lra. Qed.
