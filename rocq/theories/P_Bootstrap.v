(** Properties C59 to C62: the bootstrap of the yield curve. *)
From Coq Require Import ZArith Lia Lra Bool List Reals Permutation Sorting.Sorted.
From Coq Require Import ZifyBool.
Import ListNotations.
From Verif Require Import Outcome Ints Date DateFacts Calendar CalendarSpec CalendarFacts AdjustFacts AdvanceFacts
  Names Shipped Cal_unitedstates Cal_unitedkingdom Sorting Fx Imm ImmSpec ImmFacts YieldCurve YieldCurveSpec YieldCurveFacts
  FxForward P_Imm P_YieldCurve Swap SwapSpec SwapFacts SwapValueFacts P_Swap Bootstrap BootstrapSpec BootstrapFacts.
Open Scope Z_scope.
Local Ltac lia := unfold date in *; Lia.lia.

(** ** C59: cash quotes *)

(** The zero rate of a cash quote reproduces its interest: investing one at the
    zero rate from settlement to maturity gives one plus the quoted interest. *)
Theorem C59_reprices : forall oc (q : ois_rate) (v s m : date) (t z : R),
  ois_settle oc q v = Ok s -> ois_maturity oc q v = Ok m -> dc_yf (ix_day_counter (ois_index q)) s m = Ok t ->
  s <> m -> (0 < 1 + t * ois_value q)%R -> ois_zero_rate oc q v = Ok z ->
  ((1 + t * ois_value q) * exp (- z * (IZR (m - s) / 365)) = 1)%R.
Proof. intros oc q v s m t z Hs Hm Ht N P H. exact (ois_reprices oc q v z s m t H Hs Hm Ht N P). Qed.
Print Assumptions C59_reprices.

(** The discount factor carries that rate on to the valuation date: the factor at
    settlement over the factor at maturity is one plus the interest. *)
Theorem C59_discount : forall oc (q : ois_rate) (v s m : date) (t z d : R),
  ois_settle oc q v = Ok s -> ois_maturity oc q v = Ok m -> dc_yf (ix_day_counter (ois_index q)) s m = Ok t ->
  s <> m -> (0 < 1 + t * ois_value q)%R -> ois_zero_rate oc q v = Ok z -> ois_discount oc q v = Ok d ->
  (d = exp (- z * (IZR (m - v) / 365)) /\
   d * (1 + t * ois_value q) = exp (- z * (IZR (s - v) / 365)))%R.
Proof.
  intros oc q v s m t z d Hs Hm Ht N P H D.
  pose proof (ois_reprices oc q v z s m t H Hs Hm Ht N P) as E.
  unfold ois_discount in D. rewrite H in D. cbn [obind] in D. rewrite Hm in D. cbn [obind] in D. apply Ok_R in D. symmetry in D.
  unfold yf365 in *. split; [exact D|]. rewrite D.
  replace (- z * (IZR (m - v) / 365))%R with (- z * (IZR (s - v) / 365) + - z * (IZR (m - s) / 365))%R
    by (rewrite !minus_IZR; field). rewrite exp_plus, Rmult_assoc. rewrite (Rmult_comm (exp _) (1 + _)%R), E. ring.
Qed.
Print Assumptions C59_discount.

(** The five overnight indices have no term: their quotes mature on the day they
    settle, whatever the valuation date, and the zero rate is a division by zero. *)
Theorem C59_overnight_refuted : forall oc (c : index_code) (r : R) (v s m : date),
  In c overnight -> in_range v ->
  ois_settle oc {| ois_value := r; ois_index := from_enum c |} v = Ok s ->
  ois_maturity oc {| ois_value := r; ois_index := from_enum c |} v = Ok m -> s = m.
Proof.
  intros oc c r v s m I R Hs Hm.
  assert (E : ix_period (from_enum c) = SPOT /\ ix_settlement_days (from_enum c) = 0 /\ ix_convention (from_enum c) = ModifiedFollowing /\
              ix_end_of_month (from_enum c) = false).
  { unfold overnight in I. repeat (destruct I as [<-|I]; [repeat split|]). destruct I. }
  destruct E as (E1 & E2 & E3 & E4).
  unfold ois_maturity in Hm. rewrite Hs in Hm. cbn [obind] in Hm. apply unwrapped_Ok in Hm, Hs.
  cbn [ois_index] in Hm, Hs. rewrite E1, E3, E4 in Hm. rewrite E2, E3, E4 in Hs.
  assert (NN : ModifiedFollowing <> Nearest) by discriminate.
  pose proof (advance_fixed oc _ v _ _ _ _ R NN Hs) as F.
  change (adjust (ix_calendar (from_enum c)) s ModifiedFollowing = Ok (Some m)) in Hm.
  rewrite F in Hm. congruence.
Qed.
Print Assumptions C59_overnight_refuted.

(** With a positive rate and maturity after settlement, the zero rate is positive. *)
Theorem C59_sign : forall oc (q : ois_rate) (v s m : date) (t z : R),
  ois_settle oc q v = Ok s -> ois_maturity oc q v = Ok m -> dc_yf (ix_day_counter (ois_index q)) s m = Ok t ->
  s < m -> (0 < t)%R -> (0 < 1 + t * ois_value q)%R -> ois_zero_rate oc q v = Ok z ->
  ((0 < z <-> 0 < ois_value q) /\ (z = 0 <-> ois_value q = 0))%R.
Proof.
  intros oc q v s m t z Hs Hm Ht N T P H.
  pose proof (C59_reprices oc q v s m t z Hs Hm Ht ltac:(lia) P H) as E.
  assert (Y : (0 < IZR (m - s) / 365)%R) by (apply Rdiv_lt_0_compat; [apply IZR_lt; lia|lra]).
  revert E Y. generalize (IZR (m - s) / 365)%R. intros y E Y. set (a := ois_value q) in *.
  assert (G : (0 < z * y <-> 0 < z)%R).
  { split; [|intros; nra]. intros K. apply (Rmult_lt_reg_r y); [exact Y|lra]. }
  assert (G' : (z * y < 0 <-> z < 0)%R).
  { split; [|intros; nra]. intros K. apply (Rmult_lt_reg_r y); [exact Y|lra]. }
  assert (A : (0 < t * a <-> 0 < a)%R).
  { split; [|intros; nra]. intros K. apply (Rmult_lt_reg_l t); [exact T|lra]. }
  assert (A' : (t * a < 0 <-> a < 0)%R).
  { split; [|intros; nra]. intros K. apply (Rmult_lt_reg_l t); [exact T|lra]. }
  assert (B : (0 < z * y -> 0 < t * a)%R).
  { intros K. assert (exp (- z * y) < 1)%R by (rewrite <- exp_0; apply exp_increasing; lra).
    pose proof (exp_pos (- z * y)). nra. }
  assert (B' : (z * y < 0 -> t * a < 0)%R).
  { intros K. assert (1 < exp (- z * y))%R by (rewrite <- exp_0 at 1; apply exp_increasing; lra). nra. }
  assert (C : (z = 0 -> a = 0)%R).
  { intros ->. replace (-0 * y)%R with 0%R in E by ring. rewrite exp_0 in E. assert (t * a = 0)%R by lra.
    destruct (Rmult_integral _ _ H0); lra. }
  destruct (Rtotal_order z 0) as [Z|[Z|Z]]; split; split; intros K; try lra; try (exfalso; tauto || (assert (a < 0)%R by tauto; lra) || (assert (0 < a)%R by tauto; lra)); try tauto.
Qed.
Print Assumptions C59_sign.

Definition euribor_quote (p : period) (r : R) : ois_rate := {| ois_value := r; ois_index := from_enum (EUIBOR p) |}.

Example C59_witness : forall r, (0 < r)%R ->
  let q := euribor_quote (Months 3) r in let v := of_ymd 2023 10 13 in
  exists z d, ois_settle true q v = Ok (of_ymd 2023 10 17) /\ ois_maturity true q v = Ok (of_ymd 2024 1 17) /\
  dc_yf (ix_day_counter (ois_index q)) (of_ymd 2023 10 17) (of_ymd 2024 1 17) = Ok (92 / 360)%R /\
  of_ymd 2023 10 17 < of_ymd 2024 1 17 /\ (0 < 92 / 360)%R /\ (0 < 1 + 92 / 360 * r)%R /\
  ois_zero_rate true q v = Ok z /\ ois_discount true q v = Ok d /\
  ois_settle true {| ois_value := r; ois_index := from_enum SOFR |} v = Ok v /\
  ois_maturity true {| ois_value := r; ois_index := from_enum SOFR |} v = Ok v.
Proof.
  intros r Hr q v.
  assert (Hs : ois_settle true q v = Ok (of_ymd 2023 10 17)) by (vm_compute; reflexivity).
  assert (Hm : ois_maturity true q v = Ok (of_ymd 2024 1 17)) by (vm_compute; reflexivity).
  assert (Z : exists z, ois_zero_rate true q v = Ok z).
  { unfold ois_zero_rate. rewrite Hs, Hm. cbn [obind]. eexists. reflexivity. }
  destruct Z as (z & Z). assert (D : exists d, ois_discount true q v = Ok d).
  { unfold ois_discount. rewrite Z, Hm. cbn [obind]. eexists. reflexivity. }
  destruct D as (d & D). exists z, d. split; [exact Hs|]. split; [exact Hm|].
  split; [change (Ok (IZR (of_ymd 2024 1 17 - of_ymd 2023 10 17) / 360)%R = Ok (92 / 360)%R); 
          replace (of_ymd 2024 1 17 - of_ymd 2023 10 17) with 92 by (vm_compute; reflexivity); reflexivity|].
  split; [vm_compute; reflexivity|]. split; [lra|]. split; [lra|]. split; [exact Z|]. split; [exact D|].
  split; vm_compute; reflexivity.
Qed.

(** ** C60: futures *)

(** A futures quote whose code is an IMM code settles on the first IMM date with
    that code, and matures on the third Wednesday of the month in which its tenor
    ends. *)
Theorem C60_dates : forall oc depth now (f : futures_rate) (v s : date) (a b : Z),
  fut_code f = [a; b] -> In a month_letters -> 48 <= b <= 57 -> 1910 <= year v -> year v + 19 <= MAX_YEAR ->
  fut_settle oc depth now f v = Ok s ->
  v <= s /\ imm_code s = Some [a; b] /\ (forall e : date, v <= e -> imm_code e = Some [a; b] -> s <= e) /\
  (forall m, fut_maturity oc depth now f v = Ok m -> fs_convention (fut_spec f) <> Nearest -> in_range s ->
  is_third_wednesday m /\
  exists e, advance oc (fs_calendar (fut_spec f)) s (fs_period (fut_spec f)) (fs_convention (fut_spec f))
              (Some (fs_end_of_month (fut_spec f))) = Ok (Some e) /\ same_month m e).
Proof.
  intros oc depth now f v s a b C A B Y1 Y2 Hs.
  assert (Hs' := Hs). unfold fut_settle in Hs'. rewrite C in Hs'. apply unwrapped_Ok in Hs'.
  destruct (C30_date_earliest oc depth now v a b A B Y1 Y2) as (r & E & L & Ic & Min).
  assert (r = s) by congruence. subst r. split; [exact L|]. split; [exact Ic|]. split; [exact Min|].
  intros m Hm NN Rs. unfold fut_maturity in Hm. rewrite Hs in Hm. cbn [obind] in Hm. unfold spec_maturity in Hm.
  apply obind_Ok in Hm. destruct Hm as (e & He & Hm). apply unwrapped_Ok in He.
  pose proof (advance_range _ _ _ _ _ _ _ Rs NN He) as Re.
  apply obind_Ok in Hm. destruct Hm as (x & Hx & Hm).
  unfold from_ymd_opt in Hx. destruct (_ && _) eqn:V; [|discriminate]. cbn [ounwrap] in Hx. injection Hx as <-.
  pose proof (ymd_valid e) as [Ve _]. pose proof (of_ymd_fom (year e) (month e) 1 Ve) as Ex.
  replace (12 * year e + (month e - 1)) with (mi e) in Ex by (rewrite mi_def; reflexivity).
  replace (fom (mi e) + (1 - 1)) with (fom (mi e)) in Ex by lia. rewrite Ex in Hm.
  pose proof (fom_mi_bounds e) as Be. pose proof (fom_succ (mi e)) as Fs. pose proof (mil_bounds (mi e)) as Mb.
  assert (Mi : mi (fom (mi e)) = mi e) by (apply mi_unique; lia).
  assert (Rx : in_range (fom (mi e))).
  { apply year_in_range. rewrite (proj1 (year_mi_div _)), Mi, <- (proj1 (year_mi_div e)).
    apply andb_prop in V. destruct V as [V V2]. apply andb_prop in V. destruct V as [_ V1].
    apply Z.leb_le in V1, V2. split; assumption. }
  assert (W : fom (mi e) < wed3 (mi (fom (mi e)))).
  { unfold wed3. cbv zeta. rewrite Mi. pose proof (Z.mod_pos_bound (2 - (fom (mi e) - 1)) 7 ltac:(lia)). lia. }
  rewrite (next_date_early oc depth false _ Rx W) in Hm. injection Hm as <-. rewrite Mi.
  pose proof (wed3_day (mi e)) as (MW & _ & _).
  split; [apply wed3_unique; rewrite MW; reflexivity|]. exists e. split; [exact He|]. apply same_month_mi, MW.
Qed.
Print Assumptions C60_dates.

(** The discount factor of a futures quote: one plus the interest at the futures
    rate (100 less the price, plus the convexity adjustment) takes it from maturity
    to settlement, and an entry of the curve from settlement to the valuation date. *)
Theorem C60_discount : forall oc depth now (f : futures_rate) (v s m : date) (l : list pillar) (t d : R),
  fut_settle oc depth now f v = Ok s -> fut_maturity oc depth now f v = Ok m ->
  dc_yf (ix_day_counter (fut_index f)) s m = Ok t -> fut_discount oc depth now f v l = Ok d ->
  let rate := ((100 - fut_value f + fut_convexity f) / 100)%R in
  (1 + t * rate <> 0)%R ->
  exists p, In p l /\ (d * (1 + t * rate) = exp (- p_zero_rate p * (IZR (s - v) / 365)))%R.
Proof.
  intros oc depth now f v s m l t d Hs Hm Ht H rate N. unfold fut_discount in H. rewrite Hs in H. cbn [obind] in H.
  rewrite Hm in H. cbn [obind] in H. rewrite Ht in H. cbn [obind] in H. cbv zeta in H.
  apply obind_Ok in H. destruct H as (p & Hp & H). apply Ok_R in H. exists p. split; [eapply related_in, Hp|].
  rewrite <- H. replace (implied_quote f) with rate by (unfold rate, implied_quote; field). unfold yf365. field. exact N.
Qed.
Print Assumptions C60_discount.

(** The entry is the nearer of the two around the settlement date (the later one on
    a tie) when an entry spans that date; the entry before is the one before in the
    list. *)
Theorem C60_related_partial : forall (pre : list pillar) (a c : pillar) (post : list pillar) (t : date),
  (forall p, In p (pre ++ [a]) -> ~ (first_settle_date p < t <= p_date p)) ->
  first_settle_date c < t <= p_date c -> c <> hd a (pre ++ [a]) ->
  related_pillar (pre ++ a :: c :: post) t = Ok (if p_date c - t <=? t - p_date a then c else a).
Proof.
  intros pre a c post t H Hc N.
  assert (S : forall first second, related_scan t first second (pre ++ a :: c :: post) = (a, c)).
  { clear N. induction pre as [|x pre IH]; intros first second.
    - cbn [app related_scan].
      replace ((first_settle_date a <? t) && (t <=? p_date a)) with false by (specialize (H a (or_introl eq_refl)); lia).
      replace ((first_settle_date c <? t) && (t <=? p_date c)) with true by lia. reflexivity.
    - cbn [app related_scan].
      replace ((first_settle_date x <? t) && (t <=? p_date x)) with false by (specialize (H x (or_introl eq_refl)); lia).
      apply IH. intros p I. apply H. right. exact I. }
  unfold related_pillar. destruct (pre ++ a :: c :: post) as [|h r] eqn:E; [destruct pre; discriminate|].
  rewrite S. assert (Eh : h = hd a (pre ++ [a])) by (destruct pre; cbn in E |- *; congruence).
  destruct (pillar_eqb c h) eqn:Q.
  - exfalso. apply N. rewrite <- Eh. apply pillar_eqb_eq, Q.
  - reflexivity.
Qed.
Print Assumptions C60_related_partial.

(** When no entry spans it, the first entry is used, however far away: a future
    settling after the last entry is not discounted with the nearest one. *)
Theorem C60_related_refuted :
  ~ (forall (l : list pillar) (t : date) (p q : pillar),
       related_pillar l t = Ok p -> In q l -> Z.abs (t - p_date p) <= Z.abs (t - p_date q)).
Proof.
  intros H.
  specialize (H (stripped_curves two_pillars) (of_ymd 2024 12 18) (pl (of_ymd 2023 11 13) (1 / 100) false)
    (pl (of_ymd 2024 10 14) (3 / 100) false)).
  assert (E : related_pillar (stripped_curves two_pillars) (of_ymd 2024 12 18) = Ok (pl (of_ymd 2023 11 13) (1 / 100) false)).
  { unfold related_pillar, two_pillars. cbn [stripped_curves].
    replace (related_scan _ _ _ _) with (pl (of_ymd 2024 10 14) (3 / 100) false, pl (of_ymd 2023 11 13) (1 / 100) false) by (vm_compute; reflexivity).
    replace (pillar_eqb _ _) with true by (symmetry; apply pillar_eqb_eq; reflexivity).
    destruct (_ <=? _); reflexivity. }
  specialize (H E (or_intror (or_introl eq_refl))). vm_compute in H. apply H. reflexivity.
Qed.
Print Assumptions C60_related_refuted.

Lemma fut_zero_inv oc depth now f v l z : fut_zero_rate oc depth now f v l = Ok z ->
  exists d m, fut_discount oc depth now f v l = Ok d /\ fut_maturity oc depth now f v = Ok m /\
    ((exists p, In p l /\ source p = SourceFutures) /\ z = (- ln d / yf365 v m)%R \/
     (forall p, In p l -> source p <> SourceFutures) /\ exists init p, l = init ++ [p] /\
       z = (- ln (d / cum_discount v l 1) / yf365 (p_date p) m)%R).
Proof.
  unfold fut_zero_rate. intros H. apply obind_Ok in H. destruct H as (d & Hd & H). apply obind_Ok in H. destruct H as (m & Hm & H).
  exists d, m. split; [exact Hd|]. split; [exact Hm|].
  destruct (existsb _ l) eqn:E; cbn [negb] in H.
  - left. apply existsb_exists in E. destruct E as (p & I & E). apply Ok_R in H. split; [|auto].
    exists p. split; [exact I|]. destruct (source p); try reflexivity; discriminate.
  - right. split.
    { intros p I F. assert (X : existsb (fun p => quote_source_eqb (source p) SourceFutures) l = true)
        by (apply existsb_exists; exists p; split; [exact I|rewrite F; reflexivity]). congruence. }
    destruct (rev l) as [|p r] eqn:R; [discriminate|]. apply Ok_R in H. exists (rev r), p. split; [|auto].
    rewrite <- (rev_involutive l), R. reflexivity.
Qed.

(** Once the curve has a future, the zero rate of the next one reproduces its
    discount factor. *)
Theorem C60_zero : forall oc depth now (f : futures_rate) (v m : date) (l : list pillar) (z d : R),
  (exists p, In p l /\ source p = SourceFutures) -> fut_maturity oc depth now f v = Ok m -> v <> m -> (0 < d)%R ->
  fut_discount oc depth now f v l = Ok d -> fut_zero_rate oc depth now f v l = Ok z ->
  (exp (- z * (IZR (m - v) / 365)) = d)%R.
Proof.
  intros oc depth now f v m l z d (p & I & S) Hm N D Hd H. apply fut_zero_inv in H.
  destruct H as (d' & m' & Hd' & Hm' & [[_ ->]|[F _]]); [|exfalso; exact (F p I S)].
  rewrite Hm in Hm'. injection Hm' as <-. rewrite Hd in Hd'. apply Ok_R in Hd'. subst d'.
  fold (yf365 v m). apply exp_solve; [exact D|apply yf365_nonzero, N].
Qed.
Print Assumptions C60_zero.

(** The first future's rate is a forward rate from the last entry's date: chained
    behind the product over the entries of [exp (- rate * time since the entry
    before)] it gives the discount factor. *)
Theorem C60_first_partial : forall oc depth now (f : futures_rate) (v m : date) (init : list pillar) (last : pillar) (z d : R),
  (forall p, In p (init ++ [last]) -> source p <> SourceFutures) -> fut_maturity oc depth now f v = Ok m -> p_date last <> m ->
  (0 < d)%R -> fut_discount oc depth now f v (init ++ [last]) = Ok d -> fut_zero_rate oc depth now f v (init ++ [last]) = Ok z ->
  let dates := v :: map p_date (init ++ [last]) in
  let factor i := match nth_error dates i, nth_error (init ++ [last]) i with
                  | Some prev, Some p => exp (- p_zero_rate p * (IZR (p_date p - prev) / 365)) | _, _ => 1 end%R in
  (fold_right Rmult 1 (map factor (seq 0 (length (init ++ [last])))) * exp (- z * (IZR (m - p_date last) / 365)) = d)%R.
Proof.
  intros oc depth now f v m init last z d F Hm N D Hd H dates factor. apply fut_zero_inv in H.
  destruct H as (d' & m' & Hd' & Hm' & [[(p & I & S) _]|[_ (init' & p & E & ->)]]); [exfalso; exact (F p I S)|].
  apply app_inj_tail in E. destruct E as [<- <-].
  rewrite Hm in Hm'. injection Hm' as <-. rewrite Hd in Hd'. apply Ok_R in Hd'. subst d'.
  fold (yf365 (p_date last) m). rewrite exp_solve; [|apply Rdiv_lt_0_compat; [exact D|apply cum_discount_pos]|apply yf365_nonzero, N].
  assert (E : fold_right Rmult 1%R (map factor (seq 0 (length (init ++ [last])))) = cum_discount v (init ++ [last]) 1).
  { unfold factor, dates. clear. generalize (init ++ [last]) as l. intros l. revert v.
    induction l as [|p l IH]; intros v; [reflexivity|]. cbn [length seq map fold_right cum_discount nth_error].
    rewrite cum_discount_eq, Rmult_1_l. f_equal. rewrite <- (IH (p_date p)). rewrite <- seq_shift, map_map. reflexivity. }
  rewrite E. pose proof (cum_discount_pos (init ++ [last]) v). field. lra.
Qed.
Print Assumptions C60_first_partial.

(** So, read as a zero rate like every other entry's, it does not reproduce the
    discount factor. *)
Definition sample_future : futures_rate :=
  {| fut_value := 96%R; fut_code := [72; 52]; fut_convexity := 0%R; fut_spec := new_futures (Months 3);
     fut_index := from_enum (EUIBOR (Months 3)) |}.
Definition zero_pillar : pillar := pl (of_ymd 2023 11 13) 0 false.

Lemma sample_future_dates : let v := of_ymd 2023 10 13 in
  fut_settle true 10 v sample_future v = Ok (of_ymd 2024 3 20) /\ fut_maturity true 10 v sample_future v = Ok (of_ymd 2024 6 19).
Proof. cbv zeta. split; vm_compute; reflexivity. Qed.

Lemma sample_future_discount v p : v = of_ymd 2023 10 13 -> p_zero_rate p = 0%R -> 
  fut_discount true 10 v sample_future v [p] = Ok (1 / (1 + 91 / 360 * (1 / 25)))%R.
Proof.
  intros -> Z. destruct sample_future_dates as [Hs Hm]. unfold fut_discount. rewrite Hs. cbn [obind]. rewrite Hm. cbn [obind].
  change (dc_yf _ _ _) with (Ok (IZR (of_ymd 2024 6 19 - of_ymd 2024 3 20) / 360)%R). cbn [obind]. cbv zeta.
  replace (of_ymd 2024 6 19 - of_ymd 2024 3 20) with 91 by (vm_compute; reflexivity).
  assert (R : exists q, related_pillar [p] (of_ymd 2024 3 20) = Ok q).
  { unfold related_pillar. destruct (related_scan _ _ _ _). eexists; reflexivity. }
  destruct R as (q & R). rewrite R. cbn [obind]. apply related_in in R. destruct R as [<-|[]]. rewrite Z.
  f_equal. replace (-0 * _)%R with 0%R by ring. rewrite exp_0. unfold implied_quote. cbn [fut_value fut_convexity sample_future]. 
  replace (1 - 96 / 100 + 0 / 100)%R with (1 / 25)%R by lra. ring.
Qed.

Theorem C60_first_refuted :
  ~ (forall oc depth now (f : futures_rate) (v m : date) (l : list pillar) (z d : R),
       fut_maturity oc depth now f v = Ok m -> v <> m -> (0 < d)%R ->
       fut_discount oc depth now f v l = Ok d -> fut_zero_rate oc depth now f v l = Ok z ->
       (exp (- z * (IZR (m - v) / 365)) = d)%R).
Proof.
  intros H. set (v := of_ymd 2023 10 13). destruct sample_future_dates as [_ Hm]. fold v in Hm.
  pose proof (sample_future_discount v zero_pillar eq_refl eq_refl) as Hd.
  set (d := (1 / (1 + 91 / 360 * (1 / 25)))%R) in *.
  assert (D : (0 < d < 1)%R).
  { unfold d. split; [apply Rdiv_lt_0_compat; lra|]. apply (Rmult_lt_reg_r (1 + 91 / 360 * (1 / 25))); [lra|].
    unfold Rdiv at 1. rewrite Rmult_assoc, Rinv_l by lra. lra. }
  specialize (H true 10%positive v sample_future v (of_ymd 2024 6 19) [zero_pillar] (- ln d / yf365 (of_ymd 2023 11 13) (of_ymd 2024 6 19))%R d Hm).
  assert (L : (ln d <> 0)%R) by (intros E; assert (ln d < ln 1)%R by (apply ln_increasing; lra); rewrite ln_1 in *; lra).
  assert (E : exp (- (- ln d / yf365 (of_ymd 2023 11 13) (of_ymd 2024 6 19)) * (IZR (of_ymd 2024 6 19 - v) / 365)) = d).
  { apply H; [vm_compute; discriminate|lra|exact Hd|]. unfold fut_zero_rate. rewrite Hd. cbn [obind]. rewrite Hm. cbn [obind].
    cbn [existsb source quote_source_eqb zero_pillar pl orb negb rev app p_date cum_discount p_zero_rate].
    replace (-0 * _)%R with 0%R by ring. rewrite exp_0. replace (d / (1 * 1))%R with d by field. reflexivity. }
  rewrite <- (exp_ln d) in E at 2 by lra. apply exp_inv in E. unfold yf365 in E.
  replace (of_ymd 2024 6 19 - v) with 250 in E by (vm_compute; reflexivity).
  replace (of_ymd 2024 6 19 - of_ymd 2023 11 13) with 219 in E by (vm_compute; reflexivity).
  apply L. revert E. generalize (ln d). intros x E.
  replace (- (- x / (219 / 365)) * (250 / 365))%R with (x * (250 / 219))%R in E by field. lra.
Qed.
Print Assumptions C60_first_refuted.

Example C60_witness : forall r : R, let v := of_ymd 2023 10 13 in
  let fut := {| first_settle_date := of_ymd 2023 12 20; p_date := of_ymd 2024 3 20; market_rate := r; p_zero_rate := 0%R;
                p_discount := 1%R; source := SourceFutures; hidden_pillar := false |} in
  exists z, fut_code sample_future = [72; 52] /\ In 72 month_letters /\ 1910 <= year v /\ year v + 19 <= MAX_YEAR /\
  fut_settle true 10 v sample_future v = Ok (of_ymd 2024 3 20) /\
  fut_maturity true 10 v sample_future v = Ok (of_ymd 2024 6 19) /\
  fut_discount true 10 v sample_future v [fut] = Ok (1 / (1 + 91 / 360 * (1 / 25)))%R /\
  fut_zero_rate true 10 v sample_future v [fut] = Ok z /\ v <> of_ymd 2024 6 19 /\
  (0 < 1 / (1 + 91 / 360 * (1 / 25)))%R /\
  first_settle_date fut < of_ymd 2024 3 20 <= p_date fut /\
  ~ (first_settle_date zero_pillar < of_ymd 2024 3 20 <= p_date zero_pillar).
Proof.
  intros r v fut. destruct sample_future_dates as [Hs Hm]. fold v in Hs, Hm.
  pose proof (sample_future_discount v fut eq_refl eq_refl) as Hd.
  assert (Z : exists z, fut_zero_rate true 10 v sample_future v [fut] = Ok z).
  { unfold fut_zero_rate. rewrite Hd. cbn [obind]. rewrite Hm. cbn [obind]. eexists. reflexivity. }
  destruct Z as (z & Z). exists z. split; [reflexivity|]. split; [vm_compute; tauto|].
  split; [vm_compute; discriminate|]. split; [vm_compute; discriminate|].
  repeat (split; [assumption|]). split; [vm_compute; discriminate|]. split; [apply Rdiv_lt_0_compat; lra|].
  split; [vm_compute; split; [reflexivity|discriminate]|]. vm_compute. intros [_ H]. apply H. reflexivity.
Qed.

(** ** C61: the stripped curve *)

(** The curve lists the cash entries, then one entry per future, then one per swap,
    each with the dates and quote it comes from; only one-week cash entries are
    hidden. *)
Theorem C61_structure : forall sort brent oc depth now (m : yield_market) (ps : list pillar),
  sorts_by (fun d : date => d) sort -> get_stripped_curve sort brent oc depth now m = Ok ps ->
  exists cash futs swaps, ps = cash ++ futs ++ swaps /\
    (forall p, In p cash -> exists q, In q (ym_cash m) /\
       ois_settle oc q (ym_valuation_date m) = Ok (first_settle_date p) /\
       ois_maturity oc q (ym_valuation_date m) = Ok (p_date p) /\ market_rate p = ois_value q /\
       ois_zero_rate oc q (ym_valuation_date m) = Ok (p_zero_rate p) /\
       ois_discount oc q (ym_valuation_date m) = Ok (p_discount p) /\ source p = SourceOIS /\
       (hidden_pillar p = true <-> ix_period (ois_index q) = Weeks 1)) /\
    (forall q, In q (ym_cash m) -> exists p, In p cash /\ ois_maturity oc q (ym_valuation_date m) = Ok (p_date p) /\
       market_rate p = ois_value q) /\
    Forall2 (fun f p => fut_settle oc depth now f (ym_valuation_date m) = Ok (first_settle_date p) /\
                        fut_maturity oc depth now f (ym_valuation_date m) = Ok (p_date p) /\ market_rate p = fut_value f /\
                        source p = SourceFutures /\ hidden_pillar p = false) (ym_futures m) futs /\
    Forall2 (fun w p => swap_settle_date oc w (ym_valuation_date m) = Ok (first_settle_date p) /\
                        swap_maturity_date oc w (ym_valuation_date m) = Ok (p_date p) /\
                        source p = SourceSwap /\ hidden_pillar p = false /\
                        exists f r, w = f :: r /\ market_rate p = match l_type f with Fixed c => c | Float s => s end) (ym_swaps m) swaps.
Proof.
  intros sort brent oc depth now m ps So H. unfold get_stripped_curve in H. cbv zeta in H.
  apply obind_Ok in H. destruct H as (ms & Hms & H). apply obind_Ok in H. destruct H as (cash & Hc & H).
  apply obind_Ok in H. destruct H as (fs & Hf & H).
  apply futures_loop_inv in Hf. destruct Hf as (futs & -> & Ff). apply swaps_loop_inv in H. destruct H as (swaps & -> & Fs).
  pose proof (cash_maturities_inv _ _ _ _ Hms) as Fm. apply cash_loop_inv in Hc.
  exists cash, futs, swaps. rewrite <- app_assoc. split; [reflexivity|]. split; [|split; [|split]].
  - intros p I. destruct (Forall2_In_r _ _ _ _ Hc I) as (q & Iq & Hq). apply in_flat_map in Iq.
    destruct Iq as (x & _ & Iq). apply filter_In in Iq. exists q. split; [apply Iq|]. apply cash_pillar_inv, Hq.
  - intros q I. destruct (Forall2_In_l _ _ _ _ Fm I) as (x & Ix & Hx).
    assert (Iq : In q (flat_map (fun m0 => filter (matures oc (ym_valuation_date m) m0) (ym_cash m)) (sort ms))).
    { apply in_flat_map. exists x. split; [eapply Permutation_in; [apply So|exact Ix]|]. apply filter_In. split; [exact I|].
      unfold matures. rewrite Hx. apply Z.eqb_refl. }
    destruct (Forall2_In_l _ _ _ _ Hc Iq) as (p & Ip & Hp). exists p. split; [exact Ip|].
    apply cash_pillar_inv in Hp. split; apply Hp.
  - exact Ff.
  - clear -Fs. induction Fs as [|w p l l' (A & B & _ & C & D) F IH]; constructor; auto.
Qed.
Print Assumptions C61_structure.

(** The cash entries are in date order. *)
Theorem C61_sorted : forall sort brent oc depth now (m : yield_market) (ps : list pillar),
  sorts_by (fun d : date => d) sort -> get_stripped_curve sort brent oc depth now m = Ok ps ->
  StronglySorted (fun a b => p_date a <= p_date b) (filter (fun p => quote_source_eqb (source p) SourceOIS) ps).
Proof.
  intros sort brent oc depth now m ps So H.
  destruct (C61_structure _ _ _ _ _ _ _ So H) as (cash & futs & swaps & E & _). 
  unfold get_stripped_curve in H. cbv zeta in H.
  apply obind_Ok in H. destruct H as (ms & Hms & H). apply obind_Ok in H. destruct H as (c & Hc & H).
  apply obind_Ok in H. destruct H as (fs & Hf & H).
  apply futures_loop_inv in Hf. destruct Hf as (fu & -> & Ff). apply swaps_loop_inv in H. destruct H as (sw & -> & Fs).
  clear E cash futs swaps.
  assert (Fc : forall p, In p c -> source p = SourceOIS).
  { intros p I. apply cash_loop_inv in Hc. destruct (Forall2_In_r _ _ _ _ Hc I) as (q & _ & Hq). apply cash_pillar_inv in Hq. apply Hq. }
  assert (N : forall l, (forall p, In p l -> source p <> SourceOIS) -> filter (fun p => quote_source_eqb (source p) SourceOIS) l = []).
  { induction l as [|p l IH]; intros K; [reflexivity|]. cbn [filter]. pose proof (K p (or_introl eq_refl)).
    destruct (source p); try contradiction; cbn; apply IH; intros x I; apply K; right; exact I. }
  assert (Y : filter (fun p => quote_source_eqb (source p) SourceOIS) c = c).
  { clear -Fc. induction c as [|p l IH]; [reflexivity|]. cbn [filter]. rewrite (Fc p (or_introl eq_refl)). cbn [quote_source_eqb].
    f_equal. apply IH. intros x I. apply Fc. right; exact I. }
  rewrite !filter_app, Y, (N fu), (N sw), !app_nil_r.
  - eapply cash_loop_sorted; [|exact Hc]. exact (proj2 (So ms)).
  - intros p I. destruct (Forall2_In_r _ _ _ _ Fs I) as (w & _ & (_ & _ & _ & S & _)). congruence.
  - intros p I. destruct (Forall2_In_r _ _ _ _ Ff I) as (w & _ & (_ & _ & _ & S & _)). congruence.
Qed.
Print Assumptions C61_sorted.

Lemma matures_count oc v l ms x : Forall2 (fun q m => ois_maturity oc q v = Ok m) l ms ->
  length (filter (matures oc v x) l) = occurrences x ms.
Proof.
  unfold occurrences. induction 1 as [|q m l ms H F IH]; [reflexivity|]. cbn [filter count_occ]. unfold matures at 1. rewrite H.
  destruct (Z.eqb_spec m x), (Z.eq_dec m x); try contradiction; cbn [length]; lia.
Qed.

(** A maturity shared by [k] cash quotes gets [k] entries for each of them: the
    number of cash entries is the sum over the quotes of the number of quotes with
    the same maturity.  It is the number of quotes just when the maturities are
    distinct. *)
Theorem C61_count_partial : forall sort brent oc depth now (m : yield_market) (ps : list pillar),
  sorts_by (fun d : date => d) sort -> get_stripped_curve sort brent oc depth now m = Ok ps ->
  exists ms, Forall2 (fun q x => ois_maturity oc q (ym_valuation_date m) = Ok x) (ym_cash m) ms /\
    length (filter (fun p => quote_source_eqb (source p) SourceOIS) ps)
      = fold_right (fun x n => (occurrences x ms + n)%nat) 0%nat ms /\
    (length (filter (fun p => quote_source_eqb (source p) SourceOIS) ps) = length (ym_cash m) <-> NoDup ms).
Proof.
  intros sort brent oc depth now m ps So H.
  unfold get_stripped_curve in H. cbv zeta in H.
  apply obind_Ok in H. destruct H as (ms & Hms & H). apply obind_Ok in H. destruct H as (c & Hc & H).
  apply obind_Ok in H. destruct H as (fs & Hf & H).
  apply futures_loop_inv in Hf. destruct Hf as (fu & -> & Ff). apply swaps_loop_inv in H. destruct H as (sw & -> & Fs).
  pose proof (cash_maturities_inv _ _ _ _ Hms) as Fm. apply cash_loop_inv in Hc.
  assert (Fc : forall p, In p c -> source p = SourceOIS).
  { intros p I. destruct (Forall2_In_r _ _ _ _ Hc I) as (q & _ & Hq). apply cash_pillar_inv in Hq. apply Hq. }
  assert (N : forall l, (forall p, In p l -> source p <> SourceOIS) -> filter (fun p => quote_source_eqb (source p) SourceOIS) l = []).
  { induction l as [|p l IH]; intros K; [reflexivity|]. cbn [filter]. pose proof (K p (or_introl eq_refl)).
    destruct (source p); try contradiction; cbn; apply IH; intros x I; apply K; right; exact I. }
  assert (Y : filter (fun p => quote_source_eqb (source p) SourceOIS) c = c).
  { clear -Fc. induction c as [|p l IH]; [reflexivity|]. cbn [filter]. rewrite (Fc p (or_introl eq_refl)). cbn [quote_source_eqb].
    f_equal. apply IH. intros x I. apply Fc. right; exact I. }
  assert (L : length (filter (fun p => quote_source_eqb (source p) SourceOIS) ((c ++ fu) ++ sw))
      = fold_right (fun x n => (occurrences x ms + n)%nat) 0%nat ms).
  { rewrite !filter_app, Y, (N fu), (N sw), !app_nil_r.
    - rewrite <- (Forall2_length' _ _ _ Hc), flat_map_length. rewrite (fold_count_perm (fun x => occurrences x ms) _ _ (proj1 (So ms))).
      generalize (sort ms). clear -Fm. intros l. induction l as [|a l IH]; [reflexivity|]. cbn [fold_right].
      rewrite IH. f_equal. apply matures_count, Fm.
    - intros p I. destruct (Forall2_In_r _ _ _ _ Fs I) as (w & _ & (_ & _ & _ & S & _)). congruence.
    - intros p I. destruct (Forall2_In_r _ _ _ _ Ff I) as (w & _ & (_ & _ & _ & S & _)). congruence. }
  exists ms. split; [exact Fm|]. split; [exact L|]. rewrite L, (Forall2_length' _ _ _ Fm).
  assert (G : forall l', (forall x, In x l' -> In x ms) ->
     (length l' <= fold_right (fun x n => (occurrences x ms + n)%nat) 0%nat l')%nat /\
     (fold_right (fun x n => (occurrences x ms + n)%nat) 0%nat l' = length l' <-> forall x, In x l' -> occurrences x ms = 1%nat)).
  { induction l' as [|a l' IH]; intros K; [cbn; split; [lia|split; [intros _ x []|reflexivity]]|].
    destruct (IH (fun x I => K x (or_intror I))) as [I1 I2]. cbn [fold_right length].
    assert (P : (occurrences a ms > 0)%nat) by (apply count_occ_In, K; left; reflexivity).
    split; [lia|]. split.
    - intros E x [<-|I]; [lia|]. apply I2; [lia|exact I].
    - intros E. rewrite (E a (or_introl eq_refl)), (proj2 I2); [reflexivity|]. intros x I. apply E. right; exact I. }
  rewrite (proj2 (G ms (fun x I => I))). split.
  - intros K. apply (NoDup_count_occ' Z.eq_dec). exact K.
  - intros K. exact (proj1 (NoDup_count_occ' Z.eq_dec ms) K).
Qed.
Print Assumptions C61_count_partial.

Definition cash_market (l : list ois_rate) : yield_market :=
  {| ym_valuation_date := of_ymd 2023 10 13; ym_cash := l; ym_futures := []; ym_swaps := [] |}.

Lemma euribor_pillar r : exists p, cash_pillar true (of_ymd 2023 10 13) (euribor_quote (Months 3) r) = Ok p.
Proof.
  assert (Hs : ois_settle true (euribor_quote (Months 3) r) (of_ymd 2023 10 13) = Ok (of_ymd 2023 10 17)) by (vm_compute; reflexivity).
  assert (Hm : ois_maturity true (euribor_quote (Months 3) r) (of_ymd 2023 10 13) = Ok (of_ymd 2024 1 17)) by (vm_compute; reflexivity).
  unfold cash_pillar, ois_discount, ois_zero_rate. rewrite Hs, Hm. cbn [obind]. eexists. reflexivity.
Qed.

(** Two quotes for the same maturity give four entries. *)
Theorem C61_count_refuted :
  ~ (forall sort brent oc depth now (m : yield_market) (ps : list pillar),
       sorts_by (fun d : date => d) sort -> get_stripped_curve sort brent oc depth now m = Ok ps ->
       length ps = (length (ym_cash m) + length (ym_futures m) + length (ym_swaps m))%nat).
Proof.
  intros H. set (q := euribor_quote (Months 3) (1 / 20)). destruct (euribor_pillar (1 / 20)) as (p & P). fold q in P.
  assert (Hm : ois_maturity true q (of_ymd 2023 10 13) = Ok (of_ymd 2024 1 17)) by (vm_compute; reflexivity).
  specialize (H (isort_by (fun d : date => d)) (fun _ _ _ => Panic PUnwrap) true 10%positive 0 (cash_market [q; q]) [p; p; p; p] (isort_sorts _)).
  assert (E : get_stripped_curve (isort_by (fun d : date => d)) (fun _ _ _ => Panic PUnwrap) true 10 0 (cash_market [q; q]) = Ok [p; p; p; p]).
  { unfold get_stripped_curve, cash_market. cbn [ym_valuation_date ym_cash ym_futures ym_swaps cash_maturities].
    rewrite Hm. cbn [result_unwrap obind].
    replace (isort_by _ _) with [of_ymd 2024 1 17; of_ymd 2024 1 17] by (vm_compute; reflexivity).
    cbn [cash_loop cash_at]. rewrite Hm. cbn [result_unwrap obind]. rewrite Z.eqb_refl, P. cbn [obind app futures_loop swaps_loop]. reflexivity. }
  specialize (H E). vm_compute in H. discriminate H.
Qed.
Print Assumptions C61_count_refuted.

(** The discount factor of a cash entry is that of its zero rate; that of a swap
    entry is left at zero. *)
Theorem C61_discounts_partial : forall sort brent oc depth now (m : yield_market) (ps : list pillar) (p : pillar),
  sorts_by (fun d : date => d) sort -> get_stripped_curve sort brent oc depth now m = Ok ps -> In p ps ->
  (source p = SourceOIS -> p_discount p = exp (- p_zero_rate p * (IZR (p_date p - ym_valuation_date m) / 365))) /\
  (source p = SourceSwap -> p_discount p = 0%R).
Proof.
  intros sort brent oc depth now m ps p So H I.
  unfold get_stripped_curve in H. cbv zeta in H.
  apply obind_Ok in H. destruct H as (ms & Hms & H). apply obind_Ok in H. destruct H as (c & Hc & H).
  apply obind_Ok in H. destruct H as (fs & Hf & H).
  apply futures_loop_inv in Hf. destruct Hf as (fu & -> & Ff). apply swaps_loop_inv in H. destruct H as (sw & -> & Fs).
  apply cash_loop_inv in Hc. apply in_app_or in I. destruct I as [I|I]; [apply in_app_or in I; destruct I as [I|I]|].
  - destruct (Forall2_In_r _ _ _ _ Hc I) as (q & _ & Hq). apply cash_pillar_inv in Hq.
    destruct Hq as (_ & Hm & _ & Hz & Hd & S & _). split; [intros _|congruence].
    unfold ois_discount in Hd. rewrite Hz in Hd. cbn [obind] in Hd. rewrite Hm in Hd. cbn [obind] in Hd. apply Ok_R in Hd. symmetry. exact Hd.
  - destruct (Forall2_In_r _ _ _ _ Ff I) as (w & _ & (_ & _ & _ & S & _)). split; congruence.
  - destruct (Forall2_In_r _ _ _ _ Fs I) as (w & _ & (_ & _ & D & S & _)). split; congruence.
Qed.
Print Assumptions C61_discounts_partial.

Lemma swaps_loop_priced brent eps : (forall lo hi f r, brent lo hi f = Ok r -> root_within eps f r) ->
  forall oc v l outputs ps, swaps_loop brent oc v outputs l = Ok ps ->
  exists ss, ps = outputs ++ ss /\ length ss = length l /\
    forall i w p, nth_error l i = Some w -> nth_error ss i = Some p ->
      root_within eps (fun x => npv oc w v {| c_valuation_date := v; stripped_curves := (outputs ++ firstn i ss) ++ [with_zero p x] |})
        (p_zero_rate p).
Proof.
  intros B oc v. induction l as [|w r IH]; intros outputs ps H; cbn [swaps_loop] in H.
  - injection H as <-. exists []. rewrite app_nil_r. repeat (split; [reflexivity|]). intros [|i] w p H; discriminate.
  - apply obind_Ok in H. destruct H as (s & Hs & H). apply obind_Ok in H. destruct H as (m & Hm & H).
    apply obind_Ok in H. destruct H as (f & Hf & H). cbv zeta in H. apply obind_Ok in H. destruct H as (z & Hz & H).
    apply (proj1 (result_unwrap_Ok _ _)) in Hz. apply (C43_solve brent eps B) in Hz.
    unfold amend_last in H. rewrite rev_unit in H. cbn [obind] in H. rewrite rev_involutive in H.
    apply IH in H. destruct H as (ss & -> & L & F). eexists. rewrite <- app_assoc. cbn [app]. split; [reflexivity|].
    split; [cbn; congruence|]. intros [|i] w' p Hw Hp; cbn in Hw, Hp.
    + injection Hw as <-. apply (f_equal (fun o => match o with Some x => x | None => p end)) in Hp. subst p.
      cbn [firstn p_zero_rate]. rewrite app_nil_r. exact Hz.
    + specialize (F i w' p Hw Hp). cbn [firstn]. rewrite <- app_assoc in F. cbn [app] in F. exact F.
Qed.

(** Each swap is repriced, within the root finder's tolerance, on the curve made of
    the entries before its own and its own; so the last swap is repriced on the
    final curve.  [brent] is the external root finder under its contract. *)
Theorem C61_swaps : forall brent eps,
  (forall lo hi f r, brent lo hi f = Ok r -> root_within eps f r) ->
  forall sort oc depth now (m : yield_market) (ps : list pillar) (i : nat) (w : list leg),
  get_stripped_curve sort brent oc depth now m = Ok ps -> nth_error (ym_swaps m) i = Some w ->
  exists before p, (exists after, ps = before ++ p :: after /\ length after = (length (ym_swaps m) - S i)%nat) /\
    root_within eps (fun x => npv oc w (ym_valuation_date m)
      {| c_valuation_date := ym_valuation_date m; stripped_curves := before ++ [with_zero p x] |}) (p_zero_rate p).
Proof.
  intros brent eps B sort oc depth now m ps i w H Hw.
  unfold get_stripped_curve in H. cbv zeta in H.
  apply obind_Ok in H. destruct H as (ms & Hms & H). apply obind_Ok in H. destruct H as (c & Hc & H).
  apply obind_Ok in H. destruct H as (fs & Hf & H).
  apply (swaps_loop_priced brent eps B) in H. destruct H as (ss & -> & L & F).
  assert (Il : (i < length ss)%nat) by (rewrite L; apply nth_error_Some; congruence).
  destruct (nth_error ss i) as [p|] eqn:Hp; [|apply nth_error_None in Hp; lia].
  exists (fs ++ firstn i ss), p. split; [|exact (F i w p Hw Hp)].
  destruct (nth_error_split _ _ Hp) as (l1 & l2 & E & L1). exists l2.
  assert (F1 : firstn i ss = l1).
  { rewrite E. subst i. rewrite firstn_app, Nat.sub_diag, firstn_all. cbn. apply app_nil_r. }
  rewrite F1, E, <- app_assoc. split; [reflexivity|]. rewrite <- L, E, app_length. cbn [length]. lia.
Qed.
Print Assumptions C61_swaps.

(** But the solved rate does not enter the discount factor at the swap's own
    maturity or later: there the curve reads the first entry's rate, whatever the
    last one is. *)
Theorem C61_own_maturity_refuted : forall (v d : date) (h : pillar) (rest : list pillar) (p : pillar) (x y : R),
  in_range (d + 1) -> visible h -> p_date p <= d ->
  (forall q, In q (h :: rest) -> p_date q <= p_date p) ->
  discount {| c_valuation_date := v; stripped_curves := (h :: rest) ++ [with_zero p x] |} d =
  discount {| c_valuation_date := v; stripped_curves := (h :: rest) ++ [with_zero p y] |} d.
Proof.
  intros v d h rest p x y R V P L.
  assert (Z : forall z, zero_rate {| c_valuation_date := v; stripped_curves := (h :: rest) ++ [with_zero p z] |} d = Ok (p_zero_rate h)).
  { intros z. eapply (zero_rate_beyond_visible _ d h (rest ++ [with_zero p z])); [exact R|reflexivity|exact V|].
    intros q I _. cbn [app] in I. change (In q ((h :: rest) ++ [with_zero p z])) in I. apply in_app_or in I.
    destruct I as [I|[<-|[]]]; [specialize (L q I); lia|cbn [with_zero p_date]; lia]. }
  unfold discount. rewrite !Z. reflexivity.
Qed.
Print Assumptions C61_own_maturity_refuted.

Example C61_witness : forall r,
  let q := euribor_quote (Months 3) r in let w := euribor_quote (Weeks 1) r in
  exists p1 p2, get_stripped_curve (isort_by (fun d : date => d)) (fun _ _ _ => Panic PUnwrap) true 10 0 (cash_market [q; w]) = Ok [p1; p2] /\
    sorts_by (fun d : date => d) (isort_by (fun d : date => d)) /\
    p_date p1 = of_ymd 2023 10 24 /\ p_date p2 = of_ymd 2024 1 17 /\ hidden_pillar p1 = true /\ hidden_pillar p2 = false.
Proof.
  intros r q w. destruct (euribor_pillar r) as (p2 & P2). fold q in P2.
  assert (Hm : ois_maturity true q (of_ymd 2023 10 13) = Ok (of_ymd 2024 1 17)) by (vm_compute; reflexivity).
  assert (Hs' : ois_settle true w (of_ymd 2023 10 13) = Ok (of_ymd 2023 10 17)) by (vm_compute; reflexivity).
  assert (Hm' : ois_maturity true w (of_ymd 2023 10 13) = Ok (of_ymd 2023 10 24)) by (vm_compute; reflexivity).
  assert (P1 : exists p, cash_pillar true (of_ymd 2023 10 13) w = Ok p).
  { unfold cash_pillar, ois_discount, ois_zero_rate. rewrite Hs', Hm'. cbn [obind]. eexists. reflexivity. }
  destruct P1 as (p1 & P1). exists p1, p2. split.
  - unfold get_stripped_curve, cash_market. cbn [ym_valuation_date ym_cash ym_futures ym_swaps cash_maturities].
    rewrite Hm, Hm'. cbn [result_unwrap obind].
    replace (isort_by _ _) with [of_ymd 2023 10 24; of_ymd 2024 1 17] by (vm_compute; reflexivity).
    cbn [cash_loop cash_at]. rewrite Hm, Hm'. cbn [result_unwrap obind].
    replace (of_ymd 2024 1 17 =? of_ymd 2023 10 24) with false by (vm_compute; reflexivity).
    replace (of_ymd 2023 10 24 =? of_ymd 2024 1 17) with false by (vm_compute; reflexivity).
    rewrite !Z.eqb_refl, P1, P2. cbn [obind app futures_loop swaps_loop]. reflexivity.
  - split; [apply isort_sorts|]. apply cash_pillar_inv in P1, P2.
    destruct P1 as (_ & A & _ & _ & _ & _ & B). destruct P2 as (_ & A' & _ & _ & _ & _ & B').
    split; [congruence|]. split; [congruence|]. split; [apply B; reflexivity|].
    destruct (hidden_pillar p2); [|reflexivity]. exfalso. assert (X : Months 3 = Weeks 1) by (apply B'; reflexivity). discriminate X.
Qed.

(** ** C62: the index table *)

(** Six of the seven indices' currencies, calendars and day counts; two are wrong. *)
Theorem C62_published_partial : forall c : index_code,
  (c = EONIA \/ c = ESTR \/ c = SONIA \/ c = SOFR \/ exists p, c = EUIBOR p) -> as_published c.
Proof.
  intros c [->|[->|[->|[->|[p ->]]]]]; [repeat split..|]. destruct p; repeat split.
Qed.
Print Assumptions C62_published_partial.

(** AONIA, an Australian rate, fixes on Austria's calendar; CDOR, a Canadian one,
    is in US dollars. *)
Theorem C62_published_refuted : ~ as_published AONIA /\ forall p, ~ as_published (CDOR p).
Proof.
  split.
  - intros (_ & _ & H). specialize (H (of_ymd 2023 1 26)). vm_compute in H. discriminate H.
  - intros p (H & _). discriminate H.
Qed.
Print Assumptions C62_published_refuted.

(** Euribor quotes settle on the second TARGET business day after the valuation date. *)
Theorem C62_spot : forall oc (p : period) (r : R) (v s : date), in_range v ->
  ois_settle oc {| ois_value := r; ois_index := from_enum (EUIBOR p) |} v = Ok s ->
  v < s /\ opened (shipped_calendar Target) s /\ open_days (shipped_calendar Target) (v + 1) (s + 1) = 2.
Proof.
  intros oc p r v s R H. apply unwrapped_Ok in H.
  assert (E : ix_calendar (from_enum (EUIBOR p)) = shipped_calendar Target /\ ix_settlement_days (from_enum (EUIBOR p)) = 2)
    by (destruct p; split; reflexivity).
  destruct E as [E1 E2]. cbn [ois_index] in H. rewrite E1, E2 in H. apply advance_Days in H; [|lia].
  apply advance_fwd in H; [|exact R|lia]. destruct H as (A & B & _ & C). split; [lia|]. split; assumption.
Qed.
Print Assumptions C62_spot.

Example C62_witness :
  as_published SOFR /\ in_range (of_ymd 2023 12 22) /\
  ois_settle true {| ois_value := 0; ois_index := from_enum (EUIBOR (Months 3)) |} (of_ymd 2023 12 22) = Ok (of_ymd 2023 12 28).
Proof.
  split; [apply C62_published_partial; tauto|]. split; [apply in_range_val; vm_compute; split; discriminate|].
  vm_compute; reflexivity.
Qed.
