(** C54: bond prices and the bank account of the forward market model. *)
From Coq Require Import Bool List Reals Lra Lia.
From Coquelicot Require Import Coquelicot.
Import ListNotations.
From Verif Require Import Outcome Fmm FmmFacts.
Open Scope R_scope.

(** ** Independent notions: equations (30) and (36) with the linear decay *)
Definition growth (te : fmm_tenor) (p : fmm_path) (j : nat) : R := 1 + tau te j * rate p j.
(** How far [s] is in the j-th period. *)
Definition elapsed (te : fmm_tenor) (j : nat) (s : R) : R := (s - date_at te (j - 1)) / (date_at te j - date_at te (j - 1)).
Definition back_value (p0 : R -> R) (te : fmm_tenor) (p : fmm_path) (n : nat) (T : R) : R :=
  let g := elapsed te n T in
  p0 T / p0 (date_at te (n - 1)) * Rpower (growth te p n * (p0 (date_at te n) / p0 (date_at te (n - 1)))) (- g) * exp (g * (1 - g) / 2 * y_of p n).
Definition front_value (p0 : R -> R) (te : fmm_tenor) (p : fmm_path) (k : nat) (T : R) : R :=
  let t := path_t p in
  let ys := nth (k - 1) (y_at_start p) 0 in
  let a := elapsed te k t in let b := elapsed te k T in
  p0 T / p0 t * Rpower ((1 + tau te k * nth (k - 1) (rates_at_start p) 0) * (p0 (date_at te k) / p0 (date_at te (k - 1)))) (- (b - a)) *
  exp (- (b - a) * x_active p - (b - a) ^ 2 / 2 * (y_of p k - ys) + ys / 2 * (b * (1 - b) - a * (1 - a))).
Definition same_period (p0 : R -> R) (te : fmm_tenor) (p : fmm_path) (k : nat) (T : R) : R :=
  if Rle_dec (path_t p) (date_at te (k - 1)) then back_value p0 te p k T else front_value p0 te p k T.

Definition positive_path (te : fmm_tenor) (p : fmm_path) : Prop :=
  forall j, (1 <= j <= m_of te)%nat -> 0 < growth te p j /\ ((j <= eta te (path_t p))%nat -> 0 < 1 + tau te j * nth (j - 1) (rates_at_start p) 0).

(** ** The two stubs *)
Lemma elapsed_tau te j s : elapsed te j s = (s - date_at te (j - 1)) / tau te j.
Proof. reflexivity. Qed.
Lemma back_eq f p k T p0 : good_tenor (tenor f) -> (forall s, 0 < p0 s) -> (1 <= k <= m_of (tenor f))%nat -> 0 < growth (tenor f) p k -> path_t p <= date_at (tenor f) (k - 1) + tiny -> date_at (tenor f) (k - 1) <= T <= date_at (tenor f) k ->
  back_stub_forward_bond f p k T (p0_fwd p0 (date_at (tenor f) (k - 1)) T) (p0_fwd p0 (date_at (tenor f) (k - 1)) (date_at (tenor f) k)) = Ok (back_value p0 (tenor f) p k T).
Proof.
  intros G P K GR PT BT. pose proof tiny_pos as TP. set (te := tenor f) in *. pose proof (tau_pos te G k K) as TK. unfold back_stub_forward_bond. fold te.
  assert (B1 : ((1 <=? k) && (k <=? m_of te))%nat = true) by (apply andb_true_iff; split; apply Nat.leb_le; lia). rewrite B1. cbn [negb].
  rewrite (proj2 (Rleb_true (path_t p) (date_at te (k - 1) + tiny)) PT). cbn [negb]. rewrite (proj2 (Rltb_true _ _)) by lra. rewrite (proj2 (Rleb_true _ _)) by lra. cbn [negb andb].
  pose proof (dates_lt te G (k - 1) k ltac:(lia)) as DL. rewrite !(big_g_inside te G) by (assumption || lra). apply (f_equal Ok). unfold back_value, p0_fwd, powf. rewrite !elapsed_tau.
  rewrite <- Rpower_mult_distr by (exact GR || (apply Rdiv_lt_0_compat; apply P)). unfold growth. fold te.
  replace ((date_at te k - T) / tau te k) with (1 - (T - date_at te (k - 1)) / tau te k) by (unfold tau in *; field; lra).
  set (g := (T - date_at te (k - 1)) / tau te k). rewrite <- !Rmult_assoc. f_equal. f_equal. field.
Qed.
Lemma front_eq f p k T p0 : good_tenor (tenor f) -> (forall s, 0 < p0 s) -> eta (tenor f) (path_t p) = k -> (1 <= k <= m_of (tenor f))%nat -> 0 < 1 + tau (tenor f) k * nth (k - 1) (rates_at_start p) 0 -> date_at (tenor f) (k - 1) <= path_t p <= date_at (tenor f) k -> path_t p <= T <= date_at (tenor f) k ->
  front_stub_bond f p T (p0_fwd p0 (path_t p) T) (p0_fwd p0 (date_at (tenor f) (k - 1)) (date_at (tenor f) k)) = Ok (front_value p0 (tenor f) p k T).
Proof.
  intros G P E K GR PT BT. pose proof tiny_pos as TP. set (te := tenor f) in *. pose proof (tau_pos te G k K) as TK. unfold front_stub_bond. fold te. rewrite E.
  assert (B1 : ((1 <=? k) && (k <=? m_of te))%nat = true) by (apply andb_true_iff; split; apply Nat.leb_le; lia). rewrite B1. cbn [negb].
  rewrite !(proj2 (Rltb_true _ _)) by lra. rewrite (proj2 (Rleb_true _ _)) by lra. cbn [negb andb].
  pose proof (dates_lt te G (k - 1) k ltac:(lia)) as DL. rewrite !(big_g_inside te G) by (assumption || lra). apply (f_equal Ok). unfold front_value, p0_fwd, powf. rewrite !elapsed_tau.
  rewrite <- Rpower_mult_distr by (exact GR || (apply Rdiv_lt_0_compat; apply P)).
  replace ((T - path_t p) / tau te k) with ((T - date_at te (k - 1)) / tau te k - (path_t p - date_at te (k - 1)) / tau te k) by (field; lra).
  replace ((date_at te k - T) / tau te k) with (1 - (T - date_at te (k - 1)) / tau te k) by (unfold tau in *; field; lra).
  replace ((date_at te k - path_t p) / tau te k) with (1 - (path_t p - date_at te (k - 1)) / tau te k) by (unfold tau in *; field; lra).
  set (b := (T - date_at te (k - 1)) / tau te k). set (a := (path_t p - date_at te (k - 1)) / tau te k).
  set (x1 := Rpower _ _). set (x2 := Rpower _ _). replace (p0 T / p0 (path_t p) * (x2 * x1)) with (p0 T / p0 (path_t p) * x1 * x2) by ring. f_equal. f_equal. field.
Qed.

(** ** Bond prices *)
(** The price at a time not within 1e-15 after the start of its period: the stubs of equations (30)
    and (36), with the single-period discounts between them. *)
Theorem C54_bond : forall f p T p0, good_tenor (tenor f) -> (forall s, 0 < p0 s) -> positive_path (tenor f) p ->
  let te := tenor f in let t := path_t p in let k := eta te t in let n := eta te T in
  (t <= date_at te (k - 1) \/ date_at te (k - 1) + tiny < t) -> (k = 1%nat -> date_at te 0 <= T) -> t + tiny <= T <= date_at te (m_of te) ->
  bond_price f p T p0 = Ok (if (n =? k)%nat then same_period p0 te p k T
    else same_period p0 te p k (date_at te k) * product (fun j => / growth te p j) (k + 1) (n - (k + 1)) * back_value p0 te p n T).
Proof.
  intros f p T p0 G P PP te t k n OFF FIRST TT. pose proof tiny_pos as TP. unfold bond_price. fold te. fold t. fold k. fold n.
  rewrite (proj2 (Rleb_true _ _)) by lra. cbn [negb]. destruct (Rlt_dec (Rabs (T - t)) tiny) as [L|_]; [rewrite Rabs_right in L by lra; lra|].
  assert (NN : (n <= m_of te)%nat). { pose proof (proj1 G : (1 <= m_of te)%nat) as M1. rewrite <- (eta_date te G (m_of te)) by lia. apply eta_mono; lra. }
  assert (KN : (k <= n)%nat) by (apply eta_mono; lra). assert (KR : (1 <= k <= m_of te)%nat) by (destruct (eta_cases te t) as [(A & _)|[A _]]; fold k in A; lia).
  assert (TK : t <= date_at te k) by (destruct (eta_cases te t) as [(_ & A & _)|[A _]]; fold k in A; [exact A|lia]).
  assert (TN : T <= date_at te n) by (destruct (eta_cases te T) as [(_ & A & _)|[A _]]; fold n in A; [exact A|lia]).
  assert (TN1 : (k < n)%nat -> date_at te (n - 1) <= T). { intros H. destruct (eta_cases te T) as [(_ & _ & A)|[A _]]; fold n in A; [|lia]. left. apply A. lia. }
  pose proof (dates_lt te G (k - 1) k ltac:(lia)) as DK.
  assert (KT : date_at te (k - 1) <= t \/ k = 1%nat). { destruct (Nat.eq_dec k 1); [right; assumption|left]. destruct (eta_cases te t) as [(_ & _ & A)|[A _]]; fold k in A; [|lia]. left. apply A. lia. }
  assert (SP : forall U, t <= U <= date_at te k -> (t <= date_at te (k - 1) -> date_at te (k - 1) <= U) ->
    (if Rle_dec t (date_at te (k - 1) + tiny) then back_stub_forward_bond f p k U (p0_fwd p0 (date_at te (k - 1)) U) (p0_fwd p0 (date_at te (k - 1)) (date_at te k))
     else front_stub_bond f p U (p0_fwd p0 t U) (p0_fwd p0 (date_at te (k - 1)) (date_at te k))) = Ok (same_period p0 te p k U)).
  { intros U UR UB. unfold same_period. fold t. destruct (Rle_dec t (date_at te (k - 1) + tiny)) as [A|A]; destruct (Rle_dec t (date_at te (k - 1))) as [B|B]; try (exfalso; destruct OFF; lra).
    - apply back_eq; try assumption. { apply PP; assumption. } split; [apply UB; exact B|apply UR].
    - apply front_eq; try assumption; try reflexivity. { apply PP; [exact KR|reflexivity]. } fold te t. split; [lra|exact TK]. }
  destruct (Nat.eqb_spec n k) as [E|NE].
  - assert (B1 : ((1 <=? k) && (k <=? m_of te))%nat = true) by (apply andb_true_iff; split; apply Nat.leb_le; lia). rewrite <- andb_assoc, B1. cbn [andb]. rewrite E in TN. apply SP; [lra|]. intros H. destruct (Nat.eq_dec k 1) as [K1|K1]; [rewrite K1; apply FIRST; exact K1|]. destruct KT; [lra|contradiction].
  - cbn [andb]. rewrite (proj2 (Nat.leb_le _ _) NN). cbn [negb]. rewrite SP by (lra || (intros; lra)). cbn [obind]. rewrite back_eq; try assumption.
    + cbn [obind]. rewrite fold_over, Rmult_1_l. reflexivity.
    + fold te. lia.
    + apply PP. fold te. lia.
    + pose proof (dates_le te G k (n - 1) ltac:(lia)). fold t te. lra.
    + split; [apply TN1; lia|exact TN].
Qed.
Print Assumptions C54_bond.

(** The back stub starts at one and ends at the single-period discount. *)
Theorem C54_joins : forall f p k p0, good_tenor (tenor f) -> (forall s, 0 < p0 s) -> (1 <= k <= m_of (tenor f))%nat -> 0 < growth (tenor f) p k -> path_t p <= date_at (tenor f) (k - 1) ->
  let at_ := fun T => back_stub_forward_bond f p k T (p0_fwd p0 (date_at (tenor f) (k - 1)) T) (p0_fwd p0 (date_at (tenor f) (k - 1)) (date_at (tenor f) k)) in
  at_ (date_at (tenor f) (k - 1)) = Ok 1 /\ at_ (date_at (tenor f) k) = Ok (1 / (1 + tau (tenor f) k * rate p k)).
Proof.
  intros f p k p0 G P K GR PT. cbv zeta. pose proof tiny_pos as TP. pose proof (dates_lt _ G (k - 1) k ltac:(lia)) as DL. set (te := tenor f) in *. assert (Q : forall a b, 0 < p0 a / p0 b) by (intros; apply Rdiv_lt_0_compat; apply P).
  unfold te at 1 2 3 4 5 6 7 8. rewrite (back_eq f p k (date_at (tenor f) (k - 1)) p0), (back_eq f p k (date_at (tenor f) k) p0) by (assumption || (fold te; lra)). fold te. unfold back_value. split; apply (f_equal Ok).
  - replace (elapsed te k (date_at te (k - 1))) with 0 by (unfold elapsed; field; lra). rewrite Ropp_0, Rpower_O by (apply Rmult_lt_0_compat; [exact GR|apply Q]). replace (0 * (1 - 0) / 2 * y_of p k) with 0 by field. rewrite exp_0. pose proof (P (date_at te (k - 1))). field. lra.
  - replace (elapsed te k (date_at te k)) with 1 by (unfold elapsed; field; lra). rewrite Rpower_Ropp, Rpower_1 by (apply Rmult_lt_0_compat; [exact GR|apply Q]). replace (1 * (1 - 1) / 2 * y_of p k) with 0 by field. rewrite exp_0. pose proof (P (date_at te (k - 1))). pose proof (P (date_at te k)). unfold growth in *. field. repeat split; lra.
Qed.
Print Assumptions C54_joins.

Lemma back_end f p k p0 : good_tenor (tenor f) -> (forall s, 0 < p0 s) -> (1 <= k <= m_of (tenor f))%nat -> 0 < growth (tenor f) p k -> back_value p0 (tenor f) p k (date_at (tenor f) k) = / growth (tenor f) p k.
Proof.
  intros G P K GR. pose proof (dates_lt _ G (k - 1) k ltac:(lia)) as DL. set (te := tenor f) in *. unfold back_value.
  replace (elapsed te k (date_at te k)) with 1 by (unfold elapsed; field; lra). rewrite Rpower_Ropp, Rpower_1 by (apply Rmult_lt_0_compat; [exact GR|apply Rdiv_lt_0_compat; apply P]). replace (1 * (1 - 1) / 2 * y_of p k) with 0 by field. rewrite exp_0. pose proof (P (date_at te (k - 1))). pose proof (P (date_at te k)). field. repeat split; lra.
Qed.
Lemma front_now p0 te p k : good_tenor te -> (forall s, 0 < p0 s) -> (1 <= k <= m_of te)%nat -> 0 < 1 + tau te k * nth (k - 1) (rates_at_start p) 0 -> front_value p0 te p k (path_t p) = 1.
Proof.
  intros G P K GR. unfold front_value. set (a := elapsed te k (path_t p)). replace (a - a) with 0 by ring. rewrite Ropp_0, Rpower_O by (apply Rmult_lt_0_compat; [exact GR|apply Rdiv_lt_0_compat; apply P]).
  match goal with |- _ * exp ?e = _ => replace e with 0 by field end. rewrite exp_0. pose proof (P (path_t p)). field. lra.
Qed.

(** At the tenor dates the prices chain: P(t, T_n) is P(t, T_k) times the single-period discounts,
    with k the period of t; on a tenor date T_k itself that is the product alone. *)
Theorem C54_chain : forall f p n p0, good_tenor (tenor f) -> (forall s, 0 < p0 s) -> positive_path (tenor f) p ->
  let te := tenor f in let t := path_t p in let k := eta te t in
  (t <= date_at te (k - 1) \/ date_at te (k - 1) + tiny < t) -> (k < n <= m_of te)%nat -> (t = date_at te k \/ t + tiny <= date_at te k) -> t + tiny <= date_at te n ->
  exists w, bond_price f p (date_at te k) p0 = Ok w /\ (t = date_at te k -> w = 1) /\ bond_price f p (date_at te n) p0 = Ok (w * product (fun j => / (1 + tau te j * rate p j)) (k + 1) (n - k)).
Proof.
  intros f p n p0 G P PP te t k OFF KN TK TN. change (positive_path te p) in PP. pose proof tiny_pos as TP. assert (K1 : (1 <= k)%nat) by (destruct (eta_cases te t) as [(A & _)|[A _]]; fold k in A; lia). pose proof (dates_lt te G (k - 1) k ltac:(lia)) as DK.
  exists (same_period p0 te p k (date_at te k)).
  assert (NOW : t = date_at te k -> same_period p0 te p k (date_at te k) = 1). { intros E. unfold same_period. fold t. destruct (Rle_dec t (date_at te (k - 1))) as [L|L]; [lra|]. rewrite <- E. apply front_now; try assumption; [lia|]. apply PP; [lia|reflexivity]. }
  split; [|split; [exact NOW|]].
  - destruct TK as [E|L].
    + rewrite NOW by exact E. rewrite <- E. unfold bond_price. fold te t. rewrite (proj2 (Rleb_true _ _)) by lra. cbn [negb]. replace (t - t) with 0 by ring. rewrite Rabs_R0. destruct (Rlt_dec 0 tiny); [reflexivity|contradiction].
    + pose proof (C54_bond f p (date_at te k) p0 G P PP) as B. cbv zeta in B. fold te t in B. fold k in B. rewrite (eta_date te G k) in B by lia. rewrite Nat.eqb_refl in B. apply B; [exact OFF|intros E; rewrite E in *; pose proof (dates_le te G 0 1 ltac:(lia)); lra|]. split; [exact L|]. apply dates_le; [exact G|lia].
  - pose proof (C54_bond f p (date_at te n) p0 G P PP) as B. cbv zeta in B. fold te t in B. fold k in B. rewrite (eta_date te G n) in B by lia. destruct (Nat.eqb_spec n k); [lia|]. rewrite B; [|exact OFF|intros E; apply dates_le; [exact G|lia]|split; [exact TN|apply dates_le; [exact G|lia]]].
    apply (f_equal Ok). rewrite (back_end f) by (assumption || (fold te; lia) || (apply PP; fold te; lia)). fold te. replace (n - k)%nat with (S (n - (k + 1))) by lia. rewrite product_S. replace (k + 1 + (n - (k + 1)))%nat with n by lia. unfold growth. ring.
Qed.
Print Assumptions C54_chain.

(** ** The initial curve *)
Definition fits (te : fmm_tenor) (p0 : R -> R) : Prop := forall j, (1 <= j <= m_of te)%nat -> (1 + tau te j * nth (j - 1) (initial_rates te) 0) * p0 (date_at te j) = p0 (date_at te (j - 1)).
Lemma nth_repeat0 i m : nth i (repeat 0 m) 0 = 0.
Proof. revert i. induction m as [|m IH]; intros [|i]; cbn; auto. Qed.
Lemma telescope te p p0 k n : (forall s, 0 < p0 s) -> (forall j, (k < j <= n)%nat -> growth te p j * p0 (date_at te j) = p0 (date_at te (j - 1))) -> (k <= n)%nat -> product (fun j => / growth te p j) (k + 1) (n - k) = p0 (date_at te n) / p0 (date_at te k).
Proof.
  intros P H L. induction n as [|n IH].
  - assert (k = 0%nat) as -> by lia. unfold product. cbn. pose proof (P (date_at te 0)). field. lra.
  - destruct (Nat.eq_dec k (S n)) as [->|NE]. { rewrite Nat.sub_diag. unfold product. cbn [seq map fold_right]. pose proof (P (date_at te (S n))). field. lra. }
    replace (S n - k)%nat with (S (n - k)) by lia. rewrite product_S, IH by (lia || intros; apply H; lia). replace (k + 1 + (n - k))%nat with (S n) by lia.
    pose proof (H (S n) ltac:(lia)) as E. replace (S n - 1)%nat with n in E by lia. pose proof (P (date_at te (S n))). pose proof (P (date_at te n)). pose proof (P (date_at te k)). assert (GN : growth te p (S n) <> 0) by (intros Z; rewrite Z in E; lra). rewrite <- E. field. split; [lra|exact GN].
Qed.
Lemma back_fit te p p0 n T : (forall s, 0 < p0 s) -> growth te p n * p0 (date_at te n) = p0 (date_at te (n - 1)) -> y_of p n = 0 -> back_value p0 te p n T = p0 T / p0 (date_at te (n - 1)).
Proof.
  intros P E Y. unfold back_value. rewrite Y. pose proof (P (date_at te (n - 1))). pose proof (P (date_at te n)). replace (growth te p n * (p0 (date_at te n) / p0 (date_at te (n - 1)))) with 1 by (unfold Rdiv; rewrite <- Rmult_assoc, E; field; lra).
  unfold Rpower. rewrite ln_1, Rmult_0_r, exp_0. match goal with |- _ * exp ?e = _ => replace e with 0 by ring end. rewrite exp_0. ring.
Qed.

(** With the first date today and the initial rates read off a curve, the initial path reprices the
    curve at every maturity of the grid. *)
Theorem C54_initial : forall f p0 T, good_tenor (tenor f) -> date_at (tenor f) 0 = 0 -> (forall s, 0 < p0 s) -> p0 0 = 1 -> fits (tenor f) p0 -> tiny <= T <= date_at (tenor f) (m_of (tenor f)) -> bond_price f (initial_path f) T p0 = Ok (p0 T).
Proof.
  intros f p0 T G Z P P1 F TT. pose proof tiny_pos as TP. set (te := tenor f) in *. set (p := initial_path f). assert (M : (1 <= m_of te)%nat) by apply G.
  assert (RT : forall j, rate p j = nth (j - 1) (initial_rates te) 0) by reflexivity. assert (YT : forall j, y_of p j = 0) by (intros; apply nth_repeat0).
  assert (GR : forall j, (1 <= j <= m_of te)%nat -> growth te p j * p0 (date_at te j) = p0 (date_at te (j - 1)) /\ 0 < growth te p j).
  { intros j J. pose proof (F j J) as E. unfold growth. rewrite RT. split; [exact E|]. pose proof (P (date_at te j)). pose proof (P (date_at te (j - 1))). apply Rnot_le_lt. intros L. assert ((1 + tau te j * nth (j - 1) (initial_rates te) 0) * p0 (date_at te j) <= 0) by nra. lra. }
  assert (E1 : eta te 0 = 1%nat) by (apply eta_is; [exact G|lia|rewrite <- Z; apply dates_le; [exact G|lia]|lia]).
  assert (PP : positive_path te p). { intros j J. split; [apply GR, J|]. cbn [path_t p initial_path]. rewrite E1. intros J1. assert (j = 1%nat) as -> by lia. unfold p, initial_path. cbn [rates_at_start]. fold te. rewrite map_seq_nth by lia. cbn [Nat.eqb Nat.add]. pose proof (proj2 (GR 1%nat J)) as X. unfold growth in X. rewrite RT in X. exact X. }
  pose proof (C54_bond f p T p0 G P PP) as B. cbv zeta in B. fold te in B. change (path_t p) with 0 in B. rewrite E1 in B. cbn [Nat.sub] in B. rewrite B; [|left; rewrite Z; lra|intros _; rewrite Z; lra|lra]. apply (f_equal Ok). unfold same_period. change (path_t p) with 0. replace (date_at te (1 - 1)) with 0 by (symmetry; exact Z). destruct (Rle_dec 0 0) as [_|]; [|lra].
  destruct (Nat.eqb_spec (eta te T) 1) as [E|NE].
  - rewrite back_fit by (assumption || apply YT || apply GR; lia). cbn [Nat.sub]. rewrite Z, P1. field.
  - set (n := eta te T) in *. assert (NR : (1 <= n <= m_of te)%nat). { assert (A : (n <= m_of te)%nat) by (rewrite <- (eta_date te G (m_of te)) by lia; apply eta_mono; lra). destruct (eta_cases te T) as [(C & _)|[C _]]; fold n in C; lia. }
    rewrite !back_fit by (assumption || apply YT || (apply GR; lia)). replace (n - (1 + 1))%nat with (n - 1 - 1)%nat by lia. rewrite (telescope te p p0 1 (n - 1)) by (assumption || lia || (intros; apply GR; lia)). cbn [Nat.sub]. rewrite Z, P1. pose proof (P (date_at te 1)). pose proof (P (date_at te (n - 1))). field. lra.
Qed.
Print Assumptions C54_initial.

(** A first date after today is accepted, and the discount up to it is then missing. *)
Theorem C54_first_date_refuted : exists ds rs te f p0 T v, tenor_new ds rs = Ok te /\ fmm_new te [1 / 100] [[1]] = Ok f /\ (forall s, 0 < p0 s) /\ p0 0 = 1 /\ fits te p0 /\ T = date_at te (m_of te) /\ bond_price f (initial_path f) T p0 = Ok v /\ p0 T < v.
Proof.
  set (r := / 10). set (p0 := flat_p0 r). set (R1 := exp r - 1). set (te := {| dates := [1; 2]; initial_rates := [R1] |}).
  assert (G : good_tenor te). { unfold good_tenor, te, m_of, date_at. cbn. split; [lia|]. split; [reflexivity|]. split; [lra|]. intros [|i] I; [lra|lia]. }
  assert (D0 : date_at te 0 = 1) by reflexivity. assert (D1 : date_at te 1 = 2) by reflexivity. assert (T1 : tau te 1 = 1) by (unfold tau; cbn [Nat.sub]; rewrite D0, D1; ring).
  assert (P : forall s, 0 < p0 s) by (intros; apply exp_pos). pose proof tiny_pos as TP. assert (TS : tiny < 1) by (unfold tiny; rewrite <- Rinv_1; apply Rinv_lt_contravar; lra).
  set (f := {| tenor := te; sigmas := [1 / 100]; correlation := [[1]]; betas := None; schedule := None |}).
  assert (GR : growth te (initial_path f) 1 = exp r) by (unfold growth; rewrite T1; unfold rate; cbn [initial_path rates tenor f te initial_rates nth Nat.sub]; unfold R1; ring).
  exists [1; 2], [R1], te, f, p0, 2, (back_value p0 te (initial_path f) 1 2). split; [apply tenor_new_spec; split; [reflexivity|exact G]|]. split.
  { unfold fmm_new. change (m_of te) with 1%nat. cbn [length Nat.eqb negb seq forallb nth andb]. unfold corr. cbn [nth]. replace (1 - 1) with 0 by ring. rewrite Rabs_R0, Rabs_R1. assert (0 < / 10 ^ 12) by (apply Rinv_0_lt_compat; lra). rewrite !(proj2 (Rltb_true _ _)) by lra. rewrite !(proj2 (Rleb_true _ _)) by lra. reflexivity. }
  split; [exact P|]. split; [unfold p0, flat_p0; rewrite Rmult_0_r; apply exp_0|]. split.
  { intros j J. assert (j = 1%nat) as -> by (cbn in J; lia). cbn [Nat.sub nth initial_rates te]. fold te. rewrite T1, D0, D1. unfold p0, flat_p0, R1. replace (1 + 1 * (exp r - 1)) with (exp r) by ring. rewrite <- exp_plus. f_equal. ring. }
  split; [reflexivity|]. split.
  { assert (E : forall s, s <= 2 -> eta te s = 1%nat) by (intros s S; apply eta_is; [exact G|cbn; lia|rewrite D1; exact S|lia]).
    assert (PP : positive_path te (initial_path f)). { intros j J. assert (j = 1%nat) as -> by (cbn in J; lia). split; [rewrite GR; apply exp_pos|]. intros _. rewrite T1. cbn [initial_path rates_at_start tenor f te initial_rates m_of length seq map nth Nat.sub Nat.eqb]. unfold R1. pose proof (exp_pos r). lra. }
    pose proof (C54_bond f (initial_path f) 2 p0 G P PP) as B. cbv zeta in B. change (tenor f) with te in B. change (path_t (initial_path f)) with 0 in B. rewrite !E in B by lra. cbn [Nat.sub Nat.eqb] in B. rewrite B; [|left; rewrite D0; lra|intros _; rewrite D0; lra|change (m_of te) with 1%nat; rewrite D1; lra].
    apply (f_equal Ok). unfold same_period. change (path_t (initial_path f)) with 0. cbn [Nat.sub]. rewrite D0. destruct (Rle_dec 0 1); [reflexivity|lra]. }
  assert (E : back_value p0 te (initial_path f) 1 (date_at te 1) = / growth te (initial_path f) 1) by (apply (back_end f); [exact G|exact P|cbn; lia|change (tenor f) with te; rewrite GR; apply exp_pos]). rewrite D1 in E. rewrite E, GR, <- exp_Ropp. apply exp_increasing. unfold r. lra.
Qed.
Print Assumptions C54_first_date_refuted.

(** ** The bank account *)
Theorem C54_bank : forall f p p0, good_tenor (tenor f) -> (forall s, 0 < p0 s) -> positive_path (tenor f) p ->
  let te := tenor f in let t := path_t p in let k := eta te t in
  (t = date_at te k -> (k <= m_of te)%nat -> bank_account f p p0 = Ok (product (growth te p) 1 k)) /\
  (date_at te (m_of te) < t -> bank_account f p p0 = Ok (product (growth te p) 1 (m_of te))) /\
  (t <= date_at te 0 -> t + tiny <= date_at te 1 -> bank_account f p p0 = Ok 1) /\
  (date_at te (k - 1) + tiny < t -> t + tiny <= date_at te k -> (k <= m_of te)%nat -> bank_account f p p0 = Ok (product (growth te p) 1 k * front_value p0 te p k (date_at te k))).
Proof.
  intros f p p0 G P PP te t k. change (positive_path te p) in PP. pose proof tiny_pos as TP. assert (M : (1 <= m_of te)%nat) by apply G. assert (PR : forall n, fold_left (fun acc j => acc * (1 + tau te j * rate p j)) (seq 1 n) 1 = product (growth te p) 1 n) by (intros n; rewrite (fold_times (fun j => 1 + tau te j * rate p j)), Rmult_1_l; reflexivity).
  unfold bank_account. fold te t. fold k. split; [|split; [|split]].
  - intros E L. rewrite Nat.min_l by exact L. destruct (Nat.ltb_spec (m_of te) k); [lia|]. rewrite <- E. unfold bond_price. fold te t. rewrite (proj2 (Rleb_true _ _)) by lra. cbn [negb]. replace (t - t) with 0 by ring. rewrite Rabs_R0. destruct (Rlt_dec 0 tiny); [|contradiction]. cbn [obind]. rewrite PR. f_equal. ring.
  - intros L. assert (K : k = (m_of te + 1)%nat). { destruct (eta_cases te t) as [(A & B & _)|[A _]]; [|exact A]. fold k in A, B. pose proof (dates_le te G k (m_of te) ltac:(lia)). lra. } rewrite Nat.min_r by lia. destruct (Nat.ltb_spec (m_of te) k); [|lia]. rewrite PR. reflexivity.
  - intros L0 L1. assert (K : k = 1%nat) by (apply eta_is; [exact G|lia|lra|lia]). rewrite K. rewrite Nat.min_l by lia. destruct (Nat.ltb_spec (m_of te) 1); [lia|]. rewrite PR. pose proof (dates_le te G 0 1 ltac:(lia)) as D01.
    pose proof (C54_bond f p (date_at te 1) p0 G P PP) as B. cbv zeta in B. fold te t in B. fold k in B. rewrite K in B. rewrite (eta_date te G 1) in B by lia. rewrite Nat.eqb_refl in B. cbn [Nat.sub] in B. rewrite B; [|left; exact L0|intros _; exact D01|split; [exact L1|apply dates_le; [exact G|lia]]].
    cbn [obind]. unfold same_period. fold t. cbn [Nat.sub]. destruct (Rle_dec t (date_at te 0)); [|contradiction]. rewrite (back_end f) by (assumption || (fold te; lia) || (apply PP; fold te; lia)). fold te. destruct (PP 1%nat ltac:(fold te; lia)) as [GP _]. unfold product. cbn [seq map fold_right]. apply (f_equal Ok). fold te in GP. field. lra.
  - intros A B L. rewrite Nat.min_l by exact L. destruct (Nat.ltb_spec (m_of te) k); [lia|]. rewrite PR. assert (K1 : (1 <= k)%nat) by (destruct (eta_cases te t) as [(X & _)|[X _]]; fold k in X; lia). pose proof (dates_lt te G (k - 1) k ltac:(lia)) as DK.
    pose proof (C54_bond f p (date_at te k) p0 G P PP) as B'. cbv zeta in B'. fold te t in B'. fold k in B'. rewrite (eta_date te G k) in B' by lia. rewrite Nat.eqb_refl in B'. rewrite B'; [|right; exact A|intros K; rewrite K in *; cbn [Nat.sub] in DK; lra|split; [exact B|apply dates_le; [exact G|lia]]].
    cbn [obind]. unfold same_period. fold t. destruct (Rle_dec t (date_at te (k - 1))); [lra|reflexivity].
Qed.
Print Assumptions C54_bank.

(** The front stub starts at one, and at the start of the period it meets the back stub. *)
Theorem C54_front : forall f p p0 k T, good_tenor (tenor f) -> (forall s, 0 < p0 s) -> (1 <= k <= m_of (tenor f))%nat -> 0 < growth (tenor f) p k -> path_t p <= date_at (tenor f) (k - 1) -> date_at (tenor f) (k - 1) < T <= date_at (tenor f) k -> continuous p0 (date_at (tenor f) (k - 1)) ->
  let fwd := p0_fwd p0 in let te := tenor f in
  let later := fun s => {| rates := rates p; y_diag := y_diag p; rates_at_start := rates p; y_at_start := y_diag p; x_active := 0; path_t := s |} in
  exists v, back_stub_forward_bond f p k T (fwd (date_at te (k - 1)) T) (fwd (date_at te (k - 1)) (date_at te k)) = Ok v /\
  forall eps, 0 < eps -> exists delta, 0 < delta /\ forall s, date_at te (k - 1) < s < date_at te (k - 1) + delta -> exists w, front_stub_bond f (later s) T (fwd s T) (fwd (date_at te (k - 1)) (date_at te k)) = Ok w /\ Rabs (w - v) < eps.
Proof.
  intros f p p0 k T G P K GR PT TT C. cbv zeta. set (te := tenor f) in *. pose proof tiny_pos as TP. pose proof (dates_lt te G (k - 1) k ltac:(lia)) as DK. set (a0 := date_at te (k - 1)) in *. set (b0 := date_at te k) in *.
  exists (back_value p0 te p k T). split; [apply back_eq; try assumption; fold te; fold a0; fold b0; lra|].
  set (q := growth te p k * (p0 b0 / p0 a0)). assert (QP : 0 < q) by (apply Rmult_lt_0_compat; [exact GR|apply Rdiv_lt_0_compat; apply P]).
  set (h := fun s => p0 T / p0 s * (exp (- (elapsed te k T - elapsed te k s) * ln q) * exp (y_of p k / 2 * (elapsed te k T * (1 - elapsed te k T) - elapsed te k s * (1 - elapsed te k s))))).
  assert (HC : continuous h a0).
  { unfold h. apply (continuous_mult (K := R_AbsRing) (fun s => p0 T / p0 s)).
    - unfold Rdiv. apply (continuous_mult (K := R_AbsRing) (fun _ => p0 T)); [apply continuous_const|]. apply (continuous_comp p0 Rinv); [exact C|]. apply continuous_Rinv. apply Rgt_not_eq, P.
    - apply (ex_derive_continuous (fun s => exp (- (elapsed te k T - elapsed te k s) * ln q) * exp (y_of p k / 2 * (elapsed te k T * (1 - elapsed te k T) - elapsed te k s * (1 - elapsed te k s))))). unfold elapsed. auto_derive. exact I. }
  assert (H0 : h a0 = back_value p0 te p k T). { unfold h, back_value, Rpower. fold a0 b0. fold q. replace (elapsed te k a0) with 0 by (unfold elapsed; fold a0 b0; field; lra). rewrite <- Rmult_assoc. f_equal; [f_equal; f_equal; ring|]. f_equal. field. }
  intros eps EP. assert (PL : locally (h a0) (fun y => Rabs (y - h a0) < eps)) by (exists (mkposreal _ EP); intros y Y; exact Y). destruct (HC _ PL) as [d D].
  exists (Rmin d (T - a0)). split; [apply Rmin_pos; [apply cond_pos|lra]|]. intros s SR. pose proof (Rmin_l d (T - a0)). pose proof (Rmin_r d (T - a0)).
  set (p' := {| rates := rates p; y_diag := y_diag p; rates_at_start := rates p; y_at_start := y_diag p; x_active := 0; path_t := s |}).
  assert (E : eta te s = k) by (apply eta_is; [exact G|exact K|fold b0; lra|intros _; fold a0; lra]).
  exists (front_value p0 te p' k T). split; [apply (front_eq f p' k T p0); try assumption; cbn [path_t p']; fold te; fold a0; fold b0; lra|].
  assert (ES : front_value p0 te p' k T = h s). { unfold front_value, h, Rpower. cbn [path_t p' y_at_start rates_at_start x_active]. fold a0 b0. change (1 + tau te k * nth (k - 1) (rates p) 0) with (growth te p k). fold q. change (nth (k - 1) (y_diag p) 0) with (y_of p k). change (y_of p' k) with (y_of p k). rewrite Rmult_assoc. f_equal. f_equal. f_equal. field. }
  rewrite ES, <- H0. apply D. change (Rabs (s - a0) < d). rewrite Rabs_right; lra.
Qed.
Print Assumptions C54_front.

(** Two quarterly periods, with moved rates, inside of the first: the hypotheses hold. *)
Example C54_witness : let te := {| dates := [0; 1 / 4; 1 / 2]; initial_rates := [1 / 50; 1 / 40] |} in
  let p := {| rates := [1 / 45; 1 / 30]; y_diag := [1 / 100; 1 / 50]; rates_at_start := [1 / 50; 0]; y_at_start := [0; 0]; x_active := 1 / 1000; path_t := 1 / 8 |} in
  good_tenor te /\ positive_path te p /\ eta te (path_t p) = 1%nat /\ date_at te 0 + tiny < path_t p /\ path_t p + tiny <= date_at te 1.
Proof.
  cbv zeta. set (te := {| dates := [0; 1 / 4; 1 / 2]; initial_rates := [1 / 50; 1 / 40] |}). set (p := {| rates := [1 / 45; 1 / 30]; y_diag := [1 / 100; 1 / 50]; rates_at_start := [1 / 50; 0]; y_at_start := [0; 0]; x_active := 1 / 1000; path_t := 1 / 8 |}).
  assert (TS : tiny < 1 / 16) by (unfold tiny; replace (1 / 16) with (/ 16) by field; apply Rinv_lt_contravar; lra).
  assert (G : good_tenor te). { unfold good_tenor, te, m_of, date_at. cbn. split; [lia|]. split; [reflexivity|]. split; [lra|]. intros [|[|i]] I; [lra|lra|lia]. }
  split; [exact G|]. split. { intros j J. unfold growth, tau, rate, date_at. assert (j = 1 \/ j = 2)%nat as [-> | ->] by (cbn in J; lia); cbn; lra. }
  split; [apply eta_is; [exact G|cbn; lia|cbn; lra|lia]|]. cbn. lra.
Qed.
