(** The path simulator of the cross-currency forward market model: the loops in closed form. *)
From Coq Require Import Bool List Arith Reals Psatz Lia.
Import ListNotations.
From Verif Require Import Outcome ForwardPoints VolSurface Processes ProcessFacts Hlmm HlmmFacts FxFmm FxFmmFacts FxFmmSim.
From Verif Require Fmm FmmFacts P_FmmStep Cholesky CholeskyFacts P_Cholesky MomentFacts.
Open Scope R_scope.
Global Set Bullet Behavior "Strict Subproofs".

(** * Loops *)
Lemma oset_ok l i x : (i < length l)%nat -> exists l', oset l i x = Ok l' /\ length l' = length l /\ nth i l' 0 = x /\ forall k, k <> i -> nth k l' 0 = nth k l 0.
Proof.
  intros H. unfold oset. rewrite (proj2 (Nat.ltb_lt _ _) H). eexists. split; [reflexivity|].
  assert (F : length (firstn i l) = i) by (rewrite firstn_length; lia). split; [|split].
  - rewrite app_length, F. cbn [length]. rewrite skipn_length. lia.
  - rewrite app_nth2 by lia. rewrite F, Nat.sub_diag. reflexivity.
  - intros k K. rewrite <- (firstn_skipn i l) at 3. destruct (Nat.lt_ge_cases k i) as [L|L].
    + rewrite !app_nth1 by lia. reflexivity.
    + rewrite !app_nth2 by lia. rewrite F. assert (E : (k - i = S (k - S i))%nat) by lia. rewrite E. cbn [nth].
      assert (Q : forall (q : list R) a b, nth b (skipn (S a) q) 0 = nth (S b) (skipn a q) 0).
      { induction q as [|y q IH]; intros a b; [rewrite !skipn_nil; destruct b; reflexivity|]. destruct a as [|a]; [reflexivity|]. cbn [skipn]. apply IH. }
      rewrite Q. reflexivity.
Qed.

Lemma ofold_app {A} (f : A -> nat -> outcome A) l1 : forall l2 a, ofold f (l1 ++ l2) a = do a' <- ofold f l1 a; ofold f l2 a'.
Proof. induction l1 as [|i l1 IH]; intros l2 a; cbn [ofold app obind]; [reflexivity|]. destruct (f a i) as [x|e|e]; cbn [obind]; [apply IH|reflexivity|reflexivity]. Qed.

(** a loop that writes each index of a range once *)
Lemma ofold_write (body : list R -> nat -> outcome (list R)) (l0 : list R) (w : nat -> R) lo : (1 <= lo)%nat -> forall n,
  (forall new j, (lo <= j < lo + n)%nat -> length new = length l0 -> nth (j - 1) new 0 = nth (j - 1) l0 0 ->
     exists new', body new j = Ok new' /\ length new' = length l0 /\ nth (j - 1) new' 0 = w j /\ forall i, i <> (j - 1)%nat -> nth i new' 0 = nth i new 0) ->
  exists l', ofold body (seq lo n) l0 = Ok l' /\ length l' = length l0 /\
    (forall j, (lo <= j < lo + n)%nat -> nth (j - 1) l' 0 = w j) /\ forall i, (S i < lo \/ lo + n <= S i)%nat -> nth i l' 0 = nth i l0 0.
Proof.
  intros LO. induction n as [|n IH]; intros H.
  - exists l0. cbn [seq ofold]. split; [reflexivity|]. split; [reflexivity|]. split; [intros; lia|reflexivity].
  - destruct IH as (l1 & E1 & L1 & W1 & K1); [intros; apply H; (assumption || lia)|].
    destruct (H l1 (lo + n)%nat ltac:(lia) L1 ltac:(apply K1; lia)) as (l2 & E2 & L2 & W2 & K2).
    exists l2. split; [rewrite seq_S, ofold_app, E1; cbn [obind ofold]; rewrite E2; reflexivity|]. split; [exact L2|]. split.
    + intros j J. destruct (Nat.eq_dec j (lo + n)) as [->|NE]; [exact W2|]. rewrite K2 by lia. apply W1. lia.
    + intros i I. rewrite K2 by lia. apply K1. lia.
Qed.

Lemma ofold_sum (f : R -> nat -> outcome R) v : forall n lo a, (forall a i, (lo <= i < lo + n)%nat -> f a i = Ok (a + v i)) ->
  ofold f (seq lo n) a = Ok (a + FmmFacts.sum_over v lo n).
Proof.
  induction n as [|n IH]; intros lo a H; [cbn; f_equal; unfold FmmFacts.sum_over; cbn; ring|]. rewrite seq_S, ofold_app, IH by (intros; apply H; lia). cbn [obind ofold].
  rewrite H by lia. cbn [obind]. rewrite FmmFacts.sum_over_S, Rplus_assoc. reflexivity.
Qed.

Lemma oslice_ok v a b : (b <= length v)%nat -> (a <= b)%nat -> exists s, oslice v a b = Ok s /\ length s = (b - a)%nat /\ forall i, (i < b - a)%nat -> nth i s 0 = nth (a + i) v 0.
Proof.
  intros H L. unfold oslice. rewrite (proj2 (Nat.leb_le _ _) H). eexists. split; [reflexivity|]. split; [rewrite firstn_length, skipn_length; lia|].
  intros i I. assert (F : forall (q : list R) n k, (k < n)%nat -> nth k (firstn n q) 0 = nth k q 0).
  { induction q as [|y q IH]; intros n k K; [rewrite firstn_nil; reflexivity|]. destruct n as [|n]; [lia|]. destruct k as [|k]; [reflexivity|]. cbn. apply IH. lia. }
  rewrite F by exact I. assert (Q : forall (q : list R) n k, nth k (skipn n q) 0 = nth (n + k) q 0).
  { induction q as [|y q IH]; intros n k; [rewrite skipn_nil; destruct k, n; reflexivity|]. destruct n as [|n]; [reflexivity|]. cbn. apply IH. }
  apply Q.
Qed.

(** * Drivers *)
(** the correlated increment of driver [i], before the time scaling *)
Definition mix (chol : list (list R)) (n i : nat) (g : nat -> R) : R := MomentFacts.lsum (seq 0 n) (fun k => CholeskyFacts.entry chol i k * g k).
Definition factor_shape (chol : list (list R)) (n : nat) : Prop :=
  length chol = n /\ (forall row, In row chol -> length row = n) /\ forall i j, (i < j)%nat -> CholeskyFacts.entry chol i j = 0.

Lemma lsum_app f l1 l2 : MomentFacts.lsum (l1 ++ l2) f = MomentFacts.lsum l1 f + MomentFacts.lsum l2 f.
Proof. induction l1 as [|a l1 IH]; cbn; [ring|]. rewrite IH. ring. Qed.
Lemma lsum_ext f h l : (forall k, In k l -> f k = h k) -> MomentFacts.lsum l f = MomentFacts.lsum l h.
Proof. induction l as [|a l IH]; intros H; cbn; [reflexivity|]. rewrite (H a (or_introl eq_refl)), IH; [reflexivity|]. intros k K. apply H. right. exact K. Qed.
Lemma lsum_zero f l : (forall k, In k l -> f k = 0) -> MomentFacts.lsum l f = 0.
Proof. induction l as [|a l IH]; intros H; cbn; [reflexivity|]. rewrite (H a (or_introl eq_refl)), IH; [ring|]. intros k K. apply H. right. exact K. Qed.
Lemma lsum_rs f n : MomentFacts.lsum (seq 0 n) f = CholeskyFacts.rs n f.
Proof. induction n as [|n IH]; [reflexivity|]. rewrite seq_S, lsum_app, IH. cbn. ring. Qed.
Lemma lsum_scal c f l : MomentFacts.lsum l (fun k => c * f k) = c * MomentFacts.lsum l f.
Proof. induction l as [|a l IH]; cbn; [ring|]. rewrite IH. ring. Qed.

Lemma fold_Rplus l : forall a, fold_left Rplus l a = a + fold_right Rplus 0 l.
Proof. induction l as [|x l IH]; intros a; cbn; [ring|]. rewrite IH. ring. Qed.

Lemma zip_sum n : forall (row z : list R) k, length row = n -> length z = n -> (k <= n)%nat ->
  fold_right Rplus 0 (map (fun ab : R * R => fst ab * snd ab) (firstn k (combine row z))) = MomentFacts.lsum (seq 0 k) (fun i => nth i row 0 * nth i z 0).
Proof.
  intros row z k. revert n row z. induction k as [|k IH]; intros n row z LR LZ K; [reflexivity|].
  destruct row as [|a row]; [cbn in LR; lia|]. destruct z as [|b z]; [cbn in LZ; lia|]. cbn [length] in LR, LZ. cbn [combine firstn map fold_right seq MomentFacts.lsum nth fst snd]. f_equal.
  rewrite (IH (pred n) row z) by lia. rewrite <- seq_shift. generalize (seq 0 k). induction l as [|i l IHl]; cbn; [reflexivity|]. rewrite IHl. reflexivity.
Qed.

Lemma dw_ok chol n g sd : factor_shape chol n ->
  length (sim_dw chol (map g (seq 0 n)) sd) = n /\ forall i, (i < n)%nat -> nth i (sim_dw chol (map g (seq 0 n)) sd) 0 = sd * mix chol n i g.
Proof.
  intros (L & W & T). unfold sim_dw. rewrite L. split; [rewrite map_length, seq_length; reflexivity|]. intros i I. rewrite nth_map_seq by exact I.
  rewrite fold_Rplus, Rplus_0_l. rewrite (zip_sum n); [|apply W, nth_In; lia|rewrite map_length, seq_length; reflexivity|lia].
  rewrite Rmult_comm. f_equal. unfold mix. rewrite !lsum_rs, (CholeskyFacts.rs_cut (i + 1) n) by (try lia; intros k K; rewrite T by lia; ring).
  apply CholeskyFacts.rs_ext. intros k K. rewrite nth_map_seq by lia. reflexivity.
Qed.

(** * One currency *)
Definition shaped (m : nat) (l : leg) : Prop :=
  length (lg_rates l) = m /\ length (lg_y l) = m /\ length (lg_rates_at_start l) = m /\ length (lg_y_at_start l) = m.
Definition rate_of (l : leg) (j : nat) : R := nth (j - 1) (lg_rates l) 0.
Definition y_of (l : leg) (j : nat) : R := nth (j - 1) (lg_y l) 0.
Definition vol_of (s : fmm_side) (j : nat) : R := nth (j - 1) (fs_sigmas s) 0.

(** the drift sum of equation (5) for rate [j] *)
Definition carry (s : fmm_side) (te : Fmm.fmm_tenor) (l : leg) (k : nat) (mid : R) (j : nat) : R :=
  FmmFacts.sum_over (fun i => el (fs_corr s) (i - 1) (j - 1) * (vol_of s i * Fmm.gamma i mid te * Fmm.tau te i / (1 + Fmm.tau te i * rate_of l i))) k (S j - k).

Definition mid_list (s : fmm_side) (te : Fmm.fmm_tenor) (l : leg) (mid : R) : list (R * R * R) :=
  map (fun i => (Fmm.gamma i mid te, vol_of s i, vol_of s i * Fmm.gamma i mid te * Fmm.tau te i / (1 + Fmm.tau te i * rate_of l i))) (seq 1 (Fmm.m_of te)).
Lemma mid_ok s te l mid : length (fs_sigmas s) = Fmm.m_of te -> shaped (Fmm.m_of te) l -> omapM (at_mid s te (lg_rates l) mid) (seq 1 (Fmm.m_of te)) = Ok (mid_list s te l mid).
Proof.
  intros LS (LR & _). apply omapM_map. intros i I. apply in_seq in I. unfold at_mid, side_adapted_vol. rewrite !oindex_ok by lia. reflexivity.
Qed.
Lemma mid_index s te l mid j : (1 <= j <= Fmm.m_of te)%nat -> oindex (mid_list s te l mid) (j - 1) =
  Ok (Fmm.gamma j mid te, vol_of s j, vol_of s j * Fmm.gamma j mid te * Fmm.tau te j / (1 + Fmm.tau te j * rate_of l j)).
Proof.
  intros J. unfold oindex, mid_list. rewrite nth_error_map. rewrite (nth_error_nth' _ 0%nat) by (rewrite seq_length; lia). rewrite seq_nth by lia. cbn [option_map].
  replace (1 + (j - 1))%nat with j by lia. reflexivity.
Qed.

Lemma past_gamma te t mid j : FmmFacts.good_tenor te -> t <= mid -> (1 <= j <= Fmm.m_of te)%nat -> (j < Fmm.eta te t)%nat -> Fmm.gamma j mid te = 0.
Proof.
  intros G L J E. apply (FmmFacts.gamma_after te G j mid J). destruct (FmmFacts.eta_cases te t) as [(_ & _ & Q)|(A & Q)].
  - pose proof (Q j ltac:(lia)). lra.
  - pose proof (Q j ltac:(lia)). lra.
Qed.

(** the new rates: [q j] is the quanto shift, zero for the domestic currency *)
Lemma rates_loop s te l dw dt t mid (q : nat -> outcome R) (qv : nat -> R) (zero : bool) : FmmFacts.good_tenor te -> t <= mid -> side_ok s (Fmm.m_of te) -> shaped (Fmm.m_of te) l -> length dw = Fmm.m_of te ->
  (forall j, (1 <= j <= Fmm.m_of te)%nat -> q j = Ok (qv j)) ->
  let m := Fmm.m_of te in let eta_old := Fmm.eta te t in
  forall body, (forall new j, body new j =
    do x <- oindex (mid_list s te l mid) (j - 1);
    let gamma_j := fst (fst x) in
    if Req_EM_T gamma_j 0 then Ok new
    else
      let sig_j := snd (fst x) in
      do sum <- ofold (fun sum i => do c <- entry (fs_corr s) (i - 1) (j - 1); do y <- oindex (mid_list s te l mid) (i - 1); Ok (sum + c * snd y)) (Fmm.range_incl eta_old j) 0;
      do rho <- q j;
      do w <- oindex dw (j - 1);
      do r <- oindex (lg_rates l) (j - 1);
      oset new (j - 1) (r + (sig_j * gamma_j * sum - sig_j * gamma_j * rho) * dt + sig_j * gamma_j * w)) ->
  exists l', ofold body (Fmm.range_incl eta_old m) (lg_rates l) = Ok l' /\ length l' = m /\
    forall j, (1 <= j <= m)%nat -> nth (j - 1) l' 0 = rate_of l j + vol_of s j * Fmm.gamma j mid te * (carry s te l eta_old mid j - qv j) * dt + vol_of s j * Fmm.gamma j mid te * nth (j - 1) dw 0.
Proof.
  intros G LM (LS & (Sq & _) & _) SH LW Q. cbv zeta. set (m := Fmm.m_of te) in *. set (k := Fmm.eta te t). intros body B.
  assert (K1 : (1 <= k)%nat) by (unfold k; destruct (FmmFacts.eta_cases te t) as [(A & _)|(A & _)]; lia).
  set (w := fun j => rate_of l j + vol_of s j * Fmm.gamma j mid te * (carry s te l k mid j - qv j) * dt + vol_of s j * Fmm.gamma j mid te * nth (j - 1) dw 0).
  destruct SH as (LR & _).
  destruct (ofold_write body (lg_rates l) w k K1 (S m - k)) as (l' & E & L & W & N).
  - intros new j J LN NJ. rewrite B. rewrite mid_index by (fold m; lia). cbn [obind fst snd].
    destruct (Req_EM_T (Fmm.gamma j mid te) 0) as [Z|Z].
    + exists new. split; [reflexivity|]. split; [exact LN|]. split; [|reflexivity]. rewrite NJ. unfold w. rewrite Z. unfold rate_of. ring.
    + unfold Fmm.range_incl. fold k. rewrite (ofold_sum _ (fun i => el (fs_corr s) (i - 1) (j - 1) * (vol_of s i * Fmm.gamma i mid te * Fmm.tau te i / (1 + Fmm.tau te i * rate_of l i)))).
      2:{ intros a i I. rewrite (entry_ok _ m) by (exact Sq || lia). rewrite mid_index by (fold m; lia). reflexivity. }
      cbn [obind]. rewrite Q by (fold m; lia). cbn [obind]. rewrite !oindex_ok by lia. cbn [obind].
      match goal with |- context [oset new _ ?x] => destruct (oset_ok new (j - 1) x ltac:(lia)) as (l2 & E2 & L2 & W2 & N2) end.
      exists l2. split; [exact E2|]. split; [lia|]. split; [|exact N2]. rewrite W2. unfold w, carry, rate_of. ring.
  - exists l'. split; [exact E|]. split; [lia|]. intros j J. destruct (Nat.lt_ge_cases j k) as [LT|GE].
    + rewrite N by lia. rewrite (past_gamma te t mid j G LM J LT). unfold rate_of. ring.
    + apply W. lia.
Qed.
Lemma new_rates_d_ok s te l dw dt t mid : FmmFacts.good_tenor te -> t <= mid -> side_ok s (Fmm.m_of te) -> shaped (Fmm.m_of te) l -> length dw = Fmm.m_of te ->
  exists l', new_rates_d s (lg_rates l) (mid_list s te l mid) dw dt (Fmm.eta te t) (Fmm.m_of te) = Ok l' /\ length l' = Fmm.m_of te /\
    forall j, (1 <= j <= Fmm.m_of te)%nat -> nth (j - 1) l' 0 = rate_of l j + vol_of s j * Fmm.gamma j mid te * carry s te l (Fmm.eta te t) mid j * dt + vol_of s j * Fmm.gamma j mid te * nth (j - 1) dw 0.
Proof.
  intros G LM OK SH LW. unfold new_rates_d.
  match goal with |- context [ofold ?b _ _] => destruct (rates_loop s te l dw dt t mid (fun _ => Ok 0) (fun _ => 0) true G LM OK SH LW (fun _ _ => eq_refl) b) as (l' & E & L & W) end.
  - intros new j. destruct (oindex (mid_list s te l mid) (j - 1)) as [x|e|e]; cbn [obind]; [|reflexivity|reflexivity]. cbv zeta. destruct (Req_EM_T _ _); [reflexivity|].
    match goal with |- context [ofold ?b ?i ?a] => destruct (ofold b i a) as [sm|e|e]; cbn [obind]; [|reflexivity|reflexivity] end.
    destruct (oindex dw (j - 1)); cbn [obind]; [|reflexivity|reflexivity]. destruct (oindex (lg_rates l) (j - 1)); cbn [obind]; [|reflexivity|reflexivity].
    f_equal. ring.
  - exists l'. split; [exact E|]. split; [exact L|]. intros j J. rewrite (W j J), Rminus_0_r. reflexivity.
Qed.
Lemma new_rates_f_ok s te l rho sg dw dt t mid : FmmFacts.good_tenor te -> t <= mid -> side_ok s (Fmm.m_of te) -> shaped (Fmm.m_of te) l -> length dw = Fmm.m_of te -> length rho = Fmm.m_of te ->
  exists l', new_rates_f s rho sg (lg_rates l) (mid_list s te l mid) dw dt (Fmm.eta te t) (Fmm.m_of te) = Ok l' /\ length l' = Fmm.m_of te /\
    forall j, (1 <= j <= Fmm.m_of te)%nat -> nth (j - 1) l' 0 = rate_of l j + vol_of s j * Fmm.gamma j mid te * (carry s te l (Fmm.eta te t) mid j - nth (j - 1) rho 0 * sg) * dt + vol_of s j * Fmm.gamma j mid te * nth (j - 1) dw 0.
Proof.
  intros G LM OK SH LW LH. unfold new_rates_f.
  match goal with |- context [ofold ?b _ _] => destruct (rates_loop s te l dw dt t mid (fun j => do r <- oindex rho (j - 1); Ok (r * sg)) (fun j => nth (j - 1) rho 0 * sg) true G LM OK SH LW) with (body := b) as (l' & E & L & W) end.
  - intros j J. rewrite oindex_ok by lia. reflexivity.
  - intros new j. destruct (oindex (mid_list s te l mid) (j - 1)) as [x|e|e]; cbn [obind]; [|reflexivity|reflexivity]. cbv zeta. destruct (Req_EM_T _ _); [reflexivity|].
    match goal with |- context [ofold ?b ?i ?a] => destruct (ofold b i a) as [sm|e|e]; cbn [obind]; [|reflexivity|reflexivity] end.
    destruct (oindex rho (j - 1)); cbn [obind]; [|reflexivity|reflexivity].
    destruct (oindex dw (j - 1)); cbn [obind]; [|reflexivity|reflexivity]. destruct (oindex (lg_rates l) (j - 1)); cbn [obind]; [|reflexivity|reflexivity].
    f_equal. ring.
  - exists l'. split; [exact E|]. split; [exact L|]. exact W.
Qed.

Lemma new_y_ok s te l t dt : side_ok s (Fmm.m_of te) -> shaped (Fmm.m_of te) l -> 0 < dt ->
  exists l', new_y s te (lg_rates l) (lg_y l) t dt = Ok l' /\ length l' = Fmm.m_of te /\
    forall j, (1 <= j <= Fmm.m_of te)%nat -> nth (j - 1) l' 0 = y_of l j + (vol_of s j / (rate_of l j + 1 / Fmm.tau te j)) ^ 2 * (Rmin (t + dt) (Fmm.date_at te j) - Rmin t (Fmm.date_at te j)).
Proof.
  intros (LS & _) (LR & LY & _) D. unfold new_y. set (m := Fmm.m_of te) in *.
  set (w := fun j => y_of l j + (vol_of s j / (rate_of l j + 1 / Fmm.tau te j)) ^ 2 * (Rmin (t + dt) (Fmm.date_at te j) - Rmin t (Fmm.date_at te j))).
  match goal with |- context [ofold ?b _ _] => destruct (ofold_write b (lg_y l) w 1 (le_n 1) m) as (l' & E & L & W & N) end.
  - intros new j J LN NJ. cbv zeta. destruct (Rle_dec (Fmm.date_at te j) t) as [P|P].
    + exists new. split; [reflexivity|]. split; [exact LN|]. split; [|reflexivity]. rewrite NJ. unfold w. rewrite !Rmin_right by lra. unfold y_of. ring.
    + unfold side_adapted_vol. rewrite !oindex_ok by lia. cbn [obind].
      match goal with |- context [oset new _ ?x] => destruct (oset_ok new (j - 1) x ltac:(lia)) as (l2 & E2 & L2 & W2 & N2) end.
      exists l2. split; [exact E2|]. split; [lia|]. split; [|exact N2]. rewrite W2, NJ. unfold w, y_of, rate_of, vol_of. f_equal. f_equal.
      rewrite (Rmin_left t) by lra. unfold Rmin. repeat destruct (Rle_dec _ _); lra.
  - exists l'. split; [exact E|]. split; [lia|]. intros j J. apply W. lia.
Qed.

(** the new state of the period in progress *)
Definition new_x_of (s : fmm_side) (te : Fmm.fmm_tenor) (l : leg) (r' y' w : nat -> R) (t dt : R) : R :=
  let k := Fmm.eta te t in
  if (k <=? Fmm.m_of te)%nat then
    if Fmm.Rltb (Fmm.date_at te (k - 1)) t && Fmm.Rltb t (Fmm.date_at te k) then
      lg_x l + (y' k - nth (k - 1) (lg_y_at_start l) 0) / Fmm.tau te k * dt + vol_of s k / ((rate_of l k + r' k) / 2 + 1 / Fmm.tau te k) * w k
    else lg_x l
  else lg_x l.
Lemma new_x_ok s te l rates' y' dw t dt : side_ok s (Fmm.m_of te) -> shaped (Fmm.m_of te) l -> length rates' = Fmm.m_of te -> length y' = Fmm.m_of te -> length dw = Fmm.m_of te ->
  new_x s te l rates' y' dw t dt (Fmm.eta te t) = Ok (new_x_of s te l (fun j => nth (j - 1) rates' 0) (fun j => nth (j - 1) y' 0) (fun j => nth (j - 1) dw 0) t dt).
Proof.
  intros (LS & _) (LR & LY & LA & LB) L1 L2 L3. unfold new_x, new_x_of. set (k := Fmm.eta te t).
  assert (K1 : (1 <= k)%nat) by (unfold k; destruct (FmmFacts.eta_cases te t) as [(A & _)|(A & _)]; lia). rewrite (proj2 (Nat.leb_le _ _) K1). cbn [andb].
  destruct (Nat.leb_spec k (Fmm.m_of te)) as [K|K]; [|reflexivity]. destruct (_ && _); [|reflexivity].
  unfold side_adapted_vol. rewrite !oindex_ok by lia. cbn [obind]. f_equal. unfold rate_of, vol_of.
  replace (1 / 2 * (nth (k - 1) (lg_rates l) 0 + nth (k - 1) rates' 0)) with ((nth (k - 1) (lg_rates l) 0 + nth (k - 1) rates' 0) / 2) by field. unfold Rdiv. ring.
Qed.

Lemma commit_ok m l r y x a b : shaped m l -> length r = m -> length y = m -> (1 <= a)%nat ->
  exists l', commit_leg l r y x a b m = Ok l' /\ shaped m l' /\ lg_rates l' = r /\ lg_y l' = y /\
    lg_x l' = (if (a + 1 <=? Nat.min b m)%nat then 0 else x) /\
    forall j, (1 <= j <= m)%nat ->
      ((a < j <= b)%nat -> nth (j - 1) (lg_rates_at_start l') 0 = nth (j - 1) r 0 /\ nth (j - 1) (lg_y_at_start l') 0 = nth (j - 1) y 0) /\
      (~ (a < j <= b)%nat -> nth (j - 1) (lg_rates_at_start l') 0 = nth (j - 1) (lg_rates_at_start l) 0 /\ nth (j - 1) (lg_y_at_start l') 0 = nth (j - 1) (lg_y_at_start l) 0).
Proof.
  intros (LR & LY & LA & LB) Lr Ly A. unfold commit_leg, Fmm.range_incl.
  match goal with |- context [ofold ?f _ ?l0] => set (body := f); set (start := l0) end.
  assert (P : forall n, (a + n <= m)%nat -> exists l', ofold body (seq (a + 1) n) start = Ok l' /\ shaped m l' /\ lg_rates l' = r /\ lg_y l' = y /\ lg_x l' = (if (1 <=? n)%nat then 0 else x) /\
    forall j, (1 <= j)%nat ->
      ((a < j <= a + n)%nat -> nth (j - 1) (lg_rates_at_start l') 0 = nth (j - 1) r 0 /\ nth (j - 1) (lg_y_at_start l') 0 = nth (j - 1) y 0) /\
      (~ (a < j <= a + n)%nat -> nth (j - 1) (lg_rates_at_start l') 0 = nth (j - 1) (lg_rates_at_start l) 0 /\ nth (j - 1) (lg_y_at_start l') 0 = nth (j - 1) (lg_y_at_start l) 0)).
  { induction n as [|n IH]; intros N.
    - exists start. cbn [seq ofold]. split; [reflexivity|]. split; [split; [exact Lr|split; [exact Ly|split; assumption]]|]. split; [reflexivity|]. split; [reflexivity|]. split; [reflexivity|]. intros j J. split; [lia|]. intros _. split; reflexivity.
    - destruct IH as (l1 & E1 & (S1 & S2 & S3 & S4) & R1' & Y1 & X1 & W1); [lia|]. 
      destruct (oset_ok (lg_rates_at_start l1) (a + n) (nth (a + n) r 0) ltac:(lia)) as (p & EP & LP & VP & KP).
      destruct (oset_ok (lg_y_at_start l1) (a + n) (nth (a + n) y 0) ltac:(lia)) as (q & EQ & LQ & VQ & KQ).
      eexists. split.
      { rewrite seq_S, ofold_app, E1. cbn [obind ofold]. unfold body at 1. replace (a + 1 + n - 1)%nat with (a + n)%nat by lia. rewrite R1', Y1. rewrite !oindex_ok by lia. cbn [obind]. rewrite EP. cbn [obind]. rewrite EQ. cbn [obind]. reflexivity. }
      cbn [lg_rates lg_y lg_rates_at_start lg_y_at_start lg_x]. split; [split; [exact Lr|split; [exact Ly|split; cbn; congruence]]|]. split; [reflexivity|]. split; [reflexivity|]. split; [reflexivity|].
      intros j J. destruct (W1 j J) as [WA WB]. destruct (Nat.eq_dec (j - 1) (a + n)) as [EJ|NJ].
      + rewrite EJ, VP, VQ. split; [intros _; split; reflexivity|intros X; exfalso; apply X; lia].
      + rewrite KP, KQ by exact NJ. split; [intros X; apply WA; lia|intros X; apply WB; lia]. }
  destruct (Nat.le_gt_cases (a + 1) (Nat.min b m)) as [C|C].
  - destruct (P (S (Nat.min b m) - (a + 1))%nat ltac:(lia)) as (l' & E & SH & ER & EY & EX & W). exists l'. split; [exact E|]. split; [exact SH|]. split; [exact ER|]. split; [exact EY|]. split.
    + rewrite EX. rewrite (proj2 (Nat.leb_le _ _) C). destruct (S (Nat.min b m) - (a + 1))%nat eqn:Q; [lia|reflexivity].
    + intros j J. destruct (W j ltac:(lia)) as [WA WB]. split; intros X; [apply WA|apply WB]; lia.
  - replace (S (Nat.min b m) - (a + 1))%nat with 0%nat by lia. exists start. split; [reflexivity|]. split; [split; [exact Lr|split; [exact Ly|split; assumption]]|]. split; [reflexivity|]. split; [reflexivity|]. split.
    + destruct (Nat.leb_spec (a + 1) (Nat.min b m)); [lia|reflexivity].
    + intros j J. split; [intros X; lia|intros _; split; reflexivity].
Qed.

(** * The joint correlation matrix *)
Inductive driver := Fx | Variance | Dom (j : nat) | For (j : nat).
Definition is_driver (m : nat) (d : driver) : Prop := match d with Dom j | For j => (1 <= j <= m)%nat | _ => True end.
(** the row of a driver in the joint matrix *)
Definition place (m : nat) (d : driver) : nat := match d with Fx => 0 | Variance => 1 | Dom j => 1 + j | For j => 1 + m + j end.
Definition driver_at (m a : nat) : driver := match a with O => Fx | S O => Variance | _ => if (a <=? 1 + m)%nat then Dom (a - 1) else For (a - 1 - m) end.
Lemma place_at m a : (a < 2 + 2 * m)%nat -> is_driver m (driver_at m a) /\ place m (driver_at m a) = a.
Proof. intros H. destruct a as [|[|a]]; cbn [driver_at is_driver place]; [split; [exact I|reflexivity]|split; [exact I|reflexivity]|]. destruct (Nat.leb_spec (S (S a)) (1 + m)); cbn [is_driver place]; lia. Qed.
Lemma at_place m d : is_driver m d -> driver_at m (place m d) = d /\ (place m d < 2 + 2 * m)%nat.
Proof.
  intros H. destruct d as [| |j|j]; cbn [place driver_at is_driver] in *; [split; [reflexivity|lia]|split; [reflexivity|lia]| |].
  - destruct j as [|j]; [lia|]. cbn [driver_at Nat.add]. destruct (Nat.leb_spec (S (S j)) (S m)); [|lia]. split; [f_equal; lia|lia].
  - destruct m as [|m]; [lia|]. cbn [driver_at Nat.add]. destruct (Nat.leb_spec (S (S (m + j))) (S (S m))); [lia|]. split; [f_equal; lia|lia].
Qed.
(** the symmetric matrix that agrees with [c] on and below the diagonal; numbered from one *)
Definition lower (c : list (list R)) (i j : nat) : R := el c (Nat.max i j - 1) (Nat.min i j - 1).
(** the correlation of two drivers *)
Definition rho (p : fx_fmm) (d e : driver) : R :=
  let c := fm_corr p in
  match d, e with
  | Fx, Fx | Variance, Variance => 1
  | Fx, Variance | Variance, Fx => fc_xi_sigma c
  | Fx, Dom j | Dom j, Fx => nth (j - 1) (fc_xi_d c) 0
  | Fx, For j | For j, Fx => nth (j - 1) (fc_xi_f c) 0
  | Variance, Dom j | Dom j, Variance => nth (j - 1) (fc_sigma_d c) 0
  | Variance, For j | For j, Variance => nth (j - 1) (fc_sigma_f c) 0
  | Dom i, Dom j => lower (fs_corr (fm_dom p)) i j
  | For i, For j => lower (fs_corr (fm_for p)) i j
  | Dom i, For j | For j, Dom i => (el (fc_cross c) (i - 1) (j - 1) + el (fc_cross c) (j - 1) (i - 1)) / 2
  end.
Lemma rho_sym p d e : rho p d e = rho p e d.
Proof. destruct d, e; cbn [rho]; try reflexivity; unfold lower; rewrite Nat.max_comm, Nat.min_comm; reflexivity. Qed.

Lemma fold_keep {B} (step : (nat -> nat -> B) -> nat -> nat -> nat -> B) a b : forall js l, (forall l j, In j js -> step l j a b = l a b) -> fold_left step js l a b = l a b.
Proof. induction js as [|j js IH]; intros l H; cbn; [reflexivity|]. rewrite IH by (intros; apply H; right; assumption). apply H. left. reflexivity. Qed.
Lemma fold_hit {B} (step : (nat -> nat -> B) -> nat -> nat -> nat -> B) a b m i v : forall l, (i < m)%nat -> (forall l, step l i a b = v) -> (forall l j, (j < m)%nat -> j <> i -> step l j a b = l a b) ->
  fold_left step (seq 0 m) l a b = v.
Proof.
  intros l L H K. replace m with (i + S (m - S i))%nat by lia. rewrite seq_app, fold_left_app. cbn [Nat.add seq fold_left]. rewrite fold_keep; [apply H|]. intros l' j J. apply in_seq in J. apply K; lia.
Qed.

Local Ltac off := repeat (rewrite CholeskyFacts.upd_other by lia); try reflexivity.
Local Ltac keep := rewrite fold_keep; [|let l := fresh in let j := fresh in let J := fresh in intros l j J; apply in_seq in J; off].
Local Ltac keep2 := rewrite fold_keep; [|let l := fresh in let j := fresh in let J := fresh in intros l j J; apply in_seq in J; keep; reflexivity].
Lemma joint_ok p d e : let m := Fmm.m_of (fm_tenor p) in is_driver m d -> is_driver m e -> (place m e <= place m d)%nat -> joint_entry p (place m d) (place m e) = rho p d e.
Proof.
  cbv zeta. unfold joint_entry. set (m := Fmm.m_of (fm_tenor p)). intros Hd He L.
  destruct d as [| |i|i], e as [| |j|j]; cbn [is_driver place rho] in *; try (exfalso; lia).
  - keep2. keep2. keep2. keep. keep. off.
  - keep2. keep2. keep2. keep. keep. apply CholeskyFacts.upd_same.
  - keep2. keep2. keep2. keep. keep. off.
  - keep2. keep2. keep2. keep. apply fold_hit with (i := (i - 1)%nat); [lia| |].
    + intros l. replace (2 + (i - 1))%nat with (1 + i)%nat by lia. rewrite CholeskyFacts.upd_other, CholeskyFacts.upd_other by lia. apply CholeskyFacts.upd_same.
    + intros l k K NE. off.
  - keep2. keep2. keep2. apply fold_hit with (i := (i - 1)%nat); [lia| |].
    + intros l. replace (2 + (i - 1))%nat with (1 + i)%nat by lia. rewrite CholeskyFacts.upd_other, CholeskyFacts.upd_other by lia. apply CholeskyFacts.upd_same.
    + intros l k K NE. off.
  - keep2. keep2. apply fold_hit with (i := (i - 1)%nat); [lia| |].
    + intros l. apply fold_hit with (i := (j - 1)%nat); [lia| |].
      * intros l'. replace (2 + (i - 1))%nat with (1 + i)%nat by lia. replace (2 + (j - 1))%nat with (1 + j)%nat by lia. rewrite CholeskyFacts.upd_same. unfold lower. rewrite Nat.max_l, Nat.min_r by lia. reflexivity.
      * intros l' k K NE. off.
    + intros l k K NE. keep. reflexivity.
  - keep2. keep2. keep2. keep. apply fold_hit with (i := (i - 1)%nat); [lia| |].
    + intros l. replace (2 + m + (i - 1))%nat with (1 + m + i)%nat by lia. apply CholeskyFacts.upd_same.
    + intros l k K NE. off.
  - keep2. keep2. keep2. apply fold_hit with (i := (i - 1)%nat); [lia| |].
    + intros l. replace (2 + m + (i - 1))%nat with (1 + m + i)%nat by lia. apply CholeskyFacts.upd_same.
    + intros l k K NE. off.
  - apply fold_hit with (i := (j - 1)%nat); [lia| |].
    + intros l. apply fold_hit with (i := (i - 1)%nat); [lia| |].
      * intros l'. replace (2 + m + (i - 1))%nat with (1 + m + i)%nat by lia. replace (2 + (j - 1))%nat with (1 + j)%nat by lia. rewrite CholeskyFacts.upd_same. unfold cross_at, el. field.
      * intros l' k K NE. off.
    + intros l k K NE. keep. reflexivity.
  - keep2. apply fold_hit with (i := (i - 1)%nat); [lia| |].
    + intros l. apply fold_hit with (i := (j - 1)%nat); [lia| |].
      * intros l'. replace (2 + m + (i - 1))%nat with (1 + m + i)%nat by lia. replace (2 + m + (j - 1))%nat with (1 + m + j)%nat by lia. rewrite CholeskyFacts.upd_same. unfold lower. rewrite Nat.max_l, Nat.min_r by lia. reflexivity.
      * intros l' k K NE. off.
    + intros l k K NE. keep. reflexivity.
Qed.

(** ** The factor *)
Lemma cells_ext m m' i js l : (forall j, In j js -> Cholesky.index m i j = Cholesky.index m' i j) -> Cholesky.cells m i js l = Cholesky.cells m' i js l.
Proof.
  revert l. induction js as [|j js IH]; intros l H; cbn [Cholesky.cells]; [reflexivity|]. rewrite <- (H j (or_introl eq_refl)). destruct (Cholesky.index m i j) as [x|e|e]; cbn [obind]; [|reflexivity|reflexivity].
  destruct (i =? j)%nat; [destruct (Rle_dec _ _); [reflexivity|]|]; apply IH; intros; apply H; right; assumption.
Qed.
Lemma rows_ext m m' is l : (forall i j, In i is -> (j <= i)%nat -> Cholesky.index m i j = Cholesky.index m' i j) -> Cholesky.rows m is l = Cholesky.rows m' is l.
Proof.
  revert l. induction is as [|i is IH]; intros l H; cbn [Cholesky.rows]; [reflexivity|]. rewrite (cells_ext m m' i) by (intros j J; apply in_seq in J; apply H; [left; reflexivity|lia]).
  destruct (Cholesky.cells m' i (seq 0 (S i)) l) as [[l'|]|e|e]; cbn [obind]; try reflexivity. apply IH. intros; apply H; [right; assumption|assumption].
Qed.
(** only the lower triangle of the matrix counts *)
Lemma cholesky_lower m m' : CholeskyFacts.square m -> CholeskyFacts.square m' -> length m = length m' ->
  (forall i j, (i < length m)%nat -> (j <= i)%nat -> CholeskyFacts.entry m i j = CholeskyFacts.entry m' i j) -> Cholesky.cholesky m = Cholesky.cholesky m'.
Proof.
  intros S1 S2 L H. unfold Cholesky.cholesky. rewrite <- L. rewrite (rows_ext m m'); [reflexivity|]. intros i j I J. apply in_seq in I. rewrite !CholeskyFacts.index_entry by (assumption || lia). rewrite H by lia. reflexivity.
Qed.

Definition table (n : nat) (f : nat -> nat -> R) : list (list R) := map (fun a => map (f a) (seq 0 n)) (seq 0 n).
Lemma table_length n f : length (table n f) = n.
Proof. unfold table. rewrite map_length, seq_length. reflexivity. Qed.
Lemma table_square n f : CholeskyFacts.square (table n f).
Proof. unfold CholeskyFacts.square. rewrite table_length. unfold table. apply Forall_forall. intros row I. apply in_map_iff in I. destruct I as (a & <- & _). rewrite map_length, seq_length. reflexivity. Qed.
Lemma table_entry n f a b : CholeskyFacts.entry (table n f) a b = if ((a <? n) && (b <? n))%nat then f a b else 0.
Proof.
  unfold CholeskyFacts.entry, table. destruct (Nat.ltb_spec a n) as [A|A]; cbn [andb].
  - rewrite (nth_indep _ [] (map (f 0%nat) (seq 0 n))) by (rewrite map_length, seq_length; exact A). rewrite (map_nth (fun a => map (f a) (seq 0 n))), seq_nth by exact A. cbn [Nat.add].
    destruct (Nat.ltb_spec b n) as [B|B]; [apply nth_map_seq, B|]. apply nth_overflow. rewrite map_length, seq_length. exact B.
  - rewrite (nth_overflow (map _ _)) by (rewrite map_length, seq_length; exact A). destruct b; reflexivity.
Qed.
(** the matrix of the correlations of the drivers *)
Definition rho_table (p : fx_fmm) : list (list R) :=
  let m := Fmm.m_of (fm_tenor p) in table (2 + 2 * m) (fun a b => rho p (driver_at m a) (driver_at m b)).
Lemma rho_table_symmetric p : CholeskyFacts.symmetric (rho_table p).
Proof. intros a b. unfold rho_table. rewrite !table_entry, rho_sym. rewrite andb_comm. reflexivity. Qed.
Lemma rho_table_entry p d e : let m := Fmm.m_of (fm_tenor p) in is_driver m d -> is_driver m e -> CholeskyFacts.entry (rho_table p) (place m d) (place m e) = rho p d e.
Proof.
  cbv zeta. intros D E. unfold rho_table. destruct (at_place _ _ D) as [D1 D2], (at_place _ _ E) as [E1 E2]. rewrite table_entry. rewrite (proj2 (Nat.ltb_lt _ _) D2), (proj2 (Nat.ltb_lt _ _) E2). cbn [andb]. rewrite D1, E1. reflexivity.
Qed.

Lemma long_ok m v : length v = m -> long m v = true.
Proof. intros H. apply Nat.leb_le. lia. Qed.
Lemma long_square_ok m c : square c m -> long_square m c = true.
Proof.
  intros [L W]. unfold long_square. rewrite (proj2 (Nat.leb_le _ _)) by lia. cbn [andb]. apply forallb_forall. intros row I. apply long_ok, W. rewrite <- (firstn_skipn m c). apply in_or_app. left. exact I.
Qed.
Lemma build_ok p : fmm_ok p -> build_joint_correlation p = Ok (table (2 + 2 * Fmm.m_of (fm_tenor p)) (joint_entry p)).
Proof.
  intros ((_ & (S1 & _) & _) & (_ & (S2 & _) & _) & (_ & A & B & C & D & S3 & _)). unfold build_joint_correlation.
  rewrite !long_ok, !long_square_ok by assumption. reflexivity.
Qed.
Lemma new_is p : fmm_ok p -> sim_new p = do r <- Cholesky.cholesky (rho_table p); match r with Some chol => Ok chol | None => Err EInvalidData end.
Proof.
  intros V. unfold sim_new. rewrite (proj2 (proj1 (fmm_validate_iff p)) V). rewrite (build_ok p V). cbn [obind]. f_equal. apply cholesky_lower.
  - apply table_square.
  - apply table_square.
  - unfold rho_table. rewrite !table_length. reflexivity.
  - rewrite table_length. intros i j Hi Hj. unfold rho_table. rewrite !table_entry. rewrite (proj2 (Nat.ltb_lt i _)), (proj2 (Nat.ltb_lt j _)) by lia. cbn [andb].
    destruct (place_at _ _ Hi) as [D1 D2], (place_at (Fmm.m_of (fm_tenor p)) j ltac:(lia)) as [E1 E2]. rewrite <- D2 at 1. rewrite <- E2 at 1. apply joint_ok; [assumption|assumption|]. lia.
Qed.
Lemma new_cases p : fmm_ok p ->
  (exists l, sim_new p = Ok l /\ CholeskyFacts.cholesky_factor (rho_table p) l) \/ (sim_new p = Err EInvalidData /\ ~ CholeskyFacts.positive_definite (rho_table p)).
Proof.
  intros V. rewrite (new_is p V). destruct (CholeskyFacts.cholesky_cases (rho_table p) (table_square _ _) (rho_table_symmetric p)) as [(l & E & F)|[E N]]; rewrite E; cbn [obind].
  - left. exists l. split; [reflexivity|exact F].
  - right. split; [reflexivity|exact N].
Qed.
Lemma new_valid p l : sim_new p = Ok l -> fmm_ok p.
Proof. intros H. unfold sim_new in H. destruct (fmm_validate_iff p) as [I [E|E]]; rewrite E in H; [apply I, E|discriminate]. Qed.
Lemma factor_shaped p l : CholeskyFacts.cholesky_factor (rho_table p) l -> factor_shape l (2 + 2 * Fmm.m_of (fm_tenor p)).
Proof.
  intros (L & SQ & T & _). unfold rho_table in L. rewrite table_length in L. split; [exact L|]. split; [|exact T]. intros row I. unfold CholeskyFacts.square in SQ. rewrite Forall_forall in SQ. rewrite (SQ row I). exact L.
Qed.
Lemma factor_rho p l d e : CholeskyFacts.cholesky_factor (rho_table p) l -> let m := Fmm.m_of (fm_tenor p) in is_driver m d -> is_driver m e ->
  MomentFacts.lsum (seq 0 (2 + 2 * m)) (fun k => CholeskyFacts.entry l (place m d) k * CholeskyFacts.entry l (place m e) k) = rho p d e.
Proof.
  cbv zeta. intros (_ & _ & _ & _ & E) D D'. rewrite lsum_rs. rewrite <- rho_table_entry by assumption. destruct (at_place _ _ D) as [_ A], (at_place _ _ D') as [_ B].
  specialize (E (place (Fmm.m_of (fm_tenor p)) d) (place (Fmm.m_of (fm_tenor p)) e)). unfold rho_table in E at 1 2 3. rewrite table_length in E. apply E; assumption.
Qed.

(** * The step *)
(** the rate used as short rate *)
Definition front (te : Fmm.fmm_tenor) (l : leg) (t : R) : R := rate_of l (Nat.min (Fmm.eta te t) (Fmm.m_of te)).
(** one currency over a step from [t] to [t + dt], with increments [w] and quanto shifts [q] *)
Definition leg_stepped (s : fmm_side) (te : Fmm.fmm_tenor) (l l' : leg) (t dt : R) (q w : nat -> R) : Prop :=
  let m := Fmm.m_of te in let mid := t + dt / 2 in let a := Fmm.eta te t in let b := Fmm.eta te (t + dt) in
  shaped m l' /\
  (forall j, (1 <= j <= m)%nat -> rate_of l' j = rate_of l j + vol_of s j * Fmm.gamma j mid te * (carry s te l a mid j - q j) * dt + vol_of s j * Fmm.gamma j mid te * w j) /\
  (forall j, (1 <= j <= m)%nat -> y_of l' j = y_of l j + (vol_of s j / (rate_of l j + 1 / Fmm.tau te j)) ^ 2 * (Rmin (t + dt) (Fmm.date_at te j) - Rmin t (Fmm.date_at te j))) /\
  lg_x l' = (if (a + 1 <=? Nat.min b m)%nat then 0 else new_x_of s te l (rate_of l') (y_of l') w t dt) /\
  forall j, (1 <= j <= m)%nat ->
    ((a < j <= b)%nat -> nth (j - 1) (lg_rates_at_start l') 0 = rate_of l' j /\ nth (j - 1) (lg_y_at_start l') 0 = y_of l' j) /\
    (~ (a < j <= b)%nat -> nth (j - 1) (lg_rates_at_start l') 0 = nth (j - 1) (lg_rates_at_start l) 0 /\ nth (j - 1) (lg_y_at_start l') 0 = nth (j - 1) (lg_y_at_start l) 0).

Lemma new_x_of_ext s te l r r' y y' w w' t dt : (forall j, (1 <= j <= Fmm.m_of te)%nat -> r j = r' j /\ y j = y' j /\ w j = w' j) -> new_x_of s te l r y w t dt = new_x_of s te l r' y' w' t dt.
Proof.
  intros H. unfold new_x_of. set (k := Fmm.eta te t). assert (K1 : (1 <= k)%nat) by (unfold k; destruct (FmmFacts.eta_cases te t) as [(A & _)|(A & _)]; lia).
  destruct (Nat.leb_spec k (Fmm.m_of te)); [|reflexivity]. destruct (H k ltac:(lia)) as (E1 & E2 & E3). rewrite E1, E2, E3. reflexivity.
Qed.

Definition shaped_state (p : fx_fmm) (s : fmm_state) : Prop := shaped (Fmm.m_of (fm_tenor p)) (sm_d s) /\ shaped (Fmm.m_of (fm_tenor p)) (sm_f s).
Definition stepped (p : fx_fmm) (chol : list (list R)) (g : nat -> R) (s : fmm_state) (dt : R) (s' : fmm_state) : Prop :=
  let te := fm_tenor p in let m := Fmm.m_of te in let sg := Rmax (sm_variance s) 0 in
  let w := fun d => sqrt dt * mix chol (2 + 2 * m) (place m d) g in
  sm_t s' = sm_t s + dt /\
  sm_fx s' = exp (ln (sm_fx s) + (front te (sm_d s) (sm_t s) - front te (sm_f s) (sm_t s) - sg / 2) * dt + sqrt sg * w Fx) /\
  sm_variance s' = Rmax (sg + kappa (fm_heston p) * (theta (fm_heston p) - sg) * dt + gamma (fm_heston p) * sqrt sg * w Variance) 0 /\
  leg_stepped (fm_dom p) te (sm_d s) (sm_d s') (sm_t s) dt (fun _ => 0) (fun j => w (Dom j)) /\
  leg_stepped (fm_for p) te (sm_f s) (sm_f s') (sm_t s) dt (fun j => nth (j - 1) (fc_xi_f (fm_corr p)) 0 * sqrt sg) (fun j => w (For j)).

Lemma step_form p chol g s dt : FmmFacts.good_tenor (fm_tenor p) -> fmm_ok p -> factor_shape chol (2 + 2 * Fmm.m_of (fm_tenor p)) -> shaped_state p s -> 0 < dt ->
  exists s', sim_step p chol g s dt = Ok (fun i => g (2 + 2 * Fmm.m_of (fm_tenor p) + i)%nat, s') /\ stepped p chol g s dt s'.
Proof.
  intros G V FS [SD SF] D. pose proof V as (OD & OF & (_ & _ & LXF & _)). unfold sim_step, stepped. set (te := fm_tenor p) in *. set (m := Fmm.m_of te) in *. set (n := (2 + 2 * m)%nat) in *.
  rewrite (proj2 (FmmFacts.Rltb_true 0 dt) D). cbn [negb]. set (t := sm_t s). replace (t + 1 / 2 * dt) with (t + dt / 2) by field. set (mid := t + dt / 2).
  assert (LM : t <= mid) by (unfold mid; lra).
  match goal with |- context [sim_dw chol ?z ?q] => set (dw := sim_dw chol z q) end.
  assert (LW : length dw = n) by exact (proj1 (dw_ok chol n g (sqrt dt) FS)). assert (WV : forall i, (i < n)%nat -> nth i dw 0 = sqrt dt * mix chol n i g) by exact (proj2 (dw_ok chol n g (sqrt dt) FS)). clearbody dw.
  assert (M1 : (1 <= m)%nat) by apply G.
  rewrite (oindex_ok dw 0) by (unfold n in *; lia). rewrite (oindex_ok dw 1) by (unfold n in *; lia). cbn [obind].
  destruct (oslice_ok dw 2 (2 + m) ltac:(unfold n in *; lia) ltac:(lia)) as (dd & ED & LD & VD). rewrite ED. cbn [obind].
  destruct (oslice_ok dw (2 + m) n ltac:(lia) ltac:(unfold n; lia)) as (df & EF & LF & VF). rewrite EF. cbn [obind].
  assert (K1 : (1 <= Fmm.eta te t)%nat) by (destruct (FmmFacts.eta_cases te t) as [(A & _)|(A & _)]; lia).
  destruct (Nat.eqb_spec (Nat.min (Fmm.eta te t) m) 0) as [Z|Z]; [exfalso; lia|].
  pose proof SD as (LRD & _). pose proof SF as (LRF & _). fold m in LRD, LRF. rewrite !oindex_ok by lia. cbn [obind].
  pose proof (mid_ok (fm_dom p) te (sm_d s) mid (proj1 OD) SD) as MD. fold m in MD. rewrite MD. cbn [obind].
  destruct (new_rates_d_ok (fm_dom p) te (sm_d s) dd dt t mid G LM OD SD ltac:(fold m; lia)) as (rd & ERD & LRD' & VRD). fold m in ERD, LRD', VRD. rewrite ERD. cbn [obind].
  pose proof (mid_ok (fm_for p) te (sm_f s) mid (proj1 OF) SF) as MF. fold m in MF. rewrite MF. cbn [obind].
  destruct (new_rates_f_ok (fm_for p) te (sm_f s) (fc_xi_f (fm_corr p)) (sqrt (Rmax (sm_variance s) 0)) df dt t mid G LM OF SF ltac:(fold m; unfold n in *; lia) LXF) as (rf & ERF & LRF' & VRF). fold m in ERF, LRF', VRF. rewrite ERF. cbn [obind].
  destruct (new_y_ok (fm_dom p) te (sm_d s) t dt OD SD D) as (yd & EYD & LYD & VYD). rewrite EYD. cbn [obind].
  destruct (new_y_ok (fm_for p) te (sm_f s) t dt OF SF D) as (yf & EYF & LYF & VYF). rewrite EYF. cbn [obind]. fold m in LYD, VYD, LYF, VYF.
  rewrite (new_x_ok (fm_dom p) te (sm_d s) rd yd dd t dt OD SD) by (fold m; lia). cbn [obind].
  rewrite (new_x_ok (fm_for p) te (sm_f s) rf yf df t dt OF SF) by (fold m; unfold n in *; lia). cbn [obind].
  match goal with |- context [commit_leg (sm_d s) rd yd ?x ?a ?b m] => destruct (commit_ok m (sm_d s) rd yd x a b SD LRD' LYD K1) as (d' & EC & SHD & RD & YD & XD & SND); rewrite EC end. cbn [obind].
  match goal with |- context [commit_leg (sm_f s) rf yf ?x ?a ?b m] => destruct (commit_ok m (sm_f s) rf yf x a b SF LRF' LYF K1) as (f' & EC' & SHF & RF & YF & XF & SNF); rewrite EC' end. cbn [obind].
  eexists. split; [reflexivity|]. cbn [sm_t sm_fx sm_variance sm_d sm_f]. fold te t. fold m. 
  assert (WD : forall j, (1 <= j <= m)%nat -> nth (j - 1) dd 0 = sqrt dt * mix chol n (place m (Dom j)) g).
  { intros j J. rewrite VD by lia. rewrite WV by (unfold n; lia). cbn [place]. replace (2 + (j - 1))%nat with (1 + j)%nat by lia. reflexivity. }
  assert (WF : forall j, (1 <= j <= m)%nat -> nth (j - 1) df 0 = sqrt dt * mix chol n (place m (For j)) g).
  { intros j J. rewrite VF by (unfold n; lia). rewrite WV by (unfold n; lia). cbn [place]. replace (2 + m + (j - 1))%nat with (1 + m + j)%nat by lia. reflexivity. }
  split; [reflexivity|]. split; [|split; [|split]].
  - rewrite WV by (unfold n; lia). cbn [place]. unfold front, rate_of. fold m. f_equal. f_equal. f_equal. field.
  - rewrite WV by (unfold n; lia). reflexivity.
  - unfold leg_stepped. fold m. fold mid. split; [exact SHD|]. split; [|split; [|split]].
    + intros j J. unfold rate_of at 1. rewrite RD, (VRD j J), (WD j J), Rminus_0_r. reflexivity.
    + intros j J. unfold y_of at 1. rewrite YD. apply VYD, J.
    + rewrite XD. destruct (_ <=? _)%nat; [reflexivity|]. apply new_x_of_ext. fold m. intros j J. unfold rate_of, y_of. rewrite RD, YD, (WD j J). split; [reflexivity|]. split; reflexivity.
    + intros j J. destruct (SND j J) as [S1 S2]. unfold rate_of, y_of. rewrite RD, YD. split; [exact S1|exact S2].
  - unfold leg_stepped. fold m. fold mid. split; [exact SHF|]. split; [|split; [|split]].
    + intros j J. unfold rate_of at 1. rewrite RF, (VRF j J), (WF j J). reflexivity.
    + intros j J. unfold y_of at 1. rewrite YF. apply VYF, J.
    + rewrite XF. destruct (_ <=? _)%nat; [reflexivity|]. apply new_x_of_ext. fold m. intros j J. unfold rate_of, y_of. rewrite RF, YF, (WF j J). split; [reflexivity|]. split; reflexivity.
    + intros j J. destruct (SNF j J) as [S1 S2]. unfold rate_of, y_of. rewrite RF, YF. split; [exact S1|exact S2].
Qed.

Lemma step_shaped p chol g s dt s' : stepped p chol g s dt s' -> shaped_state p s'.
Proof. intros (_ & _ & _ & (A & _) & (B & _)). split; assumption. Qed.
Lemma step_dt p chol g s dt r : sim_step p chol g s dt = Ok r -> 0 < dt.
Proof. intros H. unfold sim_step in H. destruct (Fmm.Rltb 0 dt) eqn:E; [apply FmmFacts.Rltb_true, E|discriminate]. Qed.

(** the initial state *)
Lemma initial_ok p : FmmFacts.good_tenor (fm_tenor p) -> exists s l, sim_initial p = Ok s /\ shaped_state p s /\ sm_fx s = fm_fx0 p /\ sm_variance s = sigma_0 (fm_heston p) /\ sm_t s = 0 /\ sm_d s = l /\ sm_f s = l /\
  lg_rates l = Fmm.initial_rates (fm_tenor p) /\ lg_x l = 0 /\
  (forall j, (1 <= j <= Fmm.m_of (fm_tenor p))%nat -> y_of l j = 0 /\ nth (j - 1) (lg_y_at_start l) 0 = 0 /\ nth (j - 1) (lg_rates_at_start l) 0 = if (j =? 1)%nat then rate_of l 1 else 0).
Proof.
  intros G. unfold sim_initial, initial_leg. set (te := fm_tenor p) in *. assert (M1 : (1 <= Fmm.m_of te)%nat) by apply G. rewrite oindex_ok by (unfold Fmm.m_of in M1; lia). cbn [obind].
  destruct (oset_ok (repeat 0 (Fmm.m_of te)) 0 (nth 0 (Fmm.initial_rates te) 0) ltac:(rewrite repeat_length; lia)) as (ra & E & L & W & K). rewrite E. cbn [obind]. rewrite repeat_length in L.
  eexists. eexists. split; [reflexivity|]. cbn [sm_d sm_f sm_fx sm_variance sm_t]. assert (SH : shaped (Fmm.m_of te) {| lg_rates := Fmm.initial_rates te; lg_y := repeat 0 (Fmm.m_of te); lg_rates_at_start := ra; lg_y_at_start := repeat 0 (Fmm.m_of te); lg_x := 0 |}).
  { split; [reflexivity|]. cbn [lg_y lg_rates_at_start lg_y_at_start]. split; [apply repeat_length|]. split; [exact L|apply repeat_length]. }
  split; [split; exact SH|]. split; [reflexivity|]. split; [reflexivity|]. split; [reflexivity|]. split; [reflexivity|]. split; [reflexivity|]. split; [reflexivity|]. split; [reflexivity|].
  intros j J. unfold y_of, rate_of. cbn [lg_y lg_y_at_start lg_rates_at_start lg_rates]. rewrite !nth_repeat. split; [reflexivity|]. split; [reflexivity|].
  destruct (Nat.eqb_spec j 1) as [->|NE]; [exact W|]. rewrite K by lia. apply nth_repeat.
Qed.
