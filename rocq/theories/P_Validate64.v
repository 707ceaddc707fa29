(** Theorems about Validate64.v. *)
From Coq Require Import Bool List Arith ZArith Reals Lra Lia Psatz.
Import ListNotations.
From Flocq Require Import Core BinarySingleNaN.
From Verif Require Import Outcome F64 Clock64 Clock64Facts Chol64 Chol64Facts P_Chol64 Bisect64 Bisect64Facts Floor64 P_Floor64 Validate64.
From Verif Require Hlmm.
Open Scope R_scope.

(** [y] is [x], or NaN. *)
Definition blur (x y : f64) : Prop := y = x \/ is_nan y = true.

Lemma ofor_all {A} (f : A -> outcome unit) l : Hlmm.ofor f l = Ok tt <-> forall a, In a l -> f a = Ok tt.
Proof.
  induction l as [|a l IH]; cbn [Hlmm.ofor]; [split; [intros _ a []|reflexivity]|]. destruct (f a) as [[]| |] eqn:E; cbn [obind].
  - rewrite IH. split; [intros H b [<-|I]; [exact E|apply H, I]|intros H b I; apply H; right; exact I].
  - split; [discriminate|intros H; rewrite (H a (or_introl eq_refl)) in E; discriminate].
  - split; [discriminate|intros H; rewrite (H a (or_introl eq_refl)) in E; discriminate].
Qed.
Lemma nan_sub (x y : f64) : is_nan x = true \/ is_nan y = true -> is_nan (fsub x y) = true.
Proof. intros [H|H]; [destruct x; try discriminate H; destruct y; reflexivity|destruct y; try discriminate H; destruct x as [?|?| |? ? ? ?]; reflexivity]. Qed.
Lemma nan_abs (x : f64) : is_nan (fabs x) = is_nan x. Proof. destruct x; reflexivity. Qed.
Lemma nan_lt (a y : f64) : is_nan y = true -> Bltb a y = false. Proof. destruct y; try discriminate. destruct a as [?|[|]| |? ? ? ?]; reflexivity. Qed.
Lemma nan_le (y a : f64) : is_nan y = true -> Bleb y a = false. Proof. destruct y; try discriminate. destruct a as [?|[|]| |? ? ? ?]; reflexivity. Qed.
Lemma blur_abs_lt a x x' : blur x x' -> Bltb a (fabs x) = false -> Bltb a (fabs x') = false.
Proof. intros [->|N] H; [exact H|]. apply nan_lt. rewrite nan_abs. exact N. Qed.
Lemma blur_sub_lt a x x' y y' : blur x x' -> blur y y' -> Bltb a (fabs (fsub x y)) = false -> Bltb a (fabs (fsub x' y')) = false.
Proof. intros [->|N] [->|N'] H; [exact H| | |]; apply nan_lt; rewrite nan_abs; apply nan_sub; auto. Qed.
Lemma blur_le x x' : blur x x' -> Bleb x zero64 = false -> Bleb x' zero64 = false.
Proof. intros [->|N] H; [exact H|]. apply nan_le, N. Qed.
Lemma fabs_ok (x : f64) : finite x -> finite (fabs x) /\ f64R (fabs x) = Rabs (f64R x).
Proof. intros F. unfold finite, fabs, f64R. rewrite is_finite_Babs, B2R_Babs. split; [exact F|reflexivity]. Qed.

(** What the matrix check accepts, comparison by comparison. *)
Definition passes (c : list (list f64)) (i j : nat) : Prop :=
  Bltb lit_12 (fabs (fsub (entry64 c i i) one64)) = false /\ Bltb lit_12 (fabs (fsub (entry64 c i j) (entry64 c j i))) = false /\ Bltb cap64 (fabs (entry64 c i j)) = false.
Lemma corr_iff c n : length c = n -> check_corr64 c n = Ok tt <-> Forall (fun row => length row = n) c /\ forall i j, (i < n)%nat -> (j < n)%nat -> passes c i j.
Proof.
  intros L. unfold check_corr64. set (shape := Hlmm.ofor _ c).
  assert (SH : shape = Ok tt <-> Forall (fun row => length row = n) c).
  { unfold shape. rewrite ofor_all, Forall_forall. split; intros H row I; specialize (H row I); cbv beta in *; destruct (Nat.eqb_spec (length row) n) as [E|E]; cbn [negb] in *; try discriminate; try reflexivity; try exact E; congruence. }
  destruct shape as [[]| |] eqn:ES; cbn [obind]; [|split; [discriminate|intros [H _]; apply SH in H; discriminate]|split; [discriminate|intros [H _]; apply SH in H; discriminate]].
  pose proof (proj1 SH eq_refl) as F. assert (SQ : square64 c) by (unfold square64; rewrite L; exact F).
  assert (IX : forall i j, (i < n)%nat -> (j < n)%nat -> index64 c i j = Ok (entry64 c i j)) by (intros; apply index64_entry; [exact SQ|lia|lia]).
  rewrite ofor_all. split.
  - intros H. split; [exact F|]. intros i j Li Lj. specialize (H i ltac:(apply in_seq; lia)). cbv beta in H. rewrite (IX i i Li Li) in H. cbn [obind] in H. destruct (Bltb lit_12 (fabs (fsub (entry64 c i i) one64))) eqn:E1; [discriminate|]. rewrite ofor_all in H. specialize (H j ltac:(apply in_seq; lia)). cbv beta in H. rewrite (IX i j Li Lj), (IX j i Lj Li) in H. cbn [obind] in H. destruct (Bltb lit_12 (fabs (fsub (entry64 c i j) (entry64 c j i)))) eqn:E2; [discriminate|]. destruct (Bltb cap64 (fabs (entry64 c i j))) eqn:E3; [discriminate|]. repeat split; assumption.
  - intros [_ H] i Ii. apply in_seq in Ii. cbv beta. rewrite (IX i i) by lia. cbn [obind]. destruct (H i i ltac:(lia) ltac:(lia)) as (E1 & _ & _). rewrite E1. apply ofor_all. intros j Ij. apply in_seq in Ij. cbv beta. rewrite (IX i j), (IX j i) by lia. cbn [obind]. destruct (H i j ltac:(lia) ltac:(lia)) as (_ & E2 & E3). rewrite E2, E3. reflexivity.
Qed.
Lemma blur_nth x x' k : Forall2 blur x x' -> (k < length x)%nat -> blur (nth k x zero64) (nth k x' zero64).
Proof. intros F. revert k. induction F as [|a b x x' B F IH]; intros k L; [cbn in L; lia|]. destruct k as [|k]; [exact B|]. cbn [nth]. apply IH. cbn in L. lia. Qed.
Lemma blur_row c c' i : Forall2 (Forall2 blur) c c' -> (i < length c)%nat -> Forall2 blur (nth i c []) (nth i c' []).
Proof. intros F. revert i. induction F as [|a b x x' B F IH]; intros i L; [cbn in L; lia|]. destruct i as [|i]; [exact B|]. cbn [nth]. apply IH. cbn in L. lia. Qed.
Lemma F2_length {A} (P : A -> A -> Prop) l l' : Forall2 P l l' -> length l' = length l.
Proof. induction 1; cbn; congruence. Qed.
Lemma blur_shape c c' n : Forall2 (Forall2 blur) c c' -> Forall (fun row => length row = n) c -> Forall (fun row => length row = n) c'.
Proof. induction 1 as [|a b c c' B F IH]; intros H; constructor; inversion H; subst; [apply F2_length in B; congruence|apply IH; assumption]. Qed.
Lemma blur_corr c c' n : length c = n -> Forall2 (Forall2 blur) c c' -> check_corr64 c n = Ok tt -> check_corr64 c' n = Ok tt.
Proof.
  intros L B H. apply corr_iff in H; [|exact L]. destruct H as [F H]. apply corr_iff; [apply F2_length in B; congruence|]. split; [eapply blur_shape; eassumption|]. intros i j Li Lj. destruct (H i j Li Lj) as (E1 & E2 & E3).
  assert (BE : forall a b, (a < n)%nat -> (b < n)%nat -> blur (entry64 c a b) (entry64 c' a b)). { intros a b La Lb. unfold entry64. apply blur_nth; [apply blur_row; [exact B|lia]|]. rewrite Forall_forall in F. rewrite (F (nth a c [])); [exact Lb|apply nth_In; lia]. }
  split; [|split]; [eapply blur_sub_lt; [apply BE; assumption|left; reflexivity|exact E1]|eapply blur_sub_lt; [apply BE; assumption|apply BE; assumption|exact E2]|eapply blur_abs_lt; [apply BE; assumption|exact E3]].
Qed.
Lemma blur_entries l l' : Forall2 blur l l' -> Hlmm.ofor check_entry64 l = Ok tt -> Hlmm.ofor check_entry64 l' = Ok tt.
Proof.
  intros B H. rewrite ofor_all in *. intros y I. induction B as [|x y' l l' B F IH]; [destruct I|]. destruct I as [->|I]; [|apply IH; [intros a Ia; apply H; right; exact Ia|exact I]].
  specialize (H x (or_introl eq_refl)). unfold check_entry64 in *. destruct (Bltb cap64 (fabs x)) eqn:E; [discriminate|]. rewrite (blur_abs_lt _ _ _ B E). reflexivity.
Qed.
Lemma blur_cross n c c' : Forall2 (Forall2 blur) c c' -> Hlmm.ofor (fun row : list f64 => if negb (length row =? n)%nat then Err EInvalidData else Hlmm.ofor check_entry64 row) c = Ok tt ->
  Hlmm.ofor (fun row : list f64 => if negb (length row =? n)%nat then Err EInvalidData else Hlmm.ofor check_entry64 row) c' = Ok tt.
Proof.
  intros B H. rewrite ofor_all in *. intros y I. induction B as [|x y' l l' B F IH]; [destruct I|]. destruct I as [->|I]; [|apply IH; [intros a Ia; apply H; right; exact Ia|exact I]].
  specialize (H x (or_introl eq_refl)). cbv beta in *. rewrite (F2_length _ _ _ B). destruct (length x =? n)%nat; [cbn [negb] in *|discriminate]. eapply blur_entries; eassumption.
Qed.

(** Every check that returns an error is blind to NaN: take any accepted parameters and write
    NaN wherever one likes, and they are still accepted.  The volatilities of the Libor model
    are not looked at; those of the forward market model alone must be finite. *)
Theorem C101_nan_refuted :
  (forall n sigmas sigmas' betas betas' lambda lambda' eta eta' v0 v0' corr corr', length sigmas' = length sigmas -> length betas' = length betas -> blur lambda lambda' -> blur eta eta' -> blur v0 v0' -> Forall2 (Forall2 blur) corr corr' ->
     lmm_validate64 n sigmas betas lambda eta v0 corr = Ok tt -> lmm_validate64 n sigmas' betas' lambda' eta' v0' corr' = Ok tt) /\
  (forall n x x' xd xd' xf xf' cross cross', blur x x' -> Forall2 blur xd xd' -> Forall2 blur xf xf' -> Forall2 (Forall2 blur) cross cross' ->
     hlmm_corr_validate64 n x xd xf cross = Ok tt -> hlmm_corr_validate64 n x' xd' xf' cross' = Ok tt) /\
  (forall m sigmas lambda lambda' eta eta' v0 v0' corr corr', blur lambda lambda' -> blur eta eta' -> blur v0 v0' -> Forall2 (Forall2 blur) corr corr' ->
     side_validate64 m sigmas lambda eta v0 corr = Ok tt -> side_validate64 m sigmas lambda' eta' v0' corr' = Ok tt) /\
  (forall m x x' xd xd' xf xf' sd sd' sf sf' cross cross', blur x x' -> Forall2 blur xd xd' -> Forall2 blur xf xf' -> Forall2 blur sd sd' -> Forall2 blur sf sf' -> Forall2 (Forall2 blur) cross cross' ->
     fmm_corr_validate64 m x xd xf sd sf cross = Ok tt -> fmm_corr_validate64 m x' xd' xf' sd' sf' cross' = Ok tt) /\
  (forall a a' b b', blur a a' -> blur b b' -> stock_check64 a b = Ok tt -> stock_check64 a' b' = Ok tt).
Proof.
  split; [|split; [|split; [|split]]].
  - intros n sg sg' be be' l l' e e' v v' c c' LS LB BL BE BV BC H. unfold lmm_validate64 in *. rewrite LS, LB, (F2_length _ _ _ BC). destruct (length sg =? n)%nat; [cbn [negb] in *|discriminate]. destruct (length be =? n)%nat; [cbn [negb] in *|discriminate]. destruct (Nat.eqb_spec (length c) n) as [LC|]; [cbn [negb] in *|discriminate].
    destruct (check_corr64 c n) as [[]| |] eqn:EC; try discriminate. rewrite (blur_corr c c' n LC BC EC). cbn [obind] in *. destruct (Bleb l zero64) eqn:E1, (Bleb e zero64) eqn:E2, (Bleb v zero64) eqn:E3; try discriminate. rewrite (blur_le _ _ BL E1), (blur_le _ _ BE E2), (blur_le _ _ BV E3). reflexivity.
  - intros n x x' xd xd' xf xf' c c' B BD BF BC H. unfold hlmm_corr_validate64 in *. rewrite (F2_length _ _ _ BD), (F2_length _ _ _ BF), (F2_length _ _ _ BC). destruct (Bltb cap64 (fabs x)) eqn:E; [discriminate|]. rewrite (blur_abs_lt _ _ _ B E). destruct (length xd =? n)%nat; [cbn [negb] in *|discriminate]. destruct (length xf =? n)%nat; [cbn [negb] in *|discriminate]. destruct (length c =? n)%nat; [cbn [negb] in *|discriminate].
    match type of H with obind ?o _ = _ => destruct o as [[]| |] eqn:EO; try discriminate end. rewrite (blur_cross n c c' BC EO). cbn [obind] in *. destruct (Hlmm.ofor check_entry64 xd) as [[]| |] eqn:ED; try discriminate. rewrite (blur_entries xd xd' BD ED). cbn [obind] in *. apply (blur_entries xf xf' BF H).
  - intros m sg l l' e e' v v' c c' BL BE BV BC H. unfold side_validate64 in *. rewrite (F2_length _ _ _ BC). destruct (length sg =? m)%nat; [cbn [negb] in *|discriminate]. destruct (Nat.eqb_spec (length c) m) as [LC|]; [cbn [negb] in *|discriminate].
    destruct (check_corr64 c m) as [[]| |] eqn:EC; try discriminate. rewrite (blur_corr c c' m LC BC EC). cbn [obind] in *. destruct (Bleb l zero64) eqn:E1, (Bleb e zero64) eqn:E2, (Bleb v zero64) eqn:E3; try discriminate. rewrite (blur_le _ _ BL E1), (blur_le _ _ BE E2), (blur_le _ _ BV E3). exact H.
  - intros m x x' xd xd' xf xf' sd sd' sf sf' c c' B BD BF BSD BSF BC H. unfold fmm_corr_validate64 in *. rewrite (F2_length _ _ _ BD), (F2_length _ _ _ BF), (F2_length _ _ _ BSD), (F2_length _ _ _ BSF), (F2_length _ _ _ BC). destruct (Bltb cap64 (fabs x)) eqn:E; [discriminate|]. rewrite (blur_abs_lt _ _ _ B E). destruct (length xd =? m)%nat; [cbn [negb] in *|discriminate]. destruct (length xf =? m)%nat; [cbn [negb] in *|discriminate]. destruct (length sd =? m)%nat; [cbn [negb] in *|discriminate]. destruct (length sf =? m)%nat; [cbn [negb] in *|discriminate]. destruct (length c =? m)%nat; [cbn [negb] in *|discriminate].
    match type of H with obind ?o _ = _ => destruct o as [[]| |] eqn:EO; try discriminate end. rewrite (blur_cross m c c' BC EO). cbn [obind] in *. revert H. apply blur_entries. repeat (apply Forall2_app; [assumption|]). assumption.
  - intros a a' b b' BA BB H. unfold stock_check64 in *. destruct (Bltb one64 (fabs a)) eqn:E1; [discriminate|]. destruct (Bltb one64 (fabs b)) eqn:E2; [discriminate|]. rewrite (blur_abs_lt _ _ _ BA E1), (blur_abs_lt _ _ _ BB E2). reflexivity.
Qed.
Print Assumptions C101_nan_refuted.

Lemma cap_ok : finite cap64 /\ f64R cap64 = 1 + 4504 / 4503599627370496.
Proof.
  assert (F : finite cap64) by (unfold finite; vm_compute; reflexivity). split; [exact F|]. set (v := f64_lit 4503599627375000 (-52)).
  assert (P : bpow radix2 (-52) = / 4503599627370496) by reflexivity.
  destruct (lit_ok 4503599627375000 (-52) 2) as [V FV]; [reflexivity|lia|lia|rewrite P, Rabs_pos_eq; lra|]. fold v in V, FV. rewrite P in V.
  assert (A : f64R cap64 <= f64R v) by (apply (Bleb_R _ _ F FV); vm_compute; reflexivity). assert (B : f64R v <= f64R cap64) by (apply (Bleb_R _ _ FV F); vm_compute; reflexivity). lra.
Qed.
Lemma lt_false (x y : f64) : finite x -> finite y -> Bltb x y = false <-> f64R y <= f64R x.
Proof. intros X Y. pose proof (Bltb_R x y X Y) as H. destruct (Bltb x y); split; intros K; try discriminate; try reflexivity; [pose proof (proj1 H eq_refl); lra|]. apply Rnot_lt_le. intros L. apply H in L. discriminate. Qed.

(** A correlation passes exactly when it is NaN, or at most 1 + 4504 / 2^52 in size: the
    double written [1.0 + 1e-12], a little above 1 + 1.0000889e-12. *)
Theorem C101_entry c : check_entry64 c = Ok tt <-> is_nan c = true \/ finite c /\ Rabs (f64R c) <= 1 + 4504 / 4503599627370496.
Proof.
  unfold check_entry64. destruct cap_ok as [FC VC]. destruct (is_nan c) eqn:N.
  - rewrite nan_lt by (rewrite nan_abs; exact N). tauto.
  - destruct (is_finite c) eqn:F.
    + destruct (fabs_ok c F) as [FA VA]. pose proof (lt_false cap64 (fabs c) FC FA) as H. rewrite VA, VC in H. destruct (Bltb cap64 (fabs c)); split; try discriminate; try reflexivity; [intros [E|[_ E]]; [discriminate|apply H in E; discriminate]|intros _; right; split; [exact F|apply H; reflexivity]].
    + assert (I : Bltb cap64 (fabs c) = true) by (destruct c; try discriminate; reflexivity). rewrite I. split; [discriminate|]. intros [E|[E _]]; [discriminate|]. unfold finite in E. congruence.
Qed.
Print Assumptions C101_entry.

Lemma diff_ok x y : finite x -> finite y -> Rabs (f64R x) <= 2 -> Rabs (f64R y) <= 2 -> finite (fabs (fsub x y)) /\ f64R (fabs (fsub x y)) = Rabs (rnd (f64R x - f64R y)).
Proof.
  intros X Y HX HY. destruct (fsub_ok x y 4 X Y ltac:(lia)) as [V F]; [apply Rabs_le; apply Rabs_le_inv in HX, HY; lra|]. destruct (fabs_ok _ F) as [FA VA]. split; [exact FA|]. rewrite VA, V. reflexivity.
Qed.
Lemma rnd_minus x y : exists e, Rabs e <= u53 /\ rnd (f64R x - f64R y) = (f64R x - f64R y) * (1 + e).
Proof. destruct (rnd_plus x (Bopp y)) as (e & E & H). exists e. split; [exact E|]. unfold f64R in *. rewrite B2R_Bopp in H. exact H. Qed.
Lemma near_small x y : Rabs (rnd (f64R x - f64R y)) <= / 10 ^ 12 -> Rabs (f64R x - f64R y) <= 1001 / 10 ^ 15.
Proof.
  destruct (rnd_minus x y) as (e & E & H). rewrite H, Rabs_mult. intros K. pose proof u53_eq as U. apply Rabs_le_inv in E. assert (P : 999999 / 1000000 <= Rabs (1 + e)) by (rewrite Rabs_pos_eq; lra). pose proof (Rabs_pos (f64R x - f64R y)) as Q.
  pose proof (Rmult_le_compat_l _ _ _ Q P) as M. cbn [pow] in K |- *. lra.
Qed.
Lemma small_near x y : Rabs (f64R x - f64R y) <= 99 / 10 ^ 14 -> Rabs (rnd (f64R x - f64R y)) <= f64R lit_12.
Proof.
  intros H. destruct lit_12_ok as (_ & L & _). apply Rabs_le_inv in H. apply Rabs_le. split.
  - replace (- f64R lit_12) with (f64R (Bopp lit_12)) by (unfold f64R; apply B2R_Bopp). rewrite <- (rnd_id _ (format64 (Bopp lit_12))). apply rnd_mono. unfold f64R at 1. rewrite B2R_Bopp. fold (f64R lit_12). lra.
  - rewrite <- (rnd_id _ (format64 lit_12)). apply rnd_mono. lra.
Qed.
(** [c] is a matrix of correlations to within [t] on the diagonal and across it. *)
Definition correlated (t : R) (c : list (list f64)) (n : nat) : Prop :=
  length c = n /\ Forall (fun row => length row = n) c /\
  forall i j, (i < n)%nat -> (j < n)%nat ->
    Rabs (f64R (entry64 c i i) - 1) <= t /\ Rabs (f64R (entry64 c i j) - f64R (entry64 c j i)) <= t /\ Rabs (f64R (entry64 c i j)) <= 1 + 4504 / 4503599627370496.
Definition all_finite (c : list (list f64)) : Prop := Forall (Forall finite) c.
Lemma entry_finite c i j : all_finite c -> finite (entry64 c i j).
Proof.
  intros H. unfold entry64. destruct (Nat.lt_ge_cases i (length c)) as [L|L]; [|rewrite (nth_overflow c) by exact L; destruct j; apply zero64_ok]. unfold all_finite in H. rewrite Forall_forall in H. specialize (H (nth i c []) (nth_In _ _ L)). rewrite Forall_forall in H.
  destruct (Nat.lt_ge_cases j (length (nth i c []))) as [M|M]; [apply H, nth_In, M|]. rewrite nth_overflow by exact M. apply zero64_ok.
Qed.
Lemma passes_bound c i j : all_finite c -> passes c i j -> Rabs (f64R (entry64 c i j)) <= 1 + 4504 / 4503599627370496.
Proof. intros A (_ & _ & E). destruct cap_ok as [FC VC]. destruct (fabs_ok _ (entry_finite c i j A)) as [FA VA]. apply (lt_false _ _ FC FA) in E. rewrite VA, VC in E. exact E. Qed.

(** A matrix of finite numbers passes only if it is one of correlations to within 1.001e-12,
    and does pass if it is one to within 9.9e-13. *)
Theorem C101_matrix c n : length c = n -> all_finite c ->
  (check_corr64 c n = Ok tt -> correlated (1001 / 10 ^ 15) c n) /\ (correlated (99 / 10 ^ 14) c n -> check_corr64 c n = Ok tt).
Proof.
  intros L A. destruct cap_ok as [FC VC]. destruct one64_ok as [V1 F1]. destruct lit_12_ok as (FL & L1 & L2). split.
  - intros H. apply corr_iff in H; [|exact L]. destruct H as [S H]. split; [exact L|]. split; [exact S|]. intros i j Li Lj.
    pose proof (passes_bound c i j A (H i j Li Lj)) as Bij. pose proof (passes_bound c j i A (H j i Lj Li)) as Bji. pose proof (passes_bound c i i A (H i i Li Li)) as Bii. destruct (H i j Li Lj) as (E1 & E2 & E3).
    assert (T : forall x, x <= 1 + 4504 / 4503599627370496 -> x <= 2) by (intros; lra).
    destruct (diff_ok _ _ (entry_finite c i i A) F1 (T _ Bii) ltac:(rewrite V1, Rabs_pos_eq; lra)) as [FA VA]. apply (lt_false _ _ FL FA) in E1. rewrite VA in E1. apply (fun K => Rle_trans _ _ _ K L2) in E1. apply near_small in E1. rewrite V1 in E1.
    destruct (diff_ok _ _ (entry_finite c i j A) (entry_finite c j i A) (T _ Bij) (T _ Bji)) as [FD VD]. apply (lt_false _ _ FL FD) in E2. rewrite VD in E2. apply (fun K => Rle_trans _ _ _ K L2) in E2. apply near_small in E2.
    split; [exact E1|]. split; [exact E2|exact Bij].
  - intros (_ & S & H). apply corr_iff; [exact L|]. split; [exact S|]. intros i j Li Lj. destruct (H i j Li Lj) as (E1 & E2 & E3). destruct (H j i Lj Li) as (_ & _ & E4). destruct (H i i Li Li) as (_ & _ & E5).
    assert (T : forall x, x <= 1 + 4504 / 4503599627370496 -> x <= 2) by (intros; lra).
    destruct (diff_ok _ _ (entry_finite c i i A) F1 (T _ E5) ltac:(rewrite V1, Rabs_pos_eq; lra)) as [FA VA]. destruct (diff_ok _ _ (entry_finite c i j A) (entry_finite c j i A) (T _ E3) (T _ E4)) as [FD VD]. destruct (fabs_ok _ (entry_finite c i j A)) as [FB VB].
    split; [|split]; [apply (lt_false _ _ FL FA); rewrite VA; apply small_near; rewrite V1; exact E1|apply (lt_false _ _ FL FD); rewrite VD; apply small_near; exact E2|apply (lt_false _ _ FC FB); rewrite VB, VC; exact E3].
Qed.
Print Assumptions C101_matrix.

(** A comparison that holds with a finite number below, or above, an unknown one. *)
Lemma above_lt (a x : f64) : finite a -> Bltb a x = true <-> x = inf64 \/ finite x /\ f64R a < f64R x.
Proof.
  intros A. destruct (is_finite x) eqn:F.
  - rewrite (Bltb_R a x A F). split; [intros H; right; split; [exact F|exact H]|intros [->|[_ H]]; [discriminate|exact H]].
  - unfold finite in *. destruct x as [?|[|]| |? ? ? ?]; try discriminate; (destruct a as [?|[|]| |? ? ? ?]; try discriminate); (split; [intros H|intros [H|[H _]]]); try discriminate; try reflexivity; left; reflexivity.
Qed.
Lemma above_le (a x : f64) : finite a -> Bleb a x = true <-> x = inf64 \/ finite x /\ f64R a <= f64R x.
Proof.
  intros A. destruct (is_finite x) eqn:F.
  - rewrite (Bleb_R a x A F). split; [intros H; right; split; [exact F|exact H]|intros [->|[_ H]]; [discriminate|exact H]].
  - unfold finite in *. destruct x as [?|[|]| |? ? ? ?]; try discriminate; (destruct a as [?|[|]| |? ? ? ?]; try discriminate); (split; [intros H|intros [H|[H _]]]); try discriminate; try reflexivity; left; reflexivity.
Qed.
Lemma between_le (a b x : f64) : finite a -> finite b -> (Bleb a x && Bleb x b = true) <-> finite x /\ f64R a <= f64R x <= f64R b.
Proof.
  intros A B. rewrite andb_true_iff. destruct (is_finite x) eqn:F; [rewrite (Bleb_R a x A F), (Bleb_R x b F B); unfold finite; tauto|]. split; [|intros [K _]; unfold finite in K; congruence].
  intros [H K]. exfalso. unfold finite in *. destruct x as [?|[|]| |? ? ? ?]; try discriminate; destruct a as [?|[|]| |? ? ? ?]; try discriminate; destruct b as [?|[|]| |? ? ? ?]; discriminate.
Qed.
Lemma between_lt (a b x : f64) : finite a -> finite b -> (Bltb a x && Bltb x b = true) <-> finite x /\ f64R a < f64R x < f64R b.
Proof.
  intros A B. rewrite andb_true_iff. destruct (is_finite x) eqn:F; [rewrite (Bltb_R a x A F), (Bltb_R x b F B); unfold finite; tauto|]. split; [|intros [K _]; unfold finite in K; congruence].
  intros [H K]. exfalso. unfold finite in *. destruct x as [?|[|]| |? ? ? ?]; try discriminate; destruct a as [?|[|]| |? ? ? ?]; try discriminate; destruct b as [?|[|]| |? ? ? ?]; discriminate.
Qed.
Lemma opp_one_ok : finite (Bopp one64) /\ f64R (Bopp one64) = -1.
Proof. destruct one64_ok as [V F]. split; [unfold finite; rewrite is_finite_Bopp; exact F|]. unfold f64R in *. rewrite B2R_Bopp, V. lra. Qed.
Lemma assert_true (b : bool) (k : outcome unit) : (if negb b then Panic PAssert else k) = Ok tt <-> b = true /\ k = Ok tt.
Proof. destruct b; cbn [negb]; split; try discriminate; [intros H; split; [reflexivity|exact H]|intros [_ H]; exact H|intros [H _]; discriminate]. Qed.

(** The assertions let no NaN through.  What the constructors of the two SABR models accept:
    exponent and correlation finite and in range, while the volatility, its volatility and the
    forward may be plus infinity. *)
Theorem C101_sabr alpha beta rho nu : sabr_new64 alpha beta rho nu = Ok tt <->
  (alpha = inf64 \/ finite alpha /\ 0 < f64R alpha) /\ (finite beta /\ 0 <= f64R beta <= 1) /\ (finite rho /\ -1 < f64R rho < 1) /\ (nu = inf64 \/ finite nu /\ 0 <= f64R nu).
Proof.
  unfold sabr_new64. rewrite !assert_true. destruct zero64_ok as [V0 F0], one64_ok as [V1 F1], opp_one_ok as [FM VM]. rewrite (above_lt zero64 alpha F0), (between_le zero64 one64 beta F0 F1), (between_lt (Bopp one64) one64 rho FM F1), (above_le zero64 nu F0), V0, V1, VM. tauto.
Qed.
Print Assumptions C101_sabr.
Lemma forallb_Forall {A} (f : A -> bool) (P : A -> Prop) l : (forall a, f a = true <-> P a) -> forallb f l = true <-> Forall P l.
Proof. intros E. rewrite forallb_forall, Forall_forall. split; intros H a I; apply E, H, I. Qed.
Theorem C101_td alphas rhos nus beta forward : td_new64 alphas rhos nus beta forward = Ok tt <->
  (finite beta /\ 0 <= f64R beta <= 1) /\ (forward = inf64 \/ finite forward /\ 0 < f64R forward) /\
  Forall (fun a => a = inf64 \/ finite a /\ 0 < f64R a) alphas /\ Forall (fun n => n = inf64 \/ finite n /\ 0 <= f64R n) nus /\ Forall (fun r => finite r /\ -1 < f64R r < 1) rhos.
Proof.
  unfold td_new64. rewrite !assert_true. destruct zero64_ok as [V0 F0], one64_ok as [V1 F1], opp_one_ok as [FM VM]. rewrite (above_lt zero64 forward F0), (between_le zero64 one64 beta F0 F1), V0, V1.
  rewrite (forallb_Forall (fun a => Bltb zero64 a) (fun a => a = inf64 \/ finite a /\ 0 < f64R a)) by (intros a; rewrite (above_lt zero64 a F0), V0; reflexivity).
  rewrite (forallb_Forall (fun n => Bleb zero64 n) (fun n => n = inf64 \/ finite n /\ 0 <= f64R n)) by (intros a; rewrite (above_le zero64 a F0), V0; reflexivity).
  rewrite (forallb_Forall (fun r => Bltb (Bopp one64) r && Bltb r one64) (fun r => finite r /\ -1 < f64R r < 1)) by (intros a; rewrite (between_lt _ _ a FM F1), V1, VM; reflexivity). tauto.
Qed.
Print Assumptions C101_td.

(** What the checks returning an error accept, exactly: a parameter that must be positive may
    be NaN or plus infinity, a correlation may be NaN, and only the volatilities of a side of
    the forward market model must be finite. *)
Definition positive64 (x : f64) : Prop := is_nan x = true \/ x = inf64 \/ finite x /\ 0 < f64R x.
Definition correlation64 (b : R) (c : f64) : Prop := is_nan c = true \/ finite c /\ Rabs (f64R c) <= b.
Lemma error_false (b : bool) (k : outcome unit) : (if b then Err EInvalidData else k) = Ok tt <-> b = false /\ k = Ok tt.
Proof. destruct b; split; try discriminate; [intros [H _]; discriminate|intros H; split; [reflexivity|exact H]|intros [_ H]; exact H]. Qed.
Lemma then_ok (a k : outcome unit) : (do _ <- a; k) = Ok tt <-> a = Ok tt /\ k = Ok tt.
Proof. destruct a as [[]| |]; cbn [obind]; split; try discriminate; [intros H; split; [reflexivity|exact H]|intros [_ H]; exact H|intros [H _]; discriminate|intros [H _]; discriminate]. Qed.
Lemma not_le_zero x : Bleb x zero64 = false <-> positive64 x.
Proof.
  unfold positive64. destruct zero64_ok as [V0 F0]. destruct (is_finite x) eqn:F.
  - pose proof (Bleb_R x zero64 F F0) as H. rewrite V0 in H. assert (N : is_nan x = false) by (apply finite_not_nan, F). destruct (Bleb x zero64); split; try discriminate; try reflexivity.
    + intros [K|[K|[_ K]]]; [congruence|subst x; discriminate|]. pose proof (proj1 H eq_refl). lra.
    + intros _. right. right. split; [exact F|]. apply Rnot_le_lt. intros K. apply H in K. discriminate.
  - destruct x as [?|[|]| |? ? ? ?]; try discriminate; split; intros H; try discriminate; try reflexivity; [|right; left; reflexivity|left; reflexivity]. destruct H as [H|[H|[H _]]]; discriminate.
Qed.
Lemma entries_ok l : Hlmm.ofor check_entry64 l = Ok tt <-> Forall (correlation64 (1 + 4504 / 4503599627370496)) l.
Proof. rewrite ofor_all, Forall_forall. split; intros H a I; apply C101_entry, H, I. Qed.
Lemma cross_ok n c : Hlmm.ofor (fun row : list f64 => if negb (length row =? n)%nat then Err EInvalidData else Hlmm.ofor check_entry64 row) c = Ok tt <-> Forall (fun row => length row = n /\ Forall (correlation64 (1 + 4504 / 4503599627370496)) row) c.
Proof. rewrite ofor_all, Forall_forall. split; intros H row I; specialize (H row I); cbv beta in *; rewrite error_false, negb_false_iff, Nat.eqb_eq, entries_ok in *; exact H. Qed.
Lemma side_sigma s : ((if negb (is_finite s) || Bltb s zero64 then Err EInvalidData else Ok tt) = Ok tt) <-> finite s /\ 0 <= f64R s.
Proof.
  rewrite error_false, orb_false_iff, negb_false_iff. destruct zero64_ok as [V0 F0]. split.
  - intros [[F H] _]. split; [exact F|]. apply (lt_false s zero64 F F0) in H. lra.
  - intros [F H]. split; [|reflexivity]. split; [exact F|]. apply (lt_false s zero64 F F0). lra.
Qed.
Theorem C101_accepts :
  (forall n sigmas betas lambda eta v0 corr, lmm_validate64 n sigmas betas lambda eta v0 corr = Ok tt <->
     length sigmas = n /\ length betas = n /\ length corr = n /\ check_corr64 corr n = Ok tt /\ positive64 lambda /\ positive64 eta /\ positive64 v0) /\
  (forall m sigmas lambda eta v0 corr, side_validate64 m sigmas lambda eta v0 corr = Ok tt <->
     length sigmas = m /\ length corr = m /\ check_corr64 corr m = Ok tt /\ positive64 lambda /\ positive64 eta /\ positive64 v0 /\ Forall (fun s => finite s /\ 0 <= f64R s) sigmas) /\
  (forall n x xd xf cross, hlmm_corr_validate64 n x xd xf cross = Ok tt <->
     length xd = n /\ length xf = n /\ length cross = n /\ Forall (correlation64 (1 + 4504 / 4503599627370496)) (x :: xd ++ xf) /\ Forall (fun row => length row = n /\ Forall (correlation64 (1 + 4504 / 4503599627370496)) row) cross) /\
  (forall m x xd xf sd sf cross, fmm_corr_validate64 m x xd xf sd sf cross = Ok tt <->
     length xd = m /\ length xf = m /\ length sd = m /\ length sf = m /\ length cross = m /\ Forall (correlation64 (1 + 4504 / 4503599627370496)) (x :: xd ++ xf ++ sd ++ sf) /\ Forall (fun row => length row = m /\ Forall (correlation64 (1 + 4504 / 4503599627370496)) row) cross) /\
  (forall a b, stock_check64 a b = Ok tt <-> correlation64 1 a /\ correlation64 1 b).
Proof.
  assert (CE : forall x, Bltb cap64 (fabs x) = false <-> correlation64 (1 + 4504 / 4503599627370496) x). { intros x. unfold correlation64. rewrite <- C101_entry. unfold check_entry64. destruct (Bltb cap64 (fabs x)); split; try discriminate; reflexivity. }
  assert (C1 : forall x, Bltb one64 (fabs x) = false <-> correlation64 1 x).
  { intros x. unfold correlation64. destruct one64_ok as [V1 F1]. destruct (is_nan x) eqn:N; [rewrite nan_lt by (rewrite nan_abs; exact N); tauto|]. destruct (is_finite x) eqn:F.
    - destruct (fabs_ok x F) as [FA VA]. rewrite (lt_false one64 (fabs x) F1 FA), VA, V1. unfold finite. rewrite F. intuition discriminate.
    - assert (I : Bltb one64 (fabs x) = true) by (destruct x; try discriminate; reflexivity). rewrite I. unfold finite. rewrite F. intuition discriminate. }
  split; [|split; [|split; [|split]]].
  - intros n sg be l e v c. unfold lmm_validate64. rewrite !error_false, then_ok, error_false, !negb_false_iff, !Nat.eqb_eq, !orb_false_iff, !not_le_zero. tauto.
  - intros m sg l e v c. unfold side_validate64. rewrite !error_false, then_ok, error_false, !negb_false_iff, !Nat.eqb_eq, !orb_false_iff, !not_le_zero, ofor_all, Forall_forall. split; [intros (A & B & D & E & G); repeat (split; [tauto|]); intros s I; apply side_sigma, G, I|intros (A & B & D & E & G & K & M); repeat (split; [tauto|]); intros s I; apply side_sigma, M, I].
  - intros n x xd xf c. unfold hlmm_corr_validate64. rewrite !error_false, !then_ok, !negb_false_iff, !Nat.eqb_eq, cross_ok, !entries_ok, CE, Forall_cons_iff, Forall_app. tauto.
  - intros n x xd xf sd sf c. unfold fmm_corr_validate64. rewrite !error_false, !then_ok, !negb_false_iff, !Nat.eqb_eq, cross_ok, !entries_ok, CE, Forall_cons_iff. tauto.
  - intros a b. unfold stock_check64. rewrite !error_false, !C1. tauto.
Qed.
Print Assumptions C101_accepts.

Lemma abs_below (x b : f64) : finite b -> Bleb (fabs x) b = true -> finite x.
Proof. intros B. destruct x as [?|[|]| |? ? ? ?]; try reflexivity; destruct b as [?|[|]| |? ? ? ?]; discriminate. Qed.
Lemma small_strict x y : Rabs (f64R x - f64R y) <= 98 / 10 ^ 14 -> Rabs (rnd (f64R x - f64R y)) < f64R lit_12.
Proof.
  intros H. destruct (rnd_minus x y) as (e & E & R). rewrite R, Rabs_mult. destruct lit_12_ok as (_ & L & _). pose proof u53_eq as U. apply Rabs_le_inv in E. assert (P : Rabs (1 + e) <= 1000001 / 1000000) by (rewrite Rabs_pos_eq; lra).
  pose proof (Rmult_le_compat_l _ _ _ (Rabs_pos (f64R x - f64R y)) P) as M. cbn [pow] in *. lra.
Qed.

(** What Fmm::new accepts: every number finite, volatilities not negative, correlations to
    within 1.001e-12; and all that to within 9.8e-13 is accepted. *)
Theorem C101_fmm m sigmas c :
  (fmm_new64 m sigmas c = Ok tt -> length sigmas = m /\ Forall (fun s => finite s /\ 0 <= f64R s) sigmas /\ all_finite c /\ correlated (1001 / 10 ^ 15) c m) /\
  (length sigmas = m -> Forall (fun s => finite s /\ 0 <= f64R s) sigmas -> all_finite c -> correlated (98 / 10 ^ 14) c m -> fmm_new64 m sigmas c = Ok tt).
Proof.
  destruct cap_ok as [FC VC]. destruct one64_ok as [V1 F1]. destruct zero64_ok as [V0 F0]. destruct lit_12_ok as (FL & L1 & L2). assert (T : forall x, x <= 1 + 4504 / 4503599627370496 -> x <= 2) by (intros; lra).
  assert (SG : forallb (fun s => is_finite s && Bleb zero64 s) sigmas = true <-> Forall (fun s => finite s /\ 0 <= f64R s) sigmas).
  { apply forallb_Forall. intros s. rewrite andb_true_iff. split; [intros [F H]; split; [exact F|apply (Bleb_R _ _ F0 F) in H; lra]|intros [F H]; split; [exact F|apply (Bleb_R _ _ F0 F); lra]]. }
  unfold fmm_new64. split.
  - intros H. rewrite !assert_true in H. destruct H as (LS & LC & M & S & _). apply Nat.eqb_eq in LS, LC. apply SG in S. split; [exact LS|]. split; [exact S|]. rewrite forallb_forall in M.
    assert (ROW : Forall (fun row : list f64 => length row = m) c). { apply Forall_forall. intros row I. destruct (In_nth _ _ [] I) as (i & Li & <-). specialize (M i ltac:(apply in_seq; lia)). rewrite !andb_true_iff in M. apply Nat.eqb_eq. apply M. }
    assert (E : forall i j, (i < m)%nat -> (j < m)%nat -> Bltb (fabs (fsub (entry64 c i i) one64)) lit_12 = true /\ Bltb (fabs (fsub (entry64 c i j) (entry64 c j i))) lit_12 = true /\ Bleb (fabs (entry64 c i j)) cap64 = true).
    { intros i j Li Lj. specialize (M i ltac:(apply in_seq; lia)). rewrite !andb_true_iff, forallb_forall in M. destruct M as [[_ M1] M2]. specialize (M2 j ltac:(apply in_seq; lia)). rewrite andb_true_iff in M2. split; [exact M1|exact M2]. }
    assert (A : all_finite c). { apply Forall_forall. intros row I. destruct (In_nth _ _ [] I) as (i & Li & <-). apply Forall_forall. intros x J. destruct (In_nth _ _ zero64 J) as (j & Lj & <-). rewrite Forall_forall in ROW. rewrite (ROW _ (nth_In _ _ Li)) in Lj. apply (abs_below _ cap64 FC). apply (E i j); lia. }
    split; [exact A|]. split; [exact LC|]. split; [exact ROW|]. intros i j Li Lj.
    assert (B : forall a b, (a < m)%nat -> (b < m)%nat -> Rabs (f64R (entry64 c a b)) <= 1 + 4504 / 4503599627370496). { intros a b La Lb. destruct (E a b La Lb) as (_ & _ & K). destruct (fabs_ok _ (entry_finite c a b A)) as [FA VA]. apply (Bleb_R _ _ FA FC) in K. rewrite VA, VC in K. exact K. }
    destruct (E i j Li Lj) as (E1 & E2 & _).
    destruct (diff_ok _ _ (entry_finite c i i A) F1 (T _ (B i i Li Li)) ltac:(rewrite V1, Rabs_pos_eq; lra)) as [FA VA]. apply (Bltb_R _ _ FA FL) in E1. rewrite VA in E1. pose proof (near_small _ _ (Rle_trans _ _ _ (Rlt_le _ _ E1) L2)) as N1. rewrite V1 in N1.
    destruct (diff_ok _ _ (entry_finite c i j A) (entry_finite c j i A) (T _ (B i j Li Lj)) (T _ (B j i Lj Li))) as [FD VD]. apply (Bltb_R _ _ FD FL) in E2. rewrite VD in E2. pose proof (near_small _ _ (Rle_trans _ _ _ (Rlt_le _ _ E2) L2)) as N2.
    split; [exact N1|]. split; [exact N2|apply B; assumption].
  - intros LS S A (LC & ROW & H). rewrite !assert_true. rewrite (proj2 (Nat.eqb_eq _ _) LS), (proj2 (Nat.eqb_eq _ _) LC). split; [reflexivity|]. split; [reflexivity|]. split; [|split; [apply SG, S|reflexivity]].
    apply forallb_forall. intros i Ii. apply in_seq in Ii. assert (Li : (i < m)%nat) by lia. rewrite !andb_true_iff. destruct (H i i Li Li) as (E1 & _ & E5). split; [split|].
    + apply Nat.eqb_eq. rewrite Forall_forall in ROW. apply ROW, nth_In. lia.
    + destruct (diff_ok _ _ (entry_finite c i i A) F1 (T _ E5) ltac:(rewrite V1, Rabs_pos_eq; lra)) as [FA VA]. apply (Bltb_R _ _ FA FL). change (f64R (fabs (fsub (entry64 c i i) one64)) < f64R lit_12). rewrite VA. apply small_strict. rewrite V1. exact E1.
    + apply forallb_forall. intros j Ij. apply in_seq in Ij. assert (Lj : (j < m)%nat) by lia. destruct (H i j Li Lj) as (_ & E2 & E3). destruct (H j i Lj Li) as (_ & _ & E4). rewrite andb_true_iff. change (cell64 c i j) with (entry64 c i j). change (cell64 c j i) with (entry64 c j i).
      destruct (diff_ok _ _ (entry_finite c i j A) (entry_finite c j i A) (T _ E3) (T _ E4)) as [FD VD]. destruct (fabs_ok _ (entry_finite c i j A)) as [FB VB]. split; [apply (Bltb_R _ _ FD FL); rewrite VD; apply small_strict, E2|apply (Bleb_R _ _ FB FC); rewrite VB, VC; exact E3].
Qed.
Print Assumptions C101_fmm.

Lemma increasing_cons a b l : increasing64 (a :: b :: l) = (Bltb a b && increasing64 (b :: l))%bool. Proof. reflexivity. Qed.
Lemma below_any (x y : f64) : Bltb x y = true -> Bleb zero64 x = true -> finite x /\ 0 <= f64R x /\ Bleb zero64 y = true /\ (y = inf64 \/ finite y /\ f64R x < f64R y).
Proof.
  intros H Z0. destruct zero64_ok as [V0 F0]. apply (above_le zero64 x F0) in Z0. destruct Z0 as [->|[F L]]; [destruct y as [?|[|]| |? ? ? ?]; discriminate|]. rewrite V0 in L. split; [exact F|]. split; [exact L|]. apply (above_lt x y F) in H. split; [|exact H]. apply (above_le zero64 y F0). destruct H as [H|[G H]]; [left; exact H|right; split; [exact G|lra]].
Qed.
(** The dates of a tenor: all but the last are finite and not negative, each is below the
    next, and the last may be plus infinity; the rates are not looked at. *)
Theorem C101_tenor ds rates : tenor_new64 ds rates = Ok tt <->
  (2 <= length ds)%nat /\ length ds = (length rates + 1)%nat /\
  forall i, (S i < length ds)%nat -> finite (nth i ds zero64) /\ 0 <= f64R (nth i ds zero64) /\
    (finite (nth (S i) ds zero64) /\ f64R (nth i ds zero64) < f64R (nth (S i) ds zero64) \/ S (S i) = length ds /\ nth (S i) ds zero64 = inf64).
Proof.
  unfold tenor_new64. rewrite !assert_true, Nat.leb_le, Nat.eqb_eq. destruct zero64_ok as [V0 F0].
  assert (K : forall l, (2 <= length l)%nat -> (Bleb zero64 (nth 0 l zero64) = true /\ increasing64 l = true) <-> forall i, (S i < length l)%nat -> finite (nth i l zero64) /\ 0 <= f64R (nth i l zero64) /\
    (finite (nth (S i) l zero64) /\ f64R (nth i l zero64) < f64R (nth (S i) l zero64) \/ S (S i) = length l /\ nth (S i) l zero64 = inf64)).
  { induction l as [|a l IH]; intros L; [cbn in L; lia|]. destruct l as [|b l]; [cbn in L; lia|]. cbn [nth]. rewrite increasing_cons, andb_true_iff. destruct l as [|c l].
    - split.
      + intros (Z0 & AB & _) i Li. cbn [length] in Li. assert (i = 0%nat) by lia. subst i. cbn [nth length]. destruct (below_any a b AB Z0) as (F & P & _ & [Q|Q]); (split; [exact F|]); (split; [exact P|]); [right; split; [reflexivity|exact Q]|left; exact Q].
      + intros H. destruct (H 0%nat ltac:(cbn; lia)) as (F & P & Q). cbn [nth length] in *. split; [apply (above_le _ _ F0); right; split; [exact F|lra]|]. split; [|reflexivity]. apply (above_lt _ _ F). destruct Q as [Q|[_ Q]]; [right; exact Q|left; exact Q].
    - specialize (IH ltac:(cbn; lia)). cbn [nth] in IH. split.
      + intros (Z0 & AB & INC) i Li. destruct (below_any a b AB Z0) as (F & P & ZB & Q). pose proof (proj1 IH (conj ZB INC)) as H. destruct i as [|i].
        * cbn [nth]. split; [exact F|]. split; [exact P|]. left. destruct Q as [Q|Q]; [|exact Q]. exfalso. destruct (H 0%nat ltac:(cbn; lia)) as (FB & _). cbn [nth] in FB. rewrite Q in FB. discriminate.
        * specialize (H i ltac:(cbn [length] in *; lia)). destruct H as (A1 & A2 & A3). split; [exact A1|]. split; [exact A2|]. destruct A3 as [A3|[A3 A4]]; [left; exact A3|right; split; [cbn [length] in *; lia|exact A4]].
      + intros H. destruct (H 0%nat ltac:(cbn; lia)) as (F & P & Q). cbn [nth] in F, P, Q. assert (H' : forall i, (S i < length (b :: c :: l))%nat -> finite (nth i (b :: c :: l) zero64) /\ 0 <= f64R (nth i (b :: c :: l) zero64) /\ (finite (nth (S i) (b :: c :: l) zero64) /\ f64R (nth i (b :: c :: l) zero64) < f64R (nth (S i) (b :: c :: l) zero64) \/ S (S i) = length (b :: c :: l) /\ nth (S i) (b :: c :: l) zero64 = inf64)).
        { intros i Li. destruct (H (S i) ltac:(cbn [length] in *; lia)) as (A1 & A2 & A3). split; [exact A1|]. split; [exact A2|]. destruct A3 as [A3|[A3 A4]]; [left; exact A3|right; split; [cbn [length] in *; lia|exact A4]]. }
        apply IH in H'. destruct H' as [ZB INC]. split; [apply (above_le _ _ F0); right; split; [exact F|lra]|]. split; [|exact INC]. apply (above_lt _ _ F). destruct Q as [Q|[Q _]]; [right; exact Q|cbn [length] in Q; lia]. }
  split; [intros (L & E & Z0 & I & _); split; [exact L|]; split; [exact E|]; apply K; [exact L|split; assumption]|].
  intros (L & E & H). apply K in H; [|exact L]. destruct H as [Z0 I]. split; [exact L|]. split; [exact E|]. split; [exact Z0|]. split; [exact I|reflexivity].
Qed.
Print Assumptions C101_tenor.

(** Infinite parameters do get past the assertions. *)
Theorem C101_infinite_refuted :
  sabr_new64 inf64 half64 zero64 inf64 = Ok tt /\ td_new64 [inf64] [zero64] [inf64] half64 inf64 = Ok tt /\ (forall r, tenor_new64 [zero64; inf64] [r] = Ok tt).
Proof. split; [vm_compute; reflexivity|]. split; [vm_compute; reflexivity|]. intros r. vm_compute. reflexivity. Qed.
Print Assumptions C101_infinite_refuted.

(** The 2x2 matrix of a half passes both kinds of check; of NaN, only the one that returns
    an error. *)
Example C101_witness : check_corr64 [[one64; half64]; [half64; one64]] 2 = Ok tt /\ fmm_new64 2 [half64; zero64] [[one64; half64]; [half64; one64]] = Ok tt /\
  check_corr64 [[nan64; nan64]; [nan64; nan64]] 2 = Ok tt /\ fmm_new64 2 [half64; zero64] [[nan64; nan64]; [nan64; nan64]] = Panic PAssert /\
  check_entry64 (f64_lit 4503599627375000 (-52)) = Ok tt /\ check_entry64 (f64_lit 4503599627375001 (-52)) = Err EInvalidData /\ check_entry64 inf64 = Err EInvalidData /\
  lmm_validate64 2 [half64; half64] [one64; one64] one64 one64 one64 [[one64; half64]; [half64; one64]] = Ok tt /\ lmm_validate64 2 [nan64; nan64] [nan64; nan64] nan64 nan64 nan64 [[nan64; nan64]; [nan64; nan64]] = Ok tt /\
  side_validate64 1 [half64] one64 one64 one64 [[one64]] = Ok tt /\ side_validate64 1 [nan64] one64 one64 one64 [[one64]] = Err EInvalidData /\
  hlmm_corr_validate64 1 half64 [half64] [half64] [[half64]] = Ok tt /\ hlmm_corr_validate64 1 half64 [half64] [half64] [[two64]] = Err EInvalidData /\
  fmm_corr_validate64 1 half64 [half64] [half64] [half64] [half64] [[half64]] = Ok tt /\ stock_check64 half64 nan64 = Ok tt /\ stock_check64 half64 two64 = Err EInvalidData /\
  sabr_new64 half64 half64 zero64 half64 = Ok tt /\ sabr_new64 half64 half64 nan64 half64 = Panic PAssert /\ tenor_new64 [zero64; one64; two64] [nan64; half64] = Ok tt /\ tenor_new64 [zero64; nan64] [half64] = Panic PAssert.
Proof. vm_compute. repeat split. Qed.
