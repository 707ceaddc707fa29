(** C53: the COS pricer against the integrals it stands for. *)
From Coq Require Import Bool List Reals Lra Lia ZArith.
From Coquelicot Require Import Coquelicot.
From Verif Require Import Outcome CosPricer.
Open Scope R_scope.

(** ** Independent notions *)
Definition sum_below (n : nat) (g : nat -> R) : R := fold_right Rplus 0 (map g (seq 0 n)).
(** The k-th frequency of the cosine basis on [a, b]. *)
Definition freq (a b : R) (k : nat) : R := INR k * PI / (b - a).
(** Re { phi(u) e^{-iua} }. *)
Definition re_shifted (phi : R -> R * R) (a u : R) : R := fst (phi u) * cos (u * a) + snd (phi u) * sin (u * a).
(** The truncated cosine series of the density, first term halved. *)
Definition series (phi : R -> R * R) (a b : R) (n : nat) (y : R) : R :=
  sum_below n (fun k => (if Nat.eqb k 0 then 1 / 2 else 1) * (2 / (b - a)) * re_shifted phi a (freq a b k) * cos (freq a b k * (y - a))).
(** [phi] is the characteristic function of the density [f] on [a, b]. *)
Definition char_fun (phi : R -> R * R) (f : R -> R) (a b : R) : Prop :=
  forall u, is_RInt (fun y => cos (u * y) * f y) a b (fst (phi u)) /\ is_RInt (fun y => sin (u * y) * f y) a b (snd (phi u)).

(** ** Sums *)
Lemma sum_S n g : sum_below (S n) g = sum_below n g + g n.
Proof.
  unfold sum_below. rewrite seq_S, map_app, fold_right_app. cbn. generalize (map g (seq 0 n)). intros l. induction l as [|x l IH]; cbn; [ring|rewrite IH; ring].
Qed.
Lemma sum_loop n g x : fold_left (fun t k => t + g k) (seq 0 n) x = x + sum_below n g.
Proof.
  revert x. induction n as [|n IH]; intros x; [unfold sum_below; cbn; ring|]. rewrite seq_S, fold_left_app, sum_S. cbn. rewrite IH. ring.
Qed.
Lemma sum_ext n g h : (forall k, (k < n)%nat -> g k = h k) -> sum_below n g = sum_below n h.
Proof. induction n as [|n IH]; intros H; [reflexivity|]. rewrite !sum_S, IH, H by (lia || intros; apply H; lia). reflexivity. Qed.
Lemma sum_scal n c g : c * sum_below n g = sum_below n (fun k => c * g k).
Proof. induction n as [|n IH]; [unfold sum_below; cbn; ring|]. rewrite !sum_S, <- IH. ring. Qed.
Lemma sum_minus n g h : sum_below n g - sum_below n h = sum_below n (fun k => g k - h k).
Proof. induction n as [|n IH]; [unfold sum_below; cbn; ring|]. rewrite !sum_S, <- IH. ring. Qed.
Lemma sum_zero n g : (forall k, (k < n)%nat -> g k = 0) -> sum_below n g = 0.
Proof. induction n as [|n IH]; intros H; [reflexivity|]. rewrite sum_S, IH, H by (lia || intros; apply H; lia). ring. Qed.
Lemma sum_one n g j : (j < n)%nat -> (forall k, (k < n)%nat -> k <> j -> g k = 0) -> sum_below n g = g j.
Proof.
  induction n as [|n IH]; intros J H; [lia|]. rewrite sum_S. destruct (Nat.eq_dec j n) as [->|NE].
  - rewrite sum_zero; [ring|]. intros k K. apply H; lia.
  - rewrite IH, (H n) by (lia || intros; apply H; lia). ring.
Qed.
Lemma const_int c a b (l : R) : (b - a) * c = l -> is_RInt (fun _ => c) a b l.
Proof. intros <-. apply (@is_RInt_const R_NormedModule). Qed.
Lemma sum_int n (g : nat -> R -> R) l a b : (forall k, (k < n)%nat -> is_RInt (g k) a b (l k)) -> is_RInt (fun y => sum_below n (fun k => g k y)) a b (sum_below n l).
Proof.
  induction n as [|n IH]; intros H.
  - unfold sum_below. cbn. apply const_int. ring.
  - rewrite sum_S. apply is_RInt_ext with (fun y => plus (sum_below n (fun k => g k y)) (g n y)); [intros y _; rewrite sum_S; reflexivity|]. apply @is_RInt_plus; [apply IH; intros; apply H; lia|apply H; lia].
Qed.

(** ** Cosine integrals *)
Lemma chi_derive u a y : is_derive (fun y => (cos (u * (y - a)) + u * sin (u * (y - a))) * exp y / (1 + u * u)) y (exp y * cos (u * (y - a))).
Proof. assert (0 < 1 + u * u) by nra. auto_derive; [exact I|]. match goal with |- ?a = ?b => change (@eq R a b) end. unfold Rminus. field. lra. Qed.
Lemma cont_ec u a y : continuous (fun y => exp y * cos (u * (y - a))) y.
Proof. apply (ex_derive_continuous (fun y => exp y * cos (u * (y - a)))). auto_derive. exact I. Qed.
Lemma cont_c u a y : continuous (fun y => cos (u * (y - a))) y.
Proof. apply (ex_derive_continuous (fun y => cos (u * (y - a)))). auto_derive. exact I. Qed.

(** chi_k is the integral of exp(y) cos(u_k (y - a)) over [c, d]. *)
Theorem C53_chi : forall k a b c d, is_RInt (fun y => exp y * cos (freq a b k * (y - a))) c d (chi_k k a b c d).
Proof.
  intros k a b c d. set (u := freq a b k). set (G := fun y => (cos (u * (y - a)) + u * sin (u * (y - a))) * exp y / (1 + u * u)).
  replace (chi_k k a b c d) with (G d - G c). 2: { unfold chi_k, G. fold (freq a b k). fold u. assert (0 < 1 + u * u) by nra. field. lra. }
  apply (is_RInt_derive G); intros y _; [apply chi_derive|apply cont_ec].
Qed.
Print Assumptions C53_chi.
(** psi_k is the integral of cos(u_k (y - a)) over [c, d]. *)
Theorem C53_psi : forall k a b c d, a < b -> is_RInt (fun y => cos (freq a b k * (y - a))) c d (psi_k k a b c d).
Proof.
  intros k a b c d AB. unfold psi_k. destruct (Nat.eqb_spec k 0) as [->|K].
  - apply is_RInt_ext with (fun _ => 1). { intros y _. unfold freq. cbn [INR]. replace (0 * PI / (b - a) * (y - a)) with 0 by (field; lra). rewrite cos_0. reflexivity. }
    apply const_int. ring.
  - fold (freq a b k). set (u := freq a b k). assert (U : u <> 0). { unfold u, freq. apply Rgt_not_eq. apply Rdiv_lt_0_compat; [|lra]. apply Rmult_lt_0_compat; [apply lt_0_INR; lia|apply PI_RGT_0]. }
    cbv zeta. replace ((sin (u * (d - a)) - sin (u * (c - a))) / u) with ((fun y => sin (u * (y - a)) / u) d - (fun y => sin (u * (y - a)) / u) c) by (field; exact U).
    apply (is_RInt_derive (fun y => sin (u * (y - a)) / u)); intros y _; [|apply cont_c]. auto_derive; [exact I|]. match goal with |- ?a = ?b => change (@eq R a b) end. unfold Rminus. field. exact U.
Qed.
Print Assumptions C53_psi.

(** ** The price as an integral *)
Definition vcoef (c : forward_chf) (a b : R) (k : nat) : R := (if Nat.eqb k 0 then 1 / 2 else 1) * (2 / (b - a)) * re_shifted (evaluate c) a (freq a b k).
Lemma term_eq c a b K is_call k : term c a b K is_call k =
  vcoef c a b k * (if is_call then chi_k k a b (ln K) b - K * psi_k k a b (ln K) b else - chi_k k a b a (ln K) + K * psi_k k a b a (ln K)).
Proof.
  unfold term, vcoef, re_shifted. fold (freq a b k). set (u := freq a b k). rewrite Ropp_mult_distr_l_reverse, cos_neg, sin_neg. destruct is_call; cbn [fst snd]; destruct (Nat.eqb k 0); ring.
Qed.
Lemma price_eq p K D is_call a b : 0 < K -> range p = (a, b) -> price_european p K D is_call = Ok (D * sum_below (n_terms p) (term (chf p) a b K is_call)).
Proof. intros KP R. unfold price_european. destruct (Rlt_dec 0 K); [|contradiction]. rewrite R. apply (f_equal Ok). f_equal. rewrite (sum_loop _ (term (chf p) a b K is_call)). ring. Qed.

Lemma call_int c a b K n : a < b -> is_RInt (fun y => (exp y - K) * series (evaluate c) a b n y) (ln K) b (sum_below n (term c a b K true)).
Proof.
  intros AB. apply is_RInt_ext with (fun y => sum_below n (fun k => vcoef c a b k * (exp y * cos (freq a b k * (y - a)) - K * cos (freq a b k * (y - a))))).
  { intros y _. unfold series. rewrite sum_scal. apply sum_ext. intros k _. unfold vcoef. ring. }
  apply (sum_int n (fun k y => vcoef c a b k * (exp y * cos (freq a b k * (y - a)) - K * cos (freq a b k * (y - a))))). intros k _. rewrite term_eq.
  apply (@is_RInt_scal R_NormedModule (fun y => exp y * cos (freq a b k * (y - a)) - K * cos (freq a b k * (y - a)))).
  apply (@is_RInt_minus R_NormedModule (fun y => exp y * cos (freq a b k * (y - a))) (fun y => K * cos (freq a b k * (y - a)))); [apply C53_chi|]. apply (@is_RInt_scal R_NormedModule (fun y => cos (freq a b k * (y - a)))). apply C53_psi, AB.
Qed.
Lemma put_int c a b K n : a < b -> is_RInt (fun y => (K - exp y) * series (evaluate c) a b n y) a (ln K) (sum_below n (term c a b K false)).
Proof.
  intros AB. apply is_RInt_ext with (fun y => sum_below n (fun k => vcoef c a b k * (K * cos (freq a b k * (y - a)) - exp y * cos (freq a b k * (y - a))))).
  { intros y _. unfold series. rewrite sum_scal. apply sum_ext. intros k _. unfold vcoef. ring. }
  apply (sum_int n (fun k y => vcoef c a b k * (K * cos (freq a b k * (y - a)) - exp y * cos (freq a b k * (y - a))))). intros k _. rewrite term_eq.
  replace (- chi_k k a b a (ln K) + K * psi_k k a b a (ln K)) with (K * psi_k k a b a (ln K) - chi_k k a b a (ln K)) by ring.
  apply (@is_RInt_scal R_NormedModule (fun y => K * cos (freq a b k * (y - a)) - exp y * cos (freq a b k * (y - a)))).
  apply (@is_RInt_minus R_NormedModule (fun y => K * cos (freq a b k * (y - a))) (fun y => exp y * cos (freq a b k * (y - a)))); [|apply C53_chi]. apply (@is_RInt_scal R_NormedModule (fun y => cos (freq a b k * (y - a)))). apply C53_psi, AB.
Qed.

(** At a strike inside of the range the prices are the discounted integrals of the payoffs
    against the truncated series of the density. *)
Theorem C53_price : forall p K D a b, range p = (a, b) -> a < b -> 0 < K -> a <= ln K <= b ->
  (exists I, is_RInt (fun y => Rmax (exp y - K) 0 * series (evaluate (chf p)) a b (n_terms p) y) a b I /\ call p K D = Ok (D * I)) /\
  (exists I, is_RInt (fun y => Rmax (K - exp y) 0 * series (evaluate (chf p)) a b (n_terms p) y) a b I /\ put p K D = Ok (D * I)).
Proof.
  intros p K D a b R AB KP [LA LB]. set (f := series (evaluate (chf p)) a b (n_terms p)).
  assert (ZERO : forall x y g, (forall z, Rmin x y < z < Rmax x y -> g z = 0) -> is_RInt g x y 0).
  { intros x y g G. apply is_RInt_ext with (fun _ => 0); [intros z Z; rewrite G by exact Z; reflexivity|]. apply const_int. ring. }
  split.
  - exists (sum_below (n_terms p) (term (chf p) a b K true)). split; [|apply price_eq; assumption].
    replace (sum_below (n_terms p) (term (chf p) a b K true)) with (0 + sum_below (n_terms p) (term (chf p) a b K true)) by ring.
    apply (is_RInt_Chasles (V := R_NormedModule)) with (ln K).
    + apply ZERO. intros z Z. rewrite Rmin_left, Rmax_right in Z by exact LA. rewrite Rmax_right; [ring|]. apply Rlt_le. apply Rlt_minus. rewrite <- (exp_ln K KP). apply exp_increasing. lra.
    + apply is_RInt_ext with (fun y => (exp y - K) * f y); [|apply call_int, AB]. intros z Z. rewrite Rmin_left, Rmax_right in Z by exact LB. rewrite Rmax_left; [reflexivity|]. apply Rge_le, Rge_minus, Rle_ge. apply Rle_trans with (exp (ln K)); [rewrite (exp_ln K KP); lra|left; apply exp_increasing; lra].
  - exists (sum_below (n_terms p) (term (chf p) a b K false)). split; [|apply price_eq; assumption].
    replace (sum_below (n_terms p) (term (chf p) a b K false)) with (sum_below (n_terms p) (term (chf p) a b K false) + 0) by ring.
    apply (is_RInt_Chasles (V := R_NormedModule)) with (ln K).
    + apply is_RInt_ext with (fun y => (K - exp y) * f y); [|apply put_int, AB]. intros z Z. rewrite Rmin_left, Rmax_right in Z by exact LA. rewrite Rmax_left; [reflexivity|]. apply Rge_le, Rge_minus, Rle_ge. apply Rle_trans with (exp (ln K)); [left; apply exp_increasing; lra|rewrite (exp_ln K KP); lra].
    + apply ZERO. intros z Z. rewrite Rmin_left, Rmax_right in Z by exact LB. rewrite Rmax_right; [ring|]. assert (exp (ln K) < exp z) by (apply exp_increasing; lra). rewrite (exp_ln K KP) in *. lra.
Qed.
Print Assumptions C53_price.

(** ** Parity *)
Lemma sin_kpi z : sin (IZR z * PI) = 0.
Proof. apply sin_eq_0_1. exists z. reflexivity. Qed.
Lemma psi_full k a b : a < b -> psi_k k a b a b = if Nat.eqb k 0 then b - a else 0.
Proof.
  intros AB. unfold psi_k. destruct (Nat.eqb_spec k 0) as [->|K]; [reflexivity|]. replace (INR k * PI / (b - a) * (b - a)) with (IZR (Z.of_nat k) * PI) by (rewrite <- INR_IZR_INZ; field; lra). rewrite sin_kpi. replace (INR k * PI / (b - a) * (a - a)) with 0 by (field; lra). rewrite sin_0. unfold Rdiv. ring.
Qed.
Lemma chi_add k a b c : chi_k k a b c b + chi_k k a b a c = chi_k k a b a b.
Proof. unfold chi_k. unfold Rdiv. ring. Qed.
Lemma psi_add k a b c : psi_k k a b c b + psi_k k a b a c = psi_k k a b a b.
Proof. unfold psi_k. destruct (Nat.eqb k 0); [ring|]. cbv zeta. unfold Rdiv. ring. Qed.

(** Call minus put is the discounted forward of the series minus the strike times its mass,
    at every strike, in or out of the range. *)
Theorem C53_parity : forall p K D a b vc vp, range p = (a, b) -> a < b -> (1 <= n_terms p)%nat -> call p K D = Ok vc -> put p K D = Ok vp ->
  exists F, is_RInt (fun y => exp y * series (evaluate (chf p)) a b (n_terms p) y) a b F /\ vc - vp = D * (F - K * fst (evaluate (chf p) 0)).
Proof.
  intros p K D a b vc vp R AB N C P. unfold call, put in *. assert (KP : 0 < K) by (unfold price_european in C; destruct (Rlt_dec 0 K); [assumption|discriminate]).
  rewrite (price_eq p K D true a b KP R) in C. rewrite (price_eq p K D false a b KP R) in P. assert (vc = D * sum_below (n_terms p) (term (chf p) a b K true)) as -> by congruence. assert (vp = D * sum_below (n_terms p) (term (chf p) a b K false)) as -> by congruence.
  exists (sum_below (n_terms p) (fun k => vcoef (chf p) a b k * chi_k k a b a b)). split.
  - apply is_RInt_ext with (fun y => sum_below (n_terms p) (fun k => vcoef (chf p) a b k * (exp y * cos (freq a b k * (y - a))))). { intros y _. unfold series. rewrite sum_scal. apply sum_ext. intros k _. unfold vcoef. ring. }
    apply (sum_int _ (fun k y => vcoef (chf p) a b k * (exp y * cos (freq a b k * (y - a))))). intros k _. apply (@is_RInt_scal R_NormedModule (fun y => exp y * cos (freq a b k * (y - a)))). apply C53_chi.
  - rewrite <- Rmult_minus_distr_l. f_equal. rewrite sum_minus.
    assert (E : K * fst (evaluate (chf p) 0) = sum_below (n_terms p) (fun k => vcoef (chf p) a b k * (K * psi_k k a b a b))).
    { rewrite (sum_one _ _ 0%nat) by (lia || (intros k K1 K2; rewrite psi_full by exact AB; destruct (Nat.eqb_spec k 0); [contradiction|ring])). rewrite psi_full by exact AB. unfold vcoef, re_shifted, freq. cbn [Nat.eqb INR]. replace (0 * PI / (b - a)) with 0 by (field; lra). rewrite Rmult_0_l, cos_0, sin_0. field. lra. }
    rewrite E, sum_minus. apply sum_ext. intros k _. rewrite !term_eq, <- (chi_add k a b (ln K)), <- (psi_add k a b (ln K)). ring.
Qed.
Print Assumptions C53_parity.

(** ** The coefficients and exactness *)
(** For a density on the range, the coefficients of the pricer are its cosine coefficients. *)
Theorem C53_coefficients : forall phi f a b, char_fun phi f a b -> forall u, is_RInt (fun y => cos (u * (y - a)) * f y) a b (re_shifted phi a u).
Proof.
  intros phi f a b CF u. destruct (CF u) as [C S]. unfold re_shifted.
  apply is_RInt_ext with (fun y => cos (u * a) * (cos (u * y) * f y) + sin (u * a) * (sin (u * y) * f y)). { intros y _. replace (u * (y - a)) with (u * y - u * a) by ring. rewrite cos_minus. match goal with |- ?a = ?b => change (@eq R a b) end. ring. }
  rewrite (Rmult_comm (fst _)), (Rmult_comm (snd _)). apply (@is_RInt_plus R_NormedModule (fun y => cos (u * a) * (cos (u * y) * f y)) (fun y => sin (u * a) * (sin (u * y) * f y))).
  - apply (@is_RInt_scal R_NormedModule (fun y => cos (u * y) * f y)). exact C.
  - apply (@is_RInt_scal R_NormedModule (fun y => sin (u * y) * f y)). exact S.
Qed.
Print Assumptions C53_coefficients.

Lemma cos_int_Z m a b : a < b -> is_RInt (fun y => cos (IZR m * PI / (b - a) * (y - a))) a b (if Z.eqb m 0 then b - a else 0).
Proof.
  intros AB. destruct (Z.eqb_spec m 0) as [->|M].
  - apply is_RInt_ext with (fun _ => 1). { intros y _. replace (0 * PI / (b - a) * (y - a)) with 0 by (field; lra). rewrite cos_0. reflexivity. }
    apply const_int. ring.
  - assert (MR : IZR m <> 0) by (apply not_0_IZR, M). pose proof PI_RGT_0 as PP. set (u := IZR m * PI / (b - a)). assert (U : u <> 0). { unfold u, Rdiv. apply Rmult_integral_contrapositive_currified; [apply Rmult_integral_contrapositive_currified; [exact MR|lra]|apply Rinv_neq_0_compat; lra]. }
    replace 0 with ((fun y => sin (u * (y - a)) / u) b - (fun y => sin (u * (y - a)) / u) a). 2: { cbv beta. unfold u at 1. replace (IZR m * PI / (b - a) * (b - a)) with (IZR m * PI) by (field; lra). rewrite sin_kpi. replace (u * (a - a)) with 0 by ring. rewrite sin_0. unfold Rdiv. ring. }
    apply (is_RInt_derive (fun y => sin (u * (y - a)) / u)); intros y _; [|apply cont_c]. auto_derive; [exact I|]. match goal with |- ?a = ?b => change (@eq R a b) end. unfold Rminus. field. exact U.
Qed.
Lemma orthogonal j k a b : a < b -> is_RInt (fun y => cos (freq a b j * (y - a)) * cos (freq a b k * (y - a))) a b (if Nat.eqb j k then (if Nat.eqb j 0 then b - a else (b - a) / 2) else 0).
Proof.
  intros AB. apply is_RInt_ext with (fun y => 1 / 2 * (cos (IZR (Z.of_nat j - Z.of_nat k) * PI / (b - a) * (y - a)) + cos (IZR (Z.of_nat j + Z.of_nat k) * PI / (b - a) * (y - a)))).
  { intros y _. unfold freq. rewrite !INR_IZR_INZ, minus_IZR, plus_IZR. set (A := IZR (Z.of_nat j) * PI / (b - a) * (y - a)). set (B := IZR (Z.of_nat k) * PI / (b - a) * (y - a)).
    replace ((IZR (Z.of_nat j) - IZR (Z.of_nat k)) * PI / (b - a) * (y - a)) with (A - B) by (unfold A, B, Rdiv; ring). replace ((IZR (Z.of_nat j) + IZR (Z.of_nat k)) * PI / (b - a) * (y - a)) with (A + B) by (unfold A, B, Rdiv; ring). rewrite cos_minus, cos_plus. match goal with |- ?a = ?b => change (@eq R a b) end. field. }
  replace (if Nat.eqb j k then _ else 0) with (1 / 2 * ((if Z.eqb (Z.of_nat j - Z.of_nat k) 0 then b - a else 0) + (if Z.eqb (Z.of_nat j + Z.of_nat k) 0 then b - a else 0))).
  2: { destruct (Nat.eqb_spec j k), (Z.eqb_spec (Z.of_nat j - Z.of_nat k) 0), (Z.eqb_spec (Z.of_nat j + Z.of_nat k) 0), (Nat.eqb_spec j 0); try lia; field. }
  apply (@is_RInt_scal R_NormedModule (fun y => cos (IZR (Z.of_nat j - Z.of_nat k) * PI / (b - a) * (y - a)) + cos (IZR (Z.of_nat j + Z.of_nat k) * PI / (b - a) * (y - a)))).
  apply (@is_RInt_plus R_NormedModule (fun y => cos (IZR (Z.of_nat j - Z.of_nat k) * PI / (b - a) * (y - a))) (fun y => cos (IZR (Z.of_nat j + Z.of_nat k) * PI / (b - a) * (y - a)))); apply cos_int_Z, AB.
Qed.

(** A density on the range that is a cosine polynomial of degree below the number of terms is
    recovered exactly: adding terms does not change the series. *)
Theorem C53_exact : forall phi f a b m n co, a < b -> (m <= n)%nat -> (forall y, f y = sum_below m (fun k => co k * cos (freq a b k * (y - a)))) -> char_fun phi f a b -> forall y, series phi a b n y = f y.
Proof.
  intros phi f a b m n co AB MN F CF y.
  assert (RE : forall k, re_shifted phi a (freq a b k) = if Nat.ltb k m then co k * (if Nat.eqb k 0 then b - a else (b - a) / 2) else 0).
  { intros k. pose proof (C53_coefficients phi f a b CF (freq a b k)) as H.
    assert (H' : is_RInt (fun y => cos (freq a b k * (y - a)) * f y) a b (sum_below m (fun j => co j * (if Nat.eqb j k then (if Nat.eqb j 0 then b - a else (b - a) / 2) else 0)))).
    { apply is_RInt_ext with (fun y => sum_below m (fun j => co j * (cos (freq a b j * (y - a)) * cos (freq a b k * (y - a))))). { intros z _. rewrite F, sum_scal. apply sum_ext. intros j _. ring. }
      apply (sum_int m (fun j y => co j * (cos (freq a b j * (y - a)) * cos (freq a b k * (y - a))))). intros j _. apply (@is_RInt_scal R_NormedModule (fun y => cos (freq a b j * (y - a)) * cos (freq a b k * (y - a)))). apply orthogonal, AB. }
    pose proof (is_RInt_unique _ _ _ _ H) as U1. pose proof (is_RInt_unique _ _ _ _ H') as U2. rewrite U1 in U2. rewrite U2. destruct (Nat.ltb_spec k m) as [L|L].
    - rewrite (sum_one m _ k L); [rewrite Nat.eqb_refl; reflexivity|]. intros j _ J. destruct (Nat.eqb_spec j k); [contradiction|ring].
    - apply sum_zero. intros j J. destruct (Nat.eqb_spec j k); [lia|ring]. }
  unfold series. rewrite F. clear F CF. induction n as [|n IH].
  - assert (m = 0%nat) as -> by lia. reflexivity.
  - destruct (Nat.eq_dec m (S n)) as [->|NE].
    + apply sum_ext. intros k K. rewrite RE. destruct (Nat.ltb_spec k (S n)); [|lia]. destruct (Nat.eqb_spec k 0); field; lra.
    + rewrite sum_S, IH by lia. rewrite RE. destruct (Nat.ltb_spec n m); [lia|]. ring.
Qed.
Print Assumptions C53_exact.

(** ** Construction *)
Theorem C53_new : forall c, exists a b, range (cos_new c) = (a, b) /\ n_terms (cos_new c) = 128%nat /\ chf (cos_new c) = c /\ log_forward c - a = b - log_forward c /\ / 10 ^ 5 <= b - log_forward c /\ 10 * sqrt (typical_variance c * expiry c) <= b - log_forward c /\ a < b.
Proof.
  intros c. unfold cos_new. cbn [range n_terms chf]. do 2 eexists. split; [reflexivity|]. split; [reflexivity|]. split; [reflexivity|]. split; [ring|]. pose proof (Rmax_l (sqrt (typical_variance c * expiry c)) (/ 10 ^ 6)). pose proof (Rmax_r (sqrt (typical_variance c * expiry c)) (/ 10 ^ 6)). set (m := Rmax _ _) in *. assert (E : / 10 ^ 5 = 10 * / 10 ^ 6) by (cbn; field). assert (0 < / 10 ^ 6) by (apply Rinv_0_lt_compat; lra). split; [rewrite E; lra|]. split; lra.
Qed.
Print Assumptions C53_new.
Theorem C53_overrides : forall p n a b,
  (forall q, with_n_terms p n = Ok q <-> (2 <= n)%nat /\ n_terms q = n /\ range q = range p /\ chf q = chf p) /\
  (forall q, with_range p a b = Ok q <-> a < b /\ range q = (a, b) /\ n_terms q = n_terms p /\ chf q = chf p).
Proof.
  intros p n a b. split; intros q.
  - unfold with_n_terms. destruct (Nat.leb_spec 2 n) as [L|L]; cbn [negb].
    + split; [intros E; assert (q = {| chf := chf p; n_terms := n; range := range p |}) as -> by congruence; repeat split; auto|]. intros (_ & N & R & C). destruct q; cbn in *; subst. reflexivity.
    + split; [discriminate|]. intros [H _]. lia.
  - unfold with_range. destruct (Rlt_dec a b) as [L|L].
    + split; [intros E; assert (q = {| chf := chf p; n_terms := n_terms p; range := (a, b) |}) as -> by congruence; repeat split; auto|]. intros (_ & N & R & C). destruct q; cbn in *; subst. reflexivity.
    + split; [discriminate|]. intros [H _]. lra.
Qed.
Print Assumptions C53_overrides.

(** ** Outside of the range *)
Definition uniform_phi (u : R) : R * R := if Req_EM_T u 0 then (1, 0) else (sin u / u, (1 - cos u) / u).
Lemma uniform_char : char_fun uniform_phi (fun _ => 1) 0 1.
Proof.
  intros u. unfold uniform_phi. destruct (Req_EM_T u 0) as [->|U]; cbn [fst snd].
  - split.
    + apply is_RInt_ext with (fun _ => 1); [intros y _; rewrite Rmult_0_l, cos_0; match goal with |- ?a = ?b => change (@eq R a b) end; ring|]. apply const_int. ring.
    + apply is_RInt_ext with (fun _ => 0); [intros y _; rewrite Rmult_0_l, sin_0; match goal with |- ?a = ?b => change (@eq R a b) end; ring|]. apply const_int. ring.
  - split.
    + replace (sin u / u) with ((fun y => sin (u * y) / u) 1 - (fun y => sin (u * y) / u) 0) by (cbv beta; rewrite Rmult_1_r, Rmult_0_r, sin_0; field; exact U).
      apply (is_RInt_derive (fun y => sin (u * y) / u)); intros y _; [auto_derive; [exact I|]; match goal with |- ?a = ?b => change (@eq R a b) end; field; exact U|]. apply (ex_derive_continuous (fun y => cos (u * y) * 1)). auto_derive. exact I.
    + replace ((1 - cos u) / u) with ((fun y => - cos (u * y) / u) 1 - (fun y => - cos (u * y) / u) 0) by (cbv beta; rewrite Rmult_1_r, Rmult_0_r, cos_0; field; exact U).
      apply (is_RInt_derive (fun y => - cos (u * y) / u)); intros y _; [auto_derive; [exact I|]; match goal with |- ?a = ?b => change (@eq R a b) end; field; exact U|]. apply (ex_derive_continuous (fun y => sin (u * y) * 1)). auto_derive. exact I.
Qed.
Lemma uniform_series n y : (1 <= n)%nat -> series uniform_phi 0 1 n y = 1.
Proof.
  intros N. apply (C53_exact uniform_phi (fun _ => 1) 0 1 1 n (fun _ => 1)); [lra|exact N| |exact uniform_char]. intros z. unfold sum_below, freq. cbn [seq map fold_right INR]. replace (0 * PI / (1 - 0) * (z - 0)) with 0 by field. rewrite cos_0. ring.
Qed.
(** Nothing checks that the strike lies in the range.  The uniform law on [0, 1] never exceeds a strike of
    e^2, but its call costs the discount times e, more than the forward. *)
Theorem C53_outside_refuted : exists p f K D a b v, range p = (a, b) /\ a < b /\ char_fun (evaluate (chf p)) f a b /\ (forall y, 0 <= f y) /\ is_RInt f a b 1 /\
  0 < K /\ 0 < D /\ (forall y, a <= y <= b -> Rmax (exp y - K) 0 = 0) /\ call p K D = Ok v /\ D * exp b <= v.
Proof.
  set (c := {| evaluate := uniform_phi; expiry := 1; log_forward := 1 / 2; typical_variance := / 12 |}). set (p := {| chf := c; n_terms := 128; range := (0, 1) |}).
  exists p, (fun _ => 1), (exp 2), 1, 0, 1, (1 * sum_below 128 (term c 0 1 (exp 2) true)). split; [reflexivity|]. split; [lra|]. split; [exact uniform_char|]. split; [intros; lra|]. split.
  { apply const_int. ring. }
  split; [apply exp_pos|]. split; [lra|]. split; [intros y Y; apply Rmax_right; assert (exp y < exp 2) by (apply exp_increasing; lra); lra|]. split; [apply (price_eq p); [apply exp_pos|reflexivity]|].
  pose proof (call_int c 0 1 (exp 2) 128 ltac:(lra)) as H. rewrite ln_exp in H.
  assert (H' : is_RInt (fun y => (exp y - exp 2) * series (evaluate c) 0 1 128 y) 2 1 (exp 1)).
  { apply is_RInt_ext with (fun y => exp y - exp 2); [intros y _; cbn [evaluate c]; rewrite uniform_series by lia; match goal with |- ?a = ?b => change (@eq R a b) end; ring|]. replace (exp 1) with ((fun y => exp y - exp 2 * y) 1 - (fun y => exp y - exp 2 * y) 2) by (cbv beta; ring).
    apply (is_RInt_derive (fun y => exp y - exp 2 * y)); intros y _; [auto_derive; [exact I|]; match goal with |- ?a = ?b => change (@eq R a b) end; ring|]. apply (ex_derive_continuous (fun y => exp y - exp 2)). auto_derive. exact I. }
  pose proof (is_RInt_unique _ _ _ _ H) as U1. pose proof (is_RInt_unique _ _ _ _ H') as U2. rewrite U1 in U2. rewrite U2. lra.
Qed.
Print Assumptions C53_outside_refuted.

(** The hypotheses are met by that law at a strike in the range. *)
Example C53_witness : exists p f a b m co, range p = (a, b) /\ a < b /\ a <= ln 2 <= b /\ (m <= n_terms p)%nat /\ char_fun (evaluate (chf p)) f a b /\ (forall y, f y = sum_below m (fun k => co k * cos (freq a b k * (y - a)))) /\ f 0 <> 0.
Proof.
  exists {| chf := {| evaluate := uniform_phi; expiry := 1; log_forward := 1 / 2; typical_variance := / 12 |}; n_terms := 128; range := (0, 1) |}, (fun _ => 1), 0, 1, 1%nat, (fun _ => 1). split; [reflexivity|]. split; [lra|]. split.
  { pose proof ln_lt_2. split; [lra|]. rewrite <- (ln_exp 1). left. apply ln_increasing; [lra|]. pose proof (exp_ineq1 1 ltac:(lra)). lra. }
  split; [cbn [n_terms]; lia|]. split; [exact uniform_char|]. split; [|lra]. intros z. unfold sum_below, freq. cbn [seq map fold_right INR]. replace (0 * PI / (1 - 0) * (z - 0)) with 0 by field. rewrite cos_0. ring.
Qed.
