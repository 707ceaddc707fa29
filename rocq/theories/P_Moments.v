(** C69: the correlation of the simulated increments.  C70: conditional means. *)
From Coq Require Import ZArith Bool List Reals Lra Lia Psatz.
From Coquelicot Require Import Coquelicot.
Import ListNotations.
From Verif Require Import Outcome Cholesky CholeskyFacts P_Cholesky Processes ProcessFacts MomentFacts.
Open Scope R_scope.

(** The factor of the correlation block: its first column is the first column of the
    correlation matrix. *)
Lemma factor_column c l : cholesky4 c = Ok (Some l) ->
  (forall i j, (i < 4)%nat -> (j < 4)%nat -> rs 4 (fun k => entry l i k * entry l j k) = entry (as_matrix c) i j) /\
  (forall i j, (i < j)%nat -> entry l i j = 0) /\ (forall i, (i < 4)%nat -> entry l i 0 = entry (as_matrix c) i 0).
Proof.
  intros H. destruct (C50_factor _ _ (correlation_square c) (correlation_symmetric c) H) as (_ & _ & T & P & E).
  assert (E' : forall i j, (i < 4)%nat -> (j < 4)%nat -> rs 4 (fun k => entry l i k * entry l j k) = entry (as_matrix c) i j) by (intros; apply E; assumption).
  split; [exact E'|]. split; [exact T|]. intros i Hi.
  assert (O : entry l 0 0 = 1).
  { pose proof (E' 0%nat 0%nat ltac:(lia) ltac:(lia)) as Q. pose proof (P 0%nat ltac:(cbn; lia)). cbn [rs] in Q. rewrite (T 0%nat 1%nat), (T 0%nat 2%nat), (T 0%nat 3%nat) in Q by lia. unfold entry in Q at 3. cbn [as_matrix nth] in Q.
    nra. }
  pose proof (E' i 0%nat Hi ltac:(lia)) as Q. cbn [rs] in Q. rewrite (T 0%nat 1%nat), (T 0%nat 2%nat), (T 0%nat 3%nat) in Q by lia. rewrite O in Q. lra.
Qed.


(** The correlations wanted between the drivers of the FX rate, its variance and the two
    short rates; and, after them, of the stock and its variance. *)
Definition wanted (c : correlation4) (i j : nat) : R :=
  nth j (nth i [[1; rho_xi_sigma c; rho_xi_d c; rho_xi_f c];
                [rho_xi_sigma c; 1; rho_sigma_d c; rho_sigma_f c];
                [rho_xi_d c; rho_sigma_d c; 1; rho_d_f c];
                [rho_xi_f c; rho_sigma_f c; rho_d_f c; 1]] []) 0.

(** Row [i] of the factor applied to the draws. *)
Definition lin (l : list (list R)) (i : nat) (g : nat -> R) : R := lsum [0; 1; 2; 3]%nat (fun k => entry l i k * g k).

Lemma correlate_lin l (g : nat -> R) z i : (forall i j, (i < j)%nat -> entry l i j = 0) -> (forall k, (k < 4)%nat -> z k = g k) -> (i < 4)%nat ->
  @correlate R_numbers (entry l) z i = lin l i g.
Proof.
  intros T Z H. unfold lin. cbn [lsum]. rewrite <- !Z by lia. unfold correlate.
  do 4 (destruct i as [|i]; [cbn; rewrite ?(T 0%nat 1%nat), ?(T 0%nat 2%nat), ?(T 0%nat 3%nat), ?(T 1%nat 2%nat), ?(T 1%nat 3%nat), ?(T 2%nat 3%nat) by lia; ring|]). lia.
Qed.

Lemma step_open (dt : R) {A} (x y : A) : 0 < dt -> (if negb (@nlt R_numbers n0 dt) then x else y) = y.
Proof. intros H. cbn. destruct (Rlt_dec 0 dt); [reflexivity|contradiction]. Qed.

(** The step of the FX-HHW model, in closed form. *)
Lemma hhw_form p c l (g : rng R_numbers) s dt a b : cholesky4 c = Ok (Some l) -> 0 < dt -> exists s' dw,
  hhw_step_at_time p (entry l) g s dt a b = Ok (fun k => g (4 + k)%nat, (s', dw)) /\
  (forall i, (i < 4)%nat -> dw i = sqrt dt * lin l i g) /\
  let sigma := Rmax (variance s) 0 in
  fx s' = exp (ln (fx s) + (rd s - rf s - sigma / 2) * dt + sqrt sigma * (sqrt dt * lin l 0 g)) /\
  rd s' = rd s + mean_reversion (domestic p) * (a - rd s) * dt + hw_sigma (domestic p) * (sqrt dt * lin l 2 g) /\
  rf s' = rf s + (mean_reversion (foreign p) * (b - rf s) - hw_sigma (foreign p) * hhw_rho_xi_f p * sqrt sigma) * dt + hw_sigma (foreign p) * (sqrt dt * lin l 3 g) /\
  variance s' = Rmax (sigma + kappa (heston p) * (theta (heston p) - sigma) * dt + gamma (heston p) * sqrt sigma * (sqrt dt * lin l 1 g)) 0.
Proof.
  intros C D. destruct (factor_column c l C) as (_ & T & _). eexists _, _. split; [unfold hhw_step_at_time; rewrite (step_open dt _ _ D); reflexivity|].
  assert (W : forall z i, (forall k, (k < 4)%nat -> z k = g k) -> (i < 4)%nat -> (@correlate R_numbers (entry l) z i * sqrt dt)%R = sqrt dt * lin l i g) by (intros; rewrite (correlate_lin l g) by assumption; ring).
  assert (Z : forall k, (k < 4)%nat -> nth k [g 0%nat; g 1%nat; g 2%nat; g 3%nat] 0 = g k) by (intros k Hk; do 4 (destruct k as [|k]; [reflexivity|]); lia).
  split; [intros i Hi; apply W; assumption|]. cbv zeta. cbn [fx rd rf variance]. cbn [nadd nsub nmul nexp nln nsqrt nmax n0 nhalf R_numbers num].
  split; [|split; [|split]].
  - f_equal. rewrite W by (assumption || lia). field.
  - rewrite W by (assumption || lia). reflexivity.
  - rewrite W by (assumption || lia). reflexivity.
  - rewrite W by (assumption || lia). reflexivity.
Qed.

Lemma nodup4 : NoDup [0; 1; 2; 3]%nat.
Proof. repeat constructor; cbn; lia. Qed.
Lemma wanted_entry c i j : (i < 4)%nat -> (j < 4)%nat -> entry (as_matrix c) i j = wanted c i j.
Proof. intros. reflexivity. Qed.
Lemma rows_wanted c l i j : cholesky4 c = Ok (Some l) -> (i < 4)%nat -> (j < 4)%nat ->
  entry l i 0 * entry l j 0 + (entry l i 1 * entry l j 1 + (entry l i 2 * entry l j 2 + (entry l i 3 * entry l j 3 + 0))) = wanted c i j.
Proof. intros C Hi Hj. destruct (factor_column c l C) as (E & _ & _). rewrite <- wanted_entry, <- E by assumption. cbn [rs]. ring. Qed.

(** The mean and the covariances of affine functions of the increments. *)
Lemma linear_mean l (i : nat) (g : nat -> R) f m q : (forall g, f g = m + q * lin l i g) -> expectation [0; 1; 2; 3]%nat f g m.
Proof.
  intros H. pose proof (expectation_product _ nodup4 f m 1 (fun k => q * entry l i k) (fun _ => 0) g) as P. replace m with (m * 1 + lsum [0; 1; 2; 3]%nat (fun k => q * entry l i k * 0)) by (cbn [lsum]; ring).
  apply P. intros g' _. rewrite H. unfold lin. cbn [lsum]. ring.
Qed.
Lemma linear_product c l (i j : nat) (g : nat -> R) f q r : cholesky4 c = Ok (Some l) -> (i < 4)%nat -> (j < 4)%nat ->
  (forall g, f g = q * lin l i g * (r * lin l j g)) -> expectation [0; 1; 2; 3]%nat f g (q * r * wanted c i j).
Proof.
  intros C Hi Hj H. pose proof (expectation_product _ nodup4 f 0 0 (fun k => q * entry l i k) (fun k => r * entry l j k) g) as P.
  replace (q * r * wanted c i j) with (0 * 0 + lsum [0; 1; 2; 3]%nat (fun k => q * entry l i k * (r * entry l j k))) by (rewrite <- (rows_wanted c l i j C Hi Hj); cbn [lsum]; ring).
  apply P. intros g' _. rewrite H. unfold lin. cbn [lsum]. ring.
Qed.

(** The increments of an FX-HHW step have mean zero, variance [dt] and the correlations
    asked for. *)
Theorem C69_hhw : forall c l, cholesky4 c = Ok (Some l) -> forall p s dt a b, 0 < dt -> forall i j, (i < 4)%nat -> (j < 4)%nat -> forall x y,
  (forall g g' s' dw, hhw_step_at_time p (entry l) g s dt a b = Ok (g', (s', dw)) -> x g = dw i /\ y g = dw j) ->
  forall g, expectation [0; 1; 2; 3]%nat x g 0 /\ expectation [0; 1; 2; 3]%nat (fun g => x g * y g) g (wanted c i j * dt).
Proof.
  intros c l C p s dt a b D i j Hi Hj x y H g.
  assert (X : forall g, x g = sqrt dt * lin l i g /\ y g = sqrt dt * lin l j g).
  { intros g0. destruct (hhw_form p c l g0 s dt a b C D) as (s' & dw & E & W & _). destruct (H _ _ _ _ E) as [-> ->]. split; apply W; assumption. }
  split.
  - apply (linear_mean l i g x 0 (sqrt dt)). intros g0. rewrite (proj1 (X g0)). ring.
  - replace (wanted c i j * dt) with (sqrt dt * sqrt dt * wanted c i j) by (rewrite sqrt_sqrt by lra; ring).
    apply (linear_product c l i j g _ _ _ C Hi Hj). intros g0. destruct (X g0) as [-> ->]. reflexivity.
Qed.
Print Assumptions C69_hhw.

(** They move the right components: the log FX rate and the two short rates have, after
    a step, the drifts of the model and the covariances volatility x volatility x
    correlation x [dt]. *)
Definition component (i : nat) (s : hhw_state R_numbers) : R := nth i [ln (fx s); 0; rd s; rf s] 0.
Definition volatility_of (p : hhw_params R_numbers) (s : hhw_state R_numbers) (i : nat) : R :=
  nth i [sqrt (Rmax (variance s) 0); 0; hw_sigma (domestic p); hw_sigma (foreign p)] 0.
Definition drifted (p : hhw_params R_numbers) (s : hhw_state R_numbers) (dt a b : R) (i : nat) : R :=
  let sigma := Rmax (variance s) 0 in
  nth i [ln (fx s) + (rd s - rf s - sigma / 2) * dt; 0;
         rd s + mean_reversion (domestic p) * (a - rd s) * dt;
         rf s + (mean_reversion (foreign p) * (b - rf s) - hw_sigma (foreign p) * hhw_rho_xi_f p * sqrt sigma) * dt] 0.
Theorem C69_states : forall c l, cholesky4 c = Ok (Some l) -> forall p s dt a b, 0 < dt -> forall i j, In i [0; 2; 3]%nat -> In j [0; 2; 3]%nat -> forall x y,
  (forall g g' s' dw, hhw_step_at_time p (entry l) g s dt a b = Ok (g', (s', dw)) -> x g = component i s' /\ y g = component j s') ->
  forall g, let mx := drifted p s dt a b i in let my := drifted p s dt a b j in
  expectation [0; 1; 2; 3]%nat x g mx /\
  expectation [0; 1; 2; 3]%nat (fun g => (x g - mx) * (y g - my)) g (volatility_of p s i * volatility_of p s j * wanted c i j * dt).
Proof.
  intros c l C p s dt a b D i j Hi Hj x y H g mx my.
  assert (Q : forall k g g' s' dw, In k [0; 2; 3]%nat -> hhw_step_at_time p (entry l) g s dt a b = Ok (g', (s', dw)) -> component k s' = drifted p s dt a b k + volatility_of p s k * sqrt dt * lin l k g).
  { intros k g0 g' s' dw Hk E. destruct (hhw_form p c l g0 s dt a b C D) as (s1 & dw1 & E1 & _ & F). rewrite E1 in E. apply Ok_triple in E as (_ & <- & _). cbv zeta in F. destruct F as (F0 & F2 & F3 & _).
    unfold component, drifted, volatility_of. destruct Hk as [<-|[<-|[<-|[]]]]; cbn [nth].
    - rewrite F0, ln_exp. ring.
    - rewrite F2. cbn. ring.
    - rewrite F3. cbn. ring. }
  assert (X : forall g, x g = mx + volatility_of p s i * sqrt dt * lin l i g /\ y g = my + volatility_of p s j * sqrt dt * lin l j g).
  { intros g0. destruct (hhw_form p c l g0 s dt a b C D) as (s' & dw & E & _). destruct (H _ _ _ _ E) as [-> ->]. split; eapply Q; eassumption. }
  assert (Hi4 : (i < 4)%nat) by (destruct Hi as [<-|[<-|[<-|[]]]]; lia). assert (Hj4 : (j < 4)%nat) by (destruct Hj as [<-|[<-|[<-|[]]]]; lia).
  split.
  - apply (linear_mean l i g x mx (volatility_of p s i * sqrt dt)). intros g0. apply X.
  - replace (_ * _ * _ * dt) with (volatility_of p s i * sqrt dt * (volatility_of p s j * sqrt dt) * wanted c i j) by (transitivity (volatility_of p s i * volatility_of p s j * wanted c i j * (sqrt dt * sqrt dt)); [ring|rewrite sqrt_sqrt by lra; ring]).
    apply (linear_product c l i j g _ _ _ C Hi4 Hj4). intros g0. destruct (X g0) as [-> ->]. ring.
Qed.
Print Assumptions C69_states.

(** SABR: the two increments, and the volatility and (where the truncation does not act)
    the forward that they move. *)
Lemma nodup2 : NoDup [0; 1]%nat.
Proof. repeat constructor; cbn; lia. Qed.
Theorem C69_sabr : forall (p : sabr_params R_numbers) (s : sabr_state R_numbers) dt, 0 < dt -> -1 <= rho p <= 1 -> 0 < vol s -> forall x y,
  (forall g g' (s' : sabr_state R_numbers) (f a : R), sabr_step_with_noise p g s dt = Ok (g', (s', (f, a))) -> x g = f /\ y g = a) ->
  (forall g, expectation [0; 1]%nat x g 0 /\ expectation [0; 1]%nat y g 0 /\
     expectation [0; 1]%nat (fun g => x g * x g) g dt /\ expectation [0; 1]%nat (fun g => y g * y g) g dt /\ expectation [0; 1]%nat (fun g => x g * y g) g (rho p * dt)) /\
  (forall g g' (s' : sabr_state R_numbers) d, sabr_step_with_noise p g s dt = Ok (g', (s', d)) ->
     ln (vol s') = ln (vol s) - nu p * nu p / 2 * dt + nu p * y g /\
     (0 < forward s -> 0 <= forward s + vol s * Rpower (forward s) (beta p) * x g -> forward s' = forward s + vol s * Rpower (forward s) (beta p) * x g)).
Proof.
  intros p s dt D R V x y H.
  assert (X : forall g, x g = sqrt dt * g 0%nat /\ y g = sqrt dt * (rho p * g 0%nat + sqrt (1 - rho p * rho p) * g 1%nat)).
  { intros g. eapply H. unfold sabr_step_with_noise. rewrite (step_open dt _ _ D). cbn [sample_normal]. reflexivity. }
  assert (Q : sqrt dt * sqrt dt = dt) by (apply sqrt_sqrt; lra).
  assert (Q' : sqrt (1 - rho p * rho p) * sqrt (1 - rho p * rho p) = 1 - rho p * rho p) by (apply sqrt_sqrt; cbn in *; nra).
  set (q := sqrt dt) in *. set (r := sqrt (1 - rho p * rho p)) in *.
  set (a := fun k => match k with O => q | _ => 0 end). set (b := fun k => match k with O => q * rho p | _ => q * r end).
  assert (XA : forall g, x g = lsum [0; 1]%nat (fun k => a k * g k)) by (intros; rewrite (proj1 (X g)); cbn; ring).
  assert (YB : forall g, y g = lsum [0; 1]%nat (fun k => b k * g k)) by (intros; rewrite (proj2 (X g)); cbn; ring).
  split.
  - intros g. split; [|split; [|split; [|split]]].
    + replace 0 with (0 * 1 + lsum [0; 1]%nat (fun k => a k * 0)) by (cbn; ring). apply (expectation_product _ nodup2 x 0 1 a (fun _ => 0)). intros g' _. rewrite XA. cbn [lsum]. ring.
    + replace 0 with (0 * 1 + lsum [0; 1]%nat (fun k => b k * 0)) by (cbn; ring). apply (expectation_product _ nodup2 y 0 1 b (fun _ => 0)). intros g' _. rewrite YB. cbn [lsum]. ring.
    + replace dt with (0 * 0 + lsum [0; 1]%nat (fun k => a k * a k)) by (cbn; lra). apply (expectation_product _ nodup2 _ 0 0 a a). intros g' _. rewrite XA. ring.
    + replace dt with (0 * 0 + lsum [0; 1]%nat (fun k => b k * b k)).
      { apply (expectation_product _ nodup2 _ 0 0 b b). intros g' _. rewrite YB. ring. }
      cbn [lsum b]. transitivity (q * q * (rho p * rho p + r * r)); [ring|]. rewrite Q, Q'. cbn. ring.
    + replace (rho p * dt) with (0 * 0 + lsum [0; 1]%nat (fun k => a k * b k)).
      { apply (expectation_product _ nodup2 _ 0 0 a b). intros g' _. rewrite XA, YB. ring. }
      cbn [lsum a b]. transitivity (rho p * (q * q)); [cbn; ring|]. rewrite Q. reflexivity.
  - intros g g' s' d E. destruct d as [f0 a0]. destruct (H _ _ _ _ _ E) as [-> ->]. unfold sabr_step_with_noise in E. rewrite (step_open dt _ _ D) in E. cbn [sample_normal] in E.
    apply Ok_triple in E as (_ & <- & E). injection E as <- <-. cbn [forward vol]. cbn [nadd nsub nmul nexp nln nsqrt nmax npowf nneg n0 n1 nhalf R_numbers num]. cbn in V.
    rewrite (Rmax_left (vol s) 0) by (cbn; lra). split.
    + rewrite ln_mult by (try apply exp_pos; exact V). rewrite ln_exp. cbn. field.
    + intros F NN. cbn in F. rewrite (Rmax_left (forward s) 0) by (cbn; lra). unfold powfR. destruct (Req_EM_T (forward s) 0); [cbn in *; lra|]. apply Rmax_left. exact NN.
Qed.
Print Assumptions C69_sabr.

(** The six increments with a foreign stock: the stock is correlated with the FX rate
    directly and with the other drivers only through it, and its variance with the rest
    only through the stock. *)
Definition wanted6 (c : correlation4) (st : foreign_stock R_numbers) (i j : nat) : R :=
  let to_base k j := match k with 4%nat => rho_xi_sf st * wanted c 0 j | _ => rho_sf_omega st * rho_xi_sf st * wanted c 0 j end in
  if (i <? 4)%nat then if (j <? 4)%nat then wanted c i j else to_base j i
  else if (j <? 4)%nat then to_base i j
  else if (i =? j)%nat then 1 else rho_sf_omega st.
Definition row6 (l : list (list R)) (st : foreign_stock R_numbers) (i k : nat) : R :=
  if (i <? 4)%nat then if (k <? 4)%nat then entry l i k else 0
  else if (i =? 4)%nat then nth k [rho_xi_sf st; 0; 0; 0; sqrt (1 - rho_xi_sf st * rho_xi_sf st); 0] 0
  else nth k [rho_sf_omega st * rho_xi_sf st; 0; 0; 0; rho_sf_omega st * sqrt (1 - rho_xi_sf st * rho_xi_sf st); sqrt (1 - rho_sf_omega st * rho_sf_omega st)] 0.
Definition lin6 (l : list (list R)) (st : foreign_stock R_numbers) (i : nat) (g : nat -> R) : R := lsum [0; 1; 2; 3; 4; 5]%nat (fun k => row6 l st i k * g k).
Lemma nodup6 : NoDup [0; 1; 2; 3; 4; 5]%nat.
Proof. repeat constructor; cbn; lia. Qed.

Lemma stock_form p st c l (g : rng R_numbers) (s : stock_state R_numbers) (dt : R) : cholesky4 c = Ok (Some l) -> 0 < dt -> exists s' dw,
  stock_step_with_noise p st (entry l) g s dt = Ok (fun k => g (6 + k)%nat, (s', dw)) /\
  (forall i, (i < 6)%nat -> dw i = sqrt dt * lin6 l st i g) /\
  let b := st_fx s in let sigma := Rmax (variance b) 0 in let omega := Rmax (stock_variance s) 0 in
  fx (st_fx s') = exp (ln (fx b) + (rd b - rf b - sigma / 2) * dt + sqrt sigma * (sqrt dt * lin6 l st 0 g)) /\
  rd (st_fx s') = rd b + mean_reversion (domestic p) * (theta_d p - rd b) * dt + hw_sigma (domestic p) * (sqrt dt * lin6 l st 2 g) /\
  rf (st_fx s') = rf b + (mean_reversion (foreign p) * (theta_f p - rf b) - hw_sigma (foreign p) * hhw_rho_xi_f p * sqrt sigma) * dt + hw_sigma (foreign p) * (sqrt dt * lin6 l st 3 g) /\
  stock s' = exp (ln (stock s) + (rf b - rho_xi_sf st * sqrt sigma * sqrt omega - omega / 2) * dt + sqrt omega * (sqrt dt * lin6 l st 4 g)) /\
  stock_variance s' = Rmax (omega + (kappa (stock_heston st) * (theta (stock_heston st) - omega) - rho_sf_omega st * rho_xi_sf st * gamma (stock_heston st) * sqrt omega * sqrt sigma) * dt
                            + gamma (stock_heston st) * sqrt omega * (sqrt dt * lin6 l st 5 g)) 0 /\
  variance (st_fx s') = Rmax (sigma + kappa (heston p) * (theta (heston p) - sigma) * dt + gamma (heston p) * sqrt sigma * (sqrt dt * lin6 l st 1 g)) 0.
Proof.
  intros C D. destruct (factor_column c l C) as (_ & T & _). eexists _, _. split; [unfold stock_step_with_noise; rewrite (step_open dt _ _ D); reflexivity|].
  assert (W : forall z i, (forall k, (k < 4)%nat -> z k = g k) -> (i < 4)%nat -> (@correlate R_numbers (entry l) z i * sqrt dt)%R = sqrt dt * lin6 l st i g).
  { intros z i Z Hi. rewrite (correlate_lin l g) by assumption. unfold lin6, row6, lin. rewrite (proj2 (Nat.ltb_lt i 4) Hi). cbn [lsum]. cbn [Nat.ltb Nat.leb]. ring. }
  assert (Z : forall k, (k < 4)%nat -> nth k [g 0%nat; g 1%nat; g 2%nat; g 3%nat; g 4%nat; g 5%nat] 0 = g k) by (intros k Hk; do 4 (destruct k as [|k]; [reflexivity|]); lia).
  split.
  - intros i Hi. destruct (Nat.ltb_spec i 4) as [L|L]; [apply W; assumption|].
    assert (i = 4 \/ i = 5)%nat as [->| ->] by lia; cbn [Nat.eqb]; unfold lin6, row6; cbn; ring.
  - cbv zeta. cbn [st_fx fx rd rf variance stock stock_variance]. cbn [nadd nsub nmul nexp nln nsqrt nmax n0 n1 nhalf R_numbers num].
    split; [|split; [|split; [|split; [|split]]]].
    + f_equal. rewrite W by (assumption || lia). field.
    + rewrite W by (assumption || lia). reflexivity.
    + rewrite W by (assumption || lia). reflexivity.
    + f_equal. unfold lin6, row6. cbn. field.
    + f_equal. unfold lin6, row6. cbn. ring.
    + rewrite W by (assumption || lia). reflexivity.
Qed.

Lemma rows6_wanted c l st i j : cholesky4 c = Ok (Some l) -> -1 <= rho_xi_sf st <= 1 -> -1 <= rho_sf_omega st <= 1 -> (i < 6)%nat -> (j < 6)%nat ->
  lsum [0; 1; 2; 3; 4; 5]%nat (fun k => row6 l st i k * row6 l st j k) = wanted6 c st i j.
Proof.
  intros C R1 R2 Hi Hj. destruct (factor_column c l C) as (_ & _ & F).
  assert (F' : forall i, (i < 4)%nat -> entry l i 0 = wanted c 0 i).
  { intros k Hk. rewrite (F k Hk). do 4 (destruct k as [|k]; [reflexivity|]). lia. }
  assert (Q1 : sqrt (1 - rho_xi_sf st * rho_xi_sf st) * sqrt (1 - rho_xi_sf st * rho_xi_sf st) = 1 - rho_xi_sf st * rho_xi_sf st) by (apply sqrt_sqrt; cbn in *; nra).
  assert (Q2 : sqrt (1 - rho_sf_omega st * rho_sf_omega st) * sqrt (1 - rho_sf_omega st * rho_sf_omega st) = 1 - rho_sf_omega st * rho_sf_omega st) by (apply sqrt_sqrt; cbn in *; nra).
  unfold wanted6, row6. cbv zeta. destruct (Nat.ltb_spec i 4) as [Li|Li], (Nat.ltb_spec j 4) as [Lj|Lj].
  - cbn [lsum Nat.ltb Nat.leb]. rewrite <- (rows_wanted c l i j C Li Lj). ring.
  - assert (j = 4 \/ j = 5)%nat as [->| ->] by lia; cbn [lsum Nat.ltb Nat.leb Nat.eqb nth]; rewrite (F' i Li); ring.
  - assert (i = 4 \/ i = 5)%nat as [->| ->] by lia; cbn [lsum Nat.ltb Nat.leb Nat.eqb nth]; rewrite (F' j Lj); ring.
  - set (q1 := sqrt (1 - rho_xi_sf st * rho_xi_sf st)) in *. set (q2 := sqrt (1 - rho_sf_omega st * rho_sf_omega st)) in *.
    assert (i = 4 \/ i = 5)%nat as [->| ->] by lia; assert (j = 4 \/ j = 5)%nat as [->| ->] by lia; cbn [lsum Nat.ltb Nat.leb Nat.eqb nth]; cbn in *; nra.
Qed.

Theorem C69_stock : forall c l, cholesky4 c = Ok (Some l) -> forall p (st : foreign_stock R_numbers) s dt, 0 < dt -> -1 <= rho_xi_sf st <= 1 -> -1 <= rho_sf_omega st <= 1 ->
  forall i j, (i < 6)%nat -> (j < 6)%nat -> forall x y,
  (forall g g' s' dw, stock_step_with_noise p st (entry l) g s dt = Ok (g', (s', dw)) -> x g = dw i /\ y g = dw j) ->
  forall g, expectation [0; 1; 2; 3; 4; 5]%nat x g 0 /\ expectation [0; 1; 2; 3; 4; 5]%nat (fun g => x g * y g) g (wanted6 c st i j * dt).
Proof.
  intros c l C p st s dt D R1 R2 i j Hi Hj x y H g.
  assert (X : forall g, x g = sqrt dt * lin6 l st i g /\ y g = sqrt dt * lin6 l st j g).
  { intros g0. destruct (stock_form p st c l g0 s dt C D) as (s' & dw & E & W & _). destruct (H _ _ _ _ E) as [-> ->]. split; apply W; assumption. }
  split.
  - replace 0 with (0 * 1 + lsum [0; 1; 2; 3; 4; 5]%nat (fun k => sqrt dt * row6 l st i k * 0)) by (cbn [lsum]; ring).
    apply (expectation_product _ nodup6 x 0 1 (fun k => sqrt dt * row6 l st i k) (fun _ => 0)). intros g' _. rewrite (proj1 (X g')). unfold lin6. cbn [lsum]. ring.
  - replace (wanted6 c st i j * dt) with (0 * 0 + lsum [0; 1; 2; 3; 4; 5]%nat (fun k => sqrt dt * row6 l st i k * (sqrt dt * row6 l st j k))).
    + apply (expectation_product _ nodup6 _ 0 0 (fun k => sqrt dt * row6 l st i k) (fun k => sqrt dt * row6 l st j k)). intros g' _. destruct (X g') as [-> ->]. unfold lin6. cbn [lsum]. ring.
    + rewrite <- (rows6_wanted c l st i j C R1 R2 Hi Hj). transitivity ((sqrt dt * sqrt dt) * lsum [0; 1; 2; 3; 4; 5]%nat (fun k => row6 l st i k * row6 l st j k)); [cbn [lsum]; ring|]. rewrite sqrt_sqrt by lra. ring.
Qed.
Print Assumptions C69_stock.

(** A correlation block with a factor. *)
Example C69_witness : let c := {| rho_xi_sigma := -3 / 5; rho_xi_d := 0; rho_xi_f := 0; rho_sigma_d := 0; rho_sigma_f := 0; rho_d_f := 4 / 5 |} in
  (exists l, cholesky4 c = Ok (Some l)) /\ wanted c 0 1 = -3 / 5 /\ wanted c 2 3 = 4 / 5 /\
  wanted6 c (@Build_foreign_stock R_numbers 1 (@Build_cir_process R_numbers 1 1 1 1) (1 / 2) (1 / 3)) 5 1 = 1 / 3 * (1 / 2) * (-3 / 5).
Proof.
  cbv zeta. split; [|split; [reflexivity|split; [reflexivity|unfold wanted6; cbn; lra]]].
  set (c := {| rho_xi_sigma := -3 / 5; rho_xi_d := 0; rho_xi_f := 0; rho_sigma_d := 0; rho_sigma_f := 0; rho_d_f := 4 / 5 |}).
  set (l := [[1; 0; 0; 0]; [-3 / 5; 4 / 5; 0; 0]; [0; 0; 1; 0]; [0; 0; 4 / 5; 3 / 5]]).
  destruct (C50_unique (as_matrix c) l (correlation_square c) (correlation_symmetric c)) as (l' & E & _); [|exists l'; exact E].
  split; [reflexivity|]. split; [repeat constructor|]. split.
  - intros i j H. do 4 (destruct i as [|i]; [do 4 (destruct j as [|j]; [try lia; try reflexivity|]); unfold entry; cbn; destruct j; reflexivity|]). unfold entry. rewrite (nth_overflow _ []) by (cbn; lia). destruct j; reflexivity.
  - split.
    + intros i H. cbn in H. do 4 (destruct i as [|i]; [unfold entry; cbn; lra|]). lia.
    + intros i j Hi Hj. cbn in Hi, Hj. do 4 (destruct i as [|i]; [do 4 (destruct j as [|j]; [unfold entry; cbn; lra|]); lia|]). lia.
Qed.

(** * C70 *)

(** One step of the one-factor models. *)
Theorem C70_one_factor :
  (forall (p : brownian R_numbers) (s dt : R) g, 0 <= dt ->
     expectation [0%nat] (fun g => snd (bm_step p g s dt)) g (s + bm_drift p * dt) /\
     expectation [0%nat] (fun g => (snd (bm_step p g s dt) - (s + bm_drift p * dt)) ^ 2) g (bm_volatility p ^ 2 * dt)) /\
  (forall (p : geometric R_numbers) (s dt : R) g, 0 <= dt ->
     expectation [0%nat] (fun g => snd (gbm_step p g s dt)) g (s * exp (gbm_drift p * dt)) /\
     expectation [0%nat] (fun g => snd (gbm_step p g s dt) ^ 2) g (s ^ 2 * exp ((2 * gbm_drift p + gbm_volatility p ^ 2) * dt))) /\
  (forall (p : hull_white R_numbers) (theta : R -> R) (s t dt : R) g, 0 <= dt ->
     let m := s + mean_reversion p * (theta t - s) * dt in
     expectation [0%nat] (fun g => snd (hw_step p theta g s t dt)) g m /\
     expectation [0%nat] (fun g => (snd (hw_step p theta g s t dt) - m) ^ 2) g (hw_sigma p ^ 2 * dt)).
Proof.
  assert (N : NoDup [0%nat]) by (repeat constructor; cbn; tauto).
  split; [|split].
  - intros p s dt g D. assert (Q : sqrt dt * sqrt dt = dt) by (apply sqrt_sqrt, D). split.
    + replace (s + bm_drift p * dt) with ((s + bm_drift p * dt) * 1 + lsum [0%nat] (fun _ => bm_volatility p * sqrt dt * 0)) by (cbn; ring).
      apply (expectation_product _ N _ (s + bm_drift p * dt) 1 (fun _ => bm_volatility p * sqrt dt) (fun _ => 0)). intros g' _. cbn. ring.
    + replace (bm_volatility p ^ 2 * dt) with (0 * 0 + lsum [0%nat] (fun _ => bm_volatility p * sqrt dt * (bm_volatility p * sqrt dt))) by (cbn; rewrite <- Q at 3; ring).
      apply (expectation_product _ N _ 0 0 (fun _ => bm_volatility p * sqrt dt) (fun _ => bm_volatility p * sqrt dt)). intros g' _. cbn. ring.
  - intros p s dt g D. assert (Q : sqrt dt * sqrt dt = dt) by (apply sqrt_sqrt, D). set (v := gbm_volatility p). set (m := gbm_drift p). split.
    + replace (s * exp (m * dt)) with (exp ((m - v * v / 2) * dt + lsum [0%nat] (fun _ => v * sqrt dt * (v * sqrt dt)) / 2) * (s + lsum [0%nat] (fun _ => v * sqrt dt * 0))).
      * apply (expectation_exp _ N _ ((m - v * v / 2) * dt) s (fun _ => v * sqrt dt) (fun _ => 0)). intros g' _. cbn -[exp]. fold v m. transitivity (s * exp ((m - / 2 * v * v) * dt + v * sqrt dt * g' 0%nat)); [reflexivity|].
        replace ((m - v * v / 2) * dt + (v * sqrt dt * g' 0%nat + 0)) with ((m - / 2 * v * v) * dt + v * sqrt dt * g' 0%nat) by field. ring.
      * cbn [lsum]. replace ((m - v * v / 2) * dt + (v * sqrt dt * (v * sqrt dt) + 0) / 2) with (m * dt) by (rewrite <- Q at 1 2; field). ring.
    + replace (s ^ 2 * exp ((2 * m + v ^ 2) * dt)) with (exp (2 * ((m - v * v / 2) * dt) + lsum [0%nat] (fun _ => 2 * v * sqrt dt * (2 * v * sqrt dt)) / 2) * (s * s + lsum [0%nat] (fun _ => 2 * v * sqrt dt * 0))).
      * apply (expectation_exp _ N _ (2 * ((m - v * v / 2) * dt)) (s * s) (fun _ => 2 * v * sqrt dt) (fun _ => 0)). intros g' _. transitivity ((s * exp ((m - / 2 * v * v) * dt + v * sqrt dt * g' 0%nat)) ^ 2); [reflexivity|].
        cbn [lsum]. set (u := (m - / 2 * v * v) * dt + v * sqrt dt * g' 0%nat). replace (2 * ((m - v * v / 2) * dt) + (2 * v * sqrt dt * g' 0%nat + 0)) with (u + u) by (unfold u; field). rewrite (exp_plus u u). ring.
      * cbn [lsum]. replace (2 * ((m - v * v / 2) * dt) + (2 * v * sqrt dt * (2 * v * sqrt dt) + 0) / 2) with ((2 * m + v ^ 2) * dt) by (rewrite <- Q at 1 2; field). ring.
  - intros p th s t dt g D m. assert (Q : sqrt dt * sqrt dt = dt) by (apply sqrt_sqrt, D). split.
    + replace m with (m * 1 + lsum [0%nat] (fun _ => hw_sigma p * sqrt dt * 0)) by (cbn; ring).
      apply (expectation_product _ N _ m 1 (fun _ => hw_sigma p * sqrt dt) (fun _ => 0)). intros g' _. unfold m. cbn. ring.
    + replace (hw_sigma p ^ 2 * dt) with (0 * 0 + lsum [0%nat] (fun _ => hw_sigma p * sqrt dt * (hw_sigma p * sqrt dt))) by (cbn; rewrite <- Q at 3; ring).
      apply (expectation_product _ N _ 0 0 (fun _ => hw_sigma p * sqrt dt) (fun _ => hw_sigma p * sqrt dt)). intros g' _. unfold m. cbn. ring.
Qed.
Print Assumptions C70_one_factor.

(** The truncation at zero raises the mean of the CIR variance and of the SABR forward
    above that of the untruncated step. *)
Theorem C70_truncated :
  (forall (p : cir_process R_numbers) (s dt : R) g, 0 < s -> 0 < gamma p -> 0 < dt ->
     exists m, expectation [0%nat] (fun g => snd (cir_step p g s dt)) g m /\ s + kappa p * (theta p - s) * dt < m) /\
  (forall (p : sabr_params R_numbers) (s : sabr_state R_numbers) dt g w, 0 < forward s -> 0 < vol s -> 0 < dt ->
     (forall g g' s', sabr_step p g s dt = Ok (g', s') -> w g = forward s') ->
     exists m, expectation [0%nat] w g m /\ forward s < m).
Proof.
  split.
  - intros p s dt g S G D. assert (SD : 0 < sqrt dt) by (apply sqrt_lt_R0, D). assert (SS : 0 < sqrt s) by (apply sqrt_lt_R0, S).
    destruct (mean_truncated (s + kappa p * (theta p - s) * dt) (gamma p * sqrt s * sqrt dt)) as (m & M & L); [apply Rmult_lt_0_compat; [apply Rmult_lt_0_compat|]; assumption|].
    exists m. split.
    + exists (fun z => Rmax (s + kappa p * (theta p - s) * dt + gamma p * sqrt s * sqrt dt * z) 0). split; [|exact M]. intros z. cbn. rewrite (Rmax_left s 0) by lra. reflexivity.
    + eapply Rle_lt_trans; [apply Rmax_l|exact L].
  - intros p s dt g w F V D H. assert (SD : 0 < sqrt dt) by (apply sqrt_lt_R0, D). cbn in F, V.
    assert (E : forall g, w g = Rmax (forward s + vol s * powfR (forward s) (beta p) * sqrt dt * g 0%nat) 0).
    { intros g0. rewrite (H g0 (fun k => g0 (2 + k)%nat) _ ltac:(unfold sabr_step, sabr_step_with_noise; rewrite (step_open dt _ _ D); cbn [obind sample_normal]; reflexivity)).
      cbn. rewrite (Rmax_left (forward s) 0), (Rmax_left (vol s) 0) by (cbn; lra). f_equal. ring. }
    assert (PW : 0 < powfR (forward s) (beta p)) by (unfold powfR; destruct (Req_EM_T (forward s) 0); [cbn in *; lra|apply exp_pos]).
    destruct (mean_truncated (forward s) (vol s * powfR (forward s) (beta p) * sqrt dt)) as (m & M & L); [apply Rmult_lt_0_compat; [apply Rmult_lt_0_compat|]; assumption|].
    exists m. split; [|eapply Rle_lt_trans; [apply Rmax_l|exact L]].
    exists (fun z => Rmax (forward s + vol s * powfR (forward s) (beta p) * sqrt dt * z) 0). split; [|exact M]. intros z. cbn. rewrite E. reflexivity.
Qed.
Print Assumptions C70_truncated.

(** One step of the log-Euler models: what the conditional means must be for the
    discounted prices to be martingales. *)
Lemma exp_two {n} (ks : list nat) (ND : NoDup ks) (f : (nat -> R) -> R) (A B : R) (a b : nat -> R) g (m : R) : length ks = n ->
  (forall g', f g' = exp (A + lsum ks (fun k => a k * g' k)) * (B + lsum ks (fun k => b k * g' k))) ->
  m = exp (A + lsum ks (fun k => a k * a k) / 2) * (B + lsum ks (fun k => a k * b k)) -> expectation ks f g m.
Proof. intros _ H ->. apply expectation_exp; [exact ND|]. intros g' _. apply H. Qed.

Lemma hhw_first c l : cholesky4 c = Ok (Some l) -> forall i, (i < 4)%nat -> entry l i 0 = wanted c 0 i /\ entry l 0 i = (if (i =? 0)%nat then 1 else 0).
Proof.
  intros C i Hi. destruct (factor_column c l C) as (_ & T & F). split.
  - rewrite (F i Hi). do 4 (destruct i as [|i]; [reflexivity|]). lia.
  - destruct i as [|i]; [rewrite (F 0%nat) by lia; reflexivity|]. apply T. lia.
Qed.

Lemma hhw_row0 c l : cholesky4 c = Ok (Some l) -> entry l 0 0 = 1 /\ entry l 0 1 = 0 /\ entry l 0 2 = 0 /\ entry l 0 3 = 0.
Proof. intros C. pose proof (fun i Hi => proj2 (hhw_first c l C i Hi)) as R0. split; [|split; [|split]]; rewrite R0 by lia; reflexivity. Qed.

(** The FX rate grows at the rate differential; and under the measure in which it is the
    unit of account the foreign short rate follows its own Hull-White drift, without
    the quanto correction. *)
Theorem C70_quanto : forall c l, cholesky4 c = Ok (Some l) -> forall p s dt a b, 0 < dt -> 0 < fx s -> hhw_rho_xi_f p = rho_xi_f c -> forall x y,
  (forall g g' s' dw, hhw_step_at_time p (entry l) g s dt a b = Ok (g', (s', dw)) -> x g = fx s' /\ y g = rf s') ->
  forall g, expectation [0; 1; 2; 3]%nat x g (fx s * exp ((rd s - rf s) * dt)) /\
  expectation [0; 1; 2; 3]%nat (fun g => x g * y g) g (fx s * exp ((rd s - rf s) * dt) * (rf s + mean_reversion (foreign p) * (b - rf s) * dt)).
Proof.
  intros c l C p s dt a b D FX RHO x y H g. set (sg := Rmax (variance s) 0). set (A := ln (fx s) + (rd s - rf s - sg / 2) * dt).
  set (B := rf s + (mean_reversion (foreign p) * (b - rf s) - hw_sigma (foreign p) * hhw_rho_xi_f p * sqrt sg) * dt).
  assert (X : forall g, x g = exp (A + sqrt sg * sqrt dt * lin l 0 g) /\ y g = B + hw_sigma (foreign p) * sqrt dt * lin l 3 g).
  { intros g0. destruct (hhw_form p c l g0 s dt a b C D) as (s' & dw & E & _ & F). destruct (H _ _ _ _ E) as [-> ->]. cbv zeta in F. destruct F as (-> & _ & -> & _). split; [f_equal; unfold A, sg; cbn; ring|unfold B, sg; cbn; ring]. }
  assert (Q : sqrt dt * sqrt dt = dt) by (apply sqrt_sqrt; lra). assert (Q' : sqrt sg * sqrt sg = sg) by (apply sqrt_sqrt, Rmax_r).
  pose proof (fun i Hi => proj1 (hhw_first c l C i Hi)) as C0. destruct (hhw_row0 c l C) as (E0 & E1 & E2 & E3).
  assert (C3 : entry l 3 0 = rho_xi_f c) by (rewrite C0 by lia; reflexivity).
  assert (G : exp (A + sg * dt / 2) = fx s * exp ((rd s - rf s) * dt)).
  { unfold A. replace (ln (fx s) + (rd s - rf s - sg / 2) * dt + sg * dt / 2) with (ln (fx s) + (rd s - rf s) * dt) by field. rewrite exp_plus, exp_ln by exact FX. reflexivity. }
  set (al := fun k => sqrt sg * sqrt dt * entry l 0 k).
  assert (V : lsum [0; 1; 2; 3]%nat (fun k => al k * al k) = sg * dt).
  { unfold al. cbn [lsum]. rewrite E0, E1, E2, E3. transitivity ((sqrt sg * sqrt sg) * (sqrt dt * sqrt dt)); [ring|rewrite Q, Q'; reflexivity]. }
  split.
  - apply (exp_two (n := 4) _ nodup4 x A 1 al (fun _ => 0)); [reflexivity| |].
    + intros g'. rewrite (proj1 (X g')). unfold al, lin. cbn [lsum]. rewrite !Rmult_0_l, !Rplus_0_r, Rmult_1_r. f_equal. ring.
    + rewrite V, G. cbn [lsum]. ring.
  - apply (exp_two (n := 4) _ nodup4 _ A B al (fun k => hw_sigma (foreign p) * sqrt dt * entry l 3 k)); [reflexivity| |].
    + intros g'. destruct (X g') as [-> ->]. unfold al, lin. cbn [lsum]. f_equal; [f_equal; ring|ring].
    + rewrite V, G. f_equal. unfold al. cbn [lsum]. rewrite E0, E1, E2, E3, C3. unfold B. rewrite RHO. cbn.
      transitivity (rf s + (mean_reversion (foreign p) * (b - rf s) - hw_sigma (foreign p) * rho_xi_f c * sqrt sg) * dt + hw_sigma (foreign p) * rho_xi_f c * sqrt sg * (sqrt dt * sqrt dt)); [rewrite Q; ring|ring].
Qed.
Print Assumptions C70_quanto.

(** Whole paths.  [discounted] is the value at the end of a path of [n] steps, multiplied
    along the way by the factor [c] of the state before each step. *)
Theorem C70_paths :
  (forall (p : geometric R_numbers) (s dt : R) n w g, 0 <= dt ->
     (forall g, discounted (fun g s dt => Ok (gbm_step p g s dt)) (fun _ => exp (- gbm_drift p * dt)) (fun s => s) dt n g s (w g)) ->
     expectation (seq 0 n) w g s) /\
  (forall (p : sabr_params R_numbers) (s : sabr_state R_numbers) dt n w g, 0 < dt -> -1 <= rho p <= 1 -> 0 <= vol s ->
     (forall g, discounted (sabr_step p) (fun _ => 1) vol dt n g s (w g)) ->
     expectation (seq 0 (n * 2)) w g (vol s)) /\
  (forall c l, cholesky4 c = Ok (Some l) -> forall p (s : hhw_state R_numbers) dt n w g, 0 < dt -> 0 < fx s ->
     (forall g, discounted (fun g s dt => do (g, (s, _)) <- hhw_step_constant p (entry l) g s dt; Ok (g, s)) (fun s => exp (rf s * dt) / exp (rd s * dt)) fx dt n g s (w g)) ->
     expectation (seq 0 (n * 4)) w g (fx s)) /\
  (forall c l, cholesky4 c = Ok (Some l) -> forall p (st : foreign_stock R_numbers) (s : stock_state R_numbers) dt n w g, 0 < dt -> -1 <= rho_xi_sf st <= 1 -> 0 < fx (st_fx s) -> 0 < stock s ->
     (forall g, discounted (stock_step p st (entry l)) (fun s => / exp (rd (st_fx s) * dt)) (fun s => fx (st_fx s) * stock s) dt n g s (w g)) ->
     expectation (seq 0 (n * 6)) w g (fx (st_fx s) * stock s)).
Proof.
  split; [|split; [|split]].
  - intros p s dt n w g D H. rewrite <- (Nat.mul_1_r n).
    apply (tower (fun g s dt => Ok (gbm_step p g s dt)) (fun _ => exp (- gbm_drift p * dt)) (fun s => s) dt 1 (fun _ => True) (fun s g => snd (gbm_step p g s dt))); [reflexivity|trivial| | |exact I|exact H].
    + intros s0 g0 g' E. cbn. rewrite (E 0%nat) by lia. reflexivity.
    + intros s0 g0 _. pose proof (expectation_scal (exp (- gbm_drift p * dt)) [0%nat] _ g0 _ (proj1 (proj1 (proj2 C70_one_factor) p s0 dt g0 D))) as X.
      replace (exp (- gbm_drift p * dt) * (s0 * exp (gbm_drift p * dt))) with s0 in X; [exact X|].
      replace (- gbm_drift p * dt) with (- (gbm_drift p * dt)) by (cbn; ring). rewrite exp_Ropp. assert (Z : forall a b : R, b <> 0 -> a = / b * (a * b)) by (intros; field; assumption). apply Z, Rgt_not_eq, exp_pos.
  - intros p s dt n w g D R V H.
    apply (tower (sabr_step p) (fun _ => 1) vol dt 2 (fun s => 0 <= vol s) (fun s g => match sabr_step p g s dt with Ok (_, s') => s' | _ => s end)); [| | | |exact V|exact H].
    + intros s0 g0 _. unfold sabr_step, sabr_step_with_noise. rewrite (step_open dt _ _ D). reflexivity.
    + intros s0 g0 _. unfold sabr_step, sabr_step_with_noise. rewrite (step_open dt _ _ D). cbn. apply Rmult_le_pos; [apply Rmax_r|left; apply exp_pos].
    + intros s0 g0 g' E. unfold sabr_step, sabr_step_with_noise. rewrite !(step_open dt _ _ D). cbn [obind sample_normal]. rewrite (E 0%nat), (E 1%nat) by lia. reflexivity.
    + intros s0 g0 V0. cbn in V0. assert (Q : sqrt dt * sqrt dt = dt) by (apply sqrt_sqrt; lra). assert (Q' : sqrt (1 - rho p * rho p) * sqrt (1 - rho p * rho p) = 1 - rho p * rho p) by (apply sqrt_sqrt; cbn in *; nra).
      set (q := sqrt dt) in *. set (r := sqrt (1 - rho p * rho p)) in *.
      apply (exp_two (n := 2) _ nodup2 _ (- / 2 * nu p * nu p * dt) (vol s0) (fun k => match k with O => nu p * q * rho p | _ => nu p * q * r end) (fun _ => 0)); [reflexivity| |].
      * intros g'. unfold sabr_step, sabr_step_with_noise. rewrite (step_open dt _ _ D). cbn -[exp]. rewrite (Rmax_left (vol s0) 0) by exact V0. fold q. unfold sqrt_one_minus_rho_sq. cbn -[exp]. fold r.
        replace (- / 2 * nu p * nu p * dt + nu p * (q * (rho p * g' 0%nat + r * g' 1%nat))) with (- / 2 * nu p * nu p * dt + (nu p * q * rho p * g' 0%nat + (nu p * q * r * g' 1%nat + 0))) by (cbn; ring). ring.
      * cbn [lsum]. replace (_ + _ / 2) with 0; [rewrite exp_0; symmetry; ring|]. transitivity (nu p * nu p / 2 * (q * q * (rho p * rho p + r * r) - dt)); [rewrite Q, Q'; field|cbn; field].
  - intros c l C p s dt n w g D F H.
    set (st := fun (g : rng R_numbers) (s : hhw_state R_numbers) (dt : R) => do (g, (s, _)) <- hhw_step_constant p (entry l) g s dt; Ok (g, s)) in *.
    assert (FM : forall s0 g0, exists s', st g0 s0 dt = Ok (fun k => g0 (4 + k)%nat, s') /\ fx s' = exp (ln (fx s0) + (rd s0 - rf s0 - Rmax (variance s0) 0 / 2) * dt + sqrt (Rmax (variance s0) 0) * (sqrt dt * lin l 0 g0))).
    { intros s0 g0. destruct (hhw_form p c l g0 s0 dt (theta_d p) (theta_f p) C D) as (s' & dw & E & _ & X). cbv zeta in X. exists s'. split; [unfold st, hhw_step_constant; rewrite E; reflexivity|apply X]. }
    apply (tower st (fun s => exp (rf s * dt) / exp (rd s * dt)) fx dt 4 (fun s => 0 < fx s) (fun s g => match st g s dt with Ok (_, s') => s' | _ => s end)); [| | | |exact F|exact H].
    + intros s0 g0 _. destruct (FM s0 g0) as (s' & E & _). rewrite E. reflexivity.
    + intros s0 g0 _. destruct (FM s0 g0) as (s' & -> & ->). apply exp_pos.
    + intros s0 g0 g' E. unfold st, hhw_step_constant, hhw_step_at_time. rewrite !(step_open dt _ _ D). cbn [obind sample_normal]. rewrite (E 0%nat), (E 1%nat), (E 2%nat), (E 3%nat) by lia. reflexivity.
    + intros s0 g0 F0. cbn in F0. set (sg := Rmax (variance s0) 0) in *.
      assert (Q : sqrt dt * sqrt dt = dt) by (apply sqrt_sqrt; lra). assert (Q' : sqrt sg * sqrt sg = sg) by (apply sqrt_sqrt, Rmax_r).
      destruct (hhw_row0 c l C) as (E0 & E1 & E2 & E3).
      apply (exp_two (n := 4) _ nodup4 _ (ln (fx s0) + (rd s0 - rf s0 - sg / 2) * dt) (exp (rf s0 * dt) / exp (rd s0 * dt)) (fun k => sqrt sg * sqrt dt * entry l 0 k) (fun _ => 0)); [reflexivity| |].
      * intros g'. destruct (FM s0 g') as (s' & -> & ->). fold sg. unfold lin. cbn [lsum]. rewrite Rmult_comm. f_equal; [f_equal; cbn; ring|ring].
      * cbn [lsum]. rewrite E0, E1, E2, E3. replace (_ + _ / 2) with (ln (fx s0) + rd s0 * dt + - (rf s0 * dt)).
        -- rewrite !exp_plus, exp_Ropp, exp_ln by exact F0. cbn. symmetry. field. split; apply Rgt_not_eq, exp_pos.
        -- transitivity (ln (fx s0) + (rd s0 - rf s0 - sg / 2) * dt + (sqrt sg * sqrt sg) * (sqrt dt * sqrt dt) / 2); [rewrite Q, Q'; cbn; field|cbn; field].
  - intros c l C p st s dt n w g D RH F S H.
    assert (FM : forall s0 g0, exists s', stock_step p st (entry l) g0 s0 dt = Ok (fun k => g0 (6 + k)%nat, s') /\
      fx (st_fx s') = exp (ln (fx (st_fx s0)) + (rd (st_fx s0) - rf (st_fx s0) - Rmax (variance (st_fx s0)) 0 / 2) * dt + sqrt (Rmax (variance (st_fx s0)) 0) * (sqrt dt * lin6 l st 0 g0)) /\
      stock s' = exp (ln (stock s0) + (rf (st_fx s0) - rho_xi_sf st * sqrt (Rmax (variance (st_fx s0)) 0) * sqrt (Rmax (stock_variance s0) 0) - Rmax (stock_variance s0) 0 / 2) * dt + sqrt (Rmax (stock_variance s0) 0) * (sqrt dt * lin6 l st 4 g0))).
    { intros s0 g0. destruct (stock_form p st c l g0 s0 dt C D) as (s' & dw & E & _ & X). cbv zeta in X. exists s'. split; [unfold stock_step; rewrite E; reflexivity|]. split; apply X. }
    apply (tower (stock_step p st (entry l)) (fun s => / exp (rd (st_fx s) * dt)) (fun s => fx (st_fx s) * stock s) dt 6 (fun s => 0 < fx (st_fx s) /\ 0 < stock s) (fun s g => match stock_step p st (entry l) g s dt with Ok (_, s') => s' | _ => s end)); [| | | |split; assumption|exact H].
    + intros s0 g0 _. destruct (FM s0 g0) as (s' & E & _). rewrite E. reflexivity.
    + intros s0 g0 _. destruct (FM s0 g0) as (s' & -> & -> & ->). split; apply exp_pos.
    + intros s0 g0 g' E. unfold stock_step, stock_step_with_noise. rewrite !(step_open dt _ _ D). cbn [obind sample_normal]. rewrite (E 0%nat), (E 1%nat), (E 2%nat), (E 3%nat), (E 4%nat), (E 5%nat) by lia. reflexivity.
    + intros s0 g0 [F0 S0]. cbn in F0, S0. set (sg := Rmax (variance (st_fx s0)) 0) in *. set (om := Rmax (stock_variance s0) 0) in *.
      assert (Q : sqrt dt * sqrt dt = dt) by (apply sqrt_sqrt; lra). assert (Q' : sqrt sg * sqrt sg = sg) by (apply sqrt_sqrt, Rmax_r). assert (Q2 : sqrt om * sqrt om = om) by (apply sqrt_sqrt, Rmax_r).
      assert (Q1 : sqrt (1 - rho_xi_sf st * rho_xi_sf st) * sqrt (1 - rho_xi_sf st * rho_xi_sf st) = 1 - rho_xi_sf st * rho_xi_sf st) by (apply sqrt_sqrt; cbn in *; nra).
      destruct (hhw_row0 c l C) as (E0 & E1 & E2 & E3).
      set (q1 := sqrt (1 - rho_xi_sf st * rho_xi_sf st)) in *. set (b0 := st_fx s0) in *. set (r := rho_xi_sf st) in *.
      apply (exp_two (n := 6) _ nodup6 _ (ln (fx b0) + (rd b0 - rf b0 - sg / 2) * dt + (ln (stock s0) + (rf b0 - r * sqrt sg * sqrt om - om / 2) * dt)) (/ exp (rd b0 * dt))
               (fun k => nth k [(sqrt sg + r * sqrt om) * sqrt dt; 0; 0; 0; q1 * sqrt om * sqrt dt; 0] 0) (fun _ => 0)); [reflexivity| |].
      * intros g'. destruct (FM s0 g') as (s' & -> & -> & ->). fold b0 r. fold sg om. rewrite <- exp_plus. unfold lin6, row6. cbn [lsum nth Nat.ltb Nat.leb Nat.eqb]. rewrite E0, E1, E2, E3. fold r q1.
        rewrite Rmult_comm. f_equal; [f_equal; cbn; ring|cbn; ring].
      * cbn [lsum nth]. replace (_ + _ / 2) with (ln (fx b0) + ln (stock s0) + rd b0 * dt).
        -- rewrite !exp_plus, !exp_ln by assumption. cbn. field. apply Rgt_not_eq, exp_pos.
        -- transitivity (ln (fx b0) + (rd b0 - rf b0 - sg / 2) * dt + (ln (stock s0) + (rf b0 - r * sqrt sg * sqrt om - om / 2) * dt) + (sqrt sg * sqrt sg + 2 * r * sqrt sg * sqrt om + (r * r + q1 * q1) * (sqrt om * sqrt om)) * (sqrt dt * sqrt dt) / 2); [rewrite Q, Q', Q1, Q2; cbn; field|cbn; field].
Qed.
Print Assumptions C70_paths.

(** The processes of the theorem on the correlation block above, for one step with a
    foreign stock and for two steps of a geometric Brownian motion. *)
Example C70_witness : let p := @Build_geometric R_numbers 1 (1 / 20) (1 / 5) in
  (exists w, forall g, discounted (fun g s dt => Ok (gbm_step p g s dt)) (fun _ => exp (- gbm_drift p * (1 / 2))) (fun s => s) (1 / 2) 2 g 1 (w g)) /\
  exists c l, cholesky4 c = Ok (Some l) /\
  let v := @Build_cir_process R_numbers 1 (1 / 10) (1 / 2) (1 / 10) in
  let q := @Build_hhw_params R_numbers 1 v (@Build_hull_white R_numbers (1 / 100) (1 / 200)) (@Build_hull_white R_numbers (1 / 50) (1 / 100)) (1 / 50) (1 / 20) (1 / 50) (1 / 20) (rho_xi_f c) in
  let st := @Build_foreign_stock R_numbers 100 v (1 / 2) (1 / 3) in let s := stock_initial q st in
  0 < fx (st_fx s) /\ 0 < stock s /\
  exists w, forall g, discounted (stock_step q st (entry l)) (fun s => / exp (rd (st_fx s) * (1 / 2))) (fun s => fx (st_fx s) * stock s) (1 / 2) 1 g s (w g).
Proof.
  cbv zeta. split.
  - eexists. intros g. cbn [discounted]. eexists _, _, _. split; [reflexivity|]. split; [|reflexivity]. eexists _, _, _. split; [reflexivity|]. split; reflexivity.
  - destruct C69_witness as [(l & C) _]. eexists _, l. split; [exact C|]. split; [cbn; lra|]. split; [cbn; lra|].
    eexists. intros g. cbn [discounted]. eexists _, _, _. split; [|split; reflexivity].
    unfold stock_step, stock_step_with_noise. rewrite (step_open (1 / 2)) by lra. cbn [obind sample_normal]. reflexivity.
Qed.
