(** C87: the smile calibrators of the cross-currency models. *)
From Coq Require Import Bool List Arith Reals Lra Lia Psatz.
Import ListNotations.
From Verif Require Import Outcome ForwardPoints NelderMead NelderMeadFacts P_NelderMead Processes ProcessFacts Cholesky Normal NormalFacts BlackScholes P_BlackScholes SmileFit SmileFitFacts FxCalibrators FxCalibratorsFacts.
From Verif Require Hlmm HlmmFacts Hlmm1Chf Hlmm1Facts P_Hlmm P_Hlmm1Chf FxFmm FxFmmFacts Fmm FmmFacts Fmm1Chf Fmm1Facts P_FxFmm P_Fmm1Chf Hhw1Chf P_Hhw1Chf CosPricer TdCalibrator.
From Coquelicot Require Coquelicot.
Open Scope R_scope.

(** ** One strike *)
Definition vol_of_price (F K T D price : R) (o : option R) : Prop :=
  let black v := bs_call_forward F K v T D in
  match o with
  | Some v => / 10 ^ 8 <= v <= 5 /\
      (Rabs (black v - price) < / 10 ^ 8 \/
       exists a b, b - a < / 10 ^ 12 /\ / 10 ^ 8 <= a <= v /\ v <= b <= 5 /\
         (black a <= price \/ (a = / 10 ^ 8 /\ black a <= price + / 10 ^ 8)) /\ (price <= black b \/ (b = 5 /\ price <= black b + / 10 ^ 8)))
  | None => 0 < F -> 0 < T -> 0 < D -> price < black (/ 10 ^ 8) - / 10 ^ 8 \/ black 5 + / 10 ^ 8 < price
  end.
Lemma smile_vol_spec c F T D k o : smile_vol c F T D k = Ok o -> exists price, CosPricer.call c k D = Ok price /\ vol_of_price F k T D price o.
Proof.
  unfold smile_vol. destruct (CosPricer.call c k D) as [price| |] eqn:E; cbn [obind]; [|discriminate|discriminate]. intros H. exists price. split; [reflexivity|].
  assert (EO : bs_implied_vol price F k T D true = o) by congruence. unfold vol_of_price. destruct o as [v|]; [apply (C36_result price F k T D true (/ 10 ^ 8) v EO)|].
  intros HF HT HD. assert (KP : 0 < k). { unfold CosPricer.call, CosPricer.price_european in E. destruct (Rlt_dec 0 k); [assumption|discriminate]. }
  assert (TP : 0 < / 10 ^ 8) by (apply Rinv_0_lt_compat, pow_lt; lra). apply (proj1 (proj1 (C36_none price F k T D true (/ 10 ^ 8) HF KP HT HD TP)) EO).
Qed.
Lemma one_strike (vol : R -> outcome (option R)) k o : omapM vol [k] = Ok [o] -> vol k = Ok o.
Proof. cbn [omapM]. destruct (vol k); cbn [obind]; congruence. Qed.

(** A volatility of the model is the one whose Black price is the model's price, to the tolerance of the inversion;
    there is none only where the price is out of the range of Black prices. *)
Theorem C87_vols : forall lg,
  (forall p T k o, hhw_model_vols lg p T [k] = Ok [o] -> exists price, hhw_price_call lg p T k = Ok price /\
    vol_of_price (fx_0 (Hhw1Chf.hm p) * exp (- rf_0 (Hhw1Chf.hm p) * T) / exp (- rd_0 (Hhw1Chf.hm p) * T)) k T (exp (- rd_0 (Hhw1Chf.hm p) * T)) price o) /\
  (forall p T k o, hlmm_model_vols lg p T [k] = Ok [o] -> exists price D, hlmm_discount_factor p T = Ok D /\ hlmm_price_call lg p T k = Ok price /\ vol_of_price (Hlmm.hl_fx0 p) k T D price o) /\
  (forall p T k o, fmm_model_vols lg p T [k] = Ok [o] -> exists price D, fmm_discount_factor p T = Ok D /\ fmm_price_call lg p T k = Ok price /\ vol_of_price (FxFmm.fm_fx0 p) k T D price o).
Proof.
  intros lg. split; [|split]; intros p T k o H.
  - unfold hhw_model_vols, hhw_smile, hhw_price_call in *. destruct (hhw_pricer lg p T) as [c| |]; cbn [obind] in H |- *; [|discriminate|discriminate]. apply smile_vol_spec, one_strike, H.
  - unfold hlmm_model_vols, hlmm_price_call in *. destruct (hlmm_pricer lg p T) as [c| |]; cbn [obind] in H |- *; [|discriminate|discriminate]. destruct (hlmm_discount_factor p T) as [D| |]; cbn [obind] in H |- *; [|discriminate|discriminate].
    apply one_strike, smile_vol_spec in H. destruct H as (price & A & B). exists price, D. split; [reflexivity|]. split; [exact A|exact B].
  - unfold fmm_model_vols, fmm_price_call in *. destruct (fmm_pricer lg p T) as [c| |]; cbn [obind] in H |- *; [|discriminate|discriminate]. destruct (fmm_discount_factor p T) as [D| |]; cbn [obind] in H |- *; [|discriminate|discriminate].
    apply one_strike, smile_vol_spec in H. destruct H as (price & A & B). exists price, D. split; [reflexivity|]. split; [exact A|exact B].
Qed.
Print Assumptions C87_vols.

(** ** What is fitted and what is kept *)
Definition fitted_heston (h : cir_process R_numbers) (rho floor : R) : Prop := floor < kappa h /\ 0 < gamma h /\ 0 < theta h /\ 0 < sigma_0 h /\ -1 < rho < 1.
Definition in_range (h : cir_process R_numbers) (rho floor : R) : Prop :=
  floor + / 10 ^ 8 <= kappa h /\ / 10 ^ 8 <= gamma h /\ / 10 ^ 8 <= theta h /\ / 10 ^ 8 <= sigma_0 h /\ - (999 / 1000) <= rho <= 999 / 1000.
Definition hhw_same (p q : Hhw1Chf.hhw1) : Prop :=
  let m := Hhw1Chf.hm p in let n := Hhw1Chf.hm q in let c := Hhw1Chf.hm_corr p in let d := Hhw1Chf.hm_corr q in
  fx_0 m = fx_0 n /\ domestic m = domestic n /\ foreign m = foreign n /\ rd_0 m = rd_0 n /\ rf_0 m = rf_0 n /\ theta_d m = theta_d n /\ theta_f m = theta_f n /\ hhw_rho_xi_f m = hhw_rho_xi_f n /\
  rho_xi_d c = rho_xi_d d /\ rho_xi_f c = rho_xi_f d /\ rho_sigma_d c = rho_sigma_d d /\ rho_sigma_f c = rho_sigma_f d /\ rho_d_f c = rho_d_f d.
Definition hlmm_same (p q : Hlmm.hlmm) : Prop :=
  let c := Hlmm.hl_corr p in let d := Hlmm.hl_corr q in
  Hlmm.hl_fx0 p = Hlmm.hl_fx0 q /\ Hlmm.hl_tenor p = Hlmm.hl_tenor q /\ Hlmm.hl_dom p = Hlmm.hl_dom q /\ Hlmm.hl_for p = Hlmm.hl_for q /\
  Hlmm.xi_d c = Hlmm.xi_d d /\ Hlmm.xi_f c = Hlmm.xi_f d /\ Hlmm.cross_corr c = Hlmm.cross_corr d.
Definition fmm_same (p q : FxFmm.fx_fmm) : Prop :=
  let c := FxFmm.fm_corr p in let d := FxFmm.fm_corr q in
  FxFmm.fm_fx0 p = FxFmm.fm_fx0 q /\ FxFmm.fm_tenor p = FxFmm.fm_tenor q /\ FxFmm.fm_dom p = FxFmm.fm_dom q /\ FxFmm.fm_for p = FxFmm.fm_for q /\
  FxFmm.fc_xi_d c = FxFmm.fc_xi_d d /\ FxFmm.fc_xi_f c = FxFmm.fc_xi_f d /\ FxFmm.fc_sigma_d c = FxFmm.fc_sigma_d d /\ FxFmm.fc_sigma_f c = FxFmm.fc_sigma_f d /\ FxFmm.fc_cross c = FxFmm.fc_cross d.

Lemma reified floor x0 x1 x2 x3 x4 : 0 <= floor -> fitted_heston {| kappa := (floor + softplus x0 : num R_numbers); theta := softplus x2; gamma := softplus x1; sigma_0 := softplus x3 |} (tanh x4) floor.
Proof.
  intros F. unfold fitted_heston. cbn [kappa theta gamma sigma_0]. pose proof (softplus_pos x0). split; [change (floor < floor + softplus x0); lra|].
  split; [apply softplus_pos|]. split; [apply softplus_pos|]. split; [apply softplus_pos|apply tanh_bounds].
Qed.
Lemma reified_bounded floor gmax x0 x1 x2 x3 x4 : 0 <= floor -> 0 < gmax ->
  fitted_heston {| kappa := (floor + softplus x0 : num R_numbers); theta := softplus x2; gamma := gmax / (1 + exp (- x1)); sigma_0 := softplus x3 |} (tanh x4) floor.
Proof.
  intros F G. unfold fitted_heston. cbn [kappa theta gamma sigma_0]. pose proof (softplus_pos x0). split; [change (floor < floor + softplus x0); lra|].
  split; [apply (gamma_bounds gmax x1 G)|]. split; [apply softplus_pos|]. split; [apply softplus_pos|apply tanh_bounds].
Qed.

(** ** Opening the calibrators *)
Lemma hhw_open lg sort initial ts T floor opts res : hhw_calibrate lg sort initial ts T floor opts = Ok res ->
  0 < T /\ ts <> [] /\ 0 <= floor /\ exists a g t s, let x0 := [a; g; t; s; atanhR (clampR (- (999 / 1000)) (999 / 1000) (rho_xi_sigma (Hhw1Chf.hm_corr initial)))] in let h := heston (Hhw1Chf.hm initial) in
    fit_smile (hhw_reify initial floor) (fun _ => true) (hhw_smile lg (hhw_fwd initial T) (hhw_discount initial T) T) sort x0 ts opts = Ok res /\
    floor + softplus a = Rmax (kappa h) (floor + tiny) /\ softplus g = Rmax (gamma h) tiny /\ softplus t = Rmax (theta h) tiny /\ softplus s = Rmax (sigma_0 h) tiny.
Proof.
  intros H. unfold hhw_calibrate in H. destruct (asserts ts T floor) as [u| |] eqn:A; cbn [obind] in H; [|discriminate|discriminate]. apply asserts_inv in A. destruct A as (A & B & D).
  split; [exact A|]. split; [exact B|]. split; [exact D|]. cbv zeta in H. destruct (free_gamma_ok (heston (Hhw1Chf.hm initial))) as (g & EG & SG). rewrite EG in H.
  destruct (start_ok (heston (Hhw1Chf.hm initial)) (rho_xi_sigma (Hhw1Chf.hm_corr initial)) floor g) as (a & t & s & ES & SA & ST & SS). rewrite ES in H. cbn [obind] in H.
  exists a, g, t, s. split; [exact H|]. split; [exact SA|]. split; [exact SG|]. split; [exact ST|exact SS].
Qed.
Lemma bounded_open lg sort initial ts T floor gmax opts res : hhw_calibrate_bounded lg sort initial ts T floor gmax opts = Ok res ->
  0 < T /\ ts <> [] /\ 0 <= floor /\ 0 < gmax /\ exists a g t s, let x0 := [a; g; t; s; atanhR (clampR (- (999 / 1000)) (999 / 1000) (rho_xi_sigma (Hhw1Chf.hm_corr initial)))] in let h := heston (Hhw1Chf.hm initial) in
    fit_smile (hhw_reify_bounded initial floor gmax) (fun _ => true) (hhw_smile lg (hhw_fwd initial T) (hhw_discount initial T) T) sort x0 ts opts = Ok res /\
    floor + softplus a = Rmax (kappa h) (floor + tiny) /\ gmax / (1 + exp (- g)) = gmax * clampR (/ 10 ^ 4) (1 - / 10 ^ 4) (gamma h / gmax) /\ softplus t = Rmax (theta h) tiny /\ softplus s = Rmax (sigma_0 h) tiny.
Proof.
  intros H. unfold hhw_calibrate_bounded in H. destruct (asserts ts T floor) as [u| |] eqn:A; cbn [obind] in H; [|discriminate|discriminate]. apply asserts_inv in A. destruct A as (A & B & D).
  destruct (Rlt_dec 0 gmax) as [G|]; [|discriminate]. cbn [negb] in H.
  split; [exact A|]. split; [exact B|]. split; [exact D|]. split; [exact G|]. cbv zeta in H. destruct (bound_gamma_ok (heston (Hhw1Chf.hm initial)) gmax) as (g & EG & SG). rewrite EG in H.
  destruct (start_ok (heston (Hhw1Chf.hm initial)) (rho_xi_sigma (Hhw1Chf.hm_corr initial)) floor g) as (a & t & s & ES & SA & ST & SS). rewrite ES in H. cbn [obind] in H.
  exists a, g, t, s. split; [exact H|]. split; [exact SA|]. split; [exact SG|]. split; [exact ST|exact SS].
Qed.
Lemma hlmm_open lg sort initial ts T floor opts res : hlmm_calibrate lg sort initial ts T floor opts = Ok res ->
  0 < T /\ ts <> [] /\ 0 <= floor /\ exists D a g t s, let x0 := [a; g; t; s; atanhR (clampR (- (999 / 1000)) (999 / 1000) (Hlmm.xi_sigma (Hlmm.hl_corr initial)))] in let h := Hlmm.hl_heston initial in
    hlmm_discount_factor initial T = Ok D /\
    fit_smile (hlmm_reify initial floor) hlmm_valid (hlmm_smile lg (Hlmm.hl_fx0 initial) D T) sort x0 ts opts = Ok res /\
    floor + softplus a = Rmax (kappa h) (floor + tiny) /\ softplus g = Rmax (gamma h) tiny /\ softplus t = Rmax (theta h) tiny /\ softplus s = Rmax (sigma_0 h) tiny.
Proof.
  intros H. unfold hlmm_calibrate in H. destruct (asserts ts T floor) as [u| |] eqn:A; cbn [obind] in H; [|discriminate|discriminate]. apply asserts_inv in A. destruct A as (A & B & C).
  split; [exact A|]. split; [exact B|]. split; [exact C|]. cbv zeta in H. destruct (hlmm_discount_factor initial T) as [D| |] eqn:ED; cbn [obind] in H; [|discriminate|discriminate].
  destruct (free_gamma_ok (Hlmm.hl_heston initial)) as (g & EG & SG). rewrite EG in H.
  destruct (start_ok (Hlmm.hl_heston initial) (Hlmm.xi_sigma (Hlmm.hl_corr initial)) floor g) as (a & t & s & ES & SA & ST & SS). rewrite ES in H. cbn [obind] in H.
  exists D, a, g, t, s. split; [reflexivity|]. split; [exact H|]. split; [exact SA|]. split; [exact SG|]. split; [exact ST|exact SS].
Qed.
Lemma fmm_open lg sort initial ts T floor opts res : fmm_calibrate lg sort initial ts T floor opts = Ok res ->
  0 < T /\ ts <> [] /\ 0 <= floor /\ exists D a g t s, let x0 := [a; g; t; s; atanhR (clampR (- (999 / 1000)) (999 / 1000) (FxFmm.fc_xi_sigma (FxFmm.fm_corr initial)))] in let h := FxFmm.fm_heston initial in
    fmm_discount_factor initial T = Ok D /\
    fit_smile (fmm_reify initial floor) fmm_valid (fmm_smile lg (FxFmm.fm_fx0 initial) D T) sort x0 ts opts = Ok res /\
    floor + softplus a = Rmax (kappa h) (floor + tiny) /\ softplus g = Rmax (gamma h) tiny /\ softplus t = Rmax (theta h) tiny /\ softplus s = Rmax (sigma_0 h) tiny.
Proof.
  intros H. unfold fmm_calibrate in H. destruct (asserts ts T floor) as [u| |] eqn:A; cbn [obind] in H; [|discriminate|discriminate]. apply asserts_inv in A. destruct A as (A & B & C).
  split; [exact A|]. split; [exact B|]. split; [exact C|]. cbv zeta in H. destruct (fmm_discount_factor initial T) as [D| |] eqn:ED; cbn [obind] in H; [|discriminate|discriminate].
  destruct (free_gamma_ok (FxFmm.fm_heston initial)) as (g & EG & SG). rewrite EG in H.
  destruct (start_ok (FxFmm.fm_heston initial) (FxFmm.fc_xi_sigma (FxFmm.fm_corr initial)) floor g) as (a & t & s & ES & SA & ST & SS). rewrite ES in H. cbn [obind] in H.
  exists D, a, g, t, s. split; [reflexivity|]. split; [exact H|]. split; [exact SA|]. split; [exact SG|]. split; [exact ST|exact SS].
Qed.

Lemma hlmm_vols_eq lg p T D ks : hlmm_discount_factor p T = Ok D -> hlmm_model_vols lg p T ks = vols_of (hlmm_smile lg (Hlmm.hl_fx0 p) D T) p ks.
Proof. intros E. unfold hlmm_model_vols, vols_of, hlmm_smile. destruct (hlmm_pricer lg p T); cbn [obind]; [|reflexivity|reflexivity]. rewrite E. reflexivity. Qed.
Lemma fmm_vols_eq lg p T D ks : fmm_discount_factor p T = Ok D -> fmm_model_vols lg p T ks = vols_of (fmm_smile lg (FxFmm.fm_fx0 p) D T) p ks.
Proof. intros E. unfold fmm_model_vols, vols_of, fmm_smile. destruct (fmm_pricer lg p T); cbn [obind]; [|reflexivity|reflexivity]. rewrite E. reflexivity. Qed.
Lemma report_ext vols vols' ts r : (forall ks, vols ks = vols' ks) -> report vols ts r -> report vols' ts r.
Proof.
  intros E (A & [(vs & B & C)|(B & t & I & M)]); (split; [exact A|]); [left; exists vs; rewrite <- E; split; assumption|right; split; [exact B|]; exists t; rewrite <- E; split; assumption].
Qed.
Lemma hlmm_discount_same p q T : hlmm_same p q -> hlmm_discount_factor p T = hlmm_discount_factor q T.
Proof.
  intros (_ & E & _). unfold hlmm_discount_factor, Hlmm1Chf.hlmm_discounts. rewrite E.
  assert (L : forall ks acc, Hlmm1Chf.discount_loop p ks acc = Hlmm1Chf.discount_loop q ks acc) by (induction ks as [|k ks IH]; intros acc; cbn [Hlmm1Chf.discount_loop]; [reflexivity|]; rewrite E;
    destruct (Hlmm.lt_tau _ k); cbn [obind]; [|reflexivity|reflexivity]; destruct (Hlmm.pred_index k); cbn [obind]; [|reflexivity|reflexivity]; destruct (VolSurface.oindex _ _); cbn [obind]; [apply IH|reflexivity|reflexivity]).
  rewrite L. reflexivity.
Qed.
Lemma fmm_discount_same p q T : fmm_same p q -> fmm_discount_factor p T = fmm_discount_factor q T.
Proof.
  intros (_ & E & _). unfold fmm_discount_factor, Fmm1Chf.fmm_discounts. rewrite E.
  assert (L : forall ks acc, Fmm1Chf.rate_discount_loop p ks acc = Fmm1Chf.rate_discount_loop q ks acc) by (induction ks as [|k ks IH]; intros acc; cbn [Fmm1Chf.rate_discount_loop]; [reflexivity|]; rewrite E;
    destruct (Hlmm.pred_index k); cbn [obind]; [|reflexivity|reflexivity]; destruct (VolSurface.oindex _ _); cbn [obind]; [apply IH|reflexivity|reflexivity]).
  rewrite L. reflexivity.
Qed.

(** ** The fits *)
Theorem C87_hhw_fit : forall lg sort initial ts T floor opts res, @sorts_floats R_floats sort -> hhw_calibrate lg sort initial ts T floor opts = Ok res ->
  let p := fr_params res in fitted_heston (heston (Hhw1Chf.hm p)) (rho_xi_sigma (Hhw1Chf.hm_corr p)) floor /\ hhw_same p initial /\ report (hhw_model_vols lg p T) ts (fr_rmse res).
Proof.
  intros lg sort initial ts T floor opts res HS H p. destruct (hhw_open _ _ _ _ _ _ _ _ H) as (TP & NE & FP & a & g & t & s & E & _).
  destruct (fit_open _ _ _ _ _ _ _ _ HS E) as (EP & _). destruct (fit_report _ _ _ _ _ _ _ _ HS NE E) as [(_ & RP)|(V & _)]; [|discriminate].
  unfold p. rewrite EP in RP |- *. split; [apply reified, FP|]. split; [repeat split|]. exact RP.
Qed.
Print Assumptions C87_hhw_fit.

Theorem C87_bounded_fit : forall lg sort initial ts T floor gmax opts res, @sorts_floats R_floats sort -> hhw_calibrate_bounded lg sort initial ts T floor gmax opts = Ok res ->
  let p := fr_params res in fitted_heston (heston (Hhw1Chf.hm p)) (rho_xi_sigma (Hhw1Chf.hm_corr p)) floor /\ gamma (heston (Hhw1Chf.hm p)) < gmax /\ hhw_same p initial /\ report (hhw_model_vols lg p T) ts (fr_rmse res).
Proof.
  intros lg sort initial ts T floor gmax opts res HS H p. destruct (bounded_open _ _ _ _ _ _ _ _ _ H) as (TP & NE & FP & GP & a & g & t & s & E & _).
  destruct (fit_open _ _ _ _ _ _ _ _ HS E) as (EP & _). destruct (fit_report _ _ _ _ _ _ _ _ HS NE E) as [(_ & RP)|(V & _)]; [|discriminate].
  unfold p. rewrite EP in RP |- *. split; [apply reified_bounded; assumption|]. split; [apply (gamma_bounds gmax _ GP)|]. split; [repeat split|]. exact RP.
Qed.
Print Assumptions C87_bounded_fit.

(** The models with a curve of rates check the parameters of every trial; a fit to parameters that fail the check reports the penalty. *)
Theorem C87_hlmm_fit : forall lg sort initial ts T floor opts res, @sorts_floats R_floats sort -> hlmm_calibrate lg sort initial ts T floor opts = Ok res ->
  let p := fr_params res in fitted_heston (Hlmm.hl_heston p) (Hlmm.xi_sigma (Hlmm.hl_corr p)) floor /\ hlmm_same p initial /\
  ((Hlmm.hlmm_validate p = Ok tt /\ report (hlmm_model_vols lg p T) ts (fr_rmse res)) \/ (Hlmm.hlmm_validate p = Err EInvalidData /\ fr_rmse res ^ 2 * INR (length ts) = 10 ^ 6)).
Proof.
  intros lg sort initial ts T floor opts res HS H p. destruct (hlmm_open _ _ _ _ _ _ _ _ H) as (TP & NE & FP & D & a & g & t & s & ED & E & _).
  destruct (fit_open _ _ _ _ _ _ _ _ HS E) as (EP & _). pose proof (fit_report _ _ _ _ _ _ _ _ HS NE E) as RP.
  assert (SM : hlmm_same p initial) by (unfold p; rewrite EP; repeat split).
  split; [unfold p; rewrite EP; apply reified, FP|]. split; [exact SM|]. fold p in RP. unfold hlmm_valid in RP. destruct (HlmmFacts.hlmm_validate_iff p) as (_ & [V|V]); rewrite V in RP |- *.
  - left. split; [reflexivity|]. destruct RP as [(_ & RP)|(X & _)]; [|discriminate]. refine (report_ext _ _ _ _ _ RP). intros ks. symmetry. rewrite <- (proj1 SM). apply hlmm_vols_eq. rewrite (hlmm_discount_same p initial T SM). exact ED.
  - right. split; [reflexivity|]. destruct RP as [(X & _)|(_ & _ & RP)]; [discriminate|exact RP].
Qed.
Print Assumptions C87_hlmm_fit.

Theorem C87_fmm_fit : forall lg sort initial ts T floor opts res, @sorts_floats R_floats sort -> fmm_calibrate lg sort initial ts T floor opts = Ok res ->
  let p := fr_params res in fitted_heston (FxFmm.fm_heston p) (FxFmm.fc_xi_sigma (FxFmm.fm_corr p)) floor /\ fmm_same p initial /\
  ((FxFmm.fmm_validate p = Ok tt /\ report (fmm_model_vols lg p T) ts (fr_rmse res)) \/ (FxFmm.fmm_validate p = Err EInvalidData /\ fr_rmse res ^ 2 * INR (length ts) = 10 ^ 6)).
Proof.
  intros lg sort initial ts T floor opts res HS H p. destruct (fmm_open _ _ _ _ _ _ _ _ H) as (TP & NE & FP & D & a & g & t & s & ED & E & _).
  destruct (fit_open _ _ _ _ _ _ _ _ HS E) as (EP & _). pose proof (fit_report _ _ _ _ _ _ _ _ HS NE E) as RP.
  assert (SM : fmm_same p initial) by (unfold p; rewrite EP; repeat split).
  split; [unfold p; rewrite EP; apply reified, FP|]. split; [exact SM|]. fold p in RP. unfold fmm_valid in RP. destruct (FxFmmFacts.fmm_validate_iff p) as (_ & [V|V]); rewrite V in RP |- *.
  - left. split; [reflexivity|]. destruct RP as [(_ & RP)|(X & _)]; [|discriminate]. refine (report_ext _ _ _ _ _ RP). intros ks. symmetry. rewrite <- (proj1 SM). apply fmm_vols_eq. rewrite (fmm_discount_same p initial T SM). exact ED.
  - right. split; [reflexivity|]. destruct RP as [(X & _)|(_ & _ & RP)]; [discriminate|exact RP].
Qed.
Print Assumptions C87_fmm_fit.

(** ** Never worse than the start *)
(** [h], [rho] are the parameters [h0], [rho0] moved into the range of the search. *)
Definition clamped_start (h h0 : cir_process R_numbers) (rho rho0 floor : R) : Prop :=
  kappa h = Rmax (kappa h0) (floor + / 10 ^ 8) /\ gamma h = Rmax (gamma h0) (/ 10 ^ 8) /\ theta h = Rmax (theta h0) (/ 10 ^ 8) /\ sigma_0 h = Rmax (sigma_0 h0) (/ 10 ^ 8) /\
  rho = (if Rlt_dec rho0 (- (999 / 1000)) then - (999 / 1000) else if Rlt_dec (999 / 1000) rho0 then 999 / 1000 else rho0).
Definition clamped_start_bounded (h h0 : cir_process R_numbers) (rho rho0 floor gmax : R) : Prop :=
  kappa h = Rmax (kappa h0) (floor + / 10 ^ 8) /\ gamma h = Rmax (gmax / 10 ^ 4) (Rmin (gamma h0) (gmax - gmax / 10 ^ 4)) /\ theta h = Rmax (theta h0) (/ 10 ^ 8) /\ sigma_0 h = Rmax (sigma_0 h0) (/ 10 ^ 8) /\
  rho = (if Rlt_dec rho0 (- (999 / 1000)) then - (999 / 1000) else if Rlt_dec (999 / 1000) rho0 then 999 / 1000 else rho0).
Lemma in_range_start h rho floor : in_range h rho floor -> clamped_start h h rho rho floor.
Proof.
  destruct h as [k th g s]. unfold in_range, clamped_start. cbn [kappa theta gamma sigma_0]. intros (A & B & D & E & F). change (num R_numbers) with R in *.
  rewrite !Rmax_left by assumption. do 4 (split; [reflexivity|]). destruct (Rlt_dec rho _); [exfalso; lra|]. destruct (Rlt_dec _ rho); [exfalso; lra|reflexivity].
Qed.
Lemma clamp_scaled gmax g : 0 < gmax -> gmax * clampR (/ 10 ^ 4) (1 - / 10 ^ 4) (g / gmax) = Rmax (gmax / 10 ^ 4) (Rmin g (gmax - gmax / 10 ^ 4)).
Proof.
  intros G. assert (E : g = gmax * (g / gmax)) by (field; lra). set (q := g / gmax) in *. rewrite E. clearbody q. clear E. unfold clampR, Rmin, Rmax.
  destruct (Rlt_dec q (/ 10 ^ 4)) as [A|A]; [|destruct (Rlt_dec (1 - / 10 ^ 4) q) as [B|B]].
  - destruct (Rle_dec (gmax * q) (gmax - gmax / 10 ^ 4)) as [L|L]; [|exfalso; apply L; nra]. destruct (Rle_dec (gmax / 10 ^ 4) (gmax * q)) as [L2|L2]; [exfalso; nra|]. unfold Rdiv. reflexivity.
  - destruct (Rle_dec (gmax * q) (gmax - gmax / 10 ^ 4)) as [L|L]; [exfalso; nra|]. destruct (Rle_dec (gmax / 10 ^ 4) (gmax - gmax / 10 ^ 4)) as [L2|L2]; [unfold Rdiv; ring|exfalso; apply L2; lra].
  - destruct (Rle_dec (gmax * q) (gmax - gmax / 10 ^ 4)) as [L|L]; [|exfalso; apply L; nra]. destruct (Rle_dec (gmax / 10 ^ 4) (gmax * q)) as [L2|L2]; [reflexivity|exfalso; apply L2; nra].
Qed.
Lemma heston_eq (h : cir_process R_numbers) (k g th s : R) : kappa h = k -> gamma h = g -> theta h = th -> sigma_0 h = s -> h = {| kappa := (k : num R_numbers); theta := th; gamma := g; sigma_0 := s |}.
Proof. destruct h as [k' th' g' s']. cbn [kappa theta gamma sigma_0]. intros -> -> -> ->. reflexivity. Qed.
Lemma hhw_with_eq (s b : Hhw1Chf.hhw1) k g th s0 r : hhw_same s b -> heston (Hhw1Chf.hm s) = {| kappa := (k : num R_numbers); theta := th; gamma := g; sigma_0 := s0 |} -> rho_xi_sigma (Hhw1Chf.hm_corr s) = r -> hhw_with b k g th s0 r = s.
Proof.
  destruct s as [[f h d fo rd rf td tf r1] [c0 c1 c2 c3 c4 c5]]. unfold hhw_same, hhw_with. cbn [Hhw1Chf.hm Hhw1Chf.hm_corr fx_0 heston domestic foreign rd_0 rf_0 theta_d theta_f hhw_rho_xi_f rho_xi_sigma rho_xi_d rho_xi_f rho_sigma_d rho_sigma_f rho_d_f].
  intros (-> & -> & -> & -> & -> & -> & -> & -> & -> & -> & -> & -> & ->) -> ->. reflexivity.
Qed.
Lemma hlmm_with_eq (s b : Hlmm.hlmm) k g th s0 r : hlmm_same s b -> Hlmm.hl_heston s = {| kappa := (k : num R_numbers); theta := th; gamma := g; sigma_0 := s0 |} -> Hlmm.xi_sigma (Hlmm.hl_corr s) = r -> hlmm_with b k g th s0 r = s.
Proof.
  destruct s as [f h te d fo [c0 c1 c2 c3]]. unfold hlmm_same, hlmm_with. cbn [Hlmm.hl_fx0 Hlmm.hl_heston Hlmm.hl_tenor Hlmm.hl_dom Hlmm.hl_for Hlmm.hl_corr Hlmm.xi_sigma Hlmm.xi_d Hlmm.xi_f Hlmm.cross_corr].
  intros (-> & -> & -> & -> & -> & -> & ->) -> ->. reflexivity.
Qed.
Lemma fmm_with_eq (s b : FxFmm.fx_fmm) k g th s0 r : fmm_same s b -> FxFmm.fm_heston s = {| kappa := (k : num R_numbers); theta := th; gamma := g; sigma_0 := s0 |} -> FxFmm.fc_xi_sigma (FxFmm.fm_corr s) = r -> fmm_with b k g th s0 r = s.
Proof.
  destruct s as [f h te d fo [c0 c1 c2 c3 c4 c5]]. unfold fmm_same, fmm_with. cbn [FxFmm.fm_fx0 FxFmm.fm_heston FxFmm.fm_tenor FxFmm.fm_dom FxFmm.fm_for FxFmm.fm_corr FxFmm.fc_xi_sigma FxFmm.fc_xi_d FxFmm.fc_xi_f FxFmm.fc_sigma_d FxFmm.fc_sigma_f FxFmm.fc_cross].
  intros (-> & -> & -> & -> & -> & -> & -> & -> & ->) -> ->. reflexivity.
Qed.
Lemma start_rho r r0 : r = (if Rlt_dec r0 (- (999 / 1000)) then - (999 / 1000) else if Rlt_dec (999 / 1000) r0 then 999 / 1000 else r0) -> r = tanh (atanhR (clampR (- (999 / 1000)) (999 / 1000) r0)).
Proof. intros ->. rewrite tanh_atanh by apply clamp_rho. reflexivity. Qed.

Definition no_worse (vols : list R -> outcome (list (option R))) (ts : list target) (rmse : R) (vs0 : list R) : Prop :=
  exists vs, vols (map t_strike ts) = Ok (map Some vs) /\ rmse ^ 2 * INR (length ts) = errors vs ts /\ errors vs ts <= errors vs0 ts.

(** If the model at the start has a volatility at every strike and squared errors that add to less than 1e6, then so has the
    fit and its squared errors add to no more.  The start is the initial model when its parameters are in the range of the search. *)
Theorem C87_hhw_improves : forall lg sort initial start ts T floor opts res vs0, @sorts_floats R_floats sort -> hhw_calibrate lg sort initial ts T floor opts = Ok res ->
  hhw_same start initial -> clamped_start (heston (Hhw1Chf.hm start)) (heston (Hhw1Chf.hm initial)) (rho_xi_sigma (Hhw1Chf.hm_corr start)) (rho_xi_sigma (Hhw1Chf.hm_corr initial)) floor ->
  hhw_model_vols lg start T (map t_strike ts) = Ok (map Some vs0) -> errors vs0 ts < 10 ^ 6 -> no_worse (hhw_model_vols lg (fr_params res) T) ts (fr_rmse res) vs0.
Proof.
  intros lg sort initial start ts T floor opts res vs0 HS H SM (A & B & C & D & Q) E0 L0. destruct (hhw_open _ _ _ _ _ _ _ _ H) as (TP & NE & FP & a & g & t & s & E & SA & SG & ST & SS). cbv zeta in *. fold tiny in A, B, C, D.
  destruct (fit_open _ _ _ _ _ _ _ _ HS E) as (EP & _).
  assert (EX : hhw_reify initial floor [a; g; t; s; atanhR (clampR (- (999 / 1000)) (999 / 1000) (rho_xi_sigma (Hhw1Chf.hm_corr initial)))] = start).
  { unfold hhw_reify. cbn [nth]. apply hhw_with_eq; [exact SM| |apply start_rho, Q]. apply heston_eq; [rewrite SA; exact A|rewrite SG; exact B|rewrite ST; exact C|rewrite SS; exact D]. }
  destruct (fit_improves _ _ _ _ _ _ _ _ vs0 HS NE E ltac:(reflexivity)) as (_ & IM); [rewrite EX; rewrite <- EX in E0 |- *; exact E0|exact L0|]. unfold no_worse. rewrite EP in IM |- *. exact IM.
Qed.
Print Assumptions C87_hhw_improves.

Theorem C87_bounded_improves : forall lg sort initial start ts T floor gmax opts res vs0, @sorts_floats R_floats sort -> hhw_calibrate_bounded lg sort initial ts T floor gmax opts = Ok res ->
  hhw_same start initial -> clamped_start_bounded (heston (Hhw1Chf.hm start)) (heston (Hhw1Chf.hm initial)) (rho_xi_sigma (Hhw1Chf.hm_corr start)) (rho_xi_sigma (Hhw1Chf.hm_corr initial)) floor gmax ->
  hhw_model_vols lg start T (map t_strike ts) = Ok (map Some vs0) -> errors vs0 ts < 10 ^ 6 -> no_worse (hhw_model_vols lg (fr_params res) T) ts (fr_rmse res) vs0.
Proof.
  intros lg sort initial start ts T floor gmax opts res vs0 HS H SM (A & B & C & D & Q) E0 L0. destruct (bounded_open _ _ _ _ _ _ _ _ _ H) as (TP & NE & FP & GP & a & g & t & s & E & SA & SG & ST & SS). cbv zeta in *. fold tiny in A, C, D.
  destruct (fit_open _ _ _ _ _ _ _ _ HS E) as (EP & _).
  assert (EX : hhw_reify_bounded initial floor gmax [a; g; t; s; atanhR (clampR (- (999 / 1000)) (999 / 1000) (rho_xi_sigma (Hhw1Chf.hm_corr initial)))] = start).
  { unfold hhw_reify_bounded. cbn [nth]. apply hhw_with_eq; [exact SM| |apply start_rho, Q].
    apply heston_eq; [rewrite SA; exact A|rewrite SG; rewrite B; symmetry; exact (clamp_scaled gmax (gamma (heston (Hhw1Chf.hm initial))) GP)|rewrite ST; exact C|rewrite SS; exact D]. }
  destruct (fit_improves _ _ _ _ _ _ _ _ vs0 HS NE E ltac:(reflexivity)) as (_ & IM); [rewrite EX; rewrite <- EX in E0 |- *; exact E0|exact L0|]. unfold no_worse. rewrite EP in IM |- *. exact IM.
Qed.
Print Assumptions C87_bounded_improves.

Theorem C87_hlmm_improves : forall lg sort initial start ts T floor opts res vs0, @sorts_floats R_floats sort -> hlmm_calibrate lg sort initial ts T floor opts = Ok res ->
  hlmm_same start initial -> clamped_start (Hlmm.hl_heston start) (Hlmm.hl_heston initial) (Hlmm.xi_sigma (Hlmm.hl_corr start)) (Hlmm.xi_sigma (Hlmm.hl_corr initial)) floor ->
  Hlmm.hlmm_validate start = Ok tt -> hlmm_model_vols lg start T (map t_strike ts) = Ok (map Some vs0) -> errors vs0 ts < 10 ^ 6 ->
  Hlmm.hlmm_validate (fr_params res) = Ok tt /\ no_worse (hlmm_model_vols lg (fr_params res) T) ts (fr_rmse res) vs0.
Proof.
  intros lg sort initial start ts T floor opts res vs0 HS H SM (A & B & C & D & Q) V0 E0 L0. destruct (hlmm_open _ _ _ _ _ _ _ _ H) as (TP & NE & FP & DF & a & g & t & s & ED & E & SA & SG & ST & SS). cbv zeta in *. fold tiny in A, B, C, D.
  destruct (fit_open _ _ _ _ _ _ _ _ HS E) as (EP & _).
  assert (EX : hlmm_reify initial floor [a; g; t; s; atanhR (clampR (- (999 / 1000)) (999 / 1000) (Hlmm.xi_sigma (Hlmm.hl_corr initial)))] = start).
  { unfold hlmm_reify. cbn [nth]. apply hlmm_with_eq; [exact SM| |apply start_rho, Q]. apply heston_eq; [rewrite SA; exact A|rewrite SG; exact B|rewrite ST; exact C|rewrite SS; exact D]. }
  assert (SP : hlmm_same (fr_params res) initial) by (rewrite EP; repeat split).
  rewrite (hlmm_vols_eq lg start T DF _) in E0 by (rewrite (hlmm_discount_same start initial T SM); exact ED). rewrite (proj1 SM) in E0.
  destruct (fit_improves _ _ _ _ _ _ _ _ vs0 HS NE E) as (V & IM); [rewrite EX; unfold hlmm_valid; rewrite V0; reflexivity|rewrite EX; exact E0|exact L0|].
  split; [unfold hlmm_valid in V; destruct (Hlmm.hlmm_validate (fr_params res)) as [[]| |]; [reflexivity|discriminate|discriminate]|].
  unfold no_worse. rewrite (hlmm_vols_eq lg (fr_params res) T DF _) by (rewrite (hlmm_discount_same (fr_params res) initial T SP); exact ED). rewrite (proj1 SP). exact IM.
Qed.
Print Assumptions C87_hlmm_improves.

Theorem C87_fmm_improves : forall lg sort initial start ts T floor opts res vs0, @sorts_floats R_floats sort -> fmm_calibrate lg sort initial ts T floor opts = Ok res ->
  fmm_same start initial -> clamped_start (FxFmm.fm_heston start) (FxFmm.fm_heston initial) (FxFmm.fc_xi_sigma (FxFmm.fm_corr start)) (FxFmm.fc_xi_sigma (FxFmm.fm_corr initial)) floor ->
  FxFmm.fmm_validate start = Ok tt -> fmm_model_vols lg start T (map t_strike ts) = Ok (map Some vs0) -> errors vs0 ts < 10 ^ 6 ->
  FxFmm.fmm_validate (fr_params res) = Ok tt /\ no_worse (fmm_model_vols lg (fr_params res) T) ts (fr_rmse res) vs0.
Proof.
  intros lg sort initial start ts T floor opts res vs0 HS H SM (A & B & C & D & Q) V0 E0 L0. destruct (fmm_open _ _ _ _ _ _ _ _ H) as (TP & NE & FP & DF & a & g & t & s & ED & E & SA & SG & ST & SS). cbv zeta in *. fold tiny in A, B, C, D.
  destruct (fit_open _ _ _ _ _ _ _ _ HS E) as (EP & _).
  assert (EX : fmm_reify initial floor [a; g; t; s; atanhR (clampR (- (999 / 1000)) (999 / 1000) (FxFmm.fc_xi_sigma (FxFmm.fm_corr initial)))] = start).
  { unfold fmm_reify. cbn [nth]. apply fmm_with_eq; [exact SM| |apply start_rho, Q]. apply heston_eq; [rewrite SA; exact A|rewrite SG; exact B|rewrite ST; exact C|rewrite SS; exact D]. }
  assert (SP : fmm_same (fr_params res) initial) by (rewrite EP; repeat split).
  rewrite (fmm_vols_eq lg start T DF _) in E0 by (rewrite (fmm_discount_same start initial T SM); exact ED). rewrite (proj1 SM) in E0.
  destruct (fit_improves _ _ _ _ _ _ _ _ vs0 HS NE E) as (V & IM); [rewrite EX; unfold fmm_valid; rewrite V0; reflexivity|rewrite EX; exact E0|exact L0|].
  split; [unfold fmm_valid in V; destruct (FxFmm.fmm_validate (fr_params res)) as [[]| |]; [reflexivity|discriminate|discriminate]|].
  unfold no_worse. rewrite (fmm_vols_eq lg (fr_params res) T DF _) by (rewrite (fmm_discount_same (fr_params res) initial T SP); exact ED). rewrite (proj1 SP). exact IM.
Qed.
Print Assumptions C87_fmm_improves.

(** ** When there is a fit *)
Lemma asserts_dec ts T floor : asserts ts T floor = Ok tt \/ asserts ts T floor = Panic PAssert.
Proof. unfold asserts. destruct (Rlt_dec 0 T); [|right; reflexivity]. cbn [negb]. destruct (length ts =? 0)%nat; [right; reflexivity|]. destruct (Rle_dec 0 floor); [left|right]; reflexivity. Qed.
Lemma smile_vol_total c F T D k : 0 < k -> exists o, smile_vol c F T D k = Ok o.
Proof. intros K. unfold smile_vol, CosPricer.call, CosPricer.price_european. destruct (Rlt_dec 0 k); [|contradiction]. destruct (CosPricer.range c). cbn [obind]. eexists. reflexivity. Qed.
Lemma smile_vol_panics c F T D k : k <= 0 -> smile_vol c F T D k = Panic PAssert.
Proof. intros K. unfold smile_vol, CosPricer.call, CosPricer.price_european. destruct (Rlt_dec 0 k); [lra|reflexivity]. Qed.
Lemma hhw_pricer_total lg p T : 0 < kappa (heston (Hhw1Chf.hm p)) -> exists c, hhw_pricer lg p T = Ok c.
Proof.
  intros K. unfold hhw_pricer, Hhw1Chf.hhw1_new. destruct (proj1 (P_Hhw1Chf.C81_total lg p T 128) ltac:(lia) ltac:(reflexivity) K) as (q & -> & _). eexists. reflexivity.
Qed.
Lemma hlmm_pricer_total lg p T : (exists ds ls, Hlmm.libor_tenor_new ds ls = Ok (Hlmm.hl_tenor p)) -> Hlmm.libors (Hlmm.hl_tenor p) <> [] -> 0 < kappa (Hlmm.hl_heston p) -> 0 < T -> Hlmm.hlmm_validate p = Ok tt -> exists c, hlmm_pricer lg p T = Ok c.
Proof.
  intros TE NE K TP V. unfold hlmm_pricer, Hlmm1Chf.hlmm1_new. destruct (proj1 (P_Hlmm1Chf.C83_total lg p T 32 TE K) ltac:(lia) ltac:(reflexivity) TP V NE) as (q & -> & _). eexists. reflexivity.
Qed.
Lemma fmm_pricer_total lg p T : (exists ds rs, Fmm.tenor_new ds rs = Ok (FxFmm.fm_tenor p)) -> 0 < kappa (FxFmm.fm_heston p) -> 0 < T -> FxFmm.fmm_validate p = Ok tt -> exists c, fmm_pricer lg p T = Ok c.
Proof.
  intros TE K TP V. unfold fmm_pricer, Fmm1Chf.fmm1_new. destruct (proj1 (P_Fmm1Chf.C85_total lg p T 1 32 TE K) TP ltac:(lia) ltac:(lia) ltac:(reflexivity) V) as (q & -> & _). eexists. reflexivity.
Qed.

Lemma reify_kappa lg base floor fwd D T x : 0 <= floor -> exists vol, hhw_smile lg fwd D T (hhw_reify base floor x) = Ok vol /\ exists c, vol = smile_vol c fwd T D.
Proof.
  intros F. unfold hhw_smile. destruct (hhw_pricer_total lg (hhw_reify base floor x) T) as (c & ->); [|cbn [obind]; eexists; split; [reflexivity|eexists; reflexivity]].
  unfold hhw_reify, hhw_with. cbn [Hhw1Chf.hm heston kappa]. pose proof (softplus_pos (nth 0 x 0)). change (0 < floor + softplus (nth 0 x 0)). lra.
Qed.
Lemma reify_kappa_bounded lg base floor gmax fwd D T x : 0 <= floor -> exists vol, hhw_smile lg fwd D T (hhw_reify_bounded base floor gmax x) = Ok vol /\ exists c, vol = smile_vol c fwd T D.
Proof.
  intros F. unfold hhw_smile. destruct (hhw_pricer_total lg (hhw_reify_bounded base floor gmax x) T) as (c & ->); [|cbn [obind]; eexists; split; [reflexivity|eexists; reflexivity]].
  unfold hhw_reify_bounded, hhw_with. cbn [Hhw1Chf.hm heston kappa]. pose proof (softplus_pos (nth 0 x 0)). change (0 < floor + softplus (nth 0 x 0)). lra.
Qed.

Theorem C87_hhw_domain : forall lg sort initial ts T floor opts, @sorts_floats R_floats sort ->
  (0 < T -> ts <> [] -> 0 <= floor -> (forall t, In t ts -> 0 < t_strike t) ->
    (exists res, hhw_calibrate lg sort initial ts T floor opts = Ok res) /\ (forall gmax, 0 < gmax -> exists res, hhw_calibrate_bounded lg sort initial ts T floor gmax opts = Ok res)) /\
  (T <= 0 \/ ts = [] \/ floor < 0 \/ (exists t ts', ts = t :: ts' /\ t_strike t <= 0) ->
    hhw_calibrate lg sort initial ts T floor opts = Panic PAssert /\ forall gmax, hhw_calibrate_bounded lg sort initial ts T floor gmax opts = Panic PAssert) /\
  (forall gmax, gmax <= 0 -> hhw_calibrate_bounded lg sort initial ts T floor gmax opts = Panic PAssert).
Proof.
  intros lg sort initial ts T floor opts HS. unfold hhw_calibrate, hhw_calibrate_bounded. set (h := heston (Hhw1Chf.hm initial)). set (r := rho_xi_sigma (Hhw1Chf.hm_corr initial)).
  destruct (free_gamma_ok h) as (g & EG & _). rewrite EG. destruct (start_ok h r floor g) as (a & t & s & ES & _). rewrite ES. clear ES.
  split; [|split].
  - intros TP NE FP KP. rewrite (asserts_ok ts T floor TP NE FP). cbn [obind]. split.
    + apply fit_total; [exact HS|discriminate|exact KP|]. intros x _. destruct (reify_kappa lg initial floor (hhw_fwd initial T) (hhw_discount initial T) T x FP) as (vol & -> & c & ->). eexists. split; [reflexivity|]. intros k K. apply smile_vol_total, K.
    + intros gmax GP. destruct (Rlt_dec 0 gmax); [|contradiction]. cbn [negb]. destruct (bound_gamma_ok h gmax) as (g' & EG' & _). rewrite EG'. destruct (start_ok h r floor g') as (a' & t' & s' & -> & _). cbn [obind].
      apply fit_total; [exact HS|discriminate|exact KP|]. intros x _. destruct (reify_kappa_bounded lg initial floor gmax (hhw_fwd initial T) (hhw_discount initial T) T x FP) as (vol & -> & c & ->). eexists. split; [reflexivity|]. intros k K. apply smile_vol_total, K.
  - intros D. destruct (asserts_dec ts T floor) as [A|A]; rewrite A; cbn [obind]; [|split; [reflexivity|intros; reflexivity]].
    apply asserts_inv in A. destruct A as (TP & NE & FP). destruct D as [D|[D|[D|(t0 & ts' & -> & K)]]]; [lra|contradiction|lra|]. split.
    + apply fit_panics; [exact HS|discriminate|]. intros x. split; [reflexivity|]. destruct (reify_kappa lg initial floor (hhw_fwd initial T) (hhw_discount initial T) T x FP) as (vol & -> & c & ->). eexists. split; [reflexivity|]. apply smile_vol_panics, K.
    + intros gmax. destruct (Rlt_dec 0 gmax); [|reflexivity]. cbn [negb]. destruct (bound_gamma_ok h gmax) as (g' & EG' & _). rewrite EG'. destruct (start_ok h r floor g') as (a' & t' & s' & -> & _). cbn [obind].
      apply fit_panics; [exact HS|discriminate|]. intros x. split; [reflexivity|]. destruct (reify_kappa_bounded lg initial floor gmax (hhw_fwd initial T) (hhw_discount initial T) T x FP) as (vol & -> & c & ->). eexists. split; [reflexivity|]. apply smile_vol_panics, K.
  - intros gmax G. destruct (asserts_dec ts T floor) as [A|A]; rewrite A; cbn [obind]; [|reflexivity]. destruct (Rlt_dec 0 gmax); [lra|reflexivity].
Qed.
Print Assumptions C87_hhw_domain.

(** The check of the trials looks at the rates and the correlations only, none of which the search moves but the one it keeps
    below one: all the trials pass or none does. *)
Definition hlmm_uncorrelated (p : Hlmm.hlmm) : Hlmm.hlmm :=
  {| Hlmm.hl_fx0 := Hlmm.hl_fx0 p; Hlmm.hl_heston := Hlmm.hl_heston p; Hlmm.hl_tenor := Hlmm.hl_tenor p; Hlmm.hl_dom := Hlmm.hl_dom p; Hlmm.hl_for := Hlmm.hl_for p;
     Hlmm.hl_corr := {| Hlmm.xi_sigma := 0; Hlmm.xi_d := Hlmm.xi_d (Hlmm.hl_corr p); Hlmm.xi_f := Hlmm.xi_f (Hlmm.hl_corr p); Hlmm.cross_corr := Hlmm.cross_corr (Hlmm.hl_corr p) |} |}.
Definition fmm_uncorrelated (p : FxFmm.fx_fmm) : FxFmm.fx_fmm :=
  {| FxFmm.fm_fx0 := FxFmm.fm_fx0 p; FxFmm.fm_heston := FxFmm.fm_heston p; FxFmm.fm_tenor := FxFmm.fm_tenor p; FxFmm.fm_dom := FxFmm.fm_dom p; FxFmm.fm_for := FxFmm.fm_for p;
     FxFmm.fm_corr := {| FxFmm.fc_xi_sigma := 0; FxFmm.fc_xi_d := FxFmm.fc_xi_d (FxFmm.fm_corr p); FxFmm.fc_xi_f := FxFmm.fc_xi_f (FxFmm.fm_corr p); FxFmm.fc_sigma_d := FxFmm.fc_sigma_d (FxFmm.fm_corr p);
                         FxFmm.fc_sigma_f := FxFmm.fc_sigma_f (FxFmm.fm_corr p); FxFmm.fc_cross := FxFmm.fc_cross (FxFmm.fm_corr p) |} |}.
Lemma hlmm_valid_reify p floor x : hlmm_valid (hlmm_reify p floor x) = hlmm_valid (hlmm_uncorrelated p).
Proof.
  unfold hlmm_valid. pose proof (tanh_bounds (nth 4 x 0)) as TB. pose proof HlmmFacts.slack_pos as SP.
  assert (I : HlmmFacts.hlmm_ok (hlmm_reify p floor x) <-> HlmmFacts.hlmm_ok (hlmm_uncorrelated p)).
  { split; intros (A & B & (C & D)); (split; [exact A|]); (split; [exact B|]); (split; [|exact D]).
    - cbn [Hlmm.hl_corr hlmm_uncorrelated Hlmm.xi_sigma]. rewrite Rabs_R0. lra.
    - cbn [Hlmm.hl_corr hlmm_reify hlmm_with Hlmm.xi_sigma]. apply Rabs_le. lra. }
  destruct (HlmmFacts.hlmm_validate_iff (hlmm_reify p floor x)) as (I1 & [E1|E1]), (HlmmFacts.hlmm_validate_iff (hlmm_uncorrelated p)) as (I2 & [E2|E2]); rewrite E1, E2; try reflexivity; exfalso.
  - apply I1, I, I2 in E1. congruence.
  - apply I2, I, I1 in E2. congruence.
Qed.
Lemma fmm_valid_reify p floor x : fmm_valid (fmm_reify p floor x) = fmm_valid (fmm_uncorrelated p).
Proof.
  unfold fmm_valid. pose proof (tanh_bounds (nth 4 x 0)) as TB. pose proof HlmmFacts.slack_pos as SP.
  assert (I : FxFmmFacts.fmm_ok (fmm_reify p floor x) <-> FxFmmFacts.fmm_ok (fmm_uncorrelated p)).
  { split; intros (A & B & (C & D)); (split; [exact A|]); (split; [exact B|]); (split; [|exact D]).
    - cbn [FxFmm.fm_corr fmm_uncorrelated FxFmm.fc_xi_sigma]. rewrite Rabs_R0. lra.
    - cbn [FxFmm.fm_corr fmm_reify fmm_with FxFmm.fc_xi_sigma]. apply Rabs_le. lra. }
  destruct (FxFmmFacts.fmm_validate_iff (fmm_reify p floor x)) as (I1 & [E1|E1]), (FxFmmFacts.fmm_validate_iff (fmm_uncorrelated p)) as (I2 & [E2|E2]); rewrite E1, E2; try reflexivity; exfalso.
  - apply I1, I, I2 in E1. congruence.
  - apply I2, I, I1 in E2. congruence.
Qed.
Lemma hlmm_discount_ok p T : (exists ds ls, Hlmm.libor_tenor_new ds ls = Ok (Hlmm.hl_tenor p)) -> Hlmm.libors (Hlmm.hl_tenor p) <> [] -> exists D, hlmm_discount_factor p T = Ok D.
Proof.
  intros (ds & ls & TE) NE. pose proof (proj1 (HlmmFacts.tenor_new_iff _ _ _) TE) as [_ G]. unfold hlmm_discount_factor. destruct (Hlmm1Facts.discounts_ok p T G) as (d & -> & _); [unfold Hlmm.lt_n; apply length_pos, NE|].
  eexists. reflexivity.
Qed.
Lemma fmm_discount_ok p T : (exists ds rs, Fmm.tenor_new ds rs = Ok (FxFmm.fm_tenor p)) -> exists D, fmm_discount_factor p T = Ok D.
Proof.
  intros (ds & rs & TE). pose proof (proj1 (FmmFacts.tenor_new_spec _ _ _) TE) as [_ G]. unfold fmm_discount_factor. destruct (Fmm1Facts.discounts_ok p T G) as (d & -> & _). eexists. reflexivity.
Qed.

(** A model that fails the check of its rates is calibrated all the same, with the penalty for the error; the check never stops
    the calibration. *)
Theorem C87_hlmm_domain : forall lg sort initial ts T floor opts, @sorts_floats R_floats sort ->
  (exists ds ls, Hlmm.libor_tenor_new ds ls = Ok (Hlmm.hl_tenor initial)) -> Hlmm.libors (Hlmm.hl_tenor initial) <> [] ->
  (0 < T -> ts <> [] -> 0 <= floor -> (forall t, In t ts -> 0 < t_strike t) -> exists res, hlmm_calibrate lg sort initial ts T floor opts = Ok res) /\
  (0 < T -> ts <> [] -> 0 <= floor -> Hlmm.hlmm_validate (hlmm_uncorrelated initial) <> Ok tt ->
    exists res, hlmm_calibrate lg sort initial ts T floor opts = Ok res /\ fr_rmse res = sqrt (10 ^ 6 / INR (length ts)) /\ Hlmm.hlmm_validate (fr_params res) = Err EInvalidData) /\
  (T <= 0 \/ ts = [] \/ floor < 0 \/ (Hlmm.hlmm_validate (hlmm_uncorrelated initial) = Ok tt /\ exists t ts', ts = t :: ts' /\ t_strike t <= 0) -> hlmm_calibrate lg sort initial ts T floor opts = Panic PAssert).
Proof.
  intros lg sort initial ts T floor opts HS TE NL. unfold hlmm_calibrate. set (h := Hlmm.hl_heston initial). set (r := Hlmm.xi_sigma (Hlmm.hl_corr initial)).
  destruct (hlmm_discount_ok initial T TE NL) as (D & ED). destruct (free_gamma_ok h) as (g & EG & _). rewrite EG. destruct (start_ok h r floor g) as (a & t & s & ES & _). rewrite ES. clear ES.
  assert (SM : 0 < T -> 0 <= floor -> forall x, hlmm_valid (hlmm_reify initial floor x) = true -> exists c, hlmm_smile lg (hlmm_forward_fx initial T) D T (hlmm_reify initial floor x) = Ok (smile_vol c (hlmm_forward_fx initial T) T D)).
  { intros TP FP x V. unfold hlmm_smile. destruct (hlmm_pricer_total lg (hlmm_reify initial floor x) T TE NL) as (c & ->); [|exact TP| |cbn [obind]; eexists; reflexivity].
    - unfold hlmm_reify, hlmm_with. cbn [Hlmm.hl_heston kappa]. pose proof (softplus_pos (nth 0 x 0)). change (0 < floor + softplus (nth 0 x 0)). lra.
    - unfold hlmm_valid in V. destruct (Hlmm.hlmm_validate _) as [[]| |]; [reflexivity|discriminate|discriminate]. }
  split; [|split].
  - intros TP NE FP KP. rewrite (asserts_ok ts T floor TP NE FP). cbn [obind]. rewrite ED. cbn [obind]. apply fit_total; [exact HS|discriminate|exact KP|].
    intros x V. destruct (SM TP FP x V) as (c & ->). eexists. split; [reflexivity|]. intros k K. apply smile_vol_total, K.
  - intros TP NE FP V. rewrite (asserts_ok ts T floor TP NE FP). cbn [obind]. rewrite ED. cbn [obind].
    destruct (fit_invalid (hlmm_reify initial floor) hlmm_valid (hlmm_smile lg (hlmm_forward_fx initial T) D T) sort [a; g; t; s; atanhR (clampR (- (999 / 1000)) (999 / 1000) r)] ts opts HS ltac:(discriminate)) as (res & E & ER & EV).
    + intros x. rewrite hlmm_valid_reify. unfold hlmm_valid. destruct (Hlmm.hlmm_validate _) as [[]| |]; [contradiction|reflexivity|reflexivity].
    + exists res. split; [exact E|]. split; [exact ER|]. unfold hlmm_valid in EV. destruct (HlmmFacts.hlmm_validate_iff (fr_params res)) as (_ & [Q|Q]); rewrite Q in EV; [discriminate|exact Q].
  - intros DD. destruct (asserts_dec ts T floor) as [A|A]; rewrite A; cbn [obind]; [|reflexivity]. apply asserts_inv in A. destruct A as (TP & NE & FP).
    destruct DD as [DD|[DD|[DD|(V & t0 & ts' & -> & K)]]]; [lra|contradiction|lra|]. rewrite ED. cbn [obind]. apply fit_panics; [exact HS|discriminate|].
    intros x. assert (VX : hlmm_valid (hlmm_reify initial floor x) = true) by (rewrite hlmm_valid_reify; unfold hlmm_valid; rewrite V; reflexivity).
    split; [exact VX|]. destruct (SM TP FP x VX) as (c & ->). eexists. split; [reflexivity|]. apply smile_vol_panics, K.
Qed.
Print Assumptions C87_hlmm_domain.

Theorem C87_fmm_domain : forall lg sort initial ts T floor opts, @sorts_floats R_floats sort -> (exists ds rs, Fmm.tenor_new ds rs = Ok (FxFmm.fm_tenor initial)) ->
  (0 < T -> ts <> [] -> 0 <= floor -> (forall t, In t ts -> 0 < t_strike t) -> exists res, fmm_calibrate lg sort initial ts T floor opts = Ok res) /\
  (0 < T -> ts <> [] -> 0 <= floor -> FxFmm.fmm_validate (fmm_uncorrelated initial) <> Ok tt ->
    exists res, fmm_calibrate lg sort initial ts T floor opts = Ok res /\ fr_rmse res = sqrt (10 ^ 6 / INR (length ts)) /\ FxFmm.fmm_validate (fr_params res) = Err EInvalidData) /\
  (T <= 0 \/ ts = [] \/ floor < 0 \/ (FxFmm.fmm_validate (fmm_uncorrelated initial) = Ok tt /\ exists t ts', ts = t :: ts' /\ t_strike t <= 0) -> fmm_calibrate lg sort initial ts T floor opts = Panic PAssert).
Proof.
  intros lg sort initial ts T floor opts HS TE. unfold fmm_calibrate. set (h := FxFmm.fm_heston initial). set (r := FxFmm.fc_xi_sigma (FxFmm.fm_corr initial)).
  destruct (fmm_discount_ok initial T TE) as (D & ED). destruct (free_gamma_ok h) as (g & EG & _). rewrite EG. destruct (start_ok h r floor g) as (a & t & s & ES & _). rewrite ES. clear ES.
  assert (SM : 0 < T -> 0 <= floor -> forall x, fmm_valid (fmm_reify initial floor x) = true -> exists c, fmm_smile lg (fmm_forward_fx initial T) D T (fmm_reify initial floor x) = Ok (smile_vol c (fmm_forward_fx initial T) T D)).
  { intros TP FP x V. unfold fmm_smile. destruct (fmm_pricer_total lg (fmm_reify initial floor x) T TE) as (c & ->); [|exact TP| |cbn [obind]; eexists; reflexivity].
    - unfold fmm_reify, fmm_with. cbn [FxFmm.fm_heston kappa]. pose proof (softplus_pos (nth 0 x 0)). change (0 < floor + softplus (nth 0 x 0)). lra.
    - unfold fmm_valid in V. destruct (FxFmm.fmm_validate _) as [[]| |]; [reflexivity|discriminate|discriminate]. }
  split; [|split].
  - intros TP NE FP KP. rewrite (asserts_ok ts T floor TP NE FP). cbn [obind]. rewrite ED. cbn [obind]. apply fit_total; [exact HS|discriminate|exact KP|].
    intros x V. destruct (SM TP FP x V) as (c & ->). eexists. split; [reflexivity|]. intros k K. apply smile_vol_total, K.
  - intros TP NE FP V. rewrite (asserts_ok ts T floor TP NE FP). cbn [obind]. rewrite ED. cbn [obind].
    destruct (fit_invalid (fmm_reify initial floor) fmm_valid (fmm_smile lg (fmm_forward_fx initial T) D T) sort [a; g; t; s; atanhR (clampR (- (999 / 1000)) (999 / 1000) r)] ts opts HS ltac:(discriminate)) as (res & E & ER & EV).
    + intros x. rewrite fmm_valid_reify. unfold fmm_valid. destruct (FxFmm.fmm_validate _) as [[]| |]; [contradiction|reflexivity|reflexivity].
    + exists res. split; [exact E|]. split; [exact ER|]. unfold fmm_valid in EV. destruct (FxFmmFacts.fmm_validate_iff (fr_params res)) as (_ & [Q|Q]); rewrite Q in EV; [discriminate|exact Q].
  - intros DD. destruct (asserts_dec ts T floor) as [A|A]; rewrite A; cbn [obind]; [|reflexivity]. apply asserts_inv in A. destruct A as (TP & NE & FP).
    destruct DD as [DD|[DD|[DD|(V & t0 & ts' & -> & K)]]]; [lra|contradiction|lra|]. rewrite ED. cbn [obind]. apply fit_panics; [exact HS|discriminate|].
    intros x. assert (VX : fmm_valid (fmm_reify initial floor x) = true) by (rewrite fmm_valid_reify; unfold fmm_valid; rewrite V; reflexivity).
    split; [exact VX|]. destruct (SM TP FP x VX) as (c & ->). eexists. split; [reflexivity|]. apply smile_vol_panics, K.
Qed.
Print Assumptions C87_fmm_domain.

(** ** The discount factor *)
Lemma hlmm_prod te : forall ks acc, Hlmm1Facts.discount te ks acc = acc * fold_right Rmult 1 (map (fun k => / (1 + (HlmmFacts.date_k te k - HlmmFacts.date_k te (k - 1)) * nth (k - 1) (Hlmm.libors te) 0)) ks).
Proof. induction ks as [|k ks IH]; intros acc; cbn [Hlmm1Facts.discount map fold_right]; [ring|]. rewrite IH. unfold Rdiv. ring. Qed.
Lemma fmm_prod te : forall ks acc, Fmm1Facts.discount te ks acc = acc * fold_right Rmult 1 (map (fun k => / (1 + Fmm.tau te k * nth (k - 1) (Fmm.initial_rates te) 0)) ks).
Proof. induction ks as [|k ks IH]; intros acc; cbn [Fmm1Facts.discount map fold_right]; [ring|]. rewrite IH. unfold Rdiv. ring. Qed.
Definition bond (ds rates : list R) (n : nat) : R := fold_right Rmult 1 (map (fun k => / (1 + (nth k ds 0 - nth (k - 1) ds 0) * nth (k - 1) rates 0)) (seq 1 n)).

(** Up to the last tenor date the discount factor is the bond to that date, whatever the expiry; beyond it, that bond times the
    last rate compounded over the rest. *)
Theorem C87_discount : forall T,
  (forall p, (exists ds ls, Hlmm.libor_tenor_new ds ls = Ok (Hlmm.hl_tenor p)) -> Hlmm.libors (Hlmm.hl_tenor p) <> [] ->
    let ds := Hlmm.lt_dates (Hlmm.hl_tenor p) in let ls := Hlmm.libors (Hlmm.hl_tenor p) in let n := length ls in
    (T <= nth n ds 0 -> hlmm_discount_factor p T = Ok (bond ds ls n)) /\
    (nth n ds 0 + / 10 ^ 12 < T -> hlmm_discount_factor p T = Ok (bond ds ls n * exp (- nth (n - 1) ls 0 * (T - nth n ds 0))))) /\
  (forall p, (exists ds rs, Fmm.tenor_new ds rs = Ok (FxFmm.fm_tenor p)) ->
    let ds := Fmm.dates (FxFmm.fm_tenor p) in let rs := Fmm.initial_rates (FxFmm.fm_tenor p) in let n := length rs in
    (T <= nth n ds 0 -> fmm_discount_factor p T = Ok (bond ds rs n)) /\
    (nth n ds 0 + / 10 ^ 12 < T -> fmm_discount_factor p T = Ok (bond ds rs n * exp (- nth (n - 1) rs 0 * (T - nth n ds 0))))).
Proof.
  intros T. pose proof HlmmFacts.slack_pos as SP. split.
  - intros p (ds0 & ls0 & TE) NL ds ls n. pose proof (proj1 (HlmmFacts.tenor_new_iff _ _ _) TE) as [_ G]. pose proof G as (L & _ & _). unfold hlmm_discount_factor, Hlmm1Chf.hlmm_discounts.
    rewrite HlmmFacts.oindex_ok by lia. cbn [obind]. rewrite (Hlmm1Facts.discount_ok p G) by (intros k Hk; apply HlmmFacts.in_from_to in Hk; exact Hk). cbn [obind]. rewrite hlmm_prod, Rmult_1_l.
    assert (N1 : (1 <= n)%nat) by (apply length_pos, NL). change (Hlmm.lt_n (Hlmm.hl_tenor p)) with n.
    assert (EB : fold_right Rmult 1 (map (fun k => / (1 + (HlmmFacts.date_k (Hlmm.hl_tenor p) k - HlmmFacts.date_k (Hlmm.hl_tenor p) (k - 1)) * nth (k - 1) (Hlmm.libors (Hlmm.hl_tenor p)) 0)) (Hlmm.from_to 1 n)) = bond ds ls n).
    { unfold bond, Hlmm.from_to. replace (S n - 1)%nat with n by lia. reflexivity. }
    rewrite EB. split; intros H.
    + destruct (Rlt_dec _ _) as [X|X]; [exfalso; change (nth n ds 0 + Hlmm.slack < T) in X; lra|reflexivity].
    + destruct (Rlt_dec _ _) as [X|X]; [|exfalso; apply X; exact H]. destruct n as [|i] eqn:EN; [lia|]. cbn [Hlmm.pred_index obind]. rewrite HlmmFacts.oindex_ok by (unfold n, ls in EN; lia). cbn [obind]. replace (S i - 1)%nat with i by lia. reflexivity.
  - intros p (ds0 & rs0 & TE) ds rs n. pose proof (proj1 (FmmFacts.tenor_new_spec _ _ _) TE) as [_ G]. pose proof G as (N1 & L & _). unfold fmm_discount_factor, Fmm1Chf.fmm_discounts.
    rewrite HlmmFacts.oindex_ok by (unfold Fmm.m_of in *; lia). cbn [obind]. rewrite (Fmm1Facts.discount_ok p) by (intros k Hk; apply HlmmFacts.in_from_to in Hk; exact Hk). cbn [obind]. rewrite fmm_prod, Rmult_1_l.
    change (Fmm.m_of (FxFmm.fm_tenor p)) with n in *.
    assert (EB : fold_right Rmult 1 (map (fun k => / (1 + Fmm.tau (FxFmm.fm_tenor p) k * nth (k - 1) (Fmm.initial_rates (FxFmm.fm_tenor p)) 0)) (Hlmm.from_to 1 n)) = bond ds rs n).
    { unfold bond, Hlmm.from_to. replace (S n - 1)%nat with n by lia. reflexivity. }
    rewrite EB. split; intros H.
    + destruct (Rlt_dec _ _) as [X|X]; [exfalso; change (nth n ds 0 + Hlmm.slack < T) in X; lra|reflexivity].
    + destruct (Rlt_dec _ _) as [X|X]; [|exfalso; apply X; exact H]. destruct n as [|i] eqn:EN; [lia|]. cbn [Hlmm.pred_index obind]. rewrite HlmmFacts.oindex_ok by (unfold n, rs in EN; lia). cbn [obind]. replace (S i - 1)%nat with i by lia. reflexivity.
Qed.
Print Assumptions C87_discount.

(** "The domestic discount factor P_d(0, T) from the initial curve" fails before the last tenor date: at the date half a year away
    of a curve of two half years it is the bond to the year. *)
Theorem C87_discount_refuted :
  Hlmm.lt_dates (Hlmm.hl_tenor P_Hlmm.wit_hlmm) = [0; 1 / 2; 1] /\ Hlmm.libors (Hlmm.hl_tenor P_Hlmm.wit_hlmm) = [1 / 50; 1 / 40] /\
  hlmm_discount_factor P_Hlmm.wit_hlmm (1 / 2) = Ok (/ (1 + 1 / 2 * (1 / 50)) * / (1 + 1 / 2 * (1 / 40))) /\ hlmm_discount_factor P_Hlmm.wit_hlmm (1 / 2) <> Ok (/ (1 + 1 / 2 * (1 / 50))) /\
  Fmm.dates (FxFmm.fm_tenor P_FxFmm.wit_fmm) = [0; 1 / 2; 1] /\ Fmm.initial_rates (FxFmm.fm_tenor P_FxFmm.wit_fmm) = [1 / 50; 1 / 40] /\
  fmm_discount_factor P_FxFmm.wit_fmm (1 / 2) = Ok (/ (1 + 1 / 2 * (1 / 50)) * / (1 + 1 / 2 * (1 / 40))) /\ fmm_discount_factor P_FxFmm.wit_fmm (1 / 2) <> Ok (/ (1 + 1 / 2 * (1 / 50))).
Proof.
  destruct (C87_discount (1 / 2)) as (DH & DF).
  assert (EH : hlmm_discount_factor P_Hlmm.wit_hlmm (1 / 2) = Ok (/ (1 + 1 / 2 * (1 / 50)) * / (1 + 1 / 2 * (1 / 40)))).
  { rewrite (proj1 (DH P_Hlmm.wit_hlmm ltac:(exists [0; 1 / 2; 1], [1 / 50; 1 / 40]; exact P_Hlmm.wit_tenor_ok) ltac:(discriminate))); [|cbn; lra]. f_equal. unfold bond. cbn. field. }
  assert (EF : fmm_discount_factor P_FxFmm.wit_fmm (1 / 2) = Ok (/ (1 + 1 / 2 * (1 / 50)) * / (1 + 1 / 2 * (1 / 40)))).
  { rewrite (proj1 (DF P_FxFmm.wit_fmm ltac:(exists [0; 1 / 2; 1], [1 / 50; 1 / 40]; exact P_FxFmm.wit_fmm_tenor_ok))); [|cbn; lra]. f_equal. unfold bond. cbn. field. }
  assert (NE : / (1 + 1 / 2 * (1 / 50)) * / (1 + 1 / 2 * (1 / 40)) <> / (1 + 1 / 2 * (1 / 50))) by lra.
  split; [reflexivity|]. split; [reflexivity|]. split; [exact EH|]. split; [rewrite EH; congruence|]. split; [reflexivity|]. split; [reflexivity|]. split; [exact EF|]. rewrite EF; congruence.
Qed.
Print Assumptions C87_discount_refuted.

(** ** The driver *)
Lemma nm_fit_no_err sort f x0 opts e : @sorts_floats R_floats sort -> x0 <> [] -> (forall x e, f x <> Err e) -> nm_fit sort f x0 opts <> Err e.
Proof.
  intros HS NE NER H. destruct (proj2 (proj2 (C46_total R_floats sort (total_of f) x0 opts R_order HS)) NE ltac:(reflexivity)) as (m & E).
  unfold nelder_mead in E. unfold nm_fit in H. destruct (nelder_mead_run sort (total_of f) x0 opts) as [[m' s]| |]; cbn [obind] in E, H; [|discriminate|discriminate].
  destruct (find (panics f) (calls s)) as [x|]; [|discriminate]. specialize (NER x). destruct (f x) as [v|e'|w]; [discriminate|apply (NER e'); reflexivity|discriminate].
Qed.
Lemma fit_no_err {P} (reify : list R -> P) valid smile sort x0 ts opts e : @sorts_floats R_floats sort -> x0 <> [] ->
  (forall x, valid (reify x) = true -> exists c F T D, smile (reify x) = Ok (smile_vol c F T D)) -> fit_smile reify valid smile sort x0 ts opts <> Err e.
Proof.
  intros HS NE T. unfold fit_smile. assert (A : forall x e, smile_objective reify valid smile ts x <> Err e).
  { intros x e'. unfold smile_objective. cbv zeta. destruct (valid (reify x)) eqn:V; cbn [negb]; [|discriminate]. destruct (T x V) as (c & F & T' & D & ->). cbn [obind]. clear. generalize 0 as acc.
    induction ts as [|t ts IH]; intros acc; cbn [ssr]; [discriminate|]. destruct (Rle_dec (t_strike t) 0) as [K|K]; [rewrite smile_vol_panics by exact K; discriminate|].
    destruct (smile_vol_total c F T' D (t_strike t) ltac:(lra)) as (o & ->). cbn [obind]. destruct o; [apply IH|discriminate]. }
  destruct (nm_fit sort (smile_objective reify valid smile ts) x0 opts) as [m|e'|w] eqn:E; cbn [obind]; [discriminate| |discriminate].
  exfalso. exact (nm_fit_no_err sort _ x0 opts e' HS NE A E).
Qed.

Definition with_forward (m : TdCalibrator.strip) (F : R) : TdCalibrator.strip :=
  {| TdCalibrator.st_expiry_yf := TdCalibrator.st_expiry_yf m; TdCalibrator.st_forward := F; TdCalibrator.st_strikes := TdCalibrator.st_strikes m; TdCalibrator.st_vols := TdCalibrator.st_vols m |}.

(** The driver reads the expiry and the quotes of the strip; the forward of the strip has no say, the model uses its own.  It has an
    error to return but never does: an expired strip or one with no quotes panics. *)
Theorem C87_strip : forall lg sort m opts, @sorts_floats R_floats sort ->
  (forall initial floor gmax, (forall e, hhw_smile_calibrate lg sort initial floor gmax m opts <> Err e) /\
    (TdCalibrator.st_expiry_yf m <= 0 \/ TdCalibrator.st_strikes m = [] \/ TdCalibrator.st_vols m = [] -> hhw_smile_calibrate lg sort initial floor gmax m opts = Panic PAssert) /\
    (forall F, hhw_smile_calibrate lg sort initial floor gmax (with_forward m F) opts = hhw_smile_calibrate lg sort initial floor gmax m opts)) /\
  (forall initial floor, (exists ds ls, Hlmm.libor_tenor_new ds ls = Ok (Hlmm.hl_tenor initial)) -> Hlmm.libors (Hlmm.hl_tenor initial) <> [] -> (forall e, hlmm_smile_calibrate lg sort initial floor m opts <> Err e) /\
    (TdCalibrator.st_expiry_yf m <= 0 \/ TdCalibrator.st_strikes m = [] \/ TdCalibrator.st_vols m = [] -> hlmm_smile_calibrate lg sort initial floor m opts = Panic PAssert) /\
    (forall F, hlmm_smile_calibrate lg sort initial floor (with_forward m F) opts = hlmm_smile_calibrate lg sort initial floor m opts)) /\
  (forall initial floor, (exists ds rs, Fmm.tenor_new ds rs = Ok (FxFmm.fm_tenor initial)) -> (forall e, fmm_smile_calibrate lg sort initial floor m opts <> Err e) /\
    (TdCalibrator.st_expiry_yf m <= 0 \/ TdCalibrator.st_strikes m = [] \/ TdCalibrator.st_vols m = [] -> fmm_smile_calibrate lg sort initial floor m opts = Panic PAssert) /\
    (forall F, fmm_smile_calibrate lg sort initial floor (with_forward m F) opts = fmm_smile_calibrate lg sort initial floor m opts)).
Proof.
  intros lg sort m opts HS. set (T := TdCalibrator.st_expiry_yf m). set (ts := TdCalibrator.strip_targets m).
  assert (EM : TdCalibrator.st_strikes m = [] \/ TdCalibrator.st_vols m = [] -> ts = []).
  { unfold ts, TdCalibrator.strip_targets. intros [-> | ->]; [reflexivity|]. destruct (TdCalibrator.st_strikes m); reflexivity. }
  split; [|split].
  - intros initial floor gmax. split; [|split; [|intros F; reflexivity]].
    + intros e. unfold hhw_smile_calibrate. fold T ts. destruct gmax as [gmax|]; unfold hhw_calibrate, hhw_calibrate_bounded; (destruct (asserts_dec ts T floor) as [A|A]; rewrite A; cbn [obind]; [|discriminate]); apply asserts_inv in A; destruct A as (TP & NE & FP).
      * destruct (Rlt_dec 0 gmax); [|discriminate]. cbn [negb]. cbv zeta. destruct (bound_gamma_ok (heston (Hhw1Chf.hm initial)) gmax) as (g & EG & _). rewrite EG.
        destruct (start_ok (heston (Hhw1Chf.hm initial)) (rho_xi_sigma (Hhw1Chf.hm_corr initial)) floor g) as (a & t & s & -> & _). cbn [obind]. apply fit_no_err; [exact HS|discriminate|]. intros x _.
        destruct (reify_kappa_bounded lg initial floor gmax (hhw_fwd initial T) (hhw_discount initial T) T x FP) as (vol & -> & c & ->). do 4 eexists. reflexivity.
      * cbv zeta. destruct (free_gamma_ok (heston (Hhw1Chf.hm initial))) as (g & EG & _). rewrite EG.
        destruct (start_ok (heston (Hhw1Chf.hm initial)) (rho_xi_sigma (Hhw1Chf.hm_corr initial)) floor g) as (a & t & s & -> & _). cbn [obind]. apply fit_no_err; [exact HS|discriminate|]. intros x _.
        destruct (reify_kappa lg initial floor (hhw_fwd initial T) (hhw_discount initial T) T x FP) as (vol & -> & c & ->). do 4 eexists. reflexivity.
    + intros D. unfold hhw_smile_calibrate. fold T ts. assert (D' : T <= 0 \/ ts = [] \/ floor < 0) by (destruct D as [D|D]; [left; exact D|right; left; apply EM, D]).
      destruct gmax as [gmax|]; unfold hhw_calibrate, hhw_calibrate_bounded; rewrite (asserts_panic ts T floor D'); reflexivity.
  - intros initial floor TE NL. split; [|split; [|intros F; reflexivity]].
    + intros e. unfold hlmm_smile_calibrate. fold T ts. unfold hlmm_calibrate. destruct (asserts_dec ts T floor) as [A|A]; rewrite A; cbn [obind]; [|discriminate]. apply asserts_inv in A; destruct A as (TP & NE & FP).
      destruct (hlmm_discount_ok initial T TE NL) as (D & ->). cbn [obind]. cbv zeta. destruct (free_gamma_ok (Hlmm.hl_heston initial)) as (g & EG & _). rewrite EG.
      destruct (start_ok (Hlmm.hl_heston initial) (Hlmm.xi_sigma (Hlmm.hl_corr initial)) floor g) as (a & t & s & -> & _). cbn [obind]. apply fit_no_err; [exact HS|discriminate|]. intros x V. unfold hlmm_smile.
      destruct (hlmm_pricer_total lg (hlmm_reify initial floor x) T TE NL) as (c & ->); [|exact TP| |cbn [obind]; do 4 eexists; reflexivity].
      * unfold hlmm_reify, hlmm_with. cbn [Hlmm.hl_heston kappa]. pose proof (softplus_pos (nth 0 x 0)). change (0 < floor + softplus (nth 0 x 0)). lra.
      * unfold hlmm_valid in V. destruct (Hlmm.hlmm_validate _) as [[]| |]; [reflexivity|discriminate|discriminate].
    + intros D. unfold hlmm_smile_calibrate. fold T ts. assert (D' : T <= 0 \/ ts = [] \/ floor < 0) by (destruct D as [D|D]; [left; exact D|right; left; apply EM, D]).
      unfold hlmm_calibrate. rewrite (asserts_panic ts T floor D'). reflexivity.
  - intros initial floor TE. split; [|split; [|intros F; reflexivity]].
    + intros e. unfold fmm_smile_calibrate. fold T ts. unfold fmm_calibrate. destruct (asserts_dec ts T floor) as [A|A]; rewrite A; cbn [obind]; [|discriminate]. apply asserts_inv in A; destruct A as (TP & NE & FP).
      destruct (fmm_discount_ok initial T TE) as (D & ->). cbn [obind]. cbv zeta. destruct (free_gamma_ok (FxFmm.fm_heston initial)) as (g & EG & _). rewrite EG.
      destruct (start_ok (FxFmm.fm_heston initial) (FxFmm.fc_xi_sigma (FxFmm.fm_corr initial)) floor g) as (a & t & s & -> & _). cbn [obind]. apply fit_no_err; [exact HS|discriminate|]. intros x V. unfold fmm_smile.
      destruct (fmm_pricer_total lg (fmm_reify initial floor x) T TE) as (c & ->); [|exact TP| |cbn [obind]; do 4 eexists; reflexivity].
      * unfold fmm_reify, fmm_with. cbn [FxFmm.fm_heston kappa]. pose proof (softplus_pos (nth 0 x 0)). change (0 < floor + softplus (nth 0 x 0)). lra.
      * unfold fmm_valid in V. destruct (FxFmm.fmm_validate _) as [[]| |]; [reflexivity|discriminate|discriminate].
    + intros D. unfold fmm_smile_calibrate. fold T ts. assert (D' : T <= 0 \/ ts = [] \/ floor < 0) by (destruct D as [D|D]; [left; exact D|right; left; apply EM, D]).
      unfold fmm_calibrate. rewrite (asserts_panic ts T floor D'). reflexivity.
Qed.
Print Assumptions C87_strip.

(** ** Concrete cases *)
(** At the strike on the upper end of the range the price is zero, and a small one has a volatility. *)
Lemma edge_price c D : let (a, b) := CosPricer.range c in CosPricer.call c (exp b) D = Ok 0.
Proof.
  destruct (CosPricer.range c) as [a b] eqn:ER. unfold CosPricer.call, CosPricer.price_european. destruct (Rlt_dec 0 (exp b)) as [_|X]; [|destruct X; apply exp_pos]. rewrite ER. f_equal.
  assert (Z : forall k, CosPricer.term (CosPricer.chf c) a b (exp b) true k = 0).
  { intros k. unfold CosPricer.term. cbv zeta. rewrite ln_exp. assert (C0 : CosPricer.chi_k k a b b b = 0) by (unfold CosPricer.chi_k, Rdiv; cbv zeta; ring).
    assert (P0 : CosPricer.psi_k k a b b b = 0) by (unfold CosPricer.psi_k, Rdiv; cbv zeta; destruct (Nat.eqb k 0); ring). rewrite C0, P0. ring. }
  assert (F : forall ks acc, fold_left (fun total k => total + CosPricer.term (CosPricer.chf c) a b (exp b) true k) ks acc = acc) by (induction ks as [|k ks IH]; intros acc; cbn [fold_left]; [reflexivity|]; rewrite Z, Rplus_0_r; apply IH).
  rewrite F. ring.
Qed.
Lemma cdf_lip x y : x <= y -> cdf y - cdf x <= (y - x) / 2.
Proof.
  intros L. destruct (Req_dec x y) as [->|NE]; [lra|]. destruct (MVT_cor2 cdf (fun z => exp (- (z * z) / 2) / sqrt (2 * PI)) x y ltac:(lra)) as (z & E & _).
  - intros z _. apply Coquelicot.Derive.is_derive_Reals, (proj1 C35_normal).
  - rewrite E. assert (S2 : 2 <= sqrt (2 * PI)). { pose proof PI2_3_2. apply Rle_trans with (sqrt (2 * 2)); [rewrite sqrt_square by lra; lra|]. apply sqrt_le_1_alt. lra. }
    assert (EX : exp (- (z * z) / 2) <= 1). { rewrite <- exp_0. destruct (Req_dec z 0) as [->|]; [right; f_equal; field|]. left. apply exp_increasing. nra. }
    pose proof (exp_pos (- (z * z) / 2)). assert (B : exp (- (z * z) / 2) / sqrt (2 * PI) <= / 2).
    { apply (Rmult_le_reg_r (sqrt (2 * PI))); [lra|]. unfold Rdiv. rewrite Rmult_assoc, Rinv_l by lra. lra. }
    assert (0 <= y - x) by lra. nra.
Qed.
Lemma edge_vol c F w : CosPricer.range c = (ln F - w, ln F + w) -> 0 < F -> 0 < w -> forall t D, 0 < t -> 0 < D -> D * F * sqrt t <= 2 -> exists v, smile_vol c F t D (exp (ln F + w)) = Ok (Some v) /\ / 10 ^ 8 <= v <= 5.
Proof.
  intros ER HF HT t D Ht HD B. pose proof (edge_price c D) as EP. rewrite ER in EP. unfold smile_vol. rewrite EP. cbn [obind]. set (K := exp (ln F + w)).
  assert (KF : F <= K). { unfold K. rewrite exp_plus, exp_ln by exact HF. pose proof (exp_ineq1_le w). nra. } assert (KP : 0 < K) by lra. set (lo := / 10 ^ 8). assert (LP : 0 < lo) by (apply Rinv_0_lt_compat, pow_lt; lra).
  assert (SQ : 0 < sqrt t) by (apply sqrt_lt_R0, Ht).
  assert (LO : bs_call_forward F K lo t D <= lo).
  { unfold bs_call_forward. destruct (Rle_dec lo 0); [lra|]. destruct (Rle_dec t 0); [lra|]. cbv zeta. set (d1 := (ln (F / K) + 1 / 2 * lo * lo * t) / (lo * sqrt t)).
    assert (ST : 0 < lo * sqrt t) by (apply Rmult_lt_0_compat; assumption). pose proof (cdf_lip (d1 - lo * sqrt t) d1 ltac:(lra)) as CL. replace (d1 - (d1 - lo * sqrt t)) with (lo * sqrt t) in CL by ring.
    destruct (cdf_bounds (d1 - lo * sqrt t)) as (CP & _). set (u := cdf (d1 - lo * sqrt t)) in *. set (v := cdf d1) in *. set (z := lo * sqrt t) in *.
    assert (F * v - K * u <= F * (z / 2)) by nra.
    apply Rle_trans with (D * (F * (z / 2))); [apply Rmult_le_compat_l; lra|]. unfold z. replace (D * (F * (lo * sqrt t / 2))) with (D * F * sqrt t * (lo / 2)) by field. nra. }
  assert (HI : 0 <= bs_call_forward F K 5 t D).
  { destruct (proj1 (C35_bounds F K 5 t D HF KP ltac:(lra) Ht HD)) as (A & _). pose proof (Rmax_r (F - K) 0). nra. }
  destruct (bs_implied_vol 0 F K t D true) as [v|] eqn:E.
  - exists v. split; [reflexivity|]. apply (C36_result 0 F K t D true lo v E).
  - exfalso. apply (proj1 (C36_none 0 F K t D true lo HF KP Ht HD LP)) in E. unfold price in E. fold lo in E. lra.
Qed.

Definition wit_hhw : Hhw1Chf.hhw1 :=
  {| Hhw1Chf.hm := {| fx_0 := (135 / 100 : num R_numbers); heston := P_Hlmm.wit_heston; domestic := {| mean_reversion := (1 / 100 : num R_numbers); hw_sigma := 7 / 1000 |}; foreign := {| mean_reversion := (1 / 20 : num R_numbers); hw_sigma := 12 / 1000 |};
       rd_0 := 1 / 50; rf_0 := 1 / 20; theta_d := 1 / 50; theta_f := 1 / 20; hhw_rho_xi_f := - (15 / 100) |};
     Hhw1Chf.hm_corr := {| rho_xi_sigma := - (4 / 10); rho_xi_d := - (15 / 100); rho_xi_f := - (15 / 100); rho_sigma_d := 3 / 10; rho_sigma_f := 3 / 10; rho_d_f := 1 / 4 |} |}.

Definition few_steps : nm_options R_floats := {| max_iter := 200; ftol := / 10 ^ 10 : R_floats; xtol := / 10 ^ 8 : R_floats; step_frac := 1 / 10 : R_floats |}.
Lemma wit_in_range : in_range P_Hlmm.wit_heston (- (4 / 10)) (1 / 10).
Proof. unfold in_range, P_Hlmm.wit_heston. cbn [kappa theta gamma sigma_0]. assert (/ 10 ^ 8 <= / 100) by (apply Rinv_le_contravar; lra). change (num R_numbers) with R in *. lra. Qed.
Lemma small_error v K : / 10 ^ 8 <= v <= 5 -> errors [v] [{| t_strike := K; t_vol := 1 / 5 |}] < 10 ^ 6.
Proof. intros V. assert (0 < / 10 ^ 8) by (apply Rinv_0_lt_compat, pow_lt; lra). unfold errors. cbn [combine map fold_right fst snd t_vol]. nra. Qed.
Lemma range_of (f : CosPricer.forward_chf) : exists w, 0 < w /\ CosPricer.range (CosPricer.cos_new f) = (CosPricer.log_forward f - w, CosPricer.log_forward f + w).
Proof.
  unfold CosPricer.cos_new. eexists. split; [|reflexivity]. match goal with |- 0 < 10 * Rmax ?a ?b => pose proof (Rmax_r a b) end. assert (0 < / 10 ^ 6) by (apply Rinv_0_lt_compat, pow_lt; lra). lra.
Qed.
Lemma exp_le_1 x : x <= 0 -> exp x <= 1.
Proof. intros H. rewrite <- exp_0. destruct (Req_dec x 0) as [->|]; [lra|]. left. apply exp_increasing. lra. Qed.
Lemma same_refl_hhw p : hhw_same p p. Proof. repeat split. Qed.
Lemma same_refl_hlmm p : hlmm_same p p. Proof. repeat split. Qed.
Lemma same_refl_fmm p : fmm_same p p. Proof. repeat split. Qed.

(** Each model, started at parameters in the range, one target: there is a volatility at the start and the fit is no worse. *)
Example C87_witness : forall lg sort, @sorts_floats R_floats sort ->
  (exists K v res res', let ts := [{| t_strike := K; t_vol := 1 / 5 |}] in
    hhw_calibrate lg sort wit_hhw ts 1 (1 / 10) few_steps = Ok res /\ hhw_calibrate_bounded lg sort wit_hhw ts 1 (1 / 10) (1 / 2) few_steps = Ok res' /\
    hhw_model_vols lg wit_hhw 1 [K] = Ok [Some v] /\ no_worse (hhw_model_vols lg (fr_params res) 1) ts (fr_rmse res) [v] /\ no_worse (hhw_model_vols lg (fr_params res') 1) ts (fr_rmse res') [v]) /\
  (exists K v res, let ts := [{| t_strike := K; t_vol := 1 / 5 |}] in
    hlmm_calibrate lg sort P_Hlmm.wit_hlmm ts 1 (1 / 10) few_steps = Ok res /\ hlmm_model_vols lg P_Hlmm.wit_hlmm 1 [K] = Ok [Some v] /\ no_worse (hlmm_model_vols lg (fr_params res) 1) ts (fr_rmse res) [v]) /\
  (exists K v res, let ts := [{| t_strike := K; t_vol := 1 / 5 |}] in
    fmm_calibrate lg sort P_FxFmm.wit_fmm ts 1 (1 / 10) few_steps = Ok res /\ fmm_model_vols lg P_FxFmm.wit_fmm 1 [K] = Ok [Some v] /\ no_worse (fmm_model_vols lg (fr_params res) 1) ts (fr_rmse res) [v]).
Proof.
  intros lg sort HS. pose proof wit_in_range as IR. assert (KP : forall K (t : target), 0 < K -> In t [{| t_strike := K; t_vol := 1 / 5 |}] -> 0 < t_strike t) by (intros K t P [<-|[]]; exact P).
  assert (S1 : sqrt 1 = 1) by apply sqrt_1. split; [|split].
  - destruct (hhw_pricer_total lg wit_hhw 1) as (c & EC); [cbn; change (0 < 1 / 2); lra|]. pose proof EC as EC'. unfold hhw_pricer in EC'. destruct (Hhw1Chf.hhw1_new lg wit_hhw 1) as [q| |] eqn:EQ; cbn [obind] in EC'; [|discriminate|discriminate].
    assert (ET : Hhw1Chf.h_expiry q = 1). { unfold Hhw1Chf.hhw1_new in EQ. destruct (proj1 (P_Hhw1Chf.C81_total lg wit_hhw 1 128) ltac:(lia) ltac:(reflexivity) ltac:(cbn; change (0 < 1 / 2); lra)) as (q' & EQ' & ET & _). congruence. }
    destruct (range_of (Hhw1Chf.hhw1_forward_chf lg wit_hhw q)) as (w & WP & ER). assert (ERC : CosPricer.range c = (ln (hhw_fwd wit_hhw 1) - w, ln (hhw_fwd wit_hhw 1) + w)).
    { assert (c = CosPricer.cos_new (Hhw1Chf.hhw1_forward_chf lg wit_hhw q)) as -> by congruence. rewrite ER. cbn [CosPricer.log_forward Hhw1Chf.hhw1_forward_chf]. rewrite ET. reflexivity. }
    assert (FV : hhw_fwd wit_hhw 1 = 135 / 100 * exp (- (1 / 20) * 1) / exp (- (1 / 50) * 1)) by reflexivity. assert (DV : hhw_discount wit_hhw 1 = exp (- (1 / 50) * 1)) by reflexivity.
    pose proof (exp_pos (- (1 / 20) * 1)) as P1. pose proof (exp_pos (- (1 / 50) * 1)) as P2. pose proof (exp_le_1 (- (1 / 20) * 1) ltac:(lra)) as P3.
    assert (FP : 0 < hhw_fwd wit_hhw 1) by (rewrite FV; apply Rdiv_lt_0_compat; lra).
    destruct (edge_vol c _ w ERC FP WP 1 (hhw_discount wit_hhw 1)) as (v & EV & BV); [lra|rewrite DV; exact P2| |].
    { rewrite S1, FV, DV. replace (exp (- (1 / 50) * 1) * (135 / 100 * exp (- (1 / 20) * 1) / exp (- (1 / 50) * 1)) * 1) with (135 / 100 * exp (- (1 / 20) * 1)) by (field; lra). lra. }
    set (K := exp (ln (hhw_fwd wit_hhw 1) + w)) in *. assert (KPos : 0 < K) by apply exp_pos.
    destruct (proj1 (C87_hhw_domain lg sort wit_hhw [{| t_strike := K; t_vol := 1 / 5 |}] 1 (1 / 10) few_steps HS) ltac:(lra) ltac:(discriminate) ltac:(lra) (fun t => KP K t KPos)) as ((res & E) & BD). destruct (BD (1 / 2) ltac:(lra)) as (res' & E').
    assert (MV : hhw_model_vols lg wit_hhw 1 [K] = Ok [Some v]) by (unfold hhw_model_vols, hhw_smile; rewrite EC; cbn [obind omapM]; rewrite EV; reflexivity).
    exists K, v, res, res'. split; [exact E|]. split; [exact E'|]. split; [exact MV|]. split.
    + refine (C87_hhw_improves lg sort wit_hhw wit_hhw _ 1 (1 / 10) few_steps res [v] HS E (same_refl_hhw _) _ MV (small_error v K BV)). apply in_range_start, IR.
    + refine (C87_bounded_improves lg sort wit_hhw wit_hhw _ 1 (1 / 10) (1 / 2) few_steps res' [v] HS E' (same_refl_hhw _) _ MV (small_error v K BV)).
      destruct (in_range_start _ _ _ IR) as (A & _ & C & D & F). split; [exact A|]. split; [|split; [exact C|split; [exact D|exact F]]].
      change (3 / 10 = Rmax (1 / 2 / 10 ^ 4) (Rmin (3 / 10) (1 / 2 - 1 / 2 / 10 ^ 4))). rewrite Rmin_left by lra. rewrite Rmax_right by lra. reflexivity.
  - assert (TE : exists ds ls, Hlmm.libor_tenor_new ds ls = Ok (Hlmm.hl_tenor P_Hlmm.wit_hlmm)) by (exists [0; 1 / 2; 1], [1 / 50; 1 / 40]; exact P_Hlmm.wit_tenor_ok).
    assert (NL : Hlmm.libors (Hlmm.hl_tenor P_Hlmm.wit_hlmm) <> []) by discriminate.
    destruct (hlmm_pricer_total lg P_Hlmm.wit_hlmm 1 TE NL) as (c & EC); [cbn; change (0 < 1 / 2); lra|lra|exact P_Hlmm.wit_valid|]. pose proof EC as EC'. unfold hlmm_pricer in EC'.
    destruct (Hlmm1Chf.hlmm1_new P_Hlmm.wit_hlmm 1) as [q| |] eqn:EQ; cbn [obind] in EC'; [|discriminate|discriminate].
    destruct (range_of (Hlmm1Chf.hlmm1_forward_chf lg P_Hlmm.wit_hlmm q)) as (w & WP & ER). assert (ERC : CosPricer.range c = (ln (135 / 100) - w, ln (135 / 100) + w)).
    { assert (c = CosPricer.cos_new (Hlmm1Chf.hlmm1_forward_chf lg P_Hlmm.wit_hlmm q)) as -> by congruence. rewrite ER. reflexivity. }
    assert (ED : hlmm_discount_factor P_Hlmm.wit_hlmm 1 = Ok (/ (1 + 1 / 2 * (1 / 50)) * / (1 + 1 / 2 * (1 / 40)))).
    { rewrite (proj1 (proj1 (C87_discount 1) P_Hlmm.wit_hlmm TE NL)); [|cbn; lra]. f_equal. unfold bond. cbn. field. }
    set (D := / (1 + 1 / 2 * (1 / 50)) * / (1 + 1 / 2 * (1 / 40))) in *. assert (DB : 0 < D <= 1) by (unfold D; lra).
    destruct (edge_vol c _ w ERC ltac:(lra) WP 1 D ltac:(lra) ltac:(lra)) as (v & EV & BV); [rewrite S1; lra|]. set (K := exp (ln (135 / 100) + w)) in *. assert (KPos : 0 < K) by apply exp_pos.
    destruct (proj1 (C87_hlmm_domain lg sort P_Hlmm.wit_hlmm [{| t_strike := K; t_vol := 1 / 5 |}] 1 (1 / 10) few_steps HS TE NL) ltac:(lra) ltac:(discriminate) ltac:(lra) (fun t => KP K t KPos)) as (res & E).
    assert (MV : hlmm_model_vols lg P_Hlmm.wit_hlmm 1 [K] = Ok [Some v]) by (unfold hlmm_model_vols; rewrite EC; cbn [obind]; rewrite ED; cbn [obind omapM]; change (hlmm_forward_fx P_Hlmm.wit_hlmm 1) with (135 / 100); rewrite EV; reflexivity).
    exists K, v, res. split; [exact E|]. split; [exact MV|].
    refine (proj2 (C87_hlmm_improves lg sort P_Hlmm.wit_hlmm P_Hlmm.wit_hlmm _ 1 (1 / 10) few_steps res [v] HS E (same_refl_hlmm _) _ P_Hlmm.wit_valid MV (small_error v K BV))). apply in_range_start, IR.
  - assert (TE : exists ds rs, Fmm.tenor_new ds rs = Ok (FxFmm.fm_tenor P_FxFmm.wit_fmm)) by (exists [0; 1 / 2; 1], [1 / 50; 1 / 40]; exact P_FxFmm.wit_fmm_tenor_ok).
    destruct (fmm_pricer_total lg P_FxFmm.wit_fmm 1 TE) as (c & EC); [cbn; change (0 < 1 / 2); lra|lra|exact P_FxFmm.wit_fmm_valid|]. pose proof EC as EC'. unfold fmm_pricer in EC'.
    destruct (Fmm1Chf.fmm1_new P_FxFmm.wit_fmm 1) as [q| |] eqn:EQ; cbn [obind] in EC'; [|discriminate|discriminate].
    destruct (range_of (Fmm1Chf.fmm1_forward_chf lg P_FxFmm.wit_fmm q)) as (w & WP & ER). assert (ERC : CosPricer.range c = (ln (135 / 100) - w, ln (135 / 100) + w)).
    { assert (c = CosPricer.cos_new (Fmm1Chf.fmm1_forward_chf lg P_FxFmm.wit_fmm q)) as -> by congruence. rewrite ER. reflexivity. }
    assert (ED : fmm_discount_factor P_FxFmm.wit_fmm 1 = Ok (/ (1 + 1 / 2 * (1 / 50)) * / (1 + 1 / 2 * (1 / 40)))).
    { rewrite (proj1 (proj2 (C87_discount 1) P_FxFmm.wit_fmm TE)); [|cbn; lra]. f_equal. unfold bond. cbn. field. }
    set (D := / (1 + 1 / 2 * (1 / 50)) * / (1 + 1 / 2 * (1 / 40))) in *. assert (DB : 0 < D <= 1) by (unfold D; lra).
    destruct (edge_vol c _ w ERC ltac:(lra) WP 1 D ltac:(lra) ltac:(lra)) as (v & EV & BV); [rewrite S1; lra|]. set (K := exp (ln (135 / 100) + w)) in *. assert (KPos : 0 < K) by apply exp_pos.
    destruct (proj1 (C87_fmm_domain lg sort P_FxFmm.wit_fmm [{| t_strike := K; t_vol := 1 / 5 |}] 1 (1 / 10) few_steps HS TE) ltac:(lra) ltac:(discriminate) ltac:(lra) (fun t => KP K t KPos)) as (res & E).
    assert (MV : fmm_model_vols lg P_FxFmm.wit_fmm 1 [K] = Ok [Some v]) by (unfold fmm_model_vols; rewrite EC; cbn [obind]; rewrite ED; cbn [obind omapM]; change (fmm_forward_fx P_FxFmm.wit_fmm 1) with (135 / 100); rewrite EV; reflexivity).
    exists K, v, res. split; [exact E|]. split; [exact MV|].
    refine (proj2 (C87_fmm_improves lg sort P_FxFmm.wit_fmm P_FxFmm.wit_fmm _ 1 (1 / 10) few_steps res [v] HS E (same_refl_fmm _) _ P_FxFmm.wit_fmm_valid MV (small_error v K BV))). apply in_range_start, IR.
Qed.
Print Assumptions C87_witness.

(** A model with one rate correlation too few: the fit succeeds and reports the penalty. *)
Definition short_hlmm : Hlmm.hlmm :=
  {| Hlmm.hl_fx0 := 135 / 100; Hlmm.hl_heston := P_Hlmm.wit_heston; Hlmm.hl_tenor := Hlmm.hl_tenor P_Hlmm.wit_hlmm; Hlmm.hl_dom := Hlmm.hl_dom P_Hlmm.wit_hlmm; Hlmm.hl_for := Hlmm.hl_for P_Hlmm.wit_hlmm;
     Hlmm.hl_corr := {| Hlmm.xi_sigma := - (4 / 10); Hlmm.xi_d := [- (15 / 100)]; Hlmm.xi_f := [- (15 / 100); - (15 / 100)]; Hlmm.cross_corr := [[1 / 4; 1 / 4]; [1 / 4; 1 / 4]] |} |}.
Definition short_fmm : FxFmm.fx_fmm :=
  {| FxFmm.fm_fx0 := 135 / 100; FxFmm.fm_heston := P_Hlmm.wit_heston; FxFmm.fm_tenor := FxFmm.fm_tenor P_FxFmm.wit_fmm; FxFmm.fm_dom := FxFmm.fm_dom P_FxFmm.wit_fmm; FxFmm.fm_for := FxFmm.fm_for P_FxFmm.wit_fmm;
     FxFmm.fm_corr := {| FxFmm.fc_xi_sigma := - (4 / 10); FxFmm.fc_xi_d := [- (15 / 100)]; FxFmm.fc_xi_f := [- (15 / 100); - (15 / 100)];
                         FxFmm.fc_sigma_d := [1 / 10; 1 / 10]; FxFmm.fc_sigma_f := [1 / 10; 1 / 10]; FxFmm.fc_cross := [[1; 1]; [1; 1]] |} |}.
Example C87_witness_invalid : forall lg sort, @sorts_floats R_floats sort -> let ts := [{| t_strike := 1; t_vol := 1 / 5 |}] in
  (exists res, hlmm_calibrate lg sort short_hlmm ts 1 (1 / 10) few_steps = Ok res /\ fr_rmse res = 1000 /\ Hlmm.hlmm_validate (fr_params res) = Err EInvalidData) /\
  (exists res, fmm_calibrate lg sort short_fmm ts 1 (1 / 10) few_steps = Ok res /\ fr_rmse res = 1000 /\ FxFmm.fmm_validate (fr_params res) = Err EInvalidData).
Proof.
  intros lg sort HS ts. assert (Q : sqrt (10 ^ 6 / INR (length ts)) = 1000) by (cbn [ts length INR]; replace (10 ^ 6 / 1) with (1000 * 1000) by field; apply sqrt_square; lra). split.
  - destruct (proj1 (proj2 (C87_hlmm_domain lg sort short_hlmm ts 1 (1 / 10) few_steps HS ltac:(exists [0; 1 / 2; 1], [1 / 50; 1 / 40]; exact P_Hlmm.wit_tenor_ok) ltac:(discriminate))) ltac:(lra) ltac:(discriminate) ltac:(lra)) as (res & E & RM & V).
    + intros V. apply (proj1 (proj1 (HlmmFacts.hlmm_validate_iff _))) in V. destruct V as (_ & _ & V). red in V. destruct V as (_ & V & _). discriminate V.
    + exists res. rewrite Q in RM. split; [exact E|]. split; [exact RM|exact V].
  - destruct (proj1 (proj2 (C87_fmm_domain lg sort short_fmm ts 1 (1 / 10) few_steps HS ltac:(exists [0; 1 / 2; 1], [1 / 50; 1 / 40]; exact P_FxFmm.wit_fmm_tenor_ok))) ltac:(lra) ltac:(discriminate) ltac:(lra)) as (res & E & RM & V).
    + intros V. apply (proj1 (proj1 (FxFmmFacts.fmm_validate_iff _))) in V. destruct V as (_ & _ & V). red in V. destruct V as (_ & V & _). discriminate V.
    + exists res. rewrite Q in RM. split; [exact E|]. split; [exact RM|exact V].
Qed.
Print Assumptions C87_witness_invalid.
