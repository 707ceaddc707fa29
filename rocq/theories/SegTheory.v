(** What the loop over the segments computes, for the FX-HLMM1 and FX-FMM1 characteristic functions alike. *)
From Coq Require Import Bool List Arith Reals Psatz Lia.
Import ListNotations.
From Coquelicot Require Import Coquelicot.
From Verif Require Import Outcome ForwardPoints VolSurface Processes ProcessFacts HullWhite CosPricer Complexes CLog Hhw1Chf HestonFacts Simpson Hhw1Facts P_Hhw1Chf Hlmm HlmmFacts SegChf HestonLog Riccati SegFacts.
Open Scope R_scope.
Global Set Bullet Behavior "Strict Subproofs".

(** * Conjugate frequencies *)
Lemma Cconj_inv (a : C) : Cconj (/ a)%C = (/ Cconj a)%C.
Proof. destruct a as [a1 a2]. unfold Cinv, Cconj. cbn. apply C_eq; cbn; replace (- a2 * (- a2 * 1)) with (a2 * (a2 * 1)) by ring; unfold Rdiv; ring. Qed.
Lemma Cconj_minus a c : Cconj (a - c)%C = (Cconj a - Cconj c)%C.
Proof. unfold Cminus. rewrite Cconj_plus, Cconj_opp. reflexivity. Qed.
Lemma Cconj_div a c : Cconj (a / c)%C = (Cconj a / Cconj c)%C.
Proof. unfold Cdiv. rewrite Cconj_mult, Cconj_inv. reflexivity. Qed.
Ltac pushconj := repeat (rewrite Cconj_plus || rewrite Cconj_minus || rewrite Cconj_mult || rewrite Cconj_div || rewrite Cconj_opp || rewrite Cconj_real || rewrite <- cexp_conj).

Lemma hx_conj u k g r : hx (RtoC (- u)) k g r = Cconj (hx (RtoC u) k g r).
Proof. rewrite !hx_real. apply C_eq; cbn; ring. Qed.
Lemma hd_conj u k g r : 0 < k -> -1 <= r <= 1 -> hd (RtoC (- u)) k g r = Cconj (hd (RtoC u) k g r).
Proof.
  intros Hk Hr. unfold hd. rewrite <- csqrt_conj.
  - f_equal. rewrite hx_conj. generalize (hx (RtoC u) k g r). intros [a c]. apply C_eq; unfold I_, Cminus, Cplus, Cmult, Copp, Cconj, RtoC; cbn; ring.
  - right. apply Rlt_le. pose proof (dsq_re_pos u k g r Hk Hr) as P. unfold hd in P. rewrite csqrt_sqr in P. exact P.
Qed.
Lemma heston_a_conj u k th g r T : 0 < k -> g <> 0 -> -1 <= r <= 1 -> 0 <= T -> heston_a (RtoC (- u)) k th g r T = Cconj (heston_a (RtoC u) k th g r T).
Proof.
  intros Hk Hg Hr HT. rewrite !heston_a_pos by assumption. unfold hlog. rewrite hx_conj, hd_conj by assumption.
  assert (E : trap (Cconj (hx (RtoC u) k g r)) (Cconj (hd (RtoC u) k g r)) T = Cconj (trap (hx (RtoC u) k g r) (hd (RtoC u) k g r) T)).
  { unfold trap. pushconj. reflexivity. }
  rewrite E, cln_conj; [|apply trap_off; [apply hx_re; assumption|apply hd_re; assumption|apply hd_cone; assumption|exact HT]]. pushconj. reflexivity.
Qed.
Lemma advance_conj u l e a v0 d0 s : 0 < l -> e <> 0 -> 0 <= a -> fst d0 <= 0 -> u * snd d0 <= 0 ->
  advance_d (RtoC (- u)) l e a v0 (Cconj d0) s = (Cconj (fst (advance_d (RtoC u) l e a v0 d0 s)), Cconj (snd (advance_d (RtoC u) l e a v0 d0 s))).
Proof.
  intros Hl He Ha S1 S2. destruct (Rle_lt_dec s 0) as [H|H].
  { unfold advance_d. destruct (Rle_dec s 0); [|exfalso; lra]. cbn [fst snd]. rewrite Cconj_real. reflexivity. }
  rewrite !advance_closed by exact H. cbn [fst snd].
  assert (ED : rdelta (- u) l e a = Cconj (rdelta u l e a)).
  { unfold rdelta. rewrite <- csqrt_conj.
    - f_equal. apply C_eq; unfold I_, Cminus, Cplus, Cmult, Copp, Cconj, RtoC; cbn; ring.
    - right. unfold I_, Cplus, Cmult, RtoC. cbn [fst snd].
      assert (0 <= e * e * a) by (apply Rmult_le_pos; [nra|exact Ha]). assert (0 <= u * u) by nra. assert (0 <= e * e * a * (u * u)) by (apply Rmult_le_pos; assumption). nra. }
  assert (EN : rnum (- u) l e a (Cconj d0) = Cconj (rnum u l e a d0)) by (unfold rnum; rewrite ED; pushconj; reflexivity).
  assert (EM : rden (- u) l e a (Cconj d0) = Cconj (rden u l e a d0)) by (unfold rden; rewrite ED; pushconj; reflexivity).
  assert (EL : rell (- u) l e a (Cconj d0) = Cconj (rell u l e a d0)) by (unfold rell; rewrite EN, EM, Cconj_div; reflexivity).
  assert (ER : forall s, re (- u) l e a (Cconj d0) s = Cconj (re u l e a d0 s)) by (intros; unfold re; rewrite EL, ED; pushconj; reflexivity).
  f_equal.
  - unfold rsol. rewrite ER, EN, ED. pushconj. reflexivity.
  - assert (P : 0 < fst (re u l e a d0 s)) by (apply re_pos; assumption || lra).
    assert (P0 : 0 < fst (re u l e a d0 0)) by (apply re_pos; assumption || lra).
    unfold rlog. rewrite EL, ED, ER. rewrite <- (re_0 u l e a d0). replace (1 - Cconj (rell u l e a d0))%C with (Cconj (re u l e a d0 0)) by (rewrite re_0; pushconj; reflexivity).
    rewrite !cln_div by (first [assumption | destruct (re u l e a d0 s); assumption | destruct (re u l e a d0 0); assumption]).
    rewrite !cln_conj by (right; assumption). pushconj. reflexivity.
Qed.
Lemma sides_conj u l e v0 coef segs : 0 < l -> e <> 0 -> (forall s, In s segs -> 0 <= coef s) -> forall d0, fst d0 <= 0 -> u * snd d0 <= 0 ->
  side_end (RtoC (- u)) l e v0 coef segs (Cconj d0) = Cconj (side_end (RtoC u) l e v0 coef segs d0) /\
  side_sum (RtoC (- u)) l e v0 coef segs (Cconj d0) = Cconj (side_sum (RtoC u) l e v0 coef segs d0).
Proof.
  intros Hl He. induction segs as [|s r IH]; intros K d0 S1 S2; cbn [side_end side_sum]; [split; [reflexivity|rewrite Cconj_real; reflexivity]|].
  pose proof (K s (or_introl eq_refl)) as Ka. rewrite advance_conj by assumption. cbn [fst snd].
  destruct (advance_signs u l e v0 Hl He (coef s) d0 (sg_length s) Ka (conj S1 S2)) as [A B].
  destruct (IH (fun x Hx => K x (or_intror Hx)) _ A B) as [-> ->]. split; [reflexivity|]. rewrite Cconj_plus. reflexivity.
Qed.

(** * Frequencies the convexity vanishes at *)
Lemma advance_flat w l e a v0 s : hb w = 0%C -> 0 < l -> e <> 0 -> advance_d w l e a v0 0%C s = (RtoC 0, RtoC 0).
Proof.
  intros B Hl He. unfold advance_d. destruct (Rle_dec s 0); [reflexivity|].
  assert (U : (w * w + I_ * w)%C = 0%C) by (rewrite hb_code in B; replace (w * w + I_ * w)%C with (- - (w * w + I_ * w))%C by ring; rewrite B; ring).
  rewrite U. replace (RtoC (l * l) + RtoC (e * e * a) * 0)%C with (RtoC (l * l)) by ring. rewrite csqrt_real by nra. rewrite sqrt_square by lra.
  replace (RtoC l - RtoC l - RtoC (e * e) * 0)%C with (RtoC 0) by ring. cbv zeta.
  assert (Z : forall z, (0 / z)%C = 0%C) by (intros; unfold Cdiv; ring). rewrite Z. f_equal.
  - replace (0 * (1 - cexp (- RtoC l * RtoC s)))%C with (RtoC 0) by ring. rewrite Z. ring.
  - replace ((1 - 0 * cexp (- RtoC l * RtoC s)) / (1 - 0))%C with (RtoC 1) by (replace (1 - 0 * cexp (- RtoC l * RtoC s))%C with (RtoC 1) by ring; field; intros Q; apply (f_equal fst) in Q; cbn in Q; lra).
    rewrite cln_1. ring.
Qed.
Lemma sides_flat w l e v0 coef segs : hb w = 0%C -> 0 < l -> e <> 0 -> side_end w l e v0 coef segs 0%C = 0%C /\ side_sum w l e v0 coef segs 0%C = 0%C.
Proof.
  intros B Hl He. induction segs as [|s r IH]; cbn [side_end side_sum]; [split; reflexivity|]. rewrite advance_flat by assumption. cbn [fst snd].
  destruct IH as [-> ->]. split; [reflexivity|ring].
Qed.
Lemma heston_a_flat w k th g r x T : hb w = 0%C -> hx w k g r = RtoC x -> 0 < x -> heston_a w k th g r T = 0%C.
Proof.
  intros B X Hx. unfold heston_a. destruct (Rle_dec T 0); [reflexivity|]. cbv zeta. fold (hx w k g r). fold (hd w k g r).
  assert (D : hd w k g r = RtoC x).
  { unfold hd. rewrite X. replace (RtoC x * RtoC x - RtoC g * RtoC g * (I_ * w) * (I_ * w - 1))%C with (RtoC (x * x)).
    - rewrite csqrt_real by nra. rewrite sqrt_square by lra. reflexivity.
    - replace (RtoC x * RtoC x - RtoC g * RtoC g * (I_ * w) * (I_ * w - 1))%C with (RtoC x * RtoC x - RtoC g * RtoC g * hb w)%C by (unfold hb; ring). rewrite B, RtoC_mult. ring. }
  rewrite D, X. assert (Z : forall z, ((RtoC x - RtoC x) / z)%C = 0%C) by (intros; unfold Cdiv; ring). rewrite Z.
  replace ((1 - 0 * cexp (- RtoC x * RtoC T)) / (1 - 0))%C with (RtoC 1) by (replace (1 - 0 * cexp (- RtoC x * RtoC T))%C with (RtoC 1) by ring; field; intros Q; apply (f_equal fst) in Q; cbn in Q; lra).
  rewrite cln_1. ring.
Qed.
Lemma heston_c_flat_at w k g r T : hb w = 0%C -> heston_c w k g r T = 0%C.
Proof. intros B. destruct (Rle_lt_dec T 0); [apply heston_c_neg; assumption|]. rewrite heston_c_pos by assumption. rewrite B. unfold Cdiv. ring. Qed.

(** * The whole *)
Lemma chain_positive segs : forall prev, chain prev segs -> forall x, In x segs -> 0 < sg_length x.
Proof. induction segs as [|a r IH]; intros prev C0 x Hx; [contradiction|]. destruct C0 as (L & P & C1). destruct Hx as [<-|Hx]; [lra|]. apply (IH _ C1 x Hx). Qed.

Section Whole.
  Context (h : cir_process R_numbers) (rho ld ed vd lf ef vf : R) (fv : R -> nat -> R) (T : R) (segs : list segment).
  Definition seg_value (n : nat) (w : C) : seg_components :=
    {| s_a := (heston_a w (kappa h) (theta h) (gamma h) rho (chain_end 0 segs)
          + side_sum w ld ed vd sg_ad segs 0 + side_sum w lf ef vf sg_af segs 0
          + RtoC (- (1 / 2)) * (w * w + I_ * w) * RtoC (simpson_on fv T n 0 segs))%C;
       s_b := (I_ * w)%C; s_c := heston_c w (kappa h) (gamma h) rho T;
       s_dd := side_end w ld ed vd sg_ad segs 0; s_df := side_end w lf ef vf sg_af segs 0 |}.

  Lemma seg_flat n w x x0 s : hb w = 0%C -> hx w (kappa h) (gamma h) rho = RtoC x -> 0 < x -> 0 < ld -> 0 < lf -> ed <> 0 -> ef <> 0 ->
    seg_assemble (seg_value n w) x0 s vd vf = cexp (I_ * w * RtoC x0)%C.
  Proof.
    intros B X Hx Hld Hlf Hed Hef. unfold seg_assemble, seg_value. cbn [s_a s_b s_c s_dd s_df].
    rewrite (heston_a_flat w _ _ _ _ x _ B X Hx), (heston_c_flat_at w _ _ _ _ B).
    destruct (sides_flat w ld ed vd sg_ad segs B Hld Hed) as [-> ->]. destruct (sides_flat w lf ef vf sg_af segs B Hlf Hef) as [-> ->].
    rewrite hb_code in B. assert (U : (w * w + I_ * w)%C = 0%C) by (replace (w * w + I_ * w)%C with (- - (w * w + I_ * w))%C by ring; rewrite B; ring). rewrite U. f_equal. ring.
  Qed.

  Context (Hk : 0 < kappa h) (Hg : gamma h <> 0) (Hr : -1 <= rho <= 1) (Hld : 0 < ld) (Hed : ed <> 0) (Hlf : 0 < lf) (Hef : ef <> 0).
  Context (Ch : chain 0 segs) (Kd : forall s, In s segs -> 0 <= sg_ad s) (Kf : forall s, In s segs -> 0 <= sg_af s).

  Lemma seg_conj n u x0 s : seg_assemble (seg_value n (RtoC (- u))) x0 s vd vf = Cconj (seg_assemble (seg_value n (RtoC u)) x0 s vd vf).
  Proof.
    unfold seg_assemble, seg_value. cbn [s_a s_b s_c s_dd s_df]. rewrite <- cexp_conj. f_equal. pose proof (chain_end_ge _ _ Ch) as GE.
    assert (R0 : fst (RtoC 0) <= 0) by (cbn; lra). assert (R1 : u * snd (RtoC 0) <= 0) by (cbn; lra).
    destruct (sides_conj u ld ed vd sg_ad segs Hld Hed Kd _ R0 R1) as [D1 D2]. destruct (sides_conj u lf ef vf sg_af segs Hlf Hef Kf _ R0 R1) as [F1 F2]. rewrite Cconj_real in *.
    rewrite D1, D2, F1, F2, heston_c_conj, heston_a_conj by assumption. pushconj.
    replace (Cconj I_ * RtoC u)%C with (I_ * RtoC (- u))%C by (apply C_eq; unfold I_, Cmult, Cconj, RtoC; cbn; ring).
    replace (RtoC (- u) * RtoC (- u))%C with (RtoC u * RtoC u)%C by (apply C_eq; unfold Cmult, RtoC; cbn; ring). reflexivity.
  Qed.
  Lemma seg_modulus n u x0 s : 0 <= theta h -> 0 <= s -> 0 <= vd -> 0 <= vf ->
    Cmod (seg_assemble (seg_value n (RtoC u)) x0 s vd vf) <= exp (- (u * u / 2 * simpson_on fv T n 0 segs)).
  Proof.
    intros Ht Hs Hvd Hvf. unfold seg_assemble, seg_value. cbn [s_a s_b s_c s_dd s_df]. rewrite cexp_mod. pose proof (chain_end_ge _ _ Ch) as GE.
    pose proof (heston_a_re u (kappa h) (theta h) (gamma h) rho (chain_end 0 segs) Hk Ht Hg Hr GE) as A1.
    pose proof (heston_c_re_le u (kappa h) (gamma h) rho T Hk Hr) as A2.
    assert (S0 : signs u (RtoC 0)) by (split; cbn; lra).
    assert (LN : forall x, In x segs -> 0 < sg_length x).
    { intros x Hx. exact (chain_positive segs 0 Ch x Hx). }
    pose proof (side_a_re u ld ed vd sg_ad Hld Hed segs (RtoC 0) LN Kd S0 Hvd) as A3. pose proof (side_a_re u lf ef vf sg_af Hlf Hef segs (RtoC 0) LN Kf S0 Hvf) as A4.
    pose proof (path_signs u ld ed vd sg_ad Hld Hed segs (RtoC 0) 0 (chain_end 0 segs) Kd S0) as [A5 _]. rewrite path_end in A5 by assumption.
    pose proof (path_signs u lf ef vf sg_af Hlf Hef segs (RtoC 0) 0 (chain_end 0 segs) Kf S0) as [A6 _]. rewrite path_end in A6 by assumption.
    revert A1 A2 A3 A4 A5 A6. generalize (heston_a (RtoC u) (kappa h) (theta h) (gamma h) rho (chain_end 0 segs)) (heston_c (RtoC u) (kappa h) (gamma h) rho T)
      (side_sum (RtoC u) ld ed vd sg_ad segs (RtoC 0)) (side_sum (RtoC u) lf ef vf sg_af segs (RtoC 0)) (side_end (RtoC u) ld ed vd sg_ad segs (RtoC 0)) (side_end (RtoC u) lf ef vf sg_af segs (RtoC 0)) (simpson_on fv T n 0 segs).
    intros [a1 a2] [c1 c2] [d1 d2] [f1 f2] [g1 g2] [k1 k2] w A1 A2 A3 A4 A5 A6. unfold I_, Cplus, Cmult, RtoC. cbn [fst snd] in *.
    match goal with |- exp ?a <= exp ?b => assert (L : a <= b) by nra; destruct L as [L|L]; [left; apply exp_increasing; exact L|right; rewrite L; reflexivity] end.
  Qed.
  Lemma seg_integral n u : s_a (seg_value n (RtoC u)) =
    (RtoC (kappa h * theta h) * cint (heston_c (RtoC u) (kappa h) (gamma h) rho) 0 (chain_end 0 segs)
     + RtoC (ld * vd) * cint (path u ld ed vd sg_ad segs 0 0) 0 (chain_end 0 segs) + RtoC (lf * vf) * cint (path u lf ef vf sg_af segs 0 0) 0 (chain_end 0 segs)
     + RtoC (- (1 / 2)) * (RtoC u * RtoC u + I_ * RtoC u) * RtoC (simpson_on fv T n 0 segs))%C.
  Proof.
    unfold seg_value. cbn [s_a]. pose proof (chain_end_ge _ _ Ch) as GE. assert (S0 : signs u (RtoC 0)) by (split; cbn; lra).
    rewrite heston_a_integral by assumption. rewrite (path_integral u ld ed vd sg_ad Hld Hed segs (RtoC 0) 0 Ch Kd S0), (path_integral u lf ef vf sg_af Hlf Hef segs (RtoC 0) 0 Ch Kf S0). reflexivity.
  Qed.
End Whole.

(** * The backward equation *)
Definition affine_a (h : cir_process R_numbers) (rho ld vd lf vf : R) (Dd Df : R -> C) (G : R -> R) (u tau : R) : C :=
  (RtoC (kappa h * theta h) * cint (heston_c (RtoC u) (kappa h) (gamma h) rho) 0 tau + RtoC (ld * vd) * cint Dd 0 tau + RtoC (lf * vf) * cint Df 0 tau
   + RtoC (- (1 / 2)) * (RtoC u * RtoC u + I_ * RtoC u) * RtoC (RInt G 0 tau))%C.
Definition affine_of (h : cir_process R_numbers) (rho ld vd lf vf : R) (Dd Df : R -> C) (G : R -> R) (u T t x s yd yf : R) : C :=
  cexp (affine_a h rho ld vd lf vf Dd Df G u (T - t)%R + I_ * RtoC u * RtoC x + heston_c (RtoC u) (kappa h) (gamma h) rho (T - t)%R * RtoC s + Dd (T - t)%R * RtoC yd + Df (T - t)%R * RtoC yf)%C.

Lemma cint_derive_all f t : 0 < t -> (forall s, ccont f s) -> cderive (fun b => cint f 0 b) t (f t).
Proof. intros Ht Hc. apply (cint_derive f (t + 1)); [lra|intros s _; apply Hc]. Qed.
Lemma integral_derive (G : R -> R) E t : 0 < t < E -> ex_RInt G 0 E -> continuity_pt G t -> cderive (fun b => RtoC (RInt G 0 b)) t (RtoC (G t)).
Proof.
  intros Ht X Cn. split; cbn [fst snd RtoC].
  - apply (is_derive_RInt G (fun b => RInt G 0 b) 0 t).
    + exists (mkposreal (Rmin t (E - t)) ltac:(apply Rmin_glb_lt; lra)). intros b Hb.
      apply (@RInt_correct R_CompleteNormedModule). pose proof (Rmin_l t (E - t)). pose proof (Rmin_r t (E - t)).
      apply Rabs_def2 in Hb. unfold minus, plus, opp in Hb. cbn in Hb. apply (ex_RInt_Chasles_1 G 0 b E); [lra|exact X].
    + apply continuity_pt_filterlim, Cn.
  - auto_derive; [exact I|reflexivity].
Qed.

Lemma seg_pde_algebra (k th g r ld vd ed lf vf ef ad af f s yd yf : R) (c dd df iu u E : C) : iu = (I_ * u)%C ->
  let v := s + ad * yd + af * yf + f in
  let rate := (RtoC (k * th) * c + RtoC (ld * vd) * dd + RtoC (lf * vf) * df + RtoC (- (1 / 2)) * (u * u + iu) * RtoC f)%C in
  let c' := (RtoC (1 / 2) * (iu * iu - iu) - (RtoC k - RtoC g * RtoC r * iu) * c + RtoC (1 / 2) * (RtoC g * RtoC g) * (c * c))%C in
  let dd' := (RtoC (ad / 2) * (iu * iu - iu) - RtoC ld * dd + RtoC (ed ^ 2 / 2) * (dd * dd))%C in
  let df' := (RtoC (af / 2) * (iu * iu - iu) - RtoC lf * df + RtoC (ef ^ 2 / 2) * (df * df))%C in
  ((- rate + 0 + (- c' * RtoC s + c * 0) + (- dd' * RtoC yd + dd * 0) + (- df' * RtoC yf + df * 0)) * E
   + RtoC (v / 2) * (iu * (iu * E) - iu * E) + RtoC (k * (th - s)) * (c * E) + RtoC (g ^ 2 * s / 2) * (c * (c * E)) + RtoC (r * g * s) * (iu * (c * E))
   + RtoC (ld * (vd - yd)) * (dd * E) + RtoC (ed ^ 2 * yd / 2) * (dd * (dd * E)) + RtoC (lf * (vf - yf)) * (df * E) + RtoC (ef ^ 2 * yf / 2) * (df * (df * E)))%C = 0%C.
Proof.
  intros Hi v rate c' dd' df'.
  assert (Hu : (u * u)%C = (- (iu * iu))%C) by (rewrite Hi; destruct u as [a b]; apply C_eq; unfold I_, Cmult, Copp; cbn; ring).
  assert (P : forall a b, RtoC (a + b) = (RtoC a + RtoC b)%C) by (intros; apply C_eq; cbn; ring).
  assert (M : forall a b, RtoC (a * b) = (RtoC a * RtoC b)%C) by (intros; apply C_eq; cbn; ring).
  assert (N : forall a, RtoC (- a) = (- RtoC a)%C) by (intros; apply C_eq; cbn; ring).
  unfold v, rate, c', dd', df'. rewrite Hu. unfold Rdiv, Rminus. cbn [pow]. repeat (rewrite P || rewrite M || rewrite N).
  replace (RtoC (/ 2)) with (/ (1 + 1))%C; [|rewrite <- half_eq; apply C_eq; cbn; field]. clear Hu Hi. field. exact two_neq_0.
Qed.

Lemma seg_pde h rho ld ed vd lf ef vf (Dd Df : R -> C) (G : R -> R) (u T E t ad af : R) :
  0 < kappa h -> -1 <= rho <= 1 -> 0 < T - t < E -> (forall tau, ccont Dd tau) -> (forall tau, ccont Df tau) -> ex_RInt G 0 E -> continuity_pt G (T - t) ->
  cderive Dd (T - t) (RtoC (ad / 2) * (I_ * RtoC u * (I_ * RtoC u) - I_ * RtoC u) - RtoC ld * Dd (T - t)%R + RtoC (ed ^ 2 / 2) * (Dd (T - t)%R * Dd (T - t)%R))%C ->
  cderive Df (T - t) (RtoC (af / 2) * (I_ * RtoC u * (I_ * RtoC u) - I_ * RtoC u) - RtoC lf * Df (T - t)%R + RtoC (ef ^ 2 / 2) * (Df (T - t)%R * Df (T - t)%R))%C ->
  let V := affine_of h rho ld vd lf vf Dd Df G u T in
  exists Vx Vs Vd Vf : R -> R -> R -> R -> C,
  (forall x s yd yf, cderive (fun z => V t z s yd yf) x (Vx x s yd yf)) /\ (forall x s yd yf, cderive (fun z => V t x z yd yf) s (Vs x s yd yf)) /\
  (forall x s yd yf, cderive (fun z => V t x s z yf) yd (Vd x s yd yf)) /\ (forall x s yd yf, cderive (fun z => V t x s yd z) yf (Vf x s yd yf)) /\
  forall x s yd yf, exists Vt Vxx Vss Vsx Vdd Vff,
    cderive (fun z => V z x s yd yf) t Vt /\ cderive (fun z => Vx z s yd yf) x Vxx /\ cderive (fun z => Vs x z yd yf) s Vss /\ cderive (fun z => Vs z s yd yf) x Vsx /\
    cderive (fun z => Vd x s z yf) yd Vdd /\ cderive (fun z => Vf x s yd z) yf Vff /\
    let v := s + ad * yd + af * yf + G (T - t) in
    (Vt + RtoC (v / 2) * (Vxx - Vx x s yd yf)
     + RtoC (kappa h * (theta h - s)) * Vs x s yd yf + RtoC (gamma h ^ 2 * s / 2) * Vss + RtoC (rho * gamma h * s) * Vsx
     + RtoC (ld * (vd - yd)) * Vd x s yd yf + RtoC (ed ^ 2 * yd / 2) * Vdd
     + RtoC (lf * (vf - yf)) * Vf x s yd yf + RtoC (ef ^ 2 * yf / 2) * Vff)%C = 0%C.
Proof.
  intros Hk Hr Ht Cd Cf XG CG RD RF V.
  assert (Hcc : forall s, ccont (heston_c (RtoC u) (kappa h) (gamma h) rho) s).
  { intros s. destruct (Rle_lt_dec 0 s) as [P|P]; [apply heston_c_cont; [exact P|apply hden_neq_0; assumption]|].
    apply (ccont_ext (fun s => hclosed (RtoC u) (kappa h) (gamma h) rho (Rmax s 0))); [intros; rewrite heston_c_max; reflexivity|].
    split; apply (continuity_pt_ext_loc (fun _ => 0)); try (apply continuity_pt_const; intros ? ?; reflexivity);
    (exists (mkposreal (- s) ltac:(lra)); intros y Hy; apply Rabs_def2 in Hy; unfold minus, plus, opp in Hy; cbn in Hy; rewrite Rmax_right by lra; rewrite hclosed_0; reflexivity). }
  set (c := heston_c (RtoC u) (kappa h) (gamma h) rho (T - t)%R).
  exists (fun x s yd yf => I_ * RtoC u * V t x s yd yf)%C, (fun x s yd yf => c * V t x s yd yf)%C, (fun x s yd yf => Dd (T - t)%R * V t x s yd yf)%C, (fun x s yd yf => Df (T - t)%R * V t x s yd yf)%C.
  assert (DX : forall x s yd yf, cderive (fun z => V t z s yd yf) x (I_ * RtoC u * V t x s yd yf)%C).
  { intros x s yd yf. unfold V, affine_of. eapply cderive_eq.
    - apply cderive_exp. apply cderive_plus; [|apply cderive_const]. apply cderive_plus; [|apply cderive_const]. apply cderive_plus; [|apply cderive_const]. apply cderive_plus; [apply cderive_const|]. apply cderive_scal, cderive_id.
    - cbv beta. ring. }
  assert (DS : forall x s yd yf, cderive (fun z => V t x z yd yf) s (c * V t x s yd yf)%C).
  { intros x s yd yf. unfold V, affine_of. eapply cderive_eq.
    - apply cderive_exp. apply cderive_plus; [|apply cderive_const]. apply cderive_plus; [|apply cderive_const]. apply cderive_plus; [apply cderive_const|]. apply cderive_scal, cderive_id.
    - cbv beta. unfold c. ring. }
  assert (DD : forall x s yd yf, cderive (fun z => V t x s z yf) yd (Dd (T - t)%R * V t x s yd yf)%C).
  { intros x s yd yf. unfold V, affine_of. eapply cderive_eq.
    - apply cderive_exp. apply cderive_plus; [|apply cderive_const]. apply cderive_plus; [apply cderive_const|]. apply cderive_scal, cderive_id.
    - cbv beta. ring. }
  assert (DF : forall x s yd yf, cderive (fun z => V t x s yd z) yf (Df (T - t)%R * V t x s yd yf)%C).
  { intros x s yd yf. unfold V, affine_of. eapply cderive_eq.
    - apply cderive_exp. apply cderive_plus; [apply cderive_const|]. apply cderive_scal, cderive_id.
    - cbv beta. ring. }
  split; [exact DX|]. split; [exact DS|]. split; [exact DD|]. split; [exact DF|]. intros x s yd yf.
  assert (DA : cderive (affine_a h rho ld vd lf vf Dd Df G u) (T - t)
    (RtoC (kappa h * theta h) * c + RtoC (ld * vd) * Dd (T - t)%R + RtoC (lf * vf) * Df (T - t)%R + RtoC (- (1 / 2)) * (RtoC u * RtoC u + I_ * RtoC u) * RtoC (G (T - t)%R))%C).
  { unfold affine_a. apply cderive_plus; [|apply cderive_scal; apply (integral_derive G E); assumption]. apply cderive_plus; [apply cderive_plus|]; apply cderive_scal; apply cint_derive_all; try assumption; lra. }
  apply cderive_reflect in DA.
  pose proof (heston_c_derive (RtoC u) (kappa h) (gamma h) rho (T - t)%R ltac:(lra) ltac:(apply hden_neq_0; [exact Hk|exact Hr|lra])) as DC.
  apply cderive_reflect in DC, RD, RF.
  eexists. exists (I_ * RtoC u * (I_ * RtoC u * V t x s yd yf))%C, (c * (c * V t x s yd yf))%C, (I_ * RtoC u * (c * V t x s yd yf))%C, (Dd (T - t)%R * (Dd (T - t)%R * V t x s yd yf))%C, (Df (T - t)%R * (Df (T - t)%R * V t x s yd yf))%C.
  split; [|split; [|split; [|split; [|split; [|split]]]]].
  - unfold V, affine_of. apply cderive_exp. apply cderive_plus; [apply cderive_plus; [apply cderive_plus|]|].
    + apply cderive_plus; [exact DA|apply cderive_const].
    + apply (cderive_mult (fun t => heston_c (RtoC u) (kappa h) (gamma h) rho (T - t)%R) (fun _ => RtoC s)); [exact DC|apply cderive_const].
    + apply (cderive_mult (fun t => Dd (T - t)%R) (fun _ => RtoC yd)); [exact RD|apply cderive_const].
    + apply (cderive_mult (fun t => Df (T - t)%R) (fun _ => RtoC yf)); [exact RF|apply cderive_const].
  - apply cderive_scal, DX.
  - apply cderive_scal, DS.
  - eapply cderive_eq; [apply cderive_scal, DX|]. ring.
  - apply cderive_scal, DD.
  - apply cderive_scal, DF.
  - cbv zeta. fold c.
    change (cexp (affine_a h rho ld vd lf vf Dd Df G u (T - t)%R + I_ * RtoC u * RtoC x + c * RtoC s + Dd (T - t)%R * RtoC yd + Df (T - t)%R * RtoC yf)%C) with (V t x s yd yf).
    pose proof (seg_pde_algebra (kappa h) (theta h) (gamma h) rho ld vd ed lf vf ef ad af (G (T - t)) s yd yf c (Dd (T - t)%R) (Df (T - t)%R) (I_ * RtoC u)%C (RtoC u) (V t x s yd yf) eq_refl) as P. cbv zeta in P.
    unfold hb, hx. change (heston_c (RtoC u) (kappa h) (gamma h) rho (T - t)%R) with c. exact P.
Qed.

(** * The limit of finer and finer grids *)
Lemma clim_scal c a x : clim a x -> clim (fun m => c * a m)%C (c * x)%C.
Proof.
  intros [A B]. split; cbn [Cmult fst snd].
  - apply is_lim_seq_minus'; apply is_lim_seq_mult'; try assumption; apply is_lim_seq_const.
  - apply is_lim_seq_plus'; apply is_lim_seq_mult'; try assumption; apply is_lim_seq_const.
Qed.
Lemma clim_real a (x : R) : is_lim_seq a x -> clim (fun m => RtoC (a m)) (RtoC x).
Proof. intros A. split; cbn [fst snd RtoC]; [exact A|apply is_lim_seq_const]. Qed.
Lemma clim_ext a b x : (forall m, a m = b m) -> clim a x -> clim b x.
Proof. intros E [A B]. split; [apply (is_lim_seq_ext (fun m => fst (a m)))|apply (is_lim_seq_ext (fun m => snd (a m)))]; try assumption; intros m; rewrite E; reflexivity. Qed.

Lemma seg_limit h rho ld ed vd lf ef vf fv (G : R -> R) T segs u x0 s :
  0 < kappa h -> gamma h <> 0 -> -1 <= rho <= 1 -> 0 < ld -> ed <> 0 -> 0 < lf -> ef <> 0 ->
  chain 0 segs -> (forall s, In s segs -> 0 <= sg_ad s) -> (forall s, In s segs -> 0 <= sg_af s) -> chain_end 0 segs = T ->
  (forall s x, In s segs -> 0 <= x <= T -> continuity_pt (fun x => fv (T - x) (sg_start s)) x) ->
  (forall tau seg, in_segment 0 segs tau seg -> fv (T - tau) (sg_start seg) = G tau) ->
  clim (fun m => seg_assemble (seg_value h rho ld ed vd lf ef vf fv T segs (2 * S m) (RtoC u)) x0 s vd vf)
    (affine_of h rho ld vd lf vf (path u ld ed vd sg_ad segs 0 0) (path u lf ef vf sg_af segs 0 0) G u T 0 x0 s vd vf).
Proof.
  intros Hk Hg Hr Hld Hed Hlf Hef Ch Kd Kf ET Cn EG. unfold seg_assemble, affine_of. rewrite Rminus_0_r. apply clim_exp.
  destruct (simpson_on_lim fv T G segs 0 Ch) as [_ L]; [intros x t Hx Ht; apply Cn; [exact Hx|lra]|exact EG|]. rewrite ET in L.
  assert (A : clim (fun m => s_a (seg_value h rho ld ed vd lf ef vf fv T segs (2 * S m) (RtoC u))) (affine_a h rho ld vd lf vf (path u ld ed vd sg_ad segs 0 0) (path u lf ef vf sg_af segs 0 0) G u T)).
  { eapply clim_ext; [intros m; symmetry; apply seg_integral; assumption|]. rewrite ET. unfold affine_a. apply clim_plus; [apply clim_const|]. apply clim_scal, clim_real, L. }
  cbn [seg_value s_b s_c s_dd s_df]. assert (P1 : path u ld ed vd sg_ad segs 0 0 T = side_end (RtoC u) ld ed vd sg_ad segs 0) by (rewrite <- ET; apply path_end; exact Ch).
  assert (P2 : path u lf ef vf sg_af segs 0 0 T = side_end (RtoC u) lf ef vf sg_af segs 0) by (rewrite <- ET; apply path_end; exact Ch). rewrite P1, P2.
  apply clim_plus; [|apply clim_const]. apply clim_plus; [|apply clim_const]. apply clim_plus; [|apply clim_const]. apply clim_plus; [exact A|apply clim_const].
Qed.
