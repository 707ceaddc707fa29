(** The generalised forward market model, over the real numbers (rounding idealised away).
    Rates are numbered from one, as in the code.  The vectors of a tenor built by
    [FmmTenor::new], of a model built by [Fmm::new] and of a path of the simulator have the
    lengths the indices need, and [nth] has its default of zero only outside of them; the
    fields are public, and values with other lengths, on which the code panics, are not
    modelled. *)
From Coq Require Import Bool List Reals.
Import ListNotations.
From Verif Require Import Outcome.
Open Scope R_scope.

Definition Rltb (x y : R) : bool := if Rlt_dec x y then true else false.
Definition Rleb (x y : R) : bool := if Rle_dec x y then true else false.
(** [f64::powf] on a positive base; on other bases this is not the code's result. *)
Definition powf (x y : R) : R := Rpower x y.
Definition tiny : R := / 10 ^ 15.

(** src/models/interestrate/fmm.rs:58-64  struct FmmTenor *)
Record fmm_tenor := { dates : list R; initial_rates : list R }.

(** src/models/interestrate/fmm.rs:75-77  the loop of FmmTenor::new *)
Fixpoint increasing_dates (l : list R) : bool :=
  match l with
  | a :: ((b :: _) as l') => Rltb a b && increasing_dates l'
  | _ => true
  end.

(** src/models/interestrate/fmm.rs:67-82  FmmTenor::new *)
Definition tenor_new (ds rs : list R) : outcome fmm_tenor :=
  if negb (2 <=? length ds)%nat then Panic PAssert
  else if negb (length ds =? length rs + 1)%nat then Panic PAssert
  else if negb (Rleb 0 (nth 0 ds 0)) then Panic PAssert
  else if negb (increasing_dates ds) then Panic PAssert
  else Ok {| dates := ds; initial_rates := rs |}.

Definition date_at (te : fmm_tenor) (j : nat) : R := nth j (dates te) 0.

(** src/models/interestrate/fmm.rs:85-87  FmmTenor::m *)
Definition m_of (te : fmm_tenor) : nat := length (initial_rates te).

(** src/models/interestrate/fmm.rs:91-94  FmmTenor::tau.  Its assertion holds wherever it is
    called here: every caller has [1 <= j <= m]. *)
Definition tau (te : fmm_tenor) (j : nat) : R := date_at te j - date_at te (j - 1).

(** src/models/interestrate/fmm.rs:99-106  FmmTenor::eta *)
Definition eta (te : fmm_tenor) (t : R) : nat :=
  match find (fun j => Rleb t (date_at te j)) (seq 1 (m_of te)) with
  | Some j => j
  | None => m_of te + 1
  end.

(** src/models/interestrate/fmm.rs:118-128  LinearDecay::gamma *)
Definition gamma (j : nat) (t : R) (te : fmm_tenor) : R :=
  let lo := date_at te (j - 1) in
  let hi := date_at te j in
  if Rle_dec t lo then 1
  else if Rle_dec hi t then 0
  else (hi - t) / (hi - lo).

(** src/models/interestrate/fmm.rs:132-134  LinearDecay::big_g *)
Definition big_g (j : nat) (s big_t : R) (te : fmm_tenor) : R := gamma j s te - gamma j big_t te.

(** src/models/interestrate/fmm.rs:154-157  enum VolSchedule *)
Inductive vol_schedule :=
| PiecewiseConstant (schedules : list (list (R * R)))
| HoLeeEquivalent (vol mean_reversion : R).

(** src/models/interestrate/fmm.rs:166-172  the loop over the knots *)
Fixpoint last_knot (l : list (R * R)) (t last : R) : R :=
  match l with
  | [] => last
  | (t_start, sigma) :: l => if Rle_dec t_start t then last_knot l t sigma else last
  end.

(** src/models/interestrate/fmm.rs:160-192  VolSchedule::sigma_at *)
Definition schedule_at (s : vol_schedule) (j : nat) (t : R) (te : fmm_tenor) : outcome R :=
  match s with
  | PiecewiseConstant schedules =>
      match nth_error schedules (j - 1) with
      | None => Panic PIndex
      | Some [] => Panic PAssert
      | Some (((_, s0) :: _) as per_rate) => Ok (last_knot per_rate t s0)
      end
  | HoLeeEquivalent vol a =>
      let t_km1 := date_at te (j - 1) in
      let t_k := date_at te j in
      if Rle_dec t_k t then Ok 0
      else if Rlt_dec (Rabs a) (/ 10 ^ 12) then Ok (vol * (t_k - t_km1))
      else Ok (vol * (exp (- a * (t_km1 - t)) - exp (- a * (t_k - t))) / a)
  end.

(** src/models/interestrate/fmm.rs:207-227  struct Fmm.  [LinearDecay] has no fields. *)
Record fmm := {
  tenor : fmm_tenor; sigmas : list R; correlation : list (list R);
  betas : option (list R); schedule : option vol_schedule }.

Definition corr (c : list (list R)) (i j : nat) : R := nth j (nth i c []) 0.

(** src/models/interestrate/fmm.rs:230-264  Fmm::new.  [is_finite] holds of every real number.  Where a
    later row is too short the code's panic is that of the index. *)
Definition fmm_new (te : fmm_tenor) (ss : list R) (c : list (list R)) : outcome fmm :=
  let m := m_of te in
  if negb (length ss =? m)%nat then Panic PAssert
  else if negb (length c =? m)%nat then Panic PAssert
  else if negb (forallb (fun i =>
      (length (nth i c []) =? m)%nat &&
      Rltb (Rabs (corr c i i - 1)) (/ 10 ^ 12) &&
      forallb (fun j =>
        Rltb (Rabs (corr c i j - corr c j i)) (/ 10 ^ 12) && Rleb (Rabs (corr c i j)) (1 + / 10 ^ 12)) (seq 0 m)) (seq 0 m)) then Panic PAssert
  else if negb (forallb (fun s => Rleb 0 s) ss) then Panic PAssert
  else Ok {| tenor := te; sigmas := ss; correlation := c; betas := None; schedule := None |}.

(** src/models/interestrate/fmm.rs:270-278  Fmm::with_betas *)
Definition with_betas (f : fmm) (bs : list R) : outcome fmm :=
  if negb (length bs =? m_of (tenor f))%nat then Panic PAssert
  else if negb (forallb (fun b => Rleb 0 b && Rleb b 1) bs) then Panic PAssert
  else Ok {| tenor := tenor f; sigmas := sigmas f; correlation := correlation f; betas := Some bs; schedule := schedule f |}.

(** src/models/interestrate/fmm.rs:284-303  Fmm::with_vol_schedule *)
Definition with_vol_schedule (f : fmm) (s : vol_schedule) : outcome fmm :=
  let r := {| tenor := tenor f; sigmas := sigmas f; correlation := correlation f; betas := betas f; schedule := Some s |} in
  match s with
  | PiecewiseConstant sched =>
      if negb (length sched =? m_of (tenor f))%nat then Panic PAssert
      else if negb (forallb (fun per_rate => negb (length per_rate =? 0)%nat && increasing_dates (map fst per_rate)) sched) then Panic PAssert
      else Ok r
  | HoLeeEquivalent _ _ => Ok r
  end.

(** src/models/interestrate/fmm.rs:307-312  Fmm::sigma_at *)
Definition sigma_at (f : fmm) (j : nat) (t : R) : outcome R :=
  match schedule f with
  | Some s => schedule_at s j t (tenor f)
  | None => Ok (nth (j - 1) (sigmas f) 0)
  end.

(** src/models/interestrate/fmm.rs:325-334  Fmm::displacement_level *)
Definition displacement_level (f : fmm) (j : nat) (r_j : R) : R :=
  match betas f with
  | None => 1
  | Some bs =>
      let b := nth (j - 1) bs 0 in
      let r_j0 := nth (j - 1) (initial_rates (tenor f)) 0 in
      b * r_j + (1 - b) * r_j0
  end.

(** src/models/interestrate/fmm.rs:339-341  Fmm::adapted_vol *)
Definition adapted_vol (f : fmm) (j : nat) (t r_j : R) : outcome R :=
  do s <- sigma_at f j t; Ok (s * displacement_level f j r_j).

(** src/models/interestrate/fmm.rs:363-370  struct FmmPath *)
Record fmm_path := {
  rates : list R; y_diag : list R; rates_at_start : list R; y_at_start : list R; x_active : R; path_t : R }.
Definition rate (p : fmm_path) (j : nat) : R := nth (j - 1) (rates p) 0.
Definition y_of (p : fmm_path) (j : nat) : R := nth (j - 1) (y_diag p) 0.

(** [for k in lo..=hi] *)
Definition range_incl (lo hi : nat) : list nat := seq lo (S hi - lo).

(** src/models/interestrate/fmm.rs:398-410  FmmSimulator::initial_path *)
Definition initial_path (f : fmm) : fmm_path :=
  let m := m_of (tenor f) in
  {| rates := initial_rates (tenor f); y_diag := repeat 0 m;
     rates_at_start := map (fun k => if (k =? 0)%nat then nth 0 (initial_rates (tenor f)) 0 else 0) (seq 0 m);
     y_at_start := repeat 0 m; x_active := 0; path_t := 0 |}.

(** A computation for every index of a range. *)
Fixpoint oeach {A} (f : nat -> outcome A) (l : list nat) : outcome (list A) :=
  match l with
  | [] => Ok []
  | i :: l => do x <- f i; do xs <- oeach f l; Ok (x :: xs)
  end.

(** src/models/interestrate/fmm.rs:434-448  the correlated increment of the i-th rate, from the
    row of the Cholesky factor and the draws of this step *)
Definition increment (chol : list (list R)) (z : nat -> R) (sqrt_dt : R) (i : nat) : R :=
  fold_left (fun s k => s + nth k (nth i chol []) 0 * z k) (seq 0 (S i)) 0 * sqrt_dt.

(** src/models/interestrate/fmm.rs:469-483  the new value of the j-th rate; [adapted] and
    [weight] are the vectors computed at lines 457-465 *)
Definition new_rate (f : fmm) (p : fmm_path) (dt t_mid : R) (eta_old : nat) (adapted weight : list R) (dw : nat -> R) (j : nat) : R :=
  let gamma_j := gamma j t_mid (tenor f) in
  if (j <? eta_old)%nat then rate p j
  else if Req_EM_T gamma_j 0 then rate p j
  else
    let sig_adapt_j := nth (j - 1) adapted 0 in
    let sum := fold_left (fun s i => s + corr (correlation f) (i - 1) (j - 1) * nth (i - 1) weight 0) (range_incl eta_old j) 0 in
    let drift := sig_adapt_j * gamma_j * sum in
    let diffusion := sig_adapt_j * gamma_j * dw (j - 1)%nat in
    rate p j + drift * dt + diffusion.

(** src/models/interestrate/fmm.rs:490-501  the new value of the j-th diagonal variance *)
Definition new_y (f : fmm) (p : fmm_path) (dt t_mid : R) (j : nat) : outcome R :=
  let t := path_t p in
  let tj := date_at (tenor f) j in
  if Rle_dec tj t then Ok (y_of p j)
  else
    let effective_dt := Rmin (tj - t) dt in
    let tau_j := tau (tenor f) j in
    let r_j := rate p j in
    do sig_adapt <- adapted_vol f j t_mid r_j;
    let integrand := (sig_adapt / (r_j + 1 / tau_j)) ^ 2 in
    Ok (y_of p j + integrand * effective_dt).

(** src/models/interestrate/fmm.rs:508-523  the new value of x_active *)
Definition new_x (f : fmm) (p : fmm_path) (dt t_mid : R) (eta_old : nat) (nrates ny : list R) (dw : nat -> R) : outcome R :=
  let t := path_t p in
  let m := m_of (tenor f) in
  if (1 <=? eta_old)%nat && (eta_old <=? m)%nat then
    let k := eta_old in
    let tk_minus_1 := date_at (tenor f) (k - 1) in
    let tk := date_at (tenor f) k in
    if Rltb tk_minus_1 t && Rltb t tk then
      let tau_k := tau (tenor f) k in
      let r_k_mid := 1 / 2 * (rate p k + nth (k - 1) nrates 0) in
      do sig_adapt_k <- adapted_vol f k t_mid r_k_mid;
      let g_k := 1 / tau_k in
      let y_k := nth (k - 1) ny 0 - nth (k - 1) (y_at_start p) 0 in
      let drift_x := g_k * y_k in
      let diffusion_x := sig_adapt_k / (r_k_mid + 1 / tau_k) * dw (k - 1)%nat in
      Ok (x_active p + (drift_x * dt + diffusion_x))
    else Ok (x_active p)
  else Ok (x_active p).

(** [for k in eta_old + 1 ..= min(eta_new, m)] at index [k - 1] of a vector *)
Definition snapshot (old new : list R) (eta_old eta_new m : nat) : list R :=
  map (fun k => if (eta_old <? k)%nat && (k <=? Nat.min eta_new m)%nat then nth (k - 1) new 0 else nth (k - 1) old 0) (seq 1 m).

(** src/models/interestrate/fmm.rs:426-541  FmmSimulator::step, on the draws [z] *)
Definition fmm_step (f : fmm) (chol : list (list R)) (z : nat -> R) (p : fmm_path) (dt : R) : outcome fmm_path :=
  if negb (Rltb 0 dt) then Panic PAssert
  else
    let te := tenor f in
    let m := m_of te in
    let t := path_t p in
    let t_mid := t + 1 / 2 * dt in
    let dw := increment chol z (sqrt dt) in
    do adapted <- oeach (fun i => adapted_vol f i t_mid (rate p i)) (seq 1 m);
    let weight := map (fun i => nth (i - 1) adapted 0 * gamma i t_mid te * tau te i / (1 + tau te i * rate p i)) (seq 1 m) in
    let eta_old := eta te t in
    let nrates := map (new_rate f p dt t_mid eta_old adapted weight dw) (seq 1 m) in
    do ny <- oeach (new_y f p dt t_mid) (seq 1 m);
    do nx <- new_x f p dt t_mid eta_old nrates ny dw;
    let t' := t + dt in
    let eta_new := eta te t' in
    Ok {| rates := nrates; y_diag := ny;
          rates_at_start := snapshot (rates_at_start p) nrates eta_old eta_new m;
          y_at_start := snapshot (y_at_start p) ny eta_old eta_new m;
          x_active := if (eta_old + 1 <=? Nat.min eta_new m)%nat then 0 else nx;
          path_t := t' |}.

(** src/models/interestrate/fmm.rs:557-560  one path of simulate_terminal; [draws i] are the draws of
    the i-th step *)
Fixpoint fmm_steps (n : nat) (f : fmm) (chol : list (list R)) (draws : nat -> nat -> R) (p : fmm_path) (dt : R) : outcome fmm_path :=
  match n with
  | O => Ok p
  | S n => do p' <- fmm_step f chol (draws O) p dt; fmm_steps n f chol (fun i => draws (S i)) p' dt
  end.

(** src/models/interestrate/fmm.rs:611-645  back_stub_forward_bond *)
Definition back_stub_forward_bond (f : fmm) (p : fmm_path) (k : nat) (big_t p0_tk_minus_1_big_t p0_tk_minus_1_tk : R) : outcome R :=
  let te := tenor f in
  if negb ((1 <=? k)%nat && (k <=? m_of te)%nat) then Panic PAssert
  else
    let tk_minus_1 := date_at te (k - 1) in
    let tk := date_at te k in
    if negb (Rleb (path_t p) (tk_minus_1 + tiny)) then Panic PAssert
    else if negb (Rltb (tk_minus_1 - tiny) big_t && Rleb big_t (tk + tiny)) then Panic PAssert
    else
      let r_k := rate p k in
      let tau_k := tau te k in
      let g_km1_t := big_g k tk_minus_1 big_t te in
      let g_t_tk := big_g k big_t tk te in
      let y_kk := y_of p k in
      let a := p0_tk_minus_1_big_t in
      let b := powf (1 + tau_k * r_k) (- g_km1_t) in
      let c := powf p0_tk_minus_1_tk (- g_km1_t) in
      let d := exp (1 / 2 * g_km1_t * g_t_tk * y_kk) in
      Ok (a * b * c * d).

(** src/models/interestrate/fmm.rs:667-711  front_stub_bond *)
Definition front_stub_bond (f : fmm) (p : fmm_path) (big_t p0_t_big_t p0_tk_minus_1_tk : R) : outcome R :=
  let te := tenor f in
  let t := path_t p in
  let k := eta te t in
  if negb ((1 <=? k)%nat && (k <=? m_of te)%nat) then Panic PAssert
  else
    let tk_minus_1 := date_at te (k - 1) in
    let tk := date_at te k in
    if negb (Rltb (tk_minus_1 - tiny) t && Rltb t (tk + tiny)) then Panic PAssert
    else if negb (Rltb (t - tiny) big_t && Rleb big_t (tk + tiny)) then Panic PAssert
    else
      let tau_k := tau te k in
      let r_k_start := nth (k - 1) (rates_at_start p) 0 in
      let y_start := nth (k - 1) (y_at_start p) 0 in
      let y_k := y_of p k - y_start in
      let x_k := x_active p in
      let g_t_big_t := big_g k t big_t te in
      let g_big_t_tk := big_g k big_t tk te in
      let g_km1_big_t := big_g k tk_minus_1 big_t te in
      let g_t_tk := big_g k t tk te in
      let g_km1_t := big_g k tk_minus_1 t te in
      let a := p0_t_big_t in
      let b := powf p0_tk_minus_1_tk (- g_t_big_t) in
      let c := powf (1 + tau_k * r_k_start) (- g_t_big_t) in
      let exponent := - g_t_big_t * x_k - 1 / 2 * g_t_big_t * g_t_big_t * y_k
                      + 1 / 2 * y_start * (g_big_t_tk * g_km1_big_t - g_t_tk * g_km1_t) in
      Ok (a * b * c * exp exponent).

(** src/models/interestrate/fmm.rs:718-727  trait InitialDiscountCurve: a curve is its [p0] and
    [p0_fwd] is the default *)
Definition p0_fwd (p0 : R -> R) (s big_t : R) : R := p0 big_t / p0 s.

(** src/models/interestrate/fmm.rs:736-740  FlatCurve::p0 *)
Definition flat_p0 (r : R) (big_t : R) : R := exp (- r * big_t).

(** src/models/interestrate/fmm.rs:752-832  bond_price *)
Definition bond_price (f : fmm) (p : fmm_path) (big_t : R) (p0 : R -> R) : outcome R :=
  let te := tenor f in
  let m := m_of te in
  let t := path_t p in
  if negb (Rleb (t - tiny) big_t) then Panic PAssert
  else if Rlt_dec (Rabs (big_t - t)) tiny then Ok 1
  else
    let eta_t := eta te t in
    let eta_big_t := eta te big_t in
    if (eta_big_t =? eta_t)%nat && (1 <=? eta_t)%nat && (eta_t <=? m)%nat then
      let k := eta_t in
      let tk_minus_1 := date_at te (k - 1) in
      if Rle_dec t (tk_minus_1 + tiny) then
        back_stub_forward_bond f p k big_t (p0_fwd p0 tk_minus_1 big_t) (p0_fwd p0 tk_minus_1 (date_at te k))
      else
        front_stub_bond f p big_t (p0_fwd p0 t big_t) (p0_fwd p0 tk_minus_1 (date_at te k))
    else if negb (eta_big_t <=? m)%nat then Panic PAssert
    else
      let t_eta := date_at te eta_t in
      let tk_minus_1 := date_at te (eta_t - 1) in
      do front_piece <-
        (if Rle_dec t (tk_minus_1 + tiny) then
           back_stub_forward_bond f p eta_t t_eta (p0_fwd p0 tk_minus_1 t_eta) (p0_fwd p0 tk_minus_1 (date_at te eta_t))
         else
           front_stub_bond f p t_eta (p0_fwd p0 t t_eta) (p0_fwd p0 tk_minus_1 (date_at te eta_t)));
      let middle := fold_left (fun acc j => acc / (1 + tau te j * rate p j)) (seq (eta_t + 1) (eta_big_t - (eta_t + 1))) 1 in
      let k := eta_big_t in
      do back_piece <-
        back_stub_forward_bond f p k big_t (p0_fwd p0 (date_at te (k - 1)) big_t) (p0_fwd p0 (date_at te (k - 1)) (date_at te k));
      Ok (front_piece * middle * back_piece).

(** src/models/interestrate/fmm.rs:847-868  bank_account *)
Definition bank_account (f : fmm) (p : fmm_path) (p0 : R -> R) : outcome R :=
  let te := tenor f in
  let m := m_of te in
  let eta_t := eta te (path_t p) in
  let upper := Nat.min eta_t m in
  let product := fold_left (fun acc j => acc * (1 + tau te j * rate p j)) (seq 1 upper) 1 in
  if (m <? eta_t)%nat then Ok product
  else
    do bond <- bond_price f p (date_at te eta_t) p0;
    Ok (product * bond).
