(** The cross-currency Libor market model, over the real numbers (rounding idealised away): its tenor, its
    parameters and their checks, and the frozen coefficients of the linearised dynamics. *)
From Coq Require Import Bool List Arith Reals.
Import ListNotations.
From Verif Require Import Outcome ForwardPoints VolSurface Processes ProcessFacts HullWhite.
Open Scope R_scope.

(** [1.0e-12], the slack of the checks *)
Definition slack : R := / 10 ^ 12.
(** a [for] loop whose body may leave the function *)
Fixpoint ofor {A} (f : A -> outcome unit) (l : list A) : outcome unit :=
  match l with [] => Ok tt | a :: l => do _ <- f a; ofor f l end.
(** a [for] loop adding a term to an accumulator *)
Fixpoint oadd {A} (f : A -> outcome R) (l : list A) (acc : R) : outcome R :=
  match l with [] => Ok acc | a :: l => do v <- f a; oadd f l (acc + v) end.
(** [j - 1] on an unsigned index.  Simplification: without overflow checks the code wraps instead, and then
    fails on the index. *)
Definition pred_index (j : nat) : outcome nat := match j with O => Panic PArith | S i => Ok i end.
(** the integers of [a..=b] *)
Definition from_to (a b : nat) : list nat := seq a (S b - a).
(** [corr[i][j]] *)
Definition entry (m : list (list R)) (i j : nat) : outcome R := do row <- oindex m i; oindex row j.

(** src/models/forex/fx_hlmm.rs:54-59  struct LiborTenor *)
Record libor_tenor := { lt_dates : list R; libors : list R }.

(** src/models/forex/fx_hlmm.rs:69-74  the loop of LiborTenor::new *)
Fixpoint dates_increase (l : list R) : bool :=
  match l with
  | a :: ((b :: _) as l') => (if Rlt_dec a b then true else false) && dates_increase l'
  | _ => true
  end.
(** src/models/forex/fx_hlmm.rs:62-76  LiborTenor::new *)
Definition libor_tenor_new (ds ls : list R) : outcome libor_tenor :=
  if negb (length ds =? length ls + 1)%nat then Panic PAssert
  else
    do d0 <- oindex ds 0;
    if negb (if Rle_dec 0 d0 then true else false) then Panic PAssert
    else if negb (dates_increase ds) then Panic PAssert
    else Ok {| lt_dates := ds; libors := ls |}.

(** src/models/forex/fx_hlmm.rs:79-81  LiborTenor::n *)
Definition lt_n (te : libor_tenor) : nat := length (libors te).
(** src/models/forex/fx_hlmm.rs:85-88  LiborTenor::tau *)
Definition lt_tau (te : libor_tenor) (k : nat) : outcome R :=
  if negb ((1 <=? k)%nat && (k <=? lt_n te)%nat) then Panic PAssert
  else do b <- oindex (lt_dates te) k; do a <- oindex (lt_dates te) (k - 1); Ok (b - a).
(** src/models/forex/fx_hlmm.rs:94-98  the loop of LiborTenor::m *)
Fixpoint first_not_passed (l : list R) (k : nat) (t : R) : option nat :=
  match l with
  | [] => None
  | tk :: l => if Rle_dec t tk then Some k else first_not_passed l (S k) t
  end.
(** src/models/forex/fx_hlmm.rs:93-100  LiborTenor::m *)
Definition lt_m (te : libor_tenor) (t : R) : nat :=
  match first_not_passed (lt_dates te) 0 t with Some k => k | None => lt_n te end.
(** src/models/forex/fx_hlmm.rs:104-107  LiborTenor::active *)
Definition lt_active (te : libor_tenor) (t : R) : list nat := from_to (lt_m te t + 1) (lt_n te).

(** src/models/forex/fx_hlmm.rs:120-135  struct DdSvLmm *)
Record dd_sv_lmm := {
  lm_sigmas : list R; lm_betas : list R; lm_lambda : R; lm_eta : R; lm_v0 : R; libor_corr : list (list R) }.

(** src/models/forex/fx_hlmm.rs:160-177 and src/models/forex/fx_fmm.rs:98-115  the checks of a correlation
    matrix that already has [n] rows *)
Definition check_corr (c : list (list R)) (n : nat) : outcome unit :=
  do _ <- ofor (fun row : list R => if negb (length row =? n)%nat then Err EInvalidData else Ok tt) c;
  ofor (fun i =>
    do d <- entry c i i;
    if Rlt_dec slack (Rabs (d - 1)) then Err EInvalidData
    else ofor (fun j =>
      do x <- entry c i j; do y <- entry c j i;
      if Rlt_dec slack (Rabs (x - y)) then Err EInvalidData
      else if Rlt_dec (1 + slack) (Rabs x) then Err EInvalidData else Ok tt) (seq 0 n)) (seq 0 n).
(** src/models/forex/fx_hlmm.rs:141-182  DdSvLmm::validate *)
Definition lmm_validate (l : dd_sv_lmm) (te : libor_tenor) : outcome unit :=
  let n := lt_n te in
  if negb (length (lm_sigmas l) =? n)%nat then Err EInvalidData
  else if negb (length (lm_betas l) =? n)%nat then Err EInvalidData
  else if negb (length (libor_corr l) =? n)%nat then Err EInvalidData
  else
    do _ <- check_corr (libor_corr l) n;
    if Rle_dec (lm_lambda l) 0 then Err EInvalidData
    else if Rle_dec (lm_eta l) 0 then Err EInvalidData
    else if Rle_dec (lm_v0 l) 0 then Err EInvalidData
    else Ok tt.
(** src/models/forex/fx_hlmm.rs:186-196  DdSvLmm::psi *)
Definition lmm_psi (l : dd_sv_lmm) (te : libor_tenor) : outcome (list R) :=
  omapM (fun j =>
    do tau_k <- lt_tau te (j + 1);
    do l_k0 <- oindex (libors te) j;
    do s <- oindex (lm_sigmas l) j;
    Ok (tau_k * s * l_k0 / (1 + tau_k * l_k0))) (seq 0 (lt_n te)).

(** src/models/forex/fx_hlmm.rs:201-213  struct FxHlmmCorrelations *)
Record hlmm_corr := { xi_sigma : R; xi_d : list R; xi_f : list R; cross_corr : list (list R) }.
(** src/models/forex/fx_hlmm.rs:248-257  a correlation out of range *)
Definition check_entry (c : R) : outcome unit := if Rlt_dec (1 + slack) (Rabs c) then Err EInvalidData else Ok tt.
(** src/models/forex/fx_hlmm.rs:216-259  FxHlmmCorrelations::validate *)
Definition corr_validate (c : hlmm_corr) (te : libor_tenor) : outcome unit :=
  let n := lt_n te in
  if Rlt_dec (1 + slack) (Rabs (xi_sigma c)) then Err EInvalidData
  else if negb (length (xi_d c) =? n)%nat then Err EInvalidData
  else if negb (length (xi_f c) =? n)%nat then Err EInvalidData
  else if negb (length (cross_corr c) =? n)%nat then Err EInvalidData
  else
    do _ <- ofor (fun row : list R => if negb (length row =? n)%nat then Err EInvalidData else ofor check_entry row) (cross_corr c);
    do _ <- ofor check_entry (xi_d c);
    ofor check_entry (xi_f c).

(** src/models/forex/fx_hlmm.rs:263-275  struct FxHlmmParams *)
Record hlmm := {
  hl_fx0 : R; hl_heston : cir_process R_numbers; hl_tenor : libor_tenor; hl_dom : dd_sv_lmm; hl_for : dd_sv_lmm; hl_corr : hlmm_corr }.
(** src/models/forex/fx_hlmm.rs:279-284  FxHlmmParams::validate *)
Definition hlmm_validate (p : hlmm) : outcome unit :=
  do _ <- lmm_validate (hl_dom p) (hl_tenor p);
  do _ <- lmm_validate (hl_for p) (hl_tenor p);
  corr_validate (hl_corr p) (hl_tenor p).

(** src/models/forex/fx_hlmm.rs:320-336 and src/models/forex/fx_fmm.rs:295-308  the body of compute_a_side,
    from the coefficients on *)
Definition quadratic (psi : list R) (n start : nat) (c : list (list R)) : outcome R :=
  if (n <? start)%nat then Ok 0
  else
    do total <- oadd (fun j => do j' <- pred_index j; do a <- oindex psi j'; Ok (a * a)) (from_to start n) 0;
    oadd (fun '(i, j) =>
      do i' <- pred_index i; do j' <- pred_index j;
      do a <- oindex psi i'; do b <- oindex psi j'; do r <- entry c i' j';
      Ok (2 * a * b * r)) (flat_map (fun i => map (pair i) (from_to (i + 1) n)) (from_to start n)) total.
(** src/models/forex/fx_hlmm.rs:318-337  compute_a_side *)
Definition hlmm_a_side (l : dd_sv_lmm) (te : libor_tenor) (start : nat) : outcome R :=
  do psi <- lmm_psi l te; quadratic psi (lt_n te) start (libor_corr l).
(** src/models/forex/fx_hlmm.rs:299-306, 309-316  compute_a_d, compute_a_f *)
Definition hlmm_a_d (p : hlmm) (start : nat) : outcome R := hlmm_a_side (hl_dom p) (hl_tenor p) start.
Definition hlmm_a_f (p : hlmm) (start : nat) : outcome R := hlmm_a_side (hl_for p) (hl_tenor p) start.

(** src/models/forex/fx_hlmm.rs:349-362 and src/models/forex/fx_fmm.rs:330-343  the process of a side's variance *)
Definition side_cir (lambda eta v0 : R) : cir_process R_numbers :=
  {| kappa := (lambda : num R_numbers); theta := (v0 : num R_numbers); gamma := (eta : num R_numbers); sigma_0 := (v0 : num R_numbers) |}.
(** src/models/forex/fx_hlmm.rs:364-393 and src/models/forex/fx_fmm.rs:345-374  the sums of compute_f_linearised *)
Definition cross_terms (psi_d psi_f xd xf : list R) (cross : list (list R)) (n start : nat) (phi_xi phi_d phi_f : R) : outcome R :=
  if (n <? start)%nat then Ok 0
  else
    do s_ab <- oadd (fun j => do j' <- pred_index j; do a <- oindex psi_d j'; do r <- oindex xd j'; Ok (a * r)) (from_to start n) 0;
    let two_ab := s_ab * (2 * phi_xi * phi_d) in
    do s_ac <- oadd (fun j => do j' <- pred_index j; do a <- oindex psi_f j'; do r <- oindex xf j'; Ok (a * r)) (from_to start n) 0;
    let two_ac := s_ac * (2 * phi_xi * phi_f) in
    do s_bc <- oadd (fun '(j, k) =>
      do j' <- pred_index j; do k' <- pred_index k;
      do a <- oindex psi_d j'; do b <- oindex psi_f k'; do r <- entry cross j' k';
      Ok (a * b * r)) (flat_map (fun j => map (pair j) (from_to start n)) (from_to start n)) 0;
    let two_bc := s_bc * (2 * phi_d * phi_f) in
    Ok (two_ab - two_ac - two_bc).
(** src/models/forex/fx_hlmm.rs:342-394  compute_f_linearised *)
Definition hlmm_f (ln_gamma : R -> R) (p : hlmm) (t : R) (start : nat) : outcome R :=
  do psi_d <- lmm_psi (hl_dom p) (hl_tenor p);
  do psi_f <- lmm_psi (hl_for p) (hl_tenor p);
  do phi_xi <- sqrt_mean ln_gamma (hl_heston p) t;
  do phi_d <- sqrt_mean ln_gamma (side_cir (lm_lambda (hl_dom p)) (lm_eta (hl_dom p)) (lm_v0 (hl_dom p))) t;
  do phi_f <- sqrt_mean ln_gamma (side_cir (lm_lambda (hl_for p)) (lm_eta (hl_for p)) (lm_v0 (hl_for p))) t;
  cross_terms psi_d psi_f (xi_d (hl_corr p)) (xi_f (hl_corr p)) (cross_corr (hl_corr p)) (lt_n (hl_tenor p)) start phi_xi phi_d phi_f.
