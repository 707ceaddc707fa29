(** The Dupire local-volatility surface, over the real numbers (rounding idealised away).
    The logarithm of a quotient that is not positive is not a number in the code, which then
    takes the fallback branch or stores a value that is not a number; here it is a number. *)
From Coq Require Import Bool List Arith Reals.
Import ListNotations.
From Verif Require Import Outcome BlackScholes.
Open Scope R_scope.

Definition Rltb (x y : R) : bool := if Rlt_dec x y then true else false.
Definition Rleb (x y : R) : bool := if Rle_dec x y then true else false.

(** src/models/forex/dupire_local_vol.rs:43-50  struct DupireLocalVol *)
Record local_vol_grid := { expiries : list R; strikes : list R; variance : list (list R) }.

(** src/models/forex/dupire_local_vol.rs:75-80  the asserts over [windows(2)] *)
Fixpoint increasing (l : list R) : bool :=
  match l with
  | a :: ((b :: _) as l') => Rltb a b && increasing l'
  | _ => true
  end.

(** [c[i][j]]; the asserts of [build] put every index it uses in range *)
Definition cell (c : list (list R)) (i j : nat) : R := nth j (nth i c []) 0.

(** src/models/forex/dupire_local_vol.rs:187-196  fd_t *)
Definition fd_t (c : list (list R)) (ts : list R) (i j : nat) : R :=
  let n := length ts in
  if (i =? 0)%nat then (cell c 1 j - cell c 0 j) / (nth 1 ts 0 - nth 0 ts 0)
  else if (i =? n - 1)%nat then (cell c (n - 1) j - cell c (n - 2) j) / (nth (n - 1) ts 0 - nth (n - 2) ts 0)
  else (cell c (i + 1) j - cell c (i - 1) j) / (nth (i + 1) ts 0 - nth (i - 1) ts 0).

(** src/models/forex/dupire_local_vol.rs:199-208  fd_k *)
Definition fd_k (row ks : list R) (j : nat) : R :=
  let n := length ks in
  if (j =? 0)%nat then (nth 1 row 0 - nth 0 row 0) / (nth 1 ks 0 - nth 0 ks 0)
  else if (j =? n - 1)%nat then (nth (n - 1) row 0 - nth (n - 2) row 0) / (nth (n - 1) ks 0 - nth (n - 2) ks 0)
  else (nth (j + 1) row 0 - nth (j - 1) row 0) / (nth (j + 1) ks 0 - nth (j - 1) ks 0).

(** src/models/forex/dupire_local_vol.rs:220-232  fd_kk.  The recursion at the ends is taken
    once: with three strikes or more, 1 and [n - 2] are inside. *)
Definition fd_kk (row ks : list R) (j : nat) : R :=
  let n := length ks in
  let j := if (j =? 0)%nat then 1%nat else if (j =? n - 1)%nat then (n - 2)%nat else j in
  let h1 := nth j ks 0 - nth (j - 1) ks 0 in
  let h2 := nth (j + 1) ks 0 - nth j ks 0 in
  let hs := h1 + h2 in
  2 * (nth (j + 1) row 0 * h1 - nth j row 0 * hs + nth (j - 1) row 0 * h2) / (h1 * h2 * hs).

(** src/models/forex/dupire_local_vol.rs:83-92  the call prices *)
Definition call_prices (ts ks : list R) (vols : list (list R)) (spot rd rf : R) : list (list R) :=
  map (fun i =>
    let t := nth i ts 0 in
    let fwd := spot * exp ((rd - rf) * t) in
    let disc := exp (- rd * t) in
    map (fun j => bs_call_forward fwd (nth j ks 0) (cell vols i j) t disc) (seq 0 (length ks)))
  (seq 0 (length ts)).

(** [f64::clamp] with bounds in order *)
Definition clamp (x lo hi : R) : R := if Rlt_dec x lo then lo else if Rlt_dec hi x then hi else x.

(** src/models/forex/dupire_local_vol.rs:98-118  the variance at a node *)
Definition node_variance (c : list (list R)) (ts ks : list R) (vols : list (list R)) (rd rf : R) (i j : nat) : R :=
  let k := nth j ks 0 in
  let dc_dt := fd_t c ts i j in
  let dc_dk := fd_k (nth i c []) ks j in
  let d2c_dk2 := fd_kk (nth i c []) ks j in
  let numer := dc_dt + (rd - rf) * k * dc_dk + rf * cell c i j in
  let denom := k * k * d2c_dk2 in
  let var := if Rltb (/ 10 ^ 8) denom && Rltb 0 numer then 2 * numer / denom
             else cell vols i j * cell vols i j in
  clamp var (1 / 100 * (1 / 100)) (2 * 2).

(** src/models/forex/dupire_local_vol.rs:59-126  build *)
Definition build (ts ks : list R) (vols : list (list R)) (spot rd rf : R) : outcome local_vol_grid :=
  if negb (3 <=? length ts)%nat then Panic PAssert
  else if negb (3 <=? length ks)%nat then Panic PAssert
  else if negb (length vols =? length ts)%nat then Panic PAssert
  else if negb (forallb (fun row => (length row =? length ks)%nat) vols) then Panic PAssert
  else if negb (increasing ts) then Panic PAssert
  else if negb (increasing ks) then Panic PAssert
  else if negb (Rltb 0 spot) then Panic PAssert
  else
    let c := call_prices ts ks vols spot rd rf in
    Ok {| expiries := ts; strikes := ks;
          variance := map (fun i => map (node_variance c ts ks vols rd rf i) (seq 0 (length ks))) (seq 0 (length ts)) |}.

(** src/models/forex/dupire_local_vol.rs:173-180  the scan of bracket, from the entry [i] on,
    after the entry [prev] *)
Fixpoint scan (x prev : R) (i : nat) (l : list R) : option (nat * nat * R) :=
  match l with
  | [] => None
  | y :: l => if Rle_dec x y then Some ((i - 1)%nat, i, (x - prev) / (y - prev)) else scan x y (S i) l
  end.

(** src/models/forex/dupire_local_vol.rs:164-183  bracket *)
Definition bracket (xs : list R) (x : R) : outcome (nat * nat * R) :=
  match xs with
  | [] => Panic PIndex
  | x0 :: rest =>
      let n := (length xs - 1)%nat in
      if Rle_dec x x0 then Ok (0%nat, 0%nat, 0)
      else if Rle_dec (last xs 0) x then Ok (n, n, 0)
      else match scan x x0 1 rest with
           | Some r => Ok r
           | None => Ok (n, n, 0)
           end
  end.

(** [self.variance[i][j]] *)
Definition variance_at (g : local_vol_grid) (i j : nat) : outcome R :=
  match nth_error (variance g) i with
  | Some row => match nth_error row j with Some v => Ok v | None => Panic PIndex end
  | None => Panic PIndex
  end.

(** src/models/forex/dupire_local_vol.rs:132-143  DupireLocalVol::local_variance *)
Definition local_variance (g : local_vol_grid) (t k : R) : outcome R :=
  do (i, wt) <- bracket (expiries g) t;
  let '(i0, i1) := i in
  do (j, wk) <- bracket (strikes g) k;
  let '(j0, j1) := j in
  do v00 <- variance_at g i0 j0;
  do v01 <- variance_at g i0 j1;
  do v10 <- variance_at g i1 j0;
  do v11 <- variance_at g i1 j1;
  let v0 := v00 + wk * (v01 - v00) in
  let v1 := v10 + wk * (v11 - v10) in
  Ok (v0 + wt * (v1 - v0)).

(** src/models/forex/dupire_local_vol.rs:146-148  DupireLocalVol::local_vol *)
Definition local_vol (g : local_vol_grid) (t k : R) : outcome R :=
  do v <- local_variance g t k; Ok (sqrt v).

(** src/models/forex/dupire_local_vol.rs:151-158  DupireLocalVol::t_range and k_range *)
Definition range_of (l : list R) : outcome (R * R) :=
  match l with [] => Panic PIndex | x :: _ => Ok (x, last l 0) end.
Definition t_range (g : local_vol_grid) : outcome (R * R) := range_of (expiries g).
Definition k_range (g : local_vol_grid) : outcome (R * R) := range_of (strikes g).
