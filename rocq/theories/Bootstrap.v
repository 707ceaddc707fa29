(** The rate indices and the bootstrap of the yield curve from cash, futures and
    swap quotes.  Rates are real numbers; [ln] of a non-positive number and a
    division by zero, NaN or infinite in Rust, are unspecified reals here, so
    theorems carry the hypotheses that exclude them. *)
From Coq Require Import ZArith Bool List Reals.
Import ListNotations.
From Verif Require Import Outcome Ints Loop Date Calendar Names Shipped Cal_unitedstates Cal_unitedkingdom Fx Imm
  YieldCurve FxForward Swap.
Open Scope Z_scope.

(** src/time/daycounters/actual360.rs:12-19, actual365fixed.rs:34-50 with the
    default market: day count and, as a real number, year fraction. *)
Definition act360 : day_counter := {| dc_count := fun a b => Ok (b - a); dc_yf := fun a b => Ok (IZR (b - a) / 360)%R |}.
Definition act365 : day_counter := {| dc_count := fun a b => Ok (b - a); dc_yf := fun a b => Ok (yf365 a b) |}.

(** src/markets/interestrate/interestrateindex.rs:13-23  enum InterestRateIndexEnum *)
Inductive index_code : Set := AONIA | CDOR (p : period) | EONIA | ESTR | EUIBOR (p : period) | SONIA | SOFR.

(** src/markets/interestrate/interestrateindex.rs:37-121  InterestRateIndex::from_enum
    (which always returns [Some]). *)
Definition from_enum (c : index_code) : rate_index :=
  match c with
  | AONIA => {| ix_period := SPOT; ix_settlement_days := 0; ix_currency := AUD;
                ix_calendar := shipped_calendar (Austria None); ix_convention := ModifiedFollowing;
                ix_day_counter := act365; ix_end_of_month := false |}
  | CDOR p => {| ix_period := p; ix_settlement_days := 0; ix_currency := USD;
                 ix_calendar := shipped_calendar (UnitedStates (Some unitedstates_SOFR));
                 ix_convention := ModifiedFollowing; ix_day_counter := act360; ix_end_of_month := false |}
  | EONIA => {| ix_period := SPOT; ix_settlement_days := 0; ix_currency := EUR;
                ix_calendar := shipped_calendar Target; ix_convention := ModifiedFollowing;
                ix_day_counter := act360; ix_end_of_month := false |}
  | ESTR => {| ix_period := SPOT; ix_settlement_days := 0; ix_currency := EUR;
               ix_calendar := shipped_calendar Target; ix_convention := ModifiedFollowing;
               ix_day_counter := act360; ix_end_of_month := false |}
  | EUIBOR p =>
      let following := {| ix_period := p; ix_settlement_days := 2; ix_currency := EUR;
                          ix_calendar := shipped_calendar Target; ix_convention := Following;
                          ix_day_counter := act360; ix_end_of_month := false |} in
      match p with
      | Days _ | Weeks _ => following
      | _ => {| ix_period := p; ix_settlement_days := 2; ix_currency := EUR;
                ix_calendar := shipped_calendar Target; ix_convention := ModifiedFollowing;
                ix_day_counter := act360; ix_end_of_month := false |}
      end
  | SOFR => {| ix_period := SPOT; ix_settlement_days := 0; ix_currency := USD;
               ix_calendar := shipped_calendar (UnitedStates (Some unitedstates_SOFR));
               ix_convention := ModifiedFollowing; ix_day_counter := act360; ix_end_of_month := false |}
  | SONIA => {| ix_period := SPOT; ix_settlement_days := 0; ix_currency := GBP;
                ix_calendar := shipped_calendar (UnitedKingdom (Some unitedkingdom_Exchange));
                ix_convention := ModifiedFollowing; ix_day_counter := act365; ix_end_of_month := false |}
  end.

(** [Option::unwrap] inside [Result::map]: an error stays an error. *)
Definition unwrapped (x : outcome (option date)) : outcome date := do o <- x; ounwrap o.
(** [Result::unwrap] *)
Definition result_unwrap {A} (x : outcome A) : outcome A := match x with Err _ => Panic PUnwrap | o => o end.

(** src/markets/termstructures/yieldcurve/oisratehelper.rs:11-15  struct OISRate *)
Record ois_rate := { ois_value : R; ois_index : rate_index }.

(** oisratehelper.rs:44-54  settle_date *)
Definition ois_settle (oc : bool) (q : ois_rate) (v : date) : outcome date :=
  unwrapped (advance oc (ix_calendar (ois_index q)) v (Days (ix_settlement_days (ois_index q)))
    (ix_convention (ois_index q)) (Some (ix_end_of_month (ois_index q)))).

(** oisratehelper.rs:55-65  maturity_date *)
Definition ois_maturity (oc : bool) (q : ois_rate) (v : date) : outcome date :=
  do s <- ois_settle oc q v;
  unwrapped (advance oc (ix_calendar (ois_index q)) s (ix_period (ois_index q))
    (ix_convention (ois_index q)) (Some (ix_end_of_month (ois_index q)))).

(** oisratehelper.rs:26-37  zero_rate *)
Definition ois_zero_rate (oc : bool) (q : ois_rate) (v : date) : outcome R :=
  do s <- ois_settle oc q v;
  do m <- ois_maturity oc q v;
  do yfi <- dc_yf (ix_day_counter (ois_index q)) s m;
  let disc := (1 / (1 + yfi * ois_value q))%R in
  Ok (- ln disc / yf365 s m)%R.

(** oisratehelper.rs:18-24  discount *)
Definition ois_discount (oc : bool) (q : ois_rate) (v : date) : outcome R :=
  do z <- ois_zero_rate oc q v;
  do m <- ois_maturity oc q v;
  Ok (exp (- z * yf365 v m))%R.

(** src/markets/interestrate/futures.rs:13-19  struct InterestRateFutures.
    Simplification: its [day_counter] is never read. *)
Record futures_spec := { fs_period : period; fs_calendar : calendar; fs_convention : convention; fs_end_of_month : bool }.

(** futures.rs:22-30  InterestRateFutures::new *)
Definition new_futures (p : period) : futures_spec :=
  {| fs_period := p; fs_calendar := shipped_calendar Target; fs_convention := ModifiedFollowing; fs_end_of_month := false |}.

(** futures.rs:32-46  InterestRateFutures::maturity_date *)
Definition spec_maturity (oc : bool) (depth : positive) (f : futures_spec) (start : date) : outcome date :=
  do t <- unwrapped (advance oc (fs_calendar f) start (fs_period f) (fs_convention f) (Some (fs_end_of_month f)));
  do first <- ounwrap (from_ymd_opt (year t) (month t) 1);
  next_date oc depth first false.

(** src/markets/termstructures/yieldcurve/ratehelper.rs:16-22  struct FuturesRate *)
Record futures_rate := {
  fut_value : R; fut_code : chars; fut_convexity : R; fut_spec : futures_spec; fut_index : rate_index }.

(** ratehelper.rs:25-27  implied_quote *)
Definition implied_quote (f : futures_rate) : R := (1 - fut_value f / 100 + fut_convexity f / 100)%R.

(** ratehelper.rs:89-93  settle_date; [now] stands for [Utc::now()], not used
    when a reference date is given. *)
Definition fut_settle (oc : bool) (depth : positive) (now : date) (f : futures_rate) (v : date) : outcome date :=
  unwrapped (imm_date oc depth now (fut_code f) (Some v)).

(** ratehelper.rs:94-97  maturity_date *)
Definition fut_maturity (oc : bool) (depth : positive) (now : date) (f : futures_rate) (v : date) : outcome date :=
  do s <- fut_settle oc depth now f v; spec_maturity oc depth (fut_spec f) s.

(** src/markets/termstructures/yieldcurve.rs:50-75  retrieve_related_stripped_curve *)
Fixpoint related_scan (t : date) (first second : pillar) (l : list pillar) : pillar * pillar :=
  match l with
  | [] => (first, second)
  | c :: r => if (first_settle_date c <? t) && (t <=? p_date c) then (first, c) else related_scan t c second r
  end.
Definition related_pillar (l : list pillar) (t : date) : outcome pillar :=
  match l with
  | [] => Panic PUnwrap
  | head :: _ =>
      let '(first, second) := related_scan t head head l in
      let first := if pillar_eqb second head then head else first in
      Ok (if (p_date second - t) <=? (t - p_date first) then second else first)
  end.

(** ratehelper.rs:29-44  discount *)
Definition fut_discount (oc : bool) (depth : positive) (now : date) (f : futures_rate) (v : date) (l : list pillar) : outcome R :=
  do s <- fut_settle oc depth now f v;
  do m <- fut_maturity oc depth now f v;
  do yfi <- dc_yf (ix_day_counter (fut_index f)) s m;
  let hidden := (1 / (1 + yfi * implied_quote f))%R in
  do p <- related_pillar l s;
  Ok (hidden * exp (- p_zero_rate p * yf365 v s))%R.

(** ratehelper.rs:60-71  the product over the stripped curves; [prev] is the
    previous pillar's date, at first the valuation date. *)
Fixpoint cum_discount (prev : date) (l : list pillar) (acc : R) : R :=
  match l with
  | [] => acc
  | p :: r => cum_discount (p_date p) r (acc * exp (- p_zero_rate p * yf365 prev (p_date p)))%R
  end.

(** ratehelper.rs:46-83  zero_rate *)
Definition fut_zero_rate (oc : bool) (depth : positive) (now : date) (f : futures_rate) (v : date) (l : list pillar) : outcome R :=
  let is_first := negb (existsb (fun p => quote_source_eqb (source p) SourceFutures) l) in
  do target <- fut_discount oc depth now f v l;
  do m <- fut_maturity oc depth now f v;
  if is_first then
    match rev l with
    | [] => Panic PUnwrap
    | last :: _ => Ok (- ln (target / cum_discount v l 1) / yf365 (p_date last) m)%R
    end
  else Ok (- ln target / yf365 v m)%R.

(** src/markets/termstructures/yieldcurve.rs:91-99  struct YieldTermMarketData.
    Simplification: the observers are left out (see Observers.v); a swap quote is
    its legs. *)
Record yield_market := {
  ym_valuation_date : date; ym_cash : list ois_rate; ym_futures : list futures_rate; ym_swaps : list (list leg) }.

(** yieldcurve.rs:124-126  the maturities of the cash quotes *)
Fixpoint cash_maturities (oc : bool) (v : date) (l : list ois_rate) : outcome (list date) :=
  match l with
  | [] => Ok []
  | q :: r => do m <- result_unwrap (ois_maturity oc q v); do ms <- cash_maturities oc v r; Ok (m :: ms)
  end.

(** yieldcurve.rs:132-141  the entry of one cash quote *)
Definition cash_pillar (oc : bool) (v : date) (q : ois_rate) : outcome pillar :=
  do s <- ois_settle oc q v;
  do m <- ois_maturity oc q v;
  do z <- ois_zero_rate oc q v;
  do d <- ois_discount oc q v;
  Ok {| first_settle_date := s; p_date := m; market_rate := ois_value q; p_zero_rate := z; p_discount := d;
        source := SourceOIS;
        hidden_pillar := match ix_period (ois_index q) with Weeks 1 => true | _ => false end |}.

(** yieldcurve.rs:130-143  the inner loop *)
Fixpoint cash_at (oc : bool) (v m : date) (l : list ois_rate) : outcome (list pillar) :=
  match l with
  | [] => Ok []
  | q :: r =>
      do m' <- result_unwrap (ois_maturity oc q v);
      if m' =? m then do p <- cash_pillar oc v q; do ps <- cash_at oc v m r; Ok (p :: ps)
      else cash_at oc v m r
  end.

(** yieldcurve.rs:129-144  the outer loop *)
Fixpoint cash_loop (oc : bool) (v : date) (l : list ois_rate) (ms : list date) : outcome (list pillar) :=
  match ms with
  | [] => Ok []
  | m :: r => do ps <- cash_at oc v m l; do qs <- cash_loop oc v l r; Ok (ps ++ qs)
  end.

(** yieldcurve.rs:146-156  the futures *)
Fixpoint futures_loop (oc : bool) (depth : positive) (now : date) (v : date) (outputs : list pillar) (l : list futures_rate)
  : outcome (list pillar) :=
  match l with
  | [] => Ok outputs
  | f :: r =>
      do s <- fut_settle oc depth now f v;
      do m <- fut_maturity oc depth now f v;
      do z <- fut_zero_rate oc depth now f v outputs;
      do d <- fut_discount oc depth now f v outputs;
      futures_loop oc depth now v
        (outputs ++ [{| first_settle_date := s; p_date := m; market_rate := fut_value f; p_zero_rate := z;
                        p_discount := d; source := SourceFutures; hidden_pillar := false |}]) r
  end.

(** src/derivatives/interestrate/swap.rs:116-121  get_reference_rate *)
Definition reference_rate (l : leg) : R := match l_type l with Fixed c => c | Float s => s end.

(** yieldcurve.rs:157-169  the swaps.  Simplification: [solve_zero_rate] panics on
    every failure inside it (swap.rs:261-276 unwraps). *)
Fixpoint swaps_loop (brent : R -> R -> (R -> outcome R) -> outcome R) (oc : bool) (v : date) (outputs : list pillar)
    (l : list (list leg)) : outcome (list pillar) :=
  match l with
  | [] => Ok outputs
  | w :: r =>
      do s <- swap_settle_date oc w v;
      do m <- swap_maturity_date oc w v;
      do first <- ounwrap (nth_error w 0);
      let p := {| first_settle_date := s; p_date := m; market_rate := reference_rate first;
                  p_zero_rate := (5 / 1000)%R; p_discount := 0%R; source := SourceSwap; hidden_pillar := false |} in
      do z <- result_unwrap (solve_zero_rate brent oc w v (outputs ++ [p]));
      do outputs' <- amend_last z (outputs ++ [p]);
      swaps_loop brent oc v outputs' r
  end.

(** yieldcurve.rs:116-171  get_stripped_curve; [sort] is the standard library's
    sort on dates. *)
Definition get_stripped_curve (sort : list date -> list date) (brent : R -> R -> (R -> outcome R) -> outcome R)
    (oc : bool) (depth : positive) (now : date) (m : yield_market) : outcome (list pillar) :=
  let v := ym_valuation_date m in
  do ms <- cash_maturities oc v (ym_cash m);
  do cash <- cash_loop oc v (ym_cash m) (sort ms);
  do futs <- futures_loop oc depth now v cash (ym_futures m);
  swaps_loop brent oc v futs (ym_swaps m).
