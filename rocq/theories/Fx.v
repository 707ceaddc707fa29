(** FX pairs: the tables of [FXUnderlying] and the dates it derives from them. *)
From Coq Require Import ZArith Bool String List.
Import ListNotations.
From Verif Require Import Outcome Ints Loop Date Calendar Shipped DayCount.
Open Scope Z_scope.

(** iso_currency::Currency, restricted to the codes that
    src/derivatives/forex/basic.rs:91-120 names.  Simplification: the crate's
    other currencies are all the default branch of line 121 and cannot arise
    from the name of a pair. *)
Inductive currency : Set :=
| EUR | GBP | USD | JPY | CAD | AUD | NZD | CHF | NOK | SEK | MXN | TRY | RUB | SGD | HKD 
| CNY | PLN | HUF | CZK | ZAR | KRW | INR | BRL | DKK | IDR | TWD | THB | ILS | RON.

(** The constructors of [currency], and the ISO 4217 code of each. *)
Definition currencies : list currency :=
  [EUR; GBP; USD; JPY; CAD; AUD; NZD; CHF; NOK; SEK; MXN; TRY; RUB; SGD; HKD; CNY; PLN; HUF; 
CZK; ZAR; KRW; INR; BRL; DKK; IDR; TWD; THB; ILS; RON].
Definition currency_code (c : currency) : string :=
  (match c with
| EUR => "EUR" | GBP => "GBP" | USD => "USD" | JPY => "JPY" | CAD => "CAD" | AUD => "AUD" 
| NZD => "NZD" | CHF => "CHF" | NOK => "NOK" | SEK => "SEK" | MXN => "MXN" | TRY => "TRY" 
| RUB => "RUB" | SGD => "SGD" | HKD => "HKD" | CNY => "CNY" | PLN => "PLN" | HUF => "HUF" 
| CZK => "CZK" | ZAR => "ZAR" | KRW => "KRW" | INR => "INR" | BRL => "BRL" | DKK => "DKK" 
| IDR => "IDR" | TWD => "TWD" | THB => "THB" | ILS => "ILS" | RON => "RON"
  end)%string.

(** iso_currency::Currency::from_code on those codes (used at
    src/derivatives/forex/basic.rs:236, 240) *)
Definition currency_from_code (s : string) : option currency :=
  find (fun c => String.eqb (currency_code c) s) currencies.

(** src/derivatives/forex/basic.rs:20-86  enum FXUnderlying *)
Inductive fx_pair : Set :=
| EURGBP | EURUSD | EURCAD | EURJPY | EURCHF | EURNOK | EURSEK | EURAUD | EURNZD | EURDKK 
| EURPLN | EURHUF | EURCZK | EURRON | GBPUSD | GBPCAD | GBPJPY | GBPAUD | GBPNZD | GBPCHF 
| GBPNOK | GBPSEK | AUDUSD | NZDUSD | USDCHF | USDNOK | USDSEK | USDJPY | USDSGD | USDHKD 
| USDCNY | USDPLN | USDHUF | USDCZK | USDZAR | USDKRW | USDINR | USDBRL | USDDKK | USDIDR 
| USDTWD | USDTHB | USDILS | USDRON | USDCAD | USDMXN | USDTRY | USDRUB | AUDNZD | AUDCAD 
| AUDCHF | AUDJPY | AUDSGD | NZDCAD | NZDCHF | NZDJPY | NZDSGD | CADJPY | CHFJPY | CADCHF.

(** The variants in order. *)
Definition fx_pairs : list fx_pair :=
  [EURGBP; EURUSD; EURCAD; EURJPY; EURCHF; EURNOK; EURSEK; EURAUD; EURNZD; EURDKK; EURPLN; 
   EURHUF; EURCZK; EURRON; GBPUSD; GBPCAD; GBPJPY; GBPAUD; GBPNZD; GBPCHF; GBPNOK; GBPSEK; 
   AUDUSD; NZDUSD; USDCHF; USDNOK; USDSEK; USDJPY; USDSGD; USDHKD; USDCNY; USDPLN; USDHUF; 
   USDCZK; USDZAR; USDKRW; USDINR; USDBRL; USDDKK; USDIDR; USDTWD; USDTHB; USDILS; USDRON; 
   USDCAD; USDMXN; USDTRY; USDRUB; AUDNZD; AUDCAD; AUDCHF; AUDJPY; AUDSGD; NZDCAD; NZDCHF; 
   NZDJPY; NZDSGD; CADJPY; CHFJPY; CADCHF].

(** The variant name, which strum's [Display] prints (src/derivatives/forex/basic.rs:20) *)
Definition pair_name (p : fx_pair) : string :=
  (match p with
| EURGBP => "EURGBP" | EURUSD => "EURUSD" | EURCAD => "EURCAD" | EURJPY => "EURJPY" 
| EURCHF => "EURCHF" | EURNOK => "EURNOK" | EURSEK => "EURSEK" | EURAUD => "EURAUD" 
| EURNZD => "EURNZD" | EURDKK => "EURDKK" | EURPLN => "EURPLN" | EURHUF => "EURHUF" 
| EURCZK => "EURCZK" | EURRON => "EURRON" | GBPUSD => "GBPUSD" | GBPCAD => "GBPCAD" 
| GBPJPY => "GBPJPY" | GBPAUD => "GBPAUD" | GBPNZD => "GBPNZD" | GBPCHF => "GBPCHF" 
| GBPNOK => "GBPNOK" | GBPSEK => "GBPSEK" | AUDUSD => "AUDUSD" | NZDUSD => "NZDUSD" 
| USDCHF => "USDCHF" | USDNOK => "USDNOK" | USDSEK => "USDSEK" | USDJPY => "USDJPY" 
| USDSGD => "USDSGD" | USDHKD => "USDHKD" | USDCNY => "USDCNY" | USDPLN => "USDPLN" 
| USDHUF => "USDHUF" | USDCZK => "USDCZK" | USDZAR => "USDZAR" | USDKRW => "USDKRW" 
| USDINR => "USDINR" | USDBRL => "USDBRL" | USDDKK => "USDDKK" | USDIDR => "USDIDR" 
| USDTWD => "USDTWD" | USDTHB => "USDTHB" | USDILS => "USDILS" | USDRON => "USDRON" 
| USDCAD => "USDCAD" | USDMXN => "USDMXN" | USDTRY => "USDTRY" | USDRUB => "USDRUB" 
| AUDNZD => "AUDNZD" | AUDCAD => "AUDCAD" | AUDCHF => "AUDCHF" | AUDJPY => "AUDJPY" 
| AUDSGD => "AUDSGD" | NZDCAD => "NZDCAD" | NZDCHF => "NZDCHF" | NZDJPY => "NZDJPY" 
| NZDSGD => "NZDSGD" | CADJPY => "CADJPY" | CHFJPY => "CHFJPY" | CADCHF => "CADCHF"
  end)%string.

(** strum's [EnumString] (src/derivatives/forex/basic.rs:20): [from_str] accepts
    exactly the variant names. *)
Definition pair_from_str (s : string) : option fx_pair :=
  find (fun p => String.eqb (pair_name p) s) fx_pairs.

(** src/derivatives/forex/basic.rs:89-123  currency_to_country *)
Definition currency_to_country (c : currency) : shipped :=
  match c with
| EUR => Target | GBP => UnitedKingdom None | USD => UnitedStates None | JPY => Japan 
| CAD => Canada None | AUD => Australia None | NZD => NewZealand None | CHF => Switzerland 
| NOK => Norway | SEK => Sweden | MXN => Mexico | TRY => Turkey | RUB => Russia None 
| SGD => Singapore | HKD => HongKong | CNY => China | PLN => Poland None | HUF => Hungary 
| CZK => CzechRepublic | ZAR => SouthAfrica | KRW => SouthKorea | INR => India 
| BRL => Brazil None | DKK => Denmark | IDR => Indonesia | TWD => Taiwan | THB => Thailand 
| ILS => Israel None | RON => Romania
  end.

(** src/derivatives/forex/basic.rs:125-136  forward_points_converter (exact in f64) *)
Definition forward_points_converter (p : fx_pair) : Z :=
  match p with
  | CADJPY | USDJPY | GBPJPY | EURJPY | AUDJPY | NZDJPY | CHFJPY => 100
  | _ => 10000
  end.

(** src/derivatives/forex/basic.rs:138-143  day_count, as the year fraction it gives *)
Definition pair_year_fraction (p : fx_pair) (d1 d2 : date) :=
  match p with
  | EURUSD | USDJPY => actual360 d1 d2
  | _ => act365_year_fraction None d1 d2
  end.

(** src/derivatives/forex/basic.rs:145-154  settles *)
Definition settles (p : fx_pair) : Z :=
  match p with
  | USDCAD | USDMXN | USDTRY | USDRUB => 1
  | _ => 2
  end.

(** A [NaiveTime]: nanoseconds since midnight (chrono also allows a leap second,
    which only makes the number larger). *)
Definition from_hms (h m s : Z) : Z := ((h * 60 + m) * 60 + s) * 1000000000.

(** src/derivatives/forex/basic.rs:166-175  cutoff_utc *)
Definition cutoff_utc (p : fx_pair) : Z :=
  match p with
  | USDCAD | USDMXN => from_hms 17 0 0
  | USDTRY => from_hms 9 0 0
  | USDRUB => from_hms 9 30 0
  | _ => from_hms 22 0 0
  end.

(** src/derivatives/forex/basic.rs:235-237  dom_currency: [name[3..]] *)
Definition dom_currency (p : fx_pair) : outcome currency :=
  ounwrap (currency_from_code (String.substring 3 (String.length (pair_name p) - 3) (pair_name p))).
(** src/derivatives/forex/basic.rs:239-241  frn_currency: [name[..3]] *)
Definition frn_currency (p : fx_pair) : outcome currency :=
  ounwrap (currency_from_code (String.substring 0 3 (pair_name p))).

(** src/derivatives/forex/basic.rs:243-247  calendar *)
Definition pair_calendar (p : fx_pair) : outcome calendar :=
  do dom <- dom_currency p;
  do frn <- frn_currency p;
  Ok (joint [shipped_calendar (currency_to_country dom); shipped_calendar (currency_to_country frn)]).

(** src/derivatives/forex/basic.rs:182-197  effective_valuation_date; the
    [while !is_business_day] loop is the same loop as Following's ([roll_up]). *)
Definition effective_valuation_date (p : fx_pair) (v : date) (time : Z) : outcome date :=
  if cutoff_utc p <=? time then
    do cal <- pair_calendar p;
    do next <- add_days v 1;
    roll_up cal next
  else Ok v.

(** src/derivatives/forex/basic.rs:204-207  FXUnderlying::settlement_date *)
Definition pair_settlement_date (oc : bool) (p : fx_pair) (t : period) (v : date) : outcome date :=
  do cal <- pair_calendar p; settlement_date_with_lag oc t v cal (settles p).
(** src/derivatives/forex/basic.rs:213-220  FXUnderlying::near_date *)
Definition pair_near_date (p : fx_pair) (t : period) (v : date) : outcome (option date) :=
  do cal <- pair_calendar p; near_date_with_lag t v cal (settles p).
