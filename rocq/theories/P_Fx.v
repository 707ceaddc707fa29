(** Properties C32, C56 and C57: FX pairs, their calendars and dates. *)
From Coq Require Import ZArith Lia Bool String List.
Import ListNotations.
From Verif Require Import Outcome Ints Date DateFacts Calendar CalendarSpec CalendarFacts AdjustFacts PeriodFacts
  Shipped ShippedFacts F64 DayCount DayCountFacts Fx FxFacts.
Open Scope Z_scope.

(** The name of a pair is the code of the foreign currency followed by the code
    of the domestic one; both parse. *)
Theorem C32_currencies : forall p : fx_pair, exists dom frn,
  dom_currency p = Ok dom /\ frn_currency p = Ok frn /\ dom <> frn /\
  pair_name p = (currency_code frn ++ currency_code dom)%string.
Proof. exact pair_halves. Qed.
Print Assumptions C32_currencies.

(** Parsing a name gives back exactly the pair that prints it. *)
Theorem C32_names : forall (p : fx_pair) (s : string), pair_from_str s = Some p <-> pair_name p = s.
Proof. exact (fun p s => conj (pair_from_str_sound s p) (fun E => eq_trans (f_equal _ (eq_sym E)) (pair_from_str_name p))). Qed.
Print Assumptions C32_names.

(** A pair settles after one or two days; one exactly for the US dollar against
    the Canadian dollar, the Mexican peso, the lira and the rouble. *)
Theorem C32_settles : forall p : fx_pair,
  (settles p = 1 /\ frn_currency p = Ok USD /\
     exists c, dom_currency p = Ok c /\ In c [CAD; MXN; TRY; RUB]) \/
  (settles p = 2 /\ ~ (frn_currency p = Ok USD /\ exists c, dom_currency p = Ok c /\ In c [CAD; MXN; TRY; RUB])).
Proof. exact settles_table. Qed.
Print Assumptions C32_settles.

(** Forward points are hundredths exactly when the yen is the quote currency. *)
Theorem C32_points : forall p : fx_pair,
  forward_points_converter p = 100 /\ dom_currency p = Ok JPY \/
  forward_points_converter p = 10000 /\ dom_currency p <> Ok JPY.
Proof. exact converter_jpy. Qed.
Print Assumptions C32_points.

Theorem C32_calendar : forall p : fx_pair, exists dom frn cal,
  dom_currency p = Ok dom /\ frn_currency p = Ok frn /\ pair_calendar p = Ok cal /\
  forall d : date, opened cal d <->
    opened (shipped_calendar (currency_to_country dom)) d /\
    opened (shipped_calendar (currency_to_country frn)) d.
Proof. exact pair_calendar_ok. Qed.
Print Assumptions C32_calendar.

(** ISO 3166 codes of the countries behind the calendars; the euro area is EU. *)
Definition iso_country (s : shipped) : string :=
  (match s with
   | WeekendsOnly => "--" | Argentina => "AR" | Australia _ => "AU" | Austria _ => "AT" | Botswana => "BW" | Brazil _ => "BR"
   | Canada _ => "CA" | Chile => "CL" | China => "CN" | CzechRepublic => "CZ" | Denmark => "DK" | Finland => "FI" | France _ => "FR"
   | Germany _ => "DE" | HongKong => "HK" | Hungary => "HU" | Iceland => "IS" | India => "IN" | Indonesia => "ID" | Israel _ => "IL"
   | Italy _ => "IT" | Japan => "JP" | Mexico => "MX" | NewZealand _ => "NZ" | Norway => "NO" | Poland _ => "PL" | Romania => "RO"
   | Russia _ => "RU" | Singapore => "SG" | Slovakia => "SK" | SouthAfrica => "ZA" | SouthKorea => "KR" | Sweden => "SE"
   | Switzerland => "CH" | Taiwan => "TW" | Target => "EU" | Thailand => "TH" | Turkey => "TR" | Ukraine => "UA"
   | UnitedKingdom _ => "GB" | UnitedStates _ => "US"
   end)%string.

(** The calendar of a currency is that of the country in its ISO code, in its
    default (settlement) market. *)
Theorem C32_countries : forall c : currency,
  iso_country (currency_to_country c) = String.substring 0 2 (currency_code c) /\
  (forall m, currency_to_country c <> UnitedStates (Some m)) /\ (forall m, currency_to_country c <> UnitedKingdom (Some m)) /\
  (forall m, currency_to_country c <> Canada (Some m)) /\ (forall m, currency_to_country c <> Australia (Some m)) /\
  (forall m, currency_to_country c <> NewZealand (Some m)) /\ (forall m, currency_to_country c <> Russia (Some m)) /\
  (forall m, currency_to_country c <> Poland (Some m)) /\ (forall m, currency_to_country c <> Brazil (Some m)) /\
  (forall m, currency_to_country c <> Israel (Some m)).
Proof. destruct c; repeat split; try reflexivity; intros m; discriminate. Qed.
Print Assumptions C32_countries.

Theorem C32_calendar_answers : forall (p : fx_pair) (cal : calendar) (d : date),
  pair_calendar p = Ok cal -> 1901 <= year d <= 2199 -> opened cal d \/ closed cal d.
Proof. exact pair_calendar_answers. Qed.
Print Assumptions C32_calendar_answers.

(** Year fractions are the day count, divided once by 360 for the euro against
    the dollar and the dollar against the yen, and by 365 for every other pair. *)
Theorem C32_day_count : forall (p : fx_pair) (d1 d2 : date), in_range d1 -> in_range d2 ->
  exists dom frn basis, dom_currency p = Ok dom /\ frn_currency p = Ok frn /\
    (basis = 360 /\ (frn = EUR /\ dom = USD \/ frn = USD /\ dom = JPY) \/
     basis = 365 /\ ~ (frn = EUR /\ dom = USD \/ frn = USD /\ dom = JPY)) /\
    finite (pair_year_fraction p d1 d2) /\
    f64R (pair_year_fraction p d1 d2) = rnd (Rdefinitions.Rdiv (Rdefinitions.IZR (d2 - d1)) (Rdefinitions.IZR basis)).
Proof.
  intros p d1 d2 R1 R2. pose proof (range_diff _ _ R1 R2) as B.
  pose proof (fraction_ok (d2 - d1) 360 B ltac:(lia)) as F0.
  pose proof (fraction_ok (d2 - d1) 365 B ltac:(lia)) as F5.
  destruct p; (eexists; eexists; eexists; split; [reflexivity|split; [reflexivity|]]);
    first [ split; [right; split; [reflexivity|intuition discriminate]|split; [apply F5|apply F5]]
          | split; [left; split; [reflexivity|tauto]|split; [apply F0|apply F0]] ].
Qed.
Print Assumptions C32_day_count.

Example C32_witness :
  pair_name USDCAD = "USDCAD"%string /\ dom_currency USDCAD = Ok CAD /\ frn_currency USDCAD = Ok USD /\
  settles USDCAD = 1 /\ settles EURUSD = 2 /\ forward_points_converter CHFJPY = 100 /\
  currency_to_country GBP = UnitedKingdom None /\ currency_to_country KRW = SouthKorea.
Proof. repeat split. Qed.

(** C56: the cut-off. *)
Theorem C56_before_cutoff : forall (p : fx_pair) (v : date) (time : Z),
  time < cutoff_utc p -> effective_valuation_date p v time = Ok v.
Proof. exact effective_before. Qed.
Print Assumptions C56_before_cutoff.

Theorem C56_after_cutoff : forall (p : fx_pair) (cal : calendar) (v : date) (time : Z) (r : date),
  pair_calendar p = Ok cal -> in_range v -> cutoff_utc p <= time ->
  (effective_valuation_date p v time = Ok r <-> in_range r /\ first_open_from cal (v + 1) r).
Proof. exact effective_after. Qed.
Print Assumptions C56_after_cutoff.

(** The cut-offs, in seconds of the UTC day: noon in New York (UTC-5) for the
    dollar against the Canadian dollar and the peso, noon in Istanbul and half
    past twelve in Moscow (UTC+3) for the lira and the rouble, 22:00 for every
    other pair. *)
Theorem C56_cutoffs : forall p : fx_pair, exists dom frn,
  dom_currency p = Ok dom /\ frn_currency p = Ok frn /\
  ((frn = USD -> (dom = CAD \/ dom = MXN -> cutoff_utc p = (12 + 5) * 3600 * 1000000000) /\
                (dom = TRY -> cutoff_utc p = (12 - 3) * 3600 * 1000000000) /\
                (dom = RUB -> cutoff_utc p = (12 * 3600 + 1800 - 3 * 3600) * 1000000000)) /\
   (frn <> USD \/ ~ In dom [CAD; MXN; TRY; RUB] -> cutoff_utc p = 22 * 3600 * 1000000000)).
Proof.
  intros p. destruct p; (eexists; eexists; split; [reflexivity|split; [reflexivity|split]]).
  all: first [ intros E; discriminate E
             | intros _; split; [intros [E|E]; first [discriminate E | reflexivity]
                 | split; intros E; first [discriminate E | reflexivity]]
             | intros [H|H]; exfalso; [congruence|apply H; cbn; tauto]
             | intros _; reflexivity ].
Qed.
Print Assumptions C56_cutoffs.

(** Friday 3 July 2020 is a US holiday; a query at 22:00 on Thursday moves
    EURUSD to Monday and one at 21:59 does not move it. *)
Example C56_witness :
  effective_valuation_date EURUSD (of_ymd 2020 7 2) (from_hms 22 0 0) = Ok (of_ymd 2020 7 6) /\
  effective_valuation_date EURUSD (of_ymd 2020 7 2) (from_hms 21 59 59) = Ok (of_ymd 2020 7 2) /\
  effective_valuation_date USDRUB (of_ymd 2020 7 2) (from_hms 9 30 0) = Ok (of_ymd 2020 7 6).
Proof. repeat split; vm_compute; reflexivity. Qed.

(** C57 is false: the lag is counted in calendar days and the month-end rule is
    applied to spot.  Spot for EURUSD from Thursday 28 September 2023 is Friday
    29 September, one business day later (it should be Monday 2 October), and
    from Friday 6 October 2023 it is Tuesday 10 October only because Monday 9
    October is a US holiday; from Friday 13 October it is Monday 16 October. *)
Theorem C57_spot_refuted :
  ~ (forall oc (p : fx_pair) (cal : calendar) (v r : date), in_range v -> pair_calendar p = Ok cal ->
       pair_settlement_date oc p SPOT v = Ok r -> opened cal v -> opened cal r /\ open_days cal (v + 1) (r + 1) = settles p).
Proof.
  intros H.
  destruct (pair_calendar EURUSD) as [cal| |] eqn:E; try discriminate E.
  assert (R : in_range (of_ymd 2023 9 28)) by (rewrite in_range_val; vm_compute; split; discriminate).
  assert (S : pair_settlement_date true EURUSD SPOT (of_ymd 2023 9 28) = Ok (of_ymd 2023 9 29)) by (vm_compute; reflexivity).
  pose proof (H true EURUSD cal _ _ R E S) as [_ O];
    injection E as <-; [|vm_compute in O; discriminate O]. vm_compute. reflexivity.
Qed.
Print Assumptions C57_spot_refuted.

(** What holds: when the day [settles] calendar days ahead is open it is the
    spot date; so the claim is right when no closed day lies in between. *)
Theorem C57_spot_partial : forall oc (p : fx_pair) (cal : calendar) (v r : date),
  in_range v -> pair_calendar p = Ok cal -> opened cal (v + settles p) ->
  pair_settlement_date oc p SPOT v = Ok r -> r = v + settles p.
Proof.
  exact (fun oc p cal v r Hv C O S => spot_all_open oc v cal (settles p) r Hv
    ltac:(destruct p; vm_compute; discriminate) O
    ltac:(unfold pair_settlement_date in S; rewrite C in S; exact S)).
Qed.
Print Assumptions C57_spot_partial.

(** The near leg of an overnight, tom-next or spot-next swap starts on the first
    open day from today, tomorrow or the pair's own spot lag; other tenors have
    none. *)
Theorem C57_near_partial : forall (p : fx_pair) (cal : calendar) (t : period) (v : date) (n : option date),
  in_range v -> pair_calendar p = Ok cal -> pair_near_date p t v = Ok n ->
  match n with
  | Some x => exists b, first_open_from cal b x /\
      (t = ON /\ b = v \/ t = TN /\ b = v + 1 \/ t = SN /\ b = v + settles p)
  | None => t <> ON /\ t <> TN /\ t <> SN
  end.
Proof.
  intros p cal t v n Hv C N. unfold pair_near_date in N. rewrite C in N. cbn [obind] in N.
  destruct n as [x|].
  - destruct (near_open t v cal (settles p) x Hv N) as (b & B & F). exists b. split; [exact F|].
    assert (L : try_days (settles p) = Some (settles p)) by (destruct p; reflexivity).
    destruct t; try (rewrite near_None in N by (exact L || discriminate); discriminate N); subst b; auto.
  - repeat split; intros ->; unfold near_date_with_lag in N;
      repeat match type of N with
      | obind ?e _ = _ => destruct e; cbn [obind] in N; try discriminate N
      | match ?e with _ => _ end = _ => destruct e; try discriminate N
      end; try discriminate N.
Qed.
Print Assumptions C57_near_partial.

Example C57_witness :
  pair_settlement_date true EURUSD SPOT (of_ymd 2023 9 25) = Ok (of_ymd 2023 9 27) /\
  pair_settlement_date true USDCAD SPOT (of_ymd 2023 9 25) = Ok (of_ymd 2023 9 26) /\
  pair_settlement_date true EURUSD SPOT (of_ymd 2023 10 13) = Ok (of_ymd 2023 10 16) /\
  pair_near_date USDCAD SN (of_ymd 2023 9 25) = Ok (Some (of_ymd 2023 9 26)) /\
  pair_near_date EURUSD SN (of_ymd 2023 9 25) = Ok (Some (of_ymd 2023 9 27)) /\
  pair_near_date EURUSD (Months 1) (of_ymd 2023 9 25) = Ok None.
Proof. repeat split; vm_compute; reflexivity. Qed.
