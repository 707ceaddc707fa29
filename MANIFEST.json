{
 "claims": [
  {
   "property": "C01",
   "status": "proved",
   "theorems": [
    "C01_following",
    "C01_following_failure"
   ],
   "note": ""
  },
  {
   "property": "C02",
   "status": "proved",
   "theorems": [
    "C02_preceding",
    "C02_preceding_failure"
   ],
   "note": ""
  },
  {
   "property": "C03",
   "status": "proved",
   "theorems": [
    "C03_modified_following",
    "C03_modified_preceding",
    "C03_modified_following_same_month",
    "C03_modified_preceding_same_month"
   ],
   "note": ""
  },
  {
   "property": "C04",
   "status": "proved",
   "theorems": [
    "C04_half_month"
   ],
   "note": ""
  },
  {
   "property": "C05",
   "status": "partial",
   "theorems": [
    "C05_nearest_refuted",
    "C05_nearest_partial"
   ],
   "note": "False of the code: Nearest returns the holiday side. C05_nearest_partial says exactly what it returns."
  },
  {
   "property": "C06",
   "status": "proved",
   "theorems": [
    "C06_business_days_unchanged",
    "C06_idempotent",
    "C06_unadjusted",
    "C06_always_some"
   ],
   "note": ""
  },
  {
   "property": "C07",
   "status": "proved",
   "theorems": [
    "C07_monotone"
   ],
   "note": "The modified conventions compare month numbers only, so the claim needs an open day within eleven months; a witness shows the hypothesis is needed. Nearest excluded (C05)."
  },
  {
   "property": "C08",
   "status": "proved",
   "theorems": [
    "C08_advance_forward",
    "C08_advance_backward",
    "C08_advance_zero",
    "C08_flags_ignored"
   ],
   "note": ""
  },
  {
   "property": "C09",
   "status": "proved",
   "theorems": [
    "C09_round_trip",
    "C09_additive"
   ],
   "note": ""
  },
  {
   "property": "C10",
   "status": "proved",
   "theorems": [
    "C10_advance_months",
    "C10_advance_months_eom"
   ],
   "note": ""
  },
  {
   "property": "C11",
   "status": "proved",
   "theorems": [
    "C11_counts",
    "C11_antisymmetric"
   ],
   "note": ""
  },
  {
   "property": "C12",
   "status": "partial",
   "theorems": [
    "C12_same_day_refuted",
    "C12_include_first_refuted",
    "C12_same_day_partial",
    "C12_same_day_other_flags_partial"
   ],
   "note": "False of the code: with default flags a same-day count examines every day to the end of time, and include_first=true excludes the first day."
  },
  {
   "property": "C13",
   "status": "proved",
   "theorems": [
    "C13_end_of_month",
    "C13_end_of_month_in_month",
    "C13_depends_on_month_only",
    "C13_last_year_panics"
   ],
   "note": "In year 262142 the method panics for every date (C13_last_year_panics)."
  },
  {
   "property": "C14",
   "status": "proved",
   "theorems": [
    "C14_joint_open",
    "C14_joint_closed",
    "C14_joint_order_and_multiplicity",
    "C14_joint_flatten"
   ],
   "note": ""
  },
  {
   "property": "C15",
   "status": "proved",
   "theorems": [
    "C15_answers",
    "C15_weekends"
   ],
   "note": ""
  },
  {
   "property": "C16",
   "status": "proved",
   "theorems": [
    "C16_opens_soon",
    "C16_adjust_returns"
   ],
   "note": ""
  },
  {
   "property": "C17",
   "status": "proved",
   "theorems": [
    "C17_western",
    "C17_orthodox",
    "C17_easter_unique",
    "C17_out_of_range"
   ],
   "note": ""
  },
  {
   "property": "C18",
   "status": "proved",
   "theorems": [
    "C18_target"
   ],
   "note": ""
  },
  {
   "property": "C19",
   "status": "proved",
   "theorems": [
    "C19_add",
    "C19_sub",
    "C19_months_later_exists_unique",
    "C19_round_trip",
    "C19_years_are_twelve_months"
   ],
   "note": ""
  },
  {
   "property": "C20",
   "status": "partial",
   "theorems": [
    "C20_never_wrong_refuted",
    "C20_never_wrong_partial",
    "C20_scaling_partial"
   ],
   "note": "False without overflow checks (release profile); proved with them, and in release whenever the multiplication fits."
  },
  {
   "property": "C21",
   "status": "proved",
   "theorems": [
    "C21_settlement",
    "C21_settlement_open"
   ],
   "note": ""
  },
  {
   "property": "C22",
   "status": "partial",
   "theorems": [
    "C22_legs_ordered_refuted",
    "C22_legs_ordered_partial",
    "C22_near_date_open_partial",
    "C22_no_near_leg_partial"
   ],
   "note": "False when the near leg's raw date falls after the last business day of the month; exact condition proved."
  },
  {
   "property": "C23",
   "status": "partial",
   "theorems": [
    "C23_convention_round_trip",
    "C23_convention_codes",
    "C23_frequency_refuted",
    "C23_frequency_partial",
    "C23_frequency_codes",
    "C23_frequency_period"
   ],
   "note": "Frequency half false: \"Once\" reads back as NoFrequency; exact set of round-tripping names proved."
  },
  {
   "property": "C24",
   "status": "proved",
   "theorems": [
    "C24_day_count",
    "C24_year_fraction",
    "C24_order"
   ],
   "note": ""
  },
  {
   "property": "C25",
   "status": "partial",
   "theorems": [
    "C25_published",
    "C25_unique",
    "C25_anniversary",
    "C25_month_tolerance",
    "C25_additive",
    "C25_nonnegative_refuted",
    "C25_nonnegative_partial",
    "C25_year_fraction",
    "C25_thirty365"
   ],
   "note": "Published rules, additivity, tolerance and anniversary proved; non-negativity is false only for an empty period at an end-of-February ISDA/German termination date."
  },
  {
   "property": "C26",
   "status": "partial",
   "theorems": [
    "C26_no_leap_refuted",
    "C26_no_leap_partial",
    "C26_additive"
   ],
   "note": "False of the code: MONTH_OFFSET has 344 for December (should be 334), so December dates are ten days off; the exact offset is proved."
  },
  {
   "property": "C27",
   "status": "partial",
   "theorems": [
    "C27_isda_refuted",
    "C27_isda_partial",
    "C27_isda_reversed",
    "C27_isda_last_year"
   ],
   "note": "False of the code: both partial-year terms have the wrong sign. C27_isda_partial gives the value computed, in binary64, to 1e-9."
  },
  {
   "property": "C28",
   "status": "partial",
   "theorems": [
    "C28_business252_refuted",
    "C28_same_month_partial",
    "C28_months_partial",
    "C28_same_day",
    "C28_backwards"
   ],
   "note": "False of the code: later months are counted once per preceding month start, month starts are skipped, and an empty period counts to the end of time. Exact formulas proved."
  },
  {
   "property": "C29",
   "status": "proved",
   "theorems": [
    "C29_is_imm_date",
    "C29_one_per_month"
   ],
   "note": ""
  },
  {
   "property": "C30",
   "status": "partial",
   "theorems": [
    "C30_code",
    "C30_accepts",
    "C30_total_refuted",
    "C30_total_partial",
    "C30_date_earliest",
    "C30_round_trip_partial",
    "C30_round_trip_refuted",
    "C30_lower_case",
    "C30_not_a_code"
   ],
   "note": "Round trip proved for references from 1910 on; false before (digit 0 rule), is_imm_code panics on one two-byte character, lower-case codes are accepted and then panic."
  },
  {
   "property": "C31",
   "status": "partial",
   "theorems": [
    "C31_next_date_refuted",
    "C31_early_partial",
    "C31_main_cycle_partial",
    "C31_late"
   ],
   "note": "False of the code: from the third Wednesday on the recursion never ends (December: panic), and main_cycle is ignored. Complete behaviour proved."
  },
  {
   "property": "C32",
   "status": "proved",
   "theorems": [
    "C32_currencies",
    "C32_names",
    "C32_settles",
    "C32_points",
    "C32_calendar",
    "C32_countries",
    "C32_calendar_answers",
    "C32_day_count"
   ],
   "note": ""
  },
  {
   "property": "C33",
   "status": "proved",
   "theorems": [
    "C33_dates",
    "C33_quoted",
    "C33_between",
    "C33_outside",
    "C33_order",
    "C33_errors"
   ],
   "note": ""
  },
  {
   "property": "C34",
   "status": "partial",
   "theorems": [
    "C34_value",
    "C34_linear",
    "C34_antisymmetric",
    "C34_at_market",
    "C34_both_notionals",
    "C34_delta_partial",
    "C34_expired",
    "C34_points",
    "C34_df",
    "C34_witness_value",
    "C34_delta_refuted"
   ],
   "note": "Value, linearity, antisymmetry, zero at the market, expiry and notional equivalence proved; the delta half is false because delta omits the discount factor, and the exact relation is proved."
  },
  {
   "property": "C35",
   "status": "proved",
   "theorems": [
    "C35_normal",
    "C35_parity",
    "C35_expectation",
    "C35_bounds",
    "C35_increasing",
    "C35_increasing_time",
    "C35_limits",
    "C35_greeks",
    "C35_same_formula"
   ],
   "note": "Prices also proved to be the discounted expected payoff of a lognormal forward (improper integral), with limits in volatility. Real arithmetic; the library erf is replaced by the exact normal distribution function."
  },
  {
   "property": "C36",
   "status": "partial",
   "theorems": [
    "C36_result",
    "C36_inverts",
    "C36_none",
    "C36_none_refuted",
    "C36_none_partial"
   ],
   "note": "False as stated: a target strictly inside the no-arbitrage bounds whose volatility exceeds 5 gives None. Inversion, exact None condition, and existence and uniqueness of the implied volatility proved."
  },
  {
   "property": "C37",
   "status": "proved",
   "theorems": [
    "C37_parity",
    "C37_expectation",
    "C37_intrinsic",
    "C37_increasing",
    "C37_greeks",
    "C37_vega_sigma"
   ],
   "note": "Prices also proved to be the expected payoff of a normal forward. Real arithmetic."
  },
  {
   "property": "C38",
   "status": "proved",
   "theorems": [
    "C38_defined",
    "C38_positive",
    "C38_one",
    "C38_forward",
    "C38_forward_defined"
   ],
   "note": ""
  },
  {
   "property": "C39",
   "status": "proved",
   "theorems": [
    "C39_shift",
    "C39_defined",
    "C39_zero"
   ],
   "note": ""
  },
  {
   "property": "C40",
   "status": "partial",
   "theorems": [
    "C40_refuted",
    "C40_first_partial",
    "C40_line_partial",
    "C40_between_partial",
    "C40_beyond_partial"
   ],
   "note": "False of the code in both halves: the look-up is for the next day, and beyond the last pillar the first pillar's rate is used. Exact behaviour proved."
  },
  {
   "property": "C41",
   "status": "partial",
   "theorems": [
    "C41_contiguous",
    "C41_explicit",
    "C41_count_partial",
    "C41_count_refuted",
    "C41_negative_tenor",
    "C41_overflow",
    "C41_ends",
    "C41_maturity",
    "C41_open",
    "C41_order",
    "C41_pay"
   ],
   "note": "False as stated: the units of tenor and duration are ignored (a one-year leg with a three-month tenor has no periods) and a zero tenor panics. Proved for equal units. Order needs a calendar that opens every eleven months and excludes Nearest (C05)."
  },
  {
   "property": "C42",
   "status": "proved",
   "theorems": [
    "C42_value",
    "C42_additive",
    "C42_order_free",
    "C42_antisymmetric",
    "C42_linear",
    "C42_floating",
    "C42_floating_generated"
   ],
   "note": ""
  },
  {
   "property": "C43",
   "status": "proved",
   "theorems": [
    "C43_unshifted",
    "C43_mtm",
    "C43_shifted",
    "C43_dv01",
    "C43_gamma",
    "C43_modes",
    "C43_maturity",
    "C43_solve",
    "C43_bracket",
    "C43_settle"
   ],
   "note": "The external root finder is a parameter with its documented contract as hypothesis."
  },
  {
   "property": "C44",
   "status": "partial",
   "theorems": [
    "C44_checked",
    "C44_atm",
    "C44_quoted_partial",
    "C44_rr_bf",
    "C44_between",
    "C44_outside",
    "C44_errors",
    "C44_quoted_refuted"
   ],
   "note": "False as stated: a call quoted with a risk reversal and a butterfly but no put is accepted and ignored. Proved for ATM, call/put pairs and risk reversal/butterfly pairs (deltas, volatilities, strike order), with time interpolation, flat ends, error conditions and absence of panics. Real arithmetic; the library quantile is the exact one."
  },
  {
   "property": "C45",
   "status": "partial",
   "theorems": [
    "C45_partial",
    "C45_refuted"
   ],
   "note": "Real arithmetic. The root finder is a parameter with a residual tolerance. The claim is false for grids with gaps: C45_refuted (a strike quoted only for a later expiry prices its early caplets off the other strikes). C45_partial: every quote whose strike is also quoted at all earlier quoted expiries, with no duplicate quote and no strikes within 1e-12 of each other, is repriced within the tolerance."
  },
  {
   "property": "C46",
   "status": "proved",
   "theorems": [
    "C46_best",
    "C46_start",
    "C46_cap",
    "C46_total",
    "C46_more",
    "C46_converged",
    "C46_moves",
    "C46_nan"
   ],
   "note": "Over any float type with the comparison laws (reals and binary64 are shown to be such) and any sort meeting its contract. The objective is a pure function."
  },
  {
   "property": "C47",
   "status": "partial",
   "theorems": [
    "C47_complete_partial",
    "C47_states_at_partial",
    "C47_lost",
    "C47_total",
    "C47_actual",
    "C47_refuted"
   ],
   "note": "False in general: C47_refuted - with 30/360 an observation on the 31st (30th valuation) has no time step, is never recorded and blocks all later observations; states_at then panics. Proved: exact characterisation of what is lost (C47_lost), completeness and states_at whenever year fractions increase strictly (C47_complete_partial, C47_states_at_partial), that Actual/N counters do so (C47_actual), and that the run fails only on its assertions (C47_total)."
  },
  {
   "property": "C48",
   "status": "proved",
   "theorems": [
    "C48_float",
    "C48_paths",
    "C48_terminal",
    "C48_zero"
   ],
   "note": "Signs in binary64 for every input incl. NaN (C48_float, libm abstract), along whole paths of both drivers over the reals."
  },
  {
   "property": "C49",
   "status": "partial",
   "theorems": [
    "C49_b",
    "C49_small",
    "C49_variance",
    "C49_bond_partial",
    "C49_refuted",
    "C49_discount"
   ],
   "note": "Proved that hw_b is the integral of the decay factor, that the short-rate variance is the Ito isometry integral, that the small-parameter branch is within second order, and the affine discount factor. bond_log_variance is false of the code (C49_refuted); C49_bond_partial says what it computes."
  },
  {
   "property": "C50",
   "status": "proved",
   "theorems": [
    "C50_factor",
    "C50_definite",
    "C50_unique",
    "C50_correlation"
   ],
   "note": "Real arithmetic; covers the text shared by fmm.rs, fx_fmm_simulator.rs and fx_hhw.rs."
  },
  {
   "property": "C51",
   "status": "partial",
   "theorems": [
    "C51_notify",
    "C51_prune",
    "C51_borrowed",
    "C51_curve",
    "C51_surface_refuted",
    "C51_valuation_date_refuted"
   ],
   "note": "Histories of create, drop, attach, assign and notify on one observable, for every update function that touches only its own observer (both shipped ones do). A notified curve keeps its own valuation date (C51_valuation_date_refuted) and a notified caplet surface is never re-stripped (C51_surface_refuted)."
  },
  {
   "property": "C52",
   "status": "partial",
   "theorems": [
    "C52_new",
    "C52_formula",
    "C52_domain",
    "C52_atm",
    "C52_positive_partial",
    "C52_positive_refuted",
    "C52_symmetry_partial",
    "C52_symmetry_refuted",
    "C52_taylor_refuted",
    "C52_lognormal",
    "C52_skew",
    "C52_skew_sign",
    "C52_continuous"
   ],
   "note": "Over the reals. The formula and the skew hold at every valid parameter set; positivity and the F/K symmetry are refuted with their exact conditions; the Taylor branch has the sign of its second-order term wrong, which is below 2e-16 relative inside the branch."
  },
  {
   "property": "C53",
   "status": "partial",
   "theorems": [
    "C53_chi",
    "C53_psi",
    "C53_price",
    "C53_parity",
    "C53_coefficients",
    "C53_exact",
    "C53_new",
    "C53_overrides",
    "C53_outside_refuted"
   ],
   "note": "Over the reals, for any characteristic function given at real frequencies. In range the prices are integrals against the truncated cosine series; exact for cosine polynomials. Nothing checks that the strike is in the range: C53_outside_refuted."
  },
  {
   "property": "C54",
   "status": "partial",
   "theorems": [
    "C54_bond",
    "C54_joins",
    "C54_chain",
    "C54_initial",
    "C54_first_date_refuted",
    "C54_bank",
    "C54_front"
   ],
   "note": "Over the reals, on tenors the constructor accepts and paths with positive growth factors. Times within 1e-15 after a period start are excluded. A first date after today is accepted but its discount is missing (C54_first_date_refuted)."
  },
  {
   "property": "C55",
   "status": "partial",
   "theorems": [
    "C55_new",
    "C55_at_partial",
    "C55_refuted",
    "C55_constant",
    "C55_constant_volatility",
    "C55_constant_correlation",
    "C55_gamma_refuted",
    "C55_rho_refuted"
   ],
   "note": "The constructor and the lookup are characterised for every schedule (C55_new, C55_at_partial). The lookup is documented as right-continuous and is not: at a knot it gives the segment before (C55_refuted). Fully constant schedules recover their parameters within the stated tolerances (C55_constant, C55_constant_volatility, C55_constant_correlation). Two statements in the comments are false: a constant vol-vol is not recovered whatever the volatility (C55_gamma_refuted) and a constant correlation is not returned (C55_rho_refuted). Real arithmetic."
  },
  {
   "property": "C56",
   "status": "proved",
   "theorems": [
    "C56_before_cutoff",
    "C56_after_cutoff",
    "C56_cutoffs"
   ],
   "note": ""
  },
  {
   "property": "C57",
   "status": "partial",
   "theorems": [
    "C57_spot_refuted",
    "C57_spot_partial",
    "C57_near_partial"
   ],
   "note": "False of the code: the lag is counted in calendar days and the month-end rule is applied to spot. Exact behaviour and the dates on which it is right proved."
  },
  {
   "property": "C58",
   "status": "partial",
   "theorems": [
    "C58_forward_at_refuted",
    "C58_forward_at_partial"
   ],
   "note": "False of the code: forward_at returns the raw points. Exact behaviour proved."
  },
  {
   "property": "C59",
   "status": "partial",
   "theorems": [
    "C59_reprices",
    "C59_discount",
    "C59_overnight_refuted",
    "C59_sign"
   ],
   "note": "Repricing proved for quotes that mature after they settle; the five overnight indices never do (period SPOT), so their zero rate is 0/0."
  },
  {
   "property": "C60",
   "status": "partial",
   "theorems": [
    "C60_dates",
    "C60_discount",
    "C60_related_partial",
    "C60_related_refuted",
    "C60_zero",
    "C60_first_partial",
    "C60_first_refuted"
   ],
   "note": "Dates, own-accrual discounting and later futures proved; the first future's rate is a forward rate from the last cash entry, not a zero rate, and a future settling beyond the curve is discounted with the first entry."
  },
  {
   "property": "C61",
   "status": "partial",
   "theorems": [
    "C61_structure",
    "C61_sorted",
    "C61_count_partial",
    "C61_count_refuted",
    "C61_discounts_partial",
    "C61_swaps",
    "C61_own_maturity_refuted"
   ],
   "note": "False as stated: k cash quotes with one maturity give k*k entries, swap entries have discount factor 0, and a solved swap rate is not used at its own maturity. Structure, order, exact count and repricing on the prefix curve proved; root finder and sort are parameters under their contracts."
  },
  {
   "property": "C62",
   "status": "partial",
   "theorems": [
    "C62_published_partial",
    "C62_published_refuted",
    "C62_spot"
   ],
   "note": "False for AONIA (Austria's calendar) and CDOR (US dollars, US calendar); proved for the others."
  },
  {
   "property": "C63",
   "status": "partial",
   "theorems": [
    "C63_value",
    "C63_parity",
    "C63_delta_partial",
    "C63_gamma",
    "C63_vega_partial",
    "C63_expired",
    "C63_delta_refuted",
    "C63_vega_refuted"
   ],
   "note": "False as stated: mtm is negative for a buyer while delta and vega are positive, delta leaves out the discount factor and, for a domestic notional, the conversion at the strike. Value, parity, exact relation of each greek to the value proved."
  },
  {
   "property": "C64",
   "status": "proved",
   "theorems": [
    "C64_strike",
    "C64_expiry",
    "C64_stripped",
    "C64_unstripped"
   ],
   "note": "Real arithmetic. The doc comment calls the step in expiry right-continuous; the rule used (first pillar with expiry >= date) is the left-continuous one, and is what is proved."
  },
  {
   "property": "C65",
   "status": "proved",
   "theorems": [
    "C65_integral",
    "C65_bounds"
   ],
   "note": "Real arithmetic."
  },
  {
   "property": "C66",
   "status": "proved",
   "theorems": [
    "C66_value",
    "C66_parity",
    "C66_deal",
    "C66_intrinsic"
   ],
   "note": "Real arithmetic."
  },
  {
   "property": "C67",
   "status": "proved",
   "theorems": [
    "C67_vega_sign",
    "C67_analytic"
   ],
   "note": "Real arithmetic. analytic_vega_1bp is dead code in the repository; it is modelled and proved all the same."
  },
  {
   "property": "C68",
   "status": "proved",
   "theorems": [
    "C68_dv01",
    "C68_gamma",
    "C68_errors",
    "C68_duration"
   ],
   "note": "Real arithmetic. The curve must have ordered pillars, as for C43."
  },
  {
   "property": "C69",
   "status": "proved",
   "theorems": [
    "C69_hhw",
    "C69_states",
    "C69_sabr",
    "C69_stock"
   ],
   "note": "Real arithmetic; expectation = iterated improper integral against the normal density of the draws."
  },
  {
   "property": "C70",
   "status": "proved",
   "theorems": [
    "C70_one_factor",
    "C70_truncated",
    "C70_quanto",
    "C70_paths"
   ],
   "note": "Real arithmetic; whole paths by the tower property; the discount factor is e^{r dt} with the rate before each step."
  },
  {
   "property": "C71",
   "status": "proved",
   "theorems": [
    "C71_moments",
    "C71_shape"
   ],
   "note": "Both moments are proved to solve their differential equations, with the kappa = 0 branch, bounds, signs and limits."
  },
  {
   "property": "C72",
   "status": "partial",
   "theorems": [
    "C72_law",
    "C72_series",
    "C72_error",
    "C72_special",
    "C72_large_partial",
    "C72_refuted",
    "C72_limit"
   ],
   "note": "The branch for a non-centrality above 500 is false of its documentation: it takes the square root of the corrected mean, which halves the correction (C72_refuted, C72_large_partial). The series, its tail bound, the special cases and the limit hold for any function satisfying the functional equation of ln Gamma; that statrs computes ln Gamma is outside."
  },
  {
   "property": "C73",
   "status": "partial",
   "theorems": [
    "C73_new",
    "C73_at",
    "C73_step",
    "C73_simulate",
    "C73_flat",
    "C73_paths",
    "C73_constant",
    "C73_alpha_ignored",
    "C73_alpha_refuted",
    "C73_knot_refuted"
   ],
   "note": "The constructor, the parameter lookup, the reduction of every step and of flat schedules to the constant-parameter simulator, success and signs are proved for every schedule, and the simulation is written out path by path and step by step (C73_paths). The volatility schedule after time zero is never used (C73_alpha_ignored, C73_alpha_refuted), and a step started at a knot, as the date-driven runner does, takes the previous segment's parameters (C73_knot_refuted). Real arithmetic."
  },
  {
   "property": "C74",
   "status": "proved",
   "theorems": [
    "C74_root",
    "C74_solution",
    "C74_unique",
    "C74_total",
    "C74_term",
    "C74_correlation",
    "C74_refuses"
   ],
   "note": "Proved against the integrals of the paper (Riemann integrals of the schedules), with existence and uniqueness of the solution, for an expiry at a knot with no other knot within 1e-12. Real arithmetic: the guarded branches (Taylor expansions below 1e-6) are part of the model and their error is part of the bound."
  },
  {
   "property": "C75",
   "status": "partial",
   "theorems": [
    "C75_total",
    "C75_step",
    "C75_x",
    "C75_frozen",
    "C75_snapshot_refuted",
    "C75_deterministic"
   ],
   "note": "Over the reals. The snapshot of a rate is taken at the end of the first step that ends after the period start, so on a grid containing the start it holds the rate one step later (C75_snapshot_refuted). The deterministic case excludes times within 1e-15 after a period start."
  },
  {
   "property": "C76",
   "status": "partial",
   "theorems": [
    "C76_new",
    "C76_with",
    "C76_level",
    "C76_level_refuted",
    "C76_decay",
    "C76_eta",
    "C76_ho_lee",
    "C76_ho_lee_limit",
    "C76_piecewise"
   ],
   "note": "Over the reals. The struct documents the default level R + 1/tau; the code uses 1 (C76_level_refuted)."
  },
  {
   "property": "C77",
   "status": "partial",
   "theorems": [
    "C77_build",
    "C77_equation",
    "C77_exact",
    "C77_flat",
    "C77_bilinear",
    "C77_range",
    "C77_fallback",
    "C77_floor_refuted"
   ],
   "note": "The band, the interpolation, Dupire's equation and consistency of the differences are proved; the documented floor on the denominator is false of the code, which falls back to the market variance."
  },
  {
   "property": "C78",
   "status": "partial",
   "theorems": [
    "C78_bins",
    "C78_path",
    "C78_mimics",
    "C78_same_vol",
    "C78_simulate",
    "C78_construct",
    "C78_step",
    "C78_run",
    "C78_absorbed_refuted"
   ],
   "note": "sabr_slv.rs whole; absorbed paths read another bin (refuted with witness)"
  },
  {
   "property": "C79",
   "status": "partial",
   "theorems": [
    "C79_softplus",
    "C79_fit",
    "C79_improves",
    "C79_exact",
    "C79_domain",
    "C79_sentinel_refuted"
   ],
   "note": "sabr_calibrator.rs except the Calibration trait wrapper (C80); the sentinel counts as an error (refuted with witness)"
  },
  {
   "property": "C80",
   "status": "partial",
   "theorems": [
    "C80_bisect",
    "C80_valid",
    "C80_nu",
    "C80_alpha",
    "C80_rho",
    "C80_rho_exact",
    "C80_stage1",
    "C80_post_fit",
    "C80_surface",
    "C80_domain",
    "C80_single",
    "C80_clamp_refuted",
    "C80_strip",
    "C80_strip_domain",
    "C80_strip_clock_refuted"
   ],
   "note": "Real arithmetic. The bisection stages are stated as bracket-or-hit because monotonicity of the matched quantity is proved only for one segment (C80_single). C80_clamp_refuted is at the level of stage 4; C80_strip_clock_refuted contradicts the doc comment of MarketSmileStrip."
  },
  {
   "property": "C81",
   "status": "partial",
   "theorems": [
    "C81_denominator",
    "C81_riccati",
    "C81_bounded",
    "C81_total",
    "C81_cached",
    "C81_mass",
    "C81_martingale",
    "C81_conjugate",
    "C81_modulus",
    "C81_pde",
    "C81_limit",
    "C81_time_partial",
    "C81_time_refuted",
    "C81_black"
   ],
   "note": "The nodes pair C at time to expiry s with the bond volatility at calendar time s; C81_time_refuted exhibits the difference and C81_time_partial covers the case without that correlation."
  },
  {
   "property": "C82",
   "status": "proved",
   "theorems": [
    "C82_tenor",
    "C82_active",
    "C82_accrual",
    "C82_validate",
    "C82_psi",
    "C82_displacement",
    "C82_sides",
    "C82_variance"
   ],
   "note": "the accepted shapes exactly; the quadratic forms and their sum as the variance of the linearised forward; displacements read by no coefficient"
  },
  {
   "property": "C83",
   "status": "proved",
   "theorems": [
    "C83_total",
    "C83_segments",
    "C83_riccati",
    "C83_limit",
    "C83_pde",
    "C83_modulus",
    "C83_martingale",
    "C83_conjugate",
    "C83_pricer"
   ],
   "note": "The limit and the backward equation assume the three square-root means continuous, which the truncated series is not shown to be; the witness has them constant. For gamma = 0 the code divides by zero and for kappa <= gamma rho at -i it divides zero by zero, both excluded."
  },
  {
   "property": "C84",
   "status": "partial",
   "theorems": [
    "C84_validate",
    "C84_psi",
    "C84_sides",
    "C84_variance",
    "C84_positive_refuted"
   ],
   "note": "The checks iff, the coefficients in closed form, the immaterial start index and Lipschitz bound, and the variance identity are proved for all inputs. Positivity of an accepted block is refuted by a witness (C84_positive_refuted)."
  },
  {
   "property": "C85",
   "status": "partial",
   "theorems": [
    "C85_total",
    "C85_segments",
    "C85_riccati",
    "C85_error",
    "C85_limit",
    "C85_pde",
    "C85_modulus",
    "C85_martingale",
    "C85_conjugate",
    "C85_pricer",
    "C85_last_period_refuted"
   ],
   "note": "Refuted part: T_M is not a chunk boundary, so an expiry past the tenor can drop every rate at the default resolution; the rest is proved."
  },
  {
   "property": "C86",
   "status": "partial",
   "theorems": [
    "C86_new",
    "C86_factor",
    "C86_total",
    "C86_step",
    "C86_frozen",
    "C86_terminal",
    "C86_moments",
    "C86_quanto",
    "C86_paths",
    "C86_domestic",
    "C86_no_carry",
    "C86_matrix",
    "C86_cross_refuted",
    "C86_variance_refuted",
    "C86_variance"
   ],
   "note": "Refuted: the simulated correlation of a domestic and a foreign rate is the average of the two opposite entries of cross_rate_corr, while the characteristic function uses the block as given; v_{d,0} and v_{f,0} are said to be kept but nothing depends on them."
  },
  {
   "property": "C87",
   "status": "partial",
   "theorems": [
    "C87_vols",
    "C87_hhw_fit",
    "C87_bounded_fit",
    "C87_hlmm_fit",
    "C87_fmm_fit",
    "C87_hhw_improves",
    "C87_bounded_improves",
    "C87_hlmm_improves",
    "C87_fmm_improves",
    "C87_hhw_domain",
    "C87_hlmm_domain",
    "C87_fmm_domain",
    "C87_discount",
    "C87_discount_refuted",
    "C87_strip"
   ],
   "note": "Refuted: the FX-HLMM and FX-FMM discount factor is the bond to the last tenor date for every expiry before it, so volatilities at earlier expiries are backed out with the wrong discount. Also: a model failing its check is fitted silently with rmse 1000/sqrt n, the forward of the strip is not used, and the wrappers panic (never Err) on an expired or empty strip."
  },
  {
   "property": "C88",
   "status": "partial",
   "theorems": [
    "C88_context",
    "C88_surface",
    "C88_last_swap",
    "C88_caps_partial",
    "C88_earlier_swap_refuted",
    "C88_date_refuted"
   ],
   "note": "Refuted: with an exact root finder an earlier swap quote is not priced at zero on the finished curve (zero_rate reads one day past the date asked for, so the entry after it leaks in), and from_raw_quotes accepts quotes dated differently from the context. Partial: cap quotes reprice under the grid conditions of C45_partial."
  },
  {
   "property": "C89",
   "status": "partial",
   "theorems": [
    "C89_raw",
    "C89_independent",
    "C89_implied_vol",
    "C89_pair_helper",
    "C89_forward_partial",
    "C89_linear",
    "C89_forward_refuted",
    "C89_parity_refuted",
    "C89_stand_in_refuted"
   ],
   "note": "The raw-quote constructor dates forwards with a spot lag of two for every pair: right for pairs settling on the second day, refuted for USDCAD. Parity and the stand-in curve of the documentation are refuted."
  },
  {
   "property": "C90",
   "status": "partial",
   "theorems": [
    "C90_follows",
    "C90_departures",
    "C90_ukraine_refuted",
    "C90_france_refuted",
    "C90_france_years",
    "C90_argentina_refuted",
    "C90_nyse_refuted",
    "C90_fed_refuted",
    "C90_equinoxes",
    "C90_japan_refuted"
   ],
   "note": "Fifty-two calendar and market pairs are proved equal to independent lists of holiday rules over 1901-2199, and eight more with their departure spelled out. Refuted against the law: Ukraine uses Western Easter, France's settlement calendar fixes Ascension Day and Whit Monday on 10 and 21 May, Argentina opens on Christmas Day, the NYSE calendar puts election day on the first Tuesday of November and is open on 9 January 2025, the Federal Reserve calendar moves a Saturday Juneteenth to Friday, and Japan's equinoxes are wrong in 28 and 39 of the 120 years 1980-2099."
  },
  {
   "property": "C91",
   "status": "partial",
   "theorems": [
    "C91_rules",
    "C91_tables",
    "C91_tables_refuted",
    "C91_tel_aviv",
    "C91_shir",
    "C91_expired",
    "C91_week_refuted"
   ],
   "note": "The two misplaced days and the weekend of the Tel Aviv exchange are refuted; with them put aside the tables are those of the Hebrew calendar."
  },
  {
   "property": "C92",
   "status": "partial",
   "theorems": [
    "C92_tables",
    "C92_korea",
    "C92_korea_refuted",
    "C92_hong_kong",
    "C92_hong_kong_refuted",
    "C92_china",
    "C92_china_refuted",
    "C92_new_year",
    "C92_festivals",
    "C92_new_year_refuted",
    "C92_singapore_monday_refuted"
   ],
   "note": "South Korea to 2050 and Hong Kong to 2025 day for day; the other calendars on the lunar festivals; missing and misdated entries refuted"
  },
  {
   "property": "C93",
   "status": "partial",
   "theorems": [
    "C93_rules",
    "C93_turkey",
    "C93_turkey_only",
    "C93_turkey_refuted",
    "C93_others",
    "C93_others_refuted"
   ],
   "note": "Turkey's feasts within the tolerance of the crescent, its other closings exactly; Singapore, Indonesia and India by Hijri year; misdated and missing feasts refuted"
  },
  {
   "property": "C94",
   "status": "partial",
   "theorems": [
    "C94_moons",
    "C94_thailand",
    "C94_thailand_refuted",
    "C94_russia",
    "C94_russia_refuted",
    "C94_moscow",
    "C94_moscow_refuted"
   ],
   "note": "exact day sets of Thailand, Russia and the Moscow exchange; missing Buddhist days, the January holidays and the exchange's New Year refuted"
  },
  {
   "property": "C95",
   "status": "partial",
   "theorems": [
    "C95_china",
    "C95_china_refuted",
    "C95_taiwan",
    "C95_taiwan_refuted",
    "C95_singapore",
    "C95_singapore_refuted",
    "C95_indonesia",
    "C95_india",
    "C95_holes_refuted"
   ],
   "note": "Refuted: China stops at 2026, Taiwan's tomb sweeping after 2026, the years Singapore, India and Indonesia leave out"
  },
  {
   "property": "C96",
   "status": "partial",
   "theorems": [
    "C96_clock",
    "C96_exact",
    "C96_lookup",
    "C96_tolerance",
    "C96_knot",
    "C96_records",
    "C96_records_refuted",
    "C96_bond",
    "C96_bond_refuted",
    "C96_exact_grid"
   ],
   "note": "Binary64 throughout (Flocq). The clock stays near the exact grid and lookups up to the horizon succeed (C96_clock, C96_lookup, C96_exact, C96_exact_grid); the recording of period starts depends on rounding (C96_records, C96_records_refuted), the bond at the horizon can panic (C96_bond, C96_bond_refuted), and the tolerance vanishes at 16 years (C96_tolerance)."
  },
  {
   "property": "C97",
   "status": "partial",
   "theorems": [
    "C97_sound",
    "C97_complete",
    "C97_drivers",
    "C97_pair",
    "C97_nan_refuted",
    "C97_order_refuted",
    "C97_definite_refuted"
   ],
   "note": "rounding in the Cholesky test: right up to n^2 2^-51; NaN accepted, order dependent, and exactness refuted with witnesses"
  },
  {
   "property": "C98",
   "status": "partial",
   "theorems": [
    "C98_implied",
    "C98_iterations",
    "C98_inverse",
    "C98_range",
    "C98_effective",
    "C98_effective_panic",
    "C98_calibrator",
    "C98_nan_refuted",
    "C98_tolerance_refuted"
   ],
   "note": "bisections over arbitrary functions on doubles; NaN handling and the 1e-10 tolerance in wide brackets refuted with witnesses"
  },
  {
   "property": "C99",
   "status": "partial",
   "theorems": [
    "C99_bracket",
    "C99_local_variance",
    "C99_smile",
    "C99_points",
    "C99_surface",
    "C99_quoted_refuted"
   ],
   "note": "Rounding analysis of the linear interpolations; a quoted strike is not given back exactly."
  },
  {
   "property": "C100",
   "status": "partial",
   "theorems": [
    "C100_differences",
    "C100_fd_t",
    "C100_floor",
    "C100_path",
    "C100_nan_refuted",
    "C100_clamp",
    "C100_node",
    "C100_dupire",
    "C100_variance",
    "C100_leverage",
    "C100_clamp_refuted"
   ],
   "note": "Refuted: a NaN gives a variance of zero and passes a clamp. Every other clause is proved."
  },
  {
   "property": "C101",
   "status": "partial",
   "theorems": [
    "C101_nan_refuted",
    "C101_entry",
    "C101_matrix",
    "C101_sabr",
    "C101_td",
    "C101_accepts",
    "C101_fmm",
    "C101_tenor",
    "C101_infinite_refuted"
   ],
   "note": "the checks returning errors accept NaN anywhere, the assertions accept infinities"
  },
  {
   "property": "C102",
   "status": "partial",
   "theorems": [
    "C102_cover",
    "C102_index",
    "C102_adjacent_refuted",
    "C102_substeps",
    "C102_refuses"
   ],
   "note": "a sliver next to a tenor date can get the wrong index"
  },
  {
   "property": "C103",
   "status": "partial",
   "theorems": [
    "C103_antisymmetric",
    "C103_market",
    "C103_accuracy",
    "C103_zero_strike_refuted",
    "C103_sign"
   ],
   "note": "a strike of zero gives an infinite value"
  },
  {
   "property": "C104",
   "status": "partial",
   "theorems": [
    "C104_accuracy",
    "C104_monotone",
    "C104_range",
    "C104_pillar_refuted",
    "C104_flat"
   ],
   "note": "a pillar does not always keep its own rate"
  },
  {
   "property": "C105",
   "status": "partial",
   "theorems": [
    "C105_antisymmetric",
    "C105_sum",
    "C105_flow",
    "C105_principal",
    "C105_accuracy",
    "C105_reset",
    "C105_no_length_refuted",
    "C105_cancel_refuted"
   ],
   "note": "Refuted: a leg against itself turned round need not be worth zero, and a floating period of no length makes the value NaN. Proved: antisymmetry, the accuracy of the sum, of each flow, of the principal and of the reset rate."
  },
  {
   "property": "C106",
   "status": "partial",
   "theorems": [
    "C106_range",
    "C106_monotone",
    "C106_accuracy",
    "C106_strict_refuted",
    "C106_pole_refuted",
    "C106_implied"
   ],
   "note": "Refuted: small products are not told apart from zero and a product of minus one is a pole. Proved: range, monotonicity and accuracy of the factor; zero, monotonicity and accuracy of the implied rate."
  }
 ]
}