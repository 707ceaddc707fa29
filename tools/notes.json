{
 "C05": {
  "note": "False of the code: Nearest returns the holiday side. C05_nearest_partial says exactly what it returns."
 },
 "C07": {
  "note": "The modified conventions compare month numbers only, so the claim needs an open day within eleven months; a witness shows the hypothesis is needed. Nearest excluded (C05)."
 },
 "C12": {
  "note": "False of the code: with default flags a same-day count examines every day to the end of time, and include_first=true excludes the first day."
 },
 "C13": {
  "note": "In year 262142 the method panics for every date (C13_last_year_panics)."
 },
 "C20": {
  "note": "False without overflow checks (release profile); proved with them, and in release whenever the multiplication fits."
 },
 "C22": {
  "note": "False when the near leg's raw date falls after the last business day of the month; exact condition proved."
 },
 "C23": {
  "note": "Frequency half false: \"Once\" reads back as NoFrequency; exact set of round-tripping names proved."
 },
 "C25": {
  "note": "Published rules, additivity, tolerance and anniversary proved; non-negativity is false only for an empty period at an end-of-February ISDA/German termination date."
 },
 "C26": {
  "note": "False of the code: MONTH_OFFSET has 344 for December (should be 334), so December dates are ten days off; the exact offset is proved."
 },
 "C27": {
  "note": "False of the code: both partial-year terms have the wrong sign. C27_isda_partial gives the value computed, in binary64, to 1e-9."
 },
 "C28": {
  "note": "False of the code: later months are counted once per preceding month start, month starts are skipped, and an empty period counts to the end of time. Exact formulas proved."
 },
 "C30": {
  "note": "Round trip proved for references from 1910 on; false before (digit 0 rule), is_imm_code panics on one two-byte character, lower-case codes are accepted and then panic."
 },
 "C31": {
  "note": "False of the code: from the third Wednesday on the recursion never ends (December: panic), and main_cycle is ignored. Complete behaviour proved."
 },
 "C34": {
  "note": "Value, linearity, antisymmetry, zero at the market, expiry and notional equivalence proved; the delta half is false because delta omits the discount factor, and the exact relation is proved."
 },
 "C40": {
  "note": "False of the code in both halves: the look-up is for the next day, and beyond the last pillar the first pillar's rate is used. Exact behaviour proved."
 },
 "C57": {
  "note": "False of the code: the lag is counted in calendar days and the month-end rule is applied to spot. Exact behaviour and the dates on which it is right proved."
 },
 "C58": {
  "note": "False of the code: forward_at returns the raw points. Exact behaviour proved."
 },
 "C41": {
  "note": "False as stated: the units of tenor and duration are ignored (a one-year leg with a three-month tenor has no periods) and a zero tenor panics. Proved for equal units. Order needs a calendar that opens every eleven months and excludes Nearest (C05)."
 },
 "C43": {
  "note": "The external root finder is a parameter with its documented contract as hypothesis."
 },
 "C59": {
  "note": "Repricing proved for quotes that mature after they settle; the five overnight indices never do (period SPOT), so their zero rate is 0/0."
 },
 "C60": {
  "note": "Dates, own-accrual discounting and later futures proved; the first future's rate is a forward rate from the last cash entry, not a zero rate, and a future settling beyond the curve is discounted with the first entry."
 },
 "C61": {
  "note": "False as stated: k cash quotes with one maturity give k*k entries, swap entries have discount factor 0, and a solved swap rate is not used at its own maturity. Structure, order, exact count and repricing on the prefix curve proved; root finder and sort are parameters under their contracts."
 },
 "C62": {
  "note": "False for AONIA (Austria's calendar) and CDOR (US dollars, US calendar); proved for the others."
 },
 "C35": {
  "note": "Prices also proved to be the discounted expected payoff of a lognormal forward (improper integral), with limits in volatility. Real arithmetic; the library erf is replaced by the exact normal distribution function."
 },
 "C36": {
  "note": "False as stated: a target strictly inside the no-arbitrage bounds whose volatility exceeds 5 gives None. Inversion, exact None condition, and existence and uniqueness of the implied volatility proved."
 },
 "C37": {
  "note": "Prices also proved to be the expected payoff of a normal forward. Real arithmetic."
 },
 "C63": {
  "note": "False as stated: mtm is negative for a buyer while delta and vega are positive, delta leaves out the discount factor and, for a domestic notional, the conversion at the strike. Value, parity, exact relation of each greek to the value proved."
 },
 "C44": {
  "note": "False as stated: a call quoted with a risk reversal and a butterfly but no put is accepted and ignored. Proved for ATM, call/put pairs and risk reversal/butterfly pairs (deltas, volatilities, strike order), with time interpolation, flat ends, error conditions and absence of panics. Real arithmetic; the library quantile is the exact one."
 },
 "C45": {
  "note": "Real arithmetic. The root finder is a parameter with a residual tolerance. The claim is false for grids with gaps: C45_refuted (a strike quoted only for a later expiry prices its early caplets off the other strikes). C45_partial: every quote whose strike is also quoted at all earlier quoted expiries, with no duplicate quote and no strikes within 1e-12 of each other, is repriced within the tolerance."
 },
 "C64": {
  "note": "Real arithmetic. The doc comment calls the step in expiry right-continuous; the rule used (first pillar with expiry >= date) is the left-continuous one, and is what is proved."
 },
 "C65": {
  "note": "Real arithmetic."
 },
 "C66": {
  "note": "Real arithmetic."
 },
 "C67": {
  "note": "Real arithmetic. analytic_vega_1bp is dead code in the repository; it is modelled and proved all the same."
 },
 "C68": {
  "note": "Real arithmetic. The curve must have ordered pillars, as for C43."
 },
 "C46": {
  "note": "Over any float type with the comparison laws (reals and binary64 are shown to be such) and any sort meeting its contract. The objective is a pure function."
 },
 "C47": {
  "note": "False in general: C47_refuted - with 30/360 an observation on the 31st (30th valuation) has no time step, is never recorded and blocks all later observations; states_at then panics. Proved: exact characterisation of what is lost (C47_lost), completeness and states_at whenever year fractions increase strictly (C47_complete_partial, C47_states_at_partial), that Actual/N counters do so (C47_actual), and that the run fails only on its assertions (C47_total)."
 },
 "C48": {
  "note": "Signs in binary64 for every input incl. NaN (C48_float, libm abstract), along whole paths of both drivers over the reals."
 },
 "C50": {
  "note": "Real arithmetic; covers the text shared by fmm.rs, fx_fmm_simulator.rs and fx_hhw.rs."
 },
 "C69": {
  "note": "Real arithmetic; expectation = iterated improper integral against the normal density of the draws."
 },
 "C70": {
  "note": "Real arithmetic; whole paths by the tower property; the discount factor is e^{r dt} with the rate before each step."
 },
 "C49": {
  "note": "Proved that hw_b is the integral of the decay factor, that the short-rate variance is the Ito isometry integral, that the small-parameter branch is within second order, and the affine discount factor. bond_log_variance is false of the code (C49_refuted); C49_bond_partial says what it computes."
 },
 "C71": {
  "note": "Both moments are proved to solve their differential equations, with the kappa = 0 branch, bounds, signs and limits."
 },
 "C72": {
  "note": "The branch for a non-centrality above 500 is false of its documentation: it takes the square root of the corrected mean, which halves the correction (C72_refuted, C72_large_partial). The series, its tail bound, the special cases and the limit hold for any function satisfying the functional equation of ln Gamma; that statrs computes ln Gamma is outside."
 },
 "C55": {
  "note": "The constructor and the lookup are characterised for every schedule (C55_new, C55_at_partial). The lookup is documented as right-continuous and is not: at a knot it gives the segment before (C55_refuted). Fully constant schedules recover their parameters within the stated tolerances (C55_constant, C55_constant_volatility, C55_constant_correlation). Two statements in the comments are false: a constant vol-vol is not recovered whatever the volatility (C55_gamma_refuted) and a constant correlation is not returned (C55_rho_refuted). Real arithmetic."
 },
 "C73": {
  "note": "The constructor, the parameter lookup, the reduction of every step and of flat schedules to the constant-parameter simulator, success and signs are proved for every schedule, and the simulation is written out path by path and step by step (C73_paths). The volatility schedule after time zero is never used (C73_alpha_ignored, C73_alpha_refuted), and a step started at a knot, as the date-driven runner does, takes the previous segment's parameters (C73_knot_refuted). Real arithmetic."
 },
 "C74": {
  "note": "Proved against the integrals of the paper (Riemann integrals of the schedules), with existence and uniqueness of the solution, for an expiry at a knot with no other knot within 1e-12. Real arithmetic: the guarded branches (Taylor expansions below 1e-6) are part of the model and their error is part of the bound."
 },
 "C52": {
  "note": "Over the reals. The formula and the skew hold at every valid parameter set; positivity and the F/K symmetry are refuted with their exact conditions; the Taylor branch has the sign of its second-order term wrong, which is below 2e-16 relative inside the branch."
 },
 "C53": {
  "note": "Over the reals, for any characteristic function given at real frequencies. In range the prices are integrals against the truncated cosine series; exact for cosine polynomials. Nothing checks that the strike is in the range: C53_outside_refuted."
 },
 "C54": {
  "note": "Over the reals, on tenors the constructor accepts and paths with positive growth factors. Times within 1e-15 after a period start are excluded. A first date after today is accepted but its discount is missing (C54_first_date_refuted)."
 },
 "C75": {
  "note": "Over the reals. The snapshot of a rate is taken at the end of the first step that ends after the period start, so on a grid containing the start it holds the rate one step later (C75_snapshot_refuted). The deterministic case excludes times within 1e-15 after a period start."
 },
 "C76": {
  "note": "Over the reals. The struct documents the default level R + 1/tau; the code uses 1 (C76_level_refuted)."
 },
 "C51": {
  "note": "Histories of create, drop, attach, assign and notify on one observable, for every update function that touches only its own observer (both shipped ones do). A notified curve keeps its own valuation date (C51_valuation_date_refuted) and a notified caplet surface is never re-stripped (C51_surface_refuted)."
 },
 "C77": {
  "note": "The band, the interpolation, Dupire's equation and consistency of the differences are proved; the documented floor on the denominator is false of the code, which falls back to the market variance."
 },
 "C78": {
  "note": "sabr_slv.rs whole; absorbed paths read another bin (refuted with witness)"
 },
 "C79": {
  "note": "sabr_calibrator.rs except the Calibration trait wrapper (C80); the sentinel counts as an error (refuted with witness)"
 },
 "C80": {
  "note": "Real arithmetic. The bisection stages are stated as bracket-or-hit because monotonicity of the matched quantity is proved only for one segment (C80_single). C80_clamp_refuted is at the level of stage 4; C80_strip_clock_refuted contradicts the doc comment of MarketSmileStrip."
 },
 "C81": {
  "note": "The nodes pair C at time to expiry s with the bond volatility at calendar time s; C81_time_refuted exhibits the difference and C81_time_partial covers the case without that correlation."
 },
 "C82": {
  "note": "the accepted shapes exactly; the quadratic forms and their sum as the variance of the linearised forward; displacements read by no coefficient"
 },
 "C83": {
  "note": "The limit and the backward equation assume the three square-root means continuous, which the truncated series is not shown to be; the witness has them constant. For gamma = 0 the code divides by zero and for kappa <= gamma rho at -i it divides zero by zero, both excluded."
 },
 "C84": {
  "note": "The checks iff, the coefficients in closed form, the immaterial start index and Lipschitz bound, and the variance identity are proved for all inputs. Positivity of an accepted block is refuted by a witness (C84_positive_refuted)."
 },
 "C85": {
  "note": "Refuted part: T_M is not a chunk boundary, so an expiry past the tenor can drop every rate at the default resolution; the rest is proved."
 },
 "C86": {
  "note": "Refuted: the simulated correlation of a domestic and a foreign rate is the average of the two opposite entries of cross_rate_corr, while the characteristic function uses the block as given; v_{d,0} and v_{f,0} are said to be kept but nothing depends on them."
 },
 "C87": {
  "note": "Refuted: the FX-HLMM and FX-FMM discount factor is the bond to the last tenor date for every expiry before it, so volatilities at earlier expiries are backed out with the wrong discount. Also: a model failing its check is fitted silently with rmse 1000/sqrt n, the forward of the strip is not used, and the wrappers panic (never Err) on an expired or empty strip."
 },
 "C88": {
  "note": "Refuted: with an exact root finder an earlier swap quote is not priced at zero on the finished curve (zero_rate reads one day past the date asked for, so the entry after it leaks in), and from_raw_quotes accepts quotes dated differently from the context. Partial: cap quotes reprice under the grid conditions of C45_partial."
 },
 "C89": {
  "note": "The raw-quote constructor dates forwards with a spot lag of two for every pair: right for pairs settling on the second day, refuted for USDCAD. Parity and the stand-in curve of the documentation are refuted."
 },
 "C90": {
  "note": "Fifty-two calendar and market pairs are proved equal to independent lists of holiday rules over 1901-2199, and eight more with their departure spelled out. Refuted against the law: Ukraine uses Western Easter, France's settlement calendar fixes Ascension Day and Whit Monday on 10 and 21 May, Argentina opens on Christmas Day, the NYSE calendar puts election day on the first Tuesday of November and is open on 9 January 2025, the Federal Reserve calendar moves a Saturday Juneteenth to Friday, and Japan's equinoxes are wrong in 28 and 39 of the 120 years 1980-2099."
 },
 "C91": {
  "note": "The two misplaced days and the weekend of the Tel Aviv exchange are refuted; with them put aside the tables are those of the Hebrew calendar."
 },
 "C92": {
  "note": "South Korea to 2050 and Hong Kong to 2025 day for day; the other calendars on the lunar festivals; missing and misdated entries refuted"
 },
 "C93": {
  "note": "Turkey's feasts within the tolerance of the crescent, its other closings exactly; Singapore, Indonesia and India by Hijri year; misdated and missing feasts refuted"
 },
 "C94": {
  "note": "exact day sets of Thailand, Russia and the Moscow exchange; missing Buddhist days, the January holidays and the exchange's New Year refuted"
 },
 "C95": {
  "note": "Refuted: China stops at 2026, Taiwan's tomb sweeping after 2026, the years Singapore, India and Indonesia leave out"
 },
 "C96": {
  "note": "Binary64 throughout (Flocq). The clock stays near the exact grid and lookups up to the horizon succeed (C96_clock, C96_lookup, C96_exact, C96_exact_grid); the recording of period starts depends on rounding (C96_records, C96_records_refuted), the bond at the horizon can panic (C96_bond, C96_bond_refuted), and the tolerance vanishes at 16 years (C96_tolerance)."
 },
 "C97": {
  "note": "rounding in the Cholesky test: right up to n^2 2^-51; NaN accepted, order dependent, and exactness refuted with witnesses"
 },
 "C98": {
  "note": "bisections over arbitrary functions on doubles; NaN handling and the 1e-10 tolerance in wide brackets refuted with witnesses"
 },
 "C99": {
  "note": "Rounding analysis of the linear interpolations; a quoted strike is not given back exactly."
 },
 "C100": {
  "note": "Refuted: a NaN gives a variance of zero and passes a clamp. Every other clause is proved."
 },
 "C101": {
  "note": "the checks returning errors accept NaN anywhere, the assertions accept infinities"
 },
 "C102": {
  "note": "a sliver next to a tenor date can get the wrong index"
 },
 "C103": {
  "note": "a strike of zero gives an infinite value"
 },
 "C104": {
  "note": "a pillar does not always keep its own rate"
 },
 "C105": {
  "note": "Refuted: a leg against itself turned round need not be worth zero, and a floating period of no length makes the value NaN. Proved: antisymmetry, the accuracy of the sum, of each flow, of the principal and of the reset rate."
 },
 "C106": {
  "note": "Refuted: small products are not told apart from zero and a product of minus one is a pole. Proved: range, monotonicity and accuracy of the factor; zero, monotonicity and accuracy of the implied rate."
 }
}