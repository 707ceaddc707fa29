{"id": "C01", "title": "Following rolls to the first business day on or after the date", "statement": "Calendar::adjust(date, Following) returns the earliest date r >= date that the calendar reports as a business day; every date in [date, r) is reported as a holiday. It returns no other value, and fails (panics) only if the calendar itself panics on a date it has to inspect or no business day exists before the last representable date.", "quantifier": "every calendar implementing the trait (any is_business_day function), every representable date", "why_tests_cant": "the loop length depends on an arbitrary user-supplied calendar; tests sample a few calendars and dates", "anchors": ["src/time/calendars.rs::Calendar::adjust"]}
{"id": "C02", "title": "Preceding rolls to the last business day on or before the date", "statement": "Calendar::adjust(date, Preceding) returns the latest date r <= date that is a business day; every date in (r, date] is a holiday.", "quantifier": "every calendar, every representable date", "why_tests_cant": "same as C01: unbounded loop over an arbitrary calendar", "anchors": ["src/time/calendars.rs::Calendar::adjust"]}
{"id": "C03", "title": "Modified conventions stay in the month of the input date whenever possible", "statement": "adjust(date, ModifiedFollowing) equals Following when that falls in the month number of the input date and Preceding otherwise; ModifiedPreceding is the mirror image. If the month of the date contains a business day (and no closure lasts eleven months), the result is a business day in that same month.", "quantifier": "every calendar, every representable date", "why_tests_cant": "month-end and holiday layouts are unbounded", "anchors": ["src/time/calendars.rs::Calendar::adjust"]}
{"id": "C04", "title": "Half-month modified following does not cross the month end or the middle of the month", "statement": "adjust(date, HalfMonthModifiedFollowing) equals Following unless Following leaves the month or carries a date with day <= 15 past the 15th, in which case it equals Preceding.", "quantifier": "every calendar, every representable date", "why_tests_cant": "same as C03", "anchors": ["src/time/calendars.rs::Calendar::adjust"]}
{"id": "C05", "title": "Nearest rolls to the closest business day", "statement": "adjust(date, Nearest) returns a business day at minimal distance from date.", "quantifier": "every calendar, every representable date", "why_tests_cant": "depends on arbitrary holiday layouts; needs both directions of the search", "anchors": ["src/time/calendars.rs::Calendar::adjust"]}
{"id": "C06", "title": "Adjusting is idempotent and leaves business days alone", "statement": "For every convention, a business day is returned unchanged; and for every convention other than Nearest and Unadjusted the result of adjust is itself a business day, so adjusting twice is the same as adjusting once. Unadjusted returns its input on any date.", "quantifier": "every calendar, convention and representable date", "why_tests_cant": "relational claim over two calls and all calendars", "anchors": ["src/time/calendars.rs::Calendar::adjust", "src/time/businessdayconvention.rs::BusinessDayConvention"]}
{"id": "C07", "title": "Adjusting preserves the order of dates", "statement": "If d1 <= d2 then adjust(d1, c) <= adjust(d2, c), for every convention except Nearest, provided (for the modified conventions) the calendar opens at least once in the eleven months following d1 (preceding d2 for ModifiedPreceding).", "quantifier": "every calendar, every pair of representable dates", "why_tests_cant": "relational over pairs of dates; schedules rely on it", "anchors": ["src/time/calendars.rs::Calendar::adjust"]}
{"id": "C08", "title": "Advancing by n business days passes exactly n business days", "statement": "For n > 0, advance(date, Days(n)) is the n-th business day strictly after date: it is a business day and the half-open interval (date, result] contains exactly n business days. For n < 0 symmetrically before. The convention and end-of-month arguments are ignored for n <> 0; n = 0 is adjust(date, convention).", "quantifier": "every calendar, every date, every i64 n", "why_tests_cant": "nested loops with data-dependent length for every n", "anchors": ["src/time/calendars.rs::Calendar::advance"]}
{"id": "C09", "title": "Advancing forward then backward by business days returns to the start", "statement": "If date is a business day, advance(advance(date, Days(n)), Days(-n)) = date, and advance by m then n equals advance by m + n when m, n have the same sign.", "quantifier": "every calendar, every business day, every n and m", "why_tests_cant": "relational over composed loops", "anchors": ["src/time/calendars.rs::Calendar::advance"]}
{"id": "C10", "title": "Advancing by months or years lands in the right month and honours end-of-month", "statement": "advance(date, Months(n)/Years(n), c, eom=false) is adjust of the same day-of-month (clamped to the month's length) in the month n months later; with eom=true the result is the last business day of the month of that adjusted date.", "quantifier": "every calendar, date, convention, n within range", "why_tests_cant": "clamping and rolling interact for every date", "anchors": ["src/time/calendars.rs::Calendar::advance", "src/time/period.rs::Add<Period> for NaiveDate"]}
{"id": "C11", "title": "business_days_between counts business days of the right half-open interval", "statement": "With include_first = false and include_last = false, business_days_between(from, to) for from <= to is the number of business days in [from, to); with include_first = true (the default) it is the number in (from, to) when from < to; include_last = true adds the last day. Swapping two distinct dates negates it.", "quantifier": "every calendar, every pair of distinct dates, every flag combination", "why_tests_cant": "counting loop of unbounded length", "anchors": ["src/time/calendars.rs::Calendar::business_days_between"]}
{"id": "C12", "title": "business_days_between of a date with itself is zero", "statement": "business_days_between(d, d, None, None) = 0 for every calendar and date, and include_first = true counts the first day when it is a business day.", "quantifier": "every calendar, every date", "why_tests_cant": "degenerate interval; behaviour depends on integer wrap-around", "anchors": ["src/time/calendars.rs::Calendar::business_days_between"]}
{"id": "C13", "title": "end_of_month is the last business day of the month", "statement": "end_of_month(date) returns the latest business day not after the last calendar day of date's month; if the month contains a business day the result is in that month, and it depends only on the year and month of date.", "quantifier": "every calendar and representable date", "why_tests_cant": "unbounded calendars and months", "anchors": ["src/time/calendars.rs::Calendar::end_of_month", "src/time/calendars.rs::Calendar::last_day_of_month"]}
{"id": "C14", "title": "A joint calendar is open exactly when all its members are open", "statement": "JointCalendar::new(cs).is_business_day(d) is true iff every member says so; hence it is independent of the order and multiplicity of the members, and nesting joint calendars is the same as flattening them.", "quantifier": "every list of calendars (any length), every date", "why_tests_cant": "lists of arbitrary length and arbitrary members", "anchors": ["src/time/calendars/jointcalendar.rs::JointCalendar"]}
{"id": "C15", "title": "Every shipped calendar answers on the whole supported range and closes at weekends", "statement": "For every shipped calendar and market, and every date in the years 1901-2199, is_business_day returns without panicking; on Saturdays and Sundays it returns false except for the make-up working days that the Russia calendar declares explicitly.", "quantifier": "all shipped calendar/market variants, all dates 1901-2199", "why_tests_cant": "about 110000 dates for each of some sixty variants", "anchors": ["src/time/calendars/*.rs::is_business_day"]}
{"id": "C16", "title": "Shipped calendars never close for long, so rolling always terminates", "statement": "For every shipped calendar and market and every date in 1901-2199 (away from the last month), a business day occurs within a fixed small number of days in both directions; adjust therefore returns, and moves the date by at most that number of days.", "quantifier": "all shipped calendar/market variants, all dates 1901-2199", "why_tests_cant": "needs every year of the tables, including moving holidays and one-off closures", "anchors": ["src/time/calendars/*.rs::is_business_day", "src/time/calendars.rs::Calendar::adjust"]}
{"id": "C17", "title": "Easter tables agree with the computus", "statement": "For every year in 1901-2199, easter_monday(year) is the day of the year of Western Easter Monday and orthodox_easter_monday(year) that of Orthodox Easter Monday (as Gregorian dates); outside that range both panic.", "quantifier": "every i32 year", "why_tests_cant": "299 + 299 hand-typed table entries and all out-of-range years", "anchors": ["src/time/calendars.rs::EASTER_MONDAY", "src/time/calendars.rs::ORTHODOX_EASTER_MONDAY", "src/time/calendars.rs::Calendar::easter_monday"]}
{"id": "C18", "title": "The TARGET calendar follows the ECB rule", "statement": "Target.is_business_day(d) is false exactly on: Saturdays, Sundays, 1 January, 25 December; from 2000 Good Friday, Easter Monday, 1 May and 26 December; and 31 December in 1998, 1999 and 2001.", "quantifier": "every date in 1901-2199", "why_tests_cant": "moving holidays for every year", "anchors": ["src/time/calendars/target.rs::Target"]}
{"id": "C19", "title": "Date plus period has calendar semantics", "statement": "date + Months(n) keeps the day of month, clamped to the length of the month n months later; date + Years(n) is date + Months(12 n); Days and Weeks add exact day counts; ON/TN/SN add one day and SPOT none. Subtraction mirrors it, adding then subtracting Days/Weeks returns to the start, and Months does so unless the day was clamped.", "quantifier": "every representable date and every period that stays in range", "why_tests_cant": "month lengths, leap years, negative years", "anchors": ["src/time/period.rs::Add<Period> for NaiveDate", "src/time/period.rs::Sub<Period> for NaiveDate"]}
{"id": "C20", "title": "A period that does not fit is rejected, never silently misapplied", "statement": "date + period either returns the correct date, returns Err, or panics; it never returns a wrong date - in every build profile.", "quantifier": "every date, every period including extreme counts, overflow checks on or off", "why_tests_cant": "extreme u32/i64 values and build profiles", "anchors": ["src/time/period.rs::Add<Period> for NaiveDate", "src/time/period.rs::Mul<Period> for u32"]}
{"id": "C21", "title": "Settlement dates are business days, never before the unadjusted tenor date except at month end", "statement": "Period::settlement_date returns a business day. It is the first business day on or after base + tenor, unless base + tenor is on or after the last business day of its month, in which case it is that last business day; ON/TN start from T and T+1, every other tenor from T+2 (or the pair's lag).", "quantifier": "every tenor, valuation date, calendar and spot lag", "why_tests_cant": "month-end capping and holidays for every calendar", "anchors": ["src/time/period.rs::Period::settlement_date", "src/time/period.rs::Period::settlement_date_with_lag"]}
{"id": "C22", "title": "Swap-tenor legs are ordered: the near leg is never after the far leg", "statement": "For ON, TN and SN near_date returns a business day on or before settlement_date of the same tenor; for other tenors near_date is None.", "quantifier": "every valuation date, calendar and lag", "why_tests_cant": "holiday runs and month-end capping can reorder dates", "anchors": ["src/time/period.rs::Period::near_date", "src/time/period.rs::Period::settlement_date"]}
{"id": "C23", "title": "Names of conventions and frequencies round-trip", "statement": "BusinessDayConvention::from_code(c.name()) = Some(c) for every convention, and Frequency::from_code(f.name()) = Some(f) for every frequency; from_code accepts no other strings than these names.", "quantifier": "every enum value and every string", "why_tests_cant": "from_code ranges over all strings", "anchors": ["src/time/businessdayconvention.rs::from_code", "src/time/frequency.rs::from_code"]}
{"id": "C24", "title": "Actual/N day counts are exact, antisymmetric and additive", "statement": "For Actual360, Actual364, Actual366 and Actual365Fixed(Standard): day_count(d1,d2) is the number of days from d1 to d2, day_count(d1,d2)+day_count(d2,d3)=day_count(d1,d3), day_count(d2,d1)=-day_count(d1,d2); year_fraction is that count divided by N rounded once to the nearest double, hence monotone in d2 and sign-correct.", "quantifier": "all triples of representable dates, IEEE binary64 arithmetic", "why_tests_cant": "all dates; floating-point rounding", "anchors": ["src/time/daycounters/actual360.rs", "src/time/daycounters/actual364.rs", "src/time/daycounters/actual366.rs", "src/time/daycounters/actual365fixed.rs"]}
{"id": "C25", "title": "30/360 day counts follow the published rules", "statement": "Each Thirty360 market counts 360*(y2-y1)+30*(m2-m1)+(d2'-d1') with the market's published day adjustments; 12 months later on the same adjusted day counts 360; the count is between 0 and 31 days' tolerance of the actual month count; the European variant is antisymmetric and additive. The 30/365 count is additive, counts the days within a month and 30 for each month between equal days, is never negative forwards, and its fraction is the nearest double to a 365th of it.", "quantifier": "all pairs of dates, all markets", "why_tests_cant": "end-of-February and 31st rules over all dates", "anchors": ["src/time/daycounters/thirty360.rs", "src/time/daycounters/thirty365.rs"]}
{"id": "C26", "title": "Actual/365 (No Leap) ignores exactly the leap days", "statement": "Actual365Fixed(NoLeap).day_count(d1,d2) is the number of days from d1 to d2 minus the number of 29 Februaries passed.", "quantifier": "all pairs of dates", "why_tests_cant": "table of month offsets used for every date", "anchors": ["src/time/daycounters/actual365fixed.rs"]}
{"id": "C27", "title": "Actual/Actual ISDA splits the interval at year ends", "statement": "ActualActual(ISDA).year_fraction(d1,d2) is (days in leap years)/366 + (days in ordinary years)/365 over [d1,d2), in particular it is positive for d1<d2 and antisymmetric.", "quantifier": "all pairs of dates", "why_tests_cant": "multi-year spans and leap years", "anchors": ["src/time/daycounters/actualactual.rs"]}
{"id": "C28", "title": "Business/252 counts business days", "statement": "Business252.day_count(d1,d2) is the number of business days between d1 and d2, so year_fraction is that count / 252, and it is additive over adjacent periods.", "quantifier": "all calendars and pairs of dates", "why_tests_cant": "month-by-month loop over arbitrary spans", "anchors": ["src/time/daycounters/business252.rs"]}
{"id": "C29", "title": "IMM dates are the third Wednesdays of the cycle months", "statement": "is_imm_date(d, main_cycle) is true iff d is the third Wednesday of its month (and, with main_cycle, the month is March, June, September or December).", "quantifier": "every date and flag", "why_tests_cant": "weekday alignment in all years", "anchors": ["src/time/imm.rs::IMM::is_imm_date"]}
{"id": "C30", "title": "IMM codes round-trip", "statement": "For every IMM date d of the main or serial cycle within ten years of the reference date, IMM::date(IMM::code(d), ref) = d when ref is not after d and within the decade; code returns None for dates that are not IMM dates; is_imm_code accepts exactly a month letter of the cycle followed by a digit.", "quantifier": "every IMM date and reference date, every string", "why_tests_cant": "decade ambiguity and string inputs", "anchors": ["src/time/imm.rs::IMM::code", "src/time/imm.rs::IMM::date", "src/time/imm.rs::IMM::is_imm_code"]}
{"id": "C31", "title": "next_date returns the next IMM date", "statement": "IMM::next_date(d, main_cycle) terminates and returns the earliest IMM date strictly after d (of the main cycle when requested).", "quantifier": "every date and flag", "why_tests_cant": "month rollover, recursion depth", "anchors": ["src/time/imm.rs::IMM::next_date"]}
{"id": "C32", "title": "FX pair metadata is consistent", "statement": "For every FXUnderlying pair, the foreign and domestic currencies are the two halves of the six-letter code, settlement lag is 1 or 2 days, and the pair's calendar is open iff both currency calendars are open.", "quantifier": "all sixty pairs, all dates", "why_tests_cant": "sixty-way tables", "anchors": ["src/derivatives/forex/basic.rs::FXUnderlying"]}
{"id": "C33", "title": "Forward points interpolate the quotes exactly", "statement": "FXForwardHelper::get_forward(date) returns the quoted points at a quoted settlement date, the linear interpolation (hence a value between the neighbouring quotes) strictly between two quoted dates, and None outside the quoted range or with fewer than two quotes. The order in which quotes are supplied does not matter when settlement dates are distinct.", "quantifier": "every quote list of any length, every date, any sorting algorithm", "why_tests_cant": "unbounded lists; unstable sort and binary search", "anchors": ["src/markets/forex/quotes/forwardpoints.rs::FXForwardHelper::get_forward"]}
{"id": "C34", "title": "FX forward value is linear, antisymmetric and zero at the market", "statement": "FXForward::mtm is linear in notional, changes sign between Buy and Sell, is zero when the strike equals the interpolated outright forward, and its delta is the sensitivity to spot.", "quantifier": "every contract and market snapshot", "why_tests_cant": "real-valued inputs", "anchors": ["src/derivatives/forex/forward.rs::FXForward"]}
{"id": "C35", "title": "Black-Scholes prices satisfy put-call parity and no-arbitrage bounds", "statement": "bs_call_forward - bs_put_forward = discount * (F - K); prices lie between discounted intrinsic value and the discounted forward/strike; price increases with volatility; the reported greeks are the derivatives of the price.", "quantifier": "all positive forwards, strikes, vols, expiries (real arithmetic)", "why_tests_cant": "continuum of inputs", "anchors": ["src/models/common/black_scholes.rs", "src/derivatives/forex/option.rs"]}
{"id": "C36", "title": "Implied volatility inverts the Black-Scholes price", "statement": "bs_implied_vol(price(sigma)) returns a volatility whose price is within tolerance, or which is within 1e-12 of sigma, for every sigma inside the search bracket, and None only outside the no-arbitrage bounds; the bisection always terminates.", "quantifier": "all positive inputs (real arithmetic)", "why_tests_cant": "root finding over a continuum", "anchors": ["src/models/common/black_scholes.rs::bs_implied_vol"]}
{"id": "C37", "title": "Bachelier prices satisfy parity, bounds and correct sensitivities", "statement": "Bachelier call - put = F - K; price >= intrinsic; price is increasing in total variance; delta and vega are its derivatives.", "quantifier": "all real forwards, strikes and positive variances", "why_tests_cant": "continuum of inputs", "anchors": ["src/models/common/bachelier.rs"]}
{"id": "C38", "title": "Discount factors from the stripped curve are positive, one at valuation, and consistent with forwards", "statement": "discount(valuation_date) = 1, discount(d) > 0, and forward_rate(d1,d2) satisfies discount(d2) = discount(d1) * exp(-f * tau).", "quantifier": "every stripped curve and dates", "why_tests_cant": "arbitrary pillar lists", "anchors": ["src/markets/termstructures/yieldcurve.rs"]}
{"id": "C39", "title": "A parallel shift of the curve equals re-building it from shifted zero rates", "statement": "shifted_discount(d, s) equals discount(d) of the curve whose every pillar zero rate is increased by s.", "quantifier": "every curve, date and shift", "why_tests_cant": "relational, any pillar list", "anchors": ["src/markets/termstructures/yieldcurve.rs::shifted_discount"]}
{"id": "C40", "title": "Zero rates interpolate between pillars and extrapolate from the last pillar", "statement": "zero_rate at a date between two pillars lies between the two pillar rates and equals the pillar rate at a pillar; beyond the last pillar the last rate is used.", "quantifier": "every sorted pillar list and date", "why_tests_cant": "arbitrary pillar lists and positions", "anchors": ["src/markets/termstructures/yieldcurve.rs::step_function_forward_zero_rate"]}
{"id": "C41", "title": "Swap schedules are contiguous and have the right number of periods", "statement": "generate_schedule returns duration/tenor periods, each starting where the previous one ended, with period ends on business days in non-decreasing order, and payment dates not before period ends.", "quantifier": "every calendar, start date, tenor and duration", "why_tests_cant": "loops over arbitrary schedules", "anchors": ["src/derivatives/interestrate/swap.rs::generate_schedule"]}
{"id": "C42", "title": "Swap value is additive over legs, linear in notional and antisymmetric in direction", "statement": "npv of a swap is the sum of its legs, each leg the signed sum of discounted cashflows; flipping the direction negates it; scaling the notional scales it; a floating leg paying at accrual ends telescopes to N*(P(start) - P(end)).", "quantifier": "every schedule of any length", "why_tests_cant": "induction over schedules", "anchors": ["src/derivatives/interestrate/swap.rs::npv"]}
{"id": "C43", "title": "Swap risk measures are finite differences of the same price", "statement": "dv01 and gamma equal the stated finite differences of pv_under_shift, pv_under_shift(0) equals the mtm, and a zero-rate solve reprices the quote.", "quantifier": "every swap and curve", "why_tests_cant": "relational between pricing paths", "anchors": ["src/derivatives/interestrate/swap.rs"]}
{"id": "C44", "title": "The volatility smile passes through every quoted pillar", "statement": "FXVolSurface::volatility at a quoted strike and expiry returns the quoted (market strangle/risk-reversal derived) volatility; between expiries total variance interpolates linearly in time.", "quantifier": "every valid quote set", "why_tests_cant": "interpolation of arbitrary quotes", "anchors": ["src/markets/forex/quotes/volsurface.rs"]}
{"id": "C45", "title": "Caplet stripping reprices the quoted caps", "statement": "After strip_caplet_vols, pricing each quoted cap off the resulting surface uses, for every caplet, the volatility that the strip solved for, so the quoted premium is recovered.", "quantifier": "every quote grid, rectangular or not", "why_tests_cant": "combinatorics of expiries and strikes", "anchors": ["src/markets/interestrate/volsurface.rs"]}
{"id": "C46", "title": "Nelder-Mead never returns a worse point than the start", "statement": "nelder_mead(f, x0) returns (x, f(x)) with f(x) <= f(x0), evaluates f only finitely often, respects the iteration cap, and its reported value is the objective at the reported point. An iteration that does not stop reflects the worst vertex in the centroid of the others and expands, keeps, contracts or shrinks as the values at the new points say. In binary64 it aborts when the objective is NaN at the start.", "quantifier": "every objective function, dimension, start and options", "why_tests_cant": "arbitrary objective, unbounded iterations", "anchors": ["src/math/optimize.rs::nelder_mead"]}
{"id": "C47", "title": "Simulated paths record every observation date", "statement": "simulate_at_dates returns, for every path, exactly one state per requested observation date, in order; states_at(date) returns them.", "quantifier": "every model, day counter, date list, step size and number of paths", "why_tests_cant": "grid construction over arbitrary date lists", "anchors": ["src/models/common/simulation.rs::simulate_at_dates"]}
{"id": "C48", "title": "CIR and Heston variance never goes negative", "statement": "Whatever the random draws, the simulated CIR/Heston variance is >= 0 at every step and GBM/FX spot stays positive; SABR forward and vol stay non-negative.", "quantifier": "every sequence of random draws of any length", "why_tests_cant": "all noise histories", "anchors": ["src/models/common/cir.rs", "src/models/forex/sabr.rs", "src/models/forex/fx_hhw.rs"]}
{"id": "C49", "title": "Hull-White bond functions are the exact integrals they claim to be", "statement": "HullWhite1F::b, bond_log_variance and related closed forms equal the integrals in their documentation.", "quantifier": "all positive mean reversions and times", "why_tests_cant": "continuum; closed forms", "anchors": ["src/models/interestrate/hull_white.rs"]}
{"id": "C50", "title": "Cholesky factors reproduce the correlation matrix", "statement": "If cholesky(m) returns L for a symmetric matrix then L is lower triangular with positive diagonal and L L^T = m; it returns None exactly when the matrix is not positive definite.", "quantifier": "symmetric matrices of every size (real arithmetic)", "why_tests_cant": "all sizes", "anchors": ["src/models/interestrate/fmm.rs::cholesky", "src/models/forex/fx_hhw.rs::cholesky_4x4"]}
{"id": "C51", "title": "Observers see every update", "statement": "After a successful notify on market data, every live attached observer has been updated with the current data, in attachment order, and dead observers are ignored; an error stops the notification and is returned.", "quantifier": "every history of attach, drop, mutate and notify operations", "why_tests_cant": "all histories", "anchors": ["src/patterns/observer.rs", "src/markets/termstructures/yieldcurve.rs", "src/markets/forex/quotes/forwardpoints.rs"]}
{"id": "C52", "title": "SABR at-the-money volatility is the limit of the smile formula", "statement": "hagan_implied_vol at K = F equals hagan_atm_vol, is positive, and is symmetric where Hagan's formula is.", "quantifier": "all admissible parameters", "why_tests_cant": "continuum", "anchors": ["src/models/forex/sabr.rs"]}
{"id": "C53", "title": "COS coefficients are the exact cosine integrals", "statement": "chi_k and psi_k equal the integrals of exp(y) cos(u(y-a)) and cos(u(y-a)) over [c,d]; call and put prices from the same characteristic function differ by the parity term of the expansion.", "quantifier": "all k, intervals and characteristic functions", "why_tests_cant": "continuum and all term counts", "anchors": ["src/models/common/cos_pricer.rs"]}
{"id": "C54", "title": "FMM bond prices chain consistently", "statement": "back_stub_forward_bond at T = T_k equals 1/(1+tau R); bond_price at a tenor date is the product of the single-period discounts; the bank account is consistent with it; frozen rates do not move after their fixing.", "quantifier": "all tenors, paths and steps", "why_tests_cant": "all path histories", "anchors": ["src/models/interestrate/fmm.rs"]}
{"id": "C55", "title": "Piecewise-constant schedules and effective parameters are consistent", "statement": "PiecewiseConstant::at returns the value of the segment containing t, and the effective parameters of a constant schedule are that constant.", "quantifier": "all schedules of any length", "why_tests_cant": "all knots and times", "anchors": ["src/models/forex/sabr_effective.rs"]}
{"id": "C56", "title": "The cut-off moves the valuation date to the next business day", "statement": "effective_valuation_date returns the given date before the pair's cut-off, and at or after it the first day strictly later on which the pair's calendar is open; the result of a late query is always open.", "quantifier": "all sixty pairs, every date and time of day", "why_tests_cant": "tests use a handful of pairs and timestamps; the rule must hold on every date, including runs of holidays in either currency", "anchors": ["src/derivatives/forex/basic.rs::FXUnderlying::effective_valuation_date"]}
{"id": "C57", "title": "Spot settles the pair's number of business days after the valuation date", "statement": "FXUnderlying::settlement_date(SPOT, v) is the settles()-th business day after v.", "quantifier": "all sixty pairs, every valuation date", "why_tests_cant": "tests only use valuation dates whose following days are all business days; the rule can fail around weekends, holidays and month ends", "anchors": ["src/derivatives/forex/basic.rs::FXUnderlying::settlement_date", "src/time/period.rs::Period::settlement_date_with_lag"]}
{"id": "C58", "title": "The market context's forward is the outright forward", "statement": "FxMarketContext::forward_at(date) returns spot plus the forward points converted to price units, as its documentation says, and an InvalidData error outside the quoted range.", "quantifier": "every market context, pair and date", "why_tests_cant": "no test calls it; the difference between points and outright only shows when spot and points are compared", "anchors": ["src/markets/forex/market_context.rs::FxMarketContext::forward_at"]}
{"id": "C59", "title": "Cash quotes reprice on their own zero rate", "statement": "OISRate::zero_rate z satisfies (1 + tau r) exp(-z (m-s)/365) = 1 between the quote's settlement s and maturity m, and OISRate::discount is exp(-z (m-v)/365), for every index of the library.", "quantifier": "every index, calendar, valuation date and rate with 1 + tau r > 0", "why_tests_cant": "tests compare a few stored numbers; the identity must hold for every date and day counter, and whether settlement differs from maturity depends on the index table", "anchors": ["src/markets/termstructures/yieldcurve/oisratehelper.rs::OISRate"]}
{"id": "C60", "title": "Futures quotes settle on IMM dates and reprice", "statement": "FuturesRate settles on the first IMM date with its code, matures on an IMM date, its discount factor discounts its own accrual from the curve's factor at settlement, and its zero rate reproduces that discount factor.", "quantifier": "every futures quote, valuation date and partially stripped curve", "why_tests_cant": "the rule depends on what is already on the curve; tests use one market", "anchors": ["src/markets/termstructures/yieldcurve/ratehelper.rs::FuturesRate", "src/markets/interestrate/futures.rs", "src/markets/termstructures/yieldcurve.rs::retrieve_related_stripped_curve"]}
{"id": "C61", "title": "The stripped curve has one entry per quote and reprices the quotes", "statement": "get_stripped_curve returns one entry per cash quote (in date order), future and swap, each carrying its dates, rate and discount factor, and each swap is worth zero on the curve it was solved on, with its own pillar in use.", "quantifier": "every market of cash, futures and swap quotes, any root finder meeting its contract", "why_tests_cant": "tests strip one market; duplicates and extrapolation only show on other markets", "anchors": ["src/markets/termstructures/yieldcurve.rs::YieldTermMarketData::get_stripped_curve", "src/derivatives/interestrate/swap.rs::solve_zero_rate"]}
{"id": "C62", "title": "Rate indices follow their published conventions", "statement": "InterestRateIndex::from_enum gives every index its own currency, the calendar of its publishing centre and its day count; Euribor settles two TARGET business days after the valuation date.", "quantifier": "all indices, every tenor and date", "why_tests_cant": "no test checks a calendar of the table against the index", "anchors": ["src/markets/interestrate/interestrateindex.rs::InterestRateIndex::from_enum"]}
{"id": "C63", "title": "The FX option is valued by Black's formula and its greeks are derivatives of its value", "statement": "FXVanillaOption::mtm is the Black price of the foreign amount on the market forward, in the notional currency; delta and gamma are its first and second derivatives by spot, vega its derivative by volatility per percent; call less put is the forward.", "quantifier": "every option, market and notional currency (real arithmetic)", "why_tests_cant": "tests compare a few greeks with finite differences or reference screens", "anchors": ["src/derivatives/forex/option.rs"]}
{"id": "C64", "title": "The caplet surface interpolates in strike and steps in expiry", "statement": "IRNormalVolSurface::caplet_volatility returns node volatilities exactly, interpolates linearly between neighbouring strikes, is flat outside them, uses the earliest pillar at or after the expiry and the last one beyond; a stripped surface has ordered pillars, one per quoted expiry, and never fails a lookup.", "quantifier": "every list of nodes and pillars, every set of cap quotes", "why_tests_cant": "tests look up a few strikes; the order and completeness of the stripped surface is never checked", "anchors": ["src/markets/interestrate/volsurface.rs::caplet_volatility", "src/markets/interestrate/volsurface.rs::interpolate_nodes"]}
{"id": "C65", "title": "Caplet variance is the integral of the squared instantaneous volatility", "statement": "caplet_total_variance is the integral from today of the squared volatility, constant until the fixing for forward-looking caplets, and running off linearly over the accrual period for compounded ones, whether or not the period has begun.", "quantifier": "every volatility and pair of year fractions (real arithmetic)", "why_tests_cant": "tests compare single numbers; the integral covers both styles and the branch inside the accrual period at once", "anchors": ["src/derivatives/interestrate/basic.rs::caplet_total_variance"]}
{"id": "C66", "title": "A cap is the sum of its Bachelier caplets, and cap less floor is a swap", "statement": "CapFloor::mtm is the sum of notional x accrual x discount factor x Bachelier price on the simple forward; cap minus floor is the value of receiving the forward and paying the strike; the seller's value is the opposite of the buyer's; a bought cap is worth at least intrinsic.", "quantifier": "every schedule, curve, surface, strike, direction and day counter (real arithmetic)", "why_tests_cant": "tests compare one cap with a reference screen", "anchors": ["src/derivatives/interestrate/cap.rs::CapFloor::pv_under_shift"]}
{"id": "C67", "title": "Cap vega is positive and its closed form is the derivative", "statement": "CapFloor::vega of a bought cap or floor is non-negative, and positive when a period still has variance to come; analytic_vega_1bp is the derivative of the value by the volatility shift, per basis point.", "quantifier": "every cap, curve and surface with positive volatilities (real arithmetic)", "why_tests_cant": "the closed form is dead code that no test calls", "anchors": ["src/derivatives/interestrate/cap.rs::CapFloor::vega", "src/derivatives/interestrate/cap.rs::analytic_vega_1bp"]}
{"id": "C68", "title": "Cap rate risk is revaluation on the shifted curve", "statement": "dv01 and gamma are the first and second differences of mtm when every zero rate moves in parallel, modified duration is the relative change per unit of rate; unsupported shift modes and a missing surface are errors.", "quantifier": "every cap and ordered curve (real arithmetic)", "why_tests_cant": "tests check a sign and one reference number", "anchors": ["src/derivatives/interestrate/cap.rs", "src/derivatives/interestrate/basic.rs::IRDerivatives::modified_duration"]}
{"id": "C69", "title": "Simulated increments have the requested correlations", "statement": "The Gaussian increments of an FX-HHW step, of a SABR step and of a step with a foreign stock have mean zero, variance dt and pairwise covariance correlation x dt, and the log FX rate and short rates that they move have the model's drifts and covariances.", "quantifier": "every valid correlation block, parameter set, state and step length (real arithmetic, expectation over the normal draws)", "why_tests_cant": "tests estimate one or two sample correlations with a loose tolerance", "anchors": ["src/models/forex/fx_hhw.rs::FxHhwSimulator::step_at_time", "src/models/forex/sabr.rs::SabrSimulator::step_with_noise", "src/models/forex/fx_hhw_stock.rs::FxHhwStockSimulator::step"]}
{"id": "C70", "title": "Discounted prices are martingales along simulated paths", "statement": "For any number of steps, geometric Brownian motion grows at its drift, the SABR volatility keeps its mean, xi x Mf / Md keeps its mean in FX-HHW, and xi x S_f / Md in the model with a foreign stock; the quanto correction of the foreign rate is exactly the change of measure; truncation at zero raises the means of CIR variances and SABR forwards.", "quantifier": "every parameter set, state, step length and number of steps (real arithmetic, expectation over the normal draws)", "why_tests_cant": "tests compare sample means with tolerances of a percent, which hides an error in the drift of that size", "anchors": ["src/models/common/simulation.rs::GeometricBrownianMotion", "src/models/forex/fx_hhw.rs::FxHhwSimulator", "src/models/forex/fx_hhw_stock.rs::FxHhwStockSimulator", "src/models/forex/sabr.rs::SabrSimulator"]}
{"id": "C71", "title": "CIR mean and variance solve the moment equations", "statement": "CirProcess::mean and variance are the solutions of m' = kappa (theta - m) and V' = gamma^2 m - 2 kappa V from m(0) = sigma_0, V(0) = 0 (also in the kappa = 0 branch); the mean stays between sigma_0 and theta, the variance is non-negative and both tend to the stationary law's moments.", "quantifier": "every parameter set and time (real arithmetic)", "why_tests_cant": "tests compare with a few numbers computed from the same formula, and no test differentiates it", "anchors": ["src/models/common/cir.rs::CirProcess"]}
{"id": "C72", "title": "The mean square root of the CIR variance", "statement": "sqrt_mean is a partial sum of the series for the mean of the square root of a scaled non-central chi-square with exactly the law's mean and variance; the terms it leaves out are bounded by a geometric tail; it has the right value at t <= 0 and for gamma = 0, tends to sqrt_mean_infinity, and for a large non-centrality returns the documented second-order expansion.", "quantifier": "every parameter set, time and tolerance; any function with the functional equation of ln Gamma", "why_tests_cant": "tests look at a handful of parameters with tolerances that hide a correction that is half of the documented one", "anchors": ["src/models/common/cir.rs::sqrt_mean", "src/models/common/cir.rs::sqrt_mean_infinity", "src/models/common/cir.rs::SqrtMeanProxy"]}
{"id": "C73", "title": "The time-dependent SABR simulator steps with the schedules", "statement": "TimeDependentSabrParams::new accepts exactly the documented schedules; every step is a constant-parameter SABR step with the parameters of the segment in force; simulate succeeds up to the horizon with the right signs and, for flat schedules, equals the constant-parameter simulator draw for draw; the volatility follows its schedule.", "quantifier": "every schedule, state, sequence of draws, number of steps and paths (real arithmetic)", "why_tests_cant": "tests only compare flat single-segment schedules, or schedules whose volatility does not change", "anchors": ["src/models/forex/sabr_time_dependent.rs"]}
{"id": "C74", "title": "Effective SABR parameters solve the matching equations", "statement": "effective_vol_vol is the unique solution of the fourth-moment equation of the paper (exact double integral against the lognormal formula), effective_term_structure matches the first moment and effective_correlation is the weighted average, each within a stated tolerance.", "quantifier": "every pair of schedules on common knots and expiry at a knot (real arithmetic)", "why_tests_cant": "tests use schedules of at most five segments and compare with numbers read off the same code", "anchors": ["src/models/forex/sabr_effective.rs::effective_vol_vol", "src/models/forex/sabr_effective.rs::effective_term_structure", "src/models/forex/sabr_effective.rs::effective_correlation"]}
{"id": "C75", "title": "The forward-market-model step is equation (5)", "statement": "A step of positive length of a valid model never panics; it moves every live rate by the drift and diffusion of equation (5) at the midpoint, adds the squared volatility over the remaining part of the period to the variance, leaves fixed rates and their variances alone for ever, and takes the snapshot of a rate at the start of its period; without volatility every path reprices the initial curve at every date.", "quantifier": "every tenor, volatility, correlation, path, sequence of draws, step length and number of steps (real arithmetic)", "why_tests_cant": "tests step one four-period model and check means against loose tolerances", "anchors": ["src/models/interestrate/fmm.rs::FmmSimulator"]}
{"id": "C76", "title": "Construction, decay and volatility schedules of the forward market model", "statement": "The constructors accept exactly the documented tenors, volatilities, correlations and schedules; the decay is one before the period, zero after it and linear in it; eta is the first date not before t; the Hull-White schedule is the integral of the discounted volatility over the period, with the right limit; a piecewise constant schedule gives the value of the last knot not after t.", "quantifier": "every tenor, time, knot list and mean reversion (real arithmetic)", "why_tests_cant": "tests sample one tenor at a few times", "anchors": ["src/models/interestrate/fmm.rs::FmmTenor", "src/models/interestrate/fmm.rs::Fmm", "src/models/interestrate/fmm.rs::LinearDecay", "src/models/interestrate/fmm.rs::VolSchedule"]}
{"id": "C77", "title": "The Dupire surface inverts the Black formula and stays in its band", "statement": "build accepts exactly the documented grids; the flat-volatility Black price satisfies Dupire's equation, the first and second differences are exact on affine and quadratic functions on every uneven grid, and at every node (edges included) the value built from flat-volatility prices tends to the squared volatility as the mesh is refined; every value, and the bilinear interpolation at every point, lies between the squares of 1% and 200%; queries outside the grid are moved to its border; nodes with butterfly arbitrage get the market variance (the documentation says a floored denominator).", "quantifier": "every grid, volatility matrix, spot and rates, every query point (real arithmetic)", "why_tests_cant": "tests build two five-by-six grids and accept an error of one volatility point", "anchors": ["src/models/forex/dupire_local_vol.rs"]}
{"id": "C78", "title": "The stochastic-local-volatility scheme mimics its surface", "statement": "Every bin is a group of consecutive paths with its greatest forward and mean squared volatility, at most n_bins of one size but the last; over a group with distinct forwards the squared factors on the local volatility average to one; the forward moves by local volatility times that factor whatever beta is, with parameters and surface at the middle of the step; with equal volatilities the scheme is the Euler scheme of the local-volatility model; a run from accepted inputs succeeds with non-negative forwards and positive volatilities.  Paths absorbed at zero read another group's mean.", "quantifier": "every population, number of bins, sorting routine that meets its contract, sequence of draws, horizon (real arithmetic)", "why_tests_cant": "tests simulate one model and compare prices within percent-level tolerances", "anchors": ["src/models/forex/sabr_slv.rs"]}
{"id": "C79", "title": "A SABR smile fit is never worse than its start", "statement": "A fit has alpha, nu > 0, |rho| < 1 and the beta of the start; the reported error is the root mean square of the differences between the returned smile and the market, unless that smile is not positive at some strike (then it is the sentinel); squared errors add to no more than those of the floored and clamped start; started at an exact smile the fit reproduces the market with error zero; softplus is undone exactly; positive inputs never panic.", "quantifier": "every initial parameters, forward, expiry, target list, options and sorting routine that meets its contract (real arithmetic)", "why_tests_cant": "tests fit two synthetic smiles", "anchors": ["src/models/forex/sabr_calibrator.rs"]}
{"id": "C80", "title": "The time-dependent SABR calibration meets its pillars", "statement": "Every result has one positive alpha, one positive nu and one rho in [-0.999, 0.999] per sorted pillar on the knots 0, T1, ..., Tn; each nu brings the effective vol-vol of its prefix within 1e-10 of the pillar's fit or brackets it (or sits on the floor 1e-6), each alpha the effective term structure; where no value is clamped the effective correlation of each prefix is the pillar's rho exactly; reported errors are root mean squares of the smiles they name; a single pillar of ordinary size always calibrates and recovers its fit.  A strip holds the surface's own volatilities.  A clamped rho makes later pillars miss a reachable target, and the strip's year fraction is from the date passed in, not from the surface's.", "quantifier": "every list of pillars, options, sorting routine that meets its contract, surface, strikes and dates (real arithmetic)", "why_tests_cant": "tests calibrate one five-pillar set and accept volatility errors of tens of basis points", "anchors": ["src/models/forex/sabr_time_dependent_calibrator.rs", "src/models/forex/market_data.rs"]}
{"id": "C81", "title": "The FX-HHW1 characteristic function solves the model's equations", "statement": "At every real frequency the closed form of C never divides by zero, solves the Riccati equation from zero and has non-positive real part (negative off zero); the cached integral equals the recomputed one; the value is 1 at frequency 0, the forward at -i, the conjugate at the opposite frequency, and bounded by 1 without rate volatilities; as the nodes grow the values converge to the exponential of the integral of the sampled rate, to the Black-Scholes characteristic function when the variance is constant; the affine function with every factor at its own calendar time solves the backward equation of the model, and is the limit when neither rate is correlated with the variance.  With such a correlation the limit is another function: the code multiplies C at time to expiry s by the bond volatility at calendar time s instead of T - s.", "quantifier": "every parameter set with positive mean reversion and correlation in [-1, 1], frequency, expiry and even number of nodes (real arithmetic)", "why_tests_cant": "tests compare with Monte Carlo at a few frequencies within loose tolerances", "anchors": ["src/models/forex/fx_hhw1_chf.rs", "src/models/common/cos_pricer.rs"]}
{"id": "C82", "title": "The cross-currency Libor market model: tenor, checks and frozen coefficients", "statement": "A tenor is accepted exactly when it has one more date than rates, starts no earlier than today and increases strictly; m(t) is the first date not passed and the active rates those from m(t) on; the checks accept exactly the documented shapes up to 1e-12 and never panic on accepted tenors; each side's coefficient is the quadratic form of its frozen coefficients over the active rates; with square roots replaced by their means, the variance, both sides' terms and f add up to the variance of the forward; the displacement parameters are read by no coefficient.", "quantifier": "every tenor, parameter set, time and start index (real arithmetic)", "why_tests_cant": "tests build one three-period tenor and check a few values", "anchors": ["src/models/forex/fx_hlmm.rs"]}
{"id": "C83", "title": "The FX-HLMM1 characteristic function", "statement": "Building panics exactly on a bad node count, a past expiry, refused parameters or a tenor without rates, and what was built evaluates at every complex frequency; the segments run from expiry back to today and each holds the rates active and both coefficients at its calendar times; at real frequencies both rate coefficients solve their Riccati equations from zero with no positive real part and the constant is the sum of their integrals and a composite Simpson sum, the code's principal logarithms never crossing their cut; with finer grids the value tends to an affine function which is exp(iux) at expiry and solves the model's backward equation between tenor dates; its modulus is at most one where the covariance is not negative, it is one at zero, today's rate at -i and conjugate at opposite frequencies; the pricer is given the matching expiry and forward.", "quantifier": "every accepted model, expiry, even node count and frequency (real arithmetic; the limit for continuous square-root means)", "why_tests_cant": "tests evaluate a few frequencies of one three-period model", "anchors": ["src/models/forex/fx_hlmm1_chf.rs", "src/models/common/cos_pricer.rs:62-80"]}
{"id": "C84", "title": "Cross-currency forward market model: checks, decaying coefficients and the variance they add up to", "statement": "FxFmmParams::validate accepts exactly the parameter sets of the documented shape (lengths, unit diagonal, symmetry and unit bounds up to 1e-12, non-negative volatilities, positive variance parameters) and otherwise returns InvalidData. The coefficient of a rate is tau sigma gamma(t)/(1+tau R(0)): whole before its period, linear inside it, zero after. Each side's A(t) is the quadratic form of these with the symmetrised correlation; starting the sum at eta(t) or below gives the same value, so A is Lipschitz in time across tenor dates, zero after the last date, and not negative for a positive correlation. With the square roots of the variances replaced by their means, variance + A_d + A_f + f is the variance of the log-forward. The checks do not ask for positivity: an accepted block can give a negative variance.", "quantifier": "all tenors accepted by FmmTenor::new, all parameter sets, all times and start indices", "why_tests_cant": "The tests compare A at a few times against hand-computed values for a two-period tenor; they never see that the start index is immaterial or that an accepted correlation block may not be positive.", "anchors": ["src/models/forex/fx_fmm.rs:86-125", "src/models/forex/fx_fmm.rs:150-159", "src/models/forex/fx_fmm.rs:191-249", "src/models/forex/fx_fmm.rs:283-375"]}
{"id": "C85", "title": "The FX-FMM1 characteristic function", "statement": "Building panics exactly on a past expiry, no chunks, a bad node count or refused parameters, and what was built evaluates at every complex frequency. The chunks run from expiry back to today, none longer than expiry over the chunk count; each holds both coefficients at its middle, and the covariance of every one of its times as long as a rate is alive at its middle, which is always so when expiry is within the tenor. At real frequencies both rate coefficients solve the chunked Riccati equations with no positive real part; each is within L T/(2n) |u^2+iu| sqrt(T/(8 lambda)) of the model's, L any Lipschitz constant of A, and as chunks get finer the value tends, for any even node counts, to the affine function of the model's unique solutions, which is exp(iux) at expiry and solves the backward equation at every time. Modulus, value one at zero, today's rate at -i, conjugation and the pricer's inputs are as they should be. The last tenor date is not a boundary: with an expiry past it the default resolution can lose the rates entirely.", "quantifier": "every accepted model, expiry, chunk count, even node count and frequency (real arithmetic; the limit for continuous square-root means)", "why_tests_cant": "tests evaluate a few frequencies of one model at one resolution, with expiry inside the tenor; no test bounds the error of the chunks or takes their limit", "anchors": ["src/models/forex/fx_fmm1_chf.rs", "src/models/common/cos_pricer.rs:80-95"]}
{"id": "C86", "title": "The path simulator of the cross-currency forward market model", "statement": "A simulator is built exactly from valid parameters whose joint correlation of FX rate, variance and both rate vectors is positive definite, and never panics; the increments have that correlation. Every step of positive length succeeds, uses 2+2M draws, and moves the log FX rate by the difference of the rates in force less half the variance, the variance by full truncation, each rate by the drift and diffusion of the forward market model with the foreign drift shifted by the correlation with the FX rate, and the variances, in-period states and snapshots as stated; a rate past its fixing never moves. The log FX rate and the rates have the stated means and covariances; the FX rate grows in mean at the rate differential, and under the foreign unit of account the shift disappears; along whole paths the FX rate carried and discounted at the rates in force is a martingale. The domestic leg takes exactly the step of the single-currency simulator. Without rate volatility the mean FX rate is today's at every horizon. An asymmetric cross-currency block is averaged, so its correlations are not simulated; the initial variances of the two currencies are not used at all.", "quantifier": "every model, state, step length, number of steps and paths, and stream of draws (real arithmetic)", "why_tests_cant": "tests run a few seeds of one small model and compare sample means with wide tolerances; no test checks the joint law, the quanto shift, an asymmetric cross block or initial variances other than one", "anchors": ["src/models/forex/fx_fmm_simulator.rs"]}
{"id": "C87", "title": "Smile calibration of the three cross-currency models", "statement": "A volatility of a model's smile reprices its own COS call price under the model's forward and discount factor, or is absent when no volatility does. Every successful fit keeps everything but the Heston parameters and the FX-variance correlation, lands in the open box of admissible parameters (with the vol-of-vol below the bound when one is given), and reports the root mean squared error of its own volatilities; it is never worse than the start clamped into the range. The fit succeeds exactly for a positive expiry, targets and a non-negative floor (and panics otherwise), never with an error; the forward-market and Libor-market fits of a model that fails its own check succeed silently with the penalty as error. The strip wrappers take the strikes and volatilities of the strip and ignore its forward. The discount factor is the bond up to the last tenor date whatever earlier expiry is priced: it is not the discount factor of that expiry.", "quantifier": "every model, target list, expiry, floor, bound, optimiser options and admissible sort (real arithmetic)", "why_tests_cant": "tests fit one smile per model and check the error with a tolerance; none fits an invalid model, prices before the last tenor date, or compares the fit with its start", "anchors": ["src/models/forex/fx_hhw_calibrator.rs", "src/models/forex/fx_hlmm_calibrator.rs", "src/models/forex/fx_fmm_calibrator.rs"]}
{"id": "C88", "title": "The interest rate market context, from raw quotes to prices", "statement": "A context built from raw quotes keeps its date and currency and has a caplet surface exactly when cap quotes are given; its discount factors are positive, one on its own date and belong to its zero rates, and there is one for every date of the calendar exactly when the market has any quote. Without a surface every cap request is an error; with one, the nodes of the surface are returned. The last swap quote is priced at zero within the root finder's tolerance, and a quoted cap at its quote under the conditions of C45. Earlier swap quotes are not priced at zero even by an exact root finder, because a later entry changes the rate read at their maturity; and the date of the quotes is not compared with the date of the context, so the discount factor on the date of the quotes need not be one.", "quantifier": "every market, set of cap quotes, date, admissible sort and root finder (real arithmetic)", "why_tests_cant": "tests build contexts from one hand-made curve and never reprice the quotes they were built from, nor give different dates to the quotes and the context", "anchors": ["src/markets/interestrate/market_context.rs"]}
{"id": "C89", "title": "The FX market context, from raw quotes to lookups", "statement": "A context is built from raw quotes exactly when the rate contexts of both legs and the volatility surface are; it keeps its date, spot and pair, each leg answers as the rate context built from that leg's quotes, and no lookup depends on any quotes but its own. The volatility at the delta-neutral strike of a pillar is its at-the-money quote. The constructor for linear products succeeds exactly when the date 365 days on exists and panics otherwise; its surface returns ten per cent at every later expiry and positive strike. With the helper made by the pair, a forward quote is returned on its settlement date. With the raw-quote constructor this holds of pairs that settle on the second day and fails for the others, because the constructor ignores the pair and always assumes two days. Two documented claims are false: the forwards need not satisfy covered interest parity with the curves, and the domestic curve does not stand in for the foreign one in the linear constructor.", "quantifier": "every pair, market, set of forward quotes and pillars, date and strike, and every admissible sort, search and root finder (real arithmetic)", "why_tests_cant": "the one test builds a context from finished parts and reads back one volatility; no test builds a context from raw quotes for a pair that settles on the next day", "anchors": ["src/markets/forex/market_context.rs", "src/markets/forex/quotes/forwardpoints.rs", "src/derivatives/forex/basic.rs"]}
{"id": "C90", "title": "Rule-based calendars follow the holiday laws they are named after", "statement": "In the years 1901-2199, TARGET, Switzerland, Hungary, Norway, Finland, Sweden, Denmark, Iceland, Romania, the Czech Republic, Slovakia, Poland, Italy, Austria, Germany, the French exchange, South Africa, Botswana, Mexico, Brazil, Australia, Canada, New Zealand, the United Kingdom and the United States (settlement, Libor, government bond, SOFR, NERC) close on the weekends and on exactly the days their published holiday rules name: fixed dates with their substitutes, n-th and last weekdays of a month, days counted from Easter, and one-off closings. Ukraine, France (settlement), Argentina, the New York Stock Exchange, the Federal Reserve and Japan do not: Western instead of Orthodox Easter, fixed 10 and 21 May for Ascension Day and Whit Monday, no Christmas Day, an election day on the first Tuesday of November and no closing on 9 January 2025, a Juneteenth moved to Friday, and equinoxes known for a few years only. Each departure is the only one.", "quantifier": "every date of 1901-2199, fifty-two calendar and market pairs, and the departures of eight more", "why_tests_cant": "a test checks a handful of dates per calendar; the claim is an equality of two sets of days over three centuries, including every interaction of weekday, month end and Easter", "anchors": ["src/time/calendars/unitedstates.rs::UnitedStates::settlement_is_business_day", "src/time/calendars/ukraine.rs::Ukraine::is_business_day", "src/time/calendars/france.rs::France::settlement_is_business_day", "src/time/calendars/argentina.rs::Argentina::is_business_day", "src/time/calendars/japan.rs::Japan::vernal_equinox_day", "src/time/calendars/unitedkingdom.rs::UnitedKingdom::settlement_is_business_day"]}
{"id": "C91", "title": "The calendar of Israel follows the Hebrew calendar", "statement": "In the years 2000-2050 the six tables of the Israeli calendar name, of every year, exactly the day that the Hebrew calendar gives to Purim, Passover, Shavuot, the fast of Tisha B'Av, Independence Day (with its legal shifts away from the Sabbath) and the new year, the Hebrew calendar being computed from the mean conjunctions and the four postponement rules; the only exceptions are the new year of 2001 (a day early, so that Yom Kippur 2001 is a business day) and Independence Day 2038. The Tel Aviv and SHIR markets close on Saturdays, Sundays, the days counted from those tables and (SHIR) the closings abroad, and on no other day; outside 2000-2050 Tel Aviv closes on weekends only. The Tel Aviv weekend is Saturday and Sunday although the exchange traded from Sunday to Thursday until 2025.", "quantifier": "every date of 2000-2050 (1901-2199 for the expiry of the tables and the weekend), and every Hebrew year for the rules of the calendar", "why_tests_cant": "a wrong entry among 306 literal dates is invisible unless a test recomputes the Hebrew calendar; a test of one year says nothing about the others or about the expiry of the tables", "anchors": ["src/time/calendars/israel.rs::Israel::tel_aviv_is_business_day", "src/time/calendars/israel.rs::Israel::shir_is_business_day", "src/time/calendars/israel.rs::NEW_YEAR", "src/time/calendars/israel.rs::INDEPENDENCE_DAY"]}
{"id": "C92", "title": "The lunar festivals of the East Asian calendars", "statement": "From 2004 to 2050 the calendar of South Korea closes exactly on weekends and on the holidays of Korean law (with substitute days and elections); from 2004 to 2025 the calendar of Hong Kong closes exactly on weekends and on the general holidays of its ordinance except for nine missed and two added days; the lists of China, Taiwan, Singapore and Indonesia contain the lunar new year, tomb sweeping, the dragon boat festival and mid-autumn except in the named years and after the last listed year; the festival dates used are checked against mean new moons and the church calendar.", "quantifier": "all days of the years 2004-2050 (Korea), 2004-2025 (Hong Kong); all years 2004-2050 for the festivals of the other calendars", "why_tests_cant": "The tests compare a handful of dates copied from the code; whether the lists are the festivals needs a lunar calendar to compare with.", "anchors": ["src/time/calendars/southkorea.rs::SouthKorea::is_business_day", "src/time/calendars/hongkong.rs::HongKong::is_business_day", "src/time/calendars/china.rs::China::is_business_day", "src/time/calendars/taiwan.rs::Taiwan::is_business_day", "src/time/calendars/singapore.rs::Singapore::is_business_day", "src/time/calendars/indonesia.rs::Indonesia::is_business_day"]}
{"id": "C93", "title": "The Islamic feasts of the Turkish, Singaporean, Indonesian and Indian calendars", "statement": "From 2004 to 2034 the calendar of Turkey closes on three consecutive days of the feast of breaking the fast and four of the feast of sacrifice, within two days before and one after the date of the tabular Islamic calendar, except in 2011 and for the sacrifice of 2015, which is entered a month late; from 2004 to 2050 every other weekday closing is a national day or one of three named days. Singapore, Indonesia and India close near the feasts exactly in the Hijri years named: Singapore's list lacks 2011 and 2015-2018, Indonesia's ends in 2014, India's lacks 2015-2018.", "quantifier": "all Hijri years 1424-1456 (feasts of Turkey), all days of 2004-2050 (other closings), the Hijri years named per calendar, every Hijri year for the rules of the calendar", "why_tests_cant": "a test of one feast says nothing about the thirty others, and a feast entered in the wrong month looks like any other literal until it is compared with a computed lunar calendar", "anchors": ["src/time/calendars/turkey.rs::Turkey::is_business_day", "src/time/calendars/singapore.rs::Singapore::is_business_day", "src/time/calendars/indonesia.rs::Indonesia::is_business_day", "src/time/calendars/india.rs::India::is_business_day"]}
{"id": "C94", "title": "The calendars of Thailand, Russia and the Moscow exchange", "statement": "In 1901-2199 Thailand closes exactly on weekends, on the days of its holiday rules and on the Buddhist full-moon days of 2000, 2001 and 2005-2025, computed by the Thai lunar calendar and moved off the weekend; the Buddhist days of 2002-2004 and 2026 are missing. Russia closes exactly on weekends and the days of its rules; since 2013 the law closes 1-8 January but the calendar opens on the 6th and on the 8th unless it is a Monday, and it has Unity Day instead of 7 November and 12 December before 2005. The Moscow exchange closes exactly on the weekends and days of its rules except nine working weekends; from 2021 on it is open on New Year's Day.", "quantifier": "all days of 1901-2199, all years 2000-2026 for the full moons, all years 2013-2199 for January and 2012-2199 for New Year's Day", "why_tests_cant": "the test covers the days of two years against literals; it cannot see a Buddhist day missing from another year's list or a year whose New Year was never entered", "anchors": ["src/time/calendars/thailand.rs::Thailand::is_business_day", "src/time/calendars/russia.rs::Russia::settlement_is_business_day", "src/time/calendars/russia.rs::Russia::exchange_is_business_day"]}
{"id": "C95", "title": "Calendars kept as yearly lists close for a reason, and stop at the end of the list", "statement": "Every weekday closing of China (2004-2026), Taiwan (2002-2026), Singapore (2004-2026), Indonesia (2005-2014) and India (2005-2025) is a fixed day, lies within a few days of a festival (Chinese tables, the tabular Islamic calendar, lunar days of the mean moon in their season, Easter) or is one of a few named days; the fixed days are closed in every year. Outside the listed years, and in the years left out (Singapore 2011 and 2015-2018, India 2015-2018), the calendars close exactly on weekends and the fixed days: China after 2026 on 1 January only, so that Labour Day and the national days are business days, Taiwan on 5 April also when tomb sweeping is on the 4th, India without Diwali and Indonesia without Nyepi and Labour Day.", "quantifier": "every date (every year for China and Taiwan, 1901-2199 where Easter is used)", "why_tests_cant": "hundreds of hand-entered dates", "anchors": ["src/time/calendars/china.rs::is_business_day", "src/time/calendars/taiwan.rs::is_business_day", "src/time/calendars/singapore.rs::is_business_day", "src/time/calendars/indonesia.rs::is_business_day", "src/time/calendars/india.rs::is_business_day"]}
{"id": "C96", "title": "The simulation clocks in binary64 keep to their grid", "statement": "The path simulators add dt = t_end/n to a binary64 time. For 2^-900 <= t_end <= 2^40 and up to 2^24 steps the time after k steps is within an eighth of a step of k t_end/n and each midpoint is in the middle half of its step, so simulating a piecewise-constant schedule up to its horizon never panics and each step inside a segment meets that segment's value. A dt that is a small multiple of a power of two is added exactly. The start values of a tenor period are recorded at the step reaching its date - false: at that step or the next, depending on how the additions round, and always the next when they are exact. The bond maturing at the horizon is worth one at the end of a simulation - false: the clock can overshoot t_end by more than 1e-15 and bond_price panics. The tolerance of 1e-15 of the lookups is void from 16 years on.", "quantifier": "every t_end in the range, every number of steps up to 2^24, every step, every accepted schedule and tenor with finite dates", "why_tests_cant": "a test runs one t_end and one number of steps, usually a power of two or a lucky one; the rounding of the sum differs for every pair", "anchors": ["src/models/forex/sabr_time_dependent.rs::TimeDependentSabrSimulator::simulate", "src/models/forex/sabr_effective.rs::PiecewiseConstant::at", "src/models/interestrate/fmm.rs::FmmTenor::eta", "src/models/interestrate/fmm.rs::FmmSimulator::step", "src/models/interestrate/fmm.rs::bond_price", "src/models/forex/fx_fmm_simulator.rs::FxFmmSimulator::step", "src/models/forex/sabr_slv.rs::SabrSlvSimulator::simulate"]}
{"id": "C97", "title": "The Cholesky test for correlations, in binary64", "statement": "On a symmetric matrix of doubles with unit diagonal and entries in [-1,1], of size n up to 2^40, a factor without NaN on its diagonal is lower triangular with positive diagonal, reproduces every entry to n 2^-51, and the matrix is positive semi-definite up to n^2 2^-51; a matrix positive definite by more than that margin is always factored with finite entries. For the FX-HHW block of six correlations in [-1,1], is_valid is right up to 2^-47. For one correlation it accepts exactly the doubles strictly between -1 and 1, and NaN. False in binary64: that is_valid rejects what is not in [-1,1] (a NaN spot/variance correlation is accepted whatever the others are), that the answer does not depend on the order of the drivers, and that acceptance is the same as positive definiteness (each direction has a counterexample among two- to four-digit decimals).", "quantifier": "all matrices of doubles of any size up to 2^40, all six-tuples of doubles in [-1,1], all doubles for the two by two case", "why_tests_cant": "rounding decides only matrices within 1e-14 of singular, which tests do not reach, and the bound is over every matrix and every rounding", "anchors": ["src/models/forex/fx_hhw.rs::cholesky_4x4", "src/models/forex/fx_hhw.rs::is_valid", "src/models/interestrate/fmm.rs::cholesky", "src/models/forex/fx_fmm_simulator.rs::cholesky"]}
{"id": "C98", "title": "The bisections in binary64: bracket, stopping and NaN", "statement": "For every function on doubles: an implied volatility lies in [1e-8, 5] and either its price is within the tolerance or it is between two doubles less than 1e-12 apart with the price changing side; at most 44 of the 200 iterations are used; a non-decreasing price is inverted (price within tolerance, or within 1e-12 of a volatility with that price). The effective vol-vol is the square root (to 2^-51) of a point between two doubles where the equation changes sign, no further apart than 1e-14 or 2^-50 of the bracket; it panics only on NaN or when 2^22 is not enough. The calibrator's bisect ends in its bracket at an end on the wrong side, at a point within the tolerance, or in a sign change narrower than the tolerance or hi 2^-50. False: that the implied volatility is None when there is no price (a NaN price or target gives about 1e-8, and the calibrator returns its lower bound), and that the calibrator's root is within 1e-10 in its widest brackets.", "quantifier": "all functions from doubles to doubles, all targets and tolerances, all brackets up to 2^52", "why_tests_cant": "the functions are arbitrary and each loop runs up to 200 rounded steps", "anchors": ["src/models/common/black_scholes.rs::bs_implied_vol_tol", "src/models/forex/sabr_effective.rs::effective_vol_vol", "src/models/forex/sabr_time_dependent_calibrator.rs::bisect"]}
{"id": "C99", "title": "Linear interpolation in binary64", "statement": "With every operation rounded to binary64, forward points between two dates never leave the range of the two quotes, move with the date in the direction of the quotes and are within 12 half-units (2^-53) of the larger of the exact interpolation; the lookup of the local-variance grid always gives indices in range and a finite weight in [0,1], whatever is looked up, and puts NaN on the last point; the local variance is always finite and non-negative, at most 2^-48 above the largest entry, and within that distance of exact bilinear interpolation; a caplet smile answers every strike with a finite volatility within 2^-49 of the exact interpolation and is flat beyond its ends; the FX volatility between two expiries is finite, non-negative and its total variance within 2^-48 of the exact one. It is refuted that a quoted strike is answered with its quote: with 17% at 1% and 43% at 2% and 3% the answer at 2% exceeds every quote.", "quantifier": "all finite quotes up to 2^50 in size, all strictly increasing finite grids and all binary64 times and strikes including NaN and the infinities", "why_tests_cant": "A test compares a few points with a tolerance; no finite set of inputs excludes a NaN, an index out of range or an overshoot for every grid and every double.", "anchors": ["src/markets/forex/quotes/forwardpoints.rs::get_forward", "src/models/forex/dupire_local_vol.rs::bracket", "src/models/forex/dupire_local_vol.rs::local_variance", "src/markets/interestrate/volsurface.rs::interpolate_nodes", "src/markets/forex/quotes/volsurface.rs::volatility"]}
{"id": "C100", "title": "Floors and clamps hold in binary64", "statement": "With IEEE 754 rounding, and for every double including NaN and the infinities, the variances of the CIR, FX-HHW, FX-HHW-with-stock and FX-FMM steps, the forward of the SABR and SABR-SLV steps, and every intrinsic value are never negative and never NaN, along any path. For ordinary inputs the stepped variance is the floored exact value within 12 half-units of the size of its terms. The floor hides errors: a NaN increment, parameter or time step gives a variance of exactly zero, and a NaN forward an intrinsic value of zero, without any error. The SLV leverage is finite whatever the bin mean and the power of the forward. A clamp keeps every number in its interval but lets NaN through. The finite differences of the Dupire surface are exact on whole numbers at unit spacing. A Dupire surface built from grid-spaced finite prices gives a finite local volatility between 1% and 200% at every query, NaN included.", "quantifier": "every double for the floors; for the error bounds, parameters up to 1024; for the Dupire surface, every grid with knots at least 2^-14 apart and prices up to 2^19", "why_tests_cant": "a test on ordinary numbers never reaches NaN or an infinity, and cannot tell a correct zero from one made by the floor out of NaN", "anchors": ["src/models/common/cir.rs::step", "src/models/forex/fx_hhw.rs::step", "src/models/forex/fx_hhw_stock.rs::step", "src/models/forex/fx_fmm_simulator.rs::step", "src/models/forex/sabr.rs::step_with_noise", "src/models/forex/sabr_slv.rs::simulate", "src/models/forex/dupire_local_vol.rs::build", "src/derivatives/forex/option.rs::black_scholes"]}
{"id": "C101", "title": "Parameter checks in binary64", "statement": "With IEEE 754 comparisons: a correlation passes the checks of the FX-HLMM and FX-FMM models exactly when it is NaN or at most 1 + 4504/2^52 in size; a matrix of finite numbers passes only if its diagonal is within 1.001e-12 of one and it is symmetric to within 1.001e-12, and does pass if both hold to within 9.9e-13. The checks that return an error are blind to NaN: in any accepted parameters of the Libor model, the rate side, the correlation blocks or the stock correlations, any of the checked numbers may be replaced by NaN and they are still accepted. What those checks accept is stated exactly. The assertions of Fmm::new, SabrParams::new, TimeDependentSabrParams::new and the tenors let no NaN through, and what they accept is stated exactly: alpha, nu, the forward and the last tenor date may be plus infinity.", "quantifier": "For all doubles, NaN and infinities included, and matrices and lists of any size", "why_tests_cant": "A test must think of NaN in each place of each parameter, and the acceptance threshold is a property of rounding one plus 1e-12.", "anchors": ["src/models/forex/fx_hlmm.rs::validate", "src/models/forex/fx_fmm.rs::validate", "src/models/interestrate/fmm.rs::new", "src/models/forex/sabr.rs::new", "src/models/forex/sabr_time_dependent.rs::new"]}
{"id": "C102", "title": "Segments of the characteristic functions in binary64", "statement": "With IEEE 754 rounding, for any increasing tenor and any expiry up to 2^40 years, the segments of the FX-HLMM1 characteristic function lie end to end from zero to the expiry: each has positive length, right to one rounding, and the last ends within 1.001e-12 of the expiry. If the dates before the expiry are at least 2^-20 years apart and before it, and it is at most 1024 years away, there is exactly one segment for each, and one more when the first date is not today, and each holds the index of the first rate alive that exact arithmetic gives; the up to 1024 sub-steps of FX-FMM1 to each segment end where exact arithmetic puts them to within 2^-38 years, have positive lengths as near to an equal share, and hold the index of the rate that is fixing between the two dates. With an expiry one unit in the last place after a tenor date the index is off by one on the sliver between them.", "quantifier": "For all tenors of finite doubles of any length and all expiries in the stated ranges", "why_tests_cant": "The tolerances of 1e-12 meet rounding differently at every magnitude of the expiry; the wrong index needs an expiry next to a date.", "anchors": ["src/models/forex/fx_hlmm1_chf.rs::with_simpson_steps", "src/models/forex/fx_hlmm.rs::m", "src/models/forex/fx_fmm1_chf.rs::with_resolution"]}
{"id": "C103", "title": "The value of an FX forward in binary64", "statement": "With IEEE 754 rounding, buying and selling an FX forward are worth opposite amounts to the last bit for all inputs, NaN and infinities included; a contract struck at the outright forward is worth exactly zero; a contract bought above its strike is never valued below zero, nor below it above zero; and the value is within nine roundings of the notional times the sizes of spot, points, strike and discount factor of the exact one. A strike of zero is not rejected: a notional in domestic currency then has an infinite delta.", "quantifier": "For all currency pairs, both directions, both currencies of the notional and all doubles in the stated ranges", "why_tests_cant": "Bit-for-bit symmetry and a bound on rounding quantify over all doubles; tests compare a few values to a tolerance.", "anchors": ["src/derivatives/forex/forward.rs::mtm", "src/derivatives/forex/forward.rs::delta", "src/derivatives/forex/basic.rs::forward_points_converter"]}
{"id": "C104", "title": "Zero rates in binary64", "statement": "With IEEE 754 rounding, the zero rate between two pillars is within four roundings of the weighted mean of exact arithmetic, also beyond the pillars; between them it is monotone in both rates, not negative if they are not, and leaves their range by no more than four roundings. A rate that is a whole number of 2^-28ths is kept to the last bit by its own pillar and by a flat curve; other rates, 0.003 for one, are not.", "quantifier": "For all pillars up to 2^24 days apart with finite rates up to 2^20, and all target dates as near", "why_tests_cant": "Whether (3 * 0.003 + 0 * 0.003) / 3 is 0.003 depends on the last bit of the rate; tests compare to a tolerance.", "anchors": ["src/markets/termstructures/yieldcurve.rs::step_function_forward_zero_rate"]}
{"id": "C105", "title": "Turning a swap round turns its binary64 value round", "statement": "In binary64 the value of a swap with every leg turned round is minus its value to the last bit, but for the sign of a zero, whatever the numbers; it is the sum of its flows to two roundings a flow, each flow the product of its factors to six roundings, the last one the balance of the last period to two, and a floating reset the simple forward plus spread to five roundings of the ratio plus one over the year fraction. A swap with a floating period that starts and ends on one day is worth NaN, and a leg against the same leg turned round need not be worth zero.", "quantifier": "every list of legs, every list of periods, all binary64 numbers (bounded in size for the accuracy)", "why_tests_cant": "rounding of long sums; zero-length periods come only from short frequencies over weekends and holidays", "anchors": ["src/derivatives/interestrate/swap.rs::InterestRateSwap::npv", "src/derivatives/interestrate/swap.rs::InterestRateSwap::calculate_period_cashflow"]}
{"id": "C106", "title": "Simple-rate discount factors survive rounding", "statement": "In binary64 the discount factor one over one plus year fraction times rate is positive, at most one for a non-negative product and at least one for a non-positive one, never rises with the product, and is exact to eight roundings, for products from minus a half up. Products of at most 2^-54 all give one, and a product of minus one does not give a finite factor. The rate a futures price implies is zero at one hundred, falls with the price, rises with the adjustment and is exact to four roundings of the sum of one and the sizes of its parts.", "quantifier": "all binary64 year fractions, rates, prices and adjustments in range", "why_tests_cant": "rounding happens at every step and the claim is for every pair of numbers; the pole needs a rate no quote in the tests has", "anchors": ["src/markets/termstructures/yieldcurve/oisratehelper.rs::OISRate::zero_rate", "src/markets/termstructures/yieldcurve/ratehelper.rs::FuturesRate::implied_quote", "src/markets/termstructures/yieldcurve/ratehelper.rs::FuturesRate::discount"]}
