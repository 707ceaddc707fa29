# A formal model of finquant

Subject: `quantransform/finquant` as found in `/repo` (Rust).  Properties are
listed in `properties.jsonl`, their status in `MANIFEST.json`, mutation
attempts in `seeded/LOG.jsonl`.

## 1. Layout

`rocq/theories/` is flat.  Three kinds of files:

* **model files** – Gallina transcriptions of the Rust code, function by
  function, each definition citing the file and lines it models;
* **specification and proof files** (`*Facts.v`, `*Spec.v`) – lemmas, and the
  small independent definitions the property statements use;
* **property files** (`P_*.v`) – only theorem statements, closed by
  `exact lemma`, with their non-vacuity examples and `Print Assumptions`.

`tools/` holds the scripts used outside the build (the generator of
`properties.jsonl`, the translator that produces the calendar model from the
Rust sources, conformance scripts).  Nothing in the build depends on them.

## 2. Modelling decisions

* **Results.** `outcome A = Ok | Err | Panic` (Outcome.v).  `Option` stays
  `option`.  A panic is a value, so "does not panic" is a theorem.
* **Dates.** A `NaiveDate` is its day number from the common era, an integer
  between `NaiveDate::MIN` and `NaiveDate::MAX`; leaving the range panics, as
  chrono does.  Year/month/day/weekday/ordinal are computed from the day
  number and proved correct for all dates (DateFacts.v).  chrono itself is a
  dependency and is modelled from its documented contract.
* **Calendars.** `Calendar` is a trait; the provided methods are modelled over
  an *arbitrary* calendar `date -> outcome bool`, so the theorems hold for
  user-written calendars too.  The shipped calendars are translated one by one.
* **Loops.** `while` loops use a bound written in binary that exceeds the
  number of representable dates; exhausting it is an explicit error, and it is
  proved never to happen.
* **Integer overflow.** Functions whose integer arithmetic can overflow take
  the build profile `oc` (`true` = overflow checks on, `false` = wrapping).
* **Floating point.** Three levels, always stated in the file header:
  (a) year fractions and other single-rounding computations use Flocq's
  binary64; (b) algorithms that only compare and move floats around (sorting,
  bracketing, Nelder–Mead, piecewise lookup) are generic in the number type or
  take it as reals; (c) pricing formulas are modelled over the real numbers
  (Coq `Reals` + Coquelicot), i.e. rounding is idealised away.  Level (c)
  proves the formula, not its rounding.
* **Random numbers.** Draws are universally quantified inputs; statements about
  means integrate them out against the standard normal density.
* **Shared mutable state** (`Rc<RefCell>`, `Weak`) is a store of cells
  threaded explicitly.

When a property is false of the faithful model, the theorem is the negation
with a concrete witness (suffix `_refuted`), next to a theorem saying what does
hold (suffix `_partial`); the property stays listed with status `partial`.

## 3. Trusted base

* Coq 8.16.1's kernel (and `coqchk`).
* Exactly what `Print Assumptions` lists under each theorem in the `P_*.v`
  files.  Discrete theorems are closed under the global context.  Theorems
  about real or binary64 numbers use the standard library's axioms for the
  reals: `ClassicalDedekindReals.sig_forall_dec`,
  `ClassicalDedekindReals.sig_not_dec`,
  `FunctionalExtensionality.functional_extensionality_dep`, and where
  Coquelicot/Flocq need it `Classical_Prop.classic`.  No axiom is added.
* That the model is the code: the citations, the comments on simplifications,
  and the conformance vectors in `tools/`.
* chrono, libm, `rand`, `statrs`, serde and the Rust compiler are outside.

## 4. Plan per property

| id | modelled | how proved |
|----|----------|-----------|
| C01–C02 | Calendar.adjust over any calendar | loop invariant; iff characterisation of every successful result, exact failure condition |
| C03–C04 | the month/half-month tests of adjust | from C01/C02 plus month intervals of the day line |
| C05 | Nearest branch | **false** (returns the holiday side): `_refuted` witness; `_partial` exact characterisation |
| C06–C07 | adjust | from the characterisations; HalfMonth is not claimed monotone |
| C08–C09 | advance(Days) | count of business days over an interval as specification, induction |
| C10 | advance(Months/Years), end-of-month flag | month arithmetic + C13 |
| C11–C12 | business_days_between, incl. the `usize` cast | counting invariant; same-day claim **false** → `_refuted` |
| C13 | last_day_of_month, end_of_month | month intervals |
| C14 | JointCalendar | induction on the list of members |
| C15–C16 | translation of all shipped calendars | per calendar: structural no-panic proof; closures bounded by a checked walk over the 299 years (Closure.v proves the walk sound; certificates generated by tools/closure.py) |
| C17 | both Easter tables | computus defined independently; table agreement by kernel computation over the 299 supported years (the whole domain) |
| C18 | Target | rule stated independently |
| C19–C20 | period arithmetic, both build profiles | integer arithmetic; overflow claim **false** in release → `_refuted`, debug proved |
| C21–C22 | settlement/near dates | loop characterisation; C22 examined for month-end cap |
| C23 | name/from_code tables | case analysis; Frequency part **false** |
| C24 | Actual/N | integers + Flocq binary64 division |
| C25 | Thirty360 markets | integer arithmetic |
| C26–C28 | NoLeap, ActualActual, Business252 | **false** as stated, `_refuted` + what holds |
| C29–C31 | IMM | weekday arithmetic; C31 **false** in places |
| C32 | FX pair tables | case analysis over the enum (whole domain) |
| C33–C34 | forward helper, FX forward | sorted-list search, real arithmetic |
| C35–C37 | Black–Scholes, Bachelier, implied vol | reals; normal cdf defined by an integral, Gaussian integral proved; prices proved to be expectations; C36 `None` claim **false** above 500% volatility |
| C38–C40 | yield term structure | reals; C40 extrapolation **false** |
| C41–C43 | swap schedule, npv, risk | list induction, reals; C41 count **false** when tenor and duration have different units; `roots::find_root_brent` is a parameter of `solve_zero_rate` with its contract as hypothesis |
| C44–C45 | vol surfaces, caplet stripping | list search; C44 **false** for a call quoted next to RR and BF, C45 **false** for grids with gaps; sorting and the root finder are parameters with contracts |
| C46 | Nelder–Mead | invariant over the iteration, generic in the objective |
| C47–C48 | Monte-Carlo engine, CIR/Heston/GBM/SABR steps | induction over paths; C47 **false** for zero-length steps |
| C49 | Hull–White closed forms | integrals in Coquelicot; bond_log_variance **false** |
| C50 | Cholesky | induction on rows |
| C51 | observers | induction over the history and the observer list with a heap; valuation date and surface **false** |
| C56–C57 | FX cut-off and spot dates | calendar facts; C57 **false** |
| C58 | FxMarketContext::forward_at | **false** (raw points) |
| C59–C62 | rate indices, cash and futures helpers, the bootstrap | reals (exp/ln), list induction; each is **false** in part |
| C63 | FX vanilla option | from C35; delta and vega **false** in sign and scale |
| C64–C68 | caplet surface lookup, caplet variance, caps and floors | list search; integrals in Coquelicot; from C37 and the curve-shift lemmas of C43 |
| C69–C70 | increments and conditional means of the simulated processes | expectations as iterated improper integrals against the normal density; tower property over the steps |
| C71–C72 | CIR moments and the mean of the square root | moment equations by derivation; series of the non-central chi-square with a geometric tail bound; the branch for a large non-centrality **false** |
| C52 | the closed-form SABR smile: Hagan's formula, at-the-money limit and slope, sign, symmetry | reals; the x(z) integral through its derivative |
| C53 | the COS pricer: coefficients, prices as integrals, parity, exactness, strikes out of range | reals; cosine orthogonality |
| C54, C75–C76 | forward market model: bonds, bank account, the step, snapshots, decay, schedules | reals; finite sums and products, integrals in Coquelicot; first date after today, snapshots on the grid and the documented default level **false** |
| C77 | Dupire local volatility: construction, differences, Dupire equation, consistency, interpolation | reals; derivatives in Coquelicot; documented floor of the denominator **false** |
| C78 | Stochastic local volatility: bins, compensator, path step, run | reals; sort as a contract; "each path reads its own bin" **false** for absorbed paths |
| C79 | SABR smile calibrator: reparameterisation, error, improvement, exact start, domain | reals; on C46 and C52; "rmse is the error of the returned smile" **false** where the smile is negative |
| C80 | Time-dependent SABR calibrator and smile strips: bisection, the four stages, errors, single pillar, adapters | reals; on C55, C74, C79; "a reachable rho is reached" **false** after a clamp; "expiry_yf is from the surface's date" **false** |
| C81 | FX-HHW1 forward characteristic function: closed form of C, Simpson integral and its cache, evaluation | reals, Coquelicot's complex numbers; square root and exponential of num_complex over the reals; `ln_gamma` any function; "the limit solves the backward equation" **false** when a rate is correlated with the variance |
| C82 | FX-HLMM: tenor, validation, frozen coefficients, quadratic forms and f | reals; errors' messages dropped; `ln_gamma` any function |
| C83 | FX-HLMM1 characteristic function: segments, Riccati closed forms, logarithms, Simpson sums | reals; division by zero is zero; borrowed parameters are arguments |
| C84 | Cross-currency forward market model: checks, decaying coefficients, variance identity | reals; division by zero is zero; is_finite holds of every real |
| C85 | FX-FMM1 characteristic function: chunks, Riccati equations with an error bound, limit of finer chunks, backward equation, values, the lost last period | reals; division by zero is zero; the borrowed parameters are an argument; the nested loops of f_at are one loop over pairs; log-gamma is a parameter |
| C86 | FX-FMM path simulator: construction, joint law of a step, quanto shift, martingale along paths, domestic leg against the single-currency simulator, unused inputs | reals; the generator is a stream of draws; the correlation matrix is a function of its indices while written; the fields of one currency are a record |
| C87 | Smile calibrators of FX-HHW, FX-HLMM and FX-FMM: volatilities, fits, improvement on the start, domain and panics, discount factors, strip wrappers | reals; Nelder-Mead and the implied-volatility bracket as in C46, C36; log-gamma and sort are parameters; the three files share one generic fit |
| C88 | Interest rate market context: construction from raw quotes, lookups, errors without a surface, repricing of swap and cap quotes, dates not compared | reals; sorts and root finder are parameters with their contracts as in C45 and C61; fields never read are left out |
| C89 | FX market context: construction from raw quotes and for linear products, lookups per leg, placeholder surface, spot lag of the forwards, parity not imposed | reals; sorts, searches and root finder are parameters with their contracts as in C33, C44 and C61; fields never read are left out |
| C90 | sixty calendar and market pairs against independent lists of holiday rules, with the departures from the law refuted | years 1901-2199; the calendars made of year-by-year lists (China, Hong Kong, India, Indonesia, Israel, Russia, Singapore, South Korea, Taiwan, Thailand, Turkey) are left to C91-C93; the rule lists are transcribed from public holiday law by hand |
| C91 | Israel's tables against the computed Hebrew calendar, the exact closings of both markets, the two wrong entries and the weekend refuted | the laws on shifting Independence Day are taken as those in force since 2004 (before: only Friday and Saturday shift) |
| C92 | South Korea and Hong Kong against holiday law with a lunar calendar, the lunar holidays of China, Taiwan, Singapore and Indonesia, the missing and misdated entries refuted | festival dates 2004-2050 are tables checked against mean conjunctions (within 0.625 day before or 1.625 days after the month's first midnight) and seasons; Chinese make-up working weekends and bridge days are not compared |
| C93 | Turkey's feasts and other closings, the feasts of Singapore, Indonesia and India against the tabular Islamic calendar, the misdated and missing ones refuted | announced dates follow the crescent, so a tolerance of two days before and one or two after the tabular date is allowed; the Hindu festivals of India are not compared |
| C94 | Thailand against the Thai lunar calendar and its rules, Russia's settlement and exchange calendars against theirs, the missing days refuted | one-year announcements are entered as single days; the extra months and days of the Thai lunar calendar are data, checked against mean full moons |
| C95 | the five calendars kept as lists (China, Taiwan, Singapore, Indonesia, India): every closing has a reason, the fixed days outside the lists, the holes refuted | Hindu and Buddhist days by the mean moon with 15 hours of tolerance and a season; announced days are entered one by one |
| C96 | the clocks of the path simulators, the schedule lookup, the tenor period and the first tests of bond_price in binary64 | Flocq's binary64; only the times are modelled, not what is simulated along them; knots between 0 and 2^50; relative error bounds of the additions, midpoint lemmas for the tolerance |
| C97 | Chol64.v: the factorisation and is_valid with every operation rounded to binary64 | no fused multiply-add, no reassociation (rustc emits neither); square root correctly rounded as IEEE requires; one NaN, no payloads |
| C98 | Bisect64.v: the three bisection loops with rounded arithmetic | the function sought is an arbitrary function on doubles; the calibrator's bracket widening (a caller) is not included |
| C99 | Lerp64.v: the linear interpolations with rounded arithmetic | the sorting and searching around them is in ForwardPoints.v, CapSurface.v, Dupire.v and VolSurface.v |
| C100 | Floor64.v: the floors and clamps of the simulators, intrinsic values and the Dupire surface with rounded arithmetic | exponentials and powers are arbitrary functions on doubles; of two zeros of different sign `max` takes the first |
| C101 | Validate64.v: the checks and assertions on model parameters with IEEE 754 comparisons | error texts are one error; in Fmm::new an index out of range is a failed assertion |
| C102 | Segments64.v: the boundaries and segments of FX-HLMM1 with rounded arithmetic; Substeps64.v: the boundaries and sub-steps of FX-FMM1 | the two coefficients of a segment or sub-step are left out |
| C103 | Forward64.v: mtm and delta of the FX forward from the points and the discount factor on | the lookup of the points (C99) and the discount factor are inputs |
| C104 | Zero64.v: the interpolation of step_function_forward_zero_rate | the search for the two pillars is the one of C40; the exponential of the discount factor is not an IEEE operation |
| C105 | SwapNpv64.v: npv and calculate_period_cashflow | the year fractions and discount factors are inputs, one for each date as the curve is a function of the date; the schedule is that of C41 |
| C106 | Simple64.v: the simple-rate discount factor of OISRate and FuturesRate, and implied_quote | the year fraction is an input; the exponential and logarithm around it are not IEEE operations |
| C55, C73–C74 | piecewise-constant schedules, effective SABR parameters, the time-dependent simulator | exact integrals of piecewise exponentials, Taylor remainders of the guarded branches, bisection bracket and inverse of the moment function; simulation by reduction to the constant-parameter step; right-continuity, "constant γ gives γ", "constant ρ gives ρ" and the α schedule **false** |

## 5. Not modelled

serde/typetag (de)serialisation, plotting and examples, `Display` strings other
than the name tables, Python or FFI bindings, performance, and the numerical
accuracy (rounding error) of the level-(c) formulas apart from what C96–C106
state.

Files of `/repo/src` with nothing to model: the `mod.rs` files and `lib.rs`
(declarations), `utils.rs` (one macro), `models/common/calibration.rs` (a trait
without default methods), and the test-only files `src/tests/*`,
`models/forex/eurusd_worst_case.rs` and `end_to_end_test.rs`. Accessors such as
`as_any` and `yts_type`, and constructors that only store their arguments, have
no definition of their own.
