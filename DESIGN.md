# A machine-checked model of dcf (discounted cash flow) in Coq

## 1. What is modelled and how

The model lives in `rocq/theories`. It is a set of total Gallina functions that
follow the Python code of /repo/dcf branch by branch. Every definition carries
the file and lines it models.

* **Exceptions are values.** `res A := Ok a | Err e` where `e` is a Python
  exception kind (`ValueError`, `ZeroDivisionError`, `TypeError`, ...). The model
  raises where Python raises: division by zero, `log` of a non-positive number,
  `float + '1D'`, missing attributes, wrong types of arguments of builtins.
* **Numbers.** All functions are polymorphic in a number structure `Num T`
  (`Num.v`): `+ - *` total, `/ exp log sqrt pow` partial, boolean comparisons.
  Theorems about values are stated for the instance `R` (Coq's real numbers), so
  IEEE-754 rounding is idealised away. Theorems about structure and state are
  stated for every `Num T`, hence also for floats. `MFloat.v` gives the instance of
  binary64 numbers (the standard library's `Floats.SpecFloat`, computable and free of
  axioms) with an arbitrary maths library; C89 to C91, C97 to C100, C102 to C105, C113, C114 and C124 are about this instance.
  Rounding errors are derived from Flocq's theorems about round to nearest (a library without
  axioms of its own).
* **Dates.** The code duck-types dates (floats, `datetime`, `BusinessDate`). The
  model is polymorphic in a date system `DateSys` (comparison, object identity
  `is`, adding a period - which may raise -, default day count). Laws used by
  theorems are collected in `DateLaws`: dates have a real time coordinate.
  Instances: float dates and day-number dates.
* **Loops and recursion** that may diverge take fuel; running out of fuel is the
  error `OutOfFuel`, which no theorem confuses with a Python result. Termination
  theorems give a fuel bound; divergence theorems say that every fuel runs out.
* **State.** Mutable objects that the pricers touch (fixed rate of a rate leg,
  spread of a curve, valuation date of a model, data of a curve) are explicit
  state: a `heap` of curves, option models and cash flow lists (`MPricer.v`), threaded
  through functions of type `S -> res A * S`, so that the state after an exception
  is visible and aliasing (a curve used as discount curve and as forward curve of a
  leg) is represented.

## 2. Files

| file | contents |
|---|---|
| `Num.v` | exceptions, result monad, number structures, instance for R |
| `Py.v` | Python builtins used by the code: sorted, index, bisect, zip, dict, round |
| `MCompounding.v` | dcf/compounding.py |
| `MPlans.v` | dcf/plans.py |
| `MInterpolation.v` | dcf/interpolation.py |
| `MDates.v` | dcf/daycount.py, date systems, civil calendar |
| `MCurve.v` | dcf/curves/curve.py: Curve, DateCurve, ForwardCurve |
| `MRateCurve.v` | dcf/curves/curve.py: RateCurve; interestratecurve.py, creditcurve.py, volatilitycurve.py |
| `MFx.v` | dcf/curves/fx.py |
| `MTable.v` | rate_table (curve.py), dcf/ratingclass.py |
| `MOption.v` | dcf/models/*.py |
| `MCashflow.v` | dcf/cashflows/cashflow.py, payoffs.py, contingent.py |
| `MBracket.v`, `MPricer.v` | dcf/pricer.py |
| `MProducts.v` | dcf/cashflows/products.py |
| `MDetails.v` | `details` of payoffs and option models as dicts, `table` of cash flow lists |
| `MKwargs.v` | rebuilding curves from `kwargs`: class and function arguments become names |
| `MNested.v` | leg lists whose legs are leg lists, and their valuation |
| `MListArgs.v` | rebuilding cash flow lists from `kwargs`: payoff objects in place of amounts, all other arguments lost |
| `MFloat.v` | Python's float as a number structure |
| `MPlot.v` | dcf/curves/plot.py: `make_grid`, `rate_table` |
| `S*.v`, `Spec.v` | small independent specifications used in theorem statements |
| `L*.v` | lemmas and proofs |
| `P*.v` | property theorems (`Cxx_...`), followed by `Print Assumptions`, with examples meeting the hypotheses |

## 3. Trusted base

* Coq 8.16.1's kernel, including its virtual machine (`vm_compute`; C109's error bound needs
  a few seconds of integer arithmetic); no plugins, no own axioms, no switched off check.
* Axioms of the standard library's real numbers, as printed by
  `Print Assumptions` beneath each theorem: `ClassicalDedekindReals.sig_forall_dec`,
  `ClassicalDedekindReals.sig_not_dec`, `FunctionalExtensionality.functional_extensionality_dep`
  and, where classical analysis is used, `Classical_Prop.classic`. Theorems stated for
  every `Num T` are closed under the global context. (The fields of the sealed modules
  `RbaseSymbolsImpl`, `RinvImpl` of the standard library and `Under_rel` of its ssreflect
  part are constants behind a signature, not assumptions; the kernel lists them as
  opaque fields.)
* The reading of the Python code into Gallina (by hand), the idealisation of
  floats as reals, and the list of simplifications below.

Not modelled:

* string formatting (`__str__`, `__repr__`, the `id` entries of `details`), warnings;
* the drawing functions of `plot.py` and its branches for period objects; the scipy branches of `integrate` and `derivative` (the branches taken
  without scipy are modelled);
* the external packages businessdate, scipy, matplotlib. The schedule of business dates
  used by `bond` and `interest_rate_swap` is a parameter of the model (`MProducts.v`),
  and business dates enter through the laws `DateLaws` or the day-number instance (there
  the difference of two dates is a number of days, not years, months and days; theorems
  using differences of dates are stated for every `DateSys`);
* which of two errors comes first in a few places (named in the comments of the model), and
  that `kwargs` of a copied curve is not evaluated when all arguments are given: this
  matters only for curves which raise on their own dates;
* option models whose forward is missing while volatility and time are positive raise
  TypeError in the model, also for the constant greeks of the intrinsic classes;
* Python's recursion limit (1000 frames) in the root search, memory, and time;
* outside C89 to C91, C97 to C100 and C102 to C105, C113, C114 and C124, IEEE-754 rounding, infinities and nan: overflow is not represented,
  and a theorem about values holds for floats only up to rounding. In these `exp`, `log`,
  `pow` and `round` of the platform are arbitrary functions, Python 3.12's compensated `sum` is
  modelled as plain addition, as in earlier versions (the witnesses of C89 sum one summand; the bounds of C97
  are those of plain addition), and float overflow in `**` and
  `exp` raising OverflowError is part of the arbitrary functions.

## 4. Plan per property

Where the code does not do what its documentation promises, the negation is
proved (`..._refuted`) with a concrete witness and the strongest true variant is
proved beside it; MANIFEST.json calls these properties partial and says which part
holds. The exact theorem names are in MANIFEST.json.

| id | modelled | proof | outcome |
|---|---|---|---|
| C01 | compounding.py completely | field and ln/exp algebra over R; error cases by case analysis | partial: refuted for periodic rates below minus the frequency (C01_periodic_alias_refuted) |
| C02 | same | monotonicity of ln(1+x)/x, Bernoulli inequality | proved |
| C03 | daycount.py on float and day-number dates | linear arithmetic; other date types through `DateLaws` | proved |
| C04 | plans.py | induction on the number of payments, geometric series | proved |
| C05 | plans.py annuity | geometric series | proved |
| C06 | plans.py outstanding | induction on the plan | proved |
| C07 | interpolation.py: constructors | sorting lemmas (Permutation, StronglySorted) | proved |
| C08 | interpolation.py: step classes incl. binary search | bisection invariant, iff characterisation | proved |
| C09 | linear | chord algebra on the segment found by the search | proved |
| C10 | log linear, constant rate, log linear rate | ln/exp algebra, positivity invariant | proved |
| C11 | update/append | refinement to finite maps, induction over histories | partial: refuted for repeated keys in one update (C11_duplicate_keys_refuted) |
| C12 | interpolation_scheme and dynamic scheme classes | case analysis on the position of x | partial: refuted for rate-based parts with a point at 0 (C12_rate_scheme_refuted) |
| C13 | from_dict with generator semantics | refuted for the log classes; proved for the others | refuted as stated, true variant proved |
| C14 | Curve.__setitem__, __getitem__, domain | refinement to finite maps over assignment histories | proved |
| C15 | Curve arithmetic | uniqueness of piecewise linear functions on refined grids | proved |
| C16 | Curve.shifted | refuted; exact behaviour proved | refuted as stated, true variant proved |
| C17 | DateCurve evaluation, fixings | affine time change; finite map refinement | proved |
| C18 | DateCurve copy constructor | refuted; exact values for float dates with any origin | refuted as stated, true variant proved |
| C19 | DateCurve constructor order | refuted; proved with explicit origin | refuted as stated, true variant proved |
| C20 | get_discount_factor, get_survival_prob | algebra; refuted for discount factor curves without value at the origin | refuted as stated, true variant proved |
| C21 | same | exponent algebra over additive day counts | refuted as stated, true variant proved |
| C22 | get_zero_rate, get_flat_intensity | ln/exp algebra | proved |
| C23 | ShortRateCurve, HazardRateCurve daily integration | loop invariant with fuel bound | proved |
| C24 | get_cash_rate | algebra; divergence by induction on fuel | refuted as stated, true variant proved |
| C25 | CashRateCurve stepping loop | loop invariant | proved |
| C26 | get_swap_annuity | refuted: identically zero | refuted as stated, true variant proved |
| C27 | casts between rate curve classes | exactness on the grid by the interpolation lemmas | proved |
| C28 | casts, kwargs | case analysis; losses refuted | refuted as stated, true variant proved |
| C29 | spread setter and getter | invariant over assignment histories | proved |
| C30 | probability clamping | order reasoning | partial: refuted before the origin (C30_before_origin_refuted) |
| C31 | marginal curves | loop invariant | proved |
| C32 | get_short_rate, get_hazard_rate | case analysis; divergence by induction on fuel | refuted as stated, true variant proved |
| C33 | volatilitycurve.py | algebra over R | proved |
| C34 | ForwardCurve | algebra | partial: refuted for unordered dates (C34_unordered_refuted) |
| C35 | fx.py container | invariant over histories of `add` | refuted as stated, true variant proved |
| C36 | fx.py forwards | invariant; refuted for pairs with the base currency | refuted as stated, true variant proved |
| C37 | CashFlowList, FixedCashFlowList | association list refinement | proved |
| C38 | RateCashFlowList, ContingentRateCashFlowList | list induction, telescoping year fractions | refuted as stated, true variant proved |
| C39 | CashFlowLegList | list induction | refuted as stated, true variant proved |
| C40 | get_present_value | list induction in state passing style | refuted as stated, true variant proved |
| C41 | get_present_value | linearity of finite sums | proved |
| C42 | all pricers in state passing style | final state on success by symbolic execution; refuted on exceptions | refuted as stated, true variant proved |
| C43 | _simple_bracketing | invariant over the recursion, intermediate value theorem | proved |
| C44 | _simple_bracketing | halving argument with explicit fuel; divergence by induction | proved |
| C45 | get_yield_to_maturity | monotone error function composed with C43/C44 | proved |
| C46 | get_fair_rate | affine error function composed with C43/C44 | refuted as stated, true variant proved |
| C47 | get_interest_accrued | unique period of an increasing schedule | proved |
| C48 | get_basis_point_value | symbolic execution | refuted as stated, true variant proved |
| C49 | get_bucketed_delta | partition of unity by induction on the grid | proved |
| C50 | get_curve_fit | state invariant over the grid loop, C43/C44 at each date | refuted as stated, true variant proved |
| C51 | get_call_value, get_put_value | case analysis | proved |
| C52 | distibutions.py | polynomial inequalities with rational bounds | refuted as stated, true variant proved |
| C53 | models: values | bounds of the approximated distribution | refuted as stated, true variant proved |
| C54 | optionpricing.py greeks | case analysis; refutation by exact values | refuted as stated, true variant proved |
| C55 | bachelier.py, black76.py greeks | algebra | refuted as stated, true variant proved |
| C56 | displaced.py | algebra | refuted as stated, true variant proved |
| C57 | BinaryOptionPayOffModel | algebra | refuted as stated, true variant proved |
| C58 | ContingentRateCashFlowPayOff | case analysis | refuted as stated, true variant proved |
| C59 | OptionStrategyCashFlowPayOff, option lists | permutation invariance of sums | proved |
| C60 | RatingClass vectors | round-half-even algebra | refuted as stated, true variant proved |
| C61 | master scales | geometric sequence | proved |
| C62 | bond | list induction on redemption plans | refuted as stated, true variant proved |
| C63 | interest payment dates, asset_swap | divergence by induction on fuel | refuted as stated, true variant proved |
| C64 | rate_table | list induction | proved |
| C65 | DateCurve(domain, curve) | symbolic execution | refuted as stated, true variant proved |
| C66 | DateCurve.shifted | refuted; exact behaviour proved | refuted as stated, true variant proved |
| C67 | DateCurve arithmetic, also of curves with different origins | uniqueness of piecewise linear functions | refuted as stated, true variant proved |
| C68 | DateCurve.integrate, derivative (branch without scipy) | algebra | partial: refuted for float dates (C68_float_refuted) |
| C69 | OptionPayOffModel.details | case analysis | refuted as stated, true variant proved |
| C70 | Curve(date_curve) | interpolation lemmas | refuted as stated, true variant proved |
| C71 | forward_tenor defaults | symbolic execution | proved |
| C72 | survival of the empty period; marginal survival over tenors of which one has a value below the bound | case analysis; induction on the tenors (PMarginal) | proved |
| C73 | ZeroRateCurve short rates | algebra | proved |
| C74 | __setitem__ of rate curves | symbolic execution | refuted as stated, true variant proved |
| C75 | RatingClass keys and names | association list refinement | proved |
| C76 | interest_rate_swap | list induction | proved |
| C77 | details of payoffs and models as dicts | association list lemmas, list induction | proved |
| C78 | CashFlowList.table | list induction | refuted for leg lists, option lists, strategies and collared coupons (exact contents of their tables proved), proved for the others |
| C79 | `interp_kwarg`, `dc_kwarg`, `*_rebuild` | states of curves after histories; names of schemes by case analysis | refuted for other scheme classes, unregistered day count functions, fixings, yield curves, domestic and foreign curves of fx forwards and default probabilities, proved for the rest |
| C80 | `__add__` … `__truediv__` of lists, in state passing style | case analysis; refuted: the result is None | refuted as stated, exact behaviour proved |
| C81 | `__add__` … `__truediv__` of rate curves (`rc_zip`, `rc_div`) | reduction to the arithmetic of date curves, uniqueness of piecewise linear functions | refuted if the origin is on neither grid and for division, proved otherwise |
| C82 | `make_grid` | list induction, loop with fuel bound | refuted: dates twice, dates after the end, divergence for negative steps; exact grid proved |
| C83 | `rate_table` of plot.py | minimum and maximum folds, loop with fuel bound | refuted for equidistant grids, proved for all others |
| C84 | `get_present_value` of `RateCashFlowList` with forward and discount curve the same | each coupon from C38 and C21/C24/C25, telescoping sum by induction on the dates | proved for zero rate, discount factor and cash rate curves |
| C85 | `get_fair_rate` after `get_present_value` | C46 with the coupons of the fixed leg, C84 for the target | proved for zero rate curves |
| C86 | `get_yield_to_maturity` of redemption and interest leg | geometric sum by induction on the plan, monotonicity of the value in the yield | refuted as documented, true value at par proved |
| C87 | `rc_cast` for each target class with the loops building its grid | the grid stored is the grid of the source plus the dates stepped back to, values looked up there equal what the source quotes | proved for rates, origin and day count; refuted for the forward tenor (lost, or relabelled) |
| C88 | `CashRateCurve(curve)` and its discount factors | product of the stored cash rates over a schedule equals the discount factor of the source, induction on the schedule | proved with origin and end in the grid; refuted without a rate at the origin |
| C89 | root search on binary64 numbers, any maths library | invariant of the search over symmetric float comparison; refutation by a fixed point of the step function, for every depth | enclosure proved; refuted that it is found |
| C90 | interpolation on any number structure, on binary64 | look-up in a sorted permutation without laws of arithmetic; computation | proved for stepwise interpolations, refuted for linear ones |
| C91 | plot grids, cash rates, cast to cash rate curves on binary64 | computation; induction on the depth | refuted |
| C92 | `get_bucketed_delta`, `get_basis_point_value` on zero rate curves, floating legs on cash rate curves, leg lists | sums over flows and buckets swapped; convexity of the exponential on the weights of the buckets | proved on grid dates and as an inequality, refuted between grid dates |
| C93 | `bond`, `interest_rate_swap`, `get_present_value` on all curve classes | value of each leg from C38 and C84; summation by parts over the periods | proved for schedules of business dates without pay offset |
| C94 | `get_yield_to_maturity` | C45 brackets an exact root near the result; strict monotonicity of the value in the yield, by induction over the flows | proved |
| C95 | `get_basis_point_value` | C48 gives the shifted values; termwise bounds on (exp(-s t) - 1)/s, summed by induction | proved for fixed lists on zero rate curves; legs for all products |
| C96 | `get_terminal_vol` of both volatility curves | loop invariant of `integrate`; sum of squared deviations is not negative | refuted for instantaneous volatilities with witness, exact behaviour proved; proved for terminal volatilities |
| C97 | `get_present_value` in double precision | the operations of SpecFloat are Flocq's; relative error of each operation, induction over the flows | proved for plain left-to-right addition; returned and finite (C97_returns) |
| C98 | `simple_compounding`, `simple_rate`, `continuous_compounding` in double precision | rounding is monotone and has a bounded relative error; case analysis of overflow | proved; exact recovery of rates refuted |
| C99 | `get_present_value` on ZeroRateCurve in double precision | C97 and the error of continuous compounding (C98), summed over the flows | proved for valuation at the origin, in terms of the rates and times the curve returns; returned and finite (C99_returns) |
| C100 | interpolation classes and Curve in double precision | comparing, sorting and bisecting doubles commutes with taking their values; then the rounding of the one chord formula with Flocq | proved; bound for linear, exactness for stepwise and constant data |
| C101 | `kwargs` of all classes of cash flow lists and the constructors called with them | lookup in the rebuilt dictionary | proved for CashFlowList; refuted for every other class |
| C102 | `DateCurve`, linear interpolation, `ZeroRateCurve` and `get_present_value` on doubles | rounding error of each step, perturbation of the piecewise linear function by rounded times | proved; returned and finite (C102_returns) |
| C103 | default day count on doubles | correctly rounded quotient and difference | error, order, sign proved; additivity refuted, bounded error proved; strict order refuted for floats |
| C104 | `amortize`, `bullet`, `outstanding` on doubles | correctly rounded quotients, error of the running sum by induction | error bounds proved; exact full redemption refuted |
| C105 | log-linear rate scheme, `DiscountFactorCurve`, `get_present_value` on doubles | the scheme is the linear one of the rounded rates; perturbation of the nodes; error of each step | proved; returned and finite (C105_returns); calendar dates (PRound13): the rates at rounded times are those at exact times up to two units of rounding, and piecewise linear functions move little with their nodes |
| C106 | plans with omitted arguments and with fractional numbers of payments (`MPlans2.v`) | closed forms of the sums, `int(num)` as the integer part | shares and defaults proved; full redemption refuted |
| C107 | curves of zero rates, discount factors, survival and default probabilities with default interpolation; log-linear interpolation | closed form of the forward rate on a segment, gluing of segments by induction on the number of knots between | refuted as stated; forward rates, a sufficient (for float dates also necessary) condition and the log-linear case proved |
| C108 | bond and interest_rate_swap of MProducts, present values of MPricer at dates after the start | schedule split into made and remaining payments, induction on the remaining periods with the balances as suffix of the plan | proved |
| C109 | normal_cdf, normal_pdf of MOption against the antiderivative of the density (SNormal) | the Gaussian integral (differentiation under the integral sign), pi by Machin's series, enclosures of exp and the integral by alternating series in integers (LEnclose, LSeries), the error on 122 intervals by the mean value theorem and monotone tails | proved |
| C110 | option values of MOption against expectations (SNormal): limits of integrals of payoff times density | antiderivatives of payoff times density beyond the exercise point, limits of the distribution function, error bound of C109 | proved for calls and puts of the vanilla models and binary Bachelier calls; refuted for binary puts and binary Black calls |
| C111 | get_call_delta, get_call_gamma, get_call_vega of MOption against derivatives (stdlib derivable_pt_lim) of expected payoffs (SNormal) as functions of forward and volatility | closed forms by uniqueness of the expectation (LExpect), differentiated with auto_derive (LGreeks), error bounds of C109 | proved for Bachelier and the Black and displaced deltas; refuted for the Black and displaced vegas |
| C112 | get_call_value, get_put_value of MOption for pairs and triples of markets | payoffs compared pointwise, expectations are monotone and linear, expected payoffs grow with the standard deviation (mean value theorem), error bound of C110; the jump of the distribution function at zero for the exact claim | proved up to the tolerance; exact claim refuted |
| C113 | normal_cdf, normal_pdf of MOption over the double precision structure of MFloat | absolute error analysis of each operation (LRound7), error of the approximation from C109, signs by monotonicity of rounding | proved for arguments up to 37 in size, where exp(-x^2/2) is a normal double |
| C114 | get_call_value, get_put_value of MOption over the double precision structure of MFloat; the square of the volatility is two multiplications (Python: vol ** 2) | absolute error analysis of every operation (LRound8), flatness of the Bachelier value in the moneyness, Lipschitz bounds of the distribution function, C109, C113, change of expected payoffs with the market (LRound9) | proved within the stated ranges |
| C115 | get_call_delta, get_call_gamma, get_call_vega, get_call_theta of MOption, difference branches | mean value theorem for first and second differences of the closed forms of the expected payoffs (LBump), accuracy of the values (C110); for the refutation one-sided Lipschitz bounds of the approximate distribution function and its jump at zero | delta, gamma, vega (where the date as a number is the time), theta proved; the sign of gamma refuted: with the library's shift of 1e-4 and a forward of ten million or more, the option struck where the distribution function jumps has a gamma below -8e-4 while the true one is positive and below 1e-14 |
| C116 | get_call_delta, get_call_gamma, get_call_vega of MOption for the binary formulas | closed forms of the probabilities (C110), their derivatives, C55 | deltas proved (Bachelier and Black 76); gamma and vega refuted: the Bachelier gamma has the opposite sign of the true one, both vegas are positive in the money, where the true one is negative |
| C117 | get_curve_fit, get_present_value (MPricer), option lists (MCashflow), terminal volatilities (MRateCurve), option values (MOption) | C50 for the fit, C40 for the present value, C110/C112 for the expected payoff; Lipschitz continuity of the documented prices in the volatility (LLip) for termination | proved |
| C118 | ContingentRateCashFlowList, its payoff (MCashflow), option values (MOption), get_present_value (MPricer) | C40 with C58 for the sum; put call parity C51; C110 with linearity of expectations | proved |
| C119 | the same | the square root of the negative time to expiry raises | refuted (ValueError, for every such leg with a vanilla model and non-zero volatility) |
| C120 | ContingentCashFlowList (MCashflow), get_present_value (MPricer) | computation of the first steps of the call | refuted (AttributeError for every such list) |
| C121 | get_basis_point_value (MPricer), ContingentRateCashFlowList (MCashflow), option values (MOption), CashRateCurve (MRateCurve) | C48 for the difference, C118 before and after the shift, monotone and Lipschitz payments inside the expectation | proved |
| C122 | get_basis_point_value (MPricer), ContingentRateCashFlowList (MCashflow), option values (MOption), TerminalVolatilityCurve (MRateCurve) | C48 for the difference, C118 before and after the shift, expected payoffs grow with the volatility (closed forms of C112, Jensen from zero volatility) | proved |
| C123 | `ShortRateCurve(curve)`, `HazardRateCurve(curve)` (rc_cast) and their factors | left continuous steps are the flat rates between grid dates, telescoping sum by induction on the days | proved between grid dates; refuted from an origin before the grid |
| C124 | get_call_delta, get_call_vega, get_call_value of MOption over the double precision structure of MFloat | the error analysis of C113 and C114 for the arguments of the distribution function, Lipschitz bounds of distribution function and density; derivatives as in C111 and C116. The hypotheses on the platform are met by `good_libm` (LLibm): it looks the results up in an enumeration of all doubles | proved within the stated ranges |
| C125 | MNested: nested containers and valuation by recursion into the legs | induction over the nesting; the sum over the legs of the sums over their plain lists is the sum over all plain lists, as functions of the state | proved |
| C126 | interp_new, interp_call, default_new of MInterpolation | the stored points are sorted by x and then by y; the first entry of an x has its smallest value, bisection in a weakly increasing list | order proved except for the rate interpolations, where it is refuted for points at 0; first matching index refuted (it is the smallest value); linear proved between x, refuted at the ends |
| C127 | get_curve_fit, get_present_value, rc_new CZeroRate, fixed_new, ratelist_new, leg lists | C50 with the values of products as functions of the zero rates on the grid (SBootstrap, LBootstrap): each depends on its last zero rate by one exponential, so that bonds fall in it, and does not depend on later ones; Lipschitz constant for termination | all proved; termination for curves valued at an explicit origin before the grid, and for curves without origin valued before the grid (PBootstrapReturn); forward curves of zero rates (LFitForward, PBootstrapForward): the forward rate of a period is a function of the zero rates at its ends; single curves which discount and give forward rates (PBootstrapSingle): the value of a swap is a function of the zero rates up to its last payment |
| C128 | get_curve_fit, bracketing, set_spread | induction over the grid with the outcome of each search (no sign change, out of fuel, returned) and the state it leaves; floating lists (SBootstrap floats, LFitForward) as products which do not depend on the curve at their last payment | proved |
