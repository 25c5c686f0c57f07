{"id": "C01", "title": "Compounding conversions are mutually inverse", "statement": "For every rate r and year fraction t != 0: simple_rate(simple_compounding(r,t),t) == r (whenever 1+r*t != 0), continuous_rate(continuous_compounding(r,t),t) == r, and periodic_rate(periodic_compounding(r,t,m),t,m) == r (m > 0, 1+r/m > 0). Conversely every positive discount factor is recovered from its rate. annually/semi/quarterly/monthly/daily_compounding are the m=1,2,4,12,365 cases. Where the preconditions fail the calls raise ZeroDivisionError / ValueError and never return a wrong number.", "quantifier": "all real rates, year fractions, frequencies and discount factors", "why_tests_cant": "a test samples finitely many (rate, maturity) pairs; the claim is an identity over a continuum including negative rates and maturities", "anchors": ["dcf/compounding.py:simple_compounding", "dcf/compounding.py:simple_rate", "dcf/compounding.py:continuous_compounding", "dcf/compounding.py:continuous_rate", "dcf/compounding.py:periodic_compounding", "dcf/compounding.py:periodic_rate"]}
{"id": "C02", "title": "Compounding frequency ordering and bounds", "statement": "For r > 0 and t > 0 the discount factor is in (0,1) for every convention, decreases in r and in t, and more frequent compounding discounts more: continuous < daily < monthly < quarterly < semi < annual; for 0 < t <= 1 the simple factor is at most the annual one.", "quantifier": "all positive rates and maturities", "why_tests_cant": "an inequality between transcendental functions over a continuum", "anchors": ["dcf/compounding.py"]}
{"id": "C03", "title": "Default day count is additive", "statement": "day_count(a,b)+day_count(b,c) == day_count(a,c), day_count(a,a) == 0, day_count(a,b) == -day_count(b,a), and it is strictly increasing in the end date; it is (b-a)/365.25 for day based dates and b-a for floats.", "quantifier": "all triples of dates of either supported kind", "why_tests_cant": "universally quantified over dates", "anchors": ["dcf/daycount.py:day_count"]}
{"id": "C04", "title": "Redemption plans have the promised length and total", "statement": "same(n,N) is n copies of N; bullet, amortize and annuity have n entries summing to exactly N; consumer sums to N*(1+n*r); all for n >= 1 (annuity for r not in {0} and (1+r)^n != 1). annuity(n, N, 0) raises ZeroDivisionError.", "quantifier": "all numbers of payments, amounts and rates", "why_tests_cant": "sum of n terms for every n needs induction", "anchors": ["dcf/plans.py:same", "dcf/plans.py:bullet", "dcf/plans.py:amortize", "dcf/plans.py:annuity", "dcf/plans.py:consumer"]}
{"id": "C05", "title": "Annuity pays a constant instalment", "statement": "For plan = annuity(n,N,r) and out = outstanding(plan,N): plan[i] + r*out[i] is the same number N*r*q^n/(q^n-1) for every i, q = 1+r, and plan[i+1] = q*plan[i].", "quantifier": "all n, N, r with (1+r)^n != 1, all indices i < n", "why_tests_cant": "unbounded n; needs induction over the periods", "anchors": ["dcf/plans.py:annuity", "dcf/plans.py:outstanding"]}
{"id": "C06", "title": "Outstanding balance recursion", "statement": "outstanding(plan,N)[i] == N - sum(plan[:i]) (plus with sign=True), it has the same length as a non-empty plan, and for bullet, amortize and annuity the last balance equals the last redemption, so the loan is fully repaid.", "quantifier": "all non-empty plans of any length and all amounts", "why_tests_cant": "unbounded plan length", "anchors": ["dcf/plans.py:outstanding"]}
{"id": "C07", "title": "Interpolation objects reproduce their data points in any input order", "statement": "For pairwise distinct x_list and any y_list, for each of left, constant, right, nearest, linear, loglinear (positive y), loglinearrate, logconstantrate (positive y), zero and no: f(x_i) == y_i for every i; and permuting the input pairs gives an object with identical values everywhere.", "quantifier": "all finite lists of data points in all orders, all evaluation points", "why_tests_cant": "all lists of all lengths and permutations", "anchors": ["dcf/interpolation.py:base_interpolation._update", "dcf/interpolation.py:left", "dcf/interpolation.py:right", "dcf/interpolation.py:nearest", "dcf/interpolation.py:linear", "dcf/interpolation.py:loglinear", "dcf/interpolation.py:loglinearrate", "dcf/interpolation.py:logconstantrate"]}
{"id": "C08", "title": "Step interpolations obey their piecewise definitions for every x", "statement": "left/constant(x) is the y of the greatest data point <= x (first y when x lies before all points); right(x) is the y of the least data point >= x (last y after all points); nearest(x) is the y of a data point at minimal distance, the left one on ties; zero(x) is 0.0 and no(x) is None off the data points; empty left/right/nearest/linear raise OverflowError.", "quantifier": "all data sets, all real x", "why_tests_cant": "all x in a continuum, all list lengths", "anchors": ["dcf/interpolation.py:left", "dcf/interpolation.py:right", "dcf/interpolation.py:nearest", "dcf/interpolation.py:zero", "dcf/interpolation.py:no"]}
{"id": "C09", "title": "Linear interpolation lies on the chord", "statement": "Between adjacent data points linear(x) is the chord value, hence between the two neighbouring y; outside it continues the first/last chord; if all data lie on one line y=a*x+b the interpolation returns a*x+b for every real x; a single data point gives a constant.", "quantifier": "all data sets with distinct x, all real x", "why_tests_cant": "continuum of x, all lengths", "anchors": ["dcf/interpolation.py:linear"]}
{"id": "C10", "title": "Log interpolations are positive and exact on exponentials", "statement": "loglinear, loglinearrate and logconstantrate never return a non-positive number; loglinear is geometric between adjacent points; loglinearrate(x)=exp(-r(x)*x) with r linear between the continuous rates of adjacent points; data y=exp(-r*x) is reproduced for every x != 0; non-positive y raise ValueError.", "quantifier": "all positive data sets, all x", "why_tests_cant": "continuum of x, all lengths", "anchors": ["dcf/interpolation.py:loglinear", "dcf/interpolation.py:loglinearrate", "dcf/interpolation.py:logconstantrate"]}
{"id": "C11", "title": "Interpolation update is a finite map update", "statement": "After any sequence of _update calls (adding, overwriting and deleting points) the object holds exactly the finite map obtained by applying the same updates to a dictionary, stored in strictly increasing x order.", "quantifier": "all histories of updates of any length", "why_tests_cant": "history quantification", "anchors": ["dcf/interpolation.py:base_interpolation._update"]}
{"id": "C12", "title": "Interpolation schemes: extrapolation and bounds", "statement": "The default linear_scheme is constant before the first and after the last point and linear between, so its value always lies within [min(y), max(y)]; every scheme uses left, mid, right interpolation exactly for x < x_1, x_1 <= x <= x_n, x > x_n; duplicate x or unequal lengths raise AssertionError.", "quantifier": "all data sets, all real x", "why_tests_cant": "continuum of x, all lengths", "anchors": ["dcf/interpolation.py:interpolation_scheme", "dcf/interpolation.py:linear_scheme"]}
{"id": "C13", "title": "from_dict builds the same interpolation as the constructor", "statement": "cls.from_dict(d)(x) == cls(list(d), list(d.values()))(x) for every interpolation class and every dictionary d with float values (positive ones for log classes).", "quantifier": "all dictionaries, all x, all classes", "why_tests_cant": "all inputs", "anchors": ["dcf/interpolation.py:base_interpolation.from_dict"]}
{"id": "C14", "title": "Curve behaves as a map under item assignment", "statement": "After any sequence of assignments c[x_k] = y_k on a Curve (linear_scheme), c[x] is the last value assigned to x (or the initial one), c.domain is the strictly sorted set of all points and c[x] raises KeyError elsewhere.", "quantifier": "all initial data and all finite assignment histories", "why_tests_cant": "history quantification", "anchors": ["dcf/curves/curve.py:Curve.__setitem__", "dcf/curves/curve.py:Curve.__getitem__", "dcf/curves/curve.py:Curve._update"]}
{"id": "C15", "title": "Curve addition and subtraction are pointwise everywhere", "statement": "For Curves with the default interpolation, (a+b)(x) == a(x)+b(x) and (a-b)(x) == a(x)-b(x) for every real x, not only on the grid; (a*b) and (a/b) are exact on the union of both domains; division by a curve vanishing on the union grid raises ZeroDivisionError.", "quantifier": "all pairs of non-empty curves, all real x", "why_tests_cant": "continuum of x and all grids", "anchors": ["dcf/curves/curve.py:Curve.__add__", "dcf/curves/curve.py:Curve.__sub__", "dcf/curves/curve.py:Curve.__mul__", "dcf/curves/curve.py:Curve.__div__"]}
{"id": "C16", "title": "Curve.shifted moves the curve along the x axis", "statement": "c.shifted(delta)(x + delta) == c(x) for every x on the domain of c.", "quantifier": "all curves, all shifts, all domain points", "why_tests_cant": "all inputs", "anchors": ["dcf/curves/curve.py:Curve.shifted"]}
{"id": "C17", "title": "DateCurve evaluates by year fraction with fixings taking precedence", "statement": "A DateCurve returns the fixing for a fixed date, otherwise interpolates its data at the year fraction from origin; with default day count and linear_scheme its values at domain dates are the given data and elsewhere do not depend on which date is chosen as origin; item assignment keeps all other points.", "quantifier": "all date curves, all dates, any origin", "why_tests_cant": "all inputs", "anchors": ["dcf/curves/curve.py:DateCurve.__call__", "dcf/curves/curve.py:DateCurve.day_count", "dcf/curves/curve.py:DateCurve._update"]}
{"id": "C18", "title": "Copying a DateCurve preserves its values", "statement": "DateCurve(c)(d) == c(d) for every DateCurve c and every domain date d.", "quantifier": "all date curves and dates", "why_tests_cant": "all inputs", "anchors": ["dcf/curves/curve.py:DateCurve.__init__", "dcf/curves/curve.py:Curve.__init__"]}
{"id": "C19", "title": "DateCurve results do not depend on the order of the given points", "statement": "Building a DateCurve (or ForwardCurve) from the same points in another order yields the same values, the same origin and the same last date.", "quantifier": "all permutations of all data sets", "why_tests_cant": "all permutations", "anchors": ["dcf/curves/curve.py:DateCurve", "dcf/curves/curve.py:ForwardCurve.get_forward_price"]}
{"id": "C20", "title": "Discount factor of an empty period is one", "statement": "get_discount_factor(t,t) == 1 and get_survival_prob(t,t) == 1 for every date t.", "quantifier": "all curves, all dates", "why_tests_cant": "all dates incl. the origin when it is not a data point", "anchors": ["dcf/curves/curve.py:RateCurve._get_compounding_factor", "dcf/curves/interestratecurve.py:DiscountFactorCurve._get_compounding_factor"]}
{"id": "C21", "title": "Discount factors are multiplicative (no arbitrage)", "statement": "df(s,t)*df(t,u) == df(s,u) for all dates s,t,u on ZeroRateCurve and DiscountFactorCurve (and FlatIntensityCurve, SurvivalProbabilityCurve), with or without a spread, for every additive day count.", "quantifier": "all curves of these classes, all dates in any order, any additive day count", "why_tests_cant": "continuum of dates, all curves", "anchors": ["dcf/curves/interestratecurve.py:ZeroRateCurve._get_compounding_rate", "dcf/curves/interestratecurve.py:DiscountFactorCurve._get_compounding_factor"]}
{"id": "C22", "title": "Discount factor and zero rate agree", "statement": "get_discount_factor(s,t) == exp(-get_zero_rate(s,t)*day_count(s,t)) for every interest rate curve class and all s != t for which the rate exists, and df > 0.", "quantifier": "all classes, all dates", "why_tests_cant": "all inputs", "anchors": ["dcf/curves/curve.py:RateCurve._get_compounding_factor", "dcf/curves/curve.py:RateCurve._get_compounding_rate"]}
{"id": "C23", "title": "Short rate and hazard rate curves integrate day by day", "statement": "For s < t a whole number n of daily steps apart, df(s,t) on a ShortRateCurve (survival probability on a HazardRateCurve) is exp(-sum r(d_i)*tau(d_i,d_i+1D)) over the n days, the evaluation terminates, and df(s,t)*df(t,u) == df(s,u) for s <= t <= u.", "quantifier": "all short rate curves, all day-aligned dates, any number of days", "why_tests_cant": "unbounded number of steps: needs loop invariants", "anchors": ["dcf/curves/interestratecurve.py:ShortRateCurve._get_compounding_rate", "dcf/curves/creditcurve.py:HazardRateCurve._get_compounding_rate"]}
{"id": "C24", "title": "Cash rates are simple forward rates", "statement": "get_cash_rate(s,t) == (1/df(s,t)-1)/tau(s,t) for every curve class; on a CashRateCurve get_cash_rate(s) is the curve value and get_cash_rate(s,stop) for any other stop is the simple rate of the compounded discount factor.", "quantifier": "all curves, all periods", "why_tests_cant": "all inputs; non-termination is not observable by a finite test", "anchors": ["dcf/curves/interestratecurve.py:InterestRateCurve._get_cash_rate", "dcf/curves/interestratecurve.py:CashRateCurve._get_cash_rate"]}
{"id": "C25", "title": "Cash rate curves compound tenor by tenor", "statement": "On a CashRateCurve, for s < t a whole number of forward tenors apart, df(s,t) == prod 1/(1+f(t_i)*tau(t_i,t_i+1)), the loop terminates after that many steps and df is multiplicative along tenor dates.", "quantifier": "all cash rate curves with positive tenor step, all numbers of periods", "why_tests_cant": "unbounded number of steps", "anchors": ["dcf/curves/interestratecurve.py:CashRateCurve._get_compounding_rate"]}
{"id": "C26", "title": "Swap annuity is the discounted sum of year fractions", "statement": "get_swap_annuity([t_0..t_n]) == sum df(0,t_i)*tau(t_{i-1},t_i) as documented.", "quantifier": "all date lists, all curves", "why_tests_cant": "all list lengths", "anchors": ["dcf/curves/interestratecurve.py:InterestRateCurve.get_swap_annuity"]}
{"id": "C27", "title": "Casting between curve types preserves discount factors on the grid", "statement": "For every ZeroRateCurve z, DiscountFactorCurve(z) and the recast ZeroRateCurve have the same discount factors as z from origin to every domain date after the origin; same for FlatIntensity/Survival curves.", "quantifier": "all curves, all grid dates", "why_tests_cant": "all inputs", "anchors": ["dcf/curves/curve.py:RateCurve.__init__", "dcf/curves/interestratecurve.py:DiscountFactorCurve.__init__"]}
{"id": "C28", "title": "Casting preserves the day count convention and origin", "statement": "A cast curve uses the same day count function and the same origin as the curve it was cast from unless told otherwise.", "quantifier": "all curves incl. custom day count functions and origin 0", "why_tests_cant": "all inputs", "anchors": ["dcf/curves/curve.py:Curve.kwargs", "dcf/curves/curve.py:RateCurve.__init__"]}
{"id": "C29", "title": "Spread curves add and are guarded", "statement": "With a spread attached, curve(x) is base(x)+spread(x) for every x and after resetting to None the curve behaves exactly as before; attaching a second spread raises TypeError and changes nothing; over any sequence of spread assignments the state is the last accepted one.", "quantifier": "all curves, all assignment histories", "why_tests_cant": "history quantification", "anchors": ["dcf/curves/curve.py:RateCurve.spread", "dcf/curves/curve.py:RateCurve.__call__"]}
{"id": "C30", "title": "Survival probabilities are probabilities", "statement": "Survival probabilities stored by SurvivalProbabilityCurve/DefaultProbabilityCurve are clamped into (0,1); get_survival_prob(origin,t) is in (0,1) for every t when interpolated log-linearly; DefaultProbabilityCurve([..],[p]) gives survival 1-p at its data points; with non-negative hazard rates survival is non-increasing in t.", "quantifier": "all data, all dates", "why_tests_cant": "continuum of dates", "anchors": ["dcf/curves/creditcurve.py:ProbabilityCurve", "dcf/curves/creditcurve.py:SurvivalProbabilityCurve", "dcf/curves/creditcurve.py:DefaultProbabilityCurve", "dcf/curves/creditcurve.py:HazardRateCurve"]}
{"id": "C31", "title": "Marginal survival curves multiply tenor by tenor", "statement": "On a MarginalSurvivalProbabilityCurve the survival probability over n forward tenors is the product of the n marginal survival probabilities, and over a fraction of a tenor the corresponding power.", "quantifier": "all marginal curves, any number of tenors", "why_tests_cant": "unbounded loop", "anchors": ["dcf/curves/creditcurve.py:MarginalSurvivalProbabilityCurve._get_compounding_factor"]}
{"id": "C32", "title": "Flat intensity of an instant is defined", "statement": "get_flat_intensity(t,t) and get_hazard_rate(t) return a number for every curve class and every date t (as get_zero_rate(t,t) and get_short_rate(t) do), in particular evaluation terminates.", "quantifier": "all curves, all dates", "why_tests_cant": "attribute errors and infinite recursion depend on the data layout", "anchors": ["dcf/curves/creditcurve.py:FlatIntensityCurve._get_compounding_rate", "dcf/curves/interestratecurve.py:InterestRateCurve._get_short_rate"]}
{"id": "C33", "title": "Terminal volatility is additive in variance", "statement": "On a TerminalVolatilityCurve vol(s,t)^2*tau(s,t) + vol(o,s)^2*tau(o,s) == vol(o,t)^2*tau(o,t) whenever the forward variance is non-negative; otherwise without FLOOR ZeroDivisionError is raised and with FLOOR the floor is returned; vol(s,t) = 0 for s > t.", "quantifier": "all curves, all dates o < s < t", "why_tests_cant": "continuum", "anchors": ["dcf/curves/volatilitycurve.py:TerminalVolatilityCurve.get_terminal_vol"]}
{"id": "C34", "title": "Forward curves extrapolate with the yield curve", "statement": "Up to the last date a ForwardCurve interpolates; after it get_forward_price(T) == p(t_n)*exp(y*tau(t_n,T)) for a numeric yield y and p(t_n)/df(t_n,T) for a curve; prices are positive and continuous across the last date.", "quantifier": "all forward curves, all dates", "why_tests_cant": "continuum of dates", "anchors": ["dcf/curves/curve.py:ForwardCurve.get_forward_price"]}
{"id": "C35", "title": "Fx container triangulates consistently", "statement": "After any sequence of add calls of distinct currencies, spot(a,b)*spot(b,c) == spot(a,c), spot(a,b)*spot(b,a) == 1 for all contained currencies and spot(base,c) is the spot given for c; also after re-adding a currency with a new spot.", "quantifier": "all histories of add calls", "why_tests_cant": "history quantification", "anchors": ["dcf/curves/fx.py:FxContainer.add", "dcf/curves/fx.py:FxContainer.__getitem__"]}
{"id": "C36", "title": "Fx forwards respect reciprocity and covered interest parity", "statement": "forward(a,b,T)*forward(b,a,T) == 1 and forward(a,b,T) == spot*df_b(T)/df_a(T) where spot quotes units of a per unit of b, as documented for FxContainer.add.", "quantifier": "all containers, currency pairs and dates", "why_tests_cant": "all histories and dates", "anchors": ["dcf/curves/fx.py:FxForwardCurve.get_forward_price", "dcf/curves/fx.py:FxContainer.add"]}
{"id": "C37", "title": "Cash flow lists are maps from dates to amounts", "statement": "For distinct dates cf[d_i] is the i-th amount, cf[d] is 0 on every other date, cf[list] maps pointwise; unequal lengths raise ValueError; the domain is the given dates in the given order; FixedCashFlowList(cf) has the same flows.", "quantifier": "all date and amount lists, all dates", "why_tests_cant": "all lists", "anchors": ["dcf/cashflows/cashflow.py:CashFlowList", "dcf/cashflows/cashflow.py:FixedCashFlowList"]}
{"id": "C38", "title": "Rate cash flow lists tile the accrual period", "statement": "RateCashFlowList(dates, N, origin=o): consecutive periods share end points, start at o and end at the last date, so with an additive day count the year fractions add up to tau(o,t_n); each flow is (fixed+forward(start-fixing_offset))*tau(s,e)*N; ContingentRateCashFlowList uses the same periods for every origin.", "quantifier": "all schedules, offsets, rates, origins", "why_tests_cant": "unbounded schedule length", "anchors": ["dcf/cashflows/cashflow.py:RateCashFlowList.__init__", "dcf/cashflows/payoffs.py:RateCashFlowPayOff.details", "dcf/cashflows/contingent.py:ContingentRateCashFlowList.__init__"]}
{"id": "C39", "title": "Leg lists aggregate their legs", "statement": "For legs = [l_1..l_n], CashFlowLegList(legs)[d] == sum l_i[d] for every date d, its domain is the sorted set of all leg dates, calling it converts to a fixed cash flow list with the same flows.", "quantifier": "all numbers of legs and dates", "why_tests_cant": "all lists", "anchors": ["dcf/cashflows/cashflow.py:CashFlowLegList"]}
{"id": "C40", "title": "Present value is the sum of discounted future flows", "statement": "get_present_value(cf, curve, v) == sum over payment dates d >= v (including v) of df(v,d)*cf[d]; for leg lists it is the sum over legs and equals the value of the aggregated flows; for a CashFlowList it is the sum over the given (date, amount) pairs.", "quantifier": "all cash flow lists, curves, valuation dates", "why_tests_cant": "unbounded lists", "anchors": ["dcf/pricer.py:get_present_value"]}
{"id": "C41", "title": "Present value is linear and time consistent", "statement": "PV of scaled / added amounts is the scaled / added PV; for a curve with multiplicative discount factors and v <= w with no flow in [v,w), PV(v) == df(v,w)*PV(w); with non-negative flows the PV is non-negative.", "quantifier": "all flows, curves, dates", "why_tests_cant": "unbounded lists", "anchors": ["dcf/pricer.py:get_present_value"]}
{"id": "C42", "title": "Pricing leaves its arguments unchanged", "statement": "get_present_value restores the model valuation date, get_fair_rate the fixed rate, get_basis_point_value, get_bucketed_delta and get_curve_fit the spread of every curve: after the call (also when it raises) all arguments are as before.", "quantifier": "all arguments, all crash points inside the computation", "why_tests_cant": "every possible exception point", "anchors": ["dcf/pricer.py:get_present_value", "dcf/pricer.py:get_fair_rate", "dcf/pricer.py:get_basis_point_value", "dcf/pricer.py:get_bucketed_delta", "dcf/pricer.py:get_curve_fit"]}
{"id": "C43", "title": "Bracketing returns a bracket of a root", "statement": "If the root search of the pricers returns (a,m,b) for a function f then |b-a| < precision, |f(b)-f(a)| < precision, f(a) and f(b) do not have the same strict sign, m is their midpoint and [a,b] lies in the start bounds; if f is continuous a root lies within precision of m; if 0 is not between the end values AssertionError is raised.", "quantifier": "all functions, bounds, precisions", "why_tests_cant": "all functions", "anchors": ["dcf/pricer.py:_simple_bracketing"]}
{"id": "C44", "title": "Bracketing terminates", "statement": "For a continuous function with a sign change on the bounds and any positive precision the search terminates; for Lipschitz functions after at most log2 many steps.", "quantifier": "all continuous functions, all bounds, all precisions > 0", "why_tests_cant": "termination for all inputs", "anchors": ["dcf/pricer.py:_simple_bracketing"]}
{"id": "C45", "title": "Yield to maturity reprices", "statement": "If get_yield_to_maturity returns y for positive future flows then discounting with exp(-y*tau) reproduces the given present value up to precision and y is within precision of the unique yield; it returns whenever the target lies between the values at the bounds.", "quantifier": "all non-negative cash flow lists, targets, bounds, precisions", "why_tests_cant": "continuum of inputs", "anchors": ["dcf/pricer.py:get_yield_to_maturity"]}
{"id": "C46", "title": "Fair rate makes the leg worth its target", "statement": "If get_fair_rate returns c then setting fixed_rate = c gives a present value within precision of the target, c is within precision of the unique par rate, and the fixed rate of the list is restored.", "quantifier": "all rate cash flow lists, curves, targets", "why_tests_cant": "continuum of inputs", "anchors": ["dcf/pricer.py:get_fair_rate", "dcf/cashflows/cashflow.py:RateCashFlowList.fixed_rate"]}
{"id": "C47", "title": "Accrued interest is the pro rata coupon", "statement": "For a RateCashFlowList without pay offset and additive day count, get_interest_accrued at v is flow*tau(s,v)/tau(s,e) of the unique period with s < v <= e and 0 if there is none; it lies between 0 and the coupon; non-rate flows do not accrue; legs add up.", "quantifier": "all schedules, all valuation dates", "why_tests_cant": "all list lengths and dates", "anchors": ["dcf/pricer.py:get_interest_accrued"]}
{"id": "C48", "title": "Basis point value is the scaled parallel shift difference", "statement": "get_basis_point_value == (PV(curves + shift) - PV)/shift*0.0001 where the shifted curves return base value plus shift at every date; several delta curves are shifted together; afterwards no curve has a spread.", "quantifier": "all products, curves, shifts", "why_tests_cant": "all inputs", "anchors": ["dcf/pricer.py:get_basis_point_value"]}
{"id": "C49", "title": "Bucketed delta spreads add up to the parallel shift", "statement": "For every strictly increasing delta grid the bucket spread curves used by get_bucketed_delta sum to the constant shift at every date, one bucket per grid date; the result has one entry per grid date; no spread is left behind.", "quantifier": "all grids of any length, all dates", "why_tests_cant": "unbounded grid and continuum of dates", "anchors": ["dcf/pricer.py:get_bucketed_delta"]}
{"id": "C50", "title": "Curve fit reprices its products", "statement": "If get_curve_fit returns data for products with one maturity per grid date then a curve with these data reprices every product within the precision.", "quantifier": "all sets of products and grids", "why_tests_cant": "all inputs", "anchors": ["dcf/pricer.py:get_curve_fit"]}
{"id": "C51", "title": "Put call parity", "statement": "get_call_value(d,K) - get_put_value(d,K) == forward - K for every option model, date, strike, including expiry and zero volatility.", "quantifier": "all models, strikes, forwards, volatilities, dates", "why_tests_cant": "continuum", "anchors": ["dcf/models/optionpricing.py:OptionPayOffModel.get_call_value", "dcf/models/optionpricing.py:OptionPayOffModel.get_put_value"]}
{"id": "C52", "title": "Normal distribution approximation is a distribution function", "statement": "normal_cdf(x) lies strictly between 0 and 1, is non-decreasing, and normal_cdf(x)+normal_cdf(-x) == 1; normal_pdf is positive, even and maximal at 0.", "quantifier": "all real x", "why_tests_cant": "continuum", "anchors": ["dcf/models/distibutions.py:normal_cdf", "dcf/models/distibutions.py:normal_pdf"]}
{"id": "C53", "title": "Option values are non-negative and at least intrinsic", "statement": "Call and put values of every non-binary model are >= 0 and >= the intrinsic value.", "quantifier": "all strikes, forwards, vols, times", "why_tests_cant": "continuum incl. far tails", "anchors": ["dcf/models/bachelier.py", "dcf/models/black76.py", "dcf/models/intrinsic.py"]}
{"id": "C54", "title": "Greeks are consistent and invariant under moving the time axis", "statement": "put delta == call delta - DELTA_SCALE, put gamma/vega equal call gamma/vega, greeks at zero volatility are the intrinsic ones; all greeks depend on the dates only through the time to expiry.", "quantifier": "all models, dates, strikes", "why_tests_cant": "continuum", "anchors": ["dcf/models/optionpricing.py:OptionPayOffModel"]}
{"id": "C55", "title": "Analytic greeks match the documented formulas", "statement": "Bachelier delta/gamma/vega and Black76 delta/vega and the binary greeks equal the formulas in their documentation.", "quantifier": "all parameters", "why_tests_cant": "continuum", "anchors": ["dcf/models/bachelier.py", "dcf/models/black76.py"]}
{"id": "C56", "title": "Displaced model is Black on shifted strike and forward", "statement": "DisplacedLogNormal prices and greeks with displacement a equal LogNormal ones at strike+a and forward+a; displacement 0 is LogNormal; same for the binary variant.", "quantifier": "all parameters", "why_tests_cant": "continuum", "anchors": ["dcf/models/displaced.py"]}
{"id": "C57", "title": "Binary call spread approximation", "statement": "BinaryOptionPayOffModel values equal (C(K-h/2)-C(K+h/2))/h, lie in [0,1] if the inner call price is non-increasing and 1-Lipschitz in strike, and call plus put binary values equal 1.", "quantifier": "all inner formulas and parameters", "why_tests_cant": "all functions", "anchors": ["dcf/models/optionpricing.py:BinaryOptionPayOffModel"]}
{"id": "C58", "title": "Caps and floors collar the floating rate", "statement": "With intrinsic valuation a ContingentRateCashFlowPayOff pays (max(K, min(f, L)) + c)*tau*N for floor K <= cap L, f + max(K-f,0) with only a floor, min(f, L) with only a cap.", "quantifier": "all rates and strikes", "why_tests_cant": "continuum", "anchors": ["dcf/cashflows/payoffs.py:ContingentRateCashFlowPayOff.details"]}
{"id": "C59", "title": "Option strategies are sums of their options", "statement": "The payoff of an OptionStrategyCashFlowPayOff is sum N_i*call(K_i) + sum M_j*put(L_j), independent of the order of strikes; scalar amounts apply to each strike.", "quantifier": "all numbers and orders of strikes", "why_tests_cant": "unbounded lists", "anchors": ["dcf/cashflows/payoffs.py:OptionStrategyCashFlowPayOff"]}
{"id": "C60", "title": "Rating vectors are probability vectors", "statement": "For a master scale of at least two distinct levels and a value within the scale, the rating vector has one weight per class, all in [0,1], at most two adjacent non-zero, summing to exactly 1, and mixes the class values back to the value up to 1e-7 of the gap; outside the scale ValueError is raised (unless SLOPPY).", "quantifier": "all master scales and values", "why_tests_cant": "all scales and values", "anchors": ["dcf/ratingclass.py:RatingClass.__iter__"]}
{"id": "C61", "title": "Master scales are geometric", "statement": "master_scale.fromkeys gives n values, strictly increasing from 10^-(n-1) to 1 with constant ratio 10; it raises ZeroDivisionError for a single class.", "quantifier": "all numbers of classes", "why_tests_cant": "unbounded n", "anchors": ["dcf/ratingclass.py:RatingClass.master_scale.fromkeys"]}
{"id": "C62", "title": "Bonds pay interest on the outstanding notional", "statement": "For a list of redemptions, bond() pays -sum at start, each redemption at its date (total zero) and interest on the outstanding balance (the outstanding() plan); for a single notional it pays -N, +N and interest on N.", "quantifier": "all redemption lists and schedules", "why_tests_cant": "unbounded lists", "anchors": ["dcf/cashflows/products.py:bond"]}
{"id": "C63", "title": "Payment schedules are generated", "statement": "bond, interest_rate_swap and asset_swap return for every start < end and positive period, in particular with their default arguments; the schedule ends at end_date and steps back by period.", "quantifier": "all start, end, period", "why_tests_cant": "non-termination", "anchors": ["dcf/cashflows/products.py:_interest_payment_dates", "dcf/cashflows/products.py:asset_swap"]}
{"id": "C64", "title": "Rate tables are samples of the curve", "statement": "Every row i of rate_table(curve,x_grid,y_grid) is x_i followed by curve(x_i+y_j) for exactly those y_j with x_i+y_j before the next grid point; the default y_grid is sorted, starts at 0 and the computation terminates for increasing grids.", "quantifier": "all curves and grids", "why_tests_cant": "unbounded grids, loop termination", "anchors": ["dcf/curves/curve.py:rate_table"]}
{"id": "C65", "title": "Sampling a DateCurve on another grid keeps values, origin and day count", "statement": "DateCurve(dates, c) has exactly the given dates as domain, the values of c there, and the origin and day count of c unless others are given.", "quantifier": "all date curves with default interpolation, all target grids, any origin and day count", "why_tests_cant": "all grids, all day counts", "anchors": ["dcf/curves/curve.py:DateCurve.__init__", "dcf/curves/curve.py:Curve.kwargs"]}
{"id": "C66", "title": "DateCurve.shifted moves the curve in time", "statement": "c.shifted(delta)(d + delta) == c(d) for every domain date d of a DateCurve c.", "quantifier": "all date curves, all shifts", "why_tests_cant": "all inputs", "anchors": ["dcf/curves/curve.py:Curve.shifted", "dcf/curves/curve.py:DateCurve"]}
{"id": "C67", "title": "Arithmetic of DateCurves is pointwise and keeps origin and day count", "statement": "For date curves with the same origin, (a+b)(d) == a(d)+b(d), (a-b)(d) == a(d)-b(d), (a*b)(d) == a(d)*b(d), (a/b)(d) == a(d)/b(d) on the union of both domains, sums and differences everywhere, and the result has the origin and day count of a. For curves with different origins the values of b are taken at the dates of b moved by the difference of the origins.", "quantifier": "all pairs of date curves, all dates", "why_tests_cant": "all grids and all dates", "anchors": ["dcf/curves/curve.py:DateCurve.__add__", "dcf/curves/curve.py:DateCurve.__sub__", "dcf/curves/curve.py:DateCurve.__mul__", "dcf/curves/curve.py:DateCurve.__div__"]}
{"id": "C68", "title": "DateCurve.integrate is a mean value and derivative a slope", "statement": "Without scipy, integrate(start, stop) terminates for start < stop and returns the average of the daily curve values weighted by year fraction, hence lies between any bounds of the curve on [start, stop); derivative(d) is the slope of linearly interpolated data when d and d + 1 day lie on the same segment.", "quantifier": "all curves, all periods, all additive day counts, every number of days", "why_tests_cant": "unbounded number of steps", "anchors": ["dcf/curves/curve.py:DateCurve.integrate", "dcf/curves/curve.py:DateCurve.derivative"]}
{"id": "C69", "title": "Market data seen by an option model", "statement": "An option model values an option with the strike it is given, and at the money when no strike is given; forward, volatility and time to expiry are the values of the model's forward curve, volatility curve and day count (own day count, else the one of the volatility curve, else of the forward curve, else the default).", "quantifier": "all models, forward sources, volatility sources, dates and strikes", "why_tests_cant": "every combination of curve kinds, numbers and missing arguments", "anchors": ["dcf/models/optionpricing.py:OptionPayOffModel.details", "dcf/models/optionpricing.py:OptionPayOffModel.__init__"]}
{"id": "C70", "title": "Casting a DateCurve to a Curve keeps all values", "statement": "to_curve() of a DateCurve is a Curve whose domain consists of the year fractions from origin in increasing order and whose value at the year fraction of any date is the value of the DateCurve at that date.", "quantifier": "all data sets with distinct dates in any order, all interpolations, origins, day counts, and all dates, inside and outside the domain", "why_tests_cant": "the two curves must agree at every date", "anchors": ["dcf/curves/curve.py:DateCurve.to_curve", "dcf/curves/curve.py:Curve.__init__"]}
{"id": "C71", "title": "Default forward tenors", "statement": "If no forward tenor is given, get_cash_rate(start) refers to the three months from start, and a marginal survival probability curve gives the probability to survive the year from start.", "quantifier": "all interest rate curves and marginal probability curves, all dates, all values", "why_tests_cant": "every class, date and curve", "anchors": ["dcf/curves/curve.py:RateCurve.forward_tenor", "dcf/curves/creditcurve.py:CreditCurve"]}
{"id": "C72", "title": "Survival over an empty period", "statement": "get_survival_prob(d, d) is 1 if the curve value at d is at least twice the smallest normal float, and 0 otherwise (the name has defaulted for sure). With marginal probabilities, once the value of a tenor is below that bound, the probability to survive until any date in that tenor or later is 0.", "quantifier": "all survival, default and marginal probability curves, all dates other than the origin, all values", "why_tests_cant": "a boundary between two real values", "anchors": ["dcf/curves/creditcurve.py:SurvivalProbabilityCurve._get_compounding_factor", "dcf/curves/creditcurve.py:MarginalSurvivalProbabilityCurve._get_compounding_factor"]}
{"id": "C73", "title": "Linear short rates average to the zero rate", "statement": "The linear short rate between two dates is a straight line in year fractions that starts at the short rate of the first date and whose mean is the zero rate of the period.", "quantifier": "all interest rate curves, pairs of distinct dates and dates in between or outside", "why_tests_cant": "every curve and date", "anchors": ["dcf/curves/interestratecurve.py:InterestRateCurve._get_linear_short_rate"]}
{"id": "C74", "title": "Item assignment on rate curves", "statement": "After curve[d] = y the curve has the value y at d and unchanged values at the other dates of its domain; for probability curves y is treated like the data given to the constructor.", "quantifier": "all rate curve classes, data sets, dates, values, with and without spread", "why_tests_cant": "every class and history, with and without spread", "anchors": ["dcf/curves/curve.py:Curve.__setitem__", "dcf/curves/curve.py:RateCurve.__call__", "dcf/curves/creditcurve.py:ProbabilityCurve.__init__"]}
{"id": "C75", "title": "Names and values of ratings", "statement": "A rating given by the key of a class has the value of the class and an unknown key is refused with TypeError; the name of a rating between two classes lists exactly the classes with non-zero weight, with their weights.", "quantifier": "all master scales, keys and values", "why_tests_cant": "every scale and value", "anchors": ["dcf/ratingclass.py:RatingClass.__init__", "dcf/ratingclass.py:RatingClass.__str__"]}
{"id": "C76", "title": "Swaps exchange their legs", "statement": "The flow of interest_rate_swap at any date is the interest of the receive leg minus the interest of the pay leg, each on the notional; a swap of a leg against itself pays nothing.", "quantifier": "all schedules, notionals, rates, forwards and dates", "why_tests_cant": "unbounded schedules", "anchors": ["dcf/cashflows/products.py:interest_rate_swap", "dcf/cashflows/cashflow.py:CashFlowLegList"]}
{"id": "C77", "title": "Details of a payoff explain its amount", "statement": "For every cash flow payoff, details(x) succeeds exactly when payoff(x) does, fails with the same exception, and its entry 'cashflow' is payoff(x); the entries of a rate payoff satisfy cashflow = (fixed rate + forward rate) * year fraction * notional with the forward rate read at the fixing date, those of an option satisfy cashflow = notional * value for the shown strike, expiry and put/call flag, those of a strategy are the numbered entries of its options with cashflow their sum, and those of a capped or floored coupon satisfy cashflow = coupon + floorlet - caplet.", "quantifier": "all payoffs, forward curves and payoff models", "why_tests_cant": "every combination of payoff, curve and model, unbounded strategies", "anchors": ["dcf/cashflows/payoffs.py:RateCashFlowPayOff.details", "dcf/cashflows/payoffs.py:OptionCashFlowPayOff.details", "dcf/cashflows/payoffs.py:OptionStrategyCashFlowPayOff.details", "dcf/cashflows/payoffs.py:ContingentRateCashFlowPayOff.details"]}
{"id": "C78", "title": "Tables of cash flow lists show the flows", "statement": "The table of a cash flow list has one row per date of the domain in its order, a header of distinct columns of the class, and each cell shows the entry of the details of the payoff at that date named by the header; the column cashflow at d is the flow of the list at d.", "quantifier": "all cash flow lists of all classes", "why_tests_cant": "unbounded lists with mixed payoffs", "anchors": ["dcf/cashflows/cashflow.py:CashFlowList.table", "dcf/cashflows/cashflow.py:CashFlowLegList", "dcf/cashflows/contingent.py"]}
{"id": "C79", "title": "A curve can be rebuilt from its constructor arguments", "statement": "type(c)(**c.kwargs) is a curve of the same class with the same domain, origin, year fractions, tenor and value at every point as c, whatever interpolation, day count, yield curve, fixings and history of assignments c has.", "quantifier": "all curves of all classes, all interpolations, day counts and histories", "why_tests_cant": "every interpolation class and scheme, every history of assignments, every curve class", "anchors": ["dcf/curves/curve.py:Curve.kwargs", "dcf/curves/curve.py:Curve._update", "dcf/interpolation.py:_dyn_scheme", "dcf/curves/creditcurve.py:DefaultProbabilityCurve"]}
{"id": "C80", "title": "Cash flow lists can be scaled and shifted by numbers", "statement": "For a cash flow list l and a number x, l + x, l - x, l * x and l / x (x != 0) is a list with the same dates and origin whose flow at every date d is l[d] + x, l[d] - x, l[d] * x, l[d] / x; l itself is unchanged. The same for leg lists.", "quantifier": "all cash flow lists and leg lists, all numbers and all four operators", "why_tests_cant": "every list, payoff kind and number", "anchors": ["dcf/cashflows/cashflow.py:CashFlowList.__add__", "dcf/cashflows/cashflow.py:CashFlowList.__mul__", "dcf/cashflows/cashflow.py:CashFlowLegList.__mul__"]}
{"id": "C81", "title": "Adding zero rate curves multiplies discount factors", "statement": "For two zero rate curves with the same origin, a + b is a zero rate curve over the union of the grids with the same origin, its zero rate is the sum of the zero rates and hence its discount factor the product of the discount factors at every date; a - b, a * b and a / b act pointwise on the rates.", "quantifier": "all pairs of zero rate curves with the same origin, all dates, all four operators", "why_tests_cant": "identity between interpolated functions over a continuum and unbounded grids", "anchors": ["dcf/curves/curve.py:RateCurve.__add__", "dcf/curves/curve.py:RateCurve.__truediv__", "dcf/curves/curve.py:DateCurve.__add__"]}
{"id": "C82", "title": "The plotting grid refines the domain of the curve", "statement": "make_grid(curve, nums=n) returns an increasing list of distinct dates from the first to the last date of the curve which contains every date of the domain and divides each interval into n equal parts; make_grid(curve, step=s) returns the dates of the domain and all dates in between at distance s; neither returns a date after the last date, and both terminate.", "quantifier": "all increasing domains, all steps and numbers of parts", "why_tests_cant": "unbounded domains and any real step; termination of a while loop", "anchors": ["dcf/curves/plot.py:make_grid"]}
{"id": "C83", "title": "The default table of a curve shows its value at every date", "statement": "rate_table (plot) without y grid has the multiples of the smallest distance of two neighbouring dates as header, enough to reach the end of the widest interval, one row per date, and each row starts with the date and the value of the curve at the date. With fewer than two dates it raises a ValueError.", "quantifier": "all curves and all increasing grids", "why_tests_cant": "unbounded grids with arbitrary distances", "anchors": ["dcf/curves/plot.py:rate_table"]}
{"id": "C84", "title": "A floating leg is worth the difference of two discount factors", "statement": "A leg of coupons which pay the forward rates of an interest rate curve for consecutive periods of the curve's tenor, on a constant notional n and discounted with the same curve, has the present value n times (discount factor of the start minus discount factor of the end); with margin c each coupon adds n*c*year fraction*discount factor. Together with the repayment of n at the end it is worth n discounted from the start, so n at the start.", "quantifier": "all dates systems, all numbers of coupons, notionals, margins, valuation dates not after the first payment, all zero rate, discount factor and cash rate curves (whatever their grids and interpolations)", "why_tests_cant": "unbounded numbers of periods, arbitrary curves; the identity is an exact telescoping sum", "anchors": ["dcf/pricer.py:get_present_value", "dcf/cashflows/cashflow.py:RateCashFlowList", "dcf/cashflows/payoffs.py:RateCashFlowPayOff", "dcf/curves/interestratecurve.py"]}
{"id": "C85", "title": "The fair rate of a swap is the par rate formula", "statement": "get_fair_rate of a fixed leg with the present value of a floating leg as target value returns, up to half the precision, (df(start) - df(end)) / sum of year fraction times discount factor, and leaves all objects as they were.", "quantifier": "all fixed and floating legs with a common notional, all schedules, day counts and zero rate curves, all brackets and precisions for which the search returns", "why_tests_cant": "unbounded numbers of coupons and search steps", "anchors": ["dcf/pricer.py:get_fair_rate", "dcf/pricer.py:get_present_value"]}
{"id": "C86", "title": "The yield at par gives the coupon rate, the yield at a flat curve gives its rate", "statement": "get_yield_to_maturity of a fixed rate bond with its nominal as present value gives the coupon rate, and with the present value by a flat zero rate curve as present value it gives the zero rate.", "quantifier": "all redemption plans with non-negative redemptions, all numbers of equal periods, all non-negative coupon rates, all brackets and precisions", "why_tests_cant": "unbounded numbers of periods and search steps; the documented example rounds to six digits, which hides the difference between a coupon rate c and ln(1+c)", "anchors": ["dcf/pricer.py:get_yield_to_maturity", "dcf/pricer.py:_simple_bracketing", "dcf/plans.py:outstanding"]}
{"id": "C87", "title": "A curve cast to another class quotes the rates of the curve cast", "statement": "Casting a curve to another class of its family (ShortRateCurve(zero_curve), HazardRateCurve(intensity_curve), CashRateCurve(...), the marginal survival and default probability curves, terminal and instantaneous volatility curves) gives a curve with the same origin, day count and forward tenor, which quotes at each grid date of the source curve the rate which the source curve gives there. This holds for rates, origin and day count; it is false for the forward tenor, which is taken over for cash rate curves only, and a forward tenor given to CashRateCurve only relabels rates over the old tenor.", "quantifier": "all source curves (any dates, values, interpolation, spread-free), all date systems, all target classes", "why_tests_cant": "any number of grid dates, arbitrary rates, origin inside or outside the grid; loops which step back from each grid date to the origin", "anchors": ["dcf/curves/curve.py:RateCurve", "dcf/curves/curve.py:RateCurve.cast", "dcf/curves/interestratecurve.py:CashRateCurve", "dcf/curves/interestratecurve.py:ShortRateCurve", "dcf/curves/creditcurve.py", "dcf/curves/volatilitycurve.py"]}
{"id": "C88", "title": "A cash rate curve made of another curve has its discount factors", "statement": "CashRateCurve(curve) has the discount factors of the curve cast at all dates which are a number of forward tenors after the origin, up to the end of the grid. This holds if origin and end are grid dates; without a rate at the origin the first period is discounted with the rate of the second one.", "quantifier": "all source curves whose discount factors multiply (all zero rate curves), all schedules of any length, all tenors", "why_tests_cant": "unbounded numbers of periods, arbitrary rates", "anchors": ["dcf/curves/interestratecurve.py:CashRateCurve", "dcf/curves/curve.py:RateCurve"]}
{"id": "C89", "title": "The root search works in double precision", "statement": "In double precision, what the root search behind get_fair_rate and get_yield_to_maturity returns lies in the given bounds and encloses, or is, a zero of the price error to the required precision, and it is found whenever it exists. The first part holds for every price function; the second is false: once the bounds are neighbouring floats whose values differ by more than the precision the search never returns, e.g. get_fair_rate of a one year coupon with notional 10^11 although the rate 0.015 reprices it exactly.", "quantifier": "all functions of floats, all bounds and precisions, all platform maths libraries, all recursion depths", "why_tests_cant": "rounding depends on every bit of the inputs; a search that does not return cannot be observed by running it", "anchors": ["dcf/pricer.py:_simple_bracketing", "dcf/pricer.py:get_fair_rate"]}
{"id": "C90", "title": "A curve gives its own values in double precision", "statement": "A curve called at one of its dates returns exactly the value given for that date, and an item assigned is the item read back. This holds in double precision, for any number type, for the stepwise interpolations (no, zero, default, left, constant, right, nearest); it is false for the default linear interpolation: Curve([0, 1], [0.001, 0.01])(1) is 0.010000000000000002.", "quantifier": "all lists of dates in any order and any values, all number types with whatever rounding", "why_tests_cant": "any list lengths, orders and values; equality of floats bit for bit", "anchors": ["dcf/interpolation.py", "dcf/curves/curve.py:Curve"]}
{"id": "C91", "title": "Grids and tenors in double precision", "statement": "Dates made by adding a float period step by step meet the dates they step to: the grid of a plot ends with the curve, a cash rate curve quotes its rate over each of its tenors, and casting on a grid of tenors adds no other dates. This is false in double precision for each of the three: the default grid of [0, 1] contains 1.0999999999999999, get_cash_rate(4/12, 5/12) with tenor 1/12 never returns for any rates, and the cast with tenor 0.1 of a curve on [0, 0.4] stores a rate at about 2.8e-17.", "quantifier": "all recursion depths, all rates, all platform maths libraries", "why_tests_cant": "a call that does not return cannot be observed by running it", "anchors": ["dcf/curves/plot.py:make_grid", "dcf/curves/interestratecurve.py:CashRateCurve"]}
{"id": "C92", "title": "Bucketed deltas add up to the basis point value", "statement": "The entries of get_bucketed_delta sum up to get_basis_point_value with the same shift (as the documentation says). True for fixed payments discounted by a zero rate curve valued at its origin if all payment dates are dates of the delta grid; false in general: for a payment between two grid dates the sum is smaller. For payments which are not negative and a positive shift the sum never exceeds the basis point value and falls short of it by at most shift * 0.0001 * sum of (discounted payment * (years to payment)^2). For floating legs whose curve of cash rates is shifted, the basis point value is a ten thousandth of the discounted notionals times year fractions, and the entries sum up to it for every grid; for leg lists the entries are the sums of those of the legs.", "quantifier": "all lists of dates and amounts of any length, all zero rate curves with any interpolation, all floating legs and leg lists, all grids, all positive shifts", "why_tests_cant": "any number of payments and grid dates, arbitrary rates; an inequality over a continuum", "anchors": ["dcf/pricer.py:get_bucketed_delta", "dcf/pricer.py:get_basis_point_value"]}
{"id": "C93", "title": "Bonds and swaps at issue", "statement": "A bond built by bond(...), valued at or before its start (so including the notional paid at the start), is worth the sum over its periods of balance * (df(end) * (1 + rate * year fraction) - df(start)), the balance being the notional or what the list of redemptions has still to pay back. So a floating rate bond is worth its margin only, and nothing without margin, whatever the redemptions; a fixed rate bond is worth nothing on a cash rate curve flat at its coupon; coupons above (below) the rates of the discount curve make it worth more (less) than par. A swap built by interest_rate_swap is worth notional * (df(start) - df(end) + margin * level - rate * level').", "quantifier": "all schedules of any length, all redemption plans, all curve classes and rates, any date type and day count", "why_tests_cant": "any number of periods and any plan; the value is a sum of products of rates", "anchors": ["dcf/cashflows/products.py:bond", "dcf/cashflows/products.py:interest_rate_swap", "dcf/pricer.py:get_present_value"]}
{"id": "C94", "title": "Yields and prices", "statement": "For flows that are never negative and pay something after the valuation date, the yield found for a higher price is not above the one found for a lower price by more than half the sum of the two search precisions; the yield does not depend on the bounds of the search, its precision (up to half the sum of both) or the recursion depth; the yields of two prices differ by at least ln(ratio of prices)/last payment time and at most ln(ratio)/first payment time (duration bounds), up to the precision; a single payment x at time t priced at p yields ln(x/p)/t; larger payments at the same price yield no less; scaling flows and price by the same factor leaves the yield unchanged.", "quantifier": "all products with flows not negative, all prices, search bounds, precisions, date types and day counts", "why_tests_cant": "the root search runs any number of steps over any number of flows", "anchors": ["dcf/pricer.py:get_yield_to_maturity", "dcf/pricer.py:get_present_value"]}
{"id": "C95", "title": "Basis point values: sign, duration, convexity, legs", "statement": "For a list of fixed payments that are never negative, valued on a zero rate curve: the basis point value is never positive; it lies between minus the sum of time-weighted present values (over 10000) and that plus shift/10000 times the sum of squared-time-weighted present values; it lies between - last * pv / 10000 and - first * pv' / 10000 where pv' is the shifted value; a larger shift gives a basis point value that is not smaller (convexity). The basis point value of a product of several legs is the sum of those of its legs, with any delta curves.", "quantifier": "all lists of payments, zero rate curves, shifts, date types and day counts; all lists of legs", "why_tests_cant": "any number of payments and any curve", "anchors": ["dcf/pricer.py:get_basis_point_value", "dcf/pricer.py:get_present_value"]}
{"id": "C96", "title": "Volatilities over periods", "statement": "The variance over a period (squared volatility times time) is the sum of the variances over its parts. Curves of terminal volatilities do so for all dates after the origin with total variance that does not fall. Curves of instantaneous volatilities do not: they return the average of the daily volatilities, which never exceeds the volatility of the accumulated variance, equals it only if all days have the same volatility, and adds up linearly over periods that meet at one of the days.", "quantifier": "all curves, all periods of any number of days, all date types and day counts", "why_tests_cant": "any number of days; equality holds only for constant volatilities", "anchors": ["dcf/curves/volatilitycurve.py:InstantaneousVolatilityCurve.get_terminal_vol", "dcf/curves/volatilitycurve.py:TerminalVolatilityCurve.get_terminal_vol", "dcf/curves/curve.py:DateCurve.integrate"]}
{"id": "C97", "title": "Rounding of present values", "statement": "In double precision a present value is the sum of the products of the discount factors and amounts at the due dates up to rounding: with n due dates the result, if it does not overflow, misses the exact sum of products of the doubles used by at most ((1+2^-53)^n - 1) times the sum of their absolute values (plus n numbers of the size of the smallest double). Sums of n doubles miss the exact sum by at most ((1+2^-53)^(n-1) - 1) times the sum of absolute values; for n below 2^52 this factor is at most n 2^-52. Leg lists add the values of their legs with the same bound. The value is returned and finite unless factors, amounts or the number of flows are astronomic.", "quantifier": "all cash flow lists and leg lists of any length, all discount curves, all date types, all platform maths libraries", "why_tests_cant": "any number of flows and every pattern of rounding, cancellation and underflow", "anchors": ["dcf/pricer.py:get_present_value"]}
{"id": "C98", "title": "Compounding in double precision", "statement": "For rates and maturities that are not negative simple compounding in double precision always returns a number between 0 and 1, does not rise with rate or maturity, and misses 1/(1+rt) by at most four units of rounding. The rate found back from a factor misses the rate by at most eight units of rounding of (1+rt), divided by the maturity; small rates are lost completely. Continuous compounding with a math.exp accurate up to eps misses exp(-rt) by at most the factor (1+eps) exp(2^-53 |rt| + 2^-1075) - 1.", "quantifier": "all doubles, including those that overflow or underflow", "why_tests_cant": "all pairs of doubles", "anchors": ["dcf/compounding.py:simple_compounding", "dcf/compounding.py:simple_rate", "dcf/compounding.py:continuous_compounding"]}
{"id": "C99", "title": "Present values on zero rates in double precision", "statement": "In double precision the present value of a list at the origin of a curve of zero rates is the sum of amount times exp(-rate*time), as real numbers, up to a relative error (1+2^-53)^n (1+eps) exp(2^-53 M + 2^-1075) - 1 of the sum of the absolute values, where n is the number of due dates, M bounds |rate*time| and eps is the accuracy of the platform's math.exp. The value is returned and finite unless factors, amounts or the number of flows are astronomic.", "quantifier": "all cash flow lists of any length, all curves of zero rates, all date types and day counts, all platform maths libraries of accuracy eps", "why_tests_cant": "any number of flows and every pattern of rounding", "anchors": ["dcf/pricer.py:get_present_value", "dcf/curves/interestratecurve.py:ZeroRateCurve", "dcf/compounding.py:continuous_compounding"]}
{"id": "C100", "title": "Interpolation in double precision", "statement": "In double precision linear interpolation of finite data with different dates never raises, and misses the line through the two neighbouring points by at most 2^-53 |ya| + 7*2^-53 |(yb-ya)(x-a)/(b-a)| plus an underflow term; a curve with the default interpolation and data below 2^500 always gives a finite number, within 15*2^-53 times the largest value of the exact piecewise linear function; constant data are reproduced without any error, and the stepwise interpolations (left, constant, right) are exact.", "quantifier": "all lists of data points of any length and order with different finite dates, all finite dates x, inside and outside of the data", "why_tests_cant": "every pattern of rounding, any number of points", "anchors": ["dcf/interpolation.py:linear", "dcf/interpolation.py:linear_scheme", "dcf/curves/curve.py:Curve"]}
{"id": "C101", "title": "A cash flow list can be rebuilt from its constructor arguments", "statement": "type(l)(**l.kwargs) is a cash flow list with the same dates, the same origin and the same flows at every date, for every class of cash flow list.", "quantifier": "all lists of every class, with any dates (repeated or unsorted too), amounts, payoffs and origin", "why_tests_cant": "all lists and dates; kwargs is also what repr shows", "anchors": ["dcf/cashflows/cashflow.py:CashFlowList.kwargs", "dcf/cashflows/cashflow.py:CashFlowLegList", "dcf/cashflows/contingent.py:ContingentCashFlowList"]}
{"id": "C102", "title": "Zero rates and present values in double precision are close to the exact values of the curve's data", "statement": "The rate a curve of linearly interpolated rates returns at a date, and the present value of a cash flow list on a curve of zero rates, computed in double precision from the dates and rates given to the curve, miss the values of the exact formulas (piecewise linear rates at exact times, exp(-Z(t)t), sum of products) by at most an explicit bound of a few units of rounding. The value is returned and finite unless factors, amounts or the number of flows are astronomic.", "quantifier": "all doubles as rates, all dates (numbers or calendar days), all amounts, all lists of any length, any maths library whose exp is accurate up to a given relative error", "why_tests_cant": "errors of year fractions, interpolation, exponent, exp, products and sums add up; a test sees the error of one input only", "anchors": ["dcf/interpolation.py:linear", "dcf/curves/interestratecurve.py:ZeroRateCurve", "dcf/daycount.py:day_count", "dcf/pricer.py:get_present_value"]}
{"id": "C103", "title": "Year fractions in double precision are close to the exact ones, ordered and additive", "statement": "The year fraction between two calendar dates is the number of days over 365.25 up to one unit of rounding, zero only for the same day, strictly increasing in the second date, changes its sign when the dates are exchanged, and year fractions of successive periods add up to the one of the whole period; between two floats it is their difference up to one unit of rounding and strictly increasing.", "quantifier": "all calendar dates less than 2**50 days apart, all doubles", "why_tests_cant": "all pairs of dates; a test checks some", "anchors": ["dcf/daycount.py:day_count", "dcf/curves/curve.py:DateCurve.day_count"]}
{"id": "C104", "title": "Redemption plans in double precision miss the notional by at most a few units of rounding", "statement": "An amortising plan computed in double precision has equal payments, each one correctly rounded, whose exact sum misses the amount by at most a bound growing with the number of payments; a bullet plan repays the amount exactly; the outstanding amounts computed from a plan miss the exact ones by at most an explicit bound.", "quantifier": "all numbers of payments, all doubles as amounts, all plans of any length", "why_tests_cant": "errors of the running sum add up with every payment; a test sees one plan only", "anchors": ["dcf/plans.py:amortize", "dcf/plans.py:bullet", "dcf/plans.py:outstanding"]}
{"id": "C105", "title": "Discount factors and present values of discount factor curves in double precision are close to the exact log-linear values", "statement": "What a curve of discount factors (or survival probabilities) returns at a date, and the present value of a cash flow list on a DiscountFactorCurve, computed in double precision from the dates and factors given to the curve, miss the exact values (given factor at time zero, exp(Z(t)t) with Z piecewise linear through log(factor)/time, sum of products) by at most an explicit relative bound. The value is returned and finite unless factors, amounts or the number of flows are astronomic. For calendar dates and the default day count the exact values are those at the exact times, days since the origin divided by 365.25.", "quantifier": "all doubles as factors, all dates (numbers or calendar days), all amounts, all lists of any length, any maths library whose exp and log are accurate up to given relative errors", "why_tests_cant": "errors of logarithm, division, interpolation, exponent, exp, products and sums add up; a test sees the error of one input only", "anchors": ["dcf/interpolation.py:loglinearrate", "dcf/interpolation.py:logconstantrate", "dcf/curves/interestratecurve.py:DiscountFactorCurve", "dcf/pricer.py:get_present_value"]}
{"id": "C106", "title": "Plans with omitted arguments use amount 1 and rate 1%, and a fractional number of payments leaves part of the amount unredeemed", "statement": "Omitting the amount of a plan is the same as amount 1 and omitting the rate the same as one percent. For a number of payments that is not whole, the plan has as many payments as whole numbers fit into it; constant, bullet and annuity plans are those of the whole number, while an amortising plan (consumer loan) redeems only the share floor(num)/num of the amount (of the total with interest).", "quantifier": "all real numbers of payments greater than zero, all amounts and rates, all numbers of payments for the defaults", "why_tests_cant": "the share redeemed depends on the fraction of the number of payments; tests use whole numbers", "anchors": ["dcf/plans.py:amortize", "dcf/plans.py:consumer", "dcf/plans.py:annuity", "dcf/plans.py:bullet", "dcf/plans.py:same", "dcf/plans.py:outstanding", "dcf/plans.py:DEFAULT_AMOUNT", "dcf/plans.py:FIXED_RATE"]}
{"id": "C107", "title": "Discount factors and survival probabilities fall in time when the given ones do", "statement": "If the zero rates, discount factors or survival probabilities given to a curve imply falling factors from grid date to grid date, then the discount factor (conditional survival probability) of every period between two dates is at most one, i.e. no forward rate is negative.", "quantifier": "all data lists of any length and order, all pairs of dates on, between and beyond the grid dates, all day counts", "why_tests_cant": "the forward rate between two dates depends on both dates and on the slope of the segment; a test looks at a few dates", "anchors": ["dcf/curves/interestratecurve.py:ZeroRateCurve", "dcf/curves/interestratecurve.py:DiscountFactorCurve", "dcf/curves/creditcurve.py:SurvivalProbabilityCurve", "dcf/curves/creditcurve.py:DefaultProbabilityCurve", "dcf/interpolation.py:linear_scheme", "dcf/interpolation.py:log_linear_rate_scheme", "dcf/interpolation.py:loglinear"]}
{"id": "C108", "title": "What bonds and swaps are worth during their life", "statement": "At a valuation date after the start of a bond its present value counts the payments due on that date and later and no others: it is the balance of the running period, carried from the start of that period, plus what each remaining balance earns over its period; a bond discounted at its own rate from the next payment on is worth its balance with the full interest of the running period, discounted from the next payment date; a floating rate bond without margin is worth its balance with the running forward interest, discounted; a swap the difference of its remaining legs; a matured bond nothing.", "quantifier": "all schedules of any length split at the valuation date, constant and amortizing notionals, all coupons, margins and discount curves, valuation on, between and after payment dates", "why_tests_cant": "the number of payments made and to come is unbounded and the redemption plan arbitrary; boundary behaviour on payment dates must hold for each of them", "anchors": ["dcf/cashflows/products.py:bond", "dcf/cashflows/products.py:interest_rate_swap", "dcf/pricer.py:get_present_value", "dcf/cashflows/cashflow.py:RateCashFlowList"]}
{"id": "C109", "title": "The normal distribution of the option models is accurate to 7.5e-8", "statement": "The distribution function used by all closed form option models differs from the true standard normal distribution function (the integral of exp(-x^2/2)/sqrt(2 pi)) by less than 7.5e-8 at every argument, which is the accuracy claimed for the cited formula 26.2.17 of Abramowitz and Stegun; the bound is nearly attained in both directions; the density used is the true one up to a relative error of 1e-15.", "quantifier": "all real arguments", "why_tests_cant": "an error bound on the whole line cannot be read off from finitely many sample points, and the reference function is itself an integral", "anchors": ["dcf/models/distibutions.py:normal_cdf", "dcf/models/distibutions.py:normal_pdf"]}
{"id": "C110", "title": "Option values are expected payoffs", "statement": "The value of a call or put under the Bachelier model is the expected payoff of a normally distributed forward with the given mean and volatility, under Black 76 that of a lognormally distributed one, under the displaced model that of a displaced lognormal one, up to the accuracy of the distribution function (7.5e-8 times the size of forward and strike); binary options are worth the probability that they pay.", "quantifier": "all forwards, strikes, volatilities and times to expiry, all sources of market data, calls and puts", "why_tests_cant": "the reference value is an integral over the whole line for each of infinitely many parameters; a test can only compare with the same closed formula", "anchors": ["dcf/models/bachelier.py:NormalOptionPayOffModel", "dcf/models/black76.py:LogNormalOptionPayOffModel", "dcf/models/displaced.py:DisplacedLogNormalOptionPayOffModel", "dcf/models/optionpricing.py:OptionPayOffModel"]}
{"id": "C111", "title": "Analytic greeks are derivatives of the option value", "statement": "The delta and vega of a Bachelier call are the derivatives of its expected payoff with respect to forward and volatility, its gamma (where the time to expiry reaches it) the second derivative, and the delta of a Black 76 call is the derivative with respect to the forward, all times the scale of the model and up to the accuracy of the distribution function and density; the Black 76 vega should be the derivative with respect to the volatility.", "quantifier": "all forwards, strikes, volatilities and times to expiry, all sources of market data, every model that does not bump", "why_tests_cant": "derivatives of integrals over the whole line; a test compares finitely many points with a difference quotient of limited accuracy", "anchors": ["dcf/models/bachelier.py:NormalOptionPayOffModel", "dcf/models/black76.py:LogNormalOptionPayOffModel", "dcf/models/optionpricing.py:OptionPayOffModel"]}
{"id": "C112", "title": "Option values are free of arbitrage up to the accuracy of the distribution function", "statement": "Under the Bachelier, Black 76 and displaced models a call gets cheaper and a put dearer with the strike, by at most the difference of the strikes; values are convex in the strike; a call gets dearer and a put cheaper with the forward, by at most the difference of the forwards; calls and puts get dearer with the volatility and the time to expiry (total variance). All this holds up to the accuracy of the values (7.5e-8 times the size of forward and strike); without that tolerance it fails: in every Black market there are two strikes such that the call with the higher strike has the higher value.", "quantifier": "all pairs and triples of options of these models on any dates, with any sources of market data", "why_tests_cant": "relations between infinitely many pairs of values; the violations without tolerance happen in a neighbourhood too small for a test to hit", "anchors": ["dcf/models/bachelier.py:NormalOptionPayOffModel", "dcf/models/black76.py:LogNormalOptionPayOffModel", "dcf/models/displaced.py:DisplacedLogNormalOptionPayOffModel", "dcf/models/distibutions.py:normal_cdf"]}
{"id": "C113", "title": "The normal distribution in double precision is accurate", "statement": "Evaluated in double precision on a platform whose math.exp has relative error at most eps, the distribution function returns a number between 0 and 1 within 7.5e-8 + 0.53 eps + 2e-12 of the standard normal distribution function, and the density a number that is not negative within 0.41 eps + 1.1e-12 of the normal density. The values at x and -x add up to one, and the order of arguments is kept, up to the errors of the arithmetic alone.", "quantifier": "all doubles between -37 and 37 and all platforms with a sufficiently accurate math.exp", "why_tests_cant": "2^62 arguments, accumulated rounding of a nested polynomial; a test compares some points against a table", "anchors": ["dcf/models/distibutions.py:normal_cdf", "dcf/models/distibutions.py:normal_pdf"]}
{"id": "C114", "title": "Option values in double precision are expected payoffs", "statement": "Computed in double precision, the call and put values of the Bachelier, Black 76 and displaced models miss the expected payoffs by at most the error of the distribution function (7.5e-8), multiples of the relative errors of the platform's math.exp and math.log, and 3e-12, all relative to the size of forward and strike (Bachelier: to their distance, and to the standard deviation).", "quantifier": "all doubles for forward, strike, volatility, time and displacement within the stated ranges (standardised moneyness up to 36), all sources of market data, all platforms whose math.exp and math.log are sufficiently accurate", "why_tests_cant": "accumulated rounding over all doubles against an integral over the whole line", "anchors": ["dcf/models/bachelier.py:NormalOptionPayOffModel", "dcf/models/black76.py:LogNormalOptionPayOffModel", "dcf/models/displaced.py:DisplacedLogNormalOptionPayOffModel", "dcf/models/optionpricing.py:OptionPayOffModel"]}
{"id": "C115", "title": "Greeks by differences are derivatives of expected payoffs nearby", "statement": "Where the Bachelier, Black 76 and displaced models compute greeks by differences, the delta, gamma and vega are the derivatives of the expected payoff at a forward (volatility) within the shift, up to the accuracy of the values divided by the shift (for gamma: by its square), times the scale. Theta is the derivative with respect to time times the scale and, since the difference is not divided, times the shift. A gamma by differences has the sign of the true one.", "quantifier": "all market data the models can price, all shifts and scales, all sources of market data and date systems", "why_tests_cant": "derivatives of integrals over the whole line, and the jump of the approximate distribution function at zero is hit only by special strikes", "anchors": ["dcf/models/optionpricing.py:OptionPayOffModel", "dcf/models/bachelier.py:NormalOptionPayOffModel", "dcf/models/black76.py:LogNormalOptionPayOffModel", "dcf/models/displaced.py:DisplacedLogNormalOptionPayOffModel"]}
{"id": "C116", "title": "Greeks of binary options are derivatives of the probability", "statement": "The analytic greeks of the binary Bachelier and Black 76 models are the derivatives of the probability that the forward ends above the strike, i.e. of the expected payoff: delta with respect to the forward, gamma twice, vega with respect to the volatility.", "quantifier": "all market data the models can price, all scales, all sources of market data and date systems", "why_tests_cant": "derivatives of integrals over the whole line, for all market data", "anchors": ["dcf/models/bachelier.py:BinaryNormalOptionPayOffModel", "dcf/models/black76.py:BinaryLogNormalOptionPayOffModel", "dcf/models/optionpricing.py:OptionPayOffModel"]}
{"id": "C117", "title": "Implied volatilities", "statement": "Fitting a terminal volatility curve on the expiry date of an option to a given price of that option returns one volatility within the search bounds and changes no object. Assigning the volatility to the curve at the expiry date reprices the option within the precision, and the discounted expected payoff under this volatility is the price up to the precision and the accuracy of the model. The search succeeds with enough steps whenever the present values at the two bounds enclose the price and all volatilities in between are positive and not those where the approximated distribution function jumps.", "quantifier": "all prices, calls and puts of any notional and strike, Bachelier, Black 76 and displaced models, forwards, volatility curves, discount curves, precisions, bounds and date systems", "why_tests_cant": "the search evaluates the price at volatilities that depend on all inputs; the price is compared with an integral over the whole line", "anchors": ["dcf/pricer.py:get_curve_fit", "dcf/curves/volatilitycurve.py:TerminalVolatilityCurve", "dcf/models/optionpricing.py:OptionPayOffModel", "dcf/cashflows/contingent.py:OptionCashflowList"]}
{"id": "C118", "title": "Present values of caps, floors and collars", "statement": "The present value of a floating leg with floor and cap is that of the plain leg, plus the discounted puts struck at the floor, minus the discounted calls struck at the cap, each times notional and year fraction, of the coupons paid at the valuation date or later. With floor and cap at the same strike it is exactly the value of the leg of fixed coupons paying strike plus margin, whatever model, forward and volatility. In the Bachelier, Black 76 and displaced models it is the sum of the discounted expected payments of the forward rate at fixing kept between floor and cap, plus margin, up to the accuracy of the model; so a floored leg is worth at least, a capped leg at most, its intrinsic value, if discounted accruals are not negative.", "quantifier": "all pay dates, notionals, day counts, fixing and pay offsets, margins, strikes, forward and volatility sources, discount curves, valuation dates and date systems", "why_tests_cant": "the legs have any number of coupons, and expected payments are integrals over the whole line", "anchors": ["dcf/cashflows/contingent.py:ContingentRateCashFlowList", "dcf/cashflows/payoffs.py:ContingentRateCashFlowPayOff", "dcf/pricer.py:get_present_value", "dcf/models/optionpricing.py:OptionPayOffModel"]}
{"id": "C119", "title": "Valuation between fixing and payment", "statement": "A capped or floored coupon whose rate was fixed before the valuation date but which is paid at or after it, and an option expiring before and settling after it, can be valued: the present value of the list that contains it is a number.", "quantifier": "all such legs and options, models, strikes and date systems", "why_tests_cant": "fails for every leg with a coupon in that state, which tests valuing at the start of a leg do not reach", "anchors": ["dcf/cashflows/contingent.py:ContingentRateCashFlowList", "dcf/cashflows/contingent.py:OptionCashflowList", "dcf/pricer.py:get_present_value", "dcf/models/optionpricing.py:OptionPayOffModel"]}
{"id": "C120", "title": "Contingent lists with any payoff model have a present value", "statement": "A ContingentCashFlowList takes any object as payoff model, as its documentation shows with a number, and None by default. get_present_value of such a list is the discounted sum of its flows, whatever the payoff model is.", "quantifier": "all lists, payoff models without valuation date (None, numbers, curves, functions), curves, valuation dates and leg lists with such a leg", "why_tests_cant": "a test fixes one model; here every list with such a model fails", "anchors": ["dcf/cashflows/contingent.py:ContingentCashFlowList", "dcf/pricer.py:get_present_value"]}
{"id": "C121", "title": "Forward deltas of caps, floors and collars", "statement": "The basis point value of a floating leg with floor and cap along its curve of forward cash rates lies between zero and that of the leg without floor and cap, which is a ten thousandth of the discounted notionals times year fractions, up to the accuracy of the option model divided by the shift. With floor and cap at the same strike it is exactly zero. The call changes nothing.", "quantifier": "all pay dates, notionals that give accruals which are not negative, margins, strikes with floor not above cap, Bachelier, Black 76 and displaced models and any model without time value, forward and discount curves, shifts other than zero of both signs, date systems", "why_tests_cant": "the value before and after the shift is an approximated integral for every coupon; legs have any number of coupons", "anchors": ["dcf/pricer.py:get_basis_point_value", "dcf/cashflows/contingent.py:ContingentRateCashFlowList", "dcf/models/optionpricing.py:OptionPayOffModel", "dcf/curves/interestratecurve.py:CashRateCurve"]}
{"id": "C122", "title": "Volatility deltas of caps, floors and collars", "statement": "The basis point value of a floating leg with floor and cap along its curve of terminal volatilities is that of the floorlets minus that of the caplets, each of them not negative up to the accuracy of the option model divided by the shift. So a leg with a floor only does not lose with the volatility, a leg with a cap only does not gain, and a leg without floor and cap, or with both at the same strike, has exactly zero. The call changes nothing.", "quantifier": "all pay dates, notionals that give accruals which are not negative, margins, strikes, Bachelier, Black 76 and displaced models and any model without time value, volatility and discount curves, shifts other than zero of both signs that leave the volatilities not negative, date systems", "why_tests_cant": "the value before and after the shift is an approximated integral for every coupon; legs have any number of coupons", "anchors": ["dcf/pricer.py:get_basis_point_value", "dcf/cashflows/contingent.py:ContingentRateCashFlowList", "dcf/models/optionpricing.py:OptionPayOffModel", "dcf/curves/volatilitycurve.py:TerminalVolatilityCurve"]}
{"id": "C123", "title": "Short rate curves keep discount factors", "statement": "A ShortRateCurve made of another interest rate curve has the discount factors of that curve from the origin to every date of its grid, and between any two of them. A HazardRateCurve made of another credit curve likewise has its survival probabilities.", "quantifier": "all curves with multiplicative factors, all grids of distinct dates, additive day counts, spreads, date systems whose grid dates are whole days apart", "why_tests_cant": "the new curve sums a rate for every single day, so each factor depends on all days and all grid dates between; no finite set of grids settles it", "anchors": ["dcf/curves/interestratecurve.py:ShortRateCurve", "dcf/curves/creditcurve.py:HazardRateCurve", "dcf/curves/curve.py:RateCurve"]}
{"id": "C124", "title": "Greeks and digital values in double precision", "statement": "Computed in double precision, the analytic delta and vega of the Bachelier model and the analytic delta of Black 76 are returned and miss the derivatives of the expected payoff with respect to forward and volatility, times the scales of the model, by at most the error of the distribution function (7.5e-8; nothing for vega), multiples of the relative errors of math.exp and math.log, and 3e-12. The value of a binary call in the Bachelier model is returned, lies between 0 and 1 and misses the probability that the forward ends above the strike by no more.", "quantifier": "all doubles for forward, strike, volatility and time within the stated ranges (standardised moneyness up to 36), all scales between 1e-9 and 1e9 in size, all sources of market data, all platforms whose math.exp and math.log return on the stated ranges and are sufficiently accurate", "why_tests_cant": "accumulated rounding over all doubles against derivatives of an integral over the whole line", "anchors": ["dcf/models/bachelier.py:NormalOptionPayOffModel", "dcf/models/bachelier.py:BinaryNormalOptionPayOffModel", "dcf/models/black76.py:LogNormalOptionPayOffModel", "dcf/models/optionpricing.py:OptionPayOffModel"]}
{"id": "C125", "title": "Leg lists of leg lists", "statement": "A leg list accepts leg lists as legs. However deep the nesting, its dates are those of the plain lists in it, once each and increasing, its origin is the first of their origins, its flow at a date is the sum of the flows of the plain lists with that date, and present value, accrued interest, yield to maturity, basis point value, bucketed deltas and curve fits are those of the one leg list of all these plain lists: the same numbers, the same exceptions and the same objects afterwards.", "quantifier": "all nestings of any depth and width, all plain lists, curves, models, valuation dates, shifts, grids, brackets and targets", "why_tests_cant": "the nesting is unbounded and the claim compares two programs on all states", "anchors": ["dcf/cashflows/cashflow.py:CashFlowLegList", "dcf/pricer.py:get_present_value", "dcf/pricer.py:get_interest_accrued", "dcf/pricer.py:get_yield_to_maturity", "dcf/pricer.py:get_basis_point_value", "dcf/pricer.py:get_bucketed_delta", "dcf/pricer.py:get_curve_fit"]}
{"id": "C126", "title": "Points given more than once", "statement": "An interpolation object may be built from points of which several have the same x. The order in which the points are given does not matter. At a given x the step interpolations (default value, no, zero, left, constant, right, nearest) return the value with the first matching index, as documented; linear interpolation returns values everywhere.", "quantifier": "all lists of points with any repetitions in any order, all arguments", "why_tests_cant": "repetitions and orders of lists of any length", "anchors": ["dcf/interpolation.py:base_interpolation", "dcf/interpolation.py:default_value_interpolation", "dcf/interpolation.py:no", "dcf/interpolation.py:zero", "dcf/interpolation.py:left", "dcf/interpolation.py:right", "dcf/interpolation.py:nearest", "dcf/interpolation.py:linear", "dcf/interpolation.py:loglinearrate", "dcf/interpolation.py:logconstantrate"]}
{"id": "C127", "title": "Zero rate curves are bootstrapped from bonds and swaps", "statement": "Fitting a zero rate curve to one bond per grid date, each paying at grid dates and last a positive amount at its own grid date, gives data from which ZeroRateCurve(grid, data) gives every bond its target price with an error below the precision. Products which pay amounts of any sign, swaps say, are met up to twice the precision, the first one up to the precision. Products may be fixed cashflow lists, rate lists without forward curve or with one other than the fitted curve, or leg lists of these; the valuation date may be any date not after the first grid date, and the curve may have a given origin or its first date. For zero bonds the data are the zero rates of the targets, up to the precision divided by the slope of the value, and the fit returns if the target prices lie between the values with the rates at the bounds. For products of any amounts, the last one not zero, the fit returns if the targets are the values on some discount factors which lie between those of the bounds with a margin for the errors carried over from earlier grid dates. A zero rate curve used as forward curve only, whose tenor is the period of the floating lists, is bootstrapped from floating lists discounted with another curve in the same way: the rebuilt curve gives every list its target up to twice the precision. So is a single zero rate curve which both discounts swaps and gives the forward rates of their floating legs.", "quantifier": "all grids, dates and day counts that add up, old zero rates, bonds, prices, precisions, bounds; with and without explicit valuation date, fitting curve and grid", "why_tests_cant": "grids and bonds of any number, real prices, any number of bisection steps", "anchors": ["dcf/pricer.py:get_curve_fit", "dcf/pricer.py:get_present_value", "dcf/curves/interestratecurve.py:ZeroRateCurve", "dcf/cashflows/cashflow.py:FixedCashFlowList", "dcf/cashflows/cashflow.py:RateCashFlowList", "dcf/cashflows/cashflow.py:CashFlowLegList"]}
{"id": "C128", "title": "Curve fits which fail", "statement": "get_curve_fit either returns and leaves all objects as they were, or raises and leaves a spread on the fitting curve. It raises AssertionError at the first grid date where the summed up error of the products matured so far has the same sign at both bounds, and the upper bound is then the value left there. A fit can only return if the summed up error is zero wherever it does not depend on the curve value. A grid date before the last payment of every product is not left alone: its value becomes the old one plus the lower bound, up to the precision. With the documented default target of zero bonds are never fitted. A curve which has a spread, as one left by a failing fit, cannot be fitted again before its spread is reset. A CashRateCurve cannot be fitted as forward curve to floating lists on their payment dates: such a fit can only return if every target but the first two and the sum of these is met exactly.", "quantifier": "all curves of rates, intensities or volatilities, products priced on any values of the fitting curve, grids, targets, bounds, precisions and numbers of steps", "why_tests_cant": "any number of grid dates, products and bisection steps; real targets and bounds", "anchors": ["dcf/pricer.py:get_curve_fit", "dcf/pricer.py:_simple_bracketing", "dcf/curves/curve.py:spread", "dcf/curves/interestratecurve.py:CashRateCurve", "dcf/cashflows/cashflow.py:RateCashFlowList"]}
