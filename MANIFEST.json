{
 "claims": [
  {
   "property": "C01",
   "status": "partial",
   "theorems": [
    "C01_continuous_compounding_of_rate",
    "C01_continuous_rate_of_compounding",
    "C01_errors",
    "C01_periodic_alias_refuted",
    "C01_periodic_compounding_of_rate",
    "C01_periodic_errors",
    "C01_periodic_rate_of_compounding",
    "C01_simple_compounding_of_rate",
    "C01_simple_rate_of_compounding",
    "C01_values"
   ],
   "note": "Round trips for all rates/year fractions in their natural domain, explicit values and errors; real arithmetic. REFUTED in the last clause: a periodic rate below -m over an even number of periods does not raise and comes back as another rate (C01_periodic_alias_refuted); all other cases outside the preconditions raise (C01_errors, C01_periodic_errors)."
  },
  {
   "property": "C02",
   "status": "proved",
   "theorems": [
    "C02_conventions_ordered",
    "C02_decreasing",
    "C02_frequency_order"
   ],
   "note": "Ordering of conventions, (0,1) bounds and strict monotonicity in rate and time."
  },
  {
   "property": "C03",
   "status": "proved",
   "theorems": [
    "C03_day_count",
    "C03_laws_days",
    "C03_laws_float",
    "C03_value_days",
    "C03_value_float"
   ],
   "note": "Additivity, antisymmetry and order of the default day count proved for float dates and for day based dates; every other date type through the DateLaws hypotheses."
  },
  {
   "property": "C04",
   "status": "proved",
   "theorems": [
    "C04_amortize",
    "C04_annuity",
    "C04_annuity_zero_rate_raises",
    "C04_bullet",
    "C04_bullet_length_refuted",
    "C04_consumer",
    "C04_same"
   ],
   "note": "Lengths and sums for n >= 1 over the reals; n = 0 for bullet is refuted (C04_bullet_length_refuted), zero rate annuity raises."
  },
  {
   "property": "C05",
   "status": "proved",
   "theorems": [
    "C05_constant_instalment",
    "C05_geometric"
   ],
   "note": "Constant instalment and geometric growth."
  },
  {
   "property": "C06",
   "status": "proved",
   "theorems": [
    "C06_empty_plan_refuted",
    "C06_fully_repaid",
    "C06_outstanding",
    "C06_plans_fully_repaid"
   ],
   "note": "For non-empty plans; the empty plan gives one balance (C06_empty_plan_refuted)."
  },
  {
   "property": "C07",
   "status": "proved",
   "theorems": [
    "C07_order_independent",
    "C07_reproduces_points"
   ],
   "note": "All two-argument interpolation classes; the stored object is the same for every permutation."
  },
  {
   "property": "C08",
   "status": "proved",
   "theorems": [
    "C08_empty",
    "C08_left",
    "C08_nearest",
    "C08_right",
    "C08_total",
    "C08_zero_no"
   ],
   "note": "Exact characterisation (iff) of left, right, nearest; totality; zero/no; empty data."
  },
  {
   "property": "C09",
   "status": "proved",
   "theorems": [
    "C09_affine",
    "C09_between",
    "C09_linear",
    "C09_outside",
    "C09_single"
   ],
   "note": "Exact characterisation of linear interpolation and its consequences."
  },
  {
   "property": "C10",
   "status": "proved",
   "theorems": [
    "C10_exponential",
    "C10_logconstantrate",
    "C10_loglinear",
    "C10_loglinear_between",
    "C10_loglinearrate",
    "C10_nonpositive_data",
    "C10_positive",
    "C10_rate_at_zero"
   ],
   "note": "Positivity, geometric/rate interpolation, exactness on exponentials, None at 0."
  },
  {
   "property": "C11",
   "status": "partial",
   "theorems": [
    "C11_duplicate_keys_refuted",
    "C11_update_history"
   ],
   "note": "Proved for histories of updates with distinct keys inside one call (adding, overwriting, deleting). REFUTED for repeated keys inside one call, which are kept twice (C11_duplicate_keys_refuted)."
  },
  {
   "property": "C12",
   "status": "partial",
   "theorems": [
    "C12_dispatch",
    "C12_dispatch_any",
    "C12_dispatch_rate",
    "C12_guards",
    "C12_linear_scheme",
    "C12_rate_scheme_refuted",
    "C12_selection",
    "C12_zero_linear_scheme"
   ],
   "note": "Dispatch of any scheme (C12_dispatch_any), exact linear_scheme and bounds, guards, selection. REFUTED for schemes with rate based outer parts such as log_linear_rate_scheme: they do not count a data point at 0, so between 0 and the next point the outer part is used (C12_rate_scheme_refuted)."
  },
  {
   "property": "C13",
   "status": "partial",
   "theorems": [
    "C13_from_dict",
    "C13_from_dict_log_refuted"
   ],
   "note": "REFUTED for the log classes (C13_from_dict_log_refuted: the generator is consumed by the positivity check, every evaluation raises); proved for all other classes (C13_from_dict)."
  },
  {
   "property": "C14",
   "status": "proved",
   "theorems": [
    "C14_setitem_map",
    "C14_setitem_map_default"
   ],
   "note": "Any interpolation with admissible data, any assignment history: getitem is the folded map, domain sorted, KeyError elsewhere."
  },
  {
   "property": "C15",
   "status": "proved",
   "theorems": [
    "C15_add",
    "C15_div",
    "C15_div_zero",
    "C15_domain",
    "C15_mul",
    "C15_sub"
   ],
   "note": "Default interpolation; a,b any curves reachable by construction, assignment, arithmetic; + and - everywhere, * and / on the union grid, division by zero error."
  },
  {
   "property": "C16",
   "status": "partial",
   "theorems": [
    "C16_shifted_refuted",
    "C16_shifted_resamples"
   ],
   "note": "REFUTED: Curve.shifted resamples the curve on the shifted grid instead of moving it (C16_shifted_refuted); C16_shifted_resamples states the actual behaviour for every curve."
  },
  {
   "property": "C17",
   "status": "proved",
   "theorems": [
    "C17_fixings",
    "C17_linear",
    "C17_origin_independent",
    "C17_setitem",
    "C17_values"
   ],
   "note": "Values, fixings, origin independence and assignment histories for every date type satisfying the date laws and every additive day count."
  },
  {
   "property": "C18",
   "status": "partial",
   "theorems": [
    "C18_copy_dates_refuted",
    "C18_copy_moves",
    "C18_copy_partial",
    "C18_copy_refuted"
   ],
   "note": "REFUTED for origin other than 0 (C18_copy_refuted) and for non-numeric dates (copy always raises, C18_copy_dates_refuted); C18_copy_moves gives the exact values for float dates (moved by twice the origin), so C18_copy_partial proves the property for origin 0."
  },
  {
   "property": "C19",
   "status": "partial",
   "theorems": [
    "C19_order_explicit_origin",
    "C19_order_linear_values",
    "C19_order_refuted"
   ],
   "note": "REFUTED: implicit origin and last date follow the given order (C19_order_refuted). Proved: with explicit origin all values agree for every interpolation; with implicit origin the values of the default interpolation agree."
  },
  {
   "property": "C20",
   "status": "partial",
   "theorems": [
    "C20_discount_factor",
    "C20_discount_factor_curve",
    "C20_empty_period_refuted",
    "C20_marginal_curve",
    "C20_survival_curve",
    "C20_survival_prob"
   ],
   "note": "REFUTED for discount factor curves: without a data point at the origin get_discount_factor(origin, origin) raises TypeError, and with a spread it is not one (C20_empty_period_refuted). Proved for all other classes, and for discount factor and survival curves at dates with a value that is one at the origin."
  },
  {
   "property": "C21",
   "status": "partial",
   "theorems": [
    "C21_discount_factor_curve",
    "C21_discount_factor_spread_refuted",
    "C21_flat_intensity_curve",
    "C21_survival_curve",
    "C21_zero_rate_curve"
   ],
   "note": "REFUTED for discount factor curves with a spread (the value at the origin is then not one). Proved for zero rate and flat intensity curves with any spread, any dates and any additive day count, and for discount factor and survival curves with value one at the origin."
  },
  {
   "property": "C22",
   "status": "proved",
   "theorems": [
    "C22_discount_factor_of_zero_rate",
    "C22_intensity_of_survival_prob",
    "C22_survival_prob_of_intensity",
    "C22_zero_rate_of_discount_factor"
   ],
   "note": "Both directions, all interest and credit classes."
  },
  {
   "property": "C23",
   "status": "proved",
   "theorems": [
    "C23_business_dates",
    "C23_float_dates",
    "C23_hazard_rate_curve",
    "C23_short_rate_curve",
    "C23_terminates"
   ],
   "note": "Closed form and product rule on daily schedules, termination for all dates, business dates in closed form; float dates raise TypeError (C23_float_dates)."
  },
  {
   "property": "C24",
   "status": "partial",
   "theorems": [
    "C24_cash_rate",
    "C24_cash_rate_curve",
    "C24_cash_rate_curve_consistent",
    "C24_cash_rate_curve_refuted",
    "C24_mismatch"
   ],
   "note": "REFUTED for CashRateCurve.get_cash_rate(start, stop) with stop other than start + forward_tenor: the call never returns (C24_cash_rate_curve_refuted). Proved for all other classes and for the forward tenor."
  },
  {
   "property": "C25",
   "status": "proved",
   "theorems": [
    "C25_cash_rate_curve",
    "C25_cash_rate_curve_stub",
    "C25_terminates"
   ],
   "note": "Closed form with and without a short last period, product rule, termination."
  },
  {
   "property": "C26",
   "status": "partial",
   "theorems": [
    "C26_swap_annuity_refuted",
    "C26_swap_annuity_zero"
   ],
   "note": "REFUTED: get_swap_annuity pairs every date with itself and is zero for every list of dates (C26_swap_annuity_zero, C26_swap_annuity_refuted)."
  },
  {
   "property": "C27",
   "status": "proved",
   "theorems": [
    "C27_classes",
    "C27_round_trip",
    "C27_to_discount_factor",
    "C27_to_flat_intensity",
    "C27_to_survival_prob",
    "C27_to_zero_rate"
   ],
   "note": "Casts DF/zero and survival/default/flat intensity keep discount factors and survival probabilities at every grid date, for any source curve of the family (any class, data, interpolation, spread) with additive day count; for zero rate and flat intensity targets the origin itself is excluded (statement: dates after the origin). Curves with a custom day count function cannot be cast at all, see C28."
  },
  {
   "property": "C28",
   "status": "partial",
   "theorems": [
    "C28_day_count",
    "C28_day_count_given",
    "C28_day_count_refuted",
    "C28_origin",
    "C28_origin_calendar",
    "C28_origin_given",
    "C28_origin_given_refuted",
    "C28_origin_refuted"
   ],
   "note": "REFUTED as stated: a curve with a custom day count function cannot be cast at all (TypeError, since kwargs turns the function into its name); an explicit origin 0.0 is ignored; casting to flat intensity or hazard rate curves moves an implicit origin when the domain is unsorted. Proved: the day count and origin are kept in all other cases, for every class."
  },
  {
   "property": "C29",
   "status": "proved",
   "theorems": [
    "C29_history",
    "C29_spread_adds"
   ],
   "note": "Sum, reset, guard, and any assignment history."
  },
  {
   "property": "C30",
   "status": "partial",
   "theorems": [
    "C30_before_origin_refuted",
    "C30_hazard_non_increasing",
    "C30_survival_prob"
   ],
   "note": "REFUTED for dates before the origin (C30_before_origin_refuted: survival exceeds 1). Proved for all dates after the origin, for data without dates before the origin. In exact arithmetic the upper clamp is 1 - 2^-1022, which in floating point rounds to 1.0."
  },
  {
   "property": "C31",
   "status": "proved",
   "theorems": [
    "C31_marginal_survival",
    "C31_marginal_survival_stub"
   ],
   "note": "Whole tenors, product rule and a shorter last period."
  },
  {
   "property": "C32",
   "status": "partial",
   "theorems": [
    "C32_flat_intensity_refuted",
    "C32_instant_rate",
    "C32_instant_rate_origin",
    "C32_short_rate",
    "C32_short_rate_outside",
    "C32_single_date_refuted"
   ],
   "note": "REFUTED: FlatIntensityCurve raises AttributeError away from the origin, and curves with a single date never return short or hazard rates. True variants: C32_instant_rate, C32_instant_rate_origin, C32_short_rate, C32_short_rate_outside."
  },
  {
   "property": "C33",
   "status": "proved",
   "theorems": [
    "C33_instantaneous_vol",
    "C33_terminal_vol"
   ],
   "note": "Forward variance, floor, ZeroDivisionError and zero backwards, for dates after the origin; instantaneous volatility."
  },
  {
   "property": "C34",
   "status": "partial",
   "theorems": [
    "C34_forward",
    "C34_spot",
    "C34_unordered_refuted"
   ],
   "note": "REFUTED for dates which are not listed in increasing order (C34_unordered_refuted: the date listed last counts as last date, prices given for later dates are never used). Proved for increasing dates and positive prices, with all four kinds of yield curve."
  },
  {
   "property": "C35",
   "status": "partial",
   "theorems": [
    "C35_history",
    "C35_no_dates",
    "C35_readd_refuted",
    "C35_row",
    "C35_set_currency",
    "C35_set_pair",
    "C35_spots",
    "C35_triangulation"
   ],
   "note": "REFUTED as stated for re-added currencies: C35_readd_refuted (cross pairs keep the spot of the first addition). Proved: for every history of distinct currencies with positive spots each contained pair trades at the quotient of the given spots, hence triangulation; for every history (re-adding included) base pairs carry the last spot and opposite pairs are reciprocal. The base currency itself is assumed not to be added again."
  },
  {
   "property": "C36",
   "status": "partial",
   "theorems": [
    "C36_forwards",
    "C36_parity_refuted",
    "C36_reciprocal_partial"
   ],
   "note": "REFUTED: C36_parity_refuted (quotation documented for add gives inverted parity; pairs (c, base) are flat so reciprocity with the base currency fails). Proved: exact forward prices of every pair of every history after the origin, and reciprocity for pairs without the base currency."
  },
  {
   "property": "C37",
   "status": "proved",
   "theorems": [
    "C37_amounts",
    "C37_call",
    "C37_conversion",
    "C37_fixed",
    "C37_lengths",
    "C37_origin",
    "C37_pointwise",
    "C37_repeated",
    "C37_repeated_refuted",
    "C37_scalar",
    "C37_table",
    "C37_table_refuted"
   ],
   "note": "All lists of any length over any date type meeting DateLaws. C37_repeated/C37_repeated_refuted and C37_table/C37_table_refuted record what happens beyond the claim: repeated dates keep only the last amount (domain keeps both), and the table of a list with payoff model ignores the model."
  },
  {
   "property": "C38",
   "status": "partial",
   "theorems": [
    "C38_accrual",
    "C38_calendar_offset",
    "C38_contingent",
    "C38_contingent_calendar",
    "C38_contingent_refuted",
    "C38_day_count",
    "C38_default_origin",
    "C38_first_start_refuted",
    "C38_flow",
    "C38_no_origin_refuted",
    "C38_periods",
    "C38_total"
   ],
   "note": "REFUTED for ContingentRateCashFlowList with a false origin (number 0): C38_contingent_refuted, periods have no length. Proved for every origin of RateCashFlowList and every true origin of ContingentRateCashFlowList: periods, values and the sum of year fractions. Also refuted: the docstring's exemption of the first start date from the pay offset, and empty lists without origin."
  },
  {
   "property": "C39",
   "status": "partial",
   "theorems": [
    "C39_call_refuted",
    "C39_domain",
    "C39_fixed",
    "C39_get",
    "C39_no_origin",
    "C39_origin"
   ],
   "note": "REFUTED for the conversion by calling: C39_call_refuted, the called leg list pays nothing. Proved: sum at every date, sorted domain, origin, and that FixedCashFlowList(legs) has the same flows; C39_no_origin: an empty leg without origin is a TypeError."
  },
  {
   "property": "C40",
   "status": "partial",
   "theorems": [
    "C40_aggregated",
    "C40_default_date",
    "C40_legs",
    "C40_list",
    "C40_pairs",
    "C40_repeated_refuted"
   ],
   "note": "REFUTED for lists with a repeated payment date: C40_repeated_refuted shows that the summed amount is counted once per occurrence. C40_list and C40_legs characterise get_present_value exactly (iff) for every list and leg list, C40_pairs gives the sum of discounted amounts for distinct dates."
  },
  {
   "property": "C41",
   "status": "proved",
   "theorems": [
    "C41_linear",
    "C41_nonneg",
    "C41_time"
   ],
   "note": "Linearity in the amounts, moving the valuation date along the discount curve, and sign, for every product and curve for which the valuations return."
  },
  {
   "property": "C42",
   "status": "partial",
   "theorems": [
    "C42_basis_point_value",
    "C42_bucketed_delta",
    "C42_curve_fit",
    "C42_fair_rate",
    "C42_fair_rate_refuted",
    "C42_interest_accrued",
    "C42_present_value",
    "C42_present_value_raises",
    "C42_present_value_refuted",
    "C42_spread_refuted",
    "C42_twice_refuted",
    "C42_yield_to_maturity"
   ],
   "note": "REFUTED for calls that raise: C42_present_value_refuted (model keeps the valuation date), C42_fair_rate_refuted (list keeps the upper bound as fixed rate), C42_spread_refuted and C42_twice_refuted (curves keep the spread). Every call that returns leaves all objects as they were (C42_present_value, ..., C42_curve_fit); the fair rate needs a uniform fixed rate."
  },
  {
   "property": "C43",
   "status": "proved",
   "theorems": [
    "C43_assertion",
    "C43_bracket",
    "C43_root",
    "C43_values"
   ],
   "note": "Every return of the bracketing search is a bracket of a sign change inside the given interval, at most precision wide in value and argument; a root within precision/2 for continuous functions; AssertionError exactly when there is no sign change."
  },
  {
   "property": "C44",
   "status": "proved",
   "theorems": [
    "C44_continuous",
    "C44_jump_refuted",
    "C44_lipschitz"
   ],
   "note": "The search ends for Lipschitz (with an explicit bound on the calls) and for continuous functions. C44_jump_refuted goes beyond the claim: at a jump the search never returns."
  },
  {
   "property": "C45",
   "status": "proved",
   "theorems": [
    "C45_default_date",
    "C45_out_of_bounds",
    "C45_reprices",
    "C45_returns",
    "C45_root",
    "C45_unique"
   ],
   "note": "Lists of non-negative flows after the valuation date: the returned yield is within precision of the unique yield (C45_root, C45_unique), repricing within precision (C45_reprices), returns whenever the target lies between the values at the bounds (C45_returns), assertion otherwise (C45_out_of_bounds), default valuation date (C45_default_date). Float rounding and Python's recursion limit are not modelled."
  },
  {
   "property": "C46",
   "status": "partial",
   "theorems": [
    "C46_affine",
    "C46_assigned",
    "C46_different_rates_refuted",
    "C46_fair_rate",
    "C46_getter",
    "C46_legs",
    "C46_returns",
    "C46_setter",
    "C46_setter_capped"
   ],
   "note": "REFUTED for lists whose coupons carry different fixed rates: the search overwrites them (C46_different_rates_refuted). Proved for lists with one common fixed rate: the value is affine in the rate (C46_affine), the returned rate is within precision of the unique par rate and reprices within precision (C46_fair_rate), the rate is restored, the call returns when the bounds bracket (C46_returns), also on legs (C46_legs). Float rounding is not modelled."
  },
  {
   "property": "C47",
   "status": "proved",
   "theorems": [
    "C47_contingent_refuted",
    "C47_fixed",
    "C47_legs",
    "C47_outside",
    "C47_pay_offset_refuted",
    "C47_period",
    "C47_share"
   ],
   "note": "Rate cash flow lists without pay offset, additive day counts: pro rata coupon of the unique period (C47_period), 0 outside (C47_outside), between 0 and the coupon (C47_share), fixed flows do not accrue (C47_fixed), legs add up (C47_legs). Beyond the claim: with a pay offset the accrued amount exceeds the coupon (C47_pay_offset_refuted) and contingent rate lists raise (C47_contingent_refuted)."
  },
  {
   "property": "C48",
   "status": "partial",
   "theorems": [
    "C48_spread_refuted",
    "C48_value",
    "C48_zero_shift"
   ],
   "note": "REFUTED for curves which have a spread already: C48_spread_refuted (TypeError). C48_value is the exact characterisation (iff) for all products, all distinct curves without spread and all non-zero shifts; C48_zero_shift covers shift zero."
  },
  {
   "property": "C49",
   "status": "proved",
   "theorems": [
    "C49_buckets",
    "C49_default_grid"
   ],
   "note": "C49_buckets: for every strictly increasing grid, any distinct curves without spread: hat functions, one per grid date, summing to the shift at every date; the result is the list of scaled differences (iff). C49_default_grid: the grid used by default."
  },
  {
   "property": "C50",
   "status": "partial",
   "theorems": [
    "C50_cumulative",
    "C50_discount_factor_refuted",
    "C50_each",
    "C50_precision_refuted",
    "C50_probability_refuted",
    "C50_rebuild",
    "C50_returns",
    "C50_same_direction"
   ],
   "note": "REFUTED as stated: C50_precision_refuted gives, for every precision, a fit missing the second target by more than the precision (products of opposite direction, because each search fits the sum of all products matured so far), and C50_probability_refuted / C50_discount_factor_refuted show that curves of discount factors or probabilities cannot be fitted at all (ValueError, spread left on the curve). Proved for all other classes, products and grids: the sum of errors at each grid date is below the precision (C50_cumulative), each product is below twice the precision (C50_each), below the precision if all products move in the same direction (C50_same_direction), the fit returns under bracketing bounds and Lipschitz values (C50_returns), the data rebuild curve plus spread at every date (C50_rebuild)."
  },
  {
   "property": "C51",
   "status": "proved",
   "theorems": [
    "C51_parity"
   ],
   "note": "Put-call parity of values for every formula and every market, including degenerate volatility or time (model over the reals)."
  },
  {
   "property": "C52",
   "status": "partial",
   "theorems": [
    "C52_density",
    "C52_distribution",
    "C52_symmetric",
    "C52_tails",
    "C52_total",
    "C52_zero_refuted"
   ],
   "note": "REFUTED at zero: the documented standard normal distribution is replaced by the Abramowitz-Stegun polynomial, whose value at 0 is not exactly 1/2 (C52_zero_refuted); proved: density formula, exact polynomial value, range, monotonicity, symmetry away from zero, tails."
  },
  {
   "property": "C53",
   "status": "partial",
   "theorems": [
    "C53_bachelier_partial",
    "C53_bachelier_tail_refuted",
    "C53_black",
    "C53_displaced",
    "C53_intrinsic",
    "C53_no_time_value"
   ],
   "note": "REFUTED for Bachelier tails: with the approximated distribution far in/out of the money values violate the intrinsic bound (C53_bachelier_tail_refuted); proved for Black, displaced and intrinsic models, and for Bachelier under the moneyness condition (C53_bachelier_partial)."
  },
  {
   "property": "C54",
   "status": "partial",
   "theorems": [
    "C54_bumped",
    "C54_bumped_vega_refuted",
    "C54_gamma_date_object_refuted",
    "C54_gamma_date_refuted",
    "C54_no_time_value",
    "C54_put_greeks",
    "C54_theta_refuted",
    "C54_time_only"
   ],
   "note": "REFUTED: analytic fall back gamma/vega/theta pass the date instead of the time or are not difference quotients (C54_*_refuted); proved: put-call relations of greeks, degenerate cases, bumped delta, time-only behaviour."
  },
  {
   "property": "C55",
   "status": "partial",
   "theorems": [
    "C55_bachelier",
    "C55_binary_bachelier",
    "C55_binary_bachelier_gamma_refuted",
    "C55_binary_black",
    "C55_binary_intrinsic",
    "C55_binary_intrinsic_price_refuted",
    "C55_black",
    "C55_black_vega_refuted",
    "C55_intrinsic"
   ],
   "note": "REFUTED: Black vega, binary Bachelier gamma and the binary intrinsic price at the money are not the documented expressions (C55_*_refuted); proved: the remaining closed form greeks equal the documented expressions."
  },
  {
   "property": "C56",
   "status": "partial",
   "theorems": [
    "C56_binary_delta_refuted",
    "C56_binary_value",
    "C56_displaced",
    "C56_zero"
   ],
   "note": "REFUTED for binary delta (C56_binary_delta_refuted); proved: displaced formulas are Black formulas at shifted forward and strike, zero displacement is Black, binary values."
  },
  {
   "property": "C57",
   "status": "partial",
   "theorems": [
    "C57_binary_put_refuted",
    "C57_call_spread",
    "C57_defaults",
    "C57_no_time_value_refuted",
    "C57_strike_shift_refuted"
   ],
   "note": "REFUTED: binary puts, degenerate volatility and strike_shift of the call spread approximation (C57_*_refuted); proved: call spread value and defaults."
  },
  {
   "property": "C58",
   "status": "partial",
   "theorems": [
    "C58_cap",
    "C58_collar",
    "C58_collar_refuted",
    "C58_floor",
    "C58_general",
    "C58_no_model",
    "C58_plain",
    "C58_zero_forward_refuted"
   ],
   "note": "REFUTED when the forward is the number 0 (C58_zero_forward_refuted: KeyError) and C58_collar_refuted shows what cap < floor gives. Proved for all other forwards, any model for the general formula, intrinsic valuation for the collar."
  },
  {
   "property": "C59",
   "status": "proved",
   "theorems": [
    "C59_many_refuted",
    "C59_no_model",
    "C59_no_payoffs_refuted",
    "C59_option_list",
    "C59_order",
    "C59_scalar",
    "C59_sorted",
    "C59_strategy_list",
    "C59_sum"
   ],
   "note": "Any number and order of strikes, any model. Also the expiries of option and strategy lists; C59_many_refuted: more than ten options raise TypeError instead of the documented KeyError; C59_no_payoffs_refuted: default payoffs work for a single date only."
  },
  {
   "property": "C60",
   "status": "partial",
   "theorems": [
    "C60_collapse_refuted",
    "C60_level",
    "C60_names",
    "C60_outside",
    "C60_vector"
   ],
   "note": "REFUTED for distinct levels that coincide after rounding to seven digits (C60_collapse_refuted: ZeroDivisionError); proved for scales with at least two different rounded levels."
  },
  {
   "property": "C61",
   "status": "proved",
   "theorems": [
    "C61_master_scale",
    "C61_single_class",
    "C61_with_value"
   ],
   "note": "Also with an explicit smallest value (C61_with_value)."
  },
  {
   "property": "C62",
   "status": "partial",
   "theorems": [
    "C62_bullet",
    "C62_day_count_refuted",
    "C62_outstanding",
    "C62_plan_length",
    "C62_redemptions",
    "C62_returns"
   ],
   "note": "proved for every schedule of business dates, every redemption list and single notional, with any day count function (C62_redemptions, C62_outstanding, C62_bullet, C62_returns, C62_plan_length). REFUTED with the default day count 'thirty360': the string is never looked up and every interest payment raises TypeError (C62_day_count_refuted). The BusinessSchedule of the external package is a parameter; dates of the schedule must differ."
  },
  {
   "property": "C63",
   "status": "partial",
   "theorems": [
    "C63_asset_swap_refuted",
    "C63_dates_refuted",
    "C63_defaults_refuted",
    "C63_numbers_refuted"
   ],
   "note": "REFUTED: for dates which are not business dates no call ever returns (C63_dates_refuted); for number dates the loop never ends if start + period <= end and raises otherwise (C63_numbers_refuted), also with all default arguments (C63_defaults_refuted); asset_swap always raises (C63_asset_swap_refuted). With business dates bond and interest_rate_swap return whenever the external schedule does (C62_returns, C76_returns)."
  },
  {
   "property": "C64",
   "status": "proved",
   "theorems": [
    "C64_decreasing_grid_refuted",
    "C64_default_grid",
    "C64_default_x",
    "C64_rows",
    "C64_short_grid"
   ],
   "note": "Default y grid for grids of numbers; a grid whose first step goes backwards never returns (C64_decreasing_grid_refuted), which the property excludes."
  },
  {
   "property": "C65",
   "status": "partial",
   "theorems": [
    "C65_function_day_count_refuted",
    "C65_sample",
    "C65_sample_day_count"
   ],
   "note": "REFUTED for curves with a day count function (C65_function_day_count_refuted: TypeError, its name is used instead); proved for the default and registered day counts, with falsy origins ignored, and with an explicit day count."
  },
  {
   "property": "C66",
   "status": "partial",
   "theorems": [
    "C66_shifted_refuted",
    "C66_shifted_resamples"
   ],
   "note": "REFUTED (C66_shifted_refuted): the values are resampled at the moved dates; C66_shifted_resamples gives what is computed."
  },
  {
   "property": "C67",
   "status": "partial",
   "theorems": [
    "C67_div_error",
    "C67_div_refuted",
    "C67_everywhere",
    "C67_moved",
    "C67_no_dates",
    "C67_origin_refuted",
    "C67_origins_refuted",
    "C67_union_grid"
   ],
   "note": "REFUTED: the result loses origin and day count (C67_origin_refuted), division never returns (C67_div_refuted), and with different origins the sum differs from the sum of values at a date given for both curves (C67_origins_refuted). Proved: exact on the union of the domains, and everywhere for sums and differences with default day counts; for different origins, exact at the moved dates of the second curve (C67_moved)."
  },
  {
   "property": "C68",
   "status": "partial",
   "theorems": [
    "C68_derivative",
    "C68_float_refuted",
    "C68_integrate",
    "C68_mean_value"
   ],
   "note": "REFUTED for float dates, where both raise TypeError (C68_float_refuted). Proved on date types with day steps: the weighted daily mean (C68_integrate), bounds (C68_mean_value), the slope (C68_derivative)."
  },
  {
   "property": "C69",
   "status": "partial",
   "theorems": [
    "C69_numbers",
    "C69_sources",
    "C69_strike",
    "C69_zero_forward_refuted"
   ],
   "note": "REFUTED: a forward given as the number zero is dropped (C69_zero_forward_refuted); proved: strike default, forward, volatility and time sources and day count priority."
  },
  {
   "property": "C70",
   "status": "partial",
   "theorems": [
    "C70_default_refuted",
    "C70_to_curve"
   ],
   "note": "REFUTED for classes whose default interpolation is not linear (ForwardCurve, discount factors, probabilities): C70_default_refuted. C70_to_curve proves it for linear default or explicit interpolation."
  },
  {
   "property": "C71",
   "status": "proved",
   "theorems": [
    "C71_cash_rate_tenor",
    "C71_marginal_tenor"
   ],
   "note": "Cash rates of all interest classes but CashRateCurve (see C24); marginal curves for one tenor (longer schedules in C31)."
  },
  {
   "property": "C72",
   "status": "proved",
   "theorems": [
    "C72_certain_default",
    "C72_empty_period"
   ],
   "note": "Both sides of the threshold. C72_certain_default: marginal probability curves, over any number of tenors; Example C72_certain."
  },
  {
   "property": "C73",
   "status": "proved",
   "theorems": [
    "C73_linear_short_rate"
   ],
   "note": "For every curve whose short rate and zero rate exist."
  },
  {
   "property": "C74",
   "status": "partial",
   "theorems": [
    "C74_probability_refuted",
    "C74_setitem",
    "C74_spread_refuted"
   ],
   "note": "REFUTED for curves with spread (C74_spread_refuted: the spread is baked in) and for probability curves (C74_probability_refuted: not clamped, and default probabilities stored as survival probabilities). C74_setitem proves it without spread for all classes with default interpolation."
  },
  {
   "property": "C75",
   "status": "proved",
   "theorems": [
    "C75_mixed_name",
    "C75_value"
   ],
   "note": "Keys, unknown keys and mixed names."
  },
  {
   "property": "C76",
   "status": "proved",
   "theorems": [
    "C76_flows",
    "C76_returns",
    "C76_same_legs"
   ],
   "note": "for every schedule of business dates (a parameter) and any day count; dates of a leg's schedule must differ"
  },
  {
   "property": "C77",
   "status": "proved",
   "theorems": [
    "C77_cashflow",
    "C77_contingent",
    "C77_option",
    "C77_pay_rec",
    "C77_rate",
    "C77_strategy",
    "C77_strategy_entries"
   ],
   "note": "For every payoff except bare callables (which have no details): same success, same exception, same amount (C77_cashflow), and the entries of each class fit together as documented (C77_rate, C77_option, C77_strategy, C77_contingent); numbered entries of strategies for any number of options (C77_strategy_entries)."
  },
  {
   "property": "C78",
   "status": "partial",
   "theorems": [
    "C78_amounts",
    "C78_collars_fixed",
    "C78_collars_refuted",
    "C78_function_refuted",
    "C78_legs_refuted",
    "C78_legs_zero",
    "C78_options_refuted",
    "C78_options_zero",
    "C78_rate_columns",
    "C78_rows",
    "C78_strategies_zero"
   ],
   "note": "REFUTED for leg lists (C78_legs_refuted, C78_legs_zero: zero at every date whatever the legs pay), for option lists (C78_options_refuted, C78_options_zero: the payoff model is ignored), for option strategies (C78_strategies_zero: zero at every date, and no expiry is shown) and for capped and floored coupons (C78_collars_refuted, C78_collars_fixed: only the fixed rate coupon is shown); lists with a function among the flows have no table (C78_function_refuted). Proved for every list: rows, header and cells (C78_rows), the cash flow column for lists without payoff model (C78_amounts), all ten columns for rate lists with forward curve (C78_rate_columns)."
  },
  {
   "property": "C79",
   "status": "partial",
   "theorems": [
    "C79_curve",
    "C79_date_curve",
    "C79_date_curve_refuted",
    "C79_default_probability",
    "C79_default_probability_refuted",
    "C79_forward_curve",
    "C79_forward_curve_refuted",
    "C79_fx_curve_refuted",
    "C79_names",
    "C79_rate_curve",
    "C79_scheme_names",
    "C79_scheme_refuted"
   ],
   "note": "REFUTED as stated: a curve made with log_linear_scheme or a user-made scheme class cannot be rebuilt, copied, sampled or shifted (C79_scheme_refuted, TypeError), nor one with an unregistered day count function, and fixings are lost (C79_date_curve_refuted), the yield curve of a forward curve is lost (C79_forward_curve_refuted) the domestic and foreign curves of fx forward curves are lost, so that rebuilt ones have no price after their last date (C79_fx_curve_refuted), and default probabilities come back as survival probabilities (C79_default_probability_refuted, C79_default_probability for every curve). Proved after every history of assignments for named interpolations and day counts (C79_names, C79_curve, C79_date_curve), up to the last date of forward curves (C79_forward_curve) and for all other rate curve classes (C79_rate_curve)."
  },
  {
   "property": "C80",
   "status": "partial",
   "theorems": [
    "C80_legs_refuted",
    "C80_numbers",
    "C80_payoffs",
    "C80_scaling_refuted"
   ],
   "note": "REFUTED: the operators return None for every list, never a list, and leave the list as it is (C80_scaling_refuted, C80_legs_refuted). Proved: the exact outcome for lists of numbers incl. division by zero (C80_numbers) and for lists of payoffs (C80_payoffs: AttributeError)."
  },
  {
   "property": "C81",
   "status": "partial",
   "theorems": [
    "C81_discount_factors",
    "C81_div_refuted",
    "C81_grid",
    "C81_product",
    "C81_product_refuted"
   ],
   "note": "REFUTED for curves whose common origin lies before both grids: the sum has another origin and other discount factors (C81_product_refuted); division never returns a curve (C81_div_refuted). Proved: grid, origin and values of all other operators (C81_grid), discount factors of the sum (C81_discount_factors), and the product rule at every date whenever the origin is a grid date of one of the curves (C81_product)."
  },
  {
   "property": "C82",
   "status": "partial",
   "theorems": [
    "C82_covers",
    "C82_distinct_refuted",
    "C82_inside_refuted",
    "C82_negative_refuted",
    "C82_parts",
    "C82_step"
   ],
   "note": "REFUTED: dates appear twice (C82_distinct_refuted), with a step that does not divide the interval there are dates after its end (C82_inside_refuted), and a negative step never returns (C82_negative_refuted). Proved: the exact grid for n parts (C82_parts) and for every positive step (C82_step), that it covers the domain, stays within it and has the expected ends and length (C82_covers)."
  },
  {
   "property": "C83",
   "status": "partial",
   "theorems": [
    "C83_axis",
    "C83_last_date_refuted",
    "C83_rows",
    "C83_short_grid"
   ],
   "note": "REFUTED for equidistant dates: the row of the last date is empty (C83_last_date_refuted). Proved: the exact axis for every increasing grid (C83_axis) and the value of the curve in front of every row for grids with different distances (C83_rows). C83_short_grid: grids of fewer than two dates."
  },
  {
   "property": "C84",
   "status": "proved",
   "theorems": [
    "C84_cash_rate_curve",
    "C84_coupons",
    "C84_discount_factor_curve",
    "C84_par_floater",
    "C84_zero_rate_curve"
   ],
   "note": "Coupon by coupon for any curve whose discount factors are consistent (C84_coupons), closed form for zero rate, discount factor and cash rate curves, par value of the floater with repayment."
  },
  {
   "property": "C85",
   "status": "proved",
   "theorems": [
    "C85_swap_rate"
   ],
   "note": "For floating legs on zero rate curves; target value, returned rate and unchanged objects."
  },
  {
   "property": "C86",
   "status": "partial",
   "theorems": [
    "C86_coupon_rate_refuted",
    "C86_flat_curve",
    "C86_par_value",
    "C86_par_yield"
   ],
   "note": "REFUTED as documented: the yield at par is ln(1 + c u)/u for periods of length u, not c (C86_coupon_rate_refuted, ten percent coupon, default bounds and precision). Proved: the true value at par for every redemption plan, and that a flat curve is recovered."
  },
  {
   "property": "C87",
   "status": "partial",
   "theorems": [
    "C87_given_tenor_refuted",
    "C87_tenor_refuted",
    "C87_to_cash_rate",
    "C87_to_hazard_rate",
    "C87_to_instantaneous_vol",
    "C87_to_marginal",
    "C87_to_short_rate",
    "C87_to_terminal_vol"
   ],
   "note": "REFUTED in part: rates on the grid, origin and day count are kept (C87_to_*), but the forward tenor is lost for every class except cash rates (C87_tenor_refuted) and a tenor given in the call only relabels the rates (C87_given_tenor_refuted)."
  },
  {
   "property": "C88",
   "status": "partial",
   "theorems": [
    "C88_cash_rate_cast",
    "C88_origin_refuted",
    "C88_zero_rate_curve"
   ],
   "note": "REFUTED without a rate at the origin (C88_origin_refuted); proved when origin and end are grid dates, for every curve with multiplicative discount factors, in particular every zero rate curve."
  },
  {
   "property": "C89",
   "status": "partial",
   "theorems": [
    "C89_fair_rate_refuted",
    "C89_neighbours",
    "C89_result"
   ],
   "note": "REFUTED that an existing fair rate is found (C89_fair_rate_refuted, for every recursion depth; C89_neighbours says when the search never returns, for any number structure). Proved for every function of floats and every maths library: a returned bracket passes the float tests and encloses the zero (C89_result)."
  },
  {
   "property": "C90",
   "status": "partial",
   "theorems": [
    "C90_item_refuted",
    "C90_linear_refuted",
    "C90_stepwise"
   ],
   "note": "REFUTED for the default linear interpolation (C90_linear_refuted, C90_item_refuted). Proved for every number structure, hence for floats, and all stepwise interpolations (C90_stepwise)."
  },
  {
   "property": "C91",
   "status": "partial",
   "theorems": [
    "C91_cash_rate_refuted",
    "C91_cast_refuted",
    "C91_grid_refuted"
   ],
   "note": "REFUTED in double precision for plot grids (C91_grid_refuted), cash rates over a tenor (C91_cash_rate_refuted, any rates and any depth) and casts to cash rate curves (C91_cast_refuted). The exact statements for real numbers are C82, C88 and the cash rate properties."
  },
  {
   "property": "C92",
   "status": "partial",
   "theorems": [
    "C92_any_grid",
    "C92_floating",
    "C92_legs",
    "C92_legs_sum",
    "C92_on_grid",
    "C92_sum_refuted"
   ],
   "note": "REFUTED between grid dates (C92_sum_refuted, default grid). Proved for payments on grid dates (C92_on_grid) and, for payments which are not negative, that the sum is at most the basis point value and short of it by a second order term (C92_any_grid). Floating legs shifted along their curve of cash rates: exact values of all deltas, which add up for every grid (C92_floating). Leg lists: sums over the legs (C92_legs, C92_legs_sum)."
  },
  {
   "property": "C93",
   "status": "proved",
   "theorems": [
    "C93_fixed_bond",
    "C93_fixed_par",
    "C93_floating_bond",
    "C93_floating_par",
    "C93_premium",
    "C93_swap"
   ],
   "note": "schedules as returned by businessdate; offsets none. Other date types never return a product, see C63."
  },
  {
   "property": "C94",
   "status": "proved",
   "theorems": [
    "C94_duration",
    "C94_more",
    "C94_price_up",
    "C94_same_yield",
    "C94_scaled",
    "C94_single"
   ],
   "note": "price order, independence of the search, duration bounds, single payment, larger payments, scaling"
  },
  {
   "property": "C95",
   "status": "proved",
   "theorems": [
    "C95_bounds",
    "C95_convex",
    "C95_duration",
    "C95_legs",
    "C95_sign"
   ],
   "note": "sign, duration and convexity bounds for fixed lists on zero rate curves; additivity over legs for all products"
  },
  {
   "property": "C96",
   "status": "partial",
   "theorems": [
    "C96_average",
    "C96_flat",
    "C96_understates",
    "C96_variance_refuted",
    "C96_variances_add",
    "C96_volatilities_add"
   ],
   "note": "REFUTED for instantaneous volatility curves (C96_variance_refuted: 20% and 40% on two days give 30%, whose variance is below the sum); proved: they average volatilities (C96_average), understate the variance unless constant (C96_understates), add linearly (C96_volatilities_add), and variances add up for terminal volatility curves (C96_variances_add)."
  },
  {
   "property": "C97",
   "status": "proved",
   "theorems": [
    "C97_legs",
    "C97_present_value",
    "C97_returns",
    "C97_size",
    "C97_sum"
   ],
   "note": "Error bounds of sums and present values in double precision, for plain left-to-right addition (Python before 3.12; newer versions compensate). C97_returns: with factors below 2^900, amounts below 2^70 and at most 2^50 flows the value is returned, is finite and the heap is unchanged."
  },
  {
   "property": "C98",
   "status": "partial",
   "theorems": [
    "C98_continuous_error",
    "C98_simple_error",
    "C98_simple_monotone",
    "C98_simple_range",
    "C98_simple_rate",
    "C98_simple_rate_refuted"
   ],
   "note": "Range, monotonicity and error bounds proved. REFUTED that rates can be recovered from factors: rates below 2^-53 are lost; the error bound of the recovered rate is proved."
  },
  {
   "property": "C99",
   "status": "proved",
   "theorems": [
    "C99_returns",
    "C99_zero_rates"
   ],
   "note": "Total rounding error of present values at the origin of zero rate curves, relative to the real formula with the rates and times the curve returns. C99_returns: the value is returned and finite if math.exp returns between -700 and 700 and |rate * time| <= 600."
  },
  {
   "property": "C100",
   "status": "proved",
   "theorems": [
    "C100_curve",
    "C100_flat",
    "C100_linear",
    "C100_stepwise"
   ],
   "note": "With C90 this settles linear interpolation in doubles: data points are missed, but only by rounding units."
  },
  {
   "property": "C101",
   "status": "partial",
   "theorems": [
    "C101_capped_refuted",
    "C101_fixed_refuted",
    "C101_function_refuted",
    "C101_legs_refuted",
    "C101_options_refuted",
    "C101_plain",
    "C101_rate_refuted",
    "C101_strategies_refuted"
   ],
   "note": "Proved for CashFlowList of numbers and payoffs (C101_plain). REFUTED for every other class: functions become names (C101_function_refuted), FixedCashFlowList gives payoff objects for amounts (C101_fixed_refuted), rate lists cannot be evaluated (C101_rate_refuted, C101_capped_refuted), option lists cannot be rebuilt (C101_options_refuted), strategies pay nothing (C101_strategies_refuted) and leg lists raise ValueError (C101_legs_refuted)."
  },
  {
   "property": "C102",
   "status": "proved",
   "theorems": [
    "C102_calendar",
    "C102_present_value",
    "C102_rates",
    "C102_returns"
   ],
   "note": "Rates of linearly interpolated curves from their data (C102_rates), present values on curves of zero rates from the data for any dates (C102_present_value) and for calendar dates with the default day count against exact times (C102_calendar). C102_returns: the value is returned and finite under the same bounds."
  },
  {
   "property": "C103",
   "status": "partial",
   "theorems": [
    "C103_additive_error",
    "C103_additive_refuted",
    "C103_days",
    "C103_float",
    "C103_float_order",
    "C103_float_order_refuted",
    "C103_order",
    "C103_reverse"
   ],
   "note": "Error, zero, multiples of four years (C103_days), order (C103_order), sign (C103_reverse) for calendar dates; floats C103_float, C103_float_order. REFUTED: year fractions of one day and of six days do not add up to that of a week (C103_additive_refuted), the error is bounded by C103_additive_error; two floats may have the same year fraction (C103_float_order_refuted)."
  },
  {
   "property": "C104",
   "status": "partial",
   "theorems": [
    "C104_amortize",
    "C104_amortize_refuted",
    "C104_bullet",
    "C104_outstanding"
   ],
   "note": "Payments and their exact sum (C104_amortize), exact bullet (C104_bullet), outstanding amounts (C104_outstanding). REFUTED in the exact form: ten payments of a tenth of 1.0 sum to less than 1 and leave a positive remainder (C104_amortize_refuted)."
  },
  {
   "property": "C105",
   "status": "proved",
   "theorems": [
    "C105_calendar",
    "C105_calendar_factors",
    "C105_factors",
    "C105_present_value",
    "C105_returns"
   ],
   "note": "Values of curves of discount factors, survival and default probabilities from their data (C105_factors), present values on a DiscountFactorCurve (C105_present_value). There the times are the year fractions the curve computes. C105_calendar_factors, C105_calendar: for calendar dates, compared with the exact factors at the exact times (Example C105_calendar_instance). C105_returns: the value is returned and finite if math.exp returns between -700 and 700 (factors at most 100; a flow at time zero needs a factor at time zero)."
  },
  {
   "property": "C106",
   "status": "partial",
   "theorems": [
    "C106_amortize",
    "C106_consumer",
    "C106_defaults",
    "C106_full_redemption_refuted",
    "C106_given",
    "C106_ignored",
    "C106_whole",
    "C106_zero"
   ],
   "note": "Payments, number and share redeemed of amortising plans and consumer loans (C106_amortize, C106_consumer), plans that ignore the fraction (C106_ignored), whole numbers agree with C04 (C106_whole), zero raises (C106_zero), default arguments (C106_defaults, C106_given). REFUTED: full redemption for every number of payments: 2.5 payments redeem four fifths (C106_full_redemption_refuted)."
  },
  {
   "property": "C107",
   "status": "partial",
   "theorems": [
    "C107_discount_factors",
    "C107_discount_factors_refuted",
    "C107_falling",
    "C107_falling_iff",
    "C107_forward_rate",
    "C107_forward_rate_outside",
    "C107_loglinear",
    "C107_survival",
    "C107_survival_refuted",
    "C107_zero_rates_refuted"
   ],
   "note": "REFUTED with the default interpolation: falling data, but the discount factor (survival probability) of a period before a grid date exceeds one (C107_discount_factors_refuted, C107_survival_refuted, C107_zero_rates_refuted). Proved: the forward rate of every period within a segment and outside (C107_forward_rate, C107_forward_rate_outside); factors fall if the instantaneous forward rates at the ends of all segments are not negative (C107_falling, C107_discount_factors, C107_survival), which for float dates is also necessary (C107_falling_iff); with log-linear interpolation falling data give falling factors everywhere (C107_loglinear)."
  },
  {
   "property": "C108",
   "status": "proved",
   "theorems": [
    "C108_fixed_bond",
    "C108_fixed_par",
    "C108_floating_bond",
    "C108_matured",
    "C108_swap"
   ],
   "note": "C108_fixed_bond (any fixed rate bond; the value does not depend on the number DF given to the start of the running period), C108_fixed_par (discounted at its own rate), C108_matured, C108_floating_bond, C108_swap; instance C108_instance evaluates a bond on and between payment dates and after maturity."
  },
  {
   "property": "C109",
   "status": "proved",
   "theorems": [
    "C109_density",
    "C109_distribution",
    "C109_error",
    "C109_sharp"
   ],
   "note": "C109_distribution (the reference function exists, is unique, symmetric, rises from 0 to 1), C109_error (bound at every argument), C109_sharp (at some arguments the error is above 7.45e-8 and below -6.92e-8), C109_density; instance C109_instance. Real arithmetic; exp is exact."
  },
  {
   "property": "C110",
   "status": "partial",
   "theorems": [
    "C110_bachelier",
    "C110_bachelier_intrinsic",
    "C110_binary_bachelier",
    "C110_binary_black",
    "C110_binary_black_refuted",
    "C110_binary_put_refuted",
    "C110_black",
    "C110_displaced",
    "C110_expectation"
   ],
   "note": "REFUTED for binary options: C110_binary_put_refuted (a binary put is valued by the parity of vanilla options, so its value is negative if the forward is one above the strike), C110_binary_black_refuted (the binary Black call is not the probability of payment; C110_binary_black says what it is). Proved in full for vanilla options and binary Bachelier calls: C110_expectation (specification sane), C110_bachelier, C110_bachelier_intrinsic (far from the money values miss the intrinsic value by at most the bound, complementing C53_bachelier_partial), C110_black, C110_displaced, C110_binary_bachelier. Real arithmetic."
  },
  {
   "property": "C111",
   "status": "partial",
   "theorems": [
    "C111_bachelier",
    "C111_black_delta",
    "C111_black_vega_refuted",
    "C111_displaced_delta",
    "C111_displaced_vega_refuted",
    "C111_values"
   ],
   "note": "REFUTED for the Black 76 and displaced vega: C111_black_vega_refuted, C111_displaced_vega_refuted (F/K times the derivative, the code evaluates the density at d - vol). Proved: C111_bachelier (delta, vega, gamma), C111_black_delta, C111_displaced_delta, C111_values (the families of expected payoffs exist). Real arithmetic."
  },
  {
   "property": "C112",
   "status": "proved",
   "theorems": [
    "C112_butterfly",
    "C112_exact_refuted",
    "C112_forwards",
    "C112_strikes",
    "C112_variance"
   ],
   "note": "C112_strikes, C112_butterfly, C112_forwards, C112_variance as stated, with the tolerance of C110; C112_exact_refuted shows the tolerance is needed: in every Black market a call with a higher strike has a higher value for some pair of strikes (the distribution function jumps by 1e-9 at zero). Real arithmetic."
  },
  {
   "property": "C113",
   "status": "proved",
   "theorems": [
    "C113_density",
    "C113_distribution",
    "C113_order",
    "C113_returns",
    "C113_symmetry"
   ],
   "note": "C113_distribution, C113_density, C113_symmetry, C113_order. Arguments beyond 37 in size are excluded: there math.exp may underflow and the relative accuracy assumed of it does not hold. C113_returns: a number is returned wherever math.exp returns one."
  },
  {
   "property": "C114",
   "status": "proved",
   "theorems": [
    "C114_bachelier",
    "C114_bachelier_returns",
    "C114_black",
    "C114_black_returns",
    "C114_displaced",
    "C114_displaced_returns"
   ],
   "note": "C114_bachelier, C114_black, C114_displaced, each for calls and puts; ranges and accuracies of math.exp and math.log are hypotheses. C114_*_returns: the values are returned where math.exp and math.log return. The binary Bachelier model is in C124; the other binary models do not compute the probability (C110), so there is nothing to be close to."
  },
  {
   "property": "C115",
   "status": "partial",
   "theorems": [
    "C115_delta",
    "C115_gamma",
    "C115_gamma_refuted",
    "C115_theta",
    "C115_values",
    "C115_vega"
   ],
   "note": "C115_delta, C115_gamma, C115_vega, C115_theta proved, families of expected payoffs exist (C115_values). REFUTED: the sign of the gamma by differences (C115_gamma_refuted): the jump of the approximate distribution function at zero is divided by the square of the shift."
  },
  {
   "property": "C116",
   "status": "partial",
   "theorems": [
    "C116_bachelier_delta",
    "C116_bachelier_gamma_refuted",
    "C116_bachelier_vega_refuted",
    "C116_black_delta",
    "C116_black_vega_refuted",
    "C116_values"
   ],
   "note": "C116_bachelier_delta, C116_black_delta proved, families of probabilities exist (C116_values). REFUTED: gamma (C116_bachelier_gamma_refuted: opposite sign wherever forward and strike differ) and vega (C116_bachelier_vega_refuted, C116_black_vega_refuted: positive where the true one is negative)."
  },
  {
   "property": "C117",
   "status": "proved",
   "theorems": [
    "C117_implied",
    "C117_returns"
   ],
   "note": "C117_implied: what the fitted volatility does; C117_returns: when the search succeeds; C117_instance: a quarter year call as in the documentation. At volatilities where an argument of the distribution function is zero its approximation jumps; ranges containing one are outside C117_returns."
  },
  {
   "property": "C118",
   "status": "proved",
   "theorems": [
    "C118_decomposition",
    "C118_expected",
    "C118_intrinsic",
    "C118_locked"
   ],
   "note": "C118_decomposition: plain leg plus floorlets minus caplets; C118_locked: floor equal to cap; C118_expected: expected payments; C118_intrinsic: bounds; C118_instance: a collar of two coupons."
  },
  {
   "property": "C119",
   "status": "partial",
   "theorems": [
    "C119_fixed_refuted",
    "C119_option_refuted"
   ],
   "note": "REFUTED: C119_fixed_refuted: the present value of a leg with such a coupon is never returned, and the flow itself raises ValueError, for Bachelier, Black 76 and displaced models with non-zero volatility; C119_option_refuted: the same for an option settling after its expiry. Witness in C118_instance. C118_decomposition covers the legs without cap and floor, which are valued."
  },
  {
   "property": "C120",
   "status": "partial",
   "theorems": [
    "C120_legs_refuted",
    "C120_no_model_refuted"
   ],
   "note": "REFUTED: C120_no_model_refuted: the present value raises AttributeError for every list whose payoff model has no valuation date, also for None; C120_legs_refuted: the same for leg lists; C120_instance: the documented list, whose flows are numbers. With a model that has a valuation date the property is C40."
  },
  {
   "property": "C121",
   "status": "proved",
   "theorems": [
    "C121_forward_delta",
    "C121_locked"
   ],
   "note": "C121_forward_delta: bounds for every shift; C121_locked: floor equal to cap; C121_instance: a collar of two coupons on a curve of half-year cash rates. The model must take only its forward from the shifted curve."
  },
  {
   "property": "C122",
   "status": "proved",
   "theorems": [
    "C122_locked",
    "C122_sign",
    "C122_volatility_delta"
   ],
   "note": "C122_volatility_delta: floorlets minus caplets; C122_sign: the three one-sided cases; C122_locked: floor equal to cap; C122_instance: a collar of two coupons on a flat volatility curve. The model must take only its volatility from the shifted curve."
  },
  {
   "property": "C123",
   "status": "partial",
   "theorems": [
    "C123_business_dates",
    "C123_discount_factor_curve",
    "C123_hazard_rate_cast",
    "C123_origin_refuted",
    "C123_short_rate_cast",
    "C123_zero_rate_curve"
   ],
   "note": "REFUTED from an origin before the first date of the grid (C123_origin_refuted, C123_refuted_instance: the rate between the first two dates is used). Proved between any two dates of the grid: C123_short_rate_cast, C123_hazard_rate_cast, C123_business_dates; for zero rate curves with two dates or more the cast succeeds as well (C123_zero_rate_curve), also for curves of positive discount factors with factor one at the origin (C123_discount_factor_curve, Example C123_factors_instance)."
  },
  {
   "property": "C124",
   "status": "proved",
   "theorems": [
    "C124_bachelier",
    "C124_black_delta",
    "C124_digital"
   ],
   "note": "Deltas and vegas by differences are not part of it (C115 treats them in exact arithmetic). The platform good_libm of the instances meets all hypotheses on math.exp and math.log."
  },
  {
   "property": "C125",
   "status": "proved",
   "theorems": [
    "C125_basis_point_value",
    "C125_bucketed_delta",
    "C125_builds",
    "C125_curve_fit",
    "C125_domain",
    "C125_flattened",
    "C125_flow",
    "C125_interest_accrued",
    "C125_origin",
    "C125_present_value",
    "C125_sum",
    "C125_yield"
   ],
   "note": "In exact arithmetic; in double precision the order of the additions differs. get_fair_rate raises on leg lists, nested or not (MPricer)."
  },
  {
   "property": "C126",
   "status": "partial",
   "theorems": [
    "C126_first_refuted",
    "C126_linear",
    "C126_linear_end_refuted",
    "C126_linear_start_refuted",
    "C126_order",
    "C126_rate_order_refuted",
    "C126_smallest",
    "C126_smallest_default"
   ],
   "note": "REFUTED in part. C126_order: the order does not matter, except for loglinearrate and logconstantrate with two points at 0 (C126_rate_order_refuted). C126_smallest, C126_smallest_default: the value at a given x is the smallest of its values, not the first given one (C126_first_refuted). C126_linear: between neighbouring x the line from the largest value of the left to the smallest of the right one; C126_linear_start_refuted, C126_linear_end_refuted: up to a repeated first x and beyond a repeated last x the call raises ZeroDivisionError. Curves reject repeated dates (C12), so this is about direct use."
  },
  {
   "property": "C127",
   "status": "proved",
   "theorems": [
    "C127_bonds",
    "C127_bonds_return",
    "C127_first_date_return",
    "C127_fixed_list",
    "C127_floating_list",
    "C127_forward_curve",
    "C127_leg_list",
    "C127_products",
    "C127_products_return",
    "C127_rate_list",
    "C127_returns",
    "C127_single_curve",
    "C127_zero_bond",
    "C127_zero_rates"
   ],
   "note": "C127_bonds: if the fit returns, the objects are unchanged and the rebuilt curve reprices every bond within the precision, its zero rates within the bounds around the old ones; any valuation date up to the first grid date, origin given or by default. C127_products: products of any amounts of any sign are met within twice the precision. C127_fixed_list, C127_zero_bond, C127_floating_list, C127_rate_list, C127_leg_list: which products pay on the grid. C127_zero_rates: the error of each zero rate. C127_returns: from some number of steps on the fit to zero bonds returns. C127_products_return, C127_bonds_return: the same for products of any amounts, whose targets are values on some discount factors within the bounds. C127_first_date_return: the same for curves without given origin and earlier valuation dates. C127_forward_curve: zero rate curves as forward curves of floating lists discounted with another curve. C127_single_curve: one zero rate curve which discounts swaps and gives the forward rates of their floating legs. Examples C127_single_swaps (two par swaps, the fit returns), C127_floaters (such a fit which returns), C127_swaps (payer swaps with floating legs), C127_documented_return, C127_coupons, C127_instance, C127_documented (the example of the documentation), C127_legs."
  },
  {
   "property": "C128",
   "status": "proved",
   "theorems": [
    "C128_again",
    "C128_default_target",
    "C128_fixed_in_advance",
    "C128_insensitive",
    "C128_outcomes",
    "C128_unmatured"
   ],
   "note": "C128_outcomes: the two possible outcomes and the state each leaves; OutOfFuel stands for Python's RecursionError. C128_insensitive: what a returning fit tells where the products do not depend on the curve. C128_unmatured: grid dates before the last payment of every product are moved to the lower bound. C128_default_target: bonds with the default target zero raise AssertionError. C128_again: a curve with spread is refused, TypeError. C128_fixed_in_advance: a fit of a CashRateCurve to floating lists returns only if the targets are met exactly. Examples C128_floaters, C128_instance, C128_fewer_products, C128_one_bond."
  }
 ]
}