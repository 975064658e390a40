{
 "claims": [
  {
   "property": "C01",
   "status": "proved",
   "theorems": [
    "C01_FR_XCN_FR"
   ],
   "note": ""
  },
  {
   "property": "C02",
   "status": "proved",
   "theorems": [
    "C02_FR_FNRN_FR"
   ],
   "note": ""
  },
  {
   "property": "C03",
   "status": "proved",
   "theorems": [
    "C03_FNRN_canonical"
   ],
   "note": ""
  },
  {
   "property": "C04",
   "status": "proved",
   "theorems": [
    "C04_FNRN_XCN_FNRN"
   ],
   "note": ""
  },
  {
   "property": "C05",
   "status": "proved",
   "theorems": [
    "C05_conversions_preserve_observations"
   ],
   "note": ""
  },
  {
   "property": "C06",
   "status": "proved",
   "theorems": [
    "C06_XCN_to_FR_exact",
    "C06_case_ignored",
    "C06_only_case"
   ],
   "note": ""
  },
  {
   "property": "C07",
   "status": "partial",
   "theorems": [
    "C07_xlsx_to_XCN_codes_refuted",
    "C07_xlsx_to_XCN_codes_partial"
   ],
   "note": "REFUTED in general: xlsx_to_XCN re-reads its own output column without passing on the requested codes, so codes 1/0 come back swapped. _partial: preserved when the requested codes are common codes with their documented meaning."
  },
  {
   "property": "C08",
   "status": "proved",
   "theorems": [
    "C08_plotting_positions_johnson",
    "C08_plotting_positions_succeed"
   ],
   "note": ""
  },
  {
   "property": "C09",
   "status": "proved",
   "theorems": [
    "C09_plotting_positions_increasing"
   ],
   "note": ""
  },
  {
   "property": "C10",
   "status": "proved",
   "theorems": [
    "C10_plotting_positions_uncensored"
   ],
   "note": ""
  },
  {
   "property": "C11",
   "status": "proved",
   "theorems": [
    "C11_unsorted_positions"
   ],
   "note": ""
  },
  {
   "property": "C12",
   "status": "partial",
   "theorems": [
    "C12_kaplan_meier_product_limit_partial",
    "C12_kaplan_meier_product_limit_no_mixed_ties_partial",
    "C12_kaplan_meier_product_limit_refuted"
   ],
   "note": "REFUTED in general: pandas' default sort is unstable; a legal sort that puts a censored item before a failure of the same time gives a different value (witness). _partial: proved for every order with failures first at ties, and for every order when no failure coincides with a censored time."
  },
  {
   "property": "C13",
   "status": "proved",
   "theorems": [
    "C13_kaplan_meier_survival",
    "C13_kaplan_meier_succeeds"
   ],
   "note": ""
  },
  {
   "property": "C14",
   "status": "proved",
   "theorems": [
    "C14_kaplan_meier_uncensored"
   ],
   "note": ""
  },
  {
   "property": "C15",
   "status": "proved",
   "theorems": [
    "C15_kaplan_meier_limits"
   ],
   "note": ""
  },
  {
   "property": "C16",
   "status": "partial",
   "theorems": [
    "C16_kaplan_meier_steps_partial",
    "C16_kaplan_meier_steps_refuted"
   ],
   "note": "REFUTED at the last point: when the largest observation is a failure the last lower limit is a copy of the previous one and can exceed the reliability 0 (witness at CI=0.95). _partial: equal lengths always; bracketed at every point but the last, and at the last when the largest observation is censored."
  },
  {
   "property": "C17",
   "status": "proved",
   "theorems": [
    "C17_nelson_aalen",
    "C17_nelson_aalen_limits"
   ],
   "note": "Also: confidence limits bracket for CI > 0 (with CI = 0 the last half-width is inf*0 = nan)."
  },
  {
   "property": "C18",
   "status": "proved",
   "theorems": [
    "C18_rank_adjustment"
   ],
   "note": "Limits for CI > 0 (with CI = 0 and a failure last the half-width is nan)."
  },
  {
   "property": "C19",
   "status": "proved",
   "theorems": [
    "C19_mcf_nelson",
    "C19_mcf_succeeds"
   ],
   "note": ""
  },
  {
   "property": "C20",
   "status": "partial",
   "theorems": [
    "C20_mcf_limits_partial",
    "C20_mcf_limits_refuted"
   ],
   "note": "REFUTED for CI < 1/2: the limits use the one-sided quantile -ppf(1-CI), negative there, so lower > MCF > upper (witness CI=1/4). _partial: everything for 1/2 <= CI < 1; monotonicity and first value for every CI."
  },
  {
   "property": "C21",
   "status": "partial",
   "theorems": [
    "C21_mcf_keeps_data_partial",
    "C21_mcf_keeps_data_refuted"
   ],
   "note": "REFUTED: each system is sorted in place. _partial: every list comes back as its sorted permutation, unchanged if it was sorted."
  },
  {
   "property": "C22",
   "status": "proved",
   "theorems": [
    "C22_rocof_scale"
   ],
   "note": ""
  },
  {
   "property": "C23",
   "status": "partial",
   "theorems": [
    "C23_rocof_rate_partial",
    "C23_rocof_rate_refuted"
   ],
   "note": "REFUTED with test_end: the code divides (failures + 1) by the time of the last failure. _partial: proved without test_end."
  },
  {
   "property": "C24",
   "status": "proved",
   "theorems": [
    "C24_rocof_trend",
    "C24_rocof_reverse",
    "C24_rocof_growing_gaps"
   ],
   "note": ""
  },
  {
   "property": "C25",
   "status": "proved",
   "theorems": [
    "C25_crow_amsaa_mle",
    "C25_crow_amsaa_exists"
   ],
   "note": ""
  },
  {
   "property": "C26",
   "status": "proved",
   "theorems": [
    "C26_crow_time_to_target",
    "C26_duane_time_to_target"
   ],
   "note": ""
  },
  {
   "property": "C27",
   "status": "proved",
   "theorems": [
    "C27_replacement_as_good_as_old"
   ],
   "note": ""
  },
  {
   "property": "C28",
   "status": "proved",
   "theorems": [
    "C28_replacement_as_good_as_new"
   ],
   "note": ""
  },
  {
   "property": "C29",
   "status": "proved",
   "theorems": [
    "C29_one_sample_proportion",
    "C29_one_sample_proportion_total",
    "C29_limits_unique"
   ],
   "note": ""
  },
  {
   "property": "C30",
   "status": "proved",
   "theorems": [
    "C30_two_proportion_symmetric"
   ],
   "note": ""
  },
  {
   "property": "C31",
   "status": "partial",
   "theorems": [
    "C31_same_proportion_refuted",
    "C31_same_proportion_partial"
   ],
   "note": "REFUTED when the common proportion is 0 or 1: the half-width is 0 and 0 is not strictly inside, so the samples are reported significantly different (witness 0/5 and 0/5). _partial: proved whenever 0 < successes < trials."
  },
  {
   "property": "C32",
   "status": "proved",
   "theorems": [
    "C32_sample_size_least",
    "C32_sample_size_total"
   ],
   "note": ""
  },
  {
   "property": "C33",
   "status": "proved",
   "theorems": [
    "C33_sequential_sampling"
   ],
   "note": ""
  },
  {
   "property": "C34",
   "status": "proved",
   "theorems": [
    "C34_planner_relation",
    "C34_planner_round_trip",
    "C34_planner_round_trip_CI"
   ],
   "note": ""
  },
  {
   "property": "C35",
   "status": "partial",
   "theorems": [
    "C35_planner_failures_time_terminated",
    "C35_planner_failures_refuted",
    "C35_planner_failures_partial"
   ],
   "note": "REFUTED for failure terminated tests: the nan MTBF of 0 failures never fails the check, so 0 is returned instead of ValueError. Proved in full for time terminated tests; _partial is the remaining content for failure terminated ones."
  },
  {
   "property": "C36",
   "status": "partial",
   "theorems": [
    "C36_test_duration_time_terminated",
    "C36_test_duration_refuted",
    "C36_test_duration_partial",
    "C36_test_duration_errors"
   ],
   "note": "REFUTED for failure terminated tests: nan is returned when one failure already gives a small enough producer's risk. Proved in full for time terminated tests, including existence of the answer (Chebyshev bounds); _partial is the remaining content for failure terminated ones."
  },
  {
   "property": "C37",
   "status": "proved",
   "theorems": [
    "C37_ks_statistic"
   ],
   "note": ""
  },
  {
   "property": "C38",
   "status": "proved",
   "theorems": [
    "C38_chi2_test",
    "C38_chi2_covered"
   ],
   "note": ""
  },
  {
   "property": "C39",
   "status": "proved",
   "theorems": [
    "C39_acceleration_factor",
    "C39_activation_energy",
    "C39_accelerated_temperature",
    "C39_roundtrip"
   ],
   "note": ""
  },
  {
   "property": "C40",
   "status": "proved",
   "theorems": [
    "C40_creep_failure_time",
    "C40_hotter_fails_sooner"
   ],
   "note": ""
  },
  {
   "property": "C41",
   "status": "proved",
   "theorems": [
    "C41_palmgren_miner",
    "C41_palmgren_errors"
   ],
   "note": ""
  },
  {
   "property": "C42",
   "status": "proved",
   "theorems": [
    "C42_crack_growth"
   ],
   "note": ""
  },
  {
   "property": "C43",
   "status": "partial",
   "theorems": [
    "C43_default_arguments_refuted",
    "C43_arguments_partial"
   ],
   "note": "REFUTED: with the default Kt=1.0 and crack_type='edge' the transition length divides by (1.12*1.0/1.12)**2-1 = 0, so every call with defaults raises ZeroDivisionError. _partial: every other valid call, with 1.12*Kt above the geometry factor, succeeds."
  },
  {
   "property": "C44",
   "status": "partial",
   "theorems": [
    "C44_creep_rupture_refuted",
    "C44_creep_trace_partial"
   ],
   "note": "REFUTED: with both traces omitted (the default) 'None not in unique_temps' always raises ValueError. _partial: with both traces and data grouped by temperature the trace lies on that temperature's least squares line."
  },
  {
   "property": "C45",
   "status": "proved",
   "theorems": [
    "C45_sn_traces_inverse"
   ],
   "note": ""
  },
  {
   "property": "C46",
   "status": "partial",
   "theorems": [
    "C46_cdf_sf_complementary",
    "C46_hazards_partial",
    "C46_increasing_arrays_are_safe",
    "C46_hazards_refuted"
   ],
   "note": "REFUTED for HF/CHF on arrays that are not increasing: the first (number of entries <= gamma) entries are set to 0, whichever they are (witness). CDF+SF=1 proved for all arrays; _partial: HF = PDF/SF and CHF = -ln SF at every entry with SF > 0 other than x = gamma, for arrays whose entries up to gamma come first (every increasing array), all eight distributions. scipy's functions are modelled by their closed forms / incomplete integrals, not by their floating point."
  },
  {
   "property": "C47",
   "status": "proved",
   "theorems": [
    "C47_pdf_is_derivative_of_cdf",
    "C47_pdf_integrates_to_one",
    "C47_pdf_zero_outside"
   ],
   "note": "Density = derivative of CDF inside the support for all eight distributions (Gamma and Beta through their incomplete integrals); zero outside; integrates to the differences of the CDF and to 1 in total."
  },
  {
   "property": "C48",
   "status": "proved",
   "theorems": [
    "C48_cdf_distribution_function",
    "C48_cdf_entries"
   ],
   "note": "All eight distributions."
  },
  {
   "property": "C49",
   "status": "proved",
   "theorems": [
    "C49_quantile_inverts_cdf",
    "C49_inverse_SF_inverts_sf",
    "C49_cdf_inverts_quantile",
    "C49_out_of_range",
    "C49_lists"
   ],
   "note": "For 0 < p < 1, all eight distributions; lists too."
  },
  {
   "property": "C50",
   "status": "proved",
   "theorems": [
    "C50_mode_maximises_pdf",
    "C50_median_halves_cdf",
    "C50_mode_reported"
   ],
   "note": "Mode for every distribution that reports one."
  },
  {
   "property": "C51",
   "status": "partial",
   "theorems": [
    "C51_location_shifts_functions",
    "C51_location_shifts_statistics",
    "C51_hazards_shift_partial",
    "C51_hazards_any_order_refuted"
   ],
   "note": "REFUTED for HF/CHF on arrays that are not increasing, as C46. PDF, CDF, SF, quantile, median, mode: proved for all arrays; _partial: HF/CHF for arrays whose entries up to gamma come first."
  },
  {
   "property": "C52",
   "status": "partial",
   "theorems": [
    "C52_scalar_agrees_partial",
    "C52_scalar_with_location_refuted",
    "C52_scalar_negative_and_zero_refuted"
   ],
   "note": "REFUTED: with a location gamma > 0 HF and CHF of a scalar raise TypeError (a slice of a float is assigned); without one, negative and zero x give powers of negative numbers or ZeroDivisionError where the array raises ValueError or gives inf (witnesses). _partial: scalar and array agree for gamma = 0 and x > 0."
  },
  {
   "property": "C53",
   "status": "partial",
   "theorems": [
    "C53_competing_risks_partial",
    "C53_succeeds",
    "C53_pdf_is_derivative",
    "C53_unordered_refuted",
    "C53_rejects_valid_refuted"
   ],
   "note": "REFUTED for arrays that are not increasing (columns are assembled negative part first: witness), and valid calls are rejected when no x is non-negative or a Beta component meets x > 1. _partial: for every increasing array the call accepts, at every entry: SF product, CDF, bound by each component; HF sum, PDF = HF*SF, CHF where the component hazards are defined (SF > 0 and x not equal to the location of a cut-off family)."
  },
  {
   "property": "C54",
   "status": "partial",
   "theorems": [
    "C54_mixture_partial",
    "C54_proportions_checked",
    "C54_default_proportions",
    "C54_pdf_is_derivative",
    "C54_negative_proportions_refuted"
   ],
   "note": "REFUTED: negative proportions that add to 1 are accepted and the CDF exceeds 1 (witness). _partial: for increasing arrays the weighted sums always hold; the bounds for non-negative proportions. Rejection of bad proportions proved in full (exact sums; the floating point sum test is not modelled)."
  },
  {
   "property": "C55",
   "status": "partial",
   "theorems": [
    "C55_cdf_rises_from_ZI_to_DS",
    "C55_arrays",
    "C55_pdf_mass",
    "C55_quantile_partial",
    "C55_quantile_at_ends_refuted",
    "C55_list_range_unchecked_refuted",
    "C55_hazard"
   ],
   "note": "REFUTED: quantile comes from a table over [ppf(1e-10), ppf(1-1e-10)], so at q = ZI and q = DS the CDF of the answer differs from q for every base distribution; q in a list is checked against [0,1] only. _partial: within one grid step of the exact quantile for q inside the table. CDF, SF, PDF parts proved in full."
  },
  {
   "property": "C56",
   "status": "partial",
   "theorems": [
    "C56_median_partial",
    "C56_median_refuted"
   ],
   "note": "REFUTED: median is copied from the base distribution (witness). _partial: CDF(median) = (DS+ZI)/2, which is 1/2 exactly when DS + ZI = 1."
  },
  {
   "property": "C57",
   "status": "partial",
   "theorems": [
    "C57_random_samples_partial",
    "C57_random_samples_no_survivors_partial",
    "C57_random_samples_refuted"
   ],
   "note": "REFUTED: draws without any failure make base.random_samples(0) raise ValueError; such draws are possible for every n when ZI > 0 or DS < 1. _partial: with at least one failure among the draws the counts add up, failures never exceed the censoring time, the samples are exactly the drawn values cut off at that time."
  },
  {
   "property": "C58",
   "status": "partial",
   "theorems": [
    "C58_terms",
    "C58_likelihood",
    "C58_likelihood_exists",
    "C58_zero_inflated_partial",
    "C58_zero_inflated_refuted",
    "C58_zero_inflation_ignored",
    "C58_variants"
   ],
   "note": "Terms proved for all 20 likelihoods. REFUTED for the zero inflated fitters at ZI = 0: the zero failures are then left out of the likelihood, so ZI = 0 always beats the true maximum (C58_zero_inflated_refuted, C58_zero_inflation_ignored). _partial: proved whenever ZI > 0 or there are no zero failures."
  },
  {
   "property": "C59",
   "status": "proved",
   "theorems": [
    "C59_order",
    "C59_grouped"
   ],
   "note": ""
  },
  {
   "property": "C60",
   "status": "proved",
   "theorems": [
    "C60_goodness",
    "C60_better"
   ],
   "note": ""
  },
  {
   "property": "C61",
   "status": "partial",
   "theorems": [
    "C61_results",
    "C61_best_BIC_AD",
    "C61_best_AICc",
    "C61_best_loglik_partial",
    "C61_loglik_refuted",
    "C61_AICC_refuted",
    "C61_rejected"
   ],
   "note": "REFUTED for log-likelihoods above zero: rows are sorted by |loglik|, so the worst fit is named best (C61_loglik_refuted); and for sort_by 'AICC' with a missing AICc, TypeError (C61_AICC_refuted). Proved: BIC, AD, AICc (fallback to BIC included) in every case; _partial: log-likelihood when none is positive. pandas' sort is any sorting function."
  },
  {
   "property": "C62",
   "status": "partial",
   "theorems": [
    "C62_accepts_partial",
    "C62_ties_partial",
    "C62_three_failures_refuted",
    "C62_rejects",
    "C62_ties_refuted"
   ],
   "note": "REFUTED: 3 distinct failures are always rejected (the mixture needs 4; the exclusion test is < 3), and ties can leave one group of the mixture with a single value (witness). _partial: accepted with 2 or at least 4 distinct failures without ties; all distributions but the mixture and competing risks accept any 3 distinct values. The kernel density dividing line is an oracle."
  },
  {
   "property": "C63",
   "status": "partial",
   "theorems": [
    "C63_LS_partial",
    "C63_LS_refuted",
    "C63_runs",
    "C63_MLE_partial",
    "C63_MLE_default",
    "C63_MLE_refuted"
   ],
   "note": "REFUTED: the choices compare |log-likelihood|, so with positive log-likelihoods the worse estimate is returned (witnesses for LS and MLE). _partial: proved when log-likelihoods are not positive. The default takes the first success, as documented; failures return the initial guess."
  },
  {
   "property": "C64",
   "status": "proved",
   "theorems": [
    "C64_vertical",
    "C64_horizontal",
    "C64_found",
    "C64_rejected"
   ],
   "note": ""
  },
  {
   "property": "C65",
   "status": "proved",
   "theorems": [
    "C65_exact_recovery",
    "C65_forced_shape"
   ],
   "note": ""
  },
  {
   "property": "C66",
   "status": "partial",
   "theorems": [
    "C66_multiplier",
    "C66_bracket_partial",
    "C66_widens",
    "C66_scales",
    "C66_exponential_inverse",
    "C66_refuted"
   ],
   "note": "REFUTED at two points: the mu of a Gamma fit with alpha = 1 has a nan limit, and after least squares a singular Hessian raises TypeError (C66_refuted). _partial: every other row of every fitter. Widening, coverage and the meaning of each scale are proved."
  },
  {
   "property": "C67",
   "status": "partial",
   "theorems": [
    "C67_reliability",
    "C67_time",
    "C67_exponential_reliability_partial",
    "C67_widens",
    "C67_delta_method",
    "C67_errors",
    "C67_refuted",
    "C67_exponential_time_refused_refuted"
   ],
   "note": "REFUTED for Exponential bounds on reliability at three or more points out of order: no_reverse is applied to the user's points (C67_refuted); and Exponential bounds on time may be refused because of grid points the user did not ask for (C67_exponential_time_refused_refuted). Proved in full for all other distributions; Exponential on time; _partial: Exponential on reliability for ordered points. The numerical derivatives of the incomplete Gamma function are an oracle."
  },
  {
   "property": "C68",
   "status": "partial",
   "theorems": [
    "C68_distance_partial",
    "C68_order",
    "C68_nan",
    "C68_refuted"
   ],
   "note": "REFUTED for fitted values above 1 - 1e-12: the last piece is then traversed backwards (C68_refuted). _partial: identity and non-negativity for fitted values in (0, 1 - 1e-12]; order independence in full; a fitted value of 0 or 1 gives nan."
  },
  {
   "property": "C69",
   "status": "partial",
   "theorems": [
    "C69_extremes",
    "C69_size",
    "C69_every_kth",
    "C69_points_partial",
    "C69_points_refuted",
    "C69_factor_one_refuted"
   ],
   "note": "REFUTED: x and y are sorted separately, so points that are not in the data are returned unless both are increasing (C69_points_refuted); a factor of 1 is taken for True and thins the data (C69_factor_one_refuted). Proved: extremes, size by default, every k-th value; _partial: points of the data when both lists are increasing."
  },
  {
   "property": "C70",
   "status": "partial",
   "theorems": [
    "C70_refuted",
    "C70_partial",
    "C70_idempotent",
    "C70_errors"
   ],
   "note": "REFUTED: [3,5,1,2] becomes [3,5,1,1], which reverses (C70_refuted). _partial: curves with at most one turn become monotone. Unchanged-if-monotone and idempotence proved in full."
  },
  {
   "property": "C71",
   "status": "proved",
   "theorems": [
    "C71_legal_rows",
    "C71_refusal",
    "C71_result"
   ],
   "note": "Proved for aligned arrays row by row; C71_result covers arrays of any lengths."
  },
  {
   "property": "C72",
   "status": "proved",
   "theorems": [
    "C72_inverse",
    "C72_increasing"
   ],
   "note": ""
  },
  {
   "property": "C73",
   "status": "partial",
   "theorems": [
    "C73_dual",
    "C73_single_partial",
    "C73_failures",
    "C73_single_refuted"
   ],
   "note": "REFUTED for single stress models: a censored stress at which nothing failed shifts the censored groups (C73_single_refuted); the check is commented out in the source. _partial: single stress with every censored stress among the failure stresses. Dual stress and the failure groups in full."
  },
  {
   "property": "C74",
   "status": "proved",
   "theorems": [
    "C74_terms",
    "C74_distribution",
    "C74_likelihood"
   ],
   "note": "All 24 fitters; stresses positive."
  },
  {
   "property": "C75",
   "status": "proved",
   "theorems": [
    "C75_probability",
    "C75_complement",
    "C75_monotone",
    "C75_half",
    "C75_errors"
   ],
   "note": "The exact value is proved equal to the improper integral over the real line of the strength density times the stress survival function."
  },
  {
   "property": "C76",
   "status": "partial",
   "theorems": [
    "C76_threshold",
    "C76_fraction",
    "C76_censored_earlier",
    "C76_errors",
    "C76_caller_refuted",
    "C76_caller_partial"
   ],
   "note": "REFUTED in its last clause: an ndarray passed without a threshold is shuffled in place, even when the call then raises (C76_caller_refuted). _partial: lists, and arrays with a threshold, are unchanged; an array is only permuted. Everything else in full."
  },
  {
   "property": "C77",
   "status": "partial",
   "theorems": [
    "C77_minimal_repair_partial",
    "C77_minimal_repair_refuted"
   ],
   "note": "REFUTED: the code multiplies the preventative cost by the expected number of failures and charges the corrective cost once (witness). _partial: proved for equal costs."
  },
  {
   "property": "C78",
   "status": "partial",
   "theorems": [
    "C78_all_given_refuted",
    "C78_reports_partial"
   ],
   "note": "REFUTED: giving all of AF, T_acc and Ea is accepted but sets nothing (AttributeError when printing). _partial: all other combinations."
  },
  {
   "property": "C79",
   "status": "proved",
   "theorems": [
    "C79_sn_least_squares",
    "C79_sn_total"
   ],
   "note": ""
  },
  {
   "property": "C80",
   "status": "partial",
   "theorems": [
    "C80_residual_no_runout_refuted",
    "C80_residual_bounds_refuted",
    "C80_residual_bounds_partial"
   ],
   "note": "REFUTED twice: without an endurance limit y_upper is never assigned, so every such call fails; with one the lower bound is clipped at limit - residual and a failure can lie below it (witness). _partial: the upper bound always encloses; the lower bound does unless the failure lies more than the residual below the endurance limit."
  },
  {
   "property": "C81",
   "status": "partial",
   "theorems": [
    "C81_statistical_band_refuted",
    "C81_statistical_band_partial"
   ],
   "note": "REFUTED: the band uses cycles instead of log10(cycles) in the (x-mean)^2/DEVSQ term (witness). _partial: the band is symmetric about the curve."
  },
  {
   "property": "C82",
   "status": "partial",
   "theorems": [
    "C82_trace_on_curve_refuted",
    "C82_trace_on_curve_partial"
   ],
   "note": "REFUTED: the traces use the unclipped line below the endurance limit (witness). _partial: proved above the limit."
  },
  {
   "property": "C83",
   "status": "proved",
   "theorems": [
    "C83_material_parameters",
    "C83_all_parameters"
   ],
   "note": ""
  },
  {
   "property": "C84",
   "status": "proved",
   "theorems": [
    "C84_hysteresis_closes",
    "C84_hysteresis_continuous",
    "C84_hysteresis_symmetric",
    "C84_runs_exist"
   ],
   "note": "The solver (scipy fsolve) is an oracle returning exact roots on the physical branch; C84_runs_exist shows such roots exist for every tension run."
  },
  {
   "property": "C85",
   "status": "partial",
   "theorems": [
    "C85_compression_refuted",
    "C85_compression_partial"
   ],
   "note": "REFUTED: for 1/n not an integer the equation handed to the solver for compression has no root (nan). _partial: exact mirror image when 1/n is an odd integer."
  },
  {
   "property": "C86",
   "status": "proved",
   "theorems": [
    "C86_life_unique",
    "C86_life_decreases",
    "C86_transition",
    "C86_equation_is_lines",
    "C86_no_mean_stress"
   ],
   "note": "Solver answers: the equation has exactly one positive root, which is the life."
  },
  {
   "property": "C87",
   "status": "partial",
   "theorems": [
    "C87_strain_limits_refuted",
    "C87_strain_limits_partial",
    "C87_strain_limits_zero_partial"
   ],
   "note": "REFUTED: strain_life_diagram computes (s/K)**(1/n) for a negative min_stress s; with 1/n even the strains have the wrong sign (witness). _partial: agreement when min_stress is omitted or zero."
  },
  {
   "property": "C88",
   "status": "proved",
   "theorems": [
    "C88_initiation_range",
    "C88_initiation_means",
    "C88_corrections_agree",
    "C88_notch_rule",
    "C88_life"
   ],
   "note": "The solver is an oracle returning positive exact roots; C88_case is a concrete plastic run."
  },
  {
   "property": "C89",
   "status": "partial",
   "theorems": [
    "C89_creep_groups_refuted",
    "C89_creep_groups_partial"
   ],
   "note": "REFUTED: data are sliced between first occurrences, so ungrouped data are misassigned (witness). _partial: proved for data grouped by temperature."
  },
  {
   "property": "C90",
   "status": "partial",
   "theorems": [
    "C90_iterative_terminates_refuted",
    "C90_iterative_terminates_partial"
   ],
   "note": "REFUTED: a centre crack can jump past W/2, the square root becomes nan and no test ever stops the loop (witness: no number of passes suffices). _partial: terminates whenever a_final lies inside the plate."
  },
  {
   "property": "C91",
   "status": "partial",
   "theorems": [
    "C91_iterative_final_refuted",
    "C91_iterative_final_partial",
    "C91_iterative_stages_partial"
   ],
   "note": "REFUTED with a_final: the critical length is reported instead of the length reached (witness). _partial: without a_final it is strictly less than the length reached; stage counts add up."
  },
  {
   "property": "C92",
   "status": "partial",
   "theorems": [
    "C92_no_growth_refuted",
    "C92_no_growth_partial"
   ],
   "note": "REFUTED with a notch: a positive number of cycles is reported because a_initial is not extended by the notch depth. _partial: proved without a notch."
  },
  {
   "property": "C93",
   "status": "proved",
   "theorems": [
    "C93_competing_risks_quantile",
    "C93_mixture_quantile",
    "C93_inverse_SF",
    "C93_reported_percentiles"
   ],
   "note": "Quantiles read from the interpolation table; DSZI is C55_quantile_partial. Proportions non-negative."
  },
  {
   "property": "C94",
   "status": "proved",
   "theorems": [
    "C94_mean_residual_life",
    "C94_infinite_mean_residual_life"
   ],
   "note": ""
  },
  {
   "property": "C95",
   "status": "partial",
   "theorems": [
    "C95_fitted",
    "C95_exclude_leaks_refuted",
    "C95_exclude_unchanged_partial",
    "C95_names"
   ],
   "note": "REFUTED: with fewer than 3 failures six names are appended to the caller's list (witness: a later call leaves out Weibull_3P). _partial: unchanged with at least 3 failures. The fitted set is characterised in full (C95_fitted)."
  },
  {
   "property": "C96",
   "status": "partial",
   "theorems": [
    "C96_refuted",
    "C96_partial"
   ],
   "note": "REFUTED: with gamma < 0.01 the two-parameter fitter is called with its default method MLE while the reported method stays what the user chose. _partial: gamma >= 0.01 or method MLE."
  },
  {
   "property": "C97",
   "status": "proved",
   "theorems": [
    "C97_straight_line",
    "C97_weibull_normal"
   ],
   "note": ""
  },
  {
   "property": "C98",
   "status": "partial",
   "theorems": [
    "C98_errors",
    "C98_points",
    "C98_spacing_partial",
    "C98_refuted"
   ],
   "note": "REFUTED for the beta transform with alpha <> beta: the parameters are passed to scipy in the wrong order (C98_refuted). _partial: equal spacing for every other paper; number, bounds, order and errors in full."
  },
  {
   "property": "C99",
   "status": "partial",
   "theorems": [
    "C99_x_partial",
    "C99_y_partial",
    "C99_margins",
    "C99_y_refuted",
    "C99_x_refuted"
   ],
   "note": "REFUTED: a single plotting position below spacing/(1+spacing) gives a negative lower y-limit; equal non-positive x on Normal and Gumbel plots give limits 0 and 2x. _partial: all other cases."
  },
  {
   "property": "C100",
   "status": "partial",
   "theorems": [
    "C100_accuracy",
    "C100_nonneg",
    "C100_domain_partial",
    "C100_domain_refuted"
   ],
   "note": "REFUTED for 'any pair': the grid from the extreme quantiles of both may leave the domain of one of them, e.g. Normal(40,10) against Weibull(100,2) (C100_domain_refuted). _partial: the exact condition for a value to be returned. Accuracy for normal pairs and non-negativity in full. Mixture and competing risks objects are not modelled."
  },
  {
   "property": "C101",
   "status": "partial",
   "theorems": [
    "C101_results_refuted",
    "C101_results_partial",
    "C101_samples",
    "C101_not_same_kind"
   ],
   "note": "REFUTED: Exponential_2P is built with the lambda of Exponential_1P (C101_results_refuted). _partial: without it. Fit_Everything is an oracle (any ranking, any parameters)."
  },
  {
   "property": "C102",
   "status": "proved",
   "theorems": [
    "C102_levels",
    "C102_aligned",
    "C102_use"
   ],
   "note": "Random draws, shuffles and uniform numbers are universally quantified. Stresses are positive."
  },
  {
   "property": "C103",
   "status": "proved",
   "theorems": [
    "C103_shading",
    "C103_errors"
   ],
   "note": ""
  },
  {
   "property": "C104",
   "status": "proved",
   "theorems": [
    "C104_limits",
    "C104_widens",
    "C104_goodness"
   ],
   "note": "Covariance matrix (autograd Hessian) and optimizers are universally quantified."
  },
  {
   "property": "C105",
   "status": "partial",
   "theorems": [
    "C105_accepted",
    "C105_rejected",
    "C105_fitted_partial",
    "C105_ties_refuted",
    "C105_hessian_refuted"
   ],
   "note": "REFUTED for 'any other input is fitted': two or more equal failures at a stress raise ValueError in the fit of that stress's group; a failed optimisation with a singular Hessian raises TypeError. _partial: any other acceptable input is fitted."
  },
  {
   "property": "C106",
   "status": "partial",
   "theorems": [
    "C106_use",
    "C106_rows",
    "C106_original",
    "C106_acceleration",
    "C106_normal_refuted"
   ],
   "note": "REFUTED for the Normal distribution: its acceleration factor does not scale time (C106_normal_refuted). Other distributions in full."
  },
  {
   "property": "C107",
   "status": "partial",
   "theorems": [
    "C107_named_partial",
    "C107_default",
    "C107_refuted"
   ],
   "note": "REFUTED for several optimizers and positive log-likelihoods (short times): the answer nearest to zero is returned (C107_refuted). _partial: one named optimizer, or no positive log-likelihood. The default (first success) in full. The optimizers are universally quantified."
  },
  {
   "property": "C108",
   "status": "partial",
   "theorems": [
    "C108_single",
    "C108_dual_partial",
    "C108_exact",
    "C108_aligned",
    "C108_aligned_refuted"
   ],
   "note": "REFUTED for dual stress data whose stresses are aligned on the model's scale, e.g. both raised together: accepted, but the matrix is singular and the parameters are not determined (C108_aligned, C108_aligned_refuted). _partial: dual stress, not aligned. Single stress and exact recovery in full."
  },
  {
   "property": "C109",
   "status": "partial",
   "theorems": [
    "C109_fitted",
    "C109_order",
    "C109_loglik_partial",
    "C109_errors",
    "C109_use_partial",
    "C109_use_refuted",
    "C109_loglik_refuted"
   ],
   "note": "REFUTED: best_model_at_use_stress of the dual stress Lognormal models has mu = 1/life and of the dual stress Exponential models Lambda = life (C109_use_refuted); sorting by log-likelihood takes the absolute value (C109_loglik_refuted). _partial: the other models; no positive log-likelihood. What is fitted, order by BIC and AICc and errors in full. pandas' sort is any ascending rearrangement."
  },
  {
   "property": "C110",
   "status": "partial",
   "theorems": [
    "C110_same_population",
    "C110_likelihood",
    "C110_best_fit",
    "C110_ranking",
    "C110_threshold_refuted",
    "C110_threshold_partial"
   ],
   "note": "REFUTED for the three-parameter fitters: a location below 0.01 time units is replaced by 0 (C110_threshold_refuted). _partial: when the location is on the same side of 0.01 in both units. Likelihoods, best fits and rankings in full, for every model with a scale."
  },
  {
   "property": "C111",
   "status": "proved",
   "theorems": [
    "C111_lognormal",
    "C111_weibull",
    "C111_lognormal_best",
    "C111_weibull_best",
    "C111_location"
   ],
   "note": "Proved for the likelihoods the fitters maximise and their best fits."
  },
  {
   "property": "C112",
   "status": "proved",
   "theorems": [
    "C112_special_case",
    "C112_never_worse"
   ],
   "note": "With failures at time zero only the ZI model as a special case of DSZI is claimed."
  },
  {
   "property": "C113",
   "status": "partial",
   "theorems": [
    "C113_exactly_one",
    "C113_exponential",
    "C113_forced_beta",
    "C113_normal_complete",
    "C113_exponential_2P_refuted",
    "C113_weibull_3P_refuted"
   ],
   "note": "Existence and uniqueness in full for Weibull_2P, Gumbel_2P, Normal_2P, Lognormal_2P, Loglogistic_2P and Exponential_1P, and closed forms. REFUTED for three-parameter models: Exponential_2P has no best fit and the likelihood of Weibull_3P is unbounded whenever the smallest time is a failure. Missing: Gamma, Beta, mixture, competing risks, DSZI."
  },
  {
   "property": "C114",
   "status": "proved",
   "theorems": [
    "C114_tables",
    "C114_positions",
    "C114_kaplan_meier",
    "C114_nelson_aalen",
    "C114_steps",
    "C114_rank_adjustment"
   ],
   "note": ""
  },
  {
   "property": "C115",
   "status": "partial",
   "theorems": [
    "C115_order_partial",
    "C115_order_refuted"
   ],
   "note": "REFUTED when a failure and a censoring coincide: the sort used is not stable, so two admissible sorts of one data set give different estimates (C115_order_refuted). _partial: no such coincidence, or sorts that put failures first."
  },
  {
   "property": "C116",
   "status": "proved",
   "theorems": [
    "C116_kaplan_meier",
    "C116_nelson_aalen",
    "C116_rank_adjustment"
   ],
   "note": ""
  },
  {
   "property": "C117",
   "status": "proved",
   "theorems": [
    "C117_weibull_exponential",
    "C117_gamma_exponential",
    "C117_lognormal_normal",
    "C117_weibull_gumbel",
    "C117_beta_uniform",
    "C117_beta_mirror"
   ],
   "note": ""
  },
  {
   "property": "C118",
   "status": "proved",
   "theorems": [
    "C118_order_competing_risks",
    "C118_order_mixture",
    "C118_single_risk",
    "C118_equal_components",
    "C118_exponential_risks",
    "C118_weibull_risks"
   ],
   "note": ""
  },
  {
   "property": "C119",
   "status": "proved",
   "theorems": [
    "C119_remaining",
    "C119_new",
    "C119_ageing",
    "C119_exponential",
    "C119_weibull",
    "C119_no_mean"
   ],
   "note": "scipy's quad is an argument assumed to return the integral from t to infinity where it exists (quad_right)."
  },
  {
   "property": "C120",
   "status": "proved",
   "theorems": [
    "C120_mean",
    "C120_variance",
    "C120_shape",
    "C120_excess",
    "C120_missing",
    "C120_percentiles"
   ],
   "note": "All distributions, including Gumbel (Euler's constant, zeta(2) = pi^2/6, zeta(4) = pi^4/90 proved)."
  },
  {
   "property": "C121",
   "status": "partial",
   "theorems": [
    "C121_parametric",
    "C121_related",
    "C121_semiparametric_value",
    "C121_semiparametric_partial",
    "C121_semiparametric_refuted"
   ],
   "note": "Parametric part in full. REFUTED for QQ_plot_semiparametric with censored data: the quantiles of one minus the estimated probabilities are paired in reverse, so failure i meets the quantile of 1 - q of the i-th failure from the end (C121_semiparametric_value says exactly what is drawn). _partial: complete data with method RA, where both agree."
  },
  {
   "property": "C122",
   "status": "partial",
   "theorems": [
    "C122_parametric_partial",
    "C122_parametric_refuted",
    "C122_diagonal",
    "C122_semiparametric"
   ],
   "note": "REFUTED for distributions with different supports: the common grid leaves the support of one and ValueError is raised, e.g. Normal against Exponential. C122_parametric_partial characterises exactly when it succeeds."
  },
  {
   "property": "C123",
   "status": "partial",
   "theorems": [
    "C123_functions",
    "C123_density_partial",
    "C123_density_refuted",
    "C123_order"
   ],
   "note": "REFUTED for PDF and HF of unsorted failures: differences are taken in the order given. _partial: failures given in increasing order. CDF, SF and CHF in full (order: no failure coincides with a censoring)."
  },
  {
   "property": "C124",
   "status": "partial",
   "theorems": [
    "C124_half_line_partial",
    "C124_leaves",
    "C124_default",
    "C124_signed",
    "C124_beta",
    "C124_refuted",
    "C124_spacing"
   ],
   "note": "REFUTED: a shifted distribution asked to start between its location and the 0.01 per cent quantile gets an x value below the location; a negative xmax and (Beta) an xmin above 1 are not refused. C124_half_line_partial and C124_leaves give the exact condition; Normal, Gumbel, Beta and the default limits in full."
  },
  {
   "property": "C125",
   "status": "partial",
   "theorems": [
    "C125_level",
    "C125_type",
    "C125_traces",
    "C125_x_values",
    "C125_accepted_partial",
    "C125_errors",
    "C125_quantile_refused",
    "C125_refuted"
   ],
   "note": "REFUTED: numpy.float64 numbers are refused, so CDF(quantile(q)) raises ValueError and the quantile lines of PP_plot_parametric always fail; -1 is accepted as a number and refused as a list. Level, type of interval, traced points, x values and errors in full; acceptance _partial."
  },
  {
   "property": "C126",
   "status": "partial",
   "theorems": [
    "C126_points",
    "C126_start",
    "C126_limits",
    "C126_wider",
    "C126_verdict",
    "C126_improving_partial",
    "C126_improving_refuted",
    "C126_band"
   ],
   "note": "scipy's curve_fit is an argument. REFUTED for the text of one verdict: a straight line fitted without error (beta = 1, standard error 0) is announced as IMPROVING since Beta is less than 1; C126_improving_partial: any other case. Everything else in full."
  },
  {
   "property": "C127",
   "status": "proved",
   "theorems": [
    "C127_order",
    "C127_transform",
    "C127_observation"
   ],
   "note": ""
  },
  {
   "property": "C128",
   "status": "partial",
   "theorems": [
    "C128_region",
    "C128_levels",
    "C128_nested",
    "C128_units",
    "C128_limits",
    "C128_grid_partial",
    "C128_grid_refuted",
    "C128_errors"
   ],
   "note": "The fit and matplotlib's contour are arguments. REFUTED for the grid: it runs from a quarter of the lower limit to four times the upper one, so for the mu of a Normal, Gumbel or Lognormal near or below 0 it need not contain even the estimate (C128_grid_refuted: Lognormal, estimate -1/2, limits -1 and 0); C128_grid_partial: parameters with a lower limit of at least 0. Only the first line of each contour sets the limits of the axes (C128_limits). A CI that is a number but no Python float is refused (C128_levels, C128_errors)."
  },
  {
   "property": "C129",
   "status": "proved",
   "theorems": [
    "C129_accepts",
    "C129_refused",
    "C129_capitals",
    "C129_again"
   ],
   "note": "Arguments outside the classes listed in the model (for example a CI that is not a number) are not represented. numpy's conversion of the lists is the identity."
  },
  {
   "property": "C130",
   "status": "partial",
   "theorems": [
    "C130_rows",
    "C130_order",
    "C130_widens",
    "C130_request",
    "C130_produced_partial",
    "C130_exponential",
    "C130_produced_refuted",
    "C130_false_refuted"
   ],
   "note": "The fit is an argument. REFUTED twice. quantiles=False, documented as 'no quantiles will be calculated', is passed on by the checks and refused after the fit, as is any string other than auto, default and on (C130_false_refuted). For the Exponential distribution the table is refused exactly when the upper limit of the rate is ten times the estimate or more (C130_exponential, C130_produced_refuted). C130_produced_partial: the other distributions, for a covariance that is one and quantiles below 1 - 1e-50."
  },
  {
   "property": "C131",
   "status": "partial",
   "theorems": [
    "C131_points_partial",
    "C131_line",
    "C131_on_line_partial",
    "C131_limits",
    "C131_accepts",
    "C131_hidden_partial",
    "C131_hidden_refuted",
    "C131_points_refuted"
   ],
   "note": "The fitters and the order of ties are arguments; the bounds around the line are C66-C70. REFUTED twice. Exponential_probability_plot_Weibull_Scale adds 0.009 to every time when gamma is fitted, whatever the unit of time, so the points leave the line (C131_points_refuted; C131_points_partial and C131_on_line_partial: the other eight plots). Gamma_probability_plot subtracts gamma from the points also when the distribution is not shown, although it prints that fit_gamma has been reset to False (C131_hidden_refuted; C131_hidden_partial: the other plots)."
  },
  {
   "property": "C132",
   "status": "proved",
   "theorems": [
    "C132_competing_risks",
    "C132_mixture",
    "C132_density",
    "C132_order",
    "C132_constructs",
    "C132_no_mean"
   ],
   "note": "scipy's simpson is modelled (version 1.15 or later, as setup.py asks for). The error bound is for integrands with a bounded rate of change. C132_no_mean: a model whose component has no mean (Loglogistic with beta <= 1) reports a finite number all the same, since only the range of the grid is integrated; the distribution itself says that there is none."
  },
  {
   "property": "C133",
   "status": "partial",
   "theorems": [
    "C133_competing_risks_partial",
    "C133_mixture_partial",
    "C133_refuted",
    "C133_order"
   ],
   "note": "REFUTED beyond the largest 1 - 1e-10 quantile: the grid then runs backwards and the reported value is negative, for every model without a Beta component (C133_refuted). Before it the value is right to within a step of the grid except for what lies after the quantile (the _partial theorems); it never exceeds the true value by more than a step."
  },
  {
   "property": "C134",
   "status": "proved",
   "theorems": [
    "C134_arguments",
    "C134_samples",
    "C134_reproducible",
    "C134_consecutive",
    "C134_beta"
   ],
   "note": "The generator (its states, seeding, and one draw of each standard member) is an argument, so the claim is about what the library makes of scipy's draws. The loop of the Beta distribution has no bound on its passes: it ends exactly when enough draws below 1 come (C134_beta)."
  },
  {
   "property": "C135",
   "status": "proved",
   "theorems": [
    "C135_competing_risks",
    "C135_mixture",
    "C135_close"
   ],
   "note": "The source of uniform numbers is an argument with values in [0, 1). C135_close bounds the distance between the share and the distribution function for densities with a bounded rate of change; no sample lies outside the smallest 1e-10 and largest 1 - 1e-10 quantile of the components. A mixture whose density is zero at every point of the table is refused."
  },
  {
   "property": "C136",
   "status": "partial",
   "theorems": [
    "C136_unseeded_partial",
    "C136_seed_reused",
    "C136_seeded_refuted"
   ],
   "note": "REFUTED with a seed: the base distribution is called with the same seed and starts from the numbers that decided who fails, so for Weibull or Loglogistic bases (which scipy draws by inverting the distribution function) a failure time is the quantile at such a number (C136_seed_reused); with half the items dead on arrival a single sample never fails before the median of the base (C136_seeded_refuted). Proved without a seed (C136_unseeded_partial)."
  },
  {
   "property": "C137",
   "status": "partial",
   "theorems": [
    "C137_least_squares",
    "C137_MLE_partial",
    "C137_MLE_runs",
    "C137_methods",
    "C137_errors",
    "C137_checks",
    "C137_best_refuted",
    "C137_default_refuted",
    "C137_dropped",
    "C137_negative_refuted"
   ],
   "note": "REFUTED for maximum likelihood: with optimizer='best' (or 'all') the grouped fitter runs TNC only and can return a less likely estimate (C137_best_refuted); by default it gives up after TNC and returns the least squares estimate under the name of maximum likelihood where Fit_Weibull_2P goes on to three more optimizers (C137_default_refuted); times below zero are dropped silently where Fit_Weibull_2P raises (C137_negative_refuted). Proved: least squares in full, maximum likelihood when the optimizer settles at once (C137_MLE_partial), and what is returned in every other case (C137_MLE_runs)."
  },
  {
   "property": "C138",
   "status": "partial",
   "theorems": [
    "C138_range",
    "C138_keeps_partial",
    "C138_history_partial",
    "C138_probability",
    "C138_density",
    "C138_hazard",
    "C138_cumulative_hazard",
    "C138_blank_refuted"
   ],
   "note": "The limits chosen by matplotlib itself while drawing are an argument, assumed to contain the points of the curve where a theorem needs it. REFUTED: a view of exactly 0 to 1 in both directions is taken for fresh axes, so that the next plot replaces the limits and can hide all of the curve before (C138_blank_refuted). On any other view nothing is hidden to the left, right or below, and above only where the top is left to matplotlib (C138_keeps_partial), for any number of plots (C138_history_partial)."
  },
  {
   "property": "C139",
   "status": "partial",
   "theorems": [
    "C139_groups",
    "C139_dashed_partial",
    "C139_dashed_refuted",
    "C139_use",
    "C139_no_use",
    "C139_limits_partial",
    "C139_margins",
    "C139_made_partial",
    "C139_many_refuted"
   ],
   "note": "REFUTED: for Exponential fitters the dashed line is an Exponential distribution although the one fitted to the stress alone is a Weibull distribution with another shape (C139_dashed_refuted); with more than ten stresses, the use stress included, matplotlib's ten default colours run out and the fitter raises IndexError (C139_many_refuted). Proved: the points and solid lines (C139_groups), dashed lines of the others, the use stress, the axes, and that up to ten stresses are drawn (C139_made_partial)."
  },
  {
   "property": "C140",
   "status": "partial",
   "theorems": [
    "C140_failures",
    "C140_line",
    "C140_line_reaches_partial",
    "C140_line_reaches_refuted",
    "C140_axes_partial",
    "C140_use_refuted",
    "C140_use_refuted_case",
    "C140_shown_partial",
    "C140_made_partial",
    "C140_many_refuted",
    "C140_surface"
   ],
   "note": "REFUTED: a use stress above the test stresses is off the chart when one stress is plotted (C140_use_refuted, with a case), the line does not reach the lower stresses when they are far apart, e.g. 1 and 50 (C140_line_reaches_refuted), and more than ten stresses raise IndexError (C140_many_refuted). Proved: the failures (C140_failures), the points of the line (C140_line), where the line reaches (C140_line_reaches_partial), the axes when life falls and the use stress is not above the test stresses (C140_axes_partial, C140_shown_partial), and the surface for two stresses (C140_surface)."
  },
  {
   "property": "C141",
   "status": "partial",
   "theorems": [
    "C141_accuracy",
    "C141_form",
    "C141_relative",
    "C141_sign_partial",
    "C141_sign_refuted",
    "C141_opposite",
    "C141_again",
    "C141_order_partial",
    "C141_order_refuted",
    "C141_documented_partial",
    "C141_documented_refuted",
    "C141_options",
    "C141_special",
    "C141_titles"
   ],
   "note": "The text is modelled by its notation and digits, floats by reals. REFUTED: with fewer than 4 decimals a number between 0.0001 and half a unit of the last place is shown as zero; the legends of the probability plots use 3, so that a failure rate of 0.0004 reads 0.0 (C141_sign_refuted) and looks smaller than 0.00005, which reads 5e-05 (C141_order_refuted; also from 10^9 on); 10^20 is documented to read 1e+20 but is shown with all digits (C141_documented_refuted). Proved: accuracy, notation, relative error, signs and order with 4 decimals or more, the other examples, other arguments, and titles."
  },
  {
   "property": "C142",
   "status": "proved",
   "theorems": [
    "C142_shows",
    "C142_click",
    "C142_since_click",
    "C142_move"
   ],
   "note": "The widgets of matplotlib are modelled by what the code relies on: a slider clips to its range and calls its observers in order, a new slider in the same place replaces the old one, hidden sliders receive no events. Curves are given by the distribution that draws them."
  },
  {
   "property": "C143",
   "status": "partial",
   "theorems": [
    "C143_arguments",
    "C143_rejects",
    "C143_hover",
    "C143_lines",
    "C143_click_partial",
    "C143_click_refuted"
   ],
   "note": "REFUTED: decimals=0 is accepted, but then every click raises TypeError (a string plus an int), and the texts while hovering are truncated towards zero (C143_click_refuted). Proved: the arguments, the texts and lines while hovering, labels with any other number of decimals (C143_click_partial). The selected point is an argument (mplcursors chooses it); dates are not modelled."
  },
  {
   "property": "C144",
   "status": "proved",
   "theorems": [
    "C144_distribution",
    "C144_data",
    "C144_goodness",
    "C144_goodness_exists",
    "C144_AD",
    "C144_quantiles",
    "C144_rows",
    "C144_mu",
    "C144_bracket",
    "C144_fallback",
    "C144_support",
    "C144_errors",
    "C144_succeeds"
   ],
   "note": "The least squares routine, scipy's minimize, the inverse of the matrix of second derivatives and the sort of pandas are universally quantified oracles; what is assumed of them (returns as many numbers as asked, stays within the bounds) is stated in FullFitSpec. Gamma stores the errors of mu = ln(alpha), as the code does. Warnings, printing and plots are left out."
  },
  {
   "property": "C145",
   "status": "partial",
   "theorems": [
    "C145_least_squares_partial",
    "C145_rank_regression_partial",
    "C145_rank_regression_refuted",
    "C145_three_refuted"
   ],
   "note": "REFUTED for the three-parameter fitters (C145_three_refuted: a search that ends at a location below 0.01 is replaced by the two-parameter fit, even if the least squares fit is more likely) and for rank regression when the log-likelihoods are positive (C145_rank_regression_refuted: the guess is chosen by the absolute value of the log-likelihood). Proved: all other fitters against least squares, three-parameter fits that keep their location, and rank regression when both log-likelihoods are not positive."
  },
  {
   "property": "C146",
   "status": "partial",
   "theorems": [
    "C146_rank_regression_partial",
    "C146_better_partial",
    "C146_nonlinear",
    "C146_refuted"
   ],
   "note": "REFUTED: Fit_Exponential_2P, Fit_Gamma_2P and Fit_Beta_2P document RRX and RRY but always use non-linear least squares (C146_refuted). Proved: the fitters with rank regression use the regression asked for and name it; LS takes the more likely one when both log-likelihoods are not positive (C146_better_partial); the others use and name non-linear least squares."
  },
  {
   "property": "C147",
   "status": "proved",
   "theorems": [
    "C147_crow",
    "C147_duane",
    "C147_duane_line",
    "C147_errors",
    "C147_model",
    "C147_succeeds",
    "C147_order",
    "C147_target",
    "C147_units"
   ],
   "note": "np.polyfit is the solution of the normal equations. Times that are all equal, targets that are not positive and a model with constant MTBF and a target give results that are not finite and are left out."
  },
  {
   "property": "C148",
   "status": "partial",
   "theorems": [
    "C148_points",
    "C148_curve",
    "C148_failures_shown",
    "C148_target_linear",
    "C148_no_target",
    "C148_target_log_partial",
    "C148_target_log_refuted"
   ],
   "note": "REFUTED on log axes: the lower limit of the MTBF axis ignores the target, so the whole target line can be off the chart (C148_target_log_refuted); the lower limit of the time axis compares a time with the target MTBF instead of the time to target. Proved: failures and curve on both scales, the target line on linear axes, and its corner on log axes when the target is not below the lowest observed MTBF and the time to target not below both the first failure and the target (C148_target_log_partial)."
  },
  {
   "property": "C149",
   "status": "proved",
   "theorems": [
    "C149_data",
    "C149_distribution",
    "C149_goodness",
    "C149_goodness_exists",
    "C149_AD",
    "C149_rows",
    "C149_errors",
    "C149_bracket",
    "C149_start",
    "C149_sensible",
    "C149_succeeds"
   ],
   "note": "Least squares, optimizers, the inverse of the matrix of second derivatives, pandas' sort and the kernel density estimate behind the dividing line are arguments, constrained only by the hypotheses in each statement. When ZI is estimated as exactly 0 although there are failures at zero the log-likelihood leaves them out (C58). Data whose halves have fewer than two different failures are refused (C62_ties_refuted)."
  },
  {
   "property": "C150",
   "status": "partial",
   "theorems": [
    "C150_no_loss",
    "C150_fresh",
    "C150_refusal",
    "C150_consent",
    "C150_ends",
    "C150_waits",
    "C150_errors",
    "C150_options",
    "C150_new_name_partial",
    "C150_posix_refuted",
    "C150_relative_refuted",
    "C150_extension_refuted",
    "C150_unreadable_refuted"
   ],
   "note": "REFUTED: on Linux and macOS the new name is joined with a backslash, so the new file lands in the parent directory (C150_posix_refuted); on Windows a path without a directory becomes one in the root of the drive (C150_relative_refuted); a name with a second dot loses its extension and pandas raises (C150_extension_refuted); a file that may be written but not read is overwritten without a question (C150_unreadable_refuted). Proved in full: one file changes, a readable file only with consent, a refusal keeps it, the questions and the search end, the options. The new name is proved for Windows paths with a directory and one dot (C150_new_name_partial)."
  },
  {
   "property": "C151",
   "status": "partial",
   "theorems": [
    "C151_FR",
    "C151_FR_again",
    "C151_FNRN",
    "C151_XCN_partial",
    "C151_XCN_default",
    "C151_mixed_refuted",
    "C151_missing_refuted",
    "C151_own_codes_refuted"
   ],
   "note": "REFUTED for XCN with some codes: a text and a number (numpy turns both into texts and the number is not recognised, C151_mixed_refuted); a text that pandas reads as missing, such as NA (C151_missing_refuted); codes of one's own cannot be kept by xlsx_to_XCN, which reads its own output with the default codes (C151_own_codes_refuted). Proved: FR and FNRN for all data, and XCN when both codes are texts or both numbers, survive pandas, and the codes asked for are documented ones (C151_XCN_partial)."
  },
  {
   "property": "C152",
   "status": "partial",
   "theorems": [
    "C152_FR",
    "C152_XCN_partial",
    "C152_FNRN_partial",
    "C152_lengths",
    "C152_XCN_rows_refuted",
    "C152_FNRN_rows_refuted",
    "C152_missing_texts"
   ],
   "note": "REFUTED: blanks are removed from each column separately and only the lengths are compared, so blanks in different rows shift the entries and observations are read that no row has (C152_XCN_rows_refuted, C152_FNRN_rows_refuted). Proved: rows that are complete or blank, columns with different numbers of entries, and FR."
  },
  {
   "property": "C153",
   "status": "partial",
   "theorems": [
    "C153_curve",
    "C153_monotone",
    "C153_bands_partial",
    "C153_view_partial",
    "C153_NelsonAalen_refuted",
    "C153_RankAdjustment_refuted",
    "C153_runs",
    "C153_rejects"
   ],
   "note": "REFUTED: the top of the axes of a cumulative hazard is set from the point before the last, so the last step of NelsonAalen and RankAdjustment, which is finite, can be off the chart (C153_NelsonAalen_refuted, C153_RankAdjustment_refuted); and the band of Kaplan-Meier and Nelson-Aalen is not around the last point (C16_kaplan_meier_steps_refuted). Proved: the line is the estimate, it is monotone, the band is around every other point, every other point is seen."
  },
  {
   "property": "C154",
   "status": "partial",
   "theorems": [
    "C154_time",
    "C154_time_view_old",
    "C154_time_view_new_partial",
    "C154_time_view_refuted",
    "C154_ratio",
    "C154_ratio_new_partial",
    "C154_ratio_old_refuted",
    "C154_ratio_view_old",
    "C154_ratio_view_refuted",
    "C154_runs"
   ],
   "note": "REFUTED: the mark of the time plot can be beyond the axes (C154_time_view_refuted; exact condition for q=1 in C154_time_view_old, C154_time_view_new_partial for q=0 and alpha >= 1/3); for q=1 the plot shows the opposite of 'dearer failures, earlier replacement' (C154_ratio_old_refuted), for q=0 it holds for beta >= 1 (C154_ratio_new_partial); the line of the ratio plot can leave the axes (C154_ratio_view_refuted, exact condition for q=1 in C154_ratio_view_old). The rest is proved: C154_time, C154_ratio, C154_runs."
  },
  {
   "property": "C155",
   "status": "partial",
   "theorems": [
    "C155_line",
    "C155_view_partial",
    "C155_view_refuted",
    "C155_runs",
    "C155_parametric"
   ],
   "note": "REFUTED: for CI below 0.5 the band is on the wrong side of the line and the line can leave the axes (C155_view_refuted). C155_view_partial: proved for CI from 0.5 on. The rest is proved: C155_line, C155_parametric, C155_runs."
  },
  {
   "property": "C156",
   "status": "partial",
   "theorems": [
    "C156_maximum_likelihood",
    "C156_given",
    "C156_points",
    "C156_line",
    "C156_trend_refuted",
    "C156_trend_partial",
    "C156_runs"
   ],
   "note": "REFUTED in one part: at every confidence level there are failure times with an improving trend whose estimated intensity rises, and with a worsening trend whose estimated intensity falls (C156_trend_refuted). C156_trend_partial: it does not rise if the mean age at failure is at most 1/e of the time observed. The rest is proved: C156_maximum_likelihood, C156_given, C156_points, C156_line, C156_runs."
  },
  {
   "property": "C157",
   "status": "proved",
   "theorems": [
    "C157_meaning",
    "C157_km_value",
    "C157_km_step",
    "C157_km_zero",
    "C157_km_complete",
    "C157_km_bounds",
    "C157_na_hazard",
    "C157_na_step",
    "C157_mcf_value",
    "C157_mcf_rises"
   ],
   "note": "each arithmetic operation of the loops is followed by Flocq's rounding to nearest even in binary64 with gradual underflow; the relative error is at most m * 2^-52 for m roundings (C157_meaning). np.exp and the half width of the bounds are arbitrary up to monotonicity and sign."
  },
  {
   "property": "C158",
   "status": "proved",
   "theorems": [
    "C158_range",
    "C158_rises",
    "C158_complete",
    "C158_uncensored",
    "C158_runs",
    "C158_censored"
   ],
   "note": "as C157; the constant a is any double between 0 and 1. C158_censored compares the ranks with those of exact arithmetic (adjusted_ranks of NonparModel), which are in C14."
  },
  {
   "property": "C159",
   "status": "proved",
   "theorems": [
    "C159_rows",
    "C159_value",
    "C159_warning",
    "C159_quiet",
    "C159_exponential",
    "C159_boundary",
    "C159_blank"
   ],
   "note": "the fits at single stresses are arbitrary with positive shape. C159_boundary: the warning can be printed with +50.0% as the largest percentage shown, as the threshold is on the unrounded change. A text is modelled by its digits; -0.0% and 0.0% are not distinguished."
  },
  {
   "property": "C160",
   "status": "partial",
   "theorems": [
    "C160_forward_partial",
    "C160_round_trip_partial",
    "C160_lists_partial",
    "C160_errors",
    "C160_refuted"
   ],
   "note": "REFUTED: the name X of the x axis, which is accepted, gives the y axis, and a list of values cannot be converted on the y axis: the whole list is passed instead of the item, ValueError (C160_refuted). Proved for the names x and y and, forward, for lists on x. matplotlib's transforms are modelled for axes whose directions are independent."
  },
  {
   "property": "C161",
   "status": "partial",
   "theorems": [
    "C161_percent_partial",
    "C161_percent_refuted",
    "C161_two_thirds_refuted",
    "C161_default_ticks",
    "C161_x_label",
    "C161_x_order",
    "C161_locator",
    "C161_double_refuted"
   ],
   "note": "REFUTED for percentages from 1 on: where rounding to 8 decimals raises the percentage, the label is 1 too low (C161_percent_refuted): 2/3 is labelled 65.66666667% (C161_two_thirds_refuted) and, in double precision, the tick 0.29 is labelled 28.0% (C161_double_refuted). C161_percent_partial: right below 1%, where it is not raised, and where there are no more than 8 decimals, so for all default ticks (C161_default_ticks). The x axis and the locator are proved in full."
  },
  {
   "property": "C162",
   "status": "partial",
   "theorems": [
    "C162_shown_partial",
    "C162_history",
    "C162_refused",
    "C162_bold_refuted"
   ],
   "note": "REFUTED for a terminal that is already bold: code 21 for not bold means double underlining in ECMA-48, bold stays on (C162_bold_refuted). C162_shown_partial, C162_history: from a plain terminal every text looks as asked, on terminals of both kinds. The terminal (control sequences ESC [ n m) is part of the specification. str.upper is modelled on ASCII."
  },
  {
   "property": "C163",
   "status": "partial",
   "theorems": [
    "C163_two_partial",
    "C163_fitted",
    "C163_binary_partial",
    "C163_each",
    "C163_refuted"
   ],
   "note": "REFUTED for three proportions: 30%, 60%, 10% are refused because their doubles do not add to exactly 1 from the left, the same in another order are accepted (C163_refuted). Proved: any two proportions a and 1 - a, rounded to doubles, are accepted (C163_two_partial), so every fitted mixture can be built (C163_fitted); for multiples of 2^-52 the check is exact (C163_binary_partial). np.sum is modelled for fewer than eight numbers."
  },
  {
   "property": "C164",
   "status": "partial",
   "theorems": [
    "C164_panel",
    "C164_stats",
    "C164_dszi_partial",
    "C164_dszi_refuted"
   ],
   "note": "REFUTED for DSZI models: plot() of a DSZI model raises TypeError exactly if its base is a Loglogistic distribution with beta <= 4 or a Beta distribution with alpha or beta <= 1, as the missing statistic is a text and is rounded without a check (C164_dszi_refuted, C164_dszi_partial). Proved for the distributions: all nine texts, from the moments as integrals to the decimals shown (C164_panel), and stats() (C164_stats)."
  },
  {
   "property": "C165",
   "status": "proved",
   "theorems": [
    "C165_reliability",
    "C165_time",
    "C165_paper",
    "C165_exponential"
   ],
   "note": "The region is stated with the even-odd rule for polygons (BandSpec.inside); the half-open convention of the rule decides the points on the upper edge and at the last time."
  },
  {
   "property": "C166",
   "status": "partial",
   "theorems": [
    "C166_value",
    "C166_unchanged",
    "C166_new_array",
    "C166_history",
    "C166_show_plot_partial",
    "C166_show_plot_refuted",
    "C166_competing_risks",
    "C166_mixture"
   ],
   "note": "REFUTED for show_plot: PDF and HF return values above 10^100 (and inf) as 10^100 if a plot is shown, and unchanged if not (C166_show_plot_refuted); CDF, SF and CHF, and PDF and HF below 10^100, return the same (C166_show_plot_partial). Proved: independence of the history (C166_history, C166_value), the values for competing risks and mixtures after any history (C166_competing_risks, C166_mixture), arrays of the caller are not changed (C166_unchanged), results are new arrays (C166_new_array)."
  },
  {
   "property": "C167",
   "status": "partial",
   "theorems": [
    "C167_right_censored",
    "C167_threshold",
    "C167_bad_seed",
    "C167_numbers",
    "C167_history",
    "C167_unseeded_refuted",
    "C167_numbers_ALT",
    "C167_levels",
    "C167_prefix"
   ],
   "note": "REFUTED without a seed: make_ALT_data calls np.random.seed(None), so it is not reproducible after np.random.seed(s) by the user (C167_unseeded_refuted) and its result never depends on the state of the generator (C167_history). Proved: the seeds of make_right_censored_data (C167_right_censored, C167_threshold, C167_bad_seed, C167_numbers), of make_ALT_data (C167_history), where its numbers come from (C167_numbers_ALT, C167_levels), added stresses (C167_prefix). The generator is universally quantified; arrays are drawn number by number."
  },
  {
   "property": "C168",
   "status": "partial",
   "theorems": [
    "C168_time",
    "C168_reliability_partial",
    "C168_no_gap",
    "C168_range_refuted",
    "C168_curve_reliability_partial",
    "C168_curve_time"
   ],
   "note": "REFUTED for the range of the band on reliability: gamma_CI starts it at time 0.0001 if gamma=0, so for Gamma(1e-6,1,0) all that is drawn lies beyond the 0.99999 quantile (C168_range_refuted). Proved: the band on time for all six distributions (C168_time) without gaps (C168_no_gap), and the band on reliability unless the 0.99999 quantile of a Gamma distribution without location is below 0.0001 (C168_reliability_partial). The fitted function is between the lines (C168_curve_time, C168_curve_reliability_partial)."
  },
  {
   "property": "C169",
   "status": "partial",
   "theorems": [
    "C169_bars_partial",
    "C169_no_histogram",
    "C169_histogram_refuted",
    "C169_pp",
    "C169_axes_refuted",
    "C169_layout",
    "C169_layout_runs",
    "C169_quartiles",
    "C169_ties",
    "C169_one_bar",
    "C169_some_bar"
   ],
   "note": "REFUTED twice. (1) If the quartiles of the failures are equal the bin width is 0 and int(inf) raises OverflowError, so Fit_Everything fails with its default plots (C169_histogram_refuted: 1,2,2,2,2,2,3; C169_no_histogram: always). (2) The title of the P-P plots says the fitted probability is on the x axis; it is on the y axis (C169_axes_refuted). Proved: the bars for every data set with different quartiles (C169_bars_partial), the points and limits of the P-P plots with the Kaplan-Meier probability on the x axis (C169_pp), the subplots (C169_layout, C169_layout_runs). Which data have no histogram: those with a value such that at most a quarter are smaller and at most a quarter larger (C169_ties). The quartiles are those of linear interpolation (C169_quartiles). Every failure is in exactly one bar (C169_one_bar, C169_some_bar)."
  },
  {
   "property": "C170",
   "status": "partial",
   "theorems": [
    "C170_rows",
    "C170_remaining_partial",
    "C170_remaining_refuted",
    "C170_kaplan_meier",
    "C170_nelson_aalen",
    "C170_limits"
   ],
   "note": "REFUTED for ties: among items with the same time the rows count down although all were still there (C170_remaining_refuted). Proved: the number is right if all times differ (C170_remaining_partial) and in general above the number of items there after the time and at most the number there until then (C170_rows, also the rows and their order); the steps of the estimates (C170_kaplan_meier, C170_nelson_aalen); the bounds (C170_limits)."
  }
 ]
}