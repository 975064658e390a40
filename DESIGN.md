# Formal model of MatthewReid854/reliability in Rocq (Coq 8.16)

## 1. What is modelled, and how

The Python source in /repo is read as text; nothing in it is executed.  Each
modelled function is rewritten, branch by branch, as a Gallina function.  Every
definition in a `*Model.v` file carries a comment with the file and line range it
models and any simplification made.  Conventions:

* **Numbers.** IEEE doubles are idealised as Coq reals `R`.  Rounding, overflow and
  underflow are out of scope.  Where an exceptional value is part of the behaviour
  that is being modelled (division by zero giving `inf`/`nan` in numpy, or
  `ZeroDivisionError` in plain Python) it is represented explicitly, either as
  `Err ...` or in an extended number type; theorems never rely on Coq's totalised
  `x / 0`.
* **Discrete code** (converters, grouping, downsampling, array clean-up, sorting) is
  modelled over `nat`, `Z` or a type with a decidable total order, so it can also be
  *executed* inside Coq on the docstring examples.
* **Exceptions** are values: `result A := Ok a | Err e` with the Python exception
  class in `e`.
* **Sorting.** `np.sort`/`sort_values` is not specified to be stable.  Theorems about
  sorted data quantify over *every* sorted permutation of the input.
* **External numerical libraries.** scipy distribution methods are modelled by the
  mathematical function they document (e.g. `ss.weibull_min.cdf` is
  `1-exp(-((x-loc)/scale)^c)` above `loc` and 0 below).  Optimisers
  (`scipy.optimize.minimize`, `curve_fit`, `fsolve`), autograd and random number
  generators are universally quantified inputs of the theorems: the theorem holds for
  every result they could return (or every result satisfying a stated contract).
* **Plots** are modelled as data (lines, marks, axes) where a property is about them; colours, fonts, titles and printed text are not modelled unless a property is about them (rounding of printed numbers).

Files in `rocq/theories`:

* `<Area>Model.v`   the model (definitions only, with citations),
* `<Area>Spec.v`    small independent specifications (where one is needed),
* `<Area>Proofs.v`  lemmas,
* `<Area>Props.v`   the property theorems only: each is closed by `exact lemma`,
  followed by `Print Assumptions`, with an `Example` beside it exhibiting a
  non-trivial instance that satisfies its hypotheses.

When a property turns out to be false of the code, the theorem is named
`..._refuted` (it exhibits a witness), and the strongest true restriction is proved
next to it with suffix `_partial`.  Section 4 lists these findings.

## 2. Trusted base

* Coq 8.16.1's kernel.
* The axioms printed by `Print Assumptions` (see section 5): only those of the
  standard library's real numbers and classical logic, namely
  `ClassicalDedekindReals.sig_forall_dec`, `ClassicalDedekindReals.sig_not_dec`,
  `FunctionalExtensionality.functional_extensionality_dep`, and where Coquelicot is
  used `Classical_Prop.classic`.  No axiom is declared in this development.
* The reading of the Python source by hand (the citation comments make it checkable),
  and the idealisations of section 1.


## 3. Plan per property

For each property: the status, the model file and definitions, how it is proved, and the
theorems (in `rocq/theories/<file>`).  A status "partial" means that some theorem carries
the suffix `_partial` or `_refuted`; section 4 says what is missing or false.

* **C01 FR -> XCN -> FR round trip** (proved). *Model:* ConvertModel FR_to_XCN, XCN_to_FR. *Proof:* induction on the rows; the code classification is decided on the codes written.
  *Theorems* (`ConvertProps.v`): C01_FR_XCN_FR.
* **C02 FR -> FNRN -> FR round trip preserves the data** (proved). *Model:* ConvertModel FR_to_FNRN, FNRN_to_FR. *Proof:* runs of the sorted list are its distinct values with their counts; expansion gives back a permutation.
  *Theorems* (`ConvertProps.v`): C02_FR_FNRN_FR.
* **C03 FNRN form is canonical** (proved). *Model:* ConvertModel FR_to_FNRN. *Proof:* sortedness and distinctness of np.unique, uniqueness of a sorted list with given counts.
  *Theorems* (`ConvertProps.v`): C03_FNRN_canonical.
* **C04 FNRN -> XCN -> FNRN round trip** (proved). *Model:* ConvertModel FNRN_to_XCN, XCN_to_FNRN. *Proof:* induction on both columns, counts of each value preserved.
  *Theorems* (`ConvertProps.v`): C04_FNRN_XCN_FNRN.
* **C05 The conversion triangle commutes** (proved). *Model:* ConvertModel all converters. *Proof:* composition of C01-C04.
  *Theorems* (`ConvertProps.v`): C05_conversions_preserve_observations.
* **C06 XCN_to_FR neither loses nor invents data** (proved). *Model:* ConvertModel XCN_to_FR. *Proof:* count of each (value, code) pair by induction over the row loop.
  *Theorems* (`ConvertProps.v`, `ConvertProps2.v`): C06_XCN_to_FR_exact, C06_case_ignored, C06_only_case.
* **C07 xlsx_to_XCN honours the codes the user gave** (partial). *Model:* ConvertModel xlsx_to_XCN, recode, classify. *Proof:* witness sheet of two rows; case analysis on recognised codes for the partial theorem.
  *Theorems* (`ConvertProps.v`): C07_xlsx_to_XCN_codes_refuted, C07_xlsx_to_XCN_codes_partial.
* **C08 Plotting positions are Johnson's adjusted ranks** (proved). *Model:* NonparModel rank_loop, adjusted_ranks. *Proof:* the loop with a generalised accumulator equals the Johnson recurrence of NonparSpec.
  *Theorems* (`NonparProps.v`): C08_plotting_positions_johnson, C08_plotting_positions_succeed.
* **C09 Plotting positions are strictly increasing probabilities** (proved). *Model:* NonparModel positions. *Proof:* invariant of the rank loop: increment positive, rank at most n.
  *Theorems* (`NonparProps.v`): C09_plotting_positions_increasing.
* **C10 Plotting positions without censoring** (proved). *Model:* NonparModel positions. *Proof:* specialisation of the recurrence with no censored rows, induction.
  *Theorems* (`NonparProps.v`): C10_plotting_positions_uncensored.
* **C11 Unsorted plotting positions are the sorted ones in the user's order** (proved). *Model:* NonparModel plotting_positions_unsorted. *Proof:* permutation back to the original index; holds for every sorting of the rows.
  *Theorems* (`NonparProps.v`): C11_unsorted_positions.
* **C12 Kaplan-Meier is the product limit estimator** (partial). *Model:* NonparModel km_loop. *Proof:* product over items equals product over distinct times (NonparSpec product_limit), by grouping; witness for ties in the other order.
  *Theorems* (`NonparProps.v`): C12_kaplan_meier_product_limit_partial, C12_kaplan_meier_product_limit_no_mixed_ties_partial, C12_kaplan_meier_product_limit_refuted.
* **C13 Kaplan-Meier reliability is a survival function** (proved). *Model:* NonparModel kaplan_meier. *Proof:* loop invariant 0 <= KM <= previous.
  *Theorems* (`NonparProps.v`): C13_kaplan_meier_survival, C13_kaplan_meier_succeeds.
* **C14 Kaplan-Meier equals the empirical survival function without censoring** (proved). *Model:* NonparModel km_loop. *Proof:* telescoping product.
  *Theorems* (`NonparProps.v`): C14_kaplan_meier_uncensored.
* **C15 Kaplan-Meier confidence limits bracket the estimate** (proved). *Model:* NonparModel greenwood, clip_*. *Proof:* non-negative half-width, clipping at 0 and 1.
  *Theorems* (`NonparProps.v`): C15_kaplan_meier_limits.
* **C16 Kaplan-Meier step arrays are aligned and bracketed** (partial). *Model:* NonparModel step_loop, step_arrays. *Proof:* induction on the step lists; witness at the last point.
  *Theorems* (`NonparProps.v`): C16_kaplan_meier_steps_partial, C16_kaplan_meier_steps_refuted.
* **C17 Nelson-Aalen hazard and reliability** (proved). *Model:* NonparModel na_loop. *Proof:* sum of 1/at-risk by induction; exp(-H).
  *Theorems* (`NonparProps.v`): C17_nelson_aalen, C17_nelson_aalen_limits.
* **C18 Rank adjustment agrees with the plotting positions** (proved). *Model:* NonparModel ra_loop, rank_adjustment. *Proof:* both loops refine the same Johnson recurrence.
  *Theorems* (`NonparProps.v`): C18_rank_adjustment.
* **C19 Nonparametric MCF is the Nelson mean cumulative function** (proved). *Model:* RepairModel events, mcf_loop. *Proof:* loop over sorted events equals the sum over repairs of 1/#{systems observed} of RepairSpec.
  *Theorems* (`RepairProps.v`): C19_mcf_nelson, C19_mcf_succeeds.
* **C20 MCF is a cumulative function with ordered limits** (partial). *Model:* RepairModel mcf_loop, mcf_nonparametric. *Proof:* loop invariant; sign of the normal quantile by monotonicity of Phi.
  *Theorems* (`RepairProps.v`): C20_mcf_limits_partial, C20_mcf_limits_refuted.
* **C21 MCF_nonparametric does not modify the caller's data** (partial). *Model:* RepairModel collect, mcf_nonparametric. *Proof:* caller lists are part of the returned state; witness.
  *Theorems* (`RepairProps.v`): C21_mcf_keeps_data_partial, C21_mcf_keeps_data_refuted.
* **C22 ROCOF trend test is scale free** (proved). *Model:* RepairModel rocof. *Proof:* the statistic is invariant under multiplication by c > 0.
  *Theorems* (`RepairProps.v`): C22_rocof_scale.
* **C23 ROCOF constant-trend rate** (partial). *Model:* RepairModel rocof. *Proof:* algebra; witness with test_end.
  *Theorems* (`RepairProps.v`): C23_rocof_rate_partial, C23_rocof_rate_refuted.
* **C24 ROCOF reports exactly one trend, and increasing interarrival times never count as worsening** (proved). *Model:* RepairModel rocof, ROCOF. *Proof:* case analysis; rearrangement inequality for sorted interarrival times.
  *Theorems* (`RepairProps.v`): C24_rocof_trend, C24_rocof_reverse, C24_rocof_growing_gaps.
* **C25 Crow-AMSAA estimates maximise the likelihood** (proved). *Model:* RepairModel crow_amsaa. *Proof:* tangent inequality ln x <= x - 1 on the log-likelihood.
  *Theorems* (`RepairProps.v`): C25_crow_amsaa_mle, C25_crow_amsaa_exists.
* **C26 Reliability growth time to target** (proved). *Model:* RepairModel crow_time_to_target, duane_time_to_target. *Proof:* Rpower inverse laws.
  *Theorems* (`RepairProps.v`): C26_crow_time_to_target, C26_duane_time_to_target.
* **C27 Optimal replacement time, as good as old** (proved). *Model:* RepairModel ort_old, cput_old. *Proof:* tangent inequality for the cost per unit time.
  *Theorems* (`RepairProps.v`): C27_replacement_as_good_as_old.
* **C28 Optimal replacement time, as good as new** (proved). *Model:* RepairModel cput_new, argmin. *Proof:* minimum over the grid by induction; integral bounds of the survival function.
  *Theorems* (`RepairProps.v`): C28_replacement_as_good_as_new.
* **C29 One sample proportion interval** (proved). *Model:* TestingModel one_sample_proportion, f_ppf. *Proof:* F distribution with even degrees of freedom written as a binomial tail; inverse by the intermediate value theorem.
  *Theorems* (`TestingProps.v`): C29_one_sample_proportion, C29_one_sample_proportion_total, C29_limits_unique.
* **C30 Two proportion test is symmetric and decides by zero** (proved). *Model:* TestingModel two_proportion_test. *Proof:* algebra, symmetric half-width.
  *Theorems* (`TestingProps.v`): C30_two_proportion_symmetric.
* **C31 Identical proportions are never significantly different** (partial). *Model:* TestingModel two_proportion_test. *Proof:* algebra; witness at 0/5 and 0/5.
  *Theorems* (`TestingProps.v`): C31_same_proportion_refuted, C31_same_proportion_partial.
* **C32 Sample size for no failures is the least sufficient one** (proved). *Model:* TestingModel sample_size_no_failures. *Proof:* ceiling of a ratio of logarithms, monotonicity of powers.
  *Theorems* (`TestingProps.v`): C32_sample_size_least, C32_sample_size_total.
* **C33 Sequential sampling boundaries** (proved). *Model:* TestingModel sequential_sampling_chart. *Proof:* Wald inequalities, floor and ceiling.
  *Theorems* (`TestingProps.v`): C33_sequential_sampling.
* **C34 Reliability test planner: solving for one quantity inverts the others** (proved). *Model:* TestingModel reliability_test_planner. *Proof:* chi-squared quantile is the inverse of its distribution function; algebra.
  *Theorems* (`TestingProps.v`): C34_planner_relation, C34_planner_round_trip, C34_planner_round_trip_CI.
* **C35 Reliability test planner: number of failures is maximal** (partial). *Model:* TestingModel failures_search. *Proof:* induction on the search with termination measure; monotonicity of the chi-squared quantile.
  *Theorems* (`TestingProps.v`): C35_planner_failures_time_terminated, C35_planner_failures_refuted, C35_planner_failures_partial.
* **C36 Reliability test duration meets both risks** (partial). *Model:* TestingModel rtd_loop. *Proof:* loop invariant; termination by Chebyshev bounds on the Poisson tail.
  *Theorems* (`TestingProps.v`): C36_test_duration_time_terminated, C36_test_duration_refuted, C36_test_duration_partial, C36_test_duration_errors.
* **C37 KS statistic is the supremum distance** (proved). *Model:* TestingModel ks_deviations, ks_test. *Proof:* the supremum over the line is reached at a jump, by induction on the sorted sample.
  *Theorems* (`TestingProps.v`): C37_ks_statistic.
* **C38 Chi-squared test bookkeeping** (proved). *Model:* TestingModel np_histogram, chi2_test. *Proof:* counts in bins by induction.
  *Theorems* (`TestingProps.v`): C38_chi2_test, C38_chi2_covered.
* **C39 Acceleration factor round trip** (proved). *Model:* PoFModel acceleration_factor. *Proof:* exp/ln inverse laws.
  *Theorems* (`PoFProps.v`): C39_acceleration_factor, C39_activation_energy, C39_accelerated_temperature, C39_roundtrip.
* **C40 Creep failure time keeps the Larson-Miller parameter** (proved). *Model:* PoFModel creep_failure_time. *Proof:* log10/pow10 algebra.
  *Theorems* (`PoFProps.v`): C40_creep_failure_time, C40_hotter_fails_sooner.
* **C41 Palmgren-Miner damage** (proved). *Model:* PoFModel palmgren_miner. *Proof:* sums over the load list.
  *Theorems* (`PoFProps.v`): C41_palmgren_miner, C41_palmgren_errors.
* **C42 Crack growth: closed form life is the Paris law integral** (proved). *Model:* PoFModel crack_growth_simplified. *Proof:* Coquelicot RInt of the Paris law by its antiderivative.
  *Theorems* (`PoFProps.v`): C42_crack_growth.
* **C43 Crack growth runs with its default arguments** (partial). *Model:* PoFModel crack_growth_defaults. *Proof:* evaluation of the model at the defaults (refuted); sign analysis otherwise.
  *Theorems* (`PoFProps.v`): C43_default_arguments_refuted, C43_arguments_partial.
* **C44 Creep rupture curves run with their default arguments** (partial). *Model:* PoFModel creep_rupture_curves. *Proof:* evaluation at the defaults (refuted); least squares line otherwise.
  *Theorems* (`PoFProps.v`): C44_creep_rupture_refuted, C44_creep_trace_partial.
* **C45 SN diagram inverse lookups** (proved). *Model:* PoFModel SN_diagram. *Proof:* log10 inverse laws on the fitted line.
  *Theorems* (`PoFProps.v`): C45_sn_traces_inverse.
* **C46 CDF and SF are complementary, and the hazards are consistent** (partial). *Model:* DistModel CDF, SF, HF, CHF, zeroise_below_gamma. *Proof:* closed forms; list induction for the zeroed prefix.
  *Theorems* (`DistProps.v`): C46_cdf_sf_complementary, C46_hazards_partial, C46_increasing_arrays_are_safe, C46_hazards_refuted.
* **C47 PDF is the derivative of the CDF** (proved). *Model:* DistModel pdf, cdf. *Proof:* Coquelicot derivatives; Gamma and Beta through the fundamental theorem of calculus; improper integrals.
  *Theorems* (`DistProps.v`): C47_pdf_is_derivative_of_cdf, C47_pdf_integrates_to_one, C47_pdf_zero_outside.
* **C48 CDF is a distribution function** (proved). *Model:* DistModel cdf. *Proof:* monotone by the sign of the derivative; limits at both ends.
  *Theorems* (`DistProps.v`): C48_cdf_distribution_function, C48_cdf_entries.
* **C49 quantile and inverse_SF invert CDF and SF** (proved). *Model:* DistModel quantile, inverse_SF. *Proof:* inverse of a strictly increasing continuous function.
  *Theorems* (`DistProps.v`): C49_quantile_inverts_cdf, C49_inverse_SF_inverts_sf, C49_cdf_inverts_quantile, C49_out_of_range, C49_lists.
* **C50 mode maximises the PDF, median halves the CDF** (proved). *Model:* DistModel mode, median. *Proof:* sign of the derivative of the log density; uniqueness of the median.
  *Theorems* (`DistProps.v`): C50_mode_maximises_pdf, C50_median_halves_cdf, C50_mode_reported.
* **C51 Location parameter shifts the distribution** (partial). *Model:* DistModel, all distributions with gamma. *Proof:* substitution of x - gamma.
  *Theorems* (`DistProps.v`): C51_location_shifts_functions, C51_location_shifts_statistics, C51_hazards_shift_partial, C51_hazards_any_order_refuted.
* **C52 Scalar and array inputs agree** (partial). *Model:* DistModel HF_scalar, CHF_scalar. *Proof:* case analysis; witnesses.
  *Theorems* (`DistProps.v`): C52_scalar_agrees_partial, C52_scalar_with_location_refuted, C52_scalar_negative_and_zero_refuted.
* **C53 Competing risks** (partial). *Model:* CombModel cr_combine. *Proof:* induction on the components, per entry of the array.
  *Theorems* (`CombProps.v`): C53_competing_risks_partial, C53_succeeds, C53_pdf_is_derivative, C53_unordered_refuted, C53_rejects_valid_refuted.
* **C54 Mixture model** (partial). *Model:* CombModel mix_combine. *Proof:* induction on the components; witness with a negative proportion.
  *Theorems* (`CombProps.v`): C54_mixture_partial, C54_proportions_checked, C54_default_proportions, C54_pdf_is_derivative, C54_negative_proportions_refuted.
* **C55 Defective subpopulation zero inflated model** (partial). *Model:* CombModel dszi_*. *Proof:* case analysis on x, table interpolation bounds.
  *Theorems* (`CombProps.v`, `CombProps3.v`): C55_cdf_rises_from_ZI_to_DS, C55_arrays, C55_pdf_mass, C55_quantile_partial, C55_quantile_at_ends_refuted, C55_list_range_unchecked_refuted, C55_hazard.
* **C56 DSZI summary statistics describe the model** (partial). *Model:* CombModel dszi_median. *Proof:* evaluation of the CDF at the reported median.
  *Theorems* (`CombProps.v`): C56_median_partial, C56_median_refuted.
* **C57 DSZI random samples** (partial). *Model:* CombModel dszi_random_samples. *Proof:* counting over all possible draws.
  *Theorems* (`CombProps.v`): C57_random_samples_partial, C57_random_samples_no_survivors_partial, C57_random_samples_refuted.
* **C58 Log-likelihood is that of the distribution** (partial). *Model:* FitModel logf, logR, LL. *Proof:* for each fitter logf = ln pdf and logR = ln sf of the distribution model.
  *Theorems* (`FitProps.v`): C58_terms, C58_likelihood, C58_likelihood_exists, C58_zero_inflated_partial, C58_zero_inflated_refuted, C58_zero_inflation_ignored, C58_variants.
* **C59 Log-likelihood ignores order and respects grouping** (proved). *Model:* FitModel LL, grouped_LL. *Proof:* sum over a permutation; repeated terms are multiples.
  *Theorems* (`FitProps.v`): C59_order, C59_grouped.
* **C60 AICc and BIC** (proved). *Model:* FitModel goodness. *Proof:* algebra with division made explicit.
  *Theorems* (`FitProps.v`): C60_goodness, C60_better.
* **C61 Fit_Everything picks the best distribution** (partial). *Model:* SelModel sort_rows, Fit_Everything. *Proof:* head of any sorting is a minimum; witnesses.
  *Theorems* (`SelProps.v`): C61_results, C61_best_BIC_AD, C61_best_AICc, C61_best_loglik_partial, C61_loglik_refuted, C61_AICC_refuted, C61_rejected.
* **C62 Fit_Everything works on any data it accepts** (partial). *Model:* SelModel check_data, exclusion, Fit_Everything. *Proof:* counting distinct failures; witnesses.
  *Theorems* (`SelProps.v`): C62_accepts_partial, C62_ties_partial, C62_three_failures_refuted, C62_rejects, C62_ties_refuted.
* **C63 Least squares picks the more likely of RRX and RRY; MLE picks the most likely optimizer result** (partial). *Model:* SelModel LS_choice, MLE_optimization. *Proof:* minimum over the attempts by induction; witnesses.
  *Theorems* (`SelProps.v`): C63_LS_partial, C63_LS_refuted, C63_runs, C63_MLE_partial, C63_MLE_default, C63_MLE_refuted.
* **C64 Linear regression is optimal** (proved). *Model:* RegModel linear_regression. *Proof:* normal equations; the sum of squares expanded around the solution.
  *Theorems* (`RegProps.v`): C64_vertical, C64_horizontal, C64_found, C64_rejected.
* **C65 Least squares recovers exact parameters** (proved). *Model:* RegModel least_squares. *Proof:* the line through the points of the distribution on its paper, solved for the parameters.
  *Theorems* (`RegProps.v`): C65_exact_recovery, C65_forced_shape.
* **C66 Parameter confidence limits bracket the estimate** (partial). *Model:* CIModel param_limits, fit_limits. *Proof:* sign of Z * se on each scale; witnesses.
  *Theorems* (`CIProps.v`): C66_multiplier, C66_bracket_partial, C66_widens, C66_scales, C66_exponential_inverse, C66_refuted.
* **C67 Confidence bounds on time and reliability bracket the curve** (partial). *Model:* CIModel ci_time, ci_reliability, exponential_CI. *Proof:* each bound is the curve moved by a non-negative half-width; witnesses.
  *Theorems* (`CIProps.v`): C67_reliability, C67_time, C67_exponential_reliability_partial, C67_widens, C67_delta_method, C67_errors, C67_refuted, C67_exponential_time_refused_refuted.
* **C68 Anderson-Darling statistic is the weighted squared distance** (partial). *Model:* PlotModel anderson_darling. *Proof:* antiderivative of (F - Fn)^2 / (F(1-F)) on each piece, telescoped.
  *Theorems* (`PlotProps.v`): C68_distance_partial, C68_order, C68_nan, C68_refuted.
* **C69 xy_downsample keeps the extremes and bounds the size** (partial). *Model:* PlotModel xy_downsample. *Proof:* list index arithmetic; witnesses.
  *Theorems* (`PlotProps.v`): C69_extremes, C69_size, C69_every_kth, C69_points_partial, C69_points_refuted, C69_factor_one_refuted.
* **C70 no_reverse makes bounds monotone** (partial). *Model:* CIModel no_reverse. *Proof:* induction on the list; witness.
  *Theorems* (`CIProps.v`): C70_refuted, C70_partial, C70_idempotent, C70_errors.
* **C71 clean_CI_arrays filters the four arrays together** (proved). *Model:* CIModel clean_CI_arrays. *Proof:* filter on rows equals filter on the four arrays.
  *Theorems* (`CIProps.v`): C71_legal_rows, C71_refusal, C71_result.
* **C72 Probability paper transforms invert each other** (proved). *Model:* PlotModel forward, inverse. *Proof:* inverse function laws.
  *Theorems* (`PlotProps.v`): C72_inverse, C72_increasing.
* **C73 ALT data grouping keeps failures and censored data at the same stress together** (partial). *Model:* ALTModel stress_groups, add_empty. *Proof:* grouping lemma; witness.
  *Theorems* (`ALTProps.v`): C73_dual, C73_single_partial, C73_failures, C73_single_refuted.
* **C74 ALT log-likelihood is that of the life-stress distribution** (proved). *Model:* ALTModel alt_logf, alt_logR, alt_LL. *Proof:* substitution of the life-stress model in the distribution model.
  *Theorems* (`ALTProps.v`): C74_terms, C74_distribution, C74_likelihood.
* **C75 Stress-strength interference of normals** (proved). *Model:* OtherModel stress_strength_normal. *Proof:* the convolution of two Gaussian densities as an improper integral.
  *Theorems* (`OtherProps.v`): C75_probability, C75_complement, C75_monotone, C75_half, C75_errors.
* **C76 make_right_censored_data conserves the data** (partial). *Model:* OtherModel make_right_censored_data. *Proof:* permutation reasoning for every shuffle and every random number; witness.
  *Theorems* (`OtherProps.v`): C76_threshold, C76_fraction, C76_censored_earlier, C76_errors, C76_caller_refuted, C76_caller_partial.
* **C77 As-good-as-old optimum is that of the minimal repair policy** (partial). *Model:* RepairModel cput_old against RepairSpec minimal repair cost. *Proof:* tangent inequality; witness.
  *Theorems* (`RepairProps.v`): C77_minimal_repair_partial, C77_minimal_repair_refuted.
* **C78 acceleration_factor reports all four quantities** (partial). *Model:* PoFModel acceleration_factor. *Proof:* case analysis on the four optional arguments.
  *Theorems* (`PoFProps.v`): C78_all_given_refuted, C78_reports_partial.
* **C79 SN curve is the least squares line** (proved). *Model:* PoFModel polyfit1, SN_diagram. *Proof:* normal equations.
  *Theorems* (`PoFProps.v`): C79_sn_least_squares, C79_sn_total.
* **C80 SN residual bounds enclose the failures** (partial). *Model:* PoFModel SN_diagram (residual bounds). *Proof:* maximum of absolute residuals; witness.
  *Theorems* (`PoFProps.v`): C80_residual_no_runout_refuted, C80_residual_bounds_refuted, C80_residual_bounds_partial.
* **C81 SN statistical bounds are the regression confidence band** (partial). *Model:* PoFModel SN_diagram (statistical bounds). *Proof:* comparison with the textbook band; witness.
  *Theorems* (`PoFProps.v`): C81_statistical_band_refuted, C81_statistical_band_partial.
* **C82 SN traces lie on the curve drawn** (partial). *Model:* PoFModel SN_diagram traces. *Proof:* evaluation; witness below the endurance limit.
  *Theorems* (`PoFProps.v`): C82_trace_on_curve_refuted, C82_trace_on_curve_partial.
* **C83 Material parameters are recovered from exact data** (proved). *Model:* PoFModel params_from_data. *Proof:* least squares on exact log-linear data.
  *Theorems* (`PoFProps.v`): C83_material_parameters, C83_all_parameters.
* **C84 Hysteresis loop is continuous and closes** (proved). *Model:* PoFModel loop_run. *Proof:* roots of a strictly increasing function; end point evaluation.
  *Theorems* (`PoFProps.v`): C84_hysteresis_closes, C84_hysteresis_continuous, C84_hysteresis_symmetric, C84_runs_exist.
* **C85 Compression mirrors tension** (partial). *Model:* PoFModel loop_run, direction. *Proof:* odd symmetry; witness.
  *Theorems* (`PoFProps.v`): C85_compression_refuted, C85_compression_partial.
* **C86 Strain-life solution is unique and decreasing** (proved). *Model:* PoFModel life_equation. *Proof:* strictly decreasing function, intermediate value theorem.
  *Theorems* (`PoFProps.v`): C86_life_unique, C86_life_decreases, C86_transition, C86_equation_is_lines, C86_no_mean_stress.
* **C87 Strain limits agree between the two diagrams** (partial). *Model:* PoFModel strain_limits_*, sl_limits_of_stress. *Proof:* algebra; witness.
  *Theorems* (`PoFProps.v`): C87_strain_limits_refuted, C87_strain_limits_partial, C87_strain_limits_zero_partial.
* **C88 Crack initiation is fully reversed** (proved). *Model:* PoFModel ci_*. *Proof:* Neuber and Massing equations.
  *Theorems* (`PoFProps.v`): C88_initiation_range, C88_initiation_means, C88_corrections_agree, C88_notch_rule, C88_life.
* **C89 Creep rupture lines use each temperature's own data** (partial). *Model:* PoFModel creep_groups. *Proof:* grouped lists; witness.
  *Theorems* (`PoFProps.v`): C89_creep_groups_refuted, C89_creep_groups_partial.
* **C90 Iterative crack growth terminates** (partial). *Model:* PoFModel it_loop. *Proof:* lower bound on each increment gives a decreasing measure; witness state that never stops.
  *Theorems* (`PoFProps.v`): C90_iterative_terminates_refuted, C90_iterative_terminates_partial.
* **C91 Iterative final length is the length reached** (partial). *Model:* PoFModel crack_growth_iterative. *Proof:* loop invariant; witness.
  *Theorems* (`PoFProps.v`): C91_iterative_final_refuted, C91_iterative_final_partial, C91_iterative_stages_partial.
* **C92 Growing a crack to its present length takes no cycles** (partial). *Model:* PoFModel crack_growth_simplified, _iterative. *Proof:* evaluation; witness.
  *Theorems* (`PoFProps.v`): C92_no_growth_refuted, C92_no_growth_partial.
* **C93 Model quantiles are correct to one grid step** (proved). *Model:* CombModel table_quantile. *Proof:* monotone interpolation between grid points.
  *Theorems* (`CombProps.v`): C93_competing_risks_quantile, C93_mixture_quantile, C93_inverse_SF, C93_reported_percentiles.
* **C94 DSZI mean residual life** (proved). *Model:* CombModel dszi_mrl. *Proof:* integral of the survival function.
  *Theorems* (`CombProps.v`): C94_mean_residual_life, C94_infinite_mean_residual_life.
* **C95 Fit_Everything leaves the exclude list alone** (partial). *Model:* SelModel extend_exclude, to_fit. *Proof:* list membership; witness.
  *Theorems* (`SelProps.v`): C95_fitted, C95_exclude_leaks_refuted, C95_exclude_unchanged_partial, C95_names.
* **C96 Three-parameter fitters report the method they used** (partial). *Model:* CIModel fit_three_params. *Proof:* case analysis; witness.
  *Theorems* (`CIProps.v`): C96_refuted, C96_partial.
* **C97 A distribution is a straight line on its own probability paper** (proved). *Model:* PlotModel forward at DistModel quantiles. *Proof:* affine identity per distribution.
  *Theorems* (`PlotProps.v`): C97_straight_line, C97_weibull_normal.
* **C98 transform_spaced spaces its points equally on the named paper** (partial). *Model:* PlotModel transform_spaced. *Proof:* linspace algebra; witness.
  *Theorems* (`PlotProps.v`): C98_errors, C98_points, C98_spacing_partial, C98_refuted.
* **C99 Probability plot limits show every point** (partial). *Model:* PlotModel x_limits, y_limits. *Proof:* inequalities on the limits; witnesses.
  *Theorems* (`PlotProps.v`): C99_x_partial, C99_y_partial, C99_margins, C99_y_refuted, C99_x_refuted.
* **C100 Numerical stress-strength interference is accurate and accepts any pair** (partial). *Model:* OtherModel stress_strength. *Proof:* trapezoid error bound by the second derivative; witness.
  *Theorems* (`OtherProps.v`): C100_accuracy, C100_nonneg, C100_domain_partial, C100_domain_refuted.
* **C101 similar_distributions lists the fitted distributions** (partial). *Model:* OtherModel similar_distributions. *Proof:* list reasoning with Fit_Everything as an oracle; witness.
  *Theorems* (`OtherProps.v`): C101_results_refuted, C101_results_partial, C101_samples, C101_not_same_kind.
* **C102 make_ALT_data is aligned with its stresses** (proved). *Model:* OtherModel make_ALT_data. *Proof:* induction on the stresses.
  *Theorems* (`OtherProps.v`): C102_levels, C102_aligned, C102_use.
* **C103 Histogram shading** (proved). *Model:* OtherModel histogram_white. *Proof:* case analysis.
  *Theorems* (`OtherProps.v`): C103_shading, C103_errors.
* **C104 ALT confidence limits** (proved). *Model:* ALTModel alt_limits. *Proof:* sign of the half-width on each scale.
  *Theorems* (`ALTProps.v`): C104_limits, C104_widens, C104_goodness.
* **C105 ALT fitters accept exactly the documented inputs** (partial). *Model:* ALTModel alt_check, alt_fit. *Proof:* case analysis of the checks in order; witnesses.
  *Theorems* (`ALTProps.v`): C105_accepted, C105_rejected, C105_fitted_partial, C105_ties_refuted, C105_hessian_refuted.
* **C106 ALT life and acceleration factors** (partial). *Model:* ALTModel alt_life, alt_distribution. *Proof:* scaling laws of each distribution; witness for Normal.
  *Theorems* (`ALTProps.v`): C106_use, C106_rows, C106_original, C106_acceleration, C106_normal_refuted.
* **C107 ALT estimates are the most likely ones found** (partial). *Model:* ALTModel ALT_MLE. *Proof:* minimum over attempts; witness.
  *Theorems* (`ALTProps2.v`): C107_named_partial, C107_default, C107_refuted.
* **C108 The initial ALT estimate is the least squares one** (partial). *Model:* ALTModel ALT_least_squares, solve3, plane. *Proof:* normal equations and determinant of aligned stresses; witness.
  *Theorems* (`ALTProps2.v`): C108_single, C108_dual_partial, C108_exact, C108_aligned, C108_aligned_refuted.
* **C109 Fit_Everything_ALT** (partial). *Model:* ALTModel Fit_Everything_ALT. *Proof:* selection by any ascending rearrangement; witnesses.
  *Theorems* (`ALTProps2.v`): C109_fitted, C109_order, C109_loglik_partial, C109_errors, C109_use_partial, C109_use_refuted, C109_loglik_refuted.
* **C110 The time unit does not matter** (partial). *Model:* FitModel LL, CIModel fit_three_params. *Proof:* scaling each parameter set changes LL by a constant.
  *Theorems* (`FitProps2.v`): C110_same_population, C110_likelihood, C110_best_fit, C110_ranking, C110_threshold_refuted, C110_threshold_partial.
* **C111 Log and location relations between fitters** (proved). *Model:* FitModel LL. *Proof:* change of variables ln and shift, term by term.
  *Theorems* (`FitProps2.v`): C111_lognormal, C111_weibull, C111_lognormal_best, C111_weibull_best, C111_location.
* **C112 A larger model never fits worse than its special case** (proved). *Model:* FitModel LL. *Proof:* equality of densities and survival functions on the embedded parameters.
  *Theorems* (`FitProps2.v`): C112_special_case, C112_never_worse.
* **C113 The maximum likelihood estimate is well defined** (partial). *Model:* FitModel LL. *Proof:* strict concavity in (mu/sigma, 1/sigma), growth at infinity and a two-dimensional extreme value theorem; explicit maximisers; divergent sequences for the refuted models.
  *Theorems* (`FitProps2.v`): C113_exactly_one, C113_exponential, C113_forced_beta, C113_normal_complete, C113_exponential_2P_refuted, C113_weibull_3P_refuted.
* **C114 Only the order of the times matters** (proved). *Model:* NonparModel: plotting_positions, kaplan_meier, nelson_aalen, rank_adjustment. *Proof:* the loops never compute with times: induction over the rows commutes with the transformation; sortings are mapped both ways.
  *Theorems* (`NonparProps2.v`): C114_tables, C114_positions, C114_kaplan_meier, C114_nelson_aalen, C114_steps, C114_rank_adjustment.
* **C115 The order in which data are given does not matter** (partial). *Model:* NonparModel, any sorted permutation as the sort. *Proof:* two sorted permutations without ties between failures and censorings are equal; counterexample with such a tie.
  *Theorems* (`NonparProps2.v`): C115_order_partial, C115_order_refuted.
* **C116 Censoring a failure never lowers the estimated reliability** (proved). *Model:* NonparModel. *Proof:* induction over the rows comparing two runs of each loop with one row censored more.
  *Theorems* (`NonparProps2.v`): C116_kaplan_meier, C116_nelson_aalen, C116_rank_adjustment.
* **C117 Distributions that coincide** (proved). *Model:* DistModel: the formulas of the eight classes. *Proof:* equal formulas pointwise, inverse functions of equal distribution functions are equal; Beta mirrored by substitution and a constant derivative.
  *Theorems* (`DistProps2.v`): C117_weibull_exponential, C117_gamma_exponential, C117_lognormal_normal, C117_weibull_gumbel, C117_beta_uniform, C117_beta_mirror.
* **C118 Combined models that coincide** (proved). *Model:* CombModel: cr_combine, mix_combine. *Proof:* permutation induction on the accumulation loops; sums of hazards and products of survival functions in closed form.
  *Theorems* (`CombProps2.v`): C118_order_competing_risks, C118_order_mixture, C118_single_risk, C118_equal_components, C118_exponential_risks, C118_weibull_risks.
* **C119 Mean residual life** (proved). *Model:* MomentModel: mean_residual_life; sf, supp_lo, supp_hi of DistModel; mean. *Proof:* integration by parts turns the integral of the survival function into that of (x - t) times the density; existence by monotone bounded integrals; comparison of survival ratios for Weibull.
  *Theorems* (`MRLProps.v`): C119_remaining, C119_new, C119_ageing, C119_exponential, C119_weibull, C119_no_mean.
* **C120 Reported moments are the moments** (proved). *Model:* MomentModel: scipy_std, mean, variance, standard_deviation, skewness, kurtosis, b5, b95. *Proof:* raw moments of the standard member of each family through gamma and beta integrals and antiderivatives, then polynomial expectations; divergence against the logarithm for Loglogistic; the Gumbel moments through the integrals of (1-u/n)^n (ln u)^k, power sums of 1/j, Euler's constant, and zeta(2), zeta(4) from the integrals of x^m cos^2n x (Zeta, GumbelMoments).
  *Theorems* (`MomentProps.v`): C120_mean, C120_variance, C120_shape, C120_excess, C120_missing, C120_percentiles.
* **C121 QQ plots pair quantiles of equal probability** (partial). *Model:* QQModel: QQ_plot_parametric, fitted_lines, ecdf, QQ_plot_semiparametric. *Proof:* inverse survival function inside the support and injectivity of the distribution function; least squares lemmas of Linear; reversal of lists by index.
  *Theorems* (`QQProps.v`): C121_parametric, C121_related, C121_semiparametric_value, C121_semiparametric_partial, C121_semiparametric_refuted.
* **C122 PP plots pair probabilities at the same time** (partial). *Model:* QQModel: pp_grid, PP_plot_parametric, PP_plot_semiparametric. *Proof:* bounds of linspace against the support checks of CDF; sorted failure times are the failed rows in order.
  *Theorems* (`QQProps.v`): C122_parametric_partial, C122_parametric_refuted, C122_diagonal, C122_semiparametric.
* **C123 plot_points draws the empirical functions** (partial). *Model:* QQModel: plot_points, diffs, hf_points. *Proof:* differences by index; positions in the user order are those in sorted order for increasing data; counterexample with three failures.
  *Theorems* (`QQProps.v`): C123_functions, C123_density_partial, C123_density_refuted, C123_order.
* **C124 Default x values cover the range asked for** (partial). *Model:* InputModel: generate_X_array, grid_positive, geomspace_from. *Proof:* an invariant (sorted, first, last) that composes over concatenated pieces; case analysis of the branches against the two quantiles; witnesses for the excluded cases.
  *Theorems* (`InputProps.v`): C124_half_line_partial, C124_leaves, C124_default, C124_signed, C124_beta, C124_refuted, C124_spacing.
* **C125 Arguments of the distribution methods** (partial). *Model:* InputModel: input_checking, x_values, resolve_CI, resolve_CI_type, check_CI_x, check_CI_y, quantile_num, CDF_num, PP_quantile_line. *Proof:* inversion of the sequence of checks; symmetry and inverse of the normal distribution function for the level. That scipy returns numpy.float64 from ppf of a number is part of the model.
  *Theorems* (`InputProps.v`): C125_level, C125_type, C125_traces, C125_x_values, C125_accepted_partial, C125_errors, C125_quantile_refused, C125_refuted.
* **C126 Parametric MCF** (partial). *Model:* MCFModel: mcf_parametric, mcf_guess, verdict, mcf_line, mcf_band. *Proof:* sums of products of comonotone lists for the sign of the slope; optimality of least squares; convexity and concavity of powers for the verdict; derivatives for the band.
  *Theorems* (`MCFProps.v`): C126_points, C126_start, C126_limits, C126_wider, C126_verdict, C126_improving_partial, C126_improving_refuted, C126_band.
* **C127 What the nonparametric MCF depends on** (proved). *Model:* RepairModel: mcf_nonparametric. *Proof:* the closed form of C19 (cumulative sums over the times of one over the systems observed) and uniqueness of sorted lists.
  *Theorems* (`MCFProps.v`): C127_order, C127_transform, C127_observation.
* **C128 Likelihood contours are likelihood ratio regions** (partial). *Model:* LPlotModel: likelihood_plot, LLfunction, parameter_grid, contour_level, draw_contours, widened. *Proof:* the chi-squared quantile with 2 degrees of freedom in closed form; the log-likelihood of C07 as the logarithm of a product; scale equivariance of the likelihood (C110); inversion of the run; a witness for the grid.
  *Theorems* (`LPlotProps.v`): C128_region, C128_levels, C128_nested, C128_units, C128_limits, C128_grid_partial, C128_grid_refuted, C128_errors.
* **C129 Arguments of the fitters** (proved). *Model:* FArgModel: fitters_input_checking, resolve_method, resolve_optimizer, resolve_fit_CI_type, resolve_quantiles, check_force. *Proof:* inversion of the checks in order, both directions; idempotence by replaying them on the result.
  *Theorems* (`FArgProps.v`): C129_accepts, C129_refused, C129_capitals, C129_again.
* **C130 The table of quantiles** (partial). *Model:* FArgModel: quantile_table, fitter_quantiles on CIModel extract_CI. *Proof:* rows by induction over the quantiles; nesting and widening from C67; totality of the cleaned arrays; the spaced grid of the Exponential bounds against 1e-50.
  *Theorems* (`FArgProps.v`): C130_rows, C130_order, C130_widens, C130_request, C130_produced_partial, C130_exponential, C130_produced_refuted, C130_false_refuted.
* **C131 What a probability plot shows** (partial). *Model:* PPlotModel: probability_plot, choose_dist, axes_of, shift_of on PlotModel and NonparModel. *Proof:* inversion of the call; plotting positions commute with increasing functions of time; straight lines from C97, limits from C99; witnesses for the two refutations.
  *Theorems* (`PPlotProps.v`): C131_points_partial, C131_line, C131_on_line_partial, C131_limits, C131_accepts, C131_hidden_partial, C131_hidden_refuted, C131_points_refuted.
* **C132 Statistics of combined models** (proved). *Model:* CStatModel: simpson, moment_stats, table_mode, cr_statistics, mix_statistics on CombModel. *Proof:* Simpson weights by induction in steps of two intervals; error for monotone integrands, then for those of bounded rate by adding a line; permutation lemmas of C53/C54.
  *Theorems* (`CStatProps.v`): C132_competing_risks, C132_mixture, C132_density, C132_order, C132_constructs, C132_no_mean.
* **C133 Mean residual life of combined models** (partial). *Model:* CStatModel: xmax_inf, cr_mrl, mix_mrl. *Proof:* survival functions are continuous and do not increase, so C132's error bound applies; a reversed axis changes the sign.
  *Theorems* (`CStatProps.v`): C133_competing_risks_partial, C133_mixture_partial, C133_refuted, C133_order.
* **C134 Random samples of the distributions** (proved). *Model:* RandModel: rvs_call, reseed, draws, rvs, beta_loop, random_samples. *Proof:* the calls as affine images of a stream of draws; change of variable in the distribution functions; loop invariant for Beta.
  *Theorems* (`RandProps.v`): C134_arguments, C134_samples, C134_reproducible, C134_consecutive, C134_beta.
* **C135 Random samples of combined models** (proved). *Model:* RandModel: cumsum, choice, probabilities, table_samples, cr_random_samples, mix_random_samples. *Proof:* induction over the table for the inverse of the cumulative shares; right sums against integrals.
  *Theorems* (`RandProps.v`): C135_competing_risks, C135_mixture, C135_close.
* **C136 Failure times of DSZI samples** (partial). *Model:* RandModel: class_of, dszi_samples. *Proof:* the stream restarted by the second seeding; a generator of sequences as witness.
  *Theorems* (`RandProps.v`): C136_unseeded_partial, C136_seed_reused, C136_seeded_refuted.
* **C137 Grouped data are fitted as the items they stand for** (partial). *Model:* GroupModel: the fitters of single distributions and of combined Weibull models from arguments to attributes, Fit_Weibull_2P_grouped; optimizer, least squares and inverse Hessian are arguments. *Proof:* equality of the two likelihoods as functions, induction over the runs of the optimizer; counterexamples with constant optimizers.
  *Theorems* (`GroupProps.v`): C137_least_squares, C137_MLE_partial, C137_MLE_runs, C137_methods, C137_errors, C137_checks, C137_best_refuted, C137_default_refuted, C137_dropped, C137_negative_refuted.
* **C138 The axes show what is plotted** (partial). *Model:* AxesModel: get_axes_limits and restore_axes_limits; matplotlib own limits are an argument. *Proof:* case analysis and monotonicity of quantiles; induction over a sequence of plots; a hazard of 10/11 drawn from 0 to 1 as counterexample.
  *Theorems* (`AxesProps.v`): C138_range, C138_keeps_partial, C138_history_partial, C138_probability, C138_density, C138_hazard, C138_cumulative_hazard, C138_blank_refuted.
* **C139 Probability plots of accelerated life tests** (partial). *Model:* ALTPlotModel: ALT_prob_plot and the helper that makes the parameters, on top of PPlotModel and the results of the ALT fitters. *Proof:* induction over the groups; eleven stresses and an Exponential fitter with shape other than 1 as counterexamples.
  *Theorems* (`ALTPlotProps.v`): C139_groups, C139_dashed_partial, C139_dashed_refuted, C139_use, C139_no_use, C139_limits_partial, C139_margins, C139_made_partial, C139_many_refuted.
* **C140 Life-stress plots** (partial). *Model:* ALTPlotModel: life_stress_plot for one and for two stresses; labels and colours other than their number are left out. *Proof:* induction over the groups, monotonicity of exp and ln, floor of a quotient; stresses 1, 2 with use stress 3 and stresses 1, 50 as counterexamples.
  *Theorems* (`ALTPlotProps2.v`): C140_failures, C140_line, C140_line_reaches_partial, C140_line_reaches_refuted, C140_axes_partial, C140_use_refuted, C140_use_refuted_case, C140_shown_partial, C140_made_partial, C140_many_refuted, C140_surface.
* **C141 Numbers in titles, legends and printed results** (partial). *Model:* RoundModel: round_and_string, with its result as notation and digits; titles of the distributions and legends of the probability plots as lists of names and numbers. *Proof:* rounding half to even is monotone, odd and off by at most a half; exponents by integer parts of logarithms; cases on the size of the number.
  *Theorems* (`RoundProps.v`): C141_accuracy, C141_form, C141_relative, C141_sign_partial, C141_sign_refuted, C141_opposite, C141_again, C141_order_partial, C141_order_refuted, C141_documented_partial, C141_documented_refuted, C141_options, C141_special, C141_titles.
* **C142 The distribution explorer shows what is set** (proved). *Model:* ExploreModel: distribution_explorer as a machine with the events click on a button, move a slider, event of a removed slider. *Proof:* invariant of the state over all histories; simulation between states that look alike.
  *Theorems* (`ExploreProps.v`): C142_shows, C142_click, C142_since_click, C142_move.
* **C143 Crosshairs show the coordinates of the point** (partial). *Model:* CrossModel: crosshairs on top of RoundModel; dates are left out. *Proof:* cases on the arguments; C141 for the texts; decimals=0 as counterexample.
  *Theorems* (`CrossProps.v`): C143_arguments, C143_rejects, C143_hover, C143_lines, C143_click_partial, C143_click_refuted.
* **C144 What a fitter of a single distribution reports belongs together** (proved). *Model:* FullFitModel: the thirteen fitters of a single distribution from arguments to attributes, with LS_optimization, MLE_optimization, bounds, covariance and fallback. *Proof:* inversion of a successful run; C129 for the inputs, C58/C59 for the likelihoods, C66 for the limits; invariants over the runs of the optimizers; succeeds: totality of every step.
  *Theorems* (`FullFitProps.v`, `FullFitProps2.v`, `FullFitProps3.v`): C144_distribution, C144_data, C144_goodness, C144_goodness_exists, C144_AD, C144_quantiles, C144_rows, C144_mu, C144_bracket, C144_fallback, C144_support, C144_errors, C144_succeeds.
* **C145 Maximum likelihood is at least as likely as least squares** (partial). *Model:* FullFitModel. *Proof:* the estimate is reached from the least squares guess by steps that never get worse; concrete oracles as counterexamples.
  *Theorems* (`FullFitProps4.v`, `FullFitProps5.v`): C145_least_squares_partial, C145_rank_regression_partial, C145_rank_regression_refuted, C145_three_refuted.
* **C146 Least squares uses the regression that is asked for** (partial). *Model:* FullFitModel. *Proof:* inversion of LS_optimization; a least squares routine with different answers as counterexample.
  *Theorems* (`FullFitProps4.v`, `FullFitProps5.v`): C146_rank_regression_partial, C146_better_partial, C146_nonlinear, C146_refuted.
* **C147 Demonstrated MTBF and failure intensity** (proved). *Model:* GrowthModel, RepairModel. *Proof:* derivative of the expected number of failures; optimality and uniqueness of the least squares line; slope below one from the sum over pairs of (x_i - x_j)(y_i - y_j), positive because the ranks increase with the times.
  *Theorems* (`GrowthProps.v`, `GrowthProps2.v`): C147_crow, C147_duane, C147_duane_line, C147_errors, C147_model, C147_succeeds, C147_order, C147_target, C147_units.
* **C148 The growth plot shows failures, curve and target** (partial). *Model:* GrowthModel. *Proof:* bounds from the minimum and maximum of the observed MTBFs; floor and ceiling of log10; two failures with a target below both as counterexample.
  *Theorems* (`GrowthProps2.v`): C148_points, C148_curve, C148_failures_shown, C148_target_linear, C148_no_target, C148_target_log_partial, C148_target_log_refuted.
* **C149 What the fitters of combined Weibull models report belongs together** (proved). *Model:* SpecialModel. *Proof:* the five fitters from arguments to attributes with the routines of scipy as arguments; inversion of the run, then the likelihood, limits and plotting position theorems (C58, C60, C66, C11); the largest plotting position exceeds the share of zeros by counting ranks.
  *Theorems* (`SpecialProps.v`, `SpecialProps2.v`, `SpecialProps3.v`): C149_data, C149_distribution, C149_goodness, C149_goodness_exists, C149_AD, C149_rows, C149_errors, C149_bracket, C149_start, C149_sensible, C149_succeeds.
* **C150 Writing a spreadsheet destroys no file without consent** (partial). *Model:* WriteModel. *Proof:* paths as character lists, the file system as a map, the answers of the user as an infinite sequence, the loop with fuel; each renaming lengthens the name by its brackets, so among finitely many files the search ends.
  *Theorems* (`WriteProps.v`): C150_no_loss, C150_fresh, C150_refusal, C150_consent, C150_ends, C150_waits, C150_errors, C150_options, C150_new_name_partial, C150_posix_refuted, C150_relative_refuted, C150_extension_refuted, C150_unreadable_refuted.
* **C151 What is written to a spreadsheet is what is read from it** (partial). *Model:* SheetModel. *Proof:* cells as numbers, texts or missing values; the frames with their padding, the trip through pandas (default missing values, columns of texts that look like numbers), removeNaNs and the readers; composed with the converter theorems C01-C07.
  *Theorems* (`SheetProps.v`): C151_FR, C151_FR_again, C151_FNRN, C151_XCN_partial, C151_XCN_default, C151_mixed_refuted, C151_missing_refuted, C151_own_codes_refuted.
* **C152 A row of a spreadsheet is an observation** (partial). *Model:* SheetModel. *Proof:* as C151, for columns of optional entries.
  *Theorems* (`SheetProps.v`): C152_FR, C152_XCN_partial, C152_FNRN_partial, C152_lengths, C152_XCN_rows_refuted, C152_FNRN_rows_refuted, C152_missing_texts.
* **C153 The nonparametric plots show the estimate** (partial). *Model:* NPlotModel. *Proof:* the step arrays as a list of points; induction over the rows (Kaplan-Meier, Nelson-Aalen: step_loop; rank adjustment: ra_loop together with ra_steps); the three kinds of plot by monotonicity of 1 - r and - ln r.
  *Theorems* (`NPlotProps.v`): C153_curve, C153_monotone, C153_bands_partial, C153_view_partial, C153_NelsonAalen_refuted, C153_RankAdjustment_refuted, C153_runs, C153_rejects.
* **C154 The replacement plots show the optimum** (partial). *Model:* RPlotModel. *Proof:* the optimum by C76 and C77; the mark against the axes by monotone powers; as good as new: argmin gives the first least index, and (1 - S)/integral of S never falls for beta >= 1, so a dearer failure never moves the index to the right.
  *Theorems* (`RPlotProps.v`): C154_time, C154_time_view_old, C154_time_view_new_partial, C154_time_view_refuted, C154_ratio, C154_ratio_new_partial, C154_ratio_old_refuted, C154_ratio_view_old, C154_ratio_view_refuted, C154_runs.
* **C155 The plots of the mean cumulative function show the estimate** (partial). *Model:* MPlotModel. *Proof:* the three step lines as lists of points; induction over the repairs with the height above t as a cumulative sum; limits from C20 and C126.
  *Theorems* (`MPlotProps.v`): C155_line, C155_view_partial, C155_view_refuted, C155_runs, C155_parametric.
* **C156 ROCOF's estimates are the maximum likelihood ones and its plot shows them** (partial). *Model:* RocofPlotModel, RepairModel ROCOF. *Proof:* the log-likelihood in closed form and ln x <= x - 1; the ages are a sorted permutation of the input; tangent of the logarithm for the partial claim; repeated failure times and the Archimedean property for the refutation at every level.
  *Theorems* (`RocofPlotProps.v`): C156_maximum_likelihood, C156_given, C156_points, C156_line, C156_trend_refuted, C156_trend_partial, C156_runs.
* **C157 Nonparametric estimates in double precision** (proved). *Model:* FloatModel fkm, fkm_upper, fkm_lower, fna, fmcf: the loops with every operation rounded (Flocq round, FLT, nearest even). *Proof:* monotonicity of rounding and exactness on doubles; induction on the number of items with the relative error of one rounding; 1/r is at least 8 units of roundoff for r up to 2^50, so steps are not lost; index arithmetic of the MCF loop by invariant
  *Theorems* (`FloatProps.v`): C157_meaning, C157_km_value, C157_km_step, C157_km_zero, C157_km_complete, C157_km_bounds, C157_na_hazard, C157_na_step, C157_mcf_value, C157_mcf_rises.
* **C158 Plotting positions in double precision** (proved). *Model:* FloatModel franks, fpositions. *Proof:* induction over the failures with the invariant rank <= n + 1 - reverse_i, using the grid of doubles next to an integer and rounding to nearest; each rank is at least 3/4 above the one before
  *Theorems* (`FloatProps.v`, `FloatProps2.v`): C158_range, C158_rises, C158_complete, C158_uncensored, C158_runs, C158_censored.
* **C159 The reported change of the shape parameter is right** (proved). *Model:* the loop over the stresses that fills the change column and sets the warning (ShapeModel), on the result of the fitters of ALTModel. *Proof:* induction on the rows; case analysis at the threshold; the rounding lemmas of RoundProofs; C106_original for the empty cells
  *Theorems* (`ShapeProps.v`): C159_rows, C159_value, C159_warning, C159_quiet, C159_exponential, C159_boundary, C159_blank.
* **C160 Data coordinates and axes coordinates are converted both ways** (partial). *Model:* xy_transform on axes with any monotone scale; matplotlib's transforms as affine maps of the scaled value (TickModel). *Proof:* field identities; monotonicity; case analysis of the names
  *Theorems* (`TickProps.v`): C160_forward_partial, C160_round_trip_partial, C160_lists_partial, C160_errors, C160_refuted.
* **C161 Tick labels of probability plots say the value** (partial). *Model:* customFormatter, customPercentFormatter, get_edge_distances and the choice of the locator (TickModel); the rounding of RoundModel; Flocq for the double 0.29. *Proof:* bounds on rounding to a grid; case analysis whether rounding raises the decimals; computation of two roundings in binary64
  *Theorems* (`TickProps2.v`, `TickProps3.v`): C161_percent_partial, C161_percent_refuted, C161_two_thirds_refuted, C161_default_ticks, C161_x_label, C161_x_order, C161_locator, C161_double_refuted.
* **C162 Coloured text looks as asked and nothing else does** (partial). *Model:* colorprint as the bytes it writes (TermModel); a terminal that reads them, with both readings of code 21 (TermSpec). *Proof:* execution of each control sequence from an arbitrary look; induction on the text and on the sequence of calls; the case analysis of names through C06's same_text
  *Theorems* (`TermProps.v`): C162_shown_partial, C162_history, C162_refused, C162_bold_refuted.
* **C163 Mixture proportions in double precision** (partial). *Model:* the sum and the check of the proportions with rounding after every operation (MixFloatModel). *Proof:* Flocq: monotonicity of rounding between representable neighbours; ties to even at 1 - 2^-54; induction on the list for exact sums; computed roundings for the witness
  *Theorems* (`MixFloatProps.v`): C163_two_partial, C163_fitted, C163_binary_partial, C163_each, C163_refuted.
* **C164 The figure of plot() and the print of stats() show the statistics of the distribution** (partial). *Model:* the nine texts of the statistics panel of plot() with and without the checks for messages, and the rows of stats() (PanelModel); the labels of the quantiles are simplified (no mathtext). *Proof:* composition of the accuracy of round_and_string (C141) with the moments (C120) and with median and mode (C50); cases for the missing statistics
  *Theorems* (`PanelProps.v`): C164_panel, C164_stats, C164_dszi_partial, C164_dszi_refuted.
* **C165 The shaded confidence band is the region between the bounds** (proved). *Model:* the vertices of the polygon of fill_no_autoscale and of the lines; exponential_CI with plot_CI=True (BandModel); the fill rule is specified in BandSpec. *Proof:* counting of edges above a point: additivity over concatenation, invariance under reversal, at most one edge of a monotone line above; for Exponential composition with clean_CI_arrays and no_reverse
  *Theorems* (`BandProps.v`, `BandProps2.v`): C165_reliability, C165_time, C165_paper, C165_exponential.
* **C166 Results of a combined model do not depend on what was done before** (partial). *Model:* the methods of the combined models on a heap of arrays, with the attributes as addresses, the cap written in place and the actions of the caller (HistModel). *Proof:* the combiner allocates and never writes to old addresses; induction over the history for the frame; C166_value computes the result in any state
  *Theorems* (`HistProps.v`, `HistProps2.v`): C166_value, C166_unchanged, C166_new_array, C166_history, C166_show_plot_partial, C166_show_plot_refuted, C166_competing_risks, C166_mixture.
* **C167 Random test data is reproducible** (partial). *Model:* make_right_censored_data and make_ALT_data with the state of the global random generator (SeedModel), the generator being a parameter. *Proof:* state independence of each pass of the loop as every draw follows a seeding; refinement to OtherModel, whose theorems C76 and C102 then apply; induction over the stresses for the prefix
  *Theorems* (`SeedProps.v`): C167_right_censored, C167_threshold, C167_bad_seed, C167_numbers, C167_history, C167_unseeded_refuted, C167_numbers_ALT, C167_levels, C167_prefix.
* **C168 The shaded band of a fitted distribution shows its confidence limits** (partial). *Model:* the plotting part of the six *_CI functions for two parameters (FitBandModel): the arrays of reliabilities and times, the cleaning, the correction of reversals and the polygon; the last cumulative hazard drawn is a parameter. *Proof:* the rows kept by the cleaning are those for which a call with a single point succeeds; no_reverse characterised; then C165 for the polygon and C98 for the spacing
  *Theorems* (`FitBandProps.v`, `FitBandProps2.v`): C168_time, C168_reliability_partial, C168_no_gap, C168_range_refuted, C168_curve_reliability_partial, C168_curve_time.
* **C169 The histogram and the P-P plots of Fit_Everything show the data** (partial). *Model:* EvPlotModel: percentile, num_bins, histogram_plot, P_P_plot and probplot_layout of Fit_Everything; the fitted distribution function is a parameter. *Proof:* the edges of the bins are an arithmetic progression; counts of neighbouring bins add up by induction; C13 for the order of the Kaplan-Meier estimates and C69 for downsampling
  *Theorems* (`EvPlotProps.v`, `EvPlotProps2.v`): C169_bars_partial, C169_no_histogram, C169_histogram_refuted, C169_pp, C169_axes_refuted, C169_layout, C169_layout_runs, C169_quartiles, C169_ties, C169_one_bar, C169_some_bar.
* **C170 The results tables of the nonparametric estimators are consistent** (partial). *Model:* NTableModel: the data frame results of KaplanMeier, NelsonAalen and RankAdjustment. *Proof:* induction over the loops of the estimators; counting in sorted lists; C15, C17 and C18 for the bounds
  *Theorems* (`NTableProps.v`): C170_rows, C170_remaining_partial, C170_remaining_refuted, C170_kaplan_meier, C170_nelson_aalen, C170_limits.

Not expressible in this model: the quality of the answers of scipy's optimisers beyond
what a theorem about their result can say, the appearance of plots, floating point
rounding other than in C157 and C158, running time.

## 4. Findings: where a property is false of the code, or only partly proved

* **C07** REFUTED in general: xlsx_to_XCN re-reads its own output column without passing on the requested codes, so codes 1/0 come back swapped. _partial: preserved when the requested codes are common codes with their documented meaning.
* **C12** REFUTED in general: pandas' default sort is unstable; a legal sort that puts a censored item before a failure of the same time gives a different value (witness). _partial: proved for every order with failures first at ties, and for every order when no failure coincides with a censored time.
* **C16** REFUTED at the last point: when the largest observation is a failure the last lower limit is a copy of the previous one and can exceed the reliability 0 (witness at CI=0.95). _partial: equal lengths always; bracketed at every point but the last, and at the last when the largest observation is censored.
* **C17** Also: confidence limits bracket for CI > 0 (with CI = 0 the last half-width is inf*0 = nan).
* **C18** Limits for CI > 0 (with CI = 0 and a failure last the half-width is nan).
* **C20** REFUTED for CI < 1/2: the limits use the one-sided quantile -ppf(1-CI), negative there, so lower > MCF > upper (witness CI=1/4). _partial: everything for 1/2 <= CI < 1; monotonicity and first value for every CI.
* **C21** REFUTED: each system is sorted in place. _partial: every list comes back as its sorted permutation, unchanged if it was sorted.
* **C23** REFUTED with test_end: the code divides (failures + 1) by the time of the last failure. _partial: proved without test_end.
* **C31** REFUTED when the common proportion is 0 or 1: the half-width is 0 and 0 is not strictly inside, so the samples are reported significantly different (witness 0/5 and 0/5). _partial: proved whenever 0 < successes < trials.
* **C35** REFUTED for failure terminated tests: the nan MTBF of 0 failures never fails the check, so 0 is returned instead of ValueError. Proved in full for time terminated tests; _partial is the remaining content for failure terminated ones.
* **C36** REFUTED for failure terminated tests: nan is returned when one failure already gives a small enough producer's risk. Proved in full for time terminated tests, including existence of the answer (Chebyshev bounds); _partial is the remaining content for failure terminated ones.
* **C43** REFUTED: with the default Kt=1.0 and crack_type='edge' the transition length divides by (1.12*1.0/1.12)**2-1 = 0, so every call with defaults raises ZeroDivisionError. _partial: every other valid call, with 1.12*Kt above the geometry factor, succeeds.
* **C44** REFUTED: with both traces omitted (the default) 'None not in unique_temps' always raises ValueError. _partial: with both traces and data grouped by temperature the trace lies on that temperature's least squares line.
* **C46** REFUTED for HF/CHF on arrays that are not increasing: the first (number of entries <= gamma) entries are set to 0, whichever they are (witness). CDF+SF=1 proved for all arrays; _partial: HF = PDF/SF and CHF = -ln SF at every entry with SF > 0 other than x = gamma, for arrays whose entries up to gamma come first (every increasing array), all eight distributions. scipy's functions are modelled by their closed forms / incomplete integrals, not by their floating point.
* **C47** Density = derivative of CDF inside the support for all eight distributions (Gamma and Beta through their incomplete integrals); zero outside; integrates to the differences of the CDF and to 1 in total.
* **C48** All eight distributions.
* **C49** For 0 < p < 1, all eight distributions; lists too.
* **C50** Mode for every distribution that reports one.
* **C51** REFUTED for HF/CHF on arrays that are not increasing, as C46. PDF, CDF, SF, quantile, median, mode: proved for all arrays; _partial: HF/CHF for arrays whose entries up to gamma come first.
* **C52** REFUTED: with a location gamma > 0 HF and CHF of a scalar raise TypeError (a slice of a float is assigned); without one, negative and zero x give powers of negative numbers or ZeroDivisionError where the array raises ValueError or gives inf (witnesses). _partial: scalar and array agree for gamma = 0 and x > 0.
* **C53** REFUTED for arrays that are not increasing (columns are assembled negative part first: witness), and valid calls are rejected when no x is non-negative or a Beta component meets x > 1. _partial: for every increasing array the call accepts, at every entry: SF product, CDF, bound by each component; HF sum, PDF = HF*SF, CHF where the component hazards are defined (SF > 0 and x not equal to the location of a cut-off family).
* **C54** REFUTED: negative proportions that add to 1 are accepted and the CDF exceeds 1 (witness). _partial: for increasing arrays the weighted sums always hold; the bounds for non-negative proportions. Rejection of bad proportions proved in full (exact sums; the floating point sum test is not modelled).
* **C55** REFUTED: quantile comes from a table over [ppf(1e-10), ppf(1-1e-10)], so at q = ZI and q = DS the CDF of the answer differs from q for every base distribution; q in a list is checked against [0,1] only. _partial: within one grid step of the exact quantile for q inside the table. CDF, SF, PDF parts proved in full.
* **C56** REFUTED: median is copied from the base distribution (witness). _partial: CDF(median) = (DS+ZI)/2, which is 1/2 exactly when DS + ZI = 1.
* **C57** REFUTED: draws without any failure make base.random_samples(0) raise ValueError; such draws are possible for every n when ZI > 0 or DS < 1. _partial: with at least one failure among the draws the counts add up, failures never exceed the censoring time, the samples are exactly the drawn values cut off at that time.
* **C58** Terms proved for all 20 likelihoods. REFUTED for the zero inflated fitters at ZI = 0: the zero failures are then left out of the likelihood, so ZI = 0 always beats the true maximum (C58_zero_inflated_refuted, C58_zero_inflation_ignored). _partial: proved whenever ZI > 0 or there are no zero failures.
* **C61** REFUTED for log-likelihoods above zero: rows are sorted by |loglik|, so the worst fit is named best (C61_loglik_refuted); and for sort_by 'AICC' with a missing AICc, TypeError (C61_AICC_refuted). Proved: BIC, AD, AICc (fallback to BIC included) in every case; _partial: log-likelihood when none is positive. pandas' sort is any sorting function.
* **C62** REFUTED: 3 distinct failures are always rejected (the mixture needs 4; the exclusion test is < 3), and ties can leave one group of the mixture with a single value (witness). _partial: accepted with 2 or at least 4 distinct failures without ties; all distributions but the mixture and competing risks accept any 3 distinct values. The kernel density dividing line is an oracle.
* **C63** REFUTED: the choices compare |log-likelihood|, so with positive log-likelihoods the worse estimate is returned (witnesses for LS and MLE). _partial: proved when log-likelihoods are not positive. The default takes the first success, as documented; failures return the initial guess.
* **C66** REFUTED at two points: the mu of a Gamma fit with alpha = 1 has a nan limit, and after least squares a singular Hessian raises TypeError (C66_refuted). _partial: every other row of every fitter. Widening, coverage and the meaning of each scale are proved.
* **C67** REFUTED for Exponential bounds on reliability at three or more points out of order: no_reverse is applied to the user's points (C67_refuted); and Exponential bounds on time may be refused because of grid points the user did not ask for (C67_exponential_time_refused_refuted). Proved in full for all other distributions; Exponential on time; _partial: Exponential on reliability for ordered points. The numerical derivatives of the incomplete Gamma function are an oracle.
* **C68** REFUTED for fitted values above 1 - 1e-12: the last piece is then traversed backwards (C68_refuted). _partial: identity and non-negativity for fitted values in (0, 1 - 1e-12]; order independence in full; a fitted value of 0 or 1 gives nan.
* **C69** REFUTED: x and y are sorted separately, so points that are not in the data are returned unless both are increasing (C69_points_refuted); a factor of 1 is taken for True and thins the data (C69_factor_one_refuted). Proved: extremes, size by default, every k-th value; _partial: points of the data when both lists are increasing.
* **C70** REFUTED: [3,5,1,2] becomes [3,5,1,1], which reverses (C70_refuted). _partial: curves with at most one turn become monotone. Unchanged-if-monotone and idempotence proved in full.
* **C71** Proved for aligned arrays row by row; C71_result covers arrays of any lengths.
* **C73** REFUTED for single stress models: a censored stress at which nothing failed shifts the censored groups (C73_single_refuted); the check is commented out in the source. _partial: single stress with every censored stress among the failure stresses. Dual stress and the failure groups in full.
* **C74** All 24 fitters; stresses positive.
* **C75** The exact value is proved equal to the improper integral over the real line of the strength density times the stress survival function.
* **C76** REFUTED in its last clause: an ndarray passed without a threshold is shuffled in place, even when the call then raises (C76_caller_refuted). _partial: lists, and arrays with a threshold, are unchanged; an array is only permuted. Everything else in full.
* **C77** REFUTED: the code multiplies the preventative cost by the expected number of failures and charges the corrective cost once (witness). _partial: proved for equal costs.
* **C78** REFUTED: giving all of AF, T_acc and Ea is accepted but sets nothing (AttributeError when printing). _partial: all other combinations.
* **C80** REFUTED twice: without an endurance limit y_upper is never assigned, so every such call fails; with one the lower bound is clipped at limit - residual and a failure can lie below it (witness). _partial: the upper bound always encloses; the lower bound does unless the failure lies more than the residual below the endurance limit.
* **C81** REFUTED: the band uses cycles instead of log10(cycles) in the (x-mean)^2/DEVSQ term (witness). _partial: the band is symmetric about the curve.
* **C82** REFUTED: the traces use the unclipped line below the endurance limit (witness). _partial: proved above the limit.
* **C84** The solver (scipy fsolve) is an oracle returning exact roots on the physical branch; C84_runs_exist shows such roots exist for every tension run.
* **C85** REFUTED: for 1/n not an integer the equation handed to the solver for compression has no root (nan). _partial: exact mirror image when 1/n is an odd integer.
* **C86** Solver answers: the equation has exactly one positive root, which is the life.
* **C87** REFUTED: strain_life_diagram computes (s/K)**(1/n) for a negative min_stress s; with 1/n even the strains have the wrong sign (witness). _partial: agreement when min_stress is omitted or zero.
* **C88** The solver is an oracle returning positive exact roots; C88_case is a concrete plastic run.
* **C89** REFUTED: data are sliced between first occurrences, so ungrouped data are misassigned (witness). _partial: proved for data grouped by temperature.
* **C90** REFUTED: a centre crack can jump past W/2, the square root becomes nan and no test ever stops the loop (witness: no number of passes suffices). _partial: terminates whenever a_final lies inside the plate.
* **C91** REFUTED with a_final: the critical length is reported instead of the length reached (witness). _partial: without a_final it is strictly less than the length reached; stage counts add up.
* **C92** REFUTED with a notch: a positive number of cycles is reported because a_initial is not extended by the notch depth. _partial: proved without a notch.
* **C93** Quantiles read from the interpolation table; DSZI is C55_quantile_partial. Proportions non-negative.
* **C95** REFUTED: with fewer than 3 failures six names are appended to the caller's list (witness: a later call leaves out Weibull_3P). _partial: unchanged with at least 3 failures. The fitted set is characterised in full (C95_fitted).
* **C96** REFUTED: with gamma < 0.01 the two-parameter fitter is called with its default method MLE while the reported method stays what the user chose. _partial: gamma >= 0.01 or method MLE.
* **C98** REFUTED for the beta transform with alpha <> beta: the parameters are passed to scipy in the wrong order (C98_refuted). _partial: equal spacing for every other paper; number, bounds, order and errors in full.
* **C99** REFUTED: a single plotting position below spacing/(1+spacing) gives a negative lower y-limit; equal non-positive x on Normal and Gumbel plots give limits 0 and 2x. _partial: all other cases.
* **C100** REFUTED for 'any pair': the grid from the extreme quantiles of both may leave the domain of one of them, e.g. Normal(40,10) against Weibull(100,2) (C100_domain_refuted). _partial: the exact condition for a value to be returned. Accuracy for normal pairs and non-negativity in full. Mixture and competing risks objects are not modelled.
* **C101** REFUTED: Exponential_2P is built with the lambda of Exponential_1P (C101_results_refuted). _partial: without it. Fit_Everything is an oracle (any ranking, any parameters).
* **C102** Random draws, shuffles and uniform numbers are universally quantified. Stresses are positive.
* **C104** Covariance matrix (autograd Hessian) and optimizers are universally quantified.
* **C105** REFUTED for 'any other input is fitted': two or more equal failures at a stress raise ValueError in the fit of that stress's group; a failed optimisation with a singular Hessian raises TypeError. _partial: any other acceptable input is fitted.
* **C106** REFUTED for the Normal distribution: its acceleration factor does not scale time (C106_normal_refuted). Other distributions in full.
* **C107** REFUTED for several optimizers and positive log-likelihoods (short times): the answer nearest to zero is returned (C107_refuted). _partial: one named optimizer, or no positive log-likelihood. The default (first success) in full. The optimizers are universally quantified.
* **C108** REFUTED for dual stress data whose stresses are aligned on the model's scale, e.g. both raised together: accepted, but the matrix is singular and the parameters are not determined (C108_aligned, C108_aligned_refuted). _partial: dual stress, not aligned. Single stress and exact recovery in full.
* **C109** REFUTED: best_model_at_use_stress of the dual stress Lognormal models has mu = 1/life and of the dual stress Exponential models Lambda = life (C109_use_refuted); sorting by log-likelihood takes the absolute value (C109_loglik_refuted). _partial: the other models; no positive log-likelihood. What is fitted, order by BIC and AICc and errors in full. pandas' sort is any ascending rearrangement.
* **C110** REFUTED for the three-parameter fitters: a location below 0.01 time units is replaced by 0 (C110_threshold_refuted). _partial: when the location is on the same side of 0.01 in both units. Likelihoods, best fits and rankings in full, for every model with a scale.
* **C111** Proved for the likelihoods the fitters maximise and their best fits.
* **C112** With failures at time zero only the ZI model as a special case of DSZI is claimed.
* **C113** Existence and uniqueness in full for Weibull_2P, Gumbel_2P, Normal_2P, Lognormal_2P, Loglogistic_2P and Exponential_1P, and closed forms. REFUTED for three-parameter models: Exponential_2P has no best fit and the likelihood of Weibull_3P is unbounded whenever the smallest time is a failure. Missing: Gamma, Beta, mixture, competing risks, DSZI.
* **C115** REFUTED when a failure and a censoring coincide: the sort used is not stable, so two admissible sorts of one data set give different estimates (C115_order_refuted). _partial: no such coincidence, or sorts that put failures first.
* **C119** scipy's quad is an argument assumed to return the integral from t to infinity where it exists (quad_right).
* **C120** All distributions, including Gumbel (Euler's constant, zeta(2) = pi^2/6, zeta(4) = pi^4/90 proved).
* **C121** Parametric part in full. REFUTED for QQ_plot_semiparametric with censored data: the quantiles of one minus the estimated probabilities are paired in reverse, so failure i meets the quantile of 1 - q of the i-th failure from the end (C121_semiparametric_value says exactly what is drawn). _partial: complete data with method RA, where both agree.
* **C122** REFUTED for distributions with different supports: the common grid leaves the support of one and ValueError is raised, e.g. Normal against Exponential. C122_parametric_partial characterises exactly when it succeeds.
* **C123** REFUTED for PDF and HF of unsorted failures: differences are taken in the order given. _partial: failures given in increasing order. CDF, SF and CHF in full (order: no failure coincides with a censoring).
* **C124** REFUTED: a shifted distribution asked to start between its location and the 0.01 per cent quantile gets an x value below the location; a negative xmax and (Beta) an xmin above 1 are not refused. C124_half_line_partial and C124_leaves give the exact condition; Normal, Gumbel, Beta and the default limits in full.
* **C125** REFUTED: numpy.float64 numbers are refused, so CDF(quantile(q)) raises ValueError and the quantile lines of PP_plot_parametric always fail; -1 is accepted as a number and refused as a list. Level, type of interval, traced points, x values and errors in full; acceptance _partial.
* **C126** scipy's curve_fit is an argument. REFUTED for the text of one verdict: a straight line fitted without error (beta = 1, standard error 0) is announced as IMPROVING since Beta is less than 1; C126_improving_partial: any other case. Everything else in full.
* **C128** The fit and matplotlib's contour are arguments. REFUTED for the grid: it runs from a quarter of the lower limit to four times the upper one, so for the mu of a Normal, Gumbel or Lognormal near or below 0 it need not contain even the estimate (C128_grid_refuted: Lognormal, estimate -1/2, limits -1 and 0); C128_grid_partial: parameters with a lower limit of at least 0. Only the first line of each contour sets the limits of the axes (C128_limits). A CI that is a number but no Python float is refused (C128_levels, C128_errors).
* **C129** Arguments outside the classes listed in the model (for example a CI that is not a number) are not represented. numpy's conversion of the lists is the identity.
* **C130** The fit is an argument. REFUTED twice. quantiles=False, documented as 'no quantiles will be calculated', is passed on by the checks and refused after the fit, as is any string other than auto, default and on (C130_false_refuted). For the Exponential distribution the table is refused exactly when the upper limit of the rate is ten times the estimate or more (C130_exponential, C130_produced_refuted). C130_produced_partial: the other distributions, for a covariance that is one and quantiles below 1 - 1e-50.
* **C131** The fitters and the order of ties are arguments; the bounds around the line are C66-C70. REFUTED twice. Exponential_probability_plot_Weibull_Scale adds 0.009 to every time when gamma is fitted, whatever the unit of time, so the points leave the line (C131_points_refuted; C131_points_partial and C131_on_line_partial: the other eight plots). Gamma_probability_plot subtracts gamma from the points also when the distribution is not shown, although it prints that fit_gamma has been reset to False (C131_hidden_refuted; C131_hidden_partial: the other plots).
* **C132** scipy's simpson is modelled (version 1.15 or later, as setup.py asks for). The error bound is for integrands with a bounded rate of change. C132_no_mean: a model whose component has no mean (Loglogistic with beta <= 1) reports a finite number all the same, since only the range of the grid is integrated; the distribution itself says that there is none.
* **C133** REFUTED beyond the largest 1 - 1e-10 quantile: the grid then runs backwards and the reported value is negative, for every model without a Beta component (C133_refuted). Before it the value is right to within a step of the grid except for what lies after the quantile (the _partial theorems); it never exceeds the true value by more than a step.
* **C134** The generator (its states, seeding, and one draw of each standard member) is an argument, so the claim is about what the library makes of scipy's draws. The loop of the Beta distribution has no bound on its passes: it ends exactly when enough draws below 1 come (C134_beta).
* **C135** The source of uniform numbers is an argument with values in [0, 1). C135_close bounds the distance between the share and the distribution function for densities with a bounded rate of change; no sample lies outside the smallest 1e-10 and largest 1 - 1e-10 quantile of the components. A mixture whose density is zero at every point of the table is refused.
* **C136** REFUTED with a seed: the base distribution is called with the same seed and starts from the numbers that decided who fails, so for Weibull or Loglogistic bases (which scipy draws by inverting the distribution function) a failure time is the quantile at such a number (C136_seed_reused); with half the items dead on arrival a single sample never fails before the median of the base (C136_seeded_refuted). Proved without a seed (C136_unseeded_partial).
* **C137** REFUTED for maximum likelihood: with optimizer='best' (or 'all') the grouped fitter runs TNC only and can return a less likely estimate (C137_best_refuted); by default it gives up after TNC and returns the least squares estimate under the name of maximum likelihood where Fit_Weibull_2P goes on to three more optimizers (C137_default_refuted); times below zero are dropped silently where Fit_Weibull_2P raises (C137_negative_refuted). Proved: least squares in full, maximum likelihood when the optimizer settles at once (C137_MLE_partial), and what is returned in every other case (C137_MLE_runs).
* **C138** The limits chosen by matplotlib itself while drawing are an argument, assumed to contain the points of the curve where a theorem needs it. REFUTED: a view of exactly 0 to 1 in both directions is taken for fresh axes, so that the next plot replaces the limits and can hide all of the curve before (C138_blank_refuted). On any other view nothing is hidden to the left, right or below, and above only where the top is left to matplotlib (C138_keeps_partial), for any number of plots (C138_history_partial).
* **C139** REFUTED: for Exponential fitters the dashed line is an Exponential distribution although the one fitted to the stress alone is a Weibull distribution with another shape (C139_dashed_refuted); with more than ten stresses, the use stress included, matplotlib's ten default colours run out and the fitter raises IndexError (C139_many_refuted). Proved: the points and solid lines (C139_groups), dashed lines of the others, the use stress, the axes, and that up to ten stresses are drawn (C139_made_partial).
* **C140** REFUTED: a use stress above the test stresses is off the chart when one stress is plotted (C140_use_refuted, with a case), the line does not reach the lower stresses when they are far apart, e.g. 1 and 50 (C140_line_reaches_refuted), and more than ten stresses raise IndexError (C140_many_refuted). Proved: the failures (C140_failures), the points of the line (C140_line), where the line reaches (C140_line_reaches_partial), the axes when life falls and the use stress is not above the test stresses (C140_axes_partial, C140_shown_partial), and the surface for two stresses (C140_surface).
* **C141** The text is modelled by its notation and digits, floats by reals. REFUTED: with fewer than 4 decimals a number between 0.0001 and half a unit of the last place is shown as zero; the legends of the probability plots use 3, so that a failure rate of 0.0004 reads 0.0 (C141_sign_refuted) and looks smaller than 0.00005, which reads 5e-05 (C141_order_refuted; also from 10^9 on); 10^20 is documented to read 1e+20 but is shown with all digits (C141_documented_refuted). Proved: accuracy, notation, relative error, signs and order with 4 decimals or more, the other examples, other arguments, and titles.
* **C142** The widgets of matplotlib are modelled by what the code relies on: a slider clips to its range and calls its observers in order, a new slider in the same place replaces the old one, hidden sliders receive no events. Curves are given by the distribution that draws them.
* **C143** REFUTED: decimals=0 is accepted, but then every click raises TypeError (a string plus an int), and the texts while hovering are truncated towards zero (C143_click_refuted). Proved: the arguments, the texts and lines while hovering, labels with any other number of decimals (C143_click_partial). The selected point is an argument (mplcursors chooses it); dates are not modelled.
* **C144** The least squares routine, scipy's minimize, the inverse of the matrix of second derivatives and the sort of pandas are universally quantified oracles; what is assumed of them (returns as many numbers as asked, stays within the bounds) is stated in FullFitSpec. Gamma stores the errors of mu = ln(alpha), as the code does. Warnings, printing and plots are left out.
* **C145** REFUTED for the three-parameter fitters (C145_three_refuted: a search that ends at a location below 0.01 is replaced by the two-parameter fit, even if the least squares fit is more likely) and for rank regression when the log-likelihoods are positive (C145_rank_regression_refuted: the guess is chosen by the absolute value of the log-likelihood). Proved: all other fitters against least squares, three-parameter fits that keep their location, and rank regression when both log-likelihoods are not positive.
* **C146** REFUTED: Fit_Exponential_2P, Fit_Gamma_2P and Fit_Beta_2P document RRX and RRY but always use non-linear least squares (C146_refuted). Proved: the fitters with rank regression use the regression asked for and name it; LS takes the more likely one when both log-likelihoods are not positive (C146_better_partial); the others use and name non-linear least squares.
* **C147** np.polyfit is the solution of the normal equations. Times that are all equal, targets that are not positive and a model with constant MTBF and a target give results that are not finite and are left out.
* **C148** REFUTED on log axes: the lower limit of the MTBF axis ignores the target, so the whole target line can be off the chart (C148_target_log_refuted); the lower limit of the time axis compares a time with the target MTBF instead of the time to target. Proved: failures and curve on both scales, the target line on linear axes, and its corner on log axes when the target is not below the lowest observed MTBF and the time to target not below both the first failure and the target (C148_target_log_partial).
* **C149** Least squares, optimizers, the inverse of the matrix of second derivatives, pandas' sort and the kernel density estimate behind the dividing line are arguments, constrained only by the hypotheses in each statement. When ZI is estimated as exactly 0 although there are failures at zero the log-likelihood leaves them out (C58). Data whose halves have fewer than two different failures are refused (C62_ties_refuted).
* **C150** REFUTED: on Linux and macOS the new name is joined with a backslash, so the new file lands in the parent directory (C150_posix_refuted); on Windows a path without a directory becomes one in the root of the drive (C150_relative_refuted); a name with a second dot loses its extension and pandas raises (C150_extension_refuted); a file that may be written but not read is overwritten without a question (C150_unreadable_refuted). Proved in full: one file changes, a readable file only with consent, a refusal keeps it, the questions and the search end, the options. The new name is proved for Windows paths with a directory and one dot (C150_new_name_partial).
* **C151** REFUTED for XCN with some codes: a text and a number (numpy turns both into texts and the number is not recognised, C151_mixed_refuted); a text that pandas reads as missing, such as NA (C151_missing_refuted); codes of one's own cannot be kept by xlsx_to_XCN, which reads its own output with the default codes (C151_own_codes_refuted). Proved: FR and FNRN for all data, and XCN when both codes are texts or both numbers, survive pandas, and the codes asked for are documented ones (C151_XCN_partial).
* **C152** REFUTED: blanks are removed from each column separately and only the lengths are compared, so blanks in different rows shift the entries and observations are read that no row has (C152_XCN_rows_refuted, C152_FNRN_rows_refuted). Proved: rows that are complete or blank, columns with different numbers of entries, and FR.
* **C153** REFUTED: the top of the axes of a cumulative hazard is set from the point before the last, so the last step of NelsonAalen and RankAdjustment, which is finite, can be off the chart (C153_NelsonAalen_refuted, C153_RankAdjustment_refuted); and the band of Kaplan-Meier and Nelson-Aalen is not around the last point (C16_kaplan_meier_steps_refuted). Proved: the line is the estimate, it is monotone, the band is around every other point, every other point is seen.
* **C154** REFUTED: the mark of the time plot can be beyond the axes (C154_time_view_refuted; exact condition for q=1 in C154_time_view_old, C154_time_view_new_partial for q=0 and alpha >= 1/3); for q=1 the plot shows the opposite of 'dearer failures, earlier replacement' (C154_ratio_old_refuted), for q=0 it holds for beta >= 1 (C154_ratio_new_partial); the line of the ratio plot can leave the axes (C154_ratio_view_refuted, exact condition for q=1 in C154_ratio_view_old). The rest is proved: C154_time, C154_ratio, C154_runs.
* **C155** REFUTED: for CI below 0.5 the band is on the wrong side of the line and the line can leave the axes (C155_view_refuted). C155_view_partial: proved for CI from 0.5 on. The rest is proved: C155_line, C155_parametric, C155_runs.
* **C156** REFUTED in one part: at every confidence level there are failure times with an improving trend whose estimated intensity rises, and with a worsening trend whose estimated intensity falls (C156_trend_refuted). C156_trend_partial: it does not rise if the mean age at failure is at most 1/e of the time observed. The rest is proved: C156_maximum_likelihood, C156_given, C156_points, C156_line, C156_runs.
* **C157** each arithmetic operation of the loops is followed by Flocq's rounding to nearest even in binary64 with gradual underflow; the relative error is at most m * 2^-52 for m roundings (C157_meaning). np.exp and the half width of the bounds are arbitrary up to monotonicity and sign.
* **C158** as C157; the constant a is any double between 0 and 1. C158_censored compares the ranks with those of exact arithmetic (adjusted_ranks of NonparModel), which are in C14.
* **C159** the fits at single stresses are arbitrary with positive shape. C159_boundary: the warning can be printed with +50.0% as the largest percentage shown, as the threshold is on the unrounded change. A text is modelled by its digits; -0.0% and 0.0% are not distinguished.
* **C160** REFUTED: the name X of the x axis, which is accepted, gives the y axis, and a list of values cannot be converted on the y axis: the whole list is passed instead of the item, ValueError (C160_refuted). Proved for the names x and y and, forward, for lists on x. matplotlib's transforms are modelled for axes whose directions are independent.
* **C161** REFUTED for percentages from 1 on: where rounding to 8 decimals raises the percentage, the label is 1 too low (C161_percent_refuted): 2/3 is labelled 65.66666667% (C161_two_thirds_refuted) and, in double precision, the tick 0.29 is labelled 28.0% (C161_double_refuted). C161_percent_partial: right below 1%, where it is not raised, and where there are no more than 8 decimals, so for all default ticks (C161_default_ticks). The x axis and the locator are proved in full.
* **C162** REFUTED for a terminal that is already bold: code 21 for not bold means double underlining in ECMA-48, bold stays on (C162_bold_refuted). C162_shown_partial, C162_history: from a plain terminal every text looks as asked, on terminals of both kinds. The terminal (control sequences ESC [ n m) is part of the specification. str.upper is modelled on ASCII.
* **C163** REFUTED for three proportions: 30%, 60%, 10% are refused because their doubles do not add to exactly 1 from the left, the same in another order are accepted (C163_refuted). Proved: any two proportions a and 1 - a, rounded to doubles, are accepted (C163_two_partial), so every fitted mixture can be built (C163_fitted); for multiples of 2^-52 the check is exact (C163_binary_partial). np.sum is modelled for fewer than eight numbers.
* **C164** REFUTED for DSZI models: plot() of a DSZI model raises TypeError exactly if its base is a Loglogistic distribution with beta <= 4 or a Beta distribution with alpha or beta <= 1, as the missing statistic is a text and is rounded without a check (C164_dszi_refuted, C164_dszi_partial). Proved for the distributions: all nine texts, from the moments as integrals to the decimals shown (C164_panel), and stats() (C164_stats).
* **C165** The region is stated with the even-odd rule for polygons (BandSpec.inside); the half-open convention of the rule decides the points on the upper edge and at the last time.
* **C166** REFUTED for show_plot: PDF and HF return values above 10^100 (and inf) as 10^100 if a plot is shown, and unchanged if not (C166_show_plot_refuted); CDF, SF and CHF, and PDF and HF below 10^100, return the same (C166_show_plot_partial). Proved: independence of the history (C166_history, C166_value), the values for competing risks and mixtures after any history (C166_competing_risks, C166_mixture), arrays of the caller are not changed (C166_unchanged), results are new arrays (C166_new_array).
* **C167** REFUTED without a seed: make_ALT_data calls np.random.seed(None), so it is not reproducible after np.random.seed(s) by the user (C167_unseeded_refuted) and its result never depends on the state of the generator (C167_history). Proved: the seeds of make_right_censored_data (C167_right_censored, C167_threshold, C167_bad_seed, C167_numbers), of make_ALT_data (C167_history), where its numbers come from (C167_numbers_ALT, C167_levels), added stresses (C167_prefix). The generator is universally quantified; arrays are drawn number by number.
* **C168** REFUTED for the range of the band on reliability: gamma_CI starts it at time 0.0001 if gamma=0, so for Gamma(1e-6,1,0) all that is drawn lies beyond the 0.99999 quantile (C168_range_refuted). Proved: the band on time for all six distributions (C168_time) without gaps (C168_no_gap), and the band on reliability unless the 0.99999 quantile of a Gamma distribution without location is below 0.0001 (C168_reliability_partial). The fitted function is between the lines (C168_curve_time, C168_curve_reliability_partial).
* **C169** REFUTED twice. (1) If the quartiles of the failures are equal the bin width is 0 and int(inf) raises OverflowError, so Fit_Everything fails with its default plots (C169_histogram_refuted: 1,2,2,2,2,2,3; C169_no_histogram: always). (2) The title of the P-P plots says the fitted probability is on the x axis; it is on the y axis (C169_axes_refuted). Proved: the bars for every data set with different quartiles (C169_bars_partial), the points and limits of the P-P plots with the Kaplan-Meier probability on the x axis (C169_pp), the subplots (C169_layout, C169_layout_runs). Which data have no histogram: those with a value such that at most a quarter are smaller and at most a quarter larger (C169_ties). The quartiles are those of linear interpolation (C169_quartiles). Every failure is in exactly one bar (C169_one_bar, C169_some_bar).
* **C170** REFUTED for ties: among items with the same time the rows count down although all were still there (C170_remaining_refuted). Proved: the number is right if all times differ (C170_remaining_partial) and in general above the number of items there after the time and at most the number there until then (C170_rows, also the rows and their order); the steps of the estimates (C170_kaplan_meier, C170_nelson_aalen); the bounds (C170_limits).

Other observations made while modelling:

* C170: Items remaining in the results of KaplanMeier, NelsonAalen and RankAdjustment counts down among items with equal times, so it is not the number of items at risk.
* C169: Fit_Everything with its default histogram raises OverflowError if the lower and the upper quartile of the failures are equal (bin width 0), for instance 1, 2, 2, 2, 2, 2, 3. The P-P plots have the Kaplan-Meier probability on the x axis although the title says the opposite.
* C168: gamma_CI draws its band on reliability from the time 0.0001 if gamma = 0, whatever the scale: for a small scale all of it lies beyond the 0.99999 quantile.
* C167: make_ALT_data calls np.random.seed(seed) also for seed=None, which reseeds the global generator from the operating system: np.random.seed(s) by the user neither makes it reproducible nor survives it. The samples of a stress and their censoring use the same seed, so the order of censoring and the censoring times are drawn from the same state as the samples.
* C166: Competing_Risks_Model and Mixture_Model: PDF and HF with show_plot=True (the default) return inf as 1e100, with show_plot=False as inf (for the PDF of competing risks 1.8e308), because the array is capped in place for the plot.
* C164: DSZI_Model.plot() raises TypeError if its base is Loglogistic with beta <= 4 or Beta with alpha or beta <= 1: unlike the plot() of these classes it rounds the statistic without a check that it is a number.
* C163: Mixture_Model tests np.sum(proportions) != 1 exactly; [0.3, 0.6, 0.1] is refused, [0.1, 0.3, 0.6] is accepted.
* reshow_figure (Utils.py 7515) starts with type(ax) although no ax is defined in the module or the function: every call raises NameError. (No theorem: nothing else of it can be reached.)
* C162: colorprint switches bold off with ESC[21m, which is double underlining in ECMA-48 (22 is bold off); it only works because every call ends with a reset.
* C161: customPercentFormatter subtracts the rounded decimals from the percentage and truncates; where the rounding raised the decimals (also by the last bit of a double, as at 0.29) the label is 1% too low.
* C160: xy_transform(axis='X') converts on the y axis; xy_transform(list, direction='forward', axis='y') raises ValueError because it passes the list instead of the item.
* C156: ROCOF takes the trend from the mean age at failure (Laplace) and the power law from the mean logarithm; the two can contradict each other, and then the line of the plot goes against the trend in the title.
* C155: below CI = 0.5 the upper limits of MCF_nonparametric are below the estimate (C20), and the axes end at 1.05 times the largest upper limit, so the line can leave the chart.
* C154: optimal_replacement_time(q=1): the plot against the ratio shows later replacement for dearer failures (the swapped costs of C77); the time plot ends at 4 alpha even if the optimum is later; with q=0 and alpha < 1/3 the grid runs down from 1 to 3 alpha and the mark can be off the chart.
* C153: the upper y limit of a CHF plot is CHF[-2]*1.2, because the last value of Kaplan-Meier can be infinite; for NelsonAalen and RankAdjustment the last value is finite and larger, and its step can be off the chart.
* C152: xlsx_to_XCN and xlsx_to_FNRN drop blanks column by column (removeNaNs) and then only compare lengths; blanks in different rows pair entries of different rows without an error.
* C151: xlsx_to_XCN(..., censor_code_in_XCN, failure_code_in_XCN) raises for output codes outside the default lists.
* C150: write_df_to_xlsx joins directory and new name with a backslash on every platform, takes only the first two pieces of the name split at dots, and tests for existence by opening for reading.
* C148: on log axes reliability_growth computes the lower limits from min(times), target_MTBF (as if it were a time) and min(MTBF_c); a target below the observed MTBFs is drawn off the chart.
* C145: the three-parameter fitters discard a fit with gamma < 0.01 in whatever unit the data are in, so for data in small units the maximum likelihood fit can be less likely than least squares.
* C146: Fit_Exponential_2P, Fit_Gamma_2P and Fit_Beta_2P document method='RRX' and 'RRY'; LS_optimization uses non-linear least squares for them whatever is asked for.
* C143: crosshairs(decimals=0) makes each coordinate an int and adds it to a string in the label of a click: TypeError.
* C141: round_and_string rounds to `decimals` places every number above 0.0001, so the calls with 2 or 3 decimals (legends of probability plots and fitters, ROCOF, optimal_replacement_time) show numbers such as 0.0004 as 0.0.
* C139, C140: color_cycle[i] of the ALT plots has ten entries; an eleventh stress raises IndexError at the end of a successful fit unless both plots are switched off.
* C140: life_stress_plot takes the use stress into the minimum of the stresses but not into the maximum, and draws its line from 0 in steps of a hundredth of the axis, the first of which has an infinite life and is not drawn.
* C138: get_axes_limits recognises fresh axes by their limits (0, 1) x (0, 1), which a plot can also have.
* C137: Fit_Weibull_2P_grouped turns optimizer='best' into 'TNC' (comment: temporary correction), and reports the method MLE after falling back to least squares.
* C136: DSZI_Model.random_samples(n, seed=s) seeds the generator twice with s, once for the classes and again inside base.random_samples, so the failure times are made from the same uniform numbers as the classes.
* C131: Exponential_probability_plot_Weibull_Scale shifts by gamma - 0.009, a constant in the unit of the data: with times around 0.01 the points are displaced by as much as their value. The comment in the code calls the difference negligible.
* C131: Gamma_probability_plot(fit_gamma=True, show_fitted_distribution=False) warns that fit_gamma has been reset to False but still plots time - gamma. A fit_gamma that is neither True nor False (for example 1) ends in UnboundLocalError in the six plots with that argument.
* C130: `Fit_Weibull_2P(failures, quantiles=False)` fits and then raises ValueError (refused by distribution.quantile), although the checks accept False and document it as no quantiles. `quantiles='AUTO'` fails the same way.
* C130: with one failure, `Fit_Exponential_1P(failures=[t], CI=0.99, quantiles=True)` raises ValueError: bounds on reliability over an unrelated grid fall below 1e-50 whenever the upper limit of the rate is at least ten times the rate.
* MCF_nonparametric uses a one-sided normal quantile and MCF_parametric a two-sided one for the same CI; both docstrings say one sided.
* Distribution classes check that parameters are given but not that they are positive, although the docstrings require it.
* distributions_input_checking writes plot_CI == True for plot_CI = True, so None stays None.
* ALT fitters: a failed optimisation whose Hessian is singular raises TypeError (the fallback estimate is None).
* ALT fitters: stresses are not checked to be positive although logarithms and reciprocals of them are taken.
* Utils.linear_regression: the docstring describes the x- and y-intercept arguments the wrong way round.
* Utils.clean_CI_arrays: the docstring announces an error below two items; the code only prints a warning below one.
* The location threshold 0.01 of the three-parameter fitters is not free of units (C110).
* Exponential_2P has no maximum likelihood estimate and the Weibull_3P likelihood is unbounded (C113); the answer of the fitter is where the bounds of the optimiser stop it.
* Sorting by log-likelihood, LS choice and optimizer choice all use |log-likelihood| (C61, C63, C107, C109).

## 5. Print Assumptions for each theorem

Every property theorem is followed by `Print Assumptions` in its file.  Short names:
F = `FunctionalExtensionality.functional_extensionality_dep`,
D = `ClassicalDedekindReals.sig_forall_dec`,
N = `ClassicalDedekindReals.sig_not_dec`,
C = `Classical_Prop.classic`.  All four belong to the standard library (the first three
are what its real numbers rest on); no other axiom occurs.

* **closed under the global context**: C01_FR_XCN_FR, C02_FR_FNRN_FR, C03_FNRN_canonical, C04_FNRN_XCN_FNRN, C05_conversions_preserve_observations, C06_XCN_to_FR_exact, C06_case_ignored, C06_only_case, C07_xlsx_to_XCN_codes_partial, C07_xlsx_to_XCN_codes_refuted, C95_exclude_unchanged_partial, C95_names, C143_arguments, C143_rejects, C150_consent, C150_ends, C150_errors, C150_extension_refuted, C150_fresh, C150_new_name_partial, C150_no_loss, C150_options, C150_posix_refuted, C150_refusal, C150_relative_refuted, C150_unreadable_refuted, C150_waits, C151_FNRN, C151_FR, C151_FR_again, C151_XCN_default, C151_XCN_partial, C151_missing_refuted, C151_mixed_refuted, C151_own_codes_refuted, C152_FNRN_partial, C152_FNRN_rows_refuted, C152_FR, C152_XCN_partial, C152_XCN_rows_refuted, C152_lengths, C152_missing_texts, C162_bold_refuted, C162_history, C162_refused, C162_shown_partial, C169_layout, C169_layout_runs.
* **D**: C143_lines.
* **D, N, C, F**: C13_kaplan_meier_survival, C15_kaplan_meier_limits, C16_kaplan_meier_steps_partial, C16_kaplan_meier_steps_refuted, C17_nelson_aalen, C17_nelson_aalen_limits, C18_rank_adjustment, C20_mcf_limits_partial, C20_mcf_limits_refuted, C22_rocof_scale, C23_rocof_rate_partial, C23_rocof_rate_refuted, C24_rocof_growing_gaps, C24_rocof_reverse, C24_rocof_trend, C25_crow_amsaa_exists, C25_crow_amsaa_mle, C26_crow_time_to_target, C26_duane_time_to_target, C27_replacement_as_good_as_old, C28_replacement_as_good_as_new, C29_limits_unique, C29_one_sample_proportion, C30_two_proportion_symmetric, C31_same_proportion_partial, C32_sample_size_least, C32_sample_size_total, C33_sequential_sampling, C34_planner_relation, C34_planner_round_trip, C34_planner_round_trip_CI, C35_planner_failures_partial, C35_planner_failures_refuted, C35_planner_failures_time_terminated, C36_test_duration_partial, C36_test_duration_refuted, C36_test_duration_time_terminated, C39_accelerated_temperature, C39_acceleration_factor, C39_activation_energy, C39_roundtrip, C40_creep_failure_time, C40_hotter_fails_sooner, C42_crack_growth, C43_arguments_partial, C43_default_arguments_refuted, C44_creep_rupture_refuted, C44_creep_trace_partial, C45_sn_traces_inverse, C46_cdf_sf_complementary, C46_hazards_partial, C46_hazards_refuted, C47_pdf_integrates_to_one, C47_pdf_is_derivative_of_cdf, C47_pdf_zero_outside, C48_cdf_distribution_function, C48_cdf_entries, C49_cdf_inverts_quantile, C49_inverse_SF_inverts_sf, C49_lists, C49_out_of_range, C49_quantile_inverts_cdf, C50_median_halves_cdf, C50_mode_maximises_pdf, C50_mode_reported, C51_hazards_any_order_refuted, C51_hazards_shift_partial, C51_location_shifts_functions, C51_location_shifts_statistics, C52_scalar_agrees_partial, C52_scalar_negative_and_zero_refuted, C52_scalar_with_location_refuted, C53_competing_risks_partial, C53_pdf_is_derivative, C53_rejects_valid_refuted, C53_succeeds, C53_unordered_refuted, C54_mixture_partial, C54_negative_proportions_refuted, C54_pdf_is_derivative, C55_arrays, C55_cdf_rises_from_ZI_to_DS, C55_hazard, C55_list_range_unchecked_refuted, C55_pdf_mass, C55_quantile_at_ends_refuted, C55_quantile_partial, C56_median_partial, C56_median_refuted, C58_likelihood, C58_likelihood_exists, C58_terms, C58_variants, C58_zero_inflated_partial, C58_zero_inflated_refuted, C58_zero_inflation_ignored, C59_grouped, C59_order, C60_better, C60_goodness, C65_exact_recovery, C65_forced_shape, C66_bracket_partial, C66_exponential_inverse, C66_multiplier, C66_refuted, C66_scales, C66_widens, C67_delta_method, C67_errors, C67_exponential_reliability_partial, C67_exponential_time_refused_refuted, C67_refuted, C67_reliability, C67_time, C67_widens, C68_distance_partial, C68_nan, C68_order, C68_refuted, C72_increasing, C72_inverse, C74_distribution, C74_likelihood, C74_terms, C75_complement, C75_errors, C75_half, C75_monotone, C75_probability, C77_minimal_repair_partial, C77_minimal_repair_refuted, C78_all_given_refuted, C78_reports_partial, C79_sn_least_squares, C79_sn_total, C80_residual_bounds_partial, C80_residual_bounds_refuted, C80_residual_no_runout_refuted, C81_statistical_band_partial, C81_statistical_band_refuted, C82_trace_on_curve_partial, C82_trace_on_curve_refuted, C83_all_parameters, C83_material_parameters, C84_hysteresis_closes, C84_hysteresis_continuous, C84_hysteresis_symmetric, C84_runs_exist, C85_compression_partial, C85_compression_refuted, C86_equation_is_lines, C86_life_decreases, C86_life_unique, C86_no_mean_stress, C86_transition, C87_strain_limits_partial, C87_strain_limits_refuted, C87_strain_limits_zero_partial, C88_corrections_agree, C88_initiation_means, C88_initiation_range, C88_life, C88_notch_rule, C90_iterative_terminates_partial, C90_iterative_terminates_refuted, C91_iterative_final_partial, C91_iterative_final_refuted, C91_iterative_stages_partial, C92_no_growth_partial, C92_no_growth_refuted, C93_competing_risks_quantile, C93_inverse_SF, C93_mixture_quantile, C94_infinite_mean_residual_life, C94_mean_residual_life, C97_straight_line, C97_weibull_normal, C98_errors, C98_points, C98_refuted, C98_spacing_partial, C99_margins, C99_x_partial, C99_x_refuted, C99_y_partial, C99_y_refuted, C100_accuracy, C100_domain_partial, C100_domain_refuted, C100_nonneg, C101_not_same_kind, C101_results_partial, C101_results_refuted, C101_samples, C102_aligned, C102_levels, C102_use, C104_goodness, C104_limits, C104_widens, C105_fitted_partial, C105_hessian_refuted, C105_rejected, C105_ties_refuted, C106_acceleration, C106_normal_refuted, C106_original, C106_rows, C106_use, C107_default, C107_named_partial, C107_refuted, C108_aligned, C108_aligned_refuted, C108_dual_partial, C108_exact, C108_single, C109_errors, C109_fitted, C109_loglik_partial, C109_loglik_refuted, C109_order, C109_use_partial, C109_use_refuted, C110_best_fit, C110_likelihood, C110_ranking, C110_same_population, C111_location, C111_lognormal, C111_lognormal_best, C111_weibull, C111_weibull_best, C112_never_worse, C112_special_case, C113_exactly_one, C113_exponential, C113_exponential_2P_refuted, C113_forced_beta, C113_normal_complete, C113_weibull_3P_refuted, C116_nelson_aalen, C117_beta_mirror, C117_beta_uniform, C117_gamma_exponential, C117_lognormal_normal, C117_weibull_exponential, C117_weibull_gumbel, C118_equal_components, C118_exponential_risks, C118_order_competing_risks, C118_order_mixture, C118_single_risk, C118_weibull_risks, C119_ageing, C119_exponential, C119_new, C119_no_mean, C119_remaining, C119_weibull, C120_excess, C120_mean, C120_missing, C120_percentiles, C120_shape, C120_variance, C121_parametric, C121_related, C121_semiparametric_partial, C121_semiparametric_refuted, C121_semiparametric_value, C122_diagonal, C122_parametric_partial, C122_parametric_refuted, C122_semiparametric, C123_density_partial, C123_density_refuted, C123_functions, C123_order, C124_beta, C124_default, C124_half_line_partial, C124_leaves, C124_refuted, C124_signed, C124_spacing, C125_accepted_partial, C125_errors, C125_level, C125_quantile_refused, C125_refuted, C125_traces, C125_type, C125_x_values, C126_band, C126_improving_partial, C126_improving_refuted, C126_limits, C126_points, C126_start, C126_verdict, C126_wider, C128_errors, C128_grid_partial, C128_grid_refuted, C128_levels, C128_limits, C128_nested, C128_region, C128_units, C130_exponential, C130_false_refuted, C130_order, C130_produced_partial, C130_produced_refuted, C130_request, C130_rows, C130_widens, C131_accepts, C131_hidden_partial, C131_hidden_refuted, C131_limits, C131_line, C131_on_line_partial, C131_points_partial, C131_points_refuted, C132_competing_risks, C132_constructs, C132_density, C132_mixture, C132_no_mean, C132_order, C133_competing_risks_partial, C133_mixture_partial, C133_order, C133_refuted, C134_samples, C135_competing_risks, C135_mixture, C136_seed_reused, C136_seeded_refuted, C136_unseeded_partial, C137_MLE_partial, C137_MLE_runs, C137_best_refuted, C137_checks, C137_default_refuted, C137_dropped, C137_errors, C137_least_squares, C137_methods, C137_negative_refuted, C138_blank_refuted, C138_cumulative_hazard, C138_history_partial, C138_range, C139_dashed_partial, C139_dashed_refuted, C139_groups, C139_limits_partial, C139_made_partial, C139_many_refuted, C139_margins, C139_no_use, C139_use, C140_axes_partial, C140_failures, C140_line, C140_line_reaches_partial, C140_line_reaches_refuted, C140_made_partial, C140_many_refuted, C140_shown_partial, C140_surface, C140_use_refuted, C140_use_refuted_case, C141_accuracy, C141_again, C141_documented_partial, C141_documented_refuted, C141_form, C141_opposite, C141_options, C141_order_partial, C141_order_refuted, C141_relative, C141_sign_partial, C141_sign_refuted, C141_special, C141_titles, C142_click, C142_move, C142_shows, C142_since_click, C143_click_partial, C143_click_refuted, C143_hover, C144_AD, C144_bracket, C144_data, C144_distribution, C144_errors, C144_fallback, C144_goodness, C144_goodness_exists, C144_mu, C144_quantiles, C144_rows, C144_succeeds, C144_support, C145_least_squares_partial, C145_rank_regression_partial, C145_rank_regression_refuted, C145_three_refuted, C146_better_partial, C146_nonlinear, C146_rank_regression_partial, C146_refuted, C147_crow, C147_duane, C147_duane_line, C147_errors, C147_model, C147_order, C147_succeeds, C147_target, C147_units, C148_curve, C148_failures_shown, C148_no_target, C148_points, C148_target_linear, C148_target_log_partial, C148_target_log_refuted, C149_AD, C149_bracket, C149_data, C149_distribution, C149_errors, C149_goodness, C149_goodness_exists, C149_rows, C149_sensible, C149_start, C149_succeeds, C153_NelsonAalen_refuted, C153_RankAdjustment_refuted, C153_bands_partial, C153_curve, C153_monotone, C153_rejects, C153_runs, C153_view_partial, C154_ratio, C154_ratio_new_partial, C154_ratio_old_refuted, C154_ratio_view_old, C154_ratio_view_refuted, C154_runs, C154_time, C154_time_view_new_partial, C154_time_view_old, C154_time_view_refuted, C155_parametric, C155_view_partial, C155_view_refuted, C156_given, C156_line, C156_maximum_likelihood, C156_points, C156_runs, C156_trend_partial, C156_trend_refuted, C157_km_bounds, C157_km_complete, C157_km_step, C157_km_value, C157_km_zero, C157_mcf_rises, C157_mcf_value, C157_na_hazard, C157_na_step, C158_censored, C158_complete, C158_range, C158_rises, C158_runs, C158_uncensored, C159_blank, C159_boundary, C161_double_refuted, C161_locator, C161_x_label, C161_x_order, C163_binary_partial, C163_each, C163_fitted, C163_refuted, C163_two_partial, C164_dszi_partial, C164_dszi_refuted, C164_panel, C164_stats, C165_exponential, C166_competing_risks, C166_history, C166_mixture, C166_new_array, C166_show_plot_partial, C166_show_plot_refuted, C166_unchanged, C166_value, C167_history, C167_levels, C167_numbers_ALT, C167_prefix, C167_unseeded_refuted, C168_curve_reliability_partial, C168_curve_time, C168_no_gap, C168_range_refuted, C168_reliability_partial, C168_time, C169_axes_refuted, C169_bars_partial, C169_histogram_refuted, C169_no_histogram, C169_pp, C169_ties, C170_limits.
* **D, N, F**: C12_kaplan_meier_product_limit_no_mixed_ties_partial, C12_kaplan_meier_product_limit_partial, C12_kaplan_meier_product_limit_refuted, C13_kaplan_meier_succeeds, C14_kaplan_meier_uncensored, C19_mcf_nelson, C19_mcf_succeeds, C21_mcf_keeps_data_partial, C21_mcf_keeps_data_refuted, C29_one_sample_proportion_total, C31_same_proportion_refuted, C36_test_duration_errors, C114_kaplan_meier, C114_nelson_aalen, C114_rank_adjustment, C115_order_partial, C115_order_refuted, C116_kaplan_meier, C116_rank_adjustment, C127_observation, C127_order, C127_transform, C134_arguments, C134_beta, C134_consecutive, C134_reproducible, C135_close, C155_line, C155_runs, C170_kaplan_meier, C170_nelson_aalen, C170_remaining_partial, C170_remaining_refuted, C170_rows.
* **D, F**: C08_plotting_positions_johnson, C08_plotting_positions_succeed, C09_plotting_positions_increasing, C10_plotting_positions_uncensored, C11_unsorted_positions, C37_ks_statistic, C38_chi2_covered, C38_chi2_test, C41_palmgren_errors, C41_palmgren_miner, C46_increasing_arrays_are_safe, C54_default_proportions, C54_proportions_checked, C57_random_samples_no_survivors_partial, C57_random_samples_partial, C57_random_samples_refuted, C61_AICC_refuted, C61_best_AICc, C61_best_BIC_AD, C61_best_loglik_partial, C61_loglik_refuted, C61_rejected, C61_results, C62_accepts_partial, C62_rejects, C62_three_failures_refuted, C62_ties_partial, C62_ties_refuted, C63_LS_partial, C63_LS_refuted, C63_MLE_default, C63_MLE_partial, C63_MLE_refuted, C63_runs, C64_found, C64_horizontal, C64_rejected, C64_vertical, C69_every_kth, C69_extremes, C69_factor_one_refuted, C69_points_partial, C69_points_refuted, C69_size, C70_errors, C70_idempotent, C70_partial, C70_refuted, C71_legal_rows, C71_refusal, C71_result, C73_dual, C73_failures, C73_single_partial, C73_single_refuted, C76_caller_partial, C76_caller_refuted, C76_censored_earlier, C76_errors, C76_fraction, C76_threshold, C89_creep_groups_partial, C89_creep_groups_refuted, C93_reported_percentiles, C95_exclude_leaks_refuted, C95_fitted, C96_partial, C96_refuted, C103_errors, C103_shading, C105_accepted, C110_threshold_partial, C110_threshold_refuted, C114_positions, C114_steps, C114_tables, C129_accepts, C129_again, C129_capitals, C129_refused, C138_density, C138_hazard, C138_keeps_partial, C138_probability, C157_meaning, C159_exponential, C159_quiet, C159_rows, C159_value, C159_warning, C160_errors, C160_forward_partial, C160_lists_partial, C160_refuted, C160_round_trip_partial, C161_default_ticks, C161_percent_partial, C161_percent_refuted, C161_two_thirds_refuted, C165_paper, C165_reliability, C165_time, C167_bad_seed, C167_numbers, C167_right_censored, C167_threshold, C169_one_bar, C169_quartiles, C169_some_bar.

## 6. Coverage of /repo/reliability

* **ALT_fitters.py**. *Modelled:* the 24 single and dual stress fitters (life-stress models, logf, logR, LL, initial estimates, limits, distribution at use stress, acceleration factor) and Fit_Everything_ALT (exclusion, fitting, sorting, best model). *Not modelled:* printed tables, labels of the plots.
* **Convert_data.py**. *Modelled:* the nine converters, including the code recognition and the xlsx readers' column handling. *Not modelled:* print; the format of the spreadsheet file and dates or truth values in it.
* **Datasets.py**. *Modelled:* nothing (constant data). *Not modelled:* the datasets.
* **Distributions.py**. *Modelled:* PDF, CDF, SF, HF, CHF, quantile, inverse_SF, mean_residual_life of the eight distributions, mean, median, mode, variance, standard deviation, skewness, kurtosis, b5, b95; Competing_Risks_Model, Mixture_Model (with their statistics and mean residual life) and DSZI_Model; the statistics in the figures of plot() and in stats(). *Not modelled:* the other parts of the plots.
* **Fitters.py**. *Modelled:* log-likelihoods of all fitters, degrees of freedom, goodness of fit, confidence limits of the parameters, tables of quantiles, three-parameter fallback, method choice, Fit_Everything (checks, exclusion, sorting, best distribution; bars of its histogram, points of its P-P plots); the fitters of single distributions and of combined Weibull models from arguments to attributes, Fit_Weibull_2P_grouped. *Not modelled:* other plots, printed tables.
* **Nonparametric.py**. *Modelled:* KaplanMeier, NelsonAalen, RankAdjustment: estimates, limits, step arrays, plots (NPlotModel). *Not modelled:* titles and labels, print of the data frame.
* **Other_functions.py**. *Modelled:* stress_strength, stress_strength_normal, similar_distributions, histogram shading, make_right_censored_data, make_ALT_data, crosshairs, distribution_explorer. *Not modelled:* dates and the choice of the point in crosshairs, layout of the explorer.
* **PoF.py**. *Modelled:* SN_diagram, stress_strain_life_parameters_from_data, stress_strain_diagram, strain_life_diagram, fracture_mechanics_crack_initiation, fracture_mechanics_crack_growth, creep_rupture_curves, creep_failure_time, palmgren_miner_linear_damage, acceleration_factor. *Not modelled:* plots; scipy's equation solver (an oracle).
* **Probability_plotting.py**. *Modelled:* the nine probability plots (points, line, limits); plotting_positions; the axis transforms and limits used by the probability plots; the points and lines of the PP and QQ plots; plot_points. *Not modelled:* drawing.
* **Reliability_testing.py**. *Modelled:* one_sample_proportion, two_proportion_test, sample_size_no_failures, sequential_sampling_chart, reliability_test_planner, reliability_test_duration, chi2test, KStest, likelihood_plot. *Not modelled:* matplotlib's contour (an argument).
* **Repairable_systems.py**. *Modelled:* reliability_growth with its plot, optimal_replacement_time with its plots, ROCOF with its plot, MCF_nonparametric and MCF_parametric with their plots. *Not modelled:* texts of the plots.
* **Utils.py**. *Modelled:* transform_spaced, axes_transforms, no_reverse, zeroise_below_gamma, probability_plot_xylims, anderson_darling, fitters_input_checking, ALT_fitters_input_checking, clean_CI_arrays, distribution_confidence_intervals, extract_CI, linear_regression, least_squares, ALT_least_squares, LS_optimization, MLE_optimization, ALT_MLE_optimization, xy_downsample, generate_X_array, distributions_input_checking, get_axes_limits, restore_axes_limits, ALT_prob_plot, life_stress_plot, round_and_string, write_df_to_xlsx, removeNaNs, xy_transform, probability_plot_xyticks, colorprint, fill_no_autoscale, line_no_autoscale. *Not modelled:* colours and titles of the plots, reshow_figure.
