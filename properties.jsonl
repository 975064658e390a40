{"id": "C01", "title": "FR -> XCN -> FR round trip", "statement": "Converting failures and right censored data to XCN with FR_to_XCN and back with XCN_to_FR using the same failure and censor codes returns exactly the original failures and right censored times, each list sorted (an empty censored list comes back as None). The codes must differ after upper-casing and must be both strings or both numbers.", "quantifier": "all lists of failure times and censored times, all pairs of codes, distinct after upper-casing and of the same type", "why_tests_cant": "the space of lists and code pairs is infinite; unit tests check a handful of lists with the default codes", "anchors": ["reliability/Convert_data.py: FR_to_XCN, XCN_to_FR"]}
{"id": "C02", "title": "FR -> FNRN -> FR round trip preserves the data", "statement": "Converting FR data to FNRN and back gives a permutation of the original failures and a permutation of the original censored values.", "quantifier": "all lists of failures and censored values, with any repetitions", "why_tests_cant": "must hold for every multiset of values", "anchors": ["reliability/Convert_data.py: FR_to_FNRN, FNRN_to_FR"]}
{"id": "C03", "title": "FNRN form is canonical", "statement": "FR_to_FNRN returns strictly increasing distinct values, every count is at least 1, the counts sum to the number of items, and each count is exactly the number of occurrences of its value in the input.", "quantifier": "all input lists", "why_tests_cant": "must hold for every multiset of values", "anchors": ["reliability/Convert_data.py: FR_to_FNRN"]}
{"id": "C04", "title": "FNRN -> XCN -> FNRN round trip", "statement": "Converting canonical FNRN data (strictly increasing values, positive counts) to XCN and back to FNRN returns the same four arrays.", "quantifier": "all canonical FNRN inputs and distinct codes", "why_tests_cant": "infinitely many inputs", "anchors": ["reliability/Convert_data.py: FNRN_to_XCN, XCN_to_FNRN"]}
{"id": "C05", "title": "The conversion triangle commutes", "statement": "XCN_to_FNRN equals XCN_to_FR followed by FR_to_FNRN, and FNRN_to_XCN carries the same data as FNRN_to_FR followed by FR_to_XCN: the same multiset of (value, failed or censored) pairs.", "quantifier": "all well formed XCN / FNRN inputs", "why_tests_cant": "relates three functions over all inputs", "anchors": ["reliability/Convert_data.py: XCN_to_FNRN, FNRN_to_XCN, XCN_to_FR, FR_to_FNRN"]}
{"id": "C06", "title": "XCN_to_FR neither loses nor invents data", "statement": "When XCN_to_FR succeeds each item of X appears N times in exactly one of failures or right_censored, according to its code; if any code is not recognised, or the lengths differ, it raises ValueError and returns nothing.", "quantifier": "all X, C, N arrays and all custom code pairs", "why_tests_cant": "must hold for every code and quantity", "anchors": ["reliability/Convert_data.py: XCN_to_FR"]}
{"id": "C07", "title": "xlsx_to_XCN honours the codes the user gave", "statement": "The failures and censored items of an XCN spreadsheet are classified by the failure and censor codes the user passes to xlsx_to_XCN.", "quantifier": "all spreadsheets and all code pairs", "why_tests_cant": "depends on every combination of input code and default code", "anchors": ["reliability/Convert_data.py: xlsx_to_XCN.__init__"]}
{"id": "C08", "title": "Plotting positions are Johnson's adjusted ranks", "statement": "The plotting position of the j-th failure in time order is (rank_j - a)/(n + 1 - 2a) where rank_j = rank_(j-1) + (n + 1 - rank_(j-1))/(1 + number of items at or after it in the sorted order) with rank_0 = 0, both when the first item is censored and when it is a failure.", "quantifier": "all failure and censored lists and all a in [0,1]", "why_tests_cant": "two separate code branches must agree with one recurrence for lists of every length", "anchors": ["reliability/Probability_plotting.py: plotting_positions"]}
{"id": "C09", "title": "Plotting positions are strictly increasing probabilities", "statement": "The plotting positions of the sorted failures are strictly increasing and lie strictly between 0 and 1 for 0 <= a < 1.", "quantifier": "all non-empty failure lists, all censored lists, all a in [0,1)", "why_tests_cant": "induction over the length of the data", "anchors": ["reliability/Probability_plotting.py: plotting_positions"]}
{"id": "C10", "title": "Plotting positions without censoring", "statement": "With no censored data the i-th sorted failure has plotting position (i - a)/(n + 1 - 2a).", "quantifier": "all non-empty failure lists and all a in [0,1]", "why_tests_cant": "induction over the length of the data", "anchors": ["reliability/Probability_plotting.py: plotting_positions"]}
{"id": "C11", "title": "Unsorted plotting positions are the sorted ones in the user's order", "statement": "With sort=False each failure is paired with the same plotting position that sort=True gives it and the failures come back in the order the user supplied.", "quantifier": "all failure and censored lists", "why_tests_cant": "must hold for every permutation of the input", "anchors": ["reliability/Probability_plotting.py: plotting_positions"]}
{"id": "C12", "title": "Kaplan-Meier is the product limit estimator", "statement": "The Kaplan-Meier reliability at time t equals the product over the distinct failure times t_j <= t of (1 - d_j/n_j), where d_j is the number of failures at t_j and n_j the number of items with time >= t_j.", "quantifier": "all failure and censored data with at least one failure", "why_tests_cant": "ties are processed one item at a time in the code; the grouping identity needs induction", "anchors": ["reliability/Nonparametric.py: KaplanMeier.__init__"]}
{"id": "C13", "title": "Kaplan-Meier reliability is a survival function", "statement": "The Kaplan-Meier values start at 1, never increase, stay in [0,1], and reach 0 exactly when the largest observation is a failure.", "quantifier": "all failure and censored lists", "why_tests_cant": "induction over data of any length", "anchors": ["reliability/Nonparametric.py: KaplanMeier.__init__"]}
{"id": "C14", "title": "Kaplan-Meier equals the empirical survival function without censoring", "statement": "With no censored data the reliability after the i-th of n sorted failures is 1 - i/n.", "quantifier": "all failure lists", "why_tests_cant": "induction over data of any length", "anchors": ["reliability/Nonparametric.py: KaplanMeier.__init__"]}
{"id": "C15", "title": "Kaplan-Meier confidence limits bracket the estimate", "statement": "At every observation the limits satisfy 0 <= lower <= estimate <= upper <= 1, for every confidence level.", "quantifier": "all data and all confidence levels in [0,1)", "why_tests_cant": "depends on accumulated Greenwood sums of any length", "anchors": ["reliability/Nonparametric.py: KaplanMeier.__init__"]}
{"id": "C16", "title": "Kaplan-Meier step arrays are aligned and bracketed", "statement": "xvals, SF, SF_lower and SF_upper have equal length and at every plotted point SF_lower <= SF <= SF_upper.", "quantifier": "all data", "why_tests_cant": "the arrays are built by a data dependent loop", "anchors": ["reliability/Nonparametric.py: KaplanMeier.__init__"]}
{"id": "C17", "title": "Nelson-Aalen hazard and reliability", "statement": "The Nelson-Aalen cumulative hazard after each item is the sum of 1/(items still at risk) over the failures so far, its reliability is exp(-H), lies in (0,1], never increases and is never below the Kaplan-Meier reliability of the same data.", "quantifier": "all data", "why_tests_cant": "comparison of two recursive estimators over all inputs", "anchors": ["reliability/Nonparametric.py: NelsonAalen.__init__, KaplanMeier.__init__"]}
{"id": "C18", "title": "Rank adjustment agrees with the plotting positions", "statement": "The rank adjustment reliability after an item is 1 minus the plotting position of the latest failure (1 before the first failure), never increases, stays in (0,1], and its limits bracket it at every plotted step.", "quantifier": "all data, all a in [0,1)", "why_tests_cant": "induction over data of any length", "anchors": ["reliability/Nonparametric.py: RankAdjustment.__init__"]}
{"id": "C19", "title": "Nonparametric MCF is the Nelson mean cumulative function", "statement": "The MCF after each repair is the sum, over that repair and all earlier ones, of 1/(number of systems whose end time is at or after the repair time).", "quantifier": "all collections of systems with any repair histories", "why_tests_cant": "risk set bookkeeping with ties over all histories", "anchors": ["reliability/Repairable_systems.py: MCF_nonparametric.__init__"]}
{"id": "C20", "title": "MCF is a cumulative function with ordered limits", "statement": "The MCF is strictly increasing over the repairs, starts at 1/(number of systems still observed at the first repair), and lower <= MCF <= upper with a positive lower limit, for each confidence level.", "quantifier": "all repair histories, all confidence levels", "why_tests_cant": "induction over histories", "anchors": ["reliability/Repairable_systems.py: MCF_nonparametric.__init__"]}
{"id": "C21", "title": "MCF_nonparametric does not modify the caller's data", "statement": "The lists of repair times that the user passes are unchanged after the call.", "quantifier": "all inputs", "why_tests_cant": "aliasing, not visible from the returned values", "anchors": ["reliability/Repairable_systems.py: MCF_nonparametric.__init__"]}
{"id": "C22", "title": "ROCOF trend test is scale free", "statement": "The ROCOF trend statistic and the reported trend do not change when all interarrival times and the test end are multiplied by the same positive constant.", "quantifier": "all positive interarrival lists, all scales", "why_tests_cant": "for-all over reals", "anchors": ["reliability/Repairable_systems.py: ROCOF.__init__"]}
{"id": "C23", "title": "ROCOF constant-trend rate", "statement": "When the trend is constant the reported ROCOF is the number of failures divided by the total observed time.", "quantifier": "all interarrival lists with a constant trend, with and without test_end", "why_tests_cant": "holds or fails only for particular argument combinations", "anchors": ["reliability/Repairable_systems.py: ROCOF.__init__"]}
{"id": "C24", "title": "ROCOF reports exactly one trend, and increasing interarrival times never count as worsening", "statement": "The reported trend is improving, constant or worsening exactly as the Laplace statistic of the arrival times lies below, between or above the two critical values; reversing the order of all the gaps (including the last gap up to the end of a time terminated test) negates the statistic and mirrors the trend; gaps in increasing order are never reported as worsening.", "quantifier": "all interarrival lists and confidence levels", "why_tests_cant": "for-all over lists", "anchors": ["reliability/Repairable_systems.py: ROCOF.__init__"]}
{"id": "C25", "title": "Crow-AMSAA estimates maximise the likelihood", "statement": "The Crow-AMSAA Beta and Lambda are the maximum likelihood estimates of the power law process with intensity Lambda*Beta*t^(Beta-1) for the given failure times and end of test.", "quantifier": "all positive failure time lists", "why_tests_cant": "global optimality over a continuum of parameters", "anchors": ["reliability/Repairable_systems.py: reliability_growth.__init__"]}
{"id": "C26", "title": "Reliability growth time to target", "statement": "When a target MTBF is given the reported time to target is the time at which the cumulative MTBF of the fitted model equals the target.", "quantifier": "all fitted models and targets", "why_tests_cant": "algebraic identity over the reals", "anchors": ["reliability/Repairable_systems.py: reliability_growth.__init__"]}
{"id": "C27", "title": "Optimal replacement time, as good as old", "statement": "For q=1 the reported optimal replacement time minimises the cost per unit time curve that the function itself reports.", "quantifier": "all costs and Weibull parameters with beta > 1", "why_tests_cant": "global optimality over a continuum of times", "anchors": ["reliability/Repairable_systems.py: optimal_replacement_time.__init__"]}
{"id": "C28", "title": "Optimal replacement time, as good as new", "statement": "For q=0 the reported optimal replacement time has the least cost per unit time of all the times evaluated.", "quantifier": "all costs and Weibull parameters", "why_tests_cant": "search over a grid of arbitrary values", "anchors": ["reliability/Repairable_systems.py: optimal_replacement_time.__init__"]}
{"id": "C29", "title": "One sample proportion interval", "statement": "The exact limits satisfy 0 <= lower <= successes/trials <= upper <= 1 and are the Clopper-Pearson limits: at the lower limit the probability of at least that many successes equals the tail probability, and at the upper limit the probability of at most that many successes equals it.", "quantifier": "all trials, successes and confidence levels", "why_tests_cant": "binomial tail identities over all n and k", "anchors": ["reliability/Reliability_testing.py: one_sample_proportion"]}
{"id": "C30", "title": "Two proportion test is symmetric and decides by zero", "statement": "Swapping the two samples negates and swaps the limits, and the result is reported non-significant exactly when zero lies strictly between the limits.", "quantifier": "all trials and successes", "why_tests_cant": "for-all over counts", "anchors": ["reliability/Reliability_testing.py: two_proportion_test"]}
{"id": "C31", "title": "Identical proportions are never significantly different", "statement": "When both samples have the same proportion of successes the test reports non-significant.", "quantifier": "all trials and successes", "why_tests_cant": "fails only at the boundary", "anchors": ["reliability/Reliability_testing.py: two_proportion_test"]}
{"id": "C32", "title": "Sample size for no failures is the least sufficient one", "statement": "The returned n is the least natural number such that n failure free items demonstrate the reliability at the confidence: 1 - R^(n * lifetimes^shape) >= CI.", "quantifier": "all reliabilities, confidences, lifetimes and shapes in range", "why_tests_cant": "minimality over all n", "anchors": ["reliability/Reliability_testing.py: sample_size_no_failures"]}
{"id": "C33", "title": "Sequential sampling boundaries", "statement": "The acceptance boundary lies below the rejection boundary for every sample count, both boundaries never decrease with the sample count, and crossing a boundary is equivalent to the sequential probability ratio crossing the corresponding Wald threshold.", "quantifier": "all p1 < p2, alpha and beta with alpha + beta < 1 and all sample counts", "why_tests_cant": "for-all over sample counts and reals", "anchors": ["reliability/Reliability_testing.py: sequential_sampling_chart"]}
{"id": "C34", "title": "Reliability test planner: solving for one quantity inverts the others", "statement": "The MTBF, test duration and confidence computed by the planner satisfy one and the same relation: computing any one of them from the other two and feeding the result back returns the original value.", "quantifier": "all MTBF, durations, failures, CI, one or two sided, time or failure terminated", "why_tests_cant": "for-all over reals and naturals", "anchors": ["reliability/Reliability_testing.py: reliability_test_planner.__init__"]}
{"id": "C35", "title": "Reliability test planner: number of failures is maximal", "statement": "The number of failures returned is the largest number for which the demonstrated MTBF is still at least the required MTBF, and ValueError is raised if not even zero failures suffices.", "quantifier": "all MTBF, durations and confidence levels", "why_tests_cant": "unbounded search loop", "anchors": ["reliability/Reliability_testing.py: reliability_test_planner.__init__"]}
{"id": "C36", "title": "Reliability test duration meets both risks", "statement": "The duration returned has, with some number of failures j, a consumer's risk equal to the one specified; j is the last number of failures before the producer's risk first falls below the one specified (as documented, the producer's risk is not allowed below the specified one), and such a j always exists.", "quantifier": "all MTBF pairs with design above required, all risks, one or two sided, time or failure terminated, answers up to the function's limit of 10^10 failures", "why_tests_cant": "unbounded search loop whose termination needs the limit of the producer's risk", "anchors": ["reliability/Reliability_testing.py: reliability_test_duration.__init__"]}
{"id": "C37", "title": "KS statistic is the supremum distance", "statement": "The KS statistic equals the supremum over all real x of the distance between the empirical CDF of the data and the distribution's CDF.", "quantifier": "all data and all continuous non-decreasing CDFs", "why_tests_cant": "supremum over a continuum", "anchors": ["reliability/Reliability_testing.py: KStest.__init__"]}
{"id": "C38", "title": "Chi-squared test bookkeeping", "statement": "Observed counts cover the data exactly when every datum lies in the bin range, the expected counts are normalised to the number of data, the statistic is never negative, is zero exactly when observed equals expected, and the hypothesis is accepted exactly when the statistic is below the critical value.", "quantifier": "all data, bins and distributions", "why_tests_cant": "for-all over data", "anchors": ["reliability/Reliability_testing.py: chi2test.__init__"]}
{"id": "C39", "title": "Acceleration factor round trip", "statement": "The acceleration factor, the activation energy and the accelerated temperature computed by acceleration_factor invert each other.", "quantifier": "all temperatures above absolute zero, all Ea and AF", "why_tests_cant": "for-all over reals", "anchors": ["reliability/PoF.py: acceleration_factor.__init__"]}
{"id": "C40", "title": "Creep failure time keeps the Larson-Miller parameter", "statement": "creep_failure_time gives the time at the high temperature with the same Larson-Miller parameter as the low temperature point, converting back returns the original time, and a higher temperature gives a shorter life when the Larson-Miller parameter is positive.", "quantifier": "all temperatures above absolute zero and all positive times", "why_tests_cant": "for-all over reals", "anchors": ["reliability/PoF.py: creep_failure_time"]}
{"id": "C41", "title": "Palmgren-Miner damage", "statement": "The reported service life is the multiple of the load block at which the accumulated damage fractions reach exactly 1, and the reported damage fractions are in proportion.", "quantifier": "all load spectra", "why_tests_cant": "for-all over lists", "anchors": ["reliability/PoF.py: palmgren_miner_linear_damage.__init__"]}
{"id": "C42", "title": "Crack growth: closed form life is the Paris law integral", "statement": "For a fixed geometry factor the number of cycles reported for each stage equals the integral of 1/(C*dK^m) over the crack lengths of that stage, and the total is the sum of the two stages.", "quantifier": "all geometries, loads, C and m <> 2", "why_tests_cant": "integral identity over reals", "anchors": ["reliability/PoF.py: fracture_mechanics_crack_growth.__init__"]}
{"id": "C43", "title": "Crack growth runs with its default arguments", "statement": "fracture_mechanics_crack_growth returns a result for every valid load and geometry when the optional arguments keep their defaults.", "quantifier": "all valid required arguments", "why_tests_cant": "an exceptional branch taken for a special value", "anchors": ["reliability/PoF.py: fracture_mechanics_crack_growth.__init__"]}
{"id": "C44", "title": "Creep rupture curves run with their default arguments", "statement": "creep_rupture_curves returns a result when the optional arguments keep their defaults.", "quantifier": "all valid required arguments", "why_tests_cant": "an exceptional branch taken for a special value", "anchors": ["reliability/PoF.py: creep_rupture_curves.__init__"]}
{"id": "C45", "title": "SN diagram inverse lookups", "statement": "Stress-to-life and life-to-stress lookups on the SN curve invert each other.", "quantifier": "all positive lives and non-zero slopes", "why_tests_cant": "for-all over reals", "anchors": ["reliability/PoF.py: SN_diagram"]}
{"id": "C46", "title": "CDF and SF are complementary, and the hazards are consistent", "statement": "For each standard distribution CDF(x) + SF(x) = 1, CHF(x) = -ln SF(x), HF(x) = PDF(x)/SF(x) wherever SF(x) > 0.", "quantifier": "all parameters in range and all x", "why_tests_cant": "five separately coded formulas agree on a continuum", "anchors": ["reliability/Distributions.py: Weibull_Distribution, Exponential_Distribution, Loglogistic_Distribution, Gumbel_Distribution, Normal_Distribution, Lognormal_Distribution"]}
{"id": "C47", "title": "PDF is the derivative of the CDF", "statement": "For each standard distribution the PDF is the derivative of the CDF at every point inside the support.", "quantifier": "all parameters in range and all x in the support", "why_tests_cant": "derivative over a continuum", "anchors": ["reliability/Distributions.py: *_Distribution.PDF, *_Distribution.CDF"]}
{"id": "C48", "title": "CDF is a distribution function", "statement": "For each standard distribution the CDF is non-decreasing, has values in [0,1] and tends to 0 and 1.", "quantifier": "all parameters in range and all x", "why_tests_cant": "monotonicity and limits over a continuum", "anchors": ["reliability/Distributions.py: *_Distribution.CDF"]}
{"id": "C49", "title": "quantile and inverse_SF invert CDF and SF", "statement": "CDF(quantile(q)) = q and SF(inverse_SF(q)) = q for 0 < q < 1, quantile(CDF(x)) = x inside the support, and q outside [0,1] raises ValueError.", "quantifier": "all parameters, q and x", "why_tests_cant": "for-all over reals", "anchors": ["reliability/Distributions.py: *_Distribution.quantile, *_Distribution.inverse_SF"]}
{"id": "C50", "title": "mode maximises the PDF, median halves the CDF", "statement": "The reported mode is a global maximiser of the PDF over the support and CDF(median) = 0.5.", "quantifier": "all parameters", "why_tests_cant": "global optimality over a continuum", "anchors": ["reliability/Distributions.py: *_Distribution.__init__"]}
{"id": "C51", "title": "Location parameter shifts the distribution", "statement": "A distribution with location gamma evaluated at x equals the distribution with location 0 evaluated at x - gamma, and HF and CHF are zero below gamma, for array inputs in any order.", "quantifier": "all parameters and arrays", "why_tests_cant": "array positions are zeroed by index", "anchors": ["reliability/Distributions.py: *_Distribution.HF, *_Distribution.CHF", "reliability/Utils.py: zeroise_below_gamma"]}
{"id": "C52", "title": "Scalar and array inputs agree", "statement": "HF(x) and CHF(x) for a scalar x return the same value as for a one element list [x], and negative scalars are rejected just as negative lists are.", "quantifier": "all scalars", "why_tests_cant": "depends on the path taken through input checking", "anchors": ["reliability/Distributions.py: Weibull_Distribution.HF, Weibull_Distribution.CHF", "reliability/Utils.py: distributions_input_checking, zeroise_below_gamma"]}
{"id": "C53", "title": "Competing risks", "statement": "The reliability of a competing risks model is the product of the reliabilities of its components, its hazard is the sum of their hazards, its PDF is hazard times reliability, and it never exceeds any component's reliability.", "quantifier": "all component lists and all arrays of x", "why_tests_cant": "for-all over lists and arrays", "anchors": ["reliability/Distributions.py: Competing_Risks_Model"]}
{"id": "C54", "title": "Mixture model", "statement": "The CDF and PDF of a mixture are the proportion weighted sums of the components, the CDF lies between the least and greatest component CDF and stays in [0,1], and proportions that do not sum to 1 are rejected.", "quantifier": "all component lists, proportions and x", "why_tests_cant": "for-all over lists", "anchors": ["reliability/Distributions.py: Mixture_Model"]}
{"id": "C55", "title": "Defective subpopulation zero inflated model", "statement": "The DSZI CDF rises from ZI to DS, SF = 1 - CDF, PDF integrates to DS - ZI, and quantile inverts the CDF on [ZI, DS].", "quantifier": "all base distributions, DS and ZI", "why_tests_cant": "for-all over reals", "anchors": ["reliability/Distributions.py: DSZI_Model"]}
{"id": "C56", "title": "DSZI summary statistics describe the model", "statement": "The median reported by a DSZI model satisfies CDF(median) = 0.5.", "quantifier": "all base distributions, DS and ZI with ZI < 0.5 < DS", "why_tests_cant": "holds only for particular parameters", "anchors": ["reliability/Distributions.py: DSZI_Model.__init__"]}
{"id": "C57", "title": "DSZI random samples", "statement": "random_samples returns exactly the requested number of items in total, failures are never later than the censoring time, and it succeeds for every positive number of samples whatever the random draw.", "quantifier": "all sample counts and all random draws", "why_tests_cant": "must hold for every random outcome", "anchors": ["reliability/Distributions.py: DSZI_Model.random_samples"]}
{"id": "C58", "title": "Log-likelihood is that of the distribution", "statement": "For every fitter exp(log PDF term) is the distribution's PDF and exp(log SF term) the distribution's SF, so the log-likelihood is the log of the product of PDF over failures and SF over censored items.", "quantifier": "all parameters in range and all data inside the support", "why_tests_cant": "two separate code bases (fitters and distributions) must agree on a continuum", "anchors": ["reliability/Fitters.py: Fit_*.logf, Fit_*.logR, Fit_*.LL"]}
{"id": "C59", "title": "Log-likelihood ignores order and respects grouping", "statement": "The log-likelihood is unchanged by permuting the data, and the grouped Weibull fitter's log-likelihood of value/quantity pairs equals the ungrouped one of the expanded data.", "quantifier": "all data and parameters", "why_tests_cant": "for-all over lists and permutations", "anchors": ["reliability/Fitters.py: Fit_Weibull_2P.LL, Fit_Weibull_2P_grouped.LL"]}
{"id": "C60", "title": "AICc and BIC", "statement": "AICc = 2k - 2 lnL + 2k(k+1)/(n-k-1) when n > k+1 and 'Insufficient data' otherwise; BIC = k ln n - 2 lnL.", "quantifier": "all n, k and likelihoods", "why_tests_cant": "for-all over reals and naturals", "anchors": ["reliability/Fitters.py: Fit_Weibull_2P.__init__"]}
{"id": "C61", "title": "Fit_Everything picks the best distribution", "statement": "best_distribution_name is a fitted distribution whose chosen criterion is best among all the fitted ones: least BIC, AICc or AD, greatest log-likelihood.", "quantifier": "all sets of fitted results and all criteria", "why_tests_cant": "sorting over any set of results", "anchors": ["reliability/Fitters.py: Fit_Everything.__init__"]}
{"id": "C62", "title": "Fit_Everything works on any data it accepts", "statement": "When the failures contain at least two distinct values, Fit_Everything does not raise because one of the distributions it chose to fit itself rejects the data.", "quantifier": "all failure lists", "why_tests_cant": "threshold logic spread over two functions", "anchors": ["reliability/Fitters.py: Fit_Everything.__init__", "reliability/Utils.py: fitters_input_checking"]}
{"id": "C63", "title": "Least squares picks the more likely of RRX and RRY; MLE picks the most likely optimizer result", "statement": "With method LS the returned estimate is the one of RRX and RRY with the greater log-likelihood; with several optimizers the returned estimate has the greatest log-likelihood of the successful ones.", "quantifier": "all data and likelihood values", "why_tests_cant": "sign dependent comparison", "anchors": ["reliability/Utils.py: LS_optimization.__init__, MLE_optimization.__init__"]}
{"id": "C64", "title": "Linear regression is optimal", "statement": "The line returned by linear_regression minimises the sum of squared vertical (RRY) or horizontal (RRX) distances over all lines satisfying the forced slope or intercept.", "quantifier": "all point lists", "why_tests_cant": "global optimality over a continuum", "anchors": ["reliability/Utils.py: linear_regression"]}
{"id": "C65", "title": "Least squares recovers exact parameters", "statement": "If the plotting positions lie exactly on a Weibull, Exponential, Gumbel, Normal, Lognormal or Loglogistic CDF, least squares returns its parameters.", "quantifier": "all parameters and all data", "why_tests_cant": "for-all over reals", "anchors": ["reliability/Utils.py: least_squares"]}
{"id": "C66", "title": "Parameter confidence limits bracket the estimate", "statement": "For every fitter lower <= estimate <= upper, positive parameters keep positive lower limits, and a larger confidence level widens the interval.", "quantifier": "all estimates, standard errors and confidence levels", "why_tests_cant": "for-all over reals", "anchors": ["reliability/Fitters.py: Fit_*.__init__"]}
{"id": "C67", "title": "Confidence bounds on time and reliability bracket the curve", "statement": "The bounds returned by extract_CI for CDF, SF and CHF satisfy lower <= curve <= upper for each distribution, whether on time or on reliability.", "quantifier": "all parameters, covariances, confidence levels and points", "why_tests_cant": "order flips differ by distribution and by function", "anchors": ["reliability/Utils.py: extract_CI, distribution_confidence_intervals"]}
{"id": "C68", "title": "Anderson-Darling statistic is the weighted squared distance", "statement": "The AD statistic equals n times the integral of (F_n - z)^2/(z(1-z)) over z up to 1 - 1e-12, so it is never negative.", "quantifier": "all fitted CDF values in (0,1) and empirical positions", "why_tests_cant": "integral identity over lists of any length", "anchors": ["reliability/Utils.py: anderson_darling"]}
{"id": "C69", "title": "xy_downsample keeps the extremes and bounds the size", "statement": "Downsampling keeps the least and greatest x and y, keeps only points of the data, and by default returns between 500 and 1000 points when there are more than 1000.", "quantifier": "all lists and downsample factors", "why_tests_cant": "for-all over lengths", "anchors": ["reliability/Utils.py: xy_downsample"]}
{"id": "C70", "title": "no_reverse makes bounds monotone", "statement": "no_reverse returns an array that never reverses direction, leaves already monotone arrays unchanged and is idempotent.", "quantifier": "all arrays", "why_tests_cant": "for-all over arrays", "anchors": ["reliability/Utils.py: no_reverse"]}
{"id": "C71", "title": "clean_CI_arrays filters the four arrays together", "statement": "clean_CI_arrays returns four arrays of equal length whose entries are all legal, keeps every position at which all four entries are legal, and raises ValueError instead of dropping a point the user asked for.", "quantifier": "all quadruples of arrays", "why_tests_cant": "for-all over arrays", "anchors": ["reliability/Utils.py: clean_CI_arrays"]}
{"id": "C72", "title": "Probability paper transforms invert each other", "statement": "The forward and inverse axis transforms of all seven kinds of probability paper are inverses and increasing.", "quantifier": "all probabilities in (0,1) and all reals", "why_tests_cant": "for-all over reals", "anchors": ["reliability/Utils.py: axes_transforms, transform_spaced"]}
{"id": "C73", "title": "ALT data grouping keeps failures and censored data at the same stress together", "statement": "After input checking, the i-th failure group, the i-th censored group and the i-th stress level all belong to the same stress, and the groups contain exactly the data at that stress.", "quantifier": "all ALT data sets", "why_tests_cant": "for-all over data sets including stresses without failures", "anchors": ["reliability/Utils.py: ALT_fitters_input_checking.__init__"]}
{"id": "C74", "title": "ALT log-likelihood is that of the life-stress distribution", "statement": "For each ALT fitter the log-likelihood terms are the log PDF and log SF of the base distribution whose life parameter is the life-stress model at the item's stress.", "quantifier": "all parameters, stresses and data", "why_tests_cant": "24 hand written formulas must match", "anchors": ["reliability/ALT_fitters.py: Fit_*.logf, Fit_*.logR, Fit_*.LL"]}
{"id": "C75", "title": "Stress-strength interference of normals", "statement": "stress_strength_normal equals the probability that stress exceeds strength for independent normals, is symmetric under swapping and reversal, and is monotone in the means.", "quantifier": "all means and standard deviations", "why_tests_cant": "for-all over reals", "anchors": ["reliability/Other_functions.py: stress_strength_normal"]}
{"id": "C76", "title": "make_right_censored_data conserves the data", "statement": "With a threshold, failures are exactly the data not above the threshold, and every other item becomes a censored item at the threshold; with a fraction, the number of censored items is floor(n*fraction), each no larger than the item it replaces; the caller's data is unchanged.", "quantifier": "all data lists, thresholds, fractions and random draws", "why_tests_cant": "must hold for every random outcome", "anchors": ["reliability/Other_functions.py: make_right_censored_data"]}
{"id": "C77", "title": "As-good-as-old optimum is that of the minimal repair policy", "statement": "For q=1 the reported optimal replacement time minimises the cost per unit time of replacing at age t with minimal repair of failures: preventative cost once plus the corrective cost times the expected number of failures (t/alpha)^beta, divided by t.", "quantifier": "all costs with cost_PM < cost_CM and Weibull parameters with beta > 1", "why_tests_cant": "global optimality over a continuum of times", "anchors": ["reliability/Repairable_systems.py: optimal_replacement_time.__init__"]}
{"id": "C78", "title": "acceleration_factor reports all four quantities", "statement": "Every accepted call of acceleration_factor leaves an object holding AF, T_use, T_acc and Ea, with the given ones unchanged; calls that leave two or more of AF, T_acc and Ea unknown, or omit T_use, raise ValueError.", "quantifier": "all combinations of given and missing arguments and all values", "why_tests_cant": "for-all over reals and argument combinations", "anchors": ["reliability/PoF.py: acceleration_factor.__init__"]}
{"id": "C79", "title": "SN curve is the least squares line", "statement": "The line drawn by SN_diagram minimises the sum of squared stress residuals over all lines in log10(cycles).", "quantifier": "all data with at least two distinct cycle counts", "why_tests_cant": "optimality over all lines", "anchors": ["reliability/PoF.py: SN_diagram"]}
{"id": "C80", "title": "SN residual bounds enclose the failures", "statement": "With method_for_bounds='residual' every failure lies between the lower and upper bound drawn, with or without runout data.", "quantifier": "all failure and runout data", "why_tests_cant": "for-all over data sets", "anchors": ["reliability/PoF.py: SN_diagram"]}
{"id": "C81", "title": "SN statistical bounds are the regression confidence band", "statement": "With method_for_bounds='statistical' the band has half-width t*s*sqrt(1/n+(u-mean u)^2/Sxx) with u = log10(cycles), the regressor.", "quantifier": "all data and confidence levels", "why_tests_cant": "closed form identity over data sets", "anchors": ["reliability/PoF.py: SN_diagram"]}
{"id": "C82", "title": "SN traces lie on the curve drawn", "statement": "The strength reported for a stress trace or cycles trace is a point of the SN curve drawn, including the part clipped at the endurance limit.", "quantifier": "all data and all traces", "why_tests_cant": "for-all over reals", "anchors": ["reliability/PoF.py: SN_diagram"]}
{"id": "C83", "title": "Material parameters are recovered from exact data", "statement": "If stress, strain and cycles satisfy the Ramberg-Osgood, Basquin and Coffin-Manson laws exactly, stress_strain_life_parameters_from_data returns exactly those parameters.", "quantifier": "all materials and all such data with at least two distinct points", "why_tests_cant": "identity over all data lengths", "anchors": ["reliability/PoF.py: stress_strain_life_parameters_from_data.__init__"]}
{"id": "C84", "title": "Hysteresis loop is continuous and closes", "statement": "In stress_strain_diagram each reversal starts where the previous one ended, the second reversal returns to the stress at the end of the initial loading, and symmetric strain limits give symmetric stresses.", "quantifier": "all materials and strain limits, and every exact answer of the solver", "why_tests_cant": "for-all over reals and solver answers", "anchors": ["reliability/PoF.py: stress_strain_diagram.__init__"]}
{"id": "C85", "title": "Compression mirrors tension", "statement": "Loading first in compression gives the mirror image of loading first in tension.", "quantifier": "all materials and strains", "why_tests_cant": "depends on powers of negative numbers", "anchors": ["reliability/PoF.py: stress_strain_diagram.__init__"]}
{"id": "C86", "title": "Strain-life solution is unique and decreasing", "statement": "For each mean stress correction every total strain has exactly one life, larger strains have shorter lives, the solved equation is that of the plotted lines, and at the reported transition life the elastic and plastic lines cross.", "quantifier": "all materials, strains and corrections", "why_tests_cant": "existence and uniqueness over reals", "anchors": ["reliability/PoF.py: strain_life_diagram.__init__"]}
{"id": "C87", "title": "Strain limits agree between the two diagrams", "statement": "stress_strain_diagram and strain_life_diagram report the same strain limits for the same stress limits.", "quantifier": "all materials and stress limits", "why_tests_cant": "for-all over reals", "anchors": ["reliability/PoF.py: stress_strain_diagram.__init__, strain_life_diagram.__init__"]}
{"id": "C88", "title": "Crack initiation is fully reversed", "statement": "fracture_mechanics_crack_initiation reports zero mean stress and strain, a range of twice the amplitude, and the same life for both Morrow corrections.", "quantifier": "all loads, materials and notches, elastic or plastic, and every exact answer of the solver", "why_tests_cant": "for-all over reals and solver answers", "anchors": ["reliability/PoF.py: fracture_mechanics_crack_initiation.__init__"]}
{"id": "C89", "title": "Creep rupture lines use each temperature's own data", "statement": "creep_rupture_curves fits to each distinct temperature exactly the data at that temperature, in whatever order the data are given.", "quantifier": "all data sets", "why_tests_cant": "for-all over orders of the data", "anchors": ["reliability/PoF.py: creep_rupture_curves.__init__"]}
{"id": "C90", "title": "Iterative crack growth terminates", "statement": "The iterative method of fracture_mechanics_crack_growth stops for all valid inputs.", "quantifier": "all valid inputs", "why_tests_cant": "termination", "anchors": ["reliability/PoF.py: fracture_mechanics_crack_growth.__init__"]}
{"id": "C91", "title": "Iterative final length is the length reached", "statement": "The final crack length reported by the iterative method is the length of the crack when it stops, and the stage cycle counts add up to the total.", "quantifier": "all valid inputs and any number of cycles", "why_tests_cant": "loop of unbounded length", "anchors": ["reliability/PoF.py: fracture_mechanics_crack_growth.__init__"]}
{"id": "C92", "title": "Growing a crack to its present length takes no cycles", "statement": "With a_final equal to a_initial the simplified method reports zero cycles.", "quantifier": "all valid inputs", "why_tests_cant": "for-all over reals", "anchors": ["reliability/PoF.py: fracture_mechanics_crack_growth.__init__"]}
{"id": "C93", "title": "Model quantiles are correct to one grid step", "statement": "quantile of a competing risks or mixture model returns a point in the same grid cell as the exact quantile: the CDF at the cell's ends encloses q, and the cell is one millionth of the range; below and above the table the end points are returned. The reported median, b5 and b95 are the grid points whose CDF is nearest.", "quantifier": "all component lists, proportions and q", "why_tests_cant": "for-all over reals and component lists", "anchors": ["reliability/Distributions.py: Competing_Risks_Model.quantile, Mixture_Model.quantile"]}
{"id": "C94", "title": "DSZI mean residual life", "statement": "mean_residual_life of a DSZI model is the integral of its SF from t over SF(t): infinite when DS < 1 and that of the base distribution when DS = 1, whatever ZI.", "quantifier": "all DS, ZI, base distributions and t", "why_tests_cant": "improper integral over reals", "anchors": ["reliability/Distributions.py: DSZI_Model.mean_residual_life"]}
{"id": "C95", "title": "Fit_Everything leaves the exclude list alone", "statement": "Fit_Everything fits exactly the distributions not named in exclude (Beta only when all data are below 1, the six larger models only with at least three failures) and does not change the list passed to it, so a later call with the same list is unaffected by an earlier one.", "quantifier": "all exclude lists and sequences of calls", "why_tests_cant": "effect on the caller's list across calls", "anchors": ["reliability/Fitters.py: Fit_Everything.__init__"]}
{"id": "C96", "title": "Three-parameter fitters report the method they used", "statement": "The method a three-parameter fitter reports is the one whose estimates it returns, also when gamma is near zero and the two-parameter estimates are used.", "quantifier": "all data and methods", "why_tests_cant": "for-all over data and optimiser results", "anchors": ["reliability/Fitters.py: Fit_Weibull_3P.__init__, Fit_Lognormal_3P.__init__, Fit_Gamma_3P.__init__, Fit_Loglogistic_3P.__init__"]}
{"id": "C97", "title": "A distribution is a straight line on its own probability paper", "statement": "On the axes of its own probability plot the CDF of each of the eight distributions is a straight line with positive slope.", "quantifier": "all parameters and all x inside the support", "why_tests_cant": "identity over reals", "anchors": ["reliability/Utils.py: axes_transforms", "reliability/Probability_plotting.py: Weibull_probability_plot, Normal_probability_plot, Lognormal_probability_plot, Exponential_probability_plot, Gamma_probability_plot, Beta_probability_plot, Loglogistic_probability_plot, Gumbel_probability_plot"]}
{"id": "C98", "title": "transform_spaced spaces its points equally on the named paper", "statement": "transform_spaced returns num strictly increasing values from the lower to the upper bound (given in either order), equally spaced on the probability paper it is asked for, and raises for bounds outside (0,1), num <= 2, unknown names and missing parameters.", "quantifier": "all transforms, bounds, numbers of points and parameters", "why_tests_cant": "for-all over reals", "anchors": ["reliability/Utils.py: transform_spaced"]}
{"id": "C99", "title": "Probability plot limits show every point", "statement": "probability_plot_xylims sets limits which enclose every plotted point, with y-limits strictly between 0 and 1. The margins are the share `spacing` of the range of the points on the scales of the plot, where there is room for them.", "quantifier": "all lists of points and distributions", "why_tests_cant": "for-all over lists", "anchors": ["reliability/Utils.py: probability_plot_xylims"]}
{"id": "C100", "title": "Numerical stress-strength interference is accurate and accepts any pair", "statement": "stress_strength of two normal distributions is within 2e-8 plus an explicit trapezoid error of the exact probability; it is never negative; and it returns a value for any two distributions.", "quantifier": "all distributions and parameters", "why_tests_cant": "numerical integral over a continuum of parameters", "anchors": ["reliability/Other_functions.py: stress_strength"]}
{"id": "C101", "title": "similar_distributions lists the fitted distributions", "statement": "The results of similar_distributions are the distributions fitted to a sample that represents the input to within 0.002, each with its own fitted parameters, in the order of the ranking, without the input's own kind; the most similar one is the first.", "quantifier": "all input distributions, rankings and fitted parameters", "why_tests_cant": "for-all over fitted parameters", "anchors": ["reliability/Other_functions.py: similar_distributions"]}
{"id": "C102", "title": "make_ALT_data is aligned with its stresses", "statement": "make_ALT_data returns for each stress level the samples of the distribution whose life is that of the life-stress model, with the stress repeated in the same positions, floor(n*fraction) of them censored earlier; all failures are positive and nothing is lost. The distribution reported at the use stress has the model's life there.", "quantifier": "all life-stress models, distributions, parameters, stress lists, fractions and random draws", "why_tests_cant": "for-all over lists and random outcomes", "anchors": ["reliability/Other_functions.py: make_ALT_data"]}
{"id": "C103", "title": "Histogram shading", "statement": "histogram with white_above shades white every bin that lies above it and no bin that lies below; the bin containing it is white exactly if its left edge is at least as near as its right edge. An error is raised exactly if white_above is below all the data.", "quantifier": "all data, bin edges and white_above", "why_tests_cant": "for-all over edges", "anchors": ["reliability/Other_functions.py: histogram"]}
{"id": "C104", "title": "ALT confidence limits", "statement": "The limits reported for each parameter of an ALT fit contain its estimate, are positive for a positive parameter, and widen with CI; the reported log-likelihood, AICc and BIC are those of the data at the estimate.", "quantifier": "all data, models, CI and optimiser results", "why_tests_cant": "for-all over data and optimiser results", "anchors": ["reliability/ALT_fitters.py: Fit_Weibull_Exponential.__init__ and the other 23 fitters"]}
{"id": "C105", "title": "ALT fitters accept exactly the documented inputs", "statement": "An ALT fitter rejects its input with ValueError if a stress is missing, lengths differ, a time is not positive, CI is outside (0,1), the optimizer is unknown, there are fewer than two different stresses or too few different failures, or the use stress does not fit the model; any other input is fitted.", "quantifier": "all argument combinations", "why_tests_cant": "for-all over lists and options", "anchors": ["reliability/Utils.py: ALT_fitters_input_checking", "reliability/ALT_fitters.py: Fit_Weibull_Exponential.__init__ and the other 23 fitters"]}
{"id": "C106", "title": "ALT life and acceleration factors", "statement": "The distribution at use stress of an ALT fit has the model's life there; the table of changes lists every stress once with the life at that stress; the acceleration factor is the life at use over the life at the stress and the factor by which time is scaled: the item fails by time t at the stress as probably as by AF*t at use.", "quantifier": "all data, models, parameters, stresses and times", "why_tests_cant": "for-all over reals", "anchors": ["reliability/ALT_fitters.py: Fit_Weibull_Exponential.__init__ and the other 23 fitters"]}
{"id": "C107", "title": "ALT estimates are the most likely ones found", "statement": "The estimate of an ALT fit is the most likely of those of the optimizers that succeeded, starting from the least squares estimate; if all fail it is the least squares estimate itself.", "quantifier": "all data, models, optimizer choices and optimiser results", "why_tests_cant": "for-all over optimiser results", "anchors": ["reliability/Utils.py: ALT_MLE_optimization", "reliability/ALT_fitters.py: Fit_Weibull_Exponential.__init__ and the other 23 fitters"]}
{"id": "C108", "title": "The initial ALT estimate is the least squares one", "statement": "ALT_least_squares returns parameters of the life-stress model that minimise the squared differences of the logarithms of the failure times and lives over all parameters, and recovers the parameters exactly from times that follow the model.", "quantifier": "all data sets and life-stress models", "why_tests_cant": "for-all over lists and parameters", "anchors": ["reliability/Utils.py: ALT_least_squares"]}
{"id": "C109", "title": "Fit_Everything_ALT", "statement": "Fit_Everything_ALT fits exactly the models for the number of stresses given that are not excluded (in any capitalisation), each as its own fitter would; its table holds those fits in the order of the chosen criterion, the best model is the first, and the distribution at use stress is the best model's.", "quantifier": "all data, exclude lists, sort_by and optimiser results", "why_tests_cant": "for-all over lists and optimiser results", "anchors": ["reliability/ALT_fitters.py: Fit_Everything_ALT.__init__"]}
{"id": "C110", "title": "The time unit does not matter", "statement": "If all times are multiplied by c > 0 (days to hours), the model with correspondingly converted parameters describes the same population; the log-likelihood changes by a constant; the best fit to the converted data is the converted best fit; and any two models are ranked the same way by log-likelihood, AICc and BIC. The fitters return converted results for converted data.", "quantifier": "all data, models (except Beta, which lives on [0,1]), parameters and c", "why_tests_cant": "identity over reals and data lengths", "anchors": ["reliability/Fitters.py: LL, logf, logR of every fitter, Fit_Weibull_3P.__init__, Fit_Lognormal_3P.__init__, Fit_Gamma_3P.__init__, Fit_Loglogistic_3P.__init__"]}
{"id": "C111", "title": "Log and location relations between fitters", "statement": "Fit_Lognormal_2P on times is Fit_Normal_2P on their logarithms; Fit_Weibull_2P on times is Fit_Gumbel_2P on their logarithms with mu = ln(alpha) and sigma = 1/beta; a three-parameter fit with location gamma is the two-parameter fit to the times counted from gamma: equal likelihoods up to a constant of the data, so equal best fits.", "quantifier": "all data, censored or not, and all parameters", "why_tests_cant": "identity over reals and data lengths", "anchors": ["reliability/Fitters.py: Fit_Lognormal_2P.LL, Fit_Normal_2P.LL, Fit_Weibull_2P.LL, Fit_Gumbel_2P.LL and the 3P fitters"]}
{"id": "C112", "title": "A larger model never fits worse than its special case", "statement": "Each special case (exponential of Weibull and Gamma; two parameters of three; one Weibull of a mixture, of competing risks, of DS, ZI and DSZI) has exactly the likelihood of the model it is a special case of, so the best fit of the larger model is at least as likely as any fit of the smaller.", "quantifier": "all data and parameters", "why_tests_cant": "identity over reals and data lengths", "anchors": ["reliability/Fitters.py: LL of Fit_Weibull_2P, Fit_Weibull_3P, Fit_Weibull_Mixture, Fit_Weibull_CR, Fit_Weibull_DSZI, Fit_Weibull_DS, Fit_Weibull_ZI, Fit_Exponential_1P, Fit_Exponential_2P, Fit_Gamma_2P, Fit_Gamma_3P, Fit_Lognormal_3P, Fit_Loglogistic_3P"]}
{"id": "C113", "title": "The maximum likelihood estimate is well defined", "statement": "For data with at least two different failures every fitter's likelihood has exactly one maximum. It is failures over total time for the exponential, the power mean for Weibull with a forced shape, and mean and standard deviation for the normal without censoring.", "quantifier": "all data, censored or not", "why_tests_cant": "existence and uniqueness over reals", "anchors": ["reliability/Fitters.py: LL of Fit_Weibull_2P, Fit_Gumbel_2P, Fit_Normal_2P, Fit_Lognormal_2P, Fit_Loglogistic_2P, Fit_Exponential_1P, Fit_Exponential_2P, Fit_Weibull_3P"]}
{"id": "C114", "title": "Only the order of the times matters", "statement": "If every time is replaced by an increasing function of it (another unit, a logarithm), the Kaplan-Meier, Nelson-Aalen and rank adjustment estimates, their limits and the plotting positions stay the same numbers, at the transformed times.", "quantifier": "all data, increasing functions, CI and plotting heuristics", "why_tests_cant": "for-all over data and functions", "anchors": ["reliability/Nonparametric.py: KaplanMeier, NelsonAalen, RankAdjustment", "reliability/Probability_plotting.py: plotting_positions"]}
{"id": "C115", "title": "The order in which data are given does not matter", "statement": "The nonparametric estimates and plotting positions depend only on which times failed and which were censored, not on the order of the lists.", "quantifier": "all data and all orders of them", "why_tests_cant": "for-all over permutations and sort outcomes", "anchors": ["reliability/Nonparametric.py: KaplanMeier, NelsonAalen, RankAdjustment", "reliability/Probability_plotting.py: plotting_positions"]}
{"id": "C116", "title": "Censoring a failure never lowers the estimated reliability", "statement": "If some failures are recorded as censored at the same times instead, no Kaplan-Meier, Nelson-Aalen or rank adjustment estimate of reliability gets lower at any time, and no cumulative hazard gets higher.", "quantifier": "all data and all sets of failures turned into censorings", "why_tests_cant": "for-all over data sets", "anchors": ["reliability/Nonparametric.py: KaplanMeier, NelsonAalen, RankAdjustment"]}
{"id": "C117", "title": "Distributions that coincide", "statement": "Where two distributions are the same by definition, the library's are: Weibull and Gamma with shape 1 are Exponential; the logarithm of a Lognormal is Normal and of a Weibull is Gumbel; Beta(1,1) is uniform and Beta(a,b) mirrored is Beta(b,a). All methods return the same arrays and the same quantiles.", "quantifier": "all parameters, arrays and probabilities", "why_tests_cant": "identity over reals and arrays", "anchors": ["reliability/Distributions.py: Weibull_Distribution, Exponential_Distribution, Gamma_Distribution, Lognormal_Distribution, Normal_Distribution, Gumbel_Distribution, Beta_Distribution"]}
{"id": "C118", "title": "Combined models that coincide", "statement": "The order of the components of a competing risks or mixture model is irrelevant; one risk alone is that risk; a mixture of equal components is the component; competing Exponential risks are Exponential with the sum of the rates, and competing Weibull risks of equal shape are Weibull.", "quantifier": "all components, proportions and arrays", "why_tests_cant": "identity over lists of components", "anchors": ["reliability/Distributions.py: Competing_Risks_Model, Mixture_Model"]}
{"id": "C119", "title": "Mean residual life", "statement": "At any age that can be survived to, mean_residual_life is the expected remaining life of a survivor: positive, equal to mean minus age before the first possible failure, and with age plus mean residual life never falling. It is constant for the Exponential, falls with age for a Weibull with beta >= 1 and rises for beta <= 1. Where the mean does not exist neither does the integral computed.", "quantifier": "all distributions, parameters and ages", "why_tests_cant": "improper integrals over reals", "anchors": ["reliability/Distributions.py: mean_residual_life and mean of the eight distribution classes"]}
{"id": "C120", "title": "Reported moments are the moments", "statement": "mean, variance, standard_deviation, skewness, kurtosis and excess_kurtosis of a distribution are the expectations they are named after; a message is given instead only where the moment does not exist; 5 and 95 per cent fail before b5 and b95.", "quantifier": "all distributions and parameters", "why_tests_cant": "improper integrals over reals", "anchors": ["reliability/Distributions.py: __init__ of the eight distribution classes"]}
{"id": "C121", "title": "QQ plots pair quantiles of equal probability", "statement": "QQ_plot_parametric draws 100 points whose coordinates have the same probability under the two distributions and returns the least squares lines through them, which recover k and c exactly when one distribution is k times the other plus c. QQ_plot_semiparametric draws each failure against the quantile of its own estimated probability.", "quantifier": "all distributions, parameters, data and methods", "why_tests_cant": "quantile functions and least squares over reals; all data and censoring patterns", "anchors": ["reliability/Probability_plotting.py: QQ_plot_parametric, QQ_plot_semiparametric"]}
{"id": "C122", "title": "PP plots pair probabilities at the same time", "statement": "PP_plot_parametric draws, for times covering both distributions, the two probabilities of failure by that time: the points rise, and lie on the diagonal for equal distributions. PP_plot_semiparametric draws for each failure its estimated probability against the distribution function at its time.", "quantifier": "all pairs of distributions, parameters, data and methods", "why_tests_cant": "function identities over reals; all data", "anchors": ["reliability/Probability_plotting.py: PP_plot_parametric, PP_plot_semiparametric"]}
{"id": "C123", "title": "plot_points draws the empirical functions", "statement": "plot_points draws at each failure the plotting position (CDF), one minus it (SF), minus the logarithm of that (CHF), and as PDF and HF the slopes of CDF and CHF from the failure before, so that slope times gap is the increase. The order of the data does not matter.", "quantifier": "all failures, censorings and orders of the data", "why_tests_cant": "all data sets and their permutations", "anchors": ["reliability/Probability_plotting.py: plot_points"]}
{"id": "C124", "title": "Default x values cover the range asked for", "statement": "Without xvals the methods are evaluated at 200 values that rise from xmin to xmax, in whichever order they were given; by default from 0 (or the 0.01 per cent quantile for Normal and Gumbel) to the 99.99 per cent quantile. No value lies outside the range asked for or the support.", "quantifier": "all distributions, parameters and pairs of limits", "why_tests_cant": "piecewise grids over reals", "anchors": ["reliability/Utils.py: generate_X_array"]}
{"id": "C125", "title": "Arguments of the distribution methods", "statement": "A call with x values in the domain of the distribution is accepted, returns values at exactly those x, and treats a number like a list with that number alone. The level of confidence and the type of interval are what was asked for, else what the object was fitted with, else the default. At most one list of traced points is kept, and it lies in the domain. Every refusal is a ValueError.", "quantifier": "all distributions, objects and arguments of all classes", "why_tests_cant": "case analysis over all combinations of arguments", "anchors": ["reliability/Utils.py: distributions_input_checking", "reliability/Probability_plotting.py: PP_plot_parametric"]}
{"id": "C126", "title": "Parametric MCF", "statement": "MCF_parametric fits MCF = (t/alpha)^beta to the points of MCF_nonparametric, starting from the power law closest to their logarithms. The limits contain the estimates and widen with CI. IMPROVING, CONSTANT and WORSENING say how the fitted rate of repair behaves for the shapes inside the limits; the band of the plot is the delta method's.", "quantifier": "all repair histories, confidence levels and answers of the curve fitting routine", "why_tests_cant": "for-all over histories and reals, derivatives", "anchors": ["reliability/Repairable_systems.py: MCF_parametric.__init__"]}
{"id": "C127", "title": "What the nonparametric MCF depends on", "statement": "The MCF and its limits do not depend on the order of the systems or of the times of a system, nor on the scale of time. Watching systems longer, or watching further systems that need no repair, never raises it.", "quantifier": "all repair histories, permutations, increasing functions and longer observations", "why_tests_cant": "for-all over histories and functions", "anchors": ["reliability/Repairable_systems.py: MCF_nonparametric.__init__"]}
{"id": "C128", "title": "Likelihood contours are likelihood ratio regions", "statement": "likelihood_plot draws one contour per level asked for. A pair of parameters is inside the contour for the level CI exactly when the data are at least 1 - CI times as likely under it as under the estimate, so the estimate is inside every contour, contours of rising levels enclose each other, and the region follows a change of the unit of time. The grid on which contours are drawn reaches beyond the limits of the parameters, and the axes show every contour.", "quantifier": "all data, censorings, named distributions, levels, and outcomes of the fit and of the contour finder", "why_tests_cant": "for-all over data and parameters, equivalence of inequalities over reals", "anchors": ["reliability/Reliability_testing.py: likelihood_plot"]}
{"id": "C129", "title": "Arguments of the fitters", "statement": "A fitter accepts exactly the documented arguments: enough distinct times in the domain of the distribution, CI between 0 and 1, known names of method, optimizer and type of interval in any capitals, quantiles between 0 and 1, and a positive forced shape. The times are passed on unchanged and in order, the options as asked for or as the documented default. Every refusal is a ValueError, and checking what was passed on changes nothing.", "quantifier": "all data and arguments of all classes", "why_tests_cant": "case analysis over all combinations of arguments and data lengths", "anchors": ["reliability/Utils.py: fitters_input_checking"]}
{"id": "C130", "title": "The table of quantiles", "statement": "A fitter asked for quantiles makes a table with one row per quantile, in order: the time by which that fraction has failed under the fitted distribution, between its two limits. Times rise with the quantile, limits widen with CI. A quantile of None or False makes no table; any other accepted request makes one.", "quantifier": "all fitted distributions, standard errors, levels and lists of quantiles", "why_tests_cant": "for-all over reals and lists", "anchors": ["reliability/Fitters.py: quantiles of the fitters", "reliability/Utils.py: fitters_input_checking, extract_CI"]}
{"id": "C131", "title": "What a probability plot shows", "statement": "A probability plot has one point per failure, at its time (less the fitted gamma, if the plot shows a distribution with one) and its plotting position, and the fitted distribution function as a straight line on the scales of the axes, so that a point is on the line exactly when its plotting position is the fitted probability of failure. The axes show every point. Without the fitted distribution the points are at the failure times. Exactly the documented arguments are accepted.", "quantifier": "the nine probability plots, all data and arguments, all results of the fitters and of sorting", "why_tests_cant": "for-all over data and parameters", "anchors": ["reliability/Probability_plotting.py: Weibull_probability_plot, Loglogistic_probability_plot, Exponential_probability_plot_Weibull_Scale, Gumbel_probability_plot, Normal_probability_plot, Lognormal_probability_plot, Beta_probability_plot, Gamma_probability_plot, Exponential_probability_plot"]}
{"id": "C132", "title": "Statistics of combined models", "statement": "mean, standard_deviation, variance, skewness and kurtosis of a competing risks or mixture model are the integrals that define them, taken over the range between the smallest 1e-10 and the largest 1 - 1e-10 quantile of the components, to within the error of a grid of a million points; mode, median, b5 and b95 are the best points of that grid. They do not depend on the order of the components. The model can be made exactly when no Beta component meets quantiles above 1.", "quantifier": "all lists of distributions, parameters and proportions", "why_tests_cant": "integrals over reals, all lists and permutations", "anchors": ["reliability/Distributions.py: Competing_Risks_Model.__init__, Mixture_Model.__init__"]}
{"id": "C133", "title": "Mean residual life of combined models", "statement": "mean_residual_life(t) of a competing risks or mixture model is the expected remaining life of a unit that has survived to t: positive, and equal to the integral of the survival function after t over its value at t to within the error of the grid. It does not depend on the order of the components.", "quantifier": "all lists of distributions, parameters, proportions and times", "why_tests_cant": "integrals over reals for all models and times", "anchors": ["reliability/Distributions.py: Competing_Risks_Model.mean_residual_life, Mixture_Model.mean_residual_life"]}
{"id": "C134", "title": "Random samples of the distributions", "statement": "random_samples(n) returns exactly n values that follow the distribution: each is a draw of the standard member of the family moved and scaled so that the probability of being at or below t is the distribution function at t. With a seed the samples depend on the seed only, and fewer samples are the beginning of more; without one, a call continues where the last stopped. Beta samples are the first draws below 1. Anything but an int of at least 1, and seeds outside 0 to 2^32 - 1, are refused with ValueError.", "quantifier": "all distributions, parameters, numbers of samples, seeds and states of the generator", "why_tests_cant": "for-all over parameters, generator states and call histories", "anchors": ["reliability/Distributions.py: random_samples of the eight distributions"]}
{"id": "C135", "title": "Random samples of combined models", "statement": "random_samples(n) of a competing risks or mixture model returns n points of the table of the model, of which a share up to x is drawn that agrees with the distribution function of the model, between its extreme quantiles, to within the width of the table.", "quantifier": "all lists of distributions, parameters, proportions, numbers of samples, seeds and states of the generator", "why_tests_cant": "sums over a million points for all models, integrals over reals", "anchors": ["reliability/Distributions.py: Competing_Risks_Model.random_samples, Mixture_Model.random_samples"]}
{"id": "C136", "title": "Failure times of DSZI samples", "statement": "The failure times drawn by random_samples of a DSZI model follow its base distribution, with or without a seed: who fails does not decide when.", "quantifier": "all base distributions, DS, ZI, numbers of samples, seeds and states of the generator", "why_tests_cant": "for-all over generators and their states", "anchors": ["reliability/Distributions.py: DSZI_Model.random_samples"]}
{"id": "C137", "title": "Grouped data are fitted as the items they stand for", "statement": "Fit_Weibull_2P_grouped of a dataframe with columns category, time and quantity gives the estimates, standard errors, method, optimizer and goodness of fit, or the error, that Fit_Weibull_2P gives with every item listed by itself. A dataframe with other columns or categories is refused.", "quantifier": "all dataframes, arguments, and answers of the optimizers and of the least squares routine", "why_tests_cant": "for-all over dataframes and optimizer behaviours", "anchors": ["reliability/Fitters.py: Fit_Weibull_2P_grouped.__init__, Fit_Weibull_2P.__init__"]}
{"id": "C138", "title": "The axes show what is plotted", "statement": "PDF, CDF, SF, HF and CHF leave axes that show the whole range asked for (by default all but the extreme thousandths of the distribution) and, of the curve, every probability and every finite density, and every point of a rising hazard within the range. Plots made one after the other on the same axes hide nothing shown before.", "quantifier": "all distributions, parameters, ranges, curves, earlier views and sequences of plots", "why_tests_cant": "for-all over histories of plots and over reals", "anchors": ["reliability/Utils.py: get_axes_limits, restore_axes_limits", "reliability/Distributions.py: PDF, CDF, SF, HF, CHF"]}
{"id": "C139", "title": "Probability plots of accelerated life tests", "statement": "Every ALT fitter draws, for each stress, the failures at that stress at their plotting positions, the life distribution of the fitted model at that stress as a solid line in a colour of its own and the distribution fitted to that stress alone as a dashed line, and the distribution at the use stress. The axes show all failures.", "quantifier": "all data, stresses, distributions, life-stress models, and results of fitting", "why_tests_cant": "for-all over data sets and fitted parameters", "anchors": ["reliability/Utils.py: ALT_prob_plot, make_fitted_dist_params_for_ALT_probplots", "reliability/ALT_fitters.py: probability_plot of the fitters"]}
{"id": "C140", "title": "Life-stress plots", "statement": "The life-stress plot of an ALT fitter shows every failure at its stress, the life of the fitted model over all stresses on the axis, and the use stress at its life, all of them on the chart. With two stresses the life is a surface up to the edges of the axes.", "quantifier": "all data, stresses, life-stress models and fitted parameters", "why_tests_cant": "for-all over data sets and fitted parameters, reals", "anchors": ["reliability/Utils.py: life_stress_plot", "reliability/ALT_fitters.py: life_stress_plot of the fitters"]}
{"id": "C141", "title": "Numbers in titles, legends and printed results", "statement": "A number in a title, legend or printed result is the number itself to within half a unit of the last place asked for: integers exactly, very large and very small numbers with that many digits after the first. A number that is not zero is not shown as zero or with the other sign, numbers keep their order, and the examples of the documentation hold. The title of a distribution names its parameters in order, gamma only if it is not zero.", "quantifier": "all numbers, numbers of decimals, limits for scientific notation, distributions and parameters", "why_tests_cant": "for-all over reals and numbers of decimals", "anchors": ["reliability/Utils.py: round_and_string", "reliability/Distributions.py: param_title of the eight distributions", "reliability/Probability_plotting.py: labels of the probability plots"]}
{"id": "C142", "title": "The distribution explorer shows what is set", "statement": "Whatever buttons are clicked and sliders moved in the distribution explorer, in whatever order, it raises no error, and the name of the button, the sliders, the curve in each of the five panels and the title all give one and the same valid distribution. A click shows the distribution of the button with its initial parameters, whatever was done before; moving a slider changes only its own parameter, to the value it is moved to.", "quantifier": "all histories of clicks and movements of the sliders", "why_tests_cant": "for-all over histories of user events", "anchors": ["reliability/Other_functions.py: distribution_explorer"]}
{"id": "C143", "title": "Crosshairs show the coordinates of the point", "statement": "The crosshairs cross at the selected point of a plotted line, and the texts at the axes and the label left by a click give its coordinates to within half a unit of the last decimal asked for, for every number of decimals crosshairs accepts. Arguments of other types are refused with ValueError.", "quantifier": "all points, numbers of decimals and labels", "why_tests_cant": "for-all over reals and arguments", "anchors": ["reliability/Other_functions.py: crosshairs"]}
{"id": "C144", "title": "What a fitter of a single distribution reports belongs together", "statement": "Every fitter of a single distribution that returns reports a distribution object with exactly its estimates; data that are the user's without the zeros; log-likelihood, AICc and BIC of that distribution on those data, for the number of parameters estimated; the Anderson-Darling statistic and the quantiles of that distribution; a row for each parameter whose limits enclose the estimate and whose standard error comes from the second derivatives of the log-likelihood, with a forced shape or the location held; and a distribution whose support contains all the data. A three-parameter fitter reports a location of at least 0.01 or the two-parameter fit with location 0. Data that are accepted are fitted.", "quantifier": "all fitters, data, censored data, methods, optimizers, forced shapes, quantiles, and all answers of the least squares routine and the optimizers", "why_tests_cant": "for-all over data sets and behaviours of external optimizers", "anchors": ["reliability/Fitters.py: Fit_Weibull_2P, Fit_Weibull_3P, Fit_Exponential_1P, Fit_Exponential_2P, Fit_Normal_2P, Fit_Gumbel_2P, Fit_Lognormal_2P, Fit_Lognormal_3P, Fit_Gamma_2P, Fit_Gamma_3P, Fit_Beta_2P, Fit_Loglogistic_2P, Fit_Loglogistic_3P", "reliability/Utils.py: LS_optimization, MLE_optimization"]}
{"id": "C145", "title": "Maximum likelihood is at least as likely as least squares", "statement": "With optimizers that never return a point worse than their start, the fit by maximum likelihood has at least the log-likelihood of the fit by least squares (or by rank regression) of the same data.", "quantifier": "all fitters of a single distribution, data, optimizers and arguments", "why_tests_cant": "for-all over data sets and behaviours of external optimizers", "anchors": ["reliability/Fitters.py: the fitters of a single distribution", "reliability/Utils.py: LS_optimization, MLE_optimization"]}
{"id": "C146", "title": "Least squares uses the regression that is asked for", "statement": "method='RRX' and 'RRY' report the estimates of that regression and name it in the results; 'LS' performs both and reports the more likely one.", "quantifier": "all fitters that offer these methods, data and arguments", "why_tests_cant": "for-all over data sets", "anchors": ["reliability/Fitters.py: the fitters of a single distribution", "reliability/Utils.py: LS_optimization"]}
{"id": "C147", "title": "Demonstrated MTBF and failure intensity", "statement": "reliability_growth reports, for the fitted model, the failures per unit time up to the last failure, the rate of failures at the last failure (the derivative of the expected number of failures) and the reciprocals of both. The Duane line is the power law closest to the observed cumulative MTBFs on log axes, and no other is as close; its slope is below one. The model is chosen by its name in any case; the only exception is ValueError, for a wrong name, no times or times that are not positive. The order of the times does not matter, and other units of time change the results accordingly.", "quantifier": "all failure times, targets, model names and options", "why_tests_cant": "for-all over data sets and reals", "anchors": ["reliability/Repairable_systems.py: reliability_growth"]}
{"id": "C148", "title": "The growth plot shows failures, curve and target", "statement": "The plot of reliability_growth shows every failure at its time and observed cumulative MTBF, the cumulative MTBF of the fitted model, which passes through the demonstrated MTBF at the last failure, and, given a target, a line from the axis to the curve at the target MTBF and down to the time to target, all within the axes, with linear and with log axes.", "quantifier": "all failure times, targets, model names and scales", "why_tests_cant": "for-all over data sets and reals", "anchors": ["reliability/Repairable_systems.py: reliability_growth"]}
{"id": "C149", "title": "What the fitters of combined Weibull models report belongs together", "statement": "Fit_Weibull_Mixture, Fit_Weibull_CR, Fit_Weibull_DSZI, Fit_Weibull_DS and Fit_Weibull_ZI use the user's data without the zeros, except that the zero inflated models count the failures at time zero. The distribution object has the parameters reported; log-likelihood, AICc and BIC are those of the data under that object (each failure at zero counting with the probability of zero, when that is positive) with the number of items and of parameters; AD compares that object with the plotting positions; the table has one row per parameter with the estimate, a standard error from the second derivatives of the log-likelihood, and limits that bracket the estimate. The search starts from fits of Fit_Weibull_2P to parts of the data and from shares of the data; the result is the start when every optimizer fails and is not less likely than the start; and the parameters are possible ones (0 <= ZI < DS <= 1, a proportion between 0 and 1) when the optimizers answer within the bounds. On accepted data with two different failures on either side of the dividing line the fitters return.", "quantifier": "the five fitters, all data and arguments, all behaviours of the optimizers", "why_tests_cant": "for-all over data sets, arguments and optimizer answers", "anchors": ["reliability/Fitters.py: Fit_Weibull_Mixture, Fit_Weibull_CR, Fit_Weibull_DSZI, Fit_Weibull_DS, Fit_Weibull_ZI", "reliability/Utils.py: MLE_optimization"]}
{"id": "C150", "title": "Writing a spreadsheet destroys no file without consent", "statement": "write_to_xlsx of a converter changes exactly one file. If the file named does not exist it is written without a question. If it exists the user is asked, again and again until the answer is Y or N in either case: Y overwrites the file named, N leaves it as it is and writes a file that did not exist, in the same directory, whose name is the one given with (new) added before the extension as often as needed. The question and the search for a free name end whatever files there are. Keyword arguments reach pandas except excel_writer, and the index is written only if asked for.", "quantifier": "all file systems, paths, platforms, sequences of answers, data frames and keyword arguments", "why_tests_cant": "for-all over file system states and interactive histories", "anchors": ["reliability/Utils.py: write_df_to_xlsx", "reliability/Convert_data.py: write_to_xlsx"]}
{"id": "C151", "title": "What is written to a spreadsheet is what is read from it", "statement": "Data written with write_to_xlsx of any converter and read with the reader for the format are the same: the same failure and censored times in the same order (also when the columns have different lengths), the same counts, the same censoring codes; and reading then writing again changes nothing.", "quantifier": "all data sets in FR, FNRN and XCN format, all codes", "why_tests_cant": "for-all over data sets; tests write and read a few files", "anchors": ["reliability/Convert_data.py: xlsx_to_FR, xlsx_to_FNRN, xlsx_to_XCN, write_to_xlsx", "reliability/Utils.py: removeNaNs"]}
{"id": "C152", "title": "A row of a spreadsheet is an observation", "statement": "xlsx_to_XCN and xlsx_to_FNRN take each row of the sheet as one kind of observation: the time, code and number of one row belong together. Blank rows are ignored. Sheets with missing entries are refused. xlsx_to_FR takes each entry of the first two columns as one item.", "quantifier": "all sheets, with blanks anywhere", "why_tests_cant": "for-all over sheets", "anchors": ["reliability/Convert_data.py: xlsx_to_FR, xlsx_to_FNRN, xlsx_to_XCN", "reliability/Utils.py: removeNaNs"]}
{"id": "C153", "title": "The nonparametric plots show the estimate", "statement": "The chart drawn by KaplanMeier, NelsonAalen or RankAdjustment shows the estimate that the results give: a line of horizontal and vertical pieces that starts at time 0 with reliability 1 and is at the estimate (or one minus it, or minus its logarithm) above the time of every item; the survival function never rises and the others never fall; the shaded band is around the line; and the axes are such that every finite point of the line is seen. Only the plot types SF, CDF and CHF are accepted.", "quantifier": "all non-negative data with two failures or more, plot types, confidence levels, axes found on the figure", "why_tests_cant": "for-all over data sets", "anchors": ["reliability/Nonparametric.py: KaplanMeier, NelsonAalen, RankAdjustment"]}
{"id": "C154", "title": "The replacement plots show the optimum", "statement": "The plots of optimal_replacement_time show what is returned. Against time: the line is the cost per unit time of replacing at each time, the mark is the pair returned, no point of the line is below it, and it is within the axes. Against the ratio of the costs: the mark is at the ratio of the costs given and at the time returned, the line has at each ratio the time that is returned for that ratio, the dearer a failure the earlier the replacement, and mark and line are within the axes. Both are drawn whenever 0 < cost_PM <= cost_CM and q is 0 or 1.", "quantifier": "all costs, Weibull parameters and both policies", "why_tests_cant": "for-all over reals", "anchors": ["reliability/Repairable_systems.py: optimal_replacement_time"]}
{"id": "C155", "title": "The plots of the mean cumulative function show the estimate", "statement": "The plot of MCF_nonparametric is at every time up to the last one at the mean number of repairs per system so far; it starts at (0, 0), goes right and up only and goes through every point of the results; the band is around the line and line and band are within the axes. The plot of MCF_parametric shows every point of the nonparametric estimate within the axes and the fitted power law with its band around it. A plot is drawn whenever a system was repaired.", "quantifier": "all data sets of non-negative times, confidence levels", "why_tests_cant": "for-all over data sets and times", "anchors": ["reliability/Repairable_systems.py: MCF_nonparametric, MCF_parametric"]}
{"id": "C156", "title": "ROCOF's estimates are the maximum likelihood ones and its plot shows them", "statement": "When the trend is not constant, Beta_hat and Lambda_hat of ROCOF are the only parameters of a power law process under which the observed failures, up to the end of the test (or the last failure), are most likely; they are given unless the trend is constant or all failures come at the end. The plot has a point for every failure at the time since the failure before, and a line at the reciprocal of the rate (constant trend) or of the intensity of the estimated process at that failure. With an improving trend the estimated intensity falls, with a worsening trend it rises.", "quantifier": "all failure times or times between failures, ends of the test and confidence levels", "why_tests_cant": "for-all over data sets and parameters", "anchors": ["reliability/Repairable_systems.py: ROCOF"]}
{"id": "C157", "title": "Nonparametric estimates in double precision", "statement": "In double precision arithmetic, for up to 2^50 items, the Kaplan-Meier estimates are between 0 and 1, are unchanged to the last bit by a censored item, fall with every failure, are 0 exactly after the last item if it failed, and differ from the product limit by at most two roundings per item; the bounds enclose the estimate within 0 and 1. The cumulative hazard of Nelson-Aalen and the mean cumulative function are unchanged by censored items, rise with every failure and differ from the exact sums by at most one rounding per item and one for the first; the Nelson-Aalen estimate is between 0 and 1 and never rises.", "quantifier": "all sequences of censoring codes, of repairs and ends, up to 2^50 long; all monotone implementations of exp", "why_tests_cant": "for-all over data sets; rounding errors accumulate with the size", "anchors": ["reliability/Nonparametric.py: KaplanMeier, NelsonAalen", "reliability/Repairable_systems.py: MCF_nonparametric"]}
{"id": "C158", "title": "Plotting positions in double precision", "statement": "In double precision arithmetic, for fewer than 2^50 items, the plotting positions are between 0 and 1 and each is larger than the one before, with one for each failure. Without censoring the ranks are exact and the positions differ from (k - a)/(n + 1 - 2a) by at most four roundings. With censoring the rank of the j-th failure differs from the exact one by at most 3 j (n + 1) 2^-53. Only data without failures, and one item with a = 1, are refused.", "quantifier": "all sequences of censoring codes and all double precision a between 0 and 1", "why_tests_cant": "for-all over data sets; rounding errors accumulate with the size", "anchors": ["reliability/Probability_plotting.py: plotting_positions"]}
{"id": "C159", "title": "The reported change of the shape parameter is right", "statement": "In change_of_parameters of the accelerated life test fitters, the change column has one cell for each stress. It is empty exactly for the stresses with one failure. Otherwise it is the percentage, to two decimals, by which the shape parameter of the model (1, as a Weibull shape, for the Exponential models) differs from the one fitted at that stress alone: applied to the latter it gives the former to within rounding, with a plus sign exactly if the model's is larger. The warning is printed exactly if, at some stress, the shape of the model is less than half or more than one and a half times the one fitted there; without a warning all percentages are between -50 and 50.", "quantifier": "all fitted models, stresses and shapes", "why_tests_cant": "for-all over data sets and reals; both sides of the threshold", "anchors": ["reliability/ALT_fitters.py: Fit_Weibull_Exponential and the other 23 fitters, change_of_parameters, shape_change_threshold"]}
{"id": "C160", "title": "Data coordinates and axes coordinates are converted both ways", "statement": "xy_transform with direction forward turns a data value on the axis into its position on it, from 0 at the first limit to 1 at the second, for any scale; the position is between 0 and 1 exactly if the value is within the limits, and larger for larger values. Direction inverse undoes it, and forward undoes inverse. A list is converted item by item. The synonyms of the directions and the two cases of the names of the axes do not matter; anything else is refused with ValueError.", "quantifier": "all values and lists, directions, axis names, limits and monotone scales", "why_tests_cant": "for-all over values, limits and scales; tests use a few figures", "anchors": ["reliability/Utils.py: xy_transform"]}
{"id": "C161", "title": "Tick labels of probability plots say the value", "statement": "The label of a tick of the y axis of a probability plot is the probability in percent to 8 decimals. The label of a tick of the x axis is its value to six significant digits, with the right sign, in the right order, and exactly if it has no more digits. The locator used for the x axis leaves no more of the axis without ticks at its ends than the other one would, unless that is at most half of it.", "quantifier": "all tick values, limits and locators", "why_tests_cant": "for-all over reals; labels of ticks come from zooming and from data", "anchors": ["reliability/Utils.py: probability_plot_xyticks"]}
{"id": "C162", "title": "Coloured text looks as asked and nothing else does", "statement": "Each text printed with colorprint appears on the terminal with exactly the text colour, background, bold, underline and italic that were asked for, and text printed afterwards is plain, whatever was printed before and in any number of calls. The names of the colours and their short forms are accepted in any case of the letters; anything else raises ValueError and prints nothing.", "quantifier": "all texts without control characters, colour arguments, flags, and sequences of calls mixed with ordinary output", "why_tests_cant": "for-all over histories of output; the look depends on the state of the terminal, which tests of the written text do not see", "anchors": ["reliability/Utils.py: colorprint"]}
{"id": "C163", "title": "Mixture proportions in double precision", "statement": "In double precision, proportions that add to 1 are accepted by Mixture_Model and others are not, whatever their order; in particular the model of a fitted Weibull mixture can be built for every proportion the optimizer returns.", "quantifier": "all proportions, as real numbers rounded to doubles", "why_tests_cant": "for-all over doubles; the test is an equality of floating point numbers", "anchors": ["reliability/Distributions.py: Mixture_Model", "reliability/Fitters.py: Fit_Weibull_Mixture, Fit_Everything"]}
{"id": "C164", "title": "The figure of plot() and the print of stats() show the statistics of the distribution", "statement": "plot() draws its figure for every distribution and every DSZI model. Each of its nine texts shows the statistic of its label: the true mean, median, mode, 5% and 95% quantiles, standard deviation, variance, skewness and excess kurtosis, rounded to four decimals, or a message exactly where the moment does not exist (or Beta has no mode inside its range). stats() prints the same statistics in the same order.", "quantifier": "all distributions with valid parameters, and DSZI models of them", "why_tests_cant": "for-all over distributions and parameters; the statistics are integrals over the density", "anchors": ["reliability/Distributions.py: plot, stats of all distributions and DSZI_Model", "reliability/Utils.py: round_and_string"]}
{"id": "C165", "title": "The shaded confidence band is the region between the bounds", "statement": "The shaded area of confidence bounds on a plot is exactly what lies between the lower and the upper bound: for bounds on reliability above and below each other at the same times, for bounds on time beside each other at the same heights, whichever of the two is larger. On probability paper all its corners are probabilities that can be drawn and legal ones are not moved. For an exponential distribution the edges at each drawn time are the function with the lower and with the upper confidence limit of Lambda, and the function itself is between them.", "quantifier": "all arrays of bounds at strictly monotone times or heights, all points of the plane; all exponential distributions, standard errors, confidence levels and functions", "why_tests_cant": "for-all over arrays and points of the plane", "anchors": ["reliability/Utils.py: fill_no_autoscale, line_no_autoscale, distribution_confidence_intervals.exponential_CI"]}
{"id": "C166", "title": "Results of a combined model do not depend on what was done before", "statement": "What PDF, CDF, SF, HF and CHF of a Competing_Risks_Model or a Mixture_Model return depends only on the model, the function and the x values: not on earlier calls, not on plots, and not on what the caller wrote into the arrays returned before. The methods change no array that the caller has, neither the x values nor earlier results, and every array returned is a new one. Showing a plot does not change what is returned.", "quantifier": "all models, histories of calls, plots, new arrays and writes to arrays, and arguments", "why_tests_cant": "for-all over histories; results share memory with the state of the model", "anchors": ["reliability/Distributions.py: Competing_Risks_Model, Mixture_Model: PDF, CDF, SF, HF, CHF, plot, __combiner", "reliability/Utils.py: unpack_single_arrays"]}
{"id": "C167", "title": "Random test data is reproducible", "statement": "With a seed, make_right_censored_data and make_ALT_data return the same data whatever was drawn or seeded before and leave the random generator in the same state; with a threshold nothing is random and the generator is not touched. Without a seed they continue the generator, so that np.random.seed before the call does the same as the seed argument. Each stress of make_ALT_data has its own seed, drawn from the first one; adding stresses does not change the data of the stresses before them; the samples of a stress are drawn from its distribution and censored as asked.", "quantifier": "all arguments, seeds, states of the random generator (histories of draws) and generators", "why_tests_cant": "for-all over histories of the global random generator; tests fix one seed in a fresh process", "anchors": ["reliability/Other_functions.py: make_right_censored_data, make_ALT_data"]}
{"id": "C168", "title": "The shaded band of a fitted distribution shows its confidence limits", "statement": "The confidence band drawn with CDF, SF or CHF of a fitted Weibull, Gamma, Normal, Lognormal, Loglogistic or Gumbel distribution goes through the limits that the same function returns as numbers: with CI_type time, at each of 200 heights spread over the whole range, between the lower and the upper limit on time for this height; with CI_type reliability, at each of 200 times from the 0.00001 to the 0.99999 quantile, between the limits for this time. Points are left out exactly if the function raises an error for them. Limits that go the right way are drawn as they are, others are continued from their lowest or highest point. What is shaded is the region between the two lines, and at every time or height drawn the fitted function itself is between them, also where a limit was continued. With the covariances of two estimates nothing is left out for bounds on time.", "quantifier": "all fitted distributions, covariances, confidence levels, functions, kinds of paper and points of the plane", "why_tests_cant": "for-all over parameters and covariances; the limits are computed again for the plot by other code paths", "anchors": ["reliability/Utils.py: distribution_confidence_intervals.weibull_CI, gamma_CI, normal_CI, lognormal_CI, loglogistic_CI, gumbel_CI, clean_CI_arrays, no_reverse, extract_CI, fill_no_autoscale"]}
{"id": "C169", "title": "The histogram and the P-P plots of Fit_Everything show the data", "statement": "For every data set that Fit_Everything fits, its histogram is drawn: the bars stand side by side from the first to the last failure, as few of them as the Freedman-Diaconis rule allows. The area of each bar of the density is the share of all items, censored ones included, that failed in it. The height of each bar of the cumulative plot is the share of the failures up to its end times the highest plotting position. All bars lie within the limits of the axes. Each P-P plot has, for every item, one point that pairs the fitted with the Kaplan-Meier probability of failure at its time, on the axes named in the title, and all points lie within the limits, also after downsampling. There is a subplot for every fitted distribution.", "quantifier": "all failures and censored items, monotone fitted distribution functions, downsampling factors and numbers of fitted distributions", "why_tests_cant": "for-all over data; figures are not compared with the data by tests", "anchors": ["reliability/Fitters.py: Fit_Everything.__histogram_plot, __P_P_plot, __probplot_layout", "reliability/Utils.py: xy_downsample"]}
{"id": "C170", "title": "The results tables of the nonparametric estimators are consistent", "statement": "The results of KaplanMeier, NelsonAalen and RankAdjustment have one row for each item, failed or censored, in the order of time. Items remaining is the number of items that had neither failed nor been censored before the time of the row; it goes from all items to 1. Each Kaplan-Meier estimate is the one before it times 1 - 1/remaining at a failure, each Nelson-Aalen estimate the one before it times exp(-1/remaining), and unchanged at a censored item. The bounds of each row bound its estimate.", "quantifier": "all failures, censored items, confidence levels and sorting orders of ties", "why_tests_cant": "for-all over data, including ties; tests look at the last rows of a few tables", "anchors": ["reliability/Nonparametric.py: KaplanMeier, NelsonAalen, RankAdjustment"]}
