{"id": "C01", "title": "Cached calls are transparent in every sequential history", "statement": "For a deterministic function wrapped by cache_results, any sequence of calls and cache_clear() calls made one after the other yields, call by call, exactly the outcome (value or exception) that the unwrapped function gives, whatever the maxsize.", "quantifier": "every function (including ones that raise on some keys), every maxsize >= 1 or None, every finite history of calls and clears", "why_tests_cant": "A test can replay a handful of histories; eviction, clearing and failing calls interact over unbounded histories.", "anchors": ["src/spey/system/cache.py: cache_results.wrapper", "src/spey/system/cache.py: cache_clear"]}
{"id": "C02", "title": "The cache never outgrows maxsize and evicts first-in first-out", "statement": "After every completed call in a sequential history the number of stored entries is at most maxsize, a stored key occurs once, and the stored keys are exactly the most recently inserted ones in insertion order: a hit never refreshes an entry and eviction always removes the oldest insertion.", "quantifier": "every maxsize >= 1, every function, every finite sequential history", "why_tests_cant": "The bound and the order must survive every history; a test sees finitely many.", "anchors": ["src/spey/system/cache.py: cache_results.wrapper", "src/spey/system/cache.py: cache_info", "src/spey/system/cache.py: get_cache"]}
{"id": "C03", "title": "A failing computation leaves no trace", "statement": "If the wrapped function raises, the exception reaches the caller, the cache contents and the eviction order are exactly what they were before the call, and the next call with the same arguments runs the function again.", "quantifier": "every state reachable by a sequential history, every key on which the function raises", "why_tests_cant": "Must hold from every reachable cache state.", "anchors": ["src/spey/system/cache.py: cache_results.wrapper (except branch)"]}
{"id": "C04", "title": "Concurrent callers only ever receive the function's own value for their key", "statement": "Under any interleaving of any number of threads calling the same cached function, with cache_clear() called at any time and any maxsize, every value returned to a caller with key k is a value the function returned for key k; no caller ever receives the internal in-progress marker or another key's value.", "quantifier": "every schedule, every number of threads, every key, every maxsize, clears at every point", "why_tests_cant": "Interleavings are unbounded and the failing ones are rare.", "anchors": ["src/spey/system/cache.py: cache_results.wrapper", "src/spey/system/cache.py: _COMPUTING"]}
{"id": "C05", "title": "One computation per key at a time", "statement": "While a computation for key k is in flight no second computation for k is started (concurrent callers wait for the first instead).", "quantifier": "every schedule of every number of threads, every maxsize, with or without clears", "why_tests_cant": "Depends on the schedule; the violating schedules need an eviction or a clear in a narrow window.", "anchors": ["src/spey/system/cache.py: cache_results.wrapper"]}
{"id": "C06", "title": "A caller waiting for someone else's computation is always woken", "statement": "Whenever a thread is blocked waiting for another thread's computation of the same key, some live computation will signal it when it finishes (successfully or not): no caller is left blocked for ever.", "quantifier": "every reachable concurrent state, every schedule, every maxsize, with or without clears", "why_tests_cant": "A lost wake-up is a property of infinite executions; no finite test run distinguishes it from slowness.", "anchors": ["src/spey/system/cache.py: cache_results.wrapper", "src/spey/system/cache.py: cache_clear"]}
{"id": "C07", "title": "The cache raises no error of its own", "statement": "A call whose underlying computation succeeds returns its value; the cache bookkeeping itself never makes the call raise.", "quantifier": "every schedule, every maxsize, every recursion pattern of the wrapped function", "why_tests_cant": "Needs all reentrant call trees and schedules.", "anchors": ["src/spey/system/cache.py: cache_results.wrapper (while len(cache) > maxsize: order.popleft())"]}
{"id": "C08", "title": "Spelling of a call does not matter, and different arguments never share an entry", "statement": "Two calls that bind the same values to the same parameters (positionally, by keyword in any order, or through a default) use the same cache entry, and two calls that bind distinguishable values to some parameter use different entries.", "quantifier": "every signature, every argument list, every nested container argument", "why_tests_cant": "Arguments are unbounded nested data; collisions are not found by sampling.", "anchors": ["src/spey/system/cache.py: _make_token", "src/spey/system/cache.py: _build_key"]}
{"id": "C09", "title": "Test statistics are non-negative and vanish where they must", "statement": "q_mu, q_mu-tilde, q_mu-left and q_0 are never negative; q_mu and q_mu-tilde are exactly 0 when muhat > mu, q_mu-left when muhat < mu, q_0 when muhat < 0; otherwise each equals twice the log-likelihood-ratio (clipped at zero).", "quantifier": "every log-likelihood function, every mu, muhat and maximum value", "why_tests_cant": "Real-valued inputs and arbitrary likelihood functions.", "anchors": ["src/spey/hypothesis_testing/test_statistics.py: qmu, qmu_tilde, qmu_left, q0"]}
{"id": "C10", "title": "The two upper-limit statistics agree exactly when the fit is physical", "statement": "When muhat >= 0, q_mu-tilde equals q_mu; when muhat < 0 and the reported maximum really is a maximum, q_mu-tilde <= q_mu.", "quantifier": "every likelihood, every mu and muhat", "why_tests_cant": "Real-valued inputs.", "anchors": ["src/spey/hypothesis_testing/test_statistics.py: qmu, qmu_tilde"]}
{"id": "C11", "title": "Test-statistic names resolve to exactly the documented set", "statement": "Every documented name and alias selects its statistic and every other string raises UnknownTestStatistics.", "quantifier": "every string", "why_tests_cant": "Unbounded input set.", "anchors": ["src/spey/hypothesis_testing/test_statistics.py: get_test_statistic"]}
{"id": "C12", "title": "The transformed statistic is continuous and monotone in the observed statistic, and fails only when it must", "statement": "The value handed to the p-value computation is a continuous, strictly increasing function of sqrt(q_mu) for fixed sqrt(q_mu,A), it agrees with sqrt(q)-sqrt(q_A) below the switch point, and AsimovTestStatZero is raised exactly when the q-tilde formula would divide by zero.", "quantifier": "all non-negative q and q_A, every test statistic name", "why_tests_cant": "Continuity and monotonicity quantify over the reals.", "anchors": ["src/spey/hypothesis_testing/test_statistics.py: compute_teststatistics"]}
{"id": "C13", "title": "CLs p-values are well formed", "statement": "For every distribution shift and observed statistic, CLsb, CLb and CLs lie in [0,1], CLs >= CLsb, CLs is 0 when CLb underflows to 0, and CLs is non-increasing in the observed statistic.", "quantifier": "every real test statistic and shift", "why_tests_cant": "Needs all real arguments including the tail where CLb vanishes.", "anchors": ["src/spey/hypothesis_testing/utils.py: pvalues", "src/spey/hypothesis_testing/distributions.py: AsymptoticTestStatisticsDistribution", "src/spey/hypothesis_testing/asymptotic_calculator.py: AsymptoticCalculator"]}
{"id": "C14", "title": "Expected p-values are ordered across the sigma bands", "statement": "The five expected CLsb and CLs values come out in the documented order (-2,-1,0,1,2 sigma) and are monotone along it, and the median one equals the value for an observation equal to the background median.", "quantifier": "every Asimov statistic sqrt(q_A)", "why_tests_cant": "CLs monotonicity rests on log-concavity of the Gaussian tail, not on samples.", "anchors": ["src/spey/hypothesis_testing/utils.py: expected_pvalues", "src/spey/hypothesis_testing/distributions.py"]}
{"id": "C15", "title": "Toy p-values are the empirical tail fractions", "statement": "With toys, a p-value is the fraction of background (signal+background) toys at or above the observed statistic; it lies in [0,1] and is non-increasing in the observed statistic.", "quantifier": "every non-empty list of toys, every observed value", "why_tests_cant": "Unbounded toy samples.", "anchors": ["src/spey/hypothesis_testing/distributions.py: EmpricTestStatisticsDistribution", "src/spey/hypothesis_testing/toy_calculator.py"]}
{"id": "C16", "title": "Exclusion confidence levels are probabilities of the documented shape", "statement": "exclusion_confidence_level returns 1 value (observed / nominal) or 5 values (expected with 'all'), each in [0,1], a NaN from the calculator is never reported to the caller.", "quantifier": "every calculator output, every expected/calculator setting", "why_tests_cant": "All calculator outputs including NaN.", "anchors": ["src/spey/base/hypotest_base.py: exclusion_confidence_level"]}
{"id": "C17", "title": "Significance and its p-value are consistent", "statement": "significance() returns a p-value equal to the Gaussian tail of the reported statistic, non-increasing in it, and in [0, 1/2] for a non-negative statistic.", "quantifier": "every q0 value", "why_tests_cant": "Real-valued input.", "anchors": ["src/spey/base/hypotest_base.py: significance"]}
{"id": "C18", "title": "The bracket search for the upper limit terminates with a usable bracket", "statement": "find_root_limits terminates, and on return the lower end is below the target level or has reached the lower bound, and the upper end is at or above the target level or has reached the upper bound.", "quantifier": "every function, every starting bracket, every bounds", "why_tests_cant": "Termination and post-condition over all functions.", "anchors": ["src/spey/hypothesis_testing/upper_limits.py: find_root_limits", "src/spey/base/hypotest_base.py: poi_upper_limit (low_init, hig_init)"]}
{"id": "C19", "title": "The reported upper limit solves CLs = 1 - CL or is infinite", "statement": "Each value returned by find_poi_upper_limit is either a point of the searched bracket where 1-CLs-CL crosses zero, or +inf when the bracket shows no sign change.", "quantifier": "every hypothesis-test function, every confidence level, every initial bracket", "why_tests_cant": "Arbitrary hypothesis-test functions.", "anchors": ["src/spey/hypothesis_testing/upper_limits.py: find_poi_upper_limit"]}
{"id": "C20", "title": "Upper-limit results have the documented shape and labels", "statement": "observed/nominal requests return a scalar, 1sigma requests three values and 2sigma requests five, the i-th from the i-th expected band, in order.", "quantifier": "every expected_pvalue, expected type and hypothesis-test function", "why_tests_cant": "Must hold for all combinations and outputs.", "anchors": ["src/spey/hypothesis_testing/upper_limits.py: find_poi_upper_limit"]}
{"id": "C21", "title": "Every reported crossing is genuine, ordered and distinct", "statement": "The crossings returned by the one-dimensional scan are strictly ascending, separated by more than the merge tolerance, and each one is a point of the scanned window that is either a grid zero or was bracketed by a sign change.", "quantifier": "every function (with NaN or infinite values anywhere), every window and grid size", "why_tests_cant": "Arbitrary functions and grids.", "anchors": ["src/spey/base/utils.py: _enumerate_crossings_1d"]}
{"id": "C22", "title": "No crossing visible on the grid is missed", "statement": "Every grid point at which the scanned function is exactly zero and every pair of neighbouring grid points with finite values of strictly opposite sign contributes a reported crossing (up to the merge tolerance).", "quantifier": "every function, every grid", "why_tests_cant": "Arbitrary functions and grids.", "anchors": ["src/spey/base/utils.py: _enumerate_crossings_1d"]}
{"id": "C23", "title": "Refining the global minimum never makes it worse", "statement": "The refined minimum has a value no greater than the minimum it started from and no greater than any finite value on the scan grid.", "quantifier": "every function, grid and starting minimum, every outcome of the local optimiser", "why_tests_cant": "Arbitrary functions and optimiser behaviour.", "anchors": ["src/spey/base/utils.py: _refine_global_min_1d"]}
{"id": "C24", "title": "chi2_test widens its window boundedly and reports in-window crossings", "statement": "chi2_test widens its scan window at most four times, never beyond the hard parameter limits, reports only crossings inside the last window, and left/right/two-sided outputs have the documented shape.", "quantifier": "every profile-likelihood function, confidence level, bounds and outcome of each scan", "why_tests_cant": "Arbitrary likelihoods and window histories.", "anchors": ["src/spey/base/hypotest_base.py: chi2_test"]}
{"id": "C25", "title": "A fixed POI value is inside the bounds used for its fit", "statement": "fixed_poi_bounds(v) returns bounds that contain v and leaves the bounds of all other parameters and the configuration itself unchanged.", "quantifier": "every configuration, every value", "why_tests_cant": "All configurations and values.", "anchors": ["src/spey/base/model_config.py: ModelConfig.fixed_poi_bounds"]}
{"id": "C26", "title": "Fixing several parameters keeps every bound well formed", "statement": "fixed_poi_bounds_multi returns, for every fixed parameter, bounds lo <= value <= hi and leaves every other bound unchanged.", "quantifier": "every configuration, every {index: value} map", "why_tests_cant": "All configurations and maps.", "anchors": ["src/spey/base/model_config.py: ModelConfig.fixed_poi_bounds_multi"]}
{"id": "C27", "title": "Parameter renaming is a simultaneous renaming and all-or-nothing", "statement": "change_parameter_names renames every listed parameter at once, keeps the number and order of parameters and the distinctness of names, and leaves the names unchanged when it raises.", "quantifier": "every name list and every renaming map", "why_tests_cant": "All lists and maps, including swaps and collisions.", "anchors": ["src/spey/base/model_config.py: ModelConfig.change_parameter_names"]}
{"id": "C28", "title": "POI keys resolve to the parameters they name", "statement": "resolve_poi_indices maps every integer key to itself and every known name to its position, keeps the values, and raises for unknown names.", "quantifier": "every name list and every key map", "why_tests_cant": "All inputs.", "anchors": ["src/spey/base/model_config.py: ModelConfig.resolve_poi_indices"]}
{"id": "C29", "title": "Rescaling POI bounds gives the POI a proper interval and touches nothing else", "statement": "rescale_poi_bounds changes nothing but the POI's bound; its lower end is the minimum POI when negative signal is allowed and 0 otherwise, and its upper end is a number: poi_upper_bound when given, the old upper end otherwise.", "quantifier": "every configuration and bound", "why_tests_cant": "All configurations.", "anchors": ["src/spey/base/model_config.py: ModelConfig.rescale_poi_bounds"]}
{"id": "C30", "title": "A parameter reference resolves to an in-range non-POI parameter or raises", "statement": "resolve_parameter_index returns an index in range that is not the POI, for names and for integers, and raises for everything else.", "quantifier": "every configuration and every name or integer", "why_tests_cant": "All inputs.", "anchors": ["src/spey/base/utils.py: resolve_parameter_index"]}
{"id": "C31", "title": "A fit fixes exactly what was asked", "statement": "fit() reaches the minimiser exactly when every requested index exists, bounds are available and (if a value is pinned) the starting point is mutable; it then hands the minimiser a fixed-mask that is true exactly at the requested parameters and at those the model marks as fixed, with starting values equal to the requested values there and to the starting point elsewhere.", "quantifier": "every configuration, starting point and fixed values", "why_tests_cant": "All inputs.", "anchors": ["src/spey/optimizer/core.py: fit"]}
{"id": "C32", "title": "A fit leaves its inputs and the model untouched", "statement": "fit() modifies neither the caller's starting point nor the model's suggested starting point, so evaluating one likelihood cannot influence the starting point of a later fit.", "quantifier": "every history of fits on one model", "why_tests_cant": "Hidden state leaks show only across histories.", "anchors": ["src/spey/optimizer/core.py: fit", "src/spey/backends/default_pdf/__init__.py: config", "src/spey/interface/statistical_model.py: likelihood, maximize_likelihood"]}
{"id": "C33", "title": "Retrying a fit widens the window and keeps the POI's lower bound", "statement": "The scipy minimiser is run at most max(ntrials,1) times; between attempts every bound only grows (never shrinks or inverts), the POI's lower bound never moves, the loop stops at the first success, and the caller's containers are not modified.", "quantifier": "every bounds list, every sequence of optimiser outcomes, every ntrials", "why_tests_cant": "All outcome sequences.", "anchors": ["src/spey/optimizer/scipy_tools.py: minimize"]}
{"id": "C34", "title": "Optimiser options are filtered exactly", "statement": "ValidateOpts returns exactly the accepted options with unchanged values and raises AssertionError exactly when a required one is missing.", "quantifier": "every option dictionary and every rule set", "why_tests_cant": "All dictionaries.", "anchors": ["src/spey/optimizer/__init__.py: ValidateOpts"]}
{"id": "C35", "title": "return_nll selects the scale of every likelihood result", "statement": "likelihood, maximize_likelihood and their Asimov variants return the negative log-likelihood when return_nll is true and exp(-NLL) otherwise, for every backend.", "quantifier": "every backend (with or without its own likelihood methods), every POI value and flag", "why_tests_cant": "Must hold for every backend.", "anchors": ["src/spey/interface/statistical_model.py: likelihood, asimov_likelihood, maximize_likelihood, maximize_asimov_likelihood"]}
{"id": "C36", "title": "Calculator availability reflects what the backend implements", "statement": "is_asymptotic_calculator_available / is_toy_calculator_available / available_calculators report a calculator exactly when the backend supplies what it needs.", "quantifier": "every subset of methods a backend may override", "why_tests_cant": "All backends.", "anchors": ["src/spey/interface/statistical_model.py: is_asymptotic_calculator_available, is_toy_calculator_available, available_calculators"]}
{"id": "C37", "title": "Preparing a fit leaves the caller's constraint list alone", "statement": "prepare_for_fit passes the minimiser the caller's constraints followed by the backend's, and does not change the list object the caller supplied, over any history of calls.", "quantifier": "every constraint list, every history of calls sharing it", "why_tests_cant": "Accumulation shows only over histories.", "anchors": ["src/spey/interface/statistical_model.py: prepare_for_fit", "src/spey/interface/statistical_model.py: asimov_likelihood"]}
{"id": "C38", "title": "Excluded cross section is the POI limit times the cross section", "statement": "excluded_cross_section raises UnknownCrossSection exactly when the cross section is NaN and otherwise returns the 95% upper limit times the cross section.", "quantifier": "every cross section and limit", "why_tests_cant": "All values.", "anchors": ["src/spey/interface/statistical_model.py: excluded_cross_section"]}
{"id": "C39", "title": "Asimov data use the documented signal hypothesis", "statement": "generate_asimov_data fits with POI = 1 for q0 and POI = 0 otherwise, and allows negative signal exactly for q and qmu.", "quantifier": "every test-statistic name", "why_tests_cant": "All names.", "anchors": ["src/spey/interface/statistical_model.py: generate_asimov_data"]}
{"id": "C40", "title": "A combiner never holds two models with one name", "statement": "Over any history of append, remove and combination (@), analysis names stay pairwise distinct, insertion order is preserved, a rejected operation changes nothing, and remove deletes exactly the named model.", "quantifier": "every history of operations", "why_tests_cant": "Histories are unbounded.", "anchors": ["src/spey/combiner/uncorrelated_statistics_combiner.py: append, remove, __matmul__"]}
{"id": "C41", "title": "Combination leaves its operands alone and is associative", "statement": "a @ b has exactly the models of a followed by those of b, does not change a or b, and (a @ b) @ c equals a @ (b @ c); non-combinable operands raise ValueError and clashing names raise AnalysisQueryError.", "quantifier": "all combiners and models", "why_tests_cant": "All operands.", "anchors": ["src/spey/combiner/uncorrelated_statistics_combiner.py: __matmul__"]}
{"id": "C42", "title": "The combined likelihood is the product of the members' likelihoods", "statement": "The combined negative log-likelihood is the sum of the members' (in any order of members), a member with negative expected yields makes the result NaN, and return_nll selects the scale.", "quantifier": "every list of members and every member value", "why_tests_cant": "All member lists.", "anchors": ["src/spey/combiner/uncorrelated_statistics_combiner.py: likelihood, asimov_likelihood"]}
{"id": "C43", "title": "The combined minimum POI is safe for every member", "statement": "minimum_poi of a combiner is the largest member minimum, so every POI value above it is above every member's minimum.", "quantifier": "every list of members", "why_tests_cant": "All member lists.", "anchors": ["src/spey/combiner/uncorrelated_statistics_combiner.py: minimum_poi"]}
{"id": "C44", "title": "Items of a combiner are addressable by position and name or raise AnalysisQueryError", "statement": "c[i], c['name'] and iteration agree, and any index or name outside the combiner raises AnalysisQueryError.", "quantifier": "every combiner, integer and string", "why_tests_cant": "All inputs.", "anchors": ["src/spey/combiner/uncorrelated_statistics_combiner.py: __getitem__, __iter__, items"]}
{"id": "C45", "title": "The most sensitive model is found", "statement": "find_most_sensitive returns the member with the smallest expected 95% upper limit.", "quantifier": "every non-empty combiner", "why_tests_cant": "All member lists.", "anchors": ["src/spey/combiner/uncorrelated_statistics_combiner.py: find_most_sensitive"]}
{"id": "C46", "title": "The combined fit starts inside its own bounds", "statement": "maximize_likelihood of a combiner starts from the inverse-variance weighted mean of the members' best fits (which lies between the smallest and the largest of them), from the given value if there is one and from 0 if a member's fit fails, and that start lies within the bounds it passes to the minimiser.", "quantifier": "every list of member fits, flags and bounds", "why_tests_cant": "All member lists.", "anchors": ["src/spey/combiner/uncorrelated_statistics_combiner.py: maximize_likelihood"]}
{"id": "C47", "title": "A successfully registered backend can be used", "statement": "After register_backend accepts a backend class, get_backend with its name returns a wrapper for it and get_backend_metadata returns its metadata.", "quantifier": "every registry content, every valid backend class", "why_tests_cant": "All registries and classes.", "anchors": ["src/spey/__init__.py: register_backend, get_backend, get_backend_metadata"]}
{"id": "C48", "title": "Registration is exclusive and all-or-nothing", "statement": "register_backend rejects names already present, a rejected registration changes nothing, and no history of registrations and resets removes an installed backend.", "quantifier": "every history", "why_tests_cant": "Histories are unbounded.", "anchors": ["src/spey/__init__.py: register_backend, reset_backend_entries, AvailableBackends"]}
{"id": "C49", "title": "Log-probabilities of independent terms add", "statement": "The log-probability of a constraint model is the sum of its terms' and its expected data is the concatenation of theirs, in order; main-model and constraint terms combine additively in the likelihood.", "quantifier": "every list of terms and parameter vector", "why_tests_cant": "All term lists.", "anchors": ["src/spey/backends/distributions.py: ConstraintModel, MixtureModel", "src/spey/backends/default_pdf/__init__.py: get_logpdf_func"]}
{"id": "C50", "title": "A constant covariance and a constant covariance function give the same likelihood", "statement": "MultivariateNormal gives the same log-probability whether its covariance is passed as a matrix or as a function returning that matrix.", "quantifier": "every covariance, mean and value", "why_tests_cant": "All matrices.", "anchors": ["src/spey/backends/distributions.py: MultivariateNormal"]}
{"id": "C51", "title": "Evaluating a likelihood at one parameter point is unaffected by evaluations at others", "statement": "A multivariate main model returns at each parameter point the log-probability for that point's mean, over every history of evaluations and under every interleaving of threads.", "quantifier": "every history and every schedule", "why_tests_cant": "Schedules are unbounded.", "anchors": ["src/spey/backends/distributions.py: MainModel"]}
{"id": "C52", "title": "Constraint types are accepted case-insensitively", "statement": "A constraint whose distribution_type passes validation can be built.", "quantifier": "every distribution_type string", "why_tests_cant": "All strings.", "anchors": ["src/spey/backends/distributions.py: ConstraintModel.__init__"]}
{"id": "C53", "title": "The minimum POI is exactly the non-negativity threshold", "statement": "For signal yields with at least one positive bin (and none negative) and non-negative backgrounds, mu >= minimum_poi if and only if every expected yield b + mu*s is non-negative; with no positive bin minimum_poi is -inf.", "quantifier": "every yield vector, every mu", "why_tests_cant": "All yields.", "anchors": ["src/spey/backends/default_pdf/__init__.py: DefaultPDFBase.__init__", "src/spey/backends/default_pdf/simple_pdf.py: SimplePDFBase.__init__"]}
{"id": "C54", "title": "config() honours allow_negative_signal and poi_upper_bound", "statement": "config(allow_negative_signal, poi_upper_bound) returns POI bounds (minimum_poi, ub) when negative signal is allowed and (0, ub) otherwise, leaving all other parameters unchanged.", "quantifier": "every flag and upper bound", "why_tests_cant": "All values.", "anchors": ["src/spey/backends/default_pdf/__init__.py: config", "src/spey/backends/default_pdf/simple_pdf.py: config"]}
{"id": "C55", "title": "The parameter vector layout is consistent", "statement": "Starting values, bounds and names of every default backend have one entry per parameter, in the order POI, signal parameters, per-bin nuisances, signal-uncertainty nuisances, and the constraint terms refer to disjoint in-range positions.", "quantifier": "every number of bins, signal parameters and uncertainty modifiers", "why_tests_cant": "All sizes.", "anchors": ["src/spey/backends/default_pdf/__init__.py: DefaultPDFBase", "src/spey/backends/default_pdf/uncertainty_synthesizer.py"]}
{"id": "C56", "title": "The number of signal parameters is ignored for plain signal yields", "statement": "n_signal_parameters has no effect on the model when signal_yields is an array.", "quantifier": "every n_signal_parameters and yields", "why_tests_cant": "All values.", "anchors": ["src/spey/backends/default_pdf/__init__.py: DefaultPDFBase.__init__"]}
{"id": "C57", "title": "A model is alive exactly when it has a non-zero signal yield", "statement": "is_alive is true exactly when at least one bin has a non-zero signal yield.", "quantifier": "every yield vector", "why_tests_cant": "All yields.", "anchors": ["src/spey/backends/default_pdf/__init__.py: is_alive"]}
{"id": "C58", "title": "Pseudo-data can be drawn from every constructible model", "statement": "The sampler returned by get_sampler produces, for every model that can be constructed, a sample with one entry per observed bin (plus one per auxiliary measurement), addressing only existing parameters.", "quantifier": "every number of bins and signal-uncertainty modifiers", "why_tests_cant": "All sizes.", "anchors": ["src/spey/backends/default_pdf/__init__.py: get_sampler"]}
{"id": "C59", "title": "The likelihood of a dataset depends only on its observed bins", "statement": "The objective for user-supplied data uses the first len(data) entries only, so appending auxiliary values (as Asimov data do) changes nothing.", "quantifier": "every dataset and suffix", "why_tests_cant": "All data.", "anchors": ["src/spey/backends/default_pdf/__init__.py: get_objective_function, get_logpdf_func"]}
{"id": "C60", "title": "Nuisances keep the expected background non-negative", "statement": "The positivity constraint registered for Poisson models with absolute uncertainties holds exactly where b_i + theta_i*sigma_i >= 0 for every bin.", "quantifier": "every yields, uncertainties and nuisance values", "why_tests_cant": "All values.", "anchors": ["src/spey/backends/default_pdf/simple_pdf.py: Poisson"]}
{"id": "C61", "title": "Effective-sigma reduces to the symmetric Gaussian and is always a positive width", "statement": "The effective width is strictly positive for every nuisance value and equals sigma when the upper and lower uncertainties coincide.", "quantifier": "every pair of uncertainties and nuisance value", "why_tests_cant": "All reals.", "anchors": ["src/spey/backends/default_pdf/__init__.py: EffectiveSigma"]}
{"id": "C62", "title": "Signal-uncertainty factors are positive, neutral at zero and monotone", "statement": "The synthesised signal factor is 1 at zero nuisances and in bins without signal, is always positive, and is non-decreasing in each nuisance.", "quantifier": "every list of modifiers, yields and nuisance values", "why_tests_cant": "All reals.", "anchors": ["src/spey/backends/default_pdf/uncertainty_synthesizer.py: signal_uncertainty_synthesizer"]}
{"id": "C63", "title": "Signal-uncertainty parameters are contiguous, disjoint and counted exactly", "statement": "The nuisance parameters of the modifiers occupy consecutive positions starting after the bins, no two modifiers share one, n_parameters equals the number of constraints and of names, and names are distinct.", "quantifier": "every list of modifiers", "why_tests_cant": "All lists.", "anchors": ["src/spey/backends/default_pdf/uncertainty_synthesizer.py: signal_uncertainty_synthesizer"]}
{"id": "C64", "title": "The third-moment expansion reproduces the requested moments", "statement": "When 8*Sigma_ii^3 >= m3^2, the coefficients A, B, C returned satisfy A + C = mean, B^2 + 2C^2 = variance and 6 B^2 C + 8 C^3 = third moment; for m3 = 0 the expansion reduces to the Gaussian (C = 0).", "quantifier": "every mean, variance and third moment", "why_tests_cant": "All reals.", "anchors": ["src/spey/backends/default_pdf/third_moment.py: third_moment_expansion"]}
{"id": "C65", "title": "The third-moment correlation matrix is a correlation matrix reproducing the covariance", "statement": "The matrix rho returned has unit diagonal, is symmetric and satisfies B_i B_j rho_ij + 2 C_i C_j rho_ij^2 = Sigma_ij.", "quantifier": "every covariance and third moments", "why_tests_cant": "All reals.", "anchors": ["src/spey/backends/default_pdf/third_moment.py: third_moment_expansion"]}
{"id": "C66", "title": "compute_third_moments returns the third moments of the bifurcated Gaussian", "statement": "The value returned is the third central moment of the two-piece Gaussian with the given widths.", "quantifier": "every pair of widths", "why_tests_cant": "All reals.", "anchors": ["src/spey/backends/default_pdf/third_moment.py: compute_third_moments"]}
{"id": "C67", "title": "Covariance and correlation conversions are inverse", "statement": "covariance_to_correlation and correlation_to_covariance undo each other for positive standard deviations and preserve symmetry; the correlation has unit diagonal.", "quantifier": "every matrix size and content", "why_tests_cant": "All matrices.", "anchors": ["src/spey/helper_functions.py: correlation_to_covariance, covariance_to_correlation"]}
{"id": "C68", "title": "Merging bins conserves everything and rejects bad groups", "statement": "merge_correlated_bins keeps the total background, total data, total signal and the total covariance, keeps the covariance symmetric, counts every original bin exactly once, and rejects overlapping or out-of-range groups.", "quantifier": "every covariance, yields and grouping", "why_tests_cant": "All groupings.", "anchors": ["src/spey/helper_functions.py: merge_correlated_bins"]}
{"id": "C69", "title": "ExpectationType comparison is an equivalence compatible with hashing", "statement": "Comparing ExpectationType members with members or strings is reflexive, symmetric and transitive, and equal objects have equal hashes.", "quantifier": "all members and strings", "why_tests_cant": "All strings.", "anchors": ["src/spey/utils.py: ExpectationType.__eq__"]}
{"id": "C70", "title": "The contour threshold is the chi-squared one", "statement": "find_contour maps the points where 2(NLL - NLL_min) equals the chi-squared quantile reported as delta, i.e. threshold = NLL_min + delta/2.", "quantifier": "every model and confidence level", "why_tests_cant": "All values.", "anchors": ["src/spey/multiparameter/contour.py: find_contour, ContourResult"]}
{"id": "C71", "title": "Radial contour points lie on the contour and inside the bounds", "statement": "Every point found by the radial search has NLL equal to the threshold (up to the root finder), lies on its ray at a distance no larger than the bracket limit, and respects the parameter bounds.", "quantifier": "every NLL, direction, whitening matrix and bounds", "why_tests_cant": "All functions.", "anchors": ["src/spey/multiparameter/contour.py: _radial_search, _find_gap_starts, find_contour._max_r_for_dir_basin"]}
{"id": "C72", "title": "Walked contour points lie on the contour and inside the bounds", "statement": "Every point returned by the constrained walk is within newton_tol of the threshold and inside the bounds, there are at most n_steps + 1 of them, and the momentum after each step is tangent to the contour.", "quantifier": "every NLL, gradient, start, step count and random draw", "why_tests_cant": "All functions and draws.", "anchors": ["src/spey/multiparameter/contour.py: _rattle_walk, _rattle_step, _project_theta"]}
{"id": "C73", "title": "Discovered basins are distinct, sorted and dominate every start", "statement": "The basin list is sorted by NLL, pairwise further apart than the tolerance, its first entry is no worse than the primary fit and any start, and every finite candidate is within tolerance of a basin that is no worse.", "quantifier": "every list of local-optimiser outcomes", "why_tests_cant": "All outcomes.", "anchors": ["src/spey/multiparameter/contour.py: _find_basins_contour_subspace"]}
{"id": "C74", "title": "Sparse seeds are the requested number of most isolated points", "statement": "The coverage stage returns min(n_seeds, n) points, each at least as isolated as every point not returned.", "quantifier": "every point cloud and every n_seeds >= 0", "why_tests_cant": "All clouds.", "anchors": ["src/spey/multiparameter/contour.py: _find_sparse_seeds"]}
{"id": "C75", "title": "Contour coordinates and full parameter vectors correspond", "statement": "Embedding contour and profile parameters into the full vector puts 1 at the POI and every parameter in its own slot, in both the profiled and the unprofiled path, so reading the slots back gives the parameters.", "quantifier": "every dimension, POI position and subset", "why_tests_cant": "All sizes.", "anchors": ["src/spey/multiparameter/contour.py: find_contour._nll, _assemble"]}
{"id": "C76", "title": "Log capture restores the logger whatever happens", "statement": "capture_logs and disable_logging restore level, propagation, handlers and the global disable level on normal and exceptional exit, for every nesting; capture_logs writes each distinct message once, in first-occurrence order.", "quantifier": "every nesting, every sequence of messages and exceptions", "why_tests_cant": "All nestings.", "anchors": ["src/spey/system/logger.py: capture_logs, disable_logging"]}
{"id": "C77", "title": "Initialising logging replaces the existing handlers", "statement": "After logger.init exactly one handler is attached to the Spey logger, whatever was attached before.", "quantifier": "every list of previously attached handlers", "why_tests_cant": "All lists.", "anchors": ["src/spey/system/logger.py: init"]}
{"id": "C78", "title": "Update information is fetched at most once a day and survives crashes", "statement": "After a successful fetch and save no further request is made within 24 hours, a damaged or unreadable cache file never raises and never yields wrong data, and a failed save does not lose the previous valid cache.", "quantifier": "every directory content, clock value, crash point and I/O failure", "why_tests_cant": "All crash points.", "anchors": ["src/spey/system/webutils.py: _load_cached_pypi_info, _save_pypi_info, _get_pypi_info"]}
{"id": "C79", "title": "The minimiser is chosen as documented", "statement": "fit() uses minuit exactly when iminuit is installed and minuit was selected, by the minimizer option or, without one, by SPEY_OPTIMISER in any case; every other name falls back to scipy and none raises.", "quantifier": "every option value, environment value and installation", "why_tests_cant": "All strings.", "anchors": ["src/spey/optimizer/core.py: fit, _get_minimizer"]}
{"id": "C80", "title": "Requested parameters are reported under their own keys", "statement": "maximize_likelihood(poi_indices=keys) returns a dictionary whose keys are exactly the requested ones and whose values are the fitted values of the parameters those keys refer to (names by parameter_names, integers by position, negative ones from the end), and raises when a key refers to no parameter.", "quantifier": "every fitted vector, every list of keys and parameter names", "why_tests_cant": "All key lists.", "anchors": ["src/spey/interface/statistical_model.py: StatisticalModel.maximize_likelihood"]}
{"id": "C81", "title": "The Asimov estimate of the uncertainty on the signal strength is positive", "statement": "sigma_mu returns |mu - mu'| / sqrt(q_A), a positive number, whenever the Asimov test statistic is a positive number.", "quantifier": "every backend, POI value and test statistic", "why_tests_cant": "All values.", "anchors": ["src/spey/base/hypotest_base.py: HypothesisTestingBase.sigma_mu"]}
{"id": "C82", "title": "Combining two models pairwise", "statement": "StatisticalModel.combine raises CombinerNotAvailable exactly when the backend has no combination, names the result combine[a, b], and keeps the cross section and number of toys the two models share.", "quantifier": "every pair of models and every backend combination", "why_tests_cant": "All outcomes.", "anchors": ["src/spey/interface/statistical_model.py: StatisticalModel.combine"]}
{"id": "C83", "title": "Looking up a backend does not depend on earlier look-ups", "statement": "get_backend(name) gives the same answer whatever was looked up before.", "quantifier": "every registry and every history of look-ups", "why_tests_cant": "All histories.", "anchors": ["src/spey/__init__.py: get_backend"]}
{"id": "C84", "title": "set_optimiser selects the optimiser of later fits or changes nothing", "statement": "set_optimiser with the name of an installed optimiser makes later fits (that pass no minimizer option) use it; any other name leaves the selection unchanged and raises nothing.", "quantifier": "every name, environment and installation", "why_tests_cant": "All strings.", "anchors": ["src/spey/__init__.py: set_optimiser", "src/spey/optimizer/core.py: fit"]}
{"id": "C85", "title": "log_once logs a message once", "statement": "However often log_once is called with one message and level, the message is logged exactly once.", "quantifier": "every history of calls", "why_tests_cant": "All histories.", "anchors": ["src/spey/__init__.py: log_once"]}
{"id": "C86", "title": "The expectation type selects the data", "statement": "Without user data, the likelihood is evaluated on the background yields for apriori and on the observed yields for observed and aposteriori; user data take precedence over the expectation type.", "quantifier": "every model, expectation type and parameter vector", "why_tests_cant": "All inputs.", "anchors": ["src/spey/backends/default_pdf/__init__.py: get_objective_function, get_logpdf_func", "src/spey/backends/default_pdf/simple_pdf.py: get_objective_function, get_logpdf_func"]}
{"id": "C87", "title": "The objective is minus the log-probability", "statement": "get_objective_function (without gradients) is the negative of get_logpdf_func at every point, and raises exactly where that raises.", "quantifier": "every model, data and parameter vector", "why_tests_cant": "All points.", "anchors": ["src/spey/backends/default_pdf/__init__.py: get_objective_function, get_logpdf_func", "src/spey/backends/default_pdf/simple_pdf.py: get_objective_function, get_logpdf_func"]}
{"id": "C88", "title": "Asimov data are best described by the parameters that generated them", "statement": "For expected data generated at any signal strength with all nuisances at their nominal value, no parameter vector has a smaller negative log-likelihood than the generating one.", "quantifier": "every default backend, signal strength and parameter vector", "why_tests_cant": "All reals.", "anchors": ["src/spey/backends/default_pdf/__init__.py: expected_data, get_objective_function"]}
{"id": "C89", "title": "Expected yields follow the documented formula", "statement": "The expected yield of a bin is background(theta) + mu * signal * (signal-uncertainty factor), with background b + theta*sigma (uncorrelated, correlated), A + B*theta + C*theta^2 (third moment) or b + sigma_eff(theta)*theta (effective sigma), bounded below by 1e-20.", "quantifier": "every default backend, size and parameter vector", "why_tests_cant": "All reals.", "anchors": ["src/spey/backends/default_pdf/__init__.py: expected_data, UncorrelatedBackground, CorrelatedBackground, ThirdMomentExpansion, EffectiveSigma"]}
{"id": "C90", "title": "The contour's degrees of freedom are the distinct parameters requested", "statement": "For every poi_indices that find_contour accepts, dof equals the number of different non-POI parameters requested and every one of them is varied.", "quantifier": "every index list (repeated, negative, out of range) and model", "why_tests_cant": "All index lists.", "anchors": ["src/spey/multiparameter/contour.py: find_contour"]}
{"id": "C91", "title": "Bracketing along a ray terminates", "statement": "The bracket expansion along every ray ends after finitely many likelihood evaluations, inside the bracket limit, whatever the likelihood values (NaN and infinities included).", "quantifier": "every likelihood, direction and limit", "why_tests_cant": "Termination for all functions.", "anchors": ["src/spey/multiparameter/contour.py: _radial_search, _find_gap_starts"]}
{"id": "C92", "title": "find_contour rejects exactly the invalid requests", "statement": "find_contour raises ValueError exactly for a confidence level outside (0, 1), when no contour parameter remains, or when bounds has another length than the contour parameters; no numerical stage raises it.", "quantifier": "every model, setting and external behaviour", "why_tests_cant": "All inputs.", "anchors": ["src/spey/multiparameter/contour.py: find_contour"]}
{"id": "C93", "title": "Contours can profile the remaining parameters", "statement": "With poi_indices naming some of the parameters, find_contour profiles the others subject to the backend's constraints, for every backend.", "quantifier": "every backend and index list", "why_tests_cant": "All backends.", "anchors": ["src/spey/multiparameter/contour.py: find_contour"]}
{"id": "C94", "title": "Contour results are labelled consistently", "statement": "from_radial has one entry per contour point, radial points come first, and parameter_names has one name per contour coordinate (None only if the model has no names).", "quantifier": "every successful run", "why_tests_cant": "All runs.", "anchors": ["src/spey/multiparameter/contour.py: find_contour, ContourResult"]}
{"id": "C95", "title": "The contour does not depend on the number of jobs", "statement": "Chains run in parallel give the same points in the same order as chains run one after another, whatever order they finish in.", "quantifier": "every number of chains and completion order", "why_tests_cant": "All schedules.", "anchors": ["src/spey/multiparameter/contour.py: _run_hmc_chains"]}
{"id": "C96", "title": "Whitening makes the profiled likelihood isotropic", "statement": "For a Hessian that is well conditioned, moving by phi in whitened coordinates raises the profiled negative log-likelihood by |phi|^2/2 to second order; with any Hessian a unit step moves the parameters by at most 1/sqrt(regularisation); the whitening transform is invertible with the documented inverse.", "quantifier": "every symmetric Hessian, dimension, index selection and direction", "why_tests_cant": "All matrices.", "anchors": ["src/spey/multiparameter/contour.py: _build_whitener"]}
{"id": "C97", "title": "The whitened matrix is the profiled information", "statement": "With profiled parameters the matrix that is whitened is the quadratic form of the likelihood minimised over the profiled parameters.", "quantifier": "every symmetric Hessian and partition of the parameters", "why_tests_cant": "All matrices.", "anchors": ["src/spey/multiparameter/contour.py: _build_whitener"]}
{"id": "C98", "title": "No captured log message is lost", "statement": "Every message logged inside capture_logs that passes the levels is written to the stream, whether the block ends normally or with an exception.", "quantifier": "every sequence of messages and every exit", "why_tests_cant": "All sequences.", "anchors": ["src/spey/system/logger.py: capture_logs"]}
{"id": "C99", "title": "Logging never raises", "statement": "A log call to the Spey logger never raises an exception into the caller, whatever the message and arguments, inside and outside capture_logs.", "quantifier": "every record and logger state", "why_tests_cant": "All states.", "anchors": ["src/spey/system/logger.py: capture_logs, ColoredFormatter"]}
{"id": "C100", "title": "Every handler shows the message once decorated", "statement": "Each handler with the spey formatter shows the message with the level prefix exactly once.", "quantifier": "every record and number of handlers", "why_tests_cant": "All handler lists.", "anchors": ["src/spey/system/logger.py: ColoredFormatter.format"]}
{"id": "C101", "title": "The asymptotic exclusion level is one minus the asymptotic CLs", "statement": "exclusion_confidence_level with the asymptotic calculator returns 1 - CLs with CLs = Phi(-sqrt(q_A) - t) / Phi(-t), t the transformed statistic of the data fit against the Asimov fit, and at t = 2, 1, 0, -1, -2 for the expected values; 0 where t is undefined.", "quantifier": "every pair of fits and likelihoods with finite values, both statistics, every expectation type", "why_tests_cant": "All real-valued likelihoods.", "anchors": ["src/spey/base/hypotest_base.py: exclusion_confidence_level", "src/spey/hypothesis_testing/asymptotic_calculator.py: compute_asymptotic_confidence_level"]}
{"id": "C102", "title": "The toy exclusion level is one minus the ratio of tail fractions", "statement": "With the toy calculator the result is 1 minus the fraction of signal toys at or above the observed statistic over that of background toys, where each toy's statistic uses that toy's own fit and likelihood at the tested signal strength.", "quantifier": "every list of toys, fits and likelihoods with finite values", "why_tests_cant": "All toy samples.", "anchors": ["src/spey/base/hypotest_base.py: exclusion_confidence_level", "src/spey/hypothesis_testing/toy_calculator.py: compute_toy_confidence_level"]}
{"id": "C103", "title": "The chi-square exclusion level depends on the likelihood ratio only", "statement": "With the chi_square calculator the result is determined by -2 log(L(mu)/L(0)), as documented.", "quantifier": "every likelihood with finite values", "why_tests_cant": "All likelihoods.", "anchors": ["src/spey/base/hypotest_base.py: exclusion_confidence_level"]}
{"id": "C104", "title": "The upper-limit search starts where documented", "statement": "A start not given to poi_upper_limit is mu_hat + 1.5 sigma (low_init) or mu_hat + 2.5 sigma (hig_init); starts given explicitly are used as given.", "quantifier": "every best fit, uncertainty and pair of starts", "why_tests_cant": "All starts and fits.", "anchors": ["src/spey/base/hypotest_base.py: poi_upper_limit"]}
{"id": "C105", "title": "The one-sided bracketing helper returns a bracketed root or NaN", "statement": "bracket_and_solve walks outwards while the function is negative and inwards while it is positive, each until its stop condition; the root it returns was searched between points where the function has opposite signs, and is NaN when no such pair was found.", "quantifier": "every function, step rules, stop conditions and retry option", "why_tests_cant": "All functions and histories of evaluations.", "anchors": ["src/spey/hypothesis_testing/upper_limits.py: bracket_and_solve"]}
{"id": "C106", "title": "The upper limit agrees with the exclusion confidence level", "statement": "poi_upper_limit searches the very function exclusion_confidence_level reports: signal strengths beyond the limit are excluded at the requested level and smaller ones are not.", "quantifier": "every likelihood with finite values and every band", "why_tests_cant": "All likelihoods.", "anchors": ["src/spey/base/hypotest_base.py: poi_upper_limit, exclusion_confidence_level", "src/spey/hypothesis_testing/upper_limits.py: find_poi_upper_limit"]}
{"id": "C107", "title": "chi2 is minus twice the log of the likelihood ratio", "statement": "chi2(mu) is -2 log(L(mu)/L(denominator)), with the unconditional maximum as default denominator; it vanishes at its reference, changes sign when point and reference are exchanged, adds along a chain of references, and is not negative against the maximum.", "quantifier": "every likelihood, point and denominator", "why_tests_cant": "All likelihoods.", "anchors": ["src/spey/base/hypotest_base.py: chi2"]}
{"id": "C108", "title": "A chi2 scan is the list of chi2 values of its points", "statement": "For a list of signal strengths, or a dictionary with one list entry, chi2 returns one value per point, each equal to the value of a call for that point alone.", "quantifier": "every list of points, dictionary and likelihood", "why_tests_cant": "All scans.", "anchors": ["src/spey/base/hypotest_base.py: chi2"]}
{"id": "C109", "title": "The pull is the signed square root of the test statistic", "statement": "pull(mu) has the sign of mu_hat - mu and its square is chi2(mu) against the unconditional maximum, for every documented form of poi_test.", "quantifier": "every likelihood, fit and point", "why_tests_cant": "All likelihoods.", "anchors": ["src/spey/base/hypotest_base.py: pull"]}
{"id": "C110", "title": "The interval of a profile with one minimum is the set of values below the threshold", "statement": "For a profile that falls strictly to the fitted value and rises strictly after it, chi2_test with an odd number of scan points returns one value per requested side, the end of the set of values whose chi2 stays below the threshold, up to the tolerance of the root finder; for a parabola of width s these are mu_hat -+ s*sqrt(threshold). Range: the threshold is reached within the windows scanned, and the interval is wider than the distance at which roots are merged.", "quantifier": "every such profile, fitted value, uncertainty, threshold, limit type and odd number of scan points", "why_tests_cant": "All profiles.", "anchors": ["src/spey/base/hypotest_base.py: chi2_test", "src/spey/base/utils.py: _enumerate_crossings_1d, _refine_global_min_1d"]}
{"id": "C111", "title": "Every crossing of the threshold inside the scanned window is returned", "statement": "For a profile with several minima chi2_test returns every value in the scanned window where chi2 crosses the threshold.", "quantifier": "every profile and scan", "why_tests_cant": "All profiles.", "anchors": ["src/spey/base/hypotest_base.py: chi2_test", "src/spey/base/utils.py: _enumerate_crossings_1d"]}
{"id": "C112", "title": "A two-sided interval contains the best fit", "statement": "The lower end returned by chi2_test for limit_type two-sided is not above the best-fit value used as the reference.", "quantifier": "every profile", "why_tests_cant": "All profiles.", "anchors": ["src/spey/base/hypotest_base.py: chi2_test"]}
{"id": "C113", "title": "An existing end of the interval is found", "statement": "When a profile with one minimum crosses the threshold on the requested side within the search range, chi2_test reports a crossing there, not NaN, for any number of scan points.", "quantifier": "every such profile, fitted value, uncertainty and number of scan points", "why_tests_cant": "All profiles.", "anchors": ["src/spey/base/hypotest_base.py: chi2_test", "src/spey/hypothesis_testing/upper_limits.py: bracket_and_solve"]}
{"id": "C114", "title": "A combination reports the calculators all its members share", "statement": "A combination is alive exactly when some member is; it offers the asymptotic (chi-square) calculator exactly when it has members and every member offers it, and never the toy calculator; joining two combinations with @ joins these answers.", "quantifier": "every list of members, also after @", "why_tests_cant": "All combinations.", "anchors": ["src/spey/combiner/uncorrelated_statistics_combiner.py: is_alive, is_asymptotic_calculator_available, is_chi_square_calculator_available, is_toy_calculator_available, __matmul__"]}
{"id": "C115", "title": "Each contour coordinate carries its parameter's name and limits", "statement": "In the result of find_contour the j-th label is the name of the parameter the j-th coordinate belongs to, and, when no limits are given, the limits used for the j-th coordinate are the model's limits for that parameter.", "quantifier": "every model, list of requested parameters and setting for which a contour is returned", "why_tests_cant": "All parameter selections.", "anchors": ["src/spey/multiparameter/contour.py: find_contour"]}
{"id": "C116", "title": "Contour walks start in the directions covered least", "statement": "After the radial search of a basin, walks start in the candidate directions whose largest cosine with the directions already found is smallest, one walk per direction: at the root on that ray, or at the found point nearest in direction when the ray has none.", "quantifier": "every list of found points, candidate directions and number of walks", "why_tests_cant": "All coverage patterns.", "anchors": ["src/spey/multiparameter/contour.py: find_contour, _find_gap_starts"]}
{"id": "C117", "title": "Samples for a tested value are drawn from the model fitted at that value", "statement": "fixed_poi_sampler draws from the backend's sampler at the parameters that maximise the likelihood with the parameter of interest fixed to the given value (negative signal allowed); for a model with one parameter these are that value itself. With size None the sampler itself is returned, with a number that many samples. A backend without a sampler raises MethodNotAvailable.", "quantifier": "every backend, data, tested value and number of samples", "why_tests_cant": "All models and values.", "anchors": ["src/spey/interface/statistical_model.py: fixed_poi_sampler"]}
{"id": "C118", "title": "The Hessian width is the documented variance", "statement": "sigma_mu_from_hessian returns the variance of the parameter of interest read off the inverse of the negated Hessian of the log-likelihood at the fit with that value fixed.", "quantifier": "every backend with a Hessian, every value", "why_tests_cant": "All likelihoods.", "anchors": ["src/spey/interface/statistical_model.py: sigma_mu_from_hessian"]}
{"id": "C119", "title": "A log message is shown with the label of its level", "statement": "Every message is written with the label of its own level in that level's colour, messages of different levels can be told apart, and messages shown at the end of a capture look as they would have without it.", "quantifier": "every message and level", "why_tests_cant": "All messages.", "anchors": ["src/spey/system/logger.py: ColoredFormatter, capture_logs"]}
{"id": "C120", "title": "A cached method runs on the object it is called on", "statement": "obj.method(...) of a cached method (maximize_likelihood, generate_asimov_data, ...) computes with obj as self, whatever objects existed before at the same address, were copied from it or share its class.", "quantifier": "every history of creating, using, copying, dropping and freeing objects, of super() calls and of threads racing to the first use", "why_tests_cant": "All histories and address reuse.", "anchors": ["src/spey/system/cache.py: _PerInstanceCacheDescriptor", "src/spey/interface/statistical_model.py: StatisticalModel"]}
{"id": "C121", "title": "Each instance has one private cache per cached method", "statement": "The calls of a cached method on one object are answered by one bounded cache that calls on other objects, of other methods and their clearing do not touch: a call recomputes exactly when its input is not among the recent ones of that object and method, and returns what the function returns for that object.", "quantifier": "every history of objects, methods, calls and clears", "why_tests_cant": "All interleavings of uses of different objects.", "anchors": ["src/spey/system/cache.py: _PerInstanceCacheDescriptor, _build_wrapper"]}
{"id": "C122", "title": "Overriding a cached method works as for any method", "statement": "obj.method(...) runs the definition of the most derived class that has the method; super().method(...) runs the next definition after the calling class.", "quantifier": "every class hierarchy mixing cached and plain definitions, every history", "why_tests_cant": "All hierarchies and call orders.", "anchors": ["src/spey/system/cache.py: _PerInstanceCacheDescriptor.__get__, __set_name__"]}
{"id": "C123", "title": "A model that is no longer used is freed", "statement": "Once the program holds no reference to an object and to no bound method of it, the object and its cached results can be freed, also when its cached methods were used.", "quantifier": "every history", "why_tests_cant": "All histories; tests cannot observe that memory is never released.", "anchors": ["src/spey/system/cache.py: _get_fallback, _make_cleanup", "src/spey/interface/statistical_model.py: StatisticalModel.__slots__"]}
{"id": "C124", "title": "Cached results reflect the present contents of the model", "statement": "A call of a cached method returns what the function computes from the object's contents at the time of the call; after cache_clear it does so.", "quantifier": "every history of changes, calls and clears", "why_tests_cant": "All histories.", "anchors": ["src/spey/system/cache.py: _PerInstanceCacheDescriptor"]}
{"id": "C125", "title": "The log level selects the messages shown", "statement": "set_log_level(n) with n = 0, 1, 2, 3 shows the first n + 1 of the kinds error, warning, info, debug and no others, any other number raises KeyError and changes nothing; importing with the environment variable SPEY_LOGLEVEL set to a number does the same, and no value of it breaks the import.", "quantifier": "every number, logger state and text of the environment variable", "why_tests_cant": "All texts and numbers.", "anchors": ["src/spey/__init__.py: set_log_level", "src/spey/system/logger.py: init, get_logger"]}
{"id": "C126", "title": "The update check reports how installed and latest versions compare", "statement": "check_updates warns of a newer version exactly when the latest released version has higher precedence than the installed one, of an unstable installation when it has lower precedence, of a prerelease when the installed version is one, and of an unsupported Python version when it is outside the supported range; it warns of nothing without evidence from the index.", "quantifier": "every installed version, interpreter version and answer of the package index, however malformed", "why_tests_cant": "All version texts and all answers.", "anchors": ["src/spey/system/webutils.py: check_updates"]}
{"id": "C127", "title": "Importing the package is harmless", "statement": "With SPEY_CHECKUPDATE=OFF (any spelling) importing makes no request and touches no file; otherwise it makes at most one request, and none when a cached answer of today exists; no network answer, file or version makes the import fail.", "quantifier": "every environment, cache directory, network answer and version", "why_tests_cant": "All environments.", "anchors": ["src/spey/__init__.py", "src/spey/system/webutils.py: check_updates"]}
{"id": "C128", "title": "Every installed backend is available under its name", "statement": "The names of the installed backends are listed once each and a name leads to a backend installed under it; which one does not depend on the order in which the installation is listed.", "quantifier": "every list of installed entry points and every order", "why_tests_cant": "Set orders differ between processes.", "anchors": ["src/spey/__init__.py: _get_backend_entrypoints, reset_backend_entries"]}
{"id": "C129", "title": "about() lists every backend once, under its distribution", "statement": "about() lists each distribution once with every backend it installs and no other, in alphabetical order, independent of the order in which the installation is listed.", "quantifier": "every list of installed entry points and every order", "why_tests_cant": "All installations.", "anchors": ["src/spey/about.py: about"]}
{"id": "C130", "title": "The bibliography of a backend is complete", "statement": "get_backend_bibtex returns the entry of every identifier in the backend's metadata that the services know, in order, asks doi.org exactly for the papers Inspire does not know, and lets the user see when the list is incomplete because the connection was lost.", "quantifier": "every metadata and every behaviour of the services, which may differ from request to request", "why_tests_cant": "All network behaviours.", "anchors": ["src/spey/__init__.py: get_backend_bibtex", "src/spey/system/webutils.py: get_bibtex"]}
{"id": "C131", "title": "cite() returns both entries, renaming only the key", "statement": "cite() returns the entry of the paper followed by that of the software with its key replaced by spey_zenodo and nothing else changed; what was received is returned when the other service cannot be reached.", "quantifier": "every text the services return", "why_tests_cant": "All texts.", "anchors": ["src/spey/__init__.py: cite", "src/spey/system/webutils.py: get_bibtex"]}
{"id": "C132", "title": "The exclusion level grows with the signal strength", "statement": "If the likelihoods of data and Asimov data do not rise beyond their best fits, exclusion_confidence_level (observed, apriori and aposteriori, every band) does not decrease when the signal strength grows, and every level lies in [0, 1]; if the Asimov likelihood falls strictly the levels grow strictly.", "quantifier": "every pair of signal strengths, every pair of such likelihoods, every expectation type and choice of test statistic", "why_tests_cant": "Monotonicity over all pairs of real strengths.", "anchors": ["src/spey/base/hypotest_base.py: exclusion_confidence_level", "src/spey/hypothesis_testing/asymptotic_calculator.py", "src/spey/hypothesis_testing/utils.py", "src/spey/hypothesis_testing/test_statistics.py"]}
{"id": "C133", "title": "Likelihoods of models with linear yields are convex", "statement": "For the uncorrelated and correlated background backends with fixed signal yields and no signal uncertainties, and for the backends without nuisance parameters, the objective function is convex in all parameters wherever the expected yields are positive; it is strictly convex when some bin with signal has events and no parameter is unused.", "quantifier": "every number of bins, every yields, uncertainties, correlation matrix, dataset and pair of parameter points", "why_tests_cant": "Convexity quantifies over all pairs of points and all models.", "anchors": ["src/spey/backends/default_pdf/__init__.py: get_objective_function", "src/spey/backends/default_pdf/uncertainty_synthesizer.py", "src/spey/backends/default_pdf/simple_pdf.py: get_objective_function", "src/spey/backends/distributions.py"]}
{"id": "C134", "title": "Models with linear yields have one best fit and growing exclusion levels", "statement": "For these backends the best fit is unique (when the model is unambiguous), the profile likelihood does not rise beyond it, and the exclusion level computed from exact fits of data and Asimov data does not decrease with the signal strength.", "quantifier": "every such model, dataset, Asimov data and pair of signal strengths", "why_tests_cant": "End-to-end statement over all models and strengths.", "anchors": ["src/spey/backends/default_pdf/__init__.py", "src/spey/base/hypotest_base.py: exclusion_confidence_level", "src/spey/interface/statistical_model.py: StatisticalModel"]}
{"id": "C135", "title": "Gaussian counting experiments get the textbook exclusion levels and limits", "statement": "For the normal and multivariate normal backends with fixed widths, exclusion_confidence_level at a strength beyond the estimate mu0 (error sd) is 1 - Phi((mu0-mu)/sd)/Phi(mu0/sd), and 1 - Phi(-N-mu/sd)/Phi(-N) in the band of N standard deviations, and poi_upper_limit returns the strengths at which these reach the requested level, up to the tolerance of the root finder.", "quantifier": "every number of bins, every yields, widths or covariance matrix, every data, every strength and level", "why_tests_cant": "A closed form over all experiments and strengths.", "anchors": ["src/spey/backends/default_pdf/simple_pdf.py: Gaussian, MultivariateNormal", "src/spey/base/hypotest_base.py: exclusion_confidence_level, poi_upper_limit", "src/spey/hypothesis_testing/asymptotic_calculator.py", "src/spey/hypothesis_testing/upper_limits.py: find_poi_upper_limit"]}
{"id": "C136", "title": "The units of the signal do not matter", "statement": "Giving the signal yields in units c times smaller turns every result at strength mu into the result at strength c mu: likelihoods, expected data, the smallest allowed strength, profiles, best fits and exclusion levels; upper limits divide by c, up to the tolerance of the root finder.", "quantifier": "every number of bins, every yields and uncertainties of the backends with nuisance parameters, every dataset, parameters, strength and positive c", "why_tests_cant": "A relation between runs on two models, for all models and all scale factors.", "anchors": ["src/spey/backends/default_pdf/__init__.py", "src/spey/base/hypotest_base.py: exclusion_confidence_level, poi_upper_limit", "src/spey/base/model_config.py: ModelConfig"]}
{"id": "C137", "title": "Combining independent experiments is the same as one model with all their bins", "statement": "The likelihood of a model with the bins of several uncorrelated experiments is the product of theirs at the same strength, its expected yields are theirs one after the other, its profile likelihood is what the combiner returns for the separate models, and a strength is allowed when all of them allow it.", "quantifier": "every number of experiments and bins, all yields, uncertainties, data and nuisance parameters", "why_tests_cant": "Relates two ways to do an analysis for all analyses.", "anchors": ["src/spey/backends/default_pdf/__init__.py: UncorrelatedBackground", "src/spey/combiner/uncorrelated_statistics_combiner.py: UnCorrStatisticsCombiner.likelihood"]}
{"id": "C138", "title": "The order of the bins does not matter", "statement": "Listing the bins in another order, with data, nuisance parameters and correlation matrix reordered accordingly, leaves likelihoods, best fits, profiles and the smallest allowed strength unchanged and reorders the expected yields.", "quantifier": "every permutation of every number of bins, all four backends with nuisance parameters", "why_tests_cant": "All permutations of all models.", "anchors": ["src/spey/backends/default_pdf/__init__.py", "src/spey/backends/default_pdf/third_moment.py", "src/spey/base/model_config.py: ModelConfig"]}
{"id": "C139", "title": "Control regions without signal do not change exclusion levels", "statement": "Adding independent bins in which no signal is expected leaves the best-fit strength, every likelihood ratio and every exclusion level as they were.", "quantifier": "every model, every added bins, data and strength", "why_tests_cant": "Relates two models for all models.", "anchors": ["src/spey/backends/default_pdf/__init__.py: UncorrelatedBackground", "src/spey/base/hypotest_base.py: exclusion_confidence_level"]}
{"id": "C140", "title": "Answers of fits keep what was fixed, stay inside the bounds and come with their own value", "statement": "Whatever a fit returns, with scipy or with Minuit, the value returned is the objective (or the log-likelihood) at the parameters returned, every parameter is inside its bounds, every parameter that was fixed has the value it was fixed to, and the constraints of the model hold.", "quantifier": "every model configuration, start, bounds, fixed parameters, constraints, options, environment and optimizer that keeps its own documented promises", "why_tests_cant": "Ranges over all fits and all behaviours of two external optimizers.", "anchors": ["src/spey/optimizer/core.py: fit", "src/spey/optimizer/scipy_tools.py: minimize", "src/spey/optimizer/minuit_tools.py: minimize"]}
{"id": "C141", "title": "Fits that do not converge are reported", "statement": "A fit in which no attempt converges is reported to the caller, and one in which every attempt converges is not.", "quantifier": "every fit, with either optimizer, and every outcome of every attempt", "why_tests_cant": "Ranges over all histories of retries.", "anchors": ["src/spey/optimizer/core.py: fit", "src/spey/optimizer/scipy_tools.py: minimize", "src/spey/optimizer/minuit_tools.py: minimize"]}
{"id": "C142", "title": "Calls leave Python's warnings as they found them", "statement": "Every call of the package, however nested and whether or not it raises, leaves the process's warning filters and display hook as it found them, and the wrapper that collects warnings changes neither results nor exceptions.", "quantifier": "every nesting of calls, every filters of the user, every warning and failure, and every interleaving of threads", "why_tests_cant": "Ranges over all programs and all schedules of threads.", "anchors": ["src/spey/system/exceptions.py: warning_tracker", "src/spey/optimizer/scipy_tools.py: minimize", "src/spey/base/hypotest_base.py: exclusion_confidence_level, poi_upper_limit", "src/spey/hypothesis_testing/utils.py", "src/spey/backends/default_pdf/third_moment.py"]}
{"id": "C143", "title": "Warnings issued during a computation are not lost", "statement": "Every warning issued while an exclusion level, an upper limit or a third-moment expansion is computed can be found afterwards in the debug log, once.", "quantifier": "every computation, every number of warnings, every nesting of calls, and computations that fail", "why_tests_cant": "Ranges over all programs.", "anchors": ["src/spey/system/exceptions.py: warning_tracker", "src/spey/optimizer/scipy_tools.py: minimize", "src/spey/combiner/uncorrelated_statistics_combiner.py: UnCorrStatisticsCombiner.likelihood"]}
{"id": "C144", "title": "What is given for a backend arrives at the backend", "statement": "Calling what get_backend returns builds the backend with all positional arguments and all keyword arguments except analysis, xsection and ntoys, which become attributes of the model; exceptions of the constructor are passed on and objects that are no backend are rejected.", "quantifier": "every backend constructor and every positional and keyword arguments", "why_tests_cant": "Ranges over all backends, including those of plug-ins not written yet.", "anchors": ["src/spey/interface/statistical_model.py: statistical_model_wrapper, StatisticalModel.__init__"]}
{"id": "C145", "title": "Names of combined models stay distinct when models are renamed", "statement": "Assigning to the analysis attribute of a model held by combiners keeps the names within every combiner distinct, so that datasets and removals go to the model meant.", "quantifier": "every set of combiners, every model and every name", "why_tests_cant": "Ranges over all histories and aliasing between combiners.", "anchors": ["src/spey/interface/statistical_model.py: StatisticalModel", "src/spey/combiner/uncorrelated_statistics_combiner.py: generate_asimov_data, likelihood, remove"]}
{"id": "C146", "title": "Poisson counting experiments get the textbook expected levels and limits", "statement": "For counts without nuisance parameters the expected exclusion levels of a strength mu are 1 - Phi(-N - sqrt q)/Phi(-N) with q = 2 sum_i (mu s_i - b_i ln(1 + mu s_i/b_i)), whatever was observed, and the expected upper limits are where these reach the requested level.", "quantifier": "every number of bins, all signals, backgrounds, counts, strengths and levels, fits with or without negative strengths", "why_tests_cant": "An identity over all counting experiments, through fits, Asimov data and root finding.", "anchors": ["src/spey/backends/default_pdf/simple_pdf.py: Poisson", "src/spey/base/hypotest_base.py: exclusion_confidence_level, poi_upper_limit", "src/spey/hypothesis_testing/asymptotic_calculator.py"]}
{"id": "C147", "title": "Counting experiments get the textbook observed levels and significances", "statement": "One bin with n events gets the observed exclusion level of the profile likelihood ratio in closed form and the discovery significance sqrt(2 (n ln(n/b) - (n - b))), 0 if n does not exceed b; the expected significance of any number of bins is sqrt(2 sum_i ((s_i + b_i) ln(1 + s_i/b_i) - s_i)).", "quantifier": "all signals, backgrounds, counts and strengths", "why_tests_cant": "An identity over all counting experiments.", "anchors": ["src/spey/backends/default_pdf/simple_pdf.py: Poisson", "src/spey/base/hypotest_base.py: exclusion_confidence_level, significance", "src/spey/hypothesis_testing/test_statistics.py: qmu_tilde, q0"]}
{"id": "C148", "title": "More events never make an exclusion stronger", "statement": "In a counting experiment, observing more events in any of the bins never raises the exclusion level of a strength, never lowers the upper limit by more than the tolerance of the root finder, never lowers the significance, and never lowers the fitted strength.", "quantifier": "any number of bins, all pairs of counts, all signals, backgrounds, strengths and levels", "why_tests_cant": "Relates two analyses for all pairs of observations.", "anchors": ["src/spey/backends/default_pdf/simple_pdf.py: Poisson", "src/spey/base/hypotest_base.py: exclusion_confidence_level, poi_upper_limit, significance"]}
{"id": "C149", "title": "More signal, less background or another bin never makes an experiment expect less", "statement": "Raising signals, lowering backgrounds and adding bins never lowers an expected exclusion level or the expected significance of a counting experiment, and never raises an expected limit.", "quantifier": "every pair of counting experiments related in this way, all strengths and levels", "why_tests_cant": "Relates two experiments for all pairs.", "anchors": ["src/spey/backends/default_pdf/simple_pdf.py: Poisson", "src/spey/base/hypotest_base.py: exclusion_confidence_level, poi_upper_limit, significance"]}
{"id": "C150", "title": "The default backends agree where their assumptions coincide", "statement": "Independent uncertainties and a diagonal covariance, symmetric envelopes and the covariance of their correlations, vanishing uncertainties and the Poisson backend, and a covariance with and without vanishing third moments are pairs of descriptions of one model: the same expected data and, up to a factor that does not depend on data or strength, the same profiled likelihoods.", "quantifier": "all signals, backgrounds, counts, uncertainties and correlation matrices of any size, every point and every dataset", "why_tests_cant": "Identities between four constructors at all inputs.", "anchors": ["src/spey/backends/default_pdf/__init__.py: UncorrelatedBackground, CorrelatedBackground, ThirdMomentExpansion, EffectiveSigma", "src/spey/backends/default_pdf/third_moment.py: third_moment_expansion", "src/spey/backends/default_pdf/simple_pdf.py: Poisson"]}
{"id": "C151", "title": "Uncorrelated background uncertainties give closed-form expected levels and limits", "statement": "For counts with independent background uncertainties B_i the pre-fit expected exclusion levels of a strength mu are 1 - Phi(-N - sqrt q)/Phi(-N) with q = sum_i 2 (y_i - b_i - b_i ln(y_i/b_i)) + ((y_i - mu s_i - b_i)/B_i)^2, y_i being the positive solution of y = mu s_i + b_i + B_i^2 (b_i - y)/y, or mu s_i if that is larger and the optimiser keeps backgrounds from going negative; the expected upper limits are where these reach the requested level, and there is one for every band and level.", "quantifier": "every number of bins, all signals, backgrounds, uncertainties, counts, strengths and levels", "why_tests_cant": "An identity over all such experiments, through profile fits, Asimov data and root finding.", "anchors": ["src/spey/backends/default_pdf/__init__.py: UncorrelatedBackground", "src/spey/base/hypotest_base.py: exclusion_confidence_level, poi_upper_limit", "src/spey/interface/statistical_model.py: generate_asimov_data"]}
{"id": "C152", "title": "Larger background uncertainties never strengthen an expected exclusion", "statement": "Raising background uncertainties (each by its own factor if independent, by a common one if correlated) never raises a pre-fit expected exclusion level and never lowers an expected limit by more than the tolerance of the root finder; no such experiment expects more than the counting experiment without uncertainties.", "quantifier": "every pair of experiments with symmetric uncertainties of which one is no more certain, correlated or not, all strengths and levels", "why_tests_cant": "Relates two analyses for all pairs, through profile fits.", "anchors": ["src/spey/backends/default_pdf/__init__.py: UncorrelatedBackground, CorrelatedBackground", "src/spey/base/hypotest_base.py: exclusion_confidence_level, poi_upper_limit"]}
{"id": "C153", "title": "Asimov data are those of the hypothesis they stand for", "statement": "The data generated for the expected results are the yields of the hypothesis tested against, no signal for limits and the nominal signal for discovery, so that a fit to them finds the strength 0 or 1 they were generated with.", "quantifier": "all experiments with symmetric background uncertainties, pre-fit and post-fit, all counts", "why_tests_cant": "A statement about two successive fits for all data.", "anchors": ["src/spey/interface/statistical_model.py: generate_asimov_data", "src/spey/backends/default_pdf/__init__.py: DefaultPDFBase.expected_data, DefaultPDFBase.get_objective_function"]}
{"id": "C154", "title": "The choice of the optimiser does not change expected exclusion levels", "statement": "Fitting with scipy or with Minuit gives the same pre-fit expected exclusion levels, if both find the best fit.", "quantifier": "every experiment with independent background uncertainties, all strengths", "why_tests_cant": "Compares two optimisers for all experiments.", "anchors": ["src/spey/backends/default_pdf/__init__.py: DefaultPDFBase._register_positivity_constraint, UncorrelatedBackground", "src/spey/optimizer/scipy_tools.py: minimize", "src/spey/optimizer/minuit_tools.py: minimize"]}
{"id": "C155", "title": "Background uncertainties of the Poisson backend free the backgrounds as documented", "statement": "With absolute_uncertainties the background of each uncertain bin may be any non-negative number at no price: expected exclusion levels are those of an experiment in which only the signal beyond the background counts in these bins, so that strong enough signals are excluded.", "quantifier": "every number of bins, all signals, backgrounds, uncertainties, counts and strengths, with and without enforcement of the registered constraint", "why_tests_cant": "An identity over all experiments, through profile fits and Asimov data.", "anchors": ["src/spey/backends/default_pdf/simple_pdf.py: Poisson, SimplePDFBase.get_objective_function, SimplePDFBase.expected_data", "src/spey/base/hypotest_base.py: exclusion_confidence_level, poi_upper_limit, significance"]}
{"id": "C156", "title": "The uncertainty of the signal strength is what error propagation gives", "statement": "sigma_mu returns the standard deviation of the strength: for counts n_i where the fit expects y_i, with signals s_i and independent background uncertainties B_i, one over the root of sum_i s_i^2 n_i/(y_i^2 + n_i B_i^2), hence of sum_i s_i^2/(b_i + B_i^2) before any data; for correlated backgrounds one over the root of s V^-1 s, V the covariance of the counts; for Gaussian counts the error of the least-squares estimate; and it always returns, so that chi2_test can use it.", "quantifier": "every number of bins, all signals, backgrounds, uncertainties, correlation matrices, counts, strengths and fits", "why_tests_cant": "An identity over all experiments, through derivatives and matrix inversion.", "anchors": ["src/spey/backends/default_pdf/__init__.py: DefaultPDFBase.get_hessian_logpdf_func", "src/spey/backends/default_pdf/simple_pdf.py: SimplePDFBase.get_hessian_logpdf_func", "src/spey/interface/statistical_model.py: sigma_mu_from_hessian", "src/spey/base/hypotest_base.py: sigma_mu, chi2_test"]}
{"id": "C157", "title": "spey.math returns the negative log-likelihood, its gradient and the observed information", "statement": "For models whose expected counts are linear in their parameters, spey.math.value_and_grad gives minus the log-likelihood and its derivatives: sum_i s_i (1 - n_i/y_i) for the strength, then B_i (1 - n_i/y_i) plus the pull of the penalty for the nuisance parameter of each bin; the latter vanish at the fit for a strength and all of them at the overall fit. spey.math.hessian gives the observed information, a symmetric non-negative matrix, whose inverse has sigma_mu squared as its first entry.", "quantifier": "every number of bins, all signals, backgrounds, uncertainties, correlation matrices, counts, data prescriptions, strengths and nuisance parameters with positive expected counts, for the uncorrelated, correlated, Poisson (with and without uncertainties), normal and multivariate normal backends", "why_tests_cant": "An identity over all experiments and parameters; automatic differentiation is exercised at points only.", "anchors": ["src/spey/math.py: value_and_grad, hessian", "src/spey/backends/default_pdf/__init__.py: DefaultPDFBase.get_objective_function, DefaultPDFBase.get_hessian_logpdf_func", "src/spey/backends/default_pdf/simple_pdf.py: SimplePDFBase.get_objective_function, SimplePDFBase.get_hessian_logpdf_func, Poisson"]}
{"id": "C158", "title": "Confidence intervals of a Gaussian measurement are those of the textbook", "statement": "When the likelihood is Gaussian, with estimate mu0 and error sd of the signal strength, chi2_test returns mu0 -+ z sd for two-sided intervals, z being such that the standard normal distribution has the probability CL between -z and z; a one-sided limit leaves the probability 1 - CL outside; an upper limit on a non-negative strength is the largest strength whose chi2, relative to the best non-negative strength, is below the threshold, and is always found.", "quantifier": "every number of bins, all signals, backgrounds, observations, uncertainties or covariance matrices, confidence levels, limit types, numbers of scan points and root finders that keep their contract", "why_tests_cant": "An identity over all measurements and confidence levels, through the fit, the Hessian, the scan and the root finder.", "anchors": ["src/spey/base/hypotest_base.py: chi2_test, sigma_mu", "src/spey/base/utils.py: _enumerate_crossings_1d, _refine_global_min_1d", "src/spey/hypothesis_testing/upper_limits.py: bracket_and_solve", "src/spey/backends/default_pdf/simple_pdf.py: Gaussian, MultivariateNormal"]}
{"id": "C159", "title": "The contour encloses the region whose confidence level was asked for", "statement": "find_contour returns points of the boundary of the region of signal parameters with the requested confidence level: on the way from the best fit to a radial point everything is inside and beyond it everything is outside; every direction drawn in which the boundary can be reached yields a point; and for Gaussian measurements of yields that are linear in the parameters the region is the ellipsoid of predictions whose squared distance from the best one is the chi-squared quantile.", "quantifier": "every model with a convex negative log-likelihood, all directions drawn, confidence levels, bounds, settings and root finders that keep their contract; the last part for every number of bins, all uncertainties or covariance matrices, observations and affine signal functions", "why_tests_cant": "A statement about all points of all lines through a minimum, for all models.", "anchors": ["src/spey/multiparameter/contour.py: find_contour, _radial_search", "src/spey/backends/default_pdf/simple_pdf.py: Gaussian, MultivariateNormal"]}
{"id": "C160", "title": "Confidence intervals of counting experiments are the likelihood-ratio intervals", "statement": "For Poisson counts without nuisance parameters chi2_test returns the ends of the set of strengths whose likelihood ratio 2 sum_i ((mu - muhat) s_i - n_i ln((mu s_i + b_i)/(muhat s_i + b_i))) to the best fit is at most z^2, z being such that the standard normal distribution has the probability CL between -z and z: by default the largest such non-negative strength, for one bin also both ends, where the yield y solves 2 (y - n - n ln(y/n)) = z^2. There is such a limit for all counts, including none.", "quantifier": "every number of bins, all signals, backgrounds, counts, data prescriptions, confidence levels up to six standard deviations, numbers of scan points and root finders that keep their contract", "why_tests_cant": "An identity over all experiments and confidence levels, through the fit, the Hessian, the scan and the root finder.", "anchors": ["src/spey/base/hypotest_base.py: chi2_test, sigma_mu", "src/spey/base/utils.py: _enumerate_crossings_1d, _refine_global_min_1d", "src/spey/hypothesis_testing/upper_limits.py: bracket_and_solve", "src/spey/backends/default_pdf/simple_pdf.py: Poisson"]}
{"id": "C161", "title": "A bracketing search reports where it has been", "statement": "The two objects returned by find_root_limits answer an index -k with the k-th last point evaluated and the value found there, for the last ten evaluations that returned, and raise IndexError for anything older; evaluating through such an object returns what the function returns, and an evaluation that raises leaves no trace. The points go from the initial value outwards by factors of five up to the bound, and only the last of them is on the other side of the threshold or at the bound.", "quantifier": "every function, including ones that raise, every sequence of evaluations, all thresholds, initial values and bounds", "why_tests_cant": "Holds for every history of evaluations and every function.", "anchors": ["src/spey/hypothesis_testing/upper_limits.py: find_root_limits, ComputerWrapper"]}
{"id": "C162", "title": "Likelihoods are probabilities of the data, and the expected data are their mean", "statement": "For fixed parameters the exponential of the log-likelihood, added up over all possible counts, is one, and the counts weighted with it average to what expected_data returns; for Gaussian measurements, independent or correlated, the same holds with integrals over all possible measurements; with constrained nuisance parameters the sum is the density of the constraint terms, whatever the counts.", "quantifier": "every number of bins, all means, widths, covariance matrices and parameters, all counts or measurements at once", "why_tests_cant": "An infinite sum or an integral over all data.", "anchors": ["src/spey/backends/distributions.py: Poisson, Normal, MultivariateNormal, MainModel.log_prob, MainModel.expected_data", "src/spey/backends/default_pdf/__init__.py: DefaultPDFBase.get_logpdf_func, DefaultPDFBase.expected_data", "src/spey/backends/default_pdf/simple_pdf.py: SimplePDFBase.get_logpdf_func"]}
{"id": "C163", "title": "A mixture averages the probabilities of its components and draws from them", "statement": "The probability of a MixtureModel is the average of those of its components, each row of its sample is drawn by one component, all being equally likely, and it can be sampled whenever its components can.", "quantifier": "every list of components, values and numbers of samples", "why_tests_cant": "All lists of components.", "anchors": ["src/spey/backends/distributions.py: MixtureModel"]}
{"id": "C164", "title": "Walks along the contour keep their speed and later passes start where points are sparsest", "statement": "The momentum of a walk starts as a unit vector tangent to the contour, obtained from the draw by removing its part along the gradient; each step moves along the momentum after half a kick against the gradient and back to the contour, and keeps the tangent part of that momentum, whose length grows by no more than the kick; every coverage pass after the first starts its walks at the points, among all radial and walked ones so far, that are furthest from their knn_k-th neighbour, and n_coverage_passes passes are made.", "quantifier": "every NLL, gradient, start, step size, number of steps, passes, chains and neighbours, and every random draw", "why_tests_cant": "All functions, draws and point clouds.", "anchors": ["src/spey/multiparameter/contour.py: _rattle_walk, _rattle_step, _find_sparse_seeds, find_contour"]}
{"id": "C165", "title": "Asymmetric uncertainties move the background by what was given", "statement": "In default.effective_sigma a nuisance parameter of one standard deviation upwards raises the expected background of its bin by the upper uncertainty given, one downwards lowers it by the lower one.", "quantifier": "every number of bins, all backgrounds, uncertainties, correlations and values of the other nuisance parameters", "why_tests_cant": "All backgrounds and pairs of uncertainties; where it fails the fit still runs.", "anchors": ["src/spey/backends/default_pdf/__init__.py: EffectiveSigma, DefaultPDFBase.expected_data"]}
{"id": "C166", "title": "Signal uncertainties change the signal by what was given", "statement": "With a signal uncertainty, one standard deviation upwards of its nuisance parameter raises the expected yield of a bin at strength one by the upper uncertainty given for it, one downwards lowers it by the lower one; this holds for normalisations and shapes, also for bins whose variation is negative and for negative yields.", "quantifier": "every number of bins, all yields, uncertainties, backgrounds, background models and values of the other parameters", "why_tests_cant": "All yields and pairs of uncertainties.", "anchors": ["src/spey/backends/default_pdf/uncertainty_synthesizer.py: signal_uncertainty_synthesizer, _validate_delta", "src/spey/backends/default_pdf/__init__.py: DefaultPDFBase.expected_data"]}
{"id": "C167", "title": "Pseudo-data follow the model they are drawn from", "statement": "The samplers of the default backends draw counts with exactly the probabilities, and measurements with exactly the densities, that the likelihood of the same parameters gives them; the mean of a count is the expected yield. Auxiliary measurements are drawn around the nuisance parameters given, and enter the fits to the pseudo-data.", "quantifier": "every backend with or without nuisance parameters, all parameters, all counts or measurements at once", "why_tests_cant": "An identity between two distributions, over all data.", "anchors": ["src/spey/backends/default_pdf/__init__.py: DefaultPDFBase.get_sampler", "src/spey/backends/default_pdf/simple_pdf.py: SimplePDFBase.get_sampler", "src/spey/backends/distributions.py: MainModel.sample, ConstraintModel.sample, Poisson, Normal, MultivariateNormal"]}
{"id": "C168", "title": "The significance of a region with an uncertain background is the textbook one", "statement": "With uncorrelated background uncertainties the difference of the profiled log-likelihood between two strengths is the sum over the bins of the Poisson and Gaussian prices of the best yields. For one bin with n events over b +- B the observed significance is sqrt(2 (n ln(n/y) - (n - y)) + ((y - b)/B)^2) with y the yield the events pull the background to, and 0 without an excess; it does not fall if more events are observed or if the background is known better, and is never above that of a counting experiment.", "quantifier": "every number of bins, signals, backgrounds, uncertainties, events above 1e-20 and strengths, fits with or without the positivity constraint", "why_tests_cant": "All data and uncertainties; tests compare a few numbers.", "anchors": ["src/spey/backends/default_pdf/__init__.py: UncorrelatedBackground, DefaultPDFBase.get_objective_function", "src/spey/base/hypotest_base.py: HypothesisTestingBase.significance", "src/spey/hypothesis_testing/test_statistics.py: q0"]}
{"id": "C169", "title": "A fit finds the strength that describes the data best", "statement": "Without bounds from the caller, maximize_likelihood on a model with symmetric background uncertainties returns the strength that describes the data best among those it may return (non-negative, or above the minimum the model states), however large; so chi2 is never negative and the significance of an excess does not depend on the normalisation of the signal.", "quantifier": "every number of bins, signals, backgrounds, correlations, data, expectation and both settings of allow_negative_signal", "why_tests_cant": "All data and signal normalisations; test signals are about as large as the excess.", "anchors": ["src/spey/backends/default_pdf/__init__.py: DefaultPDFBase.config", "src/spey/interface/statistical_model.py: StatisticalModel.maximize_likelihood", "src/spey/optimizer/core.py: fit", "src/spey/base/hypotest_base.py: HypothesisTestingBase.chi2, pull, significance"]}
{"id": "C170", "title": "The fit of a combination finds the common strength that describes all data best", "statement": "Without a starting value or bounds from the caller, maximize_likelihood of a combination of models with convex likelihoods returns the strength with the lowest summed negative log-likelihood, however large; the starting value, the mean of the members' best fits weighted with their errors, is that strength if the members' errors are Gaussian.", "quantifier": "every number of members, their likelihoods, best fits and errors, expectation, data given by name and both settings of allow_negative_signal", "why_tests_cant": "All members and likelihoods; the end of the range shows only for large excesses over small signals.", "anchors": ["src/spey/combiner/uncorrelated_statistics_combiner.py: maximize_likelihood, likelihood, minimum_poi", "src/spey/backends/default_pdf/__init__.py: DefaultPDFBase.config"]}
{"id": "C171", "title": "The best point of a contour is the best point inside the limits", "statement": "The best point find_contour reports lies inside the limits of the contour parameters (those given, or the model's if none are given), its value is the negative log-likelihood there with the strength fixed to one, and no point inside the limits with the strength fixed to one has a lower one.", "quantifier": "every number of parameters, selection of contour parameters, limits, likelihood and outcome of the extra descents", "why_tests_cant": "All likelihoods and limits; tests never give limits that exclude the fit.", "anchors": ["src/spey/multiparameter/contour.py: find_contour, _find_mle, _find_basins_contour_subspace", "src/spey/interface/statistical_model.py: StatisticalModel.maximize_likelihood"]}
{"id": "C172", "title": "Confidence intervals with uncertain backgrounds contain what the data do not disfavour", "statement": "For a default backend with symmetric background uncertainties, correlated or not, the limits that chi2_test returns for the signal strength, for a nuisance parameter with the strength fitted along, or, if the uncertainties are independent, for a nuisance parameter at the fixed strength poi_value, are the ends of the set of values whose likelihood, maximised over all other parameters, is below the maximum by no more than the confidence level allows: every value further out than the solver's tolerance is disfavoured, every value inside is not. This holds for left, right and two-sided limits if the number of scan points is odd, the ends lie within the last search window and the interval is wider than the tolerance; and for the upper limit without negative signals, which is asked for by default, if zero strength is not disfavoured.", "quantifier": "every linear model, all counts, all confidence levels, every profile, best value and uncertainty estimate, every sound root finder", "why_tests_cant": "the profile of a model with many nuisance parameters could have any shape; that it leaves each level once on either side follows from the convexity of the likelihood in all parameters and not from evaluations", "anchors": ["src/spey/base/hypotest_base.py: HypothesisTestingBase.chi2_test", "src/spey/backends/default_pdf/__init__.py: DefaultPDFBase.get_objective_function", "src/spey/interface/statistical_model.py: StatisticalModel.likelihood"]}
{"id": "C173", "title": "Confidence intervals of combinations contain what the data do not disfavour together", "statement": "For a combination whose members' likelihoods, maximised over their own nuisance parameters, are log-concave in the signal strength, as those of default backends with symmetric background uncertainties are, the limits that chi2_test returns for the strength are the ends of the set of strengths whose summed log-likelihood is below its maximum by no more than the confidence level allows. If the members measure the strength as m_i +- s_i, the limits are those of a single measurement of the weighted mean with the error 1/sqrt(sum 1/s_i^2). Both hold for left, right and two-sided limits, under the same conditions on the scan as for a single model.", "quantifier": "every combination, any number of members, all confidence levels, every sound root finder", "why_tests_cant": "members disagree in every possible way, and the sum of their profiles has its own minimum and shape; only convexity rules out further crossings", "anchors": ["src/spey/combiner/uncorrelated_statistics_combiner.py: UnCorrStatisticsCombiner.likelihood", "src/spey/base/hypotest_base.py: HypothesisTestingBase.chi2_test"]}
{"id": "C174", "title": "More confidence never gives a smaller limit or a narrower interval", "statement": "poi_upper_limit at a larger confidence level returns no smaller upper limit, observed or expected, than at a smaller one, and chi2_test at a larger confidence level returns an interval that contains the one for the smaller, up to twice the tolerance of the root finder at either end.", "quantifier": "every model whose likelihoods fall beyond their best fits, every pair of confidence levels in [0, 1], every sound root finder", "why_tests_cant": "limits come from separate bracket searches and root searches at each level, which may start, stop and fail at different places; that their results are ordered has to hold for every likelihood and every pair of levels", "anchors": ["src/spey/base/hypotest_base.py: HypothesisTestingBase.poi_upper_limit, HypothesisTestingBase.chi2_test", "src/spey/hypothesis_testing/upper_limits.py: find_poi_upper_limit, find_root_limits"]}
{"id": "C175", "title": "Expected upper limits are ordered across the sigma bands", "statement": "The list of expected upper limits returned by poi_upper_limit for expected_pvalue 1sigma or 2sigma is ascending, up to twice the tolerance of the root finder, with infinite limits last.", "quantifier": "every model whose likelihoods fall beyond their best fits, all confidence levels above the one reached at the floor of the search, every sound root finder", "why_tests_cant": "each band has its own search; the order rests on the monotonicity of a ratio of Gaussian tails for every value of the statistic", "anchors": ["src/spey/hypothesis_testing/upper_limits.py: find_poi_upper_limit", "src/spey/base/hypotest_base.py: HypothesisTestingBase.poi_upper_limit"]}
{"id": "C176", "title": "No strength below the best fit is excluded beyond 50%, and no limit lies below it", "statement": "exclusion_confidence_level of the observed data is at most 1/2 for every strength below the best fit, so poi_upper_limit at a confidence level above 1/2 returns no observed limit below the best fit, up to the tolerance of the root finder; expected levels vanish below the best fit of the Asimov data, and expected limits at any positive confidence level are not below it.", "quantifier": "every likelihood of any shape, every best fit, signal strength, confidence level and sound root finder", "why_tests_cant": "the likelihood at, and the limits of, every possible data set; a limit below the best fit would come from the one combination of fits in which the transformed statistic behaves unexpectedly", "anchors": ["src/spey/base/hypotest_base.py: HypothesisTestingBase.exclusion_confidence_level, HypothesisTestingBase.poi_upper_limit", "src/spey/hypothesis_testing/test_statistics.py: qmu_tilde, compute_teststatistics", "src/spey/hypothesis_testing/upper_limits.py: find_poi_upper_limit"]}
{"id": "C177", "title": "Data that are as expected give the median expected result", "statement": "If the data equal the backgrounds, the observed exclusion level is the median of the expected ones and the observed upper limit is the median expected upper limit.", "quantifier": "every number of bins, signals, backgrounds, background uncertainties and correlations, strength, confidence level and root finder", "why_tests_cant": "observed and expected results take different paths, one through the transformed statistic of the data and one through quantiles of the Asimov distribution; that they agree is an identity between functions", "anchors": ["src/spey/hypothesis_testing/test_statistics.py: compute_teststatistics", "src/spey/hypothesis_testing/asymptotic_calculator.py: compute_asymptotic_confidence_level", "src/spey/hypothesis_testing/upper_limits.py: find_poi_upper_limit", "src/spey/base/hypotest_base.py: HypothesisTestingBase.exclusion_confidence_level"]}
{"id": "C178", "title": "A fit of Gaussian bins returns their weighted mean", "statement": "maximize_likelihood of a model with Gaussian bins, correlated or not, returns the weighted mean of the strengths the bins measure, or zero if it is negative and negative signals are not allowed; of a single counting region it returns (n - b) / s.", "quantifier": "every number of bins, signals, backgrounds, data, widths or covariances, and both settings of allow_negative_signal", "why_tests_cant": "all measurements; only those far from the expected strength show where the range of the fit ends", "anchors": ["src/spey/backends/default_pdf/simple_pdf.py: SimplePDFBase.__init__, SimplePDFBase.config, Gaussian, MultivariateNormal, Poisson", "src/spey/interface/statistical_model.py: StatisticalModel.maximize_likelihood", "src/spey/optimizer/core.py: fit"]}
{"id": "C179", "title": "The update check relies on successful answers of the index", "statement": "The warnings of an import are those called for by an answer the index gave with success at most 24 hours before; when the index could not answer, the next import asks again.", "quantifier": "every history of imports, times, and answers of the index: no connection, any HTTP status, any body", "why_tests_cant": "histories of days and failures of a remote service", "anchors": ["src/spey/system/webutils.py: _get_pypi_info, _load_cached_pypi_info, _save_pypi_info, check_updates", "src/spey/__init__.py"]}
{"id": "C180", "title": "Combining never weakens the expected exclusion", "statement": "At every strength, none of the five expected exclusion levels of a combination is below the level of one of its members or of a combination of some of them, and no expected upper limit is above theirs.", "quantifier": "every combination with differently named members, every member or sub-combination, strength, confidence level and both expected prescriptions", "why_tests_cant": "all sets of members and strengths; only data the members disagree about tell the difference", "anchors": ["src/spey/combiner/uncorrelated_statistics_combiner.py: UnCorrStatisticsCombiner.generate_asimov_data, asimov_likelihood, maximize_asimov_likelihood", "src/spey/base/hypotest_base.py: HypothesisTestingBase.exclusion_confidence_level, poi_upper_limit"]}
{"id": "C181", "title": "The upper limit is a strength excluded at the level asked for", "statement": "Exclusion levels change continuously with the strength where it is positive, so that a finite upper limit is, within the tolerance of the root finder, a strength whose exclusion level equals the confidence level asked for.", "quantifier": "every model with continuous likelihoods, every confidence level, expectation type, band, starting bracket and root finder", "why_tests_cant": "all strengths and likelihoods; jumps are at single points", "anchors": ["src/spey/base/hypotest_base.py: HypothesisTestingBase.poi_upper_limit, exclusion_confidence_level", "src/spey/hypothesis_testing/test_statistics.py: qmu_tilde", "src/spey/hypothesis_testing/upper_limits.py: find_poi_upper_limit", "src/spey/hypothesis_testing/asymptotic_calculator.py: compute_asymptotic_confidence_level"]}
{"id": "C182", "title": "More data never make an experiment expect less", "statement": "Multiplying signals, backgrounds and background uncertainties by a common factor of at least one never lowers a pre-fit expected exclusion level and never raises a pre-fit expected upper limit. Without uncertainties the expected significance grows by the square root of the factor, and the expected limit falls at least by that and at most by the factor.", "quantifier": "every counting experiment and every model with symmetric background uncertainties, factor, strength, band and confidence level", "why_tests_cant": "all yields, uncertainties and factors", "anchors": ["src/spey/backends/default_pdf/__init__.py: UncorrelatedBackground, CorrelatedBackground", "src/spey/backends/default_pdf/simple_pdf.py: Poisson", "src/spey/base/hypotest_base.py: HypothesisTestingBase.exclusion_confidence_level, poi_upper_limit, significance"]}
{"id": "C183", "title": "Options of a combination arrive at the members they are for", "statement": "In every likelihood and Asimov data set of a combination each member is called with the options given for its backend type together with the keyword arguments given for all, and with nothing given for other backends.", "quantifier": "every combination, options per backend type, common keyword arguments and method", "why_tests_cant": "all sets of options and names, including ones given in several places", "anchors": ["src/spey/combiner/uncorrelated_statistics_combiner.py: UnCorrStatisticsCombiner.likelihood, generate_asimov_data, asimov_likelihood"]}
{"id": "C184", "title": "A slice of a combination is the members it names", "statement": "Slicing a combination returns exactly the members at the positions the slice selects, each once, in the order of the step. Negative and out-of-range ends behave as in Python, only a step of zero is refused, two slices that meet make up the whole combination, and the members of a slice keep distinct names.", "quantifier": "every combination and every start, stop and step, given or omitted", "why_tests_cant": "all lengths and integers, negative and far outside the range", "anchors": ["src/spey/combiner/uncorrelated_statistics_combiner.py: UnCorrStatisticsCombiner.__getitem__, statistical_models"]}
{"id": "C185", "title": "What callers do with an answer never changes a later answer", "statement": "Answers of cached calls (fits to data, fits to Asimov data, Asimov data) and the result of get_cache are new objects. Whatever callers write into them or into any other object they hold, every later call answers with the content the computation gives, and later calls leave earlier answers as they are.", "quantifier": "every history of calls, clearings, looks at the cache, evictions and writes by callers; every nested answer the computation makes itself", "why_tests_cant": "all histories and all ways answers share parts", "anchors": ["src/spey/system/cache.py: cache_results, _PerInstanceCacheDescriptor.__get__, get_cache", "src/spey/interface/statistical_model.py: StatisticalModel.maximize_likelihood, maximize_asimov_likelihood, generate_asimov_data"]}
{"id": "C186", "title": "Adjusting a configuration does not change the model", "statement": "Configurations and lists of bounds obtained from a model can be adjusted for one purpose, for instance to pass other bounds to one fit, without changing the model: later configurations and fits use what the model was built with. Renaming parameters is seen in every configuration of the model.", "quantifier": "every model of the built-in backends and every history of configurations and bounds asked for and changed by callers", "why_tests_cant": "all histories; which lists are shared is not visible from single calls", "anchors": ["src/spey/backends/default_pdf/__init__.py: DefaultPDFBase.config", "src/spey/backends/default_pdf/simple_pdf.py: SimplePDFBase.config", "src/spey/base/model_config.py: ModelConfig.fixed_poi_bounds, fixed_poi_bounds_multi, rescale_poi_bounds, change_parameter_names"]}
{"id": "C187", "title": "A fit at a given strength has exactly one solution", "statement": "For a model with symmetric background uncertainties, correlated or not, and for any data there is exactly one set of background parameters that describes the data best at a given signal strength, so that the fit at that strength, the Asimov data and the pre-fit expected levels and limits are well defined.", "quantifier": "every model with symmetric background uncertainties that can be built, every covariance matrix, dataset and strength at which every bin expects events", "why_tests_cant": "all numbers of bins, covariances, data and strengths; existence of a minimum cannot be observed from runs of a minimiser", "anchors": ["src/spey/backends/default_pdf/__init__.py: UncorrelatedBackground, CorrelatedBackground", "src/spey/backends/distributions.py: MultivariateNormal, Poisson", "src/spey/base/hypotest_base.py: HypothesisTestingBase.likelihood, generate_asimov_data"]}
{"id": "C188", "title": "maximize_likelihood has an answer, and just one", "statement": "For a model with symmetric background uncertainties, correlated (with a positive correlation matrix) or not, with backgrounds above 1e-20 in every bin and signal in some, and for any data without negative entries, some signal strength in the range the fit searches, with some background parameters, describes the data best, and so does some strength among all non-negative ones; so do the fits of the Asimov data that exclusion levels are computed from. If a bin with signal has events, only one strength and one set of background parameters do.", "quantifier": "all numbers of bins, signals, backgrounds, uncertainties, positive correlation matrices, non-negative data, both settings of the positivity constraint", "why_tests_cant": "Existence of a minimum over infinitely many parameter values for infinitely many models is not something a run of the optimiser can show: it stops somewhere in any case.", "anchors": ["src/spey/base/model_config.py: ModelConfig.suggested_bounds", "src/spey/interface/statistical_model.py: StatisticalModel.maximize_likelihood", "src/spey/optimizer/core.py: fit", "src/spey/backends/default_pdf/__init__.py: DefaultPDFBase"]}
{"id": "C189", "title": "Contour directions are scaled by the curvature at the minima", "statement": "find_contour scales the directions in which it looks for contour points by the curvature of the likelihood at the minima it found, with the strength at one and the remaining parameters profiled: what the curvature is anywhere else does not influence the result.", "quantifier": "every model, settings, likelihood, outcomes of the fits and choice of contour parameters", "why_tests_cant": "all likelihoods and all curvatures away from the minima", "anchors": ["src/spey/multiparameter/contour.py: find_contour"]}
{"id": "C190", "title": "Data without events are no evidence for a signal", "statement": "If no bin has events, no signal strength describes the data better than a smaller one, the observed significance is zero and its p-value one half, whatever the uncertainties of the backgrounds are.", "quantifier": "every number of bins, signals that are not negative, backgrounds, background uncertainties of every kind and correlations, expected data and fits", "why_tests_cant": "all models; without events the likelihood has no logarithms, its parameters are not constrained by positive yields and it is flat below the floor of the yields, a case of its own", "anchors": ["src/spey/backends/default_pdf/__init__.py: DefaultPDFBase.get_objective_function", "src/spey/backends/distributions.py: Poisson.log_prob", "src/spey/base/hypotest_base.py: HypothesisTestingBase.significance", "src/spey/hypothesis_testing/test_statistics.py: q0"]}
