{
 "claims": [
  {
   "property": "C01",
   "status": "proved",
   "theorems": [
    "C01_sequential_transparency"
   ],
   "note": "Outputs of every sequential history equal the unwrapped function call by call, for every maxsize including None."
  },
  {
   "property": "C02",
   "status": "proved",
   "theorems": [
    "C02_fifo_bounded"
   ],
   "note": "Cache dict and eviction deque equal a FIFO list specification."
  },
  {
   "property": "C03",
   "status": "proved",
   "theorems": [
    "C03_failure_leaves_no_trace"
   ],
   "note": ""
  },
  {
   "property": "C04",
   "status": "proved",
   "theorems": [
    "C04_concurrent_callers_get_their_own_value"
   ],
   "note": "Every schedule, any number of activations, clears at any point."
  },
  {
   "property": "C05",
   "status": "partial",
   "theorems": [
    "C05_one_computation_per_key_refuted",
    "C05_one_computation_per_key_partial"
   ],
   "note": "False in general: a clear, or (without clears) the eviction of an in-flight marker by another key, lets a second computation of the same key start. Proved when nothing is cleared and the keys in use fit into the cache: at most one activation computes a key and a key is computed successfully at most once."
  },
  {
   "property": "C06",
   "status": "partial",
   "theorems": [
    "C06_waiters_always_woken_refuted",
    "C06_self_call_blocks_refuted",
    "C06_waiters_always_woken_partial"
   ],
   "note": "False in general: after a clear, or after eviction of an in-flight marker with maxsize 1, a waiter is blocked in every continuation; a self call with the same arguments blocks. Proved when nothing is cleared and the keys fit: every run of progress actions is finite and ends with all calls finished."
  },
  {
   "property": "C07",
   "status": "partial",
   "theorems": [
    "C07_no_own_error_refuted",
    "C07_no_own_error_partial"
   ],
   "note": "False: nested calls f(2)->f(1)->f(0) with maxsize 1 end in IndexError from popleft. Proved: the only bookkeeping error is IndexError, and it needs a bounded cache with a clear or with more keys than fit. The TypeError of key construction is covered under C08."
  },
  {
   "property": "C08",
   "status": "partial",
   "theorems": [
    "C08_spelling_partial",
    "C08_spellings_bind_alike",
    "C08_dictionary_order",
    "C08_distinct_arguments_refuted",
    "C08_distinct_arguments_partial"
   ],
   "note": "Spelling half proved for positional-or-keyword parameters with optional **kwargs. Distinctness half is false (list/tuple, 1/1.0/True, {}/[] share entries; incomparable dict keys raise TypeError); proved for arguments of one static type, sha256 assumed collision free in the statement."
  },
  {
   "property": "C09",
   "status": "proved",
   "theorems": [
    "C09_statistics_never_negative",
    "C09_statistics_vanish",
    "C09_statistics_values"
   ],
   "note": "For all floats including infinities and NaN (NaN inputs give NaN, never a negative number)."
  },
  {
   "property": "C10",
   "status": "proved",
   "theorems": [
    "C10_physical_fit_agree",
    "C10_unphysical_fit_tilde_smaller"
   ],
   "note": ""
  },
  {
   "property": "C11",
   "status": "proved",
   "theorems": [
    "C11_names_resolve_exactly"
   ],
   "note": "All strings. qmu_left is accepted as well although the docstring list omits it."
  },
  {
   "property": "C12",
   "status": "proved",
   "theorems": [
    "C12_transformed_statistic_shape",
    "C12_asimov_zero_exactly"
   ],
   "note": "Stated on compute_teststatistics for every accepted name."
  },
  {
   "property": "C13",
   "status": "proved",
   "theorems": [
    "C13_pvalues_well_formed",
    "C13_pvalues_decrease",
    "C13_cls_zero_on_underflow",
    "C13_normal_distribution"
   ],
   "note": "Shift -sqrt(q_A) with sqrt(q_A) >= 0, the only shifts the calculators use. Exact Gaussian distribution function; the underflow clause holds for any distribution function."
  },
  {
   "property": "C14",
   "status": "proved",
   "theorems": [
    "C14_expected_values",
    "C14_expected_bands_ascend"
   ],
   "note": "The list is ascending; in terms of the docstring formula it is N = 2,1,0,-1,-2."
  },
  {
   "property": "C15",
   "status": "proved",
   "theorems": [
    "C15_toy_pvalue_is_tail_fraction",
    "C15_toy_pvalue_decreases",
    "C15_toy_confidence_level",
    "C15_toy_expected_bands_ascend",
    "C15_percentile_interpolates"
   ],
   "note": "Finite toys. numpy.percentile assumed to be linear interpolation of the sorted sample for the last theorem."
  },
  {
   "property": "C16",
   "status": "partial",
   "theorems": [
    "C16_exclusion_levels_are_probabilities_partial",
    "C16_nan_reported_for_all_refuted"
   ],
   "note": "Proved for the three calculators and every fit outcome (NaN and infinities included) unless expected=\"all\"; with \"all\" a NaN reaches the caller."
  },
  {
   "property": "C17",
   "status": "proved",
   "theorems": [
    "C17_significance_pvalue_is_tail",
    "C17_pvalue_decreases_with_significance"
   ],
   "note": ""
  },
  {
   "property": "C18",
   "status": "partial",
   "theorems": [
    "C18_bracket_search_terminates_partial",
    "C18_bracket_usable_partial",
    "C18_poi_upper_limit_terminates_partial",
    "C18_zero_start_never_ends_refuted",
    "C18_negative_start_never_ends_refuted"
   ],
   "note": "False for hig_init <= 0: the upper loop multiplies by five and never moves towards the bound. Proved (termination and post-condition) for a positive upper start, and for poi_upper_limit as a whole unless an explicit non-positive hig_init comes with an explicit low_init."
  },
  {
   "property": "C19",
   "status": "partial",
   "theorems": [
    "C19_level_reaches_target_partial",
    "C19_limit_is_crossing_or_infinite_partial",
    "C19_exact_start_raises_refuted"
   ],
   "note": "False when the start itself is the limit and low_init = hig_init: the root finder is called with an empty bracket and raises ValueError. Proved for finite likelihoods otherwise, with toms748 assumed to be a correct bracketing root finder (hypothesis of the theorem, witnessed by bisection)."
  },
  {
   "property": "C20",
   "status": "partial",
   "theorems": [
    "C20_limit_shape_partial",
    "C20_dead_model_shape",
    "C20_string_expectation_refuted",
    "C20_same_entries_partial"
   ],
   "note": "Proved for ExpectationType members. The string \"observed\", which compares equal to the member, raises IndexError. The three requests agree entry by entry."
  },
  {
   "property": "C21",
   "status": "proved",
   "theorems": [
    "C21_crossings_genuine",
    "C21_crossings_ascending_and_distinct"
   ],
   "note": "Assumes of the root finders only that an answer lies in the bracket they were given (and is a sign change there when the function is finite)."
  },
  {
   "property": "C22",
   "status": "partial",
   "theorems": [
    "C22_sign_changes_reported",
    "C22_grid_zeros_reported_partial",
    "C22_last_grid_zero_reported_partial",
    "C22_zero_beside_nan_missed_refuted",
    "C22_last_zero_missed_refuted"
   ],
   "note": "Sign changes: proved. Exact grid zeros: false when the right-hand neighbour is not finite, and for the last grid point when its left neighbour is zero too; proved otherwise."
  },
  {
   "property": "C23",
   "status": "partial",
   "theorems": [
    "C23_refinement_never_worse",
    "C23_refinement_below_grid_partial",
    "C23_local_minimum_partial",
    "C23_lower_grid_value_ignored_refuted",
    "C23_nan_minimum_kept_refuted"
   ],
   "note": "Never worse than the start: proved for any minimiser. Not above any finite grid value: true up to 1e-9 only (a lower grid value within 1e-9 is ignored), and false for a NaN start."
  },
  {
   "property": "C24",
   "status": "partial",
   "theorems": [
    "C24_windows_bounded",
    "C24_hard_limits",
    "C24_results_partial",
    "C24_terminates",
    "C24_limit_outside_bounds_refuted"
   ],
   "note": "Windows, hard limits of the scan, termination and the shape/origin of the result are proved. \"Never beyond the hard limits\" is false for the fallback search: a nuisance parameter fitted within 1 of its bound gets a limit outside its bounds."
  },
  {
   "property": "C25",
   "status": "partial",
   "theorems": [
    "C25_fixed_bounds_partial",
    "C25_value_left_outside_refuted",
    "C25_open_bound_not_adapted_refuted"
   ],
   "note": "Locality proved, and an exact characterisation of when the value is contained. False for a negative value below minimum_poi (even one on the edge of the suggested bounds) and when one end of the bound is None."
  },
  {
   "property": "C26",
   "status": "partial",
   "theorems": [
    "C26_multi_bounds_partial",
    "C26_inverted_bound_refuted"
   ],
   "note": "Exact characterisation for keys denoting different parameters. False: a nuisance parameter fixed below the POI minimum gets an inverted bound."
  },
  {
   "property": "C27",
   "status": "partial",
   "theorems": [
    "C27_renaming_partial",
    "C27_number_of_names_kept",
    "C27_unnamed",
    "C27_swap_does_nothing_refuted",
    "C27_duplicate_names_refuted",
    "C27_not_all_or_nothing_refuted"
   ],
   "note": "Proved when the new names are fresh. False otherwise: a swap does nothing, renaming onto an existing name duplicates it, and a failing call leaves earlier renamings in place."
  },
  {
   "property": "C28",
   "status": "partial",
   "theorems": [
    "C28_keys_resolve_partial",
    "C28_scalar_resolves",
    "C28_unknown_name_raises",
    "C28_entries_come_from_keys",
    "C28_value_lost_refuted"
   ],
   "note": "Proved when the keys denote different parameters; with an index and a name for the same parameter one value is dropped silently."
  },
  {
   "property": "C29",
   "status": "partial",
   "theorems": [
    "C29_rescaled_bounds_partial",
    "C29_upper_end_is_a_pair_refuted"
   ],
   "note": "Proved for a non-zero poi_upper_bound. Without one (or with 0.0) the upper end becomes the old (lower, upper) pair."
  },
  {
   "property": "C30",
   "status": "partial",
   "theorems": [
    "C30_integer_reference",
    "C30_name_reference_partial",
    "C30_poi_name_accepted_refuted"
   ],
   "note": "Integers: exact characterisation. Names: resolves to the first position of the name, but the POI is accepted by name and the position is not checked against the number of parameters."
  },
  {
   "property": "C31",
   "status": "proved",
   "theorems": [
    "C31_fit_hands_over",
    "C31_fit_reaches_minimiser",
    "C31_mask_becomes_constraints",
    "C31_tuple_start_raises"
   ],
   "note": "Exact characterisation of the mask, the start and of when the minimiser is reached. A tuple start with a pinned value raises TypeError."
  },
  {
   "property": "C32",
   "status": "partial",
   "theorems": [
    "C32_untouched_partial",
    "C32_origin_of_values_partial",
    "C32_pinned_value_leaks",
    "C32_model_start_overwritten_refuted",
    "C32_caller_start_overwritten_refuted"
   ],
   "note": "False: a fit with a pinned value writes it into the list it starts from, the model's suggested_init or the caller's list, and the next fit starts there. Proved: lists from which no pinned fit starts stay unchanged, and where every changed value comes from."
  },
  {
   "property": "C33",
   "status": "partial",
   "theorems": [
    "C33_retry_loop",
    "C33_bounds_between_attempts",
    "C33_windows_grow_partial",
    "C33_window_inverts_refuted",
    "C33_window_shrinks_refuted",
    "C33_open_bound_raises_refuted"
   ],
   "note": "Number of runs, stopping, POI lower bound and caller containers: proved for every optimiser. Bounds only growing: false for negative upper ends (the window shrinks or inverts), and an open bound raises TypeError on the first retry; proved for number ends with non-negative upper ends."
  },
  {
   "property": "C34",
   "status": "proved",
   "theorems": [
    "C34_options_filtered_exactly",
    "C34_scipy_receives",
    "C34_minuit_receives"
   ],
   "note": ""
  },
  {
   "property": "C35",
   "status": "partial",
   "theorems": [
    "C35_return_nll_partial",
    "C35_nll_is_minus_fit",
    "C35_own_method_ignores_flag",
    "C35_return_nll_refuted"
   ],
   "note": "False for backends with their own likelihood methods: their NLL is returned whatever return_nll says (witness in C35_return_nll_refuted). Proved for all other backends."
  },
  {
   "property": "C36",
   "status": "partial",
   "theorems": [
    "C36_always_all_three",
    "C36_unsupported_calls_fail",
    "C36_availability_refuted",
    "C36_supplied_is_reported_partial"
   ],
   "note": "False: a bound method never equals the base-class function, so every backend is reported to support everything; calls on one that does not fail."
  },
  {
   "property": "C37",
   "status": "partial",
   "theorems": [
    "C37_handed_constraints_partial",
    "C37_no_caller_list_partial",
    "C37_caller_list_kept_iff",
    "C37_constraints_accumulate",
    "C37_caller_list_refuted",
    "C37_own_list_never_returns"
   ],
   "note": "What is handed over is as stated; the caller's list is extended in place and grows with every call, and passing the backend's own list never returns."
  },
  {
   "property": "C38",
   "status": "proved",
   "theorems": [
    "C38_excluded_cross_section",
    "C38_s95_datasets",
    "C38_infinite_limit_zero_xsec",
    "C38_infinite"
   ],
   "note": "An infinite limit times cross section 0 is NaN."
  },
  {
   "property": "C39",
   "status": "proved",
   "theorems": [
    "C39_asimov_hypothesis",
    "C39_same_dataset"
   ],
   "note": ""
  },
  {
   "property": "C40",
   "status": "proved",
   "theorems": [
    "C40_names_distinct",
    "C40_rejected_changes_nothing",
    "C40_append",
    "C40_remove"
   ],
   "note": ""
  },
  {
   "property": "C41",
   "status": "proved",
   "theorems": [
    "C41_combination",
    "C41_associative",
    "C41_operands_unchanged"
   ],
   "note": "The number of toys of the operands is not carried over: the result always has 1000."
  },
  {
   "property": "C42",
   "status": "partial",
   "theorems": [
    "C42_sum",
    "C42_order_irrelevant",
    "C42_negative_yields_partial",
    "C42_negative_yields_refuted",
    "C42_asimov"
   ],
   "note": "NaN on negative yields is proved for numeric POI values; with a dictionary POI the warning text itself raises TypeError."
  },
  {
   "property": "C43",
   "status": "proved",
   "theorems": [
    "C43_minimum_poi",
    "C43_empty"
   ],
   "note": "For members whose minimum is not NaN."
  },
  {
   "property": "C44",
   "status": "partial",
   "theorems": [
    "C44_items_partial",
    "C44_far_negative_refuted"
   ],
   "note": "Integers below -len raise IndexError instead of AnalysisQueryError."
  },
  {
   "property": "C45",
   "status": "partial",
   "theorems": [
    "C45_never_found_refuted",
    "C45_raises_query_error",
    "C45_position_partial"
   ],
   "note": "False: numpy.argmin returns numpy.int64, which is not an int, so the lookup always raises AnalysisQueryError. The position computed is right."
  },
  {
   "property": "C46",
   "status": "partial",
   "theorems": [
    "C46_weighted_mean",
    "C46_start_given",
    "C46_start_inside_partial",
    "C46_start_inside_refuted",
    "C46_below_other_minimum_refuted",
    "C46_zero_sigma_is_nan",
    "C46_asimov_start_partial",
    "C46_asimov_start_refuted"
   ],
   "note": "The mean is as stated; the start can lie below the lower bound, and is NaN when a member reports sigma 0."
  },
  {
   "property": "C47",
   "status": "partial",
   "theorems": [
    "C47_registered_unusable_refuted",
    "C47_installed_usable_partial"
   ],
   "note": "False: get_backend tests isinstance on the class and calls load() on it, so every registered class raises AttributeError. Proved for installed plugins."
  },
  {
   "property": "C48",
   "status": "proved",
   "theorems": [
    "C48_registration",
    "C48_names_kept",
    "C48_entries_kept",
    "C48_rescan"
   ],
   "note": "A rescan also keeps plugins no longer installed and replaces a registered class by an installed plugin of the same name."
  },
  {
   "property": "C49",
   "status": "proved",
   "theorems": [
    "C49_terms_add",
    "C49_expected_concatenated",
    "C49_normal_density",
    "C49_poisson_probability",
    "C49_joint_likelihood",
    "C49_shared_density",
    "C49_joint_density",
    "C49_selection",
    "C49_main_model",
    "C49_main_normal"
   ],
   "note": "A constraint model without terms has no expected data (IndexError)."
  },
  {
   "property": "C50",
   "status": "partial",
   "theorems": [
    "C50_difference",
    "C50_same_log_prob_partial",
    "C50_same_log_prob_refuted",
    "C50_main_model_agrees"
   ],
   "note": "False for the distribution class: the function form clips log det at 1e-20. True for log det >= 1e-20, and in the main model, which never uses the clipped form."
  },
  {
   "property": "C51",
   "status": "partial",
   "theorems": [
    "C51_history",
    "C51_threads_partial",
    "C51_threads_refuted"
   ],
   "note": "Every sequential history proved; overlapping threads overwrite the shared mean."
  },
  {
   "property": "C52",
   "status": "partial",
   "theorems": [
    "C52_buildable_partial",
    "C52_other_case_key_error",
    "C52_case_insensitive_refuted",
    "C52_refused"
   ],
   "note": "False: other spellings pass validation and raise KeyError."
  },
  {
   "property": "C53",
   "status": "proved",
   "theorems": [
    "C53_threshold",
    "C53_callable",
    "C53_negative_bin_refuted",
    "C53_simple"
   ],
   "note": "The second theorem shows the condition on the signs is needed."
  },
  {
   "property": "C54",
   "status": "partial",
   "theorems": [
    "C54_config_partial",
    "C54_config_refuted",
    "C54_simple_partial",
    "C54_simple_refuted"
   ],
   "note": "False: unless the upper bound is exactly 10 the lower bound is 0 although negative signal was allowed. Everything else proved."
  },
  {
   "property": "C55",
   "status": "proved",
   "theorems": [
    "C55_layout",
    "C55_disjoint_in_range",
    "C55_simple",
    "C55_poisson",
    "C55_simple_fails"
   ],
   "note": "Names exist only when there are signal parameters or signal uncertainties. The simple backends always name their parameters, but for the Poisson backend with uncertainties."
  },
  {
   "property": "C56",
   "status": "partial",
   "theorems": [
    "C56_unused_partial",
    "C56_no_effect_refuted",
    "C56_simple_unused",
    "C56_simple_refuted"
   ],
   "note": "False: the parameters are added to the model (documented as ignored). They never change the likelihood or the expected yields."
  },
  {
   "property": "C57",
   "status": "partial",
   "theorems": [
    "C57_alive_partial",
    "C57_alive_refuted"
   ],
   "note": "False for negative yields (reported dead) and for signal functions (always alive). Proved for non-negative arrays."
  },
  {
   "property": "C58",
   "status": "partial",
   "theorems": [
    "C58_sampler_partial",
    "C58_modifiers_refuted",
    "C58_one_bin_refuted"
   ],
   "note": "False: with signal-uncertainty modifiers sampling auxiliary data always raises IndexError; with a correlated background it raises for one bin or one draw. Proved in all other cases; only array shapes are modelled."
  },
  {
   "property": "C59",
   "status": "partial",
   "theorems": [
    "C59_first_bins_partial",
    "C59_asimov_data_partial",
    "C59_simple_refuted"
   ],
   "note": "Proved for the default backends; the simple backends use all entries."
  },
  {
   "property": "C60",
   "status": "partial",
   "theorems": [
    "C60_constraint_partial",
    "C60_constraint_actual",
    "C60_constraint_refuted",
    "C60_default_exact"
   ],
   "note": "False: the registered function is b + theta*b, i.e. theta >= -1, not b + theta*sigma. Exact for the default backends."
  },
  {
   "property": "C61",
   "status": "partial",
   "theorems": [
    "C61_positive",
    "C61_symmetric_partial",
    "C61_symmetric_refuted",
    "C61_envelopes"
   ],
   "note": "Positivity proved; uncertainties below 1e-5 are enlarged to 1e-5."
  },
  {
   "property": "C62",
   "status": "proved",
   "theorems": [
    "C62_accepted",
    "C62_documented",
    "C62_factors"
   ],
   "note": ""
  },
  {
   "property": "C63",
   "status": "partial",
   "theorems": [
    "C63_layout",
    "C63_names_distinct_partial",
    "C63_names_distinct_refuted"
   ],
   "note": "Layout and counts proved. Names can repeat: equal modifier names, or a normalization \"a_0\" beside a shape \"a\"."
  },
  {
   "property": "C64",
   "status": "proved",
   "theorems": [
    "C64_moments",
    "C64_condition_violated"
   ],
   "note": "The moments are those of A + B t + C t^2 with t standard normal, as improper integrals. Bins violating the condition become Gaussian."
  },
  {
   "property": "C65",
   "status": "partial",
   "theorems": [
    "C65_symmetric",
    "C65_equation_partial",
    "C65_diagonal_partial",
    "C65_unit_diagonal_refuted",
    "C65_sign_refuted"
   ],
   "note": "Symmetry proved. False otherwise: every C is moved by 1e-5, so the diagonal is always below 1 and the equation holds only with the moved C; for a negative discriminant the sign of the covariance is lost."
  },
  {
   "property": "C66",
   "status": "partial",
   "theorems": [
    "C66_density",
    "C66_about_mode_partial",
    "C66_bins_partial",
    "C66_central_refuted",
    "C66_central_exists"
   ],
   "note": "The value is the third moment about the mode, not about the mean: it is the central moment only for equal widths."
  },
  {
   "property": "C67",
   "status": "proved",
   "theorems": [
    "C67_correlation_recovered",
    "C67_covariance_recovered",
    "C67_structure_kept",
    "C67_entries"
   ],
   "note": "Also positive semi-definiteness; exact arithmetic."
  },
  {
   "property": "C68",
   "status": "partial",
   "theorems": [
    "C68_conserves_partial",
    "C68_entries",
    "C68_out_of_range_refused",
    "C68_overlap_rejected_refuted",
    "C68_negative_index_refuted"
   ],
   "note": "Overlapping groups are accepted and double count (the check compares a set with itself); a bin named by a negative index is counted again as unmerged. Everything else proved."
  },
  {
   "property": "C69",
   "status": "proved",
   "theorems": [
    "C69_equivalence",
    "C69_hash",
    "C69_names",
    "C69_booleans_not_transitive",
    "C69_booleans_hash",
    "C69_symmetric"
   ],
   "note": "With booleans, outside the claim, equality is neither transitive nor compatible with hashing."
  },
  {
   "property": "C70",
   "status": "partial",
   "theorems": [
    "C70_threshold_partial",
    "C70_threshold_refuted",
    "C70_two_parameters_refuted"
   ],
   "note": "False: the threshold is nll_min + chi2.ppf(CL), not nll_min + chi2.ppf(CL)/2. With two parameters a contour requested at level L has level 1 - (1 - L)^2."
  },
  {
   "property": "C71",
   "status": "partial",
   "theorems": [
    "C71_radial_partial",
    "C71_exact_point_nearby",
    "C71_bounds_refuted"
   ],
   "note": "Every radial point is within the root finder tolerance of a crossing of the threshold on its ray. Bounds hold (up to 1e-30 of the distance) only if the minimum itself is inside them; refuted for user bounds that exclude the fit."
  },
  {
   "property": "C72",
   "status": "partial",
   "theorems": [
    "C72_walk_partial",
    "C72_run_partial",
    "C72_tangent",
    "C72_bounds_refuted",
    "C72_level_refuted"
   ],
   "note": "Each walked point ends a Newton iteration that converged, hit a flat gradient or ran out of iterations; all but the first are within bounds; momenta are tangent. False in general: the first point is not checked against the bounds and unconverged points are returned."
  },
  {
   "property": "C73",
   "status": "proved",
   "theorems": [
    "C73_basins",
    "C73_global_minimum"
   ],
   "note": ""
  },
  {
   "property": "C74",
   "status": "partial",
   "theorems": [
    "C74_seeds_partial",
    "C74_knn_distance",
    "C74_zero_seeds_refuted",
    "C74_single_point_refuted"
   ],
   "note": "Holds for n_seeds >= 1 and at least two points. With n_seeds = 0 all points are returned, with a single point none."
  },
  {
   "property": "C75",
   "status": "proved",
   "theorems": [
    "C75_unprofiled",
    "C75_profiled",
    "C75_likelihood"
   ],
   "note": "For distinct indices; see C90 for repeated ones."
  },
  {
   "property": "C76",
   "status": "proved",
   "theorems": [
    "C76_restored",
    "C76_restored_any_body",
    "C76_disable_restored_any_body",
    "C76_messages",
    "C76_firsts",
    "C76_below_level"
   ],
   "note": "Messages for straight-line bodies on normal exit; see C98 for exceptional exit."
  },
  {
   "property": "C77",
   "status": "partial",
   "theorems": [
    "C77_every_other_partial",
    "C77_one_handler_refuted",
    "C77_root_handlers"
   ],
   "note": "False: handlers are removed from the list that is iterated, so every other one stays; exactly one remains only if at most one was attached."
  },
  {
   "property": "C78",
   "status": "partial",
   "theorems": [
    "C78_only_valid_data",
    "C78_damage_ignored",
    "C78_once_a_day",
    "C78_requests",
    "C78_crash_yields_no_wrong_data",
    "C78_crash_after_write",
    "C78_failed_write_refuted",
    "C78_race_refuted"
   ],
   "note": "False in one respect: after a failed write all earlier files are still deleted, and two processes can delete each other's file."
  },
  {
   "property": "C79",
   "status": "proved",
   "theorems": [
    "C79_engine_selection"
   ],
   "note": "str.lower modelled on ASCII."
  },
  {
   "property": "C80",
   "status": "proved",
   "theorems": [
    "C80_requested_parameters"
   ],
   "note": ""
  },
  {
   "property": "C81",
   "status": "partial",
   "theorems": [
    "C81_sigma_mu_partial",
    "C81_sigma_mu_value",
    "C81_sigma_mu_refuted",
    "C81_zero_sigma_at_zero_poi",
    "C81_hessian_first"
   ],
   "note": "False: the code divides mu, not |mu - mu_prime|, so the result is negative for mu < 0 and 0 at mu = 0. Proved for mu > 0."
  },
  {
   "property": "C82",
   "status": "partial",
   "theorems": [
    "C82_pairwise_combination",
    "C82_cross_section_lost",
    "C82_keeps_settings_refuted"
   ],
   "note": "Name and errors as stated; cross section and toys are lost."
  },
  {
   "property": "C83",
   "status": "partial",
   "theorems": [
    "C83_history_independent_partial",
    "C83_history_independent_refuted"
   ],
   "note": "False for classes without a name: the first look-up assigns one. Proved when every class has a name."
  },
  {
   "property": "C84",
   "status": "proved",
   "theorems": [
    "C84_set_optimiser"
   ],
   "note": ""
  },
  {
   "property": "C85",
   "status": "partial",
   "theorems": [
    "C85_log_once_partial",
    "C85_written",
    "C85_log_once_refuted"
   ],
   "note": "The memory holds ten messages; after ten others the message is logged again."
  },
  {
   "property": "C86",
   "status": "proved",
   "theorems": [
    "C86_dataset"
   ],
   "note": ""
  },
  {
   "property": "C87",
   "status": "proved",
   "theorems": [
    "C87_objective"
   ],
   "note": ""
  },
  {
   "property": "C88",
   "status": "proved",
   "theorems": [
    "C88_asimov_minimum"
   ],
   "note": "For correlated backgrounds under the hypothesis that the inverse correlation matrix is positive semi-definite."
  },
  {
   "property": "C89",
   "status": "proved",
   "theorems": [
    "C89_expected_yields",
    "C89_simple_yields"
   ],
   "note": ""
  },
  {
   "property": "C90",
   "status": "partial",
   "theorems": [
    "C90_dof_partial",
    "C90_duplicates_refuted"
   ],
   "note": "Holds for lists without repetitions. Repeated indices are counted twice in dof and make the likelihood vector too long."
  },
  {
   "property": "C91",
   "status": "proved",
   "theorems": [
    "C91_expansion_terminates",
    "C91_bracket"
   ],
   "note": ""
  },
  {
   "property": "C92",
   "status": "proved",
   "theorems": [
    "C92_value_error"
   ],
   "note": "Levels are real numbers here; a NaN level passes the check in the code (both comparisons are false) and is not modelled."
  },
  {
   "property": "C93",
   "status": "partial",
   "theorems": [
    "C93_profiling_refuted",
    "C93_dictionaries_partial",
    "C93_profile_partial",
    "C93_profile_failed"
   ],
   "note": "False: constraints are subscripted as dictionaries, so every backend with scipy constraint objects (all default backends) fails with TypeError. Holds for dictionary constraints."
  },
  {
   "property": "C94",
   "status": "proved",
   "theorems": [
    "C94_flags"
   ],
   "note": ""
  },
  {
   "property": "C95",
   "status": "proved",
   "theorems": [
    "C95_schedule"
   ],
   "note": ""
  },
  {
   "property": "C96",
   "status": "partial",
   "theorems": [
    "C96_whitened",
    "C96_step_bounded",
    "C96_coordinate",
    "C96_documented_coordinate_refuted"
   ],
   "note": "Proved over every real field (no rounding) for the code; only the documented inverse L (theta - anchor) is wrong, the inverse is L^T (theta - anchor)."
  },
  {
   "property": "C97",
   "status": "proved",
   "theorems": [
    "C97_profiled_information",
    "C97_fallback_frozen"
   ],
   "note": ""
  },
  {
   "property": "C98",
   "status": "partial",
   "theorems": [
    "C98_lost_refuted",
    "C98_kept_partial",
    "C98_failing_stream"
   ],
   "note": "False: on an exception nothing that was captured is written."
  },
  {
   "property": "C99",
   "status": "partial",
   "theorems": [
    "C99_never_raises_partial",
    "C99_malformed_refuted"
   ],
   "note": "False inside capture_logs: a record whose arguments do not fit raises."
  },
  {
   "property": "C100",
   "status": "partial",
   "theorems": [
    "C100_one_handler_partial",
    "C100_two_handlers_refuted"
   ],
   "note": "False: formatting modifies the record, a second handler shows the prefix twice."
  },
  {
   "property": "C101",
   "status": "proved",
   "theorems": [
    "C101_asymptotic_exclusion"
   ],
   "note": "Finite fits; NaN and infinite fits are covered by C16."
  },
  {
   "property": "C102",
   "status": "proved",
   "theorems": [
    "C102_toy_exclusion"
   ],
   "note": "numpy.percentile assumed to interpolate the sorted sample (hypothesis), shown for the instance in C15_percentile_interpolates."
  },
  {
   "property": "C103",
   "status": "partial",
   "theorems": [
    "C103_chi_square_exclusion_partial",
    "C103_only_ratio_refuted"
   ],
   "note": "False: two models with the same ratio get different levels. Proved: the exact value. The switch between the linear and quadratic form is the reverse of the asymptotic calculator's; the documentation also says this calculator returns a single expected value, it returns five."
  },
  {
   "property": "C104",
   "status": "partial",
   "theorems": [
    "C104_search_starts",
    "C104_documented_start_refuted"
   ],
   "note": "The documented formula is not used for a negative best fit (0 replaces it) nor for one near zero (sigma is then 1), starts are raised to 1e-10, and an explicit start of 0 counts as missing when the other is None. Proved: the exact start for every call."
  },
  {
   "property": "C105",
   "status": "partial",
   "theorems": [
    "C105_bracket_and_solve_partial",
    "C105_nan_values_refuted",
    "C105_exact_zeros_refuted"
   ],
   "note": "Proved: where the walks stop and which bracket is handed to the root finder. False for NaN values (handed to the root finder, whose ValueError escapes) and when both ends are exact roots (NaN is returned)."
  },
  {
   "property": "C106",
   "status": "partial",
   "theorems": [
    "C106_exclusion_is_level",
    "C106_limit_separates_partial",
    "C106_limit_is_boundary_partial",
    "C106_all_excluded_refuted"
   ],
   "note": "Proved: both calls evaluate the same function of the signal strength; and, when the likelihoods do not rise beyond their best fits (proved for linear models in C134), every strength beyond the limit is excluded and every smaller one allowed, over the whole range and up to the solver tolerance, with a root finder that answers with a sign change. False in general: a signal so strong that 1e-10 is already excluded is reported as an infinite limit, as if nothing were excluded."
  },
  {
   "property": "C107",
   "status": "partial",
   "theorems": [
    "C107_single_value",
    "C107_difference",
    "C107_non_negative_partial",
    "C107_default_negative_refuted"
   ],
   "note": "Non-negativity is false with the default allow_negative_signal=False for negative mu, even with an exact fit; proved for strengths the fit was allowed to visit."
  },
  {
   "property": "C108",
   "status": "partial",
   "theorems": [
    "C108_scan_partial",
    "C108_dictionary_scan",
    "C108_scan_equals_single_refuted"
   ],
   "note": "False: scans store likelihoods in single precision (a likelihood of 2^24+1 is off by 1, chi2 by 2). Proved: one value per point with an explicit error bound, the dictionary handed to the likelihood for each point, and refusal of two lists. Overflow to infinity in single precision is not modelled."
  },
  {
   "property": "C109",
   "status": "partial",
   "theorems": [
    "C109_pull_partial",
    "C109_dictionary_refuted",
    "C109_square_refuted"
   ],
   "note": "A dictionary raises TypeError although documented; at mu = mu_hat the pull is 0 whatever the likelihood; a fixed-strength likelihood below the minimum gives NaN. Proved otherwise. Lists are not modelled."
  },
  {
   "property": "C110",
   "status": "proved",
   "theorems": [
    "C110_unimodal_profile",
    "C110_unimodal_nuisance",
    "C110_falls_and_rises",
    "C110_gaussian_profile"
   ],
   "note": "Assumes of the root finders that they answer, and answer with a sign change, on a bracket. The range named in the property is spelled out in the hypotheses: window k+1 of at most four lies within the hard limits and its ends are above the threshold; the interval exceeds the tolerance by a margin d."
  },
  {
   "property": "C111",
   "status": "partial",
   "theorems": [
    "C111_crossings_missed_refuted",
    "C111_told_apart_partial",
    "C111_windows_partial"
   ],
   "note": "False with the default three scan points: a profile with six crossings in [-6, 6] gets two values. C111_windows_partial: for a profile of any shape fitted at its lowest point, for the parameter of interest or a nuisance parameter and for all three kinds of limits, when neighbouring scan points have at most one crossing between them and one of the four windows reaches the threshold on the sides asked for, every crossing on these sides of the window that ends the search is returned and nothing else. C111_told_apart_partial is the two-sided case in the first window. What is returned are genuine crossings (C21) and every sign change between neighbouring scan points is returned (C22). Fits that are not at the lowest point are the subject of C112."
  },
  {
   "property": "C112",
   "status": "partial",
   "theorems": [
    "C112_best_fit_outside_interval_refuted",
    "C112_any_shape_partial",
    "C111_windows_partial"
   ],
   "note": "False: when the refinement finds a deeper minimum, a missing side is searched around the fitted value instead, and the interval can begin above the minimum. C112_any_shape_partial: for a profile of any shape fitted at its lowest point, when one of the four windows reaches the threshold on both sides, the values returned begin below the fit and end above it. Missing: fits that are not at the lowest point, where it is false. C111_windows_partial has the same for one-sided limits and nuisance parameters when the scan tells the crossings apart."
  },
  {
   "property": "C113",
   "status": "partial",
   "theorems": [
    "C113_end_found_partial",
    "C113_fit_at_zero_partial",
    "C113_end_missed_refuted"
   ],
   "note": "False: with four scan points the upper limit of a parabola with interval [9.9, 10.1] and uncertainty estimate 1 is NaN (the scan steps over the interval, and the fallback halves its inner point past it). Proved for limit types left and right when the interval reaches 1.5 sigma on the side away from zero, and for fitted values within 1e-8 of zero when the end is at least 1e-5 and not exactly 1 away from zero."
  },
  {
   "property": "C114",
   "status": "partial",
   "theorems": [
    "C114_availability",
    "C114_joined",
    "C114_empty_refuted"
   ],
   "note": "False for a combination without members, which offers both calculators although using them raises ValueError. Proved for all others."
  },
  {
   "property": "C115",
   "status": "proved",
   "theorems": [
    "C115_names",
    "C115_bounds",
    "C115_lookup"
   ],
   "note": ""
  },
  {
   "property": "C116",
   "status": "proved",
   "theorems": [
    "C116_directions",
    "C116_starts"
   ],
   "note": "Assumes of brentq that its answer is a root in the bracket (hypothesis, met by the instance in C116_example). Directions are compared in the order of candidates when equally covered."
  },
  {
   "property": "C117",
   "status": "proved",
   "theorems": [
    "C117_sampled_at",
    "C117_tested_value",
    "C117_no_sampler"
   ],
   "note": "The fit is the oracle of C33; its result is what the sampler receives."
  },
  {
   "property": "C118",
   "status": "partial",
   "theorems": [
    "C118_standard_deviation_partial",
    "C118_variance_refuted",
    "C118_saddle_refuted"
   ],
   "note": "False: the value is the standard deviation, the square root of the documented variance, and NaN where the likelihood curves upward. Assumes of numpy.linalg.inv that it returns an inverse (per call)."
  },
  {
   "property": "C119",
   "status": "proved",
   "theorems": [
    "C119_label",
    "C119_captured",
    "C119_levels_told_apart"
   ],
   "note": ""
  },
  {
   "property": "C120",
   "status": "partial",
   "theorems": [
    "C120_own_object_partial",
    "C120_copy_refuted"
   ],
   "note": "False for copies (copy.copy, copy.deepcopy) of an object that has a __dict__ and whose method was already used: the copy runs the method on the original. Proved for all histories without such copies, including reuse of addresses, super() and racing threads."
  },
  {
   "property": "C121",
   "status": "partial",
   "theorems": [
    "C121_private_cache_partial",
    "C121_values",
    "C121_first_use_race_refuted"
   ],
   "note": "False when two threads make the first use of an object with a __dict__: each gets its own cache and the same input is computed twice. Proved for histories without that race, for objects whose contents do not change (the other case is C124)."
  },
  {
   "property": "C122",
   "status": "partial",
   "theorems": [
    "C122_definition_partial",
    "C122_slots",
    "C122_override_lost_refuted",
    "C122_super_refuted"
   ],
   "note": "False for subclasses with a __dict__: after super().method() the override is no longer run, and with a cached override super().method() is the override itself. Proved for objects without a __dict__ in all histories, and for all objects in histories without super()."
  },
  {
   "property": "C123",
   "status": "partial",
   "theorems": [
    "C123_freed_partial",
    "C123_never_freed_refuted",
    "C123_models_accumulate_refuted"
   ],
   "note": "False for objects without a __dict__, as StatisticalModel itself: the table of the descriptor keeps them alive for ever, weakly referenceable or not. Proved for objects with a __dict__."
  },
  {
   "property": "C124",
   "status": "partial",
   "theorems": [
    "C124_after_clear_partial",
    "C124_stale_refuted"
   ],
   "note": "False: after a change in place the old result is returned until the cache is cleared or the entry evicted. Proved for the first call after cache_clear."
  },
  {
   "property": "C125",
   "status": "partial",
   "theorems": [
    "C125_levels",
    "C125_environment_partial",
    "C125_environment_refuted"
   ],
   "note": "False for the environment variable: a number above 3 raises KeyError and anything that is no integer ValueError, at import. set_log_level itself is proved."
  },
  {
   "property": "C126",
   "status": "partial",
   "theorems": [
    "C126_reported_partial",
    "C126_beta_reported",
    "C126_only_on_evidence",
    "C126_prerelease_refuted",
    "C126_newer_refuted"
   ],
   "note": "False: only a prerelease named exactly \"beta\" is recognised, the pinned version 0.2.7-b3 is not; a beta is never told of a newer version; an interpreter that is a prerelease (3.13.0rc1) silences the check. semantic_version.SimpleSpec is a parameter."
  },
  {
   "property": "C127",
   "status": "proved",
   "theorems": [
    "C127_off",
    "C127_on",
    "C127_import_fails_only"
   ],
   "note": "The failures of the log level variable are C125."
  },
  {
   "property": "C128",
   "status": "partial",
   "theorems": [
    "C128_listed",
    "C128_order_partial",
    "C128_order_refuted"
   ],
   "note": "False when two packages install one name: the order of a set decides. Proved for distinct names."
  },
  {
   "property": "C129",
   "status": "proved",
   "theorems": [
    "C129_listed",
    "C129_order"
   ],
   "note": "Order independence supposes that one distribution has one version."
  },
  {
   "property": "C130",
   "status": "partial",
   "theorems": [
    "C130_entries",
    "C130_complete_partial",
    "C130_lost_partial",
    "C130_incomplete_refuted"
   ],
   "note": "False in one respect: a lost connection ends the search without a trace in the result. Everything else is proved for every behaviour of the services. textwrap.indent is a parameter."
  },
  {
   "property": "C131",
   "status": "partial",
   "theorems": [
    "C131_cite_partial",
    "C131_key_partial",
    "C131_key_refuted",
    "C131_connection_refuted"
   ],
   "note": "False: the key is replaced wherever it occurs, and a failure of one service loses the entry of the other. Proved: the result is the first entry and the second with its key replaced everywhere; only the key changes if it occurs once."
  },
  {
   "property": "C132",
   "status": "proved",
   "theorems": [
    "C132_grows",
    "C132_grows_strictly"
   ],
   "note": "The hypothesis (no rise beyond the best fit, and with the default statistic beyond zero) is proved for the linear backends in C134."
  },
  {
   "property": "C133",
   "status": "proved",
   "theorems": [
    "C133_default_convex",
    "C133_default_strictly_convex",
    "C133_simple_convex"
   ],
   "note": "Bins with events are required to have yields of at least 1e-20, where the code cuts yields off; bins without events are unrestricted. Correlation matrices are required to have a non-negative (strictly: positive) inverse."
  },
  {
   "property": "C134",
   "status": "proved",
   "theorems": [
    "C134_best_fit_unique",
    "C134_profile_falls",
    "C134_levels_grow"
   ],
   "note": "The fits are assumed to be exact minimisers over the parameters with positive yields (C133), with or without the constraint of the backend that backgrounds are not negative (argument enf); that the optimizer finds them is not claimed."
  },
  {
   "property": "C135",
   "status": "proved",
   "theorems": [
    "C135_levels",
    "C135_limits",
    "C135_correlated_levels",
    "C135_correlated_limits",
    "C135_limit_exists"
   ],
   "note": "Exact fits are assumed, bounded below at zero or at any negative strength and not above (estimates above 10 are cut by the backends, see C169_limit_refuted). Limits are required to lie in the range searched, [1e-10, 1e5]."
  },
  {
   "property": "C136",
   "status": "proved",
   "theorems": [
    "C136_objective",
    "C136_minimum_strength",
    "C136_levels",
    "C136_limits"
   ],
   "note": "Fits are exact minimisers. Likelihoods for the limits fall beyond the best fit, strictly for the Asimov data."
  },
  {
   "property": "C137",
   "status": "proved",
   "theorems": [
    "C137_objective",
    "C137_expected",
    "C137_profile",
    "C137_combiner",
    "C137_minimum_strength"
   ],
   "note": "For uncorrelated backgrounds. In C137_combiner the members report their exact profiles."
  },
  {
   "property": "C138",
   "status": "proved",
   "theorems": [
    "C138_objective",
    "C138_fits"
   ],
   "note": "Inverse and determinant of a reordered correlation matrix are assumed to be those of the matrix, reordered: mathematics of numpy.linalg."
  },
  {
   "property": "C139",
   "status": "proved",
   "theorems": [
    "C139_control_region",
    "C139_levels"
   ],
   "note": "Fits are exact minimisers; for uncorrelated backgrounds."
  },
  {
   "property": "C140",
   "status": "partial",
   "theorems": [
    "C140_minuit",
    "C140_scipy_partial",
    "C140_method_refuted",
    "C140_minuit_constraints_refuted"
   ],
   "note": "False in general: scipy methods that do not take constraints (L-BFGS-B, for instance) ignore fixed parameters, and Minuit ignores the constraints of the model, in both cases without a word. Proved for Minuit without constraints, and for scipy methods that take constraints when no warning is logged. What scipy and Minuit promise is an assumption (EngineSpec)."
  },
  {
   "property": "C141",
   "status": "partial",
   "theorems": [
    "C141_logged",
    "C141_minuit_text",
    "C141_answer_silent_refuted"
   ],
   "note": "Reported in the log only: the answer of a fit that failed cannot be told from one that converged."
  },
  {
   "property": "C142",
   "status": "partial",
   "theorems": [
    "C142_restored_partial",
    "C142_transparent",
    "C142_threads_partial",
    "C142_threads_refuted"
   ],
   "note": "True in one thread, and in several as long as calls are nested. Overlapping calls of two threads can leave a hook nobody reads, and all later warnings of the program vanish."
  },
  {
   "property": "C143",
   "status": "partial",
   "theorems": [
    "C143_logged_partial",
    "C143_fit_partial",
    "C143_failing_call_refuted",
    "C143_fit_refuted"
   ],
   "note": "False when the call raises (all warnings are lost) and for RuntimeWarnings issued during a scipy fit, such as the combiner's about negative yields. Proved for calls that return and contain no fit; other warnings of a fit are not touched by it."
  },
  {
   "property": "C144",
   "status": "proved",
   "theorems": [
    "C144_forwarded",
    "C144_shadowed"
   ],
   "note": "In particular a backend with a parameter of one of the three names never receives it by keyword."
  },
  {
   "property": "C145",
   "status": "partial",
   "theorems": [
    "C145_fresh_name_partial",
    "C145_taken_name_refuted"
   ],
   "note": "Names are only checked by append: a name that is taken is accepted, and then the Asimov data of one model are used for the other. Proved for names nobody has."
  },
  {
   "property": "C146",
   "status": "proved",
   "theorems": [
    "C146_expected_levels",
    "C146_expected_limits",
    "C146_limit_exists"
   ],
   "note": "For default.poisson with s >= 0 and b above the floor of 1e-20. The limits assume positive yields down to the smallest strength fitted and a root finder that keeps its promise."
  },
  {
   "property": "C147",
   "status": "proved",
   "theorems": [
    "C147_observed_level",
    "C147_expected_significance"
   ],
   "note": "For default.poisson; mu >= 0 and the alternative statistic."
  },
  {
   "property": "C148",
   "status": "proved",
   "theorems": [
    "C148_more_events",
    "C148_more_events_limit",
    "C148_more_events_significance",
    "C148_more_events_bins",
    "C148_more_events_limit_bins",
    "C148_more_events_significance_bins",
    "C148_more_events_fit"
   ],
   "note": "default.poisson, any number of bins; with several bins the fit must stay where all yields are positive (in one bin only the limit needs that)."
  },
  {
   "property": "C149",
   "status": "proved",
   "theorems": [
    "C149_levels",
    "C149_limits",
    "C149_significance"
   ],
   "note": "For default.poisson; added bins come last (C138 covers reordering for the other backends)."
  },
  {
   "property": "C150",
   "status": "partial",
   "theorems": [
    "C150_diagonal_covariance",
    "C150_symmetric_envelopes",
    "C150_narrow_envelopes_refuted",
    "C150_no_uncertainty",
    "C150_no_skew_partial",
    "C150_no_skew_refuted",
    "C150_constructors_accept"
   ],
   "note": "False for envelopes narrower than 1e-5, and for vanishing third moments, where the correlations are shifted by up to 8e-10/(sigma_i sigma_j) and the penalty changes (documented to \"reduce identically\"). Proved for the other pairs, given that the inverse of the unit matrix is itself and its determinant 1."
  },
  {
   "property": "C151",
   "status": "proved",
   "theorems": [
    "C151_expected_levels",
    "C151_expected_limits",
    "C151_limit_exists"
   ],
   "note": "default.uncorrelated_background, pre-fit. Fits are minima over all nuisance parameters that keep the yields above the floor of 1e-20 and, for optimisers that enforce the constraint of the backend (scipy), the backgrounds at or above zero; both kinds are covered (first argument enf), and existence of such fits is proved (apriori_exists)."
  },
  {
   "property": "C152",
   "status": "proved",
   "theorems": [
    "C152_levels",
    "C152_limits",
    "C152_never_better",
    "C152_absolute",
    "C152_scaled"
   ],
   "note": "default.uncorrelated_background and default.correlated_background with an inverse correlation matrix that is positive definite; same reading of fits as C151."
  },
  {
   "property": "C153",
   "status": "partial",
   "theorems": [
    "C153_limits",
    "C153_pulled",
    "C153_discovery_refuted",
    "C153_post_fit_refuted"
   ],
   "note": "True of pre-fit limits. False of pre-fit discovery data (the fit with strength 1 is made to the background and pulled towards it) and of post-fit data for limits (the constraint stays centred at zero, so the pulled background is read as signal)."
  },
  {
   "property": "C154",
   "status": "partial",
   "theorems": [
    "C154_levels_partial",
    "C154_small_uncertainties",
    "C154_levels_refuted"
   ],
   "note": "False as soon as the fit would drive the background of a bin below zero, exactly when b B^2 < mu s (B^2 - b): scipy enforces the constraint of the backend and Minuit ignores it, and all five expected levels are then higher with scipy. Proved in all other cases, in particular for uncertainties of at most sqrt(b). For default.uncorrelated_background, pre-fit."
  },
  {
   "property": "C155",
   "status": "partial",
   "theorems": [
    "C155_expected_levels_partial",
    "C155_as_documented_partial",
    "C155_nothing_excluded",
    "C155_no_limit",
    "C155_nothing_discovered",
    "C155_levels_refuted",
    "C155_constraint_refuted"
   ],
   "note": "False. The constraint registered is theta >= -1, not b + theta sigma >= 0: what counts is the signal beyond sigma_i, not beyond b_i (closed form proved). Without enforcement (Minuit) uncertain bins do not count at all; with an uncertainty in every bin all levels are 0 and all limits infinite. As documented only if each uncertainty equals its background or is zero. Also proved: with an uncertainty in every bin the significance is 0 for any data."
  },
  {
   "property": "C156",
   "status": "partial",
   "theorems": [
    "C156_uncorrelated_partial",
    "C156_at_the_fit_partial",
    "C156_correlated_partial",
    "C156_counting_partial",
    "C156_gaussian_partial",
    "C156_widens",
    "C156_no_events_refuted",
    "C156_no_counts_refuted",
    "C156_free_refuted"
   ],
   "note": "The values are the textbook ones wherever a bin with signal has events. False that it always returns: without events in any bin with signal the Hessian is singular, and the LinAlgError of numpy.linalg.inv leaves sigma_mu and chi2_test, which catch MethodNotAvailable only; with default.poisson and absolute_uncertainties the Hessian is singular for all data (over exact arithmetic), because the backgrounds can undo any change of the strength. Assumed in the statements: automatic differentiation finds second derivatives where they exist, numpy.linalg.inv inverts invertible matrices and raises for others; both hold of concrete instances (hessian_exists, inv1_inverts, inv2_inverts)."
  },
  {
   "property": "C157",
   "status": "proved",
   "theorems": [
    "C157_uncertain_backgrounds",
    "C157_at_the_fit",
    "C157_counting",
    "C157_gaussian",
    "C157_free_backgrounds",
    "C157_uncertainty"
   ],
   "note": "Gradient and Hessian in closed form for six backends, at yields above the floor of 1e-20. Automatic differentiation is a parameter, assumed in the statements to find derivatives where they exist (gradient_exists and hessian_exists are instances, C157_example, C157_fit_example). The documentation says the gradient is with respect to the nuisance parameters; the strength comes first in it."
  },
  {
   "property": "C158",
   "status": "partial",
   "theorems": [
    "C158_interval_partial",
    "C158_upper_limit_partial",
    "C158_precise_refuted",
    "C158_one_sided_refuted"
   ],
   "note": "Two-sided intervals are the textbook ones, and so are default upper limits when a strength of zero is not excluded (also for negative estimates). Two parts are false: one-sided limits use the two-sided threshold and leave (1 - CL)/2 outside; with the default settings the upper limit of a precise measurement, such as 1 +- 0.1 at 68%, is NaN, because the scan starts at zero, steps over the interval, and the fallback halves its inner point past it. Assumed in the statements: fits, root finders, differentiation, inversion and chi2.isf keep their contracts, each met by an instance."
  },
  {
   "property": "C159",
   "status": "partial",
   "theorems": [
    "C159_boundary",
    "C159_every_direction",
    "C159_ellipsoid_partial",
    "C159_ellipsoid_refuted"
   ],
   "note": "For convex likelihoods the radial points are on the boundary of the region below the threshold used, and no drawn direction with a reachable boundary is lost. The region is not the one asked for: the squared distance of the predictions is twice the chi-squared quantile (C70 has the cause, a missing factor 1/2), so that the region is sqrt 2 times too wide in every direction. Assumed in the statements: the root finder keeps its contract (bisection is an instance) and the fit finds the best parameters. Points of the Hamiltonian walk are the subject of C72."
  },
  {
   "property": "C160",
   "status": "partial",
   "theorems": [
    "C160_upper_limit_partial",
    "C160_interval_partial",
    "C160_no_events_refuted"
   ],
   "note": "Proved: default upper limits of any number of bins when a strength of zero is not excluded, with the set of strengths not excluded characterised exactly, and all limit types of one bin with at least one event. Required: counts that are zero or at least 1/20 (so that four windows suffice), search windows within the hard limits, and an interval wider than the tolerance. False without events in the bins with signal: the uncertainty of the strength cannot be computed and the search raises (C156), although the limit is z^2 / (2 sum s). Where a strength of zero is excluded the default search can miss the limit as in C158."
  },
  {
   "property": "C161",
   "status": "proved",
   "theorems": [
    "C161_history",
    "C161_calls",
    "C161_brackets"
   ],
   "note": "The loops are followed for any number of iterations allowed; that they end is C18."
  },
  {
   "property": "C162",
   "status": "proved",
   "theorems": [
    "C162_counts",
    "C162_measurements",
    "C162_correlated",
    "C162_default"
   ],
   "note": "The covariance is given with its inverse, a triangular factor of the inverse and the logarithm of its determinant; yields below the floor of 1e-20 are raised to it, in the likelihood and in the expected data alike."
  },
  {
   "property": "C163",
   "status": "partial",
   "theorems": [
    "C163_average_refuted",
    "C163_average_partial",
    "C163_product",
    "C163_too_small",
    "C163_others_ignored",
    "C163_shapes",
    "C163_rows",
    "C163_sample_refuted"
   ],
   "note": "False: log_prob adds the log-probabilities of the components, so the probabilities are multiplied, which with two or more components is always below their average (C163_too_small); it is right for one component. sample needs an attribute shape that no distribution of the package has; where components have it, each row comes from one of them. That the choice is uniform is up to numpy."
  },
  {
   "property": "C164",
   "status": "proved",
   "theorems": [
    "C164_momentum",
    "C164_step",
    "C164_passes"
   ],
   "note": "For two or more contour parameters and two or more radial points (with fewer there may be nothing to walk from); gradients whose square is below 1e-20 are treated as zero by the code."
  },
  {
   "property": "C165",
   "status": "partial",
   "theorems": [
    "C165_shifts_refuted",
    "C165_symmetric_partial",
    "C165_exactly",
    "C165_vanishes",
    "C165_grows"
   ],
   "note": "False: the width at the nuisance parameter t (in standard deviations) is computed from t minus the background yield. Right exactly if the two uncertainties are equal or the background has one particular value (C165_exactly). With a larger upper uncertainty and a background above t + u l/(u - l) the uncertainty is clipped to 1e-5 (C165_vanishes); with a larger lower one it grows with the root of the background (C165_grows)."
  },
  {
   "property": "C166",
   "status": "partial",
   "theorems": [
    "C166_shifts_refuted",
    "C166_up_partial",
    "C166_down",
    "C166_opposite"
   ],
   "note": "Right upwards for positive yields and uncertainties. Downwards the yield is divided by 1 + l/s, so l - l^2/(s + l) is removed, which is what the formula in the documentation says but not an absolute variation. An uncertainty whose sign differs from that of the yield has no effect: variations that lower one bin while raising others, and all (positive) uncertainties of negative yields, are dropped with a warning."
  },
  {
   "property": "C167",
   "status": "partial",
   "theorems": [
    "C167_auxiliary_refuted",
    "C167_counts",
    "C167_simple_counts",
    "C167_simple_measurements",
    "C167_simple_correlated",
    "C167_auxiliary",
    "C167_auxiliary_unused"
   ],
   "note": "True of counts and measurements. False of auxiliary measurements: they are drawn around zero whatever the nuisance parameters are, and have no effect on the fits to the pseudo-data. That scipy draws from the distribution it is asked for is trusted; with signal uncertainties drawing them raises (C58)."
  },
  {
   "property": "C168",
   "status": "proved",
   "theorems": [
    "C168_ratio",
    "C168_significance",
    "C168_certain",
    "C168_evidence"
   ],
   "note": "The fits are assumed to find the best parameters (fitted, asimov_of). Bins without events are not covered. The expected significance is the same formula for the Asimov data, which are pulled below the full signal (C153)."
  },
  {
   "property": "C169",
   "status": "partial",
   "theorems": [
    "C169_best_fit_refuted",
    "C169_chi2_refuted",
    "C169_normalisation_refuted",
    "C169_limit_refuted",
    "C169_ceiling",
    "C169_significance",
    "C169_below_ten",
    "C169_simple_below_ten",
    "C169_fitted"
   ],
   "note": "True whenever the strength returned is below 10. False beyond: the configuration of the default backends ends the range at 10, so for larger excesses the fit returns 10, chi2 of the best strength is negative, its pull is NaN, the observed significance falls with the normalisation of the signal, and the observed upper limit on a Gaussian measurement mu0 is never below 2 mu0 - 10. The minimiser is assumed to find the best parameters within the bounds it is handed."
  },
  {
   "property": "C170",
   "status": "partial",
   "theorems": [
    "C170_best_fit_refuted",
    "C170_range",
    "C170_below_ten",
    "C170_within",
    "C170_gaussian_start",
    "C170_default_member"
   ],
   "note": "True if the result is below 10 or every member alone is described best by a strength up to 10. False beyond: members with default backends never report more than 10 (C169), so the range of the combination ends at 10 too. The minimiser is assumed to find the best strength in the range."
  },
  {
   "property": "C171",
   "status": "partial",
   "theorems": [
    "C171_limits_refuted",
    "C171_wider_limits_refuted",
    "C171_best_value",
    "C171_best_point",
    "C171_fit_read"
   ],
   "note": "True of the limits of the model. False of limits given by the caller: they do not reach the fit at strength one, so the best point can lie outside them, or a better point inside them is missed. The fit is assumed to find the best parameters inside the limits of the model, descents to end inside the limits they are handed."
  },
  {
   "property": "C172",
   "status": "proved",
   "theorems": [
    "C172_strength",
    "C172_upper_limit",
    "C172_nuisance",
    "C172_fixed_strength"
   ],
   "note": "The fits are assumed to return the profile (profile_along), which is assumed to exist at every value; the examples construct it for one bin. With zero strength disfavoured the default upper limit can be stepped over (C158)."
  },
  {
   "property": "C173",
   "status": "proved",
   "theorems": [
    "C173_convex_members",
    "C173_default_member",
    "C173_gaussian_members"
   ],
   "note": "The best strength handed to the search is assumed to be best of all; where the range of the fit ends below it, see C170. That the fits of the members return their profiles is assumed (profile_along)."
  },
  {
   "property": "C174",
   "status": "partial",
   "theorems": [
    "C174_upper_limits_partial",
    "C174_intervals",
    "C174_zero_confidence_refuted"
   ],
   "note": "False for confidence level 0, which every strength above zero reaches: the bracket search finds no change of sign and the limit is infinite, while the one at two standard deviations is finite. Proved for upper limits when the smaller level is not reached at the floor 1e-10 of the search and the starts are in order, and for intervals of profiles that fall to one minimum and rise after it."
  },
  {
   "property": "C175",
   "status": "proved",
   "theorems": [
    "C175_bands_ascend"
   ],
   "note": "The likelihoods fall beyond their best fits, as those of linear models do (C134)."
  },
  {
   "property": "C176",
   "status": "proved",
   "theorems": [
    "C176_levels",
    "C176_limits"
   ],
   "note": "Likelihoods of any shape; the starts of the search are in order. Up to the tolerance of the root finder."
  },
  {
   "property": "C177",
   "status": "proved",
   "theorems": [
    "C177_levels",
    "C177_limits",
    "C177_counting",
    "C177_uncertain",
    "C177_uncertain_limits"
   ],
   "note": "C177_levels and C177_limits for any pair of fits with the same best fit and likelihood ratios; C177_counting, C177_uncertain and C177_uncertain_limits show that the backends produce such fits when the data equal the backgrounds (for uncertain backgrounds: symmetric uncertainties). The statistic is zero below the best fit, so likelihoods at negative strengths do not matter."
  },
  {
   "property": "C178",
   "status": "partial",
   "theorems": [
    "C178_measurements_partial",
    "C178_correlated_partial",
    "C178_counting_partial",
    "C178_ends_refuted"
   ],
   "note": "Only within the range of the fit: results above 10 become 10, and results below the strength at which the first yield vanishes become that strength, although Gaussian bins have no such limit. The minimiser is assumed to find the best strength in the range."
  },
  {
   "property": "C179",
   "status": "partial",
   "theorems": [
    "C179_recent_partial",
    "C179_asked_again",
    "C179_error_refuted"
   ],
   "note": "False: the HTTP status is not looked at. An error with a JSON body is stored like an answer, and for the next 24 hours nothing is asked and nothing is said, even if the index is back and has a newer version. True when everything the index says is a success; lost connections and bodies that are no JSON are asked again."
  },
  {
   "property": "C180",
   "status": "partial",
   "theorems": [
    "C180_levels_partial",
    "C180_more_members_partial",
    "C180_limits_partial",
    "C180_uncertain_members",
    "C180_counting_members",
    "C180_post_fit_refuted"
   ],
   "note": "False for post-fit data: the Asimov data of a member with an excess are described best by a positive strength, and a combination with it expects to exclude nothing at small strengths at which another member alone does. True when the Asimov data of no member are described better by a larger strength than by a smaller one, as holds for pre-fit data of models with symmetric uncertainties and for counting experiments with either kind of data. For the limits the observed likelihood is taken to fall beyond its best strength."
  },
  {
   "property": "C181",
   "status": "partial",
   "theorems": [
    "C181_expected",
    "C181_observed_partial",
    "C181_limit_partial",
    "C181_default_models",
    "C181_pre_fit",
    "C181_no_less_than_the_ratio",
    "C181_jump_refuted"
   ],
   "note": "False for the observed level: where the Asimov data begin to disfavour the strength it jumps from zero to at least one minus the ratio of the likelihoods at the strength and at the best fit; if that is more than the level asked for, the limit is the place of the jump and no strength has the level. True for the expected levels and limits, and for the observed ones where the Asimov data disfavour the strength, as they do at every positive strength for pre-fit data."
  },
  {
   "property": "C182",
   "status": "partial",
   "theorems": [
    "C182_levels_partial",
    "C182_limits_partial",
    "C182_correlated_levels_partial",
    "C182_correlated_limits_partial",
    "C182_statistic_scales",
    "C182_counting_limit",
    "C182_counting_levels",
    "C182_counting_significance",
    "C182_floor_refuted"
   ],
   "note": "Proved for counting experiments, for uncorrelated uncertainties, and for any correlations when no background is below 1e-6 events and at most 1e9 signal events are expected. False in general: next to the floor of 1e-20 of the Poisson yields a strongly correlated bin with a background of 1.01e-20 keeps the smaller experiment from shifting its backgrounds, and twice the data expect lower levels."
  },
  {
   "property": "C183",
   "status": "partial",
   "theorems": [
    "C183_likelihood_partial",
    "C183_asimov_partial",
    "C183_other_backends",
    "C183_given_twice_refuted",
    "C183_asimov_likelihood_partial"
   ],
   "note": "False when a name is given both for a backend and for all, or is that of an argument of the call: Python raises TypeError and no member is asked, even if both values are the same. True otherwise. Options under a name that is no backend type of a member are ignored without notice."
  },
  {
   "property": "C184",
   "status": "proved",
   "theorems": [
    "C184_selected",
    "C184_zero_step",
    "C184_stretch",
    "C184_split",
    "C184_reversed",
    "C184_names"
   ],
   "note": "The result is a tuple of members, not a combination."
  },
  {
   "property": "C185",
   "status": "proved",
   "theorems": [
    "C185_same_answer",
    "C185_new_object",
    "C185_answers",
    "C185_without_copies",
    "C185_own_object_needed_refuted"
   ],
   "note": "Needs computations returning objects made during the call, as the three cached methods of a statistical model do with the built-in backends: the stored object is the one returned, not a copy (C185_own_object_needed_refuted shows a later answer changed otherwise). With copy_on_return=False answers can be changed (C185_without_copies), as documented."
  },
  {
   "property": "C186",
   "status": "partial",
   "theorems": [
    "C186_unchanged_partial",
    "C186_answers_partial",
    "C186_renamed_everywhere",
    "C186_shared_refuted"
   ],
   "note": "False: config() returns the configuration the model itself uses, fixed_poi_bounds() without a value returns its list of bounds, and configurations with other options share its starting point, so that writing into them changes all later fits. Proved: any history of calls and of writes into lists made for the caller (bounds for given values, rescaled bounds, bounds of configurations with other options) leaves the model as built, and renamings are seen everywhere."
  },
  {
   "property": "C187",
   "status": "partial",
   "theorems": [
    "C187_fit_exists",
    "C187_fit_unique",
    "C187_asimov_exists",
    "C187_expected_fits_exist",
    "C187_covariance_refuted"
   ],
   "note": "Existence proved for any number of bins, any data and every strength at which all bins expect events, uniqueness for data without negative entries, if the inverse of the correlation matrix is positive. False otherwise: a covariance matrix that is not positive is accepted, the logarithm of the modulus of its determinant is used, and the likelihood has no maximum at any strength."
  },
  {
   "property": "C188",
   "status": "proved",
   "theorems": [
    "C188_best_strength_exists",
    "C188_best_fit_exists",
    "C188_maximized_exists",
    "C188_level_fits_exist",
    "C188_maximized_unique",
    "C188_any_fit_exists",
    "C188_any_maximized_exists"
   ],
   "note": "Any number of bins, with and without negative strengths. C188_maximized_exists needs no condition on the data; the best strength among all from a given one on (C188_best_strength_exists) is shown for data without negative entries. C188_any_fit_exists and C188_any_maximized_exists add existence for background uncertainties of any kind (asymmetric, third moments), where some parameters are allowed at all."
  },
  {
   "property": "C189",
   "status": "proved",
   "theorems": [
    "C189_curvature"
   ],
   "note": "For external answers of the right shapes (well_shaped). The curvature itself (numerical Hessian and its inverse square root) is an oracle from the full parameter vector to a matrix."
  },
  {
   "property": "C190",
   "status": "proved",
   "theorems": [
    "C190_no_events"
   ],
   "note": "The fit is assumed to find the best parameters (fitted); that it has an answer is C188. The expected significance is not restricted: it depends on the Asimov data."
  }
 ]
}