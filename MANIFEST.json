{
 "claims": [
  {
   "property": "C01",
   "status": "proved",
   "theorems": [
    "C01_driver_counts_exact"
   ],
   "note": ""
  },
  {
   "property": "C02",
   "status": "proved",
   "theorems": [
    "C02_empty_groups_exact_and_constant"
   ],
   "note": ""
  },
  {
   "property": "C03",
   "status": "proved",
   "theorems": [
    "C03_add_value_frame",
    "C03_remove_value_frame"
   ],
   "note": ""
  },
  {
   "property": "C54",
   "status": "partial",
   "theorems": [
    "C54_illegal_add_rejected",
    "C54_illegal_remove_rejected",
    "C54_release_build_detects_zero_add_refuted"
   ],
   "note": "Detected at debug level >= 2; false of release builds (level 0), witness given."
  },
  {
   "property": "C12",
   "status": "proved",
   "theorems": [
    "C12_tracker_bijection",
    "C12_new_id_is_fresh",
    "C12_remove_retires_exactly_one_id"
   ],
   "note": ""
  },
  {
   "property": "C13",
   "status": "partial",
   "theorems": [
    "C13_ids_unique_forever_refuted"
   ],
   "note": "False of the code: Id is uint32_t, the 2^32-th creation reuses id 0. C12 is the part that holds."
  },
  {
   "property": "C15",
   "status": "proved",
   "theorems": [
    "C15_packed_remove",
    "C15_packed_add_remove",
    "C15_packed_remove_out_of_range"
   ],
   "note": ""
  },
  {
   "property": "C16",
   "status": "proved",
   "theorems": [
    "C16_sparse_counter_exact",
    "C16_total_is_sum_of_entries",
    "C16_rename",
    "C16_usable_without_clear_refuted",
    "C16_unchecked_misuse_refuted"
   ],
   "note": "Holds after clear(); without clear() the total is uninitialised (refuted separately)."
  },
  {
   "property": "C17",
   "status": "partial",
   "theorems": [
    "C17_merge_counts_partial",
    "C17_merge_total_refuted"
   ],
   "note": "Counts add; the total counts the argument twice (witness given)."
  },
  {
   "property": "C18",
   "status": "proved",
   "theorems": [
    "C18_sparse_map_refines",
    "C18_illegal_call_reported",
    "C18_unchecked_illegal_call"
   ],
   "note": ""
  },
  {
   "property": "C04",
   "status": "proved",
   "theorems": [
    "C04_cached_scores_fresh",
    "C04_cached_scores_are_direct",
    "C04_score_add_is_restaurant_rule",
    "C04_cached_equals_uncached"
   ],
   "note": "Freshness in every arithmetic; equality with score_add_value in exact arithmetic."
  },
  {
   "property": "C05",
   "status": "proved",
   "theorems": [
    "C05_predictive_normalised"
   ],
   "note": "Exact arithmetic."
  },
  {
   "property": "C06",
   "status": "proved",
   "theorems": [
    "C06_joint_score_is_any_seating",
    "C06_joint_score_exchangeable"
   ],
   "note": "Exact arithmetic; lgamma any function with the Gamma recurrence."
  },
  {
   "property": "C07",
   "status": "proved",
   "theorems": [
    "C07_score_remove_reverses_add"
   ],
   "note": ""
  },
  {
   "property": "C08",
   "status": "partial",
   "theorems": [
    "C08_remove_reverses_add_partial",
    "C08_remove_reverses_add_refuted",
    "C08_remove_from_complete_dataset_refuted"
   ],
   "note": "Holds for groups that were non-empty before the add and data sets not yet complete; false otherwise (sample_size is not decremented), witnesses given."
  },
  {
   "property": "C09",
   "status": "proved",
   "theorems": [
    "C09_assignments_valid",
    "C09_assignments_follow_restaurant_rule"
   ],
   "note": "Bounds and labels in every arithmetic; weights in exact arithmetic."
  },
  {
   "property": "C10",
   "status": "proved",
   "theorems": [
    "C10_assignments_valid",
    "C10_too_many_is_an_error"
   ],
   "note": ""
  },
  {
   "property": "C11",
   "status": "proved",
   "theorems": [
    "C11_counts_exact",
    "C11_independent_of_hash_order",
    "C11_gap_reported",
    "C11_negative_reported"
   ],
   "note": "At debug level >= 2 the code additionally requires contiguous ids."
  },
  {
   "property": "C43",
   "status": "proved",
   "theorems": [
    "C43_discrete_in_range",
    "C43_likelihoods_in_range",
    "C43_empty_is_an_error",
    "C43_discrete_is_inverse_cdf",
    "C43_likelihoods_is_inverse_cdf",
    "C43_scores_is_inverse_cdf"
   ],
   "note": ""
  },
  {
   "property": "C44",
   "status": "proved",
   "theorems": [
    "C44_pair_distinct",
    "C44_pair_uniform",
    "C44_urn_uniform"
   ],
   "note": ""
  },
  {
   "property": "C45",
   "status": "proved",
   "theorems": [
    "C45_dirichlet_is_probability_vector",
    "C45_dirichlet_safe_bounded_below",
    "C45_dirichlet_in_place",
    "C45_beta_safe_range",
    "C45_beta_value"
   ],
   "note": "Exact arithmetic."
  },
  {
   "property": "C46",
   "status": "proved",
   "theorems": [
    "C46_log_sum_exp",
    "C46_empty",
    "C46_likelihoods",
    "C46_probs",
    "C46_shift_invariant",
    "C46_score_of_sample",
    "C46_prob_of_sample"
   ],
   "note": "Exact arithmetic."
  },
  {
   "property": "C50",
   "status": "proved",
   "theorems": [
    "C50_zero",
    "C50_shift",
    "C50_scale",
    "C50_negate",
    "C50_add",
    "C50_negate_and_add",
    "C50_add_add",
    "C50_add_subtract",
    "C50_add_subtract_scalar",
    "C50_multiply_add",
    "C50_map",
    "C50_map_in_place",
    "C50_sum",
    "C50_dot",
    "C50_max",
    "C50_min",
    "C50_min_max_of_empty_refuted"
   ],
   "note": "vector_min/vector_max of an empty vector read out of bounds (refuted separately)."
  },
  {
   "property": "C55",
   "status": "partial",
   "theorems": [
    "C55_discrete_never_zero",
    "C55_likelihoods_never_zero_partial",
    "C55_likelihoods_never_zero_refuted"
   ],
   "note": "sample_from_likelihoods returns index 0 for a draw of exactly 0 even if its weight is 0 (witness); holds for every positive draw."
  },
  {
   "property": "C56",
   "status": "partial",
   "theorems": [
    "C56_order_independent",
    "C56_empty_groups_partial",
    "C56_empty_groups_refuted"
   ],
   "note": "Independent of order; of empty groups only when the data set is complete (witness otherwise)."
  },
  {
   "property": "C57",
   "status": "proved",
   "theorems": [
    "C57_last_value_conditional"
   ],
   "note": "Exact arithmetic."
  },
  {
   "property": "C19",
   "status": "proved",
   "theorems": [
    "C19_bb_group_is_multiset"
   ],
   "note": "For data sets of at most 2^31-1 values (the counters are int)."
  },
  {
   "property": "C20",
   "status": "proved",
   "theorems": [
    "C20_dd_group_is_multiset"
   ],
   "note": "For data sets of at most 2^31-1 values in range."
  },
  {
   "property": "C21",
   "status": "partial",
   "theorems": [
    "C21_dd_merge_pools_counts_partial",
    "C21_dd_merge_pools_data_refuted"
   ],
   "note": "Counts are pooled; count_sum is not updated by merge, so the full statement is false (witness)."
  },
  {
   "property": "C23",
   "status": "proved",
   "theorems": [
    "C23_gp_group_is_multiset"
   ],
   "note": "Exact arithmetic for log_prod; count and sum modulo 2^32."
  },
  {
   "property": "C24",
   "status": "proved",
   "theorems": [
    "C24_bnb_group_is_multiset"
   ],
   "note": "Modulo 2^32, the width of the fields."
  },
  {
   "property": "C25",
   "status": "proved",
   "theorems": [
    "C25_nich_group_is_exact"
   ],
   "note": "Exact arithmetic."
  },
  {
   "property": "C26",
   "status": "partial",
   "theorems": [
    "C26_nich_repeated_partial",
    "C26_nich_repeated_mean_error",
    "C26_nich_repeated_refuted"
   ],
   "note": "Holds from the empty group and for one copy; otherwise false, with the exact error of the mean and a witness."
  },
  {
   "property": "C28",
   "status": "partial",
   "theorems": [
    "C28_bb_chain_rule",
    "C28_dd_chain_rule",
    "C28_gp_chain_rule",
    "C28_bnb_chain_rule",
    "C28_dpd_chain_rule",
    "C28_nich_chain_rule_up_to_pi",
    "C28_exchangeable",
    "C28_dpd_exchangeable",
    "C28_niw_chain_rule",
    "C28_niw_exchangeable"
   ],
   "note": "Exact arithmetic. NICH: up to the difference of two literals for log(pi) per datum, so not exact there; exact for the six other models (NIW for every dimension, with the matrix determinant lemma)."
  },
  {
   "property": "C29",
   "status": "proved",
   "theorems": [
    "C29_plus_group_composes",
    "C29_predictive_composes",
    "C29_niw_plus_group_composes"
   ],
   "note": "GP, BNB, NICH, NIW (every dimension) in exact arithmetic."
  },
  {
   "property": "C30",
   "status": "proved",
   "theorems": [
    "C30_bb_normalised",
    "C30_dd_normalised",
    "C30_dpd_predictive_total",
    "C30_dpd_normalised"
   ],
   "note": "Exact arithmetic. DPD: the total is (alpha*mass+n)/(alpha+n), so 1 exactly when the shared's mass is 1 (C39)."
  },
  {
   "property": "C31",
   "status": "proved",
   "theorems": [
    "C31_scorer_agrees",
    "C31_dpd_scorer_agrees",
    "C31_niw_scorer_agrees"
   ],
   "note": "BNB and DPD in exact arithmetic (separate formulas); the others in every arithmetic, where score_value is written with the Scorer."
  },
  {
   "property": "C37",
   "status": "proved",
   "theorems": [
    "C37_mixture_score_data",
    "C37_score_data_grid",
    "C37_dpd_mixture_score_data",
    "C37_small_mixture_score_data"
   ],
   "note": "Sum in exact arithmetic; grid in every arithmetic. NIW defines no mixture (niw.hpp)."
  },
  {
   "property": "C38",
   "status": "proved",
   "theorems": [
    "C38_dd_grid_exact",
    "C38_dd_grid_wrong_buffer"
   ],
   "note": "Exact arithmetic."
  },
  {
   "property": "C58",
   "status": "proved",
   "theorems": [
    "C58_bb_predictive",
    "C58_dd_predictive",
    "C58_gp_predictive",
    "C58_bnb_predictive",
    "C58_dpd_predictive"
   ],
   "note": "Exact arithmetic; lgamma any function with the Gamma recurrence."
  },
  {
   "property": "C32",
   "status": "proved",
   "theorems": [
    "C32_bb_cache_coherent",
    "C32_gp_cache_coherent",
    "C32_nich_cache_coherent",
    "C32_bnb_cache_coherent",
    "C32_bnb_cache_exact"
   ],
   "note": "Every arithmetic; BNB's cached formula is its Scorer (commutative addition), and Group::score_value in exact arithmetic."
  },
  {
   "property": "C33",
   "status": "proved",
   "theorems": [
    "C33_dd_cache_fresh",
    "C33_dd_scores_current"
   ],
   "note": "Freshness in every arithmetic; equality with Group::score_value in exact arithmetic."
  },
  {
   "property": "C36",
   "status": "proved",
   "theorems": [
    "C36_score_value_accumulates",
    "C36_dpd_score_value_accumulates"
   ],
   "note": "BB, GP, BNB, NICH, DD and the cacheless scorer of any model (NIW only has that one) in every arithmetic; DPD in every arithmetic where x + 0 = x, for values of the shared and OTHER."
  },
  {
   "property": "C34",
   "status": "proved",
   "theorems": [
    "C34_dpd_cache_fresh",
    "C34_dpd_scores_current"
   ],
   "note": "Same scores as a fresh init in every arithmetic where x + 0 = x; equal to Group::score_value in exact arithmetic. Fewer than 2^32 initial values plus calls (32-bit reference counts)."
  },
  {
   "property": "C35",
   "status": "partial",
   "theorems": [
    "C35_dpd_cache_follows_shared_partial",
    "C35_dpd_cache_stale_refuted",
    "C35_dpd_lookup_undefined_refuted"
   ],
   "note": "Proved when every value of the shared is used by the mixture at init and only empty groups are removed. False in general: init caches unused shared values with reference count 0, which go stale or are looked up after they left the shared."
  },
  {
   "property": "C22",
   "status": "proved",
   "theorems": [
    "C22_dpd_group_is_multiset"
   ],
   "note": "For data sets of at most 2^31-1 values (the counters are int)."
  },
  {
   "property": "C39",
   "status": "partial",
   "theorems": [
    "C39_shared_tracks_values",
    "C39_shared_never_fails",
    "C39_mass_partial",
    "C39_mass_without_clamp",
    "C39_mass_refuted"
   ],
   "note": "Keys, counts and positivity proved; the mass is not conserved because add_value clamps beta0 from below (witness); bounds 1 <= mass <= 1 + n/10^6 and equality without clamping proved. Exact arithmetic."
  },
  {
   "property": "C40",
   "status": "partial",
   "theorems": [
    "C40_realize_partial",
    "C40_realize_new_values_refuted",
    "C40_realize_cap_refuted"
   ],
   "note": "Proved for ids below 2^32-10002; false for id 2^32-2 (introduces the reserved id) and the cap is exceeded from 10000 values on (witnesses). Exact arithmetic."
  },
  {
   "property": "C42",
   "status": "partial",
   "theorems": [
    "C42_dump_load_partial",
    "C42_round_trip_without_clamp",
    "C42_dump_load_refuted"
   ],
   "note": "Accepted exactly when the betas sum to at most 1+10^-4; accumulated clamping exceeds that (witness). Exact arithmetic."
  },
  {
   "property": "C59",
   "status": "partial",
   "theorems": [
    "C59_dpd_merge_pools_counts_partial",
    "C59_dpd_merge_pools_data_refuted"
   ],
   "note": "Counts are pooled; the total counts the source twice (witness)."
  },
  {
   "property": "C14",
   "status": "proved",
   "theorems": [
    "C14_system_aligned",
    "C14_main_init_aligned",
    "C14_main_init_dd_refuted",
    "C14_overview_pattern_refuted"
   ],
   "note": "For the protocol of examples/mixture/main.py with any list of features (BB, GP, BNB, NICH, DD, DPD; cached or not), in exact arithmetic. Refuted: main.py's initialisation (add_group before init) with a DirichletDiscrete feature is undefined behaviour; the removal pattern printed in doc/overview.rst adds the row to the mixtures instead of removing it."
  },
  {
   "property": "C61",
   "status": "proved",
   "theorems": [
    "C61_system_scores"
   ],
   "note": "Same systems as C14, exact arithmetic."
  },
  {
   "property": "C62",
   "status": "proved",
   "theorems": [
    "C62_sampler_keeps_assignments",
    "C62_gibbs_programs_are_plans"
   ],
   "note": "The sampler is any function from the scores to an index; numbers of rows below 2^31 and of seatings below 2^32."
  },
  {
   "property": "C51",
   "status": "partial",
   "theorems": [
    "C51_reflexive",
    "C51_symmetric_refuted",
    "C51_symmetric_partial"
   ],
   "note": "Reflexive in IEEE float and double on every nested type of finite values. Symmetry is false in IEEE arithmetic (witnesses in both formats: 1+|x|+|y| is rounded in argument order) and true in exact arithmetic."
  },
  {
   "property": "C52",
   "status": "proved",
   "theorems": [
    "C52_reader_deterministic",
    "C52_round_trip",
    "C52_long_record_refused",
    "C52_cut_at_boundary"
   ],
   "note": "A file is its list of bytes; compression not modelled."
  },
  {
   "property": "C53",
   "status": "partial",
   "theorems": [
    "C53_truncation_undetected_refuted",
    "C53_cut_anywhere_partial"
   ],
   "note": "False of the code: the reader never raises and returns a shortened record. The partial theorem says exactly what every cut at every byte yields."
  },
  {
   "property": "C63",
   "status": "proved",
   "theorems": [
    "C63_json_round_trip",
    "C63_costream_same_file"
   ],
   "note": "simplejson is a parameter with the stated contract (one line, parses back)."
  },
  {
   "property": "C64",
   "status": "proved",
   "theorems": [
    "C64_truncation_raises",
    "C64_broken_item_raises"
   ],
   "note": "Same contract; also that the empty text does not parse."
  },
  {
   "property": "C65",
   "status": "partial",
   "theorems": [
    "C65_leafwise_partial",
    "C65_leafwise64_partial",
    "C65_vector_of_pairs_refuted"
   ],
   "note": "True of every type without a vector of pairs; a vector of pairs is compared with operator== because the pair overload is not visible at the point of use."
  },
  {
   "property": "C47",
   "status": "partial",
   "theorems": [
    "C47_in_bounds",
    "C47_underestimate_refuted",
    "C47_accuracy_partial",
    "C47_exact_constant_partial",
    "C47_monotone",
    "C47_log_zero_finite"
   ],
   "note": "In-bounds and monotone for every pattern. The stated one-sided bound is false: the float constant exceeds ln 2 (witness x = 2); the proved bound is -2.5e-7 .. 2^-14 + 2.5e-7 for every positive normal float, and the stated one with the exact constant. Rounding of the table entries and of the last two operations: C88."
  },
  {
   "property": "C48",
   "status": "partial",
   "theorems": [
    "C48_in_bounds_partial",
    "C48_nan_refuted",
    "C48_int_log2",
    "C48_rows"
   ],
   "note": "True of every pattern that is not a NaN; every NaN reads outside both tables."
  },
  {
   "property": "C49",
   "status": "proved",
   "theorems": [
    "C49_exact_rows",
    "C49_public_rows"
   ],
   "note": "Exact real arithmetic with IEEE infinities; every history of calls. Rows n >= 32 use an approximation whose formula is left open here; it is in C91, with the roundings."
  },
  {
   "property": "C66",
   "status": "partial",
   "theorems": [
    "C66_factorial_partial",
    "C66_last_wraps_refuted"
   ],
   "note": "True for n <= 2^32-2 (table literals within 1e-12 of log n!); n = 2^32-1 wraps to fast_lgamma(0). Accuracy of fast_lgamma: C86."
  },
  {
   "property": "C60",
   "status": "partial",
   "theorems": [
    "C60_gp_normalised",
    "C60_bnb_total",
    "C60_bnb_normalised_partial",
    "C60_bnb_below_one",
    "C60_bnb_normalised_refuted"
   ],
   "note": "Gamma-Poisson: proved for all data and hyperparameters. Beta negative binomial: score_value omits the binomial coefficient, so the claim holds for r = 1 and is false for every r >= 2, where the exact total is proved."
  },
  {
   "property": "C27",
   "status": "proved",
   "theorems": [
    "C27_niw_group_is_multiset"
   ],
   "note": "Exact arithmetic, every dimension, every history of add, remove, add_repeated and merge."
  },
  {
   "property": "C67",
   "status": "proved",
   "theorems": [
    "C67_niw_posterior_valid"
   ],
   "note": "Exact arithmetic, every dimension and data set."
  },
  {
   "property": "C41",
   "status": "partial",
   "theorems": [
    "C41_bb_group_round_trip",
    "C41_gp_group_round_trip",
    "C41_bnb_group_round_trip",
    "C41_nich_group_round_trip",
    "C41_dd_group_round_trip",
    "C41_dd_merge_repaired_by_round_trip",
    "C41_dd_group_round_trip_refuted",
    "C41_dpd_group_round_trip",
    "C41_dpd_merge_repaired_by_round_trip",
    "C41_dpd_debt_round_trip_refuted",
    "C41_niw_group_round_trip",
    "C41_niw_any_arithmetic",
    "C41_niw_shared_round_trip",
    "C41_simple_shareds_round_trip"
   ],
   "note": "Message level (records of fields); C95 takes the messages through bytes. Groups of every history, data debt and merges included, for BB, GP, BNB, NICH and any arithmetic. DD and DPD: histories without merge; after merge the round trip differs (refuted for DD) and restores the pooled group; a DPD group in debt may overflow when loaded. NIW in every arithmetic below debug level 3, in exact arithmetic at every level. DPD shared: C42."
  },
  {
   "property": "C68",
   "status": "partial",
   "theorems": [
    "C68_niw_load_safe",
    "C68_dd_rejects_long",
    "C68_dd_load_safe_refuted",
    "C68_dpd_length_check",
    "C68_counts_wrap"
   ],
   "note": "Every message is accepted without undefined behaviour or rejected: holds for NIW; false for DD (overflow of the total) and for DPD (release builds read beyond the values)."
  },
  {
   "property": "C69",
   "status": "proved",
   "theorems": [
    "C69_sampler_law"
   ],
   "note": "Exact arithmetic; the uniform draws are arguments, the probability of a box is its volume."
  },
  {
   "property": "C70",
   "status": "proved",
   "theorems": [
    "C70_score_counts_normalised",
    "C70_enumeration_exists"
   ],
   "note": "Exact arithmetic, every n."
  },
  {
   "property": "C71",
   "status": "proved",
   "theorems": [
    "C71_bb_marginal_normalised",
    "C71_dd_marginal_normalised",
    "C71_sequences_exist"
   ],
   "note": "Exact arithmetic."
  },
  {
   "property": "C72",
   "status": "proved",
   "theorems": [
    "C72_nich_remove_from_empty",
    "C72_dpd_no_mass_left",
    "C72_dpd_values_checked",
    "C72_dpd_shared_load_checked",
    "C72_niw_shared_load_checked",
    "C72_empty_collections",
    "C72_safe_samplers",
    "C72_low_entropy_sample_size"
   ],
   "note": "Any arithmetic, every debug level; C72_dpd_values_checked is about checks compiled in from level 1 on."
  },
  {
   "property": "C73",
   "status": "proved",
   "theorems": [
    "C73_multivariate_normal_law",
    "C73_rejects_indefinite",
    "C73_rejects_mismatch"
   ],
   "note": "Exact arithmetic; Eigen's Cholesky factorisation is modelled column by column."
  },
  {
   "property": "C74",
   "status": "proved",
   "theorems": [
    "C74_wishart_draw_valid",
    "C74_inverse_wishart_draw_valid"
   ],
   "note": "Exact arithmetic; inverse() is the exact inverse; the draws are arguments, chi-squared draws positive."
  },
  {
   "property": "C75",
   "status": "partial",
   "theorems": [
    "C75_niw_sampler_partial",
    "C75_values_have_wrong_covariance",
    "C75_niw_values_refuted"
   ],
   "note": "The mean has the right law; the values are drawn with covariance Sigma/kappa_n instead of Sigma (refuted for every kappa_n other than 1)."
  },
  {
   "property": "C76",
   "status": "proved",
   "theorems": [
    "C76_no_data_race",
    "C76_rows_exact",
    "C76_fair_schedules_finish"
   ],
   "note": "Sequentially consistent interleavings of the steps lock, test, push_back, resize, each row entry, copy and unlock; reals with infinities, no rounding. Race freedom holds also when allocations fail."
  },
  {
   "property": "C77",
   "status": "partial",
   "theorems": [
    "C77_calls_after_bad_alloc_partial",
    "C77_row_after_bad_alloc_refuted",
    "C77_undefined_after_bad_alloc_refuted"
   ],
   "note": "Proved when push_back fails; refuted when the resize after push_back fails: the empty row stays in the table, a later call leaves the caller's vector unfilled and the next row reads out of bounds."
  },
  {
   "property": "C78",
   "status": "partial",
   "theorems": [
    "C78_blocks_usable",
    "C78_no_assertion",
    "C78_misaligned_reported",
    "C78_max_size",
    "C78_views",
    "C78_too_many_elements_refuted"
   ],
   "note": "Everything but the last clause is proved. Beyond max_size the byte count wraps and a block that is too small is returned instead of bad_alloc (refuted); std::vector never asks for that many."
  },
  {
   "property": "C79",
   "status": "partial",
   "theorems": [
    "C79_plain_messages",
    "C79_dpd_group_partial",
    "C79_dpd_shared_partial",
    "C79_dump_order_immaterial",
    "C79_dpd_group_counts_refuted",
    "C79_dpd_shared_betas_refuted"
   ],
   "note": "Exact arithmetic. Refuted: counts of DirichletProcessDiscrete groups are compared modulo 2^32, and betas of Shared are compared exactly instead of within the tolerance."
  },
  {
   "property": "C80",
   "status": "partial",
   "theorems": [
    "C80_exp_accurate_partial",
    "C80_exp_underflow",
    "C80_exp_not_negative",
    "C80_exp_zero",
    "C80_table",
    "C80_exp_large_refuted",
    "C80_exp_undefined_refuted"
   ],
   "note": "IEEE binary32 arithmetic (Flocq), bit for bit. Proved for -1.028653e9 <= x <= 88. Refuted outside: exp(89) is NaN, exp(100) is negative, and minus infinity, x <= -1.1e9 and NaN shift a negative number, because the clamp compares the argument rounded to an integer with the bits of 88.0f."
  },
  {
   "property": "C81",
   "status": "partial",
   "theorems": [
    "C81_likelihoods",
    "C81_sample",
    "C81_probs",
    "C81_improbable_index_refuted"
   ],
   "note": "IEEE binary32 instance of the generic model, all roundings included (no excess precision or contraction). Everything but the last clause is proved. Refuted: with scores 0, eighteen times -16 and -1000, a draw u < 1 returns the last index, of probability below exp(-1000), because the rounded total exceeds the sum of the likelihoods."
  },
  {
   "property": "C82",
   "status": "partial",
   "theorems": [
    "C82_bb_flavors",
    "C82_gp_flavors",
    "C82_gp_cython",
    "C82_bnb_flavors",
    "C82_nich_flavors",
    "C82_nich_empty_refuted",
    "C82_dd_flavors",
    "C82_dd_merged_score_data_refuted",
    "C82_dpd_flavors",
    "C82_dpd_shared_add",
    "C82_dpd_shared_remove",
    "C82_dpd_shared_clamp_refuted",
    "C82_niw_flavors",
    "C82_low_entropy_flavors_partial",
    "C82_low_entropy_counts_partial",
    "C82_low_entropy_flavors_refuted",
    "C82_scores_to_probs"
   ],
   "note": "Exact arithmetic. Statistics agree for every history of every model (NICH: histories in which no addition or merge leaves a group empty; DPD: debug level >= 1). Scores agree up to the error of the C++ literals for pi, except: DirichletDiscrete score_data after a merge, beta0 at the C++ clamp, and LowEntropy's Python 2 integer division, each refuted with a witness. The protocol-buffer methods, sampling and the cc/lp wrappers are not compared."
  },
  {
   "property": "C83",
   "status": "partial",
   "theorems": [
    "C83_variance_nonneg",
    "C83_streaming_accuracy",
    "C83_posterior_positive",
    "C83_merge_accuracy",
    "C83_merge_posterior_positive",
    "C83_removal_refuted",
    "C83_empty_merge_refuted"
   ],
   "note": "IEEE binary32 instance of the model, all roundings included (no excess precision or contraction). Non-negative variance: every nested history of additions and merges. Range, error bounds and positive posterior variance: every nested history of additions and merges that never merges two groups without values, up to 2^20 values of magnitude up to 2^40 (with smaller constants for additions only). Refuted: after adding 3, 9561, -8476, 1 and removing -8476, 9561 the sum of squares is -28 (exact: 2) and the posterior variance below -8; merging two new groups gives NaN, which additions and merges never repair."
  },
  {
   "property": "C84",
   "status": "partial",
   "theorems": [
    "C84_bb_draws",
    "C84_dd_draws",
    "C84_dpd_draws",
    "C84_gp_draws",
    "C84_bnb_draws_partial",
    "C84_bnb_draws_refuted",
    "C84_log_gamma"
   ],
   "note": "Exact arithmetic; the standard library's gamma, uniform, poisson and negative_binomial draws are taken to have their laws, and expectations are limits of integrals over growing boxes. Refuted for BetaNegativeBinomial, whose scores leave out the binomial coefficient; proved for it with the coefficients put back."
  },
  {
   "property": "C85",
   "status": "proved",
   "theorems": [
    "C85_nich_draws",
    "C85_literal_pi",
    "C85_groups"
   ],
   "note": "Exact arithmetic; the chi-squared draw is twice a gamma draw, normal draws have the normal law; lg is the logarithm of Euler's integral, which C84_log_gamma shows to exist."
  },
  {
   "property": "C86",
   "status": "partial",
   "theorems": [
    "C86_fast_lgamma",
    "C86_fast_lgamma_daz_partial",
    "C86_fast_lgamma_daz_refuted",
    "C86_fast_lgamma_nu",
    "C86_log_factorial_partial",
    "C86_tables"
   ],
   "note": "Proved on the IEEE model of the code (floats and doubles, every rounding) against the logarithm of Euler's integral, with denormals read as numbers. Refuted when denormals are read as zeros, the mode set by -ffast-math start-up code on x86: above 2^30 a coefficient vanishes and the error exceeds 0.2 %; proved below 2^30 in that mode. fast_log_factorial: missing n > 4294967166, where n+1 rounds to 2^32 and lgammaf answers. Small n, from the table: C91_log_factorial. Arguments outside the ranges are answered by lgammaf, not modelled."
  },
  {
   "property": "C87",
   "status": "partial",
   "theorems": [
    "C87_step_partial",
    "C87_step_refuted",
    "C87_monotone_refuted"
   ],
   "note": "Refuted: from 2^22-1 to 2^22 the result falls by 4 where it should rise by 15.2 (the score of a value in a GammaPoisson group of that total is off by a factor e^19), and it falls from the float below 4 to 4. Proved: the step is within 8.4e-6 (y+1) log(y+1) of log y."
  },
  {
   "property": "C88",
   "status": "proved",
   "theorems": [
    "C88_fast_log",
    "C88_fast_log_monotone",
    "C88_fast_log_subnormal_refuted",
    "C88_fast_log_zero",
    "C88_bb",
    "C88_dd",
    "C88_dpd",
    "C88_py_add",
    "C88_py_cached"
   ],
   "note": "Proved on the IEEE model (every rounding, the table of 2^14 floats filled by libm's log2, of which only an error below 2^-24 on [1,2) is asked). The hyperparameters are at least 2^-30 and at most 2^30 (a discount may be 0), the exact probability is the rational function of the float hyperparameters and the integer counts. C88_py_cached is about the state reached by every legal history. Beyond the property: for subnormal arguments fast_log is off by up to 15 (C88_fast_log_subnormal_refuted) and fast_log(0) is about -88.03, not minus infinity; if log2 is also monotone and within [0,1] on [1,2), fast_log is monotone on normal floats (C88_fast_log_monotone)."
  },
  {
   "property": "C89",
   "status": "proved",
   "theorems": [
    "C89_joint_score",
    "C89_scores_are_increments",
    "C89_full_conditional",
    "C89_detailed_balance",
    "C89_stationary"
   ],
   "note": "In exact arithmetic, for every function lg with lg(1)=0 and lg(x+1)=log x+lg(x). Reachable states are those of any plan of seating and unseating rows, with 2^32 group ids not exhausted. Features are any of the six scalar models, in a FastMixture or a SmallMixture, on any projection of the row. The law of a move is the sum of the probabilities of the positions that lead to the clustering; the draw itself (sample_from_probs) is C43 and C55. The constant by which NormalInverseChiSq scores differ from increments is stated exactly."
  },
  {
   "property": "C90",
   "status": "partial",
   "theorems": [
    "C90_fast_log_sum_exp",
    "C90_log_sum_exp",
    "C90_symmetric",
    "C90_impossible",
    "C90_impossible_refuted",
    "C90_vector",
    "C90_score_from_scores",
    "C90_fast_log_within"
   ],
   "note": "Proved on the IEEE model for finite scores, every rounding included; the logarithm of the vector functions is any function within eps of log on [1/2, 2^21], which fast_log is with eps = 7.4e-5 (C90_fast_log_within). Partial because minus infinity, a legitimate score, is out of reach: fast_log_sum_exp(0, -inf) reaches an undefined shift in fmath::exp and log_sum_exp(-inf, -inf) is NaN (C90_impossible_refuted). C90_symmetric leaves out +0 against -0."
  },
  {
   "property": "C91",
   "status": "partial",
   "theorems": [
    "C91_rows",
    "C91_approximations",
    "C91_overestimate_refuted",
    "C91_absolute_refuted",
    "C91_log_factorial"
   ],
   "note": "Proved on the IEEE model for every history and n <= 2^20, fast_log_factorial for n <= 4294967166 (2^30 when denormals are read as zeros). Partial because rows above 2^20 are left out, and because what a caller would like, absolute accuracy, is false from 32 on: the entry for k = 1 is too low by n/250 or more in every row (C91_absolute_refuted); the first approximation is not an overestimate as the source says (C91_overestimate_refuted)."
  },
  {
   "property": "C92",
   "status": "partial",
   "theorems": [
    "C92_exact",
    "C92_student_t",
    "C92_nich",
    "C92_flat",
    "C92_tails_refuted",
    "C92_log_beta",
    "C92_log_binom",
    "C92_log_binom_refuted"
   ],
   "note": "Proved on the IEEE model for the ranges named, with any libm whose log2 and lgammaf (below 2.5) are within the stated errors. Partial because arguments outside these ranges are left out, and because absolute accuracy is false for large groups: data within about 0.0077 sqrt(nu) standard deviations of the mean all score alike (C92_flat), so in a group of a million values 0 and 7 standard deviations get the same score although the densities differ by a factor exp 24 (C92_tails_refuted); and fast_log_binom(4194303, 1) is below -3 instead of above 15 (C92_log_binom_refuted)."
  },
  {
   "property": "C93",
   "status": "proved",
   "theorems": [
    "C93_mass_unique",
    "C93_student_t",
    "C93_nich_predictive",
    "C93_nich_marginal",
    "C93_niw_predictive",
    "C93_niw_marginal"
   ],
   "note": "In exact arithmetic, with determinant and inverse those of mathcomp and lg the log-Gamma function. Integrals over several coordinates are iterated ones, first coordinate first."
  },
  {
   "property": "C94",
   "status": "proved",
   "theorems": [
    "C94_names",
    "C94_round_trip",
    "C94_round_trip_incomplete",
    "C94_any_writer",
    "C94_any_bytes",
    "C94_accepted",
    "C94_equal",
    "C94_merge",
    "C94_copy",
    "C94_initialized",
    "C94_cut_short",
    "C94_cut",
    "C94_cut_refused_refuted",
    "C94_only_written_refuted",
    "C94_clustering_fields",
    "C94_clustering_round_trip",
    "C94_clustering_any_writer",
    "C94_clustering_any_bytes",
    "C94_clustering_accepted",
    "C94_clustering_initialized",
    "C94_clustering_equal",
    "C94_clustering_merge",
    "C94_clustering_copy",
    "C94_clustering_one_alternative_refuted"
   ],
   "note": "The protobuf runtime (varints, tags, SkipField, limits, RepeatedField) is an external library, modelled from its documented behaviour in model/Wire.v and trusted. False and shown so: that every cut is refused (C94_cut_refused_refuted), that only the output of some writer is accepted (C94_only_written_refuted), that a Clustering has one alternative at most (C94_clustering_one_alternative_refuted)."
  },
  {
   "property": "C95",
   "status": "proved",
   "theorems": [
    "C95_floats",
    "C95_shareds",
    "C95_bb_group",
    "C95_gp_group",
    "C95_bnb_group",
    "C95_nich_group",
    "C95_dd_group",
    "C95_dpd_group",
    "C95_dpd_shared",
    "C95_niw_group",
    "C95_niw_shared",
    "C95_any_bytes",
    "C95_any_bytes_refuted",
    "C95_file"
   ],
   "note": "Composes C41, C94 and C52. NormalInverseWishart groups below debug level 3. The protobuf runtime is modelled from its documented behaviour (C94)."
  },
  {
   "property": "C96",
   "status": "partial",
   "theorems": [
    "C96_bnb_value",
    "C96_bnb_data",
    "C96_bb_data",
    "C96_bb_data_refuted",
    "C96_gp_value",
    "C96_gp_data",
    "C96_dd_data",
    "C96_dpd_data"
   ],
   "note": "Proved on the IEEE model for the ranges named, with any libm whose log2 and lgammaf (below 2.5) are within the stated errors; the posterior parameters in the formulas are exact, their rounding is part of the error. Partial because arguments above 2^20 and Dirichlet groups of more than 1024 distinct values are left out and because accuracy relative to the score is false: with 3 pseudo-heads and 4194300 pseudo-tails one head scores above +5 instead of -14 (C96_bb_data_refuted)."
  },
  {
   "property": "C97",
   "status": "partial",
   "theorems": [
    "C97_low_entropy_law_partial",
    "C97_low_entropy_normalised_refuted",
    "C97_low_entropy_sample_refuted"
   ],
   "note": "In exact arithmetic. Partial because it is false from 48 values on, where the code extrapolates: at 60 values the probabilities sum to more than 1.01 (C97_low_entropy_normalised_refuted); and for samples smaller than the dataset, where the code adds ad hoc corrections: over the partitions of two values out of three they sum to 1.005 (C97_low_entropy_sample_refuted)."
  },
  {
   "property": "C98",
   "status": "proved",
   "theorems": [
    "C98_low_entropy_add",
    "C98_low_entropy_dip",
    "C98_low_entropy_monotone_refuted",
    "C98_low_entropy_new"
   ],
   "note": "IEEE single precision (Flocq), any libm log2 within one unit in the last place. The error bound, the dip and the loss of monotonicity are all part of the statement."
  }
 ]
}