# Formal model of forcedotcom/distributions (C++ core)

## 1. What is modelled

The source under /repo is read as text; the model is a set of total, computable
Gallina functions, one per C++ function, each with a comment citing file and
lines. Directories under `rocq/theories`:

* `model/`  – definitions only (no proofs).
* `spec/`   – small independent specifications (what "counts", "mean",
  "Stirling number", "first-appearance labelling" mean), no reference to model helpers.
* `proof/`  – lemmas.
* `props/`  – the property theorems, each `Proof. exact lemma. Qed.`, followed by
  `Print Assumptions` and by an `Example` meeting the hypotheses.

### Conventions

* **Outcomes.** A C++ call that may fail is modelled in `outcome A = Ok a | Fail | UB`.
  `Fail` is `DIST_ERROR` (abort, or throw under `DIST_THROW_ON_ERROR`), `UB` is
  undefined behaviour (out-of-range `operator[]`, dereferencing `end()`, signed
  overflow, reading an uninitialised member).  `DIST_ASSERT1/2/3` depend on a
  parameter `dl` (the value of `DIST_DEBUG_LEVEL`): at a lower level the check
  disappears and execution goes on into whatever follows.
* **Integers.** `count_t = int32_t` arithmetic in the clustering driver goes through
  `i32`, which is `UB` outside [-2^31, 2^31). `uint32_t` ids wrap mod 2^32.
  Elsewhere integers are unbounded `Z`/`nat`; each definition says so.
* **Floats.** Scores are modelled over an abstract number structure `Num F`
  (record of +, -, *, /, log, lgamma, ..).  Cache-coherence theorems
  hold for *every* `Num F`, hence bit-for-bit for IEEE floats evaluated
  deterministically.  Algebraic theorems (chain rule, normalisation,
  exchangeability) are about the instance `R`, i.e. exact arithmetic: rounding
  is not modelled there.  Rounding is treated by the instances over Flocq's
  binary32 listed in section 4.  lgamma is an arbitrary function `lg` with
  `lg 1 = 0` and `lg (x+1) = ln x + lg x` for x > 0; a witness is exhibited.
* **Randomness.** Every draw is an argument (an oracle stream). Theorems quantify
  over all draws.  Laws of sampled values (C69, C75, C84, C85, C89) are about
  primitive draws that are uniform, Gamma, Poisson or normal exactly.
* **Hash containers.** `unordered_map/set` become std++ `gmap/gset`; where iteration
  order can influence a result, the order is an explicit argument (any
  permutation of the elements) and theorems quantify over it.
* **Memory.** Allocation and alignment are modelled in `model/Alloc.v` only; elsewhere
  containers are values.  Iterator invalidation and SIMD are not modelled.
* **Threads.** The only shared mutable state is the Stirling cache, protected by a mutex;
  `model/Stirling.v` treats it as a sequential history of calls,
  `model/StirlingThreads.v` as an interleaving of threads with failing allocations.

## 2. Plan per property

| id | model | proof |
|----|-------|-------|
| C01-C03 | `model/Driver.v`: MixtureDriver over `list Z`, `gset nat`, `Z` | invariant + refinement by induction on the op list |
| C04 | `model/PitmanYor.v`: CachedMixture over any `Num F` | invariant "cache = function of counts"; then algebra over R |
| C05 | same, F = R | sum over groups by induction, using the driver invariant |
| C06 | score_counts, with lgamma recurrence | telescoping per group, then exchangeability by induction over insertion sequences |
| C07 | score_add/remove_value | case analysis; exact in any arithmetic |
| C08 | LowEntropy scores | false of the code when the group becomes empty (sample_size is not decremented): `_refuted`, plus the part that holds |
| C09-C10 | samplers with an oracle for sample_from_likelihoods' uniform draw | invariant over the loop |
| C11 | count_assignments as a fold over any permutation of the map's elements | induction |
| C12-C13 | `model/IdTracker.v` with uint32 wrap | invariant below 2^32 creations; `_refuted` beyond |
| C14 | `model/System.v`: driver + generic slave + tracker, client protocol | simulation against a finite map global id -> data list |
| C15 | `model/Packed.v` | list lemmas |
| C16-C18 | `model/Sparse.v` | refinement to Z-valued functions / gmap; merge total `_refuted` |
| C19-C27 | `model/BB.v DD.v DPD.v GP.v BNB.v NICH.v NIW.v` groups | statistic-of-multiset specs, permutation induction; DD merge and NICH add_repeated `_refuted` |
| C28-C31 | same files, scoring over R | telescoping induction on the data |
| C32-C37 | `model/Slave.v` generic MixtureSlave + per-model value scorers over any `Num F` | cache invariant by induction over histories |
| C35 | DPD with changing shared | `_refuted` by a concrete interleaving, and the protocol restriction under which it holds |
| C38 | DD MixtureDataScorer over R | loop invariant |
| C39-C40, C42 | DPD Shared, sampler as oracle | invariant; mass conservation `_refuted` because of the clamp; realize by fuel-free measure |
| C41 | messages as records | case analysis, with integer width explicit |
| C43-C46 | `model/Random.v` | induction on the vector |
| C47-C48 | `model/Special.v`: float bit patterns as `Z` in [0,2^32) | bit arithmetic + real analysis (`ln(1+x) <= x`) |
| C49 | Stirling cache as list of rows | induction, spec by the combinatorial recurrence |
| C50-C51 | `model/VectorMath.v`, `model/AssertClose.v` | induction / lra |
| C52-C53 | `model/Stream.v`: byte lists | induction; truncation detection `_refuted` |
| C54, C57, C59 | Driver, LowEntropy, DPD models: sharper statements found while testing against wrong programs | as above |
| C55 | samplers | inverse-CDF lemmas; zero-likelihood index `_refuted` |
| C56 | LowEntropy joint score | permutation induction; empty groups `_refuted` |
| C58 | all scorers | closed forms over R |
| C60 | BNB and GP scorers | series over R (Coquelicot); `_refuted` for the missing binomial coefficient of BNB |
| C61-C62 | `model/System.v` | simulation of a client program |
| C63-C64 | `model/Stream.v` | induction over lines and bytes |
| C65 | `model/AssertClose.v` | induction; vectors of pairs `_refuted` |
| C66 | `model/Special.v` | case analysis; wrap `_refuted` |
| C67 | `model/NIW.v` | mathcomp matrices, positive definiteness |
| C68 | `model/Proto.v`: loading arbitrary messages | case analysis, explicit widths; over-read and wrap `_refuted` |
| C69-C71 | sampler law and normalisation of joint scores | sums over all outcomes, Coquelicot for measure of intervals |
| C72 | always-on argument checks | case analysis for every debug level |
| C73-C75 | `model/NIWSample.v`, `model/LinR.v`: Cholesky, Wishart draws | mathcomp matrices; covariance of values `_refuted` |
| C76-C77 | `model/StirlingThreads.v` | invariant over interleavings, fairness measure; failed resize `_refuted` |
| C78 | `model/Alloc.v` against a POSIX heap | invariant over histories; byte-count wrap `_refuted` |
| C79 | `model/MessageClose.v` | permutation lemmas; count width and exact betas `_refuted` |
| C80 | `model/FastExp.v`: fmath::exp on binary32 | Flocq error analysis; outside [-1.03e9, 88] `_refuted` |
| C81 | `model/FloatNum.v`: the sampling code on binary32 | induction with error bounds; improbable draw `_refuted` |
| C82 | `model/Dbg.v`, `DbgDPD.v`, `DbgNIW.v`: the Python and Cython flavours; `model/HistoryRun.v` | one simulation lemma for histories with nested merges; four `_refuted` |
| C83 | `model/NICH.v` at `Num binary32` (`model/FloatNum.v`) | invariant over nested histories in Flocq; the rounded mean stays between old mean and value; error recurrences for additions and for merges of two groups; two `_refuted` by computation |
| C84 | `model/GroupSampler.v`, `model/{BB,DD,DPD,GP,BNB}.v`, `model/Random.v` | Dirichlet moments by integration over growing boxes (Coquelicot); both sides are the Polya urn; negative binomial and Poisson mixtures; `_refuted` for the missing binomial coefficient |
| C85 | `model/GroupSampler.v`, `model/NICH.v` | completing the square for the centre, gamma integral for the variance, closed form by induction on the values |
| C86 | `model/FastLgamma.v` | Stirling bounds for the log-gamma function from its integral, polynomial bounds for log, a verified Bernstein-coefficient check of each row of coefficients, rounding error of the double and float evaluation |
| C87 | `model/FastLgamma.v` | accuracy of both ends; witnesses by computation |
| C88 | `model/FastLog.v`, score functions over `binary32` | relative errors measured on logarithms; loop invariants |
| C89 | `model/Gibbs.v` over `model/System.v`, exact arithmetic | joint score as a function of the set of clusters; positions that lead to a clustering; the normaliser depends on the other rows only |
| C90 | `model/FloatLse.v` and `model/Random.v` on floats | error of 1 + exp, of the logarithm and of the last addition; the total of C81; the logarithm is a parameter with its error |
| C91 | `model/FloatStirling.v` | bounds on Stirling numbers from their recurrence (products of harmonic sums, powers over factorials); an error calculus for sums of floats; the cache induction with the error of the row as invariant |
| C92 | `model/Student.v` | relative-error calculus for the quadratic, the errors of C86 and C88 put together; the table logarithm is constant on [1, 1 + 2^-14) |
| C93 | `model/NICH.v`, `model/NIW.v` | the integral of (1 + x^2)^-p obeys the recurrence of a ratio of Gamma functions and is squeezed by log-convexity; in d dimensions one coordinate at a time by completing the square, with the determinant of the Schur complement |
| C94 | `model/Wire.v`, `model/SchemaCode.v`, `model/Schema.v`, `model/SchemaClustering.v` | the literals of each generated message are those of one scheme applied to its schema (by computation); the scheme is proved for every schema with at most 8 fields numbered below 16: reading is decoding into records, then absorbing one record at a time; writing is the inverse; for Clustering an invariant ties the has-bits to the two pointers, over every way of using an object |
| C95 | `model/ProtoWire.v` over C41, C94, C52 | each dump leaves a complete message of its schema from which the getters read what was set; then C94 for the bytes, C41 for the load, C52 for files |
| C96 | `model/FloatCount.v` over `GP.v`, `BNB.v`, `BB.v`, `DD.v`, `DPD.v` | relative errors of the posterior parameters, a Lipschitz bound on log-gamma from Bohr-Mollerup inequalities, C86 and C91 for the special functions, then interval-free error propagation through each sum; induction over the values for log_prod and over the cells of a Dirichlet |
| C97 | `model/LowEntropyTable.v`, `le_score_counts` in `model/Sampler.v` | total weight of the extensions of a partition by n values, by induction on n with Pascal's rule; the totals for n < 48 computed in the kernel and their logarithms enclosed by telescoping certificates checked with `LnBounds.step_ok` |
| C98 | `le_score_add` in `model/Sampler.v` on `model/FloatNum.v`, `model/FastLog.v` | fast_log on [1, 2) is the table entry to within 2e-7; relative errors of ratios on logarithms; the entry seen by groups of 8200 to 10000 values bounded by the ratio |

## 3. Trusted base

* Coq's kernel (8.16.1), including its virtual machine (`vm_compute` is used on concrete
  tables, floats and examples).  `native_compute` is not used.
* The axioms of the standard library listed below.  Nothing is axiomatised here; no kernel
  check is switched off; there is no `Admitted`.  coqchk also lists the names sealed by
  `Module Type` inside Coq's Reals and inside mathcomp (`RbaseSymbolsImpl.*`, `Imset.*`, ...);
  these have bodies in the library and `Print Assumptions` does not report them.
* That the Gallina definitions under `model/` say what the cited C++ lines do.  This is by
  reading only: no extraction, no compiler semantics, no test against the built library.
* The conventions of section 1 (abstract `Num`, exact reals, oracles for draws), each of
  which is repeated in the comment of the definition it affects.

Letters: F = `ClassicalDedekindReals.sig_forall_dec`, N = `ClassicalDedekindReals.sig_not_dec`,
E = `FunctionalExtensionality.functional_extensionality_dep`, C = `Classical_Prop.classic`,
D = `ClassicalEpsilon.constructive_indefinite_description`.  F, N and E come with the real
numbers; C with Flocq, Coquelicot and the order on R; D with the mathcomp structures on R used for matrices.
`Print Assumptions` for each theorem of MANIFEST.json:

* **Closed under the global context** (157 theorems): C78_blocks_usable, C78_no_assertion, C78_misaligned_reported, C78_max_size, C78_views, C78_too_many_elements_refuted, C72_nich_remove_from_empty, C72_dpd_no_mass_left, C72_dpd_values_checked, C72_dpd_shared_load_checked, C72_niw_shared_load_checked, C72_empty_collections, C72_safe_samplers, C72_low_entropy_sample_size, C51_reflexive, C51_symmetric_refuted, C65_leafwise64_partial, C94_clustering_fields, C94_clustering_round_trip, C94_clustering_any_writer, C94_clustering_any_bytes, C94_clustering_accepted, C94_clustering_initialized, C94_clustering_equal, C94_clustering_merge, C94_clustering_copy, C94_clustering_one_alternative_refuted, C41_niw_any_arithmetic, C95_shareds, C95_bb_group, C95_gp_group, C95_bnb_group, C95_nich_group, C95_dd_group, C95_dpd_group, C95_dpd_shared, C95_niw_group, C95_niw_shared, C95_any_bytes, C95_any_bytes_refuted, C95_file, C22_dpd_group_is_multiset, C59_dpd_merge_pools_counts_partial, C36_dpd_score_value_accumulates, C34_dpd_cache_fresh, C01_driver_counts_exact, C02_empty_groups_exact_and_constant, C03_add_value_frame, C03_remove_value_frame, C54_illegal_add_rejected, C54_illegal_remove_rejected, C54_release_build_detects_zero_add_refuted, C19_bb_group_is_multiset, C20_dd_group_is_multiset, C21_dd_merge_pools_counts_partial, C24_bnb_group_is_multiset, C70_enumeration_exists, C71_sequences_exist, C31_niw_scorer_agrees, C73_rejects_mismatch, C15_packed_remove, C15_packed_add_remove, C15_packed_remove_out_of_range, C04_cached_scores_fresh, C07_score_remove_reverses_add, C41_bb_group_round_trip, C41_gp_group_round_trip, C41_bnb_group_round_trip, C41_nich_group_round_trip, C41_dd_group_round_trip, C41_dd_merge_repaired_by_round_trip, C41_dpd_group_round_trip, C41_dpd_merge_repaired_by_round_trip, C41_dpd_debt_round_trip_refuted, C41_simple_shareds_round_trip, C68_niw_load_safe, C68_dd_rejects_long, C68_dd_load_safe_refuted, C68_dpd_length_check, C68_counts_wrap, C43_discrete_in_range, C43_likelihoods_in_range, C43_empty_is_an_error, C44_pair_distinct, C44_pair_uniform, C44_urn_uniform, C08_remove_reverses_add_partial, C08_remove_from_complete_dataset_refuted, C09_assignments_valid, C10_assignments_valid, C10_too_many_is_an_error, C11_counts_exact, C11_independent_of_hash_order, C11_gap_reported, C11_negative_reported, C94_names, C94_round_trip, C94_round_trip_incomplete, C94_any_writer, C94_any_bytes, C94_accepted, C94_equal, C94_merge, C94_copy, C94_initialized, C94_cut_short, C94_cut, C94_cut_refused_refuted, C94_only_written_refuted, C37_score_data_grid, C32_bb_cache_coherent, C32_gp_cache_coherent, C32_nich_cache_coherent, C32_bnb_cache_coherent, C33_dd_cache_fresh, C36_score_value_accumulates, C16_sparse_counter_exact, C16_total_is_sum_of_entries, C16_rename, C16_usable_without_clear_refuted, C16_unchecked_misuse_refuted, C17_merge_counts_partial, C17_merge_total_refuted, C18_sparse_map_refines, C18_illegal_call_reported, C18_unchecked_illegal_call, C52_reader_deterministic, C52_round_trip, C52_long_record_refused, C52_cut_at_boundary, C53_truncation_undetected_refuted, C53_cut_anywhere_partial, C63_json_round_trip, C63_costream_same_file, C64_truncation_raises, C64_broken_item_raises, C14_main_init_dd_refuted, C62_gibbs_programs_are_plans, C12_tracker_bijection, C12_new_id_is_fresh, C12_remove_retires_exactly_one_id, C13_ids_unique_forever_refuted, C50_zero, C50_shift, C50_scale, C50_negate, C50_add, C50_negate_and_add, C50_add_add, C50_add_subtract, C50_add_subtract_scalar, C50_multiply_add, C50_map, C50_map_in_place, C50_sum, C50_dot, C50_min_max_of_empty_refuted.
* **F** (2 theorems): C21_dd_merge_pools_data_refuted, C41_dd_group_round_trip_refuted.
* **E F** (15 theorems): C51_symmetric_partial, C65_leafwise_partial, C65_vector_of_pairs_refuted, C59_dpd_merge_pools_data_refuted, C79_plain_messages, C79_dpd_group_partial, C79_dpd_shared_partial, C79_dump_order_immaterial, C79_dpd_group_counts_refuted, C79_dpd_shared_betas_refuted, C48_in_bounds_partial, C48_nan_refuted, C48_int_log2, C48_rows, C66_last_wraps_refuted.
* **C E F N** (224 theorems): C60_gp_normalised, C60_bnb_total, C60_bnb_normalised_partial, C60_bnb_below_one, C60_bnb_normalised_refuted, C95_floats, C28_dpd_chain_rule, C28_dpd_exchangeable, C30_dpd_predictive_total, C30_dpd_normalised, C31_dpd_scorer_agrees, C37_dpd_mixture_score_data, C58_dpd_predictive, C39_shared_tracks_values, C39_shared_never_fails, C39_mass_partial, C39_mass_without_clamp, C39_mass_refuted, C40_realize_partial, C40_realize_new_values_refuted, C40_realize_cap_refuted, C42_dump_load_partial, C42_round_trip_without_clamp, C42_dump_load_refuted, C34_dpd_scores_current, C35_dpd_cache_follows_shared_partial, C35_dpd_cache_stale_refuted, C35_dpd_lookup_undefined_refuted, C93_student_t, C93_nich_predictive, C93_nich_marginal, C84_bb_draws, C84_dd_draws, C84_dpd_draws, C84_gp_draws, C84_bnb_draws_partial, C84_bnb_draws_refuted, C84_log_gamma, C85_nich_draws, C85_literal_pi, C85_groups, C80_exp_accurate_partial, C80_exp_underflow, C80_exp_not_negative, C80_exp_zero, C80_table, C80_exp_large_refuted, C80_exp_undefined_refuted, C86_fast_lgamma, C86_fast_lgamma_daz_partial, C86_fast_lgamma_daz_refuted, C86_fast_lgamma_nu, C86_log_factorial_partial, C86_tables, C87_step_partial, C87_step_refuted, C87_monotone_refuted, C82_bb_flavors, C82_gp_flavors, C82_gp_cython, C82_bnb_flavors, C82_nich_flavors, C82_nich_empty_refuted, C82_dd_flavors, C82_dd_merged_score_data_refuted, C82_dpd_flavors, C82_dpd_shared_add, C82_dpd_shared_remove, C82_dpd_shared_clamp_refuted, C82_niw_flavors, C82_low_entropy_flavors_partial, C82_low_entropy_counts_partial, C82_low_entropy_flavors_refuted, C82_scores_to_probs, C96_dpd_data, C96_bnb_value, C96_bnb_data, C96_bb_data, C96_bb_data_refuted, C96_gp_value, C96_gp_data, C96_dd_data, C83_variance_nonneg, C83_streaming_accuracy, C83_posterior_positive, C83_merge_accuracy, C83_merge_posterior_positive, C83_removal_refuted, C83_empty_merge_refuted, C81_likelihoods, C81_sample, C81_probs, C81_improbable_index_refuted, C88_fast_log, C88_fast_log_subnormal_refuted, C88_fast_log_zero, C88_fast_log_monotone, C88_bb, C88_dd, C88_dpd, C88_py_add, C88_py_cached, C91_rows, C91_approximations, C91_overestimate_refuted, C91_absolute_refuted, C91_log_factorial, C89_joint_score, C89_scores_are_increments, C89_full_conditional, C89_detailed_balance, C89_stationary, C23_gp_group_is_multiset, C25_nich_group_is_exact, C26_nich_repeated_partial, C26_nich_repeated_mean_error, C26_nich_repeated_refuted, C69_sampler_law, C70_score_counts_normalised, C71_bb_marginal_normalised, C71_dd_marginal_normalised, C98_low_entropy_add, C98_low_entropy_dip, C98_low_entropy_monotone_refuted, C98_low_entropy_new, C97_low_entropy_law_partial, C97_low_entropy_normalised_refuted, C97_low_entropy_sample_refuted, C90_fast_log_sum_exp, C90_log_sum_exp, C90_symmetric, C90_impossible, C90_impossible_refuted, C90_vector, C90_score_from_scores, C90_fast_log_within, C29_niw_plus_group_composes, C27_niw_group_is_multiset, C73_multivariate_normal_law, C73_rejects_indefinite, C74_wishart_draw_valid, C04_cached_scores_are_direct, C04_score_add_is_restaurant_rule, C04_cached_equals_uncached, C05_predictive_normalised, C06_joint_score_is_any_seating, C06_joint_score_exchangeable, C41_niw_group_round_trip, C41_niw_shared_round_trip, C43_discrete_is_inverse_cdf, C43_likelihoods_is_inverse_cdf, C43_scores_is_inverse_cdf, C45_dirichlet_is_probability_vector, C45_dirichlet_safe_bounded_below, C45_dirichlet_in_place, C45_beta_safe_range, C45_beta_value, C46_log_sum_exp, C46_empty, C46_likelihoods, C46_probs, C46_shift_invariant, C46_score_of_sample, C46_prob_of_sample, C55_discrete_never_zero, C55_likelihoods_never_zero_partial, C55_likelihoods_never_zero_refuted, C08_remove_reverses_add_refuted, C09_assignments_follow_restaurant_rule, C56_order_independent, C56_empty_groups_partial, C56_empty_groups_refuted, C57_last_value_conditional, C28_bb_chain_rule, C28_dd_chain_rule, C28_gp_chain_rule, C28_bnb_chain_rule, C28_nich_chain_rule_up_to_pi, C28_exchangeable, C29_plus_group_composes, C29_predictive_composes, C30_bb_normalised, C30_dd_normalised, C31_scorer_agrees, C37_mixture_score_data, C37_small_mixture_score_data, C38_dd_grid_exact, C38_dd_grid_wrong_buffer, C58_bb_predictive, C58_dd_predictive, C58_gp_predictive, C58_bnb_predictive, C32_bnb_cache_exact, C33_dd_scores_current, C47_in_bounds, C47_underestimate_refuted, C47_accuracy_partial, C47_exact_constant_partial, C47_monotone, C47_log_zero_finite, C66_factorial_partial, C49_exact_rows, C49_public_rows, C92_exact, C92_student_t, C92_nich, C92_flat, C92_tails_refuted, C92_log_beta, C92_log_binom, C92_log_binom_refuted, C14_system_aligned, C14_main_init_aligned, C14_overview_pattern_refuted, C61_system_scores, C62_sampler_keeps_assignments, C76_no_data_race, C76_rows_exact, C76_fair_schedules_finish, C77_calls_after_bad_alloc_partial, C77_row_after_bad_alloc_refuted, C77_undefined_after_bad_alloc_refuted, C50_max, C50_min.
* **C D E F N** (9 theorems): C93_niw_predictive, C93_niw_marginal, C28_niw_chain_rule, C28_niw_exchangeable, C67_niw_posterior_valid, C74_inverse_wishart_draw_valid, C75_niw_sampler_partial, C75_values_have_wrong_covariance, C75_niw_values_refuted.
* **E F N** (1 theorems): C93_mass_unique.

## 4. Modelled and not modelled, file by file

| source | modelled | not modelled |
|--------|----------|--------------|
| clustering.hpp, clustering.cc | MixtureDriver, PitmanYor (cached and uncached), LowEntropy with the digits of its log partition table, count_assignments | the text of error messages |
| mixture.hpp | MixtureSlave, MixtureIdTracker, value and data scorers | – |
| models/bb, gp, bnb, nich, dd, dpd, niw (.hpp, .cc) | Shared, Group, Sampler, Scorer, MixtureValueScorer, protobuf load and dump | `EXAMPLE()`; rounding, outside the places listed below |
| random.hpp, random.cc | all samplers built on the four primitive draws | std::random distributions and the generator itself: every primitive draw is an argument |
| vector_math.cc | all kernels, element by element | SIMD, MKL and Yeppp variants |
| special.hpp, special.cc, vendor/fmath.hpp | fast_log, fast_exp, fast_lgamma, fast_lgamma_nu and fast_log_factorial with their tables, in bits; Stirling rows with the mutex and interleavings | libm itself: log2, lgammaf, sqrtf and powf are arguments, with stated accuracy where a theorem needs it; fmath::log, fmath::expd |
| sparse.hpp, trivial_hash.hpp | SparseFloat, SparseCounter, bucket order as an argument | hash functions |
| vector.hpp, aligned_allocator.hpp | Packed_, VectorFloat indexing, aligned views, the allocator against POSIX posix_memalign | the C++ memory model |
| io/protobuf.hpp, schema.proto and the code generated from it | the messages of schema.proto as objects: accessors, Clear, CopyFrom, MergeFrom, equality, IsInitialized, ByteSize, serialising to and parsing from bytes with unknown fields, load and dump through them, message comparison | the protobuf library's own buffers, arenas, reflection and text format |
| assert_close.hpp, common.hpp | are_close for scalars, pairs, vectors, maps; debug levels; DIST_ERROR as `Fail` | printing |
| distributions/io/stream.py, examples/mixture/main.py | JSON and protobuf stream framing; the Mixture class coordinating drivers, features and id tracker | compression; plotting |
| distributions/dbg/models/*.py, dbg/clustering.py, dbg/random.py | Shared.plus_group, Group add/remove/add_repeated/merge, score_value, score_data of the seven models; DPD Shared add/remove; LowEntropy scores; scores_to_probs | sampling, load/dump, plotting, special functions (scipy: arguments) |
| distributions/hp/models/{gp,dd,nich}.pyx | Group and the two scores | the rest of hp |
| the rest of the Python layer, benchmarks, build files | – | everything |

Rounding is modelled (Flocq binary32, bit for bit) by running the same generic code over an instance of
`Num` made from IEEE operations: `model/FastExp.v`, `FastLog.v`, `FastLgamma.v`, `FloatStirling.v` for the
special functions and their tables; `FloatNum.v`, `FloatLse.v`, `Student.v`, `FloatCount.v` for the rest.
Theorems about rounded results are those of C80, C81, C83, C86-C88, C90-C92, C96 and C98, each for the
functions and ranges it names.  `model/Special.v` works on the bits of the argument and gives a real-valued
answer.  Everywhere else theorems are either about every `Num F` (hence about rounded arithmetic too, since no
law is assumed) or about exact reals, and say which.

Concurrency: `model/StirlingThreads.v` interleaves any number of threads step by step under sequential
consistency; race freedom is proved there, which is what justifies sequential consistency.
