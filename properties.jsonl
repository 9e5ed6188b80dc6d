{"id": "C01", "title": "Clustering driver counts are exact", "statement": "After a mixture driver is initialised from any vector of group sizes and then goes through any sequence of legal add_value / remove_value calls (any positive multiplicity), counts() is exactly the number of values currently in each packed group, sample_size() is exactly the sum of counts(), and no call aborts or hits undefined behaviour, provided the running total stays below 2^31.", "quantifier": "every initial count vector with at least one empty group, every finite sequence of legal calls, every debug level", "why_tests_cant": "A test replays a handful of hand-written or random histories; the failure modes (a stale id, a forgotten swap, a lost empty group) only appear for particular interleavings of adds and removes, and there are infinitely many of them.", "anchors": ["include/distributions/mixture.hpp: MixtureDriver::init, add_value, remove_value, counts, sample_size", "src/clustering.cc: Clustering<int32_t>"]}
{"id": "C02", "title": "The number of empty groups never changes and the reported empty ids are exact", "statement": "After initialisation and any sequence of legal adds and removes, empty_groupids() is exactly the set of positions whose count is zero, and its size is the size it had after init (so there is always an empty group to open).", "quantifier": "every initial count vector, every finite sequence of legal calls", "why_tests_cant": "A test replays a handful of hand-written or random histories; the failure modes (a stale id, a forgotten swap, a lost empty group) only appear for particular interleavings of adds and removes, and there are infinitely many of them.", "anchors": ["include/distributions/mixture.hpp: MixtureDriver::add_value, remove_value, empty_groupids, _validate"]}
{"id": "C03", "title": "add_value / remove_value report group creation and deletion exactly, with a frame", "statement": "add_value returns true iff the group was empty before the call, in which case exactly one new empty group appears at the end; remove_value returns true iff the group becomes empty, in which case the group disappears and the last group takes its packed id; all other groups keep id and size.", "quantifier": "every reachable driver state and every legal call", "why_tests_cant": "A test replays a handful of hand-written or random histories; the failure modes (a stale id, a forgotten swap, a lost empty group) only appear for particular interleavings of adds and removes, and there are infinitely many of them.", "anchors": ["include/distributions/mixture.hpp: MixtureDriver::add_value, remove_value", "include/distributions/vector.hpp: Packed_::packed_add, packed_remove"]}
{"id": "C04", "title": "Pitman-Yor cached scores never go stale", "statement": "For every history of init/add/remove on the cached Pitman-Yor mixture, score_value writes for every group the same value as a mixture freshly initialised from the current counts would, and (in exact arithmetic) this equals score_add_value of that group's size, the current number of non-empty groups, the current sample size and the current number of empty groups.", "quantifier": "every alpha>0, 0<=d<1, every initial count vector, every legal history, every group", "why_tests_cant": "The cache is updated incrementally on four paths; a missed path only shows after a particular history and a particular permutation of ids.", "anchors": ["include/distributions/clustering.hpp: PitmanYor::CachedMixture::{init,add_value,remove_value,score_value}, PitmanYor::score_add_value"]}
{"id": "C05", "title": "Pitman-Yor predictive probabilities form a distribution", "statement": "In every reachable mixture state the exponentials of the scores written by score_value over all packed groups (including all empty ones) sum to exactly 1 in exact arithmetic, and each lies strictly between 0 and 1 or equals 1 when there is a single group.", "quantifier": "every alpha>0, 0<=d<1, every reachable state with any number of empty groups", "why_tests_cant": "A test samples a few count vectors; a wrong normaliser can cancel on those.", "anchors": ["include/distributions/clustering.hpp: PitmanYor::score_add_value, CachedMixture::score_value"]}
{"id": "C06", "title": "Pitman-Yor joint score is exchangeable and equals the product of sequential predictive scores", "statement": "score_counts(counts) equals the sum of score_add_value over any order of inserting the values one at a time from the empty partition; hence it does not depend on the order of groups, nor on empty groups in the vector.", "quantifier": "every vector of non-negative counts, every alpha>0, 0<=d<1, every insertion order", "why_tests_cant": "The code has separate formulas for counts 1, 2 and >=3; a test checks a few sizes, the claim is over all partitions and all orders.", "anchors": ["src/clustering.cc: PitmanYor::score_counts", "include/distributions/clustering.hpp: PitmanYor::score_add_value"]}
{"id": "C07", "title": "Pitman-Yor score_remove_value reverses score_add_value", "statement": "For every state, score_remove_value evaluated on the statistics after adding a value is the negative of score_add_value evaluated before adding it, for the statistics a mixture driver maintains (constant number of empty groups).", "quantifier": "all group sizes, counts, sample sizes and empty-group counts", "why_tests_cant": "Metropolis-Hastings correctness needs it for all arguments; tests never call score_remove_value.", "anchors": ["include/distributions/clustering.hpp: PitmanYor::score_add_value, score_remove_value"]}
{"id": "C08", "title": "Low-entropy score_remove_value reverses score_add_value", "statement": "For every state, LowEntropy::score_remove_value evaluated on the statistics after adding a value is the negative of LowEntropy::score_add_value evaluated before adding it.", "quantifier": "all dataset sizes and all legal statistics", "why_tests_cant": "Metropolis-Hastings correctness needs it for all arguments; tests never call score_remove_value.", "anchors": ["include/distributions/clustering.hpp: LowEntropy::score_add_value, score_remove_value"]}
{"id": "C09", "title": "Pitman-Yor sample_assignments always returns a valid assignment vector", "statement": "For every size and every outcome of the random generator, sample_assignments returns exactly size entries, the first is 0, and every new label is exactly one more than the largest label so far (labels are contiguous in order of first appearance); all table accesses are in bounds and the weights it samples from sum to i+alpha at step i and equal the predictive weights of the current counts.", "quantifier": "every size, alpha>0, 0<=d<1 and every stream of random draws", "why_tests_cant": "The generator has 2^19937 states; tests see a few seeds.", "anchors": ["src/clustering.cc: PitmanYor::sample_assignments", "include/distributions/random.hpp: sample_from_likelihoods"]}
{"id": "C10", "title": "Low-entropy sample_assignments always returns a valid assignment vector", "statement": "For every sample size up to the dataset size and every outcome of the random generator, LowEntropy::sample_assignments returns exactly sample_size entries with labels contiguous in order of first appearance and never indexes out of bounds.", "quantifier": "every dataset size, sample size <= dataset size, every stream of random draws", "why_tests_cant": "Tests see a few seeds only.", "anchors": ["src/clustering.cc: LowEntropy::sample_assignments", "include/distributions/random.hpp: sample_from_likelihoods"]}
{"id": "C11", "title": "count_assignments counts every assignment once, in any hash order", "statement": "For every assignment map with non-negative group ids, entry g of count_assignments is the number of keys assigned to g, the vector is just long enough for the largest id, the entries sum to the number of keys, and the result does not depend on the order in which the hash map is iterated.", "quantifier": "every finite map from keys to non-negative ids, every iteration order of the hash map", "why_tests_cant": "Hash iteration order depends on the library and the insertion history.", "anchors": ["src/clustering.cc: Clustering::count_assignments"]}
{"id": "C12", "title": "Group id tracker is a bijection and global ids are stable and never reused", "statement": "For every history of init / add_group / remove_group, packed_to_global is a bijection between the current packed ids 0..n-1 and the set of live global ids, global_to_packed is its inverse, a live group's global id never changes, and a new group never receives a global id that was used before (as long as fewer than 2^32 groups were ever created).", "quantifier": "every finite history of legal tracker calls", "why_tests_cant": "A test replays a handful of hand-written or random histories; the failure modes (a stale id, a forgotten swap, a lost empty group) only appear for particular interleavings of adds and removes, and there are infinitely many of them.", "anchors": ["include/distributions/mixture.hpp: MixtureIdTracker"]}
{"id": "C13", "title": "Group ids stay unique for an unbounded number of group creations", "statement": "In every history, however long, the live groups have pairwise distinct global ids and the tracker's two directions agree.", "quantifier": "every history including those creating 2^32 or more groups", "why_tests_cant": "Needs 2^32 group creations, out of reach of a unit test.", "anchors": ["include/distributions/mixture.hpp: MixtureIdTracker::add_group (Id = uint32_t, global_size_ = size_t)"]}
{"id": "C14", "title": "Driver, slaves and id tracker stay aligned under the documented protocol", "statement": "If a client follows the documented protocol (driver.add_value, slave.add_value, then add_group on slaves and tracker when the driver says so; symmetrically for removal), then for every history each packed position of the driver, each slave and the tracker describe the same group: its count is the number of values assigned to its global id and each slave's group statistic is the statistic of exactly those values.", "quantifier": "every initial number of empty groups, every sequence of adding values to live groups and removing present values, every component model whose group statistic satisfies add/remove laws", "why_tests_cant": "A test replays a handful of hand-written or random histories; the failure modes (a stale id, a forgotten swap, a lost empty group) only appear for particular interleavings of adds and removes, and there are infinitely many of them.", "anchors": ["include/distributions/mixture.hpp: MixtureDriver, MixtureSlave, MixtureIdTracker", "examples/mixture/main.py: ImageModel.Mixture", "doc/overview.rst"]}
{"id": "C15", "title": "Packed vector removal removes exactly one element", "statement": "packed_remove(pos) yields a vector with exactly the element at pos removed (as a multiset), only the last element changing position, and packed_add(v) followed by packed_remove of the last position restores the vector; it is undefined exactly when pos is out of range.", "quantifier": "every vector, every position", "why_tests_cant": "Quantifies over all sizes and positions including last and single element.", "anchors": ["include/distributions/vector.hpp: Packed_::packed_remove, packed_add"]}
{"id": "C16", "title": "Sparse counter behaves as an integer-valued map with its exact total", "statement": "After clear(), for every sequence of add(key,n) (n of any sign), remove(key) and init_count on fresh keys, get_count(key) is the integer sum of all amounts for that key, get_total() is the sum over all keys, add returns the new count, and iteration visits exactly the keys with non-zero count.", "quantifier": "every sequence of operations, every key, including negative counts ('data debt')", "why_tests_cant": "All histories over all keys.", "anchors": ["include/distributions/sparse.hpp: SparseCounter"]}
{"id": "C17", "title": "Merging sparse counters adds counts and totals", "statement": "After a.merge(b), a.get_count(k) is the sum of both counts for every key k and a.get_total() is the sum of both totals.", "quantifier": "every pair of reachable counters", "why_tests_cant": "The existing test compares dumps, which do not include the total.", "anchors": ["include/distributions/sparse.hpp: SparseCounter::merge", "include/distributions/models/dpd.hpp: Group::merge"]}
{"id": "C18", "title": "Sparse map refines a finite map", "statement": "For every sequence of add/remove/pop/set/get/get_or_add/contains calls that never adds a present key or touches an absent one, the results equal those of a mathematical finite map, at every debug level; the first illegal call is reported at debug level >= 1.", "quantifier": "every sequence of operations", "why_tests_cant": "All histories over all keys.", "anchors": ["include/distributions/sparse.hpp: Sparse_"]}
{"id": "C19", "title": "Beta-Bernoulli group statistics depend only on the multiset of data", "statement": "For any interleaving of add_value, remove_value, add_repeated_value and merge that nets to a multiset of values, the group is the same as adding those values in any order; remove undoes add; merge(g1,g2) equals the group of the concatenated data; add_repeated_value(v,n) equals n add_value(v).", "quantifier": "every data sequence, every order, every split", "why_tests_cant": "Tests try one shuffle per example.", "anchors": ["include/distributions/models/bb.hpp: Group"]}
{"id": "C20", "title": "Dirichlet-discrete group statistics depend only on the multiset of data", "statement": "For any interleaving of add_value, remove_value and add_repeated_value the counts are those of the net multiset and count_sum is the sum of the counts; add_repeated_value equals repeated add_value; remove undoes add.", "quantifier": "every dimension, data sequence, order", "why_tests_cant": "Tests try one shuffle per example.", "anchors": ["include/distributions/models/dd.hpp: Group"]}
{"id": "C21", "title": "Dirichlet-discrete merge equals pooling the data", "statement": "After g1.merge(g2) the group is the one obtained by adding both data sets, so subsequent predictive scores are those of the pooled data.", "quantifier": "every pair of data sets", "why_tests_cant": "The Python tests compare dumps of counts, which omit the cached sum.", "anchors": ["include/distributions/models/dd.hpp: Group::merge, score_value"]}
{"id": "C22", "title": "Dirichlet-process-discrete group statistics depend only on the multiset of data", "statement": "For any interleaving of add_value, remove_value and add_repeated_value the group's counts are those of the net multiset and its total is the number of values; remove undoes add, add_repeated_value equals repeated add_value.", "quantifier": "every data sequence, order and value id", "why_tests_cant": "Tests try one shuffle per example.", "anchors": ["include/distributions/models/dpd.hpp: Group"]}
{"id": "C23", "title": "Gamma-Poisson group statistics depend only on the multiset of data", "statement": "add_value/remove_value/add_repeated_value/merge on Gamma-Poisson groups yield (in exact arithmetic) the statistic of the net multiset: count, sum and log product of factorials.", "quantifier": "every data sequence, order, split", "why_tests_cant": "Tests try one shuffle per example.", "anchors": ["include/distributions/models/gp.hpp: Group"]}
{"id": "C24", "title": "Beta-negative-binomial group statistics depend only on the multiset of data", "statement": "add_value/remove_value/add_repeated_value/merge on beta-negative-binomial groups yield the statistic of the net multiset: count and sum.", "quantifier": "every data sequence, order, split", "why_tests_cant": "Tests try one shuffle per example.", "anchors": ["include/distributions/models/bnb.hpp: Group"]}
{"id": "C25", "title": "Normal-inverse-chi-squared streaming statistics are exact", "statement": "For every data sequence, after any interleaving of add_value and remove_value the group holds (in exact arithmetic) the count, arithmetic mean and centered sum of squares of the net multiset, independent of order; merging two groups that are not both empty gives the statistics of the pooled data.", "quantifier": "every real data sequence, every order, every split", "why_tests_cant": "The Welford-style updates are order dependent in form; only a proof shows they are order independent in effect.", "anchors": ["include/distributions/models/nich.hpp: Group::add_value, remove_value, merge"]}
{"id": "C26", "title": "Normal-inverse-chi-squared add_repeated_value equals repeated add_value", "statement": "add_repeated_value(v,n) leaves the group in the state n calls of add_value(v) would, from every starting group.", "quantifier": "every starting group, value and multiplicity", "why_tests_cant": "The test starts from an empty group only.", "anchors": ["include/distributions/models/nich.hpp: Group::add_repeated_value"]}
{"id": "C27", "title": "Normal-inverse-Wishart group statistics depend only on the multiset of data", "statement": "add_value/remove_value/add_repeated_value/merge on normal-inverse-Wishart groups yield the statistic of the net multiset: count, vector sum and sum of outer products.", "quantifier": "every dimension, data sequence, order, split", "why_tests_cant": "Tests try one shuffle per example.", "anchors": ["include/distributions/models/niw.hpp: Group"]}
{"id": "C28", "title": "Marginal likelihood is the product of the posterior predictives (chain rule)", "statement": "For every model (BB, DD, DPD, GP, BNB, NICH, NIW) and every data sequence, score_data of the group holding the data equals the sum over the sequence of score_value of the next value given the group of the previous ones, and score_data of the empty group is 0 (exact arithmetic, lgamma any function with the Gamma recurrence). Hence the joint score is exchangeable.", "quantifier": "every data sequence of every length, every valid hyperparameter", "why_tests_cant": "Tests check 20 sampled values with 10% tolerance.", "anchors": ["include/distributions/models/bb.hpp", "include/distributions/models/dd.hpp", "include/distributions/models/dpd.hpp", "include/distributions/models/gp.hpp", "include/distributions/models/bnb.hpp", "include/distributions/models/nich.hpp: Group::score_value, score_data"]}
{"id": "C29", "title": "Posterior hyperparameters compose (conjugacy)", "statement": "shared.plus_group(g) for a group g holding data xs ++ ys equals (shared.plus_group(group xs)).plus_group(group ys) for GP, BNB, NICH and NIW, so predictive scores given xs++ys are those of the updated shared given ys.", "quantifier": "every split of every data set, every valid hyperparameter", "why_tests_cant": "Universally quantified algebraic identity.", "anchors": ["include/distributions/models/gp.hpp: Shared::plus_group", "include/distributions/models/bnb.hpp: Shared::plus_group", "include/distributions/models/nich.hpp: Shared::plus_group", "include/distributions/models/niw.hpp: Shared::plus_group"]}
{"id": "C30", "title": "Discrete predictive distributions are normalised", "statement": "For BB, DD and DPD (with realised shared, including OTHER), the exponentials of score_value over all values sum to 1 for every reachable group (exact arithmetic).", "quantifier": "every reachable group and valid hyperparameter", "why_tests_cant": "Holds for all counts and hyperparameters, tests check histograms.", "anchors": ["include/distributions/models/bb.hpp", "include/distributions/models/dd.hpp", "include/distributions/models/dpd.hpp: Group::score_value, Scorer"]}
{"id": "C31", "title": "Scorer objects agree with direct scoring", "statement": "For every model, Scorer.init(shared, group) then eval(value) returns what group.score_value(shared, value) returns, for every group and value.", "quantifier": "every model, group and value", "why_tests_cant": "Quantifies over all groups and values.", "anchors": ["include/distributions/models/*.hpp: Scorer::init, Scorer::eval, Group::score_value"]}
{"id": "C32", "title": "Mixture value-scorer caches never go stale (BB, BNB, GP, NICH)", "statement": "After MixtureSlave.init and any legal sequence of add_group, remove_group, add_value, remove_value, every cached per-group score equals what a fresh init from the current groups would cache, so score_value_group and score_value give the score of the current group.", "quantifier": "every legal history, every arithmetic (bit-for-bit, no assumption on floating point)", "why_tests_cant": "A test replays a handful of hand-written or random histories; the failure modes (a stale id, a forgotten swap, a lost empty group) only appear for particular interleavings of adds and removes, and there are infinitely many of them.", "anchors": ["include/distributions/mixture.hpp: MixtureSlave", "include/distributions/models/bb.hpp", "include/distributions/models/bnb.hpp", "include/distributions/models/gp.hpp", "include/distributions/models/nich.hpp: MixtureValueScorer"]}
{"id": "C33", "title": "Dirichlet-discrete mixture value-scorer cache never goes stale", "statement": "Same as above for the Dirichlet-discrete mixture, whose cache is a table value x group updated entry by entry on add/remove.", "quantifier": "every dimension, every legal history, every value and group", "why_tests_cant": "A test replays a handful of hand-written or random histories; the failure modes (a stale id, a forgotten swap, a lost empty group) only appear for particular interleavings of adds and removes, and there are infinitely many of them.", "anchors": ["include/distributions/models/dd.hpp: MixtureValueScorer"]}
{"id": "C34", "title": "Dirichlet-process-discrete mixture value-scorer cache never goes stale", "statement": "For a fixed shared, after init and any legal history of add_group/remove_group/add_value/remove_value with values known to the shared, the sparse cached scores equal those of a fresh init from the current groups for every value known to the shared and every group.", "quantifier": "every legal history, every value", "why_tests_cant": "A test replays a handful of hand-written or random histories; the failure modes (a stale id, a forgotten swap, a lost empty group) only appear for particular interleavings of adds and removes, and there are infinitely many of them.", "anchors": ["include/distributions/models/dpd.hpp: MixtureValueScorer"]}
{"id": "C35", "title": "Dirichlet-process-discrete mixture cache survives changes of the shared features", "statement": "If values are added to / removed from the shared between mixture operations following the documented protocol (shared.add_value before, shared.remove_value after), cached scores still equal direct scores and no lookup is undefined.", "quantifier": "every interleaving of shared and mixture operations", "why_tests_cant": "Needs a specific interleaving: a value known to the shared but unused in the mixture at init, later dropped from the shared.", "anchors": ["include/distributions/models/dpd.hpp: Shared::add_value, remove_value, MixtureValueScorer::resize, add_group, update_group, add_value, remove_value"]}
{"id": "C36", "title": "Mixture score_value accumulates exactly the per-group scores", "statement": "score_value(shared, value, scores) adds to scores[i] exactly score_value_group(shared, i, value) for every group i and changes nothing else, for every model.", "quantifier": "every mixture state, value, and initial score buffer", "why_tests_cant": "All sizes and buffers.", "anchors": ["include/distributions/mixture.hpp: MixtureSlave::score_value, score_value_group", "include/distributions/models/*.hpp", "src/models/gp.cc", "src/models/nich.cc"]}
{"id": "C37", "title": "Mixture score_data is the sum of the groups' marginal likelihoods", "statement": "For every model, MixtureSlave::score_data equals the sum over groups of Group::score_data; score_data_grid gives score_data for every shared in the grid.", "quantifier": "every list of groups and every grid of hyperparameters", "why_tests_cant": "The Dirichlet-discrete scorer uses caches and skips; the claim is for all grids.", "anchors": ["include/distributions/mixture.hpp: SmallMixtureSlaveDataScorer", "include/distributions/models/*.hpp: MixtureDataScorer"]}
{"id": "C38", "title": "Dirichlet-discrete score_data_grid incremental update is exact", "statement": "For every grid of Dirichlet hyperparameters (differing in arbitrary coordinates between consecutive grid points), the incremental score_data_grid returns at every grid point what score_data returns for that point alone.", "quantifier": "every grid, every list of groups", "why_tests_cant": "Incremental caches depend on which coordinates changed between neighbours.", "anchors": ["include/distributions/models/dd.hpp: MixtureDataScorer::score_data_grid, _init, _update"]}
{"id": "C39", "title": "Dirichlet-process shared state conserves probability mass", "statement": "For every sequence of shared add_value/remove_value, the betas are exactly those of the values with positive count and beta0 plus the sum of betas stays equal to 1.", "quantifier": "every history and every outcome of the beta sampler", "why_tests_cant": "The clamp that breaks it needs a tiny remaining mass, reached after a long history.", "anchors": ["include/distributions/models/dpd.hpp: Shared::add_value, remove_value"]}
{"id": "C40", "title": "Dirichlet-process realize leaves no unallocated mass", "statement": "realize terminates, leaves beta0 = 0, keeps all previous values, never exceeds the size cap, and every value it introduces is new; it gives the remaining mass to a single new value exactly when that mass is at most 1e-4 or there is no room for two.", "quantifier": "every shared state and every outcome of the beta sampler", "why_tests_cant": "Depends on the sampler's outcomes.", "anchors": ["include/distributions/models/dpd.hpp: Shared::realize"]}
{"id": "C41", "title": "Serialised shareds and groups round-trip", "statement": "For every model, loading a dumped message restores the same shared/group (up to the integer width of the fields), including every cached sum, so that scores after a round trip equal scores before.", "quantifier": "every reachable shared and group", "why_tests_cant": "All states, all dimensions, boundary values.", "anchors": ["include/distributions/models/*.hpp: protobuf_load, protobuf_dump", "distributions/io/schema.proto"]}
{"id": "C42", "title": "Dirichlet-process shared dump is always accepted by load", "statement": "For every reachable Dirichlet-process shared, protobuf_load accepts what protobuf_dump produced and restores gamma, alpha, betas and counts.", "quantifier": "every reachable shared", "why_tests_cant": "Needs accumulated clamping.", "anchors": ["include/distributions/models/dpd.hpp: Shared::protobuf_load, protobuf_dump"]}
{"id": "C43", "title": "Discrete samplers always return an index in range and implement inverse-CDF sampling", "statement": "For every probability vector and every uniform draw, sample_discrete and sample_from_likelihoods return a valid index; in exact arithmetic the returned index i is the one with cumsum(i-1) <= u < cumsum(i) (resp. < u <=), so the set of draws selecting i has measure p_i.", "quantifier": "every vector, every draw, every arithmetic for the bounds claim", "why_tests_cant": "All vectors and all draws, including rounding shortfall.", "anchors": ["include/distributions/random.hpp: sample_discrete, sample_from_likelihoods, sample_from_scores_overwrite"]}
{"id": "C44", "title": "The urn samplers are uniform, and sample_pair_from_urn returns distinct elements", "statement": "The map from the integer draw of sample_from_urn to the position is one to one and onto; the map from the two integer draws of sample_pair_from_urn to the pair of positions is a bijection onto ordered pairs of distinct positions.", "quantifier": "every non-empty urn (size >= 2 for pairs), every draw or pair of draws", "why_tests_cant": "All sizes.", "anchors": ["include/distributions/random.hpp: sample_from_urn, sample_pair_from_urn"]}
{"id": "C45", "title": "Dirichlet sampler outputs are probability vectors", "statement": "For every parameter vector and all gamma draws with a positive total, sample_dirichlet writes non-negative entries summing to 1, and sample_dirichlet_safe writes entries at least min_value/(1+dim*min_value); in-place use (output aliasing input) gives the same result.", "quantifier": "every dimension, parameter vector and stream of draws", "why_tests_cant": "All draws.", "anchors": ["src/random.cc: sample_dirichlet, sample_dirichlet_safe"]}
{"id": "C46", "title": "Score normalisation helpers are exact and shift-invariant", "statement": "log_sum_exp(scores) = log sum exp(scores), scores_to_likelihoods/scores_to_probs give exp(score-max) and probabilities summing to 1, invariant under adding a constant to all scores; score_from_scores_overwrite(sample) = score[sample] - log_sum_exp(scores).", "quantifier": "every non-empty score vector", "why_tests_cant": "All sizes and values.", "anchors": ["src/random.cc: log_sum_exp, scores_to_likelihoods, score_from_scores_overwrite", "include/distributions/random.hpp: scores_to_probs, sample_prob_from_scores_overwrite"]}
{"id": "C47", "title": "fast_log is table-safe and accurate for every positive normal float", "statement": "For every 32-bit pattern the table index is in range; for every positive normal float x, fast_log(x) <= log(x) <= fast_log(x) + 2^-14 (real-arithmetic evaluation), fast_log is monotone and exact at powers of two.", "quantifier": "all 2^32 float bit patterns", "why_tests_cant": "Tests sample points.", "anchors": ["include/distributions/special.hpp: FastLog::log", "src/special.cc: FastLog::FastLog"]}
{"id": "C48", "title": "fast_lgamma and fast_lgamma_nu never read outside their tables", "statement": "For every float argument, the piecewise polynomial lookup reads inside the coefficient table.", "quantifier": "all 2^32 float bit patterns including NaN and infinities", "why_tests_cant": "Tests sample points; NaN falls through the range test.", "anchors": ["include/distributions/special.hpp: fast_lgamma, fast_lgamma_nu", "src/special.cc: lgamma_approx_coeff5, lgamma_nu_func_approx_coeff3"]}
{"id": "C49", "title": "Stirling-number rows are exact and independent of the call history", "statement": "For every history of calls, row n returned by the cached exact routine holds log |s(n,k)| for k=0..n, the logarithms of the unsigned Stirling numbers of the first kind, whatever rows were requested before.", "quantifier": "every n, every history of previous calls", "why_tests_cant": "History-dependent cache.", "anchors": ["src/special.cc: log_stirling1_cache_add, get_log_stirling1_row_exact"]}
{"id": "C50", "title": "Vector kernels compute their elementwise definition", "statement": "Each vector_math kernel computes, for every size, the documented elementwise operation and leaves all other elements unchanged.", "quantifier": "every size and content", "why_tests_cant": "All sizes, including 0.", "anchors": ["src/vector_math.cc"]}
{"id": "C51", "title": "Closeness test is reflexive and symmetric on every type", "statement": "are_close(x,y) = are_close(y,x) and are_close(x,x) for all finite numbers, vectors and pairs of them.", "quantifier": "all finite inputs", "why_tests_cant": "All inputs.", "anchors": ["include/distributions/assert_close.hpp: are_close"]}
{"id": "C52", "title": "Length-prefixed protobuf streams round-trip and never merge records", "statement": "Reading back a file written by protobuf_stream_dump yields exactly the written records in order, for every list of byte strings shorter than 2^32, and a stream cut at any record boundary yields a prefix.", "quantifier": "every list of byte strings, every cut point", "why_tests_cant": "All payload bytes, all cut points.", "anchors": ["distributions/io/stream.py: protobuf_stream_write, protobuf_stream_read, protobuf_stream_dump, protobuf_stream_load"]}
{"id": "C53", "title": "A length-prefixed stream truncated inside a record is detected", "statement": "If the file is cut at any byte that is not a record boundary, the reader reports an error instead of returning a wrong record.", "quantifier": "every list of byte strings, every cut point", "why_tests_cant": "All cut points.", "anchors": ["distributions/io/stream.py: protobuf_stream_read"]}
{"id": "C54", "title": "Illegal clustering-driver calls are detected", "statement": "A call to the clustering driver that names a group that does not exist, adds or removes zero values, or removes more values than the group holds is reported as an error and never silently accepted.", "quantifier": "every driver state, group id and count, every debug level", "why_tests_cant": "Needs every state and every bad argument; the checks depend on the compile-time debug level.", "anchors": ["include/distributions/mixture.hpp: MixtureDriver::add_value, MixtureDriver::remove_value", "include/distributions/common.hpp: DIST_ASSERT_"]}
{"id": "C55", "title": "Samplers never return an outcome of probability zero", "statement": "sample_discrete and sample_from_likelihoods never return an index whose weight is zero (a group or value that cannot occur).", "quantifier": "every weight vector with positive total and every uniform draw", "why_tests_cant": "The offending draw (exactly 0) has probability 2^-53 or less.", "anchors": ["include/distributions/random.hpp: sample_discrete, sample_from_likelihoods"]}
{"id": "C56", "title": "Low-entropy joint score is a function of the partition", "statement": "LowEntropy::score_counts depends only on the multiset of non-empty group sizes: not on the order of the counts and not on how many empty groups the vector contains.", "quantifier": "every vector of counts and every dataset size", "why_tests_cant": "Holds or fails for all vectors; the test only compares non-empty count vectors.", "anchors": ["src/clustering.cc: LowEntropy::score_counts"]}
{"id": "C57", "title": "Low-entropy predictive agrees with the joint score on the last value", "statement": "When exactly one value of the data set is missing, score_add_value of a group minus score_add_value of the empty group is the difference of score_counts after joining that group and after opening a new one: exactly for groups of up to 10000 values, within 1/(size+1) beyond.", "quantifier": "every partition of every data set", "why_tests_cant": "Two hand-written formulas in two files must agree for all sizes; the switch at 10000 is never reached in tests.", "anchors": ["src/clustering.cc: LowEntropy::score_counts", "include/distributions/clustering.hpp: LowEntropy::score_add_value"]}
{"id": "C58", "title": "Predictive scores are the textbook posterior predictives", "statement": "exp(score_value(v)) of the group holding data x equals: BB (prior + count of v)/(prior sum + n); DD (alpha_v + count of v)/(alpha sum + n); GP the negative binomial with shape alpha + sum and success 1/(1 + inv_beta + n); BNB the ratio of Beta functions, written as rising factorials.", "quantifier": "every data set, every valid hyperparameter, every value", "why_tests_cant": "Closed forms over all data sets and real hyperparameters; tests compare a few against samples within a tolerance.", "anchors": ["include/distributions/models/bb.hpp: Scorer", "include/distributions/models/dd.hpp: Scorer", "include/distributions/models/gp.hpp: Scorer", "include/distributions/models/bnb.hpp: Group::score_value"]}
{"id": "C59", "title": "Merging Dirichlet-process-discrete groups pools their data", "statement": "merge(shared, source) leaves the destination group with the counts and total of the union of the two data sets: it equals the group filled with both.", "quantifier": "every pair of data sets, every iteration order of the hash table", "why_tests_cant": "The total is only read by later scores; the merge test compares score differences within a tolerance on one example.", "anchors": ["include/distributions/models/dpd.hpp: Group::merge", "include/distributions/sparse.hpp: SparseCounter::merge"]}
{"id": "C60", "title": "The count models' predictives are probability distributions over all counts", "statement": "For the Gamma-Poisson and Beta-Negative-Binomial models the probabilities exp(score_value(v)) over all v = 0, 1, 2, ... sum to 1.", "quantifier": "every data set held by the group, every valid hyperparameter", "why_tests_cant": "An infinite sum; tests sum a finite range for a few groups within a tolerance.", "anchors": ["include/distributions/models/gp.hpp: Scorer", "include/distributions/models/bnb.hpp: Group::score_value"]}
{"id": "C61", "title": "End-to-end scores of a row combine prior and every feature of the right group", "statement": "After any history of a client driving a clustering model, one mixture per feature and an id tracker together, the score of a row for every live group is the Pitman-Yor predictive of its size plus, for each feature, Group::score_value of a group filled with exactly the rows that the group holds.", "quantifier": "every list of features of any model, every history, every number of initial empty groups, every row", "why_tests_cant": "The caches of driver and mixtures evolve separately; only all histories together show that position p means the same group everywhere.", "anchors": ["examples/mixture/main.py: ImageModel.Mixture.score_value", "include/distributions/mixture.hpp: MixtureSlave::score_value", "include/distributions/clustering.hpp: CachedMixture::score_value"]}
{"id": "C62", "title": "Sampling programs keep assignments and groups in step", "statement": "In the programs of examples/mixture/main.py (seat every row, then repeatedly unseat and reseat rows, storing global ids), whatever groups the sampler picks, no call fails, every stored global id names a live group, and every group holds exactly the rows assigned to it.", "quantifier": "every data set, every sequence of seating and unseating, every choice made by the sampler", "why_tests_cant": "Tests run a few passes with one random seed.", "anchors": ["examples/mixture/main.py: compress_gibbs, compress_seq_gibbs, compress_annealing", "include/distributions/mixture.hpp: MixtureIdTracker"]}
{"id": "C63", "title": "JSON streams round-trip and both writers produce the same file", "statement": "Iterating json_stream_load over a file written by json_stream_dump yields exactly the items written, in order, then StopIteration, also for an empty stream; json_costream_dump fed the same items leaves the same file.", "quantifier": "every list of items, every serialiser whose texts are on one line and parse back", "why_tests_cant": "The reader relies on line structure that depends on every item's text; tests use a few items.", "anchors": ["distributions/io/stream.py: json_stream_dump, json_costream_dump, json_stream_load"]}
{"id": "C64", "title": "A truncated JSON stream is always reported", "statement": "If the file was cut at any byte before its end, or the writer failed on an item, opening or iterating json_stream_load raises an exception instead of ending normally; all values before the exception, except at most the last one, are items that were written.", "quantifier": "every list of items, every cut point, every failing item", "why_tests_cant": "All cut points of all files.", "anchors": ["distributions/io/stream.py: json_stream_load.__init__, json_stream_load.next"]}
{"id": "C65", "title": "Closeness of containers is closeness of their members", "statement": "are_close on nested vectors and pairs holds exactly when sizes agree, exact members are equal and corresponding floating-point members are within the tolerance.", "quantifier": "every nested type, all values", "why_tests_cant": "Which overload is called for nested types is decided at compile time, type by type.", "anchors": ["include/distributions/assert_close.hpp: are_close"]}
{"id": "C66", "title": "fast_log_factorial is the log-factorial for every 32-bit argument", "statement": "fast_log_factorial(n) is log(n!) up to the error of the float table or of fast_lgamma(n+1), for every uint32_t n.", "quantifier": "all 2^32 arguments", "why_tests_cant": "Tests sample arguments; the largest one wraps.", "anchors": ["include/distributions/special.hpp: fast_log_factorial", "src/special.cc: log_factorial_table"]}
{"id": "C67", "title": "Normal-inverse-Wishart posteriors stay valid", "statement": "For valid parameters (symmetric positive definite psi, kappa > 0) and every data set, plus_group of the group holding the data returns a symmetric positive definite psi with positive determinant, so the scores take no logarithm of a non-positive number.", "quantifier": "every dimension, every data set, every valid hyperparameter", "why_tests_cant": "Positive definiteness over all data sets and dimensions; tests use dimension 2 to 4.", "anchors": ["include/distributions/models/niw.hpp: Shared::plus_group, Group::score_data, Scorer::eval"]}
{"id": "C68", "title": "Loading any message is safe", "statement": "For every message handed to protobuf_load, whether or not protobuf_dump produced it, the load either stops with an error or yields an object, and never performs an undefined operation (reading beyond the message, signed overflow). An accepted message is represented faithfully: dumping the object gives the message back, which for 64-bit count fields holds exactly when the value fits the counter's type.", "quantifier": "every message, every model, every debug level", "why_tests_cant": "Messages come from disk or other programs; tests load messages they dumped themselves.", "anchors": ["include/distributions/models/niw.hpp:105-234", "include/distributions/models/dd.hpp:62-111", "include/distributions/models/dpd.hpp:160-180", "include/distributions/models/bb.hpp:84-93", "include/distributions/models/gp.hpp:90-101", "include/distributions/models/bnb.hpp:94-103", "include/distributions/models/nich.hpp:104-115"]}
{"id": "C69", "title": "The Pitman-Yor sampler draws from the law that score_counts scores", "statement": "With independent uniform draws, sample_assignments returns a given sequence of group labels with probability exactly exp(score_counts(group sizes of the sequence)).", "quantifier": "every valid alpha and d, every length, every label sequence, every outcome of the random draws", "why_tests_cant": "A law cannot be observed; tests compare frequencies of short samples with a tolerance.", "anchors": ["src/clustering.cc: Clustering<int>::PitmanYor::sample_assignments, score_counts"]}
{"id": "C70", "title": "Pitman-Yor score_counts is a normalised distribution over partitions", "statement": "Summed over all partitions of n values, exp(score_counts) equals 1.", "quantifier": "every n, every valid alpha and d", "why_tests_cant": "The number of partitions grows as the Bell numbers.", "anchors": ["src/clustering.cc: Clustering<int>::PitmanYor::score_counts"]}
{"id": "C71", "title": "Marginal likelihoods are normalised over data sequences", "statement": "Summed over all sequences of n values, exp(score_data of the group holding the sequence) equals 1, for models with finitely many values.", "quantifier": "every n up to 2^31-1, every valid hyperparameter, every number of categories", "why_tests_cant": "There are k^n sequences; tests check a few groups against one-step predictive scores.", "anchors": ["include/distributions/models/bb.hpp: Group::score_data", "include/distributions/models/dd.hpp: Group::score_data"]}
{"id": "C72", "title": "Invalid arguments are reported in every build", "statement": "Calls that violate a documented requirement guarded by an unconditional assertion end in an error at every debug level: removing from an empty normal group, adding a new value to a prior without mass, loading a message whose fields are inconsistent, sampling from an empty collection, non-positive parameters of the safe samplers, more samples than data.", "quantifier": "every argument, every debug level, NaN included", "why_tests_cant": "Assertions matter for all inputs and all build configurations; tests run one build on good inputs.", "anchors": ["include/distributions/models/nich.hpp:152", "include/distributions/models/dpd.hpp:69, 108-123", "include/distributions/models/niw.hpp:105-190", "include/distributions/random.hpp:110-119, 261-333", "src/random.cc:54-72", "src/clustering.cc:239-254"]}
{"id": "C73", "title": "Multivariate normal draws have the requested mean and covariance", "statement": "sample_multivariate_normal(mu, sigma) succeeds for every symmetric positive definite sigma and returns mu + L z with L L^T = sigma, z being the standard normal draws; a symmetric matrix that is not positive definite, or a dimension mismatch, is reported.", "quantifier": "every dimension, mean, matrix and draw", "why_tests_cant": "Tests compare sample moments with a tolerance for one matrix.", "anchors": ["include/distributions/random.hpp:187-206 sample_multivariate_normal"]}
{"id": "C74", "title": "Wishart and inverse-Wishart draws are valid covariance matrices", "statement": "For nu > d-1, a positive definite scale matrix and any positive chi-squared and any normal draws, the sampled matrices are symmetric positive definite and follow Bartlett's construction with nu - i degrees of freedom.", "quantifier": "every dimension, scale matrix, nu and outcome of the draws", "why_tests_cant": "Positive definiteness for all outcomes cannot be sampled.", "anchors": ["include/distributions/random.hpp:208-247 sample_wishart, sample_inverse_wishart"]}
{"id": "C75", "title": "The normal-inverse-Wishart sampler draws from the posterior predictive", "statement": "Sampler::init draws Sigma from the posterior inverse Wishart and the mean from N(mu_n, Sigma/kappa_n); Sampler::eval then draws values from N(mean, Sigma).", "quantifier": "every data set, valid hyperparameters, every outcome of the draws", "why_tests_cant": "Tests compare histograms with few samples; a wrong factor in the covariance goes unnoticed when kappa is near 1.", "anchors": ["include/distributions/random.hpp:249-259 sample_normal_inverse_wishart", "include/distributions/models/niw.hpp:310-341 Sampler"]}
{"id": "C76", "title": "Threads sharing the table of Stirling rows never race, never get wrong rows and always return", "statement": "When any number of threads call get_log_stirling1_row (n < 32) concurrently, no two of them ever access the shared table at the same time with one writing, nothing undefined happens, every call that has returned holds the logarithms of the Stirling numbers of its row, and under every fair schedule all calls return.", "quantifier": "any number of threads, every requested row, every interleaving", "why_tests_cant": "Interleavings of lock, test, growth and copy are unboundedly many; no test runs threads.", "anchors": ["src/special.cc:55-84 log_stirling1_cache_mutex, log_stirling1_cache_add, get_log_stirling1_row_exact"]}
{"id": "C77", "title": "The table of Stirling rows survives running out of memory", "statement": "If growing the table throws bad_alloc at any point, the lock is released and calls made afterwards still return the right rows.", "quantifier": "every thread count, interleaving and allocation failure", "why_tests_cant": "Every allocation point is a crash point; tests never fail an allocation.", "anchors": ["src/special.cc:58-84 log_stirling1_cache_add, get_log_stirling1_row_exact"]}
{"id": "C78", "title": "The aligned allocator hands out aligned, large enough, disjoint memory", "statement": "Over every history of allocate and deallocate, every pointer owned by the caller is aligned, has room for the requested number of elements and overlaps no other owned block; every pointer passed to free is live; the alignment assertions of the allocator and of aligned views never fire on such pointers; requests beyond max_size throw bad_alloc.", "quantifier": "every history, element size, power-of-two alignment and debug level; every answer of posix_memalign permitted by POSIX", "why_tests_cant": "Sizes near 2^64 and all histories cannot be allocated in a test.", "anchors": ["include/distributions/aligned_allocator.hpp:96-121", "include/distributions/vector.hpp:63-87 Aligned_"]}
{"id": "C79", "title": "Messages are close exactly when their contents are", "statement": "are_close on two protobuf messages of a model holds exactly when integer fields are equal, floating-point fields are within the tolerance (log_prod of GammaPoisson groups excepted, as documented) and keyed entries agree whatever their order; in particular two dumps of one object, visiting its containers in different orders, are always close.", "quantifier": "all pairs of messages of every model, every iteration order of the containers", "why_tests_cant": "Hash container order differs between runs and libraries; tests see one order and small counts.", "anchors": ["include/distributions/io/protobuf.hpp:81-313 operator==, are_close"]}
{"id": "C80", "title": "fast_exp is the exponential function on its domain", "statement": "fast_exp(x) returns a finite, non-negative float within (|x|+8) 2^-23 of exp(x), relatively, whenever exp(x) is a normal number; it returns exactly 1 at zero; for smaller arguments, minus infinity included, it returns a number next to 0; for larger ones a clamped or infinite value, never NaN or a negative number.", "quantifier": "every float and every table of roots of two rounded to within one unit in the last place", "why_tests_cant": "There are 2^32 arguments; tests compare with exp on a few hundred random ones of moderate size.", "anchors": ["include/distributions/vendor/fmath.hpp:130-200 ExpVar", "include/distributions/vendor/fmath.hpp:438-459 exp", "include/distributions/special.hpp:87-89 fast_exp"]}
{"id": "C81", "title": "Sampling from scores follows softmax probabilities despite single-precision rounding", "statement": "For any vector of finite scores, scores_to_likelihoods, scores_to_probs and sample_from_scores run without undefined behaviour; the best score gets likelihood exactly 1, probabilities differ from softmax by at most a bound linear in the number of scores times 3e-7 plus 7e-5, the drawn index is the inverse of the cumulative probabilities within the same bound, and an index whose probability vanishes in single precision is never drawn.", "quantifier": "every vector of up to 2^20 finite float scores of magnitude at most 5e8, every float u in [0,1]", "why_tests_cant": "The rounding of every sum, subtraction and exponential matters; tests sample a few vectors with a goodness-of-fit tolerance.", "anchors": ["src/random.cc:94-106 scores_to_likelihoods", "include/distributions/random.hpp:315-392 sample_from_likelihoods, scores_to_probs, sample_from_scores", "include/distributions/special.hpp:87-89 fast_exp"]}
{"id": "C82", "title": "The C++, Cython and Python flavours of a model agree", "statement": "For every sequence of add, remove, add_repeated and merge calls, where the groups merged in went through sequences of their own, the C++ group holds the same statistics as the Python reference group (distributions/dbg) and the Cython group (distributions/hp), and score_value and score_data return the same numbers in exact arithmetic; so do DirichletProcessDiscrete::Shared after add_value/remove_value, LowEntropy scores and scores_to_probs.", "quantifier": "every history with nested merges, every Shared, every lgamma with the Gamma recurrence", "why_tests_cant": "tests/test_models.py compares the flavours on a few EXAMPLES with small counts and a tolerance.", "anchors": ["distributions/dbg/models/*.py Group", "distributions/hp/models/{gp,dd,nich}.pyx", "distributions/dbg/clustering.py LowEntropy", "distributions/dbg/random.py scores_to_probs", "include/distributions/models/*.hpp Group", "src/clustering.cc LowEntropy"]}
{"id": "C83", "title": "The streaming mean and variance of NormalInverseChiSq survive single-precision rounding", "statement": "Whatever finite values are added and whatever groups are merged, the sum of squared deviations kept by a NormalInverseChiSq group never becomes negative, its mean stays between the smallest and the largest value added, both stay close to the exact mean and variance (error linear in the number of values times the magnitude times 2^-24), and the posterior variance used by the scores is positive; removing values again keeps it so; a group built from new groups is usable.", "quantifier": "every history of additions and merges of finite floats, every such history of up to 2^20 values, however the merges nest, for the error bounds", "why_tests_cant": "Rounding error depends on every value and its order; tests add at most a few hundred well-scaled values and compare with a tolerance.", "anchors": ["include/distributions/models/nich.hpp:58-69 plus_group", "include/distributions/models/nich.hpp:117-179 Group::init, add_value, remove_value, merge"]}
{"id": "C84", "title": "Sampled values have the probabilities the scores state", "statement": "For every Shared and Group of BetaBernoulli, DirichletDiscrete, DirichletProcessDiscrete, GammaPoisson and BetaNegativeBinomial, the values drawn one after the other from one Sampler (after Sampler::init) have jointly the probability exp(sum of score_value), each value being scored before it is added: sampling and scoring describe the same predictive distribution, for one value and for any number of them.", "quantifier": "every Shared and Group, every number of values drawn from one sampler, every gamma and uniform draw", "why_tests_cant": "tests/test_models.py draws a thousand values from a handful of groups and applies a goodness-of-fit test to the marginal of single values.", "anchors": ["include/distributions/models/{bb,dd,dpd,gp,bnb}.hpp Sampler, Group::sample_value, score_value", "include/distributions/random.hpp:49-98 sample_bernoulli, sample_gamma, sample_poisson, sample_negative_binomial, sample_beta", "include/distributions/random.hpp:100-132 sample_dirichlet", "include/distributions/random.hpp:158-173 sample_discrete"]}
{"id": "C85", "title": "Values sampled from NormalInverseChiSq have the density the scores state", "statement": "For every Shared and every reachable Group, Sampler::init draws a variance (scaled inverse chi-squared) and a mean (normal), and the values eval then draws around that mean have jointly the density exp(sum of score_value), each value being scored before it is added (a product of student-t densities), up to the factor by which the literal M_PIf differs from pi, at most 4e-15 per value.", "quantifier": "every Shared and reachable Group, every finite list of real values", "why_tests_cant": "A density is not observable from samples; tests bin a thousand draws of single values.", "anchors": ["include/distributions/models/nich.hpp:213-231 Sampler", "include/distributions/models/nich.hpp:233-260 Scorer", "include/distributions/random.hpp:62-75 sample_normal, sample_chisq"]}
{"id": "C86", "title": "fast_lgamma, fast_lgamma_nu and fast_log_factorial are accurate", "statement": "For every float in [2.5, 2^32), fast_lgamma returns a finite float within 3.9e-5 of the logarithm of the Gamma function, relatively (4.2e-6 from 16 on), and outside that range it is lgammaf; for every float nu in [1/16, 2^32) fast_lgamma_nu is within 0.016 of lgamma(nu/2+1/2) - lgamma(nu/2); for every n >= 64 fast_log_factorial(n) is within 4.5e-6 of log n!, relatively; whatever floating-point mode the library is built with.", "quantifier": "every float argument, every unsigned n, denormals read as numbers or as zeros", "why_tests_cant": "There are 2^32 arguments; tests compare a few hundred with scipy.", "anchors": ["src/special.cc:144-211 lgamma_approx_coeff5", "src/special.cc:232-269 lgamma_nu_func_approx_coeff3", "include/distributions/special.hpp:114-171 fast_lgamma", "include/distributions/special.hpp:208-214 fast_log_factorial", "include/distributions/special.hpp:224-273 fast_lgamma_nu", "CMakeLists.txt:23", "setup.py:87"]}
{"id": "C87", "title": "Steps of fast_lgamma follow the recurrence of the Gamma function", "statement": "fast_lgamma(y+1) - fast_lgamma(y) is close to log y, and fast_lgamma is increasing above 2.5: scores of a value against two groups that differ by one datum compare as in exact arithmetic.", "quantifier": "every float y such that y+1 is a float", "why_tests_cant": "The approximation is a different polynomial in every octave; tests look at values, not at differences across octave boundaries.", "anchors": ["include/distributions/special.hpp:114-171 fast_lgamma", "include/distributions/models/gp.hpp:153-250 Scorer, score_data"]}
{"id": "C88", "title": "Predictive scores in single precision are the exact log-probabilities to four digits", "statement": "score_value of BetaBernoulli, DirichletDiscrete, DirichletProcessDiscrete and of the Pitman-Yor clustering (score_add_value, and the cached scores after any legal history of additions and removals), computed in floats with the table-based fast_log, is finite and within 1e-4 of the logarithm of the exact predictive probability (DirichletDiscrete: 1e-4 plus 2^-23 for every dimension), so the probabilities of all the groups of a Pitman-Yor mixture add up to 1 within 2e-4 after any number of calls. fast_log itself errs on one side only, by less than 2^-14 + 1.2e-5.", "quantifier": "every float argument of fast_log that is not subnormal, every hyperparameter in [2^-30, 2^30], every count below 2^31, every history", "why_tests_cant": "Each score goes through up to a dozen roundings and a 16384-entry table; tests compare some groups with a tolerance and never a long history.", "anchors": ["include/distributions/special.hpp:46-89 FastLog, fast_log", "src/special.cc:35-44 FastLog::FastLog", "include/distributions/models/bb.hpp:132-139,185-205", "include/distributions/models/dd.hpp:160-167,222-245", "include/distributions/models/dpd.hpp:215-233 Group::score_value", "include/distributions/clustering.hpp:81-104 score_add_value", "include/distributions/clustering.hpp:195-230 score_value and its cache"]}
{"id": "C89", "title": "A collapsed Gibbs sampler built on the library samples the posterior over clusterings", "statement": "Take a Pitman-Yor driver, one mixture per feature (any models, cached or not) and any state reached by seating and unseating rows. The score of an unseated row against a group is the change of the joint score (score_counts plus score_data of every group of every feature) when the row joins it, up to a constant that does not depend on the group, and the empty groups together carry the weight of one new group. So unseating a row, scoring it, drawing a group with scores_to_probs and seating it draws from the full conditional of the clustering; each such move satisfies detailed balance with respect to exp(joint score), and leaves it stationary. The joint score depends on the clustering only, not on group names, their order, or the history.", "quantifier": "every reachable state, every row, every choice of features and hyperparameters, every number of groups and of empty groups", "why_tests_cant": "A wrong stationary distribution shows only in long-run frequencies; tests check that scores are numbers and that scorers agree with each other.", "anchors": ["include/distributions/clustering.hpp:81-104,195-230 PitmanYor scores", "src/clustering.cc:152-183 score_counts", "include/distributions/mixture.hpp:177-401 mixtures", "include/distributions/models/*.hpp score_value, score_data", "include/distributions/random.hpp:354-358 scores_to_probs", "examples/mixture/main.py:214-253 compress_gibbs"]}
{"id": "C90", "title": "Adding probabilities in logarithms is accurate in single precision", "statement": "For finite scores of magnitude up to 5e8, fast_log_sum_exp(x, y) is log(exp x + exp y) to within 1.06e-4 plus one rounding of the larger score; log_sum_exp(x, y), with libm's expf and logf, to within 2.5e-6 plus one rounding, exactly the other argument when one is minus infinity. The vector log_sum_exp and score_from_scores_overwrite are within the error of the logarithm called plus 3e-5 plus n/6.5e6 (n the number of scores, up to 2^20) plus one or two roundings of the log-sum of the exponentials, resp. the log-probability of the sample. No call of fast_exp on the way is undefined, and both two-argument functions are symmetric.", "quantifier": "every pair and every vector of finite float scores in range, every table of powers with half-unit errors, every libm within two units in the last place", "why_tests_cant": "The errors depend on the table entry met, on the distance of the scores and on the number of addends; tests compare a few short vectors with a loose tolerance.", "anchors": ["include/distributions/special.hpp:91-102 fast_log_sum_exp, log_sum_exp", "src/random.cc:77-92 log_sum_exp", "src/random.cc:108-128 score_from_scores_overwrite"]}
{"id": "C91", "title": "Rows of logarithms of Stirling numbers in single precision", "statement": "After any history of calls of get_log_stirling1_row, with any vectors passed in, no call fails. For n < 32 every entry is within n/50000 of log s(n,k), and minus infinity where s(n,k) = 0; rows n from 32 to 2^20 have the right ends, and the rest is the soft minimum (softness n/3) of the two approximations named in the source to within n/5000, which lies between log s - 0.237 n and log s + (k-1) log(gamma + log(n-1)) + n/5000. fast_log_factorial(n) is log n! to within 4.5e-6 relative plus 1e-9.", "quantifier": "every history of calls, every n up to 2^20, every k, every libm within two units in the last place", "why_tests_cant": "Errors of the recurrence accumulate from row to row and depend on which rows were asked for before; the approximation is compared by tests at a few n with a loose tolerance.", "anchors": ["src/special.cc:55-142 log_stirling1_cache_add, get_log_stirling1_row_exact, get_log_stirling1_row_approx", "src/special.cc:213-230 log_factorial_table", "src/special.cc:273-277 get_log_stirling1_row", "include/distributions/special.hpp:208-214 fast_log_factorial"]}
{"id": "C92", "title": "Student's t, NormalInverseChiSq scores, log Beta and log binomials in single precision", "statement": "In exact arithmetic NormalInverseChiSq's score_value, fast_score_student_t and score_student_t are the same number, the log density of Student's t with the posterior parameters up to 1e-14 (the literal for pi). In single precision fast_score_student_t and score_value are finite and within 0.0162 + 0.000047 (nu + 1) of that log density. fast_log_beta(a, b) is within 6e-6 (|lgamma a| + |lgamma b| + |lgamma(a+b)|) + 0.001 of log B(a, b) and minus infinity when an argument is not positive; fast_log_binom(n, k) is within 1.1e-5 log n! + 0.001 of the log of the binomial coefficient.", "quantifier": "every float datum and location up to 2^30, precision from 2^-30 to 2^30, nu from 1/16 to 2^24; every a, b >= 2^-30 with a float sum up to 2^24; all whole k <= n < 2^24 - 1", "why_tests_cant": "Errors of the table logarithm are multiplied by nu and those of lgamma cancel only in part; unit tests compare a few small groups and skip the tails of large ones.", "anchors": ["include/distributions/random.hpp:134-157 fast_score_student_t, score_student_t", "include/distributions/special.hpp:173-197 log_beta, fast_log_beta, log_binom, fast_log_binom", "include/distributions/models/nich.hpp:181-188 Group::score_value", "include/distributions/models/nich.hpp:232-259 Scorer"]}
{"id": "C93", "title": "Continuous predictives and marginal likelihoods are probability densities", "statement": "The exponential of NormalInverseChiSq's score_value, as a function of the value, integrates to 1 over the real line, and that of NormalInverseWishart's over all vectors of the dimension, whatever data the group holds. The exponential of score_data integrates to 1 over all data sets of n values. The literals the library uses for pi and ln pi shift the logarithm of the mass by less than 1e-14 per number scored.", "quantifier": "all valid hyperparameters, every data set held, every number of values and, for NormalInverseWishart, every dimension; exact arithmetic", "why_tests_cant": "An improper integral over every data set and dimension: tests integrate a few one-dimensional cases on a grid or by sampling, to a few percent.", "anchors": ["include/distributions/models/nich.hpp:181-188 Group::score_value", "include/distributions/models/nich.hpp:190-206 Group::score_data", "include/distributions/models/niw.hpp:287-327 Group::score_value, score_data", "include/distributions/random.hpp:134-185 score_student_t, score_mv_student_t"]}
{"id": "C94", "title": "Messages on the wire keep what is put into them", "statement": "For every message type of schema.proto: the generated code writes a message as the protocol buffer format prescribes, with exactly the size it announces, and reads the bytes back to the same message, unknown fields included. Bytes of any conforming writer (any order, packed or not, repeated singular fields) give the message the format assigns. No string of bytes leads to undefined behaviour or depends on the capacity of arrays; whatever is accepted is a message with its required fields set and values in range. operator== holds exactly between equal messages, MergeFrom equals reading one after the other, CopyFrom copies exactly. A message with required fields only, cut short anywhere, is refused; with repeated fields a cut may be accepted, and then a beginning of the records is read. In a Clustering, which holds two other messages, setting, clearing or releasing one of them leaves the other alone, and a message asked for after a clear is empty.", "quantifier": "every message, every byte string, every capacity and recursion limit", "why_tests_cant": "Byte strings, cuts and interleavings are unbounded; the library's tests dump and load a handful of messages written by the same code.", "anchors": ["src/io/schema.pb.cc:768-7120 generated messages", "include/distributions/io/schema.pb.h generated accessors", "include/distributions/io/protobuf.hpp:81-89 operator==", "distributions/io/schema.proto:33-158"]}
{"id": "C95", "title": "Objects survive the trip through bytes and files", "statement": "protobuf_dump into a message object, whatever it held before, SerializeToString, ParseFromString and protobuf_load give back the same object bit for bit: every shared of BetaBernoulli, GammaPoisson, BetaNegativeBinomial, NormalInverseChiSq, DirichletDiscrete, PitmanYor and LowEntropy; every group of the first four and of NormalInverseWishart after any history of add, remove, add_repeated and merge calls, data debt included, and DirichletDiscrete and DirichletProcessDiscrete groups after histories without merges or debt; for the shareds of DirichletProcessDiscrete and NormalInverseWishart the other side loads exactly what loading here would. A file of such messages, each below 2 GB, is read back message by message. Bytes from anywhere never lead a load into undefined behaviour, except for the two models whose loads add up counts.", "quantifier": "every object and history, every previous content of the message, every byte string, every arithmetic whose numbers fit 32 bits", "why_tests_cant": "Objects, histories and byte strings are unbounded, and no test serialises: the library's tests dump and load through message objects only.", "anchors": ["include/distributions/models/*.hpp protobuf_dump, protobuf_load", "include/distributions/clustering.hpp:62-72, 248-256", "src/io/schema.pb.cc generated messages", "include/distributions/io/schema.pb.h accessors", "distributions/io/stream.py protobuf_stream_write, protobuf_stream_read"]}
{"id": "C96", "title": "Counting scores in single precision", "statement": "GammaPoisson::score_value, and score_data of a group filled with any values, BetaNegativeBinomial::score_value (also through the cached Scorer) and score_data, BetaBernoulli::score_data, and DirichletDiscrete::score_data and DirichletProcessDiscrete::score_data (in any hash order) for up to 1024 distinct values, computed in float with fast_lgamma, fast_log_factorial and fast_log, are finite and equal the logarithm of the exact posterior probability to within 6e-6 of the sizes of the log-gammas involved plus 1e-4 or 2e-4 per unit of the arguments, for the two Dirichlet models with n distinct values (6e-6 + 1e-7 n) of those sizes plus (1e-4 + 8e-6 n) per unit and 1e-3 (n + 1); the running log_prod of a GammaPoisson group stays within (5e-6 + 7e-8 n) of the sum of log-factorials of its n values. The error is not relative to the score: for large pseudo-counts a probable head can be given a positive logarithm of probability.", "quantifier": "all hyperparameters between 2^-20 and 2^20 (inverse scale between 2^-30 and 2^30), all groups whose posterior arguments sum to at most 2^20, every value, every list of values, every libm within the stated errors", "why_tests_cant": "Hyperparameters, counts and lists of values are unbounded and errors depend on all of them; tests compare a few groups with the Python reference to 1e-2 or so.", "anchors": ["include/distributions/models/gp.hpp:56-61, 109-116, 146-217", "include/distributions/models/bnb.hpp:57-63, 143-220", "include/distributions/models/bb.hpp:141-152 Group::score_data", "include/distributions/models/dd.hpp:169-186 Group::score_data", "include/distributions/models/dpd.hpp:235-252 Group::score_data", "include/distributions/special.hpp:72-85, 114-171, 208-214"]}
{"id": "C97", "title": "The low-entropy joint score is a probability on partitions", "statement": "For a LowEntropy clustering whose sample is the whole dataset, exp(score_counts) is the probability of the partition under the law that gives each partition the weight of the product of c^c over its block sizes c: for datasets of fewer than 48 values the score is within 1.5e-5 of the exact logarithm and the probabilities of all partitions sum to 1 within 2e-5. From 48 values on the normaliser is an extrapolation: at 60 values the probabilities sum to more than 1.01; for a sample smaller than the dataset they are approximations as well: for two values out of three they sum to 1.005.", "quantifier": "every partition of every dataset of fewer than 48 values, every debug level, the table as written or rounded to float", "why_tests_cant": "There are more than 10^40 partitions of 47 values; tests enumerate a handful of small datasets.", "anchors": ["src/clustering.cc:186-213 log_partition_function_table, log_partition_function", "src/clustering.cc:228-248 LowEntropy::score_counts"]}
{"id": "C98", "title": "Low-entropy predictive scores in single precision", "statement": "LowEntropy::score_add_value, computed in float with fast_log, is finite. For a group of g values with g > 10000 it is the logarithm of (g+1)^(g+1) / g^g, the factor by which the weight of the group grows, to within 2e-4. For 1 <= g <= 10000 the error of fast_log is multiplied by g: the score is at most 1e-4 + g/16000 too low and at most 1e-4 + g/2000000 too high. The loss is real: for 8200 <= g <= 10000 the score is at least 0.38 too low, and a group of 8200 values scores 0.49 lower than one of 8190 although the law favours the larger. For an empty group it is the fitted formula log(N/(n+1)) (0.45 - 0.1/(n+1) - 0.1/N) - log(empty groups) to within 2e-4.", "quantifier": "every group size, number of groups, sample size and dataset size of the type int, every debug level, every libm log2 within one unit in the last place", "why_tests_cant": "Sizes are unbounded and the error depends on the position of (g+1)/g between the entries of a 16384-entry table; tests compare scores of groups of a few values to 1e-2 or so.", "anchors": ["include/distributions/clustering.hpp:264-292 LowEntropy::score_add_value", "include/distributions/clustering.hpp:317-328 _approximate_postpred_correction", "include/distributions/special.hpp:57-85 fast_log"]}
