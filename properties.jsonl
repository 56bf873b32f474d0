{"id": "C01", "title": "Sufficient statistics always agree with the recorded data", "statement": "After any sequence of observe/unobserve calls on CRP, Categorical, Bernoulli, Poisson, Normal or NormalUC, successful or raising, get_suffstats (and the fields exported by to_metadata) equal what one obtains by recomputing them from the rows currently recorded, ignoring missing (NaN) values; the count of table/category occupants is exact and no empty CRP table is kept.", "quantifier": "all primitives, all hyperparameters, all finite call sequences with arbitrary rowids, values, inputs", "why_tests_cant": "unit tests run a handful of fixed call sequences; the claim ranges over every finite sequence of calls, including failing ones", "anchors": ["src/crp.py: CRP.observe, CRP.unobserve, CRP.get_suffstats", "src/categorical.py: Categorical.observe, unobserve", "src/bernoulli.py: Bernoulli.observe, unobserve", "src/poisson.py: Poisson.observe, unobserve", "src/normal.py: Normal.observe, unobserve", "src/normal_uc.py: NormalUC.observe, unobserve"]}
{"id": "C02", "title": "unobserve undoes observe on every primitive", "statement": "If observe(row, {o: x}) succeeds on a primitive, then unobserve(row) succeeds, returns ({o: x'}, {}) where x' is x (truncated to an int for CRP), and restores the data, all statistics and the hyperparameters exactly.", "quantifier": "all primitives in every state reachable by any history, all rows and values", "why_tests_cant": "unit tests run a handful of fixed call sequences; the claim ranges over every finite sequence of calls, including failing ones", "anchors": ["src/crp.py: CRP.observe, CRP.unobserve", "src/categorical.py", "src/bernoulli.py", "src/poisson.py", "src/normal.py", "src/normal_uc.py"]}
{"id": "C03", "title": "A rejected primitive call has no effect, and rejection is exactly characterised", "statement": "observe on a primitive raises exactly when the row is already recorded (ValueError), inputs are given, the keys differ from the output, or the value is outside the domain (CRP: not an existing table nor the next fresh one; Categorical: not an integer in [0,k); Bernoulli: not 0/1; Poisson: not a nonnegative integer; NaN accepted except by CRP); unobserve raises exactly when the row is not recorded; in each raising case the object is left unchanged.", "quantifier": "all primitives, states, rows, observations and inputs", "why_tests_cant": "unit tests run a handful of fixed call sequences; the claim ranges over every finite sequence of calls, including failing ones", "anchors": ["src/distribution.py: DistributionCGPM.observe, unobserve", "src/crp.py: CRP.observe", "src/categorical.py: Categorical.observe", "src/bernoulli.py: Bernoulli.observe", "src/poisson.py: Poisson.observe"]}
{"id": "C04", "title": "Order of observation does not matter (exchangeability)", "statement": "Two histories of a primitive that leave the same set of recorded (row, value) pairs, in whatever order and through whatever intermediate insertions and deletions, give the same sufficient statistics, the same logpdf for every query and the same logpdf_score.", "quantifier": "all pairs of call histories with permuted final data", "why_tests_cant": "unit tests run a handful of fixed call sequences; the claim ranges over every finite sequence of calls, including failing ones", "anchors": ["src/crp.py", "src/categorical.py", "src/bernoulli.py", "src/poisson.py", "src/normal.py", "src/normal_uc.py: logpdf, logpdf_score"]}
{"id": "C05", "title": "logpdf_score is the sum of the sequential predictive logpdfs", "statement": "For every primitive, whenever observe(row, {o: x}) succeeds, logpdf_score afterwards equals logpdf_score before plus logpdf(row, {o: x}) before (0 for a missing value), and the score of an empty primitive is 0; hence the score of any history is the log joint density of its data by the chain rule.", "quantifier": "all primitives (CRP, Categorical, Bernoulli, Poisson, Normal, NormalUC), all reachable states with positive hyperparameters, all values", "why_tests_cant": "tests compare floats at a few sample points; the claim is an identity over all data sets, hyperparameters and query points", "anchors": ["src/crp.py: calc_predictive_logp, calc_logpdf_marginal", "src/categorical.py: calc_predictive_logp, calc_logpdf_marginal", "src/bernoulli.py: calc_predictive_logp, calc_logpdf_marginal", "src/poisson.py: calc_predictive_logp, calc_logpdf_marginal", "src/normal.py: calc_predictive_logp, calc_logpdf_marginal", "src/normal_uc.py: logpdf, logpdf_score"]}
{"id": "C06", "title": "Discrete predictive distributions are normalised", "statement": "For CRP, Categorical and Bernoulli with positive hyperparameters, the exponentials of logpdf over support() are positive and sum to exactly 1 in every reachable state.", "quantifier": "all reachable states, all hyperparameters > 0, all k >= 1", "why_tests_cant": "tests compare floats at a few sample points; the claim is an identity over all data sets, hyperparameters and query points", "anchors": ["src/crp.py: CRP.logpdf, CRP.support", "src/categorical.py: Categorical.logpdf, support", "src/bernoulli.py: Bernoulli.logpdf, support"]}
{"id": "C07", "title": "Poisson predictive distribution is normalised", "statement": "For Poisson with positive hyperparameters the exponentials of logpdf over all nonnegative integers form a convergent series with sum 1 in every reachable state.", "quantifier": "all reachable states and all hyperparameters a, b > 0; infinite support", "why_tests_cant": "tests compare floats at a few sample points; the claim is an identity over all data sets, hyperparameters and query points", "anchors": ["src/poisson.py: Poisson.logpdf, calc_predictive_logp"]}
{"id": "C08", "title": "Normal never fails numerically and is the Student-t posterior predictive", "statement": "For every reachable state of Normal with r, s, nu > 0 the posterior scale is at least s > 0 (the zero-scale fallback is never taken), so logpdf and logpdf_score of a finite value always return a finite number, and exp(logpdf(x)) equals the closed form Student-t posterior predictive density computed from the data.", "quantifier": "all data sets of rational values, all hyperparameters, all query points (exact arithmetic)", "why_tests_cant": "tests compare floats at a few sample points; the claim is an identity over all data sets, hyperparameters and query points", "anchors": ["src/normal.py: posterior_hypers, calc_predictive_logp, calc_log_Z"]}
{"id": "C09", "title": "Zero density exactly off the support", "statement": "logpdf of a discrete primitive is -inf exactly for the values observe would reject, and finite for every value of its domain (positive hyperparameters).", "quantifier": "all reachable states, all query values", "why_tests_cant": "the set of query values is infinite and -inf is easy to miss at a boundary", "anchors": ["src/crp.py: CRP.logpdf", "src/categorical.py: Categorical.logpdf", "src/bernoulli.py: Bernoulli.logpdf", "src/poisson.py: Poisson.logpdf"]}
{"id": "C10", "title": "Missing values are neutral", "statement": "Recording a NaN changes no sufficient statistic, score or predictive density of a primitive. logpdf of a NaN target is 0 for Normal, NormalUC and Categorical. (For Bernoulli and Poisson the code returns -inf instead; this deviation is proved as a refutation.)", "quantifier": "all primitives except CRP, all reachable states", "why_tests_cant": "a test checks one state; and the deviation only shows on the untested primitives", "anchors": ["src/bernoulli.py: Bernoulli.logpdf", "src/poisson.py: Poisson.logpdf", "src/normal.py: Normal.logpdf", "src/categorical.py: Categorical.logpdf"]}
{"id": "C11", "title": "CRP seating invariants", "statement": "In every reachable state of CRP: support() is nonempty, strictly increasing, consists of the occupied tables and exactly one unoccupied table, which is one past the largest occupied (0 if none); tables are nonnegative integers; every table of the support is accepted by observe.", "quantifier": "all finite call histories of a CRP", "why_tests_cant": "unit tests run a handful of fixed call sequences; the claim ranges over every finite sequence of calls, including failing ones", "anchors": ["src/crp.py: CRP.support, CRP.observe, CRP.unobserve"]}
{"id": "C12", "title": "CRP score is the Ewens/Pitman partition probability", "statement": "exp(logpdf_score) of a CRP equals alpha^K * prod (n_k - 1)! / (alpha (alpha+1) ... (alpha+n-1)) where n_k are the sizes of the blocks of the recorded partition; hence it depends only on the block sizes, is invariant under relabelling of tables and rows.", "quantifier": "all reachable states, all alpha > 0", "why_tests_cant": "tests compare floats at a few sample points; the claim is an identity over all data sets, hyperparameters and query points", "anchors": ["src/crp.py: calc_logpdf_marginal"]}
{"id": "C13", "title": "CRP Gibbs utilities agree with removing the row", "statement": "For a recorded row, the weights returned by gibbs_logps(row) are total N-1+alpha, and the weight of each table of gibbs_tables(row) equals (N-1+alpha) times the predictive probability of that table (own singleton table standing for the fresh one) after unobserve(row). With m auxiliary tables the total is unchanged.", "quantifier": "all reachable CRP states, all recorded rows, all m >= 1", "why_tests_cant": "tests compare floats at a few sample points; the claim is an identity over all data sets, hyperparameters and query points", "anchors": ["src/crp.py: CRP.gibbs_logps, CRP.gibbs_tables, CRP.is_singleton"]}
{"id": "C14", "title": "Hyperparameter setter contract", "statement": "set_hypers on a primitive either raises AssertionError/KeyError leaving the object unchanged, or succeeds and then get_hypers returns the given values; it never changes data or sufficient statistics; it succeeds for every assignment of positive values to the constrained hyperparameters.", "quantifier": "all primitives, states and hyperparameter dictionaries", "why_tests_cant": "unit tests run a handful of fixed call sequences; the claim ranges over every finite sequence of calls, including failing ones", "anchors": ["src/*.py: set_hypers, get_hypers"]}
{"id": "C15", "title": "Product factorises", "statement": "logpdf of a Product equals the sum of the logpdfs of its children on the targets/constraints/inputs that fall to them; children without targets contribute 0; outputs of distinct children are independent under conditioning; nested Products flatten without changing outputs or densities; Product accepts a list of children iff their outputs are pairwise distinct and no input is an output.", "quantifier": "all lists of well-formed children, all targets and constraints", "why_tests_cant": "tests use three fixed children; the claim is over all lists and all partitions of targets", "anchors": ["src/product.py: Product.logpdf, logpdf_one, validate_cgpms_product, Product.__init__"]}
{"id": "C16", "title": "Row mixture logpdf is the mixture density", "statement": "For a row mixture (finite or flexible) over Products of primitives and a hypothetical row, exp(logpdf(targets, constraints)) equals p(targets,constraints)/p(constraints), where p sums (or fixes, if the cluster variable is mentioned) the prior cluster probability times the product of component densities; all four code paths (cluster in targets, cluster in constraints, marginalised, both) agree with this single formula.", "quantifier": "all reachable row mixtures, all disjoint targets and constraints with positive constraint density", "why_tests_cant": "tests compare floats at a few sample points; the claim is an identity over all data sets, hyperparameters and query points", "anchors": ["src/finite_rowmix.py: FiniteRowMixture.logpdf, _logpdf_one", "src/flexible_rowmix.py"]}
{"id": "C17", "title": "Conditional densities cohere with joint densities", "statement": "logpdf(T, constraints=C) + logpdf(C) = logpdf(T u C) for row mixtures and Products of row mixtures (CrossCat states), whenever the constraint density is positive.", "quantifier": "all states, all disjoint T and C", "why_tests_cant": "tests compare floats at a few sample points; the claim is an identity over all data sets, hyperparameters and query points", "anchors": ["src/finite_rowmix.py: FiniteRowMixture.logpdf", "src/product.py: Product.logpdf"]}
{"id": "C18", "title": "Cluster posterior is normalised and marginalisation is exact", "statement": "The sum over z in the support of the row divider of exp(logpdf({z} u T, C)) equals exp(logpdf(T, C)); in particular the cluster posterior given any constraints of positive density sums to 1.", "quantifier": "all row mixtures, T and C", "why_tests_cant": "tests compare floats at a few sample points; the claim is an identity over all data sets, hyperparameters and query points", "anchors": ["src/finite_rowmix.py: FiniteRowMixture.logpdf"]}
{"id": "C19", "title": "Impossible constraints", "statement": "Conditioning a row mixture on a cluster outside the support raises ValueError for logpdf and simulate; conditioning on values with zero density in every cluster makes logpdf return NaN (never a number), and simulate raise.", "quantifier": "all row mixtures, all zero-density constraints", "why_tests_cant": "zero-density constraints are measure-zero for random tests", "anchors": ["src/finite_rowmix.py: FiniteRowMixture.logpdf, simulate"]}
{"id": "C20", "title": "Queries about a recorded row condition on its cluster", "statement": "For a row recorded in a row mixture, logpdf(row, T, C) over unrecorded columns equals the component density in the row's own cluster, and simulate uses that cluster. (For a target naming the cluster variable itself the code returns 0 for every value, also for wrong clusters; proved as a refutation, while CRP.logpdf alone is right.)", "quantifier": "all row mixtures, recorded rows, queries", "why_tests_cant": "needs all states; the deviation is on an untested query", "anchors": ["src/finite_rowmix.py: FiniteRowMixture.logpdf", "src/crp.py: CRP.logpdf"]}
{"id": "C21", "title": "Shape of simulate results", "statement": "Every possible outcome of simulate(row, targets, constraints, inputs, N) that does not raise is one assignment (N=None) or a list of exactly N assignments, each with exactly the requested targets as keys; values of recorded cells are returned unchanged; simulated cluster labels lie in the support and have positive posterior weight; discrete values lie in the domain. (Deviations proved: a row mixture returns one sample for N=0, NormalUC ignores N for a recorded row.)", "quantifier": "all states, all targets, all N, all outcomes of the random generator", "why_tests_cant": "a test sees one seeded outcome of the random generator; the claim must hold for every outcome the generator can produce", "anchors": ["src/product.py: Product.simulate, merge_samples, simulate_one", "src/finite_rowmix.py: simulate, _simulate_one", "src/finite_array.py", "src/flexible_array.py", "src/normal_uc.py: NormalUC.simulate"]}
{"id": "C22", "title": "simulate samples from the density logpdf reports", "statement": "For models built from discrete primitives with finite support, the probability that simulate returns an assignment equals the exponential of logpdf of that assignment given the same constraints.", "quantifier": "all reachable states, all targets and constraints, exact probabilities (not frequencies)", "why_tests_cant": "tests use goodness-of-fit on samples, which cannot establish equality", "anchors": ["src/crp.py: CRP.simulate", "src/categorical.py: Categorical.simulate", "src/bernoulli.py: Bernoulli.simulate", "src/product.py: Product.simulate", "src/finite_rowmix.py: FiniteRowMixture.simulate"]}
{"id": "C23", "title": "Queries do not change any answer", "statement": "logpdf and simulate may instantiate empty components of a flexible array, but any number of them leaves every later logpdf, simulate law, logpdf_score, unobserve result and dataset unchanged.", "quantifier": "all states and all interleavings of queries", "why_tests_cant": "unit tests run a handful of fixed call sequences; the claim ranges over every finite sequence of calls, including failing ones", "anchors": ["src/flexible_array.py: FlexibleArray.get_cgpm, logpdf, simulate"]}
{"id": "C24", "title": "Queries leave the caller's arguments alone", "statement": "logpdf, simulate and observe do not modify the dictionaries passed by the caller. Proved for row mixtures and Products; refuted for the arrays used directly, which remove the indexer from the caller's inputs so that the same call repeated raises KeyError.", "quantifier": "all calls", "why_tests_cant": "tests build a fresh literal dict for each call", "anchors": ["src/finite_array.py: FiniteArray.simulate, logpdf, observe", "src/flexible_array.py: FlexibleArray.simulate, logpdf, observe"]}
{"id": "C25", "title": "A row mixture behaves as a table of rows", "statement": "For every sequence of successful observe, unobserve, row-transition, set_rowid_component and query calls on a flexible row mixture over a Product of primitives, with arbitrary random outcomes, the recorded cells are exactly those of the abstract table in which observe adds cells to a row, unobserve removes the row and returns exactly its cells plus its cluster, and inference changes nothing.", "quantifier": "all finite histories and all random outcomes", "why_tests_cant": "unit tests run a handful of fixed call sequences; the claim ranges over every finite sequence of calls, including failing ones", "anchors": ["src/finite_rowmix.py: observe, unobserve", "src/flexible_array.py: observe, unobserve", "src/transition_rows.py"]}
{"id": "C26", "title": "Row mixture bookkeeping is consistent", "statement": "In every state reached by successful calls: the rows known to the row divider, to the mixture and to the component array are the same; the cluster stored for a row is the same in all three; all cells of a row live in the component of its cluster and in no other.", "quantifier": "all finite histories of successful calls and all random outcomes", "why_tests_cant": "unit tests run a handful of fixed call sequences; the claim ranges over every finite sequence of calls, including failing ones", "anchors": ["src/finite_rowmix.py: observe, unobserve", "src/flexible_array.py: observe, unobserve"]}
{"id": "C27", "title": "A rejected observation on a composite model", "statement": "If observe on a Product or row mixture raises, the model should be unchanged. Proved when the failure occurs in the first child touched / the row divider; refuted in general: a Product keeps the cells accepted before the failure, a row mixture keeps the row seated although its cells were rejected, and the subsequent unobserve raises and leaves the mixture inconsistent.", "quantifier": "all composite models and observations", "why_tests_cant": "a failing observe must be tried at every position of every composite", "anchors": ["src/chain.py: Chain.observe, observe_one", "src/finite_rowmix.py: FiniteRowMixture.observe, unobserve"]}
{"id": "C28", "title": "Removing an unknown row", "statement": "unobserve of a row that was never recorded raises and changes nothing for primitives, arrays and row mixtures; for a nonempty Product or Chain it silently returns ({}, {}) and changes nothing; an empty Product raises.", "quantifier": "all states and rows", "why_tests_cant": "unit tests run a handful of fixed call sequences; the claim ranges over every finite sequence of calls, including failing ones", "anchors": ["src/chain.py: Chain.unobserve, unobserve_one", "src/finite_rowmix.py: unobserve"]}
{"id": "C29", "title": "Composite score decomposes", "statement": "logpdf_score of a flexible row mixture equals the CRP score of its partition plus the sum over nonempty clusters of the column scores; of a Product the sum of its children; it equals the log joint density of all recorded cells and cluster labels accumulated by the chain rule through any history. (FiniteRowMixture.logpdf_score always raises TypeError; proved as a refutation.)", "quantifier": "all reachable states", "why_tests_cant": "tests compare floats at a few sample points; the claim is an identity over all data sets, hyperparameters and query points", "anchors": ["src/finite_rowmix.py: logpdf_score", "src/flexible_array.py: logpdf_score", "src/chain.py: logpdf_score", "src/finite_array.py: logpdf_score"]}
{"id": "C30", "title": "Metadata round trip", "statement": "from_metadata(to_metadata(c)) succeeds and yields a model equal to c (same structure, data, statistics, hyperparameters, row maps) for every reachable primitive, Product, array and row mixture, recursively.", "quantifier": "all models of arbitrary nesting and all reachable states", "why_tests_cant": "tests round-trip a few fixed models; the claim is by induction over all models", "anchors": ["src/*.py: to_metadata, from_metadata"]}
{"id": "C31", "title": "Metadata snapshots are independent of the live object", "statement": "A snapshot taken with to_metadata is not affected by later calls, and objects built from the same snapshot do not affect each other. Proved for CRP, Categorical, Poisson, Normal; refuted for Bernoulli objects that were themselves loaded from metadata (x_sum is an aliased array) and for NormalUC (the hypers dictionary is shared).", "quantifier": "all primitives, all later call sequences", "why_tests_cant": "aliasing only shows when a snapshot is held across later mutations", "anchors": ["src/bernoulli.py: to_metadata, from_metadata", "src/normal_uc.py: to_metadata, from_metadata, set_hypers"]}
{"id": "C32", "title": "Chain queries", "statement": "For a Chain of input-free children logpdf equals the sum of the children's conditional densities for every accuracy, and simulate raises ValueError exactly when the constraints have zero density; for a Chain whose parents are fully determined, the weight is the product of the conditional densities along the network, so logpdf(T) is the exact joint density.", "quantifier": "all chains in topological order, all accuracies, all random outcomes", "why_tests_cant": "a test sees one seeded outcome of the random generator; the claim must hold for every outcome the generator can produce", "anchors": ["src/chain.py: Chain.logpdf, weighted_sample, invoke_cgpm"]}
{"id": "C33", "title": "Adding and removing columns", "statement": "remove_cgpm(c, o) yields a model whose outputs are those of c without those of the child owning o, with all other cells, clusters and hyperparameters unchanged; add_cgpm(c, new) appends new's outputs and leaves the existing columns unchanged; remove after add gives back a model with the same outputs, cells and densities.", "quantifier": "all row mixtures and Products, all outputs", "why_tests_cant": "tests check lists of outputs on a fixed model", "anchors": ["src/walks.py: remove_cgpm, add_cgpm"]}
{"id": "C34", "title": "Column lookup is complete", "statement": "get_cgpms_by_output_index(c, o) returns, for a column of a row mixture or Product, exactly the primitives modelling that column in every component (and the base), so an update applied to them reaches every cluster.", "quantifier": "all models of arbitrary nesting", "why_tests_cant": "needs all shapes", "anchors": ["src/walks.py: get_cgpms_by_output_index"]}
{"id": "C35", "title": "Adding/removing columns keeps row assignments", "statement": "After remove_cgpm/add_cgpm on a row mixture the rows remain assigned. Proved for FlexibleRowMixture; refuted for FiniteRowMixture, whose result forgets the assignment of every recorded row although the row divider still holds it, so observing or removing a recorded row raises.", "quantifier": "all row mixtures", "why_tests_cant": "the tests never remove a column from a populated finite mixture and continue", "anchors": ["src/walks.py: remove_cgpm, add_cgpm (FiniteRowMixture branches)"]}
{"id": "C36", "title": "A Gibbs row transition moves one row and nothing else", "statement": "For every outcome of transition_rows(mixture, row) that does not raise: the set of rows, every cell value and the cluster of every other row are unchanged, and the row's new cluster lies in the support of the row divider with the row removed.", "quantifier": "all reachable mixtures, recorded rows and random outcomes", "why_tests_cant": "a test sees one seeded outcome of the random generator; the claim must hold for every outcome the generator can produce", "anchors": ["src/transition_rows.py: transition_rows"]}
{"id": "C37", "title": "The Gibbs row transition samples the exact conditional", "statement": "The probability with which transition_rows puts the row into cluster z is exp(score_z) / sum_z' exp(score_z'), where score_z is the logpdf_score of the model with the row in cluster z; hence the transition leaves the posterior over assignments invariant.", "quantifier": "all reachable mixtures and rows, exact probabilities", "why_tests_cant": "requires exact probabilities over all outcomes", "anchors": ["src/transition_rows.py: transition_rows", "src/finite_rowmix.py: logpdf, logpdf_score"]}
{"id": "C38", "title": "set_rowid_component", "statement": "set_rowid_component(mixture, r0, r1) puts r0 in the cluster of r1; with None it puts r0 in a cluster of its own; all cells and the clusters of all other rows are unchanged. It never raises for recorded rows r0 != r1. (For r0 equal to r1 but a different int object the code can raise and lose the row; proved as a refutation of the identity test.)", "quantifier": "all reachable mixtures, all pairs of rows", "why_tests_cant": "unit tests run a handful of fixed call sequences; the claim ranges over every finite sequence of calls, including failing ones", "anchors": ["src/transition_rows.py: set_rowid_component"]}
{"id": "C39", "title": "Column reassignment preserves the table", "statement": "set_cgpm_view_assignment and every outcome of transition_cgpm_view_assigments keep every output in exactly one view, keep the recorded (row, value) data of every column, leave no empty view, and move only the requested column.", "quantifier": "all CrossCat states with aligned rows, all columns and all random outcomes", "why_tests_cant": "a test sees one seeded outcome of the random generator; the claim must hold for every outcome the generator can produce", "anchors": ["src/transition_views.py: set_cgpm_view_assignment, transition_cgpm_view_assigments"]}
{"id": "C40", "title": "Rejected column proposals leave no trace", "statement": "Proposing to move a column into an existing view and then not taking the proposal leaves that view unchanged. Proved when every row of the column is already known to the view; refuted otherwise: the proposal shares the view's row divider and row maps, so the row is seated in the view although the proposal was rejected.", "quantifier": "all CrossCat states", "why_tests_cant": "the tests only use fully aligned rows; aliasing needs a heap argument", "anchors": ["src/transition_views.py: get_cgpm_view_proposal_existing_one", "src/walks.py: add_cgpm"]}
{"id": "C41", "title": "Hyperparameter inference touches only hyperparameters", "statement": "For every outcome, transition_hypers on the components of a column leaves data, statistics, assignments and other columns unchanged, whether it returns or raises; when it returns, all components have a common hyperparameter assignment whose values come from the grids. With grids covering every hyperparameter (such as those transition_hyper_grids constructs, except for NormalUC columns) it returns, each hyperparameter is resampled with probability proportional to the marginal likelihood of the column given the others, and the posterior over the grid is invariant.", "quantifier": "all lists of components, all grids, all random outcomes", "why_tests_cant": "a test sees one seeded outcome of the random generator; the claim must hold for every outcome the generator can produce", "anchors": ["src/transition_hypers.py"]}
{"id": "C42", "title": "Transition scheduling", "statement": "transition_generic(kernels, N=n) with n >= 1 applies every kernel exactly n times in round-robin order and then stops; with a time budget S it starts no kernel at or after the moment the budget is exhausted; without N and S it makes one pass; without kernels it returns at once; N=0 or S=0 raises ZeroDivisionError before any kernel has run; an exception of a kernel ends the loop.", "quantifier": "all kernel lists, all N, all clocks", "why_tests_cant": "unbounded loops and arbitrary clocks", "anchors": ["src/progress.py: transition_generic, proportion_done"]}
{"id": "C43", "title": "Importing a structure realises exactly the requested partitions", "statement": "Given column and row assignments returned by the external engine for an aligned CrossCat state, the updated state groups two columns in one view iff the engine does and two rows in one cluster of a view iff the engine does, and keeps all data.", "quantifier": "all aligned CrossCat states, all assignment vectors and random outcomes", "why_tests_cant": "a test sees one seeded outcome of the random generator; the claim must hold for every outcome the generator can produce", "anchors": ["src/transition_crosscat_cpp.py: _get_crosscat_updated, partition_assignments_to_blocks"]}
{"id": "C44", "title": "Default arguments of the external transition", "statement": "transition_cpp with neither N nor S is meant to run one step; the code raises AssertionError for every such call (proved), and for any other combination passes the documented step count and time budget.", "quantifier": "all arguments", "why_tests_cant": "the only test passes N", "anchors": ["src/transition_crosscat_cpp.py: transition_cpp"]}
{"id": "C45", "title": "Category codes are a bijection", "statement": "The code map built for a categorical column maps the observed categories one-to-one onto 0..K-1, and code lookup inverts it; missing values stay missing.", "quantifier": "all columns of data", "why_tests_cant": "all possible data columns", "anchors": ["src/transition_crosscat_cpp.py: create_metadata_categorical, crosscat_value_to_code"]}
{"id": "C46", "title": "Assignment vectors and blocks are inverse", "statement": "partition_assignments_to_blocks returns nonempty pairwise disjoint blocks covering all items in which two items share a block iff their assignments are equal.", "quantifier": "all assignment lists", "why_tests_cant": "all lists", "anchors": ["src/transition_crosscat_cpp.py: partition_assignments_to_blocks"]}
{"id": "C47", "title": "Random partitions are partitions", "statement": "Every outcome of generate_random_partition(alpha, N) is a list of nonempty disjoint blocks covering range(N).", "quantifier": "all N, all random outcomes", "why_tests_cant": "a test sees one seeded outcome of the random generator; the claim must hold for every outcome the generator can produce", "anchors": ["src/sample_crosscat.py: generate_random_partition"]}
{"id": "C48", "title": "Ensemble operations are per-chain and bulk operations are folds", "statement": "Ensemble observe/unobserve/logpdf/simulate act on each chain independently and in order; observe_bulk over lists equals successive observes; bulk calls with argument lists of different lengths are rejected before anything is changed.", "quantifier": "all ensembles, all argument lists", "why_tests_cant": "all lengths", "anchors": ["src/crosscat_ensemble.py: make_args_list, _modify_bulk, _evaluate_bulk"]}
{"id": "C49", "title": "Dependence matrices are equivalence indicators", "statement": "same_assignment_column_pairwise and same_assignment_row_pairwise are symmetric 0/1 matrices with unit diagonal, transitive, and have 1 exactly for pairs in the same view/cluster.", "quantifier": "all CrossCat states", "why_tests_cant": "all states", "anchors": ["src/crosscat_ensemble.py: same_assignment_column_pairwise, same_assignment_row_pairwise"]}
{"id": "C50", "title": "Mutual information of independent columns is zero", "statement": "For targets lying in different children of a Product the mutual information estimator returns exactly 0 for every number of samples and every random outcome, and is symmetric in its two arguments; with `marginalize` it raises for every input (proved as a refutation).", "quantifier": "all Products, constraints, sample counts, random outcomes", "why_tests_cant": "a test sees one seeded outcome of the random generator; the claim must hold for every outcome the generator can produce", "anchors": ["src/entropy.py: mutual_information, _sample_mi, _sample_entropy, _validate_query"]}
{"id": "C51", "title": "Removing a row from a regression or forest", "statement": "unobserve of a recorded row should return its observation and undo observe. Refuted: on LinearRegression and RandomForest it always raises TypeError after the row is already dropped and with the count left too high, after which a regression can no longer be queried; inside a Chain or Product the exception is swallowed and the row silently lost.", "quantifier": "all states and recorded rows", "why_tests_cant": "no test calls it", "anchors": ["src/linreg.py: LinearRegression.unobserve", "src/forest.py: RandomForest.unobserve", "src/chain.py: unobserve_one"]}
{"id": "C52", "title": "Dummy coding", "statement": "The dummy code of an input vector has the fixed length p for all legal inputs, distinguishes distinct legal inputs, and rejects out-of-range categories.", "quantifier": "all level dictionaries and inputs", "why_tests_cant": "all inputs", "anchors": ["src/linreg.py: dummy_code_one, process_inputs", "src/forest.py: dummy_code_one"]}
{"id": "C53", "title": "Rendered traces carry the recorded assignments", "statement": "The observe statements produced for a view name for each row the cluster it is recorded in. Refuted: rows sorted by cluster are paired with the assignments in unsorted order; and the VentureScript renderer labels every cell with the last row. Proved where the tables are already in sorted order.", "quantifier": "all views", "why_tests_cant": "tests use sorted assignments", "anchors": ["src/sample_crosscat.py: get_view_observes, reindex_crp_observes, get_sorted_rowids, get_view_observes_data_vs"]}
{"id": "C54", "title": "Reindexing clusters preserves the partition", "statement": "The reindexing used for rendering and for importing CGPM states maps tables injectively to 0..K-1, preserves the partition, and yields an observation order every step of which the CRP accepts.", "quantifier": "all assignment dictionaries, every iteration order of sets", "why_tests_cant": "hash-order dependent; all assignments", "anchors": ["src/conversion.py: rebase_cgpm_row_assignments", "src/sample_crosscat.py: reindex_crp_observes, get_sorted_rowids"]}
{"id": "C55", "title": "Inference on a CrossCat model keeps its table", "statement": "GibbsCrossCat.transition, with any kernels, columns, rows, limits and random outcomes, and whether it returns or raises, leaves a well-kept CrossCat model with the same columns of the same types and the same cells. The kernels on hyperparameters and rows never raise (without NormalUC columns, and without missing cells in Bernoulli and Poisson columns), and change only what they are asked to: hyperparameters of the given columns or of the row dividers of their views, or the clusters of the given rows in those views. set_hypers_distribution, set_hypers_row_divide and set_rowid_component change exactly the component of the model they name.", "quantifier": "all CrossCat models of at most 257 columns with complete rows, all arguments, clocks and random outcomes", "why_tests_cant": "tests see single seeded runs; the claim covers every interleaving of kernels and every outcome", "anchors": ["src/transition_crosscat.py: GibbsCrossCat.transition, transition_hypers_distributions, transition_hypers_row_divide, transition_row_assignments, set_hypers_distribution, set_hypers_row_divide, set_rowid_component"]}
{"id": "C56", "title": "Saving and reloading an ensemble", "statement": "CrossCatEnsemble.from_metadata of the to_metadata of an ensemble, if it returns, returns an ensemble with the same outputs, distributions and number of chains, each chain equal to the saved one; the random chains made by the constructor on the way leave no trace, and the only failure is the constructor's own assertion on clashing random labels.", "quantifier": "all ensembles reached from a new one by successful calls; every random outcome of the constructor", "why_tests_cant": "all states, and the constructor's random chains take a different course each time", "anchors": ["src/crosscat_ensemble.py: CrossCatEnsemble.to_metadata, from_metadata, __init__"]}
{"id": "C57", "title": "A regression's score is the chain rule of its predictions", "statement": "logpdf_score of a LinearRegression without rows is 0; observing rows adds to it exactly the log densities logpdf gave each row just before it was observed; and the order in which rows are observed changes neither the score nor any later log density or exception.", "quantifier": "all level dictionaries, hyperparameters, histories without exceptions, lists of rows and their permutations", "why_tests_cant": "a test tries a few rows in a few orders; the claim is about every data set, every order and every hyperparameter", "anchors": ["src/linreg.py: logpdf, logpdf_score, posterior_hypers, calc_log_Z, calc_predictive_logp, calc_logpdf_marginal"]}
{"id": "C58", "title": "A forest's simulate and logpdf agree", "statement": "After training, every value simulate can return for a new row has positive probability under logpdf, and each value is returned with exactly the probability logpdf gives it. Refuted before training: simulate draws uniformly from 0..k-1 while logpdf is -inf for every value.", "quantifier": "all forests reachable by observe, unobserve and transition, all classifiers answering with distinct classes and log probabilities, all inputs", "why_tests_cant": "the claim is about the law of the random outcome, for every classifier", "anchors": ["src/forest.py: logpdf, simulate, transition"]}
{"id": "C59", "title": "A model's text reads back as the same AST", "statement": "Writing any AST (views of columns with distributions, arguments and hyperparameters) in the Core DSL and parsing the text gives the same AST, with every number to four decimals; if all numbers have at most four decimals, exactly the same AST. Refuted without that: ASTs that differ beyond four decimals have the same text; an AST without views, or a view without columns, is written but its text cannot be parsed (TypeError).", "quantifier": "all nonempty ASTs whose names are words and whose views have columns, any numbers of views, columns and arguments", "why_tests_cant": "unbounded nesting, names and numbers of arbitrary size and sign; tests try a few ASTs", "anchors": ["src/sample_crosscat.py: compile_ast_to_core_dsl, parse_core_dsl_to_ast, core_compile_key_val, core_parse_view"]}
{"id": "C60", "title": "Interpreting an AST builds the model it describes", "statement": "Compiling an AST to the Core DSL and to the embedded DSL and executing that gives a CrossCat model with one empty view for every view of the AST, with the columns, types and hyperparameters (to four decimals) the AST names; converting any CrossCat model of such columns to an AST and interpreting it gives the same model without its rows. Refuted for positive hyperparameters below 0.00005, which are written as 0 (AssertionError, or a row divider with concentration 0), and for Bernoulli columns (KeyError).", "quantifier": "all ASTs of Categorical, Poisson and Normal columns; all reachable CrossCat models of such columns", "why_tests_cant": "all models and numbers; tests build a few", "anchors": ["src/sample_crosscat.py: compile_core_dsl_to_embedded_dsl, interpret_embedded_dsl, convert_crosscat_to_ast, convert_crosscat_to_embedded_dsl_model"]}
{"id": "C61", "title": "Random ASTs are well formed", "statement": "Whatever is drawn, generate_random_ast returns an AST in which the columns 0..n-1 with the requested distributions are each in exactly one view, row dividers are numbered in order, and every distribution has all its hyperparameters, none negative and each the number drawn for it written with six decimals (a multiple of 1/1000000 at most half of that away); if the hyperparameters but the means are not too small to be written, the AST can be interpreted as a CrossCat model. Refuted without that: a positive draw can round to 0 and then interpretation raises.", "quantifier": "all lists of distributions, all random outcomes", "why_tests_cant": "a claim about every random outcome, including those too rare for tests", "anchors": ["src/sample_crosscat.py: generate_random_ast, generate_random_partition, generate_random_hyperparameters, generate_random_row_divider"]}
{"id": "C62", "title": "A rendered trace rebuilds the table", "statement": "For a CrossCat model with rows whose columns can be written in the Core DSL, whose rows were recorded in the order of their clusters and in which every row of a view has a cell, render_trace_in_embedded_dsl returns a program; executing it raises nothing, uses no random choice, and builds a CrossCat model with the same views, columns, cells and clusters (under other numbers), hyperparameters to four decimals, in every cluster and for new ones. Refuted without the order of rows: other rows are put together. Refuted for a view without rows: rendering raises.", "quantifier": "all CrossCat models reached by observing, unobserving and transitions", "why_tests_cant": "a round trip over all models and tables; the order in which rows arrived matters and tests use one order", "anchors": ["src/sample_crosscat.py: render_trace_in_embedded_dsl, convert_crosscat_to_embedded_dsl_observe, get_crosscat_observes, get_view_observes"]}
{"id": "C63", "title": "A trace rendered for VentureScript shows the model", "statement": "For a CrossCat model in which every view has a row, every row of a view has a cell and the columns can be written, convert_trace_to_venturescript_ast returns, for every view, the clusters in use in increasing order with weights that are their shares of the rows and sum to 1, for every column its distribution with its hyperparameters in each of these clusters, and for every row the position of its cluster; and for every column, in increasing order, the position of the view that has it. The names of columns are those of the schema. Refuted: a view emptied by unobserve raises TypeError, Bernoulli columns raise, negative outputs have no name, and weights written with four decimals need not sum to 1.", "quantifier": "all CrossCat models reached by observing, unobserving and transitions", "why_tests_cant": "quantifies over all models, cluster numbers and histories; gaps in cluster numbers and emptied views are rarely tested", "anchors": ["src/sample_crosscat.py: convert_trace_to_venturescript_ast, get_view_representation, get_variables_to_view_assignment, get_crp_tables_weights, get_array_distributions, tranpose_product_list, convert_variable_name, compile_weights_list"]}
{"id": "C64", "title": "A regression predicts as Bayesian linear regression does", "statement": "For a LinearRegression whose hyperparameters are proper (a and b positive, V symmetric positive definite; the defaults are), after any rows of numbers have been observed: the hyperparameters computed from the rows are those of the posterior, the distribution of coefficients and variance whose density is the prior's times the likelihood of the rows; logpdf of a new row is the log density of Student's t with twice the posterior's a degrees of freedom, located at the prediction of the posterior's mean coefficients and with the posterior's scale b / a (1 + y' Vn y); and logpdf_score is a number, the sum of the log densities of the rows each given those before it. Nothing raises.", "quantifier": "all numbers of inputs and levels, proper hyperparameters and finite sequences of rows of numbers", "why_tests_cant": "the identity holds in real arithmetic over all design matrices of all sizes; tests compare a few floating point values", "anchors": ["src/linreg.py: posterior_hypers, calc_log_Z, calc_predictive_logp, calc_logpdf_marginal, logpdf, logpdf_score"]}
{"id": "C65", "title": "Densities over the reals integrate to one", "statement": "What Normal.logpdf, NormalUC.logpdf (rows not on record) and LinearRegression.logpdf (proper hyperparameters, rows of numbers, inputs it can code) answer as the value varies is the logarithm of one function that is positive, continuous and has integral exactly 1 over the real line, after any history of calls.", "quantifier": "all reachable states, all hyperparameters accepted, all numbers of rows, all values", "why_tests_cant": "an improper integral over the real line; tests compare a few points or integrate numerically on a bounded range for a few states", "anchors": ["src/normal.py: logpdf, calc_predictive_logp", "src/normal_uc.py: logpdf", "src/linreg.py: logpdf, calc_predictive_logp"]}
{"id": "C66", "title": "Integrating a column out leaves the answer without it", "statement": "For a row not on record of a view, a state or any nesting whose components allow the constraints: the integral of exp(logpdf({o: x} and T | C)) over the value x of a column of real numbers is exp(logpdf(T | C)), and 1 when T is empty; for a column of counts the same with the infinite sum over 0, 1, 2, ..., for a column of categories with the sum over the categories. No call raises.", "quantifier": "all grown models, columns, targets, constraints of positive density and rows not on record", "why_tests_cant": "an improper integral or infinite sum, over all mixtures of any number of clusters and nesting", "anchors": ["src/finite_rowmix.py: logpdf", "src/flexible_rowmix.py: FlexibleRowMixture (logpdf inherited)", "src/product.py: logpdf", "src/finite_array.py: logpdf", "src/flexible_array.py: logpdf", "src/normal.py, src/normal_uc.py, src/poisson.py, src/categorical.py, src/bernoulli.py: logpdf"]}
{"id": "C67", "title": "Column reassignment draws views in proportion to exp(score)", "statement": "transition_cgpm_view_assigments of some columns of a view: there is one factor k > 0 such that for every column v that is not moved, the moved columns join v with probability k * exp(logpdf_score of the resulting model), and that resulting model is one determined model: the same table with only these columns in v's view (the model itself, if they are in v's view already). With no new view proposed the probabilities are exactly exp(score) over the sum of exp(score) over the views.", "quantifier": "all CrossCat models with aligned rows and at most 257 views, all sets of columns of one view, all numbers of auxiliary views", "why_tests_cant": "exact probabilities of a randomized kernel, for every model; a test sees frequencies of a few runs on a few models", "anchors": ["src/transition_views.py: transition_cgpm_view_assigments, get_cgpm_view_proposals, get_cgpm_view_proposals_existing, get_cgpm_view_proposals_singleton", "src/transition_views.py: get_cgpm_data_logp"]}
{"id": "C68", "title": "Reloading regressions, forests and chains", "statement": "from_metadata(to_metadata(x)) gives back x: a LinearRegression whose coefficients have the default prior, after any calls of observe, unobserve and set_hypers; a RandomForest, trained or not; a Chain of models, regressions and forests after any calls of observe and unobserve. Refuted for a LinearRegression given its own mu or V: the table, a and b come back, mu and V are the default ones, and the reloaded regression answers other densities. set_hypers with positive a and b is what get_hypers then returns and changes nothing else; without them it raises KeyError or AssertionError and changes nothing.", "quantifier": "all histories of calls, all data, all networks", "why_tests_cant": "every reachable state must survive, including those after failed calls; a test reloads a few fixed states", "anchors": ["src/linreg.py: to_metadata, from_metadata, get_hypers, set_hypers", "src/forest.py: to_metadata, from_metadata", "src/chain.py: to_metadata, from_metadata"]}
{"id": "C69", "title": "Score of a Chain", "statement": "In a Chain of Products, flexible row mixtures and LinearRegressions after any history: observing a new row that gives each child it touches all its inputs adds to logpdf_score exactly the log density logpdf answered for that row; over any sequence of such rows the log densities add up; a Chain without data scores 0. Refuted for a Chain with a RandomForest: logpdf_score raises TypeError, because the forest answers None.", "quantifier": "all networks, all histories, all rows", "why_tests_cant": "equality of real numbers over all sequences of rows and all networks", "anchors": ["src/chain.py: logpdf_score, observe, logpdf", "src/linreg.py: logpdf_score", "src/forest.py: logpdf_score"]}
{"id": "C70", "title": "Dependence constraints of GibbsCrossCat", "statement": "GibbsCrossCat(crosscat, Cd, Ci) accepts constraints that the library finds legal if the model obeys them (every block of Cd within one view, every pair of Ci in two views) and raises AssertionError otherwise, or if the columns are not numbered 0..n-1. Through any sequence of calls on a constrained sampler (transition with any kernels, the kernels themselves, the setters) and of observe and unobserve on its model, whether they return or raise, every view keeps its columns, so the constraints stay obeyed; transition_view_assignments and set_view_assignment raise AssertionError and change nothing.", "quantifier": "all models, all constraints, all sequences of calls, all outcomes of random choices", "why_tests_cant": "an invariant over all sequences of randomised moves, including those that raise half way", "anchors": ["src/transition_crosscat.py: validate_crosscat_dependencies, GibbsCrossCat.__init__, transition_view_assignments, set_view_assignment"]}
{"id": "C71", "title": "Moves by the external engine", "statement": "transition_row_assignments_cpp, transition_view_assignments_cpp and transition_structure_cpp of GibbsCrossCat ask the engine for exactly the documented kernels, steps, time, rows, columns and constraints, with a seed in [0, 2^32-1); if the engine answers properly and keeps to the constraints it was sent, the model afterwards has the same table, the views and clusters of the answer, and obeys the sampler's constraints; the call does return if the labels drawn for new views are new. The same for the default inference program of an ensemble. Refuted: with the default arguments N=None, S=None each of them always raises AssertionError.", "quantifier": "all models the engine can take, all arguments, all engines, all random choices", "why_tests_cant": "quantifies over the behaviour of the external engine and over all models", "anchors": ["src/transition_crosscat.py: transition_row_assignments_cpp, transition_view_assignments_cpp, transition_structure_cpp", "src/transition_crosscat_cpp.py: transition_cpp, _get_crosscat_X_L", "src/crosscat_ensemble.py: make_default_inference_program"]}
{"id": "C72", "title": "The external engine is told the hyperparameters and sizes of the model", "statement": "What transition_cpp hands to the external engine besides the partitions agrees with the model: for each column the hyperparameters of a component without data that models it (for a Categorical column also the number of different values recorded in it), for each view the number of its columns, its columns, the number of rows in each of its clusters, and the concentration of its row divider.", "quantifier": "all CrossCat states of Normal and Categorical columns, all arguments", "why_tests_cant": "a wrong count or a hyperparameter under the wrong name only biases the engine; no outcome of a run is impossible because of it", "anchors": ["src/transition_crosscat_cpp.py: create_hypers, create_view_state, _get_crosscat_X_L"]}
{"id": "C73", "title": "The AST of a model describes it without its data", "statement": "convert_cgpm_to_ast gives the same result before and after any observe or unobserve, successful or not. It raises NotImplementedError exactly for models that show a FiniteRowMixture or a bare array. Its result for a CrossCat model is that of convert_crosscat_to_ast without the column numbers, and together with the columns it determines a CrossCat model without data (NormalUC columns excepted).", "quantifier": "all models, rows and random outcomes", "why_tests_cant": "that no sequence of observations changes the result, and that no two models share one, are claims about all models", "anchors": ["src/conversion.py: convert_cgpm_to_ast"]}
{"id": "C74", "title": "Several samples at once, and the estimates made from them, are right on average", "statement": "Ask a row mixture for n samples of finite columns with one call of simulate: the mean over the random choices of any sum over the samples is n times the mean over one sample, so the expected number that agree with given values is n times exp(logpdf). The same holds for a state (a Product of views) for functions of the columns of one view and sums of them. Hence the mean that mutual_information reports is on average exactly the entropy, or the mutual information, of the columns under the probabilities logpdf reports, for any number of samples. It fails for pairs of columns of different views: of two samples of two fair labels, 3/8 and not 1/2 are expected to show (0, 1).", "quantifier": "all views and states reachable by observing and unobserving, columns of finite support, constraints of positive density, functions of the sample, numbers of samples", "why_tests_cant": "the exact expectation over all random outcomes, for every number of samples; a bias shows in tests only as noise", "anchors": ["src/finite_rowmix.py: FiniteRowMixture.simulate", "src/product.py: Product.simulate, merge_samples", "src/entropy.py: mutual_information, _sample_entropy, _sample_mi, get_estimate"]}
{"id": "C75", "title": "What a model answers depends on its rows, clusters and hyperparameters, not on its history", "statement": "If two flexible row mixtures hold the same rows in the same clusters with the same cells, and their row dividers and the columns of their clusters have the same hyperparameters, then logpdf, simulate (as a function of the random draws) and logpdf_score answer the same for all arguments. The same holds for CrossCat states whose views agree in this way one by one. In particular two histories of observe, unobserve, row transitions and set_rowid_component calls on the same new view, in any order and with any rows that came and went, that leave the same rows in the same clusters leave models that answer alike. The names of clusters do not matter either: if the clusters of one are those of the other under other names and the hyperparameters are the same in all clusters, then logpdf of the columns of data of a row that is not recorded and logpdf_score are the same.", "quantifier": "all pairs of reachable consistent views and states, all histories without changes of hyperparameters, all injective renamings of the clusters in use, all arguments of logpdf and simulate (for renamings: of logpdf for rows not recorded and constraints of positive density)", "why_tests_cant": "two arbitrary histories of any length and every question must be compared; tests compare a few orders of insertion and a few questions", "anchors": ["src/finite_rowmix.py: FiniteRowMixture.logpdf, simulate, logpdf_score, observe, unobserve", "src/flexible_array.py: FlexibleArray", "src/product.py: Product", "src/crp.py: CRP.support, CRP.logpdf_score", "src/transition_rows.py: transition_rows, set_rowid_component"]}
{"id": "C76", "title": "Row inference keeps the posterior over clusterings of the rows and converges to it", "statement": "Fix the table and the hyperparameters of a flexible row mixture. Its clusterings of the recorded rows are finitely many, and exp(logpdf_score), divided by its sum over all of them, is a probability with positive weight on every one: the posterior. If the clustering is drawn from the posterior, then after transition_rows of any recorded row it is still distributed as the posterior, and so after transition_rows of any list of rows in any order, with repetitions, as in the loop of transition_row_assignments. From every starting clustering, sweeps over all the rows, each sweep in an order of its own, converge to the posterior: for every function of the clustering the difference between its average after k sweeps and its posterior average is at most q^k times its largest deviation, for a q < 1 that depends neither on the orders, the start nor the function. None of these transitions raises or changes the table.", "quantifier": "all reachable consistent views whose clusters have the hyperparameters of the base component and whose rows have no NaN in Bernoulli or Poisson columns, all functions of the clustering, all lists of rows, all numbers of sweeps and orders of the rows in them, all starting clusterings", "why_tests_cant": "the distribution after a transition is an expectation over all draws and must be summed over all clusterings, whose number grows as the Bell numbers; convergence is a statement about unboundedly many sweeps", "anchors": ["src/transition_rows.py: transition_rows, set_rowid_component, get_rowids", "src/transition_crosscat.py: GibbsCrossCat.transition_row_assignments", "src/finite_rowmix.py: FiniteRowMixture.logpdf_score", "src/crp.py: CRP.support, CRP.logpdf_score"]}
{"id": "C77", "title": "Samples of a view drawn at once are independent, and how far estimates made from them are off", "statement": "The n samples one simulate call on a row mixture returns for finite columns, given any cells, are n independent draws: the mean of the product of any function of each sample is the mean of that function to the power n. Hence the mean squared error of the entropy or mutual information that mutual_information estimates for a row mixture is exactly the spread of the log terms divided by the number of samples, which is 100 when N is not given or 0, and the chance of being off by eps or more is at most that over eps squared. The variance reported beside the mean is on average only (n - 1)/n of that error: it is too small, and for one sample it is 0.", "quantifier": "all reachable row mixtures over flat components, all constraints of positive density, all columns whose possible values can be listed, all functions of a sample, all numbers of samples", "why_tests_cant": "independence of n samples and the size of an error are facts about the whole distribution of answers for every n; tests average a few runs at fixed seeds and cannot tell a variance that is short by a factor (n - 1)/n", "anchors": ["src/finite_rowmix.py: FiniteRowMixture.simulate", "src/product.py: Product.simulate", "src/entropy.py: get_estimate, mutual_information, _sample_entropy, _sample_mi"]}
{"id": "C78", "title": "Hyperparameter inference converges to the posterior over the grids, from any start", "statement": "Calling transition_hypers again and again on the components of a column converges: there is a factor q < 1, depending only on the column and the grids, such that after n + 1 calls the mean of any function f of the hyperparameters differs from its mean under the posterior over the grids (each grid point weighed by the marginal likelihood of the data of all components) by at most q^n times the largest deviation of f. This holds wherever the hyperparameters started, on the grids or not, equal in all components or not, and whatever orders of the hyperparameters the generator draws. Every call returns and leaves all components with the same point of the grids.", "quantifier": "all reachable models, all columns whose components are of one class other than NormalUC, all grids with positive values where needed, all numbers of calls, all orders drawn in each of them, all functions of the hyperparameters, all starting values", "why_tests_cant": "convergence is a statement about the whole distribution of the hyperparameters after n calls, for every n and every start; tests run a few transitions and check that they do not crash", "anchors": ["src/transition_hypers.py: transition_hypers", "src/transition_crosscat.py: GibbsCrossCat.transition_hypers_distributions, transition_hypers_row_divide"]}
{"id": "C79", "title": "Inference of the hyperparameters of a whole CrossCat model converges in every column", "statement": "GibbsCrossCat.transition(N=n, kernels=..., outputs=...), with any kernels for hyperparameters of which hypers_distributions is one, converges in every column it is asked about: for each such column there is a factor q < 1 such that, after n passes, the mean of any function f of the hyperparameters of the column is within q^(n-1) times the largest deviation of f of its mean under the posterior over the grids of that column, given its cells and clusters. Inference on the other columns and on the row dividers in between makes no difference, in whatever order the columns are visited and the hyperparameters resampled, as long as the orders do not depend on the values drawn. As passes are added the mean tends to that under the posterior, and the hyperparameters of different columns become independent.", "quantifier": "all CrossCat models without NormalUC columns, all columns, all grids with positive values where needed (those of the constructor among them), all lists without repetitions of kernels for hyperparameters, all numbers of passes, all orders of columns, views and hyperparameters in each pass, all functions of the hyperparameters", "why_tests_cant": "it is about the distribution of the hyperparameters after any number of passes over any number of columns, with every order of them; tests run a few passes with one seed", "anchors": ["src/transition_crosscat.py: GibbsCrossCat.transition, transition_hypers_distributions, get_distribution_cgpms", "src/progress.py: transition_generic", "src/transition_hypers.py: transition_hypers"]}
{"id": "C80", "title": "Inference of the concentrations of the row dividers draws from the posterior over the grid", "statement": "After GibbsCrossCat.transition(N=n, kernels=..., outputs=...) with any n >= 1 and any kernels for hyperparameters of which hypers_row_divide is one, the concentration of the row divider of every view with a column asked for is distributed exactly as the posterior over the grid of concentrations: each value of the grid in proportion to the probability of the assignment of rows to clusters in that view under it. It depends neither on the concentration before nor on the number of passes nor on the order in which the views are visited, and the concentrations of different views are independent.", "quantifier": "all CrossCat models (without NormalUC columns if the kernels include hypers_distributions), all lists of kernels for hyperparameters, all views with a column asked for, all grids of positive concentrations (that of the constructor among them), all numbers of passes, all orders of views in each pass, all functions of the concentration", "why_tests_cant": "it is an equality of distributions after any number of passes over any number of views; tests compare samples of one model with one seed", "anchors": ["src/transition_crosscat.py: GibbsCrossCat.transition, transition_hypers_row_divide, get_row_divide_cgpms, get_row_divide_outputs", "src/progress.py: transition_generic", "src/transition_hypers.py: transition_hypers"]}
