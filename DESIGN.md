# Formal model of cgpm2 in Rocq 8.16.1: design

The code under study is `/repo/src` (Python 2). It is read as text only; nothing is executed.
This document was written before the proofs and is kept current. The machine-checked part
lives in `rocq/theories`; `MANIFEST.json` maps each property of `properties.jsonl` to theorems.

## 1. Shape of the model

* **Values.** A cell is `VNan` or `VQ q` with `q` a canonical rational (`Qc`). Every finite Python
  float or int is such a rational. Arithmetic is exact: rounding, overflow and infinities of
  data values are not modelled. `1` and `1.0` are identified.
* **Log densities.** `xr` = finite real | -inf | +inf | nan with IEEE addition and subtraction;
  finite parts are stdlib reals. `gammaln`/`lgamma` is a concrete function: Euler's limit, whose
  convergence and functional equation are proved. So no analytic assumption is made.
* **Dictionaries** are association lists with Python's update semantics (replace in place, else
  append; delete).  OrderedDict order is kept.
* **Exceptions are values** and the state reached when the exception is raised is returned too:
  an operation returns `(new state, Ok v | Err e)`. So partial mutations before a raise are visible.
* **Randomness** is a free monad `samp A` of random choices (`log_pflip`, `pflip`, permutations,
  continuous draws, random integers). It has two readings: `always m P` (every outcome reachable
  through choices of positive weight satisfies `P`) and, for finite choices, `expect m f` (exact
  expectation). Theorems that mention inference quantify over all outcomes.
* **Objects** are trees: primitives, Product, FiniteArray, FlexibleArray, FiniteRowMixture,
  FlexibleRowMixture; operations are structural recursions mirroring the methods branch by branch.
  Aliasing (objects shared between two live structures) is modelled where it is observable:
  view proposals (C40) and metadata snapshots (C31).
* **Queries and lazily created components.** `logpdf` and `simulate` of a FlexibleArray create missing
  components from the base. In the model queries are functions of the state that read a missing
  component as the base. Query.v follows the same code with the object threaded through it, and C23
  proves that the effect (relation `touched`) is invisible to every later call.

* **Which states.** `reachable` (primitives) is the closure of the constructors under observe, unobserve
  and hyperparameter changes; `creachable` closes the composite constructors under observe, unobserve,
  row moves and parameter changes; `grown` also closes them under adding and removing columns at any
  time. Theorems about composite models are stated for `grown` (the largest), refutations exhibit a
  `creachable` state.

## 2. Trusted base

* Coq's kernel, and for each theorem what `Print Assumptions` lists below it: axioms of the
  standard library only, listed theorem by theorem in section 6. Coquelicot (installed with Coq,
  no axioms of its own) is used for the convergence of Euler's limit for `lgamma` and for series.
* The translation from Python to Gallina itself, cited definition by definition.
* Helpers of the external package `cgpm` (not in the sandbox), modelled from their documented behaviour:
  `merged`/`mergedl`/`lchain`/`get_intersection`/`flatten_cgpms`/`simulate_many`/`logsumexp`/
  `log_normalize`/`logmeanexp`/`log_pflip`/`pflip`/`build_cgpm`, `cgpm.network.helpers`
  (topological order, validation of a network); numpy `bincount`, `linspace`, `linalg.inv`, `linalg.det`;
  scipy `gammaln`, `betaln`, `norm.logpdf`.
* Python itself where text is involved: `yaml.load` on the block subset of YAML that the Core DSL writes
  (a reader for it is part of the model), `exec` of the constructor calls of the embedded DSL, and `repr` of
  the dictionaries of observed rows, read back by Python.
* Left open, so that theorems hold whatever they do: the order in which sets and dictionaries are
  iterated (`any_order`, arguments `order`/`lists`), the grids of `log_linspace`, the clock, the answers of
  the external engine, `get_scc_from_tuples`, `simulate_crp_constrained`, scikit-learn's classifier
  (`honest` says what is assumed of it where anything is), `parallel_map`'s schedule.
* Randomness: a draw is an arbitrary outcome of positive weight (or an exact finite distribution,
  `expect`). Seeds and the independence of generators are not modelled; that `multiprocess` workers advance
  copies of a generator is not either.
* Sorting lists that contain nan is not modelled (such lists do not arise in what is proved).

## 3. Properties: what is modelled and how it is proved

| id | model | proof |
|----|-------|-------|
| C01 | six primitives with their statistics, `observe`/`unobserve` | invariant "statistics = recomputation from data" by induction over an arbitrary list of calls |
| C02 | same | algebra on the state; append-then-delete law of dictionaries |
| C03 | same, error branches explicit | case analysis: iff characterisation of `Err`, state equality |
| C04 | same | statistics are permutation-invariant functions of the data (from C01) |
| C05 | `logpdf`, `logpdf_score` formulas over reals, concrete lgamma | functional equation of lgamma, telescoping |
| C06 | CRP, Categorical, Bernoulli `logpdf`, `support` | finite sums over the support |
| C07 | Poisson `logpdf` | negative binomial series via power series (Coquelicot) |
| C08 | Normal posterior | completing the square; invariant from C01; Cauchy-Schwarz |
| C09, C10 | `logpdf` branches | case analysis; refutations by computation |
| C11 | CRP `support` | invariant over histories |
| C12 | CRP score | product formula from lgamma recurrence |
| C13 | `gibbs_logps`, `gibbs_tables` | finite sums, comparison with the state after `unobserve` |
| C14 | `set_hypers`/`get_hypers` | case analysis |
| C15 | Product constructor and `logpdf` | induction over children |
| C16-C19 | row mixture `logpdf`, four branches | refinement to a linear-domain density spec `dens` |
| C20 | recorded-row branch | computation; refutation witness |
| C21 | `simulate` in the choice monad | `always` rules, induction over the tree |
| C22 | same, `expect` reading | induction; finite sums |
| C23 | Query.v: `logpdf`/`simulate` with the object threaded through, components stored on demand | induction on depth; relation `touched`; coupling of randomised programs |
| C24 | Args.v: `logpdf`, `simulate`, `observe` with the dictionaries as heap objects | frame property by induction over the tree; refutation for every array |
| C25, C26 | operations on mixtures, abstract table | refinement by induction over histories |
| C27, C28 | composite error branches | case analysis, refutation witnesses |
| C29 | composite scores | induction, chain rule from C05 |
| C30 | Meta.v: JSON-like `meta`, `to_meta`, `from_meta`/`build` (dispatch on factory) | induction over the model tree; row maps have distinct keys (invariant); depth of metadata bounds the fuel |
| C31 | Alias.v: heap with the containers changed in place; programs of New, Call, Snap, Load | refinement to a world of values; refutations for all states |
| C32 | Chain.v: children as method records; topological sort, required inputs, weighted_sample, simulate, logpdf | invariant of the topological sort; induction over the order of visit; permutation of the sum of weights; with unobserved parents (ChainLaw.v), the mean weight by induction over the order of visit, and children that are not ancestors of the query sum to one |
| C33 | Walks.v: `remove_cgpm`, `add_cgpm` with the checks of the constructors they call | relation `shrunk` between a model and the one without some children of its Products; induction over it for columns, primitives, densities |
| C34 | Walks.v: `get_cgpms_by_output_index` | induction: the answer is the list of all primitives of the tree with that column |
| C35 | Walks.v | the flexible mixture keeps its maps; refutation for every finite mixture |
| C36-C38 | `transition_rows`, `set_rowid_component` | `always`/`expect` rules plus C25, C29 |
| C39 | Views.v: proposals, `transition_cgpm_view_assigments`, `set_cgpm_view_assignment`, the pass over the columns; views shared between model and proposals | a CrossCat model as one table (SpecViews.v); each proposal is the view with the columns and their cells added; then the pass by induction. Holds for at most 257 views, above that refuted; a new view's name may be taken, refuted |
| C40 | same: the view after a proposal was built is part of the result | the proposal `extends` the view when the rows are aligned; otherwise every proposal leaves a seat (C40_trace, C40_refuted) |
| C41 | Hypers.v: transition_hypers, transition_hypers_full, transition_hyper_grids, set_hypers, construct_hyper_grids of every primitive; log_linspace is abstract (any function giving n points between its ends); Crosscat.v `put_column`: the components of a column changed in place within the tree | C41_touches: induction over names and grids with the invariant that every component is the original after some set_hypers; C41_column lifts it to the tree; C41_law and C41_full give the law, C41_invariant the invariance of the posterior over the grids; C41_own_grids: the code's own grids suffice; C41_normal_uc_refuted: NormalUC columns always raise KeyError |
| C42 | Progress.v: proportion_done, the two loops of transition_generic; the clock is any function from the number of the reading to the time; report_progress, which only prints, is left out | C42_schedule: the number of kernels run is the first index at which a limit is reached, for any clock and limits (induction over passes); C42_passes, C42_default, C42_budget and C42_endless are its cases; C42_zero: N=0 or S=0 raises ZeroDivisionError |
| C43 | Cpp.v: all of transition_crosscat_cpp.py: the data, metadata, latent structures sent (M_c, T, X_L, X_D) and the way the answer is taken over; the engine, get_scc_from_tuples, the order sorted() gives with NaNs and the order of sets are parameters | C43_request: what is sent describes the model; C43_import: for any answer, every outcome of the generator that returns has exactly the views and clusters answered and the same table, and it returns when the labels drawn are new; C43_roundtrip |
| C44 | cpp_request, steps_and_time, transition_cpp | C44_neither (always AssertionError); C44_passed: engines agreeing on requests with the documented steps, time, seed and kernels give the same result |
| C45 | create_metadata, crosscat_value_to_code | C45_bijection, C45_lookup, for any order of the categories |
| C46 | partition_assignments_to_blocks, block_of | C46_blocks, for any values and any order of the set |
| C47 | Sample.v: generate_random_partition (the choice of a table as a finite draw with the given weights) | C47_partition by induction over the customers for every outcome; C47_total (never raises for alpha > 0); C47_law: the probability of each partition is its CRP probability, by induction with the unique predecessor of a partition |
| C48 | Ensemble.v: make_args_list, _modify, _modify_bulk, _evaluate, _evaluate_bulk, mapper (worker processes get copies, src/crosscat_ensemble.py:159-166), CrossCatEnsemble and all its observe/unobserve/logpdf/simulate calls incl. bulk and heterogeneous, transition, make_random_crosscat; parallel_map and simulate_crp_constrained are external and abstract | C48_observe, C48_unobserve, C48_simulate (exact outcomes of every chain), the laws C48_observe_law, C48_simulate_law (chains independent), C48_logpdf, C48_score, C48_failure_workers and C48_failure_in_order (what an exception leaves behind), C48_observe_bulk, C48_unobserve_bulk (same outcomes and law as successive calls), C48_logpdf_bulk, C48_simulate_bulk, C48_logpdf_heterogeneous, C48_lengths, C48_no_lists, C48_lengths_heterogeneous; C48_new, C48_new_constrained, C48_same_table (every chain has the same table after every history), C48_inference |
| C49 | Ensemble.v: same_assignment_column, same_assignment_row, the two pairwise matrices and the calls of the ensemble | C49_columns, C49_rows by induction over the pairs, C49_columns_unknown, C49_rows_unknown (KeyError), C49_ensemble; C49_duplicates_refuted: with an output given twice the matrix is wrong |
| C50 | Entropy.v: get_estimate, validate_query, _sample_entropy, _sample_mi, mutual_information and the ensemble's version | PropEntropy.v. In a Product the log density of the joint is the sum of those of the two parts, for every sample that can be drawn, so every difference and hence mean and variance are 0 (C50_independent, C50_ensemble). C50_symmetric: on given samples the estimate does not change when the arguments are swapped. C50_entropy: the entropy of a discrete model is finite and not negative. C50_validation: what is rejected. C50_marginalize_refuted: with marginalize every call raises. |
| C51 | Regress.v: observe, unobserve of LinearRegression and RandomForest and of networks holding them | PropRegress.v. Invariant of every table reachable by observe and unobserve (the three dictionaries have the same keys, the count is not below their size). C51_linreg_refuted, C51_forest_refuted: unobserve of any recorded row drops it and raises TypeError; for a regression every later score, log density and simulation of a new row raises. C51_network_refuted, C51_network_forest_refuted: inside a Chain or Product it returns without the column. C51_errors_change_nothing: the cases that do behave. |
| C52 | Regress.v: dummy_code_one of both, process_inputs | PropRegress.v. C52_length(_forest), C52_stored: fixed length, also of every code ever stored. C52_injective(_forest). C52_rejects(_forest). C52_missing_refuted: with one level a forest codes missing and 0 alike. C52_fraction_refuted: a regression codes a fraction between levels - 1 and levels as the last category. |
| C53 | Sample.v: get_primitive/product/components/view/crosscat_observes, reindex_crp_observes, get_sorted_rowids, get_view_observes_crp_vs, get_view_observes_data_vs; the text around them is not modelled | C53_refuted, C53_data_refuted: concrete reachable views; C53_statements says exactly what is rendered for every view (row in place i gets the cluster of the row recorded in place i); C53_sorted: right, and replayable into a new view, when recorded in the order of clusters; C53_crp_vs, C53_data_vs, C53_empty |
| C54 | Sample.v: reindex_crp_observes, get_sorted_rowids, rebase_cgpm_row_assignments, convert_dim_to_base_cgpm, convert_view_to_rowmixture, convert_cgpm_state_to_cgpm2; the order in which a set of tables is listed is any | C54_reindex, C54_order, C54_rebase by the position of a table in a duplicate-free list; C54_accepted by induction along the order; C54_import, C54_state: every row is accepted and the result has the columns, cells, hyperparameters and renumbered clusters of the original |
| C55 | Crosscat.v: GibbsCrossCat.__init__ (without validating constraints), transition, its five kernels, set_hypers_distribution, set_hypers_row_divide, set_rowid_component; iteration over sets and dicts in any order | C55_transition: every kernel preserves `same_data`, hence so does any schedule; C55_returns: by the returns theorems of C36 and C41, through C42_passes; C55_rows, C55_hypers_columns, C55_hypers_dividers, C55_join, C55_set_hypers, C55_set_hypers_divider say what else is unchanged. Not covered: whether view_assignments returns (it raises if a label drawn for a new view is taken, C39_label_taken_refuted) CrosscatThm4.v: the arguments of transition reach the kernels (C55_transition_rows, _columns, _dividers). |
| C56 | Ensemble.v: ens_reload (to_metadata, then from_metadata: the constructor, then build_cgpm of every chain) | C56_reload, C56_reload_history from C30_round_trip, for every outcome of the constructor |
| C57 | Regress.v: posterior_hypers, calc_log_Z, calc_predictive_logp, calc_logpdf_marginal, logpdf, logpdf_score; determinant by expansion, inverse by cofactors | PropRegress.v. C57_score_step, C57_score_is_chain_rule, C57_score_empty by cancelling the normalisers. C57_exchangeable: the posterior depends on the rows only through sums over them, and which rows are accepted does not depend on the order. |
| C58 | Regress.v: forest_logpdf, forest_simulate, forest_transition; the classifier is any function that answers with distinct classes and their log probabilities | PropRegress.v. C58_support, C58_law for trained forests; C58_untrained_refuted. |
| C59 | Dsl.v: the compiler core_compile_* to text, character by character; yaml.load for block mappings, block sequences and plain scalars; parse_core_dsl_to_ast | PropDsl.v. C59_round_trip: the written lines are read line by line (DslThm2, DslThm3), decimals by the lemma that four written digits read as the number rounded half to even (DslThm). C59_exact: rounding fixes numbers with four decimals. C59_lossy, C59_empty_refuted: counterexamples. |
| C60 | Dsl.v: compile_core_dsl_to_embedded_dsl to a tree of constructor calls (Python's exec of the text is in the trusted base), construct, interpret_embedded_dsl, convert_crosscat_to_ast | PropDsl.v. C60_interpreted from the reading of the text and the constructors' checks; C60_reinterpreted: the AST of a model describes it. C60_refuted, C60_bernoulli_refuted. |
| C61 | Dsl.v: generate_random_ast; np.round(x, 6) of a Gamma draw; the iterator of fresh row divider numbers is its next number | PropDsl.v. C61_random through C47_total; C61_interpreted through C60_interpreted; C61_written follows the draws in order; C61_refuted. |
| C62 | Dsl.v: render_trace_in_embedded_dsl as the calls of the program (the text of observed rows is Python's own repr, read back by Python; `nan` is defined by the preamble) and execute_trace for exec | DslThm6.v, PropDsl2.v. C62_trace: the rendered model is interpreted (C60), the rendered rows are replayed (C53) view by view, other views being untouched by a row of one view; C62_refuted, C62_empty_refuted. |
| C63 | Dsl.v: the namedtuples of the VentureScript AST, texts of distributions, names of variables, text of simplex; the rest of the text of the program is not modelled | DslThm7.v, PropDsl2.v. C63_trace; C63_name; C63_emptied_refuted, C63_bernoulli_refuted, C63_name_refuted, C63_simplex_refuted. That every cell is attributed to the last row is C53_data_vs. |
| C64 | Regress.v: posterior_hypers, calc_log_Z, linreg_predictive, linreg_marginal over the reals; np.linalg.inv is the adjugate over the determinant | Matrix.v (determinants of any size: Laplace, adjugate, rank-one update, positivity; completing the square), RegressThm4.v, RegressThm5.v, PropRegress2.v. C64_posterior compares densities at every coefficient and variance; C64_predictive at the level of logpdf; C64_score removes the assumption of finiteness from C57; C64_default. |
| C65 | Prims.v: nrm_logpdf, nuc_logpdf; Regress.v: linreg_logpdf | SpecDensity.v (integral over the line, log_density). Integral.v: the kernel (1+t²)^-s has an integral over the line, found by the recurrence in s and log-convexity to be sqrt(pi) Gamma(s-1/2)/Gamma(s); Integral2.v: Student's t and the Gaussian. PropDensity.v: C65_normal, C65_normal_uc, C65_linreg (from C64). |
| C66 | Cgpm.v: logpdf of every composite | SpecDensity.v (modelled). Marginal.v: any additive functional that leaves each primitive's density at 1 passes through Products, arrays and mixtures (induction on the tree); Marginal2.v: integral, series and finite sum are such. PropDensity.v: C66_real, C66_count, C66_category. |
| C67 | Views.v, Walks.v: proposals, their weights get_cgpm_data_logp, log_pflip, the model built from the proposal taken | SpecMoves.v defines the mean over weighted choices and uniform integers; ViewsLaw.v: the score of a view splits into the moved columns and the rest, the weight of a proposal is the part of the moved columns; ViewsLaw3.v: score of each outcome = weight + a constant; the choice among the first |X| weights has a common factor whatever the new views are. Not stated: the probability of a new view |
| C68 | RegressMeta.v: to_metadata and from_metadata of LinearRegression, RandomForest, Chain; get_hypers, set_hypers; build_cgpm | each reader undoes the writer on tables with distinct rows; what always holds of a chain (children sound, constructor accepts them) by induction on the history; C68_set_hypers by cases on the dictionary; C68_prior_refuted computes both densities. cPickle and base64 are assumed to restore the classifier |
| C69 | RegressMeta.v: Chain.logpdf_score over models, regressions and forests | each child by C29 and C57, the inputs told by observe and by logpdf having the same cells; summed along the network; when logpdf answers, every child answered (NetScoreThm.v) |
| C70 | Depend.v: validate_crosscat_dependencies, GibbsCrossCat.__init__ with constraints; library checks as arguments | the numbering of views handed to the library tells which columns are together; every call only retunes, reseats or adds rows within views (DependThm.v, DependThm2.v) |
| C71 | Depend.v: the three moves and make_default_inference_program over Cpp.v | C43 for request and import; the constraints sent tell the blocks by position (ensure_tells), so an obedient answer obeys them; the hyperparameter moves after it keep views and clusters (DependThm3.v) |
| C72 | Cpp.v: create_hypers, create_view_state, bincount, get_crosscat_X_L | C72_told against column_told, tallied, view_told of SpecLatents.v: counts of occurrences, and for K a list of the different values recorded |
| C73 | Ast.v: convert_cgpm_to_ast; None stands for NotImplementedError | C73_unchanged by induction on the model; C73_none; C73_crosscat relates it to convert_crosscat_to_ast of Dsl.v; C73_determined |
| C74 | Cgpm.v simulate, Entropy.v mutual_information (as in C22, C50) | ManyLaw.v to ManyLaw7.v: the mean of a sum over samples is linear in their number, for primitives, Products of them, mixtures (through the multinomial counts) and states; the mean over one sample is the sum over the listed values; the estimate is such a sum, as log densities of states are sums over views |
| C75 | Cgpm.v logpdf, simulate, score, observe, unobserve; Trans.v transition_rows, set_rowid_component (as in C25, C36) | SameThm.v: primitives with equal settings and permuted data answer alike (C01), so components, arrays and mixtures read the same functions; the score sums over clusters and clusters missing on one side are empty. SameHist.v: no call but a change of hyperparameters changes settings. SameRel.v: support, counts and component densities are carried over by the renaming, sums over clusters are permuted |
| C76 | Trans.v transition_rows; Crosscat.v rows_each; Cgpm.v score (as in C36, C45) | PostThm.v: a transition picks a cluster with probability proportional to exp(score) of the view it makes (C37), and these views are, up to names, all those that agree off the row. PostThm2.v: matching them with the list of all clusterings turns the law into a ratio of sums over the clusterings that agree off the row, an equivalence, hence invariance. PostThm3.v: a sweep reaches every clustering with probability at least p^n, so it contracts deviations from the posterior average. PostThm4.v: the list of all clusterings exists |
| C77 | Cgpm.v simulate; Entropy.v get_estimate, numpy_mean, numpy_var, or_default, mutual_information (as in C53, C74) | IidLaw.v: products of lists drawn by the children read across are independent draws (expectations commute), the product over clusters of powers is the product over the drawn labels. ErrThm.v: from means of products of 1 + t g for all small t the mean of the cross products is 0, so the mean squared sum is n times the spread. ErrThm2.v: what mutual_information makes of the samples; Chebyshev |
| C78 | Hypers.v transition_hypers, transition_hypers_in_order, sweep_hypers, score_grid, set_and_score, set_all_hypers (as in C41) | ConvThm.v: a sweep draws every hyperparameter from its grid, so from every point each point has at least a fixed share of its posterior probability (a lower bound from the least and the greatest weight on the finite grid); sweeps are averages and keep the posterior mean, so each takes off a fixed part of the largest deviation. PropConv.v: the law of repeated calls is the composition of the sweeps, since the values set are the values read back |
| C79 | Crosscat.v transition, run_kernels, kernel_lookup, transition_hypers_distributions, hypers_each, any_order, put_column; Progress.v transition_generic; Hypers.v (as in C41, C42, C55) | PassThm.v: over the list of columns visited, a visit to another column leaves the components of the column as they are and averages to 1, a visit to the column is one sweep (C78), so the mean is a composition of as many sweeps as there are visits; tours, times_column: every pass visits the column once. JointThm.v: a product of functions of several columns has as mean the product of such compositions. PropPasses.v: the bound of C78 on them |
| C80 | Crosscat.v transition, run_kernels, kernel_lookup, transition_hypers_row_divide, view_indexes, hypers_each, any_order, put_column; Progress.v transition_generic; Hypers.v (as in C41, C42, C55) | PassThm.v: the composition of sweeps of C79 for any outputs with grids; kernel_dividers: the kernel visits the labels of the views asked for, each once; laws_one: a sweep over a single hyperparameter forgets where it started. JointThm.v: the same for a product of functions of several outputs, a visit to one of them changing its factor only. PropDividers.v |

## 4. What is modelled, file by file

| file of /repo/src | model | not modelled |
|---|---|---|
| distribution.py, bernoulli.py, categorical.py, crp.py, normal.py, normal_uc.py, poisson.py | Prims.v, Samp.v, Meta.v | names and flags (`name`, `is_continuous`, ...) |
| product.py, finite_array.py, flexible_array.py, finite_rowmix.py, flexible_rowmix.py, icgpm.py | Cgpm.v, Query.v (the same code with lazily created components), Args.v, Meta.v | `render` |
| chain.py | Chain.v, Regress.v (networks holding regressions) | `to_metadata`, `from_metadata` |
| walks.py, transition_rows.py, transition_hypers.py, transition_views.py | Walks.v, Rows.v, Hypers.v, Views.v, History.v | `clone_cgpm` is the identity on values |
| transition_crosscat.py, progress.py | Loop.v, Gibbs.v | printing of progress; empty methods; the wrappers that add N and S to calls of the engine |
| transition_crosscat_cpp.py, conversion.py | Cpp.v, Sample.v | the engine (any answer); `convert_cgpm_to_ast` |
| crosscat_ensemble.py | Ensemble.v, Entropy.v | multiprocessing; `make_default_inference_program` |
| entropy.py | Entropy.v | |
| linreg.py, forest.py | Regress.v | the draw of coefficients; the classifier; metadata |
| sample_crosscat.py | Sample.v, Dsl.v | the text of a VentureScript program, except distributions, names and weights |

Nowhere modelled: matplotlib, the C++ engine (`lovecat`) itself, multiprocessing, floating-point rounding.

## 5. Claims that are false of the code

Each is a theorem about the model; the states are reachable by calls of the API.

* `C10_missing_logpdf_refuted`: Bernoulli and Poisson accept a missing value in observe but give it zero density.
* `C16_nested_mixture_refuted`: A mixture of mixtures answers nan for constraints that are impossible in one component.
* `C20_cluster_target_refuted`: A mixture gives probability one to any cluster of a recorded row.
* `C22_joint_samples_refuted`: Samples of a mixture with N come grouped by cluster.
* `C23_score_refuted`: With a base that has data, a query that creates components changes what logpdf_score answers.
* `C24_array_refuted, C32_array_refuted`: The arrays remove the indexer from the dictionary they are given.
* `C26_fraction_refuted`: The CRP truncates fractional cluster labels, the mixture does not.
* `C27_product_refuted, C27_mixture_refuted`: An observe that raises leaves composite models changed.
* `C29_finite_refuted`: A FiniteRowMixture cannot be scored.
* `C31_bernoulli_refuted, C31_normal_uc_refuted`: Metadata is shared with the object it was taken from.
* `C33_label_refuted`: A column with the label of the row divider is accepted.
* `C35_finite_refuted`: Adding a column to a FiniteRowMixture loses the components of its rows.
* `C38_twin_refuted`: With row identifiers that are equal but not the same int object, joining the row to itself raises and loses the row.
* `C39_label_taken_refuted, C39_many_views_refuted`: The name of a new view may be taken, then the move raises; with more than 256 views identity of ints fails and the move raises.
* `C40_refuted`: Proposals share the row divider with the current view.
* `C41_normal_uc_refuted`: NormalUC columns cannot be inferred: KeyError.
* `C49_duplicates_refuted`: An output given twice makes the dependence matrix wrong.
* `C50_marginalize_refuted`: mutual_information with columns to marginalise always raises.
* `C51_*_refuted`: unobserve of regressions and forests raises and leaves them unusable; in a network the exception is swallowed.
* `C52_fraction_refuted, C52_missing_refuted`: Codes of fractions and of missing values coincide with those of categories.
* `C53_refuted, C53_data_refuted`: Statements about clusters put rows into other clusters; cells are attributed to the wrong row.
* `C58_untrained_refuted`: An untrained forest samples values to which it gives probability 0.
* `C59_empty_refuted, C60_refuted, C60_bernoulli_refuted, C61_refuted`: Texts that cannot be read; hyperparameters rounded to 0.
* `C62_refuted, C62_empty_refuted`: A rendered trace replays rows into other clusters; views without rows are not rendered.
* `C63_*_refuted`: Emptied views, Bernoulli columns and negative outputs are not rendered; weights with four decimals.
* `C68_prior_refuted`: Metadata of a regression leaves out mu and V; the reloaded regression answers other densities.
* `C69_forest_refuted`: A Chain with a RandomForest cannot be scored.
* `C71_defaults_refuted`: The moves by the external engine and the default inference program raise AssertionError when called without N and S.
* `C74_pairs_refuted`: simulate with N groups the samples of each mixture by cluster and Product pairs them in that order, so values of columns in different views do not occur together as often as logpdf says.
* `C77_reported_refuted`: The variance reported with an estimate of entropy or mutual information is on average (n - 1)/n of its mean squared error, 0 for one sample.

## 6. Assumptions

What `Print Assumptions` lists for the theorems of MANIFEST.json (also printed by the build, below
each theorem). All of it is from Coq's standard library: `ClassicalDedekindReals.sig_forall_dec`,
`ClassicalDedekindReals.sig_not_dec` (the real numbers), `FunctionalExtensionality.functional_extensionality_dep`,
`Classical_Prop.classic`.

**Nothing: closed under the global context** (22 theorems): C15_product_accepts, C25_table_unique, C32_topological_order, C42_zero, C44_neither, C46_blocks, C51_forest_refuted, C52_injective, C52_injective_forest, C52_length, C52_length_forest, C52_missing_refuted, C52_rejects, C52_rejects_forest, C52_stored, C54_order, C54_rebase, C54_reindex, C59_empty_refuted, C59_lossy, C63_name, C63_name_refuted.

**sig_forall_dec** (4 theorems): C30_reading_terminates, C51_errors_change_nothing, C52_fraction_refuted, C68_forest.

**sig_forall_dec, functional_extensionality_dep** (21 theorems): C14_set_hypers, C41_set, C42_budget, C42_default, C42_endless, C42_passes, C42_schedule, C45_bijection, C45_lookup, C47_law, C47_partition, C47_total, C59_exact, C59_round_trip, C61_random, C61_refuted, C61_written, C64_default, C68_linreg, C68_linreg_prior, C68_set_hypers.

**sig_forall_dec, sig_not_dec, classic, functional_extensionality_dep** (282 theorems): C01_suffstats_are_recomputed, C02_unobserve_undoes_observe, C03_history_refines_table, C03_observe_refines_table, C03_unobserve_refines_table, C04_exchangeable, C05_score_empty, C05_score_is_chain_rule, C05_score_step, C06_discrete_normalised, C07_poisson_normalised, C08_normal_student_t, C09_logpdf_is_log_density, C09_neginf_iff_rejected, C10_missing_logpdf, C10_missing_logpdf_refuted, C10_missing_neutral, C11_crp_support, C12_crp_score_is_ewens, C12_crp_score_relabelling, C13_gibbs_is_predictive, C13_gibbs_weights, C15_other_constraints_irrelevant, C15_product_error, C15_product_flattens, C15_product_independence, C15_product_sum, C16_mixture_density, C16_model_density, C16_nested_mixture_refuted, C16_possible_values, C17_coherent, C17_coherent_any, C18_cluster_posterior, C19_impossible_constraints, C19_unsupported_cluster, C20_cluster_target_refuted, C20_primitive_recorded_row, C20_recorded_row_logpdf, C20_recorded_row_simulate, C21_mixture_zero_samples, C21_normal_uc_ignores_N, C21_simulate_returns, C21_simulate_shape, C22_joint_samples_refuted, C22_simulate_law, C22_view_law, C23_interleaved, C23_interleaved_law, C23_logpdf_effect, C23_same_answers, C23_score_refuted, C23_simulate_effect, C24_array_inputs_only, C24_array_refuted, C24_logpdf, C24_observe, C24_simulate, C25_continues, C25_step, C25_table, C26_consistent, C26_fraction_refuted, C26_row, C26_stays, C27_columns, C27_divider_rejects, C27_first_child_rejects, C27_mixture_refuted, C27_product_refuted, C28_arrays, C28_mixture, C28_unknown_row, C29_chain_rule, C29_finite_refuted, C29_observe_adds_logpdf, C29_product_score, C29_unobserve_takes_logpdf, C29_view_score, C30_array_round_trip, C30_components, C30_injective, C30_round_trip, C31_bernoulli_refuted, C31_four_classes, C31_independent, C31_normal_uc_refuted, C32_array_refuted, C32_input_free_logpdf, C32_input_free_simulate, C32_input_free_sum, C32_lawful_array, C32_lawful_primitive, C32_parents_given, C32_simulate_law, C32_unbiased_logpdf, C33_add, C33_add_view, C33_label_refuted, C33_remove, C33_remove_absent, C33_remove_after_add, C33_remove_product, C33_remove_view, C34_complete, C34_view, C35_finite_refuted, C35_flexible, C36_missing_cell_raises, C36_moves_one_row, C36_never_raises, C37_exact_conditional, C37_invariant, C38_alone, C38_joins, C38_same, C38_twin_refuted, C39_assign, C39_assign_alone, C39_label_taken_refuted, C39_many_views_refuted, C39_sweep, C39_transition, C39_transition_returns, C40_no_trace, C40_refuted, C40_rejected, C40_trace, C41_column, C41_full, C41_invariant, C41_law, C41_normal_uc_refuted, C41_own_grids, C41_returns, C41_touches, C43_import, C43_request, C43_roundtrip, C44_passed, C48_failure_in_order, C48_failure_workers, C48_inference, C48_lengths, C48_lengths_heterogeneous, C48_logpdf, C48_logpdf_bulk, C48_logpdf_heterogeneous, C48_new, C48_new_constrained, C48_no_lists, C48_observe, C48_observe_bulk, C48_observe_bulk_no_inputs, C48_observe_law, C48_same_table, C48_score, C48_simulate, C48_simulate_bulk, C48_simulate_law, C48_unobserve, C48_unobserve_bulk, C49_columns, C49_columns_unknown, C49_duplicates_refuted, C49_ensemble, C49_rows, C49_rows_unknown, C50_ensemble, C50_entropy, C50_independent, C50_marginalize_refuted, C50_symmetric, C50_validation, C51_linreg_refuted, C51_network_forest_refuted, C51_network_refuted, C53_crp_vs, C53_data_refuted, C53_data_vs, C53_empty, C53_refuted, C53_rows, C53_sorted, C53_statements, C54_accepted, C54_import, C54_state, C55_hypers_columns, C55_hypers_dividers, C55_join, C55_returns, C55_rows, C55_set_hypers, C55_set_hypers_divider, C55_transition, C55_transition_columns, C55_transition_dividers, C55_transition_rows, C56_reload, C56_reload_history, C57_exchangeable, C57_score_empty, C57_score_is_chain_rule, C57_score_step, C58_law, C58_support, C58_untrained_refuted, C60_bernoulli_refuted, C60_interpreted, C60_refuted, C60_reinterpreted, C61_interpreted, C62_empty_refuted, C62_refuted, C62_trace, C63_bernoulli_refuted, C63_emptied_refuted, C63_simplex_refuted, C63_trace, C64_posterior, C64_predictive, C64_score, C65_linreg, C65_normal, C65_normal_uc, C66_category, C66_count, C66_real, C67_no_new_view, C67_odds, C68_chain, C68_prior_refuted, C69_chain_rule, C69_forest_refuted, C69_observe_adds_logpdf, C70_accepted, C70_decides, C70_kept, C70_numbering, C70_refused, C71_asked, C71_defaults_refuted, C71_moves, C71_program, C72_told, C73_crosscat, C73_determined, C73_none, C73_unchanged, C74_count, C74_entropy, C74_exact, C74_information, C74_mean, C74_pairs_refuted, C75_history, C75_relabelled, C75_state, C75_view, C76_converges, C76_exists, C76_invariant, C76_limit, C76_posterior, C76_stays, C76_sweep, C77_entropy, C77_entropy_far, C77_independent, C77_information, C77_information_far, C77_reported, C77_reported_refuted, C78_converges, C78_limit, C78_returns, C79_converges, C79_joint, C79_limit, C80_exact, C80_joint.
