{
 "claims": [
  {
   "property": "C01",
   "status": "proved",
   "theorems": [
    "C01_suffstats_are_recomputed"
   ],
   "note": ""
  },
  {
   "property": "C02",
   "status": "proved",
   "theorems": [
    "C02_unobserve_undoes_observe"
   ],
   "note": ""
  },
  {
   "property": "C03",
   "status": "proved",
   "theorems": [
    "C03_observe_refines_table",
    "C03_unobserve_refines_table",
    "C03_history_refines_table"
   ],
   "note": ""
  },
  {
   "property": "C04",
   "status": "proved",
   "theorems": [
    "C04_exchangeable"
   ],
   "note": ""
  },
  {
   "property": "C05",
   "status": "proved",
   "theorems": [
    "C05_score_step",
    "C05_score_empty",
    "C05_score_is_chain_rule"
   ],
   "note": ""
  },
  {
   "property": "C06",
   "status": "proved",
   "theorems": [
    "C06_discrete_normalised"
   ],
   "note": ""
  },
  {
   "property": "C07",
   "status": "proved",
   "theorems": [
    "C07_poisson_normalised"
   ],
   "note": ""
  },
  {
   "property": "C08",
   "status": "proved",
   "theorems": [
    "C08_normal_student_t"
   ],
   "note": ""
  },
  {
   "property": "C09",
   "status": "proved",
   "theorems": [
    "C09_logpdf_is_log_density",
    "C09_neginf_iff_rejected"
   ],
   "note": ""
  },
  {
   "property": "C10",
   "status": "proved",
   "theorems": [
    "C10_missing_neutral",
    "C10_missing_logpdf",
    "C10_missing_logpdf_refuted"
   ],
   "note": "Neutrality proved; the NaN-logpdf clause is proved for Categorical/Normal/NormalUC and refuted (always -inf) for Bernoulli/Poisson."
  },
  {
   "property": "C11",
   "status": "proved",
   "theorems": [
    "C11_crp_support"
   ],
   "note": ""
  },
  {
   "property": "C12",
   "status": "proved",
   "theorems": [
    "C12_crp_score_is_ewens",
    "C12_crp_score_relabelling"
   ],
   "note": ""
  },
  {
   "property": "C13",
   "status": "proved",
   "theorems": [
    "C13_gibbs_weights",
    "C13_gibbs_is_predictive"
   ],
   "note": ""
  },
  {
   "property": "C14",
   "status": "proved",
   "theorems": [
    "C14_set_hypers"
   ],
   "note": ""
  },
  {
   "property": "C15",
   "status": "proved",
   "theorems": [
    "C15_product_sum",
    "C15_product_error",
    "C15_product_independence",
    "C15_other_constraints_irrelevant",
    "C15_product_accepts",
    "C15_product_flattens"
   ],
   "note": ""
  },
  {
   "property": "C16",
   "status": "proved",
   "theorems": [
    "C16_mixture_density",
    "C16_model_density",
    "C16_possible_values",
    "C16_nested_mixture_refuted"
   ],
   "note": "For views and states (and any nesting whose components give the constraints positive density). For nested mixtures without that condition the code returns NaN: C16_nested_mixture_refuted."
  },
  {
   "property": "C17",
   "status": "proved",
   "theorems": [
    "C17_coherent",
    "C17_coherent_any"
   ],
   "note": ""
  },
  {
   "property": "C18",
   "status": "proved",
   "theorems": [
    "C18_cluster_posterior"
   ],
   "note": ""
  },
  {
   "property": "C19",
   "status": "proved",
   "theorems": [
    "C19_unsupported_cluster",
    "C19_impossible_constraints"
   ],
   "note": ""
  },
  {
   "property": "C20",
   "status": "proved",
   "theorems": [
    "C20_recorded_row_logpdf",
    "C20_recorded_row_simulate",
    "C20_primitive_recorded_row",
    "C20_cluster_target_refuted"
   ],
   "note": "Proved for targets other than the cluster; refuted for a cluster target (C20_cluster_target_refuted)."
  },
  {
   "property": "C21",
   "status": "proved",
   "theorems": [
    "C21_simulate_shape",
    "C21_simulate_returns",
    "C21_mixture_zero_samples",
    "C21_normal_uc_ignores_N"
   ],
   "note": "Shape, keys, recorded cells, domains and single cluster for N=None and N>=1; simulate of a row not on record never raises unless the constraints have density zero (C21_simulate_returns). Two exceptions are theorems: N=0 on a mixture returns one sample, NormalUC ignores N for a recorded row."
  },
  {
   "property": "C22",
   "status": "proved",
   "theorems": [
    "C22_simulate_law",
    "C22_view_law",
    "C22_joint_samples_refuted"
   ],
   "note": "One sample (N=None or 1) of finite-support targets, any constraints, every reachable composite. Several samples at once: C22_joint_samples_refuted shows a Product of mixtures does not return independent samples."
  },
  {
   "property": "C23",
   "status": "proved",
   "theorems": [
    "C23_logpdf_effect",
    "C23_simulate_effect",
    "C23_same_answers",
    "C23_interleaved",
    "C23_interleaved_law",
    "C23_score_refuted"
   ],
   "note": "Any program of logpdf, simulate, observe, unobserve on any object; with logpdf_score for objects whose arrays are flexible with empty bases. A base with data breaks the score part: C23_score_refuted."
  },
  {
   "property": "C24",
   "status": "proved",
   "theorems": [
    "C24_logpdf",
    "C24_simulate",
    "C24_observe",
    "C24_array_inputs_only",
    "C24_array_refuted"
   ],
   "note": "logpdf, simulate, observe of every model that is not itself an array; for arrays used directly the claim is refuted for every call (C24_array_refuted)."
  },
  {
   "property": "C25",
   "status": "proved",
   "theorems": [
    "C25_table",
    "C25_step",
    "C25_continues",
    "C25_table_unique"
   ],
   "note": "Views: flexible mixture, CRP divider, nonempty Product of primitives without data as base; integer cluster labels. Queries are pure in the model (see C23)."
  },
  {
   "property": "C26",
   "status": "proved",
   "theorems": [
    "C26_consistent",
    "C26_stays",
    "C26_row",
    "C26_fraction_refuted"
   ],
   "note": "Same scope as C25. A non-integer cluster label breaks it: C26_fraction_refuted."
  },
  {
   "property": "C27",
   "status": "proved",
   "theorems": [
    "C27_divider_rejects",
    "C27_first_child_rejects",
    "C27_columns",
    "C27_product_refuted",
    "C27_mixture_refuted"
   ],
   "note": "Rejection by the row divider and by the first child leaves no trace; in general composite observe is not atomic: C27_product_refuted and the mixture refutation."
  },
  {
   "property": "C28",
   "status": "proved",
   "theorems": [
    "C28_unknown_row",
    "C28_mixture",
    "C28_arrays"
   ],
   "note": ""
  },
  {
   "property": "C29",
   "status": "proved",
   "theorems": [
    "C29_product_score",
    "C29_view_score",
    "C29_observe_adds_logpdf",
    "C29_chain_rule",
    "C29_finite_refuted",
    "C29_unobserve_takes_logpdf"
   ],
   "note": "Decomposition and chain rule both ways (observe, unobserve); finite mixtures always raise (C29_finite_refuted). Removal needs the row's cluster to be offered again by the divider."
  },
  {
   "property": "C30",
   "status": "proved",
   "theorems": [
    "C30_round_trip",
    "C30_array_round_trip",
    "C30_components",
    "C30_reading_terminates",
    "C30_injective"
   ],
   "note": "Every reachable model, component arrays included. Sharing between object and metadata is C31. Chain, LinearRegression and RandomForest metadata: see C32, C51."
  },
  {
   "property": "C31",
   "status": "proved",
   "theorems": [
    "C31_independent",
    "C31_four_classes",
    "C31_bernoulli_refuted",
    "C31_normal_uc_refuted"
   ],
   "note": "Programs of any length over any number of objects and snapshots; also for Bernoulli and NormalUC as long as the two harmful uses are avoided. The harmful uses are refuted for every state: C31_bernoulli_refuted, C31_normal_uc_refuted."
  },
  {
   "property": "C32",
   "status": "proved",
   "theorems": [
    "C32_topological_order",
    "C32_parents_given",
    "C32_input_free_logpdf",
    "C32_input_free_sum",
    "C32_input_free_simulate",
    "C32_array_refuted",
    "C32_unbiased_logpdf",
    "C32_simulate_law",
    "C32_lawful_primitive",
    "C32_lawful_array"
   ],
   "note": "Chain as a list of children known by their methods, all accuracies, all random outcomes; topological order, determined parents, input-free children. Beyond the statement: with unobserved parents the mean of exp(logpdf) is the marginal density and unconstrained simulate draws from the joint law (children with one column of finitely many values). C32_array_refuted: an array child cannot be constrained and sampled in the same query."
  },
  {
   "property": "C33",
   "status": "proved",
   "theorems": [
    "C33_remove",
    "C33_remove_product",
    "C33_remove_absent",
    "C33_remove_view",
    "C33_add",
    "C33_add_view",
    "C33_remove_after_add",
    "C33_label_refuted"
   ],
   "note": "For all models that can be built, used, and have had columns added and removed (grown): remaining columns keep their primitives and their densities, removing after adding gives back the model. Components must have the same children, which the code takes for granted. Refuted in one respect: a column with the row divider's own label is accepted (C33_label_refuted). Equality of densities for recorded rows needs the mixtures above to be flexible (see C35)."
  },
  {
   "property": "C34",
   "status": "proved",
   "theorems": [
    "C34_complete",
    "C34_view"
   ],
   "note": "For all nestings, also after adding and removing columns."
  },
  {
   "property": "C35",
   "status": "proved",
   "theorems": [
    "C35_flexible",
    "C35_finite_refuted"
   ],
   "note": "Proved for FlexibleRowMixture; refuted for every FiniteRowMixture: the result has no row assigned, observing a recorded row and unobserving any row raise."
  },
  {
   "property": "C36",
   "status": "proved",
   "theorems": [
    "C36_moves_one_row",
    "C36_never_raises",
    "C36_missing_cell_raises"
   ],
   "note": "For views as in C25. With a NaN in a Bernoulli/Poisson column the call always raises and loses the row (C36_missing_cell_raises)."
  },
  {
   "property": "C37",
   "status": "proved",
   "theorems": [
    "C37_exact_conditional",
    "C37_invariant"
   ],
   "note": "For views as in C25, rows without NaN in Bernoulli/Poisson columns; exact law and invariance."
  },
  {
   "property": "C38",
   "status": "proved",
   "theorems": [
    "C38_joins",
    "C38_alone",
    "C38_same",
    "C38_twin_refuted"
   ],
   "note": "For views as in C25; refutation of the identity test for equal large ints: C38_twin_refuted."
  },
  {
   "property": "C39",
   "status": "proved",
   "theorems": [
    "C39_transition",
    "C39_transition_returns",
    "C39_assign",
    "C39_assign_alone",
    "C39_sweep",
    "C39_many_views_refuted",
    "C39_label_taken_refuted"
   ],
   "note": "For models whose rows are aligned with the views concerned and with at most 257 views; both exclusions are shown necessary by refutations (identity comparison of ints above 256; name of a new view drawn without check). C39_sweep covers the whole pass over columns, including passes that raise on the way."
  },
  {
   "property": "C40",
   "status": "proved",
   "theorems": [
    "C40_no_trace",
    "C40_rejected",
    "C40_trace",
    "C40_refuted"
   ],
   "note": "Proved when the rows of the column are seated in the view; in all other cases every proposal leaves a trace (C40_trace), so the unrestricted claim is refuted."
  },
  {
   "property": "C41",
   "status": "proved",
   "theorems": [
    "C41_touches",
    "C41_column",
    "C41_returns",
    "C41_own_grids",
    "C41_normal_uc_refuted",
    "C41_law",
    "C41_invariant",
    "C41_full",
    "C41_set"
   ],
   "note": "holds for every list of components and every outcome; the law, its invariance and termination for the components of any column of a grown model that is not NormalUC (whose inference always raises KeyError, C41_normal_uc_refuted)"
  },
  {
   "property": "C42",
   "status": "proved",
   "theorems": [
    "C42_schedule",
    "C42_endless",
    "C42_passes",
    "C42_default",
    "C42_budget",
    "C42_zero"
   ],
   "note": "Scheduling for any kernels, limits and clock; zero limits raise."
  },
  {
   "property": "C43",
   "status": "proved",
   "theorems": [
    "C43_request",
    "C43_import",
    "C43_roundtrip"
   ],
   "note": "Rows must have a cell (possibly NaN) in every column and every column must be Normal or Categorical with at least one value present (create_hypers asserts K > 0). CPython's order of sets of small ints is assumed (set_order): the code pairs block number i with X_D[i] relying on it. Label collisions of new views can make the call raise (see C39)."
  },
  {
   "property": "C44",
   "status": "proved",
   "theorems": [
    "C44_neither",
    "C44_passed"
   ],
   "note": "The default call raises AssertionError: the documented default of one step is not what the code does."
  },
  {
   "property": "C45",
   "status": "proved",
   "theorems": [
    "C45_bijection",
    "C45_lookup"
   ],
   "note": "Values of Categorical columns are integers; '%d' and int() truncation of other values is in the model."
  },
  {
   "property": "C46",
   "status": "proved",
   "theorems": [
    "C46_blocks"
   ],
   "note": ""
  },
  {
   "property": "C47",
   "status": "proved",
   "theorems": [
    "C47_partition",
    "C47_total",
    "C47_law"
   ],
   "note": "all outcomes; also totality and the exact law"
  },
  {
   "property": "C48",
   "status": "proved",
   "theorems": [
    "C48_observe",
    "C48_observe_law",
    "C48_unobserve",
    "C48_failure_workers",
    "C48_failure_in_order",
    "C48_logpdf",
    "C48_score",
    "C48_simulate",
    "C48_simulate_law",
    "C48_observe_bulk",
    "C48_observe_bulk_no_inputs",
    "C48_unobserve_bulk",
    "C48_logpdf_bulk",
    "C48_simulate_bulk",
    "C48_lengths",
    "C48_no_lists",
    "C48_logpdf_heterogeneous",
    "C48_lengths_heterogeneous",
    "C48_new",
    "C48_new_constrained",
    "C48_same_table",
    "C48_inference"
   ],
   "note": "all calls of the ensemble, single, bulk and heterogeneous; inference programs are any programs that keep the table"
  },
  {
   "property": "C49",
   "status": "proved",
   "theorems": [
    "C49_columns",
    "C49_columns_unknown",
    "C49_rows",
    "C49_rows_unknown",
    "C49_ensemble",
    "C49_duplicates_refuted"
   ],
   "note": "for outputs given once each; refuted for outputs given twice"
  },
  {
   "property": "C50",
   "status": "proved",
   "theorems": [
    "C50_independent",
    "C50_symmetric",
    "C50_entropy",
    "C50_validation",
    "C50_marginalize_refuted",
    "C50_ensemble"
   ],
   "note": "Exact zero for every outcome on Products; the symmetry is that of the estimate on given samples; the claim that marginalize works is refuted (it always raises); also the entropy is finite and non-negative on discrete models, validation, and the ensemble version. Hypotheses: labels of nested mixtures are not asked about and the constraint has positive density."
  },
  {
   "property": "C51",
   "status": "proved",
   "theorems": [
    "C51_linreg_refuted",
    "C51_forest_refuted",
    "C51_errors_change_nothing",
    "C51_network_refuted",
    "C51_network_forest_refuted"
   ],
   "note": "The expected behaviour is refuted for every reachable state and recorded row."
  },
  {
   "property": "C52",
   "status": "proved",
   "theorems": [
    "C52_length",
    "C52_length_forest",
    "C52_stored",
    "C52_injective",
    "C52_injective_forest",
    "C52_missing_refuted",
    "C52_rejects",
    "C52_rejects_forest",
    "C52_fraction_refuted"
   ],
   "note": "Inputs are assumed to be named once each. Two corners are refuted (C52_missing_refuted, C52_fraction_refuted)."
  },
  {
   "property": "C53",
   "status": "proved",
   "theorems": [
    "C53_rows",
    "C53_refuted",
    "C53_statements",
    "C53_sorted",
    "C53_empty",
    "C53_crp_vs",
    "C53_data_vs",
    "C53_data_refuted"
   ],
   "note": "the positive claim is refuted as stated (C53_refuted, C53_data_refuted); proved for views recorded in the order of clusters (C53_sorted), with an exact description of what is rendered otherwise (C53_statements)"
  },
  {
   "property": "C54",
   "status": "proved",
   "theorems": [
    "C54_reindex",
    "C54_order",
    "C54_rebase",
    "C54_accepted",
    "C54_import",
    "C54_state"
   ],
   "note": "both renumberings, the order they give, its acceptance by the CRP, and import of whole states"
  },
  {
   "property": "C55",
   "status": "proved",
   "theorems": [
    "C55_transition",
    "C55_returns",
    "C55_rows",
    "C55_hypers_columns",
    "C55_hypers_dividers",
    "C55_transition_rows",
    "C55_transition_columns",
    "C55_transition_dividers",
    "C55_join",
    "C55_set_hypers",
    "C55_set_hypers_divider"
   ],
   "note": "Any schedule of kernels keeps the table; kernels on rows and hyperparameters return and are local."
  },
  {
   "property": "C56",
   "status": "proved",
   "theorems": [
    "C56_reload",
    "C56_reload_history"
   ],
   "note": "for every random outcome of the constructor"
  },
  {
   "property": "C57",
   "status": "proved",
   "theorems": [
    "C57_score_is_chain_rule",
    "C57_score_step",
    "C57_score_empty",
    "C57_exchangeable"
   ],
   "note": "Real arithmetic in place of floats."
  },
  {
   "property": "C58",
   "status": "proved",
   "theorems": [
    "C58_support",
    "C58_law",
    "C58_untrained_refuted"
   ],
   "note": "The classifier (sklearn) is abstract: distinct classes and log probabilities are assumed. Refuted before training."
  },
  {
   "property": "C59",
   "status": "proved",
   "theorems": [
    "C59_round_trip",
    "C59_exact",
    "C59_lossy",
    "C59_empty_refuted"
   ],
   "note": "Exact up to four decimals; what is lost beyond that and for empty ASTs is shown as refutations."
  },
  {
   "property": "C60",
   "status": "proved",
   "theorems": [
    "C60_interpreted",
    "C60_reinterpreted",
    "C60_refuted",
    "C60_bernoulli_refuted"
   ],
   "note": "For Categorical, Poisson and Normal columns with hyperparameters above 0.00005; refutations for the others."
  },
  {
   "property": "C61",
   "status": "proved",
   "theorems": [
    "C61_random",
    "C61_written",
    "C61_interpreted",
    "C61_refuted"
   ],
   "note": "Every random outcome; refutation for outcomes that round to 0."
  },
  {
   "property": "C62",
   "status": "proved",
   "theorems": [
    "C62_trace",
    "C62_refuted",
    "C62_empty_refuted"
   ],
   "note": "C62_trace for rows recorded in the order of clusters; refuted in general by C62_refuted and for views without rows by C62_empty_refuted."
  },
  {
   "property": "C63",
   "status": "proved",
   "theorems": [
    "C63_trace",
    "C63_name",
    "C63_name_refuted",
    "C63_emptied_refuted",
    "C63_bernoulli_refuted",
    "C63_simplex_refuted"
   ],
   "note": "C63_trace and C63_name; refuted for emptied views, Bernoulli columns, negative outputs and the text of weights."
  },
  {
   "property": "C64",
   "status": "proved",
   "theorems": [
    "C64_posterior",
    "C64_predictive",
    "C64_score",
    "C64_default"
   ],
   "note": "Over the reals (rounding is not modelled), rows of numbers (a missing output makes the result nan, C57). The draw of the coefficients in simulate is not modelled."
  },
  {
   "property": "C65",
   "status": "proved",
   "theorems": [
    "C65_normal",
    "C65_normal_uc",
    "C65_linreg"
   ],
   "note": "Values are rational in the model; the density is continuous, so it is determined by its values there."
  },
  {
   "property": "C66",
   "status": "proved",
   "theorems": [
    "C66_real",
    "C66_count",
    "C66_category"
   ],
   "note": "Cluster-label columns are C18. Hypothesis: the constraints have positive density and, in nestings deeper than states, are possible in every component (else C16_nested_mixture_refuted)."
  },
  {
   "property": "C67",
   "status": "proved",
   "theorems": [
    "C67_odds",
    "C67_no_new_view"
   ],
   "note": "Odds among the views of the columns that are not moved; exact probabilities when no new view is proposed. The probability of ending in a new view is not stated: it depends on clusters drawn for that view."
  },
  {
   "property": "C68",
   "status": "proved",
   "theorems": [
    "C68_linreg",
    "C68_linreg_prior",
    "C68_forest",
    "C68_chain",
    "C68_set_hypers",
    "C68_prior_refuted"
   ],
   "note": "Proved for the default prior, forests and chains; refuted for a regression given mu or V (C68_prior_refuted). The pickled classifier is taken to be restored by cPickle."
  },
  {
   "property": "C69",
   "status": "proved",
   "theorems": [
    "C69_observe_adds_logpdf",
    "C69_chain_rule",
    "C69_forest_refuted"
   ],
   "note": "Proved for chains of models and regressions; refuted with a forest (C69_forest_refuted)."
  },
  {
   "property": "C70",
   "status": "proved",
   "theorems": [
    "C70_accepted",
    "C70_decides",
    "C70_numbering",
    "C70_kept",
    "C70_refused"
   ],
   "note": "Proved; the two checks of cgpm.utils.validation are arguments, the second with the contract partition_check."
  },
  {
   "property": "C71",
   "status": "proved",
   "theorems": [
    "C71_moves",
    "C71_asked",
    "C71_program",
    "C71_defaults_refuted"
   ],
   "note": "Proved for calls with N or S; refuted for the defaults (C71_defaults_refuted)."
  },
  {
   "property": "C72",
   "status": "proved",
   "theorems": [
    "C72_told"
   ],
   "note": "Same conditions on the state as C43. The component whose hyperparameters are sent is the first one without data (get_cgpm_base); all components of a column have the same hyperparameters unless they were set separately. The empty column_component_suffstats are represented by their number; the concentration of the column partition is always 1 and left out."
  },
  {
   "property": "C73",
   "status": "proved",
   "theorems": [
    "C73_unchanged",
    "C73_none",
    "C73_crosscat",
    "C73_determined"
   ],
   "note": "For models of primitives, Products, arrays and row mixtures; Chains and their children with inputs are not represented. convert_cgpm_state_to_ast (src/conversion.py:83-85) calls convert_cgpm_state_to_cgpm2 without its argument rng, so every call raises TypeError; nothing is proved about it."
  },
  {
   "property": "C74",
   "status": "proved",
   "theorems": [
    "C74_mean",
    "C74_count",
    "C74_exact",
    "C74_entropy",
    "C74_information",
    "C74_pairs_refuted"
   ],
   "note": "For mixtures of primitives or of Products of primitives, and Products of those and of primitives; nested mixtures are not covered. C74_pairs_refuted is the exact bias of counts of values across views, so C74_mean and C74_count ask for functions of one view, and sums of these."
  },
  {
   "property": "C75",
   "status": "proved",
   "theorems": [
    "C75_view",
    "C75_state",
    "C75_history",
    "C75_relabelled"
   ],
   "note": "Exact equality of the real-valued model: floating-point sums taken in another order may differ in the last digits. Clusters that have been emptied and clusters never made count the same. Histories change no hyperparameters (untuned); C75_view and C75_state cover models whose hyperparameters were changed, if they ended equal. C75_relabelled is about views."
  },
  {
   "property": "C76",
   "status": "proved",
   "theorems": [
    "C76_exists",
    "C76_posterior",
    "C76_invariant",
    "C76_sweep",
    "C76_stays",
    "C76_converges",
    "C76_limit"
   ],
   "note": "Exact real arithmetic. The clustering is what rows are together; the names of clusters are forgotten (all_partitions has one view for each clustering, of_blocks are the functions that do not see names), which is right by C75. The order drawn by rng.permutation is any order. Row transitions only: hyperparameters and the columns of the view are fixed."
  },
  {
   "property": "C77",
   "status": "proved",
   "theorems": [
    "C77_independent",
    "C77_entropy",
    "C77_information",
    "C77_entropy_far",
    "C77_information_far",
    "C77_reported",
    "C77_reported_refuted"
   ],
   "note": "C77_reported gives the exact mean of the reported variance; C77_reported_refuted shows that it is not the mean squared error (two coins, one sample). Exact real arithmetic. For states with several views the samples are not independent across views (C74_pairs_refuted), so the claims are about single views."
  },
  {
   "property": "C78",
   "status": "proved",
   "theorems": [
    "C78_returns",
    "C78_converges",
    "C78_limit"
   ],
   "note": "Exact real arithmetic, as in C41. The bound is uniform over starting values and drawn orders; no value for q is claimed beyond being below 1. NormalUC columns are excluded: C41_normal_uc_refuted."
  },
  {
   "property": "C79",
   "status": "proved",
   "theorems": [
    "C79_converges",
    "C79_limit",
    "C79_joint"
   ],
   "note": "The orders are fixed beforehand (settle): an order chosen by looking at the values drawn need not keep the posterior. Exact real arithmetic. Rows and views stay as they are; for inference on rows see C76."
  },
  {
   "property": "C80",
   "status": "proved",
   "theorems": [
    "C80_exact",
    "C80_joint"
   ],
   "note": "The orders of the views are fixed beforehand (settle, as in C79). Exact real arithmetic."
  }
 ]
}