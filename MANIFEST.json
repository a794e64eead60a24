{
 "claims": [
  {
   "property": "C01",
   "status": "proved",
   "theorems": [
    "C01_enumeration"
   ],
   "note": ""
  },
  {
   "property": "C02",
   "status": "proved",
   "theorems": [
    "C02_flat_index",
    "C02_full_observation",
    "C02_unknown_state"
   ],
   "note": ""
  },
  {
   "property": "C03",
   "status": "proved",
   "theorems": [
    "C03_constructor",
    "C03_wrong_length",
    "C03_bad_domain",
    "C03_array_shape",
    "C03_array_size",
    "C03_array_flat",
    "C03_transposed_refuted",
    "C03_tree_size_refuted",
    "C03_repeated_states_refuted"
   ],
   "note": "Besides the property, what the constructor checks is stated exactly: empty or mixed state lists and underscored names raise ValueError (C03_bad_domain); an array of two or more dimensions is checked by shape in the numpy store (C03_array_shape), only by its number of entries in the list stores (C03_array_size, C03_array_flat, C03_transposed_refuted) and not at all by the tree store (C03_tree_size_refuted); repeated states are accepted and read differently by different stores (C03_repeated_states_refuted)."
  },
  {
   "property": "C04",
   "status": "proved",
   "theorems": [
    "C04_free_tree",
    "C04_free_numpy",
    "C04_free_flat",
    "C04_free_read_tree",
    "C04_free_read_numpy",
    "C04_free_read_flat",
    "C04_set_value"
   ],
   "note": ""
  },
  {
   "property": "C05",
   "status": "proved",
   "theorems": [
    "C05_states",
    "C05_restrict",
    "C05_unknown_state",
    "C05_pruned_tree_refuted",
    "C05_pruned_tree_raises_refuted",
    "C05_list_value_refuted",
    "C05_list_and_state_refuted",
    "C05_two_lists_raises",
    "C05_two_lengths_raises",
    "C05_single_list",
    "C05_lists_raises"
   ],
   "note": "C05_restrict is about observations giving one state per variable and complete trees. The _refuted theorems are findings outside it: pruned (user supplied) treedict trees and lists of states as values. For one list of states in domain order the restriction is proved correct (C05_states); lists for two variables always raise (C05_two_lists_raises, C05_two_lengths_raises), and a list next to a single state may be transposed (C05_list_and_state_refuted). C05_single_list: a list of one state is the same as the state for the numpy store; C05_lists_raises: the other stores raise NotImplementedError for any list."
  },
  {
   "property": "C06",
   "status": "proved",
   "theorems": [
    "C06_multiply",
    "C06_addition",
    "C06_subtract",
    "C06_different_types",
    "C06_pruned_trees"
   ],
   "note": "Complete stores of all four types, plus pruned treedict trees (C06_pruned_trees)."
  },
  {
   "property": "C07",
   "status": "proved",
   "theorems": [
    "C07_divide",
    "C07_numpy_finite"
   ],
   "note": "Pointwise division, both zero-division conventions, and finiteness of the numpy store."
  },
  {
   "property": "C08",
   "status": "proved",
   "theorems": [
    "C08_marginalize",
    "C08_order_irrelevant",
    "C08_pruned_tree"
   ],
   "note": "Complete stores of all four types, plus pruned treedict trees (C08_pruned_tree)."
  },
  {
   "property": "C09",
   "status": "proved",
   "theorems": [
    "C09_maxmarginalize",
    "C09_numpy1d"
   ],
   "note": ""
  },
  {
   "property": "C10",
   "status": "proved",
   "theorems": [
    "C10_calculation",
    "C10_store_independence",
    "C10_duplicate_variable_refuted",
    "C10_absent_variable_refuted",
    "C10_state_order_refuted",
    "C10_missing_state_refuted"
   ],
   "note": "C10_calculation: tables with finite (rational) entries; division requires a divisor without zero entries, as in the property; variables to sum out are distinct members of the domain and shared variables list their states in the same order. The _refuted theorems show the store types do disagree when one of these conditions is dropped."
  },
  {
   "property": "C11",
   "status": "proved",
   "theorems": [
    "C11_commutative",
    "C11_associative",
    "C11_sum_out"
   ],
   "note": "The sum-out law is for tables with finite entries."
  },
  {
   "property": "C12",
   "status": "proved",
   "theorems": [
    "C12_partition",
    "C12_constructor",
    "C12_right_alone",
    "C12_restrict",
    "C12_marginalize",
    "C12_maxmarginalize",
    "C12_multiply",
    "C12_addition",
    "C12_subtract",
    "C12_divide",
    "C12_scalar"
   ],
   "note": "right_vars given alone is taken as it is, even when it names variables outside the domain (C12_right_alone)."
  },
  {
   "property": "C13",
   "status": "proved",
   "theorems": [
    "C13_constant",
    "C13_rejected",
    "C13_deterministic"
   ],
   "note": ""
  },
  {
   "property": "C14",
   "status": "proved",
   "theorems": [
    "C14_to_multinomial",
    "C14_normalised",
    "C14_roundtrip",
    "C14_to_deterministic",
    "C14_one_left",
    "C14_unchecked_domain"
   ],
   "note": "The constructor of DeterministicFactor does not call _check_domain, so a factor over a rejected name can be built, and to_multinomial() of it raises ValueError (C14_unchecked_domain)."
  },
  {
   "property": "C15",
   "status": "proved",
   "theorems": [
    "C15_values_array",
    "C15_default_order"
   ],
   "note": ""
  },
  {
   "property": "C16",
   "status": "proved",
   "theorems": [
    "C16_rename",
    "C16_underscore",
    "C16_deterministic"
   ],
   "note": "Deterministic factors are covered by C16_deterministic; their names are not checked."
  },
  {
   "property": "C17",
   "status": "proved",
   "theorems": [
    "C17_random_multinomial",
    "C17_uniform_multinomial",
    "C17_random_deterministic",
    "C17_no_right_vars",
    "C17_empty_raises",
    "C17_zero_column_refuted"
   ],
   "note": "random_multinomial(allow_zero=True) needs one positive draw per column: C17_zero_column_refuted shows NaN otherwise. random_deterministic with the default right_vars=None always raises (C17_no_right_vars)."
  },
  {
   "property": "C18",
   "status": "proved",
   "theorems": [
    "C18_canonical",
    "C18_order",
    "C18_table",
    "C18_wrong_cardinality",
    "C18_not_one_child",
    "C18_numpy_parents",
    "C18_numpy_refuted",
    "C18_treedict_refuted"
   ],
   "note": "Enumeration and the ValueError for a wrong cardinality are proved for the store types for which they are true. C18_numpy_refuted: with the default numpy store every call with a number of endogenous parents other than one raises although the cardinality is right (C18_numpy_parents characterises it). C18_treedict_refuted: treedict accepts a wrong cardinality."
  },
  {
   "property": "C19",
   "status": "proved",
   "theorems": [
    "C19_envelope",
    "C19_restrict_envelope",
    "C19_undefined",
    "C19_different_domains",
    "C19_empty"
   ],
   "note": "Entries finite. Restricting is for the store types other than treedict (whose values are dictionaries and are not modelled by process_array)."
  },
  {
   "property": "C20",
   "status": "proved",
   "theorems": [
    "C20_barren_nodes",
    "C20_barren_removal"
   ],
   "note": "for every DAG and every list S (also with names outside the graph)"
  },
  {
   "property": "C21",
   "status": "proved",
   "theorems": [
    "C21_bayesian_network",
    "C21_causal_model",
    "C21_other_arguments",
    "C21_string_scm_refuted"
   ],
   "note": "also: a causal model given a string graph without endogenous variables raises AttributeError (C21_string_scm_refuted)"
  },
  {
   "property": "C22",
   "status": "proved",
   "theorems": [
    "C22_roundtrip",
    "C22_no_isolated",
    "C22_isolated_refuted",
    "C22_small_refuted"
   ],
   "note": "exact description of what the round trip keeps; the full statement is refuted: isolated nodes are lost (C22_isolated_refuted) and graphs with at most one node raise IndexError (C22_small_refuted)"
  },
  {
   "property": "C23",
   "status": "proved",
   "theorems": [
    "C23_structure",
    "C23_unchanged",
    "C23_functions"
   ],
   "note": "for every history of calls from a model without factors; recorded and stored states agree as sets (their order is not checked, see C24_order_refuted)"
  },
  {
   "property": "C24",
   "status": "proved",
   "theorems": [
    "C24_agreement",
    "C24_disagreement_refuted",
    "C24_order_refuted"
   ],
   "note": "agreement as sets when parents are recorded first; the full statement is refuted: other orders of calls leave factors with disjoint states (C24_disagreement_refuted) and the order of states is never checked (C24_order_refuted)"
  },
  {
   "property": "C25",
   "status": "proved",
   "theorems": [
    "C25_greedy",
    "C25_raises"
   ],
   "note": "All three heuristics, every tie-breaking outcome (the random choice is an arbitrary function returning a candidate); the graph after eliminating some nodes is specified by paths through eliminated nodes of the moral graph. Repeated or unknown variables raise KeyError. The model also shows that the caller's list is emptied."
  },
  {
   "property": "C26",
   "status": "proved",
   "theorems": [
    "C26_posterior",
    "C26_builtin",
    "C26_rejects",
    "C26_deterministic_raises"
   ],
   "note": "Any network with finite normalised tables in any store type, any heuristic that returns the variables to remove in some order (the built-in ones do: C26_builtin), any set iteration order, any evidence of positive probability. Exact rational arithmetic stands for floats. Ill-formed queries: C26_rejects."
  },
  {
   "property": "C27",
   "status": "proved",
   "theorems": [
    "C27_heuristic",
    "C27_conditional"
   ],
   "note": "Without conditioning, also for impossible evidence; with conditioning for possible evidence."
  },
  {
   "property": "C28",
   "status": "proved",
   "theorems": [
    "C28_minimal"
   ],
   "note": "The simplified model is itself shown to be a network over the kept variables, with tables agreeing with the originals under the evidence."
  },
  {
   "property": "C29",
   "status": "proved",
   "theorems": [
    "C29_conditional"
   ],
   "note": "At impossible configurations of the conditioning variables: 0 for numpy stores, NaN for the other stores (tables with nonnegative entries)."
  },
  {
   "property": "C30",
   "status": "proved",
   "theorems": [
    "C30_surgery",
    "C30_rejects"
   ],
   "note": "Holds in full: C30_surgery gives nodes, arcs, kept factors, point masses and the truncated factorisation for every SCM (multinomial and deterministic factors); C30_rejects: an unknown state raises ValueError. Variables of the intervention that are not in the model are silently ignored."
  },
  {
   "property": "C31",
   "status": "proved",
   "theorems": [
    "C31_interventional",
    "C31_rejects",
    "C31_list",
    "C31_deterministic_root_refuted"
   ],
   "note": "C31_interventional: the exact interventional conditional, for every SCM whose parentless variables hold multinomial factors. C31_rejects and C31_list: the error cases. C31_deterministic_root_refuted: with a DeterministicFactor at a declared endogenous variable without parents the query raises NotImplementedError. Evidence about intervened variables is overridden by the intervention, which the statement spells out (outside d e)."
  },
  {
   "property": "C32",
   "status": "proved",
   "theorems": [
    "C32_units",
    "C32_counterfactual",
    "C32_default",
    "C32_childless_raises",
    "C32_exogenous_raises"
   ],
   "note": "C32_counterfactual: Pearl's semantics over units of the exogenous variables, for any number of worlds, for interventions on endogenous variables that keep a child outside the intervention. C32_units: every unit has exactly one solution under every intervention, so the semantics is well defined. Refuted beyond: C32_childless_raises (NetworkXError when an intervened variable has no child left outside the intervention) and C32_exogenous_raises (NodeNotFound)."
  },
  {
   "property": "C33",
   "status": "proved",
   "theorems": [
    "C33_pns",
    "C33_pn",
    "C33_ps",
    "C33_childless_raises",
    "C33_unknown_raises"
   ],
   "note": "C33_pns, C33_pn, C33_ps: the textbook probabilities over units. C33_childless_raises: with a cause without children all three raise NetworkXError although the probabilities are defined. C33_unknown_raises: unknown variables, or variables without domain."
  },
  {
   "property": "C34",
   "status": "proved",
   "theorems": [
    "C34_partition",
    "C34_component_of",
    "C34_sides",
    "C34_all_sides"
   ],
   "note": "for every finite directed graph and every list of endogenous variables; variables touching no exogenous arc are in no component and get_ccomponent raises KeyError for them"
  },
  {
   "property": "C35",
   "status": "proved",
   "theorems": [
    "C35_arcs",
    "C35_acyclic",
    "C35_acyclic_refuted"
   ],
   "note": "exact arcs of the Q-graph for every topological order, a sufficient condition for acyclicity, and a refutation: for one causal DAG the Q-graph is cyclic whatever order is used (C35_acyclic_refuted)"
  },
  {
   "property": "C36",
   "status": "proved",
   "theorems": [
    "C36_roundtrip",
    "C36_isolated_raises",
    "C36_clash_raises",
    "C36_exponent_refuted",
    "C36_label",
    "C36_bad_order",
    "C36_numbers"
   ],
   "note": "C36_roundtrip: text, graph, names and tables, for every network without isolated variables, without a parent whose number is an initial part of its child's number, and whose values str writes without exponent and float reads back; any given or default order. Refuted beyond: C36_isolated_raises (NetworkXError), C36_clash_raises (ValueError, the substring test on a string left_vars), C36_exponent_refuted (values such as 1e-05 are split by the tokeniser, a wrong table is read silently). C36_label, C36_bad_order: the error cases. C36_numbers: the reader finds plain numbers in any hand-written line as they are written."
  },
  {
   "property": "C37",
   "status": "proved",
   "theorems": [
    "C37_roundtrip",
    "C37_isolated_raises",
    "C37_clash_raises",
    "C37_parentless_refuted",
    "C37_states_refuted",
    "C37_numbers"
   ],
   "note": "C37_roundtrip: graph, endogenous variables, equations and exogenous tables for every SCM (multinomial or deterministic equations) under the conditions of C36, if every endogenous variable has a parent and DeterministicFactors use the states 0,1,... Refuted beyond: C37_isolated_raises, C37_clash_raises, C37_parentless_refuted (an intervened variable comes back as exogenous with a wrong table), C37_states_refuted (states 1,2 come back wrong; text states raise ValueError on saving). C37_numbers: the reader also finds numbers in scientific notation with a capital E (str writes a small e, which splits them)."
  },
  {
   "property": "C38",
   "status": "proved",
   "theorems": [
    "C38_sample",
    "C38_support",
    "C38_equations",
    "C38_endogenous",
    "C38_deterministic_raises",
    "C38_size_raises",
    "C38_choice_accepts",
    "C38_conditional_raises",
    "C38_zero_table_raises",
    "C38_missing_factor_raises",
    "C38_endogenous_list_raises"
   ],
   "note": "C38_sample: n rows, full, positive joint, and row i is exactly the assignment selected by the i-th numbers of the generator (so each row has its joint probability as volume of draws); C38_support: every assignment of positive probability can be drawn; C38_equations, C38_endogenous for causal models with tables. 'Every model' is refuted for models with a DeterministicFactor, which raise TypeError (C38_deterministic_raises); n < 1 raises (C38_size_raises). Uniform draws are rationals; the rounding tolerance of np.random.choice is not modelled."
  },
  {
   "property": "C39",
   "status": "proved",
   "theorems": [
    "C39_query",
    "C39_conditional",
    "C39_no_rows_raises",
    "C39_no_column_raises",
    "C39_rejects",
    "C39_missing_refuted"
   ],
   "note": "C39_query, C39_conditional: relative and conditional relative frequencies for complete data, with or without preprocessing, any set order and store type; C39_no_rows_raises, C39_no_column_raises, C39_rejects: the error branches. Outside complete data refuted: C39_missing_refuted (rows with NaN are dropped from the total and not counted as 'nan')."
  },
  {
   "property": "C40",
   "status": "proved",
   "theorems": [
    "C40_run",
    "C40_step",
    "C40_history"
   ],
   "note": "C40_run, C40_step, C40_history: for every update and stopping rule, every max_iter and every history of run/step calls (also failing ones). k <= 0 makes no step; run then leaves the copy of the prior model made at its start. The loop is modelled with fuel and reports Running when the fuel is used up."
  },
  {
   "property": "C41",
   "status": "proved",
   "theorems": [
    "C41_untrained",
    "C41_frozen",
    "C41_frozen_step",
    "C41_converged_before",
    "C41_rerun",
    "C41_retrain_refuted"
   ],
   "note": "C41_untrained, C41_frozen, C41_frozen_step: every run/step history of EM with any inference, data and divergence test. Retraining from the prior when run is called again is refuted: C41_converged_before, C41_rerun and C41_retrain_refuted show that a second run after convergence leaves the learner with the untrained prior copy."
  },
  {
   "property": "C42",
   "status": "proved",
   "theorems": [
    "C42_step",
    "C42_run",
    "C42_elimination",
    "C42_observed_parent_refuted",
    "C42_different_rows_refuted",
    "C42_observed_trained_refuted",
    "C42_unseen_parents_refuted"
   ],
   "note": "C42_step/C42_run: proved for every network, every exact inference method (C42_elimination: variable elimination is one) and every data set of positive likelihood in which the same variables are observed in all rows, the trained variables and their parents are unobserved, and every configuration of the parents is possible with some row. The literal statement is false without these conditions: C42_observed_parent_refuted, C42_different_rows_refuted, C42_observed_trained_refuted exhibit steps that lower the likelihood, C42_unseen_parents_refuted a step whose table does not sum to one; a trained variable on which no observed one bears raises TypeError (second half of C42_step)."
  },
  {
   "property": "C43",
   "status": "proved",
   "theorems": [
    "C43_models",
    "C43_delivers",
    "C43_raises",
    "C43_outcome",
    "C43_reset",
    "C43_merge",
    "C43_learners",
    "C43_threaded_refuted",
    "C43_failed_refuted",
    "C43_em",
    "C43_em_ends"
   ],
   "note": "C43_models, C43_delivers, C43_raises, C43_outcome: every history of run calls (also failing ones), sequential or in threads with any schedule; C43_learners: learn_objects aligned when sequential and no call raised, a permutation per call in threads. Literal alignment refuted in threads (C43_threaded_refuted) and after a run that raised (C43_failed_refuted). C43_em, C43_em_ends: what a task of the EM aggregator delivers. The gradient learner is not modelled beyond the generic task."
  },
  {
   "property": "C44",
   "status": "proved",
   "theorems": [
    "C44_query",
    "C44_range",
    "C44_probability_range",
    "C44_effect",
    "C44_probability",
    "C44_shared_refuted",
    "C44_emcc_refuted",
    "C44_probability_raises",
    "C44_stale_domain_refuted",
    "C44_order_refuted"
   ],
   "note": "C44_query, C44_range, C44_probability_range for any kind of inference and every program of set_models/add_models/set_interval/compile/query statements; C44_effect and C44_probability for variable elimination, against the semantics of the models. Hypotheses: models are added only to lists no other object uses, and no object trains its own models; refuted without: C44_shared_refuted (stale compilation via a shared list), C44_emcc_refuted (added models forgotten). Also C44_probability_raises (no states before the first compile), C44_stale_domain_refuted (states looked up in the old models), C44_order_refuted (joint answers with different variable orders raise)."
  },
  {
   "property": "C45",
   "status": "proved",
   "theorems": [
    "C45_failed_set_value_refuted",
    "C45_independent",
    "C45_result_independent",
    "C45_derived_table",
    "C45_derivation_returns",
    "C45_set_value_table",
    "C45_apart",
    "C45_common_dictionary",
    "C45_restrict_exact",
    "C45_restrict_refuted",
    "C45_restrict_nothing_refuted",
    "C45_marginalize_refuted",
    "C45_marginalize_nothing_refuted",
    "C45_shallow_copy_shares",
    "C45_shallow_copy_refuted",
    "C45_constructor"
   ],
   "note": "Store objects are modelled in a heap (dictionaries, arrays and lists at addresses). Proved for all inputs: results with data of their own (all derivations of numpy and list stores, all but the shallow copy of numpy1d stores, and for treedict stores every combination, deep copy, removal of variables of which one has several states, restriction used up at the end of each path) are independent of their source in both directions; object operations compute the tables of the table model. The literal claim is false elsewhere, shown by _refuted theorems: treedict restrict (exact condition proved), treedict marginalize of single-state variables or of none, shallow copy of treedict and numpy1d stores."
  },
  {
   "property": "C46",
   "status": "proved",
   "theorems": [
    "C46_roundtrip",
    "C46_found",
    "C46_exact",
    "C46_shape_raises",
    "C46_no_left_raises",
    "C46_shape_refuted",
    "C46_left_first_refuted",
    "C46_parents_refuted",
    "C46_states_refuted",
    "C46_network",
    "C46_network_isolated_raises",
    "C46_missing_raises",
    "C46_deterministic_raises"
   ],
   "note": "Round trip of a factor and of a whole network, for tables whose domain lists the parents in order and then the variable, and (with more than two variables) whose first variable has as many states as the left one; C46_exact gives the value for every accepted table. The unrestricted statement is false of the code: other shapes raise ValueError (C46_shape_raises, C46_shape_refuted), the left variable first or parents in another order exchange values (C46_left_first_refuted, C46_parents_refuted), integer states are used as positions by pgmpy 0.1.17 (C46_states_refuted), isolated nodes are lost (C46_network_isolated_raises). pgmpy itself is transcribed, not part of the repository."
  },
  {
   "property": "C47",
   "status": "proved",
   "theorems": [
    "C47_true_false",
    "C47_edges_refuted",
    "C47_names",
    "C47_lower"
   ],
   "note": "for every non-empty domain of distinct states; the empty domain raises IndexError and repeated states can be returned twice (C47_edges_refuted)"
  },
  {
   "property": "C48",
   "status": "proved",
   "theorems": [
    "C48_any_split",
    "C48_any_split_builds",
    "C48_lawful",
    "C48_built",
    "C48_builds_iff",
    "C48_nonnegative",
    "C48_mass_raises",
    "C48_shape_raises",
    "C48_default",
    "C48_default_raises",
    "C48_last_split",
    "C48_copy",
    "C48_node",
    "C48_cut_range",
    "C48_negative_cut_raises"
   ],
   "note": "For every rule that cuts tables in halves, and for the rule of the code with an arbitrary logarithm, a tree that is built gives every full observation the value of the table (C48_any_split, C48_built). The constructor returns exactly when every visited non-constant sub-table has positive mass (C48_builds_iff), so for every table without negative numbers; otherwise it raises (C48_mass_raises). Also proved: the chosen split is always the last cut of the last variable with two states (info_max is never updated); a negative end_left_exclusive is always rejected; copying a constant store raises; the default data are rejected for two or more variables."
  },
  {
   "property": "C49",
   "status": "proved",
   "theorems": [
    "C49_children",
    "C49_parents",
    "C49_blanket",
    "C49_relatives"
   ],
   "note": "also unknown nodes: NetworkXError"
  },
  {
   "property": "C50",
   "status": "proved",
   "theorems": [
    "C50_prob",
    "C50_total"
   ],
   "note": "prob, for every list of full observations; its total is one."
  },
  {
   "property": "C51",
   "status": "proved",
   "theorems": [
    "C51_submodel_refuted"
   ],
   "note": "refuted: submodel raises TypeError for every model and every node set"
  },
  {
   "property": "C52",
   "status": "proved",
   "theorems": [
    "C52_test",
    "C52_separated",
    "C52_connected",
    "C52_rejected"
   ],
   "note": "for targets that are not themselves evidence nodes; C52_rejected covers unknown nodes and cyclic graphs"
  },
  {
   "property": "C53",
   "status": "proved",
   "theorems": [
    "C53_independent",
    "C53_filter"
   ],
   "note": "soundness of d-separation for every network; C53_filter for the filter of one row (the deduplication of rows is part of C42/C43)"
  },
  {
   "property": "C54",
   "status": "proved",
   "theorems": [
    "C54_hidden",
    "C54_hidden_shields",
    "C54_shields",
    "C54_no_hidden",
    "C54_rejected",
    "C54_hidden_members_refuted"
   ],
   "note": "with hidden nodes, for the observed ones; the blanket returned may contain hidden nodes themselves (C54_hidden_members_refuted)"
  },
  {
   "property": "C55",
   "status": "proved",
   "theorems": [
    "C55_qgraph",
    "C55_qfactors",
    "C55_qbnet",
    "C55_undisturbed_raises"
   ],
   "note": "For models whose factors are all tables. 0/0 is 0 in numpy stores and nan in the others, so the joint probability in the other stores is nan where parents are impossible (stated). C55_undisturbed_raises: an endogenous variable without exogenous parents gets no factor and prob raises AttributeError. Cyclic Q-graphs raise ValueError."
  },
  {
   "property": "C56",
   "status": "proved",
   "theorems": [
    "C56_log_likelihood",
    "C56_variables",
    "C56_unknown_raises",
    "C56_cyclic_raises",
    "C56_factors_raises"
   ],
   "note": "The logarithm is any function that turns products of positive numbers into sums; floating point rounding is not modelled. Rows of probability zero raise ValueError (math.log)."
  },
  {
   "property": "C57",
   "status": "proved",
   "theorems": [
    "C57_tables",
    "C57_value",
    "C57_bound",
    "C57_cyclic_raises"
   ],
   "note": "The bound holds for every model with the graph and any states of the exogenous variables. Whether some model attains it is not claimed. Cyclic Q-graphs raise ValueError."
  },
  {
   "property": "C58",
   "status": "proved",
   "theorems": [
    "C58_to_multinomial",
    "C58_to_bnet",
    "C58_causal_to_bnet",
    "C58_joint",
    "C58_bnet_to_causal",
    "C58_not_functions_raises",
    "C58_endogenous_root_refuted",
    "C58_own_endogenous_refuted",
    "C58_has_deterministic",
    "C58_has_deterministic_raises"
   ],
   "note": "to_multinomial and to_bnet need the roots to be tables: an endogenous root kept as DeterministicFactor stays one and prob of the network raises (C58_endogenous_root_refuted). to_multinomial recomputes the endogenous variables and can refuse a model the constructor accepted (C58_own_endogenous_refuted)."
  },
  {
   "property": "C59",
   "status": "proved",
   "theorems": [
    "C59_fill",
    "C59_refill",
    "C59_marginal_raises",
    "C59_network",
    "C59_redraw",
    "C59_redraw_in_place",
    "C59_endogenous_raises"
   ],
   "note": "An all-zero column is excluded by the hypothesis on draws (its effect is C17). In place, tables set before an exception stay (C59_redraw_case)."
  },
  {
   "property": "C60",
   "status": "proved",
   "theorems": [
    "C60_objective",
    "C60_share",
    "C60_run",
    "C60_two_causes_refuted",
    "C60_names_refuted",
    "C60_deterministic_refuted",
    "C60_refused",
    "C60_unknown_raises",
    "C60_network_raises",
    "C60_step_first_raises",
    "C60_new_raises"
   ],
   "note": "scipy's minimize is an arbitrary function; what is assumed of it (stays_feasible, descends) is in the statement, and logarithms are any commutative monoid with lg(ab)=lg a+lg b. Three hypotheses of C60_run are shown necessary by C60_two_causes_refuted, C60_names_refuted and C60_deterministic_refuted."
  },
  {
   "property": "C61",
   "status": "proved",
   "theorems": [
    "C61_emcc",
    "C61_gdcc",
    "C61_questions",
    "C61_emcc_effect",
    "C61_gdcc_effect",
    "C61_inner_refuted",
    "C61_number_raises",
    "C61_training_raises",
    "C61_optimiser_raises",
    "C61_unknown_raises",
    "C61_evolution",
    "C61_threads_refuted"
   ],
   "note": "Composes the claims C41-C44, C59 and C60. Finding nothing outside the interval is not guaranteed (C61_inner_refuted), nor that get_model_evolution(i) belongs to model i with threads (C61_threads_refuted). Incremental compilation is C62."
  },
  {
   "property": "C62",
   "status": "proved",
   "theorems": [
    "C62_turns",
    "C62_questions",
    "C62_effect",
    "C62_nested",
    "C62_shared_refuted",
    "C62_step_raises",
    "C62_training_raises",
    "C62_other_raises"
   ],
   "note": "A question to the object before its first turn (which trains num_runs models by compile) is excluded by the relation grows. Sharing the list of models with another object breaks the claim (C62_shared_refuted)."
  },
  {
   "property": "C63",
   "status": "proved",
   "theorems": [
    "C63_gap",
    "C63_fixed",
    "C63_positive",
    "C63_kept",
    "C63_run",
    "C63_zero_refuted",
    "C63_shared_refuted"
   ],
   "note": "Exact arithmetic, and for C63_run a stopping rule that accepts only equal tables (the code's rule accepts small divergences; C63_gap bounds what such a table can miss). Zeros in the start (C63_zero_refuted) and shared children (C63_shared_refuted) break the claim."
  },
  {
   "property": "C64",
   "status": "proved",
   "theorems": [
    "C64_logical_operand",
    "C64_expression",
    "C64_chain_rule",
    "C64_conditional",
    "C64_sum_twice",
    "C64_sum_of_product",
    "C64_distributive",
    "C64_combine_all",
    "C64_order_irrelevant",
    "C64_number_left_raises",
    "C64_operand_raises",
    "C64_classes_raises",
    "C64_interval_raises",
    "C64_unavailable",
    "C64_max_raises",
    "C64_combine_none_raises",
    "C64_first_raises",
    "C64_sampling_raises",
    "C64_function_operand",
    "C64_function_divisor",
    "C64_function_class_raises",
    "C64_function_product_refuted",
    "C64_interval_prob"
   ],
   "note": "Finite values, exact arithmetic. `^` is not available for one-dimensional numpy stores (C64_max_raises). `2 * f` raises although `f * 2` works (C64_number_left_raises). With a deterministic factor on the right the operators compute with its integer states as if they were values of a table (C64_function_operand, C64_function_product_refuted); string states there are outside the model."
  },
  {
   "property": "C65",
   "status": "proved",
   "theorems": [
    "C65_fusion",
    "C65_marginal",
    "C65_independent",
    "C65_lonely_raises",
    "C65_unknown_raises",
    "C65_not_root_raises",
    "C65_roots_refuted",
    "C65_common_refuted",
    "C65_classes_raises",
    "C65_none_raises",
    "C65_endogenous_raises"
   ],
   "note": "Multinomial factors (not deterministic ones). C65_roots_refuted: the k-th common node is tested in the k-th model only, so a node with parents in another model passes. C65_common_refuted: common nodes that are not listed are not noticed, the table of the last model stays. C65_lonely_raises: a later model with a node without arcs cannot be joined."
  },
  {
   "property": "C66",
   "status": "proved",
   "theorems": [
    "C66_function",
    "C66_column_refuted",
    "C66_caller",
    "C66_stranger_refuted",
    "C66_repeated_refuted",
    "C66_size_raises",
    "C66_name_raises",
    "C66_unknown_raises",
    "C66_left_raises",
    "C66_empty_raises"
   ],
   "note": "Holds when the values are in the last column and no other column's name is part of its name. Refuted elsewhere: another left column, repeated rows that make up for missing ones, and values that are no states are accepted silently (C66_column_refuted, C66_repeated_refuted, C66_stranger_refuted)."
  },
  {
   "property": "C67",
   "status": "proved",
   "theorems": [
    "C67_bif",
    "C67_joint",
    "C67_isolated_raises",
    "C67_causal",
    "C67_uai",
    "C67_no_folder",
    "C67_no_folder_raises",
    "C67_folder_raises",
    "C67_unconverted_raises",
    "C67_no_file_raises",
    "C67_format_raises"
   ],
   "note": "pgmpy's writers and readers are quantified over; that they keep the network but for the names of states and some orders is a hypothesis (carried), with a concrete case. Networks with isolated nodes are saved but not read (C67_isolated_raises)."
  },
  {
   "property": "C68",
   "status": "proved",
   "theorems": [
    "C68_frechet",
    "C68_identity",
    "C68_bounds",
    "C68_difference",
    "C68_monotone",
    "C68_duality"
   ],
   "note": "All claims are about the numbers that the code returns; hypotheses as in C33 (cause with a child, fresh names of copies, plain roots)."
  },
  {
   "property": "C69",
   "status": "proved",
   "theorems": [
    "C69_ignore_evidence",
    "C69_act_or_observe",
    "C69_ignore_intervention",
    "C69_back_door",
    "C69_front_door",
    "C69_consistency"
   ],
   "note": "Rule 3 is proved for interventions d1 (not above the evidence) and d2 (the others), with the arcs into d1 cut; it assumes in addition that observing d2 with z is possible under do(w, d1) (void if d2 is empty). Adjustment sets are listed in the order of the domain."
  },
  {
   "property": "C70",
   "status": "proved",
   "theorems": [
    "C70_responses",
    "C70_tables",
    "C70_uniform",
    "C70_networks",
    "C70_answers"
   ],
   "note": "VNumpy needs exactly one endogenous parent, as for C18 (C18_numpy_parents), so networks, which have roots, are covered for the other store types."
  },
  {
   "property": "C71",
   "status": "proved",
   "theorems": [
    "C71_counterfactuals",
    "C71_queries"
   ],
   "note": "Markovian: every variable other than the roots has exactly one exogenous parent, shared with no other variable. The exogenous variables keep their names and get other states. The numpy store is excluded because its canonical equations need exactly one endogenous parent (C18)."
  },
  {
   "property": "C72",
   "status": "proved",
   "theorems": [
    "C72_network",
    "C72_causal",
    "C72_uncovered_raises",
    "C72_queries",
    "C72_causal_queries",
    "C72_collision_refuted"
   ],
   "note": "For structural causal models the mapping must cover the endogenous variables (C72_uncovered_raises states the KeyError). If two variables get one name the model may be built with one variable less and no error (C72_collision_refuted)."
  },
  {
   "property": "C73",
   "status": "proved",
   "theorems": [
    "C73_create",
    "C73_create_raises",
    "C73_no_states_refuted",
    "C73_strides",
    "C73_numeric",
    "C73_powerset",
    "C73_reorder",
    "C73_reorder_raises",
    "C73_as_lists"
   ],
   "note": "C73_no_states_refuted states that a size below one is accepted and leaves a variable without states."
  },
  {
   "property": "C74",
   "status": "proved",
   "theorems": [
    "C74_worlds",
    "C74_exclusion",
    "C74_composition",
    "C74_nondescendants",
    "C74_average"
   ],
   "note": "Each relation is a theorem about the answers of the model's counterfactual_query, with the conditions under which the queries are defined (well_posed) as hypotheses."
  },
  {
   "property": "C75",
   "status": "proved",
   "theorems": [
    "C75_bound",
    "C75_exact",
    "C75_barren_refuted",
    "C75_query",
    "C75_smallest"
   ],
   "note": "C75_bound holds for every network; C75_exact needs that each eliminated variable has a descendant that stays, C75_query shows that compiled models satisfy it, and C75_barren_refuted that it cannot be dropped."
  },
  {
   "property": "C76",
   "status": "proved",
   "theorems": [
    "C76_unique",
    "C76_reached",
    "C76_add",
    "C76_subtract",
    "C76_multiply",
    "C76_divide",
    "C76_divide_zero",
    "C76_less",
    "C76_maximum",
    "C76_python_max",
    "C76_scale",
    "C76_nan_to_num"
   ],
   "note": "About exact rationals with the special values of floats; rounding, overflow and signed zeros are not modelled."
  },
  {
   "property": "C77",
   "status": "proved",
   "theorems": [
    "C77_marginalize",
    "C77_observe",
    "C77_given",
    "C77_chain",
    "C77_do_marginalize",
    "C77_do_observe"
   ],
   "note": "C77_marginalize, C77_observe, C77_given, C77_chain for VariableElimination; C77_do_marginalize, C77_do_observe for causal_query. Evidence must have nonzero probability. The second part of C77_chain says exactly what happens at impossible states of the conditioning variables: 0 with the numpy store, NaN with the others."
  },
  {
   "property": "C78",
   "status": "proved",
   "theorems": [
    "C78_sample",
    "C78_volume",
    "C78_total",
    "C78_rows",
    "C78_endogenous",
    "C78_endogenous_chance",
    "C78_mean",
    "C78_variance",
    "C78_large_numbers",
    "C78_limit",
    "C78_laplace",
    "C78_conditional",
    "C78_do"
   ],
   "note": "C78_sample and C78_volume describe the regions of the numbers drawn (the variables listed in the order in which they are drawn), C78_total says the probabilities of all samples add up to one, C78_rows is the independence of the rows, C78_endogenous and C78_endogenous_chance say the same of sampleEndogenous, C78_mean and C78_variance the mean and variance of a frequency, C78_large_numbers is Chebyshev's inequality, C78_limit, C78_laplace and C78_conditional the limits. The generator's numbers are modelled as rationals in [0,1); probability of a region means its volume, so independence and uniformity of numpy's generator is what is assumed, not proved. C78_do: samples of an intervened causal model (its deterministic factors converted, as CausalVariableElimination does) give the answers of causal_query in the limit."
  }
 ]
}