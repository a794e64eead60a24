# Formal model of bcause: design

Source: `/repo` (python package `bcause`), read as text. Model and proofs: `/verif/rocq/theories`, Coq 8.16.1, standard library only, no axioms.

## How to read the development

| Kind of file | Content |
|---|---|
| `PyBase`, `Num`, `NdArray` | python dictionaries/exceptions, extended numbers, row-major arrays |
| `*Model.v` (also `NumStore.v`) | the code, function by function; each definition cites file and lines |
| `*Spec.v`, `NetSem.v` | the vocabulary of the statements, independent of the model's helpers |
| `*Facts*.v`, `BigSum.v`, `EmMath.v`, … | lemmas |
| `*Checks.v` | sample objects and sound boolean checkers for the examples |
| `Props*.v` | only the property theorems (closed by `exact`), `Print Assumptions`, and one non-trivial case each |

Names: `Cnn_x` is proved for all inputs that meet its hypotheses. `Cnn_x_refuted` shows, by a concrete witness, that a stronger reading of the property is false of the code. `Cnn_x_raises` states for all inputs of some kind that the code raises.

## Conventions of the model

* Python functions become Gallina functions of the same shape; exceptions are values (`res A := Ok a | Raise e`). Object methods that change state return the new state even when they raise.
* Loops are structural, or recursion with fuel that reports exhaustion as a value of its own (`Unmodelled`, `Running`, `None`). The theorems show that it does not occur, or speak about it.
* Variables are `string`s. States are `SStr | SInt | SBool` with Leibniz equality. Python's `True == 1` across types is not modelled; the code checks that a domain is single typed.
* Dictionaries are association lists in insertion order. Python sets are lists; the order in which they are iterated is an argument that the theorems quantify over.
* Floats are exact rationals `Qc`, extended with NaN, +inf and -inf where division can produce them. Rounding and overflow are not modelled.
* numpy arrays are (shape, row-major flat list). The numpy calls used (sum, max, repeat, reshape, moveaxis, indexing, broadcasting, nan_to_num) are modelled from numpy's documented behaviour.
* networkx (2.6.3) graphs are node list + edge list in insertion order. `simple_cycles`, `topological_sort`, `node_connectivity > 0`, `connected_components`, `descendants`, `d_separated`, `subgraph`, `relabel_nodes`, `is_directed_acyclic_graph` are modelled by what they compute.
* pandas frames are columns + rows with `None` for NaN.
* Random draws, tie breaking, thread schedules, logarithms, divergence tests and the inference used by a learner are arguments that the theorems quantify over.
* Files are lists of characters; `str` and `float` of a number are arguments with the assumption that they are inverse to each other where that is needed (stated in the theorem).
* Aliasing is modelled where a property is about it: store objects live in a heap in C45; the lists of models shared by inference objects in C44; everywhere else objects are values, which is justified for stores by C45 up to the exceptions listed there.

## Trusted base

* Coq's kernel (8.16.1). No axioms: `Print Assumptions` beneath each property theorem says "Closed under the global context". (`vcheck` lists `Coq.ssr.ssrunder` constants, which are the standard library's sealed module for `under` and are not used by any theorem.)
* The reading of the python sources, and of the numpy, pandas, networkx, pgmpy and scipy calls they make, expressed in the model files.
* The specification files. They are small; the examples beside the theorems and the mutation log (`seeded/LOG.jsonl`) show that the statements are neither vacuous nor insensitive to wrong programs.

## What is modelled

| Source | Model | Not modelled |
|---|---|---|
| `util/domainutils.py` | `DomainModel.v`, `UtilModel.v` | |
| `util/arrayutils.py` | `NdArray.v`, `StoreModel.v`, `UtilModel.v` | `len_iterable` |
| `factors/values/{store,numpystore,liststore,treedictstore}.py` | `StoreModel.v`, `NumStore.v`; as heap objects `HeapModel.v` | `__repr__`, printing, replacement of operation sets at run time (`set_operationSet`) |
| `factors/values/{numpyops,listops,treedictops,operations}.py`, `util/treesutil.py` | `StoreModel.v`, `NumStore.v`, `HeapModel.v` | |
| `factors/values/btreestore.py` | `BTreeModel.v` | `get_value`/`set_value` and all of `btreeops.py`: they are `NotImplementedError` stubs or call functions that do not exist |
| `factors/{factor,mulitnomial,deterministic}.py` | `FactorModel.v`, `GenModel.v`, `DataModel.v` (sampling, counting), `OpModel.v` (operators, combine_all) | `name`, `__repr__`, `from_data_frame` of deterministic factors |
| `factors/imprecise.py` | `GenModel.v` (construction, restrict, envelope), `OpModel.v` (operators, sampling: not available in the code) | `name`, `__repr__` |
| `util/graphutils.py`, `models/info.py` | `GraphModel.v`, `LearnModel.v` (d-separation), `QModel.v` (get_qfactors) | |
| `models/{pgmodel,bnet,cmodel}.py` | `ModelModel.v`, `CausalModel.v`, `AggModel.v` and `ConvModel.v` (random tables), `QModel.v` (Q-factors, likelihood) | drawing, `__repr__` |
| `models/transform/*.py` | `InferModel.v` (minimalize), `CausalModel.v` (fusion), `ConvModel.v` (conversion) | |
| `inference/ordering.py`, `inference/probabilistic/elimination.py`, `probabilistic.py` | `InferModel.v` | logging, timing |
| `inference/probabilistic/datainference.py`, `util/datautils.py`, `models/sampling.py` | `DataModel.v` | |
| `inference/causal/{causal,elimination}.py` | `CausalModel.v` | the abstract `run`/`counterfactual` stubs |
| `inference/causal/multi.py` | `MultiModel.v`; EMCC and GDCC in `PipeModel.v` | plotting helpers |
| `learning/parameter/{parameter,expectation_maximization}.py`, `util/datadeps.py` | `LearnModel.v` | |
| `learning/parameter/gradient.py`, `values_dict` of `factors/values/store.py` | `GradModel.v` | scipy's `minimize` is an argument; the recorded trajectory is left out |
| `learning/aggregator/aggregator.py` | `AggModel.v` | joblib itself (arbitrary schedules) |
| `readwrite/*.py` | `UaiModel.v` | bif and xmlbif, which only call pgmpy |
| `conversion/pgmpy.py` | `PgmpyModel.v`, with the parts of pgmpy 0.1.17 it calls | |
| `util/{plotutils,watch,randomUtil,assertions}.py`, `examples`, `dev` | none | everything |

## Properties

### C01 Assignment enumeration is complete, duplicate free and row-major: proved

* Model: DomainModel. Proof: `itertools.product` and `assingment_space` on lists; induction on the domain.
* Theorems: `C01_enumeration`

### C02 Flat index agrees with the enumeration: proved

* Model: DomainModel. Proof: `steps`, `restrict_domain`, `values_to_coord`, `index_iterator` literally; position in the enumeration by induction (mixed radix).
* Theorems: `C02_flat_index`, `C02_full_observation`, `C02_unknown_state`

### C03 A constructed factor returns the values it was given: proved

* Model: StoreModel, NumStore, FactorModel. Proof: constructor and `get_value` of all four stores against the row-major position.
* Theorems: `C03_constructor`, `C03_wrong_length`, `C03_bad_domain`, `C03_array_shape`, `C03_array_size`, `C03_array_flat`, `C03_transposed_refuted`, `C03_tree_size_refuted`, `C03_repeated_states_refuted`
* Besides the property, what the constructor checks is stated exactly: empty or mixed state lists and underscored names raise ValueError (C03_bad_domain); an array of two or more dimensions is checked by shape in the numpy store (C03_array_shape), only by its number of entries in the list stores (C03_array_size, C03_array_flat, C03_transposed_refuted) and not at all by the tree store (C03_tree_size_refuted); repeated states are accepted and read differently by different stores (C03_repeated_states_refuted).

### C04 set_value changes exactly one entry: proved

* Model: StoreModel, NumStore. Proof: `set_value` of each store; frame by injectivity of the flat index, for trees by induction. Observations that leave variables of the store free are stated per store type (PropsFree.v): a tree writes every matching entry and no other, a numpy store raises KeyError, the two flat stores write the first matching entry only.
* Theorems: `C04_free_tree`, `C04_free_numpy`, `C04_free_flat`, `C04_free_read_tree`, `C04_free_read_numpy`, `C04_free_read_flat`, `C04_set_value`

### C05 restrict fixes the observed variables and nothing else: proved

* Model: StoreModel, NumStore. Proof: `restrict` of each store against `get_value` at the extended observation.
* Theorems: `C05_states`, `C05_restrict`, `C05_unknown_state`, `C05_pruned_tree_refuted`, `C05_pruned_tree_raises_refuted`, `C05_list_value_refuted`, `C05_list_and_state_refuted`, `C05_two_lists_raises`, `C05_two_lengths_raises`, `C05_single_list`, `C05_lists_raises`
* C05_restrict is about observations giving one state per variable and complete trees. The _refuted theorems are findings outside it: pruned (user supplied) treedict trees and lists of states as values. For one list of states in domain order the restriction is proved correct (C05_states); lists for two variables always raise (C05_two_lists_raises, C05_two_lengths_raises), and a list next to a single state may be transposed (C05_list_and_state_refuted). C05_single_list: a list of one state is the same as the state for the numpy store; C05_lists_raises: the other stores raise NotImplementedError for any list.

### C06 multiply, addition and subtract are pointwise on the union domain: proved

* Model: StoreModel, NumStore. Proof: `_generic_combine` of each store (numpy: repeat, reshape, moveaxis on (shape, flat)); one specification for all types.
* Theorems: `C06_multiply`, `C06_addition`, `C06_subtract`, `C06_different_types`, `C06_pruned_trees`
* Complete stores of all four types, plus pruned treedict trees (C06_pruned_trees).

### C07 divide is pointwise and its zero-division convention is fixed: proved

* Model: NumStore. Proof: extended numbers; `nan_to_num` for numpy stores, plain division otherwise.
* Theorems: `C07_divide`, `C07_numpy_finite`
* Pointwise division, both zero-division conventions, and finiteness of the numpy store.

### C08 marginalize sums out exactly the given variables: proved

* Model: StoreModel, NumStore. Proof: `marginalize` against an iterated sum over the states of the removed variables (`BigSum`).
* Theorems: `C08_marginalize`, `C08_order_irrelevant`, `C08_pruned_tree`
* Complete stores of all four types, plus pruned treedict trees (C08_pruned_tree).

### C09 maxmarginalize takes the maximum over exactly the given variables: proved

* Model: StoreModel, NumStore. Proof: `maxmarginalize` against bound-and-attained.
* Theorems: `C09_maxmarginalize`, `C09_numpy1d`

### C10 Results do not depend on the store type: proved

* Model: StoreModel, StoreExpr. Proof: expressions over factor operations; simulation between store types by induction on the expression.
* Theorems: `C10_calculation`, `C10_store_independence`, `C10_duplicate_variable_refuted`, `C10_absent_variable_refuted`, `C10_state_order_refuted`, `C10_missing_state_refuted`
* C10_calculation: tables with finite (rational) entries; division requires a divisor without zero entries, as in the property; variables to sum out are distinct members of the domain and shared variables list their states in the same order. The _refuted theorems show the store types do disagree when one of these conditions is dropped.

### C11 Factor algebra laws used by inference: proved

* Model: FactorModel. Proof: consequences of C06/C08 with distributivity of finite sums.
* Theorems: `C11_commutative`, `C11_associative`, `C11_sum_out`
* The sum-out law is for tables with finite entries.

### C12 Left/right variable bookkeeping: proved

* Model: FactorModel. Proof: each operation keeps the partition into left and right variables.
* Theorems: `C12_partition`, `C12_constructor`, `C12_right_alone`, `C12_restrict`, `C12_marginalize`, `C12_maxmarginalize`, `C12_multiply`, `C12_addition`, `C12_subtract`, `C12_divide`, `C12_scalar`
* right_vars given alone is taken as it is, even when it names variables outside the domain (C12_right_alone).

### C13 constant(x) is the point mass at x: proved

* Model: FactorModel. Proof: `constant` of both factor classes.
* Theorems: `C13_constant`, `C13_rejected`, `C13_deterministic`

### C14 Deterministic factors and their multinomial form agree: proved

* Model: FactorModel. Proof: `to_multinomial`, `to_deterministic`, `eval` in observation form.
* Theorems: `C14_to_multinomial`, `C14_normalised`, `C14_roundtrip`, `C14_to_deterministic`, `C14_one_left`, `C14_unchecked_domain`
* The constructor of DeterministicFactor does not call _check_domain, so a factor over a rejected name can be built, and to_multinomial() of it raises ValueError (C14_unchecked_domain).

### C15 values_array permutes axes faithfully: proved

* Model: FactorModel. Proof: `values_array` through the array transposition model.
* Theorems: `C15_values_array`, `C15_default_order`

### C16 Renaming variables preserves the table: proved

* Model: FactorModel. Proof: `rename_vars`; injectivity of the mapping on the variables.
* Theorems: `C16_rename`, `C16_underscore`, `C16_deterministic`
* Deterministic factors are covered by C16_deterministic; their names are not checked.

### C17 Generated conditional tables are normalised: proved

* Model: GenModel. Proof: generators with an arbitrary list of draws.
* Theorems: `C17_random_multinomial`, `C17_uniform_multinomial`, `C17_random_deterministic`, `C17_no_right_vars`, `C17_empty_raises`, `C17_zero_column_refuted`
* random_multinomial(allow_zero=True) needs one positive draw per column: C17_zero_column_refuted shows NaN otherwise. random_deterministic with the default right_vars=None always raises (C17_no_right_vars).

### C18 The canonical specification enumerates every function exactly once: proved

* Model: GenModel. Proof: `canonical_deterministic` over the enumeration of `state_space`; bijection between states and functions.
* Theorems: `C18_canonical`, `C18_order`, `C18_table`, `C18_wrong_cardinality`, `C18_not_one_child`, `C18_numpy_parents`, `C18_numpy_refuted`, `C18_treedict_refuted`
* Enumeration and the ValueError for a wrong cardinality are proved for the store types for which they are true. C18_numpy_refuted: with the default numpy store every call with a number of endogenous parents other than one raises although the cardinality is right (C18_numpy_parents characterises it). C18_treedict_refuted: treedict accepts a wrong cardinality.

### C19 Interval factors are the tight envelope of their precise factors: proved

* Model: GenModel. Proof: `from_precise` and `restrict` of interval factors; minimum and maximum attained.
* Theorems: `C19_envelope`, `C19_restrict_envelope`, `C19_undefined`, `C19_different_domains`, `C19_empty`
* Entries finite. Restricting is for the store types other than treedict (whose values are dictionaries and are not modelled by process_array).

### C20 Barren nodes are exactly the non-ancestors of the relevant set: proved

* Model: GraphModel. Proof: iterative pruning with fuel = number of nodes; invariant: removed nodes are no ancestors.
* Theorems: `C20_barren_nodes`, `C20_barren_removal`
* for every DAG and every list S (also with names outside the graph)

### C21 Models accept exactly acyclic graphs: proved

* Model: GraphModel, ModelModel. Proof: enumeration of cycles against 'no closed walk'.
* Theorems: `C21_bayesian_network`, `C21_causal_model`, `C21_other_arguments`, `C21_string_scm_refuted`
* also: a causal model given a string graph without endogenous variables raises AttributeError (C21_string_scm_refuted)

### C22 DAG string notation round trips: proved

* Model: GraphModel. Proof: printer and parser on characters; induction on the printed blocks.
* Theorems: `C22_roundtrip`, `C22_no_isolated`, `C22_isolated_refuted`, `C22_small_refuted`
* exact description of what the round trip keeps; the full statement is refuted: isolated nodes are lost (C22_isolated_refuted) and graphs with at most one node raise IndexError (C22_small_refuted)

### C23 Models only ever hold structurally valid factors: proved

* Model: ModelModel. Proof: invariant over every list of calls (state and exception).
* Theorems: `C23_structure`, `C23_unchanged`, `C23_functions`
* for every history of calls from a model without factors; recorded and stored states agree as sets (their order is not checked, see C24_order_refuted)

### C24 All factors of a model agree on the domains of shared variables: proved

* Model: ModelModel. Proof: same invariant; counterexamples by computation.
* Theorems: `C24_agreement`, `C24_disagreement_refuted`, `C24_order_refuted`
* agreement as sets when parents are recorded first; the full statement is refuted: other orders of calls leave factors with disjoint states (C24_disagreement_refuted) and the order of states is never checked (C24_order_refuted)

### C25 Elimination orderings are greedy permutations: proved

* Model: InferModel, OrderSpec. Proof: `_get_elim_ordering` with a choice oracle; the graph after eliminations is specified by paths through eliminated nodes.
* Theorems: `C25_greedy`, `C25_raises`
* All three heuristics, every tie-breaking outcome (the random choice is an arbitrary function returning a candidate); the graph after eliminating some nodes is specified by paths through eliminated nodes of the moral graph. Repeated or unknown variables raise KeyError. The model also shows that the caller's list is emptied.

### C26 Variable elimination returns the exact posterior: proved

* Model: InferModel. Proof: minimalization and elimination; invariant: the product of the factor list summed over the remaining hidden variables is the mass of the query.
* Theorems: `C26_posterior`, `C26_builtin`, `C26_rejects`, `C26_deterministic_raises`
* Any network with finite normalised tables in any store type, any heuristic that returns the variables to remove in some order (the built-in ones do: C26_builtin), any set iteration order, any evidence of positive probability. Exact rational arithmetic stands for floats. Ill-formed queries: C26_rejects.

### C27 The answer does not depend on the elimination heuristic: proved

* Model: InferModel. Proof: consequence of C26; for impossible evidence by following the factors.
* Theorems: `C27_heuristic`, `C27_conditional`
* Without conditioning, also for impossible evidence; with conditioning for possible evidence.

### C28 Minimalization preserves the posterior: proved

* Model: InferModel. Proof: barren nodes sum to one, observed arcs are cut by restriction, disconnected parts factor out.
* Theorems: `C28_minimal`
* The simplified model is itself shown to be a network over the kept variables, with tables agreeing with the originals under the evidence.

### C29 Conditional queries return conditional distributions: proved

* Model: InferModel. Proof: division step of `query` after C26.
* Theorems: `C29_conditional`
* At impossible configurations of the conditioning variables: 0 for numpy stores, NaN for the other stores (tables with nonnegative entries).

### C30 Intervention is graph surgery with truncated factorisation: proved

* Model: CausalModel. Proof: `intervention` on the model; truncated product.
* Theorems: `C30_surgery`, `C30_rejects`
* Holds in full: C30_surgery gives nodes, arcs, kept factors, point masses and the truncated factorisation for every SCM (multinomial and deterministic factors); C30_rejects: an unknown state raises ValueError. Variables of the intervention that are not in the model are silently ignored.

### C31 causal_query returns the interventional distribution: proved

* Model: CausalModel. Proof: `compile` and `causal_query` on the mutilated model, with C26 and C30.
* Theorems: `C31_interventional`, `C31_rejects`, `C31_list`, `C31_deterministic_root_refuted`
* C31_interventional: the exact interventional conditional, for every SCM whose parentless variables hold multinomial factors. C31_rejects and C31_list: the error cases. C31_deterministic_root_refuted: with a DeterministicFactor at a declared endogenous variable without parents the query raises NotImplementedError. Evidence about intervened variables is overridden by the intervention, which the statement spells out (outside d e).

### C32 counterfactual_query computes abduction-action-prediction: proved

* Model: CausalModel. Proof: renaming, fusion of exogenous roots, elimination in the twin network; equality with the sum over units of solution probabilities.
* Theorems: `C32_units`, `C32_counterfactual`, `C32_default`, `C32_childless_raises`, `C32_exogenous_raises`
* C32_counterfactual: Pearl's semantics over units of the exogenous variables, for any number of worlds, for interventions on endogenous variables that keep a child outside the intervention. C32_units: every unit has exactly one solution under every intervention, so the semantics is well defined. Refuted beyond: C32_childless_raises (NetworkXError when an intervened variable has no child left outside the intervention) and C32_exogenous_raises (NodeNotFound).

### C33 PN, PS and PNS have their textbook meaning: proved

* Model: CausalModel. Proof: C32 with the states of `identify_true_false`.
* Theorems: `C33_pns`, `C33_pn`, `C33_ps`, `C33_childless_raises`, `C33_unknown_raises`
* C33_pns, C33_pn, C33_ps: the textbook probabilities over units. C33_childless_raises: with a cause without children all three raise NetworkXError although the probabilities are defined. C33_unknown_raises: unknown variables, or variables without domain.

### C34 C-components partition the confounded variables: proved

* Model: GraphModel, AccessModel.v. Proof: connected components of the exogenous arcs against `linked`.
* Theorems: `C34_partition`, `C34_component_of`, `C34_sides`, `C34_all_sides`
* for every finite directed graph and every list of endogenous variables; variables touching no exogenous arc are in no component and get_ccomponent raises KeyError for them

### C35 The Q-graph is a DAG over the endogenous variables: proved

* Model: GraphModel. Proof: arcs of the Q-graph for every topological order; cyclic witness by computation over all orders.
* Theorems: `C35_arcs`, `C35_acyclic`, `C35_acyclic_refuted`
* exact arcs of the Q-graph for every topological order, a sufficient condition for acyclicity, and a refutation: for one causal DAG the Q-graph is cyclic whatever order is used (C35_acyclic_refuted)

### C36 UAI files round trip for Bayesian networks: proved

* Model: UaiModel. Proof: writer and reader on characters and tokens; round trip by induction over blocks.
* Theorems: `C36_roundtrip`, `C36_isolated_raises`, `C36_clash_raises`, `C36_exponent_refuted`, `C36_label`, `C36_bad_order`, `C36_numbers`
* C36_roundtrip: text, graph, names and tables, for every network without isolated variables, without a parent whose number is an initial part of its child's number, and whose values str writes without exponent and float reads back; any given or default order. Refuted beyond: C36_isolated_raises (NetworkXError), C36_clash_raises (ValueError, the substring test on a string left_vars), C36_exponent_refuted (values such as 1e-05 are split by the tokeniser, a wrong table is read silently). C36_label, C36_bad_order: the error cases. C36_numbers: the reader finds plain numbers in any hand-written line as they are written.

### C37 UAI files round trip for structural causal models: proved

* Model: UaiModel. Proof: same for structural causal models. How the states of an equation are written (as integers by save, as python prints them when the writer is called without the list of integer variables) is shown on a case (PropsUaiStates.v).
* Theorems: `C37_roundtrip`, `C37_isolated_raises`, `C37_clash_raises`, `C37_parentless_refuted`, `C37_states_refuted`, `C37_numbers`
* C37_roundtrip: graph, endogenous variables, equations and exogenous tables for every SCM (multinomial or deterministic equations) under the conditions of C36, if every endogenous variable has a parent and DeterministicFactors use the states 0,1,... Refuted beyond: C37_isolated_raises, C37_clash_raises, C37_parentless_refuted (an intervened variable comes back as exogenous with a wrong table), C37_states_refuted (states 1,2 come back wrong; text states raise ValueError on saving). C37_numbers: the reader also finds numbers in scientific notation with a capital E (str writes a small e, which splits them).

### C38 Forward samples lie in the support of the model: proved

* Model: DataModel. Proof: sampler driven by a sequence of draws; rows against the joint. The calls that raise (lists that are not distributions, conditional tables, tables of zeros, missing factors, sampleEndogenous without pandas) are in PropsRaise.v.
* Theorems: `C38_sample`, `C38_support`, `C38_equations`, `C38_endogenous`, `C38_deterministic_raises`, `C38_size_raises`, `C38_choice_accepts`, `C38_conditional_raises`, `C38_zero_table_raises`, `C38_missing_factor_raises`, `C38_endogenous_list_raises`
* C38_sample: n rows, full, positive joint, and row i is exactly the assignment selected by the i-th numbers of the generator (so each row has its joint probability as volume of draws); C38_support: every assignment of positive probability can be drawn; C38_equations, C38_endogenous for causal models with tables. 'Every model' is refuted for models with a DeterministicFactor, which raise TypeError (C38_deterministic_raises); n < 1 raises (C38_size_raises). Uniform draws are rationals; the rounding tolerance of np.random.choice is not modelled.

### C39 LaplaceInference returns relative frequencies: proved

* Model: DataModel. Proof: counting of rows; relative frequencies. The place of the state nan is shown in PropsRaise.v.
* Theorems: `C39_query`, `C39_conditional`, `C39_no_rows_raises`, `C39_no_column_raises`, `C39_rejects`, `C39_missing_refuted`
* C39_query, C39_conditional: relative and conditional relative frequencies for complete data, with or without preprocessing, any set order and store type; C39_no_rows_raises, C39_no_column_raises, C39_rejects: the error branches. Outside complete data refuted: C39_missing_refuted (rows with NaN are dropped from the total and not counted as 'nan').

### C40 Iterative learning performs at most max_iter steps and records each: proved

* Model: LearnModel. Proof: loop over abstract step and stopping functions; induction on fuel.
* Theorems: `C40_run`, `C40_step`, `C40_history`
* C40_run, C40_step, C40_history: for every update and stopping rule, every max_iter and every history of run/step calls (also failing ones). k <= 0 makes no step; run then leaves the copy of the prior model made at its start. The loop is modelled with fuel and reports Running when the fuel is used up.

### C41 EM changes only trainable variables and freezes converged ones: proved

* Model: LearnModel. Proof: EM state machine with arbitrary inference and divergence test.
* Theorems: `C41_untrained`, `C41_frozen`, `C41_frozen_step`, `C41_converged_before`, `C41_rerun`, `C41_retrain_refuted`
* C41_untrained, C41_frozen, C41_frozen_step: every run/step history of EM with any inference, data and divergence test. Retraining from the prior when run is called again is refuted: C41_converged_before, C41_rerun and C41_retrain_refuted show that a second run after convergence leaves the learner with the untrained prior copy.

### C42 An EM step never decreases the likelihood: proved

* Model: LearnModel, EmSpec. Proof: likelihood as the product over rows of the mass of their observations. Expected counts against posteriors (evidence filtered by d-separation is shown to leave the posterior unchanged), gain by the EM inequality proved over the rationals from weighted AM-GM with integer powers (`EmMath`), no logarithm needed.
* Theorems: `C42_step`, `C42_run`, `C42_elimination`, `C42_observed_parent_refuted`, `C42_different_rows_refuted`, `C42_observed_trained_refuted`, `C42_unseen_parents_refuted`
* C42_step/C42_run: proved for every network, every exact inference method (C42_elimination: variable elimination is one) and every data set of positive likelihood in which the same variables are observed in all rows, the trained variables and their parents are unobserved, and every configuration of the parents is possible with some row. The literal statement is false without these conditions: C42_observed_parent_refuted, C42_different_rows_refuted, C42_observed_trained_refuted exhibit steps that lower the likelihood, C42_unseen_parents_refuted a step whose table does not sum to one; a trained variable on which no observed one bears raises TypeError (second half of C42_step).

### C43 Aggregators accumulate the requested number of models in order: proved

* Model: AggModel. Proof: aggregator state machine with a schedule oracle.
* Theorems: `C43_models`, `C43_delivers`, `C43_raises`, `C43_outcome`, `C43_reset`, `C43_merge`, `C43_learners`, `C43_threaded_refuted`, `C43_failed_refuted`, `C43_em`, `C43_em_ends`
* C43_models, C43_delivers, C43_raises, C43_outcome: every history of run calls (also failing ones), sequential or in threads with any schedule; C43_learners: learn_objects aligned when sequential and no call raised, a permutation per call in threads. Literal alignment refuted in threads (C43_threaded_refuted) and after a run that raised (C43_failed_refuted). C43_em, C43_em_ends: what a task of the EM aggregator delivers. The gradient learner is not modelled beyond the generic task.

### C44 Multi-model inference reports the exact range over its current models: proved

* Model: MultiModel. Proof: programs of statements on inference objects that share lists of models; invariant over programs.
* Theorems: `C44_query`, `C44_range`, `C44_probability_range`, `C44_effect`, `C44_probability`, `C44_shared_refuted`, `C44_emcc_refuted`, `C44_probability_raises`, `C44_stale_domain_refuted`, `C44_order_refuted`
* C44_query, C44_range, C44_probability_range for any kind of inference and every program of set_models/add_models/set_interval/compile/query statements; C44_effect and C44_probability for variable elimination, against the semantics of the models. Hypotheses: models are added only to lists no other object uses, and no object trains its own models; refuted without: C44_shared_refuted (stale compilation via a shared list), C44_emcc_refuted (added models forgotten). Also C44_probability_raises (no states before the first compile), C44_stale_domain_refuted (states looked up in the old models), C44_order_refuted (joint answers with different variable orders raise).

### C45 Derived stores do not share state with their source: proved

* Model: HeapModel. Proof: addresses and cells; footprints; frame property of every operation. A set_value that raises part of the way (possible only on a treedict built from a dictionary that lacks a state) leaves what it has written: C45_failed_set_value_refuted.
* Theorems: `C45_failed_set_value_refuted`, `C45_independent`, `C45_result_independent`, `C45_derived_table`, `C45_derivation_returns`, `C45_set_value_table`, `C45_apart`, `C45_common_dictionary`, `C45_restrict_exact`, `C45_restrict_refuted`, `C45_restrict_nothing_refuted`, `C45_marginalize_refuted`, `C45_marginalize_nothing_refuted`, `C45_shallow_copy_shares`, `C45_shallow_copy_refuted`, `C45_constructor`
* Store objects are modelled in a heap (dictionaries, arrays and lists at addresses). Proved for all inputs: results with data of their own (all derivations of numpy and list stores, all but the shallow copy of numpy1d stores, and for treedict stores every combination, deep copy, removal of variables of which one has several states, restriction used up at the end of each path) are independent of their source in both directions; object operations compute the tables of the table model. The literal claim is false elsewhere, shown by _refuted theorems: treedict restrict (exact condition proved), treedict marginalize of single-state variables or of none, shallow copy of treedict and numpy1d stores.

### C46 Conversion to pgmpy tables and back preserves probabilities: proved

* Model: PgmpyModel. Proof: `toTabularCPT` reshape and pgmpy's table and its inverse.
* Theorems: `C46_roundtrip`, `C46_found`, `C46_exact`, `C46_shape_raises`, `C46_no_left_raises`, `C46_shape_refuted`, `C46_left_first_refuted`, `C46_parents_refuted`, `C46_states_refuted`, `C46_network`, `C46_network_isolated_raises`, `C46_missing_raises`, `C46_deterministic_raises`
* Round trip of a factor and of a whole network, for tables whose domain lists the parents in order and then the variable, and (with more than two variables) whose first variable has as many states as the left one; C46_exact gives the value for every accepted table. The unrestricted statement is false of the code: other shapes raise ValueError (C46_shape_raises, C46_shape_refuted), the left variable first or parents in another order exchange values (C46_left_first_refuted, C46_parents_refuted), integer states are used as positions by pgmpy 0.1.17 (C46_states_refuted), isolated nodes are lost (C46_network_isolated_raises). pgmpy itself is transcribed, not part of the repository.

### C47 identify_true_false returns two distinct states or raises: proved

* Model: CausalModel. Proof: strings with ASCII lower-casing; case analysis over the name lists.
* Theorems: `C47_true_false`, `C47_edges_refuted`, `C47_names`, `C47_lower`
* for every non-empty domain of distinct states; the empty domain raises IndexError and repeated states can be returned twice (C47_edges_refuted)

### C48 Binary trees represent the table they are built from: proved

* Model: BTreeModel. Proof: arbitrary splitting rule and the rule of the code with an arbitrary logarithm; induction on the size of the table.
* Theorems: `C48_any_split`, `C48_any_split_builds`, `C48_lawful`, `C48_built`, `C48_builds_iff`, `C48_nonnegative`, `C48_mass_raises`, `C48_shape_raises`, `C48_default`, `C48_default_raises`, `C48_last_split`, `C48_copy`, `C48_node`, `C48_cut_range`, `C48_negative_cut_raises`
* For every rule that cuts tables in halves, and for the rule of the code with an arbitrary logarithm, a tree that is built gives every full observation the value of the table (C48_any_split, C48_built). The constructor returns exactly when every visited non-constant sub-table has positive mass (C48_builds_iff), so for every table without negative numbers; otherwise it raises (C48_mass_raises). Also proved: the chosen split is always the last cut of the last variable with two states (info_max is never updated); a negative end_left_exclusive is always rejected; copying a constant store raises; the default data are rejected for two or more variables.

### C49 Graph queries on models return sets without repetition: proved

* Model: GraphModel, AccessModel.v. Proof: lists without repetition against arcs.
* Theorems: `C49_children`, `C49_parents`, `C49_blanket`, `C49_relatives`
* also unknown nodes: NetworkXError

### C50 prob and log_prob multiply the tables: proved

* Model: InferModel. Proof: product over the factor list; total by summing out children first.
* Theorems: `C50_prob`, `C50_total`
* prob, for every list of full observations; its total is one.

### C51 submodel returns the model on a subset of the nodes: proved

* Model: ModelModel. Proof: call signature mismatch: every call raises.
* Theorems: `C51_submodel_refuted`
* refuted: submodel raises TypeError for every model and every node set

### C52 d-separation queries follow active trails: proved

* Model: LearnModel, SepSpec. Proof: equivalence of active trails (Bayes-ball rules) and links in the ancestral graph without the arcs out of the evidence, by induction on trails and links.
* Theorems: `C52_test`, `C52_separated`, `C52_connected`, `C52_rejected`
* for targets that are not themselves evidence nodes; C52_rejected covers unknown nodes and cyclic graphs

### C53 Variables reported d-separated are independent: proved

* Model: LearnModel, SepSpec. Proof: the nodes split into the component of the targets, the rest and barren nodes; the sums over them separate.
* Theorems: `C53_independent`, `C53_filter`
* soundness of d-separation for every network; C53_filter for the filter of one row (the deduplication of rows is part of C42/C43)

### C54 Markov blankets shield a variable: proved

* Model: BlanketModel, SepSpec. Proof: observed nodes outside the blanket do not bear on the variable, so the filter lemma of C53 applies; for the usual blanket only arcs out of the variable are open.
* Theorems: `C54_hidden`, `C54_hidden_shields`, `C54_shields`, `C54_no_hidden`, `C54_rejected`, `C54_hidden_members_refuted`
* with hidden nodes, for the observed ones; the blanket returned may contain hidden nodes themselves (C54_hidden_members_refuted)

### C55 The Q-factorisation represents the endogenous distribution: proved

* Model: QModel.v, GraphModel.v, InferModel.v. Proof: Each Q-factor is the result of a conditional query (C29); the product over a topological order of the Q-graph telescopes because every variable is independent of its other predecessors given its Q-graph parents (global Markov property, QFacts1-5).
* Theorems: `C55_qgraph`, `C55_qfactors`, `C55_qbnet`, `C55_undisturbed_raises`
* For models whose factors are all tables. 0/0 is 0 in numpy stores and nan in the others, so the joint probability in the other stores is nan where parents are impossible (stated). C55_undisturbed_raises: an endogenous variable without exogenous parents gets no factor and prob raises AttributeError. Cyclic Q-graphs raise ValueError.

### C56 log_likelihood is the logarithm of the probability of the data: proved

* Model: QModel.v. Proof: The logarithm of a product is the sum of the logarithms in any order; the product over the variables of a row is its probability by C55 (QFacts6, QFacts8).
* Theorems: `C56_log_likelihood`, `C56_variables`, `C56_unknown_raises`, `C56_cyclic_raises`, `C56_factors_raises`
* The logarithm is any function that turns products of positive numbers into sums; floating point rounding is not modelled. Rows of probability zero raise ValueError (math.log).

### C57 max_log_likelihood bounds the log-likelihood of every model with the graph: proved

* Model: QModel.v, DataModel.v. Proof: The Q-factors of data are relative frequencies (C39); the bound for one variable is the AM-GM inequality for each state of the parents (QFacts7, QFacts9), then the product over the variables.
* Theorems: `C57_tables`, `C57_value`, `C57_bound`, `C57_cyclic_raises`
* The bound holds for every model with the graph and any states of the exogenous variables. Whether some model attains it is not claimed. Cyclic Q-graphs raise ValueError.

### C58 Conversions between causal models and Bayesian networks keep the distribution: proved

* Model: ConvModel.v, UaiModel.v, InferModel.v. Proof: The constructor accepts a dictionary of tables that fit the graph (BuildFacts); the table of a deterministic factor has the same entries (C13); a network that is not made of functions fails at the first such variable whatever the order (ConvFacts).
* Theorems: `C58_to_multinomial`, `C58_to_bnet`, `C58_causal_to_bnet`, `C58_joint`, `C58_bnet_to_causal`, `C58_not_functions_raises`, `C58_endogenous_root_refuted`, `C58_own_endogenous_refuted`, `C58_has_deterministic`, `C58_has_deterministic_raises`
* to_multinomial and to_bnet need the roots to be tables: an endogenous root kept as DeterministicFactor stays one and prob of the network raises (C58_endogenous_root_refuted). to_multinomial recomputes the endogenous variables and can refuse a model the constructor accepted (C58_own_endogenous_refuted).

### C59 Models filled with random tables are well formed: proved

* Model: ConvModel.v, GenModel.v, AggModel.v. Proof: Loop invariant: the variables done so far have their new tables and the recorded domains are the given ones; each drawn table is accepted (C17, C18) (ConvFacts2, ConvFacts3).
* Theorems: `C59_fill`, `C59_refill`, `C59_marginal_raises`, `C59_network`, `C59_redraw`, `C59_redraw_in_place`, `C59_endogenous_raises`
* An all-zero column is excluded by the hypothesis on draws (its effect is C17). In place, tables set before an exception stay (C59_redraw_case).

### C60 The gradient learner optimises the likelihood one exogenous variable at a time: proved

* Model: GradModel.v, LearnModel.v. Proof: The counts group the rows by the states of the children and their other parents, so the sum of N*log is the logarithm of a product over rows (GradFacts1, 2); the mass of a row splits into the mixture of U and a rest (GradFacts3); induction over the trained variables for the likelihood; EM's update lemma for the model (GradFacts4).
* Theorems: `C60_objective`, `C60_share`, `C60_run`, `C60_two_causes_refuted`, `C60_names_refuted`, `C60_deterministic_refuted`, `C60_refused`, `C60_unknown_raises`, `C60_network_raises`, `C60_step_first_raises`, `C60_new_raises`
* scipy's minimize is an arbitrary function; what is assumed of it (stays_feasible, descends) is in the statement, and logarithms are any commutative monoid with lg(ab)=lg a+lg b. Three hypotheses of C60_run are shown necessary by C60_two_causes_refuted, C60_names_refuted and C60_deterministic_refuted.

### C61 EMCC and GDCC answer with models that keep the equations and explain the data: proved

* Model: PipeModel.v, AggModel.v, MultiModel.v. Proof: The random start has positive exogenous tables, so explained data has positive probability (PipeFacts); EM's and the gradient learner's run theorems give the models; an invariant over programs says what the object holds (PipeFacts2); the effect theorem of the multi-model object gives the answers (PipeFacts3). What the optimiser raises is followed through a training (PipeFacts6).
* Theorems: `C61_emcc`, `C61_gdcc`, `C61_questions`, `C61_emcc_effect`, `C61_gdcc_effect`, `C61_inner_refuted`, `C61_number_raises`, `C61_training_raises`, `C61_optimiser_raises`, `C61_unknown_raises`, `C61_evolution`, `C61_threads_refuted`
* Composes the claims C41-C44, C59 and C60. Finding nothing outside the interval is not guaranteed (C61_inner_refuted), nor that get_model_evolution(i) belongs to model i with threads (C61_threads_refuted). Incremental compilation is C62.

### C62 Incremental compilation adds models until enough are there: proved

* Model: PipeModel.v, MultiModel.v. Proof: Invariant over programs: the object's list belongs to no other object and contains exactly the models of its turns (PipeFacts4); the effect theorem of C44 gives the answers, and the models of later turns extend those of earlier ones (PipeFacts5).
* Theorems: `C62_turns`, `C62_questions`, `C62_effect`, `C62_nested`, `C62_shared_refuted`, `C62_step_raises`, `C62_training_raises`, `C62_other_raises`
* A question to the object before its first turn (which trains num_runs models by compile) is excluded by the relation grows. Sharing the list of models with another object breaks the claim (C62_shared_refuted).

### C63 EM stops only at tables that make the data as likely as possible: proved

* Model: LearnModel.v. Proof: The new table of a step is the old one times a ratio of expected counts; the inequality of the means over the rows bounds the likelihood of any other table by the largest ratio to the power of the number of rows (OptFacts1, OptFacts2). Zeros of the other tables are preserved by the steps. Along the run, sole causes do not interact (the likelihood is a product of factors, one per exogenous variable), so that a table stays a best one while others change (OptFacts3, OptFacts4); the product of the maxima is the maximum over all models with the same equations.
* Theorems: `C63_gap`, `C63_fixed`, `C63_positive`, `C63_kept`, `C63_run`, `C63_zero_refuted`, `C63_shared_refuted`
* Exact arithmetic, and for C63_run a stopping rule that accepts only equal tables (the code's rule accepts small divergences; C63_gap bounds what such a table can miss). Zeros in the start (C63_zero_refuted) and shared children (C63_shared_refuted) break the claim.

### C64 Expressions written with the operators of factors compute what they denote: proved

* Model: OpModel.v, FactorModel.v, GenModel.v. Proof: Python's choice of the method for an operator is modelled for every pair of operand classes; expressions are evaluated with it (OpModel). The meaning of an expression is given separately as a table with left variables (OpSpec); one lemma per operator and induction over the expression (OpFacts1). The laws are consequences: the two sides denote the same table (OpFacts2), combine_all by induction over the list (OpFacts3). Stores of integer states are read as stores of numbers (OpFacts4). A function with boolean states counts True as 1 and False as 0 (C64_logical_operand).
* Theorems: `C64_logical_operand`, `C64_expression`, `C64_chain_rule`, `C64_conditional`, `C64_sum_twice`, `C64_sum_of_product`, `C64_distributive`, `C64_combine_all`, `C64_order_irrelevant`, `C64_number_left_raises`, `C64_operand_raises`, `C64_classes_raises`, `C64_interval_raises`, `C64_unavailable`, `C64_max_raises`, `C64_combine_none_raises`, `C64_first_raises`, `C64_sampling_raises`, `C64_function_operand`, `C64_function_divisor`, `C64_function_class_raises`, `C64_function_product_refuted`, `C64_interval_prob`
* Finite values, exact arithmetic. `^` is not available for one-dimensional numpy stores (C64_max_raises). `2 * f` raises although `f * 2` works (C64_number_left_raises). With a deterministic factor on the right the operators compute with its integer states as if they were values of a table (C64_function_operand, C64_function_product_refuted); string states there are outside the model.

### C65 Joining models at common roots gives the network with all their tables: proved

* Model: CausalModel.v. Proof: `fusion_roots` for any number of models of both classes. The result is shown to be a network by the construction lemmas of C32 for any list of parts (FusionFacts); marginals by dropping the barren nodes of the other parts, independence by d-separation: no active trail leaves a part (FusionFacts2); exceptions by induction over the list of checks (FusionFacts3).
* Theorems: `C65_fusion`, `C65_marginal`, `C65_independent`, `C65_lonely_raises`, `C65_unknown_raises`, `C65_not_root_raises`, `C65_roots_refuted`, `C65_common_refuted`, `C65_classes_raises`, `C65_none_raises`, `C65_endogenous_raises`
* Multinomial factors (not deterministic ones). C65_roots_refuted: the k-th common node is tested in the k-th model only, so a node with parents in another model passes. C65_common_refuted: common nodes that are not listed are not noticed, the table of the last model stays. C65_lonely_raises: a later model with a node without arcs cannot be joined.

### C66 A deterministic factor read from a data frame is the function its rows tabulate: proved

* Model: FrameModel.v. Proof: pd.Categorical, sort_values and the reshape are modelled on rows of optional states. The sorted rows and the enumeration of all configurations with their values are both sorted permutations of the table, so they are equal (FrameFacts.sorted_unique, product_sorted); the value then sits at the row-major position of its configuration. NaN among states that are not strings is not modelled.
* Theorems: `C66_function`, `C66_column_refuted`, `C66_caller`, `C66_stranger_refuted`, `C66_repeated_refuted`, `C66_size_raises`, `C66_name_raises`, `C66_unknown_raises`, `C66_left_raises`, `C66_empty_raises`
* Holds when the values are in the last column and no other column's name is part of its name. Refuted elsewhere: another left column, repeated rows that make up for missing ones, and values that are no states are accepted silently (C66_column_refuted, C66_repeated_refuted, C66_stranger_refuted).

### C67 A model saved to a file and read again is the same model but for the names of its states: proved

* Model: FileModel.v. Proof: The file system is a dictionary of texts and a list of folders; pgmpy's writers and readers, Path.parent and Path.absolute are quantified over. The tables that come back are related to those written one by one (restated); each read table is a factor with the same values under renamed states (FileFacts.table_read), and the network is rebuilt with the lemmas of C46 (FileFacts2.net_read). The values of restored states are found whatever the order of the dictionary of states. Printing and logging are not modelled.
* Theorems: `C67_bif`, `C67_joint`, `C67_isolated_raises`, `C67_causal`, `C67_uai`, `C67_no_folder`, `C67_no_folder_raises`, `C67_folder_raises`, `C67_unconverted_raises`, `C67_no_file_raises`, `C67_format_raises`
* pgmpy's writers and readers are quantified over; that they keep the network but for the names of states and some orders is a hypothesis (carried), with a concrete case. Networks with isolated nodes are saved but not read (C67_isolated_raises).

### C68 PN, PS and PNS satisfy the identities and bounds of Tian and Pearl: proved

* Model: CausalModel.v, InferModel.v. Proof: Every answer is turned into a sum over the units (assignments of the exogenous variables): C31's truncated factorisation by LawFacts.do_units, C33's masses directly. Each unit has one solution under each intervention (units of C32), which gives consistency (LawFacts.composition) and the eight response types; an inequality between linear combinations of answers is then checked unit by unit (LawFacts2.comb_nonneg, comb_zero).
* Theorems: `C68_frechet`, `C68_identity`, `C68_bounds`, `C68_difference`, `C68_monotone`, `C68_duality`
* All claims are about the numbers that the code returns; hypotheses as in C33 (cause with a child, fresh names of copies, plain roots).

### C69 Interventional queries obey the calculus of interventions: proved

* Model: CausalModel, InferModel, ModelModel, GraphModel. Proof: the code never uses the rules; they are consequences of C31. For a network and an intervention d, CalcFacts1 builds the network in which children of d see the states of d but d keep their tables: its graph is the one without arcs out of d, its marginals outside d are those of the intervention and its probabilities of events with d those of the observation. d-separation in it (C53) gives rule 2; cutting the tables of nodes that do not lead to the event gives the independence of interventions that are not above it; interventions under interventions are networks again (CalcFacts3). Rule 3 follows from the other two. The formulas are sums over these (CalcFacts5), consistency is composition in every unit (CalcFacts6)
* Theorems: `C69_ignore_evidence`, `C69_act_or_observe`, `C69_ignore_intervention`, `C69_back_door`, `C69_front_door`, `C69_consistency`
* Rule 3 is proved for interventions d1 (not above the evidence) and d2 (the others), with the arcs into d1 cut; it assumes in addition that observing d2 with z is possible under do(w, d1) (void if d2 is empty). Adjustment sets are listed in the order of the domain.

### C70 Canonical equations express every conditional table, every distribution of responses and every network: proved

* Model: GenModel.v, FactorModel.v, ModelModel.v, CausalModel.v. Proof: C18 gives that the states of the exogenous variable are in bijection with the functions (CanonFacts2.val_exists). A mechanism is pushed forward along this bijection (CanonFacts1.push_event). For a conditional table the weight of a function is the product of the probabilities of its values; the sum over the functions with one value fixed is the table's entry because every other row sums to 1 (CanonFacts1.sum_at, CanonFacts4.wt_at). For a network every table is replaced in this way; the sum over the new variables of the product of all tables is the product of the sums (CanonFacts6.sm_prod), each of which is the table of the network, or 1 for an intervened variable (CanonFacts6.x_do).
* Theorems: `C70_responses`, `C70_tables`, `C70_uniform`, `C70_networks`, `C70_answers`
* VNumpy needs exactly one endogenous parent, as for C18 (C18_numpy_parents), so networks, which have roots, are covered for the other store types.

### C71 Replacing the equations of a Markovian structural model by canonical ones changes no counterfactual: proved

* Model: GenModel.v, ModelModel.v, CausalModel.v. Proof: The function that a state of an exogenous variable selects for its child (the equation at that state, as a function of the other parents) is one of the functions of the canonical equation, since those are all (C18, C70). Each canonical state gets the mass of the states with its function (`CanonFacts8`). For given exogenous states the two models have the same solutions in every world by induction along the graph, so an event depends only on the selected functions; summing the product of the exogenous masses function by function gives the equality (`CanonFacts9`). The answers of the queries follow with C32 and C33 (`CanonFacts10`). The example replaces three exogenous states of each of two variables by two and four.
* Theorems: `C71_counterfactuals`, `C71_queries`
* Markovian: every variable other than the roots has exactly one exogenous parent, shared with no other variable. The exogenous variables keep their names and get other states. The numpy store is excluded because its canonical equations need exactly one endogenous parent (C18).

### C72 Renaming the variables of a model changes nothing but names: proved

* Model: ModelModel (`relabel`, `fo_rename`, `m_rename`), FactorModel (`mf_rename`, `df_rename`). Proof: factors keep their values under the new names (RenameFacts1); the specifications of probability, intervention and counterfactual are invariant under an injective renaming (RenameFacts2); the constructor accepts the renamed factors over the relabelled graph (RenameFacts3); queries through C26 and C31 (RenameFacts4).
* Theorems: `C72_network`, `C72_causal`, `C72_uncovered_raises`, `C72_queries`, `C72_causal_queries`, `C72_collision_refuted`
* For structural causal models the mapping must cover the endogenous variables (C72_uncovered_raises states the KeyError). If two variables get one name the model may be built with one variable less and no error (C72_collision_refuted).

### C73 Domain and enumeration utilities: proved

* Model: UtilModel.v: the functions line by line; itertools.combinations as its documented order; reshape(order="F").ravel() as column-major reading of a flat list. Proof: By induction on the list, the domain or the shape. The sub-lists are an inductive relation, column-major order is row-major order of the reversed shape (UtilSpec.v); reordering is a permutation because positions are injective
* Theorems: `C73_create`, `C73_create_raises`, `C73_no_states_refuted`, `C73_strides`, `C73_numeric`, `C73_powerset`, `C73_reorder`, `C73_reorder_raises`, `C73_as_lists`
* C73_no_states_refuted states that a size below one is accepted and leaves a variable without states.

### C74 Counterfactual answers obey the axioms of counterfactuals: proved

* Model: No new definitions: the queries of C31 and C32.. Proof: An answer is a sum over the units (states of the exogenous variables), and in a unit the event of a query splits into one condition for each target. Exclusion is proved by induction along the order of the graph: the two solutions of a unit agree on every variable that the added interventions do not reach. Composition uses the uniqueness of the solution of a unit.
* Theorems: `C74_worlds`, `C74_exclusion`, `C74_composition`, `C74_nondescendants`, `C74_average`
* Each relation is a theorem about the answers of the model's counterfactual_query, with the conditions under which the queries are defined (well_posed) as hypotheses.

### C75 The elimination costs measure the tables that variable elimination creates: proved

* Model: No new definitions: the ordering of C25, minimalize of C28 and the rounds of C26.. Proof: A table of a round is found by induction on the eliminations: its variables are those joined to the eliminated variable by a path through eliminated ones, and it is kept because its left part contains a descendant that stays. minimalize removes barren nodes, so each node left that is neither a target nor observed has a walk to one that is.
* Theorems: `C75_bound`, `C75_exact`, `C75_barren_refuted`, `C75_query`, `C75_smallest`
* C75_bound holds for every network; C75_exact needs that each eliminated variable has a descendant that stays, C75_query shows that compiled models satisfy it, and C75_barren_refuted that it cannot be dropped.

### C76 Infinite and undefined values are handled as limits: proved

* Model: Num (the arithmetic under all value stores). Proof: Limits of sequences of rationals: uniqueness, sums, products and reciprocals, and for each NaN two pairs of sequences with different limits.
* Theorems: `C76_unique`, `C76_reached`, `C76_add`, `C76_subtract`, `C76_multiply`, `C76_divide`, `C76_divide_zero`, `C76_less`, `C76_maximum`, `C76_python_max`, `C76_scale`, `C76_nan_to_num`
* About exact rationals with the special values of floats; rounding, overflow and signed zeros are not modelled.

### C77 The answers to different queries fit together: proved

* Model: ve_query and causal_query (InferModel.v, CausalModel.v) together with mf_marginalize, mf_restrict, mf_divide, mf_multiply (FactorModel.v); CoherSpec.v says when two tables answer alike. Proof: CoherFacts.v: any engine that answers with the probabilities of some network satisfies the first two relations (sums of the joint over more variables); variable elimination is such an engine by C26, causal queries by C31 and the network of the intervention; the conditional tables by C29
* Theorems: `C77_marginalize`, `C77_observe`, `C77_given`, `C77_chain`, `C77_do_marginalize`, `C77_do_observe`
* C77_marginalize, C77_observe, C77_given, C77_chain for VariableElimination; C77_do_marginalize, C77_do_observe for causal_query. Evidence must have nonzero probability. The second part of C77_chain says exactly what happens at impossible states of the conditioning variables: 0 with the numpy store, NaN with the others.

### C78 Samples have the distribution of the model, and frequencies converge to its probabilities: proved

* Model: forward_sampling (DataModel.v), laplace_query (DataModel.v), ve_query (InferModel.v); SampleSpec.v defines regions, volumes, the probability of a set of samples and frequencies. Proof: SampleFacts.v: the row lemma of C38 turns each row into intervals of lengths the entries of the tables; SampleMath.v: mean and variance of counts over independent outcomes by induction on n, Chebyshev's inequality; SampleFacts2.v, SampleFacts4.v (also sampleEndogenous): LaplaceInference answers frequencies (C39), variable elimination probabilities (C26, C29); two frequencies close to their probabilities have a ratio close to the conditional probability; SampleFacts3.v: the intervened model is a network with nonnegative tables whose probabilities are the interventional ones (C14, C30)
* Theorems: `C78_sample`, `C78_volume`, `C78_total`, `C78_rows`, `C78_endogenous`, `C78_endogenous_chance`, `C78_mean`, `C78_variance`, `C78_large_numbers`, `C78_limit`, `C78_laplace`, `C78_conditional`, `C78_do`
* C78_sample and C78_volume describe the regions of the numbers drawn (the variables listed in the order in which they are drawn), C78_total says the probabilities of all samples add up to one, C78_rows is the independence of the rows, C78_endogenous and C78_endogenous_chance say the same of sampleEndogenous, C78_mean and C78_variance the mean and variance of a frequency, C78_large_numbers is Chebyshev's inequality, C78_limit, C78_laplace and C78_conditional the limits. The generator's numbers are modelled as rationals in [0,1); probability of a region means its volume, so independence and uniformity of numpy's generator is what is assumed, not proved. C78_do: samples of an intervened causal model (its deterministic factors converted, as CausalVariableElimination does) give the answers of causal_query in the limit.

## Findings about the code

Each is a theorem named above unless marked (read only). They concern the code as it is at the pinned commit.

* Wrong results without an exception: EM steps that lower the likelihood when a trained variable has an observed parent, when rows miss different variables, or when an observed variable with hidden parents is trained (C42); EM rows that do not sum to one for parent states of probability zero (C42); a second `run` of a converged EM learner returns the untrained prior (C41); stale compiled models in multi-model inference through shared lists, models added to `EMCC` forgotten (C44); UAI files with values written in exponent notation (C36) and intervened variables read back as exogenous (C37); tables with other variable orders through pgmpy (C46); Laplace inference with missing values (C39); list observations and pruned trees in `restrict` (C05); repeated or absent variables and state orders that give different results for different stores (C10); set-valued domain checks that let factors disagree (C24); a Q-graph with a cycle (C35); `random_multinomial` with an all-zero column (C17); learned models and learn objects out of step in threads (C43); the gradient learner lowers the likelihood when a variable has two exogenous parents, since it gives both of them the same state (C60).
* Exceptions on sensible input: `submodel` always (C51), `canonical_deterministic` with numpy stores unless there is one endogenous parent (C18), counterfactual queries when an intervened variable has no child left (C32, C33), causal queries with deterministic roots (C31), isolated nodes in UAI and DAG strings (C22, C36, C37), sampling of models with deterministic factors (C38), EM when no observed variable bears on a trained one (C42), binary trees of tables with zero or negative mass and copies of constant binary trees (C48); `get_qbnet`, `log_likelihood` and `max_log_likelihood` when the Q-graph has a cycle although the model has none, `prob` of the Q-network when an endogenous variable has no exogenous parent, `log_likelihood` when a row is impossible (C55-C57); `prob` of `to_bnet` when an endogenous root is a deterministic factor, `to_multinomial` when a variable with parents is declared exogenous (C58); `fill_random_marginals` for the same kind of model (C59); the gradient learner when the name of a trained variable contains another name, when an equation is a deterministic factor, and any `step` before `run` (C60).
* Aliasing: restricted or marginalized treedict stores share nodes with their source; shallow copies of treedict and numpy1d stores share data (C45).
* Unchecked arguments: transposed arrays in the list stores, arrays of any size in the tree store, repeated states (C03); `right_vars` given alone (C12); names of deterministic factors (C14).
* Operators: `2 * factor` raises (`__rmul__` calls a method of the number); `f * g` with a deterministic `g` computes with the states of `g` as numbers (C64).
* (read only) `right_endo_vars=None` raises; heuristics ignore their `random_state`; `ExpectationMaximization.run` adds columns to the caller's data frame.

## Mutation testing

`seeded/LOG.jsonl` has one line per wrong program: the definition edited, the edit, the claim it breaks, the lemmas and theorems that stopped proving, and what was tightened. Edits whose claim is still true are marked as such.
