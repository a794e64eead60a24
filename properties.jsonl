{"id": "C01", "title": "Assignment enumeration is complete, duplicate free and row-major", "statement": "state_space(domain) / assingment_space(domain) list every joint assignment of the domain exactly once, there are prod(|states|) of them, and they come in row-major order (the last variable of the domain changes fastest).", "quantifier": "every domain dictionary (any number of variables, any state lists)", "why_tests_cant": "A test samples a handful of domains; the order and completeness must hold for every number of variables and every cardinality.", "anchors": ["bcause/util/domainutils.py:state_space", "bcause/util/domainutils.py:assingment_space"]}
{"id": "C02", "title": "Flat index agrees with the enumeration", "statement": "index_list(domain, observation) returns exactly the positions, in increasing order, of the assignments in assingment_space(domain) that agree with the observation; for a full observation this is the single position of that assignment; observations of unknown variables are ignored and an unknown state of a known variable raises.", "quantifier": "every domain without repeated states and every observation dictionary", "why_tests_cant": "The index arithmetic (mixed radix) has unboundedly many shapes; off-by-one errors show only for some cardinalities and variable positions.", "anchors": ["bcause/util/domainutils.py:steps", "bcause/util/domainutils.py:index_iterator", "bcause/util/domainutils.py:index_list", "bcause/util/domainutils.py:values_to_coord", "bcause/util/domainutils.py:restrict_domain"]}
{"id": "C03", "title": "A constructed factor returns the values it was given", "statement": "For every store type, building a MultinomialFactor from a row-major flat list, a correctly shaped array or a scalar succeeds and get_value of a full observation is the value at that observation's row-major position (the scalar everywhere); values_list/values return the row-major list back; a flat list of any other length raises ValueError, and so does a domain with an empty or mixed-type state list or a name starting with an underscore.", "quantifier": "every domain, every list of values, every store type (numpy, numpy1d, list, treedict)", "why_tests_cant": "Universally quantified over table shapes and four independent storage layouts.", "anchors": ["bcause/factors/mulitnomial.py:MultinomialFactor.__init__", "bcause/factors/values/numpystore.py", "bcause/factors/values/liststore.py", "bcause/factors/values/treedictstore.py", "bcause/util/treesutil.py:build_default_tree", "bcause/factors/values/store.py:values_list"]}
{"id": "C04", "title": "set_value changes exactly one entry", "statement": "After store.set_value(x, obs) with a full observation, get_value(obs) is x and get_value of every other full observation is what it was before; the domain is unchanged.", "quantifier": "every store type, every well-formed store, every pair of full observations", "why_tests_cant": "Frame conditions quantify over all other entries of all tables.", "anchors": ["bcause/factors/values/numpystore.py:set_value", "bcause/factors/values/liststore.py:set_value", "bcause/factors/values/treedictstore.py:set_value"]}
{"id": "C05", "title": "restrict fixes the observed variables and nothing else", "statement": "store.restrict(**obs) (and factor.restrict / R) returns a table over exactly the unobserved variables, in their original order and with their original states, whose value at any full observation of those variables is the original value at that observation extended with obs. Observed variables that are not in the domain are ignored; an observed state that is not in the variable's domain raises.", "quantifier": "every store type, every table, every observation", "why_tests_cant": "Needs every table shape and every subset of observed variables.", "anchors": ["bcause/factors/values/numpyops.py:restrict", "bcause/factors/values/listops.py:restrict", "bcause/factors/values/numpystore.py:Numpy1DStore.restrict", "bcause/factors/values/treedictops.py:restrict", "bcause/factors/mulitnomial.py:restrict"]}
{"id": "C06", "title": "multiply, addition and subtract are pointwise on the union domain", "statement": "f*g, f+g and f-g are defined over the variables of f followed by the new variables of g, and their value at any full observation is the product / sum / difference of the operands' values at it, for operands of the same store type whose shared variables have the same states; operands of different store types raise ValueError.", "quantifier": "every store type and every pair of tables that agree on shared variables", "why_tests_cant": "Broadcasting, axis reordering and repetition are only exercised on a few shapes by tests.", "anchors": ["bcause/factors/values/numpyops.py:_generic_combine", "bcause/factors/values/numpyops.py:_reorder", "bcause/factors/values/numpyops.py:_extend_domain", "bcause/factors/values/listops.py:_generic_combine", "bcause/factors/values/operations.py:GenericOperations._generic_combine", "bcause/factors/values/treedictops.py:_combine_dict"]}
{"id": "C07", "title": "divide is pointwise and its zero-division convention is fixed", "statement": "f/g is pointwise division on the union domain wherever the divisor is not 0. Where the divisor is 0 the numpy store returns 0 for 0/0 and the largest float (with sign) otherwise, so results of finite operands are always finite; the other stores give NaN / infinity.", "quantifier": "every pair of compatible tables, every store type", "why_tests_cant": "Zero divisors appear in data-dependent places; the claim is over every pair of tables.", "anchors": ["bcause/factors/values/numpyops.py:divide", "bcause/factors/values/listops.py:divide", "bcause/factors/values/treedictops.py:divide", "bcause/factors/mulitnomial.py:divide"]}
{"id": "C08", "title": "marginalize sums out exactly the given variables", "statement": "store.marginalize(*vs) for distinct variables vs of the domain returns a table over the remaining variables, in order, whose value at an observation is the sum of the original values over all assignments of vs; the order in which vs are listed does not matter.", "quantifier": "every store type, every table, every duplicate-free list of its variables", "why_tests_cant": "Sums over unboundedly many axes and shapes.", "anchors": ["bcause/factors/values/numpyops.py:marginalize", "bcause/factors/values/listops.py:marginalize", "bcause/factors/values/operations.py:GenericOperations.marginalize", "bcause/factors/values/treedictops.py:marginalize", "bcause/factors/mulitnomial.py:marginalize"]}
{"id": "C09", "title": "maxmarginalize takes the maximum over exactly the given variables", "statement": "store.maxmarginalize(*vs) returns a table over the remaining variables whose value is the maximum of the original values over all assignments of vs (an upper bound that is attained); numpy1d raises NotImplementedError.", "quantifier": "every store type implementing it, every table with finite values, every duplicate-free list of variables", "why_tests_cant": "Universal over tables and variable subsets.", "anchors": ["bcause/factors/values/numpyops.py:maxmarginalize", "bcause/factors/values/listops.py:maxmarginalize", "bcause/factors/values/treedictops.py:maxmarginalize", "bcause/factors/values/operations.py:GenericOperations.maxmarginalize"]}
{"id": "C10", "title": "Results do not depend on the store type", "statement": "Evaluating the same expression of restrict / multiply / addition / subtract / divide-by-nonzero / marginalize operations over the same tables with vtype numpy, numpy1d, list or treedict gives the same domain and the same value at every observation.", "quantifier": "every expression built from the operations (any depth), every table, every pair of store types", "why_tests_cant": "Quantifies over all programs of factor operations; differential tests only sample.", "anchors": ["bcause/factors/values/__init__.py:store_dict", "bcause/factors/values/store.py", "bcause/factors/mulitnomial.py"]}
{"id": "C11", "title": "Factor algebra laws used by inference", "statement": "Multiplication is commutative and associative as a function of observations, and summing a variable out of f*g when it does not occur in f equals f times the sum of it out of g.", "quantifier": "all compatible factors of one store type", "why_tests_cant": "Algebraic identities over all tables.", "anchors": ["bcause/factors/mulitnomial.py:multiply", "bcause/factors/mulitnomial.py:marginalize", "bcause/inference/probabilistic/elimination.py:run"]}
{"id": "C12", "title": "Left/right variable bookkeeping", "statement": "Every factor operation returns a factor whose left and right variables partition its domain: product and sum have as left variables the union of the operands' left variables; restrict and marginalize keep each remaining variable on its side; f/g moves the variables of g to the right; inconsistent left/right arguments of the constructor raise ValueError.", "quantifier": "all factors and operations", "why_tests_cant": "The bookkeeping decides which factors inference may drop, so it must be right for every variable order and overlap.", "anchors": ["bcause/factors/factor.py:ConditionalFactor.set_variables", "bcause/factors/mulitnomial.py:multiply", "bcause/factors/mulitnomial.py:divide", "bcause/factors/mulitnomial.py:restrict", "bcause/factors/mulitnomial.py:marginalize"]}
{"id": "C13", "title": "constant(x) is the point mass at x", "statement": "factor.constant(x) on a factor with one left variable returns a factor over that variable alone with value 1 at x and 0 elsewhere, and raises ValueError when x is not a state or there is more than one left variable.", "quantifier": "every factor and every value", "why_tests_cant": "Universal over domains; interventions rely on it.", "anchors": ["bcause/factors/mulitnomial.py:constant", "bcause/factors/deterministic.py:constant"]}
{"id": "C14", "title": "Deterministic factors and their multinomial form agree", "statement": "DeterministicFactor.to_multinomial() has value 1 at the observation where the left variable equals the function value of its parents and 0 elsewhere, hence sums to 1 over the left variable whenever the function values are states; to_deterministic() of it returns the index of that state for every parent configuration.", "quantifier": "every structural equation over finite domains", "why_tests_cant": "Universal over functions and domain orders.", "anchors": ["bcause/factors/deterministic.py:to_multinomial", "bcause/factors/deterministic.py:eval", "bcause/factors/mulitnomial.py:to_deterministic"]}
{"id": "C15", "title": "values_array permutes axes faithfully", "statement": "factor.values_array(var_order) for a permutation var_order of the variables is the array whose entry at a multi-index is get_value of the corresponding states.", "quantifier": "every factor, every permutation of its variables", "why_tests_cant": "Universal over permutations.", "anchors": ["bcause/factors/factor.py:values_array"]}
{"id": "C16", "title": "Renaming variables preserves the table", "statement": "factor.rename_vars(mapping) with a mapping that is injective on the variables gives a factor with the renamed domain, left and right variables and the same value at every renamed observation.", "quantifier": "every factor and every injective renaming", "why_tests_cant": "Universal over renamings.", "anchors": ["bcause/factors/factor.py:rename_vars", "bcause/models/pgmodel.py:rename_vars"]}
{"id": "C17", "title": "Generated conditional tables are normalised", "statement": "random_multinomial and uniform_multinomial return tables that sum to 1 over the left variables for every configuration of the right variables, whatever positive numbers the generator draws; random_deterministic has exactly one 1 (and 0 elsewhere) per configuration of the right variables whatever is drawn.", "quantifier": "every domain, every choice of right variables, every outcome of the random generator", "why_tests_cant": "Quantifies over all random outcomes, not a seed.", "anchors": ["bcause/factors/mulitnomial.py:random_multinomial", "bcause/factors/mulitnomial.py:uniform_multinomial", "bcause/factors/mulitnomial.py:random_deterministic", "bcause/util/arrayutils.py:normalize_array"]}
{"id": "C18", "title": "The canonical specification enumerates every function exactly once", "statement": "canonical_deterministic(domain, exo_var, parents) assigns to the states of the exogenous variable all functions from parent configurations to the child's states, each exactly once, when the exogenous cardinality is |X|^(number of parent configurations), and raises otherwise.", "quantifier": "every domain and set of endogenous parents", "why_tests_cant": "Exponentially many functions; universal over domains.", "anchors": ["bcause/factors/deterministic.py:canonical_deterministic"]}
{"id": "C19", "title": "Interval factors are the tight envelope of their precise factors", "statement": "IntervalProbFactor.from_precise(fs) has at every observation a low (up) value that is <= (>=) the value of each f and is attained by some f; restrict commutes with taking the envelope; different domains raise ValueError.", "quantifier": "every non-empty list of factors over one domain", "why_tests_cant": "Universal over families of tables.", "anchors": ["bcause/factors/imprecise.py:from_precise", "bcause/factors/imprecise.py:restrict"]}
{"id": "C20", "title": "Barren nodes are exactly the non-ancestors of the relevant set", "statement": "barren_nodes(dag, S) is the set of nodes that are neither in S nor an ancestor of a node of S, and barren_removal(dag, S) is the induced subgraph on the others.", "quantifier": "every DAG and every node set S", "why_tests_cant": "Iterative pruning must reach the fixed point on every graph.", "anchors": ["bcause/util/graphutils.py:_barren_info", "bcause/util/graphutils.py:barren_nodes", "bcause/util/graphutils.py:barren_removal"]}
{"id": "C21", "title": "Models accept exactly acyclic graphs", "statement": "Constructing a BayesianNetwork or StructuralCausalModel on a directed graph raises ValueError if the graph has a directed cycle and succeeds (without factors) otherwise.", "quantifier": "every directed graph", "why_tests_cant": "Universal over graphs.", "anchors": ["bcause/models/pgmodel.py:DiscreteDAGModel._initialize"]}
{"id": "C22", "title": "DAG string notation round trips", "statement": "str2dag(dag2str(g)) has the same arcs and the same nodes as g (names free of the delimiter characters).", "quantifier": "every DAG", "why_tests_cant": "Isolated nodes and single-node graphs are easily missed by tests.", "anchors": ["bcause/util/graphutils.py:dag2str", "bcause/util/graphutils.py:str2dag"]}
{"id": "C23", "title": "Models only ever hold structurally valid factors", "statement": "With checks on, after any sequence of set_factor calls (successful or raising) every stored factor has its own node as only left variable and the node's parents as right variables, with the node's recorded domain; a call that raises leaves the model unchanged.", "quantifier": "every history of set_factor calls on every graph", "why_tests_cant": "An invariant over all histories, including failing calls.", "anchors": ["bcause/models/pgmodel.py:set_factor", "bcause/models/cmodel.py:set_factor"]}
{"id": "C24", "title": "All factors of a model agree on the domains of shared variables", "statement": "With checks on, after any sequence of successful set_factor calls, two factors mentioning the same variable have the same states for it (in the same order, which positional arithmetic relies on).", "quantifier": "every history of set_factor calls", "why_tests_cant": "History dependent: only some orders of calls expose it.", "anchors": ["bcause/models/pgmodel.py:set_factor"]}
{"id": "C25", "title": "Elimination orderings are greedy permutations", "statement": "Every built-in heuristic returns each variable to remove exactly once, and at each step the chosen variable has minimal cost in the current moral graph, whatever tie is chosen.", "quantifier": "every DAG, every list of variables to remove, every tie-breaking outcome", "why_tests_cant": "All tie-breaking outcomes and all graphs.", "anchors": ["bcause/inference/ordering.py:_get_elim_ordering", "bcause/inference/ordering.py:fillin_arcs"]}
{"id": "C26", "title": "Variable elimination returns the exact posterior", "statement": "VariableElimination(model).query(target, evidence=e) returns, for every Bayesian network with normalised conditional tables and evidence of positive probability, a factor over the target variables with value P(target | e) computed from the product of all tables; in particular it is normalised.", "quantifier": "every discrete Bayesian network, every target set, every evidence of positive probability, every elimination order the heuristic may return, every store type", "why_tests_cant": "Exactness must hold for all networks, orders and queries; tests compare a few numbers.", "anchors": ["bcause/inference/probabilistic/elimination.py:run", "bcause/inference/probabilistic/probabilistic.py:compile", "bcause/inference/probabilistic/probabilistic.py:query"]}
{"id": "C27", "title": "The answer does not depend on the elimination heuristic", "statement": "Two VariableElimination objects with different heuristics (or different tie breaking) give the same value at every observation.", "quantifier": "every pair of orderings", "why_tests_cant": "All permutations of the hidden variables.", "anchors": ["bcause/inference/probabilistic/elimination.py", "bcause/inference/ordering.py"]}
{"id": "C28", "title": "Minimalization preserves the posterior", "statement": "minimalize(model, target, evidence) drops only nodes that do not influence the query: the posterior of the target given the evidence computed from the remaining factors equals the one computed from the full model, whenever the evidence has positive probability.", "quantifier": "every network, target set and evidence", "why_tests_cant": "Universal over graphs; relevance pruning errors appear on particular structures only.", "anchors": ["bcause/models/transform/simplification.py:minimalize", "bcause/util/graphutils.py:disconnected_nodes", "bcause/util/graphutils.py:remove_outgoing_edges"]}
{"id": "C29", "title": "Conditional queries return conditional distributions", "statement": "query(target, conditioning=c, evidence=e) returns P(target | c, e) at every configuration of c with positive probability and 0 at the others (numpy store).", "quantifier": "every network, target, conditioning set and evidence of positive probability", "why_tests_cant": "Universal over networks and configurations.", "anchors": ["bcause/inference/probabilistic/probabilistic.py:query"]}
{"id": "C30", "title": "Intervention is graph surgery with truncated factorisation", "statement": "model.intervention(**do) removes exactly the arcs into the intervened variables, replaces exactly their factors by the point mass at the given value, keeps all other factors, and its joint distribution is the product of the untouched tables where the intervened variables have the given values and 0 elsewhere.", "quantifier": "every SCM and every intervention", "why_tests_cant": "Universal over models and interventions.", "anchors": ["bcause/models/cmodel.py:intervention", "bcause/util/graphutils.py:remove_ingoing_edges"]}
{"id": "C31", "title": "causal_query returns the interventional distribution", "statement": "CausalVariableElimination(model).causal_query(target, do, evidence) equals the conditional distribution of the target given the evidence in the truncated factorisation for do.", "quantifier": "every SCM, target, intervention and evidence of positive interventional probability", "why_tests_cant": "Universal over models and queries.", "anchors": ["bcause/inference/causal/causal.py:compile", "bcause/inference/causal/causal.py:causal_query", "bcause/inference/causal/elimination.py"]}
{"id": "C32", "title": "counterfactual_query computes abduction-action-prediction", "statement": "counterfactual_query(target, do, evidence) equals sum_u P(u | evidence) [target under do in world u has the given value], i.e. Pearl's counterfactual semantics on the SCM, including several interventions (worlds) at once.", "quantifier": "every SCM with deterministic equations, every list of interventions and evidence of positive probability, names without clashes", "why_tests_cant": "The multi-world construction must be right for every model; tests check a few numbers.", "anchors": ["bcause/inference/causal/causal.py:_preprocess", "bcause/models/transform/combination.py:fusion_roots", "bcause/models/cmodel.py:rename_vars"]}
{"id": "C33", "title": "PN, PS and PNS have their textbook meaning", "statement": "prob_necessity(c,e) = P(E_{c=F}=F | c=T,e=T), prob_sufficiency(c,e) = P(E_{c=T}=T | c=F,e=F), prob_necessity_sufficiency(c,e) = P(E_{c=F}=F, E_{c=T}=T), as probabilities over the exogenous variables.", "quantifier": "every SCM and cause/effect pair (with positive conditioning probability)", "why_tests_cant": "Universal over models.", "anchors": ["bcause/inference/causal/causal.py:prob_necessity", "bcause/inference/causal/causal.py:prob_sufficiency", "bcause/inference/causal/causal.py:prob_necessity_sufficiency"]}
{"id": "C34", "title": "C-components partition the confounded variables", "statement": "model.ccomponents are pairwise disjoint, cover exactly the variables touching an arc from an exogenous variable, and two variables are in the same component iff they are linked by a path of such arcs.", "quantifier": "every causal DAG", "why_tests_cant": "Universal over graphs.", "anchors": ["bcause/models/cmodel.py:ccomponents", "bcause/models/cmodel.py:exo_graph", "bcause/models/info.py:get_ccomponent"]}
{"id": "C35", "title": "The Q-graph is a DAG over the endogenous variables", "statement": "model.qgraph is acyclic for every SCM, so that get_qbnet, log_likelihood and max_log_likelihood are defined.", "quantifier": "every semi-Markovian causal DAG", "why_tests_cant": "Needs particular interleavings of c-components to fail.", "anchors": ["bcause/models/info.py:get_qgraph", "bcause/models/cmodel.py:get_qbnet"]}
{"id": "C36", "title": "UAI files round trip for Bayesian networks", "statement": "BayesianNetwork.read(model.save('m.uai')) has the same graph and tables up to the canonical renaming of variables (V0, V1, ...) and states (0, 1, ...).", "quantifier": "every Bayesian network", "why_tests_cant": "Universal over networks, variable counts and numeric values.", "anchors": ["bcause/readwrite/bnwrite.py:to_uai", "bcause/readwrite/bnread.py:from_uai"]}
{"id": "C37", "title": "UAI files round trip for structural causal models", "statement": "StructuralCausalModel.read(model.save('m.uai')) has the same graph, equations and exogenous distributions up to canonical renaming.", "quantifier": "every SCM", "why_tests_cant": "Universal over models.", "anchors": ["bcause/readwrite/bnwrite.py:to_uai", "bcause/readwrite/scmread.py:from_uai", "bcause/readwrite/scmwrite.py:to_uai"]}
{"id": "C38", "title": "Forward samples lie in the support of the model", "statement": "model.sample(n) returns n rows assigning a state to every variable, each of positive joint probability, for every outcome of the random generator; samples of an SCM satisfy its structural equations.", "quantifier": "every model, n >= 1, every outcome of the random generator", "why_tests_cant": "Quantifies over all random outcomes.", "anchors": ["bcause/models/sampling.py:forward_sampling", "bcause/factors/mulitnomial.py:_sample", "bcause/factors/mulitnomial.py:sample_conditional"]}
{"id": "C39", "title": "LaplaceInference returns relative frequencies", "statement": "LaplaceInference(data, domains).query(target, evidence=e) equals #(rows matching target and e) / #(rows matching e); with conditioning it is the conditional relative frequency.", "quantifier": "every complete data set over the domains and every query with at least one matching row", "why_tests_cant": "Universal over data sets.", "anchors": ["bcause/inference/probabilistic/datainference.py", "bcause/util/datautils.py:to_counts", "bcause/util/datautils.py:filter_data"]}
{"id": "C40", "title": "Iterative learning performs at most max_iter steps and records each", "statement": "run(data, max_iter=k) performs at least one and at most k steps when k >= 1, stops right after the first step at which the stopping test holds, model_evolution is the prior model followed by the model after each step in order, model is its last element and the prior model is never changed.", "quantifier": "every learner (any update and stopping rule), every max_iter, every history of runs", "why_tests_cant": "All histories of run calls and stopping patterns.", "anchors": ["bcause/learning/parameter/parameter.py:IterativeParameterLearning.run", "bcause/learning/parameter/parameter.py:_update_model", "bcause/learning/parameter/parameter.py:_record_model"]}
{"id": "C41", "title": "EM changes only trainable variables and freezes converged ones", "statement": "During EM the factors of non-trainable variables are those of the prior model, and the factor of a variable never changes after the step at which it converged; calling run again trains again from the prior model.", "quantifier": "every history of run/step calls", "why_tests_cant": "History property including reuse of the learner object.", "anchors": ["bcause/learning/parameter/expectation_maximization.py:_maximization", "bcause/learning/parameter/expectation_maximization.py:_stop_learning", "bcause/learning/parameter/parameter.py:_update_model"]}
{"id": "C42", "title": "An EM step never decreases the likelihood", "statement": "The likelihood of the data under the model after an EM step is at least the likelihood before it.", "quantifier": "every model, every data set of positive likelihood", "why_tests_cant": "An inequality over all models and data sets.", "anchors": ["bcause/learning/parameter/expectation_maximization.py:_expectation", "bcause/learning/parameter/expectation_maximization.py:_maximization"]}
{"id": "C43", "title": "Aggregators accumulate the requested number of models in order", "statement": "After run(n1), ..., run(nk) an aggregator holds n1+...+nk models in generation order (sequential or threaded); run(n) with n<1 raises; learn_objects[i] is the learner that produced models[i].", "quantifier": "every history of run calls, every thread schedule", "why_tests_cant": "All schedules of the thread pool.", "anchors": ["bcause/learning/aggregator/aggregator.py:ModelAggregator.generate", "bcause/learning/aggregator/aggregator.py:ModelAggregatorEM._single_generate"]}
{"id": "C44", "title": "Multi-model inference reports the exact range over its current models", "statement": "CausalMultiInference queries return, at every observation, the minimum and maximum over the models set or added so far (never a stale compilation), and PN/PS/PNS return [min, max] of the precise values.", "quantifier": "every history of set_models / add_models / query", "why_tests_cant": "History property: caching must be invalidated on every path.", "anchors": ["bcause/inference/causal/multi.py:CausalMultiInference", "bcause/inference/causal/multi.py:_process_output"]}
{"id": "C45", "title": "Derived stores do not share state with their source", "statement": "Calling set_value on the result of restrict, marginalize, multiply or copy never changes the store it was derived from.", "quantifier": "every store type, every derivation, every later set_value", "why_tests_cant": "Aliasing appears only for particular operation sequences.", "anchors": ["bcause/factors/values/treedictops.py:_restrict_dict", "bcause/factors/values/treedictstore.py:set_value", "bcause/factors/values/store.py:copy"]}
{"id": "C46", "title": "Conversion to pgmpy tables and back preserves probabilities", "statement": "toMultinomialFactor(toTabularCPT(f)) has the same value as f at every observation.", "quantifier": "every conditional factor with one left variable", "why_tests_cant": "Only some shapes and variable orders expose reshape errors.", "anchors": ["bcause/conversion/pgmpy.py:toTabularCPT", "bcause/conversion/pgmpy.py:toMultinomialFactor"]}
{"id": "C47", "title": "identify_true_false returns two distinct states or raises", "statement": "identify_true_false(var, dom) either raises ValueError or returns two distinct states of dom, the first being the 'true' one (1, or <var>1 / <var>0 before <var>2).", "quantifier": "every variable name and domain", "why_tests_cant": "Universal over domains.", "anchors": ["bcause/util/domainutils.py:identify_true_false"]}
{"id": "C48", "title": "Binary trees represent the table they are built from", "statement": "BTreeStore(domain, table) builds a tree whose leaf reached by following any full observation is the table's value there, whatever split points are chosen.", "quantifier": "every table with positive mass in every visited sub-table, every choice of split", "why_tests_cant": "Universal over tables and split sequences.", "anchors": ["bcause/factors/values/btreestore.py:_build_from_table", "bcause/factors/values/btreestore.py:BTreeNode.build"]}
{"id": "C49", "title": "Graph queries on models return sets without repetition", "statement": "get_parents(*vs), get_children(*vs) and markov_blanket(v) return exactly the union of parents / children / (parents, children and co-parents other than v), without repetition.", "quantifier": "every DAG and every tuple of nodes", "why_tests_cant": "Universal over graphs.", "anchors": ["bcause/models/pgmodel.py:get_parents", "bcause/models/pgmodel.py:get_children", "bcause/models/pgmodel.py:markov_blanket"]}
{"id": "C50", "title": "prob and log_prob multiply the tables", "statement": "model.prob(observations) is, for each full observation, the product of the tables' values, and sums to 1 over all observations of a normalised network.", "quantifier": "every network and list of observations", "why_tests_cant": "Universal over networks.", "anchors": ["bcause/models/pgmodel.py:prob", "bcause/factors/mulitnomial.py:prob"]}
{"id": "C51", "title": "submodel returns the model on a subset of the nodes", "statement": "model.submodel(nodes) returns a model over the induced subgraph with the corresponding factors.", "quantifier": "every model and ancestral node set", "why_tests_cant": "Universal over models.", "anchors": ["bcause/models/pgmodel.py:submodel"]}
{"id": "C52", "title": "d-separation queries follow active trails", "statement": "nx.d_separated as used by bcause answers False exactly if an active trail joins the two sets; dsep_nodes(dag, t, E) returns exactly the nodes w that no active trail given E minus w joins with t, and dcon_nodes the other nodes except t; unknown nodes and cyclic graphs raise.", "quantifier": "every DAG, target, evidence set", "why_tests_cant": "Universal over graphs and trails.", "anchors": ["bcause/util/graphutils.py:dsep_nodes", "bcause/util/graphutils.py:dcon_nodes"]}
{"id": "C53", "title": "Variables reported d-separated are independent", "statement": "Whenever d_separated answers True, the two sets are independent given the evidence in the joint distribution of every network over that graph; hence the evidence kept by DataDepAnalysis.dsep_filter for a target gives the same posterior of the target as the whole row.", "quantifier": "every network, every disjoint sets, every row", "why_tests_cant": "Universal over networks with arbitrary tables.", "anchors": ["bcause/util/datadeps.py:get_minimal_obs_blanket", "bcause/util/graphutils.py:dsep_nodes"]}
{"id": "C54", "title": "Markov blankets shield a variable", "statement": "graphutils.markov_blanket(dag, v, hidden) returns the nodes d-connected with v given the other observed nodes, so that v is independent of the observed nodes outside the blanket given those inside; without hidden nodes v is independent of all other nodes given the blanket.", "quantifier": "every network, node and hidden set", "why_tests_cant": "Universal over networks.", "anchors": ["bcause/util/graphutils.py:markov_blanket", "bcause/models/pgmodel.py:markov_blanket"]}
{"id": "C55", "title": "The Q-factorisation represents the endogenous distribution", "statement": "For a causal model all of whose factors are tables, get_qfactors(model, v) returns one factor for each endogenous variable x in the confounded component of v: the conditional distribution of x given its parents in the Q-graph. get_qbnet() builds a Bayesian network on the Q-graph from them, and the probability that the network gives to a joint assignment of the endogenous variables is its probability in the causal model. Variables that no exogenous variable touches have no Q-factor, and a Q-graph with a cycle is rejected.", "quantifier": "all causal models with table factors, all topological orders, set orders, elimination heuristics, store kinds, all joint assignments", "why_tests_cant": "The identity relies on independences that hold in every model of the graph; tests see single graphs and tables and cannot cover all component structures, orders and zero probabilities.", "anchors": ["bcause/models/info.py:get_qfactors", "bcause/models/cmodel.py:qgraph", "bcause/models/cmodel.py:get_qbnet", "bcause/models/pgmodel.py:prob"]}
{"id": "C56", "title": "log_likelihood is the logarithm of the probability of the data", "statement": "For complete data about the endogenous variables, log_likelihood(data) is the logarithm of the product of the probabilities that the causal model gives to the rows; with a list of variables it is the logarithm of the product of their conditional probabilities given their parents in the Q-graph. It raises ValueError if some row is impossible or the Q-graph is cyclic, and KeyError for a variable that is not endogenous.", "quantifier": "all causal models with table factors, all complete data frames, any logarithm, all orders and heuristics", "why_tests_cant": "A test compares a few numbers with tolerance; the equality is for all models, data with extra columns and repeated rows, and all orders of factors and sums.", "anchors": ["bcause/models/cmodel.py:log_likelihood", "bcause/models/pgmodel.py:log_prob", "bcause/factors/mulitnomial.py:log_prob"]}
{"id": "C57", "title": "max_log_likelihood bounds the log-likelihood of every model with the graph", "statement": "max_log_likelihood(data) is the logarithm of the probability of the rows under the relative frequencies of each endogenous variable given its Q-graph parents. No causal model with the same graph and endogenous variables gives the data a larger log-likelihood, whatever its tables and the states of its exogenous variables.", "quantifier": "all pairs of causal models with the same graph, all complete data frames, any monotone logarithm", "why_tests_cant": "The bound is over the infinite family of all parameterisations and exogenous domains; tests can only sample it.", "anchors": ["bcause/models/cmodel.py:max_log_likelihood", "bcause/models/info.py:get_qfactors"]}
{"id": "C58", "title": "Conversions between causal models and Bayesian networks keep the distribution", "statement": "to_multinomial, to_bnet and causal_to_bnet of a causal model give a model with the same graph whose tables have the same entries (factors that are tables already are kept), so the joint distribution is the same. bnet_to_causal and from_model of a network give a causal model with the same tables if every variable with parents is a function of them, and raise ValueError otherwise.", "quantifier": "all causal models and networks, all stores, mixtures of table and deterministic factors", "why_tests_cant": "Tests convert a few models; the claim is about every graph, mixture of factor classes and order of the variables in the tables, and needs the constructor's checks to accept the converted tables.", "anchors": ["bcause/models/transform/conversion.py:causal_to_bnet", "bcause/models/transform/conversion.py:bnet_to_causal", "bcause/models/cmodel.py:to_multinomial", "bcause/models/cmodel.py:to_bnet", "bcause/models/cmodel.py:from_model"]}
{"id": "C59", "title": "Models filled with random tables are well formed", "statement": "fill_random_factors gives a model without tables one table per variable, over the variable and its parents, normalised, and a function for each endogenous variable; BayesianNetwork.randomize_factors gives normalised conditional tables. randomize_factors of exogenous variables replaces their tables and changes nothing else. Marginals for exogenous variables with parents and tables without zeros for endogenous variables raise ValueError.", "quantifier": "all graphs, domains, draws (in every column a positive number) and choices, all stores", "why_tests_cant": "A random method is tested on the draws that happen to come; the claim covers all draws, graphs and orders of the domain.", "anchors": ["bcause/models/cmodel.py:fill_random_factors", "bcause/models/cmodel.py:fill_random_equations", "bcause/models/cmodel.py:fill_random_marginals", "bcause/models/cmodel.py:randomize_factors", "bcause/models/bnet.py:randomize_factors"]}
{"id": "C60", "title": "The gradient learner optimises the likelihood one exogenous variable at a time", "statement": "The objective given to the optimiser for an exogenous variable U is the negative log-probability of the children of U in the data (infinite where it is 0), and the likelihood of the data is that probability times a number not depending on the table of U. If the optimiser returns distributions, a run ends with a valid causal model of the same graph in which only the trained tables have changed, to what the optimiser returned; if it never returns anything worse than its start, the likelihood has not fallen. Endogenous or observed variables given for training raise ValueError and leave an untrained copy. With two exogenous parents of one variable, names that contain other names, or deterministic factors this fails.", "quantifier": "all causal models with deterministic equations and one exogenous parent per trained child, all data on the endogenous variables, all optimisers and logarithms", "why_tests_cant": "Tests run scipy on one model; the claim is about every graph, data set and optimiser, including optimisers that stop early.", "anchors": ["bcause/learning/parameter/gradient.py:_updated_factor", "bcause/learning/parameter/gradient.py:_compute_N_and_P", "bcause/learning/parameter/gradient.py:_compute_P", "bcause/learning/parameter/gradient.py:negative_log_likelihood", "bcause/learning/parameter/gradient.py:_process_data", "bcause/learning/parameter/gradient.py:run"]}
{"id": "C61", "title": "EMCC and GDCC answer with models that keep the equations and explain the data", "statement": "Each training of an EMCC or GDCC object returns as many models as runs are wanted; each has the structure and the equations of the given model, and the data has a positive probability in it, not less than in the random start of its run (for GDCC: if the optimiser returns nothing worse than its start). After any statements that leave the models alone, the object answers every question as an object with the models of the last training; the first question trains. So the answer about an intervention consists of the effects in such models, or their range. With fewer than one run the first question raises ValueError. The interval need not contain the effect in every model that explains the data, and with threads get_model_evolution(0) can belong to another model than the first.", "quantifier": "all structural models, all data about the endogenous variables that the equations explain, all random draws, exact queries, stopping rules, optimisers, thread schedules, numbers of runs, and all programs around the object", "why_tests_cant": "A test sees a few random runs on one model and data set; the claim covers every draw, every schedule of the threads and every sequence of calls.", "anchors": ["bcause/inference/causal/multi.py:compile", "bcause/inference/causal/multi.py:get_model_evolution", "bcause/learning/aggregator/aggregator.py:_single_generate", "bcause/learning/aggregator/aggregator.py:run", "bcause/learning/parameter/expectation_maximization.py:run", "bcause/learning/parameter/gradient.py:run"]}
{"id": "C62", "title": "Incremental compilation adds models until enough are there", "statement": "Each resumption of EMCC.compile_incremental(step_runs) trains step_runs further models, adds them to the object's models, compiles and yields, as long as there are fewer than num_runs models; then the generator ends. After t turns, with any other statements in between that leave the object's models alone, the object answers as an object with exactly the models of the t turns; each of them keeps the equations and explains the data. Interval answers only grow from turn to turn. With step_runs < 1 the first turn raises ValueError. If the object's list of models is given to another object, models added there end the loop early and enter the later answers.", "quantifier": "all structural models, all data the equations explain, all draws, schedules, step sizes and numbers of runs, all programs with other objects and statements around the turns", "why_tests_cant": "The claim is an invariant over all interleavings of turns with other statements; a test follows one program.", "anchors": ["bcause/inference/causal/multi.py:compile_incremental", "bcause/inference/causal/multi.py:add_models", "bcause/inference/causal/multi.py:compile"]}
{"id": "C63", "title": "EM stops only at tables that make the data as likely as possible", "statement": "If an EM step multiplies no entry of the table of a trained variable by more than x, then no other table of that variable makes the n rows more than x^n times as likely; a table left unchanged by a step is a maximum of the likelihood in that table, provided it gives no probability zero to a state that could explain a row. For a structural causal model whose trained exogenous variables are each the only exogenous parent of their children, every variable that run() marks as converged has such a best table in the returned model, and once all exogenous variables are marked, no model with the same equations makes the data more likely than the returned one. Zeros in the starting table, or two exogenous parents of one variable (where a variable once marked as converged is never looked at again), break the claim.", "quantifier": "all models, domains, data with the same observed variables in all rows, exact inference methods, iteration orders, stopping rules that accept only equal tables, iteration limits", "why_tests_cant": "A test compares the learned likelihood with a few alternatives; the claim is about all tables and all models with the same equations, and about every run.", "anchors": ["bcause/learning/parameter/expectation_maximization.py:_maximization", "bcause/learning/parameter/expectation_maximization.py:_stop_learning", "bcause/learning/parameter/parameter.py:run"]}
{"id": "C64", "title": "Expressions written with the operators of factors compute what they denote", "statement": "Any expression built from factors with finite values, python numbers, `*`, `+`, `-`, `/`, `**` (sum out), `^` (maximise out) and `.R(...)` that is well formed read as mathematics (common variables have the same states, divisors are not zero, removed variables are distinct and all present or all absent) evaluates without exception to a factor over the expected domain with the expected left variables, whose value at every full observation is that of the formula. Hence the laws of calculation: `(f / (f ** x)) * (f ** x)` is f again and `(f / (f ** x)) ** x` is one when the marginal is not zero, sums can be split, `(f * h) ** x` is `f * (h ** x)` when f does not have x, products distribute over sums, and combine_all is the product in any order. The operators reject every other operand: a number on the left or of a class other than int and float, names where a factor is expected, factors stored in different classes, interval factors and, on the left, deterministic factors. A deterministic factor on the right is taken as the table of its states as numbers over its right variables.", "quantifier": "all expressions of any depth, all factors of the four store classes, domains and observations; all pairs of operand classes", "why_tests_cant": "The test-suite multiplies and marginalises a few small tables; the claim is about every expression, store class and operand class.", "anchors": ["bcause/factors/mulitnomial.py:MultinomialFactor.__mul__", "bcause/factors/mulitnomial.py:MultinomialFactor.__pow__", "bcause/factors/mulitnomial.py:MultinomialFactor.__xor__", "bcause/factors/mulitnomial.py:MultinomialFactor._prepare_operand", "bcause/factors/factor.py:Factor.combine_all", "bcause/factors/imprecise.py:IntervalProbFactor.multiply", "bcause/factors/deterministic.py:DeterministicFactor.multiply"]}
{"id": "C65", "title": "Joining models at common roots gives the network with all their tables", "statement": "If networks of the same class have exactly the nodes `on` in common, with the same states and without parents, then `fusion_roots` returns a network with all their nodes, arcs and tables, the tables of `on` being those of the first model. In it the variables of each model have the distribution that the model defines with these root tables, and the variables of different models are independent given `on`. The endogenous variables of a causal result are the given ones, or those of the first model. A common node that is not a root of the model at its position, models of different classes, an empty list of models, endogenous variables of Bayesian networks and isolated nodes of later models raise.", "quantifier": "all lists of models of any length and both classes, all lists of common nodes, all tables, all iteration orders of sets", "why_tests_cant": "The function is only used by counterfactual queries with one or two copies of the same model.", "anchors": ["bcause/models/transform/combination.py:fusion_roots", "bcause/models/cmodel.py:StructuralCausalModel.builder", "bcause/models/bnet.py:BayesianNetwork.builder"]}
{"id": "C66", "title": "A deterministic factor read from a data frame is the function its rows tabulate", "statement": "If the rows of a data frame tabulate a function (one row per configuration of the other columns, the value in the last column, rows in any order), DeterministicFactor.from_data_frame returns the deterministic factor of that function, and the caller's frame keeps its entries. Entries that are no states of their column are lost from the caller's frame, and if the values are not in the last column another function is read without an error.", "quantifier": "all domains, numbers of columns, functions and orders of the rows, all store types", "why_tests_cant": "The rows are sorted by all columns and the sorted values are reshaped by position; whether position and configuration agree depends on the order of the columns, the rows and the states, and the function is not exercised by any test.", "anchors": ["bcause/factors/deterministic.py:DeterministicFactor.from_data_frame", "bcause/factors/deterministic.py:DeterministicFactor.__init__", "bcause/factors/factor.py:ConditionalFactor.set_variables"]}
{"id": "C67", "title": "A model saved to a file and read again is the same model but for the names of its states", "statement": "If pgmpy's format keeps a network (its arcs, tables and the names of the states), then save writes a Bayesian network without isolated nodes to a .bif or .xmlbif file, changes no other file, and read returns a network with the same nodes, arcs and factor values with the states replaced by their names; so joint probabilities are kept. A structural causal model is written as its Bayesian network and read as a structural causal model whose endogenous variables are those with a parent. A .uai file holds the text of C36. Networks with isolated nodes are saved but cannot be read (NetworkXError). A missing folder or file raises FileNotFoundError, a name with another ending ValueError, and in all error cases before writing no file is changed.", "quantifier": "all networks and causal models with tables, all file systems, paths and orders in which pgmpy returns tables and states, all store types", "why_tests_cant": "The tests read a few fixed files. The order in which pgmpy returns the tables and the states of a table is not that of the model saved, and whether the values still belong to the same states depends on both; isolated nodes are only lost for some graphs.", "anchors": ["bcause/models/pgmodel.py:save", "bcause/models/pgmodel.py:read", "bcause/readwrite/bnread.py:from_bif", "bcause/readwrite/bnwrite.py:to_bif", "bcause/readwrite/scmread.py:from_bif", "bcause/readwrite/scmwrite.py:to_bif", "bcause/util/assertions.py:assert_file_exists"]}
{"id": "C68", "title": "PN, PS and PNS satisfy the identities and bounds of Tian and Pearl", "statement": "For every structural causal model with non-negative tables, the three probabilities of causation and the answers of causal_query satisfy: PNS lies between the Frechet bounds (for any numbers of states); PNS = P(x,y) PN + P(x',y') PS for a binary cause, and >= otherwise; for a binary cause and effect max(0, P(y_x)-P(y_x'), P(y)-P(y_x'), P(y_x)-P(y)) <= PNS <= min(P(y_x), P(y'_x'), P(x,y)+P(x',y'), P(y_x)-P(y_x')+P(x,y')+P(x',y)), the corresponding bounds for PN and PS, and 0 <= PN, PS, PNS <= 1; PNS minus the PNS of the swapped effect equals P(y_x) - P(y_x'); without prevented units all three are given by observational and interventional answers; exchanging true and false states exchanges PN and PS.", "quantifier": "all structural causal models with non-negative tables, exogenous variables, causes with a child, effects, true and false states, heuristics, set orders and store types", "why_tests_cant": "The tests compare the three probabilities with fixed numbers in two models. The relations involve up to nine queries at once, each answered in a different network (original, intervened, twin), and must hold for every distribution of the exogenous variables.", "anchors": ["bcause/inference/causal/causal.py:prob_necessity_sufficiency", "bcause/inference/causal/causal.py:prob_necessity", "bcause/inference/causal/causal.py:prob_sufficiency", "bcause/inference/causal/causal.py:counterfactual_query", "bcause/inference/causal/causal.py:causal_query", "bcause/inference/causal/elimination.py:CausalVariableElimination"]}
{"id": "C69", "title": "Interventional queries obey the calculus of interventions", "statement": "For every structural causal model, the answers of CausalVariableElimination satisfy Pearl's three rules. With w, d, z interventions and evidence on distinct variables and T the targets: (1) if T is d-separated from the variables of e given z and w in the graph without the arcs into w, then causal_query(T, do=w, evidence=e and z) equals causal_query(T, do=w, evidence=z); (2) if T is d-separated from d given z and w in that graph without the arcs out of d, then causal_query(T, do=w and d, evidence=z) equals causal_query(T, do=w, evidence=z and d); (3) if no variable of d1 is above the evidence z and T is d-separated from d1 and d2 given z and w in the graph without the arcs into w and d1, then causal_query(T, do=w, d1 and d2, evidence=z) equals causal_query(T, do=w, evidence=z). The back-door formula and the front-door formula hold between the answers. A counterfactual query whose intervention only repeats what was observed answers like the observational query. Evidence is assumed to have nonzero probability in the queries compared.", "quantifier": "all causal models (any graph, number of variables and states, any exogenous distribution), all storages, all elimination heuristics and set orders, all interventions, evidence, targets and adjustment sets that meet the graphical conditions", "why_tests_cant": "The rules relate different queries through conditions on modified graphs, for every graph and every distribution; tests check a few graphs with fixed numbers and cannot show that a graphical condition always suffices.", "anchors": ["bcause/inference/causal/causal.py:causal_query", "bcause/inference/causal/causal.py:counterfactual_query", "bcause/models/cmodel.py:intervention", "bcause/inference/probabilistic/elimination.py:run", "bcause/util/graphutils.py:remove_ingoing_edges", "bcause/util/graphutils.py:remove_outgoing_edges"]}
{"id": "C70", "title": "Canonical equations express every conditional table, every distribution of responses and every network", "statement": "With as many states of the exogenous variable as there are functions from the values of the parents to the states of the variable, (1) for every random mechanism choosing a response function some distribution of the exogenous variable gives every event about the responses of canonical_deterministic the same probability, (2) every non-negative conditional table equals the product of canonical_multinomial and some table of the exogenous variable after the exogenous variable is summed out with multiply and marginalize, (3) uniform_multinomial as table of the exogenous variable gives the uniform conditional table, and (4) every Bayesian network with non-negative tables has the same interventional distributions (and the same answers of causal_query) as a structural model built from canonical equations with a new exogenous parent for every variable.", "quantifier": "all variables, numbers of states, endogenous parents (one for the numpy store), store types, conditional tables, random mechanisms and events; all networks, interventions, targets and evidence (store types other than the numpy store)", "why_tests_cant": "The tests compare the entries of canonical factors of binary variables with fixed arrays. Completeness of the set of equations is a statement about all conditional tables and all distributions over functions, whose number grows doubly exponentially with the number of parents.", "anchors": ["bcause/factors/deterministic.py:canonical_deterministic", "bcause/factors/mulitnomial.py:canonical_multinomial", "bcause/factors/mulitnomial.py:uniform_multinomial", "bcause/factors/mulitnomial.py:MultinomialFactor.multiply", "bcause/factors/mulitnomial.py:MultinomialFactor.marginalize", "bcause/factors/deterministic.py:DeterministicFactor.to_multinomial", "bcause/models/cmodel.py:StructuralCausalModel.__init__", "bcause/inference/causal/causal.py:causal_query"]}
{"id": "C71", "title": "Replacing the equations of a Markovian structural model by canonical ones changes no counterfactual", "statement": "If every variable of a structural causal model has exactly one exogenous parent of its own, then for canonical_deterministic equations over the same graph (with exogenous variables that have as many states as there are functions from the values of the other parents to the states of the variable) there are tables of the exogenous variables with which the model that the constructor builds gives every joint event about the endogenous variables in any number of worlds, each under its own interventions, the same probability; counterfactual_query and prob_necessity_sufficiency answer the same in both models.", "quantifier": "all Markovian models (any graph, equations, numbers of states, probabilities of the exogenous states, kinds of factors), store types other than the numpy store, interventions, evidence, targets, elimination heuristics and set orders", "why_tests_cant": "The tests build canonical equations of fixed binary variables and compare arrays. That a model with arbitrarily many exogenous states and arbitrary equations can be replaced without changing any counterfactual is a statement about all equations and all joint events over several worlds.", "anchors": ["bcause/factors/deterministic.py:canonical_deterministic", "bcause/models/cmodel.py:StructuralCausalModel.__init__", "bcause/inference/causal/causal.py:counterfactual_query", "bcause/inference/causal/causal.py:prob_necessity_sufficiency"]}
{"id": "C72", "title": "Renaming the variables of a model changes nothing but names", "statement": "model.rename_vars(mapping) with a mapping that gives different variables different names (none starting with an underscore) returns a model of the same class whose arcs, domains, left and right variables and factor values are those of the original under the new names, so that the probability of every renamed observation, every interventional probability and every counterfactual probability, and the result of every variable-elimination and causal query for renamed targets and evidence, equal those of the original; for a structural causal model the mapping must contain every endogenous variable, otherwise KeyError is raised.", "quantifier": "all Bayesian networks and structural causal models (with functions stored as tables or as deterministic factors), all mappings (partial ones, swaps and cycles of names included), store types, observations, interventions, events, targets, elimination heuristics and set orders", "why_tests_cant": "the equality holds for every network, every mapping and every query; a test fixes one model and usually a mapping to fresh names, and misses swaps, partial mappings and orders of the factors", "anchors": ["bcause/models/pgmodel.py:rename_vars", "bcause/models/cmodel.py:rename_vars", "bcause/factors/factor.py:rename_vars"]}
{"id": "C73", "title": "Domain and enumeration utilities", "statement": "create_domain gives every variable exactly the requested number of distinct states, in order, so that the result is accepted by every factor constructor; it raises IndexError for no variables and silently accepts sizes that are not positive. steps_dict gives the strides whose weighted sum of state positions is the row-major position of an assignment; numeric_state_space and numeric_assignment_space list the state positions of all assignments in the order of assingment_space. powerset lists every sub-list exactly once, smaller ones first. change_shape_order turns an array stored with the first index fastest into the same array stored with the last index fastest, and raises ValueError when the number of values does not fit. as_lists treats a string as one name.", "quantifier": "all dictionaries of sizes, all first values, all domains and assignments, all lists, all shapes of any number of dimensions", "why_tests_cant": "Tests use a few small domains and shapes; the claims are about every number of variables, states and dimensions.", "anchors": ["bcause/util/domainutils.py:create_domain", "bcause/util/domainutils.py:steps_dict", "bcause/util/domainutils.py:numeric_state_space", "bcause/util/domainutils.py:numeric_assignment_space", "bcause/util/arrayutils.py:powerset", "bcause/util/arrayutils.py:change_shape_order", "bcause/util/arrayutils.py:as_lists"]}
{"id": "C74", "title": "Counterfactual answers obey the axioms of counterfactuals", "statement": "The answers of counterfactual_query on one causal model are related as the structural theory of counterfactuals demands. Only the interventions of the worlds count: renumbering or reordering the worlds, adding or dropping worlds without a target, or writing an intervention or the evidence in another order changes no answer. Exclusion: a target may be moved to a world with further interventions, or back, if no directed path leads from them to the target once the arcs into the other intervened variables are cut. Composition: for those target states where the variables of w take the states of w by themselves in a world, targets may be moved to the world where w is forced. Evidence on which an intervention does not act gives the same answer whether it is observed before the intervention (counterfactual_query) or after it (causal_query). The interventional answer is the average of the counterfactual answers over the possible observations of any set of variables, weighted by their probabilities.", "quantifier": "all structural causal models, all lists of interventions, targets, evidence and states of the targets for which the queries are defined, all elimination heuristics and set orders, both value representations", "why_tests_cant": "The relations compare different queries on the same model, for any number of worlds and interventions; tests check single answers of small models, mostly with two worlds.", "anchors": ["bcause/inference/causal/causal.py:counterfactual_query", "bcause/inference/causal/causal.py:causal_query", "bcause/models/transform/combination.py:fusion_roots"]}
{"id": "C75", "title": "The elimination costs measure the tables that variable elimination creates", "statement": "When variable elimination multiplies the factors that contain a variable, the product has exactly that variable and its neighbours in the elimination graph that the ordering heuristics maintain. So the cost of min_size is its number of variables minus one and the cost of min_weight its number of entries, and each round of min_weight (min_size) creates a table with the fewest entries (variables) among those of the variables still to be eliminated. In any Bayesian network the costs bound the tables from above; they are exact when every eliminated variable has a descendant that stays, which always holds in the model that compile prepares for a query. Without it they may be too large, since a table that sums to one is dropped while its variables stay joined.", "quantifier": "all Bayesian networks, targets and evidence, all sets of variables to eliminate, all eliminations before, all outcomes of the random choice among the cheapest variables, both value representations", "why_tests_cant": "The tables are intermediate values that no test inspects, and the ordering and the elimination are two separate pieces of code that must agree on every graph and after every prefix of eliminations.", "anchors": ["bcause/inference/ordering.py:_get_elim_ordering", "bcause/inference/probabilistic/elimination.py:run", "bcause/models/transform/simplification.py:minimalize"]}
{"id": "C76", "title": "Infinite and undefined values are handled as limits", "statement": "Tables may come to hold infinite values or NaN, since division of list and tree tables by zero does not raise on numpy floats. On such values sums, differences, products, quotients, maxima and comparisons of entries are those of limits: the result is the limit of the results for all sequences of numbers that tend to the operands, and NaN when an operand is NaN or when that limit depends on the sequences (inf - inf, 0 * inf, 0/0, inf/inf). A divisor 0 counts as the limit of positive numbers. nan_to_num, which only the numpy tables apply, replaces NaN by 0 and the infinities by the largest finite doubles and keeps every other value. The maximum of numpy tables propagates NaN, the maximum of the other tables keeps its first operand.", "quantifier": "all pairs of values: rational numbers, the two infinities and NaN", "why_tests_cant": "Tests try single special values; the relation to limits concerns all sequences of numbers.", "anchors": ["bcause/factors/values/numpyops.py:divide", "bcause/factors/values/listops.py:divide", "bcause/factors/values/operations.py:divide", "bcause/factors/values/treedictops.py:divide", "bcause/factors/values/numpyops.py:maxmarginalize"]}
{"id": "C77", "title": "The answers to different queries fit together", "statement": "The answers of the inference engines to different queries on one model are related by the operations on factors as the rules of probability demand. Summing variables out of an answer (marginalize) gives the answer about the remaining targets. Restricting an answer to states of some targets and dividing by its sum over the others gives the answer with those states added to the evidence. A conditional table restricted to states of its conditioning variables is the answer with these states as evidence. The conditional table times the answer about the conditioning variables is the joint answer. The first two relations also hold between interventional queries with the same intervention. At impossible states of the conditioning variables the product rule holds for numpy stores (0); for the other stores the product is NaN while the joint answer is 0.", "quantifier": "all networks with normalised tables, all structural causal models with multinomial roots, all disjoint target lists, interventions, evidence of nonzero probability, all four store types, all elimination heuristics and set orders", "why_tests_cant": "It relates the outputs of several queries and factor operations over all models, all target lists and all evidence; a test compares a few queries on a few models.", "anchors": ["bcause/inference/probabilistic/probabilistic.py:query", "bcause/inference/causal/causal.py:causal_query", "bcause/factors/mulitnomial.py:marginalize", "bcause/factors/mulitnomial.py:restrict", "bcause/factors/mulitnomial.py:divide", "bcause/factors/mulitnomial.py:multiply"]}
{"id": "C78", "title": "Samples have the distribution of the model, and frequencies converge to its probabilities", "statement": "Forward sampling is exact: a sample of n rows is drawn precisely when the uniform numbers lie in a region of the unit cube that is a product of intervals, one for each variable and row, and whose volume is the product of the joint probabilities of the rows. So the rows are independent and each has the distribution of the model. The probability that the relative frequency of an event in a sample of n rows differs from its probability p by eps or more is at most p(1-p)/(n eps^2), hence tends to 0. In particular LaplaceInference on a large enough sample answers any query, with any evidence of positive probability, within eps of what VariableElimination answers on the model, except with a probability below any given delta. The same holds for simulated experiments: LaplaceInference on a large sample of the intervened model answers what causal_query answers.", "quantifier": "all networks with normalised nonnegative tables, all sample sizes, all numbers drawn, all events, all queries and evidence of nonzero probability, all eps, delta > 0, all store types, heuristics and set orders", "why_tests_cant": "It is a statement about the distribution of the output of a random procedure and about a limit; a test draws a few samples and compares within a tolerance.", "anchors": ["bcause/models/sampling.py:forward_sampling", "bcause/inference/probabilistic/datainference.py", "bcause/inference/probabilistic/probabilistic.py:query", "bcause/factors/mulitnomial.py:_sample", "bcause/factors/mulitnomial.py:sample_conditional", "bcause/models/cmodel.py:intervention", "bcause/inference/causal/causal.py:causal_query", "bcause/models/cmodel.py:sampleEndogenous"]}
