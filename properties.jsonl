{"id": "C01", "title": "CausalGraph keeps causation and dag in agreement", "statement": "After building a CausalGraph and applying any sequence of its in-place mutators (add_nodes, add_edge, add_edges_from, remove_edge, remove_edges_from, remove_nodes, remove_incoming_edges, remove_outgoing_edges), the observed edges of cg.dag (key 0) are exactly the pairs (p, c) with p listed in cg.causation[c], i.e. cg.dag and cg.observed_dag describe the same observed edges.", "quantifier": "all initial causation dicts, all latent arcs, all finite sequences of mutator calls with arbitrary arguments", "why_tests_cant": "the two representations are updated by separate statements in each method; only an invariant over all histories rules out drift between them", "anchors": ["ylearn/causal_model/graph.py:CausalGraph.add_edge", "ylearn/causal_model/graph.py:CausalGraph.add_edges_from", "ylearn/causal_model/graph.py:CausalGraph.remove_edge", "ylearn/causal_model/graph.py:CausalGraph.remove_edges_from", "ylearn/causal_model/graph.py:CausalGraph.remove_nodes", "ylearn/causal_model/graph.py:CausalGraph.observed_dag"]}
{"id": "C02", "title": "Latent confounding arcs are exactly those added and not removed", "statement": "At every point of a history of calls, cg.latent_confounding_arcs lists each unordered pair for which an arc was declared (constructor, add_edge(observed=False), add_edges_from(observed=False)) and not since removed, once, and nothing else.", "quantifier": "all graphs and all finite histories of arc additions/removals", "why_tests_cant": "arcs are not stored but re-derived from the adjacency matrix, so the answer depends on the whole edge history", "anchors": ["ylearn/causal_model/graph.py:CausalGraph.latent_confounding_arcs", "ylearn/causal_model/graph.py:CausalGraph.add_edge", "ylearn/causal_model/graph.py:CausalGraph.add_edges_from", "ylearn/causal_model/graph.py:CausalGraph.remove_edges_from"]}
{"id": "C03", "title": "new=True variants compute the same graph as the in-place variants", "statement": "For add_nodes, add_edges_from, remove_nodes and remove_edges_from, the graph returned with new=True has the same causation and the same dag as the one obtained by running the call in place on a copy.", "quantifier": "all graphs, node lists, edge lists and observed flags", "why_tests_cant": "the two branches are separate code; equality must hold for every graph including ones with parallel observed/latent edges", "anchors": ["ylearn/causal_model/graph.py:CausalGraph.add_nodes", "ylearn/causal_model/graph.py:CausalGraph.add_edges_from", "ylearn/causal_model/graph.py:CausalGraph.remove_nodes", "ylearn/causal_model/graph.py:CausalGraph.remove_edges_from"]}
{"id": "C04", "title": "ancestors/descendents are the reflexive-transitive closure", "statement": "cg.ancestors(x) contains exactly the nodes of x and every node with a directed path of observed edges to some node of x; cg.descendents(x) dually; unknown or isolated nodes only contribute themselves.", "quantifier": "all causation dicts and all node sets x", "why_tests_cant": "reachability quantifies over paths of unbounded length in arbitrary graphs", "anchors": ["ylearn/causal_model/graph.py:CausalGraph.ancestors", "ylearn/causal_model/graph.py:CausalGraph.descendents", "ylearn/causal_model/utils.py:ancestors_of_iter", "ylearn/causal_model/utils.py:descendents_of_iter"]}
{"id": "C05", "title": "build_sub_graph returns the induced subgraph", "statement": "cg.build_sub_graph(S) has node set S, and keeps exactly the observed edges and latent arcs whose two endpoints are in S.", "quantifier": "all graphs satisfying the consistency invariant, all subsets S of the nodes", "why_tests_cant": "must hold for every graph and subset; it is the step the identification recursion relies on", "anchors": ["ylearn/causal_model/graph.py:CausalGraph.build_sub_graph", "ylearn/causal_model/graph.py:CausalGraph.remove_nodes"]}
{"id": "C06", "title": "remove_incoming_edges performs the do-surgery", "statement": "After cg.remove_incoming_edges(X), no node of X has an observed parent nor a latent arc, and all other observed edges and arcs are unchanged.", "quantifier": "all consistent graphs, all node sets X", "why_tests_cant": "the mutilated graph must be right for every graph; a single stray edge silently changes every identification answer", "anchors": ["ylearn/causal_model/graph.py:CausalGraph.remove_incoming_edges", "ylearn/causal_model/graph.py:CausalGraph.remove_edges_from"]}
{"id": "C07", "title": "remove_outgoing_edges removes exactly the observed out-edges", "statement": "After cg.remove_outgoing_edges(X), no node of X has an observed child, every other observed edge and every latent arc is unchanged.", "quantifier": "all consistent graphs, all node sets X", "why_tests_cant": "this mutilated graph defines the backdoor test, for every graph", "anchors": ["ylearn/causal_model/graph.py:CausalGraph.remove_outgoing_edges"]}
{"id": "C08", "title": "c_components partitions the nodes by latent connectivity", "statement": "cg.c_components is a partition of the dag's nodes and two nodes are in the same block iff they are joined by a chain of latent confounding arcs.", "quantifier": "all graphs", "why_tests_cant": "connectivity through chains of any length", "anchors": ["ylearn/causal_model/graph.py:CausalGraph.c_components"]}
{"id": "C09", "title": "explicit_unob_var_dag replaces each arc by one fresh hidden root", "statement": "cg.explicit_unob_var_dag keeps the observed edges, and for each latent arc {a,b} contains one node with no parents whose children are exactly a and b; different arcs get different hidden nodes, and the result is acyclic whenever the observed graph is.", "quantifier": "all graphs and arc sets", "why_tests_cant": "freshness and acyclicity must hold for every naming and every number of arcs", "anchors": ["ylearn/causal_model/graph.py:CausalGraph.explicit_unob_var_dag"]}
{"id": "C10", "title": "topo_order is a topological order", "statement": "For an acyclic causation, list(cg.topo_order) lists every node that has an observed edge exactly once, and every parent before its children.", "quantifier": "all acyclic causation dicts", "why_tests_cant": "ordering over graphs of any size", "anchors": ["ylearn/causal_model/graph.py:CausalGraph.topo_order"]}
{"id": "C11", "title": "is_dag decides acyclicity", "statement": "cg.is_dag is True iff there is no directed cycle of observed edges.", "quantifier": "all causation dicts", "why_tests_cant": "cycles of any length in any graph", "anchors": ["ylearn/causal_model/graph.py:CausalGraph.is_dag"]}
{"id": "C12", "title": "is_d_separated decides d-separation", "statement": "cg.is_d_separated(x, y, z) is True iff every trail between a node of x and a node of y in the graph with explicit hidden variables is blocked by z (Pearl's path definition).", "quantifier": "all acyclic graphs with latent arcs, all pairwise disjoint node sets x,y,z of the graph", "why_tests_cant": "the test is a graph-pruning algorithm; agreement with the path definition quantifies over all trails of all graphs", "anchors": ["ylearn/causal_model/graph.py:CausalGraph.is_d_separated"]}
{"id": "C13", "title": "is_valid_backdoor_set decides the backdoor criterion", "statement": "cm.is_valid_backdoor_set(Z, X, Y) is True iff no node of Z is a descendant of a treatment and Z blocks every backdoor path between treatments and outcomes.", "quantifier": "all acyclic graphs with latent arcs, all X, Y, Z", "why_tests_cant": "criterion quantifies over all paths of all graphs", "anchors": ["ylearn/causal_model/model.py:CausalModel.is_valid_backdoor_set"]}
{"id": "C14", "title": "A set accepted as backdoor set yields an unbiased adjustment estimand", "statement": "If Z is returned by get_backdoor_set(adjust='all'/'minimal') (or accepted by is_valid_backdoor_set and free of treatment descendants), then for every discrete structural model compatible with the graph, sum_z P(y|x,z)P(z) equals P(y|do(x)) and the returned Prob denotes that sum.", "quantifier": "all acyclic graphs with latent arcs, all strictly positive discrete distributions factorising over the graph, all treatment/outcome sets", "why_tests_cant": "a statement about all data-generating distributions; tests can only try a few simulated ones", "anchors": ["ylearn/causal_model/model.py:CausalModel.get_backdoor_set", "ylearn/causal_model/model.py:CausalModel.is_valid_backdoor_set", "ylearn/causal_model/prob.py:Prob"]}
{"id": "C15", "title": "get_backdoor_set('all') is complete and 'minimal' is minimal", "statement": "adjust='all' returns, without repetition, exactly the sets of non-descendants (excluding X and Y) that d-separate X and Y after cutting X's out-edges; adjust='minimal' returns one such set and no such set has fewer elements; an IdentificationError is raised iff there is none.", "quantifier": "all graphs, treatments, outcomes, all set iteration orders", "why_tests_cant": "exhaustive-search correctness over all graphs and all iteration orders of Python sets", "anchors": ["ylearn/causal_model/model.py:CausalModel.get_backdoor_set", "ylearn/causal_model/utils.py:powerset"]}
{"id": "C16", "title": "get_backdoor_set('simple') returns a valid backdoor set", "statement": "adjust='simple' returns the parents of the treatments, and that set is a valid backdoor adjustment set.", "quantifier": "all graphs, single and multiple treatments", "why_tests_cant": "validity for every graph, including ones with latent arcs", "anchors": ["ylearn/causal_model/model.py:CausalModel.get_backdoor_set"]}
{"id": "C17", "title": "get_backdoor_set fails only when no backdoor set exists", "statement": "get_backdoor_set reports failure (None or IdentificationError) iff no set of observed non-descendants satisfies the backdoor criterion, and it never crashes with another exception on nodes of the graph.", "quantifier": "all graphs, treatments, outcomes", "why_tests_cant": "completeness over all graphs", "anchors": ["ylearn/causal_model/model.py:CausalModel.get_backdoor_set"]}
{"id": "C18", "title": "powerset enumerates every subset once, smallest first", "statement": "powerset(s) has 2^|s| elements, contains each subset exactly once, and sizes are non-decreasing.", "quantifier": "all finite sets and all iteration orders", "why_tests_cant": "all sizes", "anchors": ["ylearn/causal_model/utils.py:powerset"]}
{"id": "C19", "title": "get_backdoor_path returns exactly the backdoor paths", "statement": "cm.get_backdoor_path(t, o) lists exactly the simple paths (ignoring direction) of length >= 2 edges from t to o whose first edge points into t.", "quantifier": "all graphs and node pairs", "why_tests_cant": "all paths of all graphs", "anchors": ["ylearn/causal_model/model.py:CausalModel.get_backdoor_path"]}
{"id": "C20", "title": "has_collider detects colliders", "statement": "For a path with at least 3 nodes, cm.has_collider(path) is True iff some interior node has both adjacent path edges pointing into it.", "quantifier": "all acyclic graphs, all valid simple paths", "why_tests_cant": "the scan is a hand-written state machine over arbitrary-length paths", "anchors": ["ylearn/causal_model/model.py:CausalModel.has_collider"]}
{"id": "C21", "title": "is_connected_backdoor_path decides unconditional connection", "statement": "cm.is_connected_backdoor_path(path) is True iff path is a backdoor path containing no collider.", "quantifier": "all acyclic graphs and paths whose first edge points into path[0]", "why_tests_cant": "arbitrary-length paths", "anchors": ["ylearn/causal_model/model.py:CausalModel.is_connected_backdoor_path"]}
{"id": "C22", "title": "is_frontdoor_set decides the frontdoor criterion", "statement": "cm.is_frontdoor_set(Z, x, y) is True iff Z intercepts all directed x->y paths, there is no unblocked backdoor path from x to Z, and x blocks all backdoor paths from Z to y.", "quantifier": "all acyclic graphs with latent arcs, all node names x,y and sets Z", "why_tests_cant": "all paths of all graphs; node names of any length", "anchors": ["ylearn/causal_model/model.py:CausalModel.is_frontdoor_set"]}
{"id": "C23", "title": "get_frontdoor_set returns a minimal frontdoor set or raises", "statement": "adjust='simple'/'minimal' returns a set satisfying the frontdoor criterion of least cardinality among sets of nodes on directed x->y paths, 'all' returns all of them, and IdentificationError is raised iff none exists.", "quantifier": "all graphs, treatments, outcomes", "why_tests_cant": "exhaustive-search correctness", "anchors": ["ylearn/causal_model/model.py:CausalModel.get_frontdoor_set"]}
{"id": "C24", "title": "get_iv returns only valid instruments", "statement": "Every node returned by cm.get_iv(t, o) is a parent of t, is not o, and is d-separated from o once the incoming edges of t are removed.", "quantifier": "all acyclic graphs with latent arcs, all t, o", "why_tests_cant": "absence of any connecting trail in any graph", "anchors": ["ylearn/causal_model/model.py:CausalModel.get_iv", "ylearn/causal_model/utils.py:remove_ingo_edges"]}
{"id": "C25", "title": "get_iv is complete for parents of the treatment; is_valid_iv agrees", "statement": "Every parent of t (other than o) that is d-separated from o after removing the incoming edges of t is returned by get_iv; is_valid_iv(t,o,S) is True iff every element of S is returned by get_iv.", "quantifier": "all graphs, t, o, S", "why_tests_cant": "all graphs", "anchors": ["ylearn/causal_model/model.py:CausalModel.get_iv", "ylearn/causal_model/model.py:CausalModel.is_valid_iv"]}
{"id": "C26", "title": "id is sound", "statement": "If cm.id(y, x) returns a Prob, then for every strictly positive discrete structural model compatible with the graph the value of that expression computed from the observational joint equals P(y|do(x)).", "quantifier": "all semi-Markovian DAGs, all compatible distributions, all y,x", "why_tests_cant": "quantifies over all data-generating distributions and all graphs", "anchors": ["ylearn/causal_model/model.py:CausalModel.id"]}
{"id": "C27", "title": "id terminates with a result or IdentificationError", "statement": "For every DAG and disjoint y,x, cm.id(y,x) terminates, and either returns a Prob or raises IdentificationError (it never recurses forever nor crashes).", "quantifier": "all DAGs with latent arcs, all non-empty disjoint y, x of the graph", "why_tests_cant": "recursion depth is data dependent; non-termination and crashes on exotic graphs escape tests", "anchors": ["ylearn/causal_model/model.py:CausalModel.id"]}
{"id": "C28", "title": "id succeeds on every graph without latent arcs", "statement": "If the graph has no latent confounding arcs, id never raises IdentificationError.", "quantifier": "all DAGs without arcs, all disjoint y, x", "why_tests_cant": "all graphs", "anchors": ["ylearn/causal_model/model.py:CausalModel.id"]}
{"id": "C29", "title": "identify does not modify its arguments and remembers them", "statement": "After cm.identify(treatment, outcome, method) returns, the caller's treatment and outcome containers and the names remembered for estimate are the ones passed in.", "quantifier": "all graphs, containers and methods", "why_tests_cant": "mutation through aliasing depends on container type and on the branch taken", "anchors": ["ylearn/causal_model/model.py:CausalModel.identify", "ylearn/causal_model/model.py:CausalModel.get_frontdoor_set"]}
{"id": "C30", "title": "estimate only fits with a valid adjustment set", "statement": "cm.estimate(model, adjustment=A, covariate=V) with at least one of A,V given reaches model.fit only if A union V passes is_valid_backdoor_set for the identified treatment and outcome.", "quantifier": "all graphs, sets and histories of identify/estimate calls", "why_tests_cant": "history dependent (uses remembered treatment/outcome)", "anchors": ["ylearn/causal_model/model.py:CausalModel.estimate"]}
{"id": "C31", "title": "identify_estimate evaluates the models it fitted, one per adjustment set", "statement": "cm.identify_estimate fits one copy of the estimator per backdoor set found and each entry of 'effects' is the estimate of the corresponding fitted copy.", "quantifier": "all graphs and estimators", "why_tests_cant": "aliasing between the template estimator and its fitted copies", "anchors": ["ylearn/causal_model/model.py:CausalModel.identify_estimate"]}
{"id": "C32", "title": "check_nodes / check_cols reject exactly unknown names", "statement": "check_nodes(nodes, *S) (resp. check_cols) raises AssertionError iff some name in some non-empty S (a str counting as one name) is not available.", "quantifier": "all node lists and argument lists", "why_tests_cant": "all argument shapes", "anchors": ["ylearn/causal_model/utils.py:check_nodes", "ylearn/utils/_common.py:check_cols"]}
{"id": "C33", "title": "Prob.parse prints every part of the expression", "statement": "Prob.parse() of a probability expression contains the sum sign iff the marginal set is non-empty, prints every variable and condition, and brackets every factor, so distinct expression trees with the same iteration order have distinct texts.", "quantifier": "all finite Prob trees over names without reserved characters", "why_tests_cant": "structural recursion over arbitrary trees", "anchors": ["ylearn/causal_model/prob.py:Prob.parse"]}
{"id": "C34", "title": "trim_cycle terminates with an acyclic submatrix, or rejects self loops", "statement": "BaseDiscovery.trim_cycle(m) terminates for every square non-negative weight matrix. If no diagonal entry is non-zero it returns an acyclic matrix whose non-zero entries are entries of m with unchanged weight. If some diagonal entry is non-zero it raises IndexError (a defect: the self loop could be trimmed too).", "quantifier": "all square matrices of non-negative weights, all tie-breaking choices among shortest paths", "why_tests_cant": "termination and acyclicity depend on all cycles of the matrix and on the order in which shortest paths are enumerated", "anchors": ["ylearn/causal_discovery/_base.py:BaseDiscovery.trim_cycle"]}
{"id": "C35", "title": "trim_cycle only drops lightest entries of cycles", "statement": "If m is already acyclic trim_cycle(m) = m; an entry is dropped only if it is a lightest entry of some cycle of m and another entry of at least its weight lies on a cycle with it; so entries on no cycle and the entry of strictly largest weight are always kept.", "quantifier": "all square non-negative matrices without self loops, all tie-breaking choices among shortest paths", "why_tests_cant": "all cycles of all matrices", "anchors": ["ylearn/causal_discovery/_base.py:BaseDiscovery.trim_cycle"]}
{"id": "C36", "title": "matrix2dict lists for each variable its causes", "statement": "matrix2dict(m, depth=1)[j] lists exactly the i with m[i,j] != 0, i != j, in column order; with the default depth it lists exactly the i != j from which j is reachable through non-zero entries, in column order. (For depths in between no such statement holds: depth=2 can miss a variable two steps away.)", "quantifier": "all square matrices and distinct names", "why_tests_cant": "reachability over all matrices", "anchors": ["ylearn/causal_discovery/_base.py:BaseDiscovery.matrix2dict"]}
{"id": "C37", "title": "matrix2array reports the stronger direction of each pair", "statement": "For every unordered pair of variables matrix2array/matrix2df returns one row, oriented in the direction of larger absolute weight and carrying that weight, for DataFrame and for ndarray inputs alike.", "quantifier": "all square matrices of both container types", "why_tests_cant": "all matrices", "anchors": ["ylearn/causal_discovery/_base.py:BaseDiscovery.matrix2array"]}
{"id": "C38", "title": "Identified roles are disjoint", "statement": "The (adjustment, covariate, instrument) returned by the default and the discovery identifiers never contain the outcome or a treatment, contain only data columns, and covariate and instrument are disjoint.", "quantifier": "all causal matrices, column lists, treatments, outcomes and identification methods", "why_tests_cant": "all graphs and column layouts", "anchors": ["ylearn/api/_identifier.py:DefaultIdentifier.identify_aci", "ylearn/api/_identifier.py:IdentifierWithDiscovery.identify_aci", "ylearn/api/_identifier.py:IdentifierWithDiscovery._identify_ci_dfs", "ylearn/api/_identifier.py:IdentifierWithDiscovery._identify_ci_straight_forward"]}
{"id": "C39", "title": "Instruments identified by dfs are causes of a treatment but not of the outcome", "statement": "With the positive entries of the causal matrix as edges, _identify_ci_dfs puts in covariate exactly the non-treatment ancestors of the outcome and in instrument exactly the other ancestors of some treatment that are not ancestors of the outcome; an unknown name raises ValueError.", "quantifier": "all causal matrices, treatment lists, outcomes, column names", "why_tests_cant": "reachability in all graphs", "anchors": ["ylearn/api/_identifier.py:IdentifierWithDiscovery._identify_ci_dfs"]}
{"id": "C40", "title": "select_by_task / align_task_to_first respect type and limit", "statement": "The identified treatments are a subsequence of the ranked columns, all of the required (resp. the first column's) task type, at most count_limit many, and no eligible earlier column is skipped; with count_limit >= 1.", "quantifier": "all column lists, limits and task assignments", "why_tests_cant": "all list lengths and limits (off-by-one at the limit)", "anchors": ["ylearn/api/utils.py:select_by_task", "ylearn/api/utils.py:align_task_to_first"]}
{"id": "C41", "title": "safe_remove removes listed values once and respects copy", "statement": "safe_remove(alist, value) returns alist without the first occurrence of each listed value, leaves the others in order, and with copy=True leaves the caller's list unchanged.", "quantifier": "all lists and values", "why_tests_cant": "all lists; aliasing", "anchors": ["ylearn/api/utils.py:safe_remove"]}
{"id": "C42", "title": "safe_treat_control(_list) normalises or rejects", "statement": "safe_treat_control returns None for None, otherwise a list with one value per treatment, or raises; safe_treat_control_list returns a list of such lists or raises.", "quantifier": "all treatment lists and user values of every accepted shape", "why_tests_cant": "all shapes", "anchors": ["ylearn/api/utils.py:safe_treat_control", "ylearn/api/utils.py:safe_treat_control_list"]}
{"id": "C43", "title": "causal_effect enumerates every treat-vs-control contrast once", "statement": "In Why.causal_effect with treat=None, the sequential enumeration yields for every treatment every class other than the control exactly once; the combined enumeration yields every tuple of classes other than the control tuple exactly once; encoded values are positions in the sorted class list.", "quantifier": "all treatments, encoders, controls", "why_tests_cant": "all class counts", "anchors": ["ylearn/api/_why.py:Why._permute_treat_control_sequential", "ylearn/api/_why.py:Why._permute_treat_control_combined"]}
{"id": "C44", "title": "Uplift row selection keeps exactly treated and control rows, encoded 1/0", "statement": "Why.uplift_model works on exactly the rows whose treatments equal the treat tuple or the control tuple; treat rows are encoded 1 and control rows 0, no row is NaN, when treat differs from control.", "quantifier": "all data frames, treatment lists, treat/control tuples", "why_tests_cant": "all rows and tuples", "anchors": ["ylearn/api/utils.py:select_by_treat_control", "ylearn/api/utils.py:encode_treat_control", "ylearn/api/_why.py:Why.uplift_model"]}
{"id": "C45", "title": "Using an unfitted Why is rejected", "statement": "Calling _preprocess-based methods (causal_effect, score, whatif, ...) on a Why object before fit raises the documented assertion.", "quantifier": "all call histories starting from construction", "why_tests_cant": "history property over all method sequences", "anchors": ["ylearn/api/_why.py:Why.__init__", "ylearn/api/_why.py:Why._preprocess", "ylearn/api/_why.py:Why._safe_treat_control"]}
{"id": "C46", "title": "whatif answers factual queries with the factual outcome", "statement": "For a discrete treatment, Why.whatif(data, new_value) returns y unchanged on every row whose new value equals the observed value, and on other rows y plus the estimated effect of (new vs observed) for that row, aligned to the row's index.", "quantifier": "all data frames with distinct indices, all new_value vectors, all estimators", "why_tests_cant": "alignment over all groupings of rows", "anchors": ["ylearn/api/_why.py:Why._whatif_discrete"]}
{"id": "C47", "title": "Why.causal_graph orients edges from causes to effects", "statement": "Without discovery, Why.causal_graph() returns a graph in which covariates/adjustments are parents of treatment and outcome, instruments are parents of treatment.", "quantifier": "all fitted role assignments", "why_tests_cant": "must hold for every role assignment", "anchors": ["ylearn/api/_why.py:Why.causal_graph"]}
{"id": "C48", "title": "to_list / join_list parse and concatenate names", "statement": "to_list splits a comma separated string into its non-empty stripped names, passes lists through, and join_list concatenates its arguments in order, skipping None.", "quantifier": "all strings and lists", "why_tests_cant": "all strings", "anchors": ["ylearn/utils/_common.py:to_list", "ylearn/utils/_common.py:join_list"]}
{"id": "C49", "title": "to_snake_case inverts nothing but never yields upper case or leading underscores", "statement": "to_snake_case(s) contains no ASCII upper-case letter, does not start with '_', and equals s on strings that already have this form.", "quantifier": "all ASCII strings", "why_tests_cant": "all strings", "anchors": ["ylearn/utils/_common.py:to_snake_case"]}
{"id": "C50", "title": "drop_none and check_fitted guards", "statement": "drop_none keeps exactly the non-None items in order; a method decorated by check_fitted runs iff the fitted flag is truthy, otherwise raises ValueError without running.", "quantifier": "all keyword maps, flags and check options", "why_tests_cant": "all argument combinations", "anchors": ["ylearn/utils/_common.py:drop_none", "ylearn/utils/_common.py:check_fitted"]}
{"id": "C51", "title": "infer_task_type classification rules", "statement": "infer_task_type returns multilabel for more than one column. Otherwise it looks at the distinct values left after removing None and the np.nan object (dropna) and the excluded values; NaN entries of a float array are not that object and count as one value. It raises for fewer than two of them, answers binary iff there are exactly two, regression only for float data or integers with many distinct values, and the labels are the sorted distinct values for non-regression tasks.", "quantifier": "all outcome vectors and options", "why_tests_cant": "all data", "anchors": ["ylearn/utils/_common.py:infer_task_type"]}
{"id": "C52", "title": "Uplift curves have their documented endpoints and shape", "statement": "For true-effect data: cumulative lift at k is the mean true effect of the k highest ranked rows, gain at k is the sum of their true effects, the curve starts at 0 and the final gain does not depend on the ranking.", "quantifier": "all finite score/effect columns", "why_tests_cant": "all data sets and rankings", "anchors": ["ylearn/uplift/_metric.py:LiftCumulatorWithTrueEffect", "ylearn/uplift/_metric.py:GainCumulatorWithTrueEffect", "ylearn/uplift/_metric.py:Cumulator.cumulate"]}
{"id": "C53", "title": "Lift from observed treatments is treated mean minus control mean of the top-k", "statement": "For every cut-off score with k rows at or above it, LiftCumulatorWithTreatment at k equals the mean outcome of the treated among these rows minus that of the controls whenever both groups are non-empty; gain is k times that; the qini value is the treated outcome sum minus the control sum scaled by n_t/n_c. Before both groups have appeared in the ranking the curve is the straight line from 0 to its first defined point; no curve value is NaN.", "quantifier": "all data sets and rankings, ties included", "why_tests_cant": "all data sets", "anchors": ["ylearn/uplift/_metric.py:LiftCumulatorWithTreatment", "ylearn/uplift/_metric.py:GainCumulatorWithTreatment", "ylearn/uplift/_metric.py:QiniCumulatorWithTreatment", "ylearn/uplift/_metric.py:Cumulator.cumulate"]}
{"id": "C54", "title": "Uplift scores are invariant under monotone rescaling of the scores", "statement": "Applying a strictly increasing function to a score column changes no curve, no auuc and no qini score (for score columns without ties).", "quantifier": "all data, all strictly increasing maps", "why_tests_cant": "all functions and data", "anchors": ["ylearn/uplift/_metric.py:Cumulator.cumulate", "ylearn/uplift/_metric.py:auuc_score", "ylearn/uplift/_metric.py:qini_score"]}
{"id": "C55", "title": "Normalised gain ends at +1 or -1 and auuc is the mean of the curve", "statement": "With normalize=True the last value of each gain/qini column is 1 or -1 (when the raw end is non-zero) and auuc_score is the average of the n+1 curve values.", "quantifier": "all curves", "why_tests_cant": "all data", "anchors": ["ylearn/uplift/_metric.py:get_gain", "ylearn/uplift/_metric.py:get_qini", "ylearn/uplift/_metric.py:auuc_score"]}
{"id": "C56", "title": "Markov/upstream/downstream blankets", "statement": "DiGraph.get_markov_blanket(S) is exactly parents, children and co-parents of S (with S iff return_self); get_blanket(kind, return_self) agrees with it for any kind and never returns nodes of S when return_self is False.", "quantifier": "all directed graphs and node lists (given as list or comma-separated string)", "why_tests_cant": "all graphs and argument shapes", "anchors": ["ylearn/bayesian/_dag.py:DiGraph.get_markov_blanket", "ylearn/bayesian/_dag.py:DiGraph.get_blanket", "ylearn/bayesian/_dag.py:DiGraph.get_upstream_blanket", "ylearn/bayesian/_dag.py:DiGraph.get_downstream_blanket"]}
{"id": "C57", "title": "DAG construction rejects exactly cyclic or disconnected graphs", "statement": "DAG(graph) succeeds iff the graph is acyclic and weakly connected.", "quantifier": "all directed graphs", "why_tests_cant": "all graphs", "anchors": ["ylearn/bayesian/_dag.py:DiGraph.__init__", "ylearn/bayesian/_dag.py:DAG"]}
{"id": "C58", "title": "Category encode/decode round trip", "statement": "For a CategoryNodeState, decode(encode(v)) = v for every known class v and encode(decode(i)) = i for every index below n_classes.", "quantifier": "all class lists with distinct values (any order)", "why_tests_cant": "binary search correctness on all sorted arrays", "anchors": ["ylearn/bayesian/_base.py:CategoryNodeState"]}
{"id": "C59", "title": "Weighted priority queue stays sorted and is a multiset", "statement": "After any sequence of push/pop/remove the queue is sorted by value, holds exactly the pushed records minus the popped/removed ones, pop returns a minimum, remove reports -1 iff the record is absent.", "quantifier": "all sequences of operations and all real values/weights", "why_tests_cant": "all histories", "anchors": ["ylearn/sklearn_ex/cloned/tree/_utils.pyx:WeightedPQueue"]}
{"id": "C60", "title": "Streaming weighted median is the weighted median", "statement": "After any sequence of push/pop/remove with positive weights, get_median returns the weighted median of the current records (smallest value whose cumulative weight reaches half of the total, averaged with the next value on exact ties).", "quantifier": "all histories with positive weights", "why_tests_cant": "incremental bookkeeping (k, sum_w_0_k, total_weight) over all histories", "anchors": ["ylearn/sklearn_ex/cloned/tree/_utils.pyx:WeightedMedianCalculator"]}
{"id": "C61", "title": "Split statistics equal the statistics of the split", "statement": "After init on samples[start:end] and any sequence of reset/reverse_reset (with any rearrangement of the node's samples before them) and update(new_pos), the left (right) sums, squared sums and counts of treated and control of a causal-tree criterion, and the weighted sums and weights of a regression or policy criterion, are those of samples[start:pos] (samples[pos:end]).", "quantifier": "all sample arrays, weights, and all call sequences whose updates move forward (pos <= new_pos <= end), which is the documented contract ('moving samples[pos:new_pos] to the left'); backward moves, missing weights and several outcomes are covered by refutations", "why_tests_cant": "update switches between adding from the left and subtracting from the right depending on the distances; the incremental state must agree with the definition after every history.", "anchors": ["ylearn/estimator_model/_tree/tree_criterion.pyx:HonestCMSE", "ylearn/estimator_model/_tree/tree_criterion_lib.cpp:on_update", "ylearn/sklearn_ex/cloned/tree/_criterion.pyx:RegressionCriterion"]}
{"id": "C62", "title": "Proxy improvement ranks splits like the true improvement", "statement": "For every two candidate splits of a node, the one with the larger proxy_impurity_improvement also has the larger (or equal) impurity_improvement, and conversely, for CMSE, HonestCMSE, MSE and the two policy-tree criteria PRegCriteria and PRegCriteria1.", "quantifier": "all nodes with positive weights and all pairs of proper splits (any feature, any position)", "why_tests_cant": "The splitter only compares proxies and reports the improvement of the winner; agreement must hold for every pair of splits.", "anchors": ["ylearn/estimator_model/_tree/tree_criterion.pyx:proxy_impurity_improvement,impurity_improvement", "ylearn/policy/_tree/tree_criterion.pyx:PRegCriteria,PRegCriteria1"]}
{"id": "C63", "title": "Work partition covers every estimator once", "statement": "_partition_estimators(n, jobs) returns contiguous ranges that cover 0..n-1 exactly once, whose sizes differ by at most one, with at most min(jobs, n) jobs.", "quantifier": "all n >= 1 and effective job counts >= 1", "why_tests_cant": "all sizes", "anchors": ["ylearn/estimator_model/utils.py:_partition_estimators"]}
{"id": "C64", "title": "One-hot decoding, cartesian products and group selection", "statement": "convert4onehot maps the one-hot vector of class i to i; cartesian lists each tuple of the product exactly once; get_groups returns exactly the rows whose treatment equals the target.", "quantifier": "all numbers of classes, arrays and targets", "why_tests_cant": "all shapes", "anchors": ["ylearn/estimator_model/utils.py:convert4onehot", "ylearn/estimator_model/utils.py:cartesian", "ylearn/estimator_model/utils.py:get_groups"]}
{"id": "C65", "title": "A returned frontdoor set yields the causal effect", "statement": "If cm.get_frontdoor_set(x, y, adjust) returns (Z, prob) (or a list of sets and prob), then for every strictly positive discrete structural model compatible with the graph, the frontdoor formula sum_z P(z|x) sum_x' P(y|x',z)P(x') of each returned set equals P(y|do(x)), and the returned Prob denotes that value.", "quantifier": "all graphs, single treatment and outcome with an observed edge, all structural models compatible with the graph and all values", "why_tests_cant": "It is an equation between distributions that has to hold for every graph and every compatible joint distribution with hidden variables.", "anchors": ["ylearn/causal_model/model.py: CausalModel.get_frontdoor_set", "ylearn/causal_model/prob.py: Prob"]}
{"id": "C66", "title": "estimate without sets adjusts for a valid set of the identified pair", "statement": "After any sequence of identify calls, cm.estimate(model) with neither adjustment nor covariate reaches model.fit only with an adjustment set that satisfies the backdoor criterion for the treatment and outcome passed to fit.", "quantifier": "all graphs, all histories of identify calls on one CausalModel object, all set iteration orders", "why_tests_cant": "The set used depends on the attribute left behind by earlier calls, so it is a property of histories, not of one call.", "anchors": ["ylearn/causal_model/model.py:CausalModel.estimate", "ylearn/causal_model/model.py:CausalModel.identify", "ylearn/causal_model/model.py:CausalModel.get_backdoor_set"]}
{"id": "C67", "title": "CausalDiscovery reports a DAG made of the stronger directions", "statement": "After learning a non-negative weight matrix w and for every threshold, CausalDiscovery returns without error an acyclic matrix: each of its entries is an entry of w, not below the threshold, off the diagonal, and at least as strong as the opposite direction (ties keep the direction from the earlier to the later column); such an entry of w is missing from the result only if it lies on a cycle of such entries that contains another one of at least its weight.", "quantifier": "all square non-negative weight matrices, thresholds and enumeration orders of shortest paths", "why_tests_cant": "all cycles of all matrices", "anchors": ["ylearn/causal_discovery/_discovery.py:CausalDiscovery.__call__", "ylearn/causal_discovery/_discovery.py:CausalDiscovery._to_dag", "ylearn/causal_discovery/_base.py:BaseDiscovery.trim_cycle"]}
{"id": "C68", "title": "The two discovery identification methods agree", "statement": "identify_aci with method 'straight' returns the same covariates (causes of the outcome) and instruments (causes of a treatment that do not cause the outcome) as method 'dfs'.", "quantifier": "all causal matrices, treatment lists, outcomes, set orders", "why_tests_cant": "reachability in all graphs", "anchors": ["ylearn/api/_identifier.py:IdentifierWithDiscovery._identify_ci_straight_forward", "ylearn/api/_identifier.py:IdentifierWithDiscovery._identify_ci_dfs"]}
{"id": "C69", "title": "Why.identify returns the given roles without the treatments and leaves the caller's arguments alone", "statement": "When the user names adjustment, covariate or instrument, Why.identify returns these names in order, without the treatments and without the outcome, does not modify the lists passed in, and accepts tuples; when all are empty it returns the identifier's answer.", "quantifier": "all role arguments (None, string, list, tuple), treatments and outcomes", "why_tests_cant": "aliasing of caller's lists over all inputs", "anchors": ["ylearn/api/_why.py:Why.identify", "ylearn/api/utils.py:safe_remove", "ylearn/utils/_common.py:to_list"]}
{"id": "C70", "title": "The outcome value a user asks about is the one the estimator is asked about", "statement": "For a discrete outcome, the target_outcome argument of causal_effect, uplift_model, individual_causal_effect and the effect arrays is converted to its position among the sorted outcome classes (which is what the estimators were fitted on), the last class by default, and an unknown value raises ValueError.", "quantifier": "all outcome class lists and all target values", "why_tests_cant": "all encoders and labels", "anchors": ["ylearn/api/_why.py:Why.causal_effect", "ylearn/api/_why.py:Why.uplift_model", "ylearn/api/_why.py:Why.individual_causal_effect", "ylearn/api/_why.py:Why._inverse_transform_outcome"]}
{"id": "C72", "title": "Every treatment selection of a fitted Why has an estimator", "statement": "After fit, the estimator for a treatment list exists exactly when the list is one fitted treatment, or an ordered pair of two different fitted treatments when these are discrete; any other list raises KeyError; in particular the default treatment list of uplift_model has one.", "quantifier": "all treatment lists, discrete or not", "why_tests_cant": "all treatment counts", "anchors": ["ylearn/api/_why.py:Why.fit", "ylearn/api/_why.py:Why._get_estimator"]}
{"id": "C73", "title": "Discovery finds an instrument when the causal matrix has one", "statement": "If some column causes the treatment and influences the outcome only through the treatment, identify_aci with discovery returns it among the instruments.", "quantifier": "all causal matrices in which the treatments cause the outcome", "why_tests_cant": "graph reachability", "anchors": ["ylearn/api/_identifier.py:IdentifierWithDiscovery._identify_ci_dfs", "ylearn/api/_identifier.py:IdentifierWithDiscovery.identify_aci"]}
{"id": "C74", "title": "Ranking by the true effect maximises the gain curve", "statement": "With true effects, a score column that ranks like the true effect has, at every k, a gain at least that of any other score column, and therefore the largest auuc, normalised or not.", "quantifier": "all data, all score columns", "why_tests_cant": "rearrangement inequality over all rankings", "anchors": ["ylearn/uplift/_metric.py:GainCumulatorWithTrueEffect", "ylearn/uplift/_metric.py:auuc_score"]}
{"id": "C75", "title": "All uplift curves end at the same point, also RANDOM", "statement": "The last value of every lift, gain or qini curve is the value of the whole population, so it is the same for all score columns and for the RANDOM baseline.", "quantifier": "all data, score columns and random draws", "why_tests_cant": "all rankings and draws", "anchors": ["ylearn/uplift/_metric.py:Cumulator.cumulate", "ylearn/uplift/_metric.py:Cumulator.cumulate_with_random"]}
{"id": "C76", "title": "The top point is the best cut-off score", "statement": "gain_top_point/qini_top_point return a score of the data such that selecting the rows with at least this score gives the largest curve value over all non-empty selections by cut-off (scores without ties).", "quantifier": "all data without tied scores", "why_tests_cant": "all cut-offs", "anchors": ["ylearn/uplift/_metric.py:Cumulator.cumulate", "ylearn/uplift/_metric.py:gain_top_point", "ylearn/uplift/_metric.py:qini_top_point"]}
{"id": "C77", "title": "Refitting a Bayesian network", "statement": "bn.fit(data) on a network that was fitted or intervened on before gives the same network as fitting a new one: no interventions left, and no dependence on the earlier parameters.", "quantifier": "all networks, histories and data sets", "why_tests_cant": "depends on every earlier history of the object", "anchors": ["ylearn/bayesian/_network.py:BayesianNetwork.fit", "ylearn/bayesian/_network.py:SviBayesianNetwork._fit", "ylearn/bayesian/_network.py:with_pyro_ps"]}
{"id": "C78", "title": "Interventions accumulate, and a failing do() changes nothing", "statement": "After bn.do(iv) the interventions are the old ones overridden by iv; with inplace=False the original network is unchanged; a do() that raises leaves the network as it was.", "quantifier": "all networks, interventions and failure points", "why_tests_cant": "crash points in every history", "anchors": ["ylearn/bayesian/_network.py:SviBayesianNetwork.do", "ylearn/bayesian/_network.py:BayesianNetwork._get_stub"]}
{"id": "C79", "title": "Ancestral sampling", "statement": "Sampling any set of nodes from any partial data never fails for lack of an input; it generates exactly the requested nodes and the unobserved nodes they depend on, each from its distribution given the values of its parents, conditioned values first, then observed ones; the result contains exactly the requested nodes.", "quantifier": "all directed acyclic connected graphs, requested nodes, partial data sets, conditions and node distributions", "why_tests_cant": "all graphs and all partial data", "anchors": ["ylearn/bayesian/_network.py:BayesianModel.model"]}
{"id": "C80", "title": "Reading calls do not change the network", "statement": "predict and sample leave the fitted network unchanged: every later call returns what it would have returned without them.", "quantifier": "all networks and call histories", "why_tests_cant": "all histories", "anchors": ["ylearn/bayesian/_network.py:BayesianNetwork.predict", "ylearn/bayesian/_network.py:BayesianNetwork.sample", "ylearn/bayesian/_network.py:BayesianNetwork.estimate"]}
{"id": "C81", "title": "estimate() measures the effect of the treatment", "statement": "Each arm of bn.estimate draws the outcome from the network in which the treatment is set to the arm's value, including its indirect effect through other nodes.", "quantifier": "all networks, data sets, treatments and outcomes", "why_tests_cant": "all graphs and data", "anchors": ["ylearn/bayesian/_network.py:BayesianNetwork.estimate"]}
{"id": "C82", "title": "Sample collectors", "statement": "A numerical collector returns the mean of the values it was called with, a category collector the share of each class (proba) or a most frequent class, unit by unit, without changing its arguments.", "quantifier": "all sequences of samples", "why_tests_cant": "all sequences, and aliasing between tensors", "anchors": ["ylearn/bayesian/_collectors.py:NumberSampleCollector", "ylearn/bayesian/_collectors.py:CategorySampleCollector"]}
{"id": "C83", "title": "do() works on every set of nodes", "statement": "bn.do succeeds for every non-empty set of nodes of the network, every blanket kind and every valid data argument.", "quantifier": "all graphs, intervened sets and blanket kinds", "why_tests_cant": "all graphs and subsets", "anchors": ["ylearn/bayesian/_network.py:SviBayesianNetwork.do", "ylearn/bayesian/_dag.py:DiGraph.get_blanket"]}
{"id": "C84", "title": "The global pyro parameter store is protected", "statement": "After any sequence of calls of fit, do and predict_raw on any networks, failing or not, the global parameter store has its initial contents, and no call depends on those contents.", "quantifier": "all histories, including exceptions", "why_tests_cant": "all histories and crash points", "anchors": ["ylearn/bayesian/_network.py:with_pyro_ps"]}
{"id": "C85", "title": "check_classes finds the class", "statement": "check_classes(target, classes) returns None for target None; for a target that is one of the classes (distinct) it returns exactly its position; for anything else (also when there are no classes) it raises AssertionError.", "quantifier": "every target and every list of distinct classes", "why_tests_cant": "The position must be right for every class list, not for the tested ones.", "anchors": ["ylearn/estimator_model/utils.py:check_classes"]}
{"id": "C86", "title": "count_leaf_num counts equal leaves", "statement": "count_leaf_num(y) returns, for every sample, the number of samples of the whole array with the same value, in the order of the samples.", "quantifier": "every integer array y", "why_tests_cant": "The code selects from a tiled table by a boolean mask; that the selected entries line up with the samples has to hold for every arrangement of values.", "anchors": ["ylearn/estimator_model/utils.py:count_leaf_num"]}
{"id": "C87", "title": "nd_kron is the row-wise Kronecker product", "statement": "nd_kron(x, y) has at row i, position j*dy + k the product x[i][j]*y[i][k]; arrays with different numbers of rows raise AssertionError.", "quantifier": "every pair of matrices", "why_tests_cant": "Holds for all shapes, including empty ones.", "anchors": ["ylearn/estimator_model/utils.py:nd_kron"]}
{"id": "C88", "title": "The impurity handed to a child is the child's impurity", "statement": "The impurities computed for the two children of a split, which the builder stores in the child nodes, equal the node impurity the criterion computes when initialised on the child's samples.", "quantifier": "all nodes, splits and criteria", "why_tests_cant": "Split search and node statistics are computed by different code on different state; they must agree for every split.", "anchors": ["ylearn/estimator_model/_tree/tree_criterion.pyx:children_impurity,node_impurity", "ylearn/policy/_tree/tree_criterion.pyx:children_impurity,node_impurity"]}
{"id": "C89", "title": "Trees split where the criterion gains most", "statement": "In a tree grown with splitter='best' and all features (max_features=None), every internal node splits its training samples by a feature and threshold that leave at least min_samples_leaf samples on each side, separate them by more than the feature tolerance, gain at least min_impurity_decrease (up to machine epsilon), and no other allowed split of any feature gains more; every leaf is a leaf for a stated reason: depth, too few samples, too little weight, impurity (near) zero, or no allowed split gaining min_impurity_decrease.", "quantifier": "all data sets with non-negative weights, all parameter settings, all criteria whose proxy ranks splits like the improvement (HonestCMSE, CMSE, MSE, PRegCriteria), all random sequences", "why_tests_cant": "The search skips features known to be constant in ancestors, moves samples in place and compares a proxy computed incrementally; that the winner is globally best must hold for every node of every tree.", "anchors": ["ylearn/sklearn_ex/cloned/tree/_splitter.pyx:BestSplitter.node_split", "ylearn/sklearn_ex/cloned/tree/_tree.pyx:DepthFirstTreeBuilder", "ylearn/policy/policy_model.py:PolicyTree.fit", "ylearn/estimator_model/causal_tree.py:CausalTree.fit"]}
{"id": "C90", "title": "max_features limits the search but never hides every usable feature", "statement": "With max_features smaller than the number of features (or splitter='random'), at every node the splits of a set of distinct features, none constant on the node's samples, are examined; either all non-constant features are among them, or at least one was and together with the constant features drawn they are at least max_features. The split chosen is the best of those examined (splitter='best'), and a node is not made a leaf for want of a split before a non-constant feature was examined.", "quantifier": "all data, settings, criteria (including PRegCriteria1) and random sequences", "why_tests_cant": "Features are drawn by an in-place Fisher-Yates shuffle that carries the known constant features from parent to child; the invariants must hold along every path and every random sequence.", "anchors": ["ylearn/sklearn_ex/cloned/tree/_splitter.pyx:BestSplitter.node_split,RandomSplitter.node_split"]}
{"id": "C91", "title": "A fitted tree partitions its training samples", "statement": "Fitting succeeds whenever a sample has non-zero weight and yields at most 2n-1 nodes, one more leaf than internal nodes; every row reaches exactly one leaf; the sample count, weight, value and impurity stored in a node are those of the training samples whose decision path goes through it, a prediction is the value of the training samples in the same leaf; no leaf is empty or smaller than min_samples_leaf (unless it is the root); the depth reported by get_depth is the length of the longest path and at most max_depth; decision_path lists the nodes from root to leaf and stays within its buffer.", "quantifier": "all data sets, settings, criteria, random sequences and query rows", "why_tests_cant": "The builder works on index ranges of a shared array that later splits rearrange; node statistics must match for every tree shape.", "anchors": ["ylearn/sklearn_ex/cloned/tree/_tree.pyx:DepthFirstTreeBuilder,Tree._add_node,Tree.apply,Tree.predict,Tree.decision_path", "ylearn/sklearn_ex/cloned/tree/_splitter.pyx"]}
{"id": "C92", "title": "A causal tree's estimate is the difference between treated and control outcomes", "statement": "After CausalTree.fit, the effect estimated for a row is the mean outcome of the treated training rows in its leaf minus the mean outcome of the control rows in its leaf (honest variant: of the rows set aside for estimation).", "quantifier": "all data sets, treatment codings, tree parameters and query rows", "why_tests_cant": "The estimate passes through sample weights, the splitter's sample selection and the criterion; whether the controls survive is a property of every data set.", "anchors": ["ylearn/estimator_model/causal_tree.py:CausalTree.fit,_assign_honest_values,estimate", "ylearn/sklearn_ex/cloned/tree/_splitter.pyx:Splitter.init"]}
{"id": "C93", "title": "CausalTree.estimate returns the requested quantity", "statement": "estimate() returns one effect per row, in row order and equal to the second entry of effect_nji; estimate(quantity='ATE') or 'CATE' returns the mean of the effects; honest_subsample_num may be an integer or a fraction.", "quantifier": "all fitted trees, rows and parameter values", "why_tests_cant": "All quantities and parameter types must work for every fitted tree.", "anchors": ["ylearn/estimator_model/causal_tree.py:CausalTree.estimate,effect_nji,_get_honest_samples_num"]}
{"id": "C94", "title": "Feature importances add up to one and unused features get zero", "statement": "The normalised feature importances add up to 1 when some split reduced the impurity, a feature never used for a split has importance 0, and importances of a policy tree are not negative.", "quantifier": "all trees grown on non-negative weights, all criteria", "why_tests_cant": "Importances accumulate over all nodes; normalisation must hold for every tree.", "anchors": ["ylearn/sklearn_ex/cloned/tree/_tree.pyx:Tree.compute_feature_importances", "ylearn/policy/policy_model.py:PolicyTree.feature_importance"]}
{"id": "C95", "title": "min_impurity_decrease is compared with the documented quantity", "statement": "A node is split only if N_t / N * (impurity - N_t_R / N_t * right_impurity - N_t_L / N_t * left_impurity) is at least min_impurity_decrease (up to machine epsilon).", "quantifier": "all trees, data sets and values of min_impurity_decrease", "why_tests_cant": "The gain is computed by the criterion in the splitter and compared in the builder; the documented bound concerns every internal node.", "anchors": ["ylearn/estimator_model/causal_tree.py:CausalTree", "ylearn/policy/policy_model.py:PolicyTree", "ylearn/estimator_model/_tree/tree_criterion.pyx:impurity_improvement"]}
{"id": "C96", "title": "Sorting the samples of a node by a feature", "statement": "Before a feature is scanned, the node's samples are rearranged (none lost, none duplicated) so that their feature values are non-decreasing, for every input order, with ties, and whatever depth limit switches quicksort to heapsort; every round of the quicksort settles at least one position.", "quantifier": "all arrays of feature values (without NaN) and all depth limits", "why_tests_cant": "Introsort, three-way partition and heapsort are in-place loops over indices; correctness is an induction over all arrays.", "anchors": ["ylearn/sklearn_ex/cloned/tree/_splitter.pyx:sort,introsort,heapsort,sift_down,median3"]}
{"id": "C97", "title": "max_leaf_nodes bounds the leaves of a best-first tree", "statement": "A tree grown with max_leaf_nodes = m has between 1 and m leaves and one internal node fewer; every row reaches exactly one leaf, node counts, weights, values and impurities are those of the training samples passing the node, a prediction is the value of the training samples in the leaf, leaves respect min_samples_leaf, and get_depth is the length of the longest path and at most max_depth.", "quantifier": "all data sets, settings, criteria, random sequences and all orders in which the heap breaks ties", "why_tests_cant": "The frontier is a heap and nodes are added before they are expanded or closed; the links and statistics must be right for every order of expansion.", "anchors": ["ylearn/sklearn_ex/cloned/tree/_tree.pyx:BestFirstTreeBuilder", "ylearn/policy/policy_model.py:PolicyTree.fit"]}
{"id": "C98", "title": "Best-first: the split that gains most is made first", "statement": "With max_leaf_nodes, every split made is the best allowed split of its node, and a node that could be split stays a leaf only if the tree already has max_leaf_nodes leaves and every split made while it was waiting gains at least as much as any split it could have had.", "quantifier": "all data sets, settings, ranking criteria and tie-breaking orders", "why_tests_cant": "Greedy optimality relates every leaf to every split made after it was created.", "anchors": ["ylearn/sklearn_ex/cloned/tree/_tree.pyx:BestFirstTreeBuilder,_compare_records,_add_to_frontier"]}
{"id": "C99", "title": "Sample weights count with max_leaf_nodes", "statement": "PolicyTree.fit(sample_weight=w) uses the weights w whether or not max_leaf_nodes is given.", "quantifier": "all data sets, weights and values of max_leaf_nodes", "why_tests_cant": "Whether a parameter has any effect is a statement about all its values.", "anchors": ["ylearn/sklearn_ex/cloned/tree/_tree.pyx:BestFirstTreeBuilder.build,_init_splitter", "ylearn/policy/policy_model.py:PolicyTree.fit"]}
{"id": "C100", "title": "predict_ind gives the best treatment of the leaf", "statement": "predict_ind returns for every row an index of a treatment whose total (weighted) effect over the training rows of the same leaf is largest, the first such index on ties; on the training data the resulting policy has at least the total effect of every policy that is constant on the leaves, in particular of giving everyone the same treatment.", "quantifier": "all effect matrices with at least two treatments, non-negative weights, covariates, tree parameters and query rows", "why_tests_cant": "Optimality is against all policies constant on the leaves.", "anchors": ["ylearn/policy/policy_model.py:PolicyTree.predict_ind,_prepare4est,fit"]}
{"id": "C101", "title": "predict_opt_effect returns the effect of the best treatment", "statement": "predict_opt_effect returns for every row one number: the estimated causal effect of the treatment that predict_ind recommends for it.", "quantifier": "all fitted policy trees and query rows", "why_tests_cant": "The shape and values must be right for every tree and row.", "anchors": ["ylearn/policy/policy_model.py:PolicyTree.predict_opt_effect"]}
{"id": "C102", "title": "Every fitted policy tree can predict", "statement": "fit succeeds whenever the number of effects equals the number of rows and some row has non-zero weight, and after a successful fit predict_ind and predict_opt_effect work, for every number of treatments and every criterion that fit accepts.", "quantifier": "all criteria in CRITERIA, numbers of treatments, data and settings", "why_tests_cant": "Failures depend on the combination of criterion and effect shape, for all data.", "anchors": ["ylearn/policy/policy_model.py:PolicyTree.fit,predict_ind,_prepare4est,CRITERIA"]}
{"id": "C103", "title": "Predicting on the training data is predicting for the training rows", "statement": "predict_ind(data) and predict_opt_effect(data) with the data frame passed to fit equal predict_ind() and predict_opt_effect(), after every sequence of fits.", "quantifier": "all histories of fits (with given effects or with an estimator model) and all data", "why_tests_cant": "Depends on attributes left over from earlier fits.", "anchors": ["ylearn/policy/policy_model.py:PolicyTree.fit,_check_features"]}
{"id": "C104", "title": "The first S-learner estimate is the difference of two predictions", "statement": "After SLearner.fit on fresh data, estimate(data) returns, entry by entry, the prediction of the fitted model for the covariates of data with the group indicator of treat, minus the prediction with the indicator of control; the model was trained on exactly the training covariates followed by the 0/1 indicator of each row's own treatment group; treat/control default to the second/first group, and a value, a list or a 2-column list name the group with those values.", "quantifier": "all regression/classification models, data, numbers of treatment columns, values and documented forms of treat and control", "why_tests_cant": "Must hold for every learner and every data set; encodings, defaults and column orders interact.", "anchors": ["ylearn/estimator_model/meta_learner.py:SLearner.fit,estimate,_prepare4est,_comp_transormer", "ylearn/estimator_model/utils.py:get_tr_ctrl"]}
{"id": "C105", "title": "S-learner estimates can be repeated", "statement": "Calling estimate, effect_nji or any other query does not change what later estimate calls return for the same data.", "quantifier": "all histories of queries after a fit", "why_tests_cant": "A history property: a query may write to the learner.", "anchors": ["ylearn/estimator_model/meta_learner.py:SLearner._prepare4est,estimate"]}
{"id": "C106", "title": "Refitting an S-learner is like fitting a fresh one", "statement": "fit on a learner that was fitted and queried before leaves the same learner and raises in the same cases as fit on a new learner with the same parameters.", "quantifier": "all first fits, histories of queries and second data sets", "why_tests_cant": "Encoders kept from an earlier fit; quantifies over histories.", "anchors": ["ylearn/estimator_model/meta_learner.py:SLearner.fit,_comp_transormer"]}
{"id": "C107", "title": "Documented forms of treat and control are accepted", "statement": "treat and control may be given as a value, a list or a 1-dimensional array naming a group; a given group that occurs in the data is accepted.", "quantifier": "all learners, data and forms of treat and control", "why_tests_cant": "Depends on the type of the argument and of the columns, for all data.", "anchors": ["ylearn/estimator_model/utils.py:get_tr_ctrl", "ylearn/estimator_model/meta_learner.py:SLearner.estimate,TLearner.fit,XLearner.fit"]}
{"id": "C108", "title": "T-learner: each model sees exactly its own group", "statement": "TLearner.fit trains the treated model on exactly the rows whose treatment is treat and the control model on exactly those whose treatment is control (in order), and estimate returns the entrywise difference of their predictions; a treat that does not occur in the data is refused by fit.", "quantifier": "all models, data, numbers of treatment columns, and treat/control", "why_tests_cant": "Selection must be right for every data set and coding of the groups.", "anchors": ["ylearn/estimator_model/meta_learner.py:TLearner.fit,_prepare4est,estimate", "ylearn/estimator_model/utils.py:get_groups,get_tr_ctrl"]}
{"id": "C109", "title": "T- and X-learner queries do not change the learner", "statement": "After any history of estimate and effect_nji calls a T- or X-learner is unchanged and answers every query as before.", "quantifier": "all learners, states and histories of queries", "why_tests_cant": "A history property.", "anchors": ["ylearn/estimator_model/meta_learner.py:TLearner.estimate,effect_nji,XLearner.estimate,effect_nji"]}
{"id": "C110", "title": "categories fixes the groups and their order", "statement": "The categories parameter determines the treatment groups and their order, so that default treat and control are the second and first category.", "quantifier": "all category lists, data and learners", "why_tests_cant": "Whether a parameter is honoured is a statement about all its values.", "anchors": ["ylearn/estimator_model/meta_learner.py:SLearner._comp_transormer,TLearner.fit,XLearner.fit"]}
{"id": "C111", "title": "T- and X-learners can be refitted", "statement": "fit on a T- or X-learner that was fitted before, or whose first fit failed, behaves like fit on a fresh learner.", "quantifier": "all first fits (successful or not), histories and second data sets", "why_tests_cant": "Encoders kept from an earlier fit; quantifies over histories.", "anchors": ["ylearn/estimator_model/meta_learner.py:TLearner.fit,XLearner.fit"]}
{"id": "C112", "title": "X-learner estimate is the weighted mean of the two imputed effects", "statement": "XLearner.fit trains two outcome models on the two groups and two effect models on y_t - f_0(v_t) and f_t(v_0) - y_0; estimate(data, rho) returns rho k_t(v) + (1 - rho) k_0(v), which for 0 <= rho <= 1 lies between the two imputed effects.", "quantifier": "all models, data, rho and treat/control", "why_tests_cant": "Signs, groups and the weighting must be right for all data.", "anchors": ["ylearn/estimator_model/meta_learner.py:XLearner.fit,_prepare4est,estimate"]}
{"id": "C113", "title": "effect_nji has shape (n, j, i) with a zero control column", "statement": "effect_nji returns an array indexed by example, outcome and treatment group, whose control entry is 0 and whose entry for the treatment is the estimated effect.", "quantifier": "all fitted learners (combined or separate treatment) and query data", "why_tests_cant": "Shape and values must be right for all dimensions.", "anchors": ["ylearn/estimator_model/meta_learner.py:SLearner.effect_nji,TLearner.effect_nji,XLearner.effect_nji"]}
{"id": "C114", "title": "Separate treatments: every group against the rest", "statement": "With combined_treat=False a T-learner trains one model per treatment column and value on exactly the rows with that value and the estimate's entries are the differences to the control model; an S-learner evaluates its model only at encodings of existing treatments.", "quantifier": "all data with any number of treatment columns", "why_tests_cant": "The enumeration of groups must be right for all numbers of columns and values.", "anchors": ["ylearn/estimator_model/meta_learner.py:TLearner._fit_separate_treat,_prepare_separate_treat,SLearner._fit_separate_treat"]}
{"id": "C115", "title": "target_outcome asks for the probability of that class", "statement": "estimate(target_outcome=c) with discrete outcomes returns the difference of the probabilities of class c.", "quantifier": "all classifiers, classes and training data", "why_tests_cant": "The class order of each model depends on the data of its group.", "anchors": ["ylearn/estimator_model/meta_learner.py:SLearner.estimate,TLearner.estimate,XLearner.estimate"]}
{"id": "C116", "title": "X-learner with discrete outcome and separate treatments can estimate", "statement": "After a successful XLearner.fit(combined_treatment=False) with is_discrete_outcome, estimate returns the estimated effects.", "quantifier": "all data", "why_tests_cant": "Fails for every data set, or for none.", "anchors": ["ylearn/estimator_model/meta_learner.py:XLearner.estimate,_fit_separate_treat"]}
{"id": "C117", "title": "quantity='ATE' is the mean of the individual effects", "statement": "For S-, T- and X-learners estimate(data, quantity='ATE') returns the mean over the rows of data of what estimate(data) returns, raises exactly when estimate(data) raises, and leaves the learner as estimate(data) does.", "quantifier": "all learners, states, data, target outcomes and rho", "why_tests_cant": "An equation between two calls for every state and data set.", "anchors": ["ylearn/estimator_model/meta_learner.py:SLearner.estimate,TLearner.estimate,XLearner.estimate"]}
{"id": "C118", "title": "DoublyRobust: what an estimate is", "statement": "Fit a new DoublyRobust (no cross fitting, with covariates). The groups are all tuples of treatment values (those that occur, or the given categories). The treatment model is trained on w, v with the group numbers, the outcome model on w, v and the row's own group indicator, the effect model of group i on v with the pseudo outcome of group i minus that of the control group, where the pseudo outcome uses the outcome model's prediction for treatment i; estimate(data, treat) is the prediction of the effect model of the treat group at the covariates of data, and leaves the object unchanged.", "quantifier": "all data sets, numbers of treatment columns, treatment values, models, treat and control arguments, new data", "why_tests_cant": "Holds for every data set and every choice of three models.", "anchors": ["ylearn/estimator_model/doubly_robust.py:DoublyRobust.fit,_fit_1st_stage,_fit_2nd_stage,_prepare4est,estimate,comp_transormer,_YModelWrapper.predict"]}
{"id": "C119", "title": "DoublyRobust is doubly robust", "statement": "Without covariates: the ATE equals the covariate-adjusted difference of group means up to the 1e-5 added to the propensities (a) whenever the treatment model gives the true shares of the groups, whatever the outcome model is, and (b) whenever the outcome model is exact, whatever the treatment model is.", "quantifier": "all data sets, outcome models in (a), treatment models in (b)", "why_tests_cant": "An exact identity over all data sets and all nuisance models.", "anchors": ["ylearn/estimator_model/doubly_robust.py:DoublyRobust.fit,estimate,_YModelWrapper.predict"]}
{"id": "C120", "title": "DoublyRobust without covariates", "statement": "Without covariates, for any cf_fold and any data argument, estimate returns for every training row the pseudo outcome of the treat group minus that of the control group; the effect of the control group against itself is exactly 0 for every row.", "quantifier": "all data sets, models, cf_fold, data and treat arguments", "why_tests_cant": "Holds for every data set.", "anchors": ["ylearn/estimator_model/doubly_robust.py:DoublyRobust.fit,_fit_2nd_stage,_prepare4est"]}
{"id": "C121", "title": "DoublyRobust cross fitting never uses a row for its own nuisance predictions", "statement": "With cf_fold = k >= 2, the propensities and outcome predictions of every training row come from models fitted only on the rows outside a fold of n/k or n/k+1 consecutive rows that contains the row, and the effects are computed from these predictions.", "quantifier": "all n, k, data sets and models, every row", "why_tests_cant": "Quantifies over all rows, fold counts and data sizes.", "anchors": ["ylearn/estimator_model/doubly_robust.py:DoublyRobust._cross_fit,fit"]}
{"id": "C122", "title": "DoublyRobust copes with treatment combinations that have no row", "statement": "With several treatment columns, a data set in which some combination of occurring values has no row can be fitted.", "quantifier": "all data sets with an empty combination, all models", "why_tests_cant": "A claim about all data sets.", "anchors": ["ylearn/estimator_model/doubly_robust.py:DoublyRobust.comp_transormer,fit"]}
{"id": "C123", "title": "DoublyRobust.effect_nji", "statement": "effect_nji(data) has shape (n, y_d, 2): one column for the treat group holding what estimate(data) returns and one column of zeros for the control group, in the order of the group numbers.", "quantifier": "all fitted objects and data", "why_tests_cant": "Relates two calls for every state.", "anchors": ["ylearn/estimator_model/doubly_robust.py:DoublyRobust.effect_nji"]}
{"id": "C124", "title": "Estimates do not change a DoublyRobust object", "statement": "After fit, estimate and effect_nji leave the object as it was, whatever their arguments and whether or not they succeed; a treat argument with a wrong number of values is refused.", "quantifier": "all fits and all later calls", "why_tests_cant": "Ranges over all call histories.", "anchors": ["ylearn/estimator_model/doubly_robust.py:DoublyRobust._prepare4est,comp_transormer"]}
{"id": "C125", "title": "Fitting a DoublyRobust object again", "statement": "Fitting a fitted object on a second data set has the same outcome as fitting a new object on it.", "quantifier": "all pairs of data sets and models", "why_tests_cant": "Ranges over all pairs of data sets.", "anchors": ["ylearn/estimator_model/doubly_robust.py:DoublyRobust.fit,comp_transormer"]}
{"id": "C126", "title": "DoubleML: what an estimate is (continuous treatments)", "statement": "Fit DoubleML with continuous treatments x, covariates v and no transformers. The first-stage models predict x and y from w, v; the final model is fitted on the products of the treatment residuals with (1, v) against the outcome residuals. estimate(data, treat=t, control=c) has shape (n, y_d, x_d) and entry (r, j, i) is (sum over k of coef[j, i*(v_d+1)+k] * (1, v_r)[k]) * (t - c); quantity='ATE' is its mean over the rows.", "quantifier": "all data sets, numbers of columns, first-stage models, final models, earlier states of the object, new data, t and c", "why_tests_cant": "Holds for every data set, every model and every number of treatments, outcomes and covariates.", "anchors": ["ylearn/estimator_model/double_ml.py:DoubleML.fit,estimate,_prepare4est,_fit_1st_stage,_fit_2nd_stage,_cal_x_prime"]}
{"id": "C127", "title": "DoubleML estimates are the change of the final model's prediction", "statement": "The estimate for row r, outcome j, treatment i is what the linear final model's prediction changes by when treatment i is set from c to t, whatever the other treatments are.", "quantifier": "all data sets, models, rows, values of the other treatments", "why_tests_cant": "Quantifies over all values of the other treatments and all fitted models.", "anchors": ["ylearn/estimator_model/double_ml.py:DoubleML.estimate,_cal_x_prime"]}
{"id": "C128", "title": "DoubleML recovers a partially linear effect", "statement": "Suppose y[r,j] = sum_i x[r,i]*effect_ji(v_r) + g(r,j) with effects affine in v, the outcome predictions are sum_i xhat[r,i]*effect_ji(v_r) + g(r,j), and the final model is least squares. Then the estimate is the true effect wherever the data determine it, whatever g is and however xhat was obtained.", "quantifier": "all data sets, nuisance functions g, treatment predictions, effects", "why_tests_cant": "An identity over all data sets and nuisance functions.", "anchors": ["ylearn/estimator_model/double_ml.py:DoubleML.fit,estimate"]}
{"id": "C129", "title": "DoubleML without covariates", "statement": "fit works with adjustment variables only (covariate is optional).", "quantifier": "all data sets and models", "why_tests_cant": "A claim about all data sets.", "anchors": ["ylearn/estimator_model/double_ml.py:DoubleML.fit,_cal_x_prime"]}
{"id": "C130", "title": "DoubleML cross fitting never uses a row for its own nuisance predictions", "statement": "With cf_fold = k >= 2, the residuals of every training row come from models fitted on the rows outside a fold of n/k or n/k+1 consecutive rows that contains the row.", "quantifier": "all n, k, data sets and models, every row", "why_tests_cant": "Quantifies over all rows, fold counts and data sizes.", "anchors": ["ylearn/estimator_model/double_ml.py:DoubleML._cross_fit,fit"]}
{"id": "C131", "title": "DoubleML estimates do not depend on earlier estimates", "statement": "After fit, the result of an estimate is the same whatever estimates were made before.", "quantifier": "all fitted objects, all sequences of earlier calls", "why_tests_cant": "Ranges over all call histories.", "anchors": ["ylearn/estimator_model/double_ml.py:DoubleML.estimate,effect_nji"]}
{"id": "C132", "title": "DoubleML: ndarray treatment values", "statement": "For continuous treatments, treat and control may be arrays with one row for all units or one row per unit; entry (r, j, i) is the unit effect of treatment i on row r times the difference of the entries of row r. An array for treat with the default control means control 0.", "quantifier": "all fitted objects, array sizes and entries", "why_tests_cant": "Holds for every array.", "anchors": ["ylearn/estimator_model/double_ml.py:DoubleML.estimate"]}
{"id": "C133", "title": "DoubleML: what an estimate is (discrete treatments)", "statement": "The groups are all tuples of treatment values (those that occur or the given categories), numbered in sorted order for one column. The treatment model predicts group probabilities, the final model is fitted on (indicator - probabilities) times (1, v) against outcome residuals, and estimate(treat, control) is the slope of the treat group minus that of the control group at the row's covariates. A treat value that is no group raises ValueError.", "quantifier": "all data sets, treatment values, categories, models, treat and control arguments", "why_tests_cant": "Holds for every data set and every set of treatment values.", "anchors": ["ylearn/estimator_model/double_ml.py:DoubleML.fit,estimate,comp_transormer", "ylearn/estimator_model/utils.py:get_tr_ctrl,convert4onehot"]}
{"id": "C134", "title": "DoubleML: the same discrete estimate twice", "statement": "Two calls of estimate() without arguments in a row give the same result.", "quantifier": "all fits and numbers of calls", "why_tests_cant": "Ranges over all histories and data sets.", "anchors": ["ylearn/estimator_model/double_ml.py:DoubleML.estimate"]}
{"id": "C135", "title": "DoubleML copes with treatment combinations that have no row and with a single group", "statement": "A data set in which some combination of treatment values has no row, or all rows have the same treatment, can be fitted.", "quantifier": "all such data sets and models", "why_tests_cant": "A claim about all data sets.", "anchors": ["ylearn/estimator_model/double_ml.py:DoubleML.fit,_cross_fit", "ylearn/estimator_model/utils.py:convert4onehot"]}
{"id": "C136", "title": "DoubleML.effect_nji", "statement": "effect_nji(data, control) has one column per group: column i is estimate(treat = group i, control), so the control's own column is 0; for continuous treatments it is the effect of one unit of each treatment. The object is not changed.", "quantifier": "all fitted objects, data and control arguments", "why_tests_cant": "Relates two calls for every state.", "anchors": ["ylearn/estimator_model/double_ml.py:DoubleML.effect_nji,estimate"]}
{"id": "C137", "title": "DoubleML objects are independent", "statement": "Fitting one DoubleML object does not change the estimates of another one.", "quantifier": "all pairs of objects, data sets and models", "why_tests_cant": "Ranges over all pairs of objects and interleavings.", "anchors": ["ylearn/estimator_model/double_ml.py:DoubleML.__init__,fit"]}
{"id": "C138", "title": "DoubleML contrasts", "statement": "For continuous treatments the effect of t against t is 0, of c against t is minus that of t against c, and the effects of t against c and c against b add up to that of t against b.", "quantifier": "all fitted objects, data, t, c, b", "why_tests_cant": "Holds for all treatment values.", "anchors": ["ylearn/estimator_model/double_ml.py:DoubleML.estimate"]}
{"id": "C139", "title": "DoubleML: ndarray for discrete treatments", "statement": "As documented, treat may be an ndarray with one value per discrete treatment, for example array(['run', 'read']), and names the group with these values.", "quantifier": "all fitted objects and arrays", "why_tests_cant": "A claim about all arrays.", "anchors": ["ylearn/estimator_model/double_ml.py:DoubleML.estimate", "ylearn/estimator_model/utils.py:get_tr_ctrl"]}
{"id": "C140", "title": "Fitting a DoubleML object again", "statement": "Fitting a fitted object on a second data set has the same outcome as fitting a new object on it.", "quantifier": "all pairs of data sets and models, all earlier histories", "why_tests_cant": "Ranges over all histories.", "anchors": ["ylearn/estimator_model/double_ml.py:DoubleML.fit,comp_transormer"]}
{"id": "C141", "title": "ApproxBound: what the interval is", "statement": "Fit a new ApproxBound and call estimate(treat=t, control=c). With covariates there is one interval per row, otherwise one. With P(g) the propensity of group g (given x_prob, or the treatment model's probability, or the share of the group), m(g) the outcome model's prediction had the unit been in group g, U and L the given y_upper, y_lower or else the largest and smallest outcome observed in the two groups, the interval is [P(t)m(t)+(1-P(t))L-(P(c)m(c)+(1-P(c))U), P(t)m(t)+(1-P(t))U-(P(c)m(c)+(1-P(c))L)].", "quantifier": "all data sets with one outcome, numbers of treatment columns and groups, given categories or not, models, x_prob or not, covariates or not, groups asked for, bounds given or not", "why_tests_cant": "Holds for every data set, every model and every pair of groups.", "anchors": ["ylearn/estimator_model/approximation_bound.py:ApproxBound.fit,estimate,_prepare4est,comp_transormer"]}
{"id": "C142", "title": "ApproxBound: the interval is valid and sharp", "statement": "Without covariates, with an outcome model that predicts group means: every assignment of potential outcomes that agrees with the data and lies in [y_lower, y_upper] has its average effect inside the interval, and (for two different groups and data in [y_lower, y_upper]) both ends are the average effect of such an assignment.", "quantifier": "all data sets, all assignments of potential outcomes, all bounds", "why_tests_cant": "Quantifies over all unobservable potential outcomes; no test can enumerate them.", "anchors": ["ylearn/estimator_model/approximation_bound.py:ApproxBound.estimate,_prepare4est"]}
{"id": "C143", "title": "ApproxBound: width, zero, monotonicity assumptions", "statement": "The no-assumption interval has width (2-P(t)-P(c))(U-L) and contains 0; 'non-negative' replaces the lower end by 0, 'non-positive' the upper end; any other assumption name raises.", "quantifier": "all data sets, models, groups, bounds", "why_tests_cant": "Quantifies over all data, models and bounds.", "anchors": ["ylearn/estimator_model/approximation_bound.py:ApproxBound.estimate"]}
{"id": "C144", "title": "ApproxBound: optimal-treatment bounds", "statement": "estimate(assump='optimal') returns (lower, upper) bounds that enclose the average effect whenever every unit has the better of its two treatments and outcomes lie in [y_lower, y_upper].", "quantifier": "all data sets, all potential outcomes", "why_tests_cant": "Quantifies over unobservable potential outcomes.", "anchors": ["ylearn/estimator_model/approximation_bound.py:ApproxBound.estimate,_prepare4est"]}
{"id": "C145", "title": "ApproxBound: refitting", "statement": "After fitting an object again on other data, its estimates are those of a new object fitted on these data.", "quantifier": "all pairs of data sets", "why_tests_cant": "Quantifies over histories of calls.", "anchors": ["ylearn/estimator_model/approximation_bound.py:ApproxBound.fit"]}
{"id": "C146", "title": "ApproxBound: estimates for new data", "statement": "estimate(data) computes the bounds for the rows of data (with covariates: propensities and predictions from data's covariates; extreme outcomes from data's rows in the two groups).", "quantifier": "all data sets, treatment values, models", "why_tests_cant": "Quantifies over all new data sets and all kinds of treatment values.", "anchors": ["ylearn/estimator_model/approximation_bound.py:ApproxBound._prepare4est"]}
{"id": "C147", "title": "ApproxBound: discrete covariates", "statement": "fit(..., is_discrete_covariate=True) works with one-hot encoded covariates.", "quantifier": "all data sets and models", "why_tests_cant": "Holds or fails for every data set.", "anchors": ["ylearn/estimator_model/approximation_bound.py:ApproxBound.fit"]}
{"id": "C148", "title": "ApproxBound: estimates do not interfere", "statement": "estimate leaves the object unchanged, so any later call returns what it would have returned without it; before fit it raises.", "quantifier": "all objects, all arguments, successful calls and exceptions", "why_tests_cant": "Quantifies over all sequences of calls.", "anchors": ["ylearn/estimator_model/approximation_bound.py:ApproxBound.estimate"]}
{"id": "C149", "title": "ApproxBound: groups without rows", "statement": "When some combination of treatment values (or some given category) has no row, the bounds of the other groups are still computed with their own shares.", "quantifier": "all data sets with a missing group", "why_tests_cant": "Quantifies over all data sets and group orders.", "anchors": ["ylearn/estimator_model/approximation_bound.py:ApproxBound.fit,_prepare4est"]}
{"id": "C150", "title": "NP2SLS: what fit and estimate compute", "statement": "Fit a new NP2SLS. x_model is trained to predict the basis expansion of the treatment from (instrument expansion x covariate expansion, adjustment); y_model is trained to predict the outcome from (predicted treatment expansion x covariate expansion, adjustment). estimate(treat=t, control=c) is then, row by row, y_model's prediction with the expansion of t minus that with the expansion of c, at this row's covariates and adjustment; default treat is 1 and default control 0. Before fit it raises.", "quantifier": "all data sets, bases, learners, continuous and discrete treatments, treat/control given as value, list or array, training or new data", "why_tests_cant": "Must hold for every data set, basis and learner.", "anchors": ["ylearn/estimator_model/iv.py:NP2SLS.fit,estimate,_prepare4est", "ylearn/estimator_model/utils.py:nd_kron,get_wv"]}
{"id": "C151", "title": "NP2SLS recovers the effect under a valid instrument", "statement": "If the outcome is a function of the expanded treatment and covariates (linear in the basis) plus an error, the error sums to 0 among the units with equal instrument, covariates and adjustment, x_model predicts the mean treatment expansion of those units and y_model is least squares, then estimate returns exactly the structural effect wherever the training rows determine it, although treatment and error may be correlated.", "quantifier": "all data sets, all unobserved errors, all bases, all first stage models, all treatment values", "why_tests_cant": "Quantifies over unobservable errors and over all data.", "anchors": ["ylearn/estimator_model/iv.py:NP2SLS.fit,estimate"]}
{"id": "C152", "title": "NP2SLS with least squares in both stages is consistent", "statement": "With least squares in both stages (the default models), an outcome that is linear in the basis expansion plus an error orthogonal to everything the first stage uses gives the structural effect.", "quantifier": "all data sets, all unobserved errors, all bases", "why_tests_cant": "Quantifies over unobservable errors and over all data.", "anchors": ["ylearn/estimator_model/iv.py:NP2SLS.fit"]}
{"id": "C153", "title": "NP2SLS: average effects", "statement": "estimate(quantity='ATE') and estimate(quantity='CATE') return the mean of the row effects.", "quantifier": "all fitted objects, data sets and arguments", "why_tests_cant": "Holds or fails for every call.", "anchors": ["ylearn/estimator_model/iv.py:NP2SLS.estimate"]}
{"id": "C154", "title": "NP2SLS: effect_nji", "statement": "effect_nji(data) returns, for every unit, outcome and treatment value, the effect relative to the first treatment value; shape (units, outcomes, treatments).", "quantifier": "all data sets, numbers of treatment columns and categories, learners", "why_tests_cant": "Quantifies over all data sets and numbers of groups.", "anchors": ["ylearn/estimator_model/iv.py:NP2SLS.effect_nji"]}
{"id": "C155", "title": "NP2SLS: covariates are optional, bases may be tuples or lists", "statement": "fit works without covariates and adjustment, in particular with its default arguments, and accepts for covar_basis what it accepts for treatment_basis and instrument_basis.", "quantifier": "all data sets and learners", "why_tests_cant": "Holds or fails for every data set.", "anchors": ["ylearn/estimator_model/iv.py:NP2SLS.fit", "ylearn/estimator_model/iv.py:get_basis_func"]}
{"id": "C156", "title": "NP2SLS: counterfactual prediction", "statement": "estimate(data, quantity='Counterfactual prediction') returns y_model's prediction at the observed treatments of data (or of the training data).", "quantifier": "all data sets, treatment kinds, bases", "why_tests_cant": "Quantifies over all data sets and treatment values.", "anchors": ["ylearn/estimator_model/iv.py:NP2SLS.estimate,_prepare4est,_check_data"]}
{"id": "C157", "title": "NP2SLS: discrete instruments", "statement": "fit(..., is_discrete_instrument=True) works.", "quantifier": "all data sets, bases and learners", "why_tests_cant": "Holds or fails for every data set.", "anchors": ["ylearn/estimator_model/iv.py:NP2SLS.fit"]}
{"id": "C158", "title": "Polynomial bases", "statement": "A ('Poly', d) basis expands a row into all monomials of its entries of total degree at most d, each exactly once, beginning with the constant 1 and then the entries themselves in order.", "quantifier": "all degrees and all rows", "why_tests_cant": "Quantifies over all degrees and numbers of columns.", "anchors": ["ylearn/estimator_model/iv.py:get_basis_func,NP2SLS.fit"]}
{"id": "C159", "title": "NP2SLS: contrasts and default arguments", "statement": "Effects are consistent: comparing t with c and c with k adds up to comparing t with k. The default treat and control work for discrete treatments with any category values.", "quantifier": "all data sets, learners and treatment values", "why_tests_cant": "Quantifies over all triples of treatment values.", "anchors": ["ylearn/estimator_model/iv.py:NP2SLS.estimate,_prepare4est"]}
{"id": "C160", "title": "GRForest: the estimate solves the local moment equations", "statement": "fit of a new GRForest makes n_estimators trees; estimate then gives for every row x the unique solution theta of the weighted least squares problem of outcome on treatments (both centred), with the weights of the forest at x and 1e-5 added to the diagonal, as the docstring says.", "quantifier": "all data sets, parameters, pseudo-random numbers and numbers of rows", "why_tests_cant": "Must hold for all data sets and forests.", "anchors": ["ylearn/estimator_model/_generalized_forest/_grf.py:GRForest", "ylearn/estimator_model/_generalized_forest/_base_forest.py:BaseCausalForest._compute_alpha,_compute_aug,_prepare4est,estimate", "ylearn/estimator_model/utils.py:inverse_grad"]}
{"id": "C161", "title": "GRForest: forest weights", "statement": "The weight of a training row for x is the mean over the trees of its share among the labelling rows of the tree that lie in the leaf of x; weights are not negative, sum to 1, and are 0 for rows that label no tree.", "quantifier": "all forests, training data, rows x", "why_tests_cant": "Quantifies over all trees and data sets.", "anchors": ["ylearn/estimator_model/_generalized_forest/_base_forest.py:BaseCausalForest._compute_alpha", "ylearn/estimator_model/_generalized_forest/_grf.py:GRForest", "ylearn/estimator_model/_generalized_forest/tree/_grf_tree.py:GrfTree"]}
{"id": "C162", "title": "GRForest: estimate works row by row", "statement": "The estimate of a row does not depend on the other rows of the data, nor on the batches in which rows are processed; estimating no rows gives no rows; estimate before fit raises.", "quantifier": "all fitted forests and all lists of rows", "why_tests_cant": "Quantifies over all numbers of rows.", "anchors": ["ylearn/estimator_model/_generalized_forest/_base_forest.py:BaseCausalForest.estimate,_prepare4est"]}
{"id": "C163", "title": "GRForest: sample weights", "statement": "fit(sample_weight=w) weights the training rows.", "quantifier": "all data sets and weights", "why_tests_cant": "Holds or fails for every data set and weight vector.", "anchors": ["ylearn/estimator_model/_generalized_forest/_base_forest.py:BaseCausalForest.fit,_fit_with_array", "ylearn/estimator_model/_generalized_forest/tree/_grf_tree.py:GrfTree"]}
{"id": "C164", "title": "GRForest: honest trees", "statement": "With honest_subsample_num the splits of a tree depend on outcomes and treatments only through rows that do not label it; integers and floats are accepted as documented.", "quantifier": "all pairs of data sets that agree on the growing rows", "why_tests_cant": "Compares all pairs of data sets.", "anchors": ["ylearn/estimator_model/_generalized_forest/_base_forest.py:BaseCausalForest._get_honest_samples_num,_fit", "ylearn/estimator_model/_generalized_forest/tree/_grf_tree.py:GrfTree"]}
{"id": "C165", "title": "GRForest: random_state", "statement": "The argument random_state determines the pseudo-random numbers of the forest.", "quantifier": "all data sets, parameters and random states", "why_tests_cant": "Compares all pairs of random states.", "anchors": ["ylearn/estimator_model/_generalized_forest/_base_forest.py:BaseForest.__init__,BaseCausalForest.__init__"]}
{"id": "C166", "title": "GRForest: inspection methods", "statement": "After fit, apply returns the leaf of every row in every tree, effect_nji the effects of units, and feature_importance the normalised importances.", "quantifier": "all fitted forests", "why_tests_cant": "Holds or fails for every fitted forest.", "anchors": ["ylearn/estimator_model/_generalized_forest/_base_forest.py:BaseCausalForest.apply,feature_importance,effect_nji"]}
{"id": "C167", "title": "GRForest: warm start", "statement": "With warm_start, fitting n1 trees and then n2 >= n1 trees on the same data gives the same forest as fitting n2 trees at once; after a fit the forest describes the data given to it.", "quantifier": "all data sets, parameters and numbers n1 <= n2", "why_tests_cant": "Quantifies over histories of calls.", "anchors": ["ylearn/estimator_model/_generalized_forest/_base_forest.py:BaseCausalForest.fit,_fit_with_array"]}
{"id": "C168", "title": "GRForest: refit", "statement": "Without warm_start a successful fit does not depend on what the object did before; a failed fit leaves no fitted object with mixed data.", "quantifier": "all objects, data sets, parameters", "why_tests_cant": "Quantifies over histories of calls.", "anchors": ["ylearn/estimator_model/_generalized_forest/_base_forest.py:BaseCausalForest.fit,_fit_with_array"]}
{"id": "C169", "title": "GRForest: memory safety of the criterion", "statement": "Growing a tree accesses only allocated memory.", "quantifier": "all data sets, treatments and parameters", "why_tests_cant": "Memory errors depend on the sizes of nodes and need not show.", "anchors": ["ylearn/estimator_model/_generalized_forest/tree/_criterion.pyx:GrfTreeCriterion.init_criterion"]}
{"id": "C170", "title": "GRForest: best splits", "statement": "If all features are examined, every split of a tree is allowed by the parameters and no other allowed split has a larger sum, over the two sides, of (sum of the pseudo-outcomes)^2 / number of rows.", "quantifier": "all data sets, parameters, nodes and splits", "why_tests_cant": "Quantifies over all candidate splits of all nodes.", "anchors": ["ylearn/estimator_model/_generalized_forest/tree/_criterion.pyx:GrfTreeCriterion", "ylearn/estimator_model/_generalized_forest/tree/_tree.pyx:GrfTreeBestFirstBuilder.build_ex"]}
{"id": "C171", "title": "GRForest: adding a constant to the outcome", "statement": "Adding a constant to all outcomes does not change the trees.", "quantifier": "all data sets and constants", "why_tests_cant": "Compares all pairs of shifted data sets.", "anchors": ["ylearn/estimator_model/_generalized_forest/tree/_criterion.pyx:GrfTreeCriterion.init_criterion"]}
{"id": "C172", "title": "GRForest: default arguments of fit", "statement": "fit works without covariates, as its default covariate=None suggests.", "quantifier": "all data sets", "why_tests_cant": "Holds or fails for every data set.", "anchors": ["ylearn/estimator_model/_generalized_forest/_base_forest.py:BaseCausalForest.fit,_fit_with_array"]}
{"id": "C173", "title": "CausalForest: continuous treatments", "statement": "fit trains x_model and y_model as DoubleML does (with cf_fold folds each row's predictions come from models that did not see it) and grows a GRForest on the residuals of outcome and treatments; estimate gives for every row the solution of the documented local moment equations, one effect per treatment column.", "quantifier": "all data sets, learners, forest parameters, pseudo-random numbers, rows", "why_tests_cant": "Must hold for every data set, learner and forest.", "anchors": ["ylearn/estimator_model/causal_forest.py:CausalForest.fit,estimate,_cal_x_prime,_fit_2nd_stage", "ylearn/estimator_model/double_ml.py:DoubleML.fit"]}
{"id": "C174", "title": "CausalForest: discrete treatments", "statement": "With a discrete treatment the forest is grown on (indicator of the group - its predicted probability) for every group except the control group, in the order of the groups; the control is the first group unless fit is given one; estimate returns one effect per other group.", "quantifier": "all data sets, categories, controls, learners", "why_tests_cant": "Quantifies over all data sets and groups.", "anchors": ["ylearn/estimator_model/causal_forest.py:CausalForest._cal_x_prime"]}
{"id": "C175", "title": "CausalForest recovers the effect in data without noise", "statement": "If the residual outcome is exactly b + tau times the residual treatment, estimate returns tau up to the regularisation V / (V + 1e-5).", "quantifier": "all data sets with such residuals", "why_tests_cant": "Quantifies over all data sets.", "anchors": ["ylearn/estimator_model/causal_forest.py:CausalForest.estimate"]}
{"id": "C176", "title": "CausalForest: quantities, treat and control", "statement": "estimate(quantity='ATE') returns the average effect; treat and control choose the groups compared.", "quantifier": "all fitted objects and arguments", "why_tests_cant": "Holds or fails for every call.", "anchors": ["ylearn/estimator_model/causal_forest.py:CausalForest.estimate"]}
{"id": "C177", "title": "CausalForest: effect_nji and apply", "statement": "effect_nji and apply work after fit.", "quantifier": "all fitted objects", "why_tests_cant": "Holds or fails for every fitted object.", "anchors": ["ylearn/estimator_model/causal_forest.py:CausalForest.apply", "ylearn/estimator_model/double_ml.py:DoubleML.effect_nji"]}
{"id": "C178", "title": "CausalForest: adjustment only, covariate transformers", "statement": "fit accepts adjustment variables without covariates; a covariate_transformer is applied alike to training data and new data, so that estimate() equals estimate(training data).", "quantifier": "all data sets and transformers", "why_tests_cant": "Quantifies over all data sets and transformers.", "anchors": ["ylearn/estimator_model/causal_forest.py:CausalForest.fit,estimate"]}
{"id": "C179", "title": "CausalForest: control given as array", "statement": "fit(control=np.array([c])) means the treatment value c, like control=c.", "quantifier": "all data sets and values", "why_tests_cant": "Holds or fails for every data set.", "anchors": ["ylearn/estimator_model/causal_forest.py:CausalForest._cal_x_prime"]}
{"id": "C180", "title": "CausalForest: a failed fit leaves no trace", "statement": "If fit raises because control is not a value of the treatment, the object is not fitted and can be fitted to other data.", "quantifier": "all data sets, before and after the failure", "why_tests_cant": "Quantifies over histories of calls.", "anchors": ["ylearn/estimator_model/causal_forest.py:CausalForest._cal_x_prime"]}
{"id": "C181", "title": "RLoss: the score on continuous treatments", "statement": "After RLoss.fit on a validation set, score(estimator) is, for each outcome, the mean over the rows of (y - y_hat - sum_i tau_i (x_i - x_hat_i))^2, where x_hat and y_hat are the cross-fitted predictions of x_model and y_model and tau is the estimator's effect for the row's adjustments and covariates.", "quantifier": "all validation sets, learners, transformers, fold numbers, estimators", "why_tests_cant": "Must hold for every validation set, learner and estimator.", "anchors": ["ylearn/estimator_model/effect_score.py:RLoss.fit,score,_fit_1st_stage"]}
{"id": "C182", "title": "RLoss: the score on discrete treatments", "statement": "For discrete treatments the treatment residual is 1[x = g] - P(x = g | w, v), where g is the treated group the effect refers to.", "quantifier": "all validation sets, categories, learners, estimators", "why_tests_cant": "Quantifies over all data sets and groups.", "anchors": ["ylearn/estimator_model/effect_score.py:RLoss.score"]}
{"id": "C183", "title": "RLoss: covariates are matched by name", "statement": "The score of an estimator does not depend on the order in which RLoss.fit lists the covariates, nor on whether a single covariate is given as a name or as a list.", "quantifier": "all orders and names", "why_tests_cant": "Quantifies over all names and orders.", "anchors": ["ylearn/estimator_model/effect_score.py:RLoss.score"]}
{"id": "C184", "title": "RLoss: a loss", "statement": "A score is never negative; it is 0 exactly for effects that explain all residuals of the validation set.", "quantifier": "all fitted RLoss objects and estimators", "why_tests_cant": "Quantifies over all estimators.", "anchors": ["ylearn/estimator_model/effect_score.py:RLoss.score"]}
{"id": "C185", "title": "RLoss: groups of estimator and validation set", "statement": "The estimator may have been trained on data with other treatment values than the validation set; the residual used is that of the treatment value the effect refers to.", "quantifier": "all pairs of training and validation sets", "why_tests_cant": "Quantifies over pairs of data sets.", "anchors": ["ylearn/estimator_model/effect_score.py:RLoss.score"]}
{"id": "C186", "title": "RLoss: refit and failed fit", "statement": "A successful fit forgets earlier ones. A fit that raises does not make later scores mix two validation sets.", "quantifier": "all histories of fit calls", "why_tests_cant": "Quantifies over histories.", "anchors": ["ylearn/estimator_model/effect_score.py:RLoss.fit"]}
{"id": "C187", "title": "RLoss: which estimators can be scored", "statement": "score raises before fit; every estimator of the library that has the covariates of the validation set can be scored, also without adjustments and for discrete treatments.", "quantifier": "all estimators", "why_tests_cant": "Holds or fails for whole classes of estimators.", "anchors": ["ylearn/estimator_model/effect_score.py:RLoss.score"]}
{"id": "C188", "title": "RLoss scores a DoubleML by its final model", "statement": "The score of a DoubleML with continuous treatments is the R-loss of the slopes of its final model at the covariates of the validation set.", "quantifier": "all training and validation sets, learners, final models", "why_tests_cant": "Quantifies over pairs of data sets and models.", "anchors": ["ylearn/estimator_model/effect_score.py:RLoss.score", "ylearn/estimator_model/double_ml.py:DoubleML.estimate"]}
{"id": "C189", "title": "PolicyInterpreter: the printed conditions are the reason", "statement": "After fit, interpret gives one explanation per row of the data. Its conditions are about that row and true of it; among the training rows that meet them, the recommended treatment has the largest mean effect (the first such treatment), and the printed value is that mean.", "quantifier": "all data, effects with at least two treatments, estimators, tree settings with the default criterion, queries", "why_tests_cant": "Quantifies over all training sets, trees and query rows.", "anchors": ["ylearn/effect_interpreter/policy_interpreter.py:PolicyInterpreter.fit,interpret"]}
{"id": "C190", "title": "PolicyInterpreter: same reason, same recommendation", "statement": "A row of any data frame that meets the conditions printed for another row gets the same conditions, the same treatment and the same value.", "quantifier": "all pairs of rows of all queries", "why_tests_cant": "Quantifies over all pairs of rows.", "anchors": ["ylearn/effect_interpreter/policy_interpreter.py:PolicyInterpreter.interpret"]}
{"id": "C191", "title": "PolicyInterpreter: decide, predict, interpret and treatment names agree", "statement": "decide gives the treatment interpret recommends, as its number or its name; predict gives the mean effects of which that treatment has the largest; the text of a node in plot uses the same names. Names too few for the treatments are refused.", "quantifier": "all fitted interpreters, name lists, queries", "why_tests_cant": "Quantifies over all fits and queries.", "anchors": ["ylearn/effect_interpreter/policy_interpreter.py:PolicyInterpreter.decide,predict,interpret,plot", "ylearn/effect_interpreter/_export.py:_PolicyTreeMPLExporter"]}
{"id": "C192", "title": "PolicyInterpreter: a successful fit can be used", "statement": "After a fit that did not raise, decide and interpret answer for every query.", "quantifier": "all criteria and numbers of treatments", "why_tests_cant": "Quantifies over all fits.", "anchors": ["ylearn/effect_interpreter/policy_interpreter.py:PolicyInterpreter.decide,interpret"]}
{"id": "C193", "title": "PolicyInterpreter: covariate=", "statement": "The covariates named in fit are those the policy is learnt from.", "quantifier": "all fits", "why_tests_cant": "Quantifies over all fits.", "anchors": ["ylearn/effect_interpreter/policy_interpreter.py:PolicyInterpreter.fit", "ylearn/policy/policy_model.py:PolicyTree.fit"]}
{"id": "C194", "title": "PolicyInterpreter: histories of fits", "statement": "A successful fit does not depend on earlier ones; a failed fit never leaves answers that mix two fits; an interpreter never fitted answers nothing.", "quantifier": "all histories of fit calls", "why_tests_cant": "Quantifies over histories.", "anchors": ["ylearn/effect_interpreter/policy_interpreter.py:PolicyInterpreter.fit"]}
{"id": "C195", "title": "PolicyInterpreter: default data and success", "statement": "decide, predict and interpret without data answer for the training data. fit succeeds whenever there are covariates, the estimator is fitted and effects and data have the same positive number of rows.", "quantifier": "all fits", "why_tests_cant": "Quantifies over all data.", "anchors": ["ylearn/effect_interpreter/policy_interpreter.py:PolicyInterpreter.fit,decide,predict,interpret"]}
{"id": "C196", "title": "CEInterpreter: node_dict_", "statement": "After fit, node_dict_ holds for every node the mean and the standard deviation of the estimated effects of exactly the training rows whose decision path goes through the node; the root holds those of all rows, and a node's are those pooled from its two children.", "quantifier": "all data, estimators, fitted regression trees, outputs", "why_tests_cant": "Quantifies over all data sets and trees.", "anchors": ["ylearn/effect_interpreter/ce_interpreter.py:CEInterpreter.fit"]}
{"id": "C197", "title": "CEInterpreter: interpret", "statement": "interpret, for an array, a frame or the training data, gives every row the conditions on its path: true of the row, met by some training row, and met by another row exactly when that row is explained by the same conditions.", "quantifier": "all queries and fitted trees", "why_tests_cant": "Quantifies over all queries.", "anchors": ["ylearn/effect_interpreter/ce_interpreter.py:CEInterpreter.interpret,_check_features"]}
{"id": "C198", "title": "CEInterpreter: predict agrees with interpret", "statement": "predict (and decide) give each row of a frame the mean estimated effect of the training rows that meet the conditions interpret prints for the row of the same frame.", "quantifier": "all frames holding the covariates", "why_tests_cant": "Quantifies over all frames.", "anchors": ["ylearn/effect_interpreter/ce_interpreter.py:CEInterpreter.predict,decide,interpret"]}
{"id": "C199", "title": "CEInterpreter: histories of fits", "statement": "A successful fit does not depend on earlier ones; a failed fit leaves no answers that mix two fits; an unfitted interpreter or estimator is refused.", "quantifier": "all histories of fit calls", "why_tests_cant": "Quantifies over histories.", "anchors": ["ylearn/effect_interpreter/ce_interpreter.py:CEInterpreter.fit"]}
{"id": "C200", "title": "PermutedLearner: estimate", "statement": "After fit, estimate(data, treat=t, control=c) for two groups t and c (one value per treatment, each occurring in its column) is what the wrapped learner, fitted alone on the same data with the later group as treat and the earlier one as control, estimates, with the sign changed if t is the earlier one; t = c is refused. treat= left out means the last group, control= left out the first one. A single treatment may be given as a value or in a list.", "quantifier": "all learners, data, numbers of treatments, pairs of groups, queries", "why_tests_cant": "Quantifies over all learners and all pairs of groups.", "anchors": ["ylearn/estimator_model/_permuted.py:PermutedLearner.fit,estimate,_permute_treats,_get_learner,_default_estimate_options"]}
{"id": "C201", "title": "PermutedLearner: pairs are independent", "statement": "Estimates for other pairs of groups, however many and whatever they do to their learners, leave the estimate for a pair as it was.", "quantifier": "all histories of estimates for other pairs", "why_tests_cant": "Quantifies over histories.", "anchors": ["ylearn/estimator_model/_permuted.py:PermutedLearner.estimate,_copy_and_fit"]}
{"id": "C202", "title": "PermutedLearner: effect_nji", "statement": "effect_nji(data, control=c) has for each outcome one column per group, in the order of the groups: 0 for c itself, else the effect of the group against c. A control that is no group is refused. Without data it answers for the training data, as estimate does.", "quantifier": "all learners that give two-column effects, data, controls, numbers of outcomes", "why_tests_cant": "Quantifies over all learners, groups and data.", "anchors": ["ylearn/estimator_model/_permuted.py:PermutedLearner.effect_nji,_effect_nji"]}
{"id": "C203", "title": "PermutedLearner: histories of calls", "statement": "No call changes the wrapped learner. After a successful fit every answer is that of a new object fitted once with the same arguments, whatever was called before. After a failed fit the object does not answer for the data of the fit before. An object never fitted answers nothing.", "quantifier": "all histories of fit, estimate, effect_nji and treat", "why_tests_cant": "Quantifies over histories.", "anchors": ["ylearn/estimator_model/_permuted.py:PermutedLearner.fit"]}
{"id": "C204", "title": "PermutedLearner: questions change nothing; treat", "statement": "For a learner whose questions leave it unchanged no estimate or effect_nji changes a later answer. After estimate(treat=t, control=c) the attribute treat is t, and after a new fit it is no longer there.", "quantifier": "all histories of questions; all pairs", "why_tests_cant": "Quantifies over histories.", "anchors": ["ylearn/estimator_model/_permuted.py:PermutedLearner.treat,estimate,effect_nji"]}
{"id": "C205", "title": "PermutedLearner around an SLearner", "statement": "estimate(data, t, c) is the difference of the predictions of the SLearner's model for group t and for group c, in both orders of t and c, every time it is asked.", "quantifier": "all models, training data, pairs of groups, queries", "why_tests_cant": "Quantifies over all models and data.", "anchors": ["ylearn/estimator_model/_permuted.py:PermutedLearner", "ylearn/estimator_model/meta_learner.py:SLearner.fit,estimate"]}
{"id": "C206", "title": "DataCleaner: which columns and rows are left", "statement": "fit_transform of a new cleaner keeps exactly the rows whose label is not NaN (all rows without drop_label_nan_rows), in their order, in X and y alike, and exactly the columns, in their order, that are not named in drop_columns and, unless reserved, neither equal an earlier column (drop_duplicated_columns), nor have more than 99 % different values without being floats (drop_idness_columns), nor have fewer than two different values besides NaN (drop_constant_columns). It fails only with ZeroDivisionError, when drop_idness_columns is set and no row is left.", "quantifier": "all frames, labels and cleaner options", "why_tests_cant": "Quantifies over all data frames and option combinations.", "anchors": ["ylearn/sklearn_ex/_data_cleaner.py:DataCleaner.fit_transform,clean_data", "ylearn/sklearn_ex/_data_cleaner.py:_CleanerHelper"]}
{"id": "C207", "title": "DataCleaner: the values after fit_transform", "statement": "A reserved column is unchanged except for the infinities, which are replaced; integers become what int_convert_to says; a column of objects becomes floats if every value can be read as one, else texts; other columns are unchanged except for the infinities. No infinity is left.", "quantifier": "all frames, labels, options and states of the cleaner", "why_tests_cant": "Quantifies over all data frames.", "anchors": ["ylearn/sklearn_ex/_data_cleaner.py:DataCleaner.clean_data", "ylearn/sklearn_ex/_data_cleaner.py:_CleanerHelper.correct_object_dtype"]}
{"id": "C208", "title": "DataCleaner: transform of the training data", "statement": "transform of the data just given to fit_transform returns the same frame and labels.", "quantifier": "all frames, labels, options and earlier states", "why_tests_cant": "Quantifies over all data frames and states.", "anchors": ["ylearn/sklearn_ex/_data_cleaner.py:DataCleaner.fit_transform,transform"]}
{"id": "C209", "title": "DataCleaner: transform of other data", "statement": "After a fit and any calls of transform and append_drop_columns, transform returns the columns of the fit in their order, without those appended to drop, for the rows whose label is not NaN; it raises KeyError if one of them is missing; other columns of the frame do not matter. Each column gets the type it had after the fit. Reserved columns are not changed.", "quantifier": "all fits, histories of transform and append_drop_columns, frames", "why_tests_cant": "Quantifies over histories and frames.", "anchors": ["ylearn/sklearn_ex/_data_cleaner.py:DataCleaner.transform,append_drop_columns"]}
{"id": "C210", "title": "DataCleaner: state", "statement": "transform changes neither the cleaner nor, with copy_data, the caller's frame. A new fit_transform gives what a new cleaner gives. append_drop_columns before a fit adds to the columns to drop; after a fit the columns stay dropped.", "quantifier": "all histories of fit_transform, transform and append_drop_columns", "why_tests_cant": "Quantifies over histories.", "anchors": ["ylearn/sklearn_ex/_data_cleaner.py:DataCleaner.fit_transform,transform,append_drop_columns,_copy"]}
{"id": "C211", "title": "DataFrameMapper: each column goes to one feature", "statement": "After fit each feature owns the columns of its definition that no earlier feature took, in the order of the definition, with its own transformer and options. With a default, the columns that no feature names go to the default, in the order of the frame, so that each column of the frame is in exactly one place; with default=False they are dropped.", "quantifier": "all frames with distinct names, all lists of features (names, lists, tuples, functions of the frame), defaults and earlier states", "why_tests_cant": "Quantifies over all frames and feature definitions.", "anchors": ["ylearn/sklearn_ex/_dataframe_mapper.py:DataFrameMapper.fit"]}
{"id": "C212", "title": "DataFrameMapper: fit_transform is fit followed by transform", "statement": "fit_transform(X, y) succeeds exactly if fit(X, y) and then transform(X) succeed, returns the same result and leaves the same transformers and the same fitted features.", "quantifier": "all frames, features and transformers that keep scikit-learn's contract", "why_tests_cant": "Quantifies over all transformers and frames.", "anchors": ["ylearn/sklearn_ex/_dataframe_mapper.py:DataFrameMapper.fit_transform", "ylearn/sklearn_ex/_dataframe_mapper.py:DataFrameMapper.fit", "ylearn/sklearn_ex/_dataframe_mapper.py:DataFrameMapper.transform"]}
{"id": "C213", "title": "DataFrameMapper: the result of transform", "statement": "transform puts the results of the fitted features side by side in their order, each computed from its own columns of X by its own transformer (unchanged without transformer); with df_out there is one name for each column: the input columns for a passthrough, the names the transformer offers if they are as many as its columns. It fails only if a column is missing, a transformer fails or there is no output at all.", "quantifier": "all states of the mapper and frames", "why_tests_cant": "Quantifies over states, transformers and frames.", "anchors": ["ylearn/sklearn_ex/_dataframe_mapper.py:DataFrameMapper.transform,_get_names,_to_df"]}
{"id": "C214", "title": "DataFrameMapper: what transform and a new fit depend on", "statement": "transform changes nothing and depends on the fitted columns of X only; a missing one is an error. A new fit gives what a mapper without history gives (if the transformers have no memory), after any calls of fit, transform and fit_transform. A fit that fails changes nothing.", "quantifier": "all histories of fit, transform and fit_transform", "why_tests_cant": "Quantifies over histories.", "anchors": ["ylearn/sklearn_ex/_dataframe_mapper.py:DataFrameMapper.fit,transform,fit_transform"]}
{"id": "C215", "title": "SafeOrdinalEncoder codes", "statement": "transform gives each value its place among the categories of its column and every value that is not among them the number of categories; so seen values have different codes, and none the code of an unseen one. inverse_transform gives back the seen values and the default of the column's type for the others. An empty frame is possible. A column of a frame is coded with the categories learned for it.", "quantifier": "all categories, frames and data types", "why_tests_cant": "Quantifies over all values and frames.", "anchors": ["ylearn/sklearn_ex/_transformer.py:SafeOrdinalEncoder.transform,inverse_transform"]}
{"id": "C216", "title": "FeatureImportancesSelectionTransformer selects what it says", "statement": "threshold selects exactly the features with at least that importance; number selects exactly so many (all if there are fewer; a float between 0 and 1 is a share, rounded up) and none that is less important than one left out; quantile selects those not below that quantile, at least one and at most that share left out. selected_features_ are columns of X, so transform finds them; feature_importances_ belongs to feature_names_in_, 0 for columns cleaned away. A second fit infers the task again.", "quantifier": "all importances (ties in any order), strategies, frames", "why_tests_cant": "Quantifies over all importance vectors and the sort's tie breaking.", "anchors": ["ylearn/sklearn_ex/_transformer.py:FeatureImportancesSelectionTransformer._select_feature_by_importance,_detect_strategy,fit,transform", "ylearn/sklearn_ex/_transformer.py:general_preprocessor"]}
{"id": "C217", "title": "general_estimator builds what is asked for", "statement": "A known name gives an estimator of that library, a regressor exactly if the task is regression (False, 'regression' or inferred from y), with the caller's keyword arguments; without name XGBoost, LightGBM or a random forest as installed; an estimator object is copied; a name nobody knows is refused.", "quantifier": "all names, tasks, keyword arguments, y and installations", "why_tests_cant": "Quantifies over all argument combinations and installations.", "anchors": ["ylearn/sklearn_ex/_transformer.py:general_estimator"]}
{"id": "C218", "title": "DefaultIdentifier.identify_treatment: treatments are the most important columns", "statement": "The treatments found are the count_limit most important features for the outcome of the required kind, without the excluded ones.", "quantifier": "all frames, importances, excludes and limits", "why_tests_cant": "Quantifies over all importance vectors.", "anchors": ["ylearn/api/_identifier.py:DefaultIdentifier.identify_treatment", "ylearn/api/utils.py:align_task_to_first,select_by_task"]}
{"id": "C219", "title": "Estimator factories hand over what was asked for", "statement": "Each name of ESTIMATOR_FACTORIES belongs to one factory for good (registering a name twice is refused). A factory with given tasks creates its estimator with a regressor for a continuous variable and a classifier for a discrete one, with final models for regression, with is_discrete_treatment, is_discrete_outcome and proba_output as the tasks say, with the caller's random_state, and with cf_fold 1, 3 or 5 for less than 3000, less than 10000 or more rows unless given. With its default options a factory refuses (AssertionError) exactly the requests its estimator cannot serve: continuous treatments for meta learners, trees and the doubly robust estimator, no covariate for double machine learning and bounds, no instrument for two stage least squares. How the task is written (flag or name) makes no difference, and a new estimator is not fitted.", "quantifier": "all factories, options, tasks (flags and names), numbers of rows, seeds, and histories of registration", "why_tests_cant": "Quantifies over all combinations of arguments and histories.", "anchors": ["ylearn/estimator_model/_factory.py:register,BaseEstimatorFactory,DMLFactory,DRFactory,MetaLearnerFactory,XLearnerFactory,GrfFactory,ApproxBoundFactory,IVFactory,RLossFactory", "ylearn/estimator_model/iv.py:NP2SLS.__init__"]}
{"id": "C220", "title": "Why(estimator='auto') picks an estimator that can be made", "statement": "With instruments the two stage estimator is picked, else for a discrete treatment the T-learner, else double machine learning; the estimator picked can be made for the data at hand whenever one of the registered estimators can. A name that is not registered is refused.", "quantifier": "all kinds of outcome and treatment, with and without covariates and instruments, all numbers of rows and seeds", "why_tests_cant": "Quantifies over all configurations.", "anchors": ["ylearn/api/_why.py:Why._get_default_estimator,_create_estimator"]}
{"id": "C221", "title": "Why.fit leaves the caller's data alone and encodes exactly what is discrete", "statement": "With copy=True (the default) fit never changes the caller's frame, however it ends, and gives the same object as with copy=False. With copy=False rows, row labels, columns and their order stay, columns that are neither outcome nor treatment nor a role keep their values, a discrete outcome and discrete treatments are replaced by the place of the value among its distinct values in ascending order (kept for later questions), continuous ones stay, and there is one estimator for each treatment and, for discrete treatments, one for each ordered pair of two, each trained on the resulting frame. Whether outcome and treatment are discrete is what the constructor says, else what is inferred from the column.", "quantifier": "all frames, outcomes, settings, identifiers, preprocessors and learners", "why_tests_cant": "Quantifies over all data, all third-party components and every point where fit may fail.", "anchors": ["ylearn/api/_why.py:Why.fit,Why.identify"]}
{"id": "C222", "title": "Histories of Why.fit: a failed fit loses nothing, a new fit forgets the old", "statement": "After any history of fits, a fit that fails (at any point) leaves all that causal_effect and the other questions use as it was, and a fit that succeeds gives exactly the object that a new Why with the same arguments would give.", "quantifier": "all histories of successful and failed fits on any data, all failing points", "why_tests_cant": "Quantifies over all histories and crash points.", "anchors": ["ylearn/api/_why.py:Why.fit,Why.identify,Why.__init__"]}
{"id": "C223", "title": "Why.causal_effect with discrete treatments: right contrasts, right estimator, right labels", "statement": "Each line of the answer names treatments and two values, and holds the answer of the estimator that was trained for these treatments (for these two in this order, if combined) on the test data prepared like the training data, for the codes of exactly these two values and, for a discrete outcome, the code of the outcome value asked for (the last class by default). Without treat and control there is one line for each treatment and each class but the first, against the first. fn_cost is applied row by row. quantity='ATE' is mean, minimum and maximum of quantity='ITE'. Every registered estimator can be used.", "quantifier": "all fitted objects, test data, treatments (list or comma-separated string), values and outcomes", "why_tests_cant": "Quantifies over all inputs and learners.", "anchors": ["ylearn/api/_why.py:Why.causal_effect,_causal_effect_discrete,_map_effect,_get_estimator,_preprocess", "ylearn/api/utils.py:cost_effect"]}
{"id": "C224", "title": "Why.individual_causal_effect agrees with causal_effect", "statement": "The answer has, for each row of the test data in order and each treatment in order, the value the row has, the control value (the first class by default) and the effect: zero if both are equal, otherwise the answer of the treatment's estimator for this row alone. With estimators that work row by row the effect is the entry of this row in causal_effect(quantity='ITE') for this contrast. target_outcome is an outcome value as in causal_effect, and fn_cost applies as in causal_effect.", "quantifier": "all fitted objects, test data with any row labels, control values, outcome values", "why_tests_cant": "Quantifies over all data and learners; relates two entry points.", "anchors": ["ylearn/api/_why.py:Why.individual_causal_effect,_individual_causal_effect_discrete"]}
{"id": "C225", "title": "Why.score is the mean R-loss over the treatments", "statement": "score (with scorer 'auto' or 'rloss') gives the mean over the treatments of the R-loss of the treatment's estimator with treat and control given for this treatment, on the test data prepared like the training data. It works for every fitted object, and target_outcome selects the outcome.", "quantifier": "all fitted objects, test data, treat and control values", "why_tests_cant": "Quantifies over all data and learners.", "anchors": ["ylearn/api/_why.py:Why.score,_score_rloss,_create_scorers"]}
{"id": "C226", "title": "Why.causal_effect with continuous treatments", "statement": "For each treatment asked for there is one column with the answer of the treatment's estimator for the treat and control given for it; if only one of the two is given the control is 0 and treat is 1 in the form of the other. fn_cost is applied row by row; quantity='ATE' is mean, minimum and maximum of quantity='ITE'. The treatment may be given as a string or a list.", "quantifier": "all fitted objects, test data, treatments, numbers or arrays for treat and control", "why_tests_cant": "Quantifies over all inputs and learners.", "anchors": ["ylearn/api/_why.py:Why.causal_effect,_causal_effect_continuous"]}
{"id": "C227", "title": "Model and guide of a Bayesian network have the same latent variables, and all statement names differ", "statement": "For every graph, node states and choice of linear or MLP functions with any options, BayesianModel.guide draws exactly the latent variables that the model draws, with the same names, distribution families and shapes, and fails exactly when the model fails. With the default classes a root category node has one Dirichlet weight of its number of classes, a category node with parents one row of a Dirichlet weight per parent, a root numerical node a mean and a scale, and a numerical node with parents a scale, one normal weight per parent and a bias; an MLP has one weight (and bias) per layer. All names of sample statements in one run are pairwise distinct, so pyro accepts the model, for all names of nodes.", "quantifier": "all graphs, node names, node states, function classes and options", "why_tests_cant": "Quantifies over all graphs and names; model and guide are two pieces of code that have to agree.", "anchors": ["ylearn/bayesian/_modules.py:Linear,MLP,NiCategorical,NiNormal,MiCategorical,MiNormal", "ylearn/bayesian/_network.py:BayesianModel.node_functions,get_node_function,get_node_function_cls,guide,model"]}
{"id": "C228", "title": "Point estimates for category nodes, normal distributions for numerical nodes", "statement": "In BayesianNetwork.fit each latent variable goes to exactly one of the two automatic guides: those of category nodes to AutoDelta (point estimates), those of numerical nodes to AutoNormal, for all node names.", "quantifier": "all graphs, node names and data columns", "why_tests_cant": "Quantifies over all names; tests use names without underscores.", "anchors": ["ylearn/bayesian/_network.py:SviBayesianNetwork._fit,_is_cat"]}
{"id": "C229", "title": "The default modules can express the distributions of their nodes", "statement": "For every distribution over the classes of a category node without parents some weight gives it, and for every conditional distribution of a category node given its parents some weight gives it; for a numerical node with parents every affine function of the parents is the mean for some weight and bias. An MLPCategorical expresses more than a LinearCategorical.", "quantifier": "all numbers of classes and parents, all weights in the support of the prior, all inputs", "why_tests_cant": "A statement about all weights, that is about all data and training runs.", "anchors": ["ylearn/bayesian/_modules.py:NiCategorical,MiCategorical,Linear,MLP,MiNormal,LinearCategorical,MLPCategorical,LinearNormal"]}
{"id": "C230", "title": "MiCategorical[F, options] uses F with these options", "statement": "MiCategorical[F, options] and MiNormal[F, options] give a module class that uses the function class F with exactly these options, whatever classes were requested in the process before.", "quantifier": "all histories of requests in a process", "why_tests_cant": "Quantifies over all histories; the cache is global.", "anchors": ["ylearn/bayesian/_modules.py:_MiModuleMeta._get_cls,_MiModuleMeta.__getitem__"]}
{"id": "C231", "title": "DeepIV.fit works with its documented defaults", "statement": "DeepIV.fit(data, outcome, treatment, instrument) on existing columns fits the estimator, with the documented defaults and options: adjustment=None, sample_n=None, device='cuda', x_hidden_d and y_hidden_d integers, and a y_net of the user.", "quantifier": "all frames, networks, options, devices and earlier states of the object", "why_tests_cant": "Quantifies over all calls; training needs torch and a gpu, so tests only run one or two configurations.", "anchors": ["ylearn/estimator_model/deepiv.py:DeepIV.__init__,fit,_gen_x_model,_gen_y_model", "ylearn/estimator_model/deepiv.py:NetWrapper.fit,MDNWrapper.fit", "ylearn/estimator_model/utils.py:shapes"]}
{"id": "C232", "title": "DeepIV.fit trains on the rows of the frame and on sample_n draws per row", "statement": "The treatment network is trained on one example (instrument, adjustment, treatment) per row; the outcome network on sample_n drawn treatments per row with the adjustment and outcome of that row (predicted class probabilities for a discrete treatment, the observed treatment if approx_grad=False).", "quantifier": "all frames, options, networks and random draws", "why_tests_cant": "A statement about every frame and every draw; tests look at the final numbers only.", "anchors": ["ylearn/estimator_model/deepiv.py:DeepIV.fit", "ylearn/estimator_model/deepiv.py:MDNWrapper._sample,NetWrapper._sample,NetWrapper.fit", "ylearn/estimator_model/_nn.py:BatchData"]}
{"id": "C233", "title": "DeepIV.estimate on a continuous treatment is the mean difference of the outcome network", "statement": "For a continuous treatment estimate(data, treat, control, 'ATE' or 'CATE') is the mean over the rows of the test data (training data if None) of the outcome network's answer at treat minus its answer at control.", "quantifier": "all fitted estimators, test frames, networks and treatment values", "why_tests_cant": "Quantifies over all trained networks; a test with one row or a weak tolerance cannot see a factor 1/n.", "anchors": ["ylearn/estimator_model/deepiv.py:DeepIV.estimate,_prepare4est"]}
{"id": "C234", "title": "DeepIV.estimate on a discrete treatment is the mean difference between two classes", "statement": "For a discrete treatment estimate(data, treat, control, 'ATE' or 'CATE') is the mean over the rows of the answer for class treat minus the answer for class control, for every class number, test frame and value of marginal_effect.", "quantifier": "all fitted estimators, test frames, class numbers", "why_tests_cant": "Quantifies over all classes and numbers of rows.", "anchors": ["ylearn/estimator_model/deepiv.py:DeepIV.estimate,_prepare4est", "ylearn/estimator_model/deepiv.py:NetWrapper.predict"]}
{"id": "C235", "title": "DeepIV answers every documented quantity after fit and none before", "statement": "After fit, marginal effects, effect_nji and mean effects on a discrete outcome are available on any device; before fit every estimate is refused.", "quantifier": "all fitted estimators, devices and test frames", "why_tests_cant": "Quantifies over all states and devices.", "anchors": ["ylearn/estimator_model/deepiv.py:DeepIV.estimate,effect_nji,_prepare4est"]}
{"id": "C236", "title": "The state of a DeepIV is that of its last successful fit", "statement": "A successful fit gives the same estimator whatever was fitted, or failed to be fitted, before; a fit that fails leaves the estimator refusing (if never fitted) or answering as before.", "quantifier": "all histories of fit calls", "why_tests_cant": "Quantifies over all histories, including failures.", "anchors": ["ylearn/estimator_model/deepiv.py:DeepIV.fit,_prepare4est"]}
{"id": "C237", "title": "DeepIVWrapper turns float64 columns into float32 and leaves the rest alone", "statement": "Before fit and estimate the wrapper used by Why gives DeepIV a frame with the same columns in which the float64 ones are rounded to float32 and the other ones are unchanged.", "quantifier": "all frames and dtypes", "why_tests_cant": "Quantifies over all mixtures of dtypes.", "anchors": ["ylearn/estimator_model/_factory.py:DeepIVWrapper._f64to32"]}
{"id": "C238", "title": "get_params lists exactly the parameters of the object and of its sub-objects", "statement": "get_params(deep=True) returns one entry 'a__b__...__k' for each chain of constructor arguments a, b, ... that are objects with get_params, followed by a constructor argument k, with the value the attribute has; nothing else; get_params(deep=False) returns the constructor arguments in order. It fails exactly if an argument on the way is no attribute.", "quantifier": "all objects, attribute values and depths of nesting", "why_tests_cant": "Nesting has no bound and names may contain underscores; a test shows one or two objects.", "anchors": ["ylearn/estimator_model/base_models.py:BaseEstModel.get_params,_get_param_names", "ylearn/estimator_model/_naive_forest/_grf_tree.py:get_params,set_params"]}
{"id": "C239", "title": "set_params changes the parameters it is given and nothing else", "statement": "set_params(a__b__k=v) assigns k of the object reached by a, b and changes no other attribute of any object; get_params then shows v; a sub-object given together with parameters below it receives them; giving get_params() back changes nothing.", "quantifier": "all objects, depths of nesting and values", "why_tests_cant": "Quantifies over all paths and over the aliasing of sub-objects.", "anchors": ["ylearn/estimator_model/base_models.py:BaseEstModel.set_params", "ylearn/estimator_model/_naive_forest/_grf_tree.py:get_params,set_params"]}
{"id": "C240", "title": "A set_params call that is refused changes nothing, and estimators do not influence each other", "statement": "An unknown parameter name gives a ValueError and leaves every object as it was; set_params of one estimator does not change what get_params of another one returns.", "quantifier": "all objects, parameter lists and orders of keys", "why_tests_cant": "Quantifies over all mixtures of valid and unknown names and over shared sub-objects.", "anchors": ["ylearn/estimator_model/base_models.py:BaseEstModel.set_params"]}
{"id": "C241", "title": "Every estimator class supports get_params and shows its constructor arguments", "statement": "For every estimator class and all constructor arguments, get_params() of a new estimator returns the arguments it was constructed with (sub-estimators as clones, None as the default that is used).", "quantifier": "all estimator classes and constructor arguments", "why_tests_cant": "Holds per class for all arguments; the project has no test that calls get_params on each class.", "anchors": ["ylearn/estimator_model/base_models.py:BaseEstModel.__init__,get_params", "ylearn/estimator_model/meta_learner.py:SLearner,TLearner,XLearner", "ylearn/estimator_model/causal_forest.py:CausalForest", "ylearn/estimator_model/iv.py:NP2SLS", "ylearn/estimator_model/_naive_forest/_base_forest.py", "ylearn/estimator_model/_permuted.py"]}
{"id": "C242", "title": "A fitted UpliftModel answers with the uplift metrics of its data", "statement": "After UpliftModel().fit(df, ...), for every score column: get_cumlift(), get_gain(normalize), get_qini(normalize), gain_top_point(name), qini_top_point(name), auuc_score(name) and qini_score(name) are the values the metric functions give for this column of df alone, whatever other columns df has and whatever the object was fitted to before.", "quantifier": "all frames, columns, options and earlier states", "why_tests_cant": "Quantifies over all frames and histories; tests compare a few aggregate numbers.", "anchors": ["ylearn/uplift/_model.py:UpliftModel.fit,get_cumlift,get_gain,get_qini,gain_top_point,qini_top_point,auuc_score,qini_score", "ylearn/uplift/_metric.py:get_cumlift,get_gain,get_qini,auuc_score,qini_score"]}
{"id": "C243", "title": "Every score column of the frame is reported once, the random baseline separately", "statement": "The curve tables have one column per score column of the frame in its order, followed by the random baseline if it has a name; the scores without name have exactly the score columns of the frame.", "quantifier": "all frames, column names and names of the baseline", "why_tests_cant": "Column names are chosen by the user; a collision with the baseline's name is not tested.", "anchors": ["ylearn/uplift/_model.py:UpliftModel.fit,_get_value_or_series", "ylearn/uplift/_metric.py:Cumulator.cumulate_with_random,qini_score"]}
{"id": "C244", "title": "The random baseline is one baseline", "statement": "The curves, scores and top points of the baseline column describe the same random ranking: auuc_score('RANDOM') is the area under the RANDOM column of get_gain(normalize=True), qini_score('RANDOM') is 0, and its top points are available.", "quantifier": "all frames and random draws", "why_tests_cant": "A statement about random draws of several calls.", "anchors": ["ylearn/uplift/_model.py:UpliftModel.fit,gain_top_point,auuc_score", "ylearn/uplift/_metric.py:Cumulator.cumulate_with_random,auuc_score,qini_score"]}
{"id": "C245", "title": "The state of an UpliftModel is that of its last successful fit", "statement": "Before a successful fit every accessor raises; a frame with both groups is always fitted; a successful fit does not depend on earlier ones; a fit that fails leaves the object answering as before.", "quantifier": "all histories of fit calls", "why_tests_cant": "Quantifies over all histories, including failures in the middle of fit.", "anchors": ["ylearn/uplift/_model.py:UpliftModel.fit", "ylearn/utils/_common.py:check_fitted"]}
{"id": "C246", "title": "Generated graphs are DAGs with the drawn edges", "statement": "simulate_dag('ER') never fails and returns an acyclic orientation of the drawn graph up to renaming the vertices: binary, acyclic, with as many edges as were drawn; the other graph types give the drawn directed graph up to renaming; whatever is returned is a DAG, and simulate_random_graph with is_acyclic=1 is acyclic.", "quantifier": "all dimensions, drawn graphs and permutations", "why_tests_cant": "The graph is random; tests look at a few draws.", "anchors": ["ylearn/exp_dataset/gen.py:simulate_dag,simulate_random_graph,simulate_er_dag"]}
{"id": "C247", "title": "Generated weights respect the graph and the ranges", "statement": "simulate_parameter gives 0 without an edge and a weight from one of the ranges on every edge, so with the default ranges the weights have exactly the edges of the graph and absolute values in [0.5, 2]; simulate_weight_A scales the range of lag k by eta^-(k-1).", "quantifier": "all graphs, ranges and draws", "why_tests_cant": "The weights are random.", "anchors": ["ylearn/exp_dataset/gen.py:simulate_parameter,simulate_weight_A"]}
{"id": "C248", "title": "Simulated samples solve the structural equations", "statement": "simulate_linear_sem on a DAG returns X with X = X W + noise (or, for logistic and Poisson variables, drawn from X W), whichever topological order is used; with n=inf 1/d X'X is the covariance of the model; a cyclic W, an unknown type and a noise scale of the wrong length are refused. simulate_nonlinear_sem returns f_j(parents) + noise with the given noise scale. gen() never fails.", "quantifier": "all dimensions, DAGs, weights, noise scales, draws and topological orders", "why_tests_cant": "Needs the equations for every vertex of every DAG and the independence of the order.", "anchors": ["ylearn/exp_dataset/gen.py:simulate_linear_sem,simulate_nonlinear_sem,gen"]}
{"id": "C249", "title": "count_accuracy counts what it says", "statement": "shd is the number of vertex pairs that are adjacent in one graph only or estimated in the wrong direction, so it is 0 exactly for equal directed graphs; fdr, tpr and fpr are proportions between 0 and 1; for a perfect estimate fdr = fpr = 0 and tpr = 1 (if there is an edge).", "quantifier": "all true DAGs and estimates of every dimension", "why_tests_cant": "Quantifies over all pairs of graphs; tests use a few.", "anchors": ["ylearn/exp_dataset/gen.py:count_accuracy"]}
{"id": "C250", "title": "dygen produces a structural vector autoregression", "statement": "dygen returns order blocks of the structural model followed by step blocks, each X_t = X_t B + sum_k (X_{t-k} A_k + noise) from the order blocks before it, where the first weight matrix belongs to the most recent block; order > step is refused.", "quantifier": "all numbers of steps and lags, graphs, weights and draws", "why_tests_cant": "An invariant over all steps of the recursion.", "anchors": ["ylearn/exp_dataset/gen.py:dygen,simulate_linear_sem_with_A"]}
{"id": "C251", "title": "Dynamic discovery reads the blocks of dygen and the generating parameters fit them", "statement": "DyCausalDiscovery and DygolemCausalDiscovery called with the step and order of dygen see its blocks in their order (a number of rows that is no multiple of step+order is a ValueError); with the generating parameters the prediction error of every block is its noise, so noise-free data have loss 0.", "quantifier": "all data, dimensions, numbers of steps and lags, parameters", "why_tests_cant": "Quantifies over all generating parameters; training results in tests are random.", "anchors": ["ylearn/causal_discovery/_dydiscovery.py:Dynotears.forward,DyCausalDiscovery.__call__,_squared_loss"]}
{"id": "C252", "title": "Training of dynamic models ends", "statement": "DyCausalDiscovery ends for every behaviour of the optimiser and every rho_max: after at most epoch + log10(rho_max) optimizer steps, because h reached the tolerance, rho reached rho_max, the weights are NaN or the epochs are used up.", "quantifier": "all sequences of h values (also infinite and NaN), tolerances and rho_max", "why_tests_cant": "Depends on the history of the optimiser.", "anchors": ["ylearn/causal_discovery/_dydiscovery.py:DyCausalDiscovery._rho_h_update,__call__"]}
{"id": "C253", "title": "Dynamic discovery returns a DAG in the requested form", "statement": "The returned contemporaneous matrix is acyclic, made of the stronger directions not below the threshold; the lag coefficients below the threshold are removed; with return_dict a dictionary and for data frames the column names are returned.", "quantifier": "all learned weights, thresholds and options", "why_tests_cant": "Acyclicity depends on all cycles of the learned matrix.", "anchors": ["ylearn/causal_discovery/_dydiscovery.py:DyCausalDiscovery.__call__,_to_dag,DygolemCausalDiscovery.__call__"]}
{"id": "C254", "title": "Treatments are identified by their influence in the discovered matrix", "statement": "IdentifierWithDiscovery.identify_treatment gives, for a requested kind and a limit, the columns of that kind with the largest absolute weights on the outcome, by descending influence, never more than count_limit, no excluded column, not the outcome and no column whose weight is zero or NaN; without a requested kind the strongest cause comes first, followed by the strongest of its kind; the default identification is used exactly if there is no such cause.", "quantifier": "all causal matrices, outcomes, limits, exclusions, kinds of columns and orders of ties", "why_tests_cant": "Quantifies over all matrices and over every way quicksort may order ties.", "anchors": ["ylearn/api/_identifier.py:IdentifierWithDiscovery.identify_treatment"]}
{"id": "C255", "title": "The causal matrix kept by the identifier", "statement": "After any sequence of identify_treatment and identify_aci calls on one identifier, causal_matrix_ is that of the last successful identify_treatment, or of the first identify_aci; identify_aci answers from it. Identified treatments followed by identify_aci for them never fail with the default method.", "quantifier": "all histories of calls, matrices and failures", "why_tests_cant": "A statement about every history of calls on the object.", "anchors": ["ylearn/api/_identifier.py:IdentifierWithDiscovery.identify_treatment,identify_aci"]}
{"id": "C256", "title": "The matrix of the discovery proxies is the learned graph", "statement": "PgmProxy returns a matrix with every data column as a label exactly once, whose entry is 1 for an arrow of the learned graph and 0 otherwise, also for columns that are no nodes of the graph; a DAG gives an acyclic matrix; with return_dict every column is listed with the columns that have a directed path to it; for an array rows and columns are those of the data.", "quantifier": "all column lists, learned graphs and orders of joined labels", "why_tests_cant": "Quantifies over all graphs a learner may return.", "anchors": ["ylearn/causal_discovery/_proxy_pgm.py:PgmProxy.__call__", "ylearn/causal_discovery/_proxy_gcastle.py:GCastleProxy.__call__"]}
{"id": "C257", "title": "The options of PgmProxy reach the learner", "statement": "Every option given to PgmProxy is passed on exactly once with the user's value before the proxy's default: to the constructor if it is one of its parameters, otherwise to estimate; a PC learner always returns a DAG; the call is a TypeError exactly if an option is called self or data.", "quantifier": "all option dictionaries, constructor signatures and learners", "why_tests_cant": "Quantifies over every dictionary and signature.", "anchors": ["ylearn/causal_discovery/_proxy_pgm.py:PgmProxy._create_learner,__call__"]}
{"id": "C258", "title": "The timing decorator is transparent", "statement": "A function decorated with tic_toc returns the same values, raises the same exceptions and has the same effects as without it, is decorated at most once, and every call of it, failed or not, is counted once under its name with its elapsed time, the counters of all other functions unchanged.", "quantifier": "all functions, arguments, states, log levels and earlier statistics", "why_tests_cant": "Quantifies over every function and every state.", "anchors": ["ylearn/utils/_tic_tok.py:tic_toc,_tic_toc_decorate,_format_value"]}
{"id": "C259", "title": "The timing report", "statement": "After every history of calls report() has, for every function decorated under its own name and called at least once, the number of its calls, their total time and the average, which times the number of calls is the total; functions that were not called are not in it.", "quantifier": "all histories of calls and elapsed times", "why_tests_cant": "A statement about every history of calls.", "anchors": ["ylearn/utils/_tic_tok.py:report"]}
{"id": "C260", "title": "The points of the gain and Qini plots", "statement": "plot_gain and plot_qini with n_sample points draw exactly so many points of a longer curve, each with the curve's value at its position, at strictly increasing and evenly spaced positions from the first to the last point of the curve.", "quantifier": "all curves longer than n_sample and every n_sample of at least 2", "why_tests_cant": "Quantifies over all curve lengths and sample sizes.", "anchors": ["ylearn/uplift/_plot.py:_sample,plot_gain,plot_qini"]}
{"id": "C261", "title": "The bars of the cumulative lift plot", "statement": "plot_cumlift draws one bar per bin, the mean of the values in that bin, every value in exactly one bin, and the bars of non-empty bins are strictly descending; bins with equal edges are an error.", "quantifier": "all columns of values and bin edges", "why_tests_cant": "Quantifies over all values and edges.", "anchors": ["ylearn/uplift/_plot.py:_split,plot_cumlift"]}
{"id": "C262", "title": "The scores that are asked for", "statement": "calc_score gives one score for every metric that is asked for, under the name given and in the order given (upper and lower case alike), computed by the sklearn function of that name from the predictions - from the probabilities for auc and log loss - with the root of the mean squared error for rmse.", "quantifier": "all metric lists, arrays, tasks and options", "why_tests_cant": "Quantifies over all metric lists and all arrays, and over every behaviour of the functions of sklearn.", "anchors": ["ylearn/utils/metrics.py:calc_score"]}
{"id": "C263", "title": "The positive class of a score", "statement": "For a binary task calc_score computes recall, precision, f1 and auc for the positive class: the last of exactly two sorted classes unless another is given; any other number of classes is an error; for many classes f1 is the mean over the classes.", "quantifier": "all arrays, classes and options", "why_tests_cant": "Quantifies over all arrays, class lists and options.", "anchors": ["ylearn/utils/metrics.py:calc_score,_task_to_average"]}
