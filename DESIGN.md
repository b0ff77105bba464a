# Formal model of DataCanvasIO/YLearn in Rocq (Coq 8.16.1)

## 0. Conventions

* `rocq/theories/*Model.v` : executable Gallina transcription of the Python/Cython code, one definition per
  function/branch, with a comment `(* /repo/... lines a-b *)` on each definition.
* `rocq/theories/*Spec.v`  : small, independent specifications (paths, trails, sums, ...), not mentioning the model.
* `rocq/theories/*Proofs.v`: lemmas.
* `rocq/theories/*Props.v` : only the property theorems (closed by `exact lemma`), `Print Assumptions`, and
  the `Example`s showing that the hypotheses are met by a concrete non-trivial case.
* Python exceptions are values (`Err e`), Python sets are duplicate-free lists whose order is universally
  quantified (so theorems hold for every set iteration order), dicts are association lists in insertion order,
  in-place mutation returns the new state, object aliasing (where it matters) is an explicit store.
* A property that is false of the faithful model gets a theorem `..._refuted` with a concrete witness and the
  part that does hold as `..._partial`.

## 1. Third-party code

networkx (2.x; `to_numpy_matrix` is used, so < 3.0) is not in /repo.  The functions used are modelled from their
documented behaviour and known implementation: MultiDiGraph node/edge insertion, `ancestors`, `descendants`,
`topological_sort`, `connected_components`, `all_simple_paths`, `d_separated` (leaf pruning + removal of edges out
of z + weakly connected components).  Where possible the model of the library function is itself proved against an
independent specification (e.g. `d_separated` against trails), so that only the specification has to be trusted.
numpy/pandas are modelled by lists; floating point by exact numbers (Z, Q or R), stated at each definition.

## 2. Plan per property

| property | model | proof idea |
|---|---|---|
| C01-C03 | CausalGraph as record (causation alist, multigraph) and `step` over mutators | invariant by induction over op lists; refutations for parallel keys / duplicate parents / half arcs |
| C04,C10,C11 | observed_dag, BFS closure, Kahn | closure = inductive reachability; topological order |
| C05-C07 | build_sub_graph, remove_incoming/outgoing | exact edge characterisation under the invariant |
| C08,C09 | connected components of the arc graph; explicit hidden nodes | partition + chain characterisation; freshness |
| C12 | d_separated | algorithm <-> no active trail |
| C13-C17 | backdoor functions over the graph model | criterion characterisation; probabilistic soundness through global Markov property |
| C18 | powerset | combinatorics of combinations |
| C19-C23 | all_simple_paths, has_collider, frontdoor | path enumeration correctness; refutations |
| C24,C25 | get_iv | trail/common-ancestor argument |
| C26-C28 | id as fuelled recursion | termination measure; Markovian soundness; napkin refutation |
| C29-C31 | CausalModel with explicit heap of containers/estimators | step semantics + refutations |
| C32,C33 | check_nodes, Prob.parse | direct / injectivity |
| C34-C37 | trim_cycle, matrix2dict, matrix2array over weight lists | decreasing edge count; reachability |
| C38-C44,C47-C51 | api utils, identifiers, Why enumerations | list reasoning |
| C45,C46 | Why state machine, whatif grouping | invariants, refutation (`_is_fitted = False,`) |
| C52-C55 | uplift cumulators over R | list algebra |
| C56-C58 | bayesian DiGraph, CategoryNodeState | set characterisation, binary search |
| C59-C62 | WeightedPQueue, WeightedMedianCalculator, tree criteria | invariants over op histories |
| C63,C64,C85-C87 | EstUtilsModel: work partition, one-hot decoding, cartesian, groups, classes, leaf counts, Kronecker products | arithmetic / lists |
| C65 | frontdoor sets over finite-domain structural causal models (ScmSpec/ScmProofs) | truncated factorisation, summation over mediators |
| C66 | CausalModel.estimate with identification | composition of C13-C17 with the heap of C29-C31 |
| C67 | CausalDiscovery pipeline after the optimiser (DiscoveryModel) | composition of C34-C37 |
| C68,C69,C70,C72,C73 | ApiModel: identifiers, Why.identify/fit/causal_effect | list reasoning, refutations |
| C74-C76 | UpliftModel | exchange argument, sums over R |
| C77-C84 | BayesModel: network as state machine, sampling as ordered evaluation, pyro store as global state | invariants over call histories |
| C88,C61,C62 | TreeCritModel (three causal criteria, two policy criteria) | prefix sums; CritOk: criterion state = statistics of the current split |
| C89,C90,C96 | SplitterModel (best and random splitter), SortModel (introsort with heapsort fallback) | loop invariants over the feature permutation; sort = ordered permutation |
| C91,C94,C95 | DepthFirstTreeBuilder, apply, predict, importances (SplitterModel, TreeSpec) | invariant of the work stack; samples of a node = rows following its path |
| C92,C93 | CausalTreeModel: honest re-estimation, estimate, effect_nji | leaves partition both samples |
| C97-C99 | BestFirstModel: frontier as list, heap order as parameter `pick` | invariant of the frontier; leaf counting |
| C100-C103 | PolicyModel: PolicyTree fit/predict | reduction to C91/C97 |
| C104-C117 | MetaModel: S-, T-, X-learner as state machines over a learner parameter; sklearn encoders | exact formulas for fresh objects; refutations for refits/repeats |
| C118-C125 | DrModel, CrossFitModel: DoublyRobust | formulas; DrRobust: finite-population double robustness |
| C126-C140 | DmlModel: DoubleML with a heap of final models | formulas; least-squares uniqueness; refutations |
| C141-C149 | BoundModel: ApproxBound | formulas; quantification over potential outcomes; refutations |
| C150-C159 | TslsModel: NP2SLS fit/estimate/effect_nji, basis functions, PolynomialFeatures, nd_kron | formulas; normal equations of least squares; refutations |
| C160-C172 | GrfCritModel (criterion of _generalized_forest/tree), GrfModel (GRForest fit/estimate/weights/warm start, inverse_grad) on the tree engine of C90-C98 | tree invariants; algebra of weighted moments; refutations by computed forests |
| C173-C180 | CforestModel: CausalForest = DmlModel's first stage + GrfModel | inversion of fit, C160; refutations |
| C181-C188 | RlossModel: RLoss.fit (first stage of DmlModel) and score, with an arbitrary estimator or DmlModel's DoubleML as the scored one | inversion of fit, sums; refutations by concrete runs |
| C189-C199 | InterpModel: PolicyInterpreter (fit, decide, predict, interpret, the node text of plot) on PolicyModel's tree; CEInterpreter (fit with node_dict_, interpret, predict, decide) on any regression tree that meets sk_promise | paths of binary trees, partition of the training rows by leaf, inversion of fit; refutations by concrete runs |
| C200-C205 | PermModel: PermutedLearner (fit, estimate, effect_nji, treat) around any learner with a state; the instance with MetaModel's SLearner | order of the groups (product of sorted columns), key lookup, induction over histories of calls; C104 for the instance |
| C206-C210 | CleanModel: DataCleaner and _CleanerHelper, with the state of the cleaner and the caller's frame | clean_data split into row selection, lists of dropped columns and a function per column; counting of different values; an invariant of the fitted state over histories of transform and append_drop_columns |
| C211-C214 | MapModel: DataFrameMapper with its transformer objects in a heap, transformers as parameters with state | fit, transform and fit_transform rewritten as loops over fitted entries; frame lemma for objects of other features; invariance of the kinds of objects over histories |
| C215-C218 | TransModel: SafeOrdinalEncoder, FeatureImportancesSelectionTransformer (np.quantile on exact numbers, argsort a parameter), general_preprocessor's column names, general_estimator, DefaultIdentifier.identify_treatment | ranks as the inverse permutation of argsort; counting; interpolation between sorted values |
| C219-C220 | FactoryModel: the registry, the eleven factories (DeepIV only registered), general_estimator below them, the constructors' keyword lists and assertions, Why._get_default_estimator and _create_estimator | case analysis over factories, tasks and options; lookup in updated dicts |
| C221-C226 | WhyModel: Why.fit with identify as a state machine over the object and the frame it works on, _preprocess, causal_effect (discrete and continuous), individual_causal_effect, score with R-loss; frames have row labels and integer cells; estimators, preprocessor, identifier, is_discrete and R-loss are parameters | induction on histories (reachable), simulation of two fits that differ in the object, inversion of the monadic runs |
| C227-C230 | BayesModulesModel: sample statements (name, family, shapes) of Linear, MLP and the four modules and of their guides, node_functions, guide, trace names, _is_cat, the class cache, forward computations over the reals | induction on nodes, layers and request histories; unique decomposition of names at the double underscore; convexity of exp for the bounds; product of row-stochastic matrices for MLP |
| C231-C237 | DeepIVModel: DeepIV fit/estimate/effect_nji with both wrappers, the data sets of _nn.py, attributes assigned as fit goes, devices, DeepIVWrapper._f64to32; networks, training and draws are parameters | inversion and exact outcome of fit; formula of the answer for every trained network; refutations for all networks or by a toy instance |
| C238-C241 | ParamsModel: get_params/set_params of base_models.py on a heap of objects, key.partition, grouping of nested keys, and a table of what each estimator constructor keeps of its arguments | paths through the heap as specification; induction over depth and over the parameter list; C240 and parts of C241 are refuted |
| C242-C245 | UpliftWrapModel: UpliftModel.fit with its attributes assigned one by one, the accessors, the tables of curves over the single-column metrics of UpliftModel.v, own random columns for each of the five metric calls | inversion of fit; dict lemmas; C53_succeeds for totality; parts of C243-C245 are refuted |
| C246-C250 | GenModel: exp_dataset/gen.py. Matrices as functions, integer adjacency and exact real samples; draws, permutations, is_dag, topological order and the inverse are parameters | permutations of finite sums; invariant of the loop over the ordered vertices (columns of parents are final); counting lemmas by pairs for count_accuracy; induction over the steps of dygen; parts of C246, C248-C250 are refuted |
| C251-C253 | DyDiscoveryModel: reshape, Dynotears.forward, the squared loss, the loops of _rho_h_update and __call__ over an arbitrary sequence of h values, post-processing with DiscoveryModel | uniform blocks of a concatenation; the equations of C250; invariant rho = 10^k; C67 and trim_cycle_run; parts of each are refuted |
| C254-C255 | IdentTreatModel.v: the matrix found by a call is given; sort_values is any descending sort with NaN last; the object is a state machine over causal_matrix_ | ranking as a filter of the sorted list, prefixes of sorted lists; induction over the history of calls; identify_aci from ApiModel |
| C256-C257 | ProxyModel.v: the addition of the zero frame and the learned adjacency by label, dictionaries as association lists | membership in the joined labels; paths of indices are paths of names (C36); lookup lemmas for update, pop and item assignment |
| C258-C259 | TicTocModel.v: a function is a map on an arbitrary world with a result; elapsed times are given; the two counters as one dictionary | lookup lemmas; induction over the history; the slice of a default name is the qualified name |
| C260-C261 | PlotModel.v: linspace with integer truncation, qcut from given edges, means as reals | division inequalities; smallest and largest value of a group bound its mean |
| C262-C263 | ScoreModel.v: branches by lower-case name, options, one squeeze per array; sklearn answers calls | induction over the metrics; one relation `scored` per metric name as specification |

Every refuted property has its witness (or a universally quantified failure) as a theorem `..._refuted`; MANIFEST.json marks it
`partial` and the note says what is false.

## 3. What is modelled and what is not

Modelled, function by function (each definition cites its lines): `causal_model/{graph,model,prob,utils}.py`;
`causal_discovery/_base.py` and the post-processing in `_discovery.py`; `api/{_identifier,_why,utils}.py` (control flow around the
estimators); `utils/_common.py`; `uplift/_metric.py`; `bayesian/{_dag,_base,_collectors,_network}.py`;
`sklearn_ex/cloned/tree/{_utils,_criterion,_splitter,_tree}.pyx`; `estimator_model/_tree/tree_criterion.pyx` with
`tree_criterion_lib.cpp`; `policy/_tree/tree_criterion.pyx`; `policy/policy_model.py`; `estimator_model/{utils,causal_tree,
meta_learner,doubly_robust,double_ml,approximation_bound}.py`.

Not modelled:

* numerical learners (sklearn, torch, pyro models, optimisers): they are parameters of the theorems, deterministic functions of
  their training data that predict row by row; guides, losses, epochs do not appear;
* floating point: numbers are exact (Z, Q or R); no NaN, infinities, rounding, overflow or float32 casts (the cast of PolicyTree is a
  parameter); C integers are unbounded, allocation succeeds;
* pseudo-random numbers, set iteration order, order among equal sort keys, choice among equal heap elements, the topological order
  chosen by networkx: parameters over which the theorems quantify;
* pandas index handling, dtypes and data frame construction, except where a definition says so;
* plotting, logging, pickling, file IO, loading of the data sets (`exp_dataset/exp_data.py`), the DeepIV factory, `_naive_forest`, DeepIVFactory;
* DoubleML's proba_output and transformers; several outcomes in ApproxBound.
* GRForest and CausalForest: one outcome; integer tree parameters; the linear algebra (pseudo-inverse, solution of least squares) and the pseudo-random numbers are parameters with the assumptions of GrfSpec.usable.
* RLoss: proba_output=False; the scored estimator is a function from frames to effects; the branches for estimators with an attribute `comp_transformer` (there are none in the library) are left out.
* Interpreters: one `line` per printed condition; number formatting and drawing are left out. sklearn's DecisionTreeRegressor is a parameter: it returns a binary tree all of whose nodes are reached by training rows (sk_promise) and, with squared_error, whose values are means (sk_means). The KeyError of a missing covariate column in PolicyTree.fit is not modelled.
* PermutedLearner: the wrapped learner is any state machine with fit, estimate, effect_nji (record `blearner`); deepcopy copies its state. Verbose progress, joblib's worker start-up and keyword arguments unused by the wrapper are left out; with several processes the states changed by tasks are lost (`keep = false`). NaN treatments are left out.
* DataCleaner: a frame has distinct column names, rows go by position (no index); cells are numbers, infinities, NaN, texts or booleans, types object, int64, float64, bool, category. Reading of numbers from text and str() are parameters; reduce_mem_usage, dates, None and the type inference of pandas' replace are left out.
* sklearn_ex transformers: a DataFrameMapper works on named columns without index; sparse results, transformers that change the number of rows, df_out_dtype_transforms and make_transformer_pipeline are left out. SafeOrdinalEncoder: values with decidable equality (no NaN categories), distinct column names. The importances come from a function of the preprocessed columns (the fitted booster is not modelled).
* Bayesian modules: a sample statement is its name, family and shapes; values of distribution parameters, pyro handlers other than the name check and the two block filters, and optimisation are not modelled. That a plate draws a statement of its own name and that a trace refuses two statements of one name is taken from pyro.
* UpliftModel: treatment, outcome and true-effect columns are resolved (a missing one is an AssertionError) and are not score columns; column labels are strings; the frame copy kept in lift_ and the plots are not observed;
* gen.py: igraph's is_dag and topological_sorting, networkx' and igraph's random graphs, numpy's draws and inverse are parameters with the stated assumptions; negative scales (numpy's ValueError) and rounding are not modelled; generate_tri and simulate_sf_dag only fill in draws;
* _dydiscovery.py: the optimisers (LBFGS, Adam), gradients and penalty terms are left out, h after a step is an arbitrary value; learned weights are integers in a fixed unit as in DiscoveryModel;
* IdentifierWithDiscovery: what _discovery finds (preprocessing, label encoding, the learner) is an argument of each call; column names of the matrix are distinct; whether a column is discrete is a given function; the default identification is C218's.
* Discovery proxies: the pgmpy and gCastle learners are external, their graph or matrix is given; the order of the joined index is any permutation (ascending for integers); random state and logging left out.
* Timing decorator: the clock and the text of the log messages are left out; of _format_value only its effect on arguments (a given function; iterators).  load_cfg (empty by default) is left out.
* Uplift plots: drawing itself and the concatenation of several curves are left out; linspace is exact (a float step could truncate one position lower); the quantiles are given.
* calc_score: sklearn's functions, infer_task_type and sorted(unique(y)) are given; metric names are ASCII; metrics that are neither
  callable nor strings are left out.
* get_params/set_params: sub-objects (also scikit-learn's) run the same two methods, values are references or atoms, attributes are plain (no properties); the class table of ParamsModel.ctor is read off the `__init__` methods, the values of defaults and clones are parameters;
* DeepIV: at least one epoch; dtypes are not modelled (all numbers rationals), user networks are row-wise and have the documented attributes, a network call needs data and weights on one device and labels exactly for an embedding; `treat` is a finite number; shape errors of user networks and unknown training options are left out;
* NP2SLS: fit is modelled on a new object; the learners are parameters; keyword arguments of the polynomial transformer and stateful transformer objects are not modelled.
* Why as a state machine (WhyModel): a cell is an integer (its rank), row labels have decidable equality, a column is a list of cells; standard deviation, return_detail, further keyword arguments of fit, scorers auuc and qini, and the discovery inside identify are left out there (the latter is in ApiModel); a failed preprocessor or learner is an exception value.

## 4. Trusted base

* Coq 8.16.1's kernel (and its bytecode/VM where `vm_compute` is used).
* Axioms: only those of the standard library (real numbers, functional extensionality, classical logic, choice).  ASSUMPTIONS.md lists, for every theorem
  named in MANIFEST.json, what `Print Assumptions` prints; it is one of: nothing;
  `ClassicalDedekindReals.sig_forall_dec`; that and `FunctionalExtensionality.functional_extensionality_dep`;
  these two with `Classical_Prop.classic` and `ClassicalEpsilon.constructive_indefinite_description`
  (the examples of forests, where a regular matrix is inverted by a choice function).
  No axiom, parameter, admitted statement, functor or module type is declared in rocq/theories.
* The transcription of the code into the *Model.v files: every definition carries the file and lines it stands for and its
  simplifications.  It was made by reading; nothing of /repo was run.
* The models of third-party calls (networkx, numpy, pandas, sklearn encoders, KFold, pyro's parameter store), named in the comments
  of NxModel, EstUtilsModel, MetaModel, CrossFitModel, BayesModel.
* The statements: specification vocabulary is in *Spec.v or at the head of the files named *Proofs.v / *Props.v and does not use the
  model's helpers.
* tools/mutate.py and seeded/LOG.jsonl record the wrong programs the theorems were tested against.
