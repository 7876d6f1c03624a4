# Design: a Rocq/Coq model of dynamic-prediction-equilibria

Everything is in `rocq/theories`.  Model files follow the Python modules
function by function (each definition cites file and lines); `*Spec.v` files
and the heads of the `Prop*.v` files hold the small independent
specifications; `*Proofs.v` and the other files hold lemmas; the `Prop*.v`
files hold the property theorems `Cnn_*`, non-vacuity `Example`s and a
`Print Assumptions` for every theorem.  `MANIFEST.json` maps properties to
theorems, `seeded/LOG.jsonl` records the experiments with wrong programs.

## 1. Approach

Shallow, executable Gallina programs that follow the Python branch by branch.

* **Exceptions** are values (`res A = Ok a | Err exn`, Base.v); assertions are
  on (Python without `-O`); Optimised.v models the functions on the way from
  `extend` to measured travel times with assertions off, and C114 relates the
  two.  Python indexing is `pyget` (negative
  indices count from the end, IndexError otherwise), division is `pydiv`
  (ZeroDivisionError).
* **Mutation** becomes state passing.  Where the *sharing* of a mutable object
  matters it is modelled explicitly: graph/edge/node objects have identities
  (Graph.v), the function caches and list aliasing of PiecewiseLinear have
  their own heap model (PLCache.v), `right_extend` returns the mutated receiver
  as well.
* **Loops**: `for` loops are structural recursion / `foldM`; `while` loops are
  recursion on explicit fuel returning `Err OutOfFuel`.  Theorems about results
  either prove that the fuel suffices or speak about runs that return.
* **Nondeterminism**: iteration order of Python sets is a parameter (an
  unspecified permutation); learned models and user-supplied predictors are
  arbitrary functions; processes are interleaved arbitrarily at system-call
  granularity (FileLock.v).

### Numbers

Python floats are exact canonical rationals `Qc` (Leibniz equality) and the
infinities `ext = NInf | Fin q | PInf`.  **Rounding (except in Rounded.v, RoundedFlow.v) and NaN are not
modelled**; `eps = 1e-10` is the exact decimal.  Comparison-only code (ranks,
merging, priority queue, graph search, file lock) carries over to finite floats
directly; arithmetic identities (sums, conservation, interpolation) are
statements about exact arithmetic.  The exceptions are routing and DynamicFlow: Rounded.v models
the searches and the choice of active edges with every operation rounded
(binary64 without overflow, or any monotone idempotent rounding); C117.
RoundedFlow.v does the same for DynamicFlow (C118).

### eps

The code merges breakpoints and slopes closer than `eps`.  Statements are
therefore (a) unconditional with the tolerance in the statement, or (b) under an
explicit decidable separation hypothesis on the input ("equal or more than eps
apart"; "clean run" for flows: the instrumented replay of DynFlow.v raises no
`Unclean`), and (c) where the unconditional statement is false, there is a
`_refuted` theorem with a concrete witness, reachable through the public API.

## 2. Trusted base

* Coq 8.16.1's kernel (and `coqc`'s parser/elaborator); `vm_compute` is used in
  witnesses and examples, so the kernel's VM is included.
* **Axioms: none, with two exceptions.**  `Print Assumptions` reports *Closed
  under the global context* for every theorem `Cnn_*` (run at the end of each
  `Prop*.v` file) except `C117_ieee` and `C117_ieee_format` (PropIeee.v), which
  relate the rounding function of Rounded.v to Flocq's and speak about real
  numbers.  For these it lists the standard library's
  `ClassicalDedekindReals.sig_not_dec`, `ClassicalDedekindReals.sig_forall_dec`,
  `FunctionalExtensionality.functional_extensionality_dep` and
  `Classical_Prop.classic`.  No other theorem uses them.  Apart from Flocq in
  RndFlocq.v and PropIeee.v, only the standard library is imported (`QArith`,
  `Qcanon`, `ZArith`, `List`, `Lia`, `Permutation`, `Sorted`, ...).
* No `Axiom`, `Parameter`, section-less `Variable`/`Hypothesis`, `Admitted`,
  functor, module type, `Declare Module`, or disabled kernel check.
* The faithfulness of the model to /repo: reading the Python with the
  conventions above.  The comment at each definition names the lines and each
  simplification.  The listed conventions (exact numbers, assertions on,
  opaque predictors/models) are assumptions about the environment.
* PriorityQueue objects *inside* DynamicFlow, Dijkstra, Bellman-Ford and the
  flow builder are represented by the specification `squeue`; C23 proves
  that the real heap gives exactly these answers for every legal history (keys
  never raised by `decrease_key`; the callers only lower keys).

## 3. What is modelled

| Python | Lines | Model file | Not modelled |
|---|---|---|---|
| core/machine_precision.py | 1 | Base.v | |
| utilities/arrays.py | all | Arrays.v | |
| utilities/piecewise_linear.py | 10-15, 29-628 | PL.v, PL2.v; caches and list sharing: PLCache.v | `__json__`, `isinstance` tests, `equals`; infinite breakpoints (`NotModelled`) |
| utilities/right_constant.py | 18-178 | RC.v | `__json__`, `isinstance` |
| utilities/queues.py | all | PQ.v | comparisons of incomparable items |
| core/flow_rates_collection.py | all | FRC.v | sharing of the caller's dict |
| core/dynamic_flow.py | all | DynFlow.v (17-217), Eval.v (219-257); with rounding: RoundedFlow.v | pickling message; cache of `get_edge_loads` (cleared by every extend) |
| core/graph.py | all | Graph.v | |
| core/network.py | all | Graph.v | `print_info`; the code after the point where the clean-up functions raise (C49) |
| core/dijkstra.py | all | Dijkstra.v; with rounding: Rounded.v | |
| core/bellman_ford.py | all | BellmanFord.v | |
| core/active_edges.py | all | ActiveEdges.v | |
| core/flow_builder.py | all | FlowBuilder.v | progress output; the `lru_cache` of `_get_costs` is modelled as "computed once per route time" |
| core/predictor.py, predictors/{constant,zero,linear,reg_linear,sk_full_net,tf_full_net,sk_neighborhood,tf_neighborhood} | all | Predictors.v | loading models, scaling done inside the model pipeline; the model is an arbitrary row-wise function |
| core/predictors/{linear_regression,per_edge_..,full_net_..,expanded_..} | predict | Predictors2.v | pandas frames, model loading; models are row-wise functions |
| ml/neighboring_edges.py | all | Neighbors.v | |
| ml/QueueAndEdgeLoadsDataset.py, ml/generate_queues.py, `shallow_evaluate_predictors` of scenarios/sioux_falls_scenario.py | sampling code, table writers; directories, file names and locks (one process) | Dataset.v, Expanded.v, Files.v | torch Dataset plumbing, the CSV/NPY formats themselves |
| eval/predicted_delay.py, visualization/to_json.py, utilities/combine_commodities.py | all computing code | Eval.v | JSON text, tikz |
| utilities/file_lock.py | all | FileLock.v | the polling sleep; Windows semantics |
| eval/evaluate.py, utilities/build_with_times.py | `calculate_optimal_average_travel_time`, `evaluate_mean_absolute_error`, the commodities of `evaluate_single_run`; `build_with_times` | Eval2.v | printing, clocks, pickle/json output of evaluate_single_run |
| importer/csv_importer.py, importer/tntp_importer.py, importer/sioux_falls_importer.py `add_od_pairs`, scenarios/scenario_utils.py, ml/build_test_flows.py `generate_network_demands`, file names | rows (csv, pandas) and characters (tntp trips) to networks and commodities | Import.v | numpy/pandas/openpyxl readers, node positions, `_generate_commodities`, float() |
| eval/evaluate_network.py | numbers of merged commodities, slowdown, mean and MAE summaries; file protocol | Eval3.v, EvalLock.v, EvalCom.v, EvalPlot.v | tikz text, printing |
| eval/evaluate_sample.py | demands and points of the diagrams | EvalPlot.v | tikz text, the predictors used |
| utilities/json_encoder.py, `__json__`, visualization/to_json.py `to_visualization_json` | document tree | Vis.v | JSON text, gzip |
| ml/{SK,TF}{FullNetworkModel,Neighborhood}.py, ml/build_test_flows.py `build_flows` | which files are read and written, masks, locks, iteration over the data set | Train.v | learning itself (a model is identified with the masks of its data), torch/tensorflow/sklearn |
| scenarios/nguyen_scenario.py (map, commodities, training flows), scenarios/sample_scenario.py (likewise), test/sample_network.py, eval/evaluate_network.py `handle` up to the travel times | functions and data | Scenario.v | np.genfromtxt, the learning steps |
| other scenarios/*, tokyo/*, slide_examples/*, utilities/{status_logger,get_tn_path}.py | - | - | scripts, file formats |

Not expressible in this model: wall-clock behaviour, neural network training,
plotting, pandas/NumPy file formats. Float rounding is left out of the main
model; Rounded.v (Dijkstra), RoundedFlow.v (DynamicFlow) and RoundedBuilder.v
(FlowBuilder) model it separately, without overflow and NaN.

## 4. Properties

<!-- table -->
| Property | Status | Modelled | Proof | Theorems |
|---|---|---|---|---|
| C01 | proved | Arrays.v `elem_rank` (binary search on a list, fuel = length) | loop invariant `arr[low-1] < x <= arr[high]`; the rank specification `is_rank` (Spec.v) determines the result uniquely | PropArrays.v: C01_elem_rank |
| C02 | proved | Arrays.v `elem_lrank` | as C01 with the mirrored comparisons | PropArrays.v: C02_elem_lrank |
| C03 | proved | Arrays.v `merge_sorted` (recursion on the two suffixes, reversed accumulator) | invariant on the accumulator: sorted, gaps > eps, made of input points | PropArrays.v: C03_merge_sorted |
| C04 | proved | Arrays.v `merge_sorted_many` | the loop equals guarded insertion of the sorted multiset of all points, hence independence of how points are distributed over arrays | PropArrays.v: C04_merge_sorted_many, C04_distribution_independent, C04_multiset_only, C04_agrees_with_merge_sorted |
| C05 | partial | Arrays.v | witness by computation (`_refuted`); drift bound by induction | PropArrays.v: C05_refuted, C05_drift_bound_partial |
| C06 | proved | PL.v `pl_init`, `pl_eval`, `pl_eval_ext` | rank characterisation (C01) and interpolation spec by three implications | PropExtra.v, PropPL.v: C06_constants, C06_constructor, C06_eval, C06_eval_at_infinity |
| C07 | proved | PL.v `eval_from_end`, `eval_sorted_array` (divide and conquer) | both find the same rank; strong induction on the index interval | PropPL.v: C07_eval_from_end, C07_eval_sorted_array |
| C08 | proved | PL.v `pl_plus`, `pl_neg`, `pl_sub` | both sides are linear between consecutive merged breakpoints and agree at them | PropPL.v: C08_plus, C08_sub, C08_neg |
| C09 | partial | PL.v `simplify` | induction over breakpoints; drift witness for every tolerance | PropPL.v: C09_simplify_partial, C09_refuted |
| C10 | proved | PL.v `restrict` | slices of sorted lists, rank of the new ends | PropPL.v: C10_restrict |
| C11 | proved | PL.v `extend_with_slope` | case analysis on the eps tests | PropPL.v: C11_extend_defined, C11_extend_exact, C11_extend_tolerance |
| C12 | partial | PL.v `inverse`, `min_t_above`, `max_t_below` | monotonicity + first index above; witnesses | PropPL.v: C12_min_t_above_partial, C12_max_t_below, C12_max_t_below_default, C12_inverse_partial, C12_min_t_above_refuted, C12_inverse_refuted |
| C13 | partial | PL2.v `compose` | sweep invariant: the points produced so far interpolate g o f on the prefix; both are linear between consecutive points | PropPL.v: C13_compose_partial, C13_refuted |
| C14 | partial | PL2.v `minimum`, `left_extend`, `right_extend`, `outer_minimum` | sweep invariant over both breakpoint lists (PLMin.v); witnesses | PropMin.v, PropPL.v: C14_minimum_partial, C14_outer_minimum_partial, C14_tie_refuted, C14_refuted |
| C15 | proved | PL2.v `smaller_equals` | two-pointer sweep invariant; piecewise comparison extends from end points | PropPL.v: C15_smaller_equals, C15_shorter_domain |
| C16 | proved | PL.v `integrate` | telescoping against any antiderivative (difference quotient spec) | PropPL.v: C16_integrate, C16_additive |
| C17 | proved | PL.v `ensure_monotone` | running-maximum induction | PropPL.v: C17_ensure_monotone, C17_monotone_increases, C17_checked_mode |
| C18 | proved | RC.v `rc_eval`, `rc_eval_from_end` | lower rank characterisation (C02) | PropRC.v: C18_eval, C18_eval_from_end |
| C19 | proved | RC.v `rc_extend` | case analysis; history induction | PropRC.v: C19_extend_defined, C19_extend, C19_extend_tolerance, C19_history_valid, C19_only_breakpoint |
| C20 | proved | RC.v `rc_plus`, `rc_sub`, `rc_neg`, `rc_sum` | pointer-advance loop invariant | PropRC.v: C20_plus, C20_sub, C20_neg, C20_sum, C20_sum_empty |
| C21 | proved | RC.v `rc_integral` | telescoping; the result's slope is the function | PropRC.v: C21_integral |
| C22 | proved | RC.v `rc_simplify` | induction; drift witness family | PropRC.v: C22_simplify, C22_unbounded_drift |
| C23 | proved | PQ.v: heap array + index dictionary, all methods | refinement to `squeue` (PQSpec.v): heap order, dictionary = positions; sift-up/down invariants | PropPQ.v: C23_behaves_as_keyed_queue, C23_least |
| C24 | proved | PQ.v | corollary of C23 | PropPQ.v: C24_drain_sorted |
| C25 | partial | PQ.v `pq_increase_key` | witness; invariants of the read-only loop | PropPQ.v: C25_refuted, C25_total_partial, C25_leaf_no_effect_partial, C25_rejects |
| C26 | proved | FRC.v: linked list as (current, rest) | history induction, trace refinement | PropFRC.v: C26_history, C26_query, C26_from_functions |
| C27 | proved | FRC.v | history induction using C19 | PropFRC.v: C27_tolerance, C27_exact |
| C28 | proved | FRC.v | history induction using C11, C21 | PropFRC.v: C28_accumulative, C28_from_functions |
| C29 | proved | FRC.v `frc_getstate`/`frc_setstate` | round trip, then equality of all later answers | PropFRC.v: C29_roundtrip |
| C30 | proved | DynFlow.v `DQ` | trace refinement to one partial map | PropFlow.v: C30_coupled |
| C31 | proved | DynFlow.v `flow_extend` | inductive invariant over all runs | PropFlow.v: C31_extend, C31_reported |
| C32 | partial | DynFlow.v | inductive edge invariant (DynEdge.v); witness | PropFlow2.v, PropOptimised2.v: C32_no_exception, C32_refuted, C32_only_assertions |
| C33 | proved | DynFlow.v | edge invariant | PropFlow2.v: C33_queue_nonneg |
| C34 | proved | DynFlow.v | invariant on outflow snapshots | PropFlow.v: C34_snapshots |
| C35 | proved | DynFlow.v | edge invariant: cumulative outflow at exit time = cumulative inflow | PropFlow2.v: C35_conservation, C35_cumulative |
| C36 | proved | DynFlow.v | edge invariant | PropFlow2.v: C36_rates, C36_capacity |
| C37 | proved | FlowBuilder.v | one builder round, for every state and predictor oracle | PropBuilder.v: C37_node_balance, C37_assigned_edges |
| C38 | proved | FlowBuilder.v | run induction from C37, C35 | PropBuilder2.v: C38_conservation, C38_threshold_needed |
| C39 | proved | FlowBuilder.v | run induction; next reroute / change times | PropBuilder.v: C39_round, C39_handled, C39_reroutes, C39_changes |
| C40 | proved | Dijkstra.v `reverse_dijkstra` | classical invariant with tolerance k*eps per walk length | PropDijkstra.v: C40_reverse_dijkstra, C40_sink_outside |
| C41 | proved | Dijkstra.v `dynamic_dijkstra` | label-setting invariant with FIFO costs | PropDijkstra.v: C41_dynamic_dijkstra |
| C42 | proved | Dijkstra.v `get_active_edges_from_dijkstra` | invariant on stack/visited set: closed under tight predecessors | PropDijkstra.v: C42_active_edges, C42_tight_meaning, C42_source_is_sink |
| C43 | partial | BellmanFord.v | invariant: labels are least over walks found so far; fixpoint at exit; per-call exactness from C09, C13-C15 | PropBF.v: C43_exact_partial, C43_partial, C43_refuted, C43_horizon_refuted, C43_fifo_repair |
| C44 | partial | ActiveEdges.v | from C40/C41-style label correctness; witnesses | PropActive.v: C44_strong_fifo, C44_shortcut, C44_shortcut_refuted, C44_zero_cost_refuted, C44_weak_fifo_refuted, C44_unreachable |
| C45 | proved | Graph.v `get_nodes_reaching`, `get_reachable_nodes` | search invariant, both directions | PropGraph.v: C45_reachable_exact, C45_reaching_exact, C45_reaching_foreign |
| C46 | partial | Graph.v `add_edge`, `g_reverse` | history induction; witness | PropGraph.v: C46_incidence, C46_listed_once, C46_reverse, C46_reversed_refuted |
| C47 | partial | Graph.v `g_getstate`/`g_setstate`, network versions | rebuild induction; witnesses | PropGraph.v: C47_graph_roundtrip, C47_network_roundtrip, C47_reversed_refuted, C47_isolated_sink_refuted |
| C48 | proved | Graph.v `nw_remove_edge` | history induction on identity-level attributes | PropExtra.v, PropGraph.v: C48_remove_node, C48_remove_nodes, C48_attributes_aligned |
| C49 | partial | Graph.v clean-up functions | they raise AttributeError: proved for every network with a commodity; without commodities the loop of compress_lonely_nodes is followed by an invariant relating walks of the two networks | PropCompress.v, PropExtra.v, PropGraph.v: C49_compress_free, C49_self_loop_refuted, C49_no_commodities, C49_no_such_commodity, C49_unnecessary_nodes_refuted, C49_unnecessary_commodities_refuted, C49_compress_refuted |
| C50 | proved | Eval.v `combine_commodities` | fold induction, C20 | PropEval2.v: C50_combine |
| C51 | proved | Predictors.v | unfolding to the evaluation specification C06 | PropPredictors.v: C51_constant, C51_zero |
| C52 | partial | Predictors.v | case analysis; reachable witnesses | PropPredictors.v: C52_linear_partial, C52_regularised_partial, C52_nonneg_partial, C52_no_exception_partial, C52_exception_refuted, C52_negative_refuted |
| C53 | partial | Predictors.v (learned model = arbitrary row-wise function) | characterisation of every post-processing step | PropPredictors2.v, PropPredictors3.v: C53_full_net, C53_neighborhood_partial, C53_neighborhood_batch, C53_refuted |
| C54 | partial | Predictors.v | equality of the two programs' results for all models | PropPredictors2.v, PropPredictors3.v: C54_full_net, C54_neighborhood_partial, C54_refuted |
| C55 | partial | Neighbors.v | induction on distance; witnesses | PropNeighbors.v: C55_forward, C55_backward_partial, C55_undirected_partial, C55_directed_partial, C55_masks, C55_refuted |
| C56 | proved | Eval.v `is_positive_during` | rank characterisation | PropEval.v: C56_is_positive_during |
| C57 | proved | Dataset.v | index arithmetic, shares the input specification with C53/C54 | PropDataset.v, PropDetails.v, PropExtra.v: C57_rejects, C57_masks, C57_sample, C57_shape, C57_round, C57_multiple |
| C58 | partial | FileLock.v: interleaving transition system | invariants over all interleavings; witness schedules | PropFileLock.v: C58_skips, C58_effects, C58_released, C58_mutual_exclusion_partial, C58_race_refuted, C58_unlocked_refuted, C58_failed_open_refuted, C58_stale_lock, C58_crash_refuted, C58_alone |
| C59 | partial | Eval.v `merge_commodities` | C20, C22; witness | PropEval3.v: C59_merge, C59_empty, C59_drift_refuted |
| C60 | proved | Eval.v `avg_travel_time` | C16, C20, C21 | PropBalance.v, PropEval4.v: C60_nonneg, C60_avg_travel_time, C60_spec_exists |
| C61 | proved | Arrays.v `arg_min` | fold invariant | PropArrays.v: C61_arg_min |
| C62 | proved | DynFlow.v | edge invariant: exit time non-decreasing | PropFlow2.v: C62_fifo |
| C63 | proved | DynFlow.v | edge invariant on snapshots | PropFlow2.v: C63_proportions |
| C64 | partial | FlowBuilder.v | computation for every network | PropBuilder.v: C64_none_refuted |
| C65 | partial | Predictors.v | computation for every prediction | PropPredictors3.v: C65_refuted |
| C66 | proved | Eval.v `get_edge_loads` | C08, C28, C35 | PropPredictors3.v: C66_loads |
| C67 | partial | Predictors.v | queue slope >= -capacity gives FIFO; C41 | PropPredictors4.v: C67_costs, C67_search, C67_constant, C67_zero, C67_full_net, C67_linear_partial, C67_regularised_partial, C67_negative_refuted |
| C68 | proved | Eval.v `predict_edge_delay` | C40/C41 labels | PropEval.v: C68_edge_delay, C68_dead_end, C68_from_sink |
| C69 | proved | Eval.v `max delay` | fold invariant incl. the threaded cache | PropEval.v, PropEval5.v: C69_max_delay, C69_grid |
| C70 | proved | FileLock.v `wait_for_locks` | induction on the listings | PropFileLock.v: C70_waits, C70_waits_forever |
| C71 | partial | Dataset.v `generate_queues` | loop invariant: row stays 0 | PropDataset.v: C71_training_data_refuted |
| C72 | partial | Dataset.v `expanded_queues` | computation for every flow | PropDataset.v: C72_columns_refuted |
| C73 | partial | PLCache.v (heap of objects and lists, LRU caches) | cache consistency invariant; cached programs agree with PL.v/PL2.v; DynamicFlow: slope invariant of queues | PropCache.v, PropCache2.v: C73_cached_calls, C73_queries_pure, C73_write_refuted, C73_depletions, C73_small_capacity_refuted |
| C74 | partial | PLCache.v | ownership invariant on list cells; witnesses | PropCache.v: C74_independent_partial, C74_fresh_partial, C74_neg_refuted, C74_compose_refuted |
| C75 | proved | FlowBuilder.v, Dijkstra.v, Predictors.v; vocabulary RoutesSpec.v | cache invariant of active edges and costs per period; C40/C41 labels; commodities only supply nodes reachable from their sources; recorded rates by induction over rounds | PropRoutes.v: C75_round, C75_recorded |
| C76 | proved | DynFlow.v | step lemma for rates and queues, induction over the calls | PropFlow3.v: C76_final |
| C77 | proved | FlowBuilder.v, Predictors.v | C75 + C51 + finality of queues | PropRoutes.v: C77_constant, C77_zero |
| C78 | proved | FlowBuilder.v; vocabulary TotalSpec.v | totality of every function of a round; every positive supply can reach its sink (invariant over rounds); C32 for flow.extend; C40/C41/C67 for the searches | PropTotal.v: C78_constructor, C78_no_exception, C78_constant_zero |
| C79 | proved | FlowBuilder.v, DynFlow.v | windows of the minimal travel time: inside a window the possible ends of rounds form a fixed finite list, and every round moves to a later point of it | PropTotal.v: C79_progress, C79_reaches |
| C80 | partial | Predictors2.v `tokyo_predict` | one_init/line lemmas; sign of the combinations; witness flow | PropPredictors5.v: C80_tokyo, C80_admissible_partial, C80_fifo_refuted |
| C81 | partial | Predictors2.v `per_edge_predict` | clamp invariant of reg_values, simplify_points; agreement of all sampled times | PropPredictors5.v: C81_ignores_history, C81_per_edge, C81_values_partial, C81_no_exception, C81_history_refuted |
| C82 | partial | Predictors2.v `full_reg_predict` | row/chunk arithmetic for all sizes; builder witness run | PropPredictors6.v: C82_time, C82_builder_refuted, C82_full_net_partial, C82_mask_refuted |
| C83 | partial | Predictors2.v `weka_predict`, `scikit_closure` | direct, for every flow | PropPredictors6.v: C83_weka_refuted, C83_scikit_refuted, C83_closure_spec |
| C84 | proved | Predictors.v `base_batch_predict` | maximum of a list; mapM | PropPredictors6.v: C84_rejects, C84_accepts |
| C85 | partial | Eval2.v `mean_absolute_errors` | grid arithmetic (floor), element-wise lists; witness with interval ratio 3/2 | PropEval5.v: C85_mae, C85_refuted |
| C86 | partial | Eval2.v `optimal_avg_travel_time`, BellmanFord.v | C11 max_t_below, C12 integral, C43; witnesses on built flows | PropEval6.v: C86_average, C86_single_source, C86_optimal_partial, C86_breakpoint, C86_refuted |
| C87 | partial | Eval2.v `build_with_times` | loop invariant against fb_run; C79 for termination, C78 for success | PropDetails.v, PropEval7.v: C87_log_line, C87_first, C87_stops, C87_returns, C87_logging, C87_refuted |
| C88 | proved | Eval2.v `eval_commodities` | C50 + scaling of step functions + sums over predictors | PropEval8.v: C88_split, C88_added, C88_single_source |
| C89 | partial | Import.v `network_from_csv`, `import_network`, `add_demands` | induction over the rows with the graph invariants of C46 | PropImport.v: C89_csv, C89_single_row_refuted, C89_positive, C89_tntp, C89_demands_refuted, C89_demands_errors |
| C90 | proved | Import.v `split`, `py_int`, `trip_line`, `od_pairs`, `add_commodities` | grammar as inductive predicates; split lemmas by induction on the text | PropImport2.v: C90_parse, C90_commodities, C90_od_pairs, C90_malformed, C90_bad_origin |
| C91 | proved | Import.v `demand_until`, `generate_network_demands` | induction over commodities and sources with a draw counter | PropImport.v: C91_window, C91_demands, C91_no_edges |
| C92 | partial | Import.v `flow_id` | value of digit strings; lexicographic order equals numeric order | PropImport3.v: C92_names, C92_value, C92_resume, C92_resume_refuted |
| C93 | partial | Eval2.v `eval_commodities`, Eval3.v `merged_ids` | number of groups = number of distinct keys | PropEval9.v: C93_numbers, C93_separate, C93_merged_refuted |
| C94 | partial | Eval3.v `slowdowns`, `printed_means`, `mae_data` | fold invariants; arithmetic of means | PropEval9.v: C94_slowdowns, C94_average, C94_nonneg, C94_printed, C94_printed_refuted, C94_maes |
| C95 | partial | EvalLock.v `estep` | transition system with crashes; invariants over all interleavings; explicit bad runs | PropEvalCom.v, PropEvalLock.v: C95_never_refuted, C95_all_results, C95_exclusive_partial, C95_stale, C95_exception_refuted, C95_race_refuted, C95_partial_result_refuted, C95_sequential |
| C96 | partial | EvalLock.v `run` | transition system on file states; closed sets of bad states | PropEvalLock.v: C96_success, C96_first, C96_resume, C96_resume_refuted, C96_skip_refuted |
| C97 | partial | Train.v `train_full`, `load_mask`, `happens` | invariant over all histories of events; explicit bad histories | PropTrain.v: C97_masks, C97_fitted, C97_sk_retry, C97_failed_tf_refuted, C97_single_edge_refuted, C97_stale_refuted |
| C98 | partial | Train.v `nb_train`, `from_models`, `tstep` | induction over the edge list; transition system with invariants over all interleavings | PropTrain2.v: C98_complete, C98_stale_refuted, C98_wait, C98_wait_refuted, C98_failure_refuted |
| C99 | partial | Train.v `build_flow` | invariants over all histories of interrupted runs; closed sets of bad states | PropTrain2.v: C99_first, C99_history, C99_flow_file, C99_callback_refuted, C99_drawing_refuted, C99_dummy_refuted |
| C100 | proved | Train.v `ds_iter`, Dataset.v `ds_get` | induction on the number of remaining samples | PropTrain2.v: C100_iteration, C100_too_short |
| C101 | proved | EvalPlot.v `perf_data` | fold invariants | PropEvalPlot.v: C101_points, C101_more_errors |
| C102 | proved | EvalPlot.v `eval_sample`, `time_plot`, `regret_plot` | loop invariant over the demands | PropEvalPlot.v: C102_table, C102_curves, C102_regrets |
| C103 | partial | Vis.v `encode`, `pl_json`, `rc_json`, `vis_value` | an independent reader of JSON trees recovers every part; injectivity of decimal keys | PropVis.v, PropVis2.v: C103_total, C103_network, C103_flow, C103_json, C103_domains, C103_positions_refuted, C103_slides_refuted, C103_merged |
| C104 | proved | DynFlow.v | ebase invariant (DynEdge.v); exit times are piecewise linear, proportions (C63) integrated piece by piece | PropFifo.v: C104_amounts, C104_totals, C104_exists, C104_on_edge, C104_load_bounds |
| C105 | proved | FlowBuilder.v `fb_run` | C38 summed over the nodes (double counting of edges), integrated piece by piece; C104 | PropBalance.v: C105_balance, C105_exists, C105_arrived |
| C106 | partial | Expanded.v `expanded_queues` | dicts as association lists; spec of `fill` (last write wins) by induction; refuted on a run with six parallel edges | PropExpanded.v: C106_table, C106_total, C106_lost_refuted |
| C107 | partial | Expanded.v `per_edge_table` | as C106; C16 for the integrals; refuted on a concrete run with step 2 | PropExpanded.v: C107_table, C107_no_samples, C107_average_refuted |
| C108 | proved | Expanded.v `queue_table` | range arithmetic | PropExpanded.v: C108_table, C108_other_steps, C108_total |
| C109 | partial | Files.v `generate_data`, `with_lock` | directories as association lists; loop lemma `each_spec` (each name written once unless taken), lock put and removed | PropFiles.v: C109_generates, C109_lock_refuted, C109_stale_refuted |
| C110 | partial | Files.v `generate_queues`, `generate_training_data`, `expanded_file`, `edge_files`, `shallow_evaluate` | `built` directories hold gzip files only; `load_plain` fails on them | PropFiles.v: C110_plain_open_refuted, C110_expanded_refuted, C110_per_edge_refuted, C110_plain_pickles_partial, C110_edge_names, C110_plain_tables_partial |
| C111 | partial | Files.v `generate_data`, `read_arrays` | the sorted names are unique (total order on names); C92 gives the order of the numbers | PropFiles.v: C111_order, C111_stray_refuted |
| C112 | proved | Scenario.v `build_nguyen_network`, `training_network`, `training_setup`, `training_flow` | stage by stage (C47 round trip, C91 draws, C50 merging) with an invariant on the rate functions (constant on a window); then C78, C87 | PropScenario.v: C112_training, C112_nguyen_network, C112_nguyen, C112_sample |
| C113 | partial | Scenario.v `eval_network`, `eval_setup`, `eval_run`; Eval2.v `eval_commodities` | stages of C112, test commodities appended; the accumulated test inflow is y*min(t, h), so C60 applies (or divides by zero) | PropScenario2.v: C113_evaluation, C113_returns, C113_travel_times, C113_zero_refuted |
| C114 | partial | Optimised.v (every function on the path from `extend` to the measured travel times, without its assertions), OptProofs.v | refinement function by function: a returning checked call returns the same value unchecked; witness C32 | PropOptimised.v: C114_guard, C114_flow, C114_predictors, C114_build, C114_measure, C114_travel_time, C114_clean, C114_clean_build, C114_refuted |
| C115 | proved | DynFlow.v and Optimised.v side by side, OptTotal.v | one structural invariant (lengths, first snapshot not in the future, neighbouring breakpoints differ, events not in the past) kept by both modes; fuel suffices | PropOptimised2.v: C115_off, C115_on, C115_ordered, C115_predictors |
| C116 | partial | DynFlow.v | C33 and C35 for the clean part; computed witnesses | PropUnclean.v: C116_clean, C116_negative_refuted, C116_leak_refuted, C116_discarded, C116_rejects |
| C117 | proved | Rounded.v (the searches with every addition and subtraction rounded) | loop invariants with rounded labels; earliest arrival by simulation with rounded cost functions; binary64 by cases on exponents, bridge to Flocq | PropIeee.v, PropRounded.v: C117_ieee, C117_ieee_format, C117_exact_instance, C117_binary64, C117_constant, C117_labels, C117_dynamic, C117_earliest, C117_tolerance, C117_tolerance_sharp, C117_tolerance_lost |
| C118 | proved | RoundedFlow.v (DynamicFlow with every operation rounded, assertions on or off) | the invariant of C115 plus: breakpoints, times and events are floats; monotonicity gives exit times not before phi, gradual underflow non-zero divisors; binary64 floats are multiples of 2^-1074 | PropRoundedFlow.v: C118_exact_instance, C118_binary64, C118_off, C118_on, C118_ordered, C118_time, C118_capacity, C118_assertion_example |
| C119 | proved | FlowBuilder.v, DynFlow.v; BuilderTotal2.v | the invariant of C78 with the structural invariant of C115 in place of the exact description of queues | PropTotal2.v: C119_only_assertions, C119_in_extend, C119_zero, C119_reaches, C119_assertion_occurs |
| C120 | proved | PL.v, PL2.v, RC.v, PQ.v, Graph.v | case analysis on each guard; limits of monotone functions at infinite domain ends for level queries and compose | PropDetails.v, PropReject.v: C120_edge_load, C120_pl_constructor, C120_no_common_domain, C120_minimum_start, C120_restrict, C120_integrate, C120_decreasing, C120_level, C120_compose_range, C120_smaller_equals, C120_extend_domain, C120_segment, C120_ensure_monotone, C120_rc_constructor, C120_rc_domains, C120_rc_integral, C120_queue_item, C120_add_commodity |
| C121 | proved | RoundedBuilder.v (FlowBuilder, FlowRatesCollection, merge_sorted with rounding), RoundedFlow.v, Rounded.v | invariant of the rounds: outflows only carry commodities that can still reach their sink, costs can be evaluated from the rerouting time on, event keys are floats | PropRoundedBuilder.v: C121_exact_instance, C121_off, C121_on, C121_time, C121_routes, C121_zero, C121_constant, C121_horizon, C121_horizon64 |
| C122 | partial | RoundedFlow.v (PiecewiseLinear evaluation with rounding), Rounded.v (binary64), Spec.v pl_at | monotonicity of rounding for the order; relative error of each of the six operations, sums of floats do not underflow | PropRoundedEval.v: C122_total, C122_exact_instance, C122_piece, C122_ends, C122_error, C122_bounded, C122_sign_refuted, C122_breakpoint_refuted, C122_monotone_refuted |
| C123 | partial | RoundedFlow.v (DynamicFlow with rounding), Rounded.v (binary64) | relative error of the summation and of the two operations per commodity; invariant of the runs over the outflow snapshots and the pending changes | PropRoundedRates.v: C123_capacity, C123_share, C123_sum, C123_exact_refuted |
| C124 | partial | RoundedBuilder.v (FlowBuilder with rounding), RoundedFlow.v, Rounded.v (binary64) | the proof of C37 redone with rounding; invariant: routes without repetition, all stored rates are non-negative floats; relative error of the sum and the quotient | PropRoundedSplit.v: C124_split, C124_rates, C124_balance64, C124_exact_refuted |
| C125 | partial | EvalFiles.v (files of eval_network_demand and evaluate_single_run, the averaging loops of the scenarios) | invariant on the evaluation directory (every entry is the flow or the analysis of a run, the analysis showing the stored time), permutation invariance of the sum over os.listdir | PropEvalFiles.v: C125_average, C125_again, C125_no_runs, C125_tokyo_refuted |
| C126 | partial | RoundedRC.v, RoundedBuilder.v (RightConstant with rounding), Rounded.v (binary64) | merging with rounded comparisons keeps strictly increasing input breakpoints (invariant of the merge), pointer loops as in C20, error analysis of the sum of rounded products | PropRoundedRC.v: C126_eval, C126_plus, C126_sub, C126_sum, C126_sum64, C126_integral, C126_integral64, C126_exact_refuted |
| C127 | proved | TFNb.v (tf_batch_predict), Predictors.v (nb_batch_predict) | the two dictionaries have the same key sets; simulation of the loop over edges | PropTFNb.v: C127_batch, C127_run, C127_admissible |
| C128 | partial | RoundedPL.v (negation, sum, difference, edge load with rounding), Rounded.v (binary64) | the exact-arithmetic proof of plus redone with rounded merging: invariant of the merge (distances not equal to eps-comparison), cuts keep a strict order; symmetry of rounding to nearest even | PropRoundedPL.v: C128_plus, C128_disjoint, C128_sub, C128_binary64, C128_edge_load, C128_total_refuted, C128_everywhere_refuted, C128_extended_refuted, C128_exact_instance |
<!-- /table -->

Notes, side conditions and the exact content of refutations are in
`MANIFEST.json` (field `note`).

## 5. What the model found (defects of the code)

Each item with a `Cnn` has a machine-checked witness (`_refuted` theorem).

1. `merge_sorted` drifts by chaining replacements (C05).
2. `inverse` tests the wrong value on the last segment; `min_t_above` raises on
   functions starting flat above the bound (C12).
3. `compose`'s start assertion compares a time with a value (C13).
4. `minimum` is wrong behind the last breakpoint (C14), hence wrong
   Bellman-Ford labels (C43); a finite horizon makes Bellman-Ford raise.
5. `simplify` of both function classes loses arbitrarily much over time (C09,
   C22), also in the visualisation merge (C59).
6. `increase_key` never writes (C25).
7. `DynamicFlow.extend` can fail its own depletion assertion (C32).
8. `reroute_interval=None` always raises TypeError (C64).
9. Linear predictors return negative queues or raise (C52).
10. Neighbourhood `predict` spaces samples by 1 (C53, C54); `batch_predict`'s
    shared zero function cannot be used for costs (C65).
11. `get_neighboring_edges` beyond distance 1 (C55).
12. `Commodity` has no `source` (C49); reversed graphs lose consistency (C46,
    C47); isolated sinks do not unpickle (C47).
13. `active_edges`: shortcut, zero costs, weak-FIFO branch (C44).
14. `with_file_lock`: race, foreign unlock, stale locks (C58).
15. `generate_queues`: only row 0 written (C71), sign of the offset (C72), only five incoming edges in the expanded table (C106), "average" is the integral and no samples raise IndexError (C107); flows saved with gzip are opened plainly, so five readers always raise and the table writers leave locks that block them for ever (C110); lock files are read as flows or arrays (C109, C111).
16. The Tokyo regression predictor violates FIFO (C80); the per-edge one samples
    the extrapolated future instead of the past (C81); the full-net one raises
    for lazily asked times and mixes edges by `reshape` (C82); the expanded
    ones always raise (C83).
17. evaluate_mean_absolute_error compares different times when the prediction
    interval is no multiple of the reroute interval (C85);
    calculate_optimal_average_travel_time raises for breakpoints behind the
    horizon and sinks out of reach, and returns a total for unreachable sinks
    (C86); build_with_times raises in its logging (C87).
18. csv import: a file with one data row raises IndexError; add_demands_to_network
    passes four arguments to `add_commodity` and always raises TypeError (C89).
19. Flow file names depend on the number of flows: asking for more flows past a power
    of ten recomputes everything (C92). The visualisation of an evaluation merges
    evaluated commodities into the background (C93). The printed mean travel time
    divides by the number of all runs although only some are summed (C94).
20. eval_network_for_commodities has no try/finally: one exception leaves the lock and
    all processes wait for ever (C95). A flow file cut short makes an evaluation fail
    for ever (C96).
21. Training: a failed tensorflow training leaves its (empty) model directory and is
    never repeated; one-edge networks cannot read their own mask files; models and mask
    files drift apart when queue files are added (C97). Neighbourhood trainings wait for
    locks in the parent of the directory that holds them, so a process can go on with
    models missing (C98). A data set with no sample raises ZeroDivisionError (C100).
22. build_flows: interrupted after saving the flow, `on_flow_computed` (which writes the
    training data) is never called for it; a drawing cut short (also by an exception, the
    file is opened first) is never redone; dummy flow files make drawing runs raise (C99).
23. eval_network_for_commodities never evaluates anything: preparing the network raises
    AttributeError, leaving a lock per attempt, until every process waits for ever (C95).
24. Networks without node positions cannot be drawn (KeyError, file left empty); the slide
    examples 2-4 pass FlowRatesCollections to the JSON encoder (TypeError) (C103).
25. Splitting a focused commodity for which no demand was drawn makes the evaluation raise
    (division by a zero test inflow) after the whole flow has been computed (C113).
26. With assertions off - the mode the evaluations insist on - the failure of item 7 is not
    reported: the flow loses mass and the computation goes on (C114).
27. The depletion check of cases i and iii is one-sided: after a burst shorter than eps the
    queue becomes and stays negative, with assertions on; inflow within eps above the
    capacity never builds a queue and the excess disappears (C116).
28. From 2^20 (about 12 days in seconds) on, `x + eps == x` in binary64: the tolerance in the
    choice of active edges is lost and routes of equal length are told apart by rounding (C117).
29. At time 10^7 with capacity 3000 and a queue of 500, the rounding error of the depletion time
    alone makes `extend` fail its assertion `queue(depl_time) < 1000 * eps`; the tolerance is
    absolute while the error grows with time and capacity (C118_assertion_example).
30. Source rates that differ by less than eps while a queue empties slowly make the flow builder fail the assertion on
    the depleted queue, also with exact arithmetic (C119_assertion_occurs): `extend_with_slope` ignores the change of slope,
    `_extend_case_iii` plans the depletion with the new one.
31. **Rounding can stop the clock of FlowBuilder.** The next reroute time is computed by adding the interval; when the sum rounds back to the old time (binary64, interval 1, time 2^53) `build_flow` yields the same time for ever and never passes a later horizon (C121_horizon, C121_horizon64). Only far beyond the horizons used in the repository.
32. **Evaluation at a breakpoint is not exact.** `_eval_with_rank` uses the piece to the left, so the float computed at a breakpoint may differ from the stored value: times 0, 7 with values 29, 0 give -3.55e-15 at 7 (a non-negative function becomes negative), and times 0, 7, 8 with values 0, 29, 29 decrease from 7 to 8 (C122_sign_refuted, C122_monotone_refuted). A queue extrapolated by a predictor can therefore be slightly negative; DynamicFlow itself clamps with max(..., 0).
33. **The Tokyo script never prints its average.** `src/tokyo/tokyo_scenario.py:125` reads `comp_time`, `evaluate_single_run` writes `computation_time`: after the whole evaluation the script ends with a KeyError (C125_tokyo_refuted).
34. **Adding valid piecewise linear functions can fail.** `plus` cuts the merged breakpoints at the ends of the common domain by exact comparison, the constructor demands gaps of more than eps: adding a function on [1 - 2^-40, oo) to one with breakpoints 0, 1 raises AssertionError (C128_total_refuted); with python -O a segment of length 2^-40 is kept.
35. **`extend_with_slope` accepts what the constructor rejects.** It tests |time - times[-1]| > eps, the constructor times[i] < times[i+1] - eps; with floats these differ: extending at 2^20 - 2^-33 a function whose last breakpoint is 2^20 - 2^-32 appends a breakpoint, and negating the result (as get_edge_loads does) raises AssertionError (C128_extended_refuted).

Hazards noticed while reading and not (or only partly) formalised: sharing of
`times` lists between functions (`__neg__`, `integral`, arrival functions);
`right_extend` mutates its receiver; `_process_depletions` writes
`values[-1]` without clearing caches (harmless: see the PLCache.v theorems);
`FlowRatesCollectionItem.values` aliases the caller's dict; the
`_get_costs` cache is shared by all FlowBuilder instances; zero capacities
divide by zero; `csv_importer.add_demands_to_network` calls
`add_commodity` with a wrong signature.
