# property -> (what is modelled, how it is proved)
HOW = {
"C01": ("Arrays.v `elem_rank` (binary search on a list, fuel = length)", "loop invariant `arr[low-1] < x <= arr[high]`; the rank specification `is_rank` (Spec.v) determines the result uniquely"),
"C02": ("Arrays.v `elem_lrank`", "as C01 with the mirrored comparisons"),
"C03": ("Arrays.v `merge_sorted` (recursion on the two suffixes, reversed accumulator)", "invariant on the accumulator: sorted, gaps > eps, made of input points"),
"C04": ("Arrays.v `merge_sorted_many`", "the loop equals guarded insertion of the sorted multiset of all points, hence independence of how points are distributed over arrays"),
"C05": ("Arrays.v", "witness by computation (`_refuted`); drift bound by induction"),
"C06": ("PL.v `pl_init`, `pl_eval`, `pl_eval_ext`", "rank characterisation (C01) and interpolation spec by three implications"),
"C07": ("PL.v `eval_from_end`, `eval_sorted_array` (divide and conquer)", "both find the same rank; strong induction on the index interval"),
"C08": ("PL.v `pl_plus`, `pl_neg`, `pl_sub`", "both sides are linear between consecutive merged breakpoints and agree at them"),
"C09": ("PL.v `simplify`", "induction over breakpoints; drift witness for every tolerance"),
"C10": ("PL.v `restrict`", "slices of sorted lists, rank of the new ends"),
"C11": ("PL.v `extend_with_slope`", "case analysis on the eps tests"),
"C12": ("PL.v `inverse`, `min_t_above`, `max_t_below`", "monotonicity + first index above; witnesses"),
"C13": ("PL2.v `compose`", "sweep invariant: the points produced so far interpolate g o f on the prefix; both are linear between consecutive points"),
"C14": ("PL2.v `minimum`, `left_extend`, `right_extend`, `outer_minimum`", "sweep invariant over both breakpoint lists (PLMin.v); witnesses"),
"C15": ("PL2.v `smaller_equals`", "two-pointer sweep invariant; piecewise comparison extends from end points"),
"C16": ("PL.v `integrate`", "telescoping against any antiderivative (difference quotient spec)"),
"C17": ("PL.v `ensure_monotone`", "running-maximum induction"),
"C18": ("RC.v `rc_eval`, `rc_eval_from_end`", "lower rank characterisation (C02)"),
"C19": ("RC.v `rc_extend`", "case analysis; history induction"),
"C20": ("RC.v `rc_plus`, `rc_sub`, `rc_neg`, `rc_sum`", "pointer-advance loop invariant"),
"C21": ("RC.v `rc_integral`", "telescoping; the result's slope is the function"),
"C22": ("RC.v `rc_simplify`", "induction; drift witness family"),
"C23": ("PQ.v: heap array + index dictionary, all methods", "refinement to `squeue` (PQSpec.v): heap order, dictionary = positions; sift-up/down invariants"),
"C24": ("PQ.v", "corollary of C23"),
"C25": ("PQ.v `pq_increase_key`", "witness; invariants of the read-only loop"),
"C26": ("FRC.v: linked list as (current, rest)", "history induction, trace refinement"),
"C27": ("FRC.v", "history induction using C19"),
"C28": ("FRC.v", "history induction using C11, C21"),
"C29": ("FRC.v `frc_getstate`/`frc_setstate`", "round trip, then equality of all later answers"),
"C30": ("DynFlow.v `DQ`", "trace refinement to one partial map"),
"C31": ("DynFlow.v `flow_extend`", "inductive invariant over all runs"),
"C32": ("DynFlow.v", "inductive edge invariant (DynEdge.v); witness"),
"C33": ("DynFlow.v", "edge invariant"),
"C34": ("DynFlow.v", "invariant on outflow snapshots"),
"C35": ("DynFlow.v", "edge invariant: cumulative outflow at exit time = cumulative inflow"),
"C36": ("DynFlow.v", "edge invariant"),
"C37": ("FlowBuilder.v", "one builder round, for every state and predictor oracle"),
"C38": ("FlowBuilder.v", "run induction from C37, C35"),
"C39": ("FlowBuilder.v", "run induction; next reroute / change times"),
"C40": ("Dijkstra.v `reverse_dijkstra`", "classical invariant with tolerance k*eps per walk length"),
"C41": ("Dijkstra.v `dynamic_dijkstra`", "label-setting invariant with FIFO costs"),
"C42": ("Dijkstra.v `get_active_edges_from_dijkstra`", "invariant on stack/visited set: closed under tight predecessors"),
"C43": ("BellmanFord.v", "invariant: labels are least over walks found so far; fixpoint at exit; per-call exactness from C09, C13-C15"),
"C44": ("ActiveEdges.v", "from C40/C41-style label correctness; witnesses"),
"C45": ("Graph.v `get_nodes_reaching`, `get_reachable_nodes`", "search invariant, both directions"),
"C46": ("Graph.v `add_edge`, `g_reverse`", "history induction; witness"),
"C47": ("Graph.v `g_getstate`/`g_setstate`, network versions", "rebuild induction; witnesses"),
"C48": ("Graph.v `nw_remove_edge`", "history induction on identity-level attributes"),
"C49": ("Graph.v clean-up functions", "they raise AttributeError: proved for every network with a commodity; without commodities the loop of compress_lonely_nodes is followed by an invariant relating walks of the two networks"),
"C50": ("Eval.v `combine_commodities`", "fold induction, C20"),
"C51": ("Predictors.v", "unfolding to the evaluation specification C06"),
"C52": ("Predictors.v", "case analysis; reachable witnesses"),
"C53": ("Predictors.v (learned model = arbitrary row-wise function)", "characterisation of every post-processing step"),
"C54": ("Predictors.v", "equality of the two programs' results for all models"),
"C55": ("Neighbors.v", "induction on distance; witnesses"),
"C56": ("Eval.v `is_positive_during`", "rank characterisation"),
"C57": ("Dataset.v", "index arithmetic, shares the input specification with C53/C54"),
"C58": ("FileLock.v: interleaving transition system", "invariants over all interleavings; witness schedules"),
"C59": ("Eval.v `merge_commodities`", "C20, C22; witness"),
"C60": ("Eval.v `avg_travel_time`", "C16, C20, C21"),
"C61": ("Arrays.v `arg_min`", "fold invariant"),
"C62": ("DynFlow.v", "edge invariant: exit time non-decreasing"),
"C63": ("DynFlow.v", "edge invariant on snapshots"),
"C64": ("FlowBuilder.v", "computation for every network"),
"C65": ("Predictors.v", "computation for every prediction"),
"C66": ("Eval.v `get_edge_loads`", "C08, C28, C35"),
"C67": ("Predictors.v", "queue slope >= -capacity gives FIFO; C41"),
"C68": ("Eval.v `predict_edge_delay`", "C40/C41 labels"),
"C69": ("Eval.v `max delay`", "fold invariant incl. the threaded cache"),
"C70": ("FileLock.v `wait_for_locks`", "induction on the listings"),
"C71": ("Dataset.v `generate_queues`", "loop invariant: row stays 0"),
"C72": ("Dataset.v `expanded_queues`", "computation for every flow"),
"C73": ("PLCache.v (heap of objects and lists, LRU caches)", "cache consistency invariant; cached programs agree with PL.v/PL2.v; DynamicFlow: slope invariant of queues"),
"C74": ("PLCache.v", "ownership invariant on list cells; witnesses"),
"C75": ("FlowBuilder.v, Dijkstra.v, Predictors.v; vocabulary RoutesSpec.v", "cache invariant of active edges and costs per period; C40/C41 labels; commodities only supply nodes reachable from their sources; recorded rates by induction over rounds"),
"C76": ("DynFlow.v", "step lemma for rates and queues, induction over the calls"),
"C77": ("FlowBuilder.v, Predictors.v", "C75 + C51 + finality of queues"),
"C78": ("FlowBuilder.v; vocabulary TotalSpec.v", "totality of every function of a round; every positive supply can reach its sink (invariant over rounds); C32 for flow.extend; C40/C41/C67 for the searches"),
"C79": ("FlowBuilder.v, DynFlow.v", "windows of the minimal travel time: inside a window the possible ends of rounds form a fixed finite list, and every round moves to a later point of it"),
"C80": ("Predictors2.v `tokyo_predict`", "one_init/line lemmas; sign of the combinations; witness flow"),
"C81": ("Predictors2.v `per_edge_predict`", "clamp invariant of reg_values, simplify_points; agreement of all sampled times"),
"C82": ("Predictors2.v `full_reg_predict`", "row/chunk arithmetic for all sizes; builder witness run"),
"C83": ("Predictors2.v `weka_predict`, `scikit_closure`", "direct, for every flow"),
"C84": ("Predictors.v `base_batch_predict`", "maximum of a list; mapM"),
"C85": ("Eval2.v `mean_absolute_errors`", "grid arithmetic (floor), element-wise lists; witness with interval ratio 3/2"),
"C86": ("Eval2.v `optimal_avg_travel_time`, BellmanFord.v", "C11 max_t_below, C12 integral, C43; witnesses on built flows"),
"C87": ("Eval2.v `build_with_times`", "loop invariant against fb_run; C79 for termination, C78 for success"),
"C88": ("Eval2.v `eval_commodities`", "C50 + scaling of step functions + sums over predictors"),
"C89": ("Import.v `network_from_csv`, `import_network`, `add_demands`", "induction over the rows with the graph invariants of C46"),
"C90": ("Import.v `split`, `py_int`, `trip_line`, `od_pairs`, `add_commodities`", "grammar as inductive predicates; split lemmas by induction on the text"),
"C91": ("Import.v `demand_until`, `generate_network_demands`", "induction over commodities and sources with a draw counter"),
"C92": ("Import.v `flow_id`", "value of digit strings; lexicographic order equals numeric order"),
"C93": ("Eval2.v `eval_commodities`, Eval3.v `merged_ids`", "number of groups = number of distinct keys"),
"C94": ("Eval3.v `slowdowns`, `printed_means`, `mae_data`", "fold invariants; arithmetic of means"),
"C95": ("EvalLock.v `estep`", "transition system with crashes; invariants over all interleavings; explicit bad runs"),
"C96": ("EvalLock.v `run`", "transition system on file states; closed sets of bad states"),
"C97": ("Train.v `train_full`, `load_mask`, `happens`", "invariant over all histories of events; explicit bad histories"),
"C98": ("Train.v `nb_train`, `from_models`, `tstep`", "induction over the edge list; transition system with invariants over all interleavings"),
"C99": ("Train.v `build_flow`", "invariants over all histories of interrupted runs; closed sets of bad states"),
"C100": ("Train.v `ds_iter`, Dataset.v `ds_get`", "induction on the number of remaining samples"),
"C101": ("EvalPlot.v `perf_data`", "fold invariants"),
"C102": ("EvalPlot.v `eval_sample`, `time_plot`, `regret_plot`", "loop invariant over the demands"),
"C103": ("Vis.v `encode`, `pl_json`, `rc_json`, `vis_value`", "an independent reader of JSON trees recovers every part; injectivity of decimal keys"),
"C104": ("DynFlow.v", "ebase invariant (DynEdge.v); exit times are piecewise linear, proportions (C63) integrated piece by piece"),
"C105": ("FlowBuilder.v `fb_run`", "C38 summed over the nodes (double counting of edges), integrated piece by piece; C104"),
"C106": ("Expanded.v `expanded_queues`", "dicts as association lists; spec of `fill` (last write wins) by induction; refuted on a run with six parallel edges"),
"C107": ("Expanded.v `per_edge_table`", "as C106; C16 for the integrals; refuted on a concrete run with step 2"),
"C108": ("Expanded.v `queue_table`", "range arithmetic"),
"C109": ("Files.v `generate_data`, `with_lock`", "directories as association lists; loop lemma `each_spec` (each name written once unless taken), lock put and removed"),
"C110": ("Files.v `generate_queues`, `generate_training_data`, `expanded_file`, `edge_files`, `shallow_evaluate`", "`built` directories hold gzip files only; `load_plain` fails on them"),
"C111": ("Files.v `generate_data`, `read_arrays`", "the sorted names are unique (total order on names); C92 gives the order of the numbers"),
"C112": ("Scenario.v `build_nguyen_network`, `training_network`, `training_setup`, `training_flow`", "stage by stage (C47 round trip, C91 draws, C50 merging) with an invariant on the rate functions (constant on a window); then C78, C87"),
"C113": ("Scenario.v `eval_network`, `eval_setup`, `eval_run`; Eval2.v `eval_commodities`", "stages of C112, test commodities appended; the accumulated test inflow is y*min(t, h), so C60 applies (or divides by zero)"),
"C114": ("Optimised.v (every function on the path from `extend` to the measured travel times, without its assertions), OptProofs.v", "refinement function by function: a returning checked call returns the same value unchecked; witness C32"),
"C115": ("DynFlow.v and Optimised.v side by side, OptTotal.v", "one structural invariant (lengths, first snapshot not in the future, neighbouring breakpoints differ, events not in the past) kept by both modes; fuel suffices"),
"C116": ("DynFlow.v", "C33 and C35 for the clean part; computed witnesses"),
"C117": ("Rounded.v (the searches with every addition and subtraction rounded)", "loop invariants with rounded labels; earliest arrival by simulation with rounded cost functions; binary64 by cases on exponents, bridge to Flocq"),
"C118": ("RoundedFlow.v (DynamicFlow with every operation rounded, assertions on or off)", "the invariant of C115 plus: breakpoints, times and events are floats; monotonicity gives exit times not before phi, gradual underflow non-zero divisors; binary64 floats are multiples of 2^-1074"),
"C119": ("FlowBuilder.v, DynFlow.v; BuilderTotal2.v", "the invariant of C78 with the structural invariant of C115 in place of the exact description of queues"),
"C120": ("PL.v, PL2.v, RC.v, PQ.v, Graph.v", "case analysis on each guard; limits of monotone functions at infinite domain ends for level queries and compose"),
"C121": ("RoundedBuilder.v (FlowBuilder, FlowRatesCollection, merge_sorted with rounding), RoundedFlow.v, Rounded.v", "invariant of the rounds: outflows only carry commodities that can still reach their sink, costs can be evaluated from the rerouting time on, event keys are floats"),
"C122": ("RoundedFlow.v (PiecewiseLinear evaluation with rounding), Rounded.v (binary64), Spec.v pl_at", "monotonicity of rounding for the order; relative error of each of the six operations, sums of floats do not underflow"),
"C123": ("RoundedFlow.v (DynamicFlow with rounding), Rounded.v (binary64)", "relative error of the summation and of the two operations per commodity; invariant of the runs over the outflow snapshots and the pending changes"),
"C124": ("RoundedBuilder.v (FlowBuilder with rounding), RoundedFlow.v, Rounded.v (binary64)", "the proof of C37 redone with rounding; invariant: routes without repetition, all stored rates are non-negative floats; relative error of the sum and the quotient"),
"C125": ("EvalFiles.v (files of eval_network_demand and evaluate_single_run, the averaging loops of the scenarios)", "invariant on the evaluation directory (every entry is the flow or the analysis of a run, the analysis showing the stored time), permutation invariance of the sum over os.listdir"),
"C126": ("RoundedRC.v, RoundedBuilder.v (RightConstant with rounding), Rounded.v (binary64)", "merging with rounded comparisons keeps strictly increasing input breakpoints (invariant of the merge), pointer loops as in C20, error analysis of the sum of rounded products"),
"C127": ("TFNb.v (tf_batch_predict), Predictors.v (nb_batch_predict)", "the two dictionaries have the same key sets; simulation of the loop over edges"),
"C128": ("RoundedPL.v (negation, sum, difference, edge load with rounding), Rounded.v (binary64)", "the exact-arithmetic proof of plus redone with rounded merging: invariant of the merge (distances not equal to eps-comparison), cuts keep a strict order; symmetry of rounding to nearest even"),
}
