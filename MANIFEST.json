{
 "claims": [
  {
   "property": "C01",
   "status": "proved",
   "theorems": [
    "C01_elem_rank"
   ],
   "note": ""
  },
  {
   "property": "C02",
   "status": "proved",
   "theorems": [
    "C02_elem_lrank"
   ],
   "note": ""
  },
  {
   "property": "C03",
   "status": "proved",
   "theorems": [
    "C03_merge_sorted"
   ],
   "note": ""
  },
  {
   "property": "C04",
   "status": "proved",
   "theorems": [
    "C04_merge_sorted_many",
    "C04_distribution_independent",
    "C04_multiset_only",
    "C04_agrees_with_merge_sorted"
   ],
   "note": ""
  },
  {
   "property": "C05",
   "status": "partial",
   "theorems": [
    "C05_refuted",
    "C05_drift_bound_partial"
   ],
   "note": "REFUTED for the code: replacement of the last merged point chains, so an input point can be lost by more than eps (C05_refuted, 4-point witness). Proved instead: drift is one-sided and at most (number of inputs)*eps."
  },
  {
   "property": "C06",
   "status": "proved",
   "theorems": [
    "C06_constants",
    "C06_constructor",
    "C06_eval",
    "C06_eval_at_infinity"
   ],
   "note": ""
  },
  {
   "property": "C07",
   "status": "proved",
   "theorems": [
    "C07_eval_from_end",
    "C07_eval_sorted_array"
   ],
   "note": ""
  },
  {
   "property": "C08",
   "status": "proved",
   "theorems": [
    "C08_plus",
    "C08_sub",
    "C08_neg"
   ],
   "note": ""
  },
  {
   "property": "C09",
   "status": "partial",
   "theorems": [
    "C09_simplify_partial",
    "C09_refuted"
   ],
   "note": "Exact preservation proved when slope changes are 0 or >= 1000 eps. The unconditional claim is REFUTED for every tolerance (C09_refuted): a slope change below 1000 eps is dropped and the error grows with time."
  },
  {
   "property": "C10",
   "status": "proved",
   "theorems": [
    "C10_restrict"
   ],
   "note": ""
  },
  {
   "property": "C11",
   "status": "proved",
   "theorems": [
    "C11_extend_defined",
    "C11_extend_exact",
    "C11_extend_tolerance"
   ],
   "note": ""
  },
  {
   "property": "C12",
   "status": "partial",
   "theorems": [
    "C12_min_t_above_partial",
    "C12_max_t_below",
    "C12_max_t_below_default",
    "C12_inverse_partial",
    "C12_min_t_above_refuted",
    "C12_inverse_refuted"
   ],
   "note": "max_t_below proved in full; min_t_above and inverse proved under the stated side conditions. REFUTED in general: min_t_above raises when the function starts flat at or above the bound although the minimum exists; inverse on the last segment accepts values below the segment (its assertion tests values[0]) and returns a time where f differs."
  },
  {
   "property": "C13",
   "status": "partial",
   "theorems": [
    "C13_compose_partial",
    "C13_refuted"
   ],
   "note": "Proved for monotone f, image inside g's domain, kinks more than eps apart, and start_ok. REFUTED without start_ok: the code's start assertion compares a time of f with a breakpoint of g and can raise."
  },
  {
   "property": "C14",
   "status": "partial",
   "theorems": [
    "C14_minimum_partial",
    "C14_outer_minimum_partial",
    "C14_tie_refuted",
    "C14_refuted"
   ],
   "note": "REFUTED as stated: after its loop minimum intersects the last pieces from the last pushed time (C14_refuted), and where the functions agree at the last breakpoint it may keep the steeper one, even for single-breakpoint functions (C14_tie_refuted). Proved (C14_minimum_partial, C14_outer_minimum_partial): for functions on the same domain, with values/slopes/kinks equal or eps-separated and a benign end (min_end), the result exists, is valid and is the pointwise minimum everywhere."
  },
  {
   "property": "C15",
   "status": "proved",
   "theorems": [
    "C15_smaller_equals",
    "C15_shorter_domain"
   ],
   "note": ""
  },
  {
   "property": "C16",
   "status": "proved",
   "theorems": [
    "C16_integrate",
    "C16_additive"
   ],
   "note": ""
  },
  {
   "property": "C17",
   "status": "proved",
   "theorems": [
    "C17_ensure_monotone",
    "C17_monotone_increases",
    "C17_checked_mode"
   ],
   "note": ""
  },
  {
   "property": "C18",
   "status": "proved",
   "theorems": [
    "C18_eval",
    "C18_eval_from_end"
   ],
   "note": ""
  },
  {
   "property": "C19",
   "status": "proved",
   "theorems": [
    "C19_extend_defined",
    "C19_extend",
    "C19_extend_tolerance",
    "C19_history_valid",
    "C19_only_breakpoint"
   ],
   "note": "Exact version under eps-separation of the new time/value, tolerance version without; C19_only_breakpoint exhibits the exception (a single breakpoint later than the domain start)."
  },
  {
   "property": "C20",
   "status": "proved",
   "theorems": [
    "C20_plus",
    "C20_sub",
    "C20_neg",
    "C20_sum",
    "C20_sum_empty"
   ],
   "note": ""
  },
  {
   "property": "C21",
   "status": "proved",
   "theorems": [
    "C21_integral"
   ],
   "note": ""
  },
  {
   "property": "C22",
   "status": "proved",
   "theorems": [
    "C22_simplify",
    "C22_unbounded_drift"
   ],
   "note": "Both halves of the statement: exact preservation when steps are 0 or >= 1000 eps, and unbounded drift otherwise (C22_unbounded_drift)."
  },
  {
   "property": "C23",
   "status": "proved",
   "theorems": [
    "C23_behaves_as_keyed_queue",
    "C23_least"
   ],
   "note": "Trace refinement: for every initial list without duplicate items and every legal history (decrease_key never raises a key; increase_key excluded, see C25) all answers and exceptions equal those of the specification."
  },
  {
   "property": "C24",
   "status": "proved",
   "theorems": [
    "C24_drain_sorted"
   ],
   "note": ""
  },
  {
   "property": "C25",
   "status": "partial",
   "theorems": [
    "C25_refuted",
    "C25_total_partial",
    "C25_leaf_no_effect_partial",
    "C25_rejects"
   ],
   "note": "REFUTED (C25_refuted): increase_key never stores the new entry. Proved: it does not raise and keeps the number of entries; on leaves it has no effect; it rejects missing items and smaller keys (C25_rejects)."
  },
  {
   "property": "C26",
   "status": "proved",
   "theorems": [
    "C26_history",
    "C26_query",
    "C26_from_functions"
   ],
   "note": "All histories of extensions (non-decreasing times, positive rates) and queries in any order, as a trace refinement; also for collections built from given rate functions (eps-separated breakpoints)."
  },
  {
   "property": "C27",
   "status": "proved",
   "theorems": [
    "C27_tolerance",
    "C27_exact"
   ],
   "note": "Tolerance version without any separation hypothesis; exact version when times/rates are equal or more than eps apart."
  },
  {
   "property": "C28",
   "status": "proved",
   "theorems": [
    "C28_accumulative",
    "C28_from_functions"
   ],
   "note": "Under eps-separation of times and totals; also for the constructor with given functions."
  },
  {
   "property": "C29",
   "status": "proved",
   "theorems": [
    "C29_roundtrip"
   ],
   "note": ""
  },
  {
   "property": "C30",
   "status": "proved",
   "theorems": [
    "C30_coupled"
   ],
   "note": "Trace refinement: every history of set/remove/pop on the coupled pair of queues answers like one partial map from edges to plans."
  },
  {
   "property": "C31",
   "status": "proved",
   "theorems": [
    "C31_extend",
    "C31_reported"
   ],
   "note": "Any validly fed run (any order of extend / outflow queries)."
  },
  {
   "property": "C32",
   "status": "partial",
   "theorems": [
    "C32_no_exception",
    "C32_refuted",
    "C32_only_assertions"
   ],
   "note": "Proved for every clean run (instrumented replay raises no Unclean, i.e. no eps-comparison identifies distinct numbers). REFUTED without cleanliness (C32_refuted): two inflow changes half an eps apart on a high-capacity edge make the depletion assertion fail. C32_only_assertions: without cleanliness an AssertionError is the only possible exception (see C115)."
  },
  {
   "property": "C33",
   "status": "proved",
   "theorems": [
    "C33_queue_nonneg"
   ],
   "note": "For clean runs (see C32)."
  },
  {
   "property": "C34",
   "status": "proved",
   "theorems": [
    "C34_snapshots"
   ],
   "note": "Any validly fed run."
  },
  {
   "property": "C35",
   "status": "proved",
   "theorems": [
    "C35_conservation",
    "C35_cumulative"
   ],
   "note": "For clean runs (see C32); C35_cumulative relates the cumulative functions to the rate functions."
  },
  {
   "property": "C36",
   "status": "proved",
   "theorems": [
    "C36_rates",
    "C36_capacity"
   ],
   "note": "For clean runs (see C32); cleanliness excludes the band [capacity - eps, capacity) with a positive queue."
  },
  {
   "property": "C37",
   "status": "proved",
   "theorems": [
    "C37_node_balance",
    "C37_assigned_edges"
   ],
   "note": "Every round of every run, any predictors (as oracles), any set iteration order; the active edges are any non-empty duplicate-free set of outgoing edges the routing returns."
  },
  {
   "property": "C38",
   "status": "proved",
   "theorems": [
    "C38_conservation",
    "C38_threshold_needed"
   ],
   "note": "All runs that are clean (replaying the run with the instrumented flow raises no Unclean) with source functions on [0,inf) whose breakpoints at one node are more than eps apart; any predictors. C38_threshold_needed: a source of rate eps/2 is never served."
  },
  {
   "property": "C39",
   "status": "proved",
   "theorems": [
    "C39_round",
    "C39_handled",
    "C39_reroutes",
    "C39_changes"
   ],
   "note": "Every run with a finite positive interval: C39_round and C39_handled describe one round, C39_reroutes and C39_changes say that no reroute time and no network inflow change is ever skipped."
  },
  {
   "property": "C40",
   "status": "proved",
   "theorems": [
    "C40_reverse_dijkstra",
    "C40_sink_outside"
   ],
   "note": "Every label is the cost of a walk and exceeds the cost of no walk with k edges by more than k*eps (the relaxation tolerance accumulates along walks)."
  },
  {
   "property": "C41",
   "status": "proved",
   "theorems": [
    "C41_dynamic_dijkstra"
   ],
   "note": "All graphs, all total non-negative FIFO cost callables, any relevant node set, any source/sink."
  },
  {
   "property": "C42",
   "status": "proved",
   "theorems": [
    "C42_active_edges",
    "C42_tight_meaning",
    "C42_source_is_sink"
   ],
   "note": "Exact characterisation of the returned set. C42_source_is_sink: the excluded case raises AssertionError."
  },
  {
   "property": "C43",
   "status": "partial",
   "theorems": [
    "C43_exact_partial",
    "C43_partial",
    "C43_refuted",
    "C43_horizon_refuted",
    "C43_fifo_repair"
   ],
   "note": "Proved for every run whose data meet the separation conditions of C09, C13, C14 and C15 at the calls it makes (C43_partial; C43_exact_partial for any run whose calls are exact): labels are arrival times of walks and beat every walk up to 1000 eps * (1 + until - phi) per edge. Missing: runs outside these conditions, where it is REFUTED: C43_refuted (good costs, label more than one time unit below every walk because of minimum's end handling) and C43_horizon_refuted (finite horizon: AssertionError instead of skipping an edge). C43_fifo_repair: the FIFO repair of an edge's exit time is exact."
  },
  {
   "property": "C44",
   "status": "partial",
   "theorems": [
    "C44_strong_fifo",
    "C44_shortcut",
    "C44_shortcut_refuted",
    "C44_zero_cost_refuted",
    "C44_weak_fifo_refuted",
    "C44_unreachable"
   ],
   "note": "Strong FIFO: for all consistent graphs and positive strictly FIFO costs the result is exactly the set of first edges of earliest-arrival walks (C44_strong_fifo), empty when the sink is unreachable; the shortcut is right when all edges lead to relevant nodes. REFUTED: the shortcut returns dead-end edges (C44_shortcut_refuted), zero costs lose edges (C44_zero_cost_refuted), and the weak FIFO branch raises for every input and can leave the graph reversed (C44_weak_fifo_refuted)."
  },
  {
   "property": "C45",
   "status": "proved",
   "theorems": [
    "C45_reachable_exact",
    "C45_reaching_exact",
    "C45_reaching_foreign"
   ],
   "note": "All consistent graphs, reversed or not; C46 shows every graph built while unreversed is consistent."
  },
  {
   "property": "C46",
   "status": "partial",
   "theorems": [
    "C46_incidence",
    "C46_listed_once",
    "C46_reverse",
    "C46_reversed_refuted"
   ],
   "note": "Proved for all histories of add_edge/reverse that add edges while unreversed. REFUTED on reversed graphs (C46_reversed_refuted): every non-loop edge added there is filed under the wrong nodes."
  },
  {
   "property": "C47",
   "status": "partial",
   "theorems": [
    "C47_graph_roundtrip",
    "C47_network_roundtrip",
    "C47_reversed_refuted",
    "C47_isolated_sink_refuted"
   ],
   "note": "Proved for unreversed graphs and networks (nodes without edges are lost). REFUTED for every reversed graph (all edges flip) and for commodities sinking at an isolated node (loading raises AssertionError)."
  },
  {
   "property": "C48",
   "status": "proved",
   "theorems": [
    "C48_remove_node",
    "C48_remove_nodes",
    "C48_attributes_aligned"
   ],
   "note": "All histories; identity-level: every edge object keeps the capacity and travel time it was created with. C48_remove_node(s): removing nodes removes exactly the incident edges with their data, in any order."
  },
  {
   "property": "C49",
   "status": "partial",
   "theorems": [
    "C49_compress_free",
    "C49_self_loop_refuted",
    "C49_no_commodities",
    "C49_no_such_commodity",
    "C49_unnecessary_nodes_refuted",
    "C49_unnecessary_commodities_refuted",
    "C49_compress_refuted"
   ],
   "note": "REFUTED for every network with a commodity: Commodity has no attribute source, so all three functions raise AttributeError (compress_lonely_nodes exactly when a node with in- and out-degree 1 exists). Without commodities: remove_unnecessary_nodes empties the network (C49_no_commodities), compress_lonely_nodes preserves walks, travel times and bottleneck capacities between kept nodes (C49_compress_free), and raises ValueError at a node whose only edge is a self-loop (C49_self_loop_refuted)."
  },
  {
   "property": "C50",
   "status": "proved",
   "theorems": [
    "C50_combine"
   ],
   "note": "All networks whose source functions share a domain and whose breakpoints at one node are more than eps apart, distinct commodity objects, any set of exceptions, any set iteration order."
  },
  {
   "property": "C51",
   "status": "proved",
   "theorems": [
    "C51_constant",
    "C51_zero"
   ],
   "note": "All states whose queues are functions on the whole line (run_lines: every clean run); any prediction time."
  },
  {
   "property": "C52",
   "status": "partial",
   "theorems": [
    "C52_linear_partial",
    "C52_regularised_partial",
    "C52_nonneg_partial",
    "C52_no_exception_partial",
    "C52_exception_refuted",
    "C52_negative_refuted"
   ],
   "note": "REFUTED: C52_negative_refuted (a queue at most eps with a negative left slope, e.g. one that has just run empty, is extrapolated to negative values, reachable) and C52_exception_refuted (a queue about to deplete within eps makes the predictor raise AssertionError, reachable). Proved: the exact extrapolation, non-negativity and absence of exceptions in all other cases."
  },
  {
   "property": "C53",
   "status": "partial",
   "theorems": [
    "C53_full_net",
    "C53_neighborhood_partial",
    "C53_neighborhood_batch",
    "C53_refuted"
   ],
   "note": "Full-net predictors (SK and TF): for every model, mask and flow; besides admissibility the values at the sampling points are characterised exactly, and the model input. Neighbourhood predictors: batch_predict right, predict only bounded by interval*capacity per unit (REFUTED, C53_refuted: it spaces values by 1 instead of the prediction interval)."
  },
  {
   "property": "C54",
   "status": "partial",
   "theorems": [
    "C54_full_net",
    "C54_neighborhood_partial",
    "C54_refuted"
   ],
   "note": "Full-net predictors: results and exceptions agree for all models, masks with output within input, and lists of prediction times. Neighbourhood predictors: agree iff the interval is 1 (proved for interval 1, REFUTED otherwise by C54_refuted)."
  },
  {
   "property": "C55",
   "status": "partial",
   "theorems": [
    "C55_forward",
    "C55_backward_partial",
    "C55_undirected_partial",
    "C55_directed_partial",
    "C55_masks",
    "C55_refuted"
   ],
   "note": "Forward proved for all graphs and distances. REFUTED for backward, undirected and directed beyond distance 1 (C55_refuted): proved partial versions give the exact set returned (min(d,1) steps)."
  },
  {
   "property": "C56",
   "status": "proved",
   "theorems": [
    "C56_is_positive_during"
   ],
   "note": "All valid step functions and all intervals a < b inside the domain."
  },
  {
   "property": "C57",
   "status": "proved",
   "theorems": [
    "C57_rejects",
    "C57_masks",
    "C57_sample",
    "C57_shape",
    "C57_round",
    "C57_multiple"
   ],
   "note": "All recorded flows whose queues and loads are functions on the whole line (run_recorded: every clean run with separated cumulative breakpoints), prediction interval an exact positive multiple of the reroute interval, past >= 1, optional additional masks: sample i is exactly the model input (is_input, shared with C53/C54) and target of one flow at one time, and every target time lies within the horizon. C57_masks: the masks. C57_round, C57_multiple: which interval pairs are accepted and the rounding (half to even)."
  },
  {
   "property": "C58",
   "status": "partial",
   "theorems": [
    "C58_skips",
    "C58_effects",
    "C58_released",
    "C58_mutual_exclusion_partial",
    "C58_race_refuted",
    "C58_unlocked_refuted",
    "C58_failed_open_refuted",
    "C58_stale_lock",
    "C58_crash_refuted",
    "C58_alone"
   ],
   "note": "Transition system with any number of processes, arbitrary interleavings of the single system calls, arbitrary handlers, crashes anywhere. REFUTED: mutual exclusion (C58_race_refuted: check-then-create race; C58_failed_open_refuted: a failing open removes somebody else's lock), a running handler can lose its lock (C58_unlocked_refuted), and a crash leaves a stale lock after which every call skips forever although the output is missing (C58_crash_refuted + C58_stale_lock). Proved: skipping has no effect, release on return and raise, mutual exclusion when nobody interleaves between check and creation and creation succeeds."
  },
  {
   "property": "C59",
   "status": "partial",
   "theorems": [
    "C59_merge",
    "C59_empty",
    "C59_drift_refuted"
   ],
   "note": "All collections of non-negative rate functions on [0,inf) with eps-separated breakpoints and any set of commodities: exact when the total jumps by at least 1000 eps wherever it changes. REFUTED without that (C59_drift_refuted): the final simplify loses any amount."
  },
  {
   "property": "C60",
   "status": "proved",
   "theorems": [
    "C60_nonneg",
    "C60_avg_travel_time",
    "C60_spec_exists"
   ],
   "note": "All outflow collections and source functions with non-negative rates on [0,inf) and eps-separated breakpoints; ZeroDivisionError exactly when nothing has entered by H. C60_spec_exists: the integrals in the statement always exist. C60_nonneg: for clean runs of the flow builder the result is not negative."
  },
  {
   "property": "C61",
   "status": "proved",
   "theorems": [
    "C61_arg_min"
   ],
   "note": ""
  },
  {
   "property": "C62",
   "status": "proved",
   "theorems": [
    "C62_fifo"
   ],
   "note": "For clean runs (see C32)."
  },
  {
   "property": "C63",
   "status": "proved",
   "theorems": [
    "C63_proportions"
   ],
   "note": "For clean runs (see C32)."
  },
  {
   "property": "C64",
   "status": "partial",
   "theorems": [
    "C64_none_refuted"
   ],
   "note": "REFUTED: with reroute_interval=None the first round always raises TypeError (None is added to the next reroute time)."
  },
  {
   "property": "C65",
   "status": "partial",
   "theorems": [
    "C65_refuted"
   ],
   "note": "REFUTED for every batch prediction with a masked-out edge and a positive prediction time: the shared zero function has its breakpoint at 0, outside the cost domain."
  },
  {
   "property": "C66",
   "status": "proved",
   "theorems": [
    "C66_loads"
   ],
   "note": "For clean runs whose cumulative curves have eps-separated breakpoints per edge."
  },
  {
   "property": "C67",
   "status": "partial",
   "theorems": [
    "C67_costs",
    "C67_search",
    "C67_constant",
    "C67_zero",
    "C67_full_net",
    "C67_linear_partial",
    "C67_regularised_partial",
    "C67_negative_refuted"
   ],
   "note": "Good predictions (C67_constant, C67_zero, C67_full_net unconditionally; linear and regularised-linear where their queue does not go negative) give total FIFO costs of at least the travel time and searches that succeed. REFUTED for negative extrapolations (C67_negative_refuted: linear and regularised-linear on a clean run give a negative cost and the search misses the earliest arrival) and for the batch zero function (C65)."
  },
  {
   "property": "C68",
   "status": "proved",
   "theorems": [
    "C68_edge_delay",
    "C68_dead_end",
    "C68_from_sink"
   ],
   "note": "All graphs and total non-negative FIFO costs. Up to the relaxation tolerance of the two searches (C40): exact when no two arrival times are nearly tied; a nearly shortest edge is reported as 0."
  },
  {
   "property": "C69",
   "status": "proved",
   "theorems": [
    "C69_max_delay",
    "C69_grid"
   ],
   "note": "All flows, predictions and grids; also for the state-threading cache of the previous interval's delays."
  },
  {
   "property": "C70",
   "status": "proved",
   "theorems": [
    "C70_waits",
    "C70_waits_forever"
   ],
   "note": "All sequences of listings."
  },
  {
   "property": "C71",
   "status": "partial",
   "theorems": [
    "C71_training_data_refuted"
   ],
   "note": "REFUTED for every flow: row is never incremented, so only row 0 is written, with the sample of the last prediction time."
  },
  {
   "property": "C72",
   "status": "partial",
   "theorems": [
    "C72_columns_refuted"
   ],
   "note": "REFUTED for every flow: the column holds the queue at phi - t * step_length (past and future exchanged)."
  },
  {
   "property": "C73",
   "status": "partial",
   "theorems": [
    "C73_cached_calls",
    "C73_queries_pure",
    "C73_write_refuted",
    "C73_depletions",
    "C73_small_capacity_refuted"
   ],
   "note": "Heap model with the three bounded LRU caches (PLCache.v), all histories including calls that raise, provided direct writes to values[-1] follow an extension that changes the slope (C73_cached_calls); C73_depletions: DynamicFlow keeps to this in every run when all capacities exceed eps. REFUTED otherwise: C73_write_refuted (a direct write leaves a stale evaluation), C73_small_capacity_refuted (capacity at most eps: the queue extension returns early before the write)."
  },
  {
   "property": "C74",
   "status": "partial",
   "theorems": [
    "C74_independent_partial",
    "C74_fresh_partial",
    "C74_neg_refuted",
    "C74_compose_refuted"
   ],
   "note": "REFUTED: C74_neg_refuted (-f shares the list of times with f; extending f leaves -f with more times than values) and C74_compose_refuted (repeated compose calls return one object). Proved: histories without negation, for different objects; every call except compose returns a new object."
  },
  {
   "property": "C75",
   "status": "proved",
   "theorems": [
    "C75_round",
    "C75_recorded"
   ],
   "note": "C75_round: every round, whatever eps does inside flow.extend; C75_recorded: the recorded inflow of every clean build. For every predictor whose answer is usable (one FIFO function per edge, C67) resp. whose first values are non-negative if flagged constant; optimality is over all walks of the whole graph. Predictions are made lazily: the flow handed to the predictor is that of some round of the period."
  },
  {
   "property": "C76",
   "status": "proved",
   "theorems": [
    "C76_final"
   ],
   "note": "All valid clean runs and all continuations."
  },
  {
   "property": "C77",
   "status": "proved",
   "theorems": [
    "C77_constant",
    "C77_zero"
   ],
   "note": "Clean builds; the error is (number of edges + 1) * eps against any competing walk (tolerances of reverse_dijkstra and of the active-edge test)."
  },
  {
   "property": "C78",
   "status": "proved",
   "theorems": [
    "C78_constructor",
    "C78_no_exception",
    "C78_constant_zero"
   ],
   "note": "C78_constructor is an equivalence. C78_no_exception assumes usable predictions (C67) and clean queues; C78_constant_zero discharges the former. Without cleanliness C32_refuted applies."
  },
  {
   "property": "C79",
   "status": "proved",
   "theorems": [
    "C79_progress",
    "C79_reaches"
   ],
   "note": "C79_progress needs positive travel times but no cleanliness and no assumption on predictors. Zero travel times are excluded: a cycle of such edges can feed itself at one instant."
  },
  {
   "property": "C80",
   "status": "partial",
   "theorems": [
    "C80_tokyo",
    "C80_admissible_partial",
    "C80_fifo_refuted"
   ],
   "note": "Everything but FIFO proved for all flows; C80_admissible_partial: a good prediction when the last samples change slowly enough; REFUTED in general: C80_fifo_refuted (predicted exit times decrease by more than 70 within one time unit, on a reachable flow)."
  },
  {
   "property": "C81",
   "status": "partial",
   "theorems": [
    "C81_ignores_history",
    "C81_per_edge",
    "C81_values_partial",
    "C81_no_exception",
    "C81_history_refuted"
   ],
   "note": "Admissible for all models and flows (C81_per_edge), no exception (C81_no_exception). C81_values_partial: exact values up to the final simplify. REFUTED: C81_ignores_history / C81_history_refuted: the samples are taken at pt, pt+1, ... instead of pt, pt-1, ..., so the past is never read."
  },
  {
   "property": "C82",
   "status": "partial",
   "theorems": [
    "C82_time",
    "C82_builder_refuted",
    "C82_full_net_partial",
    "C82_mask_refuted"
   ],
   "note": "REFUTED: every prediction time other than flow.phi raises ValueError (C82_time), which aborts builds on lazily asked predictions (C82_builder_refuted); the reshaped input mixes queues and loads of different edges (C82_mask_refuted: a masked-out edge decides the prediction). Proved (partial): exact inputs, zero outside the mask, admissible with step_length*capacity per time unit."
  },
  {
   "property": "C83",
   "status": "partial",
   "theorems": [
    "C83_weka_refuted",
    "C83_scikit_refuted",
    "C83_closure_spec"
   ],
   "note": "REFUTED for every flow: weka: 10 times but 11 values (AssertionError); scikit: swapped arguments (TypeError).  closure_spec: what the scikit closure would return if called with the queues and the time."
  },
  {
   "property": "C84",
   "status": "proved",
   "theorems": [
    "C84_rejects",
    "C84_accepts"
   ],
   "note": "Full."
  },
  {
   "property": "C85",
   "status": "partial",
   "theorems": [
    "C85_mae",
    "C85_refuted"
   ],
   "note": "Proved when the prediction interval is a positive integer multiple of the reroute interval and the queues are functions on the whole line (C85_mae). REFUTED otherwise (C85_refuted): the stride rounds, so predictions are compared with queues at other times."
  },
  {
   "property": "C86",
   "status": "partial",
   "theorems": [
    "C86_average",
    "C86_single_source",
    "C86_optimal_partial",
    "C86_breakpoint",
    "C86_refuted"
   ],
   "note": "C86_average: the returned number is the average of min(label, horizon) - t for every valid label; C86_optimal_partial: the label is the earliest-arrival label up to the tolerance of C43, under the conditions of C43. REFUTED: queue breakpoints behind the horizon or a sink out of reach before the horizon raise AssertionError (C86_breakpoint, C86_refuted), an unreachable sink returns the total instead of the average (C86_refuted)."
  },
  {
   "property": "C87",
   "status": "partial",
   "theorems": [
    "C87_log_line",
    "C87_first",
    "C87_stops",
    "C87_returns",
    "C87_logging",
    "C87_refuted"
   ],
   "note": "C87_first/C87_stops/C87_returns/C87_logging for all setups. REFUTED for logging calls: horizon already reached at the start raises NameError, observed commodity without inflow raises ZeroDivisionError (C87_refuted)."
  },
  {
   "property": "C88",
   "status": "proved",
   "theorems": [
    "C88_split",
    "C88_added",
    "C88_single_source"
   ],
   "note": "All networks with separated source breakpoints (C50), any number of predictors, any set iteration order."
  },
  {
   "property": "C89",
   "status": "partial",
   "theorems": [
    "C89_csv",
    "C89_single_row_refuted",
    "C89_positive",
    "C89_tntp",
    "C89_demands_refuted",
    "C89_demands_errors"
   ],
   "note": "Networks: full (C89_csv, C89_positive, C89_tntp). REFUTED: csv files with a single data row raise IndexError (C89_single_row_refuted); add_demands_to_network never adds a commodity and raises TypeError at the first usable row (C89_demands_refuted). Files are given as parsed rows."
  },
  {
   "property": "C90",
   "status": "proved",
   "theorems": [
    "C90_parse",
    "C90_commodities",
    "C90_od_pairs",
    "C90_malformed",
    "C90_bad_origin"
   ],
   "note": "Text level: all files of the format (C90_parse, C90_commodities), malformed entries (C90_malformed), the Sioux Falls sheet as rows (C90_od_pairs). float() is an oracle; signs and underscores in int() are not modelled."
  },
  {
   "property": "C91",
   "status": "proved",
   "theorems": [
    "C91_window",
    "C91_demands",
    "C91_no_edges"
   ],
   "note": "All networks and draws; random.gauss is an oracle indexed by the number of the call; positive inflow horizon (also infinite)."
  },
  {
   "property": "C92",
   "status": "partial",
   "theorems": [
    "C92_names",
    "C92_value",
    "C92_resume",
    "C92_resume_refuted"
   ],
   "note": "C92_names, C92_value, C92_resume for equally many digits. REFUTED: the names change when the number of flows passes a power of ten, so nothing is found again (C92_resume_refuted). log10 is exact."
  },
  {
   "property": "C93",
   "status": "partial",
   "theorems": [
    "C93_numbers",
    "C93_separate",
    "C93_merged_refuted"
   ],
   "note": "Proved without split for networks in which no two commodities share predictor and sink (C93_separate); C93_numbers gives the numbers in general. REFUTED otherwise: the first evaluated commodity is merged into the background (C93_merged_refuted), always with split."
  },
  {
   "property": "C94",
   "status": "partial",
   "theorems": [
    "C94_slowdowns",
    "C94_average",
    "C94_nonneg",
    "C94_printed",
    "C94_printed_refuted",
    "C94_maes"
   ],
   "note": "C94_slowdowns, C94_average, C94_nonneg, C94_maes for all sets of result files. REFUTED: the printed mean divides the sum over the selected runs by the number of all runs (C94_printed gives what is printed, C94_printed_refuted that it is too small)."
  },
  {
   "property": "C95",
   "status": "partial",
   "theorems": [
    "C95_never_refuted",
    "C95_all_results",
    "C95_exclusive_partial",
    "C95_stale",
    "C95_exception_refuted",
    "C95_race_refuted",
    "C95_partial_result_refuted",
    "C95_sequential"
   ],
   "note": "C95_all_results for every interleaving, crash and exception; C95_exclusive_partial with atomic checks; C95_sequential. REFUTED: an exception leaves the lock behind, its commodity is never evaluated and no process ever finishes (C95_stale, C95_exception_refuted); races (C95_race_refuted, C95_partial_result_refuted). Moreover preparing a commodity's network always raises (C49), so no result is ever written (C95_never_refuted)."
  },
  {
   "property": "C96",
   "status": "partial",
   "theorems": [
    "C96_success",
    "C96_first",
    "C96_resume",
    "C96_resume_refuted",
    "C96_skip_refuted"
   ],
   "note": "C96_success, C96_first, C96_resume. REFUTED: a flow file that was cut short makes every later run fail (C96_resume_refuted); a visualisation cut short is never repeated (C96_skip_refuted). Files are Absent, Partial or Complete."
  },
  {
   "property": "C97",
   "status": "partial",
   "theorems": [
    "C97_masks",
    "C97_fitted",
    "C97_sk_retry",
    "C97_failed_tf_refuted",
    "C97_single_edge_refuted",
    "C97_stale_refuted"
   ],
   "note": "C97_masks, C97_fitted without added data, C97_sk_retry. Learning is opaque: a model is identified with its masks. REFUTED: a failed tensorflow training leaves the model directory and is never repeated (C97_failed_tf_refuted); networks with one edge cannot read their mask files (C97_single_edge_refuted); queue files added between trainings give a model masks of other data (C97_stale_refuted)."
  },
  {
   "property": "C98",
   "status": "partial",
   "theorems": [
    "C98_complete",
    "C98_stale_refuted",
    "C98_wait",
    "C98_wait_refuted",
    "C98_failure_refuted"
   ],
   "note": "C98_complete for one process, C98_wait for waiting in the directory of the locks and handlers that do not fail. REFUTED: masks on disk older than the data raise AssertionError (C98_stale_refuted); the code waits for locks in the wrong directory and returns before other processes have finished (C98_wait_refuted); a failing process leaves the others without a model (C98_failure_refuted)."
  },
  {
   "property": "C99",
   "status": "partial",
   "theorems": [
    "C99_first",
    "C99_history",
    "C99_flow_file",
    "C99_callback_refuted",
    "C99_drawing_refuted",
    "C99_dummy_refuted"
   ],
   "note": "C99_first, C99_history for every history of interrupted runs. REFUTED: a run interrupted between saving and the callback loses the callback for ever (C99_callback_refuted); a drawing cut short is never repeated (C99_drawing_refuted); dummy or cut flow files make all drawing runs raise (C99_dummy_refuted)."
  },
  {
   "property": "C100",
   "status": "proved",
   "theorems": [
    "C100_iteration",
    "C100_too_short"
   ],
   "note": "C100_iteration for all recorded flows, C100_too_short."
  },
  {
   "property": "C101",
   "status": "proved",
   "theorems": [
    "C101_points",
    "C101_more_errors"
   ],
   "note": "All sets of result files; tikz text is not modelled."
  },
  {
   "property": "C102",
   "status": "proved",
   "theorems": [
    "C102_table",
    "C102_curves",
    "C102_regrets"
   ],
   "note": "C102_table, C102_curves, C102_regrets; the evaluation is an oracle; tikz text and JSON round trip of floats are not modelled."
  },
  {
   "property": "C103",
   "status": "partial",
   "theorems": [
    "C103_total",
    "C103_network",
    "C103_flow",
    "C103_json",
    "C103_domains",
    "C103_positions_refuted",
    "C103_slides_refuted",
    "C103_merged"
   ],
   "note": "C103_total, C103_network, C103_flow, C103_json, C103_domains, C103_merged for all networks and flows, on JSON trees (text and gzip trusted). REFUTED: networks without node positions raise KeyError (C103_positions_refuted); the slide examples hand objects to the encoder that it cannot encode and raise TypeError (C103_slides_refuted)."
  },
  {
   "property": "C104",
   "status": "proved",
   "theorems": [
    "C104_amounts",
    "C104_totals",
    "C104_exists",
    "C104_on_edge",
    "C104_load_bounds"
   ],
   "note": "C104_amounts, C104_totals, C104_on_edge, C104_load_bounds for clean runs (see C32); C104_exists: the amounts exist."
  },
  {
   "property": "C105",
   "status": "proved",
   "theorems": [
    "C105_balance",
    "C105_exists",
    "C105_arrived"
   ],
   "note": "C105_balance, C105_arrived for clean runs; C105_exists: the amounts exist. The loss at nodes is the threshold of C38/C73."
  },
  {
   "property": "C106",
   "status": "partial",
   "theorems": [
    "C106_table",
    "C106_total",
    "C106_lost_refuted"
   ],
   "note": "REFUTED in part: only five incoming edges have columns (C106_lost_refuted: a kept row that is blank or zero); C106_table and C106_total are the rest of the claim. See C72 for the meaning of t."
  },
  {
   "property": "C107",
   "status": "partial",
   "theorems": [
    "C107_table",
    "C107_no_samples",
    "C107_average_refuted"
   ],
   "note": "REFUTED in part: with average=True the cell is the integral, i.e. the average times the step length (C107_average_refuted), and without samples it raises IndexError (C107_no_samples). C107_table is the rest of the claim."
  },
  {
   "property": "C108",
   "status": "proved",
   "theorems": [
    "C108_table",
    "C108_other_steps",
    "C108_total"
   ],
   "note": "C108_table, C108_total."
  },
  {
   "property": "C109",
   "status": "partial",
   "theorems": [
    "C109_generates",
    "C109_lock_refuted",
    "C109_stale_refuted"
   ],
   "note": "C109_generates for directories without locks. REFUTED: a lock file of build_flows in the directory of flows is read as a flow and the call raises (C109_lock_refuted; generate_queues filters such names, this function does not); a lock left by a kill makes every later call sleep for ever (C109_stale_refuted). Directories are lists of names and contents, one process."
  },
  {
   "property": "C110",
   "status": "partial",
   "theorems": [
    "C110_plain_open_refuted",
    "C110_expanded_refuted",
    "C110_per_edge_refuted",
    "C110_plain_pickles_partial",
    "C110_edge_names",
    "C110_plain_tables_partial"
   ],
   "note": "REFUTED for every directory of built flows: build_flows writes gzip, these functions open plainly (C110_plain_open_refuted: nothing is written, UnpicklingError); the two table writers moreover leave their lock, after which later calls return silently without a table (C110_expanded_refuted, C110_per_edge_refuted). Proved for plain pickles: C110_plain_pickles_partial, C110_plain_tables_partial; the tables of different edges have different names (C110_edge_names)."
  },
  {
   "property": "C111",
   "status": "partial",
   "theorems": [
    "C111_order",
    "C111_stray_refuted"
   ],
   "note": "C111_order for any number of flows and any other files beside the flows. REFUTED for other files in the queue folder: every file is read as an array (C111_stray_refuted)."
  },
  {
   "property": "C112",
   "status": "proved",
   "theorems": [
    "C112_training",
    "C112_nguyen_network",
    "C112_nguyen",
    "C112_sample"
   ],
   "note": "C112_training for every well posed scenario; C112_nguyen and C112_sample instantiate it with the shipped maps and parameters. That the run returns assumes clean_build (no two event times of the computation closer than 1e-9 without being equal), as in C78/C87; the stages before need no such assumption."
  },
  {
   "property": "C113",
   "status": "partial",
   "theorems": [
    "C113_evaluation",
    "C113_returns",
    "C113_travel_times",
    "C113_zero_refuted"
   ],
   "note": "C113_evaluation (the setup, any predictors), C113_returns (constant and zero predictors; others through the hypothesis answers of C78), C113_travel_times (eps-separated outflow breakpoints, as C60). REFUTED when splitting: if no demand is drawn for the focused commodity the evaluation always raises (C113_zero_refuted: division by the zero inflow), after the flow was computed. Finite inflow horizon."
  },
  {
   "property": "C114",
   "status": "partial",
   "theorems": [
    "C114_guard",
    "C114_flow",
    "C114_predictors",
    "C114_build",
    "C114_measure",
    "C114_travel_time",
    "C114_clean",
    "C114_clean_build",
    "C114_refuted"
   ],
   "note": "C114_flow, C114_build (predictors arbitrary: whatever the checked predictor returns the unchecked one returns), C114_measure, C114_travel_time, C114_predictors, C114_guard; C114_clean and C114_clean_build: equality where the checked code does not raise. REFUTED as an equivalence: C114_refuted, a valid history where the checked code raises and the unchecked code returns a flow that lost more than 1000 eps. The PriorityQueue's own assertions are kept (specification queue)."
  },
  {
   "property": "C115",
   "status": "proved",
   "theorems": [
    "C115_off",
    "C115_on",
    "C115_ordered",
    "C115_predictors"
   ],
   "note": "C115_off (assertions off: total), C115_on (assertions on: the same flow or AssertionError), C115_ordered (a condition on the arguments alone that implies the hypothesis), C115_predictors; C32_only_assertions is the version for valid histories. No cleanliness."
  },
  {
   "property": "C116",
   "status": "partial",
   "theorems": [
    "C116_clean",
    "C116_negative_refuted",
    "C116_leak_refuted",
    "C116_discarded",
    "C116_rejects"
   ],
   "note": "C116_clean; C116_discarded and C116_rejects without cleanliness. REFUTED in general, with assertions on: C116_negative_refuted (a burst within eps/2 leaves a queue of -25.5 for ever), C116_leak_refuted (inflow eps/2 above capacity: 50 units lost after 10^12)."
  },
  {
   "property": "C117",
   "status": "proved",
   "theorems": [
    "C117_ieee",
    "C117_ieee_format",
    "C117_exact_instance",
    "C117_binary64",
    "C117_constant",
    "C117_labels",
    "C117_dynamic",
    "C117_earliest",
    "C117_tolerance",
    "C117_tolerance_sharp",
    "C117_tolerance_lost"
   ],
   "note": "For every monotone idempotent rounding; C117_binary64 shows that binary64 (without overflow) is one, C117_ieee that it is Flocq's (the only two theorems with axioms: those of the standard library's reals, and classic), C117_exact_instance that the exact model is the instance without rounding. C117_tolerance_lost: from 2^20 on the tolerance is gone. Overflow, NaN and the rounding inside cost functions are not modelled (costs are arbitrary functions)."
  },
  {
   "property": "C118",
   "status": "proved",
   "theorems": [
    "C118_exact_instance",
    "C118_binary64",
    "C118_off",
    "C118_on",
    "C118_ordered",
    "C118_time",
    "C118_capacity",
    "C118_assertion_example"
   ],
   "note": "C115 with every arithmetic operation rounded. C118_exact_instance: without rounding this is the model of the other theorems; C118_binary64: binary64 (no overflow) satisfies the hypotheses. Capacities and max_extension_time must be floats; travel times and rates are arbitrary. C118_assertion_example: a history on which the exact flow raises nothing, but binary64 fails the assertion on the depleted queue."
  },
  {
   "property": "C119",
   "status": "proved",
   "theorems": [
    "C119_only_assertions",
    "C119_in_extend",
    "C119_zero",
    "C119_reaches",
    "C119_assertion_occurs"
   ],
   "note": "C78 without the hypothesis of clean queues. C119_in_extend locates the failure; C119_zero: zero predictors need no hypothesis; C119_assertion_occurs: a legal setup whose third round fails."
  },
  {
   "property": "C120",
   "status": "proved",
   "theorems": [
    "C120_edge_load",
    "C120_pl_constructor",
    "C120_no_common_domain",
    "C120_minimum_start",
    "C120_restrict",
    "C120_integrate",
    "C120_decreasing",
    "C120_level",
    "C120_compose_range",
    "C120_smaller_equals",
    "C120_extend_domain",
    "C120_segment",
    "C120_ensure_monotone",
    "C120_rc_constructor",
    "C120_rc_domains",
    "C120_rc_integral",
    "C120_queue_item",
    "C120_add_commodity"
   ],
   "note": "The complement of C06-C25: outside the hypotheses of those theorems the call is refused instead of returning a wrong value. C120_integrate and C120_rc_constructor, C120_add_commodity are equivalences."
  },
  {
   "property": "C121",
   "status": "proved",
   "theorems": [
    "C121_exact_instance",
    "C121_off",
    "C121_on",
    "C121_time",
    "C121_routes",
    "C121_zero",
    "C121_constant",
    "C121_horizon",
    "C121_horizon64"
   ],
   "note": "The floating-point counterpart of C119. C121_exact_instance: without rounding the model is the builder of C39-C119."
  },
  {
   "property": "C122",
   "status": "partial",
   "theorems": [
    "C122_total",
    "C122_exact_instance",
    "C122_piece",
    "C122_ends",
    "C122_error",
    "C122_bounded",
    "C122_sign_refuted",
    "C122_breakpoint_refuted",
    "C122_monotone_refuted"
   ],
   "note": "REFUTED for breakpoints, sign and monotonicity across breakpoints (C122_breakpoint_refuted, C122_sign_refuted, C122_monotone_refuted: times 0, 7 and values 29, 0 evaluate at 7 to -3.55e-15). Proved: totality, order inside a piece, exact ends, error bound. Overflow is not modelled."
  },
  {
   "property": "C123",
   "status": "partial",
   "theorems": [
    "C123_capacity",
    "C123_share",
    "C123_sum",
    "C123_exact_refuted"
   ],
   "note": "REFUTED as an exact statement (C123_exact_refuted: rates 1 and 4 into capacity 1 leave with sum 1 + 5.6e-17). Proved: the bound with relative error. The floating-point counterpart of C34."
  },
  {
   "property": "C124",
   "status": "partial",
   "theorems": [
    "C124_split",
    "C124_rates",
    "C124_balance64",
    "C124_exact_refuted"
   ],
   "note": "REFUTED as an exact statement (C124_exact_refuted: rate 1 split between three edges). Proved: the split for any rounding and the balance with relative error. The floating-point counterpart of C37."
  },
  {
   "property": "C125",
   "status": "partial",
   "theorems": [
    "C125_average",
    "C125_again",
    "C125_no_runs",
    "C125_tokyo_refuted"
   ],
   "note": "REFUTED for the Tokyo script (C125_tokyo_refuted: it always ends with KeyError or ZeroDivisionError). Proved for the other scenarios (C125_average), repetition (C125_again), zero runs raise (C125_no_runs)."
  },
  {
   "property": "C126",
   "status": "partial",
   "theorems": [
    "C126_eval",
    "C126_plus",
    "C126_sub",
    "C126_sum",
    "C126_sum64",
    "C126_integral",
    "C126_integral64",
    "C126_exact_refuted"
   ],
   "note": "REFUTED as an exact statement (C126_exact_refuted: 0.1 + 0.2). Proved: evaluation, addition, subtraction, sum and integral for any rounding; binary64 error bounds. The floating-point counterpart of C18, C20, C21. Python's sum is plain left-to-right addition up to the pinned Python 3.11 (3.12 compensates)."
  },
  {
   "property": "C127",
   "status": "proved",
   "theorems": [
    "C127_batch",
    "C127_run",
    "C127_admissible"
   ],
   "note": "Equality of the two batch predictions, and C53's guarantees carried over. The neural network is an arbitrary function of its input row (one row in, one row out); tensorflow's float32 arithmetic is not modelled."
  },
  {
   "property": "C128",
   "status": "partial",
   "theorems": [
    "C128_plus",
    "C128_disjoint",
    "C128_sub",
    "C128_binary64",
    "C128_edge_load",
    "C128_total_refuted",
    "C128_everywhere_refuted",
    "C128_extended_refuted",
    "C128_exact_instance"
   ],
   "note": "Proved with rounded operations. Two stronger readings are refuted with binary64: a domain end closer than eps to a breakpoint makes an addition of valid functions fail its assertion (C128_total_refuted), and between breakpoints the sum need not be the rounded sum of the values (C128_everywhere_refuted). extend_with_slope and the constructor compare with eps differently, so an extended function may be rejected when its sign is changed (C128_extended_refuted); C128_edge_load therefore assumes accepted breakpoints, it is not tied to the runs of C118."
  }
 ]
}