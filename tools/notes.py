NOTES = {
 "C05": "REFUTED for the code: replacement of the last merged point chains, so an input point can be lost by more than eps (C05_refuted, 4-point witness). Proved instead: drift is one-sided and at most (number of inputs)*eps.",
 "C09": "Exact preservation proved when slope changes are 0 or >= 1000 eps. The unconditional claim is REFUTED for every tolerance (C09_refuted): a slope change below 1000 eps is dropped and the error grows with time.",
 "C12": "max_t_below proved in full; min_t_above and inverse proved under the stated side conditions. REFUTED in general: min_t_above raises when the function starts flat at or above the bound although the minimum exists; inverse on the last segment accepts values below the segment (its assertion tests values[0]) and returns a time where f differs.",
 "C13": "Proved for monotone f, image inside g's domain, kinks more than eps apart, and start_ok. REFUTED without start_ok: the code's start assertion compares a time of f with a breakpoint of g and can raise.",
 "C14": "REFUTED as stated: after its loop minimum intersects the last pieces from the last pushed time (C14_refuted), and where the functions agree at the last breakpoint it may keep the steeper one, even for single-breakpoint functions (C14_tie_refuted). Proved (C14_minimum_partial, C14_outer_minimum_partial): for functions on the same domain, with values/slopes/kinks equal or eps-separated and a benign end (min_end), the result exists, is valid and is the pointwise minimum everywhere.",
 "C19": "Exact version under eps-separation of the new time/value, tolerance version without; C19_only_breakpoint exhibits the exception (a single breakpoint later than the domain start).",
 "C22": "Both halves of the statement: exact preservation when steps are 0 or >= 1000 eps, and unbounded drift otherwise (C22_unbounded_drift).",
 "C23": "Trace refinement: for every initial list without duplicate items and every legal history (decrease_key never raises a key; increase_key excluded, see C25) all answers and exceptions equal those of the specification.",
 "C25": "REFUTED (C25_refuted): increase_key never stores the new entry. Proved: it does not raise and keeps the number of entries; on leaves it has no effect; it rejects missing items and smaller keys (C25_rejects).",
 "C26": "All histories of extensions (non-decreasing times, positive rates) and queries in any order, as a trace refinement; also for collections built from given rate functions (eps-separated breakpoints).",
 "C27": "Tolerance version without any separation hypothesis; exact version when times/rates are equal or more than eps apart.",
 "C28": "Under eps-separation of times and totals; also for the constructor with given functions.",
 "C30": "Trace refinement: every history of set/remove/pop on the coupled pair of queues answers like one partial map from edges to plans.",
 "C31": "Any validly fed run (any order of extend / outflow queries).",
 "C34": "Any validly fed run.",
 "C32": "Proved for every clean run (instrumented replay raises no Unclean, i.e. no eps-comparison identifies distinct numbers). REFUTED without cleanliness (C32_refuted): two inflow changes half an eps apart on a high-capacity edge make the depletion assertion fail. C32_only_assertions: without cleanliness an AssertionError is the only possible exception (see C115).",
 "C33": "For clean runs (see C32).",
 "C35": "For clean runs (see C32); C35_cumulative relates the cumulative functions to the rate functions.",
 "C36": "For clean runs (see C32); cleanliness excludes the band [capacity - eps, capacity) with a positive queue.",
 "C62": "For clean runs (see C32).",
 "C63": "For clean runs (see C32).",

 "C45": "All consistent graphs, reversed or not; C46 shows every graph built while unreversed is consistent.",
 "C46": "Proved for all histories of add_edge/reverse that add edges while unreversed. REFUTED on reversed graphs (C46_reversed_refuted): every non-loop edge added there is filed under the wrong nodes.",
 "C47": "Proved for unreversed graphs and networks (nodes without edges are lost). REFUTED for every reversed graph (all edges flip) and for commodities sinking at an isolated node (loading raises AssertionError).",
 "C48": "All histories; identity-level: every edge object keeps the capacity and travel time it was created with. C48_remove_node(s): removing nodes removes exactly the incident edges with their data, in any order.",
 "C49": "REFUTED for every network with a commodity: Commodity has no attribute source, so all three functions raise AttributeError (compress_lonely_nodes exactly when a node with in- and out-degree 1 exists). Without commodities: remove_unnecessary_nodes empties the network (C49_no_commodities), compress_lonely_nodes preserves walks, travel times and bottleneck capacities between kept nodes (C49_compress_free), and raises ValueError at a node whose only edge is a self-loop (C49_self_loop_refuted).",
 "C40": "Every label is the cost of a walk and exceeds the cost of no walk with k edges by more than k*eps (the relaxation tolerance accumulates along walks).",
 "C41": "All graphs, all total non-negative FIFO cost callables, any relevant node set, any source/sink.",
 "C42": "Exact characterisation of the returned set. C42_source_is_sink: the excluded case raises AssertionError.",
 "C37": "Every round of every run, any predictors (as oracles), any set iteration order; the active edges are any non-empty duplicate-free set of outgoing edges the routing returns.",
 "C39": "Every run with a finite positive interval: C39_round and C39_handled describe one round, C39_reroutes and C39_changes say that no reroute time and no network inflow change is ever skipped.",
 "C64": "REFUTED: with reroute_interval=None the first round always raises TypeError (None is added to the next reroute time).",
 "C38": "All runs that are clean (replaying the run with the instrumented flow raises no Unclean) with source functions on [0,inf) whose breakpoints at one node are more than eps apart; any predictors. C38_threshold_needed: a source of rate eps/2 is never served.",
 "C51": "All states whose queues are functions on the whole line (run_lines: every clean run); any prediction time.",
 "C52": "REFUTED: C52_negative_refuted (a queue at most eps with a negative left slope, e.g. one that has just run empty, is extrapolated to negative values, reachable) and C52_exception_refuted (a queue about to deplete within eps makes the predictor raise AssertionError, reachable). Proved: the exact extrapolation, non-negativity and absence of exceptions in all other cases.",
 "C53": "Full-net predictors (SK and TF): for every model, mask and flow; besides admissibility the values at the sampling points are characterised exactly, and the model input. Neighbourhood predictors: batch_predict right, predict only bounded by interval*capacity per unit (REFUTED, C53_refuted: it spaces values by 1 instead of the prediction interval).",
 "C54": "Full-net predictors: results and exceptions agree for all models, masks with output within input, and lists of prediction times. Neighbourhood predictors: agree iff the interval is 1 (proved for interval 1, REFUTED otherwise by C54_refuted).",
 "C55": "Forward proved for all graphs and distances. REFUTED for backward, undirected and directed beyond distance 1 (C55_refuted): proved partial versions give the exact set returned (min(d,1) steps).",
 "C65": "REFUTED for every batch prediction with a masked-out edge and a positive prediction time: the shared zero function has its breakpoint at 0, outside the cost domain.",
 "C66": "For clean runs whose cumulative curves have eps-separated breakpoints per edge.",
 "C67": "Good predictions (C67_constant, C67_zero, C67_full_net unconditionally; linear and regularised-linear where their queue does not go negative) give total FIFO costs of at least the travel time and searches that succeed. REFUTED for negative extrapolations (C67_negative_refuted: linear and regularised-linear on a clean run give a negative cost and the search misses the earliest arrival) and for the batch zero function (C65).",
 "C50": "All networks whose source functions share a domain and whose breakpoints at one node are more than eps apart, distinct commodity objects, any set of exceptions, any set iteration order.",
 "C56": "All valid step functions and all intervals a < b inside the domain.",
 "C68": "All graphs and total non-negative FIFO costs. Up to the relaxation tolerance of the two searches (C40): exact when no two arrival times are nearly tied; a nearly shortest edge is reported as 0.",
 "C69": "All flows, predictions and grids; also for the state-threading cache of the previous interval's delays.",
 "C59": "All collections of non-negative rate functions on [0,inf) with eps-separated breakpoints and any set of commodities: exact when the total jumps by at least 1000 eps wherever it changes. REFUTED without that (C59_drift_refuted): the final simplify loses any amount.",
 "C60": "All outflow collections and source functions with non-negative rates on [0,inf) and eps-separated breakpoints; ZeroDivisionError exactly when nothing has entered by H. C60_spec_exists: the integrals in the statement always exist. C60_nonneg: for clean runs of the flow builder the result is not negative.",
 "C58": "Transition system with any number of processes, arbitrary interleavings of the single system calls, arbitrary handlers, crashes anywhere. REFUTED: mutual exclusion (C58_race_refuted: check-then-create race; C58_failed_open_refuted: a failing open removes somebody else's lock), a running handler can lose its lock (C58_unlocked_refuted), and a crash leaves a stale lock after which every call skips forever although the output is missing (C58_crash_refuted + C58_stale_lock). Proved: skipping has no effect, release on return and raise, mutual exclusion when nobody interleaves between check and creation and creation succeeds.",
 "C70": "All sequences of listings.",
 "C57": "All recorded flows whose queues and loads are functions on the whole line (run_recorded: every clean run with separated cumulative breakpoints), prediction interval an exact positive multiple of the reroute interval, past >= 1, optional additional masks: sample i is exactly the model input (is_input, shared with C53/C54) and target of one flow at one time, and every target time lies within the horizon. C57_masks: the masks. C57_round, C57_multiple: which interval pairs are accepted and the rounding (half to even).",
 "C71": "REFUTED for every flow: row is never incremented, so only row 0 is written, with the sample of the last prediction time.",
 "C72": "REFUTED for every flow: the column holds the queue at phi - t * step_length (past and future exchanged).",
 "C44": "Strong FIFO: for all consistent graphs and positive strictly FIFO costs the result is exactly the set of first edges of earliest-arrival walks (C44_strong_fifo), empty when the sink is unreachable; the shortcut is right when all edges lead to relevant nodes. REFUTED: the shortcut returns dead-end edges (C44_shortcut_refuted), zero costs lose edges (C44_zero_cost_refuted), and the weak FIFO branch raises for every input and can leave the graph reversed (C44_weak_fifo_refuted).",
 "C43": "Proved for every run whose data meet the separation conditions of C09, C13, C14 and C15 at the calls it makes (C43_partial; C43_exact_partial for any run whose calls are exact): labels are arrival times of walks and beat every walk up to 1000 eps * (1 + until - phi) per edge. Missing: runs outside these conditions, where it is REFUTED: C43_refuted (good costs, label more than one time unit below every walk because of minimum's end handling) and C43_horizon_refuted (finite horizon: AssertionError instead of skipping an edge). C43_fifo_repair: the FIFO repair of an edge's exit time is exact.",
 "C73": "Heap model with the three bounded LRU caches (PLCache.v), all histories including calls that raise, provided direct writes to values[-1] follow an extension that changes the slope (C73_cached_calls); C73_depletions: DynamicFlow keeps to this in every run when all capacities exceed eps. REFUTED otherwise: C73_write_refuted (a direct write leaves a stale evaluation), C73_small_capacity_refuted (capacity at most eps: the queue extension returns early before the write).",
 "C74": "REFUTED: C74_neg_refuted (-f shares the list of times with f; extending f leaves -f with more times than values) and C74_compose_refuted (repeated compose calls return one object). Proved: histories without negation, for different objects; every call except compose returns a new object.",
 "C75": "C75_round: every round, whatever eps does inside flow.extend; C75_recorded: the recorded inflow of every clean build. For every predictor whose answer is usable (one FIFO function per edge, C67) resp. whose first values are non-negative if flagged constant; optimality is over all walks of the whole graph. Predictions are made lazily: the flow handed to the predictor is that of some round of the period.",
 "C76": "All valid clean runs and all continuations.",
 "C77": "Clean builds; the error is (number of edges + 1) * eps against any competing walk (tolerances of reverse_dijkstra and of the active-edge test).",
 "C78": "C78_constructor is an equivalence. C78_no_exception assumes usable predictions (C67) and clean queues; C78_constant_zero discharges the former. Without cleanliness C32_refuted applies.",
 "C79": "C79_progress needs positive travel times but no cleanliness and no assumption on predictors. Zero travel times are excluded: a cycle of such edges can feed itself at one instant.",
 "C80": "Everything but FIFO proved for all flows; C80_admissible_partial: a good prediction when the last samples change slowly enough; REFUTED in general: C80_fifo_refuted (predicted exit times decrease by more than 70 within one time unit, on a reachable flow).",
 "C81": "Admissible for all models and flows (C81_per_edge), no exception (C81_no_exception). C81_values_partial: exact values up to the final simplify. REFUTED: C81_ignores_history / C81_history_refuted: the samples are taken at pt, pt+1, ... instead of pt, pt-1, ..., so the past is never read.",
 "C82": "REFUTED: every prediction time other than flow.phi raises ValueError (C82_time), which aborts builds on lazily asked predictions (C82_builder_refuted); the reshaped input mixes queues and loads of different edges (C82_mask_refuted: a masked-out edge decides the prediction). Proved (partial): exact inputs, zero outside the mask, admissible with step_length*capacity per time unit.",
 "C83": "REFUTED for every flow: weka: 10 times but 11 values (AssertionError); scikit: swapped arguments (TypeError).  closure_spec: what the scikit closure would return if called with the queues and the time.",
 "C84": "Full.",
 "C85": "Proved when the prediction interval is a positive integer multiple of the reroute interval and the queues are functions on the whole line (C85_mae). REFUTED otherwise (C85_refuted): the stride rounds, so predictions are compared with queues at other times.",
 "C86": "C86_average: the returned number is the average of min(label, horizon) - t for every valid label; C86_optimal_partial: the label is the earliest-arrival label up to the tolerance of C43, under the conditions of C43. REFUTED: queue breakpoints behind the horizon or a sink out of reach before the horizon raise AssertionError (C86_breakpoint, C86_refuted), an unreachable sink returns the total instead of the average (C86_refuted).",
 "C87": "C87_first/C87_stops/C87_returns/C87_logging for all setups. REFUTED for logging calls: horizon already reached at the start raises NameError, observed commodity without inflow raises ZeroDivisionError (C87_refuted).",
 "C88": "All networks with separated source breakpoints (C50), any number of predictors, any set iteration order.",
 "C89": "Networks: full (C89_csv, C89_positive, C89_tntp). REFUTED: csv files with a single data row raise IndexError (C89_single_row_refuted); add_demands_to_network never adds a commodity and raises TypeError at the first usable row (C89_demands_refuted). Files are given as parsed rows.",
 "C90": "Text level: all files of the format (C90_parse, C90_commodities), malformed entries (C90_malformed), the Sioux Falls sheet as rows (C90_od_pairs). float() is an oracle; signs and underscores in int() are not modelled.",
 "C91": "All networks and draws; random.gauss is an oracle indexed by the number of the call; positive inflow horizon (also infinite).",
 "C92": "C92_names, C92_value, C92_resume for equally many digits. REFUTED: the names change when the number of flows passes a power of ten, so nothing is found again (C92_resume_refuted). log10 is exact.",
 "C93": "Proved without split for networks in which no two commodities share predictor and sink (C93_separate); C93_numbers gives the numbers in general. REFUTED otherwise: the first evaluated commodity is merged into the background (C93_merged_refuted), always with split.",
 "C94": "C94_slowdowns, C94_average, C94_nonneg, C94_maes for all sets of result files. REFUTED: the printed mean divides the sum over the selected runs by the number of all runs (C94_printed gives what is printed, C94_printed_refuted that it is too small).",
 "C95": "C95_all_results for every interleaving, crash and exception; C95_exclusive_partial with atomic checks; C95_sequential. REFUTED: an exception leaves the lock behind, its commodity is never evaluated and no process ever finishes (C95_stale, C95_exception_refuted); races (C95_race_refuted, C95_partial_result_refuted). Moreover preparing a commodity's network always raises (C49), so no result is ever written (C95_never_refuted).",
 "C96": "C96_success, C96_first, C96_resume. REFUTED: a flow file that was cut short makes every later run fail (C96_resume_refuted); a visualisation cut short is never repeated (C96_skip_refuted). Files are Absent, Partial or Complete.",
 "C97": "C97_masks, C97_fitted without added data, C97_sk_retry. Learning is opaque: a model is identified with its masks. REFUTED: a failed tensorflow training leaves the model directory and is never repeated (C97_failed_tf_refuted); networks with one edge cannot read their mask files (C97_single_edge_refuted); queue files added between trainings give a model masks of other data (C97_stale_refuted).",
 "C98": "C98_complete for one process, C98_wait for waiting in the directory of the locks and handlers that do not fail. REFUTED: masks on disk older than the data raise AssertionError (C98_stale_refuted); the code waits for locks in the wrong directory and returns before other processes have finished (C98_wait_refuted); a failing process leaves the others without a model (C98_failure_refuted).",
 "C99": "C99_first, C99_history for every history of interrupted runs. REFUTED: a run interrupted between saving and the callback loses the callback for ever (C99_callback_refuted); a drawing cut short is never repeated (C99_drawing_refuted); dummy or cut flow files make all drawing runs raise (C99_dummy_refuted).",
 "C100": "C100_iteration for all recorded flows, C100_too_short.",
 "C101": "All sets of result files; tikz text is not modelled.",
 "C102": "C102_table, C102_curves, C102_regrets; the evaluation is an oracle; tikz text and JSON round trip of floats are not modelled.",
 "C103": "C103_total, C103_network, C103_flow, C103_json, C103_domains, C103_merged for all networks and flows, on JSON trees (text and gzip trusted). REFUTED: networks without node positions raise KeyError (C103_positions_refuted); the slide examples hand objects to the encoder that it cannot encode and raise TypeError (C103_slides_refuted).",
 "C104": "C104_amounts, C104_totals, C104_on_edge, C104_load_bounds for clean runs (see C32); C104_exists: the amounts exist.",
 "C105": "C105_balance, C105_arrived for clean runs; C105_exists: the amounts exist. The loss at nodes is the threshold of C38/C73.",
 "C106": "REFUTED in part: only five incoming edges have columns (C106_lost_refuted: a kept row that is blank or zero); C106_table and C106_total are the rest of the claim. See C72 for the meaning of t.",
 "C107": "REFUTED in part: with average=True the cell is the integral, i.e. the average times the step length (C107_average_refuted), and without samples it raises IndexError (C107_no_samples). C107_table is the rest of the claim.",
 "C108": "C108_table, C108_total.",
 "C109": "C109_generates for directories without locks. REFUTED: a lock file of build_flows in the directory of flows is read as a flow and the call raises (C109_lock_refuted; generate_queues filters such names, this function does not); a lock left by a kill makes every later call sleep for ever (C109_stale_refuted). Directories are lists of names and contents, one process.",
 "C110": "REFUTED for every directory of built flows: build_flows writes gzip, these functions open plainly (C110_plain_open_refuted: nothing is written, UnpicklingError); the two table writers moreover leave their lock, after which later calls return silently without a table (C110_expanded_refuted, C110_per_edge_refuted). Proved for plain pickles: C110_plain_pickles_partial, C110_plain_tables_partial; the tables of different edges have different names (C110_edge_names).",
 "C111": "C111_order for any number of flows and any other files beside the flows. REFUTED for other files in the queue folder: every file is read as an array (C111_stray_refuted).",
 "C112": "C112_training for every well posed scenario; C112_nguyen and C112_sample instantiate it with the shipped maps and parameters. That the run returns assumes clean_build (no two event times of the computation closer than 1e-9 without being equal), as in C78/C87; the stages before need no such assumption.",
 "C113": "C113_evaluation (the setup, any predictors), C113_returns (constant and zero predictors; others through the hypothesis answers of C78), C113_travel_times (eps-separated outflow breakpoints, as C60). REFUTED when splitting: if no demand is drawn for the focused commodity the evaluation always raises (C113_zero_refuted: division by the zero inflow), after the flow was computed. Finite inflow horizon.",
 "C114": "C114_flow, C114_build (predictors arbitrary: whatever the checked predictor returns the unchecked one returns), C114_measure, C114_travel_time, C114_predictors, C114_guard; C114_clean and C114_clean_build: equality where the checked code does not raise. REFUTED as an equivalence: C114_refuted, a valid history where the checked code raises and the unchecked code returns a flow that lost more than 1000 eps. The PriorityQueue's own assertions are kept (specification queue).",
 "C115": "C115_off (assertions off: total), C115_on (assertions on: the same flow or AssertionError), C115_ordered (a condition on the arguments alone that implies the hypothesis), C115_predictors; C32_only_assertions is the version for valid histories. No cleanliness.",
 "C116": "C116_clean; C116_discarded and C116_rejects without cleanliness. REFUTED in general, with assertions on: C116_negative_refuted (a burst within eps/2 leaves a queue of -25.5 for ever), C116_leak_refuted (inflow eps/2 above capacity: 50 units lost after 10^12).",
 "C117": "For every monotone idempotent rounding; C117_binary64 shows that binary64 (without overflow) is one, C117_ieee that it is Flocq's (the only two theorems with axioms: those of the standard library's reals, and classic), C117_exact_instance that the exact model is the instance without rounding. C117_tolerance_lost: from 2^20 on the tolerance is gone. Overflow, NaN and the rounding inside cost functions are not modelled (costs are arbitrary functions).",
 "C118": "C115 with every arithmetic operation rounded. C118_exact_instance: without rounding this is the model of the other theorems; C118_binary64: binary64 (no overflow) satisfies the hypotheses. Capacities and max_extension_time must be floats; travel times and rates are arbitrary. C118_assertion_example: a history on which the exact flow raises nothing, but binary64 fails the assertion on the depleted queue.",
 "C119": "C78 without the hypothesis of clean queues. C119_in_extend locates the failure; C119_zero: zero predictors need no hypothesis; C119_assertion_occurs: a legal setup whose third round fails.",
 "C120": "The complement of C06-C25: outside the hypotheses of those theorems the call is refused instead of returning a wrong value. C120_integrate and C120_rc_constructor, C120_add_commodity are equivalences.",
 "C121": "The floating-point counterpart of C119. C121_exact_instance: without rounding the model is the builder of C39-C119.",
 "C122": "REFUTED for breakpoints, sign and monotonicity across breakpoints (C122_breakpoint_refuted, C122_sign_refuted, C122_monotone_refuted: times 0, 7 and values 29, 0 evaluate at 7 to -3.55e-15). Proved: totality, order inside a piece, exact ends, error bound. Overflow is not modelled.",
 "C123": "REFUTED as an exact statement (C123_exact_refuted: rates 1 and 4 into capacity 1 leave with sum 1 + 5.6e-17). Proved: the bound with relative error. The floating-point counterpart of C34.",
 "C124": "REFUTED as an exact statement (C124_exact_refuted: rate 1 split between three edges). Proved: the split for any rounding and the balance with relative error. The floating-point counterpart of C37.",
 "C125": "REFUTED for the Tokyo script (C125_tokyo_refuted: it always ends with KeyError or ZeroDivisionError). Proved for the other scenarios (C125_average), repetition (C125_again), zero runs raise (C125_no_runs).",
 "C126": "REFUTED as an exact statement (C126_exact_refuted: 0.1 + 0.2). Proved: evaluation, addition, subtraction, sum and integral for any rounding; binary64 error bounds. The floating-point counterpart of C18, C20, C21. Python's sum is plain left-to-right addition up to the pinned Python 3.11 (3.12 compensates).",
 "C127": "Equality of the two batch predictions, and C53's guarantees carried over. The neural network is an arbitrary function of its input row (one row in, one row out); tensorflow's float32 arithmetic is not modelled.",
 "C128": "Proved with rounded operations. Two stronger readings are refuted with binary64: a domain end closer than eps to a breakpoint makes an addition of valid functions fail its assertion (C128_total_refuted), and between breakpoints the sum need not be the rounded sum of the values (C128_everywhere_refuted). extend_with_slope and the constructor compare with eps differently, so an extended function may be rejected when its sign is changed (C128_extended_refuted); C128_edge_load therefore assumes accepted breakpoints, it is not tied to the runs of C118.",
}
STATUS = {}
NA = {}
