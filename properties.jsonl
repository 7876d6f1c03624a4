{"id": "C01", "title": "elem_rank returns the rank", "statement": "For every non-empty non-decreasing list arr and every x, elem_rank(arr, x) terminates without exception and returns the unique i in -1..len(arr)-1 with arr[i] < x <= arr[i+1] (arr[-1] = -inf, arr[len] = +inf).", "quantifier": "all non-empty sorted lists of any length, all query points", "why_tests_cant": "binary search boundaries depend on length parity and ties; tests sample a handful of lists", "anchors": ["src/utilities/arrays.py:elem_rank"]}
{"id": "C02", "title": "elem_lrank returns the lower rank", "statement": "For every non-empty non-decreasing list arr and every x, elem_lrank(arr, x) terminates without exception and returns the unique i in -1..len(arr)-1 with arr[i] <= x < arr[i+1].", "quantifier": "all non-empty sorted lists, all query points", "why_tests_cant": "as C01", "anchors": ["src/utilities/arrays.py:elem_lrank"]}
{"id": "C03", "title": "merge_sorted merges without near-duplicates", "statement": "For all non-decreasing inputs, merge_sorted returns a list in which every entry is an input entry, consecutive entries are more than eps apart, every input entry is <= the last output entry; and if distinct input entries are more than eps apart the output contains exactly the union of the inputs.", "quantifier": "all pairs of sorted lists", "why_tests_cant": "interaction of ties, eps-close values and exhaustion order cannot be enumerated", "anchors": ["src/utilities/arrays.py:merge_sorted"]}
{"id": "C04", "title": "merge_sorted_many merges without near-duplicates", "statement": "Same as C03 for any number of sorted lists; the result is independent of how entries are distributed when distinct entries are more than eps apart.", "quantifier": "all finite families of sorted lists", "why_tests_cant": "as C03, for any number of arrays", "anchors": ["src/utilities/arrays.py:merge_sorted_many"]}
{"id": "C05", "title": "merging moves no breakpoint by more than eps", "statement": "Every input entry of merge_sorted has an output entry within eps of it.", "quantifier": "all pairs of sorted lists whose own entries are more than eps apart", "why_tests_cant": "the replacement rule merged[-1] = v can chain; a chain of n points needs a constructed input", "anchors": ["src/utilities/arrays.py:merge_sorted", "src/utilities/arrays.py:merge_sorted_many"]}
{"id": "C06", "title": "PiecewiseLinear evaluation is linear interpolation", "statement": "For every constructed function f and every time t in its domain, f(t) raises nothing, equals values[0]+(t-times[0])*first_slope left of the first breakpoint, the affine interpolation between neighbouring breakpoints, and values[-1]+(t-times[-1])*last_slope right of the last; outside the domain it raises. At +-inf the result is the limit (values[...] for slope 0).", "quantifier": "all valid breakpoint lists, slopes, domains and times", "why_tests_cant": "universally quantified over functions and points", "anchors": ["src/utilities/piecewise_linear.py:PiecewiseLinear.eval", "src/utilities/piecewise_linear.py:PiecewiseLinear._eval_with_rank", "src/utilities/piecewise_linear.py:PiecewiseLinear.gradient"]}
{"id": "C07", "title": "all evaluation routes agree", "statement": "eval_from_end(t) == eval(t) for every t; eval_sorted_array(ts) == [eval(t) for t in ts] for every non-decreasing list ts inside the domain, of any length, with repeated entries.", "quantifier": "all functions and all sorted query arrays", "why_tests_cant": "divide-and-conquer index arithmetic depends on array length and the location of the queries", "anchors": ["src/utilities/piecewise_linear.py:PiecewiseLinear.eval_sorted_array", "src/utilities/piecewise_linear.py:PiecewiseLinear._recursive_eval_sorted_array", "src/utilities/piecewise_linear.py:PiecewiseLinear._find_rnk_between", "src/utilities/piecewise_linear.py:PiecewiseLinear.eval_from_end"]}
{"id": "C08", "title": "sum, negation and difference are pointwise", "statement": "f+g, -f and f-g are defined exactly on the intersection of the domains and (f+g)(t)=f(t)+g(t), (-f)(t)=-f(t), (f-g)(t)=f(t)-g(t) for every t there, whenever distinct breakpoints and domain ends of f and g are more than eps apart; construction then raises nothing.", "quantifier": "all pairs of functions with separated breakpoints, all times", "why_tests_cant": "needs every relative position of breakpoints and domain ends", "anchors": ["src/utilities/piecewise_linear.py:PiecewiseLinear.plus", "src/utilities/piecewise_linear.py:PiecewiseLinear.__neg__", "src/utilities/piecewise_linear.py:PiecewiseLinear.__sub__"]}
{"id": "C09", "title": "simplify preserves the function", "statement": "simplify() returns a function equal to the original at every time when every slope change is either zero or at least 1000*eps; in general it does not (slow drift is dropped).", "quantifier": "all functions, all times", "why_tests_cant": "accumulated dropped breakpoints need long inputs", "anchors": ["src/utilities/piecewise_linear.py:PiecewiseLinear.simplify"]}
{"id": "C10", "title": "restrict preserves values", "statement": "f.restrict(d) is defined exactly on d and agrees with f at every time of d, for every sub-interval d with a finite left end or a breakpoint inside.", "quantifier": "all functions, all sub-domains, all times", "why_tests_cant": "index arithmetic at the cut ends", "anchors": ["src/utilities/piecewise_linear.py:PiecewiseLinear.restrict"]}
{"id": "C11", "title": "extend_with_slope only changes the future", "statement": "After f.extend_with_slope(t, s) every value at times <= t is unchanged and f continues from f(t) with slope s (exactly, when t is the last breakpoint or more than eps after it and s is the old slope or differs by more than eps); breakpoints stay valid; cached values are never stale.", "quantifier": "all functions and all sequences of extensions and evaluations", "why_tests_cant": "histories of extensions interleaved with cached evaluations", "anchors": ["src/utilities/piecewise_linear.py:PiecewiseLinear.extend_with_slope"]}
{"id": "C12", "title": "inverse, min_t_above and max_t_below", "statement": "On a monotone function with non-negative outer slopes: min_t_above(b) is the least domain time with f(t) >= b, max_t_below(b) the greatest domain time with f(t) <= b, and inverse(x, i) returns t in segment i with f(t) = x.", "quantifier": "all monotone functions, all bounds", "why_tests_cant": "plateaus, ties and unbounded ends", "anchors": ["src/utilities/piecewise_linear.py:PiecewiseLinear.inverse", "src/utilities/piecewise_linear.py:PiecewiseLinear.min_t_above", "src/utilities/piecewise_linear.py:PiecewiseLinear.max_t_below"]}
{"id": "C13", "title": "compose is function composition", "statement": "g.compose(f)(t) == g(f(t)) for every t in f's domain, for monotone f with image inside g's domain, when the generated breakpoints are more than eps apart.", "quantifier": "all pairs of functions, all times", "why_tests_cant": "breakpoint interleavings, plateaus of f, domain ends", "anchors": ["src/utilities/piecewise_linear.py:PiecewiseLinear.compose"]}
{"id": "C14", "title": "minimum is the pointwise minimum", "statement": "f.minimum(g)(t) == min(f(t), g(t)) for every t in the common domain.", "quantifier": "all pairs of functions with a breakpoint at the common domain start", "why_tests_cant": "needs adversarial crossing positions after the last breakpoint", "anchors": ["src/utilities/piecewise_linear.py:PiecewiseLinear.minimum", "src/utilities/piecewise_linear.py:PiecewiseLinear.outer_minimum"]}
{"id": "C15", "title": "smaller_equals decides pointwise order up to tolerance", "statement": "If f <= g everywhere then f.smaller_equals(g) is True; if it returns True then f(t) <= g(t) + tolerance for every t up to the last breakpoint, with the excess growing at most at rate tolerance afterwards (tolerance = 1000*eps).", "quantifier": "all pairs of functions starting at the same domain start", "why_tests_cant": "two-pointer sweep over arbitrary breakpoint interleavings", "anchors": ["src/utilities/piecewise_linear.py:PiecewiseLinear.smaller_equals"]}
{"id": "C16", "title": "integrate is the exact integral", "statement": "For a non-negative-valued f and start < end in the domain, integrate(start, end) equals the exact integral of f, i.e. F(end)-F(start) for every F whose increment over any interval inside one linear piece is the trapezoid area; it is additive over adjacent intervals.", "quantifier": "all functions, all intervals", "why_tests_cant": "start/end relative to breakpoints", "anchors": ["src/utilities/piecewise_linear.py:PiecewiseLinear.integrate"]}
{"id": "C17", "title": "ensure_monotone gives the monotone envelope", "statement": "ensure_monotone(False) returns a function with non-decreasing values and non-negative outer slopes whose breakpoint values are the running maxima; an already monotone function is returned unchanged.", "quantifier": "all functions", "why_tests_cant": "running maximum over unbounded length", "anchors": ["src/utilities/piecewise_linear.py:PiecewiseLinear.ensure_monotone"]}
{"id": "C18", "title": "RightConstant evaluation", "statement": "For every right-constant function with strictly increasing times and every t in the domain, f(t) is the value of the last breakpoint at or before t (the first value before all breakpoints); eval and eval_from_end agree; outside the domain both raise.", "quantifier": "all step functions, all times", "why_tests_cant": "universally quantified", "anchors": ["src/utilities/right_constant.py:RightConstant.eval", "src/utilities/right_constant.py:RightConstant.eval_from_end", "src/utilities/right_constant.py:RightConstant._eval_with_lrank"]}
{"id": "C19", "title": "RightConstant.extend only changes the future", "statement": "extend(t, v) leaves f unchanged before t and makes f equal v from t on (when t is the last breakpoint or more than eps later and v is the last value or differs by more than eps); times stay strictly increasing.", "quantifier": "all step functions and all extension sequences", "why_tests_cant": "histories", "anchors": ["src/utilities/right_constant.py:RightConstant.extend"]}
{"id": "C20", "title": "RightConstant addition is pointwise", "statement": "f+g, sum([...]), -f, f-g evaluate pointwise to the sum/negation/difference at every time, when distinct breakpoints are more than eps apart.", "quantifier": "all (families of) step functions, all times", "why_tests_cant": "pointer sweeps over arbitrary interleavings", "anchors": ["src/utilities/right_constant.py:RightConstant.__radd__", "src/utilities/right_constant.py:RightConstant.sum", "src/utilities/right_constant.py:RightConstant.__sub__"]}
{"id": "C21", "title": "RightConstant.integral is the antiderivative", "statement": "integral() is 0 at the first breakpoint, its increment over every interval on which f is constant is value*length, and it never raises for eps-separated breakpoints starting at the domain start with one unit of slack at the end.", "quantifier": "all step functions, all intervals", "why_tests_cant": "universally quantified", "anchors": ["src/utilities/right_constant.py:RightConstant.integral"]}
{"id": "C22", "title": "RightConstant.simplify preserves the function", "statement": "simplify() preserves every value when consecutive values are equal or differ by at least 1000*eps; in general it may drift by an unbounded amount.", "quantifier": "all step functions", "why_tests_cant": "drift needs long inputs", "anchors": ["src/utilities/right_constant.py:RightConstant.simplify"]}
{"id": "C23", "title": "PriorityQueue behaves like an abstract keyed min-queue", "statement": "For every history of construction, push, pop, set, update, decrease_key, remove and queries, the queue behaves like a finite map item -> (key, insertion number): len, membership, key_of, min_key, next reflect the map; pop removes and returns the item with the least (key, insertion number).", "quantifier": "all operation histories", "why_tests_cant": "heap shape depends on the entire history", "anchors": ["src/utilities/queues.py:PriorityQueue"]}
{"id": "C24", "title": "draining a PriorityQueue yields sorted order, FIFO on ties", "statement": "Popping until empty returns each stored item exactly once in non-decreasing key order, equal keys in insertion order; sorted() returns the same order without changing the queue.", "quantifier": "all reachable queues", "why_tests_cant": "unbounded drains", "anchors": ["src/utilities/queues.py:PriorityQueue.pop", "src/utilities/queues.py:PriorityQueue.sorted"]}
{"id": "C25", "title": "increase_key raises the key", "statement": "After increase_key(item, k) with k >= old key, key_of(item) == k and the heap remains valid.", "quantifier": "all reachable queues", "why_tests_cant": "the branch structure never writes the new entry; unused in the simulator so no test reaches it", "anchors": ["src/utilities/queues.py:PriorityQueue.increase_key"]}
{"id": "C26", "title": "rate snapshots are served in time order", "statement": "For every history of extend calls and get_values_at_time queries with non-decreasing query times, get_values_at_time(t) returns the rates of the latest appended item whose time is <= t; querying a time before an already discarded item raises ValueError.", "quantifier": "all histories of extensions and queries", "why_tests_cant": "destructive linked-list head advance", "anchors": ["src/core/flow_rates_collection.py:FlowRatesCollection.get_values_at_time", "src/core/flow_rates_collection.py:FlowRatesCollection.extend"]}
{"id": "C27", "title": "per-commodity rate functions agree with snapshots", "statement": "For every history of extensions with eps-separated times and rates, the rate function of commodity i at time t equals the rate of i in the latest snapshot at or before t (0 if absent).", "quantifier": "all extension histories, all commodities, all times", "why_tests_cant": "two redundant representations updated incrementally", "anchors": ["src/core/flow_rates_collection.py:FlowRatesCollection.extend", "src/core/flow_rates_collection.py:FlowRatesCollection._new_flow_fn"]}
{"id": "C28", "title": "accumulative is the integral of the total rate", "statement": "The accumulative function of a collection built by extensions has, between consecutive extension times, the total rate as slope, and starts at 0.", "quantifier": "all extension histories", "why_tests_cant": "incremental extension of an antiderivative", "anchors": ["src/core/flow_rates_collection.py:FlowRatesCollection.extend", "src/core/flow_rates_collection.py:FlowRatesCollection.accumulative"]}
{"id": "C29", "title": "pickling a rate collection preserves behaviour", "statement": "Unpickling a pickled collection yields a collection with the same remaining snapshots, functions and accumulative, so all later queries and extensions behave identically.", "quantifier": "all reachable collections and all continuations", "why_tests_cant": "needs every reachable linked-list state", "anchors": ["src/core/flow_rates_collection.py:FlowRatesCollection.__getstate__", "src/core/flow_rates_collection.py:FlowRatesCollection.__setstate__"]}
{"id": "C30", "title": "queue-depletion bookkeeping stays coupled", "statement": "For every history of set/remove/pop, the scheduled depletions, change times and change values stay in step: an edge has a planned change iff its last set supplied one, and popping returns the earliest depletion with exactly that change.", "quantifier": "all operation histories", "why_tests_cant": "three containers updated in step", "anchors": ["src/core/dynamic_flow.py:DepletionQueue"]}
{"id": "C31", "title": "flow extension advances time to the next event and reports it", "statement": "Each extend call moves phi forward (never back), never beyond max_extension_time, never past a scheduled outflow change; the returned set is exactly the set of edges with an outflow change at the new phi.", "quantifier": "all networks, all sequences of extend calls", "why_tests_cant": "depends on the whole event history", "anchors": ["src/core/dynamic_flow.py:DynamicFlow.extend", "src/core/dynamic_flow.py:DynamicFlow._process_depletions"]}
{"id": "C32", "title": "flow extension never raises on valid input", "statement": "For every network with positive capacities and non-negative travel times and every sequence of extend calls with positive rates on existing edges and max_extension_time >= phi, no assertion or other exception is raised.", "quantifier": "all valid histories", "why_tests_cant": "internal assertions on derived event times", "anchors": ["src/core/dynamic_flow.py:DynamicFlow.extend", "src/core/dynamic_flow.py:DynamicFlow._extend_case_i", "src/core/dynamic_flow.py:DynamicFlow._extend_case_ii", "src/core/dynamic_flow.py:DynamicFlow._extend_case_iii"]}
{"id": "C33", "title": "queues are never negative", "statement": "At every time up to phi, every edge queue is non-negative (and 0 before any inflow). (On clean histories, where no comparison with tolerance eps identifies two distinct numbers; C116 shows what happens otherwise.)", "quantifier": "all valid histories, all edges, all times <= phi", "why_tests_cant": "quantifies over histories and times", "anchors": ["src/core/dynamic_flow.py:DynamicFlow.queues"]}
{"id": "C34", "title": "outflow respects capacity and proportions", "statement": "Every outflow snapshot of an edge has total rate at most its capacity and splits the total among commodities in the proportions of the inflow that generated it.", "quantifier": "all valid histories", "why_tests_cant": "depends on case distinction history", "anchors": ["src/core/dynamic_flow.py:DynamicFlow._extend_case_ii", "src/core/dynamic_flow.py:DynamicFlow._extend_case_iii"]}
{"id": "C35", "title": "mass conservation on edges", "statement": "For every edge and every t <= phi: queue(t) = cumulative inflow(t) - cumulative outflow(t + travel_time), hence nothing is lost or created on an edge. (On clean histories, where no comparison with tolerance eps identifies two distinct numbers; C116 shows what happens otherwise.)", "quantifier": "all valid histories, all edges, all times", "why_tests_cant": "needs the whole trajectory", "anchors": ["src/core/dynamic_flow.py:DynamicFlow.extend", "src/core/dynamic_flow.py:DynamicFlow.get_edge_loads"]}
{"id": "C36", "title": "queues operate at capacity", "statement": "Whenever the queue of an edge is positive at time t < phi (outside the eps band around capacity), the edge's total outflow rate at t + travel_time is its capacity; when the queue is empty it equals the inflow rate (capped). (On clean histories, where no comparison with tolerance eps identifies two distinct numbers; C116 shows what happens otherwise.)", "quantifier": "all valid histories, all edges, all times", "why_tests_cant": "needs the whole trajectory", "anchors": ["src/core/dynamic_flow.py:DynamicFlow.extend"]}
{"id": "C37", "title": "node balance in one builder step", "statement": "For every handled node v and every commodity not sinking in v, the inflow assigned to v's outgoing edges sums to the commodity's outflow from incoming edges plus its network inflow (if at least eps, otherwise 0), split equally over the active edges; no other edge of v receives that commodity; sinks absorb.", "quantifier": "all networks, flow states and routing decisions", "why_tests_cant": "quantifies over networks and states", "anchors": ["src/core/flow_builder.py:FlowBuilder._determine_new_inflow"]}
{"id": "C38", "title": "flow conservation along the whole run", "statement": "In every flow produced by build_flow, at every node, for every commodity (not at its sink) and every time up to phi, the rates sent into the outgoing edges sum to the rates arriving through incoming edges plus the network inflow, except that a sum below eps is dropped; nothing is sent on at the sink.", "quantifier": "all networks, predictors, inflow rates, reroute intervals, times", "why_tests_cant": "unbounded executions", "anchors": ["src/core/flow_builder.py:FlowBuilder.build_flow"]}
{"id": "C39", "title": "the builder makes progress and reroutes on schedule", "statement": "Each iteration handles every due network inflow change, recomputes routes exactly when phi reaches the next reroute time, and never skips a reroute time or a network inflow change (for every finite positive reroute interval).", "quantifier": "all runs", "why_tests_cant": "unbounded executions", "anchors": ["src/core/flow_builder.py:FlowBuilder.build_flow"]}
{"id": "C40", "title": "reverse_dijkstra computes near-exact distances", "statement": "For non-negative costs, reverse_dijkstra terminates; every returned distance is the cost of an actual path to the sink inside the node set, no edge can improve it by eps or more, and exactly the nodes that reach the sink inside the node set are labelled.", "quantifier": "all graphs, costs, node sets", "why_tests_cant": "all graphs and tie patterns", "anchors": ["src/core/dijkstra.py:reverse_dijkstra"]}
{"id": "C41", "title": "dynamic_dijkstra computes earliest arrivals", "statement": "For non-negative FIFO costs, every returned arrival time is the earliest arrival over all walks from source starting at phi inside relevant nodes, and every node with earlier arrival than the sink's is labelled.", "quantifier": "all graphs and FIFO cost functions", "why_tests_cant": "all graphs; FIFO is an assumption on functions", "anchors": ["src/core/dijkstra.py:dynamic_dijkstra"]}
{"id": "C42", "title": "active edges lie on shortest paths", "statement": "get_active_edges_from_dijkstra returns, without raising when sink was reached and differs from source, a non-empty duplicate-free list of edges leaving source, each starting a walk to the sink whose every edge is tight within eps.", "quantifier": "all Dijkstra results", "why_tests_cant": "all graphs and tie patterns", "anchors": ["src/core/dijkstra.py:get_active_edges_from_dijkstra", "src/core/flow_builder.py:FlowBuilder._get_active_edges"]}
{"id": "C43", "title": "bellman_ford labels are earliest arrivals", "statement": "bellman_ford(sink, costs, interesting_nodes, phi, horizon) labels exactly the nodes from which the sink can be reached through interesting nodes within [phi, horizon]; every label value at time t is the arrival time of an actual walk leaving at t, and no walk arrives earlier (up to the comparison tolerance per edge).", "quantifier": "all graphs, non-negative FIFO cost functions, sets of interesting nodes, start times and horizons", "why_tests_cant": "the labels depend on every walk of the graph and every departure time; the piecewise linear operations in between must not lose anything on any input", "anchors": ["src/core/bellman_ford.py:bellman_ford"]}
{"id": "C44", "title": "active_edges module", "statement": "get_active_edges returns the outgoing edges of source on earliest-arrival paths, for strong FIFO and for weak FIFO costs.", "quantifier": "all graphs and costs", "why_tests_cant": "the weak FIFO branch is never exercised", "anchors": ["src/core/active_edges.py:backward_search", "src/core/active_edges.py:get_active_edges"]}
{"id": "C45", "title": "reachability queries are exact", "statement": "get_reachable_nodes(s) / get_nodes_reaching(t) terminate and return exactly the nodes reachable from s / reaching t.", "quantifier": "all graphs", "why_tests_cant": "all graphs", "anchors": ["src/core/graph.py:DirectedGraph.get_reachable_nodes", "src/core/graph.py:DirectedGraph.get_nodes_reaching"]}
{"id": "C46", "title": "graph incidence stays consistent", "statement": "For every sequence of add_edge calls, edge ids are positions, each edge is listed exactly once in the outgoing list of its tail and the incoming list of its head; reverse() swaps directions and is an involution.", "quantifier": "all construction histories, also on reversed graphs", "why_tests_cant": "histories", "anchors": ["src/core/graph.py:DirectedGraph.add_edge", "src/core/graph.py:DirectedGraph.reverse"]}
{"id": "C47", "title": "graphs and networks survive pickling", "statement": "Pickling and unpickling a graph preserves its edges, directions and adjacency; for networks also capacities, travel times and commodities.", "quantifier": "all graphs/networks", "why_tests_cant": "all graphs incl. reversed and isolated nodes", "anchors": ["src/core/graph.py:DirectedGraph.__getstate__", "src/core/graph.py:DirectedGraph.__setstate__", "src/core/network.py:Network.__getstate__", "src/core/network.py:Network.__setstate__"]}
{"id": "C48", "title": "edge removal keeps attributes aligned", "statement": "After any sequence of edge insertions and removals, capacity[e.id] and travel_time[e.id] are the values given for edge e, ids are positions.", "quantifier": "all histories of add_edge/_remove_edge", "why_tests_cant": "renumbering after deletion", "anchors": ["src/core/network.py:Network._remove_edge", "src/core/network.py:Network.add_edge"]}
{"id": "C49", "title": "network clean-up functions work on networks with commodities", "statement": "remove_unnecessary_nodes, remove_unnecessary_commodities and compress_lonely_nodes complete on networks with commodities.", "quantifier": "all networks with a commodity", "why_tests_cant": "they read an attribute that commodities do not have", "anchors": ["src/core/network.py:Network.remove_unnecessary_nodes", "src/core/network.py:Network.remove_unnecessary_commodities", "src/core/network.py:Network.compress_lonely_nodes"]}
{"id": "C50", "title": "combining commodities preserves demand", "statement": "combine_commodities_with_same_sink preserves, for every (predictor, sink, source) and time, the total network inflow; afterwards at most one non-exempt commodity per (predictor, sink) exists; exempt commodities are unchanged.", "quantifier": "all commodity lists", "why_tests_cant": "all groupings", "anchors": ["src/utilities/combine_commodities.py:combine_commodities_with_same_sink"]}
{"id": "C51", "title": "constant and zero predictions", "statement": "The constant predictor predicts for every edge and every time the queue length at prediction time; the zero predictor predicts 0.", "quantifier": "all flows, prediction times, times", "why_tests_cant": "universally quantified", "anchors": ["src/core/predictors/constant_predictor.py:ConstantPredictor.predict", "src/core/predictors/zero_predictor.py:ZeroPredictor.predict"]}
{"id": "C52", "title": "(regularised) linear predictions are non-negative queue lengths", "statement": "The linear and regularised linear predictors predict the current queue at prediction time, extrapolate the current slope over the horizon, and never predict a negative queue.", "quantifier": "all flows and prediction times", "why_tests_cant": "needs a flow whose queue has just run empty", "anchors": ["src/core/predictors/linear_predictor.py:LinearPredictor.predict", "src/core/predictors/reg_linear_predictor.py:RegularizedLinearPredictor.predict"]}
{"id": "C53", "title": "learned predictions are post-processed to FIFO, non-negative queues", "statement": "Whatever the learned model returns, the predicted queue starts at the current queue, is non-negative and never falls faster than the edge capacity per unit of prediction time.", "quantifier": "all model outputs", "why_tests_cant": "model output is arbitrary", "anchors": ["src/core/predictors/sk_full_net_predictor.py:SKFullNetPredictor.predict", "src/core/predictors/sk_neighborhood_predictor.py:SKNeighborhoodPredictor.predict"]}
{"id": "C54", "title": "predict and batch_predict agree", "statement": "batch_predict(ts, flow)[k] is the same prediction as predict(ts[k], flow).", "quantifier": "all model oracles, flows, prediction times, masks", "why_tests_cant": "two independent implementations", "anchors": ["src/core/predictors/sk_full_net_predictor.py", "src/core/predictors/sk_neighborhood_predictor.py"]}
{"id": "C55", "title": "neighbourhoods contain the edges within the given distance", "statement": "get_neighboring_edges_forward/backward/undirected(e, d) return exactly the edges within d steps of e.", "quantifier": "all graphs, edges, distances", "why_tests_cant": "needs distance >= 2", "anchors": ["src/ml/neighboring_edges.py"]}
{"id": "C56", "title": "is_positive_during decides positivity on an interval", "statement": "is_positive_during(f, a, b) is True iff f(t) > eps for some t in [a, b), for a < b.", "quantifier": "all step functions and intervals", "why_tests_cant": "interval ends on breakpoints", "anchors": ["src/eval/predicted_delay.py:is_positive_during"]}
{"id": "C57", "title": "training samples are aligned with prediction inputs", "statement": "For every valid index, the dataset sample is in range, its phi is the sample's time, its past window ends at phi and its future window starts one prediction interval later, in the layout the predictor uses at run time.", "quantifier": "all dataset sizes, strides, indices", "why_tests_cant": "index arithmetic", "anchors": ["src/ml/QueueAndEdgeLoadsDataset.py:QueueAndEdgeLoadDataset.__getitem__"]}
{"id": "C58", "title": "file locks give mutual exclusion and are released", "statement": "Two processes never run the handler of the same file at once; a process that finds a lock or finished output skips; the lock is removed when the handler returns or raises.", "quantifier": "all interleavings and crash points", "why_tests_cant": "schedules", "anchors": ["src/utilities/file_lock.py:with_file_lock"]}
{"id": "C59", "title": "visualisation merge preserves totals", "statement": "merge_commodities preserves the total rate over the merged commodities at every time and leaves other commodities unchanged.", "quantifier": "all flows and commodity sets", "why_tests_cant": "universally quantified", "anchors": ["src/visualization/to_json.py:merge_commodities"]}
{"id": "C60", "title": "average travel time is the mean time in the network", "statement": "avg_travel_time(i, H) = (integral over [0,H] of cumulative network inflow minus cumulative sink outflow) / cumulative inflow at H; it is non-negative when no more has left than entered.", "quantifier": "all flows and horizons", "why_tests_cant": "universally quantified", "anchors": ["src/core/dynamic_flow.py:DynamicFlow.avg_travel_time"]}
{"id": "C61", "title": "arg_min returns the first minimal item", "statement": "arg_min(list, key) is None on an empty list and otherwise the first item of the list whose key is minimal.", "quantifier": "all lists of any type, all key functions", "why_tests_cant": "universally quantified", "anchors": ["src/utilities/arrays.py:arg_min"]}
{"id": "C62", "title": "edges are first-in first-out", "statement": "On every edge the exit time t + queue(t)/capacity + travel_time is non-decreasing in the entry time t up to phi: flow never overtakes earlier flow.", "quantifier": "all valid histories, all edges, all pairs of times up to phi", "why_tests_cant": "universally quantified over histories and times", "anchors": ["src/core/dynamic_flow.py:DynamicFlow.extend"]}
{"id": "C63", "title": "flow leaves an edge in the proportions in which it entered", "statement": "Whenever flow enters an edge at time t < phi, the share of every commodity in the outflow rate at the exit time of t equals its share in the inflow rate at t.", "quantifier": "all valid histories, all edges, commodities and times", "why_tests_cant": "universally quantified over histories and times", "anchors": ["src/core/dynamic_flow.py:DynamicFlow.extend"]}
{"id": "C64", "title": "reroute_interval=None reroutes at every event", "statement": "With reroute_interval=None the builder recomputes the routes whenever some outflow changes.", "quantifier": "all networks, predictors and runs", "why_tests_cant": "universally quantified over runs", "anchors": ["src/core/flow_builder.py:FlowBuilder.build_flow", "src/core/flow_builder.py:FlowBuilder.__init__"]}
{"id": "C65", "title": "batch predictions can be turned into costs", "statement": "Every prediction returned by batch_predict for prediction time t can be converted by costs_from_preds(network, prediction, t) into cost functions, as predict's can.", "quantifier": "all learned predictors, masks, flows and prediction times", "why_tests_cant": "universally quantified over masks, flows and times", "anchors": ["src/eval/predicted_delay.py:costs_from_preds", "src/core/predictors/sk_full_net_predictor.py:SKFullNetPredictor.batch_predict", "src/core/predictors/tf_full_net_predictor.py:TFFullNetPredictor.batch_predict"]}
{"id": "C66", "title": "edge loads are the flow on the edge", "statement": "get_edge_loads returns for every edge a function on the whole line that is 0 before time 0 and the cumulative inflow minus the cumulative outflow afterwards.", "quantifier": "all valid histories, edges and times", "why_tests_cant": "universally quantified over histories and times", "anchors": ["src/core/dynamic_flow.py:DynamicFlow.get_edge_loads"]}
{"id": "C67", "title": "predictions give FIFO travel times", "statement": "The edge costs computed from a prediction made at time t are total from t on, at least the free-flow travel time, and first-in first-out, so that the shortest path searches they are used in satisfy their preconditions and never raise.", "quantifier": "all predictors, flows, networks and prediction times", "why_tests_cant": "universally quantified over flows and times", "anchors": ["src/core/flow_builder.py:FlowBuilder._get_costs", "src/eval/predicted_delay.py:costs_from_preds", "src/core/dijkstra.py:dynamic_dijkstra"]}
{"id": "C68", "title": "the predicted delay of an edge is its detour", "statement": "get_pred_edge_delay returns 0 for an edge on a (nearly) shortest predicted path and otherwise how much later the sink is reached by first taking the edge; it raises KeyError when the sink cannot be reached over the edge and AssertionError when the edge starts in the sink.", "quantifier": "all graphs, total FIFO predicted costs, times and edges", "why_tests_cant": "universally quantified over graphs, costs and times", "anchors": ["src/eval/predicted_delay.py:get_pred_edge_delay"]}
{"id": "C69", "title": "the maximal predicted delay is the maximum over all used edges", "statement": "approximate_max_predicted_delay returns for a commodity the maximum of 0 and the predicted delays, at both ends of every measurement interval, of the edges the commodity enters during the interval, with a witness attaining it.", "quantifier": "all flows, commodities, predictions and measurement grids", "why_tests_cant": "universally quantified over flows and grids", "anchors": ["src/eval/predicted_delay.py:approximate_max_predicted_delay"]}
{"id": "C70", "title": "wait_for_locks waits until no lock is left", "statement": "wait_for_locks returns at the first directory listing without lock files, sleeping 1, 2, 4, 8, 16, 30, 30, ... seconds in between; while some lock (for instance a stale one) stays it never returns.", "quantifier": "all sequences of directory listings", "why_tests_cant": "unbounded waiting", "anchors": ["src/utilities/file_lock.py:wait_for_locks"]}
{"id": "C71", "title": "every training row holds the sample of its prediction time", "statement": "generate_training_data_with_edge_loads saves for every flow an array whose row i holds the past queues, past loads and future queues around prediction time i * reroute_interval.", "quantifier": "all flows, horizons, intervals and numbers of timesteps", "why_tests_cant": "universally quantified over flows", "anchors": ["src/ml/generate_queues.py:generate_training_data_with_edge_loads"]}
{"id": "C72", "title": "column e[t] of the expanded queues holds the queue t steps ahead", "statement": "In the samples written by expanded_queues_from_flows the column e[t] holds the queue of the edge at phi + t * step_length: past queues for t < 0, future queues for t > 0.", "quantifier": "all flows, edges, sample times and step lengths", "why_tests_cant": "universally quantified over flows", "anchors": ["src/ml/generate_queues.py:expanded_queues_from_flows"]}
{"id": "C73", "title": "cached methods never return stale results", "statement": "PiecewiseLinear.gradient, the evaluation and compose are memoised although the objects are mutable: in every history of calls, whatever was queried before, each call returns what it would return without any cache; in DynamicFlow the direct writes to queue values keep this true.", "quantifier": "all histories of constructor, arithmetic, query and update calls on any number of functions; all flow runs", "why_tests_cant": "universally quantified over histories and cache states (evictions included)", "anchors": ["src/utilities/piecewise_linear.py:PiecewiseLinear._eval_with_rank", "src/utilities/piecewise_linear.py:PiecewiseLinear.gradient", "src/utilities/piecewise_linear.py:PiecewiseLinear.compose", "src/utilities/piecewise_linear.py:PiecewiseLinear.extend_with_slope", "src/core/dynamic_flow.py:DynamicFlow._process_depletions"]}
{"id": "C74", "title": "extending a function changes no other function", "statement": "extend_with_slope changes the function it is called on and no other function, also not one that was computed from it or that it was computed from.", "quantifier": "all histories of calls on any number of functions", "why_tests_cant": "universally quantified over histories and aliasing patterns", "anchors": ["src/utilities/piecewise_linear.py:PiecewiseLinear.extend_with_slope", "src/utilities/piecewise_linear.py:PiecewiseLinear.__neg__", "src/utilities/piecewise_linear.py:PiecewiseLinear.compose"]}
{"id": "C75", "title": "flow is routed along predicted shortest paths", "statement": "At every time t of the computed flow a commodity enters an edge only if, for the queues its predictor predicted for the last rerouting time T (the multiple of reroute_interval with T <= t < T + reroute_interval), the edge starts a shortest route from its tail to the commodity's sink, up to the tolerance eps per edge; predictors flagged constant are routed by the first predicted value of every edge, all others by time-dependent earliest arrivals.", "quantifier": "all networks, commodities, predictors, reroute intervals, numbers of rounds and times", "why_tests_cant": "universally quantified over networks, predictors and unbounded runs", "anchors": ["src/core/flow_builder.py:FlowBuilder._get_active_edges", "src/core/flow_builder.py:FlowBuilder._get_costs", "src/core/flow_builder.py:FlowBuilder._determine_new_inflow", "src/core/dijkstra.py:get_active_edges_from_dijkstra"]}
{"id": "C76", "title": "the computed part of a flow is final", "statement": "Further extend calls change no inflow or outflow rate before the phi they started from and no queue length up to it.", "quantifier": "all valid histories and all continuations", "why_tests_cant": "universally quantified over histories and their continuations", "anchors": ["src/core/dynamic_flow.py:DynamicFlow.extend", "src/core/dynamic_flow.py:DynamicFlow._process_depletions"]}
{"id": "C77", "title": "with the constant predictor the builder computes an instantaneous dynamic equilibrium", "statement": "For a commodity using the constant predictor, flow enters an edge at time t only if the edge starts a shortest route to the sink for the travel times tau_e + q_e(T)/cap_e given by the computed queues at the last rerouting time T <= t; with the zero predictor the travel times are tau_e.", "quantifier": "all networks, commodities, reroute intervals, numbers of rounds and times", "why_tests_cant": "universally quantified over networks and unbounded runs", "anchors": ["src/core/flow_builder.py:FlowBuilder.build_flow", "src/core/predictors/constant_predictor.py:ConstantPredictor.predict", "src/core/predictors/zero_predictor.py:ZeroPredictor.predict"]}
{"id": "C78", "title": "building a flow never raises", "statement": "Constructing a FlowBuilder and starting build_flow succeeds iff every commodity's sink is a node reachable from all of its sources (otherwise AssertionError), and as long as the predictors return usable predictions (constant and zero predictor always do) and queues are computed cleanly, every further round yields a flow: no assertion, KeyError, IndexError or division error.", "quantifier": "all networks, commodities, reroute intervals, predictors and numbers of rounds", "why_tests_cant": "universally quantified over networks, predictors and unbounded runs", "anchors": ["src/core/flow_builder.py:FlowBuilder.__init__", "src/core/flow_builder.py:FlowBuilder.build_flow", "src/core/flow_builder.py:FlowBuilder.get_active_edges", "src/core/dynamic_flow.py:DynamicFlow.extend"]}
{"id": "C79", "title": "build_flow reaches every horizon", "statement": "If all travel times are positive, build_flow cannot yield infinitely many flows below any time t: for every t, after finitely many rounds flow.phi >= t, unless a round raises (which C78 excludes for clean computations with usable predictions).", "quantifier": "all networks with positive travel times, commodities, reroute intervals, predictors and horizons", "why_tests_cant": "liveness over unbounded runs; a test sees only finitely many rounds of one network", "anchors": ["src/core/flow_builder.py:FlowBuilder.build_flow", "src/core/dynamic_flow.py:DynamicFlow.extend"]}
{"id": "C80", "title": "the Tokyo regression predictor predicts usable queues", "statement": "LinearRegressionPredictor.predict returns for every flow and prediction time one queue function per edge, never raises, never predicts a negative queue, predicts an empty queue iff the last five samples are zero and otherwise interpolates the fixed linear combinations of these samples; the predicted exit times are first-in first-out.", "quantifier": "all flows and prediction times", "why_tests_cant": "universally quantified over flows and times", "anchors": ["src/core/predictors/linear_regression_predictor.py:LinearRegressionPredictor.predict"]}
{"id": "C81", "title": "the per-edge regression predictor extrapolates the past queues admissibly", "statement": "PerEdgeLinearRegressionPredictor.predict starts at the current queue, is never negative and falls no faster than the capacity, follows the model's answer to the queue history of the edge and its neighbours where that is admissible, and depends on nothing but queues up to the prediction time.", "quantifier": "all models, networks, flows and prediction times", "why_tests_cant": "universally quantified over learned models and flows", "anchors": ["src/core/predictors/per_edge_linear_regression_predictor.py:PerEdgeLinearRegressionPredictor.predict"]}
{"id": "C82", "title": "the full-net regression predictor predicts from the masked edges' history", "statement": "FullNetLinearRegressionPredictor.predict answers for every prediction time up to flow.phi, gives the model exactly the queues and loads of the edges in its mask, and predicts for every edge in the mask an admissible queue following the model's answer for this edge, zero for all other edges.", "quantifier": "all models, masks, networks, flows and prediction times", "why_tests_cant": "universally quantified over models, masks and flows", "anchors": ["src/core/predictors/full_net_linear_regression_predictor.py:FullNetLinearRegressionPredictor.predict", "src/core/flow_builder.py:FlowBuilder.build_flow"]}
{"id": "C83", "title": "expanded regression predictors return predictions", "statement": "The predictors made by ExpandedLinearRegressionPredictor.from_weka_model and from_scikit_model return one predicted queue per edge for every flow and prediction time.", "quantifier": "all coefficients/models, networks, flows and prediction times", "why_tests_cant": "universally quantified over models and flows", "anchors": ["src/core/predictors/expanded_linear_regression_predictor.py:ExpandedLinearRegressionPredictor.predict", "src/core/predictors/expanded_linear_regression_predictor.py:ExpandedLinearRegressionPredictor.from_scikit_model"]}
{"id": "C84", "title": "the default batch_predict predicts every requested time", "statement": "Predictor.batch_predict raises ValueError iff no time is requested or some time lies beyond flow.phi; otherwise element i of its result is what predict returns for the i-th time, and it raises iff one of these calls does.", "quantifier": "all predictors, flows and lists of times", "why_tests_cant": "universally quantified over predictors and lists", "anchors": ["src/core/predictor.py:Predictor.batch_predict"]}
{"id": "C85", "title": "the mean absolute error compares predictions with the queues at the predicted times", "statement": "evaluate_mean_absolute_error reports for every predictor the mean over all prediction times t = 0, r, 2r, ... (up to horizon - (future+1) prediction intervals), all k <= future and all edges of |predicted queue at t + k * prediction_interval made at t - queue of the flow at that same time|.", "quantifier": "all flows, predictors, horizons and intervals", "why_tests_cant": "universally quantified over flows, predictors and grids", "anchors": ["src/eval/evaluate.py:evaluate_mean_absolute_error"]}
{"id": "C86", "title": "the optimal average travel time is that of earliest arrivals", "statement": "calculate_optimal_average_travel_time returns the average, over departures from the source until the inflow horizon, of the earliest arrival time in the computed flow minus the departure time, where departures that cannot arrive by the horizon count as travelling until the horizon.", "quantifier": "all flows, networks, commodities with one source, horizons and inflow horizons", "why_tests_cant": "universally quantified over flows and networks", "anchors": ["src/eval/evaluate.py:calculate_optimal_average_travel_time", "src/core/bellman_ford.py:bellman_ford"]}
{"id": "C87", "title": "build_with_times returns the first flow at or beyond the horizon", "statement": "build_with_times consumes build_flow until flow.phi >= horizon and returns exactly that flow; it stops after finitely many rounds, and neither logging nor observed commodities change what is returned.", "quantifier": "all networks, commodities, predictors, horizons, log settings and clocks", "why_tests_cant": "universally quantified over unbounded runs and wall-clock behaviour", "anchors": ["src/utilities/build_with_times.py:build_with_times"]}
{"id": "C88", "title": "evaluating a commodity keeps the total demand", "statement": "evaluate_single_run with split replaces the focused commodity by one commodity per predictor with equal shares of its inflow: the demand between every pair of nodes at every time is unchanged; without split it only adds the documented test demand per predictor. The indices it evaluates are those of the new commodities. A commodity without exactly one source is rejected with ValueError.", "quantifier": "all networks, commodities, predictors and inflow functions", "why_tests_cant": "universally quantified over networks and inflow functions", "anchors": ["src/eval/evaluate.py:evaluate_single_run", "src/utilities/combine_commodities.py:combine_commodities_with_same_sink"]}
{"id": "C89", "title": "importing a network keeps every edge", "statement": "network_from_csv and import_network build a network with exactly the edges of the file, in order and with the documented travel times (length / free-flow speed, default speed 20) and capacities (lanes * speed); the csv import leaves out loops. add_demands_to_network adds the demands of the file as commodities.", "quantifier": "all files, rows and node ids", "why_tests_cant": "universally quantified over files of any length", "anchors": ["src/importer/csv_importer.py:network_from_csv", "src/importer/csv_importer.py:add_demands_to_network", "src/importer/tntp_importer.py:import_network"]}
{"id": "C90", "title": "trips of a tntp file become commodities one by one", "statement": "add_commodities adds for every entry 'destination : demand' in a block 'Origin o' of a tntp trips file one commodity from o to the destination with that demand until the inflow horizon, in the order of the file, whatever the blanks, line breaks and header; entries with a wrong number of colons and entries with nodes that are not in the network raise.", "quantifier": "all file contents of the format, networks and inflow horizons", "why_tests_cant": "universally quantified over texts", "anchors": ["src/importer/tntp_importer.py:add_commodities", "src/importer/sioux_falls_importer.py:add_od_pairs", "src/scenarios/scenario_utils.py:get_demand_with_inflow_horizon"]}
{"id": "C91", "title": "random demands change inflow rates only", "statement": "generate_network_demands keeps the graph, capacities, travel times, commodities, sinks, predictors and source nodes; the k-th source gets max(0, k-th normal draw around its old first rate) during the inflow horizon and nothing afterwards; the default deviation is half the smallest capacity.", "quantifier": "all networks, seeds, horizons and deviations", "why_tests_cant": "universally quantified over networks and random draws", "anchors": ["src/ml/build_test_flows.py:generate_network_demands", "src/scenarios/scenario_utils.py:get_demand_with_inflow_horizon"]}
{"id": "C92", "title": "flow files have unique, sortable names and are found again", "statement": "The file names of the flows of build_flows and eval_network_demand are pairwise different, have equal length, and sort in the order of the seeds; a later call finds the flows computed before.", "quantifier": "all numbers of flows and seeds", "why_tests_cant": "universally quantified over numbers of flows", "anchors": ["src/ml/build_test_flows.py:build_flows", "src/eval/evaluate_network.py:eval_network_demand"]}
{"id": "C93", "title": "visualisations of an evaluation show the evaluated commodities separately", "statement": "The visualisation written by eval_network_demand merges the background commodities of the network and keeps each evaluated commodity on its own.", "quantifier": "all networks, focused commodities and predictors", "why_tests_cant": "universally quantified over networks", "anchors": ["src/eval/evaluate_network.py:eval_network_demand", "src/visualization/to_json.py:merge_commodities", "src/eval/evaluate.py:evaluate_single_run"]}
{"id": "C94", "title": "summaries of evaluations are averages over the runs", "statement": "generate_slowdown_boxplot and eval_jsons_to_avg_slowdowns report for every predictor its travel time relative to the optimum minus one, for exactly the runs in which two predictors differ, and the mean of these; they are non-negative if the optimum is; the printed mean travel time is the mean over the runs; the error boxplot uses every run.", "quantifier": "all numbers of runs, predictors and travel times", "why_tests_cant": "universally quantified over sets of result files", "anchors": ["src/eval/evaluate_network.py:generate_slowdown_boxplot", "src/eval/evaluate_network.py:eval_jsons_to_avg_slowdowns", "src/eval/evaluate_network.py:generate_mae_boxplot"]}
{"id": "C95", "title": "parallel evaluations cover every commodity exactly once", "statement": "Several processes running eval_network_for_commodities in one directory evaluate every commodity, no commodity twice at the same time; a process only summarises when every commodity has a complete result; an exception or crash in one process does not keep the others from finishing.", "quantifier": "all numbers of processes and commodities, interleavings, exceptions and crash points", "why_tests_cant": "schedules and crash points cannot be enumerated by tests", "anchors": ["src/eval/evaluate_network.py:eval_network_for_commodities", "src/utilities/file_lock.py:wait_for_locks"]}
{"id": "C96", "title": "interrupted evaluations can be repeated", "statement": "If a run of eval_network_demand for one flow is interrupted anywhere (exception or kill), running it again completes the flow, the evaluation and the visualisation; a run that is skipped has complete files.", "quantifier": "all histories of interrupted runs", "why_tests_cant": "crash points and histories cannot be enumerated by tests", "anchors": ["src/eval/evaluate_network.py:eval_network_demand", "src/eval/evaluate.py:evaluate_single_run", "src/utilities/file_lock.py:with_file_lock"]}
{"id": "C97", "title": "a full-network predictor is used with the masks its model was trained with", "statement": "The training functions for full-network models return an input and an output mask; the model on disk was fitted to data selected by exactly these masks, and the masks mark the edges with a non-zero queue in the data. This holds for the call that trains and for every later call, also after failed trainings and with scikit-learn and tensorflow models in the same directory.", "quantifier": "all scenario directories, parameters and histories of (failed) trainings and added queue files", "why_tests_cant": "histories of runs cannot be enumerated by tests", "anchors": ["src/ml/SKFullNetworkModel.py:train_sk_full_net_model", "src/ml/TFFullNetworkModel.py:train_tf_full_net_model", "src/ml/QueueAndEdgeLoadsDataset.py:QueueAndEdgeLoadsDataset.load_mask"]}
{"id": "C98", "title": "every edge with a queue gets a neighbourhood model", "statement": "train_sk_neighborhood_model and train_tf_neighborhood_model return a predictor that has one model for every edge marked by the output mask, fitted to the marked edges in the neighbourhood of that edge; when several processes train at once, each process returns only after all models exist.", "quantifier": "all networks, distances, data sets, previously trained models, numbers of processes and interleavings", "why_tests_cant": "schedules and histories cannot be enumerated by tests", "anchors": ["src/ml/SKNeighborhood.py:train_sk_neighborhood_model", "src/ml/TFNeighborhood.py:train_tf_neighborhood_model", "src/utilities/file_lock.py:with_file_lock"]}
{"id": "C99", "title": "build_flows saves, hands over and draws every flow once", "statement": "build_flows writes every flow to disk, calls on_flow_computed exactly once for it and draws it if asked; runs after an interruption finish what is missing; a run that changes nothing found complete files.", "quantifier": "all histories of interrupted runs with any arguments", "why_tests_cant": "crash points and histories cannot be enumerated by tests", "anchors": ["src/ml/build_test_flows.py:build_flows", "src/visualization/to_json.py:to_visualization_json"]}
{"id": "C100", "title": "iterating over the training data visits every sample once", "statement": "zip(*dataset) visits exactly the samples 0, ..., len(dataset)-1 in order, although the class defines no iterator; flows too short for one sample raise ZeroDivisionError.", "quantifier": "all recorded flows, parameters and masks", "why_tests_cant": "universally quantified over data sets", "anchors": ["src/ml/QueueAndEdgeLoadsDataset.py:QueueAndEdgeLoadsDataset.__getitem__", "src/ml/SKFullNetworkModel.py:train_sk_full_net_model"]}
{"id": "C101", "title": "the comparison of prediction errors shows one point per predictor and run", "statement": "compare_mae_with_perf plots for every predictor one point per run in which predictors differ: the predictor's mean absolute error and the excess of its travel time over the optimum, in the order of the files; more errors than colours raise IndexError.", "quantifier": "all sets of result files", "why_tests_cant": "universally quantified over sets of result files", "anchors": ["src/eval/evaluate_network.py:compare_mae_with_perf"]}
{"id": "C102", "title": "the diagrams of the sample network show the measured travel times", "statement": "eval_sample evaluates the demands step, 2*step, ..., up to the maximum; every point (x, y) of a curve in the diagram is the travel time y of that predictor measured for demand x, and the second diagram shows it relative to the optimum for the same demand.", "quantifier": "all evaluation results, step sizes and maximal demands", "why_tests_cant": "universally quantified over results", "anchors": ["src/eval/evaluate_sample.py:eval_sample", "src/eval/evaluate_sample.py:sample_from_file_to_tikz", "src/eval/evaluate_sample.py:sample_regrets_from_file_to_tikz"]}
{"id": "C103", "title": "the visualisation file shows the network and the flow", "statement": "to_visualization_json writes a JSON document from which a reader recovers the nodes with positions, the edges in order with ends, capacities and transit times, the commodities' colours, and for every edge and commodity exactly the inflow and outflow rate functions and the queue of the flow, including infinite domain ends; after merge_commodities the merged commodity shows the total rate. Every network of the scenarios and examples can be drawn.", "quantifier": "all networks, flows, colour maps and numbers of commodities", "why_tests_cant": "universally quantified over networks and flows", "anchors": ["src/visualization/to_json.py:to_visualization_json", "src/utilities/json_encoder.py:JSONEncoder", "src/utilities/piecewise_linear.py:PiecewiseLinear.__json__", "src/utilities/right_constant.py:RightConstant.__json__"]}
{"id": "C104", "title": "every commodity leaves an edge when it should", "statement": "For every edge, commodity and time t the flow has reached: the amount of the commodity that has left the edge by the time at which flow entering at t leaves it (t plus queue over capacity plus travel time) is the amount that has entered up to t; no commodity leaves earlier than the travel time after it entered, and the amount on the edge (get_edge_loads) lies between the queue and the queue plus capacity times travel time.", "quantifier": "all networks, sequences of extend calls, edges, commodities and times", "why_tests_cant": "universally quantified over flow histories and times", "anchors": ["src/core/dynamic_flow.py:DynamicFlow.extend", "src/core/dynamic_flow.py:DynamicFlow.get_edge_loads", "src/core/flow_rates_collection.py"]}
{"id": "C105", "title": "all released flow is on the edges or has arrived", "statement": "At every time the computed flow has reached and for every commodity, the amount released at the sources (outside the sink) equals the amount that has arrived at the sink plus the amount on the edges, except for what build_flow drops at nodes whose supply is below eps (at most eps per node and unit of time, nothing if no supply is that small); in particular never more arrives than was released.", "quantifier": "all networks, commodities, network inflows, predictors, reroute intervals, numbers of rounds and times", "why_tests_cant": "universally quantified over runs and times", "anchors": ["src/core/flow_builder.py:FlowBuilder.build_flow", "src/core/flow_builder.py:FlowBuilder._determine_new_inflow", "src/core/dynamic_flow.py:DynamicFlow.extend"]}
{"id": "C106", "title": "the expanded queue table holds every recorded queue", "statement": "expanded_queues_from_flows writes one row for every flow, sample time and edge with some non-zero recorded queue, in this order; the cell of column e[t] is the queue of the edge at phi - step_length * t, the cell of column i{k}[t] that of the k-th edge into its tail (blank if there is none), and every recorded queue has a cell.", "quantifier": "all networks, lists of flows, horizons, step lengths and numbers of timesteps", "why_tests_cant": "universally quantified over networks and flows", "anchors": ["src/ml/generate_queues.py:expanded_queues_from_flows"]}
{"id": "C107", "title": "the per-edge tables hold the queues around every edge", "statement": "expanded_queues_from_flows_per_edge writes for every edge a table with one row per flow and sample time and one column per neighbouring edge and past step (for the edge itself also per future step), without duplicate columns; the cell is the queue at phi - step_length * t, or with average=True the average queue over the step before; it succeeds also when there is nothing to sample.", "quantifier": "all networks, edges, lists of flows, horizons, step lengths and numbers of timesteps", "why_tests_cant": "universally quantified over networks and flows", "anchors": ["src/ml/generate_queues.py:expanded_queues_from_flows_per_edge"]}
{"id": "C108", "title": "generate_queues samples every queue on the grid", "statement": "generate_queues writes for every flow an array whose row e, column j is the queue of edge e at time -past_timesteps + j * step_length, up to the last such time within the horizon.", "quantifier": "all flows, horizons and step lengths", "why_tests_cant": "universally quantified over flows", "anchors": ["src/ml/generate_queues.py:generate_queues"]}
{"id": "C109", "title": "generate_queues_and_edge_loads gives every saved flow its array", "statement": "generate_queues_and_edge_loads writes for every flow file of the directory the array of its samples under the flow's id, keeps arrays and other files that exist, leaves no lock, can be repeated without effect, ignores files that are no flows (lock files in particular), and after an interruption a later call completes the work.", "quantifier": "all directories of flows and arrays, all flows", "why_tests_cant": "universally quantified over directories", "anchors": ["src/ml/generate_queues.py:generate_queues_and_edge_loads", "src/utilities/file_lock.py:with_file_lock"]}
{"id": "C110", "title": "saved flows can be read back by every function that takes a directory of flows", "statement": "generate_queues, generate_training_data_with_edge_loads, expanded_queues_from_flows, expanded_queues_from_flows_per_edge and shallow_evaluate_predictors read the flow files that build_flows writes and write their outputs for them; a call that fails can be repeated.", "quantifier": "all directories of flows written by build_flows, all output directories", "why_tests_cant": "universally quantified over directories", "anchors": ["src/ml/build_test_flows.py:build_flows", "src/ml/generate_queues.py", "src/scenarios/sioux_falls_scenario.py:shallow_evaluate_predictors"]}
{"id": "C111", "title": "the data set holds the flows in the order of their numbers", "statement": "After build_flows and generate_queues_and_edge_loads the data set of the queue folder is built from the arrays of the flows 0, ..., n-1, each once and in this order, whatever other files the directories hold.", "quantifier": "all numbers of flows, all flows", "why_tests_cant": "universally quantified over the number of flows", "anchors": ["src/ml/QueueAndEdgeLoadsDataset.py:QueueAndEdgeLoadsDataset.__init__", "src/ml/generate_queues.py:generate_queues_and_edge_loads", "src/ml/build_test_flows.py:build_flows"]}
{"id": "C112", "title": "every training flow of a well posed scenario is computed", "statement": "If all travel times and capacities of the map are positive, every destination of the table can be reached from its origin and the inflow lasts longer than 1e-9, then adding the commodities, saving and loading the network, drawing the demands of a seed and merging commodities with the same destination never raises; the flow builder gets the unchanged map, one commodity per destination and, during the inflow, for each origin exactly the sum of the rates drawn for its entries; and build_with_times returns a flow up to the horizon. The shipped nguyen and sample scenarios are such scenarios.", "quantifier": "all maps, tables of demands, random draws, deviations, rerouting intervals, horizons and set orders", "why_tests_cant": "universally quantified over maps, tables and random draws", "anchors": ["src/ml/build_test_flows.py:build_flows", "src/scenarios/nguyen_scenario.py:run_scenario", "src/scenarios/nguyen_scenario.py:build_nguyen_network", "src/scenarios/sample_scenario.py:run_scenario", "src/utilities/combine_commodities.py:combine_commodities_with_same_sink"]}
{"id": "C113", "title": "an evaluation run compares the predictors under equal conditions", "statement": "eval_network_demand, for a well posed scenario (C112) and any focused commodity: loading, drawing demands, merging and adding the test commodities never raises; the map is unchanged; there is one test commodity per predictor, all with the same source, destination and inflow (an equal share of the focused demand when splitting, otherwise at least a 256th of the least capacity); the total demand of all others is what was drawn; the flow builder accepts it, and with answering predictors the flow is computed up to the horizon; the average travel time of every test commodity can be computed.", "quantifier": "all maps, tables of demands, draws, focused commodities, sets of predictors, split or not", "why_tests_cant": "universally quantified over scenarios and random draws", "anchors": ["src/eval/evaluate_network.py:eval_network_demand", "src/eval/evaluate.py:evaluate_single_run", "src/ml/build_test_flows.py:generate_network_demands"]}
{"id": "C114", "title": "switching assertions off (PYTHONOPTIMIZE) changes no result", "statement": "The evaluation functions run exactly if assertions are off or the check is waived. Whatever the code returns with assertions on - flows from extend, flows of the flow builder, build_with_times, average travel times, predictions of the closed-form predictors - it returns with assertions off. On clean histories both modes agree completely; elsewhere the assertions are the only protection: with them off, flow can be lost silently.", "quantifier": "all networks, histories of extend and queries, setups with arbitrary predictors, numbers of rounds, horizons", "why_tests_cant": "two modes of the interpreter compared on every history", "anchors": ["src/core/dynamic_flow.py:DynamicFlow.extend", "src/core/flow_builder.py:FlowBuilder.build_flow", "src/eval/evaluate_network.py:eval_network_demand", "src/ml/build_test_flows.py:generate_network_demands"]}
{"id": "C115", "title": "DynamicFlow never raises anything but an AssertionError, and nothing without assertions", "statement": "For every network with positive capacities and non-negative travel times and every history of extend and outflow queries on existing edges whose max_extension_time is not in the past: with assertions off every call returns, queues can be evaluated at every time, and the constant and the zero predictor answer; with assertions on the same flow is returned or an AssertionError is raised - never an IndexError, KeyError, ValueError or ZeroDivisionError, never an endless loop. The rates are arbitrary.", "quantifier": "all networks, all histories, all rates (also invalid ones)", "why_tests_cant": "universally quantified over histories", "anchors": ["src/core/dynamic_flow.py:DynamicFlow.extend", "src/core/dynamic_flow.py:DepletionQueue", "src/core/flow_rates_collection.py:FlowRatesCollection.extend"]}
{"id": "C116", "title": "a flow that extend returns is right, or an assertion fails", "statement": "If extend returns (with assertions on), queues are not negative and hold exactly what has entered an edge and not left it. True on clean histories; otherwise the assertions guarantee that a depletion discards less than 1000 eps, and that rates which are not positive and times before the last breakpoint are rejected - but not more: bursts shorter than eps give queues that stay negative, and inflow within eps of the capacity loses flow in proportion to time, without any assertion failing.", "quantifier": "all valid histories", "why_tests_cant": "quantifies over histories", "anchors": ["src/core/dynamic_flow.py:DynamicFlow.extend", "src/core/dynamic_flow.py:DynamicFlow._process_depletions", "src/utilities/piecewise_linear.py:PiecewiseLinear.extend_with_slope"]}
{"id": "C117", "title": "routing survives floating-point rounding", "statement": "Whatever monotone rounding the arithmetic uses (IEEE binary64 in particular), the shortest path searches end without exception, every node that can reach the sink gets a non-empty set of active edges (constant and time-dependent costs, FIFO or not), exactly the edges that pass the rounded comparison; labels are within the accumulated rounding error and tolerance of exact shortest distances; with FIFO costs arrival times are earliest arrival times of the rounded network. The tolerance eps of the comparison works as long as the numbers are small: from 2^20 on, adding eps changes no binary64 number.", "quantifier": "all graphs, costs and roundings", "why_tests_cant": "quantifies over all float inputs", "anchors": ["src/core/dijkstra.py:reverse_dijkstra", "src/core/dijkstra.py:dynamic_dijkstra", "src/core/dijkstra.py:get_active_edges_from_dijkstra", "src/core/flow_builder.py:FlowBuilder._determine_active_edges", "src/core/machine_precision.py:eps"]}
{"id": "C118", "title": "DynamicFlow with floating-point arithmetic raises nothing but AssertionErrors", "statement": "Whatever monotone rounding with gradual underflow the arithmetic uses (IEEE binary64 in particular), every history of extend and outflow calls with existing edges and float times that do not decrease builds a flow without IndexError, KeyError, ValueError, ZeroDivisionError or endless loop: with assertions off nothing raises and all queues can be evaluated, with assertions on the same flow is returned or an AssertionError is raised. Time never runs backwards nor past max_extension_time, and the accumulated outflow never grows faster than the capacity. (The assertions themselves can fail by rounding alone: at time 10^7, capacity 3000, a queue of 500.)", "quantifier": "all networks with float capacities, all histories, all roundings", "why_tests_cant": "quantifies over all histories and float inputs", "anchors": ["src/core/dynamic_flow.py:DynamicFlow.extend", "src/core/dynamic_flow.py:DynamicFlow._extend_case_iii", "src/core/flow_rates_collection.py:FlowRatesCollection.extend", "src/utilities/piecewise_linear.py:PiecewiseLinear._eval_with_rank", "src/utilities/piecewise_linear.py:PiecewiseLinear.extend_with_slope", "src/utilities/right_constant.py:RightConstant.extend"]}
{"id": "C119", "title": "FlowBuilder raises nothing but AssertionErrors, and only in DynamicFlow.extend", "statement": "For every network, set of commodities with reachable sinks and predictors that answer with usable predictions, every round of the flow builder either succeeds or raises an AssertionError - without assuming that queues are computed cleanly. Choosing routes and splitting flow never raises; the call of DynamicFlow.extend that a failing round makes is a legal one, and it is this call whose assertion fails. With positive travel times every time is reached or an AssertionError is raised. (It does happen: one edge of capacity 1 and source rates 2, 1 - 2 eps, 1 - 5/2 eps.)", "quantifier": "all setups, numbers of rounds, predictors that answer", "why_tests_cant": "universally quantified over setups and rounds", "anchors": ["src/core/flow_builder.py:FlowBuilder.build_flow", "src/core/flow_builder.py:FlowBuilder._determine_new_inflow", "src/core/flow_builder.py:FlowBuilder._get_active_edges", "src/core/dynamic_flow.py:DynamicFlow.extend"]}
{"id": "C120", "title": "Argument checks: operations refuse what they are not defined for", "statement": "The operations on piecewise linear functions, step functions, priority queues and networks raise an AssertionError - they return nothing and change nothing - for every argument they are not defined for: constructors given malformed breakpoints; +, - and minimum of functions whose domains share at most one point, minimum where the common domain does not start at a breakpoint; restrict to anything but a sub-interval; integrate unless it is a non-empty interval in the domain and no value is negative (then it succeeds); image, min_t_above, max_t_below and compose of a function that decreases between breakpoints; levels no point reaches; compose with a value more than eps outside the domain; smaller_equals of functions that do not start together at a breakpoint; left_extend/right_extend by a function that does not reach further; + and - of step functions on different domains; integral of a step function whose domain does not start at its first breakpoint or ends less than 1 after its last; pushing a stored item, changing or removing an absent one; a commodity whose sink or source is not a node.", "quantifier": "all functions, all arguments", "why_tests_cant": "universally quantified over functions and arguments", "anchors": ["src/utilities/piecewise_linear.py:PiecewiseLinear", "src/utilities/right_constant.py:RightConstant", "src/utilities/queues.py:PriorityQueue", "src/core/network.py:Network.add_commodity"]}
{"id": "C121", "title": "With floating-point arithmetic, FlowBuilder raises nothing but AssertionErrors", "statement": "With every addition, subtraction, multiplication and division rounded (any monotone, idempotent rounding that does not map the difference of two different floats to 0; binary64 is one), building a flow from float capacities and float breakpoints of the inflow, with predictors that return usable predictions, raises no exception in any number of rounds if assertions are off, and at most an AssertionError if they are on: no IndexError, KeyError, ValueError, ZeroDivisionError and no endless loop inside a round. The clock starts at 0, is always a float, never runs backwards and never passes the next rerouting; flow of a commodity only leaves edges whose head is reached from one of its sources and leads to its sink. The zero predictor always qualifies, the constant predictor as long as no computed travel time is negative. But once adding the reroute interval to a time is lost in rounding the clock stalls: with binary64 and interval 1 no number of rounds takes the flow past 2^53.", "quantifier": "all roundings, all networks with float capacities and inflow breakpoints, all predictors, all numbers of rounds", "why_tests_cant": "universally quantified over networks, roundings and histories", "anchors": ["src/core/flow_builder.py:FlowBuilder", "src/core/dynamic_flow.py:DynamicFlow", "src/core/dijkstra.py:dynamic_dijkstra", "src/core/predictors/zero_predictor.py:ZeroPredictor", "src/core/predictors/constant_predictor.py:ConstantPredictor"]}
{"id": "C122", "title": "Evaluating a piecewise linear function with floating-point arithmetic", "statement": "Calling a PiecewiseLinear whose data are floats never raises inside its domain and returns a float, the same with assertions on and off. Between two consecutive breakpoints the computed values do not decrease where the data increase, do not increase where they decrease, stay on the right side of the left value, and are exact where the function is constant. In binary64 the computed value differs from the exact interpolation by at most 2^-53 of that value plus 6*2^-53 of the change since the breakpoint it is computed from, plus an underflow term. It does NOT hold that a breakpoint evaluates to its stored value, that a non-negative function evaluates to non-negative numbers, or that a non-decreasing one evaluates to non-decreasing numbers across breakpoints.", "quantifier": "all piecewise linear functions with float data, all float arguments; the order theorems for all roundings", "why_tests_cant": "rounding errors depend on every operand; universally quantified over functions and arguments", "anchors": ["src/utilities/piecewise_linear.py:PiecewiseLinear.__call__", "src/utilities/piecewise_linear.py:PiecewiseLinear._eval_with_rank", "src/utilities/piecewise_linear.py:PiecewiseLinear.gradient"]}
{"id": "C123", "title": "With floating-point arithmetic, edges respect their capacities and proportions up to rounding", "statement": "In binary64, whatever calls are made with positive float inflow rates (and no underflow: capacities at least 2^-1000, inflows at most 2^1000 times the capacity), the rates at which flow leaves an edge at any time sum up to at most the capacity times 1 + (3k+4)*2^-53, k the number of commodities, with assertions on and off; every commodity leaves in proportion to its inflow, up to a factor 1 +- (2k+4)*2^-53. It does NOT hold that the sum is at most the capacity exactly.", "quantifier": "all networks, all sequences of extend calls and queries, all edges and times, all numbers of commodities up to 2^51", "why_tests_cant": "universally quantified over runs and numbers of commodities", "anchors": ["src/core/dynamic_flow.py:DynamicFlow.extend", "src/core/dynamic_flow.py:DynamicFlow._extend_case_ii", "src/core/dynamic_flow.py:DynamicFlow._extend_case_iii", "src/core/flow_rates_collection.py:FlowRatesCollection.get_values_at_time"]}
{"id": "C124", "title": "With floating-point arithmetic, nodes pass on what they receive up to rounding", "statement": "In every round of a flow computation with any rounding (assertions on or off), the rate of a commodity that a handled node is supplied with (floating-point sum of the outflow of the edges into it and the network inflow) is divided into equal rounded shares between some edges out of the node; nothing is sent out of its sink or below the threshold; all rates are non-negative floats. In binary64 the rates sent sum up to the rates supplied up to a factor between 1-(k+1)*2^-53 and 1+(2k+2)*2^-53, k the in-degree plus 1. It does NOT hold that they sum up exactly.", "quantifier": "all networks, commodities, predictors, numbers of rounds, nodes and commodities; any monotone idempotent rounding for the split, binary64 for the error bound", "why_tests_cant": "universally quantified over runs, networks and roundings", "anchors": ["src/core/flow_builder.py:FlowBuilder._determine_new_inflow", "src/core/flow_builder.py:FlowBuilder.build_flow", "src/core/flow_builder.py:FlowBuilder._get_active_edges"]}
{"id": "C125", "title": "scenarios print the average computation time of their evaluations", "statement": "After eval_network_demand with at least one run, whatever earlier complete or interrupted evaluations of the scenario have stored, every run has its flow and its analysis, flows already computed are kept, the analysis shows the time it took to compute the flow that is stored (also when it was loaded), and the scenario scripts print exactly the mean of these times over the runs; evaluating again changes no file. It does NOT hold for the Tokyo script, which reads a key that is never written.", "quantifier": "all numbers of runs, states of the evaluation directory, orders of os.listdir, computed flows and times", "why_tests_cant": "universally quantified over histories of evaluations and directory contents", "anchors": ["src/scenarios/sioux_falls_multi_com_scenario.py:run_scenario", "src/scenarios/sample_scenario.py:run_scenario", "src/tokyo/tokyo_scenario.py", "src/eval/evaluate_network.py:eval_network_demand", "src/eval/evaluate.py:evaluate_single_run"]}
{"id": "C126", "title": "RightConstant functions with floating-point arithmetic", "statement": "With any rounding, assertions on or off: evaluating returns a stored value exactly; adding, subtracting and summing functions with float breakpoints never raises, yields increasing breakpoints taken from the operands, and at each of them the rounded sum (difference; sum from left to right) - everywhere, if the breakpoints are told apart by the comparison with eps; the integral of non-negative rates starts at 0 and its values never decrease and are never negative. In binary64 sums of non-negative values and the values of the integral equal the exact ones up to a relative error of order n*2^-53 (and underflow). It does NOT hold that sums are exact.", "quantifier": "all functions, numbers of summands and breakpoints, times; any monotone idempotent rounding, binary64 for the errors", "why_tests_cant": "universally quantified over functions and roundings", "anchors": ["src/utilities/right_constant.py:RightConstant.__add__", "src/utilities/right_constant.py:RightConstant.__sub__", "src/utilities/right_constant.py:RightConstant.sum", "src/utilities/right_constant.py:RightConstant.integral", "src/utilities/right_constant.py:RightConstant.eval", "src/utilities/arrays.py:merge_sorted", "src/utilities/arrays.py:merge_sorted_many"]}
{"id": "C127", "title": "The two neighbourhood predictors are interchangeable", "statement": "Given the same learned functions, network, masks and flow, the neural-network neighbourhood predictor's batch prediction - which evaluates queues and loads one time at a time into dictionaries - returns exactly what the regression one returns, values and exceptions, for any list of prediction times in any order and with repetitions. Hence its predictions start at the present queue, are never negative, fall by at most the capacity per unit of time and are the smallest such values above the output of the model.", "quantifier": "all models (functions of their input row), masks, distances, lists of prediction times, flows whose queues and loads are defined everywhere (all flows reached by valid extensions)", "why_tests_cant": "universally quantified over models, flows and prediction times", "anchors": ["src/core/predictors/tf_neighborhood_predictor.py:TFNeighborhoodPredictor.batch_predict", "src/core/predictors/sk_neighborhood_predictor.py:SKNeighborhoodPredictor.batch_predict"]}
{"id": "C128", "title": "Sums and differences of PiecewiseLinear functions with floating-point arithmetic", "statement": "Adding two piecewise linear functions with float data whose domains overlap in more than a point, all operations rounded, never raises with assertions disabled: the result lives on the common domain, its breakpoints strictly increase and are breakpoints of the operands or ends of the common domain, its slopes are the rounded sums of the slopes and the value stored at a breakpoint is the rounded sum of the operands' values there. With assertions enabled the same result is returned, or the assertion on the distance of breakpoints fails; it cannot fail if no breakpoint is cut off, or if all breakpoints and domain ends are told apart by the comparison with eps (then also no breakpoint inside the common domain is lost). Subtraction does the same with differences, because rounding to nearest even is symmetric. Domains that do not overlap are rejected. Hence the edge load - the difference of two accumulated flows that start with 0 at time 0 and have breakpoints the constructor accepts - is computed without an exception, is exactly 0 until time 0 and is the rounded difference of the two flows at its breakpoints.", "quantifier": "all piecewise linear functions with float data, all monotone idempotent roundings under which unequal floats have a non-zero difference (for subtraction: symmetric), in particular binary64 without overflow", "why_tests_cant": "universally quantified over functions and roundings", "anchors": ["src/utilities/piecewise_linear.py:PiecewiseLinear.plus", "src/utilities/piecewise_linear.py:PiecewiseLinear.__neg__", "src/utilities/piecewise_linear.py:PiecewiseLinear.__sub__", "src/utilities/arrays.py:merge_sorted", "src/core/dynamic_flow.py:DynamicFlow.get_edge_loads"]}
