#!/usr/bin/env python3
"""Generates /verif/properties.jsonl (kept as source so entries stay uniform)."""
import json, os
P = []
def p(title, statement, quantifier, why, anchors):
    P.append(dict(id="C%02d" % (len(P) + 1), title=title, statement=statement,
                  quantifier=quantifier, why_tests_cant=why, anchors=anchors))
A = "src/utilities/arrays.py"; PLF = "src/utilities/piecewise_linear.py"; RC = "src/utilities/right_constant.py"
PQ = "src/utilities/queues.py"; DF = "src/core/dynamic_flow.py"; FR = "src/core/flow_rates_collection.py"
FB = "src/core/flow_builder.py"; DJ = "src/core/dijkstra.py"; BF = "src/core/bellman_ford.py"; AE = "src/core/active_edges.py"
G = "src/core/graph.py"; N = "src/core/network.py"; PR = "src/core/predictors/"

p("elem_rank returns the rank",
  "For every non-empty non-decreasing list arr and every x, elem_rank(arr, x) terminates without exception and returns the unique i in -1..len(arr)-1 with arr[i] < x <= arr[i+1] (arr[-1] = -inf, arr[len] = +inf).",
  "all non-empty sorted lists of any length, all query points",
  "binary search boundaries depend on length parity and ties; tests sample a handful of lists", [A+":elem_rank"])
p("elem_lrank returns the lower rank",
  "For every non-empty non-decreasing list arr and every x, elem_lrank(arr, x) terminates without exception and returns the unique i in -1..len(arr)-1 with arr[i] <= x < arr[i+1].",
  "all non-empty sorted lists, all query points", "as C01", [A+":elem_lrank"])
p("merge_sorted merges without near-duplicates",
  "For all non-decreasing inputs, merge_sorted returns a list in which every entry is an input entry, consecutive entries are more than eps apart, every input entry is <= the last output entry; and if distinct input entries are more than eps apart the output contains exactly the union of the inputs.",
  "all pairs of sorted lists", "interaction of ties, eps-close values and exhaustion order cannot be enumerated", [A+":merge_sorted"])
p("merge_sorted_many merges without near-duplicates",
  "Same as C03 for any number of sorted lists; the result is independent of how entries are distributed when distinct entries are more than eps apart.",
  "all finite families of sorted lists", "as C03, for any number of arrays", [A+":merge_sorted_many"])
p("merging moves no breakpoint by more than eps",
  "Every input entry of merge_sorted has an output entry within eps of it.",
  "all pairs of sorted lists whose own entries are more than eps apart", "the replacement rule merged[-1] = v can chain; a chain of n points needs a constructed input", [A+":merge_sorted", A+":merge_sorted_many"])
p("PiecewiseLinear evaluation is linear interpolation",
  "For every constructed function f and every time t in its domain, f(t) raises nothing, equals values[0]+(t-times[0])*first_slope left of the first breakpoint, the affine interpolation between neighbouring breakpoints, and values[-1]+(t-times[-1])*last_slope right of the last; outside the domain it raises. At +-inf the result is the limit (values[...] for slope 0).",
  "all valid breakpoint lists, slopes, domains and times", "universally quantified over functions and points", [PLF+":PiecewiseLinear.eval", PLF+":PiecewiseLinear._eval_with_rank", PLF+":PiecewiseLinear.gradient"])
p("all evaluation routes agree",
  "eval_from_end(t) == eval(t) for every t; eval_sorted_array(ts) == [eval(t) for t in ts] for every non-decreasing list ts inside the domain, of any length, with repeated entries.",
  "all functions and all sorted query arrays", "divide-and-conquer index arithmetic depends on array length and the location of the queries", [PLF+":PiecewiseLinear.eval_sorted_array", PLF+":PiecewiseLinear._recursive_eval_sorted_array", PLF+":PiecewiseLinear._find_rnk_between", PLF+":PiecewiseLinear.eval_from_end"])
p("sum, negation and difference are pointwise",
  "f+g, -f and f-g are defined exactly on the intersection of the domains and (f+g)(t)=f(t)+g(t), (-f)(t)=-f(t), (f-g)(t)=f(t)-g(t) for every t there, whenever distinct breakpoints and domain ends of f and g are more than eps apart; construction then raises nothing.",
  "all pairs of functions with separated breakpoints, all times", "needs every relative position of breakpoints and domain ends", [PLF+":PiecewiseLinear.plus", PLF+":PiecewiseLinear.__neg__", PLF+":PiecewiseLinear.__sub__"])
p("simplify preserves the function",
  "simplify() returns a function equal to the original at every time when every slope change is either zero or at least 1000*eps; in general it does not (slow drift is dropped).",
  "all functions, all times", "accumulated dropped breakpoints need long inputs", [PLF+":PiecewiseLinear.simplify"])
p("restrict preserves values",
  "f.restrict(d) is defined exactly on d and agrees with f at every time of d, for every sub-interval d with a finite left end or a breakpoint inside.",
  "all functions, all sub-domains, all times", "index arithmetic at the cut ends", [PLF+":PiecewiseLinear.restrict"])
p("extend_with_slope only changes the future",
  "After f.extend_with_slope(t, s) every value at times <= t is unchanged and f continues from f(t) with slope s (exactly, when t is the last breakpoint or more than eps after it and s is the old slope or differs by more than eps); breakpoints stay valid; cached values are never stale.",
  "all functions and all sequences of extensions and evaluations", "histories of extensions interleaved with cached evaluations", [PLF+":PiecewiseLinear.extend_with_slope"])
p("inverse, min_t_above and max_t_below",
  "On a monotone function with non-negative outer slopes: min_t_above(b) is the least domain time with f(t) >= b, max_t_below(b) the greatest domain time with f(t) <= b, and inverse(x, i) returns t in segment i with f(t) = x.",
  "all monotone functions, all bounds", "plateaus, ties and unbounded ends", [PLF+":PiecewiseLinear.inverse", PLF+":PiecewiseLinear.min_t_above", PLF+":PiecewiseLinear.max_t_below"])
p("compose is function composition",
  "g.compose(f)(t) == g(f(t)) for every t in f's domain, for monotone f with image inside g's domain, when the generated breakpoints are more than eps apart.",
  "all pairs of functions, all times", "breakpoint interleavings, plateaus of f, domain ends", [PLF+":PiecewiseLinear.compose"])
p("minimum is the pointwise minimum",
  "f.minimum(g)(t) == min(f(t), g(t)) for every t in the common domain.",
  "all pairs of functions with a breakpoint at the common domain start", "needs adversarial crossing positions after the last breakpoint", [PLF+":PiecewiseLinear.minimum", PLF+":PiecewiseLinear.outer_minimum"])
p("smaller_equals decides pointwise order up to tolerance",
  "If f <= g everywhere then f.smaller_equals(g) is True; if it returns True then f(t) <= g(t) + tolerance for every t up to the last breakpoint, with the excess growing at most at rate tolerance afterwards (tolerance = 1000*eps).",
  "all pairs of functions starting at the same domain start", "two-pointer sweep over arbitrary breakpoint interleavings", [PLF+":PiecewiseLinear.smaller_equals"])
p("integrate is the exact integral",
  "For a non-negative-valued f and start < end in the domain, integrate(start, end) equals the exact integral of f, i.e. F(end)-F(start) for every F whose increment over any interval inside one linear piece is the trapezoid area; it is additive over adjacent intervals.",
  "all functions, all intervals", "start/end relative to breakpoints", [PLF+":PiecewiseLinear.integrate"])
p("ensure_monotone gives the monotone envelope",
  "ensure_monotone(False) returns a function with non-decreasing values and non-negative outer slopes whose breakpoint values are the running maxima; an already monotone function is returned unchanged.",
  "all functions", "running maximum over unbounded length", [PLF+":PiecewiseLinear.ensure_monotone"])
p("RightConstant evaluation",
  "For every right-constant function with strictly increasing times and every t in the domain, f(t) is the value of the last breakpoint at or before t (the first value before all breakpoints); eval and eval_from_end agree; outside the domain both raise.",
  "all step functions, all times", "universally quantified", [RC+":RightConstant.eval", RC+":RightConstant.eval_from_end", RC+":RightConstant._eval_with_lrank"])
p("RightConstant.extend only changes the future",
  "extend(t, v) leaves f unchanged before t and makes f equal v from t on (when t is the last breakpoint or more than eps later and v is the last value or differs by more than eps); times stay strictly increasing.",
  "all step functions and all extension sequences", "histories", [RC+":RightConstant.extend"])
p("RightConstant addition is pointwise",
  "f+g, sum([...]), -f, f-g evaluate pointwise to the sum/negation/difference at every time, when distinct breakpoints are more than eps apart.",
  "all (families of) step functions, all times", "pointer sweeps over arbitrary interleavings", [RC+":RightConstant.__radd__", RC+":RightConstant.sum", RC+":RightConstant.__sub__"])
p("RightConstant.integral is the antiderivative",
  "integral() is 0 at the first breakpoint, its increment over every interval on which f is constant is value*length, and it never raises for eps-separated breakpoints starting at the domain start with one unit of slack at the end.",
  "all step functions, all intervals", "universally quantified", [RC+":RightConstant.integral"])
p("RightConstant.simplify preserves the function",
  "simplify() preserves every value when consecutive values are equal or differ by at least 1000*eps; in general it may drift by an unbounded amount.",
  "all step functions", "drift needs long inputs", [RC+":RightConstant.simplify"])
p("PriorityQueue behaves like an abstract keyed min-queue",
  "For every history of construction, push, pop, set, update, decrease_key, remove and queries, the queue behaves like a finite map item -> (key, insertion number): len, membership, key_of, min_key, next reflect the map; pop removes and returns the item with the least (key, insertion number).",
  "all operation histories", "heap shape depends on the entire history", [PQ+":PriorityQueue"])
p("draining a PriorityQueue yields sorted order, FIFO on ties",
  "Popping until empty returns each stored item exactly once in non-decreasing key order, equal keys in insertion order; sorted() returns the same order without changing the queue.",
  "all reachable queues", "unbounded drains", [PQ+":PriorityQueue.pop", PQ+":PriorityQueue.sorted"])
p("increase_key raises the key",
  "After increase_key(item, k) with k >= old key, key_of(item) == k and the heap remains valid.",
  "all reachable queues", "the branch structure never writes the new entry; unused in the simulator so no test reaches it", [PQ+":PriorityQueue.increase_key"])
p("rate snapshots are served in time order",
  "For every history of extend calls and get_values_at_time queries with non-decreasing query times, get_values_at_time(t) returns the rates of the latest appended item whose time is <= t; querying a time before an already discarded item raises ValueError.",
  "all histories of extensions and queries", "destructive linked-list head advance", [FR+":FlowRatesCollection.get_values_at_time", FR+":FlowRatesCollection.extend"])
p("per-commodity rate functions agree with snapshots",
  "For every history of extensions with eps-separated times and rates, the rate function of commodity i at time t equals the rate of i in the latest snapshot at or before t (0 if absent).",
  "all extension histories, all commodities, all times", "two redundant representations updated incrementally", [FR+":FlowRatesCollection.extend", FR+":FlowRatesCollection._new_flow_fn"])
p("accumulative is the integral of the total rate",
  "The accumulative function of a collection built by extensions has, between consecutive extension times, the total rate as slope, and starts at 0.",
  "all extension histories", "incremental extension of an antiderivative", [FR+":FlowRatesCollection.extend", FR+":FlowRatesCollection.accumulative"])
p("pickling a rate collection preserves behaviour",
  "Unpickling a pickled collection yields a collection with the same remaining snapshots, functions and accumulative, so all later queries and extensions behave identically.",
  "all reachable collections and all continuations", "needs every reachable linked-list state", [FR+":FlowRatesCollection.__getstate__", FR+":FlowRatesCollection.__setstate__"])
p("queue-depletion bookkeeping stays coupled",
  "For every history of set/remove/pop, the scheduled depletions, change times and change values stay in step: an edge has a planned change iff its last set supplied one, and popping returns the earliest depletion with exactly that change.",
  "all operation histories", "three containers updated in step", [DF+":DepletionQueue"])
p("flow extension advances time to the next event and reports it",
  "Each extend call moves phi forward (never back), never beyond max_extension_time, never past a scheduled outflow change; the returned set is exactly the set of edges with an outflow change at the new phi.",
  "all networks, all sequences of extend calls", "depends on the whole event history", [DF+":DynamicFlow.extend", DF+":DynamicFlow._process_depletions"])
p("flow extension never raises on valid input",
  "For every network with positive capacities and non-negative travel times and every sequence of extend calls with positive rates on existing edges and max_extension_time >= phi, no assertion or other exception is raised.",
  "all valid histories", "internal assertions on derived event times", [DF+":DynamicFlow.extend", DF+":DynamicFlow._extend_case_i", DF+":DynamicFlow._extend_case_ii", DF+":DynamicFlow._extend_case_iii"])
p("queues are never negative",
  "At every time up to phi, every edge queue is non-negative (and 0 before any inflow). (On clean histories, where no comparison with tolerance eps identifies two distinct numbers; C116 shows what happens otherwise.)",
  "all valid histories, all edges, all times <= phi", "quantifies over histories and times", [DF+":DynamicFlow.queues"])
p("outflow respects capacity and proportions",
  "Every outflow snapshot of an edge has total rate at most its capacity and splits the total among commodities in the proportions of the inflow that generated it.",
  "all valid histories", "depends on case distinction history", [DF+":DynamicFlow._extend_case_ii", DF+":DynamicFlow._extend_case_iii"])
p("mass conservation on edges",
  "For every edge and every t <= phi: queue(t) = cumulative inflow(t) - cumulative outflow(t + travel_time), hence nothing is lost or created on an edge. (On clean histories, where no comparison with tolerance eps identifies two distinct numbers; C116 shows what happens otherwise.)",
  "all valid histories, all edges, all times", "needs the whole trajectory", [DF+":DynamicFlow.extend", DF+":DynamicFlow.get_edge_loads"])
p("queues operate at capacity",
  "Whenever the queue of an edge is positive at time t < phi (outside the eps band around capacity), the edge's total outflow rate at t + travel_time is its capacity; when the queue is empty it equals the inflow rate (capped). (On clean histories, where no comparison with tolerance eps identifies two distinct numbers; C116 shows what happens otherwise.)",
  "all valid histories, all edges, all times", "needs the whole trajectory", [DF+":DynamicFlow.extend"])
p("node balance in one builder step",
  "For every handled node v and every commodity not sinking in v, the inflow assigned to v's outgoing edges sums to the commodity's outflow from incoming edges plus its network inflow (if at least eps, otherwise 0), split equally over the active edges; no other edge of v receives that commodity; sinks absorb.",
  "all networks, flow states and routing decisions", "quantifies over networks and states", [FB+":FlowBuilder._determine_new_inflow"])
p("flow conservation along the whole run",
  "In every flow produced by build_flow, at every node, for every commodity (not at its sink) and every time up to phi, the rates sent into the outgoing edges sum to the rates arriving through incoming edges plus the network inflow, except that a sum below eps is dropped; nothing is sent on at the sink.",
  "all networks, predictors, inflow rates, reroute intervals, times", "unbounded executions", [FB+":FlowBuilder.build_flow"])
p("the builder makes progress and reroutes on schedule",
  "Each iteration handles every due network inflow change, recomputes routes exactly when phi reaches the next reroute time, and never skips a reroute time or a network inflow change (for every finite positive reroute interval).",
  "all runs", "unbounded executions", [FB+":FlowBuilder.build_flow"])
p("reverse_dijkstra computes near-exact distances",
  "For non-negative costs, reverse_dijkstra terminates; every returned distance is the cost of an actual path to the sink inside the node set, no edge can improve it by eps or more, and exactly the nodes that reach the sink inside the node set are labelled.",
  "all graphs, costs, node sets", "all graphs and tie patterns", [DJ+":reverse_dijkstra"])
p("dynamic_dijkstra computes earliest arrivals",
  "For non-negative FIFO costs, every returned arrival time is the earliest arrival over all walks from source starting at phi inside relevant nodes, and every node with earlier arrival than the sink's is labelled.",
  "all graphs and FIFO cost functions", "all graphs; FIFO is an assumption on functions", [DJ+":dynamic_dijkstra"])
p("active edges lie on shortest paths",
  "get_active_edges_from_dijkstra returns, without raising when sink was reached and differs from source, a non-empty duplicate-free list of edges leaving source, each starting a walk to the sink whose every edge is tight within eps.",
  "all Dijkstra results", "all graphs and tie patterns", [DJ+":get_active_edges_from_dijkstra", FB+":FlowBuilder._get_active_edges"])
p("bellman_ford labels are earliest arrivals",
  "bellman_ford(sink, costs, interesting_nodes, phi, horizon) labels exactly the nodes from which the sink can be reached through interesting nodes within [phi, horizon]; every label value at time t is the arrival time of an actual walk leaving at t, and no walk arrives earlier (up to the comparison tolerance per edge).",
  "all graphs, non-negative FIFO cost functions, sets of interesting nodes, start times and horizons", "the labels depend on every walk of the graph and every departure time; the piecewise linear operations in between must not lose anything on any input", [BF+":bellman_ford"])
p("active_edges module",
  "get_active_edges returns the outgoing edges of source on earliest-arrival paths, for strong FIFO and for weak FIFO costs.",
  "all graphs and costs", "the weak FIFO branch is never exercised", [AE+":backward_search", AE+":get_active_edges"])
p("reachability queries are exact",
  "get_reachable_nodes(s) / get_nodes_reaching(t) terminate and return exactly the nodes reachable from s / reaching t.",
  "all graphs", "all graphs", [G+":DirectedGraph.get_reachable_nodes", G+":DirectedGraph.get_nodes_reaching"])
p("graph incidence stays consistent",
  "For every sequence of add_edge calls, edge ids are positions, each edge is listed exactly once in the outgoing list of its tail and the incoming list of its head; reverse() swaps directions and is an involution.",
  "all construction histories, also on reversed graphs", "histories", [G+":DirectedGraph.add_edge", G+":DirectedGraph.reverse"])
p("graphs and networks survive pickling",
  "Pickling and unpickling a graph preserves its edges, directions and adjacency; for networks also capacities, travel times and commodities.",
  "all graphs/networks", "all graphs incl. reversed and isolated nodes", [G+":DirectedGraph.__getstate__", G+":DirectedGraph.__setstate__", N+":Network.__getstate__", N+":Network.__setstate__"])
p("edge removal keeps attributes aligned",
  "After any sequence of edge insertions and removals, capacity[e.id] and travel_time[e.id] are the values given for edge e, ids are positions.",
  "all histories of add_edge/_remove_edge", "renumbering after deletion", [N+":Network._remove_edge", N+":Network.add_edge"])
p("network clean-up functions work on networks with commodities",
  "remove_unnecessary_nodes, remove_unnecessary_commodities and compress_lonely_nodes complete on networks with commodities.",
  "all networks with a commodity", "they read an attribute that commodities do not have", [N+":Network.remove_unnecessary_nodes", N+":Network.remove_unnecessary_commodities", N+":Network.compress_lonely_nodes"])
p("combining commodities preserves demand",
  "combine_commodities_with_same_sink preserves, for every (predictor, sink, source) and time, the total network inflow; afterwards at most one non-exempt commodity per (predictor, sink) exists; exempt commodities are unchanged.",
  "all commodity lists", "all groupings", ["src/utilities/combine_commodities.py:combine_commodities_with_same_sink"])
p("constant and zero predictions",
  "The constant predictor predicts for every edge and every time the queue length at prediction time; the zero predictor predicts 0.",
  "all flows, prediction times, times", "universally quantified", [PR+"constant_predictor.py:ConstantPredictor.predict", PR+"zero_predictor.py:ZeroPredictor.predict"])
p("(regularised) linear predictions are non-negative queue lengths",
  "The linear and regularised linear predictors predict the current queue at prediction time, extrapolate the current slope over the horizon, and never predict a negative queue.",
  "all flows and prediction times", "needs a flow whose queue has just run empty", [PR+"linear_predictor.py:LinearPredictor.predict", PR+"reg_linear_predictor.py:RegularizedLinearPredictor.predict"])
p("learned predictions are post-processed to FIFO, non-negative queues",
  "Whatever the learned model returns, the predicted queue starts at the current queue, is non-negative and never falls faster than the edge capacity per unit of prediction time.",
  "all model outputs", "model output is arbitrary", [PR+"sk_full_net_predictor.py:SKFullNetPredictor.predict", PR+"sk_neighborhood_predictor.py:SKNeighborhoodPredictor.predict"])
p("predict and batch_predict agree",
  "batch_predict(ts, flow)[k] is the same prediction as predict(ts[k], flow).",
  "all model oracles, flows, prediction times, masks", "two independent implementations", [PR+"sk_full_net_predictor.py", PR+"sk_neighborhood_predictor.py"])
p("neighbourhoods contain the edges within the given distance",
  "get_neighboring_edges_forward/backward/undirected(e, d) return exactly the edges within d steps of e.",
  "all graphs, edges, distances", "needs distance >= 2", ["src/ml/neighboring_edges.py"])
p("is_positive_during decides positivity on an interval",
  "is_positive_during(f, a, b) is True iff f(t) > eps for some t in [a, b), for a < b.",
  "all step functions and intervals", "interval ends on breakpoints", ["src/eval/predicted_delay.py:is_positive_during"])
p("training samples are aligned with prediction inputs",
  "For every valid index, the dataset sample is in range, its phi is the sample's time, its past window ends at phi and its future window starts one prediction interval later, in the layout the predictor uses at run time.",
  "all dataset sizes, strides, indices", "index arithmetic", ["src/ml/QueueAndEdgeLoadsDataset.py:QueueAndEdgeLoadDataset.__getitem__"])
p("file locks give mutual exclusion and are released",
  "Two processes never run the handler of the same file at once; a process that finds a lock or finished output skips; the lock is removed when the handler returns or raises.",
  "all interleavings and crash points", "schedules", ["src/utilities/file_lock.py:with_file_lock"])
p("visualisation merge preserves totals",
  "merge_commodities preserves the total rate over the merged commodities at every time and leaves other commodities unchanged.",
  "all flows and commodity sets", "universally quantified", ["src/visualization/to_json.py:merge_commodities"])
p("average travel time is the mean time in the network",
  "avg_travel_time(i, H) = (integral over [0,H] of cumulative network inflow minus cumulative sink outflow) / cumulative inflow at H; it is non-negative when no more has left than entered.",
  "all flows and horizons", "universally quantified", [DF+":DynamicFlow.avg_travel_time"])
exec(open(os.path.join(os.path.dirname(__file__), "more_properties.py")).read()) if os.path.exists(os.path.join(os.path.dirname(__file__), "more_properties.py")) else None
with open(os.path.join(os.path.dirname(__file__), "..", "properties.jsonl"), "w") as f:
    for x in P:
        f.write(json.dumps(x) + "\n")
print(len(P))
