p("arg_min returns the first minimal item",
  "arg_min(list, key) is None on an empty list and otherwise the first item of the list whose key is minimal.",
  "all lists of any type, all key functions", "universally quantified", [A+":arg_min"])

p("edges are first-in first-out",
  "On every edge the exit time t + queue(t)/capacity + travel_time is non-decreasing in the entry time t up to phi: flow never overtakes earlier flow.",
  "all valid histories, all edges, all pairs of times up to phi", "universally quantified over histories and times", ["src/core/dynamic_flow.py:DynamicFlow.extend"])
p("flow leaves an edge in the proportions in which it entered",
  "Whenever flow enters an edge at time t < phi, the share of every commodity in the outflow rate at the exit time of t equals its share in the inflow rate at t.",
  "all valid histories, all edges, commodities and times", "universally quantified over histories and times", ["src/core/dynamic_flow.py:DynamicFlow.extend"])

p("reroute_interval=None reroutes at every event",
  "With reroute_interval=None the builder recomputes the routes whenever some outflow changes.",
  "all networks, predictors and runs", "universally quantified over runs", ["src/core/flow_builder.py:FlowBuilder.build_flow", "src/core/flow_builder.py:FlowBuilder.__init__"])

p("batch predictions can be turned into costs",
  "Every prediction returned by batch_predict for prediction time t can be converted by costs_from_preds(network, prediction, t) into cost functions, as predict's can.",
  "all learned predictors, masks, flows and prediction times", "universally quantified over masks, flows and times", ["src/eval/predicted_delay.py:costs_from_preds", "src/core/predictors/sk_full_net_predictor.py:SKFullNetPredictor.batch_predict", "src/core/predictors/tf_full_net_predictor.py:TFFullNetPredictor.batch_predict"])
p("edge loads are the flow on the edge",
  "get_edge_loads returns for every edge a function on the whole line that is 0 before time 0 and the cumulative inflow minus the cumulative outflow afterwards.",
  "all valid histories, edges and times", "universally quantified over histories and times", ["src/core/dynamic_flow.py:DynamicFlow.get_edge_loads"])
p("predictions give FIFO travel times",
  "The edge costs computed from a prediction made at time t are total from t on, at least the free-flow travel time, and first-in first-out, so that the shortest path searches they are used in satisfy their preconditions and never raise.",
  "all predictors, flows, networks and prediction times", "universally quantified over flows and times", ["src/core/flow_builder.py:FlowBuilder._get_costs", "src/eval/predicted_delay.py:costs_from_preds", "src/core/dijkstra.py:dynamic_dijkstra"])

p("the predicted delay of an edge is its detour",
  "get_pred_edge_delay returns 0 for an edge on a (nearly) shortest predicted path and otherwise how much later the sink is reached by first taking the edge; it raises KeyError when the sink cannot be reached over the edge and AssertionError when the edge starts in the sink.",
  "all graphs, total FIFO predicted costs, times and edges", "universally quantified over graphs, costs and times", ["src/eval/predicted_delay.py:get_pred_edge_delay"])
p("the maximal predicted delay is the maximum over all used edges",
  "approximate_max_predicted_delay returns for a commodity the maximum of 0 and the predicted delays, at both ends of every measurement interval, of the edges the commodity enters during the interval, with a witness attaining it.",
  "all flows, commodities, predictions and measurement grids", "universally quantified over flows and grids", ["src/eval/predicted_delay.py:approximate_max_predicted_delay"])
p("wait_for_locks waits until no lock is left",
  "wait_for_locks returns at the first directory listing without lock files, sleeping 1, 2, 4, 8, 16, 30, 30, ... seconds in between; while some lock (for instance a stale one) stays it never returns.",
  "all sequences of directory listings", "unbounded waiting", ["src/utilities/file_lock.py:wait_for_locks"])
p("every training row holds the sample of its prediction time",
  "generate_training_data_with_edge_loads saves for every flow an array whose row i holds the past queues, past loads and future queues around prediction time i * reroute_interval.",
  "all flows, horizons, intervals and numbers of timesteps", "universally quantified over flows", ["src/ml/generate_queues.py:generate_training_data_with_edge_loads"])
p("column e[t] of the expanded queues holds the queue t steps ahead",
  "In the samples written by expanded_queues_from_flows the column e[t] holds the queue of the edge at phi + t * step_length: past queues for t < 0, future queues for t > 0.",
  "all flows, edges, sample times and step lengths", "universally quantified over flows", ["src/ml/generate_queues.py:expanded_queues_from_flows"])
p("cached methods never return stale results",
  "PiecewiseLinear.gradient, the evaluation and compose are memoised although the objects are mutable: in every history of calls, whatever was queried before, each call returns what it would return without any cache; in DynamicFlow the direct writes to queue values keep this true.",
  "all histories of constructor, arithmetic, query and update calls on any number of functions; all flow runs", "universally quantified over histories and cache states (evictions included)", ["src/utilities/piecewise_linear.py:PiecewiseLinear._eval_with_rank", "src/utilities/piecewise_linear.py:PiecewiseLinear.gradient", "src/utilities/piecewise_linear.py:PiecewiseLinear.compose", "src/utilities/piecewise_linear.py:PiecewiseLinear.extend_with_slope", "src/core/dynamic_flow.py:DynamicFlow._process_depletions"])
p("extending a function changes no other function",
  "extend_with_slope changes the function it is called on and no other function, also not one that was computed from it or that it was computed from.",
  "all histories of calls on any number of functions", "universally quantified over histories and aliasing patterns", ["src/utilities/piecewise_linear.py:PiecewiseLinear.extend_with_slope", "src/utilities/piecewise_linear.py:PiecewiseLinear.__neg__", "src/utilities/piecewise_linear.py:PiecewiseLinear.compose"])
p("flow is routed along predicted shortest paths",
  "At every time t of the computed flow a commodity enters an edge only if, for the queues its predictor predicted for the last rerouting time T (the multiple of reroute_interval with T <= t < T + reroute_interval), the edge starts a shortest route from its tail to the commodity's sink, up to the tolerance eps per edge; predictors flagged constant are routed by the first predicted value of every edge, all others by time-dependent earliest arrivals.",
  "all networks, commodities, predictors, reroute intervals, numbers of rounds and times", "universally quantified over networks, predictors and unbounded runs", ["src/core/flow_builder.py:FlowBuilder._get_active_edges", "src/core/flow_builder.py:FlowBuilder._get_costs", "src/core/flow_builder.py:FlowBuilder._determine_new_inflow", "src/core/dijkstra.py:get_active_edges_from_dijkstra"])
p("the computed part of a flow is final",
  "Further extend calls change no inflow or outflow rate before the phi they started from and no queue length up to it.",
  "all valid histories and all continuations", "universally quantified over histories and their continuations", ["src/core/dynamic_flow.py:DynamicFlow.extend", "src/core/dynamic_flow.py:DynamicFlow._process_depletions"])
p("with the constant predictor the builder computes an instantaneous dynamic equilibrium",
  "For a commodity using the constant predictor, flow enters an edge at time t only if the edge starts a shortest route to the sink for the travel times tau_e + q_e(T)/cap_e given by the computed queues at the last rerouting time T <= t; with the zero predictor the travel times are tau_e.",
  "all networks, commodities, reroute intervals, numbers of rounds and times", "universally quantified over networks and unbounded runs", ["src/core/flow_builder.py:FlowBuilder.build_flow", "src/core/predictors/constant_predictor.py:ConstantPredictor.predict", "src/core/predictors/zero_predictor.py:ZeroPredictor.predict"])
p("building a flow never raises",
  "Constructing a FlowBuilder and starting build_flow succeeds iff every commodity's sink is a node reachable from all of its sources (otherwise AssertionError), and as long as the predictors return usable predictions (constant and zero predictor always do) and queues are computed cleanly, every further round yields a flow: no assertion, KeyError, IndexError or division error.",
  "all networks, commodities, reroute intervals, predictors and numbers of rounds", "universally quantified over networks, predictors and unbounded runs", ["src/core/flow_builder.py:FlowBuilder.__init__", "src/core/flow_builder.py:FlowBuilder.build_flow", "src/core/flow_builder.py:FlowBuilder.get_active_edges", "src/core/dynamic_flow.py:DynamicFlow.extend"])
p("build_flow reaches every horizon",
  "If all travel times are positive, build_flow cannot yield infinitely many flows below any time t: for every t, after finitely many rounds flow.phi >= t, unless a round raises (which C78 excludes for clean computations with usable predictions).",
  "all networks with positive travel times, commodities, reroute intervals, predictors and horizons", "liveness over unbounded runs; a test sees only finitely many rounds of one network", ["src/core/flow_builder.py:FlowBuilder.build_flow", "src/core/dynamic_flow.py:DynamicFlow.extend"])

p("the Tokyo regression predictor predicts usable queues",
  "LinearRegressionPredictor.predict returns for every flow and prediction time one queue function per edge, never raises, never predicts a negative queue, predicts an empty queue iff the last five samples are zero and otherwise interpolates the fixed linear combinations of these samples; the predicted exit times are first-in first-out.",
  "all flows and prediction times", "universally quantified over flows and times", ["src/core/predictors/linear_regression_predictor.py:LinearRegressionPredictor.predict"])
p("the per-edge regression predictor extrapolates the past queues admissibly",
  "PerEdgeLinearRegressionPredictor.predict starts at the current queue, is never negative and falls no faster than the capacity, follows the model's answer to the queue history of the edge and its neighbours where that is admissible, and depends on nothing but queues up to the prediction time.",
  "all models, networks, flows and prediction times", "universally quantified over learned models and flows", ["src/core/predictors/per_edge_linear_regression_predictor.py:PerEdgeLinearRegressionPredictor.predict"])
p("the full-net regression predictor predicts from the masked edges' history",
  "FullNetLinearRegressionPredictor.predict answers for every prediction time up to flow.phi, gives the model exactly the queues and loads of the edges in its mask, and predicts for every edge in the mask an admissible queue following the model's answer for this edge, zero for all other edges.",
  "all models, masks, networks, flows and prediction times", "universally quantified over models, masks and flows", ["src/core/predictors/full_net_linear_regression_predictor.py:FullNetLinearRegressionPredictor.predict", "src/core/flow_builder.py:FlowBuilder.build_flow"])
p("expanded regression predictors return predictions",
  "The predictors made by ExpandedLinearRegressionPredictor.from_weka_model and from_scikit_model return one predicted queue per edge for every flow and prediction time.",
  "all coefficients/models, networks, flows and prediction times", "universally quantified over models and flows", ["src/core/predictors/expanded_linear_regression_predictor.py:ExpandedLinearRegressionPredictor.predict", "src/core/predictors/expanded_linear_regression_predictor.py:ExpandedLinearRegressionPredictor.from_scikit_model"])
p("the default batch_predict predicts every requested time",
  "Predictor.batch_predict raises ValueError iff no time is requested or some time lies beyond flow.phi; otherwise element i of its result is what predict returns for the i-th time, and it raises iff one of these calls does.",
  "all predictors, flows and lists of times", "universally quantified over predictors and lists", ["src/core/predictor.py:Predictor.batch_predict"])

p("the mean absolute error compares predictions with the queues at the predicted times",
  "evaluate_mean_absolute_error reports for every predictor the mean over all prediction times t = 0, r, 2r, ... (up to horizon - (future+1) prediction intervals), all k <= future and all edges of |predicted queue at t + k * prediction_interval made at t - queue of the flow at that same time|.",
  "all flows, predictors, horizons and intervals", "universally quantified over flows, predictors and grids", ["src/eval/evaluate.py:evaluate_mean_absolute_error"])
p("the optimal average travel time is that of earliest arrivals",
  "calculate_optimal_average_travel_time returns the average, over departures from the source until the inflow horizon, of the earliest arrival time in the computed flow minus the departure time, where departures that cannot arrive by the horizon count as travelling until the horizon.",
  "all flows, networks, commodities with one source, horizons and inflow horizons", "universally quantified over flows and networks", ["src/eval/evaluate.py:calculate_optimal_average_travel_time", "src/core/bellman_ford.py:bellman_ford"])
p("build_with_times returns the first flow at or beyond the horizon",
  "build_with_times consumes build_flow until flow.phi >= horizon and returns exactly that flow; it stops after finitely many rounds, and neither logging nor observed commodities change what is returned.",
  "all networks, commodities, predictors, horizons, log settings and clocks", "universally quantified over unbounded runs and wall-clock behaviour", ["src/utilities/build_with_times.py:build_with_times"])
p("evaluating a commodity keeps the total demand",
  "evaluate_single_run with split replaces the focused commodity by one commodity per predictor with equal shares of its inflow: the demand between every pair of nodes at every time is unchanged; without split it only adds the documented test demand per predictor. The indices it evaluates are those of the new commodities. A commodity without exactly one source is rejected with ValueError.",
  "all networks, commodities, predictors and inflow functions", "universally quantified over networks and inflow functions", ["src/eval/evaluate.py:evaluate_single_run", "src/utilities/combine_commodities.py:combine_commodities_with_same_sink"])
p("importing a network keeps every edge",
  "network_from_csv and import_network build a network with exactly the edges of the file, in order and with the documented travel times (length / free-flow speed, default speed 20) and capacities (lanes * speed); the csv import leaves out loops. add_demands_to_network adds the demands of the file as commodities.",
  "all files, rows and node ids", "universally quantified over files of any length", ["src/importer/csv_importer.py:network_from_csv", "src/importer/csv_importer.py:add_demands_to_network", "src/importer/tntp_importer.py:import_network"])
p("trips of a tntp file become commodities one by one",
  "add_commodities adds for every entry 'destination : demand' in a block 'Origin o' of a tntp trips file one commodity from o to the destination with that demand until the inflow horizon, in the order of the file, whatever the blanks, line breaks and header; entries with a wrong number of colons and entries with nodes that are not in the network raise.",
  "all file contents of the format, networks and inflow horizons", "universally quantified over texts", ["src/importer/tntp_importer.py:add_commodities", "src/importer/sioux_falls_importer.py:add_od_pairs", "src/scenarios/scenario_utils.py:get_demand_with_inflow_horizon"])
p("random demands change inflow rates only",
  "generate_network_demands keeps the graph, capacities, travel times, commodities, sinks, predictors and source nodes; the k-th source gets max(0, k-th normal draw around its old first rate) during the inflow horizon and nothing afterwards; the default deviation is half the smallest capacity.",
  "all networks, seeds, horizons and deviations", "universally quantified over networks and random draws", ["src/ml/build_test_flows.py:generate_network_demands", "src/scenarios/scenario_utils.py:get_demand_with_inflow_horizon"])
p("flow files have unique, sortable names and are found again",
  "The file names of the flows of build_flows and eval_network_demand are pairwise different, have equal length, and sort in the order of the seeds; a later call finds the flows computed before.",
  "all numbers of flows and seeds", "universally quantified over numbers of flows", ["src/ml/build_test_flows.py:build_flows", "src/eval/evaluate_network.py:eval_network_demand"])
p("visualisations of an evaluation show the evaluated commodities separately",
  "The visualisation written by eval_network_demand merges the background commodities of the network and keeps each evaluated commodity on its own.",
  "all networks, focused commodities and predictors", "universally quantified over networks", ["src/eval/evaluate_network.py:eval_network_demand", "src/visualization/to_json.py:merge_commodities", "src/eval/evaluate.py:evaluate_single_run"])
p("summaries of evaluations are averages over the runs",
  "generate_slowdown_boxplot and eval_jsons_to_avg_slowdowns report for every predictor its travel time relative to the optimum minus one, for exactly the runs in which two predictors differ, and the mean of these; they are non-negative if the optimum is; the printed mean travel time is the mean over the runs; the error boxplot uses every run.",
  "all numbers of runs, predictors and travel times", "universally quantified over sets of result files", ["src/eval/evaluate_network.py:generate_slowdown_boxplot", "src/eval/evaluate_network.py:eval_jsons_to_avg_slowdowns", "src/eval/evaluate_network.py:generate_mae_boxplot"])
p("parallel evaluations cover every commodity exactly once",
  "Several processes running eval_network_for_commodities in one directory evaluate every commodity, no commodity twice at the same time; a process only summarises when every commodity has a complete result; an exception or crash in one process does not keep the others from finishing.",
  "all numbers of processes and commodities, interleavings, exceptions and crash points", "schedules and crash points cannot be enumerated by tests", ["src/eval/evaluate_network.py:eval_network_for_commodities", "src/utilities/file_lock.py:wait_for_locks"])
p("interrupted evaluations can be repeated",
  "If a run of eval_network_demand for one flow is interrupted anywhere (exception or kill), running it again completes the flow, the evaluation and the visualisation; a run that is skipped has complete files.",
  "all histories of interrupted runs", "crash points and histories cannot be enumerated by tests", ["src/eval/evaluate_network.py:eval_network_demand", "src/eval/evaluate.py:evaluate_single_run", "src/utilities/file_lock.py:with_file_lock"])
p("a full-network predictor is used with the masks its model was trained with",
  "The training functions for full-network models return an input and an output mask; the model on disk was fitted to data selected by exactly these masks, and the masks mark the edges with a non-zero queue in the data. This holds for the call that trains and for every later call, also after failed trainings and with scikit-learn and tensorflow models in the same directory.",
  "all scenario directories, parameters and histories of (failed) trainings and added queue files", "histories of runs cannot be enumerated by tests", ["src/ml/SKFullNetworkModel.py:train_sk_full_net_model", "src/ml/TFFullNetworkModel.py:train_tf_full_net_model", "src/ml/QueueAndEdgeLoadsDataset.py:QueueAndEdgeLoadsDataset.load_mask"])
p("every edge with a queue gets a neighbourhood model",
  "train_sk_neighborhood_model and train_tf_neighborhood_model return a predictor that has one model for every edge marked by the output mask, fitted to the marked edges in the neighbourhood of that edge; when several processes train at once, each process returns only after all models exist.",
  "all networks, distances, data sets, previously trained models, numbers of processes and interleavings", "schedules and histories cannot be enumerated by tests", ["src/ml/SKNeighborhood.py:train_sk_neighborhood_model", "src/ml/TFNeighborhood.py:train_tf_neighborhood_model", "src/utilities/file_lock.py:with_file_lock"])
p("build_flows saves, hands over and draws every flow once",
  "build_flows writes every flow to disk, calls on_flow_computed exactly once for it and draws it if asked; runs after an interruption finish what is missing; a run that changes nothing found complete files.",
  "all histories of interrupted runs with any arguments", "crash points and histories cannot be enumerated by tests", ["src/ml/build_test_flows.py:build_flows", "src/visualization/to_json.py:to_visualization_json"])
p("iterating over the training data visits every sample once",
  "zip(*dataset) visits exactly the samples 0, ..., len(dataset)-1 in order, although the class defines no iterator; flows too short for one sample raise ZeroDivisionError.",
  "all recorded flows, parameters and masks", "universally quantified over data sets", ["src/ml/QueueAndEdgeLoadsDataset.py:QueueAndEdgeLoadsDataset.__getitem__", "src/ml/SKFullNetworkModel.py:train_sk_full_net_model"])
p("the comparison of prediction errors shows one point per predictor and run",
  "compare_mae_with_perf plots for every predictor one point per run in which predictors differ: the predictor's mean absolute error and the excess of its travel time over the optimum, in the order of the files; more errors than colours raise IndexError.",
  "all sets of result files", "universally quantified over sets of result files", ["src/eval/evaluate_network.py:compare_mae_with_perf"])
p("the diagrams of the sample network show the measured travel times",
  "eval_sample evaluates the demands step, 2*step, ..., up to the maximum; every point (x, y) of a curve in the diagram is the travel time y of that predictor measured for demand x, and the second diagram shows it relative to the optimum for the same demand.",
  "all evaluation results, step sizes and maximal demands", "universally quantified over results", ["src/eval/evaluate_sample.py:eval_sample", "src/eval/evaluate_sample.py:sample_from_file_to_tikz", "src/eval/evaluate_sample.py:sample_regrets_from_file_to_tikz"])
p("the visualisation file shows the network and the flow",
  "to_visualization_json writes a JSON document from which a reader recovers the nodes with positions, the edges in order with ends, capacities and transit times, the commodities' colours, and for every edge and commodity exactly the inflow and outflow rate functions and the queue of the flow, including infinite domain ends; after merge_commodities the merged commodity shows the total rate. Every network of the scenarios and examples can be drawn.",
  "all networks, flows, colour maps and numbers of commodities", "universally quantified over networks and flows", ["src/visualization/to_json.py:to_visualization_json", "src/utilities/json_encoder.py:JSONEncoder", "src/utilities/piecewise_linear.py:PiecewiseLinear.__json__", "src/utilities/right_constant.py:RightConstant.__json__"])
p("every commodity leaves an edge when it should",
  "For every edge, commodity and time t the flow has reached: the amount of the commodity that has left the edge by the time at which flow entering at t leaves it (t plus queue over capacity plus travel time) is the amount that has entered up to t; no commodity leaves earlier than the travel time after it entered, and the amount on the edge (get_edge_loads) lies between the queue and the queue plus capacity times travel time.",
  "all networks, sequences of extend calls, edges, commodities and times", "universally quantified over flow histories and times", ["src/core/dynamic_flow.py:DynamicFlow.extend", "src/core/dynamic_flow.py:DynamicFlow.get_edge_loads", "src/core/flow_rates_collection.py"])
p("all released flow is on the edges or has arrived",
  "At every time the computed flow has reached and for every commodity, the amount released at the sources (outside the sink) equals the amount that has arrived at the sink plus the amount on the edges, except for what build_flow drops at nodes whose supply is below eps (at most eps per node and unit of time, nothing if no supply is that small); in particular never more arrives than was released.",
  "all networks, commodities, network inflows, predictors, reroute intervals, numbers of rounds and times", "universally quantified over runs and times", ["src/core/flow_builder.py:FlowBuilder.build_flow", "src/core/flow_builder.py:FlowBuilder._determine_new_inflow", "src/core/dynamic_flow.py:DynamicFlow.extend"])
p("the expanded queue table holds every recorded queue",
  "expanded_queues_from_flows writes one row for every flow, sample time and edge with some non-zero recorded queue, in this order; the cell of column e[t] is the queue of the edge at phi - step_length * t, the cell of column i{k}[t] that of the k-th edge into its tail (blank if there is none), and every recorded queue has a cell.",
  "all networks, lists of flows, horizons, step lengths and numbers of timesteps", "universally quantified over networks and flows", ["src/ml/generate_queues.py:expanded_queues_from_flows"])
p("the per-edge tables hold the queues around every edge",
  "expanded_queues_from_flows_per_edge writes for every edge a table with one row per flow and sample time and one column per neighbouring edge and past step (for the edge itself also per future step), without duplicate columns; the cell is the queue at phi - step_length * t, or with average=True the average queue over the step before; it succeeds also when there is nothing to sample.",
  "all networks, edges, lists of flows, horizons, step lengths and numbers of timesteps", "universally quantified over networks and flows", ["src/ml/generate_queues.py:expanded_queues_from_flows_per_edge"])
p("generate_queues samples every queue on the grid",
  "generate_queues writes for every flow an array whose row e, column j is the queue of edge e at time -past_timesteps + j * step_length, up to the last such time within the horizon.",
  "all flows, horizons and step lengths", "universally quantified over flows", ["src/ml/generate_queues.py:generate_queues"])
p("generate_queues_and_edge_loads gives every saved flow its array",
  "generate_queues_and_edge_loads writes for every flow file of the directory the array of its samples under the flow's id, keeps arrays and other files that exist, leaves no lock, can be repeated without effect, ignores files that are no flows (lock files in particular), and after an interruption a later call completes the work.",
  "all directories of flows and arrays, all flows", "universally quantified over directories", ["src/ml/generate_queues.py:generate_queues_and_edge_loads", "src/utilities/file_lock.py:with_file_lock"])
p("saved flows can be read back by every function that takes a directory of flows",
  "generate_queues, generate_training_data_with_edge_loads, expanded_queues_from_flows, expanded_queues_from_flows_per_edge and shallow_evaluate_predictors read the flow files that build_flows writes and write their outputs for them; a call that fails can be repeated.",
  "all directories of flows written by build_flows, all output directories", "universally quantified over directories", ["src/ml/build_test_flows.py:build_flows", "src/ml/generate_queues.py", "src/scenarios/sioux_falls_scenario.py:shallow_evaluate_predictors"])
p("the data set holds the flows in the order of their numbers",
  "After build_flows and generate_queues_and_edge_loads the data set of the queue folder is built from the arrays of the flows 0, ..., n-1, each once and in this order, whatever other files the directories hold.",
  "all numbers of flows, all flows", "universally quantified over the number of flows", ["src/ml/QueueAndEdgeLoadsDataset.py:QueueAndEdgeLoadsDataset.__init__", "src/ml/generate_queues.py:generate_queues_and_edge_loads", "src/ml/build_test_flows.py:build_flows"])
p("every training flow of a well posed scenario is computed",
  "If all travel times and capacities of the map are positive, every destination of the table can be reached from its origin and the inflow lasts longer than 1e-9, then adding the commodities, saving and loading the network, drawing the demands of a seed and merging commodities with the same destination never raises; the flow builder gets the unchanged map, one commodity per destination and, during the inflow, for each origin exactly the sum of the rates drawn for its entries; and build_with_times returns a flow up to the horizon. The shipped nguyen and sample scenarios are such scenarios.",
  "all maps, tables of demands, random draws, deviations, rerouting intervals, horizons and set orders", "universally quantified over maps, tables and random draws", ["src/ml/build_test_flows.py:build_flows", "src/scenarios/nguyen_scenario.py:run_scenario", "src/scenarios/nguyen_scenario.py:build_nguyen_network", "src/scenarios/sample_scenario.py:run_scenario", "src/utilities/combine_commodities.py:combine_commodities_with_same_sink"])
p("an evaluation run compares the predictors under equal conditions",
  "eval_network_demand, for a well posed scenario (C112) and any focused commodity: loading, drawing demands, merging and adding the test commodities never raises; the map is unchanged; there is one test commodity per predictor, all with the same source, destination and inflow (an equal share of the focused demand when splitting, otherwise at least a 256th of the least capacity); the total demand of all others is what was drawn; the flow builder accepts it, and with answering predictors the flow is computed up to the horizon; the average travel time of every test commodity can be computed.",
  "all maps, tables of demands, draws, focused commodities, sets of predictors, split or not", "universally quantified over scenarios and random draws", ["src/eval/evaluate_network.py:eval_network_demand", "src/eval/evaluate.py:evaluate_single_run", "src/ml/build_test_flows.py:generate_network_demands"])
p("switching assertions off (PYTHONOPTIMIZE) changes no result",
  "The evaluation functions run exactly if assertions are off or the check is waived. Whatever the code returns with assertions on - flows from extend, flows of the flow builder, build_with_times, average travel times, predictions of the closed-form predictors - it returns with assertions off. On clean histories both modes agree completely; elsewhere the assertions are the only protection: with them off, flow can be lost silently.",
  "all networks, histories of extend and queries, setups with arbitrary predictors, numbers of rounds, horizons", "two modes of the interpreter compared on every history", ["src/core/dynamic_flow.py:DynamicFlow.extend", "src/core/flow_builder.py:FlowBuilder.build_flow", "src/eval/evaluate_network.py:eval_network_demand", "src/ml/build_test_flows.py:generate_network_demands"])
p("DynamicFlow never raises anything but an AssertionError, and nothing without assertions",
  "For every network with positive capacities and non-negative travel times and every history of extend and outflow queries on existing edges whose max_extension_time is not in the past: with assertions off every call returns, queues can be evaluated at every time, and the constant and the zero predictor answer; with assertions on the same flow is returned or an AssertionError is raised - never an IndexError, KeyError, ValueError or ZeroDivisionError, never an endless loop. The rates are arbitrary.",
  "all networks, all histories, all rates (also invalid ones)", "universally quantified over histories", ["src/core/dynamic_flow.py:DynamicFlow.extend", "src/core/dynamic_flow.py:DepletionQueue", "src/core/flow_rates_collection.py:FlowRatesCollection.extend"])
p("a flow that extend returns is right, or an assertion fails",
  "If extend returns (with assertions on), queues are not negative and hold exactly what has entered an edge and not left it. True on clean histories; otherwise the assertions guarantee that a depletion discards less than 1000 eps, and that rates which are not positive and times before the last breakpoint are rejected - but not more: bursts shorter than eps give queues that stay negative, and inflow within eps of the capacity loses flow in proportion to time, without any assertion failing.",
  "all valid histories", "quantifies over histories", ["src/core/dynamic_flow.py:DynamicFlow.extend", "src/core/dynamic_flow.py:DynamicFlow._process_depletions", "src/utilities/piecewise_linear.py:PiecewiseLinear.extend_with_slope"])
p("routing survives floating-point rounding",
  "Whatever monotone rounding the arithmetic uses (IEEE binary64 in particular), the shortest path searches end without exception, every node that can reach the sink gets a non-empty set of active edges (constant and time-dependent costs, FIFO or not), exactly the edges that pass the rounded comparison; labels are within the accumulated rounding error and tolerance of exact shortest distances; with FIFO costs arrival times are earliest arrival times of the rounded network. The tolerance eps of the comparison works as long as the numbers are small: from 2^20 on, adding eps changes no binary64 number.",
  "all graphs, costs and roundings", "quantifies over all float inputs", ["src/core/dijkstra.py:reverse_dijkstra", "src/core/dijkstra.py:dynamic_dijkstra", "src/core/dijkstra.py:get_active_edges_from_dijkstra", "src/core/flow_builder.py:FlowBuilder._determine_active_edges", "src/core/machine_precision.py:eps"])
p("DynamicFlow with floating-point arithmetic raises nothing but AssertionErrors",
  "Whatever monotone rounding with gradual underflow the arithmetic uses (IEEE binary64 in particular), every history of extend and outflow calls with existing edges and float times that do not decrease builds a flow without IndexError, KeyError, ValueError, ZeroDivisionError or endless loop: with assertions off nothing raises and all queues can be evaluated, with assertions on the same flow is returned or an AssertionError is raised. Time never runs backwards nor past max_extension_time, and the accumulated outflow never grows faster than the capacity. (The assertions themselves can fail by rounding alone: at time 10^7, capacity 3000, a queue of 500.)",
  "all networks with float capacities, all histories, all roundings", "quantifies over all histories and float inputs", ["src/core/dynamic_flow.py:DynamicFlow.extend", "src/core/dynamic_flow.py:DynamicFlow._extend_case_iii", "src/core/flow_rates_collection.py:FlowRatesCollection.extend", "src/utilities/piecewise_linear.py:PiecewiseLinear._eval_with_rank", "src/utilities/piecewise_linear.py:PiecewiseLinear.extend_with_slope", "src/utilities/right_constant.py:RightConstant.extend"])
p("FlowBuilder raises nothing but AssertionErrors, and only in DynamicFlow.extend",
  "For every network, set of commodities with reachable sinks and predictors that answer with usable predictions, every round of the flow builder either succeeds or raises an AssertionError - without assuming that queues are computed cleanly. Choosing routes and splitting flow never raises; the call of DynamicFlow.extend that a failing round makes is a legal one, and it is this call whose assertion fails. With positive travel times every time is reached or an AssertionError is raised. (It does happen: one edge of capacity 1 and source rates 2, 1 - 2 eps, 1 - 5/2 eps.)",
  "all setups, numbers of rounds, predictors that answer", "universally quantified over setups and rounds", ["src/core/flow_builder.py:FlowBuilder.build_flow", "src/core/flow_builder.py:FlowBuilder._determine_new_inflow", "src/core/flow_builder.py:FlowBuilder._get_active_edges", "src/core/dynamic_flow.py:DynamicFlow.extend"])
p("Argument checks: operations refuse what they are not defined for",
  "The operations on piecewise linear functions, step functions, priority queues and networks raise an AssertionError - they return nothing and change nothing - for every argument they are not defined for: constructors given malformed breakpoints; +, - and minimum of functions whose domains share at most one point, minimum where the common domain does not start at a breakpoint; restrict to anything but a sub-interval; integrate unless it is a non-empty interval in the domain and no value is negative (then it succeeds); image, min_t_above, max_t_below and compose of a function that decreases between breakpoints; levels no point reaches; compose with a value more than eps outside the domain; smaller_equals of functions that do not start together at a breakpoint; left_extend/right_extend by a function that does not reach further; + and - of step functions on different domains; integral of a step function whose domain does not start at its first breakpoint or ends less than 1 after its last; pushing a stored item, changing or removing an absent one; a commodity whose sink or source is not a node.",
  "all functions, all arguments", "universally quantified over functions and arguments", ["src/utilities/piecewise_linear.py:PiecewiseLinear", "src/utilities/right_constant.py:RightConstant", "src/utilities/queues.py:PriorityQueue", "src/core/network.py:Network.add_commodity"])
p("With floating-point arithmetic, FlowBuilder raises nothing but AssertionErrors",
  "With every addition, subtraction, multiplication and division rounded (any monotone, idempotent rounding that does not map the difference of two different floats to 0; binary64 is one), building a flow from float capacities and float breakpoints of the inflow, with predictors that return usable predictions, raises no exception in any number of rounds if assertions are off, and at most an AssertionError if they are on: no IndexError, KeyError, ValueError, ZeroDivisionError and no endless loop inside a round. The clock starts at 0, is always a float, never runs backwards and never passes the next rerouting; flow of a commodity only leaves edges whose head is reached from one of its sources and leads to its sink. The zero predictor always qualifies, the constant predictor as long as no computed travel time is negative. But once adding the reroute interval to a time is lost in rounding the clock stalls: with binary64 and interval 1 no number of rounds takes the flow past 2^53.",
  "all roundings, all networks with float capacities and inflow breakpoints, all predictors, all numbers of rounds", "universally quantified over networks, roundings and histories", ["src/core/flow_builder.py:FlowBuilder", "src/core/dynamic_flow.py:DynamicFlow", "src/core/dijkstra.py:dynamic_dijkstra", "src/core/predictors/zero_predictor.py:ZeroPredictor", "src/core/predictors/constant_predictor.py:ConstantPredictor"])
p("Evaluating a piecewise linear function with floating-point arithmetic",
  "Calling a PiecewiseLinear whose data are floats never raises inside its domain and returns a float, the same with assertions on and off. Between two consecutive breakpoints the computed values do not decrease where the data increase, do not increase where they decrease, stay on the right side of the left value, and are exact where the function is constant. In binary64 the computed value differs from the exact interpolation by at most 2^-53 of that value plus 6*2^-53 of the change since the breakpoint it is computed from, plus an underflow term. It does NOT hold that a breakpoint evaluates to its stored value, that a non-negative function evaluates to non-negative numbers, or that a non-decreasing one evaluates to non-decreasing numbers across breakpoints.",
  "all piecewise linear functions with float data, all float arguments; the order theorems for all roundings", "rounding errors depend on every operand; universally quantified over functions and arguments", ["src/utilities/piecewise_linear.py:PiecewiseLinear.__call__", "src/utilities/piecewise_linear.py:PiecewiseLinear._eval_with_rank", "src/utilities/piecewise_linear.py:PiecewiseLinear.gradient"])
p("With floating-point arithmetic, edges respect their capacities and proportions up to rounding",
  "In binary64, whatever calls are made with positive float inflow rates (and no underflow: capacities at least 2^-1000, inflows at most 2^1000 times the capacity), the rates at which flow leaves an edge at any time sum up to at most the capacity times 1 + (3k+4)*2^-53, k the number of commodities, with assertions on and off; every commodity leaves in proportion to its inflow, up to a factor 1 +- (2k+4)*2^-53. It does NOT hold that the sum is at most the capacity exactly.",
  "all networks, all sequences of extend calls and queries, all edges and times, all numbers of commodities up to 2^51", "universally quantified over runs and numbers of commodities", ["src/core/dynamic_flow.py:DynamicFlow.extend", "src/core/dynamic_flow.py:DynamicFlow._extend_case_ii", "src/core/dynamic_flow.py:DynamicFlow._extend_case_iii", "src/core/flow_rates_collection.py:FlowRatesCollection.get_values_at_time"])
p("With floating-point arithmetic, nodes pass on what they receive up to rounding",
  "In every round of a flow computation with any rounding (assertions on or off), the rate of a commodity that a handled node is supplied with (floating-point sum of the outflow of the edges into it and the network inflow) is divided into equal rounded shares between some edges out of the node; nothing is sent out of its sink or below the threshold; all rates are non-negative floats. In binary64 the rates sent sum up to the rates supplied up to a factor between 1-(k+1)*2^-53 and 1+(2k+2)*2^-53, k the in-degree plus 1. It does NOT hold that they sum up exactly.",
  "all networks, commodities, predictors, numbers of rounds, nodes and commodities; any monotone idempotent rounding for the split, binary64 for the error bound", "universally quantified over runs, networks and roundings", ["src/core/flow_builder.py:FlowBuilder._determine_new_inflow", "src/core/flow_builder.py:FlowBuilder.build_flow", "src/core/flow_builder.py:FlowBuilder._get_active_edges"])
p("scenarios print the average computation time of their evaluations",
  "After eval_network_demand with at least one run, whatever earlier complete or interrupted evaluations of the scenario have stored, every run has its flow and its analysis, flows already computed are kept, the analysis shows the time it took to compute the flow that is stored (also when it was loaded), and the scenario scripts print exactly the mean of these times over the runs; evaluating again changes no file. It does NOT hold for the Tokyo script, which reads a key that is never written.",
  "all numbers of runs, states of the evaluation directory, orders of os.listdir, computed flows and times", "universally quantified over histories of evaluations and directory contents", ["src/scenarios/sioux_falls_multi_com_scenario.py:run_scenario", "src/scenarios/sample_scenario.py:run_scenario", "src/tokyo/tokyo_scenario.py", "src/eval/evaluate_network.py:eval_network_demand", "src/eval/evaluate.py:evaluate_single_run"])
p("RightConstant functions with floating-point arithmetic",
  "With any rounding, assertions on or off: evaluating returns a stored value exactly; adding, subtracting and summing functions with float breakpoints never raises, yields increasing breakpoints taken from the operands, and at each of them the rounded sum (difference; sum from left to right) - everywhere, if the breakpoints are told apart by the comparison with eps; the integral of non-negative rates starts at 0 and its values never decrease and are never negative. In binary64 sums of non-negative values and the values of the integral equal the exact ones up to a relative error of order n*2^-53 (and underflow). It does NOT hold that sums are exact.",
  "all functions, numbers of summands and breakpoints, times; any monotone idempotent rounding, binary64 for the errors", "universally quantified over functions and roundings", ["src/utilities/right_constant.py:RightConstant.__add__", "src/utilities/right_constant.py:RightConstant.__sub__", "src/utilities/right_constant.py:RightConstant.sum", "src/utilities/right_constant.py:RightConstant.integral", "src/utilities/right_constant.py:RightConstant.eval", "src/utilities/arrays.py:merge_sorted", "src/utilities/arrays.py:merge_sorted_many"])
p("The two neighbourhood predictors are interchangeable",
  "Given the same learned functions, network, masks and flow, the neural-network neighbourhood predictor's batch prediction - which evaluates queues and loads one time at a time into dictionaries - returns exactly what the regression one returns, values and exceptions, for any list of prediction times in any order and with repetitions. Hence its predictions start at the present queue, are never negative, fall by at most the capacity per unit of time and are the smallest such values above the output of the model.",
  "all models (functions of their input row), masks, distances, lists of prediction times, flows whose queues and loads are defined everywhere (all flows reached by valid extensions)", "universally quantified over models, flows and prediction times", ["src/core/predictors/tf_neighborhood_predictor.py:TFNeighborhoodPredictor.batch_predict", "src/core/predictors/sk_neighborhood_predictor.py:SKNeighborhoodPredictor.batch_predict"])
p("Sums and differences of PiecewiseLinear functions with floating-point arithmetic",
  "Adding two piecewise linear functions with float data whose domains overlap in more than a point, all operations rounded, never raises with assertions disabled: the result lives on the common domain, its breakpoints strictly increase and are breakpoints of the operands or ends of the common domain, its slopes are the rounded sums of the slopes and the value stored at a breakpoint is the rounded sum of the operands' values there. With assertions enabled the same result is returned, or the assertion on the distance of breakpoints fails; it cannot fail if no breakpoint is cut off, or if all breakpoints and domain ends are told apart by the comparison with eps (then also no breakpoint inside the common domain is lost). Subtraction does the same with differences, because rounding to nearest even is symmetric. Domains that do not overlap are rejected. Hence the edge load - the difference of two accumulated flows that start with 0 at time 0 and have breakpoints the constructor accepts - is computed without an exception, is exactly 0 until time 0 and is the rounded difference of the two flows at its breakpoints.",
  "all piecewise linear functions with float data, all monotone idempotent roundings under which unequal floats have a non-zero difference (for subtraction: symmetric), in particular binary64 without overflow", "universally quantified over functions and roundings", ["src/utilities/piecewise_linear.py:PiecewiseLinear.plus", "src/utilities/piecewise_linear.py:PiecewiseLinear.__neg__", "src/utilities/piecewise_linear.py:PiecewiseLinear.__sub__", "src/utilities/arrays.py:merge_sorted", "src/core/dynamic_flow.py:DynamicFlow.get_edge_loads"])
