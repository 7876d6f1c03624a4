(** * Model of the pipelines of src/scenarios and src/ml/build_test_flows.py:
      from a road map and a table of demands to the flow that is saved *)
From Verif Require Import Base Spec Arrays PL RC FRC PQ PQSpec DynFlow Graph Dijkstra FlowBuilder Predictors Eval Eval2 Import.

(** [network.graph.positions = ...] *)
Definition set_positions (nw : network) (pos : list (nat * (Qc * Qc))) : network :=
  let g := w_graph nw in mkNw (mkG (g_heap g) (g_edges g) (g_nodes g) (g_rev g) pos) (w_cap nw) (w_tau nw) (w_com nw).
(** nguyen_scenario.py:36-53: the dictionary (four keys are given twice, with the
    same values) *)
Definition nguyen_positions : list (nat * (Qc * Qc)) :=
  map (fun p => let '(v, x, y) := p in (v, (qn x, qn y)))
    [(1, 2, 0); (12, 4, 0); (5, 2, 2); (6, 4, 2); (8, 8, 2); (4, 0, 2); (7, 6, 2); (9, 2, 4); (10, 4, 4); (11, 6, 4); (2, 8, 4); (13, 4, 6); (3, 6, 6)]%nat.
(** nguyen_scenario.py:24-54 [build_nguyen_network]: a row
    [from_node to_node capacity free_flow_travel_time] with units per second.
    [np.genfromtxt] is trusted to give the rows (several of them: a single row
    would be a one-dimensional array). *)
Definition nguyen_step (nw : network) (row : nat * nat * Qc * Qc) : res network :=
  let '(a, b, cap, fft) := row in
  t <- pydiv fft (qz 60) ;; Ok (nw_add_edge nw a b t (cap * qz 60)).
Definition build_nguyen_network (rows : list (nat * nat * Qc * Qc)) : res network :=
  nw <- foldM nguyen_step rows nw_empty ;; Ok (set_positions nw nguyen_positions).
(** nguyen_network.csv, the file that is shipped *)
Definition nguyen_csv : list (nat * nat * Qc * Qc) :=
  map (fun p => let '(a, b, t) := p in (a, b, qr 83333333333 100000000000, qn t))
    [(1, 12, 150); (1, 5, 75); (12, 6, 75); (12, 8, 150); (4, 5, 150); (5, 6, 150); (6, 7, 150); (7, 8, 150); (4, 9, 225); (5, 9, 75); (6, 10, 75); (7, 11, 75);
     (8, 2, 75); (9, 10, 150); (10, 11, 150); (11, 2, 150); (9, 13, 225); (11, 3, 75); (13, 3, 150)]%nat.
(** sample_network.py:4-33 [build_sample_network] *)
Definition sample_edges : list (nat * nat * Qc * Qc) :=
  map (fun p => let '(a, b, t, c) := p in (a, b, qn t, qn c)) [(0, 1, 1, 2); (0, 2, 3, 1); (1, 3, 1, 2); (3, 0, 1, 1); (3, 2, 1, 1)]%nat.
Definition sample_positions : list (nat * (Qc * Qc)) := map (fun p => let '(v, x, y) := p in (v, (qn x, qn y))) [(0, 0, 0); (1, 1, 0); (2, 0, 1); (3, 1, 1)]%nat.
Definition build_sample_network : network :=
  set_positions (fold_left (fun nw e => let '(a, b, t, c) := e in nw_add_edge nw a b t c) sample_edges nw_empty) sample_positions.

(** nguyen_scenario.py:79-84 (and sample_scenario.py:47-51, with one pair): the same demand for all pairs [(s, t)]; [constant]
    stands for [PredictorType.CONSTANT]. *)
Definition nguyen_commodities (nw : network) (pairs : list (nat * nat)) (demand : Qc) (constant : nat) (inflow_horizon : ext) : res network :=
  foldM (fun nw p => f <- demand_until demand inflow_horizon ;; nw_add_commodity nw [(fst p, f)] (snd p) constant) pairs nw.

(** build_test_flows.py:78-84, 92-97: what [handle] builds from the network
    saved in [network_path] ([Network.to_file] pickles [__getstate__],
    [Network.from_file] restores it); [ord] is the order in which Python
    iterates over a set of commodities, [nodes_ord] over a set of nodes. *)
Definition training_network (saved : nwstate) (gauss : nat -> Qc -> Qc -> Qc) (inflow_horizon : ext) (sigma : option Qc) (ord : list nat -> list nat) : res network :=
  nw <- nw_setstate saved ;;
  nw <- generate_network_demands nw gauss inflow_horizon sigma ;;
  combine_commodities nw [] ord.
Definition training_setup (saved : nwstate) (gauss : nat -> Qc -> Qc -> Qc) (inflow_horizon : ext) (sigma : option Qc) (reroute_interval : Qc) (constant : nat) (ord nodes_ord : list nat -> list nat) : res setup :=
  nw <- training_network saved gauss inflow_horizon sigma ord ;;
  Ok (mkSetup nw [(constant, mkPred constant_predict true)] (Some reroute_interval) nodes_ord).
(** build_test_flows.py:97-99: the flow that is saved; there are no observed
    commodities.  The log lines depend on the clock ([due]). *)
Definition training_flow (fuel : nat) (saved : nwstate) (gauss : nat -> Qc -> Qc -> Qc) (inflow_horizon : ext) (sigma : option Qc) (reroute_interval horizon : Qc) (constant : nat)
    (ord nodes_ord : list nat -> list nat) (due : nat -> bool) : res (nat * builder) :=
  S <- training_setup saved gauss inflow_horizon sigma reroute_interval constant ord nodes_ord ;;
  build_with_times fuel S horizon [] true due.

(** ** evaluate_network.py:60-85 and evaluate.py:118-178: one evaluation run *)
(** evaluate_network.py:61-72, evaluate.py:118-150: the network that is
    evaluated and the indices of the test commodities; the inflow horizon is
    finite (with an infinite one the breakpoints of the test demand are not
    finite).  [focused] is the index drawn by [random.randrange], [types] are
    the keys of [predictors]. *)
Definition eval_network (saved : nwstate) (gauss : nat -> Qc -> Qc -> Qc) (inflow_horizon : Qc) (sigma : option Qc) (focused : nat) (split : bool) (types : list nat) (ord : list nat -> list nat)
  : res (network * list nat) :=
  nw <- nw_setstate saved ;;
  nw <- generate_network_demands nw gauss (Fin inflow_horizon) sigma ;;
  eval_commodities nw focused split inflow_horizon types ord.
(** evaluate.py:152-153 the flow builder *)
Definition eval_setup (saved : nwstate) (gauss : nat -> Qc -> Qc -> Qc) (inflow_horizon : Qc) (sigma : option Qc) (focused : nat) (split : bool) (preds : list (nat * predictor)) (reroute_interval : Qc)
    (ord nodes_ord : list nat -> list nat) : res (setup * list nat) :=
  '(nw, idx) <- eval_network saved gauss inflow_horizon sigma focused split (map fst preds) ord ;;
  Ok (mkSetup nw preds (Some reroute_interval) nodes_ord, idx).
(** evaluate.py:153-183: the flow and the average travel times of the test
    commodities (without the optimal one). *)
Definition eval_run (fuel : nat) (saved : nwstate) (gauss : nat -> Qc -> Qc -> Qc) (inflow_horizon : Qc) (sigma : option Qc) (focused : nat) (split : bool) (preds : list (nat * predictor)) (reroute_interval horizon : Qc)
    (ord nodes_ord : list nat -> list nat) (log : bool) (due : nat -> bool) : res (nat * builder * list Qc) :=
  '(U, idx) <- eval_setup saved gauss inflow_horizon sigma focused split preds reroute_interval ord nodes_ord ;;
  '(n, b) <- build_with_times fuel U horizon idx log due ;;
  tts <- mapM (fun i => c <- fetch (s_coms U) i ;;
    avg_travel_time (f_out (b_flow b)) i (map (e_id (s_graph U)) (incoming (s_graph U) (k_sink c))) (map snd (k_sources c)) horizon) idx ;;
  Ok (n, b, tts).
