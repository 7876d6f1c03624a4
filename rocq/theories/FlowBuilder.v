(** * Model of src/core/flow_builder.py

    Nodes are given by their ids, edges by references (Graph.v), commodities by
    their index in [network.commodities] (the objects are compared by
    identity).  Sets are duplicate-free lists; the order in which Python
    iterates over a set is given by the unspecified function [su_ord].  The
    predictors are unspecified functions of the prediction time and the flow;
    they do not modify the flow.  PriorityQueues are represented by their
    specification (C23). *)
From Verif Require Import Base Spec Arrays PL RC FRC PQ PQSpec DynFlow Graph Dijkstra.

(** predictor.py:12-38 [predict] and [is_constant] *)
Record predictor := mkPred { p_predict : Qc -> Flow -> res (list PL); p_const : bool }.

(** flow_builder.py:36-44 the arguments of [FlowBuilder]; the interval is finite. *)
Record setup := mkSetup {
  su_net : network; su_preds : list (nat * predictor); su_interval : option Qc;
  su_ord : list nat -> list nat }.
Definition s_graph (S : setup) : graph := w_graph (su_net S).
Definition s_coms (S : setup) : list commodity := w_com (su_net S).
Definition s_nw (S : setup) : Net := mkNet (w_cap (su_net S)) (w_tau (su_net S)).

(** flow_builder.py:82-89 the items [(c, s, t)] *)
Definition change_eqb (x y : nat * nat * Qc) : bool :=
  pair_eqb (fun a b => (Nat.eqb (fst a) (fst b) && Nat.eqb (snd a) (snd b))%bool) x y.
Lemma change_eqbP x y : reflect (x = y) (change_eqb x y).
Proof.
  apply pair_eqbP. intros [a b] [c d]. cbn [fst snd]. destruct (Nat.eqb_spec a c), (Nat.eqb_spec b d); cbn [andb]; constructor; congruence.
Qed.
#[export] Instance Item_change : Item (nat * nat * Qc) :=
  { eqb := change_eqb; eqbP := change_eqbP; i_dflt := (0%nat, 0%nat, 0) }.

(** flow_builder.py:23-34 the mutable fields.  [b_costs] is the content of the
    [lru_cache] of [_get_costs] for this builder. *)
Record builder := mkB {
  b_flow : Flow;
  b_active : list (list (nat * list nat));
  b_handle : list nat;
  b_next : Qc; b_route : Qc;
  b_net : list (nat * FRC);
  b_changes : @squeue (nat * nat * Qc);
  b_costs : list (nat * list PL) }.
Definition with_flow b x := mkB x (b_active b) (b_handle b) (b_next b) (b_route b) (b_net b) (b_changes b) (b_costs b).
Definition with_active b x := mkB (b_flow b) x (b_handle b) (b_next b) (b_route b) (b_net b) (b_changes b) (b_costs b).
Definition with_handle b x := mkB (b_flow b) (b_active b) x (b_next b) (b_route b) (b_net b) (b_changes b) (b_costs b).
Definition with_net b x := mkB (b_flow b) (b_active b) (b_handle b) (b_next b) (b_route b) x (b_changes b) (b_costs b).
Definition with_changes b x := mkB (b_flow b) (b_active b) (b_handle b) (b_next b) (b_route b) (b_net b) x (b_costs b).
Definition with_costs b x := mkB (b_flow b) (b_active b) (b_handle b) (b_next b) (b_route b) (b_net b) (b_changes b) x.

(** [set(...)] of a sequence: duplicates removed *)
Fixpoint uniq (l : list nat) : list nat :=
  match l with [] => [] | x :: r => if mem x r then uniq r else x :: uniq r end.
(** [s.add(x)] *)
Definition set_add (x : nat) (l : list nat) : list nat := if mem x l then l else x :: l.

(** flow_builder.py:53-63 important nodes of one commodity *)
Definition important (g : graph) (c : commodity) : res (list nat) :=
  reaching <- get_nodes_reaching g (k_sink c) ;;
  reachable <- mapM (fun p => get_reachable_nodes g (fst p)) (k_sources c) ;;
  Ok (filter (fun v => mem v (concat reachable)) reaching).
Definition enum {A} (l : list A) : list (nat * A) := combine (seq 0 (length l)) l.
(** flow_builder.py:66-70 the argument of [FlowRatesCollection] for node [v] *)
Definition net_fns (cs : list commodity) (v : nat) : list (nat * RC) :=
  flat_map (fun p => match dget (k_sources (snd p)) v with Some f => [(fst p, f)] | None => [] end) (enum cs).
(** flow_builder.py:73-76 [_commodity_ids_by_sink[v]] *)
Definition ids_by_sink (cs : list commodity) (v : nat) : list nat :=
  map fst (filter (fun p => Nat.eqb (k_sink (snd p)) v) (enum cs)).
(** flow_builder.py:82-89 the initial content of [_network_inflow_changes] *)
Definition inflow_changes (cs : list commodity) : list (nat * nat * Qc * ext) :=
  flat_map (fun p => flat_map (fun q => map (fun t => ((fst p, fst q, t), Fin t)) (rc_times (snd q))) (k_sources (snd p))) (enum cs).

(** [_important_nodes], computed in the constructor and never changed *)
Definition important_all (S : setup) : res (list (list nat)) := mapM (important (s_graph S)) (s_coms S).
Definition com_nodes (S : setup) (i : nat) : list nat :=
  match important_all S with Ok l => nth i l [] | Err _ => [] end.

(** flow_builder.py:36-89 [__init__] *)
Definition fb_init (S : setup) : res builder :=
  flow <- flow_init (s_nw S) ;;
  imp <- important_all S ;;
  net <- mapM (fun v => c <- frc_init (net_fns (s_coms S) v) ;; Ok (v, c)) (map fst (g_nodes (s_graph S))) ;;
  assert! forallb (fun p => forallb (fun q => mem (fst q) (nth (fst p) imp [])) (k_sources (snd p))) (enum (s_coms S)) ;;
  Ok (mkB flow (map (fun _ => []) (s_coms S)) [] (f_phi flow) (f_phi flow) net (s_init (inflow_changes (s_coms S))) []).

(** flow_builder.py:100-113 the cost function of one edge *)
Definition edge_cost (nw : Net) (time : Qc) (predictions : list PL) (e : nat) : res PL :=
  p <- fetch predictions e ;; tau <- fetch (n_tau nw) e ;; cap <- fetch (n_cap nw) e ;;
  values <- mapM (fun v => q <- pydiv v cap ;; Ok (tau + q)) (pl_values p) ;;
  fs <- pydiv (pl_first p) cap ;; ls <- pydiv (pl_last p) cap ;;
  pl_init (pl_times p) values fs ls (Fin time) PInf.
(** flow_builder.py:91-114 [_get_costs] with its cache *)
Definition get_costs (S : setup) (b : builder) (ty : nat) : res (builder * list PL) :=
  match dget (b_costs b) ty with
  | Some costs => Ok (b, costs)
  | None =>
      p <- dfetch (su_preds S) ty ;;
      predictions <- p_predict p (b_route b) (b_flow b) ;;
      costs <- mapM (edge_cost (s_nw S) (b_route b) predictions) (seq 0 (length (g_edges (s_graph S)))) ;;
      Ok (with_costs b (dset (b_costs b) ty costs), costs)
  end.

(** flow_builder.py:163-170 the active edges of [v] for constant costs *)
Fixpoint tight_edges (g : graph) (costs : list Qc) (dist : list (nat * Qc)) (v : nat) (l : list nat) : res (list nat) :=
  match l with
  | [] => Ok []
  | e :: r =>
      match dget dist (e_to g e) with
      | None => tight_edges g costs dist v r
      | Some dw =>
          c <- fetch costs (e_id g e) ;;
          dv <- dfetch dist v ;;
          rest <- tight_edges g costs dist v r ;;
          Ok (if qleb (c + dw) (dv + eps) then e :: rest else rest)
      end
  end.
(** [self._active_edges[j][v] = l] *)
Definition set_active (active : list (list (nat * list nat))) (j v : nat) (l : list nat) : list (list (nat * list nat)) :=
  upd active j (dset (nth j active []) v l).
(** flow_builder.py:172-177 share the result with all commodities with the same sink and predictor type *)
Definition share (cs : list commodity) (sink ty : nat) (active : list (list (nat * list nat))) (v : nat) (l : list nat) : list (list (nat * list nat)) :=
  fold_left (fun a j => match nth_error cs j with
                        | Some c => if Nat.eqb (k_pred c) ty then set_active a j v l else a
                        | None => a
                        end) (ids_by_sink cs sink) active.
(** flow_builder.py:160-177 one round of the loop over [com_nodes] *)
Definition const_node (S : setup) (c : commodity) (costs : list Qc) (dist : list (nat * Qc))
    (active : list (list (nat * list nat))) (v : nat) : res (list (list (nat * list nat))) :=
  if Nat.eqb v (k_sink c) then Ok active else
  l <- tight_edges (s_graph S) costs dist v (outgoing (s_graph S) v) ;;
  assert! (0 <? length l)%nat ;;
  Ok (share (s_coms S) (k_sink c) (k_pred c) active v l).
(** flow_builder.py:145-189 [_get_active_edges(i, s)] *)
Definition get_active_edges (S : setup) (b : builder) (i s : nat) : res (builder * list nat) :=
  match dget (nth i (b_active b) []) s with
  | Some l => Ok (b, l)
  | None =>
      c <- fetch (s_coms S) i ;;
      p <- dfetch (su_preds S) (k_pred c) ;;
      '(b1, costs) <- get_costs S b (k_pred c) ;;
      if p_const p then
        const <- mapM (fun f => pyget (pl_values f) 0) costs ;;
        dist <- reverse_dijkstra (s_graph S) (k_sink c) const (com_nodes S i) ;;
        active <- foldM (const_node S c const dist) (com_nodes S i) (b_active b1) ;;
        l <- dfetch (nth i active []) s ;;
        Ok (with_active b1 active, l)
      else
        r <- dynamic_dijkstra (s_graph S) (b_route b) s (k_sink c) (com_nodes S i) (map pl_eval costs) ;;
        l <- get_active_edges_from_dijkstra (s_graph S) r s (k_sink c) ;;
        Ok (with_active b1 (set_active (b_active b1) i s l), l)
  end.

(** flow_builder.py:196-199 [outflow[e.id].get_values_at_time(phi)] *)
Definition get_outflow (S : setup) (st : builder * list rates) (e : nat) : res (builder * list rates) :=
  let '(b, acc) := st in
  let id := e_id (s_graph S) e in
  c <- getn (f_out (b_flow b)) id ;;
  '(c', d) <- frc_get c (f_phi (b_flow b)) ;;
  Ok (with_flow b (set_out (b_flow b) (upd (f_out (b_flow b)) id c')), acc ++ [d]).
(** flow_builder.py:212-216 *)
Definition node_inflow (i : nat) (outflows : list rates) (net : rates) : Qc :=
  let s := fold_left (fun acc d => match dget d i with Some v => acc + v | None => acc end) outflows 0 in
  match dget net i with Some v => s + v | None => s end.
(** flow_builder.py:211-224 the body of the loop over the commodities *)
Definition assign (S : setup) (v : nat) (outflows : list rates) (net : rates)
    (st : builder * list (nat * rates)) (i : nat) : res (builder * list (nat * rates)) :=
  let '(b, ni) := st in
  let inflow := node_inflow i outflows net in
  if qltb inflow eps then Ok (b, ni) else
  '(b', active) <- get_active_edges S b i v ;;
  d <- pydiv inflow (qn (length active)) ;;
  ni' <- foldM (fun (ni : list (nat * rates)) e => row <- dfetch ni (e_id (s_graph S) e) ;;
                  Ok (dset ni (e_id (s_graph S) e) (dset row i d))) active ni ;;
  Ok (b', ni').
(** flow_builder.py:193-224 the body of the loop over [_handle_nodes] *)
Definition split_node (S : setup) (st : builder * list (nat * rates)) (v : nat) : res (builder * list (nat * rates)) :=
  let '(b, ni) := st in
  let g := s_graph S in
  let ni1 := fold_left (fun d e => dset d (e_id g e) []) (outgoing g v) ni in
  '(b1, outflows) <- foldM (get_outflow S) (incoming g v) (b, []) ;;
  c <- dfetch (b_net b1) v ;;
  '(c', net) <- frc_get c (f_phi (b_flow b1)) ;;
  let b2 := with_net b1 (dset (b_net b1) v c') in
  let used := filter (fun i => negb (mem i (ids_by_sink (s_coms S) v)))
                     (uniq (concat (map (map fst) outflows) ++ map fst net)) in
  foldM (assign S v outflows net) (su_ord S used) (b2, ni1).
(** flow_builder.py:191-225 [_determine_new_inflow] *)
Definition determine_new_inflow (S : setup) (b : builder) : res (builder * list (nat * rates)) :=
  foldM (split_node S) (su_ord S (b_handle b)) (b, []).

(** flow_builder.py:123-125 *)
Fixpoint pop_due (fuel : nat) (b : builder) : res builder :=
  match fuel with
  | 0%nat => Err OutOfFuel
  | S n =>
      if ext_leb (sq_min_key (b_changes b)) (Fin (f_phi (b_flow b))) then
        '(q, it) <- sq_pop (b_changes b) ;;
        pop_due n (with_handle (with_changes b q) (set_add (snd (fst it)) (b_handle b)))
      else Ok b
  end.
(** flow_builder.py:126-135 *)
Definition reroute (S : setup) (b : builder) : res builder :=
  if match su_interval S with None => true | Some _ => qleb (b_next b) (f_phi (b_flow b)) end then
    match su_interval S with
    | None => Err TypeError      (* self._next_reroute_time += None *)
    | Some r => Ok (mkB (b_flow b) (map (fun _ => []) (s_coms S)) (map fst (g_nodes (s_graph S)))
                        (b_next b + r) (b_next b) (b_net b) (b_changes b) [])
    end
  else Ok b.
(** flow_builder.py:122-144 one round of the loop of [build_flow]; [k] as in
    DynFlow.v.  With a finite interval phi stays finite, so the loop condition
    [phi < inf] holds. *)
Definition fb_step (k : bool) (S : setup) (b : builder) : res builder :=
  b1 <- pop_due (Datatypes.S (sq_len (b_changes b))) b ;;
  b2 <- reroute S b1 ;;
  '(b3, ni) <- determine_new_inflow S b2 ;;
  match ext_min (Fin (b_next b3)) (sq_min_key (b_changes b3)) with
  | Fin maxt =>
      '(flow, changed) <- flow_extend k (s_nw S) (b_flow b3) ni maxt ;;
      heads <- mapM (fun e => r <- fetch (g_edges (s_graph S)) e ;; Ok (e_to (s_graph S) r)) changed ;;
      Ok (with_handle (with_flow b3 flow) (uniq heads))
  | _ => Err NotModelled
  end.
(** flow_builder.py:116-144 [build_flow]: the builder after the generator has
    been advanced [n] times beyond its first yield. *)
Fixpoint fb_run (k : bool) (S : setup) (n : nat) : res builder :=
  match n with
  | 0%nat => fb_init S
  | Datatypes.S m => b <- fb_run k S m ;; fb_step k S b
  end.
