(** * Model of src/core/graph.py and src/core/network.py

    Objects live on an explicit heap.  An [Edge] object is a reference (a
    position in [g_heap]); its fields can be mutated ([_remove_edge] renumbers
    ids), its identity cannot.  A [Node] object is represented by its integer
    id, under which the dict [DirectedGraph.nodes] stores it; the two lists of
    a node hold edge references.  Simplifications: ids are natural numbers
    (the code only compares them); a node popped from the dict is forgotten
    although removed [Edge] objects may still point to it. *)
From Verif Require Import Base Arrays PL RC FRC DynFlow.

(** graph.py:6-16 [Edge]: [_node_from], [_node_to], [id]. *)
Record eobj := mkEO { eo_from : nat; eo_to : nat; eo_id : nat }.
(** graph.py:30-40 [Node]: [_incoming_edges], [_outgoing_edges]. *)
Record nobj := mkN { no_in : list nat; no_out : list nat }.
(** graph.py:72-82 [DirectedGraph]. *)
Record graph := mkG {
  g_heap : list eobj;                     (* all Edge objects ever created *)
  g_edges : list nat;                     (* self.edges, as references *)
  g_nodes : list (nat * nobj);            (* self.nodes *)
  g_rev : bool;                           (* self.reversed *)
  g_pos : list (nat * (Qc * Qc)) }.       (* self.positions *)

(** graph.py:78-82 [__init__] *)
Definition g_empty : graph := mkG [] [] [] false [].

Definition e_obj (g : graph) (r : nat) : eobj := nth r (g_heap g) (mkEO 0 0 0).
(** graph.py:18-20 the property [node_from] *)
Definition e_from (g : graph) (r : nat) : nat :=
  if g_rev g then eo_to (e_obj g r) else eo_from (e_obj g r).
(** graph.py:22-24 the property [node_to] *)
Definition e_to (g : graph) (r : nat) : nat :=
  if g_rev g then eo_from (e_obj g r) else eo_to (e_obj g r).
(** graph.py:10 the field [id] *)
Definition e_id (g : graph) (r : nat) : nat := eo_id (e_obj g r).

Definition n_obj (nodes : list (nat * nobj)) (v : nat) : nobj :=
  match dget nodes v with Some n => n | None => mkN [] [] end.
(** graph.py:42-46 the property [incoming_edges] *)
Definition incoming (g : graph) (v : nat) : list nat :=
  if g_rev g then no_out (n_obj (g_nodes g) v) else no_in (n_obj (g_nodes g) v).
(** graph.py:55-59 the property [outgoing_edges] *)
Definition outgoing (g : graph) (v : nat) : list nat :=
  if g_rev g then no_in (n_obj (g_nodes g) v) else no_out (n_obj (g_nodes g) v).

(** In-place update of the list that the property [outgoing_edges]
    (graph.py:55-59) / [incoming_edges] (42-46) of node [v] returns. *)
Definition upd_out (rev : bool) (nodes : list (nat * nobj)) (v : nat) (l : list nat) : list (nat * nobj) :=
  let n := n_obj nodes v in dset nodes v (if rev then mkN l (no_out n) else mkN (no_in n) l).
Definition upd_in (rev : bool) (nodes : list (nat * nobj)) (v : nat) (l : list nat) : list (nat * nobj) :=
  let n := n_obj nodes v in dset nodes v (if rev then mkN (no_in n) l else mkN l (no_out n)).
Definition get_out (rev : bool) (nodes : list (nat * nobj)) (v : nat) : list nat :=
  if rev then no_in (n_obj nodes v) else no_out (n_obj nodes v).
Definition get_in (rev : bool) (nodes : list (nat * nobj)) (v : nat) : list nat :=
  if rev then no_out (n_obj nodes v) else no_in (n_obj nodes v).

(** graph.py:100-101 / 102-103: create the node if its id is new. *)
Definition ensure_node (nodes : list (nat * nobj)) (v : nat) : list (nat * nobj) :=
  if dhas nodes v then nodes else dset nodes v (mkN [] []).

(** graph.py:99-108 [add_edge] *)
Definition add_edge (g : graph) (node_from node_to : nat) : graph :=
  let nodes := ensure_node (ensure_node (g_nodes g) node_from) node_to in
  let index := length (g_edges g) in
  let edge := length (g_heap g) in
  let nodes := upd_out (g_rev g) nodes node_from (get_out (g_rev g) nodes node_from ++ [edge]) in
  let nodes := upd_in (g_rev g) nodes node_to (get_in (g_rev g) nodes node_to ++ [edge]) in
  mkG (g_heap g ++ [mkEO node_from node_to index]) (g_edges g ++ [edge]) nodes (g_rev g) (g_pos g).

(** graph.py:136-137 [reverse] *)
Definition g_reverse (g : graph) : graph :=
  mkG (g_heap g) (g_edges g) (g_nodes g) (negb (g_rev g)) (g_pos g).

(** graph.py:92-97 [__getstate__] *)
Record gstate := mkGS { s_edges : list (nat * nat); s_pos : list (nat * (Qc * Qc)); s_rev : bool }.
Definition g_getstate (g : graph) : gstate :=
  mkGS (map (fun r => (e_from g r, e_to g r)) (g_edges g)) (g_pos g) (g_rev g).
(** graph.py:84-90 [__setstate__] *)
Definition g_setstate (s : gstate) : graph :=
  fold_left (fun g p => add_edge g (fst p) (snd p)) (s_edges s) (mkG [] [] [] (s_rev s) (s_pos s)).

Definition mem (v : nat) (l : list nat) : bool := existsb (Nat.eqb v) l.

(** graph.py:116-119 / 130-133 the [for] loop over the edges of one node:
    newly found nodes enter the set and the stack.  The Python list [queue] is
    used as a stack ([append]/[pop()]); the model keeps its top at the head. *)
Fixpoint visit (ends : list nat) (found queue : list nat) : list nat * list nat :=
  match ends with
  | [] => (found, queue)
  | w :: r => if mem w found then visit r found queue else visit r (w :: found) (w :: queue)
  end.
(** graph.py:114-119 / 128-133 the [while] loop *)
Fixpoint search (fuel : nat) (succs : nat -> list nat) (found queue : list nat) : res (list nat) :=
  match queue with
  | [] => Ok found
  | v :: q => match fuel with
              | 0%nat => Err OutOfFuel
              | S f => let '(found', q') := visit (succs v) found q in search f succs found' q'
              end
  end.
(** graph.py:110-120 [get_nodes_reaching]; sets are duplicate-free lists. *)
Definition get_nodes_reaching (g : graph) (node : nat) : res (list nat) :=
  assert! dhas (g_nodes g) node ;;
  search (S (length (g_nodes g))) (fun v => map (e_from g) (incoming g v)) [node] [node].
(** graph.py:122-134 [get_reachable_nodes] *)
Definition get_reachable_nodes (g : graph) (source : nat) : res (list nat) :=
  search (S (length (g_nodes g))) (fun v => map (e_to g) (outgoing g v)) [source] [source].

(* ------------------------------------------------------------------ *)
(** ** src/core/network.py *)

(** network.py:13-26 [Commodity]; [predictor_type] is an opaque number.
    There is no attribute [source]. *)
Record commodity := mkCom { k_sources : list (nat * RC); k_sink : nat; k_pred : nat }.
(** network.py:29-39 [Network] *)
Record network := mkNw { w_graph : graph; w_cap : list Qc; w_tau : list Qc; w_com : list commodity }.
Definition nw_empty : network := mkNw g_empty [] [] [].

(** network.py:64-69 [add_edge] *)
Definition nw_add_edge (n : network) (node_from node_to : nat) (travel_time capacity : Qc) : network :=
  mkNw (add_edge (w_graph n) node_from node_to) (w_cap n ++ [capacity]) (w_tau n ++ [travel_time]) (w_com n).

(** network.py:71-86 [add_commodity] *)
Definition nw_add_commodity (n : network) (sources : list (nat * RC)) (sink pred : nat) : res network :=
  assert! forallb (fun p => dhas (g_nodes (w_graph n)) (fst p)) sources ;;
  assert! dhas (g_nodes (w_graph n)) sink ;;
  Ok (mkNw (w_graph n) (w_cap n) (w_tau n) (w_com n ++ [mkCom sources sink pred])).

(** network.py:41-54 [__getstate__] (the graph is pickled by its own [__getstate__]) *)
Record nwstate := mkNS { ns_graph : gstate; ns_cap : list Qc; ns_tau : list Qc; ns_com : list commodity }.
Definition nw_getstate (n : network) : nwstate := mkNS (g_getstate (w_graph n)) (w_cap n) (w_tau n) (w_com n).
(** network.py:56-62 [__setstate__] *)
Definition nw_setstate (s : nwstate) : res network :=
  foldM (fun n c => nw_add_commodity n (k_sources c) (k_sink c) (k_pred c)) (ns_com s)
        (mkNw (g_setstate (ns_graph s)) (ns_cap s) (ns_tau s) []).

(** Python's [list.remove(x)] (first occurrence, by identity). *)
Fixpoint list_remove (x : nat) (l : list nat) : res (list nat) :=
  match l with
  | [] => Err ValueError
  | y :: r => if Nat.eqb y x then Ok r else r' <- list_remove x r ;; Ok (y :: r')
  end.
(** [del l[i]] / [np.delete(l, i)] for a natural index. *)
Definition del_at {A} (l : list A) (i : nat) : res (list A) :=
  if (i <? length l)%nat then Ok (firstn i l ++ skipn (S i) l) else Err IndexError.

(** network.py:94-95 the renumbering loop: [edges[i].id = i] for [i], [i+1], ... *)
Definition set_id (heap : list eobj) (r i : nat) : list eobj :=
  match nth_error heap r with
  | Some o => firstn r heap ++ mkEO (eo_from o) (eo_to o) i :: skipn (S r) heap
  | None => heap
  end.
Fixpoint renumber (heap : list eobj) (edges : list nat) (i : nat) : list eobj :=
  match edges with [] => heap | r :: rest => renumber (set_id heap r i) rest (S i) end.

(** network.py:88-95 [_remove_edge] *)
Definition nw_remove_edge (n : network) (edge : nat) : res network :=
  let g := w_graph n in
  let id := e_id g edge in
  l1 <- list_remove edge (incoming g (e_to g edge)) ;;
  let nodes1 := upd_in (g_rev g) (g_nodes g) (e_to g edge) l1 in
  l2 <- list_remove edge (get_out (g_rev g) nodes1 (e_from g edge)) ;;
  let nodes2 := upd_out (g_rev g) nodes1 (e_from g edge) l2 in
  edges <- del_at (g_edges g) id ;;
  cap <- del_at (w_cap n) id ;;
  tau <- del_at (w_tau n) id ;;
  Ok (mkNw (mkG (renumber (g_heap g) edges 0) edges nodes2 (g_rev g) (g_pos g)) cap tau (w_com n)).

(** [c.source]: attribute access on a [Commodity] (network.py:105, 134, 158);
    the class (network.py:13-26) has no such attribute. *)
Definition com_source (c : commodity) : res nat := Err AttributeError.

(** network.py:104-106 the generator [all(c.source != v != c.sink for c in ...)] *)
Fixpoint not_terminal (cs : list commodity) (v : nat) : res bool :=
  match cs with
  | [] => Ok true
  | c :: r => s <- com_source c ;;
              if (negb (Nat.eqb s v) && negb (Nat.eqb v (k_sink c)))%bool then not_terminal r v else Ok false
  end.

(** network.py:103-122 the body of the loop of [compress_lonely_nodes] *)
Definition compress_step (s : network * list nat) (v : nat) : res (network * list nat) :=
  let '(n, removed) := s in
  let g := w_graph n in
  match outgoing g v, incoming g v with
  | [edge2], [edge1] =>
      b <- not_terminal (w_com n) v ;;
      if b then
        let new_tau := nth (e_id g edge1) (w_tau n) 0 + nth (e_id g edge2) (w_tau n) 0 in
        let new_cap := qmin (nth (e_id g edge1) (w_cap n) 0) (nth (e_id g edge2) (w_cap n) 0) in
        n1 <- nw_remove_edge n edge1 ;;
        n2 <- nw_remove_edge n1 edge2 ;;
        let a := e_from (w_graph n2) edge1 in
        let b := e_to (w_graph n2) edge2 in
        Ok ((if Nat.eqb a b then n2 else nw_add_edge n2 a b new_tau new_cap), removed ++ [v])
      else Ok s
  | _, _ => Ok s
  end.
Definition drop_node (n : network) (v : nat) : network :=
  let g := w_graph n in
  mkNw (mkG (g_heap g) (g_edges g) (ddel (g_nodes g) v) (g_rev g) (g_pos g)) (w_cap n) (w_tau n) (w_com n).
(** network.py:97-124 [compress_lonely_nodes]; the loop runs over the node dict,
    whose keys do not change during the loop. *)
Definition compress_lonely_nodes (n : network) : res network :=
  '(n', removed) <- foldM compress_step (map fst (g_nodes (w_graph n))) (n, []) ;;
  Ok (fold_left drop_node removed n').

(** network.py:131-137 the loop computing [important_nodes] *)
Fixpoint important_nodes (g : graph) (cs : list commodity) (acc : list nat) : res (list nat) :=
  match cs with
  | [] => Ok acc
  | c :: r =>
      reaching <- get_nodes_reaching g (k_sink c) ;;
      s <- com_source c ;;
      reachable <- get_reachable_nodes g s ;;
      important_nodes g r (acc ++ filter (fun v => mem v reachable) reaching)
  end.
Definition remove_edges (n : network) (l : list nat) : res network := foldM nw_remove_edge l n.
(** network.py:142-149 remove one node with its edges *)
Definition remove_node (n : network) (v : nat) : res network :=
  n1 <- remove_edges n (outgoing (w_graph n) v) ;;
  n2 <- remove_edges n1 (incoming (w_graph n1) v) ;;
  Ok (drop_node n2 v).
(** network.py:126-150 [remove_unnecessary_nodes]; [order] is the iteration
    order of the Python set of removed nodes. *)
Definition remove_unnecessary_nodes (n : network) (order : list nat -> list nat) : res network :=
  imp <- important_nodes (w_graph n) (w_com n) [] ;;
  foldM remove_node (order (filter (fun v => negb (mem v imp)) (map fst (g_nodes (w_graph n))))) n.

(** network.py:157-162 the list comprehension of [remove_unnecessary_commodities] *)
Definition important_per_com (g : graph) (cs : list commodity) : res (list (list nat)) :=
  mapM (fun c => s <- com_source c ;;
                 reachable <- get_reachable_nodes g s ;;
                 reaching <- get_nodes_reaching g (k_sink c) ;;
                 Ok (filter (fun v => mem v reaching) reachable)) cs.
(** network.py:152-181 [remove_unnecessary_commodities]: only the part up to
    the comprehension is modelled ([NotModelled] after it); see C49. *)
Definition remove_unnecessary_commodities (n : network) (selected : nat) : res network :=
  match nth_error (w_com n) selected with
  | None => Err IndexError
  | Some _ => _ <- important_per_com (w_graph n) (w_com n) ;; Err NotModelled
  end.
