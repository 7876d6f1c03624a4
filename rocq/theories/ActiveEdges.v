(** * Model of src/core/active_edges.py

    Nodes are ids, edges are references (Graph.v).  Sets of edges are
    duplicate-free lists. *)
From Verif Require Import Base Arrays PL RC FRC PQ PQSpec DynFlow Graph Dijkstra.

(** active_edges.py:7 [identity] *)
Definition identity_all : PL := mkPL [0] [0] 1 1 NInf PInf.
Definition set_add (l : list nat) (x : nat) : list nat := if mem x l then l else l ++ [x].

(** active_edges.py:21-30 the body of the [for] loop; the stack has its top at
    the head *)
Definition bs_edge (g : graph) (costs : list costfn) (arrivals : list (nat * Qc)) (source w : nat)
    (s : list nat * list nat * list nat) (e : nat) : res (list nat * list nat * list nat) :=
  let '(active, enqueued, queue) := s in
  let v := e_from g e in
  match dget arrivals v with
  | None => Ok s
  | Some tv =>
      f <- fetch costs (e_id g e) ;;
      c <- f tv ;;
      tw <- dfetch arrivals w ;;
      if qleb (tv + c) tw then
        let active := if Nat.eqb v source then set_add active e else active in
        if mem v enqueued then Ok (active, enqueued, queue) else Ok (active, v :: enqueued, v :: queue)
      else Ok s
  end.
(** active_edges.py:19-30 the [while] loop; every node is enqueued once *)
Fixpoint bs_loop (fuel : nat) (g : graph) (costs : list costfn) (arrivals : list (nat * Qc)) (source : nat)
    (active enqueued queue : list nat) : res (list nat) :=
  match queue with
  | [] => Ok active
  | w :: q => match fuel with
              | 0%nat => Err OutOfFuel
              | S f =>
                  '(active', enqueued', q') <- foldM (bs_edge g costs arrivals source w) (incoming g w) (active, enqueued, q) ;;
                  bs_loop f g costs arrivals source active' enqueued' q'
              end
  end.
(** active_edges.py:10-31 [backward_search] *)
Definition backward_search (g : graph) (costs : list costfn) (arrivals : list (nat * Qc)) (source sink : nat) : res (list nat) :=
  bs_loop (S (length (g_nodes g))) g costs arrivals source [] [sink] [sink].

(** active_edges.py:51-53: the lambdas close over the comprehension variable
    [trav], so every one of them uses the last traversal. *)
Definition reversed_costs (traversals : list PL) : list costfn :=
  map (fun _ => fun t => x <- max_t_below (last traversals identity_all) (- t) ;; match x with Fin y => Ok (- y - t) | _ => Err NotModelled end) traversals.
(** active_edges.py:58-61: indexing the NamedTuple [neg_departures] with a
    [Node] raises TypeError. *)
Definition weak_edges (g : graph) (traversals : list PL) (theta : Qc) (edges : list nat) : res (list nat) :=
  foldM (fun (active : list nat) e => f <- fetch traversals (e_id g e) ;; _ <- pl_eval f theta ;; Err TypeError) edges [].
(** active_edges.py:34-62 [get_active_edges]; the second component is the
    graph afterwards (the weak branch reverses it and, unless something
    raises in between, reverses it back). *)
Definition get_active_edges (g : graph) (costs : list PL) (theta : Qc) (source sink : nat) (relevant : list nat) (strong_fifo : bool) : res (list nat) * graph :=
  if (length (filter (fun e => mem (e_to g e) relevant) (outgoing g source)) <=? 1)%nat then (Ok (outgoing g source), g) else
  match dynamic_dijkstra g theta source sink relevant (map pl_eval costs) with
  | Err x => (Err x, g)
  | Ok r =>
      if strong_fifo then (backward_search g (map pl_eval costs) (dd_arrival r) source sink, g)
      else
        let g1 := g_reverse g in
        match (traversals <- mapM (fun cost => pl_plus cost identity_all) costs ;;
               start <- dfetch (dd_arrival r) sink ;;
               _ <- dynamic_dijkstra g1 start sink source relevant (reversed_costs traversals) ;;
               Ok traversals) with
        | Err x => (Err x, g1)
        | Ok traversals => let g2 := g_reverse g1 in (weak_edges g2 traversals theta (outgoing g2 source), g2)
        end
  end.
