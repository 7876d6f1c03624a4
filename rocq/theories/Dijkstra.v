(** * Model of src/core/dijkstra.py

    Nodes are given by their ids, edges by references (Graph.v).  The
    PriorityQueues are represented by the specification queue [squeue] of
    PQSpec.v, to which the real heap is equivalent (C23). *)
From Verif Require Import Base Arrays PL RC FRC PQ PQSpec DynFlow Graph.

(** queues.py:28-34 [push] and 97-101 [decrease_key], with their assertions. *)
Definition sq_push (s : @squeue nat) (it : nat) (k : ext) : res (@squeue nat) :=
  if sq_has s it then Err AssertionError else Ok (sq_set s it k).
Definition sq_decrease (s : @squeue nat) (it : nat) (k : ext) : res (@squeue nat) :=
  if sq_has s it then Ok (sq_set s it k) else Err AssertionError.
(** [l[i]] for a natural index *)
Definition fetch {A} (l : list A) (i : nat) : res A :=
  match nth_error l i with Some x => Ok x | None => Err IndexError end.

(** dijkstra.py:20-33 the body of the [for] loop *)
Definition rd_edge (g : graph) (costs : list Qc) (nodes : list nat) (w : nat)
    (s : list (nat * Qc) * @squeue nat) (edge : nat) : res (list (nat * Qc) * @squeue nat) :=
  let '(dist, queue) := s in
  let v := e_from g edge in
  if negb (mem v nodes) then Ok s else
  c <- fetch costs (e_id g edge) ;;
  dw <- dfetch dist w ;;
  let relaxation := c + dw in
  match dget dist v with
  | None => q <- sq_push queue v (Fin relaxation) ;; Ok (dset dist v relaxation, q)
  | Some dv =>
      if qltb relaxation (dv - eps) then
        q <- (if sq_has queue v then sq_decrease queue v (Fin relaxation) else sq_push queue v (Fin relaxation)) ;;
        Ok (dset dist v relaxation, q)
      else Ok s
  end.
(** dijkstra.py:18-33 the [while] loop.  The fuel suffices for non-negative
    costs (C40); for others the model may answer [OutOfFuel]. *)
Fixpoint rd_loop (fuel : nat) (g : graph) (costs : list Qc) (nodes : list nat)
    (dist : list (nat * Qc)) (queue : @squeue nat) : res (list (nat * Qc)) :=
  if (0 <? sq_len queue)%nat then
    match fuel with
    | 0%nat => Err OutOfFuel
    | S f =>
        '(q, w) <- sq_pop queue ;;
        '(dist', q') <- foldM (rd_edge g costs nodes w) (incoming g w) (dist, q) ;;
        rd_loop f g costs nodes dist' q'
    end
  else Ok dist.
(** dijkstra.py:10-35 [reverse_dijkstra] *)
Definition reverse_dijkstra (g : graph) (sink : nat) (costs : list Qc) (nodes : list nat) : res (list (nat * Qc)) :=
  assert! mem sink nodes ;;
  rd_loop (S (length (g_nodes g))) g costs nodes [(sink, 0)] (sq_set sq_empty sink (Fin 0)).

(** A cost function: a Python callable from times to floats that may raise. *)
Definition costfn := Qc -> res Qc.

(** dijkstra.py:38-40 [DynamicDijkstraResult] *)
Record ddresult := mkDD { dd_arrival : list (nat * Qc); dd_cost : list (nat * Qc) }.

(** dijkstra.py:64-73 the body of the [for] loop; [tv] is [arrival_times[v]] *)
Definition dd_edge (g : graph) (relevant : list nat) (costs : list costfn) (arrival : list (nat * Qc)) (v : nat)
    (s : list (nat * Qc) * @squeue nat) (e : nat) : res (list (nat * Qc) * @squeue nat) :=
  let '(realized, queue) := s in
  let w := e_to g e in
  if (dhas arrival w || negb (mem w relevant))%bool then Ok s else
  f <- fetch costs (e_id g e) ;;
  tv <- dfetch arrival v ;;
  c <- f tv ;;
  let realized := dset realized e c in
  let relaxation := tv + c in
  match sq_key_of queue w with
  | None => q <- sq_push queue w (Fin relaxation) ;; Ok (realized, q)
  | Some k => if ext_ltb (Fin relaxation) k
              then q <- sq_decrease queue w (Fin relaxation) ;; Ok (realized, q)
              else Ok (realized, queue)
  end.
(** dijkstra.py:58-73 the [while] loop *)
Fixpoint dd_loop (fuel : nat) (g : graph) (sink : nat) (relevant : list nat) (costs : list costfn)
    (arrival realized : list (nat * Qc)) (queue : @squeue nat) : res ddresult :=
  if (0 <? sq_len queue)%nat then
    match fuel with
    | 0%nat => Err OutOfFuel
    | S f =>
        let key := sq_min_key queue in
        '(q, v) <- sq_pop queue ;;
        match key with
        | Fin t =>
            let arrival := dset arrival v t in
            if Nat.eqb v sink then Ok (mkDD arrival realized) else
            '(realized', q') <- foldM (dd_edge g relevant costs arrival v) (outgoing g v) (realized, q) ;;
            dd_loop f g sink relevant costs arrival realized' q'
        | _ => Err NotModelled
        end
    end
  else Ok (mkDD arrival realized).
(** dijkstra.py:43-74 [dynamic_dijkstra] *)
Definition dynamic_dijkstra (g : graph) (phi : Qc) (source sink : nat) (relevant : list nat) (costs : list costfn) : res ddresult :=
  dd_loop (S (length (g_nodes g))) g sink relevant costs [] [] (sq_set sq_empty source (Fin phi)).

(** dijkstra.py:88-97 the body of the [for] loop *)
Definition ae_edge (g : graph) (r : ddresult) (source w : nat)
    (s : list nat * list nat * list nat) (e : nat) : res (list nat * list nat * list nat) :=
  let '(active, touched, queue) := s in
  match dget (dd_cost r) e with
  | None => Ok s
  | Some c =>
      let v := e_from g e in
      tv <- dfetch (dd_arrival r) v ;;
      tw <- dfetch (dd_arrival r) w ;;
      if qleb (tv + c) (tw + eps) then
        let active := if Nat.eqb v source then active ++ [e] else active in
        if mem v touched then Ok (active, touched, queue) else Ok (active, v :: touched, v :: queue)
      else Ok s
  end.
(** dijkstra.py:86-97 the [while] loop (the list used as a stack has its top at the head) *)
Fixpoint ae_loop (fuel : nat) (g : graph) (r : ddresult) (source : nat)
    (active touched queue : list nat) : res (list nat) :=
  match queue with
  | [] => Ok active
  | w :: q => match fuel with
              | 0%nat => Err OutOfFuel
              | S f =>
                  '(active', touched', q') <- foldM (ae_edge g r source w) (incoming g w) (active, touched, q) ;;
                  ae_loop f g r source active' touched' q'
              end
  end.
(** dijkstra.py:77-100 [get_active_edges_from_dijkstra] *)
Definition get_active_edges_from_dijkstra (g : graph) (r : ddresult) (source sink : nat) : res (list nat) :=
  active <- ae_loop (S (length (g_nodes g))) g r source [] [sink] [sink] ;;
  assert! (0 <? length active)%nat ;;
  Ok active.
