(** * ml/neighboring_edges.py *)
From Verif Require Import Base FRC Graph.

(** ml/neighboring_edges.py:16-21, 33-37, 52-61: one loop over the edges [l]
    at a queued node; [far e] is the end whose discovery is checked.  The state
    is [(result, discovered, new_queue)]; sets are duplicate-free lists. *)
Definition nb_add (x : nat) (l : list nat) : list nat := if mem x l then l else l ++ [x].
Fixpoint nb_edges (far : nat -> nat) (l : list nat) (s : list nat * list nat * list nat) : list nat * list nat * list nat :=
  match l with
  | [] => s
  | e :: r =>
      let '(result, discovered, new_queue) := s in
      let result := nb_add e result in
      nb_edges far r (if mem (far e) discovered then (result, discovered, new_queue)
                      else (result, nb_add (far e) discovered, new_queue ++ [far e]))
  end.
(** ml/neighboring_edges.py:9-23 [get_neighboring_edges_forward] (line 22: [queue = new_queue]) *)
Fixpoint fwd_loop (g : graph) (n : nat) (result discovered queue : list nat) : list nat :=
  match n with
  | O => result
  | S m =>
      let '(result, discovered, new_queue) :=
        fold_left (fun s v => nb_edges (e_to g) (outgoing g v) s) queue (result, discovered, []) in
      fwd_loop g m result discovered new_queue
  end.
Definition neighbors_forward (g : graph) (edge : nat) (max_distance : nat) : list nat :=
  fwd_loop g max_distance [edge] [e_to g edge] [e_to g edge].
(** ml/neighboring_edges.py:26-38 [get_neighboring_edges_backward]: the queue is never replaced *)
Fixpoint bwd_loop (g : graph) (n : nat) (result discovered queue : list nat) : list nat :=
  match n with
  | O => result
  | S m =>
      let '(result, discovered, _) :=
        fold_left (fun s v => nb_edges (e_from g) (incoming g v) s) queue (result, discovered, []) in
      bwd_loop g m result discovered queue
  end.
Definition neighbors_backward (g : graph) (edge : nat) (max_distance : nat) : list nat :=
  bwd_loop g max_distance [edge] [e_from g edge] [e_from g edge].
(** ml/neighboring_edges.py:41-44 [get_neighboring_edges_directed] *)
Definition neighbors_directed (g : graph) (edge : nat) (max_distance : nat) : list nat :=
  fold_left (fun l e => nb_add e l) (neighbors_forward g edge max_distance) (neighbors_backward g edge max_distance).
(** ml/neighboring_edges.py:47-62 [get_neighboring_edges_undirected]: the queue is never replaced *)
Fixpoint und_loop (g : graph) (n : nat) (result discovered queue : list nat) : list nat :=
  match n with
  | O => result
  | S m =>
      let '(result, discovered, _) :=
        fold_left (fun s v => nb_edges (e_to g) (outgoing g v) (nb_edges (e_from g) (incoming g v) s)) queue (result, discovered, []) in
      und_loop g m result discovered queue
  end.
Definition neighbors_undirected (g : graph) (edge : nat) (max_distance : nat) : list nat :=
  und_loop g max_distance [edge] (nb_add (e_to g edge) [e_from g edge]) [e_from g edge; e_to g edge].
(** ml/neighboring_edges.py:65-77 the masks over [network.graph.edges] *)
Definition mask_undirected (g : graph) (edge max_distance : nat) : list bool :=
  map (fun e => mem e (neighbors_undirected g edge max_distance)) (g_edges g).
Definition mask_directed (g : graph) (edge max_distance : nat) : list bool :=
  map (fun e => mem e (neighbors_directed g edge max_distance)) (g_edges g).
