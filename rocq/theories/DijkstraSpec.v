(** * Specification vocabulary for shortest paths (C40-C42) *)
From Verif Require Import Base Spec Arrays PL RC FRC PQ PQSpec DynFlow Graph GraphSpec Dijkstra.

Definition cost_of (g : graph) (costs : list Qc) (e : nat) : Qc := nth (e_id g e) costs 0.

(** A walk with [k] edges and total cost [c] from [v] to [sink], all of whose
    nodes except possibly [sink] belong to [nodes]. *)
Inductive walk_to (g : graph) (costs : list Qc) (nodes : list nat) (sink : nat) : nat -> nat -> Qc -> Prop :=
  | walk_end : walk_to g costs nodes sink sink 0 0
  | walk_edge e k c : In e (g_edges g) -> In (e_from g e) nodes ->
      walk_to g costs nodes sink (e_to g e) k c ->
      walk_to g costs nodes sink (e_from g e) (S k) (cost_of g costs e + c).

(** Costs of a time-dependent search: total from [phi] on, non-negative, FIFO
    (leaving later never means arriving earlier). *)
Definition fifo_costs (g : graph) (phi : Qc) (costs : list costfn) (c : nat -> Qc -> Qc) : Prop :=
  forall e, In e (g_edges g) -> exists f, nth_error costs (e_id g e) = Some f /\
    (forall t, phi <= t -> f t = Ok (c e t) /\ 0 <= c e t) /\
    (forall s t, phi <= s -> s <= t -> s + c e s <= t + c e t).

(** [arrives v t]: some walk that leaves [source] at [phi] and only enters
    relevant nodes arrives at [v] at time [t]. *)
Inductive arrives (g : graph) (phi : Qc) (source : nat) (relevant : list nat) (c : nat -> Qc -> Qc) : nat -> Qc -> Prop :=
  | arr_here : arrives g phi source relevant c source phi
  | arr_step e t : arrives g phi source relevant c (e_from g e) t -> In e (g_edges g) -> In (e_to g e) relevant ->
      arrives g phi source relevant c (e_to g e) (t + c e t).

(** Edge [e] has a realised cost and is tight within [eps]. *)
Definition tight (g : graph) (r : ddresult) (e : nat) : Prop :=
  exists c tv tw, dget (dd_cost r) e = Some c /\ dget (dd_arrival r) (e_from g e) = Some tv /\
    dget (dd_arrival r) (e_to g e) = Some tw /\ tv + c <= tw + eps.
(** The sink can be reached from [v] along tight edges. *)
Inductive tight_path (g : graph) (r : ddresult) (sink : nat) : nat -> Prop :=
  | tp_end : tight_path g r sink sink
  | tp_edge e : In e (g_edges g) -> tight g r e -> tight_path g r sink (e_to g e) -> tight_path g r sink (e_from g e).
