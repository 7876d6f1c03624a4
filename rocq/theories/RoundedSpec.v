(** * Specification vocabulary for routing with rounded arithmetic (C117) *)
From Verif Require Import Base Spec Arrays PL RC FRC PQ PQSpec DynFlow Graph GraphSpec Dijkstra DijkstraSpec Rounded.

(** A walk with [k] edges from [v] to [sink] inside [nodes] (except possibly
    [sink]) whose costs, added up with rounding from [sink] on, give [c]. *)
Inductive rwalk_to (rnd : Qc -> Qc) (g : graph) (costs : list Qc) (nodes : list nat) (sink : nat) : nat -> nat -> Qc -> Prop :=
  | rwalk_end : rwalk_to rnd g costs nodes sink sink 0 0
  | rwalk_edge e k c : In e (g_edges g) -> In (e_from g e) nodes ->
      rwalk_to rnd g costs nodes sink (e_to g e) k c ->
      rwalk_to rnd g costs nodes sink (e_from g e) (S k) (rnd (cost_of g costs e + c)).

(** [v] can be reached from [source] entering relevant nodes only. *)
Inductive leads (g : graph) (relevant : list nat) (source : nat) : nat -> Prop :=
  | leads_here : leads g relevant source source
  | leads_edge e : leads g relevant source (e_from g e) -> In e (g_edges g) -> In (e_to g e) relevant -> leads g relevant source (e_to g e).

(** The rounding errs by at most [delta] on [0, B). *)
Definition accurate (rnd : Qc -> Qc) (B delta : Qc) : Prop := forall x, 0 <= x -> x < B -> x - delta <= rnd x /\ rnd x <= x + delta.

(** Edge [e] has a realised cost [c] and, as far as the rounded comparison sees,
    is tight within [eps]. *)
Definition r_tight (rnd : Qc -> Qc) (g : graph) (r : ddresult) (e : nat) : Prop :=
  exists c tv tw, dget (dd_cost r) e = Some c /\ dget (dd_arrival r) (e_from g e) = Some tv /\
    dget (dd_arrival r) (e_to g e) = Some tw /\ rnd (tv + c) <= rnd (tw + rnd eps).
(** The sink can be reached from [v] along such edges. *)
Inductive r_tight_path (rnd : Qc -> Qc) (g : graph) (r : ddresult) (sink : nat) : nat -> Prop :=
  | rtp_end : r_tight_path rnd g r sink sink
  | rtp_edge e : In e (g_edges g) -> r_tight rnd g r e -> r_tight_path rnd g r sink (e_to g e) -> r_tight_path rnd g r sink (e_from g e).

(** [r_arrives v t]: some walk that leaves [source] at [phi] and only enters
    relevant nodes arrives at [v] at the time [t], computed with rounding. *)
Inductive r_arrives (rnd : Qc -> Qc) (g : graph) (phi : Qc) (source : nat) (relevant : list nat) (c : nat -> Qc -> Qc) : nat -> Qc -> Prop :=
  | rarr_here : r_arrives rnd g phi source relevant c source phi
  | rarr_step e t : r_arrives rnd g phi source relevant c (e_from g e) t -> In e (g_edges g) -> In (e_to g e) relevant ->
      r_arrives rnd g phi source relevant c (e_to g e) (rnd (t + c e t)).
