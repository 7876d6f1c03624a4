(** * What the exception-freeness properties (C78) assume *)
From Verif Require Import Base Spec FRC DynFlow Graph GraphSpec FlowBuilder RoutesSpec.

(** The predictors of all commodities answer in the first [n] rounds: asked for
    the start [T] of a reroute period and any flow with the clock, inflows and
    queues of the flow built so far, they return usable predictions (C67). *)
Definition answers (S : setup) (r : Qc) (n : nat) : Prop :=
  forall m bm c j fl, (m < n)%nat -> fb_run false S m = Ok bm -> In c (s_coms S) ->
    let T := qn j * r in T <= f_phi (b_flow bm) -> f_phi (b_flow bm) < T + r ->
    f_phi fl = f_phi (b_flow bm) -> f_in fl = f_in (b_flow bm) -> f_q fl = f_q (b_flow bm) ->
    exists p preds, dget (su_preds S) (k_pred c) = Some p /\ p_predict p T fl = Ok preds /\ usable_preds (su_net S) T preds.
(** Every commodity's sink is a node of the graph that can be reached from all its sources. *)
Definition served (S : setup) : Prop :=
  forall c, In c (s_coms S) -> In (k_sink c) (node_ids (s_graph S)) /\
    forall s f, In (s, f) (k_sources c) -> path (arcs (s_graph S)) s (k_sink c).

