(** * Vocabulary for C75: flow is routed along predicted shortest paths *)
From Verif Require Import Base Spec Arrays PL PLProofs RC FRC FRCProofs PQ PQSpec DynFlow DynRun Graph GraphSpec Dijkstra DijkstraSpec FlowBuilder Predictors PropPredictors2 PropPredictors4.

(** [preds] is what the predictor of type [ty] answered for prediction time
    [t] in the first [n] rounds.  Predictions are made when they are needed
    first, so the flow [fl] it was given is the flow computed so far in some
    round of the period [t, t+r); [_determine_new_inflow] may already have
    moved the reading heads of some outflow collections. *)
Definition asked (S : setup) (r : Qc) (n ty : nat) (t : Qc) (preds : list PL) : Prop :=
  exists m bm p fl, (m <= n)%nat /\ fb_run false S m = Ok bm /\ t <= f_phi (b_flow bm) /\ f_phi (b_flow bm) < t + r /\
    dget (su_preds S) ty = Some p /\
    f_phi fl = f_phi (b_flow bm) /\ f_in fl = f_in (b_flow bm) /\ f_q fl = f_q (b_flow bm) /\
    p_predict p t fl = Ok preds.

(** Predictions routing can work with (C67): one function per edge, each
    [good_prediction]. *)
Definition usable_preds (nw : network) (t : Qc) (preds : list PL) : Prop :=
  length preds = length (g_edges (w_graph nw)) /\
  forall i f cap, nth_error preds i = Some f -> nth_error (w_cap nw) i = Some cap -> exists cur, good_prediction t cur cap f.

(** ** Time-dependent routes *)
Section Route.
Variables (g : graph) (c : nat -> Qc -> Qc) (v : nat) (t0 : Qc) (sink : nat).
(** [t] is the earliest time at which a walk of the whole graph leaving [v] at
    [t0] can be in [w]. *)
Definition earliest_in (w : nat) (t : Qc) : Prop :=
  arrives g t0 v (node_ids g) c w t /\ forall s, arrives g t0 v (node_ids g) c w s -> t <= s.
(** Using [e] from the earliest arrival at its tail on loses at most [eps]
    against the earliest arrival at its head. *)
Definition loses_little (e : nat) : Prop :=
  exists t t', earliest_in (e_from g e) t /\ earliest_in (e_to g e) t' /\ t + c e t <= t' + eps.
(** [e] is followed by a chain of such edges to [sink]. *)
Inductive shortest_from : nat -> Prop :=
  | sf_last e : In e (g_edges g) -> loses_little e -> e_to g e = sink -> shortest_from e
  | sf_next e e' : In e (g_edges g) -> loses_little e -> e_to g e = e_from g e' -> shortest_from e' -> shortest_from e.
End Route.

(** ** Routes for constant predictions *)
(** [costs] are the travel times [tau + q/cap] for the first value [q] of the
    prediction of every edge. *)
Definition constant_times (nw : network) (preds : list PL) (costs : list Qc) : Prop :=
  length costs = length (g_edges (w_graph nw)) /\
  forall i, (i < length (g_edges (w_graph nw)))%nat -> exists f q cap tau, nth_error preds i = Some f /\ nth_error (pl_values f) 0 = Some q /\
    nth_error (w_cap nw) i = Some cap /\ nth_error (w_tau nw) i = Some tau /\ nth_error costs i = Some (tau + q / cap).
(** Starting with [e], the sink is reached by a walk of the whole graph whose
    length exceeds that of no walk from the tail of [e] with [k] edges by more
    than [(k + 1) * eps]. *)
Definition shortest_constant (g : graph) (costs : list Qc) (sink e : nat) : Prop :=
  exists j d, walk_to g costs (node_ids g) sink (e_to g e) j d /\
    forall k x, walk_to g costs (node_ids g) sink (e_from g e) k x -> cost_of g costs e + d <= x + (qn k + 1) * eps.
Definition nonneg_times (nw : network) (preds : list PL) : Prop :=
  length preds = length (g_edges (w_graph nw)) /\ forall f q, In f preds -> nth_error (pl_values f) 0 = Some q -> 0 <= q.

(** ** What is claimed of edge [e] and commodity [i] in the period from [T] on:
    the commodity's predictor was asked for prediction time [T], and if its
    answer is usable, [e] starts a shortest route from its tail to the
    commodity's sink with respect to the predicted travel times. *)
Definition routed (S : setup) (r : Qc) (n : nat) (T : Qc) (e i : nat) : Prop :=
  exists c p preds, nth_error (s_coms S) i = Some c /\ dget (su_preds S) (k_pred c) = Some p /\ asked S r n (k_pred c) T preds /\
    (p_const p = false -> usable_preds (su_net S) T preds ->
       exists travel, predicted_time (su_net S) preds travel /\ shortest_from (s_graph S) travel (e_from (s_graph S) e) T (k_sink c) e) /\
    (p_const p = true -> nonneg_times (su_net S) preds ->
       exists costs, constant_times (su_net S) preds costs /\ shortest_constant (s_graph S) costs (k_sink c) e).
