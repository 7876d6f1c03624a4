(** * What C121 assumes and says *)
From Coq Require Import Sorted.
From Verif Require Import Base Spec Arrays PL RC FRC PQ PQSpec DynFlow DynRun Graph GraphSpec Dijkstra FlowBuilder Rounded RoundedFlow RoundedBuilder.

(** [x] returns a value satisfying [P]; only if assertions are on ([on]) it may
    instead fail one. *)
Definition safe {A} (on : bool) (x : res A) (P : A -> Prop) : Prop := (exists a, x = Ok a /\ P a) \/ (on = true /\ x = Err AssertionError).
(** A network inflow rate: some breakpoint, as many values as breakpoints. *)
Definition rate_ok (f : RC) : Prop := rc_times f <> [] /\ length (rc_values f) = length (rc_times f).
(** Capacities and breakpoints of the network inflow are floats. *)
Definition float_setup (rnd : Qc -> Qc) (S : setup) : Prop :=
  Forall (float rnd) (n_cap (s_nw S)) /\
  forall c v f, In c (s_coms S) -> In (v, f) (k_sources c) -> rate_ok f /\ Forall (float rnd) (rc_times f).
(** The travel time of edge [e] that the builder computes at the time [T] from
    the predicted queue [p]. *)
Definition r_cost (rnd : Qc -> Qc) (nw : Net) (T : Qc) (e : nat) (p : PL) : PL :=
  mkPL (pl_times p) (map (fun v => rnd (tau_of nw e + rnd (v / cap_of nw e))) (pl_values p))
       (rnd (pl_first p / cap_of nw e)) (rnd (pl_last p / cap_of nw e)) (Fin T) PInf.
(** A usable prediction for edge [e] made at the time [T]: a piecewise linear
    function with increasing floats as breakpoints, such that the computed travel time
    is non-negative at the first breakpoint and from [T] on. *)
Definition r_usable_pl (rnd : Qc -> Qc) (nw : Net) (T : Qc) (e : nat) (p : PL) : Prop :=
  pl_times p <> [] /\ length (pl_values p) = length (pl_times p) /\ StronglySorted Qclt (pl_times p) /\ Forall (float rnd) (pl_times p) /\
  (forall v, nth_error (pl_values (r_cost rnd nw T e p)) 0 = Some v -> 0 <= v) /\
  (forall t y, T <= t -> r_pl_eval rnd false (r_cost rnd nw T e p) t = Ok y -> 0 <= y).
Definition r_usable (rnd : Qc -> Qc) (S : setup) (T : Qc) (preds : list PL) : Prop :=
  length preds = length (g_edges (s_graph S)) /\ forall e p, nth_error preds e = Some p -> r_usable_pl rnd (s_nw S) T e p.
(** The time for which the next round asks the predictors. *)
Definition asks_at (b : builder) : Qc := if qleb (b_next b) (f_phi (b_flow b)) then b_next b else b_route b.
(** In the first [n] rounds the predictors of all commodities are given, and
    asked for the time [asks_at] and any flow with the clock, inflows and queues of the
    flow built so far they return usable predictions (or fail an assertion). *)
Definition r_answers (rnd : Qc -> Qc) (on : bool) (S : setup) (n : nat) : Prop :=
  forall m b c st, (m < n)%nat -> r_fb_run rnd on S m = Ok b -> In c (s_coms S) ->
    f_phi st = f_phi (b_flow b) -> f_in st = f_in (b_flow b) -> f_q st = f_q (b_flow b) ->
    exists p, dget (su_preds S) (k_pred c) = Some p /\ safe on (p_predict p (asks_at b) st) (r_usable rnd S (asks_at b)).
