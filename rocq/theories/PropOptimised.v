(** * C114: switching assertions off changes no result

    The project is meant to be run with [PYTHONOPTIMIZE=TRUE] (the evaluation
    functions insist on it); the other properties are proved of the code with
    assertions on.  [o_f] (Optimised.v) is the function [f] without its
    assertions.  [refines x y] (DynFlowProofs.v): if [x] returns a value then
    [y] returns the same value. *)
From Verif Require Import Base Spec Arrays PL RC FRC PQ PQSpec DynFlow DynRun DynFlowProofs PropFlow PropFlow2 Graph FlowBuilder BuilderRun BuilderFlow PropBuilder PropBuilder2
  Predictors Eval Eval2 Optimised OptProofs TotalSpec PropRoutes PropTotal.

(** ** Vocabulary *)
(** A setup as the optimised interpreter sees it: the same network, interval
    and iteration orders; every predictor has a counterpart that returns
    whatever the checked one returns. *)
Record optimised_setup (S S' : setup) : Prop := {
  os_net : su_net S' = su_net S;
  os_int : su_interval S' = su_interval S;
  os_ord : su_ord S' = su_ord S;
  os_pred : forall ty p, dget (su_preds S) ty = Some p ->
    exists p', dget (su_preds S') ty = Some p' /\ p_const p' = p_const p /\
      forall t flow v, p_predict p t flow = Ok v -> p_predict p' t flow = Ok v }.

(** ** The guard *)
(** Without a waiver the evaluation runs exactly with assertions off. *)
Theorem C114_guard : forall optimised check,
  may_run optimised check = (if (check && negb optimised)%bool then Err AssertionError else Ok tt) /\
  (may_run optimised true = Ok tt <-> optimised = true) /\ may_run optimised false = Ok tt.
Proof. intros [] []; cbn; repeat split; intro H; try discriminate H; reflexivity. Qed.
Print Assumptions C114_guard.

(** ** Whatever the checked code returns, the optimised code returns *)
Theorem C114_flow : forall nw calls st, flow_run false nw calls = Ok st -> o_flow_run nw calls = Ok st.
Proof. intros nw calls st. apply o_run_ok. Qed.
Print Assumptions C114_flow.
Theorem C114_predictors : forall t flow,
  (forall v, constant_predict t flow = Ok v -> o_constant_predict t flow = Ok v) /\
  (forall v, zero_predict t flow = Ok v -> o_zero_predict t flow = Ok v) /\
  (forall h v, linear_predict h t flow = Ok v -> o_linear_predict h t flow = Ok v) /\
  (forall h d v, reg_linear_predict h d t flow = Ok v -> o_reg_linear_predict h d t flow = Ok v).
Proof.
  intros t flow. split; [apply o_constant_ok|]. split; [apply o_zero_ok|]. split; [intros h v; apply o_linear_ok|intros h d v; apply o_reg_ok].
Qed.
Print Assumptions C114_predictors.
Theorem C114_build : forall S S' n b, optimised_setup S S' -> fb_run false S n = Ok b -> o_fb_run S' n = Ok b.
Proof. intros S S' n b [E1 E2 E3 E4]. apply (o_fb_run_ok S S' E1 E2 E3 E4 n). Qed.
Print Assumptions C114_build.
Theorem C114_measure : forall S S' fuel h observe log due n b, optimised_setup S S' ->
  build_with_times fuel S h observe log due = Ok (n, b) -> o_build_with_times fuel S' h observe log due = Ok (n, b).
Proof. intros S S' fuel h observe log due n b [E1 E2 E3 E4]. apply (o_bwt_ok S S' E1 E2 E3 E4 fuel h observe log due). Qed.
Print Assumptions C114_measure.
Theorem C114_travel_time : forall outflow i in_edges sources horizon v,
  avg_travel_time outflow i in_edges sources horizon = Ok v -> o_avg_travel_time outflow i in_edges sources horizon = Ok v.
Proof. intros outflow i in_edges sources horizon v. apply o_att_ok. Qed.
Print Assumptions C114_travel_time.

(** ** Where the checked code does not raise, the modes agree *)
(** Hence C33 - C36, C62, C63 hold of the optimised code too. *)
Theorem C114_clean : forall nw calls, net_ok nw -> valid_run nw calls -> clean_run nw calls ->
  o_flow_run nw calls = flow_run false nw calls /\
  exists st, o_flow_run nw calls = Ok st /\ forall e t, (e < length (n_cap nw))%nat -> t <= f_phi st -> exists q, pl_eval (queue_of st e) t = Ok q /\ 0 <= q.
Proof.
  intros nw calls NW V C. destruct (C32_no_exception nw calls NW V C) as [st E]. pose proof (C114_flow nw calls st E) as E'. split; [congruence|].
  exists st. split; [exact E'|]. intros e t L T. destruct (C33_queue_nonneg nw calls st e t NW V C E L T) as (q & Q1 & Q2 & _). eauto.
Qed.
Print Assumptions C114_clean.
Theorem C114_clean_build : forall S S' r n, optimised_setup S S' -> setup_ok S r -> BuilderFlow.sources_ok S -> served S -> answers S r n -> clean_build S n ->
  exists b, fb_run false S n = Ok b /\ o_fb_run S' n = Ok b.
Proof.
  intros S S' r n O OK SR SV AN CL. destruct (C78_no_exception S r n OK SR SV AN CL) as [b E]. exists b. split; [exact E|apply (C114_build S S' n b O E)].
Qed.
Print Assumptions C114_clean_build.

(** ** Where the checked code raises, the optimised code loses flow silently *)
(** The run of C32_refuted.  With assertions on, the third call raises.  With
    assertions off it returns, and 30000 units that entered the edge leave as
    29999.99999975: the difference, 2.5 times the tolerance [1000 * eps] of
    the failed check, is neither queued nor on its way. *)
Definition lost (nw : Net) (e : nat) (t : Qc) (st : Flow) : res Qc :=
  i <- pl_eval (c_acc (inflow_of st e)) t ;; o <- pl_eval (c_acc (outflow_of st e)) (t + tau_of nw e) ;; q <- pl_eval (queue_of st e) t ;; Ok (i - q - o).
Theorem C114_refuted : net_ok bad_net /\ valid_run bad_net bad_calls /\ flow_run false bad_net bad_calls = Err AssertionError /\
  exists st, o_flow_run bad_net bad_calls = Ok st /\ f_phi st = qz 3 /\
    exists x, lost bad_net 0 (qz 3) st = Ok x /\ x = Q2Qc (1 # 4000000) /\ qz 1000 * eps < x.
Proof.
  destruct C32_refuted as (A & B & C). split; [exact A|]. split; [exact B|]. split; [exact C|].
  assert (H : match o_flow_run bad_net bad_calls with
              | Ok st => (qeqb (f_phi st) (qz 3) && match lost bad_net 0 (qz 3) st with Ok x => qeqb x (Q2Qc (1 # 4000000)) | Err _ => false end)%bool
              | Err _ => false end = true) by (vm_compute; reflexivity).
  destruct (o_flow_run bad_net bad_calls) as [st|]; [|discriminate]. exists st. split; [reflexivity|]. apply andb_prop in H as [H1 H2].
  split; [apply qeqb_true, H1|]. destruct (lost bad_net 0 (qz 3) st) as [x|]; [|discriminate]. exists x. split; [reflexivity|].
  apply qeqb_true in H2. split; [exact H2|]. rewrite H2. apply qltb_true. vm_compute. reflexivity.
Qed.
Print Assumptions C114_refuted.

(** ** Non-vacuity *)
Example C114_ex_flow : exists st, o_flow_run ex_net ex_calls = Ok st /\ flow_run false ex_net ex_calls = Ok st.
Proof.
  assert (H : match flow_run false ex_net ex_calls with Ok _ => true | Err _ => false end = true) by (vm_compute; reflexivity).
  destruct (flow_run false ex_net ex_calls) as [st|] eqn:E; [|discriminate]. exists st. split; [apply C114_flow; exact E|reflexivity].
Qed.
(** The builder example of C78, with the optimised constant predictor. *)
Definition bz' : setup := mkSetup (su_net bz) (map (fun p => (fst p, mkPred o_constant_predict (p_const (snd p)))) (su_preds bz)) (su_interval bz) (su_ord bz).
Example C114_ex_build : optimised_setup bz bz' /\ exists b, o_fb_run bz' 12 = Ok b.
Proof.
  assert (O : optimised_setup bz bz').
  { split; try reflexivity. intros ty p H. unfold bz' in *. cbn [su_preds] in *. cbn in H |- *. 
    repeat match goal with |- context [if ?c then _ else _] => destruct c end; repeat match type of H with context [if ?c then _ else _] => destruct c end; try discriminate;
    injection H as <-; eexists; (split; [reflexivity|split; [reflexivity|intros t fl; apply o_constant_ok]]). }
  split; [exact O|]. destruct C78_example as [b E]. exists b. apply (C114_build bz bz' 12 b O E).
Qed.
