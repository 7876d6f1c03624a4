(** * FlowBuilder properties C75 and C77: flow follows predicted shortest routes *)
From Coq Require Import Permutation.
From Verif Require Import Base Spec Arrays ArraysProofs PL PLProofs RC RCProofs FRC FRCProofs PQ PQProofs PQSpec DynFlow DQProofs DynRun DynEvents DynEdge DynFlowProofs PropFlow PropFlow2
  Graph GraphSpec GraphProofs Dijkstra DijkstraSpec DijkstraProofs DijkstraProofs2 FlowBuilder FlowBuilderProofs BuilderRun BuilderFlow PropBuilder PropBuilder2
  Predictors PredictorsProofs PropPredictors PropPredictors2 PropPredictors4 RoutesSpec BuilderRoutes BuilderRoutes2 BuilderRoutes3.

(** Vocabulary: [setup_ok] BuilderRun.v; [sources_ok], [clean_build]
    BuilderFlow.v; [routed] and its parts in RoutesSpec.v; [sent S ni e i] is
    what the dictionary [ni] passed to [flow.extend] assigns to commodity [i]
    on edge [e]. *)

(** ** C75 *)
(** Every round (no cleanliness needed): the round belongs to the period
    [T, T+r) of some multiple [T] of the reroute interval, and whatever it
    assigns to an edge is on a shortest route for the predictions made for [T]. *)
Theorem C75_round : forall S r n b b3 new_inflow e i x,
  setup_ok S r -> sources_ok S -> fb_run false S n = Ok b -> plan S b = Ok (b3, new_inflow) ->
  In e (g_edges (s_graph S)) -> sent S new_inflow e i = Some x ->
  exists m, let T := qn m * r in T <= f_phi (b_flow b) /\ f_phi (b_flow b) < T + r /\ routed S r n T e i.
Proof.
  intros S r n b b3 ni e i x OK SR RN PL IE SD. destruct (plan_rinv S r OK n b b3 ni RN (run_rinv S r OK n b RN) PL) as (_ & _ & _ & R1 & R2 & [m RM]).
  exists m. cbn zeta. rewrite <- RM. split; [exact R1|]. split; [exact R2|]. eapply round_routed; eauto.
Qed.
Print Assumptions C75_round.
(** The recorded flow: at every computed time [t], a commodity with positive
    inflow into an edge is on a shortest route for the predictions made for the
    multiple [T] of the reroute interval with [T <= t < T+r]. *)
Theorem C75_recorded : forall S r n b e i t x,
  setup_ok S r -> sources_ok S -> clean_build S n -> fb_run false S n = Ok b ->
  In e (g_edges (s_graph S)) -> 0 <= t -> t < f_phi (b_flow b) ->
  rate_of (inflow_of (b_flow b) (e_id (s_graph S) e)) i t = Ok x -> x <> 0 ->
  exists m, let T := qn m * r in T <= t /\ t < T + r /\ routed S r n T e i.
Proof.
  intros S r n b e i t x OK SR CL H IE T0 T1 RX NZ. pose proof (clean_same S r OK SR n b CL H) as HT.
  destruct (rd_past S r n b (run_recd S r OK SR n b HT) e i t IE T0 T1) as [m K]; [unfold rin; rewrite RX; exact NZ|]. exists m. exact K.
Qed.
Print Assumptions C75_recorded.

(** ** C77: instantaneous dynamic equilibrium *)
(** [costs] are the current travel times at time [T]: travel time plus queue
    length at [T] in the computed flow divided by capacity. *)
Definition current_times (S : setup) (b : builder) (T : Qc) (costs : list Qc) : Prop :=
  length costs = length (g_edges (s_graph S)) /\
  forall k, (k < length (g_edges (s_graph S)))%nat -> exists q cap tau,
    pl_eval (queue_of (b_flow b) k) T = Ok q /\ 0 <= q /\ nth_error (w_cap (su_net S)) k = Some cap /\ nth_error (w_tau (su_net S)) k = Some tau /\
    nth_error costs k = Some (tau + q / cap).
(** If commodity [i] uses the constant predictor (which [is_constant]), the
    computed flow is an instantaneous dynamic equilibrium up to the length of
    the reroute interval and [eps]: flow of [i] enters [e] only if [e] starts a
    shortest route to the sink for the current travel times at the last
    rerouting time. *)
Theorem C77_constant : forall S r n b c p e i t x,
  setup_ok S r -> sources_ok S -> clean_build S n -> fb_run false S n = Ok b ->
  nth_error (s_coms S) i = Some c -> dget (su_preds S) (k_pred c) = Some p -> p_const p = true -> (forall pt fl, p_predict p pt fl = constant_predict pt fl) ->
  In e (g_edges (s_graph S)) -> 0 <= t -> t < f_phi (b_flow b) ->
  rate_of (inflow_of (b_flow b) (e_id (s_graph S) e)) i t = Ok x -> x <> 0 ->
  exists m costs, let T := qn m * r in T <= t /\ t < T + r /\ current_times S b T costs /\ shortest_constant (s_graph S) costs (k_sink c) e.
Proof.
  intros S r n b c p e i t x OK SR CL H EC DP PC PP IE T0 T1 RX NZ. pose proof (clean_same S r OK SR n b CL H) as HT.
  destruct (C75_recorded S r n b e i t x OK SR CL H IE T0 T1 RX NZ) as [m [K1 [K2 (c' & p' & preds & EC' & DP' & AS & _ & CO)]]].
  rewrite EC in EC'. injection EC' as <-. rewrite DP in DP'. injection DP' as <-. set (T := qn m * r) in *.
  assert (TP : 0 <= T) by (pose proof (so_pos S r OK); pose proof (qn_nonneg m); unfold T; qnra).
  destruct (constant_asked S r OK SR n b (k_pred c) p T preds HT TP DP PP AS) as [LP [PH QS]]. rewrite (so_caps S r OK) in LP, QS.
  destruct (CO PC) as [costs [[LC CT] SC]].
  - split; [exact LP|]. intros f q I Q. apply In_nth_error in I. destruct I as [k I]. assert (L : (k < length (g_edges (s_graph S)))%nat) by (rewrite <- LP; apply nth_error_Some; congruence).
    destruct (QS k L) as [q' [E1 [_ E2]]]. rewrite E1 in I. injection I as <-. cbn in Q. injection Q as <-. exact E2.
  - exists m, costs. cbn zeta. fold T. split; [exact K1|]. split; [exact K2|]. split; [|exact SC]. split; [exact LC|]. intros k L.
    destruct (CT k L) as (f & q & cap & tau & A1 & A2 & A3 & A4 & A5). destruct (QS k L) as [q' [E1 [E2 E3]]]. rewrite E1 in A1. injection A1 as <-. cbn in A2. injection A2 as <-. exists q', cap, tau. auto 6.
Qed.
Print Assumptions C77_constant.
(** With the zero predictor, flow uses shortest routes for the travel times of
    the empty network. *)
Theorem C77_zero : forall S r n b c p e i t x,
  setup_ok S r -> sources_ok S -> clean_build S n -> fb_run false S n = Ok b ->
  nth_error (s_coms S) i = Some c -> dget (su_preds S) (k_pred c) = Some p -> p_const p = true -> (forall pt fl, p_predict p pt fl = zero_predict pt fl) ->
  In e (g_edges (s_graph S)) -> 0 <= t -> t < f_phi (b_flow b) ->
  rate_of (inflow_of (b_flow b) (e_id (s_graph S) e)) i t = Ok x -> x <> 0 ->
  shortest_constant (s_graph S) (w_tau (su_net S)) (k_sink c) e.
Proof.
  intros S r n b c p e i t x OK SR CL H EC DP PC PP IE T0 T1 RX NZ. pose proof (clean_same S r OK SR n b CL H) as HT.
  destruct (C75_recorded S r n b e i t x OK SR CL H IE T0 T1 RX NZ) as [m [K1 [K2 (c' & p' & preds & EC' & DP' & AS & _ & CO)]]].
  rewrite EC in EC'. injection EC' as <-. rewrite DP in DP'. injection DP' as <-. set (T := qn m * r) in *.
  destruct AS as (k & bm & p' & fl & LM & RM & _ & _ & DP' & _ & _ & FQ & PR). rewrite DP in DP'. injection DP' as <-. rewrite PP in PR.
  unfold zero_predict in PR. rewrite one_init in PR. cbn [bind] in PR. injection PR as <-.
  assert (LQ : length (f_q fl) = length (g_edges (s_graph S))).
  { rewrite FQ, <- (so_caps S r OK). replace n with ((n - k) + k)%nat in HT by lia. destruct (run_prefix S _ _ _ HT) as [bm' RM']. pose proof (run_uninstr S k bm' RM') as E. rewrite RM in E. injection E as <-.
    destruct (co_full _ _ bm (run_cons S r OK SR k bm RM')) as [cs F]. apply (proj2 (proj2 (gi_len _ _ _ (fl_g _ _ _ F)))). }
  destruct (CO PC) as [costs [[LC CT] SC]].
  - split; [rewrite map_length; exact LQ|]. intros f q I Q. apply in_map_iff in I. destruct I as [y [<- _]]. cbn in Q. injection Q as <-. qlra.
  - assert (EQ : costs = w_tau (su_net S)); [|rewrite <- EQ; exact SC].
    assert (LT : length (w_tau (su_net S)) = length (g_edges (s_graph S))) by (rewrite <- (so_caps S r OK); apply (so_net S r OK)).
    apply (nth_ext _ _ 0 0); [rewrite LC; symmetry; exact LT|]. intros j L. rewrite LC in L.
    destruct (CT j L) as (f & q & cap & tau & A1 & A2 & A3 & A4 & A5). apply nth_error_In, in_map_iff in A1. destruct A1 as [y [<- _]]. cbn in A2. injection A2 as <-.
    rewrite (nth_error_nth _ _ 0 A5), (nth_error_nth _ _ 0 A4). pose proof (proj1 (proj2 (so_net S r OK)) cap (nth_error_In _ _ A3)). field. qlra.
Qed.
Print Assumptions C77_zero.

(** ** Non-vacuity *)
(** The network of [bx] (PropBuilder.v) with the constant predictor (flagged
    constant for [by_], not constant for [bz]); rerouting every 1/2. *)
Definition by_ : setup := mkSetup bx_net [(0%nat, mkPred constant_predict true)] (Some (Q2Qc (1 # 2))) (fun l => l).
Definition bz : setup := mkSetup bx_net [(0%nat, mkPred constant_predict false)] (Some (Q2Qc (1 # 2))) (fun l => l).
Definition show_rates (S : setup) (n : nat) (ts : list Qc) : option (Q * list (list (option Q)) * list (list (option Q))) :=
  match fb_run false S n with
  | Ok b => Some (this (f_phi (b_flow b)), map (fun t => map (fun k => showq (rate_of (inflow_of (b_flow b) k) 0 t)) [0; 1; 2]%nat) ts,
                  map (fun t => map (fun k => showq (pl_eval (queue_of (b_flow b) k) t)) [0; 1; 2]%nat) ts)
  | Err _ => None
  end.
Example by_run : show_rates by_ 12 [1; Q2Qc (7 # 4)] = Some (6, [[Some 2; Some 1; Some 2]; [Some 0; Some 1; Some 4]], [[Some 1; Some 0; Some 1]; [Some (5 # 4); Some (3 # 4); Some (9 # 4)]])%Q /\
  show_rates by_ 12 [Q2Qc (3 # 2)] = Some (6, [[Some 0; Some 1; Some 4]], [[Some (3 # 2); Some (1 # 2); Some (3 # 2)]])%Q /\ show_rates bz 12 [Q2Qc (7 # 4)] = show_rates by_ 12 [Q2Qc (7 # 4)].
Proof. vm_compute. auto. Qed.
Lemma same_net_ok S : su_net S = bx_net -> su_interval S = Some (Q2Qc (1 # 2)) -> su_ord S = (fun l => l) -> setup_ok S (Q2Qc (1 # 2)) /\ sources_ok S.
Proof.
  intros EN EI EO. destruct bx_ok as [A1 A2 A3 A4 A5 A6 A7 A8 A9]. destruct bx_sources as [B1 B2]. destruct S as [nw ps iv od]. cbn in EN, EI, EO. subst nw iv od.
  split; constructor; try assumption; reflexivity.
Qed.
Example by_ok : setup_ok by_ (Q2Qc (1 # 2)) /\ sources_ok by_ /\ clean_build by_ 12 /\ setup_ok bz (Q2Qc (1 # 2)) /\ sources_ok bz /\ clean_build bz 12.
Proof.
  destruct (same_net_ok by_) as [A1 A2]; try reflexivity. destruct (same_net_ok bz) as [B1 B2]; try reflexivity. split; [exact A1|]. split; [exact A2|]. split; [|split; [exact B1|split; [exact B2|]]].
  - unfold clean_build. intro H. assert (Q : match fb_run true by_ 12 with Err Unclean => false | _ => true end = true) by (vm_compute; reflexivity). rewrite H in Q. discriminate.
  - unfold clean_build. intro H. assert (Q : match fb_run true bz 12 with Err Unclean => false | _ => true end = true) by (vm_compute; reflexivity). rewrite H in Q. discriminate.
Qed.
(** Commodity 0 enters edge 2 (from node 1 directly to node 3) at time 7/4:
    at the rerouting time 3/2 the route through node 2 takes 1+3/2 + 1+1/2 = 4,
    the edge 2 + 3/2. *)
Example C77_example : exists b, fb_run false by_ 12 = Ok b /\ qz 5 < f_phi (b_flow b) /\ exists m costs, let T := qn m * Q2Qc (1 # 2) in
  T <= Q2Qc (7 # 4) /\ Q2Qc (7 # 4) < T + Q2Qc (1 # 2) /\ current_times by_ b T costs /\ shortest_constant (s_graph by_) costs 3 2.
Proof.
  destruct by_ok as [OK [SR [CL _]]].
  assert (Q : match fb_run false by_ 12 with
    | Ok b => qltb (qz 5) (f_phi (b_flow b)) && match rate_of (inflow_of (b_flow b) (e_id (s_graph by_) 2)) 0 (Q2Qc (7 # 4)) with Ok x => negb (qeqb x 0) | _ => false end
    | Err _ => false end = true) by (vm_compute; reflexivity).
  destruct (fb_run false by_ 12) as [b|] eqn:R; [|discriminate Q]. apply andb_prop in Q. destruct Q as [Q1 Q2]. apply qltb_true in Q1. exists b. split; [reflexivity|]. split; [exact Q1|].
  destruct (rate_of (inflow_of (b_flow b) (e_id (s_graph by_) 2)) 0 (Q2Qc (7 # 4))) as [x|] eqn:RX; [|discriminate Q2]. apply negb_true_iff, qeqb_false in Q2.
  refine (C77_constant by_ (Q2Qc (1 # 2)) 12 b _ _ 2 0 (Q2Qc (7 # 4)) x OK SR CL R eq_refl eq_refl eq_refl _ _ _ _ RX Q2).
  - reflexivity.
  - cbn. auto.
  - qdec.
  - assert (Q2Qc (7 # 4) < qz 5) by qdec. qlra.
Qed.
(** Constant predictions are usable for time-dependent routing, so C75 applies
    with its non-constant part to [bz]. *)
Lemma constant_usable S r n b ty p m preds : setup_ok S r -> sources_ok S -> fb_run true S n = Ok b -> dget (su_preds S) ty = Some p -> (forall pt fl, p_predict p pt fl = constant_predict pt fl) ->
  asked S r n ty (qn m * r) preds -> usable_preds (su_net S) (qn m * r) preds.
Proof.
  intros OK SR RT DP PP AS. assert (TP : 0 <= qn m * r) by (pose proof (so_pos S r OK); pose proof (qn_nonneg m); qnra).
  destruct (constant_asked S r OK SR n b ty p _ preds RT TP DP PP AS) as [LP [_ QS]]. split; [rewrite LP; apply (so_caps S r OK)|].
  intros k f cap F K. destruct (QS k) as [q [E1 [_ E2]]]; [rewrite <- LP; apply nth_error_Some; congruence|]. rewrite E1 in F. injection F as <-. exists q. apply good_const; [exact E2|].
  pose proof (proj1 (proj2 (so_net S r OK)) cap (nth_error_In _ _ K)). qlra.
Qed.
Example C75_example : exists b, fb_run false bz 12 = Ok b /\ exists m preds travel, let T := qn m * Q2Qc (1 # 2) in
  T <= Q2Qc (7 # 4) /\ Q2Qc (7 # 4) < T + Q2Qc (1 # 2) /\ asked bz (Q2Qc (1 # 2)) 12 0 T preds /\ predicted_time (su_net bz) preds travel /\ shortest_from (s_graph bz) travel 1 T 3 2.
Proof.
  destruct by_ok as [_ [_ [_ [OK [SR CL]]]]].
  assert (Q : match fb_run false bz 12 with
    | Ok b => qltb (qz 5) (f_phi (b_flow b)) && match rate_of (inflow_of (b_flow b) (e_id (s_graph bz) 2)) 0 (Q2Qc (7 # 4)) with Ok x => negb (qeqb x 0) | _ => false end
    | Err _ => false end = true) by (vm_compute; reflexivity).
  destruct (fb_run false bz 12) as [b|] eqn:R; [|discriminate Q]. apply andb_prop in Q. destruct Q as [Q1 Q2]. apply qltb_true in Q1. exists b. split; [reflexivity|].
  destruct (rate_of (inflow_of (b_flow b) (e_id (s_graph bz) 2)) 0 (Q2Qc (7 # 4))) as [x|] eqn:RX; [|discriminate Q2]. apply negb_true_iff, qeqb_false in Q2.
  destruct (C75_recorded bz (Q2Qc (1 # 2)) 12 b 2 0 (Q2Qc (7 # 4)) x OK SR CL R) as [m [K1 [K2 (c & p & preds & EC & DP & AS & DY & _)]]]; auto.
  - cbn. auto.
  - qdec.
  - assert (Q2Qc (7 # 4) < qz 5) by qdec. qlra.
  - cbn [bz s_coms su_net bx_net w_com nth_error] in EC. injection EC as <-. cbn [bz su_preds dget k_pred Nat.eqb] in DP. injection DP as <-. cbn [k_pred k_sink] in *.
    destruct (DY eq_refl) as [travel [D1 D2]].
    + eapply (constant_usable bz); eauto; [exact (clean_same bz _ OK SR 12 b CL R)|reflexivity|reflexivity].
    + exists m, preds, travel. cbn zeta. auto 6.
Qed.
