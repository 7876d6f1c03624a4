(** * FlowBuilder properties C37, C39, C64 *)
From Coq Require Import Permutation.
From Verif Require Import Base Spec Arrays PL RC FRC FRCProofs PQ PQProofs PQSpec DynFlow DQProofs DynRun DynEvents DynEdge DynFlowProofs PropFlow PropFlow2
  Graph GraphSpec GraphProofs Dijkstra DijkstraSpec DijkstraProofs DijkstraProofs2 FlowBuilder FlowBuilderProofs BuilderRun BuilderFlow.

(** ** Vocabulary
    [setup_ok], [change_at] and [plan] are in BuilderRun.v; [supply], [sent],
    [sinks_at] and [routes] in FlowBuilderProofs.v; [qsum] and [sent_rate] in
    BuilderFlow.v. *)
(** ** C37 *)
(** In every round of every run: [plan] succeeded with [new_inflow = ni], and
    [v] is one of the handled nodes.  Then for every commodity [i], with [x]
    its outflow from the edges into [v] plus its network inflow at [v]: *)
Theorem C37_node_balance : forall S r n b b3 ni v i,
  setup_ok S r -> fb_run false S n = Ok b -> plan S b = Ok (b3, ni) -> In v (b_handle b3) ->
  let x := supply S b v i in
  (sinks_at S v i -> forall e, In e (outgoing (s_graph S) v) -> sent S ni e i = None) /\
  (~ sinks_at S v i -> x < eps -> forall e, In e (outgoing (s_graph S) v) -> sent S ni e i = None) /\
  (~ sinks_at S v i -> eps <= x ->
     exists active, NoDup active /\ active <> [] /\ (forall e, In e active -> In e (outgoing (s_graph S) v)) /\
       (forall e, In e (outgoing (s_graph S) v) -> sent S ni e i = if mem e active then Some (x / qn (length active)) else None) /\
       qsum (map (fun e => sent_rate S ni e i) (outgoing (s_graph S) v)) = x).
Proof.
  intros S r n b b3 ni v i OK R P Hv x. pose proof (plan_ok S r OK b b3 ni (run_sched S r OK false n b R) P) as PL.
  destruct (pl_split _ _ _ _ _ PL v i Hv) as [A [B D]]. split; [exact A|]. split; [exact B|]. intros N L. destruct (D N L) as [act [RT E]]. fold x in E.
  exists act. destruct RT as [R1 [R2 R3]]. split; [exact R1|]. split; [exact R2|]. split; [exact R3|]. split; [exact E|].
  assert (EQ : map (fun e => sent_rate S ni e i) (outgoing (s_graph S) v) = map (fun e => if mem e act then x / qn (length act) else 0) (outgoing (s_graph S) v)).
  { apply map_ext_in. intros e I. unfold sent_rate. rewrite (E e I). destruct (mem e act); reflexivity. }
  rewrite EQ, sum_split; auto; [|apply nd_out, (so_graph S r OK)].
  assert (0 < qn (length act)) by (apply qn_pos; destruct act; [contradiction|cbn; lia]). field. qlra.
Qed.
Print Assumptions C37_node_balance.
(** Exactly the outgoing edges of handled nodes are assigned a new inflow, each once. *)
Theorem C37_assigned_edges : forall S r n b b3 ni,
  setup_ok S r -> fb_run false S n = Ok b -> plan S b = Ok (b3, ni) ->
  NoDup (map fst ni) /\ forall k, In k (map fst ni) <-> exists v e, In v (b_handle b3) /\ In e (outgoing (s_graph S) v) /\ e_id (s_graph S) e = k.
Proof. intros S r n b b3 ni OK R P. apply (pl_ids _ _ _ _ _ (plan_ok S r OK b b3 ni (run_sched S r OK false n b R) P)). Qed.
Print Assumptions C37_assigned_edges.

(** ** C39 *)
(** One round.  The clock does not run backwards, stops at the next reroute
    time at the latest, and jumps over no network inflow change.  Routes are
    recomputed in this round (all cached routes and costs dropped, route time
    set to now, next reroute time one interval later, all nodes handled) if and
    only if phi is the next reroute time. *)
Theorem C39_round : forall S r n b b',
  setup_ok S r -> fb_run false S n = Ok b -> fb_step false S b = Ok b' ->
  f_phi (b_flow b) <= f_phi (b_flow b') /\ f_phi (b_flow b') <= b_next b' /\
  (forall i v t, change_at S i v t -> f_phi (b_flow b) < t -> f_phi (b_flow b') <= t) /\
  (f_phi (b_flow b) = b_next b -> b_route b' = f_phi (b_flow b) /\ b_next b' = f_phi (b_flow b) + r) /\
  (f_phi (b_flow b) <> b_next b -> b_route b' = b_route b /\ b_next b' = b_next b).
Proof.
  intros S r n b b' OK R H. pose proof (run_sched S r OK false n b R) as SC. destruct (step_ok S r OK false b b' SC H) as [b3 [ni [maxt [ch ST]]]].
  destruct ST as [EP PL VC _ SP [M1 M2] TI [Z1 [Z2 [Z3 [Z4 Z5]]]] ND HD]. destruct (sc_ev _ _ _ SC) as [cs EV]. destruct (SP cs EV) as [S1 [S2 _]].
  rewrite (pl_phi _ _ _ _ _ PL) in S1. split; [exact S1|]. split; [rewrite Z1; qlra|]. split; [|split].
  - intros i v t CH LT. pose proof (sc_all _ _ _ SC i v t CH LT) as K. destruct (sq_key_of (b_changes b) (i, v, t)) as [q|] eqn:E; [|congruence].
    destruct (sc_key _ _ _ SC _ _ E) as [-> _]. cbn [snd] in E. destruct (pl_q _ _ _ _ _ PL) as [_ QK]. assert (maxt <= t); [|qlra].
    apply (M2 (i, v, t)). apply QK. split; [exact E|]. cbn [ext_le]. qlra.
  - intro Q. destruct (pl_re _ _ _ _ _ PL Q) as [W1 [W2 _]]. rewrite Z1, Z2, W1, W2, Q. auto.
  - intro Q. destruct (pl_no _ _ _ _ _ PL Q) as [W1 [W2 _]]. rewrite Z1, Z2, W1, W2. auto.
Qed.
Print Assumptions C39_round.
(** Which nodes are handled in a round: all of them when rerouting, otherwise
    the heads of the edges whose outflow changed at phi (as reported by the last
    extension) and the sources with a pending network inflow change at or before phi. *)
Theorem C39_handled : forall S r n b b3 ni,
  setup_ok S r -> fb_run false S n = Ok b -> plan S b = Ok (b3, ni) ->
  (f_phi (b_flow b) = b_next b -> forall v, In v (b_handle b3) <-> In v (node_ids (s_graph S))) /\
  (f_phi (b_flow b) <> b_next b -> forall v, In v (b_handle b3) <-> In v (b_handle b) \/
     exists i t, sq_key_of (b_changes b) (i, v, t) = Some (Fin t) /\ t <= f_phi (b_flow b)).
Proof.
  intros S r n b b3 ni OK R P. pose proof (run_sched S r OK false n b R) as SC. pose proof (plan_ok S r OK b b3 ni SC P) as PL. split.
  - intros Q v. apply (pl_re _ _ _ _ _ PL Q).
  - intros Q v. destruct (pl_no _ _ _ _ _ PL Q) as [_ [_ Z]]. rewrite Z. split.
    + intros [H|[[[i w] t] [[k [K L]] <-]]]; [left; exact H|]. right. destruct (sc_key _ _ _ SC _ _ K) as [-> _]. exists i, t. auto.
    + intros [H|[i [t [K L]]]]; [left; exact H|]. right. exists (i, v, t). split; [exists (Fin t); auto|reflexivity].
Qed.
Print Assumptions C39_handled.
(** The whole run.  Before phi passes it, every reroute time j*r is hit exactly,
    in a round that reroutes; and every network inflow change time t (a time
    before the start counts as 0) is hit exactly, in a round that handles the source. *)
Theorem C39_reroutes : forall S r n b j,
  setup_ok S r -> fb_run false S n = Ok b -> qn j * r < f_phi (b_flow b) ->
  exists m bm, (m < n)%nat /\ fb_run false S m = Ok bm /\ f_phi (b_flow bm) = qn j * r /\ b_next bm = qn j * r.
Proof.
  intros S r n b j OK R L. destruct (reroutes S r OK false n b R) as [M [E H]]. apply H. pose proof (sc_next _ _ _ (run_sched S r OK false n b R)) as NX.
  destruct (Nat.lt_ge_cases j M) as [Q|Q]; [exact Q|]. exfalso. pose proof (so_pos S r OK) as P. pose proof (qn_mono M j Q) as QM.
  assert (qn M * r <= qn j * r); [|qlra]. pose proof (qmul_nn (qn j - qn M) r ltac:(qlra) ltac:(qlra)). assert (qn j * r - qn M * r = (qn j - qn M) * r) by ring. qlra.
Qed.
Print Assumptions C39_reroutes.
Theorem C39_changes : forall S r n b i v t,
  setup_ok S r -> fb_run false S n = Ok b -> change_at S i v t -> qmax t 0 < f_phi (b_flow b) ->
  exists m bm b3 ni, (m < n)%nat /\ fb_run false S m = Ok bm /\ f_phi (b_flow bm) = qmax t 0 /\ plan S bm = Ok (b3, ni) /\ In v (b_handle b3).
Proof.
  intros S r n b i v t OK R CH L. destruct (hist S r OK false n b R) as [H1 H2].
  destruct (sq_key_of (b_changes b) (i, v, t)) as [q|] eqn:E; [|apply (H2 i v t CH E)].
  pose proof (H1 i v t ltac:(congruence)) as Q. exfalso. qlra.
Qed.
Print Assumptions C39_changes.

(** ** C64: reroute_interval = None *)
(** The comment in the constructor promises rerouting at every event.  In fact
    the first round raises: None cannot be added to the next reroute time. *)
Theorem C64_none_refuted : forall S n b, su_interval S = None ->
  (forall c, In c (s_coms S) -> NoDup (map fst (k_sources c))) ->
  (forall c v f, In c (s_coms S) -> In (v, f) (k_sources c) -> NoDup (rc_times f)) ->
  (fb_init S = Ok b -> fb_step false S b = Err TypeError) /\ (fb_run false S n = Ok b -> n = 0%nat).
Proof.
  intros S n b NI SR TM.
  assert (ST : forall b, fb_init S = Ok b -> fb_step false S b = Err TypeError).
  { clear n b. intros b H. unfold fb_step. assert (Q : sq_nd (b_changes b)).
    { unfold fb_init in H. apply bind_ok in H. destruct H as [fl [E1 H]]. apply bind_ok in H. destruct H as [imp [E2 H]].
      apply bind_ok in H. destruct H as [net [E3 H]]. apply bind_ok in H. destruct H as [u [E4 H]]. injection H as <-. cbn [b_changes]. apply init_nd, changes_nd; auto. }
    destruct (pop_due_ok (Datatypes.S (sq_len (b_changes b))) b Q) as [b1 [E1 P]]; [lia|]. rewrite E1. cbn [bind]. unfold reroute. rewrite NI. reflexivity. }
  split; [apply ST|]. destruct n as [|n]; [reflexivity|]. intro H. exfalso. revert b H. induction n as [|n IH]; intros b H; cbn [fb_run] in H; apply bind_ok in H; destruct H as [b0 [H1 H2]].
  - rewrite (ST b0 H1) in H2. discriminate.
  - eapply IH. exact H1.
Qed.
Print Assumptions C64_none_refuted.

(** ** Non-vacuity *)
(** Nodes 1, 2, 3; edges 1->2, 2->3 (travel time 1 each) and 1->3 (travel time
    2), all of capacity 1.  Commodity 0 enters at 1 with rate 4 during [0,2),
    commodity 1 enters at 2 with rate 1 from time 1 on; both want to reach 3.
    Queues are predicted to be 0; rerouting every 3/2. *)
Definition bx_net : network :=
  mkNw (grun [GAdd 1 2; GAdd 2 3; GAdd 1 3]%nat) [1; 1; 1] [1; 1; qz 2]
    [mkCom [(1%nat, mkRC [0; qz 2] [qz 4; 0] (Fin 0) PInf)] 3 0; mkCom [(2%nat, mkRC [0; 1] [0; 1] (Fin 0) PInf)] 3 0].
Definition bx : setup := mkSetup bx_net [(0%nat, mkPred (fun t _ => Ok (repeat (mkPL [t] [0] 0 0 (Fin t) PInf) 3)) true)] (Some (Q2Qc (3 # 2))) (fun l => l).
Example bx_ok : setup_ok bx (Q2Qc (3 # 2)).
Proof.
  constructor.
  - apply (grun_spec [GAdd 1 2; GAdd 2 3; GAdd 1 3]%nat g_empty (empty_consistent _ _)). cbn. auto.
  - split; [reflexivity|]. split; intros x H; cbn in H; repeat (destruct H as [<-|H]; [apply qltb_true || apply qleb_true; vm_compute; reflexivity|]); destruct H.
  - reflexivity.
  - intro l. apply Permutation_refl.
  - reflexivity.
  - apply qltb_true. vm_compute. reflexivity.
  - intros c H. cbn in H. destruct H as [<-|[<-|[]]]; cbn; repeat constructor; intros [].
  - intros c v f H I. assert (Z : forall a b : Qc, a < b -> NoDup [a; b]) by (intros a b L; constructor; [intros [Q|[]]; qlra|constructor; [intros []|constructor]]).
    cbn in H. destruct H as [<-|[<-|[]]]; cbn in I; destruct I as [E|[]]; injection E as <- <-; cbn [rc_times]; apply Z; apply qltb_true; vm_compute; reflexivity.
  - intros c v f H I. cbn in H. destruct H as [<-|[<-|[]]]; cbn in I; destruct I as [E|[]]; injection E as <- <-; cbn; auto.
Qed.
(** The clock, the nodes reported by the last extension and the next reroute time after each round. *)
Example bx_clock : map (fun n => match fb_run false bx n with Ok b => Some (this (f_phi (b_flow b)), b_handle b, this (b_next b)) | Err _ => None end) [0; 1; 2; 3; 4; 5; 6; 7]%nat =
  [Some (0, [], 0); Some (1, [2%nat], 3 # 2); Some (3 # 2, [], 3 # 2); Some (2, [3%nat], 3); Some (3, [], 3); Some (9 # 2, [], 9 # 2); Some (5, [2%nat], 6); Some (6, [3%nat], 6)]%Q.
Proof. vm_compute. reflexivity. Qed.
(** The first two rounds: commodity 0 is split over both routes out of node 1;
    at time 1 node 2 receives rate 1 of commodity 0 and the new network inflow. *)
Definition show_plan (n : nat) : option (list nat * list (nat * list (nat * Q))) :=
  match (b <- fb_run false bx n ;; plan bx b) with
  | Ok (b3, ni) => Some (b_handle b3, map (fun p => (fst p, map (fun q => (fst q, this (snd q))) (snd p))) ni)
  | Err _ => None
  end.
Example bx_plans : show_plan 0 = Some ([1; 2; 3]%nat, [(0%nat, [(0%nat, 2%Q)]); (2%nat, [(0%nat, 2%Q)]); (1%nat, [])]) /\
  show_plan 1 = Some ([2%nat], [(1%nat, [(0%nat, 1%Q); (1%nat, 1%Q)])]).
Proof. split; vm_compute; reflexivity. Qed.
Example bx_change : change_at bx 1 2 1.
Proof. exists (mkCom [(2%nat, mkRC [0; 1] [0; 1] (Fin 0) PInf)] 3 0), (mkRC [0; 1] [0; 1] (Fin 0) PInf). cbn. auto. Qed.
