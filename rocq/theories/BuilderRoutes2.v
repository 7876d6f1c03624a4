(** * FlowBuilder: flow of a commodity is only at nodes its sources reach; the routes are shortest (proofs for C75) *)
From Coq Require Import Permutation.
From Verif Require Import Base Spec Arrays ArraysProofs PL PLProofs RC RCProofs FRC FRCProofs FRCExact PQ PQProofs PQSpec DynFlow DQProofs DynRun DynEvents DynEdge DynFlowProofs
  Graph GraphSpec GraphProofs Dijkstra DijkstraSpec DijkstraProofs DijkstraProofs2 FlowBuilder FlowBuilderProofs BuilderRun BuilderFlow
  Predictors PredictorsProofs PredictorsProofs2 PropPredictors2 PropPredictors4 RoutesSpec BuilderRoutes.

Lemma path_trans A u v w : path A u v -> path A v w -> path A u w.
Proof. intros P Q. revert P. induction Q; intro P; [exact P|]. eapply path_step; [apply IHQ, P|assumption]. Qed.
Lemma got_item c t i : rate (got c t) i <> 0 -> exists it, In it (c_chain c) /\ got c t = it_vals it.
Proof.
  unfold got, frc_get. intro H. destruct (c_chain c) as [|h q] eqn:E; [contradiction H; reflexivity|]. destruct (qltb t (it_time h)); [contradiction H; reflexivity|].
  destruct (advance_suffix t q h) as [pre [Q1 _]]. destruct (advance_head h q t) as [|h' r'] eqn:A; [contradiction H; reflexivity|]. exists h'. split; [|reflexivity].
  rewrite Q1. apply in_or_app. right. left. reflexivity.
Qed.
Lemma sum_nonzero {A} (f : A -> Qc) l : fold_right Qcplus 0 (map f l) <> 0 -> exists x, In x l /\ f x <> 0.
Proof.
  induction l as [|x l IH]; cbn [map fold_right]; intro H; [contradiction H; reflexivity|]. destruct (Qc_eq_dec (f x) 0) as [E|E]; [|exists x; split; [left; reflexivity|exact E]].
  destruct IH as [y [I N]]; [intro Z; apply H; rewrite E, Z; ring|]. exists y. split; [right; exact I|exact N].
Qed.

Section R.
Variables (S : setup) (r : Qc).
Hypothesis OK : setup_ok S r.
Hypothesis SR : sources_ok S.
Let g := s_graph S.
Let C : consistent g := so_graph S r OK.

Definition from_source (i v : nat) : Prop := exists c s f, nth_error (s_coms S) i = Some c /\ dget (k_sources c) s = Some f /\ path (arcs g) s v.
Lemma edge_arc e : In e (g_edges g) -> In (e_from g e, e_to g e) (arcs g).
Proof. intro I. unfold arcs. apply in_map_iff. exists e. auto. Qed.
Lemma from_path i v w : from_source i v -> path (arcs g) v w -> from_source i w.
Proof. intros (c & s & f & A & B & P) Q. exists c, s, f. split; [exact A|]. split; [exact B|]. eapply path_trans; eauto. Qed.

(** ** Flow is only at nodes reached from a source *)
Definition fed_reach (cs : list call) : Prop := forall e i nf, In e (g_edges g) -> fed cs (e_id g e) nf -> rate nf i <> 0 -> from_source i (e_from g e).
Record reach (b : builder) : Prop := {
  re_cs : exists cs, evinv (s_nw S) cs (b_flow b) /\ fed_reach cs;
  re_net : forall v, In v (node_ids g) -> net_ok_at S b v }.
Lemma supply_reach b v i : reach b -> 0 <= f_phi (b_flow b) -> In v (node_ids g) -> supply S b v i <> 0 -> from_source i v.
Proof.
  intros [[cs [EV FR]] NT] P0 Iv H. unfold supply in H. fold g in H. destruct (Qc_eq_dec (rate (net_now b v) i) 0) as [Z|NZ].
  - rewrite Z in H. destruct (sum_nonzero (fun e => rate (out_now S b e) i) (incoming g v)) as [e [I N]]; [intro Q; apply H; rewrite Q; ring|].
    apply (in_iff g C) in I. destruct I as [I TO]. unfold out_now in N. fold g in N. destruct (got_item _ _ _ N) as [it [It Q]]. rewrite Q in N.
    destruct (ev_out _ _ _ EV (e_id g e) it It) as [E|[nf [F [f [_ [RT _]]]]]]; [rewrite E in N; contradiction N; reflexivity|].
    assert (NF : rate nf i <> 0) by (intro Z2; apply N; rewrite RT, Z2; ring). apply (from_path i (e_from g e)); [eapply FR; eauto|].
    rewrite <- TO. eapply path_step; [constructor|apply edge_arc, I].
  - rewrite (net_now_ok S b v i P0 (NT v Iv)) in NZ. unfold net_fn in NZ. destruct (nth_error (s_coms S) i) as [c|] eqn:E; [|rewrite new_fn_at in NZ; contradiction NZ; reflexivity].
    destruct (dget (k_sources c) v) as [f|] eqn:D; [|rewrite new_fn_at in NZ; contradiction NZ; reflexivity]. exists c, v, f. split; [exact E|]. split; [exact D|constructor].
Qed.
Lemma sent_reach b b3 ni e i x : sched S r b -> reach b -> planned S r b b3 ni -> In e (g_edges g) -> sent S ni e i = Some x -> from_source i (e_from g e) /\ ~ sinks_at S (e_from g e) i /\ In (e_from g e) (b_handle b3).
Proof.
  intros SC RE PL IE H. assert (IH : In (e_from g e) (b_handle b3)).
  { assert (IK : In (e_id g e) (map fst ni)). { unfold sent in H. fold g in H. destruct (dget ni (e_id g e)) as [d|] eqn:D; [|discriminate]. apply dget_In in D. apply in_map_iff. exists (e_id g e, d). auto. }
    apply (pl_ids _ _ _ _ _ PL) in IK. destruct IK as [v [e' [Iv [Ie Q]]]]. apply (out_iff g C) in Ie. destruct Ie as [Ie FV]. rewrite <- (id_inj g C e' e Ie IE Q), FV. exact Iv. }
  destruct (pl_split _ _ _ _ _ PL (e_from g e) i IH) as [A [B D]]. assert (IO : In e (outgoing g (e_from g e))) by (apply (out_iff g C); auto).
  assert (NS : ~ sinks_at S (e_from g e) i) by (intro Q; rewrite (A Q e IO) in H; discriminate). split; [|split; [exact NS|exact IH]].
  apply (supply_reach b); [exact RE|apply (sc_phi _ _ _ SC)|apply (cs_ends g C e IE)|]. intro Z. rewrite (B NS) in H; [discriminate| |exact IO]. rewrite Z. apply eps_pos.
Qed.
Lemma init_reach b : fb_init S = Ok b -> reach b.
Proof.
  intro H. constructor; [|intros v Iv; apply net_init; assumption]. exists []. split; [|intros e i nf _ [ni [m [[] _]]]].
  unfold fb_init in H. apply bind_ok in H. destruct H as [fl [E1 H]]. apply bind_ok in H. destruct H as [imp [E2 H]].
  apply bind_ok in H. destruct H as [net [E3 H]]. apply bind_ok in H. destruct H as [u [E4 H]]. injection H as <-. apply (init_events (s_nw S) fl E1).
Qed.
Lemma step_reach k b b' : sched S r b -> reach b -> fb_step k S b = Ok b' -> reach b'.
Proof.
  intros SC RE H. destruct (step_ok S r OK k b b' SC H) as [b3 [ni [maxt [ch ST]]]]. pose proof (st_pl _ _ _ _ _ _ _ _ _ ST) as PL. destruct RE as [[cs [EV FR]] NT].
  destruct (st_spec _ _ _ _ _ _ _ _ _ ST cs EV) as [S1 [_ [_ [_ EV']]]]. constructor.
  - exists (cs ++ [CExtend ni maxt]). split; [exact EV'|]. intros e i nf IE [ni' [m [I J]]] NZ. apply in_app_or in I. destruct I as [I|[Q|[]]]; [apply (FR e i nf IE); [exists ni', m; auto|exact NZ]|].
    injection Q as <- <-. assert (SD : exists x, sent S ni e i = Some x).
    { unfold sent. fold g. rewrite (In_dget _ _ _ (proj1 (pl_ids _ _ _ _ _ PL)) J). unfold rate in NZ. destruct (dget nf i) as [x|]; [eauto|contradiction NZ; reflexivity]. }
    destruct SD as [x SD]. apply (sent_reach b b3 ni e i x SC ltac:(constructor; eauto) PL IE SD).
  - intros v Iv. destruct (pl_flow _ _ _ _ _ PL) as [b2 [Y1 [Y2 [_ AF]]]]. assert (N3 : net_ok_at S b3 v).
    { apply (net_after S b2 b3 _ v AF). destruct (NT v Iv) as [c [sn [T [w K]]]]. exists c, sn, T, w. rewrite Y1, Y2. exact K. }
    destruct N3 as [c [sn [T [w [K1 [K2 [K3 K4]]]]]]]. exists c, sn, T, w. destruct (st_same _ _ _ _ _ _ _ _ _ ST) as [_ [_ [-> _]]]. split; [exact K1|]. split; [exact K2|]. split; [qlra|exact K4].
Qed.
Lemma run_reach k : forall n b, fb_run k S n = Ok b -> reach b.
Proof.
  induction n as [|n IH]; intros b H; cbn [fb_run] in H; [apply init_reach, H|]. apply bind_ok in H. destruct H as [b0 [H1 H2]]. eapply step_reach; eauto. eapply run_sched; eauto.
Qed.

(** ** The important nodes *)
Lemma important_ok c l : In c (s_coms S) -> important g c = Ok l ->
  In (k_sink c) (node_ids g) /\ forall v, In v l <-> path (arcs g) v (k_sink c) /\ exists s f, dget (k_sources c) s = Some f /\ path (arcs g) s v.
Proof.
  intros IC H. unfold important in H. apply bind_ok in H. destruct H as [reaching [E1 H]]. apply bind_ok in H. destruct H as [reachable [E2 H]]. injection H as <-.
  assert (SK : In (k_sink c) (node_ids g)).
  { unfold get_nodes_reaching in E1. apply bind_ok in E1. destruct E1 as [u [A _]]. apply assertb_ok in A. apply dhas_In in A. exact A. }
  split; [exact SK|]. intro v. rewrite filter_In. destruct (reaching_spec g (k_sink c) C SK) as [l1 [L1 [_ L2]]]. rewrite E1 in L1. apply ok_inj in L1. subst l1. rewrite L2.
  destruct (mapM_spec _ _ _ E2) as [LEN NN].
  assert (IFF : mem v (concat reachable) = true <-> exists s f, dget (k_sources c) s = Some f /\ path (arcs g) s v).
  { rewrite memP. rewrite in_concat. split.
    - intros [q [Iq Iv]]. destruct (In_nth_error _ _ Iq) as [k K]. assert (LK : (k < length (k_sources c))%nat) by (rewrite <- LEN; apply nth_error_Some; congruence).
      destruct (nth_error (k_sources c) k) as [[s f]|] eqn:KS; [|apply nth_error_None in KS; lia]. destruct (NN k (s, f) KS) as [q' [K' E]]. rewrite K in K'. injection K' as <-. cbn [fst] in E.
      exists s, f. split; [apply In_dget; [apply (so_src S r OK c IC)|eapply nth_error_In; exact KS]|].
      destruct (reachable_spec g s C (so_nodes S r OK c s f IC (nth_error_In _ _ KS))) as [q' [L3 [_ L4]]]. rewrite E in L3. apply ok_inj in L3. subst q'. apply L4, Iv.
    - intros [s [f [D P]]]. apply dget_In in D. destruct (In_nth_error _ _ D) as [k KS]. destruct (NN k (s, f) KS) as [q [K E]]. cbn [fst] in E.
      destruct (reachable_spec g s C (so_nodes S r OK c s f IC D)) as [q' [L3 [_ L4]]]. rewrite E in L3. apply ok_inj in L3. subst q'. exists q. split; [eapply nth_error_In; exact K|apply L4, P]. }
  rewrite IFF. reflexivity.
Qed.
Lemma run_init k n b : fb_run k S n = Ok b -> exists b0, fb_init S = Ok b0.
Proof. revert b. induction n as [|n IH]; intros b H; cbn [fb_run] in H; [eauto|]. apply bind_ok in H. destruct H as [b1 [H _]]. eauto. Qed.
Lemma com_nodes_spec i c b0 : fb_init S = Ok b0 -> nth_error (s_coms S) i = Some c ->
  In (k_sink c) (node_ids g) /\ forall v, In v (com_nodes S i) <-> path (arcs g) v (k_sink c) /\ from_source i v.
Proof.
  intros H E. unfold fb_init in H. apply bind_ok in H. destruct H as [fl [_ H]]. apply bind_ok in H. destruct H as [imp [E2 _]].
  unfold com_nodes. rewrite E2. unfold important_all in E2. destruct (mapM_spec _ _ _ E2) as [_ NN]. destruct (NN i c E) as [l [L1 L2]].
  destruct (important_ok c l (nth_error_In _ _ E) L2) as [SK IFF]. split; [exact SK|]. intro v. rewrite (nth_error_nth _ _ _ L1), IFF. unfold from_source. split.
  - intros [P [s [f [D Q]]]]. split; [exact P|]. exists c, s, f. auto.
  - intros [P [c' [s [f [E' [D Q]]]]]]. split; [exact P|]. rewrite E in E'. injection E' as <-. eauto.
Qed.

(** ** Walks of the whole graph stay among the important nodes *)
Section Dyn.
Variables (T : Qc) (v sink i : nat) (cf : nat -> Qc -> Qc) (nodes : list nat).
Hypothesis NODES : forall w, In w nodes <-> path (arcs g) w sink /\ from_source i w.
Hypothesis SV : from_source i v.
Lemma arr_path w s : arrives g T v (node_ids g) cf w s -> path (arcs g) v w.
Proof. intro H. induction H; [constructor|]. eapply path_step; [exact IHarrives|apply edge_arc; assumption]. Qed.
Lemma arr_widen w s : arrives g T v nodes cf w s -> arrives g T v (node_ids g) cf w s.
Proof. intro H. induction H; [constructor|]. apply arr_step; auto. apply (cs_ends g C). assumption. Qed.
Lemma arr_narrow w s : arrives g T v (node_ids g) cf w s -> path (arcs g) w sink -> arrives g T v nodes cf w s.
Proof.
  intro H. induction H as [|e t A IH IE IN]; intro P; [constructor|]. apply arr_step; auto.
  - apply IH. eapply path_front; [apply edge_arc, IE|exact P].
  - apply NODES. split; [exact P|]. eapply from_path; [exact SV|]. eapply path_step; [eapply arr_path; exact A|apply edge_arc, IE].
Qed.
Variable rr : ddresult.
Hypothesis GOOD : dd_good g T v sink nodes cf rr.
Lemma tight_little e : In e (g_edges g) -> DijkstraSpec.tight g rr e -> path (arcs g) (e_to g e) sink -> loses_little g cf v T e.
Proof.
  intros IE (cc & tv & tw & D1 & D2 & D3 & L) P. exists tv, tw. destruct (dg_R _ _ _ _ _ _ _ GOOD e cc D1) as [_ [_ [t [D4 CC]]]]. rewrite D2 in D4. injection D4 as <-.
  assert (PF : path (arcs g) (e_from g e) sink) by (eapply path_front; [apply edge_arc, IE|exact P]).
  destruct (dg_arr _ _ _ _ _ _ _ GOOD _ _ D2) as [A1 A2]. destruct (dg_arr _ _ _ _ _ _ _ GOOD _ _ D3) as [B1 B2].
  split; [split; [apply arr_widen, A1|intros s H; apply A2, arr_narrow; assumption]|]. split; [split; [apply arr_widen, B1|intros s H; apply B2, arr_narrow; assumption]|]. rewrite <- CC. exact L.
Qed.
Lemma tight_shortest w : tight_path g rr sink w -> path (arcs g) w sink /\ (w = sink \/ exists e, In e (g_edges g) /\ e_from g e = w /\ shortest_from g cf v T sink e).
Proof.
  intro H. induction H as [|e IE TI TP IH]; [split; [constructor|left; reflexivity]|]. destruct IH as [P IH]. split; [eapply path_front; [apply edge_arc, IE|exact P]|]. right. exists e.
  split; [exact IE|]. split; [reflexivity|]. pose proof (tight_little e IE TI P) as LL. destruct IH as [E|[e' [I' [F' SF]]]]; [apply sf_last; assumption|]. eapply sf_next; eauto.
Qed.
Lemma active_sink l : In sink nodes -> get_active_edges_from_dijkstra g rr v sink = Ok l -> dget (dd_arrival rr) sink <> None.
Proof.
  intros IS H N. assert (NC : forall e, In e (incoming g sink) -> dget (dd_cost rr) e = None).
  { intros e I. apply (in_iff g C) in I. destruct I as [I TO]. destruct (dget (dd_cost rr) e) as [cc|] eqn:D; [|reflexivity]. exfalso.
    destruct (dg_R _ _ _ _ _ _ _ GOOD e cc D) as [_ [IT [t [D2 _]]]]. destruct (dg_arr _ _ _ _ _ _ _ GOOD _ _ D2) as [A _].
    assert (AS : arrives g T v nodes cf sink (t + cf e t)) by (rewrite <- TO at 1; apply arr_step; assumption).
    destruct (dg_early _ _ _ _ _ _ _ GOOD sink _ AS N) as [ts [X _]]. congruence. }
  unfold get_active_edges_from_dijkstra in H. apply bind_ok in H. destruct H as [a [H1 H2]]. apply bind_ok in H2. destruct H2 as [u [H2 _]]. apply assertb_ok in H2.
  cbn [ae_loop] in H1. assert (X : forall l st, (forall e, In e l -> dget (dd_cost rr) e = None) -> foldM (ae_edge g rr v sink) l st = Ok st).
  { induction l0 as [|e l0 IH]; intros st HL; cbn [foldM]; [reflexivity|]. destruct st as [[x y] z]. cbn [ae_edge]. rewrite (HL e) by (left; reflexivity). cbn [bind]. apply IH. intros; apply HL; right; assumption. }
  rewrite X in H1 by exact NC. cbn [bind] in H1. destruct (length (g_nodes g)); cbn [ae_loop] in H1; injection H1 as <-; discriminate.
Qed.
End Dyn.
Lemma sound : sound_network (su_net S).
Proof.
  destruct (so_net S r OK) as [N1 [N2 N3]]. pose proof (so_caps S r OK) as LC. constructor.
  - exact C.
  - exact LC.
  - exact (eq_trans N1 LC).
  - intros k c H. apply N2. eapply nth_error_In; exact H.
  - intros k c H. apply N3. eapply nth_error_In; exact H.
Qed.
Lemma dyn_shortest b0 i c v T preds costs rr l e : fb_init S = Ok b0 -> nth_error (s_coms S) i = Some c -> from_source i v -> v <> k_sink c ->
  costs_from_preds (su_net S) preds T = Ok costs -> dynamic_dijkstra g T v (k_sink c) (com_nodes S i) (map pl_eval costs) = Ok rr ->
  get_active_edges_from_dijkstra g rr v (k_sink c) = Ok l -> In e l -> In v (node_ids g) -> usable_preds (su_net S) T preds ->
  exists travel, predicted_time (su_net S) preds travel /\ shortest_from g travel v T (k_sink c) e.
Proof.
  intros BI EI FS NS CF DD GA IL IV [LP GP]. destruct (C67_costs (su_net S) preds T sound LP GP) as [costs' [cf [E1 [PT [FI _]]]]]. rewrite CF in E1. apply ok_inj in E1. subst costs'.
  exists cf. split; [exact PT|]. destruct (com_nodes_spec i c b0 BI EI) as [SK CN].
  destruct (dynamic_dijkstra_spec g T v (k_sink c) (com_nodes S i) (map pl_eval costs) cf C IV FI) as [rr' [DD' GOOD]]. rewrite DD in DD'. apply ok_inj in DD'. subst rr'.
  assert (IS : In (k_sink c) (com_nodes S i)).
  { (* every source reaches the sink: checked by the constructor *)
    apply CN. split; [constructor|]. unfold fb_init in BI. apply bind_ok in BI. destruct BI as [fl [_ BI]]. apply bind_ok in BI. destruct BI as [imp [E2 BI]].
    apply bind_ok in BI. destruct BI as [net [_ BI]]. apply bind_ok in BI. destruct BI as [u [AS _]]. apply assertb_ok in AS. rewrite forallb_forall in AS.
    destruct FS as [c' [s [f [EI' [D _]]]]]. specialize (AS (i, c') (proj2 (FlowBuilderProofs.enum_nth _ _ _) EI')). rewrite forallb_forall in AS. cbn [fst snd] in AS.
    specialize (AS (s, f) (dget_In _ _ _ D)). cbn [fst] in AS. apply memP in AS.
    assert (IN : In s (com_nodes S i)) by (unfold com_nodes; rewrite E2; exact AS).
    apply CN in IN. destruct IN as [P FS']. eapply from_path; eauto. }
  pose proof (active_sink T v (k_sink c) cf (com_nodes S i) rr GOOD l IS GA) as LS.
  destruct (active_edges_spec g T v (k_sink c) (com_nodes S i) cf C rr GOOD LS SK NS) as [l' [GA' [_ [_ IFF]]]]. fold g in GA. rewrite GA in GA'. apply ok_inj in GA'. subst l'.
  apply IFF in IL. destruct IL as [IE [EF [TI TP]]].
  destruct (tight_shortest T v (k_sink c) i cf (com_nodes S i) CN FS rr GOOD (e_to g e) TP) as [P SH].
  pose proof (tight_little T v (k_sink c) i cf (com_nodes S i) CN FS rr GOOD e IE TI P) as LL. destruct SH as [E|[e' [I' [F' SF]]]]; [apply sf_last; assumption|eapply sf_next; eauto].
Qed.

(** ** Constant predictions *)
Lemma tight_in costs dist v : forall l q e, tight_edges g costs dist v l = Ok q -> In e q ->
  exists c dw dv, nth_error costs (e_id g e) = Some c /\ dget dist (e_to g e) = Some dw /\ dget dist v = Some dv /\ c + dw <= dv + eps.
Proof.
  induction l as [|a l IH]; intros q e F I; cbn [tight_edges] in F; [injection F as <-; destruct I|]. destruct (dget dist (e_to g a)) as [dw|] eqn:D; [|eapply IH; eauto].
  apply bind_ok in F. destruct F as [c [E1 F]]. apply bind_ok in F. destruct F as [dv [E2 F]]. apply bind_ok in F. destruct F as [rest [E3 F]]. apply ok_inj in F. subst q.
  apply fetch_inv in E1. apply dfetch_inv in E2. destruct (qlebP (c + dw) (dv + eps)) as [L|L]; [|eapply IH; eauto].
  destruct I as [<-|I]; [exists c, dw, dv; auto|eapply IH; eauto].
Qed.
Lemma walk_path costs nodes sink w k x : walk_to g costs nodes sink w k x -> path (arcs g) w sink.
Proof. intro H. induction H; [constructor|]. eapply path_front; [apply edge_arc; assumption|exact IHwalk_to]. Qed.
Lemma walk_widen costs nodes sink w k x : walk_to g costs nodes sink w k x -> walk_to g costs (node_ids g) sink w k x.
Proof. intro H. induction H; [constructor|]. apply walk_edge; auto. apply (cs_ends g C). assumption. Qed.
Lemma walk_narrow costs nodes sink j w k x : (forall u, In u nodes <-> path (arcs g) u sink /\ from_source j u) -> from_source j w ->
  walk_to g costs (node_ids g) sink w k x -> walk_to g costs nodes sink w k x.
Proof.
  intros N FS H. revert FS. induction H as [|e k x IE IN W IH]; intro FS; [constructor|]. apply walk_edge; auto.
  - apply N. split; [|exact FS]. eapply path_front; [apply edge_arc, IE|eapply walk_path; exact W].
  - apply IH. eapply from_path; [exact FS|]. eapply path_step; [constructor|apply edge_arc, IE].
Qed.
Lemma pyget0 {A} (l : list A) x : pyget l 0 = Ok x -> nth_error l 0 = Some x.
Proof. unfold pyget. destruct l as [|y l]; cbn; [discriminate|]. intro H. injection H as ->. reflexivity. Qed.
Lemma const_times preds T costs const : nonneg_times (su_net S) preds -> costs_from_preds (su_net S) preds T = Ok costs -> mapM (fun f => pyget (pl_values f) 0) costs = Ok const ->
  constant_times (su_net S) preds const /\ forall e, In e (g_edges g) -> exists c, nth_error const (e_id g e) = Some c /\ 0 <= c.
Proof.
  intros [LP NN] CF MC. pose proof sound as SN. unfold costs_from_preds in CF. destruct (mapM_spec _ _ _ CF) as [L1 N1]. destruct (mapM_spec _ _ _ MC) as [L2 N2]. rewrite seq_length in L1.
  assert (K : forall i, (i < length (g_edges (w_graph (su_net S))))%nat -> exists f q cap tau, nth_error preds i = Some f /\ nth_error (pl_values f) 0 = Some q /\
    nth_error (w_cap (su_net S)) i = Some cap /\ nth_error (w_tau (su_net S)) i = Some tau /\ nth_error const i = Some (tau + q / cap) /\ 0 < cap /\ 0 <= tau).
  { intros i L. destruct (N1 i i) as [k [K1 K2]]; [rewrite (nth_error_nth' _ 0%nat) by (rewrite seq_length; exact L); rewrite seq_nth by exact L; reflexivity|].
    destruct (N2 i k K1) as [x [X1 X2]]. apply pyget0 in X2. unfold edge_cost in K2. apply bind_ok in K2. destruct K2 as [f [F1 K2]]. apply bind_ok in K2. destruct K2 as [tau [F2 K2]]. apply bind_ok in K2. destruct K2 as [cap [F3 K2]].
    apply fetch_inv in F1, F2, F3. cbn [n_tau n_cap] in F2, F3. pose proof (sn_pos _ SN i cap F3) as CP. pose proof (sn_nn _ SN i tau F2) as TP.
    assert (D : forall v, pydiv v cap = Ok (v / cap)) by (intro v; unfold pydiv; destruct (qeqbP cap 0) as [->|]; [exfalso; qlra|reflexivity]).
    rewrite (mapM_map _ (fun v => tau + v / cap)) in K2 by (intros v _; rewrite D; reflexivity). cbn [bind] in K2. rewrite !D in K2. cbn [bind] in K2.
    assert (VK : pl_values k = map (fun v => tau + v / cap) (pl_values f)).
    { revert K2. unfold pl_init. repeat match goal with |- context [bind (assertb ?x) _] => destruct (assertb x); cbn [bind]; [|discriminate] end.
      intro K2. repeat (apply bind_ok in K2; destruct K2 as [? [_ K2]]). apply ok_inj in K2. subst k. reflexivity. }
    rewrite VK in X2. destruct (pl_values f) as [|q qs] eqn:Q; [discriminate X2|]. cbn [map nth_error] in X2. exists f, q, cap, tau. rewrite Q. repeat (split; [assumption||reflexivity|]). split; [congruence|]. auto. }
  split; [split|].
  - rewrite L2. exact L1.
  - intros i L. destruct (K i L) as (f & q & cap & tau & A1 & A2 & A3 & A4 & A5 & _). exists f, q, cap, tau. auto.
  - intros e I. destruct (In_nth_error _ _ I) as [j J]. rewrite (cs_ids g C j e J). destruct (K j) as (f & q & cap & tau & A1 & A2 & A3 & A4 & A5 & A6 & A7); [apply nth_error_Some; unfold g in J; fold (s_graph S); congruence|].
    exists (tau + q / cap). split; [exact A5|]. pose proof (NN f q (nth_error_In _ _ A1) A2) as Q0. pose proof (div_mono 0 q cap A6 Q0) as DM. replace (0 / cap) with 0 in DM by (field; qlra). qlra.
Qed.
Lemma const_shortest b0 j cj v sink T preds costs const dist l e : fb_init S = Ok b0 -> nth_error (s_coms S) j = Some cj -> k_sink cj = sink ->
  nonneg_times (su_net S) preds -> costs_from_preds (su_net S) preds T = Ok costs -> mapM (fun f => pyget (pl_values f) 0) costs = Ok const ->
  reverse_dijkstra g sink const (com_nodes S j) = Ok dist -> In v (com_nodes S j) -> tight_edges g const dist v (outgoing g v) = Ok l -> In e l -> In e (g_edges g) -> e_from g e = v ->
  constant_times (su_net S) preds const /\ shortest_constant g const sink e.
Proof.
  intros BI EJ <- NN CF MC RD IV TE IL IE EF. destruct (const_times preds T costs const NN CF MC) as [CT NC]. split; [exact CT|]. destruct (com_nodes_spec j cj b0 BI EJ) as [SK CN].
  pose proof IV as IV'. apply CN in IV'. destruct IV' as [PV FV]. assert (IS : In (k_sink cj) (com_nodes S j)) by (apply CN; split; [constructor|eapply from_path; eauto]).
  destruct (reverse_dijkstra_spec g const (com_nodes S j) (k_sink cj) C SK IS NC) as [dist' [RD' [_ [_ [D1 [D2 _]]]]]]. rewrite RD in RD'. apply ok_inj in RD'. subst dist'.
  destruct (tight_in const dist v _ _ e TE IL) as (c & dw & dv & T1 & T2 & T3 & T4). destruct (D1 _ _ T2) as [q W]. exists q, dw. split; [eapply walk_widen; exact W|].
  intros k x WX. rewrite EF in WX. apply (walk_narrow const (com_nodes S j) (k_sink cj) j v k x CN FV) in WX. destruct (D2 _ _ _ WX) as [dv' [E L]]. rewrite T3 in E. injection E as <-.
  unfold cost_of. rewrite (nth_error_nth _ _ _ T1). qlra.
Qed.

(** ** One round *)
Lemma round_routed n b b3 ni e i x : fb_run false S n = Ok b -> plan S b = Ok (b3, ni) -> In e (g_edges g) -> sent S ni e i = Some x -> routed S r n (b_route b3) e i.
Proof.
  intros RN PL IE SD. destruct (run_init false n b RN) as [b0 BI]. pose proof (run_rinv S r OK n b RN) as RI. pose proof (ri_sched _ _ _ _ RI) as SC.
  destruct (plan_rinv S r OK n b b3 ni RN RI PL) as (_ & SB & _). destruct (SB e i x IE SD) as [l [IL (c & p & preds & costs & EC & EP & AS & CF & DY & CO)]].
  destruct (sent_reach b b3 ni e i x SC (run_reach false n b RN) (plan_ok S r OK b b3 ni SC PL) IE SD) as [FS [NS _]].
  assert (NE : e_from g e <> k_sink c) by (intro Q; apply NS; exists c; auto). exists c, p, preds. split; [exact EC|]. split; [exact EP|]. split; [exact AS|]. split.
  - intros PC UP. destruct (DY PC) as [rr [DD GA]]. eapply dyn_shortest; eauto. apply (cs_ends g C e IE).
  - intros PC UP. destruct (CO PC) as (j & cj & const & dist & J1 & J2 & MC & RD & IV & _ & TE). exists const. eapply const_shortest; eauto.
Qed.
End R.
