(** * FlowBuilder: which edges flow is assigned to (proofs for C75) *)
From Coq Require Import Permutation.
From Verif Require Import Base Spec Arrays ArraysProofs PL PLProofs RC RCProofs FRC FRCProofs FRCExact PQ PQProofs PQSpec DynFlow DQProofs DynRun DynEvents DynEdge DynFlowProofs
  Graph GraphSpec GraphProofs Dijkstra DijkstraSpec DijkstraProofs DijkstraProofs2 FlowBuilder FlowBuilderProofs BuilderRun BuilderFlow
  Predictors PredictorsProofs PropPredictors2 PropPredictors4 RoutesSpec.

Lemma fetch_inv {A} (l : list A) i x : fetch l i = Ok x -> nth_error l i = Some x.
Proof. unfold fetch. destruct (nth_error l i); [|discriminate]. intro H. injection H as ->. reflexivity. Qed.
Lemma dfetch_inv {A} (d : list (nat * A)) i x : dfetch d i = Ok x -> dget d i = Some x.
Proof. unfold dfetch. destruct (dget d i); [|discriminate]. intro H. injection H as ->. reflexivity. Qed.

Section R.
Variables (S : setup) (r : Qc).
Hypothesis OK : setup_ok S r.
Let g := s_graph S.
Let C : consistent g := so_graph S r OK.

(** [l] is what [_get_active_edges] computes for commodity [i] at node [v] in the period [T]. *)
Definition by_route (n : nat) (T : Qc) (i v : nat) (l : list nat) : Prop :=
  exists c p preds costs, nth_error (s_coms S) i = Some c /\ dget (su_preds S) (k_pred c) = Some p /\ asked S r n (k_pred c) T preds /\
    costs_from_preds (su_net S) preds T = Ok costs /\
    (p_const p = false -> exists rr, dynamic_dijkstra g T v (k_sink c) (com_nodes S i) (map pl_eval costs) = Ok rr /\
       get_active_edges_from_dijkstra g rr v (k_sink c) = Ok l) /\
    (p_const p = true -> exists j cj const dist, nth_error (s_coms S) j = Some cj /\ k_sink cj = k_sink c /\
       mapM (fun f => pyget (pl_values f) 0) costs = Ok const /\ reverse_dijkstra g (k_sink c) const (com_nodes S j) = Ok dist /\
       In v (com_nodes S j) /\ v <> k_sink c /\ tight_edges g const dist v (outgoing g v) = Ok l).
Record cinv (n : nat) (b : builder) : Prop := {
  ci_costs : forall ty costs, dget (b_costs b) ty = Some costs ->
     exists p preds, dget (su_preds S) ty = Some p /\ asked S r n ty (b_route b) preds /\ costs_from_preds (su_net S) preds (b_route b) = Ok costs;
  ci_act : forall i v l, dget (nth i (b_active b) []) v = Some l -> by_route n (b_route b) i v l }.
(** [b] is in round [n]: its flow has the records of the flow at the start of the round. *)
Definition here (n : nat) (b : builder) : Prop :=
  exists bm, fb_run false S n = Ok bm /\ f_phi (b_flow b) = f_phi (b_flow bm) /\ f_in (b_flow b) = f_in (b_flow bm) /\ f_q (b_flow b) = f_q (b_flow bm) /\
    b_route b <= f_phi (b_flow b) /\ f_phi (b_flow b) < b_route b + r.
Lemma here_same n b b' : f_phi (b_flow b') = f_phi (b_flow b) -> f_in (b_flow b') = f_in (b_flow b) -> f_q (b_flow b') = f_q (b_flow b) -> b_route b' = b_route b ->
  here n b -> here n b'.
Proof. intros E1 E2 E3 E4 (bm & H). exists bm. rewrite E1, E2, E3, E4. exact H. Qed.
Lemma asked_mono n m ty t ps : (n <= m)%nat -> asked S r n ty t ps -> asked S r m ty t ps.
Proof. intros L (k & bm & p & fl & H & X). exists k, bm, p, fl. split; [lia|exact X]. Qed.
Lemma by_route_mono n m T i v l : (n <= m)%nat -> by_route n T i v l -> by_route m T i v l.
Proof. intros L (c & p & ps & costs & A & B & D & X). exists c, p, ps, costs. split; [exact A|]. split; [exact B|]. split; [eapply asked_mono; eauto|exact X]. Qed.
Lemma cinv_mono n m b : (n <= m)%nat -> cinv n b -> cinv m b.
Proof.
  intros L [A B]. constructor.
  - intros ty costs H. destruct (A ty costs H) as (p & ps & X1 & X2 & X3). exists p, ps. split; [exact X1|]. split; [eapply asked_mono; eauto|exact X3].
  - intros i v l H. eapply by_route_mono; eauto.
Qed.
Lemma cinv_same n b b' : b_route b' = b_route b -> b_costs b' = b_costs b -> b_active b' = b_active b -> cinv n b -> cinv n b'.
Proof. intros E1 E2 E3 [A B]. constructor; rewrite E1, ?E2, ?E3; assumption. Qed.

Lemma costs_cinv n b ty b' costs : here n b -> cinv n b -> get_costs S b ty = Ok (b', costs) ->
  cinv n b' /\ exists p preds, dget (su_preds S) ty = Some p /\ asked S r n ty (b_route b) preds /\ costs_from_preds (su_net S) preds (b_route b) = Ok costs.
Proof.
  intros HE CI F. unfold get_costs in F. destruct (dget (b_costs b) ty) as [c|] eqn:D.
  { injection F as <- <-. split; [exact CI|]. apply (ci_costs _ _ CI _ _ D). }
  apply bind_ok in F. destruct F as [p [F1 F]]. apply bind_ok in F. destruct F as [ps [F2 F]]. apply bind_ok in F. destruct F as [cs [F3 F]]. injection F as <- <-.
  apply dfetch_inv in F1.
  assert (X : exists p preds, dget (su_preds S) ty = Some p /\ asked S r n ty (b_route b) preds /\ costs_from_preds (su_net S) preds (b_route b) = Ok cs).
  { exists p, ps. split; [exact F1|]. split; [|exact F3]. destruct HE as (bm & E0 & E1 & E2 & E3 & E4 & E5). exists n, bm, p, (b_flow b). rewrite <- E1. repeat split; auto. }
  split; [|exact X]. destruct CI as [A B]. constructor; cbn [with_costs b_costs b_route b_active]; [|exact B].
  intros ty' costs' H. rewrite dget_dset in H. destruct (Nat.eqb_spec ty ty') as [<-|]; [injection H as <-; exact X|auto].
Qed.

Lemma share_cinv n T v l sink ty : (forall j c, nth_error (s_coms S) j = Some c -> k_sink c = sink -> k_pred c = ty -> by_route n T j v l) ->
  forall active, (forall i w k, dget (nth i active []) w = Some k -> by_route n T i w k) ->
  forall i w k, dget (nth i (share (s_coms S) sink ty active v l) []) w = Some k -> by_route n T i w k.
Proof.
  intro H. unfold share. assert (IDS : forall j, In j (ids_by_sink (s_coms S) sink) -> sinks_at S sink j) by (intros j; apply ids_by_sink_iff).
  revert IDS. induction (ids_by_sink (s_coms S) sink) as [|j js IH]; intros IDS active A; cbn [fold_left]; [exact A|].
  apply IH; [intros; apply IDS; right; assumption|]. destruct (IDS j (or_introl eq_refl)) as (c & E & SK). rewrite E. destruct (Nat.eqb_spec (k_pred c) ty) as [P|]; [|exact A].
  intros i w k D. unfold set_active in D. rewrite nth_upd in D. destruct (Nat.eqb_spec j i) as [<-|NE]; [|eapply A; eauto].
  destruct (j <? length active)%nat; [|discriminate]. rewrite dget_dset in D. destruct (Nat.eqb_spec v w) as [<-|]; [injection D as <-; eapply H; eauto|eapply A; eauto].
Qed.
Lemma active_cinv n b i v b' l : here n b -> cinv n b -> get_active_edges S b i v = Ok (b', l) -> cinv n b' /\ by_route n (b_route b) i v l.
Proof.
  intros HE CI F. unfold get_active_edges in F. destruct (dget (nth i (b_active b) []) v) as [l0|] eqn:D.
  { injection F as <- <-. split; [exact CI|]. apply (ci_act _ _ CI _ _ _ D). }
  apply bind_ok in F. destruct F as [c [E1 F]]. apply fetch_inv in E1. apply bind_ok in F. destruct F as [p [E2 F]]. apply dfetch_inv in E2.
  apply bind_ok in F. destruct F as [[b1 costs] [G F]]. destruct (get_costs_same _ _ _ _ _ G) as [SB AE]. destruct (costs_cinv _ _ _ _ _ HE CI G) as [CI1 (p' & ps & P1 & P2 & P3)].
  rewrite E2 in P1. injection P1 as <-. pose proof (sb_route _ _ SB) as RT. destruct (p_const p) eqn:PC.
  - apply bind_ok in F. destruct F as [const [F1 F]]. apply bind_ok in F. destruct F as [dist [F2 F]]. apply bind_ok in F. destruct F as [active [F3 F]]. apply bind_ok in F. destruct F as [l1 [F4 F]]. injection F as <- <-.
    assert (AO : forall j w k, dget (nth j active []) w = Some k -> by_route n (b_route b) j w k).
    { refine (foldM_inv _ (fun _ a => forall j w k, dget (nth j a []) w = Some k -> by_route n (b_route b) j w k) _ _ _ _ _ F3).
      - intros j w k H. rewrite <- RT. apply (ci_act _ _ CI1 _ _ _ H).
      - intros pre x post s1 s2 EQ IH H. unfold const_node in H. destruct (Nat.eqb_spec x (k_sink c)) as [|NX]; [injection H as <-; exact IH|].
        apply bind_ok in H. destruct H as [lx [H1 H]]. apply bind_ok in H. destruct H as [u [H2 H]]. injection H as <-. apply share_cinv; [|exact IH].
        intros j cj J1 J2 J3. exists cj, p, ps, costs. rewrite J3. split; [exact J1|]. split; [exact E2|]. split; [exact P2|]. split; [exact P3|]. split; [congruence|]. intros _.
        rewrite J2. exists i, c, const, dist. split; [exact E1|]. split; [reflexivity|]. split; [exact F1|]. split; [exact F2|]. split; [rewrite EQ; apply in_or_app; right; left; reflexivity|]. split; [exact NX|exact H1]. }
    split; [|apply AO; apply dfetch_inv; exact F4]. destruct CI1 as [A B0]. constructor; cbn [with_active b_costs b_route b_active]; [exact A|]. rewrite RT. exact AO.
  - apply bind_ok in F. destruct F as [rr [F1 F]]. apply bind_ok in F. destruct F as [l1 [F2 F]]. injection F as <- <-.
    assert (X : by_route n (b_route b) i v l1).
    { exists c, p, ps, costs. repeat (split; [assumption|]). split; [|congruence]. intros _. exists rr. auto. }
    split; [|exact X]. destruct CI1 as [A B]. constructor; cbn [with_active b_costs b_route b_active]; [exact A|]. rewrite RT in *.
    intros j w k H. unfold set_active in H. rewrite nth_upd in H. destruct (Nat.eqb_spec i j) as [<-|NE]; [|eapply B; eauto].
    destruct (i <? length (b_active b1))%nat; [|discriminate]. rewrite dget_dset in H. destruct (Nat.eqb_spec v w) as [<-|]; [injection H as <-; exact X|eapply B; eauto].
Qed.

(** ** [_determine_new_inflow] *)
Definition sent_by (n : nat) (T : Qc) (ni : list (nat * rates)) : Prop :=
  forall e i x, In e (g_edges g) -> sent S ni e i = Some x -> exists l, In e l /\ by_route n T i (e_from g e) l.
Lemma put_sent v i d : forall act ni ni', (forall e, In e act -> In e (outgoing g v)) ->
  foldM (fun (ni : list (nat * rates)) e => row <- dfetch ni (e_id (s_graph S) e) ;; Ok (dset ni (e_id (s_graph S) e) (dset row i d))) act ni = Ok ni' ->
  forall e j x, In e (g_edges g) -> sent S ni' e j = Some x -> sent S ni e j = Some x \/ (j = i /\ In e act).
Proof.
  induction act as [|a act IH]; intros ni ni' I F e j x HE H; cbn [foldM] in F; [injection F as <-; auto|].
  apply bind_ok in F. destruct F as [ni1 [F1 F]]. apply bind_ok in F1. destruct F1 as [row [F1 F2]]. injection F2 as <-. apply dfetch_inv in F1.
  destruct (IH _ _ (fun y Hy => I y (or_intror Hy)) F e j x HE H) as [X|[X1 X2]]; [|right; split; [exact X1|right; exact X2]].
  unfold sent in X |- *. rewrite dget_dset in X. destruct (Nat.eqb_spec (e_id (s_graph S) a) (e_id (s_graph S) e)) as [Q|Q]; [|left; exact X].
  rewrite dget_dset in X. destruct (Nat.eqb_spec i j) as [->|NE]; [|left; rewrite <- Q, F1; exact X]. right. split; [reflexivity|]. left.
  specialize (I a (or_introl eq_refl)). apply (out_iff g C) in I. apply (id_inj g C); [apply I|exact HE|exact Q].
Qed.
Lemma fresh_sent l ni e i x : sent S (fold_left (fun d e0 => dset d (e_id g e0) []) l ni) e i = Some x -> sent S ni e i = Some x.
Proof.
  unfold sent. fold g. destruct (fresh_rows g l ni) as [FR _]. rewrite FR. destruct (existsb (fun e0 => Nat.eqb (e_id g e0) (e_id g e)) l); [discriminate|auto].
Qed.
Definition st_ok (n : nat) (T : Qc) (st : builder * list (nat * rates)) : Prop :=
  here n (fst st) /\ cinv n (fst st) /\ act_ok S (b_active (fst st)) /\ b_route (fst st) = T /\ sent_by n T (snd st).
Lemma assign_cinv n T v outs net st i st' : st_ok n T st -> assign S v outs net st i = Ok st' -> st_ok n T st'.
Proof.
  destruct st as [b ni], st' as [b' ni']. intros (HE & CI & AO & RT & SE) F. cbn [fst snd] in *. unfold assign in F. destruct (qltb (node_inflow i outs net) eps).
  { injection F as <- <-. unfold st_ok. cbn [fst snd]. auto. }
  apply bind_ok in F. destruct F as [[b1 act] [G F]]. apply bind_ok in F. destruct F as [d [_ F]]. apply bind_ok in F. destruct F as [ni1 [P F]]. injection F as <- <-.
  destruct (get_active_ok S b i v b1 act C AO G) as [[R1 [R2 R3]] [AO1 SB]]. destruct (active_cinv n b i v b1 act HE CI G) as [CI1 BR].
  split; [|split; [exact CI1|split; [exact AO1|split]]]; cbn [fst snd].
  - apply (here_same n b); try (rewrite (sb_flow _ _ SB); reflexivity); [apply (sb_route _ _ SB)|exact HE].
  - rewrite (sb_route _ _ SB). exact RT.
  - intros e j x IE H. destruct (put_sent v i d act ni ni1 R3 P e j x IE H) as [X|[-> X]]; [apply (SE e j x IE X)|]. exists act. split; [exact X|].
    rewrite RT in BR. specialize (R3 e X). apply (out_iff g C) in R3. destruct R3 as [_ ->]. exact BR.
Qed.
Lemma split_cinv n T st v st' : st_ok n T st -> split_node S st v = Ok st' -> st_ok n T st'.
Proof.
  destruct st as [b ni]. intros (HE & CI & AO & RT & SE) F. cbn [fst snd] in *. unfold split_node in F. fold g in F.
  apply bind_ok in F. destruct F as [[b1 outs] [F1 F]].
  destruct (outflows_ok S b (incoming g v) b1 outs C (nd_in g v C)) as [RD OU]; [intros e I; apply (in_iff g C) in I; apply I|exact F1|].
  apply bind_ok in F. destruct F as [c [F2 F]]. apply bind_ok in F. destruct F as [[c' net] [F3 F]].
  destruct (rd_rest _ _ _ _ RD) as [RA [RH [RN [RR [RNe [RCh RC0]]]]]].
  apply (foldM_inv _ (fun _ st => st_ok n T st)) in F; [exact F| |].
  - split; [|split; [|split; [|split]]]; cbn [fst snd with_net b_flow b_active b_route].
    + apply (here_same n b); [apply (rd_phi _ _ _ _ RD)|apply (rd_in _ _ _ _ RD)|apply (rd_q _ _ _ _ RD)|exact RR|exact HE].
    + apply (cinv_same n b); auto.
    + rewrite RA. exact AO.
    + rewrite RR. exact RT.
    + intros e i x IE H. apply fresh_sent in H. apply (SE e i x IE H).
  - intros pre x post s1 s2 _ H1 H2. eapply assign_cinv; eauto.
Qed.
Lemma determine_cinv n b b' ni : here n b -> cinv n b -> act_ok S (b_active b) -> determine_new_inflow S b = Ok (b', ni) -> st_ok n (b_route b) (b', ni).
Proof.
  intros HE CI AO F. unfold determine_new_inflow in F. apply (foldM_inv _ (fun _ st => st_ok n (b_route b) st)) in F; [exact F| |].
  - split; [exact HE|]. split; [exact CI|]. split; [exact AO|]. split; [reflexivity|]. intros e i x _ H. discriminate.
  - intros pre x post s1 s2 _ H1 H2. eapply split_cinv; eauto.
Qed.

(** ** Along the run *)
Record rinv (n : nat) (b : builder) : Prop := {
  ri_sched : sched S r b;
  ri_cinv : cinv n b;
  ri_period : f_phi (b_flow b) <> b_next b -> b_next b = b_route b + r /\ b_route b <= f_phi (b_flow b) }.
Lemma init_rinv b : fb_init S = Ok b -> rinv 0 b.
Proof.
  intro H. destruct (init_sched S r OK b H) as [SC [P0 [N0 _]]]. constructor; [exact SC| |congruence].
  unfold fb_init in H. apply bind_ok in H. destruct H as [fl [E1 H]]. apply bind_ok in H. destruct H as [imp [E2 H]].
  apply bind_ok in H. destruct H as [net [E3 H]]. apply bind_ok in H. destruct H as [u [E4 H]]. injection H as <-.
  constructor; cbn [b_costs b_active b_route]; [discriminate|]. intros i v l H. exfalso.
  assert (E : nth i (map (fun _ : commodity => ([] : list (nat * list nat))) (s_coms S)) [] = []).
  { clear. revert i. induction (s_coms S) as [|c cs IH]; intros [|i]; try reflexivity. apply IH. }
  rewrite E in H. discriminate.
Qed.
Lemma plan_rinv n b b3 ni : fb_run false S n = Ok b -> rinv n b -> plan S b = Ok (b3, ni) ->
  cinv n b3 /\ sent_by n (b_route b3) ni /\ b_next b3 = b_route b3 + r /\ b_route b3 <= f_phi (b_flow b) /\ f_phi (b_flow b) < b_route b3 + r /\ exists m, b_route b3 = qn m * r.
Proof.
  intros RN [SC CI PE] H. unfold plan in H.
  destruct (pop_due_ok (Datatypes.S (sq_len (b_changes b))) b (sc_qnd _ _ b SC)) as [b1 [E1 P]]; [lia|]. rewrite E1 in H. cbn [bind] in H.
  apply bind_ok in H. destruct H as [b2 [E2 H]].
  assert (B1 : b_flow b1 = b_flow b /\ b_next b1 = b_next b /\ b_route b1 = b_route b /\ b_active b1 = b_active b /\ b_costs b1 = b_costs b).
  { rewrite (po_eq _ _ P). cbn. auto. }
  destruct B1 as [X1 [X3 [X4 [X5 X6]]]]. pose proof (sc_next _ _ b SC) as LN. pose proof (so_pos S r OK) as RP.
  assert (RE : b_flow b2 = b_flow b /\ cinv n b2 /\ act_ok S (b_active b2) /\ b_next b2 = b_route b2 + r /\ b_route b2 <= f_phi (b_flow b) /\ f_phi (b_flow b) < b_route b2 + r /\ exists m, b_route b2 = qn m * r).
  { unfold reroute in E2. rewrite (so_int S r OK), X1, X3 in E2. destruct (qlebP (b_next b) (f_phi (b_flow b))) as [Q|Q].
    - injection E2 as <-. cbn [b_flow b_next b_route b_active b_costs]. split; [reflexivity|]. split; [|split; [apply act_empty|split; [reflexivity|split; [exact Q|split; [qlra|apply (sc_mult _ _ b SC)]]]]].
      constructor; cbn [b_costs b_active b_route]; [discriminate|]. intros i v l D. exfalso.
      assert (E : nth i (map (fun _ : commodity => ([] : list (nat * list nat))) (s_coms S)) [] = []).
      { clear. revert i. induction (s_coms S) as [|c cs IH]; intros [|i]; try reflexivity. apply IH. }
      rewrite E in D. discriminate.
    - injection E2 as <-. destruct PE as [P1 P2]; [intro EQ; rewrite EQ in Q; qlra|]. split; [exact X1|]. split; [apply (cinv_same n b); auto|]. split; [rewrite X5; apply (sc_act _ _ b SC)|].
      rewrite X3, X4. split; [exact P1|]. split; [exact P2|]. split; [qlra|]. destruct (sc_mult _ _ b SC) as [m Hm]. destruct m as [|m].
      { exfalso. apply Q. rewrite Hm. pose proof (sc_phi _ _ b SC). unfold qn. change (Q2Qc (inject_Z (Z.of_nat 0))) with 0. replace (0 * r) with 0 by ring. exact H0. }
      exists m. rewrite qn_S in Hm. rewrite P1 in Hm. replace (qn m * r) with ((qn m + 1) * r - r) by ring. rewrite <- Hm. ring. }
  destruct RE as (Y1 & Y2 & Y3 & Y4 & Y5 & Y6 & Y7).
  assert (HE : here n b2). { exists b. rewrite Y1. repeat (split; [auto|]). exact Y6. }
  destruct (determine_cinv n b2 b3 ni HE Y2 Y3 H) as (D1 & D2 & D3 & D4 & D5). cbn [fst snd] in *.
  assert (NX : b_next b3 = b_next b2).
  { assert (NH : NoDup (b_handle b2)).
    { unfold reroute in E2. rewrite (so_int S r OK) in E2. destruct (qleb (b_next b1) (f_phi (b_flow b1))); injection E2 as <-; [apply nodes_nd with (r := r), OK|apply (po_hn _ _ P), (sc_nd _ _ b SC)]. }
    destruct (determine_ok S C (so_ord S r OK) b2 b3 ni Y3 NH H) as [AF _]. apply (af_rest _ _ _ _ AF). }
  rewrite NX, D4. split; [exact D2|]. split; [exact D5|]. auto.
Qed.
Lemma step_rinv n b b' : fb_run false S n = Ok b -> rinv n b -> fb_step false S b = Ok b' -> rinv (Datatypes.S n) b'.
Proof.
  intros RN RI H. pose proof (ri_sched _ _ RI) as SC. pose proof (step_sched S r OK false b b' SC H) as SC'.
  destruct (step_ok S r OK false b b' SC H) as [b3 [ni [maxt [ch ST]]]]. pose proof (st_plan _ _ _ _ _ _ _ _ _ ST) as EP. destruct (plan_rinv n b b3 ni RN RI EP) as (A1 & A2 & A3 & A4 & A5 & A6).
  destruct (st_same _ _ _ _ _ _ _ _ _ ST) as [Z1 [Z2 [Z3 [Z4 Z5]]]].
  assert (Z6 : b_costs b' = b_costs b3).
  { rewrite step_plan, EP in H. cbn [bind] in H. destruct (ext_min (Fin (b_next b3)) (sq_min_key (b_changes b3))); try discriminate.
    apply bind_ok in H. destruct H as [[fl chs] [_ H]]. apply bind_ok in H. destruct H as [hs [_ H]]. injection H as <-. reflexivity. }
  constructor; [exact SC'|apply (cinv_mono n); [lia|]; apply (cinv_same n b3); auto|].
  intros _. rewrite Z1, Z2. split; [exact A3|]. destruct (sc_ev _ _ b SC) as [cs EV]. destruct (st_spec _ _ _ _ _ _ _ _ _ ST cs EV) as [S1 _]. rewrite (pl_phi _ _ _ _ _ (st_pl _ _ _ _ _ _ _ _ _ ST)) in S1. qlra.
Qed.
Lemma run_rinv : forall n b, fb_run false S n = Ok b -> rinv n b.
Proof.
  induction n as [|n IH]; intros b H; cbn [fb_run] in H; [apply init_rinv, H|]. apply bind_ok in H. destruct H as [b0 [H1 H2]]. eapply step_rinv; eauto.
Qed.
End R.
