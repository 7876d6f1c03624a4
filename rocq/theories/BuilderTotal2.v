(** * FlowBuilder: assertions are the only failure (proofs for C119) *)
From Coq Require Import Permutation.
From Verif Require Import Base Spec Arrays ArraysProofs PL PLProofs RC RCProofs FRC FRCProofs FRCExact PQ PQProofs PQSpec DynFlow DQProofs DynRun DynEvents DynEdge DynFlowProofs
  Graph GraphSpec GraphProofs Dijkstra DijkstraSpec DijkstraProofs DijkstraProofs2 FlowBuilder FlowBuilderProofs BuilderRun BuilderFlow
  Predictors PredictorsProofs PredictorsProofs2 PropPredictors2 PropPredictors4 RoutesSpec BuilderRoutes BuilderRoutes2 BuilderRoutes3 TotalSpec BuilderTotal.
From Verif Require OptTotal.

Section T.
Variables (S : setup) (r : Qc).
Hypothesis OK : setup_ok S r.
Hypothesis SR : sources_ok S.
Let g := s_graph S.
Let C : consistent g := so_graph S r OK.
Let N := length (n_cap (s_nw S)).
Hypothesis SV : served S.
Variable n : nat.
Hypothesis AN : answers S r (Datatypes.S n).
Variable b0 : builder.
Hypothesis BI : fb_init S = Ok b0.

(** As [tflow], but instead of the exact description of the queues only the
    shape of the lists that [extend] needs in order not to raise anything but
    an AssertionError. *)
Record aflow (b : builder) : Prop := {
  af_inv : OptTotal.inv (s_nw S) (b_flow b);
  af_cs : exists cs, evinv (s_nw S) cs (b_flow b) /\ fed_reach S cs /\ fed_sink S cs;
  af_nets : forall v, In v (node_ids g) -> net_ok_at S b v;
  af_act : length (b_active b) = length (s_coms S) }.
Lemma after_inv b2 b3 P : after S b2 b3 P -> OptTotal.inv (s_nw S) (b_flow b2) -> OptTotal.inv (s_nw S) (b_flow b3).
Proof.
  intros A [I1 I2 I3 I4 I5 I6 I7]. constructor; rewrite ?(af_phi _ _ _ _ A), ?(af_in _ _ _ _ A), ?(af_q _ _ _ _ A), ?(af_dq _ _ _ _ A), ?(af_ch _ _ _ _ A), ?(af_len _ _ _ _ A); try assumption.
  split; [apply I2|]. apply Forall_forall. intros c I. apply In_nth with (d := frc_empty) in I. destruct I as [k [L <-]]. rewrite (af_len _ _ _ _ A) in L.
  assert (K : OptTotal.col_ok (f_phi (b_flow b2)) (nth k (f_out (b_flow b2)) frc_empty)) by (eapply Forall_forall; [apply I2|apply nth_In, L]).
  destruct (existsb (fun e => (Nat.eqb (e_id (s_graph S) e) k) && mem (e_to (s_graph S) e) P)%bool (g_edges (s_graph S))) eqn:X.
  - apply existsb_exists in X. destruct X as [e [Ie X]]. apply andb_true_iff in X. destruct X as [X1 X2]. apply Nat.eqb_eq in X1. apply memP in X2. subst k.
    destruct (af_read _ _ _ _ A e Ie X2) as [d E]. destruct (OptTotal.frc_get_ok _ _ K) as (c' & v & E' & K'). rewrite E in E'. injection E' as <- _. exact K'.
  - rewrite (af_other _ _ _ _ A); [exact K|]. intros e Ie IP Q. assert (Y : existsb (fun e => (Nat.eqb (e_id (s_graph S) e) k) && mem (e_to (s_graph S) e) P)%bool (g_edges (s_graph S)) = true); [|congruence].
    apply existsb_exists. exists e. split; [exact Ie|]. apply andb_true_iff. split; [apply Nat.eqb_eq, Q|apply memP, IP].
Qed.
Lemma supply_sink b v i : aflow b -> 0 <= f_phi (b_flow b) -> In v (node_ids g) -> supply S b v i <> 0 ->
  exists c, nth_error (s_coms S) i = Some c /\ from_source S i v /\ path (arcs g) v (k_sink c).
Proof.
  intros [IV0 [cs [F [FR FS]]] NT _] P0 Iv H.
  assert (FV : from_source S i v) by (apply (supply_reach S r OK b v i); auto; constructor; [exists cs; split; [exact F|exact FR]|exact NT]).
  unfold supply in H. fold g in H. destruct (Qc_eq_dec (rate (net_now b v) i) 0) as [Z|NZ].
  - rewrite Z in H. destruct (sum_nonzero (fun e => rate (out_now S b e) i) (incoming g v)) as [e [I NN]]; [intro Q; apply H; rewrite Q; ring|].
    apply (in_iff g C) in I. destruct I as [I TO]. unfold out_now in NN. fold g in NN. destruct (got_item _ _ _ NN) as [it [It Q]]. rewrite Q in NN.
    destruct (ev_out _ _ _ F (e_id g e) it It) as [E|[nf [FD [f [_ [RT _]]]]]]; [rewrite E in NN; contradiction NN; reflexivity|].
    assert (NF : rate nf i <> 0) by (intro Z2; apply NN; rewrite RT, Z2; ring). destruct (FS e i nf I FD NF) as [c [E P]]. exists c. rewrite <- TO at 2. auto.
  - rewrite (net_now_ok S b v i P0 (NT v Iv)) in NZ. unfold net_fn in NZ. destruct (nth_error (s_coms S) i) as [c|] eqn:E; [|rewrite new_fn_at in NZ; contradiction NZ; reflexivity].
    destruct (dget (k_sources c) v) as [f|] eqn:D; [|rewrite new_fn_at in NZ; contradiction NZ; reflexivity]. exists c. split; [reflexivity|]. split; [exact FV|].
    apply (SV c (nth_error_In _ _ E)) with (f := f). apply dget_In, D.
Qed.
Lemma split_total T b ni v j : st_ok S r n T (b, ni) -> T = qn j * r -> aflow b -> 0 <= f_phi (b_flow b) -> NoDup (map fst ni) -> In v (node_ids g) ->
  exists b' ni', split_node S (b, ni) v = Ok (b', ni') /\ st_ok S r n T (b', ni') /\ aflow b' /\ 0 <= f_phi (b_flow b') /\ NoDup (map fst ni').
Proof.
  intros SO ET TF P0 ND IV. pose proof (af_cs b TF) as [cs [F [FR FSK]]].
  assert (X : exists st', split_node S (b, ni) v = Ok st' /\ length (b_active (fst st')) = length (s_coms S)).
  { unfold split_node. fold g. destruct (outflows_total S r OK b (incoming g v) [] (nd_in g v C)) as [[b1 outs] F1].
    - intros e I. apply (in_iff g C) in I. apply I.
    - intros e I. apply (in_iff g C) in I. destruct I as [I _]. pose proof (edge_lt S r OK e I) as L. fold g in L. destruct (OptTotal.iv_out _ _ (af_inv b TF)) as [LO FO].
      split; [rewrite LO; exact L|]. assert (K : OptTotal.col_ok (f_phi (b_flow b)) (nth (e_id g e) (f_out (b_flow b)) frc_empty)) by (eapply Forall_forall; [exact FO|apply nth_In; rewrite LO; exact L]).
      destruct (OptTotal.frc_get_ok _ _ K) as (c' & v' & E & _). exists (c', v'). exact E.
    - rewrite F1. cbn [bind]. destruct (outflows_ok S b (incoming g v) b1 outs C (nd_in g v C)) as [RD OU]; [intros e I; apply (in_iff g C) in I; apply I|exact F1|].
      destruct (rd_rest _ _ _ _ RD) as [RA [RH [RN [RR [RNe [RCh RC0]]]]]]. destruct (af_nets b TF v IV) as [c [sn [TT [w [D [FI [HD _]]]]]]].
      unfold dfetch. rewrite RNe, D. cbn [bind]. rewrite (rd_phi _ _ _ _ RD). destruct (frc_get_ok c sn TT w (f_phi (b_flow b)) FI) as [_ K]. destruct (K HD) as [c' [q [E _]]]. rewrite E. cbn [bind].
      set (net := snd q) in *. set (ni1 := fold_left (fun d e => dset d (e_id g e) []) (outgoing g v) ni). set (b2 := with_net b1 (dset (b_net b) v c')).
      assert (SU : forall i, node_inflow i outs net = supply S b v i).
      { intro i. rewrite OU, node_inflow_eq. unfold supply, net_now, got. rewrite D, E. reflexivity. }
      destruct SO as (HE & CI & AO & RT & SE). cbn [fst snd] in *.
      destruct (foldM_total (assign S v outs net) (fun st => st_ok S r n T st /\ length (b_active (fst st)) = length (s_coms S) /\ forall e, In e (outgoing g v) -> dget (snd st) (e_id g e) <> None)
        (su_ord S (filter (fun i => negb (mem i (ids_by_sink (s_coms S) v))) (uniq (concat (map (map fst) outs) ++ map fst net)))) (b2, ni1)) as [st' [E' [_ [L' _]]]].
      + split; [|split; cbn [fst snd b2 with_net b_active]; [rewrite RA; apply (af_act b TF)|]].
        * split; [|split; [|split; [|split]]]; cbn [fst snd b2 with_net b_flow b_active b_route].
          -- apply (here_same S r n b); [apply (rd_phi _ _ _ _ RD)|apply (rd_in _ _ _ _ RD)|apply (rd_q _ _ _ _ RD)|exact RR|exact HE].
          -- apply (cinv_same S r n b); auto.
          -- rewrite RA. exact AO.
          -- rewrite RR. exact RT.
          -- intros e i x IE H. apply fresh_sent in H. apply (SE e i x IE H).
        * intros e I. destruct (fresh_rows g (outgoing g v) ni) as [FRW _]. fold ni1 in FRW. rewrite FRW.
          assert (X : existsb (fun x => Nat.eqb (e_id g x) (e_id g e)) (outgoing g v) = true) by (apply existsb_exists; exists e; split; [exact I|apply Nat.eqb_refl]). rewrite X. discriminate.
      + intros i [b3 ni3] Ii [SO3 [L3 RW3]]. cbn [fst snd] in *.
        assert (NS : ~ sinks_at S v i).
        { apply (Permutation_in i (so_ord S r OK _)) in Ii. apply filter_In in Ii. destruct Ii as [_ Ii]. apply negb_true_iff, mem_false in Ii. rewrite ids_by_sink_iff in Ii. exact Ii. }
        assert (DEC : exists c, ~ node_inflow i outs net < eps -> nth_error (s_coms S) i = Some c /\ from_source S i v /\ path (arcs g) v (k_sink c) /\ v <> k_sink c).
        { destruct (qltbP (node_inflow i outs net) eps) as [Q|Q]; [exists (mkCom [] 0 0); contradiction|]. rewrite SU in Q.
          destruct (supply_sink b v i TF P0 IV) as [cc [A1 [A2 A3]]]; [intro Z; rewrite Z in Q; pose proof eps_pos; qlra|]. exists cc. intros _. split; [exact A1|]. split; [exact A2|]. split; [exact A3|].
          intro Q2. apply NS. exists cc. auto. }
        destruct DEC as [cc DEC]. destruct (assign_total S r OK n AN b0 BI T v outs net b3 ni3 i cc j SO3 ET L3 RW3 DEC IV) as (b4 & ni4 & A & L4 & RW4).
        exists (b4, ni4). split; [exact A|]. split; [|auto]. apply (assign_cinv S r OK n T v outs net (b3, ni3) i (b4, ni4) SO3 A).
      + exists st'. split; [exact E'|exact L']. }
  destruct X as [[b' ni'] [E L]]. cbn [fst] in L. exists b', ni'. split; [exact E|]. destruct SO as (HE & CI & AO & RT & SE).
  pose proof (split_cinv S r OK n T (b, ni) v (b', ni') (conj HE (conj CI (conj AO (conj RT SE)))) E) as SO'.
  destruct (split_node_ok S C (so_ord S r OK) b ni v b' ni' AO ND E) as [AF [_ [ND' _]]]. split; [exact SO'|]. split; [|split; [rewrite (af_phi _ _ _ _ AF); exact P0|exact ND']].
  constructor; [apply (after_inv b b' _ AF), (af_inv b TF)| |intros w Iw; apply (net_after S b b' _ w AF), (af_nets b TF w Iw)|exact L].
  exists cs. split; [apply (after_events S cs b b' _ AF F)|auto].
Qed.
Lemma determine_total T b j : st_ok S r n T (b, []) -> T = qn j * r -> aflow b -> 0 <= f_phi (b_flow b) -> (forall v, In v (b_handle b) -> In v (node_ids g)) ->
  exists b' ni, determine_new_inflow S b = Ok (b', ni) /\ aflow b'.
Proof.
  intros SO ET TF P0 IH. unfold determine_new_inflow.
  destruct (foldM_total (split_node S) (fun st => st_ok S r n T st /\ aflow (fst st) /\ 0 <= f_phi (b_flow (fst st)) /\ NoDup (map fst (snd st))) (su_ord S (b_handle b)) (b, [])) as [[b' ni] [E [_ [TF' _]]]].
  - split; [exact SO|]. split; [exact TF|]. split; [exact P0|constructor].
  - intros v [b1 ni1] Iv (SO1 & TF1 & P1 & ND1). cbn [fst snd] in *. assert (IV : In v (node_ids g)) by (apply IH; apply (Permutation_in v (so_ord S r OK _) Iv)).
    destruct (split_total T b1 ni1 v j SO1 ET TF1 P1 ND1 IV) as (b2 & ni2 & E & A). exists (b2, ni2). split; [exact E|exact A].
  - exists b', ni. split; [exact E|exact TF'].
Qed.

(** ** One round *)
Lemma plan_total b : fb_run false S n = Ok b -> rinv S r n b -> aflow b -> (forall v, In v (b_handle b) -> In v (node_ids g)) ->
  exists b3 ni, plan S b = Ok (b3, ni) /\ aflow b3.
Proof.
  intros RN [SC CI PE] TF HN. unfold plan.
  destruct (pop_due_ok (Datatypes.S (sq_len (b_changes b))) b (sc_qnd _ _ b SC)) as [b1 [E1 P]]; [lia|]. rewrite E1. cbn [bind].
  assert (B1 : b_flow b1 = b_flow b /\ b_next b1 = b_next b /\ b_route b1 = b_route b /\ b_active b1 = b_active b /\ b_costs b1 = b_costs b /\ b_net b1 = b_net b).
  { rewrite (po_eq _ _ P). cbn. repeat split. }
  destruct B1 as [X1 [X3 [X4 [X5 [X6 X7]]]]]. pose proof (sc_next _ _ b SC) as LN. pose proof (so_pos S r OK) as RP.
  assert (RE : exists b2, reroute S b1 = Ok b2 /\ b_flow b2 = b_flow b /\ cinv S r n b2 /\ act_ok S (b_active b2) /\ b_route b2 <= f_phi (b_flow b) /\ f_phi (b_flow b) < b_route b2 + r /\ (exists m, b_route b2 = qn m * r) /\
     b_net b2 = b_net b /\ length (b_active b2) = length (s_coms S) /\ forall v, In v (b_handle b2) -> In v (node_ids g)).
  { unfold reroute. rewrite (so_int S r OK), X1, X3. destruct (qlebP (b_next b) (f_phi (b_flow b))) as [Q|Q].
    - eexists. split; [reflexivity|]. cbn [b_flow b_next b_route b_active b_costs b_net b_handle]. split; [reflexivity|]. split; [|split; [apply act_empty|split; [exact Q|split; [qlra|split; [apply (sc_mult _ _ b SC)|]]]]].
      + constructor; cbn [b_costs b_active b_route]; [discriminate|]. intros i v l D. exfalso.
        assert (E : nth i (map (fun _ : commodity => ([] : list (nat * list nat))) (s_coms S)) [] = []).
        { clear. revert i. induction (s_coms S) as [|c cs IH]; intros [|i]; try reflexivity. apply IH. }
        rewrite E in D. discriminate.
      + split; [exact X7|]. split; [apply map_length|]. intros v I. exact I.
    - exists b1. split; [reflexivity|]. destruct PE as [P1 P2]; [intro EQ; rewrite EQ in Q; qlra|]. split; [exact X1|]. split; [apply (cinv_same S r n b); auto|]. split; [rewrite X5; apply (sc_act _ _ b SC)|].
      rewrite X4. split; [exact P2|]. split; [qlra|]. split; [|split; [exact X7|split; [rewrite X5; apply (af_act b TF)|]]].
      + destruct (sc_mult _ _ b SC) as [m Hm]. destruct m as [|m].
        { exfalso. apply Q. rewrite Hm. pose proof (sc_phi _ _ b SC). unfold qn. change (Q2Qc (inject_Z (Z.of_nat 0))) with 0. replace (0 * r) with 0 by ring. exact H. }
        exists m. rewrite qn_S in Hm. rewrite P1 in Hm. replace (qn m * r) with ((qn m + 1) * r - r) by ring. rewrite <- Hm. ring.
      + intros v I. apply (po_h _ _ P) in I. destruct I as [I|[it [[k [K1 _]] <-]]]; [apply HN, I|]. destruct (sc_key _ _ b SC it k K1) as [_ CH]. eapply (change_node S r OK), CH. }
  destruct RE as (b2 & E2 & Y1 & Y2 & Y3 & Y5 & Y6 & [m Y7] & Y8 & Y9 & Y10). rewrite E2. cbn [bind].
  assert (HE : here S r n b2). { exists b. rewrite Y1. repeat (split; [auto|]). exact Y6. }
  apply (determine_total (b_route b2) b2 m).
  - split; [exact HE|]. split; [exact Y2|]. split; [exact Y3|]. split; [reflexivity|]. intros e i x _ H. discriminate.
  - exact Y7.
  - destruct TF as [T0 T1 T2 T3]. constructor; [rewrite Y1; exact T0|rewrite Y1; exact T1| |exact Y9]. intros v Iv. destruct (T2 v Iv) as [c [sn [TT [w K]]]]. exists c, sn, TT, w. rewrite Y1, Y8. exact K.
  - rewrite Y1. apply (sc_phi _ _ b SC).
  - exact Y10.
Qed.
Lemma step_assert b : fb_run false S n = Ok b -> aflow b -> (forall v, In v (b_handle b) -> In v (node_ids g)) ->
  exists b3 ni maxt, plan S b = Ok (b3, ni) /\ ext_min (Fin (b_next b3)) (sq_min_key (b_changes b3)) = Fin maxt /\ valid_call (s_nw S) (b_flow b3) (CExtend ni maxt) /\
  ((exists b', fb_step false S b = Ok b' /\ aflow b' /\ forall v, In v (b_handle b') -> In v (node_ids g)) \/
   (fb_step false S b = Err AssertionError /\ flow_extend false (s_nw S) (b_flow b3) ni maxt = Err AssertionError)).
Proof.
  intros RN TF HN. pose proof (run_rinv S r OK n b RN) as RI. pose proof (ri_sched _ _ _ _ RI) as SC.
  destruct (plan_total b RN RI TF HN) as (b3 & ni & EP & TF3). pose proof (plan_ok S r OK b b3 ni SC EP) as PL. destruct (pl_q _ _ _ _ _ PL) as [QN QK].
  destruct (ext_min_le (Fin (b_next b3)) (sq_min_key (b_changes b3))) as [M1 [M2 M3]].
  assert (PN : f_phi (b_flow b) <= b_next b3).
  { pose proof (sc_next _ _ b SC). pose proof (so_pos S r OK). destruct (qeqbP (f_phi (b_flow b)) (b_next b)) as [Q|Q].
    - destruct (pl_re _ _ _ _ _ PL Q) as [Z _]. rewrite Z. qlra.
    - destruct (pl_no _ _ _ _ _ PL Q) as [Z _]. rewrite Z. exact H. }
  assert (EM : exists maxt, ext_min (Fin (b_next b3)) (sq_min_key (b_changes b3)) = Fin maxt /\ f_phi (b_flow b3) <= maxt).
  { rewrite (pl_phi _ _ _ _ _ PL). destruct (min_key_ex _ QN) as [[Q _]|[it Q]].
    - rewrite Q. exists (b_next b3). split; [reflexivity|exact PN].
    - destruct M3 as [-> | ->]; [eauto|]. apply QK in Q. destruct Q as [K NK]. destruct it as [[i0 v0] t0]. destruct (sc_key _ _ b SC _ _ K) as [E _]. rewrite E in *. cbn [ext_le] in NK. eexists. split; [reflexivity|]. cbn [snd] in *. qlra. }
  destruct EM as [maxt [EM PM]]. exists b3, ni, maxt. split; [exact EP|]. split; [exact EM|].
  assert (VC : valid_call (s_nw S) (b_flow b3) (CExtend ni maxt)).
  { split; [apply (pl_ids _ _ _ _ _ PL)|]. split; [|exact PM]. intros e d I. split; [|apply (pl_snap _ _ _ _ _ PL e d I)].
    assert (IK : In e (map fst ni)) by (apply in_map_iff; exists (e, d); auto). apply (pl_ids _ _ _ _ _ PL) in IK. destruct IK as [v [y [_ [IO <-]]]].
    apply (out_iff g C) in IO. destruct IO as [IO _]. apply (edge_lt S r OK y IO). }
  split; [exact VC|]. destruct TF3 as [IN3 [cs [F3 [FR FK]]] NT3 L3].
  destruct (OptTotal.tot_extend (s_nw S) (so_net S r OK) (b_flow b3) ni maxt IN3 (fun e d I => proj1 (proj1 (proj2 VC) e d I)) PM) as ([fl ch] & _ & [IN' _] & EX). cbn [fst] in IN'.
  destruct EX as [EX|EX]; [|right; split; [|exact EX]; rewrite step_plan, EP; cbn [bind]; rewrite EM, EX; reflexivity]. left.
  assert (SP : extend_spec (s_nw S) (cs ++ [CExtend ni maxt]) (b_flow b3) fl maxt ch).
  { apply (extend_events (s_nw S) (so_net S r OK) false _ _ ni maxt); [|apply in_or_app; right; left; reflexivity|intros e d I; apply VC in I; apply I|exact PM|exact EX].
    eapply evinv_more; [|exact F3]. intros; apply in_or_app; auto. }
  destruct SP as [S1 [_ [_ [S4 EV']]]].
  destruct (fb_step false S b) as [b'|x] eqn:ES.
  - exists b'. split; [reflexivity|]. destruct (step_ok S r OK false b b' SC ES) as [b3' [ni' [maxt' [ch' ST]]]]. pose proof (st_plan _ _ _ _ _ _ _ _ _ ST) as EP'. rewrite EP in EP'. injection EP' as <- <-.
    assert (EQ : b_flow b' = fl).
    { rewrite step_plan, EP in ES. cbn [bind] in ES. rewrite EM, EX in ES. cbn [bind] in ES. apply bind_ok in ES. destruct ES as [heads [_ ES]]. apply ok_inj in ES. rewrite <- ES. reflexivity. }
    destruct (st_same _ _ _ _ _ _ _ _ _ ST) as [Z1 [Z2 [Z3 [Z4 Z5]]]]. destruct (plan_rinv S r OK n b b3 ni RN RI EP) as (_ & SB & _ & _ & _ & [j RJ]).
    assert (SENT : forall e i nf, In e (g_edges g) -> In (e_id g e, nf) ni -> rate nf i <> 0 -> exists x, sent S ni e i = Some x).
    { intros e i nf IE J NZ. unfold sent. fold g. rewrite (In_dget _ _ _ (proj1 (pl_ids _ _ _ _ _ PL)) J). unfold rate in NZ. destruct (dget nf i) as [x|]; [eauto|contradiction NZ; reflexivity]. }
    split; [constructor|].
    + rewrite EQ. exact IN'.
    + exists (cs ++ [CExtend ni maxt]). split; [rewrite EQ; exact EV'|]. split.
      * intros e i nf IE [ni' [m [I J]]] NZ. apply in_app_or in I. destruct I as [I|[Q|[]]]; [apply (FR e i nf IE); [exists ni', m; auto|exact NZ]|]. injection Q as <- <-.
        destruct (SENT e i nf IE J NZ) as [x SD]. apply (sent_reach S r OK b b3 ni e i x SC (run_reach S r OK SR false n b RN) PL IE SD).
      * intros e i nf IE [ni' [m [I J]]] NZ. apply in_app_or in I. destruct I as [I|[Q|[]]]; [apply (FK e i nf IE); [exists ni', m; auto|exact NZ]|]. injection Q as <- <-.
        destruct (SENT e i nf IE J NZ) as [x SD]. eapply (routed_path S r OK n AN); [eapply (round_routed S r OK SR n b b3 ni e i x RN EP IE SD)|exact RJ].
    + intros v Iv. destruct (NT3 v Iv) as [c [sn [TT [w [K1 [K2 [K3 K4]]]]]]]. exists c, sn, TT, w. rewrite Z3, EQ. split; [exact K1|]. split; [exact K2|]. split; [qlra|exact K4].
    + rewrite Z5. exact L3.
    + intros v I. apply (st_handle _ _ _ _ _ _ _ _ _ ST) in I. destruct I as [e [Ie [<- _]]]. apply (cs_ends g C e Ie).
  - exfalso. rewrite step_plan, EP in ES. cbn [bind] in ES. rewrite EM, EX in ES. cbn [bind] in ES.
    destruct (mapM_total (fun e => r0 <- fetch (g_edges (s_graph S)) e ;; Ok (e_to (s_graph S) r0)) ch) as [heads EH]; [|rewrite EH in ES; discriminate].
    intros e Ie. assert (L : (e < N)%nat).
    { destruct (Nat.lt_ge_cases e N) as [L|L]; [exact L|exfalso]. destruct (S4 e) as [new [E1 [_ [_ E2]]]]. apply E2 in Ie.
      assert (OV : forall st, OptTotal.inv (s_nw S) st -> out_chain st e = c_chain frc_empty).
      { intros st F. unfold out_chain, outflow_of. rewrite nth_overflow; [reflexivity|]. rewrite (proj1 (OptTotal.iv_out _ _ F)). exact L. }
      rewrite (OV _ IN'), (OV _ IN3) in E1. rewrite (OV _ IN3) in Ie. assert (new = []) by (apply (f_equal (@length _)) in E1; rewrite app_length in E1; destruct new; [reflexivity|cbn [length] in E1; lia]). subst new.
      destruct Ie as [[]|[P Ie]]. pose proof (sc_phi _ _ b SC) as P0. rewrite <- (pl_phi _ _ _ _ _ PL) in P0. cbn in Ie. intuition qlra. }
    unfold N in L. rewrite (so_caps S r OK) in L. unfold fetch. destruct (nth_error (g_edges (s_graph S)) e) as [y|] eqn:Y; [cbn [bind]; eauto|]. apply nth_error_None in Y. fold g in Y. unfold g in Y. lia.
Qed.
End T.

Section R.
Variables (S : setup) (r : Qc).
Hypothesis OK : setup_ok S r.
Hypothesis SR : sources_ok S.
Hypothesis SV : served S.
Lemma aflow_init b : fb_init S = Ok b -> aflow S b /\ b_handle b = [].
Proof.
  intro H. destruct (tflow_init S r OK SR b H) as [[[cs [F [FR FK]]] NT L] HD]. split; [|exact HD]. constructor; [|exists cs; split; [apply (fl_ev _ _ _ F)|auto]|exact NT|exact L].
  unfold fb_init in H. apply bind_ok in H. destruct H as [fl [E1 H]]. apply bind_ok in H. destruct H as [imp [E2 H]].
  apply bind_ok in H. destruct H as [net [E3 H]]. apply bind_ok in H. destruct H as [u [E4 H]]. injection H as <-. cbn [b_flow].
  destruct (OptTotal.init_tot (s_nw S)) as (st & _ & [I _] & [E|E]); rewrite E1 in E; [apply ok_inj in E; rewrite E; exact I|discriminate].
Qed.
Lemma run_aflow : forall n, answers S r n ->
  (exists b, fb_run false S n = Ok b /\ aflow S b /\ forall v, In v (b_handle b) -> In v (node_ids (s_graph S))) \/ fb_run false S n = Err AssertionError.
Proof.
  destruct (init_cases S r OK SR) as [[_ [b0 BI]]|[NS _]]; [|contradiction].
  induction n as [|n IH]; intro AN; cbn [fb_run].
  - rewrite BI. left. exists b0. split; [reflexivity|]. destruct (aflow_init b0 BI) as [T0 H0]. split; [exact T0|]. rewrite H0. intros v [].
  - destruct (IH (answers_mono S r n (Datatypes.S n) ltac:(lia) AN)) as [[b [R [T1 H1]]]|E]; [|right; rewrite E; reflexivity]. rewrite R. cbn [bind].
    destruct (step_assert S r OK SR SV n AN b0 BI b R T1 H1) as (b3 & ni & maxt & _ & _ & _ & [[b' [E [A B]]]|[E _]]); rewrite E; [left; eauto|right; reflexivity].
Qed.
End R.
