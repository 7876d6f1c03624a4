(** * C119: FlowBuilder raises nothing but AssertionError *)
From Coq Require Import Permutation.
From Verif Require Import Base Spec Arrays PL RC RCProofs FRC FRCProofs PQ DynFlow DynRun DynFlowProofs Graph GraphSpec GraphProofs FlowBuilder FlowBuilderProofs BuilderRun BuilderFlow Predictors PredictorsProofs PropPredictors2 PropPredictors4
  RoutesSpec BuilderRoutes BuilderRoutes2 BuilderRoutes3 PropBuilder PropBuilder2 PropRoutes TotalSpec BuilderTotal BuilderTotal2 PropTotal.
From Verif Require OptTotal.

(** [setup_ok], [sources_ok]: a well-formed network, source rates given as
    right-constant functions (FlowBuilder.v, BuilderFlow.v); [served],
    [answers]: TotalSpec.v.  No assumption that queues are computed cleanly. *)
Theorem C119_only_assertions : forall S r n, setup_ok S r -> sources_ok S -> served S -> answers S r n ->
  (exists b, fb_run false S n = Ok b) \/ fb_run false S n = Err AssertionError.
Proof. intros S r n OK SR SV AN. destruct (run_aflow S r OK SR SV n AN) as [[b [E _]]|E]; eauto. Qed.
Print Assumptions C119_only_assertions.

(** Where a round fails: choosing routes and splitting the flow ([plan]:
    FlowBuilder.v, everything [next] does before it calls [extend]) succeeds;
    the call of [DynamicFlow.extend] that it makes is a legal one ([valid_call]:
    every edge once, edges of the network, non-negative rates, an end time not
    in the past), and it is this call that fails an assertion. *)
Theorem C119_in_extend : forall S r n b x, setup_ok S r -> sources_ok S -> served S -> answers S r (Datatypes.S n) ->
  fb_run false S n = Ok b -> fb_run false S (Datatypes.S n) = Err x ->
  x = AssertionError /\ exists b3 ni maxt, plan S b = Ok (b3, ni) /\ f_phi (b_flow b3) = f_phi (b_flow b) /\
    valid_call (s_nw S) (b_flow b3) (CExtend ni maxt) /\ flow_extend false (s_nw S) (b_flow b3) ni maxt = Err AssertionError.
Proof.
  intros S r n b x OK SR SV AN RN RX. cbn [fb_run] in RX. rewrite RN in RX. cbn [bind] in RX.
  destruct (init_cases S r OK SR) as [[_ [b0 BI]]|[NS _]]; [|contradiction].
  destruct (run_aflow S r OK SR SV n (answers_mono S r n (Datatypes.S n) ltac:(lia) AN)) as [[b1 [E [A B]]]|E]; [|congruence]. rewrite RN in E. apply ok_inj in E. subst b1.
  destruct (step_assert S r OK SR SV n AN b0 BI b RN A B) as (b3 & ni & maxt & EP & _ & VC & [[b' [E _]]|[E EX]]); [congruence|].
  split; [congruence|]. exists b3, ni, maxt. split; [exact EP|]. split; [|split; [exact VC|exact EX]].
  apply (pl_phi _ _ _ _ _ (plan_ok S r OK b b3 ni (ri_sched _ _ _ _ (run_rinv S r OK n b RN)) EP)).
Qed.
Print Assumptions C119_in_extend.

(** The zero predictor always answers. *)
Lemma zero_answers S r n : setup_ok S r -> sources_ok S -> served S ->
  (forall c, In c (s_coms S) -> exists p, dget (su_preds S) (k_pred c) = Some p /\ forall t flow, p_predict p t flow = zero_predict t flow) -> answers S r n.
Proof.
  intros OK SR SV SP. induction n as [|n IH]; [intros m bm c j fl LM; lia|].
  intros m bm c j fl LM RM IC T T1 T2 FP FI FQ. destruct (SP c IC) as [p [DP SI]]. exists p.
  destruct (run_aflow S r OK SR SV m (answers_mono S r m n ltac:(lia) IH)) as [[b1 [E [A _]]]|E]; [|congruence]. rewrite RM in E. apply ok_inj in E. subst b1.
  pose proof (proj1 (OptTotal.iv_q _ _ (af_inv _ _ A))) as LQ. rewrite (so_caps S r OK) in LQ.
  assert (CP : forall i cap, nth_error (w_cap (su_net S)) i = Some cap -> 0 <= cap) by (intros i cap E; pose proof (sn_pos _ (sound S r OK) i cap E); qlra).
  exists (map (fun _ => mkPL [T] [0] 0 0 NInf PInf) (f_q fl)). split; [exact DP|]. split; [rewrite SI; unfold zero_predict; rewrite one_init; reflexivity|]. split; [rewrite map_length, FQ; exact LQ|].
  intros i f cap Ef Ec. apply nth_error_In, in_map_iff in Ef. destruct Ef as [y [<- _]]. exists 0. apply good_const; [qlra|eapply CP; exact Ec].
Qed.
Theorem C119_zero : forall S r n, setup_ok S r -> sources_ok S -> served S ->
  (forall c, In c (s_coms S) -> exists p, dget (su_preds S) (k_pred c) = Some p /\ forall t flow, p_predict p t flow = zero_predict t flow) ->
  (exists b, fb_run false S n = Ok b) \/ fb_run false S n = Err AssertionError.
Proof. intros S r n OK SR SV SP. apply (C119_only_assertions S r n OK SR SV), zero_answers; assumption. Qed.
Print Assumptions C119_zero.

(** With positive travel times the builder reaches every time or stops with an
    AssertionError. *)
Theorem C119_reaches : forall S r, setup_ok S r -> sources_ok S -> served S -> (forall tau, In tau (w_tau (su_net S)) -> 0 < tau) -> (forall n, answers S r n) ->
  forall t, exists n, (exists b, fb_run false S n = Ok b /\ t <= f_phi (b_flow b)) \/ fb_run false S n = Err AssertionError.
Proof.
  intros S r OK SR SV TP AN t. destruct (C79_progress S r OK TP t) as [n H]. exists n. destruct H as [H|[x H]]; [left; exact H|right].
  destruct (C119_only_assertions S r n OK SR SV (AN n)) as [[b E]|E]; [congruence|exact E].
Qed.
Print Assumptions C119_reaches.

(** ** The assertion really fails for some legal input *)
(** One edge of capacity 1, source rate 2 until time 1, 1 - 2 eps until time 2,
    then 1 - 5/2 eps.  The change of the queue's slope at time 2 is below the
    precision and ignored, but the depletion is planned with the new slope, so
    the queue is not empty at the planned time. *)
Definition ba_rate : RC := mkRC [0; 1; qz 2] [qz 2; 1 - qz 2 * eps; 1 - Q2Qc (5 # 2) * eps] (Fin 0) PInf.
Definition ba : setup := mkSetup (mkNw (grun [GAdd 1 2]%nat) [1] [1] [mkCom [(1%nat, ba_rate)] 2 0]) [(0%nat, mkPred zero_predict true)] (Some 1) (fun l => l).
Lemma ba_ok : setup_ok ba 1 /\ sources_ok ba.
Proof.
  split.
  - constructor.
    + apply (grun_spec [GAdd 1 2]%nat g_empty (empty_consistent _ _)). cbn. auto.
    + split; [reflexivity|]. split; intros x H; cbn in H; repeat (destruct H as [<-|H]; [qdec|]); destruct H.
    + reflexivity.
    + intro l. apply Permutation_refl.
    + reflexivity.
    + qdec.
    + intros c H. cbn [ba s_coms s_nw su_net w_com In] in H. destruct H as [<-|[]]; cbn [k_sources map fst]; repeat constructor; intros [].
    + intros c v f H I. cbn [ba s_coms s_nw su_net w_com In] in H. destruct H as [<-|[]]. cbn [k_sources In] in I. destruct I as [E|[]]; injection E as <- <-; cbn [ba_rate rc_times].
      constructor; [intros [Q|[Q|[]]]; apply (f_equal (fun x : Qc => Qnum (this x))) in Q; vm_compute in Q; discriminate|].
      constructor; [intros [Q|[]]; apply (f_equal (fun x : Qc => Qnum (this x))) in Q; vm_compute in Q; discriminate|constructor; [intros []|constructor]].
    + intros c v f H I. cbn [ba s_coms s_nw su_net w_com In] in H. destruct H as [<-|[]]. cbn [k_sources In] in I. destruct I as [E|[]]; injection E as <- <-; cbn; auto.
  - assert (TM : forall i v t, change_at ba i v t -> t = 0 \/ t = 1 \/ t = qz 2).
    { intros i v t [c [f [I [D T]]]]. destruct i as [|i]; cbn in I; [|destruct i; discriminate]. injection I as <-. cbn [k_sources dget fst snd] in D.
      destruct (Nat.eqb_spec 1 v) as [<-|N]; [|discriminate]. injection D as <-. cbn [ba_rate rc_times] in T. destruct T as [<-|[<-|[<-|[]]]]; auto. }
    constructor.
    + intros c v f I J. cbn [ba s_coms su_net w_com In] in I. destruct I as [<-|[]]; cbn [k_sources In] in J; destruct J as [E|[]]; injection E as <- <-.
      split; [|split; [reflexivity|split; [reflexivity|split; [left; reflexivity|]]]].
      * constructor; [reflexivity|discriminate| |].
        -- cbn [ba_rate rc_times]. repeat constructor; qdec.
        -- intros t [<-|[<-|[<-|[]]]]; split; cbn [ba_rate rc_lo rc_hi rin_dom ext_le]; try exact Logic.I; qdec.
      * intros x [<-|[<-|[<-|[]]]]; qdec.
    + intros i j v t u A B L. assert (G1 : gap 0 1) by (unfold gap; qdec). assert (G2 : gap 0 (qz 2)) by (unfold gap; qdec). assert (G3 : gap 1 (qz 2)) by (unfold gap; qdec).
      destruct (TM _ _ _ A) as [->|[->| ->]], (TM _ _ _ B) as [->|[->| ->]]; try assumption; exfalso; revert L; apply Qcle_not_lt; qdec.
Qed.
Lemma ba_served : served ba.
Proof.
  destruct ba_ok as [OK SR]. apply (proj1 (C78_constructor ba _ OK SR)). destruct (fb_init ba) as [b|x] eqn:E; [eauto|]. exfalso.
  assert (Q : match fb_init ba with Ok _ => true | Err _ => false end = true) by (vm_compute; reflexivity). rewrite E in Q. discriminate.
Qed.
Lemma ba_zero : forall c, In c (s_coms ba) -> exists p, dget (su_preds ba) (k_pred c) = Some p /\ forall t flow, p_predict p t flow = zero_predict t flow.
Proof. intros c [<-|[]]. exists (mkPred zero_predict true). split; reflexivity. Qed.
Theorem C119_assertion_occurs : exists S r n, setup_ok S r /\ sources_ok S /\ served S /\ (forall m, answers S r m) /\
  (exists b, fb_run false S n = Ok b) /\ fb_run false S (Datatypes.S n) = Err AssertionError.
Proof.
  destruct ba_ok as [OK SR]. exists ba, 1, 2%nat. split; [exact OK|]. split; [exact SR|]. split; [exact ba_served|]. split; [intro m; apply (zero_answers ba 1 m OK SR ba_served ba_zero)|]. split.
  - destruct (fb_run false ba 2) as [b|x] eqn:E; [eauto|]. exfalso. assert (Q : match fb_run false ba 2 with Ok _ => true | Err _ => false end = true) by (vm_compute; reflexivity). rewrite E in Q. discriminate.
  - assert (Q : match fb_run false ba 3 with Err AssertionError => true | _ => false end = true) by (vm_compute; reflexivity). destruct (fb_run false ba 3) as [b|[]]; try discriminate. reflexivity.
Qed.
Print Assumptions C119_assertion_occurs.
(** Non-vacuity of C119_in_extend. *)
Example C119_example : exists b3 ni maxt b, fb_run false ba 2 = Ok b /\ plan ba b = Ok (b3, ni) /\ flow_extend false (s_nw ba) (b_flow b3) ni maxt = Err AssertionError.
Proof.
  destruct ba_ok as [OK SR]. destruct (fb_run false ba 2) as [b|x] eqn:E.
  - assert (X : exists x, fb_run false ba 3 = Err x).
    { assert (Q : match fb_run false ba 3 with Err AssertionError => true | _ => false end = true) by (vm_compute; reflexivity). destruct (fb_run false ba 3) as [b'|y]; [discriminate|eauto]. }
    destruct X as [x X]. destruct (C119_in_extend ba 1 2 b x OK SR ba_served (zero_answers ba 1 3 OK SR ba_served ba_zero) E X) as [_ (b3 & ni & maxt & P1 & _ & _ & P2)].
    exists b3, ni, maxt, b. auto.
  - exfalso. assert (Q : match fb_run false ba 2 with Ok _ => true | Err _ => false end = true) by (vm_compute; reflexivity). rewrite E in Q. discriminate.
Qed.
