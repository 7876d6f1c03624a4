(** * FlowBuilder: the recorded inflow follows the routes of its period *)
From Coq Require Import Permutation.
From Verif Require Import Base Spec Arrays ArraysProofs PL PLProofs RC RCProofs FRC FRCProofs FRCExact PQ PQProofs PQSpec DynFlow DQProofs DynRun DynEvents DynEdge DynFlowProofs
  Graph GraphSpec GraphProofs Dijkstra DijkstraSpec DijkstraProofs DijkstraProofs2 FlowBuilder FlowBuilderProofs BuilderRun BuilderFlow RoutesSpec BuilderRoutes BuilderRoutes2.

Section Rec.
Variables (S : setup) (r : Qc).
Hypothesis OK : setup_ok S r.
Hypothesis SR : sources_ok S.
Let g := s_graph S.
Let C : consistent g := so_graph S r OK.

Lemma step_uninstr b b' : fb_step true S b = Ok b' -> fb_step false S b = Ok b'.
Proof.
  rewrite !step_plan. intro H. apply bind_ok in H. destruct H as [[b3 ni] [EP H]]. rewrite EP. cbn [bind].
  destruct (ext_min (Fin (b_next b3)) (sq_min_key (b_changes b3))) as [|mt|]; try discriminate.
  apply bind_ok in H. destruct H as [rs [EX H]]. rewrite (ref_extend _ _ _ _ rs EX). exact H.
Qed.
Lemma run_uninstr : forall n b, fb_run true S n = Ok b -> fb_run false S n = Ok b.
Proof.
  induction n as [|n IH]; intros b H; cbn [fb_run] in *; [exact H|]. apply bind_ok in H. destruct H as [b0 [H1 H2]]. rewrite (IH b0 H1). cbn [bind]. apply step_uninstr, H2.
Qed.
Lemma routed_mono n m T e i : (n <= m)%nat -> routed S r n T e i -> routed S r m T e i.
Proof. intros L (c & p & ps & A & B & D & X). exists c, p, ps. split; [exact A|]. split; [exact B|]. split; [eapply asked_mono; eauto|exact X]. Qed.

Record recd (n : nat) (b : builder) : Prop := {
  rd_past : forall e i t, In e (g_edges g) -> 0 <= t -> t < f_phi (b_flow b) -> rin S b e i t <> 0 ->
     exists m, qn m * r <= t /\ t < qn m * r + r /\ routed S r n (qn m * r) e i;
  rd_now : f_phi (b_flow b) <> b_next b -> forall e i, In e (g_edges g) -> rin S b e i (f_phi (b_flow b)) <> 0 -> routed S r n (b_route b) e i }.

Lemma step_recd n b b' : fb_run true S n = Ok b -> recd n b -> fb_step true S b = Ok b' -> recd (Datatypes.S n) b'.
Proof.
  intros RT RD H. pose proof (run_cons S r OK SR n b RT) as CO. pose proof (co_sched _ _ b CO) as SC. pose proof (run_uninstr n b RT) as RF.
  pose proof (step_sched S r OK true b b' SC H) as SC'.
  destruct (step_ok S r OK true b b' SC H) as [b3 [ni [maxt [ch ST]]]].
  destruct ST as [EP PL VC EX SP [M1 M2] TI [Z1 [Z2 [Z3 [Z4 Z5]]]] ND HD].
  destruct (co_full _ _ b CO) as [cs F]. destruct (pl_flow _ _ _ _ _ PL) as [b2 [Y1 [Y2 [Y3 AF]]]].
  assert (F2 : full (s_nw S) cs (b_flow b2)) by (rewrite Y1; exact F). pose proof (after_full S r OK cs b2 b3 _ AF F2) as F3.
  pose proof (extend_good (s_nw S) (so_net S r OK) cs (b_flow b3) ni maxt F3 VC) as GE. rewrite EX in GE. cbn [good fst] in GE. destruct GE as [F' RP].
  rewrite (pl_phi _ _ _ _ _ PL) in RP.
  destruct (SP cs (fl_ev _ _ _ F)) as [S1 _]. rewrite (pl_phi _ _ _ _ _ PL) in S1.
  pose proof (sc_phi _ _ _ SC) as P0. pose proof (sc_next _ _ _ SC') as LN. rewrite Z1 in LN.
  destruct (plan_rinv S r OK n b b3 ni RF (run_rinv S r OK n b RF) EP) as (_ & _ & N3 & R1 & R2 & [m RM]).
  set (phi := f_phi (b_flow b)) in *.
  assert (I3 : forall e, inflow_of (b_flow b3) e = inflow_of (b_flow b) e) by (intro e; unfold inflow_of; rewrite (af_in _ _ _ _ AF), Y1; reflexivity).
  assert (I1 : forall e i t, In e (g_edges g) -> 0 <= t -> t < phi -> rin S b' e i t = rin S b e i t).
  { intros e i t I T0 T1. pose proof (edge_lt S r OK e I) as L. unfold rin. f_equal. destruct (RP (e_id g e) L) as [K _]. rewrite I3 in K. fold g.
    destruct (dget ni (e_id g e)) as [nf|]; [|rewrite K; reflexivity]. rewrite (K i t T0). destruct (qlebP phi t) as [Q|Q]; [exfalso; qlra|reflexivity]. }
  assert (I2 : forall e i t, In e (g_edges g) -> phi <= t -> rin S b' e i t = match dget ni (e_id g e) with Some nf => rate nf i | None => rin S b e i phi end).
  { intros e i t I T0. pose proof (edge_lt S r OK e I) as L. unfold rin. destruct (RP (e_id g e) L) as [K _]. rewrite I3 in K. fold g.
    destruct (dget ni (e_id g e)) as [nf|].
    - rewrite (K i t) by qlra. destruct (qlebP phi t) as [Q|Q]; [reflexivity|contradiction].
    - rewrite K. f_equal. apply (in_rate (s_nw S) (so_net S r OK) cs (b_flow b) (e_id g e) i t F L T0). }
  assert (NOW : forall e i t, In e (g_edges g) -> phi <= t -> rin S b' e i t <> 0 -> routed S r (Datatypes.S n) (b_route b3) e i).
  { intros e i t I T0 NZ. rewrite (I2 e i t I T0) in NZ. apply (routed_mono n); [lia|]. destruct (dget ni (e_id g e)) as [nf|] eqn:DN.
    - unfold rate in NZ. destruct (dget nf i) as [x|] eqn:DI; [|contradiction].
      apply (round_routed S r OK SR n b b3 ni e i x RF EP I). unfold sent. fold g. rewrite DN. exact DI.
    - assert (NK : ~ In (e_id g e) (map fst ni)) by (apply dget_None; exact DN).
      destruct (Qc_eq_dec phi (b_next b)) as [Q|NN].
      + exfalso. apply NK. apply (pl_ids _ _ _ _ _ PL). exists (e_from g e), e. split; [|split; [|reflexivity]].
        * apply (pl_re _ _ _ _ _ PL Q). apply (cs_ends g C e I).
        * apply (out_iff g C). auto.
      + destruct (pl_no _ _ _ _ _ PL NN) as [_ [-> _]]. apply (rd_now n b RD NN e i I NZ). }
  constructor.
  - intros e i t I T0 T1 NZ. destruct (qlebP phi t) as [Q|Q].
    + exists m. rewrite <- RM. split; [qlra|]. split; [qlra|]. eapply NOW; eauto.
    + rewrite I1 in NZ by (auto; qlra). destruct (rd_past n b RD e i t I T0 ltac:(fold phi; qlra) NZ) as [k [K1 [K2 K3]]]. exists k. split; [exact K1|]. split; [exact K2|].
      apply (routed_mono n); [lia|exact K3].
  - intros _ e i I NZ. rewrite Z2. eapply NOW; eauto.
Qed.
Lemma run_recd : forall n b, fb_run true S n = Ok b -> recd n b.
Proof.
  induction n as [|n IH]; intros b H; cbn [fb_run] in H.
  - destruct (init_sched S r OK b H) as [SC [P0 [N0 _]]]. constructor; [intros e i t _ T0 T1; exfalso; rewrite P0 in T1; qlra|intro NN; exfalso; apply NN; congruence].
  - apply bind_ok in H. destruct H as [b0 [H1 H2]]. eapply step_recd; eauto.
Qed.
End Rec.

(** ** Queues of the past are final *)
Section Q.
Variables (S : setup) (r : Qc).
Hypothesis OK : setup_ok S r.
Hypothesis SR : sources_ok S.
Let NE := length (n_cap (s_nw S)).
Lemma step_queue n b b' k t : fb_run true S n = Ok b -> fb_step true S b = Ok b' -> (k < NE)%nat -> t <= f_phi (b_flow b) ->
  f_phi (b_flow b) <= f_phi (b_flow b') /\ pl_at (queue_of (b_flow b') k) t = pl_at (queue_of (b_flow b) k) t.
Proof.
  intros RT H L T. pose proof (run_cons S r OK SR n b RT) as CO. pose proof (co_sched _ _ b CO) as SC.
  destruct (step_ok S r OK true b b' SC H) as [b3 [ni [maxt [ch ST]]]].
  destruct ST as [EP PL VC EX SP _ _ _ _ _].
  destruct (co_full _ _ b CO) as [cs F]. destruct (pl_flow _ _ _ _ _ PL) as [b2 [Y1 [Y2 [Y3 AF]]]].
  assert (F2 : full (s_nw S) cs (b_flow b2)) by (rewrite Y1; exact F). pose proof (after_full S r OK cs b2 b3 _ AF F2) as F3.
  pose proof (extend_good_q (s_nw S) (so_net S r OK) cs (b_flow b3) ni maxt F3 VC) as GE. rewrite EX in GE. cbn [good fst] in GE. destruct GE as [F' RP].
  rewrite (pl_phi _ _ _ _ _ PL) in RP. destruct (SP cs (fl_ev _ _ _ F)) as [S1 _]. rewrite (pl_phi _ _ _ _ _ PL) in S1.
  split; [exact S1|]. destruct (RP k L) as [_ QP]. rewrite (QP t T). unfold queue_of. rewrite (af_q _ _ _ _ AF), Y1. reflexivity.
Qed.
Lemma run_queue k t : (k < NE)%nat -> forall d m b bm, fb_run true S (d + m) = Ok b -> fb_run true S m = Ok bm -> t <= f_phi (b_flow bm) ->
  f_phi (b_flow bm) <= f_phi (b_flow b) /\ pl_at (queue_of (b_flow b) k) t = pl_at (queue_of (b_flow bm) k) t.
Proof.
  intros L. induction d as [|d IH]; intros m b bm H HM T; cbn [Nat.add] in H; [rewrite HM in H; injection H as <-; split; [qlra|reflexivity]|].
  cbn [fb_run] in H. apply bind_ok in H. destruct H as [b0 [H1 H2]]. destruct (IH m b0 bm H1 HM T) as [A B]. destruct (step_queue _ b0 b k t H1 H2 L ltac:(qlra)) as [A' B'].
  split; [qlra|congruence].
Qed.
Lemma run_prefix : forall d m b, fb_run true S (d + m) = Ok b -> exists bm, fb_run true S m = Ok bm.
Proof.
  induction d as [|d IH]; intros m b H; cbn [Nat.add] in H; [eauto|]. cbn [fb_run] in H. apply bind_ok in H. destruct H as [b0 [H1 _]]. eapply IH, H1.
Qed.
(** What the constant predictor answered are the final queues at time [T]. *)
Lemma constant_asked n b ty p T preds : fb_run true S n = Ok b -> 0 <= T -> dget (su_preds S) ty = Some p -> (forall t fl, p_predict p t fl = Predictors.constant_predict t fl) ->
  asked S r n ty T preds ->
  length preds = NE /\ T <= f_phi (b_flow b) /\
  forall k, (k < NE)%nat -> exists q, nth_error preds k = Some (mkPL [T] [q] 0 0 NInf PInf) /\ pl_eval (queue_of (b_flow b) k) T = Ok q /\ 0 <= q.
Proof.
  intros RT T0 DP CP (m & bm & p' & fl & LM & RM & A1 & A2 & DP' & FP & FI & FQ & PR). rewrite DP in DP'. injection DP' as <-. rewrite CP in PR.
  replace n with ((n - m) + m)%nat in RT by lia. destruct (run_prefix _ _ _ RT) as [bm' RM']. pose proof (run_uninstr S m bm' RM') as E. rewrite RM in E. injection E as <-.
  destruct (co_full _ _ bm (run_cons S r OK SR m bm RM')) as [cs F]. destruct (co_full _ _ b (run_cons S r OK SR _ b RT)) as [cs' F'].
  unfold Predictors.constant_predict in PR. rewrite FQ in PR. destruct (PredictorsProofs.mapM_spec _ _ _ PR) as [LL NN].
  pose proof (proj2 (proj2 (gi_len _ _ _ (fl_g _ _ _ F)))) as LQ. fold NE in LQ. split; [rewrite LL; exact LQ|].
  assert (PH : T <= f_phi (b_flow b)).
  { clear -RT RM' A1 OK SR. revert b RT. induction (n - m)%nat as [|d IH]; intros b RT; cbn [Nat.add] in RT; [rewrite RM' in RT; injection RT as <-; exact A1|].
    cbn [fb_run] in RT. apply bind_ok in RT. destruct RT as [b0 [H1 H2]]. specialize (IH b0 H1). pose proof (co_sched _ _ b0 (run_cons S r OK SR _ b0 H1)) as SC.
    destruct (step_ok S r OK true b0 b SC H2) as [b3 [ni [maxt [ch ST]]]]. destruct ST as [EP PL VC EX SP _ _ _ _ _]. destruct (co_full _ _ b0 (run_cons S r OK SR _ b0 H1)) as [cs F].
    destruct (SP cs (fl_ev _ _ _ F)) as [S1 _]. rewrite (pl_phi _ _ _ _ _ PL) in S1. qlra. }
  split; [exact PH|]. intros k L. assert (IQ : nth_error (f_q (b_flow bm)) k = Some (queue_of (b_flow bm) k)) by (unfold queue_of; apply nth_error_nth'; rewrite LQ; exact L).
  destruct (NN k _ IQ) as [f [N1 N2]]. destruct (gi_e _ _ _ (fl_g _ _ _ F) k L) as [gh [B _]]. pose proof (qs_eval _ _ T (b_q _ _ _ _ _ B)) as EV. cbn [edge_of e_q] in EV.
  rewrite EV in N2. cbn [bind] in N2. rewrite PredictorsProofs.one_init in N2. injection N2 as <-.
  exists (pl_at (queue_of (b_flow bm) k) T). split; [exact N1|].
  destruct (run_queue k T L _ m b bm RT RM' A1) as [_ QE]. rewrite <- QE.
  destruct (gi_e _ _ _ (fl_g _ _ _ F') k L) as [gh' [B' _]]. split; [exact (qs_eval _ _ T (b_q _ _ _ _ _ B'))|apply (b_nn _ _ _ _ _ B' T T0 PH)].
Qed.
End Q.
