(** * C51, C52: constant, zero and linear predictors *)
From Verif Require Import Base Spec Arrays ArraysProofs PL PLProofs RC FRC FRCProofs FRCExact DynFlow DynRun DynEdge DynFlowProofs PropFlow PropFlow2 Graph Dijkstra FlowBuilder Neighbors Predictors PredictorsProofs.

(** [line q]: a valid function on the whole real line, as all queues of a flow
    are.  [left_slope q t s]: immediately before [t], [q] is affine with slope
    [s]; there is exactly one such [s]. *)
Definition lines (st : Flow) : Prop := forall q, In q (f_q st) -> line q.

(** Every flow built by a clean run (see PropFlow2.v) is such a state, its
    queues are non-negative, so [max(0, queue(pt))] below is the queue itself. *)
Lemma run_lines : forall nw calls st, net_ok nw -> valid_run nw calls -> clean_run nw calls -> flow_run false nw calls = Ok st ->
  lines st /\ length (f_q st) = length (n_cap nw) /\ forall q t, In q (f_q st) -> t <= f_phi st -> exists v, pl_eval q t = Ok v /\ 0 <= v /\ qmax 0 v = v.
Proof.
  intros nw calls st NW V C R. pose proof (clean_full nw calls st NW V C R) as F. pose proof F as [_ G]. destruct (gi_len _ _ _ G) as [_ [_ LQ]].
  assert (K : forall q, In q (f_q st) -> exists e, (e < length (n_cap nw))%nat /\ queue_of st e = q).
  { intros q I. destruct (In_nth _ _ queue0 I) as [e [L E]]. exists e. rewrite LQ in L. split; [exact L|exact E]. }
  split; [|split; [exact LQ|]].
  - intros q I. destruct (K q I) as [e [L E]]. destruct (edge_full nw calls st e NW F L) as [g [B _]]. pose proof (b_q _ _ _ _ _ B) as Q. cbn [edge_of e_q] in Q. rewrite E in Q.
    destruct Q as [Q1 Q2 Q3 _]. split; [exact Q1|split; assumption].
  - intros q t I T. destruct (K q I) as [e [L E]]. destruct (C33_queue_nonneg nw calls st e t NW V C R L T) as [v [A [P _]]]. rewrite E in A.
    exists v. split; [exact A|]. split; [exact P|]. destruct (qmax_spec 0 v) as [[X ->]|[X ->]]; qlra.
Qed.

(** ** C51 *)
Theorem C51_constant : forall pt st, lines st ->
  exists preds, constant_predict pt st = Ok preds /\ length preds = length (f_q st) /\
    forall e q, nth_error (f_q st) e = Some q -> exists p, nth_error preds e = Some p /\ forall t, pl_eval p t = pl_eval q pt.
Proof.
  intros pt st LN. destruct (mapM_total (fun queue => curr_queue <- pl_eval queue pt ;; pl_init [pt] [curr_queue] 0 0 NInf PInf) (f_q st)) as [r R].
  { intros q I. rewrite (line_eval q pt (LN q I)). cbn [bind]. rewrite one_init. eauto. }
  exists r. split; [exact R|]. destruct (mapM_spec _ _ _ R) as [L N]. split; [exact L|]. intros e q E. destruct (N e q E) as [p [P H]]. exists p. split; [exact P|].
  intro t. assert (LQ := LN q (nth_error_In _ _ E)). rewrite (line_eval q pt LQ) in *. cbn [bind] in H. rewrite one_init in H. injection H as <-.
  rewrite (line_eval _ t (one_line _ _ _ _)), one_at. reflexivity.
Qed.
Print Assumptions C51_constant.
Theorem C51_zero : forall pt st, exists preds, zero_predict pt st = Ok preds /\ length preds = length (f_q st) /\
  forall e p, nth_error preds e = Some p -> forall t, pl_eval p t = Ok 0.
Proof.
  intros pt st. unfold zero_predict. rewrite one_init. cbn [bind]. eexists. split; [reflexivity|]. split; [apply map_length|].
  intros e p E t. apply nth_error_In, in_map_iff in E. destruct E as [q [<- _]]. rewrite (line_eval _ t (one_line _ _ _ _)), one_at. reflexivity.
Qed.
Print Assumptions C51_zero.

(** ** C52 *)
(** The extrapolation both predictors should return from queue length [c] at
    [pt] with slope [s]: the line through (pt, c), cut off at 0 and constant
    after the horizon. *)
Definition extrapolation (h pt c s t : Qc) : Qc := qmax 0 (c + s * qmin (t - pt) h).
(** The cases in which the code's case distinction gets it right. *)
Definition safe (h c s : Qc) : Prop := eps < c \/ 0 <= c + h * s.
Definition predicts (h pt c s : Qc) (f : PL) : Prop :=
  (forall t, t <= pt -> pl_eval f t = Ok c) /\
  (safe h c s -> forall t, pt <= t -> pl_eval f t = Ok (extrapolation h pt c s t)) /\
  (~ safe h c s -> forall t, pt <= t -> pl_eval f t = Ok (c + s * qmin (t - pt) h)).

Lemma qmax_nonneg v : 0 <= qmax 0 v.
Proof. destruct (qmax_spec 0 v) as [[X ->]|[X ->]]; qlra. Qed.
Lemma predicts_ok h pt c s f : 0 <= c -> extrapolate h pt c s = Ok f -> predicts h pt c s f.
Proof.
  intros C0 E. pose proof E as E0. apply extrapolate_ok in E; [|exact C0]. destruct E as [LF [E1 E2]]. split; [|split].
  - intros t T. rewrite (line_eval f t LF), (E1 t T). reflexivity.
  - intros SF t T. rewrite (line_eval f t LF), (E2 t T). f_equal. unfold extrapolation. destruct (qltb (c + h * s) 0 && qltb eps c)%bool eqn:B; [reflexivity|].
    pose proof (extrapolate_h _ _ _ _ _ E0 B) as HP. assert (0 <= c + s * qmin (t - pt) h); [|destruct (qmax_spec 0 (c + s * qmin (t - pt) h)) as [[X ->]|[X ->]]; qlra].
    assert (0 <= c + h * s). { destruct SF as [D|D]; [|exact D]. destruct (qltbP (c + h * s) 0) as [Q|Q]; [|qlra]. destruct (qltbP eps c) as [Q2|Q2]; [discriminate|contradiction]. }
    destruct (qmin_spec (t - pt) h) as [[X ->]|[X ->]]; [qlra|]. destruct (Qclt_le_dec s 0); qnra.
  - intros NS t T. rewrite (line_eval f t LF), (E2 t T). f_equal. destruct (qltbP (c + h * s) 0) as [B|B]; destruct (qltbP eps c) as [D|D]; cbn [andb]; try reflexivity.
    exfalso. apply NS. left. exact D.
Qed.

Theorem C52_linear_partial : forall h pt st preds, lines st -> linear_predict h pt st = Ok preds ->
  length preds = length (f_q st) /\
  forall e q, nth_error (f_q st) e = Some q -> exists f v s, nth_error preds e = Some f /\
    pl_eval q pt = Ok v /\ left_slope q pt s /\ predicts h pt (qmax 0 v) s f.
Proof.
  intros h pt st preds LN H. destruct (mapM_spec _ _ _ H) as [L N]. split; [exact L|]. intros e q E. destruct (N e q E) as [f [F HE]].
  assert (LQ := LN q (nth_error_In _ _ E)). destruct (linear_edge h pt q f LQ HE) as [s [LS X]]. exists f, (pl_at q pt), s. split; [exact F|].
  split; [apply line_eval, LQ|]. split; [exact LS|]. apply predicts_ok; [apply qmax_nonneg|exact X].
Qed.
Print Assumptions C52_linear_partial.
Theorem C52_regularised_partial : forall h delta pt st preds, lines st -> 0 < delta -> reg_linear_predict h delta pt st = Ok preds ->
  length preds = length (f_q st) /\
  forall e q, nth_error (f_q st) e = Some q -> exists f v u, nth_error preds e = Some f /\
    pl_eval q pt = Ok v /\ pl_eval q (pt - delta) = Ok u /\ predicts h pt (qmax 0 v) ((qmax 0 v - qmax 0 u) / delta) f.
Proof.
  intros h delta pt st preds LN D H. destruct (mapM_spec _ _ _ H) as [L N]. split; [exact L|]. intros e q E. destruct (N e q E) as [f [F HE]].
  assert (LQ := LN q (nth_error_In _ _ E)). rewrite !(line_eval _ _ LQ) in HE |- *. cbn [bind] in HE. unfold pydiv in HE. destruct (qeqbP delta 0) as [->|NZ]; [exfalso; qlra|]. cbn [bind] in HE.
  exists f, (pl_at q pt), (pl_at q (pt - delta)). split; [exact F|]. split; [reflexivity|]. split; [reflexivity|]. apply predicts_ok; [apply qmax_nonneg|exact HE].
Qed.
Print Assumptions C52_regularised_partial.
(** Non-negative wherever the case distinction is right. *)
Theorem C52_nonneg_partial : forall h pt c s f t, 0 <= c -> safe h c s -> predicts h pt c s f -> exists y, pl_eval f t = Ok y /\ 0 <= y.
Proof.
  intros h pt c s f t C0 SF [P1 [P2 _]]. destruct (Qclt_le_dec t pt) as [L|L]; [exists c; split; [apply P1; qlra|exact C0]|].
  exists (extrapolation h pt c s t). split; [apply P2; assumption|]. apply qmax_nonneg.
Qed.
Print Assumptions C52_nonneg_partial.
(** The predictions exist if the horizon exceeds eps and no queue about to
    deplete does so within eps. *)
Theorem C52_no_exception_partial : forall h pt st, lines st -> eps < h ->
  (forall q v s, In q (f_q st) -> pl_eval q pt = Ok v -> left_slope q pt s -> qmax 0 v <= eps \/ 0 <= qmax 0 v + h * s \/ eps * - s < qmax 0 v) ->
  exists preds, linear_predict h pt st = Ok preds.
Proof.
  intros h pt st LN HH D. apply mapM_total. intros q I. assert (LQ := LN q I). rewrite (line_eval q pt LQ). cbn [bind].
  destruct (eval_rank q (proj1 LQ) pt) as [r [R _]]. rewrite R. cbn [bind]. destruct (left_slope_rank q pt r LQ R) as [B LS]. rewrite (gradient_ok q (proj1 LQ) r B). cbn [bind].
  apply extrapolate_total; [exact HH|]. destruct (D q _ _ I (line_eval q pt LQ) LS) as [K|[K|K]]; [left|left|right; exact K].
  - destruct (qltbP eps (qmax 0 (pl_at q pt))) as [Q|Q]; [exfalso; qlra|apply andb_false_r].
  - destruct (qltbP (qmax 0 (pl_at q pt) + h * slope_q q r) 0) as [Q|Q]; [exfalso; qlra|reflexivity].
Qed.
Print Assumptions C52_no_exception_partial.

(** ... and if some queue does deplete within eps, the predictor raises. *)
Theorem C52_exception_refuted : forall h pt st q v s, lines st -> 0 < h -> In q (f_q st) ->
  pl_eval q pt = Ok v -> left_slope q pt s -> eps < v -> v + h * s < 0 -> v <= eps * - s ->
  linear_predict h pt st = Err AssertionError.
Proof.
  intros h pt st q v s LN HH I EV LS V1 V2 V3. assert (E0 : 0 < eps) by (apply qltb_true; vm_compute; reflexivity).
  assert (STEP : forall q', In q' (f_q st) -> exists s', left_slope q' pt s' /\
     (v <- pl_eval q' pt ;; r <- elem_rank (pl_times q') pt ;; slope <- gradient q' r ;; extrapolate h pt (qmax 0 v) slope) = extrapolate h pt (qmax 0 (pl_at q' pt)) s').
  { intros q' I'. assert (LQ := LN q' I'). rewrite (line_eval q' pt LQ). cbn [bind]. destruct (eval_rank q' (proj1 LQ) pt) as [r [R _]]. rewrite R. cbn [bind].
    destruct (left_slope_rank q' pt r LQ R) as [B L']. rewrite (gradient_ok q' (proj1 LQ) r B). cbn [bind]. eauto. }
  apply mapM_err.
  - exists q. split; [exact I|]. exists AssertionError. destruct (STEP q I) as [s' [L' ->]]. rewrite (left_slope_unique q pt s' s L' LS).
    rewrite (line_eval q pt (LN q I)) in EV. apply ok_inj in EV. rewrite EV. replace (qmax 0 v) with v by (destruct (qmax_spec 0 v) as [[X ->]|[X ->]]; qlra).
    apply extrapolate_err; assumption.
  - intros q' y I' E. destruct (STEP q' I') as [s' [_ X]]. rewrite X in E. apply (extrapolate_only _ _ _ _ _ (qmax_nonneg _) E).
Qed.
Print Assumptions C52_exception_refuted.

(** Negative queues are predicted in reachable states: capacity 1, inflow 2
    during [0,1), then 0.  The queue is 1 at time 1 and has just run empty at
    time 2 = phi.  Predicting at 2 with horizon 5 gives -5 at time 7; the
    regularised predictor with delta = 1/2 gives -5, too. *)
Definition neg_net : Net := mkNet [1] [1].
Definition neg_calls : list call := [CExtend [(0%nat, [(0%nat, qz 2)])] 1; CExtend [(0%nat, [])] (qz 2)].
Definition check_neg : bool :=
  match flow_run false neg_net neg_calls with
  | Ok st => (qeqb (f_phi st) (qz 2) &&
      match (q <- fetch (f_q st) 0 ;; a <- pl_eval q 1 ;; b <- pl_eval q (qz 2) ;; Ok (a, b)) with Ok (a, b) => qeqb a 1 && qeqb b 0 | Err _ => false end &&
      match (l <- linear_predict (qz 5) (qz 2) st ;; f <- fetch l 0 ;; pl_eval f (qz 7)) with Ok y => qeqb y (qz (-5)) | Err _ => false end &&
      match (l <- reg_linear_predict (qz 5) (qr 1 2) (qz 2) st ;; f <- fetch l 0 ;; pl_eval f (qz 7)) with Ok y => qeqb y (qz (-5)) | Err _ => false end)%bool
  | Err _ => false
  end.
Theorem C52_negative_refuted :
  (exists st, flow_run false neg_net neg_calls = Ok st /\ f_phi st = qz 2 /\
    (exists l f, linear_predict (qz 5) (qz 2) st = Ok l /\ fetch l 0 = Ok f /\ pl_eval f (qz 7) = Ok (qz (-5))) /\
    (exists l f, reg_linear_predict (qz 5) (qr 1 2) (qz 2) st = Ok l /\ fetch l 0 = Ok f /\ pl_eval f (qz 7) = Ok (qz (-5)))) /\
  (forall h pt c s f, 0 <= c -> eps < h -> predicts h pt c s f -> ~ safe h c s -> exists y, pl_eval f (pt + h) = Ok y /\ y < 0).
Proof.
  split.
  - assert (K : check_neg = true) by (vm_compute; reflexivity). unfold check_neg in K.
    destruct (flow_run false neg_net neg_calls) as [st|] eqn:R; [|discriminate K]. clear R. exists st.
    apply andb_prop in K. destruct K as [K K4]. apply andb_prop in K. destruct K as [K K3]. apply andb_prop in K. destruct K as [K1 K2].
    split; [reflexivity|]. split; [destruct (qeqbP (f_phi st) (qz 2)); [assumption|discriminate]|]. split.
    + destruct (linear_predict (qz 5) (qz 2) st) as [l|]; [|discriminate K3]. cbn [bind] in K3. destruct (fetch l 0) as [f|] eqn:G; [|discriminate K3]. cbn [bind] in K3.
      destruct (pl_eval f (qz 7)) as [y|] eqn:Y; [|discriminate K3]. exists l, f. split; [reflexivity|]. split; [exact G|]. rewrite Y. destruct (qeqbP y (qz (-5))) as [E|]; [rewrite E; reflexivity|discriminate K3].
    + destruct (reg_linear_predict (qz 5) (qr 1 2) (qz 2) st) as [l|]; [|discriminate K4]. cbn [bind] in K4. destruct (fetch l 0) as [f|] eqn:G; [|discriminate K4]. cbn [bind] in K4.
      destruct (pl_eval f (qz 7)) as [y|] eqn:Y; [|discriminate K4]. exists l, f. split; [reflexivity|]. split; [exact G|]. rewrite Y. destruct (qeqbP y (qz (-5))) as [E|]; [rewrite E; reflexivity|discriminate K4].
  - intros h pt c s f C0 HH [_ [_ P3]] NS. exists (c + s * h). split; [|unfold safe in NS; apply Qcnot_le_lt; intro Q; apply NS; right; qlra].
    rewrite (P3 NS (pt + h)) by qlra. destruct (qmin_spec (pt + h - pt) h) as [[X ->]|[X ->]]; f_equal; qlra.
Qed.
Print Assumptions C52_negative_refuted.

(** A state in which the linear predictor raises: capacity 10 inflow 20 during
    [0, 1), then 0; at time 2 - eps/2 the queue 5 eps is still positive but
    will be empty half an eps later. *)
Definition exc_net : Net := mkNet [qz 10] [1].
Definition exc_calls : list call := [CExtend [(0%nat, [(0%nat, qz 20)])] 1; CExtend [(0%nat, [])] (qz 2 - eps * qr 1 2)].
Definition check_exc : bool :=
  match flow_run true exc_net exc_calls with
  | Ok st => match linear_predict (qz 5) (f_phi st) st with Err AssertionError => true | _ => false end
  | Err _ => false
  end.
Example C52_exception_reachable : check_exc = true.
Proof. vm_compute. reflexivity. Qed.
