(** * C65, C66 and the negative results for C53, C54 *)
From Verif Require Import Base Spec Arrays ArraysProofs PL PLProofs PLEval RC FRC FRCProofs FRCExact DynFlow DynRun DynEdge DynFlowProofs PropFlow PropFlow2 Graph Dijkstra FlowBuilder Neighbors Predictors PredictorsProofs PredictorsProofs2 PropPredictors PropPredictors2.

(** ** C66: edge loads *)
(** If the breakpoints of the cumulative inflow and outflow of every edge are
    equal or more than eps apart, get_edge_loads returns, for every edge, the
    cumulative inflow minus the cumulative outflow from time 0 on, 0 before. *)
Definition acc_separated (nw : Net) (st : Flow) : Prop := forall e, (e < length (n_cap nw))%nat ->
  separated (0 :: pl_times (c_acc (inflow_of st e)) ++ pl_times (c_acc (outflow_of st e))).
Theorem C66_loads : forall nw calls st, net_ok nw -> valid_run nw calls -> clean_run nw calls -> flow_run false nw calls = Ok st -> acc_separated nw st ->
  exists loads, get_edge_loads st = Ok loads /\ length loads = length (n_cap nw) /\ Forall line loads /\
  forall e l t, nth_error loads e = Some l -> exists y, pl_eval l t = Ok y /\ (t <= 0 -> y = 0) /\
    (0 <= t -> exists a b, cumulative (inflow_of st e) t = Ok a /\ cumulative (outflow_of st e) t = Ok b /\ y = a - b).
Proof.
  intros nw calls st NW V C R SEP. pose proof (clean_full nw calls st NW V C R) as F. pose proof F as [_ G]. destruct (gi_len _ _ _ G) as [LI [LO LQ]].
  assert (K : forall e, (e < length (n_cap nw))%nat -> exists l, edge_load (inflow_of st e) (outflow_of st e) = Ok l /\ line l /\ (forall t, t <= 0 -> pl_at l t = 0) /\ forall t, 0 <= t -> pl_at l t = pl_at (c_acc (inflow_of st e)) t - pl_at (c_acc (outflow_of st e)) t).
  { intros e L. destruct (edge_full nw calls st e NW F L) as [g [B _]]. pose proof (b_in _ _ _ _ _ B) as BI. pose proof (b_out _ _ _ _ _ B) as BO. cbn [edge_of e_in e_out] in BI, BO.
    pose proof (fs_inv _ _ _ _ _ BI) as II. pose proof (fs_inv _ _ _ _ _ BO) as IO.
    apply edge_load_ok; [apply (fi_av _ _ _ _ II)|apply (fi_av _ _ _ _ IO)|apply (fi_alo _ _ _ _ II)|apply (fi_alo _ _ _ _ IO)|apply (fi_ahi _ _ _ _ II)|apply (fi_ahi _ _ _ _ IO)| | |apply SEP, L].
    - apply (fx_zero _ _ _ _ (fs_x _ _ _ _ _ BI)).
    - apply (fx_zero _ _ _ _ (fs_x _ _ _ _ _ BO)). }
  assert (N : forall e p, nth_error (combine (f_in st) (f_out st)) e = Some p -> (e < length (n_cap nw))%nat /\ p = (inflow_of st e, outflow_of st e)).
  { intros e p N. assert (L : (e < length (combine (f_in st) (f_out st)))%nat) by (apply nth_error_Some; congruence). rewrite combine_length, LI, LO in L. split; [lia|].
    apply (nth_error_nth _ _ (frc_empty, frc_empty)) in N. rewrite combine_nth in N by congruence. symmetry. exact N. }
  destruct (mapM_total (fun p => edge_load (fst p) (snd p)) (combine (f_in st) (f_out st))) as [loads M].
  { intros p I. apply In_nth_error in I. destruct I as [e I]. destruct (N e p I) as [L ->]. destruct (K e L) as [l [E _]]. exists l. exact E. }
  exists loads. split; [exact M|]. destruct (mapM_spec _ _ _ M) as [LL NN]. rewrite combine_length, LI, LO, Nat.min_id in LL. split; [exact LL|].
  assert (NL : forall e l, nth_error loads e = Some l -> (e < length (n_cap nw))%nat /\ edge_load (inflow_of st e) (outflow_of st e) = Ok l).
  { intros e l E. assert (L : (e < length loads)%nat) by (apply nth_error_Some; congruence). destruct (nth_error (combine (f_in st) (f_out st)) e) as [p|] eqn:P; [|exfalso; apply nth_error_None in P; rewrite combine_length in P; lia].
    destruct (N e p P) as [L' ->]. destruct (NN e _ P) as [l' [E' H]]. cbn [fst snd] in H. split; [exact L'|congruence]. }
  split.
  - apply Forall_forall. intros l I. apply In_nth_error in I. destruct I as [e I]. destruct (NL e l I) as [L E]. destruct (K e L) as [l' [E' [H _]]]. rewrite E in E'. apply ok_inj in E'. subst l'. exact H.
  - intros e l t I. destruct (NL e l I) as [L E]. destruct (K e L) as [l' [E' [H [A1 A2]]]]. rewrite E in E'. apply ok_inj in E'. subst l'. exists (pl_at l t). split; [apply line_eval, H|]. split; [apply A1|].
    intro T. destruct (edge_full nw calls st e NW F L) as [g [B _]]. pose proof (b_in _ _ _ _ _ B) as BI. pose proof (b_out _ _ _ _ _ B) as BO. cbn [edge_of e_in e_out] in BI, BO.
    exists (acc (inflow_of st e) t), (acc (outflow_of st e) t). split; [apply (cumulative_eq _ _ _ _ _ _ BI T)|]. split; [apply (cumulative_eq _ _ _ _ _ _ BO T)|]. apply A2, T.
Qed.
Print Assumptions C66_loads.

(** Such a flow is what C53 and C54 ask for. *)
Corollary run_usable nw calls st L : net_ok nw -> valid_run nw calls -> clean_run nw calls -> flow_run false nw calls = Ok st -> acc_separated nw st ->
  length (g_edges (w_graph (l_nw L))) = length (n_cap nw) -> length (l_in L) = length (n_cap nw) -> 0 <= l_step L -> exists loads, usable L st loads.
Proof.
  intros NW V C R SEP E1 E2 ST. destruct (C66_loads nw calls st NW V C R SEP) as [loads [G [LL [LF _]]]]. destruct (run_lines nw calls st NW V C R) as [LN [LQ _]].
  exists loads. constructor; auto; congruence.
Qed.

(** ** C53, C54: what the neighbourhood predictors get wrong *)
(** One edge of capacity 1 and travel time 1, inflow 5 during [0,1): the queue
    at time 1 is 4.  Prediction interval 2, one future step, a model that
    predicts an empty queue. *)
Definition one_net : network := nw_add_edge nw_empty 1 2 1 1.
Definition nb_L (out : list bool) : learned := mkL one_net [true] out 1 1 (qz 2).
Definition nb_calls : list call := [CExtend [(0%nat, [(0%nat, qz 5)])] 1].
Definition nb_model : nat -> list Qc -> list Qc := fun _ _ => [0].
Definition at_edge (r : res (list PL)) (e : nat) (t : Qc) : res Qc := l <- r ;; f <- fetch l e ;; pl_eval f t.
Definition first_of (r : res (list (list PL))) : res (list PL) := l <- r ;; fetch l 0.
Definition is (r : res Qc) (x : Qc) : bool := match r with Ok y => qeqb y x | Err _ => false end.
Lemma is_true r x : is r x = true -> r = Ok x.
Proof. unfold is. destruct r as [y|]; [|discriminate]. destruct (qeqbP y x) as [->|]; [reflexivity|discriminate]. Qed.
Definition check_nb : bool :=
  match flow_run true neg_net nb_calls with
  | Ok st =>
      (qeqb (f_phi st) 1 && is (at_edge (nb_predict nb_model (nb_L [true]) 1 1 st) 0 1) (qz 4) && is (at_edge (nb_predict nb_model (nb_L [true]) 1 1 st) 0 (qz 2)) (qz 2) &&
       is (at_edge (first_of (nb_batch_predict nb_model (nb_L [true]) 1 [1] st)) 0 (qz 2)) (qz 3))%bool
  | Err _ => false
  end.
Lemma check_nb_true : check_nb = true.
Proof. vm_compute. reflexivity. Qed.
(** The queue is predicted to fall by 2 from time 1 to time 2, twice the capacity. *)
Theorem C53_refuted : exists st, flow_run false neg_net nb_calls = Ok st /\ f_phi st = 1 /\ w_cap one_net = [1] /\
  at_edge (nb_predict nb_model (nb_L [true]) 1 1 st) 0 1 = Ok (qz 4) /\ at_edge (nb_predict nb_model (nb_L [true]) 1 1 st) 0 (qz 2) = Ok (qz 2).
Proof.
  pose proof check_nb_true as K. unfold check_nb in K. destruct (flow_run true neg_net nb_calls) as [st|] eqn:R; [|discriminate K]. exists st.
  apply andb_prop in K. destruct K as [K K4]. apply andb_prop in K. destruct K as [K K3]. apply andb_prop in K. destruct K as [K1 K2]. split; [apply erase_run, R|].
  split; [destruct (qeqbP (f_phi st) 1); [assumption|discriminate]|]. split; [reflexivity|]. split; [apply is_true, K2|apply is_true, K3].
Qed.
Print Assumptions C53_refuted.
(** predict says 2 at time 2, batch_predict says 3. *)
Theorem C54_refuted : exists st, flow_run false neg_net nb_calls = Ok st /\ f_phi st = 1 /\
  at_edge (nb_predict nb_model (nb_L [true]) 1 1 st) 0 (qz 2) = Ok (qz 2) /\ at_edge (first_of (nb_batch_predict nb_model (nb_L [true]) 1 [1] st)) 0 (qz 2) = Ok (qz 3).
Proof.
  pose proof check_nb_true as K. unfold check_nb in K. destruct (flow_run true neg_net nb_calls) as [st|] eqn:R; [|discriminate K]. exists st.
  apply andb_prop in K. destruct K as [K K4]. apply andb_prop in K. destruct K as [K K3]. apply andb_prop in K. destruct K as [K1 K2]. split; [apply erase_run, R|].
  split; [destruct (qeqbP (f_phi st) 1); [assumption|discriminate]|]. split; [apply is_true, K3|apply is_true, K4].
Qed.
Print Assumptions C54_refuted.

(** ** C65: evaluating predictions of masked-out edges *)
Lemma batch_edges_zero L pt raw zero eq mask es : forall k fs, batch_edges L pt raw zero eq k mask es = Ok fs ->
  length fs = length es /\ forall j e, nth_error es j = Some e -> nth_error mask e = Some false -> nth_error fs j = Some zero.
Proof.
  induction es as [|e es IH]; intros k fs H; cbn [batch_edges] in H; [injection H as <-; split; [reflexivity|intros [|j] ? N; discriminate N]|].
  apply bind_ok in H. destruct H as [m [M H]]. destruct m; cbn [negb] in H.
  - apply bind_ok in H. destruct H as [dd [_ H]]. apply bind_ok in H. destruct H as [cur [_ H]]. apply bind_ok in H. destruct H as [f [_ H]]. apply bind_ok in H. destruct H as [rs [R H]]. injection H as <-.
    destruct (IH _ _ R) as [LE N]. split; [cbn [length]; lia|]. intros [|j] e' E F; cbn [nth_error] in *; [|apply (N j e' E F)]. injection E as <-. unfold fetch in M. rewrite F in M. discriminate M.
  - apply bind_ok in H. destruct H as [rs [R H]]. injection H as <-. destruct (IH _ _ R) as [LE N]. split; [cbn [length]; lia|].
    intros [|j] e' E F; cbn [nth_error] in *; [reflexivity|apply (N j e' E F)].
Qed.
Lemma edge_cost_only nw time ps e x c : (e < length ps)%nat -> nth_error (n_cap nw) e = Some c -> 0 < c -> (e < length (n_tau nw))%nat -> edge_cost nw time ps e = Err x -> x = AssertionError.
Proof.
  intros E C CP T H. unfold edge_cost in H. unfold fetch in H. rewrite C in H. destruct (nth_error ps e) as [p|] eqn:P; [|exfalso; apply nth_error_None in P; lia]. destruct (nth_error (n_tau nw) e) as [tau|] eqn:Q; [|exfalso; apply nth_error_None in Q; lia].
  cbn [bind] in H. assert (D : forall v, pydiv v c = Ok (v / c)) by (intro v; unfold pydiv; destruct (qeqbP c 0) as [->|]; [exfalso; qlra|reflexivity]).
  rewrite (mapM_map _ (fun v => tau + v / c)) in H by (intros v _; rewrite D; reflexivity). cbn [bind] in H. rewrite !D in H. cbn [bind] in H. apply (pl_init_err _ _ _ _ _ _ _ H).
Qed.
Lemma edge_cost_early nw time ps e p t : nth_error ps e = Some p -> In t (pl_times p) -> t < time -> exists x, edge_cost nw time ps e = Err x.
Proof.
  intros P I T. destruct (edge_cost nw time ps e) as [f|x] eqn:H; [|eauto]. exfalso. unfold edge_cost in H. unfold fetch at 1 in H. rewrite P in H. cbn [bind] in H.
  apply bind_ok in H. destruct H as [tau [_ H]]. apply bind_ok in H. destruct H as [c [_ H]]. apply bind_ok in H. destruct H as [vs [_ H]]. apply bind_ok in H. destruct H as [fs [_ H]]. apply bind_ok in H. destruct H as [ls [_ H]].
  apply pl_init_inv in H. destruct H as [-> V]. destruct (v_dom _ V t I) as [D _]. cbn [pl_lo] in D. change (time <= t) in D. qlra.
Qed.
(** predict's answer for an edge outside the output mask can be turned into a
    cost function at the prediction time; batch_predict's cannot, for any
    positive prediction time: costs_from_preds raises AssertionError. *)
Theorem C65_refuted : forall model L pts st batch i pt B e,
  (forall e c, nth_error (w_cap (l_nw L)) e = Some c -> 0 < c) -> length (w_cap (l_nw L)) = length (g_edges (w_graph (l_nw L))) -> length (w_tau (l_nw L)) = length (g_edges (w_graph (l_nw L))) ->
  full_batch_predict model L pts st = Ok batch -> nth_error pts i = Some pt -> nth_error batch i = Some B -> 0 < pt ->
  (e < length (g_edges (w_graph (l_nw L))))%nat -> nth_error (l_out L) e = Some false ->
  costs_from_preds (l_nw L) B pt = Err AssertionError.
Proof.
  intros model L pts st batch i pt B e CP LC LT H PI BI PP LE OUT. unfold full_batch_predict in H.
  apply bind_ok in H. destruct H as [loads [_ H]]. apply bind_ok in H. destruct H as [eq [_ H]]. apply bind_ok in H. destruct H as [el [_ H]]. rewrite one_init in H. cbn [bind] in H.
  apply bind_ok in H. destruct H as [u [AS H]]. apply bind_ok in H. destruct H as [ids [_ H]]. apply bind_ok in H. destruct H as [rows [RW H]].
  assert (LQ : length (f_q st) = length (g_edges (w_graph (l_nw L)))). { destruct (Nat.eqb_spec (length (g_edges (w_graph (l_nw L)))) (length (f_q st))) as [E|E]; [congruence|discriminate AS]. }
  destruct (mapM_spec _ _ _ RW) as [LR NR]. destruct (NR i pt PI) as [row [RI _]].
  destruct (mapM_spec _ _ _ H) as [_ NB]. assert (CI : nth_error (combine pts rows) i = Some (pt, row)).
  { clear -PI RI. revert rows i PI RI. induction pts as [|p pts IH]; intros [|r rows] [|i] PI RI; try discriminate; cbn [nth_error combine] in *; [congruence|]. apply IH; assumption. }
  destruct (NB i _ CI) as [B' [BI' HB]]. rewrite BI in BI'. injection BI' as <-. cbn [fst snd] in HB. destruct (batch_edges_zero _ _ _ _ _ _ _ _ _ HB) as [LB ZB]. rewrite seq_length in LB.
  assert (ZE : nth_error B e = Some (mkPL [0] [0] 0 0 NInf PInf)).
  { apply (ZB e e); [|exact OUT]. rewrite (nth_error_nth' _ 0%nat) by (rewrite seq_length; lia). rewrite seq_nth by lia. reflexivity. }
  unfold costs_from_preds. apply mapM_err.
  - exists e. split; [apply in_seq; lia|]. apply (edge_cost_early _ _ _ _ _ 0 ZE); [left; reflexivity|exact PP].
  - intros e' x I E. apply in_seq in I. destruct (nth_error (w_cap (l_nw L)) e') as [c|] eqn:C; [|exfalso; apply nth_error_None in C; lia].
    apply (edge_cost_only (mkNet (w_cap (l_nw L)) (w_tau (l_nw L))) pt B e' x c); cbn [n_cap n_tau]; [lia|exact C|apply (CP e' c C)|lia|exact E].
Qed.
Print Assumptions C65_refuted.
(** Non-vacuous: the flow above with an empty output mask, prediction times 0 and 1. *)
Definition check_65 : bool :=
  match flow_run true neg_net nb_calls with
  | Ok st => match full_batch_predict (fun _ => []) (nb_L [false]) [0; 1] st with
             | Ok [B0; B1] => (match costs_from_preds one_net B0 0 with Ok _ => true | Err _ => false end && match costs_from_preds one_net B1 1 with Err AssertionError => true | _ => false end)%bool
             | _ => false end
  | Err _ => false
  end.
Example C65_reachable : check_65 = true.
Proof. vm_compute. reflexivity. Qed.
