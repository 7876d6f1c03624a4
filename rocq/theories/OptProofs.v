(** * Switching assertions off changes no result of a run that finishes *)
From Verif Require Import Base Spec Arrays PL RC FRC PQ PQSpec DynFlow DynRun DynFlowProofs Graph Dijkstra FlowBuilder Predictors Eval Eval2 Optimised.

Lemma ref_assert {A} b (x y : res A) : refines x y -> refines (bind (assertb b) (fun _ => x)) y.
Proof. intros R a H. destruct b; [apply R; exact H|discriminate]. Qed.
Lemma ref_skip {A B} (x : res A) (k y : res B) : refines k y -> refines (bind x (fun _ => k)) y.
Proof. intros R a H. destruct x; [apply R; exact H|discriminate]. Qed.
Lemma ref_bind_eq {A B} (x : res A) (f g : A -> res B) : (forall a, x = Ok a -> refines (f a) (g a)) -> refines (bind x f) (bind x g).
Proof. intros H b E. destruct x as [a|]; [|discriminate]. apply (H a eq_refl). exact E. Qed.
Lemma ref_mapM {A B} (f g : A -> res B) l : (forall a, refines (f a) (g a)) -> refines (mapM f l) (mapM g l).
Proof. intro R. induction l as [|a r IH]; cbn [mapM]; [apply ref_refl|]. apply ref_bind; [apply R|intro]. apply ref_bind; [apply IH|intro; apply ref_refl]. Qed.
Lemma ref_foldM {A B} (f g : A -> B -> res A) l : (forall a b, refines (f a b) (g a b)) -> forall a, refines (foldM f l a) (foldM g l a).
Proof. intro R. induction l as [|b r IH]; intro a; cbn [foldM]; [apply ref_refl|]. apply ref_bind; [apply R|exact IH]. Qed.

(** ** piecewise_linear.py *)
Lemma o_pl_init_ok ts vs a b lo hi : refines (pl_init ts vs a b lo hi) (o_pl_init ts vs a b lo hi).
Proof. unfold pl_init, o_pl_init. do 3 apply ref_assert. apply ref_refl. Qed.
Lemma o_gradient_ok f i : refines (gradient f i) (o_gradient f i).
Proof. apply ref_assert. apply ref_refl. Qed.
Lemma o_ewr_ok f t r : refines (eval_with_rank f t r) (o_eval_with_rank f t r).
Proof.
  intros a H. unfold eval_with_rank, o_eval_with_rank in *. binv H. binv H. apply bind_ok in H as (t0 & Et0 & H). binv H. apply bind_ok in H as (tl & Etl & H). binv H. binv H.
  destruct (r =? -1)%Z.
  - apply bind_ok in H as (g & Eg & H). apply bind_ok in H as (v0 & Ev & H). rewrite (o_gradient_ok _ _ _ Eg), Ev, Et0. cbn [bind]. exact H.
  - destruct (r =? pl_len f - 1)%Z.
    + apply bind_ok in H as (g & Eg & H). apply bind_ok in H as (v0 & Ev & H). rewrite (o_gradient_ok _ _ _ Eg), Ev, Etl. cbn [bind]. exact H.
    + apply bind_ok in H as (v0 & Ev & H). apply bind_ok in H as (tt0 & Et & H). apply bind_ok in H as (g & Eg & H).
      rewrite Ev, Et, (o_gradient_ok _ _ _ Eg). cbn [bind]. exact H.
Qed.
Lemma o_eval_ok f t : refines (pl_eval f t) (o_pl_eval f t).
Proof. apply ref_assert. apply ref_bind; [apply ref_refl|intro; apply o_ewr_ok]. Qed.
Lemma o_efe_ok f t : refines (eval_from_end f t) (o_eval_from_end f t).
Proof. apply ref_assert. apply ref_bind; [apply ref_refl|intro; apply o_ewr_ok]. Qed.
Lemma o_ews_ok f t s : refines (extend_with_slope f t s) (o_extend_with_slope f t s).
Proof.
  intros a H. unfold extend_with_slope, o_extend_with_slope in *. apply bind_ok in H as (tl & E & H). binv H.
  destruct (qleb (qabs (pl_last f - s)) eps); [exact H|]. rewrite E. cbn [bind]. exact H.
Qed.
Lemma o_integrate_ok f a b : refines (integrate f a b) (o_integrate f a b).
Proof.
  do 2 apply ref_assert. apply ref_bind; [apply ref_refl|intro r]. destruct (r =? pl_len f - 1)%Z.
  - apply ref_bind; [apply o_eval_ok|intro]. apply ref_bind; [apply o_eval_ok|intro; apply ref_refl].
  - apply ref_bind; [apply ref_refl|intro]. apply ref_bind; [apply o_eval_ok|intro]. apply ref_bind; [apply ref_refl|intro].
    apply ref_bind; [apply ref_refl|intros [? ?]]. apply ref_bind; [apply o_eval_ok|intro; apply ref_refl].
Qed.
(** ** right_constant.py *)
Lemma o_rc_init_ok ts vs lo hi : refines (rc_init ts vs lo hi) (o_rc_init ts vs lo hi).
Proof. unfold rc_init, o_rc_init. do 2 apply ref_assert. apply ref_refl. Qed.
Lemma o_rc_eval_ok f t : refines (rc_eval f t) (o_rc_eval f t).
Proof. apply ref_assert. apply ref_bind; [apply ref_refl|intro r]. do 2 apply ref_assert. intros a H. apply bind_ok in H as (r0 & _ & H). revert a H. apply ref_assert. apply ref_refl. Qed.
Lemma o_rc_extend_ok f t v : refines (rc_extend f t v) (o_rc_extend f t v).
Proof.
  intros a H. unfold rc_extend, o_rc_extend in *. apply bind_ok in H as (tl & E & H). binv H. apply bind_ok in H as (vl & Ev & H). rewrite Ev. cbn [bind].
  destruct (qleb (qabs (vl - v)) eps); [exact H|]. rewrite E. cbn [bind]. exact H.
Qed.
Lemma o_rc_plus_ok f g : refines (rc_plus f g) (o_rc_plus f g).
Proof. apply ref_assert. apply ref_bind; [apply ref_refl|intro; apply o_rc_init_ok]. Qed.
Lemma o_rc_sum_ok fs lo hi : refines (rc_sum fs lo hi) (o_rc_sum fs lo hi).
Proof. destruct fs; [apply o_rc_init_ok|]. apply ref_bind; [apply ref_refl|intro]. apply ref_bind; [apply ref_refl|intro; apply o_rc_init_ok]. Qed.
Lemma o_rc_integral_ok f : refines (rc_integral f) (o_rc_integral f).
Proof. intros a H. unfold rc_integral, o_rc_integral in *. apply bind_ok in H as (? & _ & H). apply bind_ok in H as (? & _ & H). apply bind_ok in H as (? & _ & H). revert a H. apply ref_bind; [apply ref_refl|intro]. apply ref_bind; [apply ref_refl|intro; apply o_pl_init_ok]. Qed.
(** ** flow_rates_collection.py *)
Lemma o_new_item_ok t v : refines (new_item t v) (o_new_item t v).
Proof. apply ref_assert. apply ref_refl. Qed.
Lemma o_rates_at_ok fns t : refines (rates_at fns t) (o_rates_at fns t).
Proof. induction fns as [|[i f] r IH]; cbn [rates_at o_rates_at]; [apply ref_refl|]. apply ref_bind; [apply o_rc_eval_ok|intro]. apply ref_bind; [apply IH|intro; apply ref_refl]. Qed.
Lemma o_frc_init_ok fns : refines (frc_init fns) (o_frc_init fns).
Proof.
  apply ref_bind; [apply o_new_item_ok|intro]. apply ref_bind; [apply o_rc_sum_ok|intro]. apply ref_bind; [apply o_rc_integral_ok|intro].
  apply ref_bind; [|intro; apply ref_refl]. apply ref_mapM. intro. apply ref_bind; [apply o_rates_at_ok|intro; apply o_new_item_ok].
Qed.
Lemma o_fresh_ok t vs : forall fns, refines (ext_fresh fns t vs) (o_ext_fresh fns t vs).
Proof. induction vs as [|[i v] r IH]; intro fns; cbn [ext_fresh o_ext_fresh]; [apply ref_refl|]. apply ref_bind; [apply o_rc_extend_ok|intro; apply IH]. Qed.
Lemma o_values_ok t vs : forall fns, refines (ext_values fns t vs) (o_ext_values fns t vs).
Proof. induction vs as [|[i v] r IH]; intro fns; cbn [ext_values o_ext_values]; [apply ref_refl|]. apply ref_bind; [apply o_rc_extend_ok|intro; apply IH]. Qed.
Lemma o_zeros_ok t tv vs : forall fns, refines (ext_zeros fns t tv vs) (o_ext_zeros fns t tv vs).
Proof.
  induction tv as [|[i v] r IH]; intro fns; cbn [ext_zeros o_ext_zeros]; [apply ref_refl|]. destruct (dhas vs i); [apply IH|].
  apply ref_bind; [apply ref_refl|intro]. apply ref_bind; [apply o_rc_extend_ok|intro; apply IH].
Qed.
Lemma o_frc_extend_ok c t vs s : refines (frc_extend c t vs s) (o_frc_extend c t vs s).
Proof.
  apply ref_bind; [apply o_new_item_ok|intro]. apply ref_bind.
  - destruct (c_chain c); [apply o_fresh_ok|]. cbv zeta. apply ref_assert. apply ref_bind; [apply o_values_ok|intro; apply o_zeros_ok].
  - intro. apply ref_bind; [apply o_ews_ok|intro; apply ref_refl].
Qed.
(** ** dynamic_flow.py *)
Lemma o_flow_init_ok nw : refines (flow_init nw) (o_flow_init nw).
Proof. apply ref_bind; [apply o_frc_init_ok|intro; apply ref_refl]. Qed.
Lemma o_c_ok c t v s : refines (c_extend false c t v s) (o_frc_extend c t v s).
Proof. apply ref_skip. apply o_frc_extend_ok. Qed.
Lemma o_q_ok f t s : refines (q_extend false f t s) (o_extend_with_slope f t s).
Proof. apply ref_skip. apply o_ews_ok. Qed.
Lemma o_out_ok st e t v s : refines (out_extend false st e t v s) (o_out_extend st e t v s).
Proof. apply ref_bind; [apply ref_refl|intro]. apply ref_bind; [apply o_c_ok|intro; apply ref_refl]. Qed.
Lemma o_queue_ok st e t s : refines (queue_extend false st e t s) (o_queue_extend st e t s).
Proof. apply ref_bind; [apply ref_refl|intro]. apply ref_bind; [apply o_q_ok|intro; apply ref_refl]. Qed.
Lemma o_i_ok nw st e q : refines (case_i false nw st e q) (o_case_i nw st e q).
Proof.
  apply ref_bind; [apply ref_refl|intro]. apply ref_bind; [apply ref_refl|intro]. apply ref_bind; [apply ref_refl|intro]. apply ref_bind; [apply o_out_ok|intro].
  apply ref_bind; [apply o_queue_ok|intro]. destruct (qltb 0 q); [|apply ref_refl]. apply ref_skip. apply ref_refl.
Qed.
Lemma o_ii_ok nw st e nf q a : refines (case_ii false nw st e nf q a) (o_case_ii nw st e nf q a).
Proof.
  apply ref_bind; [apply ref_refl|intro]. apply ref_bind; [apply ref_refl|intro]. apply ref_skip. apply ref_bind; [apply ref_refl|intro].
  cbv zeta. apply ref_bind; [apply ref_refl|intro]. apply ref_bind; [apply o_out_ok|intro]. apply ref_bind; [apply o_queue_ok|intro; apply ref_refl].
Qed.
Lemma o_iii_ok nw st e nf q a : refines (case_iii false nw st e nf q a) (o_case_iii nw st e nf q a).
Proof.
  apply ref_bind; [apply ref_refl|intro]. apply ref_bind; [apply ref_refl|intro]. apply ref_bind; [apply ref_refl|intro]. apply ref_bind; [apply ref_refl|intro].
  apply ref_bind; [apply o_out_ok|intro]. cbv zeta. apply ref_bind; [apply o_queue_ok|intro]. apply ref_bind; [apply ref_refl|intro]. apply ref_skip. apply ref_refl.
Qed.
Lemma o_edge_ok nw st p : refines (extend_edge false nw st p) (o_extend_edge nw st p).
Proof.
  unfold extend_edge, o_extend_edge. apply ref_bind; [apply ref_refl|intro c]. apply ref_bind; [apply ref_refl|intros [c1 old]].
  destruct (rates_eqb old (snd p)); [apply ref_refl|]. apply ref_bind; [apply ref_refl|intro]. apply ref_bind; [apply o_efe_ok|intro].
  apply ref_bind; [apply o_c_ok|intro]. destruct (qeqb _ 0); [apply o_i_ok|]. apply ref_bind; [apply ref_refl|intro].
  destruct (_ || _)%bool; [apply o_ii_ok|apply o_iii_ok].
Qed.
Lemma o_deplete_ok st : refines (deplete_one false st) (o_deplete_one st).
Proof.
  unfold deplete_one, o_deplete_one. apply ref_bind; [apply ref_refl|intros [d [[e t] ch]]]. destruct t as [|t|]; try apply ref_refl.
  apply ref_bind; [apply o_queue_ok|intro]. apply ref_bind; [apply ref_refl|intro]. intros x H. apply bind_ok in H as (vl & _ & H). revert x H. apply ref_assert.
  destruct ch as [[[|ct|] [v s]]|]; try apply ref_refl. apply o_out_ok.
Qed.
Lemma o_process_ok fuel : forall st, refines (process_depletions fuel false st) (o_process_depletions fuel st).
Proof. induction fuel as [|m IH]; intro st; cbn [process_depletions o_process_depletions]; [apply ref_refl|]. destruct (_ && _)%bool; [|apply ref_refl]. apply ref_bind; [apply o_deplete_ok|exact IH]. Qed.
Lemma o_extend_ok nw st ni maxt : refines (flow_extend false nw st ni maxt) (o_flow_extend nw st ni maxt).
Proof.
  apply ref_bind; [apply ref_foldM; intros; apply o_edge_ok|intro]. destruct (ext_min _ _); try apply ref_refl. cbv zeta. apply ref_bind; [apply o_process_ok|intro; apply ref_refl].
Qed.
Lemma o_step_ok nw st c : refines (flow_step false nw st c) (o_flow_step nw st c).
Proof. destruct c; [apply o_extend_ok|apply ref_refl]. Qed.
Lemma o_from_ok nw cs : forall st, refines (flow_from false nw st cs) (o_flow_from nw st cs).
Proof. induction cs as [|c r IH]; intro st; cbn [flow_from o_flow_from]; [apply ref_refl|]. apply ref_bind; [apply o_step_ok|intros [st' ch]; apply IH]. Qed.
Lemma o_run_ok nw cs : refines (flow_run false nw cs) (o_flow_run nw cs).
Proof. apply ref_bind; [apply o_flow_init_ok|intro; apply o_from_ok]. Qed.
(** ** dijkstra.py *)
Lemma o_rd_ok g s cs ns : refines (reverse_dijkstra g s cs ns) (o_reverse_dijkstra g s cs ns).
Proof. apply ref_assert. apply ref_refl. Qed.
Lemma o_ae_ok g r s t : refines (get_active_edges_from_dijkstra g r s t) (o_get_active_edges_from_dijkstra g r s t).
Proof. intros a H. apply bind_ok in H as (x & E & H). binv H. rewrite <- H. exact E. Qed.
Definition costs_ref (a b : list costfn) : Prop := forall i t, refines (f <- fetch a i ;; f t) (f <- fetch b i ;; f t).
Lemma ref_dd_edge g rel a b arr v s e : costs_ref a b -> refines (dd_edge g rel a arr v s e) (dd_edge g rel b arr v s e).
Proof.
  intros R x H. destruct s as [realized queue]. unfold dd_edge in *. destruct (_ || _)%bool; [exact H|].
  apply bind_ok in H as (f & Ef & H). apply bind_ok in H as (tv & Et & H). apply bind_ok in H as (c & Ec & H).
  assert (Q : (f <- fetch b (e_id g e) ;; f tv) = Ok c) by (apply R; rewrite Ef; exact Ec).
  apply bind_ok in Q as (f' & Ef' & Ec'). rewrite Ef', Et. cbn [bind]. rewrite Ec'. cbn [bind]. exact H.
Qed.
Lemma ref_dd_loop g sink rel a b : costs_ref a b -> forall fuel arr re q, refines (dd_loop fuel g sink rel a arr re q) (dd_loop fuel g sink rel b arr re q).
Proof.
  intro R. induction fuel as [|k IH]; intros arr re q; cbn [dd_loop]; (destruct (0 <? sq_len q)%nat; [|apply ref_refl]); [apply ref_refl|].
  apply ref_bind; [apply ref_refl|intros [q' v]]. destruct (sq_min_key q); try apply ref_refl. destruct (Nat.eqb v sink); [apply ref_refl|].
  apply ref_bind; [apply ref_foldM; intros; apply ref_dd_edge, R|intros [? ?]; apply IH].
Qed.
Lemma costs_ref_eval l : costs_ref (map pl_eval l) (map o_pl_eval l).
Proof.
  intros i t a H. unfold fetch in *. rewrite nth_error_map in *. destruct (nth_error l i); cbn [option_map bind] in *; [apply o_eval_ok; exact H|discriminate].
Qed.
(** ** flow_builder.py *)
Lemma o_fb_init_ok S : refines (fb_init S) (o_fb_init S).
Proof.
  apply ref_bind; [apply o_flow_init_ok|intro]. apply ref_bind; [apply ref_refl|intro]. apply ref_bind.
  - apply ref_mapM. intro. apply ref_bind; [apply o_frc_init_ok|intro; apply ref_refl].
  - intro. apply ref_assert. apply ref_refl.
Qed.
Lemma o_edge_cost_ok nw t ps e : refines (edge_cost nw t ps e) (o_edge_cost nw t ps e).
Proof. do 6 (apply ref_bind; [apply ref_refl|intro]). apply o_pl_init_ok. Qed.
Section Builder.
(** The predictors with assertions on and off. *)
Variables (S S' : setup).
Hypothesis Enet : su_net S' = su_net S.
Hypothesis Eint : su_interval S' = su_interval S.
Hypothesis Eord : su_ord S' = su_ord S.
Hypothesis Hpred : forall ty p, dget (su_preds S) ty = Some p -> exists p', dget (su_preds S') ty = Some p' /\ p_const p' = p_const p /\
  forall t fl, refines (p_predict p t fl) (p_predict p' t fl).
Lemma s_graph_eq : s_graph S' = s_graph S. Proof. unfold s_graph. rewrite Enet. reflexivity. Qed.
Lemma s_coms_eq : s_coms S' = s_coms S. Proof. unfold s_coms. rewrite Enet. reflexivity. Qed.
Lemma s_nw_eq : s_nw S' = s_nw S. Proof. unfold s_nw. rewrite Enet. reflexivity. Qed.
Lemma imp_eq : important_all S' = important_all S. Proof. unfold important_all. rewrite s_graph_eq, s_coms_eq. reflexivity. Qed.
Lemma com_nodes_eq i : com_nodes S' i = com_nodes S i. Proof. unfold com_nodes. rewrite imp_eq. reflexivity. Qed.
Lemma o_get_costs_ok b ty : refines (get_costs S b ty) (o_get_costs S' b ty).
Proof.
  unfold get_costs, o_get_costs. destruct (dget (b_costs b) ty); [apply ref_refl|]. intros a H. apply bind_ok in H as (p & Ep & H).
  unfold dfetch in Ep. destruct (dget (su_preds S) ty) as [p0|] eqn:D; [|discriminate]. injection Ep as ->. destruct (Hpred ty p D) as (p' & D' & _ & R).
  unfold dfetch. rewrite D'. cbn [bind]. rewrite s_nw_eq, s_graph_eq. revert a H. apply ref_bind; [apply R|intro]. apply ref_bind; [apply ref_mapM; intro; apply o_edge_cost_ok|intro; apply ref_refl].
Qed.
Lemma o_const_ok c cs d a v : refines (const_node S c cs d a v) (o_const_node S' c cs d a v).
Proof.
  unfold const_node, o_const_node. rewrite s_graph_eq, s_coms_eq. destruct (Nat.eqb v (k_sink c)); [apply ref_refl|]. apply ref_bind; [apply ref_refl|intro]. apply ref_assert. apply ref_refl.
Qed.
Lemma o_active_ok b i s : refines (get_active_edges S b i s) (o_get_active_edges S' b i s).
Proof.
  unfold get_active_edges, o_get_active_edges. destruct (dget (nth i (b_active b) []) s); [apply ref_refl|]. rewrite s_graph_eq, s_coms_eq, com_nodes_eq.
  apply ref_bind; [apply ref_refl|intro c]. intros a H. apply bind_ok in H as (p & Ep & H).
  unfold dfetch in Ep. destruct (dget (su_preds S) (k_pred c)) as [p0|] eqn:D; [|discriminate]. injection Ep as ->. destruct (Hpred _ p D) as (p' & D' & K & R).
  unfold dfetch at 1. rewrite D'. cbn [bind]. revert a H. apply ref_bind; [apply o_get_costs_ok|intros [b1 costs]]. rewrite K. destruct (p_const p).
  - apply ref_bind; [apply ref_refl|intro]. apply ref_bind; [apply o_rd_ok|intro]. apply ref_bind; [apply ref_foldM; intros; apply o_const_ok|intro; apply ref_refl].
  - apply ref_bind; [apply ref_dd_loop, costs_ref_eval|intro]. apply ref_bind; [apply o_ae_ok|intro; apply ref_refl].
Qed.
Lemma o_assign_ok v os net st i : refines (assign S v os net st i) (o_assign S' v os net st i).
Proof.
  destruct st as [b ni]. unfold assign, o_assign. cbv zeta. destruct (qltb _ eps); [apply ref_refl|]. apply ref_bind; [apply o_active_ok|intros [b' l]].
  rewrite s_graph_eq. apply ref_refl.
Qed.
Lemma get_outflow_eq st e : get_outflow S' st e = get_outflow S st e.
Proof. unfold get_outflow. rewrite s_graph_eq. reflexivity. Qed.
Lemma o_split_ok st v : refines (split_node S st v) (o_split_node S' st v).
Proof.
  destruct st as [b ni]. unfold split_node, o_split_node. rewrite s_graph_eq, s_coms_eq, Eord. cbv zeta.
  apply ref_bind; [apply ref_foldM; intros; rewrite get_outflow_eq; apply ref_refl|intros [b1 os]]. apply ref_bind; [apply ref_refl|intro].
  apply ref_bind; [apply ref_refl|intros [c' net]]. apply ref_foldM. intros. apply o_assign_ok.
Qed.
Lemma o_determine_ok b : refines (determine_new_inflow S b) (o_determine_new_inflow S' b).
Proof. unfold determine_new_inflow, o_determine_new_inflow. rewrite Eord. apply ref_foldM. intros. apply o_split_ok. Qed.
Lemma reroute_eq b : reroute S' b = reroute S b.
Proof. unfold reroute. rewrite Eint, s_graph_eq, s_coms_eq. reflexivity. Qed.
Lemma o_fb_step_ok b : refines (fb_step false S b) (o_fb_step S' b).
Proof.
  unfold fb_step, o_fb_step. apply ref_bind; [apply ref_refl|intro]. rewrite reroute_eq. apply ref_bind; [apply ref_refl|intro].
  apply ref_bind; [apply o_determine_ok|intros [b3 ni]]. destruct (ext_min _ _); try apply ref_refl. rewrite s_nw_eq, s_graph_eq.
  apply ref_bind; [apply o_extend_ok|intros [fl ch]; apply ref_refl].
Qed.
Lemma o_fb_init_ok' : refines (fb_init S) (o_fb_init S').
Proof.
  replace (o_fb_init S') with (o_fb_init S); [apply o_fb_init_ok|]. unfold o_fb_init. rewrite s_nw_eq, s_graph_eq, s_coms_eq, imp_eq. reflexivity.
Qed.
Lemma o_fb_run_ok n : refines (fb_run false S n) (o_fb_run S' n).
Proof. induction n as [|m IH]; cbn [fb_run o_fb_run]; [apply o_fb_init_ok'|]. apply ref_bind; [apply IH|intro; apply o_fb_step_ok]. Qed.
Lemma o_att_ok o i es ss h : refines (avg_travel_time o i es ss h) (o_avg_travel_time o i es ss h).
Proof.
  unfold avg_travel_time, o_avg_travel_time, rc_sum_from_zero. apply ref_bind; [apply ref_refl|intro].
  apply ref_bind; [apply ref_foldM; intros; apply o_rc_plus_ok|intro]. apply ref_bind; [apply o_rc_integral_ok|intro].
  apply ref_bind; [apply ref_foldM; intros; apply o_rc_plus_ok|intro]. apply ref_bind; [apply o_rc_integral_ok|intro].
  apply ref_bind; [apply o_integrate_ok|intro]. apply ref_bind; [apply o_integrate_ok|intro]. apply ref_bind; [apply o_eval_ok|intro; apply ref_refl].
Qed.
Lemma o_log_ok b obs : refines (log_line S b obs) (o_log_line S' b obs).
Proof. unfold log_line, o_log_line. rewrite s_graph_eq, s_coms_eq. apply ref_mapM. intro. apply ref_bind; [apply ref_refl|intro]. cbv zeta. apply o_att_ok. Qed.
Lemma o_loop_ok fuel h obs log due : forall n b, refines (bwt_loop fuel S h obs log due n b) (o_bwt_loop fuel S' h obs log due n b).
Proof.
  induction fuel as [|k IH]; intros n b; cbn [bwt_loop o_bwt_loop]; (destruct (qltb _ h); [|apply ref_refl]); [apply ref_refl|].
  apply ref_bind; [apply o_fb_step_ok|intro]. apply ref_bind; [destruct (log && due n)%bool; [apply o_log_ok|apply ref_refl]|intro; apply IH].
Qed.
Lemma o_bwt_ok fuel h obs log due : refines (build_with_times fuel S h obs log due) (o_build_with_times fuel S' h obs log due).
Proof.
  apply ref_bind; [apply o_fb_init_ok'|intro]. apply ref_bind; [apply o_loop_ok|intros [n b']].
  apply ref_bind; [|intro; apply ref_refl]. destruct log; [|apply ref_refl]. destruct (n =? 0)%nat; [apply ref_refl|apply o_log_ok].
Qed.
End Builder.
(** ** The predictors *)
Lemma o_constant_ok t fl : refines (constant_predict t fl) (o_constant_predict t fl).
Proof. apply ref_mapM. intro. apply ref_bind; [apply o_eval_ok|intro; apply o_pl_init_ok]. Qed.
Lemma o_zero_ok t fl : refines (zero_predict t fl) (o_zero_predict t fl).
Proof. apply ref_bind; [apply o_pl_init_ok|intro; apply ref_refl]. Qed.
Lemma o_extrapolate_ok h t q g : refines (extrapolate h t q g) (o_extrapolate h t q g).
Proof. unfold extrapolate, o_extrapolate. cbv zeta. destruct (_ && _)%bool; [|apply o_pl_init_ok]. apply ref_bind; [apply ref_refl|intro; apply o_pl_init_ok]. Qed.
Lemma o_linear_ok h t fl : refines (linear_predict h t fl) (o_linear_predict h t fl).
Proof.
  apply ref_mapM. intro. apply ref_bind; [apply o_eval_ok|intro]. apply ref_bind; [apply ref_refl|intro]. apply ref_bind; [apply o_gradient_ok|intro; apply o_extrapolate_ok].
Qed.
Lemma o_reg_ok h d t fl : refines (reg_linear_predict h d t fl) (o_reg_linear_predict h d t fl).
Proof.
  apply ref_mapM. intro. apply ref_bind; [apply o_eval_ok|intro]. apply ref_bind; [apply o_eval_ok|intro]. apply ref_bind; [apply ref_refl|intro; apply o_extrapolate_ok].
Qed.
