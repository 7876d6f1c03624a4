(** * C121: with floating-point arithmetic, FlowBuilder raises nothing but AssertionErrors
    Model: RoundedBuilder.v, RoundedFlow.v, Rounded.v; vocabulary: RoundedBuilderSpec.v, TotalSpec.v [served], BuilderRun.v [setup_ok] *)
From Coq Require Import Sorted.
From Verif Require Import Base Spec Arrays ArraysProofs PL PLProofs RC RCProofs FRC FRCProofs PQ PQSpec DynFlow DynRun DynEvents Graph GraphSpec Dijkstra Predictors FlowBuilder BuilderRun BuilderFlow TotalSpec
  BuilderRoutes2 PropBuilder PropBuilder2 PropRoutes PropTotal Rounded RoundedProofs Rnd64 RoundedFlow OptTotal RoundedFlowProofs PropRoundedFlow RoundedBuilder RoundedBuilderSpec RoundedBuilderProofs RoundedBuilderRun.

(** ** Without rounding this is the builder of C39-C41 and the other theorems *)
Lemma id_many n : forall l m, r_merge_many_loop idq n l m = merge_many_loop n l m.
Proof. induction n as [|n IH]; intros l m; cbn [r_merge_many_loop merge_many_loop]; [reflexivity|]. destruct (pick_min l) as [[v l']|]; [apply IH|reflexivity]. Qed.
Lemma id_merge2 a1 : forall a2 m, r_merge_loop idq a1 a2 m = merge_loop a1 a2 m.
Proof.
  induction a1 as [|x r1 IH1].
  - intros a2 m. destruct a2; reflexivity.
  - induction a2 as [|y r2 IH2]; intro m; [reflexivity|]. cbn [r_merge_loop merge_loop]. destruct (qltb x y); [apply IH1|]. apply IH2.
Qed.
Lemma id_rc_eval f t : r_rc_eval true f t = rc_eval f t.
Proof.
  unfold r_rc_eval, rc_eval, asr. apply bind_ext. intros _. apply bind_ext. intro k. unfold r_rc_eval_with_lrank, rc_eval_with_lrank, asr.
  apply bind_ext. intros _. apply bind_ext. intros _. destruct (elem_lrank (rc_times f) t); reflexivity.
Qed.
Lemma id_sum_at fs : forall a ps, r_sum_at idq a fs ps = sum_at a fs ps.
Proof. induction fs as [|f fs IH]; intros a [|p ps]; cbn [r_sum_at sum_at]; try reflexivity. Qed.
Lemma id_sum_loop fs ts : forall ps, r_sum_loop idq fs ps ts = sum_loop fs ps ts.
Proof. induction ts as [|t ts IH]; intro ps; cbn [r_sum_loop sum_loop]; [reflexivity|]. apply bind_ext. intro. apply bind_eq; [apply id_sum_at|]. intro. apply bind_eq; [apply IH|reflexivity]. Qed.
Lemma id_gaps l : r_gaps_ok idq l = gaps_ok l.
Proof. induction l as [|a [|b l] IH]; [reflexivity|reflexivity|]. change (r_gaps_ok idq (a :: b :: l)) with (qltb a (b - eps) && r_gaps_ok idq (b :: l))%bool. rewrite IH. reflexivity. Qed.
Lemma id_pl_init ts vs a b lo hi : r_pl_init idq true ts vs a b lo hi = pl_init ts vs a b lo hi.
Proof. unfold r_pl_init, pl_init, asr. rewrite id_gaps. reflexivity. Qed.
Lemma id_integral_vals ts : forall a vs, r_integral_vals idq a ts vs = integral_vals a ts vs.
Proof.
  induction ts as [|t [|t' l] IH]; intros a vs; [reflexivity|destruct vs; reflexivity|]. destruct vs as [|v vs]; [reflexivity|].
  reflexivity.
Qed.
Lemma id_integral f : r_rc_integral idq true f = rc_integral f.
Proof. unfold r_rc_integral, rc_integral, asr. apply bind_ext. intro. apply bind_ext. intro. apply bind_ext. intro. apply bind_ext. intro. apply bind_ext. intro. rewrite id_pl_init, id_integral_vals. reflexivity. Qed.
Lemma id_rc_sum fs lo hi : r_rc_sum idq true fs lo hi = rc_sum fs lo hi.
Proof.
  unfold r_rc_sum, rc_sum. destruct fs as [|f fs]; [reflexivity|]. unfold r_merge_sorted_many, merge_sorted_many. apply bind_eq; [apply id_many|]. intro ts. apply bind_eq; [apply id_sum_loop|reflexivity].
Qed.
Lemma id_rates fns t : r_rates_at true fns t = rates_at fns t.
Proof. induction fns as [|[i f] r IH]; cbn [r_rates_at rates_at]; [reflexivity|]. apply bind_eq; [apply id_rc_eval|]. intro. apply bind_eq; [exact IH|reflexivity]. Qed.
Lemma mapM_eq {A B} (f h : A -> res B) l : (forall a, f a = h a) -> mapM f l = mapM h l.
Proof. intro H. induction l as [|a l IH]; cbn [mapM]; [reflexivity|]. apply bind_eq; [apply H|]. intro. apply bind_eq; [exact IH|reflexivity]. Qed.
Lemma id_frc_init fns : r_frc_init idq true fns = frc_init fns.
Proof.
  unfold r_frc_init, frc_init. apply bind_eq; [reflexivity|]. intro h. apply bind_eq; [apply id_rc_sum|]. intro tot. apply bind_eq; [apply id_integral|]. intro acc. cbv zeta. apply bind_eq; [|reflexivity].
  assert (E : forall l a, fold_left (fun ts p => r_merge_sorted idq ts (rc_times (snd p))) l a = fold_left (fun ts (p : nat * RC) => merge_sorted ts (rc_times (snd p))) l a).
  { induction l as [|p l IH]; intro a; cbn [fold_left]; [reflexivity|]. unfold r_merge_sorted at 2. rewrite id_merge2. apply IH. }
  rewrite E. apply mapM_eq. intro t. apply bind_eq; [apply id_rates|reflexivity].
Qed.
Lemma id_costs S b ty : r_get_costs idq true S b ty = get_costs S b ty.
Proof.
  unfold r_get_costs, get_costs. destruct (dget (b_costs b) ty); [reflexivity|]. apply bind_ext. intro p. apply bind_ext. intro preds. apply bind_eq; [|reflexivity].
  induction (seq 0 (length (g_edges (s_graph S)))) as [|e l IH]; cbn [mapM]; [reflexivity|]. apply bind_eq; [|intro; apply bind_eq; [exact IH|reflexivity]].
  unfold r_edge_cost, edge_cost. apply bind_ext. intro p0. apply bind_ext. intro tau. apply bind_ext. intro cap. apply bind_eq; [|intro; apply bind_eq; [apply id_fdiv|intro; apply bind_eq; [apply id_fdiv|reflexivity]]].
  induction (pl_values p0) as [|v vs IHv]; cbn [mapM]; [reflexivity|]. apply bind_eq; [|intro; apply bind_eq; [exact IHv|reflexivity]]. rewrite id_fdiv. reflexivity.
Qed.
Lemma dd_fold_ext rnd g rel A v (c1 c2 : list costfn) : (forall k, match nth_error c1 k, nth_error c2 k with Some f, Some h => forall t, f t = h t | None, None => True | _, _ => False end) ->
  forall s e, r_dd_edge rnd g rel c1 A v s e = r_dd_edge rnd g rel c2 A v s e.
Proof.
  intros H [R Q] e. unfold r_dd_edge. destruct (_ || _)%bool; [reflexivity|]. unfold fetch. specialize (H (e_id g e)). destruct (nth_error c1 (e_id g e)), (nth_error c2 (e_id g e)); try tauto. cbn [bind].
  apply bind_ext. intro tv. rewrite H. reflexivity.
Qed.
Lemma dd_ext rnd g phi s sink rel (c1 c2 : list costfn) : (forall k, match nth_error c1 k, nth_error c2 k with Some f, Some h => forall t, f t = h t | None, None => True | _, _ => False end) ->
  r_dynamic_dijkstra rnd g phi s sink rel c1 = r_dynamic_dijkstra rnd g phi s sink rel c2.
Proof.
  intro H. unfold r_dynamic_dijkstra. generalize (Datatypes.S (length (g_nodes g))). intro fuel. generalize (sq_set sq_empty s (Fin phi)). generalize (@nil (nat * Qc)) at 1 3. intro A0. generalize (@nil (nat * Qc)). revert A0.
  induction fuel as [|n IH]; intros A R Q; cbn [r_dd_loop]; destruct (0 <? sq_len Q)%nat; try reflexivity. apply bind_ext. intros [q v]. destruct (sq_min_key Q); try reflexivity. destruct (Nat.eqb v sink); [reflexivity|].
  apply bind_eq; [apply foldM_eq; intros; apply dd_fold_ext, H|]. intros [R' Q']. apply IH.
Qed.
Lemma id_active S b i s : r_get_active_edges idq true S b i s = get_active_edges S b i s.
Proof.
  unfold r_get_active_edges, get_active_edges. destruct (dget (nth i (b_active b) []) s); [reflexivity|]. apply bind_ext. intro c. apply bind_ext. intro p. apply bind_eq; [apply id_costs|]. intros [b1 costs].
  destruct (p_const p); [reflexivity|]. apply bind_eq; [|reflexivity].
  change (dynamic_dijkstra (s_graph S) (b_route b) s (k_sink c) (com_nodes S i) (map pl_eval costs)) with (r_dynamic_dijkstra idq (s_graph S) (b_route b) s (k_sink c) (com_nodes S i) (map pl_eval costs)).
  apply dd_ext. intro k. rewrite !nth_error_map. destruct (nth_error costs k); [|exact I]. intro t. apply id_eval.
Qed.
Lemma id_assign S v outs net st i : r_assign idq true S v outs net st i = assign S v outs net st i.
Proof.
  destruct st as [b ni]. unfold r_assign, assign. change (r_node_inflow idq i outs net) with (node_inflow i outs net). change (r_eps idq) with eps. destruct (qltb _ _); [reflexivity|].
  apply bind_eq; [apply id_active|]. intros [b' l]. apply bind_eq; [apply id_fdiv|reflexivity].
Qed.
Lemma id_split S st v : r_split_node idq true S st v = split_node S st v.
Proof. destruct st as [b ni]. unfold r_split_node, split_node. cbv zeta. apply bind_ext. intros [b1 outs]. apply bind_ext. intro c. apply bind_ext. intros [c' net]. apply foldM_eq. intros. apply id_assign. Qed.
Theorem C121_exact_instance : forall S n, r_fb_run (fun x => x) true S n = fb_run false S n.
Proof.
  intros S n. induction n as [|n IH]; cbn [r_fb_run fb_run].
  { unfold r_fb_init, fb_init. apply bind_eq; [reflexivity|]. intro f. apply bind_ext. intro imp. apply bind_eq; [|reflexivity]. apply mapM_eq. intro v. apply bind_eq; [apply id_frc_init|reflexivity]. }
  apply bind_eq; [exact IH|]. intro b. unfold r_fb_step, fb_step. apply bind_ext. intro b1. apply bind_ext. intro b2.
  apply bind_eq; [apply foldM_eq; intros; apply id_split|]. intros [b3 ni]. destruct (ext_min _ _); try reflexivity. apply bind_eq; [apply id_extend|]. intros [flow changed]. reflexivity.
Qed.
Print Assumptions C121_exact_instance.

(** ** The builder never raises anything but AssertionErrors *)
Section T.
Variables (rnd : Qc -> Qc) (S : setup) (r : Qc).
Hypotheses (RND : rounding rnd) (SUB : sub_exact0 rnd) (OK : setup_ok S r) (SV : served S) (FS : float_setup rnd S).
Let bokay on n b := run_bok rnd on S r RND SUB OK SV FS n b.
Lemma float_asks on n b : r_answers rnd on S n -> r_fb_run rnd on S n = Ok b -> float rnd (asks_at b).
Proof. intros A E. pose proof (bokay on n b A E) as B. unfold asks_at. destruct (qleb _ _); [apply (bk_next _ _ _ _ B)|apply (bk_route _ _ _ _ B)]. Qed.
Lemma single_eval T w t : float rnd w -> r_pl_eval rnd false (mkPL [T] [w] 0 0 (Fin T) PInf) t = Ok w.
Proof.
  intro F. unfold r_pl_eval, asr. cbn [bind pl_times]. destruct (elem_rank_ok [T] t) as (i & E & IR); [discriminate|repeat constructor|]. rewrite E. cbn [bind]. apply is_rank_iff in IR. destruct IR as (R1 & _).
  assert (Z : forall x, rnd (w + rnd (rnd x * 0)) = w) by (intro x; replace (rnd x * 0) with 0 by ring; rewrite (rnd_0 rnd RND); replace (w + 0) with w by ring; exact F).
  assert (i = -1 \/ i = 0)%Z as [-> | ->] by (unfold zlen in R1; cbn [length] in R1; lia); unfold r_eval_with_rank, r_gradient, asr, pl_len, zlen; cbn; apply f_equal, Z.
Qed.
Lemma single_usable T e q : (e < length (n_cap (s_nw S)))%nat -> float rnd T -> 0 <= rnd (tau_of (s_nw S) e + rnd (q / cap_of (s_nw S) e)) -> r_usable_pl rnd (s_nw S) T e (mkPL [T] [q] 0 0 NInf PInf).
Proof.
  intros L FT W. destruct (edge_params S r OK e L) as (_ & _ & CP).
  assert (Z : rnd (0 / cap_of (s_nw S) e) = 0) by (replace (0 / cap_of (s_nw S) e) with 0; [apply (rnd_0 rnd RND)|field; intro Q; rewrite Q in CP; qlra]).
  unfold r_usable_pl, r_cost. cbn [pl_times pl_values pl_first pl_last map length]. rewrite Z. split; [discriminate|]. split; [reflexivity|]. split; [repeat constructor|]. split; [repeat constructor; exact FT|]. split.
  - intros v H. injection H as <-. exact W.
  - intros t y _ H. rewrite single_eval in H by apply (rnd_idem rnd RND). apply ok_inj in H. subst y. exact W.
Qed.
Lemma tau_nonneg e : (e < length (n_cap (s_nw S)))%nat -> 0 <= tau_of (s_nw S) e.
Proof. intro L. pose proof (so_net S r OK) as (L1 & _ & L3). apply L3. unfold tau_of. apply nth_In. rewrite L1. exact L. Qed.
Lemma zero_cost e : (e < length (n_cap (s_nw S)))%nat -> 0 <= rnd (tau_of (s_nw S) e + rnd (0 / cap_of (s_nw S) e)).
Proof.
  intro L. destruct (edge_params S r OK e L) as (_ & _ & CP). replace (0 / cap_of (s_nw S) e) with 0 by (field; intro Q; rewrite Q in CP; qlra). rewrite (rnd_0 rnd RND) at 1.
  pose proof (tau_nonneg e L) as H. assert (M : 0 <= tau_of (s_nw S) e + 0) by qlra. apply (rnd_mono rnd RND) in M. rewrite (rnd_0 rnd RND) in M. exact M.
Qed.
End T.

(** With assertions off nothing raises in any number of rounds, as long as the predictors return usable predictions. *)
Theorem C121_off : forall rnd S r n, rounding rnd -> sub_exact0 rnd -> setup_ok S r -> served S -> float_setup rnd S -> r_answers rnd false S n ->
  exists b, r_fb_run rnd false S n = Ok b.
Proof. intros rnd S r n RND SUB OK SV FS A. destruct (run_safe rnd false S r RND SUB OK SV FS n A) as [(b & E & _)|[Q _]]; [eauto|discriminate]. Qed.
Print Assumptions C121_off.
(** With assertions on, the only possible exception is an AssertionError: no
    IndexError, KeyError, ValueError, ZeroDivisionError, and no endless loop in a round. *)
Theorem C121_on : forall rnd S r n, rounding rnd -> sub_exact0 rnd -> setup_ok S r -> served S -> float_setup rnd S -> r_answers rnd true S n ->
  (exists b, r_fb_run rnd true S n = Ok b) \/ r_fb_run rnd true S n = Err AssertionError.
Proof. intros rnd S r n RND SUB OK SV FS A. destruct (run_safe rnd true S r RND SUB OK SV FS n A) as [(b & E & _)|[_ Q]]; eauto. Qed.
Print Assumptions C121_on.
(** The clock starts at 0, is always a float, never runs backwards nor past the next
    rerouting, and the rerouting times are 0, rnd(0 + r), rnd(rnd(0 + r) + r), ... *)
Theorem C121_time : forall rnd on S r n b, rounding rnd -> sub_exact0 rnd -> setup_ok S r -> served S -> float_setup rnd S -> r_answers rnd on S n -> r_fb_run rnd on S n = Ok b ->
  float rnd (f_phi (b_flow b)) /\ 0 <= f_phi (b_flow b) /\ f_phi (b_flow b) <= b_next b /\
  (exists k, b_next b = Nat.iter k (fun t => rnd (t + r)) 0) /\
  forall b', r_answers rnd on S (Datatypes.S n) -> r_fb_run rnd on S (Datatypes.S n) = Ok b' -> f_phi (b_flow b) <= f_phi (b_flow b').
Proof.
  intros rnd on S r n b RND SUB OK SV FS A E. pose proof (run_bok rnd on S r RND SUB OK SV FS n b A E) as B.
  split; [apply (RoundedFlowProofs.iv_phi _ _ _ (bk_inv _ _ _ _ B))|]. split; [|split; [apply (bk_next _ _ _ _ B)|split]].
  - clear B. revert b A E. induction n as [|n IH]; intros b A E; [destruct (run_init rnd on S r RND OK SV FS b E) as (_ & -> & _); qlra|].
    assert (A' : r_answers rnd on S n) by (intros k x c st K; apply A; lia). pose proof E as E'. cbn [r_fb_run] in E'. apply bind_ok in E'. destruct E' as (b0 & E0 & _).
    pose proof (IH b0 A' E0). destruct (run_step rnd on S r RND SUB OK SV FS n b0 b A E0 E) as [L _]. qlra.
  - clear B. revert b A E. induction n as [|n IH]; intros b A E; [destruct (run_init rnd on S r RND OK SV FS b E) as (_ & _ & ->); exists 0%nat; reflexivity|].
    assert (A' : r_answers rnd on S n) by (intros k x c st K; apply A; lia). pose proof E as E'. cbn [r_fb_run] in E'. apply bind_ok in E'. destruct E' as (b0 & E0 & _).
    destruct (IH b0 A' E0) as [k K]. destruct (run_step rnd on S r RND SUB OK SV FS n b0 b A E0 E) as [_ Q]. rewrite Q. unfold next_after. destruct (qleb _ _); [|exists k; exact K].
    exists (Datatypes.S k). rewrite K. reflexivity.
  - intros b' A' E'. apply (run_step rnd on S r RND SUB OK SV FS n b b' A' E E').
Qed.
Print Assumptions C121_time.
(** Whatever is rounded, flow of commodity [i] only leaves edges whose head is
    reached from a source of [i] and leads to its sink. *)
Theorem C121_routes : forall rnd on S r n b k col it i x, rounding rnd -> sub_exact0 rnd -> setup_ok S r -> served S -> float_setup rnd S -> r_answers rnd on S n -> r_fb_run rnd on S n = Ok b ->
  nth_error (f_out (b_flow b)) k = Some col -> In it (c_chain col) -> In (i, x) (it_vals it) ->
  exists e c s f, In e (g_edges (s_graph S)) /\ e_id (s_graph S) e = k /\ nth_error (s_coms S) i = Some c /\ In (s, f) (k_sources c) /\
    path (arcs (s_graph S)) s (e_to (s_graph S) e) /\ path (arcs (s_graph S)) (e_to (s_graph S) e) (k_sink c).
Proof.
  intros rnd on S r n b k col it i x RND SUB OK SV FS A E EC II IX. pose proof (run_bok rnd on S r RND SUB OK SV FS n b A E) as B.
  pose proof (sp_out _ _ _ (bk_supp _ _ _ _ B) k col it EC II) as K. specialize (K i). destruct K as (e & c & H1 & H2 & H3 & (c' & s & f & H4 & H5 & H6) & H7); [apply in_map_iff; exists (i, x); auto|].
  assert (c' = c) by congruence. subst c'. exists e, c, s, f. apply dget_In in H5. auto 8.
Qed.
Print Assumptions C121_routes.

(** ** The predictors that come with the library *)
Section P.
Variables (rnd : Qc -> Qc) (on : bool) (S : setup) (r : Qc).
Hypotheses (RND : rounding rnd) (SUB : sub_exact0 rnd) (OK : setup_ok S r) (SV : served S) (FS : float_setup rnd S).
Lemma answers_ind : (forall n b c st, r_answers rnd on S n -> r_fb_run rnd on S n = Ok b -> In c (s_coms S) -> f_phi st = f_phi (b_flow b) -> f_in st = f_in (b_flow b) -> f_q st = f_q (b_flow b) ->
    float rnd (asks_at b) -> length (f_q st) = length (n_cap (s_nw S)) ->
    exists p, dget (su_preds S) (k_pred c) = Some p /\ safe on (p_predict p (asks_at b) st) (r_usable rnd S (asks_at b))) -> forall n, r_answers rnd on S n.
Proof.
  intros H n. induction n as [|n IH]; intros m b c st L; [lia|]. intros E IC H1 H2 H3. assert (A : r_answers rnd on S m) by (intros k x c0 st0 K; apply IH; lia).
  apply (H m b c st A E IC H1 H2 H3); [eapply float_asks; eassumption|]. rewrite H3. pose proof (run_bok rnd on S r RND SUB OK SV FS m b A E) as B. apply (proj1 (RoundedFlowProofs.iv_q _ _ _ (bk_inv _ _ _ _ B))).
Qed.
Lemma single_init T q : safe on (r_pl_init rnd on [T] [q] 0 0 NInf PInf) (fun f => f = mkPL [T] [q] 0 0 NInf PInf).
Proof. apply pl_init_safe. Qed.
End P.
(** The zero predictor answers in every round. *)
Theorem C121_zero : forall rnd on S r, rounding rnd -> sub_exact0 rnd -> setup_ok S r -> served S -> float_setup rnd S ->
  (forall c, In c (s_coms S) -> exists p, dget (su_preds S) (k_pred c) = Some p /\ p_predict p = r_zero_predict rnd on) -> forall n, r_answers rnd on S n.
Proof.
  intros rnd on S r RND SUB OK SV FS ZP. apply (answers_ind rnd on S r RND SUB OK SV FS). intros n b c st A E IC _ _ _ FT LQ. destruct (ZP c IC) as (p & D & PP). exists p. split; [exact D|]. rewrite PP. unfold r_zero_predict.
  destruct (single_init rnd on (asks_at b) 0) as [(f & EF & ->)|[O EF]]; rewrite EF; cbn [bind]; [|right; auto]. left. eexists. split; [reflexivity|]. split; [rewrite map_length, LQ; apply (so_caps S r OK)|].
  intros e q Q. rewrite nth_error_map in Q. destruct (nth_error (f_q st) e) as [y|] eqn:Y; [|discriminate]. injection Q as <-. assert (L : (e < length (n_cap (s_nw S)))%nat) by (rewrite <- LQ; apply nth_error_Some; congruence).
  eapply single_usable; try eassumption. eapply zero_cost; eassumption.
Qed.
Print Assumptions C121_zero.
(** So does the constant predictor, as long as no travel time computed from the
    current queues is negative (rounding may make a queue evaluate to less than 0). *)
Theorem C121_constant : forall rnd on S r, rounding rnd -> sub_exact0 rnd -> setup_ok S r -> served S -> float_setup rnd S ->
  (forall c, In c (s_coms S) -> exists p, dget (su_preds S) (k_pred c) = Some p /\ p_predict p = r_constant_predict rnd on) ->
  (forall n b e q, r_fb_run rnd on S n = Ok b -> r_pl_eval rnd on (queue_of (b_flow b) e) (asks_at b) = Ok q -> 0 <= rnd (tau_of (s_nw S) e + rnd (q / cap_of (s_nw S) e))) ->
  forall n, r_answers rnd on S n.
Proof.
  intros rnd on S r RND SUB OK SV FS ZP NQ. apply (answers_ind rnd on S r RND SUB OK SV FS). intros n b c st A E IC _ _ FQ FT LQ. destruct (ZP c IC) as (p & D & PP). exists p. split; [exact D|]. rewrite PP. unfold r_constant_predict.
  pose proof (run_bok rnd on S r RND SUB OK SV FS n b A E) as B. pose proof (proj2 (RoundedFlowProofs.iv_q _ _ _ (bk_inv _ _ _ _ B))) as QF. rewrite <- FQ in QF.
  assert (EV : forall q, In q (f_q st) -> safe on (curr <- r_pl_eval rnd on q (asks_at b) ;; r_pl_init rnd on [asks_at b] [curr] 0 0 NInf PInf)
     (fun f => exists v, r_pl_eval rnd on q (asks_at b) = Ok v /\ f = mkPL [asks_at b] [v] 0 0 NInf PInf)).
  { intros q Iq. rewrite Forall_forall in QF. destruct (rtot_eval rnd SUB q (asks_at b) (QF q Iq)) as (v & E1 & E2).
    assert (R : (exists w, r_pl_eval rnd on q (asks_at b) = Ok w) \/ (on = true /\ r_pl_eval rnd on q (asks_at b) = Err AssertionError)) by (destruct on; [destruct E2 as [_ [E2|E2]]; [left; exists v|right]; auto; congruence|left; eauto]).
    destruct R as [[w R]|[O R]]; rewrite R; cbn [bind]; [|right; auto]. eapply safe_weaken; [apply single_init|]. intros f ->. eauto. }
  eapply safe_weaken; [apply (safe_mapM on _ (fun q f => exists v, r_pl_eval rnd on q (asks_at b) = Ok v /\ f = mkPL [asks_at b] [v] 0 0 NInf PInf) (f_q st) EV)|].
  intros l F2. assert (LL : length l = length (f_q st)) by (clear - F2; induction F2; cbn [length]; congruence). split; [rewrite LL, LQ; apply (so_caps S r OK)|].
  intros e f NE. assert (L : (e < length (f_q st))%nat) by (rewrite <- LL; apply nth_error_Some; congruence).
  assert (G : exists v, r_pl_eval rnd on (nth e (f_q st) pl_zero) (asks_at b) = Ok v /\ f = mkPL [asks_at b] [v] 0 0 NInf PInf).
  { clear - F2 NE. revert e NE. induction F2 as [|q y l l' H _ IH]; intros [|e] NE; cbn in NE; try discriminate; [injection NE as <-; exact H|apply (IH e NE)]. }
  destruct G as (v & EV' & ->). rewrite LQ in L. eapply single_usable; try eassumption. apply (NQ n b e v E).
  unfold queue_of. rewrite <- FQ. exact EV'.
Qed.
Print Assumptions C121_constant.
(** ** The clock can stall *)
(** As soon as adding the reroute interval to a time [B] is lost in rounding, no
    number of rounds takes the flow past [B]: [build_flow] never reaches a later horizon. *)
Theorem C121_horizon : forall rnd on S r B n b, rounding rnd -> sub_exact0 rnd -> setup_ok S r -> served S -> float_setup rnd S -> r_answers rnd on S n -> r_fb_run rnd on S n = Ok b ->
  0 <= B -> rnd (B + r) <= B -> f_phi (b_flow b) <= B.
Proof.
  intros rnd on S r B n b RND SUB OK SV FS A E B0 BR. destruct (C121_time rnd on S r n b RND SUB OK SV FS A E) as (_ & _ & L & (k & K) & _). apply Qcle_trans with (1 := L). rewrite K. clear - B0 BR RND.
  induction k as [|k IH]; cbn [Nat.iter nat_rect]; [exact B0|]. apply Qcle_trans with (2 := BR). apply (rnd_mono rnd RND). clear - IH. apply Qcplus_le_compat; [exact IH|apply Qcle_refl].
Qed.
Print Assumptions C121_horizon.
(** binary64, reroute interval 1: the flow is never built past 2^53. *)
Theorem C121_horizon64 : forall on S n b, setup_ok S 1 -> served S -> float_setup rnd64 S -> r_answers rnd64 on S n -> r_fb_run rnd64 on S n = Ok b -> f_phi (b_flow b) <= pow2 53.
Proof.
  intros on S n b OK SV FS A E. destruct C118_binary64 as [R SB]. apply (C121_horizon rnd64 on S 1 (pow2 53) n b R SB OK SV FS A E); apply qleb_true; vm_compute; reflexivity.
Qed.
Print Assumptions C121_horizon64.

(** ** Non-vacuity: the network of C39 with the constant, resp. zero predictor in binary64 *)
Definition rx (p : Qc -> Flow -> res (list PL)) (c : bool) : setup := mkSetup bx_net [(0%nat, mkPred p c)] (Some (Q2Qc (1 # 2))) (fun l => l).
Lemma rx_ok p c : setup_ok (rx p c) (Q2Qc (1 # 2)) /\ served (rx p c) /\ float_setup rnd64 (rx p c).
Proof.
  split; [apply (same_net_ok (rx p c)); reflexivity|]. split; [exact (proj1 by_served)|].
  assert (F : forall m, (Z.abs m <= 2 ^ 53)%Z -> float rnd64 (qz m)).
  { intros m H. pose proof (rnd64_fits m 0 ltac:(lia) H) as E. rewrite pow2_0 in E. replace (qz m * 1) with (qz m) in E by ring. exact E. }
  assert (F1 : float rnd64 1). { assert (Q : 1 = qz 1) by (apply Qc_is_canon; reflexivity). rewrite Q. apply F. cbn; lia. }
  assert (F0 : float rnd64 0) by apply rnd64_0.
  split; [cbn; repeat constructor; exact F1|]. intros k v f H I. cbn in H. destruct H as [<-|[<-|[]]]; cbn in I; destruct I as [E|[]]; injection E as <- <-; (split; [split; [discriminate|reflexivity]|cbn [rc_times]; repeat constructor; try assumption; apply F; cbn; lia]).
Qed.
Example C121_zero_ex : forall n, r_answers rnd64 true (rx (r_zero_predict rnd64 true) false) n.
Proof.
  destruct C118_binary64 as [R SB]. destruct (rx_ok (r_zero_predict rnd64 true) false) as (OK & SV & FS). apply (C121_zero rnd64 true _ _ R SB OK SV FS).
  intros c [<-|[<-|[]]]; eexists; split; reflexivity.
Qed.
Definition r_show (on : bool) (S : setup) (n : nat) : option Q := match r_fb_run rnd64 on S n with Ok b => Some (this (f_phi (b_flow b))) | Err _ => None end.
Example C121_run_ex : r_show true (rx (r_zero_predict rnd64 true) false) 12 = Some 6%Q /\ r_show true (rx (r_constant_predict rnd64 true) true) 12 = Some 6%Q /\ r_show false (rx (r_constant_predict rnd64 false) false) 12 = Some 6%Q.
Proof. vm_compute. auto. Qed.
