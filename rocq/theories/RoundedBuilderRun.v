(** * FlowBuilder with rounding: the loop (for C121) *)
From Coq Require Import Permutation Sorted.
From Verif Require Import Base Spec Arrays ArraysProofs PL PLProofs RC RCProofs FRC FRCProofs PQ PQProofs PQSpec DynFlow DQProofs DynRun DynEvents
  Graph GraphSpec GraphProofs Dijkstra DijkstraSpec Predictors PredictorsProofs PredictorsProofs2 FlowBuilder FlowBuilderProofs DijkstraProofs2 BuilderRun BuilderFlow BuilderRoutes2 TotalSpec BuilderTotal
  Rounded RoundedSpec RoundedProofs PropRounded RoundedFlow OptTotal RoundedFlowProofs RoundedBuilder RoundedBuilderSpec RoundedBuilderProofs.

Section B.
Variables (rnd : Qc -> Qc) (on : bool) (S : setup) (r : Qc).
Hypothesis RND : rounding rnd.
Notation fl := (float rnd).
Hypothesis SUB : forall x y, fl x -> fl y -> x <> y -> rnd (x - y) <> 0.
Hypothesis OK : setup_ok S r.
Hypothesis SV : served S.
Hypothesis FS : float_setup rnd S.
Let g := s_graph S.
Let C : consistent g := so_graph S r OK.
Let nw := s_nw S.
Let N := length (n_cap nw).

(** ** Costs *)
Lemma sorted_adj l : StronglySorted Qclt l -> adj_diff l.
Proof.
  induction 1 as [|a l SS IH F]; intros i L; [cbn in L; lia|]. destruct i as [|i]; [|apply IH; cbn in L; lia].
  destruct l as [|b l]; [cbn in L; lia|]. cbn [nth]. inversion F; subst. intro Q. rewrite Q in H1. qlra.
Qed.
Lemma gradient_on f i : (-1 <= i < pl_len f)%Z -> r_gradient rnd true f i = r_gradient rnd false f i.
Proof. intro R. unfold r_gradient, asr. assert (B : ((-1 <=? i)%Z && (i <? pl_len f)%Z)%bool = true) by (apply andb_true_intro; split; [apply Z.leb_le|apply Z.ltb_lt]; lia). rewrite B. reflexivity. Qed.
Lemma eval_on f T t : pl_times f <> [] -> StronglySorted Qclt (pl_times f) -> pl_lo f = Fin T -> pl_hi f = PInf -> T <= t -> r_pl_eval rnd true f t = r_pl_eval rnd false f t.
Proof.
  intros NE SS LO HI L. unfold r_pl_eval, asr. rewrite LO, HI.
  assert (D : (ext_leb (Fin T) (Fin t) && ext_leb (Fin t) PInf)%bool = true).
  { destruct (ext_lebP (Fin T) (Fin t)) as [_|X]; [|exfalso; apply X; exact L]. destruct (ext_lebP (Fin t) PInf) as [_|X]; [reflexivity|exfalso; apply X; exact I]. }
  rewrite D. cbn [assertb bind]. destruct (elem_rank_ok (pl_times f) t NE (lt_sorted_le _ SS)) as (i & E & IR). rewrite E. cbn [bind]. apply is_rank_iff in IR. destruct IR as (R1 & R2 & R3).
  assert (LN : (0 < length (pl_times f))%nat) by (destruct (pl_times f); [congruence|cbn; lia]).
  unfold r_eval_with_rank, asr. rewrite LO, HI, D. cbn [assertb bind]. unfold pl_len in *.
  assert (B : ((-1 <=? i)%Z && (i <=? zlen (pl_times f))%Z)%bool = true) by (apply andb_true_intro; split; apply Z.leb_le; lia). rewrite B. cbn [assertb bind].
  rewrite (pyget_Z (pl_times f) 0 0) by lia. rewrite (pyget_last (pl_times f) 0 NE). cbn [bind].
  assert (B1 : (negb (i =? -1)%Z || qleb t (nth (Z.to_nat 0) (pl_times f) 0))%bool = true).
  { destruct (Z.eqb_spec i (-1)) as [->|]; [|reflexivity]. cbn [negb orb]. destruct (qlebP t (nth (Z.to_nat 0) (pl_times f) 0)) as [|X]; [reflexivity|]. exfalso. apply X. apply (R3 ltac:(unfold zlen; lia)). }
  rewrite B1. cbn [assertb bind].
  assert (B2 : (negb (i =? zlen (pl_times f) - 1)%Z || qltb (last (pl_times f) 0) t)%bool = true).
  { destruct (Z.eqb_spec i (zlen (pl_times f) - 1)) as [Q|]; [|reflexivity]. cbn [negb orb]. destruct (qltbP (last (pl_times f) 0) t) as [|X]; [reflexivity|]. exfalso. apply X.
    pose proof (pyget_last (pl_times f) 0 NE) as PL. specialize (R2 ltac:(unfold zlen in *; lia)). unfold nthq in R2. replace (last (pl_times f) 0) with (nth (Z.to_nat i) (pl_times f) 0); [exact R2|].
    rewrite Q. unfold zlen. replace (Z.to_nat (Z.of_nat (length (pl_times f)) - 1)) with (length (pl_times f) - 1)%nat by lia. symmetry. clear. induction (pl_times f) as [|a l IH]; [reflexivity|]. destruct l as [|b l]; [reflexivity|]. cbn [last length] in *. rewrite IH. cbn [Nat.sub nth]. rewrite Nat.sub_0_r. reflexivity. }
  rewrite B2. cbn [assertb bind andb].
  assert (B3 : (if ((-1 <? i)%Z && (i <? zlen (pl_times f) - 1)%Z)%bool then tr <- pyget (pl_times f) i ;; tr1 <- pyget (pl_times f) (i + 1) ;; assertb (qltb tr t && qleb t tr1)%bool else Ok tt) = Ok tt).
  { destruct (Z.ltb_spec (-1) i), (Z.ltb_spec i (zlen (pl_times f) - 1)); cbn [andb]; try reflexivity. unfold zlen in *. rewrite (pyget_Z (pl_times f) i 0), (pyget_Z (pl_times f) (i + 1) 0) by lia. cbn [bind].
    destruct (qltbP (nth (Z.to_nat i) (pl_times f) 0) t) as [_|X]; [|exfalso; apply X, R2; lia]. destruct (qlebP t (nth (Z.to_nat (i + 1)) (pl_times f) 0)) as [_|X]; [reflexivity|exfalso; apply X, R3; lia]. }
  rewrite B3. cbn [bind]. rewrite gradient_on by (unfold pl_len; lia). reflexivity.
Qed.
(** A travel time function that can be evaluated from [T] on, and is non-negative there. *)
Definition cost_fn (T : Qc) (f : PL) : Prop :=
  (exists v, pyget (pl_values f) 0 = Ok v /\ 0 <= v) /\ forall t, T <= t -> exists y, r_pl_eval rnd on f t = Ok y /\ 0 <= y.
Definition costs_ok (T : Qc) (costs : list PL) : Prop := length costs = length (g_edges g) /\ Forall (cost_fn T) costs.
Lemma cost_ok_of T e p : r_usable_pl rnd nw T e p -> cost_fn T (r_cost rnd nw T e p).
Proof.
  intros (NE & LV & SS & FT & V0 & VN). split.
  - set (vs := pl_values (r_cost rnd nw T e p)) in *. assert (LN : (0 < length vs)%nat). { unfold vs. cbn [r_cost pl_values]. rewrite map_length, LV. destruct (pl_times p); [congruence|cbn; lia]. }
    exists (nth 0 vs 0). split; [rewrite (pyget_Z vs 0 0) by lia; reflexivity|]. apply V0. apply nth_error_nth', LN.
  - intros t L. assert (RF : rf_ok rnd (r_cost rnd nw T e p)).
    { split; [|exact FT]. constructor; cbn [r_cost pl_times pl_values]; [exact NE|rewrite map_length; exact LV|apply sorted_adj, SS]. }
    destruct (rtot_eval rnd SUB _ t RF) as (y & E & _). exists y. split; [|eapply VN; eauto].
    assert (EV := eval_on (r_cost rnd nw T e p) T t NE SS eq_refl eq_refl L). destruct on; congruence.
Qed.
Lemma edge_params e : (e < N)%nat -> fetch (n_tau nw) e = Ok (tau_of nw e) /\ fetch (n_cap nw) e = Ok (cap_of nw e) /\ 0 < cap_of nw e.
Proof.
  intro L. pose proof (so_net S r OK) as (L1 & L2 & L3). fold nw in L1, L2, L3. unfold fetch, tau_of, cap_of. rewrite (nth_error_nth' (n_tau nw) 0) by (rewrite L1; exact L). rewrite (nth_error_nth' (n_cap nw) 0) by exact L.
  split; [reflexivity|]. split; [reflexivity|]. apply L2, nth_In, L.
Qed.
Lemma edge_cost_safe T preds e : r_usable rnd S T preds -> (e < N)%nat -> safe on (r_edge_cost rnd on nw T preds e) (cost_fn T).
Proof.
  intros [UL UP] L. assert (EL : N = length (g_edges g)) by apply (so_caps S r OK). destruct (nth_error preds e) as [p|] eqn:E; [|apply nth_error_None in E; fold g in UL; lia].
  destruct (edge_params e L) as (E1 & E2 & CP). unfold r_edge_cost. unfold fetch at 1. rewrite E, E1, E2. cbn [bind].
  assert (D : forall v, fdiv rnd v (cap_of nw e) = Ok (rnd (v / cap_of nw e))) by (intro v; apply fdiv_ok; intro Q; rewrite Q in CP; qlra).
  rewrite (mapM_map _ (fun v => rnd (tau_of nw e + rnd (v / cap_of nw e)))) by (intros v _; rewrite D; reflexivity). cbn [bind]. rewrite !D. cbn [bind].
  eapply safe_weaken; [apply pl_init_safe|]. intros f ->. apply (cost_ok_of T e p). apply UP, E.
Qed.
Lemma costs_safe T preds : r_usable rnd S T preds -> safe on (mapM (r_edge_cost rnd on nw T preds) (seq 0 (length (g_edges g)))) (costs_ok T).
Proof.
  intro U. eapply safe_weaken; [apply (safe_mapM on _ (fun _ => cost_fn T))|].
  - intros e I. apply edge_cost_safe; [exact U|]. apply in_seq in I. unfold N, nw. rewrite (so_caps S r OK). fold g. lia.
  - intros l F. split; [assert (Q : forall A B (P : A -> B -> Prop) x y, Forall2 P x y -> length y = length x) by (induction 1; cbn [length]; congruence); rewrite (Q _ _ _ _ _ F); apply seq_length|]. apply Forall_forall. intros f I. destruct (In_nth_error _ _ I) as [i Ei].
    clear - F Ei. revert i Ei. induction F as [|a b l l' H _ IH]; intros i Ei; [destruct i; discriminate|]. destruct i as [|i]; [injection Ei as <-; exact H|eapply IH, Ei].
Qed.

(** ** Relevant nodes *)
Lemma com_spec i c : nth_error (s_coms S) i = Some c -> In (k_sink c) (node_ids g) /\ forall v, In v (com_nodes S i) <-> path (arcs g) v (k_sink c) /\ from_source S i v.
Proof.
  intro E. destruct (all_total S r OK) as [imp EI]; [intros d I; apply (SV d I)|]. unfold com_nodes. rewrite EI. unfold important_all in EI. destruct (mapM_spec _ _ _ EI) as [_ NN]. destruct (NN i c E) as [l [L1 L2]].
  destruct (important_ok S r OK c l (nth_error_In _ _ E) L2) as [SK IFF]. split; [exact SK|]. intro v. rewrite (nth_error_nth _ _ _ L1), IFF. unfold from_source. split.
  - intros [P (s & f & D & Q)]. split; [exact P|]. exists c, s, f. auto.
  - intros [P (c' & s & f & E' & D & Q)]. assert (c' = c) by congruence. subst c'. split; [exact P|]. exists s, f. auto.
Qed.
Lemma edge_arc' e : In e (g_edges g) -> In (e_from g e, e_to g e) (arcs g).
Proof. intro I. unfold arcs. apply in_map_iff. exists e. auto. Qed.
Lemma rwalk_path costs nodes sink v k x : rwalk_to rnd g costs nodes sink v k x -> path (arcs g) v sink.
Proof. induction 1 as [|e k c He Hn W IH]; [constructor|]. eapply path_front; [apply edge_arc', He|exact IH]. Qed.
Lemma tight_path_path res sink v : r_tight_path rnd g res sink v -> path (arcs g) v sink.
Proof. induction 1 as [|e He T P IH]; [constructor|]. eapply path_front; [apply edge_arc', He|exact IH]. Qed.
Lemma path_leads i c v : nth_error (s_coms S) i = Some c -> from_source S i v -> path (arcs g) v (k_sink c) -> leads g (com_nodes S i) v (k_sink c).
Proof.
  intros E F P. destruct (com_spec i c E) as [_ CN]. assert (H : forall u w, path (arcs g) u w -> u = v -> path (arcs g) w (k_sink c) -> leads g (com_nodes S i) v w).
  { intros u w PW. induction PW as [v0|u a w PW IH A]; intros -> PS; [constructor|]. unfold arcs in A. apply in_map_iff in A. destruct A as [e [EE Ie]]. injection EE as <- <-.
    apply leads_edge; [apply IH; [reflexivity|eapply path_front; [apply edge_arc', Ie|exact PS]]|exact Ie|]. apply CN. split; [exact PS|]. eapply from_path; [exact F|]. eapply path_step; [exact PW|apply edge_arc', Ie]. }
  apply (H v); [exact P|reflexivity|constructor].
Qed.

(** ** Where flow may be, and the routes chosen *)
(** Edge [k] may carry commodity [i]: its head is reached from a source and reaches the sink. *)
Definition carries (k i : nat) : Prop :=
  exists e c, In e (g_edges g) /\ e_id g e = k /\ nth_error (s_coms S) i = Some c /\ from_source S i (e_to g e) /\ path (arcs g) (e_to g e) (k_sink c).
Definition routes (sink v : nat) (l : list nat) : Prop := l <> [] /\ forall e, In e l -> In e (g_edges g) /\ e_from g e = v /\ path (arcs g) (e_to g e) sink.
Definition act_fine (active : list (list (nat * list nat))) : Prop :=
  length active = length (s_coms S) /\ forall i c v l, nth_error (s_coms S) i = Some c -> dget (nth i active []) v = Some l -> routes (k_sink c) v l.
Lemma set_fine active j c v l : act_fine active -> nth_error (s_coms S) j = Some c -> routes (k_sink c) v l -> act_fine (set_active active j v l).
Proof.
  intros [A1 A2] EJ RO. split; [unfold set_active; rewrite upd_length; exact A1|]. intros i c' w l' EI. unfold set_active. rewrite nth_upd. destruct (Nat.eqb_spec j i) as [<-|]; [|apply A2, EI].
  assert (L : (j <? length active)%nat = true) by (apply Nat.ltb_lt; rewrite A1; apply nth_error_Some; congruence). rewrite L, dget_dset. destruct (Nat.eqb_spec v w) as [<-|]; [|apply A2, EI].
  intro Q. injection Q as <-. assert (c' = c) by congruence. subst c'. exact RO.
Qed.
Lemma share_fine active sink ty v l : act_fine active -> routes sink v l -> act_fine (share (s_coms S) sink ty active v l).
Proof.
  intros A RO. unfold share. assert (H : forall j, In j (ids_by_sink (s_coms S) sink) -> sinks_at S sink j) by (intro; apply ids_by_sink_iff). revert active A H.
  induction (ids_by_sink (s_coms S) sink) as [|j js IH]; intros active A H; cbn [fold_left]; [exact A|]. apply IH; [|intros; apply H; right; assumption].
  destruct (H j (or_introl eq_refl)) as (c & E & Q). rewrite E. destruct (Nat.eqb (k_pred c) ty); [|exact A]. eapply set_fine; eauto. rewrite Q. exact RO.
Qed.
Lemma const_safe i c const dist : nth_error (s_coms S) i = Some c -> (exists v, from_source S i v /\ path (arcs g) v (k_sink c)) ->
  (forall e, In e (g_edges g) -> exists x, nth_error const (e_id g e) = Some x /\ 0 <= x) -> r_reverse_dijkstra rnd g (k_sink c) const (com_nodes S i) = Ok dist ->
  forall active, act_fine active -> safe on (foldM (r_const_node rnd on S c const dist) (com_nodes S i) active)
    (fun active' => act_fine active' /\ forall v, In v (com_nodes S i) -> v <> k_sink c -> known active' i v).
Proof.
  intros E [v0 [FS0 P0]] NC RD. destruct (com_spec i c E) as [SK CN].
  assert (IS : In (k_sink c) (com_nodes S i)) by (apply CN; split; [constructor|eapply from_path; eauto]).
  assert (H : forall l active, (forall v, In v l -> In v (com_nodes S i)) -> act_fine active ->
    safe on (foldM (r_const_node rnd on S c const dist) l active) (fun active' => act_fine active' /\ (forall v, known active i v -> known active' i v) /\ forall v, In v l -> v <> k_sink c -> known active' i v)).
  { induction l as [|v l IH]; intros active I A; cbn [foldM]; [apply safe_ret; split; [exact A|]; split; [auto|intros v []]|].
    assert (Il : forall w, In w l -> In w (com_nodes S i)) by (intros w Hw; apply I; right; exact Hw).
    unfold r_const_node at 1. destruct (Nat.eqb_spec v (k_sink c)) as [Q|Q].
    - cbn [bind]. eapply safe_weaken; [apply (IH active Il A)|]. intros a' (E2 & E3 & E4). split; [exact E2|]. split; [exact E3|]. intros w [<-|Hw] NW; [contradiction|apply E4; assumption].
    - assert (IV : In v (com_nodes S i)) by (apply I; left; reflexivity). apply CN in IV. destruct IV as [PV FV].
      destruct (path_walk S const (com_nodes S i) (k_sink c) i CN v PV FV) as (k & x & W). destruct (walk_rwalk rnd _ _ _ _ _ _ _ W) as (x' & W').
      destruct (r_active_constant_spec rnd RND g const (com_nodes S i) (k_sink c) C SK IS NC v Q (ex_intro _ k (ex_intro _ x' W'))) as (dist' & dv & q & RD' & DV & TE & NE & TQ).
      rewrite RD in RD'. apply ok_inj in RD'. subst dist'. unfold r_active_constant in TE. rewrite RD in TE. cbn [bind] in TE.
      destruct (r_tight_edges rnd g const dist v (outgoing g v)) as [q'|] eqn:TT; cbn [bind] in TE; [|discriminate].
      destruct (0 <? length q')%nat; cbn [assertb bind] in TE; [|discriminate]. apply ok_inj in TE. subst q'. fold g. rewrite TT. cbn [bind].
      assert (RO : routes (k_sink c) v q).
      { split; [exact NE|]. intros e Ie. apply TQ in Ie. destruct Ie as (I1 & I2 & dw & D & _). split; [exact I1|]. split; [exact I2|].
        destruct (r_reverse_dijkstra_spec rnd RND g const (com_nodes S i) (k_sink c) C SK IS NC) as (d2 & RD2 & _ & _ & WK & _). rewrite RD in RD2. apply ok_inj in RD2. subst d2. destruct (WK _ _ D) as (k' & W2). eapply rwalk_path; eauto. }
      assert (K1 : known (share (s_coms S) (k_sink c) (k_pred c) active v q) i v) by (apply share_sets; [exact E|rewrite (proj1 A); apply nth_error_Some; congruence]).
      assert (A' := share_fine active (k_sink c) (k_pred c) v q A RO).
      unfold asr. destruct on eqn:O.
      + destruct (0 <? length q)%nat; cbn [assertb bind]; [|right; auto]. eapply safe_weaken; [apply (IH _ Il A')|]. intros a' (E2 & E3 & E4). split; [exact E2|].
        split; [intros w Hw; apply E3, share_known, Hw|]. intros w [<-|Hw] NW; [apply E3, K1|apply E4; assumption].
      + cbn [bind]. eapply safe_weaken; [apply (IH _ Il A')|]. intros a' (E2 & E3 & E4). split; [exact E2|].
        split; [intros w Hw; apply E3, share_known, Hw|]. intros w [<-|Hw] NW; [apply E3, K1|apply E4; assumption]. }
  intros active A. eapply safe_weaken; [apply (H (com_nodes S i) active (fun v I => I) A)|]. intros a' (E2 & _ & E4). auto.
Qed.

(** ** The invariant *)
Notation finv := (RoundedFlowProofs.inv rnd nw).
Record bok (b : builder) : Prop := {
  bk_inv : finv (b_flow b);
  bk_supp : supp carries N (b_flow b);
  bk_next : fl (b_next b) /\ f_phi (b_flow b) <= b_next b;
  bk_route : fl (b_route b);
  bk_net : forall v, In v (node_ids g) -> exists c, dget (b_net b) v = Some c /\ net_col (map fst (net_fns (s_coms S) v)) (f_phi (b_flow b)) c;
  bk_act : act_fine (b_active b);
  bk_han : incl (b_handle b) (node_ids g);
  bk_qnd : sq_nd (b_changes b);
  bk_key : forall it k, sq_key_of (b_changes b) it = Some k -> In (snd (fst it)) (node_ids g) /\ exists t, k = Fin t /\ fl t;
  bk_cost : forall ty costs, dget (b_costs b) ty = Some costs -> costs_ok (b_route b) costs }.
(** [b] is a state within the round that started in [bm]. *)
Variable bm : builder.
Definition next_after (b : builder) : Qc := if qleb (b_next b) (f_phi (b_flow b)) then rnd (b_next b + r) else b_next b.
Definition cur (b : builder) : Prop :=
  f_phi (b_flow b) = f_phi (b_flow bm) /\ f_in (b_flow b) = f_in (b_flow bm) /\ f_q (b_flow b) = f_q (b_flow bm) /\ b_route b = asks_at bm /\ b_next b = next_after bm /\
  forall it k, sq_key_of (b_changes b) it = Some k -> ~ ext_le k (Fin (f_phi (b_flow b))).
Hypothesis ANS : forall c st, In c (s_coms S) -> f_phi st = f_phi (b_flow bm) -> f_in st = f_in (b_flow bm) -> f_q st = f_q (b_flow bm) ->
  exists p, dget (su_preds S) (k_pred c) = Some p /\ safe on (p_predict p (asks_at bm) st) (r_usable rnd S (asks_at bm)).
Definition now (b : builder) : Prop := bok b /\ cur b.
Lemma with_costs_now b x : now b -> (forall ty costs, dget x ty = Some costs -> costs_ok (b_route b) costs) -> now (with_costs b x).
Proof. intros [[B1 B2 B3 B4 B5 B6 B7 B8 B9 B10] Q] H. split; [constructor; assumption|exact Q]. Qed.
Lemma with_active_now b x : now b -> act_fine x -> now (with_active b x).
Proof. intros [[B1 B2 B3 B4 B5 B6 B7 B8 B9 B10] Q] H. split; [constructor; assumption|exact Q]. Qed.
Lemma get_costs_safe b c : now b -> In c (s_coms S) -> safe on (r_get_costs rnd on S b (k_pred c)) (fun p => now (fst p) /\ b_active (fst p) = b_active b /\ b_route (fst p) = b_route b /\ costs_ok (b_route b) (snd p)).
Proof.
  intros NB IC. unfold r_get_costs. destruct (dget (b_costs b) (k_pred c)) as [costs|] eqn:D.
  - apply safe_ret. cbn [fst snd]. split; [exact NB|]. split; [reflexivity|]. split; [reflexivity|]. apply (bk_cost b (proj1 NB) _ _ D).
  - destruct NB as [BO (Q1 & Q2 & Q3 & Q4 & Q6 & Q5)]. destruct (ANS c (b_flow b) IC Q1 Q2 Q3) as (p & DP & SP). unfold dfetch. rewrite DP. cbn [bind]. rewrite Q4.
    eapply safe_bind; [exact SP|]. intros preds U. eapply safe_bind; [apply costs_safe, U|]. intros costs CO. apply safe_ret. cbn [fst snd].
    split; [|split; [reflexivity|split; [exact Q4|exact CO]]]. apply with_costs_now; [split; [exact BO|split; [exact Q1|split; [exact Q2|split; [exact Q3|split; [exact Q4|split; [exact Q6|exact Q5]]]]]]|].
    intros ty cs. rewrite dget_dset. destruct (Nat.eqb (k_pred c) ty); [intro Q; injection Q as <-; rewrite Q4; exact CO|apply (bk_cost b BO)].
Qed.
Lemma active_safe b i v c : now b -> nth_error (s_coms S) i = Some c -> from_source S i v -> path (arcs g) v (k_sink c) -> v <> k_sink c -> In v (node_ids g) ->
  safe on (r_get_active_edges rnd on S b i v) (fun p => now (fst p) /\ routes (k_sink c) v (snd p)).
Proof.
  intros NB EC FV PV NV IV. unfold r_get_active_edges. destruct (dget (nth i (b_active b) []) v) as [l|] eqn:D.
  - apply safe_ret. split; [exact NB|]. apply (proj2 (bk_act b (proj1 NB)) i c v l EC D).
  - unfold fetch at 1. rewrite EC. cbn [bind]. destruct (ANS c (b_flow bm) (nth_error_In _ _ EC) eq_refl eq_refl eq_refl) as (p & DP & _). unfold dfetch at 1. rewrite DP. cbn [bind].
    eapply safe_bind; [apply (get_costs_safe b c NB (nth_error_In _ _ EC))|]. intros [b1 costs] (NB1 & AE & RE & CL & CF). cbn [fst snd] in *. cbv beta iota.
    destruct (com_spec i c EC) as [SK CN]. assert (IN : In v (com_nodes S i)) by (apply CN; auto). assert (IS : In (k_sink c) (com_nodes S i)) by (apply CN; split; [constructor|eapply from_path; eauto]).
    assert (CE : forall e, In e (g_edges g) -> exists f, nth_error costs (e_id g e) = Some f /\ cost_fn (b_route b) f).
    { intros e Ie. pose proof (edge_lt S r OK e Ie) as L. rewrite (so_caps S r OK) in L. fold g in L. destruct (nth_error costs (e_id g e)) as [f|] eqn:E; [|apply nth_error_None in E; lia].
      exists f. split; [reflexivity|]. eapply Forall_forall; [exact CF|eapply nth_error_In; exact E]. }
    destruct (p_const p).
    + destruct (mapM_total (fun f => pyget (pl_values f) 0) costs) as [const MC]; [intros f If; destruct (proj1 (proj1 (Forall_forall _ _) CF f If)) as (x & E & _); eauto|]. rewrite MC. cbn [bind].
      assert (NC : forall e, In e (g_edges g) -> exists x, nth_error const (e_id g e) = Some x /\ 0 <= x).
      { intros e Ie. destruct (CE e Ie) as (f & E & (x & E2 & X) & _). destruct (mapM_spec _ _ _ MC) as [_ NN]. destruct (NN _ _ E) as (y & E3 & E4). rewrite E2 in E4. apply ok_inj in E4. subst y. eauto. }
      destruct (r_reverse_dijkstra_spec rnd RND g const (com_nodes S i) (k_sink c) C SK IS NC) as (dist & RD & _). fold g. rewrite RD. cbn [bind].
      eapply safe_bind; [apply (const_safe i c const dist EC (ex_intro _ v (conj FV PV)) NC RD); rewrite AE; apply (bk_act b (proj1 NB))|]. intros active (A1 & A2).
      specialize (A2 v IN NV). unfold known in A2. unfold dfetch. destruct (dget (nth i active []) v) as [l|] eqn:DL; [|congruence]. cbn [bind]. apply safe_ret. cbn [fst snd].
      split; [apply with_active_now; assumption|]. apply (proj2 A1 i c v l EC DL).
    + assert (TOT : forall e t, In e (g_edges g) -> b_route b <= t -> exists f x, nth_error (map (r_pl_eval rnd on) costs) (e_id g e) = Some f /\ f t = Ok x /\ 0 <= x).
      { intros e t Ie T. destruct (CE e Ie) as (f & E & _ & H). destruct (H t T) as (y & E2 & Y). exists (r_pl_eval rnd on f), y. split; [rewrite nth_error_map, E; reflexivity|auto]. }
      destruct (r_dynamic_dijkstra_spec rnd RND g (b_route b) v (k_sink c) (com_nodes S i) (map (r_pl_eval rnd on) costs) C IV (bk_route b (proj1 NB)) TOT) as (rs & E & G). fold g. rewrite E. cbn [bind].
      destruct (RoundedProofs.active_edges_spec rnd RND g (b_route b) v (k_sink c) (com_nodes S i) (map (r_pl_eval rnd on) costs) C rs G (RoundedProofs.dg_sink _ _ _ _ _ _ _ _ G (path_leads i c v EC FV PV)) SK NV) as (l & EL & _ & NE & SP).
      rewrite EL. cbn [bind]. apply safe_ret. cbn [fst snd].
      assert (RO : routes (k_sink c) v l). { split; [exact NE|]. intros e Ie. apply SP in Ie. destruct Ie as (I1 & I2 & _ & TP). split; [exact I1|]. split; [exact I2|]. eapply tight_path_path; eauto. }
      split; [|exact RO]. apply with_active_now; [exact NB1|]. eapply set_fine; [rewrite AE; apply (bk_act b (proj1 NB))|exact EC|exact RO].
Qed.

(** ** Distributing the inflow *)
Lemma in_dset {A} (d : list (nat * A)) j y k x : In (k, x) (dset d j y) -> (k = j /\ x = y) \/ In (k, x) d.
Proof. induction d as [|[a b] d IH]; cbn [dset]; [intros [Q|[]]; injection Q as <- <-; auto|]. destruct (Nat.eqb_spec a j) as [->|]; intros [Q|I]; [injection Q as <- <-; auto|right; right; exact I|right; left; exact Q|destruct (IH I) as [H|H]; [left; exact H|right; right; exact H]]. Qed.
Lemma keys_dset {A} (d : list (nat * A)) j y k : In k (map fst (dset d j y)) -> k = j \/ In k (map fst d).
Proof. intro I. apply in_map_iff in I. destruct I as [[a b] [<- I]]. apply in_dset in I. destruct I as [[-> _]|I]; [auto|right; apply (in_map fst) in I; exact I]. Qed.
Definition rows (ni : list (nat * rates)) : Prop := forall k d, In (k, d) ni -> (k < N)%nat /\ keys carries k d.
Definition has_rows (v : nat) (ni : list (nat * rates)) : Prop := forall e, In e (outgoing g v) -> dget ni (e_id g e) <> None.
Definition at_node (i v : nat) : Prop := exists c, nth_error (s_coms S) i = Some c /\ from_source S i v /\ path (arcs g) v (k_sink c).
Lemma put_rows i d : forall act ni ni', rows ni -> (forall e, In e act -> carries (e_id g e) i) ->
  foldM (fun (ni : list (nat * rates)) e => row <- dfetch ni (e_id (s_graph S) e) ;; Ok (dset ni (e_id (s_graph S) e) (dset row i d))) act ni = Ok ni' -> rows ni'.
Proof.
  induction act as [|e act IH]; intros ni ni' R H E; cbn [foldM] in E; [apply ok_inj in E; subst; exact R|]. fold g in E. unfold dfetch at 1 in E. destruct (dget ni (e_id g e)) as [row|] eqn:D; [|discriminate].
  cbn [bind] in E. eapply IH; [|intros; apply H; right; assumption|exact E]. intros k x I. apply in_dset in I. destruct I as [[-> ->]|I]; [|apply R, I].
  destruct (R _ _ (dget_In _ _ _ D)) as [R1 R2]. split; [exact R1|]. intros j J. apply keys_dset in J. destruct J as [->|J]; [apply H; left; reflexivity|apply R2, J].
Qed.
Lemma assign_safe v outs net b ni i : now b -> rows ni -> has_rows v ni -> In v (node_ids g) -> at_node i v -> ~ sinks_at S v i ->
  safe on (r_assign rnd on S v outs net (b, ni) i) (fun st => now (fst st) /\ rows (snd st) /\ has_rows v (snd st)).
Proof.
  intros NB R HR IV (c & EC & FV & PV) NS. unfold r_assign. destruct (qltb _ _); [apply safe_ret; auto|].
  assert (NV : v <> k_sink c) by (intro Q; apply NS; exists c; auto).
  eapply safe_bind; [apply (active_safe b i v c NB EC FV PV NV IV)|]. intros [b' l] (NB' & NE & RO). cbn [fst snd] in *. cbv beta iota.
  assert (QP : 0 < qn (length l)) by (apply qn_pos; destruct l; [congruence|cbn; lia]). rewrite fdiv_ok by (intro Z; rewrite Z in QP; qlra). cbn [bind].
  destruct (put_total S i (rnd (r_node_inflow rnd i outs net / qn (length l))) l ni) as [ni' [E K]]; [intros e Ie; apply HR, (out_iff g C); destruct (RO e Ie); tauto|].
  rewrite E. cbn [bind]. apply safe_ret. cbn [fst snd]. split; [exact NB'|]. split; [|intros e Ie; apply K, HR, Ie].
  eapply put_rows; [exact R| |exact E]. intros e Ie. destruct (RO e Ie) as (I1 & I2 & P). exists e, c. split; [exact I1|]. split; [reflexivity|]. split; [exact EC|]. split; [|exact P].
  eapply from_path; [exact FV|]. eapply path_step; [constructor|]. rewrite <- I2. apply edge_arc', I1.
Qed.
Lemma get_incl c t c' d : frc_get c t = Ok (c', d) -> incl (c_chain c') (c_chain c) /\ (d = [] \/ exists it, In it (c_chain c) /\ d = it_vals it).
Proof.
  unfold frc_get. destruct (c_chain c) as [|h l] eqn:E; [intro H; apply ok_inj in H; injection H as <- <-; rewrite E; split; [apply incl_refl|auto]|].
  destruct (qltbP t (it_time h)) as [|L]; [discriminate|]. assert (H : it_time h <= t) by qlra. destruct (advance_ok t l h H) as (h' & l' & E' & _ & I). rewrite E'. intro Q. apply ok_inj in Q. injection Q as <- <-.
  cbn [c_chain]. split; [exact I|]. right. exists h'. split; [apply I; left; reflexivity|reflexivity].
Qed.
Lemma net_get ks phi c : net_col ks phi c -> exists c' d, frc_get c phi = Ok (c', d) /\ net_col ks phi c' /\ incl (map fst d) ks.
Proof.
  intros (h & l & E & T & I). unfold frc_get. rewrite E in *. destruct (qltbP phi (it_time h)) as [X|_]; [exfalso; qlra|]. destruct (advance_ok phi l h T) as (h' & l' & E' & T' & IN). rewrite E'.
  eexists. eexists. split; [reflexivity|]. split; [|apply I, IN; left; reflexivity]. exists h', l'. cbn [c_chain]. split; [reflexivity|]. split; [exact T'|]. intros it J. apply I, IN, J.
Qed.
Lemma outflow_safe v b acc e : now b -> In e (incoming g v) -> (forall d, In d acc -> forall i, In i (map fst d) -> at_node i v) ->
  safe on (get_outflow S (b, acc) e) (fun st => now (fst st) /\ forall d, In d (snd st) -> forall i, In i (map fst d) -> at_node i v).
Proof.
  intros [BO Q] Ie HA. apply (in_iff g C) in Ie. destruct Ie as [Ie EV]. pose proof (edge_lt S r OK e Ie) as L. fold g in L. unfold get_outflow. fold g.
  destruct (RoundedFlowProofs.step_tot rnd RND SUB nw (so_net S r OK) (proj1 FS) (b_flow b) (COutflow (e_id g e)) (bk_inv b BO) L) as (p & E & (I' & _) & _). cbn [r_flow_step] in E.
  destruct (getn (f_out (b_flow b)) (e_id g e)) as [c|] eqn:EG; cbn [bind] in E; [|discriminate]. destruct (frc_get c (f_phi (b_flow b))) as [[c' d]|] eqn:EF; cbn [bind] in E; [|discriminate]. apply ok_inj in E. subst p. cbn [fst] in I'.
  cbn [bind]. rewrite EF. cbn [bind]. apply safe_ret. cbn [fst snd]. apply getn_some in EG. destruct (get_incl _ _ _ _ EF) as [IC ID]. split.
  - split; [|exact Q]. destruct BO as [B1 B2 B3 B4 B5 B6 B7 B8 B9 B10]. constructor; try assumption. cbn [with_flow b_flow].
    assert (UC := upd_chain carries N (b_flow b) (e_id g e) c c' B2 EG (fun it J => or_introl (IC it J))). destruct B2 as [S1 S2 S3 S4 S5 S6]. constructor; cbn [set_out f_out f_dq f_changes]; try assumption. rewrite upd_length. exact S2.
  - intros d0 I0 i Ii. apply in_app_or in I0. destruct I0 as [I0|[<-|[]]]; [eapply HA; eauto|]. destruct ID as [->|(it & J & ->)]; [destruct Ii|].
    destruct (sp_out carries N _ (bk_supp b BO) _ _ _ EG J i Ii) as (e' & cc & A1 & A2 & A3 & A4 & A5). assert (e' = e) by (apply (id_inj g C); auto). subst e'. rewrite EV in *. exists cc. auto.
Qed.
Lemma split_safe b ni v : now b -> rows ni -> In v (node_ids g) -> safe on (r_split_node rnd on S (b, ni) v) (fun st => now (fst st) /\ rows (snd st)).
Proof.
  intros NB R IV. unfold r_split_node. fold g. set (ni1 := fold_left (fun d e => dset d (e_id g e) []) (outgoing g v) ni). cbv zeta.
  assert (R1 : rows ni1).
  { unfold ni1. assert (H : forall l m, (forall e, In e l -> In e (g_edges g)) -> rows m -> rows (fold_left (fun d e => dset d (e_id g e) []) l m)).
    { induction l as [|e l IH]; intros m HL HM; cbn [fold_left]; [exact HM|]. apply IH; [intros; apply HL; right; assumption|]. intros k d I. apply in_dset in I. destruct I as [[-> ->]|I]; [|apply HM, I].
      split; [apply (edge_lt S r OK), HL; left; reflexivity|intros j []]. }
    apply H; [intros e I; apply (out_iff g C) in I; apply I|exact R]. }
  assert (HR : has_rows v ni1).
  { intros e I. destruct (fresh_rows g (outgoing g v) ni) as [FRW _]. fold ni1 in FRW. rewrite FRW.
    assert (X : existsb (fun x => Nat.eqb (e_id g x) (e_id g e)) (outgoing g v) = true) by (apply existsb_exists; exists e; split; [exact I|apply Nat.eqb_refl]). rewrite X. discriminate. }
  eapply safe_bind; [apply (safe_foldM on _ (fun st => now (fst st) /\ forall d, In d (snd st) -> forall i, In i (map fst d) -> at_node i v))|].
  - intros [b1 acc] e Ie [NB1 HA]. apply outflow_safe; assumption.
  - split; [exact NB|intros d []].
  - intros [b1 outs] [NB1 HA]. cbn [fst snd] in *. cbv beta iota. destruct (bk_net b1 (proj1 NB1) v IV) as (c & D & NCc). unfold dfetch. rewrite D. cbn [bind].
    destruct (net_get _ _ _ NCc) as (c' & net & EF & NC' & IK). rewrite EF. cbn [bind]. cbv beta iota.
    assert (NB2 : now (with_net b1 (dset (b_net b1) v c'))).
    { destruct NB1 as [[B1 B2 B3 B4 B5 B6 B7 B8 B9 B10] Q]. split; [|exact Q]. constructor; try assumption. intros w Iw. cbn [with_net b_net b_flow]. rewrite dget_dset.
      destruct (Nat.eqb_spec v w) as [<-|]; [exists c'; auto|apply B5, Iw]. }
    eapply safe_weaken; [apply (safe_foldM on _ (fun st => now (fst st) /\ rows (snd st) /\ has_rows v (snd st)))|intros a H; split; apply H].
    + intros [b3 ni3] i Ii (N3 & R3 & H3). cbn [fst snd] in *. apply (Permutation_in i (so_ord S r OK _)) in Ii. apply filter_In in Ii. destruct Ii as [I1 I2].
      apply negb_true_iff, DijkstraProofs.mem_false in I2. rewrite ids_by_sink_iff in I2. apply assign_safe; try assumption. rewrite uniq_In in I1. apply in_app_or in I1. destruct I1 as [I1|I1].
      * apply in_concat in I1. destruct I1 as (l & J1 & J2). apply in_map_iff in J1. destruct J1 as (d & <- & J1). eapply HA; eauto.
      * apply IK in I1. apply in_map_iff in I1. destruct I1 as ([j f] & <- & I1). apply net_fns_In in I1. destruct I1 as (cc & E & DS). cbn [fst]. exists cc. split; [exact E|]. split.
        -- exists cc, v, f. split; [exact E|]. split; [exact DS|constructor].
        -- apply (proj2 (SV cc (nth_error_In _ _ E)) v f). apply dget_In, DS.
    + cbn [fst snd]. auto.
Qed.
Lemma determine_safe b : now b -> safe on (r_determine_new_inflow rnd on S b) (fun st => now (fst st) /\ rows (snd st)).
Proof.
  intro NB. unfold r_determine_new_inflow. apply (safe_foldM on _ (fun st => now (fst st) /\ rows (snd st))); [|split; [exact NB|intros k d []]].
  intros [b1 ni] v Iv [N1 R1]. cbn [fst snd] in *. apply split_safe; [exact N1|exact R1|]. apply (bk_han b (proj1 NB)). apply (Permutation_in v (so_ord S r OK _) Iv).
Qed.

(** ** One round *)
Lemma net_later ks phi phi' c : phi <= phi' -> net_col ks phi c -> net_col ks phi' c.
Proof. intros L (h & l & E & T & I). exists h, l. split; [exact E|]. split; [qlra|exact I]. Qed.
Lemma pop_safe : bok bm -> exists b1, pop_due (Datatypes.S (sq_len (b_changes bm))) bm = Ok b1 /\ bok b1 /\ b_flow b1 = b_flow bm /\ b_next b1 = b_next bm /\ b_route b1 = b_route bm /\
  forall it k, sq_key_of (b_changes b1) it = Some k -> ~ ext_le k (Fin (f_phi (b_flow bm))).
Proof.
  intro B. destruct (pop_due_ok (Datatypes.S (sq_len (b_changes bm))) bm (bk_qnd bm B) ltac:(lia)) as (b1 & E & P). exists b1. split; [exact E|]. destruct P as [P1 P2 P3 P4 _].
  assert (K : forall it k, sq_key_of (b_changes b1) it = Some k -> sq_key_of (b_changes bm) it = Some k /\ ~ ext_le k (Fin (f_phi (b_flow bm)))) by (intros it k H; apply P3, H).
  split; [|rewrite P1; repeat split; intros it k H; apply (K it k), H].
  destruct B as [B1 B2 B3 B4 B5 B6 B7 B8 B9 B10]. assert (EF : b_flow b1 = b_flow bm) by (rewrite P1; reflexivity). assert (EN : b_next b1 = b_next bm) by (rewrite P1; reflexivity). assert (ER : b_route b1 = b_route bm) by (rewrite P1; reflexivity).
  assert (ET : b_net b1 = b_net bm) by (rewrite P1; reflexivity). assert (EA : b_active b1 = b_active bm) by (rewrite P1; reflexivity). assert (EC : b_costs b1 = b_costs bm) by (rewrite P1; reflexivity).
  constructor; rewrite ?EF, ?EN, ?ER, ?ET, ?EA, ?EC; try assumption.
  - intros v I. apply P4 in I. destruct I as [I|(it & (k & D & _) & <-)]; [apply B7, I|]. apply (B9 it k D).
  - intros it k H. apply (B9 it k), K, H.
Qed.
Lemma reroute_safe b1 : bok b1 -> b_flow b1 = b_flow bm -> b_next b1 = b_next bm -> b_route b1 = b_route bm ->
  (forall it k, sq_key_of (b_changes b1) it = Some k -> ~ ext_le k (Fin (f_phi (b_flow bm)))) -> exists b2, r_reroute rnd S b1 = Ok b2 /\ now b2.
Proof.
  intros B EF EN ER K. unfold r_reroute. rewrite (so_int S r OK). rewrite EN, EF. destruct (qleb (b_next bm) (f_phi (b_flow bm))) eqn:Q.
  - eexists. split; [reflexivity|]. destruct B as [B1 B2 B3 B4 B5 B6 B7 B8 B9 B10]. rewrite EF, EN, ER in *. split.
    + constructor; cbn [b_flow b_next b_route b_net b_active b_handle b_changes b_costs]; try assumption.
      * split; [apply fl_rnd, RND|]. eapply Qcle_trans; [apply B3|]. apply (le_rnd rnd RND); [apply B3|]. pose proof (so_pos S r OK). qlra.
      * apply B3.
      * split; [apply map_length|]. intros i c v l EC D. exfalso. revert D. clear. revert i. induction (s_coms S) as [|x l' IH]; intros [|i]; cbn [map nth dget]; try discriminate. apply IH.
      * apply incl_refl.
      * discriminate.
    + unfold cur, asks_at, next_after. cbn [b_flow b_route b_changes b_next]. rewrite Q. auto 8.
  - exists b1. split; [reflexivity|]. split; [exact B|]. unfold cur, asks_at, next_after. rewrite EF, Q. auto 8.
Qed.
Lemma step_safe : bok bm -> safe on (r_fb_step rnd on S bm) (fun b => bok b /\ f_phi (b_flow bm) <= f_phi (b_flow b) /\ b_next b = next_after bm).
Proof.
  intro B. unfold r_fb_step. destruct (pop_safe B) as (b1 & E1 & B1 & EF & EN & ER & K). rewrite E1. cbn [bind]. destruct (reroute_safe b1 B1 EF EN ER K) as (b2 & E2 & N2). rewrite E2. cbn [bind].
  eapply safe_bind; [apply determine_safe, N2|]. intros [b3 ni] [[B3 Q3] R3]. cbn [fst snd] in *. cbv beta iota.
  assert (X : exists maxt, ext_min (Fin (b_next b3)) (sq_min_key (b_changes b3)) = Fin maxt /\ fl maxt /\ f_phi (b_flow b3) <= maxt /\ maxt <= b_next b3).
  { destruct (bk_next b3 B3) as [F1 F2]. destruct (min_key_ex _ (bk_qnd b3 B3)) as [[Q _]|(it & Q)].
    - rewrite Q. exists (b_next b3). split; [reflexivity|]. split; [exact F1|]. split; [exact F2|qlra].
    - destruct (bk_key b3 B3 it _ Q) as (_ & t & EK & FT). pose proof (proj2 (proj2 (proj2 (proj2 (proj2 Q3)))) it _ Q) as GT. rewrite EK in *. change (~ t <= f_phi (b_flow b3)) in GT. unfold ext_min.
      destruct (ext_ltbP (Fin t) (Fin (b_next b3))) as [LT|LT].
      + exists t. split; [reflexivity|]. split; [exact FT|]. assert (LT2 : t < b_next b3) by (unfold ext_lt in LT; cbn [ext_le] in LT; qlra). split; qlra.
      + exists (b_next b3). split; [reflexivity|]. split; [exact F1|]. split; [exact F2|qlra]. }
  destruct X as (maxt & EX & FM & L1 & L2). rewrite EX.
  assert (SE : safe on (r_flow_extend rnd on nw (b_flow b3) ni maxt) (fun p => finv (fst p) /\ f_phi (b_flow b3) <= f_phi (fst p) /\ f_phi (fst p) <= maxt)).
  { apply (safe_tot on (fun o => r_flow_extend rnd o nw (b_flow b3) ni maxt)). apply (RoundedFlowProofs.tot_extend rnd RND SUB nw (so_net S r OK) (proj1 FS)); [apply (bk_inv b3 B3)|intros e d I; apply (R3 e d I)|exact FM|exact L1]. }
  fold nw. destruct SE as [([st' l] & EE & I' & M1 & M2)|[O EE]]; rewrite EE; [|right; auto]. cbn [bind fst] in *. cbv beta iota.
  destruct (supp_extend rnd on nw carries N (b_flow b3) ni maxt st' l (bk_supp b3 B3)) as [S' LT]; [intros e d I; apply (R3 e d I)|exact EE|].
  assert (NG : N = length (g_edges g)) by apply (so_caps S r OK).
  eapply safe_bind; [apply (safe_mapM on _ (fun _ h => In h (node_ids g)))|].
  - intros e Ie. specialize (LT e Ie). unfold fetch. fold g. destruct (nth_error (g_edges g) e) as [ed|] eqn:EE2; [|apply nth_error_None in EE2; lia]. cbn [bind]. apply safe_ret. apply (cs_ends g C). eapply nth_error_In, EE2.
  - intros heads FH. apply safe_ret. destruct B3 as [C1 C2 C3 C4 C5 C6 C7 C8 C9 C10]. split; [|cbn [with_handle with_flow b_flow b_next]; split; [rewrite <- (proj1 Q3); exact M1|apply Q3]].
    constructor; cbn [with_handle with_flow b_flow b_next b_route b_net b_active b_handle b_changes b_costs]; try assumption.
    + split; [apply C3|qlra].
    + intros v Iv. destruct (C5 v Iv) as (c & D & NCc). exists c. split; [exact D|]. eapply net_later; eauto.
    + intros v Iv. rewrite uniq_In in Iv. clear - FH Iv. induction FH as [|a h l l' H _ IH]; [destruct Iv|]. destruct Iv as [<-|Iv]; [exact H|apply IH, Iv].
Qed.

(** ** The constructor *)
Lemma init_safe : safe on (r_fb_init rnd on S) (fun b => bok b /\ f_phi (b_flow b) = 0 /\ b_next b = 0).
Proof.
  unfold r_fb_init. destruct (RoundedFlowProofs.init_tot rnd RND nw (so_net S r OK)) as (st & E & I & P0). fold nw. rewrite E. cbn [bind].
  destruct (all_total S r OK) as [imp EI]; [intros d Id; apply (SV d Id)|]. rewrite EI. cbn [bind].
  eapply safe_bind; [apply (safe_mapM on _ (fun v p => fst p = v /\ net_col (map fst (net_fns (s_coms S) v)) 0 (snd p)))|].
  - intros v _. eapply safe_bind; [apply frc_init_safe|].
    + apply Forall_forall. intros [i f] If. apply net_fns_In in If. destruct If as (c & EC & D). apply (proj2 FS c v f (nth_error_In _ _ EC)). apply dget_In, D.
    + intros c NCc. apply safe_ret. cbn [fst snd]. auto.
  - intros net F. apply safe_asr, safe_ret. cbn [b_flow b_next]. split; [|auto].
    pose proof (changes_nd S (so_src S r OK) (so_times S r OK)) as ND.
    constructor; cbn [b_flow b_next b_route b_net b_active b_handle b_changes b_costs].
    + exact I.
    + unfold r_flow_init in E. rewrite frc_init_nil in E. cbn [bind] in E. cbv zeta in E. apply ok_inj in E. subst st. constructor; cbn [f_out f_dq f_changes].
      * intros k c it E J. apply nth_error_In, repeat_spec in E. subst c. cbn [frc_empty c_chain] in J. destruct J as [<-|[]]. intros i [].
      * apply repeat_length.
      * apply dq_empty_ok.
      * intros e D ct v s H. rewrite dq_empty_pend in H. discriminate.
      * apply nd_empty.
      * intros e t H. rewrite kof_empty in H. congruence.
    + rewrite P0. split; [apply (fl_0 rnd RND)|qlra].
    + rewrite P0. apply (fl_0 rnd RND).
    + rewrite P0. clear - F. unfold node_ids. change (s_graph S) with g in F. induction F as [|v [w c] l l' [H1 H2] _ IH]; [intros ? []|]. cbn [fst snd] in *. subst w. intros u Iu. cbn [dget].
      destruct (Nat.eqb_spec v u) as [<-|NE]; [exists c; auto|]. destruct Iu as [->|Iu]; [congruence|apply IH, Iu].
    + split; [apply map_length|]. intros i c v l _ D. exfalso. revert D. clear. revert i. induction (s_coms S) as [|x l' IH]; intros [|i]; cbn [map nth dget]; try discriminate. apply IH.
    + intros v [].
    + apply init_nd, ND.
    + intros [[i v] t] k H. apply init_key in H; [|exact ND]. apply changes_iff in H; [|apply (so_src S r OK)]. destruct H as [-> (c & f & EC & D & T)]. apply dget_In in D. apply nth_error_In in EC. cbn [fst snd].
      split; [apply (so_nodes S r OK c v f EC D)|]. exists t. split; [reflexivity|]. eapply Forall_forall; [apply (proj2 FS c v f EC D)|exact T].
    + discriminate.
Qed.
End B.

(** ** The loop *)
Section Run.
Variables (rnd : Qc -> Qc) (on : bool) (S : setup) (r : Qc).
Hypotheses (RND : rounding rnd) (SUB : forall x y, float rnd x -> float rnd y -> x <> y -> rnd (x - y) <> 0) (OK : setup_ok S r) (SV : served S) (FS : float_setup rnd S).
Lemma answers_less n m : r_answers rnd on S n -> (m <= n)%nat -> r_answers rnd on S m.
Proof. intros H L k b c st K. apply H. lia. Qed.
Lemma run_safe n : r_answers rnd on S n -> safe on (r_fb_run rnd on S n) (bok rnd on S).
Proof.
  induction n as [|n IH]; intro A; cbn [r_fb_run].
  - eapply safe_weaken; [eapply init_safe; eassumption|]. intros b H. apply H.
  - destruct (IH (answers_less _ n A ltac:(lia))) as [(b & E & B)|[O E]]; rewrite E; [|right; auto]. cbn [bind]. eapply safe_weaken; [eapply step_safe; try eassumption|intros b' H; apply H].
    intros c st IC H1 H2 H3. apply (A n b c st ltac:(lia) E IC H1 H2 H3).
Qed.
Lemma run_bok n b : r_answers rnd on S n -> r_fb_run rnd on S n = Ok b -> bok rnd on S b.
Proof. intros A E. eapply safe_ok; [apply run_safe, A|exact E]. Qed.
Lemma run_step n b b' : r_answers rnd on S (Datatypes.S n) -> r_fb_run rnd on S n = Ok b -> r_fb_run rnd on S (Datatypes.S n) = Ok b' -> f_phi (b_flow b) <= f_phi (b_flow b') /\ b_next b' = next_after rnd r b.
Proof.
  intros A E E'. cbn [r_fb_run] in E'. rewrite E in E'. cbn [bind] in E'. assert (H : safe on (r_fb_step rnd on S b) (fun x => bok rnd on S x /\ f_phi (b_flow b) <= f_phi (b_flow x) /\ b_next x = next_after rnd r b)).
  { eapply step_safe; try eassumption; [|apply (run_bok n); [apply (answers_less _ n A); lia|exact E]]. intros c st IC H1 H2 H3. apply (A n b c st ltac:(lia) E IC H1 H2 H3). }
  apply (safe_ok on _ _ b' H E').
Qed.
Lemma run_init b : r_fb_run rnd on S 0 = Ok b -> bok rnd on S b /\ f_phi (b_flow b) = 0 /\ b_next b = 0.
Proof. intro E. exact (safe_ok on _ _ b (init_safe rnd on S r RND OK SV FS) E). Qed.
End Run.
