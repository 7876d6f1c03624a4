(** * C82-C84: the full-network regression predictor, the expanded one, and the generic batch_predict *)
From Verif Require Import Base Spec Arrays ArraysProofs PL PLProofs PLEval PLOps RC FRC FRCProofs FRCExact DynFlow DynRun DynEdge DynFlowProofs PropFlow PropFlow2 PropFlow3 PropPL Graph GraphSpec GraphProofs Dijkstra FlowBuilder Neighbors Predictors PredictorsProofs PredictorsProofs2 PropPredictors PropPredictors2 PropPredictors3 PropPredictors4 Predictors2 PropPredictors5.

(** ** C82 *)
(** It refuses every prediction time other than the flow's current time ... *)
Theorem C82_time : forall model L pt st loads, length (g_edges (w_graph (l_nw L))) = length (f_q st) -> get_edge_loads st = Ok loads -> f_phi st <> pt ->
  full_reg_predict model L pt st = Err ValueError.
Proof.
  intros model L pt st loads LE GL NE. unfold full_reg_predict. rewrite one_init. cbn [bind]. rewrite LE, Nat.eqb_refl. cbn [bind assertb]. rewrite GL. cbn [bind].
  destruct (qeqbP (f_phi st) pt) as [E|_]; [contradiction|reflexivity].
Qed.
Print Assumptions C82_time.
(** ... so that flow computations using it abort as soon as a prediction is
    asked for after its period has begun: one edge, rerouting every 10, inflow
    from time 1 on.  (With predictions every 1/2 the same computation goes on.) *)
Definition lz_net : network := mkNw (grun [GAdd 1 2]%nat) [1] [1] [mkCom [(1%nat, mkRC [0; 1] [0; 1] (Fin 0) PInf)] 2 0].
Definition lz_L : learned := mkL lz_net [true] [true] 1 1 1.
Definition lz (r : Qc) : setup := mkSetup lz_net [(0%nat, mkPred (full_reg_predict (fun _ => [0]) lz_L) false)] (Some r) (fun l => l).
Theorem C82_builder_refuted : (exists b, fb_run false (lz (qz 10)) 1 = Ok b /\ f_phi (b_flow b) = 1) /\ fb_run false (lz (qz 10)) 2 = Err ValueError /\
  exists b, fb_run false (lz (qr 1 2)) 6 = Ok b.
Proof.
  split; [|split].
  - assert (K : match fb_run false (lz (qz 10)) 1 with Ok b => qeqb (f_phi (b_flow b)) 1 | Err _ => false end = true) by (vm_compute; reflexivity).
    destruct (fb_run false (lz (qz 10)) 1) as [b|]; [|discriminate K]. exists b. split; [reflexivity|apply qeqb_true, K].
  - assert (K : match fb_run false (lz (qz 10)) 2 with Err ValueError => true | _ => false end = true) by (vm_compute; reflexivity).
    destruct (fb_run false (lz (qz 10)) 2) as [b|[]]; try discriminate K. reflexivity.
  - assert (K : match fb_run false (lz (qr 1 2)) 6 with Ok _ => true | Err _ => false end = true) by (vm_compute; reflexivity).
    destruct (fb_run false (lz (qr 1 2)) 6) as [b|]; [eauto|discriminate K].
Qed.
Print Assumptions C82_builder_refuted.

(** *** What the model is given *)
Fixpoint pairs {A} (rows : list (list A)) : list (list A) := match rows with a :: b :: r => (a ++ b) :: pairs r | _ => [] end.
Lemma chunks_pairs P n : forall rows, length rows = (2 * n)%nat -> (forall r, In r rows -> length r = P) -> chunks n (2 * P) (concat rows) = pairs rows.
Proof.
  induction n as [|n IH]; intros rows L H; [destruct rows; [reflexivity|discriminate L]|]. destruct rows as [|a [|b rows]]; try (cbn in L; lia).
  assert (LA : length a = P) by (apply H; left; reflexivity). assert (LB : length b = P) by (apply H; right; left; reflexivity).
  cbn [chunks concat pairs]. rewrite app_assoc. assert (W : length (a ++ b) = (2 * P)%nat) by (rewrite app_length; lia). f_equal.
  - rewrite <- W, firstn_app, firstn_all, Nat.sub_diag. cbn [firstn]. rewrite app_nil_r. reflexivity.
  - rewrite <- W, skipn_app, skipn_all, Nat.sub_diag. cbn [app skipn]. rewrite W. apply IH; [cbn in L; lia|intros r I; apply H; right; right; exact I].
Qed.
Lemma pairs_nth {A} n : forall (rows : list (list A)) i row, length rows = (2 * n)%nat -> nth_error (pairs rows) i = Some row ->
  exists a b, nth_error rows (2 * i) = Some a /\ nth_error rows (2 * i + 1) = Some b /\ row = a ++ b.
Proof.
  induction n as [|n IH]; intros rows i row L E; [destruct rows; [destruct i; discriminate E|discriminate L]|]. destruct rows as [|a [|b rows]]; try (cbn in L; lia).
  destruct i as [|i]; [cbn in E; injection E as <-; exists a, b; auto|]. cbn [pairs nth_error] in E. destruct (IH rows i row ltac:(cbn in L; lia) E) as [x [y [X [Y Z]]]].
  exists x, y. replace (2 * S i)%nat with (S (S (2 * i))) by lia. replace (S (S (2 * i)) + 1)%nat with (S (S (2 * i + 1))) by lia. cbn [nth_error]. auto.
Qed.
Lemma pairs_length {A} n : forall (rows : list (list A)), length rows = (2 * n)%nat -> length (pairs rows) = n.
Proof. induction n as [|n IH]; intros rows L; [destruct rows; [reflexivity|discriminate L]|]. destruct rows as [|a [|b rows]]; try (cbn in L; lia). cbn [pairs length]. rewrite IH by (cbn in L; lia). reflexivity. Qed.
Lemma sample_rows_ok fs times : Forall line fs -> sample_rows fs times = Ok (map (fun f => map (pl_at f) times) fs).
Proof.
  intro F. rewrite Forall_forall in F. unfold sample_rows. apply mapM_map. intros f I. apply mapM_map. intros t _. apply line_eval, F, I.
Qed.
(** the values of [f] at pt + past - 1, ..., pt + 1, pt *)
Definition ahead (past : nat) (pt : Qc) (f : PL) : list (res Qc) := map (fun k => pl_eval f (pt + qn (past - 1 - k))) (seq 0 past).

(** The data matrix has one row per edge, but row [i] consists of the
    functions number 2i and 2i+1 in the list of all queues followed by all
    loads; the rows of the mask are given to the model. *)
Theorem C82_full_net_partial : forall model L pt st loads preds, lines st -> get_edge_loads st = Ok loads -> Forall line loads -> length loads = length (f_q st) -> 0 <= l_step L ->
  full_reg_predict model L pt st = Ok preds ->
  f_phi st = pt /\ length preds = length (f_q st) /\ exists data, length data = length (f_q st) /\
  (forall i row, nth_error data i = Some row -> exists a b, nth_error (f_q st ++ loads) (2 * i) = Some a /\ nth_error (f_q st ++ loads) (2 * i + 1) = Some b /\
     map Ok row = ahead (l_past L) pt a ++ ahead (l_past L) pt b) /\
  forall e q cur cap, nth_error (f_q st) e = Some q -> pl_eval q pt = Ok cur -> 0 <= cur -> nth_error (w_cap (l_nw L)) e = Some cap -> 0 <= cap ->
    exists f m, nth_error preds e = Some f /\ nth_error (l_out L) e = Some m /\
      (m = false -> forall t, pl_eval f t = Ok 0) /\
      (m = true -> let out := block (l_future L) (count_true (firstn e (l_out L))) (model (pt :: concat (chosen (l_out L) data))) in
         length out = l_future L /\ admissible pt cur (l_step L * cap) f /\ tight pt cur 1 (l_step L * cap) out f).
Proof.
  intros model L pt st loads preds LN GL LL LE ST H. unfold full_reg_predict in H. rewrite one_init in H. cbn [bind] in H. apply bind_ok in H. destruct H as [u [A H]]. apply assertb_ok, Nat.eqb_eq in A. rewrite GL in H. cbn [bind] in H.
  destruct (qeqbP (f_phi st) pt) as [PE|PE]; [|discriminate H]. cbn [negb] in H. rewrite (sample_rows_ok _ _ (lines_Forall _ LN)) in H. cbn [bind] in H. rewrite (sample_rows_ok _ _ LL) in H. cbn [bind] in H.
  set (times := reg_input_times (l_past L) pt) in *. set (rows := map (fun f => map (pl_at f) times) (f_q st ++ loads)).
  assert (TL : length times = l_past L) by (unfold times, reg_input_times; rewrite map_length, seq_length; reflexivity).
  assert (LR : length rows = (2 * length (f_q st))%nat) by (unfold rows; rewrite map_length, app_length; lia).
  assert (CE : chunks (length (g_edges (w_graph (l_nw L)))) (2 * l_past L) (concat (map (fun f => map (pl_at f) times) (f_q st)) ++ concat (map (fun f => map (pl_at f) times) loads)) = pairs rows).
  { rewrite <- concat_app, <- map_app, A. apply chunks_pairs; [exact LR|]. intros r I. unfold rows in I. apply in_map_iff in I. destruct I as [f [<- _]]. rewrite map_length. exact TL. }
  rewrite CE in H. pose proof (pairs_length _ _ LR) as LP. destruct (Nat.eqb_spec (length (l_out L)) (length (pairs rows))) as [LO|LO]; [|discriminate H]. cbn [negb] in H.
  rewrite (select_ok (l_out L) (pairs rows)) in H by lia. cbn [bind] in H.
  split; [exact PE|]. rewrite PE in H. destruct (mapM_spec _ _ _ H) as [LPR N]. rewrite enum_length in LPR. split; [exact LPR|].
  exists (pairs rows). split; [exact LP|]. split.
  - intros i row E. destruct (pairs_nth _ _ _ _ LR E) as [a [b [X [Y ->]]]]. unfold rows in X, Y. rewrite nth_error_map in X, Y.
    destruct (nth_error (f_q st ++ loads) (2 * i)) as [fa|] eqn:FA; [|discriminate X]. destruct (nth_error (f_q st ++ loads) (2 * i + 1)) as [fb|] eqn:FB; [|discriminate Y]. injection X as <-. injection Y as <-.
    exists fa, fb. split; [reflexivity|]. split; [reflexivity|]. rewrite map_app. unfold ahead, times. rewrite reg_input_times_eq, !map_map.
    assert (LA : forall f, In f (f_q st ++ loads) -> line f). { intros f I. apply in_app_or in I. destruct I as [I|I]; [apply LN, I|]. rewrite Forall_forall in LL. apply LL, I. }
    f_equal; apply map_ext; intro k; symmetry; apply line_eval, LA; eauto using nth_error_In.
  - intros e q cur cap E C C0 NC CC. destruct (N e (e, q) (enum_nth _ _ _ E)) as [f [F HF]]. cbv beta iota in HF. apply bind_ok in HF. destruct HF as [m [M HF]].
    exists f, m. split; [exact F|]. split; [unfold fetch in M; destruct (nth_error (l_out L) e); congruence|]. destruct m; cbn [negb] in HF.
    + split; [discriminate|]. intros _. rewrite C in HF. cbn [bind] in HF. cbv zeta in HF |- *. set (k := count_true (firstn e (l_out L))) in *. set (o := model _) in *.
      unfold positive_part in HF. rewrite pyslice_map in HF. replace (pyslice o (k * l_future L) ((k + 1) * l_future L)) with (block (l_future L) k o) in HF by (unfold block, pyslice; f_equal; lia).
      rewrite nb_output_times_zip in HF. apply (edge_result L 1 pt cur _ e f cap (l_step L * cap) HF); auto; [|ring]. clear -ST CC. qnra.
    + split; [|discriminate]. intros _ t. injection HF as <-. rewrite (line_eval _ t (one_line _ _ _ _)), one_at. reflexivity.
Qed.
Print Assumptions C82_full_net_partial.

(** So the prediction for an edge may depend on edges outside the mask: two
    edges, of which only edge 0 is in the mask and has no flow at all.  Its
    predicted queue for time 2 is the queue of edge 1. *)
Definition mix_net : Net := mkNet [1; 1] [qz 10; qz 10].
Definition mix_nw : network := nw_add_edge (nw_add_edge nw_empty 1 2 (qz 10) 1) 1 2 (qz 10) 1.
Definition mix_L : learned := mkL mix_nw [] [true; false] 1 1 1.
Definition mix_calls (r : Qc) : list call := [CExtend [(1%nat, [(0%nat, r)])] 1].
Definition mix_model : list Qc -> list Qc := fun row => firstn 1 (skipn 2 row).
Definition mix_check (r : Qc) : bool :=
  match flow_run true mix_net (mix_calls r), flow_run false mix_net (mix_calls r) with
  | Ok _, Ok st => (qeqb (f_phi st) 1 && (match f_q st with q :: _ => qeqb (pl_last q) 0 && match pl_times q, pl_values q with [t], [v] => qeqb t 0 && qeqb v 0 | _, _ => false end && qeqb (pl_first q) 0 | [] => false end) &&
      is (at_edge (full_reg_predict mix_model mix_L 1 st) 0 (qz 2)) (r - 1))%bool
  | _, _ => false
  end.
Theorem C82_mask_refuted : forall r, r = qz 2 \/ r = qz 3 -> exists st q, flow_run false mix_net (mix_calls r) = Ok st /\ f_phi st = 1 /\ nth_error (f_q st) 0 = Some q /\
  pl_times q = [0] /\ pl_values q = [0] /\ pl_first q = 0 /\ pl_last q = 0 /\ at_edge (full_reg_predict mix_model mix_L 1 st) 0 (qz 2) = Ok (r - 1).
Proof.
  intros r HR. assert (K : mix_check r = true) by (destruct HR as [-> | ->]; vm_compute; reflexivity). clear HR. unfold mix_check in K.
  destruct (flow_run true mix_net (mix_calls r)) as [?|]; [|discriminate K]. destruct (flow_run false mix_net (mix_calls r)) as [st|]; [|discriminate K]. exists st.
  apply andb_prop in K. destruct K as [K K3]. apply andb_prop in K. destruct K as [K1 K2]. destruct (f_q st) as [|q qs] eqn:Q; [discriminate K2|]. exists q. cbn [nth_error].
  apply andb_prop in K2. destruct K2 as [K2 K6]. apply andb_prop in K2. destruct K2 as [K4 K5].
  destruct (pl_times q) as [|t [|]]; try discriminate K5. destruct (pl_values q) as [|v [|]]; try discriminate K5. apply andb_prop in K5. destruct K5 as [K5 K7].
  apply qeqb_true in K1, K4, K5, K6, K7. subst. split; [reflexivity|]. repeat (split; [assumption || reflexivity|]). apply is_true, K3.
Qed.
Print Assumptions C82_mask_refuted.

(** ** C83: the expanded regression predictors never return predictions *)
(** Predictors made by from_weka_models (ten models) always raise ... *)
Theorem C83_weka_refuted : forall coefs nw pt st, length coefs = 10%nat -> consistent (w_graph nw) -> lines st -> length (f_q st) = length (g_edges (w_graph nw)) -> f_q st <> [] ->
  weka_predict coefs nw pt st = Err AssertionError.
Proof.
  intros coefs nw pt st LC CS LN LE NE. unfold weka_predict. cbv zeta. rewrite LE, Nat.eqb_refl. cbn [bind assertb]. set (g := w_graph nw) in *.
  assert (STEP : forall p, In p (enum (f_q st)) -> (let '(e, old_queue) := p in
    r <- fetch (g_edges g) e ;; v0 <- pl_eval old_queue pt ;; vs <- mapM (weka_value g (f_q st) pt r old_queue) coefs ;;
    pl_init (map (fun k => pt + qn k) (seq 0 10)) (qmax 0 v0 :: vs) 0 0 NInf PInf) = Err AssertionError).
  { intros [e q] I. apply enum_in in I. cbn [fst snd] in I. assert (LQ : line q) by (apply LN, (nth_error_In _ _ I)).
    destruct (nth_error (g_edges g) e) as [r|] eqn:R; [|exfalso; apply nth_error_None in R; assert (e < length (f_q st))%nat by (apply nth_error_Some; congruence); lia].
    unfold fetch at 1. rewrite R. cbn [bind]. rewrite (line_eval q pt LQ). cbn [bind].
    destruct (mapM_total (weka_value g (f_q st) pt r q) coefs) as [vs VS].
    { intros [ks c] _. unfold weka_value. cbn [fst snd]. destruct (mapM_total (fun kc => o <- weka_input g (f_q st) pt r q (fst kc) ;; Ok (match o with Some x => x * snd kc | None => 0 end)) ks) as [ts ->]; [|cbn [bind]; eauto].
      intros [k x] _. cbn [fst snd]. assert (X : exists o, weka_input g (f_q st) pt r q k = Ok o); [|destruct X as [o ->]; cbn [bind]; eauto].
      destruct k as [i|k i]; cbn [weka_input].
      - destruct (i <=? 10)%nat; [|eauto]. rewrite (line_eval q _ LQ). cbn [bind]. eauto.
      - destruct (nth_error (outgoing g (e_from g r)) k) as [r'|] eqn:O; [|eauto]. destruct (i <=? 10)%nat; [|eauto].
        apply nth_error_In in O. rewrite (cs_out _ CS), filter_In in O. destruct O as [O _]. apply In_nth_error in O. destruct O as [j O]. rewrite (cs_ids _ CS j r' O). unfold fetch.
        destruct (nth_error (f_q st) j) as [q'|] eqn:Q'; [|exfalso; apply nth_error_None in Q'; assert (j < length (g_edges g))%nat by (apply nth_error_Some; congruence); lia].
        cbn [bind]. rewrite (line_eval q' _ (LN q' (nth_error_In _ _ Q'))). cbn [bind]. eauto. }
    rewrite VS. cbn [bind]. destruct (mapM_spec _ _ _ VS) as [LV _]. rewrite LC in LV.
    destruct (pl_init (map (fun k => pt + qn k) (seq 0 10)) (qmax 0 (pl_at q pt) :: vs) 0 0 NInf PInf) as [f|x] eqn:F; [|apply pl_init_err in F; rewrite F; reflexivity].
    exfalso. apply grid_of in F. destruct F as [F _]. cbn [length] in F. lia. }
  apply mapM_err.
  - destruct (f_q st) as [|q qs] eqn:Q; [contradiction|]. exists (0%nat, q). split; [left; reflexivity|]. exists AssertionError. apply (STEP (0%nat, q)). left. reflexivity.
  - intros p x I E. rewrite (STEP p I) in E. injection E as <-. reflexivity.
Qed.
Print Assumptions C83_weka_refuted.
(** ... and those made by from_scikit_model receive their arguments in the wrong order. *)
Theorem C83_scikit_refuted : forall model past future nw pt st, expanded_predict (scikit_closure model past future nw) pt st = Err TypeError.
Proof. reflexivity. Qed.
Print Assumptions C83_scikit_refuted.
Lemma concat_nth {A} P : forall (rows : list (list A)) k i row, (forall r, In r rows -> length r = P) -> nth_error rows k = Some row -> (i < P)%nat ->
  nth_error (concat rows) (k * P + i) = nth_error row i.
Proof.
  induction rows as [|r rows IH]; intros k i row L E I; [destruct k; discriminate E|]. assert (LR : length r = P) by (apply L; left; reflexivity). cbn [concat]. destruct k as [|k]; cbn [nth_error] in E.
  - injection E as ->. cbn [Nat.mul Nat.add]. apply nth_error_app1. lia.
  - rewrite nth_error_app2 by (cbn; lia). replace (S k * P + i - length r)%nat with (k * P + i)%nat by (cbn; lia). apply IH; auto. intros x X. apply L. right. exact X.
Qed.
Lemma concat_len {A} P : forall (rows : list (list A)), (forall r, In r rows -> length r = P) -> length (concat rows) = (length rows * P)%nat.
Proof. induction rows as [|r rows IH]; intro L; [reflexivity|]. cbn [concat length]. rewrite app_length, IH by (intros; apply L; right; assumption). rewrite (L r (or_introl eq_refl)). reflexivity. Qed.
Lemma past_time t past i : (i < past)%nat -> t + qz (Z.of_nat i - (Z.of_nat past - 1)) = t - qn (past - 1 - i).
Proof. intro I. rewrite <- qz_of_nat. replace (Z.of_nat i - (Z.of_nat past - 1))%Z with (0 - Z.of_nat (past - 1 - i))%Z by lia. rewrite qz_sub. change (qz 0) with (0 : Qc). ring. Qed.
(** Called with the queues and a time, the closure of from_scikit_model gives
    every edge the model's answer to a row of six blocks of [past] queue
    lengths at t - past + 1, ..., t: those of the edges entering the edge's
    tail, zero blocks up to five, and the edge's own; all zero: no queue. *)
Theorem C83_closure_spec : forall model past future nw qs t preds, scikit_closure model past future nw (AQueues qs) (AFloat t) = Ok preds ->
  length preds = length (g_edges (w_graph nw)) /\
  forall j e, nth_error (g_edges (w_graph nw)) j = Some e -> exists f q row, nth_error preds j = Some f /\ nth_error qs (e_id (w_graph nw) e) = Some q /\
    length row = (6 * past)%nat /\
    (forall k ie i, nth_error (incoming (w_graph nw) (e_from (w_graph nw) e)) k = Some ie -> (i < past)%nat ->
       exists q' v, nth_error qs (e_id (w_graph nw) ie) = Some q' /\ nth_error row (k * past + i) = Some v /\ pl_eval q' (t - qn (past - 1 - i)) = Ok v) /\
    (forall k i, (length (incoming (w_graph nw) (e_from (w_graph nw) e)) <= k)%nat -> (k < 5)%nat -> (i < past)%nat -> nth_error row (k * past + i) = Some 0) /\
    (forall i, (i < past)%nat -> exists v, nth_error row (5 * past + i) = Some v /\ pl_eval q (t - qn (past - 1 - i)) = Ok v) /\
    ((forall v, In v row -> v = 0) -> forall x, pl_eval f x = Ok 0) /\
    ((exists v, In v row /\ v <> 0) -> length (model row) = future /\ pl_eval f t = pl_eval q t /\
       forall i v, nth_error (model row) i = Some v -> pl_eval f (t + qn (S i)) = Ok v).
Proof.
  intros model past future nw qs t preds H. unfold scikit_closure in H. cbv zeta in H. set (g := w_graph nw) in *. destruct (mapM_spec _ _ _ H) as [LP N]. split; [exact LP|].
  intros j e E. destruct (N j e E) as [f [F HF]]. clear H N LP. apply bind_ok in HF. destruct HF as [cols [C HF]]. apply bind_ok in HF. destruct HF as [own [O HF]].
  apply bind_ok in O. destruct O as [q [Q O]]. destruct (mapM_spec _ _ _ C) as [LC NC]. destruct (mapM_spec _ _ _ O) as [LO NO]. rewrite map_length, seq_length in LO.
  assert (Q' : nth_error qs (e_id g e) = Some q) by (unfold fetch in Q; destruct (nth_error qs (e_id g e)); congruence).
  assert (RL : forall r, In r cols -> length r = past).
  { intros r I. apply In_nth_error in I. destruct I as [k K]. destruct (nth_error (incoming g (e_from g e)) k) as [ie|] eqn:IE.
    - destruct (NC k ie IE) as [r' [R' HR]]. apply bind_ok in HR. destruct HR as [q' [_ HR]]. destruct (mapM_spec _ _ _ HR) as [L _]. rewrite map_length, seq_length in L. congruence.
    - apply nth_error_None in IE. assert (k < length cols)%nat by (apply nth_error_Some; congruence). lia. }
  assert (TN : forall i, (i < past)%nat -> nth_error (map (fun k => t + qz (Z.of_nat k - (Z.of_nat past - 1))) (seq 0 past)) i = Some (t - qn (past - 1 - i))).
  { intros i I. rewrite nth_error_map, (nth_error_nth' (seq 0 past) 0%nat) by (rewrite seq_length; exact I). rewrite seq_nth by exact I. cbn [option_map Nat.add]. f_equal. apply past_time, I. }
  destruct (Nat.ltb_spec 5 (length cols)) as [|L5]; [discriminate HF|]. pose proof (concat_len past cols RL) as CL.
  set (row := concat cols ++ repeat 0 ((5 - length cols) * past) ++ own) in *.
  exists f, q, row. split; [exact F|]. split; [exact Q'|]. split; [unfold row; rewrite !app_length, repeat_length, CL, LO; nia|]. split; [|split; [|split; [|split]]].
  - intros k ie i IE I. destruct (NC k ie IE) as [r' [R' HR]]. apply bind_ok in HR. destruct HR as [q' [FQ HR]]. destruct (mapM_spec _ _ _ HR) as [_ NR]. destruct (NR i _ (TN i I)) as [v [V EV]].
    exists q', v. split; [unfold fetch in FQ; destruct (nth_error qs (e_id g ie)); congruence|]. split; [|exact EV]. unfold row.
    rewrite nth_error_app1; [rewrite (concat_nth past cols k i r'); auto|]. rewrite CL. assert (k < length cols)%nat by (apply nth_error_Some; congruence). nia.
  - intros k i K K5 I. unfold row. rewrite nth_error_app2 by (rewrite CL; nia). rewrite CL, nth_error_app1 by (rewrite repeat_length; nia).
    rewrite (nth_error_nth' _ 0) by (rewrite repeat_length; nia). rewrite nth_repeat. reflexivity.
  - intros i I. destruct (NO i _ (TN i I)) as [v [V EV]]. exists v. split; [|exact EV]. unfold row. rewrite nth_error_app2 by (rewrite CL; nia). rewrite CL, nth_error_app2 by (rewrite repeat_length; nia). rewrite repeat_length, <- V. f_equal. nia.
  - intros Z x. destruct (existsb _ row) eqn:X in HF.
    + apply existsb_exists in X. destruct X as [v [V X]]. rewrite (Z v V) in X. destruct (qeqbP 0 0) as [_|B]; [discriminate X|contradiction].
    + rewrite one_init in HF. injection HF as <-. rewrite (line_eval _ x (one_line _ _ _ _)), one_at. reflexivity.
  - intros [v [V NZ]]. destruct (existsb _ row) eqn:X in HF.
    + apply bind_ok in HF. destruct HF as [q2 [Q2 HF]]. rewrite Q in Q2. injection Q2 as <-. apply bind_ok in HF. destruct HF as [cur [CU HF]].
      destruct (grid_of _ _ _ _ HF) as [LG [LF G]]. split; [cbn in LG; lia|]. destruct G as [G1 [G2 _]]. split; [rewrite CU; apply G1; [reflexivity|qlra]|].
      intros i w W. destruct (nth_error (cur :: model row) i) as [v0|] eqn:V0; [|apply nth_error_None in V0; assert (i < length (model row))%nat by (apply nth_error_Some; congruence); cbn [length] in V0; lia].
      specialize (G2 i v0 w 1 V0 W ltac:(qlra) ltac:(qlra)). rewrite qn_S. replace (t + (qn i + 1)) with (t + qn i + 1) by ring. rewrite G2. f_equal. ring.
    + exfalso. assert (Y : existsb (fun v => negb (qeqb v 0)) row = true); [|rewrite X in Y; discriminate Y]. apply existsb_exists. exists v. split; [exact V|]. destruct (qeqbP v 0); [contradiction|reflexivity].
Qed.
Print Assumptions C83_closure_spec.
(** With the arguments the closure expects it does predict: one edge, queue 4 at time 1. *)
Definition sk_check : bool :=
  match flow_run true neg_net nb_calls with
  | Ok st => is (at_edge (scikit_closure (fun _ => [qz 7]) 2 1 one_net (AQueues (f_q st)) (AFloat 1)) 0 (qz 2)) (qz 7)
  | Err _ => false
  end.
Example C83_closure : sk_check = true.
Proof. vm_compute. reflexivity. Qed.

(** ** C84: Predictor.batch_predict *)
(** It raises a ValueError exactly for the empty list and for times after the
    flow's current time; otherwise it answers exactly when [predict] answers
    for every time, with the list of these answers in order. *)
Theorem C84_rejects : forall predict pts st, (pts = [] \/ exists t, In t pts /\ f_phi st < t) -> base_batch_predict predict pts st = Err ValueError.
Proof.
  intros predict pts st H. unfold base_batch_predict. destruct pts as [|p r]; [reflexivity|]. destruct H as [H|[t [I T]]]; [discriminate H|].
  assert (M : forall l a x, x = a \/ In x l -> x <= fold_left qmax l a).
  { clear. induction l as [|y l IH]; intros a x H; cbn [fold_left]; [destruct H as [->|[]]; qlra|]. destruct H as [->|[->|H]].
    - assert (a <= qmax a y) by (qmm; qlra). specialize (IH (qmax a y) (qmax a y) (or_introl eq_refl)). qlra.
    - assert (x <= qmax a x) by (qmm; qlra). specialize (IH (qmax a x) (qmax a x) (or_introl eq_refl)). qlra.
    - apply IH. right. exact H. }
  destruct (qltbP (f_phi st) (fold_left qmax r p)) as [_|N]; [reflexivity|]. exfalso. apply N. specialize (M r p t). assert (t <= fold_left qmax r p) by (apply M; destruct I as [->|I]; auto). qlra.
Qed.
Print Assumptions C84_rejects.
Theorem C84_accepts : forall predict pts st, pts <> [] -> (forall t, In t pts -> t <= f_phi st) ->
  (forall preds, base_batch_predict predict pts st = Ok preds <-> map Ok preds = map (fun t => predict t st) pts) /\
  ((exists preds, base_batch_predict predict pts st = Ok preds) <-> forall t, In t pts -> exists p, predict t st = Ok p).
Proof.
  intros predict pts st NE LE. assert (E : base_batch_predict predict pts st = mapM (fun t => predict t st) pts).
  { unfold base_batch_predict. destruct pts as [|p r]; [contradiction|].
    assert (M : forall l a, a <= f_phi st -> (forall x, In x l -> x <= f_phi st) -> fold_left qmax l a <= f_phi st).
    { clear. induction l as [|y l IH]; intros a A H; cbn [fold_left]; [exact A|]. apply IH; [|intros; apply H; right; assumption]. pose proof (H y (or_introl eq_refl)). qmm; qlra. }
    destruct (qltbP (f_phi st) (fold_left qmax r p)) as [N|_]; [|reflexivity]. exfalso. assert (fold_left qmax r p <= f_phi st) by (apply M; [apply LE; left; reflexivity|intros; apply LE; right; assumption]). qlra. }
  rewrite E. split.
  - intro preds. split; [apply mapM_Ok|]. clear. revert preds. induction pts as [|t pts IH]; intros [|p preds] H; try discriminate H; [reflexivity|]. cbn [map] in H. injection H as H1 H2. cbn [mapM]. rewrite <- H1. cbn [bind]. rewrite (IH preds H2). reflexivity.
  - split; [intros [preds H] t I|apply mapM_total]. apply In_nth_error in I. destruct I as [i I]. destruct (sim_nth _ _ _ _ _ H I) as [b [_ B]]. eauto.
Qed.
Print Assumptions C84_accepts.
(** Both cases for the constant predictor on a flow with phi = 1. *)
Definition bb_check : bool :=
  match flow_run true neg_net nb_calls with
  | Ok st => (match base_batch_predict constant_predict [0; qr 1 2; 1] st with Ok [a; b; c] => is (at_edge (Ok b) 0 0) (qz 2) && is (at_edge (Ok c) 0 0) (qz 4) | _ => false end &&
      match base_batch_predict constant_predict [0; qz 2] st with Err ValueError => true | _ => false end)%bool
  | Err _ => false
  end.
Example C84_example : bb_check = true.
Proof. vm_compute. reflexivity. Qed.
