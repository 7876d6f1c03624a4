(** * C67: predictions give FIFO travel times *)
From Verif Require Import Base Spec Arrays ArraysProofs PL PLProofs PLEval RC FRC FRCProofs FRCExact DynFlow DynRun DynEdge DynFlowProofs PropFlow PropFlow2 Graph GraphSpec GraphProofs PQ PQSpec Dijkstra DijkstraSpec DijkstraProofs DijkstraProofs2 FlowBuilder Neighbors Predictors PredictorsProofs PredictorsProofs2 PropPredictors PropPredictors2.

(** ** Vocabulary *)
(** A prediction for one edge that routing can work with: a function on the
    whole line without breakpoints before the prediction time, [admissible]
    (PropPredictors2.v: current queue until [pt], non-negative, falling by at
    most the capacity per unit of time). *)
Definition good_prediction (pt cur cap : Qc) (f : PL) : Prop :=
  line f /\ (forall x, In x (pl_times f) -> pt <= x) /\ admissible pt cur cap f.
(** [c e t] is the travel time of edge [e] at time [t] according to the
    predictions: tau + (predicted queue)/capacity. *)
Definition predicted_time (nw : network) (preds : list PL) (c : nat -> Qc -> Qc) : Prop :=
  forall e i, nth_error (g_edges (w_graph nw)) i = Some e -> exists f cap tau, nth_error preds i = Some f /\ nth_error (w_cap nw) i = Some cap /\ nth_error (w_tau nw) i = Some tau /\
    forall t, exists y, pl_eval f t = Ok y /\ c e t = tau + y / cap.
(** A network as its constructor builds it. *)
Record sound_network (nw : network) : Prop := {
  sn_graph : consistent (w_graph nw);
  sn_cap : length (w_cap nw) = length (g_edges (w_graph nw)); sn_tau : length (w_tau nw) = length (g_edges (w_graph nw));
  sn_pos : forall i c, nth_error (w_cap nw) i = Some c -> 0 < c; sn_nn : forall i c, nth_error (w_tau nw) i = Some c -> 0 <= c }.

(** ** Lemmas *)
Lemma interp_affine tau c pts : c <> 0 -> pts <> [] -> forall s l t,
  interp (s / c) (l / c) (map (fun p => (fst p, tau + snd p / c)) pts) t = tau + interp s l pts t / c.
Proof.
  intros C N. induction pts as [|[t0 v0] r IH]; intros s l t; [contradiction N; reflexivity|]. destruct r as [|[t1 v1] r].
  - cbn [map fst snd interp]. destruct (qleb t t0); field; exact C.
  - assert (E : forall a b, interp a b (map (fun p => (fst p, tau + snd p / c)) ((t0, v0) :: (t1, v1) :: r)) t =
       if qleb t t0 then tau + v0 / c + (t - t0) * a else interp ((tau + v1 / c - (tau + v0 / c)) / (t1 - t0)) b (map (fun p => (fst p, tau + snd p / c)) ((t1, v1) :: r)) t) by reflexivity.
    rewrite E. clear E. assert (E : interp s l ((t0, v0) :: (t1, v1) :: r) t = if qleb t t0 then v0 + (t - t0) * s else interp ((v1 - v0) / (t1 - t0)) l ((t1, v1) :: r) t) by reflexivity.
    rewrite E. clear E. destruct (qleb t t0); [field; exact C|].
    replace ((tau + v1 / c - (tau + v0 / c)) / (t1 - t0)) with ((v1 - v0) / (t1 - t0) / c).
    + apply IH. discriminate.
    + unfold Qcdiv. ring.
Qed.
Lemma combine_map_r {A B C} (g : B -> C) (l : list A) l' : combine l (map g l') = map (fun p => (fst p, g (snd p))) (combine l l').
Proof. revert l'. induction l as [|x l IH]; intros [|y l']; cbn; try reflexivity. f_equal. apply IH. Qed.
Lemma edge_cost_ok nw time ps e f cap tau : nth_error ps e = Some f -> nth_error (n_cap nw) e = Some cap -> nth_error (n_tau nw) e = Some tau -> 0 < cap ->
  line f -> (forall x, In x (pl_times f) -> time <= x) ->
  exists c, edge_cost nw time ps e = Ok c /\ forall t, time <= t -> pl_eval c t = Ok (tau + pl_at f t / cap).
Proof.
  intros P C T CP LF TS. unfold edge_cost, fetch. rewrite P, C, T. cbn [bind].
  assert (D : forall v, pydiv v cap = Ok (v / cap)) by (intro v; unfold pydiv; destruct (qeqbP cap 0) as [->|]; [exfalso; qlra|reflexivity]).
  rewrite (mapM_map _ (fun v => tau + v / cap)) by (intros v _; rewrite D; reflexivity). cbn [bind]. rewrite !D. cbn [bind].
  set (g := mkPL (pl_times f) (map (fun v => tau + v / cap) (pl_values f)) (pl_first f / cap) (pl_last f / cap) (Fin time) PInf).
  assert (V : valid g). { destruct LF as [[V1 V2 V3 V4] _]. constructor; cbn [g pl_times pl_values pl_lo pl_hi]; auto; [rewrite map_length; exact V1|]. intros x I. split; [apply TS, I|exact Logic.I]. }
  exists g. split; [exact (pl_init_ok g V)|]. intros t Ht. rewrite (eval_at g t V) by (split; cbn [g pl_lo pl_hi]; [exact Ht|exact Logic.I]). f_equal.
  unfold pl_at, PLProofs.pts. cbn [g pl_times pl_values pl_first pl_last]. rewrite combine_map_r. apply interp_affine; [qlra|].
  destruct LF as [[V1 V2 _ _] _]. destruct (pl_times f); [contradiction V2; reflexivity|]. destruct (pl_values f); [discriminate V1|discriminate].
Qed.
Lemma div_mono a b c : 0 < c -> a <= b -> a / c <= b / c.
Proof. intros C L. assert (A : a / c * c = a) by (field; qlra). assert (B : b / c * c = b) by (field; qlra). set (x := a / c) in *. set (y := b / c) in *. clearbody x y. qnra. Qed.

(** ** C67 *)
Theorem C67_costs : forall nw preds pt, sound_network nw -> length preds = length (g_edges (w_graph nw)) ->
  (forall i f cap, nth_error preds i = Some f -> nth_error (w_cap nw) i = Some cap -> exists cur, good_prediction pt cur cap f) ->
  exists costs c, costs_from_preds nw preds pt = Ok costs /\ predicted_time nw preds c /\
    fifo_costs (w_graph nw) pt (map pl_eval costs) c /\
    forall i e tau t, nth_error (g_edges (w_graph nw)) i = Some e -> nth_error (w_tau nw) i = Some tau -> tau <= c e t.
Proof.
  intros nw preds pt [CS LC LT CP TP] LP G. set (g := w_graph nw) in *.
  pose (c := fun e t => nth (e_id g e) (w_tau nw) 0 + pl_at (nth (e_id g e) preds queue0) t / nth (e_id g e) (w_cap nw) 1).
  assert (FACT : forall i, (i < length (g_edges g))%nat -> exists e f cap tau cur, nth_error (g_edges g) i = Some e /\ e_id g e = i /\ nth_error preds i = Some f /\ nth_error (w_cap nw) i = Some cap /\ nth_error (w_tau nw) i = Some tau /\
     0 < cap /\ 0 <= tau /\ good_prediction pt cur cap f /\ forall t, c e t = tau + pl_at f t / cap).
  { intros i L. destruct (nth_error (g_edges g) i) as [e|] eqn:E; [|exfalso; apply nth_error_None in E; lia]. destruct (nth_error preds i) as [f|] eqn:F; [|exfalso; apply nth_error_None in F; lia].
    destruct (nth_error (w_cap nw) i) as [cap|] eqn:C; [|exfalso; apply nth_error_None in C; lia]. destruct (nth_error (w_tau nw) i) as [tau|] eqn:T; [|exfalso; apply nth_error_None in T; lia].
    destruct (G i f cap F C) as [cur GP]. exists e, f, cap, tau, cur. pose proof (cs_ids _ CS i e E) as ID. repeat (split; [assumption||reflexivity|]). split; [apply (CP i cap C)|]. split; [apply (TP i tau T)|]. split; [exact GP|].
    intro t. unfold c. rewrite ID, (nth_error_nth _ _ 0 T), (nth_error_nth _ _ 1 C), (nth_error_nth _ _ queue0 F). reflexivity. }
  destruct (mapM_total (edge_cost (mkNet (w_cap nw) (w_tau nw)) pt preds) (seq 0 (length (g_edges g)))) as [costs M].
  { intros i I. apply in_seq in I. destruct (FACT i ltac:(lia)) as (e & f & cap & tau & cur & E & ID & F & C & T & CP0 & TP0 & [G1 [G2 _]] & _).
    destruct (edge_cost_ok (mkNet (w_cap nw) (w_tau nw)) pt preds i f cap tau F C T CP0 G1 G2) as [k [K _]]. exists k. exact K. }
  assert (VAL : forall i e t, nth_error (g_edges g) i = Some e -> exists k, nth_error costs i = Some k /\ (pt <= t -> pl_eval k t = Ok (c e t))).
  { intros i e t E. assert (L : (i < length (g_edges g))%nat) by (apply nth_error_Some; congruence). destruct (FACT i L) as (e' & f & cap & tau & cur & E' & ID & F & C & T & CP0 & TP0 & [G1 [G2 _]] & CE).
    rewrite E in E'. injection E' as <-. destruct (mapM_spec _ _ _ M) as [_ NN]. destruct (NN i i) as [k [K HK]]. { rewrite (nth_error_nth' _ 0%nat) by (rewrite seq_length; exact L). rewrite seq_nth by exact L. reflexivity. }
    exists k. split; [exact K|]. intro Ht. destruct (edge_cost_ok (mkNet (w_cap nw) (w_tau nw)) pt preds i f cap tau F C T CP0 G1 G2) as [k' [K' EV]]. rewrite HK in K'. apply ok_inj in K'. subst k'. rewrite (EV t Ht), CE. reflexivity. }
  exists costs, c. split; [exact M|]. split; [|split].
  - intros e i E. assert (L : (i < length (g_edges g))%nat) by (apply nth_error_Some; unfold g in *; congruence). destruct (FACT i L) as (e' & f & cap & tau & cur & E' & ID & F & C & T & CP0 & TP0 & [G1 _] & CE).
    fold g in E. rewrite E in E'. injection E' as <-. exists f, cap, tau. repeat (split; [assumption|]). intro t. exists (pl_at f t). split; [apply line_eval, G1|apply CE].
  - intros e I. apply In_nth_error in I. destruct I as [i E]. assert (L : (i < length (g_edges g))%nat) by (apply nth_error_Some; unfold g in *; congruence).
    destruct (FACT i L) as (e' & f & cap & tau & cur & E' & ID & F & C & T & CP0 & TP0 & [G1 [G2 [A1 [A2 A3]]]] & CE). rewrite E in E'. injection E' as <-.
    destruct (VAL i e 0 E) as [k [K _]]. exists (pl_eval k). rewrite ID. split; [apply map_nth_error, K|]. split.
    + intros t Ht. destruct (VAL i e t E) as [k' [K' V]]. rewrite K in K'. injection K' as <-. split; [apply V, Ht|]. rewrite CE. destruct (A2 t) as [y [Y Y0]]. rewrite (line_eval f t G1) in Y. apply ok_inj in Y. subst y.
      pose proof (div_mono 0 (pl_at f t) cap CP0 Y0) as DM. replace (0 / cap) with 0 in DM by (field; qlra). qlra.
    + intros s t S ST. rewrite !CE. destruct (A3 s t ST) as [x [y [X [Y XY]]]]. rewrite (line_eval f s G1) in X. rewrite (line_eval f t G1) in Y. apply ok_inj in X, Y. subst x y.
      pose proof (div_mono _ _ cap CP0 XY) as DM. replace ((pl_at f s - cap * (t - s)) / cap) with (pl_at f s / cap - (t - s)) in DM by (field; qlra). qlra.
  - intros i e tau t E T. assert (L : (i < length (g_edges g))%nat) by (apply nth_error_Some; unfold g in *; congruence).
    destruct (FACT i L) as (e' & f & cap & tau' & cur & E' & ID & F & C & T' & CP0 & TP0 & [G1 [G2 [A1 [A2 A3]]]] & CE). fold g in E. rewrite E in E'. injection E' as <-. rewrite T in T'. injection T' as <-.
    rewrite CE. destruct (A2 t) as [y [Y Y0]]. rewrite (line_eval f t G1) in Y. apply ok_inj in Y. subst y.
    pose proof (div_mono 0 (pl_at f t) cap CP0 Y0) as DM. replace (0 / cap) with 0 in DM by (field; qlra). qlra.
Qed.
Print Assumptions C67_costs.
(** ... hence every time-dependent search with these costs succeeds. *)
Theorem C67_search : forall nw preds pt source sink relevant, sound_network nw -> length preds = length (g_edges (w_graph nw)) ->
  (forall i f cap, nth_error preds i = Some f -> nth_error (w_cap nw) i = Some cap -> exists cur, good_prediction pt cur cap f) ->
  In source (node_ids (w_graph nw)) ->
  exists costs c r, costs_from_preds nw preds pt = Ok costs /\ predicted_time nw preds c /\
    dynamic_dijkstra (w_graph nw) pt source sink relevant (map pl_eval costs) = Ok r /\
    forall v t, dget (dd_arrival r) v = Some t -> arrives (w_graph nw) pt source relevant c v t /\ forall s, arrives (w_graph nw) pt source relevant c v s -> t <= s.
Proof.
  intros nw preds pt source sink relevant SN LP G S. destruct (C67_costs nw preds pt SN LP G) as [costs [c [E [P [F _]]]]].
  destruct (dynamic_dijkstra_spec (w_graph nw) pt source sink relevant (map pl_eval costs) c (sn_graph _ SN) S F) as (r & ER & [D1 D2 D3 _ _]).
  exists costs, c, r. auto.
Qed.
Print Assumptions C67_search.

(** ** The predictors return good predictions *)
Lemma good_const pt v cap : 0 <= v -> 0 <= cap -> good_prediction pt v cap (mkPL [pt] [v] 0 0 NInf PInf).
Proof.
  intros V C. assert (EV : forall t, pl_eval (mkPL [pt] [v] 0 0 NInf PInf) t = Ok v) by (intro t; rewrite (line_eval _ t (one_line _ _ _ _)), one_at; reflexivity).
  split; [apply one_line|]. split; [intros x [<-|[]]; qlra|]. split; [intros t _; apply EV|]. split; [intro t; exists v; split; [apply EV|exact V]|].
  intros s t ST. exists v, v. split; [apply EV|]. split; [apply EV|]. qnra.
Qed.
Theorem C67_constant : forall pt st preds, lines st -> constant_predict pt st = Ok preds ->
  forall e q cur cap, nth_error (f_q st) e = Some q -> pl_eval q pt = Ok cur -> 0 <= cur -> 0 <= cap ->
  exists f, nth_error preds e = Some f /\ good_prediction pt cur cap f.
Proof.
  intros pt st preds LN H e q cur cap E C C0 CP. destruct (mapM_spec _ _ _ H) as [_ N]. destruct (N e q E) as [f [F HF]]. exists f. split; [exact F|].
  rewrite C in HF. cbn [bind] in HF. rewrite one_init in HF. injection HF as <-. apply good_const; assumption.
Qed.
Print Assumptions C67_constant.
Theorem C67_zero : forall pt st preds, zero_predict pt st = Ok preds -> forall e f cap, nth_error preds e = Some f -> 0 <= cap -> good_prediction pt 0 cap f.
Proof.
  intros pt st preds H e f cap E CP. unfold zero_predict in H. rewrite one_init in H. cbn [bind] in H. injection H as <-. apply nth_error_In, in_map_iff in E. destruct E as [q [<- _]]. apply good_const; [qlra|exact CP].
Qed.
Print Assumptions C67_zero.
Theorem C67_full_net : forall model L pt st loads preds, usable L st loads -> full_predict model L pt st = Ok preds ->
  forall e q cur cap, nth_error (f_q st) e = Some q -> pl_eval q pt = Ok cur -> 0 <= cur -> nth_error (w_cap (l_nw L)) e = Some cap -> 0 <= cap ->
  exists f cur', nth_error preds e = Some f /\ good_prediction pt cur' cap f /\ (nth_error (l_out L) e = Some true -> cur' = cur).
Proof.
  intros model L pt st loads preds U H e q cur cap E C C0 NC CC. pose proof (C53_full_net model L pt st loads preds U H) as [_ [row [_ R]]]. destruct (R e q cur cap E C C0 NC CC) as [f [m [F [M [RF RT]]]]].
  rewrite (full_predict_eq _ _ _ _ _ U) in H. destruct (mapM_spec _ _ _ H) as [_ N]. destruct (N e (e, q) (enum_nth _ _ _ E)) as [f' [F' HF]]. rewrite F in F'. injection F' as <-.
  unfold one_edge in HF. unfold fetch in HF. rewrite M in HF. cbn [bind] in HF. destruct m; cbn [negb] in HF.
  - exists f, cur. split; [exact F|]. split; [|auto]. rewrite C in HF. cbn [bind] in HF. unfold learned_edge in HF. apply bind_ok in HF. destruct HF as [cap' [_ HF]]. apply pl_init_line in HF. destruct HF as [EF LF].
    split; [exact LF|]. split; [|apply (RT eq_refl)]. intros x I. rewrite EF in I. cbn [pl_times] in I. rewrite output_times_zip in I. apply (proj2 (zip_times_sorted _ _ (us_step _ _ _ U) pt) x I).
  - exists f, 0. split; [exact F|]. injection HF as <-. split; [apply good_const; [qlra|exact CC]|]. rewrite M. discriminate.
Qed.
Print Assumptions C67_full_net.

(** the linear predictors, where their case distinction is right *)
Lemma good_extrapolate h pt c s cap f : 0 <= c -> 0 <= cap -> eps < h -> - cap <= s -> safe h c s -> extrapolate h pt c s = Ok f -> good_prediction pt c cap f.
Proof.
  intros C0 CC HH SL SF H. assert (E0 : 0 < eps) by (apply qltb_true; vm_compute; reflexivity). pose proof (predicts_ok h pt c s f C0 H) as [P1 [P2 _]]. specialize (P2 SF). destruct (extrapolate_ok h pt c s f C0 H) as [LF _].
  assert (TS : forall x, In x (pl_times f) -> pt <= x).
  { unfold extrapolate in H. destruct (qltb (c + h * s) 0 && qltb eps c)%bool.
    - apply bind_ok in H. destruct H as [d [_ H]]. apply pl_init_line in H. destruct H as [-> [V _]]. pose proof (v_gap _ V) as G. cbn [pl_times] in *. inversion G as [|? ? _ G2]; subst. inversion G2 as [|? ? G3 _]; subst. unfold gap in G3. intros x [<-|[<-|[]]]; qlra.
    - apply pl_init_line in H. destruct H as [-> _]. cbn [pl_times]. intros x [<-|[<-|[]]]; qlra. }
  split; [exact LF|]. split; [exact TS|]. split; [exact P1|]. split.
  - intro t. destruct (Qclt_le_dec t pt) as [Q|Q]; [exists c; split; [apply P1; qlra|exact C0]|]. eexists. split; [apply P2, Q|]. apply qmax_nonneg.
  - intros a b AB.
    assert (VAL : forall t, pl_eval f t = Ok (qmax 0 (c + s * qmin (qmax 0 (t - pt)) h))).
    { intro t. destruct (Qclt_le_dec t pt) as [Q|Q].
      - rewrite P1 by qlra. f_equal. destruct (qmax_spec 0 (t - pt)) as [[X ->]|[X ->]]; [exfalso; qlra|]. destruct (qmin_spec 0 h) as [[Y ->]|[Y ->]]; [exfalso; qlra|]. destruct (qmax_spec 0 (c + s * 0)) as [[Z ->]|[Z ->]]; qlra.
      - rewrite P2 by exact Q. unfold extrapolation. f_equal. f_equal. destruct (qmax_spec 0 (t - pt)) as [[X ->]|[X ->]]; [reflexivity|]. replace (t - pt) with 0 by qlra. reflexivity. }
    eexists. eexists. split; [apply VAL|]. split; [apply VAL|].
    set (x := qmin (qmax 0 (a - pt)) h). set (y := qmin (qmax 0 (b - pt)) h).
    assert (XY : x <= y /\ y - x <= b - a).
    { unfold x, y. destruct (qmax_spec 0 (a - pt)) as [[A ->]|[A ->]], (qmax_spec 0 (b - pt)) as [[B ->]|[B ->]];
      repeat match goal with |- context [qmin ?u h] => destruct (qmin_spec u h) as [[? ->]|[? ->]] end; split; qlra. }
    clearbody x y. destruct XY as [X1 X2]. assert (D : s * x - cap * (b - a) <= s * y) by qnra.
    destruct (qmax_spec 0 (c + s * x)) as [[A ->]|[A ->]], (qmax_spec 0 (c + s * y)) as [[B ->]|[B ->]]; qnra.
Qed.
Lemma run_falls nw calls st e u t : net_ok nw -> valid_run nw calls -> clean_run nw calls -> flow_run false nw calls = Ok st -> (e < length (n_cap nw))%nat -> u <= t -> t <= f_phi st ->
  pl_at (queue_of st e) u - cap_of nw e * (t - u) <= pl_at (queue_of st e) t /\ 0 <= pl_at (queue_of st e) t.
Proof.
  intros NW V C R L UT TP. destruct (edge_full nw calls st e NW (clean_full nw calls st NW V C R) L) as [g [B [CP _]]].
  assert (NN : forall x, x <= f_phi st -> 0 <= pl_at (queue_of st e) x).
  { intros x X. destruct (qlebP x 0) as [Q|Q]; [pose proof (b_q0 _ _ _ _ _ B x Q) as Z; cbn [edge_of e_q] in Z; rewrite Z; qlra|]. apply (b_nn _ _ _ _ _ B x); [qlra|exact X]. }
  split; [|apply NN, TP]. destruct (qlebP u 0) as [Q|Q].
  - pose proof (b_q0 _ _ _ _ _ B u Q) as Z. cbn [edge_of e_q] in Z. rewrite Z. specialize (NN t TP). qnra.
  - assert (U0 : 0 <= u) by qlra. pose proof (b_fifo _ _ _ _ _ B u t U0 UT TP) as FF. unfold ex in FF. cbn [edge_of e_q] in FF.
    set (a := pl_at (queue_of st e) u) in *. set (b := pl_at (queue_of st e) t) in *. set (cap := cap_of nw e) in *.
    assert (AE : a / cap * cap = a) by (field; qlra). assert (BE : b / cap * cap = b) by (field; qlra). set (x := a / cap) in *. set (y := b / cap) in *. clearbody x y a b. qnra.
Qed.
Lemma run_left_slope nw calls st e pt s : net_ok nw -> valid_run nw calls -> clean_run nw calls -> flow_run false nw calls = Ok st -> (e < length (n_cap nw))%nat -> pt <= f_phi st ->
  left_slope (queue_of st e) pt s -> - cap_of nw e <= s.
Proof.
  intros NW V C R L TP [d [v [D H]]]. assert (LN : line (queue_of st e)). { destruct (run_lines nw calls st NW V C R) as [LN [LQ _]]. apply LN, nth_In. rewrite LQ. exact L. }
  destruct (run_falls nw calls st e (pt - d) pt NW V C R L ltac:(qlra) TP) as [F _].
  pose proof (H pt ltac:(qlra) ltac:(qlra)) as E1. pose proof (H (pt - d) ltac:(qlra) ltac:(qlra)) as E2. rewrite (line_eval _ pt LN) in E1. rewrite (line_eval _ (pt - d) LN) in E2. apply ok_inj in E1, E2. rewrite E1, E2 in F. qnra.
Qed.
Theorem C67_linear_partial : forall nw calls st h pt preds, net_ok nw -> valid_run nw calls -> clean_run nw calls -> flow_run false nw calls = Ok st ->
  pt <= f_phi st -> eps < h -> linear_predict h pt st = Ok preds ->
  forall e cur s, (e < length (n_cap nw))%nat -> pl_eval (queue_of st e) pt = Ok cur -> left_slope (queue_of st e) pt s -> safe h cur s ->
  exists f, nth_error preds e = Some f /\ good_prediction pt cur (cap_of nw e) f.
Proof.
  intros nw calls st h pt preds NW V C R TP HH H e cur s L EC LS SF. destruct (run_lines nw calls st NW V C R) as [LN [LQ _]].
  assert (NQ : nth_error (f_q st) e = Some (queue_of st e)) by (apply nth_error_nth'; rewrite LQ; exact L). assert (LL := LN _ (nth_error_In _ _ NQ)).
  destruct (mapM_spec _ _ _ H) as [_ N]. destruct (N e _ NQ) as [f [F HF]]. exists f. split; [exact F|]. destruct (linear_edge h pt _ f LL HF) as [s' [LS' X]]. rewrite (left_slope_unique _ _ _ _ LS' LS) in X.
  rewrite (line_eval _ _ LL) in EC. apply ok_inj in EC. rewrite EC in X. destruct (run_falls nw calls st e pt pt NW V C R L ltac:(qlra) TP) as [_ P]. rewrite EC in P.
  replace (qmax 0 cur) with cur in X by (destruct (qmax_spec 0 cur) as [[Y ->]|[Y ->]]; qlra).
  apply (good_extrapolate h pt cur s _ f P); auto; [destruct (getcap nw NW e L); qlra|apply (run_left_slope nw calls st e pt s); assumption].
Qed.
Print Assumptions C67_linear_partial.
Theorem C67_regularised_partial : forall nw calls st h delta pt preds, net_ok nw -> valid_run nw calls -> clean_run nw calls -> flow_run false nw calls = Ok st ->
  pt <= f_phi st -> eps < h -> 0 < delta -> reg_linear_predict h delta pt st = Ok preds ->
  forall e cur old, (e < length (n_cap nw))%nat -> pl_eval (queue_of st e) pt = Ok cur -> pl_eval (queue_of st e) (pt - delta) = Ok old -> safe h cur ((cur - old) / delta) ->
  exists f, nth_error preds e = Some f /\ good_prediction pt cur (cap_of nw e) f.
Proof.
  intros nw calls st h delta pt preds NW V C R TP HH DP H e cur old L EC EO SF. destruct (run_lines nw calls st NW V C R) as [LN [LQ _]].
  assert (NQ : nth_error (f_q st) e = Some (queue_of st e)) by (apply nth_error_nth'; rewrite LQ; exact L). assert (LL := LN _ (nth_error_In _ _ NQ)).
  destruct (mapM_spec _ _ _ H) as [_ N]. destruct (N e _ NQ) as [f [F HF]]. exists f. split; [exact F|]. cbv beta in HF. rewrite EC, EO in HF. cbn [bind] in HF.
  rewrite (line_eval _ _ LL) in EC. apply ok_inj in EC. rewrite (line_eval _ _ LL) in EO. apply ok_inj in EO.
  destruct (run_falls nw calls st e pt pt NW V C R L ltac:(qlra) TP) as [_ P]. destruct (run_falls nw calls st e (pt - delta) pt NW V C R L ltac:(qlra) TP) as [FA _].
  destruct (run_falls nw calls st e (pt - delta) (pt - delta) NW V C R L ltac:(qlra) ltac:(qlra)) as [_ PO]. rewrite EC in P, FA. rewrite EO in FA, PO.
  replace (qmax 0 cur) with cur in HF by (destruct (qmax_spec 0 cur) as [[Y ->]|[Y ->]]; qlra). replace (qmax 0 old) with old in HF by (destruct (qmax_spec 0 old) as [[Y ->]|[Y ->]]; qlra).
  unfold pydiv in HF. destruct (qeqbP delta 0) as [->|NZ]; [exfalso; qlra|]. cbn [bind] in HF.
  apply (good_extrapolate h pt cur ((cur - old) / delta) _ f P); auto; [destruct (getcap nw NW e L); qlra|].
  set (s := (cur - old) / delta). assert (SE : s * delta = cur - old) by (unfold s; field; exact NZ). clearbody s. qnra.
Qed.
Print Assumptions C67_regularised_partial.

(** Non-vacuity: a sound network, a flow on it and the whole pipeline
    prediction -> costs -> search with a positive predicted queue. *)
Definition pipe_nw : network := nw_add_edge (nw_add_edge nw_empty 1 2 1 1) 2 3 1 1.
Lemma pipe_sound : sound_network pipe_nw.
Proof.
  constructor; try reflexivity.
  - apply GraphProofs.add_consistent; [reflexivity|]. apply GraphProofs.add_consistent; [reflexivity|]. apply GraphProofs.empty_consistent.
  - intros [|[|[|i]]] c H; cbn in H; try discriminate H; injection H as <-; qlra.
  - intros [|[|[|i]]] c H; cbn in H; try discriminate H; injection H as <-; qlra.
Qed.
Definition pipe_calls : list call := [CExtend [(0%nat, [(0%nat, qz 5)])] 1].
Definition check_pipe : bool :=
  match flow_run true (mkNet (w_cap pipe_nw) (w_tau pipe_nw)) pipe_calls with
  | Ok st =>
      match (ps <- constant_predict 1 st ;; cs <- costs_from_preds pipe_nw ps 1 ;; dynamic_dijkstra (w_graph pipe_nw) 1 1 3 [1; 2; 3]%nat (map pl_eval cs)) with
      | Ok r => match dget (dd_arrival r) 3 with Some t => qeqb t (qz 7) | None => false end
      | Err _ => false
      end
  | Err _ => false
  end.
(** queue 4 on the first edge: 1 + (1 + 4/1) + 1 = 7 *)
Example C67_pipeline : check_pipe = true.
Proof. vm_compute. reflexivity. Qed.
(** Refuted for the two extrapolating predictors: on a clean run over a sound network in
    which edge 2 -> 3 has just run empty, both succeed, the cost of that edge computed from
    the prediction is negative, and the search reports an arrival at node 3 later than that
    of the walk 1 -> 2 -> 3 under the same costs. *)
Definition neg_nw : network := nw_add_edge (nw_add_edge (nw_add_edge nw_empty 1 2 (qz 3) 1) 1 3 (qz 2) 1) 2 3 1 1.
Definition negr_calls : list call := [CExtend [(2%nat, [(0%nat, qz 2)])] 1; CExtend [(2%nat, [])] (qz 2)].
Lemma neg_sound : sound_network neg_nw.
Proof.
  constructor; try reflexivity.
  - repeat (apply GraphProofs.add_consistent; [reflexivity|]). apply GraphProofs.empty_consistent.
  - intros [|[|[|[|i]]]] c H; cbn in H; try discriminate H; injection H as <-; qlra.
  - intros [|[|[|[|i]]]] c H; cbn in H; try discriminate H; injection H as <-; try qlra; discriminate.
Qed.
Definition neg_outcome (predict : Qc -> Flow -> res (list PL)) (nw : network) (calls : list call) : Prop :=
  exists st preds costs r k0 k2 x y t, let N := mkNet (w_cap nw) (w_tau nw) in
    net_ok N /\ valid_run N calls /\ clean_run N calls /\ flow_run false N calls = Ok st /\ predict (f_phi st) st = Ok preds /\
    costs_from_preds nw preds (f_phi st) = Ok costs /\ dynamic_dijkstra (w_graph nw) (f_phi st) 1 3 [1; 2; 3]%nat (map pl_eval costs) = Ok r /\
    nth_error costs 0 = Some k0 /\ nth_error costs 2 = Some k2 /\ pl_eval k0 (f_phi st) = Ok x /\ pl_eval k2 (f_phi st + x) = Ok y /\ y < 0 /\
    dget (dd_arrival r) 3 = Some t /\ f_phi st + x + y < t.
Definition check_neg_outcome (predict : Qc -> Flow -> res (list PL)) (nw : network) (calls : list call) : bool :=
  let N := mkNet (w_cap nw) (w_tau nw) in
  (netb N && runb N calls && match flow_run true N calls with Ok _ => true | Err _ => false end)%bool &&
  match flow_run false N calls with
  | Ok st => match predict (f_phi st) st with
    | Ok preds => match costs_from_preds nw preds (f_phi st) with
      | Ok costs => match dynamic_dijkstra (w_graph nw) (f_phi st) 1 3 [1; 2; 3]%nat (map pl_eval costs), nth_error costs 0, nth_error costs 2 with
        | Ok r, Some k0, Some k2 => match pl_eval k0 (f_phi st) with
          | Ok x => match pl_eval k2 (f_phi st + x), dget (dd_arrival r) 3 with
            | Ok y, Some t => (qltb y 0 && qltb (f_phi st + x + y) t)%bool
            | _, _ => false end
          | _ => false end
        | _, _, _ => false end
      | _ => false end
    | _ => false end
  | _ => false end.
Lemma neg_outcome_ok predict nw calls : check_neg_outcome predict nw calls = true -> neg_outcome predict nw calls.
Proof.
  unfold check_neg_outcome, neg_outcome. cbv zeta. set (N := mkNet (w_cap nw) (w_tau nw)). intro H. apply andb_true_iff in H. destruct H as [H0 H]. apply andb_true_iff in H0. destruct H0 as [H0 C]. apply andb_true_iff in H0. destruct H0 as [H1 H2].
  destruct (flow_run true N calls) as [s'|] eqn:R'; [|discriminate C].
  destruct (flow_run false N calls) as [st|]; [|discriminate H]. destruct (predict (f_phi st) st) as [preds|] eqn:P; [|discriminate H]. destruct (costs_from_preds nw preds (f_phi st)) as [costs|] eqn:K; [|discriminate H].
  destruct (dynamic_dijkstra (w_graph nw) (f_phi st) 1 3 [1; 2; 3]%nat (map pl_eval costs)) as [r|] eqn:D; [|discriminate H]. destruct (nth_error costs 0) as [k0|] eqn:K0; [|discriminate H]. destruct (nth_error costs 2) as [k2|] eqn:K2; [|discriminate H].
  destruct (pl_eval k0 (f_phi st)) as [x|] eqn:X; [|discriminate H]. destruct (pl_eval k2 (f_phi st + x)) as [y|] eqn:Y; [|discriminate H]. destruct (dget (dd_arrival r) 3) as [t|] eqn:T; [|discriminate H]. apply andb_true_iff in H. destruct H as [L1 L2]. rewrite qltb_true in L1, L2.
  exists st, preds, costs, r, k0, k2, x, y, t. split; [apply netb_ok, H1|]. split; [apply runb_ok, H2|]. split; [unfold clean_run; rewrite R'; discriminate|]. repeat (split; [assumption || reflexivity|]). exact L2.
Qed.
Theorem C67_negative_refuted : sound_network neg_nw /\ neg_outcome (linear_predict (qz 5)) neg_nw negr_calls /\ neg_outcome (reg_linear_predict (qz 5) (qr 1 2)) neg_nw negr_calls.
Proof. split; [exact neg_sound|]. split; apply neg_outcome_ok; vm_compute; reflexivity. Qed.
Print Assumptions C67_negative_refuted.
