(** * core/predictors: the four regression predictors that are not used by
    evaluate_network.py (linear_regression_predictor.py,
    per_edge_linear_regression_predictor.py,
    full_net_linear_regression_predictor.py,
    expanded_linear_regression_predictor.py)

    As in Predictors.v a pickled scikit model is an unspecified function from
    one input row to one output row.  File access and the regular expressions
    of [from_weka_models] are not modelled: the coefficients are a parameter. *)
From Verif Require Import Base Spec Arrays PL RC FRC DynFlow Graph Dijkstra FlowBuilder Neighbors Predictors.

(** ** linear_regression_predictor.py *)
(** linear_regression_predictor.py:25-29 [max(0.0, old_queue(t - k))] *)
Definition past_queue (old_queue : PL) (t : Qc) (k : Z) : res Qc := v <- pl_eval old_queue (t - qz k) ;; Ok (qmax 0 v).
(** linear_regression_predictor.py:24-59 one edge *)
Definition tokyo_edge (t : Qc) (zero_fct old_queue : PL) : res PL :=
  v0 <- pl_eval old_queue t ;; let q0 := qmax 0 v0 in
  q1 <- past_queue old_queue t 1 ;; q2 <- past_queue old_queue t 2 ;;
  q3 <- past_queue old_queue t 3 ;; q4 <- past_queue old_queue t 4 ;;
  if qeqb (qmax (qmax (qmax (qmax q0 q1) q2) q3) q4) 0 then Ok zero_fct
  else pl_init [t; t + 1; t + qz 2; t + qz 3; t + qz 4; t + qz 5; t + qz 6; t + qz 7; t + qz 8; t + qz 9]
    [ q0; q0 + qr 268 100; qr 101 100 * q0 + qr 536 100; qr 101 100 * q0 + qr 847 100; qr 102 100 * q0 + qr 1167 100;
      qr 102 100 * q4 + qr 1467 100; qr 102 100 * q3 + qr 1467 100; qr 102 100 * q2 + qr 1467 100; qr 102 100 * q1 + qr 1467 100;
      qr 102 100 * q0 + qr 1467 100 ] 0 0 NInf PInf.
(** linear_regression_predictor.py:17-61 [predict] *)
Definition tokyo_predict (t : Qc) (st : Flow) : res (list PL) :=
  zero_fct <- pl_init [t] [0] 0 0 NInf PInf ;; mapM (tokyo_edge t zero_fct) (f_q st).

(** ** per_edge_linear_regression_predictor.py *)
(** per_edge_linear_regression_predictor.py:41
    [[prediction_time - t for t in range(-past + 1, 1)]], also
    full_net_linear_regression_predictor.py:46 *)
Definition reg_input_times (past : nat) (pt : Qc) : list Qc :=
  map (fun k => pt - qz (Z.of_nat k - (Z.of_nat past - 1))) (seq 0 past).
(** per_edge_linear_regression_predictor.py:38 *)
Definition reg_output_times (future : nat) (pt : Qc) : list Qc := map (fun k => pt + qn k) (seq 0 (S future)).
(** per_edge_linear_regression_predictor.py:45-55: one of the two nested list comprehensions *)
Definition queue_samples (g : graph) (queues : list PL) (times : list Qc) (es : list nat) : res (list Qc) :=
  rows <- mapM (fun t => mapM (fun e => q <- fetch queues (e_id g e) ;; pl_eval q t) es) times ;; Ok (concat rows).
(** per_edge_linear_regression_predictor.py:44-56 *)
Definition reg_inputs (g : graph) (queues : list PL) (times : list Qc) (e : nat) : res (list Qc) :=
  a <- queue_samples g queues times (incoming g (e_from g e)) ;;
  b <- queue_samples g queues times (outgoing g (e_to g e)) ;;
  c <- queue_samples g queues times [e] ;; Ok (a ++ b ++ c).
(** per_edge_linear_regression_predictor.py:60-68 the loop over [new_values] *)
Fixpoint reg_values (average : bool) (cap prev : Qc) (prediction : list Qc) : list Qc :=
  match prediction with
  | [] => []
  | x :: r =>
      let v := if average then qz 2 * x - prev else x in
      let y := qmax (qmax v (prev - cap)) 0 in y :: reg_values average cap y r
  end.
(** per_edge_linear_regression_predictor.py:43-69 one edge; [models k] is [self._models[k]] *)
Definition per_edge_one (models : nat -> list Qc -> list Qc) (past future : nat) (average : bool) (nw : network) (pt : Qc) (queues : list PL) (e : nat) : res PL :=
  let g := w_graph nw in
  inputs <- reg_inputs g queues (reg_input_times past pt) e ;;
  let prediction := models (e_id g e) inputs in
  q <- fetch queues (e_id g e) ;; cur <- pl_eval q pt ;;
  cap <- fetch (w_cap nw) (e_id g e) ;;
  f <- pl_init (reg_output_times future pt) (cur :: reg_values average cap cur prediction) 0 0 NInf PInf ;;
  simplify f.
(** per_edge_linear_regression_predictor.py:35-71 [predict].  The assignments
    [queues[e.id] = ...] are collected in the order of [edges], in which the
    k-th edge has id k (C46). *)
Definition per_edge_predict (models : nat -> list Qc -> list Qc) (past future : nat) (average : bool) (nw : network) (pt : Qc) (st : Flow) : res (list PL) :=
  assert! (length (g_edges (w_graph nw)) =? length (f_q st))%nat ;;
  mapM (per_edge_one models past future average nw pt (f_q st)) (g_edges (w_graph nw)).

(** ** full_net_linear_regression_predictor.py *)
(** full_net_linear_regression_predictor.py:60-62 [np.reshape(data, (rows, width))]: row-major chunks *)
Fixpoint chunks (rows width : nat) (flat : list Qc) : list (list Qc) :=
  match rows with O => [] | S n => firstn width flat :: chunks n width (skipn width flat) end.
(** full_net_linear_regression_predictor.py:54-59 one half of [data] *)
Definition sample_rows (fs : list PL) (times : list Qc) : res (list (list Qc)) := mapM (fun f => mapM (pl_eval f) times) fs.
(** full_net_linear_regression_predictor.py:39-94 [predict].  [l_out] is
    [test_mask] (a boolean numpy array, whose length has to be the number of
    edges for the selection of rows); [l_in] is not used. *)
Definition full_reg_predict (model : list Qc -> list Qc) (L : learned) (pt : Qc) (st : Flow) : res (list PL) :=
  zero_fct <- pl_init [pt] [0] 0 0 NInf PInf ;;
  assert! (length (g_edges (w_graph (l_nw L))) =? length (f_q st))%nat ;;
  loads <- get_edge_loads st ;;
  if negb (qeqb (f_phi st) pt) then Err ValueError
  else
    qrows <- sample_rows (f_q st) (reg_input_times (l_past L) pt) ;;
    lrows <- sample_rows loads (reg_input_times (l_past L) pt) ;;
    let past_data := chunks (length (g_edges (w_graph (l_nw L)))) (2 * l_past L) (concat qrows ++ concat lrows) in
    if negb (length (l_out L) =? length past_data)%nat then Err IndexError
    else
      sel <- select (l_out L) past_data ;;
      let raw := positive_part (model (f_phi st :: concat sel)) in
      mapM (fun p => let '(e, old_queue) := p in
        m <- fetch (l_out L) e ;;
        if negb m then Ok zero_fct
        else
          let masked_id := count_true (firstn e (l_out L)) in
          cur <- pl_eval old_queue (f_phi st) ;;
          learned_edge L (nb_output_times L pt) cur (pyslice raw (masked_id * l_future L) ((masked_id + 1) * l_future L)) e)
        (enum (f_q st)).

(** ** expanded_linear_regression_predictor.py *)
(** expanded_linear_regression_predictor.py:72-81 the keys ["e[-i]"] and ["ik[-i]"] of [inputs] *)
Inductive wkey := WE (i : nat) | WI (k i : nat).
(** expanded_linear_regression_predictor.py:72-81 [inputs]: the value stored under a key, if there is one *)
Definition weka_input (g : graph) (queues : list PL) (pt : Qc) (e : nat) (old_queue : PL) (k : wkey) : res (option Qc) :=
  match k with
  | WE i => if (i <=? 10)%nat then v <- pl_eval old_queue (pt - qn i) ;; Ok (Some (qmax 0 v)) else Ok None
  | WI k i =>
      match nth_error (outgoing g (e_from g e)) k with
      | Some r => if (i <=? 10)%nat then q <- fetch queues (e_id g r) ;; v <- pl_eval q (pt - qn i) ;; Ok (Some (qmax 0 v)) else Ok None
      | None => Ok None
      end
  end.
(** expanded_linear_regression_predictor.py:84-93 [new_values[i]]; [d] holds the coefficients and the constant of one step *)
Definition weka_value (g : graph) (queues : list PL) (pt : Qc) (e : nat) (old_queue : PL) (d : list (wkey * Qc) * Qc) : res Qc :=
  ts <- mapM (fun kc => o <- weka_input g queues pt e old_queue (fst kc) ;; Ok (match o with Some x => x * snd kc | None => 0 end)) (fst d) ;;
  Ok (fold_right Qcplus 0 ts + snd d).
(** expanded_linear_regression_predictor.py:65-95 the closure [predict] of
    [from_weka_models].  Evaluating all of [inputs] first, as the code does,
    and evaluating them when needed is the same here: the queues are functions
    on the whole line.  [coefs] has 10 entries. *)
Definition weka_predict (coefs : list (list (wkey * Qc) * Qc)) (nw : network) (pt : Qc) (st : Flow) : res (list PL) :=
  let g := w_graph nw in
  assert! (length (g_edges g) =? length (f_q st))%nat ;;
  mapM (fun p => let '(e, old_queue) := p in
    r <- fetch (g_edges g) e ;;
    v0 <- pl_eval old_queue pt ;;
    vs <- mapM (weka_value g (f_q st) pt r old_queue) coefs ;;
    pl_init (map (fun k => pt + qn k) (seq 0 10)) (qmax 0 v0 :: vs) 0 0 NInf PInf) (enum (f_q st)).

(** The argument kinds [ExpandedLinearRegressionPredictor.predict] passes on. *)
Inductive pyarg := AFloat (x : Qc) | AFlow (st : Flow) | AQueues (l : list PL).
(** expanded_linear_regression_predictor.py:106-129 the closure [predict] of
    [from_scikit_model]: [len(old_queues)] needs a sized object, [phi + t] a number. *)
Definition scikit_closure (model : list Qc -> list Qc) (past future : nat) (nw : network) (old_queues phi : pyarg) : res (list PL) :=
  match old_queues, phi with
  | AQueues qs, AFloat t =>
      let g := w_graph nw in
      let times := map (fun k => t + qz (Z.of_nat k - (Z.of_nat past - 1))) (seq 0 past) in
      mapM (fun e =>
        cols <- mapM (fun ie => q <- fetch qs (e_id g ie) ;; mapM (pl_eval q) times) (incoming g (e_from g e)) ;;
        own <- (q <- fetch qs (e_id g e) ;; mapM (pl_eval q) times) ;;
        (* slices of a list of 6 * past zeros: the columns of the first incoming
           edges (more than 5 of them would be overwritten or make the list
           longer, which is not modelled), zeros, the edge's own column *)
        if (5 <? length cols)%nat then Err NotModelled
        else
          let inputs := concat cols ++ repeat 0 ((5 - length cols) * past) ++ own in
          if existsb (fun v => negb (qeqb v 0)) inputs then
            q <- fetch qs (e_id g e) ;; cur <- pl_eval q t ;;
            pl_init (map (fun k => t + qn k) (seq 0 (S future))) (cur :: model inputs) 0 0 NInf PInf
          else pl_init [t] [0] 0 0 NInf PInf) (g_edges g)
  | _, _ => Err TypeError
  end.
(** expanded_linear_regression_predictor.py:35-38 [predict]: [self._predict(prediction_time, flow)] *)
Definition expanded_predict (closure : pyarg -> pyarg -> res (list PL)) (pt : Qc) (st : Flow) : res (list PL) := closure (AFloat pt) (AFlow st).
