(** * core/predictor.py, core/predictors/*.py (the predictors reachable from
    flow_builder.py and predicted_delay.py) and DynamicFlow.get_edge_loads

    A predictor reads [flow.queues] ([f_q]) and, for the learned ones, the edge
    loads.  A learned model is an oracle applied to each input row separately:
    a function from rows to rows (sklearn's [predict]/a keras model in
    inference mode).  numpy arrays are lists; masks are lists of booleans. *)
From Verif Require Import Base Spec Arrays PL RC FRC DynFlow Graph Dijkstra FlowBuilder Neighbors.

(** ** Closed-form predictors *)
(** core/predictors/constant_predictor.py:17-26 *)
Definition constant_predict (pt : Qc) (st : Flow) : res (list PL) :=
  mapM (fun queue => curr_queue <- pl_eval queue pt ;; pl_init [pt] [curr_queue] 0 0 NInf PInf) (f_q st).
(** core/predictors/zero_predictor.py:17-21 *)
Definition zero_predict (pt : Qc) (st : Flow) : res (list PL) :=
  zero_fct <- pl_init [pt] [0] 0 0 NInf PInf ;; Ok (map (fun _ => zero_fct) (f_q st)).
(** core/predictors/linear_predictor.py:33-41 and reg_linear_predictor.py:34-42:
    the two predictors share this part *)
Definition extrapolate (horizon pt curr_queue gradient : Qc) : res PL :=
  let new_queue := curr_queue + horizon * gradient in
  if (qltb new_queue 0 && qltb eps curr_queue)%bool then
    d <- pydiv curr_queue gradient ;; pl_init [pt; pt - d] [curr_queue; 0] 0 0 NInf PInf
  else pl_init [pt; pt + horizon] [curr_queue; new_queue] 0 0 NInf PInf.
(** core/predictors/linear_predictor.py:25-43 *)
Definition linear_predict (horizon pt : Qc) (st : Flow) : res (list PL) :=
  mapM (fun old_queue =>
    v <- pl_eval old_queue pt ;;
    r <- elem_rank (pl_times old_queue) pt ;; slope <- gradient old_queue r ;;
    extrapolate horizon pt (qmax 0 v) slope) (f_q st).
(** core/predictors/reg_linear_predictor.py:24-44 *)
Definition reg_linear_predict (horizon delta pt : Qc) (st : Flow) : res (list PL) :=
  mapM (fun old_queue =>
    v <- pl_eval old_queue pt ;; u <- pl_eval old_queue (pt - delta) ;;
    slope <- pydiv (qmax 0 v - qmax 0 u) delta ;;
    extrapolate horizon pt (qmax 0 v) slope) (f_q st).
(** core/predictor.py:23-30 [Predictor.batch_predict] ([max([])] raises ValueError too) *)
Definition base_batch_predict (predict : Qc -> Flow -> res (list PL)) (pts : list Qc) (st : Flow) : res (list (list PL)) :=
  match pts with
  | [] => Err ValueError
  | p :: r => if qltb (f_phi st) (fold_left qmax r p) then Err ValueError else mapM (fun pt => predict pt st) pts
  end.

(** ** Edge loads: core/dynamic_flow.py:242-257 [get_edge_loads] (the cache is
    cleared by every [extend], line 187) *)
Definition edge_load (a b : FRC) : res PL :=
  f <- pl_sub (c_acc a) (c_acc b) ;;
  assert! ext_eqb (pl_lo f) (Fin 0) ;;
  v <- pl_eval f 0 ;;
  assert! qltb (qabs v) eps ;;
  v0 <- pyget (pl_values f) 0 ;;
  Ok (if qeqb v0 0 then mkPL (pl_times f) (pl_values f) 0 (pl_last f) NInf (pl_hi f)
      else mkPL (0 :: pl_times f) (0 :: pl_values f) 0 (pl_last f) NInf (pl_hi f)).
Definition get_edge_loads (st : Flow) : res (list PL) :=
  mapM (fun p => edge_load (fst p) (snd p)) (combine (f_in st) (f_out st)).

(** ** Learned predictors *)
(** the fields of SKFullNetPredictor / TFFullNetPredictor (sk_full_net_predictor.py:16-35) *)
Record learned := mkL {
  l_nw : network; l_in : list bool; l_out : list bool; l_past : nat; l_future : nat; l_step : Qc }.
(** sk_full_net_predictor.py:53-56 [range(-past + 1, 1)] (also 121, 145) *)
Definition past_steps (L : learned) : list Z := map (fun k => Z.of_nat k - (Z.of_nat (l_past L) - 1))%Z (seq 0 (l_past L)).
Definition input_times (L : learned) (pt : Qc) : list Qc := map (fun t => pt + qz t * l_step L) (past_steps L).
(** sk_full_net_predictor.py:46-49 and 177-180 *)
Definition output_times (L : learned) (pt : Qc) : list Qc := map (fun k => pt + qn k * l_step L) (seq 0 (S (l_future L))).
(** list comprehension [x for e_id, x in enumerate(l) if mask[e_id]] *)
Fixpoint select {A} (mask : list bool) (l : list A) : res (list A) :=
  match l, mask with
  | [], _ => Ok []
  | _ :: _, [] => Err IndexError
  | x :: r, m :: ms => rs <- select ms r ;; Ok (if m then x :: rs else rs)
  end.
(** sk_full_net_predictor.py:60-76 the model's input row (numpy's [flatten] concatenates the rows) *)
Definition input_row (L : learned) (pt : Qc) (queues loads : list PL) : res (list Qc) :=
  qs <- select (l_in L) queues ;; qrows <- mapM (fun f => eval_sorted_array f (input_times L pt)) qs ;;
  ls <- select (l_in L) loads ;; lrows <- mapM (fun f => eval_sorted_array f (input_times L pt)) ls ;;
  Ok (pt :: concat qrows ++ concat lrows).
(** sk_full_net_predictor.py:78-80 [np.maximum(raw, 0)] *)
Definition positive_part (l : list Qc) : list Qc := map (fun x => qmax 0 x) l.
(** sk_full_net_predictor.py:94-99 the loop over [new_values] *)
Fixpoint clamp (step_cap prev : Qc) (l : list Qc) : list Qc :=
  match l with [] => [] | x :: r => let y := qmax x (prev - step_cap) in y :: clamp step_cap y r end.
Definition count_true (l : list bool) : nat := length (filter (fun b => b) l).
(** sk_full_net_predictor.py:85-101 (also 187-205): the prediction for one edge from its current queue *)
Definition learned_edge (L : learned) (times : list Qc) (cur : Qc) (raw : list Qc) (e : nat) : res PL :=
  cap <- (match raw with [] => Ok 0 | _ => fetch (w_cap (l_nw L)) e end) ;;
  pl_init times (cur :: clamp (l_step L * cap) cur raw) 0 0 NInf PInf.
(** sk_full_net_predictor.py:43-103 [predict] *)
Definition full_predict (model : list Qc -> list Qc) (L : learned) (pt : Qc) (st : Flow) : res (list PL) :=
  zero_fct <- pl_init [pt] [0] 0 0 NInf PInf ;;
  assert! (length (g_edges (w_graph (l_nw L))) =? length (f_q st))%nat ;;
  loads <- get_edge_loads st ;;
  row <- input_row L pt (f_q st) loads ;;
  let raw := positive_part (model row) in
  mapM (fun p => let '(e, old_queue) := p in
    m <- fetch (l_out L) e ;;
    if negb m then Ok zero_fct
    else
      let masked_id := count_true (firstn e (l_out L)) in
      cur <- pl_eval old_queue pt ;;
      learned_edge L (output_times L pt) cur (pyslice raw (masked_id * l_future L) ((masked_id + 1) * l_future L)) e)
    (enum (f_q st)).

(** sk_full_net_predictor.py:118-125 [list(set(..))] followed by [sort()] *)
Fixpoint insert_time (t : Qc) (l : list Qc) : list Qc :=
  match l with
  | [] => [t]
  | x :: r => if qltb t x then t :: l else if qeqb t x then l else x :: insert_time t r
  end.
Definition evaluation_times (L : learned) (pts : list Qc) : list Qc :=
  fold_right insert_time [] (concat (map (input_times L) pts)).
(** dictionaries from times to values *)
Fixpoint qget (d : list (Qc * Qc)) (k : Qc) : res Qc :=
  match d with [] => Err KeyError | (x, v) :: r => if qeqb x k then Ok v else qget r k end.
(** sk_full_net_predictor.py:126-132 *)
Definition evaluate (L : learned) (pts : list Qc) (f : PL) : res (list (Qc * Qc)) :=
  vs <- eval_sorted_array f (evaluation_times L pts) ;; Ok (combine (evaluation_times L pts) vs).
(** sk_full_net_predictor.py:112-132: the dictionary [evaluated]: edge id -> time -> value *)
Fixpoint evaluated_from (L : learned) (pts : list Qc) (mask : list bool) (e : nat) (fs : list PL) : res (list (nat * list (Qc * Qc))) :=
  match fs, mask with
  | [], _ => Ok []
  | _ :: _, [] => Err IndexError
  | f :: r, m :: ms =>
      if m then d <- evaluate L pts f ;; rs <- evaluated_from L pts ms (S e) r ;; Ok ((e, d) :: rs)
      else evaluated_from L pts ms (S e) r
  end.
(** sk_full_net_predictor.py:140-162 one row of the batch input *)
Definition batch_values (L : learned) (pt : Qc) (ids : list nat) (d : list (nat * list (Qc * Qc))) : res (list Qc) :=
  rows <- mapM (fun e => dd <- dfetch d e ;; mapM (qget dd) (input_times L pt)) ids ;; Ok (concat rows).
Definition batch_row (L : learned) (pt : Qc) (ids : list nat) (eq el : list (nat * list (Qc * Qc))) : res (list Qc) :=
  a <- batch_values L pt ids eq ;; b <- batch_values L pt ids el ;; Ok (pt :: a ++ b).
(** sk_full_net_predictor.py:171-207 one prediction of the batch; the counter
    [id_in_output_mask] is the number of selected edges seen before *)
Fixpoint batch_edges (L : learned) (pt : Qc) (raw : list Qc) (zero_fct : PL) (eq : list (nat * list (Qc * Qc))) (k : nat) (mask : list bool) (es : list nat) : res (list PL) :=
  match es with
  | [] => Ok []
  | e :: r =>
      m <- fetch mask e ;;
      if negb m then rs <- batch_edges L pt raw zero_fct eq k mask r ;; Ok (zero_fct :: rs)
      else
        dd <- dfetch eq e ;; cur <- qget dd pt ;;
        f <- learned_edge L (output_times L pt) cur (pyslice raw (k * l_future L) ((k + 1) * l_future L)) e ;;
        rs <- batch_edges L pt raw zero_fct eq (S k) mask r ;; Ok (f :: rs)
  end.
(** sk_full_net_predictor.py:105-208 [batch_predict] *)
Definition full_batch_predict (model : list Qc -> list Qc) (L : learned) (pts : list Qc) (st : Flow) : res (list (list PL)) :=
  loads <- get_edge_loads st ;;
  eq <- evaluated_from L pts (l_in L) 0 (f_q st) ;; el <- evaluated_from L pts (l_in L) 0 loads ;;
  zero_fct <- pl_init [0] [0] 0 0 NInf PInf ;;
  assert! (length (g_edges (w_graph (l_nw L))) =? length (f_q st))%nat ;;
  ids <- select (l_in L) (seq 0 (length (f_q st))) ;;
  rows <- mapM (fun pt => batch_row L pt ids eq el) pts ;;
  mapM (fun p => batch_edges L (fst p) (positive_part (model (snd p))) zero_fct eq 0 (l_out L) (seq 0 (length (f_q st)))) (combine pts rows).

(** ** Neighbourhood predictors *)
(** sk_neighborhood_predictor.py:35-39: [mask * input_mask] *)
Definition edge_input_mask (L : learned) (max_distance e : nat) : list bool :=
  map (fun p => andb (fst p) (snd p)) (combine (mask_undirected (w_graph (l_nw L)) e max_distance) (l_in L)).
(** sk_neighborhood_predictor.py:50: [times = prediction_time + t] (no prediction interval) *)
Definition nb_output_times (L : learned) (pt : Qc) : list Qc := map (fun k => pt + qn k) (seq 0 (S (l_future L))).
(** sk_neighborhood_predictor.py:62-79: all edges, zeros where the input mask is off *)
Fixpoint masked_rows (L : learned) (pt : Qc) (mask : list bool) (fs : list PL) : res (list (list Qc)) :=
  match fs, mask with
  | [], _ => Ok []
  | _ :: _, [] => Err IndexError
  | f :: r, m :: ms =>
      row <- (if m then eval_sorted_array f (input_times L pt) else Ok (map (fun _ => 0) (input_times L pt))) ;;
      rs <- masked_rows L pt ms r ;; Ok (row :: rs)
  end.
(** sk_neighborhood_predictor.py:47-112 [predict]; [models e] is the model of edge [e] *)
Definition nb_predict (models : nat -> list Qc -> list Qc) (L : learned) (dist : nat) (pt : Qc) (st : Flow) : res (list PL) :=
  zero_fct <- pl_init [pt] [0] 0 0 NInf PInf ;;
  assert! (length (g_edges (w_graph (l_nw L))) =? length (f_q st))%nat ;;
  loads <- get_edge_loads st ;;
  qrows <- masked_rows L pt (l_in L) (f_q st) ;; lrows <- masked_rows L pt (l_in L) loads ;;
  mapM (fun p => let '(e, old_queue) := p in
    m <- fetch (l_out L) e ;;
    if negb m then Ok zero_fct
    else
      qs <- select (edge_input_mask L dist e) qrows ;; ls <- select (edge_input_mask L dist e) lrows ;;
      cur <- pl_eval old_queue pt ;;
      learned_edge L (nb_output_times L pt) cur (positive_part (models e (pt :: concat qs ++ concat ls))) e)
    (enum (f_q st)).

(** sk_neighborhood_predictor.py:120-142: the dictionaries keyed by [masked_id],
    the number of input edges before the edge *)
Fixpoint evaluated_masked (L : learned) (pts : list Qc) (mask : list bool) (masked_id : nat) (fs : list PL) : res (list (nat * list (Qc * Qc))) :=
  match fs, mask with
  | [], _ => Ok []
  | _ :: _, [] => Err IndexError
  | f :: r, m :: ms =>
      if m then d <- evaluate L pts f ;; rs <- evaluated_masked L pts ms (S masked_id) r ;; Ok ((masked_id, d) :: rs)
      else evaluated_masked L pts ms masked_id r
  end.
(** sk_neighborhood_predictor.py:114-205 [batch_predict].  The code loops over
    edges first and appends to one list per prediction time; the model loops over
    prediction times first, which only changes which exception comes first. *)
Definition nb_batch_predict (models : nat -> list Qc -> list Qc) (L : learned) (dist : nat) (pts : list Qc) (st : Flow) : res (list (list PL)) :=
  loads <- get_edge_loads st ;;
  eq <- evaluated_masked L pts (l_in L) 0 (f_q st) ;; el <- evaluated_masked L pts (l_in L) 0 loads ;;
  zero_fct <- pl_init [0] [0] 0 0 NInf PInf ;;
  assert! (length (g_edges (w_graph (l_nw L))) =? length (f_q st))%nat ;;
  mapM (fun pt => mapM (fun e =>
      m <- fetch (l_out L) e ;;
      if negb m then Ok zero_fct
      else
        em <- select (l_in L) (edge_input_mask L dist e) ;;
        ids <- select em (seq 0 (count_true (l_in L))) ;;
        row <- batch_row L pt ids eq el ;;
        dd <- dfetch eq (count_true (firstn e (l_in L))) ;; cur <- qget dd pt ;;
        learned_edge L (output_times L pt) cur (positive_part (models e row)) e)
      (seq 0 (length (f_q st)))) pts.

(** ** Costs from predictions: eval/predicted_delay.py:134-150 [costs_from_preds] *)
Definition costs_from_preds (nw : network) (predictions : list PL) (at_ : Qc) : res (list PL) :=
  mapM (edge_cost (mkNet (w_cap nw) (w_tau nw)) at_ predictions) (seq 0 (length (g_edges (w_graph nw)))).
