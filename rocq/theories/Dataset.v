(** * Model of src/ml/QueueAndEdgeLoadsDataset.py and of the writers of its
      files in src/ml/generate_queues.py

    A file holds an array of shape (2, edges, times): the queue rows and the
    edge load rows.  Reading and writing .npy files is exact. *)
From Coq Require Import Qround.
From Verif Require Import Base Spec Arrays PL RC FRC PQ PQSpec DynFlow Graph Dijkstra FlowBuilder Predictors Eval.

(** Python's [round] (half to even), here on exact numbers *)
Definition py_round (q : Qc) : Z :=
  let n := Qfloor (this q) in
  let d := q - qz n in
  let half := Q2Qc (1 # 2) in
  if qltb d half then n else if qltb half d then (n + 1)%Z else if Z.even n then n else (n + 1)%Z.
(** generate_queues.py:57-59, QueueAndEdgeLoadsDataset.py:40-42 *)
Definition intervals (prediction_interval reroute_interval : Qc) : res Z :=
  q <- pydiv prediction_interval reroute_interval ;; Ok (py_round q).
(** generate_queues.py:68-74, QueueAndEdgeLoadsDataset.py:43-49 *)
Definition sample_times (past : nat) (stride : Z) (horizon reroute_interval : Qc) : res (list Qc) :=
  q <- pydiv horizon reroute_interval ;;
  Ok (map (fun i => qz i * reroute_interval) (zrange (- (Z.of_nat past - 1) * stride) (Qfloor (this q) + 1))).
Definition qfile := (list (list Qc) * list (list Qc))%type.
(** generate_queues.py:45-86 [save_queues_and_edge_loads_for_flow]: the saved
    array.  [np.stack] raises ValueError when the two arrays differ in shape. *)
Definition save_flow (past : nat) (horizon reroute_interval prediction_interval : Qc) (flow : Flow) : res qfile :=
  stride <- intervals prediction_interval reroute_interval ;;
  q <- pydiv prediction_interval reroute_interval ;;
  if qltb (Q2Qc (1 # 100000000000000)) (qabs (qz stride - q)) then Err ValueError else
  times <- sample_times past stride horizon reroute_interval ;;
  loads <- get_edge_loads flow ;;
  lrows <- mapM (fun f => eval_sorted_array f times) loads ;;
  qrows <- mapM (fun f => eval_sorted_array f times) (f_q flow) ;;
  if (length qrows =? length lrows)%nat then Ok (qrows, lrows) else Err ValueError.

Record dataset := mkDs {
  ds_past : nat; ds_future : nat; ds_reroute : Qc; ds_stride : Z; ds_data : list qfile;
  ds_in : list bool; ds_out : list bool; ds_samples : Z }.
(** the shape check, QueueAndEdgeLoadsDataset.py:61-64 *)
Definition good_shape (nedges ntimes : nat) (f : qfile) : bool :=
  (length (fst f) =? nedges)%nat && (length (snd f) =? nedges)%nat &&
  forallb (fun row => length row =? ntimes)%nat (fst f) && forallb (fun row => length row =? ntimes)%nat (snd f).
Definition row_max (m : Qc) (row : list Qc) : Qc := fold_left qmax row m.
(** QueueAndEdgeLoadsDataset.py:65 [np.maximum(max_data, np.amax(data, axis=(0, 2)))] and 66 *)
Definition upd_data (mx : list Qc) (f : qfile) : list Qc := map (fun p => row_max (row_max (fst p) (fst (snd p))) (snd (snd p))) (combine mx (combine (fst f) (snd f))).
Definition upd_queue (mx : list Qc) (f : qfile) : list Qc := map (fun p => row_max (fst p) (snd p)) (combine mx (fst f)).
(** QueueAndEdgeLoadsDataset.py:20-78 [__init__]; [files] are the arrays in
    the sorted files of the folder.  [np.amax] raises ValueError on an empty
    axis. *)
Definition ds_init (past future : nat) (reroute_interval prediction_interval horizon : Qc) (nedges : nat) (files : list qfile) : res dataset :=
  stride <- intervals prediction_interval reroute_interval ;;
  times <- sample_times past stride horizon reroute_interval ;;
  match files with
  | [] => Err ValueError
  | _ =>
      if negb (forallb (good_shape nedges (length times)) files) then Err ValueError else
      if (length times =? 0)%nat then Err ValueError else
      let max_data := fold_left upd_data files (repeat 0 nedges) in
      let max_queue := fold_left upd_queue files (repeat 0 nedges) in
      Ok (mkDs past future reroute_interval stride files (map (fun v => qltb 0 v) max_data) (map (fun v => qltb 0 v) max_queue)
            (Z.of_nat (length times) - stride * (Z.of_nat past + Z.of_nat future))%Z)
  end.

(** numpy's [row[a:b:s]] for 0 <= a, 0 <= b, s > 0 *)
Definition strided (row : list Qc) (a b s : Z) : res (list Qc) :=
  if (s =? 0)%Z then Err ValueError
  else if ((a <? 0) || (b <? 0) || (s <? 0))%Z%bool then Err NotModelled
  else Ok (map (fun i => nth (Z.to_nat i) row 0) (filter (fun i => ((i - a) mod s =? 0)%Z) (zrange a (Z.min b (zlen row))))).
(** [rows[mask]]: boolean indexing *)
Definition masked {A} (mask : list bool) (rows : list A) : res (list A) :=
  if (length mask =? length rows)%nat then Ok (map snd (filter (fun p => fst p) (combine mask rows))) else Err IndexError.
(** [mask * additional] of boolean arrays, or [mask] (lines 94-103) *)
Definition with_additional (mask : list bool) (additional : option (list bool)) : res (list bool) :=
  match additional with
  | None => Ok mask
  | Some a => if (length a =? length mask)%nat then Ok (map (fun p => fst p && snd p)%bool (combine mask a)) else Err ValueError
  end.
(** QueueAndEdgeLoadsDataset.py:86-111 [__getitem__] *)
Definition ds_get (D : dataset) (add_in add_out : option (list bool)) (index : Z) : res (list Qc * list Qc) :=
  if (ds_samples D =? 0)%Z then Err ZeroDivisionError else
  let flow_id := (index / ds_samples D)%Z in
  let sample_id := (index mod ds_samples D)%Z in
  data <- pyget (ds_data D) flow_id ;;
  let phi := qz sample_id * ds_reroute D in
  let stride := ds_stride D in
  let phi_ind := (sample_id + (Z.of_nat (ds_past D) - 1) * stride)%Z in
  let last_ind := (phi_ind + Z.of_nat (ds_future D) * stride)%Z in
  imask <- with_additional (ds_in D) add_in ;;
  omask <- with_additional (ds_out D) add_out ;;
  qrows <- masked imask (fst data) ;; qs <- mapM (fun row => strided row sample_id (phi_ind + 1) stride) qrows ;;
  lrows <- masked imask (snd data) ;; ls <- mapM (fun row => strided row sample_id (phi_ind + 1) stride) lrows ;;
  frows <- masked omask (fst data) ;; fs <- mapM (fun row => strided row (phi_ind + stride) (last_ind + 1) stride) frows ;;
  Ok (phi :: concat qs ++ concat ls, concat fs).
(** QueueAndEdgeLoadsDataset.py:113-114 [__len__] *)
Definition ds_len (D : dataset) : Z := (Z.of_nat (length (ds_data D)) * ds_samples D)%Z.

(** generate_queues.py:134-198 [generate_training_data_with_edge_loads]: the
    array of one flow.  [np.ndarray] is uninitialised: rows never written are
    [None].  [row] stays 0 (line 178). *)
Definition training_row (past future : nat) (prediction_interval : Qc) (queues loads : list PL) (pt : Qc) : res (list Qc) :=
  let past_times := map (fun i => pt + qz i * prediction_interval) (zrange (- Z.of_nat past + 1) 1) in
  let future_times := map (fun i => pt + qz i * prediction_interval) (zrange 1 (Z.of_nat future + 1)) in
  a <- mapM (fun t => mapM (fun q => pl_eval q t) queues) past_times ;;
  b <- mapM (fun t => mapM (fun l => pl_eval l t) loads) past_times ;;
  c <- mapM (fun t => mapM (fun q => pl_eval q t) queues) future_times ;;
  Ok (concat a ++ concat b ++ concat c).
Fixpoint training_loop (past future : nat) (pi : Qc) (queues loads : list PL) (pts : list Qc) (row : nat) (arr : list (option (list Qc))) : res (list (option (list Qc))) :=
  match pts with
  | [] => Ok arr
  | pt :: r => x <- training_row past future pi queues loads pt ;; training_loop past future pi queues loads r row (set_nth arr row (Some x))
  end.
Definition training_data (past future : nat) (horizon reroute_interval pi : Qc) (flow : Flow) : res (list (option (list Qc))) :=
  q <- pydiv horizon reroute_interval ;;
  let pts := map (fun i => qz i * reroute_interval) (zrange 0 (Qfloor (this q) + 1)) in
  loads <- get_edge_loads flow ;;
  training_loop past future pi (f_q flow) loads pts 0 (repeat None (length pts)).

(** generate_queues.py:233-245 [expanded_queues_from_flows]: the columns "e[t]"
    of the sample of one edge at time [phi] (before the all-zero samples are
    dropped) *)
Definition expanded_columns (past future : nat) (step : Qc) (q : PL) (phi : Qc) : res (list (Z * Qc)) :=
  mapM (fun t => v <- pl_eval q (phi - step * qz t) ;; Ok (t, v)) (zrange (- Z.of_nat past) (Z.of_nat future + 1)).
