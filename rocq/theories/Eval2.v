(** * Model of src/eval/evaluate.py and src/utilities/build_with_times.py *)
From Coq Require Import Qround.
From Verif Require Import Base Spec Arrays PL PL2 RC FRC PQ PQSpec DynFlow Graph Dijkstra BellmanFord FlowBuilder Predictors Eval Dataset.

(** ** evaluate.py:230-290 [evaluate_mean_absolute_error] *)
(** evaluate.py:242-245 [pred_times] *)
Definition mae_times (horizon : Qc) (future : nat) (pred_interval reroute_interval : Qc) : res (list Qc) :=
  q <- pydiv (horizon - (qn future + 1) * pred_interval) reroute_interval ;;
  Ok (map (fun i => qn i * reroute_interval) (seq 0 (Z.to_nat (Qfloor (this q) + 1)))).
Definition row_at (queues : list PL) (t : Qc) : res (list Qc) := mapM (fun q => pl_eval q t) queues.
(** evaluate.py:248-253 [queue_values] *)
Definition queue_table (queues : list PL) (horizon reroute_interval : Qc) : res (list (list Qc)) :=
  q <- pydiv horizon reroute_interval ;;
  mapM (fun i => row_at queues (qn i * reroute_interval)) (seq 0 (Z.to_nat (Qfloor (this q) + 1))).
(** NumPy's difference of two rows; rows of different lengths (broadcasting or
    ValueError) are outside the model. *)
Definition row_diff (a b : list Qc) : res (list Qc) :=
  if (length a =? length b)%nat then Ok (map (fun p => fst p - snd p) (combine a b)) else Err NotModelled.
(** evaluate.py:258-266 [to_samples] *)
Definition to_samples (preds : list (list PL)) (future : nat) (pred_interval : Qc) (i : nat) (t : Qc) : res (list (list Qc)) :=
  ps <- fetch preds i ;; mapM (fun k => row_at ps (t + (qn k + 1) * pred_interval)) (seq 0 future).
(** evaluate.py:271-280 one row of [diffs].  A negative index (negative
    prediction interval) would count from the end: outside the model. *)
Definition diff_rows (samples : list (list Qc)) (table : list (list Qc)) (stride : Z) (i : nat) (future : nat) : res (list (list Qc)) :=
  mapM (fun k => a <- fetch samples k ;;
    let j := (Z.of_nat i + (Z.of_nat k + 1) * stride)%Z in
    if (j <? 0)%Z then Err NotModelled else b <- fetch table (Z.to_nat j) ;; row_diff a b) (seq 0 future).
(** evaluate.py:255-280 the loop over the predictors: [diffs[predictor_type]],
    flattened *)
Definition mae_diffs (table : list (list Qc)) (stride : Z) (times : list Qc) (batch : list Qc -> res (list (list PL)))
    (future : nat) (pred_interval : Qc) : res (list Qc) :=
  preds <- batch times ;;
  samples <- mapM (fun p => to_samples preds future pred_interval (fst p) (snd p)) (enum times) ;;
  rows <- mapM (fun p => diff_rows (snd p) table stride (fst p) future) (enum samples) ;;
  Ok (concat (concat rows)).
(** [np.average(np.abs(diff))]; NaN for an empty array *)
Definition mean_abs (l : list Qc) : res Qc :=
  match l with [] => Err NotModelled | _ => Ok (fold_right Qcplus 0 (map qabs l) / qn (length l)) end.
(** evaluate.py:230-290 [evaluate_mean_absolute_error]; [batches] are the
    [batch_predict(-, flow)] of the predictors. *)
Definition mean_absolute_errors (queues : list PL) (batches : list (nat * (list Qc -> res (list (list PL)))))
    (future : nat) (reroute_interval pred_interval horizon : Qc) : res (list (nat * Qc)) :=
  times <- mae_times horizon future pred_interval reroute_interval ;;
  stride <- intervals pred_interval reroute_interval ;;
  table <- queue_table queues horizon reroute_interval ;;
  diffs <- mapM (fun p => d <- mae_diffs table stride times (snd p) future pred_interval ;; Ok (fst p, d)) batches ;;
  mapM (fun p => m <- mean_abs (snd p) ;; Ok (fst p, m)) diffs.

(** ** evaluate.py:39-95 [calculate_optimal_average_travel_time] *)
(** evaluate.py:50-62 the cost function of one edge *)
Definition opt_cost (horizon : Qc) (q : PL) (tau cap : Qc) : res PL :=
  vs <- mapM (fun v => d <- pydiv v cap ;; Ok (tau + d)) (pl_values q) ;;
  a <- pydiv (pl_first q) cap ;; b <- pydiv (pl_last q) cap ;;
  f <- pl_init (pl_times q) vs a b (Fin 0) (Fin horizon) ;; simplify f.
(** evaluate.py:73-90 [integrate_opt]; the inflow horizon may be infinite *)
Definition integrate_opt (horizon : Qc) (inflow_horizon : ext) (label : PL) : res Qc :=
  assert! is_monotone label ;;
  travel_time <- pl_plus label (mkPL [0] [0] (- (1)) (- (1)) NInf PInf) ;;
  m <- max_t_below label horizon ;;
  match (match inflow_horizon with Fin ih => (ext_min (Fin ih) m, qmin horizon ih) | _ => (m, horizon) end) with
  | (Fin h, until) =>
      a <- integrate travel_time 0 h ;;
      let total := if qltb h until then a + (horizon * (until - h) - (until * until - h * h) / Q2Qc (2 # 1)) else a in
      pydiv total until
  | _ => Err NotModelled
  end.
(** evaluate.py:39-95; [fuel] bounds the rounds of Bellman-Ford.  The trace is
    that of [bellman_ford]. *)
Definition optimal_avg_travel_time (fuel : nat) (flow : Flow) (nw : network) (inflow_horizon : ext) (horizon : Qc) (c : commodity) : res (Qc * list ev) :=
  match k_sources c with
  | [(source, _)] =>
      costs <- mapM (fun e => q <- fetch (f_q flow) e ;; tau <- fetch (w_tau nw) e ;; cap <- fetch (w_cap nw) e ;; opt_cost horizon q tau cap)
                    (seq 0 (length (f_q flow))) ;;
      com <- important (w_graph nw) c ;;
      '(labels, tr) <- bellman_ford fuel (w_graph nw) (k_sink c) costs com 0 (Fin horizon) ;;
      match dget labels source with
      | Some l => y <- integrate_opt horizon inflow_horizon l ;; Ok (y, tr)
      | None => match inflow_horizon with Fin ih => Ok (ih * horizon - ih * ih / Q2Qc (2 # 1), tr) | _ => Err NotModelled end
      end
  | _ => Err ValueError
  end.

(** ** build_with_times.py *)
(** build_with_times.py:52-54 the average travel times of the log line *)
Definition log_line (S : setup) (b : builder) (observe : list nat) : res (list Qc) :=
  mapM (fun i => c <- fetch (s_coms S) i ;; 
    let g := s_graph S in
    avg_travel_time (f_out (b_flow b)) i (map (e_id g) (incoming g (k_sink c))) (map snd (k_sources c)) (f_phi (b_flow b))) observe.
(** build_with_times.py:62-88 the loop; [due n] says whether the clock asks for
    a log line after round [n]; the times measured and printed do not enter
    the flow.  Returns the number of rounds as well. *)
Fixpoint bwt_loop (fuel : nat) (S : setup) (horizon : Qc) (observe : list nat) (log : bool) (due : nat -> bool) (n : nat) (b : builder) : res (nat * builder) :=
  if qltb (f_phi (b_flow b)) horizon then
    match fuel with
    | 0%nat => Err OutOfFuel
    | Datatypes.S k =>
        b' <- fb_step false S b ;;
        _ <- (if (log && due n)%bool then log_line S b' observe else Ok []) ;;
        bwt_loop k S horizon observe log due (Datatypes.S n) b'
    end
  else Ok (n, b).
(** build_with_times.py:11-95 [build_with_times]; the last log line needs [now],
    which is first bound in the loop. *)
Definition build_with_times (fuel : nat) (S : setup) (horizon : Qc) (observe : list nat) (log : bool) (due : nat -> bool) : res (nat * builder) :=
  b <- fb_init S ;;
  '(n, b') <- bwt_loop fuel S horizon observe log due 0 b ;;
  _ <- (if log then if (n =? 0)%nat then Err NameError else log_line S b' observe else Ok []) ;;
  Ok (n, b').

(** ** evaluate.py:98-150 the commodities of [evaluate_single_run] *)
(** [list.remove]: the first equal object; commodities are compared by identity. *)
Definition remove_nth {A} (i : nat) (l : list A) : list A := firstn i l ++ skipn (Datatypes.S i) l.
Definition list_minq (l : list Qc) : res Qc := match l with [] => Err ValueError | x :: r => Ok (fold_left qmin r x) end.
(** evaluate.py:118-150: the network with the commodities that are evaluated, and
    their indices.  [types] are the keys of [predictors]. *)
Definition eval_commodities (nw : network) (focused : nat) (split : bool) (inflow_horizon : Qc) (types : list nat) (ord : list nat -> list nat) : res (network * list nat) :=
  c <- fetch (w_com nw) focused ;;
  match k_sources c with
  | [(source, inflow)] =>
      let n := qn (length types) in
      '(coms, demand) <- (if split then
          vs <- mapM (fun v => pydiv v n) (rc_values inflow) ;;
          d <- rc_init (rc_times inflow) vs (rc_lo inflow) (rc_hi inflow) ;; Ok (remove_nth focused (w_com nw), d)
        else
          m <- list_minq (w_cap nw) ;; a <- pydiv m (qz 256) ;;
          v0 <- fetch (rc_values inflow) 0 ;; x <- pydiv v0 (qz 16) ;; b <- pydiv x n ;;
          d <- rc_init [0; inflow_horizon] [qmax a b; 0] (Fin 0) PInf ;; Ok (w_com nw, d)) ;;
      nw' <- combine_commodities (mkNw (w_graph nw) (w_cap nw) (w_tau nw) coms) [] ord ;;
      let k := length (w_com nw') in
      Ok (mkNw (w_graph nw') (w_cap nw') (w_tau nw') (w_com nw' ++ map (fun i => mkCom [(source, demand)] (k_sink c) i) types), seq k (length types))
  | _ => Err ValueError
  end.
