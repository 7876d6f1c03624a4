(** * The code with assertions switched off ([PYTHONOPTIMIZE], [python -O])

    The evaluation functions refuse to run unless assertions are off or the
    caller waives the check ([may_run]).  This file models what the functions
    used while a flow is built and measured do in that mode: every function
    [o_f] below is the modelled function [f] without its [assert] statements;
    the expressions inside an [assert] are not evaluated at all.  Functions
    without assertions (ranks, merging, the queue specification, graph search,
    loops over values) are shared with the checked model.  The assertions of
    PriorityQueue ([push], [decrease_key]) are kept: the specification queue
    cannot represent a queue whose index has been corrupted. *)
From Verif Require Import Base Spec Arrays PL RC FRC PQ PQSpec DynFlow DynRun Graph Dijkstra FlowBuilder Predictors Eval Eval2.

(** evaluate_network.py:41-42 and 129-130, build_test_flows.py:84-87
    [assert (lambda: False)()]: fails exactly when assertions are on. *)
Definition may_run (optimised check_for_optimizations : bool) : res unit :=
  if (check_for_optimizations && negb optimised)%bool then Err AssertionError else Ok tt.

(** ** piecewise_linear.py *)
(** piecewise_linear.py:29-53 *)
Definition o_pl_init (times values : list Qc) (first last : Qc) (lo hi : ext) : res PL := Ok (mkPL times values first last lo hi).
(** piecewise_linear.py:176-189 *)
Definition o_gradient (f : PL) (i : Z) : res Qc :=
  if (i =? -1)%Z then Ok (pl_first f)
  else if (i =? pl_len f - 1)%Z then Ok (pl_last f)
  else
    v1 <- pyget (pl_values f) (i + 1) ;; v0 <- pyget (pl_values f) i ;;
    t1 <- pyget (pl_times f) (i + 1) ;; t0 <- pyget (pl_times f) i ;;
    pydiv (v1 - v0) (t1 - t0).
(** piecewise_linear.py:152-174 *)
Definition o_eval_with_rank (f : PL) (at_ : Qc) (rnk : Z) : res Qc :=
  if (rnk =? -1)%Z then
    g <- o_gradient f rnk ;; v0 <- pyget (pl_values f) 0 ;; t0 <- pyget (pl_times f) 0 ;;
    Ok (v0 + (at_ - t0) * g)
  else if (rnk =? pl_len f - 1)%Z then
    g <- o_gradient f rnk ;; vl <- pyget (pl_values f) (-1) ;; tl <- pyget (pl_times f) (-1) ;;
    Ok (vl + (at_ - tl) * g)
  else
    v <- pyget (pl_values f) rnk ;; t <- pyget (pl_times f) rnk ;;
    g <- o_gradient f rnk ;;
    Ok (v + (at_ - t) * g).
(** piecewise_linear.py:55-63 *)
Definition o_pl_eval (f : PL) (at_ : Qc) : res Qc :=
  rnk <- elem_rank (pl_times f) at_ ;; o_eval_with_rank f at_ rnk.
(** piecewise_linear.py:124-135 *)
Definition o_eval_from_end (f : PL) (at_ : Qc) : res Qc :=
  rnk <- scan_back (pl_times f) at_ (length (pl_times f)) ;; o_eval_with_rank f at_ rnk.
(** piecewise_linear.py:514-530 *)
Definition o_extend_with_slope (f : PL) (time slope : Qc) : res PL :=
  if qleb (qabs (pl_last f - slope)) eps then Ok f
  else
    tl <- pyget (pl_times f) (-1) ;;
    if qltb eps (qabs (time - tl)) then
      vl <- pyget (pl_values f) (-1) ;;
      let val := vl + (time - tl) * pl_last f in
      Ok (mkPL (pl_times f ++ [time]) (pl_values f ++ [val]) (pl_first f) slope (pl_lo f) (pl_hi f))
    else Ok (mkPL (pl_times f) (pl_values f) (pl_first f) slope (pl_lo f) (pl_hi f)).
(** piecewise_linear.py:560-584 *)
Definition o_integrate (f : PL) (st en : Qc) : res Qc :=
  rnk <- elem_lrank (pl_times f) st ;;
  if (rnk =? pl_len f - 1)%Z then
    a <- o_pl_eval f st ;; b <- o_pl_eval f en ;;
    Ok ((a + b) / Q2Qc (2 # 1) * (en - st))
  else
    v1 <- pyget (pl_values f) (rnk + 1) ;; a <- o_pl_eval f st ;;
    t1 <- pyget (pl_times f) (rnk + 1) ;;
    '(r, value) <- integrate_loop (S (length (pl_times f))) f en (rnk + 1)
                     (0 + (v1 + a) / Q2Qc (2 # 1) * (t1 - st)) ;;
    b <- o_pl_eval f en ;; vr <- pyget (pl_values f) r ;; tr <- pyget (pl_times f) r ;;
    Ok (value + (b + vr) / Q2Qc (2 # 1) * (en - tr)).

(** ** right_constant.py *)
(** right_constant.py:32-49 *)
Definition o_rc_init (times values : list Qc) (lo hi : ext) : res RC := Ok (mkRC times values lo hi).
(** right_constant.py:66-79 [eval], [_eval_with_lrank] *)
Definition o_rc_eval (f : RC) (at_ : Qc) : res Qc :=
  rnk <- elem_lrank (rc_times f) at_ ;;
  if (rnk =? -1)%Z then pyget (rc_values f) 0 else pyget (rc_values f) rnk.
(** right_constant.py:81-90 *)
Definition o_rc_extend (f : RC) (start_time value : Qc) : res RC :=
  vl <- pyget (rc_values f) (-1) ;;
  if qleb (qabs (vl - value)) eps then Ok f
  else
    tl <- pyget (rc_times f) (-1) ;;
    if qleb (qabs (start_time - tl)) eps then
      Ok (mkRC (rc_times f) (set_nth (rc_values f) (length (rc_values f) - 1) value) (rc_lo f) (rc_hi f))
    else Ok (mkRC (rc_times f ++ [start_time]) (rc_values f ++ [value]) (rc_lo f) (rc_hi f)).
(** right_constant.py:101-121 *)
Definition o_rc_plus (f g : RC) : res RC :=
  let times := merge_sorted (rc_times f) (rc_times g) in
  values <- add_loop f g 0 0 times ;;
  o_rc_init times values (rc_lo f) (rc_hi f).
(** right_constant.py:123-141 *)
Definition o_rc_sum (fs : list RC) (lo hi : ext) : res RC :=
  match fs with
  | [] => o_rc_init [0] [0] lo hi
  | _ =>
      times <- merge_sorted_many (map rc_times fs) ;;
      values <- sum_loop fs (map (fun _ => 0%Z) fs) times ;;
      o_rc_init times values lo hi
  end.
(** right_constant.py:167-178; as many values as times *)
Definition o_rc_integral (f : RC) : res PL :=
  v0 <- pyget (rc_values f) 0 ;; vl <- pyget (rc_values f) (-1) ;;
  o_pl_init (rc_times f) (integral_vals 0 (rc_times f) (rc_values f)) v0 vl (rc_lo f) (rc_hi f).

(** ** flow_rates_collection.py *)
(** flow_rates_collection.py:16-20 *)
Definition o_new_item (time : Qc) (values : rates) : res item := Ok (mkItem time values).
(** flow_rates_collection.py:42-46 *)
Fixpoint o_rates_at (fns : list (nat * RC)) (time : Qc) : res rates :=
  match fns with
  | [] => Ok []
  | (i, f) :: r =>
      v <- o_rc_eval f time ;; rs <- o_rates_at r time ;;
      Ok (if qltb 0 v then (i, v) :: rs else rs)
  end.
(** flow_rates_collection.py:29-49 *)
Definition o_frc_init (fns : list (nat * RC)) : res FRC :=
  head <- o_new_item 0 [] ;;
  total <- o_rc_sum (map snd fns) (Fin 0) PInf ;;
  acc <- o_rc_integral total ;;
  let times := fold_left (fun ts p => merge_sorted ts (rc_times (snd p))) fns [] in
  items <- mapM (fun t => v <- o_rates_at fns t ;; o_new_item t v) times ;;
  Ok (mkFRC fns (head :: items) acc).
(** flow_rates_collection.py:90-92 *)
Fixpoint o_ext_fresh (fns : list (nat * RC)) (time : Qc) (values : rates) : res (list (nat * RC)) :=
  match values with
  | [] => Ok fns
  | (i, v) :: r => f <- o_rc_extend new_flow_fn time v ;; o_ext_fresh (dset fns i f) time r
  end.
(** flow_rates_collection.py:95-98 *)
Fixpoint o_ext_values (fns : list (nat * RC)) (time : Qc) (values : rates) : res (list (nat * RC)) :=
  match values with
  | [] => Ok fns
  | (i, v) :: r =>
      let f0 := match dget fns i with Some f => f | None => new_flow_fn end in
      f <- o_rc_extend f0 time v ;; o_ext_values (dset fns i f) time r
  end.
(** flow_rates_collection.py:99-101 *)
Fixpoint o_ext_zeros (fns : list (nat * RC)) (time : Qc) (tail_vals values : rates) : res (list (nat * RC)) :=
  match tail_vals with
  | [] => Ok fns
  | (i, _) :: r =>
      if dhas values i then o_ext_zeros fns time r values
      else f0 <- dfetch fns i ;; f <- o_rc_extend f0 time 0 ;; o_ext_zeros (dset fns i f) time r values
  end.
(** flow_rates_collection.py:85-104 *)
Definition o_frc_extend (c : FRC) (time : Qc) (values : rates) (values_sum : Qc) : res FRC :=
  it <- o_new_item time values ;;
  fns <- match c_chain c with
         | [] => o_ext_fresh (c_fns c) time values
         | i0 :: r =>
             fns1 <- o_ext_values (c_fns c) time values ;;
             o_ext_zeros fns1 time (it_vals (last r i0)) values
         end ;;
  acc <- o_extend_with_slope (c_acc c) time values_sum ;;
  Ok (mkFRC fns (c_chain c ++ [it]) acc).

(** ** dynamic_flow.py *)
(** dynamic_flow.py:86-95 *)
Definition o_flow_init (nw : Net) : res Flow :=
  c <- o_frc_init [] ;;
  let n := length (n_cap nw) in
  Ok (mkFlow 0 (repeat c n) (repeat c n) (repeat queue0 n) sq_empty dq_empty).
(** as [out_extend] *)
Definition o_out_extend (st : Flow) (e : nat) (time : Qc) (values : rates) (s : Qc) : res Flow :=
  c <- getn (f_out st) e ;; c' <- o_frc_extend c time values s ;;
  Ok (set_changes (set_out st (upd (f_out st) e c')) (sq_set (f_changes st) (e, time) (Fin time))).
(** as [queue_extend] *)
Definition o_queue_extend (st : Flow) (e : nat) (time slope : Qc) : res Flow :=
  f <- getn (f_q st) e ;; f' <- o_extend_with_slope f time slope ;; Ok (set_q st (upd (f_q st) e f')).
(** dynamic_flow.py:108-123 *)
Definition o_case_i (nw : Net) (st : Flow) (e : nat) (cur_queue : Qc) : res Flow :=
  cap <- getn (n_cap nw) e ;; tau <- getn (n_tau nw) e ;;
  w <- pydiv cur_queue cap ;;
  st1 <- o_out_extend st e (f_phi st + w + tau) [] 0 ;;
  st2 <- o_queue_extend st1 e (f_phi st) (if qeqb cur_queue 0 then 0 else - cap) ;;
  if qltb 0 cur_queue then d <- dq_set (f_dq st2) e (f_phi st + w) None ;; Ok (set_dq st2 d)
  else drop_depletion st2 e.
(** dynamic_flow.py:125-142 *)
Definition o_case_ii (nw : Net) (st : Flow) (e : nat) (new_inflow : rates) (cur_queue acc_in : Qc) : res Flow :=
  cap <- getn (n_cap nw) e ;; tau <- getn (n_tau nw) e ;;
  w <- pydiv cur_queue cap ;;
  let acc_out := qmin cap acc_in in
  factor <- pydiv acc_out acc_in ;;
  st1 <- o_out_extend st e (f_phi st + w + tau) (scale factor new_inflow) acc_out ;;
  st2 <- o_queue_extend st1 e (f_phi st) (qmax (acc_in - cap) 0) ;;
  drop_depletion st2 e.
(** dynamic_flow.py:144-165 *)
Definition o_case_iii (nw : Net) (st : Flow) (e : nat) (new_inflow : rates) (cur_queue acc_in : Qc) : res Flow :=
  cap <- getn (n_cap nw) e ;; tau <- getn (n_tau nw) e ;;
  w <- pydiv cur_queue cap ;;
  factor <- pydiv cap acc_in ;;
  st1 <- o_out_extend st e (f_phi st + w + tau) (scale factor new_inflow) cap ;;
  let slope := acc_in - cap in
  st2 <- o_queue_extend st1 e (f_phi st) slope ;;
  x <- pydiv cur_queue slope ;;
  let depl_time := f_phi st - x in
  d <- dq_set (f_dq st2) e depl_time (Some (depl_time + tau, (new_inflow, acc_in))) ;;
  Ok (set_dq st2 d).
(** dynamic_flow.py:190-202 *)
Definition o_extend_edge (nw : Net) (st : Flow) (p : nat * rates) : res Flow :=
  let e := fst p in let nf := snd p in
  c <- getn (f_in st) e ;;
  '(c1, old) <- frc_get c (f_phi st) ;;
  let st1 := set_in st (upd (f_in st) e c1) in
  if rates_eqb old nf then Ok st1
  else
    let acc_in := rates_sum nf in
    qe <- getn (f_q st1) e ;;
    qv <- o_eval_from_end qe (f_phi st1) ;;
    let cur_queue := qmax qv 0 in
    c2 <- o_frc_extend c1 (f_phi st1) nf acc_in ;;
    let st2 := set_in st1 (upd (f_in st1) e c2) in
    if qeqb acc_in 0 then o_case_i nw st2 e cur_queue
    else
      cap <- getn (n_cap nw) e ;;
      if (qeqb cur_queue 0 || qleb (cap - eps) acc_in)%bool
      then o_case_ii nw st2 e nf cur_queue acc_in
      else o_case_iii nw st2 e nf cur_queue acc_in.
(** dynamic_flow.py:167-176 *)
Definition o_deplete_one (st : Flow) : res Flow :=
  '(d, (e, t, ch)) <- dq_pop (f_dq st) ;;
  match t with
  | Fin depl_time =>
      st1 <- o_queue_extend (set_dq st d) e depl_time 0 ;;
      f <- getn (f_q st1) e ;;
      let f' := mkPL (pl_times f) (set_nth (pl_values f) (length (pl_values f) - 1) 0)
                     (pl_first f) (pl_last f) (pl_lo f) (pl_hi f) in
      let st2 := set_q st1 (upd (f_q st1) e f') in
      match ch with
      | None => Ok st2
      | Some (Fin ct, (v, s)) => o_out_extend st2 e ct v s
      | Some _ => Err NotModelled     (* times are finite *)
      end
  | _ => Err NotModelled
  end.
Fixpoint o_process_depletions (fuel : nat) (st : Flow) : res Flow :=
  match fuel with
  | O => Err OutOfFuel
  | S n =>
      if (ext_leb (dq_min_depl (f_dq st)) (Fin (f_phi st)) && (0 <? dq_len (f_dq st))%nat)%bool
      then st' <- o_deplete_one st ;; o_process_depletions n st'
      else Ok st
  end.
(** dynamic_flow.py:178-217 *)
Definition o_flow_extend (nw : Net) (st : Flow) (new_inflow : list (nat * rates)) (maxt : Qc) : res (Flow * list nat) :=
  st1 <- foldM (o_extend_edge nw) new_inflow st ;;
  match ext_min (ext_min (dq_min_change (f_dq st1)) (sq_min_key (f_changes st1))) (Fin maxt) with
  | Fin phi' =>
      let st2 := set_phi st1 phi' in
      st3 <- o_process_depletions (S (dq_len (f_dq st2))) st2 ;;
      pop_changes (S (sq_len (f_changes st3))) st3 []
  | _ => Err NotModelled
  end.
(** Runs of client calls, as DynRun.v *)
Definition o_flow_step (nw : Net) (st : Flow) (c : call) : res (Flow * list nat) :=
  match c with
  | CExtend ni maxt => o_flow_extend nw st ni maxt
  | COutflow e => c <- getn (f_out st) e ;; '(c', _) <- frc_get c (f_phi st) ;;
                  Ok (set_out st (upd (f_out st) e c'), [])
  end.
Fixpoint o_flow_from (nw : Net) (st : Flow) (cs : list call) : res Flow :=
  match cs with
  | [] => Ok st
  | c :: r => '(st', _) <- o_flow_step nw st c ;; o_flow_from nw st' r
  end.
Definition o_flow_run (nw : Net) (cs : list call) : res Flow := st <- o_flow_init nw ;; o_flow_from nw st cs.

(** ** dijkstra.py *)
(** dijkstra.py:10-35 *)
Definition o_reverse_dijkstra (g : graph) (sink : nat) (costs : list Qc) (nodes : list nat) : res (list (nat * Qc)) :=
  rd_loop (S (length (g_nodes g))) g costs nodes [(sink, 0)] (sq_set sq_empty sink (Fin 0)).
(** dijkstra.py:77-100 *)
Definition o_get_active_edges_from_dijkstra (g : graph) (r : ddresult) (source sink : nat) : res (list nat) :=
  ae_loop (S (length (g_nodes g))) g r source [] [sink] [sink].

(** ** flow_builder.py *)
(** flow_builder.py:36-89 *)
Definition o_fb_init (S : setup) : res builder :=
  flow <- o_flow_init (s_nw S) ;;
  imp <- important_all S ;;
  net <- mapM (fun v => c <- o_frc_init (net_fns (s_coms S) v) ;; Ok (v, c)) (map fst (g_nodes (s_graph S))) ;;
  Ok (mkB flow (map (fun _ => []) (s_coms S)) [] (f_phi flow) (f_phi flow) net (s_init (inflow_changes (s_coms S))) []).
(** flow_builder.py:100-113 *)
Definition o_edge_cost (nw : Net) (time : Qc) (predictions : list PL) (e : nat) : res PL :=
  p <- fetch predictions e ;; tau <- fetch (n_tau nw) e ;; cap <- fetch (n_cap nw) e ;;
  values <- mapM (fun v => q <- pydiv v cap ;; Ok (tau + q)) (pl_values p) ;;
  fs <- pydiv (pl_first p) cap ;; ls <- pydiv (pl_last p) cap ;;
  o_pl_init (pl_times p) values fs ls (Fin time) PInf.
(** flow_builder.py:91-114 *)
Definition o_get_costs (S : setup) (b : builder) (ty : nat) : res (builder * list PL) :=
  match dget (b_costs b) ty with
  | Some costs => Ok (b, costs)
  | None =>
      p <- dfetch (su_preds S) ty ;;
      predictions <- p_predict p (b_route b) (b_flow b) ;;
      costs <- mapM (o_edge_cost (s_nw S) (b_route b) predictions) (seq 0 (length (g_edges (s_graph S)))) ;;
      Ok (with_costs b (dset (b_costs b) ty costs), costs)
  end.
(** flow_builder.py:160-177 *)
Definition o_const_node (S : setup) (c : commodity) (costs : list Qc) (dist : list (nat * Qc))
    (active : list (list (nat * list nat))) (v : nat) : res (list (list (nat * list nat))) :=
  if Nat.eqb v (k_sink c) then Ok active else
  l <- tight_edges (s_graph S) costs dist v (outgoing (s_graph S) v) ;;
  Ok (share (s_coms S) (k_sink c) (k_pred c) active v l).
(** flow_builder.py:145-189 *)
Definition o_get_active_edges (S : setup) (b : builder) (i s : nat) : res (builder * list nat) :=
  match dget (nth i (b_active b) []) s with
  | Some l => Ok (b, l)
  | None =>
      c <- fetch (s_coms S) i ;;
      p <- dfetch (su_preds S) (k_pred c) ;;
      '(b1, costs) <- o_get_costs S b (k_pred c) ;;
      if p_const p then
        const <- mapM (fun f => pyget (pl_values f) 0) costs ;;
        dist <- o_reverse_dijkstra (s_graph S) (k_sink c) const (com_nodes S i) ;;
        active <- foldM (o_const_node S c const dist) (com_nodes S i) (b_active b1) ;;
        l <- dfetch (nth i active []) s ;;
        Ok (with_active b1 active, l)
      else
        r <- dynamic_dijkstra (s_graph S) (b_route b) s (k_sink c) (com_nodes S i) (map o_pl_eval costs) ;;
        l <- o_get_active_edges_from_dijkstra (s_graph S) r s (k_sink c) ;;
        Ok (with_active b1 (set_active (b_active b1) i s l), l)
  end.
(** flow_builder.py:211-224 *)
Definition o_assign (S : setup) (v : nat) (outflows : list rates) (net : rates)
    (st : builder * list (nat * rates)) (i : nat) : res (builder * list (nat * rates)) :=
  let '(b, ni) := st in
  let inflow := node_inflow i outflows net in
  if qltb inflow eps then Ok (b, ni) else
  '(b', active) <- o_get_active_edges S b i v ;;
  d <- pydiv inflow (qn (length active)) ;;
  ni' <- foldM (fun (ni : list (nat * rates)) e => row <- dfetch ni (e_id (s_graph S) e) ;;
                  Ok (dset ni (e_id (s_graph S) e) (dset row i d))) active ni ;;
  Ok (b', ni').
(** flow_builder.py:193-224 *)
Definition o_split_node (S : setup) (st : builder * list (nat * rates)) (v : nat) : res (builder * list (nat * rates)) :=
  let '(b, ni) := st in
  let g := s_graph S in
  let ni1 := fold_left (fun d e => dset d (e_id g e) []) (outgoing g v) ni in
  '(b1, outflows) <- foldM (get_outflow S) (incoming g v) (b, []) ;;
  c <- dfetch (b_net b1) v ;;
  '(c', net) <- frc_get c (f_phi (b_flow b1)) ;;
  let b2 := with_net b1 (dset (b_net b1) v c') in
  let used := filter (fun i => negb (mem i (ids_by_sink (s_coms S) v)))
                     (uniq (concat (map (map fst) outflows) ++ map fst net)) in
  foldM (o_assign S v outflows net) (su_ord S used) (b2, ni1).
(** flow_builder.py:191-225 *)
Definition o_determine_new_inflow (S : setup) (b : builder) : res (builder * list (nat * rates)) :=
  foldM (o_split_node S) (su_ord S (b_handle b)) (b, []).
(** flow_builder.py:122-144 *)
Definition o_fb_step (S : setup) (b : builder) : res builder :=
  b1 <- pop_due (Datatypes.S (sq_len (b_changes b))) b ;;
  b2 <- reroute S b1 ;;
  '(b3, ni) <- o_determine_new_inflow S b2 ;;
  match ext_min (Fin (b_next b3)) (sq_min_key (b_changes b3)) with
  | Fin maxt =>
      '(flow, changed) <- o_flow_extend (s_nw S) (b_flow b3) ni maxt ;;
      heads <- mapM (fun e => r <- fetch (g_edges (s_graph S)) e ;; Ok (e_to (s_graph S) r)) changed ;;
      Ok (with_handle (with_flow b3 flow) (uniq heads))
  | _ => Err NotModelled
  end.
(** flow_builder.py:116-144 *)
Fixpoint o_fb_run (S : setup) (n : nat) : res builder :=
  match n with
  | 0%nat => o_fb_init S
  | Datatypes.S m => b <- o_fb_run S m ;; o_fb_step S b
  end.

(** ** Measuring *)
(** dynamic_flow.py:219-241 [avg_travel_time] *)
Definition o_avg_travel_time (outflow : list FRC) (i : nat) (in_edges : list nat) (sources : list RC) (horizon : Qc) : res Qc :=
  cols <- mapM (fetch outflow) in_edges ;;
  net_out <- foldM o_rc_plus (flat_map (fun c => match dget (c_fns c) i with Some f => [f] | None => [] end) cols) new_flow_fn ;;
  acc_out <- o_rc_integral net_out ;;
  net_in <- foldM o_rc_plus sources new_flow_fn ;;
  acc_in <- o_rc_integral net_in ;;
  a <- o_integrate acc_in 0 horizon ;;
  b <- o_integrate acc_out 0 horizon ;;
  d <- o_pl_eval acc_in horizon ;;
  pydiv (a - b) d.
(** build_with_times.py:52-54 *)
Definition o_log_line (S : setup) (b : builder) (observe : list nat) : res (list Qc) :=
  mapM (fun i => c <- fetch (s_coms S) i ;;
    let g := s_graph S in
    o_avg_travel_time (f_out (b_flow b)) i (map (e_id g) (incoming g (k_sink c))) (map snd (k_sources c)) (f_phi (b_flow b))) observe.
(** build_with_times.py:62-88 *)
Fixpoint o_bwt_loop (fuel : nat) (S : setup) (horizon : Qc) (observe : list nat) (log : bool) (due : nat -> bool) (n : nat) (b : builder) : res (nat * builder) :=
  if qltb (f_phi (b_flow b)) horizon then
    match fuel with
    | 0%nat => Err OutOfFuel
    | Datatypes.S k =>
        b' <- o_fb_step S b ;;
        _ <- (if (log && due n)%bool then o_log_line S b' observe else Ok []) ;;
        o_bwt_loop k S horizon observe log due (Datatypes.S n) b'
    end
  else Ok (n, b).
(** build_with_times.py:11-95 *)
Definition o_build_with_times (fuel : nat) (S : setup) (horizon : Qc) (observe : list nat) (log : bool) (due : nat -> bool) : res (nat * builder) :=
  b <- o_fb_init S ;;
  '(n, b') <- o_bwt_loop fuel S horizon observe log due 0 b ;;
  _ <- (if log then if (n =? 0)%nat then Err NameError else o_log_line S b' observe else Ok []) ;;
  Ok (n, b').

(** ** The closed-form predictors *)
(** constant_predictor.py:17-26 *)
Definition o_constant_predict (pt : Qc) (st : Flow) : res (list PL) :=
  mapM (fun queue => curr_queue <- o_pl_eval queue pt ;; o_pl_init [pt] [curr_queue] 0 0 NInf PInf) (f_q st).
(** zero_predictor.py:17-21 *)
Definition o_zero_predict (pt : Qc) (st : Flow) : res (list PL) :=
  zero_fct <- o_pl_init [pt] [0] 0 0 NInf PInf ;; Ok (map (fun _ => zero_fct) (f_q st)).
(** linear_predictor.py:33-41, reg_linear_predictor.py:34-42 *)
Definition o_extrapolate (horizon pt curr_queue gradient : Qc) : res PL :=
  let new_queue := curr_queue + horizon * gradient in
  if (qltb new_queue 0 && qltb eps curr_queue)%bool then
    d <- pydiv curr_queue gradient ;; o_pl_init [pt; pt - d] [curr_queue; 0] 0 0 NInf PInf
  else o_pl_init [pt; pt + horizon] [curr_queue; new_queue] 0 0 NInf PInf.
(** linear_predictor.py:25-43 *)
Definition o_linear_predict (horizon pt : Qc) (st : Flow) : res (list PL) :=
  mapM (fun old_queue =>
    v <- o_pl_eval old_queue pt ;;
    r <- elem_rank (pl_times old_queue) pt ;; slope <- o_gradient old_queue r ;;
    o_extrapolate horizon pt (qmax 0 v) slope) (f_q st).
(** reg_linear_predictor.py:24-44 *)
Definition o_reg_linear_predict (horizon delta pt : Qc) (st : Flow) : res (list PL) :=
  mapM (fun old_queue =>
    v <- o_pl_eval old_queue pt ;; u <- o_pl_eval old_queue (pt - delta) ;;
    slope <- pydiv (qmax 0 v - qmax 0 u) delta ;;
    o_extrapolate horizon pt (qmax 0 v) slope) (f_q st).
