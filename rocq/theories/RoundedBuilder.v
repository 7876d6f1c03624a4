(** * FlowBuilder with floating-point arithmetic

    core/flow_builder.py and what it uses, with every addition, subtraction,
    multiplication and division rounded ([rnd], see Rounded.v); [on] says
    whether assertions are executed.  Predictors stay unspecified.  The
    assertion that the sink is relevant (dijkstra.py:13) and that some edge is
    active (dijkstra.py:99) are kept as in Rounded.v: they hold. *)
From Verif Require Import Base Spec Arrays PL RC FRC PQ PQSpec DynFlow Graph Dijkstra FlowBuilder Rounded RoundedFlow.

Section B.
Variable rnd : Qc -> Qc.
Variable on : bool.
Notation ep := (r_eps rnd).

(** ** arrays.py *)
(** arrays.py:74-77, 92-95, 98-101, 105-108, 111-114 *)
Definition r_push_merged (merged : list Qc) (v : Qc) : list Qc :=
  match merged with
  | [] => [v]
  | m :: r =>
      if qltb m (rnd (v - ep)) then v :: merged
      else if (qleb (rnd (v - ep)) m && qltb m v)%bool then v :: r
      else merged
  end.
(** arrays.py:86-117 *)
Fixpoint r_merge_loop (arr1 : list Qc) : list Qc -> list Qc -> list Qc :=
  fix inner (arr2 : list Qc) (merged : list Qc) : list Qc :=
    match arr1, arr2 with
    | x :: r1, y :: r2 =>
        if qltb x y then r_merge_loop r1 arr2 (r_push_merged merged x)
        else inner r2 (r_push_merged merged y)
    | _, [] => fold_left r_push_merged arr1 merged
    | [], _ => fold_left r_push_merged arr2 merged
    end.
(** arrays.py:82-117 *)
Definition r_merge_sorted (arr1 arr2 : list Qc) : list Qc := rev (r_merge_loop arr1 arr2 []).
(** arrays.py:65-78 *)
Fixpoint r_merge_many_loop (fuel : nat) (arrs : list (list Qc)) (merged : list Qc) : res (list Qc) :=
  match fuel with
  | O => Err OutOfFuel
  | S k =>
      match pick_min arrs with
      | None => Ok (rev merged)
      | Some (v, arrs') => r_merge_many_loop k arrs' (r_push_merged merged v)
      end
  end.
(** arrays.py:58-79 *)
Definition r_merge_sorted_many (arrs : list (list Qc)) : res (list Qc) :=
  r_merge_many_loop (S (length (concat arrs))) arrs [].

(** ** piecewise_linear.py *)
(** piecewise_linear.py:51-53 *)
Fixpoint r_gaps_ok (l : list Qc) : bool :=
  match l with
  | a :: (b :: _) as r => (qltb a (rnd (b - ep)) && r_gaps_ok r)%bool
  | _ => true
  end.
(** piecewise_linear.py:29-53 *)
Definition r_pl_init (times values : list Qc) (first last : Qc) (lo hi : ext) : res PL :=
  _ <- asr on ((zlen values =? zlen times)%Z && (1 <=? zlen times)%Z)%bool ;;
  _ <- asr on (forallb (fun t => ext_leb lo (Fin t) && ext_leb (Fin t) hi)%bool times) ;;
  _ <- asr on (r_gaps_ok times) ;;
  Ok (mkPL times values first last lo hi).

(** ** right_constant.py *)
(** right_constant.py:32-49 *)
Definition r_rc_init (times values : list Qc) (lo hi : ext) : res RC :=
  _ <- asr on (zlen values =? zlen times)%Z ;;
  _ <- asr on (forallb (fun t => ext_leb lo (Fin t) && ext_leb (Fin t) hi)%bool times) ;;
  Ok (mkRC times values lo hi).
(** right_constant.py:71-79 *)
Definition r_rc_eval_with_lrank (f : RC) (at_ : Qc) (rnk : Z) : res Qc :=
  _ <- asr on (ext_leb (rc_lo f) (Fin at_) && ext_leb (Fin at_) (rc_hi f))%bool ;;
  _ <- asr on ((-1 <=? rnk)%Z && (rnk <=? rc_len f)%Z)%bool ;;
  _ <- (if on then r <- elem_lrank (rc_times f) at_ ;; assertb (rnk =? r)%Z else Ok tt) ;;
  if (rnk =? -1)%Z then pyget (rc_values f) 0 else pyget (rc_values f) rnk.
(** right_constant.py:51-52, 66-69 *)
Definition r_rc_eval (f : RC) (at_ : Qc) : res Qc :=
  _ <- asr on (ext_leb (rc_lo f) (Fin at_) && ext_leb (Fin at_) (rc_hi f))%bool ;;
  rnk <- elem_lrank (rc_times f) at_ ;;
  r_rc_eval_with_lrank f at_ rnk.
(** right_constant.py:138-140 *)
Fixpoint r_sum_at (acc : Qc) (fs : list RC) (ptrs : list Z) : res Qc :=
  match fs, ptrs with
  | f :: fs', p :: ps' => v <- pyget (rc_values f) p ;; r_sum_at (rnd (acc + v)) fs' ps'
  | _, _ => Ok acc
  end.
(** right_constant.py:131-140 *)
Fixpoint r_sum_loop (fs : list RC) (ptrs : list Z) (times : list Qc) : res (list Qc) :=
  match times with
  | [] => Ok []
  | t :: r =>
      ptrs' <- advs fs ptrs t ;;
      v <- r_sum_at 0 fs ptrs' ;;
      vs <- r_sum_loop fs ptrs' r ;; Ok (v :: vs)
  end.
(** right_constant.py:123-141 *)
Definition r_rc_sum (fs : list RC) (lo hi : ext) : res RC :=
  match fs with
  | [] => r_rc_init [0] [0] lo hi
  | _ =>
      times <- r_merge_sorted_many (map rc_times fs) ;;
      values <- r_sum_loop fs (map (fun _ => 0%Z) fs) times ;;
      r_rc_init times values lo hi
  end.
(** right_constant.py:173-175 *)
Fixpoint r_integral_vals (acc : Qc) (times values : list Qc) : list Qc :=
  match times, values with
  | t :: (t' :: _) as r, v :: vs => acc :: r_integral_vals (rnd (acc + rnd (v * rnd (t' - t)))) r vs
  | [_], _ => [acc]
  | _, _ => []
  end.
(** right_constant.py:167-178 *)
Definition r_rc_integral (f : RC) : res PL :=
  t0 <- pyget (rc_times f) 0 ;; tl <- pyget (rc_times f) (-1) ;;
  _ <- asr on (ext_eqb (Fin t0) (rc_lo f) && ext_leb (Fin (rnd (tl + 1))) (rc_hi f))%bool ;;
  v0 <- pyget (rc_values f) 0 ;; vl <- pyget (rc_values f) (-1) ;;
  r_pl_init (rc_times f) (r_integral_vals 0 (rc_times f) (rc_values f)) v0 vl (rc_lo f) (rc_hi f).

(** ** flow_rates_collection.py *)
(** flow_rates_collection.py:42-46 *)
Fixpoint r_rates_at (fns : list (nat * RC)) (time : Qc) : res rates :=
  match fns with
  | [] => Ok []
  | (i, f) :: r =>
      v <- r_rc_eval f time ;; rs <- r_rates_at r time ;;
      Ok (if qltb 0 v then (i, v) :: rs else rs)
  end.
(** flow_rates_collection.py:29-49 *)
Definition r_frc_init (fns : list (nat * RC)) : res FRC :=
  head <- r_new_item on 0 [] ;;
  total <- r_rc_sum (map snd fns) (Fin 0) PInf ;;
  acc <- r_rc_integral total ;;
  let times := fold_left (fun ts p => r_merge_sorted ts (rc_times (snd p))) fns [] in
  items <- mapM (fun t => v <- r_rates_at fns t ;; r_new_item on t v) times ;;
  Ok (mkFRC fns (head :: items) acc).

(** ** flow_builder.py *)
(** flow_builder.py:36-89 *)
Definition r_fb_init (S : setup) : res builder :=
  flow <- r_flow_init (s_nw S) ;;
  imp <- important_all S ;;
  net <- mapM (fun v => c <- r_frc_init (net_fns (s_coms S) v) ;; Ok (v, c)) (map fst (g_nodes (s_graph S))) ;;
  _ <- asr on (forallb (fun p => forallb (fun q => mem (fst q) (nth (fst p) imp [])) (k_sources (snd p))) (enum (s_coms S))) ;;
  Ok (mkB flow (map (fun _ => []) (s_coms S)) [] (f_phi flow) (f_phi flow) net (s_init (inflow_changes (s_coms S))) []).
(** flow_builder.py:100-113 *)
Definition r_edge_cost (nw : Net) (time : Qc) (predictions : list PL) (e : nat) : res PL :=
  p <- fetch predictions e ;; tau <- fetch (n_tau nw) e ;; cap <- fetch (n_cap nw) e ;;
  values <- mapM (fun v => q <- fdiv rnd v cap ;; Ok (rnd (tau + q))) (pl_values p) ;;
  fs <- fdiv rnd (pl_first p) cap ;; ls <- fdiv rnd (pl_last p) cap ;;
  r_pl_init (pl_times p) values fs ls (Fin time) PInf.
(** flow_builder.py:91-114 *)
Definition r_get_costs (S : setup) (b : builder) (ty : nat) : res (builder * list PL) :=
  match dget (b_costs b) ty with
  | Some costs => Ok (b, costs)
  | None =>
      p <- dfetch (su_preds S) ty ;;
      predictions <- p_predict p (b_route b) (b_flow b) ;;
      costs <- mapM (r_edge_cost (s_nw S) (b_route b) predictions) (seq 0 (length (g_edges (s_graph S)))) ;;
      Ok (with_costs b (dset (b_costs b) ty costs), costs)
  end.
(** flow_builder.py:160-177 *)
Definition r_const_node (S : setup) (c : commodity) (costs : list Qc) (dist : list (nat * Qc))
    (active : list (list (nat * list nat))) (v : nat) : res (list (list (nat * list nat))) :=
  if Nat.eqb v (k_sink c) then Ok active else
  l <- r_tight_edges rnd (s_graph S) costs dist v (outgoing (s_graph S) v) ;;
  _ <- asr on (0 <? length l)%nat ;;
  Ok (share (s_coms S) (k_sink c) (k_pred c) active v l).
(** flow_builder.py:145-189 *)
Definition r_get_active_edges (S : setup) (b : builder) (i s : nat) : res (builder * list nat) :=
  match dget (nth i (b_active b) []) s with
  | Some l => Ok (b, l)
  | None =>
      c <- fetch (s_coms S) i ;;
      p <- dfetch (su_preds S) (k_pred c) ;;
      '(b1, costs) <- r_get_costs S b (k_pred c) ;;
      if p_const p then
        const <- mapM (fun f => pyget (pl_values f) 0) costs ;;
        dist <- r_reverse_dijkstra rnd (s_graph S) (k_sink c) const (com_nodes S i) ;;
        active <- foldM (r_const_node S c const dist) (com_nodes S i) (b_active b1) ;;
        l <- dfetch (nth i active []) s ;;
        Ok (with_active b1 active, l)
      else
        r <- r_dynamic_dijkstra rnd (s_graph S) (b_route b) s (k_sink c) (com_nodes S i) (map (r_pl_eval rnd on) costs) ;;
        l <- r_get_active_edges_from_dijkstra rnd (s_graph S) r s (k_sink c) ;;
        Ok (with_active b1 (set_active (b_active b1) i s l), l)
  end.
(** flow_builder.py:212-216 *)
Definition r_node_inflow (i : nat) (outflows : list rates) (net : rates) : Qc :=
  let s := fold_left (fun acc d => match dget d i with Some v => rnd (acc + v) | None => acc end) outflows 0 in
  match dget net i with Some v => rnd (s + v) | None => s end.
(** flow_builder.py:211-224 *)
Definition r_assign (S : setup) (v : nat) (outflows : list rates) (net : rates)
    (st : builder * list (nat * rates)) (i : nat) : res (builder * list (nat * rates)) :=
  let '(b, ni) := st in
  let inflow := r_node_inflow i outflows net in
  if qltb inflow ep then Ok (b, ni) else
  '(b', active) <- r_get_active_edges S b i v ;;
  d <- fdiv rnd inflow (qn (length active)) ;;
  ni' <- foldM (fun (ni : list (nat * rates)) e => row <- dfetch ni (e_id (s_graph S) e) ;;
                  Ok (dset ni (e_id (s_graph S) e) (dset row i d))) active ni ;;
  Ok (b', ni').
(** flow_builder.py:193-224 *)
Definition r_split_node (S : setup) (st : builder * list (nat * rates)) (v : nat) : res (builder * list (nat * rates)) :=
  let '(b, ni) := st in
  let g := s_graph S in
  let ni1 := fold_left (fun d e => dset d (e_id g e) []) (outgoing g v) ni in
  '(b1, outflows) <- foldM (get_outflow S) (incoming g v) (b, []) ;;
  c <- dfetch (b_net b1) v ;;
  '(c', net) <- frc_get c (f_phi (b_flow b1)) ;;
  let b2 := with_net b1 (dset (b_net b1) v c') in
  let used := filter (fun i => negb (mem i (ids_by_sink (s_coms S) v)))
                     (uniq (concat (map (map fst) outflows) ++ map fst net)) in
  foldM (r_assign S v outflows net) (su_ord S used) (b2, ni1).
(** flow_builder.py:191-225 *)
Definition r_determine_new_inflow (S : setup) (b : builder) : res (builder * list (nat * rates)) :=
  foldM (r_split_node S) (su_ord S (b_handle b)) (b, []).
(** flow_builder.py:126-135 *)
Definition r_reroute (S : setup) (b : builder) : res builder :=
  if match su_interval S with None => true | Some _ => qleb (b_next b) (f_phi (b_flow b)) end then
    match su_interval S with
    | None => Err TypeError
    | Some r => Ok (mkB (b_flow b) (map (fun _ => []) (s_coms S)) (map fst (g_nodes (s_graph S)))
                        (rnd (b_next b + r)) (b_next b) (b_net b) (b_changes b) [])
    end
  else Ok b.
(** flow_builder.py:122-144 *)
Definition r_fb_step (S : setup) (b : builder) : res builder :=
  b1 <- pop_due (Datatypes.S (sq_len (b_changes b))) b ;;
  b2 <- r_reroute S b1 ;;
  '(b3, ni) <- r_determine_new_inflow S b2 ;;
  match ext_min (Fin (b_next b3)) (sq_min_key (b_changes b3)) with
  | Fin maxt =>
      '(flow, changed) <- r_flow_extend rnd on (s_nw S) (b_flow b3) ni maxt ;;
      heads <- mapM (fun e => r <- fetch (g_edges (s_graph S)) e ;; Ok (e_to (s_graph S) r)) changed ;;
      Ok (with_handle (with_flow b3 flow) (uniq heads))
  | _ => Err NotModelled
  end.
(** flow_builder.py:116-144 *)
Fixpoint r_fb_run (S : setup) (n : nat) : res builder :=
  match n with
  | 0%nat => r_fb_init S
  | Datatypes.S m => b <- r_fb_run S m ;; r_fb_step S b
  end.
End B.
(** core/predictors/zero_predictor.py:17-21; the constant predictor
    constant_predictor.py:17-26 with rounding *)
Definition r_zero_predict (rnd : Qc -> Qc) (on : bool) (pt : Qc) (st : Flow) : res (list PL) :=
  zero_fct <- r_pl_init rnd on [pt] [0] 0 0 NInf PInf ;; Ok (map (fun _ => zero_fct) (f_q st)).
Definition r_constant_predict (rnd : Qc -> Qc) (on : bool) (pt : Qc) (st : Flow) : res (list PL) :=
  mapM (fun queue => curr_queue <- r_pl_eval rnd on queue pt ;; r_pl_init rnd on [pt] [curr_queue] 0 0 NInf PInf) (f_q st).
