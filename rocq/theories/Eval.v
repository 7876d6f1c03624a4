(** * Model of src/eval/predicted_delay.py, of [avg_travel_time]
      (src/core/dynamic_flow.py:219-241), of
      src/utilities/combine_commodities.py and of [merge_commodities]
      (src/visualization/to_json.py) *)
From Coq Require Import Qround.
From Verif Require Import Base Spec Arrays PL RC FRC PQ PQSpec DynFlow Graph Dijkstra FlowBuilder Predictors.

(** Python's [any] over a generator that may raise *)
Fixpoint anyM {A} (f : A -> res bool) (l : list A) : res bool :=
  match l with
  | [] => Ok false
  | x :: r => b <- f x ;; if b then Ok true else anyM f r
  end.
(** [range(a, b)] *)
Definition zrange (a b : Z) : list Z := map (fun i => (a + Z.of_nat i)%Z) (seq 0 (Z.to_nat (b - a))).

(** predicted_delay.py:178-184 [is_positive_during] *)
Definition is_positive_during (f : RC) (start end_ : Qc) : res bool :=
  sr <- elem_lrank (rc_times f) start ;;
  er <- elem_rank (rc_times f) end_ ;;
  anyM (fun rank => v <- pyget (rc_values f) (Z.max 0 rank) ;; Ok (qltb eps v)) (zrange sr (er + 1)).

(** predicted_delay.py:153-175 [get_pred_edge_delay]; [edge_idx] is the
    position of the edge in [network.graph.edges]. *)
Definition get_pred_edge_delay (at_ : Qc) (edge_idx : nat) (g : graph) (sink : nat) (com : list nat) (costs : list PL) : res Qc :=
  edge <- fetch (g_edges g) edge_idx ;;
  let fns := map pl_eval costs in
  r <- dynamic_dijkstra g at_ (e_from g edge) sink com fns ;;
  active <- get_active_edges_from_dijkstra g r (e_from g edge) sink ;;
  if mem edge active then Ok 0 else
  f <- fetch fns edge_idx ;; c <- f at_ ;;
  r2 <- dynamic_dijkstra g (at_ + c) (e_to g edge) sink com fns ;;
  t2 <- dfetch (dd_arrival r2) sink ;;
  t1 <- dfetch (dd_arrival r) sink ;;
  Ok (t2 - t1).

(** predicted_delay.py:19-24 [DelayWitness]; [wi_end]: occured at the end. *)
Record witness := mkWit { wi_from : Qc; wi_to : Qc; wi_at_end : bool; wi_edge : nat }.

(** predicted_delay.py:88-126 the body of the loop over the edges.  [s] is
    (max_eps, witness, delays_at_start, delays_at_end). *)
Definition delay_state := (Qc * option witness * list (nat * Qc) * list (nat * Qc))%type.
Definition delay_edge (delay : Qc -> nat -> list PL -> res Qc) (comm : nat) (a b : Qc) (costs_a costs_b : list PL)
    (s : delay_state) (p : nat * FRC) : res delay_state :=
  let '(mx, wit, ds, de) := s in
  let '(e, col) := p in
  match dget (c_fns col) comm with
  | None => Ok s
  | Some inflow =>
      pos <- is_positive_during inflow a b ;;
      if negb pos then Ok s else
      ds <- (if dhas ds e then Ok ds else d <- delay a e costs_a ;; Ok (dset ds e d)) ;;
      d0 <- dfetch ds e ;;
      let '(mx, wit) := if qltb mx d0 then (d0, Some (mkWit a b false e)) else (mx, wit) in
      d1 <- delay b e costs_b ;;
      let de := dset de e d1 in
      let '(mx, wit) := if qltb mx d1 then (d1, Some (mkWit a b true e)) else (mx, wit) in
      Ok (mx, wit, ds, de)
  end.
(** predicted_delay.py:78-131 the loop over the measurement intervals; [pts]
    are the remaining times with their predictions, the first being
    [interval_start] with [costs_at_start]. *)
Fixpoint delay_loop (delay : Qc -> nat -> list PL -> res Qc) (nw : network) (comm : nat) (inflow : list FRC)
    (a : Qc) (costs_a : list PL) (ds : list (nat * Qc)) (mx : Qc) (wit : option witness)
    (rest : list (Qc * list PL)) : res (Qc * option witness) :=
  match rest with
  | [] => Ok (mx, wit)
  | (b, preds_b) :: r =>
      costs_b <- costs_from_preds nw preds_b b ;;
      '(mx', wit', _, de) <- foldM (delay_edge delay comm a b costs_a costs_b) (enum inflow) (mx, wit, ds, []) ;;
      delay_loop delay nw comm inflow b costs_b de mx' wit' r
  end.
(** predicted_delay.py:62-68 [pred_times] *)
Definition measurement_times (horizon : Qc) (future : nat) (pred_interval reroute_interval : Qc) : res (list Qc) :=
  let eval_horizon := horizon - (qn future + 1) * pred_interval in
  let mi := reroute_interval / Q2Qc (2 # 1) in
  q <- pydiv eval_horizon mi ;;
  Ok (map (fun i => qn i * mi) (seq 0 (Z.to_nat (Qfloor (this q) + 1)))).
(** predicted_delay.py:50-138 one round of the loop over the commodities.
    [batch] is [predictor.batch_predict(-, flow)] of the commodity's predictor. *)
Definition max_predicted_delay (flow : Flow) (nw : network) (batch : list Qc -> res (list (list PL))) (comm : nat)
    (future : nat) (reroute_interval pred_interval horizon : Qc) : res (Qc * option witness) :=
  c <- fetch (w_com nw) comm ;;
  com <- important (w_graph nw) c ;;
  times <- measurement_times horizon future pred_interval reroute_interval ;;
  preds <- batch times ;;
  t0 <- fetch times 0 ;; p0 <- fetch preds 0 ;;
  costs0 <- costs_from_preds nw p0 t0 ;;
  (** predictions are indexed by [k + 1]; too few of them raise IndexError *)
  rest <- mapM (fun k => t <- fetch times k ;; p <- fetch preds k ;; Ok (t, p)) (seq 1 (length times - 1)) ;;
  delay_loop (fun t e costs => get_pred_edge_delay t e (w_graph nw) (k_sink c) com costs) nw comm (f_in flow)
    t0 costs0 [] 0 None rest.

(** Python's [sum(fs, start=RightConstant([0.0], [0.0], (0, inf)))] *)
Definition rc_sum_from_zero (fs : list RC) : res RC := foldM rc_plus fs new_flow_fn.
(** dynamic_flow.py:219-241 [avg_travel_time].  [in_edges] are the ids of
    [commodity.sink.incoming_edges], [sources] the values of
    [commodity.sources], [outflow] the flow's outflow collections. *)
Definition avg_travel_time (outflow : list FRC) (i : nat) (in_edges : list nat) (sources : list RC) (horizon : Qc) : res Qc :=
  cols <- mapM (fetch outflow) in_edges ;;
  net_out <- rc_sum_from_zero (flat_map (fun c => match dget (c_fns c) i with Some f => [f] | None => [] end) cols) ;;
  acc_out <- rc_integral net_out ;;
  net_in <- rc_sum_from_zero sources ;;
  acc_in <- rc_integral net_in ;;
  a <- integrate acc_in 0 horizon ;;
  b <- integrate acc_out 0 horizon ;;
  d <- pl_eval acc_in horizon ;;
  pydiv (a - b) d.

(** ** combine_commodities.py *)
Definition key_eqb (a b : nat * nat) : bool := (Nat.eqb (fst a) (fst b) && Nat.eqb (snd a) (snd b))%bool.
(** combine_commodities.py:11-19 [groups]: a dict from (predictor type, sink)
    to a set of commodities, here a list of commodity objects; commodities are
    compared by identity, here by their position in [network.commodities]
    (all distinct objects). *)
Fixpoint group_add (gs : list ((nat * nat) * list nat)) (k : nat * nat) (i : nat) : list ((nat * nat) * list nat) :=
  match gs with
  | [] => [(k, [i])]
  | (k', l) :: r => if key_eqb k' k then (k', set_add i l) :: r else (k', l) :: group_add r k i
  end.
Definition com_groups (cs : list commodity) (exceptions : list nat) : list ((nat * nat) * list nat) :=
  fold_left (fun gs p => if mem (fst p) exceptions then gs else group_add gs (k_pred (snd p), k_sink (snd p)) (fst p)) (enum cs) [].
(** combine_commodities.py:24-28 the loop over [commodity.sources.items()] *)
Definition add_source (acc : list (nat * RC)) (p : nat * RC) : res (list (nat * RC)) :=
  match dget acc (fst p) with
  | None => Ok (dset acc (fst p) (snd p))
  | Some f => g <- rc_plus f (snd p) ;; Ok (dset acc (fst p) g)
  end.
Definition group_sources (cs : list commodity) (group : list nat) : res (list (nat * RC)) :=
  foldM (fun acc i => c <- fetch cs i ;; foldM add_source (k_sources c) acc) group [].
(** combine_commodities.py:8-31 [combine_commodities_with_same_sink]; [ord] is
    the order in which Python iterates over a set. *)
Definition combine_commodities (nw : network) (exceptions : list nat) (ord : list nat -> list nat) : res network :=
  merged <- mapM (fun g => s <- group_sources (w_com nw) (ord (snd g)) ;; Ok (mkCom s (snd (fst g)) (fst (fst g))))
                 (com_groups (w_com nw) exceptions) ;;
  kept <- mapM (fetch (w_com nw)) (ord exceptions) ;;
  Ok (mkNw (w_graph nw) (w_cap nw) (w_tau nw) (merged ++ kept)).

(** ** to_json.py:13-35 [merge_commodities] *)
(** to_json.py:22-30 the loop of [merge_collection]; [new_id = min(commodities)] *)
Definition merge_step (coms : list nat) (new_id : nat) (d : list (nat * RC)) (p : nat * RC) : res (list (nat * RC)) :=
  if negb (mem (fst p) coms) then Ok (dset d (fst p) (snd p))
  else match dget d new_id with
       | None => Ok (dset d new_id (snd p))
       | Some f => g <- rc_plus f (snd p) ;; Ok (dset d new_id g)
       end.
(** to_json.py:20-31 [merge_collection] *)
Definition merge_collection (coms : list nat) (new_id : nat) (old : FRC) : res FRC :=
  d <- foldM (merge_step coms new_id) (c_fns old) [] ;;
  d' <- match dget d new_id with
        | Some f => g <- rc_simplify f ;; Ok (dset d new_id g)
        | None => Ok d
        end ;;
  frc_init d'.
Fixpoint list_min (m : nat) (l : list nat) : nat := match l with [] => m | x :: r => list_min (Nat.min m x) r end.
(** to_json.py:13-35 [merge_commodities]: the new inflow and outflow
    collections (the queues are those of the old flow). *)
Definition merge_commodities (coms : list nat) (inflow outflow : list FRC) : res (list FRC * list FRC) :=
  match coms with
  | [] => Ok (inflow, outflow)
  | c0 :: r =>
      let id := list_min c0 r in
      i <- mapM (merge_collection coms id) inflow ;;
      o <- mapM (merge_collection coms id) outflow ;;
      Ok (i, o)
  end.
