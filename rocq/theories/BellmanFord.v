(** * Model of src/core/bellman_ford.py *)
From Verif Require Import Base Spec Arrays PL PL2 RC FRC PQ PQSpec DynFlow Graph Dijkstra.

(** bellman_ford.py:26-31 the loop of [get_fifo_arrival_time] over the
    remaining (time, value) pairs; [prev] is [new_values[i]]. *)
Fixpoint fifo_values (prev : Qc) (l : list (Qc * Qc)) : res (list Qc) :=
  match l with
  | [] => Ok []
  | (t, v) :: r =>
      assert! qleb prev (v + eps) ;;
      let v' := qmax (qmax prev v) t in
      rs <- fifo_values v' r ;; Ok (v' :: rs)
  end.
(** bellman_ford.py:25-42 [get_fifo_arrival_time] *)
Definition get_fifo_arrival_time (f : PL) : res PL :=
  vals <- match pl_values f with
          | [] => Ok []
          | v :: r => rs <- fifo_values v (combine (tl (pl_times f)) r) ;; Ok (v :: rs)
          end ;;
  n <- pl_init (pl_times f) vals (pl_first f) (pl_last f) (pl_lo f) (pl_hi f) ;;
  Ok (if qltb (pl_last n) 1 then mkPL (pl_times n) (pl_values n) (pl_first n) 1 (pl_lo n) (pl_hi n) else n).

(** Ghost record of the calls to piecewise linear operations whose exactness
    depends on the data; not part of the code. *)
Inductive ev :=
  | EvSimplify (f r : PL) | EvMin (f g r : PL) | EvLe (f g : PL) (b : bool) | EvCompose (g f r : PL).

(** bellman_ford.py:44-46 one entry of [edge_arrival_times] *)
Definition edge_arrival (identity cost : PL) : res (PL * ev) :=
  p <- pl_plus identity cost ;; q <- get_fifo_arrival_time p ;; r <- simplify q ;; Ok (r, EvSimplify q r).

(** [max_t_below] (piecewise_linear.py:427-448, no default) for a bound that
    may be +inf: then no value exceeds the bound and the domain end is
    returned. *)
Definition max_t_below_any (f : PL) (bound : ext) : res ext :=
  match bound with
  | Fin b => max_t_below f b
  | PInf => assert! is_monotone f ;; _ <- pl_eval_ext f (pl_lo f) ;; _ <- pl_eval_ext f (pl_hi f) ;; Ok (pl_hi f)
  | NInf => Err NotModelled
  end.

(** Labels [g], [node_distance], [changes_detected_at], and the ghost trace. *)
Record bfstate := mkBF { b_labels : list (nat * PL); b_dist : list (nat * Qc); b_queue : @squeue nat; b_trace : list ev }.

(** [if v not in changes_detected_at: changes_detected_at.push(v, node_distance[v])] *)
Definition bf_push (dist : list (nat * Qc)) (q : @squeue nat) (v : nat) : res (@squeue nat) :=
  if sq_has q v then Ok q else d <- dfetch dist v ;; sq_push q v (Fin d).

(** bellman_ford.py:54-73 the body of the inner [for] loop.  The test at 61-62
    never succeeds: both calls raise instead of returning None. *)
Definition bf_edge (g : graph) (interesting : list nat) (arr : list PL) (w : nat) (st : bfstate) (e : nat) : res bfstate :=
  let v := e_from g e in
  if negb (mem v interesting) then Ok st else
  T <- fetch arr (e_id g e) ;;
  gw <- dfetch (b_labels st) w ;;
  lo <- match pl_lo gw with Fin b => min_t_above T b | _ => Err NotModelled end ;;
  hi <- max_t_below_any T (pl_hi gw) ;;
  R <- restrict T (Fin lo) hi ;;
  relaxation <- compose gw R ;;
  let tr1 := EvCompose gw R relaxation :: b_trace st in
  match dget (b_labels st) v with
  | None =>
      dw <- dfetch (b_dist st) w ;;
      let dist := dset (b_dist st) v (dw + 1) in
      q <- bf_push dist (b_queue st) v ;;
      l <- simplify relaxation ;;
      Ok (mkBF (dset (b_labels st) v l) dist q (EvSimplify relaxation l :: tr1))
  | Some gv =>
      b <- smaller_equals gv relaxation ;;
      let tr2 := EvLe gv relaxation b :: tr1 in
      if (b : bool) then Ok (mkBF (b_labels st) (b_dist st) (b_queue st) tr2)
      else
        q <- bf_push (b_dist st) (b_queue st) v ;;
        m <- outer_minimum gv relaxation ;;
        l <- simplify m ;;
        Ok (mkBF (dset (b_labels st) v l) (b_dist st) q (EvSimplify m l :: EvMin gv relaxation m :: tr2))
  end.
(** bellman_ford.py:53-73 one node of the round *)
Definition bf_node (g : graph) (interesting : list nat) (arr : list PL) (st : bfstate) (w : nat) : res bfstate :=
  foldM (bf_edge g interesting arr w) (incoming g w) st.
(** [changed_nodes.sorted()] *)
Definition sq_sorted (q : @squeue nat) : list nat := map e_item (s_order (length (s_entries q)) (s_entries q)).
(** bellman_ford.py:50-73 one round of the [while] loop *)
Definition bf_round (g : graph) (interesting : list nat) (arr : list PL) (st : bfstate) : res bfstate :=
  foldM (bf_node g interesting arr) (sq_sorted (b_queue st)) (mkBF (b_labels st) (b_dist st) sq_empty (b_trace st)).
(** bellman_ford.py:50-73 at most [n] rounds *)
Fixpoint bf_rounds (n : nat) (g : graph) (interesting : list nat) (arr : list PL) (st : bfstate) : res bfstate :=
  match n with
  | O => Ok st
  | S k => if (0 <? sq_len (b_queue st))%nat
           then st' <- bf_round g interesting arr st ;; bf_rounds k g interesting arr st'
           else Ok st
  end.
(** bellman_ford.py:11-49 everything before the loop *)
Definition bf_init (sink : nat) (costs : list PL) (phi : Qc) (horizon : ext) : res (list PL * bfstate) :=
  identity <- pl_init [phi] [phi] 1 1 (Fin phi) horizon ;;
  arr <- mapM (edge_arrival identity) costs ;;
  Ok (map fst arr, mkBF [(sink, identity)] [(sink, 0)] (sq_set sq_empty sink (Fin 0)) (rev (map snd arr))).
(** bellman_ford.py:11-74 [bellman_ford]; [fuel] bounds the number of rounds.
    Returns the labels and the ghost trace. *)
Definition bellman_ford (fuel : nat) (g : graph) (sink : nat) (costs : list PL) (interesting : list nat)
    (phi : Qc) (horizon : ext) : res (list (nat * PL) * list ev) :=
  '(arr, st) <- bf_init sink costs phi horizon ;;
  st' <- bf_rounds fuel g interesting arr st ;;
  if (0 <? sq_len (b_queue st'))%nat then Err OutOfFuel else Ok (b_labels st', b_trace st').
