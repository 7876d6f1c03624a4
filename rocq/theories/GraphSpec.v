(** * Specification vocabulary for graphs and networks (C45-C49) *)
From Verif Require Import Base Arrays PL RC FRC DynFlow Graph.

Definition node_ids (g : graph) : list nat := map fst (g_nodes g).
(** What a user sees: the list of (tail, head) of [graph.edges], in order. *)
Definition arcs (g : graph) : list (nat * nat) := map (fun r => (e_from g r, e_to g r)) (g_edges g).
Definition swap (p : nat * nat) : nat * nat := (snd p, fst p).

(** The incidence structure is consistent: ids are positions in [graph.edges];
    no edge or node occurs twice; the ends of every edge are nodes; and the
    outgoing (incoming) list of every node contains exactly the edges of
    [graph.edges] with that tail (head), each once, in the order of
    [graph.edges]. *)
Record consistent (g : graph) : Prop := mkConsistent {
  cs_ids : forall i r, nth_error (g_edges g) i = Some r -> e_id g r = i;
  cs_edges : NoDup (g_edges g);
  cs_nodes : NoDup (node_ids g);
  cs_ends : forall r, In r (g_edges g) -> In (e_from g r) (node_ids g) /\ In (e_to g r) (node_ids g);
  cs_out : forall v, outgoing g v = filter (fun r => Nat.eqb (e_from g r) v) (g_edges g);
  cs_in : forall v, incoming g v = filter (fun r => Nat.eqb (e_to g r) v) (g_edges g);
  cs_alive : forall r, In r (g_edges g) -> (r < length (g_heap g))%nat }.

(** [w] can be reached from [v] along zero or more edges, given as arcs. *)
Inductive path (A : list (nat * nat)) : nat -> nat -> Prop :=
  | path_here v : path A v v
  | path_step u v w : path A u v -> In (v, w) A -> path A u w.

(** Histories of user calls on a graph. *)
Inductive gop := GAdd (a b : nat) | GReverse.
Definition gstep (g : graph) (o : gop) : graph :=
  match o with GAdd a b => add_edge g a b | GReverse => g_reverse g end.
Definition grun (h : list gop) : graph := fold_left gstep h g_empty.
(** [rev] is the state of the flag before the history. Edges are only added
    while the graph is not reversed. *)
Fixpoint adds_unreversed (rev : bool) (h : list gop) : Prop :=
  match h with
  | [] => True
  | GAdd _ _ :: r => rev = false /\ adds_unreversed rev r
  | GReverse :: r => adds_unreversed (negb rev) r
  end.
Fixpoint added (h : list gop) : list (nat * nat) :=
  match h with [] => [] | GAdd a b :: r => (a, b) :: added r | GReverse :: r => added r end.
Fixpoint reversed_after (rev : bool) (h : list gop) : bool :=
  match h with [] => rev | GAdd _ _ :: r => reversed_after rev r | GReverse :: r => reversed_after (negb rev) r end.

(** Histories of user calls on a network: the edge removed is given by its
    current position (id). *)
Inductive nop := NAdd (a b : nat) (travel_time capacity : Qc) | NRemove (i : nat) | NReverse.
Definition nstep (n : network) (o : nop) : res network :=
  match o with
  | NAdd a b t c => Ok (nw_add_edge n a b t c)
  | NRemove i => match nth_error (g_edges (w_graph n)) i with
                 | Some r => nw_remove_edge n r
                 | None => Err IndexError
                 end
  | NReverse => Ok (mkNw (g_reverse (w_graph n)) (w_cap n) (w_tau n) (w_com n))
  end.
Definition nrun (h : list nop) : res network := foldM nstep h nw_empty.

(** The abstract contents: one row per edge still present; [x_ref] tells which
    of the created edges it is (0 = the first one created). *)
Record row := mkRow { x_ref : nat; x_from : nat; x_to : nat; x_tau : Qc; x_cap : Qc }.
Record table := mkTable { t_rows : list row; t_created : nat; t_rev : bool }.
Definition tstep (t : table) (o : nop) : table :=
  match o with
  | NAdd a b tau c => mkTable (t_rows t ++ [mkRow (t_created t) a b tau c]) (S (t_created t)) (t_rev t)
  | NRemove i => mkTable (firstn i (t_rows t) ++ skipn (S i) (t_rows t)) (t_created t) (t_rev t)
  | NReverse => mkTable (t_rows t) (t_created t) (negb (t_rev t))
  end.
Definition trun (h : list nop) : table := fold_left tstep h (mkTable [] 0 false).
Fixpoint nvalid (t : table) (h : list nop) : Prop :=
  match h with
  | [] => True
  | o :: r => match o with
              | NAdd _ _ _ _ => t_rev t = false
              | NRemove i => (i < length (t_rows t))%nat
              | NReverse => True
              end /\ nvalid (tstep t o) r
  end.
