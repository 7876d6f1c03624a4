(** * Theorems about the shortest path searches (C40-C42).  Vocabulary: GraphSpec.v, DijkstraSpec.v *)
From Verif Require Import Base Spec Arrays PL RC FRC FRCProofs PQ PQSpec DynFlow DQProofs Graph GraphSpec GraphProofs Dijkstra DijkstraSpec DijkstraProofs DijkstraProofs2.

(** C40.  No exception and termination; every label is the cost of a walk; it
    exceeds the cost of no walk with [k] edges by more than [k * eps]; exactly
    the nodes with a walk are labelled; every edge inside the node set
    satisfies the triangle inequality up to [eps]; and every label except the
    sink's is attained exactly by an outgoing edge. *)
Theorem C40_reverse_dijkstra : forall g costs nodes sink, consistent g -> In sink (node_ids g) -> In sink nodes ->
  (forall e, In e (g_edges g) -> exists c, nth_error costs (e_id g e) = Some c /\ 0 <= c) ->
  exists dist, reverse_dijkstra g sink costs nodes = Ok dist /\ NoDup (map fst dist) /\ dget dist sink = Some 0 /\
    (forall v d, dget dist v = Some d -> exists k, walk_to g costs nodes sink v k d) /\
    (forall v k c, walk_to g costs nodes sink v k c -> exists d, dget dist v = Some d /\ d <= c + qn k * eps) /\
    (forall e dw, In e (g_edges g) -> In (e_from g e) nodes -> dget dist (e_to g e) = Some dw ->
       exists dv, dget dist (e_from g e) = Some dv /\ dv <= cost_of g costs e + dw + eps) /\
    (forall v d, dget dist v = Some d -> v <> sink ->
       exists e dw, In e (g_edges g) /\ e_from g e = v /\ dget dist (e_to g e) = Some dw /\ d = cost_of g costs e + dw).
Proof. intros g costs nodes sink A B C D. apply reverse_dijkstra_spec; auto. Qed.
Theorem C40_sink_outside : forall g costs nodes sink, ~ In sink nodes -> reverse_dijkstra g sink costs nodes = Err AssertionError.
Proof. intros g costs nodes sink H. unfold reverse_dijkstra. apply mem_false in H. rewrite H. reflexivity. Qed.

(** C41.  Arrival times are earliest arrival times; nodes without a label
    cannot be reached before the sink; the sink is labelled iff some walk
    reaches it; realised costs are the costs at the arrival times. *)
Theorem C41_dynamic_dijkstra : forall g phi source sink relevant costs c,
  consistent g -> In source (node_ids g) -> fifo_costs g phi costs c ->
  exists r, dynamic_dijkstra g phi source sink relevant costs = Ok r /\
    (forall v t, dget (dd_arrival r) v = Some t ->
       arrives g phi source relevant c v t /\ forall s, arrives g phi source relevant c v s -> t <= s) /\
    (forall v s, arrives g phi source relevant c v s -> dget (dd_arrival r) v = None ->
       exists ts, dget (dd_arrival r) sink = Some ts /\ ts <= s) /\
    ((exists ts, dget (dd_arrival r) sink = Some ts) <-> exists s, arrives g phi source relevant c sink s) /\
    (forall e cc, dget (dd_cost r) e = Some cc -> In e (g_edges g) /\ In (e_to g e) relevant /\
       exists t, dget (dd_arrival r) (e_from g e) = Some t /\ cc = c e t).
Proof.
  intros g phi source sink relevant costs c C S F.
  destruct (dynamic_dijkstra_spec g phi source sink relevant costs c C S F) as (r & E & [D1 D2 D3 _ _]).
  exists r. split; auto. split; auto. split; auto. split; auto. split.
  - intros [ts H]. exists ts. apply (D1 sink); auto.
  - intros [s H]. destruct (dget (dd_arrival r) sink) as [ts|] eqn:E2; eauto.
    destruct (D2 sink s H E2) as (ts & X & _). congruence.
Qed.

(** C42.  After a search that reached the sink, the active edges are exactly
    the edges leaving [source] that are tight within [eps] and from whose head
    the sink can be reached along tight edges; the list is non-empty and
    duplicate-free; nothing raises. *)
Theorem C42_active_edges : forall g phi source sink relevant costs c r,
  consistent g -> In source (node_ids g) -> In sink (node_ids g) -> fifo_costs g phi costs c ->
  dynamic_dijkstra g phi source sink relevant costs = Ok r ->
  (exists s, arrives g phi source relevant c sink s) -> source <> sink ->
  exists l, get_active_edges_from_dijkstra g r source sink = Ok l /\ NoDup l /\ l <> [] /\
    forall e, In e l <-> In e (g_edges g) /\ e_from g e = source /\ tight g r e /\ tight_path g r sink (e_to g e).
Proof.
  intros g phi source sink relevant costs c r C S T F E [s H] N.
  destruct (dynamic_dijkstra_spec g phi source sink relevant costs c C S F) as (r' & E' & G).
  assert (r' = r) by congruence. subst r'.
  apply (active_edges_spec g phi source sink relevant c C r G); auto.
  intro X. destruct (dg_early _ _ _ _ _ _ _ G sink s H X) as (ts & Y & _). congruence.
Qed.
(** Tight edges are what they should be: the realised cost of an edge never
    undercuts the arrival time at its head, so "tight within eps" means that
    taking the edge loses at most eps. *)
Theorem C42_tight_meaning : forall g phi source sink relevant costs c r e tv tw cc,
  consistent g -> In source (node_ids g) -> fifo_costs g phi costs c ->
  dynamic_dijkstra g phi source sink relevant costs = Ok r ->
  dget (dd_cost r) e = Some cc -> dget (dd_arrival r) (e_from g e) = Some tv -> dget (dd_arrival r) (e_to g e) = Some tw ->
  cc = c e tv /\ tw <= tv + cc.
Proof.
  intros g phi source sink relevant costs c r e tv tw cc C S F E R A B.
  destruct (dynamic_dijkstra_spec g phi source sink relevant costs c C S F) as (r' & E' & G).
  assert (r' = r) by congruence. subst r'. destruct (dg_R _ _ _ _ _ _ _ G e cc R) as (H1 & H2 & t & H3 & H4).
  assert (t = tv) by congruence. subst t. split; auto. subst cc.
  destruct (dg_arr _ _ _ _ _ _ _ G _ _ A) as [X _]. destruct (dg_arr _ _ _ _ _ _ _ G _ _ B) as [_ Y].
  apply Y. apply arr_step; auto.
Qed.
(** The case excluded above really raises. *)
Theorem C42_source_is_sink : forall g phi v relevant costs, consistent g -> In v (node_ids g) ->
  exists r, dynamic_dijkstra g phi v v relevant costs = Ok r /\ get_active_edges_from_dijkstra g r v v = Err AssertionError.
Proof.
  intros g phi v relevant costs C H. exists (mkDD [(v, phi)] []). split.
  - unfold dynamic_dijkstra. cbn [dd_loop]. cbn. rewrite Nat.eqb_refl. reflexivity.
  - unfold get_active_edges_from_dijkstra. cbn [ae_loop].
    assert (X : forall l s, foldM (ae_edge g (mkDD [(v, phi)] []) v v) l s = Ok s).
    { induction l as [|e l IH]; intros s; cbn [foldM]; auto. destruct s as [[a t] q]. cbn [ae_edge dd_cost dget bind]. apply IH. }
    rewrite X. cbn [bind]. destruct (length (g_nodes g)); reflexivity.
Qed.

(** Non-vacuity: two parallel routes 1->2->4 and 1->3->4 and a slow direct edge. *)
Definition dgraph : graph := grun [GAdd 1 2; GAdd 2 4; GAdd 1 3; GAdd 3 4; GAdd 1 4; GAdd 4 1]%nat.
Definition dcosts : list Qc := [1; 1 + 1; 1 + 1; 1; 1 + 1 + 1 + 1; 1].
Definition dcostfns : list costfn := map (fun x => fun _ : Qc => Ok x) dcosts.
Example C40_example : adds_unreversed false [GAdd 1 2; GAdd 2 4; GAdd 1 3; GAdd 3 4; GAdd 1 4; GAdd 4 1]%nat /\
  rmap (map (fun p => (fst p, this (snd p)))) (reverse_dijkstra dgraph 4 dcosts [1; 2; 3; 4]%nat) =
    Ok [(4%nat, 0%Q); (2%nat, 2%Q); (3%nat, 1%Q); (1%nat, 3%Q)] /\
  (r <- dynamic_dijkstra dgraph 0 1 4 [1; 2; 3; 4]%nat dcostfns ;; get_active_edges_from_dijkstra dgraph r 1 4) = Ok [2; 0]%nat.
Proof. vm_compute. repeat split; auto. Qed.
Example C41_example_fifo : fifo_costs dgraph 0 dcostfns (fun e _ => nth e dcosts 0).
Proof.
  intros e H. assert (L : (e < 6)%nat) by (cbn in H; lia).
  exists (fun _ => Ok (nth e dcosts 0)). split; [|split].
  - do 6 (destruct e as [|e]; [reflexivity|]). lia.
  - intros t _. split; auto. do 6 (destruct e as [|e]; [cbn [nth dcosts]; qlra|]). lia.
  - intros s t _ L2. qlra.
Qed.

Print Assumptions C40_reverse_dijkstra.
Print Assumptions C40_sink_outside.
Print Assumptions C41_dynamic_dijkstra.
Print Assumptions C42_active_edges.
Print Assumptions C42_tight_meaning.
Print Assumptions C42_source_is_sink.
