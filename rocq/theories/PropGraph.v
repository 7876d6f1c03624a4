(** * Theorems about graphs and networks (C45-C49).  Vocabulary: GraphSpec.v *)
From Verif Require Import Base Arrays PL RC FRC FRCProofs DynFlow Graph GraphSpec GraphProofs.
Local Open Scope nat_scope.

(** C45.  On every consistent graph (C46: every graph built by the user), also
    on reversed ones, the two queries terminate without raising and return,
    without duplicates, exactly the nodes that a path leads to / from. *)
Theorem C45_reachable_exact : forall g s, consistent g -> In s (node_ids g) ->
  exists l, get_reachable_nodes g s = Ok l /\ NoDup l /\ forall v, In v l <-> path (arcs g) s v.
Proof. exact reachable_spec. Qed.
Theorem C45_reaching_exact : forall g t, consistent g -> In t (node_ids g) ->
  exists l, get_nodes_reaching g t = Ok l /\ NoDup l /\ forall v, In v l <-> path (arcs g) v t.
Proof. exact reaching_spec. Qed.
(** The only way to raise: a node that is not in the graph. *)
Theorem C45_reaching_foreign : forall g t, ~ In t (node_ids g) -> get_nodes_reaching g t = Err AssertionError.
Proof.
  intros g t H. unfold get_nodes_reaching. destruct (dhas (g_nodes g) t) eqn:D; auto. exfalso. apply H, dhas_In; auto.
Qed.

(** C46.  Any history of [add_edge] and [reverse] calls in which edges are
    added while the graph is not reversed. *)
Theorem C46_incidence : forall h, adds_unreversed false h ->
  consistent (grun h) /\
  arcs (grun h) = (if reversed_after false h then map swap (added h) else added h) /\
  (forall v, In v (node_ids (grun h)) <-> exists p, In p (added h) /\ (v = fst p \/ v = snd p)).
Proof.
  intros h H. destruct (grun_spec h g_empty (empty_consistent _ _) H) as (A & B & C & D).
  unfold grun. split; auto. cbn [g_rev g_empty] in *. rewrite B in C. split.
  - rewrite C. destruct (reversed_after false h); auto.
  - intro v. rewrite D. cbn. intuition.
Qed.
(** What consistency says about one node, spelled out. *)
Theorem C46_listed_once : forall g, consistent g -> forall v e,
  (In e (outgoing g v) <-> In e (g_edges g) /\ e_from g e = v) /\
  (In e (incoming g v) <-> In e (g_edges g) /\ e_to g e = v) /\
  NoDup (outgoing g v) /\ NoDup (incoming g v).
Proof.
  intros g C v e. rewrite (cs_out g C), (cs_in g C), !filter_In, !Nat.eqb_eq.
  repeat split; try tauto; apply NoDup_filter, (cs_edges g C).
Qed.
Theorem C46_reverse : forall g, g_reverse (g_reverse g) = g /\ arcs (g_reverse g) = map swap (arcs g) /\
  (forall v, outgoing (g_reverse g) v = incoming g v /\ incoming (g_reverse g) v = outgoing g v) /\
  (consistent g -> consistent (g_reverse g)).
Proof.
  intro g. split; [apply rev_rev|]. split; [apply rev_arcs|]. split; [|apply rev_consistent].
  intro v. split; [apply rev_out|apply rev_in].
Qed.
(** Full claim (also on reversed graphs) is false: every edge between two
    different nodes added to a reversed graph is filed under the wrong nodes. *)
Theorem C46_reversed_refuted : forall g a b, g_rev g = true -> a <> b -> ~ consistent (add_edge g a b).
Proof. intros g a b R N. apply misfiled_not_consistent, add_rev_misfiled; auto. Qed.

Definition hist1 : list gop := [GAdd 1 2; GAdd 2 3; GReverse; GReverse; GAdd 3 1; GAdd 1 2; GAdd 4 4; GReverse].
Example C46_example : adds_unreversed false hist1 /\ length (arcs (grun hist1)) = 5 /\
  outgoing (grun hist1) 2 = [0; 3] /\ get_reachable_nodes (grun hist1) 4 = Ok [4] /\
  rmap (@length nat) (get_nodes_reaching (grun hist1) 1) = Ok 3.
Proof. vm_compute. repeat split; auto. Qed.

(** C47.  Unreversed graphs: edges with ids and directions, adjacency and
    positions survive; nodes without any edge are lost. *)
Theorem C47_graph_roundtrip : forall g, consistent g -> g_rev g = false ->
  let g' := g_setstate (g_getstate g) in
  consistent g' /\ g_rev g' = false /\ arcs g' = arcs g /\ g_pos g' = g_pos g /\
  (forall v, map (e_id g') (outgoing g' v) = map (e_id g) (outgoing g v) /\
             map (e_id g') (incoming g' v) = map (e_id g) (incoming g v)) /\
  (forall v, In v (node_ids g') <-> In v (node_ids g) /\ (outgoing g v <> [] \/ incoming g v <> [])).
Proof.
  intros g C R g'. destruct (setstate_spec (arcs g) (mkG [] [] [] false (g_pos g)) eq_refl (empty_consistent _ _)) as (A & B & P & D & E).
  assert (G : g' = fold_left (fun g p => add_edge g (fst p) (snd p)) (arcs g) (mkG [] [] [] false (g_pos g))).
  { unfold g', g_setstate, g_getstate. cbn [s_edges s_rev s_pos]. rewrite R. reflexivity. }
  rewrite <- G in *. cbn [g_pos] in P. split; auto. split; auto. split; auto. split; auto. split.
  - intro v. rewrite !map_filter_idx, !map_filter_idx_in by auto. rewrite D. auto.
  - intro v. rewrite E. cbn. split.
    + intros [[]|([a b] & H & H2)]. destruct (arcs_ends g C _ _ H) as [H3 H4]. cbn in H2. split; [destruct H2; subst; auto|].
      destruct H2 as [-> | ->].
      * left. apply (out_arcs g C) in H. intro X. rewrite X in H. destruct H.
      * right. apply (in_arcs g C) in H. intro X. rewrite X in H. destruct H.
    + intros [_ [H|H]]; right.
      * destruct (outgoing g v) as [|r l] eqn:O; [congruence|]. exists (v, e_to g r). split; auto.
        apply (out_arcs g C). rewrite O. left; auto.
      * destruct (incoming g v) as [|r l] eqn:O; [congruence|]. exists (e_from g r, v). split; auto.
        apply (in_arcs g C). rewrite O. left; auto.
Qed.
(** Networks whose commodities start and end at nodes with an edge. *)
Theorem C47_network_roundtrip : forall n, consistent (w_graph n) -> g_rev (w_graph n) = false ->
  (forall c v, In c (w_com n) -> (v = k_sink c \/ In v (map fst (k_sources c))) ->
     In v (node_ids (w_graph n)) /\ (outgoing (w_graph n) v <> [] \/ incoming (w_graph n) v <> [])) ->
  exists n', nw_setstate (nw_getstate n) = Ok n' /\ w_graph n' = g_setstate (g_getstate (w_graph n)) /\
    w_cap n' = w_cap n /\ w_tau n' = w_tau n /\ w_com n' = w_com n.
Proof.
  intros n C R H. destruct (C47_graph_roundtrip _ C R) as (_ & _ & _ & _ & _ & N).
  unfold nw_setstate, nw_getstate. cbn [ns_graph ns_cap ns_tau ns_com].
  rewrite add_commodities_ok.
  - eexists. split; [reflexivity|]. cbn. auto.
  - cbn [w_graph]. intros c Hc. split.
    + apply N. apply (H c); auto.
    + intros s Hs. apply N. apply (H c); auto.
Qed.
(** Refuted for reversed graphs: all edges come back with the opposite
    direction, and the adjacency is inconsistent. *)
Theorem C47_reversed_refuted : forall g, consistent g -> g_rev g = true ->
  let g' := g_setstate (g_getstate g) in
  arcs g' = map swap (arcs g) /\ ((exists a b, In (a, b) (arcs g) /\ a <> b) -> ~ consistent g').
Proof.
  intros g C R g'. destruct (setstate_rev (arcs g) (mkG [] [] [] true (g_pos g)) eq_refl) as (A & B & D).
  { intros ? []. }
  assert (G : g' = fold_left (fun g p => add_edge g (fst p) (snd p)) (arcs g) (mkG [] [] [] true (g_pos g))).
  { unfold g', g_setstate, g_getstate. cbn [s_edges s_rev s_pos]. rewrite R. reflexivity. }
  rewrite <- G in *. split; auto.
  intros (a & b & H & N). apply misfiled_not_consistent, D. right. exists (a, b). auto.
Qed.
(** Refuted for commodities ending at a node without edges: loading raises. *)
Theorem C47_isolated_sink_refuted : forall n c, consistent (w_graph n) -> g_rev (w_graph n) = false ->
  In c (w_com n) -> outgoing (w_graph n) (k_sink c) = [] -> incoming (w_graph n) (k_sink c) = [] ->
  nw_setstate (nw_getstate n) = Err AssertionError.
Proof.
  intros n c C R HC O I. destruct (C47_graph_roundtrip _ C R) as (_ & _ & _ & _ & _ & N).
  unfold nw_setstate, nw_getstate. cbn [ns_graph ns_cap ns_tau ns_com].
  apply add_commodities_err. exists c. split; auto. cbn [w_graph]. rewrite N. rewrite O, I. tauto.
Qed.

(** C48.  Any history of [add_edge] (on an unreversed graph), [_remove_edge] of
    an existing edge and [reverse]; the table lists the edges that are left, in
    order, with the data they were created with. *)
Theorem C48_attributes_aligned : forall h, nvalid (mkTable [] 0 false) h ->
  exists n, nrun h = Ok n /\ consistent (w_graph n) /\
    g_edges (w_graph n) = map x_ref (t_rows (trun h)) /\
    w_cap n = map x_cap (t_rows (trun h)) /\ w_tau n = map x_tau (t_rows (trun h)) /\
    forall x, In x (t_rows (trun h)) -> let e := x_ref x in
      nth_error (w_cap n) (e_id (w_graph n) e) = Some (x_cap x) /\
      nth_error (w_tau n) (e_id (w_graph n) e) = Some (x_tau x) /\
      (e_from (w_graph n) e, e_to (w_graph n) e) = (if t_rev (trun h) then (x_to x, x_from x) else (x_from x, x_to x)).
Proof.
  intros h V. destruct (tracks_run h _ _ tracks_empty V) as (n & E & T).
  exists n. split; auto. destruct T as [C R ED L EN TA CA]. fold (trun h) in *. split; auto. split; auto. split; auto. split; auto.
  intros x H. cbn zeta. destruct (In_nth_error _ _ H) as [i Hi].
  assert (NE : nth_error (g_edges (w_graph n)) i = Some (x_ref x)) by (rewrite ED; apply map_nth_error; auto).
  rewrite (cs_ids _ C _ _ NE). rewrite CA, TA. rewrite !(map_nth_error _ _ _ Hi). split; auto. split; auto.
  destruct (EN x H) as [-> ->]. unfold row_ends. destruct (t_rev (trun h)); auto.
Qed.
Definition hist2 : list nop :=
  [NAdd 1 2 1%Qc 1%Qc; NAdd 2 3 1%Qc (1+1)%Qc; NAdd 1 3 (1+1)%Qc 1%Qc; NRemove 0; NReverse; NRemove 1; NReverse; NAdd 3 1 1%Qc 1%Qc].
Example C48_example : nvalid (mkTable [] 0 false) hist2 /\ map x_ref (t_rows (trun hist2)) = [1; 3] /\
  rmap (fun n => arcs (w_graph n)) (nrun hist2) = Ok [(2, 3); (3, 1)].
Proof. vm_compute. repeat split; auto; lia. Qed.

(** C49.  Refuted: the three clean-up functions read [commodity.source], which
    does not exist.  On every network with a commodity: *)
Theorem C49_unnecessary_nodes_refuted : forall n order, consistent (w_graph n) -> w_com n <> [] ->
  (forall c, In c (w_com n) -> In (k_sink c) (node_ids (w_graph n))) ->
  remove_unnecessary_nodes n order = Err AttributeError.
Proof.
  intros n order C N S. unfold remove_unnecessary_nodes. destruct (w_com n) as [|c r]; [congruence|]. cbn [important_nodes].
  destruct (reaching_spec (w_graph n) (k_sink c) C (S c (or_introl eq_refl))) as (l & -> & _). reflexivity.
Qed.
Theorem C49_unnecessary_commodities_refuted : forall n i, i < length (w_com n) ->
  remove_unnecessary_commodities n i = Err AttributeError.
Proof.
  intros n i H. unfold remove_unnecessary_commodities. destruct (nth_error (w_com n) i) eqn:E; [|apply nth_error_None in E; lia].
  unfold important_per_com. destruct (w_com n); [cbn in H; lia|]. reflexivity.
Qed.
(** [compress_lonely_nodes] raises exactly when there is something to compress. *)
Theorem C49_compress_refuted : forall n, w_com n <> [] ->
  compress_lonely_nodes n =
  if existsb (fun v => Nat.eqb (length (outgoing (w_graph n) v)) 1 && Nat.eqb (length (incoming (w_graph n) v)) 1)%bool (node_ids (w_graph n))
  then Err AttributeError else Ok n.
Proof.
  intros n H. unfold compress_lonely_nodes. rewrite compress_fold by auto. unfold node_ids.
  destruct (existsb _ _); reflexivity.
Qed.
Definition net1 : network := mkNw (grun [GAdd 1 2; GAdd 2 3]) [1%Qc; 1%Qc] [1%Qc; 1%Qc] [mkCom [(1, mkRC [0%Qc] [1%Qc] (Fin 0%Qc) PInf)] 3 0].
Example C49_example : adds_unreversed false [GAdd 1 2; GAdd 2 3] /\ compress_lonely_nodes net1 = Err AttributeError /\
  remove_unnecessary_nodes net1 (fun l => l) = Err AttributeError /\ remove_unnecessary_commodities net1 0 = Err AttributeError.
Proof. vm_compute. repeat split; auto. Qed.

Print Assumptions C45_reachable_exact.
Print Assumptions C45_reaching_exact.
Print Assumptions C45_reaching_foreign.
Print Assumptions C46_incidence.
Print Assumptions C46_listed_once.
Print Assumptions C46_reverse.
Print Assumptions C46_reversed_refuted.
Print Assumptions C47_graph_roundtrip.
Print Assumptions C47_network_roundtrip.
Print Assumptions C47_reversed_refuted.
Print Assumptions C47_isolated_sink_refuted.
Print Assumptions C48_attributes_aligned.
Print Assumptions C49_unnecessary_nodes_refuted.
Print Assumptions C49_unnecessary_commodities_refuted.
Print Assumptions C49_compress_refuted.
