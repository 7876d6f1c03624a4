(** * C55: neighbourhoods of edges *)
From Verif Require Import Base FRC Graph GraphSpec GraphProofs Neighbors NeighborsProofs.

(** [within R d e e']: [e'] is reached from [e] by at most [d] steps of the
    relation [R]; [next_edge], [prev_edge] and [touching_edge] are the three
    adjacency relations between edges (NeighborsProofs.v). *)
Theorem C55_forward : forall g edge d e, consistent g ->
  (In e (neighbors_forward g edge d) <-> within (next_edge g) d edge e).
Proof. intros g edge d e C. apply forward_ok, C. Qed.
Print Assumptions C55_forward.

(** Backward and undirected neighbourhoods stop at distance 1 whatever [d] is:
    right for d <= 1 only. *)
Theorem C55_backward_partial : forall g edge d e, consistent g ->
  (In e (neighbors_backward g edge d) <-> within (prev_edge g) (Nat.min d 1) edge e).
Proof. intros g edge d e C. apply backward_ok, C. Qed.
Print Assumptions C55_backward_partial.
Theorem C55_undirected_partial : forall g edge d e, consistent g ->
  (In e (neighbors_undirected g edge d) <-> within (touching_edge g) (Nat.min d 1) edge e).
Proof. intros g edge d e C. apply undirected_ok, C. Qed.
Print Assumptions C55_undirected_partial.
Theorem C55_directed_partial : forall g edge d e, consistent g ->
  (In e (neighbors_directed g edge d) <-> within (next_edge g) d edge e \/ within (prev_edge g) (Nat.min d 1) edge e).
Proof. intros g edge d e C. unfold neighbors_directed. rewrite union_In, (forward_ok g C), (backward_ok g C). reflexivity. Qed.
Print Assumptions C55_directed_partial.
(** the masks have one entry per edge of the network, in order *)
Theorem C55_masks : forall g edge d i e, consistent g -> nth_error (g_edges g) i = Some e ->
  nth_error (mask_undirected g edge d) i = Some (mem e (neighbors_undirected g edge d)) /\
  (nth i (mask_undirected g edge d) false = true <-> within (touching_edge g) (Nat.min d 1) edge e) /\
  (nth i (mask_directed g edge d) false = true <-> within (next_edge g) d edge e \/ within (prev_edge g) (Nat.min d 1) edge e).
Proof.
  intros g edge d i e C E. assert (NE : forall f : nat -> bool, nth_error (map f (g_edges g)) i = Some (f e)) by (intro f; apply map_nth_error, E).
  unfold mask_undirected, mask_directed. split; [apply NE|]. split.
  - rewrite (nth_error_nth _ _ false (NE _)), mem_iff. apply undirected_ok, C.
  - rewrite (nth_error_nth _ _ false (NE _)), mem_iff. unfold neighbors_directed. rewrite union_In, (forward_ok g C), (backward_ok g C). reflexivity.
Qed.
Print Assumptions C55_masks.

(** Three edges in a row, 1 -> 2 -> 3 -> 4 (edges 0, 1, 2): within two steps
    backwards of edge 2 lies edge 0, and it is not returned. *)
Definition row : graph := grun [GAdd 1 2; GAdd 2 3; GAdd 3 4]%nat.
Lemma row_consistent : consistent row.
Proof. apply (grun_spec [GAdd 1 2; GAdd 2 3; GAdd 3 4]%nat g_empty (empty_consistent _ _)). cbn. auto. Qed.
Theorem C55_refuted : consistent row /\
  within (prev_edge row) 2 2 0 /\ ~ In 0%nat (neighbors_backward row 2 2) /\
  within (touching_edge row) 2 2 0 /\ ~ In 0%nat (neighbors_undirected row 2 2) /\
  In 2%nat (neighbors_forward row 0 2).
Proof.
  split; [apply row_consistent|].
  assert (P : forall R : nat -> nat -> Prop, R 2%nat 1%nat -> R 1%nat 0%nat -> within R 2 2 0) by (intros R A B; exists 2%nat; split; [lia|]; eapply ch_S; [eapply ch_S; [apply ch_0|exact A]|exact B]).
  split; [apply P; (split; [cbn; auto|reflexivity])|]. split; [cbn; intros [K|[K|[]]]; discriminate|].
  split; [apply P; (split; [cbn; auto|]); [exists 3%nat|exists 2%nat]; cbn; auto|]. split; [cbn; intros [K|[K|[]]]; discriminate|]. cbn. auto.
Qed.
Print Assumptions C55_refuted.
