(** * Proofs about the shortest path searches *)
From Verif Require Import Base Spec Arrays PL RC FRC FRCProofs PQ PQSpec DynFlow DQProofs Graph GraphSpec GraphProofs Dijkstra DijkstraSpec.

Lemma eqb_nat (a b : nat) : eqb a b = Nat.eqb a b.
Proof. reflexivity. Qed.
Lemma push_ok s it k : sq_key_of s it = None -> sq_push s it k = Ok (sq_set s it k).
Proof. intro H. unfold sq_push. rewrite kof_has, H. reflexivity. Qed.
Lemma decrease_ok s it k k0 : sq_key_of s it = Some k0 -> sq_decrease s it k = Ok (sq_set s it k).
Proof. intro H. unfold sq_decrease. rewrite kof_has, H. reflexivity. Qed.
Lemma dfetch_ok {B} (d : list (nat * B)) k v : dget d k = Some v -> dfetch d k = Ok v.
Proof. unfold dfetch. intros ->. reflexivity. Qed.
Lemma mem_false v l : mem v l = false <-> ~ In v l.
Proof. rewrite <- memP. destruct (mem v l); split; intros; congruence. Qed.
Lemma in_incoming g w e : consistent g -> In e (incoming g w) -> In e (g_edges g) /\ e_to g e = w.
Proof. intros C H. rewrite (cs_in g C) in H. apply filter_In in H. rewrite Nat.eqb_eq in H. exact H. Qed.
Lemma in_outgoing g w e : consistent g -> In e (outgoing g w) -> In e (g_edges g) /\ e_from g e = w.
Proof. intros C H. rewrite (cs_out g C) in H. apply filter_In in H. rewrite Nat.eqb_eq in H. exact H. Qed.

(** ** reverse_dijkstra *)
Section RD.
Variables (g : graph) (costs : list Qc) (nodes : list nat) (sink : nat).
Hypothesis CG : consistent g.
Hypothesis SINKG : In sink (node_ids g).
Hypothesis SINKN : In sink nodes.
Hypothesis COSTS : forall e, In e (g_edges g) -> exists c, nth_error costs (e_id g e) = Some c /\ 0 <= c.

Notation cost := (cost_of g costs).
Notation walk := (walk_to g costs nodes sink).

Lemma cost_ok e : In e (g_edges g) -> fetch costs (e_id g e) = Ok (cost e) /\ 0 <= cost e.
Proof.
  intro H. destruct (COSTS e H) as (c & E & N). unfold fetch, cost_of. rewrite E.
  erewrite nth_error_nth; eauto.
Qed.
Lemma walk_nn v k c : walk v k c -> 0 <= c.
Proof. induction 1. qlra. destruct (cost_ok e H) as [_ X]. qlra. Qed.

(** [P]: the nodes popped so far; [rem]: edges into [w] not yet relaxed. *)
Record rinv (P rem : list nat) (dist : list (nat * Qc)) (queue : @squeue nat) : Prop := {
  ri_nd : sq_nd queue;
  ri_key : forall v k, sq_key_of queue v = Some k -> exists d, k = Fin d /\ dget dist v = Some d;
  ri_P : forall v, In v P <-> (dget dist v <> None /\ sq_key_of queue v = None);
  ri_PND : NoDup P;
  ri_nodes : forall v, dget dist v <> None -> In v (node_ids g);
  ri_ord : forall v d x dx, In v P -> dget dist v = Some d -> sq_key_of queue x = Some (Fin dx) -> d <= dx;
  ri_walk : forall v d, dget dist v = Some d -> exists k, walk v k d;
  ri_rel : forall e, In e (g_edges g) -> In (e_to g e) P -> In (e_from g e) nodes -> ~ In e rem ->
     exists dv dw, dget dist (e_from g e) = Some dv /\ dget dist (e_to g e) = Some dw /\ dv <= cost e + dw + eps;
  ri_sink : dget dist sink = Some 0;
  ri_tight : forall v d, dget dist v = Some d -> v <> sink -> exists e dw, In e (g_edges g) /\ e_from g e = v /\ In (e_to g e) P /\
     dget dist (e_to g e) = Some dw /\ d = cost e + dw;
  ri_dnd : NoDup (map fst dist) }.

Lemma dset_nd {B} (d : list (nat * B)) k v : NoDup (map fst d) -> NoDup (map fst (dset d k v)).
Proof.
  intro H. destruct (In_dec Nat.eq_dec k (map fst d)).
  - rewrite dset_keys; auto.
  - rewrite dset_keys_new by auto. apply NoDup_snoc; auto.
Qed.

Lemma rd_edge_inv P w dw e rem dist queue : rinv P (e :: rem) dist queue -> ~ In e rem ->
  In e (g_edges g) -> e_to g e = w -> In w P -> dget dist w = Some dw ->
  (forall v d, In v P -> dget dist v = Some d -> d <= dw) ->
  (forall x dx, sq_key_of queue x = Some (Fin dx) -> dw <= dx) ->
  exists dist' queue', rd_edge g costs nodes w (dist, queue) e = Ok (dist', queue') /\
    rinv P rem dist' queue' /\ dget dist' w = Some dw /\
    (forall v d, In v P -> dget dist' v = Some d -> d <= dw) /\
    (forall x dx, sq_key_of queue' x = Some (Fin dx) -> dw <= dx).
Proof.
  intros I NR HE HW HP DW LP LQ. destruct (cost_ok e HE) as [CE CN].
  unfold rd_edge. set (v := e_from g e).
  destruct (mem v nodes) eqn:M; cbn [negb].
  2:{ exists dist, queue. split; auto. split; auto. destruct I. constructor; auto.
      intros e' He' Hp Hn Hr. apply ri_rel0; auto. intros [<-|]; auto. apply mem_false in M. auto. }
  apply memP in M. rewrite CE. cbn [bind]. rewrite (dfetch_ok _ _ _ DW). cbn [bind].
  assert (PL : forall x, In x P -> dget dist x <> None) by (intros x Hx; apply (ri_P _ _ _ _ I) in Hx; tauto).
  (* common part: replace the label of a node that is not in P by the relaxation *)
  assert (UPD : ~ In v P -> v <> sink -> (forall d, dget dist v = Some d -> cost e + dw <= d) ->
    rinv P rem (dset dist v (cost e + dw)) (sq_set queue v (Fin (cost e + dw))) /\ dget (dset dist v (cost e + dw)) w = Some dw /\
    (forall v0 d, In v0 P -> dget (dset dist v (cost e + dw)) v0 = Some d -> d <= dw) /\
    (forall x dx, sq_key_of (sq_set queue v (Fin (cost e + dw))) x = Some (Fin dx) -> dw <= dx)).
  { intros NP VS OLD.
    assert (DP : forall x, In x P -> dget (dset dist v (cost e + dw)) x = dget dist x).
    { intros x Hx. rewrite dget_dset. destruct (Nat.eqb_spec v x); [subst; tauto|auto]. }
    split; [|split; [|split]].
    - destruct I. constructor; auto.
      + apply nd_set; auto.
      + intros x k. rewrite kof_set, eqb_nat, dget_dset. destruct (Nat.eqb v x); auto.
        intro X. injection X as <-. eauto.
      + intros x. rewrite kof_set, eqb_nat, dget_dset. destruct (Nat.eqb_spec v x) as [<-|]; [|apply ri_P0].
        split; [tauto|]. intros [_ X]. discriminate.
      + intros x. rewrite dget_dset. destruct (Nat.eqb_spec v x) as [<-|]; [|apply ri_nodes0].
        intros _. apply (cs_ends g CG e HE).
      + intros x d y dy Hx. rewrite DP by auto. intro Dx. rewrite kof_set, eqb_nat. destruct (Nat.eqb v y); [|eauto].
        intro X. injection X as <-. specialize (LP x d Hx Dx). qlra.
      + intros x d. rewrite dget_dset. destruct (Nat.eqb_spec v x) as [<-|]; [|apply ri_walk0].
        intro X. injection X as <-. destruct (ri_walk0 w dw DW) as [k Wk]. exists (S k). subst w. apply walk_edge; auto.
      + intros e' He' Hp Hn Hr. destruct (Nat.eq_dec e' e) as [->|NE].
        * exists (cost e + dw), dw. rewrite HW, !dget_dset. fold v. rewrite Nat.eqb_refl.
          destruct (Nat.eqb_spec v w); [exfalso; apply NP; congruence|]. repeat split; auto. qlra.
        * destruct (ri_rel0 e' He' Hp Hn) as (dv & dw' & A & B & D). { intros [?|?]; auto. }
          rewrite (DP _ Hp). rewrite dget_dset. destruct (Nat.eqb_spec v (e_from g e')) as [E|]; [|eauto 10].
          exists (cost e + dw), dw'. repeat split; auto. rewrite <- E in A. specialize (OLD _ A). qlra.
      + rewrite dget_dset. destruct (Nat.eqb_spec v sink); [congruence|auto].
      + intros x d. rewrite dget_dset. destruct (Nat.eqb_spec v x) as [<-|].
        * intro X. injection X as <-. intros _. exists e, dw. rewrite HW. rewrite (DP w) by auto. repeat split; auto.
        * intros Dx Nx. destruct (ri_tight0 x d Dx Nx) as (e' & dw' & A1 & A2 & A3 & A4 & A5). exists e', dw'. rewrite (DP _ A3). auto.
      + apply dset_nd; auto.
    - rewrite DP; auto.
    - intros x d Hx. rewrite DP by auto. apply LP; auto.
    - intros x dx. rewrite kof_set, eqb_nat. destruct (Nat.eqb v x); [|apply LQ].
      intro X. injection X as <-. qlra. }
  assert (DWN : 0 <= dw) by (destruct (ri_walk _ _ _ _ I w dw DW) as [k Wk]; apply (walk_nn _ _ _ Wk)).
  destruct (dget dist v) as [dv|] eqn:DV.
  - destruct (qltbP (cost e + dw) (dv - eps)) as [LT|GE].
    + assert (NP : ~ In v P) by (intro X; specialize (LP v dv X DV); qlra).
      assert (VS : v <> sink) by (intro X; rewrite X, (ri_sink _ _ _ _ I) in DV; injection DV as <-; qlra).
      destruct (sq_key_of queue v) as [k|] eqn:K.
      2:{ exfalso. apply NP. apply (ri_P _ _ _ _ I). split; congruence. }
      rewrite kof_has, K. rewrite (decrease_ok _ _ _ _ K). cbn [bind].
      eexists _, _. split; [reflexivity|]. apply UPD; auto. intros d X. injection X as <-. qlra.
    + exists dist, queue. split; auto. split; auto. destruct I. constructor; auto.
      intros e' He' Hp Hn Hr. destruct (Nat.eq_dec e' e) as [->|NE].
      * exists dv, dw. rewrite HW. repeat split; auto. qlra.
      * apply ri_rel0; auto. intros [?|?]; auto.
  - rewrite push_ok. 2:{ destruct (sq_key_of queue v) eqn:K; auto. destruct (ri_key _ _ _ _ I _ _ K) as (d & _ & X). congruence. }
    cbn [bind]. eexists _, _. split; [reflexivity|]. apply UPD; auto.
    + intro X. apply (PL v X DV).
    + intro X. rewrite X, (ri_sink _ _ _ _ I) in DV. discriminate.
    + discriminate.
Qed.

Lemma rd_fold_inv P w dw edges : forall dist queue, rinv P edges dist queue -> NoDup edges ->
  (forall e, In e edges -> In e (g_edges g) /\ e_to g e = w) -> In w P -> dget dist w = Some dw ->
  (forall v d, In v P -> dget dist v = Some d -> d <= dw) ->
  (forall x dx, sq_key_of queue x = Some (Fin dx) -> dw <= dx) ->
  exists dist' queue', foldM (rd_edge g costs nodes w) edges (dist, queue) = Ok (dist', queue') /\ rinv P [] dist' queue'.
Proof.
  induction edges as [|e r IH]; intros dist queue I ND HE HP DW LP LQ; cbn [foldM].
  - eauto.
  - inversion_clear ND as [|? ? N1 N2]. destruct (HE e (or_introl eq_refl)) as [E1 E2].
    destruct (rd_edge_inv P w dw e r dist queue) as (d' & q' & E & I' & DW' & LP' & LQ'); auto.
    rewrite E. cbn [bind]. apply IH; auto. intros; apply HE; right; auto.
Qed.

Lemma rd_loop_ok : forall fuel P dist queue, rinv P [] dist queue ->
  (length (node_ids g) < fuel + length P)%nat ->
  exists dist' P' queue', rd_loop fuel g costs nodes dist queue = Ok dist' /\ rinv P' [] dist' queue' /\ forall v, sq_key_of queue' v = None.
Proof.
  induction fuel as [|f IH]; intros P dist queue I L; cbn [rd_loop]; destruct (0 <? sq_len queue)%nat eqn:Q.
  - exfalso. assert (length P <= length (node_ids g))%nat; [|lia]. apply NoDup_incl_length; [apply (ri_PND _ _ _ _ I)|].
    intros v Hv. apply (ri_nodes _ _ _ _ I). apply (ri_P _ _ _ _ I) in Hv. tauto.
  - exists dist, P, queue. split; [reflexivity|]. split; [exact I|]. apply len_zero; auto.
  - assert (ND := ri_nd _ _ _ _ I). destruct (pop_total queue (len_pos' queue Q ND)) as (q' & w & E). rewrite E. cbn [bind].
    destruct (pop_ok _ _ _ ND E) as [-> K]. destruct (ri_key _ _ _ _ I _ _ K) as (dw & MK & DW).
    assert (NP : ~ In w P) by (intro X; apply (ri_P _ _ _ _ I) in X; destruct X; congruence).
    assert (I0 : rinv (w :: P) (incoming g w) dist (sq_drop queue w)).
    { destruct I. constructor; auto.
      - apply nd_drop; auto.
      - intros v k. rewrite kof_drop, eqb_nat. destruct (Nat.eqb w v); [discriminate|auto].
      - intro v. rewrite kof_drop, eqb_nat. cbn [In]. rewrite ri_P0. destruct (Nat.eqb_spec w v) as [<-|N].
        + split; [|auto]. intros _. split; congruence.
        + split; [intros [?|?]; [congruence|auto]|auto].
      - constructor; auto.
      - intros v d x dx Hv Dv. rewrite kof_drop, eqb_nat. destruct (Nat.eqb w x); [discriminate|]. intro X.
        destruct Hv as [<-|Hv]; [|eauto]. pose proof (min_key_le _ _ _ X) as Y. rewrite MK in Y. change (dw <= dx) in Y.
        replace d with dw by congruence. exact Y.
      - intros e He Hp Hn Hr. destruct Hp as [E2|Hp]; [|apply ri_rel0; auto].
        exfalso. apply Hr. rewrite (cs_in g CG). apply filter_In. split; auto. apply Nat.eqb_eq. auto.
      - intros v d Dv Nv. destruct (ri_tight0 v d Dv Nv) as (e & dw' & ? & ? & ? & ? & ?). exists e, dw'. repeat split; auto. right; auto. }
    assert (LQ : forall x dx, sq_key_of queue x = Some (Fin dx) -> dw <= dx).
    { intros x dx X. pose proof (min_key_le _ _ _ X) as Y. rewrite MK in Y. exact Y. }
    destruct (rd_fold_inv (w :: P) w dw (incoming g w) dist (sq_drop queue w) I0) as (d' & q' & E' & I'); auto.
    + rewrite (cs_in g CG). apply NoDup_filter, (cs_edges g CG).
    + intros e He. apply in_incoming; auto.
    + left; auto.
    + intros v d [<-|Hv] Dv; [replace d with dw by congruence; qlra|]. rewrite MK in K. apply (ri_ord _ _ _ _ I v d w dw); auto.
    + intros x dx. rewrite kof_drop, eqb_nat. destruct (Nat.eqb w x); [discriminate|]. apply LQ.
    + rewrite E'. cbn [bind]. apply (IH (w :: P)); auto. cbn [length]. lia.
  - exists dist, P, queue. split; [reflexivity|]. split; [exact I|]. apply len_zero; auto.
Qed.

Lemma reverse_dijkstra_spec :
  exists dist, reverse_dijkstra g sink costs nodes = Ok dist /\ NoDup (map fst dist) /\ dget dist sink = Some 0 /\
    (forall v d, dget dist v = Some d -> exists k, walk v k d) /\
    (forall v k c, walk v k c -> exists d, dget dist v = Some d /\ d <= c + qn k * eps) /\
    (forall e dw, In e (g_edges g) -> In (e_from g e) nodes -> dget dist (e_to g e) = Some dw ->
       exists dv, dget dist (e_from g e) = Some dv /\ dv <= cost e + dw + eps) /\
    (forall v d, dget dist v = Some d -> v <> sink -> exists e dw, In e (g_edges g) /\ e_from g e = v /\ dget dist (e_to g e) = Some dw /\ d = cost e + dw).
Proof.
  unfold reverse_dijkstra. replace (mem sink nodes) with true by (symmetry; apply memP; auto). cbn [assertb bind].
  destruct (rd_loop_ok (S (length (g_nodes g))) [] [(sink, 0)] (sq_set sq_empty sink (Fin 0))) as (dist & P & queue & E & I & QE).
  - constructor.
    + apply nd_set, nd_empty.
    + intros v k. rewrite kof_set, eqb_nat. cbn [dget]. destruct (Nat.eqb sink v); [|discriminate]. intro X; injection X as <-. eauto.
    + intro v. rewrite kof_set, eqb_nat. cbn [dget]. destruct (Nat.eqb sink v); split; try intros []; try discriminate; congruence.
    + constructor.
    + intro v. cbn [dget]. destruct (Nat.eqb_spec sink v) as [<-|]; auto. congruence.
    + intros v d x dx [].
    + intros v d. cbn [dget]. destruct (Nat.eqb_spec sink v) as [<-|]; [|discriminate]. intro X; injection X as <-. exists 0%nat. constructor.
    + intros e _ [].
    + cbn [dget]. rewrite Nat.eqb_refl. auto.
    + intros v d. cbn [dget]. destruct (Nat.eqb_spec sink v) as [<-|]; [congruence|discriminate].
    + repeat constructor. intros [].
  - unfold node_ids. rewrite map_length. cbn [length]. lia.
  - exists dist. destruct I.
    assert (REL : forall e dw, In e (g_edges g) -> In (e_from g e) nodes -> dget dist (e_to g e) = Some dw ->
       exists dv, dget dist (e_from g e) = Some dv /\ dv <= cost e + dw + eps).
    { intros e dw He Hn Dw. destruct (ri_rel0 e He) as (dv & dw' & A & B & D); auto.
      - apply ri_P0. split; [congruence|auto].
      - exists dv. split; auto. replace dw with dw' by congruence. auto. }
    split; auto. split; auto. split; auto. split; auto. split; [|split; auto].
    + intros v k c W. induction W as [|e k c He Hn W (dw & D1 & D2)].
      * exists 0. split; auto. change (qn 0) with (Q2Qc 0). qlra.
      * destruct (REL e dw He Hn D1) as (dv & D3 & D4). exists dv. split; auto.
        replace (qn (S k)) with (1 + qn k).
        2:{ unfold qn. rewrite Nat2Z.inj_succ. unfold Z.succ. rewrite inject_Z_plus. apply Qc_is_canon. cbn [this Qcplus Q2Qc]. rewrite !Qred_correct. cbn. ring. }
        assert (EQ : (1 + qn k) * eps = eps + qn k * eps) by ring. rewrite EQ. qlra.
    + intros v d Dv Nv. destruct (ri_tight0 v d Dv Nv) as (e & dw & ? & ? & ? & ? & ?). exists e, dw. auto.
Qed.
End RD.
