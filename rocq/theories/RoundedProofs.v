(** * Proofs about routing with rounded arithmetic *)
From Verif Require Import Base Spec Arrays PL RC FRC FRCProofs PQ PQSpec DynFlow DQProofs Graph GraphSpec GraphProofs Dijkstra DijkstraSpec DijkstraProofs DijkstraProofs2 FlowBuilder Rounded RoundedSpec.

Section Rnd.
Variable rnd : Qc -> Qc.
Hypothesis RND : rounding rnd.
Notation fl := (float rnd).
Notation ep := (r_eps rnd).
Lemma mono x y : x <= y -> rnd x <= rnd y.
Proof. apply (rnd_mono _ RND). Qed.
Lemma fl_rnd x : fl (rnd x).
Proof. apply (rnd_idem _ RND). Qed.
Lemma fl_0 : fl 0.
Proof. apply (rnd_0 _ RND). Qed.
Lemma ep_nn : 0 <= ep.
Proof. unfold r_eps. rewrite <- (rnd_0 _ RND). apply mono. qlra. Qed.
Lemma le_rnd x y : fl x -> x <= y -> x <= rnd y.
Proof. intros F H. rewrite <- F. apply mono; auto. Qed.
Lemma rnd_le x y : fl y -> x <= y -> rnd x <= y.
Proof. intros F H. rewrite <- F. apply mono; auto. Qed.

(** ** reverse_dijkstra *)
Section RD.
Variables (g : graph) (costs : list Qc) (nodes : list nat) (sink : nat).
Hypothesis CG : consistent g.
Hypothesis SINKG : In sink (node_ids g).
Hypothesis SINKN : In sink nodes.
Hypothesis COSTS : forall e, In e (g_edges g) -> exists c, nth_error costs (e_id g e) = Some c /\ 0 <= c.
Notation cost := (cost_of g costs).
Notation walk := (rwalk_to rnd g costs nodes sink).
Notation cost_ok := (cost_ok g costs COSTS).

Lemma rwalk_fl v k c : walk v k c -> fl c.
Proof. induction 1. apply fl_0. apply fl_rnd. Qed.
Lemma rwalk_nn v k c : walk v k c -> 0 <= c.
Proof. intro W. induction W. qlra. destruct (cost_ok e H) as [_ X]. apply le_rnd. apply fl_0. qlra. Qed.

Record rinv (P rem : list nat) (dist : list (nat * Qc)) (queue : @squeue nat) : Prop := {
  ri_nd : sq_nd queue;
  ri_key : forall v k, sq_key_of queue v = Some k -> exists d, k = Fin d /\ dget dist v = Some d;
  ri_P : forall v, In v P <-> (dget dist v <> None /\ sq_key_of queue v = None);
  ri_PND : NoDup P;
  ri_nodes : forall v, dget dist v <> None -> In v (node_ids g);
  ri_ord : forall v d x dx, In v P -> dget dist v = Some d -> sq_key_of queue x = Some (Fin dx) -> d <= dx;
  ri_walk : forall v d, dget dist v = Some d -> exists k, walk v k d;
  ri_rel : forall e, In e (g_edges g) -> In (e_to g e) P -> In (e_from g e) nodes -> ~ In e rem ->
     exists dv dw, dget dist (e_from g e) = Some dv /\ dget dist (e_to g e) = Some dw /\ rnd (dv - ep) <= rnd (cost e + dw);
  ri_sink : dget dist sink = Some 0;
  ri_tight : forall v d, dget dist v = Some d -> v <> sink -> exists e dw, In e (g_edges g) /\ e_from g e = v /\ In (e_to g e) P /\
     dget dist (e_to g e) = Some dw /\ d = rnd (cost e + dw);
  ri_dnd : NoDup (map fst dist) }.

Lemma r_rd_edge_inv P w dw e rem dist queue : rinv P (e :: rem) dist queue -> ~ In e rem ->
  In e (g_edges g) -> e_to g e = w -> In w P -> dget dist w = Some dw ->
  (forall v d, In v P -> dget dist v = Some d -> d <= dw) ->
  (forall x dx, sq_key_of queue x = Some (Fin dx) -> dw <= dx) ->
  exists dist' queue', r_rd_edge rnd g costs nodes w (dist, queue) e = Ok (dist', queue') /\
    rinv P rem dist' queue' /\ dget dist' w = Some dw /\
    (forall v d, In v P -> dget dist' v = Some d -> d <= dw) /\
    (forall x dx, sq_key_of queue' x = Some (Fin dx) -> dw <= dx).
Proof.
  intros I NR HE HW HP DW LP LQ. destruct (cost_ok e HE) as [CE CN]. pose proof ep_nn as EN.
  assert (FW : fl dw) by (destruct (ri_walk _ _ _ _ I w dw DW) as [k Wk]; apply (rwalk_fl _ _ _ Wk)).
  unfold r_rd_edge. set (v := e_from g e).
  destruct (mem v nodes) eqn:M; cbn [negb].
  2:{ exists dist, queue. split; auto. split; auto. destruct I. constructor; auto.
      intros e' He' Hp Hn Hr. apply ri_rel0; auto. intros [<-|]; auto. apply mem_false in M. auto. }
  apply memP in M. rewrite CE. cbn [bind]. rewrite (dfetch_ok _ _ _ DW). cbn [bind].
  assert (PL : forall x, In x P -> dget dist x <> None) by (intros x Hx; apply (ri_P _ _ _ _ I) in Hx; tauto).
  set (r := rnd (cost e + dw)). assert (RW : dw <= r) by (apply le_rnd; auto; qlra). assert (FR : fl r) by apply fl_rnd.
  assert (UPD : ~ In v P -> v <> sink -> (forall d, dget dist v = Some d -> r <= d) ->
    rinv P rem (dset dist v r) (sq_set queue v (Fin r)) /\ dget (dset dist v r) w = Some dw /\
    (forall v0 d, In v0 P -> dget (dset dist v r) v0 = Some d -> d <= dw) /\
    (forall x dx, sq_key_of (sq_set queue v (Fin r)) x = Some (Fin dx) -> dw <= dx)).
  { intros NP VS OLD.
    assert (DP : forall x, In x P -> dget (dset dist v r) x = dget dist x).
    { intros x Hx. rewrite dget_dset. destruct (Nat.eqb_spec v x); [subst; tauto|auto]. }
    split; [|split; [|split]].
    - destruct I. constructor; auto.
      + apply nd_set; auto.
      + intros x k. rewrite kof_set, eqb_nat, dget_dset. destruct (Nat.eqb v x); auto.
        intro X. injection X as <-. eauto.
      + intros x. rewrite kof_set, eqb_nat, dget_dset. destruct (Nat.eqb_spec v x) as [<-|]; [|apply ri_P0].
        split; [tauto|]. intros [_ X]. discriminate.
      + intros x. rewrite dget_dset. destruct (Nat.eqb_spec v x) as [<-|]; [|apply ri_nodes0].
        intros _. apply (cs_ends g CG e HE).
      + intros x d y dy Hx. rewrite DP by auto. intro Dx. rewrite kof_set, eqb_nat. destruct (Nat.eqb v y); [|eauto].
        intro X. injection X as <-. specialize (LP x d Hx Dx). qlra.
      + intros x d. rewrite dget_dset. destruct (Nat.eqb_spec v x) as [<-|]; [|apply ri_walk0].
        intro X. injection X as <-. destruct (ri_walk0 w dw DW) as [k Wk]. exists (S k). subst w. apply rwalk_edge; auto.
      + intros e' He' Hp Hn Hr. destruct (Nat.eq_dec e' e) as [->|NE].
        * exists r, dw. rewrite HW, !dget_dset. fold v. rewrite Nat.eqb_refl.
          destruct (Nat.eqb_spec v w); [exfalso; apply NP; congruence|]. repeat split; auto. fold r. apply rnd_le; auto. qlra.
        * destruct (ri_rel0 e' He' Hp Hn) as (dv & dw' & A & B & D). { intros [?|?]; auto. }
          rewrite (DP _ Hp). rewrite dget_dset. destruct (Nat.eqb_spec v (e_from g e')) as [E|]; [|eauto 10].
          exists r, dw'. repeat split; auto. rewrite <- E in A. specialize (OLD _ A).
          assert (rnd (r - ep) <= rnd (dv - ep)) by (apply mono; qlra). qlra.
      + rewrite dget_dset. destruct (Nat.eqb_spec v sink); [congruence|auto].
      + intros x d. rewrite dget_dset. destruct (Nat.eqb_spec v x) as [<-|].
        * intro X. injection X as <-. intros _. exists e, dw. rewrite HW. rewrite (DP w) by auto. repeat split; auto.
        * intros Dx Nx. destruct (ri_tight0 x d Dx Nx) as (e' & dw' & A1 & A2 & A3 & A4 & A5). exists e', dw'. rewrite (DP _ A3). auto.
      + apply dset_nd; auto.
    - rewrite DP; auto.
    - intros x d Hx. rewrite DP by auto. apply LP; auto.
    - intros x dx. rewrite kof_set, eqb_nat. destruct (Nat.eqb v x); [|apply LQ].
      intro X. injection X as <-. qlra. }
  assert (DWN : 0 <= dw) by (destruct (ri_walk _ _ _ _ I w dw DW) as [k Wk]; apply (rwalk_nn _ _ _ Wk)).
  destruct (dget dist v) as [dv|] eqn:DV.
  - assert (FV : fl dv) by (destruct (ri_walk _ _ _ _ I v dv DV) as [k Wk]; apply (rwalk_fl _ _ _ Wk)).
    assert (LV : rnd (dv - ep) <= dv) by (apply rnd_le; auto; qlra).
    destruct (qltbP r (rnd (dv - ep))) as [LT|GE].
    + assert (NP : ~ In v P) by (intro X; specialize (LP v dv X DV); qlra).
      assert (VS : v <> sink) by (intro X; rewrite X, (ri_sink _ _ _ _ I) in DV; injection DV as <-; qlra).
      destruct (sq_key_of queue v) as [k|] eqn:K.
      2:{ exfalso. apply NP. apply (ri_P _ _ _ _ I). split; congruence. }
      rewrite kof_has, K. rewrite (decrease_ok _ _ _ _ K). cbn [bind].
      eexists _, _. split; [reflexivity|]. apply UPD; auto. intros d X. injection X as <-. qlra.
    + exists dist, queue. split; auto. split; auto. destruct I. constructor; auto.
      intros e' He' Hp Hn Hr. destruct (Nat.eq_dec e' e) as [->|NE].
      * exists dv, dw. rewrite HW. repeat split; auto. fold r. qlra.
      * apply ri_rel0; auto. intros [?|?]; auto.
  - rewrite push_ok. 2:{ destruct (sq_key_of queue v) eqn:K; auto. destruct (ri_key _ _ _ _ I _ _ K) as (d & _ & X). congruence. }
    cbn [bind]. eexists _, _. split; [reflexivity|]. apply UPD; auto.
    + intro X. apply (PL v X DV).
    + intro X. rewrite X, (ri_sink _ _ _ _ I) in DV. discriminate.
    + discriminate.
Qed.

Lemma r_rd_fold_inv P w dw edges : forall dist queue, rinv P edges dist queue -> NoDup edges ->
  (forall e, In e edges -> In e (g_edges g) /\ e_to g e = w) -> In w P -> dget dist w = Some dw ->
  (forall v d, In v P -> dget dist v = Some d -> d <= dw) ->
  (forall x dx, sq_key_of queue x = Some (Fin dx) -> dw <= dx) ->
  exists dist' queue', foldM (r_rd_edge rnd g costs nodes w) edges (dist, queue) = Ok (dist', queue') /\ rinv P [] dist' queue'.
Proof.
  induction edges as [|e r IH]; intros dist queue I ND HE HP DW LP LQ; cbn [foldM].
  - eauto.
  - inversion_clear ND as [|? ? N1 N2]. destruct (HE e (or_introl eq_refl)) as [E1 E2].
    destruct (r_rd_edge_inv P w dw e r dist queue) as (d' & q' & E & I' & DW' & LP' & LQ'); auto.
    rewrite E. cbn [bind]. apply IH; auto. intros; apply HE; right; auto.
Qed.

Lemma r_rd_loop_ok : forall fuel P dist queue, rinv P [] dist queue ->
  (length (node_ids g) < fuel + length P)%nat ->
  exists dist' P' queue', r_rd_loop rnd fuel g costs nodes dist queue = Ok dist' /\ rinv P' [] dist' queue' /\ forall v, sq_key_of queue' v = None.
Proof.
  induction fuel as [|f IH]; intros P dist queue I L; cbn [r_rd_loop]; destruct (0 <? sq_len queue)%nat eqn:Q.
  - exfalso. assert (length P <= length (node_ids g))%nat; [|lia]. apply NoDup_incl_length; [apply (ri_PND _ _ _ _ I)|].
    intros v Hv. apply (ri_nodes _ _ _ _ I). apply (ri_P _ _ _ _ I) in Hv. tauto.
  - exists dist, P, queue. split; [reflexivity|]. split; [exact I|]. apply len_zero; auto.
  - assert (ND := ri_nd _ _ _ _ I). destruct (pop_total queue (len_pos' queue Q ND)) as (q' & w & E). rewrite E. cbn [bind].
    destruct (pop_ok _ _ _ ND E) as [-> K]. destruct (ri_key _ _ _ _ I _ _ K) as (dw & MK & DW).
    assert (NP : ~ In w P) by (intro X; apply (ri_P _ _ _ _ I) in X; destruct X; congruence).
    assert (I0 : rinv (w :: P) (incoming g w) dist (sq_drop queue w)).
    { destruct I. constructor; auto.
      - apply nd_drop; auto.
      - intros v k. rewrite kof_drop, eqb_nat. destruct (Nat.eqb w v); [discriminate|auto].
      - intro v. rewrite kof_drop, eqb_nat. cbn [In]. rewrite ri_P0. destruct (Nat.eqb_spec w v) as [<-|N].
        + split; [|auto]. intros _. split; congruence.
        + split; [intros [?|?]; [congruence|auto]|auto].
      - constructor; auto.
      - intros v d x dx Hv Dv. rewrite kof_drop, eqb_nat. destruct (Nat.eqb w x); [discriminate|]. intro X.
        destruct Hv as [<-|Hv]; [|eauto]. pose proof (min_key_le _ _ _ X) as Y. rewrite MK in Y. change (dw <= dx) in Y.
        replace d with dw by congruence. exact Y.
      - intros e He Hp Hn Hr. destruct Hp as [E2|Hp]; [|apply ri_rel0; auto].
        exfalso. apply Hr. rewrite (cs_in g CG). apply filter_In. split; auto. apply Nat.eqb_eq. auto.
      - intros v d Dv Nv. destruct (ri_tight0 v d Dv Nv) as (e & dw' & ? & ? & ? & ? & ?). exists e, dw'. repeat split; auto. right; auto. }
    assert (LQ : forall x dx, sq_key_of queue x = Some (Fin dx) -> dw <= dx).
    { intros x dx X. pose proof (min_key_le _ _ _ X) as Y. rewrite MK in Y. exact Y. }
    destruct (r_rd_fold_inv (w :: P) w dw (incoming g w) dist (sq_drop queue w) I0) as (d' & q' & E' & I'); auto.
    + rewrite (cs_in g CG). apply NoDup_filter, (cs_edges g CG).
    + intros e He. apply in_incoming; auto.
    + left; auto.
    + intros v d [<-|Hv] Dv; [replace d with dw by congruence; qlra|]. rewrite MK in K. apply (ri_ord _ _ _ _ I v d w dw); auto.
    + intros x dx. rewrite kof_drop, eqb_nat. destruct (Nat.eqb w x); [discriminate|]. apply LQ.
    + rewrite E'. cbn [bind]. apply (IH (w :: P)); auto. cbn [length]. lia.
  - exists dist, P, queue. split; [reflexivity|]. split; [exact I|]. apply len_zero; auto.
Qed.

Lemma r_reverse_dijkstra_spec :
  exists dist, r_reverse_dijkstra rnd g sink costs nodes = Ok dist /\ NoDup (map fst dist) /\ dget dist sink = Some 0 /\
    (forall v d, dget dist v = Some d -> exists k, walk v k d) /\
    (forall v k c, walk v k c -> exists d, dget dist v = Some d) /\
    (forall e dw, In e (g_edges g) -> In (e_from g e) nodes -> dget dist (e_to g e) = Some dw ->
       exists dv, dget dist (e_from g e) = Some dv /\ rnd (dv - ep) <= rnd (cost e + dw)) /\
    (forall v d, dget dist v = Some d -> v <> sink -> exists e dw, In e (g_edges g) /\ e_from g e = v /\ dget dist (e_to g e) = Some dw /\ d = rnd (cost e + dw)).
Proof.
  unfold r_reverse_dijkstra. replace (mem sink nodes) with true by (symmetry; apply memP; auto). cbn [assertb bind].
  destruct (r_rd_loop_ok (S (length (g_nodes g))) [] [(sink, 0)] (sq_set sq_empty sink (Fin 0))) as (dist & P & queue & E & I & QE).
  - constructor.
    + apply nd_set, nd_empty.
    + intros v k. rewrite kof_set, eqb_nat. cbn [dget]. destruct (Nat.eqb sink v); [|discriminate]. intro X; injection X as <-. eauto.
    + intro v. rewrite kof_set, eqb_nat. cbn [dget]. destruct (Nat.eqb sink v); split; try intros []; try discriminate; congruence.
    + constructor.
    + intro v. cbn [dget]. destruct (Nat.eqb_spec sink v) as [<-|]; auto. congruence.
    + intros v d x dx [].
    + intros v d. cbn [dget]. destruct (Nat.eqb_spec sink v) as [<-|]; [|discriminate]. intro X; injection X as <-. exists 0%nat. constructor.
    + intros e _ [].
    + cbn [dget]. rewrite Nat.eqb_refl. auto.
    + intros v d. cbn [dget]. destruct (Nat.eqb_spec sink v) as [<-|]; [congruence|discriminate].
    + repeat constructor. intros [].
  - unfold node_ids. rewrite map_length. cbn [length]. lia.
  - exists dist. destruct I.
    assert (REL : forall e dw, In e (g_edges g) -> In (e_from g e) nodes -> dget dist (e_to g e) = Some dw ->
       exists dv, dget dist (e_from g e) = Some dv /\ rnd (dv - ep) <= rnd (cost e + dw)).
    { intros e dw He Hn Dw. destruct (ri_rel0 e He) as (dv & dw' & A & B & D); auto.
      - apply ri_P0. split; [congruence|auto].
      - exists dv. split; auto. replace dw with dw' by congruence. auto. }
    split; auto. split; auto. split; auto. split; auto. split; [|split; auto].
    + intros v k c W. induction W as [|e k c He Hn W (dw & D1)]; [eauto|].
      destruct (REL e dw He Hn D1) as (dv & D3 & D4). exists dv. auto.
    + intros v d Dv Nv. destruct (ri_tight0 v d Dv Nv) as (e & dw & ? & ? & ? & ? & ?). exists e, dw. auto.
Qed.

(** The active edges for constant costs. *)
Lemma r_tight_total dist v l dv : dget dist v = Some dv -> (forall e, In e l -> In e (g_edges g)) ->
  exists r, r_tight_edges rnd g costs dist v l = Ok r /\
    forall e, In e r <-> In e l /\ exists dw, dget dist (e_to g e) = Some dw /\ rnd (cost e + dw) <= rnd (dv + ep).
Proof.
  intros DV. induction l as [|e l IH]; intro HE; cbn [r_tight_edges]; [exists []; split; auto; intro e; split; [intros []|intros [[] _]]|].
  destruct IH as (r & E & H); [intros; apply HE; right; auto|].
  destruct (dget dist (e_to g e)) as [dw|] eqn:DW.
  - destruct (cost_ok e (HE e (or_introl eq_refl))) as [CE _]. rewrite CE. cbn [bind]. rewrite (dfetch_ok _ _ _ DV). cbn [bind]. rewrite E. cbn [bind].
    eexists. split; [reflexivity|]. intro x. destruct (qlebP (rnd (cost e + dw)) (rnd (dv + ep))) as [L|L]; cbn [In]; rewrite H.
    + split.
      * intros [<-|(H1 & H2)]; [|auto]. split; auto. eauto.
      * intros ([<-|H1] & H2); auto.
    + split.
      * intros (H1 & H2). auto.
      * intros ([<-|H1] & (dw' & D' & L')); [|eauto]. rewrite DW in D'. injection D' as <-. contradiction.
  - exists r. split; auto. intro x. rewrite H. cbn [In]. split; [intros (H1 & H2); auto|].
    intros ([<-|H1] & (dw' & D' & L')); [congruence|eauto].
Qed.

Lemma r_active_constant_spec v : v <> sink -> (exists k c, walk v k c) ->
  exists dist dv l, r_reverse_dijkstra rnd g sink costs nodes = Ok dist /\ dget dist v = Some dv /\
    r_active_constant rnd g sink costs nodes v = Ok l /\ l <> [] /\
    forall e, In e l <-> In e (g_edges g) /\ e_from g e = v /\ exists dw, dget dist (e_to g e) = Some dw /\ rnd (cost e + dw) <= rnd (dv + ep).
Proof.
  intros NS (k & c & W). destruct r_reverse_dijkstra_spec as (dist & E & _ & _ & H1 & H2 & _ & H4).
  destruct (H2 v k c W) as (dv & DV). exists dist, dv. unfold r_active_constant. rewrite E. cbn [bind].
  destruct (r_tight_total dist v (outgoing g v) dv DV) as (l & EL & HL). { intros e He. apply (in_outgoing g v e CG He). }
  rewrite EL. cbn [bind].
  assert (SP : forall e, In e l <-> In e (g_edges g) /\ e_from g e = v /\ exists dw, dget dist (e_to g e) = Some dw /\ rnd (cost e + dw) <= rnd (dv + ep)).
  { intro e. rewrite HL. rewrite (cs_out g CG), filter_In, Nat.eqb_eq. tauto. }
  destruct (H4 v dv DV NS) as (e & dw & A1 & A2 & A3 & A4).
  assert (IN : In e l). { apply SP. split; auto. split; auto. exists dw. split; auto. rewrite <- A4. apply le_rnd; [rewrite A4; apply fl_rnd|]. pose proof ep_nn. qlra. }
  exists l. split; auto. split; auto. destruct l as [|x l]; [destruct IN|]. cbn [length Nat.ltb Nat.leb assertb bind]. split; auto. split; [discriminate|auto].
Qed.

(** ** How far labels are from the exact distances *)
Section Accuracy.
Variables B delta : Qc.
Hypothesis ACC : accurate rnd B delta.
Hypothesis FB : fl B.
Hypothesis DN : 0 <= delta.

Lemma label_lower v k d : walk v k d -> d < B -> exists c, walk_to g costs nodes sink v k c /\ c - qn k * delta <= d /\ d <= c + qn k * delta.
Proof.
  intro W. induction W as [|e k c He Hn W IH]; intro LB.
  - exists 0. split; [constructor|]. change (qn 0) with (Q2Qc 0). split; qlra.
  - destruct (cost_ok e He) as [_ CN]. assert (CNN := rwalk_nn _ _ _ W). assert (FC := rwalk_fl _ _ _ W).
    assert (X : cost e + c < B). { destruct (qltbP (cost e + c) B) as [|GE]; auto. assert (B <= rnd (cost e + c)) by (apply le_rnd; auto; qlra). qlra. }
    destruct IH as (c' & W' & L1 & L2); [qlra|]. exists (cost e + c'). split; [constructor; auto|].
    destruct (ACC (cost e + c)) as [A1 A2]; [qlra|auto|]. rewrite ArraysProofs.qn_S.
    assert ((qn k + 1) * delta = qn k * delta + delta) by ring. qlra.
Qed.

Lemma label_upper dist v k c : (forall e dw, In e (g_edges g) -> In (e_from g e) nodes -> dget dist (e_to g e) = Some dw ->
       exists dv, dget dist (e_from g e) = Some dv /\ rnd (dv - ep) <= rnd (cost e + dw)) ->
  dget dist sink = Some 0 -> (forall v d, dget dist v = Some d -> 0 <= d) ->
  walk_to g costs nodes sink v k c -> c + qn k * (ep + (delta + delta)) < B ->
  exists d, dget dist v = Some d /\ d <= c + qn k * (ep + (delta + delta)).
Proof.
  intros REL DS NN W. pose proof ep_nn as EN. induction W as [|e k c He Hn W IH]; intro LB.
  - exists 0. split; auto. change (qn 0) with (Q2Qc 0). qlra.
  - rewrite ArraysProofs.qn_S in *. destruct (cost_ok e He) as [_ CN].
    set (s := ep + (delta + delta)) in *. assert (XE : (qn k + 1) * s = qn k * s + s) by ring. rewrite XE in *.
    assert (KS : 0 <= qn k * s) by (assert (0 <= s) by (unfold s; qlra); pose proof (ArraysProofs.qn_nonneg k); clear - H H0; set (a := qn k) in *; clearbody a s; qnra).
    destruct IH as (dw & DW & LW); [unfold s in *; qlra|].
    destruct (REL e dw He Hn DW) as (dv & DV & R). exists dv. split; auto. specialize (NN _ _ DW).
    destruct (qlebP dv (cost e + c + (qn k * s + s))) as [|GT]; auto. exfalso.
    set (X := cost e + c + (qn k * s + s)) in *.
    destruct (ACC (cost e + dw)) as [_ A2]; [qlra|unfold X, s in *; qlra|].
    set (y := qmin dv ((X + B) / Q2Qc (2 # 1))).
    assert (HB : (X + B) / Q2Qc (2 # 1) < B /\ X < (X + B) / Q2Qc (2 # 1)).
    { set (h := (X + B) / Q2Qc (2 # 1)). assert (HE : h * Q2Qc (2 # 1) = X + B) by (apply qdiv_mul; discriminate).
      assert (h + h = X + B) by (rewrite <- HE; change (Q2Qc (2 # 1)) with (1 + 1); ring). split; qlra. }
    assert (XC : 0 <= c) by (clear - W COSTS; induction W; [qlra|]; destruct (cost_ok _ H); qlra).
    assert (Y : X < y /\ y < B /\ y <= dv) by (unfold y; qmm; qlra).
    destruct (ACC (y - ep)) as [A3 _]; [unfold X, s in *; qlra|qlra|].
    assert (M : rnd (y - ep) <= rnd (dv - ep)) by (apply mono; qlra).
    unfold X, s in *; qlra.
Qed.
End Accuracy.
End RD.

(** ** dynamic_dijkstra: any cost functions that return *)
Section DD.
Variables (g : graph) (phi : Qc) (source sink : nat) (relevant : list nat) (costs : list costfn).
Hypothesis CG : consistent g.
Hypothesis SRC : In source (node_ids g).
Hypothesis PHI : fl phi.
Hypothesis TOT : forall e t, In e (g_edges g) -> phi <= t -> exists f c, nth_error costs (e_id g e) = Some f /\ f t = Ok c /\ 0 <= c.

Inductive exact_path (A R : list (nat * Qc)) : nat -> Prop :=
  | xp_here : exact_path A R source
  | xp_step e tv tw cc : exact_path A R (e_from g e) -> In e (g_edges g) -> dget R e = Some cc ->
      dget A (e_from g e) = Some tv -> dget A (e_to g e) = Some tw -> rnd (tv + cc) = tw -> exact_path A R (e_to g e).
Lemma exact_mono A R A' R' : (forall v t, dget A v = Some t -> dget A' v = Some t) ->
  (forall e t, dget R e = Some t -> dget R' e = Some t) -> forall v, exact_path A R v -> exact_path A' R' v.
Proof. intros HA HR v H. induction H. constructor. eapply xp_step; eauto. Qed.
Definition realised (e : nat) (t cc : Qc) : Prop := exists f, nth_error costs (e_id g e) = Some f /\ f t = Ok cc.

Record dinv (rem : list nat) (A R : list (nat * Qc)) (Q : @squeue nat) : Prop := {
  di_nd : sq_nd Q;
  di_key : forall v k, sq_key_of Q v = Some k -> exists t, k = Fin t /\ phi <= t /\ fl t;
  di_lab : forall v t, dget A v = Some t -> phi <= t /\ fl t;
  di_disj : forall v k, sq_key_of Q v = Some k -> dget A v = None;
  di_front : forall e t, In e (g_edges g) -> dget A (e_from g e) = Some t -> In (e_to g e) relevant -> ~ In e rem ->
     dget A (e_to g e) <> None \/ sq_key_of Q (e_to g e) <> None;
  di_R : forall e cc, dget R e = Some cc -> In e (g_edges g) /\ In (e_to g e) relevant /\ exists t, dget A (e_from g e) = Some t /\ realised e t cc;
  di_pred : forall v t, sq_key_of Q v = Some (Fin t) -> v <> source -> exists e tv cc, In e (g_edges g) /\ e_to g e = v /\
     dget R e = Some cc /\ dget A (e_from g e) = Some tv /\ rnd (tv + cc) = t;
  di_exact : forall v t, dget A v = Some t -> exact_path A R v;
  di_nodes : forall v, dget A v <> None \/ sq_key_of Q v <> None -> In v (node_ids g);
  di_And : NoDup (map fst A);
  di_src : sq_key_of Q source <> None \/ dget A source <> None }.

Lemma r_dd_edge_inv e rem A R Q v tv : dinv (e :: rem) A R Q -> In e (g_edges g) -> e_from g e = v -> dget A v = Some tv -> dget A source <> None ->
  exists R' Q', r_dd_edge rnd g relevant costs A v (R, Q) e = Ok (R', Q') /\ dinv rem A R' Q'.
Proof.
  intros I HE HV DV SA. destruct (di_lab _ _ _ _ I v tv DV) as [TV FV]. destruct (TOT e tv HE TV) as (f & cc & NF & FT & CN).
  unfold r_dd_edge. set (w := e_to g e).
  destruct (dhas A w || negb (mem w relevant))%bool eqn:B.
  { exists R, Q. split; auto. destruct I. constructor; auto.
    intros e' t' He' Da Hr Nr. destruct (Nat.eq_dec e' e) as [->|N]; [|eapply di_front0; eauto; intros [?|?]; auto].
    apply orb_true_iff in B. destruct B as [B|B].
    - left. unfold dhas in B. fold w. destruct (dget A w) as [tw|] eqn:DW; [discriminate|discriminate].
    - apply negb_true_iff, mem_false in B. fold w in Hr. tauto. }
  apply orb_false_iff in B. destruct B as [B1 B2]. apply negb_false_iff, memP in B2.
  assert (DW : dget A w = None) by (unfold dhas in B1; destruct (dget A w); congruence).
  unfold fetch. rewrite NF. cbn [bind]. rewrite (dfetch_ok _ _ _ DV). cbn [bind]. rewrite FT. cbn [bind].
  set (r := rnd (tv + cc)).
  assert (RP : forall e' x, dget R e' = Some x -> dget (dset R e cc) e' = Some x).
  { intros e' x H. rewrite dget_dset. destruct (Nat.eqb_spec e e') as [<-|]; auto.
    destruct (di_R _ _ _ _ I _ _ H) as (_ & _ & t & D & f' & N' & F'). rewrite HV in D. congruence. }
  assert (RR : forall e' x, dget (dset R e cc) e' = Some x -> In e' (g_edges g) /\ In (e_to g e') relevant /\ exists t, dget A (e_from g e') = Some t /\ realised e' t x).
  { intros e' x. rewrite dget_dset. destruct (Nat.eqb_spec e e') as [<-|].
    - intro X. injection X as <-. split; auto. split; auto. exists tv. rewrite HV. split; auto. exists f. auto.
    - apply (di_R _ _ _ _ I). }
  assert (WS : w <> source) by congruence.
  assert (UPD : dinv rem A (dset R e cc) (sq_set Q w (Fin r))).
  { destruct I. constructor; auto.
    - apply nd_set; auto.
    - intros x k. rewrite kof_set, eqb_nat. destruct (Nat.eqb_spec w x) as [<-|]; [|apply di_key0].
      intro X; injection X as <-. exists r. split; auto. split; [|apply fl_rnd]. assert (tv <= r) by (apply le_rnd; auto; qlra). qlra.
    - intros x k. rewrite kof_set, eqb_nat. destruct (Nat.eqb_spec w x) as [<-|]; [auto|apply di_disj0].
    - intros e' t' He' Da Hr Nr. rewrite kof_set, eqb_nat. destruct (Nat.eqb_spec w (e_to g e')) as [E|N]; [right; discriminate|].
      apply (di_front0 e' t'); auto. intros [<-|?]; auto.
    - intros x t. rewrite kof_set, eqb_nat. destruct (Nat.eqb_spec w x) as [<-|].
      + intro X; injection X as <-. intros _. exists e, tv, cc. rewrite dget_dset, Nat.eqb_refl, HV. repeat split; auto.
      + intros K NS. destruct (di_pred0 x t K NS) as (e' & tv' & c' & ? & ? & ? & ? & ?). exists e', tv', c'. repeat split; auto.
    - intros x t D. eapply exact_mono; [| |eapply di_exact0; eauto]; auto.
    - intros x. rewrite kof_set, eqb_nat. destruct (Nat.eqb_spec w x) as [<-|]; [|apply di_nodes0]. intros _. apply (cs_ends g CG e HE). }
  destruct (sq_key_of Q w) as [k|] eqn:K.
  - destruct (di_key _ _ _ _ I _ _ K) as (t & -> & _). destruct (ext_ltbP (Fin r) (Fin t)) as [LT|GE].
    + rewrite (decrease_ok _ _ _ _ K). cbn [bind]. eexists _, _. split; [reflexivity|]. exact UPD.
    + eexists _, _. split; [reflexivity|]. destruct I. constructor; auto.
      * intros e' t' He' Da Hr Nr. destruct (Nat.eq_dec e' e) as [->|N].
        -- right. fold w. congruence.
        -- apply (di_front0 e' t'); auto. intros [?|?]; auto.
      * intros x tx Kx NS. destruct (di_pred0 x tx Kx NS) as (e' & tv' & c' & ? & ? & ? & ? & ?). exists e', tv', c'. repeat split; auto.
      * intros x tx D. eapply exact_mono; [| |eapply di_exact0; eauto]; auto.
  - rewrite (push_ok _ _ _ K). cbn [bind]. eexists _, _. split; [reflexivity|]. exact UPD.
Qed.

Lemma r_dd_fold_inv v tv A edges : forall R Q, dinv edges A R Q -> dget A v = Some tv -> dget A source <> None ->
  (forall e, In e edges -> In e (g_edges g) /\ e_from g e = v) ->
  exists R' Q', foldM (r_dd_edge rnd g relevant costs A v) edges (R, Q) = Ok (R', Q') /\ dinv [] A R' Q'.
Proof.
  induction edges as [|e r IH]; intros R Q I DV SA HE; cbn [foldM]; [eauto|].
  destruct (HE e (or_introl eq_refl)) as [E1 E2]. destruct (r_dd_edge_inv e r A R Q v tv) as (R' & Q' & -> & I'); auto.
  cbn [bind]. apply IH; auto. intros; apply HE; right; auto.
Qed.

Record dd_good (r : ddresult) : Prop := {
  dg_R : forall e cc, dget (dd_cost r) e = Some cc -> In e (g_edges g) /\ In (e_to g e) relevant /\
     exists t, dget (dd_arrival r) (e_from g e) = Some t /\ realised e t cc;
  dg_exact : forall v t, dget (dd_arrival r) v = Some t -> exact_path (dd_arrival r) (dd_cost r) v;
  dg_sink : leads g relevant source sink -> dget (dd_arrival r) sink <> None;
  dg_nd : NoDup (map fst (dd_arrival r));
  dg_lab : forall v t, dget (dd_arrival r) v = Some t -> phi <= t /\ fl t }.

Lemma r_dd_loop_ok : forall fuel A R Q, dinv [] A R Q -> (dget A source = None -> forall v, sq_key_of Q v <> None -> v = source) ->
  (length (node_ids g) < fuel + length A)%nat ->
  exists r, r_dd_loop rnd fuel g sink relevant costs A R Q = Ok r /\ dd_good r.
Proof.
  induction fuel as [|f IH]; intros A R Q I FI L; cbn [r_dd_loop]; destruct (0 <? sq_len Q)%nat eqn:QE.
  1:{ exfalso. assert (length (map fst A) <= length (node_ids g))%nat; [|rewrite map_length in *; lia]. apply NoDup_incl_length; [apply (di_And _ _ _ _ I)|].
      intros v Hv. apply (di_nodes _ _ _ _ I). left. apply dhas_In in Hv. unfold dhas in Hv. destruct (dget A v); congruence. }
  1,3: (exists (mkDD A R); split; auto; pose proof (len_zero Q QE) as QN; constructor; cbn [dd_arrival dd_cost];
    [ apply (di_R _ _ _ _ I) | apply (di_exact _ _ _ _ I)
    | intro LD; assert (AL : forall v, leads g relevant source v -> dget A v <> None);
      [intros v Hv; induction Hv as [|e Hv IHv HE HR];
       [destruct (di_src _ _ _ _ I) as [X|X]; auto; rewrite QN in X; congruence
       |destruct (dget A (e_from g e)) as [t|] eqn:D; [|congruence]; destruct (di_front _ _ _ _ I e t HE D HR) as [X|X]; auto; rewrite QN in X; congruence]
      |apply AL; auto]
    | apply (di_And _ _ _ _ I) | apply (di_lab _ _ _ _ I)]).
  assert (ND := di_nd _ _ _ _ I). destruct (pop_total Q (len_pos' Q QE ND)) as (q' & v & E). rewrite E. cbn [bind].
  destruct (pop_ok _ _ _ ND E) as [-> K]. destruct (di_key _ _ _ _ I _ _ K) as (tv & MK & TV & FV). rewrite MK in *.
  assert (DV : dget A v = None) by (apply (di_disj _ _ _ _ I _ _ K)).
  set (A' := dset A v tv).
  assert (KEEP : forall x t, dget A x = Some t -> dget A' x = Some t).
  { intros x t D. unfold A'. rewrite dget_dset. destruct (Nat.eqb_spec v x); [congruence|auto]. }
  assert (AND : NoDup (map fst A')) by (apply dset_nd, (di_And _ _ _ _ I)).
  assert (EX : forall x t, dget A' x = Some t -> exact_path A' R x).
  { intros x t. unfold A'. rewrite dget_dset. fold A'. destruct (Nat.eqb_spec v x) as [<-|].
    - intros _. destruct (Nat.eq_dec v source) as [->|NS]; [constructor|].
      destruct (di_pred _ _ _ _ I v tv K NS) as (e & tu & cc & HE & HV & HR & HU & EQ).
      rewrite <- HV. eapply xp_step; eauto.
      + eapply exact_mono; [exact KEEP| |eapply (di_exact _ _ _ _ I); eauto]. auto.
      + rewrite HV. unfold A'. rewrite dget_dset, Nat.eqb_refl. auto.
    - intro D. eapply exact_mono; [exact KEEP| |eapply (di_exact _ _ _ _ I); eauto]. auto. }
  assert (RR : forall e cc, dget R e = Some cc -> In e (g_edges g) /\ In (e_to g e) relevant /\ exists t, dget A' (e_from g e) = Some t /\ realised e t cc).
  { intros e cc HR. destruct (di_R _ _ _ _ I e cc HR) as (H1 & H2 & t & H3 & H4). eauto 10. }
  assert (LB : forall x t, dget A' x = Some t -> phi <= t /\ fl t).
  { intros x t. unfold A'. rewrite dget_dset. destruct (Nat.eqb_spec v x) as [<-|]; [|apply (di_lab _ _ _ _ I)]. intro X; injection X as <-. auto. }
  assert (DVV : dget A' v = Some tv) by (unfold A'; rewrite dget_dset, Nat.eqb_refl; auto).
  assert (SA : dget A' source <> None).
  { destruct (dget A source) as [ts|] eqn:DS; [rewrite (KEEP _ _ DS); discriminate|]. rewrite <- (FI eq_refl v) by congruence. congruence. }
  destruct (Nat.eqb_spec v sink) as [VS|VS].
  - exists (mkDD A' R). split; auto. constructor; cbn [dd_arrival dd_cost]; auto. intros _. rewrite <- VS. congruence.
  - assert (I0 : dinv (outgoing g v) A' R (sq_drop Q v)).
    { constructor; auto.
      - apply nd_drop; auto.
      - intros x k. rewrite kof_drop, eqb_nat. destruct (Nat.eqb v x); [discriminate|apply (di_key _ _ _ _ I)].
      - intros x k. rewrite kof_drop, eqb_nat. unfold A'. rewrite dget_dset. destruct (Nat.eqb v x); [discriminate|apply (di_disj _ _ _ _ I)].
      - intros e t HE. unfold A'. rewrite !dget_dset. destruct (Nat.eqb_spec v (e_from g e)) as [EV|NV].
        + intros _ _ Nr. exfalso. apply Nr. rewrite (cs_out g CG). apply filter_In. split; auto. apply Nat.eqb_eq. auto.
        + intros D HR _. rewrite kof_drop, (eqb_nat v (e_to g e)). destruct (Nat.eqb_spec v (e_to g e)); [left; discriminate|].
          apply (di_front _ _ _ _ I e t); auto.
      - intros x t. rewrite kof_drop, eqb_nat. destruct (Nat.eqb_spec v x); [discriminate|]. intros Kx NS.
        destruct (di_pred _ _ _ _ I x t Kx NS) as (e & tu & cc & ? & ? & ? & ? & ?). exists e, tu, cc. repeat split; auto.
      - intros x. rewrite kof_drop, eqb_nat. unfold A'. rewrite dget_dset. destruct (Nat.eqb_spec v x) as [<-|].
        + intros _. apply (di_nodes _ _ _ _ I). right. congruence.
        + apply (di_nodes _ _ _ _ I). }
    destruct (r_dd_fold_inv v tv A' (outgoing g v) R (sq_drop Q v) I0) as (R' & Q' & EF & I'); auto.
    + intros e He. apply in_outgoing; auto.
    + change (dset A v tv) with A'. setoid_rewrite EF. cbn [bind]. apply IH; auto.
      * intro X. congruence.
      * assert (LA : length A' = S (length A)).
        { rewrite <- (map_length fst A'), <- (map_length fst A). unfold A'. rewrite dset_keys_new; [rewrite app_length; cbn; lia|].
          apply dget_None; auto. }
        lia.
Qed.

Lemma r_dynamic_dijkstra_spec : exists r, r_dynamic_dijkstra rnd g phi source sink relevant costs = Ok r /\ dd_good r.
Proof.
  unfold r_dynamic_dijkstra. apply r_dd_loop_ok.
  - constructor.
    + apply nd_set, nd_empty.
    + intros v k. rewrite kof_set, eqb_nat. destruct (Nat.eqb_spec source v) as [<-|]; [|discriminate]. intro X; injection X as <-. exists phi. split; auto. split; auto. qlra.
    + intros v t X. discriminate.
    + intros v k _. reflexivity.
    + intros; discriminate.
    + intros; discriminate.
    + intros v t. rewrite kof_set, eqb_nat. destruct (Nat.eqb_spec source v) as [<-|]; [congruence|discriminate].
    + intros; discriminate.
    + intros v [H|H]; [cbn in H; congruence|]. revert H. rewrite kof_set, eqb_nat. destruct (Nat.eqb_spec source v) as [<-|]; auto. rewrite kof_empty. congruence.
    + constructor.
    + left. rewrite kof_set, eqb_nat, Nat.eqb_refl. discriminate.
  - intros _ v. rewrite kof_set, eqb_nat. destruct (Nat.eqb_spec source v) as [<-|]; auto. rewrite kof_empty. congruence.
  - unfold node_ids. rewrite map_length. cbn. lia.
Qed.
(** ** Active edges *)
Variable r : ddresult.
Hypothesis GOOD : dd_good r.
Hypothesis SINK : dget (dd_arrival r) sink <> None.
Hypothesis SINKG : In sink (node_ids g).

Definition tightb (e : nat) : bool :=
  match dget (dd_cost r) e, dget (dd_arrival r) (e_from g e), dget (dd_arrival r) (e_to g e) with
  | Some cc, Some tv, Some tw => qleb (rnd (tv + cc)) (rnd (tw + ep)) | _, _, _ => false end.
Lemma tightbP e : tightb e = true <-> r_tight rnd g r e.
Proof.
  unfold tightb, r_tight, r_eps. destruct (dget (dd_cost r) e) as [cc|]; [|split; [discriminate|intros (? & ? & ? & ? & _); discriminate]].
  destruct (dget (dd_arrival r) (e_from g e)) as [tv|]; [|split; [discriminate|intros (? & ? & ? & _ & ? & _); discriminate]].
  destruct (dget (dd_arrival r) (e_to g e)) as [tw|]; [|split; [discriminate|intros (? & ? & ? & _ & _ & ? & _); discriminate]].
  rewrite qleb_true. split; [intro; exists cc, tv, tw; auto|]. intros (? & ? & ? & X & Y & Z & ?). congruence.
Qed.

Lemma ae_edge_ok w e active touched queue : In e (g_edges g) -> e_to g e = w -> dget (dd_arrival r) w <> None ->
  r_ae_edge rnd g r source w (active, touched, queue) e =
  Ok (if tightb e then
        ((if Nat.eqb (e_from g e) source then active ++ [e] else active),
         (if mem (e_from g e) touched then touched else e_from g e :: touched),
         (if mem (e_from g e) touched then queue else e_from g e :: queue))
      else (active, touched, queue)).
Proof.
  intros HE HW LW. unfold r_ae_edge, tightb. rewrite HW. destruct (dget (dd_cost r) e) as [cc|] eqn:R; auto.
  destruct (dg_R r GOOD _ _ R) as (_ & _ & t & D & _). rewrite (dfetch_ok _ _ _ D). cbn [bind]. rewrite D.
  destruct (dget (dd_arrival r) w) as [tw|] eqn:DW; [|congruence]. rewrite (dfetch_ok _ _ _ DW). cbn [bind].
  destruct (qleb (rnd (t + cc)) (rnd (tw + ep))); auto. destruct (mem (e_from g e) touched); auto.
Qed.
Lemma ae_fold_ok w edges : forall active touched queue,
  (forall e, In e edges -> In e (g_edges g) /\ e_to g e = w) -> dget (dd_arrival r) w <> None ->
  foldM (r_ae_edge rnd g r source w) edges (active, touched, queue) =
  Ok (active ++ filter (fun e => tightb e && Nat.eqb (e_from g e) source)%bool edges,
      fst (visit (map (e_from g) (filter tightb edges)) touched queue),
      snd (visit (map (e_from g) (filter tightb edges)) touched queue)).
Proof.
  induction edges as [|e l IH]; intros active touched queue HE LW; cbn [foldM filter map visit].
  - rewrite app_nil_r. auto.
  - destruct (HE e (or_introl eq_refl)) as [H1 H2]. rewrite ae_edge_ok; auto. cbn [bind].
    assert (HE' : forall e, In e l -> In e (g_edges g) /\ e_to g e = w) by (intros; apply HE; right; auto).
    destruct (tightb e); cbn [andb]; [|apply IH; auto].
    rewrite IH by auto. cbn [map visit]. destruct (mem (e_from g e) touched);
    (destruct (Nat.eqb (e_from g e) source); [rewrite <- app_assoc|]; reflexivity).
Qed.

Lemma tight_labelled e : r_tight rnd g r e -> In (e_from g e) (node_ids g) /\ dget (dd_arrival r) (e_from g e) <> None.
Proof.
  intros (cc & tv & tw & A & B & _). split; [|congruence]. destruct (dg_R r GOOD _ _ A) as (H & _). apply (cs_ends g CG); auto.
Qed.

Lemma ae_loop_ok : forall fuel active touched queue,
  NoDup touched -> NoDup queue -> incl queue touched -> In sink touched ->
  (forall v, In v touched -> In v (node_ids g) /\ dget (dd_arrival r) v <> None /\ r_tight_path rnd g r sink v) ->
  (forall e, In e (g_edges g) -> r_tight rnd g r e -> In (e_to g e) touched -> ~ In (e_to g e) queue -> In (e_from g e) touched) ->
  NoDup active ->
  (forall e, In e active <-> In e (g_edges g) /\ e_from g e = source /\ r_tight rnd g r e /\ In (e_to g e) touched /\ ~ In (e_to g e) queue) ->
  (length (node_ids g) + length queue < fuel + length touched)%nat ->
  exists l, r_ae_loop rnd fuel g r source active touched queue = Ok l /\ NoDup l /\
    forall e, In e l <-> In e (g_edges g) /\ e_from g e = source /\ r_tight rnd g r e /\ r_tight_path rnd g r sink (e_to g e).
Proof.
  induction fuel as [|f IH]; intros active touched queue NT NQ QI ST HT CL NA HA L.
  - exfalso. assert (length touched <= length (node_ids g))%nat; [|lia]. apply NoDup_incl_length; auto. intros v Hv. apply HT; auto.
  - destruct queue as [|w q]; cbn [r_ae_loop].
    + exists active. split; auto. split; auto. intro e. rewrite HA. cbn [In].
      assert (TP : forall v, r_tight_path rnd g r sink v -> In v touched) by (intros v Hv; induction Hv; auto).
      split; intros (A & B & D & E).
      * repeat split; auto. apply HT; tauto.
      * repeat split; auto.
    + inversion_clear NQ as [|? ? NW NQ'].
      assert (WT : In w touched) by (apply QI; left; auto). destruct (HT w WT) as (W1 & W2 & W3).
      assert (HI : forall e, In e (incoming g w) -> In e (g_edges g) /\ e_to g e = w) by (intros e He; apply in_incoming; auto).
      assert (IH' : forall e, In e (g_edges g) -> e_to g e = w -> In e (incoming g w)).
      { intros e He Ee. rewrite (cs_in g CG). apply filter_In. split; auto. apply Nat.eqb_eq; auto. }
      rewrite (ae_fold_ok w _ _ _ _ HI W2). cbn [bind].
      set (ends := map (e_from g) (filter tightb (incoming g w))).
      destruct (visit ends touched q) as [t' q'] eqn:V. cbn [fst snd].
      destruct (visit_spec _ _ _ _ _ V NT) as (V1 & V2 & V3 & V4).
      assert (EN : forall x, In x ends <-> exists e, In e (g_edges g) /\ e_to g e = w /\ r_tight rnd g r e /\ e_from g e = x).
      { intro x. unfold ends. rewrite in_map_iff. split.
        - intros (e & <- & H). apply filter_In in H. destruct H as [H1 H2]. apply HI in H1. apply tightbP in H2. exists e. tauto.
        - intros (e & H1 & H2 & H3 & H4). exists e. split; auto. apply filter_In. split; auto. apply tightbP; auto. }
      assert (WQ' : ~ In w q') by (rewrite V3; tauto).
      apply IH; auto.
      * (* NoDup q' *) revert V NQ'. clear - QI. assert (QI' : incl q touched) by (intros x Hx; apply QI; right; auto). clear QI.
        revert touched q QI'. generalize ends. intro l. induction l as [|x l IHl]; intros touched q QI' V NQ; cbn [visit] in V.
        -- injection V as <- <-. auto.
        -- destruct (mem x touched) eqn:M; [apply (IHl touched q); auto|]. apply mem_false in M.
           apply (IHl (x :: touched) (x :: q)); auto.
           ++ intros y [<-|Hy]; [left; auto|right; auto].
           ++ constructor; auto.
      * intros x Hx. apply V3 in Hx. apply V2. destruct Hx as [Hx|[Hx _]]; auto. left. apply QI. right; auto.
      * apply V2; auto.
      * intros v Hv. apply V2 in Hv. destruct Hv as [Hv|Hv]; [apply HT; auto|]. apply EN in Hv. destruct Hv as (e & H1 & H2 & H3 & <-).
        destruct (tight_labelled e H3) as [T1 T2]. split; auto. split; auto. apply rtp_edge; auto. rewrite H2. auto.
      * intros e He Te Tt Tq. apply V2. destruct (Nat.eq_dec (e_to g e) w) as [EW|NW'].
        -- right. apply EN. exists e. auto.
        -- apply V2 in Tt. rewrite V3 in Tq. destruct Tt as [Tt|Tt].
           ++ left. apply CL; auto. intros [?|?]; [congruence|tauto].
           ++ destruct (In_dec Nat.eq_dec (e_to g e) touched) as [IT|IT]; [|tauto].
              left. apply CL; auto. intros [?|?]; [congruence|tauto].
      * (* NoDup active *) assert (ND2 : NoDup (filter (fun e => (tightb e && (e_from g e =? source)%nat)%bool) (incoming g w))).
        { apply NoDup_filter. rewrite (cs_in g CG). apply NoDup_filter, (cs_edges g CG). }
        assert (DJ : forall e, In e active -> ~ In e (filter (fun e => (tightb e && (e_from g e =? source)%nat)%bool) (incoming g w))).
        { intros e H1 H2. apply HA in H1. apply filter_In in H2. destruct H2 as [H2 _]. apply HI in H2. destruct H2 as [_ H2].
          rewrite H2 in H1. cbn in H1. tauto. }
        revert NA DJ ND2. clear. generalize (filter (fun e => (tightb e && (e_from g e =? source)%nat)%bool) (incoming g w)). intros l NA DJ ND.
        induction active as [|x a IHa]; cbn [app]; auto. inversion_clear NA. constructor.
        -- rewrite in_app_iff. intros [?|?]; auto. apply (DJ x); [left; auto|auto].
        -- apply IHa; auto. intros e He. apply DJ. right; auto.
      * intro e. rewrite in_app_iff, HA, filter_In, andb_true_iff, tightbP, Nat.eqb_eq, V2, V3. cbn [In].
        split.
        -- intros [(A1 & A2 & A3 & A4 & A5)|(A1 & A2 & A3)].
           ++ split; auto. split; auto. split; auto. split; auto. intros [H|[H1 H2]]; tauto.
           ++ apply HI in A1. destruct A1 as [A1 A4]. rewrite A4. split; auto. split; auto. split; auto. split; auto.
              intros [H|[H1 H2]]; tauto.
        -- intros (A1 & A2 & A3 & A4 & A5). destruct (Nat.eq_dec (e_to g e) w) as [EW|NE].
           ++ right. split; [apply IH'; auto|auto].
           ++ left. split; auto. split; auto. split; auto. destruct (In_dec Nat.eq_dec (e_to g e) touched) as [IT|IT]; [|tauto].
              split; auto. intros [?|?]; [congruence|tauto].
      * cbn [length] in L. lia.
Qed.

Lemma exact_to_tight v : exact_path (dd_arrival r) (dd_cost r) v -> r_tight_path rnd g r sink v -> v <> source ->
  exists e, In e (g_edges g) /\ e_from g e = source /\ r_tight rnd g r e /\ r_tight_path rnd g r sink (e_to g e).
Proof.
  intro H. induction H as [|e tv tw cc H IH HE HR DV DW EQ]; intros TP NS; [congruence|].
  assert (T : r_tight rnd g r e) by (exists cc, tv, tw; repeat split; auto; apply le_rnd; [apply fl_rnd|]; pose proof ep_nn as EN; unfold r_eps in EN; rewrite EQ; qlra).
  destruct (Nat.eq_dec (e_from g e) source) as [ES|ES].
  - exists e. auto.
  - apply IH; auto. apply rtp_edge; auto.
Qed.

Lemma active_edges_spec : source <> sink ->
  exists l, r_get_active_edges_from_dijkstra rnd g r source sink = Ok l /\ NoDup l /\ l <> [] /\
    forall e, In e l <-> In e (g_edges g) /\ e_from g e = source /\ r_tight rnd g r e /\ r_tight_path rnd g r sink (e_to g e).
Proof.
  intro NS. unfold r_get_active_edges_from_dijkstra.
  destruct (ae_loop_ok (S (length (g_nodes g))) [] [sink] [sink]) as (l & E & ND & H).
  - repeat constructor; intros [].
  - repeat constructor; intros [].
  - intros x Hx; auto.
  - left; auto.
  - intros v [<-|[]]. repeat split; auto. constructor.
  - intros e He Te [X|[]] N. exfalso. apply N. rewrite <- X. left; auto.
  - constructor.
  - intro e. split; [intros []|]. intros (_ & _ & _ & [X|[]] & N). apply N. rewrite <- X. left; auto.
  - unfold node_ids. rewrite map_length. cbn. lia.
  - rewrite E. cbn [bind].
    destruct (dget (dd_arrival r) sink) as [ts|] eqn:DS; [|congruence].
    destruct (exact_to_tight sink (dg_exact r GOOD _ _ DS) (rtp_end _ _ _ _)) as (e & He); [congruence|].
    apply H in He. destruct l as [|x l]; [destruct He|]. cbn [length Nat.ltb Nat.leb assertb bind].
    exists (x :: l). repeat split; auto; try discriminate; apply H; auto.
Qed.
End DD.

(** ** Earliest arrival: the search with rounding is the exact search with rounded cost functions *)
Section Sim.
Variables (g : graph) (phi : Qc) (source sink : nat) (relevant : list nat) (costs : list costfn) (c : nat -> Qc -> Qc).
Hypothesis CG : consistent g.
Hypothesis SRC : In source (node_ids g).
Hypothesis PHI : fl phi.
Hypothesis FIFO : fifo_costs g phi costs c.

Definition wrap (f : costfn) : costfn := fun t => x <- f t ;; Ok (qmax t (rnd (t + x)) - t).
Definition wc (e : nat) (t : Qc) : Qc := qmax t (rnd (t + c e t)) - t.
Lemma wrap_fifo : fifo_costs g phi (map wrap costs) wc.
Proof.
  intros e He. destruct (FIFO e He) as (f & N & H1 & H2). exists (wrap f). split; [|split].
  - rewrite nth_error_map, N. reflexivity.
  - intros t T. destruct (H1 t T) as [E _]. unfold wrap, wc. rewrite E. cbn [bind]. split; auto. qmm; qlra.
  - intros s t S T. specialize (H2 s t S T). unfold wc. pose proof (mono _ _ H2). qmm; qlra.
Qed.
Lemma wrap_float e t : In e (g_edges g) -> phi <= t -> fl t -> t + wc e t = rnd (t + c e t) /\ phi <= rnd (t + c e t).
Proof.
  intros He T F. destruct (FIFO e He) as (f & N & H1 & H2). destruct (H1 t T) as [_ CN].
  assert (t <= rnd (t + c e t)) by (apply le_rnd; auto; qlra). unfold wc. split; [|qlra].
  assert (M : qmax t (rnd (t + c e t)) = rnd (t + c e t)) by (apply Qcle_antisym; qmm; qlra). rewrite M. ring.
Qed.

Definition fkeys (Q : @squeue nat) : Prop := sq_nd Q /\ forall v k, sq_key_of Q v = Some k -> exists t, k = Fin t /\ phi <= t /\ fl t.
Definition flabs (A : list (nat * Qc)) : Prop := forall v t, dget A v = Some t -> phi <= t /\ fl t.
Lemma sim_edge A v R R2 Q e : In e (g_edges g) -> e_from g e = v -> flabs A -> fkeys Q -> dget A v <> None ->
  exists R' R2' Q', r_dd_edge rnd g relevant costs A v (R, Q) e = Ok (R', Q') /\
    dd_edge g relevant (map wrap costs) A v (R2, Q) e = Ok (R2', Q') /\ fkeys Q'.
Proof.
  intros He Ev FA FQ DV. destruct (dget A v) as [tv|] eqn:D; [|congruence]. destruct (FA v tv D) as [T F].
  destruct (FIFO e He) as (f & N & H1 & H2). destruct (H1 tv T) as [E CN]. destruct (wrap_float e tv He T F) as [W1 W2].
  unfold r_dd_edge, dd_edge. destruct (dhas A (e_to g e) || negb (mem (e_to g e) relevant))%bool; [eexists _, _, _; eauto|].
  unfold fetch. rewrite nth_error_map, N. cbn [option_map bind]. rewrite (dfetch_ok _ _ _ D). cbn [bind]. rewrite E. cbn [bind].
  unfold wrap. rewrite E. cbn [bind]. fold (wc e tv). rewrite W1. set (r := rnd (tv + c e tv)) in *.
  assert (FS : fkeys (sq_set Q (e_to g e) (Fin r))).
  { destruct FQ as [ND FK]. split; [apply nd_set; auto|]. intros x k. rewrite kof_set, eqb_nat. destruct (Nat.eqb (e_to g e) x); [|apply FK].
    intro X. injection X as <-. exists r. split; auto. split; auto. apply fl_rnd. }
  destruct (sq_key_of Q (e_to g e)) as [k|] eqn:K.
  - destruct (ext_ltb (Fin r) k); [|eexists _, _, _; eauto]. rewrite (decrease_ok _ _ _ _ K). cbn [bind]. eexists _, _, _. eauto.
  - rewrite (push_ok _ _ _ K). cbn [bind]. eexists _, _, _. eauto.
Qed.
Lemma sim_fold A v edges : forall R R2 Q, (forall e, In e edges -> In e (g_edges g) /\ e_from g e = v) -> flabs A -> fkeys Q -> dget A v <> None ->
  exists R' R2' Q', foldM (r_dd_edge rnd g relevant costs A v) edges (R, Q) = Ok (R', Q') /\
    foldM (dd_edge g relevant (map wrap costs) A v) edges (R2, Q) = Ok (R2', Q') /\ fkeys Q'.
Proof.
  induction edges as [|e l IH]; intros R R2 Q HE FA FQ DV; cbn [foldM]; [eexists _, _, _; eauto|].
  destruct (HE e (or_introl eq_refl)) as [E1 E2]. destruct (sim_edge A v R R2 Q e E1 E2 FA FQ DV) as (R' & R2' & Q' & -> & -> & FQ'). cbn [bind].
  apply IH; auto. intros; apply HE; right; auto.
Qed.
Lemma sim_loop : forall fuel A R R2 Q, flabs A -> fkeys Q ->
  match r_dd_loop rnd fuel g sink relevant costs A R Q, dd_loop fuel g sink relevant (map wrap costs) A R2 Q with
  | Ok r, Ok r2 => dd_arrival r = dd_arrival r2 | Err x, Err y => x = y | _, _ => False end.
Proof.
  induction fuel as [|f IH]; intros A R R2 Q FA FQ; cbn [r_dd_loop dd_loop]; destruct (0 <? sq_len Q)%nat eqn:QE; auto.
  destruct FQ as [ND FK]. destruct (pop_total Q (len_pos' Q QE ND)) as (q' & v & E). rewrite E. cbn [bind].
  destruct (pop_ok _ _ _ ND E) as [-> K]. destruct (FK _ _ K) as (t & -> & T & FT).
  assert (FA' : flabs (dset A v t)).
  { intros x y. rewrite dget_dset. destruct (Nat.eqb_spec v x) as [<-|]; [|apply FA]. intro X; injection X as <-. auto. }
  destruct (Nat.eqb v sink); [reflexivity|].
  destruct (sim_fold (dset A v t) v (outgoing g v) R R2 (sq_drop Q v)) as (R' & R2' & Q' & E1 & E2 & FQ'); auto.
  - intros e He. apply in_outgoing; auto.
  - split; [apply nd_drop; auto|]. intros x k. rewrite kof_drop, eqb_nat. destruct (Nat.eqb v x); [discriminate|apply FK].
  - rewrite dget_dset, Nat.eqb_refl. discriminate.
  - rewrite E1, E2. cbn [bind]. apply IH; auto.
Qed.

Lemma arrives_r v t : arrives g phi source relevant wc v t -> phi <= t /\ fl t /\ r_arrives rnd g phi source relevant c v t.
Proof.
  induction 1 as [|e t H (T & F & IH) He Hr]; [split; [qlra|split; [auto|constructor]]|].
  destruct (wrap_float e t He T F) as [-> W2]. split; auto. split; [apply fl_rnd|]. constructor; auto.
Qed.
Lemma r_arrives_w v t : r_arrives rnd g phi source relevant c v t -> phi <= t /\ fl t /\ arrives g phi source relevant wc v t.
Proof.
  induction 1 as [|e t H (T & F & IH) He Hr]; [split; [qlra|split; [auto|constructor]]|].
  destruct (wrap_float e t He T F) as [W1 W2]. split; auto. split; [apply fl_rnd|]. rewrite <- W1. constructor; auto.
Qed.
Lemma r_earliest r : r_dynamic_dijkstra rnd g phi source sink relevant costs = Ok r ->
  (forall v t, dget (dd_arrival r) v = Some t -> r_arrives rnd g phi source relevant c v t /\ forall s, r_arrives rnd g phi source relevant c v s -> t <= s) /\
  (forall v s, r_arrives rnd g phi source relevant c v s -> dget (dd_arrival r) v = None -> exists ts, dget (dd_arrival r) sink = Some ts /\ ts <= s).
Proof.
  intro E. destruct (DijkstraProofs2.dynamic_dijkstra_spec g phi source sink relevant (map wrap costs) wc CG SRC wrap_fifo) as (r2 & E2 & [D1 D2 _ _ _]).
  pose proof (sim_loop (S (length (g_nodes g))) [] [] [] (sq_set sq_empty source (Fin phi))) as X.
  unfold r_dynamic_dijkstra in E. unfold dynamic_dijkstra in E2. rewrite E, E2 in X. rewrite X.
  - split.
    + intros v t H. destruct (D1 v t H) as [H1 H2]. split; [apply arrives_r; auto|]. intros s Hs. apply H2, r_arrives_w; auto.
    + intros v s H. apply D2. apply r_arrives_w; auto.
  - intros v t Y. discriminate.
  - split; [apply nd_set, nd_empty|]. intros v k. rewrite kof_set, eqb_nat. destruct (Nat.eqb source v); [|discriminate].
    intro Y. injection Y as <-. exists phi. split; auto. split; auto. qlra.
Qed.
End Sim.
End Rnd.
