(** * Proofs about dynamic_dijkstra and the active edges *)
From Verif Require Import Base Spec Arrays PL RC FRC FRCProofs PQ PQSpec DynFlow DQProofs Graph GraphSpec GraphProofs Dijkstra DijkstraSpec DijkstraProofs.

Section DD.
Variables (g : graph) (phi : Qc) (source sink : nat) (relevant : list nat) (costs : list costfn) (c : nat -> Qc -> Qc).
Hypothesis CG : consistent g.
Hypothesis SRC : In source (node_ids g).
Hypothesis FIFO : fifo_costs g phi costs c.
Notation arr := (arrives g phi source relevant c).

Lemma arr_ge v t : arr v t -> phi <= t.
Proof.
  induction 1. qlra. destruct (FIFO e H0) as (f & _ & N & _). destruct (N t IHarrives) as [_ X]. qlra.
Qed.

(** exact predecessors: a path of realised edges with exact arrival times *)
Inductive exact_path (A R : list (nat * Qc)) : nat -> Prop :=
  | xp_here : exact_path A R source
  | xp_step e tv tw cc : exact_path A R (e_from g e) -> In e (g_edges g) -> dget R e = Some cc ->
      dget A (e_from g e) = Some tv -> dget A (e_to g e) = Some tw -> tv + cc = tw -> exact_path A R (e_to g e).
Lemma exact_mono A R A' R' : (forall v t, dget A v = Some t -> dget A' v = Some t) ->
  (forall e t, dget R e = Some t -> dget R' e = Some t) -> forall v, exact_path A R v -> exact_path A' R' v.
Proof. intros HA HR v H. induction H. constructor. eapply xp_step; eauto. Qed.

(** [rem]: the outgoing edges of the node just popped that are not yet processed *)
Record dinv (rem : list nat) (A R : list (nat * Qc)) (Q : @squeue nat) : Prop := {
  di_nd : sq_nd Q;
  di_key : forall v k, sq_key_of Q v = Some k -> exists t, k = Fin t /\ arr v t;
  di_disj : forall v k, sq_key_of Q v = Some k -> dget A v = None;
  di_ord : forall v t x tx, dget A v = Some t -> sq_key_of Q x = Some (Fin tx) -> t <= tx;
  di_arr : forall v t, dget A v = Some t -> arr v t;
  di_opt : forall v t s, dget A v = Some t -> arr v s -> t <= s;
  di_front : forall e t, In e (g_edges g) -> dget A (e_from g e) = Some t -> In (e_to g e) relevant -> ~ In e rem ->
     (exists tw, dget A (e_to g e) = Some tw /\ tw <= t + c e t) \/
     (exists tw, sq_key_of Q (e_to g e) = Some (Fin tw) /\ tw <= t + c e t);
  di_R : forall e cc, dget R e = Some cc -> In e (g_edges g) /\ In (e_to g e) relevant /\ exists t, dget A (e_from g e) = Some t /\ cc = c e t;
  di_pred : forall v t, sq_key_of Q v = Some (Fin t) -> v <> source -> exists e tv cc, In e (g_edges g) /\ e_to g e = v /\
     dget R e = Some cc /\ dget A (e_from g e) = Some tv /\ tv + cc = t;
  di_exact : forall v t, dget A v = Some t -> exact_path A R v;
  di_nodes : forall v, dget A v <> None \/ sq_key_of Q v <> None -> In v (node_ids g);
  di_And : NoDup (map fst A);
  di_src : sq_key_of Q source = Some (Fin phi) \/ dget A source = Some phi }.

Lemma dd_edge_inv e rem A R Q v tv : dinv (e :: rem) A R Q -> In e (g_edges g) -> e_from g e = v -> dget A v = Some tv ->
  (forall u t, dget A u = Some t -> t <= tv) ->
  exists R' Q', dd_edge g relevant costs A v (R, Q) e = Ok (R', Q') /\ dinv rem A R' Q'.
Proof.
  intros I HE HV DV MX. destruct (FIFO e HE) as (f & NF & TOT & MON).
  assert (PT : phi <= tv) by (apply (arr_ge v), (di_arr _ _ _ _ I); auto). destruct (TOT tv PT) as [FT CN].
  unfold dd_edge. set (w := e_to g e).
  destruct (dhas A w || negb (mem w relevant))%bool eqn:B.
  { exists R, Q. split; auto. destruct I. constructor; auto.
    intros e' t' He' Da Hr Nr. destruct (Nat.eq_dec e' e) as [->|N]; [|apply di_front0; auto; intros [?|?]; auto].
    apply orb_true_iff in B. destruct B as [B|B].
    - left. unfold dhas in B. fold w. destruct (dget A w) as [tw|] eqn:DW; [|discriminate]. exists tw. split; auto.
      specialize (MX w tw DW). replace t' with tv by congruence. qlra.
    - apply negb_true_iff, mem_false in B. fold w in Hr. tauto. }
  apply orb_false_iff in B. destruct B as [B1 B2]. apply negb_false_iff, memP in B2.
  assert (DW : dget A w = None) by (unfold dhas in B1; destruct (dget A w); congruence).
  unfold fetch. rewrite NF. cbn [bind]. rewrite (dfetch_ok _ _ _ DV). cbn [bind]. rewrite FT. cbn [bind].
  set (r := tv + c e tv).
  assert (RP : forall e' x, dget R e' = Some x -> dget (dset R e (c e tv)) e' = Some x).
  { intros e' x H. rewrite dget_dset. destruct (Nat.eqb_spec e e') as [<-|]; auto.
    destruct (di_R _ _ _ _ I _ _ H) as (_ & _ & t & D & ->). rewrite HV in D. congruence. }
  assert (RR : forall e' cc, dget (dset R e (c e tv)) e' = Some cc -> In e' (g_edges g) /\ In (e_to g e') relevant /\ exists t, dget A (e_from g e') = Some t /\ cc = c e' t).
  { intros e' cc. rewrite dget_dset. destruct (Nat.eqb_spec e e') as [<-|].
    - intro X. injection X as <-. split; auto. split; auto. exists tv. rewrite HV. auto.
    - apply (di_R _ _ _ _ I). }
  assert (AW : arr w r) by (apply arr_step; auto; rewrite HV; apply (di_arr _ _ _ _ I); auto).
  assert (UPD : (forall k, sq_key_of Q w = Some k -> exists t, k = Fin t /\ r <= t) -> dinv rem A (dset R e (c e tv)) (sq_set Q w (Fin r))).
  { intros OLD. destruct I. constructor; auto.
    - apply nd_set; auto.
    - intros x k. rewrite kof_set, eqb_nat. destruct (Nat.eqb_spec w x) as [<-|]; [|apply di_key0].
      intro X; injection X as <-. eauto.
    - intros x k. rewrite kof_set, eqb_nat. destruct (Nat.eqb_spec w x) as [<-|]; [auto|apply di_disj0].
    - intros u t x tx Du. rewrite kof_set, eqb_nat. destruct (Nat.eqb w x); [|eauto].
      intro X; injection X as <-. specialize (MX u t Du). unfold r. qlra.
    - intros e' t' He' Da Hr Nr. destruct (Nat.eq_dec e' e) as [->|N].
      + right. exists r. fold w. rewrite kof_set, eqb_nat, Nat.eqb_refl. split; auto. replace t' with tv by congruence. unfold r. qlra.
      + destruct (di_front0 e' t' He' Da Hr) as [X|(tw & K & L)]; [intros [?|?]; auto|auto|right].
        rewrite kof_set, eqb_nat. destruct (Nat.eqb_spec w (e_to g e')) as [E|]; [|eauto].
        exists r. split; auto. rewrite <- E in K. destruct (OLD _ K) as (t0 & E0 & L0). injection E0 as <-. qlra.
    - intros x t. rewrite kof_set, eqb_nat. destruct (Nat.eqb_spec w x) as [<-|].
      + intro X; injection X as <-. intros _. exists e, tv, (c e tv). rewrite dget_dset, Nat.eqb_refl, HV. repeat split; auto.
      + intros K NS. destruct (di_pred0 x t K NS) as (e' & tv' & cc & ? & ? & ? & ? & ?). exists e', tv', cc. repeat split; auto.
    - intros x t D. eapply exact_mono; [| |eapply di_exact0; eauto]; auto.
    - intros x. rewrite kof_set, eqb_nat. destruct (Nat.eqb_spec w x) as [<-|]; [|apply di_nodes0]. intros _. apply (cs_ends g CG e HE).
    - rewrite kof_set, eqb_nat. destruct (Nat.eqb_spec w source) as [E|]; auto. destruct di_src0 as [K|D]; [left|rewrite <- E in D; congruence].
      f_equal. f_equal. rewrite <- E in K. destruct (OLD _ K) as (t0 & E0 & L0). injection E0 as <-. apply arr_ge in AW. qlra. }
  destruct (sq_key_of Q w) as [k|] eqn:K.
  - destruct (di_key _ _ _ _ I _ _ K) as (t & -> & AT). destruct (ext_ltbP (Fin r) (Fin t)) as [LT|GE].
    + rewrite (decrease_ok _ _ _ _ K). cbn [bind]. eexists _, _. split; [reflexivity|]. apply UPD.
      intros k X. injection X as <-. exists t. split; auto. apply ext_lt_fin in LT. qlra.
    + eexists _, _. split; [reflexivity|]. rewrite ext_lt_fin in GE. destruct I. constructor; auto.
      * intros e' t' He' Da Hr Nr. destruct (Nat.eq_dec e' e) as [->|N].
        -- right. exists t. fold w. split; auto. replace t' with tv by congruence. fold r. qlra.
        -- apply di_front0; auto. intros [?|?]; auto.
      * intros x tx Kx NS. destruct (di_pred0 x tx Kx NS) as (e' & tv' & cc & ? & ? & ? & ? & ?). exists e', tv', cc. repeat split; auto.
      * intros x tx D. eapply exact_mono; [| |eapply di_exact0; eauto]; auto.
  - rewrite (push_ok _ _ _ K). cbn [bind]. eexists _, _. split; [reflexivity|]. apply UPD. discriminate.
Qed.

Lemma dd_fold_inv v tv A edges : forall R Q, dinv edges A R Q -> dget A v = Some tv ->
  (forall e, In e edges -> In e (g_edges g) /\ e_from g e = v) ->
  (forall u t, dget A u = Some t -> t <= tv) ->
  exists R' Q', foldM (dd_edge g relevant costs A v) edges (R, Q) = Ok (R', Q') /\ dinv [] A R' Q'.
Proof.
  induction edges as [|e r IH]; intros R Q I DV HE MX; cbn [foldM]; [eauto|].
  destruct (HE e (or_introl eq_refl)) as [E1 E2]. destruct (dd_edge_inv e r A R Q v tv) as (R' & Q' & -> & I'); auto.
  cbn [bind]. apply IH; auto. intros; apply HE; right; auto.
Qed.

(** Every walk is covered: its end is settled no later, or the frontier is. *)
Lemma covered A R Q : dinv [] A R Q -> forall v s, arr v s ->
  (exists t, dget A v = Some t /\ t <= s) \/ (exists y ty, sq_key_of Q y = Some (Fin ty) /\ ty <= s).
Proof.
  intros I v s H. induction H as [|e t H IH HE HR].
  - destruct (di_src _ _ _ _ I) as [K|D].
    + right. exists source, phi. split; auto. qlra.
    + left. exists phi. split; auto. qlra.
  - destruct (FIFO e HE) as (f & _ & TOT & MON). assert (PT := arr_ge _ _ H). destruct (TOT t PT) as [_ N].
    destruct IH as [(t0 & D & L)|(y & ty & K & L)].
    + assert (P0 : phi <= t0) by (apply (arr_ge (e_from g e)), (di_arr _ _ _ _ I); auto). specialize (MON t0 t P0 L).
      destruct (di_front _ _ _ _ I e t0 HE D HR) as [(tw & Dw & Lw)|(tw & Kw & Lw)]; auto.
      * left. exists tw. split; auto. qlra.
      * right. exists (e_to g e), tw. split; auto. qlra.
    + right. exists y, ty. split; auto. qlra.
Qed.

(** What is returned. *)
Record dd_good (r : ddresult) : Prop := {
  dg_arr : forall v t, dget (dd_arrival r) v = Some t -> arr v t /\ forall s, arr v s -> t <= s;
  dg_early : forall v s, arr v s -> dget (dd_arrival r) v = None -> exists ts, dget (dd_arrival r) sink = Some ts /\ ts <= s;
  dg_R : forall e cc, dget (dd_cost r) e = Some cc -> In e (g_edges g) /\ In (e_to g e) relevant /\
     exists t, dget (dd_arrival r) (e_from g e) = Some t /\ cc = c e t;
  dg_exact : forall v t, dget (dd_arrival r) v = Some t -> exact_path (dd_arrival r) (dd_cost r) v;
  dg_nd : NoDup (map fst (dd_arrival r)) }.

Lemma dd_loop_ok : forall fuel A R Q, dinv [] A R Q -> (length (node_ids g) < fuel + length A)%nat ->
  exists r, dd_loop fuel g sink relevant costs A R Q = Ok r /\ dd_good r.
Proof.
  induction fuel as [|f IH]; intros A R Q I L; cbn [dd_loop]; destruct (0 <? sq_len Q)%nat eqn:QE.
  1:{ exfalso. assert (length (map fst A) <= length (node_ids g))%nat; [|rewrite map_length in *; lia]. apply NoDup_incl_length; [apply (di_And _ _ _ _ I)|].
      intros v Hv. apply (di_nodes _ _ _ _ I). left. apply dhas_In in Hv. unfold dhas in Hv. destruct (dget A v); congruence. }
  1,3: (exists (mkDD A R); split; auto; pose proof (len_zero Q QE) as QN; constructor; cbn [dd_arrival dd_cost];
    [ intros v t D; split; [apply (di_arr _ _ _ _ I); auto|intros s Hs; apply (di_opt _ _ _ _ I v); auto]
    | intros v s Hs D; destruct (covered A R Q I v s Hs) as [(t & D' & _)|(y & ty & K & _)]; [congruence|rewrite QN in K; discriminate]
    | apply (di_R _ _ _ _ I) | apply (di_exact _ _ _ _ I) | apply (di_And _ _ _ _ I)]).
  assert (ND := di_nd _ _ _ _ I). destruct (pop_total Q (len_pos' Q QE ND)) as (q' & v & E). rewrite E. cbn [bind].
  destruct (pop_ok _ _ _ ND E) as [-> K]. destruct (di_key _ _ _ _ I _ _ K) as (tv & MK & AV). rewrite MK in *.
  assert (DV : dget A v = None) by (apply (di_disj _ _ _ _ I _ _ K)).
  assert (MIN : forall x tx, sq_key_of Q x = Some (Fin tx) -> tv <= tx).
  { intros x tx X. pose proof (min_key_le _ _ _ X) as Y. rewrite MK in Y. exact Y. }
  assert (OPT : forall s, arr v s -> tv <= s).
  { intros s Hs. destruct (covered A R Q I v s Hs) as [(t & D' & _)|(y & ty & Ky & Ly)]; [congruence|]. specialize (MIN y ty Ky). qlra. }
  set (A' := dset A v tv).
  assert (KEEP : forall x t, dget A x = Some t -> dget A' x = Some t).
  { intros x t D. unfold A'. rewrite dget_dset. destruct (Nat.eqb_spec v x); [congruence|auto]. }
  assert (AND : NoDup (map fst A')) by (apply dset_nd, (di_And _ _ _ _ I)).
  assert (EX : forall x t, dget A' x = Some t -> exact_path A' R x).
  { intros x t. unfold A'. rewrite dget_dset. fold A'. destruct (Nat.eqb_spec v x) as [<-|].
    - intros _. destruct (Nat.eq_dec v source) as [->|NS]; [constructor|].
      destruct (di_pred _ _ _ _ I v tv K NS) as (e & tu & cc & HE & HV & HR & HU & EQ).
      rewrite <- HV. eapply xp_step; eauto.
      + eapply exact_mono; [exact KEEP| |eapply (di_exact _ _ _ _ I); eauto]. auto.
      + rewrite HV. unfold A'. rewrite dget_dset, Nat.eqb_refl. auto.
    - intro D. eapply exact_mono; [exact KEEP| |eapply (di_exact _ _ _ _ I); eauto]. auto. }
  assert (ARR : forall x t, dget A' x = Some t -> arr x t /\ forall s, arr x s -> t <= s).
  { intros x t. unfold A'. rewrite dget_dset. destruct (Nat.eqb_spec v x) as [<-|].
    - intro X; injection X as <-. auto.
    - intro D. split; [apply (di_arr _ _ _ _ I); auto|intros s Hs; apply (di_opt _ _ _ _ I x); auto]. }
  assert (RR : forall e cc, dget R e = Some cc -> In e (g_edges g) /\ In (e_to g e) relevant /\ exists t, dget A' (e_from g e) = Some t /\ cc = c e t).
  { intros e cc HR. destruct (di_R _ _ _ _ I e cc HR) as (H1 & H2 & t & H3 & H4). eauto 10. }
  destruct (Nat.eqb_spec v sink) as [VS|VS].
  - exists (mkDD A' R). split; auto. constructor; cbn [dd_arrival dd_cost]; auto.
    intros x s Hs Dx. exists tv. rewrite <- VS. split; [unfold A'; rewrite dget_dset, Nat.eqb_refl; auto|].
    destruct (covered A R Q I x s Hs) as [(t & D' & _)|(y & ty & Ky & Ly)].
    + apply KEEP in D'. congruence.
    + specialize (MIN y ty Ky). qlra.
  - assert (MX : forall u t, dget A' u = Some t -> t <= tv).
    { intros u t. unfold A'. rewrite dget_dset. destruct (Nat.eqb_spec v u) as [<-|].
      - intro X; injection X as <-. qlra.
      - intro D. apply (di_ord _ _ _ _ I u t v tv); auto. }
    assert (I0 : dinv (outgoing g v) A' R (sq_drop Q v)).
    { constructor; auto.
      - apply nd_drop; auto.
      - intros x k. rewrite kof_drop, eqb_nat. destruct (Nat.eqb v x); [discriminate|apply (di_key _ _ _ _ I)].
      - intros x k. rewrite kof_drop, eqb_nat. unfold A'. rewrite dget_dset. destruct (Nat.eqb v x); [discriminate|apply (di_disj _ _ _ _ I)].
      - intros u t x tx Du. rewrite kof_drop, eqb_nat. destruct (Nat.eqb v x); [discriminate|]. intro Kx. specialize (MX u t Du). specialize (MIN x tx Kx). qlra.
      - intros x t D. apply ARR; auto.
      - intros x t s D. apply ARR; auto.
      - intros e t HE. unfold A'. rewrite !dget_dset. destruct (Nat.eqb_spec v (e_from g e)) as [EV|NV].
        + intros _ _ Nr. exfalso. apply Nr. rewrite (cs_out g CG). apply filter_In. split; auto. apply Nat.eqb_eq. auto.
        + intros D HR _. destruct (di_front _ _ _ _ I e t HE D HR) as [(tw & Dw & Lw)|(tw & Kw & Lw)]; auto.
          * left. exists tw. split; auto. destruct (Nat.eqb_spec v (e_to g e)); [congruence|auto].
          * rewrite kof_drop, (eqb_nat v (e_to g e)). destruct (Nat.eqb_spec v (e_to g e)) as [EV|].
            -- left. exists tv. split; auto. rewrite <- EV in Kw. rewrite K in Kw. injection Kw as <-. auto.
            -- right. eauto.
      - intros x t. rewrite kof_drop, eqb_nat. destruct (Nat.eqb_spec v x); [discriminate|]. intros Kx NS.
        destruct (di_pred _ _ _ _ I x t Kx NS) as (e & tu & cc & ? & ? & ? & ? & ?). exists e, tu, cc. repeat split; auto.
      - intros x. rewrite kof_drop, eqb_nat. unfold A'. rewrite dget_dset. destruct (Nat.eqb_spec v x) as [<-|].
        + intros _. apply (di_nodes _ _ _ _ I). right. congruence.
        + apply (di_nodes _ _ _ _ I).
      - destruct (di_src _ _ _ _ I) as [KS|DS]; [|auto]. rewrite kof_drop, eqb_nat. unfold A'. rewrite dget_dset.
        destruct (Nat.eqb_spec v source) as [->|]; auto. right. congruence. }
    destruct (dd_fold_inv v tv A' (outgoing g v) R (sq_drop Q v) I0) as (R' & Q' & EF & I'); auto.
    + unfold A'. rewrite dget_dset, Nat.eqb_refl. auto.
    + intros e He. apply in_outgoing; auto.
    + change (dset A v tv) with A'. setoid_rewrite EF. cbn [bind]. apply IH; auto.
      assert (LA : length A' = S (length A)).
      { rewrite <- (map_length fst A'), <- (map_length fst A). unfold A'. rewrite dset_keys_new; [rewrite app_length; cbn; lia|].
        apply dget_None; auto. }
      lia.
Qed.

Lemma dynamic_dijkstra_spec : exists r, dynamic_dijkstra g phi source sink relevant costs = Ok r /\ dd_good r.
Proof.
  unfold dynamic_dijkstra. apply dd_loop_ok.
  - constructor.
    + apply nd_set, nd_empty.
    + intros v k. rewrite kof_set, eqb_nat. destruct (Nat.eqb_spec source v) as [<-|]; [|discriminate]. intro X; injection X as <-. exists phi. split; auto. constructor.
    + intros v k _. reflexivity.
    + intros; discriminate.
    + intros; discriminate.
    + intros; discriminate.
    + intros; discriminate.
    + intros; discriminate.
    + intros v t. rewrite kof_set, eqb_nat. destruct (Nat.eqb_spec source v) as [<-|]; [congruence|discriminate].
    + intros; discriminate.
    + intros v [H|H]; [cbn in H; congruence|]. revert H. rewrite kof_set, eqb_nat. destruct (Nat.eqb_spec source v) as [<-|]; auto. rewrite kof_empty. congruence.
    + constructor.
    + left. rewrite kof_set, eqb_nat, Nat.eqb_refl. auto.
  - unfold node_ids. rewrite map_length. cbn. lia.
Qed.

(** ** Active edges *)
Variable r : ddresult.
Hypothesis GOOD : dd_good r.
Hypothesis SINK : dget (dd_arrival r) sink <> None.
Hypothesis SINKG : In sink (node_ids g).

Definition tightb (e : nat) : bool :=
  match dget (dd_cost r) e, dget (dd_arrival r) (e_from g e), dget (dd_arrival r) (e_to g e) with
  | Some cc, Some tv, Some tw => qleb (tv + cc) (tw + eps) | _, _, _ => false end.
Lemma tightbP e : tightb e = true <-> tight g r e.
Proof.
  unfold tightb, tight. destruct (dget (dd_cost r) e) as [cc|]; [|split; [discriminate|intros (? & ? & ? & ? & _); discriminate]].
  destruct (dget (dd_arrival r) (e_from g e)) as [tv|]; [|split; [discriminate|intros (? & ? & ? & _ & ? & _); discriminate]].
  destruct (dget (dd_arrival r) (e_to g e)) as [tw|]; [|split; [discriminate|intros (? & ? & ? & _ & _ & ? & _); discriminate]].
  rewrite qleb_true. split; [intro; exists cc, tv, tw; auto|]. intros (? & ? & ? & X & Y & Z & ?). congruence.
Qed.

Lemma ae_edge_ok w e active touched queue : In e (g_edges g) -> e_to g e = w -> dget (dd_arrival r) w <> None ->
  ae_edge g r source w (active, touched, queue) e =
  Ok (if tightb e then
        ((if Nat.eqb (e_from g e) source then active ++ [e] else active),
         (if mem (e_from g e) touched then touched else e_from g e :: touched),
         (if mem (e_from g e) touched then queue else e_from g e :: queue))
      else (active, touched, queue)).
Proof.
  intros HE HW LW. unfold ae_edge, tightb. rewrite HW. destruct (dget (dd_cost r) e) as [cc|] eqn:R; auto.
  destruct (dg_R r GOOD _ _ R) as (_ & _ & t & D & _). rewrite (dfetch_ok _ _ _ D). cbn [bind]. rewrite D.
  destruct (dget (dd_arrival r) w) as [tw|] eqn:DW; [|congruence]. rewrite (dfetch_ok _ _ _ DW). cbn [bind].
  destruct (qleb (t + cc) (tw + eps)); auto. destruct (mem (e_from g e) touched); auto.
Qed.
Lemma ae_fold_ok w edges : forall active touched queue,
  (forall e, In e edges -> In e (g_edges g) /\ e_to g e = w) -> dget (dd_arrival r) w <> None ->
  foldM (ae_edge g r source w) edges (active, touched, queue) =
  Ok (active ++ filter (fun e => tightb e && Nat.eqb (e_from g e) source)%bool edges,
      fst (visit (map (e_from g) (filter tightb edges)) touched queue),
      snd (visit (map (e_from g) (filter tightb edges)) touched queue)).
Proof.
  induction edges as [|e l IH]; intros active touched queue HE LW; cbn [foldM filter map visit].
  - rewrite app_nil_r. auto.
  - destruct (HE e (or_introl eq_refl)) as [H1 H2]. rewrite ae_edge_ok; auto. cbn [bind].
    assert (HE' : forall e, In e l -> In e (g_edges g) /\ e_to g e = w) by (intros; apply HE; right; auto).
    destruct (tightb e); cbn [andb]; [|apply IH; auto].
    rewrite IH by auto. cbn [map visit]. destruct (mem (e_from g e) touched);
    (destruct (Nat.eqb (e_from g e) source); [rewrite <- app_assoc|]; reflexivity).
Qed.

Lemma tight_labelled e : tight g r e -> In (e_from g e) (node_ids g) /\ dget (dd_arrival r) (e_from g e) <> None.
Proof.
  intros (cc & tv & tw & A & B & _). split; [|congruence]. destruct (dg_R r GOOD _ _ A) as (H & _). apply (cs_ends g CG); auto.
Qed.

Lemma ae_loop_ok : forall fuel active touched queue,
  NoDup touched -> NoDup queue -> incl queue touched -> In sink touched ->
  (forall v, In v touched -> In v (node_ids g) /\ dget (dd_arrival r) v <> None /\ tight_path g r sink v) ->
  (forall e, In e (g_edges g) -> tight g r e -> In (e_to g e) touched -> ~ In (e_to g e) queue -> In (e_from g e) touched) ->
  NoDup active ->
  (forall e, In e active <-> In e (g_edges g) /\ e_from g e = source /\ tight g r e /\ In (e_to g e) touched /\ ~ In (e_to g e) queue) ->
  (length (node_ids g) + length queue < fuel + length touched)%nat ->
  exists l, ae_loop fuel g r source active touched queue = Ok l /\ NoDup l /\
    forall e, In e l <-> In e (g_edges g) /\ e_from g e = source /\ tight g r e /\ tight_path g r sink (e_to g e).
Proof.
  induction fuel as [|f IH]; intros active touched queue NT NQ QI ST HT CL NA HA L.
  - exfalso. assert (length touched <= length (node_ids g))%nat; [|lia]. apply NoDup_incl_length; auto. intros v Hv. apply HT; auto.
  - destruct queue as [|w q]; cbn [ae_loop].
    + exists active. split; auto. split; auto. intro e. rewrite HA. cbn [In].
      assert (TP : forall v, tight_path g r sink v -> In v touched) by (intros v Hv; induction Hv; auto).
      split; intros (A & B & D & E).
      * repeat split; auto. apply HT; tauto.
      * repeat split; auto.
    + inversion_clear NQ as [|? ? NW NQ'].
      assert (WT : In w touched) by (apply QI; left; auto). destruct (HT w WT) as (W1 & W2 & W3).
      assert (HI : forall e, In e (incoming g w) -> In e (g_edges g) /\ e_to g e = w) by (intros e He; apply in_incoming; auto).
      assert (IH' : forall e, In e (g_edges g) -> e_to g e = w -> In e (incoming g w)).
      { intros e He Ee. rewrite (cs_in g CG). apply filter_In. split; auto. apply Nat.eqb_eq; auto. }
      rewrite (ae_fold_ok w _ _ _ _ HI W2). cbn [bind].
      set (ends := map (e_from g) (filter tightb (incoming g w))).
      destruct (visit ends touched q) as [t' q'] eqn:V. cbn [fst snd].
      destruct (visit_spec _ _ _ _ _ V NT) as (V1 & V2 & V3 & V4).
      assert (EN : forall x, In x ends <-> exists e, In e (g_edges g) /\ e_to g e = w /\ tight g r e /\ e_from g e = x).
      { intro x. unfold ends. rewrite in_map_iff. split.
        - intros (e & <- & H). apply filter_In in H. destruct H as [H1 H2]. apply HI in H1. apply tightbP in H2. exists e. tauto.
        - intros (e & H1 & H2 & H3 & H4). exists e. split; auto. apply filter_In. split; auto. apply tightbP; auto. }
      assert (WQ' : ~ In w q') by (rewrite V3; tauto).
      apply IH; auto.
      * (* NoDup q' *) revert V NQ'. clear - QI. assert (QI' : incl q touched) by (intros x Hx; apply QI; right; auto). clear QI.
        revert touched q QI'. generalize ends. intro l. induction l as [|x l IHl]; intros touched q QI' V NQ; cbn [visit] in V.
        -- injection V as <- <-. auto.
        -- destruct (mem x touched) eqn:M; [apply (IHl touched q); auto|]. apply mem_false in M.
           apply (IHl (x :: touched) (x :: q)); auto.
           ++ intros y [<-|Hy]; [left; auto|right; auto].
           ++ constructor; auto.
      * intros x Hx. apply V3 in Hx. apply V2. destruct Hx as [Hx|[Hx _]]; auto. left. apply QI. right; auto.
      * apply V2; auto.
      * intros v Hv. apply V2 in Hv. destruct Hv as [Hv|Hv]; [apply HT; auto|]. apply EN in Hv. destruct Hv as (e & H1 & H2 & H3 & <-).
        destruct (tight_labelled e H3) as [T1 T2]. split; auto. split; auto. apply tp_edge; auto. rewrite H2. auto.
      * intros e He Te Tt Tq. apply V2. destruct (Nat.eq_dec (e_to g e) w) as [EW|NW'].
        -- right. apply EN. exists e. auto.
        -- apply V2 in Tt. rewrite V3 in Tq. destruct Tt as [Tt|Tt].
           ++ left. apply CL; auto. intros [?|?]; [congruence|tauto].
           ++ destruct (In_dec Nat.eq_dec (e_to g e) touched) as [IT|IT]; [|tauto].
              left. apply CL; auto. intros [?|?]; [congruence|tauto].
      * (* NoDup active *) assert (ND2 : NoDup (filter (fun e => (tightb e && (e_from g e =? source)%nat)%bool) (incoming g w))).
        { apply NoDup_filter. rewrite (cs_in g CG). apply NoDup_filter, (cs_edges g CG). }
        assert (DJ : forall e, In e active -> ~ In e (filter (fun e => (tightb e && (e_from g e =? source)%nat)%bool) (incoming g w))).
        { intros e H1 H2. apply HA in H1. apply filter_In in H2. destruct H2 as [H2 _]. apply HI in H2. destruct H2 as [_ H2].
          rewrite H2 in H1. cbn in H1. tauto. }
        revert NA DJ ND2. clear. generalize (filter (fun e => (tightb e && (e_from g e =? source)%nat)%bool) (incoming g w)). intros l NA DJ ND.
        induction active as [|x a IHa]; cbn [app]; auto. inversion_clear NA. constructor.
        -- rewrite in_app_iff. intros [?|?]; auto. apply (DJ x); [left; auto|auto].
        -- apply IHa; auto. intros e He. apply DJ. right; auto.
      * intro e. rewrite in_app_iff, HA, filter_In, andb_true_iff, tightbP, Nat.eqb_eq, V2, V3. cbn [In].
        split.
        -- intros [(A1 & A2 & A3 & A4 & A5)|(A1 & A2 & A3)].
           ++ split; auto. split; auto. split; auto. split; auto. intros [H|[H1 H2]]; tauto.
           ++ apply HI in A1. destruct A1 as [A1 A4]. rewrite A4. split; auto. split; auto. split; auto. split; auto.
              intros [H|[H1 H2]]; tauto.
        -- intros (A1 & A2 & A3 & A4 & A5). destruct (Nat.eq_dec (e_to g e) w) as [EW|NE].
           ++ right. split; [apply IH'; auto|auto].
           ++ left. split; auto. split; auto. split; auto. destruct (In_dec Nat.eq_dec (e_to g e) touched) as [IT|IT]; [|tauto].
              split; auto. intros [?|?]; [congruence|tauto].
      * cbn [length] in L. lia.
Qed.

Lemma exact_to_tight v : exact_path (dd_arrival r) (dd_cost r) v -> tight_path g r sink v -> v <> source ->
  exists e, In e (g_edges g) /\ e_from g e = source /\ tight g r e /\ tight_path g r sink (e_to g e).
Proof.
  intro H. induction H as [|e tv tw cc H IH HE HR DV DW EQ]; intros TP NS; [congruence|].
  assert (T : tight g r e) by (exists cc, tv, tw; repeat split; auto; qlra).
  destruct (Nat.eq_dec (e_from g e) source) as [ES|ES].
  - exists e. auto.
  - apply IH; auto. apply tp_edge; auto.
Qed.

Lemma active_edges_spec : source <> sink ->
  exists l, get_active_edges_from_dijkstra g r source sink = Ok l /\ NoDup l /\ l <> [] /\
    forall e, In e l <-> In e (g_edges g) /\ e_from g e = source /\ tight g r e /\ tight_path g r sink (e_to g e).
Proof.
  intro NS. unfold get_active_edges_from_dijkstra.
  destruct (ae_loop_ok (S (length (g_nodes g))) [] [sink] [sink]) as (l & E & ND & H).
  - repeat constructor; intros [].
  - repeat constructor; intros [].
  - intros x Hx; auto.
  - left; auto.
  - intros v [<-|[]]. repeat split; auto. constructor.
  - intros e He Te [X|[]] N. exfalso. apply N. rewrite <- X. left; auto.
  - constructor.
  - intro e. split; [intros []|]. intros (_ & _ & _ & [X|[]] & N). apply N. rewrite <- X. left; auto.
  - unfold node_ids. rewrite map_length. cbn. lia.
  - rewrite E. cbn [bind].
    destruct (dget (dd_arrival r) sink) as [ts|] eqn:DS; [|congruence].
    destruct (exact_to_tight sink (dg_exact r GOOD _ _ DS) (tp_end _ _ _)) as (e & He); [congruence|].
    apply H in He. destruct l as [|x l]; [destruct He|]. cbn [length Nat.ltb Nat.leb assertb bind].
    exists (x :: l). repeat split; auto; try discriminate; apply H; auto.
Qed.
End DD.
