(** * C44: src/core/active_edges.py *)
From Verif Require Import Base Spec Arrays PL PLProofs RC FRC FRCProofs PQ PQSpec DynFlow DQProofs Graph GraphSpec GraphProofs Dijkstra DijkstraSpec DijkstraProofs DijkstraProofs2 ActiveEdges.

(** ** Vocabulary *)
(** Costs of a time-dependent search that are positive and strictly FIFO. *)
Definition strong_fifo_costs (g : graph) (phi : Qc) (costs : list costfn) (c : nat -> Qc -> Qc) : Prop :=
  forall e, In e (g_edges g) -> exists f, nth_error costs (e_id g e) = Some f /\
    (forall t, phi <= t -> f t = Ok (c e t) /\ 0 < c e t) /\
    (forall s t, phi <= s -> s < t -> s + c e s < t + c e t).
(** [goes v t s]: starting in [v] at time [t], some walk that only enters
    relevant nodes arrives at [sink] at time [s]. *)
Inductive goes (g : graph) (relevant : list nat) (c : nat -> Qc -> Qc) (sink : nat) : nat -> Qc -> Qc -> Prop :=
  | goes_here t : goes g relevant c sink sink t t
  | goes_edge e t s : In e (g_edges g) -> In (e_to g e) relevant -> goes g relevant c sink (e_to g e) (t + c e t) s -> goes g relevant c sink (e_from g e) t s.
(** [ts] is the earliest arrival time at [sink] when leaving [source] at [phi]. *)
Definition earliest (g : graph) (relevant : list nat) (c : nat -> Qc -> Qc) (source sink : nat) (phi ts : Qc) : Prop :=
  goes g relevant c sink source phi ts /\ forall s, goes g relevant c sink source phi s -> ts <= s.
(** [e] is the first edge of an earliest-arrival walk. *)
Definition starts_earliest (g : graph) (relevant : list nat) (c : nat -> Qc -> Qc) (source sink : nat) (phi ts : Qc) (e : nat) : Prop :=
  In e (g_edges g) /\ e_from g e = source /\ In (e_to g e) relevant /\ goes g relevant c sink (e_to g e) (phi + c e phi) ts.

(** ** backward_search *)
Section BS.
Variables (g : graph) (costs : list costfn) (A : list (nat * Qc)) (source sink : nat) (c : nat -> Qc -> Qc).
Hypothesis CG : consistent g.
Hypothesis COST : forall e tv, In e (g_edges g) -> dget A (e_from g e) = Some tv -> exists f, nth_error costs (e_id g e) = Some f /\ f tv = Ok (c e tv).
Hypothesis NODES : forall v, dget A v <> None -> In v (node_ids g).
Hypothesis SINK : dget A sink <> None.

Definition tgt (e : nat) : Prop := exists tv tw, dget A (e_from g e) = Some tv /\ dget A (e_to g e) = Some tw /\ tv + c e tv <= tw.
Definition tgtb (e : nat) : bool :=
  match dget A (e_from g e), dget A (e_to g e) with Some tv, Some tw => qleb (tv + c e tv) tw | _, _ => false end.
Lemma tgtbP e : tgtb e = true <-> tgt e.
Proof.
  unfold tgtb, tgt. destruct (dget A (e_from g e)) as [tv|]; [|split; [discriminate|intros (? & ? & ? & _); discriminate]].
  destruct (dget A (e_to g e)) as [tw|]; [|split; [discriminate|intros (? & ? & _ & ? & _); discriminate]].
  rewrite qleb_true. split; [intro; exists tv, tw; auto|]. intros (? & ? & X & Y & ?). congruence.
Qed.
Inductive tpath : nat -> Prop :=
  | tpa_end : tpath sink
  | tpa_edge e : In e (g_edges g) -> tgt e -> tpath (e_to g e) -> tpath (e_from g e).
Lemma bs_edge_ok w e active touched queue : In e (g_edges g) -> e_to g e = w -> dget A w <> None ->
  bs_edge g costs A source w (active, touched, queue) e =
  Ok (if tgtb e then
        ((if Nat.eqb (e_from g e) source then set_add active e else active),
         (if mem (e_from g e) touched then touched else e_from g e :: touched),
         (if mem (e_from g e) touched then queue else e_from g e :: queue))
      else (active, touched, queue)).
Proof.
  intros HE HW LW. unfold bs_edge, tgtb. rewrite HW. destruct (dget A (e_from g e)) as [tv|] eqn:D; auto.
  destruct (COST e tv HE D) as (f & F1 & F2). unfold fetch. rewrite F1. cbn [bind]. rewrite F2. cbn [bind].
  destruct (dget A w) as [tw|] eqn:DW; [|congruence]. rewrite (dfetch_ok _ _ _ DW). cbn [bind].
  destruct (qleb (tv + c e tv) tw); auto. destruct (mem (e_from g e) touched); auto.
Qed.
Definition added (edges : list nat) : list nat := filter (fun e => tgtb e && Nat.eqb (e_from g e) source)%bool edges.
Lemma bs_fold_ok w edges : forall active touched queue,
  (forall e, In e edges -> In e (g_edges g) /\ e_to g e = w) -> dget A w <> None ->
  foldM (bs_edge g costs A source w) edges (active, touched, queue) =
  Ok (fold_left set_add (added edges) active,
      fst (visit (map (e_from g) (filter tgtb edges)) touched queue),
      snd (visit (map (e_from g) (filter tgtb edges)) touched queue)).
Proof.
  unfold added. induction edges as [|e l IH]; intros active touched queue HE LW; cbn [foldM filter map visit fold_left]; auto.
  destruct (HE e (or_introl eq_refl)) as [H1 H2]. rewrite bs_edge_ok; auto. cbn [bind].
  assert (HE' : forall e, In e l -> In e (g_edges g) /\ e_to g e = w) by (intros; apply HE; right; auto).
  destruct (tgtb e); cbn [andb]; [|apply IH; auto].
  rewrite IH by auto. cbn [map visit]. destruct (mem (e_from g e) touched);
  (destruct (Nat.eqb (e_from g e) source); reflexivity).
Qed.
Lemma set_add_spec l x : NoDup l -> NoDup (set_add l x) /\ forall y, In y (set_add l x) <-> In y l \/ y = x.
Proof.
  intro N. unfold set_add. destruct (mem x l) eqn:M.
  - split; auto. intro y. apply memP in M. split; [auto|]. intros [?| ->]; auto.
  - apply mem_false in M. split.
    + apply NoDup_Add with (a := x) (l := l) (l' := l ++ [x]); [|auto]. rewrite <- (app_nil_r l) at 1. apply Add_app.
    + intro y. rewrite in_app_iff. cbn [In]. split; intros [?|?]; auto. destruct H; auto. tauto.
Qed.
Lemma fold_add_spec xs : forall l, NoDup l -> NoDup (fold_left set_add xs l) /\ forall y, In y (fold_left set_add xs l) <-> In y l \/ In y xs.
Proof.
  induction xs as [|x xs IH]; intros l N; cbn [fold_left]; [split; auto; intro y; split; [auto|intros [?|[]]; auto]|].
  destruct (set_add_spec l x N) as [S1 S2]. destruct (IH _ S1) as [I1 I2]. split; auto. intro y. rewrite I2, S2. cbn [In]. split; [intros [[?|?]|?]; auto|intros [?|[?|?]]; auto].
Qed.
Lemma tgt_labelled e : In e (g_edges g) -> tgt e -> In (e_from g e) (node_ids g) /\ dget A (e_from g e) <> None.
Proof. intros H (tv & tw & D & _). split; [apply (cs_ends g CG); auto|congruence]. Qed.
Lemma bs_loop_ok : forall fuel active touched queue,
  NoDup touched -> NoDup queue -> incl queue touched -> In sink touched ->
  (forall v, In v touched -> In v (node_ids g) /\ dget A v <> None /\ tpath v) ->
  (forall e, In e (g_edges g) -> tgt e -> In (e_to g e) touched -> ~ In (e_to g e) queue -> In (e_from g e) touched) ->
  NoDup active ->
  (forall e, In e active <-> In e (g_edges g) /\ e_from g e = source /\ tgt e /\ In (e_to g e) touched /\ ~ In (e_to g e) queue) ->
  (length (node_ids g) + length queue < fuel + length touched)%nat ->
  exists l, bs_loop fuel g costs A source active touched queue = Ok l /\ NoDup l /\
    forall e, In e l <-> In e (g_edges g) /\ e_from g e = source /\ tgt e /\ tpath (e_to g e).
Proof.
  induction fuel as [|f IH]; intros active touched queue NT NQ QI ST HT CL NA HA L.
  - exfalso. assert (length touched <= length (node_ids g))%nat; [|lia]. apply NoDup_incl_length; auto. intros v Hv. apply HT; auto.
  - destruct queue as [|w q]; cbn [bs_loop].
    + exists active. split; auto. split; auto. intro e. rewrite HA. cbn [In].
      assert (TP : forall v, tpath v -> In v touched) by (intros v Hv; induction Hv; auto).
      split; intros (X1 & X2 & X3 & X4).
      * repeat split; auto. apply HT; tauto.
      * repeat split; auto.
    + inversion_clear NQ as [|? ? NW NQ'].
      assert (WT : In w touched) by (apply QI; left; auto). destruct (HT w WT) as (W1 & W2 & W3).
      assert (HI : forall e, In e (incoming g w) -> In e (g_edges g) /\ e_to g e = w) by (intros e He; apply in_incoming; auto).
      assert (IH' : forall e, In e (g_edges g) -> e_to g e = w -> In e (incoming g w)).
      { intros e He Ee. rewrite (cs_in g CG). apply filter_In. split; auto. apply Nat.eqb_eq; auto. }
      rewrite (bs_fold_ok w _ _ _ _ HI W2). cbn [bind].
      set (ends := map (e_from g) (filter tgtb (incoming g w))).
      destruct (visit ends touched q) as [t' q'] eqn:V. cbn [fst snd].
      destruct (visit_spec _ _ _ _ _ V NT) as (V1 & V2 & V3 & V4).
      assert (EN : forall x, In x ends <-> exists e, In e (g_edges g) /\ e_to g e = w /\ tgt e /\ e_from g e = x).
      { intro x. unfold ends. rewrite in_map_iff. split.
        - intros (e & <- & H). apply filter_In in H. destruct H as [H1 H2]. apply HI in H1. apply tgtbP in H2. exists e. tauto.
        - intros (e & H1 & H2 & H3 & H4). exists e. split; auto. apply filter_In. split; auto. apply tgtbP; auto. }
      assert (WQ' : ~ In w q') by (rewrite V3; tauto).
      destruct (fold_add_spec (added (incoming g w)) active NA) as [FA1 FA2].
      apply IH; auto.
      * (* NoDup q' *) revert V NQ'. clear - QI. assert (QI' : incl q touched) by (intros x Hx; apply QI; right; auto). clear QI.
        revert touched q QI'. generalize ends. intro l. induction l as [|x l IHl]; intros touched q QI' V NQ; cbn [visit] in V.
        -- injection V as <- <-. auto.
        -- destruct (mem x touched) eqn:M; [apply (IHl touched q); auto|]. apply mem_false in M.
           apply (IHl (x :: touched) (x :: q)); auto.
           ++ intros y [<-|Hy]; [left; auto|right; auto].
           ++ constructor; auto.
      * intros x Hx. apply V3 in Hx. apply V2. destruct Hx as [Hx|[Hx _]]; auto. left. apply QI. right; auto.
      * apply V2; auto.
      * intros v Hv. apply V2 in Hv. destruct Hv as [Hv|Hv]; [apply HT; auto|]. apply EN in Hv. destruct Hv as (e & H1 & H2 & H3 & <-).
        destruct (tgt_labelled e H1 H3) as [T1 T2]. split; auto. split; auto. apply tpa_edge; auto. rewrite H2. auto.
      * intros e He Te Tt Tq. apply V2. destruct (Nat.eq_dec (e_to g e) w) as [EW|NW'].
        -- right. apply EN. exists e. auto.
        -- apply V2 in Tt. rewrite V3 in Tq. destruct Tt as [Tt|Tt].
           ++ left. apply CL; auto. intros [?|?]; [congruence|tauto].
           ++ destruct (In_dec Nat.eq_dec (e_to g e) touched) as [IT|IT]; [|tauto].
              left. apply CL; auto. intros [?|?]; [congruence|tauto].
      * intro e. unfold added in FA2. rewrite FA2, HA, filter_In, andb_true_iff, tgtbP, Nat.eqb_eq, V2, V3. cbn [In].
        split.
        -- intros [(A1 & A2 & A3 & A4 & A5)|(A1 & A2 & A3)].
           ++ split; auto. split; auto. split; auto. split; auto. intros [H|[H1 H2]]; tauto.
           ++ apply HI in A1. destruct A1 as [A1 A4]. rewrite A4. split; auto. split; auto. split; auto. split; auto.
              intros [H|[H1 H2]]; tauto.
        -- intros (A1 & A2 & A3 & A4 & A5). destruct (Nat.eq_dec (e_to g e) w) as [EW|NE].
           ++ right. split; [apply IH'; auto|auto].
           ++ left. split; auto. split; auto. split; auto. destruct (In_dec Nat.eq_dec (e_to g e) touched) as [IT|IT]; [|tauto].
              split; auto. intros [?|?]; [congruence|tauto].
      * cbn [length] in L. lia.
Qed.
Lemma backward_search_ok : exists l, backward_search g costs A source sink = Ok l /\ NoDup l /\
  forall e, In e l <-> In e (g_edges g) /\ e_from g e = source /\ tgt e /\ tpath (e_to g e).
Proof.
  unfold backward_search. apply bs_loop_ok.
  - repeat constructor; intros [].
  - repeat constructor; intros [].
  - intros x Hx; auto.
  - left; auto.
  - intros v [<-|[]]. repeat split; auto. constructor.
  - intros e He Te [X|[]] N. exfalso. apply N. rewrite <- X. left; auto.
  - constructor.
  - intro e. split; [intros []|]. intros (_ & _ & _ & [X|[]] & N). apply N. rewrite <- X. left; auto.
  - unfold node_ids. rewrite map_length. cbn. lia.
Qed.
End BS.

(** ** Walks *)
Section Walks.
Variables (g : graph) (phi : Qc) (source sink : nat) (relevant : list nat) (costs : list costfn) (c : nat -> Qc -> Qc).
Hypothesis CG : consistent g.
Hypothesis SRC : In source (node_ids g).
Hypothesis SF : strong_fifo_costs g phi costs c.
Notation arr := (arrives g phi source relevant c).
Notation go := (goes g relevant c sink).
Lemma strong_fifo : fifo_costs g phi costs c.
Proof.
  intros e H. destruct (SF e H) as (f & E & T & M). exists f. split; auto. split.
  - intros t P. destruct (T t P). split; auto. qlra.
  - intros s t P L. destruct (qltb s t) eqn:B; [apply qltb_true in B; specialize (M s t P B); qlra|].
    assert (s = t). { destruct (qltbP s t); [discriminate B|qlra]. } subst. qlra.
Qed.
Lemma goes_ge v t s : phi <= t -> go v t s -> t <= s.
Proof.
  intros P H. revert P. induction H as [t|e t s HE HR H IH]; intro P; [qlra|]. destruct (SF e HE) as (f & _ & T & _). destruct (T t P) as [_ X]. specialize (IH ltac:(qlra)). qlra.
Qed.
Lemma arr_goes v t : arr v t -> forall s, go v t s -> go source phi s.
Proof. induction 1 as [|e t H IH HE HR]; intros s G; auto. apply IH. apply goes_edge; auto. Qed.
Lemma goes_arr v t s : go v t s -> arr v t -> arr sink s.
Proof. induction 1 as [t|e t s HE HR H IH]; intro R; auto. apply IH. apply arr_step; auto. Qed.
Lemma arr_relevant v t : arr v t -> v = source \/ In v relevant.
Proof. destruct 1; auto. Qed.
Lemma earliest_label r ts : dd_good g phi source sink relevant c r -> earliest g relevant c source sink phi ts -> dget (dd_arrival r) sink = Some ts.
Proof.
  intros G [E1 E2]. assert (R : arr sink ts) by (apply (goes_arr _ _ _ E1); constructor).
  destruct (dget (dd_arrival r) sink) as [t|] eqn:D.
  - destruct (dg_arr _ _ _ _ _ _ _ G _ _ D) as [R' O]. specialize (O ts R). assert (ts <= t) by (apply E2, (arr_goes _ _ R'), goes_here). f_equal. qlra.
  - destruct (dg_early _ _ _ _ _ _ _ G _ _ R D) as (t & X & _). congruence.
Qed.
Lemma tight_eq r e : dd_good g phi source sink relevant c r -> In e (g_edges g) -> tgt g (dd_arrival r) c e ->
  In (e_to g e) relevant /\ exists tv, dget (dd_arrival r) (e_from g e) = Some tv /\ dget (dd_arrival r) (e_to g e) = Some (tv + c e tv).
Proof.
  intros G HE (tv & tw & D1 & D2 & L). destruct (dg_arr _ _ _ _ _ _ _ G _ _ D1) as [R1 O1]. destruct (dg_arr _ _ _ _ _ _ _ G _ _ D2) as [R2 O2].
  assert (P := arr_ge g phi source relevant costs c strong_fifo _ _ R1). destruct (SF e HE) as (f & _ & T & _). destruct (T tv P) as [_ X].
  destruct (arr_relevant _ _ R2) as [E|RL].
  - exfalso. rewrite E in O2. specialize (O2 phi (arr_here _ _ _ _ _)). qlra.
  - split; auto. exists tv. split; auto. rewrite D2. f_equal. specialize (O2 _ (arr_step _ _ _ _ _ e tv R1 HE RL)). qlra.
Qed.
Lemma tpath_goes r ts : dd_good g phi source sink relevant c r -> dget (dd_arrival r) sink = Some ts ->
  forall v, tpath g (dd_arrival r) sink c v -> forall tv, dget (dd_arrival r) v = Some tv -> go v tv ts.
Proof.
  intros G DS v H. induction H as [|e HE T H IH]; intros tv D.
  - assert (tv = ts) by congruence. subst. constructor.
  - destruct (tight_eq r e G HE T) as (RL & tv' & D1 & D2). assert (tv' = tv) by congruence. subst tv'. apply goes_edge; auto.
Qed.
Lemma goes_tpath r ts : dd_good g phi source sink relevant c r -> dget (dd_arrival r) sink = Some ts ->
  forall v t s, go v t s -> s = ts -> arr v t -> dget (dd_arrival r) v = Some t /\ tpath g (dd_arrival r) sink c v.
Proof.
  intros G DS v t s H. induction H as [t|e t s HE HR H IH]; intros ES R.
  - subst t. split; auto. constructor.
  - assert (R' : arr (e_to g e) (t + c e t)) by (apply arr_step; auto). destruct (IH ES R') as [D TP].
    assert (P := arr_ge g phi source relevant costs c strong_fifo _ _ R). destruct (SF e HE) as (f & _ & T & M). destruct (T t P) as [_ X].
    assert (GE : t + c e t <= s) by (apply (goes_ge (e_to g e)); auto; qlra).
    assert (DV : dget (dd_arrival r) (e_from g e) = Some t).
    { destruct (dget (dd_arrival r) (e_from g e)) as [t0|] eqn:D0.
      - destruct (dg_arr _ _ _ _ _ _ _ G _ _ D0) as [R0 O0]. specialize (O0 t R). f_equal. destruct (qltb t0 t) eqn:B.
        + apply qltb_true in B. exfalso. assert (P0 := arr_ge g phi source relevant costs c strong_fifo _ _ R0). specialize (M t0 t P0 B).
          destruct (dg_arr _ _ _ _ _ _ _ G _ _ D) as [_ O]. specialize (O _ (arr_step _ _ _ _ _ e t0 R0 HE HR)). qlra.
        + destruct (qltbP t0 t); [discriminate B|qlra].
      - destruct (dg_early _ _ _ _ _ _ _ G _ _ R D0) as (t1 & X1 & X2). assert (t1 = ts) by congruence. subst. exfalso. qlra. }
    split; auto. apply tpa_edge; auto. exists t, (t + c e t). split; auto. split; auto. qlra.
Qed.
Lemma label_node r v t : dd_good g phi source sink relevant c r -> dget (dd_arrival r) v = Some t -> In v (node_ids g).
Proof.
  intros G D. destruct (dg_arr _ _ _ _ _ _ _ G _ _ D) as [R _]. destruct R; auto. apply (cs_ends g CG); auto.
Qed.
Lemma costs_at r e tv : dd_good g phi source sink relevant c r -> In e (g_edges g) -> dget (dd_arrival r) (e_from g e) = Some tv -> exists f, nth_error costs (e_id g e) = Some f /\ f tv = Ok (c e tv).
Proof.
  intros G HE D. destruct (dg_arr _ _ _ _ _ _ _ G _ _ D) as [R _]. destruct (SF e HE) as (f & E & T & _). exists f. split; auto. apply T, (arr_ge g phi source relevant costs c strong_fifo _ _ R).
Qed.
Lemma search_exact r ts : dd_good g phi source sink relevant c r -> earliest g relevant c source sink phi ts ->
  exists l, backward_search g costs (dd_arrival r) source sink = Ok l /\ NoDup l /\ forall e, In e l <-> starts_earliest g relevant c source sink phi ts e.
Proof.
  intros G E. pose proof (earliest_label r ts G E) as DS.
  destruct (backward_search_ok g costs (dd_arrival r) source sink c CG) as (l & B & ND & H).
  - intros e tv HE D. apply (costs_at r); auto.
  - intros v HV. destruct (dget (dd_arrival r) v) as [t|] eqn:D; [|congruence]. apply (label_node r v t); auto.
  - congruence.
  - exists l. split; auto. split; auto. intro e. rewrite H. unfold starts_earliest. split.
    + intros (HE & F & T & TP). destruct (tight_eq r e G HE T) as (RL & tv & D1 & D2). split; auto. split; auto. split; auto.
      assert (PH : tv = phi). { rewrite F in D1. destruct (dg_arr _ _ _ _ _ _ _ G _ _ D1) as [R1 O1]. specialize (O1 phi (arr_here _ _ _ _ _)). assert (P := arr_ge g phi source relevant costs c strong_fifo _ _ R1). qlra. }
      subst tv. apply (tpath_goes r ts G DS _ TP _ D2).
    + intros (HE & F & RL & GO). split; auto. split; auto.
      assert (RS : arr (e_from g e) phi) by (rewrite F; constructor). assert (R : arr (e_to g e) (phi + c e phi)) by (apply arr_step; auto).
      destruct (goes_tpath r ts G DS _ _ _ GO eq_refl R) as [D TP]. destruct (goes_tpath r ts G DS _ _ _ (goes_edge _ _ _ _ e phi ts HE RL GO) eq_refl RS) as [D0 _].
      split; [|exact TP]. exists phi, (phi + c e phi). split; auto. split; auto. qlra.
Qed.
Lemma first_edge ts : source <> sink -> go source phi ts -> exists e, starts_earliest g relevant c source sink phi ts e.
Proof.
  intros N H. inversion H as [t E1 E2 E3|e t s HE HR G E1 E2 E3]; [congruence|]. exists e. unfold starts_earliest. auto.
Qed.
End Walks.

(** ** C44, strong FIFO *)
(** With positive, strictly FIFO costs, at least two relevant edges leaving the
    source and a reachable sink, the result is exactly the set of the first
    edges of the earliest-arrival walks; the graph is not changed. *)
Theorem C44_strong_fifo : forall g costs theta source sink relevant c ts,
  consistent g -> In source (node_ids g) -> strong_fifo_costs g theta (map pl_eval costs) c ->
  (2 <= length (filter (fun e => mem (e_to g e) relevant) (outgoing g source)))%nat ->
  earliest g relevant c source sink theta ts ->
  exists l, get_active_edges g costs theta source sink relevant true = (Ok l, g) /\ NoDup l /\ (source <> sink -> l <> []) /\
    forall e, In e l <-> starts_earliest g relevant c source sink theta ts e.
Proof.
  intros g costs theta source sink relevant c ts CG SRC SF TWO E. unfold get_active_edges.
  destruct (Nat.leb_spec (length (filter (fun e => mem (e_to g e) relevant) (outgoing g source))) 1); [lia|].
  destruct (dynamic_dijkstra_spec g theta source sink relevant (map pl_eval costs) c CG SRC (strong_fifo _ _ _ _ SF)) as (r & -> & G).
  destruct (search_exact g theta source sink relevant (map pl_eval costs) c CG SRC SF r ts G E) as (l & -> & ND & I). exists l. split; auto. split; auto. split; [|exact I].
  intro N. destruct (first_edge g theta source sink relevant c ts N (proj1 E)) as [e S]. apply I in S. destruct l; [destruct S|discriminate].
Qed.
Print Assumptions C44_strong_fifo.
(** The shortcut for at most one relevant edge returns all edges leaving the
    source.  This is the right answer if all of them lead to relevant nodes
    and the sink can be reached, *)
Theorem C44_shortcut : forall g costs theta source sink relevant b,
  (length (filter (fun e => mem (e_to g e) relevant) (outgoing g source)) <= 1)%nat ->
  get_active_edges g costs theta source sink relevant b = (Ok (outgoing g source), g) /\
  forall c ts, consistent g -> source <> sink -> earliest g relevant c source sink theta ts -> (forall e, In e (outgoing g source) -> In (e_to g e) relevant) ->
    forall e, In e (outgoing g source) <-> starts_earliest g relevant c source sink theta ts e.
Proof.
  intros g costs theta source sink relevant b LE. split.
  - unfold get_active_edges. destruct (Nat.leb_spec (length (filter (fun e => mem (e_to g e) relevant) (outgoing g source))) 1); [reflexivity|lia].
  - intros c ts CG N E AR. destruct (first_edge g theta source sink relevant c ts N (proj1 E)) as [e0 S0].
    assert (ALL : filter (fun e => mem (e_to g e) relevant) (outgoing g source) = outgoing g source).
    { clear - AR. induction (outgoing g source) as [|x l IH]; cbn [filter]; auto. rewrite (proj2 (memP _ _) (AR x (or_introl eq_refl))). f_equal. apply IH. intros; apply AR; right; auto. }
    rewrite ALL in LE. assert (I0 : In e0 (outgoing g source)) by (rewrite (cs_out g CG); apply filter_In; split; [apply S0|apply Nat.eqb_eq, S0]).
    intro e. split.
    + intro I. destruct (outgoing g source) as [|x [|y l]]; [destruct I| |cbn in LE; lia]. destruct I as [<-|[]]. destruct I0 as [<-|[]]. exact S0.
    + intro S. rewrite (cs_out g CG). apply filter_In. split; [apply S|apply Nat.eqb_eq, S].
Qed.
Print Assumptions C44_shortcut.
(** ... and wrong otherwise: a second edge into a dead end is returned too. *)
Definition const_cost (x : Qc) : PL := mkPL [0] [x] 0 0 (Fin 0) PInf.
Lemma const_cost_eval x t : 0 <= t -> pl_eval (const_cost x) t = Ok x.
Proof.
  intro T. assert (V : valid (const_cost x)).
  { constructor; [reflexivity|discriminate|repeat constructor|]. intros u [<-|[]]. split; [apply Qcle_refl|exact Logic.I]. }
  rewrite (eval_at _ t V) by (split; [exact T|exact Logic.I]). f_equal. unfold pl_at, pts, const_cost. cbn [pl_times pl_values pl_first pl_last combine interp]. destruct (qleb t 0); ring.
Qed.
Lemma grun_consistent h : adds_unreversed false h -> consistent (grun h).
Proof. intro H. apply (grun_spec h g_empty (empty_consistent false []) H). Qed.
Definition dead_end : graph := grun [GAdd 1 2; GAdd 1 3; GAdd 2 4]%nat.
Theorem C44_shortcut_refuted : exists costs c e, consistent dead_end /\ strong_fifo_costs dead_end 0 (map pl_eval costs) c /\
  (exists ts, earliest dead_end [1; 2; 4]%nat c 1 4 0 ts) /\
  fst (get_active_edges dead_end costs 0 1 4 [1; 2; 4]%nat true) = Ok [0; e]%nat /\ e_to dead_end e = 3%nat /\
  (forall v t s, goes dead_end [1; 2; 3; 4]%nat c 4 v t s -> v <> 3%nat).
Proof.
  exists [const_cost 1; const_cost 1; const_cost 1], (fun _ _ => 1), 1%nat.
  assert (CN : consistent dead_end) by (apply grun_consistent; cbn; auto).
  split; [exact CN|]. split; [|split; [|split; [vm_compute; reflexivity|split; [reflexivity|]]]].
  - intros e HE. assert (L : (e < 3)%nat) by (cbn in HE; lia). exists (pl_eval (const_cost 1)). split; [|split].
    + rewrite (cs_ids _ CN e e); [destruct e as [|[|[|e]]]; [reflexivity|reflexivity|reflexivity|lia]|destruct e as [|[|[|e]]]; [reflexivity|reflexivity|reflexivity|lia]].
    + intros t T. split; [|qlra]. apply const_cost_eval, T.
    + intros s t _ X. qlra.
  - exists (0 + 1 + 1). split.
    + apply (goes_edge dead_end _ _ _ 0%nat); [cbn; auto|cbn; auto|]. apply (goes_edge dead_end _ _ _ 2%nat); [cbn; auto|cbn; auto|]. apply goes_here.
    + assert (K : forall v t s, goes dead_end [1; 2; 4]%nat (fun _ _ => 1) 4 v t s -> (v = 1%nat -> t + 1 + 1 <= s) /\ (v = 2%nat -> t + 1 <= s) /\ t <= s).
      { intros v t s H. induction H as [t|e t s HE HR H IH]; [split; [discriminate|split; [discriminate|qlra]]|].
        cbn in HE. destruct HE as [<-|[<-|[<-|[]]]]; cbn [e_from e_to] in *.
        - change (e_from dead_end 0) with 1%nat. change (e_to dead_end 0) with 2%nat in *. destruct IH as (_ & IH & _). specialize (IH eq_refl). split; [intros _; qlra|split; [discriminate|qlra]].
        - change (e_to dead_end 1) with 3%nat in HR. cbn in HR. lia.
        - change (e_from dead_end 2) with 2%nat. destruct IH as (_ & _ & IH). split; [discriminate|split; [intros _; qlra|qlra]]. }
      intros s H. apply K in H. destruct H as [H _]. apply (H eq_refl).
  - intros v t s H. induction H as [t|e t s HE HR H IH]; [discriminate|]. cbn in HE. destruct HE as [<-|[<-|[<-|[]]]].
    + discriminate.
    + destruct (IH eq_refl).
    + discriminate.
Qed.
Print Assumptions C44_shortcut_refuted.

(** With a zero cost the result misses an earliest-arrival edge: 1 -> 2 -> 3
    arrives as early as 1 -> 3, but 2 has no label when the search stops. *)
Definition zero_tie : graph := grun [GAdd 1 3; GAdd 1 2; GAdd 2 3]%nat.
Definition zero_cost (e : nat) : Qc := nth e [1; 1; 0] 0.
Theorem C44_zero_cost_refuted : exists costs, consistent zero_tie /\
  (forall e, In e (g_edges zero_tie) -> exists f, nth_error (map pl_eval costs) (e_id zero_tie e) = Some f /\ forall t, 0 <= t -> f t = Ok (zero_cost e) /\ 0 <= zero_cost e) /\
  starts_earliest zero_tie [1; 2; 3]%nat (fun e _ => zero_cost e) 1 3 0 1 1 /\ earliest zero_tie [1; 2; 3]%nat (fun e _ => zero_cost e) 1 3 0 1 /\
  fst (get_active_edges zero_tie costs 0 1 3 [1; 2; 3]%nat true) = Ok [0]%nat.
Proof.
  exists [const_cost 1; const_cost 1; const_cost 0].
  assert (CN : consistent zero_tie) by (apply grun_consistent; cbn; auto). split; [exact CN|]. split; [|split; [|split; [split|vm_compute; reflexivity]]].
  - intros e HE. cbn in HE. destruct HE as [<-|[<-|[<-|[]]]]; eexists; (split; [reflexivity|]); intros t T; (split; [apply const_cost_eval, T|cbn [zero_cost nth]; qlra]).
  - split; [cbn; auto|]. split; [reflexivity|]. split; [cbn; auto|]. change (e_to zero_tie 1) with (e_from zero_tie 2). apply goes_edge; [cbn; auto|cbn; auto|].
    change (e_to zero_tie 2) with 3%nat. cbn [zero_cost nth]. replace (0 + 1 + 0) with 1 by ring. apply goes_here.
  - change 1%nat with (e_from zero_tie 0). apply goes_edge; [cbn; auto|cbn; auto|]. change (e_to zero_tie 0) with 3%nat. cbn [zero_cost nth]. replace (0 + 1) with 1 by ring. apply goes_here.
  - assert (K : forall v t s, goes zero_tie [1; 2; 3]%nat (fun e _ => zero_cost e) 3 v t s -> (v = 1%nat -> t + 1 <= s) /\ t <= s).
    { intros v t s H. induction H as [t|e t s HE HR H IH]; [split; [discriminate|qlra]|]. cbn in HE. destruct HE as [<-|[<-|[<-|[]]]]; cbn [zero_cost nth] in IH; destruct IH as [_ IH].
      - split; [intros _|]; qlra.
      - split; [intros _|]; qlra.
      - split; [discriminate|qlra]. }
    intros s H. apply K in H. destruct H as [H _]. specialize (H eq_refl). qlra.
Qed.
Print Assumptions C44_zero_cost_refuted.

(** ** C44, weak FIFO *)
(** The weak FIFO branch never returns: whatever the graph and the costs, with
    at least two relevant edges leaving the source it raises (or does not
    terminate), in the last step at the latest, *)
Theorem C44_weak_fifo_refuted :
  (forall g costs theta source sink relevant, (2 <= length (filter (fun e => mem (e_to g e) relevant) (outgoing g source)))%nat ->
     exists x, fst (get_active_edges g costs theta source sink relevant false) = Err x) /\
  (* TypeError although all costs are constant 1, *)
  (exists g costs, consistent g /\ g_rev g = false /\ get_active_edges g costs 0 1 4 [2; 3; 4]%nat false = (Err TypeError, g)) /\
  (* and an exception in the second search leaves the graph reversed. *)
  (exists g costs x, consistent g /\ g_rev g = false /\ get_active_edges g costs 0 1 4 [1; 2; 3; 4]%nat false = (Err x, g_reverse g)).
Proof.
  split; [|split].
  - intros g costs theta source sink relevant TWO. unfold get_active_edges.
    destruct (Nat.leb_spec (length (filter (fun e => mem (e_to g e) relevant) (outgoing g source))) 1) as [LE|LT]; [lia|clear LT].
    destruct (dynamic_dijkstra g theta source sink relevant (map pl_eval costs)) as [r|x]; [|exists x; reflexivity].
    destruct (traversals <- mapM _ costs ;; _) as [trs|x]; [|exists x; reflexivity]. cbn [fst].
    assert (E : g_reverse (g_reverse g) = g) by (destruct g; unfold g_reverse; cbn; rewrite Bool.negb_involutive; reflexivity). rewrite E.
    unfold weak_edges. destruct (outgoing g source) as [|e l]; [cbn in TWO; lia|]. cbn [foldM].
    destruct (fetch trs (e_id g e)) as [f|x]; [|exists x; reflexivity]. cbn [bind]. destruct (pl_eval f theta) as [y|x]; [|exists x; reflexivity]. cbn [bind]. eauto.
  - exists (grun [GAdd 1 4; GAdd 1 2; GAdd 1 3]%nat), [const_cost 1; const_cost 1; const_cost 1]. split; [apply grun_consistent; cbn; auto|]. split; [reflexivity|]. vm_compute. reflexivity.
  - exists (grun [GAdd 1 2; GAdd 1 3; GAdd 2 4; GAdd 3 4]%nat), [const_cost 1; const_cost 1; const_cost 1; const_cost 1], AssertionError. split; [apply grun_consistent; cbn; auto|]. split; [reflexivity|]. vm_compute. reflexivity.
Qed.
Print Assumptions C44_weak_fifo_refuted.

(** Non-vacuity of C44_strong_fifo: three routes, two of them shortest. *)
Definition three : graph := grun [GAdd 1 2; GAdd 2 4; GAdd 1 3; GAdd 3 4; GAdd 1 4; GAdd 4 1]%nat.
Definition three_costs : list PL := map const_cost [1; 1 + 1; 1 + 1; 1; 1 + 1 + 1 + 1; 1].
Example C44_example : get_active_edges three three_costs 0 1 4 [1; 2; 3; 4]%nat true = (Ok [2; 0]%nat, three) /\
  strong_fifo_costs three 0 (map pl_eval three_costs) (fun e _ => nth e [1; 1 + 1; 1 + 1; 1; 1 + 1 + 1 + 1; 1] 0) /\
  (2 <= length (filter (fun e => mem (e_to three e) [1; 2; 3; 4]%nat) (outgoing three 1)))%nat.
Proof.
  split; [vm_compute; reflexivity|]. split; [|vm_compute; lia]. intros e HE. cbn in HE.
  repeat (destruct HE as [<-|HE]; [eexists; split; [reflexivity|split; [intros t T; split; [apply const_cost_eval, T|cbn [nth]; qlra]|intros s t _ X; cbn [nth]; qlra]]|]). destruct HE.
Qed.
(** When the sink is relevant but cannot be reached the result is empty. *)
Theorem C44_unreachable : forall g costs theta source sink relevant c,
  consistent g -> In source (node_ids g) -> strong_fifo_costs g theta (map pl_eval costs) c ->
  (2 <= length (filter (fun e => mem (e_to g e) relevant) (outgoing g source)))%nat ->
  In sink relevant -> (forall s, ~ goes g relevant c sink source theta s) ->
  get_active_edges g costs theta source sink relevant true = (Ok [], g).
Proof.
  intros g costs theta source sink relevant c CG SRC SF TWO SR NO. unfold get_active_edges.
  destruct (Nat.leb_spec (length (filter (fun e => mem (e_to g e) relevant) (outgoing g source))) 1); [lia|].
  destruct (dynamic_dijkstra_spec g theta source sink relevant (map pl_eval costs) c CG SRC (strong_fifo _ _ _ _ SF)) as (r & -> & G).
  assert (NA : forall s, ~ arrives g theta source relevant c sink s) by (intros s R; apply (NO s), (arr_goes g theta source sink relevant c _ _ R), goes_here).
  unfold backward_search. cbn [bs_loop].
  assert (F : foldM (bs_edge g (map pl_eval costs) (dd_arrival r) source sink) (incoming g sink) ([], [sink], []) = Ok ([], [sink], [])).
  { assert (HI : forall e, In e (incoming g sink) -> In e (g_edges g) /\ e_to g e = sink) by (intros e He; apply in_incoming; auto).
    induction (incoming g sink) as [|e l IH]; cbn [foldM]; [reflexivity|]. destruct (HI e (or_introl eq_refl)) as [HE ET].
    assert (D : dget (dd_arrival r) (e_from g e) = None).
    { destruct (dget (dd_arrival r) (e_from g e)) as [t|] eqn:D; [|reflexivity]. exfalso. destruct (dg_arr _ _ _ _ _ _ _ G _ _ D) as [R _].
      apply (NA (t + c e t)). rewrite <- ET at 1. apply arr_step; auto. rewrite ET. exact SR. }
    unfold bs_edge at 1. rewrite D. cbn [bind]. apply IH. intros; apply HI; right; auto. }
  rewrite F. cbn [bind]. destruct (length (g_nodes g)); reflexivity.
Qed.
Print Assumptions C44_unreachable.
