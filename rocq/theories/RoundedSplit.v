(** * FlowBuilder with rounding: how the inflow of a node is split (for C124)
    The proofs follow FlowBuilderProofs.v. *)
From Coq Require Import Permutation.
From Verif Require Import Base Spec Arrays PL RC FRC FRCProofs PQ PQProofs PQSpec DynFlow DQProofs DynRun DynEvents ArraysProofs
  Graph GraphSpec GraphProofs Dijkstra DijkstraSpec DijkstraProofs DijkstraProofs2 FlowBuilder FlowBuilderProofs Rounded RoundedFlow RoundedBuilder.

(** Some edges out of [v], each once. *)
Definition free_routes (g : graph) (v : nat) (l : list nat) : Prop := NoDup l /\ forall e, In e l -> In e (outgoing g v).
Section RSplit.
Variables (rnd : Qc -> Qc) (on : bool).
(** The rates of commodity [i] that [v] is supplied with: those leaving the edges into [v], in
    the order of these edges, then the network inflow. *)
Definition parts (S : setup) (b : builder) (v i : nat) : list Qc :=
  flat_map (fun d => match dget d i with Some x => [x] | None => [] end) (map (out_now S b) (incoming (s_graph S) v) ++ [net_now b v]).
(** The floating-point sum of a list, from left to right. *)
Definition fsum (l : list Qc) : Qc := fold_left (fun acc x => rnd (acc + x)) l 0.
Definition r_supply (S : setup) (b : builder) (v i : nat) : Qc := fsum (parts S b v i).
Lemma r_supply_eq S b v i : r_node_inflow rnd i (map (out_now S b) (incoming (s_graph S) v)) (net_now b v) = r_supply S b v i.
Proof.
  unfold r_supply, parts, r_node_inflow. rewrite flat_map_app. unfold fsum. rewrite fold_left_app. cbn [flat_map]. rewrite app_nil_r.
  assert (E : forall l a, fold_left (fun acc d => match dget d i with Some x => rnd (acc + x) | None => acc end) l a = fold_left (fun acc x => rnd (acc + x)) (flat_map (fun d : rates => match dget d i with Some x => [x] | None => [] end) l) a).
  { induction l as [|d l IH]; intro a; cbn [fold_left flat_map]; [reflexivity|]. rewrite fold_left_app, <- IH. destruct (dget d i); reflexivity. }
  rewrite E. destruct (dget (net_now b v) i); reflexivity.
Qed.
Definition r_split_ok (S : setup) (v i : nat) (x : Qc) (f : nat -> option Qc) : Prop :=
  (sinks_at S v i -> forall e, In e (outgoing (s_graph S) v) -> f e = None) /\
  (~ sinks_at S v i -> x < r_eps rnd -> forall e, In e (outgoing (s_graph S) v) -> f e = None) /\
  (~ sinks_at S v i -> r_eps rnd <= x -> exists act, free_routes (s_graph S) v act /\ act <> [] /\
     forall e, In e (outgoing (s_graph S) v) -> f e = if mem e act then Some (rnd (x / qn (length act))) else None).

(** ** Routes *)
Section Active.
Variables (g : graph) (r : ddresult) (source : nat).
Hypothesis C : consistent g.
Record aei (active touched queue : list nat) : Prop := {
  ai_nd : NoDup active;
  ai_out : forall e, In e active -> In e (outgoing g source);
  ai_to : forall e, In e active -> In (e_to g e) touched /\ ~ In (e_to g e) queue;
  ai_q : NoDup queue; ai_qt : forall v, In v queue -> In v touched }.
Lemma ae_fold_shape w : forall edges active touched queue s', NoDup edges -> (forall e, In e edges -> In e (incoming g w)) ->
  (forall e, In e edges -> ~ In e active) -> In w touched -> ~ In w queue -> aei active touched queue ->
  foldM (r_ae_edge rnd g r source w) edges (active, touched, queue) = Ok s' ->
  aei (fst (fst s')) (snd (fst s')) (snd s').
Proof.
  induction edges as [|e edges IH]; intros active touched queue s' N I A W Q H F; cbn [foldM] in F; [injection F as <-; exact H|].
  inversion N; subst. apply bind_ok in F. destruct F as [[[a t] q] [F1 F2]].
  assert (Ie : In e (incoming g w)) by (apply I; left; reflexivity). apply (in_iff g C) in Ie. destruct Ie as [Ie Te].
  assert (X : aei a t q /\ In w t /\ ~ In w q /\ forall e', In e' edges -> ~ In e' a).
  { cbn [r_ae_edge] in F1. destruct (dget (dd_cost r) e) as [c|]; [|injection F1 as <- <- <-; split; [exact H|split; [exact W|split; [exact Q|intros e' Z; apply A; right; exact Z]]]].
    apply bind_ok in F1. destruct F1 as [tv [_ F1]]. apply bind_ok in F1. destruct F1 as [tw [_ F1]].
    destruct (qleb (rnd (tv + c)) (rnd (tw + r_eps rnd))); [|injection F1 as <- <- <-; split; [exact H|split; [exact W|split; [exact Q|intros e' Z; apply A; right; exact Z]]]].
    set (a1 := if Nat.eqb (e_from g e) source then active ++ [e] else active) in F1.
    assert (Y : aei a1 touched queue /\ forall e', In e' edges -> ~ In e' a1).
    { subst a1. destruct (Nat.eqb_spec (e_from g e) source) as [<-|]; [|split; [exact H|intros e' Z; apply A; right; exact Z]].
      split.
      - destruct H. constructor; auto.
        + apply NoDup_snoc; auto. apply A. left. reflexivity.
        + intros e' Z. apply in_app_or in Z. destruct Z as [Z|[<-|[]]]; auto. apply out_iff; auto.
        + intros e' Z. apply in_app_or in Z. destruct Z as [Z|[<-|[]]]; auto. rewrite Te. auto.
      - intros e' Z Z'. apply in_app_or in Z'. destruct Z' as [Z'|[<-|[]]]; [|contradiction]. apply (A e'); [right; exact Z|exact Z']. }
    destruct Y as [Y1 Y2]. destruct (mem (e_from g e) touched) eqn:M; injection F1 as <- <- <-; [auto|].
    apply mem_false in M. split; [|split; [right; exact W|split; [|exact Y2]]].
    - destruct Y1. constructor; auto.
      + intros e' Z. destruct (ai_to0 e' Z) as [Z1 Z2]. split; [right; exact Z1|]. intros [E|Z3]; [|contradiction]. apply M. rewrite E. exact Z1.
      + constructor; auto.
      + intros u [<-|Z]; [left; reflexivity|right; auto].
    - intros [E|Z]; [|contradiction]. apply M. rewrite E. exact W. }
  destruct X as [X1 [X2 [X3 X4]]]. eapply (IH a t q s'); eauto. intros e' Z. apply I. right. exact Z.
Qed.
Lemma ae_loop_shape : forall fuel active touched queue l, aei active touched queue ->
  r_ae_loop rnd fuel g r source active touched queue = Ok l -> NoDup l /\ forall e, In e l -> In e (outgoing g source).
Proof.
  induction fuel as [|f IH]; intros active touched queue l H F; destruct queue as [|w q]; cbn [r_ae_loop] in F; try discriminate;
    try (injection F as <-; destruct H; auto).
  apply bind_ok in F. destruct F as [[[a t] q'] [F1 F2]].
  assert (X : aei a t q').
  { apply (ae_fold_shape w (incoming g w) active touched q (a, t, q') (nd_in g w C)) in F1; auto.
    - intros e Ie Ia. destruct (ai_to _ _ _ H e Ia) as [_ Z]. apply Z. left. symmetry. apply (in_iff g C) in Ie. apply Ie.
    - apply (ai_qt _ _ _ H). left. reflexivity.
    - pose proof (ai_q _ _ _ H) as Z. inversion Z; auto.
    - destruct H. constructor; auto.
      + intros e Z. destruct (ai_to0 e Z) as [Z1 Z2]. split; auto. intro. apply Z2. right. assumption.
      + inversion ai_q0; auto.
      + intros u Z. apply ai_qt0. right. exact Z. }
  apply (IH _ _ _ _ X F2).
Qed.
End Active.
Lemma active_routes g r source sink l : consistent g -> r_get_active_edges_from_dijkstra rnd g r source sink = Ok l -> free_routes g source l.
Proof.
  intros C F. unfold r_get_active_edges_from_dijkstra in F. apply bind_ok in F. destruct F as [a [F1 F2]].
  apply bind_ok in F2. destruct F2 as [u [F2 F3]]. injection F3 as <-.
  apply (ae_loop_shape g r source C (Datatypes.S (length (g_nodes g))) [] [sink] [sink] a); auto.
  constructor; [constructor|intros e []|intros e []|repeat constructor; intros []|auto].
Qed.
Lemma tight_incl g costs dist v : forall l r, r_tight_edges rnd g costs dist v l = Ok r -> (NoDup l -> NoDup r) /\ forall e, In e r -> In e l.
Proof.
  induction l as [|e l IH]; intros r F; cbn [r_tight_edges] in F; [injection F as <-; auto|].
  assert (K : forall r', r_tight_edges rnd g costs dist v l = Ok r' -> (NoDup (e :: l) -> NoDup r') /\ forall x, In x r' -> In x (e :: l)).
  { intros r' F'. destruct (IH r' F') as [A B]. split; [intro N; inversion N; auto|intros; right; auto]. }
  destruct (dget dist (e_to g e)) as [dw|]; [|auto].
  apply bind_ok in F. destruct F as [c [_ F]]. apply bind_ok in F. destruct F as [dv [_ F]]. apply bind_ok in F. destruct F as [rest [F1 F]].
  injection F as <-. destruct (IH rest F1) as [A B]. destruct (qleb (rnd (c + dw)) (rnd (dv + r_eps rnd))); [|auto]. split.
  - intro N. inversion N; subst. constructor; auto.
  - intros x [->|I]; [left; reflexivity|right; auto].
Qed.

Definition act_ok (S : setup) (active : list (list (nat * list nat))) : Prop :=
  forall i v l, dget (nth i active []) v = Some l -> free_routes (s_graph S) v l.
Lemma act_set S active j v l : act_ok S active -> free_routes (s_graph S) v l -> act_ok S (set_active active j v l).
Proof.
  intros A R i w l' H. unfold set_active in H. rewrite nth_upd in H. destruct (Nat.eqb_spec j i) as [<-|N]; [|eapply A; eauto].
  destruct (j <? length active)%nat; [|discriminate]. rewrite dget_dset in H. destruct (Nat.eqb_spec v w) as [<-|]; [injection H as <-; exact R|eapply A; eauto].
Qed.
Lemma act_share S cs sink ty v l : free_routes (s_graph S) v l -> forall active, act_ok S active -> act_ok S (share cs sink ty active v l).
Proof.
  intros R. unfold share. generalize (ids_by_sink cs sink). induction l0 as [|j js IH]; intros active A; cbn [fold_left]; auto. apply IH.
  destruct (nth_error cs j) as [c|]; auto. destruct (Nat.eqb (k_pred c) ty); auto. apply act_set; auto.
Qed.
Lemma act_const S c costs dist v active active' : consistent (s_graph S) -> act_ok S active -> r_const_node rnd on S c costs dist active v = Ok active' -> act_ok S active'.
Proof.
  intros C A F. unfold r_const_node in F. destruct (Nat.eqb v (k_sink c)); [injection F as <-; exact A|].
  apply bind_ok in F. destruct F as [l [F1 F]]. apply bind_ok in F. destruct F as [u [F2 F]]. injection F as <-.
  destruct (tight_incl _ _ _ _ _ _ F1) as [N I]. apply act_share; auto. split; [apply N, nd_out, C|exact I].
Qed.
Lemma get_costs_same S b ty b' costs : r_get_costs rnd on S b ty = Ok (b', costs) -> same_but_cache b b' /\ b_active b' = b_active b.
Proof.
  intro F. unfold r_get_costs in F. destruct (dget (b_costs b) ty) as [c|]; [injection F as <- <-; split; [apply sb_refl|reflexivity]|].
  apply bind_ok in F. destruct F as [p [_ F]]. apply bind_ok in F. destruct F as [pr [_ F]]. apply bind_ok in F. destruct F as [cs [_ F]].
  injection F as <- <-. split; [constructor; reflexivity|reflexivity].
Qed.
Lemma get_active_ok S b i v b' l : consistent (s_graph S) -> act_ok S (b_active b) -> r_get_active_edges rnd on S b i v = Ok (b', l) ->
  free_routes (s_graph S) v l /\ act_ok S (b_active b') /\ same_but_cache b b'.
Proof.
  intros C A F. unfold r_get_active_edges in F. destruct (dget (nth i (b_active b) []) v) as [l0|] eqn:D.
  { injection F as <- <-. split; [eapply A; eauto|]. split; [exact A|apply sb_refl]. }
  apply bind_ok in F. destruct F as [c [_ F]]. apply bind_ok in F. destruct F as [p [_ F]]. apply bind_ok in F. destruct F as [[b1 costs] [G F]].
  destruct (get_costs_same _ _ _ _ _ G) as [SB AE]. destruct (p_const p).
  - apply bind_ok in F. destruct F as [cst [_ F]]. apply bind_ok in F. destruct F as [dist [_ F]].
    apply bind_ok in F. destruct F as [active [F1 F]]. apply bind_ok in F. destruct F as [l1 [F2 F]]. injection F as <- <-.
    assert (AO : act_ok S active).
    { eapply (foldM_inv _ (fun _ a => act_ok S a)) in F1; [exact F1|rewrite AE; exact A|]. intros pre x post s1 s2 _ H1 H2. eapply act_const; eauto. }
    split; [|split; [exact AO|destruct SB; constructor; auto]].
    unfold dfetch in F2. destruct (dget (nth i active []) v) eqn:E2; [|discriminate]. injection F2 as <-. eapply AO; eauto.
  - apply bind_ok in F. destruct F as [r [_ F]]. apply bind_ok in F. destruct F as [l1 [F2 F]]. injection F as <- <-.
    apply active_routes in F2; auto. split; [exact F2|]. split; [|destruct SB; constructor; auto].
    cbn [with_active b_active]. apply act_set; auto. rewrite AE. exact A.
Qed.


(** ** One node *)
(** A row of [new_inflow]: one rate per commodity, each a rounded share of at least the threshold. *)
Definition share_of (x : Qc) : Prop := exists y m, r_eps rnd <= y /\ (0 < m)%nat /\ x = rnd (y / qn m).
Definition good_row (d : rates) : Prop := is_dict d /\ forall j x, dget d j = Some x -> share_of x.
Section Det.
Variable S : setup.
Let g := s_graph S.
Hypothesis C : consistent g.
Hypothesis ORD : forall l, Permutation (su_ord S l) l.
Hypothesis EP : 0 < r_eps rnd.
Lemma r_split_node_ok b ni v b' ni' : act_ok S (b_active b) -> NoDup (map fst ni) -> r_split_node rnd on S (b, ni) v = Ok (b', ni') ->
  after S b b' [v] /\ act_ok S (b_active b') /\ NoDup (map fst ni') /\
  (forall k, In k (map fst ni') <-> In k (map fst ni) \/ exists e, In e (outgoing g v) /\ e_id g e = k) /\
  (forall e, In e (g_edges g) -> e_from g e <> v -> dget ni' (e_id g e) = dget ni (e_id g e)) /\
  (forall e, In e (outgoing g v) -> exists d, dget ni' (e_id g e) = Some d /\ good_row d) /\
  (forall i, r_split_ok S v i (r_supply S b v i) (fun e => sent S ni' e i)).
Proof.
  intros A N F. unfold r_split_node in F. fold g in F. set (ni1 := fold_left (fun d e => dset d (e_id g e) []) (outgoing g v) ni) in F.
  destruct (fresh_rows g (outgoing g v) ni) as [FR FN]. fold ni1 in FR, FN. specialize (FN N).
  apply bind_ok in F. destruct F as [[b1 outs] [F1 F]].
  destruct (outflows_ok S b (incoming g v) b1 outs C (nd_in g v C)) as [RD OU]; [intros e I; apply (in_iff g C) in I; apply I|exact F1|].
  apply bind_ok in F. destruct F as [c [F2 F]]. apply bind_ok in F. destruct F as [[c' net] [F3 F]].
  unfold dfetch in F2. destruct (dget (b_net b1) v) as [c0|] eqn:D; [|discriminate]. injection F2 as ->.
  set (b2 := with_net b1 (dset (b_net b1) v c')) in F.
  set (used := filter (fun i => negb (mem i (ids_by_sink (s_coms S) v))) (uniq (concat (map (map fst) outs) ++ map fst net))) in F.
  destruct (rd_rest _ _ _ _ RD) as [RA [RH [RN [RR [RNe [RCh RC0]]]]]].
  assert (NN : net = net_now b v). { unfold net_now. rewrite <- RNe, D. unfold got. rewrite <- (rd_phi _ _ _ _ RD), F3. reflexivity. }
  assert (SU : forall i, r_node_inflow rnd i outs net = r_supply S b v i).
  { intro i. rewrite OU, NN. apply r_supply_eq. }
  assert (UN : NoDup (su_ord S used)). { eapply Permutation_NoDup; [apply Permutation_sym, ORD|]. apply NoDup_filter, uniq_nd. }
  assert (UI : forall i, In i (su_ord S used) <-> ~ sinks_at S v i /\ In i (concat (map (map fst) outs) ++ map fst net)).
  { intro i. split.
    - intro H. apply (Permutation_in i (ORD used)) in H. apply filter_In in H. destruct H as [H1 H2]. rewrite uniq_In in H1. split; [|exact H1].
      apply negb_true_iff, mem_false in H2. rewrite ids_by_sink_iff in H2. exact H2.
    - intros [H1 H2]. apply (Permutation_in i (Permutation_sym (ORD used))). apply filter_In. split; [apply uniq_In, H2|].
      apply negb_true_iff, mem_false. rewrite ids_by_sink_iff. exact H1. }
  assert (ZU : forall i, ~ In i (concat (map (map fst) outs) ++ map fst net) -> r_supply S b v i = 0).
  { intros i H. rewrite <- SU. unfold r_node_inflow. assert (Z1 : dget net i = None) by (apply dget_None; intro; apply H, in_or_app; auto). rewrite Z1.
    assert (G : forall l, (forall d, In d l -> dget d i = None) -> forall a, fold_left (fun acc d => match dget d i with Some x => rnd (acc + x) | None => acc end) l a = a).
    { induction l as [|d l IH]; intros HH a; cbn [fold_left]; [reflexivity|]. rewrite (HH d) by (left; reflexivity). apply IH. intros; apply HH; right; assumption. }
    apply G. intros d Hd. apply dget_None. intro X. apply H, in_or_app. left. apply in_concat. exists (map fst d). split; [apply in_map, Hd|exact X]. }
  assert (ACT2 : act_ok S (b_active b2)) by (cbn [b2 with_net b_active]; rewrite RA; exact A).
  apply (foldM_inv _ (fun pre (st : builder * list (nat * rates)) => same_but_cache b2 (fst st) /\ act_ok S (b_active (fst st)) /\ map fst (snd st) = map fst ni1 /\
     (forall k, (forall e, In e (outgoing g v) -> e_id g e <> k) -> dget (snd st) k = dget ni1 k) /\
     (forall e, In e (outgoing g v) -> exists d, dget (snd st) (e_id g e) = Some d /\ good_row d /\ forall j, ~ In j pre -> dget d j = None) /\
     (forall i, In i pre -> r_split_ok S v i (r_supply S b v i) (fun e => sent S (snd st) e i)))) in F.
  - cbn [fst snd] in F. destruct F as [SB [A' [K [OT [RW SP]]]]].
    split; [|split; [exact A'|split; [rewrite K; exact FN|split; [|split; [|split]]]]].
    + pose proof RD as RD0. destruct SB, RD. constructor; rewrite ?sb_flow, ?sb_next, ?sb_handle, ?sb_route, ?sb_changes, ?sb_net; cbn [b2 with_net b_flow b_handle b_next b_route b_changes b_net]; auto.
      * intros k Hk. apply rd_other. intros e I. apply (in_iff g C) in I. apply Hk; [apply I|left; symmetry; apply I].
      * intros e I [E|[]]. apply rd_read. apply in_iff; auto.
      * rewrite dset_keys; [rewrite RNe; reflexivity|]. apply dhas_In. unfold dhas. rewrite D. reflexivity.
      * intros w Hw. rewrite dget_dset. destruct (Nat.eqb_spec v w) as [<-|]; [exfalso; apply Hw; left; reflexivity|rewrite RNe; reflexivity].
      * intros w [<-|[]]. exists c, c', net. rewrite <- RNe, <- rd_phi. split; [exact D|]. split; [exact F3|]. rewrite dget_dset, Nat.eqb_refl. reflexivity.
    + intro k. rewrite K. rewrite <- !dhas_In. unfold dhas. rewrite FR. destruct (existsb (fun e => Nat.eqb (e_id g e) k) (outgoing g v)) eqn:X.
      * apply existsb_exists in X. destruct X as [e [X1 X2]]. apply Nat.eqb_eq in X2. split; [right; eauto|reflexivity].
      * split; [auto|]. intros [H|[e [H1 H2]]]; [exact H|]. exfalso. assert (existsb (fun e => Nat.eqb (e_id g e) k) (outgoing g v) = true) by (apply existsb_exists; exists e; split; [exact H1|apply Nat.eqb_eq, H2]). congruence.
    + intros e I NE. rewrite OT. * rewrite FR, (out_ids g v e C I). destruct (Nat.eqb_spec (e_from g e) v); congruence.
      * intros e' I' Q. apply (out_iff g C) in I'. destruct I' as [I1 I2]. apply NE. rewrite <- (id_inj g C e' e I1 I Q). exact I2.
    + intros e I. destruct (RW e I) as [d [R1 [R2 _]]]. eauto.
    + intro i. destruct (in_dec Nat.eq_dec i (su_ord S used)) as [H|H]; [apply SP, H|].
      assert (NO : forall e, In e (outgoing g v) -> sent S ni' e i = None).
      { intros e I. destruct (RW e I) as [d [R1 [_ R2]]]. unfold sent. fold g. rewrite R1. apply R2, H. }
      split; [intros _; exact NO|]. split; [intros _ _; exact NO|]. intros NS L. exfalso.
      assert (~ In i (concat (map (map fst) outs) ++ map fst net)) by (intro X; apply H, UI; auto). rewrite (ZU i H0) in L. qlra.
  - cbn [fst snd]. split; [apply sb_refl|]. split; [exact ACT2|]. split; [reflexivity|]. split; [reflexivity|]. split; [|intros i []].
    intros e I. exists []. rewrite FR. assert (X : existsb (fun x => Nat.eqb (e_id g x) (e_id g e)) (outgoing g v) = true) by (apply existsb_exists; exists e; split; [exact I|apply Nat.eqb_refl]).
    rewrite X. split; [reflexivity|]. split; [|reflexivity]. split; [constructor|intros j x Q; discriminate].
  - intros pre i post [b3 ni3] [b4 ni4] E [SB [A3 [K3 [OT3 [RW3 SP3]]]]] G. cbn [fst snd] in *.
    assert (NI : ~ In i pre) by (rewrite E in UN; apply (NoDup_mid _ _ _ UN)).
    assert (NS : ~ sinks_at S v i) by (apply UI; rewrite E; apply in_or_app; right; left; reflexivity).
    unfold r_assign in G. rewrite SU in G. destruct (qltbP (r_supply S b v i) (r_eps rnd)) as [LT|GE].
    + injection G as <- <-. split; [exact SB|]. split; [exact A3|]. split; [exact K3|]. split; [exact OT3|]. split.
      * intros e I. destruct (RW3 e I) as [d [R1 [R2 R3]]]. exists d. split; [exact R1|]. split; [exact R2|]. intros j Hj. apply R3. intro; apply Hj, in_or_app; auto.
      * intros j Hj. apply in_app_or in Hj. destruct Hj as [Hj|[<-|[]]]; [apply SP3, Hj|].
        assert (NO : forall e, In e (outgoing g v) -> sent S ni3 e i = None).
        { intros e I. destruct (RW3 e I) as [d [R1 [_ R2]]]. unfold sent. fold g. rewrite R1. apply R2, NI. }
        split; [intros _; exact NO|]. split; [intros _ _; exact NO|]. intros _ L. exfalso. qlra.
    + apply Qcnlt_le in GE. apply bind_ok in G. destruct G as [[b5 act] [G1 G]]. apply bind_ok in G. destruct G as [d [G2 G]].
      apply bind_ok in G. destruct G as [ni5 [G3 G]]. injection G as <- <-.
      destruct (get_active_ok S b3 i v b5 act C A3 G1) as [RT [A5 SB5]].
      assert (NE : act <> []). { intros ->. unfold fdiv, pydiv in G2. cbn [length] in G2. rewrite ArraysProofs.qn_0 in G2. destruct (qeqbP 0 0) as [_|B]; [discriminate G2|contradiction]. }
      assert (QL : (0 < length act)%nat) by (destruct act; [congruence|cbn; lia]).
      pose proof (qn_pos _ QL) as QP. unfold fdiv in G2. rewrite pydiv_ok in G2 by (intro Z; rewrite Z in QP; qlra). cbn [bind] in G2. apply ok_inj in G2. subst d.
      destruct RT as [T1 T3].
      destruct (put_ok S v i (rnd (r_supply S b v i / qn (length act))) C act ni3 ni5 T3 G3) as [P1 [P2 P3]]. fold g in P2, P3.
      assert (UT : forall e, In e (outgoing g v) -> ~ In e act -> dget ni5 (e_id g e) = dget ni3 (e_id g e)).
      { intros e I M. apply P2. intros e' I' Q. apply M. pose proof (T3 e' I') as I2. apply (out_iff g C) in I2. destruct I2 as [I2 I3]. apply (out_iff g C) in I. destruct I as [I _].
        rewrite <- (id_inj g C e' e I2 I Q). exact I'. }
      split; [destruct SB, SB5; constructor; congruence|]. split; [exact A5|]. split; [congruence|]. split; [|split].
      * intros k Hk. rewrite P2; [apply OT3, Hk|]. intros e I. apply Hk, T3, I.
      * intros e I. destruct (RW3 e I) as [d0 [R1 [[R2 R2'] R3]]]. destruct (P3 _ _ R1) as [d1 [Q1 [Q2 [Q3 [Q4 _]]]]].
        exists d1. split; [exact Q1|]. split; [split; [apply Q4, R2|]|].
        -- intros j x X. destruct (Nat.eq_dec j i) as [->|NJ]; [|rewrite Q2 in X by exact NJ; apply (R2' j x X)].
           destruct (in_dec Nat.eq_dec e act) as [M|M].
           ++ rewrite (Q3 e M eq_refl) in X. injection X as <-. exists (r_supply S b v i), (length act). auto.
           ++ rewrite (UT e I M), R1 in Q1. injection Q1 as <-. apply (R2' i x X).
        -- intros j Hj.
        rewrite Q2; [apply R3; intro; apply Hj, in_or_app; auto|]. intros ->. apply Hj, in_or_app. right. left. reflexivity.
      * intros j Hj. apply in_app_or in Hj. destruct Hj as [Hj|[<-|[]]].
        -- assert (EQ : forall e, In e (outgoing g v) -> sent S ni5 e j = sent S ni3 e j).
           { intros e I. destruct (RW3 e I) as [d0 [R1 _]]. destruct (P3 _ _ R1) as [d1 [Q1 [Q2 _]]]. unfold sent. fold g. rewrite Q1, R1. apply Q2. intros ->. contradiction. }
           destruct (SP3 j Hj) as [X1 [X2 X3]]. split; [intros Z e I; rewrite EQ by exact I; apply X1; auto|].
           split; [intros Z1 Z2 e I; rewrite EQ by exact I; apply X2; auto|].
           intros Z1 Z2. destruct (X3 Z1 Z2) as [act' [Y1 [Y0 Y2]]]. exists act'. split; [exact Y1|]. split; [exact Y0|]. intros e I. rewrite EQ by exact I. apply Y2, I.
        -- split; [intro; contradiction|]. split; [intros _ L; exfalso; qlra|]. intros _ _. exists act. split; [split; [exact T1|exact T3]|]. split; [exact NE|].
           intros e I. destruct (RW3 e I) as [d0 [R1 [_ R3]]]. destruct (P3 _ _ R1) as [d1 [Q1 [Q2 [Q3 [Q4 Q5]]]]]. unfold sent. fold g. rewrite Q1.
           destruct (mem e act) eqn:M; [apply memP in M; apply (Q3 e M eq_refl)|]. apply mem_false in M.
           assert (DD : dget ni5 (e_id g e) = dget ni3 (e_id g e)).
           { apply P2. intros e' I' Q. apply M. pose proof (T3 e' I') as I2. apply (out_iff g C) in I2. destruct I2 as [I2 I3]. apply (out_iff g C) in I. destruct I as [I _].
             rewrite <- (id_inj g C e' e I2 I Q). exact I'. }
           rewrite DD, R1 in Q1. injection Q1 as <-. apply R3, NI.
Qed.

Lemma r_supply_same b b' P v i : after S b b' P -> ~ In v P -> r_supply S b' v i = r_supply S b v i.
Proof.
  intros A NV. unfold r_supply, parts. fold g. f_equal. f_equal. f_equal.
  - apply map_ext_in. intros e I. apply (in_iff g C) in I. destruct I as [I T]. unfold out_now. fold g. rewrite (af_phi _ _ _ _ A). f_equal.
    apply (af_other _ _ _ _ A). intros e' I' P' Q. apply NV. rewrite <- T. rewrite <- (id_inj g C e' e I' I Q). exact P'.
  - unfold net_now. rewrite (af_net _ _ _ _ A v NV), (af_phi _ _ _ _ A). reflexivity.
Qed.
Lemma determine_ok b b' ni : act_ok S (b_active b) -> NoDup (b_handle b) -> r_determine_new_inflow rnd on S b = Ok (b', ni) ->
  after S b b' (b_handle b) /\ act_ok S (b_active b') /\ NoDup (map fst ni) /\
  (forall k, In k (map fst ni) <-> exists v e, In v (b_handle b) /\ In e (outgoing g v) /\ e_id g e = k) /\
  (forall k d, In (k, d) ni -> good_row d) /\
  (forall v i, In v (b_handle b) -> r_split_ok S v i (r_supply S b v i) (fun e => sent S ni e i)).
Proof.
  intros A NH F. unfold r_determine_new_inflow in F.
  set (hs := su_ord S (b_handle b)) in F. assert (PM : Permutation hs (b_handle b)) by apply ORD.
  assert (NHS : NoDup hs) by (eapply Permutation_NoDup; [apply Permutation_sym, PM|exact NH]).
  apply (foldM_inv _ (fun P (st : builder * list (nat * rates)) => after S b (fst st) P /\ act_ok S (b_active (fst st)) /\ NoDup (map fst (snd st)) /\
    (forall k, In k (map fst (snd st)) <-> exists v e, In v P /\ In e (outgoing g v) /\ e_id g e = k) /\
    (forall v e, In v P -> In e (outgoing g v) -> exists d, dget (snd st) (e_id g e) = Some d /\ good_row d) /\
    (forall v i, In v P -> r_split_ok S v i (r_supply S b v i) (fun e => sent S (snd st) e i)))) in F.
  - cbn [fst snd] in F. destruct F as [F1 [F2 [F3 [F4 [F5 F6]]]]].
    assert (IFF : forall v, In v hs <-> In v (b_handle b)) by (intro v; split; apply Permutation_in; [exact PM|apply Permutation_sym, PM]).
    split; [|split; [exact F2|split; [exact F3|split; [|split]]]].
    + destruct F1. constructor; auto.
      * intros k Hk. apply af_other. intros e I H. apply Hk; auto. apply IFF, H.
      * intros e I H. apply af_read; auto. apply IFF, H.
      * intros v Hv. apply af_net. intro. apply Hv, IFF. assumption.
      * intros v Hv. apply af_netr, IFF, Hv.
    + intro k. rewrite F4. split; intros [v [e [H1 H2]]]; exists v, e; (split; [apply IFF, H1|exact H2]).
    + intros k d I. assert (DG : dget ni k = Some d) by (apply In_dget; auto).
      destruct (proj1 (F4 k)) as [v [e [H1 [H2 H3]]]]; [apply in_map_iff; exists (k, d); auto|].
      destruct (F5 v e H1 H2) as [d' [D1 [D2 D3]]]. rewrite H3, DG in D1. injection D1 as <-. split; [exact D2|exact D3].
    + intros v i Hv. apply F6, IFF, Hv.
  - cbn [fst snd]. split; [|split; [exact A|split; [constructor|split; [|split; [intros v e []|intros v i []]]]]].
    + constructor; auto; intros; try contradiction.
    + intro k. split; [intros []|intros [v [e [[] _]]]].
  - intros P v post [b1 ni1] [b2 ni2] E [H1 [H2 [H3 [H4 [H5 H6]]]]] G. cbn [fst snd] in *.
    assert (NV : ~ In v P) by (rewrite E in NHS; apply (NoDup_mid _ _ _ NHS)).
    destruct (r_split_node_ok b1 ni1 v b2 ni2 H2 H3 G) as [G1 [G2 [G3 [G4 [G5 [G6 G7]]]]]].
    assert (SENT : forall w e i, In w P -> In e (outgoing g w) -> sent S ni2 e i = sent S ni1 e i).
    { intros w e i Hw He. unfold sent. fold g. apply (out_iff g C) in He. destruct He as [He1 He2]. rewrite G5; auto. rewrite He2. intros ->. contradiction. }
    split; [apply (after_step S C b b1 b2 P v NV H1 G1)|]. split; [exact G2|]. split; [exact G3|]. split; [|split].
    + intro k. rewrite G4, H4. split.
      * intros [[w [e [X1 [X2 X3]]]]|[e [X1 X2]]]; [exists w, e; split; [apply in_or_app; auto|auto]|exists v, e; split; [apply in_or_app; right; left; reflexivity|auto]].
      * intros [w [e [X1 [X2 X3]]]]. apply in_app_or in X1. destruct X1 as [X1|[<-|[]]]; [left; eauto|right; eauto].
    + intros w e X1 X2. apply in_app_or in X1. destruct X1 as [X1|[<-|[]]]; [|apply G6, X2].
      destruct (H5 w e X1 X2) as [d [D1 D2]]. exists d. split; [|exact D2]. apply (out_iff g C) in X2. destruct X2 as [X2 X3]. rewrite G5; auto. rewrite X3. intros ->. contradiction.
    + intros w i X. apply in_app_or in X. destruct X as [X|[<-|[]]].
      * destruct (H6 w i X) as [Y1 [Y2 Y3]]. split; [intros Z e I; rewrite (SENT w) by auto; apply Y1; auto|].
        split; [intros Z1 Z2 e I; rewrite (SENT w) by auto; apply Y2; auto|].
        intros Z1 Z2. destruct (Y3 Z1 Z2) as [act [W1 [W0 W2]]]. exists act. split; [exact W1|]. split; [exact W0|]. intros e I. rewrite (SENT w) by auto. apply W2, I.
      * rewrite <- (r_supply_same b b1 P v i H1 NV). apply G7.
Qed.
End Det.
End RSplit.
