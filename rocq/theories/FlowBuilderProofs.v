(** * Proofs about one step of FlowBuilder *)
From Coq Require Import Permutation.
From Verif Require Import Base Spec Arrays PL RC FRC FRCProofs PQ PQProofs PQSpec DynFlow DQProofs DynRun DynEvents
  Graph GraphSpec GraphProofs Dijkstra DijkstraSpec DijkstraProofs DijkstraProofs2 FlowBuilder.

Lemma foldM_inv {A St} (f : St -> A -> res St) (P : list A -> St -> Prop) l s s' :
  P [] s -> (forall pre x post s1 s2, l = pre ++ x :: post -> P pre s1 -> f s1 x = Ok s2 -> P (pre ++ [x]) s2) ->
  foldM f l s = Ok s' -> P l s'.
Proof.
  intros P0 IH. enough (G : forall post pre s1, l = pre ++ post -> P pre s1 -> foldM f post s1 = Ok s' -> P l s') by (apply (G l []); auto).
  induction post as [|x post IHp]; intros pre s1 E Pp F; cbn [foldM] in F.
  - injection F as <-. rewrite app_nil_r in E. subst. exact Pp.
  - apply bind_ok in F. destruct F as [s2 [F1 F2]]. apply (IHp (pre ++ [x]) s2); auto; [rewrite <- app_assoc; exact E|].
    eapply IH; eauto.
Qed.
Lemma NoDup_mid {A} (pre : list A) x post : NoDup (pre ++ x :: post) -> ~ In x pre /\ ~ In x post.
Proof. intro H. apply NoDup_remove_2 in H. split; intro I; apply H, in_or_app; auto. Qed.

(** ** The graph *)
Lemma id_inj g : consistent g -> forall a b, In a (g_edges g) -> In b (g_edges g) -> e_id g a = e_id g b -> a = b.
Proof.
  intros C a b Ha Hb E. destruct (In_nth_error _ _ Ha) as [i Hi]. destruct (In_nth_error _ _ Hb) as [j Hj].
  rewrite (cs_ids g C i a Hi), (cs_ids g C j b Hj) in E. subst j. congruence.
Qed.
Lemma out_iff g : consistent g -> forall v e, In e (outgoing g v) <-> In e (g_edges g) /\ e_from g e = v.
Proof. intros C v e. rewrite (cs_out g C v), filter_In. destruct (Nat.eqb_spec (e_from g e) v); intuition congruence. Qed.
Lemma in_iff g : consistent g -> forall v e, In e (incoming g v) <-> In e (g_edges g) /\ e_to g e = v.
Proof. intros C v e. rewrite (cs_in g C v), filter_In. destruct (Nat.eqb_spec (e_to g e) v); intuition congruence. Qed.
Lemma nd_out g v : consistent g -> NoDup (outgoing g v).
Proof. intro C. rewrite (cs_out g C). apply NoDup_filter, (cs_edges g C). Qed.
Lemma nd_in g v : consistent g -> NoDup (incoming g v).
Proof. intro C. rewrite (cs_in g C). apply NoDup_filter, (cs_edges g C). Qed.

(** ** What any answer of the routing procedures looks like *)
Section Active.
Variables (g : graph) (r : ddresult) (source : nat).
Hypothesis C : consistent g.
Record aei (active touched queue : list nat) : Prop := {
  ai_nd : NoDup active;
  ai_out : forall e, In e active -> In e (outgoing g source);
  ai_to : forall e, In e active -> In (e_to g e) touched /\ ~ In (e_to g e) queue;
  ai_q : NoDup queue; ai_qt : forall v, In v queue -> In v touched }.
Lemma ae_fold_shape w : forall edges active touched queue s', NoDup edges -> (forall e, In e edges -> In e (incoming g w)) ->
  (forall e, In e edges -> ~ In e active) -> In w touched -> ~ In w queue -> aei active touched queue ->
  foldM (ae_edge g r source w) edges (active, touched, queue) = Ok s' ->
  aei (fst (fst s')) (snd (fst s')) (snd s').
Proof.
  induction edges as [|e edges IH]; intros active touched queue s' N I A W Q H F; cbn [foldM] in F; [injection F as <-; exact H|].
  inversion N; subst. apply bind_ok in F. destruct F as [[[a t] q] [F1 F2]].
  assert (Ie : In e (incoming g w)) by (apply I; left; reflexivity). apply (in_iff g C) in Ie. destruct Ie as [Ie Te].
  assert (X : aei a t q /\ In w t /\ ~ In w q /\ forall e', In e' edges -> ~ In e' a).
  { cbn [ae_edge] in F1. destruct (dget (dd_cost r) e) as [c|]; [|injection F1 as <- <- <-; split; [exact H|split; [exact W|split; [exact Q|intros e' Z; apply A; right; exact Z]]]].
    apply bind_ok in F1. destruct F1 as [tv [_ F1]]. apply bind_ok in F1. destruct F1 as [tw [_ F1]].
    destruct (qleb (tv + c) (tw + eps)); [|injection F1 as <- <- <-; split; [exact H|split; [exact W|split; [exact Q|intros e' Z; apply A; right; exact Z]]]].
    set (a1 := if Nat.eqb (e_from g e) source then active ++ [e] else active) in F1.
    assert (Y : aei a1 touched queue /\ forall e', In e' edges -> ~ In e' a1).
    { subst a1. destruct (Nat.eqb_spec (e_from g e) source) as [<-|]; [|split; [exact H|intros e' Z; apply A; right; exact Z]].
      split.
      - destruct H. constructor; auto.
        + apply NoDup_snoc; auto. apply A. left. reflexivity.
        + intros e' Z. apply in_app_or in Z. destruct Z as [Z|[<-|[]]]; auto. apply out_iff; auto.
        + intros e' Z. apply in_app_or in Z. destruct Z as [Z|[<-|[]]]; auto. rewrite Te. auto.
      - intros e' Z Z'. apply in_app_or in Z'. destruct Z' as [Z'|[<-|[]]]; [|contradiction]. apply (A e'); [right; exact Z|exact Z']. }
    destruct Y as [Y1 Y2]. destruct (mem (e_from g e) touched) eqn:M; injection F1 as <- <- <-; [auto|].
    apply mem_false in M. split; [|split; [right; exact W|split; [|exact Y2]]].
    - destruct Y1. constructor; auto.
      + intros e' Z. destruct (ai_to0 e' Z) as [Z1 Z2]. split; [right; exact Z1|]. intros [E|Z3]; [|contradiction]. apply M. rewrite E. exact Z1.
      + constructor; auto.
      + intros u [<-|Z]; [left; reflexivity|right; auto].
    - intros [E|Z]; [|contradiction]. apply M. rewrite E. exact W. }
  destruct X as [X1 [X2 [X3 X4]]]. eapply (IH a t q s'); eauto. intros e' Z. apply I. right. exact Z.
Qed.
Lemma ae_loop_shape : forall fuel active touched queue l, aei active touched queue ->
  ae_loop fuel g r source active touched queue = Ok l -> NoDup l /\ forall e, In e l -> In e (outgoing g source).
Proof.
  induction fuel as [|f IH]; intros active touched queue l H F; destruct queue as [|w q]; cbn [ae_loop] in F; try discriminate;
    try (injection F as <-; destruct H; auto).
  apply bind_ok in F. destruct F as [[[a t] q'] [F1 F2]].
  assert (X : aei a t q').
  { apply (ae_fold_shape w (incoming g w) active touched q (a, t, q') (nd_in g w C)) in F1; auto.
    - intros e Ie Ia. destruct (ai_to _ _ _ H e Ia) as [_ Z]. apply Z. left. symmetry. apply (in_iff g C) in Ie. apply Ie.
    - apply (ai_qt _ _ _ H). left. reflexivity.
    - pose proof (ai_q _ _ _ H) as Z. inversion Z; auto.
    - destruct H. constructor; auto.
      + intros e Z. destruct (ai_to0 e Z) as [Z1 Z2]. split; auto. intro. apply Z2. right. assumption.
      + inversion ai_q0; auto.
      + intros u Z. apply ai_qt0. right. exact Z. }
  apply (IH _ _ _ _ X F2).
Qed.
End Active.

(** A list of routes out of [v]. *)
Definition routes (g : graph) (v : nat) (l : list nat) : Prop :=
  NoDup l /\ l <> [] /\ forall e, In e l -> In e (outgoing g v).
Lemma active_routes g r source sink l : consistent g -> get_active_edges_from_dijkstra g r source sink = Ok l -> routes g source l.
Proof.
  intros C F. unfold get_active_edges_from_dijkstra in F. apply bind_ok in F. destruct F as [a [F1 F2]].
  apply bind_ok in F2. destruct F2 as [u [F2 F3]]. injection F3 as <-. apply assertb_ok in F2.
  destruct (ae_loop_shape g r source C (Datatypes.S (length (g_nodes g))) [] [sink] [sink] a) as [N I]; auto.
  - constructor; [constructor|intros e []|intros e []|repeat constructor; intros []|auto].
  - split; [exact N|]. split; [|exact I]. intros ->. discriminate.
Qed.
Lemma tight_incl g costs dist v : forall l r, tight_edges g costs dist v l = Ok r -> (NoDup l -> NoDup r) /\ forall e, In e r -> In e l.
Proof.
  induction l as [|e l IH]; intros r F; cbn [tight_edges] in F; [injection F as <-; auto|].
  assert (K : forall r', tight_edges g costs dist v l = Ok r' -> (NoDup (e :: l) -> NoDup r') /\ forall x, In x r' -> In x (e :: l)).
  { intros r' F'. destruct (IH r' F') as [A B]. split; [intro N; inversion N; auto|intros; right; auto]. }
  destruct (dget dist (e_to g e)) as [dw|]; [|auto].
  apply bind_ok in F. destruct F as [c [_ F]]. apply bind_ok in F. destruct F as [dv [_ F]]. apply bind_ok in F. destruct F as [rest [F1 F]].
  injection F as <-. destruct (IH rest F1) as [A B]. destruct (qleb (c + dw) (dv + eps)); [|auto]. split.
  - intro N. inversion N; subst. constructor; auto.
  - intros x [->|I]; [left; reflexivity|right; auto].
Qed.

(** ** The cache of routes *)
Definition act_ok (S : setup) (active : list (list (nat * list nat))) : Prop :=
  forall i v l, dget (nth i active []) v = Some l -> routes (s_graph S) v l.
Lemma act_set S active j v l : act_ok S active -> routes (s_graph S) v l -> act_ok S (set_active active j v l).
Proof.
  intros A R i w l' H. unfold set_active in H. rewrite nth_upd in H. destruct (Nat.eqb_spec j i) as [<-|N]; [|eapply A; eauto].
  destruct (j <? length active)%nat; [|discriminate]. rewrite dget_dset in H. destruct (Nat.eqb_spec v w) as [<-|]; [injection H as <-; exact R|eapply A; eauto].
Qed.
Lemma act_share S cs sink ty v l : routes (s_graph S) v l -> forall active, act_ok S active -> act_ok S (share cs sink ty active v l).
Proof.
  intros R. unfold share. generalize (ids_by_sink cs sink). induction l0 as [|j js IH]; intros active A; cbn [fold_left]; auto. apply IH.
  destruct (nth_error cs j) as [c|]; auto. destruct (Nat.eqb (k_pred c) ty); auto. apply act_set; auto.
Qed.
Lemma act_const S c costs dist v active active' : consistent (s_graph S) -> act_ok S active -> const_node S c costs dist active v = Ok active' -> act_ok S active'.
Proof.
  intros C A F. unfold const_node in F. destruct (Nat.eqb v (k_sink c)); [injection F as <-; exact A|].
  apply bind_ok in F. destruct F as [l [F1 F]]. apply bind_ok in F. destruct F as [u [F2 F]]. injection F as <-. apply assertb_ok in F2.
  destruct (tight_incl _ _ _ _ _ _ F1) as [N I]. apply act_share; auto. split; [apply N, nd_out, C|]. split; [intros ->; discriminate|exact I].
Qed.
(** what the two memoised procedures leave unchanged *)
Record same_but_cache (b b' : builder) : Prop := {
  sb_flow : b_flow b' = b_flow b; sb_handle : b_handle b' = b_handle b; sb_next : b_next b' = b_next b;
  sb_route : b_route b' = b_route b; sb_net : b_net b' = b_net b; sb_changes : b_changes b' = b_changes b }.
Lemma sb_refl b : same_but_cache b b. Proof. constructor; reflexivity. Qed.
Lemma get_costs_same S b ty b' costs : get_costs S b ty = Ok (b', costs) -> same_but_cache b b' /\ b_active b' = b_active b.
Proof.
  intro F. unfold get_costs in F. destruct (dget (b_costs b) ty) as [c|]; [injection F as <- <-; split; [apply sb_refl|reflexivity]|].
  apply bind_ok in F. destruct F as [p [_ F]]. apply bind_ok in F. destruct F as [pr [_ F]]. apply bind_ok in F. destruct F as [cs [_ F]].
  injection F as <- <-. split; [constructor; reflexivity|reflexivity].
Qed.
Lemma get_active_ok S b i v b' l : consistent (s_graph S) -> act_ok S (b_active b) -> get_active_edges S b i v = Ok (b', l) ->
  routes (s_graph S) v l /\ act_ok S (b_active b') /\ same_but_cache b b'.
Proof.
  intros C A F. unfold get_active_edges in F. destruct (dget (nth i (b_active b) []) v) as [l0|] eqn:D.
  { injection F as <- <-. split; [eapply A; eauto|]. split; [exact A|apply sb_refl]. }
  apply bind_ok in F. destruct F as [c [_ F]]. apply bind_ok in F. destruct F as [p [_ F]]. apply bind_ok in F. destruct F as [[b1 costs] [G F]].
  destruct (get_costs_same _ _ _ _ _ G) as [SB AE]. destruct (p_const p).
  - apply bind_ok in F. destruct F as [cst [_ F]]. apply bind_ok in F. destruct F as [dist [_ F]].
    apply bind_ok in F. destruct F as [active [F1 F]]. apply bind_ok in F. destruct F as [l1 [F2 F]]. injection F as <- <-.
    assert (AO : act_ok S active).
    { eapply (foldM_inv _ (fun _ a => act_ok S a)) in F1; [exact F1|rewrite AE; exact A|]. intros pre x post s1 s2 _ H1 H2. eapply act_const; eauto. }
    split; [|split; [exact AO|destruct SB; constructor; auto]].
    unfold dfetch in F2. destruct (dget (nth i active []) v) eqn:E2; [|discriminate]. injection F2 as <-. eapply AO; eauto.
  - apply bind_ok in F. destruct F as [r [_ F]]. apply bind_ok in F. destruct F as [l1 [F2 F]]. injection F as <- <-.
    apply active_routes in F2; auto. split; [exact F2|]. split; [|destruct SB; constructor; auto].
    cbn [with_active b_active]. apply act_set; auto. rewrite AE. exact A.
Qed.

(** ** Reading the current rates *)
Definition is_ok {A} (x : res A) : bool := match x with Ok _ => true | Err _ => false end.
(** the answer of [get_values_at_time] *)
Definition got (c : FRC) (t : Qc) : rates := match frc_get c t with Ok (_, d) => d | Err _ => [] end.
(** [outflow[e.id].get_values_at_time(phi)] in builder state [b] *)
Definition out_now (S : setup) (b : builder) (e : nat) : rates :=
  got (nth (e_id (s_graph S) e) (f_out (b_flow b)) frc_empty) (f_phi (b_flow b)).
(** [_net_inflow_by_node[v].get_values_at_time(phi)] *)
Definition net_now (b : builder) (v : nat) : rates :=
  match dget (b_net b) v with Some c => got c (f_phi (b_flow b)) | None => [] end.
(** incoming outflow plus network inflow of commodity [i] at [v] *)
Definition supply (S : setup) (b : builder) (v i : nat) : Qc :=
  fold_right Qcplus 0 (map (fun e => rate (out_now S b e) i) (incoming (s_graph S) v)) + rate (net_now b v) i.

Lemma getn_inv {A} (l : list A) i x d : getn l i = Ok x -> (i < length l)%nat /\ nth i l d = x.
Proof.
  unfold getn. intro H. destruct (i <? length l)%nat eqn:L; destruct (nth_error l i) as [y|] eqn:E; try discriminate; injection H as <-.
  all: split; [apply nth_error_Some; congruence|apply (nth_error_nth l i d E)].
Qed.
(** [b'] is [b] after reading the outflow of some edges at phi *)
Record reads (S : setup) (b b' : builder) (edges : list nat) : Prop := {
  rd_phi : f_phi (b_flow b') = f_phi (b_flow b);
  rd_in : f_in (b_flow b') = f_in (b_flow b); rd_q : f_q (b_flow b') = f_q (b_flow b);
  rd_ch : f_changes (b_flow b') = f_changes (b_flow b); rd_dq : f_dq (b_flow b') = f_dq (b_flow b);
  rd_len : length (f_out (b_flow b')) = length (f_out (b_flow b));
  rd_other : forall k, (forall e, In e edges -> e_id (s_graph S) e <> k) -> nth k (f_out (b_flow b')) frc_empty = nth k (f_out (b_flow b)) frc_empty;
  rd_read : forall e, In e edges -> exists d, frc_get (nth (e_id (s_graph S) e) (f_out (b_flow b)) frc_empty) (f_phi (b_flow b)) =
      Ok (nth (e_id (s_graph S) e) (f_out (b_flow b')) frc_empty, d);
  rd_rest : b_active b' = b_active b /\ b_handle b' = b_handle b /\ b_next b' = b_next b /\ b_route b' = b_route b /\
            b_net b' = b_net b /\ b_changes b' = b_changes b /\ b_costs b' = b_costs b }.
Lemma outflows_ok S b edges b' outs : consistent (s_graph S) -> NoDup edges -> (forall e, In e edges -> In e (g_edges (s_graph S))) ->
  foldM (get_outflow S) edges (b, []) = Ok (b', outs) -> reads S b b' edges /\ outs = map (out_now S b) edges.
Proof.
  intros C N I F. apply (foldM_inv _ (fun pre st => reads S b (fst st) pre /\ snd st = map (out_now S b) pre)) in F; [exact F| |].
  { split; [|reflexivity]. constructor; cbn [fst]; auto; [intros e []|]. repeat split. }
  intros pre x post [b1 acc] s2 E [R A] G. cbn [fst snd] in R, A. subst acc. unfold get_outflow in G.
  apply bind_ok in G. destruct G as [c [G1 G]]. apply bind_ok in G. destruct G as [[c' d] [G2 G]]. injection G as <-. cbn [fst snd].
  destruct (getn_inv _ _ _ frc_empty G1) as [L NC]. subst edges. destruct (NoDup_mid _ _ _ N) as [N1 N2].
  assert (OT : forall e, In e pre -> e_id (s_graph S) e <> e_id (s_graph S) x).
  { intros e Ie Eq. apply N1. rewrite <- (id_inj _ C e x); auto; [apply I, in_or_app; auto|apply I, in_or_app; right; left; reflexivity]. }
  destruct R. assert (NX : nth (e_id (s_graph S) x) (f_out (b_flow b1)) frc_empty = nth (e_id (s_graph S) x) (f_out (b_flow b)) frc_empty) by (apply rd_other0; exact OT).
  split.
  - constructor; cbn [with_flow set_out b_flow f_phi f_in f_q f_changes f_dq f_out]; auto.
    + rewrite upd_length. exact rd_len0.
    + intros k Hk. rewrite nth_upd_other; [|apply Hk, in_or_app; right; left; reflexivity]. apply rd_other0. intros e Ie. apply Hk, in_or_app. auto.
    + intros e Ie. apply in_app_or in Ie. destruct Ie as [Ie|[<-|[]]].
      * rewrite nth_upd_other by (intro Q; apply (OT e Ie); auto). apply rd_read0. exact Ie.
      * rewrite nth_upd_same by exact L. exists d. rewrite <- NX, <- rd_phi0, NC. exact G2.
  - rewrite map_app. cbn [map]. unfold out_now at 3, got. rewrite <- NX, <- rd_phi0, NC, G2. reflexivity.
Qed.
Lemma node_inflow_eq S b v net i : node_inflow i (map (out_now S b) (incoming (s_graph S) v)) net =
  fold_right Qcplus 0 (map (fun e => rate (out_now S b e) i) (incoming (s_graph S) v)) + rate net i.
Proof.
  unfold node_inflow. assert (E : forall l a, fold_left (fun acc d => match dget d i with Some x => acc + x | None => acc end) (map (out_now S b) l) a =
    a + fold_right Qcplus 0 (map (fun e => rate (out_now S b e) i) l)).
  { induction l as [|e l IH]; intro a; cbn [map fold_left fold_right]; [ring|]. rewrite IH.
    destruct (dget (out_now S b e) i) as [x|] eqn:D; [replace (rate (out_now S b e) i) with x by (unfold rate; rewrite D; reflexivity)|replace (rate (out_now S b e) i) with 0 by (unfold rate; rewrite D; reflexivity)]; ring. }
  rewrite E. destruct (dget net i) as [x|] eqn:D; [replace (rate net i) with x by (unfold rate; rewrite D; reflexivity)|replace (rate net i) with 0 by (unfold rate; rewrite D; reflexivity)]; ring.
Qed.

(** ** Splitting the inflow of one node *)
(** rate of commodity [i] assigned to edge [e] by [new_inflow] *)
Definition sent (S : setup) (ni : list (nat * rates)) (e i : nat) : option Qc :=
  match dget ni (e_id (s_graph S) e) with Some d => dget d i | None => None end.
Definition sinks_at (S : setup) (v i : nat) : Prop := exists c, nth_error (s_coms S) i = Some c /\ k_sink c = v.
(** the assignment of commodity [i] at node [v] *)
Definition split_ok (S : setup) (v i : nat) (x : Qc) (f : nat -> option Qc) : Prop :=
  (sinks_at S v i -> forall e, In e (outgoing (s_graph S) v) -> f e = None) /\
  (~ sinks_at S v i -> x < eps -> forall e, In e (outgoing (s_graph S) v) -> f e = None) /\
  (~ sinks_at S v i -> eps <= x -> exists act, routes (s_graph S) v act /\
     forall e, In e (outgoing (s_graph S) v) -> f e = if mem e act then Some (x / qn (length act)) else None).

Lemma enum_nth {A} (l : list A) i x : In (i, x) (enum l) <-> nth_error l i = Some x.
Proof.
  unfold enum. assert (G : forall k, In (i, x) (combine (seq k (length l)) l) <-> (k <= i)%nat /\ nth_error l (i - k) = Some x).
  { induction l as [|y l IH]; intro k; cbn [length seq combine].
    - split; [intros []|]. intros [_ H]. destruct (i - k)%nat; discriminate.
    - cbn [In]. rewrite IH. split.
      + intros [Q|[H1 H2]]; [injection Q as -> ->; split; [lia|]; rewrite Nat.sub_diag; reflexivity|].
        split; [lia|]. replace (i - k)%nat with (Datatypes.S (i - Datatypes.S k)) by lia. exact H2.
      + intros [H1 H2]. destruct (Nat.eq_dec k i) as [->|Nk]; [left; rewrite Nat.sub_diag in H2; cbn in H2; congruence|].
        right. split; [lia|]. replace (i - k)%nat with (Datatypes.S (i - Datatypes.S k)) in H2 by lia. exact H2. }
  rewrite G. rewrite Nat.sub_0_r. split; [intros [_ H]; exact H|intro H; split; [lia|exact H]].
Qed.
Lemma ids_by_sink_iff S v i : In i (ids_by_sink (s_coms S) v) <-> sinks_at S v i.
Proof.
  unfold ids_by_sink, sinks_at. rewrite in_map_iff. split.
  - intros [[j c] [<- H]]. apply filter_In in H. cbn [fst snd] in *. destruct H as [H1 H2]. apply Nat.eqb_eq in H2. apply enum_nth in H1. eauto.
  - intros [c [H1 H2]]. exists (i, c). split; [reflexivity|]. apply filter_In. split; [apply enum_nth; exact H1|apply Nat.eqb_eq; exact H2].
Qed.
Lemma uniq_In x l : In x (uniq l) <-> In x l.
Proof.
  induction l as [|y l IH]; cbn [uniq]; [reflexivity|]. destruct (mem y l) eqn:M.
  - rewrite IH. apply memP in M. cbn [In]. split; [auto|]. intros [->|H]; auto.
  - cbn [In]. rewrite IH. reflexivity.
Qed.
Lemma uniq_nd l : NoDup (uniq l).
Proof. induction l as [|y l IH]; cbn [uniq]; [constructor|]. destruct (mem y l) eqn:M; auto. constructor; auto. rewrite uniq_In. apply mem_false, M. Qed.
Lemma qn_pos n : (0 < n)%nat -> 0 < qn n.
Proof.
  intro H. unfold qn. apply qpull_lt with (p := 0%Q) (q := inject_Z (Z.of_nat n)); [reflexivity|apply qpush_const|].
  change 0%Q with (inject_Z 0). rewrite <- Zlt_Qlt. lia.
Qed.
Lemma routes_len g v l : routes g v l -> (0 < length l)%nat.
Proof. intros [_ [H _]]. destruct l; [congruence|cbn; lia]. Qed.

(** the inner loop over the active edges *)
Lemma put_ok S v i d : consistent (s_graph S) -> forall act ni ni', (forall e, In e act -> In e (outgoing (s_graph S) v)) ->
  foldM (fun (ni : list (nat * rates)) e => row <- dfetch ni (e_id (s_graph S) e) ;; Ok (dset ni (e_id (s_graph S) e) (dset row i d))) act ni = Ok ni' ->
  map fst ni' = map fst ni /\
  (forall k, (forall e, In e act -> e_id (s_graph S) e <> k) -> dget ni' k = dget ni k) /\
  (forall k row, dget ni k = Some row -> exists row', dget ni' k = Some row' /\ (forall j, j <> i -> dget row' j = dget row j) /\
     (forall e, In e act -> e_id (s_graph S) e = k -> dget row' i = Some d) /\ (is_dict row -> is_dict row') /\
     ((forall j x, dget row j = Some x -> 0 < x) -> 0 < d -> forall j x, dget row' j = Some x -> 0 < x)).
Proof.
  intros C act. induction act as [|e act IH]; intros ni ni' I F; cbn [foldM] in F.
  { injection F as <-. split; [reflexivity|]. split; [auto|]. intros k row D. exists row. split; auto. split; auto. split; [intros e []|]. auto. }
  apply bind_ok in F. destruct F as [ni1 [F1 F]]. apply bind_ok in F1. destruct F1 as [row [F1 F2]]. injection F2 as <-.
  unfold dfetch in F1. destruct (dget ni (e_id (s_graph S) e)) as [row0|] eqn:D0; [|discriminate]. injection F1 as ->.
  destruct (IH _ _ (fun x H => I x (or_intror H)) F) as [A [B D]]. split; [|split].
  - rewrite A. apply dset_keys. apply dhas_In. unfold dhas. rewrite D0. reflexivity.
  - intros k H. rewrite B by (intros x Hx; apply H; right; exact Hx). rewrite dget_dset.
    destruct (Nat.eqb_spec (e_id (s_graph S) e) k) as [Q|]; [|reflexivity]. exfalso. apply (H e); [left; reflexivity|exact Q].
  - intros k r D1. destruct (Nat.eq_dec (e_id (s_graph S) e) k) as [Q|Q].
    + subst k. rewrite D0 in D1. injection D1 as ->.
      destruct (D (e_id (s_graph S) e) (dset r i d)) as [r' [R1 [R2 [R3 [R4 R5]]]]]; [rewrite dget_dset, Nat.eqb_refl; reflexivity|].
      assert (RI : dget r' i = Some d \/ exists e', In e' act /\ e_id (s_graph S) e' = e_id (s_graph S) e).
      { destruct (existsb (fun e' => Nat.eqb (e_id (s_graph S) e') (e_id (s_graph S) e)) act) eqn:X.
        - apply existsb_exists in X. destruct X as [e' [X1 X2]]. apply Nat.eqb_eq in X2. eauto.
        - left. rewrite B in R1; [|]. 2:{ intros x Hx Q. assert (existsb (fun e' => Nat.eqb (e_id (s_graph S) e') (e_id (s_graph S) e)) act = true) by (apply existsb_exists; exists x; split; [exact Hx|apply Nat.eqb_eq, Q]). congruence. }
          rewrite dget_dset, Nat.eqb_refl in R1. injection R1 as <-. rewrite dget_dset, Nat.eqb_refl. reflexivity. }
      exists r'. split; [exact R1|]. split; [|split; [|split]].
      * intros j Nj. rewrite R2 by exact Nj. rewrite dget_dset. destruct (Nat.eqb_spec i j); [congruence|reflexivity].
      * intros e' _ _. destruct RI as [RI|[e2 [X1 X2]]]; [exact RI|]. apply (R3 e2); auto.
      * intro Z. apply R4. unfold is_dict. apply dset_nd. exact Z.
      * intros Z1 Z2. apply R5; auto. intros j x Hx. rewrite dget_dset in Hx. destruct (Nat.eqb_spec i j); [injection Hx as <-; exact Z2|eauto].
    + destruct (D k r) as [r' [R1 [R2 [R3 [R4 R5]]]]]; [rewrite dget_dset; destruct (Nat.eqb_spec (e_id (s_graph S) e) k); congruence|].
      exists r'. split; [exact R1|]. split; [exact R2|]. split; [|split; [exact R4|exact R5]].
      intros e' [<-|Ie] Q'; [congruence|]. apply (R3 e'); auto.
Qed.

(** ** One node *)
Lemma fresh_rows g : forall l (ni : list (nat * rates)),
  (forall k, dget (fold_left (fun d e => dset d (e_id g e) []) l ni) k = if existsb (fun e => Nat.eqb (e_id g e) k) l then Some [] else dget ni k) /\
  (NoDup (map fst ni) -> NoDup (map fst (fold_left (fun d e => dset d (e_id g e) []) l ni))).
Proof.
  induction l as [|e l IH]; intro ni; cbn [fold_left existsb]; [auto|]. destruct (IH (dset ni (e_id g e) [])) as [A B]. split.
  - intro k. rewrite A, dget_dset. destruct (existsb (fun e0 => Nat.eqb (e_id g e0) k) l), (Nat.eqb (e_id g e) k); reflexivity.
  - intro N. apply B, dset_nd, N.
Qed.
Lemma out_ids g v e : consistent g -> In e (g_edges g) -> existsb (fun x => Nat.eqb (e_id g x) (e_id g e)) (outgoing g v) = Nat.eqb (e_from g e) v.
Proof.
  intros C I. destruct (Nat.eqb_spec (e_from g e) v) as [E|N].
  - apply existsb_exists. exists e. split; [apply out_iff; auto|apply Nat.eqb_refl].
  - destruct (existsb (fun x => Nat.eqb (e_id g x) (e_id g e)) (outgoing g v)) eqn:X; [|reflexivity]. apply existsb_exists in X.
    destruct X as [x [X1 X2]]. apply Nat.eqb_eq in X2. apply (out_iff g C) in X1. destruct X1 as [X1 X3]. exfalso. apply N. rewrite <- (id_inj g C x e X1 I X2). exact X3.
Qed.
Definition good_row (d : rates) : Prop := is_dict d /\ forall j x, dget d j = Some x -> 0 < x.

Section Det.
Variable S : setup.
Let g := s_graph S.
Hypothesis C : consistent g.
Hypothesis ORD : forall l, Permutation (su_ord S l) l.

(** [b'] is [b] after [_determine_new_inflow] has handled the nodes [P]. *)
Record after (b b' : builder) (P : list nat) : Prop := {
  af_phi : f_phi (b_flow b') = f_phi (b_flow b);
  af_in : f_in (b_flow b') = f_in (b_flow b); af_q : f_q (b_flow b') = f_q (b_flow b);
  af_ch : f_changes (b_flow b') = f_changes (b_flow b); af_dq : f_dq (b_flow b') = f_dq (b_flow b);
  af_len : length (f_out (b_flow b')) = length (f_out (b_flow b));
  af_other : forall k, (forall e, In e (g_edges g) -> In (e_to g e) P -> e_id g e <> k) -> nth k (f_out (b_flow b')) frc_empty = nth k (f_out (b_flow b)) frc_empty;
  af_read : forall e, In e (g_edges g) -> In (e_to g e) P -> exists d, frc_get (nth (e_id g e) (f_out (b_flow b)) frc_empty) (f_phi (b_flow b)) = Ok (nth (e_id g e) (f_out (b_flow b')) frc_empty, d);
  af_keys : map fst (b_net b') = map fst (b_net b);
  af_net : forall v, ~ In v P -> dget (b_net b') v = dget (b_net b) v;
  af_netr : forall v, In v P -> exists c c' d, dget (b_net b) v = Some c /\ frc_get c (f_phi (b_flow b)) = Ok (c', d) /\ dget (b_net b') v = Some c';
  af_rest : b_handle b' = b_handle b /\ b_next b' = b_next b /\ b_route b' = b_route b /\ b_changes b' = b_changes b }.

Lemma split_node_ok b ni v b' ni' : act_ok S (b_active b) -> NoDup (map fst ni) -> split_node S (b, ni) v = Ok (b', ni') ->
  after b b' [v] /\ act_ok S (b_active b') /\ NoDup (map fst ni') /\
  (forall k, In k (map fst ni') <-> In k (map fst ni) \/ exists e, In e (outgoing g v) /\ e_id g e = k) /\
  (forall e, In e (g_edges g) -> e_from g e <> v -> dget ni' (e_id g e) = dget ni (e_id g e)) /\
  (forall e, In e (outgoing g v) -> exists d, dget ni' (e_id g e) = Some d /\ good_row d) /\
  (forall i, split_ok S v i (supply S b v i) (fun e => sent S ni' e i)).
Proof.
  intros A N F. unfold split_node in F. fold g in F. set (ni1 := fold_left (fun d e => dset d (e_id g e) []) (outgoing g v) ni) in F.
  destruct (fresh_rows g (outgoing g v) ni) as [FR FN]. fold ni1 in FR, FN. specialize (FN N).
  apply bind_ok in F. destruct F as [[b1 outs] [F1 F]].
  destruct (outflows_ok S b (incoming g v) b1 outs C (nd_in g v C)) as [RD OU]; [intros e I; apply (in_iff g C) in I; apply I|exact F1|].
  apply bind_ok in F. destruct F as [c [F2 F]]. apply bind_ok in F. destruct F as [[c' net] [F3 F]].
  unfold dfetch in F2. destruct (dget (b_net b1) v) as [c0|] eqn:D; [|discriminate]. injection F2 as ->.
  set (b2 := with_net b1 (dset (b_net b1) v c')) in F.
  set (used := filter (fun i => negb (mem i (ids_by_sink (s_coms S) v))) (uniq (concat (map (map fst) outs) ++ map fst net))) in F.
  destruct (rd_rest _ _ _ _ RD) as [RA [RH [RN [RR [RNe [RCh RC0]]]]]].
  assert (NN : net = net_now b v). { unfold net_now. rewrite <- RNe, D. unfold got. rewrite <- (rd_phi _ _ _ _ RD), F3. reflexivity. }
  assert (SU : forall i, node_inflow i outs net = supply S b v i).
  { intro i. rewrite OU, node_inflow_eq. unfold supply. rewrite NN. reflexivity. }
  assert (UN : NoDup (su_ord S used)). { eapply Permutation_NoDup; [apply Permutation_sym, ORD|]. apply NoDup_filter, uniq_nd. }
  assert (UI : forall i, In i (su_ord S used) <-> ~ sinks_at S v i /\ In i (concat (map (map fst) outs) ++ map fst net)).
  { intro i. split.
    - intro H. apply (Permutation_in i (ORD used)) in H. apply filter_In in H. destruct H as [H1 H2]. rewrite uniq_In in H1. split; [|exact H1].
      apply negb_true_iff, mem_false in H2. rewrite ids_by_sink_iff in H2. exact H2.
    - intros [H1 H2]. apply (Permutation_in i (Permutation_sym (ORD used))). apply filter_In. split; [apply uniq_In, H2|].
      apply negb_true_iff, mem_false. rewrite ids_by_sink_iff. exact H1. }
  assert (ZU : forall i, ~ In i (concat (map (map fst) outs) ++ map fst net) -> supply S b v i = 0).
  { intros i H. rewrite <- SU. unfold node_inflow. assert (Z1 : dget net i = None) by (apply dget_None; intro; apply H, in_or_app; auto). rewrite Z1.
    assert (G : forall l, (forall d, In d l -> dget d i = None) -> forall a, fold_left (fun acc d => match dget d i with Some x => acc + x | None => acc end) l a = a).
    { induction l as [|d l IH]; intros HH a; cbn [fold_left]; [reflexivity|]. rewrite (HH d) by (left; reflexivity). apply IH. intros; apply HH; right; assumption. }
    apply G. intros d Hd. apply dget_None. intro X. apply H, in_or_app. left. apply in_concat. exists (map fst d). split; [apply in_map, Hd|exact X]. }
  assert (ACT2 : act_ok S (b_active b2)) by (cbn [b2 with_net b_active]; rewrite RA; exact A).
  apply (foldM_inv _ (fun pre (st : builder * list (nat * rates)) => same_but_cache b2 (fst st) /\ act_ok S (b_active (fst st)) /\ map fst (snd st) = map fst ni1 /\
     (forall k, (forall e, In e (outgoing g v) -> e_id g e <> k) -> dget (snd st) k = dget ni1 k) /\
     (forall e, In e (outgoing g v) -> exists d, dget (snd st) (e_id g e) = Some d /\ good_row d /\ forall j, ~ In j pre -> dget d j = None) /\
     (forall i, In i pre -> split_ok S v i (supply S b v i) (fun e => sent S (snd st) e i)))) in F.
  - cbn [fst snd] in F. destruct F as [SB [A' [K [OT [RW SP]]]]].
    split; [|split; [exact A'|split; [rewrite K; exact FN|split; [|split; [|split]]]]].
    + destruct SB, RD. constructor; rewrite ?sb_flow0, ?sb_next0, ?sb_handle0, ?sb_route0, ?sb_changes0, ?sb_net0; cbn [b2 with_net b_flow b_handle b_next b_route b_changes b_net]; auto.
      * intros k Hk. apply rd_other0. intros e I. apply (in_iff g C) in I. apply Hk; [apply I|left; symmetry; apply I].
      * intros e I [E|[]]. apply rd_read0. apply in_iff; auto.
      * rewrite dset_keys; [rewrite RNe; reflexivity|]. apply dhas_In. unfold dhas. rewrite D. reflexivity.
      * intros w Hw. rewrite dget_dset. destruct (Nat.eqb_spec v w) as [<-|]; [exfalso; apply Hw; left; reflexivity|rewrite RNe; reflexivity].
      * intros w [<-|[]]. exists c, c', net. rewrite <- RNe, <- rd_phi0. split; [exact D|]. split; [exact F3|]. rewrite dget_dset, Nat.eqb_refl. reflexivity.
    + intro k. rewrite K. rewrite <- !dhas_In. unfold dhas. rewrite FR. destruct (existsb (fun e => Nat.eqb (e_id g e) k) (outgoing g v)) eqn:X.
      * apply existsb_exists in X. destruct X as [e [X1 X2]]. apply Nat.eqb_eq in X2. split; [right; eauto|reflexivity].
      * split; [auto|]. intros [H|[e [H1 H2]]]; [exact H|]. exfalso. assert (existsb (fun e => Nat.eqb (e_id g e) k) (outgoing g v) = true) by (apply existsb_exists; exists e; split; [exact H1|apply Nat.eqb_eq, H2]). congruence.
    + intros e I NE. rewrite OT. * rewrite FR, (out_ids g v e C I). destruct (Nat.eqb_spec (e_from g e) v); congruence.
      * intros e' I' Q. apply (out_iff g C) in I'. destruct I' as [I1 I2]. apply NE. rewrite <- (id_inj g C e' e I1 I Q). exact I2.
    + intros e I. destruct (RW e I) as [d [R1 [R2 _]]]. eauto.
    + intro i. destruct (in_dec Nat.eq_dec i (su_ord S used)) as [H|H]; [apply SP, H|].
      assert (NO : forall e, In e (outgoing g v) -> sent S ni' e i = None).
      { intros e I. destruct (RW e I) as [d [R1 [_ R2]]]. unfold sent. fold g. rewrite R1. apply R2, H. }
      split; [intros _; exact NO|]. split; [intros _ _; exact NO|]. intros NS L. exfalso.
      assert (~ In i (concat (map (map fst) outs) ++ map fst net)) by (intro X; apply H, UI; auto). rewrite (ZU i H0) in L. pose proof eps_pos. qlra.
  - cbn [fst snd]. split; [apply sb_refl|]. split; [exact ACT2|]. split; [reflexivity|]. split; [reflexivity|]. split; [|intros i []].
    intros e I. exists []. rewrite FR. assert (X : existsb (fun x => Nat.eqb (e_id g x) (e_id g e)) (outgoing g v) = true) by (apply existsb_exists; exists e; split; [exact I|apply Nat.eqb_refl]).
    rewrite X. split; [reflexivity|]. split; [|reflexivity]. split; [constructor|intros j x Q; discriminate].
  - intros pre i post [b3 ni3] [b4 ni4] E [SB [A3 [K3 [OT3 [RW3 SP3]]]]] G. cbn [fst snd] in *.
    assert (NI : ~ In i pre) by (rewrite E in UN; apply (NoDup_mid _ _ _ UN)).
    assert (NS : ~ sinks_at S v i) by (apply UI; rewrite E; apply in_or_app; right; left; reflexivity).
    unfold assign in G. rewrite SU in G. destruct (qltbP (supply S b v i) eps) as [LT|GE].
    + injection G as <- <-. split; [exact SB|]. split; [exact A3|]. split; [exact K3|]. split; [exact OT3|]. split.
      * intros e I. destruct (RW3 e I) as [d [R1 [R2 R3]]]. exists d. split; [exact R1|]. split; [exact R2|]. intros j Hj. apply R3. intro; apply Hj, in_or_app; auto.
      * intros j Hj. apply in_app_or in Hj. destruct Hj as [Hj|[<-|[]]]; [apply SP3, Hj|].
        assert (NO : forall e, In e (outgoing g v) -> sent S ni3 e i = None).
        { intros e I. destruct (RW3 e I) as [d [R1 [_ R2]]]. unfold sent. fold g. rewrite R1. apply R2, NI. }
        split; [intros _; exact NO|]. split; [intros _ _; exact NO|]. intros _ L. exfalso. qlra.
    + apply Qcnlt_le in GE. apply bind_ok in G. destruct G as [[b5 act] [G1 G]]. apply bind_ok in G. destruct G as [d [G2 G]].
      apply bind_ok in G. destruct G as [ni5 [G3 G]]. injection G as <- <-.
      destruct (get_active_ok S b3 i v b5 act C A3 G1) as [RT [A5 SB5]].
      pose proof (qn_pos _ (routes_len _ _ _ RT)) as QP. rewrite pydiv_ok in G2 by (intro Z; rewrite Z in QP; qlra). apply ok_inj in G2. subst d.
      destruct RT as [T1 [T2 T3]].
      destruct (put_ok S v i (supply S b v i / qn (length act)) C act ni3 ni5 T3 G3) as [P1 [P2 P3]]. fold g in P2, P3.
      assert (DP : 0 < supply S b v i / qn (length act)) by (apply qdiv_pos; [pose proof eps_pos; qlra|exact QP]).
      split; [destruct SB, SB5; constructor; congruence|]. split; [exact A5|]. split; [congruence|]. split; [|split].
      * intros k Hk. rewrite P2; [apply OT3, Hk|]. intros e I. apply Hk, T3, I.
      * intros e I. destruct (RW3 e I) as [d0 [R1 [[R2 R2'] R3]]]. destruct (P3 _ _ R1) as [d1 [Q1 [Q2 [Q3 [Q4 Q5]]]]].
        exists d1. split; [exact Q1|]. split; [split; [apply Q4, R2|apply Q5; auto]|]. intros j Hj.
        rewrite Q2; [apply R3; intro; apply Hj, in_or_app; auto|]. intros ->. apply Hj, in_or_app. right. left. reflexivity.
      * intros j Hj. apply in_app_or in Hj. destruct Hj as [Hj|[<-|[]]].
        -- assert (EQ : forall e, In e (outgoing g v) -> sent S ni5 e j = sent S ni3 e j).
           { intros e I. destruct (RW3 e I) as [d0 [R1 _]]. destruct (P3 _ _ R1) as [d1 [Q1 [Q2 _]]]. unfold sent. fold g. rewrite Q1, R1. apply Q2. intros ->. contradiction. }
           destruct (SP3 j Hj) as [X1 [X2 X3]]. split; [intros Z e I; rewrite EQ by exact I; apply X1; auto|].
           split; [intros Z1 Z2 e I; rewrite EQ by exact I; apply X2; auto|].
           intros Z1 Z2. destruct (X3 Z1 Z2) as [act' [Y1 Y2]]. exists act'. split; [exact Y1|]. intros e I. rewrite EQ by exact I. apply Y2, I.
        -- split; [intro; contradiction|]. split; [intros _ L; exfalso; qlra|]. intros _ _. exists act. split; [split; [exact T1|split; [exact T2|exact T3]]|].
           intros e I. destruct (RW3 e I) as [d0 [R1 [_ R3]]]. destruct (P3 _ _ R1) as [d1 [Q1 [Q2 [Q3 [Q4 Q5]]]]]. unfold sent. fold g. rewrite Q1.
           destruct (mem e act) eqn:M; [apply memP in M; apply (Q3 e M eq_refl)|]. apply mem_false in M.
           assert (DD : dget ni5 (e_id g e) = dget ni3 (e_id g e)).
           { apply P2. intros e' I' Q. apply M. pose proof (T3 e' I') as I2. apply (out_iff g C) in I2. destruct I2 as [I2 I3]. apply (out_iff g C) in I. destruct I as [I _].
             rewrite <- (id_inj g C e' e I2 I Q). exact I'. }
           rewrite DD, R1 in Q1. injection Q1 as <-. apply R3, NI.
Qed.

Lemma supply_same b b' P v i : after b b' P -> ~ In v P -> supply S b' v i = supply S b v i.
Proof.
  intros A NV. unfold supply. fold g. f_equal.
  - f_equal. apply map_ext_in. intros e I. apply (in_iff g C) in I. destruct I as [I T]. unfold out_now. fold g. rewrite (af_phi _ _ _ A). f_equal. f_equal.
    apply (af_other _ _ _ A). intros e' I' P' Q. apply NV. rewrite <- T. rewrite <- (id_inj g C e' e I' I Q). exact P'.
  - unfold net_now. rewrite (af_net _ _ _ A v NV), (af_phi _ _ _ A). reflexivity.
Qed.
Lemma after_step b b1 b2 P v : ~ In v P -> after b b1 P -> after b1 b2 [v] -> after b b2 (P ++ [v]).
Proof.
  intros NV A B. destruct A, B. constructor; try congruence.
  - intros k Hk. rewrite af_other1, af_other0; auto; intros e I H; apply Hk; auto; apply in_or_app; auto.
  - intros e I H. apply in_app_or in H. destruct H as [H|[TE|[]]].
    + rewrite af_other1; [apply af_read0; auto|]. intros e' I' [Q|[]] Q'. apply NV. rewrite Q. rewrite (id_inj g C e' e I' I Q'). exact H.
    + destruct (af_read1 e I) as [d H]; [left; exact TE|]. exists d. rewrite af_phi0 in H. rewrite af_other0 in H; [exact H|].
      intros e' I' P' Q. apply NV. rewrite TE. rewrite <- (id_inj g C e' e I' I Q). exact P'.
  - intros w Hw. rewrite af_net1, af_net0; auto; intro; apply Hw, in_or_app; auto.
  - intros w Hw. apply in_app_or in Hw. destruct Hw as [Hw|[<-|[]]].
    + rewrite af_net1; [apply af_netr0, Hw|]. intros [<-|[]]. contradiction.
    + rewrite <- (af_net0 v NV), <- af_phi0. apply af_netr1. left. reflexivity.
  - intuition congruence.
Qed.

Lemma determine_ok b b' ni : act_ok S (b_active b) -> NoDup (b_handle b) -> determine_new_inflow S b = Ok (b', ni) ->
  after b b' (b_handle b) /\ act_ok S (b_active b') /\ NoDup (map fst ni) /\
  (forall k, In k (map fst ni) <-> exists v e, In v (b_handle b) /\ In e (outgoing g v) /\ e_id g e = k) /\
  (forall k d, In (k, d) ni -> is_snapshot d) /\
  (forall v i, In v (b_handle b) -> split_ok S v i (supply S b v i) (fun e => sent S ni e i)).
Proof.
  intros A NH F. unfold determine_new_inflow in F.
  set (hs := su_ord S (b_handle b)) in F. assert (PM : Permutation hs (b_handle b)) by apply ORD.
  assert (NHS : NoDup hs) by (eapply Permutation_NoDup; [apply Permutation_sym, PM|exact NH]).
  apply (foldM_inv _ (fun P (st : builder * list (nat * rates)) => after b (fst st) P /\ act_ok S (b_active (fst st)) /\ NoDup (map fst (snd st)) /\
    (forall k, In k (map fst (snd st)) <-> exists v e, In v P /\ In e (outgoing g v) /\ e_id g e = k) /\
    (forall v e, In v P -> In e (outgoing g v) -> exists d, dget (snd st) (e_id g e) = Some d /\ good_row d) /\
    (forall v i, In v P -> split_ok S v i (supply S b v i) (fun e => sent S (snd st) e i)))) in F.
  - cbn [fst snd] in F. destruct F as [F1 [F2 [F3 [F4 [F5 F6]]]]].
    assert (IFF : forall v, In v hs <-> In v (b_handle b)) by (intro v; split; apply Permutation_in; [exact PM|apply Permutation_sym, PM]).
    split; [|split; [exact F2|split; [exact F3|split; [|split]]]].
    + destruct F1. constructor; auto.
      * intros k Hk. apply af_other0. intros e I H. apply Hk; auto. apply IFF, H.
      * intros e I H. apply af_read0; auto. apply IFF, H.
      * intros v Hv. apply af_net0. intro. apply Hv, IFF. assumption.
      * intros v Hv. apply af_netr0, IFF, Hv.
    + intro k. rewrite F4. split; intros [v [e [H1 H2]]]; exists v, e; (split; [apply IFF, H1|exact H2]).
    + intros k d I. assert (DG : dget ni k = Some d) by (apply In_dget; auto).
      destruct (proj1 (F4 k)) as [v [e [H1 [H2 H3]]]]; [apply in_map_iff; exists (k, d); auto|].
      destruct (F5 v e H1 H2) as [d' [D1 [D2 D3]]]. rewrite H3, DG in D1. injection D1 as <-. split; [exact D2|].
      intros j x Hx. apply (D3 j). apply In_dget; auto.
    + intros v i Hv. apply F6, IFF, Hv.
  - cbn [fst snd]. split; [|split; [exact A|split; [constructor|split; [|split; [intros v e []|intros v i []]]]]].
    + constructor; auto; intros; try contradiction.
    + intro k. split; [intros []|intros [v [e [[] _]]]].
  - intros P v post [b1 ni1] [b2 ni2] E [H1 [H2 [H3 [H4 [H5 H6]]]]] G. cbn [fst snd] in *.
    assert (NV : ~ In v P) by (rewrite E in NHS; apply (NoDup_mid _ _ _ NHS)).
    destruct (split_node_ok b1 ni1 v b2 ni2 H2 H3 G) as [G1 [G2 [G3 [G4 [G5 [G6 G7]]]]]].
    assert (SENT : forall w e i, In w P -> In e (outgoing g w) -> sent S ni2 e i = sent S ni1 e i).
    { intros w e i Hw He. unfold sent. fold g. apply (out_iff g C) in He. destruct He as [He1 He2]. rewrite G5; auto. rewrite He2. intros ->. contradiction. }
    split; [apply (after_step b b1 b2 P v NV H1 G1)|]. split; [exact G2|]. split; [exact G3|]. split; [|split].
    + intro k. rewrite G4, H4. split.
      * intros [[w [e [X1 [X2 X3]]]]|[e [X1 X2]]]; [exists w, e; split; [apply in_or_app; auto|auto]|exists v, e; split; [apply in_or_app; right; left; reflexivity|auto]].
      * intros [w [e [X1 [X2 X3]]]]. apply in_app_or in X1. destruct X1 as [X1|[<-|[]]]; [left; eauto|right; eauto].
    + intros w e X1 X2. apply in_app_or in X1. destruct X1 as [X1|[<-|[]]]; [|apply G6, X2].
      destruct (H5 w e X1 X2) as [d [D1 D2]]. exists d. split; [|exact D2]. apply (out_iff g C) in X2. destruct X2 as [X2 X3]. rewrite G5; auto. rewrite X3. intros ->. contradiction.
    + intros w i X. apply in_app_or in X. destruct X as [X|[<-|[]]].
      * destruct (H6 w i X) as [Y1 [Y2 Y3]]. split; [intros Z e I; rewrite (SENT w) by auto; apply Y1; auto|].
        split; [intros Z1 Z2 e I; rewrite (SENT w) by auto; apply Y2; auto|].
        intros Z1 Z2. destruct (Y3 Z1 Z2) as [act [W1 W2]]. exists act. split; [exact W1|]. intros e I. rewrite (SENT w) by auto. apply W2, I.
      * rewrite <- (supply_same b b1 P v i H1 NV). apply G7.
Qed.
End Det.
