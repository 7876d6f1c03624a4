(** * FlowBuilder: one round of the loop, clock and schedule *)
From Coq Require Import Permutation.
From Verif Require Import Base Spec Arrays PL RC FRC FRCProofs PQ PQProofs PQSpec DynFlow DQProofs DynRun DynEvents
  Graph GraphSpec GraphProofs Dijkstra DijkstraSpec DijkstraProofs DijkstraProofs2 FlowBuilder FlowBuilderProofs.

(** A well-formed input with reroute interval [r]. *)
Record setup_ok (S : setup) (r : Qc) : Prop := {
  so_graph : consistent (s_graph S);
  so_net : net_ok (s_nw S);
  so_caps : length (n_cap (s_nw S)) = length (g_edges (s_graph S));
  so_ord : forall l, Permutation (su_ord S l) l;
  so_int : su_interval S = Some r;
  so_pos : 0 < r;
  so_src : forall c, In c (s_coms S) -> NoDup (map fst (k_sources c));
  so_times : forall c v f, In c (s_coms S) -> In (v, f) (k_sources c) -> NoDup (rc_times f);
  so_nodes : forall c v f, In c (s_coms S) -> In (v, f) (k_sources c) -> In v (node_ids (s_graph S)) }.

(** The network inflow of commodity [i] at source [v] changes at time [t]. *)
Definition change_at (S : setup) (i v : nat) (t : Qc) : Prop :=
  exists c f, nth_error (s_coms S) i = Some c /\ dget (k_sources c) v = Some f /\ In t (rc_times f).

(** What is computed before [flow.extend] is called: the builder and [new_inflow]. *)
Definition plan (S : setup) (b : builder) : res (builder * list (nat * rates)) :=
  b1 <- pop_due (Datatypes.S (sq_len (b_changes b))) b ;; b2 <- reroute S b1 ;; determine_new_inflow S b2.
Lemma step_plan k S b : fb_step k S b =
  ('(b3, ni) <- plan S b ;;
   match ext_min (Fin (b_next b3)) (sq_min_key (b_changes b3)) with
   | Fin maxt =>
      '(flow, changed) <- flow_extend k (s_nw S) (b_flow b3) ni maxt ;;
      heads <- mapM (fun e => r <- fetch (g_edges (s_graph S)) e ;; Ok (e_to (s_graph S) r)) changed ;;
      Ok (with_handle (with_flow b3 flow) (uniq heads))
   | _ => Err NotModelled
   end).
Proof. unfold fb_step, plan. destruct (pop_due _ b) as [b1|]; [|reflexivity]. cbn [bind]. destruct (reroute S b1) as [b2|]; reflexivity. Qed.

(** ** pop_due *)
Lemma set_add_In x y l : In x (set_add y l) <-> x = y \/ In x l.
Proof. unfold set_add. destruct (mem y l) eqn:M; [apply memP in M|]; cbn [In]; intuition congruence. Qed.
Lemma set_add_nd y l : NoDup l -> NoDup (set_add y l).
Proof. intro N. unfold set_add. destruct (mem y l) eqn:M; [exact N|]. constructor; [apply mem_false, M|exact N]. Qed.
Definition due (b : builder) (it : nat * nat * Qc) : Prop :=
  exists k, sq_key_of (b_changes b) it = Some k /\ ext_le k (Fin (f_phi (b_flow b))).
Record popped (b b' : builder) : Prop := {
  po_eq : b' = with_handle (with_changes b (b_changes b')) (b_handle b');
  po_nd : sq_nd (b_changes b');
  po_key : forall it k, sq_key_of (b_changes b') it = Some k <-> sq_key_of (b_changes b) it = Some k /\ ~ ext_le k (Fin (f_phi (b_flow b)));
  po_h : forall v, In v (b_handle b') <-> In v (b_handle b) \/ exists it, due b it /\ snd (fst it) = v;
  po_hn : NoDup (b_handle b) -> NoDup (b_handle b') }.
Lemma pop_due_ok : forall fuel b, sq_nd (b_changes b) -> (sq_len (b_changes b) < fuel)%nat -> exists b', pop_due fuel b = Ok b' /\ popped b b'.
Proof.
  induction fuel as [|m IH]; intros b N L; [lia|]. cbn [pop_due].
  destruct (ext_leb (sq_min_key (b_changes b)) (Fin (f_phi (b_flow b)))) eqn:B.
  - destruct (ext_lebP (sq_min_key (b_changes b)) (Fin (f_phi (b_flow b)))) as [LE|]; [|discriminate].
    destruct (min_key_ex _ N) as [[Q _]|Q]; [rewrite Q in LE; destruct LE|].
    destruct (pop_total (b_changes b)) as [q [it E]]; [destruct Q as [it Q]; exists it; congruence|]. rewrite E. cbn [bind].
    destruct (pop_ok _ _ _ N E) as [-> KO].
    assert (HD : due b it) by (exists (sq_min_key (b_changes b)); auto).
    set (b1 := with_handle (with_changes b (sq_drop (b_changes b) it)) (set_add (snd (fst it)) (b_handle b))).
    destruct (IH b1) as [b' [E' P]].
    { apply nd_drop, N. }
    { change (b_changes b1) with (sq_drop (b_changes b) it). assert (HH : sq_has (b_changes b) it = true) by (rewrite kof_has, KO; reflexivity). pose proof (drop_len _ _ HH). lia. }
    exists b'. split; [exact E'|]. destruct P as [P1 P2 P3 P4 P5].
    assert (K1 : forall x k, sq_key_of (b_changes b1) x = Some k <-> sq_key_of (b_changes b) x = Some k /\ x <> it).
    { intros x k. change (b_changes b1) with (sq_drop (b_changes b) it). rewrite kof_drop. destruct (eqbP it x) as [<-|NE]; split; try intuition congruence. }
    constructor.
    + rewrite P1 at 1. reflexivity.
    + exact P2.
    + intros x k. rewrite P3, K1. change (f_phi (b_flow b1)) with (f_phi (b_flow b)). split; [tauto|]. intros [A1 A2]. split; [split; [exact A1|]|exact A2].
      intros ->. apply A2. rewrite KO in A1. injection A1 as <-. exact LE.
    + intro v. rewrite P4. change (b_handle b1) with (set_add (snd (fst it)) (b_handle b)). rewrite set_add_In.
      assert (DI : forall x, due b x <-> x = it \/ due b1 x).
      { intro x. unfold due. split.
        - intros [k [A1 A2]]. destruct (eqbP x it) as [Q1|Q1]; [left; exact Q1|]. right. exists k. rewrite K1. auto.
        - intros [->|[k [A1 A2]]]; [exact HD|]. apply K1 in A1. exists k. tauto. }
      split.
      * intros [[->|H]|[x [D Q1]]]; [right; exists it; auto|left; exact H|right; exists x; rewrite DI; auto].
      * intros [H|[x [D Q1]]]; [left; right; exact H|]. apply DI in D. destruct D as [->|D]; [left; left; auto|right; exists x; auto].
    + intro NH. apply P5. apply set_add_nd, NH.
  - exists b. split; [reflexivity|].
    destruct (ext_lebP (sq_min_key (b_changes b)) (Fin (f_phi (b_flow b)))) as [|GT]; [discriminate|].
    assert (ND : forall it k, sq_key_of (b_changes b) it = Some k -> ~ ext_le k (Fin (f_phi (b_flow b)))).
    { intros it k Q A. apply GT. eapply ext_le_trans; [apply (min_key_le _ _ _ Q)|exact A]. }
    constructor; auto.
    + destruct b. reflexivity.
    + intros it k. split; [intro Q; split; [exact Q|apply (ND it), Q]|tauto].
    + intro v. split; [auto|]. intros [H|[it [[k [A1 A2]] _]]]; [exact H|]. destruct (ND it k A1 A2).
Qed.

(** ** The initial queue *)
Lemma NoDup_flat_map {A B K} (f : A -> list B) (key : A -> K) : forall l,
  (forall x, In x l -> NoDup (f x)) -> (forall x y z, In x l -> In y l -> In z (f x) -> In z (f y) -> key x = key y) ->
  NoDup (map key l) -> NoDup (flat_map f l).
Proof.
  induction l as [|x l IH]; intros N D K1; cbn [flat_map map] in *; [constructor|]. inversion K1 as [|? ? K2 K3]; subst.
  assert (IHl : NoDup (flat_map f l)) by (apply IH; [intros; apply N; right; assumption|intros; eapply D; [right|right| |]; eassumption|exact K3]).
  assert (DJ : forall z, In z (f x) -> ~ In z (flat_map f l)).
  { intros z I1 I2. apply in_flat_map in I2. destruct I2 as [y [Iy I2]]. apply K2. rewrite (D x y z); auto; [apply in_map; exact Iy|left; reflexivity|right; exact Iy]. }
  specialize (N x (or_introl eq_refl)). clear -N IHl DJ. induction (f x) as [|z zs IHz]; cbn [app]; [exact IHl|]. inversion N; subst. constructor.
  - intro I. apply in_app_or in I. destruct I as [I|I]; [contradiction|]. apply (DJ z); [left; reflexivity|exact I].
  - apply IHz; [assumption|]. intros z' I. apply DJ. right. exact I.
Qed.
Lemma map_flat_map {A B D} (h : B -> D) (f : A -> list B) l : map h (flat_map f l) = flat_map (fun x => map h (f x)) l.
Proof. induction l as [|x l IH]; cbn [flat_map map]; [reflexivity|]. rewrite map_app, IH. reflexivity. Qed.
Lemma enum_fst {A} (l : list A) : map fst (enum l) = seq 0 (length l).
Proof. unfold enum. generalize 0%nat. induction l as [|x l IH]; intro k; cbn [length seq combine map]; [reflexivity|]. rewrite IH. reflexivity. Qed.
Section Init.
Context {A : Type} {EA : Item A}.
Lemma number_items (l : list (A * ext)) : forall i, items (number_from i l) = map fst l.
Proof. induction l as [|[x k] l IH]; intro i; cbn [number_from map fst]; [reflexivity|]. unfold items in *. cbn [map e_item]. rewrite IH. reflexivity. Qed.
Lemma number_in (l : list (A * ext)) x k : forall i, In (x, k) l -> exists e, In e (number_from i l) /\ e_item e = x /\ e_key e = k.
Proof.
  induction l as [|[y q] l IH]; intros i; cbn [number_from]; [intros []|]. intros [E|I].
  - injection E as -> ->. eexists. split; [left; reflexivity|auto].
  - destruct (IH (i + 1)%Z I) as [e [H1 H2]]. exists e. split; [right; exact H1|exact H2].
Qed.
Lemma number_out (l : list (A * ext)) e : forall i, In e (number_from i l) -> In (e_item e, e_key e) l.
Proof. induction l as [|[y q] l IH]; intro i; cbn [number_from]; [intros []|]. intros [<-|I]; [left; reflexivity|right; eapply IH; exact I]. Qed.
Lemma init_nd (l : list (A * ext)) : NoDup (map fst l) -> sq_nd (s_init l).
Proof. intro N. unfold sq_nd, s_init. cbn [s_entries]. rewrite number_items. exact N. Qed.
Lemma init_key (l : list (A * ext)) x k : NoDup (map fst l) -> (sq_key_of (s_init l) x = Some k <-> In (x, k) l).
Proof.
  intro N. split.
  - intro H. apply kof_in in H. destruct H as [e [I [<- <-]]]. eapply number_out. exact I.
  - intro I. destruct (number_in l x k 0 I) as [e [H1 [<- <-]]]. apply in_kof; [apply init_nd, N|exact H1].
Qed.
End Init.
Lemma changes_nd S : (forall c, In c (s_coms S) -> NoDup (map fst (k_sources c))) ->
  (forall c v f, In c (s_coms S) -> In (v, f) (k_sources c) -> NoDup (rc_times f)) -> NoDup (map fst (inflow_changes (s_coms S))).
Proof.
  intros SR TM. unfold inflow_changes. rewrite map_flat_map. apply (NoDup_flat_map _ fst).
  - intros [i c] I. assert (IC : In c (s_coms S)) by (apply enum_nth in I; eapply nth_error_In; exact I). rewrite map_flat_map. apply (NoDup_flat_map _ fst); [| |apply SR, IC].
    + intros [v f] I2. rewrite map_map. cbn [fst snd]. apply FinFun.Injective_map_NoDup; [intros x y E; congruence|]. eapply TM; eauto.
    + intros [v f] [w h] z _ _ H1 H2. rewrite map_map in H1, H2. apply in_map_iff in H1, H2. destruct H1 as [t [<- _]], H2 as [u [E _]]. cbn [fst snd] in E |- *. congruence.
  - intros [i c] [j d] z _ _ H1 H2. rewrite map_flat_map in H1, H2. apply in_flat_map in H1, H2. destruct H1 as [p [_ H1]], H2 as [q [_ H2]].
    rewrite map_map in H1, H2. apply in_map_iff in H1, H2. destruct H1 as [t [<- _]], H2 as [u [E _]]. cbn [fst snd] in E |- *. congruence.
  - rewrite enum_fst. apply seq_NoDup.
Qed.
Lemma changes_iff S i v t k : (forall c, In c (s_coms S) -> NoDup (map fst (k_sources c))) ->
  (In ((i, v, t), k) (inflow_changes (s_coms S)) <-> k = Fin t /\ change_at S i v t).
Proof.
  intro SR. unfold inflow_changes, change_at. rewrite in_flat_map. split.
  - intros [[j c] [I H]]. apply in_flat_map in H. destruct H as [[w f] [I2 H]]. apply in_map_iff in H. destruct H as [u [E I3]]. cbn [fst snd] in *. injection E as -> -> -> <-.
    split; [reflexivity|]. apply enum_nth in I. exists c, f. split; [exact I|]. split; [|exact I3]. apply In_dget; [apply SR; eapply nth_error_In; exact I|exact I2].
  - intros [-> [c [f [I [D T]]]]]. exists (i, c). split; [apply enum_nth, I|]. apply in_flat_map. exists (v, f). split; [apply dget_In, D|]. apply in_map_iff. exists t. auto.
Qed.

(** ** The flow after the reads of [_determine_new_inflow] *)
Section Run.
Variables (S : setup) (r : Qc).
Hypothesis OK : setup_ok S r.
Let g := s_graph S.
Let C : consistent g := so_graph S r OK.

Lemma after_chain b b' P : after S b b' P -> forall j, exists pre, out_chain (b_flow b) j = pre ++ out_chain (b_flow b') j /\ forall it, In it pre -> it_time it <= f_phi (b_flow b).
Proof.
  intros A j. destruct (in_dec Nat.eq_dec j (map (e_id g) (filter (fun e => mem (e_to g e) P) (g_edges g)))) as [I|NI].
  - apply in_map_iff in I. destruct I as [e [<- I]]. apply filter_In in I. destruct I as [I1 I2]. apply memP in I2.
    destruct (af_read _ _ _ _ A e I1 I2) as [d E]. apply get_chain in E. exact E.
  - exists []. split; [|intros ? []]. cbn [app]. unfold out_chain, outflow_of. f_equal. symmetry. apply (af_other _ _ _ _ A). intros e I1 I2 Q. apply NI. apply in_map_iff. exists e. split; [exact Q|]. apply filter_In. split; [exact I1|apply memP, I2].
Qed.
Lemma after_events cs b b' P : after S b b' P -> evinv (s_nw S) cs (b_flow b) -> evinv (s_nw S) cs (b_flow b').
Proof.
  intros A [A1 A2 A3 A4 A5 A6]. constructor.
  - rewrite (af_dq _ _ _ _ A). exact A1.
  - intros e p. rewrite (af_dq _ _ _ _ A), (af_phi _ _ _ _ A). apply A2.
  - rewrite (af_ch _ _ _ _ A). exact A3.
  - intros e t k. rewrite (af_ch _ _ _ _ A). apply A4.
  - intros e t. unfold has. rewrite (af_ch _ _ _ _ A), (af_phi _ _ _ _ A). fold (has (b_flow b) e t). rewrite A5.
    destruct (after_chain b b' P A e) as [pr [R1 R2]]. rewrite R1. unfold out_times. rewrite map_app, in_app_iff. split.
    + intros [S1 [S2|S2]]; [|auto]. apply in_map_iff in S2. destruct S2 as [it [<- I]]. specialize (R2 it I). exfalso. qlra.
    + tauto.
  - intros e it I. destruct (after_chain b b' P A e) as [pr [R1 R2]]. apply (A6 e it). rewrite R1. apply in_or_app. auto.
Qed.

(** ** The invariant of the loop *)
Record sched (b : builder) : Prop := {
  sc_ev : exists cs, evinv (s_nw S) cs (b_flow b);
  sc_phi : 0 <= f_phi (b_flow b);
  sc_next : f_phi (b_flow b) <= b_next b;
  sc_mult : exists m, b_next b = qn m * r;
  sc_nd : NoDup (b_handle b);
  sc_act : act_ok S (b_active b);
  sc_qnd : sq_nd (b_changes b);
  sc_key : forall it k, sq_key_of (b_changes b) it = Some k -> k = Fin (snd it) /\ change_at S (fst (fst it)) (snd (fst it)) (snd it);
  sc_all : forall i v t, change_at S i v t -> f_phi (b_flow b) < t -> sq_key_of (b_changes b) (i, v, t) <> None }.

(** What one round does up to [flow.extend]. *)
Record planned (b b3 : builder) (ni : list (nat * rates)) : Prop := {
  pl_flow : exists b2, b_flow b2 = b_flow b /\ b_net b2 = b_net b /\ b_handle b2 = b_handle b3 /\ after S b2 b3 (b_handle b3);
  pl_phi : f_phi (b_flow b3) = f_phi (b_flow b);
  pl_ev : forall cs, evinv (s_nw S) cs (b_flow b) -> evinv (s_nw S) cs (b_flow b3);
  pl_re : f_phi (b_flow b) = b_next b -> b_next b3 = b_next b + r /\ b_route b3 = b_next b /\ (forall v, In v (b_handle b3) <-> In v (map fst (g_nodes g)));
  pl_no : f_phi (b_flow b) <> b_next b -> b_next b3 = b_next b /\ b_route b3 = b_route b /\
            (forall v, In v (b_handle b3) <-> In v (b_handle b) \/ exists it, due b it /\ snd (fst it) = v);
  pl_q : sq_nd (b_changes b3) /\ forall it k, sq_key_of (b_changes b3) it = Some k <-> sq_key_of (b_changes b) it = Some k /\ ~ ext_le k (Fin (f_phi (b_flow b)));
  pl_act : act_ok S (b_active b3);
  pl_hn : NoDup (b_handle b3);
  pl_ids : NoDup (map fst ni) /\ (forall k, In k (map fst ni) <-> exists v e, In v (b_handle b3) /\ In e (outgoing g v) /\ e_id g e = k);
  pl_snap : forall k d, In (k, d) ni -> is_snapshot d;
  pl_split : forall v i, In v (b_handle b3) -> split_ok S v i (supply S b v i) (fun e => sent S ni e i) }.

Lemma act_empty (cs : list commodity) : act_ok S (map (fun _ => []) cs).
Proof.
  intros i v l H. exfalso. assert (E : nth i (map (fun _ : commodity => ([] : list (nat * list nat))) cs) [] = []).
  { revert i H. induction cs as [|c cs IH]; intros i H; destruct i; try reflexivity. cbn [map nth] in *. apply IH. exact H. }
  rewrite E in H. discriminate.
Qed.
Lemma nodes_nd : NoDup (map fst (g_nodes g)).
Proof. apply (cs_nodes g C). Qed.

Lemma supply_flow b b2 v i : b_flow b2 = b_flow b -> b_net b2 = b_net b -> supply S b2 v i = supply S b v i.
Proof. intros E1 E2. unfold supply, out_now, net_now. rewrite E1, E2. reflexivity. Qed.
Lemma plan_ok b b3 ni : sched b -> plan S b = Ok (b3, ni) -> planned b b3 ni.
Proof.
  intros SC H. unfold plan in H.
  destruct (pop_due_ok (Datatypes.S (sq_len (b_changes b))) b (sc_qnd b SC)) as [b1 [E1 P]]; [lia|]. rewrite E1 in H. cbn [bind] in H.
  apply bind_ok in H. destruct H as [b2 [E2 H]].
  assert (B1 : b_flow b1 = b_flow b /\ b_net b1 = b_net b /\ b_next b1 = b_next b /\ b_route b1 = b_route b /\ b_active b1 = b_active b).
  { rewrite (po_eq _ _ P). cbn. auto. }
  destruct B1 as [X1 [X2 [X3 [X4 X5]]]].
  assert (RE : exists b2, reroute S b1 = Ok b2 /\ b_flow b2 = b_flow b /\ b_net b2 = b_net b /\ b_changes b2 = b_changes b1 /\ act_ok S (b_active b2) /\ NoDup (b_handle b2) /\
     (f_phi (b_flow b) = b_next b -> b_next b2 = b_next b + r /\ b_route b2 = b_next b /\ b_handle b2 = map fst (g_nodes g)) /\
     (f_phi (b_flow b) <> b_next b -> b2 = b1)).
  { unfold reroute. rewrite (so_int S r OK), X1, X3. destruct (qlebP (b_next b) (f_phi (b_flow b))) as [Q|Q].
    - eexists. split; [reflexivity|]. cbn. split; [congruence|]. split; [exact X2|]. split; [reflexivity|]. split; [apply act_empty|]. split; [apply nodes_nd|].
      split; [auto|]. intro NE. exfalso. apply NE. pose proof (sc_next b SC). qlra.
    - exists b1. split; [reflexivity|]. split; [exact X1|]. split; [exact X2|]. split; [reflexivity|]. split; [rewrite X5; apply (sc_act b SC)|].
      split; [apply (po_hn _ _ P), (sc_nd b SC)|]. split; [intro EQ; exfalso; qlra|reflexivity]. }
  destruct RE as [b2' [E2' [Y1 [Y2 [Y3 [Y4 [Y5 [Y6 Y7]]]]]]]]. rewrite E2 in E2'. apply ok_inj in E2'. subst b2'.
  destruct (determine_ok S C (so_ord S r OK) b2 b3 ni Y4 Y5 H) as [D1 [D2 [D3 [D4 [D5 D6]]]]].
  destruct (af_rest _ _ _ _ D1) as [R1 [R2 [R3 R4]]].
  constructor.
  - exists b2. rewrite R1. auto.
  - rewrite (af_phi _ _ _ _ D1), Y1. reflexivity.
  - intros cs EV. eapply after_events; [exact D1|]. rewrite Y1. exact EV.
  - intro Q. destruct (Y6 Q) as [Z1 [Z2 Z3]]. rewrite R2, R3, R1, Z3. split; [exact Z1|]. split; [exact Z2|]. reflexivity.
  - intro Q. rewrite R2, R3, R1. rewrite (Y7 Q). split; [exact X3|]. split; [exact X4|]. intro v. apply (po_h _ _ P).
  - rewrite R4, Y3. split; [apply (po_nd _ _ P)|apply (po_key _ _ P)].
  - exact D2.
  - rewrite R1. exact Y5.
  - rewrite R1. split; [exact D3|exact D4].
  - exact D5.
  - rewrite R1. intros v i Hv. rewrite <- (supply_flow b b2 v i Y1 Y2). apply D6, Hv.
Qed.

(** ** The whole round *)
Lemma mapM_In {A B} (f : A -> res B) : forall l l', mapM f l = Ok l' -> forall y, In y l' <-> exists x, In x l /\ f x = Ok y.
Proof.
  induction l as [|x l IH]; intros l' H y; cbn [mapM] in H.
  - injection H as <-. split; [intros []|intros [x [[] _]]].
  - apply bind_ok in H. destruct H as [z [E H]]. apply bind_ok in H. destruct H as [zs [E2 H]]. injection H as <-. cbn [In]. rewrite (IH zs E2 y). split.
    + intros [<-|[x' [I F]]]; [exists x; auto|exists x'; auto].
    + intros [x' [[<-|I] F]]; [left; congruence|right; exists x'; auto].
Qed.
Record stepped (k : bool) (b b' b3 : builder) (ni : list (nat * rates)) (maxt : Qc) (ch : list nat) : Prop := {
  st_plan : plan S b = Ok (b3, ni);
  st_pl : planned b b3 ni;
  st_valid : valid_call (s_nw S) (b_flow b3) (CExtend ni maxt);
  st_ext : flow_extend k (s_nw S) (b_flow b3) ni maxt = Ok (b_flow b', ch);
  st_spec : forall cs, evinv (s_nw S) cs (b_flow b) -> extend_spec (s_nw S) (cs ++ [CExtend ni maxt]) (b_flow b3) (b_flow b') maxt ch;
  st_max : maxt <= b_next b3 /\ forall it t, sq_key_of (b_changes b3) it = Some (Fin t) -> maxt <= t;
  st_tight : maxt = b_next b3 \/ exists it, sq_key_of (b_changes b3) it = Some (Fin maxt);
  st_same : b_next b' = b_next b3 /\ b_route b' = b_route b3 /\ b_net b' = b_net b3 /\ b_changes b' = b_changes b3 /\ b_active b' = b_active b3;
  st_nd : NoDup (b_handle b');
  st_handle : forall v, In v (b_handle b') <-> exists e, In e (g_edges g) /\ e_to g e = v /\ In (e_id g e) ch }.
Lemma step_ok k b b' : sched b -> fb_step k S b = Ok b' -> exists b3 ni maxt ch, stepped k b b' b3 ni maxt ch.
Proof.
  intros SC H. rewrite step_plan in H. apply bind_ok in H. destruct H as [[b3 ni] [EP H]].
  pose proof (plan_ok b b3 ni SC EP) as PL. destruct (pl_q _ _ _ PL) as [QN QK].
  destruct (ext_min (Fin (b_next b3)) (sq_min_key (b_changes b3))) as [|maxt|] eqn:EM; try discriminate.
  apply bind_ok in H. destruct H as [[flow ch] [EX H]]. apply bind_ok in H. destruct H as [heads [EH H]]. injection H as <-.
  destruct (ext_min_le (Fin (b_next b3)) (sq_min_key (b_changes b3))) as [M1 [M2 M3]]. rewrite EM in M1, M2, M3.
  assert (LB : forall it t, sq_key_of (b_changes b3) it = Some (Fin t) -> maxt <= t).
  { intros it t Q. exact (ext_le_trans _ _ _ M2 (min_key_le _ _ _ Q)). }
  assert (TI : maxt = b_next b3 \/ exists it, sq_key_of (b_changes b3) it = Some (Fin maxt)).
  { destruct M3 as [M3|M3]; [left; congruence|]. right. destruct (min_key_ex _ QN) as [[Q _]|[it Q]]; [congruence|]. exists it. congruence. }
  assert (PN : f_phi (b_flow b) <= b_next b3).
  { pose proof (sc_next b SC). pose proof (so_pos S r OK). destruct (qeqbP (f_phi (b_flow b)) (b_next b)) as [Q|Q].
    - destruct (pl_re _ _ _ PL Q) as [Z _]. rewrite Z. qlra.
    - destruct (pl_no _ _ _ PL Q) as [Z _]. rewrite Z. exact H. }
  assert (PM : f_phi (b_flow b3) <= maxt).
  { rewrite (pl_phi _ _ _ PL). destruct TI as [->|[it Q]]; [exact PN|]. apply QK in Q. destruct Q as [_ Q]. cbn [ext_le] in Q. qlra. }
  assert (NE : length (n_cap (s_nw S)) = length (g_edges g)) by apply (so_caps S r OK).
  assert (VC : valid_call (s_nw S) (b_flow b3) (CExtend ni maxt)).
  { split; [apply (pl_ids _ _ _ PL)|]. split; [|exact PM]. intros e d I. split; [|apply (pl_snap _ _ _ PL e d I)].
    assert (IK : In e (map fst ni)) by (apply in_map_iff; exists (e, d); auto). apply (pl_ids _ _ _ PL) in IK. destruct IK as [v [x [_ [IO <-]]]].
    apply (out_iff g C) in IO. destruct IO as [IO _]. destruct (In_nth_error _ _ IO) as [j J]. rewrite (cs_ids g C j x J), NE. apply nth_error_Some. congruence. }
  exists b3, ni, maxt, ch. constructor; auto.
  - intros cs EV. eapply (extend_events (s_nw S) (so_net S r OK) k) in EX; [exact EX| | | |].
    + eapply evinv_more; [|apply (pl_ev _ _ _ PL), EV]. intros; apply in_or_app; auto.
    + apply in_or_app. right. left. reflexivity.
    + intros e d I. apply VC in I. apply I.
    + exact PM.
  - cbn. apply uniq_nd.
  - intro v. cbn [with_handle b_handle]. rewrite uniq_In, (mapM_In _ _ _ EH). split.
    + intros [e [I F]]. apply bind_ok in F. destruct F as [x [F1 F2]]. injection F2 as <-. unfold fetch in F1. destruct (nth_error (g_edges (s_graph S)) e) as [y|] eqn:NY; [|discriminate].
      injection F1 as ->. exists x. split; [eapply nth_error_In; exact NY|]. split; [reflexivity|]. fold g in NY. rewrite (cs_ids g C e x NY). exact I.
    + intros [e [I1 [<- I2]]]. exists (e_id g e). split; [exact I2|]. destruct (In_nth_error _ _ I1) as [j J]. rewrite (cs_ids g C j e J).
      unfold fetch. fold g. rewrite J. reflexivity.
Qed.

(** ** The invariant holds in every run *)
Lemma init_sched b : fb_init S = Ok b -> sched b /\ f_phi (b_flow b) = 0 /\ b_next b = 0 /\ (forall i v t, change_at S i v t -> sq_key_of (b_changes b) (i, v, t) = Some (Fin t)).
Proof.
  intro H. unfold fb_init in H. apply bind_ok in H. destruct H as [fl [E1 H]]. apply bind_ok in H. destruct H as [imp [E2 H]].
  apply bind_ok in H. destruct H as [net [E3 H]]. apply bind_ok in H. destruct H as [u [E4 H]]. injection H as <-.
  destruct (init_events (s_nw S) fl E1) as [EV PH]. pose proof (changes_nd S (so_src S r OK) (so_times S r OK)) as ND. split; [|split; [|split]].
  - constructor; cbn [b_flow b_next b_handle b_active b_changes].
    + eauto.
    + rewrite PH. qlra.
    + qlra.
    + exists 0%nat. rewrite PH. unfold qn. change (Q2Qc (inject_Z (Z.of_nat 0))) with 0. ring.
    + constructor.
    + apply act_empty.
    + apply init_nd, ND.
    + intros [[i v] t] k H. apply init_key in H; [|exact ND]. apply changes_iff in H; [|apply (so_src S r OK)]. exact H.
    + intros i v t H _ Q. assert (K : sq_key_of (s_init (inflow_changes (s_coms S))) (i, v, t) = Some (Fin t)); [|congruence].
      apply init_key; [exact ND|]. apply changes_iff; [apply (so_src S r OK)|auto].
  - exact PH.
  - exact PH.
  - intros i v t H. apply init_key; [exact ND|]. apply changes_iff; [apply (so_src S r OK)|auto].
Qed.
Lemma qn_S m : qn (Datatypes.S m) = qn m + 1.
Proof. unfold qn. apply Qc_is_canon. cbn [this Q2Qc Qcplus]. rewrite !Qred_correct. rewrite Nat2Z.inj_succ. unfold Z.succ. rewrite inject_Z_plus. reflexivity. Qed.
Lemma step_sched k b b' : sched b -> fb_step k S b = Ok b' -> sched b'.
Proof.
  intros SC H. destruct (step_ok k b b' SC H) as [b3 [ni [maxt [ch ST]]]]. destruct ST as [_ PL VC _ SP [M1 M2] TI [Z1 [Z2 [Z3 [Z4 Z5]]]] ND HD].
  destruct (sc_ev b SC) as [cs EV]. specialize (SP cs EV). destruct SP as [S1 [S2 [S3 [S4 S5]]]]. rewrite (pl_phi _ _ _ PL) in S1.
  pose proof (sc_phi b SC) as P0. destruct (pl_q _ _ _ PL) as [QN QK]. constructor.
  - eauto.
  - qlra.
  - rewrite Z1. qlra.
  - rewrite Z1. destruct (sc_mult b SC) as [m Hm]. destruct (qeqbP (f_phi (b_flow b)) (b_next b)) as [Q|Q].
    + destruct (pl_re _ _ _ PL Q) as [Z _]. rewrite Z, Hm. exists (Datatypes.S m). rewrite qn_S. ring.
    + destruct (pl_no _ _ _ PL Q) as [Z _]. rewrite Z. eauto.
  - exact ND.
  - rewrite Z5. apply (pl_act _ _ _ PL).
  - rewrite Z4. exact QN.
  - rewrite Z4. intros it q K. apply QK in K. apply (sc_key b SC). apply K.
  - rewrite Z4. intros i v t CH LT. pose proof (sc_all b SC i v t CH ltac:(qlra)) as A. destruct (sq_key_of (b_changes b) (i, v, t)) as [q|] eqn:K; [|congruence].
    destruct (sc_key b SC _ _ K) as [-> _]. assert (K3 : sq_key_of (b_changes b3) (i, v, t) = Some (Fin t)); [|congruence]. apply QK. split; [exact K|]. cbn [ext_le snd]. qlra.
Qed.
Lemma run_sched k : forall n b, fb_run k S n = Ok b -> sched b.
Proof.
  induction n as [|n IH]; intros b H; cbn [fb_run] in H; [apply (init_sched b H)|]. apply bind_ok in H. destruct H as [b0 [H1 H2]]. eapply step_sched; eauto.
Qed.

(** ** Nothing is skipped *)
Lemma step_due k b b' b3 ni maxt ch i v t : sched b -> stepped k b b' b3 ni maxt ch -> sq_key_of (b_changes b) (i, v, t) = Some (Fin t) -> t <= f_phi (b_flow b) -> In v (b_handle b3).
Proof.
  intros SC ST K L. pose proof (st_pl _ _ _ _ _ _ _ ST) as PL. destruct (qeqbP (f_phi (b_flow b)) (b_next b)) as [Q|Q].
  - destruct (pl_re _ _ _ PL Q) as [_ [_ Z]]. apply Z. destruct (sc_key b SC _ _ K) as [_ [c [f [H1 [H2 _]]]]]. cbn [fst snd] in *.
    apply (so_nodes S r OK c v f); [eapply nth_error_In; exact H1|apply dget_In, H2].
  - destruct (pl_no _ _ _ PL Q) as [_ [_ Z]]. apply Z. right. exists (i, v, t). split; [|reflexivity]. exists (Fin t). split; [exact K|exact L].
Qed.
Lemma hist k : forall n b, fb_run k S n = Ok b ->
  (forall i v t, sq_key_of (b_changes b) (i, v, t) <> None -> f_phi (b_flow b) <= qmax t 0) /\
  (forall i v t, change_at S i v t -> sq_key_of (b_changes b) (i, v, t) = None ->
     exists m bm b3 ni, (m < n)%nat /\ fb_run k S m = Ok bm /\ f_phi (b_flow bm) = qmax t 0 /\ plan S bm = Ok (b3, ni) /\ In v (b_handle b3)).
Proof.
  induction n as [|n IH]; intros b H; cbn [fb_run] in H.
  - destruct (init_sched b H) as [_ [P0 [_ K]]]. split.
    + intros i v t _. rewrite P0. destruct (qmax_spec t 0) as [[? ->]|[? ->]]; qlra.
    + intros i v t CH Q. rewrite (K i v t CH) in Q. discriminate.
  - apply bind_ok in H. destruct H as [b0 [H1 H2]]. destruct (IH b0 H1) as [I1 I2]. pose proof (run_sched k n b0 H1) as SC.
    destruct (step_ok k b0 b SC H2) as [b3 [ni [maxt [ch ST]]]]. pose proof ST as ST'. destruct ST' as [EP PL VC _ SP [M1 M2] TI [Z1 [Z2 [Z3 [Z4 Z5]]]] ND HD].
    destruct (sc_ev b0 SC) as [cs EV]. specialize (SP cs EV). destruct SP as [S1 [S2 _]]. destruct (pl_q _ _ _ PL) as [QN QK]. rewrite Z4. split.
    + intros i v t K. destruct (sq_key_of (b_changes b3) (i, v, t)) as [q|] eqn:E; [|congruence]. pose proof E as E'. apply QK in E'. destruct E' as [E1 _].
      destruct (sc_key b0 SC _ _ E1) as [-> _]. cbn [snd] in E. specialize (M2 _ _ E). destruct (qmax_spec t 0) as [[? ->]|[? ->]]; qlra.
    + intros i v t CH E. destruct (sq_key_of (b_changes b0) (i, v, t)) as [q|] eqn:E0.
      * destruct (sc_key b0 SC _ _ E0) as [-> _]. cbn [snd] in E0.
        assert (LE : t <= f_phi (b_flow b0)).
        { destruct (qlebP t (f_phi (b_flow b0))) as [Q|Q]; [exact Q|]. assert (sq_key_of (b_changes b3) (i, v, t) = Some (Fin t)); [|congruence]. apply QK. split; [exact E0|exact Q]. }
        exists n, b0, b3, ni. split; [lia|]. split; [exact H1|]. split; [|split; [exact EP|eapply step_due; eauto]].
        pose proof (I1 i v t ltac:(congruence)). pose proof (sc_phi b0 SC). destruct (qmax_spec t 0) as [[? R]|[? R]]; rewrite R in *; qlra.
      * destruct (I2 i v t CH E0) as [m [bm [c [nj [A1 A2]]]]]. exists m, bm, c, nj. split; [lia|exact A2].
Qed.
Lemma qn_mono a b : (a <= b)%nat -> qn a <= qn b.
Proof. intro H. induction H; [qlra|]. rewrite qn_S. qlra. Qed.
Lemma reroutes k : forall n b, fb_run k S n = Ok b -> exists M, b_next b = qn M * r /\
  forall j, (j < M)%nat -> exists m bm, (m < n)%nat /\ fb_run k S m = Ok bm /\ f_phi (b_flow bm) = qn j * r /\ b_next bm = qn j * r.
Proof.
  induction n as [|n IH]; intros b H; cbn [fb_run] in H.
  - destruct (init_sched b H) as [_ [_ [N0 _]]]. exists 0%nat. split; [rewrite N0; unfold qn; change (Q2Qc (inject_Z (Z.of_nat 0))) with 0; ring|]. intros; lia.
  - apply bind_ok in H. destruct H as [b0 [H1 H2]]. destruct (IH b0 H1) as [M [I1 I2]]. pose proof (run_sched k n b0 H1) as SC.
    destruct (step_ok k b0 b SC H2) as [b3 [ni [maxt [ch ST]]]]. pose proof (st_pl _ _ _ _ _ _ _ ST) as PL. destruct (st_same _ _ _ _ _ _ _ ST) as [Z1 _]. rewrite Z1.
    assert (L : forall j, (j < M)%nat -> exists m bm, (m < Datatypes.S n)%nat /\ fb_run k S m = Ok bm /\ f_phi (b_flow bm) = qn j * r /\ b_next bm = qn j * r).
    { intros j Hj. destruct (I2 j Hj) as [m [bm [A1 A2]]]. exists m, bm. split; [lia|exact A2]. }
    destruct (qeqbP (f_phi (b_flow b0)) (b_next b0)) as [Q|Q].
    + destruct (pl_re _ _ _ PL Q) as [Z _]. exists (Datatypes.S M). split; [rewrite Z, I1, qn_S; ring|]. intros j Hj.
      destruct (Nat.eq_dec j M) as [->|NE]; [|apply L; lia]. exists n, b0. split; [lia|]. split; [exact H1|]. split; congruence.
    + destruct (pl_no _ _ _ PL Q) as [Z _]. exists M. split; [rewrite Z; exact I1|exact L].
Qed.
End Run.
