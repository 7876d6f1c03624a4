(** * Further theorems on clean-up of networks (C48, C49), constants of the
      function library (C06) and the saved samples (C57) *)
From Coq Require Import Qround.
From Verif Require Import Base Spec Arrays PL PLProofs PropPL RC FRC FRCProofs DynFlow Graph GraphSpec GraphProofs Predictors Eval PredictorsProofs2 Dataset PropDataset.
Local Open Scope nat_scope.

(** What a user sees of a network: one row per edge of [graph.edges], in
    order, with its ends, travel time and capacity (looked up by position). *)
Definition contents (n : network) : list row :=
  map (fun p => mkRow (fst p) (e_from (w_graph n) (fst p)) (e_to (w_graph n) (fst p)) (snd (snd p)) (fst (snd p)))
      (combine (g_edges (w_graph n)) (combine (w_cap n) (w_tau n))).
(** Incidence is consistent and every edge has one capacity and one travel time *)
Definition aligned (n : network) : Prop :=
  consistent (w_graph n) /\ length (w_cap n) = length (g_edges (w_graph n)) /\ length (w_tau n) = length (g_edges (w_graph n)).

Definition cut {A} (i : nat) (l : list A) : list A := firstn i l ++ skipn (S i) l.
Lemma cut_combine {A B} : forall i (a : list A) (b : list B), length a = length b -> combine (cut i a) (cut i b) = cut i (combine a b).
Proof.
  unfold cut. induction i as [|i IH]; intros [|x a] [|y b] L; try discriminate; auto.
  cbn [firstn skipn app combine]. f_equal. apply IH. cbn in L. lia.
Qed.
Lemma cut_length {A} : forall i (l : list A), i < length l -> length (cut i l) = length l - 1.
Proof. intros i l H. unfold cut. rewrite app_length, firstn_length, skipn_length. lia. Qed.
Lemma cut_map {A B} (f : A -> B) i l : map f (cut i l) = cut i (map f l).
Proof. unfold cut. rewrite map_app, firstn_map, skipn_map. auto. Qed.
Lemma cut_filter {A} (key : A -> nat) r : forall (l : list A) i, NoDup (map key l) -> nth_error (map key l) i = Some r ->
  cut i l = filter (fun x => negb (key x =? r)) l.
Proof.
  unfold cut. induction l as [|x l IH]; intros [|i] ND H; try discriminate.
  - cbn in H. injection H as <-. cbn [firstn skipn app filter]. rewrite Nat.eqb_refl. cbn [negb].
    inversion_clear ND. symmetry. clear IH. induction l as [|y l IH]; auto. cbn [filter].
    destruct (Nat.eqb_spec (key y) (key x)) as [E|E].
    + exfalso. apply H. rewrite <- E. left; auto.
    + cbn [negb]. f_equal. apply IH; [intro X; apply H; right; auto|]. cbn in H0. inversion_clear H0. auto.
  - cbn [map nth_error] in H. cbn [map] in ND. inversion ND as [|? ? N1 N2]; subst. cbn [firstn skipn app filter].
    destruct (Nat.eqb_spec (key x) r) as [E|E].
    + exfalso. apply N1. rewrite E. eapply nth_error_In; eauto.
    + cbn [negb]. f_equal. apply IH; auto.
Qed.
Lemma contents_refs n : aligned n -> map x_ref (contents n) = g_edges (w_graph n).
Proof.
  intros (_ & L1 & L2). unfold contents. rewrite map_map. cbn [x_ref].
  revert L1 L2. generalize (g_edges (w_graph n)) (w_cap n) (w_tau n). induction l as [|x l IH]; intros [|c cs] [|t ts] L1 L2; try discriminate; auto.
  cbn [combine map fst]. f_equal. apply IH; cbn in *; lia.
Qed.
Lemma contents_rows n x : In x (contents n) -> x_from x = e_from (w_graph n) (x_ref x) /\ x_to x = e_to (w_graph n) (x_ref x).
Proof. unfold contents. rewrite in_map_iff. intros (p & <- & _). auto. Qed.

(** removing one edge *)
Lemma remove_contents n r : aligned n -> In r (g_edges (w_graph n)) ->
  exists n', nw_remove_edge n r = Ok n' /\ aligned n' /\
    contents n' = filter (fun x => negb (x_ref x =? r)) (contents n) /\
    w_com n' = w_com n /\ g_rev (w_graph n') = g_rev (w_graph n) /\ g_pos (w_graph n') = g_pos (w_graph n) /\
    node_ids (w_graph n') = node_ids (w_graph n) /\ length (g_heap (w_graph n')) = length (g_heap (w_graph n)) /\
    (forall q, e_from (w_graph n') q = e_from (w_graph n) q /\ e_to (w_graph n') q = e_to (w_graph n) q).
Proof.
  intros A H. pose proof A as (C & L1 & L2).
  destruct (remove_spec n r C H L1 L2) as (n' & E & C' & NE & ED & CA & TA & CO & R & P & NI & HL & FT).
  set (i := e_id (w_graph n) r) in *. fold (cut i (g_edges (w_graph n))) in ED. fold (cut i (w_cap n)) in CA. fold (cut i (w_tau n)) in TA.
  assert (IL : i < length (g_edges (w_graph n))) by (apply nth_error_Some; congruence).
  exists n'. split; auto. split; [|split; [|repeat split; auto; apply FT]].
  - split; auto. rewrite CA, TA, ED, !cut_length by lia. lia.
  - rewrite <- (cut_filter x_ref r (contents n) i); [|rewrite contents_refs by auto; apply (cs_edges _ C)|rewrite contents_refs; auto].
    unfold contents at 1. rewrite ED, CA, TA, !cut_combine by (rewrite ?combine_length; lia).
    rewrite cut_map. f_equal. unfold contents. apply map_ext. intro p. destruct (FT (fst p)) as [-> ->]. auto.
Qed.
Lemma filter_filter {A} (f g : A -> bool) l : filter f (filter g l) = filter (fun x => g x && f x)%bool l.
Proof. induction l as [|x l IH]; auto. cbn. destruct (g x); cbn; [destruct (f x); cbn|]; rewrite ?IH; auto. Qed.
(** removing several *)
Lemma remove_edges_contents : forall l n, aligned n -> NoDup l -> incl l (g_edges (w_graph n)) ->
  exists n', remove_edges n l = Ok n' /\ aligned n' /\
    contents n' = filter (fun x => negb (mem (x_ref x) l)) (contents n) /\
    w_com n' = w_com n /\ g_rev (w_graph n') = g_rev (w_graph n) /\ g_pos (w_graph n') = g_pos (w_graph n) /\
    node_ids (w_graph n') = node_ids (w_graph n) /\
    (forall q, e_from (w_graph n') q = e_from (w_graph n) q /\ e_to (w_graph n') q = e_to (w_graph n) q).
Proof.
  induction l as [|r l IH]; intros n A ND I; unfold remove_edges; cbn [foldM].
  - exists n. split; auto. split; auto. split; [|repeat split; auto]. cbn [mem existsb negb]. symmetry.
    induction (contents n) as [|x c IH]; cbn; auto. f_equal; auto.
  - inversion ND as [|? ? N1 N2]; subst.
    destruct (remove_contents n r A (I r (or_introl eq_refl))) as (n1 & -> & A1 & E1 & C1 & R1 & P1 & I1 & _ & F1). cbn [bind].
    destruct (IH n1 A1 N2) as (n2 & E & A2 & E2 & C2 & R2 & P2 & I2 & F2).
    + intros q Q. rewrite <- (contents_refs n1 A1), E1. apply in_map_iff.
      assert (Q2 := I q (or_intror Q)). rewrite <- (contents_refs n A) in Q2. apply in_map_iff in Q2. destruct Q2 as (x & <- & X).
      exists x. split; auto. apply filter_In. split; auto. apply Bool.negb_true_iff, Nat.eqb_neq. intro Y. apply N1. rewrite <- Y. auto.
    + fold (remove_edges n1 l). rewrite E. exists n2. split; auto. split; auto. split; [|split; [congruence|split; [congruence|split; [congruence|split; [congruence|]]]]].
      * rewrite E2, E1, filter_filter. apply filter_ext. intro x. cbn [mem existsb]. fold (mem (x_ref x) l).
        rewrite Bool.negb_orb. reflexivity.
      * intro q. destruct (F2 q) as [-> ->]. apply F1.
Qed.
Lemma ddel_keys {B} (d : list (nat * B)) v : map fst (ddel d v) = filter (fun k => negb (k =? v)) (map fst d).
Proof. induction d as [|[k b] d IH]; auto. cbn. unfold ddel in *. cbn. destruct (Nat.eqb_spec v k); destruct (Nat.eqb_spec k v); try congruence; cbn; rewrite ?IH; auto. Qed.
Lemma n_obj_ddel nodes v w : n_obj (ddel nodes v) w = if v =? w then mkN [] [] else n_obj nodes w.
Proof.
  unfold n_obj. assert (G : dget (ddel nodes v) w = if v =? w then None else dget nodes w).
  { induction nodes as [|[k b] d IH]; cbn; [destruct (v =? w); auto|].
    destruct (Nat.eqb_spec k v) as [->|N]; cbn.
    - rewrite IH. destruct (Nat.eqb_spec v w); auto.
    - rewrite IH. destruct (Nat.eqb_spec k w); auto. subst. destruct (Nat.eqb_spec v w); auto. congruence. }
  rewrite G. destruct (v =? w); auto.
Qed.
Lemma drop_aligned n v : aligned n -> outgoing (w_graph n) v = [] -> incoming (w_graph n) v = [] ->
  aligned (drop_node n v) /\ contents (drop_node n v) = contents n /\
  node_ids (w_graph (drop_node n v)) = filter (fun k => negb (k =? v)) (node_ids (w_graph n)).
Proof.
  intros (C & L1 & L2) O I. split; [|split; [reflexivity|apply ddel_keys]].
  split; [|auto]. set (g := w_graph n) in *. set (g' := w_graph (drop_node n v)).
  assert (NI : node_ids g' = filter (fun k => negb (k =? v)) (node_ids g)) by apply ddel_keys.
  assert (NE : forall r, In r (g_edges g) -> e_from g r <> v /\ e_to g r <> v).
  { intros r R. split; intro X.
    - assert (Y : In r (outgoing g v)) by (rewrite (cs_out g C); apply filter_In; rewrite Nat.eqb_eq; auto). rewrite O in Y. destruct Y.
    - assert (Y : In r (incoming g v)) by (rewrite (cs_in g C); apply filter_In; rewrite Nat.eqb_eq; auto). rewrite I in Y. destruct Y. }
  assert (OG : forall w, outgoing g' w = outgoing g w).
  { intro w. destruct (Nat.eqb_spec v w) as [<-|N].
    - rewrite O. unfold outgoing, g', drop_node. cbn [w_graph g_rev g_nodes]. rewrite n_obj_ddel, Nat.eqb_refl. destruct (g_rev _); auto.
    - unfold outgoing, g', drop_node. cbn [w_graph g_rev g_nodes]. rewrite n_obj_ddel. destruct (Nat.eqb_spec v w); [congruence|auto]. }
  assert (IG : forall w, incoming g' w = incoming g w).
  { intro w. destruct (Nat.eqb_spec v w) as [<-|N].
    - rewrite I. unfold incoming, g', drop_node. cbn [w_graph g_rev g_nodes]. rewrite n_obj_ddel, Nat.eqb_refl. destruct (g_rev _); auto.
    - unfold incoming, g', drop_node. cbn [w_graph g_rev g_nodes]. rewrite n_obj_ddel. destruct (Nat.eqb_spec v w); [congruence|auto]. }
  constructor.
  - exact (cs_ids g C).
  - exact (cs_edges g C).
  - rewrite NI. apply NoDup_filter, (cs_nodes g C).
  - intros r R. rewrite NI, !filter_In, !Bool.negb_true_iff, !Nat.eqb_neq. destruct (NE r R), (cs_ends g C r R). repeat split; auto.
  - intro w. rewrite OG. exact (cs_out g C w).
  - intro w. rewrite IG. exact (cs_in g C w).
  - exact (cs_alive g C).
Qed.
Lemma outgoing_contents n v : aligned n -> outgoing (w_graph n) v = map x_ref (filter (fun x => x_from x =? v) (contents n)).
Proof.
  intro A. pose proof A as (C & _). rewrite (cs_out _ C), <- (contents_refs n A).
  assert (G : forall x, In x (contents n) -> x_from x = e_from (w_graph n) (x_ref x)) by (intros; apply contents_rows; auto).
  induction (contents n) as [|x l IH]; auto. cbn [map filter]. rewrite <- (G x (or_introl eq_refl)).
  destruct (x_from x =? v); cbn [map]; rewrite IH by (intros; apply G; right; auto); auto.
Qed.
Lemma incoming_contents n v : aligned n -> incoming (w_graph n) v = map x_ref (filter (fun x => x_to x =? v) (contents n)).
Proof.
  intro A. pose proof A as (C & _). rewrite (cs_in _ C), <- (contents_refs n A).
  assert (G : forall x, In x (contents n) -> x_to x = e_to (w_graph n) (x_ref x)) by (intros; apply contents_rows; auto).
  induction (contents n) as [|x l IH]; auto. cbn [map filter]. rewrite <- (G x (or_introl eq_refl)).
  destruct (x_to x =? v); cbn [map]; rewrite IH by (intros; apply G; right; auto); auto.
Qed.
Lemma filter_map_nil {A B} (f : A -> B) p l : (forall x, In x l -> p x = false) -> map f (filter p l) = [].
Proof. induction l as [|x l IH]; auto. intro H. cbn. rewrite (H x (or_introl eq_refl)). apply IH. intros; apply H; right; auto. Qed.

(** C48.  Removing a node: exactly the edges with that end disappear (each with
    its travel time and capacity), then the node itself; nothing else changes. *)
Theorem C48_remove_node : forall n v, aligned n ->
  exists n', remove_node n v = Ok n' /\ aligned n' /\
    contents n' = filter (fun x => negb (x_from x =? v) && negb (x_to x =? v))%bool (contents n) /\
    node_ids (w_graph n') = filter (fun k => negb (k =? v)) (node_ids (w_graph n)) /\
    w_com n' = w_com n /\ g_rev (w_graph n') = g_rev (w_graph n) /\ g_pos (w_graph n') = g_pos (w_graph n).
Proof.
  intros n v A. pose proof A as (C & _). unfold remove_node.
  assert (MEM : forall m x, aligned m -> In x (contents m) -> mem (x_ref x) (outgoing (w_graph m) v) = (x_from x =? v) /\ mem (x_ref x) (incoming (w_graph m) v) = (x_to x =? v)).
  { intros m x AM X. pose proof AM as (CM & _ & _).
    assert (XI : In (x_ref x) (g_edges (w_graph m))) by (rewrite <- (contents_refs m AM); apply in_map; auto).
    destruct (contents_rows m x X) as [-> ->]. rewrite (cs_out _ CM), (cs_in _ CM).
    split; match goal with |- ?a = ?b => destruct b eqn:B; [apply memP, filter_In; auto|] end;
      (match goal with |- ?a = _ => destruct a eqn:MA; auto end; apply memP, filter_In in MA; destruct MA as [_ MA]; congruence). }
  destruct (remove_edges_contents (outgoing (w_graph n) v) n A) as (n1 & -> & A1 & E1 & C1 & R1 & P1 & I1 & F1).
  { rewrite (cs_out _ C). apply NoDup_filter, (cs_edges _ C). }
  { rewrite (cs_out _ C). intros q Q. apply filter_In in Q. apply Q. }
  cbn [bind]. pose proof A1 as (CC1 & _).
  destruct (remove_edges_contents (incoming (w_graph n1) v) n1 A1) as (n2 & -> & A2 & E2 & C2 & R2 & P2 & I2 & F2).
  { rewrite (cs_in _ CC1). apply NoDup_filter, (cs_edges _ CC1). }
  { rewrite (cs_in _ CC1). intros q Q. apply filter_In in Q. apply Q. }
  cbn [bind].
  assert (E : contents n2 = filter (fun x => negb (x_from x =? v) && negb (x_to x =? v))%bool (contents n)).
  { rewrite E2. rewrite (filter_ext_on _ (fun x => negb (x_to x =? v))) by (intros x X; destruct (MEM n1 x A1 X) as [_ ->]; auto).
    rewrite E1. rewrite (filter_ext_on (fun x => negb (mem (x_ref x) (outgoing (w_graph n) v))) (fun x => negb (x_from x =? v))) by (intros x X; destruct (MEM n x A X) as [-> _]; auto).
    apply filter_filter. }
  destruct (drop_aligned n2 v A2) as (A3 & E3 & I3).
  { rewrite outgoing_contents by auto. apply filter_map_nil. intros x X. rewrite E in X. apply filter_In in X. destruct X as [_ X].
    apply Bool.andb_true_iff in X. destruct X as [X _]. apply Bool.negb_true_iff in X. auto. }
  { rewrite incoming_contents by auto. apply filter_map_nil. intros x X. rewrite E in X. apply filter_In in X. destruct X as [_ X].
    apply Bool.andb_true_iff in X. destruct X as [_ X]. apply Bool.negb_true_iff in X. auto. }
  exists (drop_node n2 v). split; auto. split; auto. split; [rewrite E3; auto|]. split; [rewrite I3; congruence|].
  unfold drop_node. cbn [w_com w_graph g_rev g_pos]. repeat split; congruence.
Qed.
(** ... and several nodes, in any order *)
Theorem C48_remove_nodes : forall l n, aligned n ->
  exists n', foldM remove_node l n = Ok n' /\ aligned n' /\
    contents n' = filter (fun x => negb (mem (x_from x) l) && negb (mem (x_to x) l))%bool (contents n) /\
    node_ids (w_graph n') = filter (fun k => negb (mem k l)) (node_ids (w_graph n)) /\
    w_com n' = w_com n /\ g_rev (w_graph n') = g_rev (w_graph n) /\ g_pos (w_graph n') = g_pos (w_graph n).
Proof.
  induction l as [|v l IH]; intros n A; cbn [foldM].
  - exists n. split; auto. split; auto. assert (T : forall B (k : list B), k = filter (fun _ => true) k) by (intros B k; induction k; cbn; f_equal; auto).
    split; [apply T|]. split; [apply T|auto].
  - destruct (C48_remove_node n v A) as (n1 & -> & A1 & E1 & I1 & C1 & R1 & P1). cbn [bind].
    destruct (IH n1 A1) as (n2 & -> & A2 & E2 & I2 & C2 & R2 & P2).
    exists n2. split; auto. split; auto. split; [|split; [|repeat split; congruence]].
    + rewrite E2, E1, filter_filter. apply filter_ext. intro x. cbn [mem existsb]. fold (mem (x_from x) l) (mem (x_to x) l).
      rewrite !Bool.negb_orb. destruct (x_from x =? v), (x_to x =? v), (mem (x_from x) l), (mem (x_to x) l); auto.
    + rewrite I2, I1, filter_filter. apply filter_ext. intro k. cbn [mem existsb]. fold (mem k l). rewrite Bool.negb_orb. auto.
Qed.
(** C49.  On a network without commodities [remove_unnecessary_nodes] does
    return, whatever the order in which the set of nodes is visited: and
    everything is gone. *)
Theorem C49_no_commodities : forall n order, aligned n -> w_com n = [] -> (forall l x, In x l -> In x (order l)) ->
  exists n', remove_unnecessary_nodes n order = Ok n' /\ aligned n' /\
    contents n' = [] /\ g_edges (w_graph n') = [] /\ w_cap n' = [] /\ w_tau n' = [] /\ node_ids (w_graph n') = [] /\ w_com n' = [].
Proof.
  intros n order A C O. unfold remove_unnecessary_nodes. rewrite C. cbn [important_nodes bind].
  destruct (C48_remove_nodes (order (filter (fun v => negb (mem v [])) (map fst (g_nodes (w_graph n))))) n A) as (n' & E & A' & EC & EI & CO & _).
  exists n'. split; auto. split; auto.
  assert (ALL : forall v, In v (node_ids (w_graph n)) -> mem v (order (filter (fun v => negb (mem v [])) (map fst (g_nodes (w_graph n))))) = true).
  { intros v V. apply memP, O, filter_In. split; auto. }
  assert (N1 : contents n' = []).
  { rewrite EC. rewrite <- (map_id (filter _ _)). apply filter_map_nil. intros x X. destruct (contents_rows n x X) as [F T].
    assert (XI : In (x_ref x) (g_edges (w_graph n))) by (rewrite <- (contents_refs n A); apply in_map; auto).
    destruct A as (CN & _). destruct (cs_ends _ CN _ XI) as [Y _]. rewrite <- F in Y. rewrite (ALL _ Y). auto. }
  assert (N2 : g_edges (w_graph n') = []) by (rewrite <- (contents_refs n' A'), N1; auto).
  pose proof A' as (_ & L1 & L2). rewrite N2 in L1, L2. split; auto. split; auto.
  split; [apply length_zero_iff_nil; auto|]. split; [apply length_zero_iff_nil; auto|]. split; [|congruence].
  rewrite EI. rewrite <- (map_id (filter _ _)). apply filter_map_nil. intros v V. rewrite (ALL _ V). auto.
Qed.
(** an index that selects no commodity *)
Theorem C49_no_such_commodity : forall n i, length (w_com n) <= i -> remove_unnecessary_commodities n i = Err IndexError.
Proof. intros n i H. unfold remove_unnecessary_commodities. apply nth_error_None in H. rewrite H. auto. Qed.

(** C06.  The two constants of the function library are what their names say,
    at every point (piecewise_linear.py:627-628). *)
Lemma valid_const g : valid (mkPL [0%Qc] [0%Qc] g g NInf PInf).
Proof. apply valid_by. vm_compute. reflexivity. Qed.
Lemma const_eval g t : pl_eval (mkPL [0%Qc] [0%Qc] g g NInf PInf) t = Ok (t * g)%Qc.
Proof.
  rewrite eval_at; [|apply valid_const|split; exact Logic.I]. f_equal.
  destruct (Qclt_le_dec 0%Qc t) as [H|H].
  - rewrite at_right; [|apply valid_const|]; change (tm _ _) with 0%Qc; [change (vl _ _) with 0%Qc; cbn [pl_last]; ring|qlra].
  - rewrite at_left; [|apply valid_const|]; change (tm _ _) with 0%Qc; [change (vl _ _) with 0%Qc; cbn [pl_first]; ring|auto].
Qed.
Theorem C06_constants : forall t, pl_eval pl_identity t = Ok t /\ pl_eval pl_zero t = Ok 0%Qc.
Proof. intro t. unfold pl_identity, pl_zero. rewrite !const_eval. split; f_equal; ring. Qed.

(** C57.  The number of samples per prediction step is the quotient of the two
    intervals, rounded to the nearest integer, ties to the even one; *)
Theorem C57_round : forall q, (qabs (qz (py_round q) - q) <= Q2Qc (1 # 2))%Qc /\
  (qabs (qz (py_round q) - q) = Q2Qc (1 # 2) -> Z.even (py_round q) = true).
Proof.
  intro q. unfold py_round. set (n := Qfloor (this q)).
  assert (F1 : (qz n <= q)%Qc) by (unfold Qcle; rewrite qz_this; apply Qfloor_le).
  assert (F2 : (q < qz n + 1)%Qc).
  { change 1%Qc with (qz 1). rewrite <- qz_plus. unfold Qclt. rewrite qz_this. apply Qlt_floor. }
  assert (HH : (Q2Qc (1 # 2) + Q2Qc (1 # 2) = 1)%Qc) by (apply Qc_is_canon; reflexivity).
  assert (Q1 : qz (n + 1) = (qz n + 1)%Qc) by (rewrite qz_plus; auto).
  set (h := Q2Qc (1 # 2)) in *. clearbody h. remember (qz n) as x eqn:EX.
  destruct (qltbP (q - x)%Qc h) as [L|L].
  - rewrite <- EX. unfold qabs. destruct (qltbP (x - q)%Qc 0%Qc); (split; [qlra|intro; exfalso; qlra]).
  - destruct (qltbP h (q - x)%Qc) as [M|M].
    + rewrite Q1. unfold qabs. destruct (qltbP (x + 1 - q)%Qc 0%Qc); (split; [qlra|intro; exfalso; qlra]).
    + destruct (Z.even n) eqn:EV.
      * rewrite <- EX. split; [|auto]. unfold qabs. destruct (qltbP (x - q)%Qc 0%Qc); qlra.
      * rewrite Q1. split; [|intros _; rewrite Z.even_add, EV; reflexivity]. unfold qabs. destruct (qltbP (x + 1 - q)%Qc 0%Qc); qlra.
Qed.
(** ... an interval is accepted exactly if the quotient is within 1e-14 of an
    integer (generate_queues.py:60-63): otherwise nothing is saved. *)
Theorem C57_multiple : forall past h r pi flow, r <> 0%Qc ->
  let q := (pi / r)%Qc in
  ((exists k : Z, (qabs (qz k - q) <= Q2Qc (1 # 100000000000000))%Qc) ->
     forall times loads, sample_times past (py_round q) h r = Ok times -> get_edge_loads flow = Ok loads ->
     length loads = length (f_q flow) ->
     (forall f, In f loads \/ In f (f_q flow) -> exists row, eval_sorted_array f times = Ok row) ->
     exists file, save_flow past h r pi flow = Ok file /\
       Forall2 (fun f row => eval_sorted_array f times = Ok row) (f_q flow) (fst file) /\
       Forall2 (fun f row => eval_sorted_array f times = Ok row) loads (snd file)) /\
  (~ (exists k : Z, (qabs (qz k - q) <= Q2Qc (1 # 100000000000000))%Qc) -> save_flow past h r pi flow = Err ValueError).
Proof.
  intros past h r pi flow R q. unfold save_flow, intervals. rewrite pydiv_ok by auto. cbn [bind]. fold q.
  assert (NEAR : (exists k : Z, (qabs (qz k - q) <= Q2Qc (1 # 100000000000000))%Qc) <-> (qabs (qz (py_round q) - q) <= Q2Qc (1 # 100000000000000))%Qc).
  { split; [|eauto]. intros [k K]. destruct (C57_round q) as [B _].
    assert (EQ : k = py_round q); [|subst; auto].
    assert (D : (qabs (qz (k - py_round q)) < 1)%Qc).
    { assert (S1 : (Q2Qc (1 # 2) + Q2Qc (1 # 100000000000000) < 1)%Qc) by (vm_compute; reflexivity).
      set (h2 := Q2Qc (1 # 2)) in *. set (e14 := Q2Qc (1 # 100000000000000)) in *. clearbody h2 e14.
      rewrite qz_sub. set (a := qz k) in *. set (b := qz (py_round q)) in *. clearbody a b q. clear - K B S1. revert K B. unfold qabs.
      destruct (qltbP (a - q)%Qc 0%Qc), (qltbP (b - q)%Qc 0%Qc), (qltbP (a - b)%Qc 0%Qc); intros; qlra. }
    assert (Z1 : (k - py_round q < 1)%Z).
    { destruct (Z_lt_le_dec (k - py_round q) 1) as [|L]; auto. exfalso. apply qz_le in L. change (qz 1) with 1%Qc in L. revert D. unfold qabs. destruct (qltbP (qz (k - py_round q)) 0%Qc); intro; qlra. }
    assert (Z2 : (-1 < k - py_round q)%Z).
    { destruct (Z_lt_le_dec (-1) (k - py_round q)) as [|L]; auto. exfalso. apply qz_le in L. change (qz (-1)) with (- (1))%Qc in L. revert D. unfold qabs. destruct (qltbP (qz (k - py_round q)) 0%Qc); intro; qlra. }
    lia. }
  rewrite NEAR. split.
  - intros B times loads T GL LL EV. destruct (qltbP (Q2Qc (1 # 100000000000000)) (qabs (qz (py_round q) - q))) as [X|X]; [exfalso; clear - X B; eapply Qclt_not_le; eauto|].
    rewrite T. cbn [bind]. rewrite GL. cbn [bind].
    assert (MM : forall l : list PL, (forall f, In f l -> exists row, eval_sorted_array f times = Ok row) ->
       exists rows, mapM (fun f => eval_sorted_array f times) l = Ok rows /\ Forall2 (fun f row => eval_sorted_array f times = Ok row) l rows).
    { induction l as [|f l IH]; intro H; [exists []; split; auto|]. destruct (H f (or_introl eq_refl)) as [row ER]. destruct IH as (rows & E & F); [intros; apply H; right; auto|].
      exists (row :: rows). cbn [mapM]. rewrite ER. cbn [bind]. rewrite E. split; auto. }
    destruct (MM loads) as (lr & -> & F1); [intros; apply EV; auto|]. cbn [bind].
    destruct (MM (f_q flow)) as (qr' & -> & F2); [intros; apply EV; auto|]. cbn [bind].
    assert (FL : forall A B (R : A -> B -> Prop) l k, Forall2 R l k -> length l = length k) by (induction 1; cbn; auto). assert (L1 := FL _ _ _ _ _ F1). assert (L2 := FL _ _ _ _ _ F2).
    destruct (Nat.eqb_spec (length qr') (length lr)); [|exfalso; lia]. eexists. split; [reflexivity|]. auto.
  - intro NB. destruct (qltbP (Q2Qc (1 # 100000000000000)) (qabs (qz (py_round q) - q))) as [X|X]; auto.
    exfalso. apply NB. clear - X. apply Qcnot_lt_le. auto.
Qed.
Example C57_multiple_example : let r := Q2Qc (1 # 3) in let pi := qz 2 in
  (exists k : Z, (qabs (qz k - pi / r) <= Q2Qc (1 # 100000000000000))%Qc) /\ py_round (pi / r)%Qc = 6%Z /\
  py_round (Q2Qc (5 # 2)) = 2%Z /\ py_round (Q2Qc (7 # 2)) = 4%Z /\ py_round (Q2Qc (- 3 # 4)) = (-1)%Z.
Proof. cbn zeta. split; [exists 6%Z; vm_compute; discriminate|]. vm_compute. auto. Qed.

Print Assumptions C48_remove_node.
Print Assumptions C48_remove_nodes.
Print Assumptions C49_no_commodities.
Print Assumptions C49_no_such_commodity.
Print Assumptions C06_constants.
Print Assumptions C57_round.
Print Assumptions C57_multiple.
