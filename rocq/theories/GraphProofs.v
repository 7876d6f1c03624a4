(** * Proofs about the graph and network models *)
From Verif Require Import Base Arrays PL RC FRC FRCProofs DynFlow DQProofs Graph GraphSpec.

Local Open Scope nat_scope.

(** ** Search *)
Lemma memP v l : mem v l = true <-> In v l.
Proof.
  unfold mem. rewrite existsb_exists. split.
  - intros (x & H & E). apply Nat.eqb_eq in E. subst; auto.
  - intro H. exists v. rewrite Nat.eqb_refl. auto.
Qed.

Inductive sreach (succs : nat -> list nat) (s : nat) : nat -> Prop :=
  | sr_here : sreach succs s s
  | sr_step v w : sreach succs s v -> In w (succs v) -> sreach succs s w.

Lemma visit_spec ends : forall found queue f' q', visit ends found queue = (f', q') ->
  NoDup found ->
  NoDup f' /\ (forall x, In x f' <-> In x found \/ In x ends) /\
  (forall x, In x q' <-> In x queue \/ (In x ends /\ ~ In x found)) /\
  length f' + length queue = length found + length q'.
Proof.
  induction ends as [|w r IH]; intros found queue f' q' H ND; cbn [visit] in H.
  - injection H as <- <-. repeat split; auto; cbn in *; tauto.
  - destruct (mem w found) eqn:M.
    + apply memP in M. apply IH in H; auto. destruct H as (A & B & C & D).
      split; [auto|]. split; [|split; [|lia]]; intro x.
      * rewrite B. cbn. split; [tauto|]. intros [|[<-|]]; auto.
      * rewrite C. cbn. split; [tauto|]. intros [|[[<-|] ?]]; auto. tauto.
    + assert (M' : ~ In w found) by (intro X; apply memP in X; congruence).
      apply IH in H; [|constructor; auto]. destruct H as (A & B & C & D). cbn [length] in D.
      split; [auto|]. split; [|split; [|lia]]; intro x.
      * rewrite B. cbn. tauto.
      * rewrite C. cbn. destruct (Nat.eq_dec w x) as [<-|]; tauto.
Qed.

Lemma search_spec succs s N : NoDup N -> forall fuel found queue,
  NoDup found -> incl found N -> (forall x y, In x N -> In y (succs x) -> In y N) ->
  (forall x, In x found -> sreach succs s x) ->
  In s found -> incl queue found ->
  (forall x y, In x found -> ~ In x queue -> In y (succs x) -> In y found) ->
  length N + length queue < fuel + length found ->
  exists l, search fuel succs found queue = Ok l /\ NoDup l /\ incl l N /\ forall x, In x l <-> sreach succs s x.
Proof.
  intro NDN. induction fuel as [|f IH]; intros found queue ND IN CL SR SI QI CLO M.
  - assert (length found <= length N) by (apply NoDup_incl_length; auto). lia.
  - destruct queue as [|v q]; cbn [search].
    + exists found. repeat split; auto. intro H. induction H; auto. apply (CLO v w); auto.
    + destruct (visit (succs v) found q) as [f' q'] eqn:V.
      destruct (visit_spec _ _ _ _ _ V ND) as (A & B & C & D).
      apply IH; auto.
      * intros x Hx. apply B in Hx. destruct Hx; auto. apply (CL v x); auto. apply IN, QI. left; auto.
      * intros x Hx. apply B in Hx. destruct Hx; auto. apply sr_step with v; auto. apply SR, QI. left; auto.
      * apply B; auto.
      * intros x Hx. apply B. apply C in Hx. destruct Hx as [Hx|[? ?]]; auto. left. apply QI. right; auto.
      * intros x y Hx Nx Hy. apply B. apply B in Hx. rewrite C in Nx.
        destruct (In_dec Nat.eq_dec x found) as [I|I].
        -- destruct (Nat.eq_dec x v) as [->|NE]; auto. left. apply (CLO x y); auto. intros [?|?]; [congruence|tauto].
        -- destruct Hx as [?|Hx]; tauto.
      * cbn [length] in M. lia.
Qed.

Lemma search_ok succs s N : NoDup N -> In s N -> (forall x y, In x N -> In y (succs x) -> In y N) ->
  exists l, search (S (length N)) succs [s] [s] = Ok l /\ NoDup l /\ incl l N /\ forall x, In x l <-> sreach succs s x.
Proof.
  intros ND SI CL. apply (search_spec succs s N); auto.
  - constructor; [intros []|constructor].
  - intros x [<-|[]]; auto.
  - intros x [<-|[]]. constructor.
  - left; auto.
  - intros x [<-|[]]; left; auto.
  - intros x y [<-|[]] NI. exfalso. apply NI. left; auto.
Qed.

(** ** Arcs and adjacency *)
Lemma out_arcs g : consistent g -> forall v w, In w (map (e_to g) (outgoing g v)) <-> In (v, w) (arcs g).
Proof.
  intros C v w. rewrite in_map_iff. unfold arcs. rewrite in_map_iff. rewrite (cs_out g C).
  split.
  - intros (r & <- & H). apply filter_In in H. destruct H as [H E]. apply Nat.eqb_eq in E. exists r. subst. auto.
  - intros (r & E & H). injection E as <- <-. exists r. rewrite filter_In, Nat.eqb_refl. auto.
Qed.
Lemma in_arcs g : consistent g -> forall v w, In v (map (e_from g) (incoming g w)) <-> In (v, w) (arcs g).
Proof.
  intros C v w. rewrite in_map_iff. unfold arcs. rewrite in_map_iff. rewrite (cs_in g C).
  split.
  - intros (r & <- & H). apply filter_In in H. destruct H as [H E]. apply Nat.eqb_eq in E. exists r. subst. auto.
  - intros (r & E & H). injection E as <- <-. exists r. rewrite filter_In, Nat.eqb_refl. auto.
Qed.
Lemma arcs_ends g : consistent g -> forall v w, In (v, w) (arcs g) -> In v (node_ids g) /\ In w (node_ids g).
Proof.
  intros C v w H. unfold arcs in H. apply in_map_iff in H. destruct H as (r & E & H). injection E as <- <-. apply cs_ends; auto.
Qed.

Lemma path_front A u v w : In (u, v) A -> path A v w -> path A u w.
Proof. intros H P. induction P. - econstructor; [constructor|auto]. - econstructor; eauto. Qed.

Lemma reachable_spec g s : consistent g -> In s (node_ids g) ->
  exists l, get_reachable_nodes g s = Ok l /\ NoDup l /\ forall v, In v l <-> path (arcs g) s v.
Proof.
  intros C HS. unfold get_reachable_nodes.
  destruct (search_ok (fun v => map (e_to g) (outgoing g v)) s (node_ids g)) as (l & E & ND & _ & H); auto.
  - apply cs_nodes; auto.
  - intros x y _ Hy. apply (out_arcs g C) in Hy. apply (arcs_ends g C) in Hy. tauto.
  - exists l. unfold node_ids in E. rewrite map_length in E. repeat split; auto.
    + intro Hv. apply H in Hv. induction Hv. constructor. econstructor; eauto. apply (out_arcs g C); auto.
    + intro Hv. apply H. induction Hv. constructor. econstructor; eauto. apply (out_arcs g C); auto.
Qed.
Lemma reaching_spec g t : consistent g -> In t (node_ids g) ->
  exists l, get_nodes_reaching g t = Ok l /\ NoDup l /\ forall v, In v l <-> path (arcs g) v t.
Proof.
  intros C HS. unfold get_nodes_reaching.
  replace (dhas (g_nodes g) t) with true by (symmetry; apply dhas_In; auto). cbn [assertb bind].
  destruct (search_ok (fun v => map (e_from g) (incoming g v)) t (node_ids g)) as (l & E & ND & _ & H); auto.
  - apply cs_nodes; auto.
  - intros x y _ Hy. apply (in_arcs g C) in Hy. apply (arcs_ends g C) in Hy. tauto.
  - exists l. unfold node_ids in E. rewrite map_length in E. repeat split; auto.
    + intro Hv. apply H in Hv. induction Hv. constructor. apply path_front with v; auto. apply (in_arcs g C); auto.
    + intro Hv. apply H. assert (G : forall a b, path (arcs g) a b -> sreach (fun v => map (e_from g) (incoming g v)) t b -> sreach (fun v => map (e_from g) (incoming g v)) t a).
      { intros a b P. induction P; auto. intro Q. apply IHP. econstructor; eauto. apply (in_arcs g C); auto. }
      apply (G v t); auto. constructor.
Qed.

(** ** Node dictionary updates *)
Lemma n_obj_dset nodes v n w : n_obj (dset nodes v n) w = if Nat.eqb v w then n else n_obj nodes w.
Proof. unfold n_obj. rewrite dget_dset. destruct (Nat.eqb v w); auto. Qed.
Lemma n_obj_ensure nodes v w : n_obj (ensure_node nodes v) w = n_obj nodes w.
Proof.
  unfold ensure_node. destruct (dhas nodes v) eqn:H; auto. rewrite n_obj_dset.
  destruct (Nat.eqb_spec v w) as [->|]; auto. unfold n_obj. unfold dhas in H. destruct (dget nodes w); auto. discriminate.
Qed.
Lemma get_out_upd_out rev nodes v l w : get_out rev (upd_out rev nodes v l) w = if Nat.eqb v w then l else get_out rev nodes w.
Proof. unfold get_out, upd_out. rewrite n_obj_dset. destruct (Nat.eqb v w), rev; auto. Qed.
Lemma get_in_upd_in rev nodes v l w : get_in rev (upd_in rev nodes v l) w = if Nat.eqb v w then l else get_in rev nodes w.
Proof. unfold get_in, upd_in. rewrite n_obj_dset. destruct (Nat.eqb v w), rev; auto. Qed.
Lemma get_in_upd_out rev nodes v l w : get_in rev (upd_out rev nodes v l) w = get_in rev nodes w.
Proof. unfold get_in, upd_out. rewrite n_obj_dset. destruct (Nat.eqb_spec v w) as [->|], rev; auto. Qed.
Lemma get_out_upd_in rev nodes v l w : get_out rev (upd_in rev nodes v l) w = get_out rev nodes w.
Proof. unfold get_out, upd_in. rewrite n_obj_dset. destruct (Nat.eqb_spec v w) as [->|], rev; auto. Qed.
Lemma get_out_ensure rev nodes v w : get_out rev (ensure_node nodes v) w = get_out rev nodes w.
Proof. unfold get_out. rewrite n_obj_ensure. auto. Qed.
Lemma get_in_ensure rev nodes v w : get_in rev (ensure_node nodes v) w = get_in rev nodes w.
Proof. unfold get_in. rewrite n_obj_ensure. auto. Qed.
Lemma outgoing_get g v : outgoing g v = get_out (g_rev g) (g_nodes g) v.
Proof. reflexivity. Qed.
Lemma incoming_get g v : incoming g v = get_in (g_rev g) (g_nodes g) v.
Proof. reflexivity. Qed.

Lemma dset_keys {B} (d : list (nat * B)) k v : In k (map fst d) -> map fst (dset d k v) = map fst d.
Proof.
  induction d as [|[j w] r IH]; cbn; [intros []|]. destruct (Nat.eqb_spec j k) as [->|N]; auto.
  intros [?|?]; [congruence|]. cbn. rewrite IH; auto.
Qed.
Lemma dset_keys_new {B} (d : list (nat * B)) k v : ~ In k (map fst d) -> map fst (dset d k v) = map fst d ++ [k].
Proof.
  induction d as [|[j w] r IH]; cbn; auto. intro H. destruct (Nat.eqb_spec j k) as [->|N]; [tauto|].
  cbn. rewrite IH; auto.
Qed.
Lemma NoDup_snoc {A} (l : list A) x : NoDup l -> ~ In x l -> NoDup (l ++ [x]).
Proof.
  induction 1; intro N; cbn. constructor; [intros []|constructor].
  constructor. rewrite in_app_iff. cbn in *. intros [?|[?|[]]]; auto. apply IHNoDup. cbn in N. tauto.
Qed.
Lemma ensure_keys nodes v : NoDup (map fst nodes) ->
  NoDup (map fst (ensure_node nodes v)) /\ (forall x, In x (map fst (ensure_node nodes v)) <-> In x (map fst nodes) \/ x = v).
Proof.
  intro ND. unfold ensure_node. destruct (dhas nodes v) eqn:H.
  - apply dhas_In in H. split; auto. intro x. split; auto. intros [| ->]; auto.
  - assert (N : ~ In v (map fst nodes)) by (intro X; apply dhas_In in X; congruence).
    rewrite dset_keys_new; auto. split. apply NoDup_snoc; auto.
    intro x. rewrite in_app_iff. cbn. intuition.
Qed.
Lemma upd_out_keys rev nodes v l : In v (map fst nodes) -> map fst (upd_out rev nodes v l) = map fst nodes.
Proof. intro. unfold upd_out. apply dset_keys; auto. Qed.
Lemma upd_in_keys rev nodes v l : In v (map fst nodes) -> map fst (upd_in rev nodes v l) = map fst nodes.
Proof. intro. unfold upd_in. apply dset_keys; auto. Qed.

(** ** [add_edge] *)
Lemma add_heap g a b r : r < length (g_heap g) -> e_obj (add_edge g a b) r = e_obj g r.
Proof. intro H. unfold e_obj, add_edge. cbn [g_heap]. rewrite app_nth1; auto. Qed.
Lemma add_heap_new g a b : e_obj (add_edge g a b) (length (g_heap g)) = mkEO a b (length (g_edges g)).
Proof. unfold e_obj, add_edge. cbn [g_heap]. rewrite app_nth2, Nat.sub_diag; auto. Qed.

Lemma add_node_ids g a b : NoDup (node_ids g) ->
  NoDup (node_ids (add_edge g a b)) /\ forall x, In x (node_ids (add_edge g a b)) <-> In x (node_ids g) \/ x = a \/ x = b.
Proof.
  intro ND. unfold node_ids, add_edge. cbn [g_nodes].
  destruct (ensure_keys (g_nodes g) a ND) as [N1 K1]. destruct (ensure_keys _ b N1) as [N2 K2].
  assert (A : In a (map fst (ensure_node (ensure_node (g_nodes g) a) b))) by (apply K2; left; apply K1; auto).
  assert (B : In b (map fst (ensure_node (ensure_node (g_nodes g) a) b))) by (apply K2; auto).
  rewrite upd_in_keys; rewrite upd_out_keys; auto. split; auto.
  intro x. rewrite K2, K1. tauto.
Qed.
Lemma add_out g a b v : outgoing (add_edge g a b) v = outgoing g v ++ (if Nat.eqb a v then [length (g_heap g)] else []).
Proof.
  rewrite !outgoing_get. unfold add_edge. cbn [g_rev g_nodes]. rewrite get_out_upd_in, get_out_upd_out, !get_out_ensure.
  destruct (Nat.eqb_spec a v) as [->|]; auto. rewrite app_nil_r. auto.
Qed.
Lemma add_in g a b v : incoming (add_edge g a b) v = incoming g v ++ (if Nat.eqb b v then [length (g_heap g)] else []).
Proof.
  rewrite !incoming_get. unfold add_edge. cbn [g_rev g_nodes]. rewrite get_in_upd_in, !get_in_upd_out, !get_in_ensure.
  destruct (Nat.eqb_spec b v) as [->|]; auto. rewrite app_nil_r. auto.
Qed.
Lemma filter_ext_on {A} (f f' : A -> bool) l : (forall x, In x l -> f x = f' x) -> filter f l = filter f' l.
Proof. induction l; cbn; auto. intro H. rewrite (H a), IHl; auto. Qed.

Lemma add_arcs g a b : (forall r, In r (g_edges g) -> r < length (g_heap g)) ->
  arcs (add_edge g a b) = arcs g ++ [if g_rev g then (b, a) else (a, b)].
Proof.
  intro AL. unfold arcs. change (g_edges (add_edge g a b)) with (g_edges g ++ [length (g_heap g)]).
  rewrite map_app. f_equal.
  - apply map_ext_in. intros r H. unfold e_from, e_to. rewrite add_heap by auto. reflexivity.
  - cbn [map]. unfold e_from, e_to. rewrite add_heap_new. cbn [g_rev add_edge eo_to eo_from]. destruct (g_rev g); auto.
Qed.

Lemma add_consistent g a b : g_rev g = false -> consistent g -> consistent (add_edge g a b).
Proof.
  intros R C. destruct C as [ids ed no en ou ic al].
  assert (NI : ~ In (length (g_heap g)) (g_edges g)) by (intro X; apply al in X; lia).
  constructor.
  - intros i r H. change (g_edges (add_edge g a b)) with (g_edges g ++ [length (g_heap g)]) in H.
    unfold e_id. destruct (Nat.lt_ge_cases i (length (g_edges g))) as [L|L].
    + rewrite nth_error_app1 in H by auto. rewrite add_heap by (apply al; eapply nth_error_In; eauto). apply ids; auto.
    + rewrite nth_error_app2 in H by auto. destruct (i - length (g_edges g)) as [|k] eqn:K; cbn in H; [|destruct k; discriminate].
      injection H as <-. rewrite add_heap_new. cbn. lia.
  - change (g_edges (add_edge g a b)) with (g_edges g ++ [length (g_heap g)]). apply NoDup_snoc; auto.
  - apply add_node_ids; auto.
  - intros r H. change (g_edges (add_edge g a b)) with (g_edges g ++ [length (g_heap g)]) in H.
    rewrite !(proj2 (add_node_ids g a b no)). apply in_app_iff in H. destruct H as [H|[<-|[]]].
    + unfold e_from, e_to. rewrite add_heap by auto. specialize (en r H). unfold e_from, e_to in en.
      change (g_rev (add_edge g a b)) with (g_rev g). tauto.
    + unfold e_from, e_to. rewrite add_heap_new. change (g_rev (add_edge g a b)) with (g_rev g). rewrite R. cbn. tauto.
  - intro v. rewrite add_out, ou. change (g_edges (add_edge g a b)) with (g_edges g ++ [length (g_heap g)]).
    rewrite filter_app. f_equal.
    + apply filter_ext_on. intros r H. unfold e_from. rewrite add_heap by auto. reflexivity.
    + cbn [filter]. unfold e_from. rewrite add_heap_new. change (g_rev (add_edge g a b)) with (g_rev g). rewrite R. reflexivity.
  - intro v. rewrite add_in, ic. change (g_edges (add_edge g a b)) with (g_edges g ++ [length (g_heap g)]).
    rewrite filter_app. f_equal.
    + apply filter_ext_on. intros r H. unfold e_to. rewrite add_heap by auto. reflexivity.
    + cbn [filter]. unfold e_to. rewrite add_heap_new. change (g_rev (add_edge g a b)) with (g_rev g). rewrite R. reflexivity.
  - intros r H. change (g_edges (add_edge g a b)) with (g_edges g ++ [length (g_heap g)]) in H.
    unfold add_edge. cbn [g_heap]. rewrite app_length. cbn. apply in_app_iff in H. destruct H as [H|[<-|[]]]; [apply al in H|]; lia.
Qed.

Lemma empty_consistent r p : consistent (mkG [] [] [] r p).
Proof.
  constructor.
  - intros [|i] x H; cbn in H; discriminate H.
  - constructor.
  - constructor.
  - intros x [].
  - intro v. destruct r; reflexivity.
  - intro v. destruct r; reflexivity.
  - intros x [].
Qed.

Lemma rev_from g r : e_from (g_reverse g) r = e_to g r.
Proof. unfold e_from, e_to, g_reverse; cbn. destruct (g_rev g); auto. Qed.
Lemma rev_to g r : e_to (g_reverse g) r = e_from g r.
Proof. unfold e_from, e_to, g_reverse; cbn. destruct (g_rev g); auto. Qed.
Lemma rev_out g v : outgoing (g_reverse g) v = incoming g v.
Proof. unfold outgoing, incoming, g_reverse; cbn. destruct (g_rev g); auto. Qed.
Lemma rev_in g v : incoming (g_reverse g) v = outgoing g v.
Proof. unfold outgoing, incoming, g_reverse; cbn. destruct (g_rev g); auto. Qed.
Lemma rev_arcs g : arcs (g_reverse g) = map swap (arcs g).
Proof. unfold arcs. rewrite map_map. apply map_ext. intro r. rewrite rev_from, rev_to. reflexivity. Qed.
Lemma rev_rev g : g_reverse (g_reverse g) = g.
Proof. destruct g; unfold g_reverse; cbn. rewrite negb_involutive. auto. Qed.

Lemma rev_consistent g : consistent g -> consistent (g_reverse g).
Proof.
  intros [ids ed no en ou ic al]. constructor; auto.
  - intros r H. rewrite rev_from, rev_to. destruct (en r H). auto.
  - intro v. rewrite rev_out, ic. apply filter_ext. intro. rewrite rev_from. auto.
  - intro v. rewrite rev_in, ou. apply filter_ext. intro. rewrite rev_to. auto.
Qed.

(** ** Histories of a graph *)
Lemma grun_spec h : forall g, consistent g -> adds_unreversed (g_rev g) h ->
  let g' := fold_left gstep h g in
  consistent g' /\ g_rev g' = reversed_after (g_rev g) h /\
  arcs g' = (if xorb (g_rev g) (g_rev g') then map swap else fun x => x) (arcs g) ++
            (if g_rev g' then map swap else fun x => x) (added h) /\
  (forall x, In x (node_ids g') <-> In x (node_ids g) \/ exists p, In p (added h) /\ (x = fst p \/ x = snd p)).
Proof.
  induction h as [|o h IH]; intros g C V; cbn [fold_left added reversed_after adds_unreversed] in *.
  - rewrite xorb_nilpotent. split; [auto|]. split; [auto|]. split.
    + destruct (g_rev g); cbn [map]; rewrite app_nil_r; auto.
    + intro x. split; auto. intros [?|(? & [] & _)]; auto.
  - destruct o as [a b|]; cbn [gstep].
    + destruct V as [R V]. assert (C' := add_consistent g a b R C).
      specialize (IH (add_edge g a b) C'). change (g_rev (add_edge g a b)) with (g_rev g) in IH. specialize (IH V).
      destruct IH as (I1 & I2 & I3 & I4). split; [auto|]. split; [auto|]. split; [|intro x; split].
      * rewrite I3. rewrite add_arcs by (apply cs_alive; auto). rewrite R. cbn [xorb].
        destruct (g_rev (fold_left gstep h (add_edge g a b))); cbn; [rewrite map_app|]; rewrite <- app_assoc; auto.
      * intro H. apply I4 in H. rewrite (proj2 (add_node_ids g a b (cs_nodes g C))) in H.
        destruct H as [[H|[->| ->]]|(p & H1 & H2)]; auto; right.
        -- exists (a, b). cbn. auto.
        -- exists (a, b). cbn. auto.
        -- exists p. cbn. auto.
      * intro H. apply I4. rewrite (proj2 (add_node_ids g a b (cs_nodes g C))).
        destruct H as [H|(p & [<-|H1] & H2)]; [auto|cbn in H2; left; tauto|right; exists p; auto].
    + assert (C' := rev_consistent g C). specialize (IH (g_reverse g) C' V).
      destruct IH as (I1 & I2 & I3 & I4). split; [auto|]. split; [auto|]. split; [|apply I4].
      rewrite I3, rev_arcs. f_equal. cbn [g_rev g_reverse].
      destruct (g_rev g), (g_rev (fold_left gstep h (g_reverse g))); cbn; auto;
      rewrite map_map; rewrite <- (map_id (arcs g)) at 2; apply map_ext; intros []; auto.
Qed.

(** ** Pickling *)
Lemma setstate_spec edges : forall g, g_rev g = false -> consistent g ->
  let g' := fold_left (fun g p => add_edge g (fst p) (snd p)) edges g in
  consistent g' /\ g_rev g' = false /\ g_pos g' = g_pos g /\ arcs g' = arcs g ++ edges /\
  (forall x, In x (node_ids g') <-> In x (node_ids g) \/ exists p, In p edges /\ (x = fst p \/ x = snd p)).
Proof.
  induction edges as [|[a b] r IH]; intros g R C; cbn [fold_left].
  - rewrite app_nil_r. split; [auto|]. split; [auto|]. split; [auto|]. split; [auto|]. intro x. split; auto. intros [?|(? & [] & _)]; auto.
  - assert (C' := add_consistent g a b R C). specialize (IH (add_edge g a b) R C').
    destruct IH as (I1 & I2 & I3 & I4 & I5). cbn [fst snd]. split; [auto|]. split; [auto|]. split; [auto|]. split; [|intro x; split].
    + rewrite I4, add_arcs by (apply cs_alive; auto). rewrite R, <- app_assoc. auto.
    + intro H. apply I5 in H. rewrite (proj2 (add_node_ids g a b (cs_nodes g C))) in H.
        destruct H as [[H|[->| ->]]|(p & H1 & H2)]; auto; right.
        * exists (a, b). cbn. auto.
        * exists (a, b). cbn. auto.
        * exists p. cbn. auto.
    + intro H. apply I5. rewrite (proj2 (add_node_ids g a b (cs_nodes g C))).
        destruct H as [H|(p & [<-|H1] & H2)]; [auto|cbn in H2; left; tauto|right; exists p; auto].
Qed.

Lemma map_filter_idx (g : graph) : consistent g -> forall v,
  map (e_id g) (outgoing g v) = filter (fun i => Nat.eqb (fst (nth i (arcs g) (0, 0))) v) (seq 0 (length (arcs g))).
Proof.
  intros C v. rewrite (cs_out g C). unfold arcs. rewrite map_length.
  assert (H : forall l k, (forall i r, nth_error l i = Some r -> nth_error (g_edges g) (k + i) = Some r) ->
     map (e_id g) (filter (fun r => e_from g r =? v) l) =
     filter (fun i => fst (nth i (map (fun r => (e_from g r, e_to g r)) (g_edges g)) (0, 0)) =? v) (seq k (length l))).
  { induction l as [|r l IH]; intros k H; cbn [filter seq length]; auto.
    assert (E := H 0 r eq_refl). rewrite Nat.add_0_r in E.
    replace (fst (nth k (map (fun r0 => (e_from g r0, e_to g r0)) (g_edges g)) (0, 0))) with (e_from g r)
      by (erewrite (nth_error_nth (map _ _) k); [|erewrite map_nth_error; eauto]; reflexivity).
    rewrite <- (IH (S k)). { destruct (e_from g r =? v); cbn; auto. f_equal. apply (cs_ids g C); auto. }
    intros i r' Hi. rewrite Nat.add_succ_l, <- Nat.add_succ_r. apply H. auto. }
  apply H. intros; auto.
Qed.
Lemma map_filter_idx_in (g : graph) : consistent g -> forall v,
  map (e_id g) (incoming g v) = filter (fun i => Nat.eqb (snd (nth i (arcs g) (0, 0))) v) (seq 0 (length (arcs g))).
Proof.
  intros C v. assert (H := map_filter_idx (g_reverse g) (rev_consistent g C) v). rewrite rev_out in H.
  etransitivity; [exact H|]. rewrite rev_arcs, map_length. apply filter_ext. intro i.
  change (0, 0) with (swap (0, 0)). rewrite map_nth. reflexivity.
Qed.

(** ** Removing an edge *)
Lemma list_remove_app r l1 l2 : ~ In r l1 -> list_remove r (l1 ++ r :: l2) = Ok (l1 ++ l2).
Proof.
  induction l1 as [|y l1 IH]; cbn; intro H. rewrite Nat.eqb_refl; auto.
  destruct (Nat.eqb_spec y r); [tauto|]. rewrite IH by tauto. auto.
Qed.
Lemma del_at_app {A} (l1 l2 : list A) x : del_at (l1 ++ x :: l2) (length l1) = Ok (l1 ++ l2).
Proof.
  unfold del_at. rewrite app_length. cbn [length].
  replace (length l1 <? length l1 + S (length l2)) with true by (symmetry; apply Nat.ltb_lt; lia).
  rewrite firstn_app, firstn_all, Nat.sub_diag. cbn [firstn]. rewrite app_nil_r.
  f_equal. f_equal. rewrite skipn_app, skipn_all2 by lia.
  replace (S (length l1) - length l1) with 1 by lia. reflexivity.
Qed.
Lemma split_at {A} (l : list A) i x : nth_error l i = Some x -> exists l1 l2, l = l1 ++ x :: l2 /\ length l1 = i.
Proof. apply nth_error_split. Qed.

Lemma set_id_nth heap r i q : nth q (set_id heap r i) (mkEO 0 0 0) =
  if (Nat.eqb q r && (r <? length heap))%bool then mkEO (eo_from (nth r heap (mkEO 0 0 0))) (eo_to (nth r heap (mkEO 0 0 0))) i
  else nth q heap (mkEO 0 0 0).
Proof.
  unfold set_id. destruct (nth_error heap r) as [o|] eqn:E.
  - assert (L : r < length heap) by (apply nth_error_Some; congruence).
    replace (r <? length heap) with true by (symmetry; apply Nat.ltb_lt; auto). rewrite andb_true_r.
    erewrite (nth_error_nth heap r); eauto.
    destruct (split_at _ _ _ E) as (l1 & l2 & -> & <-).
    rewrite firstn_app, firstn_all, Nat.sub_diag. cbn [firstn]. rewrite app_nil_r.
    rewrite skipn_app, skipn_all2 by lia. replace (S (length l1) - length l1) with 1 by lia. cbn [skipn app].
    destruct (Nat.eqb_spec q (length l1)) as [->|N].
    + rewrite app_nth2, Nat.sub_diag by lia. auto.
    + destruct (Nat.lt_ge_cases q (length l1)).
      * rewrite !app_nth1; auto.
      * rewrite !app_nth2 by auto. destruct (q - length l1) eqn:K; [lia|]. auto.
  - apply nth_error_None in E. replace (r <? length heap) with false by (symmetry; apply Nat.ltb_ge; auto). rewrite andb_false_r. auto.
Qed.
Lemma set_id_len heap r i : length (set_id heap r i) = length heap.
Proof.
  unfold set_id. destruct (nth_error heap r) as [o|] eqn:E; auto.
  destruct (split_at _ _ _ E) as (l1 & l2 & -> & <-).
  rewrite firstn_app, firstn_all, Nat.sub_diag. cbn [firstn]. rewrite app_nil_r.
  rewrite skipn_app, skipn_all2 by lia. replace (S (length l1) - length l1) with 1 by lia. cbn [skipn app].
  rewrite !app_length. cbn. auto.
Qed.
Lemma renumber_spec edges : forall heap i, NoDup edges -> (forall r, In r edges -> r < length heap) ->
  let heap' := renumber heap edges i in
  length heap' = length heap /\
  (forall q, eo_from (nth q heap' (mkEO 0 0 0)) = eo_from (nth q heap (mkEO 0 0 0)) /\
             eo_to (nth q heap' (mkEO 0 0 0)) = eo_to (nth q heap (mkEO 0 0 0))) /\
  (forall j r, nth_error edges j = Some r -> eo_id (nth r heap' (mkEO 0 0 0)) = i + j) /\
  (forall q, ~ In q edges -> nth q heap' (mkEO 0 0 0) = nth q heap (mkEO 0 0 0)).
Proof.
  induction edges as [|r edges IH]; intros heap i ND AL; cbn [renumber].
  - split; [auto|]. split; [auto|]. split; [|auto]. intros [|j] x H; discriminate H.
  - inversion_clear ND. destruct (IH (set_id heap r i) (S i)) as (A & B & C & D); auto.
    { intros x Hx. rewrite set_id_len. apply AL. right; auto. }
    rewrite set_id_len in A. split; [auto|]. split; [|split].
    + intro q. rewrite (proj1 (B q)), (proj2 (B q)), set_id_nth.
      destruct (Nat.eqb_spec q r) as [->|]; cbn [andb]; auto. destruct (r <? length heap); auto.
    + intros [|j] x Hx; cbn in Hx.
      * injection Hx as <-. rewrite D by auto. rewrite set_id_nth, Nat.eqb_refl.
        replace (r <? length heap) with true by (symmetry; apply Nat.ltb_lt, AL; left; auto). cbn. lia.
      * rewrite (C j x Hx). lia.
    + intros q Hq. rewrite D by (intro; apply Hq; right; auto). rewrite set_id_nth.
      destruct (Nat.eqb_spec q r) as [->|]; cbn [andb]; auto. exfalso; apply Hq; left; auto.
Qed.


Lemma remove_spec n r : consistent (w_graph n) -> In r (g_edges (w_graph n)) ->
  length (w_cap n) = length (g_edges (w_graph n)) -> length (w_tau n) = length (g_edges (w_graph n)) ->
  let i := e_id (w_graph n) r in
  exists n', nw_remove_edge n r = Ok n' /\ consistent (w_graph n') /\
    nth_error (g_edges (w_graph n)) i = Some r /\
    g_edges (w_graph n') = firstn i (g_edges (w_graph n)) ++ skipn (S i) (g_edges (w_graph n)) /\
    w_cap n' = firstn i (w_cap n) ++ skipn (S i) (w_cap n) /\
    w_tau n' = firstn i (w_tau n) ++ skipn (S i) (w_tau n) /\
    w_com n' = w_com n /\ g_rev (w_graph n') = g_rev (w_graph n) /\ g_pos (w_graph n') = g_pos (w_graph n) /\
    node_ids (w_graph n') = node_ids (w_graph n) /\
    length (g_heap (w_graph n')) = length (g_heap (w_graph n)) /\
    (forall q, e_from (w_graph n') q = e_from (w_graph n) q /\ e_to (w_graph n') q = e_to (w_graph n) q).
Proof.
  intros C HR LC LT. destruct n as [g cap tau com]. cbn [w_graph w_cap w_tau w_com] in *.
  destruct (In_nth_error _ _ HR) as [i0 E0]. assert (I0 := cs_ids g C _ _ E0). rewrite I0.
  destruct (split_at _ _ _ E0) as (l1 & l2 & EE & <-).
  assert (ND := cs_edges g C). rewrite EE in ND.
  assert (NI : ~ In r (l1 ++ l2)) by (apply NoDup_remove_2; auto).
  assert (ND' : NoDup (l1 ++ l2)) by (apply NoDup_remove_1 in ND; auto).
  assert (F1 : forall v, list_remove r (filter (fun x => e_to g x =? v) (g_edges g)) =
     if e_to g r =? v then Ok (filter (fun x => e_to g x =? v) (l1 ++ l2)) else list_remove r (filter (fun x => e_to g x =? v) (g_edges g))).
  { intro v. destruct (e_to g r =? v) eqn:X; auto. rewrite EE, !filter_app. cbn [filter]. rewrite X.
    apply list_remove_app. rewrite filter_In. intros [? _]. apply NI, in_app_iff; auto. }
  assert (F2 : forall v, list_remove r (filter (fun x => e_from g x =? v) (g_edges g)) =
     if e_from g r =? v then Ok (filter (fun x => e_from g x =? v) (l1 ++ l2)) else list_remove r (filter (fun x => e_from g x =? v) (g_edges g))).
  { intro v. destruct (e_from g r =? v) eqn:X; auto. rewrite EE, !filter_app. cbn [filter]. rewrite X.
    apply list_remove_app. rewrite filter_In. intros [? _]. apply NI, in_app_iff; auto. }
  assert (G1 : firstn (length l1) (g_edges g) ++ skipn (S (length l1)) (g_edges g) = l1 ++ l2).
  { pose proof (del_at_app l1 l2 r) as X. rewrite <- EE in X. unfold del_at in X. destruct (length l1 <? length (g_edges g)); congruence. }
  unfold nw_remove_edge. cbn [w_graph w_cap w_tau w_com]. rewrite I0.
  rewrite (cs_in g C), F1, Nat.eqb_refl. cbn [bind]. rewrite get_out_upd_in, <- outgoing_get, (cs_out g C), F2, Nat.eqb_refl. cbn [bind].
  assert (DE : del_at (g_edges g) (length l1) = Ok (l1 ++ l2)) by (rewrite EE; apply del_at_app). rewrite DE. cbn [bind].
  assert (DL : forall l : list Qc, length l = length (g_edges g) -> del_at l (length l1) = Ok (firstn (length l1) l ++ skipn (S (length l1)) l)).
  { intros l L. unfold del_at. rewrite L, EE, app_length. cbn [length]. replace (length l1 <? length l1 + S (length l2)) with true by (symmetry; apply Nat.ltb_lt; lia). auto. }
  rewrite (DL cap LC), (DL tau LT). cbn [bind].
  destruct (cs_ends g C r HR) as [EF ET].
  assert (AL : forall x, In x (l1 ++ l2) -> x < length (g_heap g)).
  { intros x Hx. apply (cs_alive g C). rewrite EE. apply in_app_iff in Hx. apply in_app_iff. cbn. tauto. }
  destruct (renumber_spec (l1 ++ l2) (g_heap g) 0 ND' AL) as (R1 & R2 & R3 & R4).
  eexists. split; [reflexivity|]. cbn [w_graph w_cap w_tau w_com g_edges g_rev g_pos g_heap].
  match goal with |- consistent ?G /\ _ => set (g' := G) end.
  assert (FT : forall q, e_from g' q = e_from g q /\ e_to g' q = e_to g q).
  { intro q. unfold e_from, e_to, e_obj. subst g'. cbn [g_rev g_heap]. destruct (R2 q) as [-> ->]. auto. }
  assert (NN : node_ids g' = node_ids g).
  { unfold node_ids. subst g'. cbn [g_nodes]. rewrite upd_out_keys; rewrite upd_in_keys; auto. }
  split; [|repeat split; auto; try apply FT].
  constructor.
  - intros j x H. apply R3. auto.
  - auto.
  - rewrite NN. apply (cs_nodes g C).
  - intros x H. rewrite NN. destruct (FT x) as [-> ->]. apply (cs_ends g C). rewrite EE. subst g'; cbn [g_edges] in H. apply in_app_iff in H. apply in_app_iff. cbn. tauto.
  - intro v. rewrite (filter_ext (fun x => e_from g' x =? v) (fun x => e_from g x =? v)) by (intro x; rewrite (proj1 (FT x)); auto).
    rewrite outgoing_get. subst g'. cbn [g_rev g_nodes g_edges]. rewrite get_out_upd_out, get_out_upd_in, <- outgoing_get, (cs_out g C).
    destruct (Nat.eqb_spec (e_from g r) v) as [<-|N]; auto.
    rewrite EE, !filter_app. cbn [filter]. apply Nat.eqb_neq in N. rewrite N. auto.
  - intro v. rewrite (filter_ext (fun x => e_to g' x =? v) (fun x => e_to g x =? v)) by (intro x; rewrite (proj2 (FT x)); auto).
    rewrite incoming_get. subst g'. cbn [g_rev g_nodes g_edges]. rewrite get_in_upd_out, get_in_upd_in, <- incoming_get, (cs_in g C).
    destruct (Nat.eqb_spec (e_to g r) v) as [<-|N]; auto.
    rewrite EE, !filter_app. cbn [filter]. apply Nat.eqb_neq in N. rewrite N. auto.
  - intros x H. subst g'. cbn [g_heap g_edges] in *. rewrite R1. auto.
Qed.

(** ** Histories of a network *)
Definition row_ends (t : table) (x : row) : nat * nat := if t_rev t then (x_to x, x_from x) else (x_from x, x_to x).
Record tracks (n : network) (t : table) : Prop := mkTracks {
  tk_cons : consistent (w_graph n);
  tk_rev : g_rev (w_graph n) = t_rev t;
  tk_edges : g_edges (w_graph n) = map x_ref (t_rows t);
  tk_created : length (g_heap (w_graph n)) = t_created t;
  tk_ends : forall x, In x (t_rows t) -> e_from (w_graph n) (x_ref x) = fst (row_ends t x) /\ e_to (w_graph n) (x_ref x) = snd (row_ends t x);
  tk_tau : w_tau n = map x_tau (t_rows t);
  tk_cap : w_cap n = map x_cap (t_rows t) }.

Lemma skipn_S_In {A} (l : list A) i x : In x (skipn (S i) l) -> In x (skipn i l).
Proof. revert i. induction l as [|y l IH]; intros i H; [destruct H|]. destruct i; cbn in *; auto. Qed.

Lemma tracks_step n t o : tracks n t -> nvalid t [o] -> exists n', nstep n o = Ok n' /\ tracks n' (tstep t o).
Proof.
  intros [C R E L EN TA CA] [V _]. destruct o as [a b tau c|i|]; cbn [nstep tstep].
  - eexists. split; [reflexivity|]. rewrite V in R. constructor; cbn [w_graph nw_add_edge t_rev t_rows t_created w_tau w_cap].
    + apply add_consistent; auto.
    + cbn. congruence.
    + cbn [add_edge g_edges]. rewrite map_app, E, L. auto.
    + cbn [add_edge g_heap]. rewrite app_length, L. cbn. lia.
    + intros x H. apply in_app_iff in H. unfold e_from, e_to. change (g_rev (add_edge (w_graph n) a b)) with (g_rev (w_graph n)).
      destruct H as [H|[<-|[]]].
      * rewrite add_heap; [apply (EN x H)|]. apply (cs_alive _ C). rewrite E. apply in_map; auto.
      * cbn [x_ref]. rewrite <- L, add_heap_new, R. unfold row_ends. cbn [t_rev]. rewrite V. auto.
    + rewrite map_app, TA. auto.
    + rewrite map_app, CA. auto.
  - destruct (nth_error (t_rows t) i) as [x|] eqn:NX; [|apply nth_error_None in NX; lia].
    assert (NE : nth_error (g_edges (w_graph n)) i = Some (x_ref x)) by (rewrite E; apply map_nth_error; auto).
    rewrite NE. destruct (remove_spec n (x_ref x)) as (n' & -> & C' & _ & E' & CA' & TA' & _ & R' & _ & _ & L' & EN'); auto.
    { eapply nth_error_In; eauto. }
    { rewrite CA, E, !map_length; auto. }
    { rewrite TA, E, !map_length; auto. }
    assert (ID := cs_ids _ C _ _ NE). rewrite ID in *.
    exists n'. split; auto. constructor; cbn [t_rev t_rows t_created]; try congruence.
    + rewrite E', E, map_app, firstn_map, skipn_map. auto.
    + intros y H. destruct (EN' (x_ref y)) as [-> ->]. unfold row_ends. cbn [t_rev]. apply (EN y).
      apply in_app_iff in H. rewrite <- (firstn_skipn i (t_rows t)). apply in_app_iff. destruct H; auto. right.
      apply skipn_S_In; auto.
    + rewrite TA', TA, map_app, firstn_map, skipn_map. auto.
    + rewrite CA', CA, map_app, firstn_map, skipn_map. auto.
  - eexists. split; [reflexivity|]. constructor; cbn [w_graph t_rev t_rows t_created w_tau w_cap]; auto.
    + apply rev_consistent; auto.
    + cbn. congruence.
    + intros x H. rewrite rev_from, rev_to. destruct (EN x H) as [-> ->]. unfold row_ends. cbn [t_rev]. destruct (t_rev t); auto.
Qed.
Lemma tracks_run h : forall n t, tracks n t -> nvalid t h -> exists n', foldM nstep h n = Ok n' /\ tracks n' (fold_left tstep h t).
Proof.
  induction h as [|o h IH]; intros n t T V; cbn [foldM fold_left].
  - eauto.
  - cbn [nvalid] in V. destruct V as [V1 V2]. destruct (tracks_step n t o T) as (n' & -> & T'); [cbn; auto|]. cbn [bind]. apply IH; auto.
Qed.
Lemma tracks_empty : tracks nw_empty (mkTable [] 0 false).
Proof. constructor; cbn; auto. apply empty_consistent. intros ? []. Qed.

(** ** Reversed graphs break *)
Definition misfiled (g : graph) : Prop :=
  exists v r, In r (outgoing g v) /\ (r < length (g_heap g))%nat /\ e_from g r <> v.
Lemma misfiled_not_consistent g : misfiled g -> ~ consistent g.
Proof.
  intros (v & r & H & _ & N) C. rewrite (cs_out g C) in H. apply filter_In in H. destruct H as [_ H].
  apply Nat.eqb_eq in H. congruence.
Qed.
Lemma misfiled_add g a b : misfiled g -> misfiled (add_edge g a b).
Proof.
  intros (v & r & H & L & N). exists v, r. rewrite add_out, in_app_iff. split; auto. split.
  - unfold add_edge. cbn [g_heap]. rewrite app_length. cbn. lia.
  - unfold e_from. rewrite add_heap; auto.
Qed.
Lemma add_rev_misfiled g a b : g_rev g = true -> a <> b -> misfiled (add_edge g a b).
Proof.
  intros R N. exists a, (length (g_heap g)). rewrite add_out, Nat.eqb_refl, in_app_iff. split; [right; left; auto|]. split.
  - unfold add_edge. cbn [g_heap]. rewrite app_length. cbn. lia.
  - unfold e_from. rewrite add_heap_new. change (g_rev (add_edge g a b)) with (g_rev g). rewrite R. cbn. auto.
Qed.
Lemma setstate_rev edges : forall g, g_rev g = true -> (forall r, In r (g_edges g) -> r < length (g_heap g)) ->
  let g' := fold_left (fun g p => add_edge g (fst p) (snd p)) edges g in
  g_rev g' = true /\ arcs g' = arcs g ++ map swap edges /\
  (misfiled g \/ (exists p, In p edges /\ fst p <> snd p) -> misfiled g').
Proof.
  induction edges as [|[a b] r IH]; intros g R AL; cbn [fold_left].
  - rewrite app_nil_r. split; auto. split; auto. intros [|(? & [] & _)]; auto.
  - cbn [fst snd]. destruct (IH (add_edge g a b) R) as (I1 & I2 & I3).
    { intros x H. cbn [add_edge g_edges g_heap] in *. rewrite app_length. cbn. apply in_app_iff in H.
      destruct H as [H|[<-|[]]]; [apply AL in H|]; lia. }
    split; auto. split.
    + rewrite I2, add_arcs by auto. rewrite R, <- app_assoc. auto.
    + intro H. apply I3. destruct H as [H|(p & [<-|H1] & H2)].
      * left. apply misfiled_add; auto.
      * left. apply add_rev_misfiled; auto.
      * right. eauto.
Qed.

(** ** Commodities survive [__setstate__] *)
Lemma add_commodities_ok cs : forall n,
  (forall c, In c cs -> In (k_sink c) (node_ids (w_graph n)) /\ forall s, In s (map fst (k_sources c)) -> In s (node_ids (w_graph n))) ->
  foldM (fun n c => nw_add_commodity n (k_sources c) (k_sink c) (k_pred c)) cs n =
  Ok (mkNw (w_graph n) (w_cap n) (w_tau n) (w_com n ++ cs)).
Proof.
  induction cs as [|c cs IH]; intros n H; cbn [foldM].
  - rewrite app_nil_r. destruct n; auto.
  - assert (E : nw_add_commodity n (k_sources c) (k_sink c) (k_pred c) = Ok (mkNw (w_graph n) (w_cap n) (w_tau n) (w_com n ++ [c]))).
    { unfold nw_add_commodity. destruct (H c (or_introl eq_refl)) as [H1 H2].
      replace (forallb (fun p => dhas (g_nodes (w_graph n)) (fst p)) (k_sources c)) with true.
      2:{ symmetry. apply forallb_forall. intros p Hp. apply dhas_In, H2, in_map; auto. }
      cbn [assertb bind]. replace (dhas (g_nodes (w_graph n)) (k_sink c)) with true by (symmetry; apply dhas_In; auto).
      cbn [assertb bind]. destruct c; auto. }
    rewrite E. cbn [bind]. rewrite IH.
    + cbn [w_graph w_cap w_tau w_com]. rewrite <- app_assoc. auto.
    + cbn [w_graph]. intros c' Hc. apply H. right; auto.
Qed.
Lemma add_commodities_err cs : forall n,
  (exists c, In c cs /\ ~ In (k_sink c) (node_ids (w_graph n))) ->
  foldM (fun n c => nw_add_commodity n (k_sources c) (k_sink c) (k_pred c)) cs n = Err AssertionError.
Proof.
  induction cs as [|c cs IH]; intros n (c0 & H & N); [destruct H|]. cbn [foldM].
  unfold nw_add_commodity at 1. destruct (forallb _ (k_sources c)); cbn [assertb bind]; auto.
  destruct (dhas (g_nodes (w_graph n)) (k_sink c)) eqn:D; cbn [assertb bind]; auto.
  apply IH. cbn [w_graph]. exists c0. split; auto. destruct H as [<-|]; auto.
  exfalso. apply N. apply dhas_In; auto.
Qed.

(** ** The clean-up functions *)
Lemma compress_fold l : forall n rem, w_com n <> [] ->
  foldM compress_step l (n, rem) =
  if existsb (fun v => Nat.eqb (length (outgoing (w_graph n) v)) 1 && Nat.eqb (length (incoming (w_graph n) v)) 1)%bool l
  then Err AttributeError else Ok (n, rem).
Proof.
  induction l as [|v l IH]; intros n rem H; cbn [foldM existsb]; auto.
  unfold compress_step at 1. destruct (outgoing (w_graph n) v) as [|o [|? ?]], (incoming (w_graph n) v) as [|i [|? ?]]; cbn [length Nat.eqb andb orb bind]; auto;
  try (destruct (length l0); cbn [Nat.eqb andb orb bind]; auto).
  destruct (w_com n); [congruence|]. reflexivity.
Qed.
