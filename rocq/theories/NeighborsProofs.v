(** * neighboring_edges: breadth-first search *)
From Verif Require Import Base FRC Graph GraphSpec GraphProofs Neighbors.

(** ** Specification *)
(** [within R d e e']: [e'] can be reached from [e] by at most [d] steps of [R] *)
Inductive chain (R : nat -> nat -> Prop) : nat -> nat -> nat -> Prop :=
| ch_0 e : chain R 0 e e
| ch_S k e e1 e2 : chain R k e e1 -> R e1 e2 -> chain R (S k) e e2.
Definition within (R : nat -> nat -> Prop) (d : nat) (e e' : nat) : Prop := exists k, (k <= d)%nat /\ chain R k e e'.
(** [e'] starts where [e] ends; [e'] ends where [e] starts; they have a common end *)
Definition next_edge (g : graph) (e e' : nat) : Prop := In e' (g_edges g) /\ e_from g e' = e_to g e.
Definition prev_edge (g : graph) (e e' : nat) : Prop := In e' (g_edges g) /\ e_to g e' = e_from g e.
Definition touching_edge (g : graph) (e e' : nat) : Prop :=
  In e' (g_edges g) /\ exists v, (v = e_from g e \/ v = e_to g e) /\ (v = e_from g e' \/ v = e_to g e').

(** ** Proofs *)
Lemma mem_iff x l : mem x l = true <-> In x l.
Proof. unfold mem. rewrite existsb_exists. split; [intros [y [I E]]; apply Nat.eqb_eq in E; subst; exact I|intro I; exists x; split; [exact I|apply Nat.eqb_refl]]. Qed.
Lemma mem_spec x l : Bool.reflect (In x l) (mem x l).
Proof. apply iff_reflect. symmetry. apply mem_iff. Qed.
Lemma nb_add_In x y l : In y (nb_add x l) <-> y = x \/ In y l.
Proof.
  unfold nb_add. destruct (mem_spec x l) as [I|I]; [split; [auto|intros [->|K]; assumption]|]. rewrite in_app_iff. cbn [In]. split; intros [K|K]; auto; [destruct K as [->|[]]; auto].
Qed.

Lemma nb_edges_ok far l : forall result discovered new_queue r' d' q',
  nb_edges far l (result, discovered, new_queue) = (r', d', q') ->
  (forall e, In e r' <-> In e result \/ In e l) /\
  (forall v, In v d' <-> In v discovered \/ exists e, In e l /\ far e = v) /\
  (forall v, In v q' <-> In v new_queue \/ (~ In v discovered /\ exists e, In e l /\ far e = v)).
Proof.
  induction l as [|a l IH]; intros result discovered new_queue r' d' q' H; cbn [nb_edges] in H.
  - injection H as <- <- <-. split; [|split]; intro x; cbn [In]; split; try tauto; [intros [K|[e [[] _]]]; exact K|intros [K|[_ [e [[] _]]]]; exact K].
  - destruct (mem_spec (far a) discovered) as [I|I]; apply IH in H; destruct H as [H1 [H2 H3]]; (split; [|split]).
    + intro e. rewrite H1, nb_add_In. cbn [In]. intuition.
    + intro v. rewrite H2. cbn [In]. split; [intros [K|[e [K1 K2]]]; [auto|right; eauto]|]. intros [K|[e [[<-|K1] K2]]]; [auto|subst; auto|right; eauto].
    + intro v. rewrite H3. cbn [In]. split; [intros [K|[K0 [e [K1 K2]]]]; [auto|right; eauto]|]. intros [K|[K0 [e [[<-|K1] K2]]]]; [auto|subst; contradiction|right; eauto].
    + intro e. rewrite H1, nb_add_In. cbn [In]. intuition.
    + intro v. rewrite H2, nb_add_In. cbn [In]. split; [intros [[->|K]|[e [K1 K2]]]; [right; eauto|auto|right; eauto]|]. intros [K|[e [[<-|K1] K2]]]; [auto|auto|right; eauto].
    + intro v. rewrite H3, in_app_iff, nb_add_In. cbn [In]. split.
      * intros [[K|[<-|[]]]|[K0 [e [K1 K2]]]]; [auto|right; split; [exact I|eauto]|right; split; [tauto|eauto]].
      * intros [K|[K0 [e [[<-|K1] K2]]]]; [auto|auto|]. destruct (Nat.eq_dec v (far a)) as [->|N]; [auto|right; split; [tauto|eauto]].
Qed.

(** one round, for any per-node edge lists [adj] *)
Section Round.
Variable stepf : (list nat * list nat * list nat) -> nat -> (list nat * list nat * list nat).
Variable adj : nat -> list (nat * nat).   (* edge, far end *)
Hypothesis STEP : forall v r d q r' d' q', stepf (r, d, q) v = (r', d', q') ->
  (forall e, In e r' <-> In e r \/ exists w, In (e, w) (adj v)) /\
  (forall w, In w d' <-> In w d \/ exists e, In (e, w) (adj v)) /\
  (forall w, In w q' <-> In w q \/ (~ In w d /\ exists e, In (e, w) (adj v))).
Lemma round_ok : forall l r d q r' d' q', fold_left stepf l (r, d, q) = (r', d', q') ->
  (forall e, In e r' <-> In e r \/ exists v w, In v l /\ In (e, w) (adj v)) /\
  (forall w, In w d' <-> In w d \/ exists v e, In v l /\ In (e, w) (adj v)) /\
  (forall w, In w q' <-> In w q \/ (~ In w d /\ exists v e, In v l /\ In (e, w) (adj v))).
Proof.
  induction l as [|a l IH]; intros r d q r' d' q' H; cbn [fold_left] in H.
  - injection H as <- <- <-. split; [|split]; intro x; cbn [In]; split; try tauto; [intros [K|[? [? [[] _]]]]; exact K|intros [K|[? [? [[] _]]]]; exact K|intros [K|[_ [? [? [[] _]]]]]; exact K].
  - destruct (stepf (r, d, q) a) as [[r1 d1] q1] eqn:E. apply STEP in E. destruct E as [E1 [E2 E3]]. apply IH in H. destruct H as [H1 [H2 H3]]. split; [|split].
    + intro e. rewrite H1, E1. cbn [In]. split; [intros [[K|[w K]]|[v [w [K1 K2]]]]; [auto|right; eauto|right; eauto 6]|]. intros [K|[v [w [[<-|K1] K2]]]]; [auto|left; eauto|right; eauto].
    + intro e. rewrite H2, E2. cbn [In]. split; [intros [[K|[w K]]|[v [w [K1 K2]]]]; [auto|right; eauto|right; eauto 6]|]. intros [K|[v [w [[<-|K1] K2]]]]; [auto|left; eauto|right; eauto].
    + intro w. rewrite H3, E3, E2. cbn [In]. split.
      * intros [[K|[K0 [e K]]]|[K0 [v [e [K1 K2]]]]]; [auto|right; split; [auto|eauto]|right; split; [tauto|eauto 6]].
      * intros [K|[K0 [v [e [[<-|K1] K2]]]]]; [auto|left; right; split; [auto|eauto]|].
        destruct (in_dec (fun p1 p2 : nat => Nat.eq_dec p1 p2) w (map snd (adj a))) as [I|I].
        -- apply in_map_iff in I. destruct I as [[e1 w1] [Q I]]. cbn in Q. subst w1. left. right. split; [exact K0|eauto].
        -- right. split; [|eauto]. intros [K|[e1 K]]; [exact (K0 K)|]. apply I. apply in_map_iff. exists (e1, w). auto.
Qed.
End Round.
Definition adj_of (far : nat -> nat) (l : list nat) : list (nat * nat) := map (fun e => (e, far e)) l.
Lemma adj_of_In far l e w : In (e, w) (adj_of far l) <-> In e l /\ far e = w.
Proof. unfold adj_of. rewrite in_map_iff. split; [intros [x [E I]]; injection E as <- <-; auto|intros [I <-]; eauto]. Qed.
Lemma step_one far l r d q r' d' q' : nb_edges far l (r, d, q) = (r', d', q') ->
  (forall e, In e r' <-> In e r \/ exists w, In (e, w) (adj_of far l)) /\
  (forall w, In w d' <-> In w d \/ exists e, In (e, w) (adj_of far l)) /\
  (forall w, In w q' <-> In w q \/ (~ In w d /\ exists e, In (e, w) (adj_of far l))).
Proof.
  intro H. apply nb_edges_ok in H. destruct H as [H1 [H2 H3]]. split; [|split].
  - intro e. rewrite H1. split; (intros [K|K]; [auto|right]); [exists (far e); apply adj_of_In; auto|destruct K as [w K]; apply adj_of_In in K; apply K].
  - intro w. rewrite H2. split; (intros [K|[e K]]; [auto|right]); exists e; apply adj_of_In; exact K.
  - intro w. rewrite H3. split; (intros [K|[K0 [e K]]]; [auto|right]); (split; [exact K0|]); exists e; apply adj_of_In; exact K.
Qed.
Lemma step_two far1 l1 far2 l2 r d q r' d' q' : nb_edges far2 l2 (nb_edges far1 l1 (r, d, q)) = (r', d', q') ->
  (forall e, In e r' <-> In e r \/ exists w, In (e, w) (adj_of far1 l1 ++ adj_of far2 l2)) /\
  (forall w, In w d' <-> In w d \/ exists e, In (e, w) (adj_of far1 l1 ++ adj_of far2 l2)) /\
  (forall w, In w q' <-> In w q \/ (~ In w d /\ exists e, In (e, w) (adj_of far1 l1 ++ adj_of far2 l2))).
Proof.
  destruct (nb_edges far1 l1 (r, d, q)) as [[r1 d1] q1] eqn:E. intro H. apply step_one in E, H. destruct E as [E1 [E2 E3]], H as [H1 [H2 H3]].
  assert (AP : forall e w, In (e, w) (adj_of far1 l1 ++ adj_of far2 l2) <-> In (e, w) (adj_of far1 l1) \/ In (e, w) (adj_of far2 l2)) by (intros; apply in_app_iff).
  split; [|split].
  - intro e. rewrite H1, E1. setoid_rewrite AP. split; [intros [[K|[w K]]|[w K]]; eauto|]. intros [K|[w [K|K]]]; eauto.
  - intro e. rewrite H2, E2. setoid_rewrite AP. split; [intros [[K|[w K]]|[w K]]; eauto|]. intros [K|[w [K|K]]]; eauto.
  - intro w. rewrite H3, E3, E2. setoid_rewrite AP. split.
    + intros [[K|[K0 [e K]]]|[K0 [e K]]]; [auto|right; eauto|right; split; [tauto|eauto]].
    + intros [K|[K0 [e [K|K]]]]; [auto|left; right; eauto|]. destruct (in_dec Nat.eq_dec w (map snd (adj_of far1 l1))) as [I|I].
      * apply in_map_iff in I. destruct I as [[e1 w1] [Q I]]. cbn in Q. subst w1. left. right. split; [exact K0|eauto].
      * right. split; [|eauto]. intros [J|[e1 J]]; [exact (K0 J)|]. apply I. apply in_map_iff. exists (e1, w). auto.
Qed.

Lemma chain_edge (R : nat -> nat -> Prop) k e e' : chain R k e e' -> k = 0%nat /\ e' = e \/ exists j e1, k = S j /\ chain R j e e1 /\ R e1 e'.
Proof. intro H. inversion H; subst; [auto|right; eauto]. Qed.
Lemma within_step R d e e' : within R (S d) e e' <-> within R d e e' \/ exists e1, within R d e e1 /\ R e1 e'.
Proof.
  split.
  - intros [k [L H]]. destruct (chain_edge _ _ _ _ H) as [[-> ->]|[j [e1 [-> [H1 H2]]]]].
    + left. exists 0%nat. split; [lia|constructor].
    + right. exists e1. split; [exists j; split; [lia|exact H1]|exact H2].
  - intros [[k [L H]]|[e1 [[k [L H]] K]]]; [exists k; split; [lia|exact H]|]. exists (S k). split; [lia|econstructor; eauto].
Qed.
Lemma within_0 R e e' : within R 0 e e' <-> e' = e.
Proof. split; [intros [k [L H]]; destruct (chain_edge _ _ _ _ H) as [[_ ->]|[j [e1 [-> _]]]]; [reflexivity|lia]|intros ->; exists 0%nat; split; [lia|constructor]]. Qed.

Section Search.
Variable g : graph.
Hypothesis C : consistent g.
Lemma outs v e : In e (outgoing g v) <-> In e (g_edges g) /\ e_from g e = v.
Proof. rewrite (cs_out g C v), filter_In. destruct (Nat.eqb_spec (e_from g e) v); intuition congruence. Qed.
Lemma ins v e : In e (incoming g v) <-> In e (g_edges g) /\ e_to g e = v.
Proof. rewrite (cs_in g C v), filter_In. destruct (Nat.eqb_spec (e_to g e) v); intuition congruence. Qed.

(** forward: the queue is replaced, so the search is a proper breadth-first search *)
Record finv (edge n : nat) (result discovered queue : list nat) : Prop := {
  fi_res : forall e, In e result <-> within (next_edge g) n edge e;
  fi_disc : forall v, In v discovered <-> exists e, within (next_edge g) n edge e /\ e_to g e = v;
  fi_q : forall v, In v queue -> In v discovered;
  fi_done : forall v e, In v discovered -> ~ In v queue -> In e (outgoing g v) -> In e result /\ In (e_to g e) discovered }.
Lemma fwd_ok edge : forall m n result discovered queue, finv edge n result discovered queue ->
  forall e, In e (fwd_loop g m result discovered queue) <-> within (next_edge g) (n + m) edge e.
Proof.
  induction m as [|m IH]; intros n result discovered queue I e; cbn [fwd_loop]; [rewrite Nat.add_0_r; apply (fi_res _ _ _ _ _ I)|].
  destruct (fold_left _ queue (result, discovered, [])) as [[r' d'] q'] eqn:E.
  apply (round_ok _ (fun v => adj_of (e_to g) (outgoing g v)) (fun v r d q r' d' q' => step_one (e_to g) (outgoing g v) r d q r' d' q')) in E.
  destruct E as [E1 [E2 E3]]. replace (n + S m)%nat with (S n + m)%nat by lia. apply IH. clear IH e.
  assert (QN : forall v e w, In v queue -> In (e, w) (adj_of (e_to g) (outgoing g v)) -> exists e0, within (next_edge g) n edge e0 /\ next_edge g e0 e /\ e_to g e = w).
  { intros v e w Q A. apply adj_of_In in A. destruct A as [A <-]. apply outs in A. destruct A as [A1 A2]. apply (fi_q _ _ _ _ _ I), (fi_disc _ _ _ _ _ I) in Q. destruct Q as [e0 [W T]].
    exists e0. split; [exact W|]. split; [split; [exact A1|congruence]|reflexivity]. }
  constructor.
  - intro e. rewrite E1, within_step. split.
    + intros [K|[v [w [Q A]]]]; [left; apply (fi_res _ _ _ _ _ I), K|right]. destruct (QN v e w Q A) as [e0 [W [N _]]]. eauto.
    + intros [K|[e0 [W [N1 N2]]]]; [left; apply (fi_res _ _ _ _ _ I), K|]. assert (D : In (e_to g e0) discovered) by (apply (fi_disc _ _ _ _ _ I); eauto).
      assert (O : In e (outgoing g (e_to g e0))) by (apply outs; auto).
      destruct (in_dec Nat.eq_dec (e_to g e0) queue) as [Q|Q]; [right; exists (e_to g e0), (e_to g e); split; [exact Q|apply adj_of_In; auto]|left; apply (fi_done _ _ _ _ _ I _ _ D Q O)].
  - intro v. rewrite E2. split.
    + intros [K|[u [e [Q A]]]].
      * apply (fi_disc _ _ _ _ _ I) in K. destruct K as [e [W T]]. exists e. split; [apply within_step; auto|exact T].
      * destruct (QN u e v Q A) as [e0 [W [N T]]]. exists e. split; [apply within_step; eauto|exact T].
    + intros [e [W T]]. apply within_step in W. destruct W as [W|[e0 [W [N1 N2]]]]; [left; apply (fi_disc _ _ _ _ _ I); eauto|].
      assert (D : In (e_to g e0) discovered) by (apply (fi_disc _ _ _ _ _ I); eauto). assert (O : In e (outgoing g (e_to g e0))) by (apply outs; auto).
      destruct (in_dec Nat.eq_dec (e_to g e0) queue) as [Q|Q]; [right; exists (e_to g e0), e; split; [exact Q|apply adj_of_In; auto]|].
      left. rewrite <- T. apply (fi_done _ _ _ _ _ I _ _ D Q O).
  - intros v Q. apply E3 in Q. apply E2. destruct Q as [[]|[_ Q]]. right. exact Q.
  - intros v e D NQ O. rewrite E1, E2. apply E2 in D. destruct (in_dec Nat.eq_dec v discovered) as [D'|D'].
    + destruct (in_dec Nat.eq_dec v queue) as [Q|Q].
      * split; right; [exists v, (e_to g e)|exists v, e]; split; auto; apply adj_of_In; auto.
      * destruct (fi_done _ _ _ _ _ I _ _ D' Q O). auto.
    + exfalso. apply NQ. apply E3. right. destruct D as [D|D]; [contradiction|auto].
Qed.
Lemma forward_ok edge d e : In e (neighbors_forward g edge d) <-> within (next_edge g) d edge e.
Proof.
  unfold neighbors_forward. apply (fwd_ok edge d 0). constructor.
  - intro x. rewrite within_0. cbn [In]. intuition.
  - intro v. cbn [In]. split; [intros [<-|[]]; exists edge; split; [apply within_0; reflexivity|reflexivity]|intros [x [W <-]]; apply within_0 in W; subst; auto].
  - auto.
  - intros v x D NQ. exfalso. auto.
Qed.

(** backward and undirected: the queue stays the initial one *)
Lemma bwd_ok queue : forall m result discovered e,
  In e (bwd_loop g m result discovered queue) <-> In e result \/ (m <> 0%nat /\ exists v, In v queue /\ In e (incoming g v)).
Proof.
  induction m as [|m IH]; intros result discovered e; cbn [bwd_loop]; [tauto|].
  destruct (fold_left _ queue (result, discovered, [])) as [[r' d'] q'] eqn:E.
  apply (round_ok _ (fun v => adj_of (e_from g) (incoming g v)) (fun v r d q r' d' q' => step_one (e_from g) (incoming g v) r d q r' d' q')) in E.
  destruct E as [E1 _]. rewrite IH, E1.
  assert (A : (exists v w, In v queue /\ In (e, w) (adj_of (e_from g) (incoming g v))) <-> exists v, In v queue /\ In e (incoming g v)).
  { split; [intros [v [w [Q K]]]; apply adj_of_In in K; exists v; tauto|intros [v [Q K]]; exists v, (e_from g e); split; [exact Q|apply adj_of_In; auto]]. }
  rewrite A. split; [intros [[K|K]|[_ K]]; auto|intros [K|[_ K]]; auto].
Qed.
Lemma backward_ok edge d e : In e (neighbors_backward g edge d) <-> within (prev_edge g) (Nat.min d 1) edge e.
Proof.
  unfold neighbors_backward. rewrite bwd_ok. destruct d as [|d]; [cbn [Nat.min]; rewrite within_0; cbn [In]; intuition|].
  replace (Nat.min (S d) 1) with 1%nat by lia. rewrite within_step, within_0. cbn [In]. split.
  - intros [[<-|[]]|[_ [v [[<-|[]] K]]]]; [auto|right]. apply ins in K. exists edge. split; [apply within_0; reflexivity|exact K].
  - intros [->|[e1 [W [K1 K2]]]]; [auto|]. apply within_0 in W. subst e1. right. split; [lia|]. exists (e_from g edge). split; [auto|]. apply ins. auto.
Qed.
Lemma und_ok queue : forall m result discovered e,
  In e (und_loop g m result discovered queue) <-> In e result \/ (m <> 0%nat /\ exists v, In v queue /\ (In e (incoming g v) \/ In e (outgoing g v))).
Proof.
  induction m as [|m IH]; intros result discovered e; cbn [und_loop]; [tauto|].
  destruct (fold_left _ queue (result, discovered, [])) as [[r' d'] q'] eqn:E.
  apply (round_ok _ (fun v => adj_of (e_from g) (incoming g v) ++ adj_of (e_to g) (outgoing g v)) (fun v r d q r' d' q' => step_two (e_from g) (incoming g v) (e_to g) (outgoing g v) r d q r' d' q')) in E.
  destruct E as [E1 _]. rewrite IH, E1.
  assert (A : (exists v w, In v queue /\ In (e, w) (adj_of (e_from g) (incoming g v) ++ adj_of (e_to g) (outgoing g v))) <-> exists v, In v queue /\ (In e (incoming g v) \/ In e (outgoing g v))).
  { split.
    - intros [v [w [Q K]]]. apply in_app_iff in K. exists v. split; [exact Q|]. destruct K as [K|K]; apply adj_of_In in K; tauto.
    - intros [v [Q [K|K]]]; [exists v, (e_from g e)|exists v, (e_to g e)]; (split; [exact Q|]); apply in_app_iff; [left|right]; apply adj_of_In; auto. }
  rewrite A. split; [intros [[K|K]|[_ K]]; auto|intros [K|[_ K]]; auto].
Qed.
Lemma undirected_ok edge d e : In e (neighbors_undirected g edge d) <-> within (touching_edge g) (Nat.min d 1) edge e.
Proof.
  unfold neighbors_undirected. rewrite und_ok. destruct d as [|d]; [cbn [Nat.min]; rewrite within_0; cbn [In]; intuition|].
  replace (Nat.min (S d) 1) with 1%nat by lia. rewrite within_step, within_0. cbn [In]. split.
  - intros [[<-|[]]|[_ [v [Q K]]]]; [auto|right]. exists edge. split; [apply within_0; reflexivity|]. unfold touching_edge. rewrite ins, outs in K.
    split; [tauto|]. exists v. split; [destruct Q as [<-|[<-|[]]]; auto|]. destruct K as [[_ <-]|[_ <-]]; auto.
  - intros [->|[e1 [W [K1 [v [K2 K3]]]]]]; [auto|]. apply within_0 in W. subst e1. right. split; [lia|]. exists v. split; [destruct K2 as [<-|<-]; auto|].
    rewrite ins, outs. destruct K3 as [->| ->]; auto.
Qed.
Lemma union_In (a b : list nat) e : In e (fold_left (fun l x => nb_add x l) a b) <-> In e a \/ In e b.
Proof.
  revert b. induction a as [|x a IH]; intro b; cbn [fold_left In]; [tauto|]. rewrite IH, nb_add_In. intuition.
Qed.
End Search.
