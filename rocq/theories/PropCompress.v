(** * C49: [compress_lonely_nodes] on networks without commodities *)
From Verif Require Import Base Spec Arrays PL RC FRC FRCProofs DynFlow Graph GraphSpec GraphProofs PropExtra.
Local Open Scope nat_scope.

(** A walk along rows of a table of edges, its travel time, and whether every
    edge on it has capacity at least [k] *)
Inductive walk (R : list row) : nat -> nat -> list row -> Prop :=
  | walk_nil v : walk R v v []
  | walk_cons x b l : In x R -> walk R (x_to x) b l -> walk R (x_from x) b (x :: l).
Definition time_of (l : list row) : Qc := fold_right (fun x acc => (x_tau x + acc)%Qc) 0%Qc l.
Definition admits (k : Qc) (l : list row) : Prop := forall x, In x l -> (k <= x_cap x)%Qc.
Definition outdeg (n : network) (v : nat) : nat := length (filter (fun x => x_from x =? v) (contents n)).
Definition indeg (n : network) (v : nat) : nat := length (filter (fun x => x_to x =? v) (contents n)).

Lemma walk_app R a b c l l' : walk R a b l -> walk R b c l' -> walk R a c (l ++ l').
Proof. induction 1; intros; cbn; auto. constructor; auto. Qed.
Lemma time_app l l' : time_of (l ++ l') = (time_of l + time_of l')%Qc.
Proof.
  induction l as [|x l IH].
  - change (time_of []) with 0%Qc. cbn [app]. ring.
  - cbn [app]. change (time_of (x :: l ++ l')) with (x_tau x + time_of (l ++ l'))%Qc. change (time_of (x :: l)) with (x_tau x + time_of l)%Qc. rewrite IH. ring.
Qed.
Lemma admits_app k l l' : admits k (l ++ l') <-> admits k l /\ admits k l'.
Proof. unfold admits. split; [intro H; split; intros x X; apply H, in_app_iff; auto|]. intros [H1 H2] x X. apply in_app_iff in X. destruct X; auto. Qed.

Lemma combine_snoc {A B} : forall (a : list A) (b : list B) x y, length a = length b -> combine (a ++ [x]) (b ++ [y]) = combine a b ++ [(x, y)].
Proof. induction a as [|p a IH]; intros [|q b] x y L; try discriminate; auto. cbn. f_equal. apply IH. cbn in L; lia. Qed.
Lemma add_contents n a b t c : aligned n -> g_rev (w_graph n) = false -> In a (node_ids (w_graph n)) -> In b (node_ids (w_graph n)) ->
  let n' := nw_add_edge n a b t c in
  aligned n' /\ contents n' = contents n ++ [mkRow (length (g_heap (w_graph n))) a b t c] /\
  w_com n' = w_com n /\ g_rev (w_graph n') = false /\ g_pos (w_graph n') = g_pos (w_graph n) /\
  forall v, In v (node_ids (w_graph n')) <-> In v (node_ids (w_graph n)).
Proof.
  intros A R IA IB n'. pose proof A as (C & L1 & L2). split; [|split; [|split; [reflexivity|split; [exact R|split; [reflexivity|]]]]].
  - split; [apply add_consistent; auto|]. unfold n', nw_add_edge. cbn [w_graph w_cap w_tau add_edge g_edges]. rewrite !app_length, L1, L2. auto.
  - unfold contents, n', nw_add_edge. cbn [w_graph w_cap w_tau]. change (g_edges (add_edge (w_graph n) a b)) with (g_edges (w_graph n) ++ [length (g_heap (w_graph n))]).
    rewrite !combine_snoc by (rewrite ?combine_length; lia). rewrite map_app. f_equal.
    + apply map_ext_in. intros p P. assert (AL : fst p < length (g_heap (w_graph n))) by (apply (cs_alive _ C); destruct p; eapply in_combine_l; eauto).
      unfold e_from, e_to. change (g_rev (add_edge (w_graph n) a b)) with (g_rev (w_graph n)). rewrite add_heap by auto. auto.
    + cbn [map fst snd]. unfold e_from, e_to. change (g_rev (add_edge (w_graph n) a b)) with (g_rev (w_graph n)). rewrite add_heap_new, R. auto.
  - intro v. unfold n', nw_add_edge. cbn [w_graph]. destruct (add_node_ids (w_graph n) a b (cs_nodes _ C)) as [_ H]. rewrite H. intuition; subst; auto.
Qed.

(** looking up the data of an edge by its id *)
Lemma lookup_row n x : aligned n -> In x (contents n) ->
  nth (e_id (w_graph n) (x_ref x)) (w_tau n) 0%Qc = x_tau x /\ nth (e_id (w_graph n) (x_ref x)) (w_cap n) 0%Qc = x_cap x.
Proof.
  intros A X. pose proof A as (C & L1 & L2). destruct (In_nth_error _ _ X) as [i E].
  assert (E2 : nth_error (g_edges (w_graph n)) i = Some (x_ref x)) by (rewrite <- (contents_refs n A); apply map_nth_error; auto).
  rewrite (cs_ids _ C _ _ E2).
  assert (G : forall (a : list nat) (b c : list Qc) i x, length b = length a -> length c = length a ->
     nth_error (map (fun p => mkRow (fst p) (e_from (w_graph n) (fst p)) (e_to (w_graph n) (fst p)) (snd (snd p)) (fst (snd p))) (combine a (combine b c))) i = Some x ->
     nth i c 0%Qc = x_tau x /\ nth i b 0%Qc = x_cap x).
  { clear. induction a as [|r a IH]; intros [|y b] [|z c] [|i] x L1 L2 E; try discriminate.
    - cbn in E. injection E as <-. auto.
    - cbn [combine map nth_error] in E. cbn [nth]. apply (IH b c i x); cbn in *; auto; lia. }
  apply (G (g_edges (w_graph n)) _ _ i x L1 L2). exact E.
Qed.
Lemma filter_one {A} (p : A -> bool) (f : A -> nat) l r : map f (filter p l) = [r] -> exists x, filter p l = [x] /\ f x = r.
Proof. destruct (filter p l) as [|x [|y k]] eqn:E; try discriminate. intro H. injection H as H. eauto. Qed.
Lemma filter_keep {A} (p q : A -> bool) l : (forall x, In x l -> p x = true -> q x = true) -> filter p (filter q l) = filter p l.
Proof.
  intro H. rewrite filter_filter. apply filter_ext_on. intros x X. destruct (q x) eqn:Q; auto. destruct (p x) eqn:P; auto.
  rewrite (H x X P) in Q. discriminate.
Qed.

Definition loopless (n : network) : Prop := forall x, In x (contents n) -> x_from x <> x_to x.
Definition short_cut (n : network) (x1 x2 : row) : list row :=
  if x_from x1 =? x_to x2 then []
  else [mkRow (length (g_heap (w_graph n))) (x_from x1) (x_to x2) (x_tau x1 + x_tau x2)%Qc (qmin (x_cap x1) (x_cap x2))].
(** one compression *)
Lemma compress_one n removed v x1 x2 : aligned n -> g_rev (w_graph n) = false -> w_com n = [] -> x1 <> x2 ->
  filter (fun x => x_to x =? v) (contents n) = [x1] -> filter (fun x => x_from x =? v) (contents n) = [x2] ->
  exists n', compress_step (n, removed) v = Ok (n', removed ++ [v]) /\ aligned n' /\ g_rev (w_graph n') = false /\ w_com n' = [] /\
    g_pos (w_graph n') = g_pos (w_graph n) /\
    (forall w, In w (node_ids (w_graph n')) <-> In w (node_ids (w_graph n))) /\
    contents n' = filter (fun x => negb (x_from x =? v) && negb (x_to x =? v))%bool (contents n) ++ short_cut n x1 x2.
Proof.
  intros A R CO N12 F1 F2. pose proof A as (C & _).
  assert (X1 : In x1 (contents n) /\ x_to x1 = v).
  { assert (X : In x1 (filter (fun x => x_to x =? v) (contents n))) by (rewrite F1; left; auto). apply filter_In in X. rewrite Nat.eqb_eq in X. auto. }
  assert (X2 : In x2 (contents n) /\ x_from x2 = v).
  { assert (X : In x2 (filter (fun x => x_from x =? v) (contents n))) by (rewrite F2; left; auto). apply filter_In in X. rewrite Nat.eqb_eq in X. auto. }
  destruct X1 as [X1 T1], X2 as [X2 T2].
  assert (UN : forall x y, In x (contents n) -> In y (contents n) -> x_ref x = x_ref y -> x = y).
  { intros x y X Y E. pose proof (cs_edges _ C) as ND. rewrite <- (contents_refs n A) in ND.
    apply (In_nth_error) in X. apply In_nth_error in Y. destruct X as [i X], Y as [j Y].
    assert (i = j). { rewrite NoDup_nth_error in ND. apply ND; [rewrite map_length; apply nth_error_Some; congruence|]. rewrite (map_nth_error _ _ _ X), (map_nth_error _ _ _ Y). congruence. }
    subst. congruence. }
  assert (REF : forall x y, In x (contents n) -> In y (contents n) -> (x_ref x =? x_ref y) = true <-> x = y).
  { intros x y X Y. rewrite Nat.eqb_eq. split; [apply UN; auto|congruence]. }
  unfold compress_step. rewrite (outgoing_contents n v A), F2, (incoming_contents n v A), F1. cbn [map]. rewrite CO. cbn [not_terminal bind].
  destruct (lookup_row n x1 A X1) as [-> ->]. destruct (lookup_row n x2 A X2) as [-> ->].
  assert (IN1 : In (x_ref x1) (g_edges (w_graph n))) by (rewrite <- (contents_refs n A); apply in_map; auto).
  destruct (remove_contents n (x_ref x1) A IN1) as (n1 & -> & A1 & E1 & C1 & R1 & P1 & I1 & H1 & Fr1). cbn [bind].
  assert (IN2 : In (x_ref x2) (g_edges (w_graph n1))).
  { rewrite <- (contents_refs n1 A1), E1. apply in_map, filter_In. split; auto. apply Bool.negb_true_iff. apply Nat.eqb_neq. intro E. apply N12. symmetry. apply UN; auto. }
  destruct (remove_contents n1 (x_ref x2) A1 IN2) as (n2 & -> & A2 & E2 & C2 & R2 & P2 & I2 & H2 & Fr2). cbn [bind].
  assert (EA : e_from (w_graph n2) (x_ref x1) = x_from x1).
  { rewrite (proj1 (Fr2 _)), (proj1 (Fr1 _)). symmetry. apply contents_rows; auto. }
  assert (EB : e_to (w_graph n2) (x_ref x2) = x_to x2).
  { rewrite (proj2 (Fr2 _)), (proj2 (Fr1 _)). symmetry. apply contents_rows; auto. }
  rewrite EA, EB.
  assert (EC : contents n2 = filter (fun x => negb (x_from x =? v) && negb (x_to x =? v))%bool (contents n)).
  { rewrite E2, E1, filter_filter. apply filter_ext_on. intros x X.
    assert (Q1 : (x_ref x =? x_ref x1) = (x_to x =? v)).
    { apply Bool.eq_iff_eq_true. rewrite (REF x x1 X X1), Nat.eqb_eq. split; [intros ->; auto|]. intro T.
      assert (Y : In x (filter (fun x => x_to x =? v) (contents n))) by (apply filter_In; rewrite Nat.eqb_eq; auto). rewrite F1 in Y. destruct Y as [->|[]]; auto. }
    assert (Q2 : (x_ref x =? x_ref x2) = (x_from x =? v)).
    { apply Bool.eq_iff_eq_true. rewrite (REF x x2 X X2), Nat.eqb_eq. split; [intros ->; auto|]. intro T.
      assert (Y : In x (filter (fun x => x_from x =? v) (contents n))) by (apply filter_In; rewrite Nat.eqb_eq; auto). rewrite F2 in Y. destruct Y as [->|[]]; auto. }
    rewrite Q1, Q2. apply Bool.andb_comm. }
  unfold short_cut. destruct (x_from x1 =? x_to x2).
  - exists n2. split; auto. split; auto. split; [congruence|]. split; [congruence|]. split; [congruence|]. split; [intro w; rewrite I2, I1; tauto|].
    rewrite app_nil_r. auto.
  - assert (IA : In (x_from x1) (node_ids (w_graph n2))).
    { rewrite I2, I1. destruct (contents_rows n x1 X1) as [-> _]. apply (cs_ends _ C); auto. }
    assert (IB : In (x_to x2) (node_ids (w_graph n2))).
    { rewrite I2, I1. destruct (contents_rows n x2 X2) as [_ ->]. apply (cs_ends _ C). rewrite <- (contents_refs n A). apply in_map; auto. }
    destruct (add_contents n2 (x_from x1) (x_to x2) (x_tau x1 + x_tau x2)%Qc (qmin (x_cap x1) (x_cap x2)) A2) as (A3 & E3 & C3 & R3 & P3 & I3); auto; [congruence|].
    eexists. split; [reflexivity|]. split; auto. split; auto. split; [congruence|]. split; [congruence|]. split; [intro w; rewrite I3, I2, I1; tauto|].
    rewrite E3, EC, H2, H1. auto.
Qed.

Section Step.
Variables (n n' : network) (v : nat) (x1 x2 : row).
Hypothesis F1 : filter (fun x => x_to x =? v) (contents n) = [x1].
Hypothesis F2 : filter (fun x => x_from x =? v) (contents n) = [x2].
Hypothesis NL : loopless n.
Hypothesis E : contents n' = filter (fun x => negb (x_from x =? v) && negb (x_to x =? v))%bool (contents n) ++ short_cut n x1 x2.

Lemma st_x1 x : In x (contents n) -> x_to x = v -> x = x1.
Proof. intros X T. assert (Y : In x (filter (fun x => x_to x =? v) (contents n))) by (apply filter_In; rewrite Nat.eqb_eq; auto). rewrite F1 in Y. destruct Y as [->|[]]; auto. Qed.
Lemma st_x2 x : In x (contents n) -> x_from x = v -> x = x2.
Proof. intros X T. assert (Y : In x (filter (fun x => x_from x =? v) (contents n))) by (apply filter_In; rewrite Nat.eqb_eq; auto). rewrite F2 in Y. destruct Y as [->|[]]; auto. Qed.
Lemma st_1 : In x1 (contents n) /\ x_to x1 = v /\ x_from x1 <> v.
Proof.
  assert (X : In x1 (filter (fun x => x_to x =? v) (contents n))) by (rewrite F1; left; auto). apply filter_In in X. rewrite Nat.eqb_eq in X. destruct X as [X T].
  split; auto. split; auto. intro Y. apply (NL x1 X). congruence.
Qed.
Lemma st_2 : In x2 (contents n) /\ x_from x2 = v /\ x_to x2 <> v.
Proof.
  assert (X : In x2 (filter (fun x => x_from x =? v) (contents n))) by (rewrite F2; left; auto). apply filter_In in X. rewrite Nat.eqb_eq in X. destruct X as [X T].
  split; auto. split; auto. intro Y. apply (NL x2 X). congruence.
Qed.
Lemma st_In x : In x (contents n') <-> (In x (contents n) /\ x_from x <> v /\ x_to x <> v) \/ In x (short_cut n x1 x2).
Proof. rewrite E, in_app_iff, filter_In, Bool.andb_true_iff, !Bool.negb_true_iff, !Nat.eqb_neq. tauto. Qed.
Lemma st_short x : In x (short_cut n x1 x2) -> x_from x1 <> x_to x2 /\ x_from x = x_from x1 /\ x_to x = x_to x2 /\ x_tau x = (x_tau x1 + x_tau x2)%Qc /\ x_cap x = qmin (x_cap x1) (x_cap x2).
Proof. unfold short_cut. destruct (Nat.eqb_spec (x_from x1) (x_to x2)); [intros []|]. intros [<-|[]]. cbn [x_from x_to x_tau x_cap]. auto. Qed.

Lemma st_loopless : loopless n'.
Proof. intros x X. apply st_In in X. destruct X as [[X _]|X]; [apply NL; auto|]. apply st_short in X. destruct X as (N & -> & -> & _). auto. Qed.
Lemma st_iso w : (forall x, In x (contents n) -> x_from x <> w /\ x_to x <> w) \/ w = v -> forall x, In x (contents n') -> x_from x <> w /\ x_to x <> w.
Proof.
  intros H x X. apply st_In in X. destruct X as [(X & A & B)|X].
  - destruct H as [H| ->]; auto.
  - apply st_short in X. destruct X as (_ & -> & -> & _). destruct st_1 as (X1 & _ & N1), st_2 as (X2 & _ & N2).
    destruct H as [H| ->]; auto. split; apply H; auto.
Qed.
Lemma st_fwd a b l : walk (contents n') a b l -> exists l0, walk (contents n) a b l0 /\ time_of l0 = time_of l /\ forall k, admits k l0 <-> admits k l.
Proof.
  induction 1 as [w|x b l X W (l0 & W0 & T & K)].
  - exists []. split; [constructor|]. split; auto. tauto.
  - apply st_In in X. destruct X as [(X & _)|X].
    + exists (x :: l0). split; [constructor; auto|]. split; [change (x_tau x + time_of l0 = x_tau x + time_of l)%Qc; congruence|].
      intro k. split; intros A y [<-|Y]; try (apply A; left; reflexivity).
      * apply (proj1 (K k)); auto. intros z Z. apply A. right; auto.
      * apply (proj2 (K k)); auto. intros z Z. apply A. right; auto.
    + apply st_short in X. destruct X as (_ & EF & ET & TA & CA). destruct st_1 as (X1 & T1 & _), st_2 as (X2 & T2 & _).
      exists (x1 :: x2 :: l0). split; [|split].
      * rewrite EF. constructor; auto. rewrite T1, <- T2. constructor; auto. rewrite <- ET. auto.
      * change (x_tau x1 + (x_tau x2 + time_of l0) = x_tau x + time_of l)%Qc. rewrite T, TA. ring.
      * intro k. split; intros A.
        -- intros y [<-|Y].
           ++ rewrite CA. assert (k <= x_cap x1)%Qc by (apply A; left; auto). assert (k <= x_cap x2)%Qc by (apply A; right; left; auto). clear - H H0. qmm; qlra.
           ++ apply (proj1 (K k)); auto. intros z Z. apply A. right; right; auto.
        -- assert (B : (k <= x_cap x)%Qc) by (apply A; left; auto). rewrite CA in B.
           intros y [<-|[<-|Y]]; [clear - B; revert B; qmm; intros; qlra|clear - B; revert B; qmm; intros; qlra|].
           apply (proj2 (K k)); auto. intros z Z. apply A. right; auto.
Qed.
Lemma st_bwd : (forall x, In x (contents n) -> (0 <= x_tau x)%Qc) -> forall a b l0, walk (contents n) a b l0 -> b <> v ->
  (a <> v -> exists l, walk (contents n') a b l /\ (time_of l <= time_of l0)%Qc /\ forall k, admits k l0 -> admits k l) /\
  (a = v -> exists l, walk (contents n') (x_to x2) b l /\ (x_tau x2 + time_of l <= time_of l0)%Qc /\ forall k, admits k l0 -> (k <= x_cap x2)%Qc /\ admits k l).
Proof.
  intros POS a b l0 W. destruct st_1 as (X1 & T1 & N1), st_2 as (X2 & T2 & N2). induction W as [w|x b l X W IH]; intro B.
  - split; [|congruence]. intros _. exists []. split; [constructor|]. split; [apply Qcle_refl|]. auto.
  - destruct (IH B) as [I1 I2]. clear IH.
    assert (TL : time_of (x :: l) = (x_tau x + time_of l)%Qc) by reflexivity. rewrite TL.
    assert (AT : forall k, admits k (x :: l) -> (k <= x_cap x)%Qc /\ admits k l).
    { intros k A. split; [apply A; left; auto|intros y Y; apply A; right; auto]. }
    split; intro FR.
    + destruct (Nat.eq_dec (x_to x) v) as [TV|TV].
      * assert (x = x1) by (apply st_x1; auto). subst x. destruct (I2 TV) as (l' & W' & T & K).
        destruct (Nat.eq_dec (x_from x1) (x_to x2)) as [EQ|NE].
        -- exists l'. rewrite EQ. split; auto. split; [pose proof (POS x1 X1); pose proof (POS x2 X2); clear - T H H0; qlra|].
           intros k A. apply AT in A. apply K. apply A.
        -- set (y := mkRow (length (g_heap (w_graph n))) (x_from x1) (x_to x2) (x_tau x1 + x_tau x2)%Qc (qmin (x_cap x1) (x_cap x2))).
           exists (y :: l'). split; [|split].
           ++ change (x_from x1) with (x_from y). constructor; auto. apply st_In. right. unfold short_cut. destruct (Nat.eqb_spec (x_from x1) (x_to x2)); [congruence|]. left; auto.
           ++ change (time_of (y :: l')) with (x_tau x1 + x_tau x2 + time_of l')%Qc. clear - T. qlra.
           ++ intros k A. apply AT in A. destruct A as [A1 A2]. destruct (K k A2) as [A3 A4]. intros z [<-|Z]; [|auto]. change (x_cap y) with (qmin (x_cap x1) (x_cap x2)). clear - A1 A3. qmm; qlra.
      * destruct (I1 TV) as (l' & W' & T & K). exists (x :: l'). split; [constructor; auto; apply st_In; auto|]. split.
        -- change (time_of (x :: l')) with (x_tau x + time_of l')%Qc. clear - T. qlra.
        -- intros k A. apply AT in A. intros z [<-|Z]; [exact (proj1 A)|]. exact (K k (proj2 A) z Z).
    + assert (x = x2) by (apply st_x2; auto). subst x. destruct (I1 N2) as (l' & W' & T & K). exists l'. split; auto. split; [clear - T; qlra|].
      intros k A. apply AT in A. split; [exact (proj1 A)|exact (K k (proj2 A))].
Qed.
Lemma split_count {A} (p q : A -> bool) l : length (filter p l) = length (filter p (filter q l)) + length (filter p (filter (fun x => negb (q x)) l)).
Proof. induction l as [|x l IH]; auto. cbn [filter]. destruct (q x); cbn [negb filter]; destruct (p x); cbn [length]; lia. Qed.
Lemma st_deg w : w <> v -> exists k, outdeg n w = outdeg n' w + k /\ indeg n w = indeg n' w + k.
Proof.
  intro N. destruct st_1 as (X1 & T1 & N1), st_2 as (X2 & T2 & N2).
  set (q := fun x => (negb (x_from x =? v) && negb (x_to x =? v))%bool) in *.
  assert (O : outdeg n w = length (filter (fun x => x_from x =? w) (filter q (contents n))) + (if x_from x1 =? w then 1 else 0)).
  { unfold outdeg. rewrite (split_count _ q). f_equal. rewrite filter_filter.
    rewrite (filter_ext_on _ (fun x => (x_to x =? v) && (x_from x =? w))%bool).
    - rewrite <- filter_filter, F1. cbn [filter]. destruct (x_from x1 =? w); auto.
    - intros x X. unfold q. destruct (Nat.eqb_spec (x_from x) w), (Nat.eqb_spec (x_from x) v), (Nat.eqb_spec (x_to x) v); cbn; auto; congruence. }
  assert (I : indeg n w = length (filter (fun x => x_to x =? w) (filter q (contents n))) + (if x_to x2 =? w then 1 else 0)).
  { unfold indeg. rewrite (split_count _ q). f_equal. rewrite filter_filter.
    rewrite (filter_ext_on _ (fun x => (x_from x =? v) && (x_to x =? w))%bool).
    - rewrite <- filter_filter, F2. cbn [filter]. destruct (x_to x2 =? w); auto.
    - intros x X. unfold q. destruct (Nat.eqb_spec (x_to x) w), (Nat.eqb_spec (x_from x) v), (Nat.eqb_spec (x_to x) v); cbn; auto; congruence. }
  rewrite O, I. unfold outdeg, indeg. rewrite E, !filter_app, !app_length. unfold short_cut.
  destruct (Nat.eqb_spec (x_from x1) (x_to x2)) as [EQ|NE].
  - exists (if x_from x1 =? w then 1 else 0). rewrite <- EQ. cbn [filter length]. lia.
  - exists 0. cbn [filter x_from x_to]. destruct (x_from x1 =? w), (x_to x2 =? w); cbn [length]; lia.
Qed.
End Step.

Record compressed (n0 n : network) (visited removed : list nat) : Prop := mkCompressed {
  cp_al : aligned n; cp_rev : g_rev (w_graph n) = false; cp_com : w_com n = []; cp_loop : loopless n;
  cp_pos : g_pos (w_graph n) = g_pos (w_graph n0);
  cp_ids : forall w, In w (node_ids (w_graph n)) <-> In w (node_ids (w_graph n0));
  cp_iso : forall v, In v removed -> forall x, In x (contents n) -> x_from x <> v /\ x_to x <> v;
  cp_fwd : forall a b l, walk (contents n) a b l -> exists l0, walk (contents n0) a b l0 /\ time_of l0 = time_of l /\ forall k, admits k l0 <-> admits k l;
  cp_bwd : (forall x, In x (contents n0) -> (0 <= x_tau x)%Qc) ->
    (forall x, In x (contents n) -> (0 <= x_tau x)%Qc) /\
    forall a b l0, walk (contents n0) a b l0 -> ~ In a removed -> ~ In b removed ->
    exists l, walk (contents n) a b l /\ (time_of l <= time_of l0)%Qc /\ forall k, admits k l0 -> admits k l;
  cp_deg : forall w, ~ In w removed -> exists k, outdeg n0 w = outdeg n w + k /\ indeg n0 w = indeg n w + k;
  cp_rem : forall v, In v removed -> In v visited /\ outdeg n0 v = indeg n0 v /\ 1 <= outdeg n0 v;
  cp_vis : forall v, In v visited -> outdeg n0 v = 1 -> indeg n0 v = 1 -> In v removed \/ (outdeg n v = 0 /\ indeg n v = 0) }.

Lemma compress_fold_free n0 : forall todo visited n removed, compressed n0 n visited removed -> NoDup (visited ++ todo) ->
  exists n' removed', foldM compress_step todo (n, removed) = Ok (n', removed') /\ compressed n0 n' (visited ++ todo) removed'.
Proof.
  induction todo as [|v todo IH]; intros visited n removed I ND; cbn [foldM].
  - rewrite app_nil_r. eauto.
  - assert (NV : ~ In v removed).
    { intro X. apply (cp_rem _ _ _ _ I) in X. destruct X as [X _]. apply NoDup_remove_2 in ND. apply ND, in_app_iff. auto. }
    assert (G : exists n' removed', compress_step (n, removed) v = Ok (n', removed') /\ compressed n0 n' (visited ++ [v]) removed').
    { destruct I as [A R CO NL PO ID IS FW BW DE RE VI].
      destruct (filter (fun x => x_to x =? v) (contents n)) as [|x1 [|? ?]] eqn:F1, (filter (fun x => x_from x =? v) (contents n)) as [|x2 [|? ?]] eqn:F2;
      try (exists n, removed; split; [unfold compress_step; rewrite (outgoing_contents n v A), F2, (incoming_contents n v A), F1; cbn [map]; reflexivity|];
           assert (O : outdeg n v = length (filter (fun x => x_from x =? v) (contents n))) by reflexivity;
           assert (O2 : indeg n v = length (filter (fun x => x_to x =? v) (contents n))) by reflexivity;
           rewrite F1 in O2; rewrite F2 in O; cbn [length] in O, O2;
           constructor; auto;
           [intros w W; destruct (RE w W) as (H1 & H2); split; auto; apply in_app_iff; auto
           |intros w W D1 D2; apply in_app_iff in W; destruct W as [W|[<-|[]]]; [apply VI; auto|];
            destruct (DE v NV) as (k & K1 & K2); right; lia]).
      destruct (compress_one n removed v x1 x2 A R CO) as (n' & E & A' & R' & CO' & PO' & ID' & EC); auto;
        [intro X; apply (proj2 (proj2 (st_1 n v x1 F1 NL))); rewrite X; apply (st_2 n v x2 F2 NL)|].
      
      exists n', (removed ++ [v]). split; auto.
      constructor; auto.
      - eapply st_loopless; eauto.
      - congruence.
      - intro w. rewrite ID'. apply ID.
      - intros w W. apply in_app_iff in W. apply (st_iso n n' v x1 x2 F1 F2 NL EC w). destruct W as [W|[<-|[]]]; [left; apply IS; auto|auto].
      - intros a b l W. destruct (st_fwd n n' v x1 x2 F1 F2 NL EC a b l W) as (l1 & W1 & T1 & K1).
        destruct (FW a b l1 W1) as (l0 & W0 & T0 & K0). exists l0. split; auto. split; [congruence|]. intro k. rewrite K0. apply K1.
      - intro P. destruct (BW P) as [P' B]. split.
        + intros x X. apply (st_In n n' v x1 x2 EC) in X. destruct X as [[X _]|X]; [auto|]. apply st_short in X.
          destruct X as (_ & _ & _ & -> & _).
          assert (H1 := P' x1 (proj1 (st_1 n v x1 F1 NL))). assert (H2 := P' x2 (proj1 (st_2 n v x2 F2 NL))). clear - H1 H2. qlra.
        + intros a b l0 W NA NB. rewrite in_app_iff in NA, NB. destruct (B a b l0 W) as (l1 & W1 & T1 & K1); try tauto.
          destruct (st_bwd n n' v x1 x2 F1 F2 NL EC P' a b l1 W1) as [Q _]; [intro; subst; apply NB; right; left; auto|].
          destruct Q as (l & W2 & T2 & K2); [intro; subst; apply NA; right; left; auto|].
          exists l. split; auto. split; [eapply Qcle_trans; eauto|]. intros k K. apply K2, K1, K.
      - intros w W. rewrite in_app_iff in W. destruct (DE w) as (k & K1 & K2); [tauto|].
        destruct (st_deg n n' v x1 x2 F1 F2 NL EC w) as (j & J1 & J2); [intro; subst; apply W; right; left; auto|].
        exists (k + j). lia.
      - intros w W. apply in_app_iff in W. destruct W as [W|[<-|[]]].
        + destruct (RE w W) as (H1 & H2). split; auto. apply in_app_iff; auto.
        + split; [apply in_app_iff; right; left; auto|]. destruct (DE v NV) as (k & K1 & K2).
          assert (O : outdeg n v = 1) by (unfold outdeg; rewrite F2; auto). assert (O2 : indeg n v = 1) by (unfold indeg; rewrite F1; auto). lia.
      - intros w W D1 D2. apply in_app_iff in W. destruct W as [W|[<-|[]]].
        + destruct (Nat.eq_dec w v) as [->|N]; [left; apply in_app_iff; right; left; auto|].
          destruct (VI w W D1 D2) as [H|[H1 H2]]; [left; apply in_app_iff; auto|].
          destruct (st_deg n n' v x1 x2 F1 F2 NL EC w N) as (j & J1 & J2). right. lia.
        + left. apply in_app_iff. right; left; auto. }
    destruct G as (n1 & r1 & E1 & I1). rewrite E1. cbn [bind].
    destruct (IH (visited ++ [v]) n1 r1 I1) as (n2 & r2 & E2 & I2); [rewrite <- app_assoc; auto|].
    exists n2, r2. split; auto. rewrite <- app_assoc in I2. auto.
Qed.

Lemma drop_all : forall l n, aligned n -> (forall v, In v l -> forall x, In x (contents n) -> x_from x <> v /\ x_to x <> v) ->
  aligned (fold_left drop_node l n) /\ contents (fold_left drop_node l n) = contents n /\
  (forall w, In w (node_ids (w_graph (fold_left drop_node l n))) <-> In w (node_ids (w_graph n)) /\ ~ In w l) /\
  w_com (fold_left drop_node l n) = w_com n /\ g_rev (w_graph (fold_left drop_node l n)) = g_rev (w_graph n) /\ g_pos (w_graph (fold_left drop_node l n)) = g_pos (w_graph n).
Proof.
  induction l as [|v l IH]; intros n A H; cbn [fold_left].
  - split; auto. split; auto. split; [cbn; tauto|auto].
  - destruct (drop_aligned n v A) as (A1 & E1 & I1).
    { rewrite (outgoing_contents n v A). apply filter_map_nil. intros x X. apply Nat.eqb_neq. apply (H v (or_introl eq_refl) x X). }
    { rewrite (incoming_contents n v A). apply filter_map_nil. intros x X. apply Nat.eqb_neq. apply (H v (or_introl eq_refl) x X). }
    destruct (IH (drop_node n v) A1) as (A2 & E2 & I2 & C2 & R2 & P2).
    { intros w W x X. rewrite E1 in X. apply (H w (or_intror W) x X). }
    split; auto. split; [congruence|]. split; [|split; [rewrite C2; auto|split; [rewrite R2; auto|rewrite P2; auto]]].
    intro w. rewrite I2, I1, filter_In, Bool.negb_true_iff, Nat.eqb_neq. cbn [In]. intuition congruence.
Qed.

(** C49.  On every network without commodities, without edges from a node to
    itself, that is not reversed, [compress_lonely_nodes] returns, and there is
    a set of removed nodes such that:
    - every removed node had as many incoming as outgoing edges, at least one;
    - every node with exactly one incoming and one outgoing edge is removed or
      has lost its edges;
    - the removed nodes (and no others) are gone, the attributes are aligned,
      there is still no edge from a node to itself;
    - every walk of the new network is one of the old network, between the same
      nodes, with the same travel time and the same bottleneck capacity;
    - with nonnegative travel times, every walk of the old network between two
      nodes that are kept has a counterpart in the new one that is not longer
      and admits every rate that the old one admits. *)
Theorem C49_compress_free : forall n, aligned n -> g_rev (w_graph n) = false -> w_com n = [] -> loopless n ->
  exists n' removed, compress_lonely_nodes n = Ok n' /\ aligned n' /\ loopless n' /\ w_com n' = [] /\
    g_rev (w_graph n') = false /\ g_pos (w_graph n') = g_pos (w_graph n) /\
    (forall v, In v removed -> In v (node_ids (w_graph n)) /\ outdeg n v = indeg n v /\ 1 <= outdeg n v) /\
    (forall v, In v (node_ids (w_graph n)) -> outdeg n v = 1 -> indeg n v = 1 -> In v removed \/ (outdeg n' v = 0 /\ indeg n' v = 0)) /\
    (forall v, In v (node_ids (w_graph n')) <-> In v (node_ids (w_graph n)) /\ ~ In v removed) /\
    (forall a b l', walk (contents n') a b l' -> exists l, walk (contents n) a b l /\ time_of l = time_of l' /\ forall k, admits k l <-> admits k l') /\
    ((forall x, In x (contents n) -> (0 <= x_tau x)%Qc) -> forall a b l, walk (contents n) a b l -> ~ In a removed -> ~ In b removed ->
       exists l', walk (contents n') a b l' /\ (time_of l' <= time_of l)%Qc /\ forall k, admits k l -> admits k l').
Proof.
  intros n A R CO NL. unfold compress_lonely_nodes.
  destruct (compress_fold_free n (map fst (g_nodes (w_graph n))) [] n []) as (n1 & rm & E & [A1 R1 CO1 NL1 PO1 ID1 IS1 FW1 BW1 DE1 RE1 VI1]).
  - constructor; auto; try tauto; try (solve [intros ? []]).
    + intros a b l W. exists l. split; auto. split; auto. tauto.
    + intro P. split; auto. intros a b l0 W _ _. exists l0. split; auto. split; [apply Qcle_refl|auto].
    + intros w _. exists 0. lia.
  - cbn [app]. destruct A as (C & _). apply (cs_nodes _ C).
  - rewrite E. cbn [bind]. destruct (drop_all rm n1 A1 IS1) as (A2 & E2 & I2 & C2 & R2 & P2).
    exists (fold_left drop_node rm n1), rm. split; auto. split; auto. split; [unfold loopless; rewrite E2; auto|]. split; [congruence|]. split; [congruence|]. split; [congruence|].
    split; [intros v V; destruct (RE1 v V) as (H1 & H2); split; auto|].
    split; [intros v V D1 D2; destruct (VI1 v V D1 D2) as [H|[H1 H2]]; [auto|right; unfold outdeg, indeg in *; rewrite E2; auto]|].
    split; [intro v; rewrite I2, ID1; tauto|]. rewrite E2. split; auto. intros P. apply (BW1 P).
Qed.

(** An edge from a node to itself, at a node without any other edge, makes it
    raise: the edge is removed twice. *)
Lemma list_remove_absent r l : ~ In r l -> list_remove r l = Err ValueError.
Proof. induction l as [|x l IH]; intro N; auto. cbn [list_remove]. destruct (Nat.eqb_spec x r) as [->|]; [exfalso; apply N; left; auto|]. rewrite IH; auto. intro X. apply N. right; auto. Qed.
Lemma compress_self n removed v x : aligned n -> w_com n = [] ->
  filter (fun x => x_to x =? v) (contents n) = [x] -> filter (fun x => x_from x =? v) (contents n) = [x] ->
  compress_step (n, removed) v = Err ValueError.
Proof.
  intros A CO F1 F2. unfold compress_step. rewrite (outgoing_contents n v A), F2, (incoming_contents n v A), F1. cbn [map]. rewrite CO. cbn [not_terminal bind].
  assert (X : In x (contents n)). { assert (X : In x (filter (fun x => x_to x =? v) (contents n))) by (rewrite F1; left; auto). apply filter_In in X. apply X. }
  assert (IN1 : In (x_ref x) (g_edges (w_graph n))) by (rewrite <- (contents_refs n A); apply in_map; auto).
  destruct (remove_contents n (x_ref x) A IN1) as (n1 & -> & A1 & E1 & _ & _ & _ & _ & _ & Fr1). cbn [bind].
  unfold nw_remove_edge. rewrite list_remove_absent; [reflexivity|].
  pose proof A1 as (C1 & _). rewrite (cs_in _ C1). intro Y. apply filter_In in Y. destruct Y as [Y _]. rewrite <- (contents_refs n1 A1), E1 in Y.
  apply in_map_iff in Y. destruct Y as (y & Y1 & Y2). apply filter_In in Y2. destruct Y2 as [_ Y2]. rewrite Y1, Nat.eqb_refl in Y2. discriminate.
Qed.
Theorem C49_self_loop_refuted : forall n v x, aligned n -> g_rev (w_graph n) = false -> w_com n = [] -> In v (node_ids (w_graph n)) ->
  filter (fun x => x_to x =? v) (contents n) = [x] -> filter (fun x => x_from x =? v) (contents n) = [x] ->
  compress_lonely_nodes n = Err ValueError.
Proof.
  intros n v x A R CO V F1 F2. unfold compress_lonely_nodes. unfold node_ids in V.
  assert (G : forall todo m removed, aligned m -> g_rev (w_graph m) = false -> w_com m = [] -> In v todo ->
    filter (fun x => x_to x =? v) (contents m) = [x] -> filter (fun x => x_from x =? v) (contents m) = [x] ->
    foldM compress_step todo (m, removed) = Err ValueError).
  { clear n A R CO V F1 F2. induction todo as [|w todo IH]; intros m removed A R CO V F1 F2; [destruct V|]. cbn [foldM].
    destruct (Nat.eq_dec w v) as [->|N]; [rewrite (compress_self m removed v x A CO F1 F2); reflexivity|].
    destruct V as [V|V]; [congruence|].
    destruct (filter (fun x => x_to x =? w) (contents m)) as [|x1 [|? ?]] eqn:G1, (filter (fun x => x_from x =? w) (contents m)) as [|x2 [|? ?]] eqn:G2;
      try (assert (ST : compress_step (m, removed) w = Ok (m, removed)) by (unfold compress_step; rewrite (outgoing_contents m w A), G2, (incoming_contents m w A), G1; cbn [map]; reflexivity);
           rewrite ST; cbn [bind]; apply IH; auto).
    destruct (Nat.eq_dec (x_ref x1) (x_ref x2)) as [EQ|NE].
    - assert (XX : x1 = x2).
      { assert (Y1 : In x1 (filter (fun x => x_to x =? w) (contents m))) by (rewrite G1; left; auto). assert (Y2 : In x2 (filter (fun x => x_from x =? w) (contents m))) by (rewrite G2; left; auto).
        apply filter_In in Y1, Y2. destruct Y1 as [Y1 T1], Y2 as [Y2 T2]. apply Nat.eqb_eq in T1, T2.
        assert (Y3 : In x1 (filter (fun x => x_from x =? w) (contents m))).
        { apply filter_In. split; auto. apply Nat.eqb_eq. rewrite (proj1 (contents_rows _ _ Y1)), EQ, <- (proj1 (contents_rows _ _ Y2)). auto. }
        rewrite G2 in Y3. destruct Y3 as [->|[]]; auto. }
      subst x2. rewrite (compress_self m removed w x1 A CO G1 G2). reflexivity.
    - destruct (compress_one m removed w x1 x2 A R CO) as (m' & -> & A' & R' & CO' & _ & _ & EC); auto; [congruence|]. cbn [bind].
      assert (Y1 : In x1 (filter (fun x => x_to x =? w) (contents m))) by (rewrite G1; left; auto). assert (Y2 : In x2 (filter (fun x => x_from x =? w) (contents m))) by (rewrite G2; left; auto).
      apply filter_In in Y1, Y2. destruct Y1 as [Y1 T1], Y2 as [Y2 T2]. apply Nat.eqb_eq in T1, T2.
      assert (X1 : In x (filter (fun x => x_to x =? v) (contents m))) by (rewrite F1; left; auto). assert (X2 : In x (filter (fun x => x_from x =? v) (contents m))) by (rewrite F2; left; auto).
      apply filter_In in X1, X2. destruct X1 as [X1 S1], X2 as [X2 S2]. apply Nat.eqb_eq in S1, S2.
      assert (NF : x_from x1 <> v).
      { intro Z. assert (Z2 : In x1 (filter (fun x => x_from x =? v) (contents m))) by (apply filter_In; rewrite Nat.eqb_eq; auto). rewrite F2 in Z2. destruct Z2 as [<-|[]]. congruence. }
      assert (NT : x_to x2 <> v).
      { intro Z. assert (Z2 : In x2 (filter (fun x => x_to x =? v) (contents m))) by (apply filter_In; rewrite Nat.eqb_eq; auto). rewrite F1 in Z2. destruct Z2 as [<-|[]]. congruence. }
      apply IH; auto; rewrite EC, filter_app.
      + rewrite filter_keep; [rewrite F1; f_equal; unfold short_cut; destruct (x_from x1 =? x_to x2); auto; cbn [filter x_to]; apply Nat.eqb_neq in NT; rewrite NT; auto|].
        intros y Y Z. assert (Y3 : In y (filter (fun x => x_to x =? v) (contents m))) by (apply filter_In; auto). rewrite F1 in Y3. destruct Y3 as [<-|[]].
        rewrite S1, S2. apply Nat.eqb_neq in N. rewrite Nat.eqb_sym in N. rewrite N. auto.
      + rewrite filter_keep; [rewrite F2; f_equal; unfold short_cut; destruct (x_from x1 =? x_to x2); auto; cbn [filter x_from]; apply Nat.eqb_neq in NF; rewrite NF; auto|].
        intros y Y Z. assert (Y3 : In y (filter (fun x => x_from x =? v) (contents m))) by (apply filter_In; auto). rewrite F2 in Y3. destruct Y3 as [<-|[]].
        rewrite S1, S2. apply Nat.eqb_neq in N. rewrite Nat.eqb_sym in N. rewrite N. auto. }
  rewrite (G _ n [] A R CO V F1 F2). reflexivity.
Qed.
(** 1 -> 2 -> 3 -> 1 with a detour 3 -> 4 -> 1, and an end 1 -> 5 *)
Definition net2 : network :=
  fold_left (fun n p => let '(a, b, t, c) := p in nw_add_edge n a b t c)
    [(1, 2, 1%Qc, 1%Qc); (2, 3, qz 2, qz 3); (3, 1, 1%Qc, 1%Qc); (3, 4, qz 4, qz 2); (4, 1, 1%Qc, qz 5); (1, 5, 1%Qc, 1%Qc)] nw_empty.
Lemma built_aligned l : let n := fold_left (fun n p => let '(a, b, t, c) := p in nw_add_edge n a b t c) l nw_empty in aligned n /\ g_rev (w_graph n) = false /\ w_com n = [].
Proof.
  cbn zeta. assert (G : forall l n, aligned n /\ g_rev (w_graph n) = false /\ w_com n = [] ->
    let n' := fold_left (fun n p => let '(a, b, t, c) := p in nw_add_edge n a b t c) l n in aligned n' /\ g_rev (w_graph n') = false /\ w_com n' = []).
  { clear l. induction l as [|[[[a b] t] c] l IH]; intros n H; cbn [fold_left]; auto. apply IH. destruct H as ((C & L1 & L2) & R & CO).
    split; [|auto]. split; [apply add_consistent; auto|]. unfold nw_add_edge. cbn [w_graph w_cap w_tau add_edge g_edges]. rewrite !app_length, L1, L2. auto. }
  apply G. split; [|auto]. split; [apply empty_consistent|auto].
Qed.
Example C49_compress_example : aligned net2 /\ g_rev (w_graph net2) = false /\ w_com net2 = [] /\ loopless net2 /\ map (fun x => (x_from x, x_to x)) (contents net2) = [(1, 2); (2, 3); (3, 1); (3, 4); (4, 1); (1, 5)] /\ match compress_lonely_nodes net2 with
  | Ok n' => node_ids (w_graph n') = [1; 3; 5] /\ map (fun x => (x_from x, x_to x)) (contents n') = [(3, 1); (1, 5); (1, 3); (3, 1)] /\ forallb (fun p => qeqb (x_tau (fst p)) (qz (fst (snd p))) && qeqb (x_cap (fst p)) (qz (snd (snd p))))%bool (combine (contents n') [(1, 1); (1, 1); (3, 1); (5, 2)]%Z) = true
  | Err _ => False
  end.
Proof.
  destruct (built_aligned [(1, 2, 1%Qc, 1%Qc); (2, 3, qz 2, qz 3); (3, 1, 1%Qc, 1%Qc); (3, 4, qz 4, qz 2); (4, 1, 1%Qc, qz 5); (1, 5, 1%Qc, 1%Qc)]) as (A & R & C).
  split; [exact A|]. split; [exact R|]. split; [exact C|]. split.
  - intros x X. assert (Y : In (x_from x, x_to x) (map (fun x => (x_from x, x_to x)) (contents net2))) by (apply (in_map (fun x => (x_from x, x_to x))); auto).
    assert (Z : map (fun x => (x_from x, x_to x)) (contents net2) = [(1, 2); (2, 3); (3, 1); (3, 4); (4, 1); (1, 5)]) by (vm_compute; reflexivity).
    rewrite Z in Y. cbn in Y. intuition congruence.
  - vm_compute. repeat split; reflexivity.
Qed.
Example C49_self_loop_example : compress_lonely_nodes (nw_add_edge (nw_add_edge nw_empty 1 2 1%Qc 1%Qc) 3 3 1%Qc 1%Qc) = Err ValueError.
Proof. vm_compute. reflexivity. Qed.
Example C48_remove_node_example : aligned net2 /\ rmap (fun n => (map (fun x => (x_from x, x_to x)) (contents n), node_ids (w_graph n))) (remove_node net2 3) = Ok ([(1, 2); (4, 1); (1, 5)], [1; 2; 4; 5]).
Proof. split; [exact (proj1 C49_compress_example)|]. vm_compute. reflexivity. Qed.

Print Assumptions C49_compress_free.
Print Assumptions C49_self_loop_refuted.
