(** * C106 - C108: the tables written by generate_queues.py *)
From Coq Require Import Qround.
From Verif Require Import Base Spec Arrays ArraysProofs PL PLProofs PLEval PLInt RC FRC DynFlow DynRun DynFlowProofs PropPL PropFlow PropFlow2 Graph Dijkstra FlowBuilder Neighbors Predictors PredictorsProofs PredictorsProofs2 PropPredictors PropPredictors2 PropPredictors3 Eval PropEval2 Dataset PropDataset Expanded.

(** ** Specification *)
(** The sample times: the multiples of [sample_step] from 0 on that leave [future]
    steps until the horizon (with at least one unit to spare). *)
Definition sampled_at (horizon : Z) (step : Qc) (future : nat) (sample_step phi : Z) : Prop :=
  (0 <= phi)%Z /\ (exists i, phi = (i * sample_step)%Z) /\ qz phi + 1 <= qz horizon - step * qz (Z.of_nat future).
(** The value recorded for edge [e] of graph [g] at time [phi] under a column name. *)
Definition recorded_in (g : graph) (past future : nat) (step : Qc) (queues : list PL) (phi : Z) (e : nat) (c : column) (v : Qc) : Prop :=
  match c with
  | Inc k t => (- Z.of_nat past <= t <= 0)%Z /\ exists ie q, nth_error (incoming g (e_from g e)) k = Some ie /\ nth_error queues (e_id g ie) = Some q /\ pl_eval q (qz phi - step * qz t) = Ok v
  | Own t => (- Z.of_nat past <= t <= Z.of_nat future)%Z /\ exists q, nth_error queues (e_id g e) = Some q /\ pl_eval q (qz phi - step * qz t) = Ok v
  | Of _ _ => False
  end.
(** A cell of the table: the recorded value, or blank if there is none. *)
Definition cell (P : column -> Qc -> Prop) (c : column) (x : option Qc) : Prop :=
  match x with Some v => P c v | None => forall v, ~ P c v end.

(** ** Lemmas *)
Lemma py_range_spec a b s l : (0 < s)%Z -> py_range a b s = Ok l -> StronglySorted Z.lt l /\ forall x, In x l <-> (a <= x < b)%Z /\ exists i, (x = a + i * s)%Z.
Proof.
  intros P H. unfold py_range in H. rewrite (proj2 (Z.eqb_neq s 0)) in H by lia. rewrite (proj2 (Z.ltb_lt 0 s)) in H by lia. apply ok_inj in H. subst l. split.
  - generalize 0%nat. induction (Z.to_nat ((b - a + s - 1) / s)) as [|n IH]; intro k; cbn [seq map]; constructor; [apply IH|].
    apply Forall_forall. intros x I. apply in_map_iff in I. destruct I as [j [<- I]]. apply in_seq in I. nia.
  - intro x. rewrite in_map_iff. split.
    + intros [i [<- I]]. apply in_seq in I. split; [|exists (Z.of_nat i); reflexivity].
      assert (L : (Z.of_nat i < (b - a + s - 1) / s)%Z) by lia. pose proof (Z.mul_div_le (b - a + s - 1) s P). nia.
    + intros [[L U] [i ->]]. exists (Z.to_nat i). assert (0 <= i)%Z by nia. rewrite Z2Nat.id by lia. split; [reflexivity|]. apply in_seq. split; [lia|].
      assert (L2 : (i < (b - a + s - 1) / s)%Z). { apply Z.lt_le_trans with (i + 1)%Z; [lia|]. apply Z.div_le_lower_bound; [exact P|]. nia. } lia.
Qed.
Lemma column_eqb_spec c d : reflect (c = d) (column_eqb c d).
Proof.
  destruct c, d; cbn; try (constructor; discriminate).
  - destruct (Nat.eqb_spec k k0), (Z.eqb_spec t t0); cbn; constructor; congruence.
  - destruct (Z.eqb_spec t t0); constructor; congruence.
  - destruct (Nat.eqb_spec id id0), (Z.eqb_spec t t0); cbn; constructor; congruence.
Qed.
Lemma put_keys d c v c' : In c' (map fst (put d c v)) <-> c' = c \/ In c' (map fst d).
Proof.
  induction d as [|[a b] d IH]; cbn; [intuition congruence|]. destruct (column_eqb_spec c a); cbn; [subst; intuition congruence|]. rewrite IH. intuition congruence.
Qed.
Lemma put_nodup d c v : NoDup (map fst d) -> NoDup (map fst (put d c v)).
Proof.
  induction d as [|[a b] d IH]; cbn; intro N; [constructor; [easy|constructor]|]. destruct (column_eqb_spec c a); cbn; [exact N|].
  inversion N; subst. constructor; [|auto]. rewrite put_keys. intros [->|X]; congruence.
Qed.
Lemma look_put d c v c' : look (put d c v) c' = if column_eqb c' c then Some v else look d c'.
Proof.
  induction d as [|[a b] d IH]; cbn; [reflexivity|]. destruct (column_eqb_spec c a); cbn; [subst; destruct (column_eqb_spec c' a); reflexivity|].
  rewrite IH. destruct (column_eqb_spec c' a), (column_eqb_spec c' c); try reflexivity; congruence.
Qed.
Lemma look_in d c : NoDup (map fst d) -> forall v, look d c = Some v <-> In (c, v) d.
Proof.
  induction d as [|[a b] d IH]; cbn; intros N v; [split; [discriminate|easy]|]. inversion N; subst. destruct (column_eqb_spec c a).
  - subst. split; [intro E; injection E as ->; auto|]. intros [E|E]; [congruence|]. destruct H1. apply in_map_iff. exists (a, v). auto.
  - rewrite IH by assumption. intuition congruence.
Qed.
Lemma look_key d c : In c (map fst d) <-> exists v, look d c = Some v.
Proof.
  induction d as [|[a b] d IH]; cbn; [split; [easy|intros [v E]; discriminate E]|]. destruct (column_eqb_spec c a); [subst; split; eauto|].
  rewrite <- IH. intuition congruence.
Qed.
Lemma fill_gen items : forall d0 d, foldM (fun d it => v <- snd it ;; Ok (put d (fst it) v)) items d0 = Ok d -> NoDup (map fst d0) ->
  NoDup (map fst d) /\ (forall c r, In (c, r) items -> exists v, r = Ok v) /\ (forall c, In c (map fst d) <-> In c (map fst d0) \/ In c (map fst items)) /\
  (forall c v, look d c = Some v -> In (c, Ok v) items \/ (look d0 c = Some v /\ ~ In c (map fst items))).
Proof.
  induction items as [|[c r] items IH]; cbn [foldM]; intros d0 d H N.
  - apply ok_inj in H. subst d0. cbn. intuition.
  - apply bind_ok in H. destruct H as [d1 [E H]]. cbn [fst snd] in E. apply bind_ok in E. destruct E as [v [E E1]]. apply ok_inj in E1. subst d1.
    destruct (IH _ _ H (put_nodup _ _ _ N)) as (I1 & I2 & I3 & I4). split; [exact I1|]. split; [|split].
    + intros c' r' [X|X]; [injection X as <- <-; eauto|eauto].
    + intro c'. rewrite I3, put_keys. cbn. intuition congruence.
    + intros c' v' L. destruct (I4 c' v' L) as [X|[X Y]]; [left; right; exact X|]. rewrite look_put in X. destruct (column_eqb_spec c' c).
      * injection X as <-. subst. left. left. reflexivity.
      * right. split; [exact X|]. intros [Z|Z]; [cbn in Z; congruence|auto].
Qed.
Lemma fill_spec items d : fill items = Ok d -> (forall c r r', In (c, r) items -> In (c, r') items -> r = r') ->
  NoDup (map fst d) /\ (forall c, In c (map fst d) <-> In c (map fst items)) /\ (forall c r, In (c, r) items -> exists v, r = Ok v) /\ forall c v, look d c = Some v <-> In (c, Ok v) items.
Proof.
  intros H F. destruct (fill_gen _ _ _ H (NoDup_nil _)) as (I1 & I2 & I3 & I4). split; [exact I1|]. split; [intro c; rewrite I3; cbn; intuition|]. split; [exact I2|].
  intros c v. split.
  - intro L. destruct (I4 c v L) as [X|[X _]]; [exact X|discriminate X].
  - intro I. assert (K : In c (map fst d)) by (rewrite I3; right; apply in_map_iff; exists (c, Ok v); auto). apply look_key in K. destruct K as [w K].
    destruct (I4 c w K) as [X|[X _]]; [|discriminate X]. specialize (F _ _ _ I X). apply ok_inj in F. congruence.
Qed.
Lemma fill_total items : (forall c r, In (c, r) items -> exists v, r = Ok v) -> exists d, fill items = Ok d.
Proof.
  unfold fill. generalize (@nil (column * Qc)). induction items as [|[c r] items IH]; cbn [foldM]; intros d0 H; [eauto|].
  destruct (H c r (or_introl eq_refl)) as [v ->]. cbn [fst snd bind]. apply IH. intros; eapply H; right; eassumption.
Qed.
Lemma pyget_of {A} (l : list A) i x : pyget l (Z.of_nat i) = Ok x <-> nth_error l i = Some x.
Proof.
  unfold pyget. destruct (Z.ltb_spec (Z.of_nat i) 0); [lia|]. destruct (Z.leb_spec 0 (Z.of_nat i)); [|lia]. rewrite Nat2Z.id.
  destruct (Z.ltb_spec (Z.of_nat i) (Z.of_nat (length l))); cbn [andb].
  - destruct (nth_error l i); split; intro X; try discriminate X; [apply ok_inj in X; congruence|injection X as ->; reflexivity].
  - split; intro X; [discriminate X|]. assert (i < length l)%nat by (apply nth_error_Some; congruence). lia.
Qed.
Lemma queue_at_of queues id t v : queue_at queues id t = Ok v <-> exists q, nth_error queues id = Some q /\ pl_eval q t = Ok v.
Proof.
  unfold queue_at. split.
  - intro H. apply bind_ok in H. destruct H as [q [A B]]. apply pyget_of in A. eauto.
  - intros [q [A B]]. apply pyget_of in A. rewrite A. exact B.
Qed.
Lemma mapM_rel {A B} (f : A -> res B) l r : mapM f l = Ok r -> Forall2 (fun x y => f x = Ok y) l r.
Proof.
  revert r. induction l as [|x l IH]; cbn [mapM]; intros r H; [apply ok_inj in H; subst; constructor|].
  apply bind_ok in H. destruct H as [y [E H]]. apply bind_ok in H. destruct H as [ys [E2 H]]. apply ok_inj in H. subst. constructor; auto.
Qed.
Lemma filter_rel {A B} (f : A -> res B) (p : B -> bool) l r : Forall2 (fun x y => f x = Ok y) l r ->
  Forall2 (fun x y => f x = Ok y) (filter (fun x => match f x with Ok y => p y | Err _ => false end) l) (filter p r).
Proof.
  induction 1 as [|x y l r E F IH]; cbn [filter]; [constructor|]. rewrite E. destruct (p y); [constructor; assumption|exact IH].
Qed.
Lemma enum_in {A} (l : list A) k x : In (k, x) (enum l) <-> nth_error l k = Some x.
Proof.
  unfold enum. assert (G : forall s, In (k, x) (combine (seq s (length l)) l) <-> (s <= k)%nat /\ nth_error l (k - s) = Some x).
  { induction l as [|a l IH]; intro s; cbn [length seq combine In].
    - split; [easy|]. intros [_ H]. destruct (k - s)%nat; discriminate H.
    - rewrite IH. split.
      + intros [E|[L E]]; [injection E as -> ->; rewrite Nat.sub_diag; split; [lia|reflexivity]|]. split; [lia|]. replace (k - s)%nat with (Datatypes.S (k - Datatypes.S s)) by lia. exact E.
      + intros [L E]. destruct (Nat.eq_dec k s) as [->|N]; [left; rewrite Nat.sub_diag in E; cbn in E; congruence|]. right. split; [lia|]. replace (k - s)%nat with (Datatypes.S (k - Datatypes.S s)) in E by lia. exact E. }
  rewrite G, Nat.sub_0_r. split; [tauto|]. intro. split; [lia|assumption].
Qed.
Lemma expanded_items_in g past future step queues phi e c r : In (c, r) (expanded_items g past future step queues phi e) <->
  match c with
  | Inc k t => (- Z.of_nat past <= t <= 0)%Z /\ exists ie, nth_error (incoming g (e_from g e)) k = Some ie /\ r = queue_at queues (e_id g ie) (qz phi - step * qz t)
  | Own t => (- Z.of_nat past <= t <= Z.of_nat future)%Z /\ r = queue_at queues (e_id g e) (qz phi - step * qz t)
  | Of _ _ => False
  end.
Proof.
  unfold expanded_items. rewrite in_app_iff, in_concat. split.
  - intros [[l [L I]]|I].
    + apply in_map_iff in L. destruct L as [[k ie] [<- L]]. apply enum_in in L. apply in_map_iff in I. destruct I as [t [E I]]. injection E as <- <-. apply zrange_in in I. cbn [fst snd]. split; [lia|]. eauto.
    + apply in_map_iff in I. destruct I as [t [E I]]. injection E as <- <-. apply zrange_in in I. split; [lia|reflexivity].
  - destruct c as [k t|t|i t]; [| |easy].
    + intros [B [ie [N ->]]]. left. exists (map (fun t => (Inc k t, queue_at queues (e_id g ie) (qz phi - step * qz t))) (zrange (- Z.of_nat past) 1)). split.
      * apply in_map_iff. exists (k, ie). split; [reflexivity|apply enum_in, N].
      * apply in_map_iff. exists t. split; [reflexivity|apply zrange_in; lia].
    + intros [B ->]. right. apply in_map_iff. exists t. split; [reflexivity|apply zrange_in; lia].
Qed.
Lemma expanded_items_recorded g past future step queues phi e c v : In (c, Ok v) (expanded_items g past future step queues phi e) <-> recorded_in g past future step queues phi e c v.
Proof.
  rewrite expanded_items_in. destruct c as [k t|t|i t]; cbn [recorded_in]; [| |reflexivity].
  - split.
    + intros [B [ie [N E]]]. symmetry in E. apply queue_at_of in E. destruct E as [q [E1 E2]]. eauto 8.
    + intros [B [ie [q [N [E1 E2]]]]]. split; [exact B|]. exists ie. split; [exact N|]. symmetry. apply queue_at_of. eauto.
  - split.
    + intros [B E]. symmetry in E. apply queue_at_of in E. auto.
    + intros [B E]. split; [exact B|]. symmetry. apply queue_at_of. exact E.
Qed.
Lemma expanded_items_fun g past future step queues phi e c r r' : In (c, r) (expanded_items g past future step queues phi e) -> In (c, r') (expanded_items g past future step queues phi e) -> r = r'.
Proof.
  rewrite !expanded_items_in. destruct c as [k t|t|i t]; [| |easy].
  - intros [_ [ie [N ->]]] [_ [ie' [N' ->]]]. congruence.
  - intros [_ ->] [_ ->]. reflexivity.
Qed.
Lemma nodup_app {A} (l1 l2 : list A) : NoDup l1 -> NoDup l2 -> (forall x, In x l1 -> ~ In x l2) -> NoDup (l1 ++ l2).
Proof.
  induction l1 as [|a l1 IH]; cbn; intros N1 N2 D; [exact N2|]. inversion N1; subst. constructor; [|apply IH; auto].
  rewrite in_app_iff. intros [X|X]; [auto|]. apply (D a); auto.
Qed.
Lemma sorted_nodup (l : list Z) : StronglySorted Z.lt l -> NoDup l.
Proof. induction 1 as [|a l S IH F]; constructor; [|exact IH]. intro I. rewrite Forall_forall in F. specialize (F _ I). lia. Qed.
Lemma nodup_map_inj {A B} (f : A -> B) l : (forall x y, f x = f y -> x = y) -> NoDup l -> NoDup (map f l).
Proof. intros J. induction 1 as [|a l N1 N IH]; cbn; constructor; [|exact IH]. intro I. apply in_map_iff in I. destruct I as [b [E I]]. apply J in E. subst. auto. Qed.
Lemma header_in past future c : In c (expanded_header past future) <-> match c with
  | Inc k t => (k < 5)%nat /\ (- Z.of_nat past <= t <= 0)%Z | Own t => (- Z.of_nat past <= t <= Z.of_nat future)%Z | Of _ _ => False end.
Proof.
  unfold expanded_header. rewrite in_app_iff, in_concat. split.
  - intros [[l [L I]]|I].
    + apply in_map_iff in L. destruct L as [k [<- L]]. apply in_seq in L. apply in_map_iff in I. destruct I as [t [<- I]]. apply zrange_in in I. lia.
    + apply in_map_iff in I. destruct I as [t [<- I]]. apply zrange_in in I. lia.
  - destruct c as [k t|t|i t]; [| |easy].
    + intros [K B]. left. exists (map (Inc k) (zrange (- Z.of_nat past) 1)). split; apply in_map_iff; eexists; (split; [reflexivity|]); [apply in_seq; lia|apply zrange_in; lia].
    + intro B. right. apply in_map_iff. exists t. split; [reflexivity|apply zrange_in; lia].
Qed.
Lemma header_nodup past future : NoDup (expanded_header past future).
Proof.
  unfold expanded_header. apply nodup_app.
  - assert (G : forall n s, NoDup (concat (map (fun k => map (Inc k) (zrange (- Z.of_nat past) 1)) (seq s n)))); [|apply G]. induction n as [|n IH]; intro s; cbn [seq map concat]; [constructor|]. apply nodup_app; [|apply IH|].
    + apply nodup_map_inj; [intros x y E; injection E; auto|apply sorted_nodup, zrange_sorted].
    + intros x I J. apply in_map_iff in I. destruct I as [t [<- _]]. apply in_concat in J. destruct J as [l [L J]]. apply in_map_iff in L. destruct L as [k [<- L]]. apply in_seq in L. apply in_map_iff in J. destruct J as [t' [E _]]. injection E. lia.
  - apply nodup_map_inj; [intros x y E; injection E; auto|apply sorted_nodup, zrange_sorted].
  - intros x I J. apply in_map_iff in J. destruct J as [t [<- _]]. apply in_concat in I. destruct I as [l [L I]]. apply in_map_iff in L. destruct L as [k [<- _]]. apply in_map_iff in I. destruct I as [t' [E _]]. discriminate E.
Qed.
Lemma times_spec horizon step future sample_step times : (0 < sample_step)%Z -> expanded_times horizon step future sample_step = Ok times ->
  StronglySorted Z.lt times /\ forall phi, In phi times <-> sampled_at horizon step future sample_step phi.
Proof.
  intros P H. destruct (py_range_spec _ _ _ _ P H) as [S I]. split; [exact S|]. intro phi. rewrite I. unfold sampled_at.
  set (q := qz horizon - step * qz (Z.of_nat future)).
  assert (F : (phi < Qfloor (this q))%Z <-> qz phi + 1 <= q).
  { change 1 with (qz 1). rewrite <- qz_plus. split.
    - intro L. apply Qcle_trans with (qz (Qfloor (this q))); [apply qz_le; lia|]. unfold Qcle. rewrite qz_this. apply Qfloor_le.
    - intro L. apply Z.lt_le_trans with (phi + 1)%Z; [lia|]. rewrite <- (floor_qz (phi + 1)). apply Qfloor_resp_le. exact L. }
  split.
  - intros [[L U] [i E]]. split; [exact L|]. split; [exists i; lia|]. apply F, U.
  - intros (L & [i E] & U). split; [split; [exact L|apply F, U]|]. exists i. lia.
Qed.

(** ** C106 *)
Definition row_is (P : column -> Qc -> Prop) (header : list column) (row : list (option Qc)) : Prop := Forall2 (cell P) header row.
(** The table has exactly one row for every flow, sample time and edge for which some
    recorded value is not zero, in the order flows - times - edges, and every cell
    holds the value recorded under the name of its column; blank if the tail of the
    edge has fewer incoming edges. *)
Theorem C106_table : forall g flows past future step horizon sample_step header rows, (0 < sample_step)%Z ->
  expanded_queues g flows past future step horizon sample_step = Ok (header, rows) ->
  NoDup header /\
  (forall c, In c header <-> (exists k t, c = Inc k t /\ (k < 5)%nat /\ (- Z.of_nat past <= t <= 0)%Z) \/ exists t, c = Own t /\ (- Z.of_nat past <= t <= Z.of_nat future)%Z) /\
  exists times kept, StronglySorted Z.lt times /\ (forall phi, In phi times <-> sampled_at horizon step future sample_step phi) /\
    (forall queues phi e, In queues flows -> In phi times -> In e (g_edges g) ->
       kept (queues, (phi, e)) = true <-> exists c v, recorded_in g past future step queues phi e c v /\ v <> 0) /\
    Forall2 (fun x row => row_is (recorded_in g past future step (fst x) (fst (snd x)) (snd (snd x))) header row) (filter kept (list_prod flows (list_prod times (g_edges g)))) rows.
Proof.
  intros g flows past future step horizon sample_step header rows P H. unfold expanded_queues in H. apply bind_ok in H. destruct H as [times [T H]].
  apply bind_ok in H. destruct H as [samples [M H]]. cbv zeta in H. apply ok_inj in H. injection H as <- <-. split; [apply header_nodup|]. split.
  { intro c. rewrite header_in. destruct c as [k t|t|i t].
    - split; [intro B; left; exists k, t; tauto|]. intros [[k' [t' [E B]]]|[t' [E _]]]; [injection E as <- <-; tauto|discriminate E].
    - split; [intro B; right; exists t; tauto|]. intros [[k' [t' [E B]]]|[t' [E B]]]; [discriminate E|injection E as <-; exact B].
    - split; [easy|]. intros [[k' [t' [E B]]]|[t' [E B]]]; discriminate E. }
  destruct (times_spec _ _ _ _ _ P T) as [S I].
  set (f := fun x => fill (expanded_items g past future step (fst x) (fst (snd x)) (snd (snd x)))) in *.
  set (nz := fun d : sample => existsb (fun cv => negb (qeqb (snd cv) 0)) d) in *.
  apply mapM_rel in M. exists times, (fun x => match f x with Ok y => nz y | Err _ => false end). split; [exact S|]. split; [exact I|].
  assert (SP : forall x d, f x = Ok d -> NoDup (map fst d) /\ forall c v, look d c = Some v <-> recorded_in g past future step (fst x) (fst (snd x)) (snd (snd x)) c v).
  { intros x d E. destruct (fill_spec _ _ E (expanded_items_fun g past future step _ _ _)) as (S1 & _ & _ & S4). split; [exact S1|]. intros c v. rewrite S4. apply expanded_items_recorded. }
  split.
  - intros queues phi e I1 I2 I3. assert (X : exists d, f (queues, (phi, e)) = Ok d).
    { assert (J : In (queues, (phi, e)) (list_prod flows (list_prod times (g_edges g)))) by (repeat apply in_prod; assumption).
      clear - J M. induction M as [|x y l r E M IH]; [easy|]. destruct J as [->|J]; [eauto|auto]. }
    destruct X as [d X]. rewrite X. destruct (SP _ _ X) as [ND L]. unfold nz. rewrite existsb_exists. split.
    + intros [[c v] [J N]]. exists c, v. cbn [snd] in N. apply (look_in d c ND) in J. apply L in J. split; [exact J|]. intro Z. rewrite Z in N. destruct (qeqbP 0 0); [discriminate N|congruence].
    + intros [c [v [J N]]]. apply L in J. apply (look_in d c ND) in J. exists (c, v). split; [exact J|]. cbn [snd]. destruct (qeqbP v 0); [contradiction|reflexivity].
  - pose proof (filter_rel f nz _ _ M) as R.
    assert (G : forall l r, Forall2 (fun x y => f x = Ok y) l r -> Forall2 (fun x row => row_is (recorded_in g past future step (fst x) (fst (snd x)) (snd (snd x))) (expanded_header past future) row) l (frame (expanded_header past future) r)).
    { unfold frame. induction 1 as [|x y l r E R' IH]; cbn [map]; constructor; [|exact IH].
      unfold row_is. destruct (SP _ _ E) as [_ L]. generalize (expanded_header past future) as hd. induction hd as [|c hd IHh]; cbn [map]; constructor; [|exact IHh].
      unfold cell. destruct (look y c) eqn:K; [apply L, K|]. intros v V. apply L in V. congruence. }
    apply G. exact R.
Qed.
Print Assumptions C106_table.
(** It succeeds on every list of flows of clean runs over the network. *)
Theorem C106_total : forall g flows past future step horizon sample_step, sample_step <> 0%Z ->
  (forall queues, In queues flows -> (forall q, In q queues -> line q) /\ forall e, In e (g_edges g) -> (e_id g e < length queues)%nat /\ forall ie, In ie (incoming g (e_from g e)) -> (e_id g ie < length queues)%nat) ->
  exists t, expanded_queues g flows past future step horizon sample_step = Ok t.
Proof.
  intros g flows past future step horizon sample_step P H. unfold expanded_queues, expanded_times, py_range. rewrite (proj2 (Z.eqb_neq _ _) P).
  assert (X : forall times, exists samples, mapM (fun x => fill (expanded_items g past future step (fst x) (fst (snd x)) (snd (snd x)))) (list_prod flows (list_prod times (g_edges g))) = Ok samples).
  { intro times. apply mapM_total. intros [queues [phi e]] I. apply in_prod_iff in I. destruct I as [I1 I]. apply in_prod_iff in I. destruct I as [I2 I3]. cbn [fst snd].
    destruct (H _ I1) as [L B]. destruct (B _ I3) as [B1 B2].
    assert (Q : forall id t, (id < length queues)%nat -> exists v, queue_at queues id t = Ok v).
    { intros id t LT. destruct (nth_error queues id) as [q|] eqn:N; [|apply nth_error_None in N; lia]. destruct (L q (nth_error_In _ _ N)) as (V & LO & HI).
      exists (pl_at q t). apply queue_at_of. exists q. split; [exact N|]. apply eval_at; [exact V|]. unfold in_dom. rewrite LO, HI. split; exact Logic.I. }
    apply fill_total. intros c r J. apply expanded_items_in in J. destruct c as [k t|t|i t]; [| |easy].
    - destruct J as [_ [ie [N ->]]]. apply Q. apply B2. eapply nth_error_In, N.
    - destruct J as [_ ->]. apply Q, B1. }
  destruct (0 <? sample_step)%Z; cbn [bind]; match goal with |- context [mapM _ (list_prod flows (list_prod ?ts _))] => destruct (X ts) as [samples E] end; rewrite E; cbn [bind]; eauto.
Qed.
Print Assumptions C106_total.
(** Refuted: not every recorded value is in the table.  Only five incoming edges have
    columns (C106_table), although any number of incoming edges is recorded; here a
    sample is kept because of the queue of a sixth incoming edge, and its row is blank
    or zero everywhere. *)
Definition x_star : network := fold_left (fun n p => nw_add_edge n (fst p) (snd p) 1 1) [(0, 1); (0, 1); (0, 1); (0, 1); (0, 1); (0, 1); (1, 2)]%nat nw_empty.
Definition x_calls : list call := [CExtend [(5%nat, [(0%nat, qz 3)])] 1; CExtend [(5%nat, [])] (qz 8)].
Definition x_net : Net := mkNet (w_cap x_star) (w_tau x_star).
Lemma lost_gen : forall (n : network) calls st header rows d v,
  let g := w_graph n in let nw := mkNet (w_cap n) (w_tau n) in
  net_ok nw -> valid_run nw calls -> clean_run nw calls -> flow_run false nw calls = Ok st -> In 6%nat (g_edges g) ->
  expanded_queues g [f_q st] 0 1 1 4 1 = Ok (header, rows) -> fill (expanded_items g 0 1 1 (f_q st) 1 6) = Ok d ->
  forallb (fun c => match look d c with Some v => qeqb v 0 | None => true end) (expanded_header 0 1) = true -> look d (Inc 5 0) = Some v -> v <> 0 ->
  net_ok nw /\ valid_run nw calls /\ clean_run nw calls /\ flow_run false nw calls = Ok st /\
  expanded_queues g [f_q st] 0 1 1 4 1 = Ok (header, rows) /\ sampled_at 4 1 1 1 1 /\ In 6%nat (g_edges g) /\
  recorded_in g 0 1 1 (f_q st) 1 6 (Inc 5 0) v /\ v <> 0 /\ ~ In (Inc 5 0) header /\
  forall row, row_is (recorded_in g 0 1 1 (f_q st) 1 6) header row -> Forall (fun x => x = None \/ x = Some 0) row.
Proof.
  intros n calls st header rows d v g nw NO VR CL R IE X FI H1 LK NZ. clearbody g nw.
  destruct (fill_spec _ _ FI (expanded_items_fun _ _ _ _ _ _ _)) as (_ & _ & _ & S4).
  assert (HD : header = expanded_header 0 1). { unfold expanded_queues in X. apply bind_ok in X. destruct X as [ts [_ X]]. apply bind_ok in X. destruct X as [ss [_ X]]. cbv zeta in X. apply ok_inj in X. congruence. }
  split; [exact NO|]. split; [exact VR|]. split; [exact CL|]. split; [exact R|]. split; [exact X|].
  split. { split; [lia|]. split; [exists 1%Z; reflexivity|]. assert (B : qleb (qz 1 + 1) (qz 4 - 1 * qz (Z.of_nat 1)) = true) by (vm_compute; reflexivity). apply qleb_true, B. }
  split; [exact IE|]. split; [apply expanded_items_recorded, S4, LK|]. split; [exact NZ|].
  split; [rewrite HD, header_in; lia|]. rewrite HD. rewrite forallb_forall in H1. unfold row_is.
  assert (G : forall hd row, (forall c, In c hd -> In c (expanded_header 0 1)) -> Forall2 (cell (recorded_in g 0 1 1 (f_q st) 1 6)) hd row -> Forall (fun x => x = None \/ x = Some 0) row).
  { intros hd row SUB F. induction F as [|c x hd row C F IH]; constructor; [|apply IH; intros; apply SUB; right; assumption].
    destruct x as [w|]; [right|left; reflexivity]. cbn [cell] in C. apply expanded_items_recorded, S4 in C. specialize (H1 c (SUB c (or_introl eq_refl))). rewrite C in H1. destruct (qeqbP w 0); [congruence|discriminate H1]. }
  intros row F. eapply G; [|exact F]. auto.
Qed.
Definition x_check : bool :=
  match flow_run true x_net x_calls, flow_run false x_net x_calls with Ok _, Ok st =>
     match expanded_queues (w_graph x_star) [f_q st] 0 1 1 4 1, fill (expanded_items (w_graph x_star) 0 1 1 (f_q st) 1 6) with
     | Ok (header, _), Ok d => (forallb (fun c => match look d c with Some v => qeqb v 0 | None => true end) (expanded_header 0 1) &&
         match look d (Inc 5 0) with Some v => negb (qeqb v 0) | None => false end && existsb (Nat.eqb 6) (g_edges (w_graph x_star)))%bool
     | _, _ => false end | _, _ => false end.
Lemma x_check_true : x_check = true. Proof. vm_compute. reflexivity. Qed.
Lemma x_net_ok : net_ok x_net. Proof. apply netb_ok; vm_compute; reflexivity. Qed.
Lemma x_run_ok : valid_run x_net x_calls. Proof. apply runb_ok; vm_compute; reflexivity. Qed.
Theorem C106_lost_refuted : exists n calls st header rows phi e c v,
  let g := w_graph n in let nw := mkNet (w_cap n) (w_tau n) in
  net_ok nw /\ valid_run nw calls /\ clean_run nw calls /\ flow_run false nw calls = Ok st /\
  expanded_queues g [f_q st] 0 1 1 4 1 = Ok (header, rows) /\ sampled_at 4 1 1 1 phi /\ In e (g_edges g) /\
  recorded_in g 0 1 1 (f_q st) phi e c v /\ v <> 0 /\ ~ In c header /\
  forall row, row_is (recorded_in g 0 1 1 (f_q st) phi e) header row -> Forall (fun x => x = None \/ x = Some 0) row.
Proof.
  pose proof x_check_true as H. unfold x_check in H.
  destruct (flow_run true x_net x_calls) as [st'|] eqn:R'; [|discriminate H].
  destruct (flow_run false x_net x_calls) as [st|] eqn:R; [|discriminate H].
  destruct (expanded_queues (w_graph x_star) [f_q st] 0 1 1 4 1) as [[header rows]|] eqn:X; [|discriminate H].
  destruct (fill (expanded_items (w_graph x_star) 0 1 1 (f_q st) 1 6)) as [d|] eqn:FI; [|discriminate H].
  apply andb_true_iff in H. destruct H as [H H3]. apply andb_true_iff in H. destruct H as [H1 H2].
  destruct (look d (Inc 5 0)) as [v|] eqn:LK; [|discriminate H2].
  exists x_star, x_calls, st, header, rows, 1%Z, 6%nat, (Inc 5 0), v.
  refine (lost_gen x_star x_calls st header rows d v x_net_ok x_run_ok _ R _ X FI H1 LK _).
  - unfold clean_run. fold x_net. rewrite R'. discriminate.
  - apply existsb_exists in H3. destruct H3 as [y [I E]]. apply Nat.eqb_eq in E. subst y. exact I.
  - destruct (qeqbP v 0); [discriminate H2|assumption].
Qed.
Print Assumptions C106_lost_refuted.

(** ** C107: expanded_queues_from_flows_per_edge *)
(** The columns of the table of edge [e]: the edges into its tail and out of its head
    up to now, and the edge itself also for the future steps. *)
Definition column_of (g : graph) (past future e id : nat) (t : Z) : Prop :=
  ((exists r, (In r (incoming g (e_from g e)) \/ In r (outgoing g (e_to g e))) /\ e_id g r = id) /\ (- Z.of_nat past < t <= 0)%Z) \/
  (id = e_id g e /\ (- Z.of_nat past < t <= Z.of_nat future)%Z).
(** [average = False]: the queue at phi - step t; [average = True]: the integral of the
    queue from phi - step (t+1) to phi - step t. *)
Definition integral_is (q : PL) (a b v : Qc) : Prop := (exists F, antiderivative q F) /\ forall F, antiderivative q F -> v = F b - F a.
Definition per_edge_recorded (average : bool) (step : Qc) (queues : list PL) (phi : Z) (c : column) (v : Qc) : Prop :=
  exists id t q, c = Of id t /\ nth_error queues id = Some q /\
    if average then integral_is q (qz phi - step * qz (t + 1)) (qz phi - step * qz t) v else pl_eval q (qz phi - step * qz t) = Ok v.
Lemma per_edge_items_in g past future step average e queues phi c r : In (c, r) (per_edge_items g past future step average e queues phi) <->
  exists id t, c = Of id t /\ column_of g past future e id t /\ r = per_edge_value average step queues phi t id.
Proof.
  unfold per_edge_items. cbv zeta.
  assert (B : forall to ids, In (c, r) (concat (map (fun r0 => map (fun t => (Of (e_id g r0) t, per_edge_value average step queues phi t (e_id g r0))) (zrange (- Z.of_nat past + 1) to)) ids)) <->
     exists r0 t, In r0 ids /\ (- Z.of_nat past < t < to)%Z /\ c = Of (e_id g r0) t /\ r = per_edge_value average step queues phi t (e_id g r0)).
  { intros to ids. rewrite in_concat. split.
    - intros [l [L I]]. apply in_map_iff in L. destruct L as [r0 [<- L]]. apply in_map_iff in I. destruct I as [t [E I]]. injection E as <- <-. apply zrange_in in I. exists r0, t. split; [exact L|]. split; [lia|]. auto.
    - intros [r0 [t [I [T [-> ->]]]]]. eexists. split; [apply in_map_iff; exists r0; split; [reflexivity|exact I]|]. apply in_map_iff. exists t. split; [reflexivity|apply zrange_in; lia]. }
  rewrite !in_app_iff, !B. unfold column_of. split.
  - intros [[r0 [t [I [T [-> ->]]]]]|[[r0 [t [I [T [-> ->]]]]]|[r0 [t [I [T [-> ->]]]]]]]; exists (e_id g r0), t; (split; [reflexivity|]; split; [|reflexivity]).
    + left. split; [eauto|lia].
    + left. split; [eauto|lia].
    + right. destruct I as [<-|[]]. split; [reflexivity|lia].
  - intros [id [t [-> [[[[r0 [[I|I] <-]] T]|[-> T]] ->]]]].
    + left. exists r0, t. split; [exact I|]. split; [lia|auto].
    + right. left. exists r0, t. split; [exact I|]. split; [lia|auto].
    + right. right. exists e, t. split; [left; reflexivity|]. split; [lia|auto].
Qed.
Lemma per_edge_items_fun g past future step average e queues phi c r r' : In (c, r) (per_edge_items g past future step average e queues phi) -> In (c, r') (per_edge_items g past future step average e queues phi) -> r = r'.
Proof. rewrite !per_edge_items_in. intros [i [t [-> [_ ->]]]] [i' [t' [E [_ ->]]]]. injection E as <- <-. reflexivity. Qed.
Lemma per_edge_value_ok average step queues phi t id v : (forall q, In q queues -> line q) -> per_edge_value average step queues phi t id = Ok v -> per_edge_recorded average step queues phi (Of id t) v.
Proof.
  intros L H. unfold per_edge_value in H. apply bind_ok in H. destruct H as [q [Q H]]. apply pyget_of in Q. exists id, t, q. split; [reflexivity|]. split; [exact Q|].
  destruct average; [|exact H]. destruct (L q (nth_error_In _ _ Q)) as (V & LO & HI). 
  assert (H' := H). unfold integrate in H'. apply bind_ok in H'. destruct H' as [u [A H']]. apply assertb_ok in A. apply bind_ok in H'. destruct H' as [u' [A' _]]. apply assertb_ok in A'.
  apply andb_true_iff in A. destruct A as [A A3]. apply andb_true_iff in A. destruct A as [A1 A2]. rewrite qltb_true in A2.
  destruct (C16_integrate q (qz phi - step * qz (t + 1)) (qz phi - step * qz t) V) as [y [Y1 [Y2 Y3]]].
  - apply Forall_forall. rewrite forallb_forall in A'. intros w W. apply qleb_true, A', W.
  - unfold in_dom. rewrite LO, HI. split; exact Logic.I.
  - unfold in_dom. rewrite LO, HI. split; exact Logic.I.
  - exact A2.
  - rewrite Y1 in H. apply ok_inj in H. subst y. split; assumption.
Qed.
Theorem C107_table : forall g flows past future step horizon sample_step average e header rows, (0 < sample_step)%Z ->
  (forall queues q, In queues flows -> In q queues -> line q) ->
  per_edge_table g flows past future step horizon sample_step average e = Ok (header, rows) ->
  NoDup header /\ (forall c, In c header <-> exists id t, c = Of id t /\ column_of g past future e id t) /\
  exists times, StronglySorted Z.lt times /\ (forall phi, In phi times <-> sampled_at horizon step future sample_step phi) /\
    Forall2 (fun x row => Forall2 (fun c y => exists v, y = Some v /\ per_edge_recorded average step (fst x) (snd x) c v) header row) (list_prod flows times) rows.
Proof.
  intros g flows past future step horizon sample_step average e header rows P L H. unfold per_edge_table in H. apply bind_ok in H. destruct H as [times [T H]].
  apply bind_ok in H. destruct H as [samples [M H]]. apply mapM_rel in M. destruct (times_spec _ _ _ _ _ P T) as [S I].
  assert (SP : forall queues phi d, (forall q, In q queues -> line q) -> fill (per_edge_items g past future step average e queues phi) = Ok d ->
     NoDup (map fst d) /\ (forall c, In c (map fst d) <-> exists id t, c = Of id t /\ column_of g past future e id t) /\ forall c v, look d c = Some v -> per_edge_recorded average step queues phi c v).
  { intros queues phi d LQ E. destruct (fill_spec _ _ E (per_edge_items_fun _ _ _ _ _ _ _ _)) as (S1 & S2 & _ & S4). split; [exact S1|]. split.
    - intro c. rewrite S2, in_map_iff. split.
      + intros [[c' r] [<- J]]. apply per_edge_items_in in J. destruct J as [id [t [E1 [E2 _]]]]. eauto.
      + intros [id [t [-> J]]]. eexists (_, _). split; [|apply per_edge_items_in; exists id, t; split; [reflexivity|split; [exact J|reflexivity]]]. reflexivity.
    - intros c v K. apply S4 in K. apply per_edge_items_in in K. destruct K as [id [t [-> [_ K]]]]. apply per_edge_value_ok; auto. }
  destruct samples as [|d samples]; [discriminate H|]. cbv zeta in H. apply ok_inj in H. injection H as <- <-.
  assert (LP : forall x, In x (list_prod flows times) -> forall q, In q (fst x) -> line q). { intros [queues phi] J q. apply in_prod_iff in J. cbn. intro. eapply L; [apply J|assumption]. }
  assert (D : exists queues phi, (forall q, In q queues -> line q) /\ fill (per_edge_items g past future step average e queues phi) = Ok d).
  { clear - M LP. remember (d :: samples) as r0 eqn:ER. destruct M as [|x y l r E M]; [discriminate ER|]. injection ER as -> ->. exists (fst x), (snd x). split; [apply LP; left; reflexivity|exact E]. }
  destruct D as [qs [ph [LD D]]]. destruct (SP _ _ _ LD D) as (D1 & D2 & _). split; [exact D1|]. split; [exact D2|]. exists times. split; [exact S|]. split; [exact I|].
  assert (G : forall l r, (forall x, In x l -> forall q, In q (fst x) -> line q) -> Forall2 (fun x y => fill (per_edge_items g past future step average e (fst x) (snd x)) = Ok y) l r ->
     Forall2 (fun x row => Forall2 (fun c y => exists v, y = Some v /\ per_edge_recorded average step (fst x) (snd x) c v) (map fst d) row) l (frame (map fst d) r)).
  { intros l r LL F. unfold frame. induction F as [|x y l r E F IH]; cbn [map]; [constructor|]. constructor; [|apply IH; intros z Z; apply LL; right; exact Z].
    destruct (SP _ _ _ (LL x (or_introl eq_refl)) E) as (_ & K2 & K3).
    assert (SUB : forall c, In c (map fst d) -> In c (map fst y)) by (intros c J; apply K2, D2, J). revert SUB. clear - K3. induction (map fst d) as [|c hd IHh]; intro SUB; cbn [map]; [constructor|]. constructor; [|apply IHh; intros; apply SUB; right; assumption].
    destruct (proj1 (look_key y c) (SUB c (or_introl eq_refl))) as [v V]. exists v. auto. }
  exact (G _ _ LP M).
Qed.
Print Assumptions C107_table.
(** Without flows or sample times it raises IndexError (and the lock file stays). *)
Theorem C107_no_samples : forall g flows past future step horizon sample_step average e, (0 < sample_step)%Z ->
  flows = [] \/ (forall phi, ~ sampled_at horizon step future sample_step phi) ->
  per_edge_table g flows past future step horizon sample_step average e = Err IndexError.
Proof.
  intros g flows past future step horizon sample_step average e P H. unfold per_edge_table. destruct (expanded_times horizon step future sample_step) as [times|] eqn:T.
  - cbn [bind]. assert (X : list_prod flows times = []).
    { destruct H as [->|H]; [reflexivity|]. destruct (times_spec _ _ _ _ _ P T) as [_ I]. destruct times as [|phi times]; [clear; induction flows as [|a fs IH]; [reflexivity|cbn; exact IH]|]. destruct (H phi). apply I. left. reflexivity. }
    rewrite X. reflexivity.
  - unfold expanded_times, py_range in T. rewrite (proj2 (Z.eqb_neq sample_step 0)) in T by lia. destruct (0 <? sample_step)%Z; discriminate T.
Qed.
Print Assumptions C107_no_samples.
(** Refuted: with [average] the entry is not the average queue over the step but the
    average times the step length ([mean]: integral divided by length). *)
Definition mean_is (q : PL) (a b m : Qc) : Prop := integral_is q a b (m * (b - a)).
Definition x_path : network := fold_left (fun n p => nw_add_edge n (fst p) (snd p) 1 1) [(0, 1); (1, 2)]%nat nw_empty.
Theorem C107_average_refuted :
  (forall step queues phi id t v q m, nth_error queues id = Some q -> per_edge_recorded true step queues phi (Of id t) v ->
     mean_is q (qz phi - step * qz (t + 1)) (qz phi - step * qz t) m -> v = m * step) /\
  exists n calls st header row w v q, let g := w_graph n in let nw := mkNet (w_cap n) (w_tau n) in
    net_ok nw /\ valid_run nw calls /\ clean_run nw calls /\ flow_run false nw calls = Ok st /\ nth_error (f_q st) 0 = Some q /\
    per_edge_table g [f_q st] 1 0 (qz 2) 3 2 true 0 = Ok (header, [row; [w; Some v]]) /\ header = [Of 1 0; Of 0 0] /\ per_edge_recorded true (qz 2) (f_q st) 2 (Of 0 0) v /\
    v = Q2Qc (5 # 2) /\ mean_is q (qz 2 - qz 2 * qz (0 + 1)) (qz 2 - qz 2 * qz 0) (Q2Qc (5 # 4)).
Proof.
  split.
  - intros step queues phi id t v q m N [i [t' [q' [E [N' [X Y]]]]]] [_ M]. injection E as <- <-. assert (q' = q) by congruence. subst q'. destruct X as [F A]. rewrite (Y F A), <- (M F A). 
    rewrite qz_plus. change (qz 1) with 1. ring.
  - exists x_path, ds_calls. set (nw := mkNet (w_cap x_path) (w_tau x_path)).
    assert (CL : clean_run nw ds_calls).
    { unfold clean_run. assert (H : match flow_run true nw ds_calls with Ok _ => true | Err _ => false end = true) by (vm_compute; reflexivity). destruct (flow_run true nw ds_calls); [discriminate|discriminate H]. }
    assert (NO : net_ok nw) by (apply netb_ok; vm_compute; reflexivity). assert (VR : valid_run nw ds_calls) by (apply runb_ok; vm_compute; reflexivity).
    assert (H : match flow_run false nw ds_calls with Ok st =>
      match per_edge_table (w_graph x_path) [f_q st] 1 0 (qz 2) 3 2 true 0, nth_error (f_q st) 0 with
      | Ok (header, [row; [w; Some v]]), Some q => (qeqb v (Q2Qc (5 # 2)) && match header with [a; b] => column_eqb a (Of 1 0) && column_eqb b (Of 0 0) | _ => false end &&
          match per_edge_value true (qz 2) (f_q st) 2 0 0 with Ok v' => qeqb v v' | _ => false end)%bool
      | _, _ => false end | _ => false end = true) by (vm_compute; reflexivity).
    destruct (flow_run false nw ds_calls) as [st|] eqn:R; [|discriminate H].
    destruct (per_edge_table (w_graph x_path) [f_q st] 1 0 (qz 2) 3 2 true 0) as [[header rows]|] eqn:X; [|discriminate H].
    destruct rows as [|row [|[|w [|[v|] [|]]] [|]]]; try discriminate H. destruct (nth_error (f_q st) 0) as [q|] eqn:Q; [|discriminate H].
    apply andb_true_iff in H. destruct H as [H H3]. apply andb_true_iff in H. destruct H as [H1 H2].
    destruct (qeqbP v (Q2Qc (5 # 2))) as [EV|]; [|discriminate H1]. destruct header as [|a [|b [|]]]; try discriminate H2. apply andb_true_iff in H2. destruct H2 as [A B].
    destruct (column_eqb_spec a (Of 1 0)); [|discriminate A]. destruct (column_eqb_spec b (Of 0 0)); [|discriminate B]. subst a b.
    destruct (per_edge_value true (qz 2) (f_q st) 2 0 0) as [v'|] eqn:PV; [|discriminate H3]. destruct (qeqbP v v') as [E|]; [|discriminate H3]. subst v'.
    assert (PR : per_edge_recorded true (qz 2) (f_q st) 2 (Of 0 0) v). { apply per_edge_value_ok; [|exact PV]. apply (run_lines nw ds_calls st NO VR CL R). }
    exists st, [Of 1 0; Of 0 0], row, w, v, q. cbv zeta. fold nw. split; [exact NO|]. split; [exact VR|]. split; [exact CL|]. split; [exact R|]. split; [exact Q|]. split; [exact X|]. split; [reflexivity|]. split; [exact PR|]. split; [exact EV|].
    destruct PR as [i [t [q' [E [N' X']]]]]. injection E as <- <-. assert (q' = q) by congruence. subst q'. unfold mean_is.
    replace (Q2Qc (5 # 4) * (qz 2 - qz 2 * qz 0 - (qz 2 - qz 2 * qz (0 + 1)))) with v; [exact X'|]. rewrite EV. apply Qc_is_canon. vm_compute. reflexivity.
Qed.
Print Assumptions C107_average_refuted.
(** The same run with [average = False]: the table of edge 0 at times 0 and 2. *)
Example C107_example : match flow_run false (mkNet (w_cap x_path) (w_tau x_path)) ds_calls with Ok st =>
   match per_edge_table (w_graph x_path) [f_q st] 1 0 1 3 2 false 0 with
   | Ok ([Of 1 0; Of 0 0], [[Some a; Some b]; [Some c; Some d]]) => qc_listb [a; b; c; d] [0; 0; 0; 1]
   | _ => false end | Err _ => false end = true.
Proof. vm_compute. reflexivity. Qed.

(** ** C108: generate_queues *)
(** Row e, column j of the array is the queue of edge e at time -past + j * step_length;
    the columns end with the last such time up to the horizon. *)
Theorem C108_table : forall past horizon step_length queues rows, (0 < step_length)%Z ->
  queue_table past horizon step_length queues = Ok rows ->
  exists n, (forall j, (j < n)%nat <-> (- Z.of_nat past + Z.of_nat j * step_length <= horizon)%Z) /\
    Forall2 (fun q row => length row = n /\ forall j, (j < n)%nat -> exists v, nth_error row j = Some v /\ pl_eval q (qz (- Z.of_nat past + Z.of_nat j * step_length)) = Ok v) queues rows.
Proof.
  intros past horizon s queues rows P H. unfold queue_table, py_range in H. rewrite (proj2 (Z.eqb_neq s 0)) in H by lia. rewrite (proj2 (Z.ltb_lt 0 s)) in H by lia. cbn [bind] in H.
  set (n := Z.to_nat ((horizon + 1 - - Z.of_nat past + s - 1) / s)) in *. exists n. split.
  - intro j. pose proof (Z.mul_div_le (horizon + 1 - - Z.of_nat past + s - 1) s P). pose proof (Z.mul_succ_div_gt (horizon + 1 - - Z.of_nat past + s - 1) s P). unfold n. split; intro L; nia.
  - apply mapM_rel in H. induction H as [|q row l r M H IH]; constructor; [|exact IH]. destruct (mapM_spec _ _ _ M) as [M1 M2]. rewrite map_length, seq_length in M1. split; [exact M1|].
    intros j L. destruct (M2 j (- Z.of_nat past + Z.of_nat j * s)%Z) as [v [V1 V2]]; [|eauto]. apply (map_nth_error (fun i0 : nat => (- Z.of_nat past + Z.of_nat i0 * s)%Z)). rewrite (nth_error_nth' _ 0%nat) by (rewrite seq_length; exact L). rewrite seq_nth by exact L. reflexivity.
Qed.
Print Assumptions C108_table.
(** Steps other than positive: Python's range with a negative step runs downwards; step 0 raises. *)
Theorem C108_other_steps : forall past horizon step_length queues,
  (step_length = 0%Z -> queue_table past horizon step_length queues = Err ValueError) /\
  forall rows, (step_length < 0)%Z -> queue_table past horizon step_length queues = Ok rows ->
  exists n, (forall j, (j < n)%nat <-> (horizon + 1 < - Z.of_nat past + Z.of_nat j * step_length)%Z) /\
    Forall2 (fun q row => length row = n /\ forall j, (j < n)%nat -> exists v, nth_error row j = Some v /\ pl_eval q (qz (- Z.of_nat past + Z.of_nat j * step_length)) = Ok v) queues rows.
Proof.
  intros past horizon s queues. split; [intros ->; reflexivity|]. intros rows P H. unfold queue_table, py_range in H. rewrite (proj2 (Z.eqb_neq s 0)) in H by lia. rewrite (proj2 (Z.ltb_ge 0 s)) in H by lia. cbn [bind] in H.
  set (n := Z.to_nat ((- Z.of_nat past - (horizon + 1) - s - 1) / - s)) in *. exists n. split.
  - intro j. assert (P' : (0 < - s)%Z) by lia. pose proof (Z.mul_div_le (- Z.of_nat past - (horizon + 1) - s - 1) (- s) P'). pose proof (Z.mul_succ_div_gt (- Z.of_nat past - (horizon + 1) - s - 1) (- s) P'). unfold n. split; intro L; nia.
  - apply mapM_rel in H. induction H as [|q row l r M H IH]; constructor; [|exact IH]. destruct (mapM_spec _ _ _ M) as [M1 M2]. rewrite map_length, seq_length in M1. split; [exact M1|].
    intros j L. destruct (M2 j (- Z.of_nat past + Z.of_nat j * s)%Z) as [v [V1 V2]]; [|eauto]. apply (map_nth_error (fun i0 : nat => (- Z.of_nat past + Z.of_nat i0 * s)%Z)). rewrite (nth_error_nth' _ 0%nat) by (rewrite seq_length; exact L). rewrite seq_nth by exact L. reflexivity.
Qed.
Print Assumptions C108_other_steps.
Theorem C108_total : forall past horizon step_length queues, step_length <> 0%Z -> (forall q, In q queues -> line q) -> exists rows, queue_table past horizon step_length queues = Ok rows.
Proof.
  intros past horizon s queues P L. unfold queue_table, py_range. rewrite (proj2 (Z.eqb_neq s 0) P). destruct (0 <? s)%Z; cbn [bind]; apply mapM_total; intros q Q; apply mapM_total; intros t _; destruct (L q Q) as (V & LO & HI);
    exists (pl_at q (qz t)); apply eval_at; try exact V; unfold in_dom; rewrite LO, HI; split; exact Logic.I.
Qed.
Print Assumptions C108_total.
Example C108_example : match flow_run false (mkNet (w_cap x_path) (w_tau x_path)) ds_calls with Ok st =>
   match queue_table 1 4 2 (f_q st) with Ok [a; b] => (qc_listb a [0; qz 2; 0] && qc_listb b [0; 0; 0])%bool | _ => false end | Err _ => false end = true.
Proof. vm_compute. reflexivity. Qed.
