(** * Properties C23-C25: PriorityQueue (src/utilities/queues.py)
    The specification is the first part of PQSpec.v. *)
From Verif Require Import Base Spec PQ PQProofs PQOps PQSpec.

(** ** C23: every history of calls gives the answers of the specification. *)
Theorem C23_behaves_as_keyed_queue : forall (A : Type) (EA : Item A) (initial : list (A * ext)) ops,
  NoDup (map fst initial) -> legal_run (s_init initial) ops ->
  exists q, pq_init initial = Ok q /\ snd (q_run q ops) = snd (s_run (s_init initial) ops).
Proof.
  intros A EA l ops N L. destruct (sim_init l N) as [q [E S]]. exists q. split; [exact E|]. apply sim_run; auto.
Qed.
Print Assumptions C23_behaves_as_keyed_queue.

(** The specification's [s_least] is really the least (key, number). *)
Theorem C23_least : forall (A : Type) (l : list (entry A)), match s_least l with
  | None => l = []
  | Some e => In e l /\ forall x, In x l ->
      ext_le (e_key e) (e_key x) /\ (e_key e = e_key x -> (e_idx e <= e_idx x)%Z) end.
Proof.
  intros A l. pose proof (s_least_spec l) as Q. destruct (s_least l) as [e|]; [|exact Q]. destruct Q as [Q1 Q2]. split; [exact Q1|].
  intros x Hx. specialize (Q2 x Hx). unfold e_le, e_lt in Q2. split.
  - destruct (ext_lebP (e_key e) (e_key x)) as [|C]; auto. exfalso. apply Q2. left. exact C.
  - intro E. apply Z.nlt_ge. intro C. apply Q2. right. auto.
Qed.

(** ** C24 *)
(** Pop until empty. *)
Fixpoint pq_drain {A} {EA : Item A} (n : nat) (q : PQ A) : res (list A) :=
  match n with
  | O => Ok []
  | S m => '(q', it) <- pq_pop q ;; r <- pq_drain m q' ;; Ok (it :: r)
  end.
(** For every reachable queue: [sorted()] and draining give the same list; it
    lists every stored item exactly once, by non-decreasing key, and equal
    keys by insertion number. *)
Definition reachable {A} {EA : Item A} (q : PQ A) (s : squeue A) : Prop :=
  exists initial ops q0, NoDup (map fst initial) /\ legal_run (s_init initial) ops /\
    pq_init initial = Ok q0 /\ q = fst (q_run q0 ops) /\ s = fst (s_run (s_init initial) ops).
Lemma reachable_sim {A} {EA : Item A} (q : PQ A) s : reachable q s -> sim q s.
Proof.
  intros [l [ops [q0 [N [L [E [-> ->]]]]]]]. destruct (sim_init l N) as [q1 [E1 S]]. assert (q1 = q0) by congruence. subst.
  apply sim_run; auto.
Qed.
Lemma drain_ok {A} {EA : Item A} : forall n (q : PQ A) s, sim q s -> length (s_entries s) = n -> pq_drain n q = Ok (map e_item (s_order n (s_entries s))).
Proof.
  induction n as [|n IH]; intros q s S L; cbn [pq_drain s_order]; [reflexivity|].
  pose proof (sim_step q s Pop S Logic.I) as [E S']. cbn [q_step s_step] in E, S'. unfold sq_pop in E, S'.
  pose proof (s_least_spec (s_entries s)) as Q. pose proof (sim_nodup q s S) as [N1 _].
  destruct (s_least (s_entries s)) as [e|]; [|rewrite Q in L; discriminate].
  destruct (pq_pop q) as [[q' it]|]; cbn [fst snd bind] in *; [|discriminate]. apply ok_inj in E. injection E as ->.
  rewrite (IH q' _ S'); [reflexivity|]. cbn [s_entries sq_drop]. destruct Q as [Q1 _]. apply in_split in Q1. destruct Q1 as [l1 [l2 E1]].
  assert (P : Permutation (s_entries s) (e :: l1 ++ l2)) by (rewrite E1; symmetry; apply Permutation_middle).
  rewrite (Permutation_length (s_drop_perm e _ _ N1 P)). apply Permutation_length in P. cbn in P. lia.
Qed.
Theorem C24_drain_sorted : forall (A : Type) (EA : Item A) (q : PQ A) s, reachable q s ->
  exists es, Permutation es (s_entries s) /\
    pq_drain (pq_len q) q = Ok (map e_item es) /\ pq_sorted q = map e_item es /\
    NoDup (map e_item es) /\ (forall it, In it (map e_item es) <-> pq_has q it = true) /\
    (forall e, In e es -> pq_key_of q (e_item e) None = Ok (Some (e_key e))) /\
    StronglySorted (fun a b => ext_le (e_key a) (e_key b) /\ (e_key a = e_key b -> (e_idx a < e_idx b)%Z)) es.
Proof.
  intros A EA q s R. pose proof (reachable_sim q s R) as S. pose proof (sim_nodup q s S) as [N1 N2]. pose proof S as [W [Nx P]].
  set (es := s_order (length (s_entries s)) (s_entries s)).
  destruct (order_spec _ (s_entries s) eq_refl N1) as [P1 S1]. fold es in P1, S1.
  exists es. split; [exact P1|]. split.
  { unfold pq_len. rewrite (Permutation_length P). apply drain_ok; auto. }
  split. { unfold pq_sorted. rewrite (sim_sorted q s S). reflexivity. }
  assert (Nes : NoDup (map e_item es)) by (eapply Permutation_NoDup; [apply Permutation_map; symmetry; exact P1|exact N1]).
  split; [exact Nes|]. split.
  { intro it. rewrite (has_in q it W). unfold items.
    assert (PP : Permutation (map e_item es) (map e_item (q_data q))) by (apply Permutation_map; rewrite P1; symmetry; exact P).
    split; apply Permutation_in; [exact PP|symmetry; exact PP]. }
  split.
  { intros e He. pose proof (sim_step q s (KeyOf (e_item e) None) S Logic.I) as [E _]. cbn [q_step s_step snd] in E.
    rewrite (find_perm (e_item e) (s_entries s) e) in E; auto; [|eapply Permutation_in; eauto].
    destruct (pq_key_of q (e_item e) None); cbn [rmap bind] in E; [|discriminate]. congruence. }
  assert (Nn : NoDup (map e_idx es)) by (eapply Permutation_NoDup; [apply Permutation_map; symmetry; exact P1|exact N2]).
  clear - S1 Nn. induction S1 as [|a l S1 IH F]; constructor.
  - apply IH. cbn in Nn. inversion Nn; auto.
  - rewrite Forall_forall in *. intros b Hb. specialize (F b Hb). unfold e_le, e_lt in F. split.
    + destruct (ext_lebP (e_key a) (e_key b)) as [|C]; auto. exfalso. apply F. left. exact C.
    + intro E. destruct (Z.lt_trichotomy (e_idx a) (e_idx b)) as [|[K|K]]; auto; exfalso.
      * cbn in Nn. inversion Nn as [|? ? X _]; subst. apply X. rewrite K. apply in_map. exact Hb.
      * apply F. right. auto.
Qed.
Print Assumptions C24_drain_sorted.

(** ** C25 is false of the code: the new entry is never stored. *)
Definition C25_claim : Prop := forall (q : PQ nat) s it k k0 q', reachable q s ->
  pq_key_of q it None = Ok (Some k0) -> ext_le k0 k -> pq_increase_key q it k = Ok q' ->
  pq_key_of q' it None = Ok (Some k).
Definition ex_init : list (nat * ext) := [(7%nat, Fin 1); (8%nat, Fin (1+1)); (9%nat, PInf)].
Theorem C25_refuted : ~ C25_claim.
Proof.
  intro C. assert (N : NoDup (map fst ex_init)).
  { repeat constructor; cbn; lia. }
  destruct (sim_init ex_init N) as [q [E _]]. pose proof E as E'. vm_compute in E'. apply ok_inj in E'.
  assert (R : reachable q (s_init ex_init)).
  { exists ex_init, [], q. repeat split; auto. }
  assert (X : exists q', pq_increase_key q 8%nat PInf = Ok q' /\ q_data q' = q_data q /\ q_dict q' 8%nat = Some 1%nat).
  { subst q. eexists. split; [vm_compute; reflexivity|]. split; vm_compute; reflexivity. }
  destruct X as [q' [X1 [X2 X3]]].
  assert (K0 : exists k0, pq_key_of q 8%nat None = Ok (Some k0) /\ ext_le k0 PInf /\ ext_lt k0 PInf).
  { subst q. eexists. split; [vm_compute; reflexivity|]. split; [exact Logic.I|intro H; exact H]. }
  destruct K0 as [k0 [K1 [K2 K3]]]. specialize (C q _ 8%nat PInf k0 q' R K1 K2 X1).
  assert (Same : pq_key_of q' 8%nat None = pq_key_of q 8%nat None).
  { unfold pq_key_of. rewrite X2, X3. subst q. vm_compute. reflexivity. }
  rewrite Same, K1 in C. apply ok_inj in C. injection C as ->. apply K3. exact Logic.I.
Qed.
Print Assumptions C25_refuted.

(** What does hold: a call whose precondition holds never raises and never
    changes the number of entries; if the item has no children in the heap, or
    the new entry is not smaller than the least child -- the very case in which
    the item should sink -- the call has no effect at all. *)
Lemma increase_loop_total {A} {EA : Item A} (x : entry A) : forall fuel data d pos, (length data - pos < fuel)%nat ->
  exists data' d', increase_loop fuel data d x pos = Ok (data', d') /\ length data' = length data.
Proof.
  induction fuel as [|k IH]; intros data d pos L; [lia|]. cbn [increase_loop].
  destruct (Nat.ltb_spec (2 * pos + 1) (length data)) as [H1|H1]; [|eauto].
  assert (X : exists c, (if (2 * pos + 2 <? length data)%nat
      then a <- getn data (2 * pos + 2) ;; b <- getn data (2 * pos + 1) ;; Ok (if e_ltb a b then 2 * pos + 2 else 2 * pos + 1)%nat
      else Ok (2 * pos + 1)%nat) = Ok c /\ (pos < c < length data)%nat).
  { destruct (Nat.ltb_spec (2 * pos + 2) (length data)) as [H2|H2].
    - rewrite !getn_ok by lia. cbn [bind]. eexists. split; [reflexivity|]. destruct (e_ltb _ _); lia.
    - eexists. split; [reflexivity|]. lia. }
  destruct X as [c [-> Hc]]. cbn [bind]. rewrite getn_ok by lia. cbn [bind]. destruct (e_ltb x (data @ c)); cbn [negb]; [|eauto].
  rewrite setn_ok by lia. cbn [bind].
  destruct (IH (upd data pos (data @ c)) (d_set d (e_item (data @ c)) pos) c) as [data' [d' [E L']]]; [rewrite upd_length; lia|].
  exists data', d'. split; [exact E|]. rewrite L', upd_length. reflexivity.
Qed.
Theorem C25_total_partial : forall (A : Type) (EA : Item A) (q : PQ A) s it k k0, reachable q s ->
  pq_key_of q it None = Ok (Some k0) -> ext_le k0 k ->
  exists q', pq_increase_key q it k = Ok q' /\ pq_len q' = pq_len q.
Proof.
  intros A EA q s it k k0 R K0 Hk. pose proof (reachable_sim q s R) as [W _]. unfold pq_key_of in K0.
  destruct (q_dict q it) as [pos|] eqn:E; [|discriminate]. apply (wf_dict q W) in E as E2. destruct E2 as [L I].
  rewrite getn_ok in K0 by exact L. cbn [bind] in K0. apply ok_inj in K0. injection K0 as K0.
  unfold pq_increase_key, pq_has, d_get. rewrite E. cbn [assertb bind]. rewrite getn_ok by exact L. cbn [bind].
  destruct (e_ltbP (mkE k (e_idx (q_data q @ pos)) it) (q_data q @ pos)) as [C|C].
  { exfalso. destruct C as [C|[_ C]]; cbn in C; [|lia]. apply C. rewrite K0. exact Hk. }
  cbn [negb assertb bind].
  destruct (increase_loop_total (mkE k (e_idx (q_data q @ pos)) it) (S (length (q_data q))) (q_data q) (q_dict q) pos ltac:(lia)) as [data' [d' [-> L']]].
  cbn [bind]. eexists. split; [reflexivity|]. exact L'.
Qed.
Theorem C25_leaf_no_effect_partial : forall (A : Type) (EA : Item A) (q : PQ A) s it k pos, reachable q s ->
  q_dict q it = Some pos -> (length (q_data q) <= 2 * pos + 1)%nat -> ext_le (e_key (q_data q @ pos)) k ->
  exists q', pq_increase_key q it k = Ok q' /\ q_data q' = q_data q /\ forall x, q_dict q' x = q_dict q x.
Proof.
  intros A EA q s it k pos R E Leaf Hk. pose proof (reachable_sim q s R) as [W _]. apply (wf_dict q W) in E as E2. destruct E2 as [L I].
  unfold pq_increase_key, pq_has, d_get. rewrite E. cbn [assertb bind]. rewrite getn_ok by exact L. cbn [bind].
  destruct (e_ltbP (mkE k (e_idx (q_data q @ pos)) it) (q_data q @ pos)) as [C|C].
  { exfalso. destruct C as [C|[_ C]]; cbn in C; [|lia]. apply C. exact Hk. }
  cbn [negb assertb bind increase_loop]. destruct (Nat.ltb_spec (2 * pos + 1) (length (q_data q))); [lia|]. cbn [bind].
  eexists. split; [reflexivity|]. auto.
Qed.
(** A call whose precondition fails raises: the item is missing, or its key
    would become smaller. *)
Theorem C25_rejects : forall (A : Type) (EA : Item A) (q : PQ A) s it k, reachable q s ->
  pq_key_of q it None = Ok None \/ (exists k0, pq_key_of q it None = Ok (Some k0) /\ ext_lt k k0) -> pq_increase_key q it k = Err AssertionError.
Proof.
  intros A EA q s it k R H. pose proof (reachable_sim q s R) as [W _]. unfold pq_key_of in H. unfold pq_increase_key, pq_has, d_get.
  destruct (q_dict q it) as [pos|] eqn:E; [|reflexivity]. apply (wf_dict q W) in E as E2. destruct E2 as [L I].
  rewrite getn_ok in H by exact L. cbn [bind assertb] in H |- *. rewrite getn_ok by exact L. cbn [bind].
  destruct H as [H|[k0 [H K]]]; [discriminate|]. apply ok_inj in H. injection H as H.
  destruct (e_ltbP (mkE k (e_idx (q_data q @ pos)) it) (q_data q @ pos)) as [C|C]; [reflexivity|]. exfalso. apply C. left. cbn [e_key]. rewrite H. exact K.
Qed.
Print Assumptions C25_rejects.

(** ** Non-vacuity: a history with ties, re-keying in both directions and a
    removal; the answers are the expected ones. *)
Definition ex_ops : list (op nat) :=
  [Push 1%nat (Fin 1); Len; Update 9%nat (Fin 0); MinKey; SetKey 7%nat (Fin (1+1)); Remove 8%nat; Sorted;
   Push 1%nat (Fin 0); DecreaseKey 7%nat (Fin 0); Pop; Pop; Pop; Pop].
Definition out_tag (x : res (out nat)) : list nat :=
  match x with Ok OUnit => [0%nat] | Ok (OItem i) => [1; i] | Ok (OItems l) => 2%nat :: l | Ok (OLen n) => [3; n]
             | Ok _ => [4%nat] | Err AssertionError => [5%nat] | Err IndexError => [6%nat] | Err _ => [9%nat] end%nat.
Example C23_nonvacuous : NoDup (map fst ex_init) /\ legal_run (s_init ex_init) ex_ops /\
  exists q, pq_init ex_init = Ok q /\
   map out_tag (snd (q_run q ex_ops)) = [[0]; [3; 4]; [0]; [4]; [0]; [0]; [2; 9; 1; 7]; [5]; [0]; [1; 7]; [1; 9]; [1; 1]; [6]]%nat.
Proof.
  split; [repeat constructor; cbn; lia|]. split.
  - cbn [legal_run ex_ops]. repeat (split; [exact Logic.I|]). split; [|repeat split].
    intros e He Hi. vm_compute in He. repeat (destruct He as [<-|He]; [vm_compute in Hi; try discriminate; vm_compute; discriminate|]). destruct He.
  - eexists. split; [vm_compute; reflexivity|]. vm_compute. reflexivity.
Qed.
