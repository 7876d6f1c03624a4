(** * Every operation of PriorityQueue keeps the heap and dictionary consistent *)
From Verif Require Import Base Spec PQ PQProofs.

Section Q.
Context {A : Type} {EA : Item A}.
Notation dict := (dict A). Notation entry := (entry A). Notation PQ := (PQ A).

Lemma eqb_refl (x : A) : eqb x x = true.
Proof. destruct (eqbP x x); congruence. Qed.

Record wf (q : PQ) : Prop := {
  wf_heap : heap_from 0 (q_data q);
  wf_dict : dict_ok (q_dict q) (q_data q);
  wf_items : NoDup (items (q_data q));
  wf_nums : NoDup (map e_idx (q_data q));
  wf_range : forall e, In e (q_data q) -> (0 <= e_idx e < q_next q)%Z;
  wf_next : (0 <= q_next q)%Z }.

Lemma in_at v e : In e v <-> exists p, (p < length v)%nat /\ v @ p = e.
Proof.
  split.
  - intro H. apply (In_nth _ _ dflt) in H. destruct H as [p [H1 H2]]. eauto.
  - intros [p [H1 <-]]. apply nth_In. exact H1.
Qed.
Lemma has_in q item : wf q -> pq_has q item = true <-> In item (items (q_data q)).
Proof.
  intro W. unfold pq_has. split.
  - destruct (q_dict q item) as [p|] eqn:E; [|discriminate]. intros _. apply (wf_dict q W) in E. destruct E as [E1 E2].
    rewrite <- E2. apply in_map, nth_In. exact E1.
  - intro H. apply in_map_iff in H. destruct H as [e [E1 E2]]. apply in_at in E2. destruct E2 as [p [P1 P2]].
    destruct (q_dict q item) eqn:E; [reflexivity|].
    assert (q_dict q item = Some p) by (apply (wf_dict q W); rewrite P2; auto). congruence.
Qed.
Lemma lookup q item : wf q -> pq_has q item = true ->
  exists pos, q_dict q item = Some pos /\ (pos < length (q_data q))%nat /\ e_item (q_data q @ pos) = item.
Proof.
  intros W H. unfold pq_has in H. destruct (q_dict q item) as [p|] eqn:E; [|discriminate].
  exists p. split; [reflexivity|]. apply (wf_dict q W). exact E.
Qed.
Lemma wf_intro data d n data0 :
  heap_from 0 data -> dict_ok d data -> Permutation data data0 -> NoDup (items data0) -> NoDup (map e_idx data0) ->
  (forall e, In e data0 -> (0 <= e_idx e < n)%Z) -> (0 <= n)%Z -> wf (mkPQ data d n).
Proof.
  intros H D P N1 N2 R Z0. constructor; cbn [q_data q_dict q_next]; auto.
  - eapply Permutation_NoDup; [|exact N1]. apply Permutation_map. symmetry. exact P.
  - eapply Permutation_NoDup; [|exact N2]. apply Permutation_map. symmetry. exact P.
  - intros e He. apply R. eapply Permutation_in; eauto.
Qed.

(** push *)
Lemma push_dup q item key : wf q -> In item (items (q_data q)) -> pq_push q item key = Err AssertionError.
Proof. intros W H. unfold pq_push. apply (has_in q item W) in H. rewrite H. reflexivity. Qed.
Lemma push_ok q item key : wf q -> ~ In item (items (q_data q)) ->
  exists q', pq_push q item key = Ok q' /\ wf q' /\ q_next q' = (q_next q + 1)%Z /\
    Permutation (q_data q') (mkE key (q_next q) item :: q_data q).
Proof.
  intros W H. unfold pq_push.
  assert (E : pq_has q item = false). { destruct (pq_has q item) eqn:E; auto. apply (has_in q item W) in E. contradiction. }
  rewrite E. cbn [negb assertb bind]. set (e := mkE key (q_next q) item). set (data := q_data q ++ [e]).
  assert (L : length data = S (length (q_data q))) by (unfold data; rewrite app_length; cbn; lia).
  replace (length data - 1)%nat with (length (q_data q)) by lia.
  assert (At : forall i, (i < length (q_data q))%nat -> data @ i = q_data q @ i) by (intros; unfold data; apply app_nth1; auto).
  assert (Al : data @ (length (q_data q)) = e) by (unfold data; rewrite app_nth2, Nat.sub_diag by lia; reflexivity).
  assert (N1 : NoDup (items data)).
  { eapply Permutation_NoDup; [apply Permutation_map, Permutation_cons_append|]. cbn [map]. constructor; [exact H|apply (wf_items q W)]. }
  destruct (siftdown_ok 0 0 data (d_set (q_dict q) item (length (q_data q))) (length (q_data q))) as [data' [d' [E1 [P [HF DD]]]]]; auto.
  - constructor; [lia|apply anc_0|lia| | |lia].
    + intros i Hi _ Hne. unfold edge. pose proof (par_lt i ltac:(lia)). rewrite !At by lia. apply (wf_heap q W); lia.
    + intros i Hi Ep. pose proof (par_lt i ltac:(lia)). lia.
  - rewrite Al. intros it p Hne. unfold d_set. cbn [e e_item] in Hne. destruct (eqbP it item); [congruence|].
    rewrite (wf_dict q W it p). rewrite L. split; intros [H1 H2].
    + rewrite At by lia. split; [lia|auto].
    + destruct (Nat.eq_dec p (length (q_data q))) as [->|]; [rewrite Al in H2; cbn in H2; congruence|]. rewrite At in H2 by lia. split; [lia|auto].
  - rewrite E1. cbn [bind]. eexists. split; [reflexivity|].
    assert (P' : Permutation data' (e :: q_data q)) by (rewrite P; symmetry; apply Permutation_cons_append).
    split; [|split; [reflexivity|exact P']].
    eapply wf_intro; [exact HF|exact DD|exact P'| | | |].
    + constructor; [exact H|apply (wf_items q W)].
    + cbn [map]. constructor; [|apply (wf_nums q W)]. intro C. apply in_map_iff in C. destruct C as [x [X1 X2]].
      pose proof (wf_range q W x X2). cbn in X1. lia.
    + pose proof (wf_next q W). intros x [<-|Hx]; [cbn; lia|pose proof (wf_range q W x Hx); lia].
    + pose proof (wf_next q W). lia.
Qed.

(** pop *)
Lemma pop_empty q : q_data q = [] -> pq_pop q = Err IndexError.
Proof. intro H. unfold pq_pop. rewrite H. reflexivity. Qed.

(** [pop] in terms of a heap whose numbers need not be in range (used by remove too). *)
Lemma pop_gen data d n : heap_from 0 data -> dict_ok d data -> NoDup (items data) -> data <> [] ->
  exists data' d', pq_pop (mkPQ data d n) = Ok (mkPQ data' d' n, e_item (data @ 0)) /\
    Permutation data (data @ 0 :: data') /\ heap_from 0 data' /\ dict_ok d' data'.
Proof.
  intros H D N Ne. destruct (exists_last Ne) as [r [le E]]. unfold pq_pop. cbn [q_data q_dict q_next].
  assert (RE : rev data = le :: rev r) by (rewrite E, rev_app_distr; reflexivity). rewrite RE. rewrite rev_involutive.
  assert (L : length data = S (length r)) by (rewrite E, app_length; cbn; lia).
  assert (At : forall i, (i < length r)%nat -> data @ i = r @ i) by (intros; rewrite E; apply app_nth1; auto).
  assert (Al : data @ (length r) = le) by (rewrite E, app_nth2, Nat.sub_diag by lia; reflexivity).
  assert (Dl : d (e_item le) = Some (length r)) by (apply D; rewrite Al; split; [lia|reflexivity]).
  unfold d_pop at 1. rewrite Dl. cbn [bind].
  destruct r as [|ri r'].
  - exists [], (d_del d (e_item le)). cbn [app length] in *. split; [rewrite Al; reflexivity|]. split; [rewrite Al, E; reflexivity|].
    split; [intros i Hi; cbn in Hi; lia|].
    intros it p. unfold d_del. destruct (eqbP it (e_item le)) as [->|Hn]; cbn [length].
    + split; [discriminate|intros [? _]; lia].
    + rewrite (D it p), L. cbn [length]. split; intros [H1 H2]; [exfalso|lia]. assert (p = 0%nat) by lia. subst p. congruence.
  - set (r := ri :: r') in *.
    assert (A0 : data @ 0 = ri) by (rewrite At by (cbn; lia); reflexivity).
    assert (Nr : e_item ri <> e_item le). { intro C. rewrite <- A0, <- Al in C. apply (nodup_pos data) in C; auto; cbn in *; lia. }
    assert (D0 : d_del d (e_item le) (e_item ri) = Some 0%nat).
    { unfold d_del. destruct (eqbP (e_item ri) (e_item le)); [contradiction|]. apply D. rewrite A0. split; [lia|reflexivity]. }
    unfold d_pop. rewrite D0. cbn [bind]. rewrite setn_ok by (cbn; lia). cbn [bind].
    set (v := upd r 0 le). assert (Lv : length v = length r) by apply upd_length.
    assert (V0 : v @ 0 = le) by reflexivity.
    assert (Vo : forall i, (0 < i)%nat -> v @ i = r @ i) by (intros; unfold v; apply upd_other; lia).
    assert (Pv : Permutation data (ri :: v)).
    { rewrite E. rewrite <- Permutation_cons_append. symmetry. apply (upd_perm r 0 le). cbn; lia. }
    assert (Nv : NoDup (items v)).
    { assert (Q : NoDup (items (ri :: v))) by (eapply Permutation_NoDup; [apply Permutation_map; exact Pv|exact N]).
      cbn in Q. inversion Q; auto. }
    set (d2 := d_set (d_del (d_del d (e_item le)) (e_item ri)) (e_item le) 0).
    destruct (siftup_ok 0 0 v d2) as [data' [d' [E1 [P [HF DD]]]]]; auto.
    + constructor; [rewrite Lv; cbn; lia|constructor|lia| |lia|lia].
      intros i Hi _ Hn Hp. unfold edge. rewrite !Vo by lia. rewrite <- !At by (pose proof (par_lt i); lia). apply H; lia.
    + rewrite V0. intros it p Hn. unfold d2, d_set, d_del. destruct (eqbP it (e_item le)); [congruence|].
      destruct (eqbP it (e_item ri)) as [->|Hr].
      * split; [discriminate|]. intros [H1 H2]. exfalso. assert (p <> 0%nat) by (intros ->; rewrite V0 in H2; congruence).
        rewrite Vo in H2 by lia. rewrite <- At in H2 by lia. rewrite <- A0 in H2. apply (nodup_pos data) in H2; auto; lia.
      * rewrite (D it p). split; intros [H1 H2].
        { assert (p <> 0%nat) by (intros ->; rewrite A0 in H2; congruence).
          assert (p <> length r) by (intros ->; rewrite Al in H2; congruence).
          rewrite Vo by lia. rewrite <- At by lia. split; [lia|exact H2]. }
        { assert (p <> 0%nat) by (intros ->; rewrite V0 in H2; congruence).
          rewrite Vo in H2 by lia. rewrite <- At in H2 by lia. split; [lia|exact H2]. }
    + fold d2 v. rewrite E1. cbn [bind]. exists data', d'. rewrite A0. split; [reflexivity|]. split; [rewrite Pv, P; reflexivity|auto].
Qed.

Lemma pop_ok q : wf q -> q_data q <> [] ->
  exists q' e, pq_pop q = Ok (q', e_item e) /\ wf q' /\ q_next q' = q_next q /\
    Permutation (q_data q) (e :: q_data q') /\ (forall x, In x (q_data q) -> e_le e x).
Proof.
  intros W Ne. destruct q as [data d n]. cbn [q_data] in Ne.
  destruct (pop_gen data d n (wf_heap _ W) (wf_dict _ W) (wf_items _ W) Ne) as [data' [d' [E [P [HF DD]]]]].
  exists (mkPQ data' d' n), (data @ 0). split; [exact E|]. split; [|split; [reflexivity|split; [exact P|]]].
  - assert (P2 := Permutation_map e_item P). assert (P3 := Permutation_map e_idx P). cbn [map] in P2, P3.
    constructor; cbn [q_data q_dict q_next]; auto.
    + pose proof (Permutation_NoDup P2 (wf_items _ W)) as Q. inversion Q; auto.
    + pose proof (Permutation_NoDup P3 (wf_nums _ W)) as Q. inversion Q; auto.
    + intros e He. apply (wf_range _ W). cbn [q_data]. eapply Permutation_in; [symmetry; exact P|right; exact He].
    + apply (wf_next _ W).
  - intros x Hx. cbn [q_data] in Hx. apply in_at in Hx. destruct Hx as [p [H1 <-]]. apply heap_root; [apply (wf_heap _ W)|exact H1].
Qed.

(** Changing the key of one entry. *)
Definition rekey (item : A) (key : ext) (e : entry) : entry :=
  if eqb (e_item e) item then mkE key (e_idx e) item else e.
Lemma upd_rekey : forall data pos item key, NoDup (items data) -> (pos < length data)%nat -> e_item (data @ pos) = item ->
  upd data pos (mkE key (e_idx (data @ pos)) item) = map (rekey item key) data.
Proof.
  induction data as [|a r IH]; intros pos item key N L E; [cbn in L; lia|]. cbn [items map] in N. inversion N as [|? ? N1 N2]; subst.
  destruct pos as [|p]; cbn [nth upd map] in *.
  - unfold rekey at 1. rewrite eqb_refl. f_equal. rewrite <- (map_id r) at 1. apply map_ext_in. intros x Hx.
    unfold rekey. destruct (eqbP (e_item x) (e_item a)) as [C|]; [|reflexivity]. exfalso. apply N1. rewrite <- C. apply in_map. exact Hx.
  - cbn [length] in L. unfold rekey at 1. destruct (eqbP (e_item a) (e_item (r @ p))) as [C|].
    + exfalso. apply N1. rewrite C. apply in_map, nth_In. lia.
    + f_equal. apply IH; auto. lia.
Qed.
Lemma rekey_items data item key : items (map (rekey item key) data) = items data.
Proof.
  unfold items. rewrite map_map. apply map_ext. intro e. unfold rekey. destruct (eqbP (e_item e) item); auto.
Qed.
Lemma rekey_nums data item key : map e_idx (map (rekey item key) data) = map e_idx data.
Proof. rewrite map_map. apply map_ext. intro e. unfold rekey. destruct (eqb (e_item e) item); auto. Qed.

Lemma wf_rekey q data' d' item key : wf q -> Permutation data' (map (rekey item key) (q_data q)) ->
  heap_from 0 data' -> dict_ok d' data' -> wf (mkPQ data' d' (q_next q)).
Proof.
  intros W P H D. eapply wf_intro; [exact H|exact D|exact P| | | |].
  - rewrite rekey_items. apply (wf_items q W).
  - rewrite rekey_nums. apply (wf_nums q W).
  - intros e He. apply in_map_iff in He. destruct He as [x [<- Hx]]. pose proof (wf_range q W x Hx).
    unfold rekey. destruct (eqb (e_item x) item); cbn; auto.
  - apply (wf_next q W).
Qed.

Section Chg.
Variables (data : list entry) (pos : nat) (x : entry) (d : dict).
Hypothesis H : heap_from 0 data.
Hypothesis N : NoDup (items data).
Hypothesis D : dict_ok d data.
Hypothesis L : (pos < length data)%nat.
Hypothesis Ix : e_item x = e_item (data @ pos).
Let v := upd data pos x.
Lemma chg_items : items v = items data.
Proof.
  unfold v, items. clear - L Ix. revert pos L Ix. induction data as [|a r IH]; intros [|p] L Ix; cbn in *; try lia; [congruence|].
  f_equal. apply IH; [lia|exact Ix].
Qed.
Lemma chg_dict : dict_ok d v.
Proof.
  intros it p. rewrite (D it p). unfold v. rewrite upd_length. destruct (Nat.eq_dec p pos) as [->|].
  - rewrite upd_same by auto. rewrite Ix. tauto.
  - rewrite upd_other by auto. tauto.
Qed.
Lemma chg_down : e_le x (data @ pos) ->
  exists data' d', siftdown v d 0 pos = Ok (data', d') /\ Permutation data' v /\ heap_from 0 data' /\ dict_ok d' data'.
Proof.
  intro Hle. assert (Lv : length v = length data) by apply upd_length.
  assert (Vp : v @ pos = x) by (apply upd_same; auto). assert (Vo : forall i, i <> pos -> v @ i = data @ i) by (intros; apply upd_other; auto).
  apply siftdown_ok; [|rewrite chg_items; exact N|intros it p _; apply chg_dict].
  constructor; [lia|apply anc_0|lia| | |lia].
  - intros i Hi _ Hn. unfold edge. rewrite (Vo i) by auto. destruct (Nat.eq_dec (par i) pos) as [E|].
    + rewrite E, Vp. apply e_le_trans with (data @ pos); auto. rewrite <- E. apply H; lia.
    + rewrite Vo by auto. apply H; lia.
  - intros i Hi E P0 _. pose proof (par_lt pos P0). pose proof (par_lt i ltac:(lia)). rewrite !Vo by lia.
    apply e_le_trans with (data @ pos); [apply H; lia|]. rewrite <- E. apply H; lia.
Qed.
Lemma chg_up : e_le (data @ pos) x ->
  exists data' d', siftup v d pos = Ok (data', d') /\ Permutation data' v /\ heap_from 0 data' /\ dict_ok d' data'.
Proof.
  intro Hle. assert (Lv : length v = length data) by apply upd_length.
  assert (Vp : v @ pos = x) by (apply upd_same; auto). assert (Vo : forall i, i <> pos -> v @ i = data @ i) by (intros; apply upd_other; auto).
  apply siftup_ok; [|rewrite chg_items; exact N|intros it p _; apply chg_dict].
  constructor; [lia|constructor|lia| | |].
  - intros i Hi _ Hn Hp. unfold edge. rewrite !Vo by auto. apply H; lia.
  - intros i Hi E P0 _. pose proof (par_lt pos P0). pose proof (par_lt i ltac:(lia)). rewrite !Vo by lia.
    apply e_le_trans with (data @ pos); [apply H; lia|]. rewrite <- E. apply H; lia.
  - intros P0 _. pose proof (par_lt pos P0). rewrite Vp, Vo by lia. apply e_le_trans with (data @ pos); auto. apply H; lia.
Qed.
End Chg.

Lemma absent_err q item k : wf q -> ~ In item (items (q_data q)) ->
  pq_decrease_key q item k = Err AssertionError /\ pq_update q item k = Err AssertionError /\ pq_remove q item = Err AssertionError.
Proof.
  intros W H. assert (E : pq_has q item = false). { destruct (pq_has q item) eqn:E; auto. apply (has_in q item W) in E. contradiction. }
  unfold pq_decrease_key, pq_update, pq_remove. rewrite E. auto.
Qed.

Lemma e_le_key (a b : entry) : e_idx a = e_idx b -> ext_le (e_key a) (e_key b) -> e_le a b.
Proof. intros E H [K|[K1 K2]]; [exact (K H)|lia]. Qed.

Lemma decrease_ok q e key : wf q -> In e (q_data q) -> ext_le key (e_key e) ->
  exists q', pq_decrease_key q (e_item e) key = Ok q' /\ wf q' /\ q_next q' = q_next q /\
    Permutation (q_data q') (map (rekey (e_item e) key) (q_data q)).
Proof.
  intros W He Hk. assert (Hh : pq_has q (e_item e) = true) by (apply (has_in q _ W), in_map; exact He).
  destruct (lookup q (e_item e) W Hh) as [pos [E [L I]]]. unfold pq_decrease_key. rewrite Hh. cbn [assertb bind].
  unfold d_get. rewrite E. cbn [bind]. rewrite getn_ok by exact L. cbn [bind]. rewrite setn_ok by exact L. cbn [bind].
  apply in_at in He. destruct He as [p [P1 P2]]. assert (p = pos) by (apply (nodup_pos (q_data q)); auto; [apply (wf_items q W)|congruence]). subst p.
  destruct (chg_down (q_data q) pos (mkE key (e_idx (q_data q @ pos)) (e_item e)) (q_dict q)) as [data' [d' [E1 [P [HF DD]]]]];
    [apply (wf_heap q W)|apply (wf_items q W)|apply (wf_dict q W)|exact L|exact (eq_sym I)|apply e_le_key; [reflexivity|cbn; rewrite P2; exact Hk]|].
  rewrite E1. cbn [bind]. rewrite (upd_rekey _ pos (e_item e) key (wf_items q W) L I) in P.
  eexists. split; [reflexivity|]. split; [eapply wf_rekey; eauto|]. split; [reflexivity|exact P].
Qed.

Lemma update_ok q e key : wf q -> In e (q_data q) ->
  exists q', pq_update q (e_item e) key = Ok q' /\ wf q' /\ q_next q' = q_next q /\
    Permutation (q_data q') (map (rekey (e_item e) key) (q_data q)).
Proof.
  intros W He. assert (Hh : pq_has q (e_item e) = true) by (apply (has_in q _ W), in_map; exact He).
  destruct (lookup q (e_item e) W Hh) as [pos [E [L I]]]. unfold pq_update. rewrite Hh. cbn [assertb bind].
  unfold d_get. rewrite E. cbn [bind]. rewrite getn_ok by exact L. cbn [bind].
  destruct (in_at (q_data q) e) as [Q _]. destruct (Q He) as [p [P1 P2]]. assert (p = pos) by (apply (nodup_pos (q_data q)); auto; [apply (wf_items q W)|congruence]). subst p.
  rewrite P2. destruct (ext_lebP key (e_key e)) as [C|C]; [apply decrease_ok; auto|].
  rewrite setn_ok by exact L. cbn [bind].
  destruct (chg_up (q_data q) pos (mkE key (e_idx e) (e_item e)) (q_dict q)) as [data' [d' [E1 [P [HF DD]]]]];
    [apply (wf_heap q W)|apply (wf_items q W)|apply (wf_dict q W)|exact L|exact (eq_sym I)|rewrite P2; apply e_le_key; [reflexivity|apply ext_lt_le; exact C]|].
  rewrite E1. cbn [bind]. rewrite <- P2 in P at 1. rewrite (upd_rekey _ pos (e_item e) key (wf_items q W) L I) in P.
  eexists. split; [reflexivity|]. split; [eapply wf_rekey; eauto|]. split; [reflexivity|exact P].
Qed.

Lemma remove_ok q e : wf q -> In e (q_data q) ->
  exists q', pq_remove q (e_item e) = Ok q' /\ wf q' /\ q_next q' = q_next q /\ Permutation (q_data q) (e :: q_data q').
Proof.
  intros W He. assert (Hh : pq_has q (e_item e) = true) by (apply (has_in q _ W), in_map; exact He).
  destruct (lookup q (e_item e) W Hh) as [pos [E [L I]]]. unfold pq_remove. rewrite Hh. cbn [assertb bind].
  unfold d_get. rewrite E. cbn [bind]. rewrite setn_ok by exact L. cbn [bind].
  destruct (in_at (q_data q) e) as [Q _]. destruct (Q He) as [p [P1 P2]]. assert (p = pos) by (apply (nodup_pos (q_data q)); auto; [apply (wf_items q W)|congruence]). subst p.
  set (x := mkE NInf (-1) (e_item e)).
  assert (Less : forall y, (0 <= e_idx y)%Z -> e_lt x y).
  { intros y Hy. unfold e_lt. cbn [x e_key e_idx]. destruct (e_key y) eqn:K; [right; split; [reflexivity|lia]|left; intro C; exact C|left; intro C; exact C]. }
  destruct (chg_down (q_data q) pos x (q_dict q)) as [data' [d' [E1 [P [HF DD]]]]];
    [apply (wf_heap q W)|apply (wf_items q W)|apply (wf_dict q W)|exact L|exact (eq_sym I)| |].
  { apply e_lt_le, Less. rewrite P2. apply (wf_range q W e He). }
  rewrite E1. cbn [bind].
  assert (Lv : length data' = length (q_data q)) by (rewrite (Permutation_length P); apply upd_length).
  assert (N' : NoDup (items data')).
  { eapply Permutation_NoDup; [apply Permutation_map; symmetry; exact P|]. change (map e_item ?l) with (items l).
    rewrite chg_items; [apply (wf_items q W)|exact L|exact (eq_sym I)]. }
  assert (Pr : Permutation (e :: data') (x :: q_data q)) by (rewrite P, <- P2; apply upd_perm; exact L).
  assert (Inx : In x data'). { eapply Permutation_in; [symmetry; exact P|]. apply in_at. exists pos. rewrite upd_length. split; [exact L|apply upd_same; exact L]. }
  assert (Root : data' @ 0 = x).
  { assert (R : In (data' @ 0) data') by (apply nth_In; lia).
    assert (R2 : In (data' @ 0) (x :: q_data q)) by (eapply Permutation_in; [exact Pr|right; exact R]).
    destruct R2 as [<-|R2]; [reflexivity|]. exfalso. apply in_at in Inx. destruct Inx as [p [Hp Hx]].
    apply (heap_root data' HF p Hp). rewrite Hx. apply Less. apply (wf_range q W _ R2). }
  rewrite getn_ok by lia. cbn [bind]. rewrite Root. change (e_item x) with (e_item e). rewrite eqb_refl. cbn [assertb bind].
  destruct (pop_gen data' d' (q_next q) HF DD N') as [data2 [d2 [E2 [PP [HF2 DD2]]]]]; [intro C; rewrite C in Lv; cbn in Lv; lia|].
  rewrite E2. cbn [bind fst]. rewrite Root in PP.
  assert (PQ_ : Permutation (q_data q) (e :: data2)).
  { apply Permutation_cons_inv with x. rewrite <- Pr, PP. apply perm_swap. }
  eexists. split; [reflexivity|]. split; [|split; [reflexivity|exact PQ_]].
  assert (M2 := Permutation_map e_item PQ_). assert (M3 := Permutation_map e_idx PQ_). cbn [map] in M2, M3.
  constructor; cbn [q_data q_dict q_next]; auto.
  - pose proof (Permutation_NoDup M2 (wf_items _ W)) as K. inversion K; auto.
  - pose proof (Permutation_NoDup M3 (wf_nums _ W)) as K. inversion K; auto.
  - intros y Hy. apply (wf_range _ W). eapply Permutation_in; [symmetry; exact PQ_|right; exact Hy].
  - apply (wf_next _ W).
Qed.

(** construction *)
Lemma enum_entries_items : forall (l : list (A * ext)) i, items (enum_entries i l) = map fst l.
Proof. induction l as [|[it k] r IH]; intro i; cbn; [reflexivity|]. f_equal. apply IH. Qed.
Lemma enum_entries_nums : forall (l : list (A * ext)) i e, In e (enum_entries i l) -> (i <= e_idx e < i + Z.of_nat (length l))%Z.
Proof.
  induction l as [|[it k] r IH]; intros i e H; cbn in H; [contradiction|]. cbn [length]. destruct H as [<-|H]; [cbn; lia|].
  specialize (IH _ _ H). lia.
Qed.
Lemma enum_entries_nodup : forall (l : list (A * ext)) i, NoDup (map e_idx (enum_entries i l)).
Proof.
  induction l as [|[it k] r IH]; intro i; cbn; constructor; auto. intro C. apply in_map_iff in C. destruct C as [e [E H]].
  apply enum_entries_nums in H. lia.
Qed.
Lemma enum_entries_len : forall (l : list (A * ext)) i, length (enum_entries i l) = length l.
Proof. induction l as [|[it k] r IH]; intro i; cbn; auto. Qed.
Lemma init_ok (l : list (A * ext)) : NoDup (map fst l) ->
  exists q, pq_init l = Ok q /\ wf q /\ q_next q = Z.of_nat (length l) /\ Permutation (q_data q) (enum_entries 0 l).
Proof.
  intro N. destruct l as [|a r] eqn:El.
  - eexists. split; [reflexivity|]. split; [|split; reflexivity]. constructor; cbn [q_data q_dict q_next items map]; try constructor.
    + intros i Hi. cbn in Hi. lia.
    + discriminate.
    + intros [H _]. cbn in H. lia.
    + destruct H.
    + destruct H.
    + lia.
  - rewrite <- El in *. assert (R : pq_init l =
      (data' <- heapify (enum_entries 0 l) ;; Ok (mkPQ data' (enum_dict 0 data' d_empty) (Z.of_nat (length (enum_entries 0 l))))))
      by (rewrite El; reflexivity). rewrite R. clear R.
    assert (Ni : NoDup (items (enum_entries 0 l))) by (rewrite enum_entries_items; exact N).
    destruct (heapify_ok _ Ni) as [data' [E [P H]]]. rewrite E. cbn [bind]. eexists. split; [reflexivity|].
    rewrite enum_entries_len. split; [|split; [reflexivity|exact P]].
    eapply wf_intro; [exact H| |exact P|exact Ni|apply enum_entries_nodup| |lia].
    + apply enum_dict_ok. eapply Permutation_NoDup; [|exact Ni]. apply Permutation_map. symmetry. exact P.
    + intros e He. apply enum_entries_nums in He. lia.
Qed.

(** sorting *)
Lemma e_insert_perm (e : entry) : forall l, Permutation (e_insert e l) (e :: l).
Proof. induction l as [|x r IH]; cbn; [reflexivity|]. destruct (e_ltb x e); [|reflexivity]. rewrite IH. apply perm_swap. Qed.
Lemma e_sort_perm : forall (l : list entry), Permutation (e_sort l) l.
Proof. induction l as [|x r IH]; cbn; [reflexivity|]. rewrite e_insert_perm, IH. reflexivity. Qed.
Lemma e_insert_sorted (e : entry) : forall l, StronglySorted e_le l -> StronglySorted e_le (e_insert e l).
Proof.
  induction l as [|x r IH]; intro S; cbn; [repeat constructor|]. inversion S as [|? ? S1 F]; subst.
  destruct (e_ltbP x e) as [C|C].
  - constructor; [apply IH; auto|]. rewrite e_insert_perm. constructor; [apply e_lt_le; auto|exact F].
  - constructor; [exact S|]. constructor; [exact C|]. rewrite Forall_forall in *. intros y Hy. apply e_le_trans with x; auto.
Qed.
Lemma e_sort_sorted : forall (l : list entry), StronglySorted e_le (e_sort l).
Proof. induction l; cbn; [constructor|apply e_insert_sorted; auto]. Qed.

(** With distinct insertion numbers a sorted arrangement is unique. *)
Lemma nums_inj (l : list entry) a b : NoDup (map e_idx l) -> In a l -> In b l -> e_idx a = e_idx b -> a = b.
Proof.
  intros N Ha Hb E. apply (In_nth _ _ dflt) in Ha, Hb. destruct Ha as [i [Hi <-]], Hb as [j [Hj <-]].
  rewrite NoDup_nth in N. assert (i = j) as ->; [|reflexivity]. apply (N i j); rewrite ?map_length; auto.
  change 0%Z with (e_idx dflt). rewrite !map_nth. exact E.
Qed.
Lemma e_le_antisym (l : list entry) a b : NoDup (map e_idx l) -> In a l -> In b l -> e_le a b -> e_le b a -> a = b.
Proof.
  intros N Ha Hb H1 H2. destruct (e_tri a b) as [K|[[_ K]|K]]; [contradiction| |contradiction]. eapply nums_inj; eauto.
Qed.
Lemma sorted_unique : forall (a b : list entry), NoDup (map e_idx a) -> Permutation a b -> StronglySorted e_le a -> StronglySorted e_le b -> a = b.
Proof.
  induction a as [|x r IH]; intros b N P Sa Sb.
  - apply Permutation_nil in P. auto.
  - destruct b as [|y s]; [symmetry in P; apply Permutation_nil in P; discriminate|].
    assert (x = y).
    { inversion Sa as [|? ? Sa1 Fa]; inversion Sb as [|? ? Sb1 Fb]; subst. rewrite Forall_forall in Fa, Fb.
      assert (Iy : In y (x :: r)) by (eapply Permutation_in; [symmetry; exact P|left; reflexivity]).
      assert (Ix : In x (y :: s)) by (eapply Permutation_in; [exact P|left; reflexivity]).
      apply (e_le_antisym (x :: r)); [exact N|left; reflexivity|exact Iy| |].
      - destruct Iy as [<-|Iy]; [apply e_le_refl|apply Fa; auto].
      - destruct Ix as [<-|Ix]; [apply e_le_refl|apply Fb; auto]. }
    subst y. f_equal. inversion Sa; inversion Sb; subst. apply IH; auto.
    + cbn in N. inversion N; auto.
    + eapply Permutation_cons_inv; exact P.
Qed.
End Q.
