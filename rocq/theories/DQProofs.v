(** * Facts about the specification queue, and the DepletionQueue (C30) *)
From Verif Require Import Base Spec Arrays PL RC FRC FRCProofs PQ PQProofs PQOps PQSpec DynFlow.

(** ** [squeue] as a finite map with minimum *)
Section SQ.
Context {A : Type} {EA : Item A}.
Notation squeue := (@squeue A).
Implicit Types s : squeue.
Definition sq_nd s : Prop := NoDup (items (s_entries s)).

Lemma eqb_rfl (x : A) : eqb x x = true.
Proof. destruct (eqbP x x); congruence. Qed.
Lemma kof_has s it : sq_has s it = match sq_key_of s it with Some _ => true | None => false end.
Proof.
  unfold sq_has, sq_key_of, s_key_of, s_mem. induction (s_entries s) as [|e l IH]; cbn [existsb find]; [reflexivity|].
  destruct (eqb (e_item e) it); cbn [orb]; [reflexivity|exact IH].
Qed.
Lemma kof_set s it k it' : sq_key_of (sq_set s it k) it' = if eqb it it' then Some k else sq_key_of s it'.
Proof.
  unfold sq_set. destruct (sq_has s it) eqn:H.
  - unfold sq_has in H. unfold sq_rekey, sq_key_of, s_key_of. cbn [s_entries]. unfold s_mem in H. revert H. generalize (s_entries s). intro l. induction l as [|e l IH]; cbn [existsb s_rekey map find] in *; [discriminate|].
    destruct (eqbP (e_item e) it) as [->|N]; cbn [orb e_item].
    + intros _. destruct (eqbP it it') as [<-|N']; [reflexivity|].
      clear IH. induction l as [|x l IH]; cbn [map find]; [reflexivity|]. destruct (eqbP (e_item x) it) as [->|M]; cbn [e_item].
      * destruct (eqbP it it'); [congruence|]. exact IH.
      * destruct (eqbP (e_item x) it'); [reflexivity|exact IH].
    + intro H. specialize (IH H). destruct (eqbP (e_item e) it') as [<-|M].
      * destruct (eqbP it (e_item e)); [congruence|reflexivity].
      * exact IH.
  - unfold sq_add, sq_key_of, s_key_of. cbn [s_entries find e_item]. destruct (eqbP it it'); reflexivity.
Qed.
Lemma kof_drop s it it' : sq_key_of (sq_drop s it) it' = if eqb it it' then None else sq_key_of s it'.
Proof.
  unfold sq_drop, sq_key_of, s_key_of, s_drop. cbn [s_entries]. induction (s_entries s) as [|e l IH]; cbn [filter find].
  - destruct (eqb it it'); reflexivity.
  - destruct (eqbP (e_item e) it) as [<-|N]; cbn [negb].
    + destruct (eqbP (e_item e) it') as [<-|M]; exact IH.
    + cbn [find]. destruct (eqbP (e_item e) it') as [<-|M]; [|exact IH]. destruct (eqbP it (e_item e)); [congruence|reflexivity].
Qed.
Lemma kof_empty it : sq_key_of (sq_empty : squeue) it = None.
Proof. reflexivity. Qed.
Lemma kof_in s it k : sq_key_of s it = Some k -> exists e, In e (s_entries s) /\ e_item e = it /\ e_key e = k.
Proof.
  unfold sq_key_of, s_key_of. destruct (find _ _) as [e|] eqn:E; [|discriminate]. intro H. injection H as <-.
  apply find_some in E. destruct E as [E1 E2]. exists e. destruct (eqbP (e_item e) it); [auto|discriminate].
Qed.
Lemma in_kof s e : sq_nd s -> In e (s_entries s) -> sq_key_of s (e_item e) = Some (e_key e).
Proof. intros N I. apply find_perm; auto. Qed.

Lemma nd_empty : sq_nd sq_empty.
Proof. constructor. Qed.
Lemma nd_set s it k : sq_nd s -> sq_nd (sq_set s it k).
Proof.
  unfold sq_nd, sq_set. intro N. destruct (sq_has s it) eqn:H.
  - unfold sq_rekey. cbn [s_entries]. replace (items (s_rekey it k (s_entries s))) with (items (s_entries s)); [exact N|].
    unfold items, s_rekey. rewrite map_map. apply map_ext. intro e. destruct (eqbP (e_item e) it) as [->|]; reflexivity.
  - unfold sq_add. cbn [s_entries items map e_item]. constructor; [|exact N]. intro I. apply s_mem_in in I. unfold sq_has in H. congruence.
Qed.
Lemma nd_drop s it : sq_nd s -> sq_nd (sq_drop s it).
Proof.
  unfold sq_nd, sq_drop, s_drop. cbn [s_entries]. generalize (s_entries s). intro l. induction l as [|e l IH]; cbn [filter items map]; intro N; [constructor|].
  inversion N as [|? ? N1 N2]; subst. destruct (negb (eqb (e_item e) it)); [|auto]. cbn [map]. constructor; [|apply IH; exact N2].
  intro I. apply N1. apply in_map_iff in I. destruct I as [x [<- Hx]]. apply filter_In in Hx. apply in_map. tauto.
Qed.
Lemma drop_len s it : sq_has s it = true -> (sq_len (sq_drop s it) < sq_len s)%nat.
Proof.
  unfold sq_has, sq_len, sq_drop, s_drop, s_mem. cbn [s_entries]. induction (s_entries s) as [|e l IH]; cbn [existsb filter length]; [discriminate|].
  destruct (eqb (e_item e) it); cbn [orb negb].
  - intros _. assert (length (filter (fun e0 => negb (eqb (e_item e0) it)) l) <= length l)%nat; [|lia].
    clear. induction l as [|x l IH]; cbn [filter length]; [lia|]. destruct (negb _); cbn [length]; lia.
  - intro H. cbn [length]. specialize (IH H). lia.
Qed.
Lemma e_le_ext (a b : entry A) : e_le a b -> ext_le (e_key a) (e_key b).
Proof.
  unfold e_le, e_lt. intro H. destruct (ext_lebP (e_key a) (e_key b)) as [C|C]; [exact C|]. exfalso. apply H. left. exact C.
Qed.
Lemma min_key_le s it k : sq_key_of s it = Some k -> ext_le (sq_min_key s) k.
Proof.
  intro H. apply kof_in in H. destruct H as [e [I [_ <-]]]. unfold sq_min_key. pose proof (s_least_spec (s_entries s)) as L.
  destruct (s_least (s_entries s)) as [x|]; [|rewrite L in I; destruct I]. apply e_le_ext, (proj2 L e I).
Qed.
Lemma min_key_ex s : sq_nd s -> sq_min_key s = PInf /\ (forall it, sq_key_of s it = None) \/ exists it, sq_key_of s it = Some (sq_min_key s).
Proof.
  intro N. unfold sq_min_key. pose proof (s_least_spec (s_entries s)) as L. destruct (s_least (s_entries s)) as [x|].
  - right. exists (e_item x). apply in_kof; [exact N|apply L].
  - left. split; [reflexivity|]. intro it. unfold sq_key_of, s_key_of. rewrite L. reflexivity.
Qed.
Lemma pop_ok s s' it : sq_nd s -> sq_pop s = Ok (s', it) -> s' = sq_drop s it /\ sq_key_of s it = Some (sq_min_key s).
Proof.
  intros N. unfold sq_pop, sq_min_key. pose proof (s_least_spec (s_entries s)) as L. destruct (s_least (s_entries s)) as [x|]; [|discriminate].
  intro H. apply ok_inj in H. injection H as <- <-. split; [reflexivity|]. apply in_kof; [exact N|apply L].
Qed.
Lemma pop_total s : (exists it, sq_key_of s it <> None) -> exists s' it, sq_pop s = Ok (s', it).
Proof.
  intros [it H]. unfold sq_pop. pose proof (s_least_spec (s_entries s)) as L. destruct (s_least (s_entries s)) as [x|]; [eauto|].
  exfalso. apply H. unfold sq_key_of, s_key_of. rewrite L. reflexivity.
Qed.
Lemma pop_err s e : sq_pop s = Err e -> e = IndexError /\ forall it, sq_key_of s it = None.
Proof.
  unfold sq_pop. pose proof (s_least_spec (s_entries s)) as L. destruct (s_least (s_entries s)) as [x|]; [discriminate|].
  intro H. split; [congruence|]. intro it. unfold sq_key_of, s_key_of. rewrite L. reflexivity.
Qed.
Lemma len_zero s : (0 <? sq_len s)%nat = false -> forall it, sq_key_of s it = None.
Proof.
  intros H it. apply Nat.ltb_ge in H. unfold sq_len in H. unfold sq_key_of, s_key_of. destruct (s_entries s); [reflexivity|cbn [length] in H; lia].
Qed.
Lemma len_pos' s : (0 <? sq_len s)%nat = true -> sq_nd s -> exists it, sq_key_of s it <> None.
Proof.
  intros H N. apply Nat.ltb_lt in H. unfold sq_len in H. destruct (s_entries s) as [|e l] eqn:E; [cbn in H; lia|].
  exists (e_item e). rewrite (in_kof s e N) by (rewrite E; left; reflexivity). discriminate.
Qed.
Lemma remove_ok s it : sq_has s it = true -> sq_remove s it = Ok (sq_drop s it).
Proof. intro H. unfold sq_remove. rewrite H. reflexivity. Qed.
End SQ.

Lemma dget_ddel {B} (d : list (nat * B)) k j : dget (ddel d k) j = if Nat.eqb k j then None else dget d j.
Proof.
  induction d as [|[a b] r IH]; cbn [ddel dget]; [destruct (Nat.eqb k j); reflexivity|].
  destruct (Nat.eqb_spec a k) as [->|N]; cbn [dget].
  - rewrite IH. destruct (Nat.eqb k j); reflexivity.
  - rewrite IH. destruct (Nat.eqb_spec a j) as [->|]; [|reflexivity]. destruct (Nat.eqb_spec k j); [congruence|reflexivity].
Qed.

(** ** The DepletionQueue as a map: edge -> (depletion time, planned change) *)
Definition plan := (Qc * option (Qc * change_value))%type.
Definition pend (q : DQ) (e : nat) : option plan :=
  match sq_key_of (d_depl q) e with
  | Some (Fin D) =>
      Some (D, match sq_key_of (d_change q) e, dget (d_new q) e with Some (Fin c), Some v => Some (c, v) | _, _ => None end)
  | _ => None
  end.
Record dq_ok (q : DQ) : Prop := {
  dk_nd1 : sq_nd (d_depl q); dk_nd2 : sq_nd (d_change q);
  dk_fin1 : forall e k, sq_key_of (d_depl q) e = Some k -> exists D, k = Fin D;
  dk_fin2 : forall e k, sq_key_of (d_change q) e = Some k -> exists c v D, k = Fin c /\ dget (d_new q) e = Some v /\ sq_key_of (d_depl q) e = Some (Fin D);
  dk_new : forall e v, dget (d_new q) e = Some v -> sq_key_of (d_change q) e <> None }.

Lemma dq_empty_ok : dq_ok dq_empty.
Proof. constructor; cbn; try discriminate; constructor. Qed.
Lemma dq_empty_pend e : pend dq_empty e = None.
Proof. reflexivity. Qed.

Lemma pend_depl q e : dq_ok q -> sq_key_of (d_depl q) e = match pend q e with Some (D, _) => Some (Fin D) | None => None end.
Proof.
  intro K. unfold pend. destruct (sq_key_of (d_depl q) e) as [k|] eqn:E; [|reflexivity]. destruct (dk_fin1 q K e k E) as [D ->]. reflexivity.
Qed.
Lemma pend_change q e : dq_ok q -> sq_key_of (d_change q) e = match pend q e with Some (_, Some (c, _)) => Some (Fin c) | _ => None end.
Proof.
  intro K. unfold pend. destruct (sq_key_of (d_change q) e) as [k|] eqn:E.
  - destruct (dk_fin2 q K e k E) as [c [v [D [-> [-> ->]]]]]. reflexivity.
  - destruct (sq_key_of (d_depl q) e) as [[| |]|]; reflexivity.
Qed.
Lemma pend_new q e : dq_ok q -> dget (d_new q) e = match pend q e with Some (_, Some (_, v)) => Some v | _ => None end.
Proof.
  intro K. unfold pend. destruct (dget (d_new q) e) as [v|] eqn:E.
  - destruct (sq_key_of (d_change q) e) as [k|] eqn:E2; [|exfalso; apply (dk_new q K e v E); exact E2].
    destruct (dk_fin2 q K e k E2) as [c [v' [D [-> [Ev ->]]]]]. reflexivity.
  - destruct (sq_key_of (d_depl q) e) as [[| |]|]; try reflexivity. destruct (sq_key_of (d_change q) e) as [[| |]|]; reflexivity.
Qed.
Lemma pend_has q e : dq_ok q -> dq_has q e = match pend q e with Some _ => true | None => false end.
Proof. intro K. unfold dq_has. rewrite kof_has, pend_depl by exact K. destruct (pend q e) as [[D c]|]; reflexivity. Qed.

Lemma dq_set_ok q e t ch : dq_ok q ->
  exists q', dq_set q e t ch = Ok q' /\ dq_ok q' /\ (forall j, pend q' j = if Nat.eqb e j then Some (t, ch) else pend q j).
Proof.
  intro K. unfold dq_set. destruct ch as [[ct cv]|].
  - eexists. split; [reflexivity|]. split.
    + constructor; cbn [d_depl d_change d_new].
      * apply nd_set, K.
      * apply nd_set, K.
      * intros j k. rewrite kof_set. cbn [eqb Item_nat]. destruct (Nat.eqb e j); [intro Q; injection Q as <-; eauto|apply (dk_fin1 q K)].
      * intros j k. rewrite !kof_set, dget_dset. cbn [eqb Item_nat]. destruct (Nat.eqb e j); [intro Q; injection Q as <-; eauto 6|apply (dk_fin2 q K)].
      * intros j v. rewrite kof_set, dget_dset. cbn [eqb Item_nat]. destruct (Nat.eqb e j); [discriminate|apply (dk_new q K)].
    + intro j. unfold pend. cbn [d_depl d_change d_new]. rewrite !kof_set, dget_dset. cbn [eqb Item_nat]. destruct (Nat.eqb e j); reflexivity.
  - rewrite kof_has. destruct (sq_key_of (d_change q) e) as [k|] eqn:E.
    + destruct (dk_fin2 q K e k E) as [c [v [D [-> [Ev Ed]]]]].
      rewrite remove_ok by (rewrite kof_has, E; reflexivity). cbn [bind]. unfold dpop. rewrite Ev. cbn [bind].
      eexists. split; [reflexivity|]. split.
      * constructor; cbn [d_depl d_change d_new].
        -- apply nd_set, K.
        -- apply nd_drop, K.
        -- intros j k. rewrite kof_set. cbn [eqb Item_nat]. destruct (Nat.eqb e j); [intro Q; injection Q as <-; eauto|apply (dk_fin1 q K)].
        -- intros j k. rewrite kof_drop, kof_set, dget_ddel. cbn [eqb Item_nat]. destruct (Nat.eqb e j); [discriminate|apply (dk_fin2 q K)].
        -- intros j w. rewrite kof_drop, dget_ddel. cbn [eqb Item_nat]. destruct (Nat.eqb e j); [discriminate|apply (dk_new q K)].
      * intro j. unfold pend. cbn [d_depl d_change d_new]. rewrite kof_set, kof_drop, dget_ddel. cbn [eqb Item_nat]. destruct (Nat.eqb e j); reflexivity.
    + eexists. split; [reflexivity|]. split.
      * constructor; cbn [d_depl d_change d_new].
        -- apply nd_set, K.
        -- apply K.
        -- intros j k. rewrite kof_set. cbn [eqb Item_nat]. destruct (Nat.eqb e j); [intro Q; injection Q as <-; eauto|apply (dk_fin1 q K)].
        -- intros j k Hj. destruct (dk_fin2 q K j k Hj) as [c [v [D [-> [Ev Ed]]]]]. rewrite kof_set. cbn [eqb Item_nat].
           destruct (Nat.eqb_spec e j) as [->|]; [congruence|]. eauto 6.
        -- apply (dk_new q K).
      * intro j. unfold pend. cbn [d_depl d_change d_new]. rewrite kof_set. cbn [eqb Item_nat].
        destruct (Nat.eqb_spec e j) as [<-|]; [rewrite E; reflexivity|reflexivity].
Qed.

(** Dropping an edge from all three containers. *)
Lemma drop_all q e : dq_ok q -> pend q e <> None ->
  exists q', (if sq_has (d_change q) e then c <- sq_remove (d_change q) e ;; '(_, n) <- dpop (d_new q) e ;; Ok (mkDQ (sq_drop (d_depl q) e) c n)
              else Ok (mkDQ (sq_drop (d_depl q) e) (d_change q) (d_new q))) = Ok q' /\ dq_ok q' /\
    (forall j, pend q' j = if Nat.eqb e j then None else pend q j) /\
    d_depl q' = sq_drop (d_depl q) e.
Proof.
  intros K P. rewrite kof_has. destruct (sq_key_of (d_change q) e) as [k|] eqn:E.
  - destruct (dk_fin2 q K e k E) as [c [v [D [-> [Ev Ed]]]]].
    rewrite remove_ok by (rewrite kof_has, E; reflexivity). cbn [bind]. unfold dpop. rewrite Ev. cbn [bind].
    eexists. split; [reflexivity|]. split; [|split; [|reflexivity]].
    + constructor; cbn [d_depl d_change d_new].
      * apply nd_drop, K.
      * apply nd_drop, K.
      * intros j k. rewrite kof_drop. destruct (eqb e j); [discriminate|apply (dk_fin1 q K)].
      * intros j k. rewrite !kof_drop, dget_ddel. cbn [eqb Item_nat]. destruct (Nat.eqb e j); [discriminate|apply (dk_fin2 q K)].
      * intros j w. rewrite kof_drop, dget_ddel. cbn [eqb Item_nat]. destruct (Nat.eqb e j); [discriminate|apply (dk_new q K)].
    + intro j. unfold pend. cbn [d_depl d_change d_new]. rewrite !kof_drop, dget_ddel. cbn [eqb Item_nat]. destruct (Nat.eqb e j); reflexivity.
  - eexists. split; [reflexivity|]. split; [|split; [|reflexivity]].
    + constructor; cbn [d_depl d_change d_new].
      * apply nd_drop, K.
      * apply K.
      * intros j k. rewrite kof_drop. destruct (eqb e j); [discriminate|apply (dk_fin1 q K)].
      * intros j k Hj. destruct (dk_fin2 q K j k Hj) as [c [v [D [-> [Ev Ed]]]]]. rewrite kof_drop. cbn [eqb Item_nat].
        destruct (Nat.eqb_spec e j) as [->|]; [congruence|]. eauto 6.
      * apply (dk_new q K).
    + intro j. unfold pend. cbn [d_depl d_change d_new]. rewrite kof_drop. cbn [eqb Item_nat]. destruct (Nat.eqb e j); reflexivity.
Qed.
Lemma dq_remove_ok q e : dq_ok q ->
  match pend q e with
  | None => dq_remove q e = Err AssertionError
  | Some _ => exists q', dq_remove q e = Ok q' /\ dq_ok q' /\ (forall j, pend q' j = if Nat.eqb e j then None else pend q j)
  end.
Proof.
  intro K. pose proof (pend_has q e K) as H. unfold dq_has in H.
  assert (R : sq_remove (d_depl q) e = if sq_has (d_depl q) e then Ok (sq_drop (d_depl q) e) else Err AssertionError) by reflexivity.
  unfold dq_remove. rewrite R, H.
  destruct (pend q e) as [p|] eqn:P; [|reflexivity]. cbn [bind].
  destruct (drop_all q e K) as [q' [E [K' [P' _]]]]; [congruence|]. exists q'. auto.
Qed.

(** The least depletion / change time. *)
Definition least_of (P : Qc -> Prop) (k : ext) : Prop :=
  (k = PInf /\ forall x, ~ P x) \/ exists x, k = Fin x /\ P x /\ forall y, P y -> x <= y.
Lemma dq_min_depl_ok q : dq_ok q -> least_of (fun t => exists e ch, pend q e = Some (t, ch)) (dq_min_depl q).
Proof.
  intro K. unfold dq_min_depl. destruct (min_key_ex (d_depl q) (dk_nd1 q K)) as [[E N]|[it E]].
  - left. split; [exact E|]. intros x [e [ch P]]. pose proof (pend_depl q e K) as Q. rewrite N, P in Q. discriminate.
  - right. pose proof (pend_depl q it K) as Q. rewrite E in Q. destruct (pend q it) as [[D ch]|] eqn:P; [|discriminate]. injection Q as Q.
    exists D. split; [exact Q|]. split; [eauto|]. intros y [e [ch' P']]. pose proof (pend_depl q e K) as Q'. rewrite P' in Q'.
    apply min_key_le in Q'. rewrite Q in Q'. exact Q'.
Qed.
Lemma dq_min_change_ok q : dq_ok q -> least_of (fun t => exists e D v, pend q e = Some (D, Some (t, v))) (dq_min_change q).
Proof.
  intro K. unfold dq_min_change. destruct (min_key_ex (d_change q) (dk_nd2 q K)) as [[E N]|[it E]].
  - left. split; [exact E|]. intros x [e [D [v P]]]. pose proof (pend_change q e K) as Q. rewrite N, P in Q. discriminate.
  - right. pose proof (pend_change q it K) as Q. rewrite E in Q. destruct (pend q it) as [[D [[c v]|]]|] eqn:P; try discriminate. injection Q as Q.
    exists c. split; [exact Q|]. split; [eauto|]. intros y [e [D' [v' P']]]. pose proof (pend_change q e K) as Q'. rewrite P' in Q'.
    apply min_key_le in Q'. rewrite Q in Q'. exact Q'.
Qed.
Lemma dq_pop_ok q : dq_ok q ->
  ((forall e, pend q e = None) /\ dq_pop q = Err IndexError) \/
  exists q' e D ch, dq_pop q = Ok (q', (e, Fin D, match ch with Some (c, v) => Some (Fin c, v) | None => None end)) /\
    pend q e = Some (D, ch) /\ (forall j D' ch', pend q j = Some (D', ch') -> D <= D') /\
    dq_ok q' /\ (forall j, pend q' j = if Nat.eqb e j then None else pend q j) /\ (dq_len q' < dq_len q)%nat /\ dq_min_depl q = Fin D.
Proof.
  intro K. unfold dq_pop. destruct (sq_pop (d_depl q)) as [[depl e]|x] eqn:E.
  - right. destruct (pop_ok _ _ _ (dk_nd1 q K) E) as [-> Ek]. cbn [bind].
    pose proof (pend_depl q e K) as Q. rewrite Ek in Q. destruct (pend q e) as [[D ch]|] eqn:P; [|discriminate]. injection Q as Q.
    destruct (drop_all q e K) as [q' [E' [K' [P' L']]]]; [congruence|].
    exists q', e, D, ch. split.
    + unfold dq_min_depl. rewrite Q. pose proof (pend_change q e K) as QC. pose proof (pend_new q e K) as QN. rewrite P in QC, QN.
      rewrite kof_has in *. destruct ch as [[c v]|]; rewrite QC in *.
      * cbn [bind]. destruct (sq_remove (d_change q) e) as [c'|]; [|discriminate]. cbn [bind] in *. unfold dpop in *. rewrite QN in *. cbn [bind] in *.
        apply ok_inj in E'. rewrite E'. reflexivity.
      * apply ok_inj in E'. rewrite E'. reflexivity.
    + split; [exact P|]. split; [|split; [exact K'|split; [exact P'|split; [|exact Q]]]].
      * intros j D' ch' Pj. pose proof (pend_depl q j K) as Qj. rewrite Pj in Qj. apply min_key_le in Qj. rewrite Q in Qj. exact Qj.
      * unfold dq_len. rewrite L'. apply drop_len. rewrite kof_has, Ek. reflexivity.
  - left. destruct (pop_err _ _ E) as [-> N]. split; [|reflexivity]. intro e. unfold pend. rewrite N. reflexivity.
Qed.
