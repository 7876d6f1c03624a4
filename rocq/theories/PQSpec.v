(** * Specification of PriorityQueue, and the simulation of it by the code

    The specification part (up to "Running the modelled code") is also used as
    the model of a PriorityQueue inside larger components (dynamic_flow.py):
    C23 shows that every call on the real data structure gives the answer of
    the specification. *)
From Verif Require Import Base Spec PQ PQProofs PQOps.

Section Q.
Context {A : Type} {EA : Item A}.
Notation dict := (dict A). Notation entry := (entry A). Notation PQ := (PQ A).

(** ** The specification: an unordered collection of triples
    (key, insertion number, item), one per stored item. *)
Record squeue := mkS { s_entries : list entry; s_next : Z }.
Definition s_mem (it : A) (l : list entry) : bool := existsb (fun e => eqb (e_item e) it) l.
(** The entry with the least (key, insertion number). *)
Fixpoint s_least (l : list entry) : option entry :=
  match l with
  | [] => None
  | x :: r => match s_least r with None => Some x | Some y => if e_ltb y x then Some y else Some x end
  end.
Definition s_drop (it : A) (l : list entry) : list entry := filter (fun e => negb (eqb (e_item e) it)) l.
Definition s_rekey (it : A) (k : ext) (l : list entry) : list entry :=
  map (fun e => if eqb (e_item e) it then mkE k (e_idx e) it else e) l.
(** Repeatedly take the least entry. *)
Fixpoint s_order (n : nat) (l : list entry) : list entry :=
  match n, s_least l with S m, Some e => e :: s_order m (s_drop (e_item e) l) | _, _ => [] end.
Fixpoint number_from (i : Z) (l : list (A * ext)) : list entry :=
  match l with [] => [] | (it, k) :: r => mkE k i it :: number_from (i + 1) r end.
Definition s_init (l : list (A * ext)) : squeue := mkS (number_from 0 l) (Z.of_nat (length l)).

Inductive op :=
  | Push (it : A) (k : ext) | Pop | Next | KeyOf (it : A) (default : option ext)
  | DecreaseKey (it : A) (k : ext) | MinKey | Sorted | Len | Has (it : A)
  | Update (it : A) (k : ext) | SetKey (it : A) (k : ext) | Remove (it : A).
Inductive out := OUnit | OItem (it : A) | OKey (k : option ext) | OItems (l : list A) | OLen (n : nat) | OBool (b : bool).

Definition s_key_of (it : A) (l : list entry) : option ext :=
  match find (fun e => eqb (e_item e) it) l with Some e => Some (e_key e) | None => None end.

(** The individual calls. *)
Definition sq_empty : squeue := mkS [] 0.
Definition sq_add (s : squeue) (it : A) (k : ext) : squeue := mkS (mkE k (s_next s) it :: s_entries s) (s_next s + 1).
Definition sq_rekey (s : squeue) (it : A) (k : ext) : squeue := mkS (s_rekey it k (s_entries s)) (s_next s).
Definition sq_drop (s : squeue) (it : A) : squeue := mkS (s_drop it (s_entries s)) (s_next s).
Definition sq_has (s : squeue) (it : A) : bool := s_mem it (s_entries s).
Definition sq_len (s : squeue) : nat := length (s_entries s).
Definition sq_min_key (s : squeue) : ext := match s_least (s_entries s) with None => PInf | Some e => e_key e end.
Definition sq_set (s : squeue) (it : A) (k : ext) : squeue := if sq_has s it then sq_rekey s it k else sq_add s it k.
Definition sq_pop (s : squeue) : res (squeue * A) :=
  match s_least (s_entries s) with None => Err IndexError | Some e => Ok (sq_drop s (e_item e), e_item e) end.
Definition sq_remove (s : squeue) (it : A) : res squeue := if sq_has s it then Ok (sq_drop s it) else Err AssertionError.
Definition sq_key_of (s : squeue) (it : A) : option ext := s_key_of it (s_entries s).

Definition s_step (s : squeue) (o : op) : squeue * res out :=
  let l := s_entries s in
  let push it k := (sq_add s it k, Ok OUnit) in
  let rekey it k := (sq_rekey s it k, Ok OUnit) in
  match o with
  | Push it k => if s_mem it l then (s, Err AssertionError) else push it k
  | Pop => match sq_pop s with Ok (s', it) => (s', Ok (OItem it)) | Err e => (s, Err e) end
  | Next => (s, match s_least l with None => Err IndexError | Some e => Ok (OItem (e_item e)) end)
  | KeyOf it default => (s, Ok (OKey (match s_key_of it l with Some k => Some k | None => default end)))
  | DecreaseKey it k | Update it k => if s_mem it l then rekey it k else (s, Err AssertionError)
  | MinKey => (s, Ok (OKey (Some (sq_min_key s))))
  | Sorted => (s, Ok (OItems (map e_item (s_order (length l) l))))
  | Len => (s, Ok (OLen (length l)))
  | Has it => (s, Ok (OBool (s_mem it l)))
  | SetKey it k => (sq_set s it k, Ok OUnit)
  | Remove it => match sq_remove s it with Ok s' => (s', Ok OUnit) | Err e => (s, Err e) end
  end.

(** [decrease_key] must not be used to increase a key. *)
Definition legal (s : squeue) (o : op) : Prop :=
  match o with
  | DecreaseKey it k => forall e, In e (s_entries s) -> e_item e = it -> ext_le k (e_key e)
  | _ => True
  end.
Fixpoint legal_run (s : squeue) (ops : list op) : Prop :=
  match ops with [] => True | o :: r => legal s o /\ legal_run (fst (s_step s o)) r end.
Fixpoint s_run (s : squeue) (ops : list op) : squeue * list (res out) :=
  match ops with
  | [] => (s, [])
  | o :: r => let (s', x) := s_step s o in let (s'', xs) := s_run s' r in (s'', x :: xs)
  end.

(** ** Running the modelled code.  A call that raises leaves the queue as it
    was: every exception above is raised before the first mutation. *)
Definition lift_q (q : PQ) (r : res PQ) : PQ * res out :=
  match r with Ok q' => (q', Ok OUnit) | Err e => (q, Err e) end.
Definition q_step (q : PQ) (o : op) : PQ * res out :=
  match o with
  | Push it k => lift_q q (pq_push q it k)
  | Pop => match pq_pop q with Ok (q', it) => (q', Ok (OItem it)) | Err e => (q, Err e) end
  | Next => (q, rmap OItem (pq_next q))
  | KeyOf it default => (q, rmap OKey (pq_key_of q it default))
  | DecreaseKey it k => lift_q q (pq_decrease_key q it k)
  | MinKey => (q, Ok (OKey (Some (pq_min_key q))))
  | Sorted => (q, Ok (OItems (pq_sorted q)))
  | Len => (q, Ok (OLen (pq_len q)))
  | Has it => (q, Ok (OBool (pq_has q it)))
  | Update it k => lift_q q (pq_update q it k)
  | SetKey it k => lift_q q (pq_set q it k)
  | Remove it => lift_q q (pq_remove q it)
  end.
Fixpoint q_run (q : PQ) (ops : list op) : PQ * list (res out) :=
  match ops with
  | [] => (q, [])
  | o :: r => let (q', x) := q_step q o in let (q'', xs) := q_run q' r in (q'', x :: xs)
  end.

(** ** Simulation *)
Definition sim (q : PQ) (s : squeue) : Prop :=
  wf q /\ q_next q = s_next s /\ Permutation (q_data q) (s_entries s).

Lemma s_mem_in it l : s_mem it l = true <-> In it (items l).
Proof.
  unfold s_mem. rewrite existsb_exists. unfold items. rewrite in_map_iff. split; intros [e [H1 H2]]; exists e; split; auto.
  - destruct (eqbP (e_item e) it); [assumption|discriminate].
  - rewrite H1. apply eqb_refl.
Qed.
Lemma s_least_spec l : match s_least l with None => l = [] | Some e => In e l /\ forall x, In x l -> e_le e x end.
Proof.
  induction l as [|x r IH]; cbn [s_least]; [reflexivity|]. destruct (s_least r) as [y|].
  - destruct IH as [I1 I2]. destruct (e_ltbP y x) as [C|C].
    + split; [right; auto|]. intros z [<-|Hz]; [apply e_lt_le; auto|auto].
    + split; [left; auto|]. intros z [<-|Hz]; [apply e_le_refl|]. apply e_le_trans with y; [exact C|auto].
  - subst r. split; [left; reflexivity|]. intros z [<-|[]]. apply e_le_refl.
Qed.
Lemma s_drop_perm e l l' : NoDup (items l) -> Permutation l (e :: l') -> Permutation (s_drop (e_item e) l) l'.
Proof.
  intros N P. assert (N' : NoDup (items (e :: l'))) by (eapply Permutation_NoDup; [apply Permutation_map; exact P|exact N]).
  cbn in N'. inversion N' as [|? ? N1 N2]; subst.
  assert (F : forall a b, Permutation a b -> Permutation (s_drop (e_item e) a) (s_drop (e_item e) b)).
  { clear. intros a b P. induction P; cbn; auto.
    - destruct (negb _); auto.
    - destruct (negb (eqb (e_item x) _)), (negb (eqb (e_item y) _)); auto. apply perm_swap.
    - etransitivity; eauto. }
  rewrite (F _ _ P). cbn [s_drop filter]. rewrite eqb_refl. cbn [negb].
  clear - N1. induction l' as [|x r IH]; cbn; [reflexivity|]. destruct (eqbP (e_item x) (e_item e)) as [C|]; cbn [negb].
  - exfalso. apply N1. left. exact C.
  - constructor. apply IH. intro. apply N1. right. auto.
Qed.
Lemma sim_mem q s it : sim q s -> pq_has q it = s_mem it (s_entries s).
Proof.
  intros [W [_ P]]. destruct (pq_has q it) eqn:E; symmetry.
  - apply s_mem_in. apply (has_in q it W) in E. eapply Permutation_in; [apply Permutation_map; exact P|exact E].
  - destruct (s_mem it (s_entries s)) eqn:E2; auto. apply s_mem_in in E2.
    assert (pq_has q it = true); [|congruence]. apply (has_in q it W). eapply Permutation_in; [apply Permutation_map; symmetry; exact P|exact E2].
Qed.
Lemma sim_nodup q s : sim q s -> NoDup (items (s_entries s)) /\ NoDup (map e_idx (s_entries s)).
Proof. intros [W [_ P]]. split; (eapply Permutation_NoDup; [apply Permutation_map; exact P|]); [apply (wf_items q W)|apply (wf_nums q W)]. Qed.
Lemma sim_least q s : sim q s ->
  match q_data q with [] => s_least (s_entries s) = None | e :: _ => s_least (s_entries s) = Some e end.
Proof.
  intros S. destruct (sim_nodup q s S) as [_ N]. destruct S as [W [_ P]]. pose proof (s_least_spec (s_entries s)) as Q.
  destruct (q_data q) as [|e r] eqn:E.
  - apply Permutation_nil in P. rewrite P. reflexivity.
  - destruct (s_least (s_entries s)) as [m|]; [|rewrite Q in P; symmetry in P; apply Permutation_nil in P; discriminate].
    destruct Q as [Q1 Q2]. f_equal. apply (e_le_antisym (s_entries s)); auto.
    + eapply Permutation_in; [exact P|left; reflexivity].
    + apply Q2. eapply Permutation_in; [exact P|left; reflexivity].
    + assert (I : In m (q_data q)) by (rewrite E; eapply Permutation_in; [symmetry; exact P|exact Q1]).
      apply in_at in I. destruct I as [p [Hp <-]]. pose proof (heap_root _ (wf_heap q W) p Hp) as K. rewrite E in K at 1. exact K.
Qed.

Lemma order_spec : forall n l, length l = n -> NoDup (items l) -> Permutation (s_order n l) l /\ StronglySorted e_le (s_order n l).
Proof.
  induction n as [|n IH]; intros l L N; cbn [s_order].
  - destruct l; [|discriminate]. split; constructor.
  - pose proof (s_least_spec l) as Q. destruct (s_least l) as [e|]; [|subst; discriminate]. destruct Q as [Q1 Q2].
    apply in_split in Q1. destruct Q1 as [l1 [l2 E]].
    assert (P : Permutation l (e :: l1 ++ l2)) by (rewrite E; symmetry; apply Permutation_middle).
    pose proof (s_drop_perm e l (l1 ++ l2) N P) as D.
    destruct (IH (s_drop (e_item e) l)) as [P1 S1].
    + rewrite (Permutation_length D). apply Permutation_length in P. cbn in P. lia.
    + eapply Permutation_NoDup; [apply Permutation_map; symmetry; exact D|].
      assert (N' : NoDup (items (e :: l1 ++ l2))) by (eapply Permutation_NoDup; [apply Permutation_map; exact P|exact N]). inversion N'; auto.
    + split; [rewrite P1, D; symmetry; exact P|]. constructor; [exact S1|]. rewrite P1, D. apply Forall_forall.
      intros x Hx. apply Q2. eapply Permutation_in; [symmetry; exact P|right; exact Hx].
Qed.
Lemma sim_sorted q s : sim q s -> e_sort (q_data q) = s_order (length (s_entries s)) (s_entries s).
Proof.
  intro S. destruct (sim_nodup q s S) as [N1 N2]. destruct S as [W [_ P]].
  destruct (order_spec _ (s_entries s) eq_refl N1) as [P1 S1]. apply sorted_unique; auto.
  - eapply Permutation_NoDup; [apply Permutation_map; symmetry; apply e_sort_perm|apply (wf_nums q W)].
  - rewrite e_sort_perm, P. symmetry. exact P1.
  - apply e_sort_sorted.
Qed.
Lemma find_perm it l e : NoDup (items l) -> In e l -> e_item e = it -> s_key_of it l = Some (e_key e).
Proof.
  unfold s_key_of. induction l as [|x r IH]; intros N I E; [destruct I|]. cbn [find]. cbn in N. inversion N as [|? ? N1 N2]; subst.
  destruct (eqbP (e_item x) (e_item e)) as [C|C].
  - destruct I as [->|I]; [reflexivity|]. exfalso. apply N1. rewrite C. apply in_map. exact I.
  - destruct I as [->|I]; [congruence|]. apply IH; auto.
Qed.

Lemma sim_step q s o : sim q s -> legal s o ->
  snd (q_step q o) = snd (s_step s o) /\ sim (fst (q_step q o)) (fst (s_step s o)).
Proof.
  intros S Lg. pose proof (sim_nodup q s S) as [N1 N2]. pose proof S as [W [Nx P]].
  assert (Mem : forall it, pq_has q it = s_mem it (s_entries s)) by (intro; apply sim_mem; auto).
  assert (Abs : forall it, s_mem it (s_entries s) = false -> ~ In it (items (q_data q))).
  { intros it E I. rewrite <- Mem in E. apply (has_in q it W) in I. congruence. }
  assert (Pre : forall it, s_mem it (s_entries s) = true -> exists e, In e (q_data q) /\ e_item e = it).
  { intros it E. rewrite <- Mem in E. apply (has_in q it W) in E. apply in_map_iff in E. destruct E as [e [E1 E2]]. eauto. }
  assert (PushC : forall it k, s_mem it (s_entries s) = false ->
     exists q', pq_push q it k = Ok q' /\ sim q' (mkS (mkE k (s_next s) it :: s_entries s) (s_next s + 1))).
  { intros it k E. destruct (push_ok q it k W (Abs it E)) as [q' [E1 [W' [N' P']]]]. exists q'. split; [exact E1|].
    split; [exact W'|]. cbn [s_next s_entries sq_drop sq_add sq_rekey]. split; [rewrite N', Nx; reflexivity|]. rewrite P', P, Nx. reflexivity. }
  assert (UpdC : forall it k, s_mem it (s_entries s) = true ->
     exists q', pq_update q it k = Ok q' /\ sim q' (mkS (s_rekey it k (s_entries s)) (s_next s))).
  { intros it k E. destruct (Pre it E) as [e [He <-]]. destruct (update_ok q e k W He) as [q' [E1 [W' [N' P']]]]. exists q'. split; [exact E1|].
    split; [exact W'|]. cbn [s_next s_entries sq_drop sq_add sq_rekey]. split; [rewrite N', Nx; reflexivity|]. rewrite P'. apply Permutation_map. exact P. }
  destruct o as [it k| | |it dk|it k| | | |it|it k|it k|it]; cbn [q_step s_step fst snd].
  - destruct (s_mem it (s_entries s)) eqn:E.
    + rewrite push_dup; [|exact W|rewrite <- Mem in E; apply (has_in q it W); exact E]. cbn [lift_q fst snd]. auto.
    + destruct (PushC it k E) as [q' [-> S']]. cbn [lift_q fst snd]. auto.
  - pose proof (sim_least q s S) as Q. unfold sq_pop. destruct (q_data q) as [|e r] eqn:ED.
    + rewrite Q. rewrite (pop_empty q ED). cbn [fst snd]. auto.
    + rewrite Q. destruct (pop_ok q W) as [q' [e' [E1 [W' [N' [P' M']]]]]]; [rewrite ED; discriminate|]. rewrite E1.
      assert (e' = e).
      { pose proof (s_least_spec (s_entries s)) as Z0. rewrite Q in Z0. destruct Z0 as [Z1 Z2].
        apply (e_le_antisym (s_entries s)); auto.
        - eapply Permutation_in; [exact P|]. rewrite <- ED. eapply Permutation_in; [symmetry; exact P'|left; reflexivity].
        - apply M'. rewrite ED. left; reflexivity.
        - apply Z2. eapply Permutation_in; [exact P|]. rewrite <- ED. eapply Permutation_in; [symmetry; exact P'|left; reflexivity]. }
      subst e'. cbn [fst snd]. split; [reflexivity|]. split; [exact W'|]. cbn [s_next s_entries sq_drop sq_add sq_rekey]. split; [congruence|].
      symmetry. apply s_drop_perm; [exact N1|]. rewrite <- P', ED. symmetry. exact P.
  - split; [|exact S]. pose proof (sim_least q s S) as Q. unfold pq_next, getn. destruct (q_data q) as [|e r]; rewrite Q; reflexivity.
  - split; [|exact S]. unfold pq_key_of. destruct (s_mem it (s_entries s)) eqn:E.
    + destruct (Pre it E) as [e [He Hi]]. assert (Hh : pq_has q it = true) by (rewrite Mem; exact E).
      destruct (lookup q it W Hh) as [pos [E1 [L I]]]. rewrite E1, getn_ok by exact L. cbn [bind rmap].
      rewrite (find_perm it (s_entries s) (q_data q @ pos)); auto. eapply Permutation_in; [exact P|apply nth_In; exact L].
    + assert (F : s_key_of it (s_entries s) = None).
      { unfold s_key_of. destruct (find _ _) as [e|] eqn:F; auto. apply find_some in F. destruct F as [F1 F2].
        destruct (eqbP (e_item e) it) as [F3|]; [|discriminate]. assert (H : s_mem (e_item e) (s_entries s) = true) by (apply s_mem_in, in_map; exact F1). congruence. }
      rewrite <- Mem in E. unfold pq_has in E. destruct (q_dict q it); [discriminate|]. cbn [rmap bind].
      rewrite F. reflexivity.
  - destruct (s_mem it (s_entries s)) eqn:E.
    + destruct (Pre it E) as [e [He <-]].
      destruct (decrease_ok q e k W He) as [q' [E1 [W' [N' P']]]].
      { apply (Lg e); auto. eapply Permutation_in; eauto. }
      rewrite E1. cbn [lift_q fst snd]. split; [reflexivity|]. split; [exact W'|]. cbn [s_next s_entries sq_drop sq_add sq_rekey]. split; [congruence|].
      rewrite P'. apply Permutation_map. exact P.
    + destruct (absent_err q it k W (Abs it E)) as [-> _]. cbn [lift_q fst snd]. auto.
  - split; [|exact S]. pose proof (sim_least q s S) as Q. unfold pq_min_key, sq_min_key. destruct (q_data q) as [|e r]; rewrite Q; reflexivity.
  - split; [|exact S]. unfold pq_sorted. rewrite (sim_sorted q s S). reflexivity.
  - split; [|exact S]. unfold pq_len. rewrite (Permutation_length P). reflexivity.
  - split; [|exact S]. rewrite Mem. reflexivity.
  - destruct (s_mem it (s_entries s)) eqn:E.
    + destruct (UpdC it k E) as [q' [-> S']]. cbn [lift_q fst snd]. auto.
    + destruct (absent_err q it k W (Abs it E)) as [_ [-> _]]. cbn [lift_q fst snd]. auto.
  - unfold pq_set, sq_set, sq_has. rewrite Mem. destruct (s_mem it (s_entries s)) eqn:E.
    + destruct (UpdC it k E) as [q' [-> S']]. cbn [lift_q fst snd]. auto.
    + destruct (PushC it k E) as [q' [-> S']]. cbn [lift_q fst snd]. auto.
  - unfold sq_remove, sq_has. destruct (s_mem it (s_entries s)) eqn:E.
    + destruct (Pre it E) as [e [He <-]]. destruct (remove_ok q e W He) as [q' [E1 [W' [N' P']]]]. rewrite E1. cbn [lift_q fst snd].
      split; [reflexivity|]. split; [exact W'|]. cbn [s_next s_entries sq_drop sq_add sq_rekey]. split; [congruence|].
      symmetry. apply s_drop_perm; [exact N1|]. rewrite <- P. exact P'.
    + destruct (absent_err q it PInf W (Abs it E)) as [_ [_ ->]]. cbn [lift_q fst snd]. auto.
Qed.
Lemma sim_run : forall ops q s, sim q s -> legal_run s ops ->
  snd (q_run q ops) = snd (s_run s ops) /\ sim (fst (q_run q ops)) (fst (s_run s ops)).
Proof.
  induction ops as [|o r IH]; intros q s S L; cbn [q_run s_run]; [auto|]. destruct L as [L1 L2].
  destruct (sim_step q s o S L1) as [E1 S1]. destruct (q_step q o) as [q' x], (s_step s o) as [s' y]. cbn [fst snd] in *. subst x.
  destruct (IH q' s' S1 L2) as [E2 S2]. destruct (q_run q' r) as [q'' xs], (s_run s' r) as [s'' ys]. cbn [fst snd] in *. subst. auto.
Qed.
Lemma sim_init l : NoDup (map fst l) -> exists q, pq_init l = Ok q /\ sim q (s_init l).
Proof.
  intro N. destruct (init_ok l N) as [q [E [W [Nx P]]]]. exists q. split; [exact E|]. split; [exact W|]. split; [exact Nx|exact P].
Qed.
End Q.
Arguments squeue A : clear implicits. Arguments op A : clear implicits. Arguments out A : clear implicits.
