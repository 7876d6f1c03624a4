(** * C109-C111: directories of saved flows and of training data
      (src/ml/generate_queues.py, src/ml/QueueAndEdgeLoadsDataset.py,
      shallow_evaluate_predictors in src/scenarios/sioux_falls_scenario.py) *)
From Coq Require Import Ascii String Permutation Sorted.
From Verif Require Import Base Spec Arrays PL RC FRC DynFlow Graph Dijkstra FlowBuilder Predictors Eval Dataset Expanded Import Files DynRun PredictorsProofs2 PropDataset PropExtra PropImport3.
Open Scope nat_scope.

(** ** Specification: names and contents of directories *)
(** A lock file is any file whose name begins with ".lock." *)
Definition is_lock (n : text) : Prop := exists x, n = t ".lock." ++ x.
Definition no_locks {A} (d : dir A) : Prop := forall n, In n (names d) -> ~ is_lock n.
(** The flow file and the array file of flow [id] *)
Definition flow_file (id : text) : text := id ++ t ".flow.pickle".
Definition array_file (id : text) : text := id ++ t "-queues-and-edge-loads.npy".
(** What is in the directory after writing [x] unless the name was taken. *)
Definition kept {A} (old : option A) (x : A) : option A := match old with Some y => Some y | None => Some x end.

(** ** Lemmas on names *)
Lemma text_eqbP a b : reflect (a = b) (text_eqb a b).
Proof.
  revert b. induction a as [|x a IH]; intros [|y b]; cbn [text_eqb]; try (constructor; congruence).
  destruct (Ascii.eqb_spec x y) as [->|N]; cbn [andb]; [|constructor; congruence]. destruct (IH b) as [->|N]; constructor; congruence.
Qed.
Lemma eqb_refl_t a : text_eqb a a = true.
Proof. destruct (text_eqbP a a); congruence. Qed.
Lemma prefix_iff p s : is_prefix p s = true <-> exists r, s = p ++ r.
Proof.
  revert s. induction p as [|x p IH]; intros s; cbn [is_prefix]; [split; [exists s; reflexivity|reflexivity]|].
  destruct s as [|y s]; [split; [discriminate|intros [r R]; discriminate R]|]. rewrite andb_true_iff, IH. split.
  - intros [E [r R]]. apply Ascii.eqb_eq in E. subst. exists r. reflexivity.
  - intros [r R]. cbn in R. injection R as -> R. split; [apply Ascii.eqb_refl|exists r; exact R].
Qed.
Lemma suffix_iff p s : ends_with p s = true <-> exists r, s = r ++ p.
Proof.
  unfold ends_with. rewrite prefix_iff. split; intros [r R].
  - exists (rev r). rewrite <- (rev_involutive s), R, rev_app_distr, rev_involutive. reflexivity.
  - exists (rev r). rewrite R, rev_app_distr. reflexivity.
Qed.
Lemma without_app s p : without_suffix p (s ++ p) = s.
Proof. unfold without_suffix. rewrite app_length. replace (length s + length p - length p) with (length s) by lia. rewrite firstn_app, Nat.sub_diag, firstn_all. cbn. apply app_nil_r. Qed.
Lemma lock_iff n : is_prefix lock_prefix n = true <-> is_lock n.
Proof. apply prefix_iff. Qed.
Lemma lock_neq n : lock_prefix ++ n <> n.
Proof. intro E. apply (f_equal (@length ascii)) in E. rewrite app_length in E. cbn in E. lia. Qed.
Lemma is_lock_app x y : is_lock x -> is_lock (x ++ y).
Proof. intros [r ->]. exists (r ++ y). rewrite app_assoc. reflexivity. Qed.
(** A name made of a flow's id and a suffix without "." in its first places is a lock only if the id is. *)
Lemma lock_prefix_of id s : is_lock (id ++ s) -> is_lock id \/ (exists a b, t ".lock." = a ++ b /\ b <> [] /\ id = a /\ is_prefix b s = true).
Proof.
  intros [r R]. assert (G : forall p id, id ++ s = p ++ r -> (exists x, id = p ++ x) \/ exists a b, p = a ++ b /\ b <> [] /\ id = a /\ is_prefix b s = true).
  { clear. induction p as [|c p IH]; intros id E; [left; exists id; reflexivity|]. destruct id as [|d id].
    - right. exists [], (c :: p). split; [reflexivity|]. split; [discriminate|]. split; [reflexivity|]. apply prefix_iff. exists r. exact E.
    - cbn in E. injection E as -> E. destruct (IH id E) as [[x X]|(a & b & P & N & I & B)]; [left; exists x; cbn; congruence|]. right. exists (c :: a), b. cbn. repeat split; congruence. }
  destruct (G _ _ R) as [[x X]|H]; [left; exists x; exact X|right; exact H].
Qed.

(** ** Lemmas on directories *)
Section dirs.
  Context {A : Type}.
  Implicit Types d : dir A.
  Lemma find_put d n m x : find_file (put_file d n x) m = if text_eqb m n then Some x else find_file d m.
  Proof.
    induction d as [|[k y] d IH]; cbn [put_file find_file]; [reflexivity|]. destruct (text_eqbP n k) as [->|N]; cbn [find_file]; [destruct (text_eqb m k); reflexivity|].
    rewrite IH. destruct (text_eqbP m k) as [->|M]; [|reflexivity]. destruct (text_eqbP k n); congruence.
  Qed.
  Lemma find_remove d n m : find_file (remove_file d n) m = if text_eqb m n then None else find_file d m.
  Proof.
    induction d as [|[k y] d IH]; cbn [remove_file filter find_file fst]; [destruct (text_eqb m n); reflexivity|]. fold (remove_file d n). destruct (text_eqbP n k) as [->|N]; cbn [negb].
    - rewrite IH. destruct (text_eqb m k); reflexivity.
    - cbn [find_file]. rewrite IH. destruct (text_eqbP m k) as [->|M]; [|reflexivity]. destruct (text_eqbP k n); congruence.
  Qed.
  Lemma names_find d n : In n (names d) <-> find_file d n <> None.
  Proof.
    unfold names. induction d as [|[k y] d IH]; cbn [map find_file fst In]; [tauto|]. destruct (text_eqbP n k) as [->|N]; [split; [discriminate|auto]|].
    rewrite <- IH. split; [intros [E|E]; [congruence|exact E]|auto].
  Qed.
  Lemma has_find d n : has d n = true <-> find_file d n <> None.
  Proof. unfold has. destruct (find_file d n); split; congruence. Qed.
  Lemma has_none d n : has d n = false <-> find_file d n = None.
  Proof. unfold has. destruct (find_file d n); split; congruence. Qed.
  Lemma lock_none d x : no_locks d -> find_file d (lock_prefix ++ x) = None.
  Proof. intro L. destruct (find_file d (lock_prefix ++ x)) eqn:E; [|reflexivity]. exfalso. apply (L (lock_prefix ++ x)); [apply names_find; congruence|exists x; reflexivity]. Qed.
  Lemma waits_none d : no_locks d -> waits d = Completed.
  Proof.
    intro L. unfold waits. destruct (existsb (is_prefix lock_prefix) (names d)) eqn:E; [|reflexivity]. apply existsb_exists in E. destruct E as [n [I P]]. apply lock_iff in P. destruct (L n I P).
  Qed.
  Lemma waits_some d n : In n (names d) -> is_lock n -> waits d = Sleeps.
  Proof. intros I L. unfold waits. replace (existsb (is_prefix lock_prefix) (names d)) with true; [reflexivity|]. symmetry. apply existsb_exists. exists n. split; [exact I|apply lock_iff, L]. Qed.
End dirs.
Lemma each_done {X A} (f : X -> dir A -> ending * dir A) l out : (forall x, In x l -> f x out = (Completed, out)) -> each f l out = (Completed, out).
Proof. induction l as [|x l IH]; intro H; cbn [each]; [reflexivity|]. rewrite (H x) by (left; reflexivity). apply IH. intros y Y. apply H. right. exact Y. Qed.
Lemma each_spec {X A} (f : X -> dir A -> ending * dir A) (o : X -> text) (v : X -> A) (Inv : dir A -> Prop) l :
  (forall x out, In x l -> Inv out -> exists out', f x out = (Completed, out') /\ Inv out' /\
      forall m, find_file out' m = if text_eqb m (o x) then kept (find_file out (o x)) (v x) else find_file out m) ->
  (forall x y, In x l -> In y l -> o x = o y -> v x = v y) ->
  forall out, Inv out -> exists out', each f l out = (Completed, out') /\ Inv out' /\
    (forall x, In x l -> find_file out' (o x) = kept (find_file out (o x)) (v x)) /\
    (forall m, (forall x, In x l -> m <> o x) -> find_file out' m = find_file out m).
Proof.
  induction l as [|x l IH]; intros H J out I; cbn [each].
  - exists out. split; [reflexivity|]. split; [exact I|]. split; [intros y []|reflexivity].
  - destruct (H x out (or_introl eq_refl) I) as (o1 & E & I1 & F1). rewrite E.
    destruct (IH (fun y d Y => H y d (or_intror Y)) (fun y z Y Z => J y z (or_intror Y) (or_intror Z)) o1 I1) as (o2 & E2 & I2 & F2 & G2).
    exists o2. split; [exact E2|]. split; [exact I2|]. split.
    + assert (K : forall y, In y l -> find_file o2 (o y) = kept (find_file out (o y)) (v y)).
      { intros y Y. rewrite F2 by exact Y. rewrite F1. destruct (text_eqbP (o y) (o x)) as [Q|Q]; [|reflexivity]. rewrite Q. rewrite (J x y (or_introl eq_refl) (or_intror Y) (eq_sym Q)). destruct (find_file out (o x)); reflexivity. }
      intros y [<-|Y]; [|apply K, Y].
      destruct (in_dec (list_eq_dec ascii_dec) (o x) (map o l)) as [IN|NI].
      * apply in_map_iff in IN. destruct IN as (y & Q & Y). rewrite <- Q, (K y Y), Q. rewrite (J x y (or_introl eq_refl) (or_intror Y) (eq_sym Q)). reflexivity.
      * rewrite G2; [rewrite F1, eqb_refl_t; reflexivity|]. intros y Y Q. apply NI. rewrite Q. apply in_map, Y.
    + intros m M. rewrite G2 by (intros y Y; apply M; right; exact Y). rewrite F1. destruct (text_eqbP m (o x)) as [Q|Q]; [|reflexivity]. destruct (M x (or_introl eq_refl) Q).
Qed.
Lemma insert_perm x l : Permutation (x :: l) (insert_name x l).
Proof. induction l as [|y l IH]; cbn [insert_name]; [reflexivity|]. destruct (text_leb x y); [reflexivity|]. rewrite perm_swap. constructor. exact IH. Qed.
Lemma sorted_perm l : Permutation l (sorted_names l).
Proof. unfold sorted_names. induction l as [|x l IH]; cbn [fold_right]; [reflexivity|]. rewrite IH at 1. apply insert_perm. Qed.
Lemma in_sorted x l : In x (sorted_names l) <-> In x l.
Proof. split; apply Permutation_in; [symmetry|]; apply sorted_perm. Qed.
Lemma flow_names_iff flows n : In n (all_flow_names flows) <-> exists id, n = flow_file id /\ find_file flows n <> None.
Proof. unfold all_flow_names. rewrite filter_In, suffix_iff, names_find. unfold flow_file, flow_suffix. split; [intros [F [r R]]; exists r; auto|intros [r [R F]]; split; [exact F|exists r; exact R]]. Qed.

(** ** C109: generate_queues_and_edge_loads *)
Lemma with_lock_spec {A} (empty : A) path handle (out : dir A) x : no_locks out -> ~ is_lock path ->
  (handle (put_file out (lock_prefix ++ path) empty) = (Completed, put_file (put_file out (lock_prefix ++ path) empty) path x)) ->
  exists out', with_lock empty path handle out = (Completed, out') /\ no_locks out' /\
    forall m, find_file out' m = if text_eqb m path then kept (find_file out path) x else find_file out m.
Proof.
  intros L P H. unfold with_lock. rewrite (proj2 (has_none out (lock_prefix ++ path)) (lock_none out path L)). cbn [orb]. destruct (has out path) eqn:HP.
  - exists out. split; [reflexivity|]. split; [exact L|]. intro m. destruct (text_eqbP m path) as [->|N]; [|reflexivity]. apply has_find in HP. destruct (find_file out path); [reflexivity|congruence].
  - rewrite H. cbn [fst snd]. apply has_none in HP.
    assert (F : forall m, find_file (remove_file (put_file (put_file out (lock_prefix ++ path) empty) path x) (lock_prefix ++ path)) m = if text_eqb m path then Some x else find_file out m).
    { intro m. rewrite find_remove, !find_put. destruct (text_eqbP m (lock_prefix ++ path)) as [->|N].
      - destruct (text_eqbP (lock_prefix ++ path) path) as [E|_]; [destruct (lock_neq _ E)|]. symmetry. apply lock_none, L.
      - reflexivity. }
    eexists. split; [reflexivity|]. split.
    + intros n I K. apply names_find in I. rewrite F in I. destruct (text_eqbP n path) as [Q|N]; [subst; destruct (P K)|]. apply (L n); [apply names_find, I|exact K].
    + intro m. rewrite F, HP. reflexivity.
Qed.
Lemma array_no_lock id : ~ is_lock (flow_file id) -> ~ is_lock (array_file id).
Proof.
  intros N K. apply lock_prefix_of in K. destruct K as [K|(a & b & P & B & I & Q)]; [apply N; apply is_lock_app, K|].
  destruct b as [|c b]; [congruence|]. cbn [t array_file list_ascii_of_string is_prefix] in Q. apply andb_true_iff in Q. destruct Q as [Q _]. apply Ascii.eqb_eq in Q. subst c.
  assert (M : In "-"%char (t ".lock.")) by (rewrite P; apply in_or_app; right; left; reflexivity). clear - M. cbn in M. repeat destruct M as [M|M]; try discriminate M. destruct M.
Qed.
Lemma data_name_file id : data_name (flow_file id) = array_file id.
Proof. unfold data_name, flow_file, array_file. change (t ".flow.pickle") with flow_suffix. rewrite without_app. reflexivity. Qed.
Lemma near_round q : (exists k : Z, (qabs (qz k - q) <= Q2Qc (1 # 100000000000000))%Qc) <-> qltb (Q2Qc (1 # 100000000000000)) (qabs (qz (py_round q) - q)) = false.
Proof.
  assert (NEAR : (exists k : Z, (qabs (qz k - q) <= Q2Qc (1 # 100000000000000))%Qc) <-> (qabs (qz (py_round q) - q) <= Q2Qc (1 # 100000000000000))%Qc).
  { split; [|eauto]. intros [k K]. destruct (C57_round q) as [B _].
    assert (EQ : k = py_round q); [|subst; auto].
    assert (D : (qabs (qz (k - py_round q)) < 1)%Qc).
    { assert (S1 : (Q2Qc (1 # 2) + Q2Qc (1 # 100000000000000) < 1)%Qc) by (vm_compute; reflexivity).
      set (h2 := Q2Qc (1 # 2)) in *. set (e14 := Q2Qc (1 # 100000000000000)) in *. clearbody h2 e14.
      rewrite qz_sub. set (a := qz k) in *. set (b := qz (py_round q)) in *. clearbody a b. clear - K B S1. revert K B. unfold qabs.
      destruct (qltbP (a - q)%Qc 0%Qc), (qltbP (b - q)%Qc 0%Qc), (qltbP (a - b)%Qc 0%Qc); intros; qlra. }
    assert (Z1 : (k - py_round q < 1)%Z).
    { destruct (Z_lt_le_dec (k - py_round q) 1) as [|L]; auto. exfalso. apply qz_le in L. change (qz 1) with 1%Qc in L. revert D. unfold qabs. destruct (qltbP (qz (k - py_round q)) 0%Qc); intro; qlra. }
    assert (Z2 : (-1 < k - py_round q)%Z).
    { destruct (Z_lt_le_dec (-1) (k - py_round q)) as [|L]; auto. exfalso. apply qz_le in L. change (qz (-1)) with (- (1))%Qc in L. revert D. unfold qabs. destruct (qltbP (qz (k - py_round q)) 0%Qc); intro; qlra. }
    lia. }
  rewrite NEAR. destruct (qltbP (Q2Qc (1 # 100000000000000)) (qabs (qz (py_round q) - q))) as [X|X]; split; try congruence.
  - intro B. exfalso. eapply Qclt_not_le; eauto.
  - intros _. apply Qcnot_lt_le. exact X.
Qed.
(** If every flow file holds a flow saved by build_flows and neither directory
    holds a lock, the call returns; afterwards every flow has its array: the one
    that was there before, or else the samples of the flow (C57); no other file
    has changed, no lock is left, and a second call changes nothing. *)
Definition savable past h r pi (flows : dir entry) : Prop :=
  forall id, find_file flows (flow_file id) <> None -> exists f q, find_file flows (flow_file id) = Some (GzFlow f) /\ save_flow past h r pi f = Ok q.
Lemma loop_completes past h r pi flows out : savable past h r pi flows -> no_locks flows -> no_locks out ->
  let loop := each (data_step past h r pi flows) (sorted_names (all_flow_names flows)) in
  exists out', loop out = (Completed, out') /\ no_locks out' /\
    (forall id f q, find_file flows (flow_file id) = Some (GzFlow f) -> save_flow past h r pi f = Ok q ->
       find_file out' (array_file id) = kept (find_file out (array_file id)) (Data q)) /\
    (forall m, (forall id, find_file flows (flow_file id) <> None -> m <> array_file id) -> find_file out' m = find_file out m) /\
    loop out' = (Completed, out').
Proof.
  intros S LF LO.
  pose (v := fun n => match load_gz flows n with inl f => match save_flow past h r pi f with Ok q => Data q | Err _ => NoData end | inr _ => NoData end).
  assert (FN : forall n, In n (sorted_names (all_flow_names flows)) -> exists id f q, n = flow_file id /\ data_name n = array_file id /\ find_file flows n = Some (GzFlow f) /\ save_flow past h r pi f = Ok q /\ v n = Data q /\ ~ is_lock (array_file id)).
  { intros n I. rewrite in_sorted, flow_names_iff in I. destruct I as [id [-> I]]. destruct (S id I) as (f & q & F & Q). exists id, f, q. rewrite data_name_file. repeat split; auto.
    - unfold v, load_gz. rewrite F, Q. reflexivity.
    - apply array_no_lock. apply LF, names_find, I. }
  destruct (each_spec (data_step past h r pi flows) data_name v no_locks (sorted_names (all_flow_names flows))) with (out := out) as (out' & E & L & F & G).
  - intros n d I LD. destruct (FN n I) as (id & f & q & -> & D & FF & Q & V & NL). rewrite V. unfold data_step. apply with_lock_spec; [exact LD|rewrite D; exact NL|]. unfold load_gz. rewrite FF, Q. reflexivity.
  - intros x y X Y. destruct (FN x X) as (i & f & q & -> & D & FF & Q & V & _). destruct (FN y Y) as (i' & f' & q' & -> & D' & FF' & Q' & V' & _). rewrite D, D'. intro EQ. unfold array_file in EQ. apply app_inv_tail in EQ. subst i'. congruence.
  - exact LO.
  - exists out'. split; [exact E|]. split; [exact L|].
    assert (HAVE : forall id f q, find_file flows (flow_file id) = Some (GzFlow f) -> save_flow past h r pi f = Ok q -> find_file out' (array_file id) = kept (find_file out (array_file id)) (Data q)).
    { intros id f q FF Q. rewrite <- data_name_file, F by (apply in_sorted, flow_names_iff; exists id; split; [reflexivity|congruence]). f_equal. unfold v, load_gz. rewrite FF, Q. reflexivity. }
    split; [exact HAVE|]. split.
    + intros m M. apply G. intros x X. destruct (FN x X) as (id & f & q & -> & D & FF & _). rewrite D. apply M. congruence.
    + apply each_done. intros n I. destruct (FN n I) as (id & f & q & -> & D & FF & Q & _). unfold data_step, with_lock. rewrite D.
      replace (has out' (array_file id)) with true; [rewrite orb_true_r; reflexivity|]. symmetry. apply has_find. rewrite (HAVE id f q FF Q). destruct (find_file out (array_file id)); discriminate.
Qed.
Theorem C109_generates : forall past h r pi flows out, r <> 0%Qc ->
  (exists k : Z, (qabs (qz k - pi / r) <= Q2Qc (1 # 100000000000000))%Qc) ->
  (forall id, find_file flows (flow_file id) <> None -> exists f q, find_file flows (flow_file id) = Some (GzFlow f) /\ save_flow past h r pi f = Ok q) ->
  no_locks flows -> no_locks out ->
  exists out', generate_data past h r pi flows out = (Completed, out') /\ no_locks out' /\
    (forall id f q, find_file flows (flow_file id) = Some (GzFlow f) -> save_flow past h r pi f = Ok q ->
       find_file out' (array_file id) = kept (find_file out (array_file id)) (Data q)) /\
    (forall m, (forall id, find_file flows (flow_file id) <> None -> m <> array_file id) -> find_file out' m = find_file out m) /\
    generate_data past h r pi flows out' = (Completed, out').
Proof.
  intros past h r pi flows out R K S LF LO. destruct (loop_completes past h r pi flows out S LF LO) as (out' & E & L & F & G & A).
  exists out'. unfold generate_data. rewrite pydiv_ok by exact R. apply near_round in K. rewrite K. cbv zeta. rewrite E, A. cbn [fst snd]. rewrite (waits_none out' L). auto.
Qed.
Print Assumptions C109_generates.
Lemma each_fails {X A} (f : X -> dir A -> ending * dir A) (Inv : dir A -> Prop) l :
  (forall y d, In y l -> Inv d -> (exists d', f y d = (Completed, d') /\ Inv d') \/ exists w d', f y d = (Fails w, d')) ->
  forall out, Inv out -> (exists d, each f l out = (Completed, d) /\ Inv d /\ forall x, In x l -> exists d d', Inv d /\ f x d = (Completed, d')) \/ exists w d, each f l out = (Fails w, d).
Proof.
  induction l as [|x l IH]; intros H out I; cbn [each]; [left; exists out; split; [reflexivity|]; split; [exact I|]; intros y []|].
  destruct (H x out (or_introl eq_refl) I) as [(d' & E & I')|(w & d' & E)]; rewrite E; [|right; eauto].
  destruct (IH (fun y d Y => H y d (or_intror Y)) d' I') as [(d & E2 & J & K)|R]; [left|right; exact R]. exists d. split; [exact E2|]. split; [exact J|]. intros y [<-|Y]; [exists out, d'; auto|apply K, Y].
Qed.
Lemma not_lock_dec n : is_lock n \/ ~ is_lock n.
Proof. destruct (is_prefix lock_prefix n) eqn:E; [left; apply lock_iff, E|right; intro K; apply lock_iff in K; congruence]. Qed.
(** Refuted: a lock file of a running (or killed) build_flows in the directory of
    flows is taken for a flow: the call raises, whatever else is there. *)
Theorem C109_lock_refuted : forall past h r pi flows out x,
  (forall n, is_lock n -> find_file flows n = None \/ find_file flows n = Some EmptyFile) -> no_locks out ->
  find_file flows (t ".lock." ++ x ++ t ".flow.pickle") = Some EmptyFile ->
  exists w, fst (generate_data past h r pi flows out) = Fails w.
Proof.
  intros past h r pi flows out x E LO X. unfold generate_data. destruct (pydiv pi r) as [q|e]; [|eexists; reflexivity]. destruct (qltb _ _); [eexists; reflexivity|]. cbv zeta.
  destruct (each_fails (data_step past h r pi flows) no_locks (sorted_names (all_flow_names flows))) with (out := out) as [(d & _ & _ & B)|(w & d & B)].
  - intros n d I L. rewrite in_sorted, flow_names_iff in I. destruct I as [id [-> I]]. unfold data_step, with_lock. rewrite data_name_file.
    rewrite (proj2 (has_none _ _) (lock_none d _ L)). cbn [orb]. destruct (has d (array_file id)) eqn:HP; [left; exists d; auto|].
    unfold load_gz. destruct (find_file flows (flow_file id)) as [[| | |f|f]|] eqn:F; try (right; cbn [fst snd]; eexists; eexists; reflexivity).
    destruct (save_flow past h r pi f) as [qf|ex]; [|right; cbn [fst snd]; eexists; eexists; reflexivity].
    left. cbn [fst snd]. eexists. split; [reflexivity|]. intros n N K. apply names_find in N. rewrite find_remove, !find_put in N.
    destruct (text_eqbP n (lock_prefix ++ array_file id)); [congruence|]. destruct (text_eqbP n (array_file id)) as [Q|Q]; [|apply (L n); [apply names_find, N|exact K]].
    subst n. apply (array_no_lock id); [|exact K]. intro K'. destruct (E _ K'); congruence.
  - exact LO.
  - exfalso. destruct (B (flow_file (t ".lock." ++ x))) as (d1 & d2 & L & C).
    + apply in_sorted, flow_names_iff. exists (t ".lock." ++ x). split; [reflexivity|]. unfold flow_file. rewrite <- app_assoc. congruence.
    + unfold data_step, with_lock in C. rewrite data_name_file in C. rewrite (proj2 (has_none _ _) (lock_none d1 _ L)) in C. cbn [orb] in C.
      unfold array_file at 1 in C. rewrite <- app_assoc in C. rewrite (proj2 (has_none _ _) (lock_none d1 _ L)) in C.
      unfold load_gz, flow_file in C. rewrite <- app_assoc, X in C. discriminate C.
  - rewrite B. cbn [fst]. eexists. reflexivity.
Qed.
Print Assumptions C109_lock_refuted.
(** Refuted: after a kill a lock stays in the directory of arrays; every later
    call (alone) then sleeps for ever, and the locked flow gets no array. *)
Theorem C109_stale_refuted : forall past h r pi flows out id, r <> 0%Qc ->
  (exists k : Z, (qabs (qz k - pi / r) <= Q2Qc (1 # 100000000000000))%Qc) ->
  (forall id, find_file flows (flow_file id) <> None -> exists f q, find_file flows (flow_file id) = Some (GzFlow f) /\ save_flow past h r pi f = Ok q) ->
  no_locks flows -> find_file out (t ".lock." ++ array_file id) <> None -> find_file out (array_file id) = None ->
  exists out', generate_data past h r pi flows out = (Sleeps, out') /\ find_file out' (array_file id) = None /\ find_file out' (t ".lock." ++ array_file id) <> None.
Proof.
  intros past h r pi flows out id R K S LF LK NO. unfold generate_data. rewrite pydiv_ok by exact R. apply near_round in K. rewrite K. cbv zeta.
  set (Inv := fun d : dir data_file => find_file d (t ".lock." ++ array_file id) <> None /\ find_file d (array_file id) = None).
  assert (G : forall l, (forall n, In n l -> In n (all_flow_names flows)) -> forall d, Inv d -> exists d', each (data_step past h r pi flows) l d = (Completed, d') /\ Inv d').
  { induction l as [|n l IH]; intros LL d [I1 I2]; cbn [each]; [exists d; split; [reflexivity|split; assumption]|].
    assert (ST : exists d', data_step past h r pi flows n d = (Completed, d') /\ Inv d').
    { destruct (proj1 (flow_names_iff flows n) (LL n (or_introl eq_refl))) as [i [-> J]]. destruct (S i J) as (f & q & F & Q). unfold data_step, with_lock. rewrite data_name_file.
      destruct (has d (lock_prefix ++ array_file i) || has d (array_file i))%bool eqn:H; [exists d; split; [reflexivity|split; assumption]|].
      unfold load_gz. rewrite F, Q. cbn [fst snd]. eexists. split; [reflexivity|]. apply orb_false_iff in H. destruct H as [H1 H2]. apply has_none in H1. 
      assert (NI : array_file i <> array_file id) by (intro QE; rewrite QE in H1; exact (I1 H1)).
      split; rewrite find_remove, !find_put.
      - destruct (text_eqbP (t ".lock." ++ array_file id) (lock_prefix ++ array_file i)) as [Q1|Q1]; [exfalso; apply NI; symmetry; apply app_inv_head in Q1; exact Q1|].
        destruct (text_eqbP (t ".lock." ++ array_file id) (array_file i)); [discriminate|exact I1].
      - destruct (text_eqb (array_file id) (lock_prefix ++ array_file i)); [reflexivity|]. destruct (text_eqbP (array_file id) (array_file i)) as [Q1|Q1]; [congruence|exact I2]. }
    destruct ST as (d' & E & I'). rewrite E. apply IH; [intros m M; apply LL; right; exact M|exact I']. }
  destruct (G (sorted_names (all_flow_names flows)) (fun n N => proj1 (in_sorted _ _) N) out (conj LK NO)) as (d' & E & I1 & I2). rewrite E. cbn [fst snd]. exists d'.
  rewrite (waits_some d' (t ".lock." ++ array_file id)); [auto|apply names_find, I1|exists (array_file id); reflexivity].
Qed.
Print Assumptions C109_stale_refuted.

(** ** C110: reading the flows that build_flows saves *)
(** Every file with the name of a flow was written by build_flows (gzip), or is a lock file. *)
Definition built (flows : dir entry) : Prop := forall id, find_file flows (flow_file id) <> None -> (exists f, find_file flows (flow_file id) = Some (GzFlow f)) \/ is_lock (flow_file id) /\ find_file flows (flow_file id) = Some EmptyFile.
Lemma built_unreadable flows n : built flows -> In n (all_flow_names flows) -> load_plain flows n = inr Unreadable.
Proof. intros B I. apply flow_names_iff in I. destruct I as [id [-> F]]. unfold load_plain. destruct (B id F) as [[f ->]|[_ ->]]; reflexivity. Qed.
Lemma unlocked_iff flows n : In n (unlocked_flow_names flows) <-> In n (all_flow_names flows) /\ ~ is_lock n.
Proof. unfold unlocked_flow_names, all_flow_names. rewrite !filter_In, andb_true_iff, negb_true_iff. rewrite <- (lock_iff n). destruct (is_prefix lock_prefix n); intuition congruence. Qed.
Lemma each_stuck {X A} (f : X -> dir A -> ending * dir A) w l out :
  (forall y, In y l -> f y out = (Completed, out) \/ f y out = (Fails w, out)) ->
  each f l out = (Completed, out) /\ (forall y, In y l -> f y out = (Completed, out)) \/ each f l out = (Fails w, out).
Proof.
  induction l as [|x l IH]; intro H; cbn [each]; [left; split; [reflexivity|intros y []]|]. destruct (H x (or_introl eq_refl)) as [E|E]; rewrite E; [|right; reflexivity].
  destruct (IH (fun y Y => H y (or_intror Y))) as [[E2 K]|E2]; [left|right; exact E2]. split; [exact E2|]. intros y [<-|Y]; [exact E|apply K, Y].
Qed.
Lemma plain_stuck {A} suffix (compute : Flow -> res A) flows (out : dir A) : built flows ->
  let call := each (plain_step suffix compute flows) (unlocked_flow_names flows) out in
  snd call = out /\ forall id, find_file flows (flow_file id) <> None -> ~ is_lock (flow_file id) -> find_file out (id ++ suffix) = None -> call = (Fails Unreadable, out).
Proof.
  intros B call.
  assert (H : forall y, In y (unlocked_flow_names flows) -> plain_step suffix compute flows y out = (Completed, out) /\ has out (without_suffix flow_suffix y ++ suffix) = true \/ plain_step suffix compute flows y out = (Fails Unreadable, out)).
  { intros y Y. apply unlocked_iff in Y. destruct Y as [Y _]. unfold plain_step. destruct (has out (without_suffix flow_suffix y ++ suffix)); [left; auto|right]. rewrite (built_unreadable flows y B Y). reflexivity. }
  destruct (each_stuck (plain_step suffix compute flows) Unreadable (unlocked_flow_names flows) out) as [[E K]|E]; [intros y Y; destruct (H y Y) as [[? _]|?]; auto| |].
  - fold call in E. rewrite E. split; [reflexivity|]. intros id F L N. exfalso. assert (Y : In (flow_file id) (unlocked_flow_names flows)) by (apply unlocked_iff; split; [apply flow_names_iff; eauto|exact L]).
    destruct (H _ Y) as [[_ HP]|C]; [|rewrite (K _ Y) in C; discriminate C]. unfold flow_file in HP. change (t ".flow.pickle") with flow_suffix in HP. rewrite without_app in HP. apply has_find in HP. congruence.
  - fold call in E. rewrite E. split; reflexivity.
Qed.
Lemma remove_put {A} (d : dir A) n x : find_file d n = None -> remove_file (put_file d n x) n = d.
Proof.
  induction d as [|[m y] d IH]; cbn [find_file put_file]; [intros _; cbn [remove_file filter fst]; rewrite eqb_refl_t; reflexivity|]. destruct (text_eqbP n m) as [|N]; [discriminate|].
  intro F. cbn [remove_file filter fst]. destruct (text_eqbP n m) as [|_]; [contradiction|]. cbn [negb]. fold (remove_file (put_file d n x) n). rewrite IH by exact F. reflexivity.
Qed.
Lemma plain_stuck_all flows l : built flows -> (forall n, In n l -> In n (all_flow_names flows)) -> l <> [] -> load_all (load_plain flows) l = inr Unreadable.
Proof. intros B H N. destruct l as [|n l]; [congruence|]. cbn [load_all]. rewrite (built_unreadable flows n B (H n (or_introl eq_refl))). reflexivity. Qed.
(** REFUTED: generate_queues, generate_training_data_with_edge_loads and
    shallow_evaluate_predictors open the files without gzip: none of them ever
    writes anything for flows saved by build_flows, and each raises as soon as a
    flow has no output yet. *)
Theorem C110_plain_open_refuted : forall flows, built flows ->
  (forall past horizon step out, let call := generate_queues past horizon step flows out in
     snd call = out /\ forall id, find_file flows (flow_file id) <> None -> ~ is_lock (flow_file id) -> find_file out (id ++ t "-queues-complete.csv.gz") = None -> call = (Fails Unreadable, out)) /\
  (forall past future horizon r pi out, let call := generate_training_data past future horizon r pi flows out in
     snd call = out /\ forall id, find_file flows (flow_file id) <> None -> ~ is_lock (flow_file id) -> find_file out (id ++ t "-training-data.npy") = None -> call = (Fails Unreadable, out)) /\
  (forall A (evaluate : Flow -> res A) out, no_locks out -> let call := shallow_evaluate evaluate flows out in
     snd call = out /\ forall id, find_file flows (flow_file id) <> None -> find_file out (id ++ t "-shallow-eval.pickle") = None -> call = (Fails Unreadable, out)).
Proof.
  intros flows B. split; [intros; apply plain_stuck, B|]. split; [intros; apply plain_stuck, B|].
  intros A evaluate out L call.
  assert (H : forall y, In y (sorted_names (all_flow_names flows)) -> shallow_step evaluate flows y out = (Completed, out) /\ has out (without_suffix flow_suffix y ++ t "-shallow-eval.pickle") = true \/ shallow_step evaluate flows y out = (Fails Unreadable, out)).
  { intros y Y. rewrite in_sorted in Y. unfold shallow_step, with_lock. rewrite (proj2 (has_none _ _) (lock_none out _ L)). cbn [orb]. destruct (has out (without_suffix flow_suffix y ++ t "-shallow-eval.pickle")); [left; auto|right].
    rewrite (built_unreadable flows y B Y). cbn [fst snd]. rewrite remove_put by (apply lock_none, L). reflexivity. }
  unfold call, shallow_evaluate. cbv zeta. destruct (each_stuck (shallow_step evaluate flows) Unreadable (sorted_names (all_flow_names flows)) out) as [[E K]|E]; [intros y Y; destruct (H y Y) as [[? _]|?]; auto| |].
  - rewrite E. cbn [fst snd]. split; [reflexivity|]. intros id F N. exfalso. assert (Y : In (flow_file id) (sorted_names (all_flow_names flows))) by (apply in_sorted, flow_names_iff; eauto).
    destruct (H _ Y) as [[_ HP]|C]; [|rewrite (K _ Y) in C; discriminate C]. unfold flow_file in HP. change (t ".flow.pickle") with flow_suffix in HP. rewrite without_app in HP. apply has_find in HP. congruence.
  - rewrite E. cbn [fst snd]. split; reflexivity.
Qed.
Print Assumptions C110_plain_open_refuted.
(** REFUTED: expanded_queues_from_flows raises as well, but leaves its lock: every
    later call, even with readable flows, returns silently and the table is never written. *)
Theorem C110_expanded_refuted : forall g past future step horizon sample_step flows out, built flows ->
  (exists id, find_file flows (flow_file id) <> None) -> find_file out (t "expanded_queues.csv.gz") = None -> find_file out (t ".lock.expanded_queues.csv.gz") = None ->
  exists out', expanded_file g past future step horizon sample_step flows out = (Fails Unreadable, out') /\
    find_file out' (t "expanded_queues.csv.gz") = None /\
    forall g past future step horizon sample_step flows, expanded_file g past future step horizon sample_step flows out' = (Completed, out').
Proof.
  intros g past future step horizon sample_step flows out B [id F] N1 N2. unfold expanded_file at 1. change (lock_prefix ++ expanded_path) with (t ".lock.expanded_queues.csv.gz"). change expanded_path with (t "expanded_queues.csv.gz").
  rewrite (proj2 (has_none _ _) N1), (proj2 (has_none _ _) N2). cbn [orb]. rewrite (plain_stuck_all flows (all_flow_names flows) B (fun n N => N)) by (intro E; assert (I : In (flow_file id) (all_flow_names flows)) by (apply flow_names_iff; eauto); rewrite E in I; destruct I).
  eexists. split; [reflexivity|]. split; [rewrite find_put; cbn [text_eqb]; exact N1|]. intros. unfold expanded_file. change (lock_prefix ++ expanded_path) with (t ".lock.expanded_queues.csv.gz").
  unfold has at 2. rewrite find_put, eqb_refl_t, orb_true_r. reflexivity.
Qed.
Print Assumptions C110_expanded_refuted.
(** REFUTED: the per-edge tables: no table is ever written; the first edge without
    table and lock makes the call raise and keeps its lock for ever. *)
Lemma edge_step_built g past future step horizon sample_step average flows e out : built flows ->
  (exists id, find_file flows (flow_file id) <> None /\ ~ is_prefix (t ".lock") (flow_file id) = true) ->
  let path := edge_path (e_id g e) in
  edge_file g past future step horizon sample_step average flows e out =
    if (has out path || has out (lock_prefix ++ path))%bool then (Completed, out) else (Fails Unreadable, put_file out (lock_prefix ++ path) TableLock).
Proof.
  intros B [id [F L]] path. unfold edge_file. fold path. destruct (has out path || has out (lock_prefix ++ path))%bool; [reflexivity|].
  rewrite (plain_stuck_all flows (unlocked_flow_names' flows) B); [reflexivity| |].
  - intros n N. unfold unlocked_flow_names' in N. apply filter_In in N. destruct N as [N E]. apply andb_true_iff in E. unfold all_flow_names. apply filter_In. tauto.
  - intro E. assert (I : In (flow_file id) (unlocked_flow_names' flows)); [|rewrite E in I; destruct I]. unfold unlocked_flow_names'. apply filter_In. split; [apply names_find, F|]. apply andb_true_iff. split; [apply suffix_iff; exists id; reflexivity|]. destruct (is_prefix (t ".lock") (flow_file id)); [congruence|reflexivity].
Qed.
Theorem C110_per_edge_refuted : forall g past future step horizon sample_step average flows out, built flows ->
  (exists id, find_file flows (flow_file id) <> None /\ forall x, flow_file id <> t ".lock" ++ x) ->
  let call := edge_files g past future step horizon sample_step average flows out in
  (forall m x, find_file (snd call) m = Some (Table x) -> find_file out m = Some (Table x)) /\
  (forall m, find_file out m <> None -> find_file (snd call) m = find_file out m) /\
  (forall e, In e (g_edges g) -> find_file out (edge_path (e_id g e)) = None -> find_file out (t ".lock." ++ edge_path (e_id g e)) = None -> fst call = Fails Unreadable) /\
  (fst call = Fails Unreadable -> exists e, In e (g_edges g) /\ find_file out (t ".lock." ++ edge_path (e_id g e)) = None /\ find_file (snd call) (t ".lock." ++ edge_path (e_id g e)) = Some TableLock) /\
  forall g' past' future' step' horizon' sample_step' average' flows' e, find_file out (t ".lock." ++ edge_path (e_id g' e)) <> None ->
    edge_file g' past' future' step' horizon' sample_step' average' flows' e out = (Completed, out).
Proof.
  intros g past future step horizon sample_step average flows out B X call.
  assert (X' : exists id, find_file flows (flow_file id) <> None /\ ~ is_prefix (t ".lock") (flow_file id) = true).
  { destruct X as [id [F L]]. exists id. split; [exact F|]. intro P. apply prefix_iff in P. destruct P as [r R]. exact (L r R). }
  assert (G : forall l, (exists e, In e l /\ has out (edge_path (e_id g e)) = false /\ has out (lock_prefix ++ edge_path (e_id g e)) = false /\ each (edge_file g past future step horizon sample_step average flows) l out = (Fails Unreadable, put_file out (lock_prefix ++ edge_path (e_id g e)) TableLock)) \/
     (each (edge_file g past future step horizon sample_step average flows) l out = (Completed, out) /\ forall e, In e l -> (has out (edge_path (e_id g e)) || has out (lock_prefix ++ edge_path (e_id g e)))%bool = true)).
  { induction l as [|e l IH]; cbn [each]; [right; split; [reflexivity|intros e []]|]. rewrite (edge_step_built _ _ _ _ _ _ _ _ _ _ B X').
    destruct (has out (edge_path (e_id g e)) || has out (lock_prefix ++ edge_path (e_id g e)))%bool eqn:H.
    - destruct IH as [(e' & I & R)|[R K]]; [left; exists e'; split; [right; exact I|exact R]|right]. split; [exact R|]. intros e' [<-|I]; [exact H|apply K, I].
    - left. exists e. apply orb_false_iff in H. destruct H. split; [left; reflexivity|]. auto. }
  split; [|split; [|split; [|split]]].
  - intros m x. unfold call, edge_files. destruct (G (g_edges g)) as [(e & _ & _ & _ & ->)|[-> _]]; cbn [snd]; [|auto]. rewrite find_put. destruct (text_eqb m _); [discriminate|auto].
  - intros m M. unfold call, edge_files. destruct (G (g_edges g)) as [(e & _ & _ & H2 & ->)|[-> _]]; cbn [snd]; [|reflexivity]. rewrite find_put. destruct (text_eqbP m (lock_prefix ++ edge_path (e_id g e))) as [->|]; [|reflexivity]. apply has_none in H2. congruence.
  - intros e I N1 N2. unfold call, edge_files. destruct (G (g_edges g)) as [(e' & _ & _ & _ & ->)|[_ K]]; [reflexivity|]. specialize (K e I). rewrite (proj2 (has_none _ _) N1), (proj2 (has_none out (lock_prefix ++ edge_path (e_id g e))) N2) in K. discriminate K.
  - unfold call, edge_files. destruct (G (g_edges g)) as [(e & I & _ & H2 & ->)|[-> _]]; cbn [fst snd]; [|discriminate]. intros _. exists e. split; [exact I|]. split; [apply has_none, H2|]. rewrite find_put, eqb_refl_t. reflexivity.
  - intros. unfold edge_file. rewrite (proj2 (has_find out (lock_prefix ++ edge_path (e_id g' e))) H), orb_true_r. reflexivity.
Qed.
Print Assumptions C110_per_edge_refuted.
(** With flows saved as plain pickles generate_queues writes the table of C108 for
    every flow, keeps existing files and ignores lock files. *)
Theorem C110_plain_pickles_partial : forall past horizon step flows out,
  (forall id, find_file flows (flow_file id) <> None -> ~ is_lock (flow_file id) -> exists f x, find_file flows (flow_file id) = Some (PlainFlow f) /\ queue_table past horizon step (f_q f) = Ok x) ->
  exists out', generate_queues past horizon step flows out = (Completed, out') /\
    (forall id f x, find_file flows (flow_file id) = Some (PlainFlow f) -> ~ is_lock (flow_file id) -> queue_table past horizon step (f_q f) = Ok x ->
       find_file out' (id ++ t "-queues-complete.csv.gz") = kept (find_file out (id ++ t "-queues-complete.csv.gz")) x) /\
    (forall m, (forall id, find_file flows (flow_file id) <> None -> ~ is_lock (flow_file id) -> m <> id ++ t "-queues-complete.csv.gz") -> find_file out' m = find_file out m).
Proof.
  intros past horizon step flows out S.
  pose (o := fun n => without_suffix flow_suffix n ++ t "-queues-complete.csv.gz").
  assert (OF : forall id, o (flow_file id) = id ++ t "-queues-complete.csv.gz") by (intro id; unfold o, flow_file; change (t ".flow.pickle") with flow_suffix; rewrite without_app; reflexivity).
  pose (v := fun n => match load_plain flows n with inl f => match queue_table past horizon step (f_q f) with Ok q => q | Err _ => [] end | inr _ => [] end).
  assert (FN : forall n, In n (unlocked_flow_names flows) -> exists id f x, n = flow_file id /\ ~ is_lock n /\ find_file flows n = Some (PlainFlow f) /\ queue_table past horizon step (f_q f) = Ok x /\ v n = x).
  { intros n I. apply unlocked_iff in I. destruct I as [I L]. apply flow_names_iff in I. destruct I as [id [-> I]]. destruct (S id I L) as (f & q & F & Q). exists id, f, q. repeat split; auto. unfold v, load_plain. rewrite F, Q. reflexivity. }
  destruct (each_spec (plain_step (t "-queues-complete.csv.gz") (fun f => queue_table past horizon step (f_q f)) flows) o v (fun _ => True) (unlocked_flow_names flows)) with (out := out) as (out' & E & _ & F & G).
  - intros n d I _. destruct (FN n I) as (id & f & q & N & _ & FF & Q & V). unfold plain_step. fold (o n). destruct (has d (o n)) eqn:H.
    + exists d. split; [reflexivity|]. split; [exact Logic.I|]. intro m. destruct (text_eqbP m (o n)) as [->|]; [|reflexivity]. apply has_find in H. destruct (find_file d (o n)); [reflexivity|congruence].
    + unfold load_plain. rewrite FF, Q. eexists. split; [reflexivity|]. split; [exact Logic.I|]. intro m. rewrite find_put, V. apply has_none in H. rewrite H. reflexivity.
  - intros x y X Y. destruct (FN x X) as (i & f & q & -> & _ & FF & Q & V). destruct (FN y Y) as (i' & f' & q' & -> & _ & FF' & Q' & V'). rewrite !OF. intro EQ. apply app_inv_tail in EQ. subst i'. reflexivity.
  - exact Logic.I.
  - exists out'. split; [exact E|]. split.
    + intros id f x FF L Q. rewrite <- OF, F by (apply unlocked_iff; split; [apply flow_names_iff; exists id; split; [reflexivity|congruence]|exact L]). f_equal. unfold v, load_plain. rewrite FF, Q. reflexivity.
    + intros m M. apply G. intros x X. destruct (FN x X) as (id & f & q & -> & L & FF & _). rewrite OF. apply M; congruence.
Qed.
Print Assumptions C110_plain_pickles_partial.

(** The tables of different edges have different names: "edge-", the decimal number of
    the edge, ".csv.gz". *)
Lemma char_digits_inj l : forall l', (forall d, In d l -> d < 10) -> (forall d, In d l' -> d < 10) -> map (fun d => ascii_of_nat (48 + d)) l = map (fun d => ascii_of_nat (48 + d)) l' -> l = l'.
Proof.
  assert (CD : forall d, d < 10 -> nat_of_ascii (ascii_of_nat (48 + d)) = 48 + d) by (intros d L; apply nat_ascii_embedding; lia).
  induction l as [|x l IH]; intros [|y l'] DI DJ E; try discriminate E; [reflexivity|]. cbn [map] in E. assert (E1 : ascii_of_nat (48 + x) = ascii_of_nat (48 + y)) by congruence. assert (E2 : map (fun d => ascii_of_nat (48 + d)) l = map (fun d => ascii_of_nat (48 + d)) l') by congruence. clear E. f_equal.
  - apply (f_equal nat_of_ascii) in E1. rewrite !CD in E1; [lia|apply DJ; left; reflexivity|apply DI; left; reflexivity].
  - apply IH; [intros d D; apply DI; right; exact D|intros d D; apply DJ; right; exact D|exact E2].
Qed.
Theorem C110_edge_names : forall id,
  (exists ds, edge_path id = t "edge-" ++ map (fun d => ascii_of_nat (48 + d)) ds ++ t ".csv.gz" /\ value ds = id /\ forall d, In d ds -> d < 10) /\
  forall id', edge_path id = edge_path id' -> id = id'.
Proof.
  assert (D : forall id, value (py_str id) = id /\ forall d, In d (py_str id) -> d < 10) by (intro id; unfold py_str; destruct (digits_spec (S id) id ltac:(lia)) as (A & B & _); auto).
  intro id. split; [exists (py_str id); split; [reflexivity|apply D]|]. intros id' E. unfold edge_path in E. apply app_inv_head in E. apply app_inv_tail in E. apply char_digits_inj in E; [|apply D|apply D].
  rewrite <- (proj1 (D id)), <- (proj1 (D id')), E. reflexivity.
Qed.
Print Assumptions C110_edge_names.
Lemma edge_no_lock id : ~ is_lock (edge_path id).
Proof. intros [x X]. cbn in X. discriminate X. Qed.
Lemma load_all_plain flows l fs : Forall2 (fun n f => find_file flows n = Some (PlainFlow f)) l fs -> load_all (load_plain flows) l = inl fs.
Proof. induction 1 as [|n f l fs F H IH]; cbn [load_all]; [reflexivity|]. unfold load_plain at 1. rewrite F, IH. reflexivity. Qed.
(** With flows saved as plain pickles and no locks, both table writers write the tables
    of C106 and C107 (in the order of the directory listing), keep what exists, and
    remove their locks. *)
Theorem C110_plain_tables_partial : forall g past future step horizon sample_step flows out, no_locks out ->
  (forall fs x, Forall2 (fun n f => find_file flows n = Some (PlainFlow f)) (filter (ends_with (t ".flow.pickle")) (map fst flows)) fs ->
     expanded_queues g (map f_q fs) past future step horizon sample_step = Ok x ->
     exists out', expanded_file g past future step horizon sample_step flows out = (Completed, out') /\ no_locks out' /\
       forall m, find_file out' m = if text_eqb m (t "expanded_queues.csv.gz") then kept (find_file out m) (Table x) else find_file out m) /\
  (forall average fs (x : nat -> Files.table),
     Forall2 (fun n f => find_file flows n = Some (PlainFlow f)) (filter (fun n => ends_with (t ".flow.pickle") n && negb (is_prefix (t ".lock") n))%bool (map fst flows)) fs ->
     (forall e, In e (g_edges g) -> per_edge_table g (map f_q fs) past future step horizon sample_step average e = Ok (x e)) ->
     (forall e e', In e (g_edges g) -> In e' (g_edges g) -> e_id g e = e_id g e' -> e = e') ->
     exists out', edge_files g past future step horizon sample_step average flows out = (Completed, out') /\ no_locks out' /\
       (forall e, In e (g_edges g) -> find_file out' (edge_path (e_id g e)) = kept (find_file out (edge_path (e_id g e))) (Table (x e))) /\
       forall m, (forall e, In e (g_edges g) -> m <> edge_path (e_id g e)) -> find_file out' m = find_file out m).
Proof.
  intros g past future step horizon sample_step flows out LO.
  assert (ST : forall path (d : dir table_file) y, no_locks d -> ~ is_lock path ->
     let d' := if (has d path || has d (lock_prefix ++ path))%bool then d else remove_file (put_file (put_file d (lock_prefix ++ path) TableLock) path y) (lock_prefix ++ path) in
     no_locks d' /\ forall m, find_file d' m = if text_eqb m path then kept (find_file d path) y else find_file d m).
  { intros path d y L P. destruct (with_lock_spec TableLock path (fun d => (Completed, put_file d path y)) d y L P eq_refl) as (d1 & E & L1 & F). unfold with_lock in E. rewrite orb_comm in E.
    destruct (has d path || has d (lock_prefix ++ path))%bool; cbn [fst snd] in E; injection E as E; subst d1; auto. }
  split.
  - intros fs x F E. destruct (ST expanded_path out (Table x) LO) as [A B]; [intros [z Z]; cbn in Z; discriminate Z|]. unfold expanded_file. change (all_flow_names flows) with (filter (ends_with (t ".flow.pickle")) (map fst flows)).
    rewrite (load_all_plain _ _ _ F), E. cbv zeta in A, B. change (t "expanded_queues.csv.gz") with expanded_path.
    destruct (has out expanded_path || has out (lock_prefix ++ expanded_path))%bool; eexists; (split; [reflexivity|]); (split; [exact A|]); intro m; (transitivity (if text_eqb m expanded_path then kept (find_file out expanded_path) (Table x) else find_file out m); [apply B|]); destruct (text_eqbP m expanded_path) as [->|]; reflexivity.
  - intros average fs x F E J.
    destruct (each_spec (edge_file g past future step horizon sample_step average flows) (fun e => edge_path (e_id g e)) (fun e => Table (x e)) no_locks (g_edges g)) with (out := out) as (out' & R & L & H & G); [| |exact LO|exists out'; auto].
    + intros e d I LD. destruct (ST (edge_path (e_id g e)) d (Table (x e)) LD (edge_no_lock _)) as [A B]. unfold edge_file. change (unlocked_flow_names' flows) with (filter (fun n => ends_with (t ".flow.pickle") n && negb (is_prefix (t ".lock") n))%bool (map fst flows)).
      rewrite (load_all_plain _ _ _ F), (E e I). cbv zeta in A, B. destruct (has d (edge_path (e_id g e)) || has d (lock_prefix ++ edge_path (e_id g e)))%bool; eexists; (split; [reflexivity|]); auto.
    + intros e e' I I' Q. apply C110_edge_names in Q. rewrite (J e e' I I' Q). reflexivity.
Qed.
Print Assumptions C110_plain_tables_partial.

(** ** C111: the data set reads the flows in the order of their numbers *)
(** build_test_flows.py:71-72: the name of the [i]-th of [n] flows, digits as characters. *)
Definition numbered (n i : nat) : text := map (fun d => ascii_of_nat (48 + d)) (flow_id n i).
Lemma leb_refl a : text_leb a a = true.
Proof. induction a as [|x a IH]; cbn [text_leb]; [reflexivity|]. rewrite Ascii.eqb_refl. exact IH. Qed.
Lemma ascii_inj x y : nat_of_ascii x = nat_of_ascii y -> x = y.
Proof. intro E. rewrite <- (ascii_nat_embedding x), <- (ascii_nat_embedding y), E. reflexivity. Qed.
Lemma leb_anti a : forall b, text_leb a b = true -> text_leb b a = true -> a = b.
Proof.
  induction a as [|x a IH]; intros [|y b]; cbn [text_leb]; try congruence. destruct (Ascii.eqb_spec x y) as [->|N]; [rewrite Ascii.eqb_refl; intros; f_equal; auto|].
  destruct (Ascii.eqb_spec y x) as [->|_]; [congruence|]. intros A B. apply Nat.ltb_lt in A. apply Nat.ltb_lt in B. lia.
Qed.
Lemma leb_total a : forall b, text_leb a b = true \/ text_leb b a = true.
Proof.
  induction a as [|x a IH]; intros [|y b]; cbn [text_leb]; auto. destruct (Ascii.eqb_spec x y) as [->|N]; [rewrite Ascii.eqb_refl; apply IH|].
  destruct (Ascii.eqb_spec y x) as [->|_]; [congruence|]. assert (nat_of_ascii x <> nat_of_ascii y) by (intro E; apply N, ascii_inj, E). destruct (lt_eq_lt_dec (nat_of_ascii x) (nat_of_ascii y)) as [[L|L]|L]; [left|contradiction|right]; apply Nat.ltb_lt; exact L.
Qed.
Lemma leb_trans a : forall b c, text_leb a b = true -> text_leb b c = true -> text_leb a c = true.
Proof.
  induction a as [|x a IH]; intros [|y b] [|z c]; cbn [text_leb]; try congruence. destruct (Ascii.eqb_spec x y) as [->|N].
  - destruct (Ascii.eqb_spec y z) as [->|M]; [apply IH|auto].
  - destruct (Ascii.eqb_spec y z) as [->|M]; [destruct (Ascii.eqb_spec x z) as [->|_]; [congruence|auto]|].
    intros A B. apply Nat.ltb_lt in A. apply Nat.ltb_lt in B. destruct (Ascii.eqb_spec x z) as [->|_]; [lia|]. apply Nat.ltb_lt. lia.
Qed.
Definition le_t a b := text_leb a b = true.
Lemma insert_sorted x l : StronglySorted le_t l -> StronglySorted le_t (insert_name x l).
Proof.
  induction 1 as [|y l S IH F]; cbn [insert_name]; [repeat constructor|]. destruct (text_leb x y) eqn:E.
  - constructor; [constructor; assumption|]. constructor; [exact E|]. eapply Forall_impl; [|exact F]. intros z Z. eapply leb_trans; eauto.
  - constructor; [exact IH|]. rewrite Forall_forall in *. intros z Z. apply (Permutation_in _ (Permutation_sym (insert_perm x l))) in Z. destruct Z as [<-|Z]; [|apply F, Z]. destruct (leb_total x y); [congruence|assumption].
Qed.
Lemma sorted_sorted l : StronglySorted le_t (sorted_names l).
Proof. unfold sorted_names. induction l; cbn [fold_right]; [constructor|apply insert_sorted; assumption]. Qed.
Lemma sorted_unique l : forall l', Permutation l l' -> StronglySorted le_t l -> StronglySorted le_t l' -> l = l'.
Proof.
  induction l as [|x l IH]; intros l' P S S'; [apply Permutation_nil in P; congruence|]. destruct l' as [|y l']; [apply Permutation_sym, Permutation_nil in P; discriminate P|].
  apply StronglySorted_inv in S. destruct S as [S F]. apply StronglySorted_inv in S'. destruct S' as [S' F']. rewrite Forall_forall in F, F'.
  assert (x = y); [|subst y; f_equal; apply IH; auto; eapply Permutation_cons_inv; eauto].
  assert (X : In x (y :: l')) by (eapply Permutation_in; [exact P|left; reflexivity]). assert (Y : In y (x :: l)) by (eapply Permutation_in; [apply Permutation_sym, P|left; reflexivity]).
  destruct X as [X|X]; [congruence|]. destruct Y as [Y|Y]; [congruence|]. apply leb_anti; [apply F, Y|apply F', X].
Qed.
Lemma code_of_digit d : d < 10 -> nat_of_ascii (ascii_of_nat (48 + d)) = 48 + d.
Proof. intro L. apply nat_ascii_embedding. lia. Qed.
Lemma lex_leb a : forall b s, lex_lt a b -> length a = length b -> (forall d, In d a -> d < 10) -> (forall d, In d b -> d < 10) ->
  le_t (map (fun d => ascii_of_nat (48 + d)) a ++ s) (map (fun d => ascii_of_nat (48 + d)) b ++ s).
Proof.
  unfold le_t. induction a as [|x a IH]; intros [|y b] s H L DA DB; try discriminate L; [destruct H|]. cbn [map app text_leb]. cbn [lex_lt] in H.
  destruct H as [H|[-> H]].
  - destruct (Ascii.eqb_spec (ascii_of_nat (48 + x)) (ascii_of_nat (48 + y))) as [E|N].
    + apply (f_equal nat_of_ascii) in E. rewrite !code_of_digit in E; [lia|apply DB; left; reflexivity|apply DA; left; reflexivity].
    + apply Nat.ltb_lt. rewrite !code_of_digit; [lia|apply DB; left; reflexivity|apply DA; left; reflexivity].
  - rewrite Ascii.eqb_refl. apply IH; [exact H|cbn in L; lia|intros d D; apply DA; right; exact D|intros d D; apply DB; right; exact D].
Qed.
Lemma numbered_sorted n s k m : k + m <= n -> StronglySorted le_t (map (fun i => numbered n i ++ s) (seq k m)).
Proof.
  revert k. induction m as [|m IH]; intros k L; cbn [seq map]; [constructor|]. constructor; [apply IH; lia|]. rewrite Forall_forall. intros x X. apply in_map_iff in X. destruct X as (j & <- & J). apply in_seq in J.
  destruct (C92_names n k j) as (_ & LN & LX); [lia|lia|]. apply lex_leb; [apply LX; lia|exact LN|intros d; apply id_digits|intros d; apply id_digits].
Qed.
Lemma numbered_inj n i j : i < n -> j < n -> numbered n i = numbered n j -> i = j.
Proof.
  intros I J E. apply (proj1 (C92_names n i j I J)). unfold numbered in E. pose proof (id_digits n i) as DI. pose proof (id_digits n j) as DJ. revert E DI DJ. generalize (flow_id n i) (flow_id n j). clear.
  induction l as [|x l IH]; intros [|y l'] E DI DJ; try discriminate E; [reflexivity|]. cbn [map] in E. assert (E1 : ascii_of_nat (48 + x) = ascii_of_nat (48 + y)) by congruence. assert (E2 : map (fun d => ascii_of_nat (48 + d)) l = map (fun d => ascii_of_nat (48 + d)) l') by congruence. clear E. f_equal.
  - apply (f_equal nat_of_ascii) in E1. rewrite !code_of_digit in E1; [lia|apply DJ; left; reflexivity|apply DI; left; reflexivity].
  - apply IH; [exact E2|intros d D; apply DI; right; exact D|intros d D; apply DJ; right; exact D].
Qed.
Lemma map_nodup {X Z} (f : X -> Z) l : (forall i j, In i l -> In j l -> f i = f j -> i = j) -> NoDup l -> NoDup (map f l).
Proof.
  induction l as [|x l IH]; intros H N; cbn [map]; [constructor|]. inversion_clear N. constructor; [|apply IH; [intros i j I J; apply H; right; assumption|assumption]].
  intro I. apply in_map_iff in I. destruct I as (y & E & Y). apply H0. rewrite <- (H y x (or_intror Y) (or_introl eq_refl) E). exact Y.
Qed.
Lemma nodup_put {A} (d : dir A) n x : NoDup (names d) -> NoDup (names (put_file d n x)).
Proof.
  unfold names. induction d as [|[m y] d IH]; cbn [put_file map fst]; intro N; [repeat constructor; intros []|]. destruct (text_eqbP n m) as [->|NE]; [exact N|]. cbn [map fst]. inversion_clear N. constructor; [|auto].
  intro I. apply names_find in I. rewrite find_put in I. destruct (text_eqbP m n) as [->|_]; [congruence|]. apply H. apply names_find in I. exact I.
Qed.
Lemma nodup_remove {A} (d : dir A) n : NoDup (names d) -> NoDup (names (remove_file d n)).
Proof.
  unfold names. induction d as [|[m y] d IH]; cbn [remove_file filter map fst]; intro N; [constructor|]. inversion_clear N. fold (remove_file d n). destruct (text_eqb n m); cbn [negb]; [auto|]. cbn [map fst]. constructor; [|auto].
  intro I. apply (proj1 (names_find (remove_file d n) m)) in I. rewrite find_remove in I. destruct (text_eqb m n); [congruence|]. apply H. apply names_find in I. exact I.
Qed.
Lemma loop_nodup past h r pi flows l : forall out, NoDup (names out) -> NoDup (names (snd (each (data_step past h r pi flows) l out))).
Proof.
  induction l as [|n l IH]; intros out N; cbn [each]; [exact N|].
  assert (S : NoDup (names (snd (data_step past h r pi flows n out)))).
  { unfold data_step, with_lock. destruct (_ || _)%bool; [exact N|]. cbn [snd]. apply nodup_remove. destruct (load_gz flows n); [|apply nodup_put, N]. destruct (save_flow past h r pi f); cbn [snd]; [apply nodup_put|]; apply nodup_put, N. }
  destruct (data_step past h r pi flows n out) as [[| |] d]; cbn [snd] in *; auto.
Qed.
(** From the [n] flows of build_flows (named by their numbers; other files, such as
    drawings, are ignored) to the data set: it is built from the samples of the flows,
    each once, in the order of their numbers. *)
Theorem C111_order : forall n past future h r pi nedges flows (fl : nat -> Flow) (q : nat -> qfile), r <> 0%Qc ->
  (exists k : Z, (qabs (qz k - pi / r) <= Q2Qc (1 # 100000000000000))%Qc) ->
  (forall i, i < n -> find_file flows (flow_file (numbered n i)) = Some (GzFlow (fl i)) /\ save_flow past h r pi (fl i) = Ok (q i)) ->
  (forall x, find_file flows (flow_file x) <> None -> exists i, i < n /\ x = numbered n i) -> no_locks flows ->
  exists out', generate_data past h r pi flows [] = (Completed, out') /\
    read_arrays out' = inl (map q (seq 0 n)) /\
    dataset_of past future r pi h nedges out' = of_res (ds_init past future r pi h nedges (map q (seq 0 n))).
Proof.
  intros n past future h r pi nedges flows fl q R K H O LF.
  assert (S : savable past h r pi flows) by (intros x X; destruct (O x X) as (i & I & ->); destruct (H i I); eauto).
  destruct (loop_completes past h r pi flows [] S LF) as (out' & E & L & F & G & _); [intros m []|].
  exists out'. assert (ND : NoDup (names out')) by (replace out' with (snd (each (data_step past h r pi flows) (sorted_names (all_flow_names flows)) [])) by (rewrite E; reflexivity); apply loop_nodup; constructor).
  assert (NM : sorted_names (names out') = map (fun i => array_file (numbered n i)) (seq 0 n)).
  { apply sorted_unique; [|apply sorted_sorted|apply (numbered_sorted n (t "-queues-and-edge-loads.npy") 0 n); lia]. transitivity (names out'); [symmetry; apply sorted_perm|].
    apply NoDup_Permutation; [exact ND| |].
    - apply map_nodup; [|apply seq_NoDup]. intros i j I J Q. apply in_seq in I. apply in_seq in J. unfold array_file in Q. apply app_inv_tail in Q. apply (numbered_inj n i j); [lia|lia|exact Q].
    - intro m. rewrite names_find, in_map_iff. split.
      + intro M. destruct (in_dec (list_eq_dec ascii_dec) m (map (fun i => array_file (numbered n i)) (seq 0 n))) as [I|I]; [apply in_map_iff, I|]. exfalso. apply M. rewrite G; [reflexivity|].
        intros x X Q. destruct (O x X) as (i & LT & ->). apply I. rewrite Q. apply (in_map (fun i => array_file (numbered n i))). apply in_seq. lia.
      + intros (i & <- & I). apply in_seq in I. destruct (H i) as [H1 H2]; [lia|]. rewrite (F _ _ _ H1 H2). discriminate. }
  assert (RA : read_arrays out' = inl (map q (seq 0 n))).
  { unfold read_arrays. rewrite NM. assert (Z : forall l, (forall i, In i l -> i < n) -> fold_right (fun m r => match r, find_file out' m with inr w, Some (Data _) => inr w | inl l, Some (Data x) => inl (x :: l) | _, _ => inr Unreadable end) (inl []) (map (fun i => array_file (numbered n i)) l) = inl (map q l)).
    { induction l as [|i l IH]; intro B; cbn [map fold_right]; [reflexivity|]. rewrite IH by (intros j J; apply B; right; exact J). destruct (H i) as [H1 H2]; [apply B; left; reflexivity|]. rewrite (F _ _ _ H1 H2). reflexivity. }
    apply Z. intros i I. apply in_seq in I. lia. }
  split; [|split; [exact RA|unfold dataset_of; rewrite RA; reflexivity]].
  unfold generate_data. rewrite pydiv_ok by exact R. apply near_round in K. rewrite K. cbv zeta. rewrite E. cbn [fst snd]. rewrite (waits_none out' L). reflexivity.
Qed.
Print Assumptions C111_order.
(** REFUTED: every file of the folder is read as an array: a lock left behind, or any
    other stray file, makes building the data set raise. *)
Theorem C111_stray_refuted : forall past future r pi h nedges out n, find_file out n = Some LockFile \/ find_file out n = Some NoData ->
  dataset_of past future r pi h nedges out = inr Unreadable.
Proof.
  intros past future r pi h nedges out n H. unfold dataset_of. replace (read_arrays out) with (@inr (list qfile) fault Unreadable); [reflexivity|]. symmetry. unfold read_arrays.
  assert (I : In n (sorted_names (names out))) by (apply in_sorted, names_find; destruct H as [-> | ->]; discriminate).
  assert (W : forall l, (exists x, fold_right (fun m r => match r, find_file out m with inr w, Some (Data _) => inr w | inl l, Some (Data x) => inl (x :: l) | _, _ => inr Unreadable end) (inl []) l = inl x) \/ fold_right (fun m r => match r, find_file out m with inr w, Some (Data _) => inr w | inl l, Some (Data x) => inl (x :: l) | _, _ => inr Unreadable end) (inl []) l = @inr (list qfile) fault Unreadable).
  { induction l as [|m l [[x IH]|IH]]; cbn [fold_right]; [left; eauto| |]; rewrite IH; destruct (find_file out m) as [[|y|]|]; eauto. }
  revert I. induction (sorted_names (names out)) as [|m l IH]; intros []; cbn [fold_right].
  - subst m. destruct (W l) as [[x ->]| ->]; destruct H as [-> | ->]; reflexivity.
  - rewrite (IH H0). destruct (find_file out m) as [[|y|]|]; reflexivity.
Qed.
Print Assumptions C111_stray_refuted.

(** Non-vacuity: two flows of a run, a drawing and no locks. *)
Definition two_flows (st : Flow) : dir entry := [(t "1.flow.pickle", GzFlow st); (t "0.flow.pickle.json", OtherFile); (t "0.flow.pickle", GzFlow st)].
Example C109_example : match flow_run false ds_net ds_calls with
  | Ok st => match generate_data 2 (qz 5) 1 1 (two_flows st) [] with
             | (Completed, [(a, Data _); (b, Data _)] as out) => text_eqb a (t "0-queues-and-edge-loads.npy") && text_eqb b (t "1-queues-and-edge-loads.npy") && match read_arrays out with inl [_; _] => true | _ => false end
             | _ => false end
  | Err _ => false end = true.
Proof. vm_compute. reflexivity. Qed.
Example C111_names : numbered 2 0 = t "0" /\ numbered 2 1 = t "1" /\ numbered 11 3 = t "03". Proof. vm_compute. auto. Qed.
Example C110_example : match flow_run false ds_net ds_calls with
  | Ok st => match generate_queues 1 4 2 (two_flows st) [], expanded_file (w_graph nw_empty) 1 1 1 4 1 (two_flows st) [] with
             | (Fails Unreadable, []), (Fails Unreadable, [(l, TableLock)]) => text_eqb l (t ".lock.expanded_queues.csv.gz") | _, _ => false end
  | Err _ => false end = true.
Proof. vm_compute. reflexivity. Qed.
(** The same flows as plain pickles are read. *)
Example C110_plain_example : match flow_run false ds_net ds_calls with
  | Ok st => match generate_queues 1 4 2 [(t "0.flow.pickle", PlainFlow st); (t ".lock.1.flow.pickle", EmptyFile)] [] with
             | (Completed, [(l, _)]) => text_eqb l (t "0-queues-complete.csv.gz") | _ => false end
  | Err _ => false end = true.
Proof. vm_compute. reflexivity. Qed.
