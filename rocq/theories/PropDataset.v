(** * C57, C71: training samples (src/ml/QueueAndEdgeLoadsDataset.py,
      src/ml/generate_queues.py) *)
From Coq Require Import Qround.
From Verif Require Import Base Spec Arrays ArraysProofs PL PLProofs PLEval RC FRC DynFlow DynRun DynFlowProofs PropFlow PropFlow2 Graph Dijkstra FlowBuilder Neighbors Predictors PredictorsProofs PredictorsProofs2 PropPredictors PropPredictors2 PropPredictors3 Eval PropEval2 Dataset.

(** ** Vocabulary *)
(** A recorded flow over [nedges] edges with its edge loads: queues and loads
    are functions on the whole line (every clean run, see run_lines and C66). *)
Record recorded (nedges : nat) (p : Flow * list PL) : Prop := {
  rec_q : lines (fst p); rec_loads : get_edge_loads (fst p) = Ok (snd p); rec_l : Forall line (snd p);
  rec_len : length (f_q (fst p)) = nedges; rec_llen : length (snd p) = nedges }.
(** [row]: the queues of the output edges at phi + step, ..., phi + future*step. *)
Definition is_target (step : Qc) (future : nat) (mask : list bool) (phi : Qc) (queues : list PL) (row : list Qc) : Prop :=
  map Ok row = flat_map (fun q => map (fun k => pl_eval q (phi + qn (S k) * step)) (seq 0 future)) (chosen mask queues).
(** The mask after [use_additional_..._mask]. *)
Definition restricted (mask : list bool) (additional : option (list bool)) : list bool :=
  match additional with None => mask | Some a => map (fun p => fst p && snd p)%bool (combine mask a) end.
Definition fits_edges (nedges : nat) (additional : option (list bool)) : Prop :=
  match additional with None => True | Some a => length a = nedges end.

(** ** Integers *)
Lemma zrange_in a b x : In x (zrange a b) <-> (a <= x < b)%Z.
Proof.
  unfold zrange. rewrite in_map_iff. split.
  - intros [i [<- I]]. apply in_seq in I. lia.
  - intro H. exists (Z.to_nat (x - a)). split; [lia|]. apply in_seq. lia.
Qed.
Lemma zrange_length a b : length (zrange a b) = Z.to_nat (b - a).
Proof. unfold zrange. rewrite map_length, seq_length. reflexivity. Qed.
Lemma zrange_nth a b i d : (0 <= i < b - a)%Z -> nth (Z.to_nat i) (zrange a b) d = (a + i)%Z.
Proof.
  intro H. unfold zrange. rewrite (nth_indep _ d (a + Z.of_nat 0)%Z) by (rewrite map_length, seq_length; lia).
  rewrite (map_nth (fun i => (a + Z.of_nat i)%Z)). rewrite seq_nth by lia. lia.
Qed.
Lemma zrange_sorted a b : StronglySorted Z.lt (zrange a b).
Proof.
  unfold zrange. generalize 0%nat. induction (Z.to_nat (b - a)) as [|n IH]; intro k; cbn [seq map]; constructor; [apply IH|].
  apply Forall_forall. intros x I. apply in_map_iff in I. destruct I as [j [<- J]]. apply in_seq in J. lia.
Qed.
Lemma filter_sorted {A} (R : A -> A -> Prop) b l : StronglySorted R l -> StronglySorted R (filter b l).
Proof.
  intro S. induction S as [|x l S IH F]; cbn [filter]; [constructor|]. destruct (b x); [|exact IH]. constructor; [exact IH|].
  rewrite Forall_forall in *. intros y I. apply filter_In in I. apply F, I.
Qed.
Lemma sorted_ext : forall l l' : list Z, StronglySorted Z.lt l -> StronglySorted Z.lt l' -> (forall x, In x l <-> In x l') -> l = l'.
Proof.
  induction l as [|x l IH]; intros [|y l'] S S' E; [reflexivity|destruct (proj2 (E y)); left; reflexivity|destruct (proj1 (E x)); left; reflexivity|].
  inversion S as [|? ? S1 F1]; inversion S' as [|? ? S2 F2]; subst. rewrite Forall_forall in F1, F2.
  assert (x = y). { destruct (proj1 (E x) ltac:(left; reflexivity)) as [|I]; [congruence|]. destruct (proj2 (E y) ltac:(left; reflexivity)) as [|J]; [congruence|]. specialize (F1 y J). specialize (F2 x I). lia. }
  subst y. f_equal. apply IH; [assumption|assumption|]. intro z. split; intro I.
  - destruct (proj1 (E z) (or_intror I)) as [<-|]; [specialize (F1 x I); lia|assumption].
  - destruct (proj2 (E z) (or_intror I)) as [<-|]; [specialize (F2 x I); lia|assumption].
Qed.
Lemma strided_ok row a s n : (0 <= a)%Z -> (0 < s)%Z -> (0 <= a + (Z.of_nat n - 1) * s + 1)%Z -> (a + (Z.of_nat n - 1) * s + 1 <= zlen row)%Z ->
  strided row a (a + (Z.of_nat n - 1) * s + 1) s = Ok (map (fun k => nth (Z.to_nat (a + Z.of_nat k * s)) row 0) (seq 0 n)).
Proof.
  intros A S B L. unfold strided. destruct (Z.eqb_spec s 0); [lia|]. destruct (Z.ltb_spec a 0); [lia|]. destruct (Z.ltb_spec (a + (Z.of_nat n - 1) * s + 1) 0); [lia|]. destruct (Z.ltb_spec s 0); [lia|].
  cbn [orb]. f_equal. rewrite Z.min_l by exact L. rewrite <- (map_map (fun k => (a + Z.of_nat k * s)%Z) (fun i => nth (Z.to_nat i) row 0)). f_equal.
  apply sorted_ext.
  - apply filter_sorted, zrange_sorted.
  - generalize 0%nat as k. clear B L H0. induction n as [|n IH]; intro k; cbn [seq map]; constructor; [apply IH|]. apply Forall_forall. intros x I. apply in_map_iff in I. destruct I as [j [<- J]]. apply in_seq in J. nia.
  - intro x. rewrite filter_In, zrange_in, in_map_iff. split.
    + intros [R M]. apply Z.eqb_eq in M. assert (E : (x - a = s * ((x - a) / s))%Z) by (rewrite (Z.div_mod (x - a) s) at 1 by lia; lia).
      set (q := ((x - a) / s)%Z) in *. assert (0 <= q)%Z by nia. exists (Z.to_nat q). split; [rewrite Z2Nat.id by lia; lia|]. apply in_seq. assert (q <= Z.of_nat n - 1)%Z by nia. lia.
    + intros [k [<- I]]. apply in_seq in I. split; [nia|]. apply Z.eqb_eq. replace (a + Z.of_nat k * s - a)%Z with (Z.of_nat k * s)%Z by lia. apply Z.mod_mul. lia.
Qed.

Lemma qz_this k : this (qz k) == inject_Z k.
Proof. unfold qz. cbn [this Q2Qc]. apply Qred_correct. Qed.
Lemma floor_qz k : Qfloor (this (qz k)) = k.
Proof. rewrite (Qfloor_comp _ _ (qz_this k)). apply Qfloor_Z. Qed.
Lemma round_qz k : py_round (qz k) = k.
Proof. unfold py_round. rewrite floor_qz. replace (qz k - qz k) with 0 by ring. change (qltb 0 (Q2Qc (1#2))) with true. reflexivity. Qed.
Lemma qz_plus a b : qz (a + b) = qz a + qz b.
Proof. replace (a + b)%Z with (a - (0 - b))%Z by lia. rewrite !qz_sub. change (qz 0) with 0. ring. Qed.
Lemma qz_mult a b : qz (a * b) = qz a * qz b.
Proof. unfold qz. apply Qc_is_canon. unfold Qcmult. cbn [this Q2Qc]. repeat rewrite Qred_correct. rewrite <- inject_Z_mult. reflexivity. Qed.
Lemma qz_le a b : (a <= b)%Z -> qz a <= qz b.
Proof. intro H. unfold Qcle. rewrite !qz_this. rewrite <- Zle_Qle. exact H. Qed.

(** ** What is saved *)
Section Saved.
Variables (past : nat) (k : Z) (r h : Qc) (nedges : nat).
Hypothesis R0 : 0 < r.
Definition first_i : Z := (- (Z.of_nat past - 1) * k)%Z.
Definition last_i : Z := Qfloor (this (h / r)).
Definition stimes : list Qc := map (fun i => qz i * r) (zrange first_i (last_i + 1)).
Lemma r_ne : r <> 0. Proof. intro; subst; apply Qclt_not_eq in R0; congruence. Qed.
Lemma times_ok : sample_times past k h r = Ok stimes.
Proof. unfold sample_times. rewrite pydiv_ok by exact r_ne. reflexivity. Qed.
Lemma stimes_sorted : nondecreasing stimes.
Proof.
  unfold stimes. pose proof (zrange_sorted first_i (last_i + 1)) as S. induction S as [|x l S IH F]; cbn [map]; constructor; [exact IH|].
  rewrite Forall_forall in *. intros y I. apply in_map_iff in I. destruct I as [z [<- J]]. specialize (F z J). assert (qz x <= qz z) by (apply qz_le; lia). qnra.
Qed.
Lemma intervals_ok : intervals (qz k * r) r = Ok k.
Proof. unfold intervals. rewrite pydiv_ok by exact r_ne. cbn [bind]. replace (qz k * r / r) with (qz k) by (field; exact r_ne). rewrite round_qz. reflexivity. Qed.
Definition saved (p : Flow * list PL) : qfile := (map (fun f => map (pl_at f) stimes) (f_q (fst p)), map (fun f => map (pl_at f) stimes) (snd p)).
Lemma save_ok p : recorded nedges p -> save_flow past h r (qz k * r) (fst p) = Ok (saved p).
Proof.
  intros [Q1 Q2 Q3 Q4 Q5]. unfold save_flow. rewrite intervals_ok. cbn [bind]. rewrite pydiv_ok by exact r_ne. cbn [bind]. replace (qz k * r / r) with (qz k) by (field; exact r_ne).
  replace (qz k - qz k) with 0 by ring. change (qltb (Q2Qc (1 # 100000000000000)) (qabs 0)) with false. cbn match. rewrite times_ok. cbn [bind]. rewrite Q2. cbn [bind]. rewrite Forall_forall in Q3.
  rewrite !(mapM_map (fun f => eval_sorted_array f stimes) (fun f => map (pl_at f) stimes)).
  - cbn [bind]. rewrite !map_length, Q4, Q5, Nat.eqb_refl. reflexivity.
  - intros f I. apply eval_sorted_line; [apply Q1, I|apply stimes_sorted].
  - intros f I. apply eval_sorted_line; [apply Q3, I|apply stimes_sorted].
Qed.
Lemma saved_nth f j : (0 <= j < last_i + 1 - first_i)%Z -> nth (Z.to_nat j) (map (pl_at f) stimes) 0 = pl_at f (qz (first_i + j) * r).
Proof.
  intro J. rewrite (nth_indep _ 0 (pl_at f 0)) by (unfold stimes; rewrite !map_length, zrange_length; lia). rewrite map_nth. f_equal.
  unfold stimes. rewrite (nth_indep _ 0 (qz 0 * r)) by (rewrite map_length, zrange_length; lia). rewrite (map_nth (fun i => qz i * r)). rewrite zrange_nth by exact J. reflexivity.
Qed.
Lemma saved_shape p : recorded nedges p -> good_shape nedges (length stimes) (saved p) = true.
Proof.
  intros [Q1 Q2 Q3 Q4 Q5]. unfold good_shape, saved. cbn [fst snd]. rewrite !map_length, Q4, Q5, Nat.eqb_refl. cbn [andb].
  apply andb_true_intro. split; apply forallb_forall; intros x I; apply in_map_iff in I; destruct I as [f [<- _]]; rewrite map_length; apply Nat.eqb_refl.
Qed.
End Saved.

(** ** Masks *)
Lemma row_max_spec row : forall m, m <= row_max m row /\ (forall x, In x row -> x <= row_max m row) /\ (row_max m row = m \/ In (row_max m row) row).
Proof.
  unfold row_max. induction row as [|y row IH]; intro m; cbn [fold_left]; [split; [qlra|split; [intros x []|left; reflexivity]]|].
  destruct (IH (qmax m y)) as (I1 & I2 & I3). pose proof (qmax_spec m y) as QS.
  assert (M1 : m <= qmax m y) by (destruct QS as [[? E]|[? E]]; rewrite E; qlra).
  assert (M2 : y <= qmax m y) by (destruct QS as [[? E]|[? E]]; rewrite E; qlra).
  split; [qlra|]. split; [intros x [<-|X]; [qlra|apply I2, X]|]. destruct I3 as [I3|I3]; [|right; right; exact I3].
  rewrite I3. destruct QS as [[? E]|[? E]]; rewrite E; auto. right. left. reflexivity.
Qed.
Lemma row_max_pos row m : 0 < row_max m row <-> 0 < m \/ exists x, In x row /\ 0 < x.
Proof.
  destruct (row_max_spec row m) as (I1 & I2 & I3). split.
  - intro P. destruct I3 as [E|I]; [left; congruence|right; eauto].
  - intros [P|[x [I P]]]; [qlra|]. specialize (I2 x I). qlra.
Qed.
Definition edge_values (loads : bool) (e : nat) (f : qfile) : list Qc := nth e (fst f) [] ++ (if loads then nth e (snd f) [] else []).
Lemma upd_spec (loads : bool) (mx : list Qc) f n : length mx = n -> length (fst f) = n -> length (snd f) = n ->
  length ((if loads then upd_data else upd_queue) mx f) = n /\
  forall e, (e < n)%nat -> (0 < nth e ((if loads then upd_data else upd_queue) mx f) 0 <-> 0 < nth e mx 0 \/ exists x, In x (edge_values loads e f) /\ 0 < x).
Proof.
  intros L1 L2 L3. destruct loads; unfold upd_data, upd_queue, edge_values.
  - split; [rewrite map_length, !combine_length; lia|]. intros e E. set (g := fun p : Qc * (list Qc * list Qc) => row_max (row_max (fst p) (fst (snd p))) (snd (snd p))).
    rewrite (nth_indep _ 0 (g (0, ([], [])))) by (rewrite map_length, !combine_length; lia). rewrite (map_nth g). rewrite combine_nth by (rewrite combine_length; lia). rewrite combine_nth by lia.
    unfold g. cbn [fst snd]. rewrite !row_max_pos. setoid_rewrite in_app_iff. split.
    + intros [[P|[x [I P]]]|[x [I P]]]; eauto 6.
    + intros [P|[x [[I|I] P]]]; eauto 6.
  - split; [rewrite map_length, !combine_length; lia|]. intros e E. set (g := fun p : Qc * list Qc => row_max (fst p) (snd p)).
    rewrite (nth_indep _ 0 (g (0, []))) by (rewrite map_length, !combine_length; lia). rewrite (map_nth g). rewrite combine_nth by lia.
    unfold g. cbn [fst snd]. rewrite row_max_pos, app_nil_r. tauto.
Qed.
Lemma fold_upd_spec (loads : bool) n : forall files mx, length mx = n -> (forall f, In f files -> length (fst f) = n /\ length (snd f) = n) ->
  length (fold_left (if loads then upd_data else upd_queue) files mx) = n /\
  forall e, (e < n)%nat -> (0 < nth e (fold_left (if loads then upd_data else upd_queue) files mx) 0 <->
    0 < nth e mx 0 \/ exists f x, In f files /\ In x (edge_values loads e f) /\ 0 < x).
Proof.
  induction files as [|f files IH]; intros mx L F; cbn [fold_left].
  - split; [exact L|]. intros e _. split; [auto|]. intros [P|[f [x [[] _]]]]. exact P.
  - destruct (F f ltac:(left; reflexivity)) as [F1 F2]. destruct (upd_spec loads mx f n L F1 F2) as [U1 U2].
    destruct (IH _ U1 (fun g I => F g (or_intror I))) as [I1 I2]. split; [exact I1|]. intros e E. rewrite (I2 e E), (U2 e E). split.
    + intros [[P|[x [I P]]]|[g [x [I P]]]]; [left; exact P|right; exists f, x; split; [left; reflexivity|auto]|right; exists g, x; split; [right; exact I|exact P]].
    + intros [P|[g [x [[<-|I] P]]]]; [auto|left; right; exists x; exact P|right; exists g, x; auto].
Qed.
Lemma good_shape_len n m f : good_shape n m f = true -> length (fst f) = n /\ length (snd f) = n.
Proof. unfold good_shape. rewrite !andb_true_iff. intros [[[A B] _] _]. apply Nat.eqb_eq in A, B. auto. Qed.
Lemma ds_init_inv past future r pi h n files D : ds_init past future r pi h n files = Ok D ->
  exists stride times, intervals pi r = Ok stride /\ sample_times past stride h r = Ok times /\ files <> [] /\ (forall f, In f files -> good_shape n (length times) f = true) /\
    D = mkDs past future r stride files (map (fun v => qltb 0 v) (fold_left upd_data files (repeat 0 n))) (map (fun v => qltb 0 v) (fold_left upd_queue files (repeat 0 n)))
            (Z.of_nat (length times) - stride * (Z.of_nat past + Z.of_nat future))%Z.
Proof.
  unfold ds_init. intro H. apply bind_ok in H. destruct H as [stride [E1 H]]. apply bind_ok in H. destruct H as [times [E2 H]]. exists stride, times. split; [exact E1|]. split; [exact E2|].
  destruct files as [|f files]; [discriminate H|]. split; [discriminate|]. destruct (forallb _ _) eqn:FA; cbn [negb] in H; [|discriminate H]. destruct (length times =? 0)%nat; [discriminate H|]. apply ok_inj in H.
  split; [apply forallb_forall, FA|congruence].
Qed.
(** No files, a file of the wrong shape, or no sampling time at all: ValueError. *)
Theorem C57_rejects : forall past future r pi h n files stride times, intervals pi r = Ok stride -> sample_times past stride h r = Ok times ->
  files = [] \/ (exists f, In f files /\ (length (fst f) <> n \/ length (snd f) <> n \/ exists row, In row (fst f ++ snd f) /\ length row <> length times)) \/ times = [] ->
  ds_init past future r pi h n files = Err ValueError.
Proof.
  intros past future r pi h n files stride times E1 E2 H. unfold ds_init. rewrite E1. cbn [bind]. rewrite E2. cbn [bind]. destruct files as [|f0 fs]; [reflexivity|].
  destruct (forallb (good_shape n (length times)) (f0 :: fs)) eqn:G; cbn [negb]; [|reflexivity]. destruct H as [H|[[f [I H]]|H]]; [discriminate H| |subst times; reflexivity]. exfalso.
  rewrite forallb_forall in G. specialize (G f I). unfold good_shape in G. rewrite !andb_true_iff, !forallb_forall in G. destruct G as [[[G1 G2] G3] G4]. apply Nat.eqb_eq in G1, G2.
  destruct H as [H|[H|[row [R H]]]]; [auto|auto|]. apply H, Nat.eqb_eq. apply in_app_iff in R. destruct R as [R|R]; [apply G3, R|apply G4, R].
Qed.
Print Assumptions C57_rejects.
(** The case is real, and every case of success satisfies none of the three. *)
Example C57_rejects_example : ds_init 2 1 (qr 1 2) 1 (qz 6) 2 [] = Err ValueError /\ ds_init 2 1 (qr 1 2) 1 (qz 6) 2 [([[0]], [[0]])] = Err ValueError.
Proof. split; vm_compute; reflexivity. Qed.
(** The input mask selects the edges with a positive queue or load sample in
    some file, the output mask those with a positive queue sample: so every
    output edge is an input edge, as the predictors need (C54). *)
Theorem C57_masks : forall past future r pi h n files D, ds_init past future r pi h n files = Ok D ->
  length (ds_in D) = n /\ length (ds_out D) = n /\
  forall e, (e < n)%nat ->
    (nth e (ds_in D) false = true <-> exists f x, In f files /\ (In x (nth e (fst f) []) \/ In x (nth e (snd f) [])) /\ 0 < x) /\
    (nth e (ds_out D) false = true <-> exists f x, In f files /\ In x (nth e (fst f) []) /\ 0 < x) /\
    (nth e (ds_out D) false = true -> nth e (ds_in D) false = true).
Proof.
  intros past future r pi h n files D H. destruct (ds_init_inv _ _ _ _ _ _ _ _ H) as (stride & times & _ & _ & _ & GS & ->). cbn [ds_in ds_out].
  assert (GL : forall f, In f files -> length (fst f) = n /\ length (snd f) = n) by (intros f I; eapply good_shape_len, GS, I).
  destruct (fold_upd_spec true n files (repeat 0 n) (repeat_length _ _) GL) as [A1 A2]. destruct (fold_upd_spec false n files (repeat 0 n) (repeat_length _ _) GL) as [B1 B2]. cbv match in *.
  rewrite !map_length. split; [exact A1|]. split; [exact B1|]. intros e E.
  assert (Z : nth e (repeat 0 n) 0 = 0) by (apply nth_repeat).
  assert (MN : forall l, length l = n -> (nth e (map (fun v => qltb 0 v) l) false = true <-> 0 < nth e l 0)).
  { intros l L. change false with (qltb 0 0) at 1. rewrite (map_nth (fun v => qltb 0 v)). destruct (qltbP 0 (nth e l 0)); split; congruence. }
  assert (I : nth e (map (fun v => qltb 0 v) (fold_left upd_data files (repeat 0 n))) false = true <-> exists f x, In f files /\ (In x (nth e (fst f) []) \/ In x (nth e (snd f) [])) /\ 0 < x).
  { rewrite (MN _ A1), (A2 e E), Z. unfold edge_values. setoid_rewrite in_app_iff. split; [intros [C|X]; [exfalso; qlra|exact X]|auto]. }
  assert (O : nth e (map (fun v => qltb 0 v) (fold_left upd_queue files (repeat 0 n))) false = true <-> exists f x, In f files /\ In x (nth e (fst f) []) /\ 0 < x).
  { rewrite (MN _ B1), (B2 e E), Z. unfold edge_values. setoid_rewrite app_nil_r. split; [intros [C|X]; [exfalso; qlra|exact X]|auto]. }
  split; [exact I|]. split; [exact O|]. rewrite I, O. intros (f & x & F & X & P). exists f, x. auto.
Qed.
Print Assumptions C57_masks.

(** ** C57 *)
Lemma masked_ok {A} mask (rows : list A) : length mask = length rows -> masked mask rows = Ok (chosen mask rows).
Proof. intro L. unfold masked, chosen. rewrite L, Nat.eqb_refl. reflexivity. Qed.
Lemma with_additional_ok mask add n : length mask = n -> fits_edges n add -> with_additional mask add = Ok (restricted mask add) /\ length (restricted mask add) = n.
Proof.
  intros L F. destruct add as [a|]; cbn [with_additional restricted fits_edges] in *; [|auto]. rewrite L, F, Nat.eqb_refl. split; [reflexivity|]. rewrite map_length, combine_length. lia.
Qed.
Theorem C57_sample : forall past future r h k nedges flows files D add_in add_out L index,
  0 < r -> (0 < k)%Z -> (0 < past)%nat ->
  Forall (recorded nedges) flows -> mapM (fun p => save_flow past h r (qz k * r) (fst p)) flows = Ok files ->
  ds_init past future r (qz k * r) h nedges files = Ok D ->
  fits_edges nedges add_in -> fits_edges nedges add_out -> l_past L = past -> l_step L = qz k * r ->
  (0 <= index < ds_len D)%Z ->
  exists st loads j s x y, ds_get D add_in add_out index = Ok (x, y) /\
    nth_error flows j = Some (st, loads) /\ (0 <= s < ds_samples D)%Z /\ index = (Z.of_nat j * ds_samples D + s)%Z /\
    let phi := qz s * r in
    is_input L (restricted (ds_in D) add_in) phi (f_q st) loads x /\
    is_target (l_step L) future (restricted (ds_out D) add_out) phi (f_q st) y /\
    0 <= phi /\ phi + qn (S future) * l_step L <= h.
Proof.
  intros past future r h k n flows files D add_in add_out L index R0 K0 P0 RF SV DI FI FO LP LS IX. rewrite Forall_forall in RF.
  assert (FS : files = map (saved past k r h) flows).
  { rewrite (mapM_map _ (saved past k r h)) in SV by (intros p I; apply (save_ok past k r h n R0 p), RF, I). apply ok_inj in SV. congruence. }
  destruct (C57_masks _ _ _ _ _ _ _ _ DI) as (ML1 & ML2 & _).
  destruct (ds_init_inv _ _ _ _ _ _ _ _ DI) as (stride & times & E1 & E2 & NE & GS & ED).
  rewrite (intervals_ok k r R0) in E1. apply ok_inj in E1. subst stride. rewrite (times_ok past k r h R0) in E2. apply ok_inj in E2. subst times.
  set (i0 := first_i past k). set (i1 := last_i r h).
  assert (TL : length (stimes past k r h) = Z.to_nat (i1 + 1 - i0)) by (unfold stimes; rewrite map_length, zrange_length; reflexivity).
  destruct (with_additional_ok (ds_in D) add_in n ML1 FI) as [W1 W2]. destruct (with_additional_ok (ds_out D) add_out n ML2 FO) as [W3 W4].
  set (imask := restricted (ds_in D) add_in) in *. set (omask := restricted (ds_out D) add_out) in *.
  assert (SP : ds_samples D = (Z.of_nat (length (stimes past k r h)) - k * (Z.of_nat past + Z.of_nat future))%Z) by (rewrite ED; reflexivity).
  assert (DD : ds_data D = files) by (rewrite ED; reflexivity). assert (DP : ds_past D = past) by (rewrite ED; reflexivity). assert (DF : ds_future D = future) by (rewrite ED; reflexivity).
  assert (DS : ds_stride D = k) by (rewrite ED; reflexivity). assert (DR : ds_reroute D = r) by (rewrite ED; reflexivity). clear ED.
  unfold ds_len in IX. rewrite DD in IX. set (spf := ds_samples D) in *.
  assert (SPP : (0 < spf)%Z) by nia.
  set (j := Z.to_nat (index / spf)). set (s := (index mod spf)%Z).
  assert (Sr : (0 <= s < spf)%Z) by (apply Z.mod_pos_bound; exact SPP).
  assert (Jr : (0 <= index / spf < Z.of_nat (length files))%Z). { split; [apply Z.div_pos; lia|]. apply Z.div_lt_upper_bound; lia. }
  assert (IE : index = (Z.of_nat j * spf + s)%Z). { unfold j, s. rewrite Z2Nat.id by lia. rewrite (Z.div_mod index spf) at 1 by lia. lia. }
  assert (JL : (j < length flows)%nat). { rewrite FS, map_length in Jr. unfold j. lia. }
  destruct (nth_error flows j) as [[st loads]|] eqn:NJ; [|apply nth_error_None in NJ; lia].
  destruct (RF _ (nth_error_In _ _ NJ)) as [Q1 Q2 Q3 Q4 Q5]. cbn [fst snd] in *.
  assert (GD : pyget files (index / spf) = Ok (saved past k r h (st, loads))).
  { rewrite (pyget_Z files (index / spf) (saved past k r h (st, loads))) by exact Jr. fold j. rewrite FS, map_nth. erewrite nth_error_nth; [reflexivity|exact NJ]. }
  assert (TZ : (spf + k * (Z.of_nat past + Z.of_nat future) = i1 + 1 - i0)%Z) by lia.
  assert (LEN : forall f, zlen (map (pl_at f) (stimes past k r h)) = (i1 + 1 - i0)%Z) by (intro f; unfold zlen; rewrite map_length, TL; nia).
  assert (I0 : i0 = (- (Z.of_nat past - 1) * k)%Z) by reflexivity.
  set (phi := qz s * r).
  assert (WIN : forall f, strided (map (pl_at f) (stimes past k r h)) s (s + (Z.of_nat past - 1) * k + 1) k = Ok (map (pl_at f) (input_times L phi))).
  { intro f. rewrite strided_ok; [|lia|exact K0|nia|rewrite LEN; nia]. f_equal. rewrite input_times_history. unfold history. rewrite map_map, LP. apply map_ext_in. intros m M. apply in_seq in M.
    rewrite saved_nth by (fold i0 i1; nia). f_equal. fold i0. rewrite I0. rewrite LS. unfold phi.
    replace (- (Z.of_nat past - 1) * k + (s + Z.of_nat m * k))%Z with (s - Z.of_nat (past - 1 - m) * k)%Z by nia. rewrite qz_sub, qz_mult, qz_of_nat. ring. }
  assert (FUT : forall f, strided (map (pl_at f) (stimes past k r h)) (s + (Z.of_nat past - 1) * k + k) (s + (Z.of_nat past - 1) * k + Z.of_nat future * k + 1) k = Ok (map (fun m => pl_at f (phi + qn (S m) * l_step L)) (seq 0 future))).
  { intro f. replace (s + (Z.of_nat past - 1) * k + Z.of_nat future * k + 1)%Z with ((s + (Z.of_nat past - 1) * k + k) + (Z.of_nat future - 1) * k + 1)%Z by ring.
    rewrite strided_ok; [|nia|exact K0|nia|rewrite LEN; nia]. f_equal. apply map_ext_in. intros m M. apply in_seq in M.
    rewrite saved_nth by (fold i0 i1; nia). f_equal. fold i0. rewrite I0, LS. unfold phi.
    replace (- (Z.of_nat past - 1) * k + (s + (Z.of_nat past - 1) * k + k + Z.of_nat m * k))%Z with (s + Z.of_nat (S m) * k)%Z by nia. rewrite qz_plus, qz_mult, qz_of_nat. ring. }
  set (G1 := fun f => map (pl_at f) (input_times L phi)). set (G2 := fun f => map (fun m => pl_at f (phi + qn (S m) * l_step L)) (seq 0 future)).
  exists st, loads, j, s, (phi :: concat (map G1 (chosen imask (f_q st))) ++ concat (map G1 (chosen imask loads))), (concat (map G2 (chosen omask (f_q st)))).
  split.
  { unfold ds_get. fold spf. destruct (Z.eqb_spec spf 0); [lia|]. rewrite DD, GD. cbn [bind]. rewrite DR, DS, DP, DF. fold s. rewrite W1. cbn [bind]. rewrite W3. cbn [bind]. unfold saved. cbn [fst snd].
    rewrite !masked_ok by (rewrite map_length; congruence). cbn [bind]. rewrite !chosen_map.
    assert (MM : forall (a b : Z) (G : PL -> list Qc) fs, (forall f, strided (map (pl_at f) (stimes past k r h)) a b k = Ok (G f)) ->
       mapM (fun row => strided row a b k) (map (fun f => map (pl_at f) (stimes past k r h)) fs) = Ok (map G fs)).
    { intros a b G fs HG. induction fs as [|f fs IH]; cbn [map mapM]; [reflexivity|]. rewrite HG. cbn [bind]. rewrite IH. reflexivity. }
    rewrite (MM _ _ G1 _ WIN). cbn [bind]. rewrite (MM _ _ G1 _ WIN). cbn [bind]. rewrite (MM _ _ G2 _ FUT). reflexivity. }
  split; [exact NJ|]. split; [exact Sr|]. split; [exact IE|]. cbv zeta. split; [|split; [|split]].
  - exists (concat (map G1 (chosen imask (f_q st)))), (concat (map G1 (chosen imask loads))). split; [reflexivity|]. split; apply samples_ok; [apply lines_Forall, Q1|exact Q3].
  - unfold is_target. rewrite flat_map_concat_map, concat_map, map_map. f_equal. apply map_ext_in. intros f I. unfold G2. rewrite map_map. apply map_ext. intro m. symmetry. apply line_eval, Q1, (chosen_in _ _ _ I).
  - assert (0 <= qz s) by (apply (qz_le 0); lia). fold phi. unfold phi. qnra.
  - rewrite LS. assert (B : qz (s + Z.of_nat (S future) * k) <= qz i1) by (apply qz_le; nia). rewrite qz_plus, qz_mult, qz_of_nat in B.
    assert (FL : qz i1 <= h / r). { unfold i1, last_i, Qcle. rewrite qz_this. apply Qfloor_le. }
    set (d := h / r) in *. assert (E : d * r = h) by (unfold d; field; apply (r_ne r R0)). rewrite <- E. set (a := qz s) in *. set (b := qn (S future)) in *. set (c := qz k) in *.
    assert (Q : a + b * c <= d) by qlra. replace (a * r + b * (c * r)) with ((a + b * c) * r) by ring. set (w := a + b * c) in *. qnra.
Qed.
Print Assumptions C57_sample.

(** Every clean run whose cumulative breakpoints are separated is recorded. *)
Corollary run_recorded nw calls st : net_ok nw -> valid_run nw calls -> clean_run nw calls -> flow_run false nw calls = Ok st -> acc_separated nw st ->
  exists loads, recorded (length (n_cap nw)) (st, loads).
Proof.
  intros NW V C R SEP. destruct (C66_loads nw calls st NW V C R SEP) as (loads & E & L & FL & _). destruct (run_lines nw calls st NW V C R) as (LN & LQ & _).
  exists loads. constructor; assumption.
Qed.

(** Non-vacuity: capacity 1, inflow 3 during [0, 1): the queue is 2 t on
    [0, 1] and falls to 0 at time 3.  Two past samples, one future sample, the
    prediction interval 1 is twice the reroute interval 1/2: the sample with
    index 4 (phi = 2) holds the queues 2, 1, the edge loads 3, 2 and the target
    0. *)
Definition ds_net : Net := mkNet [1; 1] [1; 1].
Definition ds_calls : list call := [CExtend [(0%nat, [(0%nat, qz 3)])] 1; CExtend [(0%nat, [])] (qz 8)].
Definition qc_listb (a b : list Qc) : bool := ((length a =? length b)%nat && forallb (fun p => qeqb (fst p) (snd p)) (combine a b))%bool.
Definition check_ds : bool :=
  match flow_run true ds_net ds_calls with
  | Ok st =>
      match (f <- save_flow 2 (qz 6) (qr 1 2) 1 st ;; D <- ds_init 2 1 (qr 1 2) 1 (qz 6) 2 [f; f] ;; s <- ds_get D None None 4 ;; s' <- ds_get D (Some [false; true]) None 4 ;; Ok (D, s, s')) with
      | Ok (D, (x, y), (x', y')) => ((ds_len D =? 18)%Z && qc_listb x [qz 2; qz 2; 1; qz 3; qz 2] && qc_listb y [0] && qc_listb x' [qz 2] && qc_listb y' [0])%bool
      | Err _ => false
      end
  | Err _ => false
  end.
Example C57_example : check_ds = true.
Proof. vm_compute. reflexivity. Qed.
(** The hypotheses of C57_sample are met by this run. *)
Definition gapb (x y : Qc) : bool := negb (qltb x y) || qltb x (y - eps).
Definition separatedb (l : list Qc) : bool := forallb (fun x => forallb (gapb x) l) l.
Lemma separatedb_ok l : separatedb l = true -> separated l.
Proof.
  intros H x y X Y LT. unfold separatedb in H. rewrite forallb_forall in H. specialize (H x X). rewrite forallb_forall in H. specialize (H y Y).
  unfold gapb in H. destruct (qltbP x y); [|contradiction]. cbn [negb orb] in H. unfold gap. destruct (qltbP x (y - eps)); [assumption|discriminate H].
Qed.
Definition accs_ok (st : Flow) : bool :=
  separatedb (0 :: pl_times (c_acc (inflow_of st 0)) ++ pl_times (c_acc (outflow_of st 0))) &&
  separatedb (0 :: pl_times (c_acc (inflow_of st 1)) ++ pl_times (c_acc (outflow_of st 1))).
Example C57_example_hyps : exists st loads, flow_run false ds_net ds_calls = Ok st /\ recorded 2 (st, loads).
Proof.
  assert (CL : clean_run ds_net ds_calls).
  { unfold clean_run. assert (H : match flow_run true ds_net ds_calls with Ok _ => true | Err _ => false end = true) by (vm_compute; reflexivity). destruct (flow_run true ds_net ds_calls); [discriminate|discriminate H]. }
  assert (H : match flow_run false ds_net ds_calls with Ok st => accs_ok st | Err _ => false end = true) by (vm_compute; reflexivity).
  destruct (flow_run false ds_net ds_calls) as [st|] eqn:R; [|discriminate H]. unfold accs_ok in H. apply andb_prop in H. destruct H as [H0 H1].
  destruct (run_recorded ds_net ds_calls st) as [loads RC]; [apply netb_ok; vm_compute; reflexivity|apply runb_ok; vm_compute; reflexivity|exact CL|exact R| |exists st, loads; split; [reflexivity|exact RC]].
  intros e L. change (length (n_cap ds_net)) with 2%nat in L. destruct e as [|[|e]]; [apply separatedb_ok, H0|apply separatedb_ok, H1|lia].
Qed.

(** ** C71: generate_training_data_with_edge_loads *)
(** What the row of prediction time [pt] should hold: the queues of all edges at
    the past times pt - (past-1) pi, ..., pt, their loads at the same times,
    and their queues at pt + pi, ..., pt + future pi. *)
Definition is_training_row (past future : nat) (pi : Qc) (queues loads : list PL) (pt : Qc) (row : list Qc) : Prop :=
  map Ok row =
    flat_map (fun k => map (fun q => pl_eval q (pt - qn k * pi)) queues) (rev (seq 0 past)) ++
    flat_map (fun k => map (fun l => pl_eval l (pt - qn k * pi)) loads) (rev (seq 0 past)) ++
    flat_map (fun k => map (fun q => pl_eval q (pt + qn (S k) * pi)) queues) (seq 0 future).
(** prediction time number i *)
Definition ptime (r : Qc) (i : nat) : Qc := qn i * r.
Lemma mapM_Ok {A B} (f : A -> res B) : forall l r, mapM f l = Ok r -> map Ok r = map f l.
Proof. induction l as [|x l IH]; cbn [mapM map]; intros r H; [apply ok_inj in H; subst; reflexivity|]. apply bind_ok in H. destruct H as [y [E H]]. apply bind_ok in H. destruct H as [ys [E' H]]. apply ok_inj in H. subst. cbn [map]. rewrite E, (IH _ E'). reflexivity. Qed.
Lemma mapM2_Ok {A B C} (f : A -> B -> res C) (us : list A) : forall ts r, mapM (fun t => mapM (fun u => f u t) us) ts = Ok r -> map Ok (concat r) = flat_map (fun t => map (fun u => f u t) us) ts.
Proof.
  induction ts as [|t ts IH]; cbn [mapM flat_map]; intros r H; [apply ok_inj in H; subst; reflexivity|]. apply bind_ok in H. destruct H as [y [E H]]. apply bind_ok in H. destruct H as [ys [E' H]]. apply ok_inj in H. subst.
  cbn [concat]. rewrite map_app, (mapM_Ok _ _ _ E), (IH _ E'). reflexivity.
Qed.
Lemma past_times_eq past pt pi : map (fun i => pt + qz i * pi) (zrange (- Z.of_nat past + 1) 1) = map (fun k => pt - qn k * pi) (rev (seq 0 past)).
Proof.
  unfold zrange. rewrite map_map. replace (Z.to_nat (1 - (- Z.of_nat past + 1))) with past by lia.
  induction past as [|n IH]; [reflexivity|]. rewrite seq_S at 2. rewrite rev_app_distr. cbn [rev app seq map]. f_equal.
  - replace (- Z.of_nat (S n) + 1 + Z.of_nat 0)%Z with (0 - Z.of_nat n)%Z by lia. rewrite qz_sub, qz_of_nat. change (qz 0) with 0. rewrite Nat.add_0_l. ring.
  - rewrite <- IH. rewrite <- seq_shift, map_map. apply map_ext. intro i. do 2 f_equal. f_equal. lia.
Qed.
Lemma future_times_eq future pt pi : map (fun i => pt + qz i * pi) (zrange 1 (Z.of_nat future + 1)) = map (fun k => pt + qn (S k) * pi) (seq 0 future).
Proof.
  unfold zrange. rewrite map_map. replace (Z.to_nat (Z.of_nat future + 1 - 1)) with future by lia. apply map_ext. intro i. do 2 f_equal. rewrite <- qz_of_nat. f_equal. lia.
Qed.
Lemma training_row_ok past future pi queues loads pt row : training_row past future pi queues loads pt = Ok row -> is_training_row past future pi queues loads pt row.
Proof.
  unfold training_row, is_training_row. cbv zeta. rewrite past_times_eq, future_times_eq. intro H. apply bind_ok in H. destruct H as [a [A H]]. apply bind_ok in H. destruct H as [b [B H]]. apply bind_ok in H. destruct H as [c [C H]]. apply ok_inj in H. subst row.
  rewrite !map_app, (mapM2_Ok _ _ _ _ A), (mapM2_Ok _ _ _ _ B), (mapM2_Ok _ _ _ _ C), !flat_map_concat_map, !map_map. reflexivity.
Qed.
Lemma training_loop_spec past future pi queues loads : forall pts arr arr', arr <> [] -> training_loop past future pi queues loads pts 0 arr = Ok arr' ->
  length arr' = length arr /\ (forall i, (0 < i)%nat -> nth_error arr' i = nth_error arr i) /\
  (pts <> [] -> exists row, nth_error arr' 0 = Some (Some row) /\ is_training_row past future pi queues loads (last pts 0) row).
Proof.
  induction pts as [|pt pts IH]; cbn [training_loop]; intros arr arr' NE H.
  - apply ok_inj in H. subst. split; [reflexivity|]. split; [reflexivity|]. intro C. destruct C; reflexivity.
  - apply bind_ok in H. destruct H as [x [E H]]. destruct arr as [|a arr]; [destruct NE; reflexivity|]. cbn [set_nth] in H.
    destruct (IH (Some x :: arr) arr' ltac:(discriminate) H) as (I1 & I2 & I3). split; [rewrite I1; reflexivity|]. split; [intros [|i] P; [lia|apply (I2 (S i)); lia]|]. intros _.
    destruct pts as [|pt' pts]; [|apply I3; discriminate]. cbn [training_loop] in H. apply ok_inj in H. subst arr'. exists x. split; [reflexivity|]. apply training_row_ok, E.
Qed.
Lemma ptimes_eq q r : (map (fun i => qz i * r) (zrange 0 (Qfloor q + 1))) = map (ptime r) (seq 0 (Z.to_nat (Qfloor q + 1))).
Proof. unfold zrange, ptime. rewrite map_map. replace (Qfloor q + 1 - 0)%Z with (Qfloor q + 1)%Z by lia. apply map_ext. intro i. reflexivity. Qed.
(** Refuted in full generality: whenever the generator succeeds, with n >= 1
    prediction times 0, r, ..., (n-1) r, only row 0 of the saved array is
    written, and it holds the sample of the LAST prediction time. *)
Theorem C71_training_data_refuted : forall past future h r pi flow loads arr,
  training_data past future h r pi flow = Ok arr -> get_edge_loads flow = Ok loads -> arr <> [] ->
  (exists row, nth_error arr 0 = Some (Some row) /\ is_training_row past future pi (f_q flow) loads (ptime r (length arr - 1)) row) /\
  (forall i, (0 < i < length arr)%nat -> nth_error arr i = Some None) /\
  (0 <= h -> 0 < r -> ptime r (length arr - 1) <= h /\ h < ptime r (length arr)).
Proof.
  intros past future h r pi flow loads arr H GL NE. unfold training_data in H. apply bind_ok in H. destruct H as [q [Q H]]. rewrite GL in H. cbn [bind] in H. cbv zeta in H. rewrite ptimes_eq in H.
  destruct (Z.to_nat (Qfloor (this q) + 1)) as [|n] eqn:EN; [cbn [seq map length repeat training_loop] in H; apply ok_inj in H; subst; destruct NE; reflexivity|].
  destruct (training_loop_spec _ _ _ _ _ _ (repeat None (length (map (ptime r) (seq 0 (S n))))) arr ltac:(cbn; discriminate) H) as (I1 & I2 & I3).
  rewrite repeat_length, map_length, seq_length in I1. rewrite I1. replace (S n - 1)%nat with n by lia. split; [|split].
  - destruct I3 as [row [R1 R2]]; [cbn; discriminate|]. exists row. split; [exact R1|]. rewrite seq_S, map_app in R2. cbn [map] in R2. rewrite last_last in R2. exact R2.
  - intros i Hi. rewrite I2 by lia. rewrite (nth_error_nth' _ None) by (rewrite repeat_length, map_length, seq_length; lia). rewrite nth_repeat. reflexivity.
  - intros H0 R0. assert (RN : r <> 0) by (intro; subst; apply Qclt_not_eq in R0; congruence). rewrite pydiv_ok in Q by exact RN. apply ok_inj in Q.
    assert (QE : q * r = h) by (rewrite <- Q; field; exact RN). assert (Q0 : 0 <= q) by qnra.
    assert (F1 : qz (Qfloor (this q)) <= q) by (unfold Qcle; rewrite qz_this; apply Qfloor_le).
    assert (F2 : q < qz (Qfloor (this q) + 1)) by (unfold Qclt; rewrite qz_this; apply Qlt_floor).
    assert (F0 : (0 <= Qfloor (this q))%Z) by (change 0%Z with (Qfloor 0); apply Qfloor_resp_le; exact Q0).
    unfold ptime. rewrite <- !qz_of_nat. replace (Z.of_nat n) with (Qfloor (this q)) by lia. replace (Z.of_nat (S n)) with (Qfloor (this q) + 1)%Z by lia. rewrite <- QE. clear - F1 F2 R0. set (a := qz (Qfloor (this q))) in *. set (b := qz (Qfloor (this q) + 1)) in *. clearbody a b. split; qnra.
Qed.
Print Assumptions C71_training_data_refuted.
(** The array of the run above with horizon 3 and reroute interval 1: four rows,
    three of them never written. *)
Example C71_example : match flow_run true ds_net ds_calls with
  | Ok st => match training_data 2 1 (qz 3) 1 1 st with
             | Ok [Some x; None; None; None] => qc_listb x [1; 0; 0; 0; qz 2; 0; 1; 0; 0; 0]
             | _ => false end
  | Err _ => false end = true.
Proof. vm_compute. reflexivity. Qed.

(** ** C72: expanded_queues_from_flows *)
(** Column "e[t]" should hold the queue at phi + step * t (t < 0: past samples,
    t > 0: values to predict); for every queue it holds the queue at
    phi - step * t: past and future are exchanged. *)
Theorem C72_columns_refuted : 
  (forall past future step q phi cols, expanded_columns past future step q phi = Ok cols ->
    map fst cols = zrange (- Z.of_nat past) (Z.of_nat future + 1) /\
    forall t v, In (t, v) cols -> pl_eval q (phi - step * qz t) = Ok v) /\
  (exists nw calls st q cols v v', net_ok nw /\ valid_run nw calls /\ clean_run nw calls /\ flow_run false nw calls = Ok st /\ nth_error (f_q st) 0 = Some q /\
     expanded_columns 1 1 1 q (qz 2) = Ok cols /\ In (1%Z, v) cols /\ pl_eval q (qz 2 + 1) = Ok v' /\ v <> v').
Proof.
  split.
  - intros past future step q phi cols H. unfold expanded_columns in H. revert cols H. induction (zrange (- Z.of_nat past) (Z.of_nat future + 1)) as [|t l IH]; cbn [mapM]; intros cols H.
    + apply ok_inj in H. subst. split; [reflexivity|]. intros t v [].
    + apply bind_ok in H. destruct H as [y [E H]]. apply bind_ok in E. destruct E as [v [E E']]. apply ok_inj in E'. apply bind_ok in H. destruct H as [ys [E2 H]]. apply ok_inj in H. subst.
      destruct (IH _ E2) as [I1 I2]. cbn [map fst]. rewrite I1. split; [reflexivity|]. intros t' v' [X|X]; [injection X as <- <-; exact E|apply I2, X].
  - exists ds_net, ds_calls. 
    assert (CL : clean_run ds_net ds_calls).
    { unfold clean_run. assert (H : match flow_run true ds_net ds_calls with Ok _ => true | Err _ => false end = true) by (vm_compute; reflexivity). destruct (flow_run true ds_net ds_calls); [discriminate|discriminate H]. }
    assert (H : match flow_run false ds_net ds_calls with
      | Ok st => match nth_error (f_q st) 0 with
        | Some q => match expanded_columns 1 1 1 q (qz 2) with
          | Ok [a; b; (1%Z, v)] => match pl_eval q (qz 2 + 1) with Ok v' => negb (qeqb v v') | _ => false end
          | _ => false end
        | None => false end
      | Err _ => false end = true) by (vm_compute; reflexivity).
    destruct (flow_run false ds_net ds_calls) as [st|] eqn:R; [|discriminate H]. exists st. destruct (nth_error (f_q st) 0) as [q|]; [|discriminate H]. exists q.
    destruct (expanded_columns 1 1 1 q (qz 2)) as [cols|]; [|discriminate H]. destruct cols as [|a [|b [|[z v] [|c l]]]]; try discriminate H; try (destruct z as [|[|[]|]|]; discriminate H).
    destruct z as [|[p|p|]|p]; try discriminate H. destruct (pl_eval q (qz 2 + 1)) as [v'|] eqn:E; [|discriminate H].
    exists [a; b; (1%Z, v)], v, v'. split; [apply netb_ok; vm_compute; reflexivity|]. split; [apply runb_ok; vm_compute; reflexivity|]. split; [exact CL|]. split; [reflexivity|]. split; [reflexivity|]. split; [reflexivity|].
    split; [right; right; left; reflexivity|]. split; [reflexivity|]. destruct (qeqbP v v'); [discriminate H|assumption].
Qed.
Print Assumptions C72_columns_refuted.
