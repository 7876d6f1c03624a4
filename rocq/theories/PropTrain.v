(** * C97 (masks of full-net models), C98 (neighbourhood models), C99 (build_flows), C100 (iterating the dataset) *)
From Verif Require Import Base Spec Arrays ArraysProofs PL RC FRC DynFlow Graph Dijkstra FlowBuilder Predictors Eval Dataset PropDataset Neighbors Train.

(** ** C97: full-net models and their masks *)
(** An empty scenario directory with queue files [qs]. *)
Definition scenario (qs : list qfile) : store := mkStore qs None NoModel NoModel.
Definition only_training (evs : list event) : Prop := forall e, In e evs -> exists k f, e = Train k f.
Definition data_masks (P : params) (qs : list qfile) (m : masks) : Prop := exists D, read_data P qs = Ok D /\ m = (ds_in D, ds_out D).
Lemma data_masks_unique P qs m m' : data_masks P qs m -> data_masks P qs m' -> m = m'.
Proof. intros (D & R & ->) (D' & R' & ->). rewrite R in R'. apply ok_inj in R'. subst. reflexivity. Qed.
Record tinv (P : params) (qs : list qfile) (s : store) : Prop := {
  ti_q : st_queues s = qs;
  ti_m : forall m, st_masks s = Some m -> data_masks P qs m;
  ti_f : forall k im om, model_of k s = Fitted im om -> data_masks P qs (im, om)
}.
Lemma model_set_same k m s : model_of k (set_model k m s) = m. Proof. destruct k; reflexivity. Qed.
Lemma model_set_other k k' m s : k <> k' -> model_of k' (set_model k m s) = model_of k' s. Proof. destruct k, k'; cbn; congruence. Qed.
Lemma tinv_set_model P qs s k m : tinv P qs s -> (forall im om, m = Fitted im om -> data_masks P qs (im, om)) -> tinv P qs (set_model k m s).
Proof.
  intros [A B C] H. split; [destruct k; exact A|destruct k; exact B|]. intros k' im om E.
  destruct k, k'; cbn in E; try (apply H, E); try (apply (C SK), E); try (apply (C TF), E).
Qed.
Lemma tinv_train P qs s k f : tinv P qs s -> tinv P qs (snd (train_full P k f s)).
Proof.
  intros I. unfold train_full. destruct (model_of k s) eqn:M; [|exact I|exact I].
  set (s1 := match k with SK => s | TF => set_model TF Unusable s end).
  assert (I1 : tinv P qs s1). { unfold s1. destruct k; [exact I|]. apply tinv_set_model; [exact I|discriminate]. }
  destruct (read_data P (st_queues s1)) as [D|e] eqn:R; [|exact I1]. rewrite (ti_q _ _ _ I1) in R.
  assert (DM : data_masks P qs (ds_in D, ds_out D)) by (exists D; auto).
  assert (I2 : tinv P qs (set_masks (ds_in D, ds_out D) s1)).
  { destruct I1 as [A B C]. split; [exact A| |]; cbn; [intros m E; injection E as <-; exact DM|intros k' im om E; apply (C k'); destruct k'; exact E]. }
  destruct f; cbn [snd]; [|exact I2|]; (apply tinv_set_model; [exact I2|]); intros im om E; [injection E as <- <-; exact DM|discriminate E].
Qed.
Lemma tinv_history P qs evs : only_training evs -> tinv P qs (fold_left (happens P) evs (scenario qs)).
Proof.
  intro O. assert (G : forall s, tinv P qs s -> tinv P qs (fold_left (happens P) evs s)).
  { induction evs as [|e r IH]; intros s I; [exact I|]. cbn [fold_left]. apply IH; [intros x X; apply O; right; exact X|].
    destruct (O e (or_introl eq_refl)) as (k & f & ->). apply tinv_train, I. }
  apply G. split; [reflexivity|discriminate|]. intros k im om E. destruct k; discriminate E.
Qed.
(** As long as the queue files stay the same: whatever trainings succeeded or
    failed before, the masks handed to the predictor are those of the data, and
    a model found at the path has been fitted with them. *)
Theorem C97_masks : forall P qs evs k f m s',
  only_training evs -> train_full P k f (fold_left (happens P) evs (scenario qs)) = (Returns m, s') ->
  data_masks P qs m /\ (model_of k s' = Fitted (fst m) (snd m) \/ model_of k s' = Unusable).
Proof.
  intros P qs evs k f m s' O E. assert (I := tinv_history P qs evs O). set (s := fold_left (happens P) evs (scenario qs)) in *.
  assert (I' := tinv_train P qs s k f I). rewrite E in I'. cbn [snd] in I'.
  assert (DM : data_masks P qs m).
  { unfold train_full in E. destruct (model_of k s) eqn:M.
    - assert (Q : st_queues (match k with SK => s | TF => set_model TF Unusable s end) = qs) by (destruct k; exact (ti_q _ _ _ I)). rewrite Q in E.
      destruct (read_data P qs) as [D|x] eqn:R; [|discriminate E]. destruct f; try discriminate E. injection E as <- <-. exists D. auto.
    - injection E as E <-. unfold load_mask in E. destruct (st_masks s) as [[im om]|] eqn:SM; [|discriminate E]. destruct (_ || _)%bool; [discriminate E|]. injection E as <-. apply (ti_m _ _ _ I), SM.
    - injection E as E <-. unfold load_mask in E. destruct (st_masks s) as [[im' om']|] eqn:SM; [|discriminate E]. destruct (_ || _)%bool; [discriminate E|]. injection E as <-. apply (ti_m _ _ _ I), SM. }
  split; [exact DM|]. destruct (model_of k s') as [| |im om] eqn:M'; [exfalso|right; reflexivity|left].
  - unfold train_full in E. destruct (model_of k s) eqn:M; [|injection E as _ <-; congruence|injection E as _ <-; congruence].
    match type of E with context [read_data P ?x] => destruct (read_data P x) as [D|] end; [|discriminate E]. destruct f; try discriminate E. injection E as _ <-. rewrite model_set_same in M'. discriminate M'.
  - rewrite <- (data_masks_unique P qs _ _ (ti_f _ _ _ I' k im om M') DM). reflexivity.
Qed.
Print Assumptions C97_masks.

(** If no training failed so far, the model is there. *)
Definition successful (e : event) : Prop := exists k, e = Train k Fits.
Theorem C97_fitted : forall P qs D evs k f m s',
  read_data P qs = Ok D -> (forall e, In e evs -> successful e) ->
  train_full P k f (fold_left (happens P) evs (scenario qs)) = (Returns m, s') ->
  m = (ds_in D, ds_out D) /\ model_of k s' = Fitted (ds_in D) (ds_out D).
Proof.
  intros P qs D evs k f m s' R S E.
  assert (O : only_training evs) by (intros e I; destruct (S e I) as [k' ->]; eauto).
  destruct (C97_masks P qs evs k f m s' O E) as [(D' & R' & ->) MO]. rewrite R in R'. apply ok_inj in R'. subst D'. split; [reflexivity|].
  destruct MO as [MO|MO]; [exact MO|exfalso].
  assert (G : forall l s, (forall e, In e l -> successful e) -> st_queues s = qs -> (forall k, model_of k s <> Unusable) ->
     st_queues (fold_left (happens P) l s) = qs /\ forall k, model_of k (fold_left (happens P) l s) <> Unusable).
  { induction l as [|e r IH]; intros s SS Q N; [auto|]. cbn [fold_left]. apply IH; [intros x X; apply SS; right; exact X| |].
    - destruct (SS e (or_introl eq_refl)) as [k' ->]. cbn [happens]. unfold train_full. destruct (model_of k' s); cbn [snd]; try exact Q.
      destruct k'; [destruct (read_data P (st_queues s))|destruct (read_data P (st_queues (set_model TF Unusable s)))]; exact Q.
    - destruct (SS e (or_introl eq_refl)) as [k' ->]. cbn [happens]. unfold train_full. destruct (model_of k' s) eqn:M; try apply N.
      replace (st_queues (match k' with SK => s | TF => set_model TF Unusable s end)) with qs by (destruct k'; symmetry; exact Q). rewrite R. cbn [snd].
      intros k''. destruct k', k''; cbn; try discriminate; [exact (N TF)|exact (N SK)]. }
  assert (N0 : forall k, model_of k (scenario qs) <> Unusable) by (intros x; destruct x; intro X; discriminate X).
  destruct (G evs (scenario qs) S eq_refl N0) as [Q N].
  unfold train_full in E. destruct (model_of k (fold_left (happens P) evs (scenario qs))) eqn:M; [|exact (N k M)|injection E as _ <-; congruence].
  match type of E with context [read_data P ?x] => destruct (read_data P x) end; [|discriminate E]. destruct f; try discriminate E. injection E as _ _ <-. rewrite model_set_same in MO. discriminate MO.
Qed.
Print Assumptions C97_fitted.

(** A failed scikit training is repeated by the next call. *)
Theorem C97_sk_retry : forall P s D, model_of SK s = NoModel -> read_data P (st_queues s) = Ok D ->
  let s' := snd (train_full P SK FailsBefore s) in
  fst (train_full P SK Fits s') = Returns (ds_in D, ds_out D) /\ model_of SK (snd (train_full P SK Fits s')) = Fitted (ds_in D) (ds_out D).
Proof.
  intros P s D M R s'. assert (E : s' = set_masks (ds_in D, ds_out D) s) by (unfold s', train_full; rewrite M, R; reflexivity).
  rewrite E. unfold train_full. change (model_of SK (set_masks (ds_in D, ds_out D) s)) with (model_of SK s). rewrite M. change (st_queues (set_masks (ds_in D, ds_out D) s)) with (st_queues s). rewrite R. split; reflexivity.
Qed.
Print Assumptions C97_sk_retry.
(** Refuted for tensorflow: the empty model directory of a failed training stops
    every later call from training; the masks are handed out without a model. *)
Theorem C97_failed_tf_refuted : forall P s f, model_of TF s = NoModel -> f <> Fits ->
  forall evs, model_of TF (fold_left (happens P) (Train TF f :: evs) s) = Unusable.
Proof.
  intros P s f M F evs. cbn [fold_left].
  assert (G : forall l x, model_of TF x = Unusable -> model_of TF (fold_left (happens P) l x) = Unusable).
  { induction l as [|e r IH]; intros x U; [exact U|]. cbn [fold_left]. apply IH. destruct e as [fs|k f']; [exact U|]. cbn [happens]. unfold train_full.
    destruct k; [|rewrite U; exact U]. destruct (model_of SK x); [|exact U|exact U]. destruct (read_data P _); [|exact U]. destruct f'; exact U. }
  apply G. cbn [happens]. unfold train_full. rewrite M. destruct (read_data P _); [|reflexivity]. destruct f; [congruence|reflexivity|reflexivity].
Qed.
Print Assumptions C97_failed_tf_refuted.
(** Refuted for networks with one edge: the second call cannot read its own mask files. *)
Theorem C97_single_edge_refuted : forall P k s m s', p_nedges P = 1%nat -> model_of k s = NoModel -> train_full P k Fits s = (Returns m, s') ->
  forall f, fst (train_full P k f s') = Raises (Py TypeError).
Proof.
  intros P k s m s' N M E f. unfold train_full in E. rewrite M in E. destruct (read_data P _) as [D|] eqn:R; [|discriminate E]. injection E as <- <-.
  destruct (C57_masks _ _ _ _ _ _ _ _ R) as (L & _). rewrite N in L.
  unfold train_full. rewrite model_set_same. cbn [fst]. unfold load_mask. replace (st_masks _) with (Some (ds_in D, ds_out D)) by (destruct k; reflexivity). rewrite L. reflexivity.
Qed.
Print Assumptions C97_single_edge_refuted.
(** Refuted when queue files are added between trainings: the tensorflow
    training overwrites the mask files, and the scikit model of the first
    training is then used with masks of the second. *)
Definition row1 : list Qc := [0; 1; 1; 0].
Definition row0 : list Qc := [0; 0; 0; 0].
Definition quiet_file : qfile := ([row0; row1], [row0; row1]).
Definition busy_file : qfile := ([row1; row1], [row1; row1]).
Definition P2 : params := mkParams 1 1 1 1 (qz 3) 2.
Definition story : list event := [Train SK Fits; Queues [busy_file]; Train TF Fits].
Theorem C97_stale_refuted : exists m s', train_full P2 SK Fits (fold_left (happens P2) story (scenario [quiet_file])) = (Returns m, s') /\
  m = ([true; true], [true; true]) /\ model_of SK s' = Fitted [false; true] [false; true].
Proof. eexists _, _. split; [vm_compute; reflexivity|]. split; reflexivity. Qed.
Print Assumptions C97_stale_refuted.
Example C97_example : exists m s', train_full P2 SK Fits (fold_left (happens P2) [Train SK FailsBefore; Train TF Fits; Train SK Fits] (scenario [quiet_file; busy_file])) = (Returns m, s') /\
  only_training [Train SK FailsBefore; Train TF Fits; Train SK Fits] /\ m = ([true; true], [true; true]) /\ model_of SK s' = Fitted [true; true] [true; true].
Proof. eexists _, _. split; [vm_compute; reflexivity|]. split; [|split; reflexivity]. intros e [<-|[<-|[<-|[]]]]; eauto. Qed.
