(** * C53, C54: the learned predictors *)
From Verif Require Import Base Spec Arrays ArraysProofs PL PLProofs PLEval RC FRC DynFlow DynRun Graph Dijkstra FlowBuilder Neighbors Predictors PredictorsProofs PredictorsProofs2 PropPredictors.

(** ** Vocabulary *)
(** A predicted queue as routing needs it: equal to [cur] up to the prediction
    time, never negative, and falling by at most [rate] per unit of time. *)
Definition admissible (pt cur rate : Qc) (f : PL) : Prop :=
  (forall t, t <= pt -> pl_eval f t = Ok cur) /\
  (forall t, exists y, pl_eval f t = Ok y /\ 0 <= y) /\
  (forall s t, s <= t -> exists x y, pl_eval f s = Ok x /\ pl_eval f t = Ok y /\ x - rate * (t - s) <= y).
(** At the sampling points pt + k*spacing, k = 0..length out, [f] takes the
    smallest values that start at [cur], are at least max(0, out) and fall by at
    most [drop] per step. *)
Definition tight (pt cur spacing drop : Qc) (out : list Qc) (f : PL) : Prop :=
  forall k, (k <= length out)%nat -> exists y, pl_eval f (pt + qn k * spacing) = Ok y /\
    cur - qn k * drop <= y /\
    (forall j x, nth_error out j = Some x -> (j < k)%nat -> qmax 0 x - qn (k - S j) * drop <= y) /\
    (y = cur - qn k * drop \/ exists j x, nth_error out j = Some x /\ (j < k)%nat /\ y = qmax 0 x - qn (k - S j) * drop).
(** [row] is the model input for the functions [fs] (the edges of [mask]):
    their values at pt - (past-1) step, ..., pt - step, pt. *)
Definition samples (L : learned) (mask : list bool) (pt : Qc) (fs : list PL) (row : list Qc) : Prop :=
  map Ok row = flat_map (fun f => map (fun k => pl_eval f (pt - qn (l_past L - 1 - k) * l_step L)) (seq 0 (l_past L))) (chosen mask fs).
Definition is_input (L : learned) (mask : list bool) (pt : Qc) (queues loads : list PL) (row : list Qc) : Prop :=
  exists a b, row = pt :: a ++ b /\ samples L mask pt queues a /\ samples L mask pt loads b.
(** What the learned predictors are given: queues and loads that are functions
    on the whole line, masks and networks of matching size, a non-negative step. *)
Record usable (L : learned) (st : Flow) (loads : list PL) : Prop := {
  us_q : lines st;
  us_loads : get_edge_loads st = Ok loads; us_l : Forall line loads; us_len : length loads = length (f_q st);
  us_net : length (g_edges (w_graph (l_nw L))) = length (f_q st);
  us_in : length (l_in L) = length (f_q st);
  us_step : 0 <= l_step L }.

(** ** Lemmas *)
Lemma positive_part_nonneg l x : In x (positive_part l) -> 0 <= x.
Proof. unfold positive_part. rewrite in_map_iff. intros [y [<- _]]. apply qmax_nonneg. Qed.
Lemma pyslice_in {A} (l : list A) a b x : In x (pyslice l a b) -> In x l.
Proof. unfold pyslice. intro I. rewrite <- (firstn_skipn a l). apply in_or_app. right. rewrite <- (firstn_skipn (b - a) (skipn a l)). apply in_or_app. left. exact I. Qed.
Lemma pyslice_map {A B} (g : A -> B) l a b : pyslice (map g l) a b = map g (pyslice l a b).
Proof. unfold pyslice. rewrite skipn_map, firstn_map. reflexivity. Qed.
Lemma edge_result L d pt cur out e f cap c : learned_edge L (zip_times pt d (S (l_future L))) cur (positive_part out) e = Ok f ->
  0 <= cur -> nth_error (w_cap (l_nw L)) e = Some cap -> 0 <= c -> c * d = l_step L * cap ->
  length out = l_future L /\ admissible pt cur c f /\ tight pt cur d (l_step L * cap) out f.
Proof.
  intros H C0 NC CC CD. destruct (learned_ok L d pt cur (positive_part out) e f cap c H C0 (fun x => positive_part_nonneg out x) NC CC CD) as [LF [A1 [A2 [A3 [A4 A5]]]]].
  unfold positive_part in A4. rewrite map_length in A4. split; [exact A4|]. split.
  - split; [|split].
    + intros t T. rewrite (line_eval f t LF), (A1 t T). reflexivity.
    + intro t. exists (pl_at f t). split; [apply line_eval, LF|apply A2].
    + intros s t T. exists (pl_at f s), (pl_at f t). split; [apply line_eval, LF|]. split; [apply line_eval, LF|apply A3, T].
  - intros k K. assert (LK : (k < length (cur :: clamp (l_step L * cap) cur (positive_part out)))%nat) by (cbn [length]; rewrite clamp_length; unfold positive_part; rewrite map_length; lia).
    destruct (nth_error (cur :: clamp (l_step L * cap) cur (positive_part out)) k) as [y|] eqn:N; [|exfalso; apply nth_error_None in N; lia].
    exists y. rewrite (line_eval f _ LF), (A5 k y N). split; [reflexivity|]. destruct (clamp_spec _ _ _ _ _ N) as [B1 [B2 B3]]. split; [exact B1|]. split.
    + intros j x J. apply B2. unfold positive_part. rewrite (map_nth_error _ _ _ J). reflexivity.
    + destruct B3 as [B3|[j [x [J [J2 B3]]]]]; [left; exact B3|right]. unfold positive_part in J. rewrite nth_error_map in J. destruct (nth_error out j) as [z|] eqn:Z; [|discriminate J].
      injection J as <-. exists j, z. auto.
Qed.
Lemma samples_ok L pt fs mask : Forall line fs -> samples L mask pt fs (concat (map (fun f => map (pl_at f) (input_times L pt)) (chosen mask fs))).
Proof.
  intro LF. rewrite Forall_forall in LF. unfold samples. rewrite flat_map_concat_map, concat_map, map_map. f_equal. apply map_ext_in. intros f I. rewrite map_map, input_times_history. unfold history. rewrite map_map. apply map_ext. intro t.
  symmetry. apply line_eval, LF, (chosen_in _ _ _ I).
Qed.
Lemma lines_Forall st : lines st -> Forall line (f_q st).
Proof. intro H. apply Forall_forall, H. Qed.
Lemma full_predict_eq model L pt st loads : usable L st loads ->
  full_predict model L pt st = mapM (one_edge L (mkPL [pt] [0] 0 0 NInf PInf) (positive_part (model (the_row L pt (f_q st) loads))) pt) (enum (f_q st)).
Proof.
  intros [U1 U2 U3 U4 U5 U6 U7]. unfold full_predict. rewrite one_init. cbn [bind]. rewrite U5, Nat.eqb_refl. cbn [bind]. rewrite U2. cbn [bind].
  rewrite input_row_ok by (auto using lines_Forall; rewrite U6; lia). reflexivity.
Qed.
Lemma enum_nth {A} (l : list A) e x : nth_error l e = Some x -> nth_error (enum l) e = Some (e, x).
Proof.
  intro H. unfold enum. assert (G : forall (l : list A) k e, nth_error l e = Some x -> nth_error (combine (seq k (length l)) l) e = Some ((k + e)%nat, x)).
  { clear. induction l as [|y l IH]; intros k [|e] H; try discriminate H; cbn [nth_error length seq combine] in *; [injection H as ->; rewrite Nat.add_0_r; reflexivity|]. rewrite (IH (S k) e H). f_equal. f_equal. lia. }
  apply (G l 0%nat e H).
Qed.
Lemma enum_length {A} (l : list A) : length (enum l) = length l.
Proof. unfold enum. rewrite combine_length, seq_length. lia. Qed.

(** ** C53 *)
(** the [k]-th block of [n] outputs *)
Definition block (n k : nat) (out : list Qc) : list Qc := firstn n (skipn (k * n) out).
Theorem C53_full_net : forall model L pt st loads preds, usable L st loads -> full_predict model L pt st = Ok preds ->
  length preds = length (f_q st) /\ exists row, is_input L (l_in L) pt (f_q st) loads row /\
  forall e q cur cap, nth_error (f_q st) e = Some q -> pl_eval q pt = Ok cur -> 0 <= cur -> nth_error (w_cap (l_nw L)) e = Some cap -> 0 <= cap ->
    exists f m, nth_error preds e = Some f /\ nth_error (l_out L) e = Some m /\
      (m = false -> forall t, pl_eval f t = Ok 0) /\
      (m = true -> let out := block (l_future L) (count_true (firstn e (l_out L))) (model row) in
         length out = l_future L /\ admissible pt cur cap f /\ tight pt cur (l_step L) (l_step L * cap) out f).
Proof.
  intros model L pt st loads preds U H. rewrite (full_predict_eq _ _ _ _ _ U) in H. pose proof U as [U1 U2 U3 U4 U5 U6 U7].
  set (row := the_row L pt (f_q st) loads) in *. destruct (mapM_spec _ _ _ H) as [LE N]. rewrite enum_length in LE. split; [exact LE|].
  exists row. split; [exists (row_values L pt (f_q st)), (row_values L pt loads); split; [reflexivity|]; split; apply samples_ok; auto using lines_Forall|].
  intros e q cur cap E C C0 NC CC. destruct (N e (e, q) (enum_nth _ _ _ E)) as [f [F HF]]. unfold one_edge in HF. apply bind_ok in HF. destruct HF as [m [M HF]].
  exists f, m. split; [exact F|]. split; [unfold fetch in M; destruct (nth_error (l_out L) e); congruence|]. destruct m; cbn [negb] in HF.
  - split; [discriminate|]. intros _. rewrite C in HF. cbn [bind] in HF. set (k := count_true (firstn e (l_out L))) in *.
    unfold positive_part in HF. rewrite pyslice_map in HF. replace (pyslice (model row) (k * l_future L) ((k + 1) * l_future L)) with (block (l_future L) k (model row)) in HF by (unfold block, pyslice; f_equal; lia).
    rewrite output_times_zip in HF. apply (edge_result L (l_step L) pt cur _ e f cap cap HF); auto. ring.
  - split; [|discriminate]. intros _ t. injection HF as <-. rewrite (line_eval _ t (one_line _ _ _ _)), one_at. reflexivity.
Qed.
Print Assumptions C53_full_net.

Lemma mapM_ext_in {A B} (f g : A -> res B) l : (forall a, In a l -> f a = g a) -> mapM f l = mapM g l.
Proof. induction l as [|x l IH]; intro H; cbn [mapM]; [reflexivity|]. rewrite (H x) by (left; reflexivity). rewrite IH by (intros; apply H; right; assumption). reflexivity. Qed.
Definition nb_row (L : learned) (dist : nat) (pt : Qc) (e : nat) (queues loads : list PL) : list Qc := pt :: nb_values L dist pt e queues ++ nb_values L dist pt e loads.
Definition nb_edge (L : learned) (zero : PL) (times : list Qc) (out : nat -> list Qc) (pt : Qc) (p : nat * PL) : res PL :=
  m <- fetch (l_out L) (fst p) ;;
  if negb m then Ok zero else learned_edge L times (pl_at (snd p) pt) (positive_part (out (fst p))) (fst p).
Lemma enum_in {A} (l : list A) p : In p (enum l) -> nth_error l (fst p) = Some (snd p).
Proof.
  unfold enum. assert (G : forall (l : list A) k p, In p (combine (seq k (length l)) l) -> exists i, fst p = (k + i)%nat /\ nth_error l i = Some (snd p)).
  { clear. induction l as [|y l IH]; intros k p I; [destruct I|]. cbn [length seq combine] in I. destruct I as [<-|I]; [exists 0%nat; cbn; split; [lia|reflexivity]|].
    destruct (IH (S k) p I) as [i [E N]]. exists (S i). split; [lia|exact N]. }
  intro I. destruct (G l 0%nat p I) as [i [E N]]. rewrite E. exact N.
Qed.
Lemma nb_predict_eq models L dist pt st loads : usable L st loads ->
  nb_predict models L dist pt st = mapM (nb_edge L (mkPL [pt] [0] 0 0 NInf PInf) (nb_output_times L pt) (fun e => models e (nb_row L dist pt e (f_q st) loads)) pt) (enum (f_q st)).
Proof.
  intros [U1 U2 U3 U4 U5 U6 U7]. unfold nb_predict. rewrite one_init. cbn [bind]. rewrite U5, Nat.eqb_refl. cbn [bind]. rewrite U2. cbn [bind].
  destruct (masked_rows_ok L pt (l_in L) (f_q st) U7 (lines_Forall st U1) ltac:(lia)) as [qr [-> [QL QN]]]. cbn [bind].
  destruct (masked_rows_ok L pt (l_in L) loads U7 U3 ltac:(lia)) as [lr [-> [LL LN]]]. cbn [bind].
  apply mapM_ext_in. intros [e q] I. apply enum_in in I. cbn [fst snd] in I. unfold nb_edge. cbn [fst snd]. destruct (fetch (l_out L) e) as [m|]; cbn [bind]; [|reflexivity]. destruct m; cbn [negb]; [|reflexivity].
  destruct (nb_select_rows L dist (f_q st) ltac:(lia) ltac:(lia) pt qr e QL QN) as [qs [-> Q1]]. cbn [bind].
  destruct (nb_select_rows L dist loads ltac:(lia) ltac:(lia) pt lr e LL LN) as [ls [-> Q2]]. cbn [bind].
  rewrite (line_eval q pt) by (apply U1, (nth_error_In _ _ I)). cbn [bind]. rewrite Q1, Q2. reflexivity.
Qed.
Lemma nb_batch_eq models L dist pts st loads : usable L st loads -> (1 <= l_past L)%nat -> (forall e, nth_error (l_out L) e = Some true -> nth_error (l_in L) e = Some true) ->
  nb_batch_predict models L dist pts st =
  mapM (fun pt => mapM (nb_edge L (mkPL [0] [0] 0 0 NInf PInf) (output_times L pt) (fun e => models e (nb_row L dist pt e (f_q st) loads)) pt) (enum (f_q st))) pts.
Proof.
  intros [U1 U2 U3 U4 U5 U6 U7] PAST SUB. unfold nb_batch_predict. rewrite U2. cbn [bind].
  rewrite (evaluated_masked_ok L pts (l_in L) 0 (f_q st) (lines_Forall st U1)) by lia. cbn [bind]. rewrite (evaluated_masked_ok L pts (l_in L) 0 loads U3) by lia. cbn [bind].
  rewrite one_init. cbn [bind]. rewrite U5, Nat.eqb_refl. cbn [bind]. apply mapM_ext_in. intros pt I.
  assert (G : forall (F : nat -> res PL) (G : nat * PL -> res PL), (forall e q, nth_error (f_q st) e = Some q -> F e = G (e, q)) -> mapM F (seq 0 (length (f_q st))) = mapM G (enum (f_q st))).
  { intros F G H. unfold enum. assert (X : forall l k, (forall i q, nth_error l i = Some q -> F (k + i)%nat = G ((k + i)%nat, q)) -> mapM F (seq k (length l)) = mapM G (combine (seq k (length l)) l)).
    { induction l as [|y l IH]; intros k HH; [reflexivity|]. cbn [length seq combine mapM]. pose proof (HH 0%nat y eq_refl) as E. rewrite Nat.add_0_r in E. rewrite E.
      rewrite (IH (S k)); [reflexivity|]. intros i q N. specialize (HH (S i) q N). replace (k + S i)%nat with (S k + i)%nat in HH by lia. exact HH. }
    apply X. intros i q N. apply H, N. }
  apply G. intros e q N. unfold nb_edge. cbn [fst snd]. destruct (fetch (l_out L) e) as [m|] eqn:M; cbn [bind]; [|reflexivity]. destruct m; cbn [negb]; [|reflexivity].
  assert (MI : nth_error (l_in L) e = Some true). { apply SUB. unfold fetch in M. destruct (nth_error (l_out L) e); congruence. }
  destruct (nb_ids L dist (f_q st) ltac:(lia) ltac:(lia) e) as [I0 [I1 [I2 I3]]]. rewrite I0. cbn [bind]. rewrite I1. cbn [bind].
  destruct (nb_ids L dist loads ltac:(lia) ltac:(lia) e) as [_ [_ [J2 J3]]].
  unfold batch_row. rewrite (nb_batch_values L pts dist (f_q st) pt _ e I I2 I3). cbn [bind]. rewrite (nb_batch_values L pts dist loads pt _ e I J2 J3). cbn [bind].
  pose proof (nb_current L pts (f_q st) pt e q I (now_in_history L pt PAST) MI N) as CU.
  apply bind_ok in CU. destruct CU as [dd [D1 D2]]. rewrite D1. cbn [bind]. rewrite D2. reflexivity.
Qed.

Lemma nb_edges_result models L dist zero d times pt st loads preds :
  usable L st loads -> times = zip_times pt d (S (l_future L)) -> (forall t, pl_eval zero t = Ok 0) ->
  mapM (nb_edge L zero times (fun e => models e (nb_row L dist pt e (f_q st) loads)) pt) (enum (f_q st)) = Ok preds ->
  length preds = length (f_q st) /\
  forall e q cur cap c, nth_error (f_q st) e = Some q -> pl_eval q pt = Ok cur -> 0 <= cur -> nth_error (w_cap (l_nw L)) e = Some cap -> 0 <= c -> c * d = l_step L * cap ->
    exists f m row, nth_error preds e = Some f /\ nth_error (l_out L) e = Some m /\ is_input L (edge_input_mask L dist e) pt (f_q st) loads row /\
      (m = false -> forall t, pl_eval f t = Ok 0) /\
      (m = true -> length (models e row) = l_future L /\ admissible pt cur c f /\ tight pt cur d (l_step L * cap) (models e row) f).
Proof.
  intros U -> Z H. pose proof U as [U1 U2 U3 U4 U5 U6 U7]. destruct (mapM_spec _ _ _ H) as [LE N]. rewrite enum_length in LE. split; [exact LE|].
  intros e q cur cap c E C C0 NC CC CD. destruct (N e (e, q) (enum_nth _ _ _ E)) as [f [F HF]]. unfold nb_edge in HF. cbn [fst snd] in HF. apply bind_ok in HF. destruct HF as [m [M HF]].
  exists f, m, (nb_row L dist pt e (f_q st) loads). split; [exact F|]. split; [unfold fetch in M; destruct (nth_error (l_out L) e); congruence|].
  split; [exists (nb_values L dist pt e (f_q st)), (nb_values L dist pt e loads); split; [reflexivity|]; split; apply samples_ok; auto using lines_Forall|].
  rewrite (line_eval q pt) in C by (apply U1, (nth_error_In _ _ E)). apply ok_inj in C. subst cur.
  destruct m; cbn [negb] in HF.
  - split; [discriminate|]. intros _. apply (edge_result L d pt _ _ e f cap c HF); auto.
  - split; [|discriminate]. intros _ t. injection HF as <-. apply Z.
Qed.
(** The neighbourhood predictors' [predict] spaces its values one unit of time
    apart instead of the prediction interval, so the fall per unit of time is
    bounded by interval * capacity only ... *)
Theorem C53_neighborhood_partial : forall models L dist pt st loads preds, usable L st loads -> nb_predict models L dist pt st = Ok preds ->
  length preds = length (f_q st) /\
  forall e q cur cap, nth_error (f_q st) e = Some q -> pl_eval q pt = Ok cur -> 0 <= cur -> nth_error (w_cap (l_nw L)) e = Some cap -> 0 <= cap ->
    exists f m row, nth_error preds e = Some f /\ nth_error (l_out L) e = Some m /\ is_input L (edge_input_mask L dist e) pt (f_q st) loads row /\
      (m = false -> forall t, pl_eval f t = Ok 0) /\
      (m = true -> length (models e row) = l_future L /\ admissible pt cur (l_step L * cap) f /\ tight pt cur 1 (l_step L * cap) (models e row) f).
Proof.
  intros models L dist pt st loads preds U H. rewrite (nb_predict_eq _ _ _ _ _ _ U) in H.
  destruct (nb_edges_result models L dist _ 1 _ pt st loads preds U (nb_output_times_zip L pt) (fun t => eq_trans (line_eval _ t (one_line _ _ _ _)) (f_equal Ok (one_at _ _ _))) H) as [LE N].
  split; [exact LE|]. intros e q cur cap E C C0 NC CC. apply (N e q cur cap (l_step L * cap) E C C0 NC); [pose proof (us_step _ _ _ U); qnra|ring].
Qed.
Print Assumptions C53_neighborhood_partial.
(** ... while batch_predict does it right (with output edges among the input edges). *)
Theorem C53_neighborhood_batch : forall models L dist pts st loads preds, usable L st loads -> (1 <= l_past L)%nat ->
  (forall e, nth_error (l_out L) e = Some true -> nth_error (l_in L) e = Some true) ->
  nb_batch_predict models L dist pts st = Ok preds ->
  length preds = length pts /\ forall i pt ps, nth_error pts i = Some pt -> nth_error preds i = Some ps -> length ps = length (f_q st) /\
  forall e q cur cap, nth_error (f_q st) e = Some q -> pl_eval q pt = Ok cur -> 0 <= cur -> nth_error (w_cap (l_nw L)) e = Some cap -> 0 <= cap ->
    exists f m row, nth_error ps e = Some f /\ nth_error (l_out L) e = Some m /\ is_input L (edge_input_mask L dist e) pt (f_q st) loads row /\
      (m = false -> forall t, pl_eval f t = Ok 0) /\
      (m = true -> length (models e row) = l_future L /\ admissible pt cur cap f /\ tight pt cur (l_step L) (l_step L * cap) (models e row) f).
Proof.
  intros models L dist pts st loads preds U PA SUB H. rewrite (nb_batch_eq _ _ _ _ _ _ U PA SUB) in H. destruct (mapM_spec _ _ _ H) as [LE N]. split; [exact LE|].
  intros i pt ps I P. destruct (N i pt I) as [ps' [P' HP]]. rewrite P in P'. injection P' as <-.
  destruct (nb_edges_result models L dist _ (l_step L) _ pt st loads ps U (output_times_zip L pt) (fun t => eq_trans (line_eval _ t (one_line _ _ _ _)) (f_equal Ok (one_at _ _ _))) HP) as [LP N2].
  split; [exact LP|]. intros e q cur cap E C C0 NC CC. apply (N2 e q cur cap cap E C C0 NC CC). ring.
Qed.
Print Assumptions C53_neighborhood_batch.

(** ** C54 *)
Theorem C54_full_net : forall model L pts st loads, usable L st loads -> (1 <= l_past L)%nat ->
  (forall e, nth_error (l_out L) e = Some true -> nth_error (l_in L) e = Some true) ->
  match full_batch_predict model L pts st with
  | Ok batch => Forall2 (fun pt B => exists P, full_predict model L pt st = Ok P /\ Forall2 (fun f g => forall t, pl_eval f t = pl_eval g t) P B) pts batch
  | Err x => exists pt, In pt pts /\ full_predict model L pt st = Err x
  end.
Proof.
  intros model L pts st loads U PA SUB. pose proof U as [U1 U2 U3 U4 U5 U6 U7]. unfold full_batch_predict. rewrite U2. cbn [bind].
  rewrite (evaluated_from_ok L pts (l_in L) 0 (f_q st) (lines_Forall st U1)) by lia. cbn [bind]. rewrite (evaluated_from_ok L pts (l_in L) 0 loads U3) by lia. cbn [bind].
  rewrite one_init. cbn [bind]. rewrite U5, Nat.eqb_refl. cbn [bind]. rewrite select_ok by (rewrite seq_length; lia). cbn [bind].
  set (eq := map _ (chosen (l_in L) (combine (seq 0 (length (f_q st))) (f_q st)))). set (el := map _ (chosen (l_in L) (combine (seq 0 (length loads)) loads))).
  rewrite (mapM_map _ (fun pt => the_row L pt (f_q st) loads)).
  2:{ intros pt I. unfold batch_row. unfold eq. rewrite (batch_values_ok L pts (f_q st) pt I). cbn [bind]. unfold el. rewrite <- U4. rewrite (batch_values_ok L pts loads pt I). reflexivity. }
  cbn [bind]. set (H := fun p : Qc * list Qc => batch_edges L (fst p) _ _ _ _ _ _).
  assert (S : forall pt, In pt pts -> res_rel (Forall2 same_fun) (full_predict model L pt st) (H (pt, the_row L pt (f_q st) loads))).
  { intros pt I. rewrite (full_predict_eq _ _ _ _ _ U). apply (batch_edges_same L pts (f_q st) (lines_Forall st U1) ltac:(lia) pt _ I (now_in_history L pt PA) SUB). }
  clearbody H. clear -S. induction pts as [|pt pts IH]; [constructor|]. cbn [map combine mapM].
  specialize (IH (fun p I => S p (or_intror I))). pose proof (S pt (or_introl eq_refl)) as E. destruct (H (pt, the_row L pt (f_q st) loads)) as [B|x]; cbn [bind].
  - destruct (full_predict model L pt st) as [P|y] eqn:EP; [|contradiction E]. cbn [res_rel] in E. destruct (mapM H (combine pts (map (fun pt => the_row L pt (f_q st) loads) pts))) as [Bs|x]; cbn [bind].
    + constructor; [exists P; split; [exact EP|exact E]|exact IH].
    + destruct IH as [q [I Q]]. exists q. split; [right; exact I|exact Q].
  - exists pt. split; [left; reflexivity|]. destruct (full_predict model L pt st) as [P|y]; [contradiction E|]. cbn [res_rel] in E. congruence.
Qed.
Print Assumptions C54_full_net.

(** The neighbourhood predictors agree if the prediction interval is 1. *)
Theorem C54_neighborhood_partial : forall models L dist pts st loads, usable L st loads -> (1 <= l_past L)%nat ->
  (forall e, nth_error (l_out L) e = Some true -> nth_error (l_in L) e = Some true) -> l_step L = 1 ->
  match nb_batch_predict models L dist pts st with
  | Ok batch => Forall2 (fun pt B => exists P, nb_predict models L dist pt st = Ok P /\ Forall2 (fun f g => forall t, pl_eval f t = pl_eval g t) P B) pts batch
  | Err x => exists pt, In pt pts /\ nb_predict models L dist pt st = Err x
  end.
Proof.
  intros models L dist pts st loads U PA SUB ST. rewrite (nb_batch_eq _ _ _ _ _ _ U PA SUB).
  assert (S : forall pt, res_rel (Forall2 same_fun) (nb_predict models L dist pt st)
     (mapM (nb_edge L (mkPL [0] [0] 0 0 NInf PInf) (output_times L pt) (fun e => models e (nb_row L dist pt e (f_q st) loads)) pt) (enum (f_q st)))).
  { intro pt. rewrite (nb_predict_eq _ _ _ _ _ _ U). apply mapM_sim. rewrite nb_output_times_zip, output_times_zip, ST. induction (enum (f_q st)) as [|[e q] l IH]; constructor; [|exact IH].
    unfold nb_edge. cbn [fst snd]. destruct (fetch (l_out L) e) as [m|]; cbn [bind res_rel]; [|reflexivity]. destruct m; cbn [negb res_rel]; [|apply same_zero].
    destruct (learned_edge _ _ _ _ _); cbn [res_rel]; [intro; reflexivity|reflexivity]. }
  set (H := fun pt : Qc => mapM _ (enum (f_q st))). fold H. assert (S' : forall pt, res_rel (Forall2 same_fun) (nb_predict models L dist pt st) (H pt)) by exact S. clearbody H. clear S.
  induction pts as [|pt pts IH]; [constructor|]. cbn [mapM]. pose proof (S' pt) as E. destruct (H pt) as [B|x]; cbn [bind].
  - destruct (nb_predict models L dist pt st) as [P|y] eqn:EP; [|contradiction E]. cbn [res_rel] in E. destruct (mapM H pts) as [Bs|x]; cbn [bind].
    + constructor; [exists P; split; [exact EP|exact E]|exact IH].
    + destruct IH as [q [I Q]]. exists q. split; [right; exact I|exact Q].
  - exists pt. split; [left; reflexivity|]. destruct (nb_predict models L dist pt st) as [P|y]; [contradiction E|]. cbn [res_rel] in E. congruence.
Qed.
Print Assumptions C54_neighborhood_partial.
