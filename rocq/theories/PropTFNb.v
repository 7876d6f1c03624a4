(** * C127: the two neighbourhood predictors are interchangeable *)
From Verif Require Import Base Spec Arrays ArraysProofs PL PLProofs PLEval RC FRC FRCProofs FRCExact DynFlow DynRun DynEdge DynFlowProofs PropFlow PropFlow2 Graph Dijkstra FlowBuilder Neighbors Predictors PredictorsProofs PredictorsProofs2 PropPredictors PropPredictors2 PropPredictors2 PropPredictors3 TFNb.

(** ** Lemmas *)
Lemma qmem_map (g : Qc -> Qc) ks t : qmem (map (fun x => (x, g x)) ks) t = true <-> In t ks.
Proof.
  unfold qmem. induction ks as [|x ks IH]; cbn [map qget]; [split; [discriminate|intros []]|]. destruct (qeqbP x t) as [->|N]; [split; [left; reflexivity|reflexivity]|].
  rewrite IH. cbn [In]. split; [intro; right; assumption|intros [E|I]; [contradiction|exact I]].
Qed.
Lemma tf_fill_ok q l times : line q -> line l -> forall ks,
  exists ks', tf_fill q l times (map (fun t => (t, pl_at q t)) ks) (map (fun t => (t, pl_at l t)) ks) = Ok (map (fun t => (t, pl_at q t)) ks', map (fun t => (t, pl_at l t)) ks') /\
    forall t, In t ks' <-> In t ks \/ In t times.
Proof.
  intros LQ LL. induction times as [|t times IH]; intro ks; cbn [tf_fill]; [exists ks; split; [reflexivity|intro; cbn; tauto]|].
  destruct (qmem (map (fun t0 => (t0, pl_at q t0)) ks) t) eqn:M.
  - apply qmem_map in M. destruct (IH ks) as [ks' [E I]]. exists ks'. split; [exact E|]. intro x. rewrite I. cbn [In]. split; [tauto|intros [?|[<-|?]]; auto].
  - rewrite (line_eval q t LQ), (line_eval l t LL). cbn [bind]. destruct (IH (ks ++ [t])) as [ks' [E I]]. rewrite !map_app in E. cbn [map] in E. exists ks'. split; [exact E|].
    intro x. rewrite I, in_app_iff. cbn [In]. tauto.
Qed.
Lemma qget_keys (g : Qc -> Qc) ks t : In t ks -> qget (map (fun x => (x, g x)) ks) t = Ok (g t).
Proof. induction ks as [|x ks IH]; intro I; [destruct I|]. cbn [map qget]. destruct (qeqbP x t) as [->|N]; [reflexivity|]. apply IH. destruct I as [E|I]; [contradiction|exact I]. Qed.
Lemma qget_none d t : ~ In t (map fst d) -> qget d t = Err KeyError.
Proof. induction d as [|[x v] d IH]; intro N; cbn [qget map fst In] in *; [reflexivity|]. destruct (qeqbP x t) as [->|X]; [exfalso; apply N; left; reflexivity|]. apply IH. tauto. Qed.
Lemma same_keys (g : Qc -> Qc) ks l t : (In t ks <-> In t l) -> qget (map (fun x => (x, g x)) ks) t = qget (combine l (map g l)) t.
Proof.
  intro E. destruct (in_dec Qc_eq_dec t ks) as [I|N].
  - rewrite qget_keys by exact I. symmetry. apply qget_combine. tauto.
  - rewrite qget_none by (rewrite map_map; cbn [fst]; rewrite map_id; exact N). symmetry. apply qget_none. intro X. apply N, E. apply in_map_iff in X. destruct X as [[x v] [Y Z]]. cbn [fst] in Y. subst x. apply (in_combine_l _ _ _ _ Z).
Qed.

(** two dictionaries of dictionaries that answer all questions alike *)
Definition alike (x y : list (nat * list (Qc * Qc))) : Prop :=
  Forall2 (fun a b => fst a = fst b /\ forall t, qget (snd a) t = qget (snd b) t) x y.
Lemma alike_fetch x y e : alike x y -> match dfetch x e, dfetch y e with
  | Ok a, Ok b => forall t, qget a t = qget b t | Err a, Err b => a = b | _, _ => False end.
Proof.
  intro H. unfold dfetch. induction H as [|[k a] [k' b] x y [E Q] H IH]; cbn [dget]; [reflexivity|]. cbn [fst snd] in E, Q. subst k'. destruct (k =? e)%nat; [exact Q|exact IH].
Qed.
Lemma alike_values L x y pt ids : alike x y -> batch_values L pt ids x = batch_values L pt ids y.
Proof.
  intros H. unfold batch_values. f_equal. apply mapM_ext_in. intros e _. pose proof (alike_fetch x y e H) as A. destruct (dfetch x e) as [a|a], (dfetch y e) as [b|b]; try contradiction; cbn [bind]; [|congruence].
  apply mapM_ext_in. intros t T. apply A.
Qed.
Lemma tf_evaluated_alike L pts mask : forall k qs ls, Forall line qs -> Forall line ls -> length ls = length qs -> (length qs <= length mask)%nat ->
  exists tq tl sq sl, tf_evaluated L pts mask k qs ls = Ok (tq, tl) /\ evaluated_masked L pts mask k qs = Ok sq /\ evaluated_masked L pts mask k ls = Ok sl /\
    alike tq sq /\ alike tl sl.
Proof.
  induction mask as [|m ms IH]; intros k qs ls LQ LL LEN H.
  - destruct qs as [|q qs]; [|cbn in H; lia]. destruct ls; [|discriminate LEN]. exists [], [], [], []. repeat split; constructor.
  - destruct qs as [|q qs], ls as [|l ls]; try discriminate LEN; [exists [], [], [], []; repeat split; constructor|].
    inversion LQ as [|? ? Q1 Q2]; subst. inversion LL as [|? ? L1 L2]; subst. cbn [length] in LEN, H. injection LEN as LEN.
    destruct m; cbn [tf_evaluated evaluated_masked List.tl].
    + destruct (IH (S k) qs ls Q2 L2 LEN ltac:(lia)) as (tq & tl & sq & sl & E1 & E2 & E3 & A1 & A2).
      destruct (tf_fill_ok q l (concat (map (input_times L) pts)) Q1 L1 []) as [ks [F IN]]. cbn [map] in F. rewrite F, E1, E2, E3. cbn [bind fst snd]. unfold evaluate.
      rewrite (eval_sorted_line q _ Q1 (evaluation_times_sorted L pts)), (eval_sorted_line l _ L1 (evaluation_times_sorted L pts)). cbn [bind].
      do 4 eexists. split; [reflexivity|]. split; [reflexivity|]. split; [reflexivity|].
      assert (K : forall t, In t ks <-> In t (evaluation_times L pts)).
      { intro t. rewrite IN, evaluation_times_in, in_concat. cbn [In]. split; [intros [[]|[h [P T]]]; apply in_map_iff in P; destruct P as [pt [<- P]]; eauto|].
        intros [pt [P T]]. right. exists (input_times L pt). split; [apply in_map, P|exact T]. }
      split; (constructor; [|assumption]); cbn [fst snd]; (split; [reflexivity|]); intro t; apply same_keys, K.
    + destruct (IH k qs ls Q2 L2 LEN ltac:(lia)) as (tq & tl & sq & sl & E1 & E2 & E3 & A1 & A2). rewrite E1, E2, E3. do 4 eexists. repeat split; assumption.
Qed.

(** ** C127 *)
(** Same models, same answers - values and exceptions - for any list of prediction times, in any order, with repetitions. *)
Theorem C127_batch : forall models L dist pts st loads, usable L st loads ->
  tf_batch_predict models L dist pts st = nb_batch_predict models L dist pts st.
Proof.
  intros models L dist pts st loads [U1 U2 U3 U4 U5 U6 U7]. unfold tf_batch_predict, nb_batch_predict. rewrite U2. cbn [bind].
  destruct (tf_evaluated_alike L pts (l_in L) 0 (f_q st) loads (lines_Forall st U1) U3 U4 ltac:(lia)) as (tq & tl & sq & sl & -> & -> & -> & A1 & A2). cbn [bind].
  destruct (pl_init [0] [0] 0 0 NInf PInf) as [z|x]; cbn [bind]; [|reflexivity]. destruct (_ =? _)%nat; cbn [bind]; [|reflexivity].
  apply mapM_ext_in. intros pt I. apply mapM_ext_in. intros e _. destruct (fetch (l_out L) e) as [m|]; cbn [bind]; [|reflexivity]. destruct m; cbn [negb]; [|reflexivity].
  destruct (select (l_in L) (edge_input_mask L dist e)) as [em|]; cbn [bind]; [|reflexivity]. destruct (select em _) as [ids|]; cbn [bind]; [|reflexivity].
  unfold batch_row. rewrite (alike_values L tq sq pt ids A1), (alike_values L tl sl pt ids A2).
  destruct (batch_values L pt ids sq) as [a|]; cbn [bind]; [|reflexivity]. destruct (batch_values L pt ids sl) as [b|]; cbn [bind]; [|reflexivity].
  pose proof (alike_fetch tq sq (count_true (firstn e (l_in L))) A1) as F. destruct (dfetch tq _) as [d|d], (dfetch sq _) as [d'|d']; try contradiction; cbn [bind]; [|congruence].
  rewrite F. reflexivity.
Qed.
Print Assumptions C127_batch.

(** ... in particular for every flow built by extensions from the empty one (the flows of C66) ... *)
Theorem C127_run : forall models L dist pts nw calls st, net_ok nw -> valid_run nw calls -> clean_run nw calls -> flow_run false nw calls = Ok st -> acc_separated nw st ->
  length (g_edges (w_graph (l_nw L))) = length (n_cap nw) -> length (l_in L) = length (n_cap nw) -> 0 <= l_step L ->
  tf_batch_predict models L dist pts st = nb_batch_predict models L dist pts st.
Proof.
  intros models L dist pts nw calls st NW V C R SEP E1 E2 ST. destruct (run_usable nw calls st L NW V C R SEP E1 E2 ST) as [loads U]. apply (C127_batch models L dist pts st loads U).
Qed.
Print Assumptions C127_run.
(** ... so the batch predictions of the neural networks are what C53 says of the regressions: they start at
    the present queue, are never negative, fall by at most the capacity, and are the smallest such function above the output of the model. *)
Theorem C127_admissible : forall models L dist pts st loads preds, usable L st loads -> (1 <= l_past L)%nat ->
  (forall e, nth_error (l_out L) e = Some true -> nth_error (l_in L) e = Some true) ->
  tf_batch_predict models L dist pts st = Ok preds ->
  length preds = length pts /\ forall i pt ps, nth_error pts i = Some pt -> nth_error preds i = Some ps -> length ps = length (f_q st) /\
  forall e q cur cap, nth_error (f_q st) e = Some q -> pl_eval q pt = Ok cur -> 0 <= cur -> nth_error (w_cap (l_nw L)) e = Some cap -> 0 <= cap ->
    exists f m row, nth_error ps e = Some f /\ nth_error (l_out L) e = Some m /\ is_input L (edge_input_mask L dist e) pt (f_q st) loads row /\
      (m = false -> forall t, pl_eval f t = Ok 0) /\
      (m = true -> length (models e row) = l_future L /\ admissible pt cur cap f /\ tight pt cur (l_step L) (l_step L * cap) (models e row) f).
Proof.
  intros models L dist pts st loads preds U PA SUB H. rewrite (C127_batch models L dist pts st loads U) in H. apply (C53_neighborhood_batch models L dist pts st loads preds U PA SUB H).
Qed.
Print Assumptions C127_admissible.
(** ** Non-vacuity: the flow of C53_refuted; two prediction times, the later one first *)
Definition check_tf : bool :=
  match flow_run true neg_net nb_calls with
  | Ok st => (is (at_edge (first_of (tf_batch_predict nb_model (nb_L [true]) 1 [1; 0] st)) 0 (qz 2)) (qz 3) &&
      match tf_batch_predict nb_model (nb_L [true]) 1 [1; 0; 1] st with Ok l => Nat.eqb (length l) 3 | Err _ => false end)%bool
  | Err _ => false end.
Example C127_example : check_tf = true.
Proof. vm_compute. reflexivity. Qed.
