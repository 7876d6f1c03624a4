(** * C98 (neighbourhood models), C99 (build_flows), C100 (iterating the dataset) *)
From Verif Require Import Base Spec Arrays ArraysProofs PL RC FRC FRCProofs DynFlow Graph GraphSpec GraphProofs Dijkstra FlowBuilder Predictors PredictorsProofs2 Eval Dataset PropDataset Neighbors Train PropTrain.

(** ** C98: one process *)
(** The masks the model of edge [e] must have been fitted with: inputs are the
    input edges of the data within the neighbourhood of [e], the output is [e]. *)
Definition edge_masks (g : graph) (maxd n : nat) (im : list bool) (e : nat) (x : masks) : Prop :=
  length (fst x) = n /\ length (snd x) = n /\
  forall i, (i < n)%nat ->
    (nth i (fst x) false = true <-> nth i im false = true /\ In i (neighbors_undirected g e maxd)) /\
    (nth i (snd x) false = true <-> i = e).
Definition fit_masks (g : graph) (maxd : nat) (d : dataset) (e : nat) : masks :=
  (map (fun p => fst p && snd p)%bool (combine (ds_in d) (mask_undirected g e maxd)), map (Nat.eqb e) (g_edges g)).
Lemma nth_map_in {A B} (f : A -> B) l i a b : (i < length l)%nat -> nth i (map f l) b = f (nth i l a).
Proof. intro L. rewrite (nth_indep _ b (f a)) by (rewrite map_length; exact L). apply map_nth. Qed.
Lemma fit_masks_ok g maxd n d e : g_edges g = seq 0 n -> length (ds_in d) = n -> edge_masks g maxd n (ds_in d) e (fit_masks g maxd d e).
Proof.
  intros G L. unfold fit_masks, edge_masks, mask_undirected. rewrite G. cbn [fst snd]. rewrite !map_length, combine_length, map_length, seq_length. split; [lia|]. split; [reflexivity|]. intros i I. split.
  - rewrite (nth_map_in _ _ i (false, false)) by (rewrite combine_length, map_length, seq_length; lia). rewrite combine_nth by (rewrite map_length, seq_length; lia). cbn [fst snd].
    rewrite (nth_map_in _ _ i 0%nat) by (rewrite seq_length; exact I). rewrite seq_nth by exact I. cbn [Nat.add]. rewrite andb_true_iff. split; intros [A B]; (split; [exact A|]); apply memP; exact B.
  - rewrite (nth_map_in _ _ i 0%nat) by (rewrite seq_length; exact I). rewrite seq_nth by exact I. cbn [Nat.add]. rewrite Nat.eqb_eq. split; congruence.
Qed.
Lemma nb_train_ok P qs g maxd d0 : read_data P qs = Ok d0 -> forall edges D s, (forall d, D = Some d -> d = d0) ->
  exists s', nb_train P qs g maxd edges D (ds_in d0, ds_out d0) s = (Returns (ds_in d0, ds_out d0), s') /\
    (forall e, In e edges -> nth e (ds_out d0) false = true -> ns_models s' e <> None) /\
    (forall e x, ns_models s e = Some x -> ns_models s' e = Some x) /\
    (forall e x, ns_models s e = None -> ns_models s' e = Some x -> x = fit_masks g maxd d0 e).
Proof.
  intro R. induction edges as [|e rest IH]; intros D s HD.
  - exists s. split; [reflexivity|]. split; [intros e []|]. split; [auto|congruence].
  - cbn [nb_train snd]. destruct (nth e (ds_out d0) false) eqn:O; cbn [negb].
    + destruct (ns_models s e) as [m|] eqn:M.
      * destruct (IH D s HD) as (s' & E & A & B & C). exists s'. split; [exact E|]. split; [|split; assumption].
        intros e' [<-|I] O'; [rewrite (B e m M); discriminate|apply A; assumption].
      * replace (match D with Some d => Ok d | None => read_data P qs end) with (Ok d0) by (destruct D as [d|]; [rewrite (HD d eq_refl); reflexivity|symmetry; exact R]).
        set (s1 := mkNs _ _). destruct (IH (Some d0) s1) as (s' & E & A & B & C); [congruence|]. exists s'. split; [exact E|].
        assert (M1 : ns_models s1 e = Some (fit_masks g maxd d0 e)) by (cbn; rewrite Nat.eqb_refl; reflexivity).
        split; [|split].
        -- intros e' [<-|I] O'; [rewrite (B _ _ M1); discriminate|apply A; assumption].
        -- intros e' x X. apply B. cbn. destruct (Nat.eqb_spec e' e); [congruence|exact X].
        -- intros e' x X Y. destruct (Nat.eq_dec e' e) as [->|NE]; [rewrite (B _ _ M1) in Y; congruence|]. apply C; [|exact Y]. cbn. destruct (Nat.eqb_spec e' e); [congruence|exact X].
    + destruct (IH D s HD) as (s' & E & A & B & C). exists s'. split; [exact E|]. split; [|split; assumption].
      intros e' [<-|I] O'; [congruence|apply A; assumption].
Qed.
(** Up-to-date (or no) mask files: the call returns the masks of the data, the
    predictor can be built, it has a model exactly for the edges of the output
    mask; models that were there are kept, new ones are fitted to the edge's
    neighbourhood. *)
Theorem C98_complete : forall P qs g maxd s D, read_data P qs = Ok D -> g_edges g = seq 0 (p_nedges P) ->
  ns_masks s = None \/ (ns_masks s = Some (ds_in D, ds_out D) /\ p_nedges P <> 1%nat) ->
  exists s' l, train_neighborhood P qs g maxd s = (Returns (ds_in D, ds_out D), s') /\ from_models g (ds_in D, ds_out D) s' = Ok l /\
    map fst l = filter (fun e => nth e (ds_out D) false) (seq 0 (p_nedges P)) /\
    forall e x, In (e, x) l -> ns_models s e = Some x \/ (ns_models s e = None /\ edge_masks g maxd (p_nedges P) (ds_in D) e x).
Proof.
  intros P qs g maxd s D R G H. destruct (C57_masks _ _ _ _ _ _ _ _ R) as (L1 & L2 & _).
  assert (T : exists s0 D0, train_neighborhood P qs g maxd s = nb_train P qs g maxd (g_edges g) D0 (ds_in D, ds_out D) s0 /\ (forall d, D0 = Some d -> d = D) /\ ns_models s0 = ns_models s).
  { unfold train_neighborhood. destruct H as [N|[M N]].
    - rewrite N, R. eexists _, (Some D). split; [reflexivity|]. split; [congruence|reflexivity].
    - rewrite M. unfold nload, load_mask. cbn [st_masks]. rewrite M, L1, L2. destruct (Nat.eqb_spec (p_nedges P) 1); [contradiction|]. cbn [orb]. exists s, None. split; [reflexivity|]. split; [discriminate|reflexivity]. }
  destruct T as (s0 & D0 & -> & HD & SM). destruct (nb_train_ok P qs g maxd D R (g_edges g) D0 s0 HD) as (s' & E & A & B & C). rewrite SM in B, C.
  set (pick := fun e => if nth e (ds_out D) false then match ns_models s' e with None => [] | Some x => [(e, x)] end else []).
  exists s', (concat (map pick (g_edges g))). split; [exact E|]. split.
  { unfold from_models. rewrite (mapM_map _ pick); [reflexivity|]. intros e I. unfold pick. cbn [snd]. destruct (nth e (ds_out D) false) eqn:O; [|reflexivity]. destruct (ns_models s' e) eqn:M; [reflexivity|]. destruct (A e I O M). }
  split.
  - rewrite <- G. assert (GI : forall e, In e (g_edges g) -> nth e (ds_out D) false = true -> ns_models s' e <> None) by exact A. revert GI. generalize (g_edges g) as l. clear -pick.
    induction l as [|e l IH]; intro GI; [reflexivity|]. cbn [map concat filter]. rewrite map_app, IH by (intros x X; apply GI; right; exact X). unfold pick at 1.
    destruct (nth e (ds_out D) false) eqn:O; [|reflexivity]. destruct (ns_models s' e) eqn:M; [reflexivity|]. destruct (GI e (or_introl eq_refl) O M).
  - intros e x I. apply in_concat in I. destruct I as (y & Y & I). apply in_map_iff in Y. destruct Y as (e' & <- & Y). unfold pick in I. destruct (nth e' (ds_out D) false); [|destruct I]. destruct (ns_models s' e') as [x'|] eqn:M; [|destruct I].
    destruct I as [I|[]]. injection I as <- <-. destruct (ns_models s e') as [x0|] eqn:M0; [left; rewrite (B _ _ M0) in M; exact M|right]. split; [reflexivity|]. rewrite (C _ _ M0 M). apply fit_masks_ok; [exact G|exact L1].
Qed.
Print Assumptions C98_complete.
(** Refuted with mask files from before queue files were added: an edge whose
    queue appears only in the new files is passed over with the old mask but
    belongs to the returned one; building the predictor raises AssertionError. *)
Definition g2 : graph := grun [GAdd 1 2; GAdd 2 3]%nat.
Definition old_masks : masks := ([false; true], [false; true]).
Theorem C98_stale_refuted : exists m s', data_masks P2 [quiet_file] old_masks /\
  train_neighborhood P2 ([quiet_file] ++ [busy_file]) g2 1 (mkNs (Some old_masks) (fun _ => None)) = (Returns m, s') /\
  data_masks P2 ([quiet_file] ++ [busy_file]) m /\ from_models g2 m s' = Err AssertionError.
Proof.
  eexists _, _. split; [eexists; split; [vm_compute; reflexivity|reflexivity]|]. split; [vm_compute; reflexivity|]. split; [eexists; split; [vm_compute; reflexivity|reflexivity]|]. vm_compute. reflexivity.
Qed.
Print Assumptions C98_stale_refuted.
Example C98_example : exists D, read_data P2 [quiet_file; busy_file] = Ok D /\ g_edges g2 = seq 0 (p_nedges P2) /\
  (let r := train_neighborhood P2 [quiet_file; busy_file] g2 1 (mkNs None (fun _ => None)) in
   match from_models g2 (ds_in D, ds_out D) (snd r) with Ok l => map fst l | Err _ => [] end) = [0; 1]%nat.
Proof. eexists. split; [vm_compute; reflexivity|]. split; vm_compute; reflexivity. Qed.

(** ** C98: several processes *)
Ltac tred := cbn [t_lock t_model t_at tgo tlocked tmodel] in *; unfold tupd in *.
Definition tpos (n : nat) (x : tpc) : nat :=
  match x with TLook k | TLookModel k | TCreate k | TFit k | TUnlock k _ => k | TWait | TReturned => n | TRaised | TCrashed => 0 end.
Record tpinv (n : nat) (s : tst) : Prop := {
  tp_pos : forall p, (tpos n (t_at s p) <= n)%nat;
  tp_passed : forall p k, (k < tpos n (t_at s p))%nat -> t_model s k = true \/ t_lock s k = true;
  tp_unlock : forall p k f, t_at s p = TUnlock k f -> f = false /\ t_model s k = true;
  tp_work : forall p k, t_at s p = TLookModel k \/ t_at s p = TCreate k \/ t_at s p = TFit k \/ (exists f, t_at s p = TUnlock k f) -> (k < n)%nat;
  tp_ret : forall p, t_at s p = TReturned -> forall k, (k < n)%nat -> t_model s k = true
}.
Lemma tpinv_step n p s s' : tpinv n s -> tstep true false n p s s' -> tpinv n s'.
Proof.
  intros [I0 I1 I2 I3 I4] H.
  assert (OTH : forall q, q <> p -> t_at s' q = t_at s q). { intros q N. destruct H; tred; destruct (Nat.eqb_spec q p); congruence. }
  assert (MONO : forall k, t_model s k = true -> t_model s' k = true). { intros k M. destruct H; tred; try exact M. destruct (Nat.eqb_spec k k0); congruence. }
  assert (KEEP : forall k, t_model s k = true \/ t_lock s k = true -> t_model s' k = true \/ t_lock s' k = true).
  { intros k [M|M]; [left; apply MONO, M|]. destruct H as [A|j A B C|j A B C|j A B|j A B|j A|j A|j F A|j f A|A B|]; tred; auto.
    - destruct (Nat.eqb_spec k j); auto.
    - destruct (Nat.eqb_spec k j) as [->|]; auto. left. apply (I2 p j f A). }
  assert (ATP : forall q, t_at s' q = (if Nat.eqb q p then t_at s' p else t_at s q)). { intro q. destruct (Nat.eqb_spec q p) as [->|N]; [reflexivity|apply OTH, N]. }
  split.
  - intro q. rewrite ATP. destruct (Nat.eqb_spec q p) as [->|N]; [|apply I0]. pose proof (I0 p) as L. destruct H as [A|j A B C|j A B C|j A B|j A B|j A|j A|j F A|j f A|A B|]; tred; rewrite Nat.eqb_refl; rewrite ?A in L; cbn in *; try lia.
    + assert (j < n)%nat by (apply (I3 p j); auto). lia.
    + assert (j < n)%nat by (apply (I3 p j); right; right; right; eauto). destruct f; cbn; lia.
  - intros q k L. rewrite ATP in L. destruct (Nat.eqb_spec q p) as [->|N]; [|apply KEEP, (I1 q), L].
    apply KEEP. assert (LP := I1 p k). destruct H as [A|j A B C|j A B C|j A B|j A B|j A|j A|j F A|j f A|A B|]; tred; rewrite Nat.eqb_refl in L; rewrite ?A in LP; cbn in *; try (apply LP; lia).
    + destruct (Nat.eq_dec k j) as [->|]; [right; exact C|apply LP; lia].
    + destruct (Nat.eq_dec k j) as [->|]; [left; exact B|apply LP; lia].
    + destruct (I2 p j f A) as [-> M]. cbn in L. destruct (Nat.eq_dec k j) as [->|]; [left; exact M|apply LP; lia].
  - intros q k f E. rewrite ATP in E. destruct (Nat.eqb_spec q p) as [->|N]; [|destruct (I2 q k f E) as [A B]; split; [exact A|apply MONO, B]].
    destruct H as [A|j A B C|j A B C|j A B|j A B|j A|j A|j F A|j f0 A|A B|]; tred; rewrite Nat.eqb_refl in E; try discriminate E; try discriminate F.
    + injection E as <- <-. rewrite Nat.eqb_refl. auto.
    + destruct f0; discriminate E.
  - intros q k E. rewrite ATP in E. destruct (Nat.eqb_spec q p) as [->|N]; [|apply (I3 q k E)].
    destruct H as [A|j A B C|j A B C|j A B|j A B|j A|j A|j F A|j f0 A|A B|]; tred; rewrite Nat.eqb_refl in E; destruct E as [E|[E|[E|[f E]]]]; try discriminate E; try (destruct f0; discriminate E); injection E as E; try subst; try discriminate F; try assumption.
    + apply (I3 p k); auto.
    + apply (I3 p k); auto.
    + apply (I3 p k); auto.
  - intros q E k L. apply MONO. destruct (Nat.eq_dec q p) as [->|N]; [|rewrite (OTH q N) in E; exact (I4 q E k L)].
    assert (LP := I1 p k). destruct H as [A|j A B C|j A B C|j A B|j A B|j A|j A|j F A|j f0 A|A B|]; tred; rewrite Nat.eqb_refl in E; try discriminate E; try (destruct f0; discriminate E).
    rewrite A in LP. destruct (LP L) as [M|M]; [exact M|]. rewrite (B eq_refl k L) in M. discriminate M.
Qed.
(** Waiting in the directory of the locks (full-net training), no handler
    raises, crashes allowed: whoever returns finds every model. *)
Theorem C98_wait : forall n s0 s p k, tfresh s0 -> treach true false n s0 s -> t_at s p = TReturned -> (k < n)%nat -> t_model s k = true.
Proof.
  intros n s0 s p k [F1 F2] R E L. assert (I : tpinv n s).
  { clear E. induction R as [|s q s' R IH H]; [|eapply tpinv_step; eauto]. split; intros; rewrite ?F2 in *; cbn in *; try lia; try discriminate. destruct H as [H|[H|[H|[f H]]]]; discriminate H. }
  apply (tp_ret n s I p E k L).
Qed.
Print Assumptions C98_wait.
(** Refuted for the neighbourhood functions, which wait in the parent directory:
    a second process returns while the first is still fitting the model. *)
Definition t0 : tst := mkTst (fun _ => false) (fun _ => false) (fun _ => TLook 0).
Lemma tr_first sm fl n p s s1 s' : tstep sm fl n p s s1 -> treach sm fl n s1 s' -> treach sm fl n s s'.
Proof. intros H R. induction R as [|s2 q s3 R IH X]; [eapply tr_step; [apply tr_refl|exact H]|eapply tr_step; [exact IH|exact X]]. Qed.
Theorem C98_wait_refuted : exists s, tfresh t0 /\ treach false false 1 t0 s /\ t_at s 1%nat = TReturned /\ t_model s 0%nat = false /\ t_at s 0%nat = TFit 0.
Proof.
  eexists. split; [split; reflexivity|]. split.
  { eapply tr_first with (p := 0%nat); [eapply (ts_free _ _ _ _ _ 0); [reflexivity|lia|reflexivity]|].
    eapply tr_first with (p := 0%nat); [eapply (ts_missing _ _ _ _ _ 0); reflexivity|].
    eapply tr_first with (p := 0%nat); [eapply (ts_create _ _ _ _ _ 0); reflexivity|].
    eapply tr_first with (p := 1%nat); [eapply (ts_locked _ _ _ _ _ 0); [reflexivity|lia|reflexivity]|].
    eapply tr_first with (p := 1%nat); [eapply ts_end; reflexivity|].
    eapply tr_first with (p := 1%nat); [eapply ts_wait; [reflexivity|discriminate]|].
    apply tr_refl. }
  split; [reflexivity|]. split; reflexivity.
Qed.
Print Assumptions C98_wait_refuted.
(** And refuted when a handler may raise: the lock disappears without a model,
    another process that had skipped the edge returns. *)
Theorem C98_failure_refuted : exists s, tfresh t0 /\ treach true true 1 t0 s /\ t_at s 1%nat = TReturned /\ t_model s 0%nat = false /\ t_at s 0%nat = TRaised.
Proof.
  eexists. split; [split; reflexivity|]. split.
  { eapply tr_first with (p := 0%nat); [eapply (ts_free _ _ _ _ _ 0); [reflexivity|lia|reflexivity]|].
    eapply tr_first with (p := 0%nat); [eapply (ts_missing _ _ _ _ _ 0); reflexivity|].
    eapply tr_first with (p := 0%nat); [eapply (ts_create _ _ _ _ _ 0); reflexivity|].
    eapply tr_first with (p := 1%nat); [eapply (ts_locked _ _ _ _ _ 0); [reflexivity|lia|reflexivity]|].
    eapply tr_first with (p := 1%nat); [eapply ts_end; reflexivity|].
    eapply tr_first with (p := 0%nat); [eapply (ts_fail _ _ _ _ _ 0); reflexivity|].
    eapply tr_first with (p := 0%nat); [eapply (ts_unlock _ _ _ _ _ 0 true); reflexivity|].
    eapply tr_first with (p := 1%nat); [eapply ts_wait; [reflexivity|intros _ k L; assert (k = 0)%nat by lia; subst; reflexivity]|].
    apply tr_refl. }
  split; [reflexivity|]. split; reflexivity.
Qed.
Print Assumptions C98_failure_refuted.
Example C98_wait_example : exists s, tfresh t0 /\ treach true false 1 t0 s /\ t_at s 0%nat = TReturned /\ t_model s 0%nat = true.
Proof.
  eexists. split; [split; reflexivity|]. split.
  { eapply tr_first with (p := 0%nat); [eapply (ts_free _ _ _ _ _ 0); [reflexivity|lia|reflexivity]|].
    eapply tr_first with (p := 0%nat); [eapply (ts_missing _ _ _ _ _ 0); reflexivity|].
    eapply tr_first with (p := 0%nat); [eapply (ts_create _ _ _ _ _ 0); reflexivity|].
    eapply tr_first with (p := 0%nat); [eapply (ts_fit _ _ _ _ _ 0); reflexivity|].
    eapply tr_first with (p := 0%nat); [eapply (ts_unlock _ _ _ _ _ 0 false); reflexivity|].
    eapply tr_first with (p := 0%nat); [eapply ts_end; reflexivity|].
    eapply tr_first with (p := 0%nat); [eapply ts_wait; [reflexivity|intros _ k L; assert (k = 0)%nat by lia; subst; reflexivity]|].
    apply tr_refl. }
  split; reflexivity.
Qed.

(** ** C99: build_flows *)
(** A run: its arguments and where it is interrupted. *)
Definition brun := (bool * bool * stop)%type.
Definition bstep (d : bdisk) (r : brun) : bdisk := let '(vis, dummy, x) := r in snd (build_flow vis dummy x d).
Definition nothing : bdisk := mkB FNone VNone 0.
(** An uninterrupted first call saves the flow, calls the callback once and
    draws the flow; a second call changes nothing. *)
Theorem C99_first : forall vis dummy : bool, let d := mkB (if dummy then FDummy else FWhole) (if vis then VWhole else VNone) 1 in
  build_flow vis dummy Nowhere nothing = (Returns tt, d) /\ forall x, build_flow vis dummy x d = (Returns tt, d).
Proof. intros [] []; cbn; split; try reflexivity; intros []; reflexivity. Qed.
Print Assumptions C99_first.
(** After any history of interrupted runs the callback has been called at most
    once; if the flow file is whole, an uninterrupted run completes, and draws
    the flow if no file of that name exists. *)
Theorem C99_history : forall rs vis dummy, let d := fold_left bstep rs nothing in let d' := snd (build_flow vis dummy Nowhere d) in
  (b_calls d <= 1)%nat /\
  (b_flow d = FWhole -> fst (build_flow vis dummy Nowhere d) = Returns tt /\ b_flow d' = FWhole /\
     (vis = true -> b_vis d <> VCut -> b_vis d' = VWhole)).
Proof.
  intros rs vis dummy d. split.
  - assert (G : forall l x, (b_flow x = FNone -> b_calls x = 0%nat) /\ (b_calls x <= 1)%nat -> (b_flow (fold_left bstep l x) = FNone -> b_calls (fold_left bstep l x) = 0%nat) /\ (b_calls (fold_left bstep l x) <= 1)%nat).
    { induction l as [|[[v u] st] l IH]; intros x I; [exact I|]. cbn [fold_left]. apply IH. destruct x as [fl vi c]. cbn in I. destruct I as [I1 I2]. cbn [bstep].
      destruct fl, vi, v, u, st; cbn; split; intros; try discriminate; try (rewrite I1 by reflexivity); try lia; auto. }
    apply (G rs nothing). cbn. auto.
  - intro W. unfold build_flow. rewrite W. cbn [b_present andb]. destruct (b_vis d) eqn:B, vis; cbn [negb orb v_present fst snd b_flow b_vis b_calls]; (split; [reflexivity|]); (split; [first [reflexivity|exact W]|]); intros; try congruence.
Qed.
Print Assumptions C99_history.
Lemma flow_stays : forall l x, b_flow x <> FNone -> b_flow (fold_left bstep l x) = b_flow x /\ b_calls (fold_left bstep l x) = b_calls x /\ (b_vis x <> VNone -> b_vis (fold_left bstep l x) = b_vis x).
Proof.
  induction l as [|[[v u] st] l IH]; intros x N; [auto|]. cbn [fold_left]. destruct x as [fl vi c]. cbn in N.
  assert (Q : b_flow (bstep (mkB fl vi c) (v, u, st)) = fl /\ b_calls (bstep (mkB fl vi c) (v, u, st)) = c /\ (vi <> VNone -> b_vis (bstep (mkB fl vi c) (v, u, st)) = vi)) by (destruct fl; [congruence|..]; destruct vi, v, u, st; cbn; repeat split; auto; congruence).
  destruct Q as (Q1 & Q2 & Q3). destruct (IH (bstep (mkB fl vi c) (v, u, st))) as (R1 & R2 & R3); [congruence|]. cbn [b_flow b_vis b_calls]. rewrite Q1, Q2 in *. split; [exact R1|]. split; [exact R2|]. intro V. specialize (Q3 V). rewrite Q3 in R3. exact (R3 V).
Qed.
(** What the flow file can be after any history: a dummy only if some run asked for one, a
    whole flow only if some run did not, cut short only if some run was stopped while
    writing it; nothing only if no run got as far as opening it. *)
Theorem C99_flow_file : forall rs, let d := fold_left bstep rs nothing in
  ((forall r, In r rs -> snd (fst r) = false) -> b_flow d <> FDummy) /\ ((forall r, In r rs -> snd (fst r) = true) -> b_flow d <> FWhole) /\
  ((forall r, In r rs -> snd r <> InFlow) -> b_flow d <> FCut) /\ (b_flow d = FNone <-> forall r, In r rs -> snd r = BeforeFlow).
Proof.
  intro rs. cbv zeta.
  assert (G : forall rs x, b_flow x = FNone -> ((forall r, In r rs -> snd (fst r) = false) -> b_flow (fold_left bstep rs x) <> FDummy) /\ ((forall r, In r rs -> snd (fst r) = true) -> b_flow (fold_left bstep rs x) <> FWhole) /\
    ((forall r, In r rs -> snd r <> InFlow) -> b_flow (fold_left bstep rs x) <> FCut) /\ (b_flow (fold_left bstep rs x) = FNone <-> forall r, In r rs -> snd r = BeforeFlow)).
  { clear rs. induction rs as [|[[v u] st] rs IH]; intros x N.
    - cbn [fold_left]. rewrite N. split; [discriminate|]. split; [discriminate|]. split; [discriminate|]. split; [intros _ r []|reflexivity].
    - cbn [fold_left]. destruct x as [fl vi c]. cbn in N. subst fl.
      destruct st; try (match goal with |- context [bstep ?y ?r] => destruct (flow_stays rs (bstep y r)) as (E & _ & _); [destruct vi, v, u; discriminate|]; rewrite E end;
        split; [intro H; specialize (H _ (or_introl eq_refl)); cbn in H; subst u; destruct vi, v; discriminate|]; split; [intro H; specialize (H _ (or_introl eq_refl)); cbn in H; subst u; destruct vi, v; discriminate|];
        split; [intro H; try (specialize (H _ (or_introl eq_refl)); cbn in H; congruence); destruct vi, v, u; discriminate|]; split; [destruct vi, v, u; discriminate|intro H; specialize (H _ (or_introl eq_refl)); discriminate H]).
      assert (B : bstep (mkB FNone vi c) (v, u, BeforeFlow) = mkB FNone vi c) by (destruct vi, v, u; reflexivity). rewrite B. destruct (IH (mkB FNone vi c) eq_refl) as (I1 & I2 & I3 & I4).
      split; [intro H; apply I1; intros r R; apply H; right; exact R|]. split; [intro H; apply I2; intros r R; apply H; right; exact R|]. split; [intro H; apply I3; intros r R; apply H; right; exact R|].
      rewrite I4. split; [intros H r [<-|R]; [reflexivity|auto]|intros H r R; apply H; right; exact R]. }
  apply G. reflexivity.
Qed.
Print Assumptions C99_flow_file.
(** Refuted: interrupted between writing the flow and the callback, the callback
    (in the scenarios it writes the training data) is never called, whatever runs later. *)
Theorem C99_callback_refuted : forall vis dummy rs, b_calls (fold_left bstep ((vis, dummy, BeforeCall) :: rs) nothing) = 0%nat.
Proof. intros vis dummy rs. cbn [fold_left]. destruct (flow_stays rs (bstep nothing (vis, dummy, BeforeCall))) as (_ & -> & _); destruct vis, dummy; cbn; try reflexivity; discriminate. Qed.
Print Assumptions C99_callback_refuted.
(** Refuted: a drawing cut short (a kill, or an exception in to_visualization_json,
    such as the KeyError of a node without position) stays; later runs report success. *)
Theorem C99_drawing_refuted : forall rs vis dummy x, let d := fold_left bstep ((true, false, InVis) :: rs) nothing in
  b_flow d = FWhole /\ b_vis d = VCut /\ build_flow vis dummy x d = (Returns tt, d).
Proof.
  intros rs vis dummy x. cbn [fold_left]. destruct (flow_stays rs (bstep nothing (true, false, InVis))) as (A & _ & B); [discriminate|]. cbn zeta.
  rewrite A, B by discriminate. split; [reflexivity|]. split; [reflexivity|]. unfold build_flow. rewrite A, B by discriminate. cbn. rewrite orb_true_r. reflexivity.
Qed.
Print Assumptions C99_drawing_refuted.
(** Refuted: a dummy flow file (or one cut short) without a drawing makes every
    later call with generate_visualization raise, without changing anything. *)
Theorem C99_dummy_refuted : forall dummy x d, b_flow d = FDummy \/ b_flow d = FCut -> b_vis d = VNone -> build_flow true dummy x d = (Raises (Py ValueError), d).
Proof. intros dummy x [fl vi c] [F|F] V; cbn in F, V; subst; reflexivity. Qed.
Print Assumptions C99_dummy_refuted.
Example C99_dummy_reachable : fold_left bstep [(false, true, Nowhere)] nothing = mkB FDummy VNone 1. Proof. reflexivity. Qed.

(** ** C100: iterating over the dataset *)
(** [zip( *dataset)] sees exactly the samples 0, ..., len(dataset)-1 and stops. *)
Lemma ds_iter_spec D ai ao n : (forall i, (0 <= i < Z.of_nat n)%Z -> exists x, ds_get D ai ao i = Ok x) -> ds_get D ai ao (Z.of_nat n) = Err IndexError ->
  forall k fuel, (k <= n)%nat -> (k < fuel)%nat -> exists l, ds_iter fuel D ai ao (Z.of_nat (n - k)) = Ok l /\ length l = k /\ forall i, (i < k)%nat -> exists x, nth_error l i = Some x /\ ds_get D ai ao (Z.of_nat (n - k + i)) = Ok x.
Proof.
  intros G E. induction k as [|k IH]; intros fuel L F; (destruct fuel as [|fuel]; [lia|]); cbn [ds_iter].
  - rewrite Nat.sub_0_r, E. exists []. split; [reflexivity|]. split; [reflexivity|]. intros i I. lia.
  - destruct (G (Z.of_nat (n - S k))) as [x X]; [lia|]. rewrite X. replace (Z.of_nat (n - S k) + 1)%Z with (Z.of_nat (n - k)) by lia.
    destruct (IH fuel) as (l & R & LL & N); [lia|lia|]. rewrite R. cbn [bind]. exists (x :: l). split; [reflexivity|]. split; [cbn; congruence|].
    intros [|i] I; [exists x; split; [reflexivity|]; rewrite Nat.add_0_r; exact X|]. destruct (N i) as (y & Y1 & Y2); [lia|]. exists y. split; [exact Y1|]. rewrite <- Y2. f_equal. lia.
Qed.
Theorem C100_iteration : forall past future r h k nedges flows files D add_in add_out,
  0 < r -> (0 < k)%Z -> (0 < past)%nat ->
  Forall (recorded nedges) flows -> mapM (fun p => save_flow past h r (qz k * r) (fst p)) flows = Ok files ->
  ds_init past future r (qz k * r) h nedges files = Ok D ->
  fits_edges nedges add_in -> fits_edges nedges add_out -> (0 < ds_samples D)%Z ->
  exists fuel l, ds_iter fuel D add_in add_out 0 = Ok l /\ Z.of_nat (length l) = ds_len D /\
    forall i, (i < length l)%nat -> exists x, nth_error l i = Some x /\ ds_get D add_in add_out (Z.of_nat i) = Ok x.
Proof.
  intros past future r h k n flows files D ai ao R0 K0 P0 RF SV DI FI FO SP.
  assert (LN : (0 <= ds_len D)%Z) by (unfold ds_len; nia).
  assert (G : forall i, (0 <= i < Z.of_nat (Z.to_nat (ds_len D)))%Z -> exists x, ds_get D ai ao i = Ok x).
  { intros i I. rewrite Z2Nat.id in I by exact LN. destruct (C57_sample past future r h k n flows files D ai ao (mkL nw_empty [] [] past future (qz k * r)) i R0 K0 P0 RF SV DI FI FO eq_refl eq_refl I) as (st & loads & j & s & x & y & E & _). eauto. }
  assert (E : ds_get D ai ao (Z.of_nat (Z.to_nat (ds_len D))) = Err IndexError).
  { rewrite Z2Nat.id by exact LN. unfold ds_get. destruct (Z.eqb_spec (ds_samples D) 0); [lia|]. unfold ds_len at 1. rewrite Z.div_mul by lia. unfold pyget, zlen.
    destruct (Z.ltb_spec (Z.of_nat (length (ds_data D))) 0); [lia|]. rewrite Z.ltb_irrefl, andb_false_r. reflexivity. }
  destruct (ds_iter_spec D ai ao (Z.to_nat (ds_len D)) G E (Z.to_nat (ds_len D)) (S (Z.to_nat (ds_len D)))) as (l & R & L & N); [lia|lia|]. rewrite Nat.sub_diag in R, N. cbn [Z.of_nat Nat.add] in R, N.
  eexists _, l. split; [exact R|]. split; [rewrite L, Z2Nat.id by exact LN; reflexivity|]. rewrite L. exact N.
Qed.
Print Assumptions C100_iteration.
(** Flows too short for one sample: iterating raises, whatever the data. *)
Theorem C100_too_short : forall D add_in add_out fuel, ds_samples D = 0%Z -> ds_iter (S fuel) D add_in add_out 0 = Err ZeroDivisionError.
Proof. intros D ai ao fuel S. cbn [ds_iter]. unfold ds_get. rewrite S. reflexivity. Qed.
Print Assumptions C100_too_short.
Definition samples_ok : bool :=
  match read_data P2 [quiet_file; busy_file] with
  | Ok D => (ds_len D =? 4)%Z && match ds_iter 5 D None None 0 with Ok l => (length l =? 4)%nat && forallb (fun x => (length (fst x) =? 5)%nat && (length (snd x) =? 2)%nat) l | Err _ => false end
  | Err _ => false
  end.
Example C100_example : samples_ok = true. Proof. vm_compute. reflexivity. Qed.
Definition too_short : bool := match read_data (mkParams 1 1 1 1 1 2) [([[0; 1]; [1; 0]], [[0; 1]; [1; 0]])] with Ok D => (ds_samples D =? 0)%Z | Err _ => false end.
Example C100_too_short_reachable : too_short = true. Proof. vm_compute. reflexivity. Qed.
