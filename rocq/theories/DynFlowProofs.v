(** * The trajectory invariant over whole runs of a DynamicFlow *)
From Verif Require Import Base Spec Arrays ArraysProofs PL PLProofs PLEval PLArith PLOps PLOps2 PLCmp RC RCProofs RCOps FRC FRCProofs FRCExact PQ PQProofs PQSpec DynFlow DQProofs DynRun DynEvents DynEdge.

Lemma set_nth_same {A} (l : list A) d : forall i, set_nth l i (nth i l d) = l.
Proof. induction l as [|a l IH]; intros [|i]; cbn [set_nth nth]; try reflexivity. rewrite IH. reflexivity. Qed.
Lemma scale_snapshot f d : 0 < f -> is_snapshot d -> is_snapshot (scale f d).
Proof.
  intros Hf [N P]. split.
  - unfold is_dict, scale in *. rewrite map_map. cbn [fst]. exact N.
  - intros i v I. unfold scale in I. apply in_map_iff in I. destruct I as [[j w] [Q I]]. cbn [fst snd] in Q. injection Q as <- <-.
    apply qmul_pos; [exact Hf|]. eapply P. exact I.
Qed.

(** ** Rates before an extension are not touched *)
Lemma fn_eval c es T v s i f t : fstate c es T v s -> dget (c_fns c) i = Some f -> 0 <= t -> rc_eval f t = Ok (rate (latest_rates (snaps_of es) t) i).
Proof.
  intros F E Ht. destruct (fi_fns _ _ _ _ (fs_inv _ _ _ _ _ F) i f E) as [V Lo Hi]. rewrite <- (fx_rate _ _ _ _ (fs_x _ _ _ _ _ F) i t Ht).
  unfold fn_of. rewrite E. apply reval_at; [exact V|]. split; rewrite ?Lo, ?Hi; [exact Ht|exact Logic.I].
Qed.
Lemma rate_of_eq c es T v s i t : fstate c es T v s -> 0 <= t -> rate_of c i t = Ok (rate (latest_rates (snaps_of es) t) i).
Proof.
  intros F Ht. unfold rate_of. destruct (dget (c_fns c) i) as [f|] eqn:E; [eapply fn_eval; eauto|]. f_equal.
  symmetry. unfold rate. destruct (dget (latest_rates (snaps_of es) t) i) as [x|] eqn:Q; [|reflexivity]. exfalso.
  unfold latest_rates in Q. destruct (latest (snaps_of es) t) as [p|] eqn:L; [|discriminate].
  assert (dhas (c_fns c) i = true); [|unfold dhas in H; rewrite E in H; discriminate].
  apply (fi_keys _ _ _ _ (fs_inv _ _ _ _ _ F) p i); [apply (latest_some _ _ _ L)|]. unfold dhas. rewrite Q. reflexivity.
Qed.
Definition keeps (p : Qc) (c c' : FRC) : Prop := forall i t, 0 <= t -> t < p -> rate_of c' i t = rate_of c i t.
Lemma keeps_refl p c : keeps p c c.
Proof. intros i t _ _. reflexivity. Qed.
Lemma keeps_trans p c c1 c2 : keeps p c c1 -> keeps p c1 c2 -> keeps p c c2.
Proof. intros A B i t H0 H1. rewrite (B i t H0 H1). apply A; assumption. Qed.
Lemma keeps_le p p' c c' : p <= p' -> keeps p' c c' -> keeps p c c'.
Proof. intros L A i t H0 H1. apply A; [exact H0|qlra]. Qed.
Lemma step_rates c es T v s time d c' T' v' s' i t : fstate c es T v s -> fstate c' (es ++ [(time, d, rates_sum d)]) T' v' s' -> 0 <= t ->
  rate_of c' i t = if qleb time t then Ok (rate d i) else rate_of c i t.
Proof.
  intros F F' H0. rewrite (rate_of_eq _ _ _ _ _ i t F' H0), (rate_of_eq _ _ _ _ _ i t F H0).
  unfold snaps_of. rewrite map_app. cbn [map fst]. unfold latest_rates. rewrite latest_app. cbn [fst]. destruct (qleb time t); reflexivity.
Qed.
Lemma rates_eqb_rate a b : is_dict a -> is_dict b -> rates_eqb a b = true -> forall i, rate a i = rate b i.
Proof.
  intros NA NB H i. unfold rates_eqb in H. apply andb_true_iff in H. destruct H as [HL HF]. apply Nat.eqb_eq in HL. rewrite forallb_forall in HF.
  assert (AB : forall j x, In (j, x) a -> dget b j = Some x).
  { intros j x I. specialize (HF _ I). cbn [fst snd] in HF. destruct (dget b j) as [y|]; [|discriminate]. apply qeqb_true in HF. congruence. }
  unfold rate. destruct (dget a i) as [x|] eqn:EA; [rewrite (AB i x (dget_In _ _ _ EA)); reflexivity|].
  destruct (dget b i) as [y|] eqn:EB; [|reflexivity]. exfalso.
  assert (INC : incl (map fst b) (map fst a)).
  { apply NoDup_length_incl; [exact NA|rewrite !map_length; lia|]. intros j Ij. apply in_map_iff in Ij. destruct Ij as [[j' x] [<- I]]. cbn [fst].
    apply in_map_iff. exists (j', x). split; [reflexivity|]. apply dget_In, AB, I. }
  apply (proj1 (dget_None _ _) EA). apply INC. apply in_map_iff. exists (i, y). split; [reflexivity|apply dget_In, EB].
Qed.

Definition edge_of (st : Flow) (e : nat) : edge := mkEdge (inflow_of st e) (outflow_of st e) (queue_of st e).

(** Replacing a collection by one that answers alike. *)
Lemma L_get_in cap tau E g p c' : ebase cap tau E g p -> fstate c' (g_in g) (g_ti g) (g_vi g) (g_si g) -> acc c' = acc (e_in E) ->
  ebase cap tau (mkEdge c' (e_out E) (e_q E)) g p.
Proof. intros B F A. destruct B. constructor; cbn [e_in e_out e_q]; auto. rewrite A. exact b_cons. Qed.
Lemma L_get_out cap tau E g p c' : ebase cap tau E g p -> fstate c' (g_out g) (g_to g) (g_vo g) (g_so g) -> acc c' = acc (e_out E) -> head_time c' <= p ->
  ebase cap tau (mkEdge (e_in E) c' (e_q E)) g p.
Proof. intros B F A H. destruct B. constructor; cbn [e_in e_out e_q]; auto; rewrite A; assumption. Qed.
Lemma R_same cap tau E g p pl E' : regime cap tau E g p pl -> e_q E' = e_q E -> regime cap tau E' g p pl.
Proof. intros R Q. destruct R; [apply RZ|apply RG|apply RP2|apply RP1]; rewrite ?Q; auto. Qed.

Section Run.
Variable nw : Net.
Hypothesis NW : net_ok nw.
Let n := length (n_cap nw).
Lemma getcap e : (e < n)%nat -> getn (n_cap nw) e = Ok (cap_of nw e) /\ 0 < cap_of nw e.
Proof. intro H. pose proof (getn_lt (n_cap nw) e 0 H) as G. split; [exact G|]. apply NW, nth_In, H. Qed.
Lemma gettau e : (e < n)%nat -> getn (n_tau nw) e = Ok (tau_of nw e) /\ 0 <= tau_of nw e.
Proof. intro H. assert (e < length (n_tau nw))%nat by (rewrite (proj1 NW); exact H). pose proof (getn_lt (n_tau nw) e 0 H0) as G. split; [exact G|]. apply NW, nth_In, H0. Qed.

Definition eok (e : nat) (E : edge) (p : Qc) (pl : option plan) : Prop :=
  exists g, ebase (cap_of nw e) (tau_of nw e) E g p /\ regime (cap_of nw e) (tau_of nw e) E g p pl.
Definition flen (st : Flow) : Prop := length (f_in st) = n /\ length (f_out st) = n /\ length (f_q st) = n.
Record ginv (st : Flow) (pf : nat -> Qc) : Prop := {
  gi_len : flen st;
  gi_dq : dq_ok (f_dq st);
  gi_e : forall e, (e < n)%nat -> eok e (edge_of st e) (pf e) (pend (f_dq st) e);
  gi_none : forall e, (n <= e)%nat -> pend (f_dq st) e = None }.
(** [st'] differs from [st] on edge [e] only. *)
Record loc (e : nat) (st st' : Flow) : Prop := {
  lo_len : flen st'; lo_phi : f_phi st' = f_phi st; lo_dq : dq_ok (f_dq st');
  lo_e : forall j, j <> e -> edge_of st' j = edge_of st j;
  lo_p : forall j, j <> e -> pend (f_dq st') j = pend (f_dq st) j }.
Definition at_ (pf : nat -> Qc) (e : nat) (p : Qc) : nat -> Qc := fun j => if Nat.eqb e j then p else pf j.
Lemma ginv_loc st st' pf e p : (e < n)%nat -> ginv st pf -> loc e st st' -> eok e (edge_of st' e) p (pend (f_dq st') e) -> ginv st' (at_ pf e p).
Proof.
  intros L [G1 G2 G3 G4] [L1 L2 L3 L4 L5] K. constructor; auto.
  - intros j Hj. unfold at_. destruct (Nat.eqb_spec e j) as [<-|N]; [exact K|]. rewrite L4, L5 by congruence. auto.
  - intros j Hj. rewrite L5 by lia. auto.
Qed.
Lemma loc_trans e a b c : loc e a b -> loc e b c -> loc e a c.
Proof.
  intros [A1 A2 A3 A4 A5] [B1 B2 B3 B4 B5]. constructor; auto; [congruence| |]; intros j N; [rewrite B4 by exact N; auto|rewrite B5 by exact N; auto].
Qed.
Lemma loc_refl e st : flen st -> dq_ok (f_dq st) -> loc e st st.
Proof. intros. constructor; auto. Qed.
Lemma loc_in e st c : flen st -> dq_ok (f_dq st) -> (e < n)%nat -> loc e st (set_in st (upd (f_in st) e c)) /\
  edge_of (set_in st (upd (f_in st) e c)) e = mkEdge c (outflow_of st e) (queue_of st e).
Proof.
  intros [F1 [F2 F3]] K L. split.
  - constructor; auto; cbn [set_in f_in f_out f_q f_dq f_phi].
    + split; cbn [set_in f_in f_out f_q]; [rewrite upd_length|]; auto.
    + intros j N. unfold edge_of, inflow_of, outflow_of, queue_of. cbn [set_in f_in f_out f_q]. rewrite nth_upd_other by congruence. reflexivity.
  - unfold edge_of, inflow_of, outflow_of, queue_of. cbn [set_in f_in f_out f_q]. rewrite nth_upd_same by congruence. reflexivity.
Qed.
Lemma loc_out e st c ch : flen st -> dq_ok (f_dq st) -> (e < n)%nat -> loc e st (set_changes (set_out st (upd (f_out st) e c)) ch) /\
  edge_of (set_changes (set_out st (upd (f_out st) e c)) ch) e = mkEdge (inflow_of st e) c (queue_of st e).
Proof.
  intros [F1 [F2 F3]] K L. split.
  - constructor; auto; cbn [set_changes set_out f_in f_out f_q f_dq f_phi].
    + split; cbn [set_changes set_out f_in f_out f_q]; [|rewrite upd_length]; auto.
    + intros j N. unfold edge_of, inflow_of, outflow_of, queue_of. cbn [set_changes set_out f_in f_out f_q]. rewrite nth_upd_other by congruence. reflexivity.
  - unfold edge_of, inflow_of, outflow_of, queue_of. cbn [set_changes set_out f_in f_out f_q]. rewrite nth_upd_same by congruence. reflexivity.
Qed.
Lemma loc_q e st c : flen st -> dq_ok (f_dq st) -> (e < n)%nat -> loc e st (set_q st (upd (f_q st) e c)) /\
  edge_of (set_q st (upd (f_q st) e c)) e = mkEdge (inflow_of st e) (outflow_of st e) c.
Proof.
  intros [F1 [F2 F3]] K L. split.
  - constructor; auto; cbn [set_q f_in f_out f_q f_dq f_phi].
    + split; cbn [set_q f_in f_out f_q]; [|rewrite upd_length]; auto.
    + intros j N. unfold edge_of, inflow_of, outflow_of, queue_of. cbn [set_q f_in f_out f_q]. rewrite nth_upd_other by congruence. reflexivity.
  - unfold edge_of, inflow_of, outflow_of, queue_of. cbn [set_q f_in f_out f_q]. rewrite nth_upd_same by congruence. reflexivity.
Qed.
Lemma loc_dq e st d : flen st -> dq_ok d -> (forall j, j <> e -> pend d j = pend (f_dq st) j) -> loc e st (set_dq st d).
Proof. intros F K P. constructor; auto. Qed.

(** ** The two extensions *)
Lemma out_good st e g p d : flen st -> dq_ok (f_dq st) -> (e < n)%nat -> ebase (cap_of nw e) (tau_of nw e) (edge_of st e) g p -> is_snapshot d ->
  good (fun st' => loc e st st' /\ f_dq st' = f_dq st /\ exists c' g', (edge_of st' e = mkEdge (inflow_of st e) c' (queue_of st e) /\ keeps p (outflow_of st e) (outflow_of st' e)) /\
          ebase (cap_of nw e) (tau_of nw e) (edge_of st' e) g' p /\ g' = mkG (g_in g) (g_ti g) (g_vi g) (g_si g) (g_out g ++ [(ex (cap_of nw e) (tau_of nw e) (queue_of st e) p, d, rates_sum d)]) (ex (cap_of nw e) (tau_of nw e) (queue_of st e) p) d (rates_sum d))
    (out_extend true st e (ex (cap_of nw e) (tau_of nw e) (queue_of st e) p) d (rates_sum d)).
Proof.
  intros F K L B SD. destruct (getcap e L) as [_ CP]. unfold out_extend. rewrite (getn_lt _ _ frc_empty) by (rewrite (proj1 (proj2 F)); exact L). cbn [bind].
  fold (outflow_of st e). eapply good_bind; [apply (fs_step _ _ _ _ _ (ex (cap_of nw e) (tau_of nw e) (queue_of st e) p) d (b_out _ _ _ _ _ B) (b_to _ _ _ _ _ B) SD)|].
  intros c' _ [_ [FS [HA HH]]]. apply good_ok. cbn [edge_of e_out] in *.
  destruct (loc_out e st c' (sq_set (f_changes st) (e, ex (cap_of nw e) (tau_of nw e) (queue_of st e) p) (Fin (ex (cap_of nw e) (tau_of nw e) (queue_of st e) p))) F K L) as [LL EE].
  split; [exact LL|]. split; [reflexivity|]. exists c'. eexists. split; [split; [exact EE|]|].
  { change (keeps p (outflow_of st e) (e_out (edge_of (set_changes (set_out st (upd (f_out st) e c')) (sq_set (f_changes st) (e, ex (cap_of nw e) (tau_of nw e) (queue_of st e) p) (Fin (ex (cap_of nw e) (tau_of nw e) (queue_of st e) p)))) e))).
    rewrite EE. cbn [e_out]. intros i t T0 TP. rewrite (step_rates _ _ _ _ _ _ _ _ _ _ _ i t (b_out _ _ _ _ _ B) FS T0). cbn [edge_of e_out].
    destruct (qlebP (ex (cap_of nw e) (tau_of nw e) (queue_of st e) p) t) as [C|C]; [|reflexivity]. exfalso.
    pose proof (ex_ge (cap_of nw e) (tau_of nw e) CP (proj2 (gettau e L)) (queue_of st e) p (b_pp _ _ CP (proj2 (gettau e L)) _ _ _ B)). pose proof (proj2 (gettau e L)). qlra. }
  split; [|reflexivity]. rewrite EE.
  apply (L_out (cap_of nw e) (tau_of nw e) CP (proj2 (gettau e L)) (edge_of st e) g p d c' B FS HA HH).
Qed.
(** The queue is as before up to [p]. *)
Definition keepq (p : Qc) (f f' : PL) : Prop := forall t, t <= p -> pl_at f' t = pl_at f t.
Lemma keepq_trans p p' f f1 f2 : p <= p' -> keepq p f f1 -> keepq p' f1 f2 -> keepq p f f2.
Proof. intros L A B t T. rewrite B by qlra. apply A, T. Qed.
Lemma queue_good st e g p slope : flen st -> dq_ok (f_dq st) -> (e < n)%nat -> ebase (cap_of nw e) (tau_of nw e) (edge_of st e) g p ->
  good (fun st' => loc e st st' /\ f_dq st' = f_dq st /\ f_changes st' = f_changes st /\ exists q', edge_of st' e = mkEdge (inflow_of st e) (outflow_of st e) q' /\
          ebase (cap_of nw e) (tau_of nw e) (edge_of st' e) g p /\ pl_last q' = slope /\ qstate q' p /\ pl_at q' p = pl_at (queue_of st e) p /\
          (pl_last (queue_of st e) <> slope -> tm q' (pl_len q' - 1) = p) /\ keepq p (queue_of st e) q')
    (queue_extend true st e p slope).
Proof.
  intros F K L B. unfold queue_extend. rewrite (getn_lt _ _ queue0) by (rewrite (proj2 (proj2 F)); exact L). cbn [bind]. fold (queue_of st e).
  eapply good_bind; [apply (qs_step _ _ slope (b_q _ _ _ _ _ B))|]. intros q' _ [_ [QS [HA [HL HT]]]]. apply good_ok. cbn [edge_of e_q] in *.
  destruct (loc_q e st q' F K L) as [LL EE]. split; [exact LL|]. split; [reflexivity|]. split; [reflexivity|]. exists q'. split; [exact EE|].
  rewrite EE. split; [|split; [exact HL|split; [exact QS|split; [apply HA; qlra|split; [exact HT|exact HA]]]]].
  pose proof (getcap e L) as [_ CP]. apply (L_q (cap_of nw e) (tau_of nw e) CP (proj2 (gettau e L)) (edge_of st e) g p q' B QS HA).
Qed.

(** Inflow as before, outflow and queue as before up to [p]. *)
Definition same_in (e : nat) (p : Qc) (st st' : Flow) : Prop := inflow_of st' e = inflow_of st e /\ keeps p (outflow_of st e) (outflow_of st' e) /\ keepq p (queue_of st e) (queue_of st' e).
Lemma same_edges e p st st1 st2 : same_in e p st st1 -> edge_of st2 e = edge_of st1 e -> same_in e p st st2.
Proof. intros [A [B D]] E. unfold edge_of in E. injection E as E1 E2 E3. split; [|split]; rewrite ?E1, ?E2, ?E3; assumption. Qed.
Definition oq_post (st : Flow) (e : nat) (g : ghost) (p : Qc) (d : rates) (slope : Qc) (st2 : Flow) : Prop :=
  loc e st st2 /\ (f_dq st2 = f_dq st /\ same_in e p st st2) /\ exists g',
    ebase (cap_of nw e) (tau_of nw e) (edge_of st2 e) g' p /\ g_vi g' = g_vi g /\ g_si g' = g_si g /\
    g_to g' = ex (cap_of nw e) (tau_of nw e) (queue_of st e) p /\ g_vo g' = d /\ g_so g' = rates_sum d /\
    pl_last (e_q (edge_of st2 e)) = slope /\ pl_at (e_q (edge_of st2 e)) p = pl_at (queue_of st e) p.
Lemma oq_good (P : Flow -> Prop) st e g p d slope rest : flen st -> dq_ok (f_dq st) -> (e < n)%nat -> ebase (cap_of nw e) (tau_of nw e) (edge_of st e) g p -> is_snapshot d ->
  (forall st2, oq_post st e g p d slope st2 -> good P (rest st2)) ->
  good P (st1 <- out_extend true st e (ex (cap_of nw e) (tau_of nw e) (queue_of st e) p) d (rates_sum d) ;; st2 <- queue_extend true st1 e p slope ;; rest st2).
Proof.
  intros F K L B SD H. eapply good_bind; [apply (out_good st e g p d F K L B SD)|].
  intros st1 _ [L1 [D1 [c' [g' [[E1 KP] [B1 G1]]]]]].
  eapply good_bind; [apply (queue_good st1 e g' p slope (lo_len _ _ _ L1) (lo_dq _ _ _ L1) L B1)|].
  intros st2 _ [L2 [D2 [_ [q' [E2 [B2 [SL [QS [QA [_ QK]]]]]]]]]]. apply H. split; [eapply loc_trans; eauto|]. split; [split; [congruence|]|].
  { unfold edge_of in E1, E2. injection E1 as I1 _ Q1. injection E2 as I2 O2 Q2. split; [congruence|]. split; [rewrite O2; exact KP|]. rewrite Q2, <- Q1. exact QK. }
  exists g'. split; [exact B2|]. subst g'. cbn [g_vi g_si g_to g_vo g_so]. do 5 (split; [reflexivity|]). rewrite E2. cbn [e_q]. split; [exact SL|].
  rewrite QA. assert (QE : queue_of st1 e = queue_of st e) by (change (queue_of st1 e) with (e_q (edge_of st1 e)); rewrite E1; reflexivity). rewrite QE. reflexivity.
Qed.

Definition case_post (e : nat) (st st' : Flow) : Prop := (loc e st st' /\ same_in e (f_phi st) st st') /\ eok e (edge_of st' e) (f_phi st) (pend (f_dq st') e).
Lemma drop_good st e : dq_ok (f_dq st) -> flen st -> good (fun st' => loc e st st' /\ (forall j, edge_of st' j = edge_of st j) /\ pend (f_dq st') e = None) (drop_depletion st e).
Proof.
  intros K F. unfold drop_depletion. rewrite pend_has by exact K. pose proof (dq_remove_ok (f_dq st) e K) as R. destruct (pend (f_dq st) e) as [pl|] eqn:P.
  - destruct R as [q' [E [K' P']]]. rewrite E. cbn [bind]. apply good_ok. split; [|split; [reflexivity|]].
    + apply loc_dq; auto. intros j N. rewrite P'. destruct (Nat.eqb_spec e j); congruence.
    + cbn [set_dq f_dq]. rewrite P', Nat.eqb_refl. reflexivity.
  - apply good_ok. split; [apply loc_refl; auto|auto].
Qed.
Lemma depleted_good st e p D : qstate (queue_of st e) p -> (e < n)%nat -> flen st -> pl_at (queue_of st e) D = 0 -> assert_depleted st e D = Ok tt.
Proof.
  intros Q L F Z. unfold assert_depleted. rewrite (getn_lt _ _ queue0) by (rewrite (proj2 (proj2 F)); exact L). cbn [bind]. fold (queue_of st e).
  rewrite (qs_eval _ _ _ Q). cbn [bind]. rewrite Z. destruct (qltbP 0 eps1000) as [C|C]; [reflexivity|]. exfalso. apply C. exact eps1000_pos.
Qed.

Lemma case_i_good st e g cq : flen st -> dq_ok (f_dq st) -> (e < n)%nat -> ebase (cap_of nw e) (tau_of nw e) (edge_of st e) g (f_phi st) ->
  g_vi g = [] -> g_si g = 0 -> cq = pl_at (queue_of st e) (f_phi st) -> good (case_post e st) (case_i true nw st e cq).
Proof.
  intros F K L B GV GS CQ. destruct (getcap e L) as [GC CP]. destruct (gettau e L) as [GT TP]. pose proof (b_pp _ _ CP TP _ _ _ B) as QP. change (e_q (edge_of st e)) with (queue_of st e) in QP.
  unfold case_i. rewrite GC, GT. cbn [bind]. rewrite pydiv_ok by qlra. cbn [bind].
  replace (f_phi st + cq / cap_of nw e + tau_of nw e) with (ex (cap_of nw e) (tau_of nw e) (queue_of st e) (f_phi st)) by (unfold ex; rewrite CQ; reflexivity).
  change (out_extend true st e (ex (cap_of nw e) (tau_of nw e) (queue_of st e) (f_phi st)) [] 0) with (out_extend true st e (ex (cap_of nw e) (tau_of nw e) (queue_of st e) (f_phi st)) [] (rates_sum [])).
  eapply oq_good; [exact F|exact K|exact L|exact B|split; [constructor|intros ? ? []]|].
  intros st2 [L2 [[D2 SI] [g' [B' [V1 [V2 [V3 [V4 [V5 [V6 V7]]]]]]]]]]. rewrite GV in V1. rewrite GS in V2.
  change (rates_sum []) with 0 in V5. rewrite <- CQ in V7, QP.
  destruct (qltbP 0 cq) as [C|C].
  - destruct (qeqbP cq 0) as [Z|NZ]; [exfalso; qlra|].
    assert (QS : qstate (queue_of st2 e) (f_phi st)) by (apply (b_q _ _ _ _ _ B')).
    assert (W : 0 < cq / cap_of nw e) by (apply qdiv_pos; assumption).
    assert (DZ : pl_at (queue_of st2 e) (f_phi st + cq / cap_of nw e) = 0).
    { rewrite (qs_after _ _ _ QS) by qlra. change (queue_of st2 e) with (e_q (edge_of st2 e)). rewrite V6, V7. field. qlra. }
    rewrite (depleted_good st2 e (f_phi st) _ QS L (lo_len _ _ _ L2) DZ). cbn [bind].
    destruct (dq_set_ok (f_dq st2) e (f_phi st + cq / cap_of nw e) None (lo_dq _ _ _ L2)) as [q' [ES [K' P']]]. rewrite ES. cbn [bind]. apply good_ok.
    split; [split; [|eapply same_edges; [exact SI|reflexivity]]|].
    + eapply loc_trans; [exact L2|]. apply loc_dq; [apply L2|exact K'|]. intros j N. rewrite P'. destruct (Nat.eqb_spec e j); congruence.
    + cbn [set_dq f_dq]. rewrite P', Nat.eqb_refl. change (edge_of (set_dq st2 q') e) with (edge_of st2 e). exists g'. split; [exact B'|].
      apply RP1; [exact V2|exact V6|qlra| |rewrite V3; unfold ex; rewrite CQ; ring|exact V5|rewrite V4, V1; reflexivity].
      rewrite V7. field. qlra.
  - assert (Z : cq = 0) by qlra. eapply good_imp; [apply (drop_good st2 e (lo_dq _ _ _ L2) (lo_len _ _ _ L2))|].
    intros st3 _ [L3 [E3 P3]]. split; [split; [eapply loc_trans; eauto|eapply same_edges; [exact SI|apply E3]]|]. rewrite E3, P3. exists g'. split; [exact B'|].
    destruct (qeqbP cq 0) as [_|NZ]; [|contradiction].
    apply RZ; [rewrite V7; exact Z|exact V6|rewrite V2; qlra|rewrite V5, V2; reflexivity|rewrite V4, V1; reflexivity].
Qed.

Lemma case_ii_good st e g nf cq : flen st -> dq_ok (f_dq st) -> (e < n)%nat -> ebase (cap_of nw e) (tau_of nw e) (edge_of st e) g (f_phi st) -> is_snapshot nf ->
  g_vi g = nf -> g_si g = rates_sum nf -> 0 < rates_sum nf -> cq = pl_at (queue_of st e) (f_phi st) -> good (case_post e st) (case_ii true nw st e nf cq (rates_sum nf)).
Proof.
  intros F K L B SN GV GS RP CQ. destruct (getcap e L) as [GC CP]. destruct (gettau e L) as [GT TP]. pose proof (b_pp _ _ CP TP _ _ _ B) as QP. change (e_q (edge_of st e)) with (queue_of st e) in QP.
  unfold case_ii. rewrite GC, GT. cbn [bind]. eapply good_bind; [apply good_chk|]. intros uu _ CH. cbn beta in CH. clear uu.
  rewrite pydiv_ok by qlra. cbn [bind]. rewrite pydiv_ok by qlra. cbn [bind].
  replace (f_phi st + cq / cap_of nw e + tau_of nw e) with (ex (cap_of nw e) (tau_of nw e) (queue_of st e) (f_phi st)) by (unfold ex; rewrite CQ; reflexivity).
  set (fac := qmin (cap_of nw e) (rates_sum nf) / rates_sum nf).
  assert (MP : 0 < qmin (cap_of nw e) (rates_sum nf)) by (destruct (qmin_spec (cap_of nw e) (rates_sum nf)) as [[? ->]|[? ->]]; assumption).
  assert (FP : 0 < fac) by (apply qdiv_pos; assumption).
  assert (FS : rates_sum (scale fac nf) = qmin (cap_of nw e) (rates_sum nf)) by (rewrite sum_scale; apply qdiv_mul; qlra).
  rewrite <- FS at 1.
  eapply oq_good; [exact F|exact K|exact L|exact B|apply scale_snapshot; assumption|].
  intros st2 [L2 [[D2 SI] [g' [B' [V1 [V2 [V3 [V4 [V5 [V6 V7]]]]]]]]]]. rewrite GV in V1. rewrite GS in V2. rewrite FS in V5. rewrite <- CQ in V7, QP.
  eapply good_imp; [apply (drop_good st2 e (lo_dq _ _ _ L2) (lo_len _ _ _ L2))|].
  intros st3 _ [L3 [E3 P3]]. split; [split; [eapply loc_trans; eauto|eapply same_edges; [exact SI|apply E3]]|]. rewrite E3, P3. exists g'. split; [exact B'|].
  assert (RS : forall i, rate (g_vo g') i = fac * rate nf i) by (intro i; rewrite V4; apply rate_scale).
  apply orb_true_iff in CH. destruct (qlebP (cap_of nw e) (rates_sum nf)) as [C|C].
  - assert (MM : qmin (cap_of nw e) (rates_sum nf) = cap_of nw e) by (destruct (qmin_spec (cap_of nw e) (rates_sum nf)) as [[? ->]|[? ->]]; qlra).
    apply RG; [rewrite V2; exact C| |rewrite V5; exact MM|].
    + rewrite V6, V2. destruct (qmax_spec (rates_sum nf - cap_of nw e) 0) as [[? ->]|[? ->]]; qlra.
    + intro i. rewrite RS, V1, V2. unfold fac. rewrite MM. field. qlra.
  - assert (MM : qmin (cap_of nw e) (rates_sum nf) = rates_sum nf) by (destruct (qmin_spec (cap_of nw e) (rates_sum nf)) as [[? ->]|[? ->]]; qlra).
    assert (Z : cq = 0) by (destruct CH as [CH|CH]; [apply qeqb_true; exact CH|discriminate]).
    apply RZ; [rewrite V7; exact Z| |rewrite V2; qlra|rewrite V5, V2; exact MM|].
    + rewrite V6. destruct (qmax_spec (rates_sum nf - cap_of nw e) 0) as [[? ->]|[? ->]]; qlra.
    + intro i. rewrite RS, V1. unfold fac. rewrite MM. field. qlra.
Qed.

Lemma case_iii_good st e g nf cq : flen st -> dq_ok (f_dq st) -> (e < n)%nat -> ebase (cap_of nw e) (tau_of nw e) (edge_of st e) g (f_phi st) -> is_snapshot nf ->
  g_vi g = nf -> g_si g = rates_sum nf -> 0 < rates_sum nf -> rates_sum nf < cap_of nw e -> cq = pl_at (queue_of st e) (f_phi st) -> 0 < cq ->
  good (case_post e st) (case_iii true nw st e nf cq (rates_sum nf)).
Proof.
  intros F K L B SN GV GS RP RC CQ QP. destruct (getcap e L) as [GC CP]. destruct (gettau e L) as [GT TP].
  unfold case_iii. rewrite GC, GT. cbn [bind].
  rewrite pydiv_ok by qlra. cbn [bind]. rewrite pydiv_ok by qlra. cbn [bind].
  replace (f_phi st + cq / cap_of nw e + tau_of nw e) with (ex (cap_of nw e) (tau_of nw e) (queue_of st e) (f_phi st)) by (unfold ex; rewrite CQ; reflexivity).
  set (fac := cap_of nw e / rates_sum nf). assert (FP : 0 < fac) by (apply qdiv_pos; assumption).
  assert (FS : rates_sum (scale fac nf) = cap_of nw e) by (rewrite sum_scale; apply qdiv_mul; qlra).
  rewrite <- FS at 2. 
  eapply oq_good; [exact F|exact K|exact L|exact B|apply scale_snapshot; assumption|].
  intros st2 [L2 [[D2 SI] [g' [B' [V1 [V2 [V3 [V4 [V5 [V6 V7]]]]]]]]]]. rewrite GV in V1. rewrite GS in V2. rewrite FS in V5. rewrite <- CQ in V7.
  rewrite pydiv_ok by qlra. cbn [bind].
  assert (QS : qstate (queue_of st2 e) (f_phi st)) by (apply (b_q _ _ _ _ _ B')).
  set (D := f_phi st - cq / (rates_sum nf - cap_of nw e)).
  assert (DE : D = f_phi st + cq / (cap_of nw e - rates_sum nf)) by (unfold D; field; split; qlra).
  assert (DP : 0 < cq / (cap_of nw e - rates_sum nf)) by (apply qdiv_pos; qlra).
  assert (DZ : pl_at (queue_of st2 e) D = 0).
  { rewrite (qs_after _ _ _ QS) by qlra. change (queue_of st2 e) with (e_q (edge_of st2 e)). rewrite V6, V7. unfold D. field. qlra. }
  rewrite (depleted_good st2 e (f_phi st) _ QS L (lo_len _ _ _ L2) DZ). cbn [bind].
  destruct (dq_set_ok (f_dq st2) e D (Some (D + tau_of nw e, (nf, rates_sum nf))) (lo_dq _ _ _ L2)) as [q' [ES [K' P']]]. rewrite ES. cbn [bind]. apply good_ok.
  split; [split; [|eapply same_edges; [exact SI|reflexivity]]|].
  - eapply loc_trans; [exact L2|]. apply loc_dq; [apply L2|exact K'|]. intros j N. rewrite P'. destruct (Nat.eqb_spec e j); congruence.
  - cbn [set_dq f_dq]. rewrite P', Nat.eqb_refl. change (edge_of (set_dq st2 q') e) with (edge_of st2 e). exists g'. split; [exact B'|].
    rewrite <- V2, <- V1. apply RP2; rewrite ?V2; try assumption; [qlra| |].
    + rewrite V7. unfold D. field. qlra.
    + intro i. rewrite V4, V1, rate_scale. unfold fac. field. qlra.
Qed.

(** The inflow of one edge becomes [nf] from [p] on. *)
Definition in_set (p : Qc) (nf : rates) (c c' : FRC) : Prop :=
  forall i t, 0 <= t -> rate_of c' i t = if qleb p t then Ok (rate nf i) else rate_of c i t.
Definition edge_post (e : nat) (nf : rates) (st st' : Flow) : Prop :=
  (loc e st st' /\ in_set (f_phi st) nf (inflow_of st e) (inflow_of st' e) /\ keeps (f_phi st) (outflow_of st e) (outflow_of st' e) /\
   keepq (f_phi st) (queue_of st e) (queue_of st' e)) /\
  eok e (edge_of st' e) (f_phi st) (pend (f_dq st') e).
Lemma edge_good st e nf : ginv st (fun _ => f_phi st) -> (e < n)%nat -> is_snapshot nf ->
  good (fun st' => ginv st' (fun _ => f_phi st) /\ f_phi st' = f_phi st /\ edge_post e nf st st') (extend_edge true nw st (e, nf)).
Proof.
  intros G L SN. pose proof (gi_len _ _ G) as F. pose proof (gi_dq _ _ G) as K. destruct (gi_e _ _ G e L) as [g [B R]].
  destruct (getcap e L) as [GC CP]. destruct (gettau e L) as [GT TP].
  enough (H : good (edge_post e nf st) (extend_edge true nw st (e, nf))).
  { eapply good_imp; [exact H|]. intros st' _ EP. pose proof EP as [[LO _] EO]. split; [|split; [apply LO|exact EP]].
    pose proof (ginv_loc st st' (fun _ => f_phi st) e (f_phi st) L G LO EO) as [Q1 Q2 Q3 Q4]. constructor; auto.
    intros j Hj. specialize (Q3 j Hj). unfold at_ in Q3. destruct (Nat.eqb e j); exact Q3. }
  unfold extend_edge. cbn [fst snd]. rewrite (getn_lt _ _ frc_empty) by (rewrite (proj1 F); exact L). cbn [bind]. fold (inflow_of st e).
  pose proof (b_ti _ _ _ _ _ B) as TI. pose proof (head_le _ _ _ _ _ (b_in _ _ _ _ _ B)) as HD.
  destruct (fs_get _ _ _ _ _ (f_phi st) (b_in _ _ _ _ _ B) ltac:(qlra) TI) as [c1 [EG [F1 [A1 _]]]]. cbn [edge_of e_in] in EG, A1. rewrite EG. cbn [bind].
  destruct (loc_in e st c1 F K L) as [L1 E1]. set (st1 := set_in st (upd (f_in st) e c1)) in *.
  assert (B1 : ebase (cap_of nw e) (tau_of nw e) (edge_of st1 e) g (f_phi st)) by (rewrite E1; apply (L_get_in _ _ (edge_of st e) g (f_phi st) c1 B F1 A1)).
  destruct (rates_eqb (g_vi g) nf) eqn:RE.
  { apply good_ok. split; [split; [exact L1|split; [|split; [unfold outflow_of; apply keeps_refl|unfold queue_of; intros ? ?; reflexivity]]]|].
    { intros i t T0. change (inflow_of st1 e) with (e_in (edge_of st1 e)). rewrite E1. cbn [e_in]. pose proof (b_in _ _ _ _ _ B) as FI. cbn [edge_of e_in] in FI.
      rewrite (rate_of_eq _ _ _ _ _ i t F1 T0), (rate_of_eq _ _ _ _ _ i t FI T0). destruct (qlebP (f_phi st) t) as [C|C]; [|reflexivity].
      destruct (fs_after _ _ _ _ _ FI t ltac:(qlra)) as [_ [LR _]]. rewrite LR. f_equal. apply rates_eqb_rate; [apply (fs_v _ _ _ _ _ FI)|apply SN|exact RE]. }
    exists g. split; [exact B1|]. eapply R_same; [exact R|]. rewrite E1. reflexivity. }
  rewrite (getn_lt _ _ queue0) by (rewrite (proj2 (proj2 (lo_len _ _ _ L1))); exact L). cbn [bind].
  change (nth e (f_q st1) queue0) with (queue_of st e). change (f_phi st1) with (f_phi st).
  pose proof (b_q _ _ _ _ _ B) as QS. change (e_q (edge_of st e)) with (queue_of st e) in QS.
  rewrite (eval_from_end_eq _ _ (qs_v _ _ QS)), (qs_eval _ _ _ QS). cbn [bind].
  pose proof (b_pp _ _ CP TP _ _ _ B) as QP. change (e_q (edge_of st e)) with (queue_of st e) in QP.
  set (Q := pl_at (queue_of st e) (f_phi st)) in *.
  assert (QM : qmax Q 0 = Q) by (destruct (qmax_spec Q 0) as [[? ->]|[? ->]]; qlra). rewrite QM.
  eapply good_bind; [apply (fs_step c1 _ _ _ _ (f_phi st) nf F1 TI SN)|]. intros c2 _ [_ [F2 [A2 _]]].
  change (f_in st1) with (upd (f_in st) e c1).
  destruct (loc_in e st1 c2 (lo_len _ _ _ L1) (lo_dq _ _ _ L1) L) as [L2 E2]. change (f_in st1) with (upd (f_in st) e c1) in L2, E2.
  set (st2 := set_in st1 (upd (upd (f_in st) e c1) e c2)) in *.
  pose proof (L_in _ _ CP TP (edge_of st1 e) g (f_phi st) nf c2 B1 SN F2) as B2. 
  assert (EI : e_in (edge_of st1 e) = c1) by (rewrite E1; reflexivity). rewrite EI in B2. specialize (B2 A2).
  assert (EE : mkEdge c2 (e_out (edge_of st1 e)) (e_q (edge_of st1 e)) = edge_of st2 e) by (rewrite E2; reflexivity). rewrite EE in B2.
  assert (L12 : loc e st st2) by (eapply loc_trans; eauto).
  match type of B2 with ebase _ _ _ ?gg _ => set (g2 := gg) in * end.
  assert (TR : forall x, good (case_post e st2) x -> good (edge_post e nf st) x).
  { intros x H. eapply good_imp; [exact H|]. intros st' _ [[Y1 [Y3 Y4]] Y2]. split; [|change (f_phi st2) with (f_phi st) in Y2; exact Y2].
    split; [eapply loc_trans; eauto|]. split; [|exact Y4]. intros i t T0. rewrite Y3. change (inflow_of st2 e) with (e_in (edge_of st2 e)). rewrite E2. cbn [e_in].
    rewrite (step_rates _ _ _ _ _ _ _ _ _ _ _ i t F1 F2 T0). destruct (qleb (f_phi st) t); [reflexivity|].
    pose proof (b_in _ _ _ _ _ B) as FI. cbn [edge_of e_in] in FI. rewrite (rate_of_eq _ _ _ _ _ i t F1 T0), (rate_of_eq _ _ _ _ _ i t FI T0). reflexivity. }
  destruct (sum_nonneg nf (proj2 SN)) as [S1 S2].
  destruct (qeqbP (rates_sum nf) 0) as [Z|NZ].
  - apply TR. apply (case_i_good st2 e g2 Q (lo_len _ _ _ L2) (lo_dq _ _ _ L2) L B2); [cbn [g2 g_vi]; auto|cbn [g2 g_si]; exact Z|reflexivity].
  - rewrite GC. cbn [bind]. destruct (qeqb Q 0 || qleb (cap_of nw e - eps) (rates_sum nf))%bool eqn:BB; apply TR.
    + apply (case_ii_good st2 e g2 nf Q (lo_len _ _ _ L2) (lo_dq _ _ _ L2) L B2 SN); [reflexivity|reflexivity|qlra|reflexivity].
    + apply orb_false_iff in BB. destruct BB as [BB1 BB2]. apply qeqb_false in BB1. apply qleb_false in BB2. pose proof eps_pos.
      apply (case_iii_good st2 e g2 nf Q (lo_len _ _ _ L2) (lo_dq _ _ _ L2) L B2 SN); [reflexivity|reflexivity|qlra|qlra|reflexivity|qlra].
Qed.

(** ** Depletions *)
Lemma deplete_good st pf : ginv st pf -> (forall e, (e < n)%nat -> pf e <= f_phi st) ->
  ext_leb (dq_min_depl (f_dq st)) (Fin (f_phi st)) = true -> (0 <? dq_len (f_dq st))%nat = true ->
  good (fun st' => (exists pf', ginv st' pf' /\ (forall e, (e < n)%nat -> pf' e <= f_phi st) /\ (forall e, (e < n)%nat -> pf e <= pf' e)) /\ f_phi st' = f_phi st /\ (dq_len (f_dq st') < dq_len (f_dq st))%nat /\ forall e, (e < n)%nat -> same_in e (pf e) st st')
    (deplete_one true st).
Proof.
  intros G PF MIN LEN. pose proof (gi_len _ _ G) as F. pose proof (gi_dq _ _ G) as K. unfold deplete_one.
  destruct (dq_pop_ok (f_dq st) K) as [[N _]|[d [e [D [ch [EP [P [MN [K' [P' [LL EM]]]]]]]]]]].
  { exfalso. destruct (len_pos' _ LEN (dk_nd1 _ K)) as [it Q]. rewrite (pend_depl _ _ K), N in Q. congruence. }
  rewrite EM in MIN. cbn [ext_leb] in MIN. apply qleb_true in MIN.
  rewrite EP. cbn [bind].
  assert (L : (e < n)%nat). { destruct (Nat.lt_ge_cases e n) as [C|C]; [exact C|]. rewrite (gi_none _ _ G e C) in P. discriminate. }
  destruct (getcap e L) as [GC CP]. destruct (gettau e L) as [GT TP].
  destruct (gi_e _ _ G e L) as [g [B R]]. rewrite P in R.
  assert (DP : pf e <= D) by (inversion R; assumption).
  destruct (L_advance _ _ CP TP _ _ _ _ D B R DP) as [B1 R1]; [intros D' c' Z; injection Z as <- <-; qlra|].
  assert (NZ : pl_last (queue_of st e) <> 0 /\ pl_at (queue_of st e) D = 0).
  { inversion R1; subst; change (e_q (edge_of st e)) with (queue_of st e) in *; (split; [|]).
    - intro Z. qlra.
    - match goal with H : _ + _ * (D - D) = 0 |- _ => replace (D - D) with 0 in H by ring; rewrite Qcmult_0_r in H; qlra end.
    - intro Z. qlra.
    - match goal with H : _ = _ * (D - D) |- _ => rewrite H; ring end. }
  destruct NZ as [NZ QZ].
  assert (L0 : loc e st (set_dq st d)) by (apply loc_dq; [exact F|exact K'|intros j Nj; rewrite P'; destruct (Nat.eqb_spec e j); congruence]).
  change (edge_of st e) with (edge_of (set_dq st d) e) in B1, R1.
  eapply good_bind; [apply (queue_good (set_dq st d) e g D 0 F K' L B1)|]. intros st1 _ [L1 [D1 [C1 [q' [E1 [B2 [SL [QS [QA [QT QK]]]]]]]]]].
  change (queue_of (set_dq st d) e) with (queue_of st e) in QA, QT, QK. specialize (QT NZ).
  assert (QK' : keepq (pf e) (queue_of st e) q') by (intros t T; apply QK; qlra).
  rewrite (getn_lt _ _ queue0) by (rewrite (proj2 (proj2 (lo_len _ _ _ L1))); exact L). cbn [bind]. fold (queue_of st1 e).
  assert (QE : queue_of st1 e = q') by (change (queue_of st1 e) with (e_q (edge_of st1 e)); rewrite E1; reflexivity). rewrite QE.
  pose proof (qs_v _ _ QS) as VQ. pose proof (len_pos _ VQ) as LP.
  assert (VE : last (pl_values q') 0 = 0).
  { pose proof (at_tm q' (pl_len q' - 1) VQ ltac:(lia)) as A. rewrite QT, QA, QZ in A. symmetry in A. unfold vl in A. rewrite (v_len _ VQ) in A || idtac.
    unfold pl_len in A. rewrite <- (nthq_last (pl_values q') 0); [|intro Z; pose proof (v_len _ VQ) as VL; rewrite Z in VL; unfold pl_len in LP; unfold zlen in *; cbn [length] in *; lia].
    replace (zlen (pl_values q')) with (zlen (pl_times q')) by (unfold zlen; rewrite (v_len _ VQ); reflexivity). exact A. }
  assert (VN : pl_values q' <> []). { intro Z. pose proof (v_len _ VQ) as VL. rewrite Z in VL. unfold pl_len, zlen in LP. cbn [length] in *. lia. }
  rewrite (pyget_last _ 0 VN), VE. cbn [bind].
  destruct (qltbP (qabs 0) eps1000) as [_|C]; [|exfalso; apply C; replace (qabs 0) with 0 by reflexivity; exact eps1000_pos]. cbn [assertb bind].
  assert (FE : mkPL (pl_times q') (set_nth (pl_values q') (length (pl_values q') - 1) 0) (pl_first q') (pl_last q') (pl_lo q') (pl_hi q') = q').
  { destruct q' as [tt vv f l lo hi]. cbn [pl_times pl_values pl_first pl_last pl_lo pl_hi] in *. f_equal.
    rewrite <- (set_nth_same vv 0 (length vv - 1)) at 3. f_equal. rewrite <- VE. clear -VN. destruct vv as [|a vv] using rev_ind; [congruence|].
    rewrite last_last, app_length. cbn [length]. replace (length vv + 1 - 1)%nat with (length vv) by lia. rewrite app_nth2, Nat.sub_diag by lia. reflexivity. }
  rewrite FE.
  destruct (loc_q e st1 q' (lo_len _ _ _ L1) (lo_dq _ _ _ L1) L) as [L2 E2]. set (st2 := set_q st1 (upd (f_q st1) e q')) in *.
  assert (L02 : loc e st st2) by (eapply loc_trans; [exact L0|]; eapply loc_trans; eauto).
  assert (EE : edge_of st2 e = edge_of st1 e) by (rewrite E2, E1; unfold edge_of in E1; injection E1 as -> -> _; reflexivity).
  assert (D2 : f_dq st2 = d) by (change (f_dq st2) with (f_dq st1); rewrite D1; reflexivity).
  assert (FIN : forall st' , loc e st st' -> f_dq st' = d -> same_in e (pf e) st st' -> eok e (edge_of st' e) D None ->
     (exists pf', ginv st' pf' /\ (forall e, (e < n)%nat -> pf' e <= f_phi st) /\ (forall e, (e < n)%nat -> pf e <= pf' e)) /\ f_phi st' = f_phi st /\ (dq_len (f_dq st') < dq_len (f_dq st))%nat /\
     forall e, (e < n)%nat -> same_in e (pf e) st st').
  { intros st' LO DQ SI EO. split; [|split; [apply LO|split; [rewrite DQ; exact LL|]]].
    2:{ intros j Hj. destruct (Nat.eq_dec j e) as [->|NE]; [exact SI|]. pose proof (lo_e _ _ _ LO j NE) as Q. unfold edge_of in Q. injection Q as Q1 Q2 Q3. split; [exact Q1|]. split; [rewrite Q2; apply keeps_refl|rewrite Q3; intros ? ?; reflexivity]. }
    exists (at_ pf e D). split; [|split].
    - apply (ginv_loc st); auto. rewrite DQ, P', Nat.eqb_refl. exact EO.
    - intros j Hj. unfold at_. destruct (Nat.eqb e j); auto.
    - intros j Hj. unfold at_. destruct (Nat.eqb_spec e j) as [<-|]; [exact DP|qlra]. }
  rewrite <- EE in B2. assert (QE2 : e_q (edge_of st2 e) = q') by (rewrite E2; reflexivity).
  inversion R1; subst ch.
  - (* change of outflow *)
    assert (XE : D + tau_of nw e = ex (cap_of nw e) (tau_of nw e) (queue_of st2 e) D).
    { unfold ex. change (queue_of st2 e) with (e_q (edge_of st2 e)). rewrite QE2, QA, QZ. unfold Qcdiv. ring. }
    destruct (fs_v _ _ _ _ _ (b_in _ _ _ _ _ B)) as [SV SS]. rewrite XE. rewrite SS at 1.
    eapply good_imp; [apply (out_good st2 e g D (g_vi g) (lo_len _ _ _ L02) (lo_dq _ _ _ L02) L B2 SV)|].
    intros st3 _ [L3 [D3 [c' [g' [[E3 KP] [B3 EG]]]]]]. apply FIN; [eapply loc_trans; eauto|congruence| |].
    { pose proof (f_equal e_in E1) as I1. pose proof (f_equal e_out E1) as O1. pose proof (f_equal e_in E3) as I3. cbn [edge_of e_in e_out] in I1, O1, I3.
      change (inflow_of st2 e) with (inflow_of st1 e) in I3. change (outflow_of st2 e) with (outflow_of st1 e) in KP.
      change (inflow_of (set_dq st d) e) with (inflow_of st e) in I1. change (outflow_of (set_dq st d) e) with (outflow_of st e) in O1.
      split; [congruence|]. split; [rewrite O1 in KP; eapply keeps_le; [exact DP|exact KP]|]. pose proof (f_equal e_q E3) as Q3. cbn [edge_of e_q] in Q3. rewrite Q3. change (queue_of st2 e) with (e_q (edge_of st2 e)). rewrite QE2. exact QK'. }
    exists g'. split; [exact B3|]. subst g'. rewrite E3. change (queue_of st2 e) with (e_q (edge_of st2 e)). rewrite QE2.
    apply RZ; cbn [e_q g_si g_so g_vo g_vi]; [congruence|exact SL|qlra|symmetry; exact SS|reflexivity].
  - apply good_ok. apply FIN; auto.
    { pose proof (f_equal e_in E1) as I1. pose proof (f_equal e_out E1) as O1. cbn [edge_of e_in e_out] in I1, O1. split; [exact I1|].
      change (outflow_of st2 e) with (outflow_of st1 e). split; [rewrite O1; apply keeps_refl|]. change (queue_of st2 e) with (e_q (edge_of st2 e)). rewrite QE2. exact QK'. }
    exists g. split; [exact B2|].
    apply RZ; rewrite ?QE2; [congruence|exact SL|qlra|congruence|assumption].
Qed.
Lemma process_good : forall fuel st pf, ginv st pf -> (forall e, (e < n)%nat -> pf e <= f_phi st) -> (dq_len (f_dq st) < fuel)%nat ->
  good (fun st' => f_phi st' = f_phi st /\ ginv st' (fun _ => f_phi st) /\ forall e, (e < n)%nat -> same_in e (pf e) st st') (process_depletions fuel true st).
Proof.
  induction fuel as [|m IH]; intros st pf G PF FU; [lia|]. cbn [process_depletions].
  destruct (ext_leb (dq_min_depl (f_dq st)) (Fin (f_phi st)) && (0 <? dq_len (f_dq st))%nat)%bool eqn:B.
  - apply andb_true_iff in B. destruct B as [B1 B2]. eapply good_bind; [apply (deplete_good st pf G PF B1 B2)|].
    intros st1 _ [[pf1 [G1 [P1 P2]]] [E1 [L1 S1]]]. eapply good_imp; [apply (IH st1 pf1 G1)|]; [rewrite E1; exact P1|lia|].
    intros st2 _ [H1 [H2 H3]]. rewrite E1 in *. split; [exact H1|]. split; [exact H2|]. intros e L. destruct (S1 e L) as [I1 O1], (H3 e L) as [I2 O2].
    destruct O1 as [O1 U1], O2 as [O2 U2]. split; [congruence|]. split; [eapply keeps_trans; [exact O1|]; eapply keeps_le; [apply (P2 e L)|exact O2]|]. eapply keepq_trans; [apply (P2 e L)|exact U1|exact U2].
  - apply good_ok. split; [reflexivity|]. split; [|intros; split; [reflexivity|split; [apply keeps_refl|intros ? ?; reflexivity]]]. destruct G as [G1 G2 G3 G4]. constructor; auto. intros e L. destruct (G3 e L) as [g [B' R]].
    destruct (getcap e L) as [GC CP]. destruct (gettau e L) as [GT TP].
    destruct (L_advance _ _ CP TP _ _ _ _ (f_phi st) B' R (PF e L)) as [B1 R1]; [|exists g; auto].
    intros D ch P. apply andb_false_iff in B. destruct B as [B|B].
    + destruct (dq_min_depl_ok _ G2) as [[E N]|[x [E [_ LE]]]]; [exfalso; apply (N D); eauto|].
      rewrite E in B. cbn [ext_leb] in B. apply qleb_false in B. assert (x <= D) by (apply LE; eauto). qlra.
    + pose proof (len_zero _ B e) as Z. rewrite (pend_depl _ _ G2), P in Z. discriminate.
Qed.
Lemma pop_good : forall fuel st l, sq_nd (f_changes st) -> (sq_len (f_changes st) < fuel)%nat -> exists r, pop_changes fuel st l = Ok r.
Proof.
  induction fuel as [|m IH]; intros st l N FU; [lia|]. cbn [pop_changes].
  destruct (ext_leb (sq_min_key (f_changes st)) (Fin (f_phi st)) && (0 <? sq_len (f_changes st))%nat)%bool eqn:B; [|eauto].
  apply andb_true_iff in B. destruct B as [_ B]. destruct (pop_total _ (len_pos' _ B N)) as [c [it E]]. rewrite E. cbn [bind].
  destruct (pop_ok _ _ _ N E) as [-> KO]. apply IH; cbn [set_changes f_changes]; [apply nd_drop, N|].
  assert (sq_has (f_changes st) it = true) by (rewrite kof_has, KO; reflexivity). pose proof (drop_len _ _ H). lia.
Qed.
(** What [extend] with [new_inflow = ni] at time [p] does to the rates of edge [e]. *)
Definition rates_post (p : Qc) (ni : list (nat * rates)) (e : nat) (st st' : Flow) : Prop :=
  match dget ni e with
  | Some nf => in_set p nf (inflow_of st e) (inflow_of st' e)
  | None => inflow_of st' e = inflow_of st e
  end /\ keeps p (outflow_of st e) (outflow_of st' e).
Definition queue_post (p : Qc) (e : nat) (st st' : Flow) : Prop := keepq p (queue_of st e) (queue_of st' e).
Lemma fold_good : forall ni st, ginv st (fun _ => f_phi st) -> NoDup (map fst ni) -> (forall e d, In (e, d) ni -> (e < n)%nat /\ is_snapshot d) ->
  good (fun st' => ginv st' (fun _ => f_phi st) /\ f_phi st' = f_phi st /\ forall e, rates_post (f_phi st) ni e st st' /\ queue_post (f_phi st) e st st') (foldM (extend_edge true nw) ni st).
Proof.
  induction ni as [|[e d] r IH]; intros st G N H; cbn [foldM].
  - apply good_ok. split; [exact G|]. split; [reflexivity|]. intro e. split; [split; [reflexivity|apply keeps_refl]|intros ? ?; reflexivity].
  - destruct (H e d) as [H1 H2]; [left; reflexivity|]. cbn [map fst] in N. inversion N as [|? ? N1 N2]; subst. eapply good_bind; [apply (edge_good st e d G H1 H2)|].
    intros st1 _ [G1 [P1 [[LO [IS [KP KQ]]] _]]]. rewrite <- P1 in *. eapply good_imp; [apply IH; [exact G1|exact N2|intros; apply H; right; assumption]|].
    intros st2 _ [G2 [P2 R2]]. split; [exact G2|]. split; [exact P2|]. intro j. destruct (R2 j) as [[Q1 Q2] Q4]. unfold rates_post, queue_post in *. cbn [dget].
    destruct (Nat.eqb_spec e j) as [<-|NE].
    + rewrite (proj2 (dget_None _ _) N1) in Q1. split; [split; [intros i t T0; rewrite Q1; apply IS, T0|eapply keeps_trans; eassumption]|]. eapply keepq_trans; [|exact KQ|exact Q4]. qlra.
    + pose proof (lo_e _ _ _ LO j ltac:(congruence)) as Q. unfold edge_of in Q. injection Q as I1 O1 U1. split; [|rewrite <- U1; exact Q4]. split; [|rewrite <- O1; exact Q2].
      destruct (dget r j); [|congruence]. intros i t T0. rewrite <- I1. apply Q1, T0.
Qed.
Lemma next_phi_ge cs st0 st1 maxt : mid nw cs st0 st1 (f_phi st0) -> f_phi st0 <= maxt ->
  exists phi', ext_min (ext_min (dq_min_change (f_dq st1)) (sq_min_key (f_changes st1))) (Fin maxt) = Fin phi' /\ f_phi st0 <= phi'.
Proof.
  intros M MT. set (m1 := dq_min_change (f_dq st1)). set (m2 := sq_min_key (f_changes st1)).
  assert (X1 : ext_le (Fin (f_phi st0)) m1).
  { destruct (dq_min_change_ok _ (m_dq _ _ _ _ _ M)) as [[Ex _]|[x [Ex [[e [D [[v s] P]]] _]]]]; fold m1 in Ex; rewrite Ex; [exact Logic.I|].
    destruct (m_plan _ _ _ _ _ M e _ P) as [_ Q]. apply (Q x v s eq_refl). }
  assert (X2 : ext_le (Fin (f_phi st0)) m2).
  { destruct (min_key_ex _ (m_nd _ _ _ _ _ M)) as [[Ex _]|[[e t] Ex]]; fold m2 in Ex; [rewrite Ex; exact Logic.I|].
    rewrite (m_key _ _ _ _ _ M e t _ Ex). apply (m_low _ _ _ _ _ M e t). unfold has. rewrite Ex. discriminate. }
  destruct (ext_min_le m1 m2) as [_ [_ A3]]. destruct (ext_min_le (ext_min m1 m2) (Fin maxt)) as [_ [B2 B3]].
  assert (X3 : ext_le (Fin (f_phi st0)) (ext_min (ext_min m1 m2) (Fin maxt))) by (destruct B3 as [-> | ->]; [destruct A3 as [-> | ->]; assumption|exact MT]).
  destruct (ext_min (ext_min m1 m2) (Fin maxt)) as [|phi'|]; cbn [ext_le] in *; try contradiction. eauto.
Qed.

(** ** One call *)
Record full (cs : list call) (st : Flow) : Prop := { fl_ev : evinv nw cs st; fl_g : ginv st (fun _ => f_phi st) }.
Lemma extend_good_q cs st ni maxt : full cs st -> valid_call nw st (CExtend ni maxt) ->
  good (fun r => full (cs ++ [CExtend ni maxt]) (fst r) /\ forall e, (e < n)%nat -> rates_post (f_phi st) ni e st (fst r) /\ queue_post (f_phi st) e st (fst r)) (flow_extend true nw st ni maxt).
Proof.
  intros [EV G] V. destruct V as [V0 [V1 V2]].
  assert (EV' : evinv nw (cs ++ [CExtend ni maxt]) st) by (eapply evinv_more; [|exact EV]; intros; apply in_or_app; auto).
  assert (IC : In (CExtend ni maxt) (cs ++ [CExtend ni maxt])) by (apply in_or_app; right; left; reflexivity).
  assert (SN : forall e d, In (e, d) ni -> is_snapshot d) by (intros e d I; apply (V1 e d I)).
  enough (H : good (fun r => ginv (fst r) (fun _ => f_phi (fst r)) /\ forall e, (e < n)%nat -> rates_post (f_phi st) ni e st (fst r) /\ queue_post (f_phi st) e st (fst r)) (flow_extend true nw st ni maxt)).
  { eapply good_imp; [exact H|]. intros [st' ch] E [G' RP]. split; [|exact RP]. split; [|exact G'].
    apply (extend_events nw NW true _ st ni maxt st' ch EV' IC SN V2 E). }
  unfold flow_extend. eapply good_bind; [apply (fold_good ni st G V0 V1)|]. intros st1 E1 [G1 [P1 R1]].
  destruct (fold_eff nw NW true _ st ni maxt IC SN st st1 (evinv_mid nw NW _ _ EV') eq_refl E1) as [M1 _].
  destruct (next_phi_ge _ _ _ _ M1 V2) as [phi' [-> PP]].
  set (st2 := set_phi st1 phi').
  assert (G2 : ginv st2 (fun _ => f_phi st)) by (destruct G1 as [Q1 Q2 Q3 Q4]; constructor; auto).
  eapply good_bind; [apply (process_good _ st2 _ G2)|]; [intros; exact PP|lia|]. intros st3 E3 [P3 [G3 S3]].
  destruct (pop_good (Datatypes.S (sq_len (f_changes st3))) st3 []) as [[st4 ch] E4]; [|lia|].
  - assert (M2 : mid nw (cs ++ [CExtend ni maxt]) st st2 (f_phi st)) by (destruct M1 as [Q1 Q2 Q3 Q4 Q5 Q6]; constructor; auto).
    destruct (process_eff nw true _ _ _ _ _ _ M2 E3) as [M3 _]. apply M3.
  - rewrite E4. apply good_ok. cbn [fst].
    assert (M2 : mid nw (cs ++ [CExtend ni maxt]) st st2 (f_phi st)) by (destruct M1 as [Q1 Q2 Q3 Q4 Q5 Q6]; constructor; auto).
    destruct (process_eff nw true _ _ _ _ _ _ M2 E3) as [M3 _].
    apply pop_eff in E4; [|apply M3|apply M3]. destruct E4 as [H1 [H2 [H3 [H4 [H5 _]]]]].
    split.
    2:{ intros e L. destruct (R1 e) as [[R2 R3] R4], (S3 e L) as [I1 [O1 U1]]. change (queue_of st2 e) with (queue_of st1 e) in U1. change (inflow_of st2 e) with (inflow_of st1 e) in I1. change (outflow_of st2 e) with (outflow_of st1 e) in O1.
        assert (I4 : inflow_of st4 e = inflow_of st1 e) by (rewrite <- I1; unfold inflow_of; rewrite H2; reflexivity).
        assert (O4 : outflow_of st4 e = outflow_of st3 e) by (unfold outflow_of; rewrite H3; reflexivity).
        split; [split; [rewrite I4; exact R2|rewrite O4; eapply keeps_trans; eassumption]|]. unfold queue_post. assert (U4 : queue_of st4 e = queue_of st3 e) by (unfold queue_of; rewrite H4; reflexivity). rewrite U4. eapply keepq_trans; [|exact R4|exact U1]. qlra. }
    rewrite H1, P3. destruct G3 as [Q1 Q2 Q3 Q4]. constructor.
    + unfold flen in *. rewrite H2, H3, H4. exact Q1.
    + rewrite H5. exact Q2.
    + intros e L. specialize (Q3 e L). unfold edge_of, inflow_of, outflow_of, queue_of in *. rewrite H2, H3, H4, H5. exact Q3.
    + intros e L. rewrite H5. auto.
Qed.
Lemma extend_good cs st ni maxt : full cs st -> valid_call nw st (CExtend ni maxt) ->
  good (fun r => full (cs ++ [CExtend ni maxt]) (fst r) /\ forall e, (e < n)%nat -> rates_post (f_phi st) ni e st (fst r)) (flow_extend true nw st ni maxt).
Proof. intros F V. eapply good_imp; [apply (extend_good_q cs st ni maxt F V)|]. intros r _ [A B]. split; [exact A|]. intros e L. apply (B e L). Qed.
Lemma query_good cs st e : full cs st -> (e < n)%nat -> good (fun r => full (cs ++ [COutflow e]) (fst r)) (flow_step true nw st (COutflow e)).
Proof.
  intros [EV G] L.
  enough (H : good (fun r => ginv (fst r) (fun _ => f_phi (fst r))) (flow_step true nw st (COutflow e))).
  { eapply good_imp; [exact H|]. intros [st' ch] E G'. split; [|exact G'].
    eapply evinv_more; [|eapply (query_events nw cs st e st' ch true EV E)]. intros; apply in_or_app; auto. }
  cbn [flow_step]. pose proof (gi_len _ _ G) as F. rewrite (getn_lt _ _ frc_empty) by (rewrite (proj1 (proj2 F)); exact L). cbn [bind]. fold (outflow_of st e).
  destruct (gi_e _ _ G e L) as [g [B R]].
  destruct (fs_get' _ _ _ _ _ (f_phi st) (b_out _ _ _ _ _ B) (b_hd _ _ _ _ _ B)) as [c' [d [EG [_ [F1 [A1 H1]]]]]]. cbn [edge_of e_out] in EG, A1. rewrite EG. cbn [bind].
  apply good_ok. cbn [fst]. destruct (loc_out e st c' (f_changes st) F (gi_dq _ _ G) L) as [L1 E1].
  assert (EQ : set_changes (set_out st (upd (f_out st) e c')) (f_changes st) = set_out st (upd (f_out st) e c')) by reflexivity. rewrite EQ in L1, E1.
  assert (EO : eok e (edge_of (set_out st (upd (f_out st) e c')) e) (f_phi st) (pend (f_dq (set_out st (upd (f_out st) e c'))) e)).
  { rewrite E1. exists g. split; [apply (L_get_out _ _ (edge_of st e) g (f_phi st) c' B F1 A1 H1)|]. eapply R_same; [exact R|reflexivity]. }
  pose proof (ginv_loc st _ (fun _ => f_phi st) e (f_phi st) L G L1 EO) as [Q1 Q2 Q3 Q4]. constructor; auto.
  intros j Hj. specialize (Q3 j Hj). unfold at_ in Q3. change (f_phi (set_out st (upd (f_out st) e c'))) with (f_phi st). destruct (Nat.eqb e j); exact Q3.
Qed.
Lemma step_good cs st c : full cs st -> valid_call nw st c -> good (fun r => full (cs ++ [c]) (fst r)) (flow_step true nw st c).
Proof. intros F V. destruct c as [ni maxt|e]; [eapply good_imp; [apply extend_good; eassumption|intros ? _ [? _]; assumption]|apply query_good; [exact F|exact V]]. Qed.

Lemma init_full st : flow_init nw = Ok st -> full [] st.
Proof.
  intro H. destruct (init_events nw st H) as [EV PH]. split; [exact EV|]. unfold flow_init in H. rewrite frc_init_nil in H. cbn [bind] in H. apply ok_inj in H. subst st.
  constructor; cbn [f_in f_out f_q f_dq f_phi].
  - unfold flen. cbn [f_in f_out f_q]. rewrite !repeat_length. auto.
  - apply dq_empty_ok.
  - intros e L. rewrite dq_empty_pend. unfold edge_of, inflow_of, outflow_of, queue_of. cbn [f_in f_out f_q]. rewrite !nth_repeat.
    destruct (getcap e L) as [GC CP]. destruct (gettau e L) as [GT TP].
    assert (X0 : ex (cap_of nw e) (tau_of nw e) queue0 0 = tau_of nw e) by (unfold ex; rewrite queue0_at; unfold Qcdiv; ring).
    exists (mkG es0 0 [] 0 es0 0 [] 0). split.
    + constructor; cbn [e_in e_out e_q g_in g_ti g_vi g_si g_out g_to g_vo g_so].
      * apply empty_state.
      * apply empty_state.
      * qlra.
      * apply queue0_state.
      * pose proof (head_le _ _ _ _ _ empty_state). exact H.
      * rewrite X0. exact TP.
      * intros. apply queue0_at.
      * intros. rewrite queue0_at. qlra.
      * intros t T0 Tp. rewrite queue0_at. assert (t = 0) by qlra. subst t.
        destruct (fs_after _ _ _ _ _ empty_state (0 + tau_of nw e) ltac:(qlra)) as [_ [_ A]]. rewrite A, (fs_zero _ _ _ _ _ empty_state). ring.
      * intros t T0 Tp. exfalso. qlra.
      * intros t T0 Tp. destruct (fs_after _ _ _ _ _ empty_state t T0) as [A _]. exact A.
      * intros t u T0 Tu Up. assert (t = u) by qlra. subst. qlra.
      * intros t T0 Tp. exfalso. qlra.
      * intros t Tp. rewrite X0. intro. exfalso. qlra.
      * intros t Tp. rewrite X0. intro. assert (t = 0) by qlra. subst t. ring.
    + apply RZ; cbn [e_q g_si g_so g_vo g_vi]; [apply queue0_at|reflexivity|qlra|reflexivity|reflexivity].
  - intros. apply dq_empty_pend.
Qed.
End Run.

(** ** Erasure: a completed instrumented computation is a computation of the code *)
Definition refines {A} (x y : res A) : Prop := forall a, x = Ok a -> y = Ok a.
Lemma ref_refl {A} (x : res A) : refines x x.
Proof. intros a H. exact H. Qed.
Lemma ref_bind {A B} (x y : res A) (f g : A -> res B) : refines x y -> (forall a, refines (f a) (g a)) -> refines (bind x f) (bind y g).
Proof. intros H1 H2 b H. binv H. rewrite (H1 _ E). cbn [bind]. apply H2. exact H. Qed.
Lemma ref_chk b : refines (chk true b) (chk false b).
Proof. intros a _. destruct a. reflexivity. Qed.
Lemma ref_c c t v s : refines (c_extend true c t v s) (c_extend false c t v s).
Proof. apply ref_bind; [apply ref_chk|intro; apply ref_refl]. Qed.
Lemma ref_q f t s : refines (q_extend true f t s) (q_extend false f t s).
Proof. apply ref_bind; [apply ref_chk|intro; apply ref_refl]. Qed.
Lemma ref_out st e t v s : refines (out_extend true st e t v s) (out_extend false st e t v s).
Proof. apply ref_bind; [apply ref_refl|]. intro. apply ref_bind; [apply ref_c|intro; apply ref_refl]. Qed.
Lemma ref_queue st e t s : refines (queue_extend true st e t s) (queue_extend false st e t s).
Proof. apply ref_bind; [apply ref_refl|]. intro. apply ref_bind; [apply ref_q|intro; apply ref_refl]. Qed.
Ltac ref_go := repeat first
  [ apply ref_refl | apply ref_c | apply ref_q | apply ref_out | apply ref_queue | apply ref_chk
  | apply ref_bind; [|intro] ].
Lemma ref_i nw st e cq : refines (case_i true nw st e cq) (case_i false nw st e cq).
Proof. unfold case_i. ref_go. Qed.
Lemma ref_ii nw st e nf cq a : refines (case_ii true nw st e nf cq a) (case_ii false nw st e nf cq a).
Proof. unfold case_ii. ref_go. Qed.
Lemma ref_iii nw st e nf cq a : refines (case_iii true nw st e nf cq a) (case_iii false nw st e nf cq a).
Proof. unfold case_iii. ref_go. Qed.
Lemma ref_edge nw st p : refines (extend_edge true nw st p) (extend_edge false nw st p).
Proof.
  unfold extend_edge. apply ref_bind; [apply ref_refl|intro c]. apply ref_bind; [apply ref_refl|intros [c1 old]].
  destruct (rates_eqb old (snd p)); [apply ref_refl|]. apply ref_bind; [apply ref_refl|intro]. apply ref_bind; [apply ref_refl|intro].
  apply ref_bind; [apply ref_c|intro]. destruct (qeqb _ 0); [apply ref_i|]. apply ref_bind; [apply ref_refl|intro].
  destruct (_ || _)%bool; [apply ref_ii|apply ref_iii].
Qed.
Lemma ref_fold nw l : forall st, refines (foldM (extend_edge true nw) l st) (foldM (extend_edge false nw) l st).
Proof. induction l as [|p r IH]; intro st; cbn [foldM]; [apply ref_refl|]. apply ref_bind; [apply ref_edge|exact IH]. Qed.
Lemma ref_deplete st : refines (deplete_one true st) (deplete_one false st).
Proof.
  unfold deplete_one. apply ref_bind; [apply ref_refl|intros [d [[e t] ch]]]. destruct t as [|t|]; try apply ref_refl.
  apply ref_bind; [apply ref_queue|intro]. apply ref_bind; [apply ref_refl|intro]. apply ref_bind; [apply ref_refl|intro]. apply ref_bind; [apply ref_refl|intro].
  destruct ch as [[[|ct|] [v s]]|]; try apply ref_refl. apply ref_out.
Qed.
Lemma ref_process fuel : forall st, refines (process_depletions fuel true st) (process_depletions fuel false st).
Proof. induction fuel as [|m IH]; intro st; cbn [process_depletions]; [apply ref_refl|]. destruct (_ && _)%bool; [|apply ref_refl]. apply ref_bind; [apply ref_deplete|exact IH]. Qed.
Lemma ref_extend nw st ni maxt : refines (flow_extend true nw st ni maxt) (flow_extend false nw st ni maxt).
Proof.
  unfold flow_extend. apply ref_bind; [apply ref_fold|intro]. destruct (ext_min _ _); try apply ref_refl. apply ref_bind; [apply ref_process|intro; apply ref_refl].
Qed.
Lemma ref_step nw st c : refines (flow_step true nw st c) (flow_step false nw st c).
Proof. destruct c; [apply ref_extend|apply ref_refl]. Qed.
Lemma ref_from nw cs : forall st, refines (flow_from true nw st cs) (flow_from false nw st cs).
Proof. induction cs as [|c r IH]; intro st; cbn [flow_from]; [apply ref_refl|]. apply ref_bind; [apply ref_step|intros [st' ch]; apply IH]. Qed.
Lemma erase_run nw cs : refines (flow_run true nw cs) (flow_run false nw cs).
Proof. apply ref_bind; [apply ref_refl|intro; apply ref_from]. Qed.

Lemma from_good nw (NW : net_ok nw) : forall cs cs0 st, full nw cs0 st -> valid_from nw st cs -> good (full nw (cs0 ++ cs)) (flow_from true nw st cs).
Proof.
  induction cs as [|c r IH]; intros cs0 st F V; cbn [flow_from].
  - apply good_ok. rewrite app_nil_r. exact F.
  - destruct V as [V1 V2]. eapply good_bind; [apply (step_good nw NW cs0 st c F V1)|]. intros [st1 ch] E F1. cbn [fst] in F1.
    specialize (IH (cs0 ++ [c]) st1 F1 (V2 st1 ch (ref_step _ _ _ _ E))). rewrite <- app_assoc in IH. exact IH.
Qed.
Lemma run_good nw cs : net_ok nw -> valid_run nw cs -> good (full nw cs) (flow_run true nw cs).
Proof.
  intros NW V. unfold flow_run. assert (EX : exists st, flow_init nw = Ok st) by (unfold flow_init; rewrite frc_init_nil; cbn [bind]; eauto).
  destruct EX as [st E]. rewrite E. cbn [bind]. apply (from_good nw NW cs [] st (init_full nw NW st E) (V st E)).
Qed.
