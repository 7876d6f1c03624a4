(** * DynamicFlow property C76: the computed part of a flow is final *)
From Verif Require Import Base Spec Arrays PL PLProofs RC FRC FRCProofs FRCExact PQ PQProofs PQSpec DynFlow DQProofs DynRun DynEvents DynEdge DynFlowProofs PropFlow PropFlow2.

(** Rates of the past and queues up to now are the same in both flows. *)
Definition same_past (e : nat) (st st' : Flow) : Prop :=
  f_phi st <= f_phi st' /\
  (forall i t, 0 <= t -> t < f_phi st -> rate_of (inflow_of st' e) i t = rate_of (inflow_of st e) i t) /\
  (forall i t, 0 <= t -> t < f_phi st -> rate_of (outflow_of st' e) i t = rate_of (outflow_of st e) i t) /\
  (forall t, t <= f_phi st -> pl_eval (queue_of st' e) t = pl_eval (queue_of st e) t).
Lemma same_past_refl e st : same_past e st st.
Proof. split; [qlra|]. split; [reflexivity|]. split; reflexivity. Qed.
Lemma same_past_trans e a b c : same_past e a b -> same_past e b c -> same_past e a c.
Proof.
  intros [A1 [A2 [A3 A4]]] [B1 [B2 [B3 B4]]]. split; [qlra|]. split; [|split].
  - intros i t T0 T1. rewrite B2 by (auto; qlra). apply A2; assumption.
  - intros i t T0 T1. rewrite B3 by (auto; qlra). apply A3; assumption.
  - intros t T. rewrite B4 by qlra. apply A4, T.
Qed.
Lemma full_queue nw cs st e t : full nw cs st -> (e < length (n_cap nw))%nat -> pl_eval (queue_of st e) t = Ok (pl_at (queue_of st e) t).
Proof. intros [_ G] L. destruct (gi_e _ _ _ G e L) as [g [B _]]. exact (qs_eval _ _ t (b_q _ _ _ _ _ B)). Qed.
Lemma post_past nw cs cs' st st' ni e : net_ok nw -> full nw cs st -> full nw cs' st' -> f_phi st <= f_phi st' -> (e < length (n_cap nw))%nat ->
  rates_post (f_phi st) ni e st st' -> queue_post (f_phi st) e st st' -> same_past e st st'.
Proof.
  intros NW F F' P L [R1 R2] R3. split; [exact P|]. split; [|split].
  - intros i t T0 T1. destruct (dget ni e) as [nf|]; [|rewrite R1; reflexivity]. rewrite (R1 i t T0). destruct (qlebP (f_phi st) t) as [C|C]; [exfalso; qlra|reflexivity].
  - exact R2.
  - intros t T. rewrite (full_queue nw cs' st' e t F' L), (full_queue nw cs st e t F L), (R3 t T). reflexivity.
Qed.
Lemma step_past nw cs st c e : net_ok nw -> full nw cs st -> valid_call nw st c -> (e < length (n_cap nw))%nat ->
  good (fun r => full nw (cs ++ [c]) (fst r) /\ same_past e st (fst r)) (flow_step true nw st c).
Proof.
  intros NW F V L. destruct c as [ni maxt|j].
  - cbn [flow_step]. eapply good_imp; [apply (extend_good_q nw NW cs st ni maxt F V)|]. intros [st' ch] E [F' RP]. cbn [fst] in *. split; [exact F'|].
    destruct (RP e L) as [R1 R2]. eapply post_past; eauto. destruct V as [V0 [V1 V2]].
    assert (EV : evinv nw (cs ++ [CExtend ni maxt]) st) by (eapply evinv_more; [|apply (fl_ev _ _ _ F)]; intros; apply in_or_app; auto).
    assert (IC : In (CExtend ni maxt) (cs ++ [CExtend ni maxt])) by (apply in_or_app; right; left; reflexivity).
    assert (SN : forall x d, In (x, d) ni -> is_snapshot d) by (intros x d I; apply (V1 x d I)).
    destruct (extend_events nw NW true _ st ni maxt st' ch EV IC SN V2 E) as [S1 _]. exact S1.
  - eapply good_imp; [apply (query_good nw cs st j F V)|]. intros [st' ch] E F'. split; [exact F'|]. cbn [fst] in *. cbn [flow_step] in E.
    apply bind_ok in E. destruct E as [c [E1 E]]. apply bind_ok in E. destruct E as [[c' d] [E2 E]]. injection E as <- <-.
    split; [cbn; qlra|]. split; [reflexivity|]. split; [|reflexivity].
    intros i t T0 T1. unfold outflow_of. cbn [set_out f_out]. destruct (Nat.eq_dec j e) as [->|NE].
    + rewrite nth_upd_same by (destruct F as [_ G]; rewrite (proj1 (proj2 (gi_len _ _ _ G))); exact L).
      assert (NC : nth e (f_out st) frc_empty = c) by (unfold getn in E1; destruct (nth_error (f_out st) e) eqn:N; [|discriminate]; injection E1 as <-; apply nth_error_nth; exact N).
      rewrite NC. unfold rate_of. assert (EF : c_fns c' = c_fns c); [|rewrite EF; reflexivity].
      destruct (gi_e _ _ _ (fl_g _ _ _ F) e L) as [g [B R]].
      destruct (frc_get_ok _ _ _ _ (f_phi st) (fs_inv _ _ _ _ _ (b_out _ _ _ _ _ B))) as [_ KK]. cbn [edge_of e_out] in KK. unfold outflow_of in KK. rewrite NC in KK.
      destruct KK as [c2 [p [EE [_ [_ [_ [H2 _]]]]]]]; [|congruence].
      pose proof (b_hd _ _ _ _ _ B) as HD. cbn [edge_of e_out] in HD. unfold outflow_of in HD. rewrite NC in HD. exact HD.
    + rewrite nth_upd_other by exact NE. reflexivity.
Qed.
Lemma from_past nw e : net_ok nw -> (e < length (n_cap nw))%nat -> forall cs2 cs1 st1, full nw cs1 st1 -> valid_from nw st1 cs2 ->
  good (same_past e st1) (flow_from true nw st1 cs2).
Proof.
  intros NW L. induction cs2 as [|c cs2 IH]; intros cs1 st1 F V; cbn [flow_from]; [apply good_ok, same_past_refl|]. destruct V as [V1 V2].
  eapply good_bind; [apply (step_past nw cs1 st1 c e NW F V1 L)|]. intros [st' ch] E [F' SP]. cbn [fst] in *.
  eapply good_imp; [apply (IH _ st' F')|].
  - apply (V2 st' ch). apply ref_step. exact E.
  - intros st2 _ SP2. eapply same_past_trans; eauto.
Qed.
Lemma from_app k nw : forall cs1 cs2 st, flow_from k nw st (cs1 ++ cs2) = (st1 <- flow_from k nw st cs1 ;; flow_from k nw st1 cs2).
Proof.
  induction cs1 as [|c r IH]; intros cs2 st; cbn [app flow_from bind]; [reflexivity|]. destruct (flow_step k nw st c) as [[st' ch]|x]; cbn [bind]; [apply IH|reflexivity].
Qed.
Lemma run_app k nw cs1 cs2 : flow_run k nw (cs1 ++ cs2) = (st1 <- flow_run k nw cs1 ;; flow_from k nw st1 cs2).
Proof. unfold flow_run. destruct (flow_init nw) as [st|x]; cbn [bind]; [apply from_app|reflexivity]. Qed.
Lemma valid_split nw : forall cs1 cs2 st, valid_from nw st (cs1 ++ cs2) -> valid_from nw st cs1 /\ forall st1, flow_from false nw st cs1 = Ok st1 -> valid_from nw st1 cs2.
Proof.
  induction cs1 as [|c r IH]; intros cs2 st V; cbn [app valid_from flow_from] in *; [split; [exact Logic.I|intros st1 E; injection E as <-; exact V]|].
  destruct V as [V1 V2]. split.
  - split; [exact V1|]. intros st' ch E. apply (IH cs2 st' (V2 st' ch E)).
  - intros st1 E. apply bind_ok in E. destruct E as [[st' ch] [E1 E2]]. apply (proj2 (IH cs2 st' (V2 st' ch E1)) st1 E2).
Qed.

(** ** C76 *)
(** Let a valid clean run of calls lead to [st1], and further calls to [st2].
    Then, on every edge, the rates before [f_phi st1] and the queue up to
    [f_phi st1] are the same in [st2] as in [st1]. *)
Theorem C76_final : forall nw calls1 calls2 st1 st2 e,
  net_ok nw -> valid_run nw (calls1 ++ calls2) -> clean_run nw (calls1 ++ calls2) ->
  flow_run false nw calls1 = Ok st1 -> flow_run false nw (calls1 ++ calls2) = Ok st2 -> (e < length (n_cap nw))%nat ->
  same_past e st1 st2.
Proof.
  intros nw cs1 cs2 st1 st2 e NW V C R1 R2 L.
  assert (V1 : valid_run nw cs1) by (intros st I; apply (valid_split nw cs1 cs2 st (V st I))).
  assert (C1 : clean_run nw cs1) by (unfold clean_run in *; intro Q; apply C; rewrite run_app, Q; reflexivity).
  pose proof (clean_full nw cs1 st1 NW V1 C1 R1) as F1.
  assert (T1 : flow_run true nw cs1 = Ok st1).
  { pose proof (run_good nw cs1 NW V1) as G. unfold clean_run in C1. destruct (flow_run true nw cs1) as [st'|x] eqn:E; cbn [good] in G.
    - pose proof (erase_run nw cs1 st' E) as E'. congruence.
    - exfalso. destruct x; tauto. }
  assert (V2 : valid_from nw st1 cs2).
  { unfold flow_run in R1. apply bind_ok in R1. destruct R1 as [st0 [I R1]]. apply (proj2 (valid_split nw cs1 cs2 st0 (V st0 I)) st1 R1). }
  pose proof (from_past nw e NW L cs2 cs1 st1 F1 V2) as G. unfold clean_run in C. rewrite run_app, T1 in C. cbn [bind] in C.
  rewrite run_app, R1 in R2. cbn [bind] in R2. destruct (flow_from true nw st1 cs2) as [st'|x] eqn:E; cbn [good] in G.
  - pose proof (ref_from nw cs2 st1 st' E) as E'. rewrite R2 in E'. apply ok_inj in E'. subst st'. exact G.
  - exfalso. destruct x; tauto.
Qed.
Print Assumptions C76_final.

(** ** Non-vacuity: the run of PropFlow.v after 7 and after all calls: at time 6
    of 8 computed so far, the queue is 2, inflow 1/2 and outflow 1/3 and 2/3. *)
Example C76_example : net_ok ex_net /\ valid_run ex_net (firstn 7 ex_calls ++ skipn 7 ex_calls) /\ clean_run ex_net (firstn 7 ex_calls ++ skipn 7 ex_calls) /\
  map (fun n => match flow_run false ex_net (firstn n ex_calls) with
    | Ok st => Some (this (f_phi st), showq (pl_eval (queue_of st 0) (qz 6)), showq (rate_of (inflow_of st 0) 0 (qz 6)), map (fun i => showq (rate_of (outflow_of st 0) i (qz 6))) [0; 1]%nat,
                     showq (rate_of (inflow_of st 0) 0 (qz 8)))
    | Err _ => None end) [7; 9]%nat =
  [Some (8, Some 2, Some (1 # 2), [Some (1 # 3); Some (2 # 3)], Some (1 # 2)); Some (20, Some 2, Some (1 # 2), [Some (1 # 3); Some (2 # 3)], Some 0)]%Q.
Proof. rewrite firstn_skipn. split; [apply ex_valid|]. split; [apply ex_valid|]. split; [apply ex_clean|]. vm_compute. reflexivity. Qed.
