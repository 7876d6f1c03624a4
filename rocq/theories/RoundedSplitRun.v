(** * FlowBuilder with rounding: all rates are non-negative floats, and the routes (for C124) *)
From Coq Require Import Permutation.
From Verif Require Import Base Spec Arrays ArraysProofs PL PLMono RC FRC FRCProofs PQ PQProofs PQSpec DynFlow DQProofs DynRun DynEvents DynEdge TotalSpec
  Graph GraphSpec GraphProofs Dijkstra DijkstraSpec DijkstraProofs FlowBuilder FlowBuilderProofs BuilderRun Rounded RoundedFlow OptTotal RoundedFlowProofs RoundedBuilder RoundedSplit.

(** Non-negative floats. *)
Definition good_rates (rnd : Qc -> Qc) (d : rates) : Prop := forall i v, In (i, v) d -> 0 <= v /\ float rnd v.
(** ** DynamicFlow *)
Section Run.
Variables (rnd : Qc -> Qc) (on : bool) (nw : Net).
Hypothesis RND : rounding rnd.
Hypothesis SN : forall e c, nth_error (n_cap nw) e = Some c -> 0 <= c.
Notation W := (good_rates rnd).
Record J (st : Flow) : Prop := {
  j_dq : dq_ok (f_dq st);
  j_out : forall e it, In it (c_chain (nth e (f_out st) frc_empty)) -> W (it_vals it);
  j_pend : forall e D ct v s, pend (f_dq st) e = Some (D, Some (ct, (v, s))) -> W v }.
Lemma j_nil : W [].
Proof. intros i v []. Qed.
Lemma j_def it : In it (c_chain frc_empty) -> W (it_vals it).
Proof. intros [<-|[]]. exact j_nil. Qed.
Lemma j_frc c t v s c' : r_frc_extend rnd on c t v s = Ok c' -> exists it, c_chain c' = c_chain c ++ [it] /\ it_vals it = v.
Proof.
  unfold r_frc_extend, r_new_item. intro H. repeat binv H. apply ok_inj in H. subst c'. cbn [c_chain]. exists a. split; [reflexivity|]. binv E. apply ok_inj in E. subst a. reflexivity.
Qed.
Lemma j_outx st e t v s st' : J st -> W v -> r_out_extend rnd on st e t v s = Ok st' -> J st' /\ f_dq st' = f_dq st.
Proof.
  intros [JD JO JP] L H. unfold r_out_extend in H. repeat binv H. apply ok_inj in H. subst st'. destruct (j_frc _ _ _ _ _ E0) as (it & CH & IV). split; [|reflexivity]. constructor; cbn [set_changes set_out f_dq f_out]; auto.
  intros e' i. rewrite nth_upd. destruct (Nat.eqb_spec e e') as [->|]; [|apply JO]. destruct (Nat.ltb_spec e' (length (f_out st))); [|apply j_def]. rewrite CH. rewrite in_app_iff. intros [Q|[<-|[]]]; [|rewrite IV; exact L].
  apply (JO e' i). rewrite (RoundedFlowProofs.getn_nth _ _ _ frc_empty E). exact Q.
Qed.
Lemma j_queue st e t s st' : J st -> r_queue_extend rnd on st e t s = Ok st' -> J st' /\ f_dq st' = f_dq st.
Proof. intros [JD JO JP] H. unfold r_queue_extend in H. repeat binv H. apply ok_inj in H. subst st'. split; [constructor; auto|reflexivity]. Qed.
Lemma j_drop st e st' : J st -> drop_depletion st e = Ok st' -> J st'.
Proof.
  intros [JD JO JP] H. unfold drop_depletion in H. destruct (dq_has (f_dq st) e); [|apply ok_inj in H; subst; constructor; auto]. pose proof (dq_remove_ok (f_dq st) e JD) as R.
  destruct (pend (f_dq st) e); [|rewrite R in H; discriminate]. destruct R as (q & E & K & P). rewrite E in H. cbn [bind] in H. apply ok_inj in H. subst st'. constructor; cbn [set_dq f_dq f_out]; auto.
  intros e' D ct v s. rewrite P. destruct (Nat.eqb e e'); [discriminate|apply JP].
Qed.
Lemma j_set st e t ch d : J st -> (forall ct v s, ch = Some (ct, (v, s)) -> W v) -> dq_set (f_dq st) e t ch = Ok d -> J (set_dq st d).
Proof.
  intros [JD JO JP] W H. destruct (dq_set_ok (f_dq st) e t ch JD) as (q & E & K & P). rewrite E in H. apply ok_inj in H. subst q. constructor; cbn [set_dq f_dq f_out]; auto.
  intros e' D ct v s. rewrite P. destruct (Nat.eqb_spec e e') as [->|]; [intro Q; injection Q as _ Q; apply (W ct v s Q)|apply JP].
Qed.
Lemma j_cap e cap : getn (n_cap nw) e = Ok cap -> 0 <= cap.
Proof. intro H. apply (SN e). unfold getn in H. destruct (nth_error (n_cap nw) e); [apply ok_inj in H; congruence|discriminate]. Qed.
Lemma fdiv_inv x y z : fdiv rnd x y = Ok z -> z = rnd (x / y).
Proof. unfold fdiv. intro H. repeat binv H. apply ok_inj in H. subst z. unfold pydiv in E. destruct (qeqb y 0); [discriminate|]. apply ok_inj in E. subst. reflexivity. Qed.
Lemma j_i st e q st' : J st -> r_case_i rnd on nw st e q = Ok st' -> J st'.
Proof.
  intros JS H. unfold r_case_i in H. repeat binv H. apply j_outx in E2; [|exact JS|exact j_nil]. destruct E2 as [J1 _]. apply j_queue in E3; [|exact J1]. destruct E3 as [J2 _]. destruct (qltb 0 q).
  - repeat binv H. apply ok_inj in H. subst st'. eapply j_set; [exact J2| |exact E3]. discriminate.
  - eapply j_drop; eauto.
Qed.
Lemma rnd_nn x : 0 <= x -> 0 <= rnd x.
Proof. intro H. pose proof (rnd_mono rnd RND 0 x H) as M. rewrite (rnd_0 rnd RND) in M. exact M. Qed.
Lemma sum_nn nf : W nf -> 0 <= r_rates_sum rnd nf.
Proof.
  intro H. unfold r_rates_sum. assert (K : forall l a, (forall i v, In (i, v) l -> 0 <= v) -> 0 <= a -> 0 <= fold_left (fun acc (p : nat * Qc) => rnd (acc + snd p)) l a).
  { clear nf H. induction l as [|[i v] l IH]; intros a P A; cbn [fold_left]; [exact A|]. apply IH; [intros; apply (P i0); right; auto|]. cbn [snd]. apply rnd_nn. pose proof (P i v (or_introl eq_refl)). qlra. }
  apply K; [intros i v I; apply (H i v I)|qlra].
Qed.
Lemma scale_W nf s F : W nf -> 0 <= s -> fdiv rnd s (r_rates_sum rnd nf) = Ok F -> W (r_scale rnd F nf).
Proof.
  intros H S0 D i v I. pose proof (fdiv_inv _ _ _ D) as FE. assert (NZ : r_rates_sum rnd nf <> 0). { intro Z. unfold fdiv, pydiv in D. rewrite Z in D. destruct (qeqbP 0 0) as [_|B]; [discriminate D|contradiction]. }
  pose proof (sum_nn nf H) as A0. unfold r_scale in I. apply in_map_iff in I. destruct I as [[j x] [E I]]. cbn [fst snd] in E. injection E as <- <-. destruct (H j x I) as [X0 _].
  assert (F0 : 0 <= F). { rewrite FE. apply rnd_nn. apply qdiv_nonneg; [exact S0|]. destruct (qltbP 0 (r_rates_sum rnd nf)) as [|N]; [assumption|]. exfalso. apply NZ. qlra. }
  split; [apply rnd_nn, qmul_nn; assumption|apply (rnd_idem rnd RND)].
Qed.
Lemma j_ii st e nf q st' : J st -> W nf -> r_case_ii rnd on nw st e nf q (r_rates_sum rnd nf) = Ok st' -> J st'.
Proof.
  intros JS SI H. unfold r_case_ii in H. repeat binv H. pose proof (j_cap _ _ E) as C1. apply j_outx in E3; [|exact JS|].
  - destruct E3 as [J1 _]. apply j_queue in E4; [|exact J1]. destruct E4 as [J2 _]. eapply j_drop; eauto.
  - eapply scale_W; [exact SI| |exact E2]. pose proof (sum_nn nf SI) as A0. revert A0. generalize (r_rates_sum rnd nf). intros A A0. qmm; qlra.
Qed.
Lemma j_iii st e nf q st' : J st -> W nf -> r_case_iii rnd on nw st e nf q (r_rates_sum rnd nf) = Ok st' -> J st'.
Proof.
  intros JS SI H. unfold r_case_iii in H. repeat binv H. pose proof (j_cap _ _ E) as C1. apply j_outx in E3; [|exact JS|].
  - destruct E3 as [J1 _]. apply j_queue in E4; [|exact J1]. destruct E4 as [J2 _]. apply ok_inj in H. subst st'. eapply j_set; [exact J2| |eassumption]. intros ct v s Q. injection Q as _ <- _. exact SI.
  - eapply scale_W; [exact SI|exact C1|exact E2].
Qed.
Lemma j_in st e c : J st -> J (set_in st (upd (f_in st) e c)).
Proof. intros [A B C]. constructor; auto. Qed.
Lemma j_edge st p st' : J st -> W (snd p) -> r_extend_edge rnd on nw st p = Ok st' -> J st'.
Proof.
  destruct p as [e nf]. cbn [fst snd]. intros JS SI H. unfold r_extend_edge in H. cbn [fst snd] in H. repeat binv H. destruct a0 as [c1 old]. destruct (rates_eqb old nf); [apply ok_inj in H; subst; apply j_in, JS|].
  cbv zeta in H. repeat binv H. set (st2 := set_in _ _) in H. assert (J2 : J st2) by (apply j_in, j_in, JS). destruct (qeqbP (r_rates_sum rnd nf) 0) as [Z|NZ]; [eapply j_i; eauto|]. repeat binv H.
  destruct (qeqb _ 0 || _)%bool eqn:B; [eapply j_ii; eauto|eapply j_iii; eauto].
Qed.
Lemma j_deplete st st' : J st -> r_deplete_one rnd on st = Ok st' -> J st'.
Proof.
  intros JS H. unfold r_deplete_one in H. destruct (dq_pop_ok (f_dq st) (j_dq st JS)) as [[_ P]|(d & e & D & ch & E & P & _ & K' & P' & _)]; [rewrite P in H; discriminate|]. rewrite E in H. cbn [bind] in H.
  assert (J0 : J (set_dq st d)). { destruct JS as [A B C]. constructor; cbn [set_dq f_dq f_out]; auto. intros e' D' ct v s. rewrite P'. destruct (Nat.eqb e e'); [discriminate|apply C]. }
  repeat binv H. apply j_queue in E0; [|exact J0]. destruct E0 as [J1 _]. match goal with H : context [match ch with _ => _ end] |- _ => idtac end.
  assert (J2 : forall f, J (set_q a (upd (f_q a) e f))) by (intro f; destruct J1 as [A B C]; constructor; auto).
  destruct ch as [[ct [v s]]|].
  - apply j_outx in H; [apply H|apply J2|]. apply (j_pend st JS e D ct v s P).
  - apply ok_inj in H. subst st'. apply J2.
Qed.
Lemma j_process : forall fuel st st', J st -> r_process_depletions rnd on fuel st = Ok st' -> J st'.
Proof.
  induction fuel as [|n IH]; intros st st' JS H; cbn [r_process_depletions] in H; [discriminate|]. destruct (_ && _)%bool; [|apply ok_inj in H; subst; exact JS]. repeat binv H. eapply IH; [|exact H]. eapply j_deplete; eauto.
Qed.
Lemma j_pops : forall fuel st acc st' ch, J st -> pop_changes fuel st acc = Ok (st', ch) -> J st'.
Proof.
  induction fuel as [|n IH]; intros st acc st' ch JS H; cbn [pop_changes] in H; [discriminate|]. destruct (_ && _)%bool; [|apply ok_inj in H; injection H as <- _; exact JS]. repeat binv H. destruct a as [c it]. eapply IH; [|exact H]. destruct JS as [A B C]. constructor; auto.
Qed.
Lemma j_extend st ni maxt st' ch : J st -> (forall e d, In (e, d) ni -> W d) -> r_flow_extend rnd on nw st ni maxt = Ok (st', ch) -> J st'.
Proof.
  intros JS SC H. unfold r_flow_extend in H. repeat binv H. assert (J1 : J a). { eapply (DynEvents.foldM_inv J); [|exact JS|exact E]. intros s [e d] s' I JS' E'. eapply j_edge; eauto. cbn [fst snd]. apply (SC e), I. }
  destruct (ext_min _ _) as [|phi|]; try discriminate. cbv zeta in H. repeat binv H. eapply j_pops; [|exact H]. eapply j_process; [|exact E0]. destruct J1 as [A B C]. constructor; auto.
Qed.
Lemma nth_repeat_any {B} (x : B) n e : nth e (repeat x n) x = x.
Proof. revert e. induction n as [|n IH]; intros [|e]; cbn; auto. Qed.
Lemma j_init st : r_flow_init nw = Ok st -> J st.
Proof.
  unfold r_flow_init. intro H. binv H. apply ok_inj in H. subst st. assert (CX : a = frc_empty) by (vm_compute in E; apply ok_inj in E; subst; reflexivity). subst a.
  constructor; cbn [f_dq f_out]; [apply dq_empty_ok| |].
  - intros e it. rewrite (nth_repeat_any frc_empty). apply j_def.
  - intros e D ct v s Q. discriminate.
Qed.
End Run.

(** ** FlowBuilder *)
(** flow_builder.py:122-137: what is computed before [flow.extend] is called *)
Definition r_plan (rnd : Qc -> Qc) (on : bool) (S : setup) (b : builder) : res (builder * list (nat * rates)) :=
  b1 <- pop_due (Datatypes.S (sq_len (b_changes b))) b ;; b2 <- r_reroute rnd S b1 ;; r_determine_new_inflow rnd on S b2.
Lemma r_step_plan rnd on S b : r_fb_step rnd on S b =
  ('(b3, ni) <- r_plan rnd on S b ;;
   match ext_min (Fin (b_next b3)) (sq_min_key (b_changes b3)) with
   | Fin maxt =>
      '(flow, changed) <- r_flow_extend rnd on (s_nw S) (b_flow b3) ni maxt ;;
      heads <- mapM (fun e => r <- fetch (g_edges (s_graph S)) e ;; Ok (e_to (s_graph S) r)) changed ;;
      Ok (with_handle (with_flow b3 flow) (uniq heads))
   | _ => Err NotModelled
   end).
Proof. unfold r_fb_step, r_plan. destruct (pop_due _ b) as [b1|]; [|reflexivity]. cbn [bind]. destruct (r_reroute rnd S b1); reflexivity. Qed.
Lemma adv_incl : forall r h t it, In it (advance_head h r t) -> it = h \/ In it r.
Proof. induction r as [|n r IH]; intros h t it I; cbn [advance_head] in I; [destruct I as [<-|[]]; auto|]. destruct (qleb _ _); [right; destruct (IH _ _ _ I); [left; auto|right; auto]|destruct I; auto]. Qed.
Lemma frc_get_incl c t c' d : frc_get c t = Ok (c', d) -> (forall it, In it (c_chain c') -> In it (c_chain c)) /\ (d = [] \/ exists it, In it (c_chain c) /\ d = it_vals it).
Proof.
  unfold frc_get. destruct (c_chain c) as [|h r] eqn:CH; intro H; [apply ok_inj in H; injection H as <- <-; rewrite CH; auto|]. destruct (qltb _ _); [discriminate|].
  destruct (advance_head h r t) as [|h' r'] eqn:AH; [discriminate|]. apply ok_inj in H. injection H as <- <-. cbn [c_chain].
  assert (I : forall it, In it (h' :: r') -> In it (h :: r)) by (intros it X; rewrite <- AH in X; destruct (adv_incl _ _ _ _ X); [left; auto|right; auto]).
  split; [exact I|]. right. exists h'. split; [apply I; left; reflexivity|reflexivity].
Qed.
Section Builder.
Variables (rnd : Qc -> Qc) (on : bool) (S : setup).
Let g := s_graph S.
Hypotheses (RND : rounding rnd) (EP : 0 < r_eps rnd) (C : consistent g) (ORD : forall l, Permutation (su_ord S l) l).
Hypothesis SN : forall e c, nth_error (n_cap (s_nw S)) e = Some c -> 0 <= c.
Hypothesis FV : forall c v f, In c (s_coms S) -> In (v, f) (k_sources c) -> Forall (float rnd) (rc_values f).
Notation W := (good_rates rnd).
Definition net_W (b : builder) : Prop := forall v c, dget (b_net b) v = Some c -> forall it, In it (c_chain c) -> W (it_vals it).
Record bi (b : builder) : Prop := {
  bi_act : act_ok S (b_active b); bi_han : NoDup (b_handle b);
  bi_flow : J rnd (b_flow b); bi_net : net_W b }.
Lemma after_W b b' P : after S b b' P -> J rnd (b_flow b) -> net_W b -> J rnd (b_flow b') /\ net_W b'.
Proof.
  intros A [J1 J2 J3] N. split.
  - constructor; rewrite ?(af_dq _ _ _ _ A); auto. intros k it I.
    destruct (existsb (fun e => Nat.eqb (e_id g e) k && mem (e_to g e) P)%bool (g_edges g)) eqn:X.
    + apply existsb_exists in X. destruct X as [e [Ie X]]. apply andb_prop in X. destruct X as [X1 X2]. apply Nat.eqb_eq in X1. apply memP in X2.
      destruct (af_read _ _ _ _ A e Ie X2) as [d G]. apply frc_get_incl in G. destruct G as [G _]. subst k. apply (J2 (e_id g e)). apply G, I.
    + rewrite (af_other _ _ _ _ A) in I; [apply (J2 k it I)|]. intros e Ie Pe Q. assert (existsb (fun e => Nat.eqb (e_id g e) k && mem (e_to g e) P)%bool (g_edges g) = true); [|congruence].
      apply existsb_exists. exists e. split; [exact Ie|]. fold g in Q, Pe. rewrite Q, Nat.eqb_refl. apply memP in Pe. rewrite Pe. reflexivity.
  - intros v c D it I. destruct (in_dec Nat.eq_dec v P) as [Q|Q].
    + destruct (af_netr _ _ _ _ A v Q) as (c0 & c1 & d & D0 & G & D1). rewrite D1 in D. injection D as <-. apply frc_get_incl in G. destruct G as [G _]. apply (N v c0 D0). apply G, I.
    + rewrite (af_net _ _ _ _ A v Q) in D. apply (N v c D it I).
Qed.
Lemma pop_same : forall fuel b b', pop_due fuel b = Ok b' -> b_active b' = b_active b /\ b_flow b' = b_flow b /\ b_net b' = b_net b /\ (NoDup (b_handle b) -> NoDup (b_handle b')).
Proof.
  induction fuel as [|n IH]; intros b b' H; cbn [pop_due] in H; [discriminate|]. destruct (ext_leb _ _); [|apply ok_inj in H; subst; auto]. binv H. destruct a as [q it]. apply IH in H. cbn [with_handle with_changes b_active b_flow b_net b_handle] in H.
  destruct H as (A & B & D & F). split; [exact A|]. split; [exact B|]. split; [exact D|]. intro N. apply F, set_add_nd, N.
Qed.
Lemma nodes_nd : NoDup (map fst (g_nodes g)).
Proof. exact (cs_nodes g C). Qed.
Lemma nil_act (l : list commodity) : act_ok S (map (fun _ => []) l).
Proof. intros i v x H. assert (E : nth i (map (fun _ : commodity => @nil (nat * list nat)) l) [] = []) by (revert i H; induction l as [|y l IH]; intros [|i] H; cbn; auto; apply IH; exact H). rewrite E in H. discriminate. Qed.
Lemma good_W d : good_row rnd d -> W d.
Proof.
  intros [D G] i v I. destruct (G i v) as (y & m & Y & M & ->); [apply In_dget; auto|]. split; [|apply (rnd_idem rnd RND)]. apply (rnd_nn rnd RND). apply qdiv_nonneg; [qlra|apply FlowBuilderProofs.qn_pos, M].
Qed.
Lemma plan_bi b b3 ni : bi b -> r_plan rnd on S b = Ok (b3, ni) -> bi b3 /\ (forall k d, In (k, d) ni -> W d) /\
  forall v i, In v (b_handle b3) -> r_split_ok rnd S v i (r_supply rnd S b v i) (fun e => sent S ni e i).
Proof.
  intros [A N F NE] H. unfold r_plan in H. binv H. binv H. rename a into b1, a0 into b2. destruct (pop_same _ _ _ E) as (P1 & P2 & P3 & P4).
  assert (K : act_ok S (b_active b2) /\ NoDup (b_handle b2) /\ b_flow b2 = b_flow b /\ b_net b2 = b_net b).
  { unfold r_reroute in E0. destruct (match su_interval S with None => true | Some _ => _ end).
    - destruct (su_interval S); [|discriminate]. apply ok_inj in E0. subst b2. cbn [b_active b_handle b_flow b_net]. split; [apply nil_act|]. split; [apply nodes_nd|]. auto.
    - apply ok_inj in E0. subst b2. rewrite P1. auto. }
  destruct K as (K1 & K2 & K3 & K4). destruct (determine_ok rnd on S C ORD EP b2 b3 ni K1 K2 H) as (D1 & D2 & D3 & D4 & D5 & D6).
  destruct (after_W b2 b3 (b_handle b2) D1) as [W1 W2]; [rewrite K3; exact F|unfold net_W; rewrite K4; exact NE|]. destruct (af_rest _ _ _ _ D1) as (R1 & _).
  split; [constructor; auto; rewrite R1; exact K2|]. split; [intros k d I; apply good_W, (D5 k d I)|].
  intros v i I. rewrite R1 in I. replace (r_supply rnd S b v i) with (r_supply rnd S b2 v i); [apply D6, I|]. unfold r_supply, parts, out_now, net_now. rewrite K3, K4. reflexivity.
Qed.
Lemma step_bi b b' : bi b -> r_fb_step rnd on S b = Ok b' -> bi b'.
Proof.
  intros B H. rewrite r_step_plan in H. binv H. destruct a as [b3 ni]. destruct (plan_bi b b3 ni B E) as ([A N F NE] & PW & _). destruct (ext_min _ _) as [|maxt|]; try discriminate. binv H. destruct a as [flow ch]. binv H. apply ok_inj in H. subst b'.
  constructor; cbn [with_handle with_flow b_active b_handle b_flow]; auto; [apply uniq_nd|]. eapply (j_extend rnd on (s_nw S) RND SN); eauto.
Qed.
Lemma pyget_in {A} (l : list A) z x : pyget l z = Ok x -> In x l.
Proof. unfold pyget. intro H. destruct (_ && _)%bool in H; [|discriminate]. match type of H with context [nth_error ?a ?b] => destruct (nth_error a b) eqn:E in H end; [|discriminate]. apply ok_inj in H. subst. eapply nth_error_In; eauto. Qed.
Lemma rates_W fns t d : (forall i f, In (i, f) fns -> Forall (float rnd) (rc_values f)) -> r_rates_at on fns t = Ok d -> W d.
Proof.
  revert d. induction fns as [|[i f] fns IH]; intros d HF H; cbn [r_rates_at] in H; [apply ok_inj in H; subst; intros ? ? []|]. binv H. binv H. apply ok_inj in H. assert (WR : W a0) by (apply IH; auto; intros j h I; apply (HF j); right; auto).
  destruct (qltbP 0 a) as [P|_]; [|subst; exact WR]. subst d. intros j x [Q|I]; [|apply (WR j x I)]. injection Q as <- <-. split; [qlra|].
  assert (IA : In a (rc_values f)). { unfold r_rc_eval in E. repeat binv E. unfold r_rc_eval_with_lrank in E. repeat binv E. destruct (_ =? -1)%Z in E; eapply pyget_in; eauto. }
  pose proof (HF i f (or_introl eq_refl)) as FF. rewrite Forall_forall in FF. apply FF, IA.
Qed.
Lemma mapM_from {A B} (f : A -> res B) : forall l r, mapM f l = Ok r -> forall y, In y r -> exists x, In x l /\ f x = Ok y.
Proof.
  induction l as [|x l IH]; intros r H y I; cbn [mapM] in H; [apply ok_inj in H; subst; destruct I|]. binv H. binv H. apply ok_inj in H. subst r. destruct I as [<-|I]; [exists x; split; [left; reflexivity|exact E]|].
  destruct (IH _ E0 y I) as (z & Z1 & Z2). exists z. split; [right; exact Z1|exact Z2].
Qed.
Lemma item_vals t d it : r_new_item on t d = Ok it -> it_vals it = d.
Proof. unfold r_new_item. intro H. binv H. apply ok_inj in H. subst it. reflexivity. Qed.
Lemma frc_init_W fns c : (forall i f, In (i, f) fns -> Forall (float rnd) (rc_values f)) -> r_frc_init rnd on fns = Ok c -> forall it, In it (c_chain c) -> W (it_vals it).
Proof.
  intros HF H it I. unfold r_frc_init in H. repeat binv H. apply ok_inj in H. subst c. cbn [c_chain] in I. destruct I as [<-|I]; [rewrite (item_vals _ _ _ E); intros ? ? []|].
  destruct (mapM_from _ _ _ E2 it I) as (t & _ & K). binv K. rewrite (item_vals _ _ _ K). eapply rates_W; eauto.
Qed.
Lemma init_bi b : r_fb_init rnd on S = Ok b -> bi b.
Proof.
  unfold r_fb_init. intro H. repeat binv H. apply ok_inj in H. subst b. constructor; cbn [b_active b_handle b_flow].
  - apply nil_act.
  - constructor.
  - eapply j_init; eauto.
  - intros v c D it I. cbn [b_net] in D. assert (IN : forall (l : list (nat * FRC)), dget l v = Some c -> In (v, c) l).
    { induction l as [|[k x] l IH]; cbn [dget]; [discriminate|]. destruct (Nat.eqb_spec k v) as [->|]; intro Q; [injection Q as <-; left; reflexivity|right; auto]. }
    apply IN in D. destruct (mapM_from _ _ _ E1 _ D) as (w & _ & K). binv K. apply ok_inj in K. injection K as -> ->.
    eapply frc_init_W; [|exact E3|exact I]. intros i f Q. unfold net_fns in Q. apply in_flat_map in Q. destruct Q as [[j k] [Q1 Q2]]. cbn [fst snd] in Q2.
    destruct (dget (k_sources k) v) as [h|] eqn:DG; [|destruct Q2]. destruct Q2 as [Q2|[]]. injection Q2 as <- <-. apply (FV k v h).
    + apply FlowBuilderProofs.enum_nth in Q1. eapply nth_error_In; eauto.
    + clear - DG. induction (k_sources k) as [|[a x] l IH]; cbn [dget] in DG; [discriminate|]. destruct (Nat.eqb_spec a v) as [->|]; [injection DG as <-; left; reflexivity|right; auto].
Qed.
Lemma run_bi : forall n b, r_fb_run rnd on S n = Ok b -> bi b.
Proof. induction n as [|n IH]; intros b H; cbn [r_fb_run] in H; [apply init_bi, H|]. binv H. eapply step_bi; eauto. Qed.
(** All parts of the supply of a node are non-negative floats. *)
Lemma got_W c t : (forall it, In it (c_chain c) -> W (it_vals it)) -> W (got c t).
Proof.
  intro H. unfold got. destruct (frc_get c t) as [[c' d]|] eqn:G; [|intros ? ? []]. apply frc_get_incl in G. destruct G as [_ [-> | (it & I & ->)]]; [intros ? ? []|apply H, I].
Qed.
Lemma dget_In' {A} (d : list (nat * A)) i x : dget d i = Some x -> In (i, x) d.
Proof. induction d as [|[k y] d IH]; cbn [dget]; [discriminate|]. destruct (Nat.eqb_spec k i) as [->|]; intro Q; [injection Q as <-; left; reflexivity|right; auto]. Qed.
Lemma parts_W b v i : bi b -> forall x, In x (parts S b v i) -> 0 <= x /\ float rnd x.
Proof.
  intros [_ _ [_ JO _] N] x I. unfold parts in I. apply in_flat_map in I. destruct I as [d [D I]]. destruct (dget d i) as [y|] eqn:G; [|destruct I]. destruct I as [<-|[]]. apply dget_In' in G.
  apply in_app_or in D. destruct D as [D|[<-|[]]].
  - apply in_map_iff in D. destruct D as [e [<- _]]. eapply got_W; [|exact G]. apply JO.
  - unfold net_now in G. destruct (dget (b_net b) v) as [c|] eqn:DN; [|destruct G]. eapply got_W; [|exact G]. apply (N v c DN).
Qed.
End Builder.
Lemma flat_len {A B} (f : A -> list B) : (forall a, (length (f a) <= 1)%nat) -> forall l, (length (flat_map f l) <= length l)%nat.
Proof. intros H. induction l as [|a l IH]; cbn [flat_map length]; [lia|]. rewrite app_length. specialize (H a). lia. Qed.
Lemma parts_len S b v i : (length (parts S b v i) <= length (incoming (s_graph S) v) + 1)%nat.
Proof.
  unfold parts. rewrite <- (map_length (out_now S b)). rewrite <- (app_length _ [net_now b v]). apply flat_len. intro d. destruct (dget d i); cbn; lia.
Qed.
Lemma parts_sum S b v i : fold_right Qcplus 0 (parts S b v i) = supply S b v i.
Proof.
  unfold parts, supply. rewrite flat_map_app, fold_right_app. cbn [flat_map]. rewrite app_nil_r.
  assert (K : forall l z, fold_right Qcplus z (flat_map (fun d : rates => match dget d i with Some x => [x] | None => [] end) (map (out_now S b) l)) = fold_right Qcplus 0 (map (fun e => rate (out_now S b e) i) l) + z).
  { induction l as [|e l IH]; intro z; cbn [map flat_map fold_right]; [ring|]. rewrite fold_right_app, IH. unfold rate. destruct (dget (out_now S b e) i); cbn [fold_right]; ring. }
  rewrite K. unfold rate. destruct (dget (net_now b v) i); cbn [fold_right]; ring.
Qed.
