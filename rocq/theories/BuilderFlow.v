(** * FlowBuilder: flow conservation at the nodes along whole runs *)
From Coq Require Import Permutation.
From Verif Require Import Base Spec Arrays ArraysProofs PL PLProofs RC RCProofs FRC FRCProofs FRCExact PQ PQProofs PQSpec DynFlow DQProofs DynRun DynEvents DynEdge DynFlowProofs
  Graph GraphSpec GraphProofs Dijkstra DijkstraSpec DijkstraProofs DijkstraProofs2 FlowBuilder FlowBuilderProofs BuilderRun.

(** ** Vocabulary *)
(** The network inflow functions: rate functions on [0, inf) starting with a
    breakpoint at 0; at one node, distinct breakpoints are more than eps apart. *)
Record sources_ok (S : setup) : Prop := {
  sr_fn : forall c v f, In c (s_coms S) -> In (v, f) (k_sources c) ->
     rvalid f /\ rc_lo f = Fin 0 /\ rc_hi f = PInf /\ In 0 (rc_times f) /\ forall x, In x (rc_values f) -> 0 <= x;
  sr_sep : forall i j v t u, change_at S i v t -> change_at S j v u -> t < u -> gap t u }.
(** network inflow rate of commodity [i] at node [v] and time [t] *)
Definition net_rate (S : setup) (v i : nat) (t : Qc) : res Qc :=
  match nth_error (s_coms S) i with
  | Some c => match dget (k_sources c) v with Some f => rc_eval f t | None => Ok 0 end
  | None => Ok 0
  end.
Definition qsum (l : list Qc) : Qc := fold_right Qcplus 0 l.
(** The run replayed with the instrumentation of DynFlow.v: no comparison with
    tolerance eps inside [flow.extend] identified two distinct numbers. *)
Definition clean_build (S : setup) (n : nat) : Prop := fb_run true S n <> Err Unclean.

(** ** Snapshots *)
Lemma latest_const (l : list (Qc * rates)) a t : a <= t -> (forall x, In x (map fst l) -> x <= a \/ t < x) -> latest l t = latest l a.
Proof.
  intros L. induction l as [|p r IH]; intro H; cbn [latest]; [reflexivity|]. cbn [map In] in H. rewrite IH by auto.
  destruct (latest r a); [reflexivity|]. destruct (qlebP (fst p) a) as [C|C], (qlebP (fst p) t) as [D|D]; auto; [exfalso; apply D; qlra|].
  destruct (H (fst p) (or_introl eq_refl)); [contradiction|]. exfalso. qlra.
Qed.
Lemma latest_app_late (l m : list (Qc * rates)) t : (forall x, In x (map fst m) -> t < x) -> latest (l ++ m) t = latest l t.
Proof.
  intro H. induction m as [|p m IH] using rev_ind; [rewrite app_nil_r; reflexivity|]. rewrite app_assoc, latest_app. rewrite map_app in H.
  destruct (qlebP (fst p) t) as [C|_].
  - exfalso. assert (t < fst p) by (apply H, in_or_app; right; left; reflexivity). qlra.
  - apply IH. intros x I. apply H, in_or_app. auto.
Qed.
Lemma latest_ne (p : Qc * rates) r t : fst p <= t -> exists q, latest (p :: r) t = Some q.
Proof. intro L. cbn [latest]. destruct (latest r t) as [q|]; [eauto|]. destruct (qlebP (fst p) t) as [_|C]; [eauto|contradiction]. Qed.
Lemma map_fst_pair l : map fst (map pair_of l) = out_times l.
Proof. unfold out_times. rewrite map_map. reflexivity. Qed.

Section Flow.
Variable nw : Net.
Hypothesis NW : net_ok nw.
Lemma out_rate cs st e i t : full nw cs st -> (e < length (n_cap nw))%nat -> f_phi st <= t ->
  rate_of (outflow_of st e) i t = Ok (rate (latest_rates (map pair_of (out_chain st e)) t) i).
Proof.
  intros [_ G] L H. destruct (gi_e _ _ _ G e L) as [g [B _]]. pose proof (b_out _ _ _ _ _ B) as F. cbn [edge_of e_out] in F. pose proof (b_hd _ _ _ _ _ B) as HD. cbn [edge_of e_out] in HD.
  pose proof (b_p0 _ _ (proj2 (getcap nw NW e L)) (proj2 (gettau nw NW e L)) _ _ _ B) as P0.
  rewrite (rate_of_eq _ _ _ _ _ i t F) by qlra. f_equal. f_equal. destruct (fi_chain _ _ _ _ (fs_inv _ _ _ _ _ F)) as [pre EP].
  rewrite EP. unfold out_chain. unfold head_time in HD. destruct (c_chain (outflow_of st e)) as [|h r] eqn:EC; [exfalso; apply (fi_ne _ _ _ _ (fs_inv _ _ _ _ _ F)); exact EC|].
  destruct (latest_ne (pair_of h) (map pair_of r) t) as [q Q]; [cbn; qlra|]. cbn [map]. unfold latest_rates. rewrite (latest_suffix pre _ t q Q), Q. reflexivity.
Qed.
Lemma out_got cs st e : full nw cs st -> (e < length (n_cap nw))%nat ->
  exists c' d, frc_get (outflow_of st e) (f_phi st) = Ok (c', d) /\ d = latest_rates (map pair_of (out_chain st e)) (f_phi st) /\ c_fns c' = c_fns (outflow_of st e).
Proof.
  intros [_ G] L. destruct (gi_e _ _ _ G e L) as [g [B _]]. pose proof (b_out _ _ _ _ _ B) as F. cbn [edge_of e_out] in F. pose proof (b_hd _ _ _ _ _ B) as HD. cbn [edge_of e_out] in HD.
  destruct (frc_get_ok _ _ _ _ (f_phi st) (fs_inv _ _ _ _ _ F)) as [_ K]. destruct (K HD) as [c' [p [E [LT [_ [_ [H2 _]]]]]]].
  exists c', (snd p). split; [exact E|]. split; [|exact H2]. destruct (fi_chain _ _ _ _ (fs_inv _ _ _ _ _ F)) as [pre EP]. rewrite EP in LT.
  unfold out_chain. unfold head_time in HD. destruct (c_chain (outflow_of st e)) as [|h r] eqn:EC; [exfalso; apply (fi_ne _ _ _ _ (fs_inv _ _ _ _ _ F)); exact EC|].
  destruct (latest_ne (pair_of h) (map pair_of r) (f_phi st)) as [q Q]; [exact HD|]. cbn [map] in *. unfold latest_rates. rewrite (latest_suffix pre _ _ q Q) in LT. rewrite Q. congruence.
Qed.
Lemma in_rate cs st e i t : full nw cs st -> (e < length (n_cap nw))%nat -> f_phi st <= t -> rate_of (inflow_of st e) i t = rate_of (inflow_of st e) i (f_phi st).
Proof.
  intros [_ G] L H. destruct (gi_e _ _ _ G e L) as [g [B _]]. pose proof (b_in _ _ _ _ _ B) as F. cbn [edge_of e_in] in F. pose proof (b_ti _ _ _ _ _ B) as TI.
  pose proof (b_p0 _ _ (proj2 (getcap nw NW e L)) (proj2 (gettau nw NW e L)) _ _ _ B) as P0.
  rewrite !(rate_of_eq _ _ _ _ _ i _ F) by qlra. destruct (fs_after _ _ _ _ _ F t ltac:(qlra)) as [_ [-> _]]. destruct (fs_after _ _ _ _ _ F (f_phi st) TI) as [_ [-> _]]. reflexivity.
Qed.
Lemma rate_total cs st e i t : full nw cs st -> (e < length (n_cap nw))%nat -> 0 <= t ->
  (exists x, rate_of (inflow_of st e) i t = Ok x) /\ exists x, rate_of (outflow_of st e) i t = Ok x.
Proof.
  intros [_ G] L H. destruct (gi_e _ _ _ G e L) as [g [B _]]. pose proof (b_in _ _ _ _ _ B) as F. pose proof (b_out _ _ _ _ _ B) as F2. cbn [edge_of e_in e_out] in F, F2.
  split; eexists; eapply rate_of_eq; eauto.
Qed.
End Flow.
(** the rate of commodity [i] that [new_inflow] assigns to edge [e] *)
Definition sent_rate (S : setup) (ni : list (nat * rates)) (e i : nat) : Qc := match sent S ni e i with Some x => x | None => 0 end.

Lemma sum_split (x : Qc) act : forall l, NoDup l -> NoDup act -> (forall e, In e act -> In e l) ->
  qsum (map (fun e => if mem e act then x else 0) l) = qn (length act) * x.
Proof.
  intros l. revert act. induction l as [|e l IH]; intros act N NA H; cbn [map qsum fold_right].
  - destruct act as [|a act]; [|destruct (H a (or_introl eq_refl))]. cbn [length]. unfold qn. change (Q2Qc (inject_Z (Z.of_nat 0))) with 0. ring.
  - inversion N as [|? ? N1 N2]; subst. fold (qsum (map (fun e => if mem e act then x else 0) l)). destruct (mem e act) eqn:M.
    + apply memP in M. destruct (in_split _ _ M) as [a1 [a2 ->]].
      assert (NN : NoDup (a1 ++ a2)) by (eapply NoDup_remove_1; exact NA). pose proof (NoDup_remove_2 _ _ _ NA) as NE.
      assert (EQ : map (fun e0 => if mem e0 (a1 ++ e :: a2) then x else 0) l = map (fun e0 => if mem e0 (a1 ++ a2) then x else 0) l).
      { apply map_ext_in. intros y Iy. assert (y <> e) by congruence.
        destruct (mem y (a1 ++ e :: a2)) eqn:M1, (mem y (a1 ++ a2)) eqn:M2; auto; exfalso.
        - apply memP in M1. apply mem_false in M2. apply M2. apply in_app_or in M1. apply in_or_app. destruct M1 as [?|[?|?]]; auto. congruence.
        - apply mem_false in M1. apply memP in M2. apply M1. apply in_app_or in M2. apply in_or_app. destruct M2; auto. right. right. assumption. }
      rewrite EQ, IH; auto.
      * rewrite !app_length. cbn [length]. rewrite Nat.add_succ_r, qn_S. ring.
      * intros y Iy. assert (Iy' : In y (a1 ++ e :: a2)) by (apply in_app_or in Iy; apply in_or_app; destruct Iy; auto; right; right; assumption).
        destruct (H y Iy') as [<-|Q]; [contradiction|exact Q].
    + apply mem_false in M. rewrite IH; auto; [ring|]. intros y Iy. destruct (H y Iy) as [<-|Q]; [contradiction|exact Q].
Qed.


(** thinned-out supply: [sent_of x] is what leaves a node with supply [x] *)
Definition sent_of (x : Qc) : Qc := if qltb x eps then 0 else x.
Lemma split_sum S v i x f : consistent (s_graph S) -> split_ok S v i x f -> ~ sinks_at S v i ->
  qsum (map (fun e => match f e with Some y => y | None => 0 end) (outgoing (s_graph S) v)) = sent_of x.
Proof.
  intros C [_ [B D]] NS. unfold sent_of. destruct (qltbP x eps) as [L|L].
  - specialize (B NS L). clear D. induction (outgoing (s_graph S) v) as [|e l IH]; cbn [map qsum fold_right]; [reflexivity|]. rewrite (B e) by (left; reflexivity).
    fold (qsum (map (fun e => match f e with Some y => y | None => 0 end) l)). rewrite IH by (intros; apply B; right; assumption). ring.
  - destruct (D NS ltac:(qlra)) as [act [[R1 [R2 R3]] E]].
    assert (EQ : map (fun e => match f e with Some y => y | None => 0 end) (outgoing (s_graph S) v) = map (fun e => if mem e act then x / qn (length act) else 0) (outgoing (s_graph S) v)).
    { apply map_ext_in. intros e I. rewrite (E e I). destruct (mem e act); reflexivity. }
    rewrite EQ, sum_split; auto; [|apply nd_out, C]. assert (0 < qn (length act)) by (apply qn_pos; destruct act; [contradiction|cbn; lia]). field. qlra.
Qed.
Lemma split_zero S v i x f : split_ok S v i x f -> sinks_at S v i ->
  qsum (map (fun e => match f e with Some y => y | None => 0 end) (outgoing (s_graph S) v)) = 0.
Proof.
  intros [A _] SI. specialize (A SI). induction (outgoing (s_graph S) v) as [|e l IH]; cbn [map qsum fold_right]; [reflexivity|]. rewrite (A e) by (left; reflexivity).
  fold (qsum (map (fun e => match f e with Some y => y | None => 0 end) l)). rewrite IH by (intros; apply A; right; assumption). ring.
Qed.

(** ** The network inflow collections *)
Section Build.
Variables (S : setup) (r : Qc).
Hypothesis OK : setup_ok S r.
Hypothesis SR : sources_ok S.
Let g := s_graph S.
Let C : consistent g := so_graph S r OK.
Let N := length (n_cap (s_nw S)).
Definition net_fn (v i : nat) : RC :=
  match nth_error (s_coms S) i with
  | Some c => match dget (k_sources c) v with Some f => f | None => new_flow_fn end
  | None => new_flow_fn
  end.
Lemma net_fns_In v i f : In (i, f) (net_fns (s_coms S) v) <-> exists c, nth_error (s_coms S) i = Some c /\ dget (k_sources c) v = Some f.
Proof.
  unfold net_fns. rewrite in_flat_map. split.
  - intros [[j c] [I H]]. cbn [fst snd] in H. destruct (dget (k_sources c) v) as [f'|] eqn:D; [|destruct H]. destruct H as [H|[]]. injection H as <- <-. apply enum_nth in I. eauto.
  - intros [c [I D]]. exists (i, c). split; [apply enum_nth, I|]. cbn [fst snd]. rewrite D. left. reflexivity.
Qed.
Lemma net_fns_nd v : NoDup (map fst (net_fns (s_coms S) v)).
Proof.
  unfold net_fns. rewrite map_flat_map. apply (NoDup_flat_map _ fst).
  - intros [i c] _. cbn [fst snd]. destruct (dget (k_sources c) v); repeat constructor. intros [].
  - intros [i c] [j d] z _ _ H1 H2. cbn [fst snd] in *. destruct (dget (k_sources c) v); [|destruct H1]. destruct (dget (k_sources d) v); [|destruct H2].
    cbn in H1, H2. destruct H1 as [<-|[]], H2 as [<-|[]]. reflexivity.
  - rewrite enum_fst. apply seq_NoDup.
Qed.
Lemma net_fns_rate v : rate_fns (net_fns (s_coms S) v).
Proof.
  split; [apply net_fns_nd|]. intros i f I. apply net_fns_In in I. destruct I as [c [I D]]. apply (sr_fn S SR c v f); [eapply nth_error_In; exact I|apply dget_In, D].
Qed.
Lemma net_fns_times v t : In t (all_times (net_fns (s_coms S) v)) <-> exists i, change_at S i v t.
Proof.
  unfold all_times, change_at. rewrite in_concat. split.
  - intros [l [Hl Ht]]. apply in_map_iff in Hl. destruct Hl as [f [<- Hf]]. apply in_map_iff in Hf. destruct Hf as [[i f'] [E I]]. cbn [snd] in E. subst f'.
    apply net_fns_In in I. destruct I as [c [I D]]. exists i, c, f. auto.
  - intros [i [c [f [I [D Ht]]]]]. exists (rc_times f). split; [|exact Ht]. apply in_map. apply in_map_iff. exists (i, f). split; [reflexivity|]. apply net_fns_In. eauto.
Qed.
Lemma fn_of_net v i : fn_of (net_fns (s_coms S) v) i = net_fn v i.
Proof.
  unfold fn_of, net_fn. destruct (nth_error (s_coms S) i) as [c|] eqn:I.
  - destruct (dget (k_sources c) v) as [f|] eqn:D.
    + rewrite (In_dget _ i f (net_fns_nd v)); [reflexivity|]. apply net_fns_In. eauto.
    + destruct (dget (net_fns (s_coms S) v) i) as [f|] eqn:E; [|reflexivity]. apply dget_In, net_fns_In in E. destruct E as [c' [I' D']]. congruence.
  - destruct (dget (net_fns (s_coms S) v) i) as [f|] eqn:E; [|reflexivity]. apply dget_In, net_fns_In in E. destruct E as [c' [I' D']]. congruence.
Qed.
Lemma net_rate_ok v i t : 0 <= t -> net_rate S v i t = Ok (rc_at (net_fn v i) t).
Proof.
  intro H. unfold net_rate, net_fn. destruct (nth_error (s_coms S) i) as [c|] eqn:I; [|rewrite new_fn_at; reflexivity].
  destruct (dget (k_sources c) v) as [f|] eqn:D; [|rewrite new_fn_at; reflexivity].
  destruct (sr_fn S SR c v f) as [V [Lo [Hi _]]]; [eapply nth_error_In; exact I|apply dget_In, D|]. apply reval_at; [exact V|]. split; rewrite ?Lo, ?Hi; [exact H|exact Logic.I].
Qed.
Lemma net_const v i a t : a <= t -> (forall u, change_at S i v u -> u <= a \/ t < u) -> rc_at (net_fn v i) t = rc_at (net_fn v i) a.
Proof.
  intros L H. unfold net_fn. destruct (nth_error (s_coms S) i) as [c|] eqn:I; [|rewrite !new_fn_at; reflexivity].
  destruct (dget (k_sources c) v) as [f|] eqn:D; [|rewrite !new_fn_at; reflexivity].
  destruct (sr_fn S SR c v f) as [V [Lo [Hi _]]]; [eapply nth_error_In; exact I|apply dget_In, D|]. symmetry. apply (rc_jumps f V); [exact L|].
  intros x Hx. destruct (H x) as [Q|Q]; [exists c, f; auto|left; exact Q|right; left; exact Q].
Qed.

Definition net_ok_at (b : builder) (v : nat) : Prop :=
  exists c snaps T w, dget (b_net b) v = Some c /\ frc_inv c snaps T w /\ head_time c <= f_phi (b_flow b) /\
    forall t i, 0 <= t -> rate (latest_rates snaps t) i = rc_at (net_fn v i) t.
Lemma net_now_ok b v i : 0 <= f_phi (b_flow b) -> net_ok_at b v -> rate (net_now b v) i = rc_at (net_fn v i) (f_phi (b_flow b)).
Proof.
  intros P0 [c [snaps [T [w [D [I [HD R]]]]]]]. unfold net_now, got. rewrite D. destruct (frc_get_ok c snaps T w (f_phi (b_flow b)) I) as [_ K].
  destruct (K HD) as [c' [p [E [L _]]]]. rewrite E. rewrite <- (R _ i P0). unfold latest_rates. rewrite L. reflexivity.
Qed.
Lemma net_init b v : fb_init S = Ok b -> In v (node_ids g) -> net_ok_at b v.
Proof.
  intros H Iv. unfold fb_init in H. apply bind_ok in H. destruct H as [fl [E1 H]]. apply bind_ok in H. destruct H as [imp [E2 H]].
  apply bind_ok in H. destruct H as [net [E3 H]]. apply bind_ok in H. destruct H as [u [E4 H]]. injection H as <-. unfold net_ok_at. cbn [b_net b_flow].
  destruct (init_events (s_nw S) fl E1) as [_ PH]. rewrite PH.
  assert (D : exists c, dget net v = Some c /\ frc_init (net_fns (s_coms S) v) = Ok c).
  { unfold node_ids in Iv. fold g in E3. revert net E3. induction (map fst (g_nodes g)) as [|w l IH]; intros net E3; [destruct Iv|]. cbn [mapM] in E3.
    apply bind_ok in E3. destruct E3 as [p [F1 F2]]. apply bind_ok in F1. destruct F1 as [c [F1 F3]]. injection F3 as <-. apply bind_ok in F2. destruct F2 as [m [F2 F3]]. injection F3 as <-.
    cbn [dget]. destruct (Nat.eqb_spec w v) as [->|NE]; [eauto|]. destruct Iv as [Q|Iv]; [contradiction|]. apply IH; assumption. }
  destruct D as [c [D E]]. destruct (net_fns (s_coms S) v) as [|p q] eqn:EF.
  - rewrite frc_init_nil in E. apply ok_inj in E. subst c. exists frc_empty, [(0, [])], 0, []. split; [exact D|]. split; [apply empty_inv|]. split; [cbn; qlra|].
    intros t i T0. unfold latest_rates. rewrite <- fn_of_net, EF. unfold fn_of. cbn [dget]. rewrite new_fn_at. cbn [latest fst]. destruct (qleb 0 t); reflexivity.
  - rewrite <- EF in E. destruct (frc_init_ok (net_fns (s_coms S) v) (net_fns_rate v)) as [c' [snaps [T [w [E' [_ [I [HT [_ [R _]]]]]]]]]].
    + rewrite EF. discriminate.
    + intros x y Hx Hy. apply net_fns_times in Hx, Hy. destruct Hx as [i Hx], Hy as [j Hy]. eapply (sr_sep S SR); eauto.
    + rewrite E in E'. apply ok_inj in E'. subst c'. exists c, snaps, T, w. split; [exact D|]. split; [exact I|]. split; [rewrite HT; qlra|]. intros t i T0. rewrite <- fn_of_net. apply R, T0.
Qed.
Lemma net_after b2 b3 P v : after S b2 b3 P -> net_ok_at b2 v -> net_ok_at b3 v.
Proof.
  intros A [c [snaps [T [w [D [I [HD R]]]]]]]. destruct (in_dec Nat.eq_dec v P) as [Iv|Nv].
  - destruct (af_netr _ _ _ _ A v Iv) as [c0 [c' [d [D0 [E D']]]]]. rewrite D in D0. injection D0 as <-.
    destruct (frc_get_ok c snaps T w (f_phi (b_flow b2)) I) as [_ K]. destruct (K HD) as [c1 [p [E1 [L [I1 [H1 _]]]]]]. rewrite E in E1. injection E1 as <- _.
    exists c', snaps, T, w. split; [exact D'|]. split; [exact I1|]. split; [|exact R]. rewrite H1, (af_phi _ _ _ _ A). apply (latest_some _ _ _ L).
  - exists c, snaps, T, w. rewrite (af_net _ _ _ _ A v Nv), (af_phi _ _ _ _ A). auto.
Qed.

(** ** Reading outflows keeps the invariant of the flow *)
Lemma edge_lt e : In e (g_edges g) -> (e_id g e < N)%nat.
Proof.
  intro I. destruct (In_nth_error _ _ I) as [j J]. rewrite (cs_ids g C j e J). unfold N. rewrite (so_caps S r OK). fold g. apply nth_error_Some. congruence.
Qed.
Lemma id_edge k : (k < N)%nat -> exists e, In e (g_edges g) /\ e_id g e = k.
Proof.
  unfold N. rewrite (so_caps S r OK). fold g. intro L. destruct (nth_error (g_edges g) k) as [e|] eqn:E; [|apply nth_error_None in E; lia].
  exists e. split; [eapply nth_error_In; exact E|apply (cs_ids g C k e E)].
Qed.
Lemma after_out cs b2 b3 P k : after S b2 b3 P -> full (s_nw S) cs (b_flow b2) -> (k < N)%nat ->
  outflow_of (b_flow b3) k = outflow_of (b_flow b2) k \/ exists d, frc_get (outflow_of (b_flow b2) k) (f_phi (b_flow b2)) = Ok (outflow_of (b_flow b3) k, d).
Proof.
  intros A F L. destruct (id_edge k L) as [e [I <-]]. destruct (in_dec Nat.eq_dec (e_to g e) P) as [IP|NP].
  - right. apply (af_read _ _ _ _ A e I IP).
  - left. apply (af_other _ _ _ _ A). intros e' I' P' Q. apply NP. rewrite <- (id_inj g C e' e I' I Q). exact P'.
Qed.
Lemma after_rate cs b2 b3 P k i t : after S b2 b3 P -> full (s_nw S) cs (b_flow b2) -> (k < N)%nat ->
  rate_of (outflow_of (b_flow b3) k) i t = rate_of (outflow_of (b_flow b2) k) i t.
Proof.
  intros A F L. destruct (after_out cs b2 b3 P k A F L) as [->|[d E]]; [reflexivity|].
  destruct (out_got (s_nw S) cs (b_flow b2) k F L) as [c' [d' [E' [_ H]]]]. rewrite E in E'. injection E' as <- _. unfold rate_of. rewrite H. reflexivity.
Qed.
Lemma after_full cs b2 b3 P : after S b2 b3 P -> full (s_nw S) cs (b_flow b2) -> full (s_nw S) cs (b_flow b3).
Proof.
  intros A F. split; [eapply after_events; [exact A|apply F]|]. pose proof (fl_g _ _ _ F) as G. rewrite (af_phi _ _ _ _ A). constructor.
  - pose proof (gi_len _ _ _ G) as L. unfold flen in *. rewrite (af_in _ _ _ _ A), (af_q _ _ _ _ A), (af_len _ _ _ _ A). exact L.
  - rewrite (af_dq _ _ _ _ A). apply G.
  - intros k L. rewrite (af_dq _ _ _ _ A). destruct (gi_e _ _ _ G k L) as [gh [B R]].
    assert (EI : inflow_of (b_flow b3) k = inflow_of (b_flow b2) k) by (unfold inflow_of; rewrite (af_in _ _ _ _ A); reflexivity).
    assert (EQ : queue_of (b_flow b3) k = queue_of (b_flow b2) k) by (unfold queue_of; rewrite (af_q _ _ _ _ A); reflexivity).
    exists gh. split; [|eapply R_same; [exact R|exact EQ]]. unfold edge_of. rewrite EI, EQ. destruct (after_out cs b2 b3 P k A F L) as [->|[d E]]; [exact B|].
    destruct (fs_get' _ _ _ _ _ (f_phi (b_flow b2)) (b_out _ _ _ _ _ B) (b_hd _ _ _ _ _ B)) as [c' [d' [E' [_ [F1 [A1 H1]]]]]]. cbn [edge_of e_out] in E', A1.
    rewrite E in E'. injection E' as <- _. apply (L_get_out _ _ (edge_of (b_flow b2) k) gh _ _ B F1 A1 H1).
  - intros k L. rewrite (af_dq _ _ _ _ A). apply (gi_none _ _ _ G k L).
Qed.

(** ** Conservation *)
Definition val (x : res Qc) : Qc := match x with Ok v => v | Err _ => 0 end.
Definition rin (b : builder) (e i : nat) (t : Qc) : Qc := val (rate_of (inflow_of (b_flow b) (e_id g e)) i t).
Definition rout (b : builder) (e i : nat) (t : Qc) : Qc := val (rate_of (outflow_of (b_flow b) (e_id g e)) i t).
Definition into (b : builder) (v i : nat) (t : Qc) : Qc := qsum (map (fun e => rout b e i t) (incoming g v)) + rc_at (net_fn v i) t.
Definition sent_to (b : builder) (v i : nat) (t : Qc) : Qc := qsum (map (fun e => rin b e i t) (outgoing g v)).
Definition balanced (b : builder) (v i : nat) (t : Qc) : Prop :=
  (sinks_at S v i -> sent_to b v i t = 0) /\ (~ sinks_at S v i -> sent_to b v i t = sent_of (into b v i t)).
Record cons (b : builder) : Prop := {
  co_sched : sched S r b;
  co_full : exists cs, full (s_nw S) cs (b_flow b);
  co_net : forall v, In v (node_ids g) -> net_ok_at b v;
  co_past : forall v i t, In v (node_ids g) -> 0 <= t -> t < f_phi (b_flow b) -> balanced b v i t;
  co_now : f_phi (b_flow b) <> b_next b -> forall v i, In v (node_ids g) -> ~ In v (b_handle b) -> (forall it, due b it -> snd (fst it) <> v) ->
     balanced b v i (f_phi (b_flow b)) }.

Lemma qsum_ext {A} (f h : A -> Qc) l : (forall x, In x l -> f x = h x) -> qsum (map f l) = qsum (map h l).
Proof. intro H. f_equal. apply map_ext_in. exact H. Qed.
Lemma in_edge v e : In e (incoming g v) -> In e (g_edges g) /\ e_to g e = v.
Proof. apply (in_iff g C). Qed.
Lemma out_edge v e : In e (outgoing g v) -> In e (g_edges g) /\ e_from g e = v.
Proof. apply (out_iff g C). Qed.
Lemma supply_into cs b v i : full (s_nw S) cs (b_flow b) -> 0 <= f_phi (b_flow b) -> net_ok_at b v -> supply S b v i = into b v i (f_phi (b_flow b)).
Proof.
  intros F P0 NO. unfold supply, into. rewrite (net_now_ok b v i P0 NO). f_equal. fold g. apply qsum_ext. intros e I. apply in_edge in I. destruct I as [I _].
  pose proof (edge_lt e I) as L. unfold rout. rewrite (out_rate (s_nw S) (so_net S r OK) cs (b_flow b) (e_id g e) i _ F L) by qlra. cbn [val].
  destruct (out_got (s_nw S) cs (b_flow b) (e_id g e) F L) as [c' [d [E [-> _]]]]. unfold out_now, got. fold g. unfold outflow_of in E. rewrite E. reflexivity.
Qed.

Lemma step_cons b b' : cons b -> fb_step true S b = Ok b' -> cons b'.
Proof.
  intros CO H. pose proof (co_sched b CO) as SC. destruct (step_ok S r OK true b b' SC H) as [b3 [ni [maxt [ch ST]]]]. pose proof ST as ST0.
  destruct ST as [EP PL VC EX SP [M1 M2] TI [Z1 [Z2 [Z3 [Z4 Z5]]]] ND HD].
  destruct (co_full b CO) as [cs F]. destruct (pl_flow _ _ _ _ _ PL) as [b2 [Y1 [Y2 [Y3 AF]]]].
  assert (F2 : full (s_nw S) cs (b_flow b2)) by (rewrite Y1; exact F). pose proof (after_full cs b2 b3 _ AF F2) as F3.
  pose proof (extend_good (s_nw S) (so_net S r OK) cs (b_flow b3) ni maxt F3 VC) as GE. rewrite EX in GE. cbn [good fst] in GE. destruct GE as [F' RP].
  destruct (SP cs (fl_ev _ _ _ F)) as [S1 [S2 [_ [S4 _]]]]. rewrite (pl_phi _ _ _ _ _ PL) in S1, S4, RP.
  set (phi := f_phi (b_flow b)) in *. set (phi' := f_phi (b_flow b')) in *. pose proof (sc_phi _ _ _ SC) as P0. fold phi in P0.
  destruct (pl_q _ _ _ _ _ PL) as [QN QK].
  assert (PH3 : f_phi (b_flow b3) = phi) by apply (pl_phi _ _ _ _ _ PL).
  (* rates of the edges *)
  assert (O1 : forall e i t, In e (g_edges g) -> 0 <= t -> t < phi -> rout b' e i t = rout b e i t).
  { intros e i t I T0 T1. pose proof (edge_lt e I) as L. unfold rout. f_equal. destruct (RP (e_id g e) L) as [_ K]. rewrite (K i t T0 T1).
    rewrite (after_rate cs b2 b3 _ _ i t AF F2 L), Y1. reflexivity. }
  assert (O2 : forall e i t, In e (g_edges g) -> phi <= t -> t < phi' \/ (t = phi' /\ ~ In (e_id g e) ch) -> rout b' e i t = rout b e i phi).
  { intros e i t I T0 T1. pose proof (edge_lt e I) as L. destruct (S4 (e_id g e)) as [new [EC [NT [OT CH]]]].
    assert (E3 : rout b e i phi = rate (latest_rates (map pair_of (out_chain (b_flow b3) (e_id g e))) phi) i).
    { unfold rout. rewrite <- Y1. rewrite <- (after_rate cs b2 b3 _ _ i phi AF F2 L). rewrite (out_rate (s_nw S) (so_net S r OK) cs (b_flow b3) (e_id g e) i phi F3 L) by (rewrite PH3; qlra). reflexivity. }
    assert (CN : latest_rates (map pair_of (out_chain (b_flow b3) (e_id g e))) t = latest_rates (map pair_of (out_chain (b_flow b3) (e_id g e))) phi).
    { unfold latest_rates. rewrite (latest_const _ phi t T0); [reflexivity|]. rewrite map_fst_pair. intros x Hx. destruct (qlebP x phi) as [Q|Q]; [left; exact Q|right].
      pose proof (OT x Hx ltac:(qlra)) as Q2. destruct T1 as [T1|[T1 NC]]; [qlra|]. subst t.
      destruct (qeqbP x phi') as [->|NE]; [|qlra]. exfalso. apply NC, CH. right. split; [qlra|exact Hx]. }
    rewrite E3, <- CN.
    assert (CA : latest (map pair_of (out_chain (b_flow b') (e_id g e))) t = latest (map pair_of (out_chain (b_flow b3) (e_id g e))) t).
    { rewrite EC, map_app. apply latest_app_late. rewrite map_fst_pair. intros x Hx. pose proof (NT x Hx) as Q. destruct T1 as [T1|[T1 NC]]; [qlra|]. subst t.
      destruct (qeqbP x phi') as [->|NE]; [|qlra]. exfalso. apply NC, CH. left. exact Hx. }
    unfold latest_rates. rewrite <- CA. unfold rout.
    destruct (qeqbP t phi') as [->|NE].
    - rewrite (out_rate (s_nw S) (so_net S r OK) _ (b_flow b') (e_id g e) i phi' F' L) by (unfold phi'; qlra). reflexivity.
    - assert (LT : t < phi') by (destruct T1 as [T1|[T1 _]]; [exact T1|contradiction]).
      (* before phi' the chain may have been consumed; use the state before reads *)
      pose proof (fl_g _ _ _ F') as G'. destruct (gi_e _ _ _ G' (e_id g e) L) as [gh [B _]]. pose proof (b_out _ _ _ _ _ B) as FO. cbn [edge_of e_out] in FO.
      rewrite (rate_of_eq _ _ _ _ _ i t FO) by qlra. cbn [val]. f_equal.
      destruct (fi_chain _ _ _ _ (fs_inv _ _ _ _ _ FO)) as [pre EPR]. rewrite EPR. unfold latest_rates.
      assert (HH : exists h l, out_chain (b_flow b') (e_id g e) = h :: l /\ it_time h <= phi).
      { destruct (gi_e _ _ _ (fl_g _ _ _ F3) (e_id g e) L) as [gh3 [B3 _]]. pose proof (b_hd _ _ _ _ _ B3) as HD3. pose proof (b_out _ _ _ _ _ B3) as FO3. cbn [edge_of e_out] in HD3, FO3.
        rewrite EC. unfold out_chain. unfold head_time in HD3. destruct (c_chain (outflow_of (b_flow b3) (e_id g e))) as [|h l] eqn:EC3; [exfalso; apply (fi_ne _ _ _ _ (fs_inv _ _ _ _ _ FO3)); exact EC3|].
        exists h, (l ++ new). split; [reflexivity|]. rewrite <- PH3. exact HD3. }
      destruct HH as [h [l [HE HT]]]. unfold out_chain in HE |- *. rewrite HE. cbn [map].
      destruct (latest_ne (pair_of h) (map pair_of l) t) as [q Q]; [cbn [pair_of fst]; qlra|]. rewrite (latest_suffix pre _ t q Q), Q. reflexivity. }
  assert (I3 : forall e, inflow_of (b_flow b3) e = inflow_of (b_flow b) e) by (intro e; unfold inflow_of; rewrite (af_in _ _ _ _ AF), Y1; reflexivity).
  assert (I1 : forall e i t, In e (g_edges g) -> 0 <= t -> t < phi -> rin b' e i t = rin b e i t).
  { intros e i t I T0 T1. pose proof (edge_lt e I) as L. unfold rin. f_equal. destruct (RP (e_id g e) L) as [K _]. rewrite I3 in K.
    destruct (dget ni (e_id g e)) as [nf|]; [|rewrite K; reflexivity]. rewrite (K i t T0). destruct (qlebP phi t) as [Q|Q]; [exfalso; qlra|reflexivity]. }
  assert (I2 : forall e i t, In e (g_edges g) -> phi <= t -> rin b' e i t = match dget ni (e_id g e) with Some nf => rate nf i | None => rin b e i phi end).
  { intros e i t I T0. pose proof (edge_lt e I) as L. unfold rin. destruct (RP (e_id g e) L) as [K _]. rewrite I3 in K.
    destruct (dget ni (e_id g e)) as [nf|].
    - rewrite (K i t) by qlra. destruct (qlebP phi t) as [Q|Q]; [reflexivity|contradiction].
    - rewrite K. f_equal. apply (in_rate (s_nw S) (so_net S r OK) cs (b_flow b) (e_id g e) i t F L T0). }
  (* what is sent from phi on *)
  assert (BAL : forall v i, In v (node_ids g) -> forall t, phi <= t ->
     (sinks_at S v i -> sent_to b' v i t = 0) /\ (~ sinks_at S v i -> sent_to b' v i t = sent_of (into b v i phi))).
  { intros v i Iv t T0. destruct (in_dec Nat.eq_dec v (b_handle b3)) as [IH|NH].
    - pose proof (pl_split _ _ _ _ _ PL v i IH) as SO.
      assert (EQ : sent_to b' v i t = qsum (map (fun e => match sent S ni e i with Some y => y | None => 0 end) (outgoing g v))).
      { unfold sent_to. apply qsum_ext. intros e I. pose proof (out_edge v e I) as [I' _]. rewrite (I2 e i t I' T0). unfold sent. fold g.
        assert (IK : In (e_id g e) (map fst ni)) by (apply (pl_ids _ _ _ _ _ PL); eauto).
        destruct (dget ni (e_id g e)) as [nf|] eqn:DN; [|exfalso; apply (proj1 (dget_None _ _) DN IK)]. unfold rate. destruct (dget nf i); reflexivity. }
      rewrite EQ. split; intro SI; [eapply split_zero; eauto|]. pose proof (supply_into cs b v i F P0 (co_net b CO v Iv)) as SU. fold phi in SU. rewrite <- SU. eapply split_sum; eauto.
    - assert (NN : phi <> b_next b). { intro Q. apply NH. apply (pl_re _ _ _ _ _ PL Q). exact Iv. }
      destruct (pl_no _ _ _ _ _ PL NN) as [_ [_ HH]].
      assert (B0 : balanced b v i phi).
      { apply (co_now b CO NN v i Iv). - intro Q. apply NH, HH. left. exact Q. - intros it D Q. apply NH, HH. right. eauto. }
      assert (EQ : sent_to b' v i t = sent_to b v i phi).
      { unfold sent_to. apply qsum_ext. intros e I. pose proof (out_edge v e I) as [I' FR]. rewrite (I2 e i t I' T0).
        assert (NK : ~ In (e_id g e) (map fst ni)).
        { intro IK. apply (pl_ids _ _ _ _ _ PL) in IK. destruct IK as [w [e' [Iw [Ie' Q]]]]. apply out_edge in Ie'. destruct Ie' as [Ie' FR'].
          apply NH. rewrite <- FR, <- (id_inj g C e' e Ie' I' Q), FR'. exact Iw. }
        rewrite (proj2 (dget_None _ _) NK). reflexivity. }
      rewrite EQ. exact B0. }
  (* the network inflow does not change in (phi, phi'] unless a change is pending at phi' *)
  assert (NC : forall v i t, phi <= t -> (forall u, change_at S i v u -> phi < u -> t < u) -> rc_at (net_fn v i) t = rc_at (net_fn v i) phi).
  { intros v i t T0 HU. apply net_const; [exact T0|]. intros u CU. destruct (qlebP u phi) as [Q|Q]; [left; exact Q|right; apply HU; [exact CU|qlra]]. }
  assert (CHG : forall v i u, change_at S i v u -> phi < u -> sq_key_of (b_changes b3) (i, v, u) = Some (Fin u)).
  { intros v i u CU L. pose proof (sc_all _ _ _ SC i v u CU L) as K. destruct (sq_key_of (b_changes b) (i, v, u)) as [q|] eqn:E; [|congruence].
    destruct (sc_key _ _ _ SC _ _ E) as [-> _]. apply QK. split; [exact E|]. cbn [ext_le snd]. fold phi. qlra. }
  constructor.
  - eapply step_sched; eauto.
  - eauto.
  - intros v Iv. assert (N3 : net_ok_at b3 v).
    { apply (net_after b2 b3 _ v AF). destruct (co_net b CO v Iv) as [c [sn [T [w K]]]]. exists c, sn, T, w. rewrite Y1, Y2. exact K. }
    destruct N3 as [c [sn [T [w [K1 [K2 [K3 K4]]]]]]]. exists c, sn, T, w. rewrite Z3. split; [exact K1|]. split; [exact K2|]. split; [|exact K4]. fold phi'. rewrite PH3 in K3. qlra.
  - fold phi'. intros v i t Iv T0 T1. destruct (qlebP phi t) as [Q|Q].
    + assert (EI : into b' v i t = into b v i phi).
      { unfold into. f_equal; [apply qsum_ext; intros e I; apply in_edge in I; apply O2; [apply I|exact Q|left; exact T1]|].
        apply NC; [exact Q|]. intros u CU L. pose proof (M2 _ _ (CHG v i u CU L)). qlra. }
      destruct (BAL v i Iv t Q) as [B1 B2]. split; [exact B1|]. rewrite EI. exact B2.
    + destruct (co_past b CO v i t Iv T0 ltac:(fold phi; qlra)) as [B1 B2].
      assert (ES : sent_to b' v i t = sent_to b v i t) by (unfold sent_to; apply qsum_ext; intros e I; apply out_edge in I; apply I1; [apply I|exact T0|qlra]).
      assert (EI : into b' v i t = into b v i t) by (unfold into; f_equal; apply qsum_ext; intros e I; apply in_edge in I; apply O1; [apply I|exact T0|qlra]).
      split; rewrite ES, ?EI; assumption.
  - fold phi'. rewrite Z1. intros NN v i Iv NH NDU.
    assert (EI : into b' v i phi' = into b v i phi).
    { unfold into. f_equal.
      - apply qsum_ext. intros e I. apply in_edge in I. destruct I as [I TO]. apply O2; [exact I|exact S1|right]. split; [reflexivity|]. intro IC. apply NH. apply HD. exists e. auto.
      - apply NC; [exact S1|]. intros u CU L. pose proof (CHG v i u CU L) as K. pose proof (M2 _ _ K) as M3. destruct (qeqbP u phi') as [->|NE]; [|qlra].
        exfalso. apply (NDU (i, v, phi')); [|reflexivity]. exists (Fin phi'). split; [rewrite Z4; exact K|]. cbn [ext_le]. fold phi'. qlra. }
    destruct (BAL v i Iv phi' S1) as [B1 B2]. split; [exact B1|]. rewrite EI. exact B2.
Qed.
Lemma init_cons b : fb_init S = Ok b -> cons b.
Proof.
  intro H. destruct (init_sched S r OK b H) as [SC [P0 [N0 _]]]. constructor.
  - exact SC.
  - exists []. apply init_full; [apply (so_net S r OK)|]. unfold fb_init in H. apply bind_ok in H. destruct H as [fl [E1 H]]. apply bind_ok in H. destruct H as [imp [E2 H]].
    apply bind_ok in H. destruct H as [net [E3 H]]. apply bind_ok in H. destruct H as [u [E4 H]]. injection H as <-. exact E1.
  - intros v Iv. apply net_init; assumption.
  - intros v i t _ T0 T1. exfalso. rewrite P0 in T1. qlra.
  - intro NN. exfalso. apply NN. congruence.
Qed.
Lemma run_cons : forall n b, fb_run true S n = Ok b -> cons b.
Proof.
  induction n as [|n IH]; intros b H; cbn [fb_run] in H; [apply init_cons, H|]. apply bind_ok in H. destruct H as [b0 [H1 H2]]. eapply step_cons; eauto.
Qed.
Lemma clean_same : forall n b, clean_build S n -> fb_run false S n = Ok b -> fb_run true S n = Ok b.
Proof.
  unfold clean_build. induction n as [|n IH]; intros b CL H; cbn [fb_run] in *; [exact H|]. apply bind_ok in H. destruct H as [b0 [H1 H2]].
  assert (T0 : fb_run true S n = Ok b0) by (apply IH; [intro Q; apply CL; rewrite Q; reflexivity|exact H1]). rewrite T0 in CL |- *. cbn [bind] in *.
  pose proof (run_cons n b0 T0) as CO. pose proof (co_sched b0 CO) as SC. destruct (step_ok S r OK false b0 b SC H2) as [b3 [ni [maxt [ch ST]]]].
  destruct ST as [EP PL VC EX SP [M1 M2] TI _ ND HD]. destruct (co_full b0 CO) as [cs F]. destruct (pl_flow _ _ _ _ _ PL) as [b2 [Y1 [Y2 [Y3 AF]]]].
  assert (F2 : full (s_nw S) cs (b_flow b2)) by (rewrite Y1; exact F). pose proof (after_full cs b2 b3 _ AF F2) as F3.
  rewrite step_plan in H2, CL |- *. rewrite EP in *. cbn [bind] in *. destruct (ext_min (Fin (b_next b3)) (sq_min_key (b_changes b3))) as [|mt|] eqn:EM; try discriminate.
  assert (VC' : valid_call (s_nw S) (b_flow b3) (CExtend ni mt)).
  { apply bind_ok in H2. destruct H2 as [[fl' ch'] [EX' _]]. destruct VC as [V1 [V2 V3]]. split; [exact V1|]. split; [exact V2|].
    destruct (ext_min_le (Fin (b_next b3)) (sq_min_key (b_changes b3))) as [Q1 [Q2 Q3]]. rewrite EM in Q1, Q2, Q3. rewrite (pl_phi _ _ _ _ _ PL).
    destruct Q3 as [Q3|Q3]; [injection Q3 as ->; rewrite <- (pl_phi _ _ _ _ _ PL); qlra|]. destruct (pl_q _ _ _ _ _ PL) as [QN QK].
    destruct (min_key_ex _ QN) as [[Q _]|[it Q]]; [congruence|]. rewrite <- Q3 in Q. apply QK in Q. destruct Q as [_ Q]. cbn [ext_le] in Q. qlra. }
  pose proof (extend_good (s_nw S) (so_net S r OK) cs (b_flow b3) ni mt F3 VC') as GE.
  destruct (flow_extend true (s_nw S) (b_flow b3) ni mt) as [rs|x] eqn:ET; cbn [good] in GE.
  - rewrite (ref_extend _ _ _ _ rs ET) in H2. cbn [bind] in *. exact H2.
  - exfalso. destruct x; try contradiction.
Qed.
End Build.
