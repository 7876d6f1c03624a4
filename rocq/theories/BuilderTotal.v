(** * FlowBuilder: no exception is raised (proofs for C78) *)
From Coq Require Import Permutation.
From Verif Require Import Base Spec Arrays ArraysProofs PL PLProofs RC RCProofs FRC FRCProofs FRCExact PQ PQProofs PQSpec DynFlow DQProofs DynRun DynEvents DynEdge DynFlowProofs
  Graph GraphSpec GraphProofs Dijkstra DijkstraSpec DijkstraProofs DijkstraProofs2 FlowBuilder FlowBuilderProofs BuilderRun BuilderFlow
  Predictors PredictorsProofs PredictorsProofs2 PropPredictors2 PropPredictors4 RoutesSpec BuilderRoutes BuilderRoutes2 BuilderRoutes3 TotalSpec.

Lemma foldM_total {A St} (f : St -> A -> res St) (P : St -> Prop) : forall l s, P s ->
  (forall x s, In x l -> P s -> exists s', f s x = Ok s' /\ P s') -> exists s', foldM f l s = Ok s' /\ P s'.
Proof.
  induction l as [|x l IH]; intros s H F; cbn [foldM]; [eauto|]. destruct (F x s (or_introl eq_refl) H) as [s1 [E1 P1]]. rewrite E1. cbn [bind].
  apply IH; [exact P1|]. intros y s0 I. apply F. right. exact I.
Qed.

Section T.
Variables (S : setup) (r : Qc).
Hypothesis OK : setup_ok S r.
Hypothesis SR : sources_ok S.
Let g := s_graph S.
Let C : consistent g := so_graph S r OK.
Let N := length (n_cap (s_nw S)).

(** ** The constructor *)
Lemma important_total c : In c (s_coms S) -> In (k_sink c) (node_ids g) -> exists l, important g c = Ok l.
Proof.
  intros IC SK. unfold important. destruct (reaching_spec g (k_sink c) C SK) as [l1 [-> _]]. cbn [bind].
  destruct (mapM_total (fun p => get_reachable_nodes g (fst p)) (k_sources c)) as [l2 ->]; [|cbn [bind]; eauto].
  intros [s f] I. cbn [fst]. destruct (reachable_spec g s C (so_nodes S r OK c s f IC I)) as [l3 [E _]]. eauto.
Qed.
Lemma important_foreign c : ~ In (k_sink c) (node_ids g) -> important g c = Err AssertionError.
Proof.
  intros NI. unfold important, get_nodes_reaching. replace (dhas (g_nodes g) (k_sink c)) with false; [reflexivity|]. symmetry. destruct (dhas (g_nodes g) (k_sink c)) eqn:D; [|reflexivity].
  apply dhas_In in D. contradiction.
Qed.
Lemma net_total : exists net, mapM (fun v => c <- frc_init (net_fns (s_coms S) v) ;; Ok (v, c)) (map fst (g_nodes g)) = Ok net.
Proof.
  apply mapM_total. intros v Iv. destruct (net_fns (s_coms S) v) as [|p q] eqn:EF.
  - rewrite frc_init_nil. cbn [bind]. eauto.
  - rewrite <- EF. destruct (frc_init_ok (net_fns (s_coms S) v) (net_fns_rate S SR v)) as [c' [snaps [T [w [E' _]]]]].
    + rewrite EF. discriminate.
    + intros x y Hx Hy. apply net_fns_times in Hx, Hy. destruct Hx as [i Hx], Hy as [j Hy]. eapply (sr_sep S SR); eauto.
    + rewrite E'. cbn [bind]. eauto.
Qed.
Lemma all_total : (forall c, In c (s_coms S) -> In (k_sink c) (node_ids g)) -> exists imp, important_all S = Ok imp.
Proof. intro H. unfold important_all. apply mapM_total. intros c I. apply important_total; auto. Qed.
Lemma all_foreign : forall c, In c (s_coms S) -> ~ In (k_sink c) (node_ids g) -> important_all S = Err AssertionError.
Proof.
  intros c I NI. unfold important_all.
  assert (H : forall l, incl l (s_coms S) -> In c l -> mapM (important (s_graph S)) l = Err AssertionError).
  { induction l as [|d l IH]; intros IL IC; [destruct IC|]. cbn [mapM]. destruct (in_dec Nat.eq_dec (k_sink d) (node_ids g)) as [Q|Q].
    - destruct (important_total d (IL d (or_introl eq_refl)) Q) as [x E]. fold g. rewrite E. cbn [bind]. destruct IC as [->|IC]; [contradiction|]. fold g in IH. rewrite IH; [reflexivity| |exact IC]. intros y Hy. apply IL. right. exact Hy.
    - fold g. rewrite (important_foreign d Q). reflexivity. }
  apply H; [apply incl_refl|exact I].
Qed.
Lemma init_cases : (served S /\ exists b, fb_init S = Ok b) \/ (~ served S /\ fb_init S = Err AssertionError).
Proof.
  unfold fb_init. unfold flow_init. rewrite frc_init_nil. cbn [bind].
  assert (DEC : (forall c, In c (s_coms S) -> In (k_sink c) (node_ids g)) \/ exists c, In c (s_coms S) /\ ~ In (k_sink c) (node_ids g)).
  { clear. induction (s_coms S) as [|c l IH]; [left; intros ? []|]. destruct (in_dec Nat.eq_dec (k_sink c) (node_ids g)) as [Q|Q]; [|right; exists c; split; [left; reflexivity|exact Q]].
    destruct IH as [IH|[d [I D]]]; [left; intros x [<-|I]; auto|right; exists d; split; [right; exact I|exact D]]. }
  destruct DEC as [A|[c [I NI]]].
  - destruct (all_total A) as [imp EI]. rewrite EI. cbn [bind]. destruct net_total as [net EN]. fold g. rewrite EN. cbn [bind].
    assert (IMP : forall i c s f, nth_error (s_coms S) i = Some c -> In (s, f) (k_sources c) -> (In s (nth i imp []) <-> path (arcs g) s (k_sink c))).
    { intros i c s f E I. unfold important_all in EI. destruct (mapM_spec _ _ _ EI) as [_ NN]. destruct (NN i c E) as [l [L1 L2]]. rewrite (nth_error_nth _ _ _ L1).
      destruct (important_ok S r OK c l (nth_error_In _ _ E) L2) as [_ IFF]. fold g in IFF. rewrite IFF. split; [intros [P _]; exact P|]. intro P. split; [exact P|].
      exists s, f. split; [|constructor]. apply In_dget; [apply (so_src S r OK c (nth_error_In _ _ E))|exact I]. }
    match goal with |- context [assertb ?x] => destruct x eqn:AS end; cbn [assertb bind].
    + left. split; [|eauto]. intros c I. split; [apply A, I|]. intros s f Is. destruct (In_nth_error _ _ I) as [i E]. apply (IMP i c s f E Is).
      rewrite forallb_forall in AS. specialize (AS (i, c) (proj2 (FlowBuilderProofs.enum_nth _ _ _) E)). rewrite forallb_forall in AS. specialize (AS (s, f) Is). cbn [fst snd] in AS. apply memP in AS. exact AS.
    + right. split; [|reflexivity]. intro SV. assert (Q : forallb (fun p => forallb (fun q => mem (fst q) (nth (fst p) imp [])) (k_sources (snd p))) (enum (s_coms S)) = true); [|congruence].
      apply forallb_forall. intros [i c] I. apply FlowBuilderProofs.enum_nth in I. apply forallb_forall. intros [s f] Is. cbn [fst snd] in *. apply memP. apply (IMP i c s f I Is). apply (SV c (nth_error_In _ _ I)) with (f := f). exact Is.
  - right. split; [intro SV; apply NI, (SV c I)|]. rewrite (all_foreign c I NI). reflexivity.
Qed.

(** ** Costs *)
Hypothesis SV : served S.
Variable n : nat.
Hypothesis AN : answers S r (Datatypes.S n).
Lemma asked_usable c T preds j : In c (s_coms S) -> T = qn j * r -> asked S r n (k_pred c) T preds -> usable_preds (su_net S) T preds.
Proof.
  intros IC -> (m & bm & p & fl & LM & RM & A1 & A2 & DP & FP & FI & FQ & PR).
  destruct (AN m bm c j fl ltac:(lia) RM IC A1 A2 FP FI FQ) as (p' & preds' & DP' & PR' & U). rewrite DP in DP'. injection DP' as <-. rewrite PR in PR'. apply ok_inj in PR'. subst preds'. exact U.
Qed.
Lemma costs_total b c j : here S r n b -> cinv S r n b -> In c (s_coms S) -> b_route b = qn j * r ->
  exists b' costs p preds, get_costs S b (k_pred c) = Ok (b', costs) /\ dget (su_preds S) (k_pred c) = Some p /\ costs_from_preds (su_net S) preds (b_route b) = Ok costs /\ usable_preds (su_net S) (b_route b) preds.
Proof.
  intros HE CI IC RT. destruct (get_costs S b (k_pred c)) as [[b' costs]|x] eqn:G.
  - destruct (costs_cinv S r n b (k_pred c) b' costs HE CI G) as [_ (p & preds & P1 & P2 & P3)]. exists b', costs, p, preds. split; [reflexivity|]. split; [exact P1|]. split; [exact P3|]. apply (asked_usable c _ _ j IC RT P2).
  - exfalso. unfold get_costs in G. destruct (dget (b_costs b) (k_pred c)); [discriminate|]. destruct HE as (bm & E0 & E1 & E2 & E3 & E4 & E5).
    destruct (AN n bm c j (b_flow b) ltac:(lia) E0 IC ltac:(rewrite <- RT, <- E1; exact E4) ltac:(rewrite <- RT, <- E1; exact E5) E1 E2 E3) as (p & preds & DP & PR & U1 & U2).
    unfold dfetch in G. rewrite DP in G. cbn [bind] in G. rewrite RT, PR in G. cbn [bind] in G. rewrite RT in *.
    destruct (C67_costs (su_net S) preds (qn j * r) (sound S r OK) U1 U2) as [costs [cf [CC _]]]. unfold costs_from_preds in CC. unfold s_nw, s_graph in G. rewrite CC in G. discriminate.
Qed.
Lemma first_nonneg preds T : usable_preds (su_net S) T preds -> nonneg_times (su_net S) preds.
Proof.
  intros [U1 U2]. split; [exact U1|]. intros f q I E. destruct (In_nth_error _ _ I) as [i Ei].
  assert (L : (i < length (w_cap (su_net S)))%nat). { rewrite (sn_cap _ (sound S r OK)), <- U1. apply nth_error_Some. congruence. }
  destruct (nth_error (w_cap (su_net S)) i) as [cap|] eqn:CE; [|apply nth_error_None in CE; lia]. destruct (U2 i f cap Ei CE) as [cur [[V _] [_ [_ [A _]]]]].
  destruct (A (tm f 0)) as [y [EV Y]].
  assert (Q : pl_at f (tm f 0) = q). { rewrite (at_left f (tm f 0) V) by qlra. unfold vl, nthq. change (Z.to_nat 0) with 0%nat. rewrite (nth_error_nth _ _ 0 E). ring. }
  pose proof (eval_at f (tm f 0) V) as E2. destruct (U2 i f cap Ei CE) as [cur' [[_ [L1 L2]] _]]. rewrite E2 in EV by (split; [rewrite L1|rewrite L2]; exact Logic.I). apply ok_inj in EV. congruence.
Qed.
Lemma const_total preds T costs : usable_preds (su_net S) T preds -> costs_from_preds (su_net S) preds T = Ok costs -> exists const, mapM (fun f => pyget (pl_values f) 0) costs = Ok const.
Proof.
  intros [U1 U2] CF. apply mapM_total. intros k I. unfold costs_from_preds in CF. apply (mapM_In _ _ _ CF) in I. destruct I as [i [I E]]. apply in_seq in I.
  destruct (nth_error preds i) as [f|] eqn:Ei; [|apply nth_error_None in Ei; lia].
  destruct (nth_error (w_cap (su_net S)) i) as [cap|] eqn:CE; [|apply nth_error_None in CE; rewrite (sn_cap _ (sound S r OK)) in CE; lia].
  destruct (nth_error (w_tau (su_net S)) i) as [tau|] eqn:TE; [|apply nth_error_None in TE; rewrite (sn_tau _ (sound S r OK)) in TE; lia].
  destruct (U2 i f cap Ei CE) as [cur [[V [L1 L2]] [TS _]]]. pose proof (sn_pos _ (sound S r OK) i cap CE) as CP.
  unfold edge_cost, fetch in E. cbn [n_cap n_tau] in E. rewrite Ei, TE, CE in E. cbn [bind] in E.
  assert (D : forall v, pydiv v cap = Ok (v / cap)) by (intro v; unfold pydiv; destruct (qeqbP cap 0) as [->|]; [exfalso; qlra|reflexivity]).
  rewrite (mapM_map _ (fun v => tau + v / cap)) in E by (intros v _; rewrite D; reflexivity). cbn [bind] in E. rewrite !D in E. cbn [bind] in E.
  set (h := mkPL (pl_times f) (map (fun v => tau + v / cap) (pl_values f)) (pl_first f / cap) (pl_last f / cap) (Fin T) PInf) in *.
  assert (VH : valid h). { destruct V as [V1 V2 V3 V4]. constructor; cbn [h pl_times pl_values pl_lo pl_hi]; auto; [rewrite map_length; exact V1|]. intros x I0. split; [apply TS, I0|exact Logic.I]. }
  pose proof (pl_init_ok h VH) as PI. cbn [h pl_times pl_values pl_first pl_last pl_lo pl_hi] in PI. rewrite PI in E. apply ok_inj in E. subst k. cbn [h pl_values].
  destruct V as [V1 V2 V3 V4]. destruct (pl_values f) as [|q qs]; [exfalso; destruct (pl_times f); [contradiction V2; reflexivity|discriminate V1]|]. cbn [map]. exists (tau + q / cap). reflexivity.
Qed.

(** ** Active edges *)
Lemma share_len sink ty v l active : length (share (s_coms S) sink ty active v l) = length active.
Proof.
  unfold share. revert active. induction (ids_by_sink (s_coms S) sink) as [|j js IH]; intro active; cbn [fold_left]; [reflexivity|]. rewrite IH.
  destruct (nth_error (s_coms S) j) as [c|]; [|reflexivity]. destruct (Nat.eqb (k_pred c) ty); [|reflexivity]. unfold set_active. apply upd_length.
Qed.
Definition known (active : list (list (nat * list nat))) (i v : nat) : Prop := dget (nth i active []) v <> None.
Lemma set_known active j w l i v : known active i v -> known (set_active active j w l) i v.
Proof.
  unfold known, set_active. intro H. rewrite nth_upd. destruct (Nat.eqb_spec j i) as [<-|]; [|exact H]. destruct (j <? length active)%nat eqn:L; [|rewrite nth_overflow in H by (apply Nat.ltb_ge; exact L); contradiction H; reflexivity].
  rewrite dget_dset. destruct (Nat.eqb_spec w v); [discriminate|exact H].
Qed.
Lemma share_known sink ty w l i v active : known active i v -> known (share (s_coms S) sink ty active w l) i v.
Proof.
  unfold share. revert active. induction (ids_by_sink (s_coms S) sink) as [|j js IH]; intros active H; cbn [fold_left]; [exact H|]. apply IH.
  destruct (nth_error (s_coms S) j) as [c|]; [|exact H]. destruct (Nat.eqb (k_pred c) ty); [|exact H]. apply set_known, H.
Qed.
Lemma share_sets i c w l active : nth_error (s_coms S) i = Some c -> (i < length active)%nat -> known (share (s_coms S) (k_sink c) (k_pred c) active w l) i w.
Proof.
  intros E L. assert (I : In i (ids_by_sink (s_coms S) (k_sink c))) by (apply ids_by_sink_iff; exists c; auto). unfold share. revert active L.
  induction (ids_by_sink (s_coms S) (k_sink c)) as [|j js IH]; intros active L; [destruct I|]. cbn [fold_left]. destruct I as [->|I].
  - rewrite E, Nat.eqb_refl. assert (K : known (set_active active i w l) i w).
    { unfold known, set_active. rewrite nth_upd, Nat.eqb_refl. apply Nat.ltb_lt in L. rewrite L, dget_dset, Nat.eqb_refl. discriminate. }
    revert K. generalize (set_active active i w l). clear IH. induction js as [|j js IH]; intros a K; cbn [fold_left]; [exact K|]. apply IH.
    destruct (nth_error (s_coms S) j) as [c'|]; [|exact K]. destruct (Nat.eqb (k_pred c') (k_pred c)); [|exact K]. apply set_known, K.
  - apply (IH I). destruct (nth_error (s_coms S) j) as [c'|]; [|exact L]. destruct (Nat.eqb (k_pred c') (k_pred c)); [|exact L]. unfold set_active. rewrite upd_length. exact L.
Qed.
Lemma tight_total const dist v dv : (forall e, In e (g_edges g) -> exists c, nth_error const (e_id g e) = Some c) -> dget dist v = Some dv ->
  forall l, (forall e, In e l -> In e (g_edges g)) -> exists q, tight_edges g const dist v l = Ok q /\
    forall e c dw, In e l -> nth_error const (e_id g e) = Some c -> dget dist (e_to g e) = Some dw -> c + dw <= dv + eps -> In e q.
Proof.
  intros NC DV. induction l as [|a l IH]; intros I; cbn [tight_edges]; [exists []; split; [reflexivity|intros e c dw []]|].
  destruct IH as [q [E Q]]; [intros e H; apply I; right; exact H|]. destruct (dget dist (e_to g a)) as [dw|] eqn:D.
  - destruct (NC a (I a (or_introl eq_refl))) as [ca EA]. unfold fetch, dfetch. rewrite EA, DV. cbn [bind]. rewrite E. cbn [bind]. eexists. split; [reflexivity|].
    intros e c dw' [<-|J] EC ED L.
    + rewrite EA in EC. injection EC as <-. rewrite D in ED. injection ED as <-. destruct (qlebP (ca + dw) (dv + eps)) as [_|X]; [left; reflexivity|contradiction].
    + destruct (qleb (ca + dw) (dv + eps)); [right|]; eapply Q; eauto.
  - rewrite E. exists q. split; [reflexivity|]. intros e c dw' [<-|J] EC ED L; [congruence|eapply Q; eauto].
Qed.
Lemma sink_important i c v b0 : fb_init S = Ok b0 -> nth_error (s_coms S) i = Some c -> from_source S i v -> path (arcs g) v (k_sink c) -> In (k_sink c) (com_nodes S i) /\ In v (com_nodes S i).
Proof.
  intros BI E FS P. destruct (com_nodes_spec S r OK i c b0 BI E) as [_ CN]. split; apply CN; (split; [|eauto using from_path]); [constructor|exact P].
Qed.
Lemma path_front_ind A w (P : nat -> Prop) : P w -> (forall u v, In (u, v) A -> path A v w -> P v -> P u) -> forall u, path A u w -> P u.
Proof.
  intros H0 HS u PA. revert P H0 HS. induction PA as [u|u v w PA IH I]; intros P H0 HS; [exact H0|]. apply IH.
  - apply (HS v w I); [constructor|exact H0].
  - intros a b Iab Pb. apply (HS a b Iab). eapply path_step; eauto.
Qed.
Lemma path_walk costs nodes sink i : (forall u, In u nodes <-> path (arcs g) u sink /\ from_source S i u) -> forall v, path (arcs g) v sink -> from_source S i v ->
  exists k x, walk_to g costs nodes sink v k x.
Proof.
  intros CN. apply (path_front_ind (arcs g) sink (fun v => from_source S i v -> exists k x, walk_to g costs nodes sink v k x)).
  - intros _. exists 0%nat, 0. constructor.
  - intros u v I P IH FS. assert (FV : from_source S i v) by (apply (from_path S i u v FS); eapply path_step; [constructor|exact I]). destruct (IH FV) as (k & x & W).
    unfold arcs in I. apply in_map_iff in I. destruct I as [e [E I]]. injection E as <- <-. exists (Datatypes.S k), (cost_of g costs e + x). apply walk_edge; [exact I| |exact W].
    apply CN. split; [|exact FS]. eapply path_front; [|exact P]. unfold arcs. apply in_map_iff. exists e. auto.
Qed.

Variable b0 : builder.
Hypothesis BI : fb_init S = Ok b0.
Lemma const_fold i c const dist : nth_error (s_coms S) i = Some c -> (exists v, from_source S i v /\ path (arcs g) v (k_sink c)) ->
  (forall e, In e (g_edges g) -> exists x, nth_error const (e_id g e) = Some x /\ 0 <= x) -> reverse_dijkstra g (k_sink c) const (com_nodes S i) = Ok dist ->
  forall active, length active = length (s_coms S) -> exists active', foldM (const_node S c const dist) (com_nodes S i) active = Ok active' /\ length active' = length active /\
    forall v, In v (com_nodes S i) -> v <> k_sink c -> known active' i v.
Proof.
  intros E [v0 [FS0 P0]] NC RD. destruct (com_nodes_spec S r OK i c b0 BI E) as [SK CN]. destruct (sink_important i c v0 b0 BI E FS0 P0) as [IS _].
  destruct (reverse_dijkstra_spec g const (com_nodes S i) (k_sink c) C SK IS NC) as [dist' [RD' [_ [_ [_ [D2 [_ D4]]]]]]]. rewrite RD in RD'. apply ok_inj in RD'. subst dist'.
  assert (H : forall l active, (forall v, In v l -> In v (com_nodes S i)) -> length active = length (s_coms S) ->
    exists active', foldM (const_node S c const dist) l active = Ok active' /\ length active' = length active /\ (forall v, known active i v -> known active' i v) /\ forall v, In v l -> v <> k_sink c -> known active' i v).
  { induction l as [|v l IH]; intros active I L; cbn [foldM]; [exists active; split; [reflexivity|]; split; [reflexivity|]; split; [auto|intros v []]|].
    unfold const_node at 1. destruct (Nat.eqb_spec v (k_sink c)) as [Q|Q].
    - cbn [bind]. destruct (IH active) as (a' & E1 & E2 & E3 & E4); [intros w Hw; apply I; right; exact Hw|exact L|]. exists a'. repeat (split; [assumption|]). intros w [<-|Hw] NW; [contradiction|apply E4; assumption].
    - assert (IV : In v (com_nodes S i)) by (apply I; left; reflexivity). apply CN in IV. destruct IV as [PV FV].
      destruct (path_walk const (com_nodes S i) (k_sink c) i CN v PV FV) as (k & x & W). destruct (D2 v k x W) as [dv [DV _]].
      destruct (tight_total const dist v dv (fun e Ie => let (y, P) := NC e Ie in ex_intro _ y (proj1 P)) DV (outgoing g v)) as [q [TE TQ]]; [intros e Ie; apply (out_iff g C) in Ie; apply Ie|].
      fold g. rewrite TE. cbn [bind]. destruct (D4 v dv DV Q) as (e & dw & Ie & EF & DW & EQ). destruct (NC e Ie) as [ce [CE _]].
      assert (IQ : In e q). { apply (TQ e ce dw); [apply (out_iff g C); auto|exact CE|exact DW|]. rewrite EQ. unfold cost_of. rewrite (nth_error_nth _ _ _ CE). pose proof eps_pos. qlra. }
      assert (LQ : (0 <? length q)%nat = true) by (destruct q; [destruct IQ|reflexivity]). rewrite LQ. cbn [assertb bind].
      set (a1 := share (s_coms S) (k_sink c) (k_pred c) active v q). assert (L1 : length a1 = length active) by apply share_len.
      destruct (IH a1) as (a' & E1 & E2 & E3 & E4); [intros w Hw; apply I; right; exact Hw|congruence|]. exists a'. split; [exact E1|]. split; [congruence|]. split.
      + intros w Hw. apply E3. apply share_known, Hw.
      + intros w [<-|Hw] NW; [|apply E4; assumption]. apply E3. apply share_sets; [exact E|]. rewrite L. apply nth_error_Some. congruence. }
  intros active L. destruct (H (com_nodes S i) active (fun v I => I) L) as (a' & E1 & E2 & _ & E4). eauto.
Qed.
Lemma arrives_walk cf T v nodes sink i : (forall u, In u nodes <-> path (arcs g) u sink /\ from_source S i u) -> from_source S i v -> path (arcs g) v sink ->
  exists s, arrives g T v nodes cf sink s.
Proof.
  intros CN FS P. assert (H : forall u w, path (arcs g) u w -> u = v -> path (arcs g) w sink -> exists s, arrives g T v nodes cf w s).
  { intros u w PW. induction PW as [v0|u a w PW IH A]; intros EV PS; [exists T; subst; constructor|]. subst u.
    unfold arcs in A. apply in_map_iff in A. destruct A as [e [EE Ie]]. injection EE as <- <-. assert (AR : In (e_from g e, e_to g e) (arcs g)) by (unfold arcs; apply in_map_iff; exists e; auto).
    destruct IH as [s A]; [reflexivity|eapply path_front; eauto|]. exists (s + cf e s). apply arr_step; [exact A|exact Ie|]. apply CN. split; [exact PS|]. eapply from_path; [exact FS|]. eapply path_step; eauto. }
  apply (H v); [exact P|reflexivity|constructor].
Qed.
Lemma active_total b i v c j : here S r n b -> cinv S r n b -> b_route b = qn j * r -> length (b_active b) = length (s_coms S) ->
  nth_error (s_coms S) i = Some c -> from_source S i v -> path (arcs g) v (k_sink c) -> v <> k_sink c -> In v (node_ids g) ->
  exists b' l, get_active_edges S b i v = Ok (b', l) /\ length (b_active b') = length (s_coms S).
Proof.
  intros HE CI RT LA EC FS PV NV IV. unfold get_active_edges. destruct (dget (nth i (b_active b) []) v) as [l|]; [eauto|].
  unfold fetch. rewrite EC. cbn [bind]. destruct (costs_total b c j HE CI (nth_error_In _ _ EC) RT) as (b1 & costs & p & preds & G & DP & CF & US).
  unfold dfetch at 1. rewrite DP. cbn [bind]. rewrite G. cbn [bind]. destruct (get_costs_same _ _ _ _ _ G) as [SB AE].
  destruct (sink_important i c v b0 BI EC FS PV) as [IS IVN]. destruct (com_nodes_spec S r OK i c b0 BI EC) as [SK CN]. destruct (p_const p).
  - destruct (const_total preds _ costs US CF) as [const MC]. rewrite MC. cbn [bind].
    destruct (const_times S r OK preds _ costs const (first_nonneg preds _ US) CF MC) as [_ NC].
    destruct (reverse_dijkstra_spec g const (com_nodes S i) (k_sink c) C SK IS NC) as [dist [RD _]]. fold g. rewrite RD. cbn [bind].
    destruct (const_fold i c const dist EC (ex_intro _ v (conj FS PV)) NC RD (b_active b1) ltac:(congruence)) as (a' & E1 & E2 & E3). rewrite E1. cbn [bind].
    specialize (E3 v IVN NV). unfold known in E3. unfold dfetch. destruct (dget (nth i a' []) v) as [l|]; [|contradiction E3; reflexivity]. cbn [bind]. eexists _, _. split; [reflexivity|]. cbn [with_active b_active]. congruence.
  - destruct US as [U1 U2]. destruct (C67_costs (su_net S) preds _ (sound S r OK) U1 U2) as [costs' [cf [E1 [PT [FI _]]]]]. rewrite CF in E1. apply ok_inj in E1. subst costs'.
    destruct (dynamic_dijkstra_spec g (b_route b) v (k_sink c) (com_nodes S i) (map pl_eval costs) cf C IV FI) as [rr [DD GOOD]]. fold g. rewrite DD. cbn [bind].
    destruct (arrives_walk cf (b_route b) v (com_nodes S i) (k_sink c) i CN FS PV) as [s A].
    assert (LS : dget (dd_arrival rr) (k_sink c) <> None). { intro Q. destruct (dg_early _ _ _ _ _ _ _ GOOD (k_sink c) s A Q) as [ts [X _]]. congruence. }
    destruct (active_edges_spec g (b_route b) v (k_sink c) (com_nodes S i) cf C rr GOOD LS SK NV) as [l [GA _]]. rewrite GA. cbn [bind]. eexists _, _. split; [reflexivity|].
    cbn [with_active b_active]. unfold set_active. rewrite upd_length. congruence.
Qed.

(** ** One node *)
Definition fed_sink (cs : list call) : Prop := forall e i nf, In e (g_edges g) -> fed cs (e_id g e) nf -> rate nf i <> 0 ->
  exists c, nth_error (s_coms S) i = Some c /\ path (arcs g) (e_to g e) (k_sink c).
Record tflow (b : builder) : Prop := {
  tf_cs : exists cs, full (s_nw S) cs (b_flow b) /\ fed_reach S cs /\ fed_sink cs;
  tf_net : forall v, In v (node_ids g) -> net_ok_at S b v;
  tf_len : length (b_active b) = length (s_coms S) }.
Lemma supply_sink b v i : tflow b -> 0 <= f_phi (b_flow b) -> In v (node_ids g) -> supply S b v i <> 0 ->
  exists c, nth_error (s_coms S) i = Some c /\ from_source S i v /\ path (arcs g) v (k_sink c).
Proof.
  intros [[cs [F [FR FS]]] NT _] P0 Iv H.
  assert (FV : from_source S i v) by (apply (supply_reach S r OK b v i); auto; constructor; [exists cs; split; [apply (fl_ev _ _ _ F)|exact FR]|exact NT]).
  unfold supply in H. fold g in H. destruct (Qc_eq_dec (rate (net_now b v) i) 0) as [Z|NZ].
  - rewrite Z in H. destruct (sum_nonzero (fun e => rate (out_now S b e) i) (incoming g v)) as [e [I NN]]; [intro Q; apply H; rewrite Q; ring|].
    apply (in_iff g C) in I. destruct I as [I TO]. unfold out_now in NN. fold g in NN. destruct (got_item _ _ _ NN) as [it [It Q]]. rewrite Q in NN.
    destruct (ev_out _ _ _ (fl_ev _ _ _ F) (e_id g e) it It) as [E|[nf [FD [f [_ [RT _]]]]]]; [rewrite E in NN; contradiction NN; reflexivity|].
    assert (NF : rate nf i <> 0) by (intro Z2; apply NN; rewrite RT, Z2; ring). destruct (FS e i nf I FD NF) as [c [E P]]. exists c. rewrite <- TO at 2. auto.
  - rewrite (net_now_ok S b v i P0 (NT v Iv)) in NZ. unfold net_fn in NZ. destruct (nth_error (s_coms S) i) as [c|] eqn:E; [|rewrite new_fn_at in NZ; contradiction NZ; reflexivity].
    destruct (dget (k_sources c) v) as [f|] eqn:D; [|rewrite new_fn_at in NZ; contradiction NZ; reflexivity]. exists c. split; [reflexivity|]. split; [exact FV|].
    apply (SV c (nth_error_In _ _ E)) with (f := f). apply dget_In, D.
Qed.
Lemma put_total i d : forall act ni, (forall e, In e act -> dget ni (e_id g e) <> None) ->
  exists ni', foldM (fun (ni : list (nat * rates)) e => row <- dfetch ni (e_id (s_graph S) e) ;; Ok (dset ni (e_id (s_graph S) e) (dset row i d))) act ni = Ok ni' /\
    forall k, dget ni k <> None -> dget ni' k <> None.
Proof.
  induction act as [|e act IH]; intros ni H; cbn [foldM]; [eauto|]. fold g. unfold dfetch at 1. pose proof (H e (or_introl eq_refl)) as HE. destruct (dget ni (e_id g e)) as [row|] eqn:D; [|contradiction HE; reflexivity].
  cbn [bind]. destruct (IH (dset ni (e_id g e) (dset row i d))) as [ni' [E K]].
  - intros e' I. rewrite dget_dset. destruct (Nat.eqb (e_id g e) (e_id g e')); [discriminate|apply H; right; exact I].
  - exists ni'. fold g in E. split; [exact E|]. intros k HK. apply K. rewrite dget_dset. destruct (Nat.eqb (e_id g e) k); [discriminate|exact HK].
Qed.
Lemma assign_total T v outs net b ni i c j : st_ok S r n T (b, ni) -> T = qn j * r -> length (b_active b) = length (s_coms S) -> (forall e, In e (outgoing g v) -> dget ni (e_id g e) <> None) ->
  (~ node_inflow i outs net < eps -> nth_error (s_coms S) i = Some c /\ from_source S i v /\ path (arcs g) v (k_sink c) /\ v <> k_sink c) -> In v (node_ids g) ->
  exists b' ni', assign S v outs net (b, ni) i = Ok (b', ni') /\ length (b_active b') = length (s_coms S) /\ forall e, In e (outgoing g v) -> dget ni' (e_id g e) <> None.
Proof.
  intros (HE & CI & AO & RT & SE) ET LA ROWS H IV. cbn [fst snd] in *. unfold assign. destruct (qltbP (node_inflow i outs net) eps) as [L|L]; [eauto|].
  destruct (H L) as (EC & FS & PV & NV). destruct (active_total b i v c j HE CI ltac:(congruence) LA EC FS PV NV IV) as (b1 & l & G & L1). rewrite G. cbn [bind].
  destruct (get_active_ok S b i v b1 l C AO G) as [RO _]. pose proof (qn_pos _ (routes_len _ _ _ RO)) as QP. rewrite pydiv_ok by (intro Z; rewrite Z in QP; qlra). cbn [bind].
  destruct RO as [_ [_ R3]]. destruct (put_total i (node_inflow i outs net / qn (length l)) l ni) as [ni' [E K]]; [intros e I; apply ROWS, R3, I|].
  rewrite E. cbn [bind]. exists b1, ni'. split; [reflexivity|]. split; [exact L1|]. intros e I. apply K, ROWS, I.
Qed.
Lemma outflows_total b edges acc : NoDup edges -> (forall e, In e edges -> In e (g_edges g)) ->
  (forall e, In e edges -> (e_id g e < length (f_out (b_flow b)))%nat /\ exists x, frc_get (nth (e_id g e) (f_out (b_flow b)) frc_empty) (f_phi (b_flow b)) = Ok x) ->
  exists x, foldM (get_outflow S) edges (b, acc) = Ok x.
Proof.
  revert b acc. induction edges as [|e l IH]; intros b acc ND I H; cbn [foldM]; [eauto|]. destruct (H e (or_introl eq_refl)) as [L [[c' d] G]]. unfold get_outflow at 1. fold g.
  unfold getn. rewrite (nth_error_nth' _ frc_empty) by exact L. cbn [bind]. rewrite G. cbn [bind]. inversion ND as [|? ? N1 N2]; subst.
  apply IH; [exact N2|intros; apply I; right; assumption|]. intros e' I'. cbn [with_flow set_out b_flow f_out f_phi]. rewrite upd_length. destruct (H e' (or_intror I')) as [L' X].
  split; [exact L'|]. rewrite nth_upd_other; [exact X|]. intro Q. apply N1. rewrite (id_inj g C e e'); auto; [apply I; left; reflexivity|apply I; right; exact I'].
Qed.
Lemma split_total T b ni v j : st_ok S r n T (b, ni) -> T = qn j * r -> tflow b -> 0 <= f_phi (b_flow b) -> NoDup (map fst ni) -> In v (node_ids g) ->
  exists b' ni', split_node S (b, ni) v = Ok (b', ni') /\ st_ok S r n T (b', ni') /\ tflow b' /\ 0 <= f_phi (b_flow b') /\ NoDup (map fst ni').
Proof.
  intros SO ET TF P0 ND IV. pose proof (tf_cs b TF) as [cs [F [FR FSK]]].
  assert (X : exists st', split_node S (b, ni) v = Ok st' /\ length (b_active (fst st')) = length (s_coms S)).
  { unfold split_node. fold g. destruct (outflows_total b (incoming g v) [] (nd_in g v C)) as [[b1 outs] F1].
    - intros e I. apply (in_iff g C) in I. apply I.
    - intros e I. apply (in_iff g C) in I. destruct I as [I _]. pose proof (edge_lt S r OK e I) as L. fold g in L. split; [rewrite (proj1 (proj2 (gi_len _ _ _ (fl_g _ _ _ F)))); exact L|].
      destruct (out_got (s_nw S) cs (b_flow b) (e_id g e) F L) as [c' [d [E _]]]. exists (c', d). exact E.
    - rewrite F1. cbn [bind]. destruct (outflows_ok S b (incoming g v) b1 outs C (nd_in g v C)) as [RD OU]; [intros e I; apply (in_iff g C) in I; apply I|exact F1|].
      destruct (rd_rest _ _ _ _ RD) as [RA [RH [RN [RR [RNe [RCh RC0]]]]]]. destruct (tf_net b TF v IV) as [c [sn [TT [w [D [FI [HD _]]]]]]].
      unfold dfetch. rewrite RNe, D. cbn [bind]. rewrite (rd_phi _ _ _ _ RD). destruct (frc_get_ok c sn TT w (f_phi (b_flow b)) FI) as [_ K]. destruct (K HD) as [c' [q [E _]]]. rewrite E. cbn [bind].
      set (net := snd q) in *. set (ni1 := fold_left (fun d e => dset d (e_id g e) []) (outgoing g v) ni). set (b2 := with_net b1 (dset (b_net b) v c')).
      assert (SU : forall i, node_inflow i outs net = supply S b v i).
      { intro i. rewrite OU, node_inflow_eq. unfold supply, net_now, got. rewrite D, E. reflexivity. }
      destruct SO as (HE & CI & AO & RT & SE). cbn [fst snd] in *.
      destruct (foldM_total (assign S v outs net) (fun st => st_ok S r n T st /\ length (b_active (fst st)) = length (s_coms S) /\ forall e, In e (outgoing g v) -> dget (snd st) (e_id g e) <> None)
        (su_ord S (filter (fun i => negb (mem i (ids_by_sink (s_coms S) v))) (uniq (concat (map (map fst) outs) ++ map fst net)))) (b2, ni1)) as [st' [E' [_ [L' _]]]].
      + split; [|split; cbn [fst snd b2 with_net b_active]; [rewrite RA; apply (tf_len b TF)|]].
        * split; [|split; [|split; [|split]]]; cbn [fst snd b2 with_net b_flow b_active b_route].
          -- apply (here_same S r n b); [apply (rd_phi _ _ _ _ RD)|apply (rd_in _ _ _ _ RD)|apply (rd_q _ _ _ _ RD)|exact RR|exact HE].
          -- apply (cinv_same S r n b); auto.
          -- rewrite RA. exact AO.
          -- rewrite RR. exact RT.
          -- intros e i x IE H. apply fresh_sent in H. apply (SE e i x IE H).
        * intros e I. destruct (fresh_rows g (outgoing g v) ni) as [FRW _]. fold ni1 in FRW. rewrite FRW.
          assert (X : existsb (fun x => Nat.eqb (e_id g x) (e_id g e)) (outgoing g v) = true) by (apply existsb_exists; exists e; split; [exact I|apply Nat.eqb_refl]). rewrite X. discriminate.
      + intros i [b3 ni3] Ii [SO3 [L3 RW3]]. cbn [fst snd] in *.
        assert (NS : ~ sinks_at S v i).
        { apply (Permutation_in i (so_ord S r OK _)) in Ii. apply filter_In in Ii. destruct Ii as [_ Ii]. apply negb_true_iff, mem_false in Ii. rewrite ids_by_sink_iff in Ii. exact Ii. }
        assert (DEC : exists c, ~ node_inflow i outs net < eps -> nth_error (s_coms S) i = Some c /\ from_source S i v /\ path (arcs g) v (k_sink c) /\ v <> k_sink c).
        { destruct (qltbP (node_inflow i outs net) eps) as [Q|Q]; [exists (mkCom [] 0 0); contradiction|]. rewrite SU in Q.
          destruct (supply_sink b v i TF P0 IV) as [cc [A1 [A2 A3]]]; [intro Z; rewrite Z in Q; pose proof eps_pos; qlra|]. exists cc. intros _. split; [exact A1|]. split; [exact A2|]. split; [exact A3|].
          intro Q2. apply NS. exists cc. auto. }
        destruct DEC as [cc DEC]. destruct (assign_total T v outs net b3 ni3 i cc j SO3 ET L3 RW3 DEC IV) as (b4 & ni4 & A & L4 & RW4).
        exists (b4, ni4). split; [exact A|]. split; [|auto]. apply (assign_cinv S r OK n T v outs net (b3, ni3) i (b4, ni4) SO3 A).
      + exists st'. split; [exact E'|exact L']. }
  destruct X as [[b' ni'] [E L]]. cbn [fst] in L. exists b', ni'. split; [exact E|]. destruct SO as (HE & CI & AO & RT & SE).
  pose proof (split_cinv S r OK n T (b, ni) v (b', ni') (conj HE (conj CI (conj AO (conj RT SE)))) E) as SO'.
  destruct (split_node_ok S C (so_ord S r OK) b ni v b' ni' AO ND E) as [AF [_ [ND' _]]]. split; [exact SO'|]. split; [|split; [rewrite (af_phi _ _ _ _ AF); exact P0|exact ND']].
  constructor; [|intros w Iw; apply (net_after S b b' _ w AF), (tf_net b TF w Iw)|exact L]. exists cs. split; [apply (after_full S r OK cs b b' _ AF F)|auto].
Qed.
Lemma determine_total T b j : st_ok S r n T (b, []) -> T = qn j * r -> tflow b -> 0 <= f_phi (b_flow b) -> (forall v, In v (b_handle b) -> In v (node_ids g)) ->
  exists b' ni, determine_new_inflow S b = Ok (b', ni) /\ tflow b'.
Proof.
  intros SO ET TF P0 IH. unfold determine_new_inflow.
  destruct (foldM_total (split_node S) (fun st => st_ok S r n T st /\ tflow (fst st) /\ 0 <= f_phi (b_flow (fst st)) /\ NoDup (map fst (snd st))) (su_ord S (b_handle b)) (b, [])) as [[b' ni] [E [_ [TF' _]]]].
  - split; [exact SO|]. split; [exact TF|]. split; [exact P0|constructor].
  - intros v [b1 ni1] Iv (SO1 & TF1 & P1 & ND1). cbn [fst snd] in *. assert (IV : In v (node_ids g)) by (apply IH; apply (Permutation_in v (so_ord S r OK _) Iv)).
    destruct (split_total T b1 ni1 v j SO1 ET TF1 P1 ND1 IV) as (b2 & ni2 & E & A). exists (b2, ni2). split; [exact E|exact A].
  - exists b', ni. split; [exact E|exact TF'].
Qed.

(** ** One round *)
Lemma change_node i v t : change_at S i v t -> In v (node_ids g).
Proof. intros (c & f & E & D & _). apply (so_nodes S r OK c v f); [eapply nth_error_In; exact E|apply dget_In, D]. Qed.
Lemma plan_total b : fb_run false S n = Ok b -> rinv S r n b -> tflow b -> (forall v, In v (b_handle b) -> In v (node_ids g)) ->
  exists b3 ni, plan S b = Ok (b3, ni) /\ tflow b3.
Proof.
  intros RN [SC CI PE] TF HN. unfold plan.
  destruct (pop_due_ok (Datatypes.S (sq_len (b_changes b))) b (sc_qnd _ _ b SC)) as [b1 [E1 P]]; [lia|]. rewrite E1. cbn [bind].
  assert (B1 : b_flow b1 = b_flow b /\ b_next b1 = b_next b /\ b_route b1 = b_route b /\ b_active b1 = b_active b /\ b_costs b1 = b_costs b /\ b_net b1 = b_net b).
  { rewrite (po_eq _ _ P). cbn. repeat split. }
  destruct B1 as [X1 [X3 [X4 [X5 [X6 X7]]]]]. pose proof (sc_next _ _ b SC) as LN. pose proof (so_pos S r OK) as RP.
  assert (RE : exists b2, reroute S b1 = Ok b2 /\ b_flow b2 = b_flow b /\ cinv S r n b2 /\ act_ok S (b_active b2) /\ b_route b2 <= f_phi (b_flow b) /\ f_phi (b_flow b) < b_route b2 + r /\ (exists m, b_route b2 = qn m * r) /\
     b_net b2 = b_net b /\ length (b_active b2) = length (s_coms S) /\ forall v, In v (b_handle b2) -> In v (node_ids g)).
  { unfold reroute. rewrite (so_int S r OK), X1, X3. destruct (qlebP (b_next b) (f_phi (b_flow b))) as [Q|Q].
    - eexists. split; [reflexivity|]. cbn [b_flow b_next b_route b_active b_costs b_net b_handle]. split; [reflexivity|]. split; [|split; [apply act_empty|split; [exact Q|split; [qlra|split; [apply (sc_mult _ _ b SC)|]]]]].
      + constructor; cbn [b_costs b_active b_route]; [discriminate|]. intros i v l D. exfalso.
        assert (E : nth i (map (fun _ : commodity => ([] : list (nat * list nat))) (s_coms S)) [] = []).
        { clear. revert i. induction (s_coms S) as [|c cs IH]; intros [|i]; try reflexivity. apply IH. }
        rewrite E in D. discriminate.
      + split; [exact X7|]. split; [apply map_length|]. intros v I. exact I.
    - exists b1. split; [reflexivity|]. destruct PE as [P1 P2]; [intro EQ; rewrite EQ in Q; qlra|]. split; [exact X1|]. split; [apply (cinv_same S r n b); auto|]. split; [rewrite X5; apply (sc_act _ _ b SC)|].
      rewrite X4. split; [exact P2|]. split; [qlra|]. split; [|split; [exact X7|split; [rewrite X5; apply (tf_len b TF)|]]].
      + destruct (sc_mult _ _ b SC) as [m Hm]. destruct m as [|m].
        { exfalso. apply Q. rewrite Hm. pose proof (sc_phi _ _ b SC). unfold qn. change (Q2Qc (inject_Z (Z.of_nat 0))) with 0. replace (0 * r) with 0 by ring. exact H. }
        exists m. rewrite qn_S in Hm. rewrite P1 in Hm. replace (qn m * r) with ((qn m + 1) * r - r) by ring. rewrite <- Hm. ring.
      + intros v I. apply (po_h _ _ P) in I. destruct I as [I|[it [[k [K1 _]] <-]]]; [apply HN, I|]. destruct (sc_key _ _ b SC it k K1) as [_ CH]. eapply change_node, CH. }
  destruct RE as (b2 & E2 & Y1 & Y2 & Y3 & Y5 & Y6 & [m Y7] & Y8 & Y9 & Y10). rewrite E2. cbn [bind].
  assert (HE : here S r n b2). { exists b. rewrite Y1. repeat (split; [auto|]). exact Y6. }
  apply (determine_total (b_route b2) b2 m).
  - split; [exact HE|]. split; [exact Y2|]. split; [exact Y3|]. split; [reflexivity|]. intros e i x _ H. discriminate.
  - exact Y7.
  - destruct TF as [T1 T2 T3]. constructor; [rewrite Y1; exact T1| |exact Y9]. intros v Iv. destruct (T2 v Iv) as [c [sn [TT [w K]]]]. exists c, sn, TT, w. rewrite Y1, Y8. exact K.
  - rewrite Y1. apply (sc_phi _ _ b SC).
  - exact Y10.
Qed.
Lemma routed_path e i T j : routed S r n T e i -> T = qn j * r -> exists c, nth_error (s_coms S) i = Some c /\ path (arcs g) (e_to g e) (k_sink c).
Proof.
  intros (c & p & preds & EC & EP & AS & DY & CO) ET. exists c. split; [exact EC|]. pose proof (asked_usable c T preds j (nth_error_In _ _ EC) ET AS) as US.
  destruct (p_const p).
  - destruct (CO eq_refl (first_nonneg preds T US)) as (costs & _ & k & d & W & _). eapply walk_path; exact W.
  - destruct (DY eq_refl US) as (tr & _ & SF). fold g in SF. clear -SF. revert SF. generalize (e_from g e). intros v SF. induction SF as [e Ie LL TO|e e' Ie LL TO SF IH]; [rewrite TO; constructor|].
    rewrite TO. eapply path_front; [|exact IH]. unfold arcs. apply in_map_iff. exists e'. split; [reflexivity|]. destruct SF; assumption.
Qed.
Lemma step_total b : fb_run true S n = Ok b -> tflow b -> (forall v, In v (b_handle b) -> In v (node_ids g)) ->
  good (fun b' => tflow b' /\ forall v, In v (b_handle b') -> In v (node_ids g)) (fb_step true S b).
Proof.
  intros RT TF HN. pose proof (run_uninstr S n b RT) as RN. pose proof (run_rinv S r OK n b RN) as RI. pose proof (ri_sched _ _ _ _ RI) as SC.
  destruct (plan_total b RN RI TF HN) as (b3 & ni & EP & TF3). destruct (fb_step true S b) as [b'|x] eqn:ES.
  - cbn [good]. destruct (step_ok S r OK true b b' SC ES) as [b3' [ni' [maxt [ch ST]]]]. pose proof (st_plan _ _ _ _ _ _ _ _ _ ST) as EP'. rewrite EP in EP'. injection EP' as <- <-.
    pose proof (st_pl _ _ _ _ _ _ _ _ _ ST) as PL. destruct TF3 as [[cs [F3 [FR FK]]] NT3 L3].
    pose proof (extend_good (s_nw S) (so_net S r OK) cs (b_flow b3) ni maxt F3 (st_valid _ _ _ _ _ _ _ _ _ ST)) as GE. rewrite (st_ext _ _ _ _ _ _ _ _ _ ST) in GE. cbn [good fst] in GE. destruct GE as [F' _].
    destruct (st_same _ _ _ _ _ _ _ _ _ ST) as [Z1 [Z2 [Z3 [Z4 Z5]]]]. destruct (plan_rinv S r OK n b b3 ni RN RI EP) as (_ & SB & _ & _ & _ & [j RJ]).
    assert (SENT : forall e i nf, In e (g_edges g) -> In (e_id g e, nf) ni -> rate nf i <> 0 -> exists x, sent S ni e i = Some x).
    { intros e i nf IE J NZ. unfold sent. fold g. rewrite (In_dget _ _ _ (proj1 (pl_ids _ _ _ _ _ PL)) J). unfold rate in NZ. destruct (dget nf i) as [x|]; [eauto|contradiction NZ; reflexivity]. }
    destruct (sc_ev _ _ b SC) as [cs0 EV0]. destruct (st_spec _ _ _ _ _ _ _ _ _ ST cs0 EV0) as [S1 _].
    split; [constructor|].
    + exists (cs ++ [CExtend ni maxt]). split; [exact F'|]. split.
      * intros e i nf IE [ni' [m [I J]]] NZ. apply in_app_or in I. destruct I as [I|[Q|[]]]; [apply (FR e i nf IE); [exists ni', m; auto|exact NZ]|]. injection Q as <- <-.
        destruct (SENT e i nf IE J NZ) as [x SD]. apply (sent_reach S r OK b b3 ni e i x SC (run_reach S r OK SR false n b RN) PL IE SD).
      * intros e i nf IE [ni' [m [I J]]] NZ. apply in_app_or in I. destruct I as [I|[Q|[]]]; [apply (FK e i nf IE); [exists ni', m; auto|exact NZ]|]. injection Q as <- <-.
        destruct (SENT e i nf IE J NZ) as [x SD]. eapply routed_path; [eapply (round_routed S r OK SR n b b3 ni e i x RN EP IE SD)|exact RJ].
    + intros v Iv. destruct (NT3 v Iv) as [c [sn [TT [w [K1 [K2 [K3 K4]]]]]]]. exists c, sn, TT, w. rewrite Z3. split; [exact K1|]. split; [exact K2|]. split; [qlra|exact K4].
    + rewrite Z5. exact L3.
    + intros v I. apply (st_handle _ _ _ _ _ _ _ _ _ ST) in I. destruct I as [e [Ie [<- _]]]. apply (cs_ends g C e Ie).
  - (* no exception but Unclean *)
    rewrite step_plan, EP in ES. cbn [bind] in ES. pose proof (plan_ok S r OK b b3 ni SC EP) as PL. destruct (pl_q _ _ _ _ _ PL) as [QN QK].
    destruct (ext_min_le (Fin (b_next b3)) (sq_min_key (b_changes b3))) as [M1 [M2 M3]].
    assert (PN : f_phi (b_flow b) <= b_next b3).
    { pose proof (sc_next _ _ b SC). pose proof (so_pos S r OK). destruct (qeqbP (f_phi (b_flow b)) (b_next b)) as [Q|Q].
      - destruct (pl_re _ _ _ _ _ PL Q) as [Z _]. rewrite Z. qlra.
      - destruct (pl_no _ _ _ _ _ PL Q) as [Z _]. rewrite Z. exact H. }
    assert (EM : exists maxt, ext_min (Fin (b_next b3)) (sq_min_key (b_changes b3)) = Fin maxt /\ f_phi (b_flow b3) <= maxt).
    { rewrite (pl_phi _ _ _ _ _ PL). destruct (min_key_ex _ QN) as [[Q _]|[it Q]].
      - rewrite Q. exists (b_next b3). split; [reflexivity|exact PN].
      - destruct M3 as [-> | ->]; [eauto|]. apply QK in Q. destruct Q as [K NK]. destruct it as [[i0 v0] t0]. destruct (sc_key _ _ b SC _ _ K) as [E _]. rewrite E in *. cbn [ext_le] in NK. eexists. split; [reflexivity|]. cbn [snd] in *. qlra. }
    destruct EM as [maxt [EM PM]]. rewrite EM in ES.
    assert (VC : valid_call (s_nw S) (b_flow b3) (CExtend ni maxt)).
    { split; [apply (pl_ids _ _ _ _ _ PL)|]. split; [|exact PM]. intros e d I. split; [|apply (pl_snap _ _ _ _ _ PL e d I)].
      assert (IK : In e (map fst ni)) by (apply in_map_iff; exists (e, d); auto). apply (pl_ids _ _ _ _ _ PL) in IK. destruct IK as [v [y [_ [IO <-]]]].
      apply (out_iff g C) in IO. destruct IO as [IO _]. apply (edge_lt S r OK y IO). }
    destruct TF3 as [[cs [F3 _]] _ _].
    pose proof (extend_good (s_nw S) (so_net S r OK) cs (b_flow b3) ni maxt F3 VC) as GE.
    destruct (flow_extend true (s_nw S) (b_flow b3) ni maxt) as [[fl ch]|y] eqn:EX; cbn [bind] in ES; [|injection ES as <-; destruct y; cbn [good] in *; auto].
    exfalso. cbn [good fst] in GE. destruct GE as [F' _].
    assert (SP : extend_spec (s_nw S) (cs ++ [CExtend ni maxt]) (b_flow b3) fl maxt ch).
    { apply (extend_events (s_nw S) (so_net S r OK) true _ _ ni maxt); [|apply in_or_app; right; left; reflexivity|intros e d I; apply VC in I; apply I|exact PM|exact EX].
      eapply evinv_more; [|apply (fl_ev _ _ _ F3)]. intros; apply in_or_app; auto. }
    destruct SP as [S1 [_ [_ [S4 _]]]].
    destruct (mapM_total (fun e => r0 <- fetch (g_edges (s_graph S)) e ;; Ok (e_to (s_graph S) r0)) ch) as [heads EH]; [|rewrite EH in ES; discriminate].
    intros e Ie. assert (L : (e < N)%nat).
    { destruct (Nat.lt_ge_cases e N) as [L|L]; [exact L|exfalso]. destruct (S4 e) as [new [E1 [_ [_ E2]]]]. apply E2 in Ie.
      assert (OV : forall cs' st, full (s_nw S) cs' st -> out_chain st e = c_chain frc_empty).
      { intros cs' st F. unfold out_chain, outflow_of. rewrite nth_overflow; [reflexivity|]. rewrite (proj1 (proj2 (gi_len _ _ _ (fl_g _ _ _ F)))). exact L. }
      rewrite (OV _ _ F'), (OV _ _ F3) in E1. rewrite (OV _ _ F3) in Ie. assert (new = []) by (apply (f_equal (@length _)) in E1; rewrite app_length in E1; destruct new; [reflexivity|cbn [length] in E1; lia]). subst new.
      destruct Ie as [[]|[P Ie]]. pose proof (sc_phi _ _ b SC) as P0. rewrite <- (pl_phi _ _ _ _ _ PL) in P0. cbn in Ie. intuition qlra. }
    unfold N in L. rewrite (so_caps S r OK) in L. unfold fetch. destruct (nth_error (g_edges (s_graph S)) e) as [y|] eqn:Y; [cbn [bind]; eauto|]. apply nth_error_None in Y. fold g in Y. unfold g in Y. lia.
Qed.
End T.

(** ** The whole run *)
Section R.
Variables (S : setup) (r : Qc).
Hypothesis OK : setup_ok S r.
Hypothesis SR : sources_ok S.
Hypothesis SV : served S.
Lemma answers_mono n m : (n <= m)%nat -> answers S r m -> answers S r n.
Proof. intros L A k bm c j fl LK. apply A. lia. Qed.
Lemma tflow_init b : fb_init S = Ok b -> tflow S b /\ b_handle b = [].
Proof.
  intro H. pose proof (init_cons S r OK SR b H) as CO. destruct (co_full _ _ b CO) as [cs0 F0]. pose proof (co_sched _ _ b CO) as SC.
  assert (X : full (s_nw S) [] (b_flow b) /\ length (b_active b) = length (s_coms S) /\ b_handle b = []).
  { unfold fb_init in H. apply bind_ok in H. destruct H as [fl [E1 H]]. apply bind_ok in H. destruct H as [imp [E2 H]].
    apply bind_ok in H. destruct H as [net [E3 H]]. apply bind_ok in H. destruct H as [u [E4 H]]. injection H as <-. cbn [b_flow b_active b_handle].
    split; [apply init_full; [apply (so_net S r OK)|exact E1]|]. split; [apply map_length|reflexivity]. }
  destruct X as [X1 [X2 X3]]. split; [|exact X3]. constructor; [|intros v Iv; apply (net_init S SR b v H Iv)|exact X2].
  exists []. split; [exact X1|]. split; [intros e i nf _ [ni [m [[] _]]]|intros e i nf _ [ni [m [[] _]]]].
Qed.
Lemma run_total : forall n, answers S r n -> good (fun b => tflow S b /\ forall v, In v (b_handle b) -> In v (node_ids (s_graph S))) (fb_run true S n).
Proof.
  destruct (init_cases S r OK SR) as [[_ [b0 BI]]|[NS _]]; [|contradiction].
  induction n as [|n IH]; intro AN; cbn [fb_run].
  - rewrite BI. cbn [good]. destruct (tflow_init b0 BI) as [T0 H0]. split; [exact T0|]. rewrite H0. intros v [].
  - specialize (IH (answers_mono n (Datatypes.S n) ltac:(lia) AN)). destruct (fb_run true S n) as [b|x] eqn:R; cbn [bind]; [|exact IH]. cbn [good] in IH. destruct IH as [T1 H1].
    apply (step_total S r OK SR SV n AN b0 BI b R T1 H1).
Qed.
Lemma clean_mono n m : (m <= n)%nat -> clean_build S n -> clean_build S m.
Proof.
  intros L CL Q. apply CL. replace n with ((n - m) + m)%nat by lia. induction (n - m)%nat as [|k IH]; cbn [Nat.add fb_run]; [exact Q|]. rewrite IH. reflexivity.
Qed.
(** ** Predictors that always answer *)
Definition simple_pred (p : predictor) : Prop := (forall t fl, p_predict p t fl = constant_predict t fl) \/ (forall t fl, p_predict p t fl = zero_predict t fl).
Lemma simple_answers n : clean_build S n -> (forall c, In c (s_coms S) -> exists p, dget (su_preds S) (k_pred c) = Some p /\ simple_pred p) -> answers S r n.
Proof.
  intros CL SP m bm c j fl LM RM IC T T1 T2 FP FI FQ. destruct (SP c IC) as [p [DP SI]]. exists p.
  pose proof (clean_same S r OK SR m bm (clean_mono n m ltac:(lia) CL) RM) as RT. destruct (co_full _ _ bm (run_cons S r OK SR m bm RT)) as [cs F].
  pose proof (proj2 (proj2 (gi_len _ _ _ (fl_g _ _ _ F)))) as LQ. rewrite (so_caps S r OK) in LQ.
  assert (TP : 0 <= T) by (pose proof (so_pos S r OK); pose proof (qn_nonneg j); unfold T; qnra).
  assert (CP : forall i cap, nth_error (w_cap (su_net S)) i = Some cap -> 0 <= cap) by (intros i cap E; pose proof (sn_pos _ (sound S r OK) i cap E); qlra).
  destruct SI as [SI|SI].
  - assert (QE : forall k, (k < length (f_q (b_flow bm)))%nat -> pl_eval (queue_of (b_flow bm) k) T = Ok (pl_at (queue_of (b_flow bm) k) T) /\ 0 <= pl_at (queue_of (b_flow bm) k) T).
    { intros k L. assert (L' : (k < length (n_cap (s_nw S)))%nat) by (rewrite (so_caps S r OK), <- LQ; exact L). destruct (gi_e _ _ _ (fl_g _ _ _ F) k L') as [gh [B _]]. split; [exact (qs_eval _ _ T (b_q _ _ _ _ _ B))|apply (b_nn _ _ _ _ _ B T TP T1)]. }
    destruct (mapM_total (fun q => v <- pl_eval q T ;; pl_init [T] [v] 0 0 NInf PInf) (f_q fl)) as [preds M].
    { rewrite FQ. intros q Iq. destruct (In_nth_error _ _ Iq) as [k K]. assert (L : (k < length (f_q (b_flow bm)))%nat) by (apply nth_error_Some; congruence).
      destruct (QE k L) as [E _]. unfold queue_of in E. rewrite (nth_error_nth _ _ _ K) in E. rewrite E. cbn [bind]. rewrite one_init. eauto. }
    exists preds. split; [exact DP|]. split; [rewrite SI; exact M|]. destruct (mapM_spec _ _ _ M) as [LL NN]. rewrite FQ in LL, NN. split; [rewrite LL; exact LQ|].
    intros i f cap Ef Ec. assert (L : (i < length (f_q (b_flow bm)))%nat) by (rewrite <- LL; apply nth_error_Some; congruence).
    destruct (QE i L) as [E P]. destruct (NN i (queue_of (b_flow bm) i)) as [f' [N1 N2]]; [unfold queue_of; apply nth_error_nth'; exact L|]. rewrite Ef in N1. injection N1 as <-.
    rewrite E in N2. cbn [bind] in N2. rewrite one_init in N2. injection N2 as <-. eexists. apply good_const; [exact P|eapply CP; exact Ec].
  - exists (map (fun _ => mkPL [T] [0] 0 0 NInf PInf) (f_q fl)). split; [exact DP|]. split; [rewrite SI; unfold zero_predict; rewrite one_init; reflexivity|]. split; [rewrite map_length, FQ; exact LQ|].
    intros i f cap Ef Ec. apply nth_error_In, in_map_iff in Ef. destruct Ef as [y [<- _]]. exists 0. apply good_const; [qlra|eapply CP; exact Ec].
Qed.
End R.
