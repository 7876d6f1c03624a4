(** * C112: the training flows of a scenario *)
From Coq Require Import Permutation.
From Verif Require Import Base Spec Arrays ArraysProofs PL PLProofs RC RCProofs RCOps FRC FRCProofs FRCExact PQ PQProofs PQSpec DynFlow DQProofs DynRun DynEvents DynEdge
  Graph GraphSpec GraphProofs Dijkstra DijkstraProofs FlowBuilder FlowBuilderProofs BuilderRun BuilderFlow RoutesSpec TotalSpec Predictors Eval Eval2 Import PropGraph PropEval2 PropEval7 PropEval8 PropTotal PropImport Scenario.

(** ** Vocabulary *)
(** A road map (tail, head, travel time, capacity) and a table of demands
    (origin, destination, mean rate): positive travel times and capacities,
    every destination can be reached from its origin. *)
Definition well_posed (edges : list (nat * nat * Qc * Qc)) (ods : list (nat * nat * Qc)) : Prop :=
  edges <> [] /\
  (forall a b tau cap, In (a, b, tau, cap) edges -> 0 < tau /\ 0 < cap) /\
  forall o d x, In (o, d, x) ods ->
    (exists a b tau cap, In (a, b, tau, cap) edges /\ (o = a \/ o = b)) /\ path (map (fun e => fst (fst e)) edges) o d.
(** The total rate drawn for the entries from [v] to [d]; the entry number [k]
    of the table has the mean [x] and gets the draw number [k]. *)
Fixpoint drawn_rate (gauss : nat -> Qc -> Qc -> Qc) (sigma : Qc) (k : nat) (ods : list (nat * nat * Qc)) (d v : nat) : Qc :=
  match ods with
  | [] => 0
  | (o, d', x) :: r => (if (Nat.eqb d' d && Nat.eqb o v)%bool then qmax 0 (gauss k x sigma) else 0) + drawn_rate gauss sigma (Datatypes.S k) r d v
  end.

(** ** Constant rates on a time window *)
Definition win (x : Qc) (ih : ext) : RC := match ih with Fin h => mkRC [0; h] [x; 0] (Fin 0) PInf | _ => mkRC [0] [x] (Fin 0) PInf end.
Lemma eps_pos : 0 < eps.
Proof. apply qltb_true. vm_compute. reflexivity. Qed.
Section Win.
Variable ih : ext.
Hypothesis IH : ext_lt (Fin eps) ih.
Lemma ih_pos : ext_lt (Fin 0) ih.
Proof.
  pose proof eps_pos as E. destruct ih as [|h|]; [exact IH| |exact IH]. assert (A : eps < h) by (apply Qcnot_le_lt; exact IH). intro Q. cbn [ext_le] in Q. qlra.
Qed.
Lemma ih_not_ninf : ih <> NInf.
Proof. intro E. subst. apply IH. exact Logic.I. Qed.
Lemma win_init x : demand_until x ih = Ok (win x ih).
Proof.
  pose proof ih_pos as P. unfold demand_until, win. destruct ih as [|h|]; [destruct (P Logic.I)| |].
  - assert (A : 0 < h) by (apply Qcnot_le_lt; exact P). apply window_init. qlra.
  - unfold rc_init. reflexivity.
Qed.
Lemma win_times x t : In t (rc_times (win x ih)) -> t = 0 \/ ih = Fin t.
Proof. unfold win. destruct ih as [|h|]; cbn [rc_times]; [intros [<-|[]]|intros [<-|[<-|[]]]|intros [<-|[]]]; auto. Qed.
Lemma win_zero x : In 0 (rc_times (win x ih)).
Proof. unfold win. destruct ih; left; reflexivity. Qed.
Lemma win_rvalid x : rvalid (win x ih).
Proof.
  pose proof ih_pos as P. unfold win. destruct ih as [|h|]; [destruct (P Logic.I)| |].
  - assert (A : 0 < h) by (apply Qcnot_le_lt; exact P). split; cbn [rc_times rc_values]; [reflexivity|discriminate| |]. + repeat constructor; exact A. + intros t [<-|[<-|[]]]; split; cbn; auto; qlra.
  - split; cbn [rc_times rc_values]; [reflexivity|discriminate| |]. + repeat constructor. + intros t [<-|[]]; split; cbn; auto; qlra.
Qed.
Lemma win_dom x : rc_lo (win x ih) = Fin 0 /\ rc_hi (win x ih) = PInf.
Proof. unfold win. destruct ih; split; reflexivity. Qed.
Lemma win_eval x t : 0 <= t -> rc_eval (win x ih) t = Ok (if ext_ltb (Fin t) ih then x else 0).
Proof.
  intro T. pose proof ih_pos as P. rewrite (reval_at _ (win_rvalid x) t) by (destruct (win_dom x) as [LO HI]; unfold rin_dom; rewrite LO, HI; split; [exact T|exact Logic.I]). unfold rc_at, win. destruct ih as [|h|]; [destruct (P Logic.I)| |].
  - cbn [rc_times rc_values hd combine step]. destruct (qlebP 0 t) as [_|Z]; [|contradiction]. unfold ext_ltb, ext_leb. destruct (qlebP h t); reflexivity.
  - cbn [rc_times rc_values hd combine step]. destruct (qlebP 0 t) as [_|Z]; [reflexivity|contradiction].
Qed.
Lemma win_values x : 0 <= x -> forall y, In y (rc_values (win x ih)) -> 0 <= y.
Proof. intros X y. unfold win. destruct ih; cbn [rc_values]; [intros [<-|[]]|intros [<-|[<-|[]]]|intros [<-|[]]]; auto; qlra. Qed.
Lemma win_nodup x : NoDup (rc_times (win x ih)).
Proof.
  pose proof ih_pos as P. unfold win. destruct ih as [|h|]; [destruct (P Logic.I)| |]; cbn [rc_times].
  - constructor; [|repeat constructor; intros []]. intros [E|[]]. subst h. apply P. cbn. qlra.
  - repeat constructor. intros [].
Qed.
Lemma win_plus x y : rc_plus (win x ih) (win y ih) = Ok (win (x + y) ih).
Proof.
  pose proof ih_pos as P. pose proof eps_pos as E. assert (B1 : qltb 0 0 = false) by reflexivity. assert (B2 : qleb 0 0 = true) by reflexivity.
  assert (B3 : qltb 0 (0 - eps) = false) by (apply qltb_false; qlra). unfold win. destruct ih as [|h|]; [destruct (P Logic.I)| |].
  - assert (A : eps < h) by (apply Qcnot_le_lt; exact IH). unfold rc_plus. cbn [rc_lo rc_hi rc_times rc_values].
    assert (C1 : qltb 0 h = true) by (apply qltb_true; qlra). assert (C2 : qltb h h = false) by (apply qltb_false; qlra). assert (C3 : qltb 0 (h - eps) = true) by (apply qltb_true; qlra).
    assert (C4 : qltb h (h - eps) = false) by (apply qltb_false; qlra). assert (C5 : qleb h 0 = false) by (apply qleb_false; qlra). assert (C6 : qleb h h = true) by (apply qleb_true; qlra).
    assert (M : merge_sorted [0; h] [0; h] = [0; h]).
    { unfold merge_sorted. cbn [merge_loop]. rewrite B1. cbn [push_merged]. rewrite C1. rewrite B3, B1, andb_false_r. rewrite C2. cbn [fold_left push_merged]. rewrite C3. cbn [push_merged]. rewrite C4, C2, andb_false_r. reflexivity. }
    rewrite M. assert (Q : (ext_eqb (Fin 0) (Fin 0) && ext_eqb PInf PInf)%bool = true) by reflexivity. rewrite Q. cbn [assertb bind].
    assert (AD : forall z, adv_fn (mkRC [0; h] [z; 0] (Fin 0) PInf) 0 0 = Ok 0%Z /\ adv_fn (mkRC [0; h] [z; 0] (Fin 0) PInf) 0 h = Ok 1%Z).
    { intro z. unfold adv_fn. cbn [rc_times length]. change (adv 3 [0; h] 0 0) with (if qleb h 0 then adv 2 [0; h] 1 0 else Ok 0%Z). change (adv 3 [0; h] 0 h) with (if qleb h h then adv 2 [0; h] 1 h else Ok 0%Z). rewrite C5, C6. split; reflexivity. }
    cbn [add_loop]. rewrite (proj1 (AD x)), (proj1 (AD y)). cbn [bind rc_values]. change (pyget [x; 0] 0) with (Ok x). change (pyget [y; 0] 0) with (Ok y). cbn [bind].
    rewrite (proj2 (AD x)), (proj2 (AD y)). cbn [bind rc_values]. change (pyget [x; 0] 1) with (Ok 0). change (pyget [y; 0] 1) with (Ok 0). cbn [bind].
    replace (0 + 0) with 0 by ring. apply window_init. qlra.
  - unfold rc_plus. cbn [rc_lo rc_hi rc_times rc_values]. assert (M : merge_sorted [0] [0] = [0]) by (unfold merge_sorted; cbn [merge_loop]; rewrite B1; cbn [fold_left push_merged]; rewrite B3, B1, andb_false_r; reflexivity).
    rewrite M. reflexivity.
Qed.
End Win.
Lemma qmax_nonneg a : 0 <= qmax 0 a.
Proof. destruct (qmax_spec 0 a) as [[Y ->]|[Y ->]]; qlra. Qed.

(** ** The stages of the pipeline *)
Section Pipeline.
Variables (ih : ext) (constant : nat).
Hypothesis IH : ext_lt (Fin eps) ih.
Definition com_of (e : nat * nat * Qc) : commodity := mkCom [(fst (fst e), win (snd e) ih)] (snd (fst e)) constant.
Lemma add_ods_win : forall ods nw, (forall e, In e ods -> In (fst (fst e)) (node_ids (w_graph nw)) /\ In (snd (fst e)) (node_ids (w_graph nw))) ->
  foldM (fun nw p => add_od nw constant ih p) ods nw = Ok (mkNw (w_graph nw) (w_cap nw) (w_tau nw) (w_com nw ++ map com_of ods)).
Proof.
  induction ods as [|[[o d] x] ods IHo]; intros nw N; cbn [foldM]; [rewrite app_nil_r; destruct nw; reflexivity|]. destruct (N _ (or_introl eq_refl)) as [N1 N2]. cbn [fst snd] in N1, N2.
  unfold add_od at 1. rewrite (win_init ih IH). cbn [bind]. unfold nw_add_commodity. cbn [forallb fst]. rewrite (proj2 (dhas_In _ _) N1), (proj2 (dhas_In _ _) N2). cbn [andb assertb bind].
  rewrite IHo by (cbn [w_graph]; intros e I; apply N; right; exact I). cbn [w_graph w_cap w_tau w_com map]. rewrite <- app_assoc. reflexivity.
Qed.
(** The commodities after drawing, from the draw number [k] on. *)
Fixpoint drawn (gauss : nat -> Qc -> Qc -> Qc) (s : Qc) (k : nat) (ods : list (nat * nat * Qc)) : list (nat * nat * Qc) :=
  match ods with [] => [] | e :: r => (fst e, qmax 0 (gauss k (snd e) s)) :: drawn gauss s (Datatypes.S k) r end.
Lemma gen_win gauss s : forall ods k, gen_coms gauss s ih k (map com_of ods) = Ok (map com_of (drawn gauss s k ods)).
Proof.
  induction ods as [|[[o d] x] ods IHo]; intro k; cbn [map gen_coms drawn]; [reflexivity|]. unfold com_of at 1. cbn [k_sources gen_sources k_sink k_pred fst snd]. unfold gen_source. cbn [fst snd].
  replace (fetch (rc_values (win x ih)) 0) with (Ok x) by (unfold win; destruct ih; reflexivity). cbn [bind]. rewrite (win_init ih IH). cbn [bind length]. change (length (k_sources (com_of (o, d, x)))) with 1%nat. replace (k + 1)%nat with (Datatypes.S k) by lia. rewrite IHo. reflexivity.
Qed.
Lemma drawn_in gauss s : forall ods k e, In e (drawn gauss s k ods) -> 0 <= snd e /\ exists x, In (fst e, x) ods.
Proof.
  induction ods as [|[p x] ods IHo]; intros k e; cbn [drawn]; [intros []|]. intros [<-|I]; cbn [fst snd].
  - split; [apply qmax_nonneg|]. exists x. left. reflexivity.
  - destruct (IHo _ _ I) as [A [y B]]. split; [exact A|]. exists y. right. exact B.
Qed.
(** The total rate of the entries from [v] to [d]. *)
Definition rate_sum (l : list (nat * nat * Qc)) (d v : nat) : Qc := sumq (fun e => if (Nat.eqb (snd (fst e)) d && Nat.eqb (fst (fst e)) v)%bool then snd e else 0) l.
Lemma com_demand d v t : 0 <= t -> forall l, demand (map com_of l) constant d v t = if ext_ltb (Fin t) ih then rate_sum l d v else 0.
Proof.
  intro T. unfold demand, rate_sum. induction l as [|[[o d'] x] l IHl]; [cbn; destruct (ext_ltb (Fin t) ih); reflexivity|]. cbn [map fold_right]. rewrite sumq_cons, IHl. cbn [fst snd].
  unfold com_of at 1 2 3. cbn [k_pred k_sink k_sources fst snd]. rewrite Nat.eqb_refl. cbn [andb]. unfold source_rate, com_of. cbn [k_sources dget fst snd].
  destruct (Nat.eqb d' d); cbn [andb]; [|destruct (ext_ltb (Fin t) ih); ring]. destruct (Nat.eqb o v); [|destruct (ext_ltb (Fin t) ih); ring]. rewrite (win_eval ih IH _ t T). destruct (ext_ltb (Fin t) ih); ring.
Qed.
Lemma drawn_sum gauss s d v : forall ods k, rate_sum (drawn gauss s k ods) d v = drawn_rate gauss s k ods d v.
Proof. unfold rate_sum. induction ods as [|[[o d'] x] ods IHo]; intro k; [reflexivity|]. cbn [drawn drawn_rate]. rewrite sumq_cons, IHo. reflexivity. Qed.

(** What holds of the combined commodities. *)
Section Combined.
Variables (cs : list commodity) (R : nat -> nat -> Prop).
Hypothesis CS : forall c, In c cs -> k_pred c = constant /\ forall v f, In (v, f) (k_sources c) -> (exists x, 0 <= x /\ f = win x ih) /\ R (k_sink c) v.
Definition dict_win (sink : nat) (d : list (nat * RC)) : Prop := NoDup (map fst d) /\ forall v f, In (v, f) d -> (exists x, 0 <= x /\ f = win x ih) /\ R sink v.
Lemma add_source_win sink acc v f acc' : dict_win sink acc -> (exists x, 0 <= x /\ f = win x ih) -> R sink v -> add_source acc (v, f) = Ok acc' -> dict_win sink acc'.
Proof.
  intros [N D] [x [X ->]] RV E. unfold add_source in E. cbn [fst snd] in E.
  assert (SET : forall g, (exists y, 0 <= y /\ g = win y ih) -> dict_win sink (dset acc v g)).
  { intros g G. split; [apply dset_nd, N|]. intros w h I. pose proof (In_dget _ w h (dset_nd _ v g N) I) as J. rewrite dget_dset in J.
    destruct (Nat.eqb_spec v w) as [<-|]; [injection J as <-; auto|apply D, dget_In, J]. }
  destruct (dget acc v) as [g|] eqn:G; [|apply ok_inj in E; subst acc'; apply SET; eauto].
  destruct (D v g (dget_In _ _ _ G)) as [[y [Y ->]] _]. rewrite (win_plus ih IH) in E. cbn [bind] in E. apply ok_inj in E. subst acc'. apply SET. exists (y + x). split; [qlra|reflexivity].
Qed.
Lemma add_sources_win sink : forall l acc acc', dict_win sink acc -> (forall v f, In (v, f) l -> (exists x, 0 <= x /\ f = win x ih) /\ R sink v) -> foldM add_source l acc = Ok acc' -> dict_win sink acc'.
Proof.
  induction l as [|[v f] l IHl]; intros acc acc' D L E; cbn [foldM] in E; [apply ok_inj in E; subst; exact D|]. apply bind_ok in E. destruct E as [a1 [E1 E]].
  destruct (L v f (or_introl eq_refl)) as [A B]. apply (IHl a1 acc'); [apply (add_source_win sink acc v f a1 D A B E1)|intros w g I; apply L; right; exact I|exact E].
Qed.
Lemma group_win sink : forall group acc d, (forall i c, In i group -> nth_error cs i = Some c -> k_sink c = sink) -> dict_win sink acc ->
  foldM (fun acc i => c <- fetch cs i ;; foldM add_source (k_sources c) acc) group acc = Ok d -> dict_win sink d.
Proof.
  induction group as [|i group IHg]; intros acc d K D E; cbn [foldM] in E; [apply ok_inj in E; subst; exact D|]. apply bind_ok in E. destruct E as [a1 [E1 E]]. apply bind_ok in E1. destruct E1 as [c [F E1]].
  unfold fetch in F. destruct (nth_error cs i) as [c'|] eqn:NC; [|discriminate F]. apply ok_inj in F. subst c'.
  apply (IHg a1 d); [intros j c' J; apply K; right; exact J| |exact E]. apply (add_sources_win sink (k_sources c) acc a1 D); [|exact E1].
  intros v f I. rewrite <- (K i c (or_introl eq_refl) NC). apply (CS c (nth_error_In _ _ NC)), I.
Qed.
Lemma combined_win nw ord nw' : w_com nw = cs -> (forall l, Permutation (ord l) l) -> combine_commodities nw [] ord = Ok nw' ->
  forall c, In c (w_com nw') -> k_pred c = constant /\ dict_win (k_sink c) (k_sources c) /\ exists c0, In c0 cs /\ k_sink c0 = k_sink c.
Proof.
  intros W ORD E c I. unfold combine_commodities in E. rewrite W in E. apply bind_ok in E. destruct E as [mg [E1 E]]. apply bind_ok in E. destruct E as [kp [E2 E]]. apply ok_inj in E. subst nw'. cbn [w_com] in I.
  assert (KP : kp = []). { assert (O : ord [] = []) by (apply Permutation_nil; symmetry; apply ORD). rewrite O in E2. apply ok_inj in E2. congruence. } subst kp. rewrite app_nil_r in I.
  destruct (mapM_In _ _ _ c E1 I) as [[[p d] l] [IG E]]. cbn [fst snd] in E. apply bind_ok in E. destruct E as [src [E3 E]]. apply ok_inj in E. subst c. cbn [k_pred k_sink k_sources].
  destruct (groups_ginv [] cs) as [G1 G2 G3]. destruct (G2 (p, d) l IG) as [ND MB].
  assert (MEM : forall i, In i l -> exists c, nth_error cs i = Some c /\ k_pred c = p /\ k_sink c = d).
  { intros i J. apply MB in J. destruct J as (c & J & _ & K). apply enum_nth in J. exists c. split; [exact J|]. unfold com_key in K. injection K as -> ->. auto. }
  assert (NE : exists i, In i l).
  { destruct l as [|i l]; [exfalso|exists i; left; reflexivity]. clear - IG. unfold com_groups in IG.
    assert (Z : forall xs gs, (forall k, ~ In (k, []) gs) -> forall k, ~ In (k, []) (fold_left (fun gs (q : nat * commodity) => if mem (fst q) [] then gs else group_add gs (k_pred (snd q), k_sink (snd q)) (fst q)) xs gs)).
    { induction xs as [|q xs IHx]; intros gs H; cbn [fold_left]; [exact H|]. apply IHx. cbn [mem existsb]. intro k. generalize (k_pred (snd q), k_sink (snd q)). intro k0. revert H. induction gs as [|[k1 l1] gs IHg]; intros H; cbn [group_add].
      - intros [Q|[]]. discriminate Q.
      - destruct (key_eqb k1 k0); intros [Q|Q].
        + injection Q as -> Q. unfold set_add in Q. destruct (mem (fst q) l1) eqn:M; [|discriminate Q]. subst l1. apply (H k). left. reflexivity.
        + apply (H k). right. exact Q.
        + apply (H k). left. exact Q.
        + revert Q. apply IHg. intros k2 Q2. apply (H k2). right. exact Q2. }
    apply (Z (enum cs) [] ltac:(intros k []) (p, d) IG). }
  destruct NE as [i0 I0]. destruct (MEM i0 I0) as (c0 & N0 & P0 & S0). split; [rewrite <- P0; apply (CS c0 (nth_error_In _ _ N0))|]. split; [|exists c0; split; [apply (nth_error_In _ _ N0)|exact S0]].
  unfold group_sources in E3. refine (group_win d (ord l) [] src _ _ E3); [|split; [constructor|intros v f []]].
  intros i c J NC. eapply Permutation_in in J; [|apply ORD]. destruct (MEM i J) as (c' & NC' & _ & S'). rewrite NC in NC'. injection NC' as <-. exact S'.
Qed.
End Combined.
End Pipeline.

(** What a training run works with. *)
Definition sigma_of (caps : list Qc) (sigma : option Qc) (s : Qc) : Prop :=
  match sigma with Some x => s = x | None => In (s * qz 2) caps /\ forall k, In k caps -> s * qz 2 <= k end.

Section Stages.
Variables (nw : network) (edges : list (nat * nat * Qc * Qc)) (ods : list (nat * nat * Qc)) (constant : nat) (ih : ext).
Hypothesis HE : has_edges nw edges.
Hypothesis WP : well_posed edges ods.
Hypothesis IH : ext_lt (Fin eps) ih.
Notation A := (map (fun e : nat * nat * Qc * Qc => fst (fst e)) edges).
Lemma od_ends e : In e ods -> (exists a b, In (a, b) A /\ (fst (fst e) = a \/ fst (fst e) = b)) /\ (exists a b, In (a, b) A /\ (snd (fst e) = a \/ snd (fst e) = b)).
Proof.
  intro I. destruct e as [[o d] x]. destruct WP as (_ & _ & W). destruct (W o d x I) as [(a & b & tau & cap & J & E) P]. cbn [fst snd].
  assert (X : exists a b, In (a, b) A /\ (o = a \/ o = b)). { exists a, b. split; [|exact E]. apply in_map_iff. exists (a, b, tau, cap). auto. }
  split; [exact X|]. destruct P as [v|u v w P AR]; [exact X|]. exists v, w. auto.
Qed.
Definition saved_net : network := mkNw (w_graph nw) (w_cap nw) (w_tau nw) (map (com_of ih constant) ods).
Lemma stage_add : add_od_pairs nw ods constant ih = Ok saved_net.
Proof.
  destruct HE as (C & R & AR & _ & _ & CE). unfold add_od_pairs. rewrite (add_ods_win ih constant IH); [unfold saved_net; rewrite CE; reflexivity|]. intros e I. destruct (od_ends e I) as [(a & b & J & E) (a' & b' & J' & E')].
  rewrite <- AR in J, J'. destruct (arcs_ends _ C _ _ J). destruct (arcs_ends _ C _ _ J'). split; [destruct E; subst; auto|destruct E'; subst; auto]; congruence.
Qed.
Lemma stage_load : exists n2, nw_setstate (nw_getstate saved_net) = Ok n2 /\ consistent (w_graph n2) /\ arcs (w_graph n2) = A /\ w_cap n2 = w_cap nw /\ w_tau n2 = w_tau nw /\ w_com n2 = map (com_of ih constant) ods /\
  g_pos (w_graph n2) = g_pos (w_graph nw) /\ (forall v, In v (node_ids (w_graph n2)) -> exists a b, In (a, b) A /\ (v = a \/ v = b)) /\
  forall e, In e ods -> In (fst (fst e)) (node_ids (w_graph n2)) /\ In (snd (fst e)) (node_ids (w_graph n2)).
Proof.
  destruct HE as (C & R & AR & _ & _ & CE).
  assert (DEG : forall v a b, In (a, b) A -> v = a \/ v = b -> In v (node_ids (w_graph nw)) /\ (outgoing (w_graph nw) v <> [] \/ incoming (w_graph nw) v <> [])).
  { intros v a b I V. rewrite <- AR in I. destruct (arcs_ends _ C _ _ I) as [N1 N2]. destruct V as [->| ->]; split; auto.
    - left. apply (out_arcs _ C) in I. intro Z. rewrite Z in I. destruct I.
    - right. apply (in_arcs _ C) in I. intro Z. rewrite Z in I. destruct I. }
  destruct (C47_network_roundtrip saved_net C R) as (n2 & E & G & CP & TU & CM).
  { unfold saved_net. cbn [w_com w_graph]. intros c v I V. apply in_map_iff in I. destruct I as [e [<- I]]. destruct (od_ends e I) as [(a & b & J & X) (a' & b' & J' & X')].
    cbn [com_of k_sink k_sources map fst In] in V. destruct V as [->|[<-|[]]]; [apply (DEG _ a' b' J' X')|apply (DEG _ a b J X)]. }
  destruct (C47_graph_roundtrip _ C R) as (C2 & _ & A2 & P2 & _ & N2). exists n2. split; [exact E|]. rewrite G. unfold saved_net. cbn [w_graph]. split; [exact C2|]. split; [rewrite A2; exact AR|]. split; [exact CP|]. split; [exact TU|]. split; [exact CM|]. split; [exact P2|]. split.
  { intros v I. apply N2 in I. destruct I as [_ I]. rewrite <- AR. destruct I as [I|I].
    - destruct (outgoing (w_graph nw) v) as [|r l] eqn:O; [destruct I; reflexivity|]. exists v, (e_to (w_graph nw) r). split; [|auto]. apply (out_arcs _ C). rewrite O. left. reflexivity.
    - destruct (incoming (w_graph nw) v) as [|r l] eqn:O; [destruct I; reflexivity|]. exists (e_from (w_graph nw) r), v. split; [|auto]. apply (in_arcs _ C). rewrite O. left. reflexivity. }
  intros e I. destruct (od_ends e I) as [(a & b & J & X) (a' & b' & J' & X')]. split; apply N2; [apply (DEG _ a b J X)|apply (DEG _ a' b' J' X')].
Qed.
Lemma caps_ne : w_cap nw <> [].
Proof. destruct HE as (_ & _ & _ & _ & -> & _). destruct WP as [NE _]. destruct edges; [destruct NE; reflexivity|discriminate]. Qed.
Lemma stage_draw n2 gauss sigma : w_cap n2 = w_cap nw -> w_com n2 = map (com_of ih constant) ods ->
  exists s, sigma_of (w_cap nw) sigma s /\ generate_network_demands n2 gauss ih sigma = Ok (mkNw (w_graph n2) (w_cap n2) (w_tau n2) (map (com_of ih constant) (drawn gauss s 0 ods))).
Proof.
  intros CP CM. unfold generate_network_demands, sigma_of. rewrite CM, CP. pose proof caps_ne as NC.
  assert (S : exists s, match sigma with Some s => Ok s | None => m <- list_minq (w_cap nw) ;; pydiv m (qz 2) end = Ok s /\ match sigma with Some x => s = x | None => In (s * qz 2) (w_cap nw) /\ forall k, In k (w_cap nw) -> s * qz 2 <= k end).
  { destruct sigma as [x|]; [exists x; auto|]. destruct (w_cap nw) as [|k0 ks]; [destruct NC; reflexivity|]. cbn [list_minq bind]. rewrite pydiv_ok by discriminate. eexists. split; [reflexivity|].
    destruct (fold_qmin ks k0) as [M1 M2]. replace (fold_left qmin ks k0 / qz 2 * qz 2) with (fold_left qmin ks k0) by (field; discriminate). auto. }
  destruct S as [s [-> HS]]. cbn [bind]. rewrite (gen_win ih constant IH). cbn [bind]. exists s. auto.
Qed.
Lemma stage_combine n3 l ord : (forall l, Permutation (ord l) l) -> w_com n3 = map (com_of ih constant) l -> (forall e, In e l -> 0 <= snd e /\ exists x, In (fst e, x) ods) ->
  exists n4, combine_commodities n3 [] ord = Ok n4 /\ w_graph n4 = w_graph n3 /\ w_cap n4 = w_cap n3 /\ w_tau n4 = w_tau n3 /\
    (forall d v t, 0 <= t -> demand (w_com n4) constant d v t = if ext_ltb (Fin t) ih then rate_sum l d v else 0) /\
    NoDup (map k_sink (w_com n4)) /\
    forall c, In c (w_com n4) -> k_pred c = constant /\ (exists o x, In (o, k_sink c, x) ods) /\ NoDup (map fst (k_sources c)) /\
      forall v f, In (v, f) (k_sources c) -> (exists x, 0 <= x /\ f = win x ih) /\ exists x, In (v, k_sink c, x) ods.
Proof.
  intros ORD CM DR.
  assert (CS : forall c, In c (map (com_of ih constant) l) -> k_pred c = constant /\ forall v f, In (v, f) (k_sources c) -> (exists x, 0 <= x /\ f = win x ih) /\ exists x, In (v, k_sink c, x) ods).
  { intros c I. apply in_map_iff in I. destruct I as [e [<- I]]. cbn [com_of k_pred k_sources k_sink]. split; [reflexivity|]. intros v f [Q|[]]. injection Q as <- <-. destruct (DR e I) as [N [x X]].
    split; [exists (snd e); auto|]. exists x. destruct e as [[o d] y]. exact X. }
  destruct (C50_combine n3 [] ord (Fin 0) PInf) as (n4 & mg & kp & E & G & CP & TU & CW & ND & OKM & KP & DM).
  - rewrite CM. intros c I. destruct (CS c I) as [_ K]. split; [apply in_map_iff in I; destruct I as [e [<- _]]; cbn; repeat constructor; intros []|].
    intros v f J. destruct (K v f J) as [[x [_ ->]] _]. split; [apply (win_rvalid ih IH)|apply (win_dom ih IH)].
  - rewrite CM. intro v. assert (T : forall t, In t (source_times (map (com_of ih constant) l) v) -> t = 0 \/ ih = Fin t).
    { intros t I. unfold source_times in I. apply in_concat in I. destruct I as [l' [I J]]. apply in_map_iff in I. destruct I as [c [<- I]]. destruct (dget (k_sources c) v) as [f|] eqn:D; [|destruct J].
      apply dget_In in D. destruct (CS c I) as [_ K]. destruct (K v f D) as [[x [_ ->]] _]. apply (win_times ih IH x t J). }
    intros x y X Y LT. apply T in X. apply T in Y. pose proof eps_pos as EP. pose proof (ih_pos ih IH) as IP. destruct Y as [->|Y].
    + destruct X as [->|X]; [qlra|]. rewrite X in IP. exfalso. apply IP. cbn [ext_le]. qlra.
    + destruct X as [->|X]; [|rewrite X in Y; injection Y as ->; qlra]. unfold gap. rewrite Y in IH. assert (Q : eps < y) by (apply Qcnot_le_lt; exact IH). qlra.
  - constructor.
  - intros i [].
  - exact ORD.
  - exists n4. split; [exact E|]. split; [exact G|]. split; [exact CP|]. split; [exact TU|].
    pose proof (combined_win ih constant IH _ (fun d v => exists x, In (v, d, x) ods) CS n3 ord n4 CM ORD E) as CB. split; [|split].
    + intros d v t T. rewrite (DM constant d v t T Logic.I), CM. apply (com_demand ih constant IH); exact T.
    + assert (KN : kp = []). { cbn in KP. apply Permutation_sym, Permutation_nil in KP. destruct kp; [reflexivity|discriminate KP]. } subst kp. rewrite app_nil_r in CW. rewrite CW.
      assert (PC : forall c, In c mg -> k_pred c = constant) by (intros c I; apply CB; rewrite CW; exact I). clear - ND PC. induction mg as [|c mg IHm]; cbn [map] in *; [constructor|]. inversion ND as [|a b NI ND' EQ]; subst. constructor; [|apply IHm; [exact ND'|intros c0 I0; apply PC; right; exact I0]].
      intro I. apply NI. apply in_map_iff in I. destruct I as [c' [Q I]]. apply in_map_iff. exists c'. split; [|exact I]. rewrite Q, (PC c (or_introl eq_refl)), (PC c' (or_intror I)). reflexivity.
    + intros c I. destruct (CB c I) as (P & [D1 D2] & c0 & I0 & S0). split; [exact P|]. split; [|split; [exact D1|exact D2]].
      apply in_map_iff in I0. destruct I0 as [e [<- I0]]. destruct (DR e I0) as [_ [x X]]. exists (fst (fst e)), x. cbn [com_of k_sink] in S0. rewrite <- S0. destruct e as [[o d] y]. exact X.
Qed.
End Stages.

(** ** C112: from the map and the table of demands to a saved training flow *)
Theorem C112_training : forall nw edges ods constant ih gauss sigma r horizon ord nodes_ord due,
  has_edges nw edges -> well_posed edges ods -> ext_lt (Fin eps) ih -> 0 < r -> 0 < horizon ->
  (forall l, Permutation (ord l) l) -> (forall l, Permutation (nodes_ord l) l) ->
  exists net S, add_od_pairs nw ods constant ih = Ok net /\
    training_setup (nw_getstate net) gauss ih sigma r constant ord nodes_ord = Ok S /\
    (* the map is unchanged *)
    arcs (s_graph S) = map (fun e => fst (fst e)) edges /\ w_tau (su_net S) = map (fun e => snd (fst e)) edges /\ w_cap (su_net S) = map snd edges /\
    g_pos (s_graph S) = g_pos (w_graph nw) /\ (forall v, In v (node_ids (s_graph S)) -> exists a b, In (a, b) (arcs (s_graph S)) /\ (v = a \/ v = b)) /\
    (* one commodity per destination, with the drawn rates *)
    NoDup (map k_sink (s_coms S)) /\ (forall c, In c (s_coms S) -> k_pred c = constant) /\
    (exists s, sigma_of (map snd edges) sigma s /\
       forall d v t, 0 <= t -> demand (s_coms S) constant d v t = if ext_ltb (Fin t) ih then drawn_rate gauss s 0 ods d v else 0) /\
    (* the flow builder can work with it *)
    setup_ok S r /\ BuilderFlow.sources_ok S /\ served S /\
    (forall n, clean_build S n -> exists b, fb_run false S n = Ok b) /\
    (* and the whole run returns a flow up to the horizon *)
    exists fuel n, clean_build S n -> exists m b, training_flow fuel (nw_getstate net) gauss ih sigma r horizon constant ord nodes_ord due = Ok (m, b) /\
      fb_run false S m = Ok b /\ horizon <= f_phi (b_flow b).
Proof.
  intros nw edges ods constant ih gauss sigma r horizon ord nodes_ord due HE WP IH RP HP ORD NORD.
  pose proof (stage_add nw edges ods constant ih HE WP IH) as E1.
  destruct (stage_load nw edges ods constant ih HE WP) as (n2 & E2 & C2 & A2 & CP2 & TU2 & CM2 & PO2 & NN2 & ND2).
  destruct (stage_draw nw edges ods constant ih HE WP IH n2 gauss sigma CP2 CM2) as (s & HS & E3).
  destruct (stage_combine ods constant ih IH (mkNw (w_graph n2) (w_cap n2) (w_tau n2) (map (com_of ih constant) (drawn gauss s 0 ods))) (drawn gauss s 0 ods) ord ORD eq_refl (drawn_in gauss s ods 0)) as (n4 & E4 & G4 & CP4 & TU4 & DM & NDS & CS). cbn [w_graph w_cap w_tau] in G4, CP4, TU4.
  destruct HE as (C & R & AR & TU & CP & CE). destruct WP as (NE & POS & RCH).
  set (S := mkSetup n4 [(constant, mkPred constant_predict true)] (Some r) nodes_ord).
  assert (ES : training_setup (nw_getstate (saved_net nw ods constant ih)) gauss ih sigma r constant ord nodes_ord = Ok S).
  { unfold training_setup, training_network. rewrite E2. cbn [bind]. rewrite E3. cbn [bind]. rewrite E4. reflexivity. }
  assert (CAPS : w_cap n4 = map snd edges) by congruence. assert (TAUS : w_tau n4 = map (fun e => snd (fst e)) edges) by congruence.
  assert (ARCS : arcs (w_graph n4) = map (fun e => fst (fst e)) edges) by (rewrite G4; exact A2).
  assert (TPOS : forall tau, In tau (w_tau n4) -> 0 < tau). { intros tau I. rewrite TAUS in I. apply in_map_iff in I. destruct I as [[[[a b] t] c] [<- I]]. apply (POS _ _ _ _ I). }
  assert (OK : setup_ok S r).
  { constructor; unfold s_graph, s_nw, s_coms; cbn [su_net su_ord su_interval S n_cap n_tau].
    - rewrite G4. exact C2.
    - split; [cbn [n_cap n_tau]; rewrite CAPS, TAUS, !map_length; reflexivity|]. split; cbn [n_cap n_tau].
      + intros c I. rewrite CAPS in I. apply in_map_iff in I. destruct I as [[[[a b] t] c'] [<- I]]. apply (POS _ _ _ _ I).
      + intros t I. apply Qclt_le_weak, TPOS, I.
    - rewrite CAPS, map_length. rewrite <- (map_length (fun e => fst (fst e)) edges), <- ARCS. unfold arcs. rewrite map_length. reflexivity.
    - exact NORD.
    - reflexivity.
    - exact RP.
    - intros c I. apply (CS c I).
    - intros c v f I J. destruct (CS c I) as (_ & _ & _ & K). destruct (K v f J) as [[x [_ ->]] _]. apply (win_nodup ih IH).
    - intros c v f I J. destruct (CS c I) as (_ & _ & _ & K). destruct (K v f J) as [_ [x X]]. rewrite G4. apply (ND2 _ X). }
  assert (SR : BuilderFlow.sources_ok S).
  { constructor.
    - intros c v f I J. destruct (CS c I) as (_ & _ & _ & K). destruct (K v f J) as [[x [X ->]] _]. split; [apply (win_rvalid ih IH)|]. split; [apply (win_dom ih IH)|]. split; [apply (win_dom ih IH)|]. split; [apply (win_zero ih IH)|]. apply (win_values ih IH), X.
    - assert (T : forall i v t, change_at S i v t -> t = 0 \/ ih = Fin t).
      { intros i v t (c & f & I & D & J). apply nth_error_In in I. destruct (CS c I) as (_ & _ & _ & K). destruct (K v f (dget_In _ _ _ D)) as [[x [_ ->]] _]. apply (win_times ih IH x t J). }
      intros i j v x y X Y LT. apply T in X. apply T in Y. pose proof eps_pos as EP. pose proof (ih_pos ih IH) as IP. destruct Y as [->|Y].
      + destruct X as [->|X]; [qlra|]. rewrite X in IP. exfalso. apply IP. cbn [ext_le]. qlra.
      + destruct X as [->|X]; [|rewrite X in Y; injection Y as ->; qlra]. unfold gap. rewrite Y in IH. assert (Q : eps < y) by (apply Qcnot_le_lt; exact IH). qlra. }
  assert (SV : served S).
  { intros c I. destruct (CS c I) as (_ & (o & x & X) & _ & K). unfold s_graph. cbn [S su_net]. rewrite ARCS, G4. split; [apply (ND2 _ X)|]. intros v f J. destruct (K v f J) as [_ [y Y]]. apply (RCH _ _ _ Y). }
  assert (SP : forall c, In c (s_coms S) -> exists p, dget (su_preds S) (k_pred c) = Some p /\
     ((forall t flow, p_predict p t flow = constant_predict t flow) \/ (forall t flow, p_predict p t flow = zero_predict t flow))).
  { intros c I. destruct (CS c I) as [-> _]. exists (mkPred constant_predict true). cbn [su_preds S dget]. rewrite Nat.eqb_refl. split; [reflexivity|]. left. reflexivity. }
  assert (RUN : forall n, clean_build S n -> exists b, fb_run false S n = Ok b) by (intros n CL; apply (C78_constant_zero S r n OK SR SV CL SP)).
  exists (saved_net nw ods constant ih), S. split; [exact E1|]. split; [exact ES|]. split; [exact ARCS|]. split; [exact TAUS|]. split; [exact CAPS|]. split; [unfold s_graph; cbn [S su_net]; rewrite G4; exact PO2|]. split; [unfold s_graph; cbn [S su_net]; rewrite ARCS, G4; exact NN2|]. split; [exact NDS|]. split; [intros c I; apply (CS c I)|].
  split; [exists s; split; [rewrite <- CP; exact HS|]; intros d v t T; rewrite <- drawn_sum; apply DM, T|]. split; [exact OK|]. split; [exact SR|]. split; [exact SV|]. split; [exact RUN|].
  destruct (C87_stops S r OK TPOS horizon [] due) as [fuel [n Q]]. exists fuel, n. intro CL. destruct Q as [[b Q]|[x [Q _]]]; [|destruct (RUN n CL) as [b' Q']; congruence].
  exists n, b. destruct (C87_first _ _ _ _ _ _ _ _ Q) as (F1 & F2 & _). split; [|split; [exact F1|exact F2]].
  unfold training_flow. rewrite ES. cbn [bind]. destruct (C87_logging fuel S horizon [] due n b) as (_ & L2 & L3). rewrite L2 in Q. apply L3; [exact Q| |intros m c _ _; exists []; reflexivity].
  destruct n as [|n]; [|lia]. exfalso. cbn [fb_run] in F1. destruct (init_sched S r OK b F1) as (_ & F0 & _). rewrite F0 in F2. qlra.
Qed.
Print Assumptions C112_training.

(** ** The scenarios that are shipped *)
Lemma set_positions_edges nw pos es : has_edges nw es -> has_edges (set_positions nw pos) es.
Proof.
  intros (C & R & A & T & K & W). unfold set_positions, has_edges. cbn [w_graph w_cap w_tau w_com g_rev]. split; [|auto]. destruct C as [C1 C2 C3 C4 C5 C6 C7]. constructor; assumption.
Qed.
Lemma fold_edges : forall es nw es0, has_edges nw es0 -> has_edges (fold_left (fun nw (e : nat * nat * Qc * Qc) => let '(a, b, t, c) := e in nw_add_edge nw a b t c) es nw) (es0 ++ es).
Proof.
  induction es as [|[[[a b] t] c] es IHe]; intros nw es0 H; cbn [fold_left]; [rewrite app_nil_r; exact H|]. replace (es0 ++ (a, b, t, c) :: es) with ((es0 ++ [(a, b, t, c)]) ++ es) by (rewrite <- app_assoc; reflexivity). apply IHe, has_snoc, H.
Qed.
(** [build_nguyen_network]: minutes instead of seconds *)
Definition per_minute (row : nat * nat * Qc * Qc) : nat * nat * Qc * Qc := let '(a, b, cap, fft) := row in (a, b, fft / qz 60, cap * qz 60).
Theorem C112_nguyen_network : forall rows, exists nw, build_nguyen_network rows = Ok nw /\ has_edges nw (map per_minute rows) /\ g_pos (w_graph nw) = nguyen_positions.
Proof.
  intro rows. assert (L : forall rows nw es, has_edges nw es -> exists nw', foldM nguyen_step rows nw = Ok nw' /\ has_edges nw' (es ++ map per_minute rows)).
  { clear. induction rows as [|[[[a b] cap] fft] rows IHr]; intros nw es H; cbn [foldM]; [exists nw; rewrite app_nil_r; auto|]. unfold nguyen_step at 1. rewrite pydiv_ok by discriminate. cbn [bind map per_minute].
    destruct (IHr _ _ (has_snoc nw es a b (fft / qz 60) (cap * qz 60) H)) as [nw' [E H']]. exists nw'. split; [exact E|]. rewrite <- app_assoc in H'. exact H'. }
  destruct (L rows nw_empty [] has_empty) as [nw [E H]].
  exists (set_positions nw nguyen_positions). unfold build_nguyen_network. rewrite E. split; [reflexivity|]. split; [apply set_positions_edges, H|reflexivity].
Qed.
Print Assumptions C112_nguyen_network.
Lemma nguyen_coms : forall pairs nw demand constant ih, nguyen_commodities nw pairs demand constant ih = add_od_pairs nw (map (fun p => (fst p, snd p, demand)) pairs) constant ih.
Proof.
  unfold nguyen_commodities, add_od_pairs. induction pairs as [|[s t] pairs IHp]; intros nw demand constant ih; cbn [foldM map]; [reflexivity|]. unfold add_od at 1. cbn [fst snd].
  assert (Z : forall (r : res network) (F G : network -> res network), (forall n, F n = G n) -> bind r F = bind r G) by (intros [n|x] F G Q; cbn [bind]; auto). apply Z. intro n. apply IHp.
Qed.

(** A walk given by its nodes. *)
Fixpoint walkb (A : list (nat * nat)) (v : nat) (l : list nat) : bool :=
  match l with [] => true | w :: r => (existsb (fun p => Nat.eqb (fst p) v && Nat.eqb (snd p) w) A && walkb A w r)%bool end.
Lemma walkb_ok A : forall l v, walkb A v l = true -> path A v (last l v).
Proof.
  assert (PRE : forall u v w, In (u, v) A -> path A v w -> path A u w).
  { intros u v w I P. induction P as [w|v x w P IHP]; [apply (path_step A u u w); [constructor|exact I]|]. apply (path_step A u x w); auto. }
  induction l as [|w l IHl]; intros v H; cbn [walkb] in H; [constructor|]. apply andb_prop in H. destruct H as [H1 H2]. apply existsb_exists in H1. destruct H1 as [[a b] [I E]]. cbn [fst snd] in E. apply andb_prop in E. destruct E as [E1 E2].
  apply Nat.eqb_eq in E1. apply Nat.eqb_eq in E2. subst a b. specialize (IHl w H2). replace (last (w :: l) v) with (last l w); [apply (PRE v w _ I IHl)|]. clear. revert w v. induction l as [|x l IHl]; intros w v; [reflexivity|]. change (last (w :: x :: l) v) with (last (x :: l) v). transitivity (last l x); [symmetry|]; apply IHl.
Qed.
(** [ods] with a walk for each pair *)
Definition posedb (edges : list (nat * nat * Qc * Qc)) (ods : list (nat * nat * Qc)) (walks : list (list nat)) : bool :=
  (negb (Nat.eqb (length edges) 0) && forallb (fun e => qltb 0 (snd (fst e)) && qltb 0 (snd e)) edges && Nat.eqb (length walks) (length ods) &&
   forallb (fun p => let '(o, d, _) := fst p in
     existsb (fun e => Nat.eqb (fst (fst (fst e))) o || Nat.eqb (snd (fst (fst e))) o) edges && walkb (map (fun e => fst (fst e)) edges) o (snd p) && Nat.eqb (last (snd p) o) d) (combine ods walks))%bool.
Lemma posedb_ok edges ods walks : posedb edges ods walks = true -> well_posed edges ods.
Proof.
  unfold posedb. intro H. apply andb_prop in H. destruct H as [H H4]. apply andb_prop in H. destruct H as [H H3]. apply andb_prop in H. destruct H as [H1 H2]. split; [|split].
  - intro E. subst. discriminate H1.
  - intros a b tau cap I. rewrite forallb_forall in H2. specialize (H2 _ I). cbn [fst snd] in H2. apply andb_prop in H2. destruct H2 as [A B]. split; apply qltb_true; assumption.
  - intros o d x I. apply Nat.eqb_eq in H3. rewrite forallb_forall in H4.
    assert (W : exists w, In ((o, d, x), w) (combine ods walks)). { clear - I H3. revert walks H3. induction ods as [|e ods IHo]; intros [|w walks] H3; cbn in H3; [destruct I|destruct I|discriminate H3|]. cbn [combine]. destruct I as [->|I]; [exists w; left; reflexivity|]. destruct (IHo I walks) as [w' J]; [congruence|]. exists w'. right. exact J. }
    destruct W as [w J]. specialize (H4 _ J). cbn [fst snd] in H4. apply andb_prop in H4. destruct H4 as [H4 E]. apply andb_prop in H4. destruct H4 as [E1 E2]. apply Nat.eqb_eq in E. apply walkb_ok in E2. rewrite E in E2. split; [|exact E2].
    apply existsb_exists in E1. destruct E1 as [[[[a b] tau] cap] [K E1]]. cbn [fst snd] in E1. apply orb_prop in E1. exists a, b, tau, cap. split; [exact K|]. destruct E1 as [E1|E1]; apply Nat.eqb_eq in E1; auto.
Qed.
Definition covered (edges : list (nat * nat * Qc * Qc)) (pos : list (nat * (Qc * Qc))) : bool :=
  forallb (fun e => match dget pos (fst (fst (fst e))), dget pos (snd (fst (fst e))) with Some _, Some _ => true | _, _ => false end) edges.
Lemma covered_ok edges pos S : covered edges pos = true -> arcs (s_graph S) = map (fun e => fst (fst e)) edges -> g_pos (s_graph S) = pos ->
  (forall v, In v (node_ids (s_graph S)) -> exists a b, In (a, b) (arcs (s_graph S)) /\ (v = a \/ v = b)) -> forall v, In v (node_ids (s_graph S)) -> dget (g_pos (s_graph S)) v <> None.
Proof.
  intros C A P N v I. destruct (N v I) as (a & b & J & E). rewrite A in J. apply in_map_iff in J. destruct J as [[[[a' b'] t] c] [Q J]]. cbn [fst] in Q. injection Q as -> ->. unfold covered in C. rewrite forallb_forall in C. specialize (C _ J). cbn [fst snd] in C. rewrite P.
  destruct (dget pos a) eqn:D1; [|discriminate C]. destruct (dget pos b) eqn:D2; [|discriminate C]. destruct E; subst; congruence.
Qed.

(** nguyen_scenario.py with its parameters: every one of its training flows, for
    every seed, is computed up to the horizon unless two event times of the
    computation come closer than 1e-9; and all nodes can be drawn. *)
Definition nguyen_pairs : list (nat * nat) := [(1, 2); (1, 3); (4, 2); (4, 3)]%nat.
Theorem C112_nguyen : forall constant gauss ord nodes_ord due, (forall l, Permutation (ord l) l) -> (forall l, Permutation (nodes_ord l) l) ->
  exists nw net S, build_nguyen_network nguyen_csv = Ok nw /\ nguyen_commodities nw nguyen_pairs (qz 100) constant (Fin (qz 12)) = Ok net /\
    training_setup (nw_getstate net) gauss (Fin (qz 12)) None (qr 1 8) constant ord nodes_ord = Ok S /\
    (forall v, In v (node_ids (s_graph S)) -> dget (g_pos (s_graph S)) v <> None) /\
    exists fuel n, clean_build S n -> exists m b, training_flow fuel (nw_getstate net) gauss (Fin (qz 12)) None (qr 1 8) (qz 60) constant ord nodes_ord due = Ok (m, b) /\ qz 60 <= f_phi (b_flow b).
Proof.
  intros constant gauss ord nodes_ord due ORD NORD. destruct (C112_nguyen_network nguyen_csv) as [nw [E [H P]]].
  assert (WP : well_posed (map per_minute nguyen_csv) (map (fun p => (fst p, snd p, qz 100)) nguyen_pairs)).
  { apply (posedb_ok _ _ [[12; 8; 2]; [12; 6; 10; 11; 3]; [5; 6; 7; 8; 2]; [9; 13; 3]]%nat). vm_compute. reflexivity. }
  assert (CV : covered (map per_minute nguyen_csv) nguyen_positions = true) by (vm_compute; reflexivity).
  assert (IP : ext_lt (Fin eps) (Fin (qz 12))) by (apply Qclt_not_le; apply qltb_true; vm_compute; reflexivity).
  assert (RP : 0 < qr 1 8) by (apply qltb_true; vm_compute; reflexivity). assert (HP : 0 < qz 60) by (apply qltb_true; vm_compute; reflexivity).
  generalize dependent (map per_minute nguyen_csv). intros edges H WP CV.
  destruct (C112_training nw edges _ constant (Fin (qz 12)) gauss None (qr 1 8) (qz 60) ord nodes_ord due H WP IP RP HP ORD NORD) as (net & S & E1 & E2 & A & _ & _ & PO & NN & _ & _ & _ & _ & _ & _ & _ & fuel & n & F).
  exists nw, net, S. split; [exact E|]. split; [rewrite nguyen_coms; exact E1|]. split; [exact E2|]. split; [apply (covered_ok edges nguyen_positions S CV A); [rewrite PO; exact P|exact NN]|].
  exists fuel, n. intro CL. destruct (F CL) as (m & b & F1 & _ & F3). eauto.
Qed.
Print Assumptions C112_nguyen.
(** sample_scenario.py likewise *)
Theorem C112_sample : forall constant gauss ord nodes_ord due, (forall l, Permutation (ord l) l) -> (forall l, Permutation (nodes_ord l) l) ->
  exists net S, nguyen_commodities build_sample_network [(0, 2)]%nat (qz 4) constant (Fin (qz 12)) = Ok net /\
    training_setup (nw_getstate net) gauss (Fin (qz 12)) None (qr 1 8) constant ord nodes_ord = Ok S /\
    (forall v, In v (node_ids (s_graph S)) -> dget (g_pos (s_graph S)) v <> None) /\
    exists fuel n, clean_build S n -> exists m b, training_flow fuel (nw_getstate net) gauss (Fin (qz 12)) None (qr 1 8) (qz 60) constant ord nodes_ord due = Ok (m, b) /\ qz 60 <= f_phi (b_flow b).
Proof.
  intros constant gauss ord nodes_ord due ORD NORD.
  assert (H : has_edges build_sample_network sample_edges) by (apply set_positions_edges; apply (fold_edges sample_edges nw_empty [] has_empty)).
  assert (P : g_pos (w_graph build_sample_network) = sample_positions) by reflexivity.
  assert (WP : well_posed sample_edges (map (fun p => (fst p, snd p, qz 4)) [(0, 2)]%nat)) by (apply (posedb_ok _ _ [[1; 3; 2]]%nat); vm_compute; reflexivity).
  assert (CV : covered sample_edges sample_positions = true) by (vm_compute; reflexivity).
  assert (IP : ext_lt (Fin eps) (Fin (qz 12))) by (apply Qclt_not_le; apply qltb_true; vm_compute; reflexivity).
  assert (RP : 0 < qr 1 8) by (apply qltb_true; vm_compute; reflexivity). assert (HP : 0 < qz 60) by (apply qltb_true; vm_compute; reflexivity).
  generalize dependent sample_edges. intros edges H WP CV. generalize dependent build_sample_network. intros nw P H.
  destruct (C112_training nw edges _ constant (Fin (qz 12)) gauss None (qr 1 8) (qz 60) ord nodes_ord due H WP IP RP HP ORD NORD) as (net & S & E1 & E2 & A & _ & _ & PO & NN & _ & _ & _ & _ & _ & _ & _ & fuel & n & F).
  exists net, S. split; [rewrite nguyen_coms; exact E1|]. split; [exact E2|]. split; [apply (covered_ok edges sample_positions S CV A); [rewrite PO; exact P|exact NN]|].
  exists fuel, n. intro CL. destruct (F CL) as (m & b & F1 & _ & F3). eauto.
Qed.
Print Assumptions C112_sample.

(** ** A concrete run: sample_scenario.py with the mean demand, rerouting every
    time unit, up to time 3; no two event times are too close. *)
Definition ex_saved : res nwstate := net <- nguyen_commodities build_sample_network [(0, 2)]%nat (qz 4) 1 (Fin (qz 12)) ;; Ok (nw_getstate net).
Definition ex_gauss (k : nat) (mu sigma : Qc) : Qc := mu + sigma.
Definition ex_run : bool :=
  match (st <- ex_saved ;; training_setup st ex_gauss (Fin (qz 12)) None 1 1 (fun l => l) (fun l => l)), (st <- ex_saved ;; training_flow 20 st ex_gauss (Fin (qz 12)) None 1 (qz 3) 1 (fun l => l) (fun l => l) (fun _ => true)) with
  | Ok U, Ok (m, b) => (match fb_run true U m with Ok _ => true | Err _ => false end && qleb (qz 3) (f_phi (b_flow b)) && Nat.ltb 2 m &&
      qeqb (demand (s_coms U) 1 2 0 (qz 11)) (qr 9 2) && qeqb (demand (s_coms U) 1 2 0 (qz 12)) 0)%bool
  | _, _ => false end.
Example ex_training : ex_run = true.
Proof. vm_compute. reflexivity. Qed.
(** The demands of one destination are merged; the rates of repeated entries add up. *)
Definition ex_two : bool :=
  match (nw <- build_nguyen_network nguyen_csv ;; net <- nguyen_commodities nw nguyen_pairs (qz 100) 1 (Fin (qz 12)) ;; training_setup (nw_getstate net) ex_gauss (Fin (qz 12)) (Some (qz 3)) (qr 1 8) 1 (fun l => l) (fun l => l)) with
  | Ok U => (match map (fun c => (k_sink c, map fst (k_sources c))) (s_coms U) with [(2, [1; 4]); (3, [1; 4])] => true | [(2, [4; 1]); (3, [4; 1])] => true | _ => false end &&
      qeqb (demand (s_coms U) 1 3 4 1) (qz 103) && match fb_run true U 3 with Ok _ => true | Err _ => false end)%nat%bool
  | Err _ => false end.
Example ex_nguyen : ex_two = true.
Proof. vm_compute. reflexivity. Qed.
