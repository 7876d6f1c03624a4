(** * C113: the evaluation runs of a scenario *)
From Coq Require Import Permutation.
From Verif Require Import Base Spec Arrays ArraysProofs PL PLProofs RC RCProofs RCOps FRC FRCProofs FRCExact PQ PQProofs PQSpec DynFlow DQProofs DynRun DynEvents DynEdge
  Graph GraphSpec GraphProofs Dijkstra DijkstraProofs FlowBuilder FlowBuilderProofs BuilderRun BuilderFlow RoutesSpec TotalSpec Predictors Eval Eval2 Import PropGraph PropEval2 PropEval4 PropEval7 PropEval8 PropTotal PropImport Scenario PropScenario.

(** ** Vocabulary *)
(** The rate drawn for the entry number [k]. *)
Definition draw (gauss : nat -> Qc -> Qc -> Qc) (s : Qc) (k : nat) (x : Qc) : Qc := qmax 0 (gauss k x s).
(** The rate of every test commodity: when splitting, an equal share of the
    focused entry; otherwise a small part of it, but at least a small part of
    the least capacity. *)
Definition test_rate (split : bool) (cmin x : Qc) (n : nat) : Qc := if split then x / qn n else qmax (cmin / qz 256) (x / qz 16 / qn n).

Lemma nth_drawn gauss s : forall ods k i o d x, nth_error ods i = Some (o, d, x) -> nth_error (drawn gauss s k ods) i = Some (o, d, draw gauss s (k + i) x).
Proof.
  induction ods as [|e ods IHo]; intros k [|i] o d x H; cbn [nth_error drawn] in *; try discriminate H.
  - injection H as ->. cbn [fst snd]. rewrite Nat.add_0_r. reflexivity.
  - rewrite (IHo (Datatypes.S k) i o d x H). f_equal. f_equal. f_equal. lia.
Qed.
Lemma remove_map {A B} (f : A -> B) l i : remove_nth i (map f l) = map f (remove_nth i l).
Proof. unfold remove_nth. rewrite map_app, firstn_map, skipn_map. reflexivity. Qed.
Lemma remove_in {A} (l : list A) i x : In x (remove_nth i l) -> In x l.
Proof. unfold remove_nth. intro I. rewrite <- (firstn_skipn i l). apply in_or_app. apply in_app_or in I. destruct I as [I|I]; [left; exact I|right]. clear - I. revert l I. induction i as [|i IHi]; intros [|y l] I; cbn [skipn] in *; auto. right. exact I. Qed.
Lemma rate_remove l i o d x d' v : nth_error l i = Some (o, d, x) -> rate_sum (remove_nth i l) d' v = rate_sum l d' v - (if (Nat.eqb d d' && Nat.eqb o v)%bool then x else 0).
Proof.
  intro N. unfold rate_sum. rewrite (sumq_perm _ _ _ (remove_split l i _ N)). rewrite sumq_cons. cbn [fst snd]. destruct (Nat.eqb d d' && Nat.eqb o v)%bool; ring.
Qed.
Lemma share_nonneg x n : 0 <= x -> (0 < n)%nat -> 0 <= x / qn n.
Proof.
  intros X N. pose proof (qn_ne n N) as NZ. pose proof (qn_pos n N) as P.
  set (y := x / qn n). assert (Y : y * qn n = x) by (unfold y; field; exact NZ). clearbody y. generalize dependent (qn n). intros q NZ P Y. clear NZ. qnra.
Qed.

(** ** The network that is evaluated *)
Section Eval.
Variables (nw : network) (edges : list (nat * nat * Qc * Qc)) (ods : list (nat * nat * Qc)) (constant : nat) (h : Qc).
Hypothesis HE : has_edges nw edges.
Hypothesis WP : well_posed edges ods.
Hypothesis IH : eps < h.
Notation ih := (Fin h).
Lemma IH' : ext_lt (Fin eps) ih.
Proof. apply Qclt_not_le. exact IH. Qed.
Lemma h_pos : 0 < h.
Proof. pose proof eps_pos. qlra. Qed.
Lemma stage_eval n3 l focused o d x split types ord : (forall l, Permutation (ord l) l) -> w_com n3 = map (com_of ih constant) l -> (forall e, In e l -> 0 <= snd e /\ exists x, In (fst e, x) ods) ->
  nth_error l focused = Some (o, d, x) -> types <> [] -> w_cap n3 <> [] ->
  exists n5 idx cmin, eval_commodities n3 focused split h types ord = Ok (n5, idx) /\ In cmin (w_cap n3) /\ (forall k, In k (w_cap n3) -> cmin <= k) /\
    w_graph n5 = w_graph n3 /\ w_cap n5 = w_cap n3 /\ w_tau n5 = w_tau n3 /\
    let y := test_rate split cmin x (length types) in let test := map (fun p => mkCom [(o, win y ih)] d p) types in
    exists old, w_com n5 = old ++ test /\ idx = seq (length old) (length types) /\ NoDup (map k_sink old) /\
      (forall d' v t, 0 <= t -> demand old constant d' v t = if qltb t h then rate_sum l d' v - (if (split && Nat.eqb d d' && Nat.eqb o v)%bool then x else 0) else 0) /\
      forall c, In c old -> k_pred c = constant /\ (exists o x, In (o, k_sink c, x) ods) /\ NoDup (map fst (k_sources c)) /\
        forall v f, In (v, f) (k_sources c) -> (exists x, 0 <= x /\ f = win x ih) /\ exists x, In (v, k_sink c, x) ods.
Proof.
  intros ORD CM DR FO TY CN. pose proof h_pos as HP. assert (NP : (0 < length types)%nat) by (destruct types; [congruence|cbn; lia]). pose proof (qn_ne _ NP) as NZ.
  assert (FC : nth_error (w_com n3) focused = Some (com_of ih constant (o, d, x))) by (rewrite CM, nth_error_map, FO; reflexivity).
  assert (FE : fetch (w_com n3) focused = Ok (com_of ih constant (o, d, x))) by (unfold fetch; rewrite FC; reflexivity).
  destruct (w_cap n3) as [|k0 ks] eqn:EK; [congruence|]. destruct (fold_qmin ks k0) as [M1 M2]. set (cmin := fold_left qmin ks k0) in *.
  set (l' := if split then remove_nth focused l else l).
  assert (DR' : forall e, In e l' -> 0 <= snd e /\ exists x, In (fst e, x) ods). { intros e I. apply DR. unfold l' in I. destruct split; [apply (remove_in _ _ _ I)|exact I]. }
  destruct (stage_combine ods constant ih IH' (mkNw (w_graph n3) (w_cap n3) (w_tau n3) (map (com_of ih constant) l')) l' ord ORD eq_refl DR') as (n4 & E4 & G4 & CP4 & TU4 & DM & NDS & CS). cbn [w_graph w_cap w_tau] in G4, CP4, TU4.
  set (y := test_rate split cmin x (length types)).
  exists (mkNw (w_graph n4) (w_cap n4) (w_tau n4) (w_com n4 ++ map (fun p => mkCom [(o, win y ih)] d p) types)), (seq (length (w_com n4)) (length types)), cmin.
  split; [|split; [exact M2|split; [exact M1|split; [exact G4|split; [cbn [w_cap]; rewrite CP4, EK; reflexivity|split; [exact TU4|]]]]]].
  - unfold eval_commodities. rewrite FE. cbn [bind]. unfold com_of at 1. cbn [k_sources fst snd].
    assert (RI : forall z, rc_init [0; h] [z; 0] (Fin 0) PInf = Ok (win z ih)) by (intro z; apply window_init; qlra).
    unfold y, test_rate, l' in *. destruct split.
    + change (rc_values (win x ih)) with [x; 0]. cbn [mapM]. rewrite !pydiv_ok by exact NZ. cbn [bind]. change (rc_times (win x ih)) with [0; h]. change (rc_lo (win x ih)) with (Fin 0). change (rc_hi (win x ih)) with PInf.
      replace (0 / qn (length types)) with 0 by (field; exact NZ). rewrite RI. cbn [bind]. rewrite CM, remove_map, EK in *. rewrite E4. reflexivity.
    + rewrite EK in *. cbn [list_minq bind]. fold cmin. rewrite pydiv_ok by discriminate. cbn [bind]. change (rc_values (win x ih)) with [x; 0]. change (fetch [x; 0] 0) with (Ok x). cbn [bind]. rewrite pydiv_ok by discriminate. cbn [bind]. rewrite pydiv_ok by exact NZ. cbn [bind].
      rewrite RI. cbn [bind]. rewrite CM, E4. reflexivity.
  - cbv zeta. exists (w_com n4). split; [reflexivity|]. split; [reflexivity|]. split; [exact NDS|]. split; [|exact CS].
    intros d' v t T. rewrite (DM d' v t T). unfold ext_ltb, ext_leb. replace (negb (qleb h t)) with (qltb t h) by (destruct (qltbP t h), (qlebP h t); try reflexivity; exfalso; qlra).
    destruct (qltb t h); [|reflexivity]. unfold l'. destruct split; cbn [andb]; [apply (rate_remove l focused o d x d' v FO)|ring].
Qed.
End Eval.

(** ** C113 *)
Theorem C113_evaluation : forall nw edges ods constant h gauss sigma focused o d x split preds r ord nodes_ord,
  has_edges nw edges -> well_posed edges ods -> eps < h -> 0 < r ->
  (forall l, Permutation (ord l) l) -> (forall l, Permutation (nodes_ord l) l) ->
  nth_error ods focused = Some (o, d, x) -> NoDup (map fst preds) -> preds <> [] ->
  exists net S idx, add_od_pairs nw ods constant (Fin h) = Ok net /\
    eval_setup (nw_getstate net) gauss h sigma focused split preds r ord nodes_ord = Ok (S, idx) /\
    su_preds S = preds /\
    (* the map is unchanged *)
    arcs (s_graph S) = map (fun e => fst (fst e)) edges /\ w_tau (su_net S) = map (fun e => snd (fst e)) edges /\ w_cap (su_net S) = map snd edges /\
    (* one test commodity per predictor, all with the same source, sink and inflow *)
    (exists s cmin, sigma_of (map snd edges) sigma s /\ In cmin (map snd edges) /\ (forall k, In k (map snd edges) -> cmin <= k) /\
      let y := test_rate split cmin (draw gauss s focused x) (length preds) in 0 <= y /\ (split = false -> 0 < y) /\
      length idx = length preds /\ (exists share, demand_until y (Fin h) = Ok share /\
        (forall t, 0 <= t -> rc_eval share t = Ok (if qltb t h then y else 0)) /\
        forall j i p, nth_error idx j = Some i -> nth_error (map fst preds) j = Some p -> nth_error (s_coms S) i = Some (mkCom [(o, share)] d p)) /\
      (* the total demand, by predictor, destination and origin *)
      forall p d' v t, 0 <= t -> demand (s_coms S) p d' v t = if qltb t h then
          (if Nat.eqb p constant then drawn_rate gauss s 0 ods d' v - (if (split && Nat.eqb d d' && Nat.eqb o v)%bool then draw gauss s focused x else 0) else 0)
          + (if (existsb (Nat.eqb p) (map fst preds) && Nat.eqb d d' && Nat.eqb o v)%bool then y else 0) else 0) /\
    (* the flow builder can work with it *)
    setup_ok S r /\ BuilderFlow.sources_ok S /\ served S /\
    (forall n, answers S r n -> clean_build S n -> exists b, fb_run false S n = Ok b).
Proof.
  intros nw edges ods constant h gauss sigma focused o d x split preds r ord nodes_ord HE WP IHH RP ORD NORD FO ND NE. set (ih := Fin h).
  assert (IH : ext_lt (Fin eps) ih) by (apply Qclt_not_le; exact IHH). pose proof (h_pos h IHH) as HP0.
  pose proof (stage_add nw edges ods constant ih HE WP IH) as E1.
  destruct (stage_load nw edges ods constant ih HE WP) as (n2 & E2 & C2 & A2 & CP2 & TU2 & CM2 & PO2 & NN2 & ND2).
  destruct (stage_draw nw edges ods constant ih HE WP IH n2 gauss sigma CP2 CM2) as (s & HS & E3).
  set (n3 := mkNw (w_graph n2) (w_cap n2) (w_tau n2) (map (com_of ih constant) (drawn gauss s 0 ods))) in *.
  assert (TY : map fst preds <> []) by (destruct preds; [congruence|discriminate]).
  assert (LT : length (map fst preds) = length preds) by apply map_length. assert (LP : (0 < length preds)%nat) by (destruct preds; [congruence|cbn; lia]).
  assert (CN : w_cap n3 <> []) by (cbn [n3 w_cap]; rewrite CP2; apply (caps_ne nw edges ods HE WP)).
  destruct (stage_eval ods constant h IHH n3 (drawn gauss s 0 ods) focused o d (draw gauss s focused x) split (map fst preds) ord ORD eq_refl (drawn_in gauss s ods 0) (nth_drawn gauss s ods 0 focused o d x FO) TY CN) as (n5 & idx & cmin & E5 & M1 & M2 & G5 & CP5 & TU5 & old & CO & EI & NDS & DM & CS).
  rewrite LT in *. set (y := test_rate split cmin (draw gauss s focused x) (length preds)) in *. fold ih in CO, CS. cbn [n3 w_graph w_cap w_tau] in G5, CP5, TU5.
  destruct HE as (C & R & AR & TU & CP & CE). destruct WP as (NEE & POS & RCH).
  set (S := mkSetup n5 preds (Some r) nodes_ord).
  assert (ES : eval_setup (nw_getstate (saved_net nw ods constant ih)) gauss h sigma focused split preds r ord nodes_ord = Ok (S, idx)).
  { unfold eval_setup, eval_network. rewrite E2. cbn [bind]. fold ih. rewrite E3. cbn [bind]. rewrite E5. reflexivity. }
  assert (CAPS : w_cap n5 = map snd edges) by congruence. assert (TAUS : w_tau n5 = map (fun e => snd (fst e)) edges) by congruence.
  assert (ARCS : arcs (w_graph n5) = map (fun e => fst (fst e)) edges) by (rewrite G5; exact A2).
  assert (TPOS : forall tau, In tau (w_tau n5) -> 0 < tau). { intros tau I. rewrite TAUS in I. apply in_map_iff in I. destruct I as [[[[a b] t] c] [<- I]]. apply (POS _ _ _ _ I). }
  assert (KPOS : forall k, In k (w_cap n5) -> 0 < k). { intros c I. rewrite CAPS in I. apply in_map_iff in I. destruct I as [[[[a b] t] c'] [<- I]]. apply (POS _ _ _ _ I). }
  assert (DN : 0 <= draw gauss s focused x) by apply qmax_nonneg.
  assert (YP : split = false -> 0 < y).
  { intro SF. unfold y, test_rate. rewrite SF. assert (Q : 0 < cmin) by (apply KPOS; rewrite CP5; exact M1). assert (Q2 : cmin / qz 256 * qz 256 = cmin) by (field; discriminate). generalize dependent (cmin / qz 256). intros z Q2.
    assert (Z : 0 < z). { assert (QP : 0 < qz 256) by (apply qltb_true; vm_compute; reflexivity). generalize dependent (qz 256). intros q Q2 QP. qnra. } qmm; qlra. }
  assert (YN : 0 <= y).
  { unfold y, test_rate. destruct split; [apply share_nonneg; assumption|]. assert (Q : 0 < cmin) by (apply KPOS; rewrite CP5; exact M1). assert (0 <= cmin / qz 256) by (change (qz 256) with (qn 256); apply share_nonneg; [qlra|lia]). qmm; qlra. }
  assert (OD : In (o, d, x) ods) by (apply (nth_error_In _ _ FO)).
  assert (ALL : forall c, In c (w_com n5) -> (exists o x, In (o, k_sink c, x) ods) /\ NoDup (map fst (k_sources c)) /\ forall v f, In (v, f) (k_sources c) -> (exists x, 0 <= x /\ f = win x ih) /\ exists x, In (v, k_sink c, x) ods).
  { intros c I. rewrite CO in I. apply in_app_or in I. destruct I as [I|I]; [apply (CS c I)|]. apply in_map_iff in I. destruct I as [p [<- I]]. cbn [k_sink k_sources map fst]. split; [eauto|]. split; [repeat constructor; intros []|].
    intros v f [Q|[]]. injection Q as <- <-. split; [exists y; auto|eauto]. }
  assert (OK : setup_ok S r).
  { constructor; unfold s_graph, s_nw, s_coms; cbn [su_net su_ord su_interval S n_cap n_tau].
    - rewrite G5. exact C2.
    - split; [cbn [n_cap n_tau]; rewrite CAPS, TAUS, !map_length; reflexivity|]. split; cbn [n_cap n_tau]; [exact KPOS|]. intros t I. apply Qclt_le_weak, TPOS, I.
    - rewrite CAPS, map_length. rewrite <- (map_length (fun e => fst (fst e)) edges), <- ARCS. unfold arcs. rewrite map_length. reflexivity.
    - exact NORD.
    - reflexivity.
    - exact RP.
    - intros c I. apply (ALL c I).
    - intros c v f I J. destruct (ALL c I) as (_ & _ & K). destruct (K v f J) as [[z [_ ->]] _]. apply (win_nodup ih IH).
    - intros c v f I J. destruct (ALL c I) as (_ & _ & K). destruct (K v f J) as [_ [z X]]. rewrite G5. apply (ND2 _ X). }
  assert (SR : BuilderFlow.sources_ok S).
  { constructor.
    - intros c v f I J. destruct (ALL c I) as (_ & _ & K). destruct (K v f J) as [[z [X ->]] _]. split; [apply (win_rvalid ih IH)|]. split; [apply (win_dom ih IH)|]. split; [apply (win_dom ih IH)|]. split; [apply (win_zero ih IH)|]. apply (win_values ih IH), X.
    - assert (T : forall i v t, change_at S i v t -> t = 0 \/ t = h).
      { intros i v t (c & f & I & D & J). apply nth_error_In in I. destruct (ALL c I) as (_ & _ & K). destruct (K v f (dget_In _ _ _ D)) as [[z [_ ->]] _]. destruct (win_times ih IH z t J) as [->|Q]; [auto|]. injection Q as ->. auto. }
      intros i j v a b X Y LT'. apply T in X. apply T in Y. pose proof eps_pos as EP. unfold gap. destruct X as [->| ->], Y as [->| ->]; qlra. }
  assert (SV : served S).
  { intros c I. destruct (ALL c I) as ((o' & z & X) & _ & K). unfold s_graph. cbn [S su_net]. rewrite ARCS, G5. split; [apply (ND2 _ X)|]. intros v f J. destruct (K v f J) as [_ [z' Y]]. apply (RCH _ _ _ Y). }
  exists (saved_net nw ods constant ih), S, idx. split; [exact E1|]. split; [exact ES|]. split; [reflexivity|]. split; [exact ARCS|]. split; [exact TAUS|]. split; [exact CAPS|]. split.
  - exists s, cmin. split; [rewrite <- CP; exact HS|]. split; [rewrite <- CAPS, CP5; exact M1|]. split; [rewrite <- CAPS, CP5; exact M2|]. cbv zeta. split; [exact YN|]. split; [exact YP|]. split; [rewrite EI; apply seq_length|]. split.
    + exists (win y ih). split; [apply (win_init ih IH)|]. split.
      * intros t T. rewrite (win_eval ih IH y t T). unfold ih, ext_ltb, ext_leb. destruct (qltbP t h), (qlebP h t); try reflexivity; exfalso; qlra.
      * intros j i p J P. rewrite EI in J. assert (L : (j < length preds)%nat) by (rewrite <- LT; apply nth_error_Some; congruence). rewrite (nth_error_nth' _ 0%nat) in J by (rewrite seq_length; exact L). injection J as <-. rewrite seq_nth by exact L.
        unfold s_coms. cbn [S su_net]. rewrite CO, nth_error_app2 by lia. replace (length old + j - length old)%nat with j by lia. rewrite nth_error_map, P. reflexivity.
    + intros p d' v t T. unfold s_coms. cbn [S su_net]. rewrite CO, demand_app, (demand_new o (win y ih) d (map fst preds) p d' v t ND), (win_eval ih IH y t T).
      replace (ext_ltb (Fin t) ih) with (qltb t h) by (unfold ih, ext_ltb, ext_leb; destruct (qltbP t h), (qlebP h t); try reflexivity; exfalso; qlra).
      assert (OLD : demand old p d' v t = if Nat.eqb p constant then demand old constant d' v t else 0).
      { destruct (Nat.eqb_spec p constant) as [->|NP]; [reflexivity|]. assert (PC : forall c, In c old -> k_pred c = constant) by (intros c I; apply (CS c I)). clear - NP PC. unfold demand. induction old as [|c old IHo]; cbn [map fold_right]; [reflexivity|]. rewrite IHo by (intros c' I; apply PC; right; exact I). rewrite (PC c (or_introl eq_refl)).
        destruct (Nat.eqb_spec constant p) as [Q|_]; [congruence|]. cbn [andb]. ring. }
      rewrite OLD, (DM d' v t T), drawn_sum. fold y. destruct (qltb t h), (Nat.eqb p constant), (existsb (Nat.eqb p) (map fst preds)), (Nat.eqb d d'), (Nat.eqb o v); cbn [andb]; ring.
  - split; [exact OK|]. split; [exact SR|]. split; [exact SV|]. intros n AN CL. apply (C78_no_exception S r n OK SR SV AN CL).
Qed.
Print Assumptions C113_evaluation.

(** With the constant and the zero predictor the flow is computed up to the
    horizon, unless two event times come too close. *)
Theorem C113_returns : forall nw edges ods constant h gauss sigma focused split preds r horizon ord nodes_ord due,
  has_edges nw edges -> well_posed edges ods -> eps < h -> 0 < r ->
  (forall l, Permutation (ord l) l) -> (forall l, Permutation (nodes_ord l) l) ->
  (focused < length ods)%nat -> NoDup (map fst preds) -> In constant (map fst preds) ->
  (forall i p, In (i, p) preds -> (forall t flow, p_predict p t flow = constant_predict t flow) \/ (forall t flow, p_predict p t flow = zero_predict t flow)) ->
  exists net S idx fuel n, add_od_pairs nw ods constant (Fin h) = Ok net /\ eval_setup (nw_getstate net) gauss h sigma focused split preds r ord nodes_ord = Ok (S, idx) /\
    (clean_build S n -> exists m b, build_with_times fuel S horizon idx false due = Ok (m, b) /\ fb_run false S m = Ok b /\ horizon <= f_phi (b_flow b)).
Proof.
  intros nw edges ods constant h gauss sigma focused split preds r horizon ord nodes_ord due HE WP IHH RP ORD NORD FO ND IC PR.
  destruct (nth_error ods focused) as [[[o d] x]|] eqn:EF; [|apply nth_error_None in EF; lia]. assert (NE : preds <> []) by (destruct preds; [destruct IC|discriminate]).
  destruct (C113_evaluation nw edges ods constant h gauss sigma focused o d x split preds r ord nodes_ord HE WP IHH RP ORD NORD EF ND NE) as (net & S & idx & E1 & E2 & SP & _ & TAUS & _ & (s & cmin & _ & _ & _ & _ & _ & LI & (share & _ & _ & TEST) & DM) & OK & SR & SV & RUN).
  assert (TPOS : forall tau, In tau (w_tau (su_net S)) -> 0 < tau). { intros tau I. rewrite TAUS in I. apply in_map_iff in I. destruct I as [[[[a b] t] c] [<- I]]. destruct WP as (_ & POS & _). apply (POS _ _ _ _ I). }
  assert (KEYS : forall c, In c (s_coms S) -> In (k_pred c) (map fst preds)).
  { clear - E2 IC E1 HE WP IHH. intros c I. unfold eval_setup in E2. apply bind_ok in E2. destruct E2 as [[n5 idx'] [E2 Q]]. apply ok_inj in Q. injection Q as <- _. unfold s_coms in I. cbn [su_net] in I.
    unfold eval_network in E2. apply bind_ok in E2. destruct E2 as [n2 [L2 E2]]. apply bind_ok in E2. destruct E2 as [n3 [L3 E2]].
    assert (IH : ext_lt (Fin eps) (Fin h)) by (apply Qclt_not_le; exact IHH). rewrite (stage_add nw edges ods constant (Fin h) HE WP IH) in E1. apply ok_inj in E1. subst net.
    destruct (stage_load nw edges ods constant (Fin h) HE WP) as (n2' & L2' & _ & _ & CP2 & _ & CM2 & _). rewrite L2 in L2'. apply ok_inj in L2'. subst n2'.
    destruct (stage_draw nw edges ods constant (Fin h) HE WP IH n2 gauss sigma CP2 CM2) as (s & _ & L3'). rewrite L3 in L3'. apply ok_inj in L3'.
    assert (CM3 : forall c, In c (w_com n3) -> k_pred c = constant) by (subst n3; cbn [w_com]; intros c' I'; apply in_map_iff in I'; destruct I' as [e [<- _]]; reflexivity). clear L3' L3 L2 CP2 CM2.
    unfold eval_commodities in E2. apply bind_ok in E2. destruct E2 as [c0 [F0 E2]]. destruct (k_sources c0) as [|[src inf] [|]]; try discriminate E2. apply bind_ok in E2. destruct E2 as [[coms dem] [E3 E2]]. apply bind_ok in E2. destruct E2 as [n4 [E4 E2]]. apply ok_inj in E2. injection E2 as <- _. cbn [w_com] in I.
    assert (CC : forall c, In c coms -> k_pred c = constant).
    { destruct split.
      - apply bind_ok in E3. destruct E3 as [vs [_ E3]]. apply bind_ok in E3. destruct E3 as [dd [_ E3]]. apply ok_inj in E3. injection E3 as <- _. intros c' I'. apply CM3, (remove_in _ _ _ I').
      - repeat (apply bind_ok in E3; destruct E3 as [? [_ E3]]). apply ok_inj in E3. injection E3 as <- _. exact CM3. }
    apply in_app_or in I. destruct I as [I|I]; [|apply in_map_iff in I; destruct I as [p [<- I]]; exact I].
    assert (K : k_pred c = constant); [|rewrite K; exact IC]. unfold combine_commodities in E4. cbn [w_com] in E4. apply bind_ok in E4. destruct E4 as [mg [E5 E4]]. apply bind_ok in E4. destruct E4 as [kp [E6 E4]]. apply ok_inj in E4. subst n4. cbn [w_com] in I.
    apply in_app_or in I. destruct I as [I|I].
    - destruct (mapM_In _ _ _ c E5 I) as [[[p d'] l] [IG Q]]. cbn [fst snd] in Q. apply bind_ok in Q. destruct Q as [src' [_ Q]]. apply ok_inj in Q. subst c. cbn [k_pred].
      assert (Z : forall xs gs, (forall q, In q xs -> k_pred (snd q) = constant) -> (forall k l, In (k, l) gs -> fst k = constant) -> forall k l, In (k, l) (fold_left (fun gs (q : nat * commodity) => if mem (fst q) [] then gs else group_add gs (k_pred (snd q), k_sink (snd q)) (fst q)) xs gs) -> fst k = constant).
      { clear. induction xs as [|q xs IHx]; intros gs X G; cbn [fold_left]; [exact G|]. apply IHx; [intros q' I; apply X; right; exact I|]. cbn [mem existsb]. pose proof (X q (or_introl eq_refl)) as Xq. clear IHx X. induction gs as [|[k1 l1] gs IHg]; cbn [group_add].
        - intros k l [Q|[]]. injection Q as <- _. exact Xq.
        - destruct (key_eqb k1 (k_pred (snd q), k_sink (snd q))); intros k l [Q|Q]; [injection Q as <- _; apply (G k1 l1); left; reflexivity|apply (G k l); right; exact Q|injection Q as <- _; apply (G k1 l1); left; reflexivity|]. apply (IHg (fun k l I => G k l (or_intror I)) k l Q). }
      apply (Z (enum coms) [] ltac:(intros [i c'] I'; apply enum_nth in I'; apply CC, (nth_error_In _ _ I')) ltac:(intros k l' []) (p, d') l IG).
    - destruct (mapM_In _ _ _ c E6 I) as [i [_ F]]. unfold fetch in F. destruct (nth_error coms i) eqn:N; [|discriminate F]. apply ok_inj in F. subst. apply CC, (nth_error_In _ _ N). }
  assert (SPD : forall c, In c (s_coms S) -> exists p, dget (su_preds S) (k_pred c) = Some p /\ ((forall t flow, p_predict p t flow = constant_predict t flow) \/ (forall t flow, p_predict p t flow = zero_predict t flow))).
  { intros c I. specialize (KEYS c I). rewrite SP. apply in_map_iff in KEYS. destruct KEYS as [[k p] [Q J]]. cbn [fst] in Q. subst k. exists p. split; [apply (In_dget preds _ p ND J)|apply (PR _ _ J)]. }
  destruct (C87_stops S r OK TPOS horizon idx due) as [fuel [n Q]]. exists net, S, idx, fuel, n. split; [exact E1|]. split; [exact E2|]. intro CL.
  destruct (C78_constant_zero S r n OK SR SV CL SPD) as [b0 Q0]. destruct Q as [[b Q]|[z [Q _]]]; [|congruence]. exists n, b. split; [exact Q|]. destruct (C87_first _ _ _ _ _ _ _ _ Q) as (F1 & F2 & _). auto.
Qed.
Print Assumptions C113_returns.

(** ** The average travel times of the test commodities *)
Section Travel.
Variable h : Qc.
Hypothesis IHH : eps < h.
Lemma win_rates y : 0 <= y -> rates_ok [win y (Fin h)].
Proof.
  intro Y. pose proof (IH' h IHH) as IH. pose proof eps_pos as EP. split.
  - intros f [<-|[]]. split; [apply (win_rvalid _ IH)|]. split; [apply (win_dom _ IH)|]. split; [apply (win_dom _ IH)|]. apply (win_values _ IH), Y.
  - intros a b A B L. assert (T : forall t, In t (0 :: concat (map rc_times [win y (Fin h)])) -> t = 0 \/ t = h) by (cbn; intros t I; intuition congruence). unfold gap. destruct (T a A) as [->| ->], (T b B) as [->| ->]; qlra.
Qed.
Lemma win_acc y : accumulates [win y (Fin h)] (fun t => y * qmin t h).
Proof.
  pose proof (IH' h IHH) as IH. pose proof (h_pos h IHH) as HP. split.
  - replace (qmin 0 h) with 0 by (qmm; qlra). ring.
  - intros a b A AB P. assert (K : h <= a \/ b <= h) by (apply (P (win y (Fin h)) h); [left; reflexivity|right; left; reflexivity]).
    cbn [map fold_right]. unfold value. rewrite (win_eval _ IH y a A). unfold ext_ltb, ext_leb. destruct (qlebP h a) as [Q|Q]; cbn [negb].
    + replace (qmin a h) with h by (qmm; qlra). replace (qmin b h) with h by (qmm; qlra). ring.
    + destruct K as [K|K]; [exfalso; qlra|]. replace (qmin a h) with a by (qmm; qlra). replace (qmin b h) with b by (qmm; qlra). ring.
Qed.
End Travel.
(** They can be computed if the test inflow is positive (always, unless the
    focused commodity is split) -- for outflow rates whose breakpoints are more
    than 1e-9 apart, as in C60. *)
Theorem C113_travel_times : forall outflow i edges share h y H,
  eps < h -> 0 < y -> 0 < H -> demand_until y (Fin h) = Ok share -> (forall e, In e edges -> (e < length outflow)%nat) -> rates_ok (edge_rates outflow i edges) ->
  exists z, avg_travel_time outflow i edges [share] H = Ok z.
Proof.
  intros outflow i edges share h y H IHH Y HP ES LE RO. rewrite (win_init (Fin h) (IH' h IHH)) in ES. apply ok_inj in ES. subst share. pose proof (win_rates h IHH y ltac:(qlra)) as R1. pose proof (win_acc h IHH y) as A1. pose proof (h_pos h IHH) as HH.
  destruct (C60_spec_exists _ R1) as (cin & ain & A1' & A2). destruct (C60_spec_exists _ RO) as (cout & aout & B1 & B2).
  destruct (C60_avg_travel_time outflow i edges [win y (Fin h)] H cin cout ain aout LE R1 RO HP A1' B1 A2 B2) as (Q1 & _).
  eexists. apply Q1. rewrite (accumulates_unique _ _ _ A1' A1 H ltac:(qlra)). assert (P : 0 < qmin H h) by (qmm; qlra). intro Z. generalize dependent (qmin H h). intros q Z P. assert (0 < y * q) by qnra. qlra.
Qed.
Print Assumptions C113_travel_times.

(** Splitting a focused commodity for which no demand was drawn: the flow may be
    computed, but the evaluation always raises. *)
Lemma zero_inflow h H outflow i edges : eps < h -> 0 <= H -> forall z, avg_travel_time outflow i edges [win 0 (Fin h)] H <> Ok z.
Proof.
  intros IHH HP z E. destruct (accumulated _ (win_rates h IHH 0 ltac:(qlra))) as (p & F & E1 & E2 & V & L & Hi & AC & _).
  unfold avg_travel_time in E. apply bind_ok in E. destruct E as [cols [_ E]]. apply bind_ok in E. destruct E as [no [_ E]]. apply bind_ok in E. destruct E as [ao [_ E]]. rewrite E1 in E. cbn [bind] in E. rewrite E2 in E. cbn [bind] in E.
  apply bind_ok in E. destruct E as [a [_ E]]. apply bind_ok in E. destruct E as [b [_ E]]. rewrite (PLProofs.eval_at F H V) in E by (split; [rewrite L; exact HP|rewrite Hi; exact Logic.I]). cbn [bind] in E.
  rewrite (accumulates_unique _ _ _ AC (win_acc h IHH 0) H HP) in E. replace (0 * qmin H h) with 0 in E by ring. discriminate E.
Qed.
Theorem C113_zero_refuted : forall nw edges ods constant h gauss s focused o d x preds r horizon ord nodes_ord log due fuel net res,
  has_edges nw edges -> well_posed edges ods -> eps < h -> 0 < r -> 0 <= horizon ->
  (forall l, Permutation (ord l) l) -> (forall l, Permutation (nodes_ord l) l) ->
  nth_error ods focused = Some (o, d, x) -> NoDup (map fst preds) -> preds <> [] -> gauss focused x s <= 0 ->
  add_od_pairs nw ods constant (Fin h) = Ok net ->
  eval_run fuel (nw_getstate net) gauss h (Some s) focused true preds r horizon ord nodes_ord log due <> Ok res.
Proof.
  intros nw edges ods constant h gauss s focused o d x preds r horizon ord nodes_ord log due fuel net res HE WP IHH RP HP ORD NORD FO ND NE G EN E.
  destruct (C113_evaluation nw edges ods constant h gauss (Some s) focused o d x true preds r ord nodes_ord HE WP IHH RP ORD NORD FO ND NE) as (net' & S & idx & E1 & E2 & _ & _ & _ & _ & (s' & cmin & HS & _ & _ & _ & _ & LI & (share & SH & _ & TEST) & _) & _ & SR & _).
  rewrite EN in E1. apply ok_inj in E1. subst net'. cbn [sigma_of] in HS. subst s'. unfold eval_run in E. rewrite E2 in E. cbn [bind] in E. apply bind_ok in E. destruct E as [[n b] [_ E]]. apply bind_ok in E. destruct E as [tts [E _]].
  destruct preds as [|[p0 q0] preds]; [congruence|]. destruct idx as [|i idx]; [discriminate LI|]. pose proof (TEST 0%nat i p0 eq_refl eq_refl) as T0. cbn [mapM] in E. apply bind_ok in E. destruct E as [z [E _]]. unfold fetch in E. rewrite T0 in E. cbn [bind k_sources k_sink map snd] in E.
  assert (YZ : test_rate true cmin (draw gauss s focused x) (length ((p0, q0) :: preds)) = 0).
  { unfold test_rate, draw. replace (qmax 0 (gauss focused x s)) with 0 by (qmm; qlra). field. apply qn_ne. cbn; lia. }
  cbv zeta in SH. rewrite YZ, (win_init (Fin h) (IH' h IHH)) in SH. apply ok_inj in SH. subst share. exact (zero_inflow h horizon _ _ _ IHH HP z E).
Qed.
Print Assumptions C113_zero_refuted.

(** ** Concrete runs on the sample network with the constant and the zero predictor *)
Definition ex_preds := [(0%nat, mkPred zero_predict true); (1%nat, mkPred constant_predict true)].
Definition ex_eval (gauss : nat -> Qc -> Qc -> Qc) (split : bool) : res (nat * builder * list Qc) :=
  st <- ex_saved ;; eval_run 30 st gauss (qz 12) (Some 1) 0 split ex_preds 1 (qz 5) (fun l => l) (fun l => l) false (fun _ => false).
Example ex_added : match ex_eval (fun _ mu _ => mu) false with Ok (_, _, [a; b]) => (qltb 0 a && qltb 0 b)%bool | _ => false end = true.
Proof. vm_compute. reflexivity. Qed.
Example ex_split : match ex_eval (fun _ mu _ => mu) true with Ok (_, _, [a; b]) => (qltb 0 a && qltb 0 b)%bool | _ => false end = true.
Proof. vm_compute. reflexivity. Qed.
Example ex_zero : match ex_eval (fun _ _ _ => 0) true with Err ZeroDivisionError => true | _ => false end = true.
Proof. vm_compute. reflexivity. Qed.
Example ex_clean : match (st <- ex_saved ;; eval_setup st (fun _ mu _ => mu) (qz 12) (Some 1) 0 true ex_preds 1 (fun l => l) (fun l => l)) with Ok (U, idx) => match fb_run true U 10 with Ok _ => true | Err _ => false end | Err _ => false end = true.
Proof. vm_compute. reflexivity. Qed.
