(** * C89 (importing networks and demands from csv files) and C91 (random demands) *)
From Verif Require Import Base Spec Arrays ArraysProofs PL PLProofs RC RCProofs FRC FRCProofs DynFlow Graph GraphSpec GraphProofs Dijkstra FlowBuilder Eval Eval2 Import DynEdge PropEval8.

(** ** Vocabulary *)
(** [nw] has exactly these edges, in this order: (tail, head, travel time, capacity). *)
Definition has_edges (nw : network) (es : list (nat * nat * Qc * Qc)) : Prop :=
  consistent (w_graph nw) /\ g_rev (w_graph nw) = false /\ arcs (w_graph nw) = map (fun x => fst (fst x)) es /\
  w_tau nw = map (fun x => snd (fst x)) es /\ w_cap nw = map snd es /\ w_com nw = [].
(** The inflow: [x] during [0, ih), nothing afterwards. *)
Definition inflow_until (f : RC) (x : Qc) (ih : ext) : Prop :=
  rvalid f /\ rc_lo f = Fin 0 /\ rc_hi f = PInf /\ forall t, 0 <= t -> rc_eval f t = Ok (if ext_ltb (Fin t) ih then x else 0).

Lemma has_snoc nw es a b tau cap : has_edges nw es -> has_edges (nw_add_edge nw a b tau cap) (es ++ [(a, b, tau, cap)]).
Proof.
  intros (C & R & A & T & K & M). unfold nw_add_edge. split; [apply add_consistent; assumption|]. split; [exact R|]. split; [|cbn [w_tau w_cap w_com]; rewrite !map_app; cbn [map fst snd]; rewrite T, K; auto].
  cbn [w_graph]. rewrite add_arcs by (apply (cs_alive _ C)). rewrite R, A, map_app. reflexivity.
Qed.
Lemma has_empty : has_edges nw_empty [].
Proof. split; [apply empty_consistent|]. repeat split. Qed.

Lemma window_init x ih : 0 <= ih -> rc_init [0; ih] [x; 0] (Fin 0) PInf = Ok (mkRC [0; ih] [x; 0] (Fin 0) PInf).
Proof. intro P. unfold rc_init. change (Z.eqb (zlen [x; 0]) (zlen [0; ih])) with true. cbn [assertb bind forallb ext_leb]. destruct (qlebP 0 ih); [|contradiction]. destruct (qlebP 0 0) as [_|N]; [reflexivity|destruct N; qlra]. Qed.

(** ** Networks *)
Theorem C89_csv : forall rows, length rows <> 1%nat ->
  exists nw, network_from_csv rows = Ok nw /\
    has_edges nw (map (fun r => let s := if qltb 0 (cr_speed r) then cr_speed r else qz 20 in (cr_from r, cr_to r, cr_len r / s, cr_lanes r * s))
                      (filter (fun r => negb (cr_from r =? cr_to r)%nat) rows)).
Proof.
  intros rows L. unfold network_from_csv.
  assert (G : forall rs nw es, has_edges nw es -> exists nw', foldM csv_step rs nw = Ok nw' /\ has_edges nw' (es ++ map (fun r => (cr_from r, cr_to r, cr_len r / csv_speed r, cr_lanes r * csv_speed r)) (filter (fun r => negb (cr_from r =? cr_to r)%nat) rs))).
  { induction rs as [|r rs IH]; intros nw es HE; cbn [foldM filter]; [exists nw; rewrite app_nil_r; auto|].
    assert (NZ : csv_speed r <> 0). { unfold csv_speed. destruct (qltbP 0 (cr_speed r)) as [P|_]; [intro Z; rewrite Z in P; discriminate P|discriminate]. }
    unfold csv_step at 1. rewrite pydiv_ok by exact NZ. cbn [bind]. destruct (cr_from r =? cr_to r)%nat; cbn [bind negb]; [apply IH, HE|].
    destruct (IH _ _ (has_snoc nw es (cr_from r) (cr_to r) (cr_len r / csv_speed r) (cr_lanes r * csv_speed r) HE)) as [nw' [E H]]. exists nw'. split; [exact E|]. cbn [map]. rewrite <- app_assoc in H. exact H. }
  destruct (G rows nw_empty [] has_empty) as [nw [E H]]. exists nw. split; [|exact H]. destruct rows as [|r [|r' rows]]; [exact E|cbn in L; congruence|exact E].
Qed.
Print Assumptions C89_csv.
(** A file with a single row raises. *)
Theorem C89_single_row_refuted : forall r, network_from_csv [r] = Err IndexError.
Proof. reflexivity. Qed.
Print Assumptions C89_single_row_refuted.
(** Positive lengths and lanes give positive travel times and capacities. *)
Theorem C89_positive : forall rows nw, network_from_csv rows = Ok nw -> (forall r, In r rows -> 0 < cr_len r /\ 0 < cr_lanes r) ->
  (forall x, In x (w_tau nw) -> 0 < x) /\ (forall x, In x (w_cap nw) -> 0 < x).
Proof.
  intros rows nw E P. assert (L : length rows <> 1%nat) by (destruct rows as [|r [|]]; [discriminate|discriminate E|discriminate]).
  destruct (C89_csv rows L) as [nw' [E' (_ & _ & _ & T & K & _)]]. rewrite E in E'. apply ok_inj in E'. subst nw'. rewrite map_map in T, K. cbv zeta in T, K. cbn [fst snd] in T, K.
  assert (SP : forall r, 0 < (if qltb 0 (cr_speed r) then cr_speed r else qz 20)) by (intro r; destruct (qltbP 0 (cr_speed r)); [assumption|reflexivity]).
  split; intros x I; [rewrite T in I|rewrite K in I]; apply in_map_iff in I; destruct I as [r [<- I]]; apply filter_In in I; destruct (P r (proj1 I)) as [P1 P2]; specialize (SP r).
  - apply qdiv_pos; assumption.
  - apply qmul_pos; assumption.
Qed.
Print Assumptions C89_positive.
(** The tntp importer keeps every row. *)
Theorem C89_tntp : forall rows, has_edges (import_network rows) (map (fun r => let '(a, b, cap, fft) := r in (a, b, fft, cap)) rows).
Proof.
  intro rows. unfold import_network.
  assert (G : forall rs nw es, has_edges nw es -> has_edges (fold_left (fun nw r => let '(a, b, cap, fft) := r in nw_add_edge nw a b fft cap) rs nw) (es ++ map (fun r => let '(a, b, cap, fft) := r in (a, b, fft, cap)) rs)).
  { induction rs as [|[[[a b] cap] fft] rs IH]; intros nw es HE; cbn [fold_left map]; [rewrite app_nil_r; exact HE|]. specialize (IH _ _ (has_snoc nw es a b fft cap HE)). rewrite <- app_assoc in IH. exact IH. }
  exact (G rows nw_empty [] has_empty).
Qed.
Print Assumptions C89_tntp.

(** ** Demands from csv files: no commodity is ever added *)
Theorem C89_demands_refuted : forall nw rows ih seed dflt amount, consistent (w_graph nw) ->
  (forall nw', add_demands nw rows ih seed dflt amount = Ok nw' -> nw' = nw) /\
  ((forall r, In r rows -> In (fst (fst r)) (node_ids (w_graph nw)) /\ In (snd (fst r)) (node_ids (w_graph nw))) -> length rows <> 1%nat -> 0 <= ih -> xorb seed dflt = true ->
   (exists r, In r rows /\ path (arcs (w_graph nw)) (fst (fst r)) (snd (fst r))) -> add_demands nw rows ih seed dflt amount = Err TypeError).
Proof.
  intros nw rows ih seed dflt amount C.
  assert (ST : forall n i r nw', demand_step ih amount n i r = Ok nw' -> nw' = n).
  { intros n i [[a b] x] nw' E. unfold demand_step in E. destruct (negb (dhas (g_nodes (w_graph n)) a)); [discriminate E|]. destruct (negb (dhas (g_nodes (w_graph n)) b)); [discriminate E|].
    apply bind_ok in E. destruct E as [l [_ E]]. destruct (negb (existsb (Nat.eqb a) l)); [apply ok_inj in E; congruence|]. apply bind_ok in E. destruct E as [f [_ E]]. discriminate E. }
  split.
  - intros nw' E. unfold add_demands in E. destruct (negb seed && negb dflt)%bool; [discriminate E|]. destruct (seed && dflt)%bool; [discriminate E|].
    assert (E2 : foldM (fun nw p => demand_step ih amount nw (fst p) (snd p)) (combine (seq 0 (length rows)) rows) nw = Ok nw') by (destruct rows as [|r [|]]; [exact E|discriminate E|exact E]). clear E.
    revert nw E2 C. generalize (combine (seq 0 (length rows)) rows). induction l as [|p l IH]; intros nw E2 C; cbn [foldM] in E2; [apply ok_inj in E2; congruence|].
    apply bind_ok in E2. destruct E2 as [n1 [E1 E2]]. apply ST in E1. subst n1. apply (IH nw E2 C).
  - intros NI L I0 X [r0 [IR PR]]. unfold add_demands. replace (negb seed && negb dflt)%bool with false by (destruct seed, dflt; try reflexivity; discriminate X). replace (seed && dflt)%bool with false by (destruct seed, dflt; try reflexivity; discriminate X).
    assert (E2 : forall off, foldM (fun nw p => demand_step ih amount nw (fst p) (snd p)) (combine (seq off (length rows)) rows) nw = Err TypeError); [|destruct rows as [|r [|]]; [destruct IR|cbn in L; congruence|exact (E2 0%nat)]].
    clear L. revert NI IR. induction rows as [|r rows IH]; intros NI IR off; [destruct IR|]. cbn [length seq combine foldM]. destruct r as [[a b] x]. destruct (NI _ (or_introl eq_refl)) as [N1 N2]. cbn [fst snd] in *.
    destruct (reaching_spec (w_graph nw) b C N2) as [l [EL [_ ML]]].
    unfold demand_step at 1. rewrite (proj2 (dhas_In _ _) N1), (proj2 (dhas_In _ _) N2). cbn [negb]. rewrite EL. cbn [bind].
    pose proof (window_init (amount off x) ih I0) as RI.
    destruct (existsb (Nat.eqb a) l) eqn:EX; cbn [negb]; [rewrite RI; reflexivity|]. cbn [bind]. destruct IR as [<-|IR].
    + exfalso. cbn [fst snd] in PR. apply ML in PR. assert (T : existsb (Nat.eqb a) l = true) by (apply existsb_exists; exists a; split; [exact PR|apply Nat.eqb_refl]). congruence.
    + apply IH; [intros r I; apply NI; right; exact I|exact IR].
Qed.
Print Assumptions C89_demands_refuted.
(** Giving neither or both of a seed and the demands of the file is rejected; so
    is a file whose first row names a node that is not in the network. *)
Theorem C89_demands_errors : forall nw rows ih seed dflt amount,
  (seed = dflt -> add_demands nw rows ih seed dflt amount = Err ValueError) /\
  (forall r r' rest, rows = r :: r' :: rest -> seed <> dflt -> ~ (In (fst (fst r)) (node_ids (w_graph nw)) /\ In (snd (fst r)) (node_ids (w_graph nw))) ->
   add_demands nw rows ih seed dflt amount = Err KeyError).
Proof.
  intros nw rows ih seed dflt amount. split.
  - intros ->. unfold add_demands. destruct dflt; reflexivity.
  - intros r r' rest -> X N. unfold add_demands. replace (negb seed && negb dflt)%bool with false by (destruct seed, dflt; try reflexivity; congruence). replace (seed && dflt)%bool with false by (destruct seed, dflt; try reflexivity; congruence).
    cbn [length seq combine foldM fst snd]. destruct r as [[a b] x]. cbn [fst snd] in N. unfold demand_step at 1.
    destruct (dhas (g_nodes (w_graph nw)) a) eqn:A; cbn [negb]; [|reflexivity]. destruct (dhas (g_nodes (w_graph nw)) b) eqn:B; cbn [negb]; [|reflexivity].
    exfalso. apply N. split; apply dhas_In; assumption.
Qed.
Print Assumptions C89_demands_errors.

(** ** C91: demands on a time window *)
Theorem C91_window : forall x ih, ext_lt (Fin 0) ih -> exists f, demand_until x ih = Ok f /\ inflow_until f x ih.
Proof.
  intros x [|ih|] P; [exfalso; apply P; exact Logic.I| |].
  - assert (P' : 0 < ih) by (apply Qcnot_le_lt; exact P). clear P. rename P' into P. set (f := mkRC [0; ih] [x; 0] (Fin 0) PInf). exists f. split; [apply window_init; qlra|].
    assert (V : rvalid f). { split; cbn [f rc_times rc_values]; [reflexivity|discriminate| |]. - repeat constructor; exact P. - intros t [<-|[<-|[]]]; split; cbn; auto; qlra. }
    split; [exact V|]. split; [reflexivity|]. split; [reflexivity|]. intros t T. rewrite (reval_at f V t) by (split; [exact T|exact Logic.I]). unfold rc_at, f. cbn [rc_times rc_values hd combine step].
    destruct (qlebP 0 t) as [_|Z]; [|contradiction]. unfold ext_ltb, ext_leb. destruct (qlebP ih t); reflexivity.
  - set (f := mkRC [0] [x] (Fin 0) PInf). exists f.
    assert (V : rvalid f). { split; cbn [f rc_times rc_values]; [reflexivity|discriminate| |]. - repeat constructor. - intros t [<-|[]]; split; cbn; auto; qlra. }
    split; [apply (rc_init_ok f V)|]. split; [exact V|]. split; [reflexivity|]. split; [reflexivity|]. intros t T. rewrite (reval_at f V t) by (split; [exact T|exact Logic.I]). unfold rc_at, f. cbn [rc_times rc_values hd combine step].
    destruct (qlebP 0 t) as [_|Z]; [reflexivity|contradiction].
Qed.
Print Assumptions C91_window.

(** The sources of all commodities in the order of the loop. *)
Definition all_sources (cs : list commodity) : list (nat * RC) := concat (map k_sources cs).
Definition first_rate (f : RC) : Qc := hd 0 (rc_values f).
(** The k-th source gets the k-th draw. *)
Definition redrawn (gauss : nat -> Qc -> Qc -> Qc) (sigma : Qc) (ih : ext) (cs cs' : list commodity) : Prop :=
  map k_sink cs' = map k_sink cs /\ map k_pred cs' = map k_pred cs /\ map (fun c => map fst (k_sources c)) cs' = map (fun c => map fst (k_sources c)) cs /\
  forall n p p', nth_error (all_sources cs) n = Some p -> nth_error (all_sources cs') n = Some p' ->
    inflow_until (snd p') (qmax 0 (gauss n (first_rate (snd p)) sigma)) ih.

Section Gen.
Variables (gauss : nat -> Qc -> Qc -> Qc) (sigma : Qc) (ih : ext).
Hypothesis P : ext_lt (Fin 0) ih.
Lemma gen_sources_ok l : (forall p, In p l -> rc_values (snd p) <> []) -> forall n, exists l', gen_sources gauss sigma ih n l = Ok l' /\ map fst l' = map fst l /\
  forall i p p', nth_error l i = Some p -> nth_error l' i = Some p' -> inflow_until (snd p') (qmax 0 (gauss (n + i)%nat (first_rate (snd p)) sigma)) ih.
Proof.
  induction l as [|[v f] l IH]; intros NE n; cbn [gen_sources]; [exists []; split; [reflexivity|]; split; [reflexivity|]; intros [|i] p p' X; discriminate X|].
  destruct (IH (fun p I => NE p (or_intror I)) (Datatypes.S n)) as [l' [E [M H]]].
  pose proof (NE _ (or_introl eq_refl)) as N1. cbn [snd] in N1. destruct (rc_values f) as [|mu vs] eqn:EV; [congruence|].
  destruct (C91_window (qmax 0 (gauss n mu sigma)) ih P) as [f' [EF HF]].
  unfold gen_source. cbn [snd fst]. rewrite EV. unfold fetch. cbn [nth_error bind]. rewrite EF. cbn [bind]. rewrite E. cbn [bind]. eexists. split; [reflexivity|]. cbn [map fst]. rewrite M. split; [reflexivity|].
  intros [|i] p p' X Y.
  - cbn in X, Y. injection X as <-. injection Y as <-. cbn [snd]. unfold first_rate. rewrite EV, Nat.add_0_r. exact HF.
  - cbn in X, Y. replace (n + Datatypes.S i)%nat with (Datatypes.S n + i)%nat by lia. eapply H; eauto.
Qed.
Lemma gen_coms_ok cs : (forall c p, In c cs -> In p (k_sources c) -> rc_values (snd p) <> []) -> forall n, exists cs', gen_coms gauss sigma ih n cs = Ok cs' /\
  map k_sink cs' = map k_sink cs /\ map k_pred cs' = map k_pred cs /\ map (fun c => map fst (k_sources c)) cs' = map (fun c => map fst (k_sources c)) cs /\
  forall i p p', nth_error (all_sources cs) i = Some p -> nth_error (all_sources cs') i = Some p' -> inflow_until (snd p') (qmax 0 (gauss (n + i)%nat (first_rate (snd p)) sigma)) ih.
Proof.
  induction cs as [|c cs IH]; intros NE n; cbn [gen_coms]; [exists []; repeat (split; [reflexivity|]); intros [|i] p p' X; discriminate X|].
  destruct (gen_sources_ok (k_sources c) (fun p I => NE c p (or_introl eq_refl) I) n) as [s [E1 [M1 H1]]]. rewrite E1. cbn [bind].
  destruct (IH (fun d p I => NE d p (or_intror I)) (n + length (k_sources c))%nat) as [cs' [E2 (M2 & M3 & M4 & H2)]]. rewrite E2. cbn [bind].
  eexists. split; [reflexivity|]. cbn [map k_sink k_pred k_sources]. rewrite M1, M2, M3, M4. repeat (split; [reflexivity|]).
  assert (LS : length s = length (k_sources c)) by (rewrite <- (map_length fst s), M1, map_length; reflexivity).
  intros i p p' X Y. unfold all_sources in X, Y. cbn [map concat k_sources] in X, Y. destruct (le_lt_dec (length (k_sources c)) i) as [G|G].
  - rewrite nth_error_app2 in X by lia. rewrite nth_error_app2 in Y by lia. rewrite LS in Y. replace (n + i)%nat with (n + length (k_sources c) + (i - length (k_sources c)))%nat by lia. eapply H2; eauto.
  - rewrite nth_error_app1 in X by lia. rewrite nth_error_app1 in Y by lia. eapply H1; eauto.
Qed.
End Gen.

(** Seeded random demands change the inflow functions and nothing else; the k-th
    source draws the k-th number. *)
Theorem C91_demands : forall nw gauss ih sigma, ext_lt (Fin 0) ih ->
  (forall c p, In c (w_com nw) -> In p (k_sources c) -> rc_values (snd p) <> []) -> (sigma = None -> w_cap nw <> []) ->
  exists nw' s, generate_network_demands nw gauss ih sigma = Ok nw' /\
    match sigma with Some x => s = x | None => In (s * qz 2) (w_cap nw) /\ forall k, In k (w_cap nw) -> s * qz 2 <= k end /\
    w_graph nw' = w_graph nw /\ w_cap nw' = w_cap nw /\ w_tau nw' = w_tau nw /\ redrawn gauss s ih (w_com nw) (w_com nw').
Proof.
  intros nw gauss ih sigma P NE NC. unfold generate_network_demands.
  assert (S : exists s, match sigma with Some s => Ok s | None => m <- list_minq (w_cap nw) ;; pydiv m (qz 2) end = Ok s /\ match sigma with Some x => s = x | None => In (s * qz 2) (w_cap nw) /\ forall k, In k (w_cap nw) -> s * qz 2 <= k end).
  { destruct sigma as [x|]; [exists x; auto|]. destruct (w_cap nw) as [|k0 ks]; [destruct (NC eq_refl); reflexivity|]. cbn [list_minq bind]. rewrite pydiv_ok by discriminate. eexists. split; [reflexivity|].
    destruct (fold_qmin ks k0) as [M1 M2]. replace (fold_left qmin ks k0 / qz 2 * qz 2) with (fold_left qmin ks k0) by (field; discriminate). auto. }
  destruct S as [s [-> HS]]. cbn [bind]. destruct (gen_coms_ok gauss s ih P (w_com nw) NE 0) as [cs' [-> H]]. cbn [bind]. eexists. exists s. split; [reflexivity|]. cbn [w_graph w_cap w_tau w_com]. repeat (split; [assumption || reflexivity|]). exact H.
Qed.
Print Assumptions C91_demands.
(** Without edges and without a deviation there is no minimum. *)
Theorem C91_no_edges : forall nw gauss ih, w_cap nw = [] -> generate_network_demands nw gauss ih None = Err ValueError.
Proof. intros nw gauss ih E. unfold generate_network_demands. rewrite E. reflexivity. Qed.
Print Assumptions C91_no_edges.

(** ** Concrete cases *)
Definition ex_rows := [mkRow 1 2 (qz 100) (qz 50) (qz 2); mkRow 2 2 (qz 10) (qz 50) (qz 1); mkRow 2 3 (qz 40) 0 (qz 1)].
Example ex_csv : match network_from_csv ex_rows with
  | Ok nw => (arcs (w_graph nw), forallb (fun p => qeqb (fst p) (snd p)) (combine (w_tau nw ++ w_cap nw) [qz 2; qz 2; qz 100; qz 20]), length (w_tau nw)) = ([(1, 2); (2, 3)]%nat, true, 2%nat)
  | Err _ => False end.
Proof. vm_compute. reflexivity. Qed.
Definition ex_nw := import_network [(1%nat, 2%nat, qz 3, 1); (2%nat, 3%nat, qz 4, 1)].
Example ex_demands : add_demands ex_nw [(3%nat, 1%nat, 1); (1%nat, 3%nat, 1)] (qz 5) true false (fun _ x => x) = Err TypeError.
Proof. reflexivity. Qed.
Definition ex_com := mkCom [(1%nat, mkRC [0] [qz 7] (Fin 0) PInf)] 3 0.
Example ex_random : match generate_network_demands (mkNw (w_graph ex_nw) (w_cap ex_nw) (w_tau ex_nw) [ex_com; ex_com]) (fun n mu s => mu + s - qn n * qz 20) (Fin (qz 5)) None with
  | Ok nw => (map (fun c => map (fun p => (fst p, match rc_eval (snd p) (qz 4), rc_eval (snd p) (qz 5) with Ok a, Ok b => (qeqb a (qr 17 2), qeqb a 0, qeqb b 0) | _, _ => (false, false, false) end)) (k_sources c)) (w_com nw))
       = [[(1%nat, (true, false, true))]; [(1%nat, (false, true, true))]]
  | Err _ => False end.
Proof. vm_compute. reflexivity. Qed.
