(** * C87: build_with_times (src/utilities/build_with_times.py) *)
From Verif Require Import Base Spec Arrays ArraysProofs PL PLProofs PL2 RC FRC PQ PQSpec DynFlow DynRun Graph GraphSpec GraphProofs Dijkstra BellmanFord FlowBuilder FlowBuilderProofs BuilderRun BuilderProgress Predictors Eval Dataset Eval2 PropTotal PropEval6 BuilderFlow TotalSpec.

Lemma bwt_inv S H obs lg due : forall fuel n b, fb_run false S n = Ok b ->
  forall n' b', bwt_loop fuel S H obs lg due n b = Ok (n', b') ->
  (n <= n')%nat /\ fb_run false S n' = Ok b' /\ H <= f_phi (b_flow b') /\ forall m c, (n <= m < n')%nat -> fb_run false S m = Ok c -> f_phi (b_flow c) < H.
Proof.
  induction fuel as [|fuel IH]; intros n b R n' b' E; cbn [bwt_loop] in E; destruct (qltbP (f_phi (b_flow b)) H) as [C|C]; try discriminate E.
  1,3: apply ok_inj in E; injection E as <- <-; split; [lia|]; split; [exact R|]; split; [qlra|]; intros m c M; lia.
  apply bind_ok in E. destruct E as [b1 [E1 E]]. apply bind_ok in E. destruct E as [x [_ E]].
  assert (R1 : fb_run false S (Datatypes.S n) = Ok b1) by (cbn [fb_run]; rewrite R; exact E1).
  destruct (IH _ _ R1 _ _ E) as [A [B [D F]]]. split; [lia|]. split; [exact B|]. split; [exact D|]. intros m c M RM. destruct (Nat.eq_dec m n) as [->|N]; [congruence|]. apply (F m c); [lia|exact RM].
Qed.
Lemma bwt_quiet S H obs due : forall fuel n b r, bwt_loop fuel S H obs true due n b = Ok r -> bwt_loop fuel S H [] false (fun _ => false) n b = Ok r.
Proof.
  induction fuel as [|fuel IH]; intros n b r E; cbn [bwt_loop] in *; destruct (qltb (f_phi (b_flow b)) H); auto.
  apply bind_ok in E. destruct E as [b1 [-> E]]. apply bind_ok in E. destruct E as [x [_ E]]. cbn [bind andb]. apply IH, E.
Qed.
Lemma bwt_indep S H obs due : forall fuel n b, bwt_loop fuel S H obs false due n b = bwt_loop fuel S H [] false (fun _ => false) n b.
Proof.
  induction fuel as [|fuel IH]; intros n b; cbn [bwt_loop]; destruct (qltb (f_phi (b_flow b)) H); auto.
  destruct (fb_step false S b); [|reflexivity]. cbn [bind andb]. apply IH.
Qed.

(** The flow that is returned is the flow of the first round of [build_flow] with
    phi at or after the horizon; whatever is logged. *)
Theorem C87_first : forall fuel S H obs lg due n b, build_with_times fuel S H obs lg due = Ok (n, b) ->
  fb_run false S n = Ok b /\ H <= f_phi (b_flow b) /\ forall m c, (m < n)%nat -> fb_run false S m = Ok c -> f_phi (b_flow c) < H.
Proof.
  intros fuel S H obs lg due n b E. unfold build_with_times in E. apply bind_ok in E. destruct E as [b0 [E0 E]]. apply bind_ok in E. destruct E as [[n' b'] [E1 E]]. apply bind_ok in E. destruct E as [x [_ E]]. apply ok_inj in E. injection E as -> ->.
  destruct (bwt_inv S H obs lg due fuel 0 b0 E0 n b E1) as [_ [A [B C]]]. split; [exact A|]. split; [exact B|]. intros m c M. apply C. lia.
Qed.
Print Assumptions C87_first.

(** With logging switched off, it always stops: with that flow, or with the error
    raised by [build_flow] in some round. *)
Theorem C87_stops : forall S r, setup_ok S r -> (forall tau, In tau (w_tau (su_net S)) -> 0 < tau) ->
  forall H obs due, exists fuel n, (exists b, build_with_times fuel S H obs false due = Ok (n, b)) \/
    (exists x, fb_run false S n = Err x /\ build_with_times fuel S H obs false due = Err x).
Proof.
  intros S r OK TP H obs due. destruct (C79_progress S r OK TP H) as [N Q].
  assert (L : forall k n b, (n + k = N)%nat -> fb_run false S n = Ok b -> (exists n' b', bwt_loop k S H obs false due n b = Ok (n', b')) \/ exists m x, fb_run false S m = Err x /\ bwt_loop k S H obs false due n b = Err x).
  { induction k as [|k IH]; intros n b E R.
    - assert (n = N) by lia. subst n. destruct Q as [[b' [Q1 Q2]]|[x Q]]; [|congruence]. left. exists N, b. cbn [bwt_loop]. rewrite Q1 in R. apply ok_inj in R. subst b'. destruct (qltbP (f_phi (b_flow b)) H); [qlra|reflexivity].
    - cbn [bwt_loop]. destruct (qltb (f_phi (b_flow b)) H); [|left; eauto].
      destruct (fb_step false S b) as [b1|x] eqn:E1; [|right; exists (Datatypes.S n), x; cbn [fb_run]; rewrite R; auto]. cbn [bind andb]. apply IH; [lia|]. cbn [fb_run]. rewrite R. exact E1. }
  exists N. unfold build_with_times. destruct (fb_init S) as [b0|x] eqn:E0; [|exists 0%nat; right; exists x; auto].
  destruct (L N 0%nat b0) as [[n [b E]]|[m [x [E1 E]]]]; auto; cbn [bind]; rewrite E; [exists n; left; exists b; reflexivity|exists m; right; exists x; auto].
Qed.
Print Assumptions C87_stops.

(** For clean computations with the constant or the zero predictor it returns. *)
Theorem C87_returns : forall S r, setup_ok S r -> sources_ok S -> served S -> (forall tau, In tau (w_tau (su_net S)) -> 0 < tau) ->
  (forall c, In c (s_coms S) -> exists p, dget (su_preds S) (k_pred c) = Some p /\
     ((forall t flow, p_predict p t flow = constant_predict t flow) \/ (forall t flow, p_predict p t flow = zero_predict t flow))) ->
  (forall n, clean_build S n) -> forall H obs due, exists fuel n b, build_with_times fuel S H obs false due = Ok (n, b).
Proof.
  intros S r OK SR SV TP SP CL H obs due. destruct (C87_stops S r OK TP H obs due) as [fuel [n [[b E]|[x [E _]]]]]; [eauto|].
  destruct (C78_constant_zero S r n OK SR SV (CL n) SP) as [b Q]. congruence.
Qed.
Print Assumptions C87_returns.

(** Logging does not change what is returned: if a call that logs returns, the
    quiet call returns the same; and if the quiet call returns after at least one
    round and every log line can be computed, the call that logs returns the same. *)
Theorem C87_logging : forall fuel S H obs due n b,
  (build_with_times fuel S H obs true due = Ok (n, b) -> build_with_times fuel S H [] false (fun _ => false) = Ok (n, b)) /\
  (build_with_times fuel S H obs false due = build_with_times fuel S H [] false (fun _ => false)) /\
  (build_with_times fuel S H [] false (fun _ => false) = Ok (n, b) -> (0 < n)%nat ->
   (forall m c, (m <= n)%nat -> fb_run false S m = Ok c -> exists l, log_line S c obs = Ok l) -> build_with_times fuel S H obs true due = Ok (n, b)).
Proof.
  intros fuel S H obs due n b. unfold build_with_times. destruct (fb_init S) as [b0|x] eqn:E0; [|cbn [bind]; split; [discriminate|]; split; [reflexivity|discriminate]]. cbn [bind]. split; [|split].
  - intro E. apply bind_ok in E. destruct E as [[n' b'] [E1 E]]. apply bwt_quiet in E1. rewrite E1. cbn [bind]. apply bind_ok in E. destruct E as [y [_ E]]. exact E.
  - rewrite bwt_indep. reflexivity.
  - intros E NP LG. apply bind_ok in E. destruct E as [[n' b'] [E1 E]]. cbn [bind] in E. apply ok_inj in E. injection E as -> ->.
    assert (Q : forall k m c, (m <= n)%nat -> fb_run false S m = Ok c -> bwt_loop k S H [] false (fun _ => false) m c = Ok (n, b) -> bwt_loop k S H obs true due m c = Ok (n, b)).
    { induction k as [|k IH]; intros m c M R B; cbn [bwt_loop] in *; destruct (qltb (f_phi (b_flow c)) H); auto.
      apply bind_ok in B. destruct B as [c1 [S1 B]]. rewrite S1. cbn [bind andb] in *.
      assert (R1 : fb_run false S (Datatypes.S m) = Ok c1) by (cbn [fb_run]; rewrite R; exact S1).
      assert (M1 : (Datatypes.S m <= n)%nat) by (apply (bwt_inv S H [] false (fun _ => false) k (Datatypes.S m) c1 R1 n b B)).
      destruct (due m); [destruct (LG _ _ M1 R1) as [l ->]|]; cbn [bind]; apply IH; auto. }
    rewrite (Q fuel 0%nat b0); [|lia|exact E0|exact E1]. cbn [bind]. destruct n as [|n]; [lia|]. cbn [Nat.eqb].
    destruct (LG (Datatypes.S n) b) as [l ->]; [lia| |reflexivity]. apply (bwt_inv S H [] false (fun _ => false) fuel 0 b0 E0 _ _ E1).
Qed.
Print Assumptions C87_logging.

(** With logging switched on a call may raise although the flow could be returned:
    if the flow already reaches the horizon before the first round the last log
    line uses an unbound variable; an observed commodity whose inflow has not
    started yet makes its average travel time divide by zero. *)
Definition late_net : network := mkNw (grun [GAdd 1 2]%nat) [1] [1] [mkCom [(1%nat, mkRC [0; 1; qz 2] [0; qz 2; 0] (Fin 0) PInf)] 2 0].
Definition late_setup : setup := mkSetup late_net [(0%nat, mkPred zero_predict true)] (Some (qz 10)) (fun l => l).
Definition is_okb (r : res (nat * builder)) (n : nat) : bool := match r with Ok (m, _) => (m =? n)%nat | Err _ => false end.
Definition errb {A} (r : res A) (x : exn) : bool := match r, x with Err NameError, NameError => true | Err ZeroDivisionError, ZeroDivisionError => true | _, _ => false end.
Lemma is_okb_ok r n : is_okb r n = true -> exists b, r = Ok (n, b).
Proof. destruct r as [[m b]|x]; [|discriminate]. cbn [is_okb]. intro E. apply Nat.eqb_eq in E. subst. eauto. Qed.
Lemma errb_ok {A} (r : res A) x : errb r x = true -> r = Err x.
Proof. destruct r as [a|[]], x; try discriminate; reflexivity. Qed.
Theorem C87_refuted :
  (forall fuel S H obs due b, build_with_times fuel S H [] false (fun _ => false) = Ok (0%nat, b) -> build_with_times fuel S H obs true due = Err NameError) /\
  (exists b, build_with_times 5 (op_setup 1) 0 [] false (fun _ => false) = Ok (0%nat, b)) /\
  (exists n b, build_with_times 5 late_setup 1 [] false (fun _ => false) = Ok (Datatypes.S n, b)) /\
  build_with_times 5 late_setup 1 [0%nat] true (fun _ => false) = Err ZeroDivisionError.
Proof.
  split; [|split; [|split]].
  - intros fuel S H obs due b E. unfold build_with_times in *. apply bind_ok in E. destruct E as [b0 [-> E]]. cbn [bind]. apply bind_ok in E. destruct E as [[n b'] [E1 E]]. cbn [bind] in E. apply ok_inj in E. injection E as -> ->.
    destruct fuel as [|fuel]; cbn [bwt_loop] in *; destruct (qltb (f_phi (b_flow b0)) H) eqn:Q; try discriminate E1; try (cbn [bind Nat.eqb]; reflexivity).
    exfalso. apply bind_ok in E1. destruct E1 as [b1 [_ E1]]. cbn [bind andb] in E1.
    assert (G : forall k m c n' c', bwt_loop k S H [] false (fun _ => false) m c = Ok (n', c') -> (m <= n')%nat).
    { induction k as [|k IH]; intros m c n' c' E2; cbn [bwt_loop] in E2; destruct (qltb (f_phi (b_flow c)) H); try discriminate E2; try (apply ok_inj in E2; injection E2 as <- <-; lia).
      apply bind_ok in E2. destruct E2 as [c1 [_ E2]]. cbn [bind andb] in E2. apply IH in E2. lia. }
    apply G in E1. lia.
  - apply is_okb_ok. vm_compute. reflexivity.
  - assert (K : match build_with_times 5 late_setup 1 [] false (fun _ => false) with Ok (Datatypes.S _, _) => true | _ => false end = true) by (vm_compute; reflexivity).
    destruct (build_with_times 5 late_setup 1 [] false (fun _ => false)) as [[[|n] b]|]; try discriminate K. eauto.
  - apply errb_ok. vm_compute. reflexivity.
Qed.
Print Assumptions C87_refuted.
(** Non-vacuity: a call that logs every round and returns after several rounds. *)
Example C87_example : exists n b, build_with_times 20 (op_setup 1) (qz 10) [0%nat] true (fun _ => true) = Ok (Datatypes.S (Datatypes.S n), b).
Proof.
  assert (K : match build_with_times 20 (op_setup 1) (qz 10) [0%nat] true (fun _ => true) with Ok (Datatypes.S (Datatypes.S _), _) => true | _ => false end = true) by (vm_compute; reflexivity).
  destruct (build_with_times 20 (op_setup 1) (qz 10) [0%nat] true (fun _ => true)) as [[[|[|n]] b]|]; try discriminate K. eauto.
Qed.
