(** * FlowBuilder properties C78 (no exception) and C79 (progress) *)
From Verif Require Import Base Spec Arrays PL PLProofs RC FRC DynFlow DynRun Graph GraphSpec GraphProofs FlowBuilder BuilderRun BuilderFlow PropBuilder PropBuilder2
  Predictors RoutesSpec BuilderRoutes3 PropRoutes TotalSpec BuilderTotal DynEdge BuilderProgress.

(** Vocabulary: [setup_ok] BuilderRun.v and [sources_ok] BuilderFlow.v (the
    shape of a setup); [served] and [answers] TotalSpec.v; [clean_build]
    BuilderFlow.v (C73). *)

(** The constructor and the first call of [next] succeed exactly if every sink
    is a node of the network that can be reached from all sources of its
    commodity; otherwise it is an AssertionError. *)
Theorem C78_constructor : forall S r, setup_ok S r -> sources_ok S ->
  (served S <-> exists b, fb_init S = Ok b) /\ (~ served S <-> fb_init S = Err AssertionError).
Proof.
  intros S r OK SR. destruct (init_cases S r OK SR) as [[SV [b E]]|[NS E]]; rewrite E; split; split; try tauto; eauto; try discriminate.
  intros [b Q]. discriminate.
Qed.
Print Assumptions C78_constructor.
(** If the predictors answer with usable predictions, no round raises an
    exception: the only way to lose the guarantee is a queue that is not
    computed cleanly (C73). *)
Theorem C78_no_exception : forall S r n, setup_ok S r -> sources_ok S -> served S -> answers S r n -> clean_build S n ->
  exists b, fb_run false S n = Ok b.
Proof.
  intros S r n OK SR SV AN CL. pose proof (run_total S r OK SR SV n AN) as G. destruct (fb_run true S n) as [b|x] eqn:R; cbn [good] in G.
  - exists b. apply run_uninstr, R.
  - destruct x; contradiction.
Qed.
Print Assumptions C78_no_exception.
(** The constant and the zero predictor always answer. *)
Theorem C78_constant_zero : forall S r n, setup_ok S r -> sources_ok S -> served S -> clean_build S n ->
  (forall c, In c (s_coms S) -> exists p, dget (su_preds S) (k_pred c) = Some p /\
     ((forall t flow, p_predict p t flow = constant_predict t flow) \/ (forall t flow, p_predict p t flow = zero_predict t flow))) ->
  exists b, fb_run false S n = Ok b.
Proof. intros S r n OK SR SV CL SP. apply (C78_no_exception S r n OK SR SV); [|exact CL]. apply simple_answers; assumption. Qed.
Print Assumptions C78_constant_zero.

(** ** C79: every time is reached *)
(** With positive travel times there is no infinite sequence of rounds below
    any time [t] (neither standstill nor converging times), whatever the
    predictors do; no cleanliness is needed. *)
Theorem C79_progress : forall S r, setup_ok S r -> (forall tau, In tau (w_tau (su_net S)) -> 0 < tau) ->
  forall t, exists n, (exists b, fb_run false S n = Ok b /\ t <= f_phi (b_flow b)) \/ (exists x, fb_run false S n = Err x).
Proof.
  intros S r OK TP t. destruct (list_min_pos _ TP) as [d [D1 D2]].
  assert (TAU : forall e, (e < length (n_cap (s_nw S)))%nat -> d <= tau_of (s_nw S) e).
  { intros e L. apply D2. unfold tau_of. cbn [s_nw n_tau]. apply nth_In. pose proof (proj1 (so_net S r OK)) as LE. cbn [s_nw n_tau n_cap] in *. rewrite LE. exact L. }
  destruct (reaches S r OK d D1 TAU false t) as [n R]. exists n. unfold reached in R. destruct (fb_run false S n) as [b|x]; eauto.
Qed.
Print Assumptions C79_progress.
(** Together with C78: a clean computation reaches every time. *)
Theorem C79_reaches : forall S r, setup_ok S r -> sources_ok S -> served S -> (forall tau, In tau (w_tau (su_net S)) -> 0 < tau) ->
  (forall c, In c (s_coms S) -> exists p, dget (su_preds S) (k_pred c) = Some p /\
     ((forall t flow, p_predict p t flow = constant_predict t flow) \/ (forall t flow, p_predict p t flow = zero_predict t flow))) ->
  forall t, exists n, clean_build S n -> exists b, fb_run false S n = Ok b /\ t <= f_phi (b_flow b).
Proof.
  intros S r OK SR SV TP SP t. destruct (C79_progress S r OK TP t) as [n H]. exists n. intro CL. destruct H as [H|[x H]]; [exact H|].
  destruct (C78_constant_zero S r n OK SR SV CL SP) as [b Q]. congruence.
Qed.
Print Assumptions C79_reaches.

(** ** Non-vacuity *)
Example by_served : served by_ /\ served bz.
Proof.
  destruct by_ok as [OK1 [SR1 [_ [OK2 [SR2 _]]]]].
  split; [apply (proj1 (C78_constructor by_ _ OK1 SR1))|apply (proj1 (C78_constructor bz _ OK2 SR2))].
  - destruct (fb_init by_) as [b|x] eqn:E; [eauto|]. exfalso. assert (Q : match fb_init by_ with Ok _ => true | Err _ => false end = true) by (vm_compute; reflexivity). rewrite E in Q. discriminate.
  - destruct (fb_init bz) as [b|x] eqn:E; [eauto|]. exfalso. assert (Q : match fb_init bz with Ok _ => true | Err _ => false end = true) by (vm_compute; reflexivity). rewrite E in Q. discriminate.
Qed.
Example C78_example : exists b, fb_run false bz 12 = Ok b.
Proof.
  destruct by_ok as [_ [_ [_ [OK [SR CL]]]]]. refine (C78_constant_zero bz _ 12 OK SR (proj2 by_served) CL _).
  intros c [<-|[<-|[]]]; exists (mkPred constant_predict false); (split; [reflexivity|left; reflexivity]).
Qed.
(** An unreachable sink: the first round is an AssertionError. *)
Definition bu_net : network := mkNw (w_graph bx_net) (w_cap bx_net) (w_tau bx_net) (map (fun c => mkCom (k_sources c) 1 (k_pred c)) (w_com bx_net)).
Definition bu : setup := mkSetup bu_net [(0%nat, mkPred constant_predict true)] (Some (Q2Qc (1 # 2))) (fun l => l).
Example C78_unserved : fb_init bu = Err AssertionError.
Proof. vm_compute. reflexivity. Qed.
(** Twelve rounds reach time 6. *)
Example C79_example : (forall tau, In tau (w_tau (su_net bz)) -> 0 < tau) /\ exists b, clean_build bz 12 /\ fb_run false bz 12 = Ok b /\ qz 5 <= f_phi (b_flow b).
Proof.
  split; [intros tau H; cbn in H; repeat (destruct H as [<-|H]; [apply qltb_true; vm_compute; reflexivity|]); destruct H|].
  destruct C78_example as [b E]. exists b. split; [apply by_ok|]. split; [exact E|].
  assert (Q : match fb_run false bz 12 with Ok b => qleb (qz 5) (f_phi (b_flow b)) | Err _ => false end = true) by (vm_compute; reflexivity). rewrite E in Q. apply qleb_true, Q.
Qed.
