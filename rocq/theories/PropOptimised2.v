(** * C115: no history makes DynamicFlow raise anything but an AssertionError *)
From Verif Require Import Base Spec Arrays PL RC FRC FRCProofs PQ PQSpec DynFlow DynRun DynFlowProofs DynEvents PropFlow PropFlow2 Predictors Optimised OptProofs OptTotal PropOptimised.

(** ** Vocabulary *)
(** A call at a time not after [max_extension_time], on existing edges.  The
    rates are arbitrary (zero, negative, any commodities), an edge may be
    listed twice. *)
Definition timely_call (nw : Net) (phi : Qc) (c : call) : Prop :=
  match c with
  | CExtend ni maxt => (forall e d, In (e, d) ni -> (e < length (n_cap nw))%nat) /\ phi <= maxt
  | COutflow e => (e < length (n_cap nw))%nat
  end.
(** Every call is timely in the state in which the unchecked code makes it. *)
Fixpoint timely_from (nw : Net) (st : Flow) (cs : list call) : Prop :=
  match cs with
  | [] => True
  | c :: r => timely_call nw (f_phi st) c /\ forall st' ch, o_flow_step nw st c = Ok (st', ch) -> timely_from nw st' r
  end.
Definition timely_run (nw : Net) (cs : list call) : Prop := forall st, o_flow_init nw = Ok st -> timely_from nw st cs.
(** A condition on the arguments alone: existing edges and times that do not decrease, from 0. *)
Fixpoint ordered_calls (nw : Net) (t : Qc) (cs : list call) : Prop :=
  match cs with
  | [] => True
  | c :: r => timely_call nw t c /\ ordered_calls nw (match c with CExtend _ maxt => maxt | COutflow _ => t end) r
  end.
Lemma timely_mono nw phi phi' c : phi <= phi' -> timely_call nw phi' c -> timely_call nw phi c.
Proof. intros L. destruct c as [ni m|e]; cbn; [intros [A B]; split; [exact A|qlra]|auto]. Qed.

(** ** The theorems *)
Lemma off_from nw cs : net_ok nw -> forall st, inv nw st -> timely_from nw st cs -> exists st', o_flow_from nw st cs = Ok st' /\ inv nw st'.
Proof.
  intro NW. induction cs as [|c r IH]; intros st I T; cbn [o_flow_from]; [eauto|]. destruct T as [T1 T2]. destruct (step_tot nw NW st c I T1) as ([st1 ch] & E & (I1 & _) & _).
  rewrite E. cbn [bind]. apply IH; [exact I1|apply (T2 st1 ch E)].
Qed.
(** With assertions off nothing raises, and the queue of every edge can be
    evaluated at every time. *)
Theorem C115_off : forall nw calls, net_ok nw -> timely_run nw calls ->
  exists st, o_flow_run nw calls = Ok st /\ forall e t, (e < length (n_cap nw))%nat -> exists q, o_pl_eval (queue_of st e) t = Ok q.
Proof.
  intros nw calls NW T. destruct (init_tot nw) as (st0 & E0 & [I0 _] & _). unfold o_flow_run. rewrite E0. cbn [bind].
  destruct (off_from nw calls NW st0 I0 (T st0 E0)) as (st & E & I). exists st. split; [exact E|]. intros e t L.
  destruct (tot_eval (queue_of st e) t) as (q & Q & _); [|exists q; exact Q]. eapply Forall_forall; [apply (proj2 (iv_q nw st I))|]. unfold queue_of. apply nth_In. rewrite (proj1 (iv_q nw st I)). exact L.
Qed.
Print Assumptions C115_off.
(** With assertions on the same flow is returned, or an assertion fails: no
    IndexError, KeyError, ValueError, ZeroDivisionError, and no endless loop. *)
Theorem C115_on : forall nw calls, net_ok nw -> timely_run nw calls ->
  flow_run false nw calls = o_flow_run nw calls \/ flow_run false nw calls = Err AssertionError.
Proof.
  intros nw calls NW T. destruct (init_tot nw) as (st0 & E0 & [I0 _] & C0). specialize (T st0 E0). unfold flow_run, o_flow_run. rewrite E0. cbn [bind].
  destruct C0 as [-> | ->]; [cbn [bind]|right; reflexivity]. clear E0. revert st0 I0 T. induction calls as [|c r IH]; intros st0 I0 T; cbn [flow_from o_flow_from]; [left; reflexivity|].
  destruct T as [T1 T2]. destruct (step_tot nw NW st0 c I0 T1) as ([st1 ch] & E & (I1 & _) & C). rewrite E. cbn [bind]. destruct C as [-> | ->]; [cbn [bind]|right; reflexivity].
  destruct (IH st1 I1 (T2 st1 ch E)) as [Q|Q]; rewrite Q; auto.
Qed.
Print Assumptions C115_on.
(** The hypothesis holds for all calls in order of time. *)
Theorem C115_ordered : forall nw calls, net_ok nw -> ordered_calls nw 0 calls -> timely_run nw calls.
Proof.
  intros nw calls NW O st E. destruct (init_tot nw) as (st0 & E0 & [I0 P0] & _). rewrite E in E0. apply ok_inj in E0. subst st0.
  assert (L : f_phi st <= 0) by (rewrite P0; qlra). clear E P0. revert st I0 L O. generalize 0 as t. induction calls as [|c r IH]; intros t st I L O; [exact Logic.I|].
  destruct O as [O1 O2]. pose proof (timely_mono nw _ _ c L O1) as T1. split; [exact T1|]. intros st' ch E. destruct (step_tot nw NW st c I T1) as (p & E' & (I' & _ & M) & _).
  rewrite E in E'. apply ok_inj in E'. subst p. cbn [fst] in *. eapply IH; [exact I'| |exact O2]. destruct c; [exact M|rewrite M; exact L].
Qed.
Print Assumptions C115_ordered.
(** C32 without cleanliness: on a valid history the only exception is an AssertionError. *)
Theorem C32_only_assertions : forall nw calls x, net_ok nw -> valid_run nw calls -> flow_run false nw calls = Err x -> x = AssertionError.
Proof.
  intros nw calls x NW V. destruct (init_tot nw) as (st0 & E0 & [I0 _] & [C0|C0]); unfold flow_run; rewrite C0; cbn [bind]; [|intro Q; congruence].
  specialize (V st0 C0). clear E0 C0. revert st0 I0 V. induction calls as [|c r IH]; intros st I V; cbn [flow_from]; [discriminate|]. destruct V as [V1 V2].
  assert (T1 : timely_call nw (f_phi st) c) by (destruct c as [ni m|e]; [destruct V1 as (_ & A & B); split; [intros e d H; apply (A e d H)|exact B]|exact V1]).
  destruct (step_tot nw NW st c I T1) as ([st1 ch] & _ & (I1 & _) & [C|C]); rewrite C; cbn [bind]; [|intro Q; congruence]. apply (IH st1 I1 (V2 st1 ch C)).
Qed.
Print Assumptions C32_only_assertions.
(** The closed-form predictors that need no division always answer with
    assertions off, at any time, also negative. *)
Theorem C115_predictors : forall nw calls st t, net_ok nw -> timely_run nw calls -> o_flow_run nw calls = Ok st ->
  (exists v, o_constant_predict t st = Ok v /\ length v = length (n_cap nw)) /\ (exists v, o_zero_predict t st = Ok v /\ length v = length (n_cap nw)).
Proof.
  intros nw calls st t NW T E. destruct (init_tot nw) as (st0 & E0 & [I0 _] & _). unfold o_flow_run in E. rewrite E0 in E. cbn [bind] in E.
  destruct (off_from nw calls NW st0 I0 (T st0 E0)) as (st1 & E1 & I). rewrite E in E1. apply ok_inj in E1. subst st1. destruct (iv_q nw st I) as [L F]. split.
  - unfold o_constant_predict. rewrite <- L. clear L. induction F as [|f r Kf Fr IH]; cbn [mapM]; [exists []; split; reflexivity|].
    destruct (tot_eval f t Kf) as (q & -> & _). cbn [bind o_pl_init]. destruct IH as (v & -> & LV). cbn [bind]. eexists. split; [reflexivity|]. cbn [length]. rewrite LV. reflexivity.
  - unfold o_zero_predict, o_pl_init. cbn [bind]. eexists. split; [reflexivity|]. rewrite map_length. exact L.
Qed.
Print Assumptions C115_predictors.

(** ** Non-vacuity *)
(** Without timeliness the unchecked code can raise: going back in time. *)
Definition back_net : Net := mkNet [1] [0].
Definition back_calls : list call :=
  [CExtend [(0%nat, [(0%nat, 1)])] (qz 2); CExtend [] (qz 4); COutflow 0; CExtend [(0%nat, [])] (qz 5); COutflow 0; CExtend [] 1; COutflow 0].
Example C115_back : net_ok back_net /\ o_flow_run back_net back_calls = Err ValueError.
Proof.
  split; [apply netb_ok; vm_compute; reflexivity|].
  assert (H : match o_flow_run back_net back_calls with Err ValueError => true | _ => false end = true) by (vm_compute; reflexivity).
  destruct (o_flow_run back_net back_calls) as [|[]]; try discriminate. reflexivity.
Qed.
(** The history of C32_refuted is in order; so is one with negative rates and an edge listed twice. *)
Definition odd_calls : list call := [CExtend [(0%nat, [(0%nat, - qz 3)]); (0%nat, [(1%nat, qz 20000)])] 1; COutflow 0; CExtend [(0%nat, [(0%nat, qz 5)])] (qz 4)].
Example C115_ex : ordered_calls bad_net 0 bad_calls /\ ordered_calls bad_net 0 odd_calls /\
  flow_run false bad_net bad_calls = Err AssertionError /\ flow_run false bad_net odd_calls = Err AssertionError.
Proof.
  assert (E0 : forall (e : nat) (d : rates) l, In (e, d) l -> forallb (fun p : nat * rates => (fst p <? 1)%nat) l = true -> (e < 1)%nat).
  { intros e d l I H. rewrite forallb_forall in H. specialize (H _ I). apply Nat.ltb_lt in H. exact H. }
  split; [|split; [|split; [apply C32_refuted|]]].
  - cbn [ordered_calls timely_call bad_calls]. repeat split; try (intros e d I; eapply E0; [exact I|vm_compute; reflexivity]); apply qleb_true; vm_compute; reflexivity.
  - cbn [ordered_calls timely_call odd_calls]. repeat split; try (intros e d I; eapply E0; [exact I|vm_compute; reflexivity]); try (apply qleb_true; vm_compute; reflexivity). cbn. lia.
  - assert (H : match flow_run false bad_net odd_calls with Err AssertionError => true | _ => false end = true) by (vm_compute; reflexivity).
    destruct (flow_run false bad_net odd_calls) as [|[]]; try discriminate. reflexivity.
Qed.
