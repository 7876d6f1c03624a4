(** * C118: with floating-point arithmetic, no history makes DynamicFlow raise anything but an AssertionError *)
From Verif Require Import Base Spec Arrays PL PLProofs RC FRC FRCProofs PQ PQSpec DynFlow DynRun DynFlowProofs DynEvents PropFlow PropFlow2 Rounded RoundedProofs Rnd64 RoundedFlow OptTotal RoundedFlowProofs PropOptimised PropOptimised2.

(** ** Vocabulary *)
(** The difference of two different floats is not rounded to zero (gradual underflow). *)
Definition sub_exact0 (rnd : Qc -> Qc) : Prop := forall x y, float rnd x -> float rnd y -> x <> y -> rnd (x - y) <> 0.
(** All capacities are floats.  Travel times and inflow rates may be any numbers. *)
Definition float_net (rnd : Qc -> Qc) (nw : Net) : Prop := Forall (float rnd) (n_cap nw).
(** [timely_call] of C115, where [max_extension_time] is a float. *)
Definition r_timely_call (rnd : Qc -> Qc) (nw : Net) (phi : Qc) (c : call) : Prop :=
  timely_call nw phi c /\ match c with CExtend _ maxt => float rnd maxt | COutflow _ => True end.
Fixpoint r_timely_from (rnd : Qc -> Qc) (nw : Net) (st : Flow) (cs : list call) : Prop :=
  match cs with
  | [] => True
  | c :: r => r_timely_call rnd nw (f_phi st) c /\ forall st' ch, r_flow_step rnd false nw st c = Ok (st', ch) -> r_timely_from rnd nw st' r
  end.
Definition r_timely_run (rnd : Qc -> Qc) (nw : Net) (cs : list call) : Prop := forall st, r_flow_init nw = Ok st -> r_timely_from rnd nw st cs.
(** A condition on the arguments alone. *)
Fixpoint r_ordered_calls (rnd : Qc -> Qc) (nw : Net) (t : Qc) (cs : list call) : Prop :=
  match cs with
  | [] => True
  | c :: r => r_timely_call rnd nw t c /\ r_ordered_calls rnd nw (match c with CExtend _ maxt => maxt | COutflow _ => t end) r
  end.
Lemma r_timely_step rnd nw phi c : r_timely_call rnd nw phi c ->
  match c with CExtend ni maxt => (forall e d, In (e, d) ni -> (e < length (n_cap nw))%nat) /\ float rnd maxt /\ phi <= maxt | COutflow e => (e < length (n_cap nw))%nat end.
Proof. unfold r_timely_call, timely_call. destruct c; tauto. Qed.

(** ** The theorems *)
(** Without rounding this is the flow of C25 and the other theorems. *)
Lemma bind_ext {A B} (x : res A) (f g : A -> res B) : (forall a, f a = g a) -> bind x f = bind x g.
Proof. intro H. destruct x; [apply H|reflexivity]. Qed.
Lemma bind_eq {A B} (x y : res A) (f g : A -> res B) : x = y -> (forall a, f a = g a) -> bind x f = bind y g.
Proof. intros -> H. apply bind_ext, H. Qed.
Lemma foldM_eq {A B} (f g : A -> B -> res A) l : (forall a b, f a b = g a b) -> forall a, foldM f l a = foldM g l a.
Proof. intro H. induction l as [|b r IH]; intro a; cbn [foldM]; [reflexivity|]. apply bind_eq; [apply H|exact IH]. Qed.
Notation idq := (fun x : Qc => x).
Lemma id_fdiv a b : fdiv idq a b = pydiv a b.
Proof. unfold fdiv. destruct (pydiv a b); reflexivity. Qed.
Ltac bs := repeat match goal with
  | |- ?x = ?x => reflexivity
  | |- bind _ _ = bind _ _ => apply bind_eq; [|intro]
  | |- fdiv _ _ _ = _ => apply id_fdiv
  | |- (if ?b then _ else _) = (if ?b then _ else _) => destruct b
  end.
Lemma id_gradient f i : r_gradient idq true f i = gradient f i.
Proof. unfold r_gradient, gradient, asr. bs. Qed.
Lemma id_ewr f t r : r_eval_with_rank idq true f t r = eval_with_rank f t r.
Proof. unfold r_eval_with_rank, eval_with_rank, asr. cbn [andb]. bs; try apply id_gradient. Qed.
Lemma id_eval f t : r_pl_eval idq true f t = pl_eval f t.
Proof. unfold r_pl_eval, pl_eval, asr. bs; try apply id_ewr. Qed.
Lemma id_efe f t : r_eval_from_end idq true f t = eval_from_end f t.
Proof. unfold r_eval_from_end, eval_from_end, asr. bs; try apply id_ewr. Qed.
Lemma id_ews f t s : r_extend_with_slope idq true f t s = extend_with_slope f t s.
Proof. reflexivity. Qed.
Lemma id_fresh t vs : forall fns, r_ext_fresh idq true fns t vs = ext_fresh fns t vs.
Proof. induction vs as [|[i v] r IH]; intro fns; cbn [r_ext_fresh ext_fresh]; [reflexivity|]. apply bind_eq; [reflexivity|]. intro. apply IH. Qed.
Lemma id_values t vs : forall fns, r_ext_values idq true fns t vs = ext_values fns t vs.
Proof. induction vs as [|[i v] r IH]; intro fns; cbn [r_ext_values ext_values]; [reflexivity|]. apply bind_eq; [reflexivity|]. intro. apply IH. Qed.
Lemma id_zeros t vs : forall tv fns, r_ext_zeros idq true fns t tv vs = ext_zeros fns t tv vs.
Proof. induction tv as [|[i v] r IH]; intro fns; cbn [r_ext_zeros ext_zeros]; [reflexivity|]. destruct (dhas vs i); [apply IH|]. apply bind_eq; [reflexivity|]. intro. apply bind_eq; [reflexivity|]. intro. apply IH. Qed.
Lemma id_frc c t vs s : r_frc_extend idq true c t vs s = frc_extend c t vs s.
Proof.
  unfold r_frc_extend, frc_extend. apply bind_eq; [reflexivity|]. intro it. apply bind_eq; [|intro; reflexivity]. destruct (c_chain c); [apply id_fresh|].
  apply bind_eq; [reflexivity|]. intro. apply bind_eq; [apply id_values|]. intro. apply id_zeros.
Qed.
Lemma id_out st e t v s : r_out_extend idq true st e t v s = out_extend false st e t v s.
Proof. unfold r_out_extend, out_extend, c_extend. cbn [chk andb bind]. apply bind_eq; [reflexivity|]. intro. apply bind_eq; [apply id_frc|reflexivity]. Qed.
Lemma id_queue st e t s : r_queue_extend idq true st e t s = queue_extend false st e t s.
Proof. reflexivity. Qed.
Lemma id_depl st e t : r_assert_depleted idq true st e t = assert_depleted st e t.
Proof.
  unfold r_assert_depleted, assert_depleted. apply bind_eq; [reflexivity|]. intro. apply bind_eq; [apply id_eval|]. intro v.
  assert (E : r_eps1000 idq = eps1000) by (apply Qc_is_canon; vm_compute; reflexivity). rewrite E. reflexivity.
Qed.
Ltac bk := repeat match goal with
  | |- ?x = ?x => reflexivity
  | |- bind _ _ = bind _ _ => apply bind_eq; [|intro]
  | |- fdiv _ _ _ = _ => apply id_fdiv
  | |- r_out_extend _ _ _ _ _ _ _ = _ => apply id_out
  | |- r_queue_extend _ _ _ _ _ _ = _ => apply id_queue
  | |- r_assert_depleted _ _ _ _ _ = _ => apply id_depl
  | |- (if ?b then _ else _) = (if ?b then _ else _) => destruct b
  end.
Lemma id_i nw st e q : r_case_i idq true nw st e q = case_i false nw st e q.
Proof. unfold r_case_i, case_i. bk. Qed.
Lemma id_ii nw st e nf q a : r_case_ii idq true nw st e nf q a = case_ii false nw st e nf q a.
Proof.
  unfold r_case_ii, case_ii. cbn [chk andb bind]. change (r_scale idq) with scale. bk.
Qed.
Lemma id_iii nw st e nf q a : r_case_iii idq true nw st e nf q a = case_iii false nw st e nf q a.
Proof.
  unfold r_case_iii, case_iii. change (r_scale idq) with scale. cbv zeta. bk.
Qed.
Lemma id_edge nw st p : r_extend_edge idq true nw st p = extend_edge false nw st p.
Proof.
  destruct p as [e nf]. unfold r_extend_edge, extend_edge, c_extend. cbn [fst snd chk andb bind]. apply bind_eq; [reflexivity|]. intro c. apply bind_eq; [reflexivity|]. intros [c1 old].
  destruct (rates_eqb old nf); [reflexivity|]. apply bind_eq; [reflexivity|]. intro qe. apply bind_eq; [apply id_efe|]. intro qv. apply bind_eq; [apply id_frc|]. intro c2.
  change (r_rates_sum idq nf) with (rates_sum nf). destruct (qeqb (rates_sum nf) 0); [apply id_i|]. apply bind_eq; [reflexivity|]. intro cap.
  change (r_eps idq) with eps. destruct (_ || _)%bool; [apply id_ii|apply id_iii].
Qed.
Lemma id_deplete st : r_deplete_one idq true st = deplete_one false st.
Proof.
  unfold r_deplete_one, deplete_one. apply bind_eq; [reflexivity|]. intros [d [[e t] ch]]. destruct t as [|q|]; [reflexivity| |reflexivity]. apply bind_eq; [reflexivity|]. intro st1. apply bind_eq; [reflexivity|]. intro f.
  apply bind_eq; [reflexivity|]. intro vl. assert (E : r_eps1000 idq = eps1000) by (apply Qc_is_canon; vm_compute; reflexivity). rewrite E.
  apply bind_eq; [reflexivity|]. intro u. destruct ch as [[[|ct|] [v s]]|]; first [apply id_out|reflexivity].
Qed.
Lemma id_process : forall fuel st, r_process_depletions idq true fuel st = process_depletions fuel false st.
Proof. induction fuel as [|n IH]; intro st; cbn [r_process_depletions process_depletions]; [reflexivity|]. destruct (_ && _)%bool; [|reflexivity]. apply bind_eq; [apply id_deplete|exact IH]. Qed.
Lemma id_extend nw st ni maxt : r_flow_extend idq true nw st ni maxt = flow_extend false nw st ni maxt.
Proof.
  unfold r_flow_extend, flow_extend. apply bind_eq; [apply foldM_eq, id_edge|]. intro st1. destruct (ext_min _ _); try reflexivity. cbv zeta. apply bind_eq; [apply id_process|]. intro. reflexivity.
Qed.
Theorem C118_exact_instance : forall nw calls, r_flow_run (fun x => x) true nw calls = flow_run false nw calls.
Proof.
  intros nw calls. unfold r_flow_run, flow_run. apply bind_eq; [reflexivity|]. induction calls as [|c r IH]; intro st; cbn [r_flow_from flow_from]; [reflexivity|].
  apply bind_eq; [|intros [st' ch]; apply IH]. destruct c; cbn [r_flow_step flow_step]; [apply id_extend|reflexivity].
Qed.
Print Assumptions C118_exact_instance.

(** binary64 is a rounding of the required kind. *)
Lemma mult_1074 x : float rnd64 x -> exists n, x = qz n * pow2 (-1074).
Proof.
  intro F. rewrite <- F, rnd64_at. unfold rnd_at. pose proof (ulp_min x) as U. set (e := ulp_exp x) in *. set (m := nearest_even _). exists (m * 2 ^ (e + 1074))%Z.
  rewrite qz_mul, <- pow2_nat by lia. replace (pow2 e) with (pow2 (e + 1074) * pow2 (-1074)); [ring|]. rewrite <- pow2_add. f_equal. lia.
Qed.
Theorem C118_binary64 : rounding rnd64 /\ sub_exact0 rnd64.
Proof.
  split; [apply rnd64_rounding|]. intros x y FX FY NE. destruct (mult_1074 x FX) as [n ->], (mult_1074 y FY) as [m ->].
  assert (NM : n <> m) by (intros ->; apply NE; reflexivity). replace (qz n * pow2 (-1074) - qz m * pow2 (-1074)) with (qz (n - m) * pow2 (-1074)) by (unfold Z.sub; rewrite qz_add, qz_opp; ring).
  pose proof (pow2_pos (-1074)) as P.
  assert (F1 : rnd64 (qz 1 * pow2 (-1074)) = qz 1 * pow2 (-1074)) by (apply rnd64_fits; [lia|cbn; lia]).
  assert (F2 : rnd64 (qz (-1) * pow2 (-1074)) = qz (-1) * pow2 (-1074)) by (apply rnd64_fits; [lia|cbn; lia]).
  assert (Z1 : qz 1 = 1) by (apply Qc_is_canon; reflexivity). assert (Z2 : qz (-1) = - (1)) by (apply Qc_is_canon; reflexivity).
  destruct (Z.lt_trichotomy n m) as [L|[L|L]]; [|lia|].
  - assert (H : qz (n - m) * pow2 (-1074) <= qz (-1) * pow2 (-1074)) by (apply mul_le, (proj1 (qz_le _ _)); lia).
    apply rnd64_mono in H. rewrite F2, Z2 in H. intro C. rewrite C in H. qlra.
  - assert (H : qz 1 * pow2 (-1074) <= qz (n - m) * pow2 (-1074)) by (apply mul_le, (proj1 (qz_le _ _)); lia).
    apply rnd64_mono in H. rewrite F1, Z1 in H. intro C. rewrite C in H. qlra.
Qed.
Print Assumptions C118_binary64.

Section R.
Variables (rnd : Qc -> Qc) (nw : Net).
Hypotheses (RND : rounding rnd) (SUB : sub_exact0 rnd) (NW : net_ok nw) (FN : float_net rnd nw).
Lemma r_off_from cs : forall st, RoundedFlowProofs.inv rnd nw st -> r_timely_from rnd nw st cs ->
  exists st', r_flow_from rnd false nw st cs = Ok st' /\ RoundedFlowProofs.inv rnd nw st'.
Proof.
  induction cs as [|c r IH]; intros st I T; cbn [r_flow_from]; [eauto|]. destruct T as [T1 T2]. destruct (RoundedFlowProofs.step_tot rnd RND SUB nw NW FN st c I (r_timely_step _ _ _ _ T1)) as ([st1 ch] & E & (I1 & _) & _).
  rewrite E. cbn [bind]. apply IH; [exact I1|apply (T2 st1 ch E)].
Qed.
End R.
(** With assertions off nothing raises, and the queue of every edge can be
    evaluated at every time. *)
Theorem C118_off : forall rnd nw calls, rounding rnd -> sub_exact0 rnd -> net_ok nw -> float_net rnd nw -> r_timely_run rnd nw calls ->
  exists st, r_flow_run rnd false nw calls = Ok st /\ forall e t, (e < length (n_cap nw))%nat -> exists q, r_pl_eval rnd false (queue_of st e) t = Ok q.
Proof.
  intros rnd nw calls RND SUB NW FN T. destruct (RoundedFlowProofs.init_tot rnd RND nw NW) as (st0 & E0 & I0 & _). unfold r_flow_run. rewrite E0. cbn [bind].
  destruct (r_off_from rnd nw RND SUB NW FN calls st0 I0 (T st0 E0)) as (st & E & I). exists st. split; [exact E|]. intros e t L.
  destruct (rtot_eval rnd SUB (queue_of st e) t) as (q & Q & _); [|exists q; exact Q]. eapply Forall_forall; [apply (proj2 (RoundedFlowProofs.iv_q rnd nw st I))|]. unfold queue_of. apply nth_In. rewrite (proj1 (RoundedFlowProofs.iv_q rnd nw st I)). exact L.
Qed.
Print Assumptions C118_off.
(** With assertions on the same flow is returned, or an assertion fails: no
    IndexError, KeyError, ValueError, ZeroDivisionError, and no endless loop. *)
Theorem C118_on : forall rnd nw calls, rounding rnd -> sub_exact0 rnd -> net_ok nw -> float_net rnd nw -> r_timely_run rnd nw calls ->
  r_flow_run rnd true nw calls = r_flow_run rnd false nw calls \/ r_flow_run rnd true nw calls = Err AssertionError.
Proof.
  intros rnd nw calls RND SUB NW FN T. destruct (RoundedFlowProofs.init_tot rnd RND nw NW) as (st0 & E0 & I0 & _). specialize (T st0 E0). unfold r_flow_run. rewrite E0. cbn [bind].
  clear E0. revert st0 I0 T. induction calls as [|c r IH]; intros st0 I0 T; cbn [r_flow_from]; [left; reflexivity|].
  destruct T as [T1 T2]. destruct (RoundedFlowProofs.step_tot rnd RND SUB nw NW FN st0 c I0 (r_timely_step _ _ _ _ T1)) as ([st1 ch] & E & (I1 & _) & C). rewrite E. cbn [bind]. destruct C as [-> | ->]; [cbn [bind]|right; reflexivity].
  apply (IH st1 I1 (T2 st1 ch E)).
Qed.
Print Assumptions C118_on.
(** The hypothesis holds for all calls in order of time. *)
Theorem C118_ordered : forall rnd nw calls, rounding rnd -> sub_exact0 rnd -> net_ok nw -> float_net rnd nw -> r_ordered_calls rnd nw 0 calls -> r_timely_run rnd nw calls.
Proof.
  intros rnd nw calls RND SUB NW FN O st E. destruct (RoundedFlowProofs.init_tot rnd RND nw NW) as (st0 & E0 & I0 & P0). rewrite E in E0. apply ok_inj in E0. subst st0.
  assert (L : f_phi st <= 0) by (rewrite P0; qlra). clear E P0. revert st I0 L O. generalize 0 as t. induction calls as [|c r IH]; intros t st I L O; [exact Logic.I|].
  destruct O as [O1 O2]. assert (T1 : r_timely_call rnd nw (f_phi st) c) by (split; [apply (timely_mono nw _ _ c L (proj1 O1))|apply O1]). split; [exact T1|]. intros st' ch E.
  destruct (RoundedFlowProofs.step_tot rnd RND SUB nw NW FN st c I (r_timely_step _ _ _ _ T1)) as (p & E' & (I' & _ & M) & _).
  rewrite E in E'. apply ok_inj in E'. subst p. cbn [fst] in *. eapply IH; [exact I'| |exact O2]. destruct c; [exact M|rewrite M; exact L].
Qed.
Print Assumptions C118_ordered.
(** Every call moves the time forward, never past [max_extension_time], and the
    new time is a float again. *)
Theorem C118_time : forall rnd nw calls c st st' ch, rounding rnd -> sub_exact0 rnd -> net_ok nw -> float_net rnd nw -> r_timely_run rnd nw (calls ++ [c]) ->
  r_flow_run rnd false nw calls = Ok st -> r_flow_step rnd false nw st c = Ok (st', ch) ->
  float rnd (f_phi st') /\ f_phi st <= f_phi st' /\ match c with CExtend _ maxt => f_phi st' <= maxt | COutflow _ => f_phi st' = f_phi st end.
Proof.
  intros rnd nw calls c st st' ch RND SUB NW FN T E ES. destruct (RoundedFlowProofs.init_tot rnd RND nw NW) as (st0 & E0 & I0 & _). unfold r_flow_run in E. specialize (T st0 E0). rewrite E0 in E. cbn [bind] in E.
  clear E0. revert st0 I0 T E. induction calls as [|c0 r IH]; intros st0 I0 T E; cbn [r_flow_from app] in *.
  - apply ok_inj in E. subst st0. destruct T as [T1 _]. destruct (RoundedFlowProofs.step_tot rnd RND SUB nw NW FN st c I0 (r_timely_step _ _ _ _ T1)) as (p & E' & (I' & A & M) & _).
    rewrite ES in E'. apply ok_inj in E'. subst p. cbn [fst] in *. split; [apply (RoundedFlowProofs.iv_phi rnd nw st' I')|]. split; assumption.
  - destruct T as [T1 T2]. destruct (RoundedFlowProofs.step_tot rnd RND SUB nw NW FN st0 c0 I0 (r_timely_step _ _ _ _ T1)) as ([st1 ch1] & E1 & (I1 & _) & _).
    rewrite E1 in E. cbn [bind] in E. apply (IH st1 I1 (T2 st1 ch1 E1) E).
Qed.
Print Assumptions C118_time.
(** Whatever is rounded, the accumulated outflow of an edge grows at a rate of
    at most the capacity from its last breakpoint on. *)
Theorem C118_capacity : forall rnd nw calls st, rounding rnd -> sub_exact0 rnd -> net_ok nw -> float_net rnd nw -> r_timely_run rnd nw calls ->
  r_flow_run rnd false nw calls = Ok st -> forall e, (e < length (n_cap nw))%nat -> pl_last (c_acc (outflow_of st e)) <= cap_of nw e.
Proof.
  intros rnd nw calls st RND SUB NW FN T E e L. destruct (RoundedFlowProofs.init_tot rnd RND nw NW) as (st0 & E0 & I0 & _). unfold r_flow_run in E. rewrite E0 in E. cbn [bind] in E.
  destruct (r_off_from rnd nw RND SUB NW FN calls st0 I0 (T st0 E0)) as (st1 & E1 & I). rewrite E in E1. apply ok_inj in E1. subst st1.
  unfold outflow_of. pose proof (RoundedFlowProofs.iv_lim rnd nw st I e L) as H. exact H.
Qed.
Print Assumptions C118_capacity.

(** ** Non-vacuity, and where the assertions do fail *)
(** An edge of capacity 3000 with inflow 3500 from time 10^7 to 10^7 + 1: all
    numbers are integers and the exact flow is built without an exception, but
    in binary64 the queue of 500 evaluates to more than 1000 eps at its
    depletion time, and [extend] fails its own assertion. *)
Definition far_net : Net := mkNet [qz 3000] [1].
Definition far_calls : list call :=
  [CExtend [] (qz 10000000); CExtend [(0%nat, [(0%nat, qz 3500)])] (qz 10000001); CExtend [(0%nat, [])] (qz 10000002)].
Definition ok_run (nw : Net) (on : bool) (calls : list call) : bool := match r_flow_run rnd64 on nw calls with Ok _ => true | Err _ => false end.
Theorem C118_assertion_example : net_ok far_net /\ float_net rnd64 far_net /\ r_timely_run rnd64 far_net far_calls /\ valid_run far_net far_calls /\
  clean_run far_net far_calls /\ (exists st, flow_run false far_net far_calls = Ok st) /\
  (exists st, r_flow_run rnd64 false far_net far_calls = Ok st) /\ r_flow_run rnd64 true far_net far_calls = Err AssertionError.
Proof.
  assert (NW : net_ok far_net) by (apply netb_ok; vm_compute; reflexivity).
  assert (F : forall m, (Z.abs m <= 2 ^ 53)%Z -> float rnd64 (qz m)).
  { intros m H. pose proof (rnd64_fits m 0 ltac:(lia) H) as E. rewrite pow2_0 in E. replace (qz m * 1) with (qz m) in E by ring. exact E. }
  assert (FN : float_net rnd64 far_net) by (constructor; [apply F; cbn; lia|constructor]).
  assert (V : valid_run far_net far_calls) by (apply runb_ok; vm_compute; reflexivity).
  assert (CL : clean_run far_net far_calls).
  { unfold clean_run. assert (H : match flow_run true far_net far_calls with Ok _ => true | Err _ => false end = true) by (vm_compute; reflexivity). destruct (flow_run true far_net far_calls); [discriminate|discriminate H]. }
  assert (T : r_timely_run rnd64 far_net far_calls).
  { destruct C118_binary64 as [R S]. apply C118_ordered; try assumption. cbn [r_ordered_calls far_calls]. unfold r_timely_call, timely_call.
    repeat split; try (apply F; cbn; lia); try (intros e d I; cbn in I; destruct I as [I|[]]; injection I as <- _; cbn; lia); try (intros e d []); apply qleb_true; vm_compute; reflexivity. }
  split; [exact NW|]. split; [exact FN|]. split; [exact T|]. split; [exact V|]. split; [exact CL|]. split; [apply (C32_no_exception far_net far_calls NW V CL)|].
  split; [destruct C118_binary64 as [R S]; destruct (C118_off rnd64 far_net far_calls R S NW FN T) as (st & E & _); eauto|].
  destruct C118_binary64 as [R S]. destruct (C118_on rnd64 far_net far_calls R S NW FN T) as [Q|Q]; [|exact Q].
  exfalso. assert (H1 : ok_run far_net true far_calls = false) by (vm_compute; reflexivity). assert (H2 : ok_run far_net false far_calls = true) by (vm_compute; reflexivity).
  unfold ok_run in H1, H2. rewrite Q in H1. rewrite H1 in H2. discriminate.
Qed.
Print Assumptions C118_assertion_example.
(** The same calls at time 0 pass all assertions; and so does a flow with thirds. *)
Definition near_calls : list call :=
  [CExtend [(0%nat, [(0%nat, qz 3500)])] 1; COutflow 0; CExtend [(0%nat, [])] (qz 2); CExtend [(0%nat, [(1%nat, rnd64 (1 / qz 3)); (2%nat, rnd64 (1 / qz 7))])] (qz 4); CExtend [] (qz 9)].
Example C118_ex : r_timely_run rnd64 far_net near_calls /\ ok_run far_net true near_calls = true /\ ok_run far_net false near_calls = true.
Proof.
  split; [|split; vm_compute; reflexivity]. assert (NW : net_ok far_net) by (apply netb_ok; vm_compute; reflexivity).
  assert (F : forall m, (Z.abs m <= 2 ^ 53)%Z -> float rnd64 (qz m)).
  { intros m H. pose proof (rnd64_fits m 0 ltac:(lia) H) as E. rewrite pow2_0 in E. replace (qz m * 1) with (qz m) in E by ring. exact E. }
  assert (FN : float_net rnd64 far_net) by (constructor; [apply F; cbn; lia|constructor]).
  destruct C118_binary64 as [R S]. apply C118_ordered; try assumption. cbn [r_ordered_calls near_calls]. unfold r_timely_call, timely_call.
  assert (F1 : float rnd64 1). { assert (Q : 1 = qz 1) by (apply Qc_is_canon; reflexivity). rewrite Q. apply F. cbn; lia. }
  repeat split; try exact F1; try (apply F; cbn; lia); try (intros e d I; cbn in I; destruct I as [I|[]]; injection I as <- _; cbn; lia); try (intros e d []); try (apply qleb_true; vm_compute; reflexivity); cbn; lia.
Qed.
