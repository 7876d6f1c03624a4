(** * DynamicFlow properties C32, C33, C35, C36, C62, C63: the flow dynamics *)
From Verif Require Import Base Spec Arrays ArraysProofs PL PLProofs PLEval PLArith PLOps PLOps2 RC RCProofs RCOps FRC FRCProofs FRCExact PQ PQSpec DynFlow DQProofs DynRun DynEvents DynEdge DynFlowProofs PropFlow.

(** ** Vocabulary *)
(** The run is clean: replayed with the instrumentation of DynFlow.v, no
    comparison with tolerance eps identified two distinct numbers. *)
Definition clean_run (nw : Net) (calls : list call) : Prop := flow_run true nw calls <> Err Unclean.
(** [sum(f(t) for f in collection.get_rate_functions())] ; the rate of one
    commodity, [rate_of], is in DynRun.v. *)
Fixpoint sum_evals (fns : list (nat * RC)) (t : Qc) : res Qc :=
  match fns with [] => Ok 0 | (_, f) :: r => v <- rc_eval f t ;; s <- sum_evals r t ;; Ok (v + s) end.
Definition total_rate (c : FRC) (t : Qc) : res Qc := sum_evals (c_fns c) t.
(** [collection.accumulative(t)] *)
Definition cumulative (c : FRC) (t : Qc) : res Qc := pl_eval (c_acc c) t.
(** When flow entering the edge at [t] with queue length [q] leaves it. *)
Definition exit_time (nw : Net) (e : nat) (t q : Qc) : Qc := t + q / cap_of nw e + tau_of nw e.

(** ** Rates of a collection *)
Definition sum_over (K : list nat) (d : rates) : Qc := fold_right (fun k s => rate d k + s) 0 K.
Lemma sum_over_nil K : sum_over K [] = 0.
Proof. induction K as [|k K IH]; cbn [sum_over fold_right]; [reflexivity|]. unfold sum_over in IH. rewrite IH. cbn. ring. Qed.
Lemma sum_over_cons K i x d : NoDup K -> ~ In i (map fst d) -> sum_over K ((i, x) :: d) = sum_over K d + (if in_dec Nat.eq_dec i K then x else 0).
Proof.
  intros N NI. assert (RI : rate d i = 0) by (unfold rate; rewrite (proj2 (dget_None _ _) NI); reflexivity).
  induction K as [|k K IH]; [cbn; ring|]. inversion N as [|? ? N1 N2]; subst. cbn [sum_over fold_right]. fold (sum_over K ((i, x) :: d)). fold (sum_over K d).
  rewrite IH by exact N2. unfold rate at 1. cbn [dget]. destruct (Nat.eqb_spec i k) as [->|NE].
  - destruct (in_dec Nat.eq_dec k K); [contradiction|]. destruct (in_dec Nat.eq_dec k (k :: K)) as [_|C]; [|exfalso; apply C; left; reflexivity]. rewrite RI. ring.
  - fold (rate d k). destruct (in_dec Nat.eq_dec i K) as [I|I]; destruct (in_dec Nat.eq_dec i (k :: K)) as [J|J]; cbn [In] in J; try tauto; try ring.
    exfalso. destruct J as [J|J]; [congruence|contradiction].
Qed.
Lemma sum_over_ok K : NoDup K -> forall d, NoDup (map fst d) -> (forall i, In i (map fst d) -> In i K) -> sum_over K d = rates_sum d.
Proof.
  intros N. induction d as [|[i x] d IH]; cbn [map fst]; intros ND H; [apply sum_over_nil|]. inversion ND as [|? ? N1 N2]; subst.
  rewrite sum_over_cons by assumption. rewrite IH by (auto; intros; apply H; right; assumption). rewrite rates_sum_cons. cbn [snd].
  destruct (in_dec Nat.eq_dec i K) as [_|C]; [ring|]. exfalso. apply C, H. left. reflexivity.
Qed.
Lemma latest_total_sum es : (forall t d x, In (t, d, x) es -> x = rates_sum d) -> forall t, latest_total es t = rates_sum (latest_rates (snaps_of es) t).
Proof.
  induction es as [|[[a d] s] r IH]; intros H t; [reflexivity|]. cbn [latest_total snaps_of map latest fst]. unfold latest_rates. cbn [latest snaps_of map fst].
  fold (snaps_of r). specialize (IH (fun t d x I => H t d x (or_intror I)) t). unfold latest_rates in IH. unfold snaps_of in *.
  destruct (latest (map fst r) t) as [q|]; [exact IH|]. destruct (qleb a t); [|reflexivity]. cbn [snd]. apply (H a d s). left. reflexivity.
Qed.
Lemma total_rate_eq c es T v s t : fstate c es T v s -> 0 <= t -> total_rate c t = Ok (latest_total es t).
Proof.
  intros F Ht. rewrite (latest_total_sum es (fs_sum _ _ _ _ _ F)). set (d := latest_rates (snaps_of es) t).
  assert (E : total_rate c t = Ok (sum_over (map fst (c_fns c)) d)).
  { unfold total_rate. assert (G : forall i f, In (i, f) (c_fns c) -> rc_eval f t = Ok (rate d i)).
    { intros i f I. apply (fn_eval c es T v s i f t F); [|exact Ht]. apply In_dget; [apply (fs_nd _ _ _ _ _ F)|exact I]. }
    revert G. generalize (c_fns c). intro fns. induction fns as [|[i f] fns IH]; intro G; cbn [sum_evals map fst sum_over fold_right]; [reflexivity|].
    rewrite (G i f) by (left; reflexivity). cbn [bind]. rewrite IH by (intros; apply G; right; assumption). reflexivity. }
  rewrite E. f_equal. apply sum_over_ok.
  - apply (fs_nd _ _ _ _ _ F).
  - unfold d, latest_rates. destruct (latest (snaps_of es) t) as [p|] eqn:L; [|constructor].
    apply (fi_snap _ _ _ _ (fs_inv _ _ _ _ _ F) p). apply (latest_some _ _ _ L).
  - intros i I. unfold d, latest_rates in I. destruct (latest (snaps_of es) t) as [p|] eqn:L; [|destruct I].
    pose proof (fi_keys _ _ _ _ (fs_inv _ _ _ _ _ F) p i (proj1 (latest_some _ _ _ L))) as K.
    assert (H1 : dhas (snd p) i = true). { unfold dhas. destruct (dget (snd p) i) eqn:Q; [reflexivity|]. exfalso. apply (proj1 (dget_None _ _) Q I). }
    specialize (K H1). unfold dhas in K. destruct (dget (c_fns c) i) eqn:Q; [|discriminate].
    destruct (in_dec Nat.eq_dec i (map fst (c_fns c))) as [C|C]; [exact C|]. rewrite (proj2 (dget_None _ _) C) in Q. discriminate.
Qed.
Lemma cumulative_eq c es T v s t : fstate c es T v s -> 0 <= t -> cumulative c t = Ok (acc c t).
Proof.
  intros F Ht. pose proof (fs_inv _ _ _ _ _ F) as I. apply eval_at; [apply (fi_av _ _ _ _ I)|]. split; rewrite ?(fi_alo _ _ _ _ I), ?(fi_ahi _ _ _ _ I); [exact Ht|exact Logic.I].
Qed.
(** The accumulated flow over a stretch with constant total. *)
Lemma acc_const c es T v s r : fstate c es T v s -> forall a b, 0 <= a -> a <= b -> (forall t, a <= t -> t < b -> latest_total es t = r) -> acc c b - acc c a = r * (b - a).
Proof.
  intros F. set (cnt := fun a b => length (filter (fun x => qltb a x && qltb x b)%bool (times_of es))).
  assert (H : forall m a b, (cnt a b < m)%nat -> 0 <= a -> a <= b -> (forall t, a <= t -> t < b -> latest_total es t = r) -> acc c b - acc c a = r * (b - a)).
  { induction m as [|m IH]; intros a b C A B R; [lia|].
    destruct (filter (fun x => qltb a x && qltb x b)%bool (times_of es)) as [|x l] eqn:E.
    - destruct (qeqbP a b) as [->|NE]; [ring|]. rewrite <- (R a) by qlra. apply (fx_area _ _ _ _ (fs_x _ _ _ _ _ F)); auto.
      intros x Ix. destruct (qlebP x a) as [Q|Q]; [left; exact Q|]. right. destruct (qlebP b x) as [Q2|Q2]; [exact Q2|]. exfalso.
      assert (In x []); [|contradiction]. rewrite <- E. apply filter_In. split; [exact Ix|]. apply andb_true_iff. split; apply qltb_true; qlra.
    - assert (Ix : In x (x :: l)) by (left; reflexivity). rewrite <- E in Ix. apply filter_In in Ix. destruct Ix as [Ix Bx]. apply andb_true_iff in Bx. destruct Bx as [B1 B2]. apply qltb_true in B1, B2.
      assert (SH : forall a' b', a <= a' -> b' <= b -> ~ (a' < x /\ x < b') -> (cnt a' b' < cnt a b)%nat).
      { intros a' b' H1 H2 H3. unfold cnt. clear -Ix B1 B2 H1 H2 H3. induction (times_of es) as [|y ys IHy]; [destruct Ix|].
        assert (LE : forall ys, (length (filter (fun x => qltb a' x && qltb x b')%bool ys) <= length (filter (fun x => qltb a x && qltb x b)%bool ys))%nat).
        { clear -H1 H2. induction ys as [|z zs IHz]; cbn [filter]; [lia|]. destruct (qltbP a' z), (qltbP z b'), (qltbP a z), (qltbP z b); cbn [andb length]; try lia; exfalso; qlra. }
        cbn [filter]. destruct Ix as [->|Ix].
        - specialize (LE ys). destruct (qltbP a' x), (qltbP x b'), (qltbP a x), (qltbP x b); cbn [andb length]; try lia; exfalso; tauto || qlra.
        - specialize (IHy Ix). destruct (qltbP a' y), (qltbP y b'), (qltbP a y), (qltbP y b); cbn [andb length]; try lia; exfalso; qlra. }
      assert (X1 : acc c x - acc c a = r * (x - a)) by (apply IH; [pose proof (SH a x ltac:(qlra) ltac:(qlra) ltac:(intros [? ?]; qlra)); lia|exact A|qlra|intros; apply R; qlra]).
      assert (X2 : acc c b - acc c x = r * (b - x)) by (apply IH; [pose proof (SH x b ltac:(qlra) ltac:(qlra) ltac:(intros [? ?]; qlra)); lia|qlra|qlra|intros; apply R; qlra]).
      replace (acc c b - acc c a) with ((acc c b - acc c x) + (acc c x - acc c a)) by ring. rewrite X1, X2. ring. }
  intros a b. apply (H (Datatypes.S (cnt a b))). lia.
Qed.

Lemma clean_full nw calls st : net_ok nw -> valid_run nw calls -> clean_run nw calls -> flow_run false nw calls = Ok st -> full nw calls st.
Proof.
  intros NW V C R. pose proof (run_good nw calls NW V) as G. unfold clean_run in C. destruct (flow_run true nw calls) as [st'|x] eqn:E; cbn [good] in G.
  - pose proof (erase_run nw calls st' E) as E'. rewrite R in E'. apply ok_inj in E'. subst st'. exact G.
  - exfalso. destruct x; tauto.
Qed.
Lemma edge_full nw calls st e : net_ok nw -> full nw calls st -> (e < length (n_cap nw))%nat ->
  exists g, ebase (cap_of nw e) (tau_of nw e) (edge_of st e) g (f_phi st) /\ 0 < cap_of nw e /\ 0 <= tau_of nw e.
Proof.
  intros NW [_ G] L. destruct (gi_e _ _ _ G e L) as [g [B _]]. exists g. split; [exact B|]. split; [apply (getcap nw NW e L)|apply (gettau nw NW e L)].
Qed.

(** ** C32: no exception *)
Theorem C32_no_exception : forall nw calls, net_ok nw -> valid_run nw calls -> clean_run nw calls -> exists st, flow_run false nw calls = Ok st.
Proof.
  intros nw calls NW V C. pose proof (run_good nw calls NW V) as G. unfold clean_run in C. destruct (flow_run true nw calls) as [st|x] eqn:E; cbn [good] in G.
  - exists st. apply erase_run. exact E.
  - exfalso. destruct x; tauto.
Qed.
Print Assumptions C32_no_exception.

(** ** C33: queues are non-negative *)
Theorem C33_queue_nonneg : forall nw calls st e t,
  net_ok nw -> valid_run nw calls -> clean_run nw calls -> flow_run false nw calls = Ok st ->
  (e < length (n_cap nw))%nat -> t <= f_phi st ->
  exists q, pl_eval (queue_of st e) t = Ok q /\ 0 <= q /\ (t <= 0 -> q = 0).
Proof.
  intros nw calls st e t NW V C R L Ht. destruct (edge_full nw calls st e NW (clean_full nw calls st NW V C R) L) as [g [B [CP TP]]].
  pose proof (qs_eval _ _ t (b_q _ _ _ _ _ B)) as E. cbn [edge_of e_q] in E. exists (pl_at (queue_of st e) t). split; [exact E|].
  destruct (qlebP t 0) as [Q|Q].
  - pose proof (b_q0 _ _ _ _ _ B t Q) as Z. cbn [edge_of e_q] in Z. rewrite Z. split; [qlra|auto].
  - split; [apply (b_nn _ _ _ _ _ B t); [qlra|exact Ht]|intro; exfalso; qlra].
Qed.
Print Assumptions C33_queue_nonneg.

(** ** C35: conservation on edges *)
Theorem C35_conservation : forall nw calls st e t,
  net_ok nw -> valid_run nw calls -> clean_run nw calls -> flow_run false nw calls = Ok st ->
  (e < length (n_cap nw))%nat -> 0 <= t -> t <= f_phi st ->
  exists q i o, pl_eval (queue_of st e) t = Ok q /\ cumulative (inflow_of st e) t = Ok i /\
    cumulative (outflow_of st e) (t + tau_of nw e) = Ok o /\ q = i - o.
Proof.
  intros nw calls st e t NW V C R L T0 Ht. destruct (edge_full nw calls st e NW (clean_full nw calls st NW V C R) L) as [g [B [CP TP]]].
  exists (pl_at (queue_of st e) t), (acc (inflow_of st e) t), (acc (outflow_of st e) (t + tau_of nw e)).
  split; [apply (qs_eval _ _ t (b_q _ _ _ _ _ B))|]. split; [apply (cumulative_eq _ _ _ _ _ _ (b_in _ _ _ _ _ B) T0)|].
  split; [apply (cumulative_eq _ _ _ _ _ _ (b_out _ _ _ _ _ B)); qlra|]. apply (b_cons _ _ _ _ _ B t T0 Ht).
Qed.
Print Assumptions C35_conservation.
(** The cumulative flows are the integrals of the total rates, starting at 0. *)
Theorem C35_cumulative : forall nw calls st e c,
  net_ok nw -> valid_run nw calls -> clean_run nw calls -> flow_run false nw calls = Ok st ->
  (e < length (n_cap nw))%nat -> c = inflow_of st e \/ c = outflow_of st e ->
  cumulative c 0 = Ok 0 /\
  forall a b r, 0 <= a -> a <= b -> (forall t, a <= t -> t < b -> total_rate c t = Ok r) ->
    exists x y, cumulative c a = Ok x /\ cumulative c b = Ok y /\ y = x + r * (b - a).
Proof.
  intros nw calls st e c NW V C R L Hc. destruct (edge_full nw calls st e NW (clean_full nw calls st NW V C R) L) as [g [B [CP TP]]].
  assert (F : exists es T v s, fstate c es T v s) by (destruct Hc as [-> | ->]; do 4 eexists; [apply (b_in _ _ _ _ _ B)|apply (b_out _ _ _ _ _ B)]).
  destruct F as [es [T [v [s F]]]]. split.
  - rewrite (cumulative_eq _ _ _ _ _ 0 F) by qlra. f_equal. apply (fs_zero _ _ _ _ _ F).
  - intros a b r A AB RT. exists (acc c a), (acc c b). split; [apply (cumulative_eq _ _ _ _ _ _ F A)|]. split; [apply (cumulative_eq _ _ _ _ _ _ F); qlra|].
    assert (X : acc c b - acc c a = r * (b - a)); [|qlra]. apply (acc_const c es T v s r F a b A AB). intros t H1 H2. specialize (RT t H1 H2).
    rewrite (total_rate_eq _ _ _ _ _ t F) in RT by qlra. apply ok_inj in RT. exact RT.
Qed.
Print Assumptions C35_cumulative.

(** ** C36: queues operate at capacity *)
Theorem C36_rates : forall nw calls st e t,
  net_ok nw -> valid_run nw calls -> clean_run nw calls -> flow_run false nw calls = Ok st ->
  (e < length (n_cap nw))%nat -> 0 <= t -> t < f_phi st ->
  exists q i o, pl_eval (queue_of st e) t = Ok q /\ total_rate (inflow_of st e) t = Ok i /\ total_rate (outflow_of st e) (t + tau_of nw e) = Ok o /\
    (0 < q -> o = cap_of nw e) /\ (q = 0 -> o = qmin (cap_of nw e) i).
Proof.
  intros nw calls st e t NW V C R L T0 Ht. destruct (edge_full nw calls st e NW (clean_full nw calls st NW V C R) L) as [g [B [CP TP]]].
  eexists. eexists. eexists. split; [apply (qs_eval _ _ t (b_q _ _ _ _ _ B))|]. split; [apply (total_rate_eq _ _ _ _ _ _ (b_in _ _ _ _ _ B) T0)|].
  split; [apply (total_rate_eq _ _ _ _ _ _ (b_out _ _ _ _ _ B)); qlra|]. apply (b_rate _ _ _ _ _ B t T0 Ht).
Qed.
Print Assumptions C36_rates.
(** Nothing leaves before the travel time, and never more than the capacity. *)
Theorem C36_capacity : forall nw calls st e t,
  net_ok nw -> valid_run nw calls -> clean_run nw calls -> flow_run false nw calls = Ok st ->
  (e < length (n_cap nw))%nat -> 0 <= t -> t < f_phi st + tau_of nw e ->
  exists o, total_rate (outflow_of st e) t = Ok o /\ 0 <= o /\ o <= cap_of nw e /\ (t < tau_of nw e -> o = 0).
Proof.
  intros nw calls st e t NW V C R L T0 Ht. destruct (edge_full nw calls st e NW (clean_full nw calls st NW V C R) L) as [g [B [CP TP]]].
  exists (latest_total (g_out g) t). split; [apply (total_rate_eq _ _ _ _ _ _ (b_out _ _ _ _ _ B) T0)|].
  destruct (qltbP t (tau_of nw e)) as [Q|Q].
  - rewrite (b_early _ _ _ _ _ B t T0 Q). split; [qlra|]. split; [qlra|auto].
  - assert (T1 : 0 <= t - tau_of nw e) by qlra. assert (T2 : t - tau_of nw e < f_phi st) by qlra.
    destruct (b_rate _ _ _ _ _ B (t - tau_of nw e) T1 T2) as [H1 H2]. replace (t - tau_of nw e + tau_of nw e) with t in * by ring.
    pose proof (b_nn _ _ _ _ _ B (t - tau_of nw e) T1 ltac:(qlra)) as NN.
    assert (IN : 0 <= latest_total (g_in g) (t - tau_of nw e)).
    { rewrite (latest_total_sum _ (fs_sum _ _ _ _ _ (b_in _ _ _ _ _ B))). apply sum_nonneg. unfold latest_rates.
      destruct (latest (snaps_of (g_in g)) (t - tau_of nw e)) as [p|] eqn:LA; [|intros ? ? []].
      apply (fi_snap _ _ _ _ (fs_inv _ _ _ _ _ (b_in _ _ _ _ _ B)) p). apply (latest_some _ _ _ LA). }
    destruct (qeqbP (pl_at (e_q (edge_of st e)) (t - tau_of nw e)) 0) as [Z|NZ].
    + rewrite (H2 Z). destruct (qmin_spec (cap_of nw e) (latest_total (g_in g) (t - tau_of nw e))) as [[? ->]|[? ->]]; split; try qlra; split; try qlra; intro; exfalso; qlra.
    + rewrite H1 by qlra. split; [qlra|]. split; [qlra|intro; exfalso; qlra].
Qed.
Print Assumptions C36_capacity.

(** ** C62: first in, first out *)
Theorem C62_fifo : forall nw calls st e t u,
  net_ok nw -> valid_run nw calls -> clean_run nw calls -> flow_run false nw calls = Ok st ->
  (e < length (n_cap nw))%nat -> 0 <= t -> t <= u -> u <= f_phi st ->
  exists q r, pl_eval (queue_of st e) t = Ok q /\ pl_eval (queue_of st e) u = Ok r /\ exit_time nw e t q <= exit_time nw e u r.
Proof.
  intros nw calls st e t u NW V C R L T0 TU UP. destruct (edge_full nw calls st e NW (clean_full nw calls st NW V C R) L) as [g [B [CP TP]]].
  eexists. eexists. split; [apply (qs_eval _ _ t (b_q _ _ _ _ _ B))|]. split; [apply (qs_eval _ _ u (b_q _ _ _ _ _ B))|]. apply (b_fifo _ _ _ _ _ B t u T0 TU UP).
Qed.
Print Assumptions C62_fifo.

(** ** C63: flow leaves in the proportions in which it entered *)
Theorem C63_proportions : forall nw calls st e t i,
  net_ok nw -> valid_run nw calls -> clean_run nw calls -> flow_run false nw calls = Ok st ->
  (e < length (n_cap nw))%nat -> 0 <= t -> t < f_phi st ->
  exists q a ai b bi, pl_eval (queue_of st e) t = Ok q /\
    total_rate (inflow_of st e) t = Ok a /\ rate_of (inflow_of st e) i t = Ok ai /\
    total_rate (outflow_of st e) (exit_time nw e t q) = Ok b /\ rate_of (outflow_of st e) i (exit_time nw e t q) = Ok bi /\
    (0 < a -> 0 < b /\ bi / b = ai / a).
Proof.
  intros nw calls st e t i NW V C R L T0 Ht. destruct (edge_full nw calls st e NW (clean_full nw calls st NW V C R) L) as [g [B [CP TP]]].
  assert (X0 : 0 <= exit_time nw e t (pl_at (queue_of st e) t)).
  { pose proof (b_nn _ _ _ _ _ B t T0 ltac:(qlra)) as NN. pose proof (ex_ge _ _ CP TP _ _ NN). unfold ex in H. cbn [edge_of e_q] in H. unfold exit_time. qlra. }
  do 5 eexists. split; [apply (qs_eval _ _ t (b_q _ _ _ _ _ B))|]. split; [apply (total_rate_eq _ _ _ _ _ _ (b_in _ _ _ _ _ B) T0)|].
  split; [apply (rate_of_eq _ _ _ _ _ i _ (b_in _ _ _ _ _ B) T0)|]. split; [apply (total_rate_eq _ _ _ _ _ _ (b_out _ _ _ _ _ B) X0)|].
  split; [apply (rate_of_eq _ _ _ _ _ i _ (b_out _ _ _ _ _ B) X0)|]. intro A.
  destruct (b_prop _ _ _ _ _ B t T0 Ht A) as [_ [P1 P2]]. cbn [edge_of e_q] in P1, P2. change (exit_time nw e t (pl_at (queue_of st e) t)) with (ex (cap_of nw e) (tau_of nw e) (queue_of st e) t).
  split; [exact P1|]. specialize (P2 i).
  set (b := latest_total (g_out g) (ex (cap_of nw e) (tau_of nw e) (queue_of st e) t)) in *. set (a := latest_total (g_in g) t) in *.
  set (bi := rate (latest_rates (snaps_of (g_out g)) (ex (cap_of nw e) (tau_of nw e) (queue_of st e) t)) i) in *. set (ai := rate (latest_rates (snaps_of (g_in g)) t) i) in *.
  assert (bi = ai * b / a) by (rewrite <- P2; field; qlra). rewrite H. field. split; qlra.
Qed.
Print Assumptions C63_proportions.

(** ** Non-vacuity: the run of PropFlow.v is clean; values of edge 0. *)
Example ex_clean : clean_run ex_net ex_calls.
Proof.
  unfold clean_run. assert (H : match flow_run true ex_net ex_calls with Ok _ => true | Err _ => false end = true) by (vm_compute; reflexivity).
  destruct (flow_run true ex_net ex_calls); [discriminate|discriminate].
Qed.
Definition showq (r : res Qc) : option Q := match r with Ok v => Some (this v) | Err _ => None end.
Example ex_values :
  match flow_run false ex_net ex_calls with
  | Ok st => (this (f_phi st),
      map (fun t => showq (pl_eval (queue_of st 0) t)) [0; 1; qz 2; qz 4; qz 6; qz 10],
      map (fun t => showq (cumulative (inflow_of st 0) t)) [0; 1; qz 2; qz 4; qz 6; qz 10],
      map (fun t => showq (total_rate (outflow_of st 0) t)) [0; 1; qz 2; qz 4; qz 6; qz 12],
      map (fun i => showq (rate_of (outflow_of st 0) i (qz 5))) [0%nat; 1%nat])
  | Err _ => (0%Q, [], [], [], [])
  end = ((20#1)%Q, [Some (0#1); Some (2#1); Some (4#1); Some (3#1); Some (2#1); Some (0#1)]%Q,
         [Some (0#1); Some (3#1); Some (6#1); Some (7#1); Some (8#1); Some (9#1)]%Q,
         [Some (0#1); Some (0#1); Some (1#1); Some (1#1); Some (1#1); Some (0#1)]%Q,
         [Some (1#3); Some (2#3)]%Q).
Proof. vm_compute. reflexivity. Qed.

(** ** C32 does not hold without cleanliness *)
(** An edge of capacity 10^4 with a queue: the inflow stops, and starts again
    half an eps later with rate 5000.  The queue function merges the two
    breakpoints, and the depletion assertion of case iii fails. *)
Definition bad_net : Net := mkNet [qz 10000] [1].
Definition bad_calls : list call :=
  [CExtend [(0%nat, [(0%nat, qz 20000)])] 1; CExtend [(0%nat, [])] (1 + eps / qz 2); CExtend [(0%nat, [(0%nat, qz 5000)])] (qz 3)].
Theorem C32_refuted : net_ok bad_net /\ valid_run bad_net bad_calls /\ flow_run false bad_net bad_calls = Err AssertionError.
Proof.
  split; [apply netb_ok; vm_compute; reflexivity|]. split; [apply runb_ok; vm_compute; reflexivity|].
  assert (H : match flow_run false bad_net bad_calls with Err AssertionError => true | _ => false end = true) by (vm_compute; reflexivity).
  destruct (flow_run false bad_net bad_calls) as [|[]]; try discriminate. reflexivity.
Qed.
Print Assumptions C32_refuted.
