(** * C116: what the assertions do not catch *)
From Verif Require Import Base Spec Arrays PL RC FRC FRCProofs PQ PQSpec DynFlow DynRun DynFlowProofs PropFlow PropFlow2 PropOptimised.

(** On a clean history (no comparison with tolerance eps identifies two
    distinct numbers) a returned flow is right: queues are not negative and
    hold exactly what has entered the edge and not left it. *)
Theorem C116_clean : forall nw calls st e t, net_ok nw -> valid_run nw calls -> clean_run nw calls -> flow_run false nw calls = Ok st ->
  (e < length (n_cap nw))%nat -> 0 <= t -> t <= f_phi st ->
  (exists q, pl_eval (queue_of st e) t = Ok q /\ 0 <= q) /\ lost nw e t st = Ok 0.
Proof.
  intros nw calls st e t NW V C R L T0 T. destruct (C33_queue_nonneg nw calls st e t NW V C R L T) as (q & Q & P & _). split; [eauto|].
  destruct (C35_conservation nw calls st e t NW V C R L T0 T) as (q' & i & o & Q' & I & O & E). unfold lost. unfold cumulative in I, O. rewrite I, O, Q'. cbn [bind].
  f_equal. rewrite E. ring.
Qed.
Print Assumptions C116_clean.

(** Otherwise the code can return, with assertions on, a flow that is wrong by
    any amount. *)
Definition small_net : Net := mkNet [1] [1].
(** A burst shorter than eps: 50 units within eps/2.  The queue function
    forgets it but the depletion plan does not; the one-sided depletion check
    passes, and from the next inflow change on the queue is negative for ever:
    more has left the edge than ever entered. *)
Definition burst_calls : list call :=
  [CExtend [(0%nat, [(0%nat, qz 1000000000000)])] (eps / qz 2); CExtend [(0%nat, [(0%nat, Q2Qc (1 # 2))])] 1; CExtend [] (qz 60);
   CExtend [(0%nat, [(0%nat, Q2Qc (7 # 10))])] (qz 60); CExtend [] (qz 60); CExtend [] (qz 200)].
Theorem C116_negative_refuted : net_ok small_net /\ valid_run small_net burst_calls /\
  exists st, flow_run false small_net burst_calls = Ok st /\ f_phi st = qz 200 /\
    pl_eval (queue_of st 0) (qz 150) = Ok (- Q2Qc (51 # 2)) /\
    exists i o, cumulative (inflow_of st 0) (qz 150) = Ok i /\ cumulative (outflow_of st 0) (qz 151) = Ok o /\ i < o.
Proof.
  split; [apply netb_ok; vm_compute; reflexivity|]. split; [apply runb_ok; vm_compute; reflexivity|].
  assert (H : match flow_run false small_net burst_calls with
              | Ok st => (qeqb (f_phi st) (qz 200) && match pl_eval (queue_of st 0) (qz 150) with Ok q => qeqb q (- Q2Qc (51 # 2)) | Err _ => false end &&
                          match cumulative (inflow_of st 0) (qz 150), cumulative (outflow_of st 0) (qz 151) with Ok i, Ok o => qltb i o | _, _ => false end)%bool
              | Err _ => false end = true) by (vm_compute; reflexivity).
  destruct (flow_run false small_net burst_calls) as [st|]; [|discriminate]. exists st. split; [reflexivity|]. apply andb_prop in H as [H H3]. apply andb_prop in H as [H1 H2].
  split; [apply qeqb_true, H1|]. split.
  - destruct (pl_eval (queue_of st 0) (qz 150)) as [q|]; [|discriminate]. apply qeqb_true in H2. rewrite H2. reflexivity.
  - destruct (cumulative (inflow_of st 0) (qz 150)) as [i|]; [|discriminate]. destruct (cumulative (outflow_of st 0) (qz 151)) as [o|]; [|discriminate].
    exists i, o. split; [reflexivity|]. split; [reflexivity|apply qltb_true, H3].
Qed.
Print Assumptions C116_negative_refuted.
(** Inflow half an eps above the capacity: the queue never grows, the excess
    disappears; after 10^12 time units, 50 units are lost. *)
Definition leak_T : Qc := qz 1000000000000.
Definition leak_calls : list call := [CExtend [(0%nat, [(0%nat, 1 + eps / qz 2)])] (qz 2); CExtend [] leak_T; CExtend [] (leak_T + 1)].
Theorem C116_leak_refuted : net_ok small_net /\ valid_run small_net leak_calls /\
  exists st, flow_run false small_net leak_calls = Ok st /\ leak_T <= f_phi st /\ pl_eval (queue_of st 0) leak_T = Ok 0 /\ lost small_net 0 leak_T st = Ok (qz 50).
Proof.
  split; [apply netb_ok; vm_compute; reflexivity|]. split; [apply runb_ok; vm_compute; reflexivity|].
  assert (H : match flow_run false small_net leak_calls with
              | Ok st => (qleb leak_T (f_phi st) && match pl_eval (queue_of st 0) leak_T with Ok q => qeqb q 0 | Err _ => false end &&
                          match lost small_net 0 leak_T st with Ok x => qeqb x (qz 50) | Err _ => false end)%bool
              | Err _ => false end = true) by (vm_compute; reflexivity).
  destruct (flow_run false small_net leak_calls) as [st|]; [|discriminate]. exists st. split; [reflexivity|]. apply andb_prop in H as [H H3]. apply andb_prop in H as [H1 H2].
  split; [apply qleb_true, H1|]. split.
  - destruct (pl_eval (queue_of st 0) leak_T) as [q|]; [|discriminate]. apply qeqb_true in H2. rewrite H2. reflexivity.
  - destruct (lost small_net 0 leak_T st) as [x|]; [|discriminate]. apply qeqb_true in H3. rewrite H3. reflexivity.
Qed.
Print Assumptions C116_leak_refuted.

(** ** What the assertions do guarantee *)
(** When [extend] processes a depletion with assertions on, it discards less
    than [1000 * eps] of the queue. *)
Theorem C116_discarded : forall st st' d e D ch, dq_pop (f_dq st) = Ok (d, (e, Fin D, ch)) -> deplete_one false st = Ok st' ->
  exists f v, pyget (pl_values f) (-1) = Ok v /\ qabs v < qz 1000 * eps /\
    (exists st1, queue_extend false (set_dq st d) e D 0 = Ok st1 /\ getn (f_q st1) e = Ok f) /\
    pl_values (queue_of st' e) = removelast (pl_values f) ++ [0] /\ pl_times (queue_of st' e) = pl_times f.
Proof.
  intros st st' d e D ch E H. unfold deplete_one in H. rewrite E in H. cbn [bind] in H. apply bind_ok in H as (st1 & E1 & H). apply bind_ok in H as (f & Ef & H).
  apply bind_ok in H as (v & Ev & H). destruct (qltbP (qabs v) eps1000) as [C|C]; [cbn [assertb bind] in H|discriminate]. exists f, v. split; [exact Ev|]. split; [exact C|].
  split; [eauto|]. cbv zeta in H. set (st2 := set_q st1 _) in *.
  assert (NE : pl_values f <> []) by (intro Z; rewrite Z in Ev; discriminate). destruct (DynEvents.getn_inv _ _ _ Ef) as [L _].
  assert (Q : queue_of st' e = queue_of st2 e).
  { destruct ch as [[[|ct|] [x s]]|]; try discriminate; [|apply ok_inj in H; subst st'; reflexivity]. apply DynEvents.out_extend_eff in H. destruct H as (_ & _ & _ & Q & _). unfold queue_of. rewrite Q. reflexivity. }
  rewrite Q. unfold queue_of, st2. cbn [set_q f_q]. rewrite DynEvents.nth_upd_same by exact L. cbn [pl_values pl_times]. split; [|reflexivity].
  destruct (exists_last NE) as (l & a & ->). rewrite RCOps.set_nth_last, removelast_last. reflexivity.
Qed.
Print Assumptions C116_discarded.
(** A collection refuses rates that are not positive, and snapshots more than
    eps before its last one; the functions refuse such times as well. *)
Theorem C116_rejects :
  (forall c t vs s i v, In (i, v) vs -> v <= 0 -> frc_extend c t vs s = Err AssertionError) /\
  (forall c t vs s h r, c_chain c = h :: r -> t + eps < it_time (last r h) -> frc_extend c t vs s = Err AssertionError) /\
  (forall f t v tl, pyget (rc_times f) (-1) = Ok tl -> t < tl - eps -> rc_extend f t v = Err AssertionError) /\
  (forall f t s tl, pyget (pl_times f) (-1) = Ok tl -> t < tl - eps -> extend_with_slope f t s = Err AssertionError).
Proof.
  split; [|split; [|split]].
  - intros c t vs s i v I V. unfold frc_extend, new_item. destruct (forallb (fun p => qltb 0 (snd p)) vs) eqn:F; [|reflexivity].
    rewrite forallb_forall in F. specialize (F _ I). cbn [snd] in F. apply qltb_true in F. exfalso. qlra.
  - intros c t vs s h r E T. unfold frc_extend, new_item. destruct (forallb _ vs); [cbn [assertb bind]|reflexivity]. rewrite E. cbv zeta.
    destruct (qlebP (it_time (last r h)) (t + eps)); [exfalso; qlra|reflexivity].
  - intros f t v tl E T. unfold rc_extend. rewrite E. cbn [bind]. destruct (qlebP (tl - eps) t); [exfalso; qlra|reflexivity].
  - intros f t s tl E T. unfold extend_with_slope. rewrite E. cbn [bind]. destruct (qlebP (tl - eps) t); [exfalso; qlra|reflexivity].
Qed.
Print Assumptions C116_rejects.
