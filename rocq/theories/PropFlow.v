(** * DynamicFlow properties: C30, C31, C34 *)
From Verif Require Import Base Spec Arrays PL PLProofs PLEval RC FRC FRCProofs PQ PQProofs PQSpec DynFlow DQProofs DynRun DynEvents.

(** ** C30: the depletion queue *)
(** Specification state: for every edge, its scheduled depletion time and the
    planned outflow change, if any. *)
Definition dmap := nat -> option plan.
Inductive dop := DSet (e : nat) (time : Qc) (ch : option (Qc * change_value)) | DRemove (e : nat) | DPop
  | DHas (e : nat) | DLen | DMinDepletion | DMinChange.
Inductive dout := DUnit | DEvent (e : nat) (time : ext) (ch : option (ext * change_value)) | DBool (b : bool) | DNum (n : nat) | DKey (k : ext).
Definition put (m : dmap) (e : nat) (p : option plan) : dmap := fun j => if Nat.eqb e j then p else m j.
Definition fin_change (ch : option (Qc * change_value)) : option (ext * change_value) :=
  match ch with Some (c, v) => Some (Fin c, v) | None => None end.
(** [k] is the least number satisfying P, or +inf if there is none. *)
Definition is_least (P : Qc -> Prop) (k : ext) : Prop :=
  (k = PInf /\ forall x, ~ P x) \/ exists x, k = Fin x /\ P x /\ forall y, P y -> x <= y.
Definition dspec (m : dmap) (o : dop) (m' : dmap) (r : res dout) : Prop :=
  match o with
  | DSet e t ch => r = Ok DUnit /\ forall j, m' j = put m e (Some (t, ch)) j
  | DRemove e => match m e with
                 | Some _ => r = Ok DUnit /\ forall j, m' j = put m e None j
                 | None => r = Err AssertionError /\ forall j, m' j = m j
                 end
  | DPop => ((forall j, m j = None) /\ r = Err IndexError /\ forall j, m' j = m j) \/
            exists e t ch, m e = Some (t, ch) /\ (forall j u c, m j = Some (u, c) -> t <= u) /\
              r = Ok (DEvent e (Fin t) (fin_change ch)) /\ forall j, m' j = put m e None j
  | DHas e => r = Ok (DBool (match m e with Some _ => true | None => false end)) /\ forall j, m' j = m j
  | DLen => exists l, NoDup l /\ (forall e, In e l <-> m e <> None) /\ r = Ok (DNum (length l)) /\ forall j, m' j = m j
  | DMinDepletion => exists k, is_least (fun t => exists e ch, m e = Some (t, ch)) k /\ r = Ok (DKey k) /\ forall j, m' j = m j
  | DMinChange => exists k, is_least (fun c => exists e t v, m e = Some (t, Some (c, v))) k /\ r = Ok (DKey k) /\ forall j, m' j = m j
  end.
Inductive dspec_run : dmap -> list dop -> dmap -> list (res dout) -> Prop :=
  | DS_nil m : dspec_run m [] m []
  | DS_cons m o m1 r os m2 rs : dspec m o m1 r -> dspec_run m1 os m2 rs -> dspec_run m (o :: os) m2 (r :: rs).
(** The modelled class.  No call raises after a mutation. *)
Definition dq_step (q : DQ) (o : dop) : DQ * res dout :=
  match o with
  | DSet e t ch => match dq_set q e t ch with Ok q' => (q', Ok DUnit) | Err x => (q, Err x) end
  | DRemove e => match dq_remove q e with Ok q' => (q', Ok DUnit) | Err x => (q, Err x) end
  | DPop => match dq_pop q with Ok (q', (e, t, ch)) => (q', Ok (DEvent e t ch)) | Err x => (q, Err x) end
  | DHas e => (q, Ok (DBool (dq_has q e)))
  | DLen => (q, Ok (DNum (dq_len q)))
  | DMinDepletion => (q, Ok (DKey (dq_min_depl q)))
  | DMinChange => (q, Ok (DKey (dq_min_change q)))
  end.
Fixpoint dq_run (q : DQ) (os : list dop) : DQ * list (res dout) :=
  match os with [] => (q, []) | o :: r => let (q', x) := dq_step q o in let (q'', xs) := dq_run q' r in (q'', x :: xs) end.

Lemma dq_step_ok q o : dq_ok q -> dq_ok (fst (dq_step q o)) /\ dspec (pend q) o (pend (fst (dq_step q o))) (snd (dq_step q o)).
Proof.
  intro K. destruct o as [e t ch|e| |e| | |]; cbn [dq_step dspec].
  - destruct (dq_set_ok q e t ch K) as [q' [E [K' P']]]. rewrite E. cbn [fst snd]. auto.
  - pose proof (dq_remove_ok q e K) as R. destruct (pend q e).
    + destruct R as [q' [E [K' P']]]. rewrite E. cbn [fst snd]. auto.
    + rewrite R. cbn [fst snd]. auto.
  - destruct (dq_pop_ok q K) as [[N E]|[q' [e [D [ch [E [P [MN [K' [P' _]]]]]]]]]]; rewrite E; cbn [fst snd].
    + split; [exact K|]. left. auto.
    + split; [exact K'|]. right. exists e, D, ch. split; [exact P|]. split; [exact MN|]. split; [reflexivity|exact P'].
  - cbn [fst snd]. split; [exact K|]. rewrite pend_has by exact K. auto.
  - cbn [fst snd]. split; [exact K|]. exists (items (s_entries (d_depl q))). split; [apply (dk_nd1 q K)|]. split.
    + intro e. rewrite <- s_mem_in. change (s_mem e (s_entries (d_depl q))) with (sq_has (d_depl q) e). fold (dq_has q e). rewrite pend_has by exact K.
      destruct (pend q e); split; congruence.
    + split; [|auto]. unfold dq_len, sq_len, items. rewrite map_length. reflexivity.
  - cbn [fst snd]. split; [exact K|]. exists (dq_min_depl q). split; [apply dq_min_depl_ok; exact K|auto].
  - cbn [fst snd]. split; [exact K|]. exists (dq_min_change q). split; [apply dq_min_change_ok; exact K|auto].
Qed.
(** Every history of calls on a new depletion queue is answered as by the map. *)
Theorem C30_coupled : forall ops, exists m, dspec_run (fun _ => None) ops m (snd (dq_run dq_empty ops)).
Proof.
  intro ops. enough (H : forall q, dq_ok q -> exists m, dspec_run (pend q) ops m (snd (dq_run q ops))) by (apply (H dq_empty), dq_empty_ok).
  induction ops as [|o r IH]; intros q K; cbn [dq_run].
  - exists (pend q). constructor.
  - destruct (dq_step_ok q o K) as [K' D]. destruct (dq_step q o) as [q' x]. cbn [fst snd] in *.
    destruct (IH q' K') as [m M]. destruct (dq_run q' r) as [q'' xs]. cbn [snd] in *. exists m. econstructor; eauto.
Qed.
Print Assumptions C30_coupled.
Example C30_example :
  snd (dq_run dq_empty [DSet 1 (qz 5) (Some (qz 7, ([], 0))); DSet 2 (qz 3) None; DSet 1 (qz 4) None; DMinChange; DPop; DRemove 2; DPop; DPop]) =
  [Ok DUnit; Ok DUnit; Ok DUnit; Ok (DKey PInf); Ok (DEvent 2 (Fin (qz 3)) None); Err AssertionError; Ok (DEvent 1 (Fin (qz 4)) None); Err IndexError].
Proof. vm_compute. reflexivity. Qed.

(** ** C31: time advances to the next outflow change, which is reported *)
Theorem C31_extend : forall nw calls st new_inflow maxt st' changed,
  net_ok nw -> valid_run nw calls -> flow_run false nw calls = Ok st ->
  valid_call nw st (CExtend new_inflow maxt) ->
  flow_extend false nw st new_inflow maxt = Ok (st', changed) ->
  f_phi st <= f_phi st' /\ f_phi st' <= maxt /\
  (f_phi st' = maxt \/ changed <> []) /\
  forall e, exists new, out_chain st' e = out_chain st e ++ new /\
    (* no outflow change after the old phi lies before the new phi *)
    (* and new ones are at least the travel time later than the old phi *)
    (forall t, In t (out_times new) -> f_phi st' <= t /\ f_phi st + tau_of nw e <= t) /\
    (forall t, In t (out_times (out_chain st e)) -> f_phi st < t -> f_phi st' <= t) /\
    (* e is reported iff its outflow changes at the new phi (not reported before) *)
    (In e changed <-> In (f_phi st') (out_times new) \/ (f_phi st < f_phi st' /\ In (f_phi st') (out_times (out_chain st e)))).
Proof.
  intros nw calls st ni maxt st' ch NW V R VC E. pose proof (run_events nw NW calls st V R) as EV.
  set (cs := calls ++ [CExtend ni maxt]).
  assert (EV' : evinv nw cs st) by (eapply evinv_more; [|exact EV]; intros; apply in_or_app; auto).
  destruct VC as [_ [V1 V2]].
  apply (extend_events nw NW false cs st ni maxt st' ch EV') in E; [|apply in_or_app; right; left; reflexivity|intros e d I; apply (V1 e d I)|exact V2].
  unfold extend_spec in E. tauto.
Qed.
Print Assumptions C31_extend.
(** If time advances, the reported edges are those with an outflow snapshot at the new time. *)
Theorem C31_reported : forall nw calls st new_inflow maxt st' changed,
  net_ok nw -> valid_run nw calls -> flow_run false nw calls = Ok st ->
  valid_call nw st (CExtend new_inflow maxt) ->
  flow_extend false nw st new_inflow maxt = Ok (st', changed) -> f_phi st < f_phi st' ->
  forall e, In e changed <-> In (f_phi st') (out_times (out_chain st' e)).
Proof.
  intros nw calls st ni maxt st' ch NW V R VC E LT e.
  destruct (C31_extend nw calls st ni maxt st' ch NW V R VC E) as [_ [_ [_ H]]]. destruct (H e) as [new [H1 [_ [_ H2]]]].
  rewrite H2, H1. unfold out_times. rewrite map_app, in_app_iff. tauto.
Qed.
Print Assumptions C31_reported.

(** ** C34: outflow snapshots respect the capacity and the proportions of the inflow *)
Theorem C34_snapshots : forall nw calls st e it,
  net_ok nw -> valid_run nw calls -> flow_run false nw calls = Ok st -> In it (out_chain st e) ->
  it_vals it = [] \/
  exists nf, fed calls e nf /\ rates_sum (it_vals it) <= cap_of nw e /\
    exists f, 0 < f /\ forall i, rate (it_vals it) i = f * rate nf i.
Proof.
  intros nw calls st e it NW V R I. pose proof (run_events nw NW calls st V R) as EV.
  destruct (ev_out _ _ _ EV e it I) as [Q|[nf [F [f [F1 [F2 F3]]]]]]; [left; exact Q|right].
  exists nf. split; [exact F|]. split; [exact F3|]. exists f. auto.
Qed.
Print Assumptions C34_snapshots.

(** An example: two edges; edge 0 has capacity 1 and travel time 2 and gets
    inflow 3 (two commodities, 1:2) until 2, then 1/2, then nothing. *)
Definition ex_net : Net := mkNet [1; qz 2] [qz 2; 0].
Definition ex_calls : list call :=
  [CExtend [(0%nat, [(0%nat, 1); (1%nat, qz 2)])] (qz 2);
   CExtend [(0%nat, [(0%nat, qr 1 2)]); (1%nat, [(1%nat, 1)])] (qz 4); COutflow 0; COutflow 1;
   CExtend [(1%nat, [])] (qz 20); COutflow 0; CExtend [] (qz 20); CExtend [(0%nat, [])] (qz 20); CExtend [] (qz 20)].

(** Deciding validity of concrete calls. *)
Fixpoint nodup_nat (l : list nat) : bool := match l with [] => true | x :: r => (negb (existsb (Nat.eqb x) r) && nodup_nat r)%bool end.
Lemma nodup_nat_ok l : nodup_nat l = true -> NoDup l.
Proof.
  induction l as [|x r IH]; cbn [nodup_nat]; intro H; [constructor|]. apply andb_true_iff in H. destruct H as [H1 H2]. constructor; [|auto].
  intro I. apply negb_true_iff in H1. assert (existsb (Nat.eqb x) r = true); [|congruence]. apply existsb_exists. exists x. split; [exact I|apply Nat.eqb_refl].
Qed.
Definition snapb (d : rates) : bool := (nodup_nat (map fst d) && forallb (fun p => qltb 0 (snd p)) d)%bool.
Lemma snapb_ok d : snapb d = true -> is_snapshot d.
Proof.
  intro H. apply andb_true_iff in H. destruct H as [H1 H2]. split; [apply nodup_nat_ok; exact H1|].
  intros i v I. apply (proj1 (forallb_forall _ _)) with (x := (i, v)) in H2; auto. apply qltb_true in H2. exact H2.
Qed.
Definition callb (nw : Net) (st : Flow) (c : call) : bool :=
  match c with
  | CExtend ni maxt => (nodup_nat (map fst ni) && forallb (fun p => (fst p <? length (n_cap nw))%nat && snapb (snd p)) ni && qleb (f_phi st) maxt)%bool
  | COutflow e => (e <? length (n_cap nw))%nat
  end.
Lemma callb_ok nw st c : callb nw st c = true -> valid_call nw st c.
Proof.
  destruct c as [ni maxt|e]; cbn [callb valid_call]; [|apply Nat.ltb_lt]. intro H. apply andb_true_iff in H. destruct H as [H H3].
  apply andb_true_iff in H. destruct H as [H1 H2]. split; [apply nodup_nat_ok; exact H1|]. split; [|apply qleb_true; exact H3].
  intros e d I. apply (proj1 (forallb_forall _ _)) with (x := (e, d)) in H2; auto. apply andb_true_iff in H2. cbn [fst snd] in H2.
  split; [apply Nat.ltb_lt, H2|apply snapb_ok, H2].
Qed.
Fixpoint fromb (nw : Net) (st : Flow) (cs : list call) : bool :=
  match cs with
  | [] => true
  | c :: r => (callb nw st c && match flow_step false nw st c with Ok (st', _) => fromb nw st' r | Err _ => true end)%bool
  end.
Lemma fromb_ok nw : forall cs st, fromb nw st cs = true -> valid_from nw st cs.
Proof.
  induction cs as [|c r IH]; intros st H; cbn [fromb valid_from] in *; [exact Logic.I|]. apply andb_true_iff in H. destruct H as [H1 H2].
  split; [apply callb_ok; exact H1|]. intros st' ch E. rewrite E in H2. apply IH. exact H2.
Qed.
Definition runb (nw : Net) (cs : list call) : bool := match flow_init nw with Ok st => fromb nw st cs | Err _ => true end.
Lemma runb_ok nw cs : runb nw cs = true -> valid_run nw cs.
Proof. unfold runb, valid_run. intros H st E. rewrite E in H. apply fromb_ok. exact H. Qed.
Definition netb (nw : Net) : bool :=
  (Nat.eqb (length (n_tau nw)) (length (n_cap nw)) && forallb (fun c => qltb 0 c) (n_cap nw) && forallb (fun c => qleb 0 c) (n_tau nw))%bool.
Lemma netb_ok nw : netb nw = true -> net_ok nw.
Proof.
  intro H. apply andb_true_iff in H. destruct H as [H H3]. apply andb_true_iff in H. destruct H as [H1 H2]. apply Nat.eqb_eq in H1.
  split; [exact H1|]. split.
  - intros c I. apply qltb_true. apply (proj1 (forallb_forall _ _) H2 c I).
  - intros c I. apply qleb_true. apply (proj1 (forallb_forall _ _) H3 c I).
Qed.
(** The example run is valid, and phi, the outflow snapshots of edge 0 and the
    reported edges are as expected. *)
Example ex_valid : net_ok ex_net /\ valid_run ex_net ex_calls.
Proof. split; [apply netb_ok; vm_compute; reflexivity|apply runb_ok; vm_compute; reflexivity]. Qed.
Definition ex_obs (n : nat) : option (Q * list (Q * Q) * list nat) :=
  match flow_run false ex_net (firstn n ex_calls) with
  | Ok st => match nth_error ex_calls n with
             | Some (CExtend ni maxt) =>
                 match flow_extend false ex_net st ni maxt with
                 | Ok (st', ch) => Some (this (f_phi st'), map (fun it => (this (it_time it), this (rates_sum (it_vals it)))) (out_chain st' 0), ch)
                 | Err _ => None
                 end
             | _ => None
             end
  | Err _ => None
  end.
Example C31_example : ex_obs 0 = Some (2, [(0, 0); (2, 1)], [0%nat])%Q /\ ex_obs 1 = Some (2, [(0, 0); (2, 1); (8, 1)], [1%nat])%Q /\
  ex_obs 6 = Some (8, [(2, 1); (8, 1)], [0%nat])%Q /\ ex_obs 7 = Some (11, [(2, 1); (8, 1); (11, 0)], [0%nat])%Q /\
  ex_obs 8 = Some (20, [(2, 1); (8, 1); (11, 0)], [])%Q.
Proof. vm_compute. repeat split. Qed.
Example C34_example : match flow_run false ex_net ex_calls with
  | Ok st => map (fun it => map (fun p => (fst p, this (snd p))) (it_vals it)) (out_chain st 0) = [[(0%nat, 1 # 3); (1%nat, 2 # 3)]; [(0%nat, 1)]; []]%Q
  | Err _ => False end.
Proof. vm_compute. reflexivity. Qed.
