(** * Vocabulary for statements about DynamicFlow: networks, calls, runs *)
From Verif Require Import Base Spec Arrays PL RC FRC FRCProofs PQ PQSpec DynFlow.

(** A network with positive capacities and non-negative travel times. *)
Definition net_ok (nw : Net) : Prop :=
  length (n_tau nw) = length (n_cap nw) /\
  (forall c, In c (n_cap nw) -> 0 < c) /\ (forall t, In t (n_tau nw) -> 0 <= t).
Definition cap_of (nw : Net) (e : nat) : Qc := nth e (n_cap nw) 0.
Definition tau_of (nw : Net) (e : nat) : Qc := nth e (n_tau nw) 0.

(** The calls a client makes: [extend], and [outflow[e].get_values_at_time(phi)]
    as flow_builder.py does between two extensions. *)
Inductive call := CExtend (new_inflow : list (nat * rates)) (maxt : Qc) | COutflow (e : nat).
Definition flow_step (k : bool) (nw : Net) (st : Flow) (c : call) : res (Flow * list nat) :=
  match c with
  | CExtend ni maxt => flow_extend k nw st ni maxt
  | COutflow e => c <- getn (f_out st) e ;; '(c', _) <- frc_get c (f_phi st) ;;
                  Ok (set_out st (upd (f_out st) e c'), [])
  end.
Fixpoint flow_from (k : bool) (nw : Net) (st : Flow) (cs : list call) : res Flow :=
  match cs with
  | [] => Ok st
  | c :: r => '(st', _) <- flow_step k nw st c ;; flow_from k nw st' r
  end.
Definition flow_run (k : bool) (nw : Net) (cs : list call) : res Flow :=
  st <- flow_init nw ;; flow_from k nw st cs.

(** A valid call in a state: existing edges (each at most once), positive
    rates, and max_extension_time not before phi. *)
Definition valid_call (nw : Net) (st : Flow) (c : call) : Prop :=
  match c with
  | CExtend ni maxt =>
      NoDup (map fst ni) /\ (forall e d, In (e, d) ni -> (e < length (n_cap nw))%nat /\ is_snapshot d) /\ f_phi st <= maxt
  | COutflow e => (e < length (n_cap nw))%nat
  end.
Fixpoint valid_from (nw : Net) (st : Flow) (cs : list call) : Prop :=
  match cs with
  | [] => True
  | c :: r => valid_call nw st c /\ forall st' ch, flow_step false nw st c = Ok (st', ch) -> valid_from nw st' r
  end.
Definition valid_run (nw : Net) (cs : list call) : Prop := forall st, flow_init nw = Ok st -> valid_from nw st cs.

(** Observations. *)
Definition inflow_of (st : Flow) (e : nat) : FRC := nth e (f_in st) frc_empty.
Definition outflow_of (st : Flow) (e : nat) : FRC := nth e (f_out st) frc_empty.
Definition queue_of (st : Flow) (e : nat) : PL := nth e (f_q st) queue0.
(** The rate of commodity [i] at time [t]: [get_rate_functions()[i](t)], 0 without such a function. *)
Definition rate_of (c : FRC) (i : nat) (t : Qc) : res Qc := match dget (c_fns c) i with Some f => rc_eval f t | None => Ok 0 end.
(** The outflow snapshots held for edge [e], oldest first, and their times. *)
Definition out_chain (st : Flow) (e : nat) : list item := c_chain (outflow_of st e).
Definition out_times (l : list item) : list Qc := map it_time l.
(** [nf] was given as inflow of edge [e] in one of the calls. *)
Definition fed (cs : list call) (e : nat) (nf : rates) : Prop :=
  exists ni maxt, In (CExtend ni maxt) cs /\ In (e, nf) ni.
