(** * Model of the file protocol of eval_network_for_commodities
      (src/eval/evaluate_network.py:145-210) and of the files written by
      eval_network_demand (evaluate_network.py:45-106, evaluate.py:98-210)

    Any number of processes run the loop over [n] commodities in the same
    directory; every system call is one atomic step and steps interleave
    arbitrarily.  [Died] is a process that was killed or left by an exception:
    there is no try/finally. *)
From Coq Require Import List Bool Arith Lia.
Import ListNotations.

(** Contents of a result file: [open(..., "w")] creates an empty file. *)
Inductive content := Absent | Partial | Complete.
(** Where a process is; the argument is the loop variable [k]. *)
Inductive epc :=
| Look (k : nat)       (* line 147/150 *)
| LookLock (k : nat)   (* line 153 *)
| Create (k : nat)     (* line 157 *)
| Eval (k : nat)       (* line 160-197 up to evaluate.py:205 open(json_eval_path, "w") *)
| Writing (k : nat)    (* evaluate.py:206 the file is open *)
| Written (k : nat)    (* line 199-208 *)
| Wait                 (* line 210 wait_for_locks *)
| Done | Died.
Record est := mkEst { result : nat -> content; locked : nat -> bool; at_ : nat -> epc }.
Definition upd {A} (f : nat -> A) (k : nat) (x : A) : nat -> A := fun j => if Nat.eqb j k then x else f j.
Definition go (s : est) (p : nat) (x : epc) : est := mkEst (result s) (locked s) (upd (at_ s) p x).
Definition set_result (s : est) (k : nat) (c : content) : est := mkEst (upd (result s) k c) (locked s) (at_ s).
Definition set_locked (s : est) (k : nat) (b : bool) : est := mkEst (result s) (upd (locked s) k b) (at_ s).
Definition alive (x : epc) : Prop := match x with Done | Died => False | _ => True end.

Inductive estep (n p : nat) (s : est) : est -> Prop :=
| e_end k : at_ s p = Look k -> n <= k -> estep n p s (go s p Wait)
(** line 150-152 *)
| e_have k : at_ s p = Look k -> k < n -> result s k <> Absent -> estep n p s (go s p (Look (S k)))
| e_absent k : at_ s p = Look k -> k < n -> result s k = Absent -> estep n p s (go s p (LookLock k))
(** line 153-155 *)
| e_locked k : at_ s p = LookLock k -> locked s k = true -> estep n p s (go s p (Look (S k)))
| e_free k : at_ s p = LookLock k -> locked s k = false -> estep n p s (go s p (Create k))
(** line 157-158 *)
| e_create k : at_ s p = Create k -> estep n p s (go (set_locked s k true) p (Eval k))
(** evaluate.py:205-206 *)
| e_open k : at_ s p = Eval k -> estep n p s (go (set_result s k Partial) p (Writing k))
| e_write k : at_ s p = Writing k -> estep n p s (go (set_result s k Complete) p (Written k))
(** line 208: removing a missing file raises *)
| e_remove k : at_ s p = Written k -> locked s k = true -> estep n p s (go (set_locked s k false) p (Look (S k)))
| e_missing k : at_ s p = Written k -> locked s k = false -> estep n p s (go s p Died)
(** line 210: [wait_for_locks] lists the directory until it sees no lock *)
| e_wait : at_ s p = Wait -> (forall k, locked s k = false) -> estep n p s (go s p Done)
(** killed, or an exception *)
| e_die : alive (at_ s p) -> estep n p s (go s p Died).
Inductive ereach (n : nat) (s0 : est) : est -> Prop :=
| er_refl : ereach n s0 s0
| er_step s p s' : ereach n s0 s -> estep n p s s' -> ereach n s0 s'.
(** All processes at the beginning of the loop; nothing is locked. *)
Definition efresh (s : est) : Prop := (forall k, locked s k = false) /\ (forall p, at_ s p = Look 0) /\ forall k, result s k = Absent.

(** ** The files of one evaluation of eval_network_demand
    ([flow_path], [json_eval_path], [visualization_json_path]). *)
Record disk := mkDisk { d_flow : content; d_json : content; d_vis : content }.
(** How a call of [with_file_lock(flow_path, handle, expect_exists)] without a
    concurrent process ends. *)
Inductive outcome := Skip | Success | Failure.
(** file_lock.py:23-25 [all(os.path.exists(...))] *)
Definition present (c : content) : bool := match c with Absent => false | _ => true end.
(** evaluate.py:150-176: load the flow if there is a file, else build and write it;
    then evaluate.py:204-206 writes the json and evaluate_network.py:86-99 the
    visualisation.  A run may be interrupted (exception or kill) anywhere. *)
Inductive run (d : disk) : outcome -> disk -> Prop :=
| run_skip : (present (d_flow d) && present (d_json d) && present (d_vis d))%bool = true -> run d Skip d
| run_stop_early : (present (d_flow d) && present (d_json d) && present (d_vis d))%bool = false -> run d Failure d
| run_bad_flow : (present (d_flow d) && present (d_json d) && present (d_vis d))%bool = false -> d_flow d = Partial -> run d Failure d
| run_stop_flow : d_flow d = Absent -> run d Failure (mkDisk Partial (d_json d) (d_vis d))
| run_stop_flow_done : d_flow d = Absent -> run d Failure (mkDisk Complete (d_json d) (d_vis d))
| run_stop_json c : (present (d_flow d) && present (d_json d) && present (d_vis d))%bool = false -> d_flow d <> Partial -> c = Partial \/ c = Complete -> run d Failure (mkDisk Complete c (d_vis d))
| run_stop_vis : (present (d_flow d) && present (d_json d) && present (d_vis d))%bool = false -> d_flow d <> Partial -> run d Failure (mkDisk Complete Complete Partial)
| run_ok : (present (d_flow d) && present (d_json d) && present (d_vis d))%bool = false -> d_flow d <> Partial -> run d Success (mkDisk Complete Complete Complete).
(** A run in which nothing interferes: no interruption, only what the code itself raises. *)
Definition undisturbed (d : disk) : outcome * disk :=
  if (present (d_flow d) && present (d_json d) && present (d_vis d))%bool then (Skip, d)
  else match d_flow d with Partial => (Failure, d) | _ => (Success, mkDisk Complete Complete Complete) end.
Inductive runs (d0 : disk) : disk -> Prop :=
| rs_refl : runs d0 d0
| rs_run d o d' : runs d0 d -> run d o d' -> runs d0 d'.
