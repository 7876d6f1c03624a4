(** * Model of the files of an evaluation: [eval_network_demand]
      (src/eval/evaluate_network.py:40-106) around [evaluate_single_run]
      (src/eval/evaluate.py:98-225), and the loop at the end of the scenario
      scripts that prints the average computation time

    One process running alone (several processes: C95, C96).  What is computed
    is a parameter ([code]); what is written where is modelled. *)
From Coq Require Import Ascii String.
From Verif Require Import Base Spec Import Files Vis.
Open Scope nat_scope.
Open Scope list_scope.

(** The entries of the evaluation directory: lock files, pickles holding a flow
    and the seconds it took to compute, JSON files (as documents) and the
    subdirectory for visualisations. *)
Inductive ev_entry (F : Type) := EvLock | EvFlow (f : F) (seconds : Qc) | EvJson (j : json) | EvDir.
Arguments EvLock {F}. Arguments EvFlow {F}. Arguments EvJson {F}. Arguments EvDir {F}.
(** What a run computes: [build] the flow and its computation time
    (evaluate.py:118-160, evaluate_network.py:60-70), [analyse] the travel times,
    the errors and the delays (evaluate.py:182-211), [draw] the visualisation. *)
Record code (F : Type) := mkCode {
  build : nat -> res (F * Qc);
  analyse : nat -> F -> res (list Qc * list Qc * list ext);
  draw : nat -> F -> res unit }.
Arguments build {F}. Arguments analyse {F}. Arguments draw {F}.

(** evaluate_network.py:46-57: the names; [str(flow_id).zfill(ceil(log10(number_flows)))] is [flow_id] *)
Definition ev_stem (n i : nat) : text := map (fun d => ascii_of_nat (48 + d)) (flow_id n i).
Definition ev_pickle (n i : nat) : text := ev_stem n i ++ t ".pickle".
Definition ev_json (n i : nat) : text := ev_stem n i ++ t ".json".
Definition ev_vis (n i : nat) : text := ev_stem n i ++ t ".vis.json".

(** evaluate.py:213-220 *)
Definition save_dict (horizon : Qc) (i : nat) (times : list Qc) (seconds : Qc) (maes : list Qc) (delays : list ext) : pyval :=
  VDict [(KStr "horizon"%string, num horizon); (KStr "original_commodity"%string, int i); (KStr "avg_travel_times"%string, VList (map num times));
         (KStr "computation_time"%string, num seconds); (KStr "mean_absolute_errors"%string, VList (map num maes)); (KStr "max_predicted_delays"%string, VList (map VNum delays))].

(** The evaluation directory and its subdirectory "visualization" *)
Definition ev_state (F : Type) := (dir (ev_entry F) * dir unit)%type.
Section run.
  Context {F : Type} (c : code F) (n : nat) (horizon : Qc) (vis : bool).
  (** evaluate.py:150-180: the flow is computed and saved, or loaded *)
  Definition get_flow (i : nat) (out : dir (ev_entry F)) : (F * Qc + fault) * dir (ev_entry F) :=
    match find_file out (ev_pickle n i) with
    | None => match build c i with
              | Ok (f, s) => (inl (f, s), put_file out (ev_pickle n i) (EvFlow f s))
              | Err e => (inr (Python e), out)
              end
    | Some (EvFlow f s) => (inl (f, s), out)
    | Some _ => (inr Unreadable, out)
    end.
  (** evaluate.py:182-225; the document is written to its file (every value in it can be encoded) *)
  Definition single_run (i : nat) (out : dir (ev_entry F)) : (F + fault) * dir (ev_entry F) :=
    match get_flow i out with
    | (inr w, out) => (inr w, out)
    | (inl (f, s), out) =>
        match (a <- analyse c i f ;; encode (save_dict horizon i (fst (fst a)) s (snd (fst a)) (snd a))) with
        | Err e => (inr (Python e), out)
        | Ok j => (inl f, put_file out (ev_json n i) (EvJson j))
        end
    end.
  (** evaluate_network.py:59-99 [handle] *)
  Definition handle (i : nat) (st : ev_state F) : ending * ev_state F :=
    match single_run i (fst st) with
    | (inr w, out) => (Fails w, (out, snd st))
    | (inl f, out) =>
        if vis then
          match draw c i f with
          | Ok _ => (Completed, (put_file out (t "visualization") EvDir, put_file (snd st) (ev_vis n i) tt))
          | Err e => (Fails (Python e), (out, snd st))
          end
        else (Completed, (out, snd st))
    end.
  (** evaluate_network.py:101-104 with file_lock.py:9-35 *)
  Definition locked_run (i : nat) (st : ev_state F) : ending * ev_state F :=
    let lock := lock_prefix ++ ev_pickle n i in
    if has (fst st) lock then (Completed, st)
    else if (has (fst st) (ev_pickle n i) && has (fst st) (ev_json n i) && (negb vis || has (snd st) (ev_vis n i)))%bool then (Completed, st)
    else let r := handle i (put_file (fst st) lock EvLock, snd st) in
         (fst r, (remove_file (fst (snd r)) lock, snd (snd r))).
  (** evaluate_network.py:45-104 *)
  Fixpoint all_runs (l : list nat) (st : ev_state F) : ending * ev_state F :=
    match l with
    | [] => (Completed, st)
    | i :: r => match locked_run i st with (Completed, st') => all_runs r st' | stopped => stopped end
    end.
  (** evaluate_network.py:43-106 (the diagrams drawn afterwards are in Eval3.v and EvalPlot.v) *)
  Definition eval_demand (st : ev_state F) : ending * ev_state F :=
    match all_runs (seq 0 n) st with (Completed, st') => (waits (fst st'), st') | stopped => stopped end.
End run.

(** [d[key]] of a loaded document, used as a number *)
Fixpoint field (key : string) (l : list (string * json)) : option json :=
  match l with [] => None | (k, v) :: r => if String.eqb k key then Some v else field key r end.
Definition get_number (key : string) (j : json) : res Qc :=
  match j with
  | JObj l => match field key l with None => Err KeyError | Some (JNum q) => Ok q | Some (JNonFinite _) => Err NotModelled | Some _ => Err TypeError end
  | _ => Err TypeError
  end.
(** The loop over the files (src/scenarios/sioux_falls_multi_com_scenario.py:184-190
    and the same lines in sioux_falls, sample, nguyen, anaheim, anaheim_multi_com and
    berlin_friedrichshain; src/tokyo/tokyo_scenario.py:119-125): [keep] selects the
    names, [key] is the key that is read *)
Fixpoint read_times {F} (key : string) (out : dir (ev_entry F)) (l : list text) : list Qc + fault :=
  match l with
  | [] => inl []
  | m :: r => match find_file out m with
              | Some (EvJson j) => match get_number key j with
                                   | Ok q => match read_times key out r with inl qs => inl (q :: qs) | inr w => inr w end
                                   | Err e => inr (Python e)
                                   end
              | _ => inr Unreadable
              end
  end.
Definition average_time {F} (key : string) (keep : text -> bool) (out : dir (ev_entry F)) : Qc + fault :=
  match read_times key out (filter (fun m => ends_with (t ".json") m && keep m)%bool (names out)) with
  | inr w => inr w
  | inl l => of_res (pydiv (fold_right Qcplus 0%Qc l) (qn (length l)))
  end.
(** sioux_falls_multi_com_scenario.py:184-193 and the other scenarios *)
Definition scenario_average {F} (out : dir (ev_entry F)) : Qc + fault := average_time "computation_time"%string (fun _ => true) out.
(** tokyo_scenario.py:119-128 *)
Definition tokyo_average {F} (out : dir (ev_entry F)) : Qc + fault := average_time "comp_time"%string (fun m => negb (is_prefix (t ".lock") m)) out.
