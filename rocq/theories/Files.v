(** * Model of the functions that read saved flows and write training data,
      as operations on directories

    src/ml/generate_queues.py, the file handling of
    src/ml/QueueAndEdgeLoadsDataset.py and [shallow_evaluate_predictors] in
    src/scenarios/sioux_falls_scenario.py, for one process running alone.
    What is computed from a flow is in Dataset.v and Expanded.v. *)
From Coq Require Import Ascii String.
From Verif Require Import Base Spec Arrays PL RC FRC DynFlow Graph Dijkstra FlowBuilder Predictors Eval Dataset Expanded Import.

(** File names are lists of characters. *)
Definition t (s : string) : text := list_ascii_of_string s.
Fixpoint text_eqb (a b : text) : bool :=
  match a, b with [], [] => true | x :: a', y :: b' => Ascii.eqb x y && text_eqb a' b' | _, _ => false end.
(** [name.endswith(suffix)], [name[: len(name) - len(suffix)]], [name.startswith(prefix)] *)
Definition ends_with (suffix name : text) : bool := is_prefix (rev suffix) (rev name).
Definition without_suffix (suffix name : text) : text := firstn (length name - length suffix) name.
Definition flow_suffix : text := t ".flow.pickle".
Definition lock_prefix : text := t ".lock.".
(** Python's order on strings of ASCII characters, and [sorted] on names. *)
Fixpoint text_leb (a b : text) : bool :=
  match a, b with
  | [], _ => true
  | _ :: _, [] => false
  | x :: a', y :: b' => if Ascii.eqb x y then text_leb a' b' else (nat_of_ascii x <? nat_of_ascii y)%nat
  end.
Fixpoint insert_name (x : text) (l : list text) : list text :=
  match l with [] => [x] | y :: r => if text_leb x y then x :: l else y :: insert_name x r end.
Definition sorted_names (l : list text) : list text := fold_right insert_name [] l.

(** A directory: names and contents, in the (unspecified) order of os.listdir. *)
Definition dir (A : Type) := list (text * A).
Fixpoint find_file {A} (d : dir A) (n : text) : option A :=
  match d with [] => None | (m, x) :: r => if text_eqb n m then Some x else find_file r n end.
Definition has {A} (d : dir A) (n : text) : bool := match find_file d n with Some _ => true | None => false end.
Fixpoint put_file {A} (d : dir A) (n : text) (x : A) : dir A :=
  match d with [] => [(n, x)] | (m, y) :: r => if text_eqb n m then (m, x) :: r else (m, y) :: put_file r n x end.
Definition remove_file {A} (d : dir A) (n : text) : dir A := filter (fun p => negb (text_eqb n (fst p))) d.
Definition names {A} (d : dir A) : list text := map fst d.

(** How a call ends: it returns, raises, or sleeps for ever. *)
Inductive fault := Unreadable | Missing | Python (e : exn).
Inductive ending := Completed | Fails (w : fault) | Sleeps.
Definition of_res {A} (r : res A) : A + fault := match r with Ok a => inl a | Err e => inr (Python e) end.

(** ** The directory of flows *)
(** What the files of a flow directory hold: the empty lock files of
    with_file_lock, the dummy files of build_test_flows.py:110-112, drawings,
    flows cut short, flows saved with gzip (build_test_flows.py:115-116, the
    only writer in src/ml) and flows saved as plain pickles. *)
Inductive entry := EmptyFile | OtherFile | CutFlow | GzFlow (f : Flow) | PlainFlow (f : Flow).
(** [with gzip.open(path, "rb") as file: flow = pickle.load(file)] *)
Definition load_gz (flows : dir entry) (n : text) : Flow + fault :=
  match find_file flows n with Some (GzFlow f) => inl f | Some _ => inr Unreadable | None => inr Missing end.
(** [with open(path, "rb") as file: flow = pickle.load(file)]: the magic number of
    gzip is no pickle opcode (UnpicklingError) *)
Definition load_plain (flows : dir entry) (n : text) : Flow + fault :=
  match find_file flows n with Some (PlainFlow f) => inl f | Some _ => inr Unreadable | None => inr Missing end.
(** generate_queues.py:107-109, 213; sioux_falls_scenario.py:40-42 *)
Definition all_flow_names (flows : dir entry) : list text := filter (ends_with flow_suffix) (names flows).
(** generate_queues.py:24-28, 142-146 *)
Definition unlocked_flow_names (flows : dir entry) : list text :=
  filter (fun n => ends_with flow_suffix n && negb (is_prefix lock_prefix n))%bool (names flows).
(** generate_queues.py:275-279: ".lock" without the second dot *)
Definition unlocked_flow_names' (flows : dir entry) : list text :=
  filter (fun n => ends_with flow_suffix n && negb (is_prefix (t ".lock") n))%bool (names flows).

(** A loop over files stops at the first exception. *)
Fixpoint each {X A} (f : X -> dir A -> ending * dir A) (l : list X) (out : dir A) : ending * dir A :=
  match l with
  | [] => (Completed, out)
  | x :: r => match f x out with (Completed, out') => each f r out' | stopped => stopped end
  end.
(** utilities/file_lock.py:9-35 [with_file_lock(path, handle)], no other process;
    [empty] is the content of the lock file. *)
Definition with_lock {A} (empty : A) (path : text) (handle : dir A -> ending * dir A) (out : dir A) : ending * dir A :=
  let lock := lock_prefix ++ path in
  if (has out lock || has out path)%bool then (Completed, out)
  else let r := handle (put_file out lock empty) in (fst r, remove_file (snd r) lock).
(** utilities/file_lock.py:38-49 [wait_for_locks], no other process *)
Definition waits {A} (out : dir A) : ending := if existsb (is_prefix lock_prefix) (names out) then Sleeps else Completed.

(** ** generate_queues.py:89-131 [generate_queues_and_edge_loads] *)
(** The files of the directory of queues: locks and the saved arrays. *)
Inductive data_file := LockFile | Data (q : qfile) | NoData.
Definition data_name (n : text) : text := without_suffix flow_suffix n ++ t "-queues-and-edge-loads.npy".
(** lines 111-128 *)
Definition data_step (past : nat) (horizon r pi : Qc) (flows : dir entry) (n : text) (out : dir data_file) : ending * dir data_file :=
  with_lock LockFile (data_name n) (fun out =>
    match load_gz flows n with
    | inr w => (Fails w, out)
    | inl f => match save_flow past horizon r pi f with Ok q => (Completed, put_file out (data_name n) (Data q)) | Err e => (Fails (Python e), out) end
    end) out.
Definition generate_data (past : nat) (horizon r pi : Qc) (flows : dir entry) (out : dir data_file) : ending * dir data_file :=
  match pydiv pi r with
  | Err e => (Fails (Python e), out)
  | Ok q =>
      if qltb (Q2Qc (1 # 100000000000000)) (qabs (qz (py_round q) - q)) then (Fails (Python ValueError), out) else
      let loop := each (data_step past horizon r pi flows) (sorted_names (all_flow_names flows)) out in
      match fst loop with Completed => (waits (snd loop), snd loop) | _ => loop end
  end.
(** QueueAndEdgeLoadsDataset.py:32-34, 51-52, 58-59: every file of the folder is
    read, in the order of the names. *)
Definition read_arrays (out : dir data_file) : list qfile + fault :=
  fold_right (fun n r => match r, find_file out n with
                         | inr w, Some (Data _) => inr w
                         | inl l, Some (Data q) => inl (q :: l)
                         | _, _ => inr Unreadable end) (inl []) (sorted_names (names out)).
Definition dataset_of (past future : nat) (r pi horizon : Qc) (nedges : nat) (out : dir data_file) : dataset + fault :=
  match read_arrays out with inr w => inr w | inl files => of_res (ds_init past future r pi horizon nedges files) end.

(** ** generate_queues.py:16-41 [generate_queues] and 134-198
    [generate_training_data_with_edge_loads]: no locks, an existing output is skipped *)
Definition plain_step {A} (suffix : text) (compute : Flow -> res A) (flows : dir entry) (n : text) (out : dir A) : ending * dir A :=
  let path := without_suffix flow_suffix n ++ suffix in
  if has out path then (Completed, out)
  else match load_plain flows n with
       | inr w => (Fails w, out)
       | inl f => match compute f with Ok x => (Completed, put_file out path x) | Err e => (Fails (Python e), out) end
       end.
Definition generate_queues (past : nat) (horizon step_length : Z) (flows : dir entry) (out : dir (list (list Qc))) : ending * dir (list (list Qc)) :=
  each (plain_step (t "-queues-complete.csv.gz") (fun f => queue_table past horizon step_length (f_q f)) flows) (unlocked_flow_names flows) out.
Definition generate_training_data (past future : nat) (horizon r pi : Qc) (flows : dir entry) (out : dir (list (option (list Qc)))) : ending * dir (list (option (list Qc))) :=
  each (plain_step (t "-training-data.npy") (training_data past future horizon r pi) flows) (unlocked_flow_names flows) out.

(** ** generate_queues.py:201-249 and 252-336 *)
Definition table := (list column * list (list (option Qc)))%type.
Inductive table_file := TableLock | Table (x : table).
Fixpoint load_all (load : text -> Flow + fault) (l : list text) : list Flow + fault :=
  match l with
  | [] => inl []
  | n :: r => match load n with inr w => inr w | inl f => match load_all load r with inr w => inr w | inl fs => inl (f :: fs) end end
  end.
(** lines 201-249.  The lock is created and removed without try/finally: an
    exception leaves it.  All flows are loaded before the first sample is taken
    (in the code the samples of a flow are taken before the next one is loaded). *)
Definition expanded_path : text := t "expanded_queues.csv.gz".
Definition expanded_file (g : graph) (past future : nat) (step : Qc) (horizon sample_step : Z) (flows : dir entry) (out : dir table_file) : ending * dir table_file :=
  let lock := lock_prefix ++ expanded_path in
  if (has out expanded_path || has out lock)%bool then (Completed, out) else
  let out := put_file out lock TableLock in
  match load_all (load_plain flows) (all_flow_names flows) with
  | inr w => (Fails w, out)
  | inl fs =>
      match expanded_queues g (map f_q fs) past future step horizon sample_step with
      | Err e => (Fails (Python e), out)
      | Ok x => (Completed, remove_file (put_file out expanded_path (Table x)) lock)
      end
  end.
(** lines 264-336: one table per edge; the flows are read once (reading them again for every
    edge gives the same, since nothing changes the directory). *)
Definition edge_path (id : nat) : text := t "edge-" ++ map (fun d => ascii_of_nat (48 + d)) (py_str id) ++ t ".csv.gz".
Definition edge_file (g : graph) (past future : nat) (step : Qc) (horizon sample_step : Z) (average : bool) (flows : dir entry) (e : nat) (out : dir table_file) : ending * dir table_file :=
  let path := edge_path (e_id g e) in
  let lock := lock_prefix ++ path in
  if (has out path || has out lock)%bool then (Completed, out) else
  let out := put_file out lock TableLock in
  match load_all (load_plain flows) (unlocked_flow_names' flows) with
  | inr w => (Fails w, out)
  | inl fs =>
      match per_edge_table g (map f_q fs) past future step horizon sample_step average e with
      | Err x => (Fails (Python x), out)
      | Ok x => (Completed, remove_file (put_file out path (Table x)) lock)
      end
  end.
Definition edge_files (g : graph) (past future : nat) (step : Qc) (horizon sample_step : Z) (average : bool) (flows : dir entry) (out : dir table_file) : ending * dir table_file :=
  each (edge_file g past future step horizon sample_step average flows) (g_edges g) out.

(** ** sioux_falls_scenario.py:28-65 [shallow_evaluate_predictors]; [evaluate] is
    [evaluate_mean_absolute_error] with the given predictors (Eval2.v) *)
Inductive eval_file (A : Type) := EvalLock | Errors (x : A).
Arguments EvalLock {A}. Arguments Errors {A} x.
Definition shallow_step {A} (evaluate : Flow -> res A) (flows : dir entry) (n : text) (out : dir (eval_file A)) : ending * dir (eval_file A) :=
  let path := without_suffix flow_suffix n ++ t "-shallow-eval.pickle" in
  with_lock EvalLock path (fun out =>
    match load_plain flows n with
    | inr w => (Fails w, out)
    | inl f => match evaluate f with Ok x => (Completed, put_file out path (Errors x)) | Err e => (Fails (Python e), out) end
    end) out.
Definition shallow_evaluate {A} (evaluate : Flow -> res A) (flows : dir entry) (out : dir (eval_file A)) : ending * dir (eval_file A) :=
  let loop := each (shallow_step evaluate flows) (sorted_names (all_flow_names flows)) out in
  match fst loop with Completed => (waits (snd loop), snd loop) | _ => loop end.
