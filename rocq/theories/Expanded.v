(** * Model of the table writers of src/ml/generate_queues.py

    [generate_queues] (16-41), [expanded_queues_from_flows] (201-249) and
    [expanded_queues_from_flows_per_edge] (252-336).  A flow is given by its
    list [flow.queues]; reading flows, writing csv files and the lock files
    (see EvalLock.v for the protocol) are left out: a table is the value of the
    DataFrame (or array) that is written. *)
From Coq Require Import Qround.
From Verif Require Import Base Spec Arrays PL RC FRC PQ PQSpec DynFlow Graph Dijkstra FlowBuilder Predictors Eval Dataset.

(** Python's [range(a, b, s)] *)
Definition py_range (a b s : Z) : res (list Z) :=
  if (s =? 0)%Z then Err ValueError
  else if (0 <? s)%Z then Ok (map (fun i => (a + Z.of_nat i * s)%Z) (seq 0 (Z.to_nat ((b - a + s - 1) / s))))
  else Ok (map (fun i => (a + Z.of_nat i * s)%Z) (seq 0 (Z.to_nat ((a - b - s - 1) / (- s))))).

(** [flow.queues[id](time)] *)
Definition queue_at (queues : list PL) (id : nat) (time : Qc) : res Qc :=
  q <- pyget queues (Z.of_nat id) ;; pl_eval q time.

(** generate_queues.py:38-41: the array of one flow *)
Definition queue_table (past : nat) (horizon step_length : Z) (queues : list PL) : res (list (list Qc)) :=
  times <- py_range (- Z.of_nat past) (horizon + 1) step_length ;;
  mapM (fun q => mapM (fun t => pl_eval q (qz t)) times) queues.

(** Column names: f"i{k}[{t}]", f"e[{t}]" and f"{id}[{t}]". *)
Inductive column := Inc (k : nat) (t : Z) | Own (t : Z) | Of (id : nat) (t : Z).
Definition column_eqb (c d : column) : bool :=
  match c, d with
  | Inc k t, Inc k' t' => (k =? k')%nat && (t =? t')%Z
  | Own t, Own t' => (t =? t')%Z
  | Of k t, Of k' t' => (k =? k')%nat && (t =? t')%Z
  | _, _ => false
  end.
(** A dict with column names as keys: [d[c] = v] and lookup. *)
Definition sample := list (column * Qc).
Fixpoint put (d : sample) (c : column) (v : Qc) : sample :=
  match d with
  | [] => [(c, v)]
  | (c', v') :: r => if column_eqb c c' then (c', v) :: r else (c', v') :: put r c v
  end.
Fixpoint look (d : sample) (c : column) : option Qc :=
  match d with [] => None | (c', v) :: r => if column_eqb c c' then Some v else look r c end.
(** The assignments [d[column] = value] of a sample, in program order. *)
Definition fill (items : list (column * res Qc)) : res sample :=
  foldM (fun d it => v <- snd it ;; Ok (put d (fst it) v)) items [].

(** generate_queues.py:226-233: the sample of edge [e] at time [phi] *)
Definition expanded_items (g : graph) (past future : nat) (step : Qc) (queues : list PL) (phi : Z) (e : nat) : list (column * res Qc) :=
  concat (map (fun kie => map (fun t => (Inc (fst kie) t, queue_at queues (e_id g (snd kie)) (qz phi - step * qz t))) (zrange (- Z.of_nat past) 1))
            (enum (incoming g (e_from g e)))) ++
  map (fun t => (Own t, queue_at queues (e_id g e) (qz phi - step * qz t))) (zrange (- Z.of_nat past) (Z.of_nat future + 1)).
(** generate_queues.py:215-217 and 287-289 *)
Definition expanded_times (horizon : Z) (step : Qc) (future : nat) (sample_step : Z) : res (list Z) :=
  py_range 0 (Qfloor (this (qz horizon - step * qz (Z.of_nat future)))) sample_step.
(** [pd.DataFrame(samples, columns=header)]; a missing key gives NaN ([None]) *)
Definition frame (header : list column) (samples : list sample) : list (list (option Qc)) :=
  map (fun d => map (look d) header) samples.
(** generate_queues.py:238-240 *)
Definition expanded_header (past future : nat) : list column :=
  concat (map (fun k => map (Inc k) (zrange (- Z.of_nat past) 1)) (seq 0 5)) ++ map Own (zrange (- Z.of_nat past) (Z.of_nat future + 1)).
(** generate_queues.py:213-241 *)
Definition expanded_queues (g : graph) (flows : list (list PL)) (past future : nat) (step : Qc) (horizon sample_step : Z) : res (list column * list (list (option Qc))) :=
  times <- expanded_times horizon step future sample_step ;;
  samples <- mapM (fun x => fill (expanded_items g past future step (fst x) (fst (snd x)) (snd (snd x)))) (list_prod flows (list_prod times (g_edges g))) ;;
  let kept := filter (fun d => existsb (fun cv => negb (qeqb (snd cv) 0)) d) samples in
  Ok (expanded_header past future, frame (expanded_header past future) kept).

(** generate_queues.py:297-301, 305-309, 312-316 *)
Definition per_edge_value (average : bool) (step : Qc) (queues : list PL) (phi t : Z) (id : nat) : res Qc :=
  q <- pyget queues (Z.of_nat id) ;;
  if average then integrate q (qz phi - step * qz (t + 1)) (qz phi - step * qz t) else pl_eval q (qz phi - step * qz t).
(** generate_queues.py:294-317: the sample of edge [e] at time [phi] *)
Definition per_edge_items (g : graph) (past future : nat) (step : Qc) (average : bool) (e : nat) (queues : list PL) (phi : Z) : list (column * res Qc) :=
  let block to ids := concat (map (fun r => map (fun t => (Of (e_id g r) t, per_edge_value average step queues phi t (e_id g r))) (zrange (- Z.of_nat past + 1) to)) ids) in
  block 1%Z (incoming g (e_from g e)) ++ block 1%Z (outgoing g (e_to g e)) ++ block (Z.of_nat future + 1)%Z [e].
(** generate_queues.py:287-319: the table of edge [e]; [samples[0]] of an empty list raises *)
Definition per_edge_table (g : graph) (flows : list (list PL)) (past future : nat) (step : Qc) (horizon sample_step : Z) (average : bool) (e : nat) : res (list column * list (list (option Qc))) :=
  times <- expanded_times horizon step future sample_step ;;
  samples <- mapM (fun x => fill (per_edge_items g past future step average e (fst x) (snd x))) (list_prod flows times) ;;
  match samples with
  | [] => Err IndexError
  | d :: _ => let header := map fst d in Ok (header, frame header samples)
  end.
