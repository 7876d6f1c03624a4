(** * Model of the summaries in src/eval/evaluate_network.py *)
From Verif Require Import Base Spec Dijkstra Eval2.

(** The part of an evaluation file that is read back: evaluate.py:196-203
    [avg_travel_times] (one entry per predictor, then the optimum) and
    [mean_absolute_errors]. *)
Record evalfile := mkEval { ev_times : list Qc; ev_maes : list Qc }.
(** evaluate_network.py:277-279, 334-336: [any(travel_times[j] != travel_times[0] for j in range(len(travel_times) - 1))] *)
Definition informative (ts : list Qc) : bool :=
  match ts with [] => false | t0 :: _ => existsb (fun t => negb (qeqb t t0)) (firstn (length ts - 1) ts) end.
(** [travel_times[i] / travel_times[-1] - 1] *)
Definition slowdown (ts : list Qc) (i : nat) : res Qc :=
  t <- fetch ts i ;; o <- (match rev ts with [] => Err IndexError | x :: _ => Ok x end) ;; q <- pydiv t o ;; Ok (q - 1).
(** evaluate_network.py:271-283, 329-340 one file; [n] is the number of entries of
    [visualization_config]. *)
Definition slow_file (n : nat) (acc : list (list Qc)) (f : evalfile) : res (list (list Qc)) :=
  if informative (ev_times f) then
    xs <- mapM (slowdown (ev_times f)) (seq 0 n) ;; Ok (map (fun p => fst p ++ [snd p]) (combine acc xs))
  else Ok acc.
Definition slowdowns (n : nat) (fs : list evalfile) : res (list (list Qc)) := foldM (slow_file n) fs (repeat [] n).
(** [np.average]: nan for an empty list *)
Definition average (l : list Qc) : option Qc := match l with [] => None | _ => Some (fold_right Qcplus 0 l / qn (length l)) end.
(** evaluate_network.py:326-345 [eval_jsons_to_avg_slowdowns] *)
Definition avg_slowdowns (n : nat) (fs : list evalfile) : res (list (option Qc)) := s <- slowdowns n fs ;; Ok (map average s).
(** evaluate_network.py:272, 282-283, 296-298: the means printed by
    [generate_slowdown_boxplot] *)
Definition mean_file (n : nat) (acc : list Qc) (f : evalfile) : res (list Qc) :=
  if informative (ev_times f) then
    xs <- mapM (fetch (ev_times f)) (seq 0 n) ;; Ok (map (fun p => fst p + snd p) (combine acc xs))
  else Ok acc.
Definition printed_means (n : nat) (fs : list evalfile) : res (list Qc) :=
  m <- foldM (mean_file n) fs (repeat 0 n) ;; mapM (fun x => pydiv x (qn (length fs))) m.
(** evaluate_network.py:301-314 the data of [generate_mae_boxplot] *)
Definition mae_file (n : nat) (acc : list (list Qc)) (f : evalfile) : res (list (list Qc)) :=
  xs <- mapM (fetch (ev_maes f)) (seq 0 n) ;; Ok (map (fun p => fst p ++ [snd p]) (combine acc xs)).
Definition mae_data (n : nat) (fs : list evalfile) : res (list (list Qc)) := foldM (mae_file n) fs (repeat [] n).
(** evaluate_network.py:88-90: the commodities merged for the visualisation; the
    number of commodities is taken before [evaluate_single_run]. *)
Definition merged_ids (original_num_commodities : nat) : list nat := seq 0 original_num_commodities.
