(** * Model of compare_mae_with_perf (src/eval/evaluate_network.py) and of
      src/eval/evaluate_sample.py: the points of the diagrams *)
From Verif Require Import Base Spec Dijkstra Eval2 Eval3.

(** [l[-1]] *)
Definition last_of {A} (l : list A) : res A := match rev l with [] => Err IndexError | x :: _ => Ok x end.
(** [coordinates[i].append(x_i) for i, x_i in enumerate(xs)] *)
Fixpoint append_each {A} (acc : list (list A)) (xs : list A) : res (list (list A)) :=
  match xs, acc with
  | [], _ => Ok acc
  | _ :: _, [] => Err IndexError
  | x :: xs, l :: acc => r <- append_each acc xs ;; Ok ((l ++ [x]) :: r)
  end.
(** evaluate_network.py:221-230 one file; the points are computed in order, both
    a missing list and a missing travel time raise IndexError *)
Fixpoint perf_points (ts : list Qc) (i : nat) (errs : list Qc) : res (list (Qc * Qc)) :=
  match errs with
  | [] => Ok []
  | err :: r => t <- fetch ts i ;; o <- last_of ts ;; l <- perf_points ts (S i) r ;; Ok ((err, t - o) :: l)
  end.
Definition perf_file (acc : list (list (Qc * Qc))) (f : evalfile) : res (list (list (Qc * Qc))) :=
  if informative (ev_times f) then xs <- perf_points (ev_times f) 0 (ev_maes f) ;; append_each acc xs else Ok acc.
(** evaluate_network.py:214-230 [compare_mae_with_perf]: [n] is the number of colours *)
Definition perf_data (n : nat) (fs : list evalfile) : res (list (list (Qc * Qc))) := foldM perf_file fs (repeat [] n).

(** evaluate_sample.py:36-65: one run of [evaluate_single_run] per demand; the
    travel times are appended to [avg_times]; [run] stands for the evaluation *)
Fixpoint sample_loop (fuel : nat) (run : Qc -> res (list Qc)) (step max demand : Qc) (acc : list (list Qc)) : res (list (list Qc)) :=
  match fuel with
  | O => Err OutOfFuel
  | S f =>
      if qleb demand max then
        times <- run demand ;; acc <- append_each acc times ;; sample_loop f run step max (demand + step) acc
      else Ok acc
  end.
(** evaluate_sample.py:33-42 ([n] = 6 lists) *)
Definition eval_sample (fuel : nat) (run : Qc -> res (list Qc)) (step max : Qc) (n : nat) : res (list (list Qc)) :=
  sample_loop fuel run step max (0 + step) (repeat [] n).
(** evaluate_sample.py:108-119 (one list of coordinates per plot; [configs] has [n] entries) *)
Definition plot_line (step : Qc) (values : list Qc) : list (Qc * Qc) :=
  map (fun p => (qn (S (fst p)) * step, snd p)) (combine (seq 0 (length values)) values).
Definition time_plot (step : Qc) (avg_times : list (list Qc)) : list (list (Qc * Qc)) := map (plot_line step) avg_times.
(** evaluate_sample.py:156-170 [y / avg_times[-1][i]]; the loop breaks before the last list *)
Definition regret_line (step : Qc) (opt values : list Qc) : res (list (Qc * Qc)) :=
  mapM (fun p => o <- fetch opt (fst p) ;; q <- pydiv (snd p) o ;; Ok (qn (S (fst p)) * step, q)) (combine (seq 0 (length values)) values).
Definition regret_plot (step : Qc) (avg_times : list (list Qc)) : res (list (list (Qc * Qc))) :=
  match rev avg_times with [] => Ok [] | opt :: _ => mapM (regret_line step opt) (removelast avg_times) end.
