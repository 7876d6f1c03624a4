(** * tf_neighborhood_predictor.py: the neural network of a neighbourhood.
    [TFNeighborhoodPredictor.predict] is, up to the call of the model, the text of
    [SKNeighborhoodPredictor.predict] (model: [nb_predict] of Predictors.v);
    [batch_predict] evaluates queues and loads one time at a time. *)
From Verif Require Import Base Spec Arrays PL RC FRC DynFlow Graph Dijkstra FlowBuilder Neighbors Predictors.

(** [time in d] *)
Definition qmem (d : list (Qc * Qc)) (k : Qc) : bool := match qget d k with Ok _ => true | Err _ => false end.
(** tf_neighborhood_predictor.py:129-134: the inner loops; [eqs], [els] are
    [evaluated_queues[masked_id]] and [evaluated_loads[masked_id]], in the order of
    insertion.  Only the keys of the former are looked at. *)
Fixpoint tf_fill (queue load : PL) (times : list Qc) (eqs els : list (Qc * Qc)) : res (list (Qc * Qc) * list (Qc * Qc)) :=
  match times with
  | [] => Ok (eqs, els)
  | time :: r =>
      if qmem eqs time then tf_fill queue load r eqs els
      else
        v <- pl_eval queue time ;; w <- pl_eval load time ;;
        tf_fill queue load r (eqs ++ [(time, v)]) (els ++ [(time, w)])
  end.
(** tf_neighborhood_predictor.py:118-134: the loop over the edges *)
Fixpoint tf_evaluated (L : learned) (pts : list Qc) (mask : list bool) (masked_id : nat) (queues loads : list PL)
  : res (list (nat * list (Qc * Qc)) * list (nat * list (Qc * Qc))) :=
  match queues, mask with
  | [], _ => Ok ([], [])
  | _ :: _, [] => Err IndexError
  | q :: qr, false :: ms => tf_evaluated L pts ms masked_id qr (tl loads)
  | q :: qr, true :: ms =>
      match loads with
      | [] => Err IndexError
      | l :: lr =>
          d <- tf_fill q l (concat (map (input_times L) pts)) [] [] ;;
          rs <- tf_evaluated L pts ms (S masked_id) qr lr ;;
          Ok ((masked_id, fst d) :: fst rs, (masked_id, snd d) :: snd rs)
      end
  end.
(** tf_neighborhood_predictor.py:112-203 [batch_predict]; from line 136 on the text of
    sk_neighborhood_predictor.py:144-205 (prediction times first, as in [nb_batch_predict]) *)
Definition tf_batch_predict (models : nat -> list Qc -> list Qc) (L : learned) (dist : nat) (pts : list Qc) (st : Flow) : res (list (list PL)) :=
  loads <- get_edge_loads st ;;
  d <- tf_evaluated L pts (l_in L) 0 (f_q st) loads ;;
  let '(eq, el) := d in
  zero_fct <- pl_init [0] [0] 0 0 NInf PInf ;;
  assert! (length (g_edges (w_graph (l_nw L))) =? length (f_q st))%nat ;;
  mapM (fun pt => mapM (fun e =>
      m <- fetch (l_out L) e ;;
      if negb m then Ok zero_fct
      else
        em <- select (l_in L) (edge_input_mask L dist e) ;;
        ids <- select em (seq 0 (count_true (l_in L))) ;;
        row <- batch_row L pt ids eq el ;;
        dd <- dfetch eq (count_true (firstn e (l_in L))) ;; cur <- qget dd pt ;;
        learned_edge L (output_times L pt) cur (positive_part (models e row)) e)
      (seq 0 (length (f_q st)))) pts.
