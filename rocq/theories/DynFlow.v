(** * Model of src/core/dynamic_flow.py, lines 17-217

    PriorityQueue objects are represented by their specification [squeue]
    (PQSpec.v); C23 proves that every call on the real data structure gives the
    answer of the specification.

    Every function takes a flag [k].  [k = false] is the code.  With [k = true]
    the same code is instrumented: before a rate collection or a queue function
    is extended, it is checked that the code's eps-comparisons do not identify
    two distinct numbers, and [Unclean] is raised otherwise.  An instrumented
    run that does not raise [Unclean] is a run of the code (lemma
    [erase_run] in DynFlowProofs.v). *)
From Verif Require Import Base Arrays PL RC FRC PQ PQSpec.

(** network.py: capacity and travel time of every edge. *)
Record Net := mkNet { n_cap : list Qc; n_tau : list Qc }.

(** Instrumentation only. *)
Definition chk (k b : bool) : res unit := if (k && negb b)%bool then Err Unclean else Ok tt.
(** equal or more than eps apart *)
Definition sepb (a b : Qc) : bool := (qeqb a b || qltb eps (qabs (a - b)))%bool.
Definition rateb (d : rates) (i : nat) : Qc := match dget d i with Some v => v | None => 0 end.
Definition clean_frc (c : FRC) (time : Qc) (values : rates) (s : Qc) : bool :=
  match c_chain c with
  | [] => true
  | i0 :: r => let tail := last r i0 in
      (sepb (it_time tail) time && sepb (pl_last (c_acc c)) s &&
       forallb (fun i => sepb (rateb (it_vals tail) i) (rateb values i)) (map fst (it_vals tail) ++ map fst values))%bool
  end.
(** [collection.extend(time, values, sum)] *)
Definition c_extend (k : bool) (c : FRC) (time : Qc) (values : rates) (s : Qc) : res FRC :=
  _ <- chk k (clean_frc c time values s) ;; frc_extend c time values s.
(** [queue.extend_with_slope(time, slope)] *)
Definition q_extend (k : bool) (f : PL) (time slope : Qc) : res PL :=
  _ <- chk k (sepb (last (pl_times f) 0) time && sepb (pl_last f) slope)%bool ;; extend_with_slope f time slope.

(** ** DepletionQueue, dynamic_flow.py:17-67 *)
(** dynamic_flow.py:13 ChangeEventValue: new outflow rates and their sum. *)
Definition change_value := (rates * Qc)%type.
Record DQ := mkDQ { d_depl : @squeue nat; d_change : @squeue nat; d_new : list (nat * change_value) }.
(** dynamic_flow.py:22-25 *)
Definition dq_empty : DQ := mkDQ sq_empty sq_empty [].
(** [d.pop(k)] *)
Fixpoint ddel {B} (d : list (nat * B)) (k : nat) : list (nat * B) :=
  match d with [] => [] | (j, v) :: r => if Nat.eqb j k then ddel r k else (j, v) :: ddel r k end.
Definition dpop {B} (d : list (nat * B)) (k : nat) : res (B * list (nat * B)) :=
  match dget d k with Some v => Ok (v, ddel d k) | None => Err KeyError end.
(** dynamic_flow.py:27-39 [set]; the assertion [depletion_time > -inf] holds for finite times. *)
Definition dq_set (q : DQ) (e : nat) (time : Qc) (ch : option (Qc * change_value)) : res DQ :=
  let depl := sq_set (d_depl q) e (Fin time) in
  match ch with
  | Some (ct, cv) => Ok (mkDQ depl (sq_set (d_change q) e (Fin ct)) (dset (d_new q) e cv))
  | None =>
      if sq_has (d_change q) e then
        c <- sq_remove (d_change q) e ;; '(_, n) <- dpop (d_new q) e ;; Ok (mkDQ depl c n)
      else Ok (mkDQ depl (d_change q) (d_new q))
  end.
(** dynamic_flow.py:41-45 *)
Definition dq_has (q : DQ) (e : nat) : bool := sq_has (d_depl q) e.
Definition dq_len (q : DQ) : nat := sq_len (d_depl q).
(** dynamic_flow.py:47-51 [remove] *)
Definition dq_remove (q : DQ) (e : nat) : res DQ :=
  depl <- sq_remove (d_depl q) e ;;
  if sq_has (d_change q) e then
    c <- sq_remove (d_change q) e ;; '(_, n) <- dpop (d_new q) e ;; Ok (mkDQ depl c n)
  else Ok (mkDQ depl (d_change q) (d_new q)).
(** dynamic_flow.py:53-57 *)
Definition dq_min_change (q : DQ) : ext := sq_min_key (d_change q).
Definition dq_min_depl (q : DQ) : ext := sq_min_key (d_depl q).
(** dynamic_flow.py:59-67 [pop_by_depletion] *)
Definition dq_pop (q : DQ) : res (DQ * (nat * ext * option (ext * change_value))) :=
  let time := dq_min_depl q in
  '(depl, e) <- sq_pop (d_depl q) ;;
  if sq_has (d_change q) e then
    ct <- match sq_key_of (d_change q) e with Some x => Ok x | None => Err KeyError end ;;
    c <- sq_remove (d_change q) e ;;
    '(cv, n) <- dpop (d_new q) e ;;
    Ok (mkDQ depl c n, (e, time, Some (ct, cv)))
  else Ok (mkDQ depl (d_change q) (d_new q), (e, time, None)).

(** ** DynamicFlow, dynamic_flow.py:70-95 *)
Record Flow := mkFlow {
  f_phi : Qc; f_in : list FRC; f_out : list FRC; f_q : list PL;
  f_changes : @squeue (nat * Qc); f_dq : DQ }.
Definition set_phi st p := mkFlow p (f_in st) (f_out st) (f_q st) (f_changes st) (f_dq st).
Definition set_in st x := mkFlow (f_phi st) x (f_out st) (f_q st) (f_changes st) (f_dq st).
Definition set_out st x := mkFlow (f_phi st) (f_in st) x (f_q st) (f_changes st) (f_dq st).
Definition set_q st x := mkFlow (f_phi st) (f_in st) (f_out st) x (f_changes st) (f_dq st).
Definition set_changes st x := mkFlow (f_phi st) (f_in st) (f_out st) (f_q st) x (f_dq st).
Definition set_dq st x := mkFlow (f_phi st) (f_in st) (f_out st) (f_q st) (f_changes st) x.

(** piecewise_linear.py:37-53 with the default domain (-inf, inf), dynamic_flow.py:90-92 *)
Definition queue0 : PL := mkPL [0] [0] 0 0 NInf PInf.
(** dynamic_flow.py:86-95 [__init__]; one collection and queue per edge. *)
Definition flow_init (nw : Net) : res Flow :=
  c <- frc_init [] ;;
  let n := length (n_cap nw) in
  Ok (mkFlow 0 (repeat c n) (repeat c n) (repeat queue0 n) sq_empty dq_empty).

(** The three updates common to the cases: outflow extension and event
    (dynamic_flow.py:112-114, 135-137, 153-155; 175-176 in the other order) and
    queue extension (116-117, 139-140, 157-158). *)
Definition out_extend (k : bool) (st : Flow) (e : nat) (time : Qc) (values : rates) (s : Qc) : res Flow :=
  c <- getn (f_out st) e ;; c' <- c_extend k c time values s ;;
  Ok (set_changes (set_out st (upd (f_out st) e c')) (sq_set (f_changes st) (e, time) (Fin time))).
Definition queue_extend (k : bool) (st : Flow) (e : nat) (time slope : Qc) : res Flow :=
  f <- getn (f_q st) e ;; f' <- q_extend k f time slope ;; Ok (set_q st (upd (f_q st) e f')).
(** [assert self.queues[e](depl_time) < 1000 * eps] *)
Definition assert_depleted (st : Flow) (e : nat) (time : Qc) : res unit :=
  f <- getn (f_q st) e ;; v <- pl_eval f time ;; assertb (qltb v eps1000).
(** [if e in self.depletions: self.depletions.remove(e)] *)
Definition drop_depletion (st : Flow) (e : nat) : res Flow :=
  if dq_has (f_dq st) e then d <- dq_remove (f_dq st) e ;; Ok (set_dq st d) else Ok st.

(** dynamic_flow.py:108-123 *)
Definition case_i (k : bool) (nw : Net) (st : Flow) (e : nat) (cur_queue : Qc) : res Flow :=
  cap <- getn (n_cap nw) e ;; tau <- getn (n_tau nw) e ;;
  w <- pydiv cur_queue cap ;;
  st1 <- out_extend k st e (f_phi st + w + tau) [] 0 ;;
  st2 <- queue_extend k st1 e (f_phi st) (if qeqb cur_queue 0 then 0 else - cap) ;;
  if qltb 0 cur_queue then
    _ <- assert_depleted st2 e (f_phi st + w) ;;
    d <- dq_set (f_dq st2) e (f_phi st + w) None ;; Ok (set_dq st2 d)
  else drop_depletion st2 e.

(** [{i: factor * value for i, value in new_inflow.items()}] *)
Definition scale (factor : Qc) (d : rates) : rates := map (fun p => (fst p, factor * snd p)) d.

(** dynamic_flow.py:125-142.  The check: a positive queue with inflow in
    [cap - eps, cap) is treated as if the inflow were at least cap. *)
Definition case_ii (k : bool) (nw : Net) (st : Flow) (e : nat) (new_inflow : rates) (cur_queue acc_in : Qc) : res Flow :=
  cap <- getn (n_cap nw) e ;; tau <- getn (n_tau nw) e ;;
  _ <- chk k (qeqb cur_queue 0 || qleb cap acc_in)%bool ;;
  w <- pydiv cur_queue cap ;;
  let acc_out := qmin cap acc_in in
  factor <- pydiv acc_out acc_in ;;
  st1 <- out_extend k st e (f_phi st + w + tau) (scale factor new_inflow) acc_out ;;
  st2 <- queue_extend k st1 e (f_phi st) (qmax (acc_in - cap) 0) ;;
  drop_depletion st2 e.

(** dynamic_flow.py:144-165 *)
Definition case_iii (k : bool) (nw : Net) (st : Flow) (e : nat) (new_inflow : rates) (cur_queue acc_in : Qc) : res Flow :=
  cap <- getn (n_cap nw) e ;; tau <- getn (n_tau nw) e ;;
  w <- pydiv cur_queue cap ;;
  factor <- pydiv cap acc_in ;;
  st1 <- out_extend k st e (f_phi st + w + tau) (scale factor new_inflow) cap ;;
  let slope := acc_in - cap in
  st2 <- queue_extend k st1 e (f_phi st) slope ;;
  x <- pydiv cur_queue slope ;;
  let depl_time := f_phi st - x in
  _ <- assert_depleted st2 e depl_time ;;
  d <- dq_set (f_dq st2) e depl_time (Some (depl_time + tau, (new_inflow, acc_in))) ;;
  Ok (set_dq st2 d).

(** dynamic_flow.py:190-202, the body of the loop over [new_inflow]. *)
Definition extend_edge (k : bool) (nw : Net) (st : Flow) (p : nat * rates) : res Flow :=
  let e := fst p in let nf := snd p in
  c <- getn (f_in st) e ;;
  '(c1, old) <- frc_get c (f_phi st) ;;
  let st1 := set_in st (upd (f_in st) e c1) in
  if rates_eqb old nf then Ok st1
  else
    let acc_in := rates_sum nf in
    qe <- getn (f_q st1) e ;;
    qv <- eval_from_end qe (f_phi st1) ;;
    let cur_queue := qmax qv 0 in
    c2 <- c_extend k c1 (f_phi st1) nf acc_in ;;
    let st2 := set_in st1 (upd (f_in st1) e c2) in
    if qeqb acc_in 0 then case_i k nw st2 e cur_queue
    else
      cap <- getn (n_cap nw) e ;;
      if (qeqb cur_queue 0 || qleb (cap - eps) acc_in)%bool
      then case_ii k nw st2 e nf cur_queue acc_in
      else case_iii k nw st2 e nf cur_queue acc_in.

(** dynamic_flow.py:167-176 the loop body: process one depletion. *)
Definition deplete_one (k : bool) (st : Flow) : res Flow :=
  '(d, (e, t, ch)) <- dq_pop (f_dq st) ;;
  match t with
  | Fin depl_time =>
      st1 <- queue_extend k (set_dq st d) e depl_time 0 ;;
      f <- getn (f_q st1) e ;;
      vl <- pyget (pl_values f) (-1) ;;
      assert! qltb (qabs vl) eps1000 ;;
      (* the code writes values[-1] without clearing the gradient cache *)
      let f' := mkPL (pl_times f) (set_nth (pl_values f) (length (pl_values f) - 1) 0)
                     (pl_first f) (pl_last f) (pl_lo f) (pl_hi f) in
      let st2 := set_q st1 (upd (f_q st1) e f') in
      match ch with
      | None => Ok st2
      | Some (Fin ct, (v, s)) => out_extend k st2 e ct v s
      | Some _ => Err NotModelled     (* times are finite *)
      end
  | _ => Err NotModelled
  end.
(** dynamic_flow.py:167-168 the loop *)
Fixpoint process_depletions (fuel : nat) (k : bool) (st : Flow) : res Flow :=
  match fuel with
  | O => Err OutOfFuel
  | S n =>
      if (ext_leb (dq_min_depl (f_dq st)) (Fin (f_phi st)) && (0 <? dq_len (f_dq st))%nat)%bool
      then st' <- deplete_one k st ;; process_depletions n k st'
      else Ok st
  end.
(** dynamic_flow.py:212-216; the set is returned as the list of added edges. *)
Fixpoint pop_changes (fuel : nat) (st : Flow) (acc : list nat) : res (Flow * list nat) :=
  match fuel with
  | O => Err OutOfFuel
  | S n =>
      if (ext_leb (sq_min_key (f_changes st)) (Fin (f_phi st)) && (0 <? sq_len (f_changes st))%nat)%bool
      then '(c, it) <- sq_pop (f_changes st) ;; pop_changes n (set_changes st c) (fst it :: acc)
      else Ok (st, acc)
  end.
(** dynamic_flow.py:178-217 [extend(new_inflow, max_extension_time)] for a
    finite [max_extension_time].  The cache of get_edge_loads is not modelled. *)
Definition flow_extend (k : bool) (nw : Net) (st : Flow) (new_inflow : list (nat * rates)) (maxt : Qc) : res (Flow * list nat) :=
  st1 <- foldM (extend_edge k nw) new_inflow st ;;
  match ext_min (ext_min (dq_min_change (f_dq st1)) (sq_min_key (f_changes st1))) (Fin maxt) with
  | Fin phi' =>
      let st2 := set_phi st1 phi' in
      st3 <- process_depletions (S (dq_len (f_dq st2))) k st2 ;;
      pop_changes (S (sq_len (f_changes st3))) st3 []
  | _ => Err NotModelled
  end.
