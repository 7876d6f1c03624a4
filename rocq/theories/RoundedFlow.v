(** * DynamicFlow with floating-point arithmetic

    core/dynamic_flow.py and what it uses of FlowRatesCollection, RightConstant
    and PiecewiseLinear, with every addition, subtraction, multiplication and
    division rounded ([rnd], see Rounded.v); comparisons, [abs], [min], [max],
    negation and literals 0 are exact.  [on] says whether assertions are
    executed.  Numbers are values of floats: no overflow, no NaN. *)
From Verif Require Import Base Spec Arrays PL RC FRC PQ PQSpec DynFlow DynRun Rounded.

(** [assert b] *)
Definition asr (on b : bool) : res unit := if on then assertb b else Ok tt.

Section Flow.
Variable rnd : Qc -> Qc.
Variable on : bool.
Notation ep := (r_eps rnd).
(** [a / b] *)
Definition fdiv (a b : Qc) : res Qc := q <- pydiv a b ;; Ok (rnd q).

(** ** piecewise_linear.py *)
(** piecewise_linear.py:176-189 *)
Definition r_gradient (f : PL) (i : Z) : res Qc :=
  _ <- asr on ((-1 <=? i)%Z && (i <? pl_len f)%Z)%bool ;;
  if (i =? -1)%Z then Ok (pl_first f)
  else if (i =? pl_len f - 1)%Z then Ok (pl_last f)
  else
    v1 <- pyget (pl_values f) (i + 1) ;; v0 <- pyget (pl_values f) i ;;
    t1 <- pyget (pl_times f) (i + 1) ;; t0 <- pyget (pl_times f) i ;;
    fdiv (rnd (v1 - v0)) (rnd (t1 - t0)).
(** piecewise_linear.py:152-174 *)
Definition r_eval_with_rank (f : PL) (at_ : Qc) (rnk : Z) : res Qc :=
  _ <- asr on (ext_leb (pl_lo f) (Fin at_) && ext_leb (Fin at_) (pl_hi f))%bool ;;
  _ <- asr on ((-1 <=? rnk)%Z && (rnk <=? pl_len f)%Z)%bool ;;
  t0 <- pyget (pl_times f) 0 ;;
  _ <- asr on (negb (rnk =? -1)%Z || qleb at_ t0)%bool ;;
  tl <- pyget (pl_times f) (-1) ;;
  _ <- asr on (negb (rnk =? pl_len f - 1)%Z || qltb tl at_)%bool ;;
  _ <- (if (on && (-1 <? rnk)%Z && (rnk <? pl_len f - 1)%Z)%bool then
          tr <- pyget (pl_times f) rnk ;; tr1 <- pyget (pl_times f) (rnk + 1) ;;
          assertb (qltb tr at_ && qleb at_ tr1)%bool
        else Ok tt) ;;
  if (rnk =? -1)%Z then
    g <- r_gradient f rnk ;; v0 <- pyget (pl_values f) 0 ;;
    Ok (rnd (v0 + rnd (rnd (at_ - t0) * g)))
  else if (rnk =? pl_len f - 1)%Z then
    g <- r_gradient f rnk ;; vl <- pyget (pl_values f) (-1) ;;
    Ok (rnd (vl + rnd (rnd (at_ - tl) * g)))
  else
    v <- pyget (pl_values f) rnk ;; t <- pyget (pl_times f) rnk ;;
    g <- r_gradient f rnk ;;
    Ok (rnd (v + rnd (rnd (at_ - t) * g))).
(** piecewise_linear.py:55-63 *)
Definition r_pl_eval (f : PL) (at_ : Qc) : res Qc :=
  _ <- asr on (ext_leb (pl_lo f) (Fin at_) && ext_leb (Fin at_) (pl_hi f))%bool ;;
  rnk <- elem_rank (pl_times f) at_ ;; r_eval_with_rank f at_ rnk.
(** piecewise_linear.py:124-135 *)
Definition r_eval_from_end (f : PL) (at_ : Qc) : res Qc :=
  _ <- asr on (ext_leb (pl_lo f) (Fin at_) && ext_leb (Fin at_) (pl_hi f))%bool ;;
  rnk <- scan_back (pl_times f) at_ (length (pl_times f)) ;; r_eval_with_rank f at_ rnk.
(** piecewise_linear.py:514-530 *)
Definition r_extend_with_slope (f : PL) (time slope : Qc) : res PL :=
  tl <- pyget (pl_times f) (-1) ;;
  _ <- asr on (qleb (rnd (tl - ep)) time) ;;
  if qleb (qabs (rnd (pl_last f - slope))) ep then Ok f
  else if qltb ep (qabs (rnd (time - tl))) then
    vl <- pyget (pl_values f) (-1) ;;
    let val := rnd (vl + rnd (rnd (time - tl) * pl_last f)) in
    Ok (mkPL (pl_times f ++ [time]) (pl_values f ++ [val]) (pl_first f) slope (pl_lo f) (pl_hi f))
  else Ok (mkPL (pl_times f) (pl_values f) (pl_first f) slope (pl_lo f) (pl_hi f)).

(** ** right_constant.py:81-90 *)
Definition r_rc_extend (f : RC) (start_time value : Qc) : res RC :=
  tl <- pyget (rc_times f) (-1) ;;
  _ <- asr on (qleb (rnd (tl - ep)) start_time) ;;
  vl <- pyget (rc_values f) (-1) ;;
  if qleb (qabs (rnd (vl - value))) ep then Ok f
  else if qleb (qabs (rnd (start_time - tl))) ep then
    Ok (mkRC (rc_times f) (set_nth (rc_values f) (length (rc_values f) - 1) value) (rc_lo f) (rc_hi f))
  else Ok (mkRC (rc_times f ++ [start_time]) (rc_values f ++ [value]) (rc_lo f) (rc_hi f)).

(** ** flow_rates_collection.py *)
(** [sum(d.values())] *)
Definition r_rates_sum (d : rates) : Qc := fold_left (fun acc p => rnd (acc + snd p)) d 0.
(** flow_rates_collection.py:16-20 *)
Definition r_new_item (time : Qc) (values : rates) : res item :=
  _ <- asr on (forallb (fun p => qltb 0 (snd p)) values) ;; Ok (mkItem time values).
(** flow_rates_collection.py:90-92 *)
Fixpoint r_ext_fresh (fns : list (nat * RC)) (time : Qc) (values : rates) : res (list (nat * RC)) :=
  match values with
  | [] => Ok fns
  | (i, v) :: r => f <- r_rc_extend new_flow_fn time v ;; r_ext_fresh (dset fns i f) time r
  end.
(** flow_rates_collection.py:95-98 *)
Fixpoint r_ext_values (fns : list (nat * RC)) (time : Qc) (values : rates) : res (list (nat * RC)) :=
  match values with
  | [] => Ok fns
  | (i, v) :: r =>
      let f0 := match dget fns i with Some f => f | None => new_flow_fn end in
      f <- r_rc_extend f0 time v ;; r_ext_values (dset fns i f) time r
  end.
(** flow_rates_collection.py:99-101 *)
Fixpoint r_ext_zeros (fns : list (nat * RC)) (time : Qc) (tail_vals values : rates) : res (list (nat * RC)) :=
  match tail_vals with
  | [] => Ok fns
  | (i, _) :: r =>
      if dhas values i then r_ext_zeros fns time r values
      else f0 <- dfetch fns i ;; f <- r_rc_extend f0 time 0 ;; r_ext_zeros (dset fns i f) time r values
  end.
(** flow_rates_collection.py:85-104 *)
Definition r_frc_extend (c : FRC) (time : Qc) (values : rates) (values_sum : Qc) : res FRC :=
  it <- r_new_item time values ;;
  fns <- match c_chain c with
         | [] => r_ext_fresh (c_fns c) time values
         | i0 :: r =>
             let tail := last r i0 in
             _ <- asr on (qleb (it_time tail) (rnd (time + ep))) ;;
             fns1 <- r_ext_values (c_fns c) time values ;;
             r_ext_zeros fns1 time (it_vals tail) values
         end ;;
  acc <- r_extend_with_slope (c_acc c) time values_sum ;;
  Ok (mkFRC fns (c_chain c ++ [it]) acc).

(** ** dynamic_flow.py *)
(** dynamic_flow.py:86-95; the empty collection needs no arithmetic *)
Definition r_flow_init (nw : Net) : res Flow :=
  c <- frc_init [] ;;
  let n := length (n_cap nw) in
  Ok (mkFlow 0 (repeat c n) (repeat c n) (repeat queue0 n) sq_empty dq_empty).
(** dynamic_flow.py:112-114, 135-137, 153-155, 175-176 *)
Definition r_out_extend (st : Flow) (e : nat) (time : Qc) (values : rates) (s : Qc) : res Flow :=
  c <- getn (f_out st) e ;; c' <- r_frc_extend c time values s ;;
  Ok (set_changes (set_out st (upd (f_out st) e c')) (sq_set (f_changes st) (e, time) (Fin time))).
(** dynamic_flow.py:116-117, 139-140, 157-158 *)
Definition r_queue_extend (st : Flow) (e : nat) (time slope : Qc) : res Flow :=
  f <- getn (f_q st) e ;; f' <- r_extend_with_slope f time slope ;; Ok (set_q st (upd (f_q st) e f')).
(** [1000 * eps] *)
Definition r_eps1000 : Qc := rnd (Q2Qc (1000 # 1) * ep).
(** dynamic_flow.py:120 and 163 [assert self.queues[e](depl_time) < 1000 * eps] *)
Definition r_assert_depleted (st : Flow) (e : nat) (time : Qc) : res unit :=
  if on then f <- getn (f_q st) e ;; v <- r_pl_eval f time ;; assertb (qltb v r_eps1000) else Ok tt.
(** [{i: factor * value for i, value in new_inflow.items()}] *)
Definition r_scale (factor : Qc) (d : rates) : rates := map (fun p => (fst p, rnd (factor * snd p))) d.
(** dynamic_flow.py:108-123 *)
Definition r_case_i (nw : Net) (st : Flow) (e : nat) (cur_queue : Qc) : res Flow :=
  cap <- getn (n_cap nw) e ;; tau <- getn (n_tau nw) e ;;
  w <- fdiv cur_queue cap ;;
  st1 <- r_out_extend st e (rnd (rnd (f_phi st + w) + tau)) [] 0 ;;
  st2 <- r_queue_extend st1 e (f_phi st) (if qeqb cur_queue 0 then 0 else - cap) ;;
  if qltb 0 cur_queue then
    _ <- r_assert_depleted st2 e (rnd (f_phi st + w)) ;;
    d <- dq_set (f_dq st2) e (rnd (f_phi st + w)) None ;; Ok (set_dq st2 d)
  else drop_depletion st2 e.
(** dynamic_flow.py:125-142 *)
Definition r_case_ii (nw : Net) (st : Flow) (e : nat) (new_inflow : rates) (cur_queue acc_in : Qc) : res Flow :=
  cap <- getn (n_cap nw) e ;; tau <- getn (n_tau nw) e ;;
  w <- fdiv cur_queue cap ;;
  let acc_out := qmin cap acc_in in
  factor <- fdiv acc_out acc_in ;;
  st1 <- r_out_extend st e (rnd (rnd (f_phi st + w) + tau)) (r_scale factor new_inflow) acc_out ;;
  st2 <- r_queue_extend st1 e (f_phi st) (qmax (rnd (acc_in - cap)) 0) ;;
  drop_depletion st2 e.
(** dynamic_flow.py:144-165 *)
Definition r_case_iii (nw : Net) (st : Flow) (e : nat) (new_inflow : rates) (cur_queue acc_in : Qc) : res Flow :=
  cap <- getn (n_cap nw) e ;; tau <- getn (n_tau nw) e ;;
  w <- fdiv cur_queue cap ;;
  factor <- fdiv cap acc_in ;;
  st1 <- r_out_extend st e (rnd (rnd (f_phi st + w) + tau)) (r_scale factor new_inflow) cap ;;
  let slope := rnd (acc_in - cap) in
  st2 <- r_queue_extend st1 e (f_phi st) slope ;;
  x <- fdiv cur_queue slope ;;
  let depl_time := rnd (f_phi st - x) in
  _ <- r_assert_depleted st2 e depl_time ;;
  d <- dq_set (f_dq st2) e depl_time (Some (rnd (depl_time + tau), (new_inflow, acc_in))) ;;
  Ok (set_dq st2 d).
(** dynamic_flow.py:190-202 *)
Definition r_extend_edge (nw : Net) (st : Flow) (p : nat * rates) : res Flow :=
  let e := fst p in let nf := snd p in
  c <- getn (f_in st) e ;;
  '(c1, old) <- frc_get c (f_phi st) ;;
  let st1 := set_in st (upd (f_in st) e c1) in
  if rates_eqb old nf then Ok st1
  else
    let acc_in := r_rates_sum nf in
    qe <- getn (f_q st1) e ;;
    qv <- r_eval_from_end qe (f_phi st1) ;;
    let cur_queue := qmax qv 0 in
    c2 <- r_frc_extend c1 (f_phi st1) nf acc_in ;;
    let st2 := set_in st1 (upd (f_in st1) e c2) in
    if qeqb acc_in 0 then r_case_i nw st2 e cur_queue
    else
      cap <- getn (n_cap nw) e ;;
      if (qeqb cur_queue 0 || qleb (rnd (cap - ep)) acc_in)%bool
      then r_case_ii nw st2 e nf cur_queue acc_in
      else r_case_iii nw st2 e nf cur_queue acc_in.
(** dynamic_flow.py:167-176 *)
Definition r_deplete_one (st : Flow) : res Flow :=
  '(d, (e, t, ch)) <- dq_pop (f_dq st) ;;
  match t with
  | Fin depl_time =>
      st1 <- r_queue_extend (set_dq st d) e depl_time 0 ;;
      f <- getn (f_q st1) e ;;
      vl <- pyget (pl_values f) (-1) ;;
      _ <- asr on (qltb (qabs vl) r_eps1000) ;;
      let f' := mkPL (pl_times f) (set_nth (pl_values f) (length (pl_values f) - 1) 0)
                     (pl_first f) (pl_last f) (pl_lo f) (pl_hi f) in
      let st2 := set_q st1 (upd (f_q st1) e f') in
      match ch with
      | None => Ok st2
      | Some (Fin ct, (v, s)) => r_out_extend st2 e ct v s
      | Some _ => Err NotModelled     (* times are finite *)
      end
  | _ => Err NotModelled
  end.
Fixpoint r_process_depletions (fuel : nat) (st : Flow) : res Flow :=
  match fuel with
  | O => Err OutOfFuel
  | S n =>
      if (ext_leb (dq_min_depl (f_dq st)) (Fin (f_phi st)) && (0 <? dq_len (f_dq st))%nat)%bool
      then st' <- r_deplete_one st ;; r_process_depletions n st'
      else Ok st
  end.
(** dynamic_flow.py:178-217 *)
Definition r_flow_extend (nw : Net) (st : Flow) (new_inflow : list (nat * rates)) (maxt : Qc) : res (Flow * list nat) :=
  st1 <- foldM (r_extend_edge nw) new_inflow st ;;
  match ext_min (ext_min (dq_min_change (f_dq st1)) (sq_min_key (f_changes st1))) (Fin maxt) with
  | Fin phi' =>
      let st2 := set_phi st1 phi' in
      st3 <- r_process_depletions (S (dq_len (f_dq st2))) st2 ;;
      pop_changes (S (sq_len (f_changes st3))) st3 []
  | _ => Err NotModelled
  end.
(** Runs of client calls, as DynRun.v *)
Definition r_flow_step (nw : Net) (st : Flow) (c : call) : res (Flow * list nat) :=
  match c with
  | CExtend ni maxt => r_flow_extend nw st ni maxt
  | COutflow e => c <- getn (f_out st) e ;; '(c', _) <- frc_get c (f_phi st) ;;
                  Ok (set_out st (upd (f_out st) e c'), [])
  end.
Fixpoint r_flow_from (nw : Net) (st : Flow) (cs : list call) : res Flow :=
  match cs with
  | [] => Ok st
  | c :: r => '(st', _) <- r_flow_step nw st c ;; r_flow_from nw st' r
  end.
Definition r_flow_run (nw : Net) (cs : list call) : res Flow := st <- r_flow_init nw ;; r_flow_from nw st cs.
End Flow.
