(** * Model of src/utilities/right_constant.py *)
From Verif Require Import Base Arrays PL.

(** right_constant.py:18-20 the fields. *)
Record RC := mkRC { rc_times : list Qc; rc_values : list Qc; rc_lo : ext; rc_hi : ext }.

Definition rc_len (f : RC) : Z := zlen (rc_times f).

(** right_constant.py:32-49 [__init__].  Finiteness of values (42-45) holds by
    typing; that times increase is not checked. *)
Definition rc_init (times values : list Qc) (lo hi : ext) : res RC :=
  assert! (zlen values =? zlen times)%Z ;;
  assert! forallb (fun t => ext_leb lo (Fin t) && ext_leb (Fin t) hi)%bool times ;;
  Ok (mkRC times values lo hi).

(** right_constant.py:71-79 [_eval_with_lrank(at, rnk)] *)
Definition rc_eval_with_lrank (f : RC) (at_ : Qc) (rnk : Z) : res Qc :=
  assert! (ext_leb (rc_lo f) (Fin at_) && ext_leb (Fin at_) (rc_hi f))%bool ;;
  assert! ((-1 <=? rnk)%Z && (rnk <=? rc_len f)%Z)%bool ;;
  r <- elem_lrank (rc_times f) at_ ;;
  assert! (rnk =? r)%Z ;;
  if (rnk =? -1)%Z then pyget (rc_values f) 0 else pyget (rc_values f) rnk.

(** right_constant.py:51-52, 66-69 [__call__]/[eval], finite [at]. *)
Definition rc_eval (f : RC) (at_ : Qc) : res Qc :=
  assert! (ext_leb (rc_lo f) (Fin at_) && ext_leb (Fin at_) (rc_hi f))%bool ;;
  rnk <- elem_lrank (rc_times f) at_ ;;
  rc_eval_with_lrank f at_ rnk.

(** right_constant.py:61-63 the backward scan from index [n - 1]. *)
Fixpoint scan_back_l (times : list Qc) (at_ : Qc) (n : nat) : res Z :=
  match n with
  | O => Ok (-1)%Z
  | S k => t <- pyget times (Z.of_nat k) ;;
           if qltb at_ t then scan_back_l times at_ k else Ok (Z.of_nat k)
  end.
(** right_constant.py:54-64 [eval_from_end] *)
Definition rc_eval_from_end (f : RC) (at_ : Qc) : res Qc :=
  assert! (ext_leb (rc_lo f) (Fin at_) && ext_leb (Fin at_) (rc_hi f))%bool ;;
  rnk <- scan_back_l (rc_times f) at_ (length (rc_times f)) ;;
  rc_eval_with_lrank f at_ rnk.

(** right_constant.py:81-90 [extend]; the mutation becomes the returned object.
    The lists are shared with every function built by [-f] or [f.integral()]. *)
Definition rc_extend (f : RC) (start_time value : Qc) : res RC :=
  tl <- pyget (rc_times f) (-1) ;;
  assert! qleb (tl - eps) start_time ;;
  vl <- pyget (rc_values f) (-1) ;;
  if qleb (qabs (vl - value)) eps then Ok f
  else if qleb (qabs (start_time - tl)) eps then
    Ok (mkRC (rc_times f) (set_nth (rc_values f) (length (rc_values f) - 1) value) (rc_lo f) (rc_hi f))
  else Ok (mkRC (rc_times f ++ [start_time]) (rc_values f ++ [value]) (rc_lo f) (rc_hi f)).

(** right_constant.py:115-118, 132-137: [while ptr < len - 1 and times[ptr + 1] <= time]. *)
Fixpoint adv (fuel : nat) (times : list Qc) (p : Z) (time : Qc) : res Z :=
  match fuel with
  | O => Err OutOfFuel
  | S k =>
      if (p <? zlen times - 1)%Z then
        t <- pyget times (p + 1) ;;
        if qleb t time then adv k times (p + 1) time else Ok p
      else Ok p
  end.
Definition adv_fn (f : RC) (p : Z) (time : Qc) : res Z := adv (S (length (rc_times f))) (rc_times f) p time.

(** right_constant.py:114-119 the loop of [__radd__]. *)
Fixpoint add_loop (f g : RC) (lp rp : Z) (times : list Qc) : res (list Qc) :=
  match times with
  | [] => Ok []
  | t :: r =>
      lp' <- adv_fn f lp t ;; rp' <- adv_fn g rp t ;;
      a <- pyget (rc_values f) lp' ;; b <- pyget (rc_values g) rp' ;;
      vs <- add_loop f g lp' rp' r ;; Ok (a + b :: vs)
  end.
(** right_constant.py:101-121, 143-144 [__radd__], [__add__] on two functions. *)
Definition rc_plus (f g : RC) : res RC :=
  assert! (ext_eqb (rc_lo f) (rc_lo g) && ext_eqb (rc_hi f) (rc_hi g))%bool ;;
  let times := merge_sorted (rc_times f) (rc_times g) in
  values <- add_loop f g 0 0 times ;;
  rc_init times values (rc_lo f) (rc_hi f).

(** Advance every pointer, right_constant.py:132-137. *)
Fixpoint advs (fs : list RC) (ptrs : list Z) (time : Qc) : res (list Z) :=
  match fs, ptrs with
  | f :: fs', p :: ps' => p' <- adv_fn f p time ;; r <- advs fs' ps' time ;; Ok (p' :: r)
  | _, _ => Ok []
  end.
(** Python's [sum(functions[j].values[ptrs[j]] for j ...)], right_constant.py:138-140. *)
Fixpoint sum_at (acc : Qc) (fs : list RC) (ptrs : list Z) : res Qc :=
  match fs, ptrs with
  | f :: fs', p :: ps' => v <- pyget (rc_values f) p ;; sum_at (acc + v) fs' ps'
  | _, _ => Ok acc
  end.
Fixpoint sum_loop (fs : list RC) (ptrs : list Z) (times : list Qc) : res (list Qc) :=
  match times with
  | [] => Ok []
  | t :: r =>
      ptrs' <- advs fs ptrs t ;;
      v <- sum_at 0 fs ptrs' ;;
      vs <- sum_loop fs ptrs' r ;; Ok (v :: vs)
  end.
(** right_constant.py:123-141 [RightConstant.sum(functions, domain)] *)
Definition rc_sum (fs : list RC) (lo hi : ext) : res RC :=
  match fs with
  | [] => rc_init [0] [0] lo hi
  | _ =>
      times <- merge_sorted_many (map rc_times fs) ;;
      values <- sum_loop fs (map (fun _ => 0%Z) fs) times ;;
      rc_init times values lo hi
  end.

(** right_constant.py:146-147 [__neg__] *)
Definition rc_neg (f : RC) : res RC := rc_init (rc_times f) (map Qcopp (rc_values f)) (rc_lo f) (rc_hi f).
(** right_constant.py:149-152 [__sub__] *)
Definition rc_sub (f g : RC) : res RC := n <- rc_neg g ;; rc_plus f n.

(** right_constant.py:154-165 [simplify]; new lists built reversed. *)
Definition rc_simplify (f : RC) : res RC :=
  t0 <- pyget (rc_times f) 0 ;; v0 <- pyget (rc_values f) 0 ;;
  acc <- foldM (fun (acc : list Qc * list Qc) (i : nat) =>
            a <- pyget (rc_values f) (Z.of_nat i) ;; b <- pyget (rc_values f) (Z.of_nat i + 1) ;;
            if qleb eps1000 (qabs (a - b)) then
              t <- pyget (rc_times f) (Z.of_nat i + 1) ;;
              Ok (t :: fst acc, b :: snd acc)
            else Ok acc)
         (seq 0 (length (rc_times f) - 1)) ([t0], [v0]) ;;
  rc_init (rev (fst acc)) (rev (snd acc)) (rc_lo f) (rc_hi f).

(** right_constant.py:173-175: [values[i+1] = values[i] + self.values[i] * (times[i+1] - times[i])]. *)
Fixpoint integral_vals (acc : Qc) (times values : list Qc) : list Qc :=
  match times, values with
  | t :: (t' :: _) as r, v :: vs => acc :: integral_vals (acc + v * (t' - t)) r vs
  | [_], _ => [acc]
  | _, _ => []
  end.
(** right_constant.py:167-178 [integral] (the result shares the times list). *)
Definition rc_integral (f : RC) : res PL :=
  t0 <- pyget (rc_times f) 0 ;; tl <- pyget (rc_times f) (-1) ;;
  assert! (ext_eqb (Fin t0) (rc_lo f) && ext_leb (Fin (tl + 1)) (rc_hi f))%bool ;;
  v0 <- pyget (rc_values f) 0 ;; vl <- pyget (rc_values f) (-1) ;;
  pl_init (rc_times f) (integral_vals 0 (rc_times f) (rc_values f)) v0 vl (rc_lo f) (rc_hi f).
