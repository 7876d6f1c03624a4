(** * Model of src/core/flow_rates_collection.py *)
From Verif Require Import Base Arrays PL RC.

(** ** Python dicts with integer keys: association lists in insertion order. *)
Section Dict.
Context {B : Type}.
(** [d.get(k)] *)
Fixpoint dget (d : list (nat * B)) (k : nat) : option B :=
  match d with [] => None | (j, v) :: r => if Nat.eqb j k then Some v else dget r k end.
(** [d[k]] *)
Definition dfetch (d : list (nat * B)) (k : nat) : res B :=
  match dget d k with Some v => Ok v | None => Err KeyError end.
(** [d[k] = v]: an existing key keeps its position. *)
Fixpoint dset (d : list (nat * B)) (k : nat) (v : B) : list (nat * B) :=
  match d with
  | [] => [(k, v)]
  | (j, w) :: r => if Nat.eqb j k then (j, v) :: r else (j, w) :: dset r k v
  end.
(** [k in d] *)
Definition dhas (d : list (nat * B)) (k : nat) : bool := match dget d k with Some _ => true | None => false end.
End Dict.

(** [Dict[int, float]]: rates by commodity. *)
Definition rates := list (nat * Qc).
(** [d1 == d2] for dicts: same number of keys, equal values; order is irrelevant. *)
Definition rates_eqb (a b : rates) : bool :=
  (Nat.eqb (length a) (length b) &&
   forallb (fun p => match dget b (fst p) with Some v => qeqb (snd p) v | None => false end) a)%bool.
(** [sum(d.values())] *)
Definition rates_sum (d : rates) : Qc := fold_left (fun acc p => acc + snd p) d 0.

(** flow_rates_collection.py:11-14 an item; [next_item] is the rest of the
    list that holds the chain. *)
Record item := mkItem { it_time : Qc; it_vals : rates }.
(** flow_rates_collection.py:16-20 the constructor with its assertion. *)
Definition new_item (time : Qc) (values : rates) : res item :=
  assert! forallb (fun p => qltb 0 (snd p)) values ;; Ok (mkItem time values).

(** flow_rates_collection.py:23-27 the fields.  [c_chain] is the linked list
    from [_queue_head] to [_queue_tail]; the empty list is head = tail = None.
    Items dropped from the head are unreachable in the code as well. *)
Record FRC := mkFRC { c_fns : list (nat * RC); c_chain : list item; c_acc : PL }.

(** flow_rates_collection.py:119-121 [_new_flow_fn] *)
Definition new_flow_fn : RC := mkRC [0] [0] (Fin 0) PInf.

(** flow_rates_collection.py:42-46 the rates of the items built in the constructor *)
Fixpoint rates_at (fns : list (nat * RC)) (time : Qc) : res rates :=
  match fns with
  | [] => Ok []
  | (i, f) :: r =>
      v <- rc_eval f time ;; rs <- rates_at r time ;;
      Ok (if qltb 0 v then (i, v) :: rs else rs)
  end.
(** flow_rates_collection.py:29-49 [__init__]; [RightConstant.sum] has the
    default domain (0, inf), right_constant.py:124. *)
Definition frc_init (fns : list (nat * RC)) : res FRC :=
  head <- new_item 0 [] ;;
  total <- rc_sum (map snd fns) (Fin 0) PInf ;;
  acc <- rc_integral total ;;
  let times := fold_left (fun ts p => merge_sorted ts (rc_times (snd p))) fns [] in
  items <- mapM (fun t => v <- rates_at fns t ;; new_item t v) times ;;
  Ok (mkFRC fns (head :: items) acc).

(** flow_rates_collection.py:51-64 [__getstate__] and 66-83 [__setstate__] *)
Record frc_state := mkState { st_fns : list (nat * RC); st_acc : PL; st_queue : list (Qc * rates) }.
Definition frc_getstate (c : FRC) : frc_state :=
  mkState (c_fns c) (c_acc c) (map (fun it => (it_time it, it_vals it)) (c_chain c)).
Definition frc_setstate (s : frc_state) : res FRC :=
  chain <- mapM (fun p => new_item (fst p) (snd p)) (st_queue s) ;;
  Ok (mkFRC (st_fns s) chain (st_acc s)).

(** flow_rates_collection.py:90-92: every listed commodity gets a new function. *)
Fixpoint ext_fresh (fns : list (nat * RC)) (time : Qc) (values : rates) : res (list (nat * RC)) :=
  match values with
  | [] => Ok fns
  | (i, v) :: r => f <- rc_extend new_flow_fn time v ;; ext_fresh (dset fns i f) time r
  end.
(** flow_rates_collection.py:95-98 *)
Fixpoint ext_values (fns : list (nat * RC)) (time : Qc) (values : rates) : res (list (nat * RC)) :=
  match values with
  | [] => Ok fns
  | (i, v) :: r =>
      let f0 := match dget fns i with Some f => f | None => new_flow_fn end in
      f <- rc_extend f0 time v ;; ext_values (dset fns i f) time r
  end.
(** flow_rates_collection.py:99-101 *)
Fixpoint ext_zeros (fns : list (nat * RC)) (time : Qc) (tail_vals values : rates) : res (list (nat * RC)) :=
  match tail_vals with
  | [] => Ok fns
  | (i, _) :: r =>
      if dhas values i then ext_zeros fns time r values
      else f0 <- dfetch fns i ;; f <- rc_extend f0 time 0 ;; ext_zeros (dset fns i f) time r values
  end.
(** flow_rates_collection.py:85-104 [extend].  An exception in the middle would
    leave a partially updated object; the model returns only the exception. *)
Definition frc_extend (c : FRC) (time : Qc) (values : rates) (values_sum : Qc) : res FRC :=
  it <- new_item time values ;;
  fns <- match c_chain c with
         | [] => ext_fresh (c_fns c) time values
         | i0 :: r =>
             let tail := last r i0 in
             assert! qleb (it_time tail) (time + eps) ;;
             fns1 <- ext_values (c_fns c) time values ;;
             ext_zeros fns1 time (it_vals tail) values
         end ;;
  acc <- extend_with_slope (c_acc c) time values_sum ;;
  Ok (mkFRC fns (c_chain c ++ [it]) acc).

(** flow_rates_collection.py:112-116 the loop that advances the head. *)
Fixpoint advance_head (h : item) (r : list item) (time : Qc) : list item :=
  match r with
  | n :: r' => if qleb (it_time n) time then advance_head n r' time else h :: r
  | [] => [h]
  end.
(** flow_rates_collection.py:106-117 [get_values_at_time]: new collection and rates. *)
Definition frc_get (c : FRC) (time : Qc) : res (FRC * rates) :=
  match c_chain c with
  | [] => Ok (c, [])
  | h :: r =>
      if qltb time (it_time h) then Err ValueError
      else match advance_head h r time with
           | h' :: r' => Ok (mkFRC (c_fns c) (h' :: r') (c_acc c), it_vals h')
           | [] => Err NotModelled   (* impossible *)
           end
  end.
