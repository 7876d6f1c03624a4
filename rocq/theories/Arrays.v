(** * Model of src/utilities/arrays.py *)
From Verif Require Import Base.

(** arrays.py:6-14 [arg_min(list, key)]: first item whose key is minimal;
    [None] on an empty iterable.  [key] is an arbitrary function. *)
Definition arg_min {A} (key : A -> Qc) (l : list A) : option A :=
  match fold_left (fun (acc : option (Qc * A)) item =>
                     match acc with
                     | None => Some (key item, item)
                     | Some (m, it) => if qltb (key item) m then Some (key item, item) else acc
                     end) l None with
  | Some (_, it) => Some it
  | None => None
  end.

(** The binary search loop shared by arrays.py:29-35 ([elem_rank]),
    arrays.py:47-55 ([elem_lrank]) and piecewise_linear.py:69-78
    ([PiecewiseLinear._find_rnk_between]); they differ only in the test
    ([x <= arr[mid]] resp. [x < arr[mid]]) and the initial bounds.
    [fuel] bounds the number of iterations of the [while high > low] loop. *)
Fixpoint bisect (fuel : nat) (test : Qc -> bool) (arr : list Qc) (low high : Z) : res Z :=
  match fuel with
  | O => Err OutOfFuel
  | S k =>
      if (low <? high)%Z then
        let mid := ((high + low) / 2)%Z in
        v <- pyget arr mid ;;
        if test v then bisect k test arr low mid
        else bisect k test arr (mid + 1)%Z high
      else Ok (high - 1)%Z
  end.

Definition zlen {A} (l : list A) : Z := Z.of_nat (length l).

(** arrays.py:17-35 [elem_rank(arr, x)] *)
Definition elem_rank (arr : list Qc) (x : Qc) : res Z :=
  a0 <- pyget arr 0 ;;
  if qleb x a0 then Ok (-1)%Z
  else bisect (S (length arr)) (fun v => qleb x v) arr 0 (zlen arr).

(** arrays.py:38-55 [elem_lrank(arr, x)] *)
Definition elem_lrank (arr : list Qc) (x : Qc) : res Z :=
  a0 <- pyget arr 0 ;;
  if qltb x a0 then Ok (-1)%Z
  else bisect (S (length arr)) (fun v => qltb x v) arr 0 (zlen arr).

(** arrays.py:74-77, 92-95, 98-101, 105-108, 111-114: the guarded append.
    [merged] is kept reversed (its last element is the head). *)
Definition push_merged (merged : list Qc) (v : Qc) : list Qc :=
  match merged with
  | [] => [v]
  | m :: r =>
      if qltb m (v - eps) then v :: merged
      else if (qleb (v - eps) m && qltb m v)%bool then v :: r
      else merged
  end.

(** arrays.py:86-117 the three loops of [merge_sorted]; the indices
    [ind1], [ind2] are represented by the remaining suffixes. *)
Fixpoint merge_loop (arr1 : list Qc) : list Qc -> list Qc -> list Qc :=
  fix inner (arr2 : list Qc) (merged : list Qc) : list Qc :=
    match arr1, arr2 with
    | x :: r1, y :: r2 =>
        if qltb x y then merge_loop r1 arr2 (push_merged merged x)
        else inner r2 (push_merged merged y)
    | _, [] => fold_left push_merged arr1 merged
    | [], _ => fold_left push_merged arr2 merged
    end.

(** arrays.py:82-117 [merge_sorted(arr1, arr2)] *)
Definition merge_sorted (arr1 arr2 : list Qc) : list Qc := rev (merge_loop arr1 arr2 []).

(** arrays.py:66-70: [min((j ...), key=..., default=None)] over the arrays
    that are not exhausted, first minimum wins.  The state is the list of
    remaining suffixes; the result splits it at the chosen array. *)
Fixpoint pick_min (arrs : list (list Qc)) : option (Qc * list (list Qc)) :=
  match arrs with
  | [] => None
  | [] :: rest =>
      match pick_min rest with
      | None => None
      | Some (v, rest') => Some (v, [] :: rest')
      end
  | (x :: xs) :: rest =>
      match pick_min rest with
      | None => Some (x, xs :: rest)
      | Some (v, rest') => if qltb v x then Some (v, (x :: xs) :: rest') else Some (x, xs :: rest)
      end
  end.

(** arrays.py:65-78 the [while True] loop. *)
Fixpoint merge_many_loop (fuel : nat) (arrs : list (list Qc)) (merged : list Qc) : res (list Qc) :=
  match fuel with
  | O => Err OutOfFuel
  | S k =>
      match pick_min arrs with
      | None => Ok (rev merged)
      | Some (v, arrs') => merge_many_loop k arrs' (push_merged merged v)
      end
  end.

(** arrays.py:58-79 [merge_sorted_many(arrays)] *)
Definition merge_sorted_many (arrs : list (list Qc)) : res (list Qc) :=
  merge_many_loop (S (length (concat arrs))) arrs [].
