(** * Small specification vocabulary used by the property statements.
    Nothing here depends on any model file. *)
From Verif Require Import Base.
From Coq Require Export Sorting.Sorted Sorting.Permutation.

(** Non-decreasing / strictly increasing lists (all pairs, not only neighbours). *)
Definition nondecreasing (l : list Qc) : Prop := StronglySorted Qcle l.
Definition increasing (l : list Qc) : Prop := StronglySorted Qclt l.

(** [gap a b]: b is more than eps after a. *)
Definition gap (a b : Qc) : Prop := a < b - eps.
(** Distinct entries are more than eps apart. *)
Definition separated (l : list Qc) : Prop := forall x y, In x l -> In y l -> x < y -> gap x y.

(** Ranks in a list, with the conventions arr[-1] = -inf, arr[len] = +inf.
    [is_rank arr x i]: arr[i] < x <= arr[i+1]. *)
Definition is_rank (arr : list Qc) (x : Qc) (i : Z) : Prop :=
  (-1 <= i < Z.of_nat (length arr))%Z /\
  (forall v, (0 <= i)%Z -> nth_error arr (Z.to_nat i) = Some v -> v < x) /\
  (forall v, nth_error arr (Z.to_nat (i + 1)) = Some v -> x <= v).
(** [is_lrank arr x i]: arr[i] <= x < arr[i+1]. *)
Definition is_lrank (arr : list Qc) (x : Qc) (i : Z) : Prop :=
  (-1 <= i < Z.of_nat (length arr))%Z /\
  (forall v, (0 <= i)%Z -> nth_error arr (Z.to_nat i) = Some v -> v <= x) /\
  (forall v, nth_error arr (Z.to_nat (i + 1)) = Some v -> x < v).

(** A natural number as a rational. *)
Definition qn (n : nat) : Qc := Q2Qc (inject_Z (Z.of_nat n)).
(** Small rational constants for examples: [qz n = n], [qr n d = n/d]. *)
Definition qz (n : Z) : Qc := Q2Qc (inject_Z n).
Definition qr (n : Z) (d : positive) : Qc := Q2Qc (n # d).
