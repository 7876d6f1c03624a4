(** * Properties C01-C05, C61: array utilities (src/utilities/arrays.py) *)
From Verif Require Import Base Spec Arrays ArraysProofs.

(** C01 *)
Theorem C01_elem_rank : forall arr x,
  arr <> [] -> nondecreasing arr ->
  exists i, elem_rank arr x = Ok i /\ is_rank arr x i /\ (forall j, is_rank arr x j -> j = i).
Proof. exact elem_rank_full. Qed.
Print Assumptions C01_elem_rank.

(** C02 *)
Theorem C02_elem_lrank : forall arr x,
  arr <> [] -> nondecreasing arr ->
  exists i, elem_lrank arr x = Ok i /\ is_lrank arr x i /\ (forall j, is_lrank arr x j -> j = i).
Proof. exact elem_lrank_full. Qed.
Print Assumptions C02_elem_lrank.

(** C03.  [StronglySorted gap] : every later entry is more than eps larger. *)
Theorem C03_merge_sorted : forall a b,
  nondecreasing a -> nondecreasing b ->
  StronglySorted gap (merge_sorted a b) /\
  (forall x, In x (merge_sorted a b) -> In x (a ++ b)) /\
  (forall x, In x (a ++ b) -> x <= last (merge_sorted a b) 0 /\ In (last (merge_sorted a b) 0) (a ++ b)) /\
  (separated (a ++ b) -> forall x, In x (merge_sorted a b) <-> In x (a ++ b)).
Proof. exact merge_sorted_full. Qed.
Print Assumptions C03_merge_sorted.

(** C04 *)
Theorem C04_merge_sorted_many : forall arrs,
  Forall nondecreasing arrs ->
  exists out, merge_sorted_many arrs = Ok out /\
  StronglySorted gap out /\
  (forall x, In x out -> In x (concat arrs)) /\
  (forall x, In x (concat arrs) -> x <= last out 0 /\ In (last out 0) (concat arrs)) /\
  (separated (concat arrs) -> forall x, In x out <-> In x (concat arrs)).
Proof. exact merge_sorted_many_full. Qed.
Print Assumptions C04_merge_sorted_many.

Theorem C04_distribution_independent : forall arrs1 arrs2,
  Forall nondecreasing arrs1 -> Forall nondecreasing arrs2 ->
  separated (concat arrs1) -> (forall x, In x (concat arrs1) <-> In x (concat arrs2)) ->
  merge_sorted_many arrs1 = merge_sorted_many arrs2.
Proof. exact merge_sorted_many_indep. Qed.
Print Assumptions C04_distribution_independent.

(** Unconditionally the result depends only on the multiset of entries, and
    the two merge functions agree. *)
Theorem C04_multiset_only : forall arrs1 arrs2,
  Forall nondecreasing arrs1 -> Forall nondecreasing arrs2 ->
  Permutation (concat arrs1) (concat arrs2) ->
  merge_sorted_many arrs1 = merge_sorted_many arrs2.
Proof. exact merge_sorted_many_perm. Qed.
Print Assumptions C04_multiset_only.
Theorem C04_agrees_with_merge_sorted : forall a b,
  nondecreasing a -> nondecreasing b ->
  merge_sorted_many [a; b] = Ok (merge_sorted a b) /\ merge_sorted a b = merge_sorted b a.
Proof. intros a b Ha Hb. exact (conj (merge_sorted_many_pair a b Ha Hb) (merge_sorted_comm a b Ha Hb)). Qed.
Print Assumptions C04_agrees_with_merge_sorted.

(** C05.  The full claim, and its refutation: two eps-separated lists whose
    merge drops 0 and keeps only 1.8 eps. *)
Definition C05_claim : Prop := forall a b x,
  nondecreasing a -> nondecreasing b -> separated a -> separated b -> In x (a ++ b) ->
  exists y, In y (merge_sorted a b) /\ x - eps <= y /\ y <= x + eps.
Definition c05_a : list Qc := [0; Q2Qc (12 # 10) * eps].
Definition c05_b : list Qc := [Q2Qc (6 # 10) * eps; Q2Qc (18 # 10) * eps].
Theorem C05_refuted : ~ C05_claim.
Proof. exact c05_refute. Qed.
Print Assumptions C05_refuted.

(** What does hold: no input moves down, and none moves up by more than
    (number of input entries) * eps. *)
Theorem C05_drift_bound_partial : forall a b x,
  nondecreasing a -> nondecreasing b -> In x (a ++ b) ->
  exists y, In y (merge_sorted a b) /\ x <= y /\ y <= x + qn (length (a ++ b)) * eps.
Proof. intros a b x Ha Hb. exact (proj1 (proj2 (proj2 (merge_sorted_facts a b Ha Hb))) x). Qed.
Print Assumptions C05_drift_bound_partial.

(** C61 *)
Theorem C61_arg_min : forall (A : Type) (key : A -> Qc) l,
  (l = [] -> arg_min key l = None) /\
  (l <> [] -> exists l1 x l2, arg_min key l = Some x /\ l = l1 ++ x :: l2 /\
    (forall y, In y l1 -> key x < key y) /\ (forall y, In y l2 -> key x <= key y)).
Proof. exact arg_min_full. Qed.
Print Assumptions C61_arg_min.

(** ** Non-vacuity: concrete inputs meeting the hypotheses. *)
Example arrays_hyps : nondecreasing [qz 1; qz 3; qz 3; qz 7] /\
  separated ([qz 1; qz 3; qz 3; qz 7] ++ [qz 0; qz 3; qz 9]) /\
  elem_rank [qz 1; qz 3; qz 3; qz 7] (qz 3) = Ok 0%Z /\ elem_lrank [qz 1; qz 3; qz 3; qz 7] (qz 3) = Ok 2%Z /\
  merge_sorted [qz 1; qz 3; qz 3; qz 7] [qz 0; qz 3; qz 9] = [qz 0; qz 1; qz 3; qz 7; qz 9].
Proof.
  split; [|split; [|repeat split; vm_compute; reflexivity]].
  - repeat constructor; vm_compute; discriminate.
  - intros x y Hx Hy Hlt. cbn in Hx, Hy. unfold gap.
    repeat (destruct Hx as [<-|Hx]; [|]); try destruct Hx;
    repeat (destruct Hy as [<-|Hy]; [|]); try destruct Hy;
    vm_compute in Hlt; try discriminate; vm_compute; reflexivity.
Qed.
Example c05_hyps : nondecreasing c05_a /\ nondecreasing c05_b /\
  separated c05_a /\ separated c05_b /\ merge_sorted c05_a c05_b = [Q2Qc (18 # 10) * eps].
Proof. exact c05_hyps_lemma. Qed.
