(** * Proofs about the array utilities *)
From Verif Require Import Base Spec Arrays.
From Coq Require Import Sorting.Sorted Sorting.Permutation.

Definition nthq (l : list Qc) (i : Z) : Qc := nth (Z.to_nat i) l 0.

Lemma nthq_in l i : (0 <= i < zlen l)%Z -> In (nthq l i) l.
Proof. intro H. unfold nthq, zlen in *. apply nth_In. lia. Qed.

Lemma bisect_spec test arr fuel : forall low high,
  (0 <= low <= high)%Z -> (high <= zlen arr)%Z -> (high - low < Z.of_nat fuel)%Z ->
  (forall i j, (low <= i)%Z -> (i <= j)%Z -> (j < high)%Z ->
      test (nthq arr i) = true -> test (nthq arr j) = true) ->
  exists p, bisect fuel test arr low high = Ok (p - 1)%Z /\ (low <= p <= high)%Z /\
    (forall i, (low <= i < p)%Z -> test (nthq arr i) = false) /\
    (forall i, (p <= i < high)%Z -> test (nthq arr i) = true).
Proof.
  induction fuel as [|k IH]; intros low high Hlh Hlen Hf Hmono; [lia|].
  cbn [bisect].
  destruct (Z.ltb_spec low high) as [Hlt|Hge].
  - set (mid := ((high + low) / 2)%Z).
    assert (Hmid : (low <= mid < high)%Z).
    { subst mid. split.
      - apply Z.div_le_lower_bound; lia.
      - apply Z.div_lt_upper_bound; lia. }
    rewrite (pyget_Z arr mid 0) by (unfold zlen in *; lia). cbn [bind].
    fold (nthq arr mid).
    destruct (test (nthq arr mid)) eqn:Ht.
    + destruct (IH low mid) as [p [E [Hp [H1 H2]]]]; try lia.
      { intros i j ? ? ?; apply Hmono; lia. }
      exists p. rewrite E. split; [reflexivity|]. split; [lia|]. split; [exact H1|].
      intros i Hi. destruct (Z.lt_ge_cases i mid) as [Him|Him].
      * apply H2; lia.
      * apply (Hmono mid i); try lia. exact Ht.
    + destruct (IH (mid + 1)%Z high) as [p [E [Hp [H1 H2]]]]; try lia.
      { intros i j ? ? ?; apply Hmono; lia. }
      exists p. rewrite E. split; [reflexivity|]. split; [lia|]. split; [|exact H2].
      intros i Hi. destruct (Z.lt_ge_cases mid i) as [Him|Him].
      * apply H1; lia.
      * destruct (test (nthq arr i)) eqn:Hti; [|reflexivity].
        assert (test (nthq arr mid) = true) by (apply (Hmono i mid); [lia|lia|lia|exact Hti]).
        congruence.
  - exists high. split; [reflexivity|]. split; [lia|].
    split; intros i Hi; lia.
Qed.

(** Sortedness in index form. *)
Lemma sorted_nthq (R : Qc -> Qc -> Prop) l :
  StronglySorted R l ->
  forall i j, (0 <= i < j)%Z -> (j < zlen l)%Z -> R (nthq l i) (nthq l j).
Proof.
  induction 1 as [|a l Hs IH Hall]; intros i j Hij Hj.
  - unfold zlen in Hj. cbn in Hj. lia.
  - unfold zlen in *. cbn [length] in Hj.
    unfold nthq in *.
    replace (Z.to_nat j) with (S (Z.to_nat (j - 1))) by lia. cbn [nth].
    destruct (Z.eq_dec i 0) as [->|Hi].
    + cbn. rewrite Forall_forall in Hall. apply Hall. apply nth_In. lia.
    + replace (Z.to_nat i) with (S (Z.to_nat (i - 1))) by lia. cbn [nth].
      apply IH; lia.
Qed.
Lemma sorted_le_nthq l : StronglySorted Qcle l ->
  forall i j, (0 <= i <= j)%Z -> (j < zlen l)%Z -> nthq l i <= nthq l j.
Proof.
  intros Hs i j Hij Hj. destruct (Z.eq_dec i j) as [->|Hne].
  - qlra.
  - apply (sorted_nthq Qcle); auto. lia.
Qed.

(** ** Ranks (C01, C02) *)

Lemma nth_error_nthq l i v : nth_error l (Z.to_nat i) = Some v -> (0 <= i)%Z -> (i < zlen l)%Z /\ nthq l i = v.
Proof.
  intros H Hi. unfold zlen, nthq. split.
  - assert (Z.to_nat i < length l)%nat by (apply nth_error_Some; congruence). lia.
  - apply nth_error_nth. exact H.
Qed.
Lemma nthq_nth_error l i : (0 <= i < zlen l)%Z -> nth_error l (Z.to_nat i) = Some (nthq l i).
Proof. intro H. unfold nthq. apply nth_error_nth'. unfold zlen in *. lia. Qed.

Lemma is_rank_iff arr x i : is_rank arr x i <->
  (-1 <= i < zlen arr)%Z /\ ((0 <= i)%Z -> nthq arr i < x) /\
  ((i + 1 < zlen arr)%Z -> x <= nthq arr (i + 1)).
Proof.
  unfold is_rank, is_lrank; fold (zlen arr).
  split; intros [H1 [H2 H3]]; split; auto; split.
  - intro Hi. apply H2; [exact Hi|]. apply nthq_nth_error. lia.
  - intro Hi. apply H3. apply nthq_nth_error. lia.
  - intros v Hi Hv. apply nth_error_nthq in Hv; [|exact Hi]. destruct Hv as [_ <-]. auto.
  - intros v Hv. apply nth_error_nthq in Hv; [|lia]. destruct Hv as [Hl <-]. auto.
Qed.
Lemma is_lrank_iff arr x i : is_lrank arr x i <->
  (-1 <= i < zlen arr)%Z /\ ((0 <= i)%Z -> nthq arr i <= x) /\
  ((i + 1 < zlen arr)%Z -> x < nthq arr (i + 1)).
Proof.
  unfold is_rank, is_lrank; fold (zlen arr).
  split; intros [H1 [H2 H3]]; split; auto; split.
  - intro Hi. apply H2; [exact Hi|]. apply nthq_nth_error. lia.
  - intro Hi. apply H3. apply nthq_nth_error. lia.
  - intros v Hi Hv. apply nth_error_nthq in Hv; [|exact Hi]. destruct Hv as [_ <-]. auto.
  - intros v Hv. apply nth_error_nthq in Hv; [|lia]. destruct Hv as [Hl <-]. auto.
Qed.

Lemma is_rank_unique arr x i j :
  StronglySorted Qcle arr -> is_rank arr x i -> is_rank arr x j -> i = j.
Proof.
  rewrite !is_rank_iff. intros Hs [A1 [A2 A3]] [B1 [B2 B3]].
  destruct (Z.lt_trichotomy i j) as [H|[H|H]]; [|exact H|]; exfalso.
  - assert (nthq arr (i+1) <= nthq arr j) by (apply sorted_le_nthq; auto; lia).
    assert (x <= nthq arr (i+1)) by (apply A3; lia).
    assert (nthq arr j < x) by (apply B2; lia). qlra.
  - assert (nthq arr (j+1) <= nthq arr i) by (apply sorted_le_nthq; auto; lia).
    assert (x <= nthq arr (j+1)) by (apply B3; lia).
    assert (nthq arr i < x) by (apply A2; lia). qlra.
Qed.
Lemma is_lrank_unique arr x i j :
  StronglySorted Qcle arr -> is_lrank arr x i -> is_lrank arr x j -> i = j.
Proof.
  rewrite !is_lrank_iff. intros Hs [A1 [A2 A3]] [B1 [B2 B3]].
  destruct (Z.lt_trichotomy i j) as [H|[H|H]]; [|exact H|]; exfalso.
  - assert (nthq arr (i+1) <= nthq arr j) by (apply sorted_le_nthq; auto; lia).
    assert (x < nthq arr (i+1)) by (apply A3; lia).
    assert (nthq arr j <= x) by (apply B2; lia). qlra.
  - assert (nthq arr (j+1) <= nthq arr i) by (apply sorted_le_nthq; auto; lia).
    assert (x < nthq arr (j+1)) by (apply B3; lia).
    assert (nthq arr i <= x) by (apply A2; lia). qlra.
Qed.

(** Search with a start and end rank, used by [_find_rnk_between]. *)
Lemma bisect_rank arr x low high fuel :
  StronglySorted Qcle arr -> (0 <= low <= high)%Z -> (high <= zlen arr)%Z ->
  (high - low < Z.of_nat fuel)%Z ->
  ((0 < low)%Z -> nthq arr (low - 1) < x) ->
  ((high < zlen arr)%Z -> x <= nthq arr high) ->
  exists i, bisect fuel (fun v => qleb x v) arr low high = Ok i /\ is_rank arr x i.
Proof.
  intros Hs Hlh Hh Hf Hlow Hhigh.
  destruct (bisect_spec (fun v => qleb x v) arr fuel low high) as [p [E [Hp [H1 H2]]]]; auto.
  { intros i j ? ? ? Ht. apply qleb_true in Ht. apply qleb_true.
    assert (nthq arr i <= nthq arr j) by (apply sorted_le_nthq; auto; lia). qlra. }
  exists (p - 1)%Z. split; [exact E|]. apply is_rank_iff. split; [lia|]. split; intro Hi.
  - destruct (Z.le_gt_cases low (p - 1)) as [Hc|Hc].
    + assert (E1 := H1 (p-1)%Z ltac:(lia)). apply qleb_false in E1. exact E1.
    + replace (p - 1)%Z with (low - 1)%Z by lia. apply Hlow. lia.
  - replace (p - 1 + 1)%Z with p in * by lia.
    destruct (Z.lt_ge_cases p high) as [Hc|Hc].
    + assert (E1 := H2 p ltac:(lia)). apply qleb_true in E1. exact E1.
    + replace p with high by lia. apply Hhigh. lia.
Qed.

Lemma elem_rank_ok arr x :
  arr <> [] -> StronglySorted Qcle arr ->
  exists i, elem_rank arr x = Ok i /\ is_rank arr x i.
Proof.
  intros Hne Hs. unfold elem_rank.
  assert (Hlen : (0 < length arr)%nat) by (destruct arr; cbn; [congruence|lia]).
  rewrite (pyget_Z arr 0 0) by lia. cbn [bind]. fold (nthq arr 0).
  destruct (qlebP x (nthq arr 0)) as [Hx|Hx].
  - exists (-1)%Z. split; [reflexivity|]. apply is_rank_iff.
    unfold zlen. split; [lia|]. split; intros; [lia|exact Hx].
  - apply bisect_rank; unfold zlen in *; auto; try lia.
Qed.

Lemma elem_lrank_ok arr x :
  arr <> [] -> StronglySorted Qcle arr ->
  exists i, elem_lrank arr x = Ok i /\ is_lrank arr x i.
Proof.
  intros Hne Hs. unfold elem_lrank.
  assert (Hlen : (0 < length arr)%nat) by (destruct arr; cbn; [congruence|lia]).
  rewrite (pyget_Z arr 0 0) by lia. cbn [bind]. fold (nthq arr 0).
  destruct (qltbP x (nthq arr 0)) as [Hx|Hx].
  - exists (-1)%Z. split; [reflexivity|]. apply is_lrank_iff.
    unfold zlen. split; [lia|]. split; intros; [lia|exact Hx].
  - destruct (bisect_spec (fun v => qltb x v) arr (S (length arr)) 0 (zlen arr))
      as [p [E [Hp [H1 H2]]]]; unfold zlen in *; try lia.
    { intros i j ? ? ? Ht. apply qltb_true in Ht. apply qltb_true.
      assert (nthq arr i <= nthq arr j) by (apply sorted_le_nthq; auto; unfold zlen; lia). qlra. }
    exists (p - 1)%Z. split; [exact E|]. apply is_lrank_iff. unfold zlen. split; [lia|]. split; intro Hi.
    + assert (E1 := H1 (p-1)%Z ltac:(lia)). apply qltb_false in E1. exact E1.
    + replace (p - 1 + 1)%Z with p in * by lia.
      assert (E1 := H2 p ltac:(lia)). apply qltb_true in E1. exact E1.
Qed.

(** ** Merging (C03-C05) *)

Lemma gap_trans a b c : gap a b -> gap b c -> gap a c.
Proof. unfold gap. intros. qlra. Qed.
Lemma gap_lt a b : gap a b -> a < b.
Proof. unfold gap. intros. qlra. Qed.

(** The plain (duplicate keeping) merge order of the two inputs. *)
Fixpoint morder (a1 : list Qc) : list Qc -> list Qc :=
  fix inner (a2 : list Qc) : list Qc :=
    match a1, a2 with
    | x :: r1, y :: r2 => if qltb x y then x :: morder r1 a2 else y :: inner r2
    | _, [] => a1
    | [], _ => a2
    end.

Lemma morder_nil_r a : morder a [] = a.
Proof. destruct a; reflexivity. Qed.
Lemma morder_nil_l a : morder [] a = a.
Proof. destruct a; reflexivity. Qed.
Lemma morder_cons x r1 y r2 :
  morder (x :: r1) (y :: r2) =
  if qltb x y then x :: morder r1 (y :: r2) else y :: morder (x :: r1) r2.
Proof. reflexivity. Qed.
Lemma merge_loop_cons x r1 y r2 acc :
  merge_loop (x :: r1) (y :: r2) acc =
  if qltb x y then merge_loop r1 (y :: r2) (push_merged acc x)
  else merge_loop (x :: r1) r2 (push_merged acc y).
Proof. reflexivity. Qed.
Lemma merge_loop_nil_r a acc : merge_loop a [] acc = fold_left push_merged a acc.
Proof. destruct a; reflexivity. Qed.
Lemma merge_loop_nil_l a acc : merge_loop [] a acc = fold_left push_merged a acc.
Proof. destruct a; reflexivity. Qed.

Lemma merge_loop_order a1 : forall a2 acc,
  merge_loop a1 a2 acc = fold_left push_merged (morder a1 a2) acc.
Proof.
  induction a1 as [|x r1 IH1]; intros a2 acc.
  - rewrite merge_loop_nil_l, morder_nil_l. reflexivity.
  - revert acc. induction a2 as [|y r2 IH2]; intro acc.
    + rewrite merge_loop_nil_r, morder_nil_r. reflexivity.
    + rewrite merge_loop_cons, morder_cons. destruct (qltb x y).
      * rewrite IH1. reflexivity.
      * rewrite IH2. reflexivity.
Qed.

Lemma morder_perm a1 : forall a2, Permutation (a1 ++ a2) (morder a1 a2).
Proof.
  induction a1 as [|x r1 IH1]; intros a2.
  - rewrite morder_nil_l. reflexivity.
  - induction a2 as [|y r2 IH2].
    + rewrite morder_nil_r, app_nil_r. reflexivity.
    + rewrite morder_cons. destruct (qltb x y).
      * cbn. constructor. apply IH1.
      * rewrite <- IH2. symmetry. apply Permutation_middle.
Qed.

Lemma morder_sorted a1 : forall a2,
  StronglySorted Qcle a1 -> StronglySorted Qcle a2 -> StronglySorted Qcle (morder a1 a2).
Proof.
  induction a1 as [|x r1 IH1]; intros a2 H1 H2.
  - rewrite morder_nil_l. exact H2.
  - induction a2 as [|y r2 IH2].
    + rewrite morder_nil_r. exact H1.
    + inversion H1 as [|? ? H1s H1a]; subst. inversion H2 as [|? ? H2s H2a]; subst.
      rewrite morder_cons. destruct (qltbP x y) as [Hxy|Hxy].
      * constructor; [apply IH1; auto|].
        apply (Permutation_Forall (morder_perm r1 (y :: r2))).
        apply Forall_app. split; [exact H1a|].
        constructor; [qlra|]. eapply Forall_impl; [|exact H2a]. intros; cbn in *; qlra.
      * constructor; [apply IH2; auto|].
        apply (Permutation_Forall (morder_perm (x :: r1) r2)).
        apply Forall_app. split; [|exact H2a].
        constructor; [qlra|]. eapply Forall_impl; [|exact H1a]. intros; cbn in *; qlra.
Qed.

Lemma sorted_perm_unique : forall l1 l2,
  StronglySorted Qcle l1 -> StronglySorted Qcle l2 -> Permutation l1 l2 -> l1 = l2.
Proof.
  induction l1 as [|a l1 IH]; intros l2 H1 H2 HP.
  - apply Permutation_nil in HP. congruence.
  - destruct l2 as [|b l2]; [symmetry in HP; apply Permutation_nil in HP; discriminate|].
    inversion H1 as [|? ? H1s H1a]; subst. inversion H2 as [|? ? H2s H2a]; subst.
    assert (a = b) as ->.
    { rewrite Forall_forall in H1a, H2a.
      assert (Ha : In a (b :: l2)) by (apply (Permutation_in _ HP); left; auto).
      assert (Hb : In b (a :: l1)) by (apply (Permutation_in _ (Permutation_sym HP)); left; auto).
      destruct Ha as [->|Ha]; auto. destruct Hb as [->|Hb]; auto.
      apply H2a in Ha. apply H1a in Hb. qlra. }
    f_equal. apply IH; auto. eapply Permutation_cons_inv. exact HP.
Qed.

(** The guarded append, folded over a sorted list. *)
Definition dedup (l : list Qc) : list Qc := rev (fold_left push_merged l []).

Lemma merge_sorted_dedup a1 a2 : merge_sorted a1 a2 = dedup (morder a1 a2).
Proof. unfold merge_sorted, dedup. rewrite merge_loop_order. reflexivity. Qed.

(** Invariant of the accumulator (reversed): gaps, membership, domination. *)
Definition rgap (a b : Qc) : Prop := gap b a.

Lemma push_merged_gap acc v :
  StronglySorted rgap acc -> Forall (fun m => m <= v) acc ->
  StronglySorted rgap (push_merged acc v).
Proof.
  intros Hs Hle. unfold push_merged. destruct acc as [|m r]; [repeat constructor|].
  inversion Hs as [|? ? Hr Ha]; subst. inversion Hle as [|? ? Hmv Hrv]; subst.
  destruct (qltbP m (v - eps)) as [H1|H1].
  - constructor; [exact Hs|]. constructor; [exact H1|].
    eapply Forall_impl; [|exact Ha]. intros a Hm. unfold rgap, gap in *. cbn in *. qlra.
  - destruct (qlebP (v - eps) m) as [H2|H2]; destruct (qltbP m v) as [H3|H3]; cbn [andb]; auto.
    constructor; [exact Hr|]. eapply Forall_impl; [|exact Ha].
    intros a Hm. unfold rgap, gap in *. cbn in *. qlra.
Qed.

Lemma push_merged_in acc v x : In x (push_merged acc v) -> In x acc \/ x = v.
Proof.
  unfold push_merged. destruct acc as [|m r]; cbn; [intuition|].
  destruct (qltb m (v - eps)); cbn; [intuition|].
  destruct (qleb (v - eps) m && qltb m v)%bool; cbn; intuition.
Qed.

Lemma push_merged_hd acc v :
  Forall (fun m => m <= v) acc -> exists r, push_merged acc v = v :: r.
Proof.
  intro H. unfold push_merged. destruct acc as [|m r]; [eauto|].
  inversion H; subst. destruct (qltbP m (v - eps)); [eauto|].
  destruct (qlebP (v - eps) m); destruct (qltbP m v); cbn [andb]; eauto.
  - exists r. f_equal. qlra.
  - exists r. f_equal. qlra.
  - exists r. f_equal. qlra.
Qed.

Lemma dedup_fold l : forall acc,
  StronglySorted Qcle l ->
  StronglySorted rgap acc -> (forall a v, In a acc -> In v l -> a <= v) ->
  StronglySorted rgap (fold_left push_merged l acc) /\
  (forall x, In x (fold_left push_merged l acc) -> In x acc \/ In x l).
Proof.
  induction l as [|v l IH]; intros acc Hs Hg Hle; cbn [fold_left].
  - split; auto.
  - inversion Hs as [|? ? Hs' Hall]; subst.
    assert (Hacc : Forall (fun m => m <= v) acc).
    { apply Forall_forall. intros a Ha. apply Hle; [exact Ha|left; reflexivity]. }
    destruct (IH (push_merged acc v)) as [I1 I2].
    + exact Hs'.
    + apply push_merged_gap; auto.
    + intros a w Ha Hw. apply push_merged_in in Ha. destruct Ha as [Ha| ->].
      * apply Hle; [exact Ha|right; exact Hw].
      * rewrite Forall_forall in Hall. apply Hall. exact Hw.
    + split; [exact I1|]. intros x Hx. apply I2 in Hx. destruct Hx as [Hx|Hx].
      * apply push_merged_in in Hx. destruct Hx as [Hx| ->]; [left; exact Hx|right; left; reflexivity].
      * right; right; exact Hx.
Qed.

Lemma SSorted_app {A} (R : A -> A -> Prop) l1 l2 :
  StronglySorted R l1 -> StronglySorted R l2 ->
  (forall a b, In a l1 -> In b l2 -> R a b) -> StronglySorted R (l1 ++ l2).
Proof.
  induction 1 as [|a l1 H1 IH Ha]; intros H2 Hx; cbn; [exact H2|].
  constructor.
  - apply IH; auto. intros; apply Hx; [right|]; auto.
  - apply Forall_app. split; [exact Ha|]. apply Forall_forall. intros; apply Hx; [left|]; auto.
Qed.
Lemma SSorted_rev {A} (R : A -> A -> Prop) l :
  StronglySorted (fun a b => R b a) l -> StronglySorted R (rev l).
Proof.
  induction 1 as [|a l H IH Ha]; cbn; [constructor|].
  apply SSorted_app; auto; [repeat constructor|].
  intros x b Hx [<-|[]]. rewrite <- in_rev in Hx. rewrite Forall_forall in Ha. apply Ha. exact Hx.
Qed.

Lemma dedup_gap l : StronglySorted Qcle l -> StronglySorted gap (dedup l).
Proof.
  intro H. unfold dedup. apply SSorted_rev.
  apply (dedup_fold l []); auto; [constructor|intros a v []].
Qed.
Lemma dedup_in l x : StronglySorted Qcle l -> In x (dedup l) -> In x l.
Proof.
  intros H Hx. unfold dedup in Hx. rewrite <- in_rev in Hx.
  apply (dedup_fold l []) in Hx; auto; [|constructor|intros a v []].
  destruct Hx as [[]|Hx]. exact Hx.
Qed.

(** Every entry is dominated by an output entry at distance at most
    (number of later inputs) * eps: the drift bound. *)
Lemma qn_S n : qn (S n) = qn n + 1.
Proof.
  unfold qn. apply Qc_is_canon. cbn [Q2Qc this Qcplus]. rewrite !Qred_correct.
  rewrite Nat2Z.inj_succ. unfold Z.succ. rewrite inject_Z_plus. reflexivity.
Qed.
Lemma qn_0 : qn 0 = 0.
Proof. apply Qc_is_canon. reflexivity. Qed.
Lemma qn_nonneg n : 0 <= qn n.
Proof. induction n as [|n IH]; [rewrite qn_0; qlra|]. rewrite qn_S. qlra. Qed.

Lemma push_merged_drift acc v x y :
  Forall (fun m => m <= v) acc -> In y acc -> x <= y ->
  exists y', In y' (push_merged acc v) /\ x <= y' /\ y' <= y + eps.
Proof.
  intros Hle Hy Hxy. unfold push_merged. destruct acc as [|m r]; [destruct Hy|].
  inversion Hle as [|? ? Hmv Hrv]; subst.
  destruct (qltbP m (v - eps)) as [H1|H1].
  - exists y. repeat split; auto; [right; exact Hy|qlra].
  - destruct (qlebP (v - eps) m) as [Ha|Ha]; destruct (qltbP m v) as [Hb|Hb]; cbn [andb];
      try (exists y; repeat split; auto; qlra).
    destruct Hy as [<-|Hy].
    + exists v. repeat split; [left; reflexivity|qlra|qlra].
    + exists y. repeat split; auto; [right; exact Hy|qlra].
Qed.

Lemma dedup_drift_fold l : forall acc x y,
  StronglySorted Qcle l -> (forall a v, In a acc -> In v l -> a <= v) ->
  In y acc -> x <= y ->
  exists y', In y' (fold_left push_merged l acc) /\ x <= y' /\ y' <= y + qn (length l) * eps.
Proof.
  induction l as [|v l IH]; intros acc x y Hs Hle Hy Hxy; cbn [fold_left length].
  - exists y. repeat split; auto. rewrite qn_0. qlra.
  - inversion Hs as [|? ? Hs' Hall]; subst.
    destruct (push_merged_drift acc v x y) as [y1 [Hy1 [Hxy1 Hyy1]]]; auto.
    { apply Forall_forall. intros; apply Hle; [auto|left; reflexivity]. }
    destruct (IH (push_merged acc v) x y1) as [y2 [Hy2 [Hxy2 Hyy2]]]; auto.
    { intros a w Ha Hw. apply push_merged_in in Ha. destruct Ha as [Ha| ->].
      - apply Hle; [auto|right; auto].
      - rewrite Forall_forall in Hall. auto. }
    exists y2. repeat split; auto. rewrite qn_S.
    set (k := qn (length l)) in *.
    assert ((k + 1) * eps = k * eps + eps) by ring. qlra.
Qed.

Lemma dedup_drift l : forall acc x,
  StronglySorted Qcle l -> (forall a v, In a acc -> In v l -> a <= v) ->
  In x l ->
  exists y, In y (fold_left push_merged l acc) /\ x <= y /\ y <= x + qn (length l) * eps.
Proof.
  induction l as [|v l IH]; intros acc x Hs Hle Hx; [destruct Hx|].
  inversion Hs as [|? ? Hs' Hall]; subst.
  assert (Hle' : forall a w, In a (push_merged acc v) -> In w l -> a <= w).
  { intros a w Ha Hw. apply push_merged_in in Ha. destruct Ha as [Ha| ->].
    - apply Hle; [auto|right; auto].
    - rewrite Forall_forall in Hall. auto. }
  cbn [fold_left length]. rewrite qn_S.
  assert (0 <= eps) by qlra.
  assert (E : (qn (length l) + 1) * eps = qn (length l) * eps + eps) by ring.
  destruct Hx as [->|Hx].
  - destruct (push_merged_hd acc x) as [r Hr].
    { apply Forall_forall. intros; apply Hle; [auto|left; reflexivity]. }
    destruct (dedup_drift_fold l (push_merged acc x) x x) as [y [Hy [H1 H2]]]; auto.
    { rewrite Hr. left; reflexivity. }
    { qlra. }
    exists y. repeat split; auto. qlra.
  - destruct (IH (push_merged acc v) x) as [y [Hy [H1 H2]]]; auto.
    exists y. repeat split; auto. qlra.
Qed.

Lemma dedup_close l x : StronglySorted Qcle l -> In x l ->
  exists y, In y (dedup l) /\ x <= y /\ y <= x + qn (length l) * eps.
Proof.
  intros Hs Hx. destruct (dedup_drift l [] x) as [y [Hy H]]; auto; [intros a v []|].
  exists y. split; auto. unfold dedup. rewrite <- in_rev. exact Hy.
Qed.

(** Exactness on separated inputs. *)

Lemma dedup_exact_fold l : forall acc x,
  StronglySorted Qcle l -> separated (acc ++ l) ->
  (forall a v, In a acc -> In v l -> a <= v) ->
  In x (acc ++ l) -> In x (fold_left push_merged l acc).
Proof.
  induction l as [|v l IH]; intros acc x Hs Hsep Hle Hx; cbn [fold_left].
  - rewrite app_nil_r in Hx. exact Hx.
  - inversion Hs as [|? ? Hs' Hall]; subst.
    assert (HPin : forall z, In z (push_merged acc v ++ l) <-> In z (acc ++ v :: l)).
    { intro z. assert (Hacc : Forall (fun m => m <= v) acc).
      { apply Forall_forall. intros; apply Hle; [auto|left; reflexivity]. }
      destruct (push_merged_hd acc v Hacc) as [r Hr].
      split; intro Hz.
      - apply in_app_or in Hz. apply in_or_app. destruct Hz as [Hz|Hz].
        + apply push_merged_in in Hz. destruct Hz as [Hz| ->]; [left; auto|right; left; auto].
        + right; right; auto.
      - apply in_app_or in Hz. apply in_or_app. destruct Hz as [Hz|[<-|Hz]].
        + left. unfold push_merged. destruct acc as [|m r']; [destruct Hz|].
          destruct (qltbP m (v - eps)) as [H1|H1]; [right; auto|].
          destruct (qlebP (v - eps) m) as [H2|H2]; destruct (qltbP m v) as [H3|H3]; cbn [andb]; auto.
          exfalso. assert (gap m v).
          { apply Hsep; auto; [left; reflexivity|apply in_or_app; right; left; reflexivity]. }
          unfold gap in *. qlra.
        + left. rewrite Hr. left; reflexivity.
        + right; auto. }
    apply IH.
    + exact Hs'.
    + intros a b Ha Hb. apply HPin in Ha. apply HPin in Hb. apply Hsep; auto.
    + intros a w Ha Hw. apply push_merged_in in Ha. destruct Ha as [Ha| ->].
      * apply Hle; [auto|right; auto].
      * rewrite Forall_forall in Hall. auto.
    + apply HPin. exact Hx.
Qed.

Lemma dedup_exact l x : StronglySorted Qcle l -> separated l -> (In x (dedup l) <-> In x l).
Proof.
  intros Hs Hsep. split; [apply dedup_in; auto|]. intro Hx.
  unfold dedup. rewrite <- in_rev. apply dedup_exact_fold; auto. intros a v [].
Qed.

Lemma fold_push_hd l : forall acc v,
  StronglySorted Qcle (l ++ [v]) -> (forall a w, In a acc -> In w (l ++ [v]) -> a <= w) ->
  exists r, fold_left push_merged (l ++ [v]) acc = v :: r.
Proof.
  intros acc v Hs Hle. rewrite fold_left_app. cbn [fold_left]. apply push_merged_hd.
  apply Forall_forall. intros m Hm.
  assert (Hgen : forall l acc, StronglySorted Qcle l ->
            (forall a w, In a acc -> In w l -> a <= w) ->
            forall m, In m (fold_left push_merged l acc) -> In m acc \/ In m l).
  { clear. induction l as [|u l IH]; intros acc Hs Hle m Hm; cbn [fold_left] in Hm; [left; auto|].
    inversion Hs as [|? ? Hs' Hall]; subst. apply IH in Hm; auto.
    - destruct Hm as [Hm|Hm]; [|right; right; auto].
      apply push_merged_in in Hm. destruct Hm as [Hm| ->]; [left; auto|right; left; auto].
    - intros a w Ha Hw. apply push_merged_in in Ha. destruct Ha as [Ha| ->].
      + apply Hle; [auto|right; auto].
      + rewrite Forall_forall in Hall. auto. }
  assert (Hsl : StronglySorted Qcle l).
  { clear - Hs. induction l as [|u l IH]; [constructor|]. inversion Hs as [|? ? H1 H2]; subst.
    constructor; [auto|]. apply Forall_app in H2. tauto. }
  apply Hgen in Hm; auto.
  - destruct Hm as [Hm|Hm]; [apply Hle; [auto|apply in_or_app; right; left; auto]|].
    clear - Hs Hm. induction l as [|u l IH]; [destruct Hm|].
    inversion Hs as [|? ? H1 H2]; subst. destruct Hm as [->|Hm]; auto.
    rewrite Forall_forall in H2. apply H2. apply in_or_app. right; left; auto.
  - intros a w Ha Hw. apply Hle; [auto|]. apply in_or_app. auto.
Qed.

Lemma dedup_last l d : l <> [] -> StronglySorted Qcle l -> last (dedup l) d = last l d.
Proof.
  intros Hne Hs. destruct (exists_last Hne) as [l' [v ->]].
  destruct (fold_push_hd l' [] v) as [r Hr]; auto; [intros a w []|].
  unfold dedup. rewrite Hr. cbn. rewrite !last_last. reflexivity.
Qed.
Lemma dedup_nonempty l : l <> [] -> dedup l <> [].
Proof.
  intros Hne. unfold dedup. destruct l as [|a l]; [congruence|]. cbn [fold_left push_merged].
  assert (H : forall l acc, acc <> [] -> fold_left push_merged l acc <> []).
  { clear. induction l as [|v l IH]; intros acc Ha; cbn; auto. apply IH.
    unfold push_merged. destruct acc; [congruence|]. destruct (qltb q (v-eps)); [discriminate|].
    destruct (_ && _)%bool; discriminate. }
  assert (fold_left push_merged l [a] <> []) by (apply H; discriminate).
  intro E. apply H0. rewrite <- (rev_involutive (fold_left push_merged l [a])), E. reflexivity.
Qed.

(** ** merge_sorted_many *)

Lemma pick_min_none arrs : pick_min arrs = None -> concat arrs = [].
Proof.
  induction arrs as [|[|x xs] rest IH]; cbn; auto.
  - destruct (pick_min rest) as [[v r]|]; [discriminate|auto].
  - destruct (pick_min rest) as [[v r]|]; [destruct (qltb v x); discriminate|discriminate].
Qed.
Lemma pick_min_perm arrs : forall v arrs', pick_min arrs = Some (v, arrs') ->
  Permutation (concat arrs) (v :: concat arrs').
Proof.
  induction arrs as [|[|x xs] rest IH]; cbn; intros v arrs' H; [discriminate| |].
  - destruct (pick_min rest) as [[w r]|]; [|discriminate]. injection H as <- <-. cbn. auto.
  - destruct (pick_min rest) as [[w r]|] eqn:E.
    + destruct (qltb w x); injection H as <- <-; cbn.
      * rewrite (IH w r eq_refl).
        apply (perm_trans (l' := x :: w :: xs ++ concat r)).
        -- constructor. symmetry. apply Permutation_middle.
        -- apply perm_swap.
      * reflexivity.
    + injection H as <- <-. reflexivity.
Qed.
Lemma pick_min_min arrs : Forall (StronglySorted Qcle) arrs ->
  forall v arrs', pick_min arrs = Some (v, arrs') ->
  Forall (fun w => v <= w) (concat arrs) /\ Forall (StronglySorted Qcle) arrs'.
Proof.
  induction 1 as [|a rest Ha Hr IH]; cbn; intros v arrs' H; [discriminate|].
  destruct a as [|x xs].
  - destruct (pick_min rest) as [[w r]|] eqn:E; [|discriminate]. injection H as <- <-. cbn.
    destruct (IH w r eq_refl). split; auto.
  - inversion Ha as [|? ? Hxs Hall]; subst.
    destruct (pick_min rest) as [[w r]|] eqn:E.
    + destruct (IH w r eq_refl) as [I1 I2].
      destruct (qltbP w x) as [Hw|Hw]; injection H as <- <-; cbn.
      * split; auto. constructor; [qlra|]. apply Forall_app. split; auto.
        eapply Forall_impl; [|exact Hall]. cbn; intros; qlra.
      * split; auto. constructor; [qlra|]. apply Forall_app. split; auto.
        eapply Forall_impl; [|exact I1]. cbn; intros; qlra.
    + injection H as <- <-. apply pick_min_none in E. cbn. rewrite E, app_nil_r.
      split; auto. constructor; [qlra|exact Hall].
Qed.

Lemma merge_many_loop_ok fuel : forall arrs acc,
  Forall (StronglySorted Qcle) arrs -> (length (concat arrs) < fuel)%nat ->
  exists l, StronglySorted Qcle l /\ Permutation (concat arrs) l /\
    merge_many_loop fuel arrs acc = Ok (rev (fold_left push_merged l acc)).
Proof.
  induction fuel as [|k IH]; intros arrs acc Hs Hf; [lia|]. cbn [merge_many_loop].
  destruct (pick_min arrs) as [[v arrs']|] eqn:E.
  - destruct (pick_min_min _ Hs _ _ E) as [M1 M2].
    assert (HP := pick_min_perm _ _ _ E).
    destruct (IH arrs' (push_merged acc v)) as [l [L1 [L2 L3]]]; auto.
    { apply Permutation_length in HP. cbn in HP. lia. }
    exists (v :: l). split; [|split].
    + constructor; auto. apply (Permutation_Forall L2).
      apply (Permutation_Forall HP) in M1. inversion M1; auto.
    + rewrite HP. constructor. exact L2.
    + exact L3.
  - apply pick_min_none in E. exists []. rewrite E. repeat split; constructor.
Qed.

Lemma merge_sorted_many_dedup arrs :
  Forall (StronglySorted Qcle) arrs ->
  exists l, StronglySorted Qcle l /\ Permutation (concat arrs) l /\ merge_sorted_many arrs = Ok (dedup l).
Proof. intro H. apply (merge_many_loop_ok (S (length (concat arrs))) arrs []); auto. Qed.

Lemma merge_sorted_many_pair a b :
  StronglySorted Qcle a -> StronglySorted Qcle b ->
  merge_sorted_many [a; b] = Ok (merge_sorted a b).
Proof.
  intros Ha Hb. destruct (merge_sorted_many_dedup [a; b]) as [l [L1 [L2 L3]]].
  { repeat constructor; auto. }
  rewrite L3, merge_sorted_dedup. do 2 f_equal.
  apply sorted_perm_unique; auto; [apply morder_sorted; auto|].
  rewrite <- morder_perm, <- L2. cbn. rewrite app_nil_r. reflexivity.
Qed.

Lemma merge_sorted_comm a b :
  StronglySorted Qcle a -> StronglySorted Qcle b -> merge_sorted a b = merge_sorted b a.
Proof.
  intros Ha Hb. rewrite !merge_sorted_dedup. f_equal.
  apply sorted_perm_unique; try (apply morder_sorted; auto).
  rewrite <- !morder_perm. apply Permutation_app_comm.
Qed.

Lemma gap_sorted_le l : StronglySorted gap l -> StronglySorted Qcle l.
Proof.
  induction 1 as [|a l H IH Ha]; constructor; auto.
  eapply Forall_impl; [|exact Ha]. cbn. intros b Hb. unfold gap in Hb. qlra.
Qed.

Lemma increasing_ext : forall l1 l2, StronglySorted Qclt l1 -> StronglySorted Qclt l2 ->
  (forall x, In x l1 <-> In x l2) -> l1 = l2.
Proof.
  induction l1 as [|a l1 IH]; intros l2 H1 H2 Hx.
  - destruct l2 as [|b l2]; auto. exfalso. apply (Hx b). left; auto.
  - destruct l2 as [|b l2]; [exfalso; apply (Hx a); left; auto|].
    inversion H1 as [|? ? S1 F1]; inversion H2 as [|? ? S2 F2]; subst.
    rewrite Forall_forall in F1, F2.
    assert (a = b).
    { destruct (proj1 (Hx a) (or_introl eq_refl)) as [E|E]; auto.
      destruct (proj2 (Hx b) (or_introl eq_refl)) as [E'|E']; auto.
      apply F2 in E. apply F1 in E'. qlra. }
    subst b. f_equal. apply IH; auto. intro x. split; intro Hin.
    + destruct (proj1 (Hx x) (or_intror Hin)) as [->|]; auto. apply F1 in Hin. qlra.
    + destruct (proj2 (Hx x) (or_intror Hin)) as [->|]; auto. apply F2 in Hin. qlra.
Qed.
Lemma gap_sorted_lt l : StronglySorted gap l -> StronglySorted Qclt l.
Proof.
  induction 1 as [|a l H IH Ha]; constructor; auto.
  eapply Forall_impl; [|exact Ha]. cbn. intros b Hb. unfold gap in Hb. qlra.
Qed.
Lemma lt_sorted_le l : StronglySorted Qclt l -> StronglySorted Qcle l.
Proof.
  induction 1 as [|a l H IH Ha]; constructor; auto.
  eapply Forall_impl; [|exact Ha]. cbn. intros b Hb. qlra.
Qed.
Lemma sorted_last_max l d : StronglySorted Qcle l -> forall x, In x l -> x <= last l d.
Proof.
  induction 1 as [|a l Hs IH Ha]; intros x Hx; [destruct Hx|].
  destruct l as [|b l]; [destruct Hx as [->|[]]; cbn; qlra|].
  change (last (a :: b :: l) d) with (last (b :: l) d).
  destruct Hx as [->|Hx]; [|apply IH; auto].
  rewrite Forall_forall in Ha. assert (x <= b) by (apply Ha; left; auto).
  assert (b <= last (b :: l) d) by (apply IH; left; auto). qlra.
Qed.
Lemma separated_perm l l' : Permutation l l' -> separated l -> separated l'.
Proof. intros P H x y Hx Hy. apply H; apply (Permutation_in _ (Permutation_sym P)); auto. Qed.

(** The combined statement proved for both merge functions. *)
Lemma dedup_merge_facts ins l out :
  StronglySorted Qcle l -> Permutation ins l -> out = dedup l ->
  StronglySorted gap out /\
  (forall x, In x out -> In x ins) /\
  (forall x, In x ins -> exists y, In y out /\ x <= y /\ y <= x + qn (length ins) * eps) /\
  (separated ins -> forall x, In x out <-> In x ins).
Proof.
  intros Hs HP ->. split; [apply dedup_gap; auto|]. split; [|split].
  - intros x Hx. apply dedup_in in Hx; auto. eapply Permutation_in; [symmetry|]; eauto.
  - intros x Hx. rewrite (Permutation_length HP). apply dedup_close; auto.
    eapply Permutation_in; eauto.
  - intros Hsep x. rewrite dedup_exact; auto.
    + split; intro Hin; [apply (Permutation_in _ (Permutation_sym HP))|apply (Permutation_in _ HP)]; auto.
    + eapply separated_perm; eauto.
Qed.

Lemma merge_sorted_facts a b :
  StronglySorted Qcle a -> StronglySorted Qcle b ->
  StronglySorted gap (merge_sorted a b) /\
  (forall x, In x (merge_sorted a b) -> In x (a ++ b)) /\
  (forall x, In x (a ++ b) -> exists y, In y (merge_sorted a b) /\ x <= y /\ y <= x + qn (length (a ++ b)) * eps) /\
  (separated (a ++ b) -> forall x, In x (merge_sorted a b) <-> In x (a ++ b)).
Proof.
  intros Ha Hb. apply (dedup_merge_facts (a ++ b) (morder a b)).
  - apply morder_sorted; auto.
  - apply morder_perm.
  - apply merge_sorted_dedup.
Qed.

Lemma merge_sorted_many_facts arrs :
  Forall (StronglySorted Qcle) arrs ->
  exists out, merge_sorted_many arrs = Ok out /\
  StronglySorted gap out /\
  (forall x, In x out -> In x (concat arrs)) /\
  (forall x, In x (concat arrs) -> exists y, In y out /\ x <= y /\ y <= x + qn (length (concat arrs)) * eps) /\
  (separated (concat arrs) -> forall x, In x out <-> In x (concat arrs)).
Proof.
  intros H. destruct (merge_sorted_many_dedup arrs H) as [l [L1 [L2 L3]]].
  exists (dedup l). split; auto. apply (dedup_merge_facts _ l); auto.
Qed.

Lemma merge_sorted_many_indep arrs1 arrs2 :
  Forall (StronglySorted Qcle) arrs1 -> Forall (StronglySorted Qcle) arrs2 ->
  separated (concat arrs1) -> (forall x, In x (concat arrs1) <-> In x (concat arrs2)) ->
  merge_sorted_many arrs1 = merge_sorted_many arrs2.
Proof.
  intros H1 H2 Hsep Hin.
  destruct (merge_sorted_many_facts arrs1 H1) as [o1 [E1 [G1 [_ [_ X1]]]]].
  destruct (merge_sorted_many_facts arrs2 H2) as [o2 [E2 [G2 [_ [_ X2]]]]].
  rewrite E1, E2. f_equal. apply increasing_ext; try (apply gap_sorted_lt; auto).
  intro x. rewrite X1, X2; auto.
  intros u v Hu Hv. apply Hsep; apply Hin; auto.
Qed.
Lemma merge_sorted_many_perm arrs1 arrs2 :
  Forall (StronglySorted Qcle) arrs1 -> Forall (StronglySorted Qcle) arrs2 ->
  Permutation (concat arrs1) (concat arrs2) ->
  merge_sorted_many arrs1 = merge_sorted_many arrs2.
Proof.
  intros H1 H2 HP.
  destruct (merge_sorted_many_dedup arrs1 H1) as [l1 [S1 [P1 E1]]].
  destruct (merge_sorted_many_dedup arrs2 H2) as [l2 [S2 [P2 E2]]].
  rewrite E1, E2. do 2 f_equal. apply sorted_perm_unique; auto.
  rewrite <- P1, <- P2. exact HP.
Qed.

(** ** arg_min *)
Lemma arg_min_fold {A} (key : A -> Qc) l : forall m it,
  exists it', fold_left (fun (acc : option (Qc * A)) item =>
                     match acc with
                     | None => Some (key item, item)
                     | Some (m, it) => if qltb (key item) m then Some (key item, item) else acc
                     end) l (Some (m, it)) = Some it' /\
    ((it' = (m, it) /\ (forall x, In x l -> m <= key x)) \/
     (exists l1 l2, l = l1 ++ snd it' :: l2 /\ fst it' = key (snd it') /\
        fst it' < m /\ (forall x, In x l1 -> fst it' < key x) /\ (forall x, In x l2 -> fst it' <= key x))).
Proof.
  induction l as [|a l IH]; intros m it; cbn [fold_left].
  - exists (m, it). split; auto. left. split; auto. intros x [].
  - destruct (qltbP (key a) m) as [H|H].
    + destruct (IH (key a) a) as [it' [E D]]. exists it'. split; [exact E|].
      destruct D as [[-> D]|[l1 [l2 [El [Ek [Hm [D1 D2]]]]]]].
      * right. exists [], l. cbn. repeat split; auto. intros x [].
      * right. exists (a :: l1), l2. rewrite El.
        split; [reflexivity|]. split; [exact Ek|]. split; [qlra|]. split; [|exact D2].
        intros x [->|Hx]; auto.
    + destruct (IH m it) as [it' [E D]]. exists it'. split; [exact E|].
      destruct D as [[-> D]|[l1 [l2 [El [Ek [Hm [D1 D2]]]]]]].
      * left. split; auto. intros x [->|Hx]; auto. qlra.
      * right. exists (a :: l1), l2. cbn. rewrite El. repeat split; auto.
        intros x [->|Hx]; auto. qlra.
Qed.
Lemma arg_min_ok {A} (key : A -> Qc) l :
  l <> [] -> exists l1 x l2, arg_min key l = Some x /\ l = l1 ++ x :: l2 /\
    (forall y, In y l1 -> key x < key y) /\ (forall y, In y l2 -> key x <= key y).
Proof.
  destruct l as [|a l]; [congruence|]. intros _. unfold arg_min. cbn [fold_left].
  destruct (arg_min_fold key l (key a) a) as [[k it] [E D]]. rewrite E. cbn in *.
  destruct D as [[D1 D]|[l1 [l2 [El [Ek [Hm [D1 D2]]]]]]].
  - injection D1 as -> ->. exists [], a, l. repeat split; auto. intros y [].
  - exists (a :: l1), it, l2. cbn. rewrite El. subst k. repeat split; auto.
    intros y [->|Hy]; auto.
Qed.

Lemma elem_rank_full arr x :
  arr <> [] -> StronglySorted Qcle arr ->
  exists i, elem_rank arr x = Ok i /\ is_rank arr x i /\ (forall j, is_rank arr x j -> j = i).
Proof.
  intros Hne Hs. destruct (elem_rank_ok arr x Hne Hs) as [i [E H]].
  exists i. repeat split; auto; try apply H. intros j Hj. eapply is_rank_unique; eauto.
Qed.
Lemma elem_lrank_full arr x :
  arr <> [] -> StronglySorted Qcle arr ->
  exists i, elem_lrank arr x = Ok i /\ is_lrank arr x i /\ (forall j, is_lrank arr x j -> j = i).
Proof.
  intros Hne Hs. destruct (elem_lrank_ok arr x Hne Hs) as [i [E H]].
  exists i. repeat split; auto; try apply H. intros j Hj. eapply is_lrank_unique; eauto.
Qed.

Lemma last_In {A} (l : list A) d : l <> [] -> In (last l d) l.
Proof.
  intro H. destruct (exists_last H) as [l' [a ->]]. rewrite last_last. apply in_or_app. right; left; auto.
Qed.
Lemma out_last_max ins out :
  StronglySorted gap out -> (forall x, In x out -> In x ins) ->
  (forall x, In x ins -> exists y, In y out /\ x <= y /\ y <= x + qn (length ins) * eps) ->
  forall x, In x ins -> x <= last out 0 /\ In (last out 0) ins.
Proof.
  intros G I D x Hx. destruct (D x Hx) as [y [Hy [Hxy _]]].
  assert (y <= last out 0) by (apply sorted_last_max; auto; apply gap_sorted_le; auto).
  split; [qlra|]. apply I. apply last_In. intros ->. destruct Hy.
Qed.
Lemma merge_sorted_full a b :
  StronglySorted Qcle a -> StronglySorted Qcle b ->
  StronglySorted gap (merge_sorted a b) /\
  (forall x, In x (merge_sorted a b) -> In x (a ++ b)) /\
  (forall x, In x (a ++ b) -> x <= last (merge_sorted a b) 0 /\ In (last (merge_sorted a b) 0) (a ++ b)) /\
  (separated (a ++ b) -> forall x, In x (merge_sorted a b) <-> In x (a ++ b)).
Proof.
  intros Ha Hb. destruct (merge_sorted_facts a b Ha Hb) as [F1 [F2 [F3 F4]]].
  split; [exact F1|]. split; [exact F2|]. split; [|exact F4].
  apply out_last_max; auto.
Qed.
Lemma merge_sorted_many_full arrs :
  Forall (StronglySorted Qcle) arrs ->
  exists out, merge_sorted_many arrs = Ok out /\
  StronglySorted gap out /\
  (forall x, In x out -> In x (concat arrs)) /\
  (forall x, In x (concat arrs) -> x <= last out 0 /\ In (last out 0) (concat arrs)) /\
  (separated (concat arrs) -> forall x, In x out <-> In x (concat arrs)).
Proof.
  intros H. destruct (merge_sorted_many_facts arrs H) as [out [E [F1 [F2 [F3 F4]]]]].
  exists out. split; [exact E|]. split; [exact F1|]. split; [exact F2|]. split; [|exact F4].
  apply out_last_max; auto.
Qed.

Lemma sep_pair u v : u < v - eps -> separated [u; v].
Proof.
  intros H x y Hx Hy Hlt. unfold gap. cbn in Hx, Hy.
  destruct Hx as [<-|[<-|[]]]; destruct Hy as [<-|[<-|[]]]; qlra.
Qed.
Lemma c05_hyps_lemma :
  let a := [0; Q2Qc (12 # 10) * eps] in
  let b := [Q2Qc (6 # 10) * eps; Q2Qc (18 # 10) * eps] in
  StronglySorted Qcle a /\ StronglySorted Qcle b /\
  separated a /\ separated b /\ merge_sorted a b = [Q2Qc (18 # 10) * eps].
Proof.
  cbn zeta. split; [|split; [|split; [|split]]].
  - repeat constructor; vm_compute; discriminate.
  - repeat constructor; vm_compute; discriminate.
  - apply sep_pair. vm_compute; reflexivity.
  - apply sep_pair. vm_compute; reflexivity.
  - vm_compute; reflexivity.
Qed.
Lemma c05_refute : ~ (forall a b x,
  StronglySorted Qcle a -> StronglySorted Qcle b -> separated a -> separated b -> In x (a ++ b) ->
  exists y, In y (merge_sorted a b) /\ x - eps <= y /\ y <= x + eps).
Proof.
  intro C. destruct c05_hyps_lemma as [H1 [H2 [H3 [H4 H5]]]].
  destruct (C _ _ 0 H1 H2 H3 H4) as [y [Hy [_ Hle]]]; [left; reflexivity|].
  rewrite H5 in Hy. destruct Hy as [<-|[]]. revert Hle. vm_compute. intro H; apply H; reflexivity.
Qed.

Lemma arg_min_full (A : Type) (key : A -> Qc) l :
  (l = [] -> arg_min key l = None) /\
  (l <> [] -> exists l1 x l2, arg_min key l = Some x /\ l = l1 ++ x :: l2 /\
    (forall y, In y l1 -> key x < key y) /\ (forall y, In y l2 -> key x <= key y)).
Proof. split; [intros ->; reflexivity|apply arg_min_ok]. Qed.
