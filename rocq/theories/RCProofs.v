(** * Facts about right-constant functions *)
From Verif Require Import Base Spec Arrays ArraysProofs PL PLProofs PLEval PLArith PLOps PLOps2 RC.

Definition rin_dom (f : RC) (t : Qc) : Prop := ext_le (rc_lo f) (Fin t) /\ ext_le (Fin t) (rc_hi f).

Record rvalid (f : RC) : Prop := {
  rv_len : length (rc_values f) = length (rc_times f);
  rv_ne : rc_times f <> [];
  rv_inc : increasing (rc_times f);
  rv_dom : forall t, In t (rc_times f) -> rin_dom f t }.

(** The value of the last breakpoint at or before t, or the first value. *)
Fixpoint step (cur : Qc) (ps : list (Qc * Qc)) (t : Qc) : Qc :=
  match ps with
  | [] => cur
  | (a, v) :: r => if qleb a t then step v r t else cur
  end.
Definition rc_at (f : RC) (t : Qc) : Qc :=
  step (hd 0 (rc_values f)) (combine (rc_times f) (rc_values f)) t.

(** [is_ptr T t p]: p = max 0 (lower rank of t in T). *)
Definition is_ptr (T : list Qc) (t : Qc) (p : Z) : Prop :=
  (0 <= p < zlen T)%Z /\ ((0 < p)%Z -> nthq T p <= t) /\ ((p + 1 < zlen T)%Z -> t < nthq T (p+1)).

Lemma step_lrank t : forall ts vs cur i, length vs = length ts ->
  increasing ts -> (-1 <= i < zlen ts)%Z -> ((0 <= i)%Z -> nthq ts i <= t) ->
  ((i + 1 < zlen ts)%Z -> t < nthq ts (i+1)) ->
  step cur (combine ts vs) t = if (i =? -1)%Z then cur else nthq vs i.
Proof.
  induction ts as [|a ts IH]; intros vs cur i L S Hi H1 H2.
  { unfold zlen in Hi. cbn in Hi. destruct (Z.eqb_spec i (-1)); [reflexivity|lia]. }
  destruct vs as [|v vs]; [discriminate|]. cbn [combine step].
  assert (Z1 : zlen (a :: ts) = (zlen ts + 1)%Z) by (unfold zlen; cbn [length]; lia).
  destruct (Z.eqb_spec i (-1)) as [E|E].
  - subst i. specialize (H2 ltac:(unfold zlen in *; cbn [length]; lia)). change (-1+1)%Z with 0%Z in H2. change (nthq (a :: ts) 0) with a in H2.
    destruct (qlebP a t); [qlra|reflexivity].
  - assert (A : a <= t).
    { specialize (H1 ltac:(lia)). destruct (Z.eq_dec i 0) as [->|]; [exact H1|].
      assert (a < nthq (a :: ts) i); [|qlra].
      apply (sorted_nthq Qclt (a :: ts) S 0 i); lia. }
    destruct (qlebP a t); [|qlra].
    assert (SH : forall k, (0 <= k)%Z -> nthq (a :: ts) (k+1) = nthq ts k).
    { intros k Hk. unfold nthq. replace (Z.to_nat (k+1)) with (Datatypes.S (Z.to_nat k)) by lia. reflexivity. }
    inversion S as [|? ? S' _]; subst.
    rewrite (IH vs v (i-1)%Z); [| cbn in L; lia|exact S'|lia| |].
    + destruct (Z.eqb_spec (i-1) (-1)) as [E2|E2].
      * replace i with 0%Z by lia. reflexivity.
      * unfold nthq. replace (Z.to_nat i) with (Datatypes.S (Z.to_nat (i-1))) by lia. reflexivity.
    + intro K. specialize (H1 ltac:(lia)). replace i with (i - 1 + 1)%Z in H1 by lia. rewrite SH in H1 by lia. exact H1.
    + intro K. specialize (H2 ltac:(lia)). rewrite SH in H2 by lia. replace (i - 1 + 1)%Z with i by lia. exact H2.
Qed.

Section V.
Variable f : RC.
Hypothesis V : rvalid f.

Lemma rlen_pos : (0 < rc_len f)%Z.
Proof. unfold rc_len, zlen. pose proof (rv_ne f V). destruct (rc_times f); [congruence|cbn [length]; lia]. Qed.
Lemma rlen_vals : zlen (rc_values f) = rc_len f.
Proof. unfold rc_len, zlen. rewrite (rv_len f V). reflexivity. Qed.
Lemma rget_t i : (0 <= i < rc_len f)%Z -> pyget (rc_times f) i = Ok (nthq (rc_times f) i).
Proof. intro H. apply pyget_Z. exact H. Qed.
Lemma rget_v i : (0 <= i < rc_len f)%Z -> pyget (rc_values f) i = Ok (nthq (rc_values f) i).
Proof. intro H. apply pyget_Z. rewrite <- rlen_vals in H. exact H. Qed.
Lemma rvals_ne : rc_values f <> [].
Proof. pose proof rlen_pos. rewrite <- rlen_vals in H. destruct (rc_values f); [discriminate|congruence]. Qed.
Lemma rlast_t : pyget (rc_times f) (-1) = Ok (nthq (rc_times f) (rc_len f - 1)).
Proof. rewrite (pyget_last _ 0) by apply (rv_ne f V). rewrite <- (nthq_last _ 0) by apply (rv_ne f V). reflexivity. Qed.
Lemma rlast_v : pyget (rc_values f) (-1) = Ok (nthq (rc_values f) (rc_len f - 1)).
Proof.
  rewrite (pyget_last _ 0) by apply rvals_ne. rewrite <- (nthq_last _ 0) by apply rvals_ne. rewrite rlen_vals. reflexivity.
Qed.
Lemma rt_lt i j : (0 <= i < j)%Z -> (j < rc_len f)%Z -> nthq (rc_times f) i < nthq (rc_times f) j.
Proof. intros. apply (sorted_nthq Qclt); auto. apply (rv_inc f V). Qed.
Lemma rt_le i j : (0 <= i <= j)%Z -> (j < rc_len f)%Z -> nthq (rc_times f) i <= nthq (rc_times f) j.
Proof. intros. destruct (Z.eq_dec i j) as [->|]; [qlra|]. pose proof (rt_lt i j ltac:(lia) ltac:(lia)). qlra. Qed.

Lemma at_ptr t p : is_ptr (rc_times f) t p -> rc_at f t = nthq (rc_values f) p.
Proof.
  intros [Hp [H1 H2]]. unfold rc_at. pose proof rlen_pos as LP. unfold rc_len in *.
  destruct (qlebP (nthq (rc_times f) p) t) as [C|C].
  - rewrite (step_lrank t _ _ _ p (rv_len f V) (rv_inc f V)); auto; [|lia].
    destruct (Z.eqb_spec p (-1)); [lia|reflexivity].
  - assert (p = 0)%Z. { destruct (Z.eq_dec p 0); [assumption|]. exfalso. apply C. apply H1. lia. }
    subst p. rewrite (step_lrank t _ _ _ (-1) (rv_len f V) (rv_inc f V)); [|lia|lia|].
    + cbn. destruct (rc_values f); reflexivity.
    + intros _. change (-1+1)%Z with 0%Z. qlra.
Qed.

Lemma lrank_ptr t i : is_lrank (rc_times f) t i -> is_ptr (rc_times f) t (Z.max 0 i).
Proof.
  intro H. apply is_lrank_iff in H. destruct H as [Hi [H1 H2]]. pose proof rlen_pos. unfold rc_len in *.
  split; [lia|]. split; intro K.
  - replace (Z.max 0 i) with i by lia. apply H1; lia.
  - destruct (Z.eq_dec i (-1)) as [->|].
    + change (Z.max 0 (-1)) with 0%Z in *. change (0+1)%Z with 1%Z in *.
      assert (t < nthq (rc_times f) 0) by (apply (H2); lia).
      pose proof (rt_lt 0 1 ltac:(lia) ltac:(unfold rc_len; lia)). qlra.
    + replace (Z.max 0 i) with i in * by lia. apply H2. lia.
Qed.
Lemma ptr_exists t : exists p, is_ptr (rc_times f) t p.
Proof.
  destruct (elem_lrank_ok (rc_times f) t) as [i [_ H]]; [apply (rv_ne f V)|apply lt_sorted_le, (rv_inc f V)|].
  exists (Z.max 0 i). apply lrank_ptr. exact H.
Qed.

Lemma rbool_dom t : (ext_leb (rc_lo f) (Fin t) && ext_leb (Fin t) (rc_hi f))%bool = true <-> rin_dom f t.
Proof.
  unfold rin_dom. rewrite andb_true_iff.
  destruct (ext_lebP (rc_lo f) (Fin t)), (ext_lebP (Fin t) (rc_hi f)); intuition congruence.
Qed.

Lemma rewl_at t i : rin_dom f t -> is_lrank (rc_times f) t i -> rc_eval_with_lrank f t i = Ok (rc_at f t).
Proof.
  intros D R. unfold rc_eval_with_lrank. rewrite (proj2 (rbool_dom t) D). cbn [assertb bind].
  pose proof R as R0. apply is_lrank_iff in R0. destruct R0 as [Hi _].
  pose proof rlen_pos as LP. unfold rc_len in *.
  destruct (Z.leb_spec (-1) i); [|lia]. destruct (Z.leb_spec i (zlen (rc_times f))); [|lia]. cbn [andb assertb bind].
  destruct (elem_lrank_ok (rc_times f) t) as [j [E R']]; [apply (rv_ne f V)|apply lt_sorted_le, (rv_inc f V)|].
  rewrite E. cbn [bind].
  rewrite (is_lrank_unique (rc_times f) t j i) by (auto; apply lt_sorted_le, (rv_inc f V)).
  rewrite Z.eqb_refl. cbn [assertb bind]. rewrite (at_ptr t _ (lrank_ptr t i R)).
  destruct (Z.eqb_spec i (-1)) as [->|].
  - rewrite rget_v by (unfold rc_len; lia). reflexivity.
  - rewrite rget_v by (unfold rc_len; lia). do 2 f_equal. lia.
Qed.
Lemma reval_at t : rin_dom f t -> rc_eval f t = Ok (rc_at f t).
Proof.
  intro D. unfold rc_eval. rewrite (proj2 (rbool_dom t) D). cbn [assertb bind].
  destruct (elem_lrank_ok (rc_times f) t) as [i [E R]]; [apply (rv_ne f V)|apply lt_sorted_le, (rv_inc f V)|].
  rewrite E. cbn [bind]. apply rewl_at; auto.
Qed.
Lemma reval_out t : ~ rin_dom f t -> rc_eval f t = Err AssertionError /\ rc_eval_from_end f t = Err AssertionError.
Proof.
  intro D. unfold rc_eval, rc_eval_from_end.
  destruct (ext_leb (rc_lo f) (Fin t) && ext_leb (Fin t) (rc_hi f))%bool eqn:E; [|split; reflexivity].
  apply rbool_dom in E. contradiction.
Qed.
Lemma rin_dec t : {rin_dom f t} + {~ rin_dom f t}.
Proof.
  destruct (ext_leb (rc_lo f) (Fin t) && ext_leb (Fin t) (rc_hi f))%bool eqn:E.
  - left. apply rbool_dom. exact E.
  - right. intro C. apply rbool_dom in C. congruence.
Qed.
Lemma reval_inv t y : rc_eval f t = Ok y -> rin_dom f t /\ y = rc_at f t.
Proof.
  intro E. destruct (rin_dec t) as [D|D].
  - split; [exact D|]. rewrite (reval_at t D) in E. apply ok_inj in E. auto.
  - rewrite (proj1 (reval_out t D)) in E. discriminate.
Qed.
End V.

Lemma scan_back_l_rank arr x : StronglySorted Qcle arr ->
  forall n, (n <= length arr)%nat -> ((Z.of_nat n < zlen arr)%Z -> x < nthq arr (Z.of_nat n)) ->
  exists i, scan_back_l arr x n = Ok i /\ is_lrank arr x i.
Proof.
  intros S n. induction n as [|k IH]; intros Hn H.
  - exists (-1)%Z. split; [reflexivity|]. apply is_lrank_iff. split; [unfold zlen; lia|].
    split; [lia|]. intro. apply H. change (Z.of_nat 0) with 0%Z. lia.
  - cbn [scan_back_l]. rewrite (pyget_nat _ _ 0) by lia. cbn [bind].
    destruct (qltbP x (nth k arr 0)) as [C|C].
    + apply IH; [lia|]. intros _. unfold nthq. rewrite Nat2Z.id. exact C.
    + exists (Z.of_nat k). split; [reflexivity|]. apply is_lrank_iff. unfold zlen in *.
      split; [lia|]. split.
      * intros _. unfold nthq. rewrite Nat2Z.id. qlra.
      * intro K. replace (Z.of_nat k + 1)%Z with (Z.of_nat (Datatypes.S k)) in * by lia. apply H. lia.
Qed.

Lemma rc_eval_from_end_eq f t : rvalid f -> rc_eval_from_end f t = rc_eval f t.
Proof.
  intro V. destruct (rin_dec f t) as [D|D].
  - rewrite (reval_at f V t D). unfold rc_eval_from_end. rewrite (proj2 (rbool_dom f t) D). cbn [assertb bind].
    destruct (scan_back_l_rank (rc_times f) t (lt_sorted_le _ (rv_inc f V)) (length (rc_times f))) as [i [E R]]; [lia|unfold zlen; lia|].
    rewrite E. cbn [bind]. apply rewl_at; auto.
  - destruct (reval_out f t D) as [-> ->]. reflexivity.
Qed.

(** ** Functions with jumps only at given times *)
(** [jumps_in h T]: h is constant on every interval (t, u] that contains no
    time of T other than T's least. *)
Definition jumps_in (h : Qc -> Qc) (T : list Qc) : Prop :=
  forall t u, t <= u -> (forall x, In x T -> x <= t \/ u < x \/ (forall y, In y T -> x <= y)) -> h t = h u.

Lemma ptr_mono T t u p q : increasing T -> t <= u -> is_ptr T t p -> is_ptr T u q -> (p <= q)%Z.
Proof.
  intros S H [P0 [P1 P2]] [Q0 [Q1 Q2]]. destruct (Z.ltb_spec q p) as [C|]; [|lia]. exfalso.
  specialize (P1 ltac:(lia)). specialize (Q2 ltac:(lia)).
  assert (nthq T (q+1) <= nthq T p).
  { destruct (Z.eq_dec (q+1) p) as [->|]; [qlra|].
    pose proof (sorted_nthq Qclt T S (q+1) p ltac:(lia) ltac:(lia)). qlra. }
  qlra.
Qed.

Lemma rc_jumps f : rvalid f -> jumps_in (rc_at f) (rc_times f).
Proof.
  intros V t u H Hx. destruct (ptr_exists f V t) as [p Pp]. destruct (ptr_exists f V u) as [q Pq].
  rewrite (at_ptr f V t p Pp), (at_ptr f V u q Pq). f_equal.
  pose proof (ptr_mono _ t u p q (rv_inc f V) H Pp Pq) as M.
  destruct (Z.eq_dec p q); [assumption|]. exfalso.
  destruct Pp as [P0 [P1 P2]], Pq as [Q0 [Q1 Q2]].
  assert (In (nthq (rc_times f) q) (rc_times f)) by (apply nthq_in; lia).
  specialize (Q1 ltac:(lia)). specialize (P2 ltac:(lia)).
  pose proof (rt_le f V (p+1) q ltac:(lia) ltac:(unfold rc_len; lia)).
  destruct (Hx _ H0) as [K|[K|K]]; [qlra|qlra|].
  specialize (K (nthq (rc_times f) 0)). specialize (K ltac:(apply nthq_in; lia)).
  pose proof (rt_lt f V 0 q ltac:(lia) ltac:(unfold rc_len; lia)). qlra.
Qed.

Lemma jumps_sub h T T' : jumps_in h T -> (forall x, In x T -> In x T') -> jumps_in h T'.
Proof. intros J S t u H Hx. apply J; auto. intros x Hin. destruct (Hx x (S x Hin)) as [?|[?|K]]; auto. Qed.
Lemma jumps_plus h k T : jumps_in h T -> jumps_in k T -> jumps_in (fun t => h t + k t) T.
Proof. intros J K t u H Hx. rewrite (J t u H Hx), (K t u H Hx). reflexivity. Qed.

Lemma rc_unique f h : rvalid f -> rc_values f = map h (rc_times f) -> jumps_in h (rc_times f) ->
  forall t, rc_at f t = h t.
Proof.
  intros V E J t. destruct (ptr_exists f V t) as [p P]. rewrite (at_ptr f V t p P), E.
  destruct P as [P0 [P1 P2]]. rewrite nthq_map by lia.
  destruct (qlebP (nthq (rc_times f) p) t) as [C|C].
  - apply J; [exact C|]. intros x Hx. destruct (In_nth _ _ 0 Hx) as [i [Hi Ei]].
    assert (Ex : x = nthq (rc_times f) (Z.of_nat i)) by (unfold nthq; rewrite Nat2Z.id; auto).
    unfold zlen in *. destruct (Z.leb_spec (Z.of_nat i) p).
    + left. rewrite Ex. apply (rt_le f V); unfold rc_len, zlen; lia.
    + right. left. specialize (P2 ltac:(lia)).
      pose proof (rt_le f V (p+1) (Z.of_nat i) ltac:(lia) ltac:(unfold rc_len, zlen; lia)). rewrite Ex. qlra.
  - assert (p = 0)%Z by (destruct (Z.eq_dec p 0); [assumption|exfalso; apply C; apply P1; lia]). subst p.
    symmetry. apply J; [qlra|]. intros x Hx. destruct (In_nth _ _ 0 Hx) as [i [Hi Ei]].
    assert (Ex : x = nthq (rc_times f) (Z.of_nat i)) by (unfold nthq; rewrite Nat2Z.id; auto).
    destruct (Nat.eq_dec i 0) as [->|].
    + right. right. intros y Hy. destruct (In_nth _ _ 0 Hy) as [j [Hj Ej]].
      assert (Ey : y = nthq (rc_times f) (Z.of_nat j)) by (unfold nthq; rewrite Nat2Z.id; auto).
      rewrite Ex, Ey. apply (rt_le f V); unfold rc_len, zlen; lia.
    + right. left. rewrite Ex. apply (rt_lt f V); unfold rc_len, zlen; lia.
Qed.

(** ** Constructor *)
Lemma rc_init_ok f : rvalid f -> rc_init (rc_times f) (rc_values f) (rc_lo f) (rc_hi f) = Ok f.
Proof.
  intro V. unfold rc_init, zlen. rewrite (rv_len f V), Z.eqb_refl. cbn [assertb bind].
  replace (forallb _ _) with true; [destruct f; reflexivity|].
  symmetry. apply forallb_forall. intros t Ht. apply (rbool_dom f). apply (rv_dom f V). exact Ht.
Qed.

(** ** Pointer advance *)
Lemma adv_ok T t : increasing T -> forall fuel p, (0 <= p < zlen T)%Z -> ((0 < p)%Z -> nthq T p <= t) ->
  (zlen T - p < Z.of_nat fuel)%Z -> exists p', adv fuel T p t = Ok p' /\ is_ptr T t p'.
Proof.
  intros S. induction fuel as [|k IH]; intros p Hp H1 Hf; [lia|]. cbn [adv].
  destruct (Z.ltb_spec p (zlen T - 1)) as [C|C].
  - rewrite (pyget_Z _ _ 0) by (unfold zlen in *; lia). cbn [bind]. fold (nthq T (p+1)).
    destruct (qlebP (nthq T (p+1)) t) as [D|D].
    + apply IH; auto; try lia.
    + exists p. split; [reflexivity|]. split; [lia|]. split; [exact H1|]. intros _. qlra.
  - exists p. split; [reflexivity|]. split; [lia|]. split; [exact H1|lia].
Qed.
Definition before (T : list Qc) (p : Z) (ts : list Qc) : Prop :=
  (0 <= p < zlen T)%Z /\ forall t, In t ts -> (0 < p)%Z -> nthq T p <= t.
Lemma before0 T ts : T <> [] -> before T 0 ts.
Proof. intro H. split; [unfold zlen; destruct T; [congruence|cbn [length]; lia]|lia]. Qed.
Lemma adv_fn_ok f t ts p : rvalid f -> increasing (t :: ts) -> before (rc_times f) p (t :: ts) ->
  exists p', adv_fn f p t = Ok p' /\ pyget (rc_values f) p' = Ok (rc_at f t) /\ before (rc_times f) p' ts.
Proof.
  intros V S [B1 B2]. destruct (adv_ok (rc_times f) t (rv_inc f V) (Datatypes.S (length (rc_times f))) p) as [p' [E P]]; auto.
  - intro K. apply B2; [left; reflexivity|exact K].
  - unfold zlen in *. lia.
  - exists p'. split; [exact E|]. split.
    + rewrite (at_ptr f V t p' P). apply (rget_v f V). apply P.
    + split; [apply P|]. intros u Hu K. destruct P as [_ [P1 _]]. specialize (P1 K).
      inversion S as [|? ? _ HF]; subst. rewrite Forall_forall in HF. specialize (HF u Hu). qlra.
Qed.

Lemma add_loop_ok f g : rvalid f -> rvalid g -> forall ts lp rp, increasing ts ->
  before (rc_times f) lp ts -> before (rc_times g) rp ts ->
  add_loop f g lp rp ts = Ok (map (fun t => rc_at f t + rc_at g t) ts).
Proof.
  intros Vf Vg. induction ts as [|t ts IH]; intros lp rp S B1 B2; [reflexivity|].
  cbn [add_loop map].
  destruct (adv_fn_ok f t ts lp Vf S B1) as [lp' [E1 [G1 B1']]].
  destruct (adv_fn_ok g t ts rp Vg S B2) as [rp' [E2 [G2 B2']]].
  rewrite E1. cbn [bind]. rewrite E2. cbn [bind]. rewrite G1. cbn [bind]. rewrite G2. cbn [bind].
  inversion S; subst. rewrite (IH lp' rp'); auto.
Qed.

Lemma rc_plus_ok f g : rvalid f -> rvalid g -> rc_lo f = rc_lo g -> rc_hi f = rc_hi g ->
  separated (rc_times f ++ rc_times g) ->
  exists p, rc_plus f g = Ok p /\ rvalid p /\ rc_lo p = rc_lo f /\ rc_hi p = rc_hi f /\
    (forall x, In x (rc_times p) <-> In x (rc_times f) \/ In x (rc_times g)) /\
    StronglySorted gap (rc_times p) /\
    forall t, rc_at p t = rc_at f t + rc_at g t.
Proof.
  intros Vf Vg El Eh Sep. unfold rc_plus. rewrite El, Eh.
  destruct (ext_eqbP (rc_lo g) (rc_lo g)); [|congruence]. destruct (ext_eqbP (rc_hi g) (rc_hi g)); [|congruence].
  cbn [andb assertb bind].
  destruct (merge_sorted_facts (rc_times f) (rc_times g) (lt_sorted_le _ (rv_inc f Vf)) (lt_sorted_le _ (rv_inc g Vg))) as [G [_ [_ I]]].
  specialize (I Sep). set (T := merge_sorted (rc_times f) (rc_times g)) in *.
  rewrite (add_loop_ok f g Vf Vg T 0 0) by (try (apply before0, rv_ne; assumption); apply gap_sorted_lt; assumption). cbn [bind].
  set (p := mkRC T (map (fun t => rc_at f t + rc_at g t) T) (rc_lo g) (rc_hi g)).
  assert (Vp : rvalid p).
  { constructor; cbn [rc_times rc_values p].
    - apply map_length.
    - intro C. pose proof (rv_ne f Vf). destruct (rc_times f) as [|a l] eqn:E2; [congruence|].
      assert (Q : In a T) by (apply I; left; reflexivity). rewrite C in Q. destruct Q.
    - apply gap_sorted_lt. exact G.
    - intros t Ht. apply I in Ht. apply in_app_or in Ht. destruct Ht as [Ht|Ht].
      + apply (rv_dom f Vf) in Ht. unfold rin_dom in *. rewrite El, Eh in Ht. exact Ht.
      + apply (rv_dom g Vg) in Ht. exact Ht. }
  exists p. split; [exact (rc_init_ok p Vp)|]. split; [exact Vp|]. split; [reflexivity|]. split; [reflexivity|].
  split; [|split].
  - intro x. cbn [rc_times p]. rewrite I, in_app_iff. tauto.
  - exact G.
  - apply (rc_unique p _ Vp); [reflexivity|]. cbn [rc_times p]. apply jumps_plus.
    + apply (jumps_sub _ (rc_times f)); [apply rc_jumps; auto|]. intros x Hx. apply I, in_or_app. auto.
    + apply (jumps_sub _ (rc_times g)); [apply rc_jumps; auto|]. intros x Hx. apply I, in_or_app. auto.
Qed.

(** ** Sum of any number of functions *)
Fixpoint rsum (fs : list RC) (t : Qc) : Qc :=
  match fs with [] => 0 | f :: r => rc_at f t + rsum r t end.

Lemma advs_ok t ts : increasing (t :: ts) -> forall fs ptrs, Forall rvalid fs ->
  Forall2 (fun f p => before (rc_times f) p (t :: ts)) fs ptrs ->
  exists ptrs', advs fs ptrs t = Ok ptrs' /\ Forall2 (fun f p => before (rc_times f) p ts) fs ptrs' /\
    forall acc, sum_at acc fs ptrs' = Ok (acc + rsum fs t).
Proof.
  intros S. induction fs as [|f fs IH]; intros ptrs V B; inversion B; subst.
  - exists []. split; [reflexivity|]. split; [constructor|]. intro acc. cbn [sum_at rsum]. f_equal. ring.
  - inversion V; subst. destruct (adv_fn_ok f t ts y) as [p' [E [G B']]]; auto.
    destruct (IH l') as [ps' [E2 [B2 G2]]]; auto.
    exists (p' :: ps'). cbn [advs]. rewrite E. cbn [bind]. rewrite E2. split; [reflexivity|].
    split; [constructor; auto|]. intro acc. cbn [sum_at rsum]. rewrite G. cbn [bind]. rewrite G2. f_equal. ring.
Qed.
Lemma sum_loop_ok fs : Forall rvalid fs -> forall ts ptrs, increasing ts ->
  Forall2 (fun f p => before (rc_times f) p ts) fs ptrs -> sum_loop fs ptrs ts = Ok (map (rsum fs) ts).
Proof.
  intro V. induction ts as [|t ts IH]; intros ptrs S B; [reflexivity|]. cbn [sum_loop map].
  destruct (advs_ok t ts S fs ptrs V B) as [ps [E [B2 G]]]. rewrite E. cbn [bind]. rewrite G. cbn [bind].
  inversion S; subst. rewrite (IH ps); auto. cbn [bind]. do 2 f_equal. ring.
Qed.
Lemma jumps_rsum T : forall fs, Forall rvalid fs -> (forall f x, In f fs -> In x (rc_times f) -> In x T) ->
  jumps_in (rsum fs) T.
Proof.
  induction fs as [|f fs IH]; intros V S.
  - intros t u _ _. reflexivity.
  - inversion V; subst. apply (jumps_plus (rc_at f) (rsum fs)).
    + apply (jumps_sub _ (rc_times f)); [apply rc_jumps; auto|]. intros x Hx. apply (S f); auto. left; reflexivity.
    + apply IH; auto. intros g x Hg Hx. apply (S g); auto. right; auto.
Qed.

Lemma rc_sum_ok fs lo hi : fs <> [] -> Forall rvalid fs ->
  (forall f t, In f fs -> In t (rc_times f) -> ext_le lo (Fin t) /\ ext_le (Fin t) hi) ->
  separated (concat (map rc_times fs)) ->
  exists p, rc_sum fs lo hi = Ok p /\ rvalid p /\ rc_lo p = lo /\ rc_hi p = hi /\
    (forall x, In x (rc_times p) <-> exists f, In f fs /\ In x (rc_times f)) /\
    StronglySorted gap (rc_times p) /\
    forall t, rc_at p t = rsum fs t.
Proof.
  intros Ne V D Sep.
  assert (St : Forall (StronglySorted Qcle) (map rc_times fs)).
  { apply Forall_forall. intros l Hl. apply in_map_iff in Hl. destruct Hl as [f [<- Hf]].
    rewrite Forall_forall in V. apply lt_sorted_le, rv_inc; auto. }
  destruct (merge_sorted_many_facts _ St) as [T [E [G [_ [_ I]]]]]. specialize (I Sep).
  assert (I' : forall x, In x T <-> exists f, In f fs /\ In x (rc_times f)).
  { intro x. rewrite I, in_concat. split.
    - intros [l [Hl Hx]]. apply in_map_iff in Hl. destruct Hl as [f [<- Hf]]. eauto.
    - intros [f [Hf Hx]]. exists (rc_times f). split; auto. apply in_map. auto. }
  assert (R : rc_sum fs lo hi = (values <- sum_loop fs (map (fun _ => 0%Z) fs) T ;; rc_init T values lo hi)).
  { destruct fs; [congruence|]. cbn [rc_sum]. rewrite E. reflexivity. }
  rewrite R. rewrite (sum_loop_ok fs V T); [|apply gap_sorted_lt; auto|].
  2:{ clear - V. induction fs as [|f fs IH]; cbn; constructor; inversion V; subst; auto. apply before0, rv_ne; auto. }
  cbn [bind]. set (p := mkRC T (map (rsum fs) T) lo hi).
  assert (Vp : rvalid p).
  { constructor; cbn [rc_times rc_values p].
    - apply map_length.
    - intro C. destruct fs as [|f fs]; [congruence|]. assert (Vf : rvalid f) by (rewrite Forall_forall in V; apply V; left; reflexivity). pose proof (rv_ne f Vf).
      destruct (rc_times f) as [|a l] eqn:E2; [congruence|].
      assert (Q : In a T). { apply I'. exists f. split; [left; reflexivity|]. rewrite E2. left; reflexivity. }
      rewrite C in Q. destruct Q.
    - apply gap_sorted_lt. exact G.
    - intros t Ht. apply I' in Ht. destruct Ht as [f [Hf Hx]]. apply (D f t); auto. }
  exists p. split; [exact (rc_init_ok p Vp)|]. split; [exact Vp|]. split; [reflexivity|]. split; [reflexivity|].
  split; [exact I'|]. split; [exact G|].
  apply (rc_unique p _ Vp); [reflexivity|]. cbn [rc_times p]. apply jumps_rsum; auto.
  intros f x Hf Hx. apply I'. eauto.
Qed.

(** ** Negation and difference *)
Lemma step_opp t : forall ps c, step (- c) (map (fun p => (fst p, - snd p)) ps) t = - step c ps t.
Proof. induction ps as [|[a v] r IH]; intro c; cbn [step map fst snd]; [reflexivity|]. destruct (qleb a t); auto. Qed.
Lemma combine_map_r {A B C} (g : B -> C) : forall (l1 : list A) l2,
  combine l1 (map g l2) = map (fun p => (fst p, g (snd p))) (combine l1 l2).
Proof. induction l1; intros [|b l2]; cbn; auto. rewrite IHl1. reflexivity. Qed.
Lemma rc_neg_ok f : rvalid f -> exists n, rc_neg f = Ok n /\ rvalid n /\ rc_times n = rc_times f /\
  rc_lo n = rc_lo f /\ rc_hi n = rc_hi f /\ forall t, rc_at n t = - rc_at f t.
Proof.
  intro V. set (n := mkRC (rc_times f) (map Qcopp (rc_values f)) (rc_lo f) (rc_hi f)).
  assert (Vn : rvalid n).
  { destruct V as [A B C D]. constructor; cbn [rc_times rc_values n]; auto. rewrite map_length. exact A. }
  exists n. split; [exact (rc_init_ok n Vn)|]. split; [exact Vn|]. do 3 (split; [reflexivity|]).
  intro t. unfold rc_at. cbn [rc_times rc_values n]. rewrite combine_map_r, <- step_opp. f_equal.
  pose proof (rvals_ne f V). destruct (rc_values f); [congruence|reflexivity].
Qed.
Lemma rc_sub_ok f g : rvalid f -> rvalid g -> rc_lo f = rc_lo g -> rc_hi f = rc_hi g ->
  separated (rc_times f ++ rc_times g) ->
  exists p, rc_sub f g = Ok p /\ rvalid p /\ rc_lo p = rc_lo f /\ rc_hi p = rc_hi f /\
    forall t, rc_at p t = rc_at f t - rc_at g t.
Proof.
  intros Vf Vg El Eh S. destruct (rc_neg_ok g Vg) as [n [En [Vn [Tn [Ln [Hn An]]]]]].
  unfold rc_sub. rewrite En. cbn [bind].
  destruct (rc_plus_ok f n Vf Vn) as [p [E [Vp [L [H [_ [_ A]]]]]]]; [congruence|congruence|rewrite Tn; exact S|].
  exists p. do 4 (split; [assumption|]). intro t. rewrite A, An. ring.
Qed.
