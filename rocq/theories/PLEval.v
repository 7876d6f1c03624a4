(** * Evaluation routes (C06, C07) *)
From Verif Require Import Base Spec Arrays ArraysProofs PL PLProofs.

(** ** C06 *)
Lemma nth_tm f i a : nth_error (pl_times f) i = Some a ->
  (0 <= Z.of_nat i < pl_len f)%Z /\ tm f (Z.of_nat i) = a.
Proof.
  intro H. assert (i < length (pl_times f))%nat by (apply nth_error_Some; congruence).
  unfold pl_len, zlen, tm, nthq. rewrite Nat2Z.id. split; [lia|]. apply nth_error_nth. exact H.
Qed.
Lemma nth_vl f i a : valid f -> nth_error (pl_values f) i = Some a ->
  (0 <= Z.of_nat i < pl_len f)%Z /\ vl f (Z.of_nat i) = a.
Proof.
  intros V H. assert (i < length (pl_values f))%nat by (apply nth_error_Some; congruence).
  unfold pl_len, zlen, vl, nthq. rewrite Nat2Z.id. destruct V as [L _ _ _].
  split; [lia|]. apply nth_error_nth. exact H.
Qed.

(** The three interpolation formulas in terms of the stored fields. *)
Definition interpolates (f : PL) (t y : Qc) : Prop :=
  (forall t0 v0, nth_error (pl_times f) 0 = Some t0 -> nth_error (pl_values f) 0 = Some v0 ->
     t <= t0 -> y = v0 + (t - t0) * pl_first f) /\
  (forall i a b va vb,
     nth_error (pl_times f) i = Some a -> nth_error (pl_times f) (S i) = Some b ->
     nth_error (pl_values f) i = Some va -> nth_error (pl_values f) (S i) = Some vb ->
     a <= t -> t <= b -> y = va + (t - a) * ((vb - va) / (b - a))) /\
  (forall tn vn, nth_error (pl_times f) (length (pl_times f) - 1) = Some tn ->
     nth_error (pl_values f) (length (pl_times f) - 1) = Some vn ->
     tn <= t -> y = vn + (t - tn) * pl_last f).

Lemma at_interpolates f t : valid f -> interpolates f t (pl_at f t).
Proof.
  intro V. split; [|split].
  - intros t0 v0 H1 H2 Ht. apply nth_tm in H1. apply (nth_vl f) in H2; auto.
    destruct H1 as [_ H1], H2 as [_ H2]. cbn in H1, H2. subst. apply at_left; auto.
  - intros i a b va vb H1 H2 H3 H4 Ha Hb.
    apply nth_tm in H1, H2. apply (nth_vl f) in H3, H4; auto.
    replace (Z.of_nat (S i)) with (Z.of_nat i + 1)%Z in * by lia.
    destruct H1 as [? <-], H2 as [? <-], H3 as [? <-], H4 as [? <-].
    apply at_seg; auto. lia.
  - intros tn vn H1 H2 Ht. apply nth_tm in H1. apply (nth_vl f) in H2; auto.
    destruct H1 as [H1 <-], H2 as [H2 <-].
    replace (Z.of_nat (length (pl_times f) - 1)) with (pl_len f - 1)%Z in * by (unfold pl_len, zlen in *; lia).
    apply at_right; auto.
Qed.

(** The formulas determine the value. *)
Lemma interpolates_fun f t y : valid f -> interpolates f t y -> y = pl_at f t.
Proof.
  intros V [H1 [H2 H3]]. assert (Hp := len_pos f V).
  assert (E : forall i, (0 <= i < pl_len f)%Z ->
    nth_error (pl_times f) (Z.to_nat i) = Some (tm f i) /\ nth_error (pl_values f) (Z.to_nat i) = Some (vl f i)).
  { intros i Hi. split; apply nthq_nth_error; [exact Hi|]. rewrite len_vals; auto. }
  destruct (locate f t V) as [H|[H|[i [Hi [A B]]]]].
  - rewrite at_left by auto. destruct (E 0%Z ltac:(lia)). apply H1; auto.
  - rewrite at_right by auto. destruct (E (pl_len f - 1)%Z ltac:(lia)) as [E1 E2].
    replace (Z.to_nat (pl_len f - 1)) with (length (pl_times f) - 1)%nat in * by (unfold pl_len, zlen; lia).
    apply H3; auto.
  - rewrite (at_seg f t i) by auto. destruct (E i ltac:(lia)). destruct (E (i+1)%Z ltac:(lia)).
    replace (Z.to_nat (i+1)) with (S (Z.to_nat i)) in * by lia. eapply H2; eauto.
Qed.

Lemma eval_full f t : valid f ->
  (in_dom f t -> exists y, pl_eval f t = Ok y /\ interpolates f t y /\ (forall y', interpolates f t y' -> y' = y)) /\
  (~ in_dom f t -> pl_eval f t = Err AssertionError).
Proof.
  intro V. split; [|apply eval_out]. intro D. exists (pl_at f t). split; [apply eval_at; auto|].
  split; [apply at_interpolates; auto|]. intros; apply interpolates_fun; auto.
Qed.

(** Limits at the infinite ends. *)
Definition limit_at_pinf (h : Qc -> res Qc) (y : ext) : Prop :=
  match y with
  | Fin v => exists T, forall t, T <= t -> h t = Ok v
  | PInf => forall M, exists T, forall t, T <= t -> exists v, h t = Ok v /\ M <= v
  | NInf => forall M, exists T, forall t, T <= t -> exists v, h t = Ok v /\ v <= M
  end.
Definition limit_at_ninf (h : Qc -> res Qc) (y : ext) : Prop :=
  match y with
  | Fin v => exists T, forall t, t <= T -> h t = Ok v
  | PInf => forall M, exists T, forall t, t <= T -> exists v, h t = Ok v /\ M <= v
  | NInf => forall M, exists T, forall t, t <= T -> exists v, h t = Ok v /\ v <= M
  end.

Lemma right_dom f t : valid f -> pl_hi f = PInf -> tm f (pl_len f - 1) <= t -> in_dom f t.
Proof.
  intros V Hh Ht. assert (Hp := len_pos f V).
  assert (D := v_dom f V _ (tm_in f (pl_len f - 1) ltac:(lia))).
  destruct D as [D1 _]. split; [|rewrite Hh; exact I].
  eapply ext_le_trans; [exact D1|exact Ht].
Qed.
Lemma left_dom f t : valid f -> pl_lo f = NInf -> t <= tm f 0 -> in_dom f t.
Proof.
  intros V Hh Ht. assert (Hp := len_pos f V).
  assert (D := v_dom f V _ (tm_in f 0 ltac:(lia))).
  destruct D as [_ D1]. split; [rewrite Hh; exact I|].
  eapply ext_le_trans; [|exact D1]. exact Ht.
Qed.

Lemma lin_ge a s : 0 < s -> forall M, exists T, 0 <= T /\ forall d, T <= d -> M <= a + d * s.
Proof.
  intros Hs M. destruct (qlebP M a) as [H|H].
  - exists 0. split; [qlra|]. intros d Hd. assert (0 <= d * s) by qnra. qlra.
  - exists ((M - a) / s). split.
    + apply qdiv_nonneg; qlra.
    + intros d Hd. assert (E : (M - a) / s * s = M - a) by (apply qdiv_mul; qlra).
      set (x := (M - a)/s) in *. assert (x * s <= d * s) by qnra. qlra.
Qed.
Lemma lin_le a s : s < 0 -> forall M, exists T, 0 <= T /\ forall d, T <= d -> a + d * s <= M.
Proof.
  intros Hs M. destruct (lin_ge (-a) (-s) ltac:(qlra) (-M)) as [T [HT H]].
  exists T. split; auto. intros d Hd. specialize (H d Hd).
  assert (- a + d * - s = - (a + d * s)) by ring. qlra.
Qed.

Lemma eval_pinf f : valid f -> pl_hi f = PInf ->
  exists y, pl_eval_ext f PInf = Ok y /\ limit_at_pinf (pl_eval f) y.
Proof.
  intros V Hh. assert (Hp := len_pos f V). unfold pl_eval_ext. rewrite Hh. cbn [ext_leb assertb bind].
  rewrite gradient_ok by (auto; lia). cbn [bind]. rewrite get_vl_last by auto. cbn [bind].
  assert (E : slope_q f (pl_len f - 1) = pl_last f).
  { unfold slope_q. destruct (Z.eqb_spec (pl_len f - 1) (-1)); [lia|]. rewrite Z.eqb_refl. reflexivity. }
  rewrite E.
  assert (EV : forall t, tm f (pl_len f - 1) <= t -> pl_eval f t = Ok (vl f (pl_len f - 1) + (t - tm f (pl_len f - 1)) * pl_last f)).
  { intros t Ht. rewrite eval_at; auto; [|apply right_dom; auto]. rewrite at_right; auto. }
  destruct (qeqbP (pl_last f) 0) as [H0|H0].
  - exists (Fin (vl f (pl_len f - 1))). split; [reflexivity|]. exists (tm f (pl_len f - 1)).
    intros t Ht. rewrite EV by auto. f_equal. rewrite H0. ring.
  - unfold inf_mul. destruct (qltbP 0 (pl_last f)) as [Hpos|Hneg].
    + exists PInf. split; [reflexivity|]. intro M.
      destruct (lin_ge (vl f (pl_len f - 1)) (pl_last f) Hpos M) as [T [HT H]].
      exists (tm f (pl_len f - 1) + T). intros t Ht. rewrite EV by qlra. eexists; split; [reflexivity|].
      apply H. qlra.
    + exists NInf. split; [reflexivity|]. intro M.
      destruct (lin_le (vl f (pl_len f - 1)) (pl_last f) ltac:(qlra) M) as [T [HT H]].
      exists (tm f (pl_len f - 1) + T). intros t Ht. rewrite EV by qlra. eexists; split; [reflexivity|].
      apply H. qlra.
Qed.
Lemma eval_ninf f : valid f -> pl_lo f = NInf ->
  exists y, pl_eval_ext f NInf = Ok y /\ limit_at_ninf (pl_eval f) y.
Proof.
  intros V Hh. assert (Hp := len_pos f V). unfold pl_eval_ext. rewrite Hh. cbn [ext_leb assertb bind].
  rewrite gradient_ok by (auto; lia). cbn [bind]. rewrite get_vl by (auto; lia). cbn [bind].
  change (slope_q f (-1)) with (pl_first f).
  assert (EV : forall t, t <= tm f 0 -> pl_eval f t = Ok (vl f 0 + (t - tm f 0) * pl_first f)).
  { intros t Ht. rewrite eval_at; auto; [|apply left_dom; auto]. rewrite at_left; auto. }
  destruct (qeqbP (pl_first f) 0) as [H0|H0].
  - exists (Fin (vl f 0)). split; [reflexivity|]. exists (tm f 0).
    intros t Ht. rewrite EV by auto. f_equal. rewrite H0. ring.
  - unfold inf_mul. destruct (qltbP 0 (pl_first f)) as [Hpos|Hneg].
    + exists NInf. split; [reflexivity|]. intro M.
      destruct (lin_le (vl f 0) (- pl_first f) ltac:(qlra) M) as [T [HT H]].
      exists (tm f 0 - T). intros t Ht. rewrite EV by qlra. eexists; split; [reflexivity|].
      replace ((t - tm f 0) * pl_first f) with ((tm f 0 - t) * - pl_first f) by ring. apply H. qlra.
    + exists PInf. split; [reflexivity|]. intro M.
      destruct (lin_ge (vl f 0) (- pl_first f) ltac:(qlra) M) as [T [HT H]].
      exists (tm f 0 - T). intros t Ht. rewrite EV by qlra. eexists; split; [reflexivity|].
      replace ((t - tm f 0) * pl_first f) with ((tm f 0 - t) * - pl_first f) by ring. apply H. qlra.
Qed.

(** ** C07 *)
Lemma scan_back_rank arr x : StronglySorted Qcle arr ->
  forall n, (n <= length arr)%nat -> ((Z.of_nat n < zlen arr)%Z -> x <= nthq arr (Z.of_nat n)) ->
  exists i, scan_back arr x n = Ok i /\ is_rank arr x i.
Proof.
  intros Hs n. induction n as [|n IH]; intros Hn Hup.
  - exists (-1)%Z. split; [reflexivity|]. apply is_rank_iff. split; [unfold zlen; lia|].
    split; intro; [lia|]. apply Hup. lia.
  - cbn [scan_back]. rewrite (pyget_nat arr n 0) by lia. cbn [bind].
    assert (E : nth n arr 0 = nthq arr (Z.of_nat n)) by (unfold nthq; rewrite Nat2Z.id; reflexivity).
    rewrite E. destruct (qlebP x (nthq arr (Z.of_nat n))) as [H|H].
    + apply IH; [lia|auto].
    + exists (Z.of_nat n). split; [reflexivity|]. apply is_rank_iff. unfold zlen in *. split; [lia|].
      split; intro; [qlra|]. replace (Z.of_nat n + 1)%Z with (Z.of_nat (S n)) in * by lia. apply Hup. lia.
Qed.

Lemma eval_from_end_eq f t : valid f -> eval_from_end f t = pl_eval f t.
Proof.
  intro V. destruct (ext_leb (pl_lo f) (Fin t) && ext_leb (Fin t) (pl_hi f))%bool eqn:D.
  - assert (D' : in_dom f t) by (apply bool_dom; exact D).
    rewrite eval_at by auto. unfold eval_from_end. rewrite D. cbn [assertb bind].
    destruct (scan_back_rank (pl_times f) t (times_sorted f V) (length (pl_times f)) ltac:(lia)) as [i [E H]].
    { unfold zlen. lia. }
    rewrite E. cbn [bind]. rewrite eval_with_rank_ok, (pl_at_rank f t i) by auto. reflexivity.
  - unfold eval_from_end, pl_eval. rewrite D. reflexivity.
Qed.

Lemma set_nth_length {A} (l : list A) i v : length (set_nth l i v) = length l.
Proof. revert i. induction l as [|a l IH]; destruct i; cbn; auto. Qed.
Lemma set_nth_same {A} (l : list A) i v d : (i < length l)%nat -> nth i (set_nth l i v) d = v.
Proof. revert i. induction l as [|a l IH]; destruct i; cbn; intros; auto; try lia. apply IH. lia. Qed.
Lemma set_nth_other {A} (l : list A) i j v d : i <> j -> nth j (set_nth l i v) d = nth j l d.
Proof. revert i j. induction l as [|a l IH]; destruct i, j; cbn; intros; auto; try lia. Qed.

Lemma rank_mono arr x y i j : StronglySorted Qcle arr -> x <= y ->
  is_rank arr x i -> is_rank arr y j -> (i <= j)%Z.
Proof.
  rewrite !is_rank_iff. intros Hs Hxy [A1 [A2 A3]] [B1 [B2 B3]].
  destruct (Z.le_gt_cases i j); auto. exfalso.
  assert (nthq arr (j+1) <= nthq arr i) by (apply sorted_le_nthq; auto; lia).
  assert (y <= nthq arr (j+1)) by (apply B3; lia).
  assert (nthq arr i < x) by (apply A2; lia). qlra.
Qed.

Lemma find_rnk_ok f x a b i j : valid f -> a <= x -> x <= b ->
  is_rank (pl_times f) a i -> is_rank (pl_times f) b j ->
  exists k, find_rnk_between (pl_times f) x i j = Ok k /\ is_rank (pl_times f) x k.
Proof.
  intros V Ha Hb Hi Hj. unfold find_rnk_between.
  assert (Hs := times_sorted f V).
  assert (Hij : (i <= j)%Z) by (apply (rank_mono (pl_times f) a b); auto; qlra).
  apply is_rank_iff in Hi, Hj. destruct Hi as [I1 [I2 I3]], Hj as [J1 [J2 J3]].
  unfold zlen in *. apply bisect_rank; unfold zlen; auto; try lia.
  - intro. replace (i + 1 - 1)%Z with i by lia. assert (nthq (pl_times f) i < a) by (apply I2; lia). qlra.
  - intro. assert (b <= nthq (pl_times f) (j+1)) by (apply J3; lia). qlra.
Qed.
Lemma find_rnk_top f x a i : valid f -> a <= x ->
  is_rank (pl_times f) a i ->
  exists k, find_rnk_between (pl_times f) x i (pl_len f - 1) = Ok k /\ is_rank (pl_times f) x k.
Proof.
  intros V Ha Hi. unfold find_rnk_between.
  assert (Hs := times_sorted f V).
  apply is_rank_iff in Hi. destruct Hi as [I1 [I2 I3]].
  unfold pl_len, zlen in *. apply bisect_rank; unfold zlen; auto; try lia.
  intro. replace (i + 1 - 1)%Z with i by lia. assert (nthq (pl_times f) i < a) by (apply I2; lia). qlra.
Qed.

Section Sorted.
Variables (f : PL) (ts : list Qc).
Hypothesis V : valid f.
Hypothesis Hs : StronglySorted Qcle ts.
Hypothesis Hd : forall t, In t ts -> in_dom f t.

Lemma nth_dom i : (i < length ts)%nat -> in_dom f (nth i ts 0).
Proof. intro H. apply Hd. apply nth_In. exact H. Qed.
Lemma nth_mono i j : (i <= j)%nat -> (j < length ts)%nat -> nth i ts 0 <= nth j ts 0.
Proof.
  intros H1 H2. assert (H := sorted_le_nthq ts Hs (Z.of_nat i) (Z.of_nat j)).
  unfold nthq, zlen in H. rewrite !Nat2Z.id in H. apply H; lia.
Qed.

Lemma rec_eval_ok fuel : forall si ei srnk ernk values,
  (ei - si < fuel)%nat -> (si <= ei < length ts)%nat -> length values = length ts ->
  is_rank (pl_times f) (nth si ts 0) srnk -> is_rank (pl_times f) (nth ei ts 0) ernk ->
  exists out, rec_eval_sorted fuel f ts si ei srnk ernk values = Ok out /\
    length out = length ts /\
    (forall i, (si < i < ei)%nat -> nth i out 0 = pl_at f (nth i ts 0)) /\
    (forall i, ~ (si < i < ei)%nat -> nth i out 0 = nth i values 0).
Proof.
  induction fuel as [|k IH]; intros si ei srnk ernk values Hf Hie Hlen Hr1 Hr2; [lia|].
  cbn [rec_eval_sorted].
  destruct (Z.ltb_spec (Z.of_nat ei - Z.of_nat si) 2) as [Hc|Hc].
  - replace (ei - (si + 1))%nat with 0%nat by lia. cbn [seq foldM].
    exists values. repeat split; auto. intros; lia.
  - set (mid := ((si + ei) / 2)%nat).
    assert (Hmid : (si < mid < ei)%nat).
    { unfold mid. split.
      - apply Nat.div_le_lower_bound; lia.
      - apply Nat.div_lt_upper_bound; lia. }
    clearbody mid. cbn zeta.
    rewrite (pyget_nat ts mid 0) by lia. cbn [bind].
    destruct (find_rnk_ok f (nth mid ts 0) (nth si ts 0) (nth ei ts 0) srnk ernk) as [m [E Hm]];
      auto; try (apply nth_mono; lia).
    rewrite E. cbn [bind].
    rewrite (eval_with_rank_ok f V (nth mid ts 0) m) by (auto; apply nth_dom; lia). cbn [bind].
    rewrite <- (pl_at_rank f _ m) by auto.
    destruct (IH si mid srnk m (set_nth values mid (pl_at f (nth mid ts 0)))) as [o1 [E1 [L1 [A1 B1]]]];
      auto; try lia. { rewrite set_nth_length. auto. }
    rewrite E1. cbn [bind].
    destruct (IH mid ei m ernk o1) as [o2 [E2 [L2 [A2 B2]]]]; auto; try lia.
    exists o2. split; [exact E2|]. split; [exact L2|]. split.
    + intros i Hi. destruct (Nat.lt_trichotomy i mid) as [H|[->|H]].
      * rewrite B2 by lia. apply A1. lia.
      * rewrite B2, B1 by lia. apply set_nth_same. lia.
      * apply A2. lia.
    + intros i Hi. rewrite B2, B1 by lia. apply set_nth_other. lia.
Qed.

Lemma mapM_eval : mapM (pl_eval f) ts = Ok (map (pl_at f) ts).
Proof.
  clear Hs. induction ts as [|t r IH]; [reflexivity|]. cbn [mapM map].
  rewrite eval_at by (auto; apply Hd; left; auto). cbn [bind].
  rewrite IH; [reflexivity|]. intros; apply Hd; right; auto.
Qed.

Lemma eval_sorted_array_at : eval_sorted_array f ts = Ok (map (pl_at f) ts).
Proof.
  unfold eval_sorted_array. destruct (Nat.ltb_spec (length ts) 2) as [H|H]; [apply mapM_eval|].
  rewrite (pyget_Z ts 0 0) by lia. change (Z.to_nat 0) with 0%nat. cbn [bind].
  destruct (eval_rank f V (nth 0 ts 0)) as [i [E Hi]]. rewrite E. cbn [bind].
  rewrite (eval_with_rank_ok f V _ i) by (auto; apply nth_dom; lia). cbn [bind].
  rewrite (pyget_last ts 0) by (destruct ts; [cbn in H; lia|discriminate]). cbn [bind].
  assert (El : last ts 0 = nth (length ts - 1) ts 0).
  { destruct (exists_last (l := ts)) as [l' [a ->]]; [destruct ts; [cbn in H; lia|discriminate]|].
    rewrite last_last, app_length. cbn [length]. replace (length l' + 1 - 1)%nat with (length l') by lia.
    rewrite app_nth2 by lia. rewrite Nat.sub_diag. reflexivity. }
  rewrite El.
  destruct (find_rnk_top f (nth (length ts - 1) ts 0) (nth 0 ts 0) i) as [k [Ek Hk]]; auto.
  { apply nth_mono; lia. }
  rewrite Ek. cbn [bind].
  rewrite (eval_with_rank_ok f V _ k) by (auto; apply nth_dom; lia). cbn [bind].
  rewrite <- !(pl_at_rank f) by auto.
  match goal with |- rec_eval_sorted ?fu _ _ ?a ?b ?r1 ?r2 ?vs = _ =>
    destruct (rec_eval_ok fu a b r1 r2 vs) as [o [Eo [Lo [Ao Bo]]]] end; auto; try lia.
  { rewrite !set_nth_length, repeat_length. reflexivity. }
  rewrite Eo. f_equal. apply (nth_ext _ _ 0 (pl_at f 0)).
  { rewrite map_length. exact Lo. }
  intros n Hn. rewrite map_nth. rewrite Lo in Hn.
  destruct (Nat.eq_dec n 0) as [->|H0]; [|destruct (Nat.eq_dec n (length ts - 1)) as [->|H1]].
  - rewrite Bo by lia. rewrite set_nth_other by lia. apply set_nth_same. rewrite repeat_length. lia.
  - rewrite Bo by lia. apply set_nth_same. rewrite set_nth_length, repeat_length. lia.
  - apply Ao. lia.
Qed.
End Sorted.

Lemma eval_sorted_array_eq f ts : valid f -> StronglySorted Qcle ts ->
  (forall t, In t ts -> in_dom f t) -> eval_sorted_array f ts = mapM (pl_eval f) ts.
Proof. intros V Hs Hd. rewrite eval_sorted_array_at, mapM_eval by auto. reflexivity. Qed.
