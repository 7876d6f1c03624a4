(** * Core facts about piecewise linear functions *)
From Verif Require Import Base Spec Arrays ArraysProofs PL.

(** ** Structural interpolation *)
Fixpoint interp (s l : Qc) (pts : list (Qc * Qc)) (t : Qc) : Qc :=
  match pts with
  | [] => 0
  | (t0, v0) :: r =>
      if qleb t t0 then v0 + (t - t0) * s
      else match r with
           | [] => v0 + (t - t0) * l
           | (t1, v1) :: _ => interp ((v1 - v0) / (t1 - t0)) l r t
           end
  end.

Definition pts (f : PL) : list (Qc * Qc) := combine (pl_times f) (pl_values f).
Definition pl_at (f : PL) (t : Qc) : Qc := interp (pl_first f) (pl_last f) (pts f) t.

Definition in_dom (f : PL) (t : Qc) : Prop := ext_le (pl_lo f) (Fin t) /\ ext_le (Fin t) (pl_hi f).

Record valid (f : PL) : Prop := {
  v_len : length (pl_values f) = length (pl_times f);
  v_ne : pl_times f <> [];
  v_gap : StronglySorted gap (pl_times f);
  v_dom : forall t, In t (pl_times f) -> in_dom f t }.

Lemma gaps_ok_iff l : gaps_ok l = true <-> StronglySorted gap l.
Proof.
  induction l as [|a l IH]; [split; [constructor|reflexivity]|].
  destruct l as [|b l]; [split; [repeat constructor|reflexivity]|].
  change (gaps_ok (a :: b :: l)) with (qltb a (b - eps) && gaps_ok (b :: l))%bool.
  rewrite andb_true_iff, qltb_true, IH. split.
  - intros [H1 H2]. constructor; [exact H2|]. constructor; [exact H1|].
    inversion H2 as [|? ? ? HF]; subst. eapply Forall_impl; [|exact HF].
    intros c Hc. unfold gap in *. qlra.
  - intro H. inversion H as [|? ? H1 HF]; subst. split; [|exact H1].
    inversion HF; assumption.
Qed.

Lemma bool_dom f t : (ext_leb (pl_lo f) (Fin t) && ext_leb (Fin t) (pl_hi f))%bool = true <-> in_dom f t.
Proof.
  unfold in_dom. rewrite andb_true_iff.
  destruct (ext_lebP (pl_lo f) (Fin t)), (ext_lebP (Fin t) (pl_hi f)); intuition congruence.
Qed.

Lemma pl_init_inv ts vs a b lo hi f : pl_init ts vs a b lo hi = Ok f ->
  f = mkPL ts vs a b lo hi /\ valid f.
Proof.
  unfold pl_init. intro H. binv H. apply assertb_ok in E. binv H. apply assertb_ok in E0.
  binv H. apply assertb_ok in E1. injection H as <-. split; [reflexivity|].
  apply andb_true_iff in E. destruct E as [E E']. unfold zlen in *.
  apply Z.eqb_eq in E. apply Z.leb_le in E'. apply gaps_ok_iff in E1.
  rewrite forallb_forall in E0.
  constructor; cbn; auto.
  - lia.
  - intros ->. cbn in E'. lia.
  - intros t Ht. apply E0 in Ht. apply (bool_dom (mkPL ts vs a b lo hi)) in Ht. exact Ht.
Qed.
Lemma pl_init_ok f : valid f ->
  pl_init (pl_times f) (pl_values f) (pl_first f) (pl_last f) (pl_lo f) (pl_hi f) = Ok f.
Proof.
  intros [H1 H2 H3 H4]. unfold pl_init, zlen.
  assert (length (pl_times f) <> 0%nat) by (destruct (pl_times f); cbn; congruence).
  rewrite H1, Z.eqb_refl. destruct (Z.leb_spec 1 (Z.of_nat (length (pl_times f)))); [|lia]. cbn [andb assertb bind].
  replace (forallb _ (pl_times f)) with true.
  - cbn [assertb bind]. apply gaps_ok_iff in H3. rewrite H3. cbn. destruct f; reflexivity.
  - symmetry. apply forallb_forall. intros t Ht. apply (bool_dom f). apply H4. exact Ht.
Qed.

(** ** Indexed facts *)
Definition tm (f : PL) (i : Z) : Qc := nthq (pl_times f) i.
Definition vl (f : PL) (i : Z) : Qc := nthq (pl_values f) i.

Definition slope_q (f : PL) (i : Z) : Qc :=
  if (i =? -1)%Z then pl_first f
  else if (i =? pl_len f - 1)%Z then pl_last f
  else (vl f (i + 1) - vl f i) / (tm f (i + 1) - tm f i).

Section Valid.
Variable f : PL.
Hypothesis V : valid f.

Lemma len_pos : (0 < pl_len f)%Z.
Proof. destruct V as [_ H _ _]. unfold pl_len, zlen. destruct (pl_times f); cbn; [congruence|lia]. Qed.
Lemma len_vals : zlen (pl_values f) = pl_len f.
Proof. destruct V as [H _ _ _]. unfold pl_len, zlen. lia. Qed.

Lemma get_tm i : (0 <= i < pl_len f)%Z -> pyget (pl_times f) i = Ok (tm f i).
Proof. intro H. apply pyget_Z. exact H. Qed.
Lemma get_vl i : (0 <= i < pl_len f)%Z -> pyget (pl_values f) i = Ok (vl f i).
Proof. intro H. apply pyget_Z. rewrite <- len_vals in H. exact H. Qed.
Lemma get_tm_last : pyget (pl_times f) (-1) = Ok (tm f (pl_len f - 1)).
Proof.
  assert (H := len_pos). rewrite <- (get_tm (pl_len f - 1)) by lia.
  unfold pyget. unfold pl_len, zlen in *.
  replace (-1 <? 0)%Z with true by reflexivity.
  destruct (Z.ltb_spec (Z.of_nat (length (pl_times f)) - 1) 0); [lia|].
  replace (-1 + Z.of_nat (length (pl_times f)))%Z with (Z.of_nat (length (pl_times f)) - 1)%Z by lia.
  reflexivity.
Qed.
Lemma get_vl_last : pyget (pl_values f) (-1) = Ok (vl f (pl_len f - 1)).
Proof.
  assert (H := len_pos). rewrite <- (get_vl (pl_len f - 1)) by lia.
  unfold pyget. rewrite <- len_vals in *. unfold zlen in *.
  replace (-1 <? 0)%Z with true by reflexivity.
  destruct (Z.ltb_spec (Z.of_nat (length (pl_values f)) - 1) 0); [lia|].
  replace (-1 + Z.of_nat (length (pl_values f)))%Z with (Z.of_nat (length (pl_values f)) - 1)%Z by lia.
  reflexivity.
Qed.
Lemma tm_gap i j : (0 <= i < j)%Z -> (j < pl_len f)%Z -> tm f i < tm f j - eps.
Proof. intros. apply (sorted_nthq gap); auto. apply V. Qed.
Lemma tm_lt i j : (0 <= i < j)%Z -> (j < pl_len f)%Z -> tm f i < tm f j.
Proof. intros H1 H2. assert (H := tm_gap i j H1 H2). qlra. Qed.
Lemma tm_le i j : (0 <= i <= j)%Z -> (j < pl_len f)%Z -> tm f i <= tm f j.
Proof.
  intros H1 H2. destruct (Z.eq_dec i j) as [->|]; [qlra|].
  assert (H := tm_lt i j ltac:(lia) H2). qlra.
Qed.
Lemma times_sorted : StronglySorted Qcle (pl_times f).
Proof. apply gap_sorted_le. apply V. Qed.

Lemma gradient_ok i : (-1 <= i < pl_len f)%Z -> gradient f i = Ok (slope_q f i).
Proof.
  intro H. unfold gradient, slope_q.
  destruct (Z.leb_spec (-1) i); [|lia]. destruct (Z.ltb_spec i (pl_len f)); [|lia].
  cbn [andb assertb bind].
  destruct (Z.eqb_spec i (-1)); [reflexivity|]. destruct (Z.eqb_spec i (pl_len f - 1)); [reflexivity|].
  rewrite !get_vl, !get_tm by lia. cbn [bind].
  apply pydiv_ok. assert (T := tm_lt i (i+1) ltac:(lia) ltac:(lia)). qlra.
Qed.

(** The value prescribed for rank [i]. *)
Definition seg_val (i : Z) (t : Qc) : Qc :=
  if (i =? -1)%Z then vl f 0 + (t - tm f 0) * slope_q f i
  else vl f i + (t - tm f i) * slope_q f i.

Lemma eval_with_rank_ok t i : in_dom f t -> is_rank (pl_times f) t i ->
  eval_with_rank f t i = Ok (seg_val i t).
Proof.
  intros Hd Hr. apply is_rank_iff in Hr. fold (pl_len f) in Hr.
  destruct Hr as [Hi [Hlow Hup]]. fold (tm f i) in Hlow. fold (tm f (i+1)) in Hup.
  assert (Hpos := len_pos).
  unfold eval_with_rank. apply bool_dom in Hd. rewrite Hd. cbn [assertb bind].
  destruct (Z.leb_spec (-1) i); [|lia]. destruct (Z.leb_spec i (pl_len f)); [|lia].
  cbn [andb assertb bind]. rewrite get_tm by lia. cbn [bind].
  replace (negb (i =? -1)%Z || qleb t (tm f 0))%bool with true.
  2:{ destruct (Z.eqb_spec i (-1)) as [->|]; [|reflexivity]. cbn. symmetry. apply qleb_true. apply Hup. lia. }
  cbn [assertb bind]. rewrite get_tm_last. cbn [bind].
  replace (negb (i =? pl_len f - 1)%Z || qltb (tm f (pl_len f - 1)) t)%bool with true.
  2:{ destruct (Z.eqb_spec i (pl_len f - 1)) as [->|]; [|reflexivity]. cbn. symmetry. apply qltb_true. apply Hlow. lia. }
  cbn [assertb bind].
  unfold seg_val.
  destruct (Z.eqb_spec i (-1)) as [->|Hi1].
  - replace (-1 <? -1)%Z with false by reflexivity. cbn [andb bind].
    rewrite gradient_ok by lia. cbn [bind]. rewrite get_vl by lia. reflexivity.
  - destruct (Z.ltb_spec (-1) i); [|lia].
    destruct (Z.eqb_spec i (pl_len f - 1)) as [->|Hi2].
    + destruct (Z.ltb_spec (pl_len f - 1) (pl_len f - 1)); [lia|]. cbn [andb bind].
      rewrite gradient_ok by lia. cbn [bind]. rewrite get_vl_last. reflexivity.
    + destruct (Z.ltb_spec i (pl_len f - 1)); [|lia]. cbn [andb].
      rewrite !get_tm by lia. cbn [bind].
      replace (qltb (tm f i) t && qleb t (tm f (i + 1)))%bool with true.
      2:{ symmetry. apply andb_true_iff. split; [apply qltb_true|apply qleb_true]; [apply Hlow|apply Hup]; lia. }
      cbn [assertb bind]. rewrite get_vl by lia. cbn [bind]. rewrite gradient_ok by lia. reflexivity.
Qed.

Lemma eval_rank t : exists i, elem_rank (pl_times f) t = Ok i /\ is_rank (pl_times f) t i.
Proof. apply elem_rank_ok; [apply V|apply times_sorted]. Qed.

End Valid.

(** Interpolation over lists at a rank. *)
Lemma interp_rank s l : forall ts vs t i, length vs = length ts -> ts <> [] ->
  StronglySorted Qclt ts -> is_rank ts t i ->
  interp s l (combine ts vs) t =
    if (i =? -1)%Z then nthq vs 0 + (t - nthq ts 0) * s
    else if (i =? zlen ts - 1)%Z then nthq vs i + (t - nthq ts i) * l
    else nthq vs i + (t - nthq ts i) * ((nthq vs (i+1) - nthq vs i) / (nthq ts (i+1) - nthq ts i)).
Proof.
  intros ts. revert s. induction ts as [|t0 ts IH]; intros s vs t i Hlen Hne Hs Hr; [congruence|].
  destruct vs as [|v0 vs]; [discriminate|].
  apply is_rank_iff in Hr. destruct Hr as [Hi [Hlow Hup]].
  cbn [combine interp].
  destruct (qlebP t t0) as [Ht|Ht].
  - assert (i = (-1)%Z) as ->.
    { destruct (Z.eq_dec i (-1)) as [|Hn]; auto. exfalso.
      assert (nthq (t0 :: ts) i < t) by (apply Hlow; lia).
      assert (nthq (t0 :: ts) 0 <= nthq (t0 :: ts) i).
      { apply sorted_le_nthq; [apply lt_sorted_le; exact Hs|lia|lia]. }
      change (nthq (t0 :: ts) 0) with t0 in H0. qlra. }
    reflexivity.
  - assert (Hi0 : (0 <= i)%Z).
    { destruct (Z.eq_dec i (-1)) as [->|]; [|lia]. exfalso. apply Ht.
      specialize (Hup ltac:(unfold zlen; cbn [length]; lia)). exact Hup. }
    destruct (Z.eqb_spec i (-1)); [lia|].
    inversion Hs as [|? ? Hs' HF]; subst.
    destruct ts as [|t1 ts].
    + destruct vs; [|discriminate]. cbn [combine].
      unfold zlen in Hi. cbn in Hi. assert (i = 0%Z) as -> by lia. reflexivity.
    + destruct vs as [|v1 vs]; [discriminate|]. cbn [combine].
      change ((t1, v1) :: combine ts vs) with (combine (t1 :: ts) (v1 :: vs)).
      rewrite (IH _ (v1 :: vs) t (i - 1)%Z); auto; try discriminate.
      * assert (Hshift : forall A (d:A) x (r : list A) k, (0 < k)%Z -> nth (Z.to_nat k) (x :: r) d = nth (Z.to_nat (k-1)) r d).
        { intros A d x r k Hk. replace (Z.to_nat k) with (S (Z.to_nat (k-1))) by lia. reflexivity. }
        unfold nthq. unfold zlen in *. cbn [length] in *.
        destruct (Z.eqb_spec (i - 1) (-1)) as [Hx|Hx].
        -- assert (i = 0%Z) as -> by lia.
           destruct (Z.eqb_spec 0 (Z.of_nat (S (S (length ts))) - 1)); [lia|].
           change (Z.to_nat 0) with 0%nat. change (Z.to_nat (0+1)) with 1%nat. cbn [nth].
           inversion HF as [|? ? Hlt _]; subst.
           assert (t1 - t0 <> 0) by qlra. field. exact H.
        -- rewrite (Hshift Qc 0 t0 _ i), (Hshift Qc 0 t0 _ (i+1)%Z), (Hshift Qc 0 v0 _ i), (Hshift Qc 0 v0 _ (i+1)%Z) by lia.
           replace (i + 1 - 1)%Z with (i - 1 + 1)%Z by lia.
           destruct (Z.eqb_spec (i - 1) (Z.of_nat (S (length ts)) - 1));
           destruct (Z.eqb_spec i (Z.of_nat (S (S (length ts))) - 1)); try lia; reflexivity.
      * apply is_rank_iff. unfold zlen in *. cbn [length] in *. split; [lia|].
        assert (Hshift : forall x (r : list Qc) k, (0 < k)%Z -> nthq (x :: r) k = nthq r (k-1)).
        { intros x r k Hk. unfold nthq. replace (Z.to_nat k) with (S (Z.to_nat (k-1))) by lia. reflexivity. }
        split; intro Hk.
        -- rewrite <- (Hshift t0) by lia. apply Hlow; lia.
        -- replace (i - 1 + 1)%Z with (i + 1 - 1)%Z in * by lia. rewrite <- (Hshift t0) by lia.
           apply Hup. lia.
Qed.

Lemma pl_at_rank f t i : valid f -> is_rank (pl_times f) t i -> pl_at f t = seg_val f i t.
Proof.
  intros V Hr. unfold pl_at, pts. rewrite (interp_rank _ _ _ _ _ i); auto; try apply V.
  - unfold seg_val, slope_q. fold (pl_len f).
    destruct (Z.eqb_spec i (-1)); [reflexivity|]. destruct (Z.eqb_spec i (pl_len f - 1)); reflexivity.
  - apply gap_sorted_lt. apply V.
Qed.

Lemma eval_at f t : valid f -> in_dom f t -> pl_eval f t = Ok (pl_at f t).
Proof.
  intros V Hd. unfold pl_eval. assert (Hd' := Hd). apply bool_dom in Hd'. rewrite Hd'. cbn [assertb bind].
  destruct (eval_rank f V t) as [i [E Hr]]. rewrite E. cbn [bind].
  rewrite (eval_with_rank_ok f V t i Hd Hr). rewrite (pl_at_rank f t i V Hr). reflexivity.
Qed.
Lemma eval_dom f t y : pl_eval f t = Ok y -> in_dom f t.
Proof.
  unfold pl_eval. intro H. binv H. apply assertb_ok in E. apply bool_dom. exact E.
Qed.
Lemma eval_inv f t y : valid f -> pl_eval f t = Ok y -> in_dom f t /\ y = pl_at f t.
Proof.
  intros V H. assert (D := eval_dom _ _ _ H). split; auto. rewrite eval_at in H by auto. congruence.
Qed.
Lemma eval_out f t : ~ in_dom f t -> pl_eval f t = Err AssertionError.
Proof.
  intro H. unfold pl_eval.
  destruct (ext_leb (pl_lo f) (Fin t) && ext_leb (Fin t) (pl_hi f))%bool eqn:E; [|reflexivity].
  apply bool_dom in E. tauto.
Qed.

(** ** Piece formulas on closed intervals *)
Lemma rank_exists f t : valid f -> exists i, is_rank (pl_times f) t i.
Proof. intro V. destruct (eval_rank f V t) as [i [_ H]]. eauto. Qed.

Lemma at_left f t : valid f -> t <= tm f 0 -> pl_at f t = vl f 0 + (t - tm f 0) * pl_first f.
Proof.
  intros V Ht. rewrite (pl_at_rank f t (-1)); auto.
  apply is_rank_iff. assert (H := len_pos f V). unfold pl_len in H. split; [lia|].
  split; intro; [lia|exact Ht].
Qed.
Lemma seg_rank f t i : valid f -> (0 <= i < pl_len f - 1)%Z -> tm f i < t -> t <= tm f (i+1) ->
  is_rank (pl_times f) t i.
Proof.
  intros V Hi H1 H2. apply is_rank_iff. unfold pl_len in Hi. split; [lia|].
  split; intro; [exact H1|exact H2].
Qed.
Lemma at_tm f i : valid f -> (0 <= i < pl_len f)%Z -> pl_at f (tm f i) = vl f i.
Proof.
  intros V Hi. destruct (Z.eq_dec i 0) as [->|Hn].
  - rewrite at_left by (auto; qlra). ring.
  - rewrite (pl_at_rank f _ (i-1)); auto.
    2:{ apply seg_rank; auto; [lia|apply tm_lt; auto; lia|]. replace (i-1+1)%Z with i by lia. qlra. }
    unfold seg_val, slope_q. destruct (Z.eqb_spec (i-1) (-1)); [lia|].
    destruct (Z.eqb_spec (i-1) (pl_len f - 1)); [lia|].
    replace (i-1+1)%Z with i by lia.
    assert (T := tm_lt f V (i-1) i ltac:(lia) ltac:(lia)). field. qlra.
Qed.
Lemma at_seg f t i : valid f -> (0 <= i < pl_len f - 1)%Z -> tm f i <= t -> t <= tm f (i+1) ->
  pl_at f t = vl f i + (t - tm f i) * ((vl f (i+1) - vl f i) / (tm f (i+1) - tm f i)).
Proof.
  intros V Hi H1 H2. destruct (qeqbP t (tm f i)) as [->|Hne].
  - rewrite at_tm by (auto; lia). ring.
  - rewrite (pl_at_rank f _ i); auto.
    2:{ apply seg_rank; auto. qlra. }
    unfold seg_val, slope_q. destruct (Z.eqb_spec i (-1)); [lia|].
    destruct (Z.eqb_spec i (pl_len f - 1)); [lia|]. reflexivity.
Qed.
Lemma at_right f t : valid f -> tm f (pl_len f - 1) <= t ->
  pl_at f t = vl f (pl_len f - 1) + (t - tm f (pl_len f - 1)) * pl_last f.
Proof.
  intros V Ht. assert (Hp := len_pos f V). destruct (qeqbP t (tm f (pl_len f - 1))) as [->|Hne].
  - rewrite at_tm by (auto; lia). ring.
  - rewrite (pl_at_rank f _ (pl_len f - 1)); auto.
    + unfold seg_val, slope_q. destruct (Z.eqb_spec (pl_len f - 1) (-1)); [lia|].
      rewrite Z.eqb_refl. reflexivity.
    + apply is_rank_iff. unfold pl_len, tm in *. split; [lia|]. split; intro; [qlra|lia].
Qed.

(** Where a time lies. *)
Lemma locate f t : valid f ->
  t <= tm f 0 \/ tm f (pl_len f - 1) <= t \/
  exists i, (0 <= i < pl_len f - 1)%Z /\ tm f i <= t /\ t <= tm f (i+1).
Proof.
  intro V. destruct (rank_exists f t V) as [i Hr]. apply is_rank_iff in Hr.
  fold (pl_len f) in Hr. destruct Hr as [Hi [Hlow Hup]]. fold (tm f i) in Hlow. fold (tm f (i+1)) in Hup.
  assert (Hp := len_pos f V).
  destruct (Z.eq_dec i (-1)) as [->|]; [left; apply Hup; lia|].
  destruct (Z.eq_dec i (pl_len f - 1)) as [->|].
  - right; left. assert (tm f (pl_len f - 1) < t) by (apply Hlow; lia). qlra.
  - right; right. exists i. split; [lia|].
    assert (tm f i < t) by (apply Hlow; lia). split; [qlra|apply Hup; lia].
Qed.

Lemma in_tm f t : In t (pl_times f) -> exists i, (0 <= i < pl_len f)%Z /\ tm f i = t.
Proof.
  intro H. apply (In_nth _ _ 0) in H. destruct H as [n [Hn E]].
  exists (Z.of_nat n). unfold pl_len, zlen, tm, nthq. rewrite Nat2Z.id. split; [lia|exact E].
Qed.
Lemma tm_in f i : (0 <= i < pl_len f)%Z -> In (tm f i) (pl_times f).
Proof. intro H. apply nthq_in. exact H. Qed.

(** ** Affine pieces and the uniqueness principle *)
Definition aff (h : Qc -> Qc) (a b : Qc) : Prop :=
  exists m c, forall t, a <= t -> t <= b -> h t = m * t + c.

Lemma aff_sub h a b a' b' : aff h a b -> a <= a' -> b' <= b -> aff h a' b'.
Proof. intros [m [c H]] Ha Hb. exists m, c. intros t H1 H2. apply H; qlra. Qed.
Lemma aff_plus h k a b : aff h a b -> aff k a b -> aff (fun t => h t + k t) a b.
Proof.
  intros [m [c H]] [m' [c' H']]. exists (m + m'), (c + c'). intros t H1 H2.
  rewrite H, H' by auto. ring.
Qed.
Lemma aff_opp h a b : aff h a b -> aff (fun t => - h t) a b.
Proof. intros [m [c H]]. exists (-m), (-c). intros t H1 H2. rewrite H by auto. ring. Qed.
Lemma aff_ext h k a b : (forall t, a <= t -> t <= b -> h t = k t) -> aff h a b -> aff k a b.
Proof. intros E [m [c H]]. exists m, c. intros t H1 H2. rewrite <- E by auto. auto. Qed.

Lemma at_aff f a b : valid f -> (forall x, In x (pl_times f) -> x <= a \/ b <= x) ->
  aff (pl_at f) a b.
Proof.
  intros V Hno. destruct (qltbP a b) as [Hab|Hab].
  2:{ exists 0, (pl_at f a). intros t H1 H2. assert (t = a) as -> by qlra. ring. }
  assert (Hp := len_pos f V).
  (* use the midpoint to locate the piece *)
  set (m := (a + b) / Q2Qc (2#1)).
  assert (Hm : a < m /\ m < b).
  { assert (E : m * Q2Qc (2#1) = a + b) by (unfold m; apply qdiv_mul; discriminate).
    clearbody m. split; qlra. }
  destruct Hm as [Hm1 Hm2].
  destruct (locate f m V) as [H|[H|[i [Hi [H1 H2]]]]].
  - assert (b <= tm f 0).
    { destruct (Hno (tm f 0)) as [|]; auto; [apply tm_in; lia|]. qlra. }
    exists (pl_first f), (vl f 0 - tm f 0 * pl_first f). intros t H1 H2.
    rewrite at_left by (auto; qlra). ring.
  - assert (tm f (pl_len f - 1) <= a).
    { destruct (Hno (tm f (pl_len f - 1))) as [|]; auto; [apply tm_in; lia|]. qlra. }
    exists (pl_last f), (vl f (pl_len f - 1) - tm f (pl_len f - 1) * pl_last f). intros t H1 H2.
    rewrite at_right by (auto; qlra). ring.
  - assert (tm f i <= a).
    { destruct (Hno (tm f i)) as [|]; auto; [apply tm_in; lia|]. qlra. }
    assert (b <= tm f (i+1)).
    { destruct (Hno (tm f (i+1))) as [|]; auto; [apply tm_in; lia|]. qlra. }
    set (g := (vl f (i+1) - vl f i) / (tm f (i+1) - tm f i)).
    exists g, (vl f i - tm f i * g). intros t H3 H4.
    rewrite (at_seg f t i) by (auto; qlra). fold g. ring.
Qed.

(** Two affine functions agreeing at both ends of an interval agree on it. *)
Lemma aff_agree h k a b : aff h a b -> aff k a b -> a < b -> h a = k a -> h b = k b ->
  forall t, a <= t -> t <= b -> h t = k t.
Proof.
  intros [m [c H]] [m' [c' H']] Hab Ea Eb t H1 H2.
  rewrite H in Ea, Eb by qlra. rewrite H' in Ea, Eb by qlra. rewrite H, H' by auto.
  assert (E : (m - m') * (b - a) = 0) 
    by (replace ((m - m') * (b - a)) with ((m * b + c - (m' * b + c')) - (m * a + c - (m' * a + c'))) by ring;
        rewrite Ea, Eb; ring).
  assert (m - m' = 0).
  { destruct (Qcmult_integral _ _ E) as [|E2]; auto. qlra. }
  assert (m = m') by qlra. subst m'. qlra.
Qed.

Lemma tm_no_between f i : valid f -> (0 <= i < pl_len f - 1)%Z ->
  forall x, In x (pl_times f) -> x <= tm f i \/ tm f (i+1) <= x.
Proof.
  intros V Hi x Hx. apply in_tm in Hx. destruct Hx as [j [Hj <-]].
  destruct (Z.le_gt_cases j i); [left|right]; apply tm_le; auto; lia.
Qed.

Lemma at_unique f h : valid f ->
  (forall i, (0 <= i < pl_len f)%Z -> h (tm f i) = vl f i) ->
  (forall i, (0 <= i < pl_len f - 1)%Z -> aff h (tm f i) (tm f (i+1))) ->
  (forall t, in_dom f t -> t < tm f 0 -> h t = vl f 0 + (t - tm f 0) * pl_first f) ->
  (forall t, in_dom f t -> tm f (pl_len f - 1) < t ->
     h t = vl f (pl_len f - 1) + (t - tm f (pl_len f - 1)) * pl_last f) ->
  forall t, in_dom f t -> pl_at f t = h t.
Proof.
  intros V Hv Ha Hl Hr t Hd. assert (Hp := len_pos f V).
  destruct (locate f t V) as [H|[H|[i [Hi [H1 H2]]]]].
  - destruct (qeqbP t (tm f 0)) as [->|Hne].
    + rewrite at_tm, Hv by (auto; lia). reflexivity.
    + rewrite at_left by auto. symmetry. apply Hl; auto. qlra.
  - destruct (qeqbP t (tm f (pl_len f - 1))) as [->|Hne].
    + rewrite at_tm, Hv by (auto; lia). reflexivity.
    + rewrite at_right by auto. symmetry. apply Hr; auto. qlra.
  - apply (aff_agree _ _ (tm f i) (tm f (i+1))); auto.
    + apply at_aff; auto. apply tm_no_between; auto.
    + apply tm_lt; auto; lia.
    + rewrite at_tm, Hv by (auto; lia). reflexivity.
    + rewrite at_tm, Hv by (auto; lia). reflexivity.
Qed.

(** Head/last forms. *)
Lemma tm0_hd f d : valid f -> tm f 0 = hd d (pl_times f).
Proof. intros [_ H _ _]. unfold tm, nthq. destruct (pl_times f); [congruence|reflexivity]. Qed.
Lemma nthq_last l d : l <> [] -> nthq l (zlen l - 1) = last l d.
Proof.
  intro H. destruct (exists_last H) as [l' [a ->]]. rewrite last_last. unfold nthq, zlen.
  rewrite app_length. cbn [length]. replace (Z.to_nat (Z.of_nat (length l' + 1) - 1)) with (length l') by lia.
  rewrite app_nth2 by lia. rewrite Nat.sub_diag. reflexivity.
Qed.
