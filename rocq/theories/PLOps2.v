(** * restrict, extend_with_slope, ensure_monotone (C10, C11, C17) *)
From Verif Require Import Base Spec Arrays ArraysProofs PL PLProofs PLArith PLOps.

(** ** restrict *)
Lemma nth_pyslice {A} (l : list A) a b i d : (a + i < b)%nat -> nth i (pyslice l a b) d = nth (a + i) l d.
Proof.
  intro H. unfold pyslice.
  assert (E : forall n (m : list A) i, (i < n)%nat -> nth i (firstn n m) d = nth i m d).
  { clear. induction n as [|n IH]; intros m i Hi; [lia|]. destruct m as [|x m]; [destruct i; reflexivity|].
    destruct i; [reflexivity|]. cbn. apply IH. lia. }
  rewrite E by lia. clear.
  revert l. induction a as [|a IH]; intro l; [reflexivity|]. destruct l as [|x l]; [destruct i; reflexivity|]. cbn. apply IH.
Qed.
Lemma length_pyslice {A} (l : list A) a b : (b <= length l)%nat -> length (pyslice l a b) = (b - a)%nat.
Proof. intro H. unfold pyslice. rewrite firstn_length, skipn_length. lia. Qed.
Lemma nthq_pyslice l a b i : (0 <= a)%Z -> (0 <= i)%Z -> (a + i < b)%Z ->
  nthq (pyslice l (Z.to_nat a) (Z.to_nat b)) i = nthq l (a + i).
Proof.
  intros Ha Hi Hb. unfold nthq. rewrite nth_pyslice by lia. f_equal. lia.
Qed.

(** Rank and lower rank of extended points as segment facts. *)
Lemma rank_ext_ok f lo : valid f -> lo <> PInf ->
  exists i, elem_rank_ext (pl_times f) lo = Ok i /\ (-1 <= i < pl_len f)%Z /\
   ((0 <= i)%Z -> ext_lt (Fin (tm f i)) lo) /\
   ((i + 1 < pl_len f)%Z -> ext_le lo (Fin (tm f (i+1)))).
Proof.
  intros V Hlo. assert (Hp := len_pos f V). destruct lo as [|l|]; [| |congruence].
  - exists (-1)%Z. split; [reflexivity|]. split; [lia|]. split; intro; [lia|exact I].
  - destruct (elem_rank_ok (pl_times f) l) as [i [E Hr]]; [apply V|apply times_sorted; auto|].
    exists i. split; [exact E|]. apply is_rank_iff in Hr. destruct Hr as [H1 [H2 H3]].
    split; [exact H1|]. split; intro; [apply ext_lt_fin; apply H2; auto|apply H3; auto].
Qed.
Lemma lrank_ext_ok f hi : valid f -> hi <> NInf ->
  exists i, elem_lrank_ext (pl_times f) hi = Ok i /\ (-1 <= i < pl_len f)%Z /\
   ((0 <= i)%Z -> ext_le (Fin (tm f i)) hi) /\
   ((i + 1 < pl_len f)%Z -> ext_lt hi (Fin (tm f (i+1)))).
Proof.
  intros V Hhi. assert (Hp := len_pos f V). destruct hi as [|h|]; [congruence| |].
  - destruct (elem_lrank_ok (pl_times f) h) as [i [E Hr]]; [apply V|apply times_sorted; auto|].
    exists i. split; [exact E|]. apply is_lrank_iff in Hr. destruct Hr as [H1 [H2 H3]].
    split; [exact H1|]. split; intro; [apply H2; auto|apply ext_lt_fin; apply H3; auto].
  - exists (pl_len f - 1)%Z. split; [reflexivity|]. split; [lia|]. split; intro; [exact I|lia].
Qed.

Definition has_break (f : PL) (lo hi : ext) : Prop :=
  exists x, In x (pl_times f) /\ ext_le lo (Fin x) /\ ext_le (Fin x) hi.

Lemma restrict_ok f lo hi : valid f ->
  ext_le (pl_lo f) lo -> ext_le lo hi -> ext_le hi (pl_hi f) -> lo <> PInf -> hi <> NInf ->
  (lo <> NInf \/ has_break f lo hi) ->
  exists p, restrict f lo hi = Ok p /\ valid p /\ pl_lo p = lo /\ pl_hi p = hi /\
    (forall t, in_dom p t -> in_dom f t /\ pl_at p t = pl_at f t).
Proof.
  intros V H1 H2 H3 Hlo Hhi Hcase. assert (Hp := len_pos f V).
  destruct (rank_ext_ok f lo V Hlo) as [r [Er [Hr [Hr1 Hr2]]]].
  destruct (lrank_ext_ok f hi V Hhi) as [s [Es [Hs [Hs1 Hs2]]]].
  unfold restrict.
  destruct (ext_lebP (pl_lo f) lo); [|tauto]. destruct (ext_lebP lo hi); [|tauto].
  destruct (ext_lebP hi (pl_hi f)); [|tauto]. cbn [andb assertb bind].
  rewrite Er. cbn [bind]. rewrite Es. cbn [bind].
  replace (r + 1 - 1)%Z with r by lia.
  rewrite !gradient_ok by (auto; lia). cbn [bind].
  assert (Dom : forall t, ext_le lo (Fin t) -> ext_le (Fin t) hi -> in_dom f t).
  { intros t A B. split; eapply ext_le_trans; eauto. }
  destruct (Z.ltb_spec (r + 1) (s + 1)) as [Hrs|Hrs].
  - set (p := mkPL (pyslice (pl_times f) (Z.to_nat (r + 1)) (Z.to_nat (s + 1)))
                   (pyslice (pl_values f) (Z.to_nat (r + 1)) (Z.to_nat (s + 1)))
                   (slope_q f r) (slope_q f s) lo hi).
    assert (Lp : pl_len p = (s - r)%Z).
    { unfold pl_len, zlen, p. cbn [pl_times]. rewrite length_pyslice by (unfold pl_len, zlen in *; lia). lia. }
    assert (Tp : forall i, (0 <= i < s - r)%Z -> tm p i = tm f (r + 1 + i)).
    { intros i Hi. unfold tm, p. cbn [pl_times]. apply nthq_pyslice; lia. }
    assert (Vlp : forall i, (0 <= i < s - r)%Z -> vl p i = vl f (r + 1 + i)).
    { intros i Hi. unfold vl, p. cbn [pl_values]. apply nthq_pyslice; lia. }
    assert (Vp : valid p).
    { constructor.
      - cbn [pl_times pl_values p]. rewrite !length_pyslice; auto; destruct V as [L _ _ _]; unfold pl_len, zlen in *; try lia.
      - intro E. apply (f_equal (@length Qc)) in E. unfold pl_len, zlen in Lp. rewrite E in Lp. cbn in Lp. lia.
      - cbn [pl_times p]. unfold pyslice. apply SSorted_firstn, SSorted_skipn. apply V.
      - intros t Ht. apply in_tm in Ht. destruct Ht as [i [Hi <-]]. rewrite Lp in Hi.
        rewrite Tp by lia. split; cbn [pl_lo pl_hi p].
        + eapply ext_le_trans; [apply Hr2; lia|]. cbn. apply tm_le; auto; lia.
        + eapply ext_le_trans; [|apply Hs1; lia]. cbn. apply tm_le; auto; lia. }
    exists p. split; [exact (pl_init_ok p Vp)|]. split; [exact Vp|]. split; [reflexivity|]. split; [reflexivity|].
    intros t Ht. split; [destruct Ht; auto|]. revert t Ht.
    apply (at_unique p (pl_at f) Vp).
    + intros i Hi. rewrite Lp in Hi. rewrite Tp, Vlp by lia. apply at_tm; auto. lia.
    + intros i Hi. rewrite Lp in Hi. rewrite !Tp by lia. apply at_aff; auto.
      replace (r + 1 + (i + 1))%Z with (r + 1 + i + 1)%Z by lia. apply tm_no_between; auto. lia.
    + intros t [D1 D2] Ht. rewrite Tp in * by lia. rewrite Vlp by lia.
      replace (r + 1 + 0)%Z with (r + 1)%Z in * by lia.
      rewrite (at_slope f r t (tm f (r+1))); auto; try lia.
      * rewrite at_tm by (auto; lia). reflexivity.
      * split; intro; [|qlra].
        assert (X : ext_lt (Fin (tm f r)) (Fin t)) by (eapply ext_lt_le_trans; [apply Hr1; auto|exact D1]).
        apply ext_lt_fin in X. qlra.
      * apply in_seg_tm1; auto. lia.
    + intros t [D1 D2] Ht. rewrite Lp in *. rewrite Tp in * by lia. rewrite Vlp by lia.
      replace (r + 1 + (s - r - 1))%Z with s in * by lia.
      rewrite (at_slope f s t (tm f s)); auto; try lia.
      * rewrite at_tm by (auto; lia). reflexivity.
      * split; intro; [qlra|].
        assert (X : ext_lt (Fin t) (Fin (tm f (s+1)))) by (eapply ext_le_lt_trans; [exact D2|apply Hs2; lia]).
        apply ext_lt_fin in X. qlra.
      * apply in_seg_tm; auto. lia.
  - assert (Hl : exists l, lo = Fin l).
    { destruct lo as [|l|]; [|eauto|congruence]. exfalso.
      destruct Hcase as [|[x [Hx [_ Hx2]]]]; [congruence|].
      apply in_tm in Hx. destruct Hx as [j [Hj <-]].
      assert (r = -1)%Z by (cbn in Er; congruence).
      assert (Hsj : (j <= s)%Z).
      { destruct (Z.le_gt_cases j s); auto. exfalso.
        assert (X : ext_lt (Fin (tm f j)) (Fin (tm f (s+1)))) by (eapply ext_le_lt_trans; [exact Hx2|apply Hs2; lia]).
        apply ext_lt_fin in X. assert (Y := tm_le f V (s+1) j ltac:(lia) ltac:(lia)). qlra. }
      lia. }
    destruct Hl as [l ->].
    assert (Dl : in_dom f l) by (apply Dom; auto; apply ext_le_refl).
    rewrite eval_at by auto. cbn [bind].
    set (p := mkPL [l] [pl_at f l] (slope_q f r) (slope_q f s) (Fin l) hi).
    assert (Vp : valid p).
    { constructor; cbn [pl_times pl_values p]; [reflexivity|discriminate|repeat constructor|].
      intros t [<-|[]]. split; [apply ext_le_refl|exact H2]. }
    exists p. split; [exact (pl_init_ok p Vp)|]. split; [exact Vp|]. split; [reflexivity|]. split; [reflexivity|].
    intros t [D1 D2]. split; [auto|].
    rewrite (at_right p t Vp); [|exact D1].
    change (pl_at f l + (t - l) * slope_q f s = pl_at f t). symmetry.
    assert (Hsr : s = r).
    { assert (r <= s)%Z; [|lia]. destruct (Z.le_gt_cases r s); auto. exfalso.
      assert (X : ext_lt (Fin (tm f r)) (Fin l)) by (apply Hr1; lia). apply ext_lt_fin in X.
      assert (Y : ext_lt hi (Fin (tm f (s+1)))) by (apply Hs2; lia).
      assert (Z1 := tm_le f V (s+1) r ltac:(lia) ltac:(lia)).
      assert (Z2 : ext_lt (Fin l) (Fin (tm f (s+1)))) by (eapply ext_le_lt_trans; [exact H2|exact Y]).
      apply ext_lt_fin in Z2. qlra. }
    subst s. apply at_slope; auto.
    + split; intro.
      * assert (X : ext_lt (Fin (tm f r)) (Fin l)) by (apply Hr1; lia). apply ext_lt_fin in X. cbn in D1. qlra.
      * assert (X : ext_lt (Fin t) (Fin (tm f (r+1)))) by (eapply ext_le_lt_trans; [exact D2|apply Hs2; lia]).
        apply ext_lt_fin in X. qlra.
    + split; intro.
      * assert (X : ext_lt (Fin (tm f r)) (Fin l)) by (apply Hr1; lia). apply ext_lt_fin in X. qlra.
      * apply Hr2. lia.
Qed.

(** ** extend_with_slope *)
Lemma nthq_app_l l r i : (0 <= i < zlen l)%Z -> nthq (l ++ r) i = nthq l i.
Proof. intro H. unfold nthq, zlen in *. apply app_nth1. lia. Qed.
Lemma nthq_app_last l x : nthq (l ++ [x]) (zlen l) = x.
Proof. unfold nthq, zlen. rewrite Nat2Z.id. rewrite app_nth2 by lia. rewrite Nat.sub_diag. reflexivity. Qed.

Lemma extend_raises f time slope : valid f ->
  (exists f', extend_with_slope f time slope = Ok f') <-> tm f (pl_len f - 1) - eps <= time.
Proof.
  intro V. unfold extend_with_slope. rewrite get_tm_last by auto. cbn [bind].
  destruct (qlebP (tm f (pl_len f - 1) - eps) time) as [H|H]; cbn [assertb bind].
  - split; auto. intros _. destruct (qleb _ _); [eauto|]. destruct (qltb _ _); [|eauto].
    rewrite get_vl_last by auto. cbn [bind]. eauto.
  - split; [intros [f' E]; discriminate|tauto].
Qed.

Lemma extend_ok f time slope f' : valid f -> ext_le (Fin time) (pl_hi f) ->
  extend_with_slope f time slope = Ok f' ->
  valid f' /\ pl_lo f' = pl_lo f /\ pl_hi f' = pl_hi f /\ pl_first f' = pl_first f /\
  (forall t, t <= tm f (pl_len f - 1) -> pl_at f' t = pl_at f t) /\
  ( (qabs (pl_last f - slope) <= eps /\ f' = f) \/
    (eps < qabs (pl_last f - slope) /\ pl_last f' = slope /\
      ( (qabs (time - tm f (pl_len f - 1)) <= eps /\ pl_times f' = pl_times f /\ pl_values f' = pl_values f) \/
        (tm f (pl_len f - 1) < time - eps /\ pl_times f' = pl_times f ++ [time] /\
          pl_values f' = pl_values f ++ [pl_at f time] /\
          (forall t, t <= time -> pl_at f' t = pl_at f t))))).
Proof.
  intros V Hh H. unfold extend_with_slope in H. rewrite get_tm_last in H by auto. cbn [bind] in H.
  binv H. apply assertb_ok in E. apply qleb_true in E. clear a.
  destruct (qlebP (qabs (pl_last f - slope)) eps) as [Hs|Hs].
  { injection H as <-. split; [auto|]. do 3 (split; [reflexivity|]). split; [auto|]. left; auto. }
  assert (Hp := len_pos f V).
  destruct (qltbP eps (qabs (time - tm f (pl_len f - 1)))) as [Ht|Ht].
  - rewrite get_vl_last in H by auto. cbn [bind] in H. injection H as <-.
    assert (Hlt : tm f (pl_len f - 1) < time - eps) by (qmm; qlra).
    set (val := vl f (pl_len f - 1) + (time - tm f (pl_len f - 1)) * pl_last f).
    set (p := mkPL (pl_times f ++ [time]) (pl_values f ++ [val]) (pl_first f) slope (pl_lo f) (pl_hi f)).
    assert (Hval : val = pl_at f time) by (unfold val; rewrite at_right by (auto; qlra); reflexivity).
    assert (Vp : valid p).
    { destruct V as [L N G D]. constructor; cbn [pl_times pl_values p].
      - rewrite !app_length, L. reflexivity.
      - destruct (pl_times f); discriminate.
      - apply SSorted_app; auto; [repeat constructor|]. intros a b Ha [<-|[]].
        apply in_tm in Ha. destruct Ha as [i [Hi <-]].
        assert (tm f i <= tm f (pl_len f - 1)).
        { destruct (Z.eq_dec i (pl_len f - 1)) as [->|]; [qlra|].
          assert (gap (tm f i) (tm f (pl_len f - 1))) by (apply (sorted_nthq gap); auto; unfold pl_len in *; lia).
          unfold gap in *. qlra. }
        unfold gap. qlra.
      - intros t Ht2. apply in_app_or in Ht2. destruct Ht2 as [Ht2|[<-|[]]]; [apply D in Ht2; exact Ht2|].
        split; auto. cbn [pl_lo p]. assert (D0 := D _ (tm_in f (pl_len f - 1) ltac:(lia))). destruct D0 as [D0 _].
        eapply ext_le_trans; [exact D0|]. cbn [ext_le]. qlra. }
    assert (Lp : pl_len p = (pl_len f + 1)%Z).
    { unfold pl_len, zlen. cbn [pl_times p]. rewrite app_length. cbn [length]. lia. }
    assert (Tp : forall i, (0 <= i < pl_len f)%Z -> tm p i = tm f i) by (intros; apply nthq_app_l; auto).
    assert (Vlp : forall i, (0 <= i < pl_len f)%Z -> vl p i = vl f i).
    { intros; apply nthq_app_l; auto. rewrite len_vals; auto. }
    assert (Tl : tm p (pl_len f) = time) by apply nthq_app_last.
    assert (Vll : vl p (pl_len f) = val).
    { unfold vl. rewrite <- (len_vals f V). apply nthq_app_last. }
    assert (Hpast : forall t, t <= time -> pl_at p t = pl_at f t).
    { intros t Hle. destruct (locate f t V) as [A|[A|[i [Hi [A1 A2]]]]].
      - rewrite !at_left by (auto; try (rewrite Tp by lia); auto). rewrite Tp, Vlp by lia. reflexivity.
      - rewrite (at_seg p t (pl_len f - 1)); auto; try lia.
        + replace (pl_len f - 1 + 1)%Z with (pl_len f) by lia. rewrite Tl, Vll, Tp, Vlp by lia.
          rewrite (at_right f t) by auto. unfold val. field. qlra.
        + rewrite Tp by lia. exact A.
        + replace (pl_len f - 1 + 1)%Z with (pl_len f) by lia. rewrite Tl. exact Hle.
      - rewrite (at_seg p t i), (at_seg f t i) by (auto; try lia; rewrite ?Tp by lia; auto).
        rewrite !Tp, !Vlp by lia. reflexivity. }
    split; [exact Vp|]. do 3 (split; [reflexivity|]). split; [intros; apply Hpast; qlra|].
    right. split; [qlra|]. split; [reflexivity|]. right. split; [exact Hlt|]. split; [reflexivity|].
    split; [cbn [pl_values p]; rewrite Hval; reflexivity|exact Hpast].
  - injection H as <-.
    set (p := mkPL (pl_times f) (pl_values f) (pl_first f) slope (pl_lo f) (pl_hi f)).
    assert (Vp : valid p) by (destruct V; constructor; auto).
    split; [exact Vp|]. do 3 (split; [reflexivity|]).
    split.
    + intros t Hle. destruct (locate f t V) as [A|[A|[i [Hi [A1 A2]]]]].
      * rewrite (at_left f), (at_left p) by auto. reflexivity.
      * assert (t = tm f (pl_len f - 1)) by qlra. subst t.
        rewrite at_tm by (auto; lia). change (tm f (pl_len f - 1)) with (tm p (pl_len p - 1)).
        rewrite (at_tm p) by (auto; change (pl_len p) with (pl_len f); lia). reflexivity.
      * rewrite (at_seg p t i), (at_seg f t i) by auto. reflexivity.
    + right. split; [qlra|]. split; [reflexivity|]. left. split; [qlra|]. split; reflexivity.
Qed.

(** Exact behaviour (time is the last breakpoint or more than eps later; the
    slope is the old one or differs by more than eps). *)
Lemma extend_exact f time slope : valid f -> ext_le (Fin time) (pl_hi f) ->
  (time = tm f (pl_len f - 1) \/ tm f (pl_len f - 1) < time - eps) ->
  (slope = pl_last f \/ eps < qabs (pl_last f - slope)) ->
  exists f', extend_with_slope f time slope = Ok f' /\ valid f' /\
    pl_lo f' = pl_lo f /\ pl_hi f' = pl_hi f /\
    (forall t, t <= time -> pl_at f' t = pl_at f t) /\
    (forall t, time <= t -> pl_at f' t = pl_at f time + (t - time) * slope) /\
    pl_last f' = slope.
Proof.
  intros V Hh Ht Hs.
  assert (Hle : tm f (pl_len f - 1) <= time) by (destruct Ht; qlra).
  destruct (proj2 (extend_raises f time slope V)) as [f' E]; [destruct Ht; qlra|].
  exists f'. split; [exact E|].
  destruct (extend_ok f time slope f' V Hh E) as [V' [E1 [E2 [E3 [Hpast Hc]]]]].
  split; [auto|]. split; [auto|]. split; [auto|].
  destruct Hc as [[Hc ->]|[Hc [El Hc2]]].
  - assert (slope = pl_last f) by (destruct Hs; [auto|qlra]). subst slope.
    split; [auto|]. split; [|auto]. intros t Hle2. rewrite !at_right by (auto; qlra). ring.
  - destruct Hc2 as [[A [B C]]|[A [B [C D]]]].
    + assert (Et : time = tm f (pl_len f - 1)).
      { destruct Ht as [|Ht]; auto. exfalso. revert A. qmm; intro; qlra. }
      subst time. split; [auto|]. split; [|auto]. intros t Ht2.
      assert (Lp : pl_len f' = pl_len f) by (unfold pl_len; rewrite B; reflexivity).
      assert (Tp : tm f' (pl_len f' - 1) = tm f (pl_len f - 1)) by (unfold tm; rewrite B, Lp; reflexivity).
      rewrite at_right by (auto; rewrite Tp; auto). rewrite Tp.
      rewrite at_tm by (auto; assert (X := len_pos f V); lia). rewrite El.
      unfold vl. rewrite C, Lp. reflexivity.
    + split; [exact D|]. split; [|auto]. intros t Ht2.
      assert (Lp : (pl_len f' - 1 = pl_len f)%Z).
      { unfold pl_len, zlen. rewrite B, app_length. cbn [length]. lia. }
      assert (Tp : tm f' (pl_len f' - 1) = time).
      { unfold tm. rewrite B, Lp. apply nthq_app_last. }
      rewrite at_right by (auto; rewrite Tp; auto). rewrite Tp, El. f_equal.
      unfold vl. rewrite C, Lp. rewrite <- (len_vals f V). apply nthq_app_last.
Qed.

(** In general (time not before the last breakpoint) the result is off by at
    most eps times the slope change and the elapsed time. *)
Lemma extend_tol f time slope f' : valid f -> ext_le (Fin time) (pl_hi f) ->
  tm f (pl_len f - 1) <= time -> extend_with_slope f time slope = Ok f' ->
  (forall t, t <= time -> qabs (pl_at f' t - pl_at f t) <= eps * qabs (slope - pl_last f)) /\
  (forall t, time <= t -> qabs (pl_at f' t - (pl_at f time + (t - time) * slope))
                          <= eps * (t - time) + eps * qabs (slope - pl_last f)).
Proof.
  intros V Hh Hle E.
  assert (Hpos : 0 <= eps * qabs (slope - pl_last f)).
  { assert (0 <= qabs (slope - pl_last f)) by (qmm; qlra). assert (0 < eps) by apply eps_pos. qnra. }
  assert (Z : forall x, x = 0 -> qabs x <= eps * qabs (slope - pl_last f)).
  { intros x ->. destruct (qabs_spec 0) as [[? _]|[_ ->]]; qlra. }
  destruct (qltbP eps (qabs (pl_last f - slope))) as [Hs|Hs].
  2:{ destruct (extend_ok f time slope f' V Hh E) as [_ [_ [_ [_ [_ Hc]]]]].
      destruct Hc as [[_ ->]|[Hc _]]; [|contradiction]. split.
      - intros t _. apply Z. ring.
      - intros t Ht. rewrite (at_right f t), (at_right f time) by (auto; qlra).
        set (d := t - time). set (v := vl f (pl_len f - 1)). set (tl := tm f (pl_len f - 1)).
        replace (v + (t - tl) * pl_last f - (v + (time - tl) * pl_last f + d * slope))
          with (d * (pl_last f - slope)) by (unfold d; ring).
        assert (Hd : 0 <= d) by (unfold d; qlra). clearbody d.
        assert (Habs : qabs (d * (pl_last f - slope)) <= eps * d).
        { set (e := pl_last f - slope) in *. assert (qabs e <= eps) by qlra.
          destruct (qabs_spec e) as [[He Ee]|[He Ee]]; rewrite Ee in H;
          destruct (qabs_spec (d * e)) as [[Hde Ede]|[Hde Ede]]; rewrite Ede; qnra. }
        qlra. }
  destruct (qltbP (tm f (pl_len f - 1)) (time - eps)) as [Hg|Hg].
  - destruct (extend_exact f time slope V Hh (or_intror Hg) (or_intror Hs)) as [f2 [E2 [_ [_ [_ [A [B _]]]]]]].
    assert (f2 = f') by congruence. subst f2. split.
    + intros t Ht. apply Z. rewrite A by auto. ring.
    + intros t Ht. rewrite B by auto.
      assert (qabs (pl_at f time + (t - time) * slope - (pl_at f time + (t - time) * slope)) <= eps * qabs (slope - pl_last f)).
      { apply Z. ring. }
      assert (0 <= eps * (t - time)). { assert (0 < eps) by apply eps_pos. assert (0 <= t - time) by qlra. qnra. }
      qlra.
  - destruct (extend_ok f time slope f' V Hh E) as [V' [_ [_ [_ [Hpast Hc]]]]].
    destruct Hc as [[Hc _]|[_ [El [[A [B C]]|[A _]]]]]; [qlra| |contradiction].
    assert (Hp := len_pos f V).
    assert (Lp : pl_len f' = pl_len f) by (unfold pl_len; rewrite B; reflexivity).
    assert (Tp : tm f' (pl_len f' - 1) = tm f (pl_len f - 1)) by (unfold tm; rewrite B, Lp; reflexivity).
    assert (Vp : vl f' (pl_len f' - 1) = vl f (pl_len f - 1)) by (unfold vl; rewrite C, Lp; reflexivity).
    set (tl := tm f (pl_len f - 1)) in *. set (v := vl f (pl_len f - 1)) in *.
    assert (Hbd : forall d, 0 <= d -> d <= eps -> qabs (d * (slope - pl_last f)) <= eps * qabs (slope - pl_last f)).
    { intros d D1 D2. set (e := slope - pl_last f).
      destruct (qabs_spec e) as [[He Ee]|[He Ee]]; rewrite Ee;
      destruct (qabs_spec (d * e)) as [[Hde Ede]|[Hde Ede]]; rewrite Ede; qnra. }
    split.
    + intros t Ht. destruct (qlebP t tl) as [Htl|Htl].
      * apply Z. rewrite Hpast by auto. ring.
      * rewrite (at_right f t), (at_right f' t) by (auto; rewrite ?Tp; fold tl; qlra). fold tl v.
        rewrite Tp, Vp, El.
        replace (v + (t - tl) * slope - (v + (t - tl) * pl_last f)) with ((t - tl) * (slope - pl_last f)) by ring.
        apply Hbd; qlra.
    + intros t Ht. rewrite (at_right f time), (at_right f' t) by (auto; rewrite ?Tp; fold tl; qlra). fold tl v.
      rewrite Tp, Vp, El.
      replace (v + (t - tl) * slope - (v + (time - tl) * pl_last f + (t - time) * slope))
        with ((time - tl) * (slope - pl_last f)) by ring.
      assert (H := Hbd (time - tl) ltac:(qlra) ltac:(qlra)).
      assert (0 <= eps * (t - time)). { assert (0 < eps) by apply eps_pos. assert (0 <= t - time) by qlra. qnra. }
      qlra.
Qed.
