(** * simplify, restrict, extend_with_slope, ensure_monotone (C09, C10, C11, C17) *)
From Verif Require Import Base Spec Arrays ArraysProofs PL PLProofs PLArith.

Lemma sub_ok f g : valid f -> valid g ->
  ext_lt (ext_max (pl_lo f) (pl_lo g)) (ext_min (pl_hi f) (pl_hi g)) -> plus_sep f g ->
  exists p, pl_sub f g = Ok p /\ valid p /\
    (forall t, in_dom p t <-> in_dom f t /\ in_dom g t) /\
    (forall t, in_dom p t -> pl_at p t = pl_at f t - pl_at g t).
Proof.
  intros Vf Vg Hd Hs. destruct (neg_ok g Vg) as [n [E [Vn [Et [El [Eh [_ [_ En]]]]]]]].
  destruct (plus_ok f n) as [p [Ep [Vp [_ [_ [Dp [Hp _]]]]]]]; auto.
  - rewrite El, Eh. exact Hd.
  - unfold plus_sep. rewrite Et, El, Eh. exact Hs.
  - exists p. unfold pl_sub. rewrite E. cbn [bind]. split; auto. split; auto.
    assert (Dn : forall t, in_dom n t <-> in_dom g t) by (intro t; unfold in_dom; rewrite El, Eh; tauto).
    split; [intro t; rewrite Dp, Dn; tauto|].
    intros t Ht. rewrite Hp by auto. rewrite En. ring.
Qed.

(** ** Segments *)
Definition in_seg (f : PL) (i : Z) (t : Qc) : Prop :=
  ((0 <= i)%Z -> tm f i <= t) /\ ((i < pl_len f - 1)%Z -> t <= tm f (i+1)).

Lemma at_slope f i t u : valid f -> (-1 <= i < pl_len f)%Z -> in_seg f i t -> in_seg f i u ->
  pl_at f t = pl_at f u + (t - u) * slope_q f i.
Proof.
  intros V Hi [T1 T2] [U1 U2]. assert (Hp := len_pos f V). unfold slope_q.
  destruct (Z.eqb_spec i (-1)) as [->|H1].
  - rewrite (at_left f t), (at_left f u) by (auto; (apply T2 || apply U2); lia). ring.
  - destruct (Z.eqb_spec i (pl_len f - 1)) as [->|H2].
    + rewrite (at_right f t), (at_right f u) by (auto; (apply T1 || apply U1); lia). ring.
    + rewrite (at_seg f t i), (at_seg f u i) by (auto; try lia; (apply T1 || apply U1 || apply T2 || apply U2); lia). ring.
Qed.
Lemma in_seg_tm f i : valid f -> (0 <= i < pl_len f)%Z -> in_seg f i (tm f i).
Proof. intros V Hi. split; intro; [qlra|]. apply tm_le; auto; lia. Qed.
Lemma in_seg_tm1 f i : valid f -> (-1 <= i < pl_len f - 1)%Z -> in_seg f i (tm f (i+1)).
Proof. intros V Hi. split; intro; [|qlra]. apply tm_le; auto; lia. Qed.

(** ** List form of the uniqueness principle *)
Definition chain_aff (h : Qc -> Qc) (l : list Qc) : Prop :=
  forall l1 a b l2, l = l1 ++ a :: b :: l2 -> aff h a b.

Lemma nthq_split l i : (0 <= i < zlen l - 1)%Z ->
  exists l1 l2, l = l1 ++ nthq l i :: nthq l (i+1) :: l2.
Proof.
  intro H. unfold nthq, zlen in *.
  replace (Z.to_nat (i+1)) with (S (Z.to_nat i)) by lia.
  assert (Hn : (S (Z.to_nat i) < length l)%nat) by lia.
  generalize dependent (Z.to_nat i). clear H. intro n. revert l.
  induction n as [|n IH]; intros l Hn.
  - destruct l as [|a [|b l]]; cbn in Hn; try lia. exists [], l. reflexivity.
  - destruct l as [|a l]; cbn in Hn; [lia|]. destruct (IH l ltac:(lia)) as [l1 [l2 E]].
    exists (a :: l1), l2. cbn [nth app]. f_equal. exact E.
Qed.

Lemma at_unique_list f h : valid f -> pl_values f = map h (pl_times f) -> chain_aff h (pl_times f) ->
  (forall t, in_dom f t -> t < tm f 0 -> h t = h (tm f 0) + (t - tm f 0) * pl_first f) ->
  (forall t, in_dom f t -> tm f (pl_len f - 1) < t ->
     h t = h (tm f (pl_len f - 1)) + (t - tm f (pl_len f - 1)) * pl_last f) ->
  forall t, in_dom f t -> pl_at f t = h t.
Proof.
  intros V Hv Hc Hl Hr. assert (Hp := len_pos f V).
  assert (Hvl : forall i, (0 <= i < pl_len f)%Z -> h (tm f i) = vl f i).
  { intros i Hi. unfold vl. rewrite Hv. rewrite nthq_map by exact Hi. reflexivity. }
  apply (at_unique f h V).
  - exact Hvl.
  - intros i Hi. destruct (nthq_split (pl_times f) i Hi) as [l1 [l2 E]]. eapply Hc. exact E.
  - intros t D Ht. rewrite <- Hvl by lia. auto.
  - intros t D Ht. rewrite <- Hvl by lia. auto.
Qed.

(** ** simplify *)
Definition slopes_clear (f : PL) : Prop :=
  forall i, (0 <= i < pl_len f - 1)%Z ->
    slope_q f i = slope_q f (i+1) \/ eps1000 <= qabs (slope_q f i - slope_q f (i+1)).

Section Simplify.
Variable f : PL.
Hypothesis V : valid f.
Let h := pl_at f.

(** reversed chain: consecutive entries bound an affine piece *)
Fixpoint rchain (l : list Qc) : Prop :=
  match l with
  | b :: ((a :: _) as r) => aff h a b /\ rchain r
  | _ => True
  end.

Definition sbody (acc : list Qc * list Qc) (i : nat) : res (list Qc * list Qc) :=
  g0 <- gradient f (Z.of_nat i) ;; g1 <- gradient f (Z.of_nat i + 1) ;;
  if qleb eps1000 (qabs (g0 - g1)) then
    t <- pyget (pl_times f) (Z.of_nat i + 1) ;;
    v <- pyget (pl_values f) (Z.of_nat i + 1) ;;
    Ok (t :: fst acc, v :: snd acc)
  else Ok acc.

Record sinv (k : Z) (acc : list Qc * list Qc) : Prop := {
  si_vals : snd acc = map h (fst acc);
  si_sorted : StronglySorted (fun a b => gap b a) (fst acc);
  si_chain : slopes_clear f -> rchain (fst acc);
  si_in : forall x, In x (fst acc) -> In x (pl_times f);
  si_last : last (fst acc) 0 = tm f 0;
  si_head : exists j r, (0 <= j <= k)%Z /\ fst acc = tm f j :: r /\
     (slopes_clear f -> forall t, tm f j <= t -> ((k < pl_len f - 1)%Z -> t <= tm f (k+1)) ->
        h t = vl f j + (t - tm f j) * slope_q f k) }.

Lemma sinv_step k acc : (0 <= Z.of_nat k < pl_len f - 1)%Z -> sinv (Z.of_nat k) acc ->
  exists acc', sbody acc k = Ok acc' /\ sinv (Z.of_nat (S k)) acc'.
Proof.
  intros Hk [I1 I2 I3 I4 I5 [j [r [Hj [Hr Hh]]]]]. unfold sbody.
  rewrite !gradient_ok by (auto; lia). cbn [bind].
  replace (Z.of_nat (S k)) with (Z.of_nat k + 1)%Z by lia.
  set (kz := Z.of_nat k) in *.
  destruct (qlebP eps1000 (qabs (slope_q f kz - slope_q f (kz + 1)))) as [Hs|Hs].
  - rewrite get_tm, get_vl by (auto; lia). cbn [bind]. eexists. split; [reflexivity|].
    constructor; cbn [fst snd].
    + cbn [map]. rewrite I1. f_equal. symmetry. apply at_tm; auto. lia.
    + constructor; [exact I2|]. apply Forall_forall. intros x Hx.
      assert (Hgj : tm f j < tm f (kz+1) - eps) by (apply tm_gap; auto; lia).
      rewrite Hr in Hx, I2. destruct Hx as [<-|Hx]; [exact Hgj|].
      inversion I2 as [|? ? _ HF]; subst. rewrite Forall_forall in HF. apply HF in Hx.
      unfold gap in *. qlra.
    + intro Hcl. specialize (I3 Hcl). specialize (Hh Hcl). rewrite Hr in *. split; [|exact I3].
      exists (slope_q f kz), (vl f j - tm f j * slope_q f kz). intros t T1 T2.
      rewrite Hh; [ring|exact T1|auto].
    + intros x [<-|Hx]; [apply tm_in; lia|auto].
    + rewrite Hr in *. exact I5.
    + exists (kz+1)%Z, (fst acc). split; [lia|]. split; [reflexivity|].
      intros _ t T1 T2. unfold h. rewrite (at_slope f (kz+1) t (tm f (kz+1))); auto; try lia.
      * rewrite at_tm by (auto; lia). reflexivity.
      * split; intro; auto.
      * apply in_seg_tm; auto. lia.
  - eexists. split; [reflexivity|]. constructor; auto.
    exists j, r. split; [lia|]. split; [exact Hr|]. intros Hcl t T1 T2. specialize (Hh Hcl).
    assert (Heq : slope_q f kz = slope_q f (kz+1)).
    { destruct (Hcl kz ltac:(lia)); auto. contradiction. }
    destruct (qlebP t (tm f (kz+1))) as [Ht|Ht].
    + rewrite <- Heq. apply Hh; auto.
    + unfold h. rewrite (at_slope f (kz+1) t (tm f (kz+1))); auto; try lia.
      * fold h. rewrite (Hh (tm f (kz+1))).
        -- rewrite Heq. ring.
        -- apply tm_le; auto; lia.
        -- intro; qlra.
      * split; intro; [qlra|apply T2; lia].
      * apply in_seg_tm; auto. lia.
Qed.

Lemma simplify_fold n : (Z.of_nat n <= pl_len f - 1)%Z ->
  exists acc, foldM sbody (seq 0 n) ([tm f 0], [vl f 0]) = Ok acc /\ sinv (Z.of_nat n) acc.
Proof.
  assert (Hp := len_pos f V).
  induction n as [|n IH]; intro Hn.
  - eexists. split; [reflexivity|]. constructor; cbn [fst snd].
    + cbn [map]. f_equal. symmetry. apply at_tm; auto; lia.
    + repeat constructor.
    + intro; exact I.
    + intros x [<-|[]]. apply tm_in; lia.
    + reflexivity.
    + exists 0%Z, []. split; [lia|]. split; [reflexivity|]. intros _ t T1 T2.
      unfold h. rewrite (at_slope f 0 t (tm f 0)); auto; try lia.
      * rewrite at_tm by (auto; lia). reflexivity.
      * split; intro; auto.
      * apply in_seg_tm; auto; lia.
  - rewrite seq_S. cbn [Nat.add].
    destruct IH as [acc [E Hi]]; [lia|].
    assert (HF : forall l1 l2 s, foldM sbody (l1 ++ l2) s = bind (foldM sbody l1 s) (foldM sbody l2)).
    { induction l1 as [|a l1 IHl]; intros l2 s; [reflexivity|]. cbn [app foldM].
      destruct (sbody s a); cbn [bind]; auto. }
    rewrite HF, E. cbn [bind foldM].
    destruct (sinv_step n acc) as [acc' [E' Hi']]; auto; [lia|].
    rewrite E'. cbn [bind]. eauto.
Qed.

Lemma rchain_chain l : rchain l -> chain_aff h (rev l).
Proof.
  intros H l1 a b l2 E. assert (E2 : l = rev l2 ++ b :: a :: rev l1).
  { rewrite <- (rev_involutive l), E. rewrite rev_app_distr. cbn [rev].
    rewrite <- !app_assoc. reflexivity. }
  clear E. subst l. revert H. generalize (rev l1). generalize (rev l2). clear.
  induction l as [|x l IH]; intros r H.
  - destruct H as [H _]. exact H.
  - apply (IH r). cbn [app] in H. destruct (l ++ b :: a :: r); [exact I|]. destruct H as [_ H]. exact H.
Qed.

Lemma simplify_ok : exists p, simplify f = Ok p /\ valid p /\
  pl_lo p = pl_lo f /\ pl_hi p = pl_hi f /\
  (forall x, In x (pl_times p) -> In x (pl_times f)) /\
  (slopes_clear f -> forall t, in_dom f t -> pl_at p t = pl_at f t).
Proof.
  assert (Hp := len_pos f V).
  destruct (simplify_fold (length (pl_times f) - 1)) as [acc [E [I1 I2 I3 I4 I5 [j [r [Hj [Hr Hh]]]]]]].
  { unfold pl_len, zlen in *. lia. }
  set (p := mkPL (rev (fst acc)) (rev (snd acc)) (pl_first f) (pl_last f) (pl_lo f) (pl_hi f)).
  assert (Hne : fst acc <> []) by (rewrite Hr; discriminate).
  assert (Vp : valid p).
  { constructor; cbn [pl_times pl_values p].
    - rewrite !rev_length, I1, map_length. reflexivity.
    - intro En. apply Hne. rewrite <- (rev_involutive (fst acc)), En. reflexivity.
    - apply SSorted_rev. exact I2.
    - intros t Ht. rewrite <- in_rev in Ht. apply I4 in Ht. apply V in Ht. exact Ht. }
  exists p. split.
  { unfold simplify. rewrite get_tm, get_vl by (auto; lia). cbn [bind].
    fold sbody. rewrite E. cbn [bind]. exact (pl_init_ok p Vp). }
  split; [exact Vp|]. split; [reflexivity|]. split; [reflexivity|].
  split; [intros x Hx; cbn in Hx; rewrite <- in_rev in Hx; auto|].
  intros Hcl.
  assert (Ht0 : tm p 0 = tm f 0).
  { rewrite <- I5. unfold tm, nthq. cbn [pl_times p]. change (Z.to_nat 0) with 0%nat.
    destruct (exists_last Hne) as [l' [a El]]. rewrite El, last_last, rev_app_distr. reflexivity. }
  assert (Htl : tm p (pl_len p - 1) = tm f j).
  { unfold tm at 1, pl_len. rewrite (nthq_last _ 0) by apply Vp. cbn [pl_times p].
    rewrite Hr. cbn [rev]. apply last_last. }
  apply (at_unique_list p h Vp).
  - cbn [pl_times pl_values p]. rewrite I1. rewrite map_rev. reflexivity.
  - cbn [pl_times p]. apply rchain_chain. auto.
  - intros t D Ht. rewrite Ht0 in *. unfold h. rewrite at_left, at_tm by (auto; try lia; qlra). reflexivity.
  - intros t D Ht. rewrite Htl in *.
    replace (Z.of_nat (length (pl_times f) - 1)) with (pl_len f - 1)%Z in Hh, Hj by (unfold pl_len, zlen in *; lia).
    rewrite (Hh Hcl t); [|qlra|intro; lia]. unfold h. rewrite at_tm by (auto; lia). cbn [pl_last p].
    unfold slope_q. destruct (Z.eqb_spec (pl_len f - 1) (-1)); [lia|]. rewrite Z.eqb_refl. reflexivity.
Qed.
End Simplify.

(** Unbounded error of simplify. *)
Lemma simplify_drift T : 1 < T ->
  let s := Q2Qc (500 # 1) * eps in
  let f := mkPL [0; T] [0; 0] 0 s NInf PInf in
  valid f /\ simplify f = Ok (mkPL [0] [0] 0 s NInf PInf) /\
  pl_eval f T = Ok 0 /\ pl_eval (mkPL [0] [0] 0 s NInf PInf) T = Ok (T * s).
Proof.
  intros HT s f.
  assert (Vf : valid f).
  { constructor; [reflexivity|discriminate| |split; exact I].
    repeat constructor. unfold gap. qlra. }
  assert (Vp : valid (mkPL [0] [0] 0 s NInf PInf)).
  { constructor; [reflexivity|discriminate|repeat constructor|split; exact I]. }
  split; [exact Vf|]. split; [|split].
  - unfold simplify. cbn [pl_times pl_values f].
    change (pyget [0; T] 0) with (Ok 0). change (pyget [0; 0] 0) with (Ok 0). cbn [bind].
    change (length [0%Qc; T] - 1)%nat with 1%nat. cbn [seq foldM].
    rewrite !gradient_ok by (auto; unfold pl_len, zlen; cbn; lia). cbn [bind].
    change (Z.of_nat 0 + 1)%Z with 1%Z. change (Z.of_nat 0) with 0%Z.
    assert (E0 : slope_q f 0 = 0).
    { change (slope_q f 0) with ((0 - 0) / (T - 0)).
      field. qlra. }
    assert (E1 : slope_q f 1 = s) by reflexivity.
    rewrite E0, E1.
    destruct (qlebP eps1000 (qabs (0 - s))) as [Hc|_].
    { exfalso. apply Qcle_not_lt in Hc. apply Hc. vm_compute. reflexivity. }
    cbn [bind fst snd rev app]. exact (pl_init_ok _ Vp).
  - rewrite eval_at; auto; [|split; exact I]. f_equal. exact (at_tm f 1 Vf ltac:(unfold pl_len, zlen; cbn; lia)).
  - rewrite eval_at; auto; [|split; exact I]. f_equal.
    rewrite at_right; auto.
    + change (0 + (T - 0) * s = T * s). ring.
    + change (0 <= T). qlra.
Qed.
