(** * Proofs: compose (C13) *)
From Verif Require Import Base Spec Arrays ArraysProofs PL PL2 PLProofs PLEval PLArith PLOps PLOps2 PLMono PLCmp.

Fixpoint rch (h : Qc -> Qc) (l : list Qc) : Prop :=
  match l with
  | b :: ((a :: _) as r) => aff h a b /\ rch h r
  | _ => True
  end.
Lemma rch_chain h l : rch h l -> chain_aff h (rev l).
Proof.
  induction l as [|b [|a r] IH]; intros H l1 x y l2 E.
  - destruct l1; discriminate.
  - destruct l1 as [|? [|]]; discriminate.
  - destruct H as [H1 H2]. cbn [rev] in E, IH. 
    destruct (exists_last (l := y :: l2) ltac:(discriminate)) as [l' [z Ez]].
    replace (l1 ++ x :: y :: l2) with ((l1 ++ x :: l') ++ [z]) in E by (rewrite <- app_assoc; cbn; rewrite <- Ez; reflexivity).
    apply app_inj_tail in E. destruct E as [E <-].
    destruct l' as [|y' l'].
    + cbn in Ez. inversion Ez; subst. change (l1 ++ [x]) with (l1 ++ x :: []) in E.
      apply app_inj_tail in E. destruct E as [_ <-]. exact H1.
    + cbn in Ez. inversion Ez; subst. apply (IH H2 l1 x y' l'). exact E.
Qed.

Section C.
Variables g f : PL.
Hypothesis Vg : valid g.
Hypothesis Vf : valid f.
Hypothesis Mf : mono f.
Hypothesis IM : forall t, in_dom f t -> in_dom g (pl_at f t).

Let h (t : Qc) : Qc := pl_at g (pl_at f t).
Let F0 : 0 <= pl_first f.
Proof. exact (proj1 (proj2 Mf)). Qed.
Let L0 : 0 <= pl_last f.
Proof. exact (proj2 (proj2 Mf)). Qed.
Let Nf : nondecreasing (pl_values f).
Proof. exact (proj1 Mf). Qed.

(** Times where the composition may have a kink. *)
Definition kink (x : Qc) : Prop :=
  in_dom f x /\
  (In x (pl_times f) \/ pl_lo f = Fin x \/
   (In (pl_at f x) (pl_times g) /\ forall y, in_dom f y -> pl_at f y = pl_at f x -> y = x)).
Hypothesis SEP : forall x y, kink x -> kink y -> x < y -> gap x y.

Lemma Mat t u : t <= u -> pl_at f t <= pl_at f u.
Proof. apply at_mono; auto. Qed.
Lemma Snn i : (-1 <= i < pl_len f)%Z -> 0 <= slope_q f i.
Proof. apply slope_nonneg; auto. Qed.
Lemma dom_tm i : (0 <= i < pl_len f)%Z -> in_dom f (tm f i).
Proof. intro. apply (v_dom f Vf), tm_in; auto. Qed.
Lemma dom_between a b t : in_dom f a -> in_dom f b -> a <= t -> t <= b -> in_dom f t.
Proof.
  intros [A1 _] [_ B2] H1 H2. split; [eapply ext_le_trans; [exact A1|exact H1]|eapply ext_le_trans; [|exact B2]; exact H2].
Qed.

Lemma seg_between i p x t : in_seg f i p -> in_seg f i x -> p <= t -> t <= x -> in_seg f i t.
Proof. intros [P1 P2] [X1 X2] H1 H2. split; intro K; [specialize (P1 K)|specialize (X2 K)]; qlra. Qed.

Lemma seg_strict i p x : (-1 <= i < pl_len f)%Z -> slope_q f i <> 0 -> in_seg f i p -> in_seg f i x ->
  (pl_at f p < pl_at f x <-> p < x).
Proof.
  intros Hi Hs Sp Sx. rewrite (at_slope f i x p Vf Hi Sx Sp). pose proof (Snn i Hi).
  assert (0 < slope_q f i) by qlra. set (s := slope_q f i) in *. split; intro; qnra.
Qed.

Lemma seg_kink i x : (-1 <= i < pl_len f)%Z -> slope_q f i <> 0 -> in_seg f i x -> in_dom f x ->
  In (pl_at f x) (pl_times g) -> kink x.
Proof.
  intros Hi Hs Sx Dx Hg. split; [exact Dx|].
  destruct (in_dec Qc_eq_dec x (pl_times f)) as [C|C]; [left; exact C|]. right. right.
  split; [exact Hg|]. intros y Dy Ey.
  assert (A1 : (0 <= i)%Z -> tm f i < x).
  { intro. destruct Sx as [S1 _]. specialize (S1 H). destruct (qc_ne_lt (tm f i) x) as [|]; try assumption; [|qlra].
    intro E. apply C. rewrite <- E. apply tm_in. lia. }
  assert (A2 : (i < pl_len f - 1)%Z -> x < tm f (i+1)).
  { intro. destruct Sx as [_ S2]. specialize (S2 H). destruct (qc_ne_lt (tm f (i+1)) x) as [|]; try assumption; [|qlra].
    intro E. apply C. rewrite <- E. apply tm_in. lia. }
  destruct (qc_le_or y x) as [[K|K]|K]; [exfalso|exfalso|exact K].
  - destruct (Z.eq_dec i (-1)) as [->|Hn].
    + assert (Sy : in_seg f (-1) y) by (split; intro; [lia|]; destruct Sx as [_ S2]; specialize (S2 H); qlra).
      pose proof (proj2 (seg_strict _ _ _ Hi Hs Sy Sx) K). qlra.
    + specialize (A1 ltac:(lia)). destruct (qlebP y (tm f i)) as [Q|Q].
      * pose proof (Mat _ _ Q). pose proof (proj2 (seg_strict _ _ _ Hi Hs (in_seg_tm f i Vf ltac:(lia)) Sx) A1). qlra.
      * assert (Sy : in_seg f i y) by (split; intro Z0; [qlra|]; destruct Sx as [_ S2]; specialize (S2 Z0); qlra).
        pose proof (proj2 (seg_strict _ _ _ Hi Hs Sy Sx) K). qlra.
  - destruct (Z.eq_dec i (pl_len f - 1)) as [Hn|Hn].
    + assert (Sy : in_seg f i y) by (split; intro Z0; [|lia]; destruct Sx as [S1 _]; specialize (S1 Z0); qlra).
      pose proof (proj2 (seg_strict _ _ _ Hi Hs Sx Sy) K). qlra.
    + specialize (A2 ltac:(lia)). destruct (qlebP (tm f (i+1)) y) as [Q|Q].
      * pose proof (Mat _ _ Q). pose proof (proj2 (seg_strict _ _ _ Hi Hs Sx (in_seg_tm1 f i Vf ltac:(lia))) A2). qlra.
      * assert (Sy : in_seg f i y) by (split; intro Z0; [|qlra]; destruct Sx as [S1 _]; specialize (S1 Z0); qlra).
        pose proof (proj2 (seg_strict _ _ _ Hi Hs Sx Sy) K). qlra.
Qed.

Lemma h_aff i p x : (-1 <= i < pl_len f)%Z -> in_seg f i p -> in_seg f i x -> p <= x ->
  (forall v, In v (pl_times g) -> v <= pl_at f p \/ pl_at f x <= v) -> aff h p x.
Proof.
  intros Hi Sp Sx Hpx Hg.
  destruct (at_aff g (pl_at f p) (pl_at f x) Vg Hg) as [m [c A]].
  exists (m * slope_q f i), (m * (pl_at f p - p * slope_q f i) + c). intros t H1 H2. unfold h.
  rewrite A by (apply Mat; assumption).
  rewrite (at_slope f i t p Vf Hi (seg_between i p x t Sp Sx H1 H2) Sp). ring.
Qed.

Variable gr : Z.     (* the rank of f's least value in g *)
Definition bottom_ok (q : Qc) : Prop :=
  q <= tm f 0 /\
  forall t, in_dom f t -> t <= q -> h t = h q + (t - q) * (slope_q g gr * pl_first f).

Record cinv (pts : list (Qc * Qc)) : Prop := {
  ci_vals : map snd pts = map h (map fst pts);
  ci_gap : StronglySorted (fun a b => gap b a) (map fst pts);
  ci_chain : rch h (map fst pts);
  ci_kink : forall x, In x (map fst pts) -> kink x;
  ci_bot : pts <> [] -> bottom_ok (last (map fst pts) 0) }.

Lemma cinv_nil : cinv [].
Proof.
  constructor.
  - reflexivity.
  - constructor.
  - exact Logic.I.
  - intros x [].
  - congruence.
Qed.

Lemma push1 x : kink x -> bottom_ok x -> cinv [(x, h x)].
Proof.
  intros K B. constructor.
  - reflexivity.
  - cbn [map fst]. repeat constructor.
  - exact Logic.I.
  - intros y [<-|[]]; exact K.
  - intros _. exact B.
Qed.

Lemma push_ok p y r x : cinv ((p, y) :: r) -> kink x -> p < x -> aff h p x ->
  qltb (p + eps) x = true /\ cinv ((x, h x) :: (p, y) :: r).
Proof.
  intros [I1 I2 I3 I4 I5] K Hpx A.
  assert (G : gap p x) by (apply SEP; auto; apply I4; left; reflexivity).
  split; [apply qltb_true; unfold gap in G; qlra|].
  constructor.
  - cbn [map fst snd] in *. rewrite I1. reflexivity.
  - cbn [map fst] in *. constructor; [exact I2|]. inversion I2; subst. constructor; [exact G|].
    eapply Forall_impl; [|eassumption]. intros a Ha. cbv beta in *. eapply gap_trans; eauto.
  - cbn [map fst rch] in *. split; [exact A|exact I3].
  - intros z [<-|Hz]; [exact K|]. apply I4. exact Hz.
  - intros _. cbn [map fst] in *. specialize (I5 ltac:(discriminate)). exact I5.
Qed.

(** Position in g's breakpoints relative to the point [p] of segment [i]. *)
Definition gpos (p : Qc) (j : Z) : Prop :=
  (0 <= j <= pl_len g)%Z /\
  (forall k, (0 <= k < j)%Z -> tm g k <= pl_at f p) /\
  (forall k, (j <= k < pl_len g)%Z -> pl_at f p <= tm g k).

Lemma gpos_between p x j : gpos p j -> (forall k, (j <= k < pl_len g)%Z -> pl_at f x <= tm g k) ->
  forall v, In v (pl_times g) -> v <= pl_at f p \/ pl_at f x <= v.
Proof.
  intros [_ [G1 _]] Hx v Hv. destruct (in_tm g v Hv) as [k [Hk <-]].
  destruct (Z.ltb_spec k j); [left; apply G1; lia|right; apply Hx; lia].
Qed.

Section W.
Variables (im0 : ext) (i : Z) (B : ext).
Hypothesis Hi : (-1 <= i < pl_len f)%Z.
Hypothesis INV : forall n, ext_le (Fin n) B -> ext_le im0 (Fin n) ->
   ((0 <= i)%Z -> vl f i <= n) -> slope_q f i <> 0 ->
   exists x, inverse f n i = Ok x /\ in_seg f i x /\ pl_at f x = n /\ in_dom f x.

Lemma while_ok fuel : forall j p y r,
  (pl_len g - j < Z.of_nat fuel)%Z -> cinv ((p, y) :: r) -> gpos p j -> in_seg f i p ->
  ext_le im0 (Fin (pl_at f p)) -> (slope_q f i = 0 -> ext_le B (Fin (pl_at f p))) ->
  exists j' p' y' r', comp_while fuel g f im0 i B j ((p, y) :: r) = Ok (j', (p', y') :: r') /\
    cinv ((p', y') :: r') /\ gpos p' j' /\ in_seg f i p' /\ ext_le im0 (Fin (pl_at f p')) /\
    (forall k, (j' <= k < pl_len g)%Z -> ~ ext_le (Fin (tm g k)) B).
Proof.
  induction fuel as [|k IH]; intros j p y r Hf I G Sp Hm Hz.
  { destruct G as [G _]. lia. }
  pose proof G as [Gj [G1 G2]]. cbn [comp_while].
  destruct (Z.ltb_spec j (pl_len g)) as [C|C].
  2:{ exists j, p, y, r. split; [reflexivity|]. do 4 (split; [assumption|]). intros; lia. }
  rewrite (get_tm g) by lia. cbn [bind].
  destruct (ext_lebP (Fin (tm g j)) B) as [D|D].
  2:{ exists j, p, y, r. split; [reflexivity|]. do 4 (split; [assumption|]). intros k0 Hk C2. apply D.
      eapply ext_le_trans; [|exact C2]. apply (tm_le g Vg); lia. }
  assert (Gj2 : pl_at f p <= tm g j) by (apply G2; lia).
  assert (En : ext_max im0 (Fin (tm g j)) = Fin (tm g j)).
  { assert (H : ext_le im0 (Fin (tm g j))) by (eapply ext_le_trans; [exact Hm|exact Gj2]).
    unfold ext_max. destruct (ext_ltbP im0 (Fin (tm g j))) as [|Q]; [reflexivity|].
    apply ext_le_antisym; [exact H|]. destruct (ext_lebP (Fin (tm g j)) im0); [assumption|]. exfalso; apply Q; assumption. }
  rewrite En. cbn [bind]. rewrite (gradient_ok f Vf i Hi). cbn [bind].
  destruct (qeqbP (slope_q f i) 0) as [Z0|Z0].
  - cbn [bind]. apply IH; auto; [lia|].
    specialize (Hz Z0). assert (Q : tm g j <= pl_at f p) by (exact (ext_le_trans _ _ _ D Hz)).
    split; [lia|]. split; intros k0 Hk.
    + destruct (Z.eq_dec k0 j) as [->|]; [exact Q|apply G1; lia].
    + apply G2; lia.
  - assert (Bn : (0 <= i)%Z -> vl f i <= tm g j).
    { intro. rewrite <- (at_tm f i Vf) by lia. destruct Sp as [S1 _]. specialize (S1 H). pose proof (Mat _ _ S1). qlra. }
    destruct (INV (tm g j)) as [x [Ex [Sx [Ax Dx]]]]; auto.
    { eapply ext_le_trans; [exact Hm|exact Gj2]. }
    rewrite Ex. cbn [bind].
    assert (Kx : kink x). { apply (seg_kink i); auto. rewrite Ax. apply tm_in. lia. }
    assert (Hpx : p <= x).
    { destruct (qlebP p x); [assumption|]. exfalso.
      pose proof (proj2 (seg_strict i x p Hi Z0 Sx Sp) ltac:(qlra)). qlra. }
    destruct (qc_le_or p x) as [[K|K]|K]; [|qlra|].
    + assert (A : aff h p x).
      { apply (h_aff i); auto. apply (gpos_between p x j G). intros k0 Hk. rewrite Ax. apply (tm_le g Vg); lia. }
      destruct (push_ok p y r x I Kx K A) as [Q1 Q2]. rewrite Q1.
      rewrite (eval_at g (tm g j) Vg). 2:{ rewrite <- Ax. apply IM. exact Dx. }
      cbn [bind].
      replace (pl_at g (tm g j)) with (h x) by (unfold h; rewrite Ax; reflexivity).
      apply IH; auto.
      * lia.
      * split; [lia|]. rewrite Ax. split; intros k0 Hk; apply (tm_le g Vg); lia.
      * eapply ext_le_trans; [exact Hm|]. apply Mat. exact Hpx.
      * intro; contradiction.
    + subst x. destruct (qltbP (p + eps) p) as [Q|Q]; [qlra|]. cbn [bind]. apply IH; auto.
      * lia.
      * split; [lia|]. split; intros k0 Hk; rewrite Ax; apply (tm_le g Vg); lia.
Qed.

Lemma while_flat fuel : forall j, (0 <= j <= pl_len g)%Z -> slope_q f i = 0 -> im0 <> PInf ->
  (pl_len g - j < Z.of_nat fuel)%Z ->
  exists j', comp_while fuel g f im0 i B j [] = Ok (j', []) /\ (j <= j' <= pl_len g)%Z /\
    (forall k, (j <= k < j')%Z -> ext_le (Fin (tm g k)) B) /\
    (forall k, (j' <= k < pl_len g)%Z -> ~ ext_le (Fin (tm g k)) B).
Proof.
  clear INV. induction fuel as [|n IH]; intros j Hj Z0 Hm Hf; [lia|]. cbn [comp_while].
  destruct (Z.ltb_spec j (pl_len g)) as [C|C].
  2:{ exists j. split; [reflexivity|]. split; [lia|]. split; intros; lia. }
  rewrite (get_tm g) by lia. cbn [bind].
  destruct (ext_lebP (Fin (tm g j)) B) as [D|D].
  2:{ exists j. split; [reflexivity|]. split; [lia|]. split; [intros; lia|]. intros k0 Hk C2. apply D.
      eapply ext_le_trans; [|exact C2]. apply (tm_le g Vg); lia. }
  assert (En : exists n, ext_max im0 (Fin (tm g j)) = Fin n).
  { unfold ext_max. destruct im0; [cbn|..]; [eauto| |congruence].
    destruct (ext_ltb (Fin q) (Fin (tm g j))); eauto. }
  destruct En as [m En]. rewrite En. cbn [bind]. rewrite (gradient_ok f Vf i Hi). cbn [bind].
  rewrite Z0, qeqb_refl. cbn [bind].
  destruct (IH (j+1)%Z ltac:(lia) Z0 Hm ltac:(lia)) as [j' [E [B1 [B2 B3]]]].
  exists j'. split; [exact E|]. split; [lia|]. split; [|exact B3].
  intros k0 Hk. destruct (Z.eq_dec k0 j) as [->|]; [exact D|apply B2; lia].
Qed.
End W.

(** State between two iterations of the outer loop: the last generated
    point is breakpoint [n] of f. *)
Definition after (n : Z) (st : Z * list (Qc * Qc)) : Prop :=
  exists y r, snd st = (tm f n, y) :: r /\ cinv (snd st) /\ gpos (tm f n) (fst st) /\
    (forall k, (fst st <= k < pl_len g)%Z -> vl f n < tm g k).

Section Im.
Variable im0 : ext.
Hypothesis IM0 : match im0 with
  | Fin m => exists a, in_dom f a /\ pl_at f a = m /\ (pl_first f <> 0 -> pl_lo f = Fin a)
  | NInf => pl_lo f = NInf
  | PInf => False end.
Hypothesis IM0le : forall t, in_dom f t -> ext_le im0 (Fin (pl_at f t)).
Hypothesis GR : (-1 <= gr < pl_len g)%Z.
Hypothesis GR1 : (0 <= gr)%Z -> ext_lt (Fin (tm g gr)) im0.
Hypothesis GR2 : (gr + 1 < pl_len g)%Z -> ext_le im0 (Fin (tm g (gr+1))).

Lemma push_break n p y r j : (0 <= n < pl_len f)%Z -> cinv ((p, y) :: r) -> gpos p j -> in_seg f (n-1) p ->
  (forall k, (j <= k < pl_len g)%Z -> ~ ext_le (Fin (tm g k)) (Fin (vl f n))) ->
  exists st, (if qltb (p + eps) (tm f n) then y0 <- pl_eval g (vl f n) ;; Ok (j, (tm f n, y0) :: (p, y) :: r)
      else Ok (j, (p, y) :: r)) = Ok st /\ after n st.
Proof.
  intros Hn I G Sp Hk.
  assert (Hk' : forall k, (j <= k < pl_len g)%Z -> vl f n < tm g k).
  { intros k K. specialize (Hk k K). cbn [ext_le] in Hk. qlra. }
  assert (An : pl_at f (tm f n) = vl f n) by (apply at_tm; auto).
  assert (Sn : in_seg f (n-1) (tm f n)).
  { replace n with (n - 1 + 1)%Z at 2 by lia. apply in_seg_tm1; auto. lia. }
  assert (Hp : p <= tm f n). { replace n with (n - 1 + 1)%Z by lia. apply Sp. lia. }
  assert (Dn : in_dom f (tm f n)) by (apply dom_tm; lia).
  assert (GP : gpos (tm f n) j).
  { destruct G as [G0 [G1 G2]]. split; [exact G0|]. rewrite An. split; intros k K.
    - pose proof (Mat _ _ Hp). specialize (G1 k K). qlra.
    - specialize (Hk' k K). qlra. }
  destruct (qc_le_or p (tm f n)) as [[K|K]|K]; [|qlra|].
  - assert (Kn : kink (tm f n)). { split; [exact Dn|]. left. apply tm_in; lia. }
    assert (A : aff h p (tm f n)).
    { apply (h_aff (n-1)); auto; try lia. apply (gpos_between p (tm f n) j G). intros k Kk. rewrite An. specialize (Hk' k Kk). qlra. }
    destruct (push_ok p y r (tm f n) I Kn K A) as [Q1 Q2]. rewrite Q1.
    rewrite (eval_at g (vl f n) Vg). 2:{ rewrite <- An. apply IM. exact Dn. }
    cbn [bind]. eexists. split; [reflexivity|]. exists (pl_at g (vl f n)), ((p, y) :: r). cbn [fst snd].
    split; [reflexivity|]. split; [|split; assumption].
    replace (pl_at g (vl f n)) with (h (tm f n)) by (unfold h; rewrite An; reflexivity). exact Q2.
  - subst p. destruct (qltbP (tm f n + eps) (tm f n)) as [Q|Q]; [qlra|]. eexists. split; [reflexivity|].
    exists y, r. cbn [fst snd]. split; [reflexivity|]. split; [exact I|]. split; assumption.
Qed.

Lemma inv_seg i B : (-1 <= i < pl_len f - 1)%Z -> B = Fin (vl f (i+1)) ->
  forall n, ext_le (Fin n) B -> ext_le im0 (Fin n) -> ((0 <= i)%Z -> vl f i <= n) -> slope_q f i <> 0 ->
   exists x, inverse f n i = Ok x /\ in_seg f i x /\ pl_at f x = n /\ in_dom f x.
Proof.
  intros Hi -> n H1 H2 H3 H4. cbn [ext_le] in H1. pose proof (Snn i ltac:(lia)) as Sn.
  assert (R : in_range f i n).
  { unfold in_range, slope_q in *. destruct (Z.eqb_spec i (-1)) as [->|Hn].
    - left. change (-1+1)%Z with 0%Z in H1. qlra.
    - destruct (Z.eqb_spec i (pl_len f - 1)); [lia|]. specialize (H3 ltac:(lia)).
      split; [|left; qlra]. intro E. apply H4. rewrite E. unfold Qcdiv. ring. }
  destruct (inverse_mono_ok f n i Vf Nf L0 ltac:(lia) R) as [x [Ex [Sx Ax]]].
  exists x. do 3 (split; [assumption|]).
  assert (Hx : x <= tm f (i+1)) by (apply Sx; lia).
  pose proof (dom_tm (i+1) ltac:(lia)) as Du.
  destruct (Z.eq_dec i (-1)) as [->|Hn].
  - destruct im0 as [|m|] eqn:Em; [| |destruct IM0].
    + split; [rewrite IM0; exact Logic.I|]. destruct Du as [_ D2]. eapply ext_le_trans; [|exact D2]. exact Hx.
    + destruct IM0 as [a [Da [Aa La]]]. specialize (La H4).
      assert (a <= x).
      { destruct (qlebP a x); [assumption|]. exfalso.
        assert (Hal : a <= tm f 0).
        { destruct (dom_tm 0) as [D1 _]; [pose proof (len_pos f Vf); lia|]. rewrite La in D1. exact D1. }
        assert (Sa : in_seg f (-1) a) by (split; intro; [lia|exact Hal]).
        pose proof (proj2 (seg_strict (-1) x a ltac:(lia) H4 Sx Sa) ltac:(qlra)). cbn [ext_le] in H2. qlra. }
      apply (dom_between a (tm f (-1+1))); auto.
  - apply (dom_between (tm f i) (tm f (i+1))); auto; [apply dom_tm; lia|]. apply Sx. lia.
Qed.

Lemma im0_ne : im0 <> PInf.
Proof. intro E. rewrite E in IM0. exact IM0. Qed.

(** The slope to the left of the first generated point. *)
Lemma bottom_seg q : q <= tm f 0 -> in_dom f q ->
  ((gr + 1 < pl_len g)%Z -> pl_at f q <= tm g (gr+1)) -> bottom_ok q.
Proof.
  intros Hq Dq Hle. split; [exact Hq|]. intros t Dt Ht. unfold h.
  assert (S : forall u, in_dom f u -> u <= q -> in_seg g gr (pl_at f u)).
  { intros u Du Hu. split; intro K.
    - specialize (GR1 K). pose proof (IM0le u Du) as Q. destruct im0 as [|m|]; [destruct GR1; exact Logic.I| |destruct Q].
      apply ext_lt_fin in GR1. cbn [ext_le] in Q. qlra.
    - specialize (Hle ltac:(lia)). pose proof (Mat _ _ Hu). qlra. }
  rewrite (at_slope g gr (pl_at f t) (pl_at f q) Vg GR (S t Dt Ht) (S q Dq ltac:(qlra))).
  rewrite (at_left f t Vf), (at_left f q Vf) by qlra. ring.
Qed.

Lemma step_first : exists st, comp_step g f im0 (Z.max 0 gr, []) 0 = Ok st /\ after 0 st.
Proof.
  pose proof (len_pos f Vf) as LP. pose proof (len_pos g Vg) as LPg.
  unfold comp_step. change (Z.of_nat 0 - 1)%Z with (-1)%Z. change (-1 + 1)%Z with 0%Z.
  rewrite (get_vl f Vf) by lia. cbn [bind fst snd]. rewrite (get_tm f) by lia.
  assert (Hi : (-1 <= -1 < pl_len f)%Z) by lia.
  assert (FU : (pl_len g < Z.of_nat (S (length (pl_times g))))%Z) by (unfold pl_len, zlen; lia).
  assert (An : pl_at f (tm f 0) = vl f 0) by (apply at_tm; auto; lia).
  assert (D0 : in_dom f (tm f 0)) by (apply dom_tm; lia).
  assert (K0 : kink (tm f 0)). { split; [exact D0|]. left. apply tm_in; lia. }
  (* conclusion for an empty list of points *)
  assert (EMPTY : forall j, bottom_ok (tm f 0) -> gpos (tm f 0) j ->
     (forall k, (j <= k < pl_len g)%Z -> vl f 0 < tm g k) ->
     exists st, (y <- pl_eval g (vl f 0) ;; Ok (j, [(tm f 0, y)])) = Ok st /\ after 0 st).
  { intros j Bo G Hk. rewrite (eval_at g (vl f 0) Vg). 2:{ rewrite <- An. apply IM. exact D0. }
    cbn [bind]. eexists. split; [reflexivity|]. exists (pl_at g (vl f 0)), []. cbn [fst snd].
    split; [reflexivity|]. split; [|split; assumption].
    replace (pl_at g (vl f 0)) with (h (tm f 0)) by (unfold h; rewrite An; reflexivity). apply push1; auto. }
  destruct (qeqbP (pl_first f) 0) as [Z0|Z0].
  - destruct (while_flat im0 (-1) (Fin (vl f 0)) Hi (S (length (pl_times g))) (Z.max 0 gr) ltac:(lia) Z0 im0_ne ltac:(lia))
      as [j' [E [B1 [B2 B3]]]].
    rewrite E. cbn [bind]. apply EMPTY.
    + split; [qlra|]. intros t Dt Ht. unfold h. rewrite (at_left f t Vf Ht), Z0. rewrite An.
      replace (vl f 0 + (t - tm f 0) * 0) with (vl f 0) by ring. ring.
    + split; [lia|]. rewrite An. split; intros k Hk.
      * destruct (Z.ltb_spec k (Z.max 0 gr)).
        -- pose proof (IM0le _ D0) as Q. rewrite An in Q. specialize (GR1 ltac:(lia)).
           assert (tm g k <= tm g gr) by (apply (tm_le g Vg); lia).
           assert (ext_lt (Fin (tm g gr)) (Fin (vl f 0))) by (eapply ext_lt_le_trans; [exact GR1|exact Q]).
           apply ext_lt_fin in H1. qlra.
        -- apply B2. lia.
      * specialize (B3 k ltac:(lia)). cbn [ext_le] in B3. qlra.
    + intros k Hk. specialize (B3 k ltac:(lia)). cbn [ext_le] in B3. qlra.
  - (* first slope positive *)
    set (j0 := Z.max 0 gr).
    assert (J0 : (0 <= j0 < pl_len g)%Z) by lia.
    change (comp_while (S (length (pl_times g))) g f im0 (-1) (Fin (vl f 0)) j0 []) with
      (if (j0 <? pl_len g)%Z then
        tg <- pyget (pl_times g) j0 ;;
        if ext_leb (Fin tg) (Fin (vl f 0)) then
          next <- match ext_max im0 (Fin tg) with Fin n => Ok n | _ => Err NotModelled end ;;
          s <- gradient f (-1) ;;
          pts' <- (if qeqb s 0 then Ok []
                   else
                     x <- inverse f next (-1) ;;
                     y <- pl_eval g next ;; Ok [(x, y)]) ;;
          comp_while (length (pl_times g)) g f im0 (-1) (Fin (vl f 0)) (j0 + 1) pts'
        else Ok (j0, [])
      else Ok (j0, @nil (Qc * Qc))).
    destruct (Z.ltb_spec j0 (pl_len g)); [|lia]. rewrite (get_tm g) by lia. cbn [bind].
    destruct (ext_lebP (Fin (tm g j0)) (Fin (vl f 0))) as [D|D].
    + (* some break point is met: the first generated point *)
      set (n := match im0 with Fin m => qmax m (tm g j0) | _ => tm g j0 end).
      assert (En : ext_max im0 (Fin (tm g j0)) = Fin n).
      { unfold n. destruct im0 as [|m|]; [reflexivity| |destruct IM0].
        unfold ext_max, ext_ltb, qmax, qltb. cbn [ext_leb]. destruct (negb (qleb (tm g j0) m)); reflexivity. }
      rewrite En. cbn [bind]. rewrite (gradient_ok f Vf) by lia. cbn [bind].
      change (slope_q f (-1)) with (pl_first f). destruct (qeqbP (pl_first f) 0) as [|_]; [contradiction|].
      assert (Hn0 : n <= vl f 0).
      { unfold n. pose proof (IM0le _ D0) as Q. rewrite An in Q. cbn [ext_le] in D.
        destruct im0; [assumption| |assumption]. cbn [ext_le] in Q. qmm; assumption. }
      assert (Hnm : ext_le im0 (Fin n)).
      { unfold n. destruct im0; [exact Logic.I| |destruct IM0]. cbn [ext_le]. qmm; qlra. }
      destruct (inv_seg (-1) (Fin (vl f (-1+1))) ltac:(lia) eq_refl n Hn0 Hnm ltac:(lia) Z0) as [x [Ex [Sx [Ax Dx]]]].
      rewrite Ex. cbn [bind]. rewrite (eval_at g n Vg). 2:{ rewrite <- Ax. apply IM. exact Dx. }
      cbn [bind].
      assert (Hx0 : x <= tm f 0). { change 0%Z with (-1+1)%Z. apply Sx. lia. }
      (* [n] is either g's first breakpoint or f's least value *)
      assert (CASE : (gr = -1 /\ n = tm g 0)%Z \/ ((0 <= gr)%Z /\ im0 = Fin n /\ tm g gr < n)).
      { unfold n, j0. destruct (Z.eq_dec gr (-1)) as [E|E].
        - left. rewrite E. change (Z.max 0 (-1)) with 0%Z. split; [reflexivity|].
          destruct im0 as [|m|]; [reflexivity| |destruct IM0].
          specialize (GR2 ltac:(lia)). rewrite E in GR2. change (-1+1)%Z with 0%Z in GR2. cbn [ext_le] in GR2.
          destruct (qmax_spec m (tm g 0)) as [[? Q]|[? Q]]; rewrite Q; [reflexivity|qlra].
        - right. split; [lia|]. replace (Z.max 0 gr) with gr by lia. specialize (GR1 ltac:(lia)).
          destruct im0 as [|m|]; [destruct GR1; exact Logic.I| |destruct IM0].
          apply ext_lt_fin in GR1. destruct (qmax_spec m (tm g gr)) as [[? Q]|[? Q]]; rewrite Q; [qlra|].
          split; [reflexivity|exact GR1]. }
      assert (LE1 : (gr + 1 < pl_len g)%Z -> n <= tm g (gr + 1)).
      { intro K. destruct CASE as [[C1 C2]|[C1 [C2 C3]]].
        - rewrite C1, C2. change (-1+1)%Z with 0%Z. qlra.
        - specialize (GR2 K). rewrite C2 in GR2. exact GR2. }
      assert (Kx : kink x).
      { destruct CASE as [[C1 C2]|[C1 [C2 C3]]].
        - apply (seg_kink (-1)); auto. rewrite Ax, C2. apply tm_in. lia.
        - split; [exact Dx|]. right. left. pose proof IM0 as Q. rewrite C2 in Q. destruct Q as [a [Da [Aa La]]]. rewrite (La Z0). f_equal.
          specialize (La Z0).
          assert (Hal : a <= tm f 0). { destruct D0 as [D1 _]. rewrite La in D1. exact D1. }
          assert (Sa : in_seg f (-1) a) by (split; intro; [lia|exact Hal]).
          destruct (qc_le_or a x) as [[K|K]|K]; [| |exact K].
          + pose proof (proj2 (seg_strict (-1) a x Hi Z0 Sa Sx) K). qlra.
          + pose proof (proj2 (seg_strict (-1) x a Hi Z0 Sx Sa) K). qlra. }
      assert (I1 : cinv [(x, pl_at g n)]).
      { replace (pl_at g n) with (h x) by (unfold h; rewrite Ax; reflexivity). apply push1; auto.
        apply bottom_seg; auto. rewrite Ax. exact LE1. }
      assert (G1 : gpos x (j0 + 1)).
      { split; [lia|]. rewrite Ax. unfold j0. destruct CASE as [[C1 C2]|[C1 [C2 C3]]].
        - rewrite C1, C2. change (Z.max 0 (-1) + 1)%Z with 1%Z. split; intros k Hk; apply (tm_le g Vg); lia.
        - replace (Z.max 0 gr) with gr by lia. split; intros k Hk.
          + assert (tm g k <= tm g gr) by (apply (tm_le g Vg); lia). qlra.
          + specialize (LE1 ltac:(lia)). assert (tm g (gr+1) <= tm g k) by (apply (tm_le g Vg); lia). qlra. }
      destruct (while_ok im0 (-1) (Fin (vl f 0)) Hi (inv_seg (-1) _ ltac:(lia) eq_refl) (length (pl_times g)) (j0+1)%Z x (pl_at g n) [])
        as [j' [p' [y' [r' [E [Q1 [Q2 [Q3 [Q4 Q5]]]]]]]]]; auto.
      { unfold pl_len, zlen in *. lia. }
      { intro; contradiction. }
      rewrite E. cbn [bind]. apply push_break; auto; lia.
    + (* no breakpoint of g at or below f's first value *)
      cbn [bind]. cbn [ext_le] in D.
      assert (E : gr = (-1)%Z).
      { destruct (Z.eq_dec gr (-1)); [assumption|]. exfalso. specialize (GR1 ltac:(lia)).
        pose proof (IM0le _ D0) as Q. rewrite An in Q.
        assert (ext_lt (Fin (tm g gr)) (Fin (vl f 0))) by (eapply ext_lt_le_trans; [exact GR1|exact Q]).
        apply ext_lt_fin in H0. apply D. unfold j0. replace (Z.max 0 gr) with gr by lia. qlra. }
      assert (Ej : j0 = 0%Z) by (unfold j0; lia). rewrite Ej in *.
      apply EMPTY.
      * apply bottom_seg; auto; [qlra|]. rewrite An, E. change (-1+1)%Z with 0%Z. intro; qlra.
      * split; [lia|]. rewrite An. split; intros k Hk; [lia|].
        assert (tm g 0 <= tm g k) by (apply (tm_le g Vg); lia). qlra.
      * intros k Hk. assert (tm g 0 <= tm g k) by (apply (tm_le g Vg); lia). qlra.
Qed.

Lemma step_next n st : (0 < Z.of_nat n < pl_len f)%Z -> after (Z.of_nat n - 1) st ->
  exists st', comp_step g f im0 st n = Ok st' /\ after (Z.of_nat n) st'.
Proof.
  intros Hn [y [r [E [I [G Hk]]]]]. set (i := (Z.of_nat n - 1)%Z) in *.
  unfold comp_step. fold i. replace (i + 1)%Z with (Z.of_nat n) by lia.
  rewrite (get_vl f Vf) by lia. cbn [bind]. rewrite (get_tm f) by lia. rewrite E in *.
  assert (An : pl_at f (tm f i) = vl f i) by (apply at_tm; auto; lia).
  destruct (while_ok im0 i (Fin (vl f (Z.of_nat n))) ltac:(lia)) with (fuel := S (length (pl_times g))) (j := fst st) (p := tm f i) (y := y) (r := r)
    as [j' [p' [y' [r' [E' [Q1 [Q2 [Q3 [Q4 Q5]]]]]]]]]; auto.
  - replace (Z.of_nat n) with (i + 1)%Z by lia. apply inv_seg; [lia|reflexivity].
  - destruct G as [G _]. unfold pl_len, zlen in *. lia.
  - apply in_seg_tm; auto. lia.
  - apply IM0le. apply dom_tm. lia.
  - intro Z0. rewrite An. cbn [ext_le]. unfold slope_q in Z0.
    destruct (Z.eqb_spec i (-1)); [lia|]. destruct (Z.eqb_spec i (pl_len f - 1)); [lia|].
    pose proof (tm_lt f Vf i (i+1) ltac:(lia) ltac:(lia)).
    replace (Z.of_nat n) with (i+1)%Z by lia.
    assert (X : vl f (i+1) - vl f i = (vl f (i+1) - vl f i) / (tm f (i+1) - tm f i) * (tm f (i+1) - tm f i)).
    { symmetry. apply qdiv_mul. intro; qlra. }
    rewrite Z0 in X. qlra.
  - rewrite E'. cbn [bind]. apply push_break; auto; try lia.
Qed.

Lemma fold_ok n : (0 < Z.of_nat n <= pl_len f)%Z ->
  exists st, foldM (comp_step g f im0) (seq 0 n) (Z.max 0 gr, []) = Ok st /\ after (Z.of_nat n - 1) st.
Proof.
  induction n as [|n IH]; intro Hn; [lia|].
  assert (FA : forall A S (F : S -> A -> res S) l1 l2 s, foldM F (l1 ++ l2) s = (s' <- foldM F l1 s ;; foldM F l2 s')).
  { clear. intros A S F. induction l1 as [|x r IH]; intros l2 s; cbn [app foldM bind]; [reflexivity|].
    destruct (F s x); cbn [bind]; auto. }
  destruct n as [|n].
  - cbn [seq foldM]. destruct step_first as [st [E A]]. exists st. rewrite E. cbn [bind]. split; [reflexivity|exact A].
  - rewrite seq_S, FA. destruct IH as [st [E A]]; [lia|]. rewrite E. cbn [bind foldM].
    destruct (step_next (S n) st ltac:(lia) A) as [st' [E' A']]. exists st'. cbn [Nat.add]. rewrite E'. cbn [bind].
    split; [reflexivity|]. replace (Z.of_nat (S (S n)) - 1)%Z with (Z.of_nat (S n)) by lia. exact A'.
Qed.

Variable im1 : ext.
Hypothesis IM1 : match pl_hi f with
  | Fin b => im1 = Fin (pl_at f b)
  | _ => if qeqb (pl_last f) 0 then im1 = Fin (vl f (pl_len f - 1)) else im1 = PInf end.

Lemma slope_last : slope_q f (pl_len f - 1) = pl_last f.
Proof.
  pose proof (len_pos f Vf). unfold slope_q. destruct (Z.eqb_spec (pl_len f - 1) (-1)); [lia|]. rewrite Z.eqb_refl. reflexivity.
Qed.

Lemma im1_ge t : in_dom f t -> tm f (pl_len f - 1) <= t -> ext_le (Fin (pl_at f t)) im1.
Proof.
  intros [_ D2] Ht. pose proof (len_pos f Vf). destruct (pl_hi f) as [|b|] eqn:Eb; [destruct D2| |].
  - rewrite IM1. cbn [ext_le]. apply Mat. exact D2.
  - destruct (qeqbP (pl_last f) 0) as [Z0|Z0]; rewrite IM1; [|exact Logic.I].
    cbn [ext_le]. rewrite (at_right f t Vf Ht), Z0. qlra.
Qed.

Lemma compose_main :
  exists st j pts, foldM (comp_step g f im0) (seq 0 (length (pl_times f))) (Z.max 0 gr, []) = Ok st /\
    comp_while (S (length (pl_times g))) g f im0 (pl_len f - 1) im1 (fst st) (snd st) = Ok (j, pts) /\
    (-1 <= j - 1 < pl_len g)%Z /\
    let c := mkPL (rev (map fst pts)) (rev (map snd pts)) (slope_q g gr * pl_first f)
                  (slope_q g (j-1) * pl_last f) (pl_lo f) (pl_hi f) in
    valid c /\ forall t, in_dom f t -> pl_at c t = h t.
Proof.
  pose proof im1_ge as IG.
  pose proof (len_pos f Vf) as LP. pose proof (len_pos g Vg) as LPg.
  destruct (fold_ok (length (pl_times f))) as [st [E [y [r [Es [I [G Hk]]]]]]]; [unfold pl_len, zlen in *; lia|].
  replace (Z.of_nat (length (pl_times f)) - 1)%Z with (pl_len f - 1)%Z in * by (unfold pl_len, zlen; lia).
  set (l := (pl_len f - 1)%Z) in *.
  assert (Al : pl_at f (tm f l) = vl f l) by (apply at_tm; auto; lia).
  assert (Dl : in_dom f (tm f l)) by (apply dom_tm; lia).
  rewrite Es in I.
  destruct (while_ok im0 l im1 ltac:(lia)) with (fuel := S (length (pl_times g))) (j := fst st) (p := tm f l) (y := y) (r := r)
    as [j' [p' [y' [r' [E' [Q1 [Q2 [Q3 [Q4 Q5]]]]]]]]]; auto.
  { intros n H1 H2 H3 H4. specialize (H3 ltac:(lia)). unfold l in H4. rewrite slope_last in H4.
    assert (R : in_range f l n).
    { unfold in_range, l. destruct (Z.eqb_spec (pl_len f - 1) (-1)); [lia|]. rewrite Z.eqb_refl. left. fold l. qlra. }
    destruct (inverse_mono_ok f n l Vf Nf L0 ltac:(lia) R) as [x [Ex [Sx Ax]]].
    exists x. do 3 (split; [assumption|]).
    assert (Hx : tm f l <= x) by (apply Sx; lia). destruct Dl as [D1 D2].
    split; [eapply ext_le_trans; [exact D1|exact Hx]|].
    destruct (pl_hi f) as [|b|] eqn:Eb; [destruct D2| |exact Logic.I].
    rewrite IM1 in H1. cbn [ext_le] in H1 |- *. destruct (qlebP x b); [assumption|]. exfalso.
    assert (Sb : in_seg f l b) by (split; intro; [exact D2|lia]).
    pose proof (proj2 (seg_strict l b x ltac:(lia) ltac:(unfold l; rewrite slope_last; exact H4) Sb Sx) ltac:(qlra)). qlra. }
  { destruct G as [G _]. unfold pl_len, zlen in *. lia. }
  { apply in_seg_tm; auto. lia. }
  { intro Z0. unfold l in Z0. rewrite slope_last in Z0. rewrite Al. destruct Dl as [_ D2].
    destruct (pl_hi f) as [|b|] eqn:Eb; [destruct D2| |].
    - rewrite IM1. cbn [ext_le]. rewrite (at_right f b Vf D2), Z0. fold l. qlra.
    - rewrite Z0, qeqb_refl in IM1. rewrite IM1. fold l. apply ext_le_refl. }
  exists st, j', ((p', y') :: r'). split; [exact E|]. split; [rewrite Es; exact E'|].
  pose proof Q2 as [Gj [G1 G2]]. split; [lia|]. cbn zeta.
  set (c := mkPL _ _ _ _ _ _).
  pose proof Q1 as [I1 I2 I3 I4 I5]. specialize (I5 ltac:(discriminate)). destruct I5 as [I5 I6].
  set (T := map fst ((p', y') :: r')) in *.
  assert (Hne : T <> []) by (unfold T; discriminate).
  assert (Vc : valid c).
  { constructor; cbn [pl_times pl_values c].
    - rewrite !rev_length, I1, map_length. reflexivity.
    - intro En. apply Hne. rewrite <- (rev_involutive T), En. reflexivity.
    - apply SSorted_rev. exact I2.
    - intros t Ht. rewrite <- in_rev in Ht. apply I4 in Ht. exact (proj1 Ht). }
  split; [exact Vc|].
  assert (Ht0 : tm c 0 = last T 0).
  { unfold tm, nthq. cbn [pl_times c]. change (Z.to_nat 0) with 0%nat.
    destruct (exists_last Hne) as [l' [a El]]. rewrite El, last_last, rev_app_distr. reflexivity. }
  assert (Htl : tm c (pl_len c - 1) = p').
  { unfold tm at 1, pl_len. rewrite (nthq_last _ 0) by apply Vc. cbn [pl_times c].
    unfold T. cbn [map fst rev]. apply last_last. }
  intros t Dt. apply (at_unique_list c h Vc); [| | | |exact Dt].
  - cbn [pl_times pl_values c]. rewrite I1, map_rev. reflexivity.
  - cbn [pl_times c]. apply rch_chain. exact I3.
  - intros u Du Hu. rewrite Ht0 in *. cbn [pl_first c]. apply I6; [exact Du|qlra].
  - intros u Du Hu. rewrite Htl in *. cbn [pl_last c]. unfold h.
    assert (Hp' : tm f l <= p') by (apply Q3; lia).
    assert (Dp' : in_dom f p') by (apply I4; left; reflexivity).
    rewrite (at_right f u Vf) by (fold l; qlra). rewrite (at_right f p' Vf) by (fold l; qlra). fold l.
    destruct (qeqbP (pl_last f) 0) as [Z0|Z0].
    { rewrite Z0.
      replace (vl f l + (u - tm f l) * 0) with (vl f l) by ring.
      replace (vl f l + (p' - tm f l) * 0) with (vl f l) by ring. ring. }
    assert (S : forall w, in_dom f w -> p' <= w -> in_seg g (j'-1) (pl_at f w)).
    { intros w Dw Hw. pose proof (Mat _ _ Hw) as Mw. split; intro K.
      - specialize (G1 (j'-1)%Z ltac:(lia)). qlra.
      - replace (j' - 1 + 1)%Z with j' by lia. specialize (Q5 j' ltac:(lia)).
        pose proof (IG w Dw ltac:(fold l; qlra)) as Q.
        destruct (qlebP (pl_at f w) (tm g j')) as [|HN]; [assumption|]. exfalso. apply Q5.
        eapply ext_le_trans; [|exact Q]. cbn [ext_le]. qlra. }
    pose proof (at_right f u Vf ltac:(fold l; qlra)) as AU. pose proof (at_right f p' Vf ltac:(fold l; qlra)) as AP.
    fold l in AU, AP. rewrite <- AU, <- AP.
    rewrite (at_slope g (j'-1) (pl_at f u) (pl_at f p') Vg ltac:(lia) (S u Du ltac:(qlra)) (S p' Dp' ltac:(qlra))).
    rewrite AU, AP. ring.
Qed.
End Im.
End C.

(** The start assertion of the code holds when no breakpoint of g at or above
    f's least value lies before f's domain start. *)
Definition start_ok (g f : PL) : Prop :=
  match pl_lo f with
  | Fin l => forall x, In x (pl_times g) -> pl_at f l <= x -> l <= x
  | _ => True
  end.

Lemma compose_ok g f : valid g -> valid f -> mono f ->
  (forall t, in_dom f t -> in_dom g (pl_at f t)) ->
  (forall x y, kink g f x -> kink g f y -> x < y -> gap x y) -> start_ok g f ->
  exists c, compose g f = Ok c /\ valid c /\ pl_lo c = pl_lo f /\ pl_hi c = pl_hi f /\
    forall t, in_dom f t -> pl_at c t = pl_at g (pl_at f t).
Proof.
  intros Vg Vf Mf IM SEP ST. pose proof Mf as [Nf [F0 L0]].
  pose proof (len_pos f Vf) as LP. pose proof (len_pos g Vg) as LPg.
  unfold compose, image. rewrite (proj2 (is_monotone_iff f) Nf). cbn [assertb bind].
  destruct (eval_ext_lo f Vf) as [im0 [E0 H0]]. destruct (eval_ext_hi f Vf) as [im1 [E1 H1]].
  rewrite E0, E1. cbn [bind].
  assert (D0 : in_dom f (tm f 0)) by (apply (v_dom f Vf), tm_in; lia).
  assert (Dl : in_dom f (tm f (pl_len f - 1))) by (apply (v_dom f Vf), tm_in; lia).
  assert (IM0 : match im0 with
    | Fin m => exists a, in_dom f a /\ pl_at f a = m /\ (pl_first f <> 0 -> pl_lo f = Fin a)
    | NInf => pl_lo f = NInf
    | PInf => False end).
  { destruct (pl_lo f) as [|l|] eqn:El; [| |contradiction].
    - subst im0. destruct (qeqbP (pl_first f) 0) as [Z0|Z0].
      + exists (tm f 0). split; [exact D0|]. split; [apply at_tm; auto; lia|congruence].
      + unfold inf_mul. destruct (qltbP 0 (pl_first f)); [reflexivity|qlra].
    - subst im0. exists l. split; [|split; auto]. split; [rewrite El; apply ext_le_refl|].
      destruct D0 as [A1 A2]. rewrite El in A1. eapply ext_le_trans; [exact A1|exact A2]. }
  assert (IM0le : forall t, in_dom f t -> ext_le im0 (Fin (pl_at f t))).
  { intros t [T1 T2]. destruct (pl_lo f) as [|l|] eqn:El; [| |contradiction].
    - subst im0. destruct (qeqbP (pl_first f) 0) as [Z0|Z0].
      + cbn [ext_le]. destruct (qlebP t (tm f 0)) as [C|C].
        * rewrite (at_left f t Vf C), Z0. qlra.
        * rewrite <- (at_tm f 0 Vf) by lia. apply at_mono; auto. qlra.
      + unfold inf_mul. destruct (qltbP 0 (pl_first f)); [exact I|qlra].
    - subst im0. cbn [ext_le]. apply at_mono; auto. }
  assert (IM1 : match pl_hi f with
    | Fin b => im1 = Fin (pl_at f b)
    | _ => if qeqb (pl_last f) 0 then im1 = Fin (vl f (pl_len f - 1)) else im1 = PInf end).
  { destruct (pl_hi f) as [|b|] eqn:Eb.
    - destruct D0 as [_ D0]. rewrite Eb in D0. destruct D0.
    - exact H1.
    - destruct (qeqbP (pl_last f) 0); [exact H1|]. rewrite H1. unfold inf_mul.
      destruct (qltbP 0 (pl_last f)); [reflexivity|qlra]. }
  assert (B : (ext_leb (pl_lo g) (ext_add im0 eps) && ext_leb (ext_add im1 (- eps)) (pl_hi g))%bool = true).
  { apply andb_true_iff. split.
    - destruct (ext_lebP (pl_lo g) (ext_add im0 eps)) as [|C]; [reflexivity|]. exfalso. apply C. clear C.
      destruct im0 as [|m|] eqn:Em; [| |contradiction].
      + cbn [ext_add]. destruct (pl_lo g) as [|q|] eqn:Eq; [exact I| |].
        * exfalso. assert (FP : 0 < pl_first f).
          { rewrite IM0 in H0. destruct (qeqbP (pl_first f) 0); [discriminate|qlra]. }
          destruct (lin_le (vl f 0) (- pl_first f) ltac:(qlra) (q - 1)) as [X [HX HXX]].
          assert (Dx : in_dom f (tm f 0 - X)) by (apply left_dom; auto; qlra).
          destruct (IM _ Dx) as [G1 _]. rewrite Eq in G1. cbn [ext_le] in G1.
          rewrite (at_left f _ Vf) in G1 by qlra. specialize (HXX X ltac:(qlra)).
          assert ((tm f 0 - X - tm f 0) * pl_first f = X * - pl_first f) by ring. qlra.
        * destruct (IM _ D0) as [G1 _]. rewrite Eq in G1. destruct G1.
      + destruct IM0 as [a [Da [Aa _]]]. destruct (IM _ Da) as [G1 _]. rewrite Aa in G1.
        cbn [ext_add]. eapply ext_le_trans; [exact G1|]. cbn [ext_le]. qlra.
    - destruct (ext_lebP (ext_add im1 (- eps)) (pl_hi g)) as [|C]; [reflexivity|]. exfalso. apply C. clear C.
      assert (W : forall m a, in_dom f a -> pl_at f a = m -> ext_le (ext_add (Fin m) (- eps)) (pl_hi g)).
      { intros m a Da <-. destruct (IM _ Da) as [_ G2]. cbn [ext_add]. eapply ext_le_trans; [|exact G2]. cbn [ext_le]. qlra. }
      destruct (pl_hi f) as [|b|] eqn:Eb.
      + destruct D0 as [_ D0]. rewrite Eb in D0. destruct D0.
      + rewrite IM1. apply (W _ b); [|reflexivity]. split; [|rewrite Eb; apply ext_le_refl].
        destruct D0 as [A1 A2]. rewrite Eb in A2. eapply ext_le_trans; [exact A1|exact A2].
      + destruct (qeqbP (pl_last f) 0) as [Z0|Z0].
        * rewrite IM1. apply (W _ (tm f (pl_len f - 1))); auto. apply at_tm; auto; lia.
        * rewrite IM1. cbn [ext_add]. destruct (pl_hi g) as [|q|] eqn:Eq; [| |exact I].
          -- destruct (IM _ D0) as [_ G1]. rewrite Eq in G1. destruct G1.
          -- exfalso. destruct (lin_ge (vl f (pl_len f - 1)) (pl_last f) ltac:(qlra) (q + 1)) as [X [HX HXX]].
             assert (Dx : in_dom f (tm f (pl_len f - 1) + X)) by (apply right_dom; auto; qlra).
             destruct (IM _ Dx) as [_ G1]. rewrite Eq in G1. cbn [ext_le] in G1.
             rewrite (at_right f _ Vf) in G1 by qlra. specialize (HXX X ltac:(qlra)).
             assert ((tm f (pl_len f - 1) + X - tm f (pl_len f - 1)) * pl_last f = X * pl_last f) by ring. qlra. }
  rewrite B. cbn [assertb bind].
  assert (NP : im0 <> PInf) by (intro E; rewrite E in IM0; exact IM0).
  destruct (rank_ext_ok g im0 Vg NP) as [gr [Er [GR [GR1 GR2]]]]. rewrite Er. cbn [bind].
  rewrite (gradient_ok g Vg gr GR). cbn [bind].
  assert (A : (if (Z.max 0 gr =? pl_len g - 1)%Z then Ok tt
        else t <- pyget (pl_times g) (Z.max 0 gr + 1) ;; assertb (ext_leb (pl_lo f) (Fin t))) = Ok tt).
  { destruct (Z.eqb_spec (Z.max 0 gr) (pl_len g - 1)); [reflexivity|].
    rewrite (get_tm g) by lia. cbn [bind].
    assert (Q : ext_le im0 (Fin (tm g (Z.max 0 gr + 1)))).
    { eapply ext_le_trans; [apply GR2; lia|]. cbn [ext_le]. apply (tm_le g Vg); lia. }
    destruct (ext_lebP (pl_lo f) (Fin (tm g (Z.max 0 gr + 1)))) as [|C]; [reflexivity|]. exfalso. apply C. clear C.
    unfold start_ok in ST. destruct (pl_lo f) as [|l|] eqn:El; [exact I| |contradiction].
    rewrite H0 in Q. cbn [ext_le] in *. apply ST; [apply tm_in; lia|exact Q]. }
  rewrite A. cbn [bind].
  destruct (compose_main g f Vg Vf Mf IM SEP gr im0 IM0 IM0le GR GR1 GR2 im1 IM1) as [st [j [pts [X1 [X2 [X3 [X4 X5]]]]]]].
  rewrite X1. cbn [bind]. rewrite X2. cbn [bind]. rewrite (gradient_ok g Vg (j-1) X3). cbn [bind].
  eexists. split; [exact (pl_init_ok _ X4)|]. split; [exact X4|]. split; [reflexivity|]. split; [reflexivity|exact X5].
Qed.
