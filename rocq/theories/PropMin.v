(** * C14 continued: when [minimum] and [outer_minimum] are exact *)
From Verif Require Import Base Spec Arrays ArraysProofs PL PLProofs PLEval PLArith PLOps PLOps2 PLMono PL2 PLCmp PLComp PLMin PropPL.

(** [min_sep f g]: at every breakpoint of either function the two values are
    equal or more than eps apart; any two slopes (one of f, one of g) are equal
    or more than eps apart; breakpoints and crossings of the two graphs are
    pairwise more than eps apart.  [min_end f g]: at the last breakpoint P of
    the two functions, either both continue with the same slope, or one of
    them is strictly smaller and is not steeper than the other afterwards or
    has P as its own breakpoint. *)
Theorem C14_minimum_partial : forall f g lo, valid f -> valid g ->
  pl_lo f = Fin lo -> pl_lo g = Fin lo -> pl_hi f = pl_hi g -> ext_lt (Fin lo) (pl_hi f) ->
  In lo (pl_times f) \/ In lo (pl_times g) -> min_sep f g -> min_end f g ->
  exists m, minimum f g = Ok m /\ valid m /\
    forall t, pl_eval m t = lift2 qmin (pl_eval f t) (pl_eval g t).
Proof.
  intros f g lo Vf Vg Lf Lg HH ND TL SEP END.
  destruct (minimum_ok f g lo Vf Vg Lf Lg HH ND TL SEP END) as (m & E & V & L & H & A).
  exists m. split; [exact E|]. split; [exact V|]. apply lift2_eval; auto.
  - intro t. unfold in_dom. rewrite L, H, Lf, Lg, HH. tauto.
  - intros t D. apply A. unfold in_dom in *. rewrite Lf. rewrite L, H in D. exact D.
Qed.
Print Assumptions C14_minimum_partial.

Theorem C14_outer_minimum_partial : forall f g lo, valid f -> valid g ->
  pl_lo f = Fin lo -> pl_lo g = Fin lo -> pl_hi f = pl_hi g -> ext_lt (Fin lo) (pl_hi f) ->
  In lo (pl_times f) \/ In lo (pl_times g) -> min_sep f g -> min_end f g ->
  exists m, outer_minimum f g = Ok m /\ valid m /\
    forall t, pl_eval m t = lift2 qmin (pl_eval f t) (pl_eval g t).
Proof.
  intros f g lo Vf Vg Lf Lg HH ND TL SEP END.
  destruct (C14_minimum_partial f g lo Vf Vg Lf Lg HH ND TL SEP END) as (m & E & V & A).
  destruct (minimum_ok f g lo Vf Vg Lf Lg HH ND TL SEP END) as (m' & E' & _ & L & H & _).
  rewrite E in E'. apply ok_inj in E'. subst m'.
  exists m. split; [|split; [exact V|exact A]].
  unfold outer_minimum. rewrite E. cbn [bind]. rewrite L, Lf, Lg. cbn [ext_add].
  assert (X : ext_ltb (Fin lo) (Fin (lo + - eps)) = false).
  { destruct (ext_ltbP (Fin lo) (Fin (lo + - eps))) as [Q|Q]; [|reflexivity]. rewrite ext_lt_fin in Q. pose proof eps_pos. qlra. }
  rewrite X. cbn [bind]. rewrite H, <- HH.
  assert (Y : ext_ltb (ext_add (pl_hi f) eps) (pl_hi f) = false).
  { destruct (ext_ltbP (ext_add (pl_hi f) eps) (pl_hi f)) as [Q|Q]; [|reflexivity]. exfalso. apply Q.
    destruct (pl_hi f); cbn [ext_add ext_le]; auto. pose proof eps_pos. qlra. }
  rewrite Y. reflexivity.
Qed.
Print Assumptions C14_outer_minimum_partial.

(** The hypotheses can be checked by computation. *)
Definition zrange (n : Z) : list Z := map (fun k => (Z.of_nat k - 1)%Z) (seq 0 (Z.to_nat (n + 1))).
Lemma zrange_in n i : (-1 <= i < n)%Z -> In i (zrange n).
Proof. intro H. apply in_map_iff. exists (Z.to_nat (i + 1)). split; [lia|]. apply in_seq. lia. Qed.
Definition icept (f : PL) (i : Z) : Qc := vl f (Z.max i 0) - tm f (Z.max i 0) * slope_q f i.
Definition in_segb (f : PL) (i : Z) (t : Qc) : bool :=
  ((negb (0 <=? i)%Z || qleb (tm f i) t) && (negb (i <? pl_len f - 1)%Z || qleb t (tm f (i + 1))))%bool.
Definition cross_points (f g : PL) : list Qc :=
  concat (map (fun i => concat (map (fun j =>
    let s := slope_q f i - slope_q g j in
    if qeqb s 0 then [] else
    let x := (icept g j - icept f i) / s in
    if (in_segb f i x && in_segb g j x)%bool then [x] else []) (zrange (pl_len g)))) (zrange (pl_len f))).
Definition farb (a b : Qc) : bool := (qeqb a b || qltb eps (qabs (a - b)))%bool.
Definition min_sepb (f g : PL) : bool :=
  let ks := pl_times f ++ pl_times g ++ cross_points f g in
  (forallb (fun x => farb (pl_at f x) (pl_at g x)) (pl_times f ++ pl_times g) &&
   forallb (fun i => forallb (fun j => farb (slope_q f i) (slope_q g j)) (zrange (pl_len g))) (zrange (pl_len f)) &&
   forallb (fun x => forallb (fun y => negb (qltb x y) || qltb x (y - eps)) ks) ks)%bool.

Lemma at_icept f i x : valid f -> (-1 <= i < pl_len f)%Z -> in_seg f i x -> pl_at f x = icept f i + x * slope_q f i.
Proof.
  intros V Hi S. pose proof (len_pos f V). unfold icept.
  rewrite (at_slope f i x (tm f (Z.max i 0)) V Hi S).
  - rewrite at_tm by (auto; lia). ring.
  - destruct (Z.eq_dec i (-1)) as [->|N].
    + change (Z.max (-1) 0) with (-1 + 1)%Z. apply in_seg_tm1; auto. lia.
    + replace (Z.max i 0) with i by lia. apply in_seg_tm; auto. lia.
Qed.
Lemma in_segb_ok f i x : in_seg f i x -> in_segb f i x = true.
Proof.
  intros [A B]. unfold in_segb. apply andb_true_iff. split; apply orb_true_iff.
  - destruct (Z.leb_spec 0 i); [right; apply qleb_true; auto|left; reflexivity].
  - destruct (Z.ltb_spec i (pl_len f - 1)); [right; apply qleb_true; auto|left; reflexivity].
Qed.
Lemma cross_in f g x : valid f -> valid g -> crossing f g x -> In x (cross_points f g).
Proof.
  intros Vf Vg (E & i & j & Hi & Hj & Si & Sj & NE). unfold cross_points.
  apply in_concat. eexists. split; [apply in_map; apply zrange_in; exact Hi|]. cbv beta.
  apply in_concat. eexists. split; [apply in_map; apply zrange_in; exact Hj|]. cbv beta zeta.
  rewrite (at_icept f i x Vf Hi Si), (at_icept g j x Vg Hj Sj) in E.
  destruct (qeqbP (slope_q f i - slope_q g j) 0) as [Q|Q]; [exfalso; apply NE; qlra|].
  assert (X : (icept g j - icept f i) / (slope_q f i - slope_q g j) = x).
  { assert (D : icept g j - icept f i = x * (slope_q f i - slope_q g j)) by qlra. rewrite D. field. exact Q. }
  rewrite X, (in_segb_ok f i x Si), (in_segb_ok g j x Sj). left. reflexivity.
Qed.
Lemma farb_ok a b : farb a b = true -> a = b \/ eps < qabs (a - b).
Proof. unfold farb. rewrite orb_true_iff, qltb_true. destruct (qeqbP a b); intros [?|?]; auto; discriminate. Qed.
Lemma min_sepb_ok f g : valid f -> valid g -> min_sepb f g = true -> min_sep f g.
Proof.
  intros Vf Vg H. unfold min_sepb in H. rewrite !andb_true_iff in H. destruct H as [[H1 H2] H3].
  rewrite forallb_forall in H1, H2, H3. constructor.
  - intros x Hx. apply farb_ok, H1, Hx.
  - intros i j Hi Hj. apply farb_ok. specialize (H2 i (zrange_in _ _ Hi)). rewrite forallb_forall in H2. apply H2, zrange_in, Hj.
  - assert (K : forall x, min_kink f g x -> In x (pl_times f ++ pl_times g ++ cross_points f g)).
    { intros x [X|[X|X]]; apply in_or_app; [left; exact X|right; apply in_or_app; left; exact X|right; apply in_or_app; right; apply cross_in; auto]. }
    intros x y Kx Ky L. specialize (H3 x (K x Kx)). rewrite forallb_forall in H3. specialize (H3 y (K y Ky)).
    apply orb_true_iff in H3. destruct H3 as [H3|H3]; [|apply qltb_true in H3; exact H3].
    apply negb_true_iff in H3. destruct (qltbP x y); [discriminate|contradiction].
Qed.

(** f(t) = t and g = 1 up to 2, slope 2 from there on: they cross at 1 and,
    after the last breakpoint, at 3. *)
Definition c14_line : PL := mkPL [0] [0] 1 1 (Fin 0) PInf.
Definition c14_bent : PL := mkPL [0; qz 2] [1; 1] 0 (qz 2) (Fin 0) PInf.
Example C14_example : min_sep c14_line c14_bent /\ min_end c14_line c14_bent /\
  exists m, minimum c14_line c14_bent = Ok m /\ pl_times m = [0; 1; qz 2; qz 3] /\ pl_values m = [0; 1; 1; qz 3].
Proof.
  assert (Vf : valid c14_line).
  { apply (pl_init_inv [0] [0] 1 1 (Fin 0) PInf c14_line). vm_compute. reflexivity. }
  assert (Vg : valid c14_bent).
  { apply (pl_init_inv [0; qz 2] [1; 1] 0 (qz 2) (Fin 0) PInf c14_bent). vm_compute. reflexivity. }
  split; [apply min_sepb_ok; auto; vm_compute; reflexivity|]. split.
  - right. right. split; [vm_compute; reflexivity|]. right. right. left. vm_compute. reflexivity.
  - eexists. split; [vm_compute; reflexivity|]. split; vm_compute; reflexivity.
Qed.

(** [min_end] cannot be dropped, even if the last breakpoint is common: where
    the functions agree at the last breakpoint and then split, the steeper one
    may be returned.  f(t) = t and g(t) = 2 t for t >= 0. *)
Definition c14_steep : PL := mkPL [0] [0] (qz 2) (qz 2) (Fin 0) PInf.
Definition C14_tie_claim : Prop := forall f g lo m t x y, valid f -> valid g ->
  pl_lo f = Fin lo -> pl_lo g = Fin lo -> pl_hi f = PInf -> pl_hi g = PInf ->
  pl_times f = [lo] -> pl_times g = [lo] -> min_sep f g ->
  minimum f g = Ok m -> pl_eval f t = Ok x -> pl_eval g t = Ok y -> pl_eval m t = Ok (qmin x y).
Theorem C14_tie_refuted : ~ C14_tie_claim.
Proof.
  intro C.
  assert (Vf : valid c14_line).
  { apply (pl_init_inv [0] [0] 1 1 (Fin 0) PInf c14_line). vm_compute. reflexivity. }
  assert (Vg : valid c14_steep).
  { apply (pl_init_inv [0] [0] (qz 2) (qz 2) (Fin 0) PInf c14_steep). vm_compute. reflexivity. }
  assert (E : exists m, minimum c14_line c14_steep = Ok m /\ pl_eval m 1 = Ok (qz 2)).
  { eexists. split; [vm_compute; reflexivity|vm_compute; reflexivity]. }
  destruct E as [m [E1 E2]].
  assert (Q : pl_eval m 1 = Ok (qmin 1 (qz 2))).
  { apply (C c14_line c14_steep 0 m 1 1 (qz 2) Vf Vg); try reflexivity; [apply min_sepb_ok; auto; vm_compute; reflexivity|exact E1]. }
  rewrite E2 in Q. apply ok_inj in Q. vm_compute in Q. discriminate Q.
Qed.
Print Assumptions C14_tie_refuted.
