(** * Proofs: integrate (C16) *)
From Verif Require Import Base Spec Arrays ArraysProofs PL PLProofs PLEval PLArith PLOps PLMono.

(** [F] is an antiderivative of [f]: on any interval of the domain without a
    breakpoint strictly inside its increment is the trapezoid area. *)
Definition antiderivative (f : PL) (F : Qc -> Qc) : Prop :=
  forall a b ya yb, a <= b -> (forall x, In x (pl_times f) -> x <= a \/ b <= x) ->
    pl_eval f a = Ok ya -> pl_eval f b = Ok yb ->
    F b - F a = (ya + yb) / Q2Qc (2 # 1) * (b - a).

Definition trap (ya yb a b : Qc) : Qc := (ya + yb) / Q2Qc (2 # 1) * (b - a).
Lemma two_ne : Q2Qc (2 # 1) <> 0.
Proof. intro H. vm_compute in H. discriminate. Qed.

(** An explicit antiderivative, so that the specification is never vacuous. *)
Fixpoint area (s l : Qc) (pts : list (Qc * Qc)) (t : Qc) : Qc :=
  match pts with
  | [] => 0
  | (t0, v0) :: r =>
      if qleb t t0 then trap v0 (v0 + (t - t0) * s) t0 t
      else match r with
           | [] => trap v0 (v0 + (t - t0) * l) t0 t
           | (t1, v1) :: _ => trap v0 v1 t0 t1 + area ((v1 - v0) / (t1 - t0)) l r t
           end
  end.
Definition pl_area (f : PL) (t : Qc) : Qc := area (pl_first f) (pl_last f) (pts f) t.

Lemma interp_else s l t0 v0 t1 v1 r t : t0 < t1 -> t0 <= t ->
  interp s l ((t0, v0) :: (t1, v1) :: r) t = interp ((v1 - v0) / (t1 - t0)) l ((t1, v1) :: r) t.
Proof.
  intros H1 H2. cbn [interp]. destruct (qlebP t t0) as [C|C]; [|reflexivity].
  assert (t = t0) by qlra. subst t. destruct (qlebP t0 t1); [|qlra]. field. intro; qlra.
Qed.
Lemma area_else s l t0 v0 t1 v1 r t : t0 < t1 -> t0 <= t ->
  area s l ((t0, v0) :: (t1, v1) :: r) t =
  trap v0 v1 t0 t1 + area ((v1 - v0) / (t1 - t0)) l ((t1, v1) :: r) t.
Proof.
  intros H1 H2. cbn [area]. destruct (qlebP t t0) as [C|C]; [|reflexivity].
  assert (t = t0) by qlra. subst t. destruct (qlebP t0 t1); [|qlra]. unfold trap.
  field. split; [intro; qlra|]. apply two_ne.
Qed.

Lemma area_trap l : forall ps s a b, StronglySorted Qclt (map fst ps) -> ps <> [] -> a <= b ->
  (forall x, In x (map fst ps) -> x <= a \/ b <= x) ->
  area s l ps b - area s l ps a = trap (interp s l ps a) (interp s l ps b) a b.
Proof.
  induction ps as [|[t0 v0] r IH]; intros s a b S NE Hab Hx; [congruence|].
  destruct (qlebP b t0) as [Cb|Cb].
  - cbn [area interp]. destruct (qlebP b t0); [|qlra]. destruct (qlebP a t0); [|qlra].
    unfold trap. field. apply two_ne.
  - assert (Ca : t0 <= a). { destruct (Hx t0 (or_introl eq_refl)); [assumption|]. exfalso; qlra. }
    destruct r as [|[t1 v1] r].
    + cbn [area interp]. destruct (qlebP b t0); [qlra|]. destruct (qlebP a t0) as [K|K].
      * assert (a = t0) by qlra. subst a. unfold trap. field. apply two_ne.
      * unfold trap. field. apply two_ne.
    + cbn [map fst] in S. inversion S as [|? ? S1 S2]; subst.
      assert (H01 : t0 < t1) by (inversion S2; assumption).
      rewrite !area_else, !interp_else by (auto; qlra).
      rewrite <- (IH ((v1 - v0) / (t1 - t0)) a b); [ring|exact S1|discriminate|exact Hab|].
      intros x Hxx. apply Hx. right. exact Hxx.
Qed.

Lemma map_fst_combine {A B} (l1 : list A) (l2 : list B) : length l2 = length l1 ->
  map fst (combine l1 l2) = l1.
Proof. revert l2. induction l1 as [|x r IH]; intros [|y l2] H; cbn in *; try congruence. f_equal. auto. Qed.

Lemma pl_area_anti f : valid f -> antiderivative f (pl_area f).
Proof.
  intros V a b ya yb Hab Hx Ea Eb.
  destruct (eval_inv f a ya V Ea) as [_ ->]. destruct (eval_inv f b yb V Eb) as [_ ->].
  assert (M : map fst (pts f) = pl_times f) by (apply map_fst_combine; apply (v_len f V)).
  apply area_trap; rewrite ?M; auto.
  - apply gap_sorted_lt. apply (v_gap f V).
  - intro E. rewrite E in M. destruct (v_ne f V). rewrite <- M. reflexivity.
Qed.

Section I.
Variable f : PL.
Hypothesis V : valid f.
Variable F : Qc -> Qc.
Hypothesis A : antiderivative f F.

Lemma anti_at a b : in_dom f a -> in_dom f b -> a <= b ->
  (forall x, In x (pl_times f) -> x <= a \/ b <= x) ->
  F b - F a = (pl_at f a + pl_at f b) / Q2Qc (2 # 1) * (b - a).
Proof. intros Da Db Hab Hx. apply A; auto using eval_at. Qed.

Lemma anti_seg i a b : (-1 <= i < pl_len f)%Z -> in_seg f i a -> in_seg f i b -> in_dom f a -> in_dom f b ->
  F b - F a = (pl_at f a + pl_at f b) / Q2Qc (2 # 1) * (b - a).
Proof.
  assert (G : forall a b, (-1 <= i < pl_len f)%Z -> in_seg f i a -> in_seg f i b -> in_dom f a -> in_dom f b -> a <= b ->
     F b - F a = (pl_at f a + pl_at f b) / Q2Qc (2 # 1) * (b - a)).
  { clear a b. intros a b Hi [Sa _] [_ Sb] Da Db Hab. apply anti_at; auto.
    intros x Hx. destruct (in_tm f x Hx) as [j [Hj <-]].
    destruct (Z.leb_spec j i).
    - left. specialize (Sa ltac:(lia)). pose proof (tm_le f V j i ltac:(lia) ltac:(lia)). qlra.
    - right. specialize (Sb ltac:(lia)). pose proof (tm_le f V (i+1) j ltac:(lia) ltac:(lia)). qlra. }
  intros Hi Sa Sb Da Db.
  destruct (qlebP a b) as [C|C]; [apply G; auto|].
  assert (K : F a - F b = (pl_at f b + pl_at f a) / Q2Qc (2 # 1) * (a - b)) by (apply G; auto; qlra).
  replace (F b - F a) with (- (F a - F b)) by ring. rewrite K. field. apply two_ne.
Qed.

Lemma integrate_loop_ok en fuel : in_dom f en -> forall r v,
  (0 <= r < pl_len f)%Z -> (pl_len f - r < Z.of_nat fuel)%Z ->
  exists r' v', integrate_loop fuel f en r v = Ok (r', v') /\ (r <= r' < pl_len f)%Z /\
    ((r' < pl_len f - 1)%Z -> en < tm f (r'+1)) /\
    ((r < r')%Z -> tm f r' <= en) /\
    v' = v + (F (tm f r') - F (tm f r)).
Proof.
  intros De. induction fuel as [|k IH]; intros r v Hr Hf; [lia|]. cbn [integrate_loop].
  destruct (Z.ltb_spec r (pl_len f - 1)) as [C|C].
  - rewrite (get_tm f) by lia. cbn [bind]. destruct (qlebP (tm f (r+1)) en) as [D|D].
    + rewrite !(get_vl f V) by lia. cbn [bind]. rewrite (get_tm f) by lia. cbn [bind].
      destruct (IH (r+1)%Z (v + (vl f (r+1) + vl f r) / Q2Qc (2#1) * (tm f (r+1) - tm f r)) ltac:(lia) ltac:(lia))
        as [r' [v' [E [B [B1 [B2 B3]]]]]].
      exists r', v'. split; [exact E|]. split; [lia|]. split; [exact B1|]. split.
      * intro. destruct (Z.eq_dec r' (r+1)) as [->|]; [exact D|apply B2; lia].
      * rewrite B3.
        assert (K : F (tm f (r+1)) - F (tm f r) = (vl f (r+1) + vl f r) / Q2Qc (2#1) * (tm f (r+1) - tm f r)).
        { rewrite (anti_seg r (tm f r) (tm f (r+1))); [|lia|apply in_seg_tm; auto|apply in_seg_tm1; auto; lia|apply (v_dom f V), tm_in; lia|apply (v_dom f V), tm_in; lia].
          rewrite !at_tm by (auto; lia). field. apply two_ne. }
        rewrite <- K. ring.
    + exists r, v. split; [reflexivity|]. split; [lia|]. split; [intro; qlra|]. split; [intro; lia|ring].
  - exists r, v. split; [reflexivity|]. split; [lia|]. split; [lia|]. split; [intro; lia|ring].
Qed.

Lemma integrate_ok st en : in_dom f st -> in_dom f en -> st < en ->
  Forall (fun v => 0 <= v) (pl_values f) -> integrate f st en = Ok (F en - F st).
Proof.
  intros Ds De Hlt NN. pose proof (len_pos f V) as LP. unfold integrate.
  assert (B : (ext_leb (pl_lo f) (Fin st) && qltb st en && ext_leb (Fin en) (pl_hi f))%bool = true).
  { destruct Ds as [D1 _], De as [_ D2]. rewrite !andb_true_iff, qltb_true.
    destruct (ext_lebP (pl_lo f) (Fin st)); [|contradiction]. destruct (ext_lebP (Fin en) (pl_hi f)); [|contradiction]. auto. }
  rewrite B. cbn [assertb bind].
  assert (B2 : forallb (fun v => qleb 0 v) (pl_values f) = true).
  { apply forallb_forall. intros v Hv. apply qleb_true. rewrite Forall_forall in NN. auto. }
  rewrite B2. cbn [assertb bind].
  destruct (elem_lrank_ok (pl_times f) st (v_ne f V) (times_sorted f V)) as [i [Ei Ri]]. rewrite Ei. cbn [bind].
  apply is_lrank_iff in Ri. destruct Ri as [R1 [R2 R3]]. fold (pl_len f) in *. fold (tm f i) in R2. fold (tm f (i+1)) in R3.
  destruct (Z.eqb_spec i (pl_len f - 1)) as [Hl|Hl].
  - rewrite !eval_at by auto. cbn [bind]. f_equal. symmetry. apply (anti_seg i); auto; try lia.
    + split; [exact R2|lia].
    + split; [|lia]. intro. specialize (R2 H). qlra.
  - specialize (R3 ltac:(lia)).
    rewrite (get_vl f V) by lia. cbn [bind]. rewrite eval_at by auto. cbn [bind]. rewrite (get_tm f) by lia. cbn [bind].
    destruct (integrate_loop_ok en (S (length (pl_times f))) De (i+1)%Z
       (0 + (vl f (i+1) + pl_at f st) / Q2Qc (2 # 1) * (tm f (i+1) - st)) ltac:(lia) ltac:(unfold pl_len, zlen; lia))
      as [r' [v' [E [B1 [B3 [B4 B5]]]]]].
    rewrite E. cbn [bind]. rewrite eval_at by auto. cbn [bind].
    rewrite (get_vl f V), (get_tm f) by lia. cbn [bind]. f_equal. rewrite B5.
    assert (D1 : in_dom f (tm f (i+1))) by (apply (v_dom f V), tm_in; lia).
    assert (D2 : in_dom f (tm f r')) by (apply (v_dom f V), tm_in; lia).
    assert (K1 : F (tm f (i+1)) - F st = (vl f (i+1) + pl_at f st) / Q2Qc (2 # 1) * (tm f (i+1) - st)).
    { rewrite (anti_seg i st (tm f (i+1))); auto; try lia.
      - rewrite at_tm by (auto; lia). field. apply two_ne.
      - split; [exact R2|intro; qlra].
      - apply in_seg_tm1; auto; lia. }
    assert (K2 : F en - F (tm f r') = (pl_at f en + vl f r') / Q2Qc (2 # 1) * (en - tm f r')).
    { destruct (qlebP (tm f r') en) as [C|C].
      - rewrite (anti_seg r' (tm f r') en); auto; try lia.
        + rewrite at_tm by (auto; lia). field. apply two_ne.
        + apply in_seg_tm; auto; lia.
        + split; intro; [exact C|]. specialize (B3 H). qlra.
      - assert (r' = (i+1)%Z). { destruct (Z.eq_dec r' (i+1)); [assumption|]. specialize (B4 ltac:(lia)). qlra. }
        subst r'. rewrite (anti_seg i (tm f (i+1)) en); auto; try lia.
        + rewrite at_tm by (auto; lia). field. apply two_ne.
        + apply in_seg_tm1; auto; lia.
        + split; intro; [|qlra]. specialize (R2 H). qlra. }
    rewrite <- K1, <- K2. ring.
Qed.
End I.

Lemma integrate_full f st en : valid f -> Forall (fun v => 0 <= v) (pl_values f) ->
  in_dom f st -> in_dom f en -> st < en ->
  exists y, integrate f st en = Ok y /\ (forall F, antiderivative f F -> y = F en - F st) /\
    (exists F, antiderivative f F).
Proof.
  intros V NN Ds De H. exists (pl_area f en - pl_area f st). split; [|split].
  - apply integrate_ok; auto. apply pl_area_anti; auto.
  - intros F A. pose proof (integrate_ok f V F A st en Ds De H NN) as E.
    rewrite (integrate_ok f V _ (pl_area_anti f V) st en Ds De H NN) in E. apply ok_inj in E. exact E.
  - exists (pl_area f). apply pl_area_anti; auto.
Qed.

Lemma integrate_additive f a b c x y z : valid f -> Forall (fun v => 0 <= v) (pl_values f) ->
  in_dom f a -> in_dom f c -> a < b -> b < c ->
  integrate f a b = Ok x -> integrate f b c = Ok y -> integrate f a c = Ok z -> z = x + y.
Proof.
  intros V NN Da Dc H1 H2 E1 E2 E3.
  assert (Db : in_dom f b).
  { destruct Da as [D1 _], Dc as [_ D2]. split; [eapply ext_le_trans; [exact D1|]|eapply ext_le_trans; [|exact D2]]; cbn [ext_le]; qlra. }
  pose proof (pl_area_anti f V) as A.
  rewrite (integrate_ok f V _ A) in E1, E2, E3; auto; try qlra.
  apply ok_inj in E1, E2, E3. rewrite <- E1, <- E2, <- E3. ring.
Qed.
