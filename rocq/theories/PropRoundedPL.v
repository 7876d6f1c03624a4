(** * C128: sums of PiecewiseLinear functions with floating-point arithmetic *)
From Coq Require Import Qround Permutation Sorted.
From Verif Require Import Base Spec Arrays ArraysProofs PL PLProofs PLEval PLArith PLOps PLOps2 RC RCProofs FRC DynFlow DynRun PropFlow Rounded Rnd64 RoundedSpec RoundedProofs RoundedFlow PropRoundedFlow RoundedBuilder RoundedSplit RoundedRC RoundedEvalProofs PropRoundedEval PropRoundedBuilder RoundedPL Predictors PredictorsProofs.

(** ** Vocabulary *)
(** A function as the constructor accepts it: float data, increasing breakpoints in the domain. *)
Definition float_fun (rnd : Qc -> Qc) (f : PL) : Prop := float_pl rnd f /\ forall t, In t (pl_times f) -> in_dom f t.
(** The domains overlap in more than a point; the common domain. *)
Definition left_end (f g : PL) : ext := ext_max (pl_lo f) (pl_lo g).
Definition right_end (f g : PL) : ext := ext_min (pl_hi f) (pl_hi g).
Definition overlap (f g : PL) : Prop := ext_lt (left_end f g) (right_end f g).
(** Breakpoints of the operands and the finite ends of the common domain. *)
Definition points (f g : PL) : list Qc := pl_times f ++ pl_times g ++ fin_list (left_end f g) ++ fin_list (right_end f g).
(** [p] is the sum of [f] and [g], with the values at its breakpoints rounded by [rnd]. *)
Record rounded_sum (rnd : Qc -> Qc) (on : bool) (f g p : PL) : Prop := {
  rs_lo : pl_lo p = left_end f g; rs_hi : pl_hi p = right_end f g;
  rs_first : pl_first p = rnd (pl_first f + pl_first g); rs_last : pl_last p = rnd (pl_last f + pl_last g);
  rs_fun : Forall (float rnd) (fin_list (left_end f g) ++ fin_list (right_end f g)) -> float_fun rnd p;
  rs_len : length (pl_values p) = length (pl_times p); rs_inc : StronglySorted Qclt (pl_times p);
  rs_points : forall t, In t (pl_times p) -> In t (points f g) /\ in_dom p t;
  rs_values : forall i t v, nth_error (pl_times p) i = Some t -> nth_error (pl_values p) i = Some v ->
    exists a b, r_pl_eval rnd on f t = Ok a /\ r_pl_eval rnd on g t = Ok b /\ v = rnd (a + b) }.

(** ** Lemmas *)
Lemma both_dom f g t : ext_le (left_end f g) (Fin t) /\ ext_le (Fin t) (right_end f g) <-> in_dom f t /\ in_dom g t.
Proof. unfold left_end, right_end, in_dom. rewrite ext_max_le, ext_min_le. tauto. Qed.
Lemma ss_and (R Q : Qc -> Qc -> Prop) l : StronglySorted R l -> StronglySorted Q l -> StronglySorted (fun a b => R a b /\ Q a b) l.
Proof.
  induction l as [|a l IH]; intros S T; [constructor|]. inversion S as [|? ? S1 S2]; subst. inversion T as [|? ? T1 T2]; subst. constructor; [apply IH; assumption|].
  rewrite Forall_forall in *. intros x X. auto.
Qed.
Lemma ss_imp (R Q : Qc -> Qc -> Prop) l : (forall a b, R a b -> Q a b) -> StronglySorted R l -> StronglySorted Q l.
Proof. intro I. induction 1 as [|a l S IH F]; constructor; [exact IH|]. eapply Forall_impl; [|exact F]. auto. Qed.
Lemma r_plus_core rnd f g : rounding rnd -> sub_exact0 rnd -> float_fun rnd f -> float_fun rnd g -> overlap f g ->
  exists p, (forall on, rounded_sum rnd on f g p) /\
    (forall on, r_pl_plus rnd on f g = (_ <- asr on (r_gaps_ok rnd (pl_times p)) ;; Ok p)) /\
    (r_separated rnd (points f g) -> r_gaps_ok rnd (pl_times p) = true) /\
    ((forall t, In t (pl_times f ++ pl_times g) -> in_dom f t /\ in_dom g t) -> r_gaps_ok rnd (pl_times p) = true) /\
    (forall t, In t (r_merge_sorted rnd (pl_times f) (pl_times g)) -> in_dom p t -> In t (pl_times p)) /\
    (r_separated rnd (pl_times f ++ pl_times g) -> forall t, In t (pl_times f) \/ In t (pl_times g) -> in_dom p t -> In t (pl_times p)).
Proof.
  intros RND SUB [PF WF] [PG WG] OV. set (lo := left_end f g). set (hi := right_end f g).
  pose proof (fp_sorted _ _ PF) as SF. pose proof (fp_sorted _ _ PG) as SG. pose proof (fp_times _ _ PF) as TF. pose proof (fp_times _ _ PG) as TG.
  destruct (r_merge_facts rnd RND _ _ SF SG TF TG) as (M1 & M2 & M3 & M4). pose proof (r_merge_gap rnd RND _ _ SF SG TF TG) as MG.
  set (M := r_merge_sorted rnd (pl_times f) (pl_times g)) in *.
  assert (MN : M <> []). { apply M3. intro Q. apply app_eq_nil in Q. apply (fp_ne _ _ PF), Q. }
  assert (EX : exists x, In x M /\ ext_le lo (Fin x)).
  { (* the largest merged time is the largest breakpoint *)
    assert (LAST : forall x, In x (pl_times f ++ pl_times g) -> exists y, In y M /\ x <= y).
    { intros x X. unfold M, r_merge_sorted. rewrite r_merge_loop_order.
      assert (G : forall l acc, StronglySorted Qcle l -> Forall (float rnd) l -> StronglySorted rgt acc -> (forall m v, In m acc -> In v l -> m <= v) -> forall x, In x acc \/ In x l -> exists y, In y (fold_left (r_push_merged rnd) l acc) /\ x <= y).
      { clear -RND. induction l as [|v l IH]; intros acc SL FL SA H x X; cbn [fold_left]; [destruct X as [X|[]]; exists x; split; [exact X|apply Qcle_refl]|].
        inversion SL as [|? ? SL' HV]; subst. inversion FL as [|? ? FV FL']; subst. rewrite Forall_forall in HV.
        assert (LA : Forall (fun m => m <= v) acc) by (apply Forall_forall; intros m Z; apply H; [exact Z|left; reflexivity]).
        destruct (r_push_sorted rnd RND acc v SA LA FV) as (P1 & P2 & P3 & P4). rewrite Forall_forall in P4, LA.
        assert (K : forall m w, In m (r_push_merged rnd acc v) -> In w l -> m <= w) by (intros m w Z W; specialize (P4 m Z); specialize (HV w W); qlra).
        destruct X as [X|[->|X]]; [|apply (IH _ SL' FL' P1 K); left; exact P3|apply (IH _ SL' FL' P1 K); right; exact X].
        destruct (IH _ SL' FL' P1 K v (or_introl P3)) as (y & Y1 & Y2). exists y. split; [exact Y1|]. specialize (LA x X). qlra. }
      destruct (G (morder (pl_times f) (pl_times g)) []) with (x := x) as (y & Y1 & Y2).
      - apply morder_sorted; apply lt_sorted_le; assumption.
      - apply (Permutation_Forall (morder_perm _ _)). apply Forall_app. auto.
      - constructor.
      - intros m v [].
      - right. apply (Permutation_in _ (morder_perm _ _)). exact X.
      - exists y. split; [apply in_rev; rewrite rev_involutive; exact Y1|exact Y2]. }
    assert (B : exists x, In x (pl_times f ++ pl_times g) /\ ext_le lo (Fin x)).
    { unfold lo, left_end. destruct (ext_max_or (pl_lo f) (pl_lo g)) as [-> | ->].
      - exists (hd 0 (pl_times f)). pose proof (hd_In _ (fp_ne _ _ PF)) as X. split; [apply in_app_iff; auto|apply WF, X].
      - exists (hd 0 (pl_times g)). pose proof (hd_In _ (fp_ne _ _ PG)) as X. split; [apply in_app_iff; auto|apply WG, X]. }
    destruct B as (x & X & LX). destruct (LAST x X) as (y & Y & LY). exists y. split; [exact Y|]. apply ext_le_trans with (Fin x); [exact LX|exact LY]. }
  destruct (rcuts_ok Qclt M lo hi (fun a b H => H) MN M1 OV EX (fun x y _ _ H => H)) as (T & E & N & S & A & B).
  assert (DT : forall t, In t T -> in_dom f t /\ in_dom g t) by (intros t X; apply both_dom; destruct (A t X) as (? & ? & _); auto).
  assert (EV : exists vs, (forall on, mapM (fun phi => a <- r_pl_eval rnd on f phi ;; b <- r_pl_eval rnd on g phi ;; Ok (rnd (a + b))) T = Ok vs) /\ length vs = length T /\ Forall (float rnd) vs /\
    forall i t v, nth_error T i = Some t -> nth_error vs i = Some v -> forall on, exists a b, r_pl_eval rnd on f t = Ok a /\ r_pl_eval rnd on g t = Ok b /\ v = rnd (a + b)).
  { clear - DT PF PG RND SUB. induction T as [|t T IH]; [exists []; split; [reflexivity|]; split; [reflexivity|]; split; [constructor|]; intros [|i] ? ? Q; discriminate Q|].
    destruct IH as (vs & V1 & V2 & V3 & V4); [intros x X; apply DT; right; exact X|]. destruct (DT t (or_introl eq_refl)) as [Df Dg].
    destruct (C122_total rnd f t RND SUB PF) as [TF _]. destruct (TF Df) as (a & EA & _). destruct (C122_total rnd g t RND SUB PG) as [TG _]. destruct (TG Dg) as (b & EB & _).
    exists (rnd (a + b) :: vs). split; [intro on; cbn [mapM]; rewrite EA, EB; cbn [bind]; rewrite V1; reflexivity|]. split; [cbn [length]; lia|]. split; [constructor; [apply (rnd_idem rnd RND)|exact V3]|].
    intros [|i] t' v' Q1 Q2 on; cbn [nth_error] in Q1, Q2; [injection Q1 as <-; injection Q2 as <-; eauto|apply (V4 i t' v' Q1 Q2)]. }
  destruct EV as (vs & V1 & V2 & V3 & V4).
  set (p := mkPL T vs (rnd (pl_first f + pl_first g)) (rnd (pl_last f + pl_last g)) lo hi).
  assert (DP : forall t, In t T -> in_dom p t) by (intros t X; destruct (A t X) as (? & ? & _); split; assumption).
  exists p. split; [|split; [|split; [|split; [|split]]]].
  - intro on. constructor; try reflexivity; cbn [p pl_times pl_values]; auto.
    + intro FL. split; [|exact DP]. constructor; cbn [p pl_times pl_values pl_first pl_last]; auto; try apply (rnd_idem rnd RND).
      apply Forall_forall. intros t X. destruct (A t X) as (_ & _ & [Y|[Y|Y]]).
      * apply M2 in Y. rewrite Forall_forall in TF, TG. apply in_app_iff in Y. destruct Y as [Y|Y]; auto.
      * rewrite Forall_forall in FL. apply FL, in_app_iff. left. fold lo. rewrite Y. left. reflexivity.
      * rewrite Forall_forall in FL. apply FL, in_app_iff. right. fold hi. rewrite Y. left. reflexivity.
    + intros t X. split; [|exact (DP t X)]. unfold points. fold lo hi. rewrite !in_app_iff. destruct (A t X) as (_ & _ & [Y|[-> | ->]]); [apply M2, in_app_iff in Y; tauto|right; right; left; left; reflexivity|right; right; right; left; reflexivity].
    + intros i t v Q1 Q2. apply (V4 i t v Q1 Q2).
  - intro on. unfold r_pl_plus. cbv zeta. fold (left_end f g) (right_end f g). fold lo hi M. destruct (ext_ltbP lo hi) as [_|X]; [|contradiction]. replace (asr on true) with (@Ok unit tt) by (destruct on; reflexivity). cbn [bind].
    destruct (cut_lo M lo) as [T1|x] eqn:C; cbn [bind] in E |- *; [|discriminate E]. fold lo hi. rewrite E. cbn [bind]. rewrite V1. cbn [bind]. unfold r_pl_init. destruct on; [|reflexivity]. cbn [asr].
    replace ((zlen vs =? zlen T)%Z && (1 <=? zlen T)%Z)%bool with true.
    2:{ symmetry. apply andb_true_iff. unfold zlen. split; [apply Z.eqb_eq; lia|apply Z.leb_le]. destruct T; [congruence|cbn [length]; lia]. }
    cbn [assertb bind]. replace (forallb _ T) with true; [reflexivity|]. symmetry. apply forallb_forall. intros t X. apply (bool_dom p t), DP, X.
  - intro SEP. cbn [p pl_times].
    assert (MS : StronglySorted (fun a b => a < b /\ rgap rnd a b) M) by (apply ss_and; assumption).
    destruct (rcuts_ok _ M lo hi (fun a b H => proj1 H) MN MS OV EX) as (T' & E' & _ & S' & _).
    { intros x y X Y L. split; [exact L|]. assert (Q : forall z, In z (M ++ fin_list lo ++ fin_list hi) -> In z (points f g)).
      { intros z Z. unfold points. fold lo hi. rewrite !in_app_iff in *. destruct Z as [Z|[Z|Z]]; auto. apply M2, in_app_iff in Z. tauto. }
      apply SEP; auto. }
    rewrite E in E'. apply ok_inj in E'. subst T'. apply gaps_ok_sorted. eapply ss_imp; [|exact S']. intros a b [_ H]. exact H.
  - intro IN. cbn [p pl_times].
    assert (MD : forall x, In x M -> ext_le lo (Fin x) /\ ext_le (Fin x) hi) by (intros x X; apply both_dom, IN, M2, X).
    rewrite cut_lo_id in E by (auto; intros x X; apply MD, X). cbn [bind] in E. rewrite cut_hi_id in E by (auto; intros x X; apply MD, X). apply ok_inj in E. subst T.
    apply gaps_ok_sorted, MG.
  - intros t X [D1 D2]. cbn [p pl_times]. apply B; assumption.
  - intros SEP t X [D1 D2]. cbn [p pl_times]. apply B; [apply (M4 SEP), in_app_iff, X|exact D1|exact D2].
Qed.
(** Changing the sign commutes with rounding. *)
Definition symmetric (rnd : Qc -> Qc) : Prop := forall x, rnd (- x) = - rnd x.
Definition neg_of (f : PL) : PL := mkPL (pl_times f) (map Qcopp (pl_values f)) (- pl_first f) (- pl_last f) (pl_lo f) (pl_hi f).
Lemma neg_fun rnd f : symmetric rnd -> float_fun rnd f -> float_fun rnd (neg_of f).
Proof.
  intros SY [[L N SO FT FV F1 F2] W]. unfold float in *. split; [|exact W]. constructor; cbn [neg_of pl_times pl_values pl_first pl_last]; auto; unfold float in *; try (rewrite SY; congruence).
  - rewrite map_length. exact L.
  - apply Forall_forall. intros x X. apply in_map_iff in X. destruct X as [y [<- Y]]. rewrite Forall_forall in FV. rewrite SY, (FV y Y). reflexivity.
Qed.
Lemma neg_vl f i : vl (neg_of f) i = - vl f i.
Proof. unfold vl, nthq. cbn [neg_of pl_values]. replace 0 with (- 0) at 1 by ring. apply map_nth. Qed.
Lemma neg_gr rnd f i : symmetric rnd -> gr (neg_of f) rnd i = - gr f rnd i.
Proof.
  intro SY. unfold gr. change (pl_len (neg_of f)) with (pl_len f). destruct (i =? -1)%Z; [reflexivity|]. destruct (i =? pl_len f - 1)%Z; [reflexivity|].
  rewrite !neg_vl. change (tm (neg_of f)) with (tm f). replace (- vl f (i + 1) - - vl f i) with (- (vl f (i + 1) - vl f i)) by ring. rewrite SY. match goal with |- rnd (- ?a / ?b) = _ => replace (- a / b) with (- (a / b)) by (unfold Qcdiv; ring) end. apply SY.
Qed.
Lemma neg_seg rnd f i t : symmetric rnd -> rseg (neg_of f) rnd i t = - rseg f rnd i t.
Proof.
  intro SY. unfold rseg. rewrite neg_vl, neg_gr by exact SY. change (tm (neg_of f)) with (tm f). rewrite <- SY. f_equal.
  replace (rnd (t - tm f (anc i)) * - gr f rnd i) with (- (rnd (t - tm f (anc i)) * gr f rnd i)) by ring. rewrite SY. ring.
Qed.
Lemma neg_eval rnd on f t : rounding rnd -> sub_exact0 rnd -> symmetric rnd -> float_fun rnd f -> in_dom f t ->
  exists y, r_pl_eval rnd on f t = Ok y /\ r_pl_eval rnd on (neg_of f) t = Ok (- y).
Proof.
  intros RND SUB SY FF D. pose proof (neg_fun rnd f SY FF) as FN. destruct FF as [[L N SO FT FV F1 F2] _]. destruct FN as [[L' N' SO' FT' FV' F1' F2'] _].
  destruct (rank_ex f t N SO) as [i IR]. exists (rseg f rnd i t). split; [apply e_eval; auto|]. rewrite <- neg_seg by exact SY. apply e_eval; auto.
Qed.
Lemma neg_ok rnd on f : float_fun rnd f -> (on = true -> r_gaps_ok rnd (pl_times f) = true) -> r_pl_neg rnd on f = Ok (neg_of f).
Proof.
  intros [[L N _ _ _ _ _] W] G. unfold r_pl_neg, r_pl_init, asr. destruct on; [|reflexivity].
  replace ((zlen (map Qcopp (pl_values f)) =? zlen (pl_times f))%Z && (1 <=? zlen (pl_times f))%Z)%bool with true.
  2:{ symmetry. apply andb_true_iff. unfold zlen. rewrite map_length. split; [apply Z.eqb_eq; lia|apply Z.leb_le]. destruct (pl_times f); [congruence|cbn [length]; lia]. }
  cbn [assertb bind]. replace (forallb _ (pl_times f)) with true by (symmetry; apply forallb_forall; intros t X; apply (bool_dom f t), W, X). cbn [assertb bind]. rewrite (G eq_refl). reflexivity.
Qed.
(** [p] is [f - g], with the values at its breakpoints rounded by [rnd]. *)
Record rounded_difference (rnd : Qc -> Qc) (on : bool) (f g p : PL) : Prop := {
  rd_lo : pl_lo p = left_end f g; rd_hi : pl_hi p = right_end f g;
  rd_first : pl_first p = rnd (pl_first f - pl_first g); rd_last : pl_last p = rnd (pl_last f - pl_last g);
  rd_fun : Forall (float rnd) (fin_list (left_end f g) ++ fin_list (right_end f g)) -> float_fun rnd p;
  rd_len : length (pl_values p) = length (pl_times p); rd_inc : StronglySorted Qclt (pl_times p);
  rd_points : forall t, In t (pl_times p) -> In t (points f g) /\ in_dom p t;
  rd_values : forall i t v, nth_error (pl_times p) i = Some t -> nth_error (pl_values p) i = Some v ->
    exists a b, r_pl_eval rnd on f t = Ok a /\ r_pl_eval rnd on g t = Ok b /\ v = rnd (a - b) }.
Lemma neg_points f g : points f (neg_of g) = points f g.
Proof. reflexivity. Qed.

(** ** C128 *)
(** Adding never raises with assertions off; with assertions on the same sum is returned or the assertion
    on the distances of the breakpoints fails, which it does not if no breakpoint is cut off or if all
    breakpoints and domain ends are told apart by the comparison with eps. *)
Theorem C128_plus : forall rnd f g, rounding rnd -> sub_exact0 rnd -> float_fun rnd f -> float_fun rnd g -> overlap f g ->
  exists p, r_pl_plus rnd false f g = Ok p /\ (forall on, rounded_sum rnd on f g p) /\
    (r_pl_plus rnd true f g = Ok p \/ r_pl_plus rnd true f g = Err AssertionError) /\
    ((forall t, In t (pl_times f ++ pl_times g) -> in_dom f t /\ in_dom g t) \/ r_separated rnd (points f g) -> r_pl_plus rnd true f g = Ok p) /\
    (r_separated rnd (pl_times f ++ pl_times g) -> forall t, In t (pl_times f) \/ In t (pl_times g) -> in_dom p t -> In t (pl_times p)).
Proof.
  intros rnd f g RND SUB FF FG OV. destruct (r_plus_core rnd f g RND SUB FF FG OV) as (p & A & B & C & D & _ & E). exists p. split; [exact (B false)|]. split; [exact A|]. split; [|split; [|exact E]].
  - rewrite (B true). cbn [asr]. destruct (r_gaps_ok rnd (pl_times p)); [left|right]; reflexivity.
  - intros [H|H]; rewrite (B true); cbn [asr]; [rewrite (D H)|rewrite (C H)]; reflexivity.
Qed.
Print Assumptions C128_plus.
(** Functions whose domains do not overlap: the assertion fails. *)
Theorem C128_disjoint : forall rnd f g, ~ overlap f g -> r_pl_plus rnd true f g = Err AssertionError.
Proof. intros rnd f g N. unfold r_pl_plus. cbv zeta. fold (left_end f g) (right_end f g). destruct (ext_ltbP (left_end f g) (right_end f g)) as [L|L]; [contradiction|reflexivity]. Qed.
Print Assumptions C128_disjoint.
(** Subtraction, if rounding is symmetric. *)
Theorem C128_sub : forall rnd f g, rounding rnd -> sub_exact0 rnd -> symmetric rnd -> float_fun rnd f -> float_fun rnd g -> r_gaps_ok rnd (pl_times g) = true -> overlap f g ->
  exists p, r_pl_sub rnd false f g = Ok p /\ (forall on, rounded_difference rnd on f g p) /\
    (r_pl_sub rnd true f g = Ok p \/ r_pl_sub rnd true f g = Err AssertionError) /\
    ((forall t, In t (pl_times f ++ pl_times g) -> in_dom f t /\ in_dom g t) \/ r_separated rnd (points f g) -> r_pl_sub rnd true f g = Ok p).
Proof.
  intros rnd f g RND SUB SY FF FG GG OV. destruct (C128_plus rnd f (neg_of g) RND SUB FF (neg_fun rnd g SY FG) OV) as (p & A & B & C & D & _).
  unfold r_pl_sub. rewrite !(neg_ok rnd _ g FG) by auto. cbn [bind]. exists p. split; [exact A|]. split; [|split; [exact C|exact D]].
  intro on. destruct (B on) as [B1 B2 B3 B4 B5 B6 B7 B8 B9]. constructor; auto. intros i t v Q1 Q2. destruct (B9 i t v Q1 Q2) as (a & b & EA & EB & ->).
  assert (DG : in_dom g t). { destruct (B8 t (nth_error_In _ _ Q1)) as [_ [X Y]]. rewrite B1 in X. rewrite B2 in Y. apply (proj1 (both_dom f (neg_of g) t) (conj X Y)). }
  destruct (neg_eval rnd on g t RND SUB SY FG DG) as (y & E1 & E2). rewrite E2 in EB. apply ok_inj in EB. subst b. exists a, y. auto.
Qed.
Print Assumptions C128_sub.

(** ** binary64 *)
Lemma qabs_opp x : qabs (- x) = qabs x.
Proof.
  unfold qabs. destruct (qltbP (- x) 0) as [A|A], (qltbP x 0) as [B|B]; try (exfalso; qlra); try ring.
  assert (x = 0) as -> by (apply Qcle_antisym; qlra). ring.
Qed.
Lemma nearest_opp x : nearest_even (- x) = (- nearest_even x)%Z.
Proof.
  destruct (floor_spec x) as [F1 F2], (floor_spec (- x)) as [G1 G2]. unfold nearest_even. cbv zeta. set (f := Qfloor (this x)) in *. set (g := Qfloor (this (- x))) in *.
  assert (ONE : qz 1 = 1) by (apply Qc_is_canon; reflexivity). rewrite qz_add, ONE in F2, G2. fold half. pose proof half2 as H2.
  destruct (Qc_eq_dec x (qz f)) as [X|X].
  - assert (Gf : g = (- f)%Z).
    { assert (g < - f + 1)%Z; [|assert (- f < g + 1)%Z; [|lia]]; apply qz_lt; rewrite !qz_add, !qz_opp, ONE; qlra. }
    rewrite Gf, qz_opp. destruct (qltbP (x - qz f) half) as [A|A]; [|exfalso; apply A; qlra]. destruct (qltbP (- x - - qz f) half) as [B|B]; [|exfalso; apply B; qlra]. reflexivity.
  - assert (X' : qz f < x) by (apply Qcnot_le_lt; intro; apply X; apply Qcle_antisym; assumption).
    assert (Gf : g = (- f - 1)%Z).
    { assert (g < - f)%Z; [|assert (- f - 1 < g + 1)%Z; [|lia]]; apply qz_lt; unfold Z.sub; rewrite ?qz_add, ?qz_opp, ?ONE; qlra. }
    rewrite Gf. unfold Z.sub. rewrite !qz_add, !qz_opp, ONE.
    destruct (qltbP (x - qz f) half) as [A|A]; destruct (qltbP (- x - (- qz f + - (1))) half) as [B|B]; [exfalso; qlra| | |].
    + destruct (qltbP half (- x - (- qz f + - (1)))) as [C|C]; [lia|exfalso; apply C; qlra].
    + destruct (qltbP half (x - qz f)) as [C|C]; [lia|exfalso; apply C; qlra].
    + destruct (qltbP half (x - qz f)) as [C|C]; [exfalso; apply B; qlra|]. destruct (qltbP half (- x - (- qz f + - (1)))) as [D|D]; [exfalso; apply A; qlra|].
      rewrite Z.even_add, Z.even_opp. destruct (Z.even f); cbn; lia.
Qed.
Theorem C128_binary64 : rounding rnd64 /\ sub_exact0 rnd64 /\ symmetric rnd64.
Proof.
  destruct C118_binary64 as [A B]. split; [exact A|]. split; [exact B|]. intro x. unfold rnd64.
  assert (E : ulp_exp (- x) = ulp_exp x) by (unfold ulp_exp, qexp; rewrite qabs_opp; reflexivity). rewrite E.
  replace (- x / pow2 (ulp_exp x)) with (- (x / pow2 (ulp_exp x))) by (unfold Qcdiv; ring). rewrite nearest_opp, qz_opp. ring.
Qed.
Print Assumptions C128_binary64.

(** ** Edge loads *)
(** An accumulated flow: float data on [[0, oo)], 0 at time 0. *)
Record cumulative (rnd : Qc -> Qc) (f : PL) : Prop := {
  cu_fun : float_fun rnd f; cu_lo : pl_lo f = Fin 0; cu_hi : pl_hi f = PInf;
  cu_t0 : hd 0 (pl_times f) = 0; cu_v0 : hd 0 (pl_values f) = 0; cu_first : pl_first f = 0 }.
Lemma first_eval rnd on f t : rounding rnd -> sub_exact0 rnd -> float_pl rnd f -> pl_first f = 0 -> t <= hd 0 (pl_times f) -> (on = true -> in_dom f t) ->
  r_pl_eval rnd on f t = Ok (hd 0 (pl_values f)).
Proof.
  intros RND SUB [L N SO FT FV F1 F2] Z T D.
  assert (E0 : nthq (pl_times f) 0 = hd 0 (pl_times f)) by (unfold nthq; destruct (pl_times f); reflexivity).
  assert (V0 : vl f 0 = hd 0 (pl_values f)) by (unfold vl, nthq; destruct (pl_values f); reflexivity).
  assert (IR : is_rank (pl_times f) t (-1)).
  { apply is_rank_iff. unfold zlen. split; [lia|]. split; [lia|]. intros _. change (-1 + 1)%Z with 0%Z. rewrite E0. exact T. }
  assert (EE : r_pl_eval rnd on f t = Ok (rseg f rnd (-1) t)) by (apply e_eval; auto). rewrite EE. f_equal. unfold rseg, gr, anc. cbn [Z.eqb Z.max Z.compare Pos.eqb]. change (Z.max (-1) 0) with 0%Z. rewrite Z, V0.
  replace (rnd (t - tm f 0) * 0) with 0 by ring. rewrite (rnd_0 rnd RND). replace (hd 0 (pl_values f) + 0) with (hd 0 (pl_values f)) by ring.
  rewrite Forall_forall in FV. apply FV, hd_In. intro Q. rewrite Q in L. destruct (pl_times f); [congruence|discriminate].
Qed.
(** Time 0 survives the merging. *)
Lemma merge_0 rnd : rounding rnd -> forall l acc, Forall (fun v => v = 0 \/ rgap rnd 0 v) l -> (forall x, In x acc -> x = 0 \/ rgap rnd 0 x) -> acc <> [] -> In 0 acc ->
  In 0 (fold_left (r_push_merged rnd) l acc).
Proof.
  intro RND. induction l as [|v l IH]; intros acc F A N Z; cbn [fold_left]; [exact Z|]. inversion F as [|? ? FV FL]; subst.
  assert (G : forall acc', In 0 acc' -> (forall x, In x acc' -> x = v \/ In x acc) -> In 0 (fold_left (r_push_merged rnd) l acc')).
  { intros acc' Z' A'. apply IH; auto; [intros x X; destruct (A' x X) as [-> |Y]; [exact FV|exact (A x Y)]|intro Q; rewrite Q in Z'; destruct Z']. }
  unfold r_push_merged. destruct acc as [|m r]; [congruence|]. destruct (qltbP m (rnd (v - r_eps rnd))) as [L|L].
  - apply G; [right; exact Z|intros x [<-|X]; auto].
  - destruct (_ && _)%bool eqn:C; [|apply G; [exact Z|auto]]. apply andb_true_iff in C. destruct C as [_ C]. apply qltb_true in C.
    apply G; [|intros x [<-|X]; [left; reflexivity|right; right; exact X]].
    destruct Z as [->|Z]; [|right; exact Z]. destruct FV as [->|FV]; [left; reflexivity|]. exfalso. apply L. exact FV.
Qed.
Lemma gaps_0 rnd l : rounding rnd -> l <> [] -> hd 0 l = 0 -> StronglySorted Qclt l -> r_gaps_ok rnd l = true -> Forall (fun v => v = 0 \/ rgap rnd 0 v) l.
Proof.
  intros RND N H S G. destruct l as [|a l]; [congruence|]. cbn [hd] in H. subst a. constructor; [left; reflexivity|]. destruct l as [|b l]; [constructor|].
  cbn [r_gaps_ok] in G. apply andb_true_iff in G. destruct G as [G _]. apply qltb_true in G. inversion S as [|? ? S1 _]; subst. inversion S1 as [|? ? _ S2]; subst. rewrite Forall_forall in S2.
  apply Forall_forall. intros c [<-|C]; right; unfold rgap; [exact G|]. apply Qclt_le_trans with (rnd (b - r_eps rnd)); [exact G|]. apply (rnd_mono rnd RND). specialize (S2 c C). qlra.
Qed.
(** Nothing raises; the load is 0 until time 0, its breakpoints are breakpoints of the
    two accumulated flows (all of them, if they are told apart) and its values there
    the rounded differences. *)
Theorem C128_edge_load : forall rnd a b, rounding rnd -> sub_exact0 rnd -> symmetric rnd -> 0 < r_eps rnd -> cumulative rnd (c_acc a) -> cumulative rnd (c_acc b) ->
  r_gaps_ok rnd (pl_times (c_acc a)) = true -> r_gaps_ok rnd (pl_times (c_acc b)) = true ->
  exists l, (forall on, r_edge_load rnd on a b = Ok l) /\ float_fun rnd l /\ pl_lo l = NInf /\ pl_hi l = PInf /\ pl_last l = rnd (pl_last (c_acc a) - pl_last (c_acc b)) /\
    (forall on t, t <= 0 -> r_pl_eval rnd on l t = Ok 0) /\
    (forall t, In t (pl_times l) -> In t (pl_times (c_acc a)) \/ In t (pl_times (c_acc b))) /\
    (r_separated rnd (pl_times (c_acc a) ++ pl_times (c_acc b)) -> forall t, In t (pl_times (c_acc a)) \/ In t (pl_times (c_acc b)) -> In t (pl_times l)) /\
    forall on i t v, nth_error (pl_times l) i = Some t -> nth_error (pl_values l) i = Some v ->
      exists x y, r_pl_eval rnd on (c_acc a) t = Ok x /\ r_pl_eval rnd on (c_acc b) t = Ok y /\ v = rnd (x - y).
Proof.
  intros rnd a b RND SUB SY EP [AF AL AH AT AV A1] [BF BL BH BT BV B1] GA GG. set (f := c_acc a) in *. set (g := c_acc b) in *.
  assert (LE : left_end f g = Fin 0) by (unfold left_end; rewrite AL, BL; reflexivity).
  assert (RE : right_end f g = PInf) by (unfold right_end; rewrite AH, BH; reflexivity).
  assert (OV : overlap f g) by (unfold overlap; rewrite LE, RE; intro H; exact H).
  assert (DOM : forall t, In t (pl_times f ++ pl_times g) -> in_dom f t /\ in_dom g t).
  { intros t X. apply both_dom. rewrite LE, RE. split; [|exact I]. apply in_app_iff in X. destruct AF as [_ WA], BF as [_ WB].
    destruct X as [X|X]; [destruct (WA t X) as [D _]; rewrite AL in D; exact D|destruct (WB t X) as [D _]; rewrite BL in D; exact D]. }
  destruct (C128_sub rnd f g RND SUB SY AF BF GG OV) as (p & E1 & R & _ & E2). specialize (E2 (or_introl DOM)).
  assert (KEEP : In 0 (pl_times p) /\ (r_separated rnd (pl_times f ++ pl_times g) -> forall t, In t (pl_times f) \/ In t (pl_times g) -> In t (pl_times p))).
  { destruct (r_plus_core rnd f (neg_of g) RND SUB AF (neg_fun rnd g SY BF) OV) as (p' & Q2 & Q1 & _ & _ & K0 & K). specialize (Q1 false). cbn [asr bind] in Q1.
    unfold r_pl_sub in E1. rewrite (neg_ok rnd false g BF) in E1 by discriminate. cbn [bind] in E1. rewrite E1 in Q1. apply ok_inj in Q1. subst p'.
    assert (DP : forall t, In t (pl_times f) \/ In t (pl_times g) -> in_dom p t).
    { intros t X. destruct (Q2 true) as [W1 W2 _ _ _ _ _ _ _]. unfold in_dom. rewrite W1, W2. apply both_dom. apply DOM, in_app_iff, X. }
    pose proof (fp_ne _ _ (proj1 AF)) as NF. pose proof (fp_ne _ _ (proj1 BF)) as NG. assert (Z0 : In 0 (pl_times f)) by (rewrite <- AT at 1; apply hd_In, NF).
    split; [|intros SEP t X; apply (K SEP t X), DP, X]. apply K0; [|apply DP; left; exact Z0]. change (pl_times (neg_of g)) with (pl_times g). unfold r_merge_sorted. rewrite r_merge_loop_order. apply in_rev. rewrite rev_involutive.
    pose proof (gaps_0 rnd _ RND NF AT (fp_sorted _ _ (proj1 AF)) GA) as G1. pose proof (gaps_0 rnd _ RND NG BT (fp_sorted _ _ (proj1 BF)) GG) as G2.
    assert (G : Forall (fun v => v = 0 \/ rgap rnd 0 v) (morder (pl_times f) (pl_times g))) by (apply (Permutation_Forall (morder_perm _ _)), Forall_app; auto).
    assert (S : StronglySorted Qcle (morder (pl_times f) (pl_times g))) by (apply morder_sorted; apply lt_sorted_le; [apply (fp_sorted _ _ (proj1 AF))|apply (fp_sorted _ _ (proj1 BF))]).
    assert (Z : In 0 (morder (pl_times f) (pl_times g))) by (apply (Permutation_in _ (morder_perm _ _)), in_app_iff; left; exact Z0).
    destruct (morder (pl_times f) (pl_times g)) as [|v l]; [destruct Z|]. inversion G as [|? ? GV GL]; subst. inversion S as [|? ? _ SV]; subst. rewrite Forall_forall in SV.
    assert (V0 : v = 0).
    { destruct GV as [V|V]; [exact V|]. exfalso. assert (LV : v <= 0) by (destruct Z as [<-|Z]; [apply Qcle_refl|apply SV, Z]). unfold rgap in V.
      assert (M : rnd (v - r_eps rnd) <= rnd 0) by (apply (rnd_mono rnd RND); qlra). rewrite (rnd_0 rnd RND) in M. qlra. }
    subst v. cbn [fold_left r_push_merged]. apply merge_0; auto; [intros x [<-|[]]; left; reflexivity|discriminate|left; reflexivity]. }
  destruct KEEP as [Z0 KEEP].
  pose proof (R true) as R0. destruct R0 as [P1 P2 P3 P4 P5 P6 P7 P8 P9].
  assert (FP : float_fun rnd p) by (apply P5; rewrite LE, RE; constructor; [apply (rnd_0 rnd RND)|constructor]).
  pose proof FP as FPF. destruct FPF as [[L N SO FT FV F1 F2] WP].
  assert (PT : hd 0 (pl_times p) = 0).
  { assert (G : 0 <= hd 0 (pl_times p)) by (destruct (WP _ (hd_In _ N)) as [D _]; rewrite P1, LE in D; exact D).
    assert (M : hd 0 (pl_times p) <= 0) by (apply hd_min; [clear - SO; induction SO as [|x l S IH H]; constructor; auto; eapply Forall_impl; [|exact H]; intros; cbn in *; qlra|exact Z0]).
    apply Qcle_antisym; assumption. }
  assert (PV : hd 0 (pl_values p) = 0).
  { destruct (pl_times p) as [|t0 ts] eqn:ET; [congruence|]. destruct (pl_values p) as [|v0 vs] eqn:EV; [discriminate L|]. cbn [hd] in *. subst t0.
    destruct (P9 0%nat 0 v0 eq_refl eq_refl) as (x & y & X & Y & ->).
    destruct (DOM 0) as [D1 D2]; [apply in_app_iff; left; rewrite <- AT at 1; apply hd_In, (fp_ne _ _ (proj1 AF))|].
    rewrite (first_eval rnd true f 0 RND SUB (proj1 AF) A1) in X by (try rewrite AT; auto; apply Qcle_refl). rewrite (first_eval rnd true g 0 RND SUB (proj1 BF) B1) in Y by (try rewrite BT; auto; apply Qcle_refl).
    apply ok_inj in X. apply ok_inj in Y. subst x y. rewrite AV, BV. replace (0 - 0) with 0 by ring. apply (rnd_0 rnd RND). }
  assert (P0 : pl_first p = 0) by (rewrite P3, A1, B1; replace (0 - 0) with 0 by ring; apply (rnd_0 rnd RND)).
  set (l := mkPL (pl_times p) (pl_values p) 0 (pl_last p) NInf PInf).
  assert (FL : float_fun rnd l).
  { split; [|intros t _; split; exact I]. constructor; auto. cbn [l pl_first]. apply (rnd_0 rnd RND). }
  exists l. split; [|split; [exact FL|split; [reflexivity|split; [reflexivity|split; [exact P4|split; [|split; [|split]]]]]]].
  - intro on. unfold r_edge_load. fold f g. assert (E : r_pl_sub rnd on f g = Ok p) by (destruct on; assumption). rewrite E. cbn [bind].
    assert (NV : pl_values p <> []) by (intro Q; rewrite Q in L; destruct (pl_times p); [congruence|discriminate L]).
    assert (D0 : in_dom p 0) by (unfold in_dom; rewrite P1, P2, LE, RE; split; [apply Qcle_refl|exact I]).
    rewrite (first_eval rnd on p 0 RND SUB (proj1 FP) P0) by (try rewrite PT; auto; apply Qcle_refl). rewrite P1, LE, PV. rewrite pyget0_hd by exact NV. rewrite PV. rewrite P2, RE.
    replace (ext_eqb (Fin 0) (Fin 0)) with true by (vm_compute; reflexivity). replace (qeqb 0 0) with true by (vm_compute; reflexivity).
    destruct on; cbn [asr assertb bind]; [|reflexivity]. destruct (qltbP (qabs 0) (r_eps rnd)) as [_|Q]; [reflexivity|]. exfalso. apply Q. exact EP.
  - intros on t T. rewrite (first_eval rnd on l t RND SUB (proj1 FL) eq_refl); [cbn [l pl_values]; rewrite PV; reflexivity|cbn [l pl_times]; rewrite PT; exact T|intro; split; exact I].
  - intros t X. cbn [l pl_times] in X. destruct (P8 t X) as [Y _]. unfold points in Y. rewrite LE, RE in Y. cbn [fin_list app] in Y. rewrite !in_app_iff in Y.
    destruct Y as [Y|[Y|[<-|[]]]]; auto. left. rewrite <- AT at 1. apply hd_In, (fp_ne _ _ (proj1 AF)).
  - exact KEEP.
  - intros on i t v X Y. cbn [l pl_times pl_values] in X, Y. destruct (R on) as [_ _ _ _ _ _ _ _ R9]. apply (R9 i t v X Y).
Qed.
Print Assumptions C128_edge_load.

(** *** Witnesses *)
Definition okp (r : res PL) (b : PL -> bool) : bool := match r with Ok p => b p | Err _ => false end.
Lemma okp_ex r b : okp r b = true -> exists p, r = Ok p /\ b p = true.
Proof. destruct r as [p|]; cbn; [eauto|discriminate]. Qed.
Definition lq (a b : list Qc) : bool := ((zlen a =? zlen b)%Z && forallb (fun p => qeqb (fst p) (snd p)) (combine a b))%bool.
(** A function on [[1, oo)]. *)
Definition from1 : PL := mkPL [1; qz 5] [qz 3; qz 4] 0 (rnd64 (Q2Qc (1 # 10))) (Fin 1) PInf.
Lemma from1_ok : float_fun rnd64 from1.
Proof.
  split.
  - constructor; [reflexivity|discriminate|repeat constructor; reflexivity|repeat (apply Forall_cons; [f64|]); apply Forall_nil|repeat (apply Forall_cons; [f64|]); apply Forall_nil|f64|f64].
  - intros t [<-|[<-|[]]]; split; cbn; try exact I; apply qleb_true; vm_compute; reflexivity.
Qed.
Lemma up29_fun : float_fun rnd64 up29.
Proof. split; [apply up29_ok|]. intros t _. split; exact I. Qed.
Lemma down29_fun : float_fun rnd64 down29.
Proof. split; [apply down29_ok|]. intros t _. split; exact I. Qed.
(** Hypotheses are met; the sum has the breakpoints 1, 5, 7, 8; the value at 5 is rounded. *)
Example C128_example : float_fun rnd64 up29 /\ float_fun rnd64 from1 /\ overlap up29 from1 /\ symmetric rnd64 /\ r_gaps_ok rnd64 (pl_times from1) = true /\
  okp (r_pl_plus rnd64 true up29 from1) (fun p => lq (pl_times p) [1; qz 5; qz 7; qz 8]) = true /\
  okp (r_pl_sub rnd64 true up29 from1) (fun p => lq (pl_times p) [1; qz 5; qz 7; qz 8]) = true.
Proof.
  split; [apply up29_fun|]. split; [apply from1_ok|]. split; [intro H; exact H|]. split; [apply C128_binary64|]. split; [vm_compute; reflexivity|]. split; vm_compute; reflexivity.
Qed.
(** Between breakpoints the sum is not the rounded sum of the values. *)
Definition sum_everywhere : Prop := forall f g p t y a b, float_fun rnd64 f -> float_fun rnd64 g -> overlap f g -> r_pl_plus rnd64 true f g = Ok p -> float rnd64 t ->
  r_pl_eval rnd64 true f t = Ok a -> r_pl_eval rnd64 true g t = Ok b -> r_pl_eval rnd64 true p t = Ok y -> y = rnd64 (a + b).
(** A domain end close to a breakpoint makes the addition fail. *)
Definition close1 : Qc := 1 - pow2 (-40).
Definition two_points : PL := mkPL [0; 1] [0; 1] 0 0 NInf PInf.
Definition from_close : PL := mkPL [qz 2] [0] 0 0 (Fin close1) PInf.
Definition plus_total : Prop := forall f g, float_fun rnd64 f -> float_fun rnd64 g -> r_gaps_ok rnd64 (pl_times f) = true -> r_gaps_ok rnd64 (pl_times g) = true -> overlap f g -> exists p, r_pl_plus rnd64 true f g = Ok p.
Theorem C128_total_refuted : ~ plus_total.
Proof.
  intro H. destruct (H two_points from_close) as [p P].
  - split; [|intros t _; split; exact I]. constructor; [reflexivity|discriminate|repeat constructor; reflexivity|repeat (apply Forall_cons; [f64|]); apply Forall_nil|repeat (apply Forall_cons; [f64|]); apply Forall_nil|f64|f64].
  - split; [|intros t [<-|[]]; split; [cbn; apply qleb_true; vm_compute; reflexivity|exact I]]. constructor; [reflexivity|discriminate|repeat constructor; reflexivity|repeat (apply Forall_cons; [f64|]); apply Forall_nil|repeat (apply Forall_cons; [f64|]); apply Forall_nil|f64|f64].
  - vm_compute; reflexivity.
  - vm_compute; reflexivity.
  - intro Q. exact Q.
  - assert (B : match r_pl_plus rnd64 true two_points from_close with Err AssertionError => true | _ => false end = true) by (vm_compute; reflexivity). rewrite P in B. discriminate B.
Qed.
Print Assumptions C128_total_refuted.
Theorem C128_everywhere_refuted : ~ sum_everywhere.
Proof.
  intro H. assert (B : match r_pl_plus rnd64 true up29 from1, r_pl_eval rnd64 true up29 (qz 6), r_pl_eval rnd64 true from1 (qz 6) with
    | Ok p, Ok a, Ok b => match r_pl_eval rnd64 true p (qz 6) with Ok y => negb (qeqb y (rnd64 (a + b))) | _ => false end | _, _, _ => false end = true) by (vm_compute; reflexivity).
  destruct (r_pl_plus rnd64 true up29 from1) as [p|] eqn:P; [|discriminate B]. destruct (r_pl_eval rnd64 true up29 (qz 6)) as [a|] eqn:A; [|discriminate B].
  destruct (r_pl_eval rnd64 true from1 (qz 6)) as [b|] eqn:Bb; [|discriminate B]. destruct (r_pl_eval rnd64 true p (qz 6)) as [y|] eqn:Y; [|discriminate B].
  rewrite (H up29 from1 p (qz 6) y a b up29_fun from1_ok (fun H => H) P ltac:(f64) A Bb Y) in B. unfold qeqb in B. rewrite Qeq_bool_refl in B. discriminate B.
Qed.
Print Assumptions C128_everywhere_refuted.
(** An edge of travel time 2 with inflow 3 and outflow 1. *)
Definition in_acc : FRC := mkFRC [] [] (mkPL [0] [0] 0 (qz 3) (Fin 0) PInf).
Definition out_acc : FRC := mkFRC [] [] (mkPL [0; qz 2] [0; 0] 0 1 (Fin 0) PInf).
Lemma in_acc_ok : cumulative rnd64 (c_acc in_acc).
Proof.
  constructor; try reflexivity. split.
  - constructor; [reflexivity|discriminate|repeat constructor; reflexivity|repeat (apply Forall_cons; [f64|]); apply Forall_nil|repeat (apply Forall_cons; [f64|]); apply Forall_nil|f64|f64].
  - intros t [<-|[]]; split; cbn; try exact I; apply qleb_true; vm_compute; reflexivity.
Qed.
Lemma out_acc_ok : cumulative rnd64 (c_acc out_acc).
Proof.
  constructor; try reflexivity. split.
  - constructor; [reflexivity|discriminate|repeat constructor; reflexivity|repeat (apply Forall_cons; [f64|]); apply Forall_nil|repeat (apply Forall_cons; [f64|]); apply Forall_nil|f64|f64].
  - intros t [<-|[<-|[]]]; split; cbn; try exact I; apply qleb_true; vm_compute; reflexivity.
Qed.
Example C128_edge_load_example : cumulative rnd64 (c_acc in_acc) /\ cumulative rnd64 (c_acc out_acc) /\ 0 < r_eps rnd64 /\ r_gaps_ok rnd64 (pl_times (c_acc in_acc)) = true /\ r_gaps_ok rnd64 (pl_times (c_acc out_acc)) = true /\
  okp (r_edge_load rnd64 true in_acc out_acc) (fun p => lq (pl_times p) [0; qz 2] && lq (pl_values p) [0; qz 6] && qeqb (pl_last p) (qz 2))%bool = true.
Proof.
  split; [apply in_acc_ok|]. split; [apply out_acc_ok|]. split; [apply qltb_true; vm_compute; reflexivity|]. repeat split; vm_compute; reflexivity.
Qed.
(** [extend_with_slope] compares with eps in another way than the constructor: a
    function it returns need not be one the constructor accepts, so changing its sign
    fails. *)
Definition t19 : Qc := pow2 20 - pow2 (-32).
Definition up_to : PL := mkPL [t19] [0] 0 0 (Fin 0) PInf.
Definition extended_negated : Prop := forall f t s g, float_fun rnd64 f -> r_gaps_ok rnd64 (pl_times f) = true -> float rnd64 t -> float rnd64 s -> last (pl_times f) 0 <= t ->
  r_extend_with_slope rnd64 true f t s = Ok g -> exists n, r_pl_neg rnd64 true g = Ok n.
Theorem C128_extended_refuted : ~ extended_negated.
Proof.
  intro H. assert (B : match r_extend_with_slope rnd64 true up_to (pow2 20 - pow2 (-33)) 1 with Ok g => match r_pl_neg rnd64 true g with Err AssertionError => true | _ => false end | _ => false end = true) by (vm_compute; reflexivity).
  destruct (r_extend_with_slope rnd64 true up_to (pow2 20 - pow2 (-33)) 1) as [g|] eqn:G; [|discriminate B].
  destruct (H up_to (pow2 20 - pow2 (-33)) 1 g) as [n N].
  - split.
    + constructor; [reflexivity|discriminate|repeat constructor; reflexivity|repeat (apply Forall_cons; [f64|]); apply Forall_nil|repeat (apply Forall_cons; [f64|]); apply Forall_nil|f64|f64].
    + intros t [<-|[]]; split; cbn; try exact I; apply qleb_true; vm_compute; reflexivity.
  - vm_compute; reflexivity.
  - f64.
  - f64.
  - apply qleb_true. vm_compute. reflexivity.
  - exact G.
  - rewrite N in B. discriminate B.
Qed.
Print Assumptions C128_extended_refuted.
(** ** Without rounding these are the operations of the exact model. *)
Lemma id_neg f : r_pl_neg (fun x => x) true f = pl_neg f.
Proof. apply id_pl_init. Qed.
Lemma id_plus f g : r_pl_plus (fun x => x) true f g = pl_plus f g.
Proof.
  unfold r_pl_plus, pl_plus. cbv zeta. apply bind_eq; [reflexivity|]. intro. unfold r_merge_sorted. rewrite id_merge2. apply bind_eq; [reflexivity|]. intro t1. apply bind_eq; [reflexivity|]. intro ts.
  apply bind_eq; [|intro vs; apply id_pl_init]. clear. induction ts as [|t ts IH]; [reflexivity|]. cbn [mapM]. apply bind_eq; [|intro; apply bind_eq; [exact IH|reflexivity]].
  apply bind_eq; [apply id_eval|]. intro a. apply bind_eq; [apply id_eval|]. reflexivity.
Qed.
Theorem C128_exact_instance : forall f g a b, r_pl_plus (fun x => x) true f g = pl_plus f g /\ r_pl_sub (fun x => x) true f g = pl_sub f g /\ r_edge_load (fun x => x) true a b = edge_load a b.
Proof.
  assert (S : forall f g, r_pl_sub (fun x => x) true f g = pl_sub f g).
  { intros f g. unfold r_pl_sub, pl_sub. apply bind_eq; [apply id_neg|]. intro. apply id_plus. }
  intros f g a b. split; [apply id_plus|]. split; [apply S|]. unfold r_edge_load, edge_load. apply bind_eq; [apply S|]. intro h. apply bind_eq; [reflexivity|]. intros _.
  rewrite id_eval. destruct (pl_eval h 0) as [v|]; cbn [bind]; [|reflexivity]. reflexivity.
Qed.
Print Assumptions C128_exact_instance.
