(** * Proofs about the closed-form predictors *)
From Verif Require Import Base Spec Arrays ArraysProofs PL PLProofs RC FRC DynFlow Graph Dijkstra FlowBuilder Neighbors Predictors.

(** ** Vocabulary *)
(** a function on the whole line, as every queue of a flow is *)
Definition line (f : PL) : Prop := valid f /\ pl_lo f = NInf /\ pl_hi f = PInf.
(** [s] is the slope of [f] immediately before [t] *)
Definition left_slope (f : PL) (t s : Qc) : Prop :=
  exists d v, 0 < d /\ forall u, t - d <= u -> u <= t -> pl_eval f u = Ok (v + (u - t) * s).

(** ** Proofs *)
Lemma line_dom f t : line f -> in_dom f t.
Proof. intros [_ [L H]]. unfold in_dom. rewrite L, H. split; exact Logic.I. Qed.
Lemma line_eval f t : line f -> pl_eval f t = Ok (pl_at f t).
Proof. intro L. apply eval_at; [apply L|apply line_dom, L]. Qed.
Lemma pl_init_line ts vs a b f : pl_init ts vs a b NInf PInf = Ok f -> f = mkPL ts vs a b NInf PInf /\ line f.
Proof. intro H. apply pl_init_inv in H. destruct H as [-> V]. split; [reflexivity|]. split; [exact V|split; reflexivity]. Qed.
Lemma line_init ts vs a b : length vs = length ts -> ts <> [] -> StronglySorted gap ts -> pl_init ts vs a b NInf PInf = Ok (mkPL ts vs a b NInf PInf).
Proof.
  intros H1 H2 H3. apply (pl_init_ok (mkPL ts vs a b NInf PInf)). constructor; cbn [pl_times pl_values]; auto. intros t _. split; exact Logic.I.
Qed.
Lemma one_line t v a b : line (mkPL [t] [v] a b NInf PInf).
Proof. split; [|split; reflexivity]. constructor; cbn [pl_times pl_values]; [reflexivity|discriminate|repeat constructor|intros x _; split; exact Logic.I]. Qed.
Lemma one_init t v a b : pl_init [t] [v] a b NInf PInf = Ok (mkPL [t] [v] a b NInf PInf).
Proof. apply line_init; [reflexivity|discriminate|repeat constructor]. Qed.
Lemma one_at t v u : pl_at (mkPL [t] [v] 0 0 NInf PInf) u = v.
Proof. unfold pl_at, pts. cbn [pl_times pl_values pl_first pl_last combine interp]. destruct (qleb u t); ring. Qed.

Lemma mapM_spec {A B} (f : A -> res B) l r : mapM f l = Ok r -> length r = length l /\ forall i a, nth_error l i = Some a -> exists b, nth_error r i = Some b /\ f a = Ok b.
Proof.
  revert r. induction l as [|x l IH]; intros r H; cbn [mapM] in H.
  - injection H as <-. split; [reflexivity|]. intros [|i] a E; discriminate.
  - apply bind_ok in H. destruct H as [y [H1 H]]. apply bind_ok in H. destruct H as [ys [H2 H]]. injection H as <-. destruct (IH ys H2) as [L N]. split; [cbn; lia|].
    intros [|i] a E; cbn [nth_error] in *; [injection E as <-; eauto|apply N, E].
Qed.
Lemma mapM_total {A B} (f : A -> res B) l : (forall a, In a l -> exists b, f a = Ok b) -> exists r, mapM f l = Ok r.
Proof.
  induction l as [|x l IH]; intro H; cbn [mapM]; [eauto|]. destruct (H x (or_introl eq_refl)) as [y ->]. destruct IH as [r ->]; [intros; apply H; right; assumption|]. cbn [bind]. eauto.
Qed.

Lemma two_at t0 t1 v0 v1 u : t0 < t1 -> pl_at (mkPL [t0; t1] [v0; v1] 0 0 NInf PInf) u =
  if qleb u t0 then v0 else if qleb u t1 then v1 + (u - t1) * ((v1 - v0) / (t1 - t0)) else v1.
Proof. intro L. unfold pl_at, pts. cbn [pl_times pl_values pl_first pl_last combine interp]. destruct (qleb u t0); [ring|]. destruct (qleb u t1); ring. Qed.

Lemma extrapolate_ok h pt c s f : 0 <= c -> extrapolate h pt c s = Ok f ->
  line f /\ (forall t, t <= pt -> pl_at f t = c) /\
  forall t, pt <= t -> pl_at f t =
    if (qltb (c + h * s) 0 && qltb eps c)%bool then qmax 0 (c + s * qmin (t - pt) h) else c + s * qmin (t - pt) h.
Proof.
  intros C0 H. unfold extrapolate in H. destruct (qltb (c + h * s) 0 && qltb eps c)%bool eqn:B.
  - apply andb_prop in B. destruct B as [B1 B2]. apply qltb_true in B1, B2. apply bind_ok in H. destruct H as [d [D H]].
    unfold pydiv in D. destruct (qeqbP s 0) as [->|NZ]; [discriminate|]. injection D as <-. apply pl_init_line in H. destruct H as [-> L].
    assert (G : pt < pt - c / s - eps). { destruct L as [V _]. pose proof (v_gap _ V) as G. cbn [pl_times] in G. inversion G as [|? ? _ F]; subst. inversion F as [|? ? F1 _]; subst. exact F1. }
    set (d := c / s) in *. assert (DE : d * s = c) by (unfold d; field; exact NZ). assert (D0 : d < 0) by qlra.
    assert (SN : s < 0) by (destruct (Qclt_le_dec s 0) as [Q|Q]; [exact Q|exfalso; qnra]).
    assert (SL : (0 - c) / (pt - d - pt) = s). { replace (pt - d - pt) with (- d) by ring. rewrite <- DE. field. qlra. }
    split; [exact L|]. split.
    + intros t T. rewrite two_at by qlra. destruct (qlebP t pt) as [_|N]; [reflexivity|exfalso; qlra].
    + intros t T. rewrite two_at by qlra. rewrite SL.
      destruct (qmin_spec (t - pt) h) as [[M1 ->]|[M1 ->]].
      * (* beyond the horizon: the queue has been empty for a while *)
        assert (- d < h) by qnra. destruct (qlebP t pt) as [Q|Q]; [exfalso; qlra|]. destruct (qlebP t (pt - d)) as [Q2|Q2]; [exfalso; qlra|].
        destruct (qmax_spec 0 (c + s * h)) as [[X ->]|[X ->]]; [exfalso; qlra|reflexivity].
      * destruct (qlebP t pt) as [Q|Q].
        -- assert (E : t = pt) by qlra. subst t. replace (pt - pt) with 0 by ring. destruct (qmax_spec 0 (c + s * 0)) as [[X ->]|[X ->]]; qlra.
        -- destruct (qlebP t (pt - d)) as [Q2|Q2].
           ++ replace (0 + (t - (pt - d)) * s) with (c + s * (t - pt)) by (rewrite <- DE; ring).
              destruct (qmax_spec 0 (c + s * (t - pt))) as [[X ->]|[X ->]]; [reflexivity|]. assert (0 <= c + s * (t - pt)) by (rewrite <- DE; qnra). qlra.
           ++ destruct (qmax_spec 0 (c + s * (t - pt))) as [[X ->]|[X ->]]; [exfalso; rewrite <- DE in X; qnra|reflexivity].
  - apply pl_init_line in H. destruct H as [-> L].
    assert (G : pt < pt + h - eps). { destruct L as [V _]. pose proof (v_gap _ V) as G. cbn [pl_times] in G. inversion G as [|? ? _ F]; subst. inversion F as [|? ? F1 _]; subst. exact F1. }
    split; [exact L|]. split.
    + intros t T. rewrite two_at by qlra. destruct (qlebP t pt) as [_|N]; [reflexivity|exfalso; qlra].
    + intros t T. rewrite two_at by qlra. replace ((c + h * s - c) / (pt + h - pt)) with s by (field; qlra).
      destruct (qmin_spec (t - pt) h) as [[M1 ->]|[M1 ->]]; (destruct (qlebP t pt) as [Q|Q]; [try (exfalso; qlra)|]); try (destruct (qlebP t (pt + h)) as [Q2|Q2]; [|try (exfalso; qlra)]); try (exfalso; qlra).
      * ring.
      * assert (E : t = pt) by qlra. subst t. ring.
      * ring.
Qed.
Lemma extrapolate_total h pt c s : eps < h -> (qltb (c + h * s) 0 && qltb eps c)%bool = false \/ eps * - s < c -> exists f, extrapolate h pt c s = Ok f.
Proof.
  intros HH D. unfold extrapolate. destruct (qltb (c + h * s) 0 && qltb eps c)%bool eqn:B.
  - destruct D as [D|D]; [discriminate|]. apply andb_prop in B. destruct B as [B1 B2]. apply qltb_true in B1, B2.
    assert (SN : s < 0) by (destruct (Qclt_le_dec s 0) as [Q|Q]; [exact Q|exfalso; qnra]).
    unfold pydiv. destruct (qeqbP s 0) as [->|NZ]; [exfalso; qlra|]. cbn [bind].
    set (d := c / s) in *. assert (DE : d * s = c) by (unfold d; field; exact NZ).
    rewrite line_init; [eauto|reflexivity|discriminate|]. constructor; [repeat constructor|]. constructor; [|constructor]. unfold gap. rewrite <- DE in D. qnra.
  - rewrite line_init; [eauto|reflexivity|discriminate|]. constructor; [repeat constructor|]. constructor; [|constructor]. unfold gap. qlra.
Qed.

Lemma left_slope_rank f t i : line f -> elem_rank (pl_times f) t = Ok i -> (-1 <= i < pl_len f)%Z /\ left_slope f t (slope_q f i).
Proof.
  intros L E. pose proof L as [V _]. destruct (eval_rank f V t) as [j [E' R]]. rewrite E in E'. injection E' as <-.
  destruct R as [R1 [R2 R3]]. split; [exact R1|].
  assert (LE : forall d, 0 < d -> (forall v, (0 <= i)%Z -> nth_error (pl_times f) (Z.to_nat i) = Some v -> v < t - d) -> left_slope f t (slope_q f i)).
  { intros d D HV. exists d, (pl_at f t). split; [exact D|]. intros u U1 U2. rewrite (line_eval f u L). f_equal.
    assert (RU : is_rank (pl_times f) u i). { split; [exact R1|]. split; [intros v Hv N; specialize (HV v Hv N); qlra|intros v N; specialize (R3 v N); qlra]. }
    rewrite (pl_at_rank f u i V RU), (pl_at_rank f t i V (conj R1 (conj R2 R3))). unfold seg_val. destruct (i =? -1)%Z; ring. }
  destruct (Z.eq_dec i (-1)) as [->|N]; [apply (LE 1); [apply qltb_true; vm_compute; reflexivity|intros v Hv; exfalso; lia]|].
  destruct (nth_error (pl_times f) (Z.to_nat i)) as [v|] eqn:NV; [|exfalso; apply nth_error_None in NV; lia].
  assert (VT : v < t) by (apply (R2 v); [lia|reflexivity]). apply (LE ((t - v) * Q2Qc (1 # 2))); [qlra|]. intros w Hw NW. injection NW as <-. qlra.
Qed.
Lemma left_slope_unique f t s s' : left_slope f t s -> left_slope f t s' -> s = s'.
Proof.
  intros [d [v [D H]]] [d' [v' [D' H']]]. pose proof (H t ltac:(qlra) ltac:(qlra)) as E. rewrite (H' t) in E by qlra. apply ok_inj in E.
  set (m := qmin d d'). assert (M : 0 < m /\ m <= d /\ m <= d') by (unfold m; destruct (qmin_spec d d') as [[X ->]|[X ->]]; repeat split; qlra). destruct M as [M0 [M1 M2]].
  pose proof (H (t - m) ltac:(qlra) ltac:(qlra)) as E2. rewrite (H' (t - m)) in E2 by qlra. apply ok_inj in E2.
  assert (m * (s - s') = 0) by qlra. destruct (Qcmult_integral _ _ H0); qlra.
Qed.
Lemma linear_edge h pt q f : line q ->
  (v <- pl_eval q pt ;; r <- elem_rank (pl_times q) pt ;; slope <- gradient q r ;; extrapolate h pt (qmax 0 v) slope) = Ok f ->
  exists s, left_slope q pt s /\ extrapolate h pt (qmax 0 (pl_at q pt)) s = Ok f.
Proof.
  intros L H. rewrite (line_eval q pt L) in H. cbn [bind] in H. apply bind_ok in H. destruct H as [r [R H]]. destruct (left_slope_rank q pt r L R) as [B LS].
  rewrite (gradient_ok q (proj1 L) r B) in H. cbn [bind] in H. eauto.
Qed.
Lemma extrapolate_h h pt c s f : extrapolate h pt c s = Ok f -> (qltb (c + h * s) 0 && qltb eps c)%bool = false -> eps < h.
Proof.
  intros H B. unfold extrapolate in H. rewrite B in H. apply pl_init_line in H. destruct H as [-> [V _]]. pose proof (v_gap _ V) as G. cbn [pl_times] in G.
  inversion G as [|? ? _ F]; subst. inversion F as [|? ? F1 _]; subst. unfold gap in F1. qlra.
Qed.
Lemma extrapolate_err h pt c s : eps < c -> c + h * s < 0 -> 0 < h -> c <= eps * - s -> extrapolate h pt c s = Err AssertionError.
Proof.
  intros C HS HP L. unfold extrapolate. rewrite (proj2 (qltb_true _ _) HS), (proj2 (qltb_true _ _) C). cbn [andb].
  assert (E0 : 0 < eps) by (apply qltb_true; vm_compute; reflexivity).
  assert (SN : s < 0) by (destruct (Qclt_le_dec s 0) as [Q|Q]; [exact Q|exfalso; qnra]).
  unfold pydiv. destruct (qeqbP s 0) as [->|NZ]; [exfalso; qlra|]. cbn [bind].
  set (d := c / s) in *. assert (DE : d * s = c) by (unfold d; field; exact NZ).
  clearbody d. destruct (pl_init [pt; pt - d] [c; 0] 0 0 NInf PInf) as [f|x] eqn:I.
  - exfalso. apply pl_init_line in I. destruct I as [-> [V _]]. pose proof (v_gap _ V) as G. cbn [pl_times] in G.
    inversion G as [|? ? _ F]; subst. inversion F as [|? ? F1 _]; subst. unfold gap in F1. assert (- d <= eps) by qnra. qlra.
  - f_equal. revert I. unfold pl_init. generalize (gaps_ok [pt; pt - d]). generalize (forallb (fun t => ext_leb NInf (Fin t) && ext_leb (Fin t) PInf)%bool [pt; pt - d]).
    intros [|] [|]; cbn; congruence.
Qed.
Lemma pl_init_err ts vs a b lo hi x : pl_init ts vs a b lo hi = Err x -> x = AssertionError.
Proof.
  unfold pl_init. generalize ((zlen vs =? zlen ts)%Z && (1 <=? zlen ts)%Z)%bool. generalize (gaps_ok ts). generalize (forallb (fun t => ext_leb lo (Fin t) && ext_leb (Fin t) hi)%bool ts).
  intros [|] [|] [|]; cbn; congruence.
Qed.
Lemma extrapolate_only h pt c s x : 0 <= c -> extrapolate h pt c s = Err x -> x = AssertionError.
Proof.
  intros C0. unfold extrapolate. destruct (qltb (c + h * s) 0 && qltb eps c)%bool eqn:B; [|apply pl_init_err].
  apply andb_prop in B. destruct B as [B1 B2]. apply qltb_true in B1, B2. unfold pydiv. destruct (qeqbP s 0) as [->|NZ]; [exfalso; qlra|]. cbn [bind]. apply pl_init_err.
Qed.
Lemma mapM_err {A B} (f : A -> res B) l x : (exists a, In a l /\ exists y, f a = Err y) -> (forall a y, In a l -> f a = Err y -> y = x) -> mapM f l = Err x.
Proof.
  intros [a [I [y F]]] H. induction l as [|b l IH]; [destruct I|]. cbn [mapM]. destruct (f b) as [v|z] eqn:E; cbn [bind].
  - destruct I as [->|I]; [congruence|]. rewrite IH; [reflexivity|exact I|intros; eapply H; [right|]; eassumption].
  - f_equal. apply (H b z); [left; reflexivity|exact E].
Qed.
