(** * Properties C06-C17: piecewise linear functions
      (src/utilities/piecewise_linear.py)

    Vocabulary.  [valid f]: the lists have equal positive length, breakpoints
    are more than eps apart and lie in the domain -- C06_constructor shows that
    this is exactly what the constructor accepts.  [in_dom f t]: t is in the
    domain.  [pl_eval f t] is the call [f(t)]; pointwise statements are
    equations between such calls, including the exception outside the
    domain. *)
From Verif Require Import Base Spec Arrays ArraysProofs PL PLProofs PLEval PLArith PLOps PLOps2 PLMono PLInt PL2 PLCmp PLComp.

(** ** C06 *)
Theorem C06_constructor : forall times values first last lo hi,
  (forall f, pl_init times values first last lo hi = Ok f ->
     f = mkPL times values first last lo hi /\ valid f) /\
  (valid (mkPL times values first last lo hi) ->
     pl_init times values first last lo hi = Ok (mkPL times values first last lo hi)).
Proof. intros. split; [intros f H; exact (pl_init_inv _ _ _ _ _ _ _ H)|intro V; exact (pl_init_ok _ V)]. Qed.
Print Assumptions C06_constructor.

(** [interpolates f t y] spells out the three formulas on the stored fields. *)
Theorem C06_eval : forall f t, valid f ->
  (in_dom f t -> exists y, pl_eval f t = Ok y /\ interpolates f t y /\ (forall y', interpolates f t y' -> y' = y)) /\
  (~ in_dom f t -> pl_eval f t = Err AssertionError).
Proof. exact eval_full. Qed.
Print Assumptions C06_eval.

Theorem C06_eval_at_infinity : forall f, valid f ->
  (pl_hi f = PInf -> exists y, pl_eval_ext f PInf = Ok y /\ limit_at_pinf (pl_eval f) y) /\
  (pl_lo f = NInf -> exists y, pl_eval_ext f NInf = Ok y /\ limit_at_ninf (pl_eval f) y).
Proof. intros f V. split; intro H; [exact (eval_pinf f V H)|exact (eval_ninf f V H)]. Qed.
Print Assumptions C06_eval_at_infinity.

(** ** C07 *)
Theorem C07_eval_from_end : forall f t, valid f -> eval_from_end f t = pl_eval f t.
Proof. exact eval_from_end_eq. Qed.
Print Assumptions C07_eval_from_end.

Theorem C07_eval_sorted_array : forall f ts, valid f -> nondecreasing ts ->
  (forall t, In t ts -> in_dom f t) -> eval_sorted_array f ts = mapM (pl_eval f) ts.
Proof. exact eval_sorted_array_eq. Qed.
Print Assumptions C07_eval_sorted_array.

(** ** C08.  [plus_sep f g]: breakpoints and finite ends of the common domain
    are pairwise equal or more than eps apart. *)
Definition lift1 (op : Qc -> Qc) (x : res Qc) : res Qc := a <- x ;; Ok (op a).
Definition lift2 (op : Qc -> Qc -> Qc) (x y : res Qc) : res Qc := a <- x ;; b <- y ;; Ok (op a b).

Lemma lift2_eval op f g p : valid f -> valid g -> valid p ->
  (forall t, in_dom p t <-> in_dom f t /\ in_dom g t) ->
  (forall t, in_dom p t -> pl_at p t = op (pl_at f t) (pl_at g t)) ->
  forall t, pl_eval p t = lift2 op (pl_eval f t) (pl_eval g t).
Proof.
  intros Vf Vg Vp D A t.
  assert (Q : forall h, {in_dom h t} + {~ in_dom h t}).
  { intro h. destruct (ext_leb (pl_lo h) (Fin t) && ext_leb (Fin t) (pl_hi h))%bool eqn:E.
    - left. apply bool_dom. exact E.
    - right. intro C. apply bool_dom in C. congruence. }
  destruct (Q f) as [Df|Df].
  - destruct (Q g) as [Dg|Dg].
    + assert (Dp : in_dom p t) by (apply D; auto).
      rewrite (eval_at f t Vf Df), (eval_at g t Vg Dg), (eval_at p t Vp Dp), (A t Dp). reflexivity.
    + rewrite (eval_out g t Dg), (eval_at f t Vf Df), (eval_out p t); [reflexivity|]. intro C. apply D in C. tauto.
  - rewrite (eval_out f t Df), (eval_out p t); [reflexivity|]. intro C. apply D in C. tauto.
Qed.

Theorem C08_plus : forall f g, valid f -> valid g ->
  ext_lt (ext_max (pl_lo f) (pl_lo g)) (ext_min (pl_hi f) (pl_hi g)) -> plus_sep f g ->
  exists p, pl_plus f g = Ok p /\ valid p /\
    (forall t, in_dom p t <-> in_dom f t /\ in_dom g t) /\
    (forall t, pl_eval p t = lift2 Qcplus (pl_eval f t) (pl_eval g t)).
Proof.
  intros f g Vf Vg D S. destruct (plus_ok f g Vf Vg D S) as [p [E [V [_ [_ [Dp [A _]]]]]]].
  exists p. split; [exact E|]. split; [exact V|]. split; [exact Dp|]. apply lift2_eval; auto.
Qed.
Print Assumptions C08_plus.

Theorem C08_sub : forall f g, valid f -> valid g ->
  ext_lt (ext_max (pl_lo f) (pl_lo g)) (ext_min (pl_hi f) (pl_hi g)) -> plus_sep f g ->
  exists p, pl_sub f g = Ok p /\ valid p /\
    (forall t, in_dom p t <-> in_dom f t /\ in_dom g t) /\
    (forall t, pl_eval p t = lift2 Qcminus (pl_eval f t) (pl_eval g t)).
Proof.
  intros f g Vf Vg D S. destruct (sub_ok f g Vf Vg D S) as [p [E [V [Dp A]]]].
  exists p. split; [exact E|]. split; [exact V|]. split; [exact Dp|]. apply lift2_eval; auto.
Qed.
Print Assumptions C08_sub.

Lemma lift1_eval op f p : valid f -> valid p ->
  (forall t, in_dom p t <-> in_dom f t) ->
  (forall t, in_dom p t -> pl_at p t = op (pl_at f t)) ->
  forall t, pl_eval p t = lift1 op (pl_eval f t).
Proof.
  intros Vf Vp D A t.
  assert (H : pl_eval p t = lift2 (fun a _ => op a) (pl_eval f t) (pl_eval f t)).
  { apply (lift2_eval (fun a _ => op a)); auto. intro u. rewrite D. tauto. }
  rewrite H. unfold lift1, lift2. destruct (pl_eval f t); reflexivity.
Qed.

Theorem C08_neg : forall f, valid f -> exists n, pl_neg f = Ok n /\ valid n /\
  (forall t, pl_eval n t = lift1 Qcopp (pl_eval f t)).
Proof.
  intros f V. destruct (neg_ok f V) as [n [E [Vn [_ [L [H [_ [_ A]]]]]]]].
  exists n. split; [exact E|]. split; [exact Vn|]. apply lift1_eval; auto.
  intro t. unfold in_dom. rewrite L, H. tauto.
Qed.
Print Assumptions C08_neg.

(** ** C09.  [slopes_clear f]: consecutive slopes (including the outer ones)
    are equal or differ by at least 1000 eps. *)
Theorem C09_simplify_partial : forall f, valid f ->
  exists p, simplify f = Ok p /\ valid p /\
    (forall x, In x (pl_times p) -> In x (pl_times f)) /\
    (slopes_clear f -> forall t, pl_eval p t = pl_eval f t).
Proof.
  intros f V. destruct (simplify_ok f V) as [p [E [Vp [L [H [T A]]]]]].
  exists p. split; [exact E|]. split; [exact Vp|]. split; [exact T|]. intros S t.
  assert (Q : pl_eval p t = lift1 (fun x => x) (pl_eval f t)).
  { apply (lift1_eval (fun x => x)); auto; unfold in_dom; rewrite L, H; [tauto|]. intros u Du. apply (A S u Du). }
  rewrite Q. destruct (pl_eval f t); reflexivity.
Qed.
Print Assumptions C09_simplify_partial.

(** Without the hypothesis the claim fails, by an arbitrarily large amount. *)
Definition C09_claim (tol : Qc) : Prop := forall f p t x y, valid f -> simplify f = Ok p ->
  pl_eval f t = Ok x -> pl_eval p t = Ok y -> qabs (x - y) <= tol.
Theorem C09_refuted : forall tol, ~ C09_claim tol.
Proof.
  intros tol C.
  set (s := Q2Qc (500 # 1) * eps). assert (Hs : 0 < s) by (vm_compute; reflexivity).
  set (T := qmax (Q2Qc (2 # 1)) ((tol + 1) / s)).
  assert (H1 : 1 < T).
  { unfold T. destruct (qmax_spec (Q2Qc (2#1)) ((tol+1)/s)) as [[Q E]|[Q E]]; rewrite E; [|vm_compute; reflexivity].
    assert (1 < Q2Qc (2#1)) by (vm_compute; reflexivity). qlra. }
  destruct (simplify_drift T H1) as [V [E [E1 E2]]].
  pose proof (C _ _ _ _ _ V E E1 E2) as Q.
  assert (TS : tol + 1 <= T * s).
  { replace (tol + 1) with ((tol + 1) / s * s) by (field; intro; qlra).
    assert (D : (tol+1)/s <= T).
    { unfold T. destruct (qmax_spec (Q2Qc (2#1)) ((tol+1)/s)) as [[? R]|[? R]]; rewrite R; qlra. }
    set (X := (tol+1)/s) in *. clearbody X T s. clear - D Hs. qnra. }
  fold s in Q. set (W := T * s) in *. clearbody W.
  destruct (qabs_spec (0 - W)) as [[? R]|[? R]]; rewrite R in Q; qlra.
Qed.
Print Assumptions C09_refuted.

(** ** C10 *)
Theorem C10_restrict : forall f lo hi, valid f ->
  ext_le (pl_lo f) lo -> ext_le lo hi -> ext_le hi (pl_hi f) -> lo <> PInf -> hi <> NInf ->
  (lo <> NInf \/ has_break f lo hi) ->
  exists p, restrict f lo hi = Ok p /\ valid p /\ pl_lo p = lo /\ pl_hi p = hi /\
    (forall t, in_dom p t -> pl_eval p t = pl_eval f t).
Proof.
  intros f lo hi V A1 A2 A3 A4 A5 A6. destruct (restrict_ok f lo hi V A1 A2 A3 A4 A5 A6) as [p [E [Vp [L [H A]]]]].
  exists p. do 4 (split; [assumption|]). intros t Dt. destruct (A t Dt) as [Df Q].
  rewrite (eval_at p t Vp Dt), (eval_at f t V Df), Q. reflexivity.
Qed.
Print Assumptions C10_restrict.

(** ** C11 *)
(** The call raises exactly when the new time is more than eps before the
    last breakpoint. *)
Theorem C11_extend_defined : forall f time slope, valid f ->
  (exists f', extend_with_slope f time slope = Ok f') <->
  (forall tl, In tl (pl_times f) -> tl - eps <= time).
Proof.
  intros f time slope V. rewrite (extend_raises f time slope V). split.
  - intros H tl Hl. destruct (in_tm f tl Hl) as [i [Hi <-]].
    pose proof (tm_le f V i (pl_len f - 1) ltac:(lia) ltac:(lia)). qlra.
  - intro H. apply H. apply tm_in. pose proof (len_pos f V). lia.
Qed.
Print Assumptions C11_extend_defined.

Theorem C11_extend_exact : forall f time slope tl, valid f -> ext_le (Fin time) (pl_hi f) ->
  pyget (pl_times f) (-1) = Ok tl -> (time = tl \/ tl < time - eps) ->
  (slope = pl_last f \/ eps < qabs (pl_last f - slope)) ->
  exists f' y, extend_with_slope f time slope = Ok f' /\ valid f' /\ pl_eval f time = Ok y /\
    (forall t, t <= time -> pl_eval f' t = pl_eval f t) /\
    (forall t, time <= t -> in_dom f t -> pl_eval f' t = Ok (y + (t - time) * slope)) /\
    (forall t, in_dom f' t <-> in_dom f t).
Proof.
  intros f time slope tl V Hh E1 H1 H2. rewrite get_tm_last in E1 by auto. apply ok_inj in E1. subst tl.
  destruct (extend_exact f time slope V Hh H1 H2) as [f' [E [V' [L [H [A1 [A2 _]]]]]]].
  assert (DD : forall t, in_dom f' t <-> in_dom f t) by (intro t; unfold in_dom; rewrite L, H; tauto).
  assert (Dl : in_dom f (tm f (pl_len f - 1))) by (apply (v_dom f V), tm_in; pose proof (len_pos f V); lia).
  assert (Dt : in_dom f time).
  { split; [|exact Hh]. destruct Dl as [D1 _]. eapply ext_le_trans; [exact D1|]. cbn [ext_le]. destruct H1; qlra. }
  exists f', (pl_at f time). split; [exact E|]. split; [exact V'|]. split; [apply eval_at; auto|].
  split; [|split; [|exact DD]].
  - intros t Ht. assert (Q : pl_eval f' t = lift1 (fun x => x) (pl_eval f t)).
    { destruct (ext_leb (pl_lo f) (Fin t) && ext_leb (Fin t) (pl_hi f))%bool eqn:C.
      - apply bool_dom in C. rewrite (eval_at f t V C), (eval_at f' t V'), (A1 t Ht) by (apply DD; auto). reflexivity.
      - assert (~ in_dom f t) by (intro X; apply bool_dom in X; congruence).
        rewrite (eval_out f t), (eval_out f' t); auto. rewrite DD. auto. }
    rewrite Q. destruct (pl_eval f t); reflexivity.
  - intros t Ht D. rewrite (eval_at f' t V') by (apply DD; auto). rewrite (A2 t Ht). reflexivity.
Qed.
Print Assumptions C11_extend_exact.

(** In general (no separation hypotheses) the deviation is bounded by eps
    times the change of slope, plus eps times the elapsed time when the new
    slope is considered equal to the old one. *)
Theorem C11_extend_tolerance : forall f time slope f' tl, valid f -> ext_le (Fin time) (pl_hi f) ->
  pyget (pl_times f) (-1) = Ok tl -> tl <= time -> extend_with_slope f time slope = Ok f' ->
  valid f' /\
  (forall t x y, t <= time -> pl_eval f t = Ok x -> pl_eval f' t = Ok y ->
     qabs (y - x) <= eps * qabs (slope - pl_last f)) /\
  (forall t v y, time <= t -> pl_eval f time = Ok v -> pl_eval f' t = Ok y ->
     qabs (y - (v + (t - time) * slope)) <= eps * (t - time) + eps * qabs (slope - pl_last f)).
Proof.
  intros f time slope f' tl V Hh E1 H1 E. rewrite get_tm_last in E1 by auto. apply ok_inj in E1. subst tl.
  destruct (extend_tol f time slope f' V Hh H1 E) as [A1 A2].
  destruct (extend_ok f time slope f' V Hh E) as [V' _].
  split; [exact V'|]. split.
  - intros t x y Ht E1 E2. apply eval_inv in E1, E2; auto. destruct E1 as [_ ->], E2 as [_ ->]. auto.
  - intros t v y Ht E1 E2. apply eval_inv in E1, E2; auto. destruct E1 as [_ ->], E2 as [_ ->]. auto.
Qed.
Print Assumptions C11_extend_tolerance.

(** ** C12.  [mono f]: values non-decreasing, outer slopes non-negative. *)
Theorem C12_min_t_above_partial : forall f b v0, valid f -> mono f ->
  (exists t y, pl_eval f t = Ok y /\ b <= y) ->
  pyget (pl_values f) 0 = Ok v0 -> (0 < pl_first f \/ v0 < b) ->
  exists t, min_t_above f b = Ok t /\ is_min_t_above f b t.
Proof.
  intros f b v0 V M E E0 H. rewrite (get_vl f V) in E0 by (pose proof (len_pos f V); lia).
  apply ok_inj in E0. subst v0. exact (min_t_above_ok f b V M E H).
Qed.
Print Assumptions C12_min_t_above_partial.

Theorem C12_max_t_below : forall f b, valid f -> mono f ->
  (exists t y, pl_eval f t = Ok y /\ y <= b) ->
  exists t, max_t_below f b = Ok t /\ is_max_t_below f b t.
Proof. exact max_t_below_full. Qed.
Print Assumptions C12_max_t_below.

Theorem C12_max_t_below_default : forall f b d e,
  is_monotone f = true -> pl_eval_ext f (pl_lo f) = Ok e ->
  (ext_le e (Fin b) -> max_t_below_default f b d = max_t_below f b) /\
  (ext_lt (Fin (b + eps)) e -> max_t_below_default f b d = Ok d).
Proof.
  intros f b d e M E. split; intro H;
    [exact (max_t_below_default_same f b d e E H)|exact (max_t_below_default_none f b d e M E H)].
Qed.
Print Assumptions C12_max_t_below_default.

(** [in_range f i x]: x lies between the end values of the non-constant
    segment i; [in_seg f i t]: t lies in segment i. *)
Theorem C12_inverse_partial : forall f x i, valid f -> nondecreasing (pl_values f) -> 0 <= pl_last f ->
  (-1 <= i < pl_len f)%Z -> in_range f i x ->
  exists t, inverse f x i = Ok t /\ in_seg f i t /\ interpolates f t x.
Proof.
  intros f x i V N L Hi R. destruct (inverse_mono_ok f x i V N L Hi R) as [t [E [S A]]].
  exists t. split; [exact E|]. split; [exact S|]. rewrite <- A. apply at_interpolates. exact V.
Qed.
Print Assumptions C12_inverse_partial.

(** The general claims and their failures.  [min_t_above] raises although the
    minimum exists, as soon as the function starts flat at or above the bound
    (e.g. constant before 0). *)
Definition C12_min_claim : Prop := forall f b l, valid f -> mono f -> pl_lo f = Fin l ->
  (exists t y, pl_eval f t = Ok y /\ b <= y) ->
  exists t, min_t_above f b = Ok t /\ is_min_t_above f b t.
Definition c12_flat : PL := mkPL [0] [qz 5] 0 1 (Fin 0) PInf.
Theorem C12_min_t_above_refuted : ~ C12_min_claim.
Proof.
  intro C. assert (V : valid c12_flat).
  { apply (pl_init_inv [0] [qz 5] 0 1 (Fin 0) PInf c12_flat). vm_compute. reflexivity. }
  destruct (C c12_flat (qz 3) 0 V) as [t [E _]].
  - split; [repeat constructor|]. split; vm_compute; discriminate.
  - reflexivity.
  - exists 0, (qz 5). split; vm_compute; [reflexivity|discriminate].
  - rewrite min_t_above_flat_raises in E; auto; [discriminate| |vm_compute; discriminate]. repeat constructor.
Qed.
Print Assumptions C12_min_t_above_refuted.

(** [inverse] on the last segment accepts a value below the segment and then
    returns a time outside the segment where f takes another value. *)
Definition C12_inverse_claim : Prop := forall f x i t, valid f -> mono f ->
  (-1 <= i < pl_len f)%Z -> inverse f x i = Ok t -> in_seg f i t /\ interpolates f t x.
Definition c12_inv : PL := mkPL [0; 1; qz 2] [0; 1; qz 5] 1 1 NInf PInf.
Theorem C12_inverse_refuted : ~ C12_inverse_claim.
Proof.
  intro C. assert (V : valid c12_inv).
  { apply (pl_init_inv [0; 1; qz 2] [0; 1; qz 5] 1 1 NInf PInf c12_inv). vm_compute. reflexivity. }
  destruct (C c12_inv (qz 2) 2%Z (qz (-1)) V) as [_ Q]; [| | |apply (interpolates_fun _ _ _ V) in Q].
  - split; [|split; vm_compute; discriminate]. repeat constructor; vm_compute; discriminate.
  - split; vm_compute; congruence.
  - vm_compute. reflexivity.
  - vm_compute in Q. discriminate.
Qed.
Print Assumptions C12_inverse_refuted.

(** ** C13.  [g.compose(f)]; [kink g f x]: x is a breakpoint of f, the
    domain start of f, or the unique time at which f takes the value of a
    breakpoint of g. *)
Theorem C13_compose_partial : forall g f, valid g -> valid f -> mono f ->
  (forall t y, pl_eval f t = Ok y -> in_dom g y) ->
  (forall x y, kink g f x -> kink g f y -> x < y -> gap x y) -> start_ok g f ->
  exists c, compose g f = Ok c /\ valid c /\
    forall t, pl_eval c t = (y <- pl_eval f t ;; pl_eval g y).
Proof.
  intros g f Vg Vf M IM S ST.
  assert (IM' : forall t, in_dom f t -> in_dom g (pl_at f t)) by (intros t D; apply (IM t), eval_at; auto).
  destruct (compose_ok g f Vg Vf M IM' S ST) as [c [E [Vc [L [H A]]]]].
  exists c. split; [exact E|]. split; [exact Vc|]. intro t.
  assert (DD : in_dom c t <-> in_dom f t) by (unfold in_dom; rewrite L, H; tauto).
  destruct (ext_leb (pl_lo f) (Fin t) && ext_leb (Fin t) (pl_hi f))%bool eqn:C.
  - apply bool_dom in C. rewrite (eval_at f t Vf C), (eval_at c t Vc), (A t C) by (apply DD; auto).
    cbn [bind]. rewrite (eval_at g _ Vg); auto.
  - assert (X : ~ in_dom f t) by (intro X; apply bool_dom in X; congruence).
    rewrite (eval_out f t X), (eval_out c t); [reflexivity|]. rewrite DD. exact X.
Qed.
Print Assumptions C13_compose_partial.

(** Without [start_ok] the call can raise: the start assertion compares a
    time of f with a value of f. *)
Definition C13_claim : Prop := forall g f, valid g -> valid f -> mono f ->
  (forall t y, pl_eval f t = Ok y -> in_dom g y) ->
  (forall x y, kink g f x -> kink g f y -> x < y -> gap x y) ->
  exists c, compose g f = Ok c.
Definition c13_f : PL := mkPL [qz 10] [0] 1 1 (Fin (qz 10)) PInf.
Definition c13_g : PL := mkPL [0; 1] [0; 1] 1 (qz 2) NInf PInf.
Theorem C13_refuted : ~ C13_claim.
Proof.
  intro C.
  assert (Vf : valid c13_f).
  { apply (pl_init_inv [qz 10] [0] 1 1 (Fin (qz 10)) PInf c13_f). vm_compute. reflexivity. }
  assert (Vg : valid c13_g).
  { apply (pl_init_inv [0; 1] [0; 1] 1 (qz 2) NInf PInf c13_g). vm_compute. reflexivity. }
  destruct (C c13_g c13_f Vg Vf) as [c E].
  - split; [repeat constructor|]. split; vm_compute; discriminate.
  - intros; split; exact Logic.I.
  - assert (K : forall x, kink c13_g c13_f x -> x = qz 10 \/ x = qz 11).
    { intros x [D [H|[H|[H _]]]].
      - destruct H as [<-|[]]. left. reflexivity.
      - left. cbn [pl_lo c13_f] in H. congruence.
      - assert (A : pl_at c13_f x = 0 + (x - qz 10) * 1).
        { apply (at_right c13_f x Vf). destruct D as [D _]. exact D. }
        rewrite A in H. assert (T : qz 11 = qz 10 + 1) by (vm_compute; reflexivity).
        rewrite T. destruct H as [H|[H|[]]]; [left|right]; qlra. }
    intros x y Kx Ky L. apply K in Kx, Ky. destruct Kx as [->| ->], Ky as [->| ->]; try qlra; vm_compute in L |- *; try discriminate; reflexivity.
  - vm_compute in E. discriminate.
Qed.
Print Assumptions C13_refuted.

(** ** C14.  The claim fails: after its loop, [minimum] intersects the two
    last pieces but anchors the other function at the last pushed time,
    where it is still on an earlier piece. *)
Definition C14_claim : Prop := forall f g m t x y, valid f -> valid g ->
  minimum f g = Ok m -> pl_eval f t = Ok x -> pl_eval g t = Ok y -> pl_eval m t = Ok (qmin x y).
Definition c14_f : PL := mkPL [0] [0] 0 1 (Fin 0) PInf.
Definition c14_g : PL := mkPL [0; qz 5] [qz 10; qz 20] 0 0 (Fin 0) PInf.
Theorem C14_refuted : ~ C14_claim.
Proof.
  intro C.
  assert (Vf : valid c14_f).
  { apply (pl_init_inv [0] [0] 0 1 (Fin 0) PInf c14_f). vm_compute. reflexivity. }
  assert (Vg : valid c14_g).
  { apply (pl_init_inv [0; qz 5] [qz 10; qz 20] 0 0 (Fin 0) PInf c14_g). vm_compute. reflexivity. }
  assert (E : exists m, minimum c14_f c14_g = Ok m /\ pl_eval m (qz 15) = Ok (qz 10)).
  { eexists. split; [vm_compute; reflexivity|vm_compute; reflexivity]. }
  destruct E as [m [E1 E2]].
  assert (Q : pl_eval m (qz 15) = Ok (qmin (qz 15) (qz 20))).
  { apply (C c14_f c14_g m (qz 15) (qz 15) (qz 20) Vf Vg E1); vm_compute; reflexivity. }
  rewrite E2 in Q. apply ok_inj in Q. vm_compute in Q. discriminate.
Qed.
Print Assumptions C14_refuted.

(** ** C15.  Both functions start at the same finite time, which is their
    first breakpoint (asserted by the code). *)
Theorem C15_smaller_equals : forall f g lo, valid f -> valid g ->
  pl_lo f = Fin lo -> pl_lo g = Fin lo ->
  pyget (pl_times f) 0 = Ok lo -> pyget (pl_times g) 0 = Ok lo ->
  ext_le (pl_hi g) (pl_hi f) -> ext_lt (Fin lo) (pl_hi g) ->
  exists b, smaller_equals f g = Ok b /\
  ((forall t x y, pl_eval f t = Ok x -> pl_eval g t = Ok y -> x <= y) -> b = true) /\
  (b = true -> forall t x y, pl_eval f t = Ok x -> pl_eval g t = Ok y ->
     ((pl_hi g <> PInf \/ exists s, In s (pl_times f ++ pl_times g) /\ t <= s) -> x <= y + eps1000) /\
     (forall s, In s (pl_times f ++ pl_times g) -> (forall r, In r (pl_times f ++ pl_times g) -> r <= s) ->
        s <= t -> x <= y + eps1000 + (t - s) * eps1000)).
Proof.
  intros f g lo Vf Vg Lf Lg Tf Tg HH ND.
  pose proof (len_pos f Vf) as Pf. pose proof (len_pos g Vg) as Pg.
  rewrite get_tm in Tf by lia. rewrite get_tm in Tg by lia. apply ok_inj in Tf, Tg.
  destruct (se_ok_main f g Vf Vg lo Lf Lg Tf Tg HH ND) as [b [E [B1 B2]]].
  exists b. split; [exact E|]. split.
  - intro H. destruct b; [reflexivity|]. destruct (B2 eq_refl) as [t [D Q]].
    assert (Df : in_dom f t) by (apply (se_dom f g lo); auto).
    specialize (H t _ _ (eval_at f t Vf Df) (eval_at g t Vg D)). qlra.
  - intros Hb t x y E1 E2. apply eval_inv in E1, E2; auto. destruct E1 as [Df ->], E2 as [Dg ->].
    specialize (B1 Hb t Dg). destruct B1 as [B1 B3].
    assert (LB : last_break f g = tm f (pl_len f - 1) \/ last_break f g = tm g (pl_len g - 1)).
    { unfold last_break. destruct (qmax_spec (tm f (pl_len f - 1)) (tm g (pl_len g - 1))) as [[_ ->]|[_ ->]]; auto. }
    assert (LIn : In (last_break f g) (pl_times f ++ pl_times g)).
    { apply in_or_app. destruct LB as [-> | ->]; [left|right]; apply tm_in; lia. }
    assert (LM : forall s, In s (pl_times f ++ pl_times g) -> s <= last_break f g).
    { intros s Hs. unfold last_break. apply in_app_or in Hs.
      assert (tm f (pl_len f - 1) <= last_break f g /\ tm g (pl_len g - 1) <= last_break f g).
      { unfold last_break. destruct (qmax_spec (tm f (pl_len f - 1)) (tm g (pl_len g - 1))) as [[? ->]|[? ->]]; split; qlra. }
      unfold last_break in *.
      destruct Hs as [Hs|Hs]; destruct (in_tm _ _ Hs) as [i [Hi <-]].
      - pose proof (tm_le f Vf i (pl_len f - 1) ltac:(lia) ltac:(lia)). qlra.
      - pose proof (tm_le g Vg i (pl_len g - 1) ltac:(lia) ltac:(lia)). qlra. }
    split.
    + intros [H|[s [Hs Ht]]]; [exact (B3 H)|]. specialize (LM s Hs).
      destruct (qlebP t (last_break f g)); [|qlra]. qlra.
    + intros s Is Hs Ht. assert (s = last_break f g).
      { specialize (Hs _ LIn). specialize (LM _ Is). qlra. }
      subst s. destruct (qlebP t (last_break f g)); [|exact B1].
      assert (K : t = last_break f g) by qlra. rewrite K in *.
      replace (last_break f g - last_break f g) with 0 by ring. qlra.
Qed.
Print Assumptions C15_smaller_equals.

(** Outside that setting: a function whose domain ends earlier (beyond the
    tolerance) is never reported smaller. *)
Theorem C15_shorter_domain : forall f g lo, valid f -> valid g ->
  pl_lo f = Fin lo -> pl_lo g = Fin lo -> pyget (pl_times f) 0 = Ok lo -> pyget (pl_times g) 0 = Ok lo ->
  ext_lt (pl_hi f) (ext_add (pl_hi g) (- eps1000)) -> smaller_equals f g = Ok false.
Proof.
  intros f g lo Vf Vg Lf Lg Tf Tg H. pose proof (len_pos f Vf) as Pf. pose proof (len_pos g Vg) as Pg.
  rewrite get_tm in Tf by lia. rewrite get_tm in Tg by lia. apply ok_inj in Tf, Tg.
  exact (se_short f g lo Vf Vg Lf Lg Tf Tg H).
Qed.
Print Assumptions C15_shorter_domain.

(** ** C16.  [antiderivative f F]: over any interval inside one linear piece
    F grows by the trapezoid area. *)
Theorem C16_integrate : forall f st en, valid f -> Forall (fun v => 0 <= v) (pl_values f) ->
  in_dom f st -> in_dom f en -> st < en ->
  exists y, integrate f st en = Ok y /\ (forall F, antiderivative f F -> y = F en - F st) /\
    (exists F, antiderivative f F).
Proof. exact integrate_full. Qed.
Print Assumptions C16_integrate.

Theorem C16_additive : forall f a b c x y z, valid f -> Forall (fun v => 0 <= v) (pl_values f) ->
  in_dom f a -> in_dom f c -> a < b -> b < c ->
  integrate f a b = Ok x -> integrate f b c = Ok y -> integrate f a c = Ok z -> z = x + y.
Proof. exact integrate_additive. Qed.
Print Assumptions C16_additive.

(** ** C17.  [running_max vs ws]: ws[i] is the greatest of vs[0..i]. *)
Theorem C17_ensure_monotone : forall f, valid f ->
  exists g, ensure_monotone false f = Ok g /\ valid g /\ mono g /\
    pl_times g = pl_times f /\ pl_lo g = pl_lo f /\ pl_hi g = pl_hi f /\
    running_max (pl_values f) (pl_values g) /\ (mono f -> g = f).
Proof.
  intros f V. destruct (ensure_monotone_total f V) as [g E]. exists g.
  destruct (ensure_monotone_gen false f g V E) as [Vg [M [T [L [H [_ [_ [R U]]]]]]]].
  do 7 (split; [assumption|]). exact U.
Qed.
Print Assumptions C17_ensure_monotone.

Theorem C17_monotone_increases : forall f g t u x y, valid f -> ensure_monotone false f = Ok g ->
  t <= u -> pl_eval g t = Ok x -> pl_eval g u = Ok y -> x <= y.
Proof.
  intros f g t u x y V E H E1 E2. destruct (ensure_monotone_gen false f g V E) as [Vg [M _]].
  apply eval_inv in E1, E2; auto. destruct E1 as [_ ->], E2 as [_ ->]. apply at_mono; auto.
Qed.
Print Assumptions C17_monotone_increases.

Theorem C17_checked_mode : forall f, valid f -> mono f -> ensure_monotone true f = Ok f.
Proof. exact ensure_monotone_checked. Qed.
Print Assumptions C17_checked_mode.

(** ** Non-vacuity *)
Definition ex_f : PL := mkPL [0; 1; qz 3] [0; 1; qz 5] 1 (qr 1 2) (Fin 0) PInf.
Definition ex_g : PL := mkPL [0; qz 2] [1; qz 6] 0 (qz 1) (Fin 0) PInf.
Lemma valid_by ts vs a b lo hi : pl_init ts vs a b lo hi = Ok (mkPL ts vs a b lo hi) -> valid (mkPL ts vs a b lo hi).
Proof. intro H. exact (proj2 (pl_init_inv _ _ _ _ _ _ _ H)). Qed.
Example ex_valid : valid ex_f /\ valid ex_g /\ mono ex_f /\ mono ex_g.
Proof.
  split; [apply valid_by; vm_compute; reflexivity|]. split; [apply valid_by; vm_compute; reflexivity|].
  split; (split; [repeat constructor; vm_compute; discriminate|split; vm_compute; discriminate]).
Qed.
Example ex_plus_sep : ext_lt (ext_max (pl_lo ex_f) (pl_lo ex_g)) (ext_min (pl_hi ex_f) (pl_hi ex_g)) /\ plus_sep ex_f ex_g.
Proof.
  split; [intro H; exact H|].
  intros x y Hx Hy Hlt. cbn in Hx, Hy. unfold gap.
  repeat (destruct Hx as [<-|Hx]; [|]); try destruct Hx;
  repeat (destruct Hy as [<-|Hy]; [|]); try destruct Hy;
  vm_compute in Hlt; try discriminate; vm_compute; reflexivity.
Qed.
Definition chk (r : res Qc) (v : Qc) : bool := match r with Ok x => qeqb x v | _ => false end.
Fixpoint eqlist (a b : list Qc) : bool :=
  match a, b with
  | [], [] => true | x :: a', y :: b' => (qeqb x y && eqlist a' b')%bool | _, _ => false
  end.
Definition chkl (r : res (list Qc)) (v : list Qc) : bool := match r with Ok x => eqlist x v | _ => false end.
Example ex_ops :
  chk (pl_eval ex_f (qz 2)) (qz 3) = true /\ chk (pl_eval ex_f (qz 7)) (qz 7) = true /\
  pl_eval ex_f (qz (-1)) = Err AssertionError /\
  chkl (eval_sorted_array ex_f [0; qz 2; qz 2; qz 7]) [0; qz 3; qz 3; qz 7] = true /\
  chk (p <- pl_plus ex_f ex_g ;; pl_eval p (qz 2)) (qz 9) = true /\
  chk (p <- pl_sub ex_f ex_g ;; pl_eval p (qz 2)) (qz (-3)) = true /\
  chk (p <- restrict ex_f (Fin (qr 3 2)) (Fin (qz 4)) ;; pl_eval p (qz 2)) (qz 3) = true /\
  chk (p <- extend_with_slope ex_f (qz 5) (qz 2) ;; pl_eval p (qz 6)) (qz 8) = true /\
  chk (min_t_above ex_f (qz 3)) (qz 2) = true /\
  (match max_t_below ex_f (qz 3) with Ok (Fin t) => qeqb t (qz 2) | _ => false end) = true /\
  chk (inverse ex_f (qz 3) 1) (qz 2) = true /\ chk (integrate ex_f 0 (qz 3)) (qr 13 2) = true /\
  smaller_equals ex_f ex_g = Ok true /\ smaller_equals ex_g ex_f = Ok false /\
  chkl (rmap pl_values (ensure_monotone false (mkPL [0; 1; qz 2] [1; 0; qz 3] (qz (-1)) 1 NInf PInf))) [1; 1; qz 3] = true.
Proof. repeat split; vm_compute; reflexivity. Qed.
Example ex_slopes : slopes_clear ex_f.
Proof.
  intros i Hi. assert (i = 0 \/ i = 1)%Z as [-> | ->] by (cbn in Hi; unfold zlen in Hi; cbn in Hi; lia);
  right; vm_compute; discriminate.
Qed.
Example ex_inverse_hyp : in_range ex_f 1 (qz 3).
Proof. vm_compute. split; [discriminate|left; split; discriminate]. Qed.
(** A composition meeting the hypotheses of C13: kinks at 0, 1, 3 (of f) and 2. *)
Definition ex_h : PL := mkPL [0; qz 3] [0; qz 6] 1 1 NInf PInf.
Example ex_compose : start_ok ex_h ex_f /\ (forall t y, pl_eval ex_f t = Ok y -> in_dom ex_h y) /\
  (forall x y, kink ex_h ex_f x -> kink ex_h ex_f y -> x < y -> gap x y) /\
  chkl (rmap pl_times (compose ex_h ex_f)) [0; 1; qz 2; qz 3] = true.
Proof.
  destruct ex_valid as [Vf [_ [Mf _]]].
  split; [|split; [|split]].
  - intros x Hx _. destruct Hx as [<-|[<-|[]]]; vm_compute; discriminate.
  - intros; split; exact Logic.I.
  - assert (K : forall x, kink ex_h ex_f x -> x = 0 \/ x = 1 \/ x = qz 2 \/ x = qz 3).
    { intros x [D [H|[H|[H U]]]].
      - destruct H as [<-|[<-|[<-|[]]]]; auto.
      - left. cbn [pl_lo ex_f] in H. congruence.
      - destruct H as [H|[H|[]]].
        + left. symmetry. apply U; [vm_compute; split; [discriminate|exact Logic.I]|rewrite <- H; vm_compute; reflexivity].
        + right; right; left. symmetry. apply U; [vm_compute; split; [discriminate|exact Logic.I]|rewrite <- H; vm_compute; reflexivity]. }
    intros x y Kx Ky L. apply K in Kx, Ky.
    destruct Kx as [ -> |[ -> |[ -> | -> ]]], Ky as [ -> |[ -> |[ -> | -> ]]]; vm_compute in L; try discriminate; vm_compute; reflexivity.
  - vm_compute. reflexivity.
Qed.
