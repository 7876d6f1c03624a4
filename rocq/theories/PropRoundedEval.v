(** * C122: evaluating piecewise linear functions with floating-point arithmetic
    Model: RoundedFlow.v [r_pl_eval] (PiecewiseLinear.__call__), Rounded.v [rnd64]; the exact value: Spec.v [pl_at] *)
From Coq Require Import Sorted.
From Verif Require Import Base Spec Arrays ArraysProofs PL PLProofs PLMono DynEdge Rounded RoundedSpec RoundedProofs Rnd64 RoundedFlow PropRoundedFlow RoundedEvalProofs.

(** A function whose data are floats, with increasing breakpoints. *)
Record float_pl (rnd : Qc -> Qc) (f : PL) : Prop := {
  fp_len : length (pl_values f) = length (pl_times f);
  fp_ne : pl_times f <> [];
  fp_sorted : StronglySorted Qclt (pl_times f);
  fp_times : Forall (float rnd) (pl_times f);
  fp_values : Forall (float rnd) (pl_values f);
  fp_first : float rnd (pl_first f);
  fp_last : float rnd (pl_last f) }.

Lemma rank_ex f t : pl_times f <> [] -> StronglySorted Qclt (pl_times f) -> exists i, is_rank (pl_times f) t i.
Proof.
  intros NE SO. destruct (elem_rank_ok (pl_times f) t NE) as (j & _ & J); eauto. clear - SO; induction SO as [|a l S IH H]; constructor; auto; eapply Forall_impl; [|exact H]; intros; cbn in *; qlra.
Qed.
Lemma nth_tm f i t0 : nth_error (pl_times f) i = Some t0 -> tm f (Z.of_nat i) = t0 /\ (Z.of_nat i < pl_len f)%Z.
Proof. intro H. split; [unfold tm, nthq; rewrite Nat2Z.id; apply nth_error_nth; auto|]. assert (i < length (pl_times f))%nat by (apply nth_error_Some; congruence). unfold pl_len, zlen. lia. Qed.
Lemma nth_vl f i v0 : nth_error (pl_values f) i = Some v0 -> vl f (Z.of_nat i) = v0.
Proof. intro H. unfold vl, nthq; rewrite Nat2Z.id; apply nth_error_nth; auto. Qed.
Lemma nth_rank f i t0 t1 t : nth_error (pl_times f) i = Some t0 -> nth_error (pl_times f) (Datatypes.S i) = Some t1 -> t0 < t -> t <= t1 -> is_rank (pl_times f) t (Z.of_nat i).
Proof.
  intros H0 H1 L1 L2. destruct (nth_tm _ _ _ H0) as [E0 B0]. destruct (nth_tm _ _ _ H1) as [E1 B1]. apply is_rank_iff. fold (pl_len f). split; [lia|]. split; intro.
  - fold (tm f (Z.of_nat i)). rewrite E0. exact L1.
  - fold (tm f (Z.of_nat i + 1)). replace (Z.of_nat i + 1)%Z with (Z.of_nat (Datatypes.S i)) by lia. rewrite E1. exact L2.
Qed.

(** Every evaluation inside the domain returns a float, with assertions on and off the same one;
    outside the domain the assertion fails. *)
Theorem C122_total : forall rnd f t, rounding rnd -> sub_exact0 rnd -> float_pl rnd f ->
  (ext_le (pl_lo f) (Fin t) /\ ext_le (Fin t) (pl_hi f) -> exists y, (forall on, r_pl_eval rnd on f t = Ok y) /\ float rnd y) /\
  (~ (ext_le (pl_lo f) (Fin t) /\ ext_le (Fin t) (pl_hi f)) -> r_pl_eval rnd true f t = Err AssertionError).
Proof.
  intros rnd f t RND SUB [L N SO FT FV F1 F2]. split.
  - intro D. destruct (rank_ex f t N SO) as [i IR]. exists (rseg f rnd i t). split; [intro on; apply e_eval; auto; intros _; exact D|]. unfold rseg. apply (rnd_idem rnd RND).
  - intro D. unfold r_pl_eval. destruct (ext_leb (pl_lo f) (Fin t) && ext_leb (Fin t) (pl_hi f))%bool eqn:E; [|reflexivity]. exfalso. apply D. apply (bool_dom f) in E. exact E.
Qed.
Print Assumptions C122_total.

(** Without rounding this is the evaluation of C05 and the other theorems. *)
Theorem C122_exact_instance : forall f t, r_pl_eval (fun x => x) true f t = pl_eval f t.
Proof. exact id_eval. Qed.
Print Assumptions C122_exact_instance.

(** Between two consecutive breakpoints the computed values follow the order of the
    data: where the function increases they do not decrease and do not fall below the
    left value, where it decreases they do not increase and do not exceed it, and where
    it is constant they are exact. *)
Theorem C122_piece : forall rnd on f i t0 t1 v0 v1 t t' y y', rounding rnd -> sub_exact0 rnd -> float_pl rnd f ->
  nth_error (pl_times f) i = Some t0 -> nth_error (pl_times f) (Datatypes.S i) = Some t1 ->
  nth_error (pl_values f) i = Some v0 -> nth_error (pl_values f) (Datatypes.S i) = Some v1 ->
  t0 < t -> t <= t' -> t' <= t1 ->
  r_pl_eval rnd on f t = Ok y -> r_pl_eval rnd on f t' = Ok y' ->
  (v0 <= v1 -> v0 <= y /\ y <= y') /\ (v1 <= v0 -> y' <= y /\ y <= v0) /\ (v0 = v1 -> y = v0 /\ y' = v0).
Proof.
  intros rnd on f i t0 t1 v0 v1 t t' y y' RND SUB [L N SO FT FV F1 F2] T0 T1 V0 V1 A B C E E'.
  destruct (nth_tm _ _ _ T0) as [E0 B0]. destruct (nth_tm _ _ _ T1) as [E1 B1]. apply nth_vl in V1 as W1. apply nth_vl in V0 as W0. set (z := Z.of_nat i) in *. assert (ZI : Z.of_nat (Datatypes.S i) = (z + 1)%Z) by (unfold z; lia). rewrite ZI in *.
  assert (V0f : float rnd (vl f (anc z))) by (replace (anc z) with z by (unfold anc, z; lia); rewrite W0; rewrite Forall_forall in FV; apply FV; eapply nth_error_In; eauto).
  assert (VA : vl f (anc z) = v0) by (replace (anc z) with z by (unfold anc, z; lia); exact W0). assert (TA : tm f (anc z) = t0) by (replace (anc z) with z by (unfold anc, z; lia); exact E0).
  pose proof (e_ok f rnd on t y E) as D. pose proof (e_ok f rnd on t' y' E') as D'.
  rewrite (e_eval f L N SO rnd RND SUB FT on t z) in E by (try exact D; apply (nth_rank f i t0 t1); auto; qlra).
  rewrite (e_eval f L N SO rnd RND SUB FT on t' z) in E' by (try exact D'; apply (nth_rank f i t0 t1); auto; qlra).
  apply ok_inj in E, E'. pose proof (seg_anc f rnd RND z V0f) as SA. rewrite TA in SA. rewrite <- E, <- E'. clear E E' D D'.
  assert (UP : v0 <= v1 -> v0 <= rseg f rnd z t /\ rseg f rnd z t <= rseg f rnd z t').
  { intro G. assert (GR : 0 <= gr f rnd z) by (apply gr_up; auto; [unfold z; lia|rewrite W0, W1; exact G]). rewrite <- VA at 1. rewrite <- SA. split; apply seg_up; auto; qlra. }
  assert (DN : v1 <= v0 -> rseg f rnd z t' <= rseg f rnd z t /\ rseg f rnd z t <= v0).
  { intro G. assert (GR : gr f rnd z <= 0) by (apply gr_down; auto; [unfold z; lia|rewrite W0, W1; exact G]). rewrite <- VA at 1. rewrite <- SA. split; apply seg_down; auto; qlra. }
  split; [exact UP|]. split; [exact DN|]. intro Q. destruct (UP ltac:(qlra)), (DN ltac:(qlra)). split; qlra.
Qed.
Print Assumptions C122_piece.

(** Left of the first breakpoint a function with first slope 0, right of the last one a
    function with last slope 0, and the first breakpoint itself are evaluated exactly. *)
Theorem C122_ends : forall rnd on f t y, rounding rnd -> sub_exact0 rnd -> float_pl rnd f -> r_pl_eval rnd on f t = Ok y ->
  (forall t0 v0, hd_error (pl_times f) = Some t0 -> hd_error (pl_values f) = Some v0 -> t = t0 \/ t <= t0 /\ pl_first f = 0 -> y = v0) /\
  (forall t1 v1, t1 = last (pl_times f) 0 -> v1 = last (pl_values f) 0 -> t1 < t -> pl_last f = 0 -> y = v1).
Proof.
  intros rnd on f t y RND SUB [L N SO FT FV F1 F2] E. pose proof (e_ok f rnd on t y E) as D. assert (LP : (0 < pl_len f)%Z) by (unfold pl_len, zlen; destruct (pl_times f); cbn; [congruence|lia]). split.
  - intros t0 v0 H0 G0 C. assert (Z0 : nth_error (pl_times f) 0 = Some t0) by (destruct (pl_times f); auto). assert (W0 : nth_error (pl_values f) 0 = Some v0) by (destruct (pl_values f); auto).
    destruct (nth_tm _ _ _ Z0) as [E0 _]. apply nth_vl in W0 as V0. cbn [Z.of_nat] in E0, V0.
    assert (V0f : float rnd (vl f (anc (-1)))) by (change (anc (-1)) with 0%Z; rewrite V0; rewrite Forall_forall in FV; apply FV; eapply nth_error_In; eauto).
    assert (IR : is_rank (pl_times f) t (-1)). { apply is_rank_iff. fold (pl_len f). split; [lia|]. split; [lia|]. intros _. change (nthq (pl_times f) (-1 + 1)) with (tm f 0). rewrite E0. destruct C as [->|[C _]]; qlra. }
    rewrite (e_eval f L N SO rnd RND SUB FT on t (-1) D IR) in E. apply ok_inj in E. rewrite <- E. rewrite <- V0. destruct C as [->|[_ S0]].
    + rewrite <- E0. apply (seg_anc f rnd RND (-1) V0f).
    + apply (seg_flat f rnd RND (-1) t); auto.
  - intros t1 v1 H1 G1 C S0.
    assert (TL : tm f (pl_len f - 1) = t1). { rewrite H1. apply nthq_last; auto. }
    assert (VL : vl f (pl_len f - 1) = v1). { rewrite G1. replace (pl_len f) with (zlen (pl_values f)) by (unfold pl_len, zlen; lia). apply nthq_last. intro Q. rewrite Q in L. apply N. destruct (pl_times f); auto; discriminate. }
    assert (AN : anc (pl_len f - 1) = (pl_len f - 1)%Z) by (unfold anc; lia).
    assert (V0f : float rnd (vl f (anc (pl_len f - 1)))). { rewrite AN. unfold vl, nthq. rewrite Forall_forall in FV; apply FV. apply nth_In. unfold pl_len, zlen in *. lia. }
    assert (IR : is_rank (pl_times f) t (pl_len f - 1)). { apply is_rank_iff. fold (pl_len f). split; [lia|]. split; [|lia]. intros _. change (nthq (pl_times f) (pl_len f - 1)) with (tm f (pl_len f - 1)). rewrite TL. exact C. }
    rewrite (e_eval f L N SO rnd RND SUB FT on t _ D IR) in E. apply ok_inj in E. rewrite <- E, <- VL. transitivity (vl f (anc (pl_len f - 1))); [|rewrite AN; reflexivity]. apply (seg_flat f rnd RND _ t); auto. unfold gr. destruct (Z.eqb_spec (pl_len f - 1) (-1)); [lia|]. rewrite Z.eqb_refl. exact S0.
Qed.
Print Assumptions C122_ends.

(** ** The error, for binary64
    [a] is the breakpoint from which the value at [t] is computed: the last one before
    [t], or the first one if [t] is not after it. *)
Definition start_of (f : PL) (t ta va : Qc) : Prop :=
  exists j, nth_error (pl_times f) j = Some ta /\ nth_error (pl_values f) j = Some va /\
    (j = 0%nat /\ t <= ta \/ ta < t /\ forall s, nth_error (pl_times f) (Datatypes.S j) = Some s -> t <= s).
Lemma core_err f t i : float_pl rnd64 f -> float rnd64 t -> is_rank (pl_times f) t i ->
  qabs (rseg f rnd64 i t - pl_at f t) <= u64 * qabs (pl_at f t) + qz 6 * u64 * qabs (pl_at f t - vl f (anc i)) + pow2 (-1074) * (qabs (t - tm f (anc i)) + 1).
Proof.
  intros [L N SO FT FV F1 F2] T IR. pose proof rnd64_rounding as RND. pose proof (proj2 C118_binary64) as SUB. rewrite (e_at f L N SO t i IR).
  assert (LP : (0 < pl_len f)%Z) by (unfold pl_len, zlen; destruct (pl_times f); cbn; [congruence|lia]).
  assert (IB : (-1 <= i < pl_len f)%Z) by (apply is_rank_iff in IR; destruct IR as (R & _); exact R).
  assert (FA : forall j, (0 <= j < pl_len f)%Z -> float rnd64 (tm f j)) by (intros j J; apply e_float; auto).
  assert (FW : forall j, (0 <= j < pl_len f)%Z -> float rnd64 (vl f j)). { intros j J. unfold vl, nthq. rewrite Forall_forall in FV. apply FV, nth_In. unfold pl_len, zlen in J. lia. }
  assert (AB : (0 <= anc i < pl_len f)%Z) by (unfold anc; lia).
  set (ta := tm f (anc i)) in *. set (va := vl f (anc i)) in *.
  destruct (sub64 t ta T (FA _ AB)) as (d1 & S1 & E1).
  assert (HH : h64 + h64 = pow2 (-1074)) by (unfold h64; rewrite <- pow2_S; reflexivity). rewrite <- HH.
  assert (U : 0 <= u64) by (pose proof u_pos; qlra). assert (H : 0 <= h64) by (pose proof h_pos; qlra).
  (* the slope *)
  assert (G : exists dv dt d2 d3 d4 e4, dt <> 0 /\ small u64 d2 /\ small u64 d3 /\ small u64 d4 /\ small h64 e4 /\ slope_q f i = dv / dt /\ gr f rnd64 i = dv * (1 + d2) / (dt * (1 + d3)) * (1 + d4) + e4).
  { assert (N1 : (1 : Qc) <> 0) by discriminate.
    unfold slope_q, gr. destruct (Z.eqb_spec i (-1)) as [->|I1].
    - exists (pl_first f), 1, 0, 0, 0, 0. repeat (split; [first [exact N1|apply small_0; assumption]|]). split; field; discriminate.
    - destruct (Z.eqb_spec i (pl_len f - 1)) as [->|I2].
      + exists (pl_last f), 1, 0, 0, 0, 0. repeat (split; [first [exact N1|apply small_0; assumption]|]). split; field; discriminate.
      + destruct (sub64 (vl f (i + 1)) (vl f i) ltac:(apply FW; lia) ltac:(apply FW; lia)) as (d2 & S2 & E2).
        destruct (sub64 (tm f (i + 1)) (tm f i) ltac:(apply FA; lia) ltac:(apply FA; lia)) as (d3 & S3 & E3).
        destruct (std64 (rnd64 (vl f (i + 1) - vl f i) / rnd64 (tm f (i + 1) - tm f i))) as (d4 & e4 & S4 & SE4 & E4).
        exists (vl f (i + 1) - vl f i), (tm f (i + 1) - tm f i), d2, d3, d4, e4. split; [|repeat (split; [first [assumption|reflexivity]|]); rewrite E4, E2, E3; reflexivity].
        pose proof (e_lt f SO i (i + 1) ltac:(lia) ltac:(lia)) as LT. intro Q. qlra. }
  destruct G as (dv & dt & d2 & d3 & d4 & e4 & ND & S2 & S3 & S4 & SE4 & ES & EG). rewrite ES. unfold rseg. fold ta. fold va.
  destruct (std64 (rnd64 (t - ta) * gr f rnd64 i)) as (d5 & e5 & S5 & SE5 & E5).
  destruct (add64 va (rnd64 (rnd64 (t - ta) * gr f rnd64 i)) (FW _ AB) (rnd64_idem _)) as (d6 & S6 & E6).
  rewrite E6, E5, E1, EG.
  replace (va + (t - ta) * (dv / dt) - va) with ((t - ta) * (dv / dt)) by ring.
  exact (eval_err u64 h64 va (t - ta) dv dt d1 d2 d3 d4 d5 d6 e4 e5 U u_small H ND S1 S2 S3 S4 S5 S6 SE4 SE5).
Qed.
Lemma start_rank f t ta va : start_of f t ta va -> pl_times f <> [] -> exists i, is_rank (pl_times f) t i /\ tm f (anc i) = ta /\ vl f (anc i) = va.
Proof.
  intros (j & T & V & C) N. destruct (nth_tm _ _ _ T) as [E B]. apply nth_vl in V. assert (LP : (0 < pl_len f)%Z) by lia. destruct C as [[-> C]|[C1 C2]].
  - exists (-1)%Z. split; [|split; [exact E|exact V]]. apply is_rank_iff. fold (pl_len f). split; [lia|]. split; [lia|]. intros _. change (nthq (pl_times f) (-1 + 1)) with (tm f (Z.of_nat 0)). rewrite E. exact C.
  - exists (Z.of_nat j). replace (anc (Z.of_nat j)) with (Z.of_nat j) by (unfold anc; lia). split; [|split; [exact E|exact V]]. apply is_rank_iff. fold (pl_len f). split; [lia|]. split.
    + intros _. fold (tm f (Z.of_nat j)). rewrite E. exact C1.
    + intro I. apply C2. replace (Datatypes.S j) with (Z.to_nat (Z.of_nat j + 1)) by lia. apply nthq_nth_error. unfold pl_len in I. lia.
Qed.
(** The computed value differs from the exact one by at most 2^-53 of the exact value,
    6*2^-53 of the change since the breakpoint [ta], and an underflow term. *)
Theorem C122_error : forall on f t ta va y, float_pl rnd64 f -> float rnd64 t -> start_of f t ta va -> r_pl_eval rnd64 on f t = Ok y ->
  qabs (y - pl_at f t) <= pow2 (-53) * qabs (pl_at f t) + qz 6 * pow2 (-53) * qabs (pl_at f t - va) + pow2 (-1074) * (qabs (t - ta) + 1).
Proof.
  intros on f t ta va y FP T SA E. destruct (start_rank f t ta va SA (fp_ne _ _ FP)) as (i & IR & <- & <-).
  pose proof (core_err f t i FP T IR) as C. destruct FP as [L N SO FT FV F1 F2].
  rewrite (e_eval f L N SO rnd64 rnd64_rounding (proj2 C118_binary64) FT on t i (e_ok f rnd64 on t y E) IR) in E. apply ok_inj in E. rewrite <- E. exact C.
Qed.
Print Assumptions C122_error.

Lemma between_abs v0 v1 d dt M : 0 <= d -> d <= dt -> 0 < dt -> qabs v0 <= M -> qabs v1 <= M -> qabs (v0 + d * ((v1 - v0) / dt)) <= M.
Proof.
  intros D0 D1 DT A B. apply abs_le in A, B. apply abs_le. set (l := d / dt). assert (ND : dt <> 0) by (intro Q; rewrite Q in DT; qlra).
  assert (E : v0 + d * ((v1 - v0) / dt) = (1 - l) * v0 + l * v1) by (unfold l; field; auto).
  assert (LE : l * dt = d) by (apply qmul_div; auto). assert (L0 : 0 <= l) by (unfold l, Qcdiv; apply qmul_nn; auto; pose proof (qinv_pos dt DT); qlra).
  assert (L1 : l <= 1) by (destruct (qlebP l 1) as [|G]; auto; exfalso; assert (0 < (l - 1) * dt) by (apply qmul_pos; qlra); assert ((l - 1) * dt = l * dt - dt) by ring; qlra).
  rewrite E. destruct A as (A1 & A2), B as (B1 & B2).
  assert (0 <= (1 - l) * (M - v0)) by (apply qmul_nn; qlra). assert (0 <= l * (M - v1)) by (apply qmul_nn; qlra). assert (0 <= (1 - l) * (v0 + M)) by (apply qmul_nn; qlra). assert (0 <= l * (v1 + M)) by (apply qmul_nn; qlra).
  assert ((1 - l) * (M - v0) + l * (M - v1) = M - ((1 - l) * v0 + l * v1)) by ring. assert ((1 - l) * (v0 + M) + l * (v1 + M) = (1 - l) * v0 + l * v1 + M) by ring. split; qlra.
Qed.
(** Between the first and the last breakpoint, with all values in [-M, M]: the error is at
    most 13*2^-53*M plus an underflow term.  In particular the value computed at a
    breakpoint is this close to the stored one, and a non-negative function is not
    evaluated to less than minus this. *)
Theorem C122_bounded : forall on f t t0 t1 M y, float_pl rnd64 f -> float rnd64 t ->
  hd_error (pl_times f) = Some t0 -> t1 = last (pl_times f) 0 -> t0 <= t -> t <= t1 -> (forall v, In v (pl_values f) -> qabs v <= M) ->
  r_pl_eval rnd64 on f t = Ok y ->
  qabs (y - pl_at f t) <= qz 13 * pow2 (-53) * M + pow2 (-1074) * (t1 - t0 + 1).
Proof.
  intros on f t t0 t1 M y FP T H0 H1 L0 L1 HM E. destruct (rank_ex f t (fp_ne _ _ FP) (fp_sorted _ _ FP)) as [i IR]. pose proof (core_err f t i FP T IR) as C.
  destruct FP as [L N SO FT FV F1 F2]. rewrite (e_eval f L N SO rnd64 rnd64_rounding (proj2 C118_binary64) FT on t i (e_ok f rnd64 on t y E) IR) in E. apply ok_inj in E. rewrite <- E. clear E y.
  assert (LP : (0 < pl_len f)%Z) by (unfold pl_len, zlen; destruct (pl_times f); cbn; [congruence|lia]).
  assert (T0 : tm f 0 = t0). { assert (Z0 : nth_error (pl_times f) 0 = Some t0) by (destruct (pl_times f); auto). apply nth_tm in Z0. apply Z0. }
  assert (TL : tm f (pl_len f - 1) = t1) by (rewrite H1; apply nthq_last; auto).
  assert (VM : forall j, (0 <= j < pl_len f)%Z -> qabs (vl f j) <= M). { intros j J. apply HM. unfold vl, nthq. apply nth_In. unfold pl_len, zlen in J. lia. }
  assert (TT : forall j, (0 <= j < pl_len f)%Z -> t0 <= tm f j /\ tm f j <= t1).
  { intros j J. split; [rewrite <- T0; destruct (Z.eq_dec j 0) as [->|]; [qlra|]|rewrite <- TL; destruct (Z.eq_dec j (pl_len f - 1)) as [->|]; [qlra|]]; apply Qclt_le_weak, (e_lt f SO); lia. }
  assert (AB : (0 <= anc i < pl_len f)%Z) by (apply is_rank_iff in IR; destruct IR as (R & _); fold (pl_len f) in R; unfold anc; lia).
  assert (X : qabs (pl_at f t) <= M /\ qabs (t - tm f (anc i)) <= t1 - t0).
  { rewrite (e_at f L N SO t i IR). apply is_rank_iff in IR. fold (pl_len f) in IR. destruct IR as (R & R1 & R2). unfold slope_q, anc.
    destruct (Z.eqb_spec i (-1)) as [->|I1].
    - specialize (R2 ltac:(lia)). change (nthq (pl_times f) (-1 + 1)) with (tm f 0) in R2. change (Z.max (-1) 0) with 0%Z. rewrite T0 in *. replace (t - t0) with 0 by qlra. replace (vl f 0 + 0 * pl_first f) with (vl f 0) by ring. split; [apply VM; lia|]. apply abs_le. pose proof (TT 0%Z ltac:(lia)). split; qlra.
    - replace (Z.max i 0) with i by lia. specialize (R1 ltac:(lia)). change (nthq (pl_times f) i) with (tm f i) in R1. destruct (TT i ltac:(lia)) as [Q1 Q2].
      destruct (Z.eqb_spec i (pl_len f - 1)) as [->|I2]; [exfalso; rewrite TL in R1; qlra|]. specialize (R2 ltac:(lia)). change (nthq (pl_times f) (i + 1)) with (tm f (i + 1)) in R2. split.
      + apply between_abs; try (apply VM; lia); qlra.
      + apply abs_le. split; qlra. }
  destruct X as [X1 X2]. pose proof (VM _ AB) as VA.
  assert (X3 : qabs (pl_at f t - vl f (anc i)) <= M + M). { apply abs_le in X1, VA. apply abs_le. split; qlra. }
  pose proof u_pos as U. pose proof (pow2_pos (-1074)) as W. fold u64.
  assert (0 <= u64 * (M - qabs (pl_at f t))) by (apply qmul_nn; qlra). assert (0 <= (qz 6 * u64) * (M + M - qabs (pl_at f t - vl f (anc i)))) by (apply qmul_nn; [apply qmul_nn; [discriminate|qlra]|qlra]).
  assert (0 <= pow2 (-1074) * (t1 - t0 - qabs (t - tm f (anc i)))) by (apply qmul_nn; qlra).
  assert (Z13 : qz 13 = 1 + qz 6 + qz 6) by (apply Qc_is_canon; reflexivity). rewrite Z13.
  assert (EQ : u64 * (M - qabs (pl_at f t)) + qz 6 * u64 * (M + M - qabs (pl_at f t - vl f (anc i))) + pow2 (-1074) * (t1 - t0 - qabs (t - tm f (anc i)))
    = (1 + qz 6 + qz 6) * u64 * M + pow2 (-1074) * (t1 - t0 + 1) - (u64 * qabs (pl_at f t) + qz 6 * u64 * qabs (pl_at f t - vl f (anc i)) + pow2 (-1074) * (qabs (t - tm f (anc i)) + 1))) by ring.
  clear - H H2 H3 EQ C. qlra.
Qed.
Print Assumptions C122_bounded.

(** ** Witnesses with binary64 *)
Definition up29 : PL := mkPL [0; qz 7; qz 8] [0; qz 29; qz 29] 0 0 NInf PInf.
Definition down29 : PL := mkPL [0; qz 7] [qz 29; 0] 0 0 NInf PInf.
Ltac f64 := match goal with |- float rnd64 ?x => unfold float; first [reflexivity | apply Qc_is_canon; vm_compute; reflexivity] end.
Lemma sorted2 (a b c : Qc) : a < b -> b < c -> StronglySorted Qclt [a; b; c].
Proof. intros. repeat constructor; auto; qlra. Qed.
Lemma up29_ok : float_pl rnd64 up29.
Proof. constructor; [reflexivity|discriminate|apply sorted2; reflexivity|repeat (apply Forall_cons; [f64|]); apply Forall_nil|repeat (apply Forall_cons; [f64|]); apply Forall_nil|f64|f64]. Qed.
Lemma down29_ok : float_pl rnd64 down29.
Proof. constructor; [reflexivity|discriminate|repeat constructor; reflexivity|repeat (apply Forall_cons; [f64|]); apply Forall_nil|repeat (apply Forall_cons; [f64|]); apply Forall_nil|f64|f64]. Qed.
Definition okq (r : res Qc) (p : Qc -> bool) : bool := match r with Ok y => p y | Err _ => false end.
Lemma okq_ex r p : okq r p = true -> exists y, r = Ok y /\ p y = true.
Proof. destruct r as [y|]; cbn; [eauto|discriminate]. Qed.
(** A non-negative function is evaluated to a negative number, and at a breakpoint to
    something else than the value given there: (0,29), (7,0) at 7. *)
Theorem C122_sign_refuted : ~ (forall f t y, float_pl rnd64 f -> float rnd64 t -> (forall s, 0 <= pl_at f s) -> r_pl_eval rnd64 true f t = Ok y -> 0 <= y).
Proof.
  intro H. assert (B : okq (r_pl_eval rnd64 true down29 (qz 7)) (fun y => qltb y 0) = true) by (vm_compute; reflexivity). apply okq_ex in B. destruct B as (y & E & Y). apply qltb_true in Y.
  assert (P : forall s, 0 <= pl_at down29 s).
  { intro s. destruct (rank_ex down29 s ltac:(discriminate) (fp_sorted _ _ down29_ok)) as [i IR]. rewrite (e_at down29 eq_refl ltac:(discriminate) (fp_sorted _ _ down29_ok) s i IR). apply is_rank_iff in IR. destruct IR as (R & R1 & R2).
    change (zlen (pl_times down29)) with 2%Z in *. assert (i = -1 \/ i = 0 \/ i = 1)%Z as [-> |[-> | ->]] by lia.
    - change (0 <= qz 29 + (s - 0) * 0). replace (qz 29 + (s - 0) * 0) with (qz 29) by ring. discriminate.
    - specialize (R1 ltac:(lia)). specialize (R2 ltac:(lia)). change (0 < s) in R1. change (s <= qz 7) in R2. change (0 <= qz 29 + (s - 0) * ((0 - qz 29) / (qz 7 - 0))).
      assert (0 <= (qz 29 / qz 7) * (qz 7 - s)) by (apply qmul_nn; [discriminate|qlra]). assert (qz 29 / qz 7 * (qz 7 - s) = qz 29 + (s - 0) * ((0 - qz 29) / (qz 7 - 0))) by (field; discriminate). qlra.
    - change (0 <= 0 + (s - qz 7) * 0). replace (0 + (s - qz 7) * 0) with 0 by ring. qlra. }
  pose proof (H down29 (qz 7) y down29_ok ltac:(f64) P E). qlra.
Qed.
Print Assumptions C122_sign_refuted.
Theorem C122_breakpoint_refuted : ~ (forall f i t v y, float_pl rnd64 f -> nth_error (pl_times f) i = Some t -> nth_error (pl_values f) i = Some v -> r_pl_eval rnd64 true f t = Ok y -> y = v).
Proof.
  intro H. assert (B : okq (r_pl_eval rnd64 true down29 (qz 7)) (fun y => qltb y 0) = true) by (vm_compute; reflexivity). apply okq_ex in B. destruct B as (y & E & Y). apply qltb_true in Y.
  pose proof (H down29 1%nat (qz 7) 0 y down29_ok eq_refl eq_refl E). qlra.
Qed.
Print Assumptions C122_breakpoint_refuted.
(** A non-decreasing function is evaluated to a smaller value at a later time, across a
    breakpoint: (0,0), (7,29), (8,29) at 7 and 8. *)
Theorem C122_monotone_refuted : ~ (forall f t t' y y', float_pl rnd64 f -> float rnd64 t -> float rnd64 t' -> StronglySorted Qcle (pl_values f) -> pl_first f = 0 -> pl_last f = 0 -> t <= t' ->
  r_pl_eval rnd64 true f t = Ok y -> r_pl_eval rnd64 true f t' = Ok y' -> y <= y').
Proof.
  intro H. assert (B : okq (r_pl_eval rnd64 true up29 (qz 7)) (fun y => qltb (qz 29) y) = true) by (vm_compute; reflexivity). apply okq_ex in B. destruct B as (y & E & Y). apply qltb_true in Y.
  assert (B : okq (r_pl_eval rnd64 true up29 (qz 8)) (fun y => qleb y (qz 29)) = true) by (vm_compute; reflexivity). apply okq_ex in B. destruct B as (y' & E' & Y'). apply qleb_true in Y'.
  assert (S : StronglySorted Qcle (pl_values up29)) by (repeat constructor; discriminate).
  pose proof (H up29 (qz 7) (qz 8) y y' up29_ok ltac:(f64) ltac:(f64) S eq_refl eq_refl ltac:(discriminate) E E'). qlra.
Qed.
Print Assumptions C122_monotone_refuted.

(** Hypotheses are met: [up29] is evaluated inside a piece with rounding errors. *)
Example C122_example : float_pl rnd64 up29 /\ float rnd64 (qz 3) /\ start_of up29 (qz 3) 0 0 /\
  okq (r_pl_eval rnd64 true up29 (qz 3)) (fun y => negb (qeqb y (pl_at up29 (qz 3)))) = true.
Proof.
  split; [apply up29_ok|]. split; [f64|]. split; [|vm_compute; reflexivity]. exists 0%nat. split; [reflexivity|]. split; [reflexivity|]. right. split; [reflexivity|]. intros s H. injection H as <-. discriminate.
Qed.
