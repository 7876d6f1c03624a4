(** * Proofs: monotone functions, inverse, min_t_above, max_t_below, ensure_monotone (C12, C17) *)
From Verif Require Import Base Spec Arrays ArraysProofs PL PLProofs PLEval PLArith PLOps.

(** Values non-decreasing and both outer slopes non-negative. *)
Definition mono (f : PL) : Prop := nondecreasing (pl_values f) /\ 0 <= pl_first f /\ 0 <= pl_last f.

Lemma nondec_b_iff l : nondec_b l = true <-> nondecreasing l.
Proof.
  induction l as [|a [|b r] IH].
  - split; intros; [constructor|reflexivity].
  - split; intros; [repeat constructor|reflexivity].
  - cbn [nondec_b]. rewrite andb_true_iff, qleb_true. rewrite IH. split.
    + intros [H1 H2]. constructor; [exact H2|]. inversion H2; subst. constructor; [exact H1|].
      eapply Forall_impl; [|exact H4]. intros; qlra.
    + intros H. inversion H; subst. split; [|exact H2]. inversion H3; auto.
Qed.
Lemma is_monotone_iff f : is_monotone f = true <-> nondecreasing (pl_values f).
Proof. apply nondec_b_iff. Qed.

Section M.
Variable f : PL.
Hypothesis V : valid f.
Hypothesis N : nondecreasing (pl_values f).

Lemma vl_mono i j : (0 <= i <= j)%Z -> (j < pl_len f)%Z -> vl f i <= vl f j.
Proof. intros. unfold vl. apply sorted_le_nthq; auto. rewrite (len_vals f V). lia. Qed.

Hypothesis F0 : 0 <= pl_first f.
Hypothesis L0 : 0 <= pl_last f.

Lemma slope_nonneg i : (-1 <= i < pl_len f)%Z -> 0 <= slope_q f i.
Proof.
  intro H. unfold slope_q. destruct (Z.eqb_spec i (-1)); [exact F0|].
  destruct (Z.eqb_spec i (pl_len f - 1)); [exact L0|].
  apply qdiv_nonneg.
  - pose proof (vl_mono i (i+1) ltac:(lia) ltac:(lia)). qlra.
  - pose proof (tm_lt f V i (i+1) ltac:(lia) ltac:(lia)). qlra.
Qed.
End M.

Lemma rank_in_seg f t i : is_rank (pl_times f) t i -> in_seg f i t.
Proof.
  intro R. apply is_rank_iff in R. destruct R as [R1 [R2 R3]]. unfold pl_len, tm in *.
  split; intro; [pose proof (R2 H); unfold tm; qlra|]. unfold tm. apply R3. unfold pl_len in H; lia.
Qed.

Lemma at_mono f t u : valid f -> mono f -> t <= u -> pl_at f t <= pl_at f u.
Proof.
  intros V [N [F0 L0]] Hle.
  destruct (rank_exists f t V) as [i Ri]. destruct (rank_exists f u V) as [j Rj].
  pose proof (rank_mono _ _ _ _ _ (times_sorted f V) Hle Ri Rj) as Hij.
  pose proof (rank_in_seg _ _ _ Ri) as Si. pose proof (rank_in_seg _ _ _ Rj) as Sj.
  assert (Bi : (-1 <= i < pl_len f)%Z) by (apply is_rank_iff in Ri; unfold pl_len; tauto).
  assert (Bj : (-1 <= j < pl_len f)%Z) by (apply is_rank_iff in Rj; unfold pl_len; tauto).
  destruct (Z.eq_dec i j) as [<-|Hne].
  - rewrite (at_slope f i u t V Bi Sj Si).
    pose proof (slope_nonneg f V N F0 L0 i Bi). set (s := slope_q f i) in *. qnra.
  - assert (T1 : t <= tm f (i+1)) by (apply Si; lia).
    assert (T2 : tm f j <= u) by (apply Sj; lia).
    rewrite (at_slope f i t (tm f (i+1)) V Bi Si) by (apply in_seg_tm1; [exact V|lia]).
    rewrite (at_slope f j u (tm f j) V Bj Sj) by (apply in_seg_tm; [exact V|lia]).
    rewrite !at_tm by (auto; lia).
    pose proof (vl_mono f V N (i+1) j ltac:(lia) ltac:(lia)).
    pose proof (slope_nonneg f V N F0 L0 i Bi). pose proof (slope_nonneg f V N F0 L0 j Bj).
    set (s := slope_q f i) in *. set (s' := slope_q f j) in *.
    assert ((t - tm f (i+1)) * s <= 0) by qnra. assert (0 <= (u - tm f j) * s') by qnra. qlra.
Qed.

(** Exact precondition under which [inverse] is right. *)
Definition in_range (f : PL) (i : Z) (x : Qc) : Prop :=
  if (i =? -1)%Z then (0 < pl_first f /\ x <= vl f 0) \/ (pl_first f < 0 /\ vl f 0 <= x)
  else if (i =? pl_len f - 1)%Z then
    (0 < pl_last f /\ vl f (pl_len f - 1) <= x) \/ (pl_last f < 0 /\ x <= vl f (pl_len f - 1))
  else vl f i <> vl f (i+1) /\
       ((vl f i <= x /\ x <= vl f (i+1)) \/ (x <= vl f i /\ vl f (i+1) <= x)).

Lemma inverse_first f x : valid f -> in_range f (-1) x ->
  inverse f x (-1) = Ok (tm f 0 + (x - vl f 0) / pl_first f).
Proof.
  intros V R. pose proof (len_pos f V). unfold inverse.
  destruct (Z.ltb_spec (-1) (pl_len f)); [|lia].
  cbn [andb Z.leb Z.compare Pos.compare Pos.compare_cont CompOpp assertb bind].
  change (-1 =? -1)%Z with true. cbn iota.
  rewrite (gradient_ok f V) by lia. cbn [bind]. rewrite (get_vl f V), (get_tm f) by lia. cbn [bind].
  unfold in_range in R. change (-1 =? -1)%Z with true in R. cbn iota in R.
  change (slope_q f (-1)) with (pl_first f).
  assert (B : ((qltb 0 (pl_first f) && qleb x (vl f 0)) || (qltb (pl_first f) 0 && qleb (vl f 0) x))%bool = true).
  { apply orb_true_iff. rewrite !andb_true_iff, !qltb_true, !qleb_true. exact R. }
  rewrite B. cbn [assertb bind]. rewrite pydiv_ok by (destruct R; qlra). reflexivity.
Qed.

Lemma inverse_last f x : valid f ->
  (0 < pl_last f /\ vl f 0 <= x) \/ (pl_last f < 0 /\ x <= vl f 0) ->
  inverse f x (pl_len f - 1) = Ok (tm f (pl_len f - 1) + (x - vl f (pl_len f - 1)) / pl_last f).
Proof.
  intros V R. pose proof (len_pos f V). unfold inverse.
  destruct (Z.ltb_spec (pl_len f - 1) (pl_len f)); [|lia].
  destruct (Z.leb_spec (-1) (pl_len f - 1)); [|lia].
  cbn [andb assertb bind].
  destruct (Z.eqb_spec (pl_len f - 1) (-1)); [lia|]. rewrite Z.eqb_refl.
  rewrite (gradient_ok f V) by lia. cbn [bind]. rewrite (get_vl f V) by lia. cbn [bind].
  rewrite (get_tm_last f V), (get_vl_last f V). cbn [bind].
  assert (E : slope_q f (pl_len f - 1) = pl_last f).
  { unfold slope_q. destruct (Z.eqb_spec (pl_len f - 1) (-1)); [lia|]. rewrite Z.eqb_refl. reflexivity. }
  rewrite E.
  assert (B : ((qltb 0 (pl_last f) && qleb (vl f 0) x) || (qltb (pl_last f) 0 && qleb x (vl f 0)))%bool = true).
  { apply orb_true_iff. rewrite !andb_true_iff, !qltb_true, !qleb_true. exact R. }
  rewrite B. cbn [assertb bind]. rewrite pydiv_ok by (destruct R; qlra). reflexivity.
Qed.

Lemma inverse_mid f x i : valid f -> (0 <= i < pl_len f - 1)%Z -> vl f i <> vl f (i+1) ->
  (vl f i <= x /\ x <= vl f (i+1)) \/ (x <= vl f i /\ vl f (i+1) <= x) ->
  exists t, inverse f x i = Ok t /\ tm f i <= t /\ t <= tm f (i+1) /\ pl_at f t = x.
Proof.
  intros V Hi Hne R. unfold inverse.
  destruct (Z.ltb_spec i (pl_len f)); [|lia].
  destruct (Z.leb_spec (-1) i); [|lia]. cbn [andb assertb bind].
  destruct (Z.eqb_spec i (-1)); [lia|]. destruct (Z.eqb_spec i (pl_len f - 1)); [lia|].
  rewrite !(get_vl f V), !(get_tm f) by lia. cbn [bind].
  set (va := vl f i) in *. set (vb := vl f (i+1)) in *.
  assert (B1 : (qltb va vb || qltb vb va)%bool = true).
  { apply orb_true_iff. rewrite !qltb_true. apply qc_ne_lt; exact Hne. }
  assert (B2 : ((qleb va x && qleb x vb) || (qleb x va && qleb vb x))%bool = true).
  { apply orb_true_iff. rewrite !andb_true_iff, !qleb_true. exact R. }
  rewrite B1, B2. cbn [assertb bind]. rewrite pydiv_ok by (intro; apply Hne; qlra). cbn [bind].
  pose proof (tm_lt f V i (i+1) ltac:(lia) ltac:(lia)) as Ht.
  set (ta := tm f i) in *. set (tb := tm f (i+1)) in *.
  assert (D : va - vb <> 0) by (intro; apply Hne; qlra).
  assert (L : 0 <= (x - vb) / (va - vb) /\ (x - vb) / (va - vb) <= 1).
  { destruct R as [[R1 R2]|[R1 R2]].
    - replace ((x - vb) / (va - vb)) with ((vb - x) / (vb - va)) by (field; split; intro; apply D; qlra).
      assert (0 < vb - va) by (destruct (qc_ne_lt _ _ Hne); qlra). split; [apply qdiv_nonneg; qlra|].
      assert (0 <= (x - va) / (vb - va)) by (apply qdiv_nonneg; qlra).
      replace ((vb - x) / (vb - va)) with (1 - (x - va) / (vb - va)) by (field; intro; apply D; qlra). qlra.
    - assert (0 < va - vb) by (destruct (qc_ne_lt _ _ Hne); qlra). split; [apply qdiv_nonneg; qlra|].
      assert (0 <= (va - x) / (va - vb)) by (apply qdiv_nonneg; qlra).
      replace ((x - vb) / (va - vb)) with (1 - (va - x) / (va - vb)) by (field; intro; apply D; qlra). qlra. }
  set (lm := (x - vb) / (va - vb)) in *.
  exists (lm * ta + (1 - lm) * tb). split; [reflexivity|].
  assert (B : ta <= lm * ta + (1 - lm) * tb /\ lm * ta + (1 - lm) * tb <= tb) by (destruct L; split; qnra).
  destruct B as [Ba Bb]. do 2 (split; [assumption|]).
  rewrite (at_seg f _ i V Hi Ba Bb). fold va vb ta tb. unfold lm. field. split; [intro; qlra|exact D].
Qed.

Lemma inverse_ok f x i : valid f -> (-1 <= i < pl_len f)%Z -> in_range f i x ->
  (i = (pl_len f - 1)%Z -> (0 < pl_last f /\ vl f 0 <= x) \/ (pl_last f < 0 /\ x <= vl f 0)) ->
  exists t, inverse f x i = Ok t /\ in_seg f i t /\ pl_at f t = x.
Proof.
  intros V Hi R R0. pose proof (len_pos f V). unfold in_seg. unfold in_range in R.
  destruct (Z.eqb_spec i (-1)) as [->|Hn1].
  - exists (tm f 0 + (x - vl f 0) / pl_first f). rewrite inverse_first; auto.
    assert (T : tm f 0 + (x - vl f 0) / pl_first f <= tm f 0).
    { assert (0 <= (vl f 0 - x) / pl_first f).
      { destruct R as [[? ?]|[? ?]]; [apply qdiv_nonneg; qlra|].
        replace ((vl f 0 - x) / pl_first f) with ((x - vl f 0) / (- pl_first f)) by (field; split; intro; qlra).
        apply qdiv_nonneg; qlra. }
      replace ((x - vl f 0) / pl_first f) with (- ((vl f 0 - x) / pl_first f)) by (field; destruct R; intro; qlra).
      qlra. }
    split; [reflexivity|]. split; [split; intro; [lia|exact T]|].
    rewrite at_left by auto. field. destruct R; intro; qlra.
  - destruct (Z.eqb_spec i (pl_len f - 1)) as [->|Hnl].
    + rewrite inverse_last; auto. eexists; split; [reflexivity|].
      assert (T : tm f (pl_len f - 1) <= tm f (pl_len f - 1) + (x - vl f (pl_len f - 1)) / pl_last f).
      { set (vn := vl f (pl_len f - 1)) in *.
        assert (0 <= (x - vn) / pl_last f).
        { destruct R as [[? ?]|[? ?]]; [apply qdiv_nonneg; qlra|].
          replace ((x - vn) / pl_last f) with ((vn - x) / (- pl_last f)) by (field; split; intro; qlra).
          apply qdiv_nonneg; qlra. }
        qlra. }
      split; [split; intro; [exact T|lia]|].
      rewrite at_right by auto. field. destruct R; intro; qlra.
    + destruct R as [Hne R]. destruct (inverse_mid f x i V ltac:(lia) Hne R) as [t [E [T1 [T2 A]]]].
      exists t. split; [exact E|]. split; [split; intro; assumption|exact A].
Qed.

(** On a function with non-decreasing values the extra test is implied. *)
Lemma inverse_mono_ok f x i : valid f -> nondecreasing (pl_values f) -> 0 <= pl_last f ->
  (-1 <= i < pl_len f)%Z -> in_range f i x ->
  exists t, inverse f x i = Ok t /\ in_seg f i t /\ pl_at f t = x.
Proof.
  intros V N L0 Hi R. apply inverse_ok; auto. intros ->. pose proof (len_pos f V).
  unfold in_range in R. destruct (Z.eqb_spec (pl_len f - 1) (-1)); [lia|]. rewrite Z.eqb_refl in R.
  destruct R as [[R1 R2]|[R1 R2]]; [left|qlra]. split; [exact R1|].
  pose proof (vl_mono f V N 0 (pl_len f - 1) ltac:(lia) ltac:(lia)). qlra.
Qed.

(** Values at the domain ends. *)
Lemma eval_ext_hi f : valid f -> exists e, pl_eval_ext f (pl_hi f) = Ok e /\
  match pl_hi f with
  | Fin h => e = Fin (pl_at f h)
  | PInf => e = if qeqb (pl_last f) 0 then Fin (vl f (pl_len f - 1)) else inf_mul true (pl_last f)
  | NInf => True
  end.
Proof.
  intro V. pose proof (len_pos f V).
  assert (D : in_dom f (tm f (pl_len f - 1))) by (apply (v_dom f V); apply tm_in; lia).
  destruct D as [D1 D2].
  destruct (pl_hi f) as [|h|] eqn:Eh; [destruct D2| |].
  - cbn [pl_eval_ext].
    assert (Dh : in_dom f h).
    { split; [|rewrite Eh; apply ext_le_refl]. eapply ext_le_trans; [exact D1|exact D2]. }
    rewrite (eval_at f h V Dh). cbn [bind]. eauto.
  - unfold pl_eval_ext. rewrite Eh. cbn [ext_leb assertb bind].
    rewrite (gradient_ok f V) by lia. cbn [bind]. rewrite (get_vl_last f V). cbn [bind].
    assert (E : slope_q f (pl_len f - 1) = pl_last f).
    { unfold slope_q. destruct (Z.eqb_spec (pl_len f - 1) (-1)); [lia|]. rewrite Z.eqb_refl. reflexivity. }
    rewrite E. destruct (qeqb (pl_last f) 0); eauto.
Qed.
Lemma eval_ext_lo f : valid f -> exists e, pl_eval_ext f (pl_lo f) = Ok e /\
  match pl_lo f with
  | Fin h => e = Fin (pl_at f h)
  | NInf => e = if qeqb (pl_first f) 0 then Fin (vl f 0) else inf_mul false (pl_first f)
  | PInf => False
  end.
Proof.
  intro V. pose proof (len_pos f V).
  assert (D : in_dom f (tm f 0)) by (apply (v_dom f V); apply tm_in; lia).
  destruct D as [D1 D2].
  destruct (pl_lo f) as [|h|] eqn:Eh; [| |destruct D1].
  - unfold pl_eval_ext. rewrite Eh. cbn [ext_leb assertb bind].
    rewrite (gradient_ok f V) by lia. cbn [bind]. rewrite (get_vl f V) by lia. cbn [bind].
    change (slope_q f (-1)) with (pl_first f). destruct (qeqb (pl_first f) 0); eauto.
  - cbn [pl_eval_ext].
    assert (Dh : in_dom f h).
    { split; [rewrite Eh; apply ext_le_refl|]. eapply ext_le_trans; [exact D1|exact D2]. }
    rewrite (eval_at f h V Dh). cbn [bind]. eauto.
Qed.

(** [t] is the least domain time with f(t) >= b. *)
Definition is_min_t_above (f : PL) (b t : Qc) : Prop :=
  (exists y, pl_eval f t = Ok y /\ b <= y) /\
  (forall u y, pl_eval f u = Ok y -> b <= y -> t <= u).

Lemma hi_dom f t : valid f -> in_dom f t -> forall u, t <= u -> ext_le (Fin u) (pl_hi f) -> in_dom f u.
Proof. intros V [D1 D2] u H1 H2. split; [|exact H2]. eapply ext_le_trans; [exact D1|exact H1]. Qed.

Lemma qmul_div a b : b <> 0 -> a / b * b = a.
Proof. apply qdiv_mul. Qed.

Lemma min_t_above_ok f b : valid f -> mono f ->
  (exists t y, pl_eval f t = Ok y /\ b <= y) ->
  (0 < pl_first f \/ vl f 0 < b) ->
  exists t, min_t_above f b = Ok t /\ is_min_t_above f b t.
Proof.
  intros V M [t0 [y0 [Ht0 Hy0]]] HF. destruct (eval_inv f t0 y0 V Ht0) as [D0 ->].
  pose proof M as [N [F0 L0]]. pose proof (len_pos f V) as LP.
  unfold min_t_above. rewrite (proj2 (is_monotone_iff f) N). cbn [assertb bind].
  destruct (eval_ext_hi f V) as [e [Ee He]]. rewrite Ee. cbn [bind].
  assert (B : ext_leb (Fin b) e = true).
  { destruct (ext_lebP (Fin b) e) as [|HN]; [reflexivity|]. exfalso. apply HN. clear HN.
    destruct D0 as [D1 D2]. destruct (pl_hi f) as [|h|] eqn:Eh; [destruct D2| |].
    - subst e. change (b <= pl_at f h). change (t0 <= h) in D2. pose proof (at_mono f t0 h V M D2). qlra.
    - subst e. destruct (qeqbP (pl_last f) 0) as [E0|E0].
      + change (b <= vl f (pl_len f - 1)).
        assert (t0 <= tm f (pl_len f - 1) \/ tm f (pl_len f - 1) <= t0) as [C|C] by (destruct (qlebP t0 (tm f (pl_len f - 1))); [left|right]; qlra).
        * pose proof (at_mono f _ _ V M C) as A. rewrite at_tm in A by (auto; lia). qlra.
        * rewrite (at_right f t0 V C), E0 in Hy0. qlra.
      + unfold inf_mul. destruct (qltbP 0 (pl_last f)); [exact I|qlra]. }
  rewrite B. cbn [assertb bind].
  assert (NE : pl_values f <> []).
  { intro E. pose proof (len_vals f V) as E1. rewrite E in E1. unfold zlen in E1; cbn [length] in E1. lia. }
  destruct (elem_rank_ok (pl_values f) b NE N) as [i [Ei Ri]]. rewrite Ei. cbn [bind].
  apply is_rank_iff in Ri. destruct Ri as [R1 [R2 R3]]. rewrite (len_vals f V) in *.
  fold (vl f i) in R2. fold (vl f (i+1)) in R3.
  assert (IR : in_range f i b).
  { unfold in_range. destruct (Z.eqb_spec i (-1)) as [->|Hn].
    - left. destruct HF; [|].
      + split; [assumption|]. apply R3; lia.
      + exfalso. specialize (R3 ltac:(lia)). change (-1+1)%Z with 0%Z in R3. qlra.
    - destruct (Z.eqb_spec i (pl_len f - 1)) as [->|Hl].
      + specialize (R2 ltac:(lia)). left. split; [|qlra].
        destruct (qltbP 0 (pl_last f)) as [|HN]; [assumption|].
        assert (E0 : pl_last f = 0) by qlra. exfalso.
        assert (t0 <= tm f (pl_len f - 1) \/ tm f (pl_len f - 1) <= t0) as [C|C] by (destruct (qlebP t0 (tm f (pl_len f - 1))); [left|right]; qlra).
        * pose proof (at_mono f _ _ V M C) as A. rewrite at_tm in A by (auto; lia). qlra.
        * rewrite (at_right f t0 V C), E0 in Hy0. qlra.
      + specialize (R2 ltac:(lia)). specialize (R3 ltac:(lia)). split; [qlra|left; qlra]. }
  destruct (inverse_mono_ok f b i V N L0 ltac:(lia) IR) as [t [Et [St At]]]. rewrite Et. cbn [bind].
  (* every time with value >= b is >= t *)
  assert (LE : forall u, b <= pl_at f u -> t <= u).
  { intros u Hu. destruct (qlebP t u) as [|HN]; [assumption|]. exfalso.
    assert (Hut : u < t) by qlra.
    (* the function is strictly increasing just left of t *)
    assert (SP : 0 < slope_q f i).
    { unfold slope_q, in_range in *. destruct (Z.eqb_spec i (-1)) as [->|Hn].
      - destruct IR as [[? ?]|[? ?]]; [assumption|qlra].
      - destruct (Z.eqb_spec i (pl_len f - 1)).
        + destruct IR as [[? ?]|[? ?]]; [assumption|qlra].
        + specialize (R2 ltac:(lia)). specialize (R3 ltac:(lia)). apply qdiv_pos; [qlra|].
          pose proof (tm_lt f V i (i+1) ltac:(lia) ltac:(lia)). qlra. }
    destruct (Z.eq_dec i (-1)) as [->|Hn].
    - assert (Su : in_seg f (-1) u).
      { split; intro; [lia|]. destruct St as [_ St]. specialize (St H). qlra. }
      rewrite (at_slope f (-1) u t V ltac:(lia) Su St) in Hu. set (s := slope_q f (-1)) in *. qnra.
    - specialize (R2 ltac:(lia)).
      destruct (qlebP (tm f i) u) as [C|C].
      + assert (Su : in_seg f i u).
        { split; intro; [exact C|]. destruct St as [_ St]. specialize (St H). qlra. }
        rewrite (at_slope f i u t V ltac:(lia) Su St) in Hu. set (s := slope_q f i) in *. qnra.
      + assert (C' : u <= tm f i) by qlra. pose proof (at_mono f _ _ V M C') as A.
        rewrite at_tm in A by (auto; lia). qlra. }
  assert (T0 : t <= t0) by (apply LE; exact Hy0).
  assert (EV : forall u, ext_le (pl_lo f) (Fin u) -> u <= t0 -> t <= u ->
             exists y, pl_eval f u = Ok y /\ b <= y).
  { intros u D1 H1 H2. assert (D : in_dom f u).
    { split; [exact D1|]. destruct D0 as [_ D2]. eapply ext_le_trans; [|exact D2]. exact H1. }
    exists (pl_at f u). split; [apply eval_at; auto|].
    pose proof (at_mono f t u V M H2). qlra. }
  destruct (pl_lo f) as [|l|] eqn:El.
  - exists t. split; [reflexivity|]. split.
    + apply EV; [exact I|exact T0|qlra].
    + intros u y Hu Hy. destruct (eval_inv f u y V Hu) as [_ ->]. auto.
  - exists (qmax l t). split; [reflexivity|].
    assert (Dl : l <= t0). { destruct D0 as [D1 _]. rewrite El in D1. exact D1. }
    split.
    + apply EV; [change (l <= qmax l t)| |]; qmm; qlra.
    + intros u y Hu Hy. destruct (eval_inv f u y V Hu) as [Du ->].
      assert (l <= u). { destruct Du as [D1 _]. rewrite El in D1. exact D1. }
      pose proof (LE u Hy). qmm; qlra.
  - exfalso. destruct D0 as [D1 _]. rewrite El in D1. destruct D1.
Qed.

(** The excluded case: flat on the left and the bound already met at the
    first breakpoint. *)
Lemma min_t_above_flat_raises f b : valid f -> nondecreasing (pl_values f) ->
  pl_first f = 0 -> b <= vl f 0 -> min_t_above f b = Err AssertionError.
Proof.
  intros V N F0 Hb. pose proof (len_pos f V) as LP.
  unfold min_t_above. rewrite (proj2 (is_monotone_iff f) N). cbn [assertb bind].
  destruct (eval_ext_hi f V) as [e [Ee He]]. rewrite Ee. cbn [bind].
  destruct (ext_leb (Fin b) e); cbn [assertb bind]; [|reflexivity].
  assert (NE : pl_values f <> []).
  { intro E. pose proof (len_vals f V) as E1. rewrite E in E1. unfold zlen in E1; cbn [length] in E1. lia. }
  unfold elem_rank. rewrite (get_vl f V) by lia. cbn [bind].
  rewrite (proj2 (qleb_true _ _) Hb). cbn [bind].
  unfold inverse. destruct (Z.ltb_spec (-1) (pl_len f)); [|lia].
  cbn [andb Z.leb Z.compare Pos.compare Pos.compare_cont CompOpp assertb bind].
  change (-1 =? -1)%Z with true. cbn iota.
  rewrite (gradient_ok f V) by lia. cbn [bind]. rewrite (get_vl f V), (get_tm f) by lia. cbn [bind].
  change (slope_q f (-1)) with (pl_first f). rewrite F0. reflexivity.
Qed.

(** [t] (possibly +inf) is the greatest domain time with f(t) <= b. *)
Definition is_max_t_below (f : PL) (b : Qc) (t : ext) : Prop :=
  match t with
  | Fin t => (exists y, pl_eval f t = Ok y /\ y <= b) /\
             (forall u y, pl_eval f u = Ok y -> y <= b -> u <= t)
  | PInf => pl_hi f = PInf /\ (forall u y, pl_eval f u = Ok y -> y <= b)
  | NInf => False
  end.

Lemma first_above_spec : forall values b j,
  match first_above values b j with
  | None => forall v, In v values -> v <= b
  | Some k => exists n, k = (j + Z.of_nat n - 1)%Z /\ (n < length values)%nat /\
       b < nth n values 0 /\ (forall m, (m < n)%nat -> nth m values 0 <= b)
  end.
Proof.
  induction values as [|v r IH]; intros b j; cbn [first_above].
  - intros ? [].
  - destruct (qltbP b v) as [H|H].
    + exists 0%nat. split; [lia|]. split; [cbn; lia|]. split; [exact H|]. lia.
    + specialize (IH b (j+1)%Z). destruct (first_above r b (j+1)).
      * destruct IH as [n [E1 [E2 [E3 E4]]]]. exists (S n). split; [lia|]. split; [cbn; lia|].
        split; [exact E3|]. intros [|m] Hm; cbn [nth]; [qlra|]. apply E4; lia.
      * intros w [<-|Hw]; [qlra|auto].
Qed.

Lemma max_t_below_ok f b : valid f -> mono f ->
  (exists t y, pl_eval f t = Ok y /\ y <= b) ->
  (pl_lo f = NInf -> pl_first f = 0 -> vl f 0 <= b) ->
  exists t, max_t_below f b = Ok t /\ is_max_t_below f b t.
Proof.
  intros V M [t0 [y0 [Ht0 Hy0]]] HF. destruct (eval_inv f t0 y0 V Ht0) as [D0 ->].
  pose proof M as [N [F0 L0]]. pose proof (len_pos f V) as LP.
  unfold max_t_below. rewrite (proj2 (is_monotone_iff f) N). cbn [assertb bind].
  destruct (eval_ext_lo f V) as [e [Ee He]]. rewrite Ee. cbn [bind].
  assert (B : ext_leb e (Fin b) = true).
  { destruct (ext_lebP e (Fin b)) as [|HN]; [reflexivity|]. exfalso. apply HN. clear HN.
    destruct D0 as [D1 D2]. destruct (pl_lo f) as [|h|] eqn:Eh; [| |destruct D1].
    - subst e. destruct (qeqbP (pl_first f) 0) as [E0|E0].
      + exact (HF eq_refl E0).
      + unfold inf_mul. destruct (qltbP 0 (pl_first f)); [exact I|qlra].
    - subst e. change (pl_at f h <= b). change (h <= t0) in D1. pose proof (at_mono f h t0 V M D1). qlra. }
  rewrite B. cbn [assertb bind].
  pose proof (first_above_spec (pl_values f) b 0) as FS.
  destruct (first_above (pl_values f) b 0) as [k|].
  - destruct FS as [n [-> [Hn [Hb Hm]]]].
    assert (Hn' : (Z.of_nat n < pl_len f)%Z) by (rewrite <- (len_vals f V); unfold zlen; lia).
    replace (0 + Z.of_nat n - 1)%Z with (Z.of_nat n - 1)%Z by lia.
    set (i := (Z.of_nat n - 1)%Z) in *.
    assert (HB : b < vl f (i+1)).
    { unfold vl, nthq. replace (Z.to_nat (i+1)) with n by lia. exact Hb. }
    assert (HA : (0 <= i)%Z -> vl f i <= b).
    { intro. unfold vl, nthq. apply Hm. lia. }
    assert (IR : in_range f i b /\ 0 < slope_q f i).
    { unfold in_range, slope_q. destruct (Z.eqb_spec i (-1)) as [Ei|Hn1].
      - rewrite Ei in HB. change (-1+1)%Z with 0%Z in HB.
        assert (0 < pl_first f).
        { destruct (qltbP 0 (pl_first f)) as [|HN]; [assumption|]. exfalso. assert (E0 : pl_first f = 0) by qlra.
          assert (t0 <= tm f 0 \/ tm f 0 <= t0) as [C|C] by (destruct (qlebP t0 (tm f 0)); [left|right]; qlra).
          - rewrite (at_left f t0 V C), E0 in Hy0. qlra.
          - pose proof (at_mono f _ _ V M C) as A. rewrite at_tm in A by (auto; lia). qlra. }
        split; [left; qlra|assumption].
      - specialize (HA ltac:(lia)). destruct (Z.eqb_spec i (pl_len f - 1)); [lia|].
        split; [split; [intro EE; rewrite EE in HA; qlra|left; qlra]|].
        apply qdiv_pos; [qlra|]. pose proof (tm_lt f V i (i+1) ltac:(lia) ltac:(lia)). qlra. }
    destruct IR as [IR SP].
    destruct (inverse_mono_ok f b i V N L0 ltac:(lia) IR) as [t [Et [St At]]]. rewrite Et. cbn [bind].
    exists (Fin t). split; [reflexivity|].
    assert (GE : forall u, pl_at f u <= b -> u <= t).
    { intros u Hu. destruct (qlebP u t) as [|HN]; [assumption|]. exfalso. assert (Hut : t < u) by qlra.
      destruct (qlebP u (tm f (i+1))) as [C|C].
      - assert (Su : in_seg f i u).
        { split; intro; [|exact C]. destruct St as [St _]. specialize (St H). qlra. }
        rewrite (at_slope f i u t V ltac:(lia) Su St) in Hu. set (s := slope_q f i) in *. qnra.
      - assert (C' : tm f (i+1) <= u) by qlra. pose proof (at_mono f _ _ V M C') as A.
        rewrite at_tm in A by (auto; lia). qlra. }
    split.
    + exists b. split; [|qlra]. rewrite <- At. apply eval_at; auto.
      assert (Ht : t <= tm f (i+1)) by (apply St; lia).
      assert (D : in_dom f (tm f (i+1))) by (apply (v_dom f V); apply tm_in; lia).
      split.
      * destruct D0 as [D1 _]. eapply ext_le_trans; [exact D1|]. apply GE. exact Hy0.
      * destruct D as [_ D2]. eapply ext_le_trans; [|exact D2]. exact Ht.
    + intros u y Hu Hy. destruct (eval_inv f u y V Hu) as [_ ->]. auto.
  - assert (HL : vl f (pl_len f - 1) <= b).
    { apply FS. unfold vl. apply nthq_in. rewrite (len_vals f V). lia. }
    destruct (eval_ext_hi f V) as [e2 [Ee2 He2]]. rewrite Ee2. cbn [bind].
    destruct (ext_lebP e2 (Fin b)) as [C|C].
    + exists (pl_hi f). split; [reflexivity|]. unfold is_max_t_below.
      destruct D0 as [D1 D2].
      destruct (pl_hi f) as [|h|] eqn:Eh; [destruct D2| |].
      * subst e2. change (pl_at f h <= b) in C. split.
        -- exists (pl_at f h). split; [|exact C]. apply eval_at; auto.
           split; [|rewrite Eh; apply ext_le_refl]. eapply ext_le_trans; [exact D1|exact D2].
        -- intros u y Hu Hy. destruct (eval_inv f u y V Hu) as [Du _]. destruct Du as [_ Du].
           rewrite Eh in Du. exact Du.
      * split; [reflexivity|]. intros u y Hu. destruct (eval_inv f u y V Hu) as [_ ->].
        subst e2. destruct (qeqbP (pl_last f) 0) as [E0|E0].
        -- assert (u <= tm f (pl_len f - 1) \/ tm f (pl_len f - 1) <= u) as [K|K] by (destruct (qlebP u (tm f (pl_len f - 1))); [left|right]; qlra).
           ++ pose proof (at_mono f _ _ V M K) as A. rewrite at_tm in A by (auto; lia). qlra.
           ++ rewrite (at_right f u V K), E0. qlra.
        -- exfalso. unfold inf_mul in C. destruct (qltbP 0 (pl_last f)); [destruct C|qlra].
    + assert (LS : 0 < pl_last f).
      { destruct (qltbP 0 (pl_last f)) as [|HN]; [assumption|]. exfalso. assert (E0 : pl_last f = 0) by qlra.
        apply C. destruct (pl_hi f) as [|h|] eqn:Eh.
        - destruct D0 as [_ D2]. rewrite Eh in D2. destruct D2.
        - subst e2. change (pl_at f h <= b).
          assert (h <= tm f (pl_len f - 1) \/ tm f (pl_len f - 1) <= h) as [K|K] by (destruct (qlebP h (tm f (pl_len f - 1))); [left|right]; qlra).
          + pose proof (at_mono f _ _ V M K) as A. rewrite at_tm in A by (auto; lia). qlra.
          + rewrite (at_right f h V K), E0. qlra.
        - subst e2. rewrite E0, qeqb_refl. exact HL. }
      pose proof (vl_mono f V N 0 (pl_len f - 1) ltac:(lia) ltac:(lia)).
      assert (IR : in_range f (pl_len f - 1) b).
      { unfold in_range. destruct (Z.eqb_spec (pl_len f - 1) (-1)); [lia|]. rewrite Z.eqb_refl. left; qlra. }
      destruct (inverse_mono_ok f b (pl_len f - 1) V N L0 ltac:(lia) IR) as [t [Et [St At]]].
      rewrite Et. cbn [bind]. exists (Fin t). split; [reflexivity|].
      assert (Ht : tm f (pl_len f - 1) <= t) by (apply St; lia).
      rewrite (at_right f t V Ht) in At.
      split.
      * exists b. split; [|qlra].
        assert (At' : pl_at f t = b) by (rewrite (at_right f t V Ht); exact At).
        rewrite <- At'. apply eval_at; auto.
        assert (D : in_dom f (tm f (pl_len f - 1))) by (apply (v_dom f V); apply tm_in; lia).
        destruct D as [E1 E2]. split; [eapply ext_le_trans; [exact E1|exact Ht]|].
        destruct (pl_hi f) as [|h|]; [destruct E2| |exact I].
        change (t <= h). destruct (qlebP t h) as [|HN]; [assumption|]. exfalso. apply C. subst e2.
        change (pl_at f h <= b). rewrite <- At'. apply at_mono; auto. qlra.
      * intros u y Hu Hy. destruct (eval_inv f u y V Hu) as [_ ->].
        destruct (qlebP u t) as [|HN]; [assumption|]. exfalso.
        assert (K : tm f (pl_len f - 1) <= u) by qlra. rewrite (at_right f u V K) in Hy. qnra.
Qed.

Lemma max_t_below_full f b : valid f -> mono f ->
  (exists t y, pl_eval f t = Ok y /\ y <= b) ->
  exists t, max_t_below f b = Ok t /\ is_max_t_below f b t.
Proof.
  intros V M H. apply max_t_below_ok; auto. intros _ F0. destruct H as [t [y [H1 H2]]].
  destruct (eval_inv f t y V H1) as [_ ->]. pose proof (len_pos f V).
  assert (t <= tm f 0 \/ tm f 0 <= t) as [C|C] by (destruct (qlebP t (tm f 0)); [left|right]; qlra).
  - rewrite (at_left f t V C), F0 in H2. qlra.
  - pose proof (at_mono f _ _ V M C) as A. rewrite at_tm in A by (auto; lia). qlra.
Qed.

Lemma max_t_below_default_same f b d e : pl_eval_ext f (pl_lo f) = Ok e -> ext_le e (Fin b) ->
  max_t_below_default f b d = max_t_below f b.
Proof.
  intros E H. unfold max_t_below_default, max_t_below. destruct (is_monotone f); [|reflexivity].
  cbn [assertb bind]. rewrite E. cbn [bind].
  destruct (ext_lebP e (Fin b)); [|contradiction]. cbn [assertb bind].
  destruct (ext_ltbP (Fin (b + eps)) e) as [C|C]; [|reflexivity].
  exfalso. apply C. eapply ext_le_trans; [exact H|]. change (b <= b + eps). qlra.
Qed.
Lemma max_t_below_default_none f b d e : is_monotone f = true ->
  pl_eval_ext f (pl_lo f) = Ok e -> ext_lt (Fin (b + eps)) e ->
  max_t_below_default f b d = Ok d.
Proof.
  intros M E H. unfold max_t_below_default. rewrite M. cbn [assertb bind]. rewrite E. cbn [bind].
  destruct (ext_ltbP (Fin (b + eps)) e); [reflexivity|contradiction].
Qed.

(** ** ensure_monotone *)

(** Running maxima as a pointwise specification. *)
Definition running_max (vs ws : list Qc) : Prop :=
  length ws = length vs /\
  forall i w, nth_error ws i = Some w ->
    (exists j v, (j <= i)%nat /\ nth_error vs j = Some v /\ w = v) /\
    (forall j v, (j <= i)%nat -> nth_error vs j = Some v -> v <= w).

Lemma run_max_spec check : forall l prev ws, run_max check prev l = Ok ws ->
  length ws = length l /\ nondecreasing (prev :: ws) /\
  (forall i w, nth_error ws i = Some w ->
    (w = prev \/ exists j v, (j <= i)%nat /\ nth_error l j = Some v /\ w = v) /\
    prev <= w /\ (forall j v, (j <= i)%nat -> nth_error l j = Some v -> v <= w)) /\
  (nondecreasing (prev :: l) -> ws = l).
Proof.
  induction l as [|v r IH]; intros prev ws H; cbn [run_max] in H.
  - inversion H; subst. split; [reflexivity|]. split; [repeat constructor|]. split.
    + intros [|i] w Hw; discriminate.
    + reflexivity.
  - binv H. apply assertb_ok in E. binv H. inversion H; subst. clear H.
    destruct (IH _ _ E0) as [H1 [H2 [H3 H4]]]. clear IH.
    assert (Hp : prev <= qmax prev v) by (qmm; qlra).
    assert (Hv : v <= qmax prev v) by (qmm; qlra).
    split; [cbn; congruence|]. split; [|split].
    + constructor; [exact H2|]. inversion H2; subst. constructor; [exact Hp|].
      eapply Forall_impl; [|exact H6]. intros; qlra.
    + intros [|i] w Hw.
      * inversion Hw; subst. split; [|split].
        -- destruct (qmax_spec prev v) as [[? E1]|[? E1]]; rewrite E1; [right|left; reflexivity].
           exists 0%nat, v. repeat split. lia.
        -- exact Hp.
        -- intros [|j] u Hj Hu; [|lia]. inversion Hu; subst. exact Hv.
      * cbn in Hw. destruct (H3 i w Hw) as [[K|[j [u [K1 [K2 K3]]]]] [K4 K5]].
        -- split; [|split].
           ++ destruct (qmax_spec prev v) as [[? E1]|[? E1]]; rewrite E1 in K; [right|left; exact K].
              exists 0%nat, v. split; [lia|]. split; [reflexivity|exact K].
           ++ qlra.
           ++ intros [|j] u Hj Hu; [inversion Hu; subst; qlra|]. apply (K5 j); [lia|exact Hu].
        -- split; [|split].
           ++ right. exists (S j), u. split; [lia|]. split; [exact K2|exact K3].
           ++ qlra.
           ++ intros [|j'] u' Hj Hu; [inversion Hu; subst; qlra|]. apply (K5 j'); [lia|exact Hu].
    + intro N. inversion N as [|? ? N1 N2]; subst. inversion N2; subst.
      assert (E1 : qmax prev v = v) by (unfold qmax; destruct (qltbP prev v); [reflexivity|qlra]).
      rewrite E1 in *. f_equal. apply H4. exact N1.
Qed.

Lemma run_max_total : forall l prev, exists ws, run_max false prev l = Ok ws.
Proof.
  induction l as [|v r IH]; intros prev; cbn [run_max].
  - eauto.
  - cbn [negb orb assertb bind]. destruct (IH (qmax prev v)) as [ws E]. rewrite E. cbn [bind]. eauto.
Qed.

Lemma run_max_check_mono : forall l prev, nondecreasing (prev :: l) -> exists ws, run_max true prev l = Ok ws.
Proof.
  induction l as [|v r IH]; intros prev N; cbn [run_max].
  - eauto.
  - inversion N as [|? ? N1 N2]; subst. inversion N2; subst.
    assert (B : qleb prev (v + eps) = true) by (apply qleb_true; qlra). rewrite B.
    cbn [negb orb assertb bind].
    assert (E1 : qmax prev v = v) by (unfold qmax; destruct (qltbP prev v); [reflexivity|qlra]).
    rewrite E1. destruct (IH v N1) as [ws E]. rewrite E. cbn [bind]. eauto.
Qed.

Lemma ensure_monotone_gen check f g : valid f -> ensure_monotone check f = Ok g ->
  valid g /\ mono g /\ pl_times g = pl_times f /\ pl_lo g = pl_lo f /\ pl_hi g = pl_hi f /\
  pl_first g = qmax 0 (pl_first f) /\ pl_last g = qmax 0 (pl_last f) /\
  running_max (pl_values f) (pl_values g) /\ (mono f -> g = f).
Proof.
  intros V H. unfold ensure_monotone in H. binv H.
  assert (NE : pl_values f <> []).
  { intro E0. pose proof (len_vals f V) as E1. pose proof (len_pos f V). rewrite E0 in E1. unfold zlen in E1; cbn [length] in E1. lia. }
  apply pl_init_inv in H. destruct H as [-> Vg]. split; [exact Vg|].
  destruct (pl_values f) as [|v r] eqn:Ev; [congruence|]. clear NE. binv E. inversion E; subst a. clear E.
  destruct (run_max_spec _ _ _ _ E0) as [H1 [H2 [H3 H4]]].
  split; [|do 5 (split; [reflexivity|])].
  - split; [exact H2|]. cbn [pl_first pl_last]. qmm; qlra.
  - split.
    + split; [cbn [pl_values length]; congruence|]. cbn [pl_values].
      intros [|i] w Hw.
      * inversion Hw; subst. split.
        -- exists 0%nat, w. repeat split; lia.
        -- intros [|j] u Hj Hu; [|lia]. inversion Hu; subst. qlra.
      * cbn in Hw. destruct (H3 i w Hw) as [[K|[j [u [K1 [K2 K3]]]]] [K4 K5]].
        -- split.
           ++ exists 0%nat, v. split; [lia|]. split; [reflexivity|exact K].
           ++ intros [|j] u Hj Hu; [inversion Hu; subst; qlra|]. apply (K5 j); [lia|exact Hu].
        -- split.
           ++ exists (S j), u. split; [lia|]. split; [exact K2|exact K3].
           ++ intros [|j'] u' Hj Hu; [inversion Hu; subst; qlra|]. apply (K5 j'); [lia|exact Hu].
    + intros [N [F0 L0]]. rewrite Ev in N. rewrite (H4 N).
      destruct f as [ts vs a b lo hi]; cbn [pl_times pl_values pl_first pl_last pl_lo pl_hi] in *. subst vs.
      assert (E1 : qmax 0 a = a) by (qmm; qlra). assert (E2 : qmax 0 b = b) by (qmm; qlra).
      rewrite E1, E2. reflexivity.
Qed.

Lemma ensure_monotone_total f : valid f -> exists g, ensure_monotone false f = Ok g.
Proof.
  intros V. unfold ensure_monotone.
  destruct (pl_values f) as [|v r] eqn:Ev.
  { pose proof (len_vals f V) as E1. pose proof (len_pos f V). rewrite Ev in E1. unfold zlen in E1; cbn [length] in E1. lia. }
  destruct (run_max_total r v) as [ws E]. rewrite E. cbn [bind].
  destruct (run_max_spec _ _ _ _ E) as [H1 _].
  eexists. apply (pl_init_ok (mkPL (pl_times f) (v :: ws) _ _ (pl_lo f) (pl_hi f))).
  destruct V as [v1 v2 v3 v4]. constructor; auto.
  cbn [pl_values pl_times length]. rewrite <- v1, Ev. cbn; congruence.
Qed.
Lemma ensure_monotone_checked f : valid f -> mono f -> ensure_monotone true f = Ok f.
Proof.
  intros V M. assert (exists g, ensure_monotone true f = Ok g) as [g E].
  { unfold ensure_monotone. destruct M as [N _].
    destruct (pl_values f) as [|v r] eqn:Ev.
    { pose proof (len_vals f V) as E1. pose proof (len_pos f V). rewrite Ev in E1. unfold zlen in E1; cbn [length] in E1. lia. }
    destruct (run_max_check_mono r v N) as [ws E]. rewrite E. cbn [bind].
    destruct (run_max_spec _ _ _ _ E) as [H1 _].
    eexists. apply (pl_init_ok (mkPL (pl_times f) (v :: ws) _ _ (pl_lo f) (pl_hi f))).
    destruct V as [v1 v2 v3 v4]. constructor; auto.
    cbn [pl_values pl_times length]. rewrite <- v1, Ev. cbn; congruence. }
  rewrite E. f_equal. apply (ensure_monotone_gen true f g V E). exact M.
Qed.
(** Checked mode rejects a drop of more than eps below the running maximum. *)
Lemma run_max_check_fail : forall l prev, (exists i v, nth_error l i = Some v /\ v + eps < prev) ->
  run_max true prev l = Err AssertionError.
Proof.
  induction l as [|v r IH]; intros prev [i [u [Hi Hu]]]; [destruct i; discriminate|].
  cbn [run_max negb orb]. destruct (qlebP prev (v + eps)) as [C|C]; [|reflexivity].
  cbn [assertb bind]. destruct i as [|i]; [inversion Hi; subst; qlra|].
  rewrite IH; [reflexivity|]. exists i, u. split; [exact Hi|]. qmm; qlra.
Qed.
