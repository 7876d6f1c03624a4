(** * FlowRatesCollection: exact statements under separation, and the constructor *)
From Verif Require Import Base Spec Arrays ArraysProofs PL PLProofs PLEval PLArith PLOps PLOps2 RC RCProofs RCOps FRC FRCProofs.

(** ** Separation *)
Definition rate_clear (a b : Qc) : Prop := a = b \/ eps < qabs (a - b).
(** Consecutive rates of every commodity and consecutive totals are equal or
    more than eps apart; [a], [s] are the rates and total before. *)
Fixpoint changes_clear (a : rates) (s : Qc) (es : list (Qc * rates * Qc)) : Prop :=
  match es with
  | [] => True
  | (_, b, s') :: r => (forall i, rate_clear (rate a i) (rate b i)) /\ rate_clear s s' /\ changes_clear b s' r
  end.
(** Total of the latest extension at or before t (0 if none). *)
Fixpoint latest_total (es : list (Qc * rates * Qc)) (t : Qc) : Qc :=
  match es with
  | [] => 0
  | (a, _, s) :: r =>
      match latest (snaps_of r) t with
      | Some _ => latest_total r t
      | None => if qleb a t then s else 0
      end
  end.
Lemma latest_total_app es a d s t : latest_total (es ++ [(a, d, s)]) t = if qleb a t then s else latest_total es t.
Proof.
  induction es as [|[[b e] s'] r IH]; cbn [app latest_total snaps_of map latest]; [reflexivity|].
  unfold snaps_of. rewrite map_app. cbn [map fst]. rewrite latest_app. cbn [fst]. rewrite IH.
  destruct (qleb a t); reflexivity.
Qed.

Record fexact (c : FRC) (es : list (Qc * rates * Qc)) (v : rates) (s : Qc) : Prop := {
  fx_times : forall i a, In a (rc_times (fn_of (c_fns c) i)) -> In a (times_of es);
  fx_rate : forall i t, 0 <= t -> rc_at (fn_of (c_fns c) i) t = rate (latest_rates (snaps_of es) t) i;
  fx_atimes : forall a, In a (pl_times (c_acc c)) -> In a (times_of es);
  fx_last : pl_last (c_acc c) = s;
  fx_zero : pl_at (c_acc c) 0 = 0;
  fx_area : forall a b, 0 <= a -> a <= b -> (forall x, In x (times_of es) -> x <= a \/ b <= x) ->
     pl_at (c_acc c) b - pl_at (c_acc c) a = latest_total es a * (b - a) }.

Definition es0 : list (Qc * rates * Qc) := [(0, [], 0)].
Lemma empty_exact : fexact frc_empty es0 [] 0.
Proof.
  assert (A0 : forall t, pl_at acc_empty t = 0).
  { intro t. destruct (qlebP t 0) as [C|C].
    - rewrite (at_left acc_empty t acc_empty_valid C). cbn. ring.
    - rewrite (at_right acc_empty t acc_empty_valid) by (cbn; qlra). cbn. ring. }
  constructor; cbn [frc_empty c_fns c_acc].
  - intros i a. cbn. auto.
  - intros i t Ht. unfold fn_of. cbn [dget]. rewrite new_fn_at. unfold latest_rates. cbn. destruct (qleb 0 t); reflexivity.
  - intros a. cbn. auto.
  - reflexivity.
  - apply A0.
  - intros a b Ha Hb _. rewrite !A0. unfold es0. cbn [latest_total snaps_of map latest]. destruct (qleb 0 a); ring.
Qed.

Lemma fexact_step c es T v s time d s' c' :
  frc_inv c (snaps_of es) T v -> fexact c es v s -> T <= time -> is_snapshot d ->
  (forall x, In x (times_of es) -> x = time \/ x + eps < time) ->
  (forall i, rate_clear (rate v i) (rate d i)) -> rate_clear s s' ->
  frc_extend c time d s' = Ok c' -> fexact c' (es ++ [(time, d, s')]) d s'.
Proof.
  intros I X H SD ST SR SS E. pose proof (fi_T0 _ _ _ _ I) as T0.
  destruct (frc_extend_ok c _ T v time d s' I H SD) as [c1 [E1 [I' [EC [EA [Hh FS]]]]]].
  rewrite E in E1. apply ok_inj in E1. subst c1.
  assert (TO : times_of (es ++ [(time, d, s')]) = times_of es ++ [time]) by (unfold times_of; rewrite map_app; reflexivity).
  assert (SO : snaps_of (es ++ [(time, d, s')]) = snaps_of es ++ [(time, d)]) by (unfold snaps_of; rewrite map_app; reflexivity).
  destruct (fi_last _ _ _ _ I) as [l EL].
  assert (LR : forall t, T <= t -> latest_rates (snaps_of es) t = v) by (intros t Ht; unfold latest_rates; rewrite EL, latest_last by exact Ht; reflexivity).
  assert (ST' : forall i a, In a (rc_times (fn_of (c_fns c) i)) -> a = time \/ a + eps < time) by (intros i a Ia; apply ST, (fx_times _ _ _ _ X i a Ia)).
  (* the functions *)
  assert (FN : forall i, (forall a, In a (rc_times (fn_of (c_fns c') i)) -> In a (rc_times (fn_of (c_fns c) i)) \/ a = time) /\
            (forall t, 0 <= t -> rc_at (fn_of (c_fns c') i) t = if qleb time t then rate d i else rc_at (fn_of (c_fns c) i) t)).
  { intro i. pose proof (fn_of_ok (c_fns c) T i T0 (fi_fns _ _ _ _ I)) as FO. destruct (FS i) as [S1 [S2 S3]].
    assert (RT : rc_at (fn_of (c_fns c) i) time = rate v i) by (rewrite (fx_rate _ _ _ _ X i time) by qlra; rewrite LR by exact H; reflexivity).
    specialize (SR i). destruct (dget d i) as [x|] eqn:Ed.
    - assert (RD : rate d i = x) by (unfold rate; rewrite Ed; reflexivity). rewrite RD in *.
      apply (fn_extend_exact _ T time x _ FO H (S1 x eq_refl) (ST' i)). rewrite RT. exact SR.
    - assert (RD : rate d i = 0) by (unfold rate; rewrite Ed; reflexivity). rewrite RD in *.
      assert (Hd : dhas d i = false) by (unfold dhas; rewrite Ed; reflexivity). destruct (dhas v i) eqn:Hv.
      + apply (fn_extend_exact _ T time 0 _ FO H (S2 Hd eq_refl) (ST' i)). rewrite RT. exact SR.
      + rewrite (S3 Hd eq_refl). split; [auto|]. intros t Ht. destruct (qlebP time t) as [C|C]; [|reflexivity].
        rewrite (fx_rate _ _ _ _ X i t Ht). rewrite LR by qlra. unfold rate, dhas in *. destruct (dget v i); [discriminate|reflexivity]. }
  (* the accumulative *)
  pose proof (fi_av _ _ _ _ I) as VA. pose proof (len_pos _ VA) as LP.
  set (A := c_acc c) in *. set (A' := c_acc c') in *.
  assert (LT : tm A (pl_len A - 1) = time \/ tm A (pl_len A - 1) < time - eps).
  { assert (IA : In (tm A (pl_len A - 1)) (pl_times A)) by (apply tm_in; lia).
    destruct (ST (tm A (pl_len A - 1)) (fx_atimes _ _ _ _ X _ IA)) as [Q|Q]; [auto|right; qlra]. }
  pose proof (fx_last _ _ _ _ X) as XL. fold A in XL.
  destruct (extend_exact A time s' VA) as [A1 [EA1 [VA1 [_ [_ [P1 [P2 P3]]]]]]];
    [unfold A; rewrite (fi_ahi _ _ _ _ I); exact Logic.I|destruct LT; auto|rewrite XL; destruct SS; auto|].
  rewrite EA in EA1. apply ok_inj in EA1. fold A' in EA1. subst A1.
  assert (AT : forall a, In a (pl_times A') -> In a (pl_times A) \/ a = time).
  { destruct (acc_extend A T time s' VA (fi_ahi _ _ _ _ I) (fi_aT _ _ _ _ I) H) as [A2 [Q1 [_ [_ [_ Q2]]]]].
    rewrite EA in Q1. apply ok_inj in Q1. fold A' in Q1. subst A2. exact Q2. }
  constructor.
  - intros i a Ia. rewrite TO. apply in_or_app. destruct (proj1 (FN i) a Ia) as [Q| ->]; [left; apply (fx_times _ _ _ _ X i a Q)|right; left; reflexivity].
  - intros i t Ht. rewrite (proj2 (FN i) t Ht). unfold latest_rates. rewrite SO, latest_app. cbn [fst].
    destruct (qleb time t); [reflexivity|]. apply (fx_rate _ _ _ _ X i t Ht).
  - intros a Ia. rewrite TO. apply in_or_app. destruct (AT a Ia) as [Q| ->]; [left; apply (fx_atimes _ _ _ _ X a Q)|right; left; reflexivity].
  - exact P3.
  - fold A'. rewrite P1 by qlra. apply (fx_zero _ _ _ _ X).
  - intros a b Ha Hb HT. rewrite TO in HT. rewrite latest_total_app. fold A'.
    destruct (HT time) as [C|C]; [apply in_or_app; right; left; reflexivity| |].
    + destruct (qlebP time a) as [_|N]; [|contradiction]. rewrite (P2 a C), (P2 b) by qlra. ring.
    + rewrite (P1 a), (P1 b) by qlra. destruct (qlebP time a) as [D|D].
      * assert (a = b) by qlra. subst b. replace (a - a) with 0 by ring. ring.
      * apply (fx_area _ _ _ _ X); auto. intros x Ix. apply HT, in_or_app. auto.
Qed.

Lemma get_exact c es v s t c' d : fexact c es v s -> frc_get c t = Ok (c', d) -> fexact c' es v s.
Proof.
  intros X E. assert (Q : c_fns c' = c_fns c /\ c_acc c' = c_acc c).
  { unfold frc_get in E. destruct (c_chain c); [apply ok_inj in E; injection E as <- _; auto|].
    destruct (qltb t (it_time i)); [discriminate|]. destruct (advance_head i l t); [discriminate|]. apply ok_inj in E. injection E as <- _. auto. }
  destruct Q as [Q1 Q2], X. constructor; rewrite ?Q1, ?Q2; auto.
Qed.

(** Whole histories. *)
Lemma frc_run_exact ops : forall c es T v s,
  frc_inv c (snaps_of es) T v -> fexact c es v s ->
  nondecreasing (T :: times_of (exts ops)) -> (forall t d x, In (t, d, x) (exts ops) -> is_snapshot d) ->
  separated (times_of es ++ times_of (exts ops)) -> changes_clear v s (exts ops) ->
  exists T' v' s', frc_inv (fst (frc_run c ops)) (snaps_of (es ++ exts ops)) T' v' /\
    fexact (fst (frc_run c ops)) (es ++ exts ops) v' s'.
Proof.
  induction ops as [|o r IH]; intros c es T v s I X N SN SP CC; cbn [frc_run exts].
  - exists T, v, s. rewrite app_nil_r. auto.
  - destruct o as [t d x|t]; cbn [exts times_of map changes_clear] in N, SN, SP, CC.
    + inversion N as [|? ? N1 N2]; subst. apply Forall_inv in N2. cbn [fst] in N2.
      assert (SD : is_snapshot d) by (eapply SN; left; reflexivity).
      destruct (frc_extend_ok c _ T v t d x I N2 SD) as [c' [E [I' _]]]. cbn [frc_step]. rewrite E.
      destruct CC as [C1 [C2 C3]].
      assert (X' : fexact c' (es ++ [(t, d, x)]) d x).
      { apply (fexact_step c es T v s t d x c'); auto. intros y Iy.
        assert (LE : y <= t). { unfold times_of in Iy. apply in_map_iff in Iy. destruct Iy as [[[y' d'] s0] [<- Iy]]. cbn [fst].
          pose proof (fi_le _ _ _ _ (y', d') I) as Q. cbn [fst] in Q. specialize (Q ltac:(unfold snaps_of; apply in_map_iff; exists (y', d', s0); auto)). qlra. }
        destruct (qltbP y t) as [C|C]; [|left; qlra]. right.
        assert (gap y t) by (apply SP; [apply in_or_app; auto|apply in_or_app; right; left; reflexivity|exact C]). unfold gap in *. qlra. }
      assert (SO : snaps_of (es ++ [(t, d, x)]) = snaps_of es ++ [(t, d)]) by (unfold snaps_of; rewrite map_app; reflexivity).
      rewrite <- SO in I'.
      destruct (IH c' (es ++ [(t, d, x)]) t d x I' X' N1) as [T' [v' [s' Q]]]; [intros; eapply SN; right; eassumption| |exact C3|].
      * unfold times_of in *. rewrite map_app, <- app_assoc. exact SP.
      * destruct (frc_run c' r) as [c'' xs]. cbn [fst] in *. exists T', v', s'. rewrite <- app_assoc in Q. exact Q.
    + cbn [frc_step]. destruct (frc_get c t) as [[c' w]|e] eqn:E.
      * assert (I' : frc_inv c' (snaps_of es) T v).
        { destruct (frc_get_ok c _ T v t I) as [G1 G2]. destruct (qltbP t (head_time c)) as [C|C].
          - rewrite (G1 C) in E. discriminate.
          - destruct G2 as [c2 [p [E2 [_ [I2 _]]]]]; [qlra|]. rewrite E in E2. apply ok_inj in E2. injection E2 as -> _. exact I2. }
        destruct (IH c' es T v s I' (get_exact _ _ _ _ _ _ _ X E) N SN SP CC) as [T' [v' [s' Q]]].
        destruct (frc_run c' r) as [c'' xs]. cbn [fst] in *. exists T', v', s'. exact Q.
      * destruct (IH c es T v s I X N SN SP CC) as [T' [v' [s' Q]]].
        destruct (frc_run c r) as [c'' xs]. cbn [fst] in *. exists T', v', s'. exact Q.
Qed.

(** ** A collection built from given functions *)
(** Keys of [fns] are unique, every function starts with a breakpoint at 0 on
    the domain [0, inf) and has non-negative values. *)
Definition rate_fns (fns : list (nat * RC)) : Prop :=
  NoDup (map fst fns) /\
  forall i f, In (i, f) fns -> rvalid f /\ rc_lo f = Fin 0 /\ rc_hi f = PInf /\ In 0 (rc_times f) /\
    forall v, In v (rc_values f) -> 0 <= v.

Lemma rc_at_in f t : rvalid f -> In (rc_at f t) (rc_values f).
Proof.
  intro V. destruct (ptr_exists f V t) as [p P]. rewrite (at_ptr f V t p P). apply nthq_in. destruct P as [P _].
  pose proof (rlen_vals f V) as LV. unfold rc_len in LV. lia.
Qed.

Lemma rates_at_ok fns t : rate_fns fns -> 0 <= t ->
  exists d, rates_at fns t = Ok d /\ is_snapshot d /\
    (forall i, rate d i = rc_at (fn_of fns i) t) /\ (forall i, In i (map fst d) -> In i (map fst fns)).
Proof.
  intros [N F] Ht. induction fns as [|[i f] r IH]; cbn [rates_at].
  - exists []. split; [reflexivity|]. split; [split; [constructor|intros ? ? []]|]. split; [|intros ? []].
    intro j. unfold fn_of. cbn [dget]. rewrite new_fn_at. reflexivity.
  - cbn [map fst] in N. inversion N as [|? ? N1 N2]; subst.
    destruct (IH N2 ltac:(intros; eapply F; right; eassumption)) as [d [E [[S1 S2] [R K]]]].
    destruct (F i f (or_introl eq_refl)) as [V [Lo [Hi [Z NN]]]].
    rewrite (reval_at f V t) by (split; rewrite ?Lo, ?Hi; cbn; auto). cbn [bind]. rewrite E. cbn [bind].
    assert (P : 0 <= rc_at f t) by (apply NN, rc_at_in, V).
    eexists. split; [reflexivity|]. destruct (qltbP 0 (rc_at f t)) as [C|C].
    + split; [split|split].
      * cbn [map fst]. constructor; [|exact S1]. intro Q. apply N1, K, Q.
      * intros j w [Q|Q]; [injection Q as <- <-; exact C|eapply S2; exact Q].
      * intro j. unfold rate, fn_of. cbn [dget]. destruct (Nat.eqb i j); [reflexivity|]. apply R.
      * intros j [<-|Q]; [left; reflexivity|right; apply K, Q].
    + split; [split; assumption|split].
      * intro j. unfold fn_of. cbn [dget]. destruct (Nat.eqb_spec i j) as [<-|].
        -- unfold rate. rewrite (proj2 (dget_None d i)); [qlra|]. intro Q. apply N1, K, Q.
        -- apply R.
      * intros j Q. right. apply K, Q.
Qed.

Definition all_times (fns : list (nat * RC)) : list Qc := concat (map rc_times (map snd fns)).
Lemma merged_ok fns : (forall i f, In (i, f) fns -> rvalid f) -> forall acc,
  StronglySorted gap acc -> separated (acc ++ all_times fns) ->
  let m := fold_left (fun ts p => merge_sorted ts (rc_times (snd p))) fns acc in
  StronglySorted gap m /\ forall x, In x m <-> In x acc \/ In x (all_times fns).
Proof.
  induction fns as [|[i f] r IH]; intros V acc G S; cbn [fold_left snd].
  - split; [exact G|]. intro x. cbn. tauto.
  - unfold all_times in S. cbn [map snd concat] in S.
    assert (G' : StronglySorted Qcle acc) by (apply gap_sorted_le; exact G).
    assert (Vf : rvalid f) by (eapply V; left; reflexivity).
    destruct (merge_sorted_facts acc (rc_times f) G' (lt_sorted_le _ (rv_inc f Vf))) as [M1 [_ [_ M2]]].
    assert (S1 : separated (acc ++ rc_times f)).
    { intros x y Hx Hy. apply S; apply in_or_app; apply in_app_or in Hx; apply in_app_or in Hy; rewrite in_app_iff; tauto. }
    specialize (M2 S1).
    destruct (IH ltac:(intros; eapply V; right; eassumption) (merge_sorted acc (rc_times f)) M1) as [R1 R2].
    + intros x y Hx Hy. apply S; rewrite !in_app_iff in *; rewrite M2 in *; rewrite !in_app_iff in *; unfold all_times in *; tauto.
    + split; [exact R1|]. intro x. rewrite R2, M2. unfold all_times. cbn [map snd concat]. rewrite !in_app_iff. tauto.
Qed.

Lemma latest_max snaps t p : nondecreasing (map fst snaps) -> latest snaps t = Some p ->
  forall q, In q snaps -> fst q <= t -> fst q <= fst p.
Proof.
  induction snaps as [|x r IH]; cbn [latest]; intros S E q Hq Ht; [destruct Hq|].
  cbn [map] in S. inversion S as [|? ? S1 S2]; subst. destruct (latest r t) as [y|] eqn:L.
  - injection E as ->. destruct Hq as [<-|Hq]; [|eapply IH; eauto]. apply latest_some in L. rewrite Forall_forall in S2. apply S2, in_map, L.
  - destruct (qleb (fst x) t); [|discriminate]. injection E as <-. destruct Hq as [<-|Hq]; [qlra|].
    pose proof (latest_none _ _ L q Hq). qlra.
Qed.

Definition snap_at (fns : list (nat * RC)) (t : Qc) : rates := match rates_at fns t with Ok d => d | Err _ => [] end.

Lemma frc_init_ok fns : rate_fns fns -> fns <> [] -> separated (all_times fns) ->
  exists c snaps T v, frc_init fns = Ok c /\ c_fns c = fns /\ frc_inv c snaps T v /\ head_time c = 0 /\
   (forall x, In x (map fst snaps) <-> x = 0 \/ In x (all_times fns)) /\
   (forall t i, 0 <= t -> rate (latest_rates snaps t) i = rc_at (fn_of fns i) t) /\
   pl_at (c_acc c) 0 = 0 /\
   (forall a b, 0 <= a -> a <= b -> (forall x, In x (all_times fns) -> x <= a \/ b <= x) ->
      pl_at (c_acc c) b - pl_at (c_acc c) a = rsum (map snd fns) a * (b - a)).
Proof.
  intros RF Ne Sep. pose proof RF as [ND F].
  set (fs := map snd fns).
  assert (Fs : forall f, In f fs -> exists i, In (i, f) fns).
  { intros f Hf. unfold fs in Hf. apply in_map_iff in Hf. destruct Hf as [[i g] [<- H]]. exists i. exact H. }
  assert (NeF : fs <> []) by (unfold fs; destruct fns; [congruence|discriminate]).
  assert (Vs : Forall rvalid fs) by (apply Forall_forall; intros f Hf; destruct (Fs f Hf) as [i Hi]; apply (F i f Hi)).
  assert (NN : forall f t, In f fs -> In t (rc_times f) -> 0 <= t).
  { intros f t Hf Ht. destruct (Fs f Hf) as [i Hi]. destruct (F i f Hi) as [V [Lo _]]. destruct (rv_dom f V t Ht) as [Q _]. rewrite Lo in Q. exact Q. }
  destruct (rc_sum_ok fs (Fin 0) PInf NeF Vs) as [p [Ep [Vp [Lp [Hp [Tp [Gp Ap]]]]]]].
  { intros f t Hf Ht. split; [exact (NN f t Hf Ht)|exact Logic.I]. }
  { exact Sep. }
  assert (T0p : In 0 (rc_times p)).
  { apply Tp. destruct fs as [|f r] eqn:Q; [congruence|]. exists f. split; [left; reflexivity|].
    destruct (Fs f ltac:(left; reflexivity)) as [i Hi]. apply (F i f Hi). }
  assert (NNp : forall x, In x (rc_times p) -> 0 <= x) by (intros x Hx; apply Tp in Hx; destruct Hx as [f [Hf Hx]]; exact (NN f x Hf Hx)).
  assert (H0 : pyget (rc_times p) 0 = Ok 0).
  { rewrite (rget_t p) by (pose proof (rlen_pos p Vp); lia). f_equal.
    assert (I0 : In (nthq (rc_times p) 0) (rc_times p)) by (apply nthq_in; pose proof (rlen_pos p Vp); unfold rc_len in *; lia).
    specialize (NNp _ I0). destruct (In_nth _ _ 0 T0p) as [k [Hk Ek]].
    assert (nthq (rc_times p) 0 <= nthq (rc_times p) (Z.of_nat k)) by (apply (rt_le p Vp); unfold rc_len, zlen; lia).
    unfold nthq in *. rewrite Nat2Z.id in H. rewrite Ek in H. qlra. }
  destruct (rc_integral_ok p 0 _ Vp Gp H0 (rlast_t p Vp) Lp) as [A [EA [VA [LA [HA [TA [A0 [_ AA]]]]]]]]; [rewrite Hp; exact Logic.I|].
  destruct (merged_ok fns ltac:(intros i f Hi; apply (F i f Hi)) [] ltac:(constructor) Sep) as [M1 M2].
  unfold frc_init. rewrite new_item_ok by (intros ? ? []). cbn [bind]. fold fs. rewrite Ep. cbn [bind]. rewrite EA. cbn [bind].
  set (m := fold_left _ fns []) in *.
  assert (M3 : forall x, In x m <-> In x (all_times fns)) by (intro x; rewrite M2; cbn; tauto).
  assert (AT : forall x, In x (all_times fns) <-> exists f, In f fs /\ In x (rc_times f)).
  { intro x. unfold all_times. rewrite in_concat. fold fs. split.
    - intros [l [Hl Hx]]. apply in_map_iff in Hl. destruct Hl as [f [<- Hf]]. eauto.
    - intros [f [Hf Hx]]. exists (rc_times f). split; [apply in_map; exact Hf|exact Hx]. }
  assert (NM : forall x, In x m -> 0 <= x) by (intros x Hx; apply M3, AT in Hx; destruct Hx as [f [Hf Hx]]; exact (NN f x Hf Hx)).
  assert (SA : forall x, 0 <= x -> rates_at fns x = Ok (snap_at fns x) /\ is_snapshot (snap_at fns x) /\ (forall i, rate (snap_at fns x) i = rc_at (fn_of fns i) x) /\
     forall i, In i (map fst (snap_at fns x)) -> In i (map fst fns)).
  { intros x Hx. destruct (rates_at_ok fns x RF Hx) as [d [E [Q1 [Q2 Q3]]]]. unfold snap_at. rewrite E. auto. }
  rewrite (mapM_ok _ (fun t => mkItem t (snap_at fns t))).
  2:{ intros x Hx. destruct (SA x (NM x Hx)) as [E [[Q1 Q2] _]]. rewrite E. cbn [bind]. apply new_item_ok. exact Q2. }
  cbn [bind].
  set (chain := mkItem 0 [] :: map (fun t => mkItem t (snap_at fns t)) m).
  set (snaps := (0, []) :: map (fun t => (t, snap_at fns t)) m).
  assert (ES : map pair_of chain = snaps) by (unfold chain, snaps; cbn [map]; rewrite map_map; reflexivity).
  assert (EF : map fst snaps = 0 :: m).
  { unfold snaps. cbn [map fst]. rewrite map_map. cbn [fst]. rewrite map_id. reflexivity. }
  assert (I0 : In 0 m).
  { apply M3, AT. apply Tp in T0p. exact T0p. }
  assert (NS : nondecreasing (map fst snaps)).
  { rewrite EF. constructor; [apply gap_sorted_le; exact M1|apply Forall_forall; exact NM]. }
  assert (mne : m <> []) by (intro Q; rewrite Q in I0; exact I0).
  destruct (exists_last mne) as [m' [T Em]].
  exists (mkFRC fns chain A), snaps, T, (snap_at fns T).
  split; [reflexivity|]. split; [reflexivity|].
  assert (LT : forall t i, 0 <= t -> rate (latest_rates snaps t) i = rc_at (fn_of fns i) t).
  { intros t i Ht. unfold latest_rates. destruct (latest snaps t) as [q|] eqn:L.
    2:{ pose proof (latest_none _ _ L (0, []) ltac:(left; reflexivity)) as Q. cbn [fst] in Q. exfalso. qlra. }
    pose proof (latest_max _ _ _ NS L) as MX. pose proof (latest_some _ _ _ L) as [L1 L2].
    assert (Eq : q = (fst q, snap_at fns (fst q)) /\ In (fst q) m).
    { unfold snaps in L. cbn [latest] in L. destruct (latest (map _ m) t) as [y|] eqn:L'.
      - injection L as ->. apply latest_some in L'. destruct L' as [L' _]. apply in_map_iff in L'. destruct L' as [z [<- Hz]]. auto.
      - pose proof (latest_none _ _ L' (0, snap_at fns 0) ltac:(apply in_map_iff; exists 0; auto)) as Q. cbn [fst] in Q. exfalso. qlra. }
    destruct Eq as [Eq Im]. rewrite Eq. cbn [snd]. rewrite (proj1 (proj2 (proj2 (SA _ (NM _ Im)))) i).
    unfold fn_of. destruct (dget fns i) as [f|] eqn:Ef; [|rewrite !new_fn_at; reflexivity].
    apply dget_In in Ef. destruct (F i f Ef) as [V _]. apply (rc_jumps f V); [exact L2|].
    intros x Hx. destruct (qlebP x t) as [C|C]; [|right; left; qlra]. left.
    assert (Hm : In x m) by (apply M3, AT; exists f; split; [unfold fs; apply in_map_iff; exists (i, f); auto|exact Hx]).
    apply (MX (x, snap_at fns x)); [right; apply in_map_iff; exists x; auto|exact C]. }
  split; [|split; [reflexivity|split; [|split; [exact LT|split; [exact A0|]]]]].
  - assert (MT : forall x, In x m -> x <= T).
    { intros x Hx. pose proof (gap_sorted_le _ M1) as Q. pose proof (sorted_last_max m 0 Q x Hx) as R. rewrite Em, last_last in R. exact R. }
    assert (IT : In T m) by (rewrite Em; apply in_or_app; right; left; reflexivity).
    assert (FO : fns_ok fns T).
    { intros i f Ef. apply dget_In in Ef. destruct (F i f Ef) as [V [Lo [Hi [Z _]]]]. constructor; auto. intros t Ht. apply MT, M3, AT. exists f. split; [|exact Ht].
      unfold fs. apply in_map_iff. exists (i, f). auto. }
    constructor; cbn [c_fns c_chain c_acc].
    + exists ((0, []) :: map (fun t => (t, snap_at fns t)) m'). unfold snaps. rewrite Em, map_app. reflexivity.
    + exists []. exact (eq_sym ES).
    + discriminate.
    + exact NS.
    + intros q Hq. assert (Hq' : In (fst q) (map fst snaps)) by (apply in_map; exact Hq). rewrite EF in Hq'. clear Hq. rename Hq' into Hq. destruct Hq as [<-|Hq]; [qlra|apply NM; exact Hq].
    + intros q Hq. destruct Hq as [<-|Hq]; [split; [constructor|intros ? ? []]|]. apply in_map_iff in Hq. destruct Hq as [z [<- Hz]]. apply (SA z (NM z Hz)).
    + exact FO.
    + intros q i Hq Hi. apply dhas_In. apply dhas_In in Hi. destruct Hq as [<-|Hq]; [destruct Hi|]. apply in_map_iff in Hq.
      destruct Hq as [z [<- Hz]]. apply (SA z (NM z Hz)). exact Hi.
    + intros i t Ht _. rewrite LT by exact Ht. replace (rc_at (fn_of fns i) t - rc_at (fn_of fns i) t) with 0 by ring. vm_compute. discriminate.
    + exact VA.
    + rewrite LA. exact Lp.
    + rewrite HA. exact Hp.
    + intros t Ht. rewrite TA in Ht. apply MT, M3, AT, Tp, Ht.
  - intro x. assert (EF' : map (fst (B := rates)) snaps = 0 :: m) by exact EF. rewrite EF'. cbn [In]. rewrite M3. split; intros [Q|Q]; auto.
  - intros a b Ha Hb HT. rewrite AA; [rewrite Ap; reflexivity| |exact Hb|].
    + split; rewrite ?Lp, ?Hp; cbn; auto.
    + intros x Hx. apply HT, AT, Tp, Hx.
Qed.
