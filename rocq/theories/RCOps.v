(** * extend, simplify and integral of right-constant functions *)
From Verif Require Import Base Spec Arrays ArraysProofs PL PLProofs PLEval PLArith PLOps PLOps2 RC RCProofs.

(** ** extend *)
Lemma step_app t : forall ps c x v, (forall a w, In (a, w) ps -> a <= x) ->
  step c (ps ++ [(x, v)]) t = if qleb x t then v else step c ps t.
Proof.
  induction ps as [|[a w] r IH]; intros c x v H; cbn [app step].
  - reflexivity.
  - rewrite IH by (intros; eapply H; right; eassumption).
    pose proof (H a w (or_introl eq_refl)). destruct (qlebP a t) as [|C]; [reflexivity|].
    destruct (qlebP x t); [qlra|reflexivity].
Qed.
Lemma combine_app2 {A B} (l1 : list A) (l2 : list B) x y : length l1 = length l2 ->
  combine (l1 ++ [x]) (l2 ++ [y]) = combine l1 l2 ++ [(x, y)].
Proof. revert l2. induction l1; intros [|b l2] H; try discriminate; [reflexivity|]. cbn. f_equal. apply IHl1. cbn in H. lia. Qed.
Lemma increasing_snoc l x : increasing l -> (forall a, In a l -> a < x) -> increasing (l ++ [x]).
Proof.
  intros S H. induction S as [|a l S IH F]; cbn; [repeat constructor|].
  constructor; [apply IH; intros; apply H; right; auto|].
  apply Forall_app. split; [exact F|]. constructor; [apply H; left; reflexivity|constructor].
Qed.
Lemma set_nth_last {A} : forall (l : list A) a v, set_nth (l ++ [a]) (length (l ++ [a]) - 1) v = l ++ [v].
Proof.
  intros l a v. rewrite app_length. cbn [length]. replace (length l + 1 - 1)%nat with (length l) by lia.
  induction l; cbn; congruence.
Qed.

(** What a call returns, in all cases. *)
Lemma rc_extend_cases f time v f' tl vl_ : rvalid f -> ext_le (Fin time) (rc_hi f) ->
  pyget (rc_times f) (-1) = Ok tl -> pyget (rc_values f) (-1) = Ok vl_ ->
  rc_extend f time v = Ok f' ->
  rvalid f' /\ rc_lo f' = rc_lo f /\ rc_hi f' = rc_hi f /\ tl - eps <= time /\
  ( (qabs (vl_ - v) <= eps /\ f' = f) \/
    (eps < qabs (vl_ - v) /\ qabs (time - tl) <= eps /\ rc_times f' = rc_times f /\
       (forall t, tl <= t -> rc_at f' t = v) /\
       (forall t, t < tl -> ((exists a, In a (rc_times f) /\ a <= t) \/ (1 < length (rc_times f))%nat) -> rc_at f' t = rc_at f t)) \/
    (eps < qabs (vl_ - v) /\ tl < time - eps /\ rc_times f' = rc_times f ++ [time] /\
       forall t, rc_at f' t = if qleb time t then v else rc_at f t)).
Proof.
  intros V Hh Et Ev. unfold rc_extend. rewrite Et. cbn [bind]. rewrite Ev.
  destruct (qlebP (tl - eps) time) as [C|C]; [|discriminate]. cbn [assertb bind].
  pose proof (rv_ne f V) as Ne. pose proof (rvals_ne f V) as Nv. pose proof (rv_len f V) as L.
  destruct (exists_last Ne) as [T [tl' ET]]. destruct (exists_last Nv) as [W [vl' EW]].
  rewrite (pyget_last _ 0 Ne) in Et. rewrite (pyget_last _ 0 Nv) in Ev. rewrite ET, last_last in Et. rewrite EW, last_last in Ev.
  apply ok_inj in Et, Ev. subst tl' vl'.
  assert (LTW : length T = length W). { rewrite ET, EW, !app_length in L. cbn in L. lia. }
  assert (ST : increasing T /\ forall a, In a T -> a < tl).
  { pose proof (rv_inc f V) as S. rewrite ET in S. clear - S. unfold increasing in *. split.
    - induction T as [|a T IH]; [constructor|]. cbn in S. inversion S as [|? ? S1 F]; subst. constructor; [auto|].
      apply Forall_app in F. apply F.
    - induction T as [|a T IH]; [intros a []|]. cbn in S. inversion S as [|? ? S1 F]; subst. intros b [<-|Hb]; auto.
      apply Forall_app in F. destruct F as [_ F]. inversion F; auto. }
  destruct ST as [ST HT].
  assert (LEt : forall a, In a (rc_times f) -> a <= tl).
  { intros a Ha. rewrite ET in Ha. apply in_app_or in Ha. destruct Ha as [Ha|[<-|[]]]; [specialize (HT a Ha); qlra|qlra]. }
  destruct (qlebP (qabs (vl_ - v)) eps) as [D|D].
  { intro E. apply ok_inj in E. subst f'. do 4 (split; [auto|]). left. auto. }
  destruct (qlebP (qabs (time - tl)) eps) as [G|G]; intro E; apply ok_inj in E; subst f'.
  - assert (Vf' : rvalid (mkRC (rc_times f) (set_nth (rc_values f) (length (rc_values f) - 1) v) (rc_lo f) (rc_hi f))).
    { destruct V as [A1 A2 A3 A4]. constructor; cbn [rc_times rc_values]; auto. rewrite set_nth_length. exact A1. }
    split; [exact Vf'|]. do 3 (split; [auto|]). right. left. split; [qlra|]. split; [exact G|]. split; [reflexivity|].
    assert (A : forall t, rc_at (mkRC (rc_times f) (set_nth (rc_values f) (length (rc_values f) - 1) v) (rc_lo f) (rc_hi f)) t =
       if qleb tl t then v else step (hd 0 (W ++ [v])) (combine T W) t).
    { intro t. unfold rc_at. cbn [rc_times rc_values]. rewrite EW, set_nth_last, ET, combine_app2 by auto.
      apply step_app. intros a w Ha. apply in_combine_l in Ha. specialize (HT a Ha). qlra. }
    split.
    + intros t Ht. rewrite A. destruct (qlebP tl t); [reflexivity|qlra].
    + intros t Ht HH. rewrite A. destruct (qlebP tl t); [qlra|]. unfold rc_at. rewrite EW, ET, combine_app2 by auto.
      rewrite step_app by (intros a w Ha; apply in_combine_l in Ha; specialize (HT a Ha); qlra).
      destruct (qlebP tl t); [qlra|]. destruct W as [|w0 W]; [|reflexivity].
      destruct T; [|discriminate]. exfalso. destruct HH as [[a [Ha Ha2]]|HH].
      * rewrite ET in Ha. destruct Ha as [<-|[]]. qlra.
      * rewrite ET in HH. cbn in HH. lia.
  - assert (TT : tl < time - eps). { destruct (qabs_spec (time - tl)) as [[? Q]|[? Q]]; rewrite Q in G; qlra. }
    assert (Vf' : rvalid (mkRC (rc_times f ++ [time]) (rc_values f ++ [v]) (rc_lo f) (rc_hi f))).
    { constructor; cbn [rc_times rc_values].
      - rewrite !app_length. cbn [length]. lia.
      - destruct (rc_times f); discriminate.
      - apply increasing_snoc; [apply (rv_inc f V)|]. intros a Ha. specialize (LEt a Ha). qlra.
      - intros t Ht. apply in_app_or in Ht. destruct Ht as [Ht|[<-|[]]]; [exact (rv_dom f V t Ht)|].
        split; [|exact Hh]. destruct (rv_dom f V tl) as [Q _]; [rewrite ET; apply in_or_app; right; left; reflexivity|].
        cbn [rc_lo] in *. eapply ext_le_trans; [exact Q|]. cbn [ext_le]. qlra. }
    split; [exact Vf'|]. do 3 (split; [auto|]). right. right. split; [qlra|]. split; [exact TT|]. split; [reflexivity|].
    intro t. unfold rc_at. cbn [rc_times rc_values]. rewrite combine_app2 by auto.
    rewrite step_app by (intros a w Ha; apply in_combine_l in Ha; specialize (LEt a Ha); qlra).
    replace (hd 0 (rc_values f ++ [v])) with (hd 0 (rc_values f)) by (destruct (rc_values f); [congruence|reflexivity]).
    reflexivity.
Qed.

Lemma rc_extend_defined f time v tl : rvalid f -> pyget (rc_times f) (-1) = Ok tl ->
  ((exists f', rc_extend f time v = Ok f') <-> tl - eps <= time) /\
  (time < tl - eps -> rc_extend f time v = Err AssertionError).
Proof.
  intros V Et. unfold rc_extend. rewrite Et. cbn [bind]. destruct (qlebP (tl - eps) time) as [C|C]; cbn [assertb bind].
  - split; [|intro; qlra]. split; auto. intros _. rewrite (rlast_v f V). cbn [bind].
    destruct (qleb _ eps); [eauto|]. destruct (qleb _ eps); eauto.
  - split; [|reflexivity]. split; [intros [f' E]; discriminate|tauto].
Qed.

(** Value at and after the last breakpoint. *)
Lemma at_after_last f t tl v : rvalid f -> pyget (rc_times f) (-1) = Ok tl -> pyget (rc_values f) (-1) = Ok v ->
  tl <= t -> rc_at f t = v.
Proof.
  intros V Et Ev H. rewrite (rlast_t f V) in Et. rewrite (rlast_v f V) in Ev. apply ok_inj in Et, Ev. subst.
  apply (at_ptr f V). pose proof (rlen_pos f V). unfold rc_len in *. split; [lia|]. split; [intros _; exact H|lia].
Qed.

(** ** simplify *)
Definition steps_clear (f : RC) : Prop := forall i, (0 <= i < rc_len f - 1)%Z ->
  nthq (rc_values f) i = nthq (rc_values f) (i+1) \/
  eps1000 <= qabs (nthq (rc_values f) i - nthq (rc_values f) (i+1)).

Section Simp.
Variable f : RC.
Hypothesis V : rvalid f.
Definition rsbody (acc : list Qc * list Qc) (i : nat) : res (list Qc * list Qc) :=
  a <- pyget (rc_values f) (Z.of_nat i) ;; b <- pyget (rc_values f) (Z.of_nat i + 1) ;;
  if qleb eps1000 (qabs (a - b)) then
    t <- pyget (rc_times f) (Z.of_nat i + 1) ;;
    Ok (t :: fst acc, b :: snd acc)
  else Ok acc.

Lemma at_time i : (0 <= i < rc_len f)%Z -> rc_at f (nthq (rc_times f) i) = nthq (rc_values f) i.
Proof.
  intro H. apply (at_ptr f V). split; [exact H|]. split; [intros _; qlra|]. intro K. apply (rt_lt f V); unfold rc_len; lia.
Qed.

Record rsinv (n : Z) (acc : list Qc * list Qc) : Prop := {
  rs_vals : snd acc = map (rc_at f) (fst acc);
  rs_sort : StronglySorted (fun a b => b < a) (fst acc);
  rs_in : forall x, In x (fst acc) -> exists i, (0 <= i <= n)%Z /\ x = nthq (rc_times f) i;
  rs_first : In (nthq (rc_times f) 0) (fst acc);
  rs_all : forall i, (0 <= i < n)%Z -> eps1000 <= qabs (nthq (rc_values f) i - nthq (rc_values f) (i+1)) ->
     In (nthq (rc_times f) (i+1)) (fst acc) }.

Lemma rs_step k acc : (Z.of_nat k < rc_len f - 1)%Z -> rsinv (Z.of_nat k) acc ->
  exists acc', rsbody acc k = Ok acc' /\ rsinv (Z.of_nat (S k)) acc'.
Proof.
  intros Hk [I1 I2 I3 I4 I5]. unfold rsbody. rewrite !(rget_v f V) by lia. cbn [bind].
  destruct (qlebP eps1000 (qabs (nthq (rc_values f) (Z.of_nat k) - nthq (rc_values f) (Z.of_nat k + 1)))) as [C|C].
  - rewrite (rget_t f) by lia. cbn [bind]. eexists. split; [reflexivity|]. constructor; cbn [fst snd].
    + cbn [map]. rewrite at_time by lia. rewrite I1. reflexivity.
    + constructor; [exact I2|]. apply Forall_forall. intros x Hx. destruct (I3 x Hx) as [i [Hi ->]].
      apply (rt_lt f V); lia.
    + intros x [<-|Hx]; [exists (Z.of_nat k + 1)%Z; split; [lia|reflexivity]|].
      destruct (I3 x Hx) as [i [Hi ->]]. exists i. split; [lia|reflexivity].
    + right. exact I4.
    + intros i Hi Hc. destruct (Z.eq_dec i (Z.of_nat k)) as [->|]; [left; reflexivity|right; apply I5; [lia|exact Hc]].
  - eexists. split; [reflexivity|]. constructor; auto.
    + intros x Hx. destruct (I3 x Hx) as [i [Hi ->]]. exists i. split; [lia|reflexivity].
    + intros i Hi Hc. destruct (Z.eq_dec i (Z.of_nat k)) as [->|]; [contradiction|apply I5; [lia|exact Hc]].
Qed.
Lemma rs_fold n : (Z.of_nat n <= rc_len f - 1)%Z ->
  exists acc, foldM rsbody (seq 0 n) ([nthq (rc_times f) 0], [nthq (rc_values f) 0]) = Ok acc /\ rsinv (Z.of_nat n) acc.
Proof.
  induction n as [|n IH]; intro H.
  - eexists. split; [reflexivity|]. pose proof (rlen_pos f V). constructor; cbn [fst snd map].
    + rewrite at_time by lia. reflexivity.
    + repeat constructor.
    + intros x [<-|[]]. exists 0%Z. split; [lia|reflexivity].
    + left; reflexivity.
    + lia.
  - destruct IH as [acc [E Iv]]; [lia|]. destruct (rs_step n acc ltac:(lia) Iv) as [acc' [E' Iv']].
    exists acc'. split; [|exact Iv']. rewrite seq_S. cbn [plus].
    assert (FA : forall l1 l2 s, foldM rsbody (l1 ++ l2) s = (s' <- foldM rsbody l1 s ;; foldM rsbody l2 s')).
    { clear. induction l1 as [|x l1 IH]; intros l2 s; [reflexivity|]. cbn [app foldM]. destruct (rsbody s x); cbn [bind]; auto. }
    rewrite FA, E. cbn [bind foldM]. rewrite E'. reflexivity.
Qed.

Lemma rc_simplify_ok : exists p, rc_simplify f = Ok p /\ rvalid p /\ rc_lo p = rc_lo f /\ rc_hi p = rc_hi f /\
  (forall x, In x (rc_times p) -> In x (rc_times f)) /\
  (steps_clear f -> forall t, rc_at p t = rc_at f t).
Proof.
  pose proof (rlen_pos f V) as LP. unfold rc_simplify. rewrite (rget_t f) by lia. rewrite (rget_v f V) by lia. cbn [bind].
  destruct (rs_fold (length (rc_times f) - 1)) as [[T W] [E I]]; [unfold rc_len, zlen in *; lia|].
  change (foldM _ _ _) with (foldM rsbody (seq 0 (length (rc_times f) - 1)) ([nthq (rc_times f) 0], [nthq (rc_values f) 0])).
  rewrite E. cbn [bind fst snd]. destruct I as [I1 I2 I3 I4 I5]. cbn [fst snd] in *.
  replace (Z.of_nat (length (rc_times f) - 1)) with (rc_len f - 1)%Z in * by (unfold rc_len, zlen in *; lia).
  set (p := mkRC (rev T) (rev W) (rc_lo f) (rc_hi f)).
  assert (Vp : rvalid p).
  { constructor; cbn [rc_times rc_values p].
    - rewrite !rev_length, I1, map_length. reflexivity.
    - intro C. apply in_rev in I4. rewrite C in I4. destruct I4.
    - apply SSorted_rev. exact I2.
    - intros t Ht. apply in_rev in Ht. destruct (I3 t Ht) as [i [Hi ->]]. apply (rv_dom f V), nthq_in. unfold rc_len in *. lia. }
  exists p. split; [exact (rc_init_ok p Vp)|]. split; [exact Vp|]. split; [reflexivity|]. split; [reflexivity|]. split.
  { intros x Hx. cbn [rc_times p] in Hx. apply in_rev in Hx. destruct (I3 x Hx) as [i [Hi ->]]. apply nthq_in. unfold rc_len in *. lia. }
  intro SC. apply (rc_unique p _ Vp); [cbn [rc_times rc_values p]; rewrite map_rev, I1; reflexivity|].
  cbn [rc_times p]. intros t u H Hx.
  destruct (ptr_exists f V t) as [a Pa]. destruct (ptr_exists f V u) as [b Pb].
  rewrite (at_ptr f V t a Pa), (at_ptr f V u b Pb).
  pose proof (ptr_mono _ t u a b (rv_inc f V) H Pa Pb) as M.
  destruct Pa as [A0 [A1 A2]], Pb as [B0 [B1 B2]]. unfold rc_len in *.
  assert (Q : forall n, (a + Z.of_nat n <= b)%Z -> nthq (rc_values f) a = nthq (rc_values f) (a + Z.of_nat n)).
  { induction n as [|n IH]; intro Hn; [f_equal; lia|]. rewrite IH by lia.
    replace (a + Z.of_nat (S n))%Z with (a + Z.of_nat n + 1)%Z by lia. set (i := (a + Z.of_nat n)%Z) in *.
    destruct (SC i) as [K|K]; [unfold rc_len; lia|exact K|]. exfalso.
    assert (In (nthq (rc_times f) (i+1)) T) by (apply I5; [lia|exact K]).
    assert (t < nthq (rc_times f) (i+1)).
    { pose proof (rt_le f V (a+1) (i+1) ltac:(lia) ltac:(unfold rc_len; lia)). specialize (A2 ltac:(lia)). qlra. }
    assert (nthq (rc_times f) (i+1) <= u).
    { pose proof (rt_le f V (i+1) b ltac:(lia) ltac:(unfold rc_len; lia)). specialize (B1 ltac:(lia)). qlra. }
    destruct (Hx (nthq (rc_times f) (i+1))) as [X|[X|X]]; [rewrite <- in_rev; assumption|qlra|qlra|].
    specialize (X (nthq (rc_times f) 0)). rewrite <- in_rev in X. specialize (X I4).
    pose proof (rt_lt f V 0 (i+1) ltac:(lia) ltac:(unfold rc_len; lia)). qlra. }
  specialize (Q (Z.to_nat (b - a)) ltac:(lia)). rewrite Q. f_equal. lia.
Qed.
End Simp.

(** ** integral *)
Lemma integral_vals_spec : forall ts vs acc, length vs = length ts ->
  length (integral_vals acc ts vs) = length ts /\
  (ts <> [] -> nthq (integral_vals acc ts vs) 0 = acc) /\
  (forall i, (0 <= i)%Z -> (i + 1 < zlen ts)%Z ->
     nthq (integral_vals acc ts vs) (i+1) = nthq (integral_vals acc ts vs) i + nthq vs i * (nthq ts (i+1) - nthq ts i)).
Proof.
  induction ts as [|t ts IH]; intros vs acc L; [split; [reflexivity|split; [congruence|unfold zlen; cbn; lia]]|].
  destruct vs as [|v vs]; [discriminate|]. destruct ts as [|t' ts].
  - split; [reflexivity|]. split; [reflexivity|]. intros i. unfold zlen. cbn [length]. lia.
  - destruct (IH vs (acc + v * (t' - t)) ltac:(cbn in *; lia)) as [I1 [I2 I3]]. specialize (I2 ltac:(discriminate)).
    assert (E : integral_vals acc (t :: t' :: ts) (v :: vs) = acc :: integral_vals (acc + v * (t' - t)) (t' :: ts) vs) by reflexivity.
    rewrite E. clear E. set (R := integral_vals (acc + v * (t' - t)) (t' :: ts) vs) in *.
    split; [cbn [length]; rewrite I1; reflexivity|]. split; [reflexivity|]. intros i Hi Hl.
    assert (SH : forall a (l : list Qc) k, (0 <= k)%Z -> nthq (a :: l) (k+1) = nthq l k).
    { intros a l k Hk. unfold nthq. replace (Z.to_nat (k+1)) with (S (Z.to_nat k)) by lia. reflexivity. }
    destruct (Z.eq_dec i 0) as [->|].
    + rewrite !SH by lia. change (nthq (acc :: R) 0) with acc. rewrite I2. reflexivity.
    + replace i with (i - 1 + 1)%Z by lia. set (k := (i-1)%Z) in *. rewrite !SH by lia.
      rewrite (I3 k); [|lia|unfold zlen in *; cbn [length] in *; lia]. rewrite SH by lia. reflexivity.
Qed.

Lemma rc_integral_ok f t0 tl : rvalid f -> StronglySorted gap (rc_times f) ->
  pyget (rc_times f) 0 = Ok t0 -> pyget (rc_times f) (-1) = Ok tl ->
  rc_lo f = Fin t0 -> ext_le (Fin (tl + 1)) (rc_hi f) ->
  exists F, rc_integral f = Ok F /\ valid F /\ pl_lo F = rc_lo f /\ pl_hi F = rc_hi f /\
    pl_times F = rc_times f /\ pl_at F t0 = 0 /\
    (exists v, pyget (rc_values f) (-1) = Ok v /\ pl_last F = v) /\
    forall a b, rin_dom f a -> a <= b ->
      (forall x, In x (rc_times f) -> x <= a \/ b <= x) -> pl_at F b - pl_at F a = rc_at f a * (b - a).
Proof.
  intros V G E0 El Elo Hhi. pose proof (rlen_pos f V) as LP. unfold rc_integral. rewrite E0, El, Elo. cbn [bind].
  destruct (ext_eqbP (Fin t0) (Fin t0)); [|congruence]. destruct (ext_lebP (Fin (tl+1)) (rc_hi f)); [|contradiction].
  cbn [andb assertb bind]. rewrite (rget_v f V) by lia. rewrite (rlast_v f V). cbn [bind].
  destruct (integral_vals_spec (rc_times f) (rc_values f) 0 (rv_len f V)) as [I1 [I2 I3]]. specialize (I2 (rv_ne f V)).
  set (W := integral_vals 0 (rc_times f) (rc_values f)) in *.
  set (F := mkPL (rc_times f) W (nthq (rc_values f) 0) (nthq (rc_values f) (rc_len f - 1)) (Fin t0) (rc_hi f)).
  assert (VF : valid F).
  { constructor; cbn [pl_times pl_values F]; auto; [apply (rv_ne f V)|]. intros t Ht.
    pose proof (rv_dom f V t Ht) as D. unfold rin_dom in D. rewrite Elo in D. exact D. }
  exists F. split; [exact (pl_init_ok F VF)|]. split; [exact VF|]. do 3 (split; [reflexivity|]).
  rewrite (rget_t f) in E0 by lia. apply ok_inj in E0.
  split.
  { rewrite <- E0. change (nthq (rc_times f) 0) with (tm F 0). rewrite (at_tm F 0 VF) by (exact (conj (Z.le_refl 0) LP)). exact I2. }
  split; [eexists; split; reflexivity|].
  assert (SL : forall i, (0 <= i < rc_len f)%Z -> slope_q F i = nthq (rc_values f) i).
  { intros i Hi. unfold slope_q. destruct (Z.eqb_spec i (-1)); [lia|].
    change (pl_len F) with (rc_len f). destruct (Z.eqb_spec i (rc_len f - 1)) as [->|]; [reflexivity|].
    unfold vl, tm. cbn [pl_times pl_values F]. rewrite I3 by (unfold rc_len in *; lia).
    assert (nthq (rc_times f) i < nthq (rc_times f) (i+1)) by (apply (rt_lt f V); lia).
    field. intro; qlra. }
  intros a b Da Hab Hx. destruct (ptr_exists f V a) as [p P]. rewrite (at_ptr f V a p P).
  assert (Pa : nthq (rc_times f) p <= a).
  { destruct P as [P0 [P1 _]]. destruct (Z.eq_dec p 0) as [->|]; [|apply P1; lia].
    rewrite E0. destruct Da as [D _]. rewrite Elo in D. exact D. }
  destruct P as [P0 [P1 P2]].
  rewrite <- (SL p P0). rewrite (at_slope F p b a VF); [|change (pl_len F) with (zlen (rc_times f)); lia| |].
  - ring.
  - split; intro K; [change (nthq (rc_times f) p <= b); qlra|].
    change (b <= nthq (rc_times f) (p+1)). change (pl_len F) with (zlen (rc_times f)) in K.
    destruct (Hx (nthq (rc_times f) (p+1))) as [X|X]; [apply nthq_in; lia| |exact X]. specialize (P2 ltac:(lia)). qlra.
  - split; intro K; [exact Pa|]. change (a <= nthq (rc_times f) (p+1)). change (pl_len F) with (zlen (rc_times f)) in K.
    specialize (P2 ltac:(lia)). qlra.
Qed.
