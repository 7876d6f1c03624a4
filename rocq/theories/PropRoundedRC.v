(** * C126: right-constant functions with floating-point arithmetic
    Model: RoundedRC.v ([r_rc_plus], [r_rc_neg], [r_rc_sub]), RoundedBuilder.v ([r_rc_sum],
    [r_rc_integral], [r_rc_eval]), Rounded.v [rnd64] *)
From Coq Require Import Permutation Sorted.
From Verif Require Import Base Spec Arrays ArraysProofs PL PLProofs PLEval PLArith RC RCProofs RCOps PQ Graph FRC DynFlow DynEdge Rounded Rnd64 RoundedFlow RoundedEvalProofs RoundedRates RoundedBuilder RoundedSplit PropRounded PropRoundedSplit RoundedRC.

(** Specification vocabulary: [rvalid] (RCProofs.v): breakpoints increase and lie in the
    domain, one value each; [r_separated] (RoundedRC.v): the comparison with eps tells the
    breakpoints apart, [x < y - eps] in floating point; [fsum] (RoundedSplit.v): the sum
    from left to right, rounded after every addition; [rc_eval]: C18. *)
Definition same_domain (f g : RC) : Prop := rc_lo f = rc_lo g /\ rc_hi f = rc_hi g.

Theorem C126_eval : forall on f t, rvalid f -> rin_dom f t -> exists y, r_rc_eval on f t = Ok y /\ rc_eval f t = Ok y /\ In y (rc_values f).
Proof.
  intros on f t V D. rewrite r_rc_eval_ok by assumption. rewrite (reval_at f V t D). exists (rc_at f t). split; [reflexivity|]. split; [reflexivity|].
  destruct (ptr_exists f V t) as [p P]. rewrite (at_ptr f V t p P). destruct P as (P & _ & _). unfold nthq. apply nth_In. unfold zlen in P. rewrite (rv_len f V). lia.
Qed.
Print Assumptions C126_eval.

(** Adding never raises; the sum has breakpoints of the summands only, increasing; at each of
    its breakpoints it is the correctly rounded sum; everywhere, if the breakpoints are told apart. *)
Theorem C126_plus : forall rnd on f g, rounding rnd -> rvalid f -> rvalid g -> same_domain f g -> Forall (float rnd) (rc_times f ++ rc_times g) ->
  exists p, r_rc_plus rnd on f g = Ok p /\ rvalid p /\ same_domain p f /\ (forall t, In t (rc_times p) -> In t (rc_times f) \/ In t (rc_times g)) /\
    forall t a b, (In t (rc_times p) \/ r_separated rnd (rc_times f ++ rc_times g)) -> r_rc_eval on f t = Ok a -> r_rc_eval on g t = Ok b -> rin_dom f t -> r_rc_eval on p t = Ok (rnd (a + b)).
Proof.
  intros rnd on f g R Vf Vg [DL DH] F. destruct (r_plus_ok rnd R on f g Vf Vg DL DH F) as (p & E & Vp & PL_ & PH & I & A & S).
  exists p. split; [exact E|]. split; [exact Vp|]. split; [split; assumption|]. split; [exact I|]. intros t a b C EA EB D.
  assert (Dg : rin_dom g t) by (unfold rin_dom in *; rewrite <- DL, <- DH; exact D). assert (Dp : rin_dom p t) by (unfold rin_dom in *; rewrite PL_, PH; exact D).
  rewrite r_rc_eval_ok in EA by assumption. rewrite r_rc_eval_ok in EB by assumption. rewrite r_rc_eval_ok by assumption. rewrite (reval_at f Vf t D) in EA. rewrite (reval_at g Vg t Dg) in EB. apply ok_inj in EA. apply ok_inj in EB. subst a b.
  rewrite (reval_at p Vp t Dp). f_equal. destruct C as [C|C]; [apply A, C|apply (proj2 (S C))].
Qed.
Print Assumptions C126_plus.

(** Subtraction likewise. *)
Theorem C126_sub : forall rnd on f g, rounding rnd -> rvalid f -> rvalid g -> same_domain f g -> Forall (float rnd) (rc_times f ++ rc_times g) ->
  exists p, r_rc_sub rnd on f g = Ok p /\ rvalid p /\ same_domain p f /\ (forall t, In t (rc_times p) -> In t (rc_times f) \/ In t (rc_times g)) /\
    forall t a b, (In t (rc_times p) \/ r_separated rnd (rc_times f ++ rc_times g)) -> r_rc_eval on f t = Ok a -> r_rc_eval on g t = Ok b -> rin_dom f t -> r_rc_eval on p t = Ok (rnd (a - b)).
Proof.
  intros rnd on f g R Vf Vg [DL DH] F. destruct (rc_neg_ok g Vg) as (n & EN & Vn & TN & LN & HN & AN).
  assert (EN' : r_rc_neg on g = Ok n).
  { unfold rc_neg, rc_init in EN. unfold r_rc_neg, r_rc_init. destruct (zlen _ =? zlen _)%Z; cbn [assertb bind] in EN; [|discriminate EN]. destruct (forallb _ _); cbn [assertb bind] in EN; [|discriminate EN]. destruct on; exact EN. }
  unfold r_rc_sub. rewrite EN'. cbn [bind].
  destruct (r_plus_ok rnd R on f n Vf Vn) as (p & E & Vp & PL_ & PH & I & A & S); [congruence|congruence|rewrite TN; exact F|].
  exists p. rewrite TN in *. split; [exact E|]. split; [exact Vp|]. split; [split; assumption|]. split; [exact I|]. intros t a b C EA EB D.
  assert (Dg : rin_dom g t) by (unfold rin_dom in *; rewrite <- DL, <- DH; exact D). assert (Dp : rin_dom p t) by (unfold rin_dom in *; rewrite PL_, PH; exact D).
  rewrite r_rc_eval_ok in EA by assumption. rewrite r_rc_eval_ok in EB by assumption. rewrite r_rc_eval_ok by assumption. rewrite (reval_at f Vf t D) in EA. rewrite (reval_at g Vg t Dg) in EB. apply ok_inj in EA. apply ok_inj in EB. subst a b.
  rewrite (reval_at p Vp t Dp). f_equal. unfold Qcminus. rewrite <- AN. destruct C as [C|C]; [apply A, C|apply (proj2 (S C))].
Qed.
Print Assumptions C126_sub.

Lemma evals_at on fs t vs : Forall rvalid fs -> (forall f, In f fs -> rin_dom f t) -> Forall2 (fun f v => r_rc_eval on f t = Ok v) fs vs -> at_all fs t = vs.
Proof.
  intros V D H. induction H as [|f v fs vs E H IH]; [reflexivity|]. inversion V; subst. cbn [at_all map]. f_equal; [|apply IH; [assumption|intros g G; apply D; right; exact G]].
  rewrite r_rc_eval_ok in E by (try assumption; apply D; left; reflexivity). rewrite reval_at in E by (try assumption; apply D; left; reflexivity). apply ok_inj in E. exact E.
Qed.
(** Summing never raises; the sum is the rounded sum of the values, added from left to right. *)
Theorem C126_sum : forall rnd on fs lo hi, rounding rnd -> fs <> [] -> Forall rvalid fs -> Forall (float rnd) (concat (map rc_times fs)) ->
  (forall f, In f fs -> rc_lo f = lo /\ rc_hi f = hi) ->
  exists p, r_rc_sum rnd on fs lo hi = Ok p /\ rvalid p /\ rc_lo p = lo /\ rc_hi p = hi /\
    (forall t, In t (rc_times p) -> exists f, In f fs /\ In t (rc_times f)) /\
    forall t vs, (In t (rc_times p) \/ r_separated rnd (concat (map rc_times fs))) -> rin_dom p t -> Forall2 (fun f v => r_rc_eval on f t = Ok v) fs vs -> r_rc_eval on p t = Ok (fsum rnd vs).
Proof.
  intros rnd on fs lo hi R N V F D.
  destruct (r_sum_ok rnd R on fs lo hi N V F) as (p & E & Vp & PL_ & PH & I & A & S).
  { intros f t L X. rewrite Forall_forall in V. destruct (D f L) as [<- <-]. exact (rv_dom f (V f L) t X). }
  exists p. split; [exact E|]. split; [exact Vp|]. split; [exact PL_|]. split; [exact PH|]. split; [exact I|]. intros t vs C Dp H.
  assert (DD : forall f, In f fs -> rin_dom f t). { intros f L. destruct (D f L) as [QL QH]. unfold rin_dom in *. rewrite QL, QH, <- PL_, <- PH. exact Dp. }
  rewrite <- (evals_at on fs t vs V DD H). rewrite r_rc_eval_ok by assumption. rewrite (reval_at p Vp t Dp). f_equal. destruct C as [C|C]; [apply A, C|apply (proj2 (S C))].
Qed.
Print Assumptions C126_sum.
Lemma few_terms n : (Z.of_nat n <= 2 ^ 52)%Z -> kq n * u64 <= half.
Proof.
  intro L. unfold kq, u64.
  assert (qz (Z.of_nat n) <= qz (2 ^ 52)) as K by (exact (proj1 (Rnd64.qz_le _ _) L)).
  pose proof (pow2_pos (-53)) as U. assert (0 <= (qz (2 ^ 52) - qz (Z.of_nat n)) * pow2 (-53)) as M by (apply qmul_nn; qlra).
  assert (qz (2 ^ 52) * pow2 (-53) = half) as H by (apply Qc_is_canon; vm_compute; reflexivity).
  replace ((qz (2 ^ 52) - qz (Z.of_nat n)) * pow2 (-53)) with (half - qz (Z.of_nat n) * pow2 (-53)) in M by (rewrite <- H; ring). qlra.
Qed.
(** In binary64, the sum of non-negative values has a small relative error. *)
Theorem C126_sum64 : forall vs, (forall x, In x vs -> 0 <= x /\ float rnd64 x) -> (Z.of_nat (length vs) <= 2 ^ 52)%Z ->
  let s := fold_right Qcplus 0 vs in let k := qz (Z.of_nat (length vs)) in
  (1 - k * pow2 (-53)) * s <= fsum rnd64 vs /\ fsum rnd64 vs <= (1 + qz 2 * k * pow2 (-53)) * s.
Proof.
  intros vs P L s k. exact (fsum_near vs (length vs) P (Nat.le_refl _) (few_terms _ L)).
Qed.
Print Assumptions C126_sum64.

(** ** The integral *)
(** The increments that are added up, exactly and in floating point. *)
Fixpoint pieces (ts vs : list Qc) : list Qc := match ts, vs with t :: (t' :: _) as r, v :: vs' => v * (t' - t) :: pieces r vs' | _, _ => [] end.
Fixpoint r_pieces (rnd : Qc -> Qc) (ts vs : list Qc) : list Qc := match ts, vs with t :: (t' :: _) as r, v :: vs' => rnd (v * rnd (t' - t)) :: r_pieces rnd r vs' | _, _ => [] end.
Lemma vals_nth ts : forall vs acc i x, length vs = length ts -> nth_error (integral_vals acc ts vs) i = Some x -> x = acc + fold_right Qcplus 0 (firstn i (pieces ts vs)) /\ (i < length ts)%nat.
Proof.
  induction ts as [|t ts IH]; intros vs acc i x L E; [destruct i; discriminate E|]. destruct vs as [|v vs]; [discriminate L|]. destruct ts as [|t' ts].
  - cbn [integral_vals] in E. destruct i as [|i]; [|destruct i; discriminate E]. injection E as <-. cbn. split; [ring|lia].
  - cbn [integral_vals pieces] in *. destruct i as [|i]; cbn [nth_error firstn fold_right] in *; [injection E as <-; split; [ring|cbn; lia]|].
    destruct (IH vs _ i x ltac:(cbn in *; lia) E) as [-> B]. split; [ring|cbn in *; lia].
Qed.
Lemma r_vals_nth rnd ts : forall vs acc i x, length vs = length ts -> nth_error (r_integral_vals rnd acc ts vs) i = Some x -> x = fold_left (fun a y => rnd (a + y)) (firstn i (r_pieces rnd ts vs)) acc /\ (i < length ts)%nat.
Proof.
  induction ts as [|t ts IH]; intros vs acc i x L E; [destruct i; discriminate E|]. destruct vs as [|v vs]; [discriminate L|]. destruct ts as [|t' ts].
  - cbn [r_integral_vals] in E. destruct i as [|i]; [|destruct i; discriminate E]. injection E as <-. cbn. split; [reflexivity|lia].
  - cbn [r_integral_vals r_pieces] in *. destruct i as [|i]; cbn [nth_error firstn fold_left] in *; [injection E as <-; split; [reflexivity|cbn; lia]|].
    destruct (IH vs _ i x ltac:(cbn in *; lia) E) as [-> B]. split; [reflexivity|cbn in *; lia].
Qed.
Lemma r_vals_len rnd ts : forall vs acc, length vs = length ts -> length (r_integral_vals rnd acc ts vs) = length ts.
Proof. induction ts as [|t ts IH]; intros vs acc L; [reflexivity|]. destruct vs as [|v vs]; [discriminate L|]. destruct ts as [|t' ts]; [reflexivity|]. cbn [r_integral_vals length]. f_equal. apply IH. cbn in *. lia. Qed.
(** Non-negative rates: the accumulated values are floats that start at 0 and never decrease. *)
Lemma r_vals_mono rnd ts : rounding rnd -> StronglySorted Qclt ts -> forall vs acc, length vs = length ts -> Forall (fun v => 0 <= v) vs -> float rnd acc ->
  StronglySorted Qcle (r_integral_vals rnd acc ts vs) /\ Forall (fun x => acc <= x /\ float rnd x) (r_integral_vals rnd acc ts vs).
Proof.
  intros R S. induction S as [|t ts S IH F]; intros vs acc L P FA; [cbn; auto using SSorted_nil|]. destruct vs as [|v vs]; [discriminate L|]. destruct ts as [|t' ts].
  - cbn [r_integral_vals]. split; repeat constructor; [apply Qcle_refl|exact FA].
  - cbn [r_integral_vals]. inversion F as [|? ? LT _]; subst. inversion P as [|? ? PV PR]; subst.
    set (a := rnd (acc + rnd (v * rnd (t' - t)))).
    assert (A : acc <= a). { rewrite <- FA. apply (rnd_mono rnd R). assert (0 <= rnd (t' - t)) by (rewrite <- (rnd_0 rnd R); apply (rnd_mono rnd R); qlra).
      assert (0 <= rnd (v * rnd (t' - t))) by (rewrite <- (rnd_0 rnd R) at 1; apply (rnd_mono rnd R); apply qmul_nn; assumption). qlra. }
    destruct (IH vs a ltac:(cbn in *; lia) PR (rnd_idem rnd R _)) as [I1 I2].
    assert (I2' : Forall (fun x => acc <= x /\ float rnd x) (r_integral_vals rnd a (t' :: ts) vs)). { eapply Forall_impl; [|exact I2]. intros x [X Y]. split; [qlra|exact Y]. }
    split.
    + constructor; [exact I1|]. eapply Forall_impl; [|exact I2']. intros x [X _]. exact X.
    + constructor; [split; [apply Qcle_refl|exact FA]|exact I2'].
Qed.
Lemma r_integral_shape rnd on f F : r_rc_integral rnd on f = Ok F -> pl_times F = rc_times f /\ pl_values F = r_integral_vals rnd 0 (rc_times f) (rc_values f) /\ pl_lo F = rc_lo f /\ pl_hi F = rc_hi f /\
  pyget (rc_values f) 0 = Ok (pl_first F) /\ pyget (rc_values f) (-1) = Ok (pl_last F).
Proof.
  unfold r_rc_integral. intro E. binv E. binv E. binv E. binv E. binv E. unfold r_pl_init in E. binv E. binv E. binv E. apply ok_inj in E. subst F. cbn. auto 10.
Qed.
Theorem C126_integral : forall rnd on f F, rounding rnd -> rvalid f -> Forall (fun v => 0 <= v) (rc_values f) -> r_rc_integral rnd on f = Ok F ->
  pl_times F = rc_times f /\ pl_lo F = rc_lo f /\ pl_hi F = rc_hi f /\ length (pl_values F) = length (pl_times F) /\
  nth_error (pl_values F) 0 = Some 0 /\ StronglySorted Qcle (pl_values F) /\ Forall (fun x => 0 <= x /\ float rnd x) (pl_values F) /\ 0 <= pl_first F /\ 0 <= pl_last F.
Proof.
  intros rnd on f F R V P E. destruct (r_integral_shape rnd on f F E) as (T & VS & LO & HI & F0 & FL). rewrite T, VS.
  destruct (r_vals_mono rnd (rc_times f) R (rv_inc f V) (rc_values f) 0 (rv_len f V) P (rnd_0 rnd R)) as [M1 M2].
  split; [reflexivity|]. split; [exact LO|]. split; [exact HI|]. split; [apply r_vals_len, (rv_len f V)|]. split.
  { pose proof (rv_ne f V) as N. pose proof (rv_len f V) as L. destruct (rc_times f) as [|t [|t' ts]]; [congruence|reflexivity|]. destruct (rc_values f); [discriminate L|reflexivity]. }
  split; [exact M1|]. split; [exact M2|]. rewrite Forall_forall in P.
  rewrite (rget_v f V 0) in F0 by (pose proof (rlen_pos f V); lia). rewrite (rlast_v f V) in FL. apply ok_inj in F0. apply ok_inj in FL. rewrite <- F0, <- FL.
  assert (K : forall i, (0 <= i < rc_len f)%Z -> 0 <= nthq (rc_values f) i). { intros i I. apply P. unfold nthq. apply nth_In. rewrite (rv_len f V). unfold rc_len, zlen in I. lia. }
  pose proof (rlen_pos f V). split; apply K; lia.
Qed.
Print Assumptions C126_integral.

Lemma piece64 v t t' : float rnd64 v -> 0 <= v -> float rnd64 t -> float rnd64 t' -> t < t' ->
  let e := v * (t' - t) in let p := rnd64 (v * rnd64 (t' - t)) in
  0 <= e /\ 0 <= p /\ float rnd64 p /\ (1 - qz 3 * u64) * e - h64 <= p /\ p <= (1 + qz 3 * u64) * e + h64.
Proof.
  intros FV PV FT FT' L e p. assert (PE : 0 <= e) by (apply qmul_nn; qlra). split; [exact PE|].
  assert (0 <= rnd64 (t' - t)) as PD by (apply (rnd_nn rnd64 rnd64_rounding); qlra).
  split; [unfold p; apply (rnd_nn rnd64 rnd64_rounding), qmul_nn; assumption|]. split; [apply (rnd_idem _ rnd64_rounding)|].
  destruct (sub64 t' t FT' FT) as (d1 & D1 & Q1). destruct (std64 (v * rnd64 (t' - t))) as (d2 & e2 & D2 & E2 & Q2).
  assert (N : near1 (qz 3 * u64) ((1 + d1) * (1 + d2))).
  { pose proof u_pos as U. pose proof u_small as US. eapply near1_weaken; [|apply (near1_mul u64 u64); [qlra|qlra| | |apply near1_small, D1|apply near1_small, D2]].
    - assert (u64 * u64 <= u64 * 1) as M. { rewrite (Qcmult_comm u64 1). apply Qcmult_le_compat_r; [|qlra]. apply (Qcle_trans _ _ _ US). vm_compute. discriminate. }
      replace (qz 3) with (1 + 1 + 1) by (apply Qc_is_canon; reflexivity). qlra.
    - apply (Qcle_trans _ _ _ US). vm_compute. discriminate.
    - apply (Qcle_trans _ _ _ US). vm_compute. discriminate. }
  assert (Q : p = (1 + d1) * (1 + d2) * e + e2). { unfold p. rewrite Q2, Q1. unfold e. ring. }
  set (w := (1 + d1) * (1 + d2)) in *. destruct N as [N1 N2]. destruct E2 as [E2a E2b].
  assert (0 <= (w - (1 - qz 3 * u64)) * e) as A1 by (apply qmul_nn; [qlra|exact PE]). assert (0 <= (1 + qz 3 * u64 - w) * e) as A2 by (apply qmul_nn; [qlra|exact PE]).
  rewrite Q. split.
  - assert (w * e + e2 - ((1 - qz 3 * u64) * e - h64) = (w - (1 - qz 3 * u64)) * e + (e2 + h64)) by ring. qlra.
  - assert ((1 + qz 3 * u64) * e + h64 - (w * e + e2) = (1 + qz 3 * u64 - w) * e + (h64 - e2)) by ring. qlra.
Qed.
Lemma pieces64 ts : StronglySorted Qclt ts -> Forall (float rnd64) ts -> forall vs, Forall (fun v => 0 <= v /\ float rnd64 v) vs ->
  Forall2 (fun e p => 0 <= e /\ 0 <= p /\ float rnd64 p /\ (1 - qz 3 * u64) * e - h64 <= p /\ p <= (1 + qz 3 * u64) * e + h64) (pieces ts vs) (r_pieces rnd64 ts vs).
Proof.
  intros S F. induction S as [|t ts S IH L]; intros vs P; [constructor|]. destruct ts as [|t' ts]; [constructor|]. destruct vs as [|v vs]; [constructor|].
  inversion F as [|? ? F1 F2]; subst. inversion F2; subst. inversion L; subst. inversion P as [|? ? [P1 P2] P3]; subst. cbn [pieces r_pieces]. constructor; [apply piece64; assumption|]. apply IH; assumption.
Qed.
Lemma firstn_f2 {A B} (R : A -> B -> Prop) l l' : Forall2 R l l' -> forall i, Forall2 R (firstn i l) (firstn i l').
Proof. induction 1; intros [|i]; cbn [firstn]; constructor; auto. Qed.
Lemma sums64 l l' : Forall2 (fun e p => 0 <= e /\ 0 <= p /\ float rnd64 p /\ (1 - qz 3 * u64) * e - h64 <= p /\ p <= (1 + qz 3 * u64) * e + h64) l l' ->
  let E := fold_right Qcplus 0 l in let S := fold_right Qcplus 0 l' in
  0 <= E /\ (forall x, In x l' -> 0 <= x /\ float rnd64 x) /\ length l = length l' /\ (1 - qz 3 * u64) * E - kq (length l) * h64 <= S /\ S <= (1 + qz 3 * u64) * E + kq (length l) * h64.
Proof.
  induction 1 as [|e p l l' (A & B & C & D1 & D2) H (I1 & I2 & I3 & I4 & I5)]; intros E S.
  - cbn in E, S. subst E S. split; [discriminate|]. split; [intros x []|]. split; [reflexivity|]. cbn [length]. change (kq 0) with 0. split; apply Qcle_minus_iff; ring_simplify; discriminate.
  - cbn [fold_right] in E, S. subst E S. cbn [length]. rewrite kq_S. set (E := fold_right Qcplus 0 l) in *. set (S := fold_right Qcplus 0 l') in *.
    split; [qlra|]. split; [intros x [<-|X]; [auto|apply I2, X]|]. split; [f_equal; exact I3|]. split; [clear - D1 I4|clear - D2 I5].
    + replace ((1 - qz 3 * u64) * (e + E) - (kq (length l) + 1) * h64) with (((1 - qz 3 * u64) * e - h64) + ((1 - qz 3 * u64) * E - kq (length l) * h64)) by ring. qlra.
    + replace ((1 + qz 3 * u64) * (e + E) + (kq (length l) + 1) * h64) with (((1 + qz 3 * u64) * e + h64) + ((1 + qz 3 * u64) * E + kq (length l) * h64)) by ring. qlra.
Qed.
(** In binary64 the accumulated values are those of the exact integral (C21) up to a small
    relative error (and underflow): [n] is the number of breakpoints. *)
Theorem C126_integral64 : forall on f F G, rvalid f -> Forall (float rnd64) (rc_times f) -> Forall (fun v => 0 <= v /\ float rnd64 v) (rc_values f) -> (Z.of_nat (length (rc_times f)) <= 2 ^ 52)%Z ->
  r_rc_integral rnd64 on f = Ok F -> rc_integral f = Ok G ->
  let n := qz (Z.of_nat (length (rc_times f))) in let u := pow2 (-53) in
  forall i x y, nth_error (pl_values F) i = Some x -> nth_error (pl_values G) i = Some y ->
    (1 - (n + qz 3) * u) * y - n * pow2 (-1075) <= x /\ x <= (1 + (qz 2 * n + qz 6) * u) * y + qz 2 * n * pow2 (-1075).
Proof.
  intros on f F G V FT P L E EG n u i x y X Y. destruct (r_integral_shape _ _ _ _ E) as (_ & VS & _). rewrite VS in X.
  assert (VG : pl_values G = integral_vals 0 (rc_times f) (rc_values f)). { clear - EG. unfold rc_integral in EG. binv EG. binv EG. binv EG. binv EG. binv EG. unfold pl_init in EG. binv EG. binv EG. binv EG. apply ok_inj in EG. subst G. reflexivity. }
  rewrite VG in Y. apply vals_nth in Y; [|apply (rv_len f V)]. apply r_vals_nth in X; [|apply (rv_len f V)]. destruct Y as [Y I]. destruct X as [X _].
  pose proof (firstn_f2 _ _ _ (pieces64 _ (rv_inc f V) FT _ P) i) as H. destruct (sums64 _ _ H) as (E0 & PP & LL & S1 & S2).
  set (l := firstn i (pieces (rc_times f) (rc_values f))) in *. set (l' := firstn i (r_pieces rnd64 (rc_times f) (rc_values f))) in *.
  assert (LEN : (length l' <= length (rc_times f))%nat) by (unfold l'; rewrite firstn_length; lia).
  change (x = fsum rnd64 l') in X. destruct (fsum_near l' (length (rc_times f)) PP LEN (few_terms _ L)) as [N1 N2]. rewrite <- X in N1, N2. change (kq (length (rc_times f))) with n in *.
  pose proof (few_terms _ L) as NU. change (kq (length (rc_times f))) with n in NU. assert (KL : kq (length l) <= n) by (rewrite LL; apply kq_le, LEN).
  assert (K0 : 0 <= kq (length l)) by apply kq_nn. set (m := kq (length l)) in *. set (Es := fold_right Qcplus 0 l) in *. set (S := fold_right Qcplus 0 l') in *.
  replace (0 + Es) with Es in Y by ring. subst y. change u64 with u in *. change h64 with (pow2 (-1075)) in *. set (h := pow2 (-1075)) in *.
  assert (U : 0 < u) by apply pow2_pos. assert (Hh : 0 < h) by apply pow2_pos. assert (n0 : 0 <= n) by qlra.
  assert (HH : half + half = 1) by (apply Qc_is_canon; reflexivity).
  assert (q2 : qz 2 = 1 + 1) by (apply Qc_is_canon; reflexivity). assert (q3 : qz 3 = 1 + 1 + 1) by (apply Qc_is_canon; reflexivity). assert (q6 : qz 6 = 1 + 1 + 1 + 1 + 1 + 1) by (apply Qc_is_canon; reflexivity). rewrite q2, q3, q6 in *.
  assert (NUE : 0 <= n * u * (u * Es)) by (repeat apply qmul_nn; qlra). assert (UE : 0 <= u * Es) by (apply qmul_nn; qlra).
  assert (A0 : 0 <= (half - n * u) * (u * Es)) by (apply qmul_nn; [qlra|exact UE]).
  assert (B0 : 0 <= (half - n * u) * (m * h)) by (apply qmul_nn; [qlra|apply qmul_nn; qlra]). assert (MH : 0 <= (n - m) * h) by (apply qmul_nn; qlra). assert (mh : 0 <= m * h) by (apply qmul_nn; qlra).
  assert (C0 : 0 <= n * u * (m * h)) by (repeat apply qmul_nn; qlra).
  split.
  - assert (0 <= (1 - n * u) * (S - ((1 - (1 + 1 + 1) * u) * Es - m * h))) as M by (apply qmul_nn; qlra). clear - M N1 NUE C0 MH. 
    assert (R : x - ((1 - (n + (1 + 1 + 1)) * u) * Es - n * h) = (x - (1 - n * u) * S) + (1 - n * u) * (S - ((1 - (1 + 1 + 1) * u) * Es - m * h)) + (1 + 1 + 1) * (n * u * (u * Es)) + n * u * (m * h) + (n - m) * h) by ring.
    apply Qcle_minus_iff. assert (0 <= x - ((1 - (n + (1 + 1 + 1)) * u) * Es - n * h)) by (rewrite R; qlra). qlra.
  - assert (0 <= (1 + (1 + 1) * n * u) * (((1 + (1 + 1 + 1) * u) * Es + m * h) - S)) as M by (apply qmul_nn; [|qlra]; assert (0 <= n * u) by (apply qmul_nn; qlra); qlra).
    assert (R : ((1 + ((1 + 1) * n + (1 + 1 + 1 + 1 + 1 + 1)) * u) * Es + (1 + 1) * n * h) - x = ((1 + (1 + 1) * n * u) * S - x) + (1 + (1 + 1) * n * u) * (((1 + (1 + 1 + 1) * u) * Es + m * h) - S)
       + ((1 + 1 + 1 + 1 + 1 + 1) * ((half - n * u) * (u * Es)) + (1 + 1) * ((half - n * u) * (m * h)) + (1 + 1) * ((n - m) * h))).
    { replace (1 + 1 + 1 + 1 + 1 + 1) with ((half + half) * (1 + 1 + 1) * (1 + 1)) by (rewrite HH; ring). assert (HE : half = 1 - half) by (rewrite <- HH; ring). 
      transitivity (((1 + ((1 + 1) * n + (1 + 1 + 1 + 1 + 1 + 1)) * u) * Es + (1 + 1) * n * h) - x); [rewrite HH; ring|].
      replace half with (1 / (1 + 1)) by (apply Qc_is_canon; reflexivity). field. discriminate. }
    assert (0 <= ((1 + ((1 + 1) * n + (1 + 1 + 1 + 1 + 1 + 1)) * u) * Es + (1 + 1) * n * h) - x) by (rewrite R; qlra). qlra.
Qed.
Print Assumptions C126_integral64.

(** The rounded sum is not the exact sum: 0.1 + 0.2. *)
Definition tenth (k : Z) : Qc := rnd64 (Q2Qc (k # 10)).
Theorem C126_exact_refuted : ~ (forall f g p, rvalid f -> rvalid g -> same_domain f g -> Forall (float rnd64) (rc_times f ++ rc_times g) -> Forall (float rnd64) (rc_values f ++ rc_values g) ->
  r_rc_plus rnd64 true f g = Ok p -> forall t a b y, rc_eval f t = Ok a -> rc_eval g t = Ok b -> rc_eval p t = Ok y -> y = a + b).
Proof.
  intro H. set (f := mkRC [0] [tenth 1] (Fin 0) PInf). set (g := mkRC [0] [tenth 2] (Fin 0) PInf).
  assert (V : forall v, rvalid (mkRC [0] [v] (Fin 0) PInf)). { intro v. constructor; [reflexivity|discriminate|repeat constructor|]. intros t [<-|[]]. split; [apply Qcle_refl|exact I]. }
  assert (F0 : forall k, float rnd64 (tenth k)) by (intro k; apply (rnd_idem _ rnd64_rounding)).
  assert (E : r_rc_plus rnd64 true f g = Ok (mkRC [0] [rnd64 (tenth 1 + tenth 2)] (Fin 0) PInf)) by reflexivity.
  assert (K := H f g _ (V _) (V _) (conj eq_refl eq_refl) (Forall_cons _ rnd64_0 (Forall_cons _ rnd64_0 (Forall_nil _))) (Forall_cons _ (F0 1%Z) (Forall_cons _ (F0 2%Z) (Forall_nil _))) E 0 (tenth 1) (tenth 2) (rnd64 (tenth 1 + tenth 2)) eq_refl eq_refl eq_refl).
  assert (C : qeqb (rnd64 (tenth 1 + tenth 2)) (tenth 1 + tenth 2) = false) by (vm_compute; reflexivity). destruct (qeqbP (rnd64 (tenth 1 + tenth 2)) (tenth 1 + tenth 2)); [discriminate C|]. contradiction.
Qed.
Print Assumptions C126_exact_refuted.

(** ** The hypotheses can be met *)
Definition xf : RC := mkRC [0; 1; qz 3] [tenth 1; tenth 7; 0] (Fin 0) PInf.
Definition xg : RC := mkRC [0; qz 2] [tenth 2; tenth 1] (Fin 0) PInf.
Definition fl (x : Qc) : bool := qeqb (rnd64 x) x.
Lemma fl_float l : forallb fl l = true -> Forall (float rnd64) l.
Proof. intro H. apply Forall_forall. intros x X. rewrite forallb_forall in H. specialize (H x X). unfold fl in H. destruct (qeqbP (rnd64 x) x); [assumption|discriminate H]. Qed.
Example C126_example : rvalid xf /\ rvalid xg /\ same_domain xf xg /\ Forall (float rnd64) (rc_times xf ++ rc_times xg) /\ r_separated rnd64 (rc_times xf ++ rc_times xg) /\
  Forall (fun v => 0 <= v /\ float rnd64 v) (rc_values xf) /\
  (exists p, r_rc_plus rnd64 true xf xg = Ok p /\ (length (rc_times p) =? 4)%nat = true /\ match rc_eval p (qz 2) with Ok y => qeqb y (rnd64 (tenth 7 + tenth 1)) | _ => false end = true) /\
  (exists F, r_rc_integral rnd64 true xf = Ok F /\ match pl_values F with [a; b; c] => (qeqb a 0 && qeqb b (tenth 1) && qltb b c)%bool | _ => false end = true) /\
  (exists G, rc_integral xf = Ok G).
Proof.
  assert (V : rvalid xf). { constructor; [reflexivity|discriminate|repeat constructor; vm_compute; reflexivity|]. intros t [<-|[<-|[<-|[]]]]; (split; [vm_compute; discriminate|exact I]). }
  assert (W : rvalid xg). { constructor; [reflexivity|discriminate|repeat constructor; vm_compute; reflexivity|]. intros t [<-|[<-|[]]]; (split; [vm_compute; discriminate|exact I]). }
  split; [exact V|]. split; [exact W|]. split; [split; reflexivity|]. split; [apply fl_float; vm_compute; reflexivity|]. split.
  { intros x y X Y L. cbn [rc_times xf xg app In] in X, Y. repeat match goal with H : _ \/ _ |- _ => destruct H as [<-|H] | H : False |- _ => destruct H end; try (exfalso; vm_compute in L; discriminate); vm_compute; reflexivity. }
  split. { assert (P : forallb fl (rc_values xf) = true) by (vm_compute; reflexivity). apply fl_float in P. rewrite Forall_forall in P. apply Forall_forall. intros x X. split; [|apply P, X]. cbn [rc_values xf In] in X. repeat destruct X as [<-|X]; try (vm_compute; discriminate). destruct X. }
  split; [eexists; split; [vm_compute; reflexivity|split; vm_compute; reflexivity]|]. split; [eexists; split; [vm_compute; reflexivity|vm_compute; reflexivity]|].
  eexists. vm_compute. reflexivity.
Qed.
