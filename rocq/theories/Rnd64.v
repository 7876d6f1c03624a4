(** * binary64 rounding is a rounding: monotone, idempotent, accurate *)
From Coq Require Import Qround Qpower.
From Verif Require Import Base Spec Arrays PLMono DynEdge Rounded RoundedSpec.

Lemma qz_le a b : (a <= b)%Z <-> qz a <= qz b.
Proof. unfold qz, Qcle. cbn [this Q2Qc]. rewrite !Qred_correct. rewrite <- Zle_Qle. tauto. Qed.
Lemma qz_lt a b : (a < b)%Z <-> qz a < qz b.
Proof. unfold qz, Qclt. cbn [this Q2Qc]. rewrite !Qred_correct. rewrite <- Zlt_Qlt. tauto. Qed.
Lemma qz_add a b : qz (a + b) = qz a + qz b.
Proof. apply Qc_is_canon. unfold qz, Qcplus. cbn [this Q2Qc]. rewrite !Qred_correct. rewrite inject_Z_plus. reflexivity. Qed.
Lemma qz_mul a b : qz (a * b) = qz a * qz b.
Proof. apply Qc_is_canon. unfold qz, Qcmult. cbn [this Q2Qc]. rewrite !Qred_correct. rewrite inject_Z_mult. reflexivity. Qed.
Lemma qz_opp a : qz (- a) = - qz a.
Proof. apply Qc_is_canon. unfold qz, Qcopp. cbn [this Q2Qc]. rewrite !Qred_correct. rewrite inject_Z_opp. reflexivity. Qed.
Lemma qz_inj a b : qz a = qz b -> a = b.
Proof. intro H. apply Z.le_antisymm; apply qz_le; rewrite H; qlra. Qed.

(** ** Powers of two *)
Lemma pow2_Q e : (this (pow2 e) == 2 ^ e)%Q.
Proof.
  unfold pow2. destruct (Z.leb_spec 0 e) as [H|H].
  - unfold qz. cbn [this Q2Qc]. rewrite Qred_correct. rewrite Qpower.Zpower_Qpower by auto. reflexivity.
  - unfold Qcinv. cbn [this Q2Qc]. rewrite Qred_correct. unfold qz. cbn [this Q2Qc]. rewrite Qred_correct.
    rewrite Qpower.Zpower_Qpower by lia. rewrite <- Qpower_opp. rewrite Z.opp_involutive. reflexivity.
Qed.
Lemma pow2_add a b : pow2 (a + b) = pow2 a * pow2 b.
Proof.
  apply Qc_is_canon. unfold Qcmult. cbn [this Q2Qc]. rewrite Qred_correct. rewrite !pow2_Q. apply Qpower_plus. discriminate.
Qed.
Lemma pow2_pos e : 0 < pow2 e.
Proof.
  unfold Qclt. rewrite pow2_Q. change (this 0) with (0%Q).
  apply (Qpower_0_lt 2 e). reflexivity.
Qed.
Lemma pow2_nat n : (0 <= n)%Z -> pow2 n = qz (2 ^ n).
Proof. intro H. unfold pow2. destruct (Z.leb_spec 0 n); [auto|lia]. Qed.
Lemma pow2_0 : pow2 0 = 1.
Proof. reflexivity. Qed.
Lemma pow2_ge1 n : (0 <= n)%Z -> 1 <= pow2 n.
Proof. intro H. rewrite pow2_nat by auto. apply (qz_le 1 (2 ^ n)). apply (Z.le_succ_l 0), (Z.pow_pos_nonneg 2 n); auto; reflexivity. Qed.
Lemma pow2_mono a b : (a <= b)%Z -> pow2 a <= pow2 b.
Proof.
  intro H. replace b with ((b - a) + a)%Z by lia. rewrite pow2_add. pose proof (pow2_ge1 (b - a) ltac:(lia)). pose proof (pow2_pos a).
  assert (0 <= (pow2 (b - a) - 1) * pow2 a) by (apply qmul_nn; qlra). 
  assert ((pow2 (b - a) - 1) * pow2 a = pow2 (b - a) * pow2 a - pow2 a) by ring. qlra.
Qed.
Lemma pow2_S a : pow2 (a + 1) = pow2 a + pow2 a.
Proof. rewrite pow2_add. change (pow2 1) with (qz 2). change (qz 2) with (1 + 1). ring. Qed.
Lemma pow2_smono a b : (a < b)%Z -> pow2 a < pow2 b.
Proof. intro H. pose proof (pow2_mono (a + 1) b ltac:(lia)). rewrite pow2_S in H0. pose proof (pow2_pos a). qlra. Qed.
Lemma pow2_le_inv a b : pow2 a <= pow2 b -> (a <= b)%Z.
Proof. intro H. destruct (Z.le_gt_cases a b); auto. pose proof (pow2_smono b a ltac:(lia)). qlra. Qed.
Lemma pow2_ne e : pow2 e <> 0.
Proof. pose proof (pow2_pos e). intro X. rewrite X in H. qlra. Qed.
Lemma pow2_sub a b : pow2 (a - b) * pow2 b = pow2 a.
Proof. rewrite <- pow2_add. f_equal. lia. Qed.

(** ** The exponent *)
Lemma qexp_spec x : x <> 0 -> pow2 (qexp x) <= qabs x /\ qabs x < pow2 (qexp x + 1).
Proof.
  intro NZ. set (a := qabs x). assert (PA : 0 < a) by (unfold a; qmm; assert (x <> 0) by auto; destruct (qltbP x 0); qlra || (assert (x = 0) by qlra; tauto)).
  unfold qexp. fold a. set (n := Qnum (this a)). set (d := Qden (this a)).
  assert (NP : (0 < n)%Z). { unfold Qclt in PA. change (this 0) with 0%Q in PA. unfold Qlt in PA. cbn [Qnum Qden] in PA. fold n in PA. lia. }
  assert (AE : a * qz (Z.pos d) = qz n).
  { apply Qc_is_canon. unfold Qcmult, qz. cbn [this Q2Qc]. rewrite !Qred_correct. unfold n, d. destruct (this a) as [p q]. cbn [Qnum Qden].
    unfold Qeq. cbn. lia. }
  destruct (Z.log2_spec n NP) as [N1 N2]. destruct (Z.log2_spec (Z.pos d) ltac:(lia)) as [D1 D2].
  set (ln := Z.log2 n) in *. set (ld := Z.log2 (Z.pos d)) in *.
  assert (LN : (0 <= ln)%Z) by apply Z.log2_nonneg. assert (LD : (0 <= ld)%Z) by apply Z.log2_nonneg.
  apply qz_le in N1, D1. apply qz_lt in N2, D2. rewrite <- !Z.add_1_r in N2, D2. rewrite <- pow2_nat in N1, N2, D1, D2 by lia.
  rewrite <- AE in N1, N2. set (D := qz (Z.pos d)) in *. assert (DP : 0 < D) by (pose proof (pow2_pos ld); qlra).
  assert (UP : a < pow2 (ln - ld + 1)).
  { destruct (qltbP a (pow2 (ln - ld + 1))) as [|GE]; auto. exfalso.
    assert (0 <= (a - pow2 (ln - ld + 1)) * D) by (apply qmul_nn; qlra).
    assert (0 <= pow2 (ln - ld + 1) * (D - pow2 ld)) by (apply qmul_nn; pose proof (pow2_pos (ln - ld + 1)); qlra).
    pose proof (pow2_add (ln - ld + 1) ld). replace (ln - ld + 1 + ld)%Z with (ln + 1)%Z in H1 by lia.
    assert ((a - pow2 (ln - ld + 1)) * D = a * D - pow2 (ln - ld + 1) * D) by ring.
    assert (pow2 (ln - ld + 1) * (D - pow2 ld) = pow2 (ln - ld + 1) * D - pow2 (ln - ld + 1) * pow2 ld) by ring. qlra. }
  assert (LO : pow2 (ln - ld - 1) < a).
  { destruct (qltbP (pow2 (ln - ld - 1)) a) as [|GE]; auto. exfalso.
    assert (0 <= (pow2 (ln - ld - 1) - a) * D) by (apply qmul_nn; qlra).
    assert (0 < pow2 (ln - ld - 1) * (pow2 (ld + 1) - D)) by (apply qmul_pos; pose proof (pow2_pos (ln - ld - 1)); qlra).
    pose proof (pow2_add (ln - ld - 1) (ld + 1)). replace (ln - ld - 1 + (ld + 1))%Z with ln%Z in H1 by lia.
    assert ((pow2 (ln - ld - 1) - a) * D = pow2 (ln - ld - 1) * D - a * D) by ring.
    assert (pow2 (ln - ld - 1) * (pow2 (ld + 1) - D) = pow2 (ln - ld - 1) * pow2 (ld + 1) - pow2 (ln - ld - 1) * D) by ring. qlra. }
  destruct (qlebP (pow2 (ln - ld)) a) as [LE|GT].
  - split; auto.
  - replace (ln - ld - 1 + 1)%Z with (ln - ld)%Z by lia. split; qlra.
Qed.

(** ** The nearest integer *)
Lemma floor_spec x : qz (Qfloor (this x)) <= x /\ x < qz (Qfloor (this x) + 1).
Proof.
  split.
  - unfold Qcle, qz. cbn [this Q2Qc]. rewrite Qred_correct. apply Qfloor_le.
  - unfold Qclt, qz. cbn [this Q2Qc]. rewrite Qred_correct. apply Qlt_floor.
Qed.
Lemma floor_mono x y : x <= y -> (Qfloor (this x) <= Qfloor (this y))%Z.
Proof. intro H. apply Qfloor_resp_le. exact H. Qed.
Definition half : Qc := Q2Qc (1 # 2).
Lemma half2 : half + half = 1.
Proof. apply Qc_is_canon. reflexivity. Qed.
Lemma nearest_floor x : let f := Qfloor (this x) in nearest_even x = f /\ x - qz f <= half \/ nearest_even x = (f + 1)%Z /\ half <= x - qz f.
Proof.
  intro f. unfold nearest_even. fold f. fold half. destruct (qltbP (x - qz f) half); [left; split; auto; qlra|].
  destruct (qltbP half (x - qz f)); [right; split; auto; qlra|]. destruct (Z.even f); [left|right]; split; auto; qlra.
Qed.
Lemma nearest_err x : x - half <= qz (nearest_even x) /\ qz (nearest_even x) <= x + half.
Proof.
  pose proof half2 as H2. destruct (floor_spec x) as [F1 F2]. rewrite qz_add in F2. change (qz 1) with 1 in F2.
  destruct (nearest_floor x) as [[-> H]|[-> H]]; [split; qlra|]. rewrite qz_add. change (qz 1) with 1. split; qlra.
Qed.
Lemma nearest_mono x y : x <= y -> (nearest_even x <= nearest_even y)%Z.
Proof.
  intro H. pose proof (floor_mono x y H) as FM.
  destruct (Z.eq_dec (Qfloor (this x)) (Qfloor (this y))) as [E|N].
  - unfold nearest_even. rewrite E. set (f := Qfloor (this y)). fold half.
    destruct (qltbP (x - qz f) half), (qltbP (y - qz f) half), (qltbP half (x - qz f)), (qltbP half (y - qz f)); destruct (Z.even f); try lia; exfalso; qlra.
  - destruct (nearest_floor x) as [[-> _]|[-> _]], (nearest_floor y) as [[-> _]|[-> _]]; lia.
Qed.
Lemma nearest_int n : nearest_even (qz n) = n.
Proof.
  assert (F : Qfloor (this (qz n)) = n).
  { destruct (floor_spec (qz n)) as [F1 F2]. apply qz_le in F1. apply qz_lt in F2. lia. }
  unfold nearest_even. rewrite F. fold half. assert (0 < half) by reflexivity. destruct (qltbP (qz n - qz n) half); auto. qlra.
Qed.
Lemma nearest_ge x n : qz n <= x -> (n <= nearest_even x)%Z.
Proof. intro H. rewrite <- (nearest_int n). apply nearest_mono; auto. Qed.
Lemma nearest_le x n : x <= qz n -> (nearest_even x <= n)%Z.
Proof. intro H. rewrite <- (nearest_int n). apply nearest_mono; auto. Qed.

(** ** Rounding *)
Lemma ulp_upper x : x <> 0 -> qabs x < pow2 (ulp_exp x + 53).
Proof.
  intro NZ. destruct (qexp_spec x NZ) as [_ H]. pose proof (pow2_mono (qexp x + 1) (ulp_exp x + 53) ltac:(unfold ulp_exp; lia)). qlra.
Qed.
Lemma ulp_lower x : x <> 0 -> (-1074 < ulp_exp x)%Z -> pow2 (ulp_exp x + 52) <= qabs x.
Proof.
  intros NZ H. destruct (qexp_spec x NZ) as [L _]. replace (ulp_exp x + 52)%Z with (qexp x) by (unfold ulp_exp in *; lia). auto.
Qed.
Lemma ulp_min x : (-1074 <= ulp_exp x)%Z.
Proof. unfold ulp_exp. lia. Qed.

(** Rounding to a multiple of [pow2 e]. *)
Definition rnd_at (e : Z) (x : Qc) : Qc := qz (nearest_even (x / pow2 e)) * pow2 e.
Lemma scale_le e x y : x <= y -> x / pow2 e <= y / pow2 e.
Proof.
  intro H. pose proof (pow2_pos e) as P. destruct (qlebP (x / pow2 e) (y / pow2 e)) as [|GT]; auto. exfalso.
  assert (0 < (x / pow2 e - y / pow2 e) * pow2 e) by (apply qmul_pos; qlra).
  assert ((x / pow2 e - y / pow2 e) * pow2 e = x / pow2 e * pow2 e - y / pow2 e * pow2 e) by ring.
  rewrite !qmul_div in H1 by apply pow2_ne. qlra.
Qed.
Lemma mul_le e a b : a <= b -> a * pow2 e <= b * pow2 e.
Proof. intro H. pose proof (pow2_pos e). assert (0 <= (b - a) * pow2 e) by (apply qmul_nn; qlra). assert ((b - a) * pow2 e = b * pow2 e - a * pow2 e) by ring. qlra. Qed.
Lemma rnd_at_mono e x y : x <= y -> rnd_at e x <= rnd_at e y.
Proof. intro H. apply mul_le. apply (proj1 (qz_le _ _)). apply nearest_mono. apply scale_le; auto. Qed.
Lemma rnd_at_mult e n : rnd_at e (qz n * pow2 e) = qz n * pow2 e.
Proof. unfold rnd_at. replace (qz n * pow2 e / pow2 e) with (qz n). rewrite nearest_int; auto. field. apply pow2_ne. Qed.
Lemma rnd_at_0 e : rnd_at e 0 = 0.
Proof. replace 0 with (qz 0 * pow2 e) by (change (qz 0) with (Q2Qc 0); ring). apply rnd_at_mult. Qed.
Lemma rnd_at_pow e f : (e <= f)%Z -> rnd_at e (pow2 f) = pow2 f.
Proof. intro H. rewrite <- (pow2_sub f e). rewrite pow2_nat by lia. apply rnd_at_mult. Qed.
Lemma rnd_at_npow e f : (e <= f)%Z -> rnd_at e (- pow2 f) = - pow2 f.
Proof. intro H. rewrite <- (pow2_sub f e). rewrite pow2_nat by lia. replace (- (qz (2 ^ (f - e)) * pow2 e)) with (qz (- 2 ^ (f - e)) * pow2 e) by (rewrite qz_opp; ring). apply rnd_at_mult. Qed.
Lemma rnd64_at x : rnd64 x = rnd_at (ulp_exp x) x.
Proof. reflexivity. Qed.

Lemma rnd64_0 : rnd64 0 = 0.
Proof. rewrite rnd64_at. apply rnd_at_0. Qed.
Lemma rnd64_mono x y : x <= y -> rnd64 x <= rnd64 y.
Proof.
  intro H. destruct (qeqbP x 0) as [->|NX].
  { rewrite rnd64_0, rnd64_at, <- (rnd_at_0 (ulp_exp y)). apply rnd_at_mono; auto. }
  destruct (qeqbP y 0) as [->|NY].
  { rewrite rnd64_0, rnd64_at, <- (rnd_at_0 (ulp_exp x)). apply rnd_at_mono; auto. }
  rewrite !rnd64_at. pose proof (ulp_upper x NX) as UX. pose proof (ulp_upper y NY) as UY.
  destruct (Z.lt_trichotomy (ulp_exp x) (ulp_exp y)) as [L|[E|L]].
  - pose proof (ulp_lower y NY ltac:(pose proof (ulp_min x); lia)) as LY.
    pose proof (pow2_mono (ulp_exp x + 53) (ulp_exp y + 52) ltac:(lia)) as M.
    assert (YP : pow2 (ulp_exp y + 52) <= y). { revert LY UX M H. qmm; intros; try qlra. }
    pose proof (rnd_at_mono (ulp_exp y) _ _ YP) as R1. rewrite rnd_at_pow in R1 by lia.
    assert (XL : x <= pow2 (ulp_exp x + 53)) by (revert UX; qmm; intros; try qlra; pose proof (pow2_pos (ulp_exp x + 53)); qlra).
    pose proof (rnd_at_mono (ulp_exp x) _ _ XL) as R2. rewrite rnd_at_pow in R2 by lia. qlra.
  - rewrite E. apply rnd_at_mono; auto.
  - pose proof (ulp_lower x NX ltac:(pose proof (ulp_min y); lia)) as LX.
    pose proof (pow2_mono (ulp_exp y + 53) (ulp_exp x + 52) ltac:(lia)) as M.
    assert (XN : x <= - pow2 (ulp_exp x + 52)). { revert LX UY M H. qmm; intros; try qlra. }
    pose proof (rnd_at_mono (ulp_exp x) _ _ XN) as R1. rewrite rnd_at_npow in R1 by lia.
    assert (YL : - pow2 (ulp_exp y + 53) <= y) by (revert UY; qmm; intros; try qlra; pose proof (pow2_pos (ulp_exp y + 53)); qlra).
    pose proof (rnd_at_mono (ulp_exp y) _ _ YL) as R2. rewrite rnd_at_npow in R2 by lia. qlra.
Qed.

(** Numbers with 53 binary digits are floats. *)
Lemma rnd64_fits m e : (-1074 <= e)%Z -> (Z.abs m <= 2 ^ 53)%Z -> rnd64 (qz m * pow2 e) = qz m * pow2 e.
Proof.
  intros HE HM. set (z := qz m * pow2 e). destruct (qeqbP z 0) as [Z0|NZ]; [rewrite Z0; apply rnd64_0|].
  assert (ZA : qabs z = qz (Z.abs m) * pow2 e).
  { pose proof (pow2_pos e). unfold z. destruct (Z.abs_spec m) as [[A ->]|[A ->]].
    - apply qz_le in A. change (qz 0) with (Q2Qc 0) in A. assert (0 <= qz m * pow2 e) by (apply qmul_nn; qlra). revert H0. qmm; intros; qlra.
    - apply qz_lt in A. change (qz 0) with (Q2Qc 0) in A. rewrite qz_opp. assert (0 < (- qz m) * pow2 e) by (apply qmul_pos; qlra).
      assert (- qz m * pow2 e = - (qz m * pow2 e)) by ring. revert H0. rewrite H1. qmm; intros; qlra. }
  rewrite rnd64_at. set (f := ulp_exp z). destruct (Z.le_gt_cases f e) as [L|G].
  - assert (ZE : z = qz (m * 2 ^ (e - f)) * pow2 f). { unfold z. rewrite <- (pow2_sub e f), qz_mul, (pow2_nat (e - f)) by lia. ring. }
    rewrite ZE. apply rnd_at_mult.
  - pose proof (ulp_lower z NZ ltac:(fold f; lia)) as LZ. fold f in LZ. rewrite ZA in LZ.
    apply qz_le in HM. pose proof (mul_le e _ _ HM) as ML. rewrite <- (pow2_nat 53) in ML by lia. rewrite <- pow2_add in ML.
    assert (LE : (f + 52 <= 53 + e)%Z) by (apply pow2_le_inv; qlra). assert (FE : f = (e + 1)%Z) by lia.
    assert (AM : Z.abs m = (2 ^ 53)%Z).
    { apply Z.le_antisymm; [apply (proj2 (qz_le _ _)); auto|]. apply (proj2 (qz_le _ _)). rewrite <- (pow2_nat 53) by lia.
      destruct (qlebP (pow2 53) (qz (Z.abs m))) as [|GT]; auto. exfalso. pose proof (pow2_pos e).
      assert (0 < (pow2 53 - qz (Z.abs m)) * pow2 e) by (apply qmul_pos; qlra).
      assert ((pow2 53 - qz (Z.abs m)) * pow2 e = pow2 53 * pow2 e - qz (Z.abs m) * pow2 e) by ring.
      rewrite <- pow2_add in H1. replace (f + 52)%Z with (53 + e)%Z in LZ by lia. qlra. }
    assert (ME : exists n, m = (n * 2)%Z). { clear - AM. destruct (Z.abs_spec m) as [[_ X]|[_ X]]; [exists (2 ^ 52)%Z|exists (- 2 ^ 52)%Z]; lia. }
    destruct ME as [n MN]. assert (ZE : z = qz n * pow2 f).
    { unfold z. rewrite FE, pow2_S, MN, qz_mul. change (qz 2) with (1 + 1). ring. }
    rewrite ZE. apply rnd_at_mult.
Qed.
Lemma rnd64_idem x : rnd64 (rnd64 x) = rnd64 x.
Proof.
  destruct (qeqbP x 0) as [->|NX]; [rewrite rnd64_0; apply rnd64_0|].
  unfold rnd64 at 2 3. set (e := ulp_exp x). apply rnd64_fits; [apply ulp_min|].
  pose proof (ulp_upper x NX) as U. fold e in U. replace (e + 53)%Z with (53 + e)%Z in U by lia. rewrite pow2_add, pow2_nat in U by lia.
  assert (S1 : x / pow2 e * pow2 e = x) by (apply qmul_div, pow2_ne).
  assert (B1 : x / pow2 e <= qz (2 ^ 53)).
  { assert (x <= qz (2 ^ 53) * pow2 e) by (revert U; qmm; intros; try qlra; assert (0 < qz (2 ^ 53) * pow2 e) by (apply qmul_pos; [reflexivity|apply pow2_pos]); qlra).
    pose proof (scale_le e _ _ H). replace (qz (2 ^ 53) * pow2 e / pow2 e) with (qz (2 ^ 53)) in H0; auto. field. apply pow2_ne. }
  assert (B2 : qz (- 2 ^ 53) <= x / pow2 e).
  { rewrite qz_opp. assert (- qz (2 ^ 53) * pow2 e <= x).
    { assert (- qz (2 ^ 53) * pow2 e = - (qz (2 ^ 53) * pow2 e)) by ring.
      revert U; qmm; intros; try qlra; assert (0 < qz (2 ^ 53) * pow2 e) by (apply qmul_pos; [reflexivity|apply pow2_pos]); qlra. }
    pose proof (scale_le e _ _ H). replace (- qz (2 ^ 53) * pow2 e / pow2 e) with (- qz (2 ^ 53)) in H0; auto. field. apply pow2_ne. }
  pose proof (nearest_le _ _ B1). pose proof (nearest_ge _ _ B2). lia.
Qed.
Theorem rnd64_rounding : rounding rnd64.
Proof. constructor. apply rnd64_mono. apply rnd64_idem. apply rnd64_0. Qed.

(** ** Accuracy *)
Lemma rnd_at_err e x : x - pow2 (e - 1) <= rnd_at e x /\ rnd_at e x <= x + pow2 (e - 1).
Proof.
  destruct (nearest_err (x / pow2 e)) as [H1 H2]. apply (mul_le e) in H1, H2.
  assert (S1 : x / pow2 e * pow2 e = x) by (apply qmul_div, pow2_ne).
  assert (HP : half * pow2 e = pow2 (e - 1)). { change half with (pow2 (-1)). rewrite <- pow2_add. f_equal. lia. }
  unfold rnd_at.
  assert ((x / pow2 e - half) * pow2 e = x / pow2 e * pow2 e - half * pow2 e) by ring.
  assert ((x / pow2 e + half) * pow2 e = x / pow2 e * pow2 e + half * pow2 e) by ring. split; qlra.
Qed.
Theorem rnd64_accurate k : (-1021 <= k)%Z -> accurate rnd64 (pow2 k) (pow2 (k - 54)).
Proof.
  intros HK x X0 XB. destruct (qeqbP x 0) as [->|NX]; [rewrite rnd64_0; pose proof (pow2_pos (k - 54)); split; qlra|].
  rewrite rnd64_at. destruct (rnd_at_err (ulp_exp x) x) as [H1 H2].
  assert (L : (ulp_exp x - 1 <= k - 54)%Z).
  { destruct (qexp_spec x NX) as [L _]. assert (qabs x = x) by (qmm; qlra). rewrite H in L.
    assert (pow2 (qexp x) < pow2 k) by qlra. assert (qexp x < k)%Z by (destruct (Z.lt_ge_cases (qexp x) k); auto; pose proof (pow2_mono k (qexp x) ltac:(lia)); qlra).
    unfold ulp_exp. lia. }
  pose proof (pow2_mono _ _ L). split; qlra.
Qed.
