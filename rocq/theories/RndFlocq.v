(** * [rnd64] is the binary64 rounding of IEEE 754 as formalised by Flocq *)
From Coq Require Import Reals Qreals Qround.
From Flocq Require Import Core.
From Verif Require Import Base Spec PLMono DynEdge Rounded Rnd64.
From Coq Require Import Lra.
Local Open Scope R_scope.

(** The real number of a rational. *)
Definition real (x : Qc) : R := Q2R (this x).
Lemma real_le x y : (x <= y)%Qc <-> real x <= real y.
Proof. unfold real, Qcle. split. apply Qle_Rle. apply Rle_Qle. Qed.
Lemma real_lt x y : (x < y)%Qc <-> real x < real y.
Proof. unfold real, Qclt. split. apply Qlt_Rlt. apply Rlt_Qlt. Qed.
Lemma real_qz n : real (qz n) = IZR n.
Proof.
  unfold real, qz. cbn [this Q2Qc]. rewrite (Qeq_eqR _ _ (Qred_correct (inject_Z n))). unfold Q2R, inject_Z. cbn [Qnum Qden]. rewrite Rinv_1. ring.
Qed.
Lemma real_mul x y : real (x * y)%Qc = real x * real y.
Proof. unfold real, Qcmult. cbn [this Q2Qc]. rewrite (Qeq_eqR _ _ (Qred_correct _)). apply Q2R_mult. Qed.
Lemma real_sub x y : real (x - y)%Qc = real x - real y.
Proof.
  unfold real, Qcminus, Qcplus, Qcopp. cbn [this Q2Qc]. rewrite (Qeq_eqR _ _ (Qred_correct _)), Q2R_plus.
  rewrite (Qeq_eqR _ _ (Qred_correct (- this y))), Q2R_opp. reflexivity.
Qed.
Lemma real_opp x : real (- x)%Qc = - real x.
Proof. unfold real, Qcopp. cbn [this Q2Qc]. rewrite (Qeq_eqR _ _ (Qred_correct (- this x))), Q2R_opp. reflexivity. Qed.
Lemma real_0 : real (Q2Qc 0) = 0.
Proof. apply (real_qz 0). Qed.
Lemma real_inj x y : real x = real y -> x = y.
Proof. unfold real. intro H. apply Qc_is_canon. apply eqR_Qeq. auto. Qed.
Lemma real_abs x : real (qabs x) = Rabs (real x).
Proof.
  unfold qabs. pose proof real_0 as H. destruct (qltbP x (Q2Qc 0)) as [H0|H0].
  - apply real_lt in H0. rewrite H in H0. rewrite real_opp, Rabs_left; auto.
  - assert (H1 : (Q2Qc 0 <= x)%Qc) by qlra. apply real_le in H1. rewrite H in H1. rewrite Rabs_pos_eq; auto.
Qed.
Lemma Qclt_not_eq' x y : x = y -> ~ (x < y)%Qc.
Proof. intros -> H. apply (Qlt_irrefl (this y)). exact H. Qed.
Lemma real_pow2 e : real (pow2 e) = bpow radix2 e.
Proof.
  unfold pow2. destruct (Z.leb_spec 0 e) as [H|H].
  - rewrite real_qz. rewrite <- (IZR_Zpower radix2) by auto. reflexivity.
  - assert (P : (0 < qz (2 ^ (- e)))%Qc) by (apply (proj1 (qz_lt 0 _)), Z.pow_pos_nonneg; lia).
    assert (E : real (/ qz (2 ^ (- e)) * qz (2 ^ (- e)))%Qc = 1).
    { rewrite Qcmult_comm, Qcmult_inv_r; [apply (real_qz 1)|]. intro X. rewrite X in P. revert P. apply Qclt_not_eq'. reflexivity. }
    rewrite real_mul, (real_qz (2 ^ (- e))) in E. change 2%Z with (radix_val radix2) in E at 2. rewrite (IZR_Zpower radix2) in E by lia.
    rewrite <- (Z.opp_involutive e) at 2. rewrite bpow_opp. pose proof (bpow_gt_0 radix2 (- e)). 
    apply (Rmult_eq_reg_r (bpow radix2 (- e))); [|apply Rgt_not_eq; auto]. rewrite E. field. apply Rgt_not_eq; auto.
Qed.
Lemma real_div x y : y <> 0%Qc -> real (x / y)%Qc = real x / real y.
Proof.
  intro N. assert (RN : real y <> 0) by (intro X; apply N, real_inj; rewrite X; symmetry; apply real_0).
  apply (Rmult_eq_reg_r (real y)); auto. rewrite <- real_mul, qmul_div by auto. field. auto.
Qed.

Lemma real_floor x : Zfloor (real x) = Qfloor (this x).
Proof.
  apply Zfloor_imp. destruct (floor_spec x) as [H1 H2]. apply real_le in H1. apply real_lt in H2. rewrite real_qz in H1, H2. auto.
Qed.
Lemma real_half : real (Q2Qc (1 # 2)) = / 2.
Proof. unfold real. cbn. unfold Q2R. cbn. lra. Qed.
Lemma real_nearest x : ZnearestE (real x) = nearest_even x.
Proof.
  unfold Znearest, nearest_even. rewrite real_floor. set (f := Qfloor (this x)).
  assert (D : real (x - qz f)%Qc = real x - IZR f) by (rewrite real_sub, real_qz; auto).
  assert (CE : real x <> IZR f -> Zceil (real x) = (f + 1)%Z).
  { intro N. rewrite Zceil_floor_neq; rewrite real_floor; auto. }
  destruct (qltbP (x - qz f)%Qc (Q2Qc (1 # 2))) as [H|H].
  - apply real_lt in H. rewrite D, real_half in H. rewrite Rcompare_Lt; auto.
  - destruct (qltbP (Q2Qc (1 # 2)) (x - qz f)%Qc) as [H'|H'].
    + apply real_lt in H'. rewrite D, real_half in H'. rewrite Rcompare_Gt by auto. apply CE. lra.
    + assert (E : (x - qz f)%Qc = Q2Qc (1 # 2)) by (apply Qcle_antisym; qlra).
      rewrite E, real_half in D. rewrite Rcompare_Eq by auto. destruct (Z.even f); cbn [negb]; auto. apply CE. lra.
Qed.

Theorem rnd64_flocq x : real (rnd64 x) = round radix2 (FLT_exp (-1074) 53) ZnearestE (real x).
Proof.
  destruct (qeqbP x 0) as [->|NX].
  { rewrite rnd64_0, real_0, round_0; auto. apply valid_rnd_N. }
  assert (M : mag radix2 (real x) = (qexp x + 1)%Z :> Z).
  { apply mag_unique. destruct (qexp_spec x NX) as [H1 H2]. apply real_le in H1. apply real_lt in H2.
    rewrite real_pow2, real_abs in H1, H2. replace (qexp x + 1 - 1)%Z with (qexp x) by lia. auto. }
  assert (C : cexp radix2 (FLT_exp (-1074) 53) (real x) = ulp_exp x).
  { unfold cexp, FLT_exp. rewrite M. unfold ulp_exp. lia. }
  unfold round, F2R, scaled_mantissa. rewrite C. cbn [Fnum Fexp]. unfold rnd64. rewrite real_mul, real_qz, real_pow2.
  rewrite <- real_nearest. rewrite real_div by apply pow2_ne. rewrite real_pow2, bpow_opp. reflexivity.
Qed.
