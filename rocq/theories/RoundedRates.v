(** * Splitting a rate among commodities in binary64: lemmas for C123 *)
From Coq Require Import Sorted.
From Verif Require Import Base Spec Arrays PL PLMono DynEdge RC FRC DynFlow Rounded RoundedSpec Rnd64 RoundedFlow PropRoundedFlow RoundedEvalProofs.

Definition kq (n : nat) : Qc := qz (Z.of_nat n).
Lemma kq_S n : kq (Datatypes.S n) = kq n + 1.
Proof. unfold kq. rewrite Nat2Z.inj_succ, <- Z.add_1_r, qz_add. reflexivity. Qed.
Lemma kq_nn n : 0 <= kq n.
Proof. unfold kq. change 0 with (qz 0). apply (proj1 (qz_le _ _)). lia. Qed.
Lemma kq_le n m : (n <= m)%nat -> kq n <= kq m.
Proof. intro H. apply (proj1 (qz_le _ _)). lia. Qed.
Definition pos_floats (d : rates) : Prop := forall i v, In (i, v) d -> 0 < v /\ float rnd64 v.

(** ** The sum of the rates *)
Lemma sum_acc d : forall a b, a = b -> fold_left (fun acc (p : nat * Qc) => acc + snd p) d a = b + rates_sum d.
Proof.
  unfold rates_sum. intros a b ->. rename b into a. revert a. induction d as [|p d IH]; intro a; cbn [fold_left]; [ring|]. rewrite (IH (a + snd p)), (IH (0 + snd p)). ring.
Qed.
Lemma sum_cons p d : rates_sum (p :: d) = snd p + rates_sum d.
Proof. unfold rates_sum at 1. cbn [fold_left]. rewrite (sum_acc d (0 + snd p) (snd p)) by ring. reflexivity. Qed.
Lemma sum_pos d : pos_floats d -> 0 <= rates_sum d.
Proof. induction d as [|[i v] d IH]; intro P; [discriminate|]. rewrite sum_cons. cbn [snd]. assert (0 <= rates_sum d) by (apply IH; intros j w H; apply (P j w); right; auto). destruct (P i v ltac:(left; auto)). qlra. Qed.
Lemma rsum_gen d : forall j a s, pos_floats d -> float rnd64 a -> 0 <= s -> (1 - kq j * u64) * s <= a -> a <= (1 + qz 2 * kq j * u64) * s -> kq (j + length d) * u64 <= half ->
  let a' := fold_left (fun acc (p : nat * Qc) => rnd64 (acc + snd p)) d a in let s' := s + rates_sum d in
  (1 - kq (j + length d) * u64) * s' <= a' /\ a' <= (1 + qz 2 * kq (j + length d) * u64) * s'.
Proof.
  induction d as [|[i v] d IH]; intros j a s P FA S0 LO UP K; cbn [fold_left length] in *.
  - rewrite Nat.add_0_r. change (rates_sum []) with 0. replace (s + 0) with s by ring. split; assumption.
  - rewrite sum_cons. cbn [snd]. destruct (P i v ltac:(left; auto)) as [V0 FV]. destruct (add64 a v FA FV) as (e & (E1 & E2) & E). pose proof u_pos as U.
    replace (j + Datatypes.S (length d))%nat with (Datatypes.S j + length d)%nat in * by lia. replace (s + (v + rates_sum d)) with ((s + v) + rates_sum d) by ring.
    assert (KJ : kq j * u64 <= half). { pose proof (kq_le j (Datatypes.S j + length d) ltac:(lia)). assert (0 <= (kq (Datatypes.S j + length d) - kq j) * u64) by (apply qmul_nn; qlra). assert ((kq (Datatypes.S j + length d) - kq j) * u64 = kq (Datatypes.S j + length d) * u64 - kq j * u64) by ring. qlra. }
    assert (HF : half + half = 1) by (apply Qc_is_canon; reflexivity). assert (Q2 : qz 2 = 1 + 1) by (apply Qc_is_canon; reflexivity). rewrite Q2 in *.
    pose proof (kq_nn j) as KN. set (x := kq j * u64) in *. assert (X0 : 0 <= x) by (apply qmul_nn; qlra).
    assert (XE : (1 + 1) * kq j * u64 = x + x) by (unfold x; ring). rewrite XE in UP. assert (US := u_small). assert (US1 : qq 1 1048576 < half) by reflexivity.
    assert (SV : 0 <= s + v) by qlra. assert (VX : 0 <= v * x) by (apply qmul_nn; qlra).
    assert (AV0 : 0 <= a). { assert (0 <= (1 - x) * s) by (apply qmul_nn; qlra). qlra. }
    assert (L : (1 - x) * (s + v) <= a + v) by (assert ((1 - x) * (s + v) = (1 - x) * s + v - v * x) by ring; qlra).
    assert (R : a + v <= (1 + x + x) * (s + v)) by (assert ((1 + x + x) * (s + v) = (1 + (x + x)) * s + v + v * x + v * x) by ring; qlra).
    apply IH; auto.
    + intros k w H. apply (P k w). right; auto.
    + apply rnd64_idem.
    + rewrite E, kq_S. replace ((kq j + 1) * u64) with (x + u64) by (unfold x; ring).
      assert (0 <= (a + v - (1 - x) * (s + v)) * (1 - u64)) by (apply qmul_nn; qlra). assert (0 <= (a + v) * (e + u64)) by (apply qmul_nn; qlra). assert (0 <= (x * u64) * (s + v)) by (apply qmul_nn; [apply qmul_nn; qlra|qlra]).
      assert ((a + v - (1 - x) * (s + v)) * (1 - u64) + (a + v) * (e + u64) + x * u64 * (s + v) = (a + v) * (1 + e) - (1 - (x + u64)) * (s + v)) by ring. qlra.
    + rewrite E, kq_S. replace ((1 + 1) * (kq j + 1) * u64) with (x + x + u64 + u64) by (unfold x; ring).
      assert (0 <= ((1 + x + x) * (s + v) - (a + v)) * (1 + u64)) by (apply qmul_nn; qlra). assert (0 <= (a + v) * (u64 - e)) by (apply qmul_nn; qlra).
      assert (0 <= ((1 - x - x) * u64) * (s + v)) by (apply qmul_nn; [apply qmul_nn; qlra|qlra]).
      assert (((1 + x + x) * (s + v) - (a + v)) * (1 + u64) + (a + v) * (u64 - e) + (1 - x - x) * u64 * (s + v) = (1 + (x + x + u64 + u64)) * (s + v) - (a + v) * (1 + e)) by ring. qlra.
Qed.
Lemma rsum_near d : pos_floats d -> kq (length d) * u64 <= half ->
  (1 - kq (length d) * u64) * rates_sum d <= r_rates_sum rnd64 d /\ r_rates_sum rnd64 d <= (1 + qz 2 * kq (length d) * u64) * rates_sum d.
Proof.
  intros P K. pose proof (rsum_gen d 0 0 0 P rnd64_0 ltac:(discriminate) ltac:(discriminate) ltac:(discriminate) K) as H. cbn zeta in H. replace (0 + rates_sum d) with (rates_sum d) in H by ring. exact H.
Qed.

(** ** The shares *)
Definition quarter : Qc := Q2Qc (1 # 4).
Lemma q4 : quarter + quarter = half. Proof. apply Qc_is_canon; reflexivity. Qed.
Lemma h2 : half + half = 1. Proof. apply Qc_is_canon; reflexivity. Qed.
Lemma norm64 x : pow2 (-1000) <= x -> exists d, small u64 d /\ rnd64 x = x * (1 + d).
Proof.
  intro H. pose proof (pow2_pos (-1000)). assert (NX : x <> 0) by (intro Q; qlra). apply rel64; auto. destruct (qexp_spec x NX) as [_ Q]. assert (A : qabs x = x) by (destruct (qabs_spec x) as [[X _]|[_ X]]; [qlra|exact X]). rewrite A in Q.
  assert (-1000 <= qexp x + 1)%Z by (apply pow2_le_inv; qlra). lia.
Qed.
Lemma ratio_near x S a : 0 <= x -> x <= quarter -> 0 < S -> (1 - x) * S <= a -> a <= (1 + qz 2 * x) * S -> 0 < a /\ near1 (x + x) (S / a).
Proof.
  intros X0 X1 S0 L R. pose proof q4 as Q4. pose proof h2 as H2. assert (Q2 : qz 2 = 1 + 1) by (apply Qc_is_canon; reflexivity). rewrite Q2 in R.
  assert (A0 : 0 < a) by (assert (0 < (1 - x) * S) by (apply qmul_pos; qlra); qlra). split; auto. assert (NA : a <> 0) by (intro Q; rewrite Q in A0; qlra).
  set (r := S / a). assert (RE : r * a = S) by (apply qmul_div; auto).
  assert (xx : x * x <= quarter * x) by (assert (0 <= (quarter - x) * x) by (apply qmul_nn; qlra); assert ((quarter - x) * x = quarter * x - x * x) by ring; qlra).
  assert (qx : quarter * x <= half * x) by (assert (0 <= (half - quarter) * x) by (apply qmul_nn; qlra); assert ((half - quarter) * x = half * x - quarter * x) by ring; qlra).
  assert (hx : half * x + half * x = x) by (assert (half * x + half * x = (half + half) * x) by ring; rewrite H, H2; ring).
  split.
  - destruct (qlebP (1 - (x + x)) r) as [|G]; auto. exfalso. assert (0 < (1 - (x + x) - r) * a) by (apply qmul_pos; qlra). assert ((1 - (x + x) - r) * a = (1 - (x + x)) * a - r * a) by ring.
    assert (0 <= (1 - (x + x)) * ((1 + (1 + 1) * x) * S - a)) by (apply qmul_nn; qlra). assert (0 <= (x * x) * S) by (apply qmul_nn; [apply qmul_nn; qlra|qlra]).
    assert ((1 - (x + x)) * ((1 + (1 + 1) * x) * S - a) = S - (x * x * S + x * x * S + x * x * S + x * x * S) - (1 - (x + x)) * a) by ring. qlra.
  - destruct (qlebP r (1 + (x + x))) as [|G]; auto. exfalso. assert (0 < (r - (1 + (x + x))) * a) by (apply qmul_pos; qlra). assert ((r - (1 + (x + x))) * a = r * a - (1 + (x + x)) * a) by ring.
    assert (0 <= (1 + (x + x)) * (a - (1 - x) * S)) by (apply qmul_nn; qlra). assert (0 <= (x - x * x - x * x) * S) by (apply qmul_nn; qlra).
    assert ((1 + (x + x)) * (a - (1 - x) * S) = (1 + (x + x)) * a - S - (x - x * x - x * x) * S) by ring. qlra.
Qed.
Section Share.
Variables (d : rates) (s : Qc).
Let n := length d.
Let S := rates_sum d.
Let a := r_rates_sum rnd64 d.
Hypotheses (P : pos_floats d) (K : kq n * u64 <= quarter) (S0 : 0 < S) (NS : pow2 (-1000) * a <= s).
Definition sh_err : Qc := (qz 2 * kq n + qz 4) * u64.
Lemma sum_ok : 0 < a /\ near1 (kq n * u64 + kq n * u64) (S / a).
Proof.
  pose proof q4. assert (Q14 : 0 < quarter) by reflexivity. pose proof u_pos. destruct (rsum_near d P) as [L R]; [fold n; qlra|]. fold n in L, R. fold S in L, R. fold a in L, R. apply ratio_near; auto.
  - apply qmul_nn; [apply kq_nn|qlra].
  - replace (qz 2 * (kq n * u64)) with (qz 2 * kq n * u64) by ring. exact R.
Qed.
Lemma share_near v : 0 < v -> exists z e, near1 sh_err z /\ small h64 e /\ rnd64 (rnd64 (s / a) * v) = s * v / S * z + e.
Proof.
  intro V. destruct sum_ok as [A0 R]. pose proof u_pos as U. pose proof u_small as US. assert (US1 : qq 1 1048576 < quarter) by reflexivity. pose proof q4. pose proof h2. assert (NA : a <> 0) by (intro Q; rewrite Q in A0; qlra). assert (NZ : S <> 0) by (intro Q; rewrite Q in S0; qlra).
  destruct (norm64 (s / a)) as (d1 & D1 & E1).
  { destruct (qlebP (pow2 (-1000)) (s / a)) as [|G]; auto. exfalso. assert (0 < (pow2 (-1000) - s / a) * a) by (apply qmul_pos; qlra). assert ((pow2 (-1000) - s / a) * a = pow2 (-1000) * a - s / a * a) by ring. rewrite qmul_div in H2 by auto. qlra. }
  destruct (std64 (rnd64 (s / a) * v)) as (d5 & e5 & D5 & SE & E5). set (x := kq n * u64) in *. assert (X0 : 0 <= x) by (apply qmul_nn; [apply kq_nn|qlra]).
  exists (S / a * (1 + d1) * (1 + d5)), e5. split; [|split; [exact SE|]].
  - assert (M1 : near1 (x + x + u64 + (x + x) * u64) (S / a * (1 + d1))) by (apply near1_mul; try qlra; [exact R|apply near1_small; auto]).
    assert (B : (x + x) * u64 <= half * u64) by (assert (0 <= (half - (x + x)) * u64) by (apply qmul_nn; qlra); assert ((half - (x + x)) * u64 = half * u64 - (x + x) * u64) by ring; qlra).
    assert (B2 : half * u64 + half * u64 = u64) by (assert (half * u64 + half * u64 = (half + half) * u64) by ring; rewrite H1, H0; ring).
    set (y := x + x + u64 + half * u64) in *. apply near1_weaken with (k := y) in M1; [|unfold y; qlra].
    assert (M2 : near1 (y + u64 + y * u64) (S / a * (1 + d1) * (1 + d5))) by (apply near1_mul; try (unfold y; qlra); [exact M1|apply near1_small; auto]).
    eapply near1_weaken; [|exact M2]. assert (Y1 : y <= 1) by (unfold y; qlra). assert (YU : y * u64 <= u64) by (assert (0 <= (1 - y) * u64) by (apply qmul_nn; qlra); assert ((1 - y) * u64 = u64 - y * u64) by ring; qlra).
    unfold sh_err. replace ((qz 2 * kq n + qz 4) * u64) with (x + x + (u64 + u64 + u64 + u64)). { unfold y in *. qlra. }
    assert (Q2 : qz 2 = 1 + 1) by (apply Qc_is_canon; reflexivity). assert (Q4 : qz 4 = 1 + 1 + 1 + 1) by (apply Qc_is_canon; reflexivity). rewrite Q2, Q4. unfold x. ring.
  - rewrite E5, E1. field. split; assumption.
Qed.
(** Every commodity gets its share of [s], up to rounding. *)
Lemma share_one v : 0 < v -> qabs (rnd64 (rnd64 (s / a) * v) - s * v / S) <= sh_err * (s * v / S) + h64.
Proof.
  intro V. destruct (share_near v V) as (z & e & Z & SE & E). rewrite E. destruct sum_ok as [A0 _].
  assert (s0 : 0 <= s). { pose proof (pow2_pos (-1000)). assert (0 < pow2 (-1000) * a) by (apply qmul_pos; qlra). qlra. }
  assert (W : 0 <= s * v / S) by (unfold Qcdiv; apply qmul_nn; [apply qmul_nn; qlra|pose proof (qinv_pos S S0); qlra]). set (w := s * v / S) in *.
  replace (w * z + e - w) with (w * (z - 1) + e) by ring. eapply Qcle_trans; [apply abs_add|]. assert (qabs (w * (z - 1)) <= w * sh_err) by (apply abs_mul_le; [destruct (qabs_spec w) as [[Q _]|[_ Q]]; qlra|apply near1_abs; auto]).
  apply small_abs in SE. assert (sh_err * w = w * sh_err) by ring. qlra.
Qed.
Lemma shares_sum_gen l : (forall i v, In (i, v) l -> 0 < v) -> qabs (rates_sum (r_scale rnd64 (rnd64 (s / a)) l) - s * rates_sum l / S) <= sh_err * (s * rates_sum l / S) + kq (length l) * h64.
Proof.
  assert (NZ : S <> 0) by (intro Q; rewrite Q in S0; qlra).
  induction l as [|[i v] l IH]; intro PL.
  - change (rates_sum (r_scale rnd64 (rnd64 (s / a)) [])) with 0. change (rates_sum []) with 0. replace (s * 0 / S) with 0 by (field; auto). replace (0 - 0) with 0 by ring. change (kq (length (@nil (nat * Qc)))) with 0. replace (sh_err * 0 + 0 * h64) with 0 by ring. discriminate.
  - change (r_scale rnd64 (rnd64 (s / a)) ((i, v) :: l)) with ((i, rnd64 (rnd64 (s / a) * v)) :: r_scale rnd64 (rnd64 (s / a)) l). rewrite !sum_cons. cbn [snd length].
    pose proof (share_one v ltac:(apply (PL i); left; auto)) as H1. specialize (IH ltac:(intros j w H; apply (PL j); right; auto)). rewrite kq_S.
    set (A := rnd64 (rnd64 (s / a) * v)) in *. set (B := rates_sum (r_scale rnd64 (rnd64 (s / a)) l)) in *.
    replace (A + B - s * (v + rates_sum l) / S) with ((A - s * v / S) + (B - s * rates_sum l / S)) by (field; auto). eapply Qcle_trans; [apply abs_add|].
    replace (sh_err * (s * (v + rates_sum l) / S) + (kq (length l) + 1) * h64) with ((sh_err * (s * v / S) + h64) + (sh_err * (s * rates_sum l / S) + kq (length l) * h64)) by (field; auto). qlra.
Qed.
Lemma shares_sum : qabs (rates_sum (r_scale rnd64 (rnd64 (s / a)) d) - s) <= sh_err * s + kq n * h64.
Proof.
  assert (NZ : S <> 0) by (intro Q; rewrite Q in S0; qlra). pose proof (shares_sum_gen d ltac:(intros i v H; apply (P i v H))) as H. fold S in H. fold n in H. replace (s * S / S) with s in H by (field; auto). exact H.
Qed.
End Share.
