(** * Evaluating piecewise linear functions with floating-point arithmetic: lemmas for C122 *)
From Coq Require Import Sorted Lqa.
From Verif Require Import Base Spec Arrays ArraysProofs PL PLProofs PLMono DynEdge Rounded RoundedSpec RoundedProofs Rnd64 RoundedFlow PropRoundedFlow.

Section Eval.
Variable f : PL.
Hypothesis LEN : length (pl_values f) = length (pl_times f).
Hypothesis NE : pl_times f <> [].
Hypothesis SO : StronglySorted Qclt (pl_times f).
Lemma e_pos : (0 < pl_len f)%Z.
Proof. unfold pl_len, zlen. destruct (pl_times f); cbn; [congruence|lia]. Qed.
Lemma e_tm i : (0 <= i < pl_len f)%Z -> pyget (pl_times f) i = Ok (tm f i).
Proof. intro H. apply pyget_Z. exact H. Qed.
Lemma e_vl i : (0 <= i < pl_len f)%Z -> pyget (pl_values f) i = Ok (vl f i).
Proof. intro H. apply pyget_Z. unfold pl_len, zlen in *. rewrite LEN. exact H. Qed.
Lemma e_tml : pyget (pl_times f) (-1) = Ok (tm f (pl_len f - 1)).
Proof.
  pose proof e_pos as H. rewrite <- (e_tm (pl_len f - 1)) by lia. unfold pyget. unfold pl_len, zlen in *. replace (-1 <? 0)%Z with true by reflexivity.
  destruct (Z.ltb_spec (Z.of_nat (length (pl_times f)) - 1) 0); [lia|]. replace (-1 + Z.of_nat (length (pl_times f)))%Z with (Z.of_nat (length (pl_times f)) - 1)%Z by lia. reflexivity.
Qed.
Lemma e_vll : pyget (pl_values f) (-1) = Ok (vl f (pl_len f - 1)).
Proof.
  pose proof e_pos as H. rewrite <- (e_vl (pl_len f - 1)) by lia. unfold pyget. unfold pl_len, zlen in *. rewrite LEN. replace (-1 <? 0)%Z with true by reflexivity.
  destruct (Z.ltb_spec (Z.of_nat (length (pl_times f)) - 1) 0); [lia|]. replace (-1 + Z.of_nat (length (pl_times f)))%Z with (Z.of_nat (length (pl_times f)) - 1)%Z by lia. reflexivity.
Qed.
Lemma e_lt i j : (0 <= i < j)%Z -> (j < pl_len f)%Z -> tm f i < tm f j.
Proof. intros. apply (sorted_nthq Qclt); auto. Qed.

Variable rnd : Qc -> Qc.
Hypothesis RND : rounding rnd.
Hypothesis SUB : sub_exact0 rnd.
Hypothesis FT : Forall (float rnd) (pl_times f).
Lemma e_float i : (0 <= i < pl_len f)%Z -> float rnd (tm f i).
Proof. intro H. rewrite Forall_forall in FT. apply FT. unfold tm, nthq. apply nth_In. unfold pl_len, zlen in H. lia. Qed.
(** The computed slope of piece [i]. *)
Definition gr (i : Z) : Qc :=
  if (i =? -1)%Z then pl_first f else if (i =? pl_len f - 1)%Z then pl_last f
  else rnd (rnd (vl f (i + 1) - vl f i) / rnd (tm f (i + 1) - tm f i)).
Lemma e_gap i : (0 <= i)%Z -> (i + 1 < pl_len f)%Z -> 0 < rnd (tm f (i + 1) - tm f i).
Proof.
  intros H1 H2. pose proof (e_lt i (i + 1) ltac:(lia) H2) as L. assert (N : rnd (tm f (i + 1) - tm f i) <> 0) by (apply SUB; [apply e_float; lia|apply e_float; lia|intro Q; rewrite Q in L; qlra]).
  assert (P : 0 <= tm f (i + 1) - tm f i) by qlra. apply (rnd_mono rnd RND) in P. rewrite (rnd_0 rnd RND) in P. destruct (qltbP 0 (rnd (tm f (i + 1) - tm f i))); auto. exfalso. apply N. qlra.
Qed.
Lemma e_gradient on i : (-1 <= i < pl_len f)%Z -> r_gradient rnd on f i = Ok (gr i).
Proof.
  intro H. unfold r_gradient, gr. replace ((-1 <=? i)%Z && (i <? pl_len f)%Z)%bool with true by (symmetry; apply andb_true_iff; split; [apply Z.leb_le|apply Z.ltb_lt]; lia).
  replace (asr on true) with (Ok tt) by (destruct on; reflexivity). cbn [bind].
  destruct (Z.eqb_spec i (-1)); [reflexivity|]. destruct (Z.eqb_spec i (pl_len f - 1)); [reflexivity|].
  rewrite !e_vl, !e_tm by lia. cbn [bind]. pose proof (e_gap i ltac:(lia) ltac:(lia)) as P. unfold fdiv. rewrite pydiv_ok by (intro Q; rewrite Q in P; qlra). reflexivity.
Qed.
(** The breakpoint from which piece [i] is computed. *)
Definition anc (i : Z) : Z := Z.max i 0.
Definition rseg (i : Z) (t : Qc) : Qc := rnd (vl f (anc i) + rnd (rnd (t - tm f (anc i)) * gr i)).
Lemma e_eval on t i : (on = true -> in_dom f t) -> is_rank (pl_times f) t i -> r_pl_eval rnd on f t = Ok (rseg i t).
Proof.
  intros D IR. pose proof e_pos as LP.
  assert (ER : elem_rank (pl_times f) t = Ok i).
  { destruct (elem_rank_ok (pl_times f) t NE) as (j & E & J); [clear - SO; induction SO as [|a l S IH H]; constructor; auto; eapply Forall_impl; [|exact H]; intros; cbn in *; qlra|].
    rewrite E. f_equal. eapply is_rank_unique; [|exact J|exact IR]. clear - SO; induction SO as [|a l S IH H]; constructor; auto; eapply Forall_impl; [|exact H]; intros; cbn in *; qlra. }
  assert (D' : asr on (ext_leb (pl_lo f) (Fin t) && ext_leb (Fin t) (pl_hi f))%bool = Ok tt) by (destruct on; [rewrite (proj2 (bool_dom f t) (D eq_refl))|]; reflexivity).
  unfold r_pl_eval. rewrite D'. cbn [bind]. rewrite ER. cbn [bind].
  apply is_rank_iff in IR. fold (pl_len f) in IR. destruct IR as (Hi & Hlow & Hup). fold (tm f i) in Hlow. fold (tm f (i+1)) in Hup.
  unfold r_eval_with_rank. rewrite D'. cbn [bind].
  replace ((-1 <=? i)%Z && (i <=? pl_len f)%Z)%bool with true by (symmetry; apply andb_true_iff; split; apply Z.leb_le; lia).
  replace (asr on true) with (Ok tt) by (destruct on; reflexivity). cbn [bind]. rewrite e_tm by lia. cbn [bind].
  replace (negb (i =? -1)%Z || qleb t (tm f 0))%bool with true.
  2:{ destruct (Z.eqb_spec i (-1)) as [->|]; [|reflexivity]. cbn. symmetry. apply qleb_true. apply Hup. lia. }
  replace (asr on true) with (Ok tt) by (destruct on; reflexivity). cbn [bind]. rewrite e_tml. cbn [bind].
  replace (negb (i =? pl_len f - 1)%Z || qltb (tm f (pl_len f - 1)) t)%bool with true.
  2:{ destruct (Z.eqb_spec i (pl_len f - 1)) as [->|]; [|reflexivity]. cbn. symmetry. apply qltb_true. apply Hlow. lia. }
  replace (asr on true) with (Ok tt) by (destruct on; reflexivity). cbn [bind]. unfold rseg, anc.
  destruct (Z.eqb_spec i (-1)) as [->|Hi1].
  - replace (on && (-1 <? -1)%Z && (-1 <? pl_len f - 1)%Z)%bool with false by (destruct on; reflexivity). cbn [bind].
    rewrite e_gradient by lia. cbn [bind]. rewrite e_vl by lia. cbn [bind]. reflexivity.
  - replace (Z.max i 0) with i by lia. destruct (Z.eqb_spec i (pl_len f - 1)) as [->|Hi2].
    + replace (on && (-1 <? pl_len f - 1)%Z && (pl_len f - 1 <? pl_len f - 1)%Z)%bool with false by (rewrite Z.ltb_irrefl, andb_false_r; reflexivity). cbn [bind].
      rewrite e_gradient by lia. cbn [bind]. rewrite e_vll. cbn [bind]. reflexivity.
    + match goal with |- bind ?c _ = _ => replace c with (@Ok unit tt) end.
      * cbn [bind]. rewrite e_vl by lia. cbn [bind]. rewrite e_tm by lia. cbn [bind]. rewrite e_gradient by lia. cbn [bind]. reflexivity.
      * destruct (Z.ltb_spec (-1) i); [|lia]. destruct (Z.ltb_spec i (pl_len f - 1)); [|lia]. destruct on; cbn [andb]; [|reflexivity]. rewrite !e_tm by lia. cbn [bind].
        replace (qltb (tm f i) t && qleb t (tm f (i + 1)))%bool with true; [reflexivity|]. symmetry. apply andb_true_iff. split; [apply qltb_true|apply qleb_true]; [apply Hlow|apply Hup]; lia.
Qed.
Lemma e_ok on t y : r_pl_eval rnd on f t = Ok y -> on = true -> in_dom f t.
Proof. intros E ->. unfold r_pl_eval, asr in E. apply (bool_dom f). destruct (_ && _)%bool; [reflexivity|discriminate]. Qed.
Lemma e_at t i : is_rank (pl_times f) t i -> pl_at f t = vl f (anc i) + (t - tm f (anc i)) * slope_q f i.
Proof.
  intro Hr. unfold pl_at, pts. rewrite (interp_rank _ _ _ _ _ i); auto. unfold slope_q, anc. fold (pl_len f).
  apply is_rank_iff in Hr. destruct Hr as (R & _).
  destruct (Z.eqb_spec i (-1)) as [->|]; [reflexivity|]. replace (Z.max i 0) with i by lia. destruct (Z.eqb_spec i (pl_len f - 1)); reflexivity.
Qed.
(** ** Order *)
Lemma rnd_nn x : 0 <= x -> 0 <= rnd x.
Proof. intro H. apply (rnd_mono rnd RND) in H. rewrite (rnd_0 rnd RND) in H. exact H. Qed.
Lemma rnd_np x : x <= 0 -> rnd x <= 0.
Proof. intro H. apply (rnd_mono rnd RND) in H. rewrite (rnd_0 rnd RND) in H. exact H. Qed.
Lemma qinv_pos b : 0 < b -> 0 < / b.
Proof. intro H. destruct (qltbP 0 (/ b)); auto. exfalso. assert (Q : / b * b = 1) by (field; intro Q; rewrite Q in H; qlra). assert (0 <= (- / b) * b) by (apply qmul_nn; qlra). assert (- / b * b = - (/ b * b)) by ring. qlra. Qed.
Lemma gr_up i : (0 <= i)%Z -> (i + 1 < pl_len f)%Z -> vl f i <= vl f (i + 1) -> 0 <= gr i.
Proof.
  intros H1 H2 H. unfold gr. destruct (Z.eqb_spec i (-1)); [lia|]. destruct (Z.eqb_spec i (pl_len f - 1)); [lia|]. apply rnd_nn. unfold Qcdiv. apply qmul_nn; [apply rnd_nn; qlra|]. pose proof (qinv_pos _ (e_gap i H1 H2)). qlra.
Qed.
Lemma gr_down i : (0 <= i)%Z -> (i + 1 < pl_len f)%Z -> vl f (i + 1) <= vl f i -> gr i <= 0.
Proof.
  intros H1 H2 H. unfold gr. destruct (Z.eqb_spec i (-1)); [lia|]. destruct (Z.eqb_spec i (pl_len f - 1)); [lia|]. apply rnd_np. unfold Qcdiv. pose proof (qinv_pos _ (e_gap i H1 H2)) as P.
  assert (N : rnd (vl f (i + 1) - vl f i) <= 0) by (apply rnd_np; qlra). assert (0 <= (- rnd (vl f (i + 1) - vl f i)) * / rnd (tm f (i + 1) - tm f i)) by (apply qmul_nn; qlra).
  assert (- rnd (vl f (i + 1) - vl f i) * / rnd (tm f (i + 1) - tm f i) = - (rnd (vl f (i + 1) - vl f i) * / rnd (tm f (i + 1) - tm f i))) by ring. qlra.
Qed.
Lemma seg_up i t t' : 0 <= gr i -> t <= t' -> rseg i t <= rseg i t'.
Proof.
  intros G H. unfold rseg. apply (rnd_mono rnd RND). assert (A : rnd (t - tm f (anc i)) <= rnd (t' - tm f (anc i))) by (apply (rnd_mono rnd RND); qlra).
  assert (B : 0 <= (rnd (t' - tm f (anc i)) - rnd (t - tm f (anc i))) * gr i) by (apply qmul_nn; qlra).
  assert (Q : (rnd (t' - tm f (anc i)) - rnd (t - tm f (anc i))) * gr i = rnd (t' - tm f (anc i)) * gr i - rnd (t - tm f (anc i)) * gr i) by ring.
  assert (C : rnd (rnd (t - tm f (anc i)) * gr i) <= rnd (rnd (t' - tm f (anc i)) * gr i)) by (apply (rnd_mono rnd RND); qlra). qlra.
Qed.
Lemma seg_down i t t' : gr i <= 0 -> t <= t' -> rseg i t' <= rseg i t.
Proof.
  intros G H. unfold rseg. apply (rnd_mono rnd RND). assert (A : rnd (t - tm f (anc i)) <= rnd (t' - tm f (anc i))) by (apply (rnd_mono rnd RND); qlra).
  assert (B : 0 <= (rnd (t' - tm f (anc i)) - rnd (t - tm f (anc i))) * (- gr i)) by (apply qmul_nn; qlra).
  assert (Q : (rnd (t' - tm f (anc i)) - rnd (t - tm f (anc i))) * (- gr i) = rnd (t - tm f (anc i)) * gr i - rnd (t' - tm f (anc i)) * gr i) by ring.
  assert (C : rnd (rnd (t' - tm f (anc i)) * gr i) <= rnd (rnd (t - tm f (anc i)) * gr i)) by (apply (rnd_mono rnd RND); qlra). qlra.
Qed.
Lemma seg_anc i : float rnd (vl f (anc i)) -> rseg i (tm f (anc i)) = vl f (anc i).
Proof. intro F. unfold rseg. replace (tm f (anc i) - tm f (anc i)) with 0 by ring. rewrite (rnd_0 rnd RND). replace (0 * gr i) with 0 by ring. rewrite (rnd_0 rnd RND). replace (vl f (anc i) + 0) with (vl f (anc i)) by ring. exact F. Qed.
Lemma gr_flat i : (0 <= i)%Z -> (i + 1 < pl_len f)%Z -> vl f i = vl f (i + 1) -> gr i = 0.
Proof. intros H1 H2 H. pose proof (gr_up i H1 H2 ltac:(qlra)). pose proof (gr_down i H1 H2 ltac:(qlra)). qlra. Qed.
Lemma seg_flat i t : gr i = 0 -> float rnd (vl f (anc i)) -> rseg i t = vl f (anc i).
Proof. intros G F. unfold rseg. rewrite G. replace (rnd (t - tm f (anc i)) * 0) with 0 by ring. rewrite (rnd_0 rnd RND). replace (vl f (anc i) + 0) with (vl f (anc i)) by ring. exact F. Qed.
End Eval.

(** ** The error of one operation in binary64 *)
Definition u64 : Qc := pow2 (-53).
Definition h64 : Qc := pow2 (-1075).
Definition small (u x : Qc) : Prop := - u <= x /\ x <= u.
Lemma rel64 x : x <> 0 -> (-1022 <= qexp x)%Z -> exists d, small u64 d /\ rnd64 x = x * (1 + d).
Proof.
  intros NX L. destruct (rnd_at_err (ulp_exp x) x) as [H1 H2]. destruct (qexp_spec x NX) as [Q _]. rewrite <- rnd64_at in H1, H2.
  assert (E : pow2 (ulp_exp x - 1) = u64 * pow2 (qexp x)) by (unfold u64; rewrite <- pow2_add; f_equal; unfold ulp_exp; lia).
  rewrite E in H1, H2. exists ((rnd64 x - x) / x). assert (D : (rnd64 x - x) / x * x = rnd64 x - x) by (apply qmul_div; auto). split.
  2:{ assert (x * (1 + (rnd64 x - x) / x) = x + (rnd64 x - x) / x * x) by ring. rewrite H, D. ring. }
  pose proof (pow2_pos (-53)) as U. fold u64 in U. set (d := (rnd64 x - x) / x) in *.
  assert (M : 0 <= u64 * (qabs x - pow2 (qexp x))) by (apply qmul_nn; qlra). assert (ME : u64 * (qabs x - pow2 (qexp x)) = u64 * qabs x - u64 * pow2 (qexp x)) by ring.
  set (P := u64 * pow2 (qexp x)) in *.
  destruct (qabs_spec x) as [[X A]|[X A]]; rewrite A in *.
  - assert (ME2 : u64 * - x = - (u64 * x)) by ring. split.
    + destruct (qlebP (- u64) d) as [|G]; auto. exfalso. assert (0 < (- u64 - d) * (- x)) by (apply qmul_pos; qlra). assert ((- u64 - d) * - x = u64 * x + d * x) by ring. qlra.
    + destruct (qlebP d u64) as [|G]; auto. exfalso. assert (0 < (d - u64) * (- x)) by (apply qmul_pos; qlra). assert ((d - u64) * - x = u64 * x - d * x) by ring. qlra.
  - assert (XP : 0 < x) by (destruct (qltbP 0 x); auto; exfalso; apply NX; qlra). split.
    + destruct (qlebP (- u64) d) as [|G]; auto. exfalso. assert (0 < (- u64 - d) * x) by (apply qmul_pos; qlra). assert ((- u64 - d) * x = - (u64 * x) - d * x) by ring. qlra.
    + destruct (qlebP d u64) as [|G]; auto. exfalso. assert (0 < (d - u64) * x) by (apply qmul_pos; qlra). assert ((d - u64) * x = d * x - u64 * x) by ring. qlra.
Qed.
Lemma small_0 u : 0 <= u -> small u 0.
Proof. intro H. split; qlra. Qed.
Lemma u_pos : 0 < u64. Proof. apply pow2_pos. Qed.
Lemma h_pos : 0 < h64. Proof. apply pow2_pos. Qed.
Lemma std64 x : exists d e, small u64 d /\ small h64 e /\ rnd64 x = x * (1 + d) + e.
Proof.
  pose proof u_pos as U. pose proof h_pos as H. destruct (qeqbP x 0) as [->|NX].
  - exists 0, 0. split; [apply small_0; qlra|]. split; [apply small_0; qlra|]. rewrite rnd64_0. ring.
  - destruct (Z.le_gt_cases (-1022) (qexp x)) as [L|L].
    + destruct (rel64 x NX L) as (d & S & E). exists d, 0. split; auto. split; [apply small_0; qlra|]. rewrite E. ring.
    + exists 0, (rnd64 x - x). split; [apply small_0; qlra|]. split; [|ring]. destruct (rnd_at_err (ulp_exp x) x) as [H1 H2]. rewrite <- rnd64_at in H1, H2.
      replace (ulp_exp x - 1)%Z with (-1075)%Z in H1, H2 by (unfold ulp_exp; lia). fold h64 in H1, H2. split; qlra.
Qed.
(** Sums of floats do not underflow. *)
Lemma grid64 n : exists d, small u64 d /\ rnd64 (qz n * pow2 (-1074)) = qz n * pow2 (-1074) * (1 + d).
Proof.
  set (x := qz n * pow2 (-1074)). pose proof u_pos as U. destruct (qeqbP x 0) as [E|NX]; [exists 0; split; [apply small_0; qlra|]; rewrite E, rnd64_0; ring|].
  destruct (Z.le_gt_cases (-1022) (qexp x)) as [L|L]; [apply rel64; auto|]. exists 0. split; [apply small_0; qlra|]. rewrite rnd64_at. replace (ulp_exp x) with (-1074)%Z by (unfold ulp_exp; lia).
  unfold x. rewrite rnd_at_mult. ring.
Qed.
Lemma sub64 a b : float rnd64 a -> float rnd64 b -> exists d, small u64 d /\ rnd64 (a - b) = (a - b) * (1 + d).
Proof.
  intros FA FB. destruct (mult_1074 a FA) as [n ->], (mult_1074 b FB) as [m ->].
  replace (qz n * pow2 (-1074) - qz m * pow2 (-1074)) with (qz (n - m) * pow2 (-1074)) by (unfold Z.sub; rewrite qz_add, qz_opp; ring). apply grid64.
Qed.
Lemma add64 a b : float rnd64 a -> float rnd64 b -> exists d, small u64 d /\ rnd64 (a + b) = (a + b) * (1 + d).
Proof.
  intros FA FB. destruct (mult_1074 a FA) as [n ->], (mult_1074 b FB) as [m ->].
  replace (qz n * pow2 (-1074) + qz m * pow2 (-1074)) with (qz (n + m) * pow2 (-1074)) by (rewrite qz_add; ring). apply grid64.
Qed.

(** ** The error of one evaluation *)
Lemma abs_le x b : qabs x <= b <-> - b <= x /\ x <= b.
Proof. destruct (qabs_spec x) as [[H ->]|[H ->]]; split; intros; try split; qlra. Qed.
Lemma abs_mul a b : qabs (a * b) = qabs a * qabs b.
Proof.
  destruct (qabs_spec a) as [[A ->]|[A ->]], (qabs_spec b) as [[B ->]|[B ->]].
  - assert (0 < (- a) * (- b)) by (apply qmul_pos; qlra). assert (- a * - b = a * b) by ring. destruct (qabs_spec (a * b)) as [[C ->]|[C ->]]; qlra.
  - assert (0 <= (- a) * b) by (apply qmul_nn; qlra). assert (- a * b = - (a * b)) by ring. destruct (qabs_spec (a * b)) as [[C ->]|[C ->]]; qlra.
  - assert (0 <= a * (- b)) by (apply qmul_nn; qlra). assert (a * - b = - (a * b)) by ring. destruct (qabs_spec (a * b)) as [[C ->]|[C ->]]; qlra.
  - assert (0 <= a * b) by (apply qmul_nn; qlra). destruct (qabs_spec (a * b)) as [[C ->]|[C ->]]; qlra.
Qed.
Lemma abs_add a b : qabs (a + b) <= qabs a + qabs b.
Proof. destruct (qabs_spec a) as [[A ->]|[A ->]], (qabs_spec b) as [[B ->]|[B ->]], (qabs_spec (a + b)) as [[C ->]|[C ->]]; qlra. Qed.
Lemma abs_nn a : 0 <= qabs a.
Proof. destruct (qabs_spec a) as [[A ->]|[A ->]]; qlra. Qed.
Lemma abs_mul_le a b c d : qabs a <= c -> qabs b <= d -> qabs (a * b) <= c * d.
Proof.
  intros H1 H2. rewrite abs_mul. pose proof (abs_nn a). pose proof (abs_nn b). assert (0 <= (c - qabs a) * d) by (apply qmul_nn; qlra). assert (0 <= qabs a * (d - qabs b)) by (apply qmul_nn; qlra).
  assert ((c - qabs a) * d + qabs a * (d - qabs b) = c * d - qabs a * qabs b) by ring. qlra.
Qed.
(** [a] is within [k] of 1 *)
Definition near1 (k a : Qc) : Prop := 1 - k <= a /\ a <= 1 + k.
Lemma near1_mul j k a b : 0 <= j -> 0 <= k -> j <= 1 -> k <= 1 -> near1 j a -> near1 k b -> near1 (j + k + j * k) (a * b).
Proof.
  intros J K J1 K1 (A1 & A2) (B1 & B2). split.
  - assert (0 <= (a - (1 - j)) * b) by (apply qmul_nn; qlra). assert (0 <= (1 - j) * (b - (1 - k))) by (apply qmul_nn; qlra). assert (0 <= j * k) by (apply qmul_nn; qlra).
    assert ((a - (1 - j)) * b + (1 - j) * (b - (1 - k)) = a * b - (1 - j - k + j * k)) by ring. qlra.
  - assert (0 <= ((1 + j) - a) * b) by (apply qmul_nn; qlra). assert (0 <= (1 + j) * ((1 + k) - b)) by (apply qmul_nn; qlra).
    assert ((1 + j - a) * b + (1 + j) * (1 + k - b) = (1 + j + k + j * k) - a * b) by ring. qlra.
Qed.
Lemma near1_weaken j k a : j <= k -> near1 j a -> near1 k a.
Proof. intros H (A & B). split; qlra. Qed.
Lemma near1_small u d : small u d -> near1 u (1 + d).
Proof. intros (A & B). split; qlra. Qed.
Definition qq (n : Z) (d : positive) : Qc := Q2Qc (n # d).
Lemma near1_u u a b c x y : 0 <= u -> u <= qq 1 1048576 -> 0 <= a -> a <= qz 16 -> 0 <= b -> b <= qz 16 -> a + b + qq 1 4096 <= c ->
  near1 (a * u) x -> near1 (b * u) y -> near1 (c * u) (x * y).
Proof.
  intros U UB A A2 B B2 C X Y. assert (AU : 0 <= a * u) by (apply qmul_nn; qlra). assert (BU : 0 <= b * u) by (apply qmul_nn; qlra).
  assert (L1 : qq 1 1048576 * qz 16 = qq 1 65536) by (apply Qc_is_canon; reflexivity). assert (L2 : qz 16 * qq 1 65536 = qq 1 4096) by (apply Qc_is_canon; reflexivity).
  assert (P1 : qq 1 65536 < 1) by reflexivity.
  assert (AU1 : a * u <= qq 1 65536). { assert (0 <= (qz 16 - a) * u) by (apply qmul_nn; qlra). assert (0 <= qz 16 * (qq 1 1048576 - u)) by (apply qmul_nn; [|qlra]; discriminate). assert ((qz 16 - a) * u + qz 16 * (qq 1 1048576 - u) = qq 1 1048576 * qz 16 - a * u) by ring. qlra. }
  assert (BU1 : b * u <= qq 1 65536). { assert (0 <= (qz 16 - b) * u) by (apply qmul_nn; qlra). assert (0 <= qz 16 * (qq 1 1048576 - u)) by (apply qmul_nn; [|qlra]; discriminate). assert ((qz 16 - b) * u + qz 16 * (qq 1 1048576 - u) = qq 1 1048576 * qz 16 - b * u) by ring. qlra. }
  apply (near1_weaken (a * u + b * u + (a * u) * (b * u))); [|apply near1_mul; auto; qlra].
  assert (ABU : a * (b * u) <= qq 1 4096). { assert (0 <= (qz 16 - a) * (b * u)) by (apply qmul_nn; qlra). assert (0 <= qz 16 * (qq 1 65536 - b * u)) by (apply qmul_nn; [|qlra]; discriminate). assert ((qz 16 - a) * (b * u) + qz 16 * (qq 1 65536 - b * u) = qz 16 * qq 1 65536 - a * (b * u)) by ring. qlra. }
  assert (0 <= (c - (a + b + a * (b * u))) * u) by (apply qmul_nn; qlra). assert ((c - (a + b + a * (b * u))) * u = c * u - (a * u + b * u + a * u * (b * u))) by ring. qlra.
Qed.
Lemma near1_inv u d : 0 <= u -> u <= qq 1 1048576 -> small u d -> near1 (qq 4097 4096 * u) (/ (1 + d)).
Proof.
  intros U UB (D1 & D2). assert (P1 : qq 1 1048576 < 1) by reflexivity. assert (P : 0 < 1 + d) by qlra. assert (N : 1 + d <> 0) by (intro Q; rewrite Q in P; qlra).
  set (i := / (1 + d)). assert (E : i * (1 + d) = 1) by (unfold i; field; auto). assert (IP : 0 < i) by (apply qinv_pos; auto).
  assert (E2 : i * (1 + d) = i + i * d) by ring.
  assert (I2 : i <= qq 4097 4096).
  { destruct (qlebP i (qq 4097 4096)) as [|G]; auto. exfalso. assert (0 < (i - qq 4097 4096) * (1 + d)) by (apply qmul_pos; qlra). assert ((i - qq 4097 4096) * (1 + d) = i * (1 + d) - qq 4097 4096 - qq 4097 4096 * d) by ring.
    assert (0 <= qq 4097 4096 * (qq 1 1048576 + d)) by (apply qmul_nn; [discriminate|qlra]). assert (qq 4097 4096 * (qq 1 1048576 + d) = qq 4097 4096 * qq 1 1048576 + qq 4097 4096 * d) by ring.
    assert (qq 4097 4096 * qq 1 1048576 + 1 < qq 4097 4096) by reflexivity. qlra. }
  assert (0 <= i * (u - d)) by (apply qmul_nn; qlra). assert (i * (u - d) = i * u - i * d) by ring. assert (0 <= i * (d + u)) by (apply qmul_nn; qlra). assert (i * (d + u) = i * d + i * u) by ring.
  assert (0 <= (qq 4097 4096 - i) * u) by (apply qmul_nn; qlra). assert ((qq 4097 4096 - i) * u = qq 4097 4096 * u - i * u) by ring. split; qlra.
Qed.
Lemma u_small : u64 <= qq 1 1048576. Proof. vm_compute. discriminate. Qed.
Lemma small_abs u d : small u d <-> qabs d <= u.
Proof. symmetry. apply abs_le. Qed.
Lemma near1_abs k a : near1 k a -> qabs (a - 1) <= k.
Proof. intros (A & B). apply abs_le. split; qlra. Qed.
Lemma near1_k1 u a : near1 u a -> near1 (1 * u) a.
Proof. intros (A & B). split; [replace (1 * u) with u by ring|replace (1 * u) with u by ring]; auto. Qed.
Lemma eval_err u h v d dv dt d1 d2 d3 d4 d5 d6 e4 e5 : 0 <= u -> u <= qq 1 1048576 -> 0 <= h -> dt <> 0 ->
  small u d1 -> small u d2 -> small u d3 -> small u d4 -> small u d5 -> small u d6 -> small h e4 -> small h e5 ->
  let y := (v + (d * (1 + d1) * (dv * (1 + d2) / (dt * (1 + d3)) * (1 + d4) + e4) * (1 + d5) + e5)) * (1 + d6) in
  let x := v + d * (dv / dt) in
  qabs (y - x) <= u * qabs x + qz 6 * u * qabs (d * (dv / dt)) + (h + h) * (qabs d + 1).
Proof.
  intros U UB H DT S1 S2 S3 S4 S5 S6 SE4 SE5 y x.
  assert (P1 : qq 1 1048576 < 1) by reflexivity. assert (N3 : 1 + d3 <> 0) by (destruct S3; intro Q; qlra).
  set (s := dv / dt). set (k := ((1 + d1) * (1 + d2)) * ((1 + d4) * (1 + d5)) * / (1 + d3)).
  set (z := (1 + d1) * (1 + d5) * (1 + d6)).
  assert (E : y - x = x * d6 + (d * s) * ((k - 1) * (1 + d6)) + (d * (z * e4) + (1 + d6) * e5)) by (unfold y, x, k, z, s; field; auto).
  assert (n1 := near1_k1 _ _ (near1_small _ _ S1)). assert (n2 := near1_k1 _ _ (near1_small _ _ S2)). assert (n4 := near1_k1 _ _ (near1_small _ _ S4)). assert (n5 := near1_k1 _ _ (near1_small _ _ S5)).
  assert (n6 := near1_k1 _ _ (near1_small _ _ S6)). assert (n3 := near1_inv u d3 U UB S3).
  assert (Q1 : 1 <= qz 16) by discriminate. assert (Q0 : 0 <= 1) by discriminate.
  assert (m12 : near1 (qq 8193 4096 * u) ((1 + d1) * (1 + d2))) by (apply (near1_u u 1 1); auto; discriminate).
  assert (m45 : near1 (qq 8193 4096 * u) ((1 + d4) * (1 + d5))) by (apply (near1_u u 1 1); auto; discriminate).
  assert (m4 : near1 (qq 17 4 * u) (((1 + d1) * (1 + d2)) * ((1 + d4) * (1 + d5)))) by (apply (near1_u u (qq 8193 4096) (qq 8193 4096)); auto; discriminate).
  assert (mk : near1 (qq 11 2 * u) k) by (apply (near1_u u (qq 17 4) (qq 4097 4096)); auto; discriminate).
  assert (mz2 : near1 (qq 8193 4096 * u) ((1 + d1) * (1 + d5))) by (apply (near1_u u 1 1); auto; discriminate).
  assert (mz : near1 (qz 4 * u) z) by (apply (near1_u u (qq 8193 4096) 1); auto; discriminate).
  assert (U4 : qz 4 * u <= 1). { assert (0 <= qz 4 * (qq 1 1048576 - u)) by (apply qmul_nn; [discriminate|qlra]). assert (qz 4 * (qq 1 1048576 - u) = qz 4 * qq 1 1048576 - qz 4 * u) by ring. assert (qz 4 * qq 1 1048576 < 1) by reflexivity. qlra. }
  assert (T2 : 1 + 1 = qz 2) by (apply Qc_is_canon; reflexivity).
  assert (z2 : qabs z <= 1 + 1) by (apply abs_le; destruct mz; split; qlra).
  assert (w2 : qabs (1 + d6) <= 1 + 1) by (apply abs_le; destruct S6; split; qlra).
  assert (w1 : qabs (1 + d6) <= 1 + u) by (apply abs_le; destruct S6; split; qlra).
  assert (A1 : qabs (x * d6) <= qabs x * u) by (apply abs_mul_le; [apply Qcle_refl|exact (proj1 (small_abs _ _) S6)]).
  assert (A2 : qabs ((k - 1) * (1 + d6)) <= qq 11 2 * u * (1 + u)) by (apply abs_mul_le; auto; apply near1_abs; auto).
  assert (A2' : qq 11 2 * u * (1 + u) <= qz 6 * u).
  { assert (0 <= (qz 6 - qq 11 2 * (1 + u)) * u).
    - apply qmul_nn; [|auto]. assert (0 <= qq 11 2 * (qq 1 1048576 - u)) by (apply qmul_nn; [discriminate|qlra]). assert (qq 11 2 * (qq 1 1048576 - u) = qq 11 2 * qq 1 1048576 - qq 11 2 * u) by ring.
      assert (qq 11 2 + qq 11 2 * qq 1 1048576 < qz 6) by reflexivity. assert (qq 11 2 * (1 + u) = qq 11 2 + qq 11 2 * u) by ring. qlra.
    - assert ((qz 6 - qq 11 2 * (1 + u)) * u = qz 6 * u - qq 11 2 * u * (1 + u)) by ring. qlra. }
  assert (A3 : qabs (d * s * ((k - 1) * (1 + d6))) <= qabs (d * s) * (qz 6 * u)) by (apply abs_mul_le; [apply Qcle_refl|eapply Qcle_trans; [exact A2|exact A2']]).
  assert (A4 : qabs (d * (z * e4)) <= qabs d * ((1 + 1) * h)) by (apply abs_mul_le; [apply Qcle_refl|]; apply abs_mul_le; [exact z2|exact (proj1 (small_abs _ _) SE4)]).
  assert (A5 : qabs ((1 + d6) * e5) <= (1 + 1) * h) by (apply abs_mul_le; [exact w2|exact (proj1 (small_abs _ _) SE5)]).
  rewrite E. pose proof (abs_add (x * d6 + (d * s) * ((k - 1) * (1 + d6))) (d * (z * e4) + (1 + d6) * e5)) as B1. pose proof (abs_add (x * d6) ((d * s) * ((k - 1) * (1 + d6)))) as B2.
  pose proof (abs_add (d * (z * e4)) ((1 + d6) * e5)) as B3.
  assert (F : u * qabs x + qz 6 * u * qabs (d * s) + (h + h) * (qabs d + 1) = qabs x * u + qabs (d * s) * (qz 6 * u) + (qabs d * ((1 + 1) * h) + (1 + 1) * h)) by ring.
  fold s. rewrite F. clear - A1 A3 A4 A5 B1 B2 B3. qlra.
Qed.
