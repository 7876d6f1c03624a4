(** * C69 (measurement grid), C85: evaluation of predictions (src/eval/evaluate.py) *)
From Coq Require Import Qround.
From Verif Require Import Base Spec Arrays ArraysProofs PL PLProofs PLEval PL2 RC FRC DynFlow DynRun DynFlowProofs PropFlow PropFlow2 PQ PQSpec Graph Dijkstra BellmanFord FlowBuilder Predictors PredictorsProofs PredictorsProofs2 PropPredictors PropPredictors2 PropPredictors3 Eval PropEval PropEval2 Dataset PropDataset Eval2.

Lemma floor_range q k : (k < Z.to_nat (Qfloor (this q) + 1))%nat <-> qn k <= q.
Proof.
  rewrite <- qz_of_nat. transitivity (Z.of_nat k <= Qfloor (this q))%Z; [lia|]. split; intro A.
  - unfold Qcle. rewrite qz_this. apply Qle_trans with (inject_Z (Qfloor (this q))); [rewrite <- Zle_Qle; exact A|apply Qfloor_le].
  - unfold Qcle in A. rewrite qz_this in A. rewrite <- (Qfloor_Z (Z.of_nat k)). apply Qfloor_resp_le, A.
Qed.
Lemma grid_nth {A} (f : nat -> A) n k x : nth_error (map f (seq 0 n)) k = Some x <-> (k < n)%nat /\ x = f k.
Proof.
  split.
  - intro H. assert (k < n)%nat. { apply Nat.nle_gt. intro L. rewrite (proj2 (nth_error_None _ _)) in H; [discriminate|]. rewrite map_length, seq_length. exact L. }
    split; [assumption|]. rewrite (map_nth_error f k (seq 0 n) (d := k)) in H; [congruence|]. rewrite (nth_error_nth' _ 0%nat) by (rewrite seq_length; lia). rewrite seq_nth by lia. reflexivity.
  - intros [L ->]. apply map_nth_error. rewrite (nth_error_nth' _ 0%nat) by (rewrite seq_length; lia). rewrite seq_nth by lia. reflexivity.
Qed.

(** The measurement times are exactly the multiples of half the reroute interval
    after which [future + 1] prediction intervals still fit into the horizon, in
    increasing order, so consecutive times bound the measurement intervals. *)
Theorem C69_grid : forall horizon future pred_interval reroute_interval times, 0 < reroute_interval ->
  measurement_times horizon future pred_interval reroute_interval = Ok times ->
  (forall k t, nth_error times k = Some t -> t = qn k * (reroute_interval / (1 + 1)) /\ t + (qn future + 1) * pred_interval <= horizon) /\
  (forall k, qn k * (reroute_interval / (1 + 1)) + (qn future + 1) * pred_interval <= horizon -> nth_error times k = Some (qn k * (reroute_interval / (1 + 1)))).
Proof.
  intros horizon future pi ri times R H. unfold measurement_times in H. cbv zeta in H. set (E := horizon - (qn future + 1) * pi) in *.
  replace (Q2Qc (2 # 1)) with (1 + 1) in H by (apply Qc_is_canon; reflexivity). set (mi := ri / (1 + 1)) in *.
  assert (MI : 0 < mi) by (unfold mi; replace (ri / (1 + 1)) with (ri * (1 / (1 + 1))) by (field; discriminate); assert (0 < 1 / (1 + 1)) by reflexivity; qnra).
  assert (NZ : mi <> 0) by (intro Z; rewrite Z in MI; discriminate MI).
  rewrite pydiv_ok in H by exact NZ. cbn [bind] in H. apply ok_inj in H. subst times.
  assert (EM : E = E / mi * mi) by (field; exact NZ). set (q := E / mi) in *. clearbody mi.
  split.
  - intros k t N. apply grid_nth in N. destruct N as [L ->]. apply floor_range in L. split; [reflexivity|]. assert (qn k * mi <= q * mi) by qnra. unfold E in EM. qlra.
  - intros k L. apply grid_nth. split; [|reflexivity]. apply floor_range. destruct (qlebP (qn k) q) as [Q|Q]; [exact Q|]. exfalso. assert (q * mi < qn k * mi) by qnra. unfold E in EM. qlra.
Qed.
Print Assumptions C69_grid.

(** ** C85: the mean absolute error *)
(** [f(0) + ... + f(n-1)] *)
Definition sum_to (n : nat) (f : nat -> Qc) : Qc := fold_right Qcplus 0 (map f (seq 0 n)).
Definition qval (f : PL) (t : Qc) : Qc := match pl_eval f t with Ok y => y | Err _ => 0 end.
(** The error of the prediction number [i] for edge [e] at time [t]. *)
Definition error_at (queues : list PL) (preds : list (list PL)) (i e : nat) (t : Qc) : Qc :=
  qabs (qval (nth e (nth i preds []) pl_zero) t - qval (nth e queues pl_zero) t).
(** One prediction per time, with a function for every queue that is defined at
    the times it is asked for. *)
Definition predictions_for (nqueues : nat) (times : list Qc) (asked : Qc -> list Qc) (preds : list (list PL)) : Prop :=
  length preds = length times /\ forall i t ps, nth_error times i = Some t -> nth_error preds i = Some ps ->
    length ps = nqueues /\ forall p u, In p ps -> In u (asked t) -> exists y, pl_eval p u = Ok y.

Lemma enum_eq {A} (l : list A) d : enum l = map (fun i => (i, nth i l d)) (seq 0 (length l)).
Proof.
  unfold enum. assert (G : forall (l : list A) k, combine (seq k (length l)) l = map (fun i => (i, nth (i - k) l d)) (seq k (length l))).
  { clear l. induction l as [|x l IH]; intro k; cbn [length seq combine map]; [reflexivity|]. rewrite Nat.sub_diag. cbn [nth]. f_equal. rewrite IH. apply map_ext_in. intros i I. apply in_seq in I. replace (i - k)%nat with (S (i - S k)) by lia. reflexivity. }
  rewrite (G l 0%nat). apply map_ext. intro i. rewrite Nat.sub_0_r. reflexivity.
Qed.
Lemma total_concat (l : list (list Qc)) : fold_right Qcplus 0 (concat l) = fold_right Qcplus 0 (map (fold_right Qcplus 0) l).
Proof.
  assert (APP : forall a b, fold_right Qcplus 0 (a ++ b) = fold_right Qcplus 0 a + fold_right Qcplus 0 b) by (induction a as [|x a IH]; intro b; cbn [app fold_right]; [ring|rewrite IH; ring]).
  induction l as [|x l IH]; cbn [concat map fold_right]; [reflexivity|]. rewrite APP, IH. reflexivity.
Qed.
Lemma concat_length_const {A} (l : list (list A)) n : (forall x, In x l -> length x = n) -> length (concat l) = (length l * n)%nat.
Proof. induction l as [|x l IH]; intro H; cbn [concat length]; [reflexivity|]. rewrite app_length, IH by (intros; apply H; right; assumption). rewrite (H x ltac:(left; reflexivity)). lia. Qed.
Lemma qn_plus a b : qn (a + b) = qn a + qn b.
Proof. rewrite <- !qz_of_nat, Nat2Z.inj_add. apply qz_plus. Qed.
Lemma qn_mult a b : qn (a * b) = qn a * qn b.
Proof. rewrite <- !qz_of_nat, Nat2Z.inj_mul. apply qz_mult. Qed.
Lemma combine_nth_map {A B C} (f : A -> C) (g : B -> C) (h : C -> C -> Qc) a b da db : length a = length b ->
  map (fun p => h (fst p) (snd p)) (combine (map f a) (map g b)) = map (fun e => h (f (nth e a da)) (g (nth e b db))) (seq 0 (length b)).
Proof.
  revert b. induction a as [|x a IH]; intros [|y b] L; cbn [length] in L; try lia; cbn [length map combine seq]; [reflexivity|]. cbn [fst snd nth]. f_equal.
  rewrite <- seq_shift, map_map. apply IH. lia.
Qed.

Lemma qn_le' a b : (a <= b)%nat -> qn a <= qn b.
Proof. rewrite <- !qz_of_nat. intro L. apply qz_le. lia. Qed.
Section MAE.
Variables (queues : list PL) (ri horizon : Qc) (m future : nat).
Hypothesis LQ : Forall line queues.
Hypothesis R0 : 0 < ri.
Let pi := qn m * ri.
Let NT := Z.to_nat (Qfloor (this ((horizon - (qn future + 1) * pi) / ri)) + 1).
Let times := map (fun i => qn i * ri) (seq 0 NT).
Let NZ : ri <> 0. Proof. intro Z; rewrite Z in R0; discriminate R0. Qed.
Let table := map (fun i => map (fun q => qval q (qn i * ri)) queues) (seq 0 (Z.to_nat (Qfloor (this (horizon / ri)) + 1))).
Lemma line_qval q t : line q -> pl_eval q t = Ok (qval q t).
Proof. intro L. unfold qval. rewrite (line_eval q t L). reflexivity. Qed.
Lemma mae_times_ok : mae_times horizon future pi ri = Ok times.
Proof. unfold mae_times. rewrite pydiv_ok by exact NZ. reflexivity. Qed.
Lemma mae_stride : intervals pi ri = Ok (Z.of_nat m).
Proof. unfold pi. rewrite <- qz_of_nat. apply intervals_ok, R0. Qed.
Lemma mae_table : queue_table queues horizon ri = Ok table.
Proof.
  unfold queue_table. rewrite pydiv_ok by exact NZ. cbn [bind]. apply mapM_map. intros i _. unfold row_at. apply mapM_map. intros q I. apply line_qval. rewrite Forall_forall in LQ. auto.
Qed.
Lemma nt_bound i k : (i < NT)%nat -> (k < future)%nat -> (i + (k + 1) * m < Z.to_nat (Qfloor (this (horizon / ri)) + 1))%nat.
Proof.
  unfold NT. rewrite !floor_range. intros A B. rewrite qn_plus, qn_mult, qn_plus. change (qn 1) with 1.
  assert (K : qn k + 1 <= qn future) by (rewrite <- qn_S; apply qn_le'; lia).
  set (q := horizon / ri) in *. assert (E1 : horizon = q * ri) by (unfold q; field; exact NZ).
  replace ((horizon - (qn future + 1) * pi) / ri) with (q - (qn future + 1) * qn m) in A by (unfold q, pi; field; exact NZ).
  pose proof (qn_nonneg m). clear E1. assert ((qn k + 1) * qn m <= (qn future + 1) * qn m) by (assert (qn k + 1 <= qn future + 1) by qlra; qnra). qlra.
Qed.
Definition asked (t : Qc) : list Qc := map (fun k => t + (qn k + 1) * pi) (seq 0 future).
Definition diffs (preds : list (list PL)) : list (list (list Qc)) :=
  map (fun i => map (fun k => let t := qn i * ri + (qn k + 1) * pi in
    map (fun e => qval (nth e (nth i preds []) pl_zero) t - qval (nth e queues pl_zero) t) (seq 0 (length queues))) (seq 0 future)) (seq 0 NT).
Lemma mae_diffs_ok batch preds : batch times = Ok preds -> predictions_for (length queues) times asked preds ->
  mae_diffs table (Z.of_nat m) times batch future pi = Ok (concat (concat (diffs preds))).
Proof.
  intros B [LP P]. unfold mae_diffs. rewrite B. cbn [bind]. assert (LT : length times = NT) by (unfold times; rewrite map_length, seq_length; reflexivity).
  assert (TN : forall i, (i < NT)%nat -> nth i times 0 = qn i * ri). { intros i L. apply nth_error_nth. apply grid_nth. auto. }
  assert (PN : forall i, (i < NT)%nat -> nth_error preds i = Some (nth i preds [])) by (intros i L; apply nth_error_nth'; lia).
  rewrite (enum_eq times 0). rewrite LT.
  set (SM := fun i => map (fun k => map (fun p => qval p (qn i * ri + (qn k + 1) * pi)) (nth i preds [])) (seq 0 future)).
  rewrite (mapM_map _ (fun p => SM (fst p))).
  2:{ intros p I. apply in_map_iff in I. destruct I as [i [<- I]]. apply in_seq in I. cbn [fst snd]. unfold to_samples, fetch. rewrite (PN i) by lia. cbn [bind]. apply mapM_map. intros k K. unfold row_at. rewrite TN by lia. apply mapM_map. intros p IP.
      destruct (P i (qn i * ri) (nth i preds [])) as [_ Q]; [apply grid_nth; split; [lia|reflexivity]|apply PN; lia|]. destruct (Q p (qn i * ri + (qn k + 1) * pi) IP) as [y Y]; [apply in_map_iff; exists k; auto|]. unfold qval. rewrite Y. reflexivity. }
  cbn [bind]. rewrite map_map. change (map (fun x => SM (fst (x, nth x times 0))) (seq 0 NT)) with (map SM (seq 0 NT)). rewrite (enum_eq (map SM (seq 0 NT)) []). rewrite map_length, seq_length.
  rewrite (mapM_map _ (fun p => nth (fst p) (diffs preds) [])).
  2:{ intros p I. apply in_map_iff in I. destruct I as [i [<- I]]. apply in_seq in I. cbn [fst snd].
      assert (E1 : nth i (map SM (seq 0 NT)) [] = SM i) by (apply nth_error_nth; apply grid_nth; split; [lia|reflexivity]). rewrite E1.
      assert (E2 : nth i (diffs preds) [] = map (fun k => let t := qn i * ri + (qn k + 1) * pi in
        map (fun e => qval (nth e (nth i preds []) pl_zero) t - qval (nth e queues pl_zero) t) (seq 0 (length queues))) (seq 0 future)) by (apply nth_error_nth; unfold diffs; apply grid_nth; split; [lia|reflexivity]). rewrite E2.
      unfold diff_rows. apply mapM_map. intros k K. apply in_seq in K. unfold fetch. unfold SM at 1.
      rewrite (proj2 (grid_nth (fun k => map (fun p => qval p (qn i * ri + (qn k + 1) * pi)) (nth i preds [])) future k _) (conj (proj2 K) eq_refl)). cbn [bind].
      destruct (Z.ltb_spec (Z.of_nat i + (Z.of_nat k + 1) * Z.of_nat m) 0) as [L|_]; [lia|]. replace (Z.to_nat (Z.of_nat i + (Z.of_nat k + 1) * Z.of_nat m)) with (i + (k + 1) * m)%nat by lia.
      unfold table. rewrite (proj2 (grid_nth (fun i => map (fun q => qval q (qn i * ri)) queues) _ (i + (k + 1) * m) _) (conj (nt_bound i k ltac:(lia) ltac:(lia)) eq_refl)). cbn [bind].
      destruct (P i (qn i * ri) (nth i preds [])) as [LL _]; [apply grid_nth; split; [lia|reflexivity]|apply PN; lia|].
      unfold row_diff. rewrite !map_length, LL, Nat.eqb_refl. f_equal. rewrite (combine_nth_map _ _ (fun a b => a - b) _ _ pl_zero pl_zero LL). apply map_ext. intro e.
      replace (qn (i + (k + 1) * m) * ri) with (qn i * ri + (qn k + 1) * pi) by (unfold pi; rewrite qn_plus, qn_mult, qn_plus; change (qn 1) with 1; ring). reflexivity. }
  cbn [bind]. rewrite map_map. cbn [fst]. f_equal. f_equal. f_equal. transitivity (map (fun i => nth i (diffs preds) []) (seq 0 (length (diffs preds)))); [unfold diffs; rewrite map_length, seq_length; reflexivity|].
  generalize (diffs preds). clear. intro l. apply nth_ext with (d := []) (d' := []); rewrite map_length, seq_length; [reflexivity|]. intros i L. rewrite (nth_indep _ [] (nth 0 l [])) by (rewrite map_length, seq_length; exact L).
  rewrite (map_nth (fun i => nth i l []) (seq 0 (length l)) 0%nat i). rewrite seq_nth by exact L. reflexivity.
Qed.
Lemma diffs_length preds : length (concat (concat (diffs preds))) = (NT * future * length queues)%nat.
Proof.
  rewrite (concat_length_const _ (length queues)).
  - rewrite (concat_length_const _ future); [unfold diffs; rewrite map_length, seq_length; reflexivity|]. intros x I. unfold diffs in I. apply in_map_iff in I. destruct I as [i [<- _]]. rewrite map_length, seq_length. reflexivity.
  - intros x I. apply in_concat in I. destruct I as [y [I J]]. unfold diffs in I. apply in_map_iff in I. destruct I as [i [<- _]]. apply in_map_iff in J. destruct J as [k [<- _]]. rewrite map_length, seq_length. reflexivity.
Qed.
Lemma diffs_total preds : fold_right Qcplus 0 (map qabs (concat (concat (diffs preds)))) =
  sum_to NT (fun i => sum_to future (fun k => sum_to (length queues) (fun e => error_at queues preds i e (qn i * ri + (qn k + 1) * pi)))).
Proof.
  rewrite concat_map, total_concat. rewrite (concat_map (map qabs)), concat_map, total_concat. unfold sum_to, diffs, error_at. rewrite !map_map. f_equal. apply map_ext. intro i. rewrite !map_map. f_equal. apply map_ext. intro k. rewrite map_map. reflexivity.
Qed.
End MAE.

Lemma qabs_nonneg x : 0 <= qabs x. Proof. unfold qabs. destruct (qltb x 0) eqn:E; [apply qltb_true in E|apply qltb_false in E]; qlra. Qed.
Lemma qabs_zero x : qabs x = 0 <-> x = 0.
Proof. unfold qabs. destruct (qltb x 0) eqn:E; [apply qltb_true in E|apply qltb_false in E]; split; intro H; qlra. Qed.
Lemma sum_nonneg n f : (forall i, (i < n)%nat -> 0 <= f i) -> 0 <= sum_to n f /\ (sum_to n f = 0 <-> forall i, (i < n)%nat -> f i = 0).
Proof.
  intro H. unfold sum_to. assert (G : forall l, (forall i, In i l -> 0 <= f i) -> 0 <= fold_right Qcplus 0 (map f l) /\ (fold_right Qcplus 0 (map f l) = 0 <-> forall i, In i l -> f i = 0)).
  { clear H. induction l as [|x l IH]; intro H; cbn [map fold_right]; [split; [qlra|split; [intros _ i []|reflexivity]]|]. destruct IH as [A B]; [intros; apply H; right; assumption|]. pose proof (H x ltac:(left; reflexivity)) as X.
    split; [qlra|]. split.
    - intros Z. assert (f x = 0) by qlra. assert (Z' : fold_right Qcplus 0 (map f l) = 0) by qlra. intros i [<-|I]; [assumption|]. apply B; assumption.
    - intro Z. rewrite (Z x ltac:(left; reflexivity)), (proj2 B) by (intros; apply Z; right; assumption). ring. }
  destruct (G (seq 0 n)) as [A B]; [intros i I; apply H; apply in_seq in I; lia|]. split; [exact A|]. rewrite B. split; intros Z i I; apply Z; [apply in_seq; lia|apply in_seq in I; lia].
Qed.

(** If the prediction interval is a positive multiple [m] of the reroute interval
    and at least one prediction time fits into the horizon, the evaluation
    succeeds, and the reported number of every predictor is the mean, over all
    prediction times [i * ri] with [i * ri + (future + 1) * pi <= horizon], all
    [future] steps ahead and all edges, of the absolute difference between the
    predicted and the actual queue at the same time. *)
Theorem C85_mae : forall queues batches future ri m horizon, let pi := qn m * ri in
  Forall line queues -> queues <> [] -> 0 < ri -> (0 < future)%nat -> (qn future + 1) * pi <= horizon ->
  exists times, (forall i, (i < length times)%nat <-> qn i * ri + (qn future + 1) * pi <= horizon) /\ (forall i, (i < length times)%nat -> nth_error times i = Some (qn i * ri)) /\
  let ahead t := map (fun k => t + (qn k + 1) * pi) (seq 0 future) in
  ((forall ty batch, In (ty, batch) batches -> exists preds, batch times = Ok preds /\ predictions_for (length queues) times ahead preds) ->
   exists errs, mean_absolute_errors queues batches future ri pi horizon = Ok errs /\ length errs = length batches /\
   forall j ty batch preds, nth_error batches j = Some (ty, batch) -> batch times = Ok preds -> exists err, nth_error errs j = Some (ty, err) /\
     err * qn (length times * future * length queues) =
       sum_to (length times) (fun i => sum_to future (fun k => sum_to (length queues) (fun e => error_at queues preds i e (qn i * ri + (qn k + 1) * pi)))) /\
     0 <= err /\
     (err = 0 <-> forall i k e p q, (i < length times)%nat -> (k < future)%nat -> nth_error (nth i preds []) e = Some p -> nth_error queues e = Some q ->
        let t := qn i * ri + (qn k + 1) * pi in pl_eval p t = pl_eval q t)).
Proof.
  intros queues batches future ri m horizon pi LQ NQ R0 F0 HH. assert (NZ : ri <> 0) by (intro Z; rewrite Z in R0; discriminate R0).
  set (NT := Z.to_nat (Qfloor (this ((horizon - (qn future + 1) * pi) / ri)) + 1)). set (times := map (fun i => qn i * ri) (seq 0 NT)). exists times.
  assert (LT : length times = NT) by (unfold times; rewrite map_length, seq_length; reflexivity). rewrite LT.
  assert (RNG : forall i, (i < NT)%nat <-> qn i * ri + (qn future + 1) * pi <= horizon).
  { intro i. unfold NT. rewrite floor_range. set (q := (horizon - (qn future + 1) * pi) / ri). assert (E : horizon - (qn future + 1) * pi = q * ri) by (unfold q; field; exact NZ). clearbody q. split; intro H.
    - assert (qn i * ri <= q * ri) by qnra. qlra.
    - destruct (qlebP (qn i) q) as [L|L]; [exact L|]. exfalso. assert (q * ri < qn i * ri) by qnra. qlra. }
  split; [exact RNG|]. split; [intros i L; apply grid_nth; auto|]. cbv zeta. intro AN.
  assert (NP : (0 < NT * future * length queues)%nat). { assert (0 < NT)%nat by (apply RNG; rewrite qn_0; qlra). destruct queues; [contradiction|]. cbn [length]. nia. }
  unfold mean_absolute_errors. unfold pi at 1 2. rewrite mae_times_ok by exact R0. cbn [bind]. rewrite mae_stride by exact R0. cbn [bind]. rewrite mae_table by assumption. cbn [bind]. fold pi.
  set (table := map _ (seq 0 (Z.to_nat (Qfloor (this (horizon / ri)) + 1)))). fold NT. fold times.
  set (PR := fun batch : list Qc -> res (list (list PL)) => match batch times with Ok p => p | Err _ => [] end).
  set (D := fun batch => concat (concat (diffs queues ri horizon m future (PR batch)))).
  assert (LD : forall batch, length (D batch) = (NT * future * length queues)%nat) by (intro batch; apply diffs_length).
  rewrite (mapM_map _ (fun p => (fst p, D (snd p)))).
  2:{ intros [ty batch] I. cbn [fst snd]. destruct (AN ty batch I) as [preds [B P]]. pose proof (mae_diffs_ok queues ri horizon m future R0 batch preds B P) as MD. fold pi in MD. fold NT in MD. fold times in MD. fold table in MD. rewrite MD. cbn [bind]. unfold D, PR. rewrite B. reflexivity. }
  cbn [bind]. rewrite (mapM_map _ (fun p => (fst p, fold_right Qcplus 0 (map qabs (snd p)) / qn (length (snd p))))).
  2:{ intros p I. apply in_map_iff in I. destruct I as [[ty batch] [<- I]]. cbn [fst snd]. unfold mean_abs. specialize (LD batch). destruct (D batch); [cbn [length] in LD; lia|reflexivity]. }
  eexists. split; [reflexivity|]. rewrite !map_length. split; [reflexivity|]. intros j ty batch preds J B. rewrite map_map. rewrite (map_nth_error _ _ _ J). cbn [fst snd]. rewrite LD.
  eexists. split; [reflexivity|]. assert (E : D batch = concat (concat (diffs queues ri horizon m future preds))) by (unfold D, PR; rewrite B; reflexivity). rewrite E, diffs_total. fold pi. fold NT.
  pose proof (FlowBuilderProofs.qn_pos _ NP) as QP. set (n := qn (NT * future * length queues)) in *. set (T := sum_to NT _). assert (NN : n <> 0) by (intro Z; rewrite Z in QP; discriminate QP).
  assert (S3 : forall i k, 0 <= sum_to (length queues) (fun e => error_at queues preds i e (qn i * ri + (qn k + 1) * pi))) by (intros; apply sum_nonneg; intros; apply qabs_nonneg).
  assert (S2 : forall i, 0 <= sum_to future (fun k => sum_to (length queues) (fun e => error_at queues preds i e (qn i * ri + (qn k + 1) * pi)))) by (intros; apply sum_nonneg; intros; apply S3).
  destruct (sum_nonneg NT (fun i => sum_to future (fun k => sum_to (length queues) (fun e => error_at queues preds i e (qn i * ri + (qn k + 1) * pi))))) as [T0 TZ]; [intros; apply S2|]. fold T in T0, TZ.
  assert (TN : T / n * n = T) by (field; exact NN). split; [exact TN|]. set (err := T / n) in *. assert (E0 : 0 <= err). { destruct (qlebP 0 err) as [L|L]; [exact L|]. exfalso. assert (err * n < 0 * n) by qnra. qlra. }
  split; [exact E0|]. transitivity (T = 0); [split; intro Z; [rewrite <- TN, Z; ring|]|].
  { rewrite Z in TN. assert (err * n = 0 * n) by qlra. destruct (qlebP err 0) as [L|L]; [qlra|]. exfalso. assert (0 * n < err * n) by qnra. qlra. }
  destruct (AN ty batch (nth_error_In _ _ J)) as [preds' [B' [LP P]]]. rewrite B in B'. apply ok_inj in B'. subst preds'.
  assert (PI : forall i, (i < NT)%nat -> length (nth i preds []) = length queues /\ forall p k, In p (nth i preds []) -> (k < future)%nat -> exists y, pl_eval p (qn i * ri + (qn k + 1) * pi) = Ok y).
  { intros i L. destruct (P i (qn i * ri) (nth i preds [])) as [A Q]; [apply grid_nth; auto|apply nth_error_nth'; lia|]. split; [exact A|]. intros p k IP K. apply (Q p _ IP). apply in_map_iff. exists k. split; [reflexivity|]. apply in_seq. lia. }
  rewrite TZ. split.
  - intros H i k e p q I K N1 N2. specialize (H i I). apply (proj2 (sum_nonneg future _ (fun k _ => S3 i k))) with (i := k) in H; [|exact K].
    assert (L : (e < length queues)%nat) by (apply nth_error_Some; congruence).
    apply (proj2 (sum_nonneg (length queues) (fun e => error_at queues preds i e (qn i * ri + (qn k + 1) * pi)) (fun e _ => qabs_nonneg _))) with (i := e) in H; [|exact L].
    unfold error_at in H. apply (proj1 (qabs_zero _)) in H. rewrite (nth_error_nth _ _ pl_zero N1), (nth_error_nth _ _ pl_zero N2) in H. cbv zeta.
    destruct (PI i I) as [_ PE]. destruct (PE p k (nth_error_In _ _ N1) K) as [y Y]. unfold qval in H. rewrite Y in H |- *. rewrite Forall_forall in LQ. rewrite (line_eval q _ (LQ q (nth_error_In _ _ N2))) in H |- *. cbv beta iota in H. f_equal. clear - H. qlra.
  - intros H i I. apply (proj2 (sum_nonneg future _ (fun k _ => S3 i k))). intros k K. apply (proj2 (sum_nonneg (length queues) (fun e => error_at queues preds i e (qn i * ri + (qn k + 1) * pi)) (fun e _ => qabs_nonneg _))). intros e L.
    destruct (PI i I) as [LL _]. specialize (H i k e (nth e (nth i preds []) pl_zero) (nth e queues pl_zero) I K ltac:(apply nth_error_nth'; lia) ltac:(apply nth_error_nth'; lia)). cbv zeta in H.
    unfold error_at, qval. rewrite H. apply qabs_zero. ring.
Qed.
Print Assumptions C85_mae.

(** Without that condition different times are compared: on a computed flow, the
    predictor that always predicts the actual queues gets a positive error for
    interval 3/2 and rerouting every 1, and with 6 steps ahead an IndexError. *)
Definition perfect (queues : list PL) (times : list Qc) : res (list (list PL)) := Ok (map (fun _ => queues) times).
Definition mae_calls : list call := [CExtend [(0%nat, [(0%nat, qz 5)])] (qz 12); CExtend [] (qz 12)].
Definition mae_check : bool :=
  match flow_run true neg_net mae_calls with
  | Ok st => qeqb (f_phi st) (qz 12) &&
      match mean_absolute_errors (f_q st) [(0%nat, perfect (f_q st))] 1 1 (qr 3 2) (qz 3), mean_absolute_errors (f_q st) [(0%nat, perfect (f_q st))] 6 1 (qr 3 2) (qr 21 2),
        mean_absolute_errors (f_q st) [(0%nat, perfect (f_q st)); (1%nat, fun times => mapM (fun t => zero_predict t st) times)] 1 1 1 (qz 3) with
      | Ok [(0%nat, e)], Err IndexError, Ok [(0%nat, a); (1%nat, b)] => (qltb 0 e && qeqb a 0 && qltb 0 b)%bool
      | _, _, _ => false
      end
  | Err _ => false
  end.

Theorem C85_refuted : exists st, flow_run false neg_net mae_calls = Ok st /\ clean_run neg_net mae_calls /\ f_phi st = qz 12 /\
  (exists e, mean_absolute_errors (f_q st) [(0%nat, perfect (f_q st))] 1 1 (qr 3 2) (qz 3) = Ok [(0%nat, e)] /\ 0 < e) /\
  mean_absolute_errors (f_q st) [(0%nat, perfect (f_q st))] 6 1 (qr 3 2) (qr 21 2) = Err IndexError.
Proof.
  assert (K : mae_check = true) by (vm_compute; reflexivity). unfold mae_check in K. unfold clean_run. destruct (flow_run true neg_net mae_calls) as [st|] eqn:R; [|discriminate K].
  exists st. split; [exact (erase_run _ _ st R)|]. split; [discriminate|]. clear R. apply andb_prop in K. destruct K as [K1 K]. split; [apply qeqb_true, K1|].
  destruct (mean_absolute_errors (f_q st) [(0%nat, perfect (f_q st))] 1 1 (qr 3 2) (qz 3)) as [[|[[|n] e] [|]]|]; try discriminate K.
  destruct (mean_absolute_errors (f_q st) [(0%nat, perfect (f_q st))] 6 1 (qr 3 2) (qr 21 2)) as [|[]]; try discriminate K.
  split; [|reflexivity]. exists e. split; [reflexivity|]. destruct (mean_absolute_errors _ [_; _] 1 1 1 (qz 3)) as [[|[[|] a] [|[[|[|]] b] [|]]]|]; try discriminate K.
  apply andb_prop in K. destruct K as [K _]. apply andb_prop in K. destruct K as [K _]. apply qltb_true, K.
Qed.
Print Assumptions C85_refuted.
(** Non-vacuity of C85_mae (interval 1): no error for the perfect predictor, a
    positive one for the zero predictor; see also [mae_check]. *)
Example C85_example : mae_check = true /\ exists st, flow_run true neg_net mae_calls = Ok st /\ Forall line (f_q st) /\ f_q st <> [] /\ (qn 1 + 1) * (qn 1 * 1) <= qz 3.
Proof.
  split; [vm_compute; reflexivity|]. destruct (flow_run true neg_net mae_calls) as [st|] eqn:R; [|vm_compute in R; discriminate R]. exists st. split; [reflexivity|].
  split; [|split; [|vm_compute; discriminate]].
  - apply Forall_forall. apply (run_lines neg_net mae_calls st); [apply netb_ok; vm_compute; reflexivity|apply runb_ok; vm_compute; reflexivity|unfold clean_run; rewrite R; discriminate|exact (erase_run _ _ st R)].
  - assert (K : match flow_run true neg_net mae_calls with Ok st => negb (length (f_q st) =? 0)%nat | Err _ => false end = true) by (vm_compute; reflexivity). rewrite R in K. intro Z. rewrite Z in K. discriminate K.
Qed.
