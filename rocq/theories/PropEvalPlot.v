(** * C101 (prediction error against performance), C102 (diagrams of the sample network) *)
From Verif Require Import Base Spec ArraysProofs RC FRC DynFlow Graph Dijkstra FlowBuilder PredictorsProofs PredictorsProofs2 Eval Eval2 Eval3 EvalPlot DynEdge PropEval3 PropEval8 PropEval9.

Lemma append_each_seq {A} (a : nat -> list A) (b : nat -> A) : forall n m k, (m <= n)%nat ->
  append_each (map a (seq k n)) (map b (seq k m)) = Ok (map (fun i => a i ++ (if (i <? k + m)%nat then [b i] else [])) (seq k n)).
Proof.
  induction n as [|n IH]; intros m k L.
  - destruct m; [|lia]. reflexivity.
  - destruct m as [|m].
    + cbn [seq map append_each]. f_equal. change (map a (seq k (S n)) = map (fun i => a i ++ (if (i <? k + 0)%nat then [b i] else [])) (seq k (S n))).
      apply map_ext_in. intros i I. apply in_seq in I. destruct (Nat.ltb_spec i (k + 0)); [lia|]. rewrite app_nil_r. reflexivity.
    + cbn [seq map append_each]. rewrite IH by lia. cbn [bind]. destruct (Nat.ltb_spec k (k + S m)); [|lia]. f_equal. f_equal.
      apply map_ext. intro i. replace (S k + m)%nat with (k + S m)%nat by lia. reflexivity.
Qed.
Lemma append_each_long {A} : forall (acc : list (list A)) xs, (length acc < length xs)%nat -> append_each acc xs = Err IndexError.
Proof. induction acc as [|l acc IH]; intros [|x xs] L; cbn [length] in L; try lia; [reflexivity|]. cbn [append_each]. rewrite IH by lia. reflexivity. Qed.
Lemma append_each_length {A} : forall (acc : list (list A)) xs r, append_each acc xs = Ok r -> length r = length acc.
Proof.
  induction acc as [|l acc IH]; intros [|x xs] r E; cbn [append_each] in E; try (injection E as <-; reflexivity); [discriminate|].
  destruct (append_each acc xs) as [r0|] eqn:R; [|discriminate E]. cbn [bind] in E. injection E as <-. cbn. f_equal. eapply IH, R.
Qed.
Lemma last_of_ok (ts : list Qc) : ts <> [] -> last_of ts = Ok (last ts 0).
Proof. intro N. destruct ts as [|x ts] using rev_ind; [congruence|]. unfold last_of. rewrite rev_app_distr, last_last. reflexivity. Qed.
Lemma perf_points_ok f : forall errs i, (i + length errs <= length (ev_times f))%nat -> (0 < length (ev_times f))%nat ->
  perf_points (ev_times f) i errs = Ok (map (fun j => (nth (j - i) errs 0, time_of f j - optimum f)) (seq i (length errs))).
Proof.
  induction errs as [|x errs IH]; intros i L P; [reflexivity|]. cbn [length] in L. cbn [perf_points length seq map].
  unfold fetch. rewrite (nth_error_nth' _ 0) by lia. cbn [bind]. rewrite last_of_ok by (intro N; rewrite N in P; cbn in P; lia). cbn [bind]. rewrite IH by lia. cbn [bind]. f_equal. f_equal.
  - rewrite Nat.sub_diag. reflexivity.
  - apply map_ext_in. intros j J. apply in_seq in J. replace (j - i)%nat with (S (j - S i)) by lia. reflexivity.
Qed.
Lemma perf_points_err f : forall errs i e, perf_points (ev_times f) i errs = Err e -> e = IndexError.
Proof.
  induction errs as [|x errs IH]; intros i e E; cbn [perf_points] in E; [discriminate|]. unfold fetch in E. destruct (nth_error (ev_times f) i); [|injection E as <-; reflexivity]. cbn [bind] in E.
  unfold last_of in E. destruct (rev (ev_times f)); [injection E as <-; reflexivity|]. cbn [bind] in E. destruct (perf_points (ev_times f) (S i) errs) eqn:R; [discriminate E|]. cbn [bind] in E. injection E as <-. eapply IH, R.
Qed.
Lemma perf_points_length f : forall errs i l, perf_points (ev_times f) i errs = Ok l -> length l = length errs.
Proof.
  induction errs as [|x errs IH]; intros i l E; cbn [perf_points] in E; [injection E as <-; reflexivity|]. destruct (fetch _ _); [|discriminate E]. cbn [bind] in E. destruct (last_of _); [|discriminate E]. cbn [bind] in E.
  destruct (perf_points (ev_times f) (S i) errs) eqn:R; [|discriminate E]. cbn [bind] in E. injection E as <-. cbn. f_equal. eapply IH, R.
Qed.

(** ** C101 *)
(** A run can be shown: no more errors than colours and than travel times. *)
Definition showable (n : nat) (f : evalfile) : Prop := (length (ev_maes f) <= n)%nat /\ (length (ev_maes f) <= length (ev_times f))%nat.
(** The runs that have an error for predictor [i]. *)
Definition with_error (i : nat) (fs : list evalfile) : list evalfile := filter (fun f => i <? length (ev_maes f))%nat fs.
(** Predictor [i] gets one point per selected run: its error and its excess over the optimum. *)
Theorem C101_points : forall n fs, (forall f, In f fs -> differing f -> showable n f) ->
  perf_data n fs = Ok (map (fun i => map (fun f => (nth i (ev_maes f) 0, time_of f i - optimum f)) (with_error i (selected fs))) (seq 0 n)).
Proof.
  intros n fs OK. unfold perf_data.
  assert (G : forall fs acc, (forall f, In f fs -> differing f -> showable n f) ->
    foldM perf_file fs (map acc (seq 0 n)) = Ok (map (fun i => acc i ++ map (fun f => (nth i (ev_maes f) 0, time_of f i - optimum f)) (with_error i (selected fs))) (seq 0 n))).
  { clear. induction fs as [|f fs IH]; intros acc OK; cbn [foldM]; [unfold selected, with_error; cbn; f_equal; apply map_ext; intro i; rewrite app_nil_r; reflexivity|].
    unfold perf_file at 1, selected. cbn [filter]. destruct (informative (ev_times f)) eqn:E.
    - pose proof (proj1 (informative_iff f) E) as DF. destruct (OK f (or_introl eq_refl) DF) as [L1 L2]. destruct DF as (i0 & _ & I0 & _).
      rewrite perf_points_ok by lia. cbn [bind]. rewrite append_each_seq by exact L1. cbn [bind]. rewrite IH by (intros g I; apply OK; right; exact I). f_equal. apply map_ext. intro i.
      rewrite <- app_assoc. f_equal. unfold with_error. cbn [filter]. cbn [Nat.add]. destruct (Nat.ltb_spec i (length (ev_maes f))); [|reflexivity]. cbn [map app]. rewrite Nat.sub_0_r. reflexivity.
    - cbn [bind]. apply IH. intros g I. apply OK. right. exact I. }
  rewrite repeat_seq. apply (G fs (fun _ => [])), OK.
Qed.
Print Assumptions C101_points.
(** Otherwise the comparison raises IndexError. *)
Theorem C101_more_errors : forall n fs f, In f fs -> differing f -> (n < length (ev_maes f))%nat -> perf_data n fs = Err IndexError.
Proof.
  intros n fs f I D L. unfold perf_data.
  assert (G : forall gs acc, In f gs -> length acc = n -> foldM perf_file gs acc = Err IndexError).
  { clear I. induction gs as [|g gs IH]; intros acc I LA; [destruct I|]. destruct I as [->|I]; cbn [foldM].
    - unfold perf_file. rewrite (proj2 (informative_iff f) D). destruct (perf_points (ev_times f) 0 (ev_maes f)) as [xs|e] eqn:P; [|apply perf_points_err in P; subst; reflexivity]. cbn [bind].
      rewrite append_each_long; [reflexivity|]. apply perf_points_length in P. lia.
    - destruct (perf_file acc g) as [acc'|e] eqn:E.
      + cbn [bind]. apply IH; [exact I|]. unfold perf_file in E. destruct (informative (ev_times g)); [|injection E as <-; exact LA]. destruct (perf_points _ _ _); [|discriminate E]. cbn [bind] in E. apply append_each_length in E. lia.
      + cbn [bind]. f_equal. unfold perf_file in E. destruct (informative (ev_times g)); [|discriminate E]. destruct (perf_points (ev_times g) 0 (ev_maes g)) as [xs|e'] eqn:P; cbn [bind] in E.
        * clear -E. revert xs e E. induction acc as [|l acc IH]; intros [|x xs] e E; cbn [append_each] in E; try discriminate; [injection E as <-; reflexivity|]. destruct (append_each acc xs) as [|e'] eqn:R; [discriminate E|]. cbn [bind] in E. injection E as <-. eapply IH, R.
        * injection E as <-. eapply perf_points_err, P. }
  apply G; [exact I|apply repeat_length].
Qed.
Print Assumptions C101_more_errors.
Example C101_example : exists x, perf_data 2 ex_fs = Ok x /\ (forall f, In f ex_fs -> showable 2 f) /\ map (@length _) x = [2; 2]%nat /\ forall f, In f (selected ex_fs) <-> In f ex_fs /\ differing f.
Proof.
  assert (S : forall f, In f ex_fs -> showable 2 f) by (intros f [<-|[<-|[<-|[]]]]; cbv; lia).
  eexists. split; [apply C101_points; intros f I _; apply S, I|]. split; [exact S|]. split; [vm_compute; reflexivity|apply selected_iff].
Qed.

(** ** C102 *)
(** Number of evaluated demands: step, 2 step, ..., K step <= max < (K+1) step. *)
Definition covers (step max : Qc) (K : nat) : Prop := qn K * step <= max /\ max < qn (S K) * step.
Lemma sample_loop_ok run times step max n K : 0 < step -> covers step max K ->
  (forall k, (1 <= k <= K)%nat -> run (qn k * step) = Ok (times k) /\ (length (times k) = n)) ->
  forall r k fuel acc, (k + r = K)%nat -> (r < fuel)%nat ->
  sample_loop fuel run step max (qn (S k) * step) (map acc (seq 0 n)) = Ok (map (fun i => acc i ++ map (fun j => nth i (times (S j)) 0) (seq k r)) (seq 0 n)).
Proof.
  intros S0 [C1 C2] R. induction r as [|r IH]; intros k fuel acc KR F; (destruct fuel as [|fuel]; [lia|]); cbn [sample_loop].
  - assert (k = K) as -> by lia. destruct (qlebP (qn (S K) * step) max) as [B|B]; [qlra|]. cbn [seq map]. f_equal. apply map_ext. intro i. rewrite app_nil_r. reflexivity.
  - destruct (qlebP (qn (S k) * step) max) as [B|B].
    2:{ exfalso. apply B. assert (M : qn (S k) <= qn K). { destruct (Nat.eq_dec (S k) K) as [->|N]; [qlra|]. pose proof (PropRC.qn_lt (S k) K ltac:(lia)). qlra. } qnra. }
    destruct (R (S k)) as [E L]; [lia|]. rewrite E. cbn [bind].
    replace (times (S k)) with (map (fun i => nth i (times (S k)) 0) (seq 0 n)) at 1.
    2:{ clear -L. subst n. generalize (times (S k)) as l. induction l as [|x l IH]; [reflexivity|]. cbn [length seq map nth]. f_equal. rewrite <- seq_shift, map_map. exact IH. }
    rewrite append_each_seq by lia. cbn [bind]. replace (qn (S k) * step + step) with (qn (S (S k)) * step) by (rewrite (qn_S (S k)); ring).
    rewrite IH by lia. f_equal. apply map_ext_in. intros i I. apply in_seq in I. destruct (Nat.ltb_spec i (0 + n)); [|lia]. rewrite <- app_assoc. reflexivity.
Qed.
(** The table written to disk: for every curve the travel times for the demands
    step, 2 step, ..., K step, in this order. *)
Theorem C102_table : forall run times step max n K, 0 < step -> covers step max K ->
  (forall k, (1 <= k <= K)%nat -> run (qn k * step) = Ok (times k) /\ length (times k) = n) ->
  exists fuel, eval_sample fuel run step max n = Ok (map (fun i => map (fun j => nth i (times (S j)) 0) (seq 0 K)) (seq 0 n)).
Proof.
  intros run times step max n K S0 C R. exists (S K). unfold eval_sample. rewrite repeat_seq. replace (0 + step) with (qn 1 * step) by (change (qn 1) with 1; ring).
  rewrite (sample_loop_ok run times step max n K S0 C R K 0 (S K) (fun _ => [])) by lia. reflexivity.
Qed.
Print Assumptions C102_table.
Lemma plot_line_map step (v : nat -> Qc) K : plot_line step (map v (seq 0 K)) = map (fun j => (qn (S j) * step, v j)) (seq 0 K).
Proof.
  unfold plot_line. rewrite map_length, seq_length. rewrite <- (map_id (seq 0 K)) at 1. rewrite (zip_seq (fun p => (qn (S (fst p)) * step, snd p)) (fun j => j) v). reflexivity.
Qed.
(** Every curve of the diagram shows each demand with the travel time found for that demand. *)
Theorem C102_curves : forall run times step max n K, 0 < step -> covers step max K ->
  (forall k, (1 <= k <= K)%nat -> run (qn k * step) = Ok (times k) /\ length (times k) = n) ->
  exists fuel t, eval_sample fuel run step max n = Ok t /\ length (time_plot step t) = n /\
    forall c x y, In (x, y) (nth c (time_plot step t) []) -> exists ts, run x = Ok ts /\ nth_error ts c = Some y /\ step <= x /\ x <= max.
Proof.
  intros run times step max n K S0 C R. destruct (C102_table run times step max n K S0 C R) as [fuel E]. exists fuel. eexists. split; [exact E|]. unfold time_plot. split; [rewrite !map_length; apply seq_length|].
  intros c x y I. destruct (Nat.lt_ge_cases c n) as [L|G]; [|rewrite nth_overflow in I by (rewrite !map_length, seq_length; exact G); destruct I].
  rewrite map_map in I. rewrite (nth_indep _ [] ((fun i => plot_line step (map (fun j => nth i (times (S j)) 0) (seq 0 K))) 0%nat)) in I by (rewrite map_length, seq_length; exact L).
  rewrite (map_nth (fun i => plot_line step (map (fun j => nth i (times (S j)) 0) (seq 0 K)))), seq_nth in I by exact L. cbn [Nat.add] in I. rewrite plot_line_map in I.
  apply in_map_iff in I. destruct I as [j [Q J]]. injection Q as <- <-. apply in_seq in J. destruct (R (S j)) as [E1 L1]; [lia|]. exists (times (S j)). split; [exact E1|]. split; [apply nth_error_nth'; lia|].
  destruct C as [C1 C2]. split.
  - rewrite qn_S. pose proof (qn_nonneg j). qnra.
  - assert (M : qn (S j) <= qn K). { destruct (Nat.eq_dec (S j) K) as [->|N]; [qlra|]. pose proof (PropRC.qn_lt (S j) K ltac:(lia)). qlra. } qnra.
Qed.
Print Assumptions C102_curves.
Lemma mapM_after {A B C} (f : B -> res C) (g : A -> B) l : mapM f (map g l) = mapM (fun x => f (g x)) l.
Proof. induction l as [|x l IH]; [reflexivity|]. cbn [map mapM]. rewrite IH. reflexivity. Qed.
(** The second diagram shows the same travel times relative to the last curve (the optimum). *)
Theorem C102_regrets : forall run times step max n K, 0 < step -> covers step max K ->
  (forall k, (1 <= k <= K)%nat -> run (qn k * step) = Ok (times k) /\ length (times k) = S n /\ nth n (times k) 0 <> 0) ->
  exists fuel t, eval_sample fuel run step max (S n) = Ok t /\
    regret_plot step t = Ok (map (fun c => map (fun j => (qn (S j) * step, nth c (times (S j)) 0 / nth n (times (S j)) 0)) (seq 0 K)) (seq 0 n)).
Proof.
  intros run times step max n K S0 C R. destruct (C102_table run times step max (S n) K S0 C) as [fuel E]; [intros k I; destruct (R k I) as (A & B & _); auto|]. exists fuel. eexists. split; [exact E|].
  unfold regret_plot. rewrite seq_S, map_app. cbn [Nat.add map]. rewrite rev_app_distr. cbn [rev app]. rewrite removelast_last.
  rewrite mapM_after. apply mapM_seq. intros c L. unfold regret_line. rewrite map_length, seq_length. rewrite <- (map_id (seq 0 K)) at 1.
  assert (Z : forall (a : nat -> nat) (b : nat -> Qc) k m, combine (map a (seq k m)) (map b (seq k m)) = map (fun i => (a i, b i)) (seq k m)) by (intros a b k m; revert k; induction m as [|m IH]; intro k; [reflexivity|]; cbn; f_equal; apply IH).
  rewrite Z, mapM_after. apply mapM_seq. intros j J. cbn [fst snd]. unfold fetch. rewrite (map_nth_error (fun j => nth n (times (S j)) 0) j (seq 0 K) (d := j)).
  - cbn [bind]. rewrite pydiv_ok; [reflexivity|]. destruct (R (S j)) as (_ & _ & NZ); [lia|exact NZ].
  - rewrite (nth_error_nth' _ 0%nat) by (rewrite seq_length; exact J). rewrite seq_nth by exact J. reflexivity.
Qed.
Print Assumptions C102_regrets.
(** The numbers of the code: demands 1/4, 1/2, ..., 30. *)
Example C102_example : covers (Q2Qc (1#4)) (qz 30) 120.
Proof. split; vm_compute; [discriminate|reflexivity]. Qed.
