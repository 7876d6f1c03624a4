(** * C93 (which commodities a visualisation merges) and C94 (summaries of evaluations) *)
From Verif Require Import Base Spec RC FRC DynFlow Graph Dijkstra FlowBuilder PredictorsProofs PredictorsProofs2 Eval Eval2 Eval3 DynEdge PropEval3 PropEval8.

(** ** Number of combined commodities *)
Definition com_key (c : commodity) : nat * nat := (k_pred c, k_sink c).
Definition key_dec (a b : nat * nat) : {a = b} + {a <> b}.
Proof. decide equality; apply Nat.eq_dec. Defined.
Lemma key_eqb_iff a b : key_eqb a b = true <-> a = b.
Proof. unfold key_eqb. destruct a, b. cbn [fst snd]. rewrite andb_true_iff, !Nat.eqb_eq. split; [intros [-> ->]; reflexivity|intro E; injection E; auto]. Qed.
Lemma group_add_keys gs k i : map fst (group_add gs k i) = if existsb (key_eqb k) (map fst gs) then map fst gs else map fst gs ++ [k].
Proof.
  induction gs as [|[k' l] gs IH]; [reflexivity|]. cbn [group_add map fst existsb].
  destruct (key_eqb k' k) eqn:E.
  - apply key_eqb_iff in E. subst k'. replace (key_eqb k k) with true by (symmetry; apply key_eqb_iff; reflexivity). reflexivity.
  - replace (key_eqb k k') with false; [cbn [map fst orb]; rewrite IH; destruct (existsb (key_eqb k) (map fst gs)); reflexivity|].
    symmetry. apply not_true_iff_false. intro T. apply key_eqb_iff in T. subst k'. apply not_true_iff_false in E. apply E, key_eqb_iff. reflexivity.
Qed.
Lemma fold_keys ps : forall gs, NoDup (map fst gs) ->
  let gs' := fold_left (fun gs (p : nat * commodity) => if mem (fst p) [] then gs else group_add gs (k_pred (snd p), k_sink (snd p)) (fst p)) ps gs in
  NoDup (map fst gs') /\ forall k, In k (map fst gs') <-> In k (map fst gs) \/ In k (map (fun p => com_key (snd p)) ps).
Proof.
  induction ps as [|[i c] ps IH]; intros gs ND; cbn [fold_left map]; [split; [exact ND|intro k; cbn; tauto]|].
  cbn [fst snd]. replace (mem i []) with false by reflexivity.
  assert (K : NoDup (map fst (group_add gs (com_key c) i)) /\ forall k, In k (map fst (group_add gs (com_key c) i)) <-> In k (map fst gs) \/ com_key c = k).
  { rewrite group_add_keys. destruct (existsb (key_eqb (com_key c)) (map fst gs)) eqn:E.
    - split; [exact ND|]. intro k. apply existsb_exists in E. destruct E as [k' [I E]]. apply key_eqb_iff in E. subst k'. split; [auto|intros [X|<-]; auto].
    - assert (NI : ~ In (com_key c) (map fst gs)). { intro I. apply not_true_iff_false in E. apply E, existsb_exists. exists (com_key c). split; [exact I|apply key_eqb_iff; reflexivity]. }
      split; [apply NoDup_app_snoc || (apply (Permutation_NoDup (Permutation_cons_append _ _)); constructor; assumption)|]. intro k. rewrite in_app_iff. cbn. tauto. }
  destruct K as [K1 K2]. destruct (IH _ K1) as [I1 I2]. unfold com_key in *. split; [exact I1|]. intro k. rewrite I2, K2. cbn. tauto.
Qed.
Lemma groups_keys cs : NoDup (map fst (com_groups cs [])) /\ forall k, In k (map fst (com_groups cs [])) <-> In k (map com_key cs).
Proof.
  destruct (fold_keys (enum cs) [] (NoDup_nil _)) as [A B]. split; [exact A|]. intro k. unfold com_groups. rewrite B. cbn [map].
  replace (map (fun p : nat * commodity => com_key (snd p)) (enum cs)) with (map com_key cs); [cbn; tauto|].
  clear. unfold enum. generalize 0%nat. induction cs as [|c cs IH]; intro n; [reflexivity|]. cbn [length seq combine map snd]. f_equal. apply IH.
Qed.
Lemma combine_count nw ord nw' : (forall l, Permutation (ord l) l) -> combine_commodities nw [] ord = Ok nw' -> length (w_com nw') = length (nodup key_dec (map com_key (w_com nw))).
Proof.
  intros OP E. unfold combine_commodities in E. apply bind_ok in E. destruct E as [mg [E1 E]]. apply bind_ok in E. destruct E as [kp [E2 E]]. apply ok_inj in E. subst nw'. cbn [w_com].
  assert (Z : ord [] = []) by (apply Permutation_nil, Permutation_sym, OP). rewrite Z in E2. cbn [mapM] in E2. apply ok_inj in E2. subst kp. rewrite app_nil_r.
  destruct (mapM_spec _ _ _ E1) as [L _]. rewrite L. destruct (groups_keys (w_com nw)) as [A B]. rewrite <- (map_length fst).
  apply Nat.le_antisymm; [apply (NoDup_incl_length A)|apply (NoDup_incl_length (NoDup_nodup key_dec _))]; intros k I; [apply nodup_In, B, I|apply B, (nodup_In key_dec), I].
Qed.

(** ** C93 *)
(** The evaluated commodities get the numbers after the combined ones, one per pair of
    predictor and sink. *)
Theorem C93_numbers : forall nw foc split ih types ord nw' idx, (forall l, Permutation (ord l) l) ->
  eval_commodities nw foc split ih types ord = Ok (nw', idx) ->
  let background := if split then remove_nth foc (w_com nw) else w_com nw in
  idx = seq (length (nodup key_dec (map com_key background))) (length types) /\ length (w_com nw') = (length (nodup key_dec (map com_key background)) + length types)%nat.
Proof.
  intros nw foc split ih types ord nw' idx OP E background. unfold eval_commodities in E. apply bind_ok in E. destruct E as [c [_ E]].
  destruct (k_sources c) as [|[src inf] [|]]; [discriminate E| |discriminate E].
  apply bind_ok in E. destruct E as [[coms d] [EC E]]. apply bind_ok in E. destruct E as [nw1 [E1 E]]. apply ok_inj in E. injection E as <- <-.
  assert (X : coms = background).
  { subst background. destruct split.
    - apply bind_ok in EC. destruct EC as [vs [_ EC]]. apply bind_ok in EC. destruct EC as [d' [_ EC]]. apply ok_inj in EC. congruence.
    - do 6 (apply bind_ok in EC; destruct EC as [? [_ EC]]). apply ok_inj in EC. congruence. }
  subst coms. apply (combine_count _ _ _ OP) in E1. cbn [w_com] in E1. cbn [w_com]. rewrite app_length, map_length, <- E1. auto.
Qed.
Print Assumptions C93_numbers.
Lemma distinct_le cs : (length (nodup key_dec (map com_key cs)) <= length cs)%nat.
Proof. rewrite <- (map_length com_key cs). generalize (map com_key cs). induction l as [|k l IH]; [apply le_n|]. cbn [nodup length]. destruct (in_dec key_dec k l); cbn [length]; lia. Qed.
Lemma distinct_lt cs : ~ NoDup (map com_key cs) -> (length (nodup key_dec (map com_key cs)) < length cs)%nat.
Proof.
  intro N. rewrite <- (map_length com_key cs). revert N. generalize (map com_key cs). induction l as [|k l IH]; intro N; [destruct N; constructor|]. cbn [nodup length]. destruct (in_dec key_dec k l) as [I|I].
  - assert (length (nodup key_dec l) <= length l)%nat by (clear; induction l as [|a l IH]; [apply le_n|]; cbn [nodup length]; destruct (in_dec key_dec a l); cbn [length]; lia). lia.
  - cbn [length]. assert (Q : ~ NoDup l) by (intro Q; apply N; constructor; assumption). specialize (IH Q). lia.
Qed.
(** Without splitting, if no two commodities could be combined, exactly the background
    is merged and every evaluated commodity stays on its own. *)
Theorem C93_separate : forall nw foc ih types ord nw' idx, (forall l, Permutation (ord l) l) -> NoDup (map com_key (w_com nw)) ->
  eval_commodities nw foc false ih types ord = Ok (nw', idx) ->
  forall i, (i < length (w_com nw'))%nat -> (In i idx <-> ~ In i (merged_ids (length (w_com nw)))).
Proof.
  intros nw foc ih types ord nw' idx OP ND E i L. destruct (C93_numbers _ _ _ _ _ _ _ _ OP E) as [-> LN]. rewrite (nodup_fixed_point key_dec ND), map_length in *. unfold merged_ids. rewrite !in_seq. lia.
Qed.
Print Assumptions C93_separate.
(** REFUTED otherwise: the first evaluated commodity is merged into the background. *)
Theorem C93_merged_refuted : forall nw foc split ih types ord nw' idx, (forall l, Permutation (ord l) l) ->
  eval_commodities nw foc split ih types ord = Ok (nw', idx) -> types <> [] -> split = true \/ ~ NoDup (map com_key (w_com nw)) ->
  exists i, hd_error idx = Some i /\ In i (merged_ids (length (w_com nw))).
Proof.
  intros nw foc split ih types ord nw' idx OP E NE D. destruct (C93_numbers _ _ _ _ _ _ _ _ OP E) as [-> _].
  assert (F : (foc < length (w_com nw))%nat). { unfold eval_commodities in E. apply bind_ok in E. destruct E as [c [F _]]. unfold fetch in F. apply nth_error_Some. destruct (nth_error (w_com nw) foc); congruence. }
  set (k := length (nodup key_dec (map com_key (if split then remove_nth foc (w_com nw) else w_com nw)))). exists k.
  split; [destruct types; [congruence|reflexivity]|]. unfold merged_ids. apply in_seq. cbn [Nat.add]. split; [lia|]. subst k. destruct split.
  - eapply Nat.le_lt_trans; [apply distinct_le|]. unfold remove_nth. rewrite app_length, firstn_length, skipn_length. lia.
  - destruct D as [D|D]; [discriminate D|]. apply distinct_lt, D.
Qed.
Print Assumptions C93_merged_refuted.

(** ** C94 *)
Lemma qn_lt a b : (a < b)%nat -> qn a < qn b.
Proof. intro L. unfold qn, Qclt, Q2Qc. cbn [this]. rewrite !Qred_correct. unfold inject_Z, Qlt. cbn. lia. Qed.
(** [ts]: the travel times of the predictors, then the optimum. *)
Definition optimum (f : evalfile) : Qc := last (ev_times f) 0.
Definition time_of (f : evalfile) (i : nat) : Qc := nth i (ev_times f) 0.
(** Two predictors of the run have different travel times. *)
Definition differing (f : evalfile) : Prop := exists i j, (i < length (ev_times f) - 1)%nat /\ (j < length (ev_times f) - 1)%nat /\ time_of f i <> time_of f j.
Definition complete_for (n : nat) (f : evalfile) : Prop := (n <= length (ev_times f))%nat /\ optimum f <> 0.
Definition mean (l : list Qc) : Qc := fold_right Qcplus 0 l / qn (length l).

Lemma nth_firstn (l : list Qc) : forall m i, (i < m)%nat -> (i < length l)%nat -> nth_error (firstn m l) i = Some (nth i l 0).
Proof. induction l as [|x l IH]; intros m i L1 L2; [cbn in L2; lia|]. destruct m as [|m]; [lia|]. destruct i as [|i]; [reflexivity|]. cbn [firstn nth_error nth]. apply IH; [lia|cbn in L2; lia]. Qed.
Lemma informative_iff f : informative (ev_times f) = true <-> differing f.
Proof.
  unfold differing, time_of, informative. destruct (ev_times f) as [|t0 r]; [split; [discriminate|intros (i & _ & L & _); cbn in L; lia]|].
  rewrite existsb_exists. set (ts := t0 :: r). set (m := (length ts - 1)%nat). assert (LM : (m <= length ts)%nat) by (unfold m; lia).
  assert (NTH : forall i, (i < m)%nat -> nth_error (firstn m ts) i = Some (nth i ts 0)).
  { intros i L. apply nth_firstn; lia. }
  split.
  - intros [t [I N]]. apply In_nth_error in I. destruct I as [i I]. assert (L : (i < m)%nat) by (assert (i < length (firstn m ts))%nat by (apply nth_error_Some; congruence); rewrite firstn_length in *; lia).
    rewrite NTH in I by exact L. injection I as <-. exists i, 0%nat. split; [exact L|]. split; [lia|]. intro Q. cbn [nth ts] in Q. rewrite Q in N. cbn [ts] in N. destruct (qeqbP t0 t0); [discriminate N|congruence].
  - intros (i & j & Li & Lj & N). destruct (Qc_eq_dec (nth i ts 0) t0) as [E|E].
    + exists (nth j ts 0). split; [apply (nth_error_In _ j), NTH, Lj|]. destruct (qeqbP (nth j ts 0) t0); [congruence|reflexivity].
    + exists (nth i ts 0). split; [apply (nth_error_In _ i), NTH, Li|]. destruct (qeqbP (nth i ts 0) t0); [congruence|reflexivity].
Qed.
Definition selected (fs : list evalfile) : list evalfile := filter (fun f => informative (ev_times f)) fs.
Lemma selected_iff fs f : In f (selected fs) <-> In f fs /\ differing f.
Proof. unfold selected. rewrite filter_In, informative_iff. reflexivity. Qed.
Lemma slowdown_ok n f i : complete_for n f -> (i < n)%nat -> slowdown (ev_times f) i = Ok (time_of f i / optimum f - 1).
Proof.
  intros [L NZ] I. unfold slowdown, time_of, optimum in *. unfold fetch. rewrite (nth_error_nth' _ 0) by lia. cbn [bind].
  destruct (ev_times f) as [|t0 r] using rev_ind; [cbn in L; lia|]. rewrite rev_app_distr. cbn [rev app bind]. rewrite last_last in *. rewrite pydiv_ok by exact NZ. reflexivity.
Qed.
Lemma mapM_seq {A} (g : nat -> res A) (h : nat -> A) n : (forall i, (i < n)%nat -> g i = Ok (h i)) -> mapM g (seq 0 n) = Ok (map h (seq 0 n)).
Proof.
  intro H. assert (G : forall l, (forall i, In i l -> g i = Ok (h i)) -> mapM g l = Ok (map h l)).
  { induction l as [|x l IH]; intro K; [reflexivity|]. cbn [mapM map]. rewrite K by (left; reflexivity). cbn [bind]. rewrite IH by (intros i I; apply K; right; exact I). reflexivity. }
  apply G. intros i I. apply in_seq in I. apply H. lia.
Qed.
Lemma zip_seq {A B C} (g : A * B -> C) (a : nat -> A) (b : nat -> B) n : map g (combine (map a (seq 0 n)) (map b (seq 0 n))) = map (fun i => g (a i, b i)) (seq 0 n).
Proof. generalize 0%nat. induction n as [|n IH]; intro k; [reflexivity|]. cbn [seq map combine]. f_equal. apply IH. Qed.
Lemma repeat_seq {A} (x : A) n : repeat x n = map (fun _ => x) (seq 0 n).
Proof. generalize 0%nat. induction n as [|n IH]; intro k; [reflexivity|]. cbn. f_equal. apply IH. Qed.

(** The boxplot shows, for every predictor, the relative excess of its travel time
    over the optimum, for exactly the runs in which some predictors differ. *)
Theorem C94_slowdowns : forall n fs, (forall f, In f fs -> differing f -> complete_for n f) ->
  slowdowns n fs = Ok (map (fun i => map (fun f => time_of f i / optimum f - 1) (selected fs)) (seq 0 n)).
Proof.
  intros n fs OK. unfold slowdowns.
  assert (G : forall fs acc, (forall f, In f fs -> differing f -> complete_for n f) ->
    foldM (slow_file n) fs (map acc (seq 0 n)) = Ok (map (fun i => acc i ++ map (fun f => time_of f i / optimum f - 1) (selected fs)) (seq 0 n))).
  { clear. induction fs as [|f fs IH]; intros acc OK; cbn [foldM]; [unfold selected; cbn; f_equal; apply map_ext; intro i; rewrite app_nil_r; reflexivity|].
    unfold slow_file at 1, selected. cbn [filter]. destruct (informative (ev_times f)) eqn:E.
    - pose proof (OK f (or_introl eq_refl) (proj1 (informative_iff f) E)) as CF. rewrite (mapM_seq _ (fun i => time_of f i / optimum f - 1)) by (intros i I; apply (slowdown_ok n); assumption). cbn [bind].
      rewrite (zip_seq (fun p => fst p ++ [snd p])). cbn [fst snd]. rewrite IH by (intros g I; apply OK; right; exact I). f_equal. apply map_ext. intro i. rewrite <- app_assoc. reflexivity.
    - cbn [bind]. apply IH. intros g I. apply OK. right. exact I. }
  rewrite repeat_seq. apply (G fs (fun _ => [])), OK.
Qed.
Print Assumptions C94_slowdowns.
(** The averages written to disk. *)
Theorem C94_average : forall n fs, (forall f, In f fs -> differing f -> complete_for n f) -> (exists f, In f fs /\ differing f) ->
  avg_slowdowns n fs = Ok (map (fun i => Some (mean (map (fun f => time_of f i / optimum f - 1) (selected fs)))) (seq 0 n)).
Proof.
  intros n fs OK [f0 F0]. unfold avg_slowdowns. rewrite C94_slowdowns by exact OK. cbn [bind]. rewrite map_map. f_equal. apply map_ext. intro i. unfold average, mean.
  apply selected_iff in F0. destruct (selected fs) as [|g gs]; [destruct F0|]. reflexivity.
Qed.
Print Assumptions C94_average.
(** They are non-negative if the optimum is optimal, and the optimum itself has 0. *)
Theorem C94_nonneg : forall n fs i l, (forall f, In f fs -> differing f -> complete_for n f) -> slowdowns n fs = Ok l -> (i < n)%nat ->
  (forall f, In f fs -> differing f -> 0 < optimum f /\ optimum f <= time_of f i) -> forall x, In x (nth i l []) -> 0 <= x.
Proof.
  intros n fs i l OK E I P x X. rewrite C94_slowdowns in E by exact OK. apply ok_inj in E. subst l.
  rewrite (nth_indep _ [] ((fun i => map (fun f => time_of f i / optimum f - 1) (selected fs)) 0%nat)) in X by (rewrite map_length, seq_length; exact I). rewrite (map_nth (fun i => map (fun f => time_of f i / optimum f - 1) (selected fs))), seq_nth in X by exact I. cbn [Nat.add] in X.
  apply in_map_iff in X. destruct X as [f [<- F]]. apply selected_iff in F. destruct F as [F D]. destruct (P f F D) as [P1 P2].
  assert (Q : 1 <= time_of f i / optimum f). { apply Qcnot_lt_le. intro N. apply (Qcmult_lt_compat_r _ _ (optimum f) P1) in N. replace (time_of f i / optimum f * optimum f) with (time_of f i) in N by (field; intro Z; rewrite Z in P1; discriminate P1). rewrite Qcmult_1_l in N. apply (Qclt_not_le _ _ N), P2. }
  qlra.
Qed.
Print Assumptions C94_nonneg.

(** The printed "mean average travel time": the sum over the selected runs divided by
    the number of all runs. *)
Theorem C94_printed : forall n fs, fs <> [] -> (forall f, In f fs -> differing f -> (n <= length (ev_times f))%nat) ->
  printed_means n fs = Ok (map (fun i => fold_right Qcplus 0 (map (fun f => time_of f i) (selected fs)) / qn (length fs)) (seq 0 n)).
Proof.
  intros n fs NE OK. unfold printed_means.
  assert (G : forall fs acc, (forall f, In f fs -> differing f -> (n <= length (ev_times f))%nat) ->
    foldM (mean_file n) fs (map acc (seq 0 n)) = Ok (map (fun i => acc i + fold_right Qcplus 0 (map (fun f => time_of f i) (selected fs))) (seq 0 n))).
  { clear. induction fs as [|f fs IH]; intros acc OK; cbn [foldM]; [unfold selected; cbn [filter map fold_right]; f_equal; apply map_ext; intro i; ring|].
    unfold mean_file at 1, selected. cbn [filter]. destruct (informative (ev_times f)) eqn:E.
    - pose proof (OK f (or_introl eq_refl) (proj1 (informative_iff f) E)) as CF. rewrite (mapM_seq _ (time_of f)) by (intros i I; unfold fetch, time_of; rewrite (nth_error_nth' _ 0) by lia; reflexivity). cbn [bind].
      rewrite (zip_seq (fun p => fst p + snd p)). cbn [fst snd]. rewrite IH by (intros g I; apply OK; right; exact I). f_equal. apply map_ext. intro i. cbn [map fold_right]. fold (selected fs). ring.
    - cbn [bind]. apply IH. intros g I. apply OK. right. exact I. }
  rewrite repeat_seq. rewrite (G fs (fun _ => 0)) by exact OK. cbn [bind]. assert (NZ : qn (length fs) <> 0) by (apply qn_ne; destruct fs; [congruence|cbn; lia]).
  assert (M : forall l : list Qc, mapM (fun x => pydiv x (qn (length fs))) l = Ok (map (fun x => x / qn (length fs)) l)).
  { induction l as [|x l IH]; [reflexivity|]. cbn [mapM]. rewrite pydiv_ok by exact NZ. cbn [bind]. rewrite IH. reflexivity. }
  rewrite M, map_map. f_equal. apply map_ext. intro i. f_equal. ring.
Qed.
Print Assumptions C94_printed.
(** REFUTED: it is not the mean of the travel times, neither over all runs nor over the
    selected ones, as soon as a run is left out. *)
Theorem C94_printed_refuted : forall n fs i l, printed_means n fs = Ok l -> (i < n)%nat -> (forall f, In f fs -> (n <= length (ev_times f))%nat /\ 0 < time_of f i) ->
  (exists f, In f fs /\ differing f) -> (exists f, In f fs /\ ~ differing f) ->
  nth i l 0 < mean (map (fun f => time_of f i) fs) /\ nth i l 0 < mean (map (fun f => time_of f i) (selected fs)).
Proof.
  intros n fs i l E I P [f1 F1] [f2 [F2 D2]]. assert (NE : fs <> []) by (intro Z; rewrite Z in F2; destruct F2).
  rewrite C94_printed in E; [|exact NE|intros f F _; apply P, F]. apply ok_inj in E. subst l.
  rewrite (nth_indep _ 0 ((fun i => fold_right Qcplus 0 (map (fun f => time_of f i) (selected fs)) / qn (length fs)) 0%nat)) by (rewrite map_length, seq_length; exact I).
  rewrite (map_nth (fun i => fold_right Qcplus 0 (map (fun f => time_of f i) (selected fs)) / qn (length fs))), seq_nth by exact I. cbn [Nat.add]. unfold mean. rewrite !map_length.
  assert (PN : forall k, (0 < k)%nat -> 0 < qn k) by (intros k K; exact (qn_lt 0 k K)).
  assert (LF : (0 < length fs)%nat) by (destruct fs; [congruence|cbn; lia]).
  assert (SM : forall gs, (forall f, In f gs -> 0 < time_of f i) -> fold_right Qcplus 0 (map (fun f => time_of f i) (selected gs)) <= fold_right Qcplus 0 (map (fun f => time_of f i) gs) /\
     ((exists f, In f gs /\ ~ differing f) -> fold_right Qcplus 0 (map (fun f => time_of f i) (selected gs)) < fold_right Qcplus 0 (map (fun f => time_of f i) gs) /\ (length (selected gs) < length gs)%nat) /\ (length (selected gs) <= length gs)%nat).
  { induction gs as [|g gs IH]; intro PG; [cbn; split; [qlra|]; split; [intros [f [[] _]]|lia]|]. destruct (IH (fun f F => PG f (or_intror F))) as (I1 & I2 & I3). pose proof (PG g (or_introl eq_refl)) as P1.
    unfold selected in *. cbn [filter]. destruct (informative (ev_times g)) eqn:EI; cbn [map fold_right length].
    - split; [qlra|]. split; [|lia]. intros [f [[<-|F] D]]; [apply informative_iff in EI; contradiction|]. destruct I2 as [J1 J2]; [eauto|]. split; [qlra|lia].
    - split; [qlra|]. split; [|lia]. intros _. split; [qlra|lia]. }
  destruct (SM fs (fun f F => proj2 (P f F))) as (_ & S2 & _). destruct S2 as [S2 S3]; [eauto|].
  assert (SP : 0 < fold_right Qcplus 0 (map (fun f => time_of f i) (selected fs))).
  { assert (G : forall gs, (forall f, In f gs -> 0 < time_of f i) -> gs <> [] -> 0 < fold_right Qcplus 0 (map (fun f => time_of f i) gs)).
    { induction gs as [|g gs IH]; intros PG NG; [congruence|]. cbn [map fold_right]. pose proof (PG g (or_introl eq_refl)). destruct gs as [|g' gs]; [cbn; qlra|]. specialize (IH (fun f F => PG f (or_intror F))). assert (0 < fold_right Qcplus 0 (map (fun f => time_of f i) (g' :: gs))) by (apply IH; discriminate). qlra. }
    apply G; [intros f F; apply selected_iff in F; apply P, F|]. apply selected_iff in F1. intro Z. rewrite Z in F1. destruct F1. }
  assert (LS : (0 < length (selected fs))%nat). { apply selected_iff in F1. destruct (selected fs); [destruct F1|cbn; lia]. }
  set (a := fold_right Qcplus 0 (map (fun f => time_of f i) (selected fs))) in *. set (b := fold_right Qcplus 0 (map (fun f => time_of f i) fs)) in *.
  assert (DIV : forall x y d, 0 < d -> x < y -> x / d < y / d). { intros x y d D L. unfold Qcdiv. apply Qcmult_lt_compat_r; [|exact L]. replace (/ d) with (1 / d) by (unfold Qcdiv; ring). apply qdiv_pos; [reflexivity|exact D]. }
  split; [apply DIV; [apply PN, LF|exact S2]|].
  assert (LT : qn (length (selected fs)) < qn (length fs)) by (apply qn_lt, S3).
  replace (a / qn (length fs)) with (a * qn (length (selected fs)) / (qn (length fs) * qn (length (selected fs)))) by (field; split; apply qn_ne; assumption).
  replace (a / qn (length (selected fs))) with (a * qn (length fs) / (qn (length fs) * qn (length (selected fs)))) by (field; split; apply qn_ne; assumption).
  apply DIV; [apply qmul_pos; apply PN; assumption|]. rewrite !(Qcmult_comm a). apply Qcmult_lt_compat_r; assumption.
Qed.
Print Assumptions C94_printed_refuted.
(** Every run enters the comparison of the prediction errors. *)
Theorem C94_maes : forall n fs, (forall f, In f fs -> (n <= length (ev_maes f))%nat) ->
  mae_data n fs = Ok (map (fun i => map (fun f => nth i (ev_maes f) 0) fs) (seq 0 n)).
Proof.
  intros n fs OK. unfold mae_data.
  assert (G : forall fs acc, (forall f, In f fs -> (n <= length (ev_maes f))%nat) ->
    foldM (mae_file n) fs (map acc (seq 0 n)) = Ok (map (fun i => acc i ++ map (fun f => nth i (ev_maes f) 0) fs) (seq 0 n))).
  { clear. induction fs as [|f fs IH]; intros acc OK; cbn [foldM]; [cbn; f_equal; apply map_ext; intro i; rewrite app_nil_r; reflexivity|].
    unfold mae_file at 1. pose proof (OK f (or_introl eq_refl)) as CF. rewrite (mapM_seq _ (fun i => nth i (ev_maes f) 0)) by (intros i I; unfold fetch; rewrite (nth_error_nth' _ 0) by lia; reflexivity). cbn [bind].
    rewrite (zip_seq (fun p => fst p ++ [snd p])). cbn [fst snd]. rewrite IH by (intros g I; apply OK; right; exact I). f_equal. apply map_ext. intro i. cbn [map]. rewrite <- app_assoc. reflexivity. }
  rewrite repeat_seq. apply (G fs (fun _ => [])), OK.
Qed.
Print Assumptions C94_maes.

(** ** Concrete cases *)
Definition ex_fs := [mkEval [qz 3; qz 2; qz 2] [1; 0]; mkEval [qz 5; qz 5; qz 4] [0; 0]; mkEval [qz 6; qz 4; qz 4] [1; 1]].
Example ex_avg : match avg_slowdowns 2 ex_fs, printed_means 2 ex_fs with
  | Ok [Some a; Some b], Ok [c; d] => (qeqb a (qr 1 2) && qeqb b 0 && qeqb c (qz 3) && qeqb d (qz 2))%bool = true | _, _ => False end.
Proof. vm_compute. reflexivity. Qed.
Example ex_differing : differing (nth 0 ex_fs (mkEval [] [])) /\ ~ differing (nth 1 ex_fs (mkEval [] [])).
Proof.
  split; [apply informative_iff; vm_compute; reflexivity|]. intro D. apply informative_iff in D. vm_compute in D. discriminate D.
Qed.
(** Nguyen's network: two sources, two sinks, four commodities with one predictor; two
    predictors are evaluated.  They get the numbers 2 and 3, and 0 to 3 are merged. *)
Definition ny_rate := mkRC [0; qz 5] [1; 0] (Fin 0) PInf.
Definition ny_graph := w_graph (fold_left (fun n p => nw_add_edge n (fst p) (snd p) 1 1) [(1, 5); (4, 5); (5, 2); (5, 3)]%nat nw_empty).
Definition ny_nw := mkNw ny_graph [1; 1; 1; 1] [1; 1; 1; 1] [mkCom [(1%nat, ny_rate)] 2 0; mkCom [(1%nat, ny_rate)] 3 0; mkCom [(4%nat, ny_rate)] 2 0; mkCom [(4%nat, ny_rate)] 3 0].
Example ex_nguyen : match eval_commodities ny_nw 0 false (qz 5) [0; 1]%nat (fun l => l) with
  | Ok (nw', idx) => (length (w_com nw'), idx, merged_ids (length (w_com ny_nw))) = (4, [2; 3], [0; 1; 2; 3])%nat | Err _ => False end.
Proof. vm_compute. reflexivity. Qed.
