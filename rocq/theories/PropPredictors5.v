(** * C80-C84: the regression predictors and the generic batch_predict *)
From Verif Require Import Base Spec Arrays ArraysProofs PL PLProofs PLEval PLOps RC FRC FRCProofs FRCExact DynFlow DynRun DynEdge DynFlowProofs PropFlow PropFlow2 PropFlow3 PropPL Graph GraphSpec Dijkstra FlowBuilder Neighbors Predictors PredictorsProofs PredictorsProofs2 PropPredictors PropPredictors2 PropPredictors3 PropPredictors4 Predictors2.

(** ** Vocabulary *)
(** [f] takes the values [vs] at pt, pt+1, pt+2, ..., is linear in between,
    and constant before and after. *)
Definition grid (pt : Qc) (vs : list Qc) (f : PL) : Prop :=
  (forall t v, nth_error vs 0 = Some v -> t <= pt -> pl_eval f t = Ok v) /\
  (forall k v w x, nth_error vs k = Some v -> nth_error vs (S k) = Some w -> 0 <= x -> x <= 1 -> pl_eval f (pt + qn k + x) = Ok (v + x * (w - v))) /\
  (forall t v, nth_error vs (length vs - 1) = Some v -> pt + qn (length vs - 1) <= t -> pl_eval f t = Ok v).

(** ** Lemmas *)
Lemma grid_nth pt n k : (k < n)%nat -> nth_error (map (fun k => pt + qn k) (seq 0 n)) k = Some (pt + qn k).
Proof. intro H. rewrite (map_nth_error _ k (seq 0 n) (d := k)); [reflexivity|]. rewrite (nth_error_nth' _ 0%nat) by (rewrite seq_length; exact H). rewrite seq_nth by exact H. reflexivity. Qed.
Lemma qn_le a b : (a <= b)%nat -> qn a <= qn b.
Proof. intro H. induction H as [|b H IH]; [qlra|]. rewrite qn_S. qlra. Qed.
Lemma eps_small : 0 < eps /\ eps < 1.
Proof. split; apply qltb_true; vm_compute; reflexivity. Qed.
Lemma grid_sorted pt n : forall a, StronglySorted gap (map (fun k => pt + qn k) (seq a n)).
Proof.
  destruct eps_small as [E0 E1]. induction n as [|n IH]; intro a; cbn [seq map]; constructor; [apply IH|]. apply Forall_forall. intros x I. apply in_map_iff in I. destruct I as [k [<- I]]. apply in_seq in I.
  unfold gap. assert (qn (S a) <= qn k) by (apply qn_le; lia). rewrite qn_S in H. qlra.
Qed.
Lemma grid_of pt n vs f : pl_init (map (fun k => pt + qn k) (seq 0 n)) vs 0 0 NInf PInf = Ok f -> length vs = n /\ line f /\ grid pt vs f.
Proof.
  intro H. apply pl_init_line in H. destruct H as [E LF]. pose proof LF as [V _]. assert (LV : length vs = n). { pose proof (v_len _ V) as L. rewrite E in L. cbn [pl_times pl_values] in L. rewrite map_length, seq_length in L. exact L. }
  assert (ET : pl_times f = map (fun k => pt + qn k) (seq 0 n)) by (rewrite E; reflexivity). assert (EV : pl_values f = vs) by (rewrite E; reflexivity).
  assert (EF : pl_first f = 0) by (rewrite E; reflexivity). assert (EL : pl_last f = 0) by (rewrite E; reflexivity).
  assert (NZ : (0 < n)%nat). { pose proof (v_ne _ V) as N. rewrite E in N. cbn [pl_times] in N. destruct n; [contradiction N; reflexivity|lia]. }
  split; [exact LV|]. split; [exact LF|]. split; [|split].
  - intros t v N T. rewrite (line_eval f t LF). f_equal. destruct (at_interpolates f t V) as [A _]. rewrite ET, EV, EF in A.
    rewrite (A (pt + qn 0) v); [ring|apply grid_nth, NZ|exact N|]. rewrite qn_0. qlra.
  - intros k v w x N1 N2 X0 X1. rewrite (line_eval f _ LF). f_equal. assert (LK : (S k < n)%nat) by (rewrite <- LV; apply nth_error_Some; congruence). destruct (at_interpolates f (pt + qn k + x) V) as [_ [A _]]. rewrite ET, EV in A.
    rewrite (A k (pt + qn k) (pt + qn (S k)) v w); [|apply grid_nth; lia|apply grid_nth; lia|exact N1|exact N2| |]; rewrite ?qn_S; [|qlra|qlra].
    replace (pt + (qn k + 1) - (pt + qn k)) with 1 by ring. field. discriminate.
  - intros t v N T. rewrite (line_eval f _ LF). f_equal. destruct (at_interpolates f t V) as [_ [_ A]]. rewrite ET, EV, EL in A. rewrite map_length, seq_length in A. rewrite LV in N, T.
    rewrite (A (pt + qn (n - 1)) v); [ring|apply grid_nth; lia|exact N|exact T].
Qed.
Lemma grid_ok pt n vs : (0 < n)%nat -> length vs = n -> exists f, pl_init (map (fun k => pt + qn k) (seq 0 n)) vs 0 0 NInf PInf = Ok f.
Proof.
  intros NZ LV. rewrite line_init; [eauto|rewrite map_length, seq_length; exact LV| |apply grid_sorted]. destruct n; [lia|discriminate].
Qed.
Lemma unit_falls c n : forall a pt vs, (forall k v w, nth_error vs k = Some v -> nth_error vs (S k) = Some w -> v - c <= w) -> falls c (combine (map (fun k => pt + qn k) (seq a n)) vs).
Proof.
  induction n as [|n IH]; intros a pt vs H; [exact Logic.I|]. destruct vs as [|v vs]; [exact Logic.I|]. cbn [seq map combine]. destruct n as [|n]; [exact Logic.I|]. destruct vs as [|w vs]; [exact Logic.I|].
  specialize (IH (S a) pt (w :: vs) (fun k => H (S k))). cbn [seq map combine] in IH |- *. set (r := combine _ vs) in *. clearbody r.
  change (pt + qn a < pt + qn (S a) /\ v - c * (pt + qn (S a) - (pt + qn a)) <= w /\ falls c ((pt + qn (S a), w) :: r)). split; [rewrite qn_S; qlra|]. split; [|exact IH].
  specialize (H 0%nat v w eq_refl eq_refl). rewrite qn_S. replace (c * (pt + (qn a + 1) - (pt + qn a))) with c by ring. exact H.
Qed.
Lemma unit_good pt n vs f c cur : pl_init (map (fun k => pt + qn k) (seq 0 n)) vs 0 0 NInf PInf = Ok f -> 0 <= c -> (forall v, In v vs -> 0 <= v) ->
  (forall k v w, nth_error vs k = Some v -> nth_error vs (S k) = Some w -> v - c <= w) -> nth_error vs 0 = Some cur -> good_prediction pt cur c f.
Proof.
  intros H C P F N. destruct (grid_of _ _ _ _ H) as [LV [LF [G1 _]]]. apply pl_init_line in H. destruct H as [E _]. pose proof LF as [V _].
  assert (PT : forall x, In x (pl_times f) -> pt <= x). { rewrite E. cbn [pl_times]. intros x I. apply in_map_iff in I. destruct I as [k [<- _]]. pose proof (qn_nonneg k). qlra. }
  split; [exact LF|]. split; [exact PT|]. split; [intros t T; apply (G1 t cur N T)|]. split.
  - intro t. exists (pl_at f t). split; [apply line_eval, LF|]. destruct (Qclt_le_dec t pt) as [Q|Q].
    + specialize (G1 t cur N ltac:(qlra)). rewrite (line_eval f t LF) in G1. apply ok_inj in G1. rewrite G1. apply P, (nth_error_In _ _ N).
    + destruct vs as [|v vs]; [discriminate N|]. destruct n as [|n]; [discriminate LV|].
      assert (SO : StronglySorted (fun x y => fst x < fst y) (PLProofs.pts f)).
      { pose proof (v_gap _ V) as G. unfold PLProofs.pts. destruct eps_small as [E0 _]. clear -G E0. revert G. generalize (pl_values f). induction (pl_times f) as [|x l IH]; intros ws G; [constructor|].
        destruct ws as [|w ws]; [constructor|]. inversion G as [|? ? G1 G2]; subst. cbn [combine]. constructor; [apply IH, G1|]. apply Forall_forall. intros [y u] I. apply in_combine_l in I.
        rewrite Forall_forall in G2. specialize (G2 y I). unfold gap in G2. cbn [fst]. qlra. }
      rewrite E in SO |- *. unfold pl_at, PLProofs.pts in *. cbn [pl_times pl_values pl_first pl_last seq map combine] in *.
      apply interp_nonneg; [qlra| |exact SO|rewrite qn_0; qlra]. intros u y [I|I]; [injection I as _ <-; apply P; left; reflexivity|]. apply in_combine_r in I. apply P. right. exact I.
  - intros s t ST. exists (pl_at f s), (pl_at f t). split; [apply line_eval, LF|]. split; [apply line_eval, LF|]. rewrite E. unfold pl_at, PLProofs.pts. cbn [pl_times pl_values pl_first pl_last].
    apply interp_falls; [exact C|qlra|apply unit_falls, F|qlra|exact ST].
Qed.

(** ** C80: the Tokyo predictor *)
(** The values at pt, pt+1, ..., pt+9 for the past queues s 0, ..., s 4. *)
Definition tokyo_value (s : nat -> Qc) (j : nat) : Qc :=
  match j with
  | 0%nat => s 0%nat | 1%nat => s 0%nat + qr 268 100 | 2%nat => qr 101 100 * s 0%nat + qr 536 100 | 3%nat => qr 101 100 * s 0%nat + qr 847 100
  | 4%nat => qr 102 100 * s 0%nat + qr 1167 100 | _ => qr 102 100 * s (9 - j)%nat + qr 1467 100
  end.
(** [s k] is the (non-negative part of the) queue [k] time units before [pt]. *)
Definition past_samples (q : PL) (pt : Qc) (s : nat -> Qc) : Prop := forall k, (k <= 4)%nat -> exists v, pl_eval q (pt - qn k) = Ok v /\ s k = qmax 0 v.
Definition past_of (q : PL) (pt : Qc) (k : nat) : Qc := qmax 0 (pl_at q (pt - qn k)).
Lemma past_of_samples q pt : line q -> past_samples q pt (past_of q pt).
Proof. intros L k _. exists (pl_at q (pt - qn k)). split; [apply line_eval, L|reflexivity]. Qed.
Lemma tokyo_edge_eq t z q : line q -> tokyo_edge t z q =
  let s := past_of q t in
  if qeqb (qmax (qmax (qmax (qmax (s 0%nat) (s 1%nat)) (s 2%nat)) (s 3%nat)) (s 4%nat)) 0 then Ok z
  else pl_init (map (fun k => t + qn k) (seq 0 10)) (map (tokyo_value s) (seq 0 10)) 0 0 NInf PInf.
Proof.
  intro L. unfold tokyo_edge, past_queue. rewrite !(line_eval q _ L). cbn [bind]. unfold past_of.
  cbn [seq map tokyo_value Nat.sub]. replace (t - qn 0) with t by (rewrite qn_0; ring). replace (t + qn 0) with t by (rewrite qn_0; ring). reflexivity.
Qed.
Lemma sum_ge vs v : (forall x, In x vs -> 0 <= x) -> In v vs -> v <= fold_right Qcplus 0 vs.
Proof.
  intros P I. induction vs as [|x vs IH]; [contradiction I|]. cbn [fold_right]. assert (P' : forall y, In y vs -> 0 <= y) by (intros; apply P; right; assumption).
  assert (0 <= fold_right Qcplus 0 vs). { clear -P'. induction vs as [|y vs IH]; cbn [fold_right]; [qlra|]. pose proof (P' y (or_introl eq_refl)). specialize (IH (fun z I => P' z (or_intror I))). qlra. }
  pose proof (P x (or_introl eq_refl)). destruct I as [->|I]; [|specialize (IH P' I)]; qlra.
Qed.
Lemma unit_nonneg pt n vs f t : pl_init (map (fun k => pt + qn k) (seq 0 n)) vs 0 0 NInf PInf = Ok f -> (forall v, In v vs -> 0 <= v) -> exists y, pl_eval f t = Ok y /\ 0 <= y.
Proof.
  intros H P. destruct (grid_of _ _ _ _ H) as [LV _]. destruct vs as [|v vs].
  { exfalso. cbn in LV. subst n. apply pl_init_line in H. destruct H as [E [V _]]. pose proof (v_ne _ V) as N. rewrite E in N. apply N. reflexivity. }
  refine (proj1 (proj2 (proj2 (proj2 (unit_good pt n (v :: vs) f (fold_right Qcplus 0 (v :: vs)) v H _ P _ eq_refl)))) t).
  - pose proof (sum_ge _ _ P (or_introl eq_refl)). pose proof (P v (or_introl eq_refl)). qlra.
  - intros k a b A B. pose proof (sum_ge _ _ P (nth_error_In _ _ A)). pose proof (P b (nth_error_In _ _ B)). qlra.
Qed.
Lemma max5_zero a b c d e : 0 <= a -> 0 <= b -> 0 <= c -> 0 <= d -> 0 <= e -> qmax (qmax (qmax (qmax a b) c) d) e = 0 -> a = 0 /\ b = 0 /\ c = 0 /\ d = 0 /\ e = 0.
Proof. intros. qmm; repeat split; qlra. Qed.
Lemma past_of_nonneg q pt k : 0 <= past_of q pt k.
Proof. apply qmax_nonneg. Qed.
Lemma tokyo_nonneg s : (forall k, 0 <= s k) -> forall v, In v (map (tokyo_value s) (seq 0 10)) -> 0 <= v.
Proof.
  intros P v I. apply in_map_iff in I. destruct I as [j [<- _]].
  assert (M : forall c x, 0 <= c -> 0 <= s x -> 0 <= c * s x) by (intros; qnra).
  assert (B1 : 0 <= qr 101 100) by (apply qleb_true; vm_compute; reflexivity). assert (B2 : 0 <= qr 102 100) by (apply qleb_true; vm_compute; reflexivity).
  assert (B3 : 0 <= qr 268 100) by (apply qleb_true; vm_compute; reflexivity). assert (B4 : 0 <= qr 536 100) by (apply qleb_true; vm_compute; reflexivity).
  assert (B5 : 0 <= qr 847 100) by (apply qleb_true; vm_compute; reflexivity). assert (B6 : 0 <= qr 1167 100) by (apply qleb_true; vm_compute; reflexivity). assert (B7 : 0 <= qr 1467 100) by (apply qleb_true; vm_compute; reflexivity).
  assert (Q : forall c x d, 0 <= c -> 0 <= d -> 0 <= c * s x + d). { intros c x d C D. pose proof (M c x C (P x)). set (y := c * s x) in *. clearbody y. qlra. }
  unfold tokyo_value. destruct j as [|[|[|[|[|j]]]]]; auto. pose proof (P 0%nat). qlra.
Qed.

Theorem C80_tokyo : forall pt st, lines st -> exists preds, tokyo_predict pt st = Ok preds /\ length preds = length (f_q st) /\
  forall e q, nth_error (f_q st) e = Some q -> exists p s, nth_error preds e = Some p /\ past_samples q pt s /\
    ((forall k, (k <= 4)%nat -> s k = 0) -> forall t, pl_eval p t = Ok 0) /\
    ((exists k, (k <= 4)%nat /\ s k <> 0) -> grid pt (map (tokyo_value s) (seq 0 10)) p) /\
    (forall t, exists y, pl_eval p t = Ok y /\ 0 <= y).
Proof.
  intros pt st LN. unfold tokyo_predict. rewrite one_init. cbn [bind]. set (z := mkPL [pt] [0] 0 0 NInf PInf).
  destruct (mapM_total (tokyo_edge pt z) (f_q st)) as [r R].
  { intros q I. rewrite (tokyo_edge_eq pt z q (LN q I)). cbv zeta. destruct (qeqb _ 0); [eauto|]. apply grid_ok; [lia|reflexivity]. }
  exists r. split; [exact R|]. destruct (mapM_spec _ _ _ R) as [L N]. split; [exact L|]. intros e q E. destruct (N e q E) as [p [P H]]. exists p, (past_of q pt). split; [exact P|].
  pose proof (LN q (nth_error_In _ _ E)) as LQ. split; [apply past_of_samples, LQ|]. rewrite (tokyo_edge_eq pt z q LQ) in H. cbv zeta in H.
  assert (ZE : forall t, pl_eval z t = Ok 0) by (intro t; unfold z; rewrite (line_eval _ t (one_line _ _ _ _)), one_at; reflexivity).
  destruct (qeqbP (qmax (qmax (qmax (qmax (past_of q pt 0) (past_of q pt 1)) (past_of q pt 2)) (past_of q pt 3)) (past_of q pt 4)) 0) as [M|M].
  - apply ok_inj in H. subst p. split; [auto|]. split; [|intro t; exists 0; split; [apply ZE|qlra]]. intros [k [K NZ]]. exfalso. apply NZ.
    apply max5_zero in M; auto using past_of_nonneg. destruct M as (M0 & M1 & M2 & M3 & M4). destruct k as [|[|[|[|[|k]]]]]; auto; lia.
  - split; [|split].
    + intros A. exfalso. apply M. rewrite !A by lia. reflexivity.
    + intros _. apply (grid_of pt 10 _ p H).
    + intro t. apply (unit_nonneg _ _ _ _ _ H). apply tokyo_nonneg. intro k. apply past_of_nonneg.
Qed.
Print Assumptions C80_tokyo.

(** It is a prediction routing can work with (C67) if the queue has not been
    changing fast compared to the capacity. *)
Theorem C80_admissible_partial : forall pt st preds e q s cap, lines st -> tokyo_predict pt st = Ok preds -> nth_error (f_q st) e = Some q -> past_samples q pt s -> 0 <= cap ->
  qr 102 100 * (s 0%nat - s 4%nat) <= qz 3 + cap -> (forall k, (k < 4)%nat -> qr 102 100 * (s (S k) - s k) <= cap) ->
  exists p, nth_error preds e = Some p /\ good_prediction pt (s 0%nat) cap p.
Proof.
  intros pt st preds e q s cap LN R E PS CP D1 D2. unfold tokyo_predict in R. rewrite one_init in R. cbn [bind] in R. set (z := mkPL [pt] [0] 0 0 NInf PInf) in *.
  destruct (mapM_spec _ _ _ R) as [L N]. destruct (N e q E) as [p [P H]]. exists p. split; [exact P|]. pose proof (LN q (nth_error_In _ _ E)) as LQ.
  assert (SE : forall k, (k <= 4)%nat -> s k = past_of q pt k). { intros k K. destruct (PS k K) as [v [V ->]]. rewrite (line_eval q _ LQ) in V. apply ok_inj in V. rewrite <- V. reflexivity. }
  rewrite (tokyo_edge_eq pt z q LQ) in H. cbv zeta in H. rewrite <- !SE in H by lia.
  destruct (qeqbP (qmax (qmax (qmax (qmax (s 0%nat) (s 1%nat)) (s 2%nat)) (s 3%nat)) (s 4%nat)) 0) as [M|M].
  - apply ok_inj in H. subst p. rewrite !SE in M by lia. apply max5_zero in M; auto using past_of_nonneg. rewrite SE by lia. destruct M as [-> _]. apply good_const; [qlra|exact CP].
  - assert (SN : forall k, (k <= 4)%nat -> 0 <= s k) by (intros k K; rewrite SE by exact K; apply past_of_nonneg).
    replace (map (tokyo_value (past_of q pt)) (seq 0 10)) with (map (tokyo_value s) (seq 0 10)) in H by (cbn [seq map tokyo_value Nat.sub]; rewrite !SE by lia; reflexivity).
    apply (unit_good pt 10 (map (tokyo_value s) (seq 0 10)) p cap (s 0%nat) H CP); [| |reflexivity].
    + intros v I. apply (tokyo_nonneg (past_of q pt)); [intro; apply past_of_nonneg|]. replace (map (tokyo_value (past_of q pt)) (seq 0 10)) with (map (tokyo_value s) (seq 0 10)); [exact I|]. cbn [seq map tokyo_value Nat.sub]. rewrite !SE by lia. reflexivity.
    + pose proof (SN 0%nat ltac:(lia)) as S0. unfold qr, qz, inject_Z in *.
      pose proof (D2 0%nat ltac:(lia)) as E0. pose proof (D2 1%nat ltac:(lia)) as E1. pose proof (D2 2%nat ltac:(lia)) as E2. pose proof (D2 3%nat ltac:(lia)) as E3. clear D2 SE SN PS R N H M.
      intros k v w V W. do 9 (destruct k as [|k]; [cbn [seq map tokyo_value Nat.sub nth_error] in V, W; injection V as <-; injection W as <-; unfold qr; qlra|]). destruct k; cbn in W; discriminate W.
Qed.
Print Assumptions C80_admissible_partial.

(** In general it is not: capacity 1, inflow 20 from time 0 on.  At time 4 the
    queue is 76; someone entering the edge at time 9 is predicted to leave the
    queue more than 70 time units before someone entering at time 8. *)
Definition tk_net : Net := mkNet [1] [qz 10].
Definition tk_calls : list call := [CExtend [(0%nat, [(0%nat, qz 20)])] (qz 4)].
Definition check_tk : bool :=
  match flow_run false tk_net tk_calls, flow_run true tk_net tk_calls with
  | Ok st, Ok _ => (qeqb (f_phi st) (qz 4) &&
      match (l <- tokyo_predict (qz 4) st ;; f <- fetch l 0 ;; a <- pl_eval f (qz 8) ;; b <- pl_eval f (qz 9) ;; Ok (a, b)) with Ok (a, b) => qltb (qz 9 + b + qz 70) (qz 8 + a) | Err _ => false end)%bool
  | _, _ => false
  end.
Theorem C80_fifo_refuted : exists st preds f a b, flow_run false tk_net tk_calls = Ok st /\ clean_run tk_net tk_calls /\ f_phi st = qz 4 /\ tokyo_predict (qz 4) st = Ok preds /\
  nth_error preds 0 = Some f /\ pl_eval f (qz 8) = Ok a /\ pl_eval f (qz 9) = Ok b /\ qz 9 + b / 1 + qz 70 < qz 8 + a / 1.
Proof.
  assert (K : check_tk = true) by (vm_compute; reflexivity). unfold check_tk in K. unfold clean_run.
  destruct (flow_run false tk_net tk_calls) as [st|] eqn:R; [|discriminate K]. destruct (flow_run true tk_net tk_calls) as [st'|] eqn:R'; [|discriminate K]. clear R R'. exists st.
  apply andb_prop in K. destruct K as [K1 K]. destruct (tokyo_predict (qz 4) st) as [l|] eqn:T; [|discriminate K]. cbn [bind] in K. unfold fetch in K. destruct (nth_error l 0) as [f|] eqn:F; [|discriminate K]. cbn [bind] in K.
  destruct (pl_eval f (qz 8)) as [a|] eqn:A; [|discriminate K]. cbn [bind] in K. destruct (pl_eval f (qz 9)) as [b|] eqn:B; [|discriminate K]. cbn [bind] in K.
  exists l, f, a, b. rewrite F, A, B. repeat (split; [reflexivity || discriminate || (apply qeqb_true; exact K1)|]). apply qltb_true in K. replace (a / 1) with a by (field; discriminate). replace (b / 1) with b by (field; discriminate). exact K.
Qed.
Print Assumptions C80_fifo_refuted.

(** ** C81: the per-edge regression predictor *)
(** Everything the model is given is read at times [pt, pt + 1, ..., pt + past - 1]: *)
Lemma reg_input_times_ge past pt t : In t (reg_input_times past pt) -> exists k, (k < past)%nat /\ t = pt + qn k.
Proof.
  unfold reg_input_times. rewrite in_map_iff. intros [k [<- I]]. apply in_seq in I. exists (past - 1 - k)%nat. split; [lia|]. rewrite <- qz_of_nat.
  replace (Z.of_nat (past - 1 - k)) with (Z.of_nat past - 1 - Z.of_nat k)%Z by lia. rewrite !qz_sub. ring.
Qed.
(** the queues of two flows agree from [pt] on *)
Definition agree_from (pt : Qc) (a b : list PL) : Prop :=
  length a = length b /\ forall e q q' t, nth_error a e = Some q -> nth_error b e = Some q' -> pt <= t -> pl_eval q t = pl_eval q' t.
Definition agree_until (pt : Qc) (a b : list PL) : Prop :=
  length a = length b /\ forall e q q' t, nth_error a e = Some q -> nth_error b e = Some q' -> t <= pt -> pl_eval q t = pl_eval q' t.
Lemma agree_fetch pt a b e t : agree_from pt a b -> pt <= t -> (q <- fetch a e ;; pl_eval q t) = (q <- fetch b e ;; pl_eval q t).
Proof.
  intros [L H] T. unfold fetch. destruct (nth_error a e) as [q|] eqn:A; destruct (nth_error b e) as [q'|] eqn:B; cbn [bind].
  - apply (H e q q' t A B T).
  - apply nth_error_None in B. assert (e < length a)%nat by (apply nth_error_Some; congruence). lia.
  - apply nth_error_None in A. assert (e < length b)%nat by (apply nth_error_Some; congruence). lia.
  - reflexivity.
Qed.
Lemma samples_agree g pt a b times es : agree_from pt a b -> (forall t, In t times -> pt <= t) -> queue_samples g a times es = queue_samples g b times es.
Proof.
  intros A T. unfold queue_samples. f_equal. apply mapM_ext_in. intros t I. apply mapM_ext_in. intros e _. apply (agree_fetch pt); auto.
Qed.
(** Hence the prediction does not depend on the past at all, ... *)
Theorem C81_ignores_history : forall models past future average nw pt st st', agree_from pt (f_q st) (f_q st') ->
  per_edge_predict models past future average nw pt st = per_edge_predict models past future average nw pt st'.
Proof.
  intros models past future average nw pt st st' A. unfold per_edge_predict. destruct A as [L A']. rewrite L. destruct (assertb _); [cbn [bind]|reflexivity]. apply mapM_ext_in. intros e _. unfold per_edge_one, reg_inputs.
  assert (T : forall t, In t (reg_input_times past pt) -> pt <= t). { intros t I. apply reg_input_times_ge in I. destruct I as [k [_ ->]]. pose proof (qn_nonneg k). qlra. }
  rewrite !(samples_agree (w_graph nw) pt (f_q st) (f_q st') (reg_input_times past pt)) by (auto; split; assumption).
  assert (AF : agree_from pt (f_q st) (f_q st')) by (split; assumption).
  pose proof (agree_fetch pt (f_q st) (f_q st') (e_id (w_graph nw) e) pt AF ltac:(qlra)) as FE.
  destruct (queue_samples (w_graph nw) (f_q st') (reg_input_times past pt) (incoming _ _)); [|reflexivity]. cbn [bind].
  destruct (queue_samples (w_graph nw) (f_q st') (reg_input_times past pt) (outgoing _ _)); [|reflexivity]. cbn [bind].
  destruct (queue_samples (w_graph nw) (f_q st') (reg_input_times past pt) [e]); [|reflexivity]. cbn [bind].
  destruct (fetch (f_q st) (e_id (w_graph nw) e)) as [q|x], (fetch (f_q st') (e_id (w_graph nw) e)) as [q'|x']; cbn [bind] in FE |- *; [rewrite FE; reflexivity|rewrite FE; reflexivity|rewrite <- FE; reflexivity|congruence].
Qed.
Print Assumptions C81_ignores_history.

(** [simplify] never leaves the points of the function (see C09 for when it is the same function). *)
Lemma simplify_points f p : valid f -> simplify f = Ok p ->
  pl_values p = map (pl_at f) (pl_times p) /\ (exists r, pl_times p = tm f 0 :: r) /\ pl_first p = pl_first f /\ pl_last p = pl_last f.
Proof.
  intros V S. assert (Hp := len_pos f V). destruct (simplify_fold f V (length (pl_times f) - 1)) as [acc [E [I1 I2 I3 I4 I5 [j [r [Hj [Hr Hh]]]]]]]. { unfold pl_len, zlen in *. lia. }
  unfold simplify in S. rewrite get_tm, get_vl in S by (auto; lia). cbn [bind] in S. fold (sbody f) in S. rewrite E in S. cbn [bind] in S.
  apply pl_init_inv in S. destruct S as [-> _]. cbn [pl_times pl_values pl_first pl_last]. split; [rewrite I1, map_rev; reflexivity|]. split; [|split; reflexivity].
  assert (NE : fst acc <> []) by (rewrite Hr; discriminate). destruct (exists_last NE) as [l' [a El]]. rewrite El in I5 |- *. rewrite last_last in I5. rewrite rev_app_distr. cbn [rev app]. rewrite I5. eauto.
Qed.
Lemma sorted_falls c h ts : (forall a b, a <= b -> h a - c * (b - a) <= h b) -> StronglySorted gap ts -> falls c (combine ts (map h ts)).
Proof.
  intros H S. induction ts as [|a ts IH]; [exact Logic.I|]. inversion S as [|? ? S1 S2]; subst. specialize (IH S1). destruct ts as [|b ts]; [exact Logic.I|].
  cbn [map combine] in IH |- *. inversion S2 as [|? ? G _]; subst. unfold gap in G. destruct eps_small as [E0 _].
  change (a < b /\ h a - c * (b - a) <= h b /\ falls c ((b, h b) :: combine ts (map h ts))). split; [qlra|]. split; [apply H; qlra|exact IH].
Qed.
Lemma gap_fst (h : Qc -> Qc) ts : StronglySorted gap ts -> StronglySorted (fun x y : Qc * Qc => fst x < fst y) (combine ts (map h ts)).
Proof.
  induction 1 as [|a ts S IH F]; [constructor|]. cbn [map combine]. constructor; [exact IH|]. apply Forall_forall. intros [y u] I. apply in_combine_l in I.
  rewrite Forall_forall in F. specialize (F y I). unfold gap in F. destruct eps_small as [E0 _]. cbn [fst]. qlra.
Qed.
Lemma simplify_good pt cur c f p : good_prediction pt cur c f -> 0 <= c -> pl_first f = 0 -> pl_last f = 0 -> simplify f = Ok p -> good_prediction pt cur c p.
Proof.
  intros [LF [T [A1 [A2 A3]]]] C F0 L0 S. pose proof LF as [V _]. destruct (simplify_points f p V S) as [PV [[r PT] [PF PL]]].
  destruct (simplify_ok f V) as [p' [S' [Vp [Lo [Hi [SUB _]]]]]]. rewrite S in S'. apply ok_inj in S'. subst p'.
  assert (LP : line p). { destruct LF as [_ [L1 L2]]. split; [exact Vp|]. split; congruence. }
  assert (TP : forall x, In x (pl_times p) -> pt <= x) by (intros x I; apply T, SUB, I).
  assert (H1 : forall t, pl_eval f t = Ok (pl_at f t)) by (intro t; apply line_eval, LF).
  assert (NN : forall t, 0 <= pl_at f t). { intro t. destruct (A2 t) as [y [Y Y0]]. rewrite H1 in Y. apply ok_inj in Y. rewrite Y. exact Y0. }
  assert (FA : forall a b, a <= b -> pl_at f a - c * (b - a) <= pl_at f b). { intros a b AB. destruct (A3 a b AB) as [x [y [X [Y Q]]]]. rewrite H1 in X, Y. apply ok_inj in X, Y. rewrite X, Y. exact Q. }
  pose proof (v_gap _ Vp) as SG. assert (P0 : pt <= tm f 0) by (apply TP; rewrite PT; left; reflexivity).
  assert (C0 : pl_at f (tm f 0) = cur). { specialize (A1 pt ltac:(qlra)). rewrite H1 in A1. apply ok_inj in A1. rewrite <- A1. rewrite (at_left f pt V P0), (at_tm f 0 V), F0; [ring|]. pose proof (len_pos f V). lia. }
  assert (EP : forall t, pl_at p t = interp 0 0 (combine (pl_times p) (map (pl_at f) (pl_times p))) t) by (intro t; unfold pl_at at 1; unfold PLProofs.pts at 1; rewrite PV, PF, PL, F0, L0; reflexivity).
  assert (LEFT : forall t, t <= tm f 0 -> pl_at p t = cur). { intros t Q. rewrite EP, PT. cbn [map combine interp]. destruct (qlebP t (tm f 0)) as [_|N]; [|contradiction]. rewrite C0. ring. }
  split; [exact LP|]. split; [exact TP|]. split; [|split].
  - intros t Q. rewrite (line_eval p t LP), LEFT by qlra. reflexivity.
  - intro t. exists (pl_at p t). split; [apply line_eval, LP|]. destruct (Qclt_le_dec t (tm f 0)) as [Q|Q]; [rewrite LEFT by qlra; rewrite <- C0; apply NN|].
    rewrite EP. pose proof (gap_fst (pl_at f) _ SG) as SO. rewrite PT in SO |- *. cbn [map combine] in SO |- *. apply interp_nonneg; [qlra| |exact SO|exact Q].
    intros u y [I|I]; [injection I as _ <-; apply NN|]. apply in_combine_r, in_map_iff in I. destruct I as [z [<- _]]. apply NN.
  - intros a b AB. exists (pl_at p a), (pl_at p b). split; [apply line_eval, LP|]. split; [apply line_eval, LP|]. rewrite !EP. apply interp_falls; [exact C|qlra|apply sorted_falls; [exact FA|exact SG]|qlra|exact AB].
Qed.

(** The values before [simplify]: for [average = false] the smallest ones that
    start at [cur], are at least max(0, out) and fall by at most [cap] per step
    ([tight], PropPredictors2.v); for [average = true], [out] are the averages
    of consecutive values as far as possible. *)
Fixpoint averaged (cap cur : Qc) (out vs : list Qc) : Prop :=
  match out, vs with
  | [], [] => True
  | x :: out', y :: vs' =>
      (y = qz 2 * x - cur \/ (y = cur - cap /\ qz 2 * x - cur <= y) \/ (y = 0 /\ qz 2 * x - cur <= 0)) /\ cur - cap <= y /\ 0 <= y /\ averaged cap y out' vs'
  | _, _ => False
  end.
Lemma reg_values_length a cap l : forall p, length (reg_values a cap p l) = length l.
Proof. induction l; intro p; cbn [reg_values length]; auto. Qed.
Lemma reg_values_nonneg a cap l : forall p v, In v (reg_values a cap p l) -> 0 <= v.
Proof. induction l as [|x l IH]; intros p v; cbn [reg_values]; [intros []|]. intros [<-|I]; [|apply (IH _ _ I)]. qmm; qlra. Qed.
Lemma reg_values_falls a cap l : forall p k v w, nth_error (p :: reg_values a cap p l) k = Some v -> nth_error (p :: reg_values a cap p l) (S k) = Some w -> v - cap <= w.
Proof.
  induction l as [|x l IH]; intros p k v w V W; [destruct k; discriminate W|]. destruct k as [|k].
  - cbn [reg_values nth_error] in V, W. injection V as <-. injection W as <-. qmm; qlra.
  - cbn [reg_values] in V, W. apply (IH _ k v w V W).
Qed.
Lemma reg_values_clamp cap l : 0 <= cap -> forall p, 0 <= p -> reg_values false cap p l = clamp cap p (positive_part l).
Proof.
  intro C. induction l as [|x l IH]; intros p P; [reflexivity|]. cbn [reg_values positive_part map clamp]. cbv zeta.
  assert (E : qmax (qmax x (p - cap)) 0 = qmax (qmax 0 x) (p - cap)) by (qmm; qlra). rewrite E. f_equal. apply IH. qmm; qlra.
Qed.
Lemma reg_values_averaged cap l : forall p, averaged cap p l (reg_values true cap p l).
Proof.
  induction l as [|x l IH]; intro p; [exact Logic.I|]. cbn [reg_values averaged]. cbv zeta. set (u := qz 2 * x - p). split; [|split; [|split; [|apply IH]]].
  - destruct (qmax_spec u (p - cap)) as [[X ->]|[X ->]].
    + destruct (qmax_spec (p - cap) 0) as [[Y ->]|[Y ->]]; right; [right|left]; split; reflexivity || qlra.
    + destruct (qmax_spec u 0) as [[Y ->]|[Y ->]]; [right; right; split; reflexivity || qlra|left; reflexivity].
  - qmm; qlra.
  - qmm; qlra.
Qed.

(** [row] is what is read: the queues of the edges [es] at times pt + past - 1, ..., pt + 1, pt. *)
Definition reads (g : graph) (queues : list PL) (past : nat) (pt : Qc) (es : list nat) (row : list Qc) : Prop :=
  map Ok row = flat_map (fun k => map (fun r => q <- fetch queues (e_id g r) ;; pl_eval q (pt + qn (past - 1 - k))) es) (seq 0 past).
Lemma mapM_Ok {A B} (f : A -> res B) l r : mapM f l = Ok r -> map Ok r = map f l.
Proof.
  revert r. induction l as [|x l IH]; intros r H; cbn [mapM] in H; [injection H as <-; reflexivity|]. apply bind_ok in H. destruct H as [y [Y H]]. apply bind_ok in H. destruct H as [ys [YS H]]. injection H as <-. cbn [map]. rewrite Y, (IH ys YS). reflexivity.
Qed.
Lemma reg_input_times_eq past pt : reg_input_times past pt = map (fun k => pt + qn (past - 1 - k)) (seq 0 past).
Proof.
  unfold reg_input_times. apply map_ext_in. intros k I. apply in_seq in I. rewrite <- qz_of_nat. replace (Z.of_nat (past - 1 - k)) with (Z.of_nat past - 1 - Z.of_nat k)%Z by lia. rewrite !qz_sub. ring.
Qed.
Lemma queue_samples_reads g queues past pt es row : queue_samples g queues (reg_input_times past pt) es = Ok row -> reads g queues past pt es row.
Proof.
  unfold queue_samples, reads. intro H. apply bind_ok in H. destruct H as [rows [R H]]. apply ok_inj in H. subst row. rewrite concat_map, flat_map_concat_map. f_equal.
  apply mapM_Ok in R. rewrite reg_input_times_eq, map_map in R. clear -R. revert rows R. generalize (seq 0 past). intro l. induction l as [|k l IH]; intros [|row rows] R; try discriminate R; [reflexivity|].
  cbn [map] in R |- *. injection R as R1 R2. symmetry in R1. apply mapM_Ok in R1. rewrite R1, (IH rows R2). reflexivity.
Qed.
Lemma per_edge_inv models past future average nw pt queues r p : per_edge_one models past future average nw pt queues r = Ok p ->
  exists a b c q cur cap f, let g := w_graph nw in
    reads g queues past pt (incoming g (e_from g r)) a /\ reads g queues past pt (outgoing g (e_to g r)) b /\ reads g queues past pt [r] c /\
    nth_error queues (e_id g r) = Some q /\ pl_eval q pt = Ok cur /\ nth_error (w_cap nw) (e_id g r) = Some cap /\
    pl_init (map (fun k => pt + qn k) (seq 0 (S future))) (cur :: reg_values average cap cur (models (e_id g r) (a ++ b ++ c))) 0 0 NInf PInf = Ok f /\ simplify f = Ok p.
Proof.
  unfold per_edge_one, reg_inputs. intro H. apply bind_ok in H. destruct H as [row [R H]]. apply bind_ok in R. destruct R as [a [A R]]. apply bind_ok in R. destruct R as [b [B R]]. apply bind_ok in R. destruct R as [c [Cc R]]. apply ok_inj in R. subst row.
  apply bind_ok in H. destruct H as [q [Q H]]. apply bind_ok in H. destruct H as [cur [CU H]]. apply bind_ok in H. destruct H as [cap [CA H]]. apply bind_ok in H. destruct H as [f [F H]].
  exists a, b, c, q, cur, cap, f. apply queue_samples_reads in A, B, Cc. unfold fetch in Q, CA. destruct (nth_error queues (e_id (w_graph nw) r)) as [q'|]; [|discriminate Q]. injection Q as ->. destruct (nth_error (w_cap nw) (e_id (w_graph nw) r)) as [cap'|]; [|discriminate CA]. apply ok_inj in CA. subst cap'. cbv zeta. auto 10.
Qed.
Lemma sim_nth {A B} (f : A -> res B) l r i a : mapM f l = Ok r -> nth_error l i = Some a -> exists b, nth_error r i = Some b /\ f a = Ok b.
Proof. intros H E. destruct (mapM_spec _ _ _ H) as [_ N]. apply (N i a E). Qed.

Theorem C81_per_edge : forall models past future average nw pt st preds, consistent (w_graph nw) -> per_edge_predict models past future average nw pt st = Ok preds ->
  length preds = length (g_edges (w_graph nw)) /\ length (f_q st) = length (g_edges (w_graph nw)) /\
  forall i q cur cap, (i < length (g_edges (w_graph nw)))%nat -> nth_error (f_q st) i = Some q -> pl_eval q pt = Ok cur -> 0 <= cur -> nth_error (w_cap nw) i = Some cap -> 0 <= cap ->
    exists p, nth_error preds i = Some p /\ good_prediction pt cur cap p.
Proof.
  intros models past future average nw pt st preds CS H. unfold per_edge_predict in H. apply bind_ok in H. destruct H as [u [LE H]]. apply assertb_ok, Nat.eqb_eq in LE. destruct (mapM_spec _ _ _ H) as [L _]. split; [exact L|]. split; [auto|].
  intros i q cur cap I Q CU C0 CA CP. destruct (nth_error (g_edges (w_graph nw)) i) as [r|] eqn:R; [|apply nth_error_None in R; lia].
  destruct (sim_nth _ _ _ _ _ H R) as [p [P E]]. exists p. split; [exact P|]. apply per_edge_inv in E. destruct E as (a & b & c & q' & cur' & cap' & f & E). cbv zeta in E. destruct E as (_ & _ & _ & Q' & CU' & CA' & F & S).
  rewrite (cs_ids _ CS i r R) in Q', CA', F. rewrite Q in Q'. injection Q' as <-. rewrite CU in CU'. apply ok_inj in CU'. subst cur'. rewrite CA in CA'. injection CA' as <-.
  pose proof (pl_init_line _ _ _ _ _ F) as [FE _]. apply (simplify_good pt cur cap f p); auto; [|rewrite FE; reflexivity|rewrite FE; reflexivity].
  apply (unit_good _ _ _ _ _ cur F CP); [|apply reg_values_falls|reflexivity]. intros v [<-|IV]; [exact C0|]. apply (reg_values_nonneg _ _ _ _ _ IV).
Qed.
Print Assumptions C81_per_edge.

(** What is predicted, in terms of the model's answer to what it reads; exact
    unless [simplify] merges slopes that differ by less than 1000 eps (C09). *)
Theorem C81_values_partial : forall models past future average nw pt st preds i r q cur cap, consistent (w_graph nw) -> per_edge_predict models past future average nw pt st = Ok preds ->
  nth_error (g_edges (w_graph nw)) i = Some r -> nth_error (f_q st) i = Some q -> pl_eval q pt = Ok cur -> 0 <= cur -> nth_error (w_cap nw) i = Some cap -> 0 <= cap ->
  let g := w_graph nw in
  exists p f a b c, nth_error preds i = Some p /\
    reads g (f_q st) past pt (incoming g (e_from g r)) a /\ reads g (f_q st) past pt (outgoing g (e_to g r)) b /\ reads g (f_q st) past pt [r] c /\
    let out := models i (a ++ b ++ c) in
    length out = future /\ (slopes_clear f -> same_fun p f) /\
    (average = false -> tight pt cur 1 cap out f) /\
    (average = true -> exists vs, averaged cap cur out vs /\ grid pt (cur :: vs) f).
Proof.
  intros models past future average nw pt st preds i r q cur cap CS H R Q CU C0 CA CP g. unfold per_edge_predict in H. apply bind_ok in H. destruct H as [u [LE H]]. apply assertb_ok, Nat.eqb_eq in LE.
  destruct (sim_nth _ _ _ _ _ H R) as [p [P E]]. apply per_edge_inv in E. destruct E as (a & b & c & q' & cur' & cap' & f & E). cbv zeta in E. destruct E as (A & B & Cc & Q' & CU' & CA' & F & S).
  rewrite (cs_ids _ CS i r R) in Q', CA', F. rewrite Q in Q'. injection Q' as <-. rewrite CU in CU'. apply ok_inj in CU'. subst cur'. rewrite CA in CA'. injection CA' as <-.
  exists p, f, a, b, c. split; [exact P|]. split; [exact A|]. split; [exact B|]. split; [exact Cc|]. set (out := models i (a ++ b ++ c)) in *. cbv zeta.
  destruct (grid_of _ _ _ _ F) as [LN [LF G]]. cbn [length] in LN. rewrite reg_values_length in LN. split; [lia|]. split; [|split].
  - intros SC. destruct (C09_simplify_partial f (proj1 LF)) as (p' & S' & _ & _ & X). rewrite S in S'. apply ok_inj in S'. subst p'. intro t. apply X, SC.
  - intros ->. rewrite (reg_values_clamp cap out CP cur C0) in G. intros k K.
    assert (LK : (k < length (cur :: clamp cap cur (positive_part out)))%nat) by (cbn [length]; rewrite clamp_length; unfold positive_part; rewrite map_length; lia).
    destruct (nth_error (cur :: clamp cap cur (positive_part out)) k) as [y|] eqn:N; [|exfalso; apply nth_error_None in N; lia].
    exists y. split.
    + destruct G as [G1 [G2 G3]]. replace (qn k * 1) with (qn k) by ring. destruct k as [|k]; [rewrite qn_0; apply (G1 _ y N); qlra|].
      destruct (nth_error (cur :: clamp cap cur (positive_part out)) k) as [x|] eqn:NX; [|exfalso; apply nth_error_None in NX; lia].
      pose proof (G2 k x y 1 NX N ltac:(qlra) ltac:(qlra)) as X. rewrite qn_S. replace (pt + (qn k + 1)) with (pt + qn k + 1) by ring. rewrite X. f_equal. ring.
    + destruct (clamp_spec _ _ _ _ _ N) as [B1 [B2 B3]]. split; [exact B1|]. split.
      * intros j x J. apply B2. unfold positive_part. rewrite (map_nth_error _ _ _ J). reflexivity.
      * destruct B3 as [B3|[j [x [J [J2 B3]]]]]; [left; exact B3|right]. unfold positive_part in J. rewrite nth_error_map in J. destruct (nth_error out j) as [z|] eqn:Z; [|discriminate J].
        injection J as <-. exists j, z. auto.
  - intros ->. exists (reg_values true cap cur out). split; [apply reg_values_averaged|exact G].
Qed.
Print Assumptions C81_values_partial.

(** It raises nothing if every model answers with one value per future step. *)
Theorem C81_no_exception : forall models past future average nw pt st, consistent (w_graph nw) -> lines st ->
  length (f_q st) = length (g_edges (w_graph nw)) -> length (w_cap nw) = length (g_edges (w_graph nw)) -> (forall i row, length (models i row) = future) ->
  exists preds, per_edge_predict models past future average nw pt st = Ok preds.
Proof.
  intros models past future average nw pt st CS LN LQ LC M. unfold per_edge_predict. rewrite <- LQ, Nat.eqb_refl. cbn [bind assertb]. apply mapM_total. intros r I. unfold per_edge_one, reg_inputs. set (g := w_graph nw) in *.
  assert (ID : forall e, In e (g_edges g) -> exists q cap, nth_error (f_q st) (e_id g e) = Some q /\ nth_error (w_cap nw) (e_id g e) = Some cap /\ line q).
  { intros e IE. apply In_nth_error in IE. destruct IE as [i E]. rewrite (cs_ids _ CS i e E). assert (i < length (g_edges g))%nat by (apply nth_error_Some; congruence).
    destruct (nth_error (f_q st) i) as [q|] eqn:Q; [|exfalso; apply nth_error_None in Q; lia]. destruct (nth_error (w_cap nw) i) as [cap|] eqn:CA; [|exfalso; apply nth_error_None in CA; lia].
    exists q, cap. split; [reflexivity|]. split; [reflexivity|]. apply LN, (nth_error_In _ _ Q). }
  assert (SM : forall times es, (forall e, In e es -> In e (g_edges g)) -> exists row, queue_samples g (f_q st) times es = Ok row).
  { intros times es SUB. unfold queue_samples. destruct (mapM_total (fun t => mapM (fun e => q <- fetch (f_q st) (e_id g e) ;; pl_eval q t) es) times) as [rows ->]; [|cbn [bind]; eauto].
    intros t _. apply mapM_total. intros e IE. destruct (ID e (SUB e IE)) as [q [_ [Q [_ L]]]]. unfold fetch. rewrite Q. cbn [bind]. rewrite (line_eval q t L). eauto. }
  destruct (SM (reg_input_times past pt) (incoming g (e_from g r))) as [a ->]; [intros e; rewrite (cs_in _ CS), filter_In; tauto|]. cbn [bind].
  destruct (SM (reg_input_times past pt) (outgoing g (e_to g r))) as [b ->]; [intros e; rewrite (cs_out _ CS), filter_In; tauto|]. cbn [bind].
  destruct (SM (reg_input_times past pt) [r]) as [c ->]; [intros e [<-|[]]; exact I|]. cbn [bind].
  destruct (ID r I) as [q [cap [Q [CA L]]]]. unfold fetch. rewrite Q. cbn [bind]. rewrite (line_eval q pt L). cbn [bind]. rewrite CA. cbn [bind].
  destruct (grid_ok pt (S future) (pl_at q pt :: reg_values average cap (pl_at q pt) (models (e_id g r) (a ++ b ++ c)))) as [f F]; [lia|cbn [length]; rewrite reg_values_length, M; reflexivity|].
  unfold reg_output_times. rewrite F. cbn [bind]. destruct (grid_of _ _ _ _ F) as [_ [LF _]]. destruct (simplify_ok f (proj1 LF)) as [p [-> _]]. eauto.
Qed.
Print Assumptions C81_no_exception.

(** The past is what the model should see.  One edge of capacity 1, inflow 2
    until time 1.  In one flow the inflow stays 2, in the other one it becomes
    5; both are known until time 2.  A predictor asked for time 1 is given the
    queue of time 2: its two predictions for time 2 differ although the flows
    agree until time 1. *)
Definition fut_net : Net := mkNet [1] [qz 10].
Definition fut_pre : list call := [CExtend [(0%nat, [(0%nat, qz 2)])] 1].
Definition fut_a : list call := [CExtend [(0%nat, [(0%nat, qz 2)])] (qz 2)].
Definition fut_b : list call := [CExtend [(0%nat, [(0%nat, qz 5)])] (qz 2)].
Definition fut_nw : network := nw_add_edge nw_empty 1 2 (qz 10) 1.
Definition fut_model : nat -> list Qc -> list Qc := fun _ row => firstn 1 row.
Definition fut_predict (st : Flow) : res (list PL) := per_edge_predict fut_model 2 1 false fut_nw 1 st.
Lemma fut_ok x : x = fut_a \/ x = fut_b -> net_ok fut_net /\ valid_run fut_net (fut_pre ++ x) /\ clean_run fut_net (fut_pre ++ x).
Proof.
  intros [-> | ->]; (split; [apply netb_ok; vm_compute; reflexivity|]); (split; [apply runb_ok; vm_compute; reflexivity|]); unfold clean_run; intro Q.
  - assert (K : match flow_run true fut_net (fut_pre ++ fut_a) with Ok _ => true | Err _ => false end = true) by (vm_compute; reflexivity). rewrite Q in K. discriminate K.
  - assert (K : match flow_run true fut_net (fut_pre ++ fut_b) with Ok _ => true | Err _ => false end = true) by (vm_compute; reflexivity). rewrite Q in K. discriminate K.
Qed.
Definition fut_check : bool :=
  match flow_run false fut_net fut_pre, flow_run false fut_net (fut_pre ++ fut_a), flow_run false fut_net (fut_pre ++ fut_b) with
  | Ok s0, Ok s1, Ok s2 => (qeqb (f_phi s0) 1 && (length (f_q s1) =? 1)%nat && (length (f_q s2) =? 1)%nat && is (at_edge (fut_predict s1) 0 (qz 2)) (qz 2) && is (at_edge (fut_predict s2) 0 (qz 2)) (qz 5))%bool
  | _, _, _ => false
  end.
Theorem C81_history_refuted : exists st1 st2, flow_run false fut_net (fut_pre ++ fut_a) = Ok st1 /\ flow_run false fut_net (fut_pre ++ fut_b) = Ok st2 /\
  agree_until 1 (f_q st1) (f_q st2) /\ at_edge (fut_predict st1) 0 (qz 2) = Ok (qz 2) /\ at_edge (fut_predict st2) 0 (qz 2) = Ok (qz 5).
Proof.
  assert (K : fut_check = true) by (vm_compute; reflexivity). unfold fut_check in K.
  destruct (flow_run false fut_net fut_pre) as [s0|] eqn:R0; [|discriminate K].
  destruct (flow_run false fut_net (fut_pre ++ fut_a)) as [s1|] eqn:R1; [|discriminate K]. destruct (flow_run false fut_net (fut_pre ++ fut_b)) as [s2|] eqn:R2; [|discriminate K].
  apply andb_prop in K. destruct K as [K K5]. apply andb_prop in K. destruct K as [K K4]. apply andb_prop in K. destruct K as [K K3]. apply andb_prop in K. destruct K as [K1 K2].
  apply qeqb_true in K1. apply Nat.eqb_eq in K2, K3. exists s1, s2. split; [reflexivity|]. split; [reflexivity|]. split; [|split; apply is_true; assumption].
  destruct (fut_ok fut_a (or_introl eq_refl)) as [N [V1 C1]]. destruct (fut_ok fut_b (or_intror eq_refl)) as [_ [V2 C2]].
  destruct (C76_final fut_net fut_pre fut_a s0 s1 0 N V1 C1 R0 R1) as [_ [_ [_ S1]]]; [cbn; lia|]. destruct (C76_final fut_net fut_pre fut_b s0 s2 0 N V2 C2 R0 R2) as [_ [_ [_ S2]]]; [cbn; lia|].
  split; [congruence|]. intros e q q' t Q Q' T. assert (e = 0%nat) as -> by (assert (e < length (f_q s1))%nat by (apply nth_error_Some; congruence); lia).
  assert (E1 : queue_of s1 0 = q) by (unfold queue_of; apply nth_error_nth, Q). assert (E2 : queue_of s2 0 = q') by (unfold queue_of; apply nth_error_nth, Q'). rewrite <- E1, <- E2. rewrite S1, S2 by (rewrite K1; exact T). reflexivity.
Qed.
Print Assumptions C81_history_refuted.
