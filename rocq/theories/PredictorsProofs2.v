(** * Proofs about the learned predictors *)
From Verif Require Import Base Spec Arrays ArraysProofs PL PLProofs PLEval PLArith RC FRC DynFlow Graph Dijkstra FlowBuilder Neighbors Predictors PredictorsProofs.

(** ** Functions whose slopes are bounded below *)
(** consecutive points fall by at most [c] per unit of time *)
Fixpoint falls (c : Qc) (l : list (Qc * Qc)) : Prop :=
  match l with
  | (t0, v0) :: (((t1, v1) :: _) as r) => t0 < t1 /\ v0 - c * (t1 - t0) <= v1 /\ falls c r
  | _ => True
  end.
Lemma falls_slope c t0 v0 t1 v1 : t0 < t1 -> v0 - c * (t1 - t0) <= v1 -> - c <= (v1 - v0) / (t1 - t0).
Proof. intros L H. set (d := (v1 - v0) / (t1 - t0)). assert (DE : d * (t1 - t0) = v1 - v0) by (unfold d; field; qlra). clearbody d. qnra. Qed.
Lemma interp_falls c l pts : 0 <= c -> - c <= l -> falls c pts -> forall s, - c <= s -> forall a b, a <= b -> interp s l pts a - c * (b - a) <= interp s l pts b.
Proof.
  intros C0 LL. induction pts as [|[t0 v0] r IH]; intros F s SS a b AB; [cbn [interp]; qnra|].
  destruct r as [|[t1 v1] r'].
  - cbn [interp]. destruct (qlebP a t0), (qlebP b t0); qnra.
  - cbn [falls] in F. destruct F as [T [V F]]. pose proof (falls_slope c t0 v0 t1 v1 T V) as SL.
    specialize (IH F _ SL). set (s' := (v1 - v0) / (t1 - t0)) in *.
    assert (ST : s' * (t1 - t0) = v1 - v0) by (unfold s'; field; qlra).
    assert (X : interp s' l ((t1, v1) :: r') t0 = v0). { cbn [interp]. destruct (qlebP t0 t1) as [_|N]; [qlra|exfalso; qlra]. }
    change (interp s l ((t0, v0) :: (t1, v1) :: r') a) with (if qleb a t0 then v0 + (a - t0) * s else interp s' l ((t1, v1) :: r') a).
    change (interp s l ((t0, v0) :: (t1, v1) :: r') b) with (if qleb b t0 then v0 + (b - t0) * s else interp s' l ((t1, v1) :: r') b).
    destruct (qlebP a t0) as [A|A], (qlebP b t0) as [B|B].
    + qnra.
    + specialize (IH t0 b ltac:(qlra)). rewrite X in IH. generalize dependent (interp s' l ((t1, v1) :: r') b). intros y IH. qnra.
    + exfalso. qlra.
    + apply IH. exact AB.
Qed.
Lemma interp_nonneg l r : 0 <= l -> forall t0 v0 s u, (forall t v, In (t, v) ((t0, v0) :: r) -> 0 <= v) -> StronglySorted (fun x y => fst x < fst y) ((t0, v0) :: r) ->
  t0 <= u -> 0 <= interp s l ((t0, v0) :: r) u.
Proof.
  intro L0. induction r as [|[t1 v1] r' IH]; intros t0 v0 s u P SO U.
  - specialize (P t0 v0 (or_introl eq_refl)). cbn [interp]. destruct (qlebP u t0) as [A|A]; [|qnra]. assert (E : u = t0) by qlra. subst u. replace (t0 - t0) with 0 by ring. qlra.
  - inversion SO as [|? ? SO' HD]; subst. inversion HD as [|? ? T]; subst. cbn [fst] in T.
    set (s' := (v1 - v0) / (t1 - t0)) in *. assert (ST : s' * (t1 - t0) = v1 - v0) by (unfold s'; field; qlra).
    change (interp s l ((t0, v0) :: (t1, v1) :: r') u) with (if qleb u t0 then v0 + (u - t0) * s else interp s' l ((t1, v1) :: r') u).
    pose proof (P t0 v0 (or_introl eq_refl)) as P0. pose proof (P t1 v1 (or_intror (or_introl eq_refl))) as P1. clearbody s'.
    destruct (qlebP u t0) as [A|A]; [assert (E : u = t0) by qlra; subst u; replace (t0 - t0) with 0 by ring; qlra|].
    destruct (qlebP u t1) as [B|B].
    + cbn [interp]. destruct (qlebP u t1) as [_|N]; [|contradiction].
      assert (v1 + (u - t1) * s' = v0 + (u - t0) * s') by qlra. destruct (Qclt_le_dec s' 0); qnra.
    + apply IH; [intros; apply (P t v); right; assumption|exact SO'|qlra].
Qed.

(** ** The clamped values *)
Fixpoint zip_times (t d : Qc) (n : nat) : list Qc := match n with O => [] | S k => t :: zip_times (t + d) d k end.
Lemma clamp_length sc p l : length (clamp sc p l) = length l.
Proof. revert p. induction l as [|x l IH]; intro p; cbn [clamp length]; auto. Qed.
Lemma clamp_nonneg sc p l : (forall x, In x l -> 0 <= x) -> forall y, In y (clamp sc p l) -> 0 <= y.
Proof.
  revert p. induction l as [|x l IH]; intros p H y I; cbn [clamp] in I; [destruct I|]. destruct I as [<-|I].
  - pose proof (H x (or_introl eq_refl)). destruct (qmax_spec x (p - sc)) as [[X ->]|[X ->]]; qlra.
  - apply (IH _ (fun z Iz => H z (or_intror Iz)) y I).
Qed.
(** The closed form: the values are the least ones above the model's output
    falling at most [sc] per step. *)
Lemma clamp_spec sc l : forall p k y, nth_error (p :: clamp sc p l) k = Some y ->
  p - qn k * sc <= y /\
  (forall j x, nth_error l j = Some x -> (j < k)%nat -> x - qn (k - S j) * sc <= y) /\
  (y = p - qn k * sc \/ exists j x, nth_error l j = Some x /\ (j < k)%nat /\ y = x - qn (k - S j) * sc).
Proof.
  induction l as [|x l IH]; intros p k y H; cbn [clamp] in H.
  - destruct k as [|k]; cbn [nth_error] in H; [injection H as <-|destruct k; discriminate H]. split; [change (qn 0) with 0; qlra|]. split; [intros j z N; destruct j; discriminate N|left; change (qn 0) with 0; ring].
  - destruct k as [|k]; cbn [nth_error] in H.
    + injection H as <-. split; [change (qn 0) with 0; qlra|]. split; [intros; lia|left; change (qn 0) with 0; ring].
    + set (p' := qmax x (p - sc)) in *. destruct (IH p' k y H) as [A [B C]].
      rewrite qn_S.
      assert (P' : p - sc <= p' /\ x <= p' /\ (p' = x \/ p' = p - sc)) by (unfold p'; destruct (qmax_spec x (p - sc)) as [[X ->]|[X ->]]; repeat split; auto; qlra).
      clearbody p'. destruct P' as [P1 [P2 P3]]. split; [qlra|]. split.
      * intros [|j] z N L; cbn [nth_error] in N; [injection N as <-; replace (S k - 1)%nat with k by lia; qlra|]. apply (B j z N). lia.
      * destruct C as [->|[j [z [N [L ->]]]]].
        -- destruct P3 as [-> | ->]; [right; exists 0%nat, x; cbn [nth_error]; replace (S k - 1)%nat with k by lia; repeat split; auto; lia|left; ring].
        -- right. exists (S j), z. cbn [nth_error]. repeat split; auto; lia.
Qed.
Lemma clamp_falls d cap n : 0 < d -> forall l p t, falls cap (combine (zip_times t d n) (p :: clamp (d * cap) p l)).
Proof.
  intro D. induction n as [|n IH]; intros l p t; [exact Logic.I|]. cbn [zip_times combine]. destruct n as [|n]; [exact Logic.I|].
  destruct l as [|x l]; [exact Logic.I|]. cbn [clamp zip_times combine]. set (p' := qmax x (p - d * cap)).
  change (t < t + d /\ p - cap * (t + d - t) <= p' /\ falls cap (combine (zip_times (t + d) d (S n)) (p' :: clamp (d * cap) p' l))).
  split; [qlra|]. split; [|apply IH]. unfold p'. destruct (qmax_spec x (p - d * cap)) as [[X ->]|[X ->]]; qlra.
Qed.
Lemma zip_times_seq d n : forall k t, map (fun j => t + qn j * d) (seq k n) = zip_times (t + qn k * d) d n.
Proof.
  induction n as [|n IH]; intros k t; [reflexivity|]. cbn [seq map zip_times]. f_equal. rewrite IH, qn_S. f_equal. ring.
Qed.
Lemma output_times_zip L pt : output_times L pt = zip_times pt (l_step L) (S (l_future L)).
Proof. unfold output_times. rewrite zip_times_seq. rewrite qn_0. f_equal. ring. Qed.
Lemma nb_output_times_zip L pt : nb_output_times L pt = zip_times pt 1 (S (l_future L)).
Proof.
  unfold nb_output_times. rewrite (map_ext _ (fun k => pt + qn k * 1)) by (intro; ring). rewrite zip_times_seq, qn_0. f_equal. ring.
Qed.
Lemma zip_times_nth d n : forall t k, (k < n)%nat -> nth_error (zip_times t d n) k = Some (t + qn k * d).
Proof.
  induction n as [|n IH]; intros t [|k] H; try lia; cbn [zip_times nth_error]; [rewrite qn_0; f_equal; ring|]. rewrite IH by lia. rewrite qn_S. f_equal. ring.
Qed.
Lemma zip_times_length t d n : length (zip_times t d n) = n.
Proof. revert t. induction n; intro t; cbn [zip_times length]; auto. Qed.
Lemma at_point f k t v : valid f -> nth_error (pl_times f) k = Some t -> nth_error (pl_values f) k = Some v -> pl_at f t = v.
Proof.
  intros V T W. assert (L : (k < length (pl_times f))%nat) by (apply nth_error_Some; congruence).
  assert (ET : tm f (Z.of_nat k) = t) by (unfold tm, nthq; rewrite Nat2Z.id; apply nth_error_nth, T).
  assert (EV : vl f (Z.of_nat k) = v) by (unfold vl, nthq; rewrite Nat2Z.id; apply nth_error_nth, W).
  rewrite <- ET, <- EV. apply at_tm; [exact V|]. unfold pl_len, zlen. lia.
Qed.

(** ** One edge *)
Lemma learned_ok L d pt cur raw e f cap c : learned_edge L (zip_times pt d (S (l_future L))) cur raw e = Ok f ->
  0 <= cur -> (forall x, In x raw -> 0 <= x) -> nth_error (w_cap (l_nw L)) e = Some cap -> 0 <= c -> c * d = l_step L * cap ->
  line f /\ (forall t, t <= pt -> pl_at f t = cur) /\ (forall t, 0 <= pl_at f t) /\
  (forall a b, a <= b -> pl_at f a - c * (b - a) <= pl_at f b) /\
  length raw = l_future L /\
  (forall k y, nth_error (cur :: clamp (l_step L * cap) cur raw) k = Some y -> pl_at f (pt + qn k * d) = y).
Proof.
  intros H C0 P NC CC CD. unfold learned_edge in H. apply bind_ok in H. destruct H as [cap' [FC H]]. apply pl_init_line in H. destruct H as [-> LF].
  set (f := mkPL _ _ _ _ _ _) in *. pose proof LF as [V _].
  assert (LR : length raw = l_future L). { pose proof (v_len _ V) as E. cbn [f pl_times pl_values length] in E. rewrite clamp_length, zip_times_length in E. lia. }
  assert (CE : cur :: clamp (l_step L * cap') cur raw = cur :: clamp (l_step L * cap) cur raw).
  { destruct raw as [|x raw]; [reflexivity|]. unfold fetch in FC. rewrite NC in FC. apply ok_inj in FC. rewrite FC. reflexivity. }
  assert (FE : f = mkPL (zip_times pt d (S (l_future L))) (cur :: clamp (l_step L * cap) cur raw) 0 0 NInf PInf) by (unfold f; rewrite CE; reflexivity).
  clearbody f. clear FC CE cap'.
  assert (LEFT : forall t, t <= pt -> pl_at f t = cur).
  { intros t T. rewrite FE. unfold pl_at, PLProofs.pts. cbn [pl_times pl_values pl_first pl_last zip_times combine interp]. destruct (qlebP t pt) as [_|N]; [ring|contradiction]. }
  assert (SO : StronglySorted (fun x y => fst x < fst y) (PLProofs.pts f)).
  { pose proof (v_gap _ V) as G. unfold PLProofs.pts. clear -G. assert (E0 : 0 < eps) by (apply qltb_true; vm_compute; reflexivity). revert G. generalize (pl_values f). induction (pl_times f) as [|x l IH]; intros vs G; [constructor|].
    destruct vs as [|v vs]; [constructor|]. inversion G as [|? ? G1 G2]; subst. cbn [combine]. constructor; [apply IH, G1|]. apply Forall_forall. intros [y w] I. apply in_combine_l in I.
    rewrite Forall_forall in G2. specialize (G2 y I). unfold gap in G2. cbn [fst]. qlra. }
  split; [exact LF|]. split; [exact LEFT|]. split; [|split; [|split; [exact LR|]]].
  - intro t. destruct (Qclt_le_dec t pt) as [Q|Q]; [rewrite LEFT by qlra; exact C0|]. rewrite FE in SO |- *. unfold pl_at, PLProofs.pts in *. cbn [pl_times pl_values pl_first pl_last zip_times combine] in *.
    apply interp_nonneg; [qlra| |exact SO|exact Q]. intros u v [E|I]; [injection E as <- <-; exact C0|]. apply in_combine_r in I. apply (clamp_nonneg _ _ _ P _ I).
  - intros a b AB. rewrite FE. unfold pl_at, PLProofs.pts. cbn [pl_times pl_values pl_first pl_last].
    apply interp_falls; [exact CC|qlra| |qlra|exact AB]. rewrite <- CD.
    destruct raw as [|x raw].
    + cbn [length] in LR. rewrite <- LR. exact Logic.I.
    + assert (D : 0 < d). { rewrite FE in V. pose proof (v_gap _ V) as G. cbn [pl_times] in G. rewrite <- LR in G. cbn [length zip_times] in G. inversion G as [|? ? _ G2]; subst. inversion G2 as [|? ? G3 _]; subst. unfold gap in G3. assert (0 < eps) by (apply qltb_true; vm_compute; reflexivity). qlra. }
      rewrite (Qcmult_comm c d). apply clamp_falls. exact D.
  - intros k y N. apply (at_point f k); [exact V| |rewrite FE; exact N]. rewrite FE. cbn [pl_times]. apply zip_times_nth.
    assert (k < length (cur :: clamp (l_step L * cap) cur raw))%nat by (apply nth_error_Some; congruence). cbn [length] in H. rewrite clamp_length in H. lia.
Qed.

(** ** The input row *)
Definition chosen {A} (mask : list bool) (l : list A) : list A := map snd (filter fst (combine mask l)).
Lemma select_inv {A} mask (l r : list A) : select mask l = Ok r -> r = chosen mask l /\ (length l <= length mask)%nat.
Proof.
  revert mask r. induction l as [|x l IH]; intros mask r H.
  - assert (E : r = []) by (destruct mask; cbn [select] in H; congruence). subst r. split; [destruct mask as [|[|] ?]; reflexivity|cbn; lia].
  - destruct mask as [|m ms]; cbn [select] in H; [discriminate H|]. apply bind_ok in H. destruct H as [rs [H1 H]]. injection H as <-. destruct (IH ms rs H1) as [-> Le]. split; [|cbn; lia].
    unfold chosen. cbn [combine filter fst]. destruct m; reflexivity.
Qed.
Lemma select_ok {A} mask (l : list A) : (length l <= length mask)%nat -> select mask l = Ok (chosen mask l).
Proof.
  revert mask. induction l as [|x l IH]; intros mask H.
  - destruct mask as [|[|] ?]; reflexivity.
  - destruct mask as [|m ms]; [cbn in H; lia|]. cbn [select]. rewrite IH by (cbn in H; lia). cbn [bind]. unfold chosen. cbn [combine filter fst]. destruct m; reflexivity.
Qed.
Lemma chosen_in {A} mask (l : list A) x : In x (chosen mask l) -> In x l.
Proof. unfold chosen. rewrite in_map_iff. intros [[m y] [<- I]]. apply filter_In in I. apply (in_combine_r _ _ _ _ (proj1 I)). Qed.
Lemma chosen_map {A B} (g : A -> B) mask l : chosen mask (map g l) = map g (chosen mask l).
Proof.
  revert mask. induction l as [|x l IH]; intro mask; [destruct mask; reflexivity|]. destruct mask as [|m ms]; [reflexivity|]. unfold chosen in *. cbn [map combine filter fst]. destruct m; cbn [map snd]; rewrite IH; reflexivity.
Qed.
Lemma mapM_map {A B} (f : A -> res B) (g : A -> B) l : (forall a, In a l -> f a = Ok (g a)) -> mapM f l = Ok (map g l).
Proof. induction l as [|x l IH]; intro H; cbn [mapM map]; [reflexivity|]. rewrite (H x) by (left; reflexivity). cbn [bind]. rewrite IH by (intros; apply H; right; assumption). reflexivity. Qed.

Lemma qz_of_nat n : qz (Z.of_nat n) = qn n.
Proof. reflexivity. Qed.
Lemma qz_sub a b : qz (a - b) = qz a - qz b.
Proof.
  unfold qz. apply Qc_is_canon. unfold Qcminus, Qcplus, Qcopp. cbn [this Q2Qc]. repeat rewrite Qred_correct. rewrite <- inject_Z_opp, <- inject_Z_plus. reflexivity.
Qed.
(** [pt - (past-1) step, ..., pt - step, pt] *)
Definition history (L : learned) (pt : Qc) : list Qc := map (fun k => pt - qn (l_past L - 1 - k) * l_step L) (seq 0 (l_past L)).
Lemma input_times_history L pt : input_times L pt = history L pt.
Proof.
  unfold input_times, history, past_steps. rewrite map_map. apply map_ext_in. intros k I. apply in_seq in I.
  replace (Z.of_nat k - (Z.of_nat (l_past L) - 1))%Z with (0 - Z.of_nat (l_past L - 1 - k))%Z by lia. rewrite qz_sub, qz_of_nat. change (qz 0) with 0. ring.
Qed.
Lemma input_times_zip L pt : input_times L pt = zip_times (pt - qn (l_past L - 1) * l_step L) (l_step L) (l_past L).
Proof.
  rewrite input_times_history. unfold history.
  assert (G : forall n k, (k + n <= l_past L)%nat -> map (fun j => pt - qn (l_past L - 1 - j) * l_step L) (seq k n) = zip_times (pt - qn (l_past L - 1 - k) * l_step L) (l_step L) n).
  { induction n as [|n IH]; intros k H; [reflexivity|]. cbn [seq map zip_times]. f_equal. rewrite IH by lia.
    destruct n as [|n]; [reflexivity|]. f_equal. replace (l_past L - 1 - k)%nat with (S (l_past L - 1 - S k))%nat by lia. rewrite qn_S. ring. }
  rewrite G by lia. rewrite Nat.sub_0_r. reflexivity.
Qed.
Lemma zip_times_sorted d n : 0 <= d -> forall t, nondecreasing (zip_times t d n) /\ forall x, In x (zip_times t d n) -> t <= x.
Proof.
  intro D. induction n as [|n IH]; intro t; cbn [zip_times]; [split; [constructor|intros x []]|]. destruct (IH (t + d)) as [A B]. split.
  - constructor; [exact A|]. apply Forall_forall. intros x I. specialize (B x I). qlra.
  - intros x [<-|I]; [qlra|]. specialize (B x I). qlra.
Qed.
Lemma input_times_sorted L pt : 0 <= l_step L -> nondecreasing (input_times L pt).
Proof. intro H. rewrite input_times_zip. apply zip_times_sorted, H. Qed.
Lemma eval_sorted_line f ts : line f -> nondecreasing ts -> eval_sorted_array f ts = Ok (map (pl_at f) ts).
Proof.
  intros LF S. rewrite eval_sorted_array_eq; [|apply LF|exact S|intros t _; apply line_dom, LF]. apply mapM_map. intros t _. apply line_eval, LF.
Qed.
Definition row_values (L : learned) (pt : Qc) (fs : list PL) : list Qc := concat (map (fun f => map (pl_at f) (input_times L pt)) (chosen (l_in L) fs)).
Definition the_row (L : learned) (pt : Qc) (queues loads : list PL) : list Qc := pt :: row_values L pt queues ++ row_values L pt loads.
Lemma input_row_ok L pt queues loads : 0 <= l_step L -> Forall line queues -> Forall line loads ->
  (length queues <= length (l_in L))%nat -> (length loads <= length (l_in L))%nat -> input_row L pt queues loads = Ok (the_row L pt queues loads).
Proof.
  intros S LQ LL Q1 Q2. unfold input_row. rewrite !select_ok by assumption. cbn [bind]. rewrite Forall_forall in LQ, LL.
  rewrite !(mapM_map (fun f => eval_sorted_array f (input_times L pt)) (fun f => map (pl_at f) (input_times L pt))).
  - reflexivity.
  - intros f I. apply eval_sorted_line; [apply LL, (chosen_in _ _ _ I)|apply input_times_sorted, S].
  - intros f I. apply eval_sorted_line; [apply LQ, (chosen_in _ _ _ I)|apply input_times_sorted, S].
Qed.
Lemma input_row_inv L pt queues loads row : input_row L pt queues loads = Ok row -> (length queues <= length (l_in L))%nat /\ (length loads <= length (l_in L))%nat.
Proof.
  unfold input_row. intro H. apply bind_ok in H. destruct H as [qs [H1 H]]. apply bind_ok in H. destruct H as [qr [_ H]]. apply bind_ok in H. destruct H as [ls [H2 _]].
  apply select_inv in H1, H2. tauto.
Qed.
Lemma row_values_eval L pt fs : Forall line fs -> map Ok (row_values L pt fs) = concat (map (fun f => map (pl_eval f) (history L pt)) (chosen (l_in L) fs)).
Proof.
  intro LF. rewrite Forall_forall in LF. unfold row_values. rewrite concat_map, map_map. f_equal. apply map_ext_in. intros f I. rewrite map_map, input_times_history. apply map_ext. intro t.
  symmetry. apply line_eval, LF, (chosen_in _ _ _ I).
Qed.

(** ** predict and batch_predict side by side *)
Definition res_rel {A B} (R : A -> B -> Prop) (x : res A) (y : res B) : Prop :=
  match x, y with Ok a, Ok b => R a b | Err e, Err e' => e = e' | _, _ => False end.
Lemma mapM_sim {A B C D} (R : C -> D -> Prop) (f : A -> res C) (g : B -> res D) l l' :
  Forall2 (fun a b => res_rel R (f a) (g b)) l l' -> res_rel (Forall2 R) (mapM f l) (mapM g l').
Proof.
  intro H. induction H as [|a b l l' HD H IH]; cbn [mapM res_rel]; [constructor|].
  destruct (f a) as [c|x], (g b) as [d|y]; cbn [res_rel bind] in HD |- *; try contradiction; [|exact HD].
  destruct (mapM f l) as [cs|x], (mapM g l') as [ds|y]; cbn [res_rel bind] in IH |- *; try contradiction; [|exact IH]. constructor; assumption.
Qed.
Lemma insert_time_in x t l : In x (insert_time t l) <-> x = t \/ In x l.
Proof.
  induction l as [|y l IH]; cbn [insert_time]; [cbn; intuition congruence|]. destruct (qltbP t y); [cbn; intuition congruence|]. destruct (qeqbP t y) as [->|N]; [cbn; intuition congruence|]. cbn [In]. rewrite IH. intuition congruence.
Qed.
Lemma insert_time_sorted t l : increasing l -> increasing (insert_time t l).
Proof.
  unfold increasing. induction l as [|y l IH]; intro S; cbn [insert_time]; [repeat constructor|]. inversion S as [|? ? S1 S2]; subst. destruct (qltbP t y) as [Q|Q].
  - constructor; [exact S|]. constructor; [exact Q|]. rewrite Forall_forall in *. intros x I. specialize (S2 x I). qlra.
  - destruct (qeqbP t y) as [->|N]; [exact S|]. constructor; [apply IH, S1|]. rewrite Forall_forall in *. intros x I. apply insert_time_in in I. destruct I as [->|I]; [qlra|apply S2, I].
Qed.
Lemma evaluation_times_in L pts x : In x (evaluation_times L pts) <-> exists pt, In pt pts /\ In x (input_times L pt).
Proof.
  unfold evaluation_times. rewrite <- in_flat_map, flat_map_concat_map. induction (concat (map (input_times L) pts)) as [|y l IH]; cbn [fold_right]; [reflexivity|]. rewrite insert_time_in, IH. cbn [In]. intuition congruence.
Qed.
Lemma evaluation_times_sorted L pts : nondecreasing (evaluation_times L pts).
Proof.
  unfold evaluation_times. assert (S : increasing (fold_right insert_time [] (concat (map (input_times L) pts)))) by (induction (concat _) as [|y l IH]; cbn [fold_right]; [constructor|apply insert_time_sorted, IH]).
  revert S. unfold increasing, nondecreasing. generalize (fold_right insert_time [] (concat (map (input_times L) pts))). intros l S. induction S as [|x l S IH F]; constructor; [exact IH|]. rewrite Forall_forall in *. intros y I. specialize (F y I). qlra.
Qed.
Lemma qget_combine g l t : In t l -> qget (combine l (map g l)) t = Ok (g t).
Proof.
  induction l as [|x l IH]; intro I; [destruct I|]. cbn [map combine qget]. destruct (qeqbP x t) as [->|N]; [reflexivity|]. apply IH. destruct I as [E|I]; [contradiction|exact I].
Qed.
Definition table (L : learned) (pts : list Qc) (f : PL) : list (Qc * Qc) := combine (evaluation_times L pts) (map (pl_at f) (evaluation_times L pts)).
Lemma evaluated_from_ok L pts mask e fs : Forall line fs -> (length fs <= length mask)%nat ->
  evaluated_from L pts mask e fs = Ok (map (fun p => (fst p, table L pts (snd p))) (chosen mask (combine (seq e (length fs)) fs))).
Proof.
  intro LF. revert mask e. induction fs as [|f fs IH]; intros mask e H; [destruct mask as [|[|] ?]; reflexivity|]. destruct mask as [|m ms]; [cbn in H; lia|].
  inversion LF as [|? ? L1 L2]; subst. cbn [evaluated_from]. unfold evaluate. rewrite (eval_sorted_line f _ L1 (evaluation_times_sorted L pts)). cbn [bind].
  rewrite (IH L2 ms (S e)) by (cbn in H; lia). cbn [bind length seq combine]. unfold chosen. cbn [combine filter fst snd]. destruct m; reflexivity.
Qed.
Lemma dfetch_chosen {B} (g : PL -> B) mask fs : forall e0 e f, nth_error mask e = Some true -> nth_error fs e = Some f ->
  dfetch (map (fun p => (fst p, g (snd p))) (chosen mask (combine (seq e0 (length fs)) fs))) (e0 + e) = Ok (g f).
Proof.
  revert mask. induction fs as [|x fs IH]; intros mask e0 e f M F; [destruct e; discriminate F|]. destruct mask as [|m ms]; [destruct e; discriminate M|].
  cbn [length seq combine]. unfold chosen. cbn [combine filter fst]. destruct e as [|e]; cbn [nth_error] in M, F.
  - injection M as ->. injection F as ->. cbn [map fst snd]. unfold dfetch. cbn [dget]. rewrite Nat.add_0_r, Nat.eqb_refl. reflexivity.
  - specialize (IH ms (S e0) e f M F). replace (e0 + S e)%nat with (S e0 + e)%nat by lia. unfold chosen in IH. destruct m; cbn [map fst snd]; [|exact IH].
    unfold dfetch in *. cbn [dget]. destruct (Nat.eqb_spec e0 (S e0 + e)) as [E|_]; [lia|]. exact IH.
Qed.
Lemma chosen_nth {A} mask (l : list A) x : In x (chosen mask l) -> exists e, nth_error mask e = Some true /\ nth_error l e = Some x.
Proof.
  revert mask. induction l as [|y l IH]; intros mask I; [destruct mask as [|[|] ?]; destruct I|]. destruct mask as [|m ms]; [destruct I|]. unfold chosen in I. cbn [combine filter fst] in I.
  destruct m; [cbn [map snd] in I; destruct I as [<-|I]; [exists 0%nat; split; reflexivity|]|]; destruct (IH ms I) as [e H]; exists (S e); exact H.
Qed.
Lemma chosen_ids {A} mask (fs : list A) (d : A) : chosen mask fs = map (fun e => nth e fs d) (chosen mask (seq 0 (length fs))).
Proof.
  rewrite <- chosen_map. f_equal. clear mask. induction fs as [|x fs IH]; [reflexivity|]. cbn [length seq map nth]. f_equal. rewrite <- seq_shift, map_map. exact IH.
Qed.
Section Batch.
Variables (L : learned) (pts : list Qc) (fs : list PL).
Hypothesis LF : Forall line fs.
Hypothesis LEN : (length fs <= length (l_in L))%nat.
Let eq := map (fun p => (fst p, table L pts (snd p))) (chosen (l_in L) (combine (seq 0 (length fs)) fs)).
Lemma table_get pt t f : In pt pts -> In t (input_times L pt) -> qget (table L pts f) t = Ok (pl_at f t).
Proof. intros I J. apply qget_combine. apply evaluation_times_in. eauto. Qed.
Lemma batch_values_ok pt : In pt pts -> batch_values L pt (chosen (l_in L) (seq 0 (length fs))) eq = Ok (row_values L pt fs).
Proof.
  intro I. unfold batch_values, row_values. set (ids := chosen (l_in L) (seq 0 (length fs))).
  assert (H : mapM (fun e => dd <- dfetch eq e ;; mapM (qget dd) (input_times L pt)) ids = Ok (map (fun e => map (pl_at (nth e fs queue0)) (input_times L pt)) ids)).
  { apply mapM_map. intros e Ie. apply chosen_nth in Ie. destruct Ie as [e' [M N]].
    assert (e' < length fs)%nat by (rewrite <- (seq_length (length fs) 0); apply nth_error_Some; congruence).
    assert (N2 : nth_error (seq 0 (length fs)) e' = Some e').
    { rewrite (nth_error_nth' _ 0%nat) by (rewrite seq_length; exact H). rewrite seq_nth by exact H. reflexivity. }
    assert (e' = e) by congruence. subst e'. clear N N2.
    pose proof (dfetch_chosen (table L pts) (l_in L) fs 0 e (nth e fs queue0) M (nth_error_nth' _ _ H)) as D. cbn [Nat.add] in D. unfold eq. rewrite D. cbn [bind].
    apply mapM_map. intros t It. apply (table_get pt); assumption. }
  rewrite H. cbn [bind]. f_equal. f_equal. rewrite (chosen_ids (l_in L) fs queue0). rewrite map_map. reflexivity.
Qed.
(** the prediction of one edge, as [predict] computes it *)
Definition one_edge (zero_fct : PL) (raw : list Qc) (pt : Qc) (p : nat * PL) : res PL :=
  let '(e, old_queue) := p in
  m <- fetch (l_out L) e ;;
  if negb m then Ok zero_fct
  else
    let masked_id := count_true (firstn e (l_out L)) in
    cur <- pl_eval old_queue pt ;;
    learned_edge L (output_times L pt) cur (pyslice raw (masked_id * l_future L) ((masked_id + 1) * l_future L)) e.
Lemma batch_edges_map pt raw zero es : forall e0, (e0 + es <= length fs)%nat ->
  batch_edges L pt raw zero eq (count_true (firstn e0 (l_out L))) (l_out L) (seq e0 es) =
  mapM (fun e => m <- fetch (l_out L) e ;;
    if negb m then Ok zero
    else dd <- dfetch eq e ;; cur <- qget dd pt ;;
      learned_edge L (output_times L pt) cur (pyslice raw (count_true (firstn e (l_out L)) * l_future L) ((count_true (firstn e (l_out L)) + 1) * l_future L)) e) (seq e0 es).
Proof.
  induction es as [|es IH]; intros e0 H; [reflexivity|]. cbn [seq batch_edges mapM]. specialize (IH (S e0) ltac:(lia)).
  assert (FE : fetch (l_out L) e0 = match nth_error (l_out L) e0 with Some m => Ok m | None => Err IndexError end) by reflexivity.
  rewrite FE. clear FE. destruct (nth_error (l_out L) e0) as [m|] eqn:M; cbn [bind]; [|reflexivity].
  assert (FN : firstn (S e0) (l_out L) = firstn e0 (l_out L) ++ [m]).
  { clear -M. revert e0 M. induction (l_out L) as [|x l IHl]; intros [|e0] M; try discriminate M; cbn [nth_error] in M; [injection M as ->; reflexivity|]. cbn [firstn app]. f_equal. apply IHl, M. }
  rewrite FN in IH. unfold count_true in IH at 1. rewrite filter_app, app_length in IH. fold (count_true (firstn e0 (l_out L))) in IH.
  destruct m; cbn [negb filter length app] in *.
  - replace (count_true (firstn e0 (l_out L)) + 1)%nat with (S (count_true (firstn e0 (l_out L)))) in IH by lia.
    destruct (dfetch eq e0) as [dd|]; cbn [bind]; [|reflexivity]. destruct (qget dd pt) as [cur|]; cbn [bind]; [|reflexivity].
    destruct (learned_edge _ _ _ _ _) as [f|]; cbn [bind]; [|reflexivity]. rewrite IH. reflexivity.
  - rewrite Nat.add_0_r in IH. cbn [bind]. rewrite IH. reflexivity.
Qed.
Definition same_fun (f g : PL) : Prop := forall t, pl_eval f t = pl_eval g t.
Lemma same_zero a b : same_fun (mkPL [a] [0] 0 0 NInf PInf) (mkPL [b] [0] 0 0 NInf PInf).
Proof. intro t. rewrite !(line_eval _ t (one_line _ _ _ _)), !one_at. reflexivity. Qed.
Lemma batch_edges_same pt raw : In pt pts -> In pt (input_times L pt) -> (forall e, nth_error (l_out L) e = Some true -> nth_error (l_in L) e = Some true) ->
  res_rel (Forall2 same_fun) (mapM (one_edge (mkPL [pt] [0] 0 0 NInf PInf) raw pt) (enum fs))
    (batch_edges L pt raw (mkPL [0] [0] 0 0 NInf PInf) eq 0 (l_out L) (seq 0 (length fs))).
Proof.
  intros I J SUB. change 0%nat with (count_true (firstn 0 (l_out L))) at 1. rewrite batch_edges_map by lia. apply mapM_sim.
  assert (G : forall n e0, (e0 + n = length fs)%nat -> Forall2 (fun p e => fst p = e /\ nth_error fs e = Some (snd p)) (combine (seq e0 n) (skipn e0 fs)) (seq e0 n)).
  { induction n as [|n IH]; intros e0 H; [constructor|]. destruct (skipn e0 fs) as [|f r] eqn:SK; [exfalso; assert (length (skipn e0 fs) = 0)%nat by (rewrite SK; reflexivity); rewrite skipn_length in H0; lia|].
    assert (NE : nth_error fs e0 = Some f /\ skipn (S e0) fs = r).
    { clear -SK. revert e0 SK. generalize fs as fs0. induction fs0 as [|x l IHl]; intros [|e0] SK; try discriminate SK; cbn [skipn nth_error] in *; [injection SK as -> ->; split; reflexivity|]. apply IHl, SK. }
    destruct NE as [NE SK2]. cbn [seq combine]. constructor; [split; [reflexivity|exact NE]|]. rewrite <- SK2. apply IH. lia. }
  specialize (G (length fs) 0%nat eq_refl). cbn [skipn] in G. unfold enum. revert G. generalize (combine (seq 0 (length fs)) fs), (seq 0 (length fs)). intros ls ls0 G.
  induction G as [|[e' q] e l l' [E N] G IH]; constructor; [|exact IH]. cbn [fst snd] in E, N. subst e'. unfold one_edge.
  destruct (fetch (l_out L) e) as [m|x] eqn:F; cbn [bind res_rel]; [|reflexivity]. destruct m; cbn [negb]; [|apply same_zero].
  assert (M : nth_error (l_in L) e = Some true). { apply SUB. unfold fetch in F. destruct (nth_error (l_out L) e); congruence. }
  pose proof (dfetch_chosen (table L pts) (l_in L) fs 0 e q M N) as D. cbn [Nat.add] in D. fold eq in D. rewrite D. cbn [bind].
  rewrite (table_get pt pt q I J). cbn [bind]. rewrite (line_eval q pt) by (rewrite Forall_forall in LF; apply LF, (nth_error_In _ _ N)). cbn [bind].
  destruct (learned_edge _ _ _ _ _) as [f|x]; cbn [res_rel]; [intro; reflexivity|reflexivity].
Qed.
End Batch.
Lemma now_in_history L pt : (1 <= l_past L)%nat -> In pt (input_times L pt).
Proof.
  intro H. rewrite input_times_history. unfold history. apply in_map_iff. exists (l_past L - 1)%nat. split; [|apply in_seq; lia].
  rewrite Nat.sub_diag, qn_0. ring.
Qed.

(** ** Neighbourhood predictors *)
Lemma count_chosen {A} mask (l : list A) : length l = length mask -> length (chosen mask l) = count_true mask.
Proof.
  revert l. induction mask as [|m ms IH]; intros [|x l] H; try discriminate H; [reflexivity|]. unfold chosen, count_true in *. cbn [combine filter fst]. injection H as H. specialize (IH l H). destruct m; cbn [map length]; auto.
Qed.
Lemma chosen_index {A} mask (l : list A) : forall e x, nth_error mask e = Some true -> nth_error l e = Some x -> nth_error (chosen mask l) (count_true (firstn e mask)) = Some x.
Proof.
  revert l. induction mask as [|m ms IH]; intros l e x M N; [destruct e; discriminate M|]. destruct l as [|y l]; [destruct e; discriminate N|]. destruct e as [|e]; cbn [nth_error] in M, N.
  - injection M as ->. injection N as ->. reflexivity.
  - specialize (IH l e x M N). unfold chosen, count_true in *. cbn [combine filter fst firstn]. destruct m; cbn [map length nth_error]; exact IH.
Qed.
Lemma chosen_and {A} M I (l : list A) : length M = length I -> length l = length I ->
  chosen (map (fun p => andb (fst p) (snd p)) (combine M I)) l = chosen (chosen I (map (fun p => andb (fst p) (snd p)) (combine M I))) (chosen I l).
Proof.
  revert M l. induction I as [|i I IH]; intros [|m M] [|x l] H1 H2; try discriminate H1; try discriminate H2; [reflexivity|]. injection H1 as H1. injection H2 as H2. specialize (IH M l H1 H2).
  unfold chosen in *. cbn [combine map filter fst snd]. destruct m, i; cbn [andb combine map filter fst snd]; rewrite IH; reflexivity.
Qed.
Lemma evaluated_masked_ok L pts mask k fs : Forall line fs -> (length fs <= length mask)%nat ->
  evaluated_masked L pts mask k fs = Ok (combine (seq k (length (chosen mask fs))) (map (table L pts) (chosen mask fs))).
Proof.
  intro LF. revert mask k. induction fs as [|f fs IH]; intros mask k H; [destruct mask as [|[|] ?]; reflexivity|]. destruct mask as [|m ms]; [cbn in H; lia|].
  inversion LF as [|? ? L1 L2]; subst. cbn [evaluated_masked]. destruct m.
  - unfold evaluate. rewrite (eval_sorted_line f _ L1 (evaluation_times_sorted L pts)). cbn [bind]. rewrite (IH L2 ms (S k)) by (cbn in H; lia). reflexivity.
  - rewrite (IH L2 ms k) by (cbn in H; lia). reflexivity.
Qed.
Lemma dfetch_seq {B} (g : PL -> B) l : forall k i f, nth_error l i = Some f -> dfetch (combine (seq k (length l)) (map g l)) (k + i) = Ok (g f).
Proof.
  induction l as [|x l IH]; intros k [|i] f N; try discriminate N; cbn [nth_error] in N; cbn [length seq map combine]; unfold dfetch in *; cbn [dget].
  - injection N as ->. rewrite Nat.add_0_r, Nat.eqb_refl. reflexivity.
  - destruct (Nat.eqb_spec k (k + S i)) as [E|_]; [lia|]. specialize (IH (S k) i f N). replace (k + S i)%nat with (S k + i)%nat by lia. exact IH.
Qed.
Lemma masked_rows_ok L pt mask fs : 0 <= l_step L -> Forall line fs -> (length fs <= length mask)%nat ->
  exists rows, masked_rows L pt mask fs = Ok rows /\ length rows = length fs /\
    forall e f, nth_error mask e = Some true -> nth_error fs e = Some f -> nth_error rows e = Some (map (pl_at f) (input_times L pt)).
Proof.
  intros S0 LF. revert mask. induction fs as [|f fs IH]; intros mask H; [exists []; split; [destruct mask; reflexivity|split; [reflexivity|intros [|e] ? _ N; discriminate N]]|].
  destruct mask as [|m ms]; [cbn in H; lia|]. inversion LF as [|? ? L1 L2]; subst. destruct (IH L2 ms) as [rs [E [LR N]]]; [cbn in H; lia|]. cbn [masked_rows].
  rewrite (eval_sorted_line f _ L1 (input_times_sorted L pt S0)). rewrite E.
  destruct m; cbn [bind]; eexists; (split; [reflexivity|]); (split; [cbn [length]; lia|]); intros [|e] g M F; cbn [nth_error] in *; try (apply N; assumption); [injection F as ->; reflexivity|discriminate M].
Qed.
(** selecting rows with a mask below the input mask *)
Lemma chosen_rows {B} (g : PL -> B) mask fs (rows : list B) (I : list bool) : length rows = length fs -> length mask = length fs ->
  (forall e, nth_error mask e = Some true -> nth_error I e = Some true) ->
  (forall e f, nth_error I e = Some true -> nth_error fs e = Some f -> nth_error rows e = Some (g f)) -> chosen mask rows = map g (chosen mask fs).
Proof.
  revert mask rows I. induction fs as [|f fs IH]; intros [|m mask] [|r rows] I H1 H2 SUB N; try discriminate H1; try discriminate H2; [reflexivity|].
  injection H1 as H1. injection H2 as H2. destruct I as [|i I].
  - assert (A : forall e, nth_error (m :: mask) e <> Some true) by (intros e E; specialize (SUB e E); destruct e; discriminate SUB).
    assert (Z : forall A (l : list A), chosen (m :: mask) l = []). { clear -A. intros A0 l. revert l A. generalize (m :: mask). intro ms. induction ms as [|x ms IH]; intros [|y l] A; try reflexivity. unfold chosen in *. cbn [combine filter fst]. destruct x; [exfalso; apply (A 0%nat); reflexivity|]. apply IH. intros e E. apply (A (S e)), E. }
    rewrite !Z. reflexivity.
  - specialize (IH mask rows I H1 H2 (fun e => SUB (S e)) (fun e => N (S e))). unfold chosen in *. cbn [combine filter fst]. destruct m; cbn [map snd]; rewrite IH; [|reflexivity].
    f_equal. specialize (SUB 0%nat eq_refl). specialize (N 0%nat f SUB eq_refl). cbn [nth_error] in N. congruence.
Qed.
Lemma and_mask_sub M I e : nth_error (map (fun p => andb (fst p) (snd p)) (combine M I)) e = Some true -> nth_error I e = Some true.
Proof.
  revert M e. induction I as [|i I IH]; intros [|m M] [|e] H; try discriminate H; cbn [combine map nth_error fst snd] in *; [destruct m; [injection H as ->; reflexivity|discriminate H]|]. apply (IH M e H).
Qed.
(** the model input of edge [e] *)
Definition nb_values (L : learned) (dist : nat) (pt : Qc) (e : nat) (fs : list PL) : list Qc := concat (map (fun f => map (pl_at f) (input_times L pt)) (chosen (edge_input_mask L dist e) fs)).
Definition nb_idl (L : learned) (dist e : nat) : list nat := chosen (chosen (l_in L) (edge_input_mask L dist e)) (seq 0 (count_true (l_in L))).
Section NbBatch.
Variables (L : learned) (pts : list Qc) (dist : nat) (fs : list PL).
Hypothesis LF : Forall line fs.
Hypothesis LEN : length fs = length (l_in L).
Hypothesis NET : length (g_edges (w_graph (l_nw L))) = length fs.
Let eq := combine (seq 0 (length (chosen (l_in L) fs))) (map (table L pts) (chosen (l_in L) fs)).
Lemma mask_length e : length (mask_undirected (w_graph (l_nw L)) e dist) = length (l_in L).
Proof. unfold mask_undirected. rewrite map_length, NET, LEN. reflexivity. Qed.
Lemma edge_mask_length e : length (edge_input_mask L dist e) = length fs.
Proof. unfold edge_input_mask. rewrite map_length, combine_length, mask_length, <- LEN. lia. Qed.
Lemma nb_select_rows pt rows e : length rows = length fs ->
  (forall e f, nth_error (l_in L) e = Some true -> nth_error fs e = Some f -> nth_error rows e = Some (map (pl_at f) (input_times L pt))) ->
  exists qs, select (edge_input_mask L dist e) rows = Ok qs /\ concat qs = nb_values L dist pt e fs.
Proof.
  intros LR N. rewrite select_ok by (rewrite edge_mask_length; lia). eexists. split; [reflexivity|]. unfold nb_values. f_equal.
  apply (chosen_rows (fun f => map (pl_at f) (input_times L pt)) _ _ _ (l_in L)); [exact LR|apply edge_mask_length|apply and_mask_sub|exact N].
Qed.
Lemma nb_ids e : select (l_in L) (edge_input_mask L dist e) = Ok (chosen (l_in L) (edge_input_mask L dist e)) /\
  select (chosen (l_in L) (edge_input_mask L dist e)) (seq 0 (count_true (l_in L))) = Ok (nb_idl L dist e) /\
  chosen (edge_input_mask L dist e) fs = map (fun i => nth i (chosen (l_in L) fs) queue0) (nb_idl L dist e) /\ forall i, In i (nb_idl L dist e) -> (i < length (chosen (l_in L) fs))%nat.
Proof.
  rewrite select_ok by (rewrite edge_mask_length; lia). split; [reflexivity|]. unfold nb_idl.
  assert (C1 : length (chosen (l_in L) (edge_input_mask L dist e)) = count_true (l_in L)) by (apply count_chosen; rewrite edge_mask_length; exact LEN).
  assert (C2 : length (chosen (l_in L) fs) = count_true (l_in L)) by (apply count_chosen, LEN).
  rewrite select_ok by (rewrite seq_length, C1; lia). split; [reflexivity|]. split.
  - unfold edge_input_mask at 1. rewrite chosen_and by (rewrite ?mask_length; auto). fold (edge_input_mask L dist e). rewrite (chosen_ids _ (chosen (l_in L) fs) queue0), C2. reflexivity.
  - intros i I. apply chosen_in, in_seq in I. rewrite C2. lia.
Qed.
Lemma nb_batch_values pt ids e : In pt pts -> chosen (edge_input_mask L dist e) fs = map (fun i => nth i (chosen (l_in L) fs) queue0) ids -> (forall i, In i ids -> (i < length (chosen (l_in L) fs))%nat) ->
  batch_values L pt ids eq = Ok (nb_values L dist pt e fs).
Proof.
  intros I E B. unfold batch_values, nb_values. rewrite E, map_map.
  rewrite (mapM_map _ (fun i => map (pl_at (nth i (chosen (l_in L) fs) queue0)) (input_times L pt))); [reflexivity|].
  intros i Ii. pose proof (dfetch_seq (table L pts) (chosen (l_in L) fs) 0 i (nth i (chosen (l_in L) fs) queue0) (nth_error_nth' _ _ (B i Ii))) as D. cbn [Nat.add] in D. unfold eq. rewrite D. cbn [bind].
  apply mapM_map. intros t It. apply (table_get L pts pt); assumption.
Qed.
Lemma nb_current pt e f : In pt pts -> In pt (input_times L pt) -> nth_error (l_in L) e = Some true -> nth_error fs e = Some f ->
  (dd <- dfetch eq (count_true (firstn e (l_in L))) ;; qget dd pt) = Ok (pl_at f pt).
Proof.
  intros I J M N. pose proof (dfetch_seq (table L pts) (chosen (l_in L) fs) 0 _ f (chosen_index _ _ _ _ M N)) as D. cbn [Nat.add] in D. unfold eq. rewrite D. cbn [bind].
  apply (table_get L pts pt); assumption.
Qed.
End NbBatch.

(** ** Edge loads *)
Lemma interp_right s s' l t0 v0 r t : t0 < t -> interp s l ((t0, v0) :: r) t = interp s' l ((t0, v0) :: r) t.
Proof. intro H. cbn [interp]. destruct (qlebP t t0) as [Q|Q]; [exfalso; qlra|reflexivity]. Qed.
Lemma edge_load_ok a b : valid (c_acc a) -> valid (c_acc b) -> pl_lo (c_acc a) = Fin 0 -> pl_lo (c_acc b) = Fin 0 -> pl_hi (c_acc a) = PInf -> pl_hi (c_acc b) = PInf ->
  pl_at (c_acc a) 0 = 0 -> pl_at (c_acc b) 0 = 0 -> separated (0 :: pl_times (c_acc a) ++ pl_times (c_acc b)) ->
  exists f, edge_load a b = Ok f /\ line f /\ (forall t, t <= 0 -> pl_at f t = 0) /\ forall t, 0 <= t -> pl_at f t = pl_at (c_acc a) t - pl_at (c_acc b) t.
Proof.
  intros VA VB LA LB HA HB ZA ZB SEP. assert (E0 : 0 < eps) by (apply qltb_true; vm_compute; reflexivity).
  destruct (neg_ok (c_acc b) VB) as [n [EN [VN [TN [LN [HN [_ [_ AN]]]]]]]].
  destruct (plus_ok (c_acc a) n VA VN) as [p [EP [VP [LP [HP [DP [AP TP]]]]]]].
  { rewrite LN, HN, LA, LB, HA, HB. destruct (ext_ltbP (ext_max (Fin 0) (Fin 0)) (ext_min PInf PInf)) as [X|X]; [exact X|]. exfalso. apply X. unfold ext_max, ext_min. intro Y. destruct (ext_ltb (Fin 0) (Fin 0)), (ext_ltb PInf PInf); exact Y. }
  { unfold plus_sep. rewrite TN, LN, HN, LA, LB, HA, HB.
    assert (SUB : forall x, In x (pl_times (c_acc a) ++ pl_times (c_acc b) ++ fin_list (ext_max (Fin 0) (Fin 0)) ++ fin_list (ext_min PInf PInf)) -> In x (0 :: pl_times (c_acc a) ++ pl_times (c_acc b))).
    { intros x I. rewrite !in_app_iff in I. cbn [In]. rewrite in_app_iff. destruct I as [I|[I|[I|I]]]; auto; [|destruct I]. left. replace (ext_max (Fin 0) (Fin 0)) with (Fin 0) in I by (unfold ext_max; destruct (ext_ltb (Fin 0) (Fin 0)); reflexivity). destruct I as [I|[]]. exact I. }
    intros x y Ix Iy. apply SEP; auto. }
  rewrite LN, LA, LB in LP. rewrite HN, HA, HB in HP. assert (LP0 : pl_lo p = Fin 0) by (rewrite LP; reflexivity). clear LP. change (ext_min PInf PInf) with PInf in HP.
  assert (DM : forall t, 0 <= t -> in_dom p t). { intros t T. unfold in_dom. rewrite LP0, HP. split; [exact T|exact Logic.I]. }
  assert (PA : forall t, 0 <= t -> pl_at p t = pl_at (c_acc a) t - pl_at (c_acc b) t) by (intros t T; rewrite (AP t (DM t T)), AN; ring).
  assert (PZ : pl_at p 0 = 0) by (rewrite PA, ZA, ZB by qlra; ring).
  assert (TS : forall x, In x (pl_times p) -> 0 <= x /\ (0 < x -> gap 0 x)).
  { intros x I. assert (X0 : 0 <= x). { destruct (v_dom _ VP x I) as [D _]. rewrite LP0 in D. exact D. }
    split; [exact X0|]. intro XP. apply SEP; [left; reflexivity| |exact XP]. cbn [In]. rewrite in_app_iff. rewrite TN in TP. destruct (TP x I) as [T|[T|[T|T]]]; auto.
    - rewrite LP0 in T. injection T as <-. left. reflexivity.
    - rewrite HP in T. discriminate T. }
  unfold edge_load. unfold pl_sub. rewrite EN. cbn [bind]. rewrite EP. cbn [bind]. rewrite LP0. cbn [ext_eqb]. replace (qeqb 0 0) with true by reflexivity. cbn [bind].
  rewrite (eval_at p 0 VP (DM 0 ltac:(qlra))), PZ. cbn [bind]. replace (qltb (qabs 0) eps) with true by (vm_compute; reflexivity). cbn [bind].
  pose proof VP as [V1 V2 V3 V4]. destruct p as [ts vs fi la lo hi]. cbn [pl_times pl_values pl_first pl_last pl_lo pl_hi] in *. subst lo hi.
  destruct ts as [|t0 ts]; [contradiction V2; reflexivity|]. destruct vs as [|v0 vs]; [discriminate V1|].
  change (pyget (v0 :: vs) 0) with (@Ok Qc v0). cbn [bind].
  assert (LEFT : forall t, t <= t0 -> pl_at (mkPL (t0 :: ts) (v0 :: vs) fi la (Fin 0) PInf) t = v0 + (t - t0) * fi).
  { intros t T. unfold pl_at, PLProofs.pts. cbn [pl_times pl_values pl_first pl_last combine interp]. destruct (qlebP t t0) as [_|N]; [reflexivity|contradiction]. }
  destruct (TS t0 (or_introl eq_refl)) as [T0 T1]. rewrite (LEFT 0 T0) in PZ.
  eexists. split; [reflexivity|]. destruct (qeqbP v0 0) as [V0|V0].
  - subst v0. assert (RR : forall t, 0 <= t -> pl_at (mkPL (t0 :: ts) (0 :: vs) 0 la NInf PInf) t = pl_at (mkPL (t0 :: ts) (0 :: vs) fi la (Fin 0) PInf) t).
    { intros t T. destruct (Qclt_le_dec t0 t) as [Q|Q].
      - unfold pl_at, PLProofs.pts. cbn [pl_times pl_values pl_first pl_last combine]. apply interp_right, Q.
      - rewrite (LEFT t Q). unfold pl_at, PLProofs.pts. cbn [pl_times pl_values pl_first pl_last combine interp]. destruct (qlebP t t0) as [_|N]; [|contradiction].
        destruct (qeqbP t0 0) as [->|N]; [assert (t = 0) by qlra; subst t; ring|]. assert (t0 * fi = 0) by qlra. destruct (Qcmult_integral _ _ H) as [X|X]; [contradiction|]. subst fi. ring. }
    split; [|split].
    + split; [|split; reflexivity]. constructor; cbn [pl_times pl_values]; auto. intros x I. split; exact Logic.I.
    + intros t T. unfold pl_at, PLProofs.pts. cbn [pl_times pl_values pl_first pl_last combine interp]. destruct (qlebP t t0) as [_|N]; [ring|exfalso; qlra].
    + intros t T. rewrite (RR t T). apply PA, T.
  - assert (TP0 : 0 < t0). { destruct (qeqbP t0 0) as [->|N]; [exfalso; apply V0; qlra|qlra]. }
    assert (FI : (v0 - 0) / (t0 - 0) = fi). { assert (fi * t0 = v0) by qlra. rewrite <- H. field. qlra. }
    split; [|split].
    + split; [|split; reflexivity]. constructor; cbn [pl_times pl_values]; [cbn [length] in *; congruence|discriminate| |intros x I; split; exact Logic.I].
      constructor; [exact V3|]. apply Forall_forall. intros x I. destruct (TS x I) as [X0 X1]. apply X1. inversion V3 as [|? ? _ G]; subst. destruct I as [<-|I]; [exact TP0|]. rewrite Forall_forall in G. specialize (G x I). unfold gap in G. qlra.
    + intros t T. unfold pl_at, PLProofs.pts. cbn [pl_times pl_values pl_first pl_last combine interp]. destruct (qlebP t 0) as [_|N]; [ring|contradiction].
    + intros t T. rewrite <- (PA t T). destruct (qeqbP t 0) as [->|N].
      * rewrite (LEFT 0 T0), PZ. unfold pl_at, PLProofs.pts. cbn [pl_times pl_values pl_first pl_last combine interp]. destruct (qlebP 0 0) as [_|N]; [ring|exfalso; qlra].
      * unfold pl_at, PLProofs.pts. cbn [pl_times pl_values pl_first pl_last combine].
        change (interp 0 la ((0, 0) :: (t0, v0) :: combine ts vs) t) with (if qleb t 0 then 0 + (t - 0) * 0 else interp ((v0 - 0) / (t0 - 0)) la ((t0, v0) :: combine ts vs) t).
        destruct (qlebP t 0) as [Q|Q]; [exfalso; qlra|]. rewrite FI. reflexivity.
Qed.
