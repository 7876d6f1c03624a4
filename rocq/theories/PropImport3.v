(** * C92: the names of the flow files *)
From Verif Require Import Base Import.

(** Strings compare character by character. *)
Fixpoint lex_lt (a b : list nat) : Prop :=
  match a, b with
  | [], _ :: _ => True
  | x :: a', y :: b' => (x < y)%nat \/ (x = y /\ lex_lt a' b')
  | _, [] => False
  end.
(** The number a digit string denotes. *)
Definition value (s : list nat) : nat := fold_left (fun a d => 10 * a + d)%nat s 0%nat.
Open Scope nat_scope.

Lemma value_app s d : value (s ++ [d]) = 10 * value s + d.
Proof. unfold value. rewrite fold_left_app. reflexivity. Qed.
Lemma value_zeros k s : value (repeat 0 k ++ s) = value s.
Proof. unfold value. rewrite fold_left_app. replace (fold_left (fun a d => 10 * a + d) (repeat 0 k) 0) with 0; [reflexivity|]. induction k; [reflexivity|exact IHk]. Qed.
Lemma digits_spec f n : n < f -> value (digits f n) = n /\ (forall d, In d (digits f n) -> d < 10) /\ digits f n <> [] /\ (forall k, n < 10 ^ k -> length (digits f n) <= Nat.max 1 k).
Proof.
  revert n. induction f as [|f IH]; intros n L; [lia|]. cbn [digits]. destruct (Nat.ltb_spec n 10) as [H|H].
  - split; [unfold value; cbn [fold_left]; lia|]. split; [intros d [<-|[]]; exact H|]. split; [discriminate|]. intros k _. cbn [length]. lia.
  - pose proof (Nat.div_mod n 10 ltac:(lia)) as DM. pose proof (Nat.mod_upper_bound n 10 ltac:(lia)) as MB.
    destruct (IH (n / 10)) as (V & D & NE & LN); [apply Nat.div_lt_upper_bound; lia|].
    rewrite value_app, V. split; [lia|]. split; [intros d I; apply in_app_iff in I; destruct I as [I|[<-|[]]]; auto|]. split; [intro Z; destruct (digits f (n / 10)); discriminate Z|].
    intros [|k] K; [cbn in K; lia|]. rewrite app_length. cbn [length]. assert (Q : n / 10 < 10 ^ k) by (apply Nat.div_lt_upper_bound; [lia|]; cbn [Nat.pow] in K; lia). specialize (LN k Q).
    destruct k as [|k]; [cbn in K; lia|lia].
Qed.
Lemma clog_spec f k n : n <= 10 ^ (k + f) -> n <= 10 ^ clog10 f k n /\ k <= clog10 f k n <= k + f.
Proof.
  revert k. induction f as [|f IH]; intros k L; cbn [clog10]; [rewrite Nat.add_0_r in L; split; [exact L|lia]|].
  destruct (Nat.leb_spec n (10 ^ k)) as [H|H]; [split; [exact H|lia]|]. destruct (IH (S k)) as [A B]; [replace (S k + f) with (k + S f) by lia; exact L|]. split; [exact A|lia].
Qed.
Lemma clog_least f k n : forall j, k <= j < clog10 f k n -> 10 ^ j < n.
Proof.
  revert k. induction f as [|f IH]; intros k j L; cbn [clog10] in L; [lia|]. destruct (Nat.leb_spec n (10 ^ k)) as [H|H]; [lia|].
  destruct (Nat.eq_dec j k) as [->|N]; [exact H|]. apply (IH (S k)). lia.
Qed.
Definition width (n : nat) := clog10 n 0 n.
Lemma width_spec n : n <= 10 ^ width n.
Proof. apply clog_spec. cbn [Nat.add]. assert (Q : n < 10 ^ n) by (apply Nat.pow_gt_lin_r; lia). lia. Qed.
Lemma id_value n i : value (flow_id n i) = i.
Proof. unfold flow_id, zfill. rewrite value_zeros. apply digits_spec. lia. Qed.
Lemma id_digits n i d : In d (flow_id n i) -> d < 10.
Proof. unfold flow_id, zfill. intro I. apply in_app_iff in I. destruct I as [I|I]; [apply repeat_spec in I; lia|]. destruct (digits_spec (S i) i ltac:(lia)) as (_ & D & _). apply D, I. Qed.
Lemma id_length n i : i < n -> length (flow_id n i) = Nat.max 1 (width n).
Proof.
  intro L. destruct (digits_spec (S i) i ltac:(lia)) as (_ & _ & NE & LN). specialize (LN (width n)). pose proof (width_spec n). specialize (LN ltac:(lia)).
  unfold flow_id, zfill. fold (width n). rewrite app_length, repeat_length. unfold py_str in *. destruct (digits (S i) i); [congruence|]. cbn [length] in *. lia.
Qed.
Lemma value_bound s : (forall d, In d s -> d < 10) -> value s < 10 ^ length s.
Proof.
  induction s as [|d s IH] using rev_ind; intro D; [cbn; lia|]. rewrite value_app, app_length. cbn [length]. rewrite Nat.add_1_r. cbn [Nat.pow]. specialize (IH (fun e I => D e (in_or_app _ _ _ (or_introl I)))). assert (D1 : d < 10) by (apply D, in_or_app; right; left; reflexivity). lia.
Qed.
Lemma value_cons x s : value (x :: s) = x * 10 ^ length s + value s.
Proof.
  induction s as [|d s IH] using rev_ind; [cbn; lia|]. rewrite app_comm_cons, !value_app, IH, app_length. cbn [length]. rewrite Nat.add_1_r. cbn [Nat.pow]. lia.
Qed.
Lemma lex_value a : forall b, length a = length b -> (forall d, In d a -> d < 10) -> (forall d, In d b -> d < 10) -> (lex_lt a b <-> value a < value b).
Proof.
  induction a as [|x a IH]; intros [|y b] L DA DB; try discriminate L; [cbn; lia|]. cbn [length] in L. injection L as L. rewrite !value_cons, <- L. cbn [lex_lt].
  pose proof (value_bound a (fun d I => DA d (or_intror I))) as BA. pose proof (value_bound b (fun d I => DB d (or_intror I))) as BB. rewrite <- L in BB.
  specialize (IH b L (fun d I => DA d (or_intror I)) (fun d I => DB d (or_intror I))). set (W := 10 ^ length a) in *. rewrite IH.
  destruct (lt_eq_lt_dec x y) as [[H|H]|H].
  - split; [intros _|intros _; left; exact H]. assert (x * W + W <= y * W) by nia. lia.
  - subst y. lia.
  - split; [intros [C|[C _]]; lia|]. assert (y * W + W <= x * W) by nia. lia.
Qed.

(** The names of the flows of one call are pairwise different, have the same length,
    and sorting them sorts the flows. *)
Theorem C92_names : forall n i j, i < n -> j < n ->
  (flow_id n i = flow_id n j -> i = j) /\ length (flow_id n i) = length (flow_id n j) /\ (lex_lt (flow_id n i) (flow_id n j) <-> i < j).
Proof.
  intros n i j I J. split; [intro E; rewrite <- (id_value n i), <- (id_value n j), E; reflexivity|]. split; [rewrite !id_length by assumption; reflexivity|].
  rewrite lex_value; [rewrite !id_value; tauto|rewrite !id_length by assumption; reflexivity|apply id_digits|apply id_digits].
Qed.
Print Assumptions C92_names.
(** The name is the number, padded with zeros. *)
Theorem C92_value : forall n i, value (flow_id n i) = i /\ forall d, In d (flow_id n i) -> d < 10.
Proof. intros n i. split; [apply id_value|apply id_digits]. Qed.
Print Assumptions C92_value.
(** A later call for another number of flows with as many digits finds the flows. *)
Theorem C92_resume : forall n m i k, 10 ^ k < n <= 10 ^ S k -> 10 ^ k < m <= 10 ^ S k -> flow_id n i = flow_id m i.
Proof.
  assert (W : forall n k, 10 ^ k < n <= 10 ^ S k -> width n = S k).
  { intros n k [L U]. pose proof (width_spec n) as A. destruct (lt_eq_lt_dec (width n) (S k)) as [[H|H]|H]; [|exact H|].
    - assert (10 ^ width n <= 10 ^ k) by (apply Nat.pow_le_mono_r; lia). lia.
    - assert (10 ^ S k < n) by (apply (clog_least n 0 n); unfold width in H; lia). lia. }
  intros n m i k A B. unfold flow_id. fold (width n) (width m). rewrite (W n k A), (W m k B). reflexivity.
Qed.
Print Assumptions C92_resume.
(** REFUTED: "flows that are saved already are not computed again" when the number of
    flows grows past a power of ten: all names change. *)
Theorem C92_resume_refuted : forall k i j, i < 10 ^ S k -> j < 10 ^ S k + 1 -> flow_id (10 ^ S k) i <> flow_id (10 ^ S k + 1) j.
Proof.
  assert (P : forall k, 0 < 10 ^ k) by (intro k; apply Nat.neq_0_lt_0, Nat.pow_nonzero; lia).
  assert (W : forall n k, 10 ^ k < n <= 10 ^ S k -> width n = S k).
  { intros n k [L U]. pose proof (width_spec n) as A. destruct (lt_eq_lt_dec (width n) (S k)) as [[H|H]|H]; [|exact H|].
    - assert (10 ^ width n <= 10 ^ k) by (apply Nat.pow_le_mono_r; lia). lia.
    - assert (10 ^ S k < n) by (apply (clog_least n 0 n); unfold width in H; lia). lia. }
  intros k i j I J E. apply (f_equal (@length nat)) in E. rewrite !id_length in E by assumption.
  rewrite (W _ k) in E by (cbn [Nat.pow]; pose proof (P k); lia). rewrite (W _ (S k)) in E by (cbn [Nat.pow]; pose proof (P k); lia). lia.
Qed.
Print Assumptions C92_resume_refuted.

Example ex_ids : flow_id 150 7 = [0; 0; 7] /\ flow_id 150 149 = [1; 4; 9] /\ flow_id 100 7 = [0; 7] /\ flow_id 10 7 = [7] /\ flow_id 1 0 = [0] /\ flow_id 11 7 = [0; 7].
Proof. vm_compute. repeat split; reflexivity. Qed.
