(** * C58, C70: file locks (src/utilities/file_lock.py) *)
From Coq Require Import List Bool Arith Lia.
From Verif Require Import FileLock.
Import ListNotations.

Ltac pcase := unfold set_pc, set_lock, set_files in *; cbn [pcs lock files] in *.
Lemma step_other expect p s s' q : step expect p s s' -> q <> p -> pcs s' q = pcs s q.
Proof. intros H N. destruct H; pcase; try reflexivity; destruct (Nat.eqb_spec q p); congruence. Qed.

(** ** What holds for every interleaving *)
(** A call that finds the lock, or all expected files, returns without running
    the handler and without touching any file. *)
Theorem C58_skips : forall expect p s s', step expect p s s' ->
  (pcs s p = Start /\ lock s = true) \/ pcs s p = Checking [] ->
  pcs s' p = Skipped \/ pcs s' p = Crashed.
Proof.
  intros expect p s s' H [[E L]|E]; destruct H; try congruence; pcase; rewrite Nat.eqb_refl; auto.
Qed.
Print Assumptions C58_skips.
(** Only a running handler changes files, only entering and leaving changes the
    lock, and a finished call does nothing more. *)
Theorem C58_effects : forall expect p s s', step expect p s s' ->
  ((exists x, files s' x <> files s x) -> pcs s p = Handling) /\
  (lock s' <> lock s -> (pcs s p = Entering /\ pcs s' p = Handling) \/ exists r, pcs s p = Leaving r) /\
  running (pcs s p) /\ forall q, q <> p -> pcs s' q = pcs s q.
Proof.
  intros expect p s s' H. split; [|split; [|split]].
  - intros [x X]. destruct H; pcase; try congruence.
  - intro L. destruct H; pcase; try congruence; [left; rewrite Nat.eqb_refl; auto|right; eauto].
  - destruct H; rewrite ?H; try exact I; assumption.
  - intros q N. eapply step_other; eauto.
Qed.
Print Assumptions C58_effects.
(** The handler runs only in a call that saw neither the lock nor all files;
    whether it returns or raises, the lock is gone when the call ends, and the
    exception is passed on. *)
Theorem C58_released : forall expect p s s', step expect p s s' ->
  (pcs s' p = Returned \/ pcs s' p = Raised -> lock s' = false /\ pcs s p = Leaving (match pcs s' p with Raised => true | _ => false end)) /\
  (pcs s' p = Handling -> pcs s p = Handling \/ (pcs s p = Entering /\ lock s' = true)) /\
  (pcs s' p = Entering -> exists x r, pcs s p = Checking (x :: r) /\ files s x = false).
Proof.
  intros expect p s s' H. split; [|split].
  - intros D. destruct H; pcase; rewrite ?Nat.eqb_refl in *; destruct D as [D|D]; try congruence; destruct r; try congruence; auto.
  - intros D. destruct H; pcase; rewrite ?Nat.eqb_refl in *; try congruence; auto. destruct r; congruence.
  - intros D. destruct H; pcase; rewrite ?Nat.eqb_refl in *; try congruence; eauto. destruct r; congruence.
Qed.
Print Assumptions C58_released.

(** ** Mutual exclusion *)
(** Executions in which nobody else moves between the lock check of a call and
    the creation of its lock file, and in which creating it never fails. *)
Definition undecided (x : pc) : Prop := match x with Checking _ | Entering => True | _ => False end.
Inductive reach_atomic (expect : list nat) (s0 : fs) : fs -> Prop :=
| ra_refl : reach_atomic expect s0 s0
| ra_step s p s' : reach_atomic expect s0 s -> step expect p s s' -> (forall q, q <> p -> ~ undecided (pcs s q)) ->
    (pcs s p = Entering -> pcs s' p = Handling \/ pcs s' p = Crashed) -> reach_atomic expect s0 s'.
Definition inside (x : pc) : Prop := match x with Handling | Leaving _ => True | _ => False end.
Record linv (s : fs) : Prop := {
  li_one : forall p q, inside (pcs s p) -> inside (pcs s q) -> p = q;
  li_lock : forall p, inside (pcs s p) -> lock s = true;
  li_und : forall p, undecided (pcs s p) -> lock s = false;
  li_uone : forall p q, undecided (pcs s p) -> undecided (pcs s q) -> p = q }.
Lemma linv_step expect s p s' : linv s -> step expect p s s' -> (forall q, q <> p -> ~ undecided (pcs s q)) ->
  (pcs s p = Entering -> pcs s' p = Handling \/ pcs s' p = Crashed) -> linv s'.
Proof.
  intros [I1 I2 I3 I4] H A NF.
  assert (OT : forall q, q <> p -> pcs s' q = pcs s q) by (intros q N; eapply step_other; eauto).
  (* how the step may move p and the lock *)
  assert (M : (inside (pcs s' p) /\ inside (pcs s p) /\ lock s' = lock s) \/
              (inside (pcs s' p) /\ undecided (pcs s p) /\ lock s' = true) \/
              (undecided (pcs s' p) /\ lock s = false /\ lock s' = false) \/
              (~ inside (pcs s' p) /\ ~ undecided (pcs s' p) /\ lock s' = lock s) \/
              (~ inside (pcs s' p) /\ ~ undecided (pcs s' p) /\ inside (pcs s p) /\ lock s' = false)).
  { pose proof (I3 p) as U. destruct H; pcase; rewrite ?Nat.eqb_refl in *; rewrite ?H in *; cbn [inside undecided] in *.
    - do 3 right. left. auto.
    - do 2 right. left. auto.
    - do 2 right. left. auto.
    - do 2 right. left. auto.
    - do 3 right. left. auto.
    - right. left. auto.
    - destruct (NF eq_refl) as [E|E]; discriminate E.
    - left. auto.
    - left. auto.
    - do 4 right. destruct r; auto.
    - do 3 right. left. auto. }
  assert (NO : forall q, q <> p -> ~ undecided (pcs s' q)) by (intros q N; rewrite OT by exact N; apply A, N).
  assert (UU : forall q, undecided (pcs s' q) -> q = p). { intros q U. destruct (Nat.eq_dec q p) as [|N]; [assumption|destruct (NO q N U)]. }
  assert (SOLE : inside (pcs s' p) -> forall q, inside (pcs s' q) -> q = p).
  { intros X q Y. destruct (Nat.eq_dec q p) as [|N]; [assumption|]. rewrite OT in Y by exact N.
    destruct M as [(_ & M & _)|[(_ & M & _)|[(M & _ & _)|[(M & _)|(M & _)]]]]; [apply I1; assumption| |destruct (pcs s' p); contradiction|contradiction|contradiction].
    pose proof (I2 q Y). pose proof (I3 p M). congruence. }
  constructor.
  - intros a b Ia Ib. destruct (Nat.eq_dec a p) as [->|Na]; [symmetry; apply SOLE; assumption|]. destruct (Nat.eq_dec b p) as [->|Nb]; [apply SOLE; assumption|].
    rewrite OT in Ia, Ib by assumption. apply I1; assumption.
  - intros a Ia. destruct (Nat.eq_dec a p) as [->|Na].
    + destruct M as [(_ & M & E)|[(_ & _ & E)|[(M & _ & _)|[(M & _)|(M & _)]]]]; [rewrite E; apply (I2 p M)|exact E|destruct (pcs s' p); contradiction|contradiction|contradiction].
    + rewrite OT in Ia by exact Na. pose proof (I2 a Ia) as L. destruct M as [(_ & _ & E)|[(_ & _ & E)|[(_ & E & _)|[(_ & _ & E)|(_ & _ & M & _)]]]]; try congruence. destruct (Na (I1 _ _ Ia M)).
  - intros a Ua. pose proof (UU a Ua) as ->. destruct M as [(M & _)|[(M & _)|[(_ & _ & E)|[(_ & M & _)|(_ & M & _)]]]]; [destruct (pcs s' p); contradiction|destruct (pcs s' p); contradiction|exact E|contradiction|contradiction].
  - intros a b Ua Ub. rewrite (UU a Ua), (UU b Ub). reflexivity.
Qed.
Lemma linv_fresh s : fresh s -> linv s.
Proof. intros [_ P]. constructor; intros p; rewrite P; intros; contradiction. Qed.
Theorem C58_mutual_exclusion_partial : forall expect s0 s, fresh s0 -> reach_atomic expect s0 s ->
  (forall p q, pcs s p = Handling -> pcs s q = Handling -> p = q) /\ (forall p, pcs s p = Handling -> lock s = true).
Proof.
  intros expect s0 s F R. assert (L : linv s). { induction R as [|s p s' R IH H A NF]; [apply linv_fresh, F|eapply linv_step; eauto]. }
  split; [intros p q P Q; apply (li_one s L); [rewrite P|rewrite Q]; exact I|intros p P; apply (li_lock s L p); rewrite P; exact I].
Qed.
Print Assumptions C58_mutual_exclusion_partial.

(** ** What fails *)
Definition s_init : fs := mkFs false (fun _ => false) (fun _ => Start).
Example fresh_init : fresh s_init.
Proof. split; reflexivity. Qed.
(** Two processes that both check before either creates the lock both run the
    handler; when one of them leaves, the other runs without any lock. *)
Theorem C58_race_refuted : exists s, reach [0] s_init s /\ pcs s 0 = Handling /\ pcs s 1 = Handling.
Proof.
  eexists. split.
  - eapply r_step with (p := 1); [eapply r_step with (p := 0); [eapply r_step with (p := 1); [eapply r_step with (p := 0); [eapply r_step with (p := 1); [eapply r_step with (p := 0); [apply r_refl|]|]|]|]|]|].
    + apply st_unlocked; reflexivity.
    + apply st_unlocked; reflexivity.
    + eapply st_missing; reflexivity.
    + eapply st_missing; reflexivity.
    + apply st_create; reflexivity.
    + apply st_create; reflexivity.
  - split; reflexivity.
Qed.
Print Assumptions C58_race_refuted.
Theorem C58_unlocked_refuted : exists s, reach [0] s_init s /\ pcs s 0 = Handling /\ lock s = false.
Proof.
  destruct C58_race_refuted as (s & R & P0 & P1). eexists. split.
  - eapply r_step with (p := 1); [eapply r_step with (p := 1); [exact R|apply (st_handled _ _ _ false), P1]|]. apply (st_remove _ _ _ false). pcase. reflexivity.
  - split; [pcase; exact P0|reflexivity].
Qed.
Print Assumptions C58_unlocked_refuted.
(** A failed creation of the lock file removes the lock of another process:
    atomic checks are not enough. *)
Theorem C58_failed_open_refuted : exists s, reach [0] s_init s /\ pcs s 0 = Raised /\ pcs s 1 = Handling /\ pcs s 2 = Handling.
Proof.
  eexists. split.
  - eapply r_step with (p := 2); [eapply r_step with (p := 2); [eapply r_step with (p := 2); [eapply r_step with (p := 0);
     [eapply r_step with (p := 1); [eapply r_step with (p := 1); [eapply r_step with (p := 1); [eapply r_step with (p := 0); [eapply r_step with (p := 0); [eapply r_step with (p := 0); [apply r_refl|]|]|]|]|]|]|]|]|]|].
    + apply st_unlocked; reflexivity.
    + eapply st_missing; reflexivity.
    + apply st_no_create; reflexivity.
    + apply st_unlocked; reflexivity.
    + eapply st_missing; reflexivity.
    + apply st_create; reflexivity.
    + apply (st_remove _ _ _ true). reflexivity.
    + apply st_unlocked; reflexivity.
    + eapply st_missing; reflexivity.
    + apply st_create; reflexivity.
  - split; [|split]; reflexivity.
Qed.
Print Assumptions C58_failed_open_refuted.
(** A lock left behind by a crash is never removed: all later calls skip and
    no file ever changes again. *)
Theorem C58_stale_lock : forall expect s0 s, lock s0 = true -> (forall p, pcs s0 p = Start \/ ~ running (pcs s0 p)) ->
  reach expect s0 s -> lock s = true /\ (forall x, files s x = files s0 x) /\ forall p, pcs s p = Start \/ ~ running (pcs s p).
Proof.
  intros expect s0 s L P R. induction R as [|s p s' R IH H]; [auto|]. destruct IH as (I1 & I2 & I3).
  assert (ST : pcs s p = Start). { destruct (I3 p) as [E|N]; [exact E|]. exfalso. apply N. apply (C58_effects expect p s s' H). }
  assert (D : pcs s' p = Skipped \/ pcs s' p = Crashed) by (apply (C58_skips expect p s s' H); auto).
  assert (F : forall x, files s' x = files s x /\ lock s' = lock s) by (intro x; destruct H; pcase; try congruence; auto).
  split; [destruct (F 0); congruence|]. split; [intro x; rewrite <- I2; apply F|].
  intro q. destruct (Nat.eq_dec q p) as [->|N]; [right; destruct D as [-> | ->]; exact (fun x => x)|]. rewrite (step_other _ _ _ _ _ H N). apply I3.
Qed.
Print Assumptions C58_stale_lock.
Theorem C58_crash_refuted : exists s, reach [0] s_init s /\ lock s = true /\ files s 0 = false /\ forall p, pcs s p = Start \/ ~ running (pcs s p).
Proof.
  eexists. split.
  - eapply r_step with (p := 0); [eapply r_step with (p := 0); [eapply r_step with (p := 0); [eapply r_step with (p := 0); [apply r_refl|]|]|]|].
    + apply st_unlocked; reflexivity.
    + eapply st_missing; reflexivity.
    + apply st_create; reflexivity.
    + apply st_crash. exact I.
  - split; [reflexivity|]. split; [reflexivity|]. intros [|p]; [right; exact (fun x => x)|left; reflexivity].
Qed.
Print Assumptions C58_crash_refuted.
(** An atomic execution with two successive handlers, the second of which
    finds the first one's output missing. *)
Example C58_atomic_example : exists s, reach_atomic [0] s_init s /\ pcs s 0 = Raised /\ pcs s 1 = Handling /\ pcs s 2 = Skipped.
Proof.
  Ltac ok0 := intros q N; unfold s_init; pcase; repeat match goal with |- context [Nat.eqb ?a ?b] => destruct (Nat.eqb_spec a b); subst; try congruence end; exact (fun x => x).
  eexists. split.
  - eapply ra_step with (p := 2); [eapply ra_step with (p := 1); [eapply ra_step with (p := 1); [eapply ra_step with (p := 1);
     [eapply ra_step with (p := 0); [eapply ra_step with (p := 0); [eapply ra_step with (p := 0); [eapply ra_step with (p := 0); [eapply ra_step with (p := 0); [apply ra_refl|..]|..]|..]|..]|..]|..]|..]|..]|..].
    + apply st_unlocked; reflexivity.
    + ok0.
    + discriminate.
    + eapply st_missing; reflexivity.
    + ok0.
    + discriminate.
    + apply st_create; reflexivity.
    + ok0.
    + left; reflexivity.
    + apply (st_handled _ _ _ true); reflexivity.
    + ok0.
    + discriminate.
    + apply (st_remove _ _ _ true); reflexivity.
    + ok0.
    + discriminate.
    + apply st_unlocked; reflexivity.
    + ok0.
    + discriminate.
    + eapply st_missing; reflexivity.
    + ok0.
    + discriminate.
    + apply st_create; reflexivity.
    + ok0.
    + left; reflexivity.
    + apply st_locked; reflexivity.
    + ok0.
    + discriminate.
  - split; [|split]; reflexivity.
Qed.

(** ** C70: waiting for locks *)
(** A call that runs without interference does exactly what its documentation says: it skips
    iff the lock or all expected files exist at the beginning, otherwise the handler runs. *)
Inductive alone (expect : list nat) (p : nat) (s0 : fs) : fs -> Prop :=
| al_refl : alone expect p s0 s0
| al_step s s' : alone expect p s0 s -> step expect p s s' -> alone expect p s0 s'.
Theorem C58_alone : forall expect p s0, pcs s0 p = Start ->
  (forall s, alone expect p s0 s -> pcs s p = Skipped -> (lock s0 = true \/ forall x, In x expect -> files s0 x = true) /\ lock s = lock s0 /\ forall x, files s x = files s0 x) /\
  (forall s, alone expect p s0 s -> pcs s p = Handling \/ pcs s p = Returned -> lock s0 = false /\ exists x, In x expect /\ files s0 x = false) /\
  (lock s0 = true \/ (forall x, In x expect -> files s0 x = true) -> exists s, alone expect p s0 s /\ pcs s p = Skipped) /\
  (lock s0 = false -> (exists x, In x expect /\ files s0 x = false) -> exists s, alone expect p s0 s /\ pcs s p = Handling /\ lock s = true /\ forall x, files s x = files s0 x).
Proof.
  intros expect p s0 S0.
  assert (INV : forall s, alone expect p s0 s ->
    match pcs s p with
    | Start => lock s = lock s0 /\ forall x, files s x = files s0 x
    | Checking r => lock s0 = false /\ lock s = lock s0 /\ (forall x, files s x = files s0 x) /\ exists l, expect = l ++ r /\ forall x, In x l -> files s0 x = true
    | Skipped => (lock s0 = true \/ forall x, In x expect -> files s0 x = true) /\ lock s = lock s0 /\ forall x, files s x = files s0 x
    | Crashed => True
    | _ => lock s0 = false /\ exists x, In x expect /\ files s0 x = false
    end).
  { intros s A. induction A as [|s s' A IH H]; [rewrite S0; split; reflexivity|].
    destruct H as [E L|E L|x r E L|x r E L|E|E|E|f E|r E|r E|E]; rewrite ?E in IH; pcase; rewrite ?Nat.eqb_refl; try exact I; try exact IH.
    - destruct IH as [I1 I2]. split; [left; congruence|auto].
    - destruct IH as [I1 I2]. split; [congruence|]. split; [exact I1|]. split; [exact I2|]. exists []. split; [reflexivity|intros x []].
    - destruct IH as (I0 & I1 & I2 & l & EL & I3). split; [exact I0|]. split; [exact I1|]. split; [exact I2|]. exists (l ++ [x]). split; [rewrite <- app_assoc; exact EL|]. intros y Y. apply in_app_or in Y. destruct Y as [Y|[<-|[]]]; [auto|]. rewrite <- I2. exact L.
    - destruct IH as (I0 & I1 & I2 & l & EL & I3). split; [exact I0|]. exists x. split; [rewrite EL; apply in_or_app; right; left; reflexivity|rewrite <- I2; exact L].
    - destruct IH as (I0 & I1 & I2 & l & EL & I3). rewrite app_nil_r in EL. subst l. auto.
    - rewrite E. exact IH.
    - destruct r; exact IH. }
  split; [|split; [|split]].
  - intros s A E. specialize (INV s A). rewrite E in INV. exact INV.
  - intros s A [E|E]; specialize (INV s A); rewrite E in INV; exact INV.
  - intro H. destruct (lock s0) eqn:L.
    + eexists. split; [eapply al_step; [apply al_refl|apply st_locked; assumption]|]. pcase. rewrite Nat.eqb_refl. reflexivity.
    + destruct H as [H|H]; [discriminate H|].
      assert (G : forall r s, alone expect p s0 s -> pcs s p = Checking r -> (forall x, In x r -> files s x = true) -> exists s', alone expect p s0 s' /\ pcs s' p = Skipped).
      { induction r as [|x r IH]; intros s A E F.
        - eexists. split; [eapply al_step; [exact A|apply st_complete; exact E]|]. pcase. rewrite Nat.eqb_refl. reflexivity.
        - apply (IH (set_pc s p (Checking r))); [eapply al_step; [exact A|eapply st_found; [exact E|apply F; left; reflexivity]]|pcase; rewrite Nat.eqb_refl; reflexivity|]. intros y Y. pcase. apply F. right. exact Y. }
      apply (G expect (set_pc s0 p (Checking expect))); [eapply al_step; [apply al_refl|apply st_unlocked; assumption]|pcase; rewrite Nat.eqb_refl; reflexivity|pcase; exact H].
  - intros L [x0 [X0 M]].
    assert (G : forall r s, alone expect p s0 s -> pcs s p = Checking r -> (forall x, files s x = files s0 x) -> In x0 r -> exists s', alone expect p s0 s' /\ pcs s' p = Entering /\ forall x, files s' x = files s0 x).
    { induction r as [|x r IH]; intros s A E F I; [destruct I|]. destruct (files s x) eqn:FX.
      - destruct I as [->|I]; [rewrite F in FX; congruence|]. apply (IH (set_pc s p (Checking r))); [eapply al_step; [exact A|eapply st_found; [exact E|exact FX]]|pcase; rewrite Nat.eqb_refl; reflexivity|exact F|exact I].
      - exists (set_pc s p Entering). split; [eapply al_step; [exact A|eapply st_missing; [exact E|exact FX]]|]. pcase. rewrite Nat.eqb_refl. split; [reflexivity|exact F]. }
    destruct (G expect (set_pc s0 p (Checking expect))) as (s & A & E & F); [eapply al_step; [apply al_refl|apply st_unlocked; assumption]|pcase; rewrite Nat.eqb_refl; reflexivity|reflexivity|exact X0|].
    eexists. split; [eapply al_step; [exact A|apply st_create; exact E]|]. pcase. rewrite Nat.eqb_refl. split; [reflexivity|]. split; [reflexivity|exact F].
Qed.
Print Assumptions C58_alone.
(** [wait_for_locks] returns at the first listing without locks; before the
    k-th repetition it sleeps 1, 2, 4, 8, 16, 30, 30, ... seconds. *)
Theorem C70_waits : forall listing n fuel, (forall k, k < n -> 0 < listing k) -> listing n = 0 -> n < fuel ->
  exists sleeps, wait_for_locks fuel listing = Some sleeps /\ length sleeps = n /\
    forall k, k < n -> nth k sleeps 0 = Nat.min (2 ^ k) 30.
Proof.
  intros listing n fuel B E F. unfold wait_for_locks.
  assert (K : forall m j f, (forall k, k < m -> 0 < listing (j + k)) -> listing (j + m) = 0 -> m < f ->
    exists sleeps, wait_loop f listing j (Nat.min (2 ^ j) 30) = Some sleeps /\ length sleeps = m /\ forall k, k < m -> nth k sleeps 0 = Nat.min (2 ^ (j + k)) 30).
  { induction m as [|m IH]; intros j f Bj Ej Fj; (destruct f as [|f]; [lia|]); cbn [wait_loop].
    - rewrite Nat.add_0_r in Ej. rewrite Ej. cbn [Nat.ltb Nat.leb]. exists []. split; [reflexivity|]. split; [reflexivity|lia].
    - pose proof (Bj 0 ltac:(lia)) as B0. rewrite Nat.add_0_r in B0. destruct (Nat.ltb_spec 0 (listing j)); [|lia].
      destruct (IH (S j) f) as (sl & E1 & E2 & E3); [intros k Hk; replace (S j + k) with (j + S k) by lia; apply Bj; lia|replace (S j + m) with (j + S m) by lia; exact Ej|lia|].
      replace (Nat.min (Nat.min (2 ^ j) 30 * 2) 30) with (Nat.min (2 ^ S j) 30) by (cbn [Nat.pow]; lia). rewrite E1. cbn [option_map].
      eexists. split; [reflexivity|]. split; [cbn [length]; lia|]. intros [|k] Hk; cbn [nth]; [rewrite Nat.add_0_r; reflexivity|]. rewrite E3 by lia. f_equal. f_equal. lia. }
  destruct (K n 0 fuel B E F) as (sl & E1 & E2 & E3). exists sl. split; [exact E1|]. split; [exact E2|exact E3].
Qed.
Print Assumptions C70_waits.
(** If there is always a lock (for instance a stale one) it never returns. *)
Theorem C70_waits_forever : forall listing fuel, (forall k, 0 < listing k) -> wait_for_locks fuel listing = None.
Proof.
  intros listing fuel B. unfold wait_for_locks. generalize 0 at 1. generalize 1. induction fuel as [|f IH]; intros b j; cbn [wait_loop]; [reflexivity|].
  destruct (Nat.ltb_spec 0 (listing j)) as [_|L]; [|pose proof (B j); lia]. rewrite IH. reflexivity.
Qed.
Print Assumptions C70_waits_forever.
Example C70_example : wait_for_locks 10 (fun k => 6 - k) = Some [1; 2; 4; 8; 16; 30].
Proof. reflexivity. Qed.
