(** * C95, continued: what eval_network_for_commodities really does *)
From Verif Require Import Base Spec Graph EvalLock EvalCom PropGraph PropEvalLock.

Lemma prepare_raises nw random k : (k < length (w_com nw))%nat -> prepare nw random k = Err AttributeError.
Proof.
  intro L. destruct random as [c|]; [|apply C49_unnecessary_commodities_refuted, L]. cbn [prepare]. apply C49_unnecessary_commodities_refuted. cbn [w_com]. rewrite app_length. cbn. lia.
Qed.
Record cinv (n : nat) (s : est) : Prop := {
  ci_result : forall k, result s k = Absent;
  ci_passed : forall p k, (k < n)%nat -> (k < position n (at_ s p))%nat -> locked s k = true;
  ci_at : forall p k, (at_ s p = LookLock k \/ at_ s p = Create k \/ at_ s p = Eval k -> (k < n)%nat) /\ at_ s p <> Writing k /\ at_ s p <> Written k;
  ci_done : forall p, at_ s p = Done -> n = 0%nat }.
Lemma cinv_step nw random p s s' : cinv (length (w_com nw)) s -> cstep nw random p s s' -> cinv (length (w_com nw)) s'.
Proof.
  intros [I1 I2 I3 I4] [H W]. set (n := length (w_com nw)) in *.
  assert (NW : forall k, at_ s p = Eval k -> at_ s' p <> Writing k).
  { intros k A B. destruct (W k A B) as [r R]. rewrite prepare_raises in R; [discriminate R|]. apply (I3 p k). auto. }
  assert (OTH : forall q, q <> p -> at_ s' q = at_ s q). { intros q N. destruct H; ered; kill; congruence. }
  assert (LK : forall k, locked s k = true -> locked s' k = true).
  { intros k L. destruct H; ered; kill; auto. exfalso. destruct (I3 p k0) as (_ & _ & N). congruence. }
  destruct H as [j A G|j A G R|j A G R|j A B|j A B|j A|j A|j A|j A B|j A B|A B|A].
  2: exfalso; apply R, I1.
  3: assert (Jn : (j < n)%nat) by (apply (I3 p); auto).
  4: assert (Jn : (j < n)%nat) by (apply (I3 p); auto).
  5: assert (Jn : (j < n)%nat) by (apply (I3 p); auto).
  6: exfalso; apply (NW j A); ered; rewrite Nat.eqb_refl; reflexivity.
  6: exfalso; destruct (I3 p j) as (_ & N1 & N2); congruence.
  6: exfalso; destruct (I3 p j) as (_ & N1 & N2); congruence.
  6: exfalso; destruct (I3 p j) as (_ & N1 & N2); congruence.
  all: split.
  all: try (intro k; ered; apply I1).
  all: try (intros q k; destruct (Nat.eq_dec q p) as [->|N]; [|rewrite !OTH by exact N; first [apply I3|intros; eapply LK, I2; eassumption]]).
  all: try (intros q; destruct (Nat.eq_dec q p) as [->|N]; [|rewrite !OTH by exact N; apply I4]).
  all: ered; rewrite ?Nat.eqb_refl; cbn [position].
  all: try (intros K L; first [ apply (I2 p); [exact K|rewrite A; cbn [position]; lia] ]).
  all: try (split; [intros [Q|[Q|Q]]; injection Q as <-; assumption|split; discriminate]).
  all: try (split; [intros [Q|[Q|Q]]; discriminate Q|split; discriminate]).
  all: try discriminate.
all: try (split; [intros Q; assert (j = k) as <- by (destruct Q as [Q|[Q|Q]]; congruence); assumption|split; discriminate]).
  - intros K L. destruct (Nat.eq_dec k j) as [->|N]; [exact B|]. apply (I2 p); [exact K|rewrite A; cbn [position]; lia].
  - intros K L. destruct (Nat.eqb_spec k j); [reflexivity|]. apply (I2 p); [exact K|rewrite A; exact L].
  - intros _. destruct n as [|m] eqn:En; [reflexivity|]. exfalso. pose proof (I2 p 0%nat) as J. rewrite A, B in J. cbn [position] in J. discriminate J; lia.
  - intros. lia.
Qed.
(** REFUTED, for every network with a commodity, every number of processes and
    every interleaving: preparing the network of a commodity raises
    AttributeError (C49), so no result file is ever written and no process ever
    reaches the summaries; with and without random commodities. *)
Theorem C95_never_refuted : forall nw random s0 s, w_com nw <> [] -> efresh s0 -> creach nw random s0 s ->
  (forall k, result s k = Absent) /\ forall p, at_ s p <> Done.
Proof.
  intros nw random s0 s N (F1 & F2 & F3) R. assert (I : cinv (length (w_com nw)) s).
  { induction R as [|s p s' R IH H]; [|eapply cinv_step; eauto]. split; intros; rewrite ?F2 in *; auto; try discriminate; [cbn in *; lia|]. split; [intros [Q|[Q|Q]]; discriminate Q|split; discriminate]. }
  split; [apply I|]. intros p D. apply (ci_done _ _ I p) in D. destruct (w_com nw); [congruence|discriminate D].
Qed.
Print Assumptions C95_never_refuted.
(** The first process of a fresh directory gets as far as the lock of commodity 0 and dies. *)
Example C95_never_example : exists nw s0 s, w_com nw <> [] /\ efresh s0 /\ creach nw None s0 s /\ locked s 0 = true /\ at_ s 0 = Died.
Proof.
  exists (mkNw g_empty [] [] [mkCom [] 0 0]). set (s0 := mkEst (fun _ => Absent) (fun _ => false) (fun _ => Look 0)). exists s0.
  set (s1 := go s0 0 (LookLock 0)). set (s2 := go s1 0 (Create 0)). set (s3 := go (set_locked s2 0 true) 0 (Eval 0)). exists (go s3 0 Died).
  split; [discriminate|]. split; [repeat split|]. split; [|split; reflexivity].
  apply (cr_step _ _ _ s3 0%nat); [apply (cr_step _ _ _ s2 0%nat); [apply (cr_step _ _ _ s1 0%nat); [apply (cr_step _ _ _ s0 0%nat); [apply cr_refl|]|]|]|]; (split; [|intros k A B; vm_compute in A; vm_compute in B; first [discriminate A|discriminate B]]).
  - eapply e_absent with (p := 0%nat); [reflexivity|cbn; lia|reflexivity].
  - eapply e_free with (p := 0%nat); reflexivity.
  - eapply e_create with (p := 0%nat); reflexivity.
  - eapply e_die with (p := 0%nat). exact Logic.I.
Qed.
