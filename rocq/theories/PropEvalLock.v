(** * C95 (parallel evaluation of all commodities) and C96 (interrupted evaluations) *)
From Coq Require Import List Bool Arith Lia.
Import ListNotations.
From Verif Require Import EvalLock.

Ltac ered := cbn [result locked at_ go set_result set_locked] in *; unfold upd in *.
Ltac kill := repeat match goal with
  | H : context [Nat.eqb ?a ?b] |- _ => destruct (Nat.eqb_spec a b); subst
  | |- context [Nat.eqb ?a ?b] => destruct (Nat.eqb_spec a b); subst end.

(** ** C95 *)
(** Position in the loop: commodities below it have been dealt with. *)
Definition position (n : nat) (x : epc) : nat :=
  match x with Look k | LookLock k | Create k | Eval k | Writing k | Written k => k | Wait | Done => n | Died => 0 end.
Record einv (n : nat) (s : est) : Prop := {
  ei_passed : forall p k, k < position n (at_ s p) -> k < n -> result s k <> Absent \/ locked s k = true;
  ei_done : forall p, at_ s p = Done -> forall k, k < n -> result s k <> Absent;
  ei_writing : forall p k, at_ s p = Writing k -> result s k <> Absent;
  ei_written : forall p k, at_ s p = Written k -> result s k <> Absent
}.
Lemma einv_fresh n s : efresh s -> einv n s.
Proof. intros (F1 & F2 & F3). split; intros p; rewrite F2; cbn; intros; try lia; discriminate. Qed.
Lemma einv_step n p s s' : einv n s -> estep n p s s' -> einv n s'.
Proof.
  intros [I1 I2 I3 I4] H.
  assert (MONO : forall k, result s k <> Absent -> result s' k <> Absent). { intros k. destruct H; ered; kill; congruence. }
  assert (KEEP : forall k, result s k <> Absent \/ locked s k = true -> result s' k <> Absent \/ locked s' k = true).
  { intros k [R|L]; [left; apply MONO, R|]. destruct H; ered; kill; auto. left. eapply I4; eassumption. }
  assert (OTH : forall q, q <> p -> at_ s' q = at_ s q). { intros q N. destruct H; ered; kill; congruence. }
  split.
  - intros q k L LN. destruct (Nat.eq_dec q p) as [->|N]; [|rewrite OTH in L by exact N; apply KEEP, (I1 q); assumption].
    destruct H as [j A G|j A G R|j A G R|j A B|j A B|j A|j A|j A|j A B|j A B|A B|A]; ered; rewrite Nat.eqb_refl in L; cbn [position] in L.
    + apply (I1 p); [rewrite A; cbn; lia|exact LN].
    + destruct (Nat.eq_dec k j) as [->|N]; [left; exact R|]. apply (I1 p); [rewrite A; cbn; lia|exact LN].
    + apply (I1 p); [rewrite A; exact L|exact LN].
    + destruct (Nat.eq_dec k j) as [->|N]; [right; exact B|]. apply (I1 p); [rewrite A; cbn; lia|exact LN].
    + apply (I1 p); [rewrite A; exact L|exact LN].
    + apply KEEP, (I1 p); [rewrite A; exact L|exact LN].
    + apply KEEP, (I1 p); [rewrite A; exact L|exact LN].
    + apply KEEP, (I1 p); [rewrite A; exact L|exact LN].
    + destruct (Nat.eq_dec k j) as [->|N]; [left; apply (I4 p j A)|]. apply KEEP, (I1 p); [rewrite A; cbn; lia|exact LN].
    + lia.
    + apply (I1 p); [rewrite A; exact L|exact LN].
    + lia.
  - intros q D k LN. destruct (Nat.eq_dec q p) as [->|N]; [|rewrite OTH in D by exact N; apply MONO, (I2 q); assumption].
    destruct H as [j A G|j A G R|j A G R|j A B|j A B|j A|j A|j A|j A B|j A B|A B|A]; ered; rewrite Nat.eqb_refl in D; try discriminate D.
    destruct (I1 p k) as [R|R]; [rewrite A; exact LN|exact LN|exact R|congruence].
  - intros q k D. destruct (Nat.eq_dec q p) as [->|N]; [|rewrite OTH in D by exact N; apply MONO, (I3 q); assumption].
    destruct H; ered; rewrite ?Nat.eqb_refl in D; try discriminate D. injection D as <-. rewrite Nat.eqb_refl. discriminate.
  - intros q k D. destruct (Nat.eq_dec q p) as [->|N]; [|rewrite OTH in D by exact N; apply MONO, (I4 q); assumption].
    destruct H; ered; rewrite ?Nat.eqb_refl in D; try discriminate D. injection D as <-. rewrite Nat.eqb_refl. discriminate.
Qed.
(** Whatever the interleaving, the crashes and the exceptions: a process that starts
    the final summaries finds a result file for every commodity. *)
Theorem C95_all_results : forall n s0 s p k, efresh s0 -> ereach n s0 s -> at_ s p = Done -> k < n -> result s k <> Absent.
Proof.
  intros n s0 s p k F R D L. assert (I : einv n s) by (clear D; induction R as [|s q s' R IH H]; [apply einv_fresh, F|eapply einv_step; eauto]). eapply (ei_done n s I); eauto.
Qed.
Print Assumptions C95_all_results.

(** With atomic checks (nobody else runs between the look at the lock and its creation)
    no commodity is evaluated twice at the same time, a held lock belongs to a process
    that is evaluating or died, and finished processes find complete results. *)
Definition busy (x : epc) : Prop := match x with LookLock _ | Create _ => True | _ => False end.
Inductive ereach_atomic (n : nat) (s0 : est) : est -> Prop :=
| ea_refl : ereach_atomic n s0 s0
| ea_step s p s' : ereach_atomic n s0 s -> estep n p s s' -> (forall q, q <> p -> ~ busy (at_ s q)) -> ereach_atomic n s0 s'.
Definition holds (x : epc) (k : nat) : Prop := x = Eval k \/ x = Writing k \/ x = Written k.
Record ainv (n : nat) (s : est) : Prop := {
  ai_lock : forall p k, holds (at_ s p) k -> locked s k = true;
  ai_one : forall p q k, holds (at_ s p) k -> holds (at_ s q) k -> p = q;
  ai_busy : forall p q, busy (at_ s p) -> busy (at_ s q) -> p = q;
  ai_create : forall p k, at_ s p = Create k -> locked s k = false /\ result s k = Absent;
  ai_looklock : forall p k, at_ s p = LookLock k -> result s k = Absent;
  ai_eval : forall p k, at_ s p = Eval k -> result s k = Absent;
  ai_written : forall p k, at_ s p = Written k -> result s k = Complete;
  ai_partial : forall k, result s k = Partial -> locked s k = true
}.
Lemma ainv_fresh n s : efresh s -> ainv n s.
Proof. intros (F1 & F2 & F3). split; intros; rewrite ?F2, ?F3 in *; cbn in *; try discriminate; try contradiction; repeat match goal with H : holds _ _ |- _ => destruct H as [H|[H|H]]; discriminate H end. Qed.
Lemma ainv_step n p s s' : ainv n s -> estep n p s s' -> (forall q, q <> p -> ~ busy (at_ s q)) -> ainv n s'.
Proof.
  intros [L1 L2 L3 L4 L5 L6 L7 L8] H AT.
  assert (OTH : forall q, q <> p -> at_ s' q = at_ s q). { intros q N. destruct H; ered; kill; congruence. }
  (* which locks and results change *)
  assert (LK : forall k, locked s' k <> locked s k -> at_ s p = Create k \/ at_ s p = Written k). { intro k. destruct H; ered; kill; auto; congruence. }
  assert (RS : forall k, result s' k <> result s k -> at_ s p = Eval k \/ at_ s p = Writing k). { intro k. destruct H; ered; kill; auto; congruence. }
  assert (NB : forall q k, q <> p -> at_ s q = Create k \/ at_ s q = LookLock k -> False). { intros q k N [E|E]; apply (AT q N); rewrite E; exact I. }
  assert (LH : forall q k, q <> p -> holds (at_ s q) k -> locked s' k = true /\ result s' k = result s k).
  { intros q k N HQ. pose proof (L1 q k HQ) as LT. split.
    - destruct (Bool.bool_dec (locked s' k) (locked s k)) as [E|E]; [congruence|]. apply LK in E. destruct E as [E|E].
      + destruct (L4 p k E). congruence.
      + exfalso. apply N. apply (L2 q p k HQ). right. right. exact E.
    - destruct (result s' k) eqn:E1, (result s k) eqn:E2; try reflexivity; (exfalso; assert (C : result s' k <> result s k) by congruence; apply RS in C; apply N; apply (L2 q p k HQ); destruct C as [C|C]; [left; exact C|right; left; exact C]). }
  assert (HP : forall k, holds (at_ s' p) k -> locked s' k = true /\ (holds (at_ s p) k \/ at_ s p = Create k)).
  { intros k HQ. destruct H as [j A G|j A G R|j A G R|j A B|j A B|j A|j A|j A|j A B|j A B|A B|A]; ered; rewrite Nat.eqb_refl in HQ; destruct HQ as [Q|[Q|Q]]; try discriminate Q; injection Q as <-; rewrite ?Nat.eqb_refl; split; auto; try (left; left; exact A); try (left; right; left; exact A); apply (L1 p); [left; exact A|right; left; exact A]. }
  split.
  - intros q k HQ. destruct (Nat.eq_dec q p) as [->|N]; [apply HP, HQ|]. rewrite OTH in HQ by exact N. apply (LH q k N HQ).
  - intros q r k HQ HR. destruct (Nat.eq_dec q p) as [->|NQ], (Nat.eq_dec r p) as [->|NR]; [reflexivity| | |].
    + rewrite OTH in HR by exact NR. destruct (HP k HQ) as [_ [X|X]]; [apply (L2 p r k X HR)|]. exfalso. destruct (L4 p k X). rewrite (L1 r k HR) in *. discriminate.
    + rewrite OTH in HQ by exact NQ. destruct (HP k HR) as [_ [X|X]]; [apply (L2 q p k HQ X)|]. exfalso. destruct (L4 p k X). rewrite (L1 q k HQ) in *. discriminate.
    + rewrite !OTH in * by assumption. apply (L2 q r k); assumption.
  - intros q r BQ BR. destruct (Nat.eq_dec q p) as [->|NQ], (Nat.eq_dec r p) as [->|NR]; [reflexivity| | |].
    + rewrite OTH in BR by exact NR. destruct (AT r NR BR).
    + rewrite OTH in BQ by exact NQ. destruct (AT q NQ BQ).
    + rewrite OTH in BQ by exact NQ. destruct (AT q NQ BQ).
  - intros q k E. destruct (Nat.eq_dec q p) as [->|N]; [|rewrite OTH in E by exact N; destruct (NB q k N); auto].
    destruct H as [j A G|j A G R|j A G R|j A B|j A B|j A|j A|j A|j A B|j A B|A B|A]; ered; rewrite Nat.eqb_refl in E; try discriminate E. injection E as <-. split; [exact B|apply (L5 p j A)].
  - intros q k E. destruct (Nat.eq_dec q p) as [->|N]; [|rewrite OTH in E by exact N; destruct (NB q k N); auto].
    destruct H as [j A G|j A G R|j A G R|j A B|j A B|j A|j A|j A|j A B|j A B|A B|A]; ered; rewrite Nat.eqb_refl in E; try discriminate E. injection E as <-. exact R.
  - intros q k E. destruct (Nat.eq_dec q p) as [->|N].
    + destruct H as [j A G|j A G R|j A G R|j A B|j A B|j A|j A|j A|j A B|j A B|A B|A]; ered; rewrite Nat.eqb_refl in E; try discriminate E. injection E as <-. apply (L4 p j A).
    + rewrite OTH in E by exact N. rewrite (proj2 (LH q k N (or_introl E))). apply (L6 q k E).
  - intros q k E. destruct (Nat.eq_dec q p) as [->|N].
    + destruct H as [j A G|j A G R|j A G R|j A B|j A B|j A|j A|j A|j A B|j A B|A B|A]; ered; rewrite Nat.eqb_refl in E; try discriminate E. injection E as <-. rewrite Nat.eqb_refl. reflexivity.
    + rewrite OTH in E by exact N. rewrite (proj2 (LH q k N (or_intror (or_intror E)))). apply (L7 q k E).
  - intros k E. clear OTH LK RS NB LH HP AT. destruct H as [j A G|j A G R|j A G R|j A B|j A B|j A|j A|j A|j A B|j A B|A B|A]; ered; auto.
    + kill; [reflexivity|auto].
    + kill; [apply (L1 p j); left; exact A|auto].
    + kill; [discriminate E|auto].
    + kill; [rewrite (L7 p j A) in E; discriminate E|auto].
Qed.
Theorem C95_exclusive_partial : forall n s0 s, efresh s0 -> ereach_atomic n s0 s ->
  (forall p q k, holds (at_ s p) k -> holds (at_ s q) k -> p = q) /\
  (forall p k, at_ s p = Done -> k < n -> result s k <> Absent) /\
  (forall p, at_ s p = Wait -> (forall k, locked s k = false) -> forall k, k < n -> result s k = Complete).
Proof.
  intros n s0 s F R. assert (A : ainv n s) by (induction R as [|s q s' R IH H AT]; [apply ainv_fresh, F|eapply ainv_step; eauto]).
  assert (I : einv n s) by (clear A; induction R as [|s q s' R IH H AT]; [apply einv_fresh, F|eapply einv_step; eauto]).
  split; [apply (ai_one n s A)|]. split; [intros p k D L; eapply (ei_done n s I); eauto|].
  intros p W NL k L. destruct (ei_passed n s I p k) as [X|X]; [rewrite W; exact L|exact L| |rewrite NL in X; discriminate X].
  destruct (result s k) eqn:E; [congruence| |reflexivity]. specialize (NL k). rewrite (ai_partial n s A k E) in NL. discriminate NL.
Qed.
Print Assumptions C95_exclusive_partial.

(** ** What fails *)
Ltac esteps k := lazymatch k with O => apply er_refl | S ?m => eapply er_step; [esteps m|] end.
Definition e_init := mkEst (fun _ => Absent) (fun _ => false) (fun _ => Look 0).
Lemma e_init_fresh : efresh e_init.
Proof. repeat split. Qed.
(** A lock whose owner is gone stays, its commodity is never evaluated, and no process
    ever gets past the final wait. *)
Theorem C95_stale : forall n s0 s k, locked s0 k = true -> (forall p, ~ holds (at_ s0 p) k /\ at_ s0 p <> Create k /\ at_ s0 p <> Done) ->
  ereach n s0 s -> locked s k = true /\ result s k = result s0 k /\ forall p, at_ s p <> Done.
Proof.
  intros n s0 s k L P R.
  assert (G : locked s k = true /\ result s k = result s0 k /\ forall p, ~ holds (at_ s p) k /\ at_ s p <> Create k /\ at_ s p <> Done).
  { induction R as [|s p s' R IH H]; [auto|]. destruct IH as (I1 & I2 & I3). destruct (I3 p) as (Q1 & Q2 & Q3).
    assert (X : locked s' k = true /\ result s' k = result s k /\ ~ holds (at_ s' p) k /\ at_ s' p <> Create k /\ at_ s' p <> Done).
    { assert (NH : forall x, (forall j, x <> Eval j) -> (forall j, x <> Writing j) -> (forall j, x <> Written j) -> ~ holds x k) by (intros x A B C [E|[E|E]]; [eapply A|eapply B|eapply C]; exact E).
      destruct H as [j A G|j A G R'|j A G R'|j A B|j A B|j A|j A|j A|j A B|j A B|A B|A]; ered; rewrite Nat.eqb_refl; try (split; [assumption|]; split; [reflexivity|]; split; [apply NH; intros; discriminate|split; discriminate]).
      - split; [assumption|]. split; [reflexivity|]. split; [apply NH; intros; discriminate|]. split; [|discriminate]. intro E. injection E as ->. congruence.
      - destruct (Nat.eqb_spec k j) as [->|N]; [congruence|]. split; [assumption|]. split; [reflexivity|]. split; [|split; discriminate]. intros [E|[E|E]]; congruence.
      - destruct (Nat.eqb_spec k j) as [->|N]; [destruct Q1; left; exact A|]. split; [assumption|]. split; [reflexivity|]. split; [|split; discriminate]. intros [E|[E|E]]; congruence.
      - destruct (Nat.eqb_spec k j) as [->|N]; [destruct Q1; right; left; exact A|]. split; [assumption|]. split; [reflexivity|]. split; [|split; discriminate]. intros [E|[E|E]]; congruence.
      - destruct (Nat.eqb_spec k j) as [->|N]; [destruct Q1; right; right; exact A|]. split; [assumption|]. split; [reflexivity|]. split; [apply NH; intros; discriminate|split; discriminate].
      - exfalso. rewrite B in I1. discriminate I1. }
    destruct X as (X1 & X2 & X3). split; [exact X1|]. split; [congruence|]. intro q. destruct (Nat.eq_dec q p) as [->|N]; [exact X3|].
    replace (at_ s' q) with (at_ s q); [apply I3|]. destruct H; ered; kill; congruence. }
  destruct G as (G1 & G2 & G3). split; [exact G1|]. split; [exact G2|]. intro p. apply G3.
Qed.
Print Assumptions C95_stale.
(** Such a state is reached by one exception during the evaluation, since the lock is
    not removed in a finally clause. *)
Theorem C95_exception_refuted : forall n, 0 < n -> exists s, ereach n e_init s /\ at_ s 0 = Died /\ locked s 0 = true /\ result s 0 = Absent /\ (forall p, ~ holds (at_ s p) 0 /\ at_ s p <> Create 0 /\ at_ s p <> Done) /\
  forall s', ereach n s s' -> result s' 0 = Absent /\ forall p, at_ s' p <> Done.
Proof.
  intros n N.
  assert (E : exists s, ereach n e_init s /\ at_ s 0 = Died /\ locked s 0 = true /\ result s 0 = Absent /\ (forall p, ~ holds (at_ s p) 0 /\ at_ s p <> Create 0 /\ at_ s p <> Done)).
  { eexists. split.
    - eapply er_step with (p := 0); [eapply er_step with (p := 0); [eapply er_step with (p := 0); [eapply er_step with (p := 0); [apply er_refl|]|]|]|].
      + eapply e_absent; [reflexivity|exact N|reflexivity].
      + eapply e_free; reflexivity.
      + eapply e_create; reflexivity.
      + apply e_die. exact I.
    - split; [reflexivity|]. split; [reflexivity|]. split; [reflexivity|]. intros [|p]; cbn; (split; [intros [E|[E|E]]; discriminate E|split; discriminate]). }
  destruct E as (s & R & A & L & RS & P). exists s. repeat (split; [assumption|]). intros s' R'. destruct (C95_stale n s s' 0 L P R') as (_ & X & Y). split; [congruence|exact Y].
Qed.
Print Assumptions C95_exception_refuted.
(** Race: two processes evaluate the same commodity; the second removes a lock that is
    gone already and dies. *)
Theorem C95_race_refuted : exists s, ereach 1 e_init s /\ at_ s 1 = Died /\ at_ s 0 = Look 1 /\ forall k, locked s k = false.
Proof.
  eexists. split.
  - esteps 12.
    + eapply (e_absent 1 0 _ 0); [reflexivity|lia|reflexivity].
    + eapply (e_absent 1 1 _ 0); [reflexivity|lia|reflexivity].
    + eapply (e_free 1 0); reflexivity.
    + eapply (e_free 1 1); reflexivity.
    + eapply (e_create 1 0); reflexivity.
    + eapply (e_create 1 1); reflexivity.
    + eapply (e_open 1 0); reflexivity.
    + eapply (e_open 1 1); reflexivity.
    + eapply (e_write 1 0); reflexivity.
    + eapply (e_write 1 1); reflexivity.
    + eapply (e_remove 1 0); reflexivity.
    + eapply (e_missing 1 1); reflexivity.
  - split; [reflexivity|]. split; [reflexivity|]. intro k. destruct k; vm_compute; reflexivity.
Qed.
Print Assumptions C95_race_refuted.
(** Race: a process starts the summaries although a result is only partly written. *)
Theorem C95_partial_result_refuted : exists s, ereach 1 e_init s /\ at_ s 0 = Done /\ result s 0 = Partial.
Proof.
  eexists. split.
  - esteps 12.
    + eapply (e_absent 1 0 _ 0); [reflexivity|lia|reflexivity].
    + eapply (e_absent 1 1 _ 0); [reflexivity|lia|reflexivity].
    + eapply (e_free 1 0); reflexivity.
    + eapply (e_free 1 1); reflexivity.
    + eapply (e_create 1 0); reflexivity.
    + eapply (e_create 1 1); reflexivity.
    + eapply (e_open 1 0); reflexivity.
    + eapply (e_write 1 0); reflexivity.
    + eapply (e_remove 1 0); reflexivity.
    + eapply (e_end 1 0); [reflexivity|lia].
    + eapply (e_open 1 1); reflexivity.
    + eapply (e_wait 1 0); [reflexivity|]. intro k. destruct k; vm_compute; reflexivity.
  - split; reflexivity.
Qed.
Print Assumptions C95_partial_result_refuted.
(** A process that runs alone and without interruptions, with no locks left by others and
    whatever results exist already, finishes with a result for every commodity: complete
    where there was none, unchanged where there was one. *)
Theorem C95_sequential : forall n p s0, (forall k, locked s0 k = false) -> at_ s0 p = Look 0 -> exists s, ereach n s0 s /\ at_ s p = Done /\
  (forall k, locked s k = false) /\ (forall k, k < n -> result s k = match result s0 k with Absent => Complete | c => c end) /\ forall q, q <> p -> at_ s q = at_ s0 q.
Proof.
  intros n p s0 L0 A0.
  assert (G : forall j, j <= n -> exists s, ereach n s0 s /\ at_ s p = Look j /\ (forall k, locked s k = false) /\
     (forall k, result s k = if k <? j then match result s0 k with Absent => Complete | c => c end else result s0 k) /\ forall q, q <> p -> at_ s q = at_ s0 q).
  { induction j as [|j IH]; intro L.
    - exists s0. split; [apply er_refl|]. auto.
    - destruct IH as (s & R & A & LK & RS & OT); [lia|]. assert (RJ : result s j = result s0 j) by (rewrite RS, Nat.ltb_irrefl; reflexivity).
      assert (NEXT : forall k, k <> j -> (k <? j) = (k <? S j)) by (intros k N; destruct (Nat.ltb_spec k j), (Nat.ltb_spec k (S j)); try reflexivity; lia).
      assert (JS : (j <? S j) = true) by (apply Nat.ltb_lt; lia).
      destruct (result s0 j) eqn:E0.
      + eexists. split.
        * eapply (er_step n s0 _ p); [|eapply (e_remove n p _ j)]. eapply (er_step n s0 _ p); [|eapply (e_write n p _ j)]. eapply (er_step n s0 _ p); [|eapply (e_open n p _ j)]. eapply (er_step n s0 _ p); [|eapply (e_create n p _ j)].
          eapply (er_step n s0 _ p); [|eapply (e_free n p _ j)]. eapply (er_step n s0 _ p); [exact R|]. eapply (e_absent n p _ j); [exact A|lia|exact RJ].
          all: ered; rewrite ?Nat.eqb_refl; auto.
        * ered. rewrite ?Nat.eqb_refl. split; [reflexivity|]. split; [intro k; destruct (k =? j); auto|]. split.
          -- intro k. destruct (Nat.eqb_spec k j) as [->|N]; [rewrite JS, E0; reflexivity|]. rewrite RS, NEXT by exact N. reflexivity.
          -- intros q N. destruct (Nat.eqb_spec q p); [contradiction|auto].
      + exists (go s p (Look (S j))). split; [eapply (er_step n s0 _ p); [exact R|]; eapply (e_have n p _ j); [exact A|lia|congruence]|]. ered. rewrite ?Nat.eqb_refl. split; [reflexivity|]. split; [exact LK|]. split.
        * intro k. destruct (Nat.eq_dec k j) as [->|N]; [rewrite JS, RJ, E0; reflexivity|rewrite RS, NEXT by exact N; reflexivity].
        * intros q N. destruct (Nat.eqb_spec q p); [contradiction|auto].
      + exists (go s p (Look (S j))). split; [eapply (er_step n s0 _ p); [exact R|]; eapply (e_have n p _ j); [exact A|lia|congruence]|]. ered. rewrite ?Nat.eqb_refl. split; [reflexivity|]. split; [exact LK|]. split.
        * intro k. destruct (Nat.eq_dec k j) as [->|N]; [rewrite JS, RJ, E0; reflexivity|rewrite RS, NEXT by exact N; reflexivity].
        * intros q N. destruct (Nat.eqb_spec q p); [contradiction|auto]. }
  destruct (G n (le_n n)) as (s & R & A & LK & RS & OT). eexists. split.
  - eapply (er_step n s0 _ p); [eapply (er_step n s0 _ p); [exact R|eapply (e_end n p); [exact A|apply le_n]]|]. eapply e_wait; [ered; rewrite Nat.eqb_refl; reflexivity|exact LK].
  - ered. rewrite ?Nat.eqb_refl. split; [reflexivity|]. split; [exact LK|]. split; [intros k L; rewrite RS; destruct (Nat.ltb_spec k n); [reflexivity|lia]|]. intros q N. destruct (Nat.eqb_spec q p); [contradiction|auto].
Qed.
Print Assumptions C95_sequential.

(** ** C96: evaluations that are interrupted and repeated *)
(** A run that returns normally after working has written all three files. *)
Theorem C96_success : forall d0 d o d', runs d0 d -> run d o d' -> o = Success -> d' = mkDisk Complete Complete Complete.
Proof. intros d0 d o d' _ H ->. inversion H; subst; reflexivity. Qed.
Print Assumptions C96_success.
(** An undisturbed run on an empty directory succeeds, the next one is skipped. *)
Theorem C96_first : undisturbed (mkDisk Absent Absent Absent) = (Success, mkDisk Complete Complete Complete) /\
  undisturbed (mkDisk Complete Complete Complete) = (Skip, mkDisk Complete Complete Complete) /\
  forall d, run d (fst (undisturbed d)) (snd (undisturbed d)).
Proof.
  split; [reflexivity|]. split; [reflexivity|]. intro d. unfold undisturbed. destruct (present (d_flow d) && present (d_json d) && present (d_vis d))%bool eqn:E; [apply run_skip, E|].
  destruct (d_flow d) eqn:F; cbn [fst snd]; [apply run_ok; [rewrite ?F; exact E|congruence]|apply run_bad_flow; [rewrite ?F; exact E|exact F]|apply run_ok; [rewrite ?F; exact E|congruence]].
Qed.
Print Assumptions C96_first.
(** After any history of interrupted runs in which no write of the flow was cut short,
    an undisturbed run either completes all files or finds all three of them. *)
Theorem C96_resume : forall d, runs (mkDisk Absent Absent Absent) d -> d_flow d <> Partial ->
  undisturbed d = (Success, mkDisk Complete Complete Complete) \/ (undisturbed d = (Skip, d) /\ d_flow d = Complete /\ d_json d <> Absent /\ d_vis d <> Absent).
Proof.
  intros d R N. unfold undisturbed. destruct (present (d_flow d) && present (d_json d) && present (d_vis d))%bool eqn:E.
  - right. split; [reflexivity|]. apply andb_true_iff in E. destruct E as [E E3]. apply andb_true_iff in E. destruct E as [E1 E2]. destruct (d_flow d), (d_json d), (d_vis d); try discriminate; try congruence; repeat split; congruence.
  - left. destruct (d_flow d); congruence || reflexivity.
Qed.
Print Assumptions C96_resume.
(** REFUTED: "interrupted evaluations can be repeated".  If the flow file was cut short,
    every later run fails, for ever. *)
Theorem C96_resume_refuted : exists d, runs (mkDisk Absent Absent Absent) d /\ d_flow d = Partial /\
  forall d' o d'', runs d d' -> run d' o d'' -> o = Failure /\ d'' = d.
Proof.
  set (d := mkDisk Partial Absent Absent). exists d. split; [eapply rs_run; [apply rs_refl|apply (run_stop_flow (mkDisk Absent Absent Absent)); reflexivity]|]. split; [reflexivity|].
  assert (ST : forall o d'', run d o d'' -> o = Failure /\ d'' = d) by (intros o d'' H; inversion H; subst; cbn in *; try congruence; auto).
  intros d' o d'' R. assert (E : d' = d) by (induction R as [|a o' b R IH H]; [reflexivity|subst a; apply (ST o' b H)]). subst d'. apply ST.
Qed.
Print Assumptions C96_resume_refuted.
(** REFUTED: "a skipped evaluation is complete": an interrupted write of the
    visualisation is never repeated. *)
Theorem C96_skip_refuted : exists d, runs (mkDisk Absent Absent Absent) d /\ d_vis d = Partial /\ forall d' o d'', runs d d' -> run d' o d'' -> o = Skip /\ d'' = d.
Proof.
  set (d := mkDisk Complete Complete Partial). exists d. split; [eapply rs_run; [apply rs_refl|apply (run_stop_vis (mkDisk Absent Absent Absent)); [reflexivity|discriminate]]|]. split; [reflexivity|].
  assert (ST : forall o d'', run d o d'' -> o = Skip /\ d'' = d) by (intros o d'' H; inversion H; subst; cbn in *; try congruence; auto).
  intros d' o d'' R. assert (E : d' = d) by (induction R as [|a o' b R IH H]; [reflexivity|subst a; apply (ST o' b H)]). subst d'. apply ST.
Qed.
Print Assumptions C96_skip_refuted.
