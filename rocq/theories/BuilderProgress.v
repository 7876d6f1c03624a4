(** * FlowBuilder: every time is reached after finitely many rounds (proofs for C79) *)
From Coq Require Import Permutation.
From Verif Require Import Base Spec Arrays ArraysProofs PL RC FRC FRCProofs PQ PQProofs PQSpec DynFlow DQProofs DynRun DynEvents
  Graph GraphSpec GraphProofs Dijkstra FlowBuilder FlowBuilderProofs BuilderRun Predictors PredictorsProofs.
From Coq Require Import Qround.

Lemma arch (x : Qc) : exists n, x <= qn n.
Proof.
  exists (Z.to_nat (Qceiling (this x))). unfold Qcle, qn. cbn [this Q2Qc]. rewrite Qred_correct. eapply Qle_trans; [apply Qle_ceiling|]. rewrite <- Zle_Qle. lia.
Qed.
Lemma arch_mul t r : 0 < r -> exists n, t <= qn n * r.
Proof.
  intro P. destruct (arch (t / r)) as [n H]. exists n. assert (E : t / r * r = t) by (field; intro Q; rewrite Q in P; qlra). set (u := t / r) in *. clearbody u. rewrite <- E. clear E. qnra.
Qed.
(** Points of [l] after [x]. *)
Definition later (l : list Qc) (x : Qc) : nat := length (filter (fun t => qltb x t) l).
Lemma later_le l x y : x <= y -> (later l y <= later l x)%nat.
Proof.
  intro H. unfold later. induction l as [|a l IH]; cbn [filter length]; [lia|]. destruct (qltbP y a) as [A|A], (qltbP x a) as [B|B]; cbn [length]; try lia. exfalso. qlra.
Qed.
Lemma later_lt l x y : In y l -> x < y -> (later l y < later l x)%nat.
Proof.
  intros I H. unfold later. induction l as [|a l IH]; cbn [filter length In] in *; [contradiction|].
  assert (L : (length (filter (fun t => qltb y t) l) <= length (filter (fun t => qltb x t) l))%nat) by (apply (later_le l x y); qlra).
  destruct I as [->|I].
  - destruct (qltbP y y) as [A|A]; [exfalso; qlra|]. destruct (qltbP x y) as [B|B]; [|contradiction]. cbn [length]. lia.
  - specialize (IH I). destruct (qltbP y a) as [A|A], (qltbP x a) as [B|B]; cbn [length]; try lia. exfalso. qlra.
Qed.
Lemma list_min_pos (l : list Qc) : (forall x, In x l -> 0 < x) -> exists d, 0 < d /\ forall x, In x l -> d <= x.
Proof.
  induction l as [|a l IH]; intro H; [exists 1; split; [qlra|intros x []]|]. destruct IH as [d [D1 D2]]; [intros x I; apply H; right; exact I|]. pose proof (H a (or_introl eq_refl)).
  exists (qmin a d). destruct (qmin_spec a d) as [[A ->]|[A ->]]; (split; [qlra|]); intros x [<-|I]; try qlra; specialize (D2 x I); qlra.
Qed.

Section P.
Variables (S : setup) (r : Qc).
Hypothesis OK : setup_ok S r.
Let g := s_graph S.
Let N := length (n_cap (s_nw S)).
Variable d : Qc.
Hypothesis DP : 0 < d.
Hypothesis TAU : forall e, (e < N)%nat -> d <= tau_of (s_nw S) e.
Variable k : bool.

Lemma step_lt b b' b3 ni maxt ch : stepped S r k b b' b3 ni maxt ch -> fb_step k S b = Ok b' -> forall e, In e ch -> (e < N)%nat.
Proof.
  intros ST H e I. rewrite step_plan, (st_plan _ _ _ _ _ _ _ _ _ ST) in H. cbn [bind] in H. destruct (ext_min (Fin (b_next b3)) (sq_min_key (b_changes b3))) as [|mt|] eqn:EM; try discriminate.
  assert (MT : mt = maxt).
  { destruct (ext_min_le (Fin (b_next b3)) (sq_min_key (b_changes b3))) as [M1 [M2 M3]]. rewrite EM in *. destruct (st_max _ _ _ _ _ _ _ _ _ ST) as [X1 X2].
    assert (L1 : maxt <= mt). { destruct M3 as [M3|M3]; [injection M3 as ->; exact X1|]. destruct (min_key_ex _ (proj1 (pl_q _ _ _ _ _ (st_pl _ _ _ _ _ _ _ _ _ ST)))) as [[Q _]|[it Q]]; [congruence|]. apply (X2 it). congruence. }
    assert (L2 : mt <= maxt). { destruct (st_tight _ _ _ _ _ _ _ _ _ ST) as [->|[it Q]]; [exact M1|]. exact (ext_le_trans _ _ _ M2 (min_key_le _ _ _ Q)). }
    qlra. }
  subst mt. rewrite (st_ext _ _ _ _ _ _ _ _ _ ST) in H. cbn [bind] in H. apply bind_ok in H. destruct H as [heads [EH _]].
  destruct (In_nth_error _ _ I) as [i Ei]. destruct (PredictorsProofs.mapM_spec _ _ _ EH) as [_ NN]. destruct (NN i e Ei) as [v [_ F]]. apply bind_ok in F. destruct F as [x [F _]].
  unfold N. rewrite (so_caps S r OK). unfold fetch in F. destruct (nth_error (g_edges (s_graph S)) e) eqn:E; [|discriminate]. apply nth_error_Some. congruence.
Qed.

(** Until [P + d], only the times in [L] can be the end of a round. *)
Record win (L : list Qc) (P : Qc) (b : builder) : Prop := {
  wi_ge : P <= f_phi (b_flow b);
  wi_out : forall e t, (e < N)%nat -> In t (out_times (out_chain (b_flow b) e)) -> f_phi (b_flow b) < t -> In t L \/ P + d <= t }.
Definition fixed (L : list Qc) (P : Qc) : Prop :=
  (forall i v t, change_at S i v t -> In t L) /\ (forall m, In (qn m * r) L \/ P + d <= qn m * r).
Lemma win_step L P b b' : fixed L P -> sched S r b -> win L P b -> fb_step k S b = Ok b' -> f_phi (b_flow b') < P + d ->
  win L P b' /\ f_phi (b_flow b) < f_phi (b_flow b') /\ In (f_phi (b_flow b')) L.
Proof.
  intros [FC FR] SC [W1 W2] H LT. destruct (step_ok S r OK k b b' SC H) as [b3 [ni [maxt [ch ST]]]]. pose proof (step_lt _ _ _ _ _ _ ST H) as CL.
  pose proof (step_sched S r OK k b b' SC H) as SC'.
  destruct ST as [EP PL VC EX SP [M1 M2] TI [Z1 [Z2 [Z3 [Z4 Z5]]]] ND HD]. destruct (sc_ev _ _ b SC) as [cs EV]. destruct (SP cs EV) as [S1 [S2 [S3 [S4 S5]]]].
  pose proof (pl_ev _ _ _ _ _ PL cs EV) as EV3. pose proof (pl_phi _ _ _ _ _ PL) as PH. rewrite PH in S1.
  assert (CH : forall e t, In t (out_times (out_chain (b_flow b3) e)) -> f_phi (b_flow b) < t -> In t (out_times (out_chain (b_flow b) e))).
  { intros e t I Q. assert (X : has (b_flow b3) e t) by (apply (ev_iff _ _ _ EV3); rewrite PH; auto). destruct (pl_flow _ _ _ _ _ PL) as [b2 [Y1 [_ [_ AF]]]]. unfold has in X. rewrite (af_ch _ _ _ _ AF), Y1 in X.
    apply (ev_iff _ _ _ EV) in X. apply X. }
  assert (MX : f_phi (b_flow b) < maxt).
  { destruct TI as [->|[it Q]].
    - pose proof (sc_next _ _ b SC). pose proof (so_pos S r OK). destruct (qeqbP (f_phi (b_flow b)) (b_next b)) as [Q|Q].
      + destruct (pl_re _ _ _ _ _ PL Q) as [Z _]. rewrite Z. qlra.
      + destruct (pl_no _ _ _ _ _ PL Q) as [Z _]. rewrite Z. destruct (Qcle_lt_or_eq _ _ H0); [assumption|contradiction].
    - apply (proj2 (pl_q _ _ _ _ _ PL)) in Q. destruct Q as [_ Q]. cbn [ext_le] in Q. qlra. }
  assert (NEWS : forall e t, In e ch -> (exists new, In t (out_times new) /\ (forall t, In t (out_times new) -> f_phi (b_flow b') <= t /\ f_phi (b_flow b3) + tau_of (s_nw S) e <= t)) -> P + d <= t).
  { intros e t I [new [I2 NT]]. destruct (NT t I2) as [_ Q]. pose proof (TAU e (CL e I)). rewrite PH in Q. qlra. }
  split; [|].
  - constructor; [qlra|]. intros e t Le I Q. destruct (S4 e) as [new [E1 [E2 _]]]. rewrite E1 in I. unfold out_times in I. rewrite map_app in I. apply in_app_or in I. destruct I as [I|I].
    + apply (W2 e t Le); [apply CH; [exact I|qlra]|qlra].
    + right. destruct (E2 t I) as [_ X]. pose proof (TAU e Le). rewrite PH in X. qlra.
  - destruct S3 as [S3|S3].
    + rewrite S3 in *. split; [exact MX|]. destruct TI as [E|[it Q]].
      * destruct (sc_mult _ _ b' SC') as [m Hm]. rewrite Z1, <- E in Hm. destruct (FR m) as [X|X]; rewrite <- Hm in X; [exact X|exfalso; qlra].
      * apply (proj2 (pl_q _ _ _ _ _ PL)) in Q. destruct Q as [Q _]. destruct (sc_key _ _ b SC it _ Q) as [X Y]. injection X as X. rewrite X. eapply FC, Y.
    + destruct ch as [|e ch]; [contradiction S3; reflexivity|]. destruct (S4 e) as [new [E1 [E2 [_ E4]]]]. pose proof (CL e (or_introl eq_refl)) as Le.
      destruct (proj1 E4 (or_introl eq_refl)) as [X|[X1 X2]].
      * exfalso. destruct (E2 _ X) as [_ Y]. pose proof (TAU e Le). rewrite PH in Y. qlra.
      * rewrite PH in X1. split; [exact X1|]. destruct (W2 e _ Le (CH e _ X2 X1) X1) as [Y|Y]; [exact Y|exfalso; qlra].
Qed.
Lemma fixed_ex P (b : builder) : exists L, fixed L P /\ forall e t, (e < N)%nat -> In t (out_times (out_chain (b_flow b) e)) -> In t L.
Proof.
  destruct (arch_mul (P + d) r (so_pos S r OK)) as [J HJ].
  exists (flat_map (fun e => out_times (out_chain (b_flow b) e)) (seq 0 N) ++ map (fun x => snd (fst x)) (inflow_changes (s_coms S)) ++ map (fun m => qn m * r) (seq 0 J)).
  split; [split|].
  - intros i v t C. apply in_or_app. right. apply in_or_app. left. apply in_map_iff. exists ((i, v, t), Fin t). split; [reflexivity|]. apply changes_iff; [apply (so_src S r OK)|auto].
  - intro m. destruct (Nat.lt_ge_cases m J) as [L|L].
    + left. apply in_or_app. right. apply in_or_app. right. apply in_map_iff. exists m. split; [reflexivity|]. apply in_seq. lia.
    + right. assert (Q : qn J <= qn m) by (apply qn_mono; exact L). pose proof (so_pos S r OK). qnra.
  - intros e t L I. apply in_or_app. left. apply in_flat_map. exists e. split; [apply in_seq; lia|exact I].
Qed.
(** [t] is reached after [n] rounds, or the run raises before. *)
Definition reached (t : Qc) (n : nat) : Prop := match fb_run k S n with Ok b => t <= f_phi (b_flow b) | Err _ => True end.
Lemma window n b : fb_run k S n = Ok b -> exists m, reached (f_phi (b_flow b) + d) m.
Proof.
  intros R. set (P := f_phi (b_flow b)). destruct (fixed_ex P b) as [L [FX FO]].
  assert (G : forall c m b1, fb_run k S m = Ok b1 -> win L P b1 -> (later L (f_phi (b_flow b1)) <= c)%nat -> exists m, reached (P + d) m).
  { induction c as [|c IH]; intros m b1 R1 W C; (destruct (fb_run k S (Datatypes.S m)) as [b2|x] eqn:R2; [|exists (Datatypes.S m); unfold reached; rewrite R2; exact Logic.I]);
      pose proof R2 as R3; cbn [fb_run] in R3; rewrite R1 in R3; cbn [bind] in R3;
      (destruct (qlebP (P + d) (f_phi (b_flow b2))) as [Q|Q]; [exists (Datatypes.S m); unfold reached; rewrite R2; exact Q|]);
      destruct (win_step L P b1 b2 FX (run_sched S r OK k m b1 R1) W R3 ltac:(qlra)) as [W2 [X1 X2]]; pose proof (later_lt L _ _ X2 X1).
    - exfalso. lia.
    - apply (IH _ b2 R2 W2). lia. }
  apply (G (later L P) n b R); [|apply le_n]. constructor; [unfold P; qlra|]. intros e t Le I _. left. apply (FO e t Le I).
Qed.
Lemma reaches t : exists n, reached t n.
Proof.
  destruct (arch_mul t d DP) as [J HJ].
  assert (G : forall j, exists n, reached (qn j * d) n).
  { induction j as [|j (n & Q)].
    - exists 0%nat. unfold reached. destruct (fb_run k S 0) as [b|x] eqn:R; [|exact Logic.I]. pose proof (sc_phi _ _ b (run_sched S r OK k 0 b R)). change (qn 0) with 0. qlra.
    - unfold reached in Q. destruct (fb_run k S n) as [b|x] eqn:R; [|exists n; unfold reached; rewrite R; exact Logic.I].
      destruct (window n b R) as (m & Q'). exists m. unfold reached in *. destruct (fb_run k S m) as [b'|]; [|exact Logic.I]. rewrite qn_S. qlra. }
  destruct (G J) as (n & Q). exists n. unfold reached in *. destruct (fb_run k S n) as [b|]; [qlra|exact Logic.I].
Qed.
End P.
