(** * C124: with floating-point arithmetic, nodes pass on what they receive up to rounding
    Model: RoundedBuilder.v (FlowBuilder), RoundedFlow.v (DynamicFlow), Rounded.v [rnd64] *)
From Coq Require Import Permutation.
From Verif Require Import Base Spec Arrays ArraysProofs PL PLMono RC FRC FRCProofs PQ PQProofs PQSpec DynFlow DQProofs DynRun DynEvents DynEdge TotalSpec
  Graph GraphSpec GraphProofs Dijkstra DijkstraSpec DijkstraProofs FlowBuilder FlowBuilderProofs BuilderRun BuilderFlow Rounded RoundedSpec Rnd64 RoundedFlow OptTotal RoundedFlowProofs
  RoundedEvalProofs RoundedRates RoundedBuilder RoundedBuilderSpec PropRounded PropRoundedFlow PropRoundedRates RoundedSplit RoundedSplitRun.

(** ** Vocabulary
    [parts], [fsum]: RoundedSplit.v; [r_plan]: RoundedSplitRun.v; [supply], [sent], [sinks_at]:
    FlowBuilderProofs.v; [qsum], [sent_rate]: BuilderFlow.v. *)
(** The values of the network inflow are floats. *)
Definition float_inflow (rnd : Qc -> Qc) (S : setup) : Prop :=
  forall c v f, In c (s_coms S) -> In (v, f) (k_sources c) -> Forall (float rnd) (rc_values f).

Lemma fsum_gen l : forall j a s, (forall x, In x l -> 0 <= x /\ float rnd64 x) -> float rnd64 a -> 0 <= s -> (1 - kq j * u64) * s <= a -> a <= (1 + qz 2 * kq j * u64) * s -> kq (j + length l) * u64 <= half ->
  let a' := fold_left (fun acc x => rnd64 (acc + x)) l a in let s' := s + fold_right Qcplus 0 l in
  (1 - kq (j + length l) * u64) * s' <= a' /\ a' <= (1 + qz 2 * kq (j + length l) * u64) * s'.
Proof.
  induction l as [|v l IH]; intros j a s P FA S0 LO UP K; cbn [fold_left length fold_right] in *.
  - rewrite Nat.add_0_r. replace (s + 0) with s by ring. split; assumption.
  - destruct (P v ltac:(left; auto)) as [V0 FV]. destruct (add64 a v FA FV) as (e & (E1 & E2) & E). pose proof u_pos as U.
    replace (j + Datatypes.S (length l))%nat with (Datatypes.S j + length l)%nat in * by lia. replace (s + (v + fold_right Qcplus 0 l)) with ((s + v) + fold_right Qcplus 0 l) by ring.
    assert (KJ : kq j * u64 <= half). { pose proof (kq_le j (Datatypes.S j + length l) ltac:(lia)). assert (0 <= (kq (Datatypes.S j + length l) - kq j) * u64) by (apply qmul_nn; qlra). assert ((kq (Datatypes.S j + length l) - kq j) * u64 = kq (Datatypes.S j + length l) * u64 - kq j * u64) by ring. qlra. }
    assert (HF : half + half = 1) by (apply Qc_is_canon; reflexivity). assert (Q2 : qz 2 = 1 + 1) by (apply Qc_is_canon; reflexivity). rewrite Q2 in *.
    pose proof (kq_nn j) as KN. set (x := kq j * u64) in *. assert (X0 : 0 <= x) by (apply qmul_nn; qlra).
    assert (XE : (1 + 1) * kq j * u64 = x + x) by (unfold x; ring). rewrite XE in UP. assert (US := u_small). assert (US1 : qq 1 1048576 < half) by reflexivity.
    assert (SV : 0 <= s + v) by qlra. assert (VX : 0 <= v * x) by (apply qmul_nn; qlra).
    assert (AV0 : 0 <= a). { assert (0 <= (1 - x) * s) by (apply qmul_nn; qlra). qlra. }
    assert (L : (1 - x) * (s + v) <= a + v) by (assert ((1 - x) * (s + v) = (1 - x) * s + v - v * x) by ring; qlra).
    assert (R : a + v <= (1 + x + x) * (s + v)) by (assert ((1 + x + x) * (s + v) = (1 + (x + x)) * s + v + v * x + v * x) by ring; qlra).
    apply IH; auto.
    + intros w H. apply P. right; auto.
    + apply rnd64_idem.
    + rewrite E, kq_S. replace ((kq j + 1) * u64) with (x + u64) by (unfold x; ring).
      assert (0 <= (a + v - (1 - x) * (s + v)) * (1 - u64)) by (apply qmul_nn; qlra). assert (0 <= (a + v) * (e + u64)) by (apply qmul_nn; qlra). assert (0 <= (x * u64) * (s + v)) by (apply qmul_nn; [apply qmul_nn; qlra|qlra]).
      assert ((a + v - (1 - x) * (s + v)) * (1 - u64) + (a + v) * (e + u64) + x * u64 * (s + v) = (a + v) * (1 + e) - (1 - (x + u64)) * (s + v)) by ring. qlra.
    + rewrite E, kq_S. replace ((1 + 1) * (kq j + 1) * u64) with (x + x + u64 + u64) by (unfold x; ring).
      assert (0 <= ((1 + x + x) * (s + v) - (a + v)) * (1 + u64)) by (apply qmul_nn; qlra). assert (0 <= (a + v) * (u64 - e)) by (apply qmul_nn; qlra).
      assert (0 <= ((1 - x - x) * u64) * (s + v)) by (apply qmul_nn; [apply qmul_nn; qlra|qlra]).
      assert (((1 + x + x) * (s + v) - (a + v)) * (1 + u64) + (a + v) * (u64 - e) + (1 - x - x) * u64 * (s + v) = (1 + (x + x + u64 + u64)) * (s + v) - (a + v) * (1 + e)) by ring. qlra.
Qed.
Lemma sum_nonneg l : (forall x, In x l -> 0 <= x) -> 0 <= fold_right Qcplus 0 l.
Proof. induction l as [|v l IH]; intro P; cbn [fold_right]; [qlra|]. pose proof (P v (or_introl eq_refl)). assert (0 <= fold_right Qcplus 0 l) by (apply IH; intros; apply P; right; auto). qlra. Qed.
(** The computed sum of at most [k] non-negative floats. *)
Lemma fsum_near l k : (forall x, In x l -> 0 <= x /\ float rnd64 x) -> (length l <= k)%nat -> kq k * u64 <= half ->
  (1 - kq k * u64) * fold_right Qcplus 0 l <= fsum rnd64 l /\ fsum rnd64 l <= (1 + qz 2 * kq k * u64) * fold_right Qcplus 0 l.
Proof.
  intros P L K. pose proof u_pos as U. pose proof (kq_le _ _ L) as KL. set (s := fold_right Qcplus 0 l). assert (S0 : 0 <= s) by (apply sum_nonneg; intros x I; apply (P x I)).
  assert (D : 0 <= (kq k - kq (length l)) * u64) by (apply qmul_nn; qlra). assert (DE : (kq k - kq (length l)) * u64 = kq k * u64 - kq (length l) * u64) by ring.
  destruct (fsum_gen l 0 0 0 P rnd64_0 ltac:(discriminate) ltac:(discriminate) ltac:(discriminate) ltac:(cbn [Nat.add]; qlra)) as [A B]. cbn [Nat.add] in A, B. fold s in A, B. fold (fsum rnd64 l) in A, B. replace (0 + s) with s in A, B by ring.
  assert (DS : 0 <= (kq k - kq (length l)) * u64 * s) by (apply qmul_nn; assumption). set (m := kq (length l)) in *. set (q := kq k) in *.
  assert (Q2 : qz 2 = 1 + 1) by (apply Qc_is_canon; reflexivity). rewrite Q2 in *. split.
  - assert ((q - m) * u64 * s = (1 - m * u64) * s - (1 - q * u64) * s) by ring. qlra.
  - assert ((q - m) * u64 * s + (q - m) * u64 * s = (1 + (1 + 1) * q * u64) * s - (1 + (1 + 1) * m * u64) * s) by ring. qlra.
Qed.
Lemma caps_nn S r : setup_ok S r -> forall e c, nth_error (n_cap (s_nw S)) e = Some c -> 0 <= c.
Proof. intros OK e c H. destruct (so_net S r OK) as (_ & N & _). apply nth_error_In in H. specialize (N c H). qlra. Qed.
Lemma eps64 : 0 < r_eps rnd64.
Proof. reflexivity. Qed.

(** ** The properties *)
(** In every round of every run, with any rounding: [r_plan] succeeded with [new_inflow = ni],
    [v] is one of the handled nodes.  Let [x] be the floating-point sum of the rates at which
    commodity [i] leaves the edges into [v] and enters the network in [v].  Nothing is sent out
    of its sink or if [x] is below the threshold; otherwise some edges out of [v] each get the
    rounded quotient of [x] and their number, the others nothing.  Assertions on or off. *)
Theorem C124_split : forall rnd on S r n b b3 ni v i, rounding rnd -> 0 < r_eps rnd -> setup_ok S r -> float_inflow rnd S ->
  r_fb_run rnd on S n = Ok b -> r_plan rnd on S b = Ok (b3, ni) -> In v (b_handle b3) ->
  let x := fsum rnd (parts S b v i) in
  (sinks_at S v i -> forall e, In e (outgoing (s_graph S) v) -> sent S ni e i = None) /\
  (~ sinks_at S v i -> x < r_eps rnd -> forall e, In e (outgoing (s_graph S) v) -> sent S ni e i = None) /\
  (~ sinks_at S v i -> r_eps rnd <= x ->
     exists active, NoDup active /\ active <> [] /\ (forall e, In e active -> In e (outgoing (s_graph S) v)) /\
       (forall e, In e (outgoing (s_graph S) v) -> sent S ni e i = if mem e active then Some (rnd (x / qn (length active))) else None)).
Proof.
  intros rnd on S r n b b3 ni v i R EP OK FI H P I x. pose proof (run_bi rnd on S R EP (so_graph S r OK) (so_ord S r OK) (caps_nn S r OK) FI n b H) as B.
  destruct (plan_bi rnd on S R EP (so_graph S r OK) (so_ord S r OK) b b3 ni B P) as (_ & _ & SP). destruct (SP v i I) as (A1 & A2 & A3). unfold r_supply in A1, A2, A3. fold x in A1, A2, A3.
  split; [exact A1|]. split; [exact A2|]. intros NS L. destruct (A3 NS L) as (act & [T1 T2] & NE & T3). exists act. auto.
Qed.
Print Assumptions C124_split.
(** All rates the builder works with are non-negative floats: those that leave edges, those
    that enter the network, and those it assigns. *)
Theorem C124_rates : forall rnd on S r n b b3 ni, rounding rnd -> 0 < r_eps rnd -> setup_ok S r -> float_inflow rnd S ->
  r_fb_run rnd on S n = Ok b -> r_plan rnd on S b = Ok (b3, ni) ->
  (forall v i x, In x (parts S b v i) -> 0 <= x /\ float rnd x) /\ (forall e d i x, In (e, d) ni -> In (i, x) d -> 0 <= x /\ float rnd x).
Proof.
  intros rnd on S r n b b3 ni R EP OK FI H P. pose proof (run_bi rnd on S R EP (so_graph S r OK) (so_ord S r OK) (caps_nn S r OK) FI n b H) as B.
  destruct (plan_bi rnd on S R EP (so_graph S r OK) (so_ord S r OK) b b3 ni B P) as (_ & PW & _). split; [intros v i; apply (parts_W rnd S b v i B)|]. intros e d i x I J. apply (PW e d I i x J).
Qed.
Print Assumptions C124_rates.
(** In binary64 the rates sent out of a node that is not the commodity's sink sum up to the
    rates it is supplied with, up to a factor between 1 - (k+1)*2^-53 and 1 + (2k+2)*2^-53, where [k] is the number
    of edges into the node plus 1; or these are (up to a factor) below the threshold and nothing is sent. *)
Theorem C124_balance64 : forall on S r n b b3 ni v i, setup_ok S r -> float_inflow rnd64 S ->
  r_fb_run rnd64 on S n = Ok b -> r_plan rnd64 on S b = Ok (b3, ni) -> In v (b_handle b3) -> ~ sinks_at S v i ->
  (Z.of_nat (length (incoming (s_graph S) v)) < 2 ^ 51)%Z -> (Z.of_nat (length (outgoing (s_graph S) v)) <= 2 ^ 51)%Z ->
  let x := supply S b v i in let y := qsum (map (fun e => sent_rate S ni e i) (outgoing (s_graph S) v)) in
  let k := qz (Z.of_nat (length (incoming (s_graph S) v) + 1)) in
  (y = 0 /\ (1 - k * pow2 (-53)) * x < r_eps rnd64) \/
  ((1 - (k + 1) * pow2 (-53)) * x <= y /\ y <= (1 + (qz 2 * k + qz 2) * pow2 (-53)) * x).
Proof.
  intros on S r n b b3 ni v i OK FI H P I NS LI LO x y k. pose proof C118_binary64 as [R _].
  destruct (C124_rates rnd64 on S r n b b3 ni R eps64 OK FI H P) as [PW _]. destruct (C124_split rnd64 on S r n b b3 ni v i R eps64 OK FI H P I) as (_ & A2 & A3). specialize (A2 NS). specialize (A3 NS).
  set (N := (length (incoming (s_graph S) v) + 1)%nat) in *. assert (K : kq N * u64 <= quarter) by (apply quarter51; unfold N; lia). pose proof q4 as Q4. pose proof h2 as H2. assert (Q14 : 0 < quarter) by reflexivity. pose proof u_pos as U.
  destruct (fsum_near (parts S b v i) N (PW v i) (parts_len S b v i) ltac:(qlra)) as [F1 F2]. rewrite parts_sum in F1, F2. fold x in F1, F2. change (kq N) with k in *. change (pow2 (-53)) with u64.
  assert (X0 : 0 <= x) by (unfold x; rewrite <- parts_sum; apply sum_nonneg; intros w Hw; apply (PW v i w Hw)).
  set (X := fsum rnd64 (parts S b v i)) in *. destruct (qltbP X (r_eps rnd64)) as [LT|GE].
  - left. split; [|qlra]. unfold y. specialize (A2 LT). clear - A2. induction (outgoing (s_graph S) v) as [|e l IH]; cbn [map qsum fold_right]; [reflexivity|]. unfold sent_rate at 1. rewrite (A2 e) by (left; reflexivity).
    fold (qsum (map (fun e => sent_rate S ni e i) l)). rewrite IH by (intros; apply A2; right; assumption). ring.
  - right. apply Qcnlt_le in GE. destruct (A3 GE) as (act & N1 & N2 & N3 & N4). clear A2 A3.
    assert (Y : y = qn (length act) * rnd64 (X / qn (length act))).
    { unfold y. rewrite <- (sum_split _ act (outgoing (s_graph S) v)); auto; [|apply nd_out, (so_graph S r OK)]. f_equal. apply map_ext_in. intros e Ie. unfold sent_rate. rewrite (N4 e Ie). destruct (mem e act); reflexivity. }
    assert (ML : (length act <= length (outgoing (s_graph S) v))%nat) by (apply NoDup_incl_length; [exact N1|intros e; apply N3]).
    assert (M0 : (0 < length act)%nat) by (destruct act; [congruence|cbn; lia]). pose proof (FlowBuilderProofs.qn_pos _ M0) as QP. assert (NQ : qn (length act) <> 0) by (intro Z; rewrite Z in QP; qlra).
    assert (MB : qn (length act) <= qz (2 ^ 51)) by (change (qn (length act)) with (qz (Z.of_nat (length act))); apply (proj1 (qz_le _ _)); lia).
    destruct (norm64 (X / qn (length act))) as (d & [D1 D2] & E).
    { set (m := qn (length act)) in *. destruct (qlebP (pow2 (-1000)) (X / m)) as [|G]; auto. exfalso. assert (0 < (pow2 (-1000) - X / m) * m) by (apply qmul_pos; qlra).
      assert ((pow2 (-1000) - X / m) * m = pow2 (-1000) * m - X / m * m) by ring. rewrite qmul_div in H1 by auto. pose proof (pow2_pos (-1000)). assert (0 <= pow2 (-1000) * (qz (2 ^ 51) - m)) by (apply qmul_nn; qlra).
      assert (pow2 (-1000) * (qz (2 ^ 51) - m) = pow2 (-1000) * qz (2 ^ 51) - pow2 (-1000) * m) by ring. assert (pow2 (-1000) * qz (2 ^ 51) < r_eps rnd64) by reflexivity. qlra. }
    assert (YE : y = X * (1 + d)) by (rewrite Y, E; field; exact NQ).
    assert (XP : 0 <= X) by (pose proof eps64; qlra). assert (Q2 : qz 2 = 1 + 1) by (apply Qc_is_canon; reflexivity). rewrite Q2 in *. rewrite YE. clear YE Y E.
    assert (K0 : 0 <= k) by apply kq_nn. set (z := k * u64) in *. assert (Z0 : 0 <= z) by (apply qmul_nn; qlra). pose proof u_small as US. assert (US1 : qq 1 1048576 < half) by reflexivity. split.
    + replace ((1 - (k + 1) * u64) * x) with ((1 - (z + u64)) * x) by (unfold z; ring).
      assert (0 <= (X - (1 - z) * x) * (1 - u64)) by (apply qmul_nn; qlra). assert (0 <= X * (d + u64)) by (apply qmul_nn; qlra). assert (0 <= (z * u64) * x) by (apply qmul_nn; [apply qmul_nn; qlra|qlra]).
      assert ((X - (1 - z) * x) * (1 - u64) + X * (d + u64) + z * u64 * x = X * (1 + d) - (1 - (z + u64)) * x) by ring. qlra.
    + replace ((1 + ((1 + 1) * k + (1 + 1)) * u64) * x) with ((1 + (z + z + u64 + u64)) * x) by (unfold z; ring). replace ((1 + (1 + 1) * k * u64) * x) with ((1 + z + z) * x) in F2 by (unfold z; ring).
      assert (0 <= ((1 + z + z) * x - X) * (1 + u64)) by (apply qmul_nn; qlra). assert (0 <= X * (u64 - d)) by (apply qmul_nn; qlra). assert (0 <= ((1 - z - z) * u64) * x) by (apply qmul_nn; [apply qmul_nn; qlra|qlra]).
      assert (((1 + z + z) * x - X) * (1 + u64) + X * (u64 - d) + (1 - z - z) * u64 * x = (1 + (z + z + u64 + u64)) * x - X * (1 + d)) by ring. qlra.
Qed.
Print Assumptions C124_balance64.

(** Exactly, the rates do not sum up: an inflow of rate 1 is split between three edges. *)
Definition tri_net : network := mkNw (grun [GAdd 1 2; GAdd 1 2; GAdd 1 2]%nat) [1; 1; 1] [1; 1; 1] [mkCom [(1%nat, mkRC [0] [1] (Fin 0) PInf)] 2 0].
Definition tri : setup := mkSetup tri_net [(0%nat, mkPred (r_zero_predict rnd64 true) false)] (Some 1) (fun l => l).
Lemma tri_ok : setup_ok tri 1 /\ float_inflow rnd64 tri.
Proof.
  split; [constructor|].
  - apply (grun_spec [GAdd 1 2; GAdd 1 2; GAdd 1 2]%nat g_empty (empty_consistent _ _)). cbn. auto.
  - split; [reflexivity|]. split; intros x H; cbn in H; repeat (destruct H as [<-|H]; [apply qltb_true || apply qleb_true; vm_compute; reflexivity|]); destruct H.
  - reflexivity.
  - intro l. apply Permutation_refl.
  - reflexivity.
  - apply qltb_true. vm_compute. reflexivity.
  - intros c H. cbn in H. destruct H as [<-|[]]; cbn; repeat constructor; intros [].
  - intros c v f H I. cbn in H. destruct H as [<-|[]]; cbn in I; destruct I as [E|[]]; injection E as <- <-; cbn [rc_times]; repeat constructor; intros [].
  - intros c v f H I. cbn in H. destruct H as [<-|[]]; cbn in I; destruct I as [E|[]]; injection E as <- <-; cbn; auto.
  - intros c v f H I. cbn in H. destruct H as [<-|[]]; cbn in I; destruct I as [E|[]]; injection E as <- <-. cbn [rc_values]. constructor; [|constructor]. unfold float. apply Qc_is_canon. vm_compute. reflexivity.
Qed.
Definition tri_check : bool :=
  match r_fb_run rnd64 true tri 0 with
  | Ok b => match r_plan rnd64 true tri b with
            | Ok (b3, ni) => (mem 1 (b_handle b3) && qeqb (supply tri b 1 0) 1 && qltb (qsum (map (fun e => sent_rate tri ni e 0) (outgoing (s_graph tri) 1))) 1 && (length (outgoing (s_graph tri) 1) =? 3)%nat)%bool
            | Err _ => false end
  | Err _ => false end.
Lemma tri_run : exists b b3 ni, r_fb_run rnd64 true tri 0 = Ok b /\ r_plan rnd64 true tri b = Ok (b3, ni) /\ In 1%nat (b_handle b3) /\ supply tri b 1 0 = 1 /\ qsum (map (fun e => sent_rate tri ni e 0) (outgoing (s_graph tri) 1)) < 1.
Proof.
  assert (K : tri_check = true) by (vm_compute; reflexivity). unfold tri_check in K. destruct (r_fb_run rnd64 true tri 0) as [b|] eqn:E; [|discriminate]. destruct (r_plan rnd64 true tri b) as [[b3 ni]|] eqn:P; [|discriminate].
  apply andb_prop in K. destruct K as [K _]. apply andb_prop in K. destruct K as [K K3]. apply andb_prop in K. destruct K as [K1 K2]. exists b, b3, ni. split; [reflexivity|]. split; [exact P|]. split; [apply memP, K1|]. split; [apply qeqb_true, K2|apply qltb_true, K3].
Qed.
Theorem C124_exact_refuted : ~ (forall on S r n b b3 ni v i, setup_ok S r -> float_inflow rnd64 S -> r_fb_run rnd64 on S n = Ok b -> r_plan rnd64 on S b = Ok (b3, ni) -> In v (b_handle b3) -> ~ sinks_at S v i ->
  r_eps rnd64 <= supply S b v i -> qsum (map (fun e => sent_rate S ni e i) (outgoing (s_graph S) v)) = supply S b v i).
Proof.
  intro H. destruct tri_ok as [OK FI]. destruct tri_run as (b & b3 & ni & R & P & I & S1 & Q). assert (NS : ~ sinks_at tri 1 0). { intros (c & C & K). cbn in C. injection C as <-. discriminate. }
  specialize (H true tri 1 0%nat b b3 ni 1%nat 0%nat OK FI R P I NS). rewrite S1 in H. rewrite H in Q; [qlra|]. apply qleb_true. vm_compute. reflexivity.
Qed.
Print Assumptions C124_exact_refuted.
(** The hypotheses of the theorems are met by this run (and by all runs that C121 speaks of with float inflow rates). *)
Example C124_example : rounding rnd64 /\ 0 < r_eps rnd64 /\ setup_ok tri 1 /\ float_inflow rnd64 tri /\ exists b b3 ni, r_fb_run rnd64 true tri 0 = Ok b /\ r_plan rnd64 true tri b = Ok (b3, ni) /\ In 1%nat (b_handle b3).
Proof. split; [apply C118_binary64|]. split; [apply eps64|]. split; [apply tri_ok|]. split; [apply tri_ok|]. destruct tri_run as (b & b3 & ni & R & P & I & _). exists b, b3, ni. auto. Qed.
