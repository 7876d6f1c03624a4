(** * C105: what is released into the network is on the edges or has arrived *)
From Coq Require Import Permutation.
From Verif Require Import Base Spec Arrays ArraysProofs PL PLProofs PLEval RC RCProofs RCOps FRC FRCProofs FRCExact PQ PQProofs PQSpec DynFlow DQProofs DynRun DynEvents DynEdge DynFlowProofs PropFlow PropFlow2
  Graph GraphSpec GraphProofs Dijkstra DijkstraSpec DijkstraProofs DijkstraProofs2 FlowBuilder FlowBuilderProofs BuilderRun BuilderFlow PropBuilder PropBuilder2 Eval PropEval2 PropEval4 PropFifo.

(** ** Vocabulary
    [edge_rates] and [accumulates] are in PropEval4.v. *)
(** The network inflow functions of a commodity at the nodes other than its sink
    (what a commodity releases at its own sink never enters the network). *)
Definition released_fns (c : commodity) : list RC := map snd (filter (fun p => negb (Nat.eqb (fst p) (k_sink c))) (k_sources c)).
(** All edges of the network, and the edges entering the sink of a commodity. *)
Definition edge_ids (S : setup) : list nat := seq 0 (length (g_edges (s_graph S))).
Definition sink_ids (S : setup) (c : commodity) : list nat := map (e_id (s_graph S)) (incoming (s_graph S) (k_sink c)).
(** At every node other than the sink of [i], what arrives and is released of [i]
    at time [t] is nothing or at least eps. *)
Definition no_dust (S : setup) (b : builder) (i : nat) (t : Qc) : Prop := forall v ins net,
  In v (node_ids (s_graph S)) -> ~ sinks_at S v i -> arriving_rates S b v i t = Ok ins -> net_rate S v i t = Ok net -> qsum ins + net = 0 \/ eps <= qsum ins + net.

(** ** Sums *)
Lemma sumq_zero {A} (l : list A) : sumq (fun _ => 0) l = 0.
Proof. induction l as [|x l IH]; [reflexivity|]. rewrite sumq_cons, IH. ring. Qed.
Lemma sumq_add {A} (h k : A -> Qc) l : sumq (fun x => h x + k x) l = sumq h l + sumq k l.
Proof. induction l as [|x l IH]; [unfold sumq; cbn; ring|]. rewrite !sumq_cons, IH. ring. Qed.
Lemma sumq_sub {A} (h k : A -> Qc) l : sumq (fun x => h x - k x) l = sumq h l - sumq k l.
Proof. induction l as [|x l IH]; [unfold sumq; cbn; ring|]. rewrite !sumq_cons, IH. ring. Qed.
Lemma sumq_swap {A B} (h : A -> B -> Qc) l m : sumq (fun x => sumq (h x) m) l = sumq (fun y => sumq (fun x => h x y) l) m.
Proof.
  induction l as [|x l IH]; [rewrite (sumq_ext _ (fun _ => 0) m) by reflexivity; rewrite sumq_zero; reflexivity|].
  rewrite sumq_cons, IH, <- sumq_add. apply sumq_ext. intros y _. rewrite sumq_cons. reflexivity.
Qed.
Lemma sumq_mono {A} (h k : A -> Qc) l : (forall x, In x l -> h x <= k x) -> sumq h l <= sumq k l.
Proof.
  induction l as [|x l IH]; intro H; [unfold sumq; cbn; qlra|]. rewrite !sumq_cons. pose proof (H x (or_introl eq_refl)). pose proof (IH (fun y I => H y (or_intror I))). qlra.
Qed.
Lemma qz_succ n : qz (Z.of_nat (Datatypes.S n)) = 1 + qz (Z.of_nat n).
Proof. change 1 with (qz 1). rewrite Nat2Z.inj_succ, <- Z.add_1_l. apply Qc_is_canon. unfold qz, Qcplus. cbn [this Q2Qc]. rewrite !Qred_correct. rewrite inject_Z_plus. reflexivity. Qed.
Lemma sumq_const {A} (a : Qc) (l : list A) : sumq (fun _ => a) l = qz (Z.of_nat (length l)) * a.
Proof.
  induction l as [|x l IH]; [cbn [length]; change (qz (Z.of_nat 0)) with 0; unfold sumq; cbn [map fold_right]; ring|].
  rewrite sumq_cons, IH. cbn [length]. rewrite qz_succ. ring.
Qed.
Lemma sumq_one (k : nat) x vs : NoDup vs -> In k vs -> sumq (fun v => if Nat.eqb k v then x else 0) vs = x.
Proof.
  induction vs as [|v vs IH]; intros N I; [destruct I|]. inversion N as [|? ? N1 N2]; subst. rewrite sumq_cons. destruct (Nat.eqb_spec k v) as [->|NE].
  - rewrite (sumq_ext _ (fun _ => 0)); [rewrite sumq_zero; ring|]. intros y Y. destruct (Nat.eqb_spec v y) as [->|]; [contradiction|reflexivity].
  - destruct I as [I|I]; [congruence|]. rewrite IH by assumption. ring.
Qed.
(** Summing over the classes of [key] is summing over all elements. *)
Lemma sumq_classes {A} (key : A -> nat) (h : A -> Qc) l vs : NoDup vs -> (forall x, In x l -> In (key x) vs) ->
  sumq (fun v => sumq h (filter (fun x => Nat.eqb (key x) v) l)) vs = sumq h l.
Proof.
  intros N K. rewrite (sumq_ext _ (fun v => sumq (fun x => if Nat.eqb (key x) v then h x else 0) l)) by (intros; apply sumq_filter).
  rewrite (sumq_swap (fun v x => if Nat.eqb (key x) v then h x else 0) vs l). apply sumq_ext. intros x X. apply sumq_one; [exact N|apply K, X].
Qed.
Lemma sumq_split {A} (h : A -> Qc) (p : A -> bool) l : sumq h l = sumq h (filter p l) + sumq h (filter (fun x => negb (p x)) l).
Proof.
  induction l as [|x l IH]; [unfold sumq; cbn; ring|]. rewrite sumq_cons, IH. cbn [filter]. destruct (p x); cbn [negb]; rewrite sumq_cons; ring.
Qed.
Lemma filter_twice {A} (p q : A -> bool) l : filter p (filter q l) = filter (fun x => andb (p x) (q x)) l.
Proof. induction l as [|x l IH]; [reflexivity|]. cbn [filter]. destruct (q x) eqn:Q; cbn [filter]; rewrite IH; destruct (p x); reflexivity. Qed.
(** The same without the class of [s]. *)
Lemma sumq_classes_but {A} (key : A -> nat) (h : A -> Qc) l vs s : NoDup vs -> (forall x, In x l -> In (key x) vs) ->
  sumq (fun v => if Nat.eqb v s then 0 else sumq h (filter (fun x => Nat.eqb (key x) v) l)) vs = sumq h l - sumq h (filter (fun x => Nat.eqb (key x) s) l).
Proof.
  intros N K. rewrite (sumq_split h (fun x => Nat.eqb (key x) s) l). set (m := filter (fun x => negb (Nat.eqb (key x) s)) l).
  rewrite <- (sumq_classes key h m vs N) by (intros x X; apply filter_In in X; apply K, X).
  assert (E : sumq (fun v => if Nat.eqb v s then 0 else sumq h (filter (fun x => Nat.eqb (key x) v) l)) vs = sumq (fun v => sumq h (filter (fun x => Nat.eqb (key x) v) m)) vs); [|rewrite E; ring].
  apply sumq_ext. intros v _. unfold m. rewrite filter_twice. destruct (Nat.eqb_spec v s) as [->|NE].
  - rewrite (filter_ext _ (fun _ => false)); [|intro x; destruct (Nat.eqb (key x) s); reflexivity]. clear. induction l as [|x l IH]; [reflexivity|exact IH].
  - f_equal. apply filter_ext. intro x. destruct (Nat.eqb_spec (key x) v) as [Q|Q]; [|reflexivity]. destruct (Nat.eqb_spec (key x) s) as [R|R]; [exfalso; congruence|reflexivity].
Qed.
Lemma dget_class {B} (w : B -> Qc) (d : list (nat * B)) v : NoDup (map fst d) ->
  match dget d v with Some f => w f | None => 0 end = sumq (fun p => w (snd p)) (filter (fun p => Nat.eqb (fst p) v) d).
Proof.
  induction d as [|[k f] d IH]; intro N; [reflexivity|]. cbn [map fst] in N. inversion N as [|? ? N1 N2]; subst. cbn [dget filter fst]. destruct (Nat.eqb_spec k v) as [->|NE]; [|apply IH, N2].
  rewrite sumq_cons. cbn [snd]. specialize (IH N2). rewrite (proj2 (dget_None d v) N1) in IH. rewrite <- IH. ring.
Qed.

(** ** Rates *)
Lemma edge_value cols i ids t : fold_right Qcplus 0 (map (fun f => value f t) (edge_rates cols i ids)) = sumq (fun k => val (rate_of (nth k cols frc_empty) i t)) ids.
Proof.
  unfold edge_rates. induction ids as [|k ids IH]; [reflexivity|]. cbn [flat_map]. rewrite map_app, sumq_cons, <- IH. clear IH.
  assert (A : forall l m, fold_right Qcplus 0 (l ++ m) = fold_right Qcplus 0 l + fold_right Qcplus 0 m).
  { induction l as [|x l IH]; intro m; cbn [app fold_right]; [ring|]. rewrite IH. ring. }
  rewrite A. f_equal. destruct (nth_error cols k) as [c|] eqn:E.
  - rewrite (nth_error_nth _ _ frc_empty E). unfold rate_of. destruct (dget (c_fns c) i) as [f|]; cbn [map fold_right]; [|reflexivity]. unfold value, val. ring.
  - rewrite nth_overflow by (apply nth_error_None; exact E). reflexivity.
Qed.
Lemma ids_seq g : consistent g -> map (e_id g) (g_edges g) = seq 0 (length (g_edges g)).
Proof.
  intro C. apply (nth_ext _ _ 0%nat 0%nat); [rewrite map_length, seq_length; reflexivity|]. intros k K. rewrite map_length in K. rewrite seq_nth by exact K.
  destruct (nth_error (g_edges g) k) as [e|] eqn:E; [|apply nth_error_None in E; lia]. rewrite (nth_error_nth _ _ 0%nat (map_nth_error (e_id g) k (g_edges g) E)). apply (cs_ids g C k e E).
Qed.
Lemma sumq_ids g (h : nat -> Qc) : consistent g -> sumq h (seq 0 (length (g_edges g))) = sumq (fun e => h (e_id g e)) (g_edges g).
Proof. intro C. rewrite <- (ids_seq g C). unfold sumq. rewrite map_map. reflexivity. Qed.

Lemma mapM_sum {A} (f : A -> res Qc) : forall l ys, mapM f l = Ok ys -> qsum ys = sumq (fun x => val (f x)) l.
Proof.
  induction l as [|x l IH]; intros ys E; cbn [mapM] in E; [apply ok_inj in E; subst; reflexivity|]. destruct (f x) as [y|] eqn:F; [|discriminate E]. cbn [bind] in E.
  destruct (mapM f l) as [zs|] eqn:M; [|discriminate E]. cbn [bind] in E. apply ok_inj in E. subst ys. rewrite sumq_cons, F. cbn [val]. rewrite <- (IH zs eq_refl). reflexivity.
Qed.
Section Rates.
Variables (S : setup) (r : Qc) (n : nat) (b : builder) (i : nat) (c : commodity).
Hypothesis OK : setup_ok S r.
Hypothesis SR : BuilderFlow.sources_ok S.
Hypothesis CL : clean_build S n.
Hypothesis H : fb_run false S n = Ok b.
Hypothesis IC : nth_error (s_coms S) i = Some c.
Notation g := (s_graph S).
Notation st := (b_flow b).
Definition in_rate (k : nat) (t : Qc) : Qc := val (rate_of (inflow_of st k) i t).
Definition out_rate (k : nat) (t : Qc) : Qc := val (rate_of (outflow_of st k) i t).
Definition net_of (v : nat) (t : Qc) : Qc := val (net_rate S v i t).

Lemma build_full : exists cs, full (s_nw S) cs st.
Proof. apply (co_full _ _ _ (run_cons S r OK SR n b (clean_same S r OK SR n b CL H))). Qed.
Lemma out_rate_nonneg k t : (k < length (n_cap (s_nw S)))%nat -> 0 <= t -> 0 <= out_rate k t.
Proof.
  intros L T. destruct build_full as [cs F]. destruct (edge_full (s_nw S) cs st k (so_net S r OK) F L) as [G [B _]]. pose proof (b_out _ _ _ _ _ B) as FO. cbn [edge_of e_out] in FO.
  unfold out_rate. rewrite (rate_of_eq _ _ _ _ _ i t FO T). cbn [val]. apply rate_nonneg, (latest_snapshot _ _ _ _ _ t FO).
Qed.
Lemma net_of_nonneg v t : 0 <= t -> 0 <= net_of v t.
Proof.
  intro T. unfold net_of, net_rate. rewrite IC. destruct (dget (k_sources c) v) as [f|] eqn:D; [|cbn; qlra].
  destruct (sr_fn S SR c v f (nth_error_In _ _ IC) (dget_In _ _ _ D)) as [V [Lo [Hi [_ P]]]]. rewrite (reval_at f V) by (split; rewrite ?Lo, ?Hi; [exact T|exact Logic.I]). cbn [val].
  apply P, rc_at_in, V.
Qed.
Lemma node_balance v t : In v (node_ids g) -> 0 <= t -> t < f_phi st ->
  let lost := (if Nat.eqb v (k_sink c) then 0 else sumq (fun e => out_rate (e_id g e) t) (incoming g v) + net_of v t) - sumq (fun e => in_rate (e_id g e) t) (outgoing g v) in
  0 <= lost /\ lost <= eps /\ (no_dust S b i t -> lost = 0).
Proof.
  intros Iv T0 T1. destruct (C38_conservation S r n b v i t OK SR CL H Iv T0 T1) as (outs & ins & net & E1 & E2 & E3 & P1 & P2 & P3).
  assert (V1 : qsum outs = sumq (fun e => in_rate (e_id g e) t) (outgoing g v)) by (apply (mapM_sum _ _ _ E1)).
  assert (V2 : qsum ins = sumq (fun e => out_rate (e_id g e) t) (incoming g v)) by (apply (mapM_sum _ _ _ E2)).
  assert (V3 : net = net_of v t) by (unfold net_of; rewrite E3; reflexivity).
  assert (N0 : 0 <= qsum ins + net).
  { rewrite V2, V3. pose proof (net_of_nonneg v t T0). assert (0 <= sumq (fun e => out_rate (e_id g e) t) (incoming g v)); [|qlra].
    rewrite <- (sumq_zero (incoming g v)). apply sumq_mono. intros e I. apply out_rate_nonneg; [apply (edge_lt S r OK)|exact T0]. apply (in_iff _ (so_graph S r OK)) in I. apply I. }
  assert (EP : 0 < eps) by qdec.
  intro lost. unfold lost. rewrite <- V1, <- V2, <- V3. clear lost. destruct (Nat.eqb_spec v (k_sink c)) as [Q|Q].
  - rewrite P1 by (exists c; auto). split; [qlra|split; [qlra|intros _; ring]].
  - assert (NS : ~ sinks_at S v i) by (intros [c' [I' K']]; congruence). destruct (qlebP eps (qsum ins + net)) as [K|K].
    + rewrite (P2 NS K). split; [qlra|split; [qlra|intros _; ring]].
    + rewrite (P3 NS) by qlra. split; [qlra|split; [qlra|]]. intro ND. destruct (ND v ins net Iv NS E2 E3) as [Z|Z]; [rewrite Z; ring|exfalso; qlra].
Qed.
Lemma rates_balance t : 0 <= t -> t < f_phi st ->
  let lost := fold_right Qcplus 0 (map (fun f => value f t) (released_fns c)) - sumq (fun k => out_rate k t) (sink_ids S c) -
    (sumq (fun k => in_rate k t) (edge_ids S) - sumq (fun k => out_rate k t) (edge_ids S)) in
  0 <= lost /\ lost <= qz (Z.of_nat (length (node_ids g))) * eps /\ (no_dust S b i t -> lost = 0).
Proof.
  intros T0 T1 lost. pose proof (so_graph S r OK) as C. pose proof (cs_nodes g C) as NN.
  set (D := fun v => (if Nat.eqb v (k_sink c) then 0 else sumq (fun e => out_rate (e_id g e) t) (incoming g v) + net_of v t) - sumq (fun e => in_rate (e_id g e) t) (outgoing g v)).
  assert (E : lost = sumq D (node_ids g)).
  { unfold D. rewrite sumq_sub.
    rewrite (sumq_ext (fun v => if Nat.eqb v (k_sink c) then 0 else sumq (fun e => out_rate (e_id g e) t) (incoming g v) + net_of v t)
      (fun v => (if Nat.eqb v (k_sink c) then 0 else sumq (fun e => out_rate (e_id g e) t) (filter (fun e => Nat.eqb (e_to g e) v) (g_edges g))) +
                (if Nat.eqb v (k_sink c) then 0 else sumq (fun p => value (snd p) t) (filter (fun p => Nat.eqb (fst p) v) (k_sources c))))).
    2:{ intros v _. destruct (Nat.eqb v (k_sink c)); [ring|]. rewrite <- (cs_in g C). f_equal. rewrite <- (dget_class (fun f => value f t)) by (apply (so_src S r OK), (nth_error_In _ _ IC)).
        unfold net_of, net_rate. rewrite IC. destruct (dget (k_sources c) v); reflexivity. }
    rewrite sumq_add. rewrite !sumq_classes_but.
    2:{ exact NN. }
    2:{ intros [v f] I. apply (so_nodes S r OK c v f (nth_error_In _ _ IC) I). }
    2:{ exact NN. }
    2:{ intros e I. apply (cs_ends g C e I). }
    rewrite (sumq_ext (fun v => sumq (fun e => in_rate (e_id g e) t) (outgoing g v)) (fun v => sumq (fun e => in_rate (e_id g e) t) (filter (fun e => Nat.eqb (e_from g e) v) (g_edges g)))) by (intros v _; rewrite (cs_out g C); reflexivity).
    rewrite sumq_classes; [|exact NN|intros e I; apply (cs_ends g C e I)].
    unfold lost, edge_ids. rewrite !(sumq_ids g) by exact C. unfold sink_ids. rewrite <- (cs_in g C).
    replace (sumq (fun k => out_rate k t) (map (e_id g) (incoming g (k_sink c)))) with (sumq (fun e => out_rate (e_id g e) t) (incoming g (k_sink c))) by (unfold sumq; rewrite map_map; reflexivity).
    rewrite (sumq_split (fun p => value (snd p) t) (fun p => Nat.eqb (fst p) (k_sink c)) (k_sources c)).
    unfold released_fns. rewrite map_map. fold (sumq (fun p : nat * RC => value (snd p) t) (filter (fun p => negb (Nat.eqb (fst p) (k_sink c))) (k_sources c))). ring. }
  rewrite E. assert (NB : forall v, In v (node_ids g) -> 0 <= D v /\ D v <= eps /\ (no_dust S b i t -> D v = 0)) by (intros v I; apply (node_balance v t I T0 T1)).
  split; [|split].
  - rewrite <- (sumq_zero (node_ids g)). apply sumq_mono. intros v I. apply NB, I.
  - rewrite <- sumq_const. apply sumq_mono. intros v I. apply NB, I.
  - intro ND. rewrite (sumq_ext _ (fun _ => 0)) by (intros v I; apply NB; assumption). apply sumq_zero.
Qed.
End Rates.

(** ** Amounts *)
Lemma accumulates_app fs gs C D : accumulates fs C -> accumulates gs D -> accumulates (fs ++ gs) (fun t => C t + D t).
Proof.
  intros [C0 C1] [D0 D1]. split; [rewrite C0, D0; ring|]. intros a b A AB P.
  assert (E : forall l m : list RC, fold_right Qcplus 0 (map (fun f => value f a) (l ++ m)) = fold_right Qcplus 0 (map (fun f => value f a) l) + fold_right Qcplus 0 (map (fun f => value f a) m)).
  { induction l as [|x l IH]; intro m; cbn [app map fold_right]; [ring|]. rewrite IH. ring. }
  rewrite E. pose proof (C1 a b A AB ltac:(intros f x I; apply P, in_or_app; left; exact I)) as K1. pose proof (D1 a b A AB ltac:(intros f x I; apply P, in_or_app; right; exact I)) as K2.
  replace (C b + D b - (C a + D a)) with ((C b - C a) + (D b - D a)) by ring. rewrite K1, K2. ring.
Qed.
Section Amounts.
Variables (S : setup) (r : Qc) (n : nat) (b : builder) (i : nat).
Hypothesis OK : setup_ok S r.
Hypothesis SR : BuilderFlow.sources_ok S.
Hypothesis CL : clean_build S n.
Hypothesis H : fb_run false S n = Ok b.
Notation st := (b_flow b).
Lemma edge_amounts ids : (forall k, In k ids -> (k < length (n_cap (s_nw S)))%nat) -> exists cin cout,
  accumulates (edge_rates (f_in st) i ids) cin /\ accumulates (edge_rates (f_out st) i ids) cout /\ forall t, 0 <= t -> t <= f_phi st -> 0 <= cout t /\ cout t <= cin t.
Proof.
  destruct (build_full S r n b OK SR CL H) as [cs F]. induction ids as [|k ids IH]; intro L.
  - exists (fun _ => 0), (fun _ => 0). split; [apply none_accumulates|]. split; [apply none_accumulates|]. intros. split; qlra.
  - destruct IH as (ci & co & A1 & A2 & LE); [intros; apply L; right; assumption|]. specialize (L k (or_introl eq_refl)).
    destruct (edge_full (s_nw S) cs st k (so_net S r OK) F L) as [G [B [CP TT]]].
    destruct (amounts_exist _ _ _ _ _ i (b_in _ _ _ _ _ B)) as [xi HI]. destruct (amounts_exist _ _ _ _ _ i (b_out _ _ _ _ _ B)) as [xo HO].
    cbn [edge_of e_in e_out] in HI, HO. pose proof (accumulates_collects _ _ _ _ _ _ _ (b_in _ _ _ _ _ B) HI) as KI. pose proof (accumulates_collects _ _ _ _ _ _ _ (b_out _ _ _ _ _ B) HO) as KO.
    destruct F as [_ GI]. destruct (gi_len _ _ _ GI) as [LI [LO _]].
    assert (EI : edge_rates (f_in st) i (k :: ids) = functions_of (inflow_of st k) i ++ edge_rates (f_in st) i ids).
    { unfold edge_rates. cbn [flat_map]. f_equal. unfold functions_of, inflow_of. destruct (nth_error (f_in st) k) as [x|] eqn:E; [rewrite (nth_error_nth _ _ frc_empty E); reflexivity|apply nth_error_None in E; lia]. }
    assert (EO : edge_rates (f_out st) i (k :: ids) = functions_of (outflow_of st k) i ++ edge_rates (f_out st) i ids).
    { unfold edge_rates. cbn [flat_map]. f_equal. unfold functions_of, outflow_of. destruct (nth_error (f_out st) k) as [x|] eqn:E; [rewrite (nth_error_nth _ _ frc_empty E); reflexivity|apply nth_error_None in E; lia]. }
    exists (fun t => xi t + ci t), (fun t => xo t + co t). rewrite EI, EO. split; [apply accumulates_app; assumption|]. split; [apply accumulates_app; assumption|].
    intros t T0 TP. destruct (LE t T0 TP) as [L1 L2].
    pose proof (exit_amount _ _ CP TT _ _ _ B i xi xo KI KO t T0 TP) as K. pose proof (b_nn _ _ _ _ _ B t T0 TP) as NN. pose proof (ex_ge _ _ CP TT _ _ NN) as GE.
    pose proof (collects_mono _ _ _ _ _ i xo (b_out _ _ _ _ _ B) KO) as M. pose proof (M 0 t ltac:(qlra) T0) as M1. rewrite (proj1 KO) in M1.
    pose proof (M t _ T0 (Qcle_trans _ _ _ ltac:(apply Qcle_minus_iff; replace (t + tau_of (s_nw S) k + - t) with (tau_of (s_nw S) k) by ring; exact TT) GE)) as M2. rewrite K in M2. split; qlra.
Qed.
Lemma released_exist c : nth_error (s_coms S) i = Some c -> forall l, (forall p, In p l -> In p (k_sources c)) -> exists rel, accumulates (map snd l) rel.
Proof.
  intros IC. induction l as [|[v f] l IH]; intro I; [exists (fun _ => 0); apply none_accumulates|]. destruct IH as [rel A]; [intros; apply I; right; assumption|].
  assert (IN : In (v, f) (k_sources c)) by (apply I; left; reflexivity). destruct (sr_fn S SR c v f (nth_error_In _ _ IC) IN) as [V [Lo [Hi [Z P]]]].
  assert (D : dget (k_sources c) v = Some f) by (apply In_dget; [apply (so_src S r OK), (nth_error_In _ _ IC)|exact IN]).
  destruct (accumulated [f]) as (p & Q & _ & _ & _ & _ & _ & A2 & _).
  { split; [intros f' [<-|[]]; auto|]. cbn [map concat]. rewrite app_nil_r. intros x y X Y. apply (sr_sep S SR i i v); exists c, f; (split; [exact IC|split; [exact D|]]); [destruct X as [<-|X]; assumption|destruct Y as [<-|Y]; assumption]. }
  exists (fun t => pl_at Q t + rel t). change (map snd ((v, f) :: l)) with ([f] ++ map snd l). apply accumulates_app; assumption.
Qed.
Lemma accumulates_mono fs C : (forall f t, In f fs -> 0 <= t -> 0 <= value f t) -> accumulates fs C -> forall a t, 0 <= a -> a <= t -> C a <= C t.
Proof.
  intros NN [C0 C1] a t A T. apply (pieces_le C (concat (map rc_times fs)) a t T). intros u v U UV VT P. apply piece_of in P. pose proof (C1 u v ltac:(qlra) UV P) as K.
  assert (0 <= fold_right Qcplus 0 (map (fun f => value f u) fs)).
  { clear -NN U A. induction fs as [|f fs IH]; cbn [map fold_right]; [qlra|]. pose proof (NN f u (or_introl eq_refl) ltac:(qlra)). pose proof (IH (fun f t I => NN f t (or_intror I))). qlra. }
  assert (0 <= fold_right Qcplus 0 (map (fun f => value f u) fs) * (v - u)) by (apply qmul_nn; qlra). qlra.
Qed.
End Amounts.

(** ** C105 *)
(** In every clean run, up to every time the computed flow has reached, for
    every commodity: what was released (outside the sink) is what has arrived at
    the sink plus what is on the edges (entered minus left), plus what was lost
    at the nodes, at most eps per node and unit of time; without dust nothing. *)
Theorem C105_balance : forall S r n b i c t released arrived entered left,
  setup_ok S r -> BuilderFlow.sources_ok S -> clean_build S n -> fb_run false S n = Ok b ->
  nth_error (s_coms S) i = Some c ->
  accumulates (released_fns c) released ->
  accumulates (edge_rates (f_out (b_flow b)) i (sink_ids S c)) arrived ->
  accumulates (edge_rates (f_in (b_flow b)) i (edge_ids S)) entered ->
  accumulates (edge_rates (f_out (b_flow b)) i (edge_ids S)) left ->
  0 <= t -> t <= f_phi (b_flow b) ->
  arrived t + (entered t - left t) <= released t /\
  released t <= arrived t + (entered t - left t) + qz (Z.of_nat (length (node_ids (s_graph S)))) * eps * t /\
  ((forall s, 0 <= s -> s < t -> no_dust S b i s) -> released t = arrived t + (entered t - left t)).
Proof.
  intros S r n b i c t rel arr ent lef OK SR CL H IC AR AA AE AL T0 TP.
  set (L := concat (map rc_times (released_fns c)) ++ concat (map rc_times (edge_rates (f_out (b_flow b)) i (sink_ids S c))) ++
            concat (map rc_times (edge_rates (f_in (b_flow b)) i (edge_ids S))) ++ concat (map rc_times (edge_rates (f_out (b_flow b)) i (edge_ids S)))).
  set (D := fun s => rel s - arr s - (ent s - lef s)). set (M := qz (Z.of_nat (length (node_ids (s_graph S)))) * eps).
  assert (D0 : D 0 = 0) by (unfold D; rewrite (proj1 AR), (proj1 AA), (proj1 AE), (proj1 AL); ring).
  assert (K : forall u v, 0 <= u -> u < v -> v <= t -> (forall x, In x L -> x <= u \/ v <= x) -> exists k, D v - D u = k * (v - u) /\ 0 <= k /\ k <= M /\ (no_dust S b i u -> k = 0)).
  { intros u v U UV VT P. destruct (rates_balance S r n b i c OK SR CL H IC u U ltac:(qlra)) as [B1 [B2 B3]]. eexists. split; [|split; [exact B1|split; [exact B2|exact B3]]].
    assert (UV' : u <= v) by qlra.
    pose proof (proj2 AR u v U UV' (proj2 (piece_of _ _ _) (fun x I => P x (in_or_app _ _ _ (or_introl I))))) as Q1.
    pose proof (proj2 AA u v U UV' (proj2 (piece_of _ _ _) (fun x I => P x (in_or_app _ _ _ (or_intror (in_or_app _ _ _ (or_introl I))))))) as Q2.
    pose proof (proj2 AE u v U UV' (proj2 (piece_of _ _ _) (fun x I => P x (in_or_app _ _ _ (or_intror (in_or_app _ _ _ (or_intror (in_or_app _ _ _ (or_introl I))))))))) as Q3.
    pose proof (proj2 AL u v U UV' (proj2 (piece_of _ _ _) (fun x I => P x (in_or_app _ _ _ (or_intror (in_or_app _ _ _ (or_intror (in_or_app _ _ _ (or_intror I))))))))) as Q4.
    rewrite edge_value in Q2, Q3, Q4.
    change (sumq (fun k => val (rate_of (nth k (f_out (b_flow b)) frc_empty) i u)) (sink_ids S c)) with (sumq (fun k => out_rate b i k u) (sink_ids S c)) in Q2.
    change (sumq (fun k => val (rate_of (nth k (f_in (b_flow b)) frc_empty) i u)) (edge_ids S)) with (sumq (fun k => in_rate b i k u) (edge_ids S)) in Q3.
    change (sumq (fun k => val (rate_of (nth k (f_out (b_flow b)) frc_empty) i u)) (edge_ids S)) with (sumq (fun k => out_rate b i k u) (edge_ids S)) in Q4.
    unfold D. replace (rel v - arr v - (ent v - lef v) - (rel u - arr u - (ent u - lef u))) with ((rel v - rel u) - (arr v - arr u) - ((ent v - ent u) - (lef v - lef u))) by ring.
    rewrite Q1, Q2, Q3, Q4. ring. }
  assert (P1 : D 0 <= D t).
  { apply (pieces_le D L 0 t T0). intros u v U UV VT P. destruct (qeqbP u v) as [->|NE]; [qlra|]. destruct (K u v U ltac:(qlra) VT P) as (k & E & K1 & _). assert (0 <= k * (v - u)) by (apply qmul_nn; qlra). qlra. }
  assert (P2 : M * 0 - D 0 <= M * t - D t).
  { apply (pieces_le (fun s => M * s - D s) L 0 t T0). intros u v U UV VT P. destruct (qeqbP u v) as [->|NE]; [qlra|]. destruct (K u v U ltac:(qlra) VT P) as (k & E & _ & K2 & _).
    assert (0 <= (M - k) * (v - u)) by (apply qmul_nn; qlra). replace ((M - k) * (v - u)) with (M * v - M * u - k * (v - u)) in H0 by ring. qlra. }
  rewrite D0 in P1, P2. replace (M * 0) with 0 in P2 by ring. unfold D in P1, P2. split; [qlra|]. split; [fold M; generalize dependent (M * t); intros; qlra|]. intro ND.
  assert (P3 : D t = D 0).
  { apply (pieces_eq D L 0 t T0). intros u v U UV VT P. destruct (qeqbP u v) as [->|NE]; [reflexivity|]. destruct (K u v U ltac:(qlra) VT P) as (k & E & _ & _ & K3).
    rewrite K3 in E by (apply ND; qlra). replace (0 * (v - u)) with 0 in E by ring. qlra. }
  rewrite D0 in P3. unfold D in P3. qlra.
Qed.
Print Assumptions C105_balance.
(** The amounts exist, never decrease the flow on the edges below 0, and never
    more arrives than was released. *)
Theorem C105_exists : forall S r n b i c,
  setup_ok S r -> BuilderFlow.sources_ok S -> clean_build S n -> fb_run false S n = Ok b -> nth_error (s_coms S) i = Some c ->
  exists released arrived entered left,
    accumulates (released_fns c) released /\ accumulates (edge_rates (f_out (b_flow b)) i (sink_ids S c)) arrived /\
    accumulates (edge_rates (f_in (b_flow b)) i (edge_ids S)) entered /\ accumulates (edge_rates (f_out (b_flow b)) i (edge_ids S)) left.
Proof.
  intros S r n b i c OK SR CL H IC. destruct (released_exist S r i OK SR c IC (filter (fun p => negb (Nat.eqb (fst p) (k_sink c))) (k_sources c))) as [rel A]; [intros p I; apply filter_In in I; apply I|].
  assert (L1 : forall k, In k (edge_ids S) -> (k < length (n_cap (s_nw S)))%nat) by (intros k I; apply in_seq in I; rewrite (so_caps S r OK); lia).
  assert (L2 : forall k, In k (sink_ids S c) -> (k < length (n_cap (s_nw S)))%nat).
  { intros k I. apply in_map_iff in I. destruct I as [e [<- I]]. apply (edge_lt S r OK). apply (in_iff _ (so_graph S r OK)) in I. apply I. }
  destruct (edge_amounts S r n b i OK SR CL H _ L1) as (ci & co & A1 & A2 & _). destruct (edge_amounts S r n b i OK SR CL H _ L2) as (cx & ca & _ & A3 & _).
  exists rel, ca, ci, co. auto.
Qed.
Print Assumptions C105_exists.
Theorem C105_arrived : forall S r n b i c t released arrived entered left,
  setup_ok S r -> BuilderFlow.sources_ok S -> clean_build S n -> fb_run false S n = Ok b ->
  nth_error (s_coms S) i = Some c ->
  accumulates (released_fns c) released ->
  accumulates (edge_rates (f_out (b_flow b)) i (sink_ids S c)) arrived ->
  accumulates (edge_rates (f_in (b_flow b)) i (edge_ids S)) entered ->
  accumulates (edge_rates (f_out (b_flow b)) i (edge_ids S)) left ->
  0 <= t -> t <= f_phi (b_flow b) -> 0 <= arrived t /\ arrived t <= released t /\ 0 <= entered t - left t /\ entered t - left t <= released t.
Proof.
  intros S r n b i c t rel arr ent lef OK SR CL H IC AR AA AE AL T0 TP.
  destruct (C105_balance S r n b i c t rel arr ent lef OK SR CL H IC AR AA AE AL T0 TP) as [B1 _].
  assert (L1 : forall k, In k (edge_ids S) -> (k < length (n_cap (s_nw S)))%nat) by (intros k I; apply in_seq in I; rewrite (so_caps S r OK); lia).
  assert (L2 : forall k, In k (sink_ids S c) -> (k < length (n_cap (s_nw S)))%nat).
  { intros k I. apply in_map_iff in I. destruct I as [e [<- I]]. apply (edge_lt S r OK). apply (in_iff _ (so_graph S r OK)) in I. apply I. }
  destruct (edge_amounts S r n b i OK SR CL H _ L1) as (ci & co & A1 & A2 & Q1). destruct (edge_amounts S r n b i OK SR CL H _ L2) as (cx & ca & _ & A3 & Q2).
  rewrite (accumulates_unique _ _ _ AE A1 t T0), (accumulates_unique _ _ _ AL A2 t T0), (accumulates_unique _ _ _ AA A3 t T0) in *.
  destruct (Q1 t T0 TP), (Q2 t T0 TP). split; [assumption|]. split; [qlra|]. split; qlra.
Qed.
Print Assumptions C105_arrived.

(** ** C60: the average travel time of a computed flow is not negative *)
(** As called by the evaluation (Eval2.v): all sources, the edges entering the
    sink, up to the end of the computed flow. *)
Theorem C60_nonneg : forall S r n b i c y,
  setup_ok S r -> BuilderFlow.sources_ok S -> clean_build S n -> fb_run false S n = Ok b ->
  nth_error (s_coms S) i = Some c -> 0 < f_phi (b_flow b) ->
  rates_ok (map snd (k_sources c)) -> rates_ok (edge_rates (f_out (b_flow b)) i (sink_ids S c)) ->
  avg_travel_time (f_out (b_flow b)) i (sink_ids S c) (map snd (k_sources c)) (f_phi (b_flow b)) = Ok y -> 0 <= y.
Proof.
  intros S r n b i c y OK SR CL H IC PH R1 R2 E.
  destruct (C60_spec_exists _ R1) as (cin & ain & A1 & A2). destruct (C60_spec_exists _ R2) as (cout & aout & B1 & B2).
  assert (LT : forall k, In k (sink_ids S c) -> (k < length (f_out (b_flow b)))%nat).
  { destruct (build_full S r n b OK SR CL H) as [cs [_ G]]. destruct (gi_len _ _ _ G) as [_ [LO _]]. rewrite LO. intros k I. apply in_map_iff in I. destruct I as [e [<- I]]. apply (edge_lt S r OK). apply (in_iff _ (so_graph S r OK)) in I. apply I. }
  destruct (C60_avg_travel_time (f_out (b_flow b)) i (sink_ids S c) (map snd (k_sources c)) (f_phi (b_flow b)) cin cout ain aout LT R1 R2 PH A1 B1 A2 B2) as (Q1 & Q2 & Q3).
  destruct (C105_exists S r n b i c OK SR CL H IC) as (rel & arr & ent & lef & AR & AA & AE & AL).
  assert (SUB : forall t, 0 <= t -> rel t <= cin t).
  { intros t T. assert (K : cin 0 - rel 0 <= cin t - rel t); [|rewrite (proj1 A1), (proj1 AR) in K; qlra].
    apply (pieces_le (fun s => cin s - rel s) (concat (map rc_times (map snd (k_sources c))) ++ concat (map rc_times (released_fns c))) 0 t T). intros u v U UV VT P.
    pose proof (proj2 A1 u v U UV (proj2 (piece_of _ _ _) (fun x I => P x (in_or_app _ _ _ (or_introl I))))) as K1.
    pose proof (proj2 AR u v U UV (proj2 (piece_of _ _ _) (fun x I => P x (in_or_app _ _ _ (or_intror I))))) as K2.
    unfold released_fns in K2. rewrite map_map in K1, K2.
    fold (sumq (fun p : nat * RC => value (snd p) u) (k_sources c)) in K1. fold (sumq (fun p : nat * RC => value (snd p) u) (filter (fun p => negb (Nat.eqb (fst p) (k_sink c))) (k_sources c))) in K2.
    rewrite (sumq_split _ (fun p => Nat.eqb (fst p) (k_sink c))) in K1.
    set (x := sumq (fun p : nat * RC => value (snd p) u) (filter (fun p => Nat.eqb (fst p) (k_sink c)) (k_sources c))) in *.
    assert (X0 : 0 <= x).
    { unfold x. rewrite <- (sumq_zero (filter (fun p => Nat.eqb (fst p) (k_sink c)) (k_sources c))). apply sumq_mono. intros [w f] I. apply filter_In in I. destruct I as [I _].
      destruct (sr_fn S SR c w f (nth_error_In _ _ IC) I) as [V [Lo [Hi [_ N]]]]. unfold value. cbn [snd]. rewrite (reval_at f V) by (split; rewrite ?Lo, ?Hi; [exact U|exact Logic.I]). apply N, rc_at_in, V. }
    set (z := sumq (fun p : nat * RC => value (snd p) u) (filter (fun p => negb (Nat.eqb (fst p) (k_sink c))) (k_sources c))) in *.
    assert (0 <= x * (v - u)) by (apply qmul_nn; qlra). replace ((x + z) * (v - u)) with (x * (v - u) + z * (v - u)) in K1 by ring. qlra. }
  assert (NN : 0 <= (ain (f_phi (b_flow b)) - aout (f_phi (b_flow b))) / cin (f_phi (b_flow b))).
  { apply Q3. intros t T TP. rewrite (accumulates_unique _ _ _ B1 AA t T). pose proof (SUB t T).
    destruct (C105_arrived S r n b i c t rel arr ent lef OK SR CL H IC AR AA AE AL T TP) as [_ [K _]]. qlra. }
  destruct (qeqbP (cin (f_phi (b_flow b))) 0) as [Z|NZ]; [rewrite (Q2 Z) in E; discriminate|]. rewrite (Q1 NZ) in E. apply ok_inj in E. rewrite <- E. exact NN.
Qed.
Print Assumptions C60_nonneg.

(** ** Example: [bx] of PropBuilder.v after 7 rounds (computed up to time 6).
    At time 4 commodity 0 has released 8, of which 3 have arrived; 11 have
    entered edges and 6 have left them. *)
Definition amount_of (fs : list RC) (t : Qc) : res Qc := p <- rc_sum_from_zero fs ;; F <- rc_integral p ;; pl_eval F t.
Definition show_balance (i : nat) (t : Qc) : list (option Q) :=
  match fb_run false bx 7, nth_error (s_coms bx) i with
  | Ok b, Some c => map showq [Ok (f_phi (b_flow b)); amount_of (released_fns c) t; amount_of (edge_rates (f_out (b_flow b)) i (sink_ids bx c)) t;
       amount_of (edge_rates (f_in (b_flow b)) i (edge_ids bx)) t; amount_of (edge_rates (f_out (b_flow b)) i (edge_ids bx)) t]
  | _, _ => []
  end.
Example C105_example : show_balance 0 (qz 4) = [Some (6#1); Some (8#1); Some (3#1); Some (11#1); Some (6#1)]%Q /\
  show_balance 1 (qz 3) = [Some (6#1); Some (2#1); Some (1#2); Some (2#1); Some (1#2)]%Q.
Proof. split; vm_compute; reflexivity. Qed.
Example C105_example_hyps : setup_ok bx (Q2Qc (3 # 2)) /\ BuilderFlow.sources_ok bx /\ clean_build bx 7.
Proof. split; [exact bx_ok|]. split; [exact bx_sources|exact bx_clean]. Qed.
