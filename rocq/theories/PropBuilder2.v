(** * FlowBuilder property C38: flow conservation at the nodes *)
From Coq Require Import Permutation.
From Verif Require Import Base Spec Arrays PL RC RCProofs FRC FRCProofs PQ PQProofs PQSpec DynFlow DQProofs DynRun DynEvents DynEdge DynFlowProofs PropFlow PropFlow2
  Graph GraphSpec GraphProofs Dijkstra DijkstraSpec DijkstraProofs DijkstraProofs2 FlowBuilder FlowBuilderProofs BuilderRun BuilderFlow PropBuilder.

(** ** Vocabulary
    [setup_ok] is in BuilderRun.v; [sinks_at] in FlowBuilderProofs.v;
    [sources_ok], [net_rate], [clean_build] and [qsum] in BuilderFlow.v;
    [rate_of] in DynRun.v: the value at [t] of the function of commodity [i] in
    the collection, 0 if there is none. *)
(** the recorded inflow rates of commodity [i] at time [t] into the edges leaving [v] *)
Definition sent_rates (S : setup) (b : builder) (v i : nat) (t : Qc) : res (list Qc) :=
  mapM (fun e => rate_of (inflow_of (b_flow b) (e_id (s_graph S) e)) i t) (outgoing (s_graph S) v).
(** the recorded outflow rates of commodity [i] at time [t] out of the edges entering [v] *)
Definition arriving_rates (S : setup) (b : builder) (v i : nat) (t : Qc) : res (list Qc) :=
  mapM (fun e => rate_of (outflow_of (b_flow b) (e_id (s_graph S) e)) i t) (incoming (s_graph S) v).

Lemma mapM_val {A} (f : A -> res Qc) l : (forall x, In x l -> exists y, f x = Ok y) -> mapM f l = Ok (map (fun x => val (f x)) l).
Proof.
  induction l as [|a l IH]; intro H; [reflexivity|]. cbn [mapM map]. destruct (H a (or_introl eq_refl)) as [y ->]. cbn [bind val].
  rewrite IH by (intros; apply H; right; assumption). reflexivity.
Qed.

(** ** C38 *)
(** At every node [v], for every commodity [i] and at every time [t] the
    computed flow has passed: nothing is sent on from the commodity's sink; at
    any other node what is sent on is what arrives plus the network inflow,
    unless that is less than eps (then nothing is sent on). *)
Theorem C38_conservation : forall S r n b v i t,
  setup_ok S r -> sources_ok S -> clean_build S n -> fb_run false S n = Ok b ->
  In v (node_ids (s_graph S)) -> 0 <= t -> t < f_phi (b_flow b) ->
  exists outs ins net,
    sent_rates S b v i t = Ok outs /\ arriving_rates S b v i t = Ok ins /\ net_rate S v i t = Ok net /\
    (sinks_at S v i -> qsum outs = 0) /\
    (~ sinks_at S v i -> eps <= qsum ins + net -> qsum outs = qsum ins + net) /\
    (~ sinks_at S v i -> qsum ins + net < eps -> qsum outs = 0).
Proof.
  intros S r n b v i t OK SR CL H Iv T0 T1. pose proof (clean_same S r OK SR n b CL H) as HT. pose proof (run_cons S r OK SR n b HT) as CO.
  destruct (co_full _ _ _ CO) as [cs F]. pose proof (so_graph S r OK) as C.
  assert (EI : forall e, In e (outgoing (s_graph S) v) -> exists x, rate_of (inflow_of (b_flow b) (e_id (s_graph S) e)) i t = Ok x).
  { intros e I. apply (out_iff _ C) in I. apply (rate_total (s_nw S) cs (b_flow b) (e_id (s_graph S) e) i t F); [apply (edge_lt S r OK); apply I|exact T0]. }
  assert (EO : forall e, In e (incoming (s_graph S) v) -> exists x, rate_of (outflow_of (b_flow b) (e_id (s_graph S) e)) i t = Ok x).
  { intros e I. apply (in_iff _ C) in I. apply (rate_total (s_nw S) cs (b_flow b) (e_id (s_graph S) e) i t F); [apply (edge_lt S r OK); apply I|exact T0]. }
  do 3 eexists. split; [apply mapM_val, EI|]. split; [apply mapM_val, EO|]. split; [apply (net_rate_ok S SR v i t T0)|].
  destruct (co_past _ _ _ CO v i t Iv T0 T1) as [B1 B2]. unfold sent_to, rin, into, rout, sent_of in B1, B2. split; [exact B1|].
  split; intros NS L; specialize (B2 NS); match type of B2 with context [qltb ?a eps] => destruct (qltbP a eps) as [Q|Q] end; try exact B2; exfalso; qlra.
Qed.
Print Assumptions C38_conservation.

(** ** Non-vacuity: the example [bx] of PropBuilder.v *)
Lemma two_rc_ok b c d : 0 < b -> 0 <= c -> 0 <= d ->
  let f := mkRC [0; b] [c; d] (Fin 0) PInf in rvalid f /\ rc_lo f = Fin 0 /\ rc_hi f = PInf /\ In 0 (rc_times f) /\ forall x, In x (rc_values f) -> 0 <= x.
Proof.
  intros L C D f. split; [|split; [reflexivity|split; [reflexivity|split; [left; reflexivity|]]]].
  - constructor; [reflexivity|discriminate| |].
    + cbn [f rc_times]. repeat constructor. exact L.
    + intros t [<-|[<-|[]]]; split; cbn [f rc_lo rc_hi rin_dom ext_le]; try exact Logic.I; qlra.
  - intros x [<-|[<-|[]]]; assumption.
Qed.
Ltac qdec := solve [apply qltb_true; vm_compute; reflexivity | apply qleb_true; vm_compute; reflexivity].
Example bx_sources : sources_ok bx.
Proof.
  assert (TM : forall i v t, change_at bx i v t -> t = 0 \/ (v = 1%nat /\ t = qz 2) \/ (v = 2%nat /\ t = 1)).
  { intros i v t [c [f [I [D T]]]]. destruct i as [|[|i]]; cbn in I; [| |destruct i; discriminate]; injection I as <-; cbn [k_sources dget fst snd] in D.
    - destruct (Nat.eqb_spec 1 v) as [<-|N]; [|discriminate]. injection D as <-. cbn [rc_times] in T. destruct T as [<-|[<-|[]]]; auto.
    - destruct (Nat.eqb_spec 2 v) as [<-|N]; [|discriminate]. injection D as <-. cbn [rc_times] in T. destruct T as [<-|[<-|[]]]; auto. }
  constructor.
  - intros c v f I J. cbn in I. destruct I as [<-|[<-|[]]]; cbn [k_sources In] in J; destruct J as [E|[]]; injection E as <- <-; apply two_rc_ok; qdec.
  - intros i j v t u A B L. assert (G1 : gap 0 (qz 2)) by (unfold gap; qdec). assert (G2 : gap 0 1) by (unfold gap; qdec).
    destruct (TM _ _ _ A) as [->|[[-> ->]|[-> ->]]], (TM _ _ _ B) as [->|[[E ->]|[E ->]]]; try assumption; try discriminate; exfalso; revert L; apply Qcle_not_lt; qdec.
Qed.
Example bx_clean : clean_build bx 7.
Proof. unfold clean_build. intro H. assert (Q : match fb_run true bx 7 with Err Unclean => false | _ => true end = true) by (vm_compute; reflexivity). rewrite H in Q. discriminate. Qed.
(** At time 3/2 (two rounds were computed up to 2): node 1 sends the network
    inflow 4 of commodity 0 in equal parts; node 2 sends on rate 1 of commodity
    0, which arrives through edge 0, and the network inflow 1 of commodity 1. *)
Definition show_node (n v i : nat) (t : Qc) : option (list Q * list Q * Q) :=
  match (b <- fb_run false bx n ;; o <- sent_rates bx b v i t ;; a <- arriving_rates bx b v i t ;; x <- net_rate bx v i t ;; Ok (map this o, map this a, this x)) with
  | Ok y => Some y | Err _ => None end.
Example bx_balance : map (fun q => show_node 7 (fst q) (snd q) (Q2Qc (3 # 2))) [(1, 0); (2, 0); (2, 1); (3, 0)]%nat =
  [Some ([2; 2], [], 4); Some ([1], [1], 0); Some ([1], [0], 1); Some ([], [0; 0], 0)]%Q.
Proof. vm_compute. reflexivity. Qed.

(** ** The threshold *)
(** Without the threshold the claim is false: a source of rate eps/2 is never
    served; no flow of it ever enters the network. *)
Definition bt : setup := mkSetup (mkNw (grun [GAdd 1 2]%nat) [1] [1] [mkCom [(1%nat, mkRC [0; 1] [eps / qz 2; eps / qz 2] (Fin 0) PInf)] 2 0])
  [(0%nat, mkPred (fun t _ => Ok [mkPL [t] [0] 0 0 (Fin t) PInf]) true)] (Some 1) (fun l => l).
Theorem C38_threshold_needed : exists S r b, setup_ok S r /\ sources_ok S /\ clean_build S 3 /\ fb_run false S 3 = Ok b /\ qz 2 <= f_phi (b_flow b) /\
  In 1%nat (node_ids (s_graph S)) /\ ~ sinks_at S 1 0 /\
  sent_rates S b 1 0 1 = Ok [0] /\ arriving_rates S b 1 0 1 = Ok [] /\ exists x, net_rate S 1 0 1 = Ok x /\ 0 < x.
Proof.
  assert (OK : setup_ok bt 1).
  { constructor.
    - apply (grun_spec [GAdd 1 2]%nat g_empty (empty_consistent _ _)). cbn. auto.
    - split; [reflexivity|]. split; intros x H; cbn in H; repeat (destruct H as [<-|H]; [qdec|]); destruct H.
    - reflexivity.
    - intro l. apply Permutation_refl.
    - reflexivity.
    - qdec.
    - intros c H. cbn [bt s_coms s_nw su_net w_com In] in H. destruct H as [<-|[]]; cbn [k_sources map fst]; repeat constructor; intros [].
    - intros c v f H I. cbn [bt s_coms s_nw su_net w_com In] in H. destruct H as [<-|[]]. cbn [k_sources In] in I. destruct I as [E|[]]; injection E as <- <-; cbn [rc_times].
      constructor; [intros [Q|[]]; qlra|constructor; [intros []|constructor]].
    - intros c v f H I. cbn [bt s_coms s_nw su_net w_com In] in H. destruct H as [<-|[]]. cbn [k_sources In] in I. destruct I as [E|[]]; injection E as <- <-; cbn; auto. }
  assert (SR : sources_ok bt).
  { assert (TM : forall i v t, change_at bt i v t -> t = 0 \/ t = 1).
    { intros i v t [c [f [I [D T]]]]. destruct i as [|i]; cbn in I; [|destruct i; discriminate]. injection I as <-. cbn [k_sources dget fst snd] in D.
      destruct (Nat.eqb_spec 1 v) as [<-|N]; [|discriminate]. injection D as <-. cbn [rc_times] in T. destruct T as [<-|[<-|[]]]; auto. }
    constructor.
    - intros c v f I J. cbn [bt s_coms su_net w_com In] in I. destruct I as [<-|[]]; cbn [k_sources In] in J; destruct J as [E|[]]; injection E as <- <-; apply two_rc_ok; qdec.
    - intros i j v t u A B L. assert (G2 : gap 0 1) by (unfold gap; qdec).
      destruct (TM _ _ _ A) as [->| ->], (TM _ _ _ B) as [->| ->]; try assumption; exfalso; revert L; apply Qcle_not_lt; qdec. }
  assert (CL : clean_build bt 3).
  { unfold clean_build. intro H. assert (Q : match fb_run true bt 3 with Err Unclean => false | _ => true end = true) by (vm_compute; reflexivity). rewrite H in Q. discriminate. }
  assert (Q : match fb_run false bt 3 with
    | Ok b => qleb (qz 2) (f_phi (b_flow b)) && match sent_rates bt b 1 0 1 with Ok [x] => qeqb x 0 | _ => false end && match arriving_rates bt b 1 0 1 with Ok [] => true | _ => false end
    | Err _ => false end = true) by (vm_compute; reflexivity).
  destruct (fb_run false bt 3) as [b|] eqn:R; [|discriminate Q]. exists bt, 1, b. apply andb_prop in Q. destruct Q as [Q Q3]. apply andb_prop in Q. destruct Q as [Q1 Q2].
  split; [exact OK|]. split; [exact SR|]. split; [exact CL|]. split; [exact R|]. split; [apply qleb_true, Q1|]. split; [left; reflexivity|]. split; [|split; [|split]].
  - intros [c [E K]]. cbn [bt s_coms su_net w_com nth_error] in E. injection E as <-. discriminate K.
  - destruct (sent_rates bt b 1 0 1) as [[|x [|]]|]; try discriminate Q2. destruct (qeqbP x 0) as [EX|]; [rewrite EX; reflexivity|discriminate Q2].
  - destruct (arriving_rates bt b 1 0 1) as [[|]|]; try discriminate Q3. reflexivity.
  - exists (val (net_rate bt 1 0 1)). split; [|qdec]. assert (K : match net_rate bt 1 0 1 with Ok _ => true | _ => false end = true) by (vm_compute; reflexivity).
    destruct (net_rate bt 1 0 1); [reflexivity|discriminate K].
Qed.
Print Assumptions C38_threshold_needed.
