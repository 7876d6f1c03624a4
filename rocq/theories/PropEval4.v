(** * C60: the average travel time (src/core/dynamic_flow.py:219-241) *)
From Verif Require Import Base Spec Arrays ArraysProofs PL PLProofs PLEval PLInt RC RCProofs RCOps FRC FRCProofs FRCExact PQ PQSpec DynFlow DynRun Graph GraphSpec GraphProofs Dijkstra DijkstraProofs FlowBuilder FlowBuilderProofs Predictors Eval PropEval2 PropEval3.

(** ** Vocabulary *)
(** No breakpoint of [fs] lies strictly between [a] and [b]. *)
Definition piece (fs : list RC) (a b : Qc) : Prop := forall f x, In f fs -> In x (rc_times f) -> x <= a \/ b <= x.
Definition value (f : RC) (t : Qc) : Qc := match rc_eval f t with Ok y => y | Err _ => 0 end.
(** [C t] is the amount that has passed up to time [t] at the rates [fs]. *)
Definition accumulates (fs : list RC) (C : Qc -> Qc) : Prop :=
  C 0 = 0 /\ forall a b, 0 <= a -> a <= b -> piece fs a b -> C b - C a = fold_right Qcplus 0 (map (fun f => value f a) fs) * (b - a).
(** [A] is the integral of [C], which is linear on the pieces of [fs]. *)
Definition integrates (fs : list RC) (C A : Qc -> Qc) : Prop :=
  A 0 = 0 /\ forall a b, 0 <= a -> a <= b -> piece fs a b -> A b - A a = (C a + C b) / Q2Qc (2 # 1) * (b - a).
(** Non-negative rate functions on [0, inf), breakpoints more than eps apart. *)
Definition rates_ok (fs : list RC) : Prop :=
  (forall f, In f fs -> rvalid f /\ rc_lo f = Fin 0 /\ rc_hi f = PInf /\ forall v, In v (rc_values f) -> 0 <= v) /\
  separated (0 :: concat (map rc_times fs)).
(** The rate functions of commodity [i] on the given edges. *)
Definition edge_rates (outflow : list FRC) (i : nat) (edges : list nat) : list RC :=
  flat_map (fun e => match nth_error outflow e with Some c => match dget (c_fns c) i with Some f => [f] | None => [] end | None => [] end) edges.

(** ** Pieces *)
Lemma pieces (R : Qc -> Qc -> Prop) : (forall a, R a a) -> (forall a b c, R a b -> R b c -> R a c) ->
  forall (L : list Qc) a b, a <= b -> (forall u v, a <= u -> u <= v -> v <= b -> (forall x, In x L -> x <= u \/ v <= x) -> R u v) -> R a b.
Proof.
  intros RR RT. induction L as [|x L IH]; intros a b H P; [apply P; [qlra|exact H|qlra|intros x []]|].
  destruct (qlebP x a) as [X|X]; [apply IH; [exact H|]; intros u v U1 U2 U3 K; apply P; [exact U1|exact U2|exact U3|]; intros y [<-|Y]; [left; qlra|apply K, Y]|].
  destruct (qlebP b x) as [Y|Y]; [apply IH; [exact H|]; intros u v U1 U2 U3 K; apply P; [exact U1|exact U2|exact U3|]; intros y [<-|J]; [right; qlra|apply K, J]|].
  apply (RT a x b); apply IH; try qlra; intros u v U1 U2 U3 K; apply P; try qlra; intros y [<-|J]; try (apply K, J); [right; qlra|left; qlra].
Qed.
Lemma pieces_eq (D : Qc -> Qc) L a b : a <= b -> (forall u v, a <= u -> u <= v -> v <= b -> (forall x, In x L -> x <= u \/ v <= x) -> D v = D u) -> D b = D a.
Proof. intros H P. apply (pieces (fun u v => D v = D u)) with (L := L); [reflexivity|congruence|exact H|exact P]. Qed.
Lemma pieces_le (D : Qc -> Qc) L a b : a <= b -> (forall u v, a <= u -> u <= v -> v <= b -> (forall x, In x L -> x <= u \/ v <= x) -> D u <= D v) -> D a <= D b.
Proof. intros H P. apply (pieces (fun u v => D u <= D v)) with (L := L); [intro; apply Qcle_refl|intros ? ? ?; apply Qcle_trans|exact H|exact P]. Qed.
Lemma piece_of fs a b : piece fs a b <-> forall x, In x (concat (map rc_times fs)) -> x <= a \/ b <= x.
Proof.
  split.
  - intros P x I. apply in_concat in I. destruct I as [l [I J]]. apply in_map_iff in I. destruct I as [f [<- I]]. apply (P f); assumption.
  - intros P f x I J. apply P, in_concat. exists (rc_times f). split; [apply in_map, I|exact J].
Qed.

(** ** Sums and their integral *)
Definition vsum (fs : list RC) (t : Qc) : Qc := sumq (fun f => rc_at f t) fs.
Lemma sum_from_zero_ok A : separated A -> forall fs g, good A g -> (forall f, In f fs -> rvalid f /\ rc_lo f = Fin 0 /\ rc_hi f = PInf /\ (forall v, In v (rc_values f) -> 0 <= v) /\ forall x, In x (rc_times f) -> In x A) ->
  exists p, foldM rc_plus fs g = Ok p /\ good A p /\ (forall t, rc_at p t = rc_at g t + vsum fs t) /\
    (StronglySorted gap (rc_times g) -> StronglySorted gap (rc_times p)) /\
    (forall x, In x (rc_times p) <-> In x (rc_times g) \/ In x (concat (map rc_times fs))).
Proof.
  intros SEP. induction fs as [|f fs IH]; intros g G F; cbn [foldM].
  - exists g. split; [reflexivity|]. split; [exact G|]. split; [intro t; unfold vsum, sumq; cbn; ring|]. split; [auto|]. intro x. cbn. tauto.
  - destruct (F f ltac:(left; reflexivity)) as (V2 & L2 & H2 & N2 & T2). pose proof G as (V1 & L1 & H1 & Z1 & N1 & T1).
    destruct (rc_plus_ok g f V1 V2) as (p & E & VP & LP & HP & TP & SP & AP); [congruence|congruence| |].
    { intros x y X Y. apply in_app_or in X, Y. apply SEP; [destruct X; auto|destruct Y; auto]. }
    assert (GP : good A p).
    { split; [exact VP|]. split; [congruence|]. split; [congruence|]. split; [apply TP; left; exact Z1|]. split.
      - intros v I. destruct (vals_at p v VP I) as [t [_ <-]]. rewrite AP. pose proof (N1 _ (rc_at_in g t V1)). pose proof (N2 _ (rc_at_in f t V2)). qlra.
      - intros x X. apply TP in X. destruct X; auto. }
    destruct (IH p GP (fun h I => F h (or_intror I))) as (q & EQ & GQ & AQ & SQ & TQ). rewrite E. cbn [bind]. exists q. split; [exact EQ|]. split; [exact GQ|].
    split; [intro t; rewrite AQ, AP; unfold vsum; rewrite sumq_cons; ring|]. split; [auto|]. intro x. rewrite TQ, TP. cbn [map concat]. rewrite in_app_iff. tauto.
Qed.
Lemma zero_good A : In 0 A -> good A new_flow_fn.
Proof.
  intro I. split.
  - constructor; [reflexivity|discriminate|repeat constructor|]. intros t [<-|[]]. split; [vm_compute; discriminate|exact Logic.I].
  - split; [reflexivity|]. split; [reflexivity|]. split; [left; reflexivity|]. split; [intros v [<-|[]]; apply Qcle_refl|intros x [<-|[]]; exact I].
Qed.
Lemma accumulated fs : rates_ok fs -> exists p F, rc_sum_from_zero fs = Ok p /\ rc_integral p = Ok F /\ valid F /\ pl_lo F = Fin 0 /\ pl_hi F = PInf /\
  accumulates fs (pl_at F) /\ (forall t, 0 <= t -> 0 <= pl_at F t) /\ (forall x, In x (pl_times F) <-> x = 0 \/ In x (concat (map rc_times fs))).
Proof.
  intros [G S]. set (A := 0 :: concat (map rc_times fs)) in *.
  assert (FA : forall f, In f fs -> rvalid f /\ rc_lo f = Fin 0 /\ rc_hi f = PInf /\ (forall v, In v (rc_values f) -> 0 <= v) /\ forall x, In x (rc_times f) -> In x A).
  { intros f I. destruct (G f I) as (V & L & H & N). repeat (split; [assumption|]). intros x X. right. apply in_concat. exists (rc_times f). split; [apply in_map, I|exact X]. }
  destruct (sum_from_zero_ok A S fs new_flow_fn (zero_good A ltac:(left; reflexivity)) FA) as (p & E & GP & AP & SP & TP).
  pose proof GP as (VP & LP & HP & ZP & NP & _). pose proof (good_first A p GP) as F0. pose proof (rlen_pos p VP) as LEN.
  assert (E0 : pyget (rc_times p) 0 = Ok 0) by (rewrite (rget_t p) by lia; rewrite F0; reflexivity).
  destruct (rc_integral_ok p 0 (nthq (rc_times p) (rc_len p - 1)) VP) as (F & EI & VF & LF & HF & TF & A0 & _ & AF); [apply SP; repeat constructor|exact E0|apply (rlast_t p VP)|exact LP|rewrite HP; exact Logic.I|].
  exists p, F. split; [exact E|]. split; [exact EI|]. split; [exact VF|]. split; [congruence|]. split; [congruence|].
  assert (VS : forall t, 0 <= t -> rc_at p t = fold_right Qcplus 0 (map (fun f => value f t) fs)).
  { intros t T. rewrite AP. rewrite new_fn_at. unfold vsum. transitivity (sumq (fun f => value f t) fs); [|reflexivity]. rewrite (sumq_ext (fun f => rc_at f t) (fun f => value f t)); [ring|]. intros f I. unfold value. destruct (FA f I) as (V & L & H & _). rewrite (reval_at f V); [reflexivity|]. split; [rewrite L; exact T|rewrite H; exact Logic.I]. }
  assert (ACC : forall a b, 0 <= a -> a <= b -> piece fs a b -> pl_at F b - pl_at F a = rc_at p a * (b - a)).
  { intros a b H1 H2 P. apply AF; [split; [rewrite LP; exact H1|rewrite HP; exact Logic.I]|exact H2|]. intros x X. apply TP in X. destruct X as [[<-|[]]|X]; [left; exact H1|apply (proj1 (piece_of _ _ _) P), X]. }
  split; [split; [exact A0|intros a b H1 H2 P; rewrite <- VS by exact H1; apply ACC; assumption]|]. split.
  - intros t T. rewrite <- A0. apply (pieces_le (pl_at F) (concat (map rc_times fs))); [exact T|]. intros u v U1 U2 U3 P. apply (proj2 (piece_of _ _ _)) in P. pose proof (ACC u v U1 U2 P) as Q. pose proof (NP _ (rc_at_in p u VP)). set (r := rc_at p u) in *. qnra.
  - intro x. rewrite TF, TP. cbn [rc_times new_flow_fn In]. intuition congruence.
Qed.
Lemma accumulates_unique fs C D : accumulates fs C -> accumulates fs D -> forall t, 0 <= t -> C t = D t.
Proof.
  intros [C0 C1] [D0 D1] t T. assert (E : (fun x => C x - D x) t = (fun x => C x - D x) 0).
  { apply (pieces_eq (fun x => C x - D x) (concat (map rc_times fs))); [exact T|]. intros u v U1 U2 U3 P. apply (proj2 (piece_of _ _ _)) in P. pose proof (C1 u v U1 U2 P). pose proof (D1 u v U1 U2 P). qlra. }
  cbv beta in E. rewrite C0, D0 in E. qlra.
Qed.
Lemma accumulated_area fs F C A H : rates_ok fs -> valid F -> pl_lo F = Fin 0 -> pl_hi F = PInf -> accumulates fs (pl_at F) -> (forall t, 0 <= t -> 0 <= pl_at F t) ->
  (forall x, In x (pl_times F) <-> x = 0 \/ In x (concat (map rc_times fs))) -> accumulates fs C -> integrates fs C A -> 0 < H -> integrate F 0 H = Ok (A H).
Proof.
  intros RO V L Hi AC NN TF ACC [A0 AR] HP. destruct (integrate_full F 0 H V) as (y & E & U & _).
  - apply Forall_forall. intros v I. destruct (In_nth _ _ 0 I) as [k [Hk <-]]. rewrite (v_len F V) in Hk.
    pose proof (at_tm F (Z.of_nat k) V) as X. unfold tm, vl, nthq in X. rewrite !Nat2Z.id in X. rewrite <- X by (unfold pl_len, zlen; lia). apply NN.
    assert (I2 : In (nth k (pl_times F) 0) (pl_times F)) by (apply nth_In, Hk). destruct (v_dom F V _ I2) as [Q _]. rewrite L in Q. exact Q.
  - split; [rewrite L; apply Qcle_refl|rewrite Hi; exact Logic.I].
  - split; [rewrite L; cbn; qlra|rewrite Hi; exact Logic.I].
  - exact HP.
  - rewrite E. f_equal. rewrite (U A); [rewrite A0; ring|].
    intros a b ya yb Hab K Ea Eb. destruct (eval_inv F a ya V Ea) as [Da ->], (eval_inv F b yb V Eb) as [_ ->]. assert (Pa : 0 <= a) by (destruct Da as [Q _]; rewrite L in Q; exact Q).
    rewrite (accumulates_unique fs _ _ AC ACC a Pa), (accumulates_unique fs _ _ AC ACC b ltac:(qlra)).
    apply AR; [exact Pa|exact Hab|]. apply piece_of. intros x X. apply K, TF. right. exact X.
Qed.

(** ** C60 *)
Theorem C60_avg_travel_time : forall outflow i edges sources H cin cout ain aout,
  (forall e, In e edges -> (e < length outflow)%nat) -> rates_ok sources -> rates_ok (edge_rates outflow i edges) -> 0 < H ->
  accumulates sources cin -> accumulates (edge_rates outflow i edges) cout ->
  integrates sources cin ain -> integrates (edge_rates outflow i edges) cout aout ->
  (cin H <> 0 -> avg_travel_time outflow i edges sources H = Ok ((ain H - aout H) / cin H)) /\
  (cin H = 0 -> avg_travel_time outflow i edges sources H = Err ZeroDivisionError) /\
  ((forall t, 0 <= t -> t <= H -> cout t <= cin t) -> 0 <= (ain H - aout H) / cin H).
Proof.
  intros outflow i edges sources H cin cout ain aout IE RI RO HP CI CO AI AO.
  destruct (accumulated _ RI) as (p & F & E1 & E2 & V & L & Hi & AC & NN & TF).
  destruct (accumulated _ RO) as (p' & F' & E1' & E2' & V' & L' & Hi' & AC' & NN' & TF').
  assert (CH : pl_eval F H = Ok (cin H)). { rewrite (eval_at F H V) by (split; [rewrite L; cbn; qlra|rewrite Hi; exact Logic.I]). f_equal. apply (accumulates_unique sources); [exact AC|exact CI|qlra]. }
  assert (EM : exists cols, mapM (fetch outflow) edges = Ok cols /\ flat_map (fun c => match dget (c_fns c) i with Some f => [f] | None => [] end) cols = edge_rates outflow i edges).
  { clear -IE. unfold edge_rates. induction edges as [|e edges IH]; cbn [mapM flat_map]; [exists []; split; reflexivity|].
    destruct IH as (cols & E & Q); [intros x X; apply IE; right; exact X|]. specialize (IE e ltac:(left; reflexivity)). unfold fetch at 1. destruct (nth_error outflow e) as [c|] eqn:N; [|apply nth_error_None in N; lia].
    cbn [bind]. rewrite E. cbn [bind]. exists (c :: cols). split; [reflexivity|]. cbn [flat_map]. rewrite Q. reflexivity. }
  destruct EM as (cols & EC & EF).
  assert (EV : avg_travel_time outflow i edges sources H = pydiv (ain H - aout H) (cin H)).
  { unfold avg_travel_time. rewrite EC. cbn [bind]. rewrite EF, E1'. cbn [bind]. rewrite E2'. cbn [bind]. rewrite E1. cbn [bind]. rewrite E2. cbn [bind].
    rewrite (accumulated_area sources F cin ain H) by assumption. cbn [bind]. rewrite (accumulated_area (edge_rates outflow i edges) F' cout aout H) by assumption. cbn [bind]. rewrite CH. reflexivity. }
  assert (CP : 0 <= cin H). { pose proof (NN H ltac:(qlra)) as Q. rewrite (eval_at F H V) in CH by (split; [rewrite L; cbn; qlra|rewrite Hi; exact Logic.I]). apply ok_inj in CH. rewrite <- CH. exact Q. }
  rewrite EV. unfold pydiv. split; [|split].
  - intro N. destruct (qeqbP (cin H) 0) as [Q|_]; [congruence|reflexivity].
  - intros ->. reflexivity.
  - intro LE. assert (D : 0 <= ain H - aout H).
    { destruct AI as [A0 A1], AO as [B0 B1]. assert (Q : (fun t => ain t - aout t) 0 <= (fun t => ain t - aout t) H).
      { apply (pieces_le (fun t => ain t - aout t) (concat (map rc_times sources) ++ concat (map rc_times (edge_rates outflow i edges)))); [qlra|]. intros u v U1 U2 U3 P.
        assert (P1 : piece sources u v) by (apply piece_of; intros x X; apply P, in_or_app; left; exact X).
        assert (P2 : piece (edge_rates outflow i edges) u v) by (apply piece_of; intros x X; apply P, in_or_app; right; exact X).
        pose proof (A1 u v U1 U2 P1) as Q1. pose proof (B1 u v U1 U2 P2) as Q2. pose proof (LE u U1 ltac:(qlra)). pose proof (LE v ltac:(qlra) U3).
        assert (Q3 : (ain v - aout v) - (ain u - aout u) = ((cin u - cout u) + (cin v - cout v)) / Q2Qc (2#1) * (v - u)).
        { replace (ain v - aout v - (ain u - aout u)) with ((ain v - ain u) - (aout v - aout u)) by ring. rewrite Q1, Q2. field. exact two_ne. }
        set (q := ((cin u - cout u) + (cin v - cout v)) / Q2Qc (2#1)) in *. assert (0 <= q). { assert (q * Q2Qc (2#1) = (cin u - cout u) + (cin v - cout v)) by (unfold q; field; exact two_ne). assert (0 < Q2Qc (2#1)) by (vm_compute; reflexivity). qnra. }
        qnra. }
      cbv beta in Q. rewrite A0, B0 in Q. qlra. }
    destruct (Qc_eq_dec (cin H) 0) as [->|NZ]; [unfold Qcdiv; change (/ 0) with (Q2Qc 0); replace ((ain H - aout H) * 0) with 0 by ring; apply Qcle_refl|].
    set (d := (ain H - aout H) / cin H). assert (d * cin H = ain H - aout H) by (unfold d; field; exact NZ). assert (0 < cin H) by (destruct (Qcle_lt_or_eq _ _ CP); congruence). qnra.
Qed.
Print Assumptions C60_avg_travel_time.
(** The specification is met by some functions for all rates, so C60 is never vacuous. *)
Theorem C60_spec_exists : forall fs, rates_ok fs -> exists C A, accumulates fs C /\ integrates fs C A.
Proof.
  intros fs RO. destruct (accumulated _ RO) as (p & F & E1 & E2 & V & L & Hi & AC & NN & TF). pose proof (pl_area_anti F V) as AN.
  exists (pl_at F), (fun t => pl_area F t - pl_area F 0). split; [exact AC|]. split; [ring|]. intros a b Ha Hb P.
  assert (D : forall t, 0 <= t -> pl_eval F t = Ok (pl_at F t)). { intros t T. apply (eval_at F t V). split; [rewrite L; exact T|rewrite Hi; exact Logic.I]. }
  rewrite <- (AN a b _ _ Hb ltac:(intros x X; apply TF in X; destruct X as [->|X]; [left; exact Ha|apply (proj1 (piece_of _ _ _) P), X]) (D a Ha) (D b ltac:(qlra))). ring.
Qed.
Print Assumptions C60_spec_exists.

(** Rate 2 during [0, 2); half of it leaves after 3, half after 5 time units: 4 on average. *)
Definition at_fn (a b : Z) (v : Qc) : RC := mkRC [0; qz a; qz b] [0; v; 0] (Fin 0) PInf.
Definition at_in : list RC := [mkRC [0; qz 2] [qz 2; 0] (Fin 0) PInf].
Definition at_out : list FRC := [mkFRC [(0%nat, at_fn 3 5 1)] [] (c_acc frc_empty); mkFRC [(1%nat, at_fn 1 2 1)] [] (c_acc frc_empty); mkFRC [(0%nat, at_fn 5 7 1)] [] (c_acc frc_empty)].
Example C60_example : match avg_travel_time at_out 0 [0; 1; 2]%nat at_in (qz 10) with Ok y => qeqb y (qz 4) | Err _ => false end = true /\
  avg_travel_time at_out 0 [0; 1; 2]%nat [] (qz 10) = Err ZeroDivisionError.
Proof. split; vm_compute; reflexivity. Qed.
Lemma at_fn_ok a b v : (0 < a)%Z -> (a < b)%Z -> 0 <= v -> rvalid (at_fn a b v) /\ rc_lo (at_fn a b v) = Fin 0 /\ rc_hi (at_fn a b v) = PInf /\ forall w, In w (rc_values (at_fn a b v)) -> 0 <= w.
Proof.
  intros H1 H2 H3. assert (Q : forall x y, (x < y)%Z -> qz x < qz y) by (intros x y H; unfold Qclt, qz, Q2Qc; cbn [this]; rewrite !Qred_correct; unfold Qlt; cbn; lia).
  assert (P1 : 0 < qz a) by (apply (Q 0%Z); exact H1). pose proof (Q a b H2) as P2.
  split; [|split; [reflexivity|split; [reflexivity|intros w [<-|[<-|[<-|[]]]]; [apply Qcle_refl|exact H3|apply Qcle_refl]]]].
  constructor; [reflexivity|discriminate| |].
  - repeat constructor; qlra.
  - intros t [<-|[<-|[<-|[]]]]; (split; [cbn [rc_lo at_fn ext_le]; qlra|exact Logic.I]).
Qed.
Example C60_example_hyps : rates_ok at_in /\ rates_ok (edge_rates at_out 0 [0; 1; 2]%nat).
Proof.
  split; split.
  - intros f [<-|[]]. split; [|split; [reflexivity|split; [reflexivity|intros w [<-|[<-|[]]]; vm_compute; discriminate]]].
    constructor; [reflexivity|discriminate|repeat constructor|]. intros t [<-|[<-|[]]]; (split; [vm_compute; discriminate|exact Logic.I]).
  - cbn [map concat app rc_times at_in]. intros x y X Y.
    repeat (destruct X as [<-|X]; [repeat (destruct Y as [<-|Y]; [intro LT; first [vm_compute; reflexivity|exfalso; revert LT; vm_compute; discriminate]|]); destruct Y|]); destruct X.
  - cbn [edge_rates flat_map at_out nth_error dget c_fns Nat.eqb app]. intros f [<-|[<-|[]]]; (apply at_fn_ok; [lia|lia|vm_compute; discriminate]).
  - cbn [edge_rates flat_map at_out nth_error dget c_fns Nat.eqb app map concat rc_times at_fn]. intros x y X Y.
    repeat (destruct X as [<-|X]; [repeat (destruct Y as [<-|Y]; [intro LT; first [vm_compute; reflexivity|exfalso; revert LT; vm_compute; discriminate]|]); destruct Y|]); destruct X.
Qed.
