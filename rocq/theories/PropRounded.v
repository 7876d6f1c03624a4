(** * C117: routing with floating-point arithmetic.  Model: Rounded.v; vocabulary: RoundedSpec.v, DijkstraSpec.v, GraphSpec.v *)
From Verif Require Import Base Spec Arrays ArraysProofs PL RC FRC FRCProofs PQ PQSpec DynFlow DQProofs Graph GraphSpec GraphProofs Dijkstra DijkstraSpec DijkstraProofs DijkstraProofs2 FlowBuilder PLMono DynEdge PropDijkstra PropActive Rounded RoundedSpec RoundedProofs Rnd64.

(** The search with exact arithmetic is the instance without rounding. *)
Theorem C117_exact_instance :
  (forall g sink costs nodes, r_reverse_dijkstra (fun x => x) g sink costs nodes = reverse_dijkstra g sink costs nodes) /\
  (forall g costs dist v l, r_tight_edges (fun x => x) g costs dist v l = tight_edges g costs dist v l) /\
  (forall g phi source sink relevant costs, r_dynamic_dijkstra (fun x => x) g phi source sink relevant costs = dynamic_dijkstra g phi source sink relevant costs) /\
  (forall g r source sink, r_get_active_edges_from_dijkstra (fun x => x) g r source sink = get_active_edges_from_dijkstra g r source sink).
Proof. repeat split; intros; reflexivity. Qed.

(** binary64 (round to nearest even, 53 digits, gradual underflow) is such a
    rounding, and below [2^k] it errs by at most [2^(k-54)]. *)
Theorem C117_binary64 : rounding rnd64 /\ (forall k, (-1021 <= k)%Z -> accurate rnd64 (pow2 k) (pow2 (k - 54))) /\
  (forall m e, (-1074 <= e)%Z -> (Z.abs m <= 2 ^ 53)%Z -> float rnd64 (qz m * pow2 e)).
Proof. split; [apply rnd64_rounding|]. split; [apply rnd64_accurate|]. intros; apply rnd64_fits; auto. Qed.

Lemma walk_rwalk rnd g costs nodes sink v k c : walk_to g costs nodes sink v k c -> exists c', rwalk_to rnd g costs nodes sink v k c'.
Proof. induction 1 as [|e k c He Hn W (c' & IH)]; eexists; econstructor; eauto. Qed.

(** Constant costs: with any rounding and any non-negative costs the search
    and the choice of active edges terminate without exception for every node
    that has a walk to the sink; an edge is chosen, and the chosen edges are
    those leaving the node that pass the rounded comparison of labels. *)
Theorem C117_constant : forall rnd g costs nodes sink v k c, rounding rnd -> consistent g -> In sink (node_ids g) -> In sink nodes ->
  (forall e, In e (g_edges g) -> exists c, nth_error costs (e_id g e) = Some c /\ 0 <= c) ->
  walk_to g costs nodes sink v k c -> v <> sink ->
  exists dist dv l, r_reverse_dijkstra rnd g sink costs nodes = Ok dist /\ dget dist v = Some dv /\
    r_active_constant rnd g sink costs nodes v = Ok l /\ l <> [] /\
    forall e, In e l <-> In e (g_edges g) /\ e_from g e = v /\
      exists dw, dget dist (e_to g e) = Some dw /\ rnd (cost_of g costs e + dw) <= rnd (dv + rnd eps).
Proof.
  intros rnd g costs nodes sink v k c R CG S1 S2 CO W NS. apply (r_active_constant_spec rnd R g costs nodes sink CG S1 S2 CO v NS).
  destruct (walk_rwalk rnd _ _ _ _ _ _ _ W) as (c' & W'). eauto.
Qed.
(** Labels are nearly exact distances: if rounding errs by at most [delta]
    below [B], a label below [B] differs by at most [k * delta] from the exact cost of
    a walk with [k] edges, and no walk with [k] edges is cheaper than the label by more
    than [k * (eps + 2 delta)]. *)
Theorem C117_labels : forall rnd B delta g costs nodes sink dist, rounding rnd -> accurate rnd B delta -> float rnd B -> 0 <= delta ->
  consistent g -> In sink (node_ids g) -> In sink nodes ->
  (forall e, In e (g_edges g) -> exists c, nth_error costs (e_id g e) = Some c /\ 0 <= c) ->
  r_reverse_dijkstra rnd g sink costs nodes = Ok dist ->
  (forall v d, dget dist v = Some d -> d < B -> exists k c, walk_to g costs nodes sink v k c /\ c - qn k * delta <= d /\ d <= c + qn k * delta) /\
  (forall v k c, walk_to g costs nodes sink v k c -> c + qn k * (rnd eps + (delta + delta)) < B ->
     exists d, dget dist v = Some d /\ d <= c + qn k * (rnd eps + (delta + delta))).
Proof.
  intros rnd B delta g costs nodes sink dist R A F D CG S1 S2 CO E.
  destruct (r_reverse_dijkstra_spec rnd R g costs nodes sink CG S1 S2 CO) as (dist' & E' & _ & DS & H1 & _ & H3 & _).
  assert (dist' = dist) by congruence. subst dist'. split.
  - intros v d Dv L. destruct (H1 v d Dv) as (k & W). destruct (label_lower rnd R g costs nodes sink CO B delta A F D v k d W L) as (c & X). eauto.
  - intros v k c W L. apply (label_upper rnd R g costs nodes sink CO B delta A D dist v k c); auto.
    intros v0 d Dv. destruct (H1 v0 d Dv) as (k0 & W0). apply (rwalk_nn rnd R g costs nodes sink CO v0 k0 d W0).
Qed.

(** Time-dependent costs, FIFO or not: if the costs return and are
    non-negative from [phi] on and the sink can be reached, then the search and
    the choice of active edges terminate without exception, an edge is chosen,
    and the chosen edges are those that leave the source and start a path to
    the sink that is tight for the rounded comparison. *)
Theorem C117_dynamic : forall rnd g phi source sink relevant costs, rounding rnd -> float rnd phi -> consistent g ->
  In source (node_ids g) -> In sink (node_ids g) ->
  (forall e t, In e (g_edges g) -> phi <= t -> exists f c, nth_error costs (e_id g e) = Some f /\ f t = Ok c /\ 0 <= c) ->
  leads g relevant source sink -> source <> sink ->
  exists r l, r_dynamic_dijkstra rnd g phi source sink relevant costs = Ok r /\
    r_active_dynamic rnd g phi source sink relevant costs = Ok l /\ NoDup l /\ l <> [] /\
    (forall e, In e l <-> In e (g_edges g) /\ e_from g e = source /\ r_tight rnd g r e /\ r_tight_path rnd g r sink (e_to g e)) /\
    (forall e cc, dget (dd_cost r) e = Some cc -> exists t f, dget (dd_arrival r) (e_from g e) = Some t /\ nth_error costs (e_id g e) = Some f /\ f t = Ok cc) /\
    (forall v t, dget (dd_arrival r) v = Some t -> phi <= t /\ float rnd t).
Proof.
  intros rnd g phi source sink relevant costs R F CG S1 S2 TOT LD NS.
  destruct (r_dynamic_dijkstra_spec rnd R g phi source sink relevant costs CG S1 F TOT) as (r & E & G).
  destruct (active_edges_spec rnd R g phi source sink relevant costs CG r G (RoundedProofs.dg_sink _ _ _ _ _ _ _ _ G LD) S2 NS) as (l & EL & ND & NE & SP).
  exists r, l. split; auto. split; [unfold r_active_dynamic; rewrite E; auto|]. repeat split; auto; try (apply SP; auto).
  - intros e cc H. destruct (RoundedProofs.dg_R _ _ _ _ _ _ _ _ G e cc H) as (_ & _ & t & D & f & N & X). exists t, f. auto.
  - destruct (RoundedProofs.dg_lab _ _ _ _ _ _ _ _ G v t H); auto.
  - destruct (RoundedProofs.dg_lab _ _ _ _ _ _ _ _ G v t H); auto.
Qed.
(** With FIFO costs the labels are the earliest arrival times of the rounded
    network: no walk, timed with rounded additions, arrives earlier. *)
Theorem C117_earliest : forall rnd g phi source sink relevant costs c r, rounding rnd -> float rnd phi -> consistent g ->
  In source (node_ids g) -> fifo_costs g phi costs c ->
  r_dynamic_dijkstra rnd g phi source sink relevant costs = Ok r ->
  (forall v t, dget (dd_arrival r) v = Some t ->
     r_arrives rnd g phi source relevant c v t /\ forall s, r_arrives rnd g phi source relevant c v s -> t <= s) /\
  (forall v s, r_arrives rnd g phi source relevant c v s -> dget (dd_arrival r) v = None ->
     exists ts, dget (dd_arrival r) sink = Some ts /\ ts <= s).
Proof. intros rnd g phi source sink relevant costs c r R F CG S FF. apply r_earliest; auto. Qed.

(** The tolerance: two exact sums within [eps - 2 delta] pass the rounded test ... *)
Theorem C117_tolerance : forall rnd B delta a b, accurate rnd B delta -> 0 <= a -> 0 <= b -> a < B -> b + rnd eps < B -> 0 <= rnd eps ->
  a <= b + (rnd eps - (delta + delta)) -> rnd a <= rnd (b + rnd eps).
Proof.
  intros rnd B delta a b A A0 B0 AB BB E L. destruct (A a A0 AB) as [_ H1]. destruct (A (b + rnd eps)) as [H2 _]; [qlra|auto|]. qlra.
Qed.
(** ... sums further apart than [eps + 2 delta] do not ... *)
Theorem C117_tolerance_sharp : forall rnd B delta a b, accurate rnd B delta -> 0 <= a -> 0 <= b -> a < B -> b + rnd eps < B -> 0 <= rnd eps ->
  rnd a <= rnd (b + rnd eps) -> a <= b + (rnd eps + (delta + delta)).
Proof.
  intros rnd B delta a b A A0 B0 AB BB E L. destruct (A a A0 AB) as [H1 _]. destruct (A (b + rnd eps)) as [_ H2]; [qlra|auto|]. qlra.
Qed.
(** ... but for binary64 from [2^20] on the tolerance is gone: adding [eps] changes nothing. *)
Lemma qexp_unique x e : pow2 e <= x -> x < pow2 (e + 1) -> qexp x = e.
Proof.
  intros H1 H2. pose proof (pow2_pos e). assert (NX : x <> 0) by (intro X; rewrite X in H1; qlra).
  destruct (qexp_spec x NX) as [H3 H4]. assert (A : qabs x = x) by (qmm; qlra). rewrite A in *.
  assert (e <= qexp x)%Z by (destruct (Z.le_gt_cases e (qexp x)); auto; pose proof (pow2_mono (qexp x + 1) e ltac:(lia)); qlra).
  assert (qexp x <= e)%Z by (destruct (Z.le_gt_cases (qexp x) e); auto; pose proof (pow2_mono (e + 1) (qexp x) ltac:(lia)); qlra). lia.
Qed.
Theorem C117_tolerance_lost : forall x, float rnd64 x -> pow2 20 <= x -> rnd64 (x + rnd64 eps) = x.
Proof.
  intros x F L. pose proof (pow2_pos 20) as P20. assert (NX : x <> 0) by (intro X; rewrite X in L; qlra).
  assert (A : qabs x = x) by (qmm; qlra). destruct (qexp_spec x NX) as [Q1 Q2]. rewrite A in *.
  assert (QE : (20 <= qexp x)%Z) by (destruct (Z.le_gt_cases 20 (qexp x)); auto; pose proof (pow2_mono (qexp x + 1) 20 ltac:(lia)); qlra).
  set (e := ulp_exp x). assert (EE : e = (qexp x - 52)%Z) by (unfold e, ulp_exp; lia).
  set (m := nearest_even (x / pow2 e)). assert (XM : x = qz m * pow2 e) by (symmetry; exact F).
  assert (EP : 0 <= rnd64 eps /\ rnd64 eps < pow2 (-33)) by (split; [rewrite <- (rnd_0 _ rnd64_rounding); apply rnd64_mono; qlra|vm_compute; reflexivity]).
  destruct EP as [EP0 EP1]. pose proof (pow2_mono (-33) (e - 1) ltac:(lia)) as PE. pose proof (pow2_pos e) as PP.
  assert (PS : pow2 e = pow2 (e - 1) + pow2 (e - 1)) by (rewrite <- pow2_S; f_equal; lia).
  assert (UP : x + pow2 e <= pow2 (qexp x + 1)).
  { replace (qexp x + 1)%Z with (53 + e)%Z in * by lia. rewrite pow2_add, (pow2_nat 53) in * by lia.
    assert (M : (m < 2 ^ 53)%Z).
    { apply (proj2 (qz_lt _ _)). destruct (qltbP (qz m) (qz (2 ^ 53))) as [|GE]; auto. exfalso.
      assert (G : qz (2 ^ 53) <= qz m) by qlra. apply (mul_le e) in G. rewrite <- XM in G. qlra. }
    assert (M' : (m + 1 <= 2 ^ 53)%Z) by lia. apply qz_le in M'. apply (mul_le e) in M'. rewrite qz_add in M'. change (qz 1) with 1 in M'.
    assert ((qz m + 1) * pow2 e = qz m * pow2 e + pow2 e) by ring. rewrite <- XM in H. rewrite <- H. exact M'. }
  assert (QX : qexp (x + rnd64 eps) = qexp x) by (apply qexp_unique; qlra).
  assert (UX : ulp_exp (x + rnd64 eps) = e) by (unfold e, ulp_exp; rewrite QX; auto).
  rewrite rnd64_at, UX. unfold rnd_at. rewrite XM at 2. f_equal. f_equal.
  set (z := (x + rnd64 eps) / pow2 e). assert (ZE : z * pow2 e = x + rnd64 eps) by (apply qmul_div, pow2_ne).
  assert (Z1 : qz m <= z). { destruct (qlebP (qz m) z) as [|G]; auto. exfalso. assert (X : 0 < (qz m - z) * pow2 e) by (apply qmul_pos; qlra).
    assert ((qz m - z) * pow2 e = qz m * pow2 e - z * pow2 e) by ring. qlra. }
  assert (HP : half * pow2 e = pow2 (e - 1)). { change half with (pow2 (-1)). rewrite <- pow2_add. f_equal. lia. }
  assert (Z2 : z < qz m + half). { destruct (qltbP z (qz m + half)) as [|G]; auto. exfalso.
    assert (X : 0 <= (z - (qz m + half)) * pow2 e) by (apply qmul_nn; qlra).
    assert ((z - (qz m + half)) * pow2 e = z * pow2 e - qz m * pow2 e - half * pow2 e) by ring. qlra. }
  assert (FZ : Qround.Qfloor (this z) = m).
  { destruct (floor_spec z) as [F1 F2]. assert (half < 1) by reflexivity. rewrite qz_add in F2. change (qz 1) with 1 in F2.
    assert (G1 : qz (Qround.Qfloor (this z)) < qz (m + 1)) by (rewrite qz_add; change (qz 1) with 1; qlra).
    assert (G2 : qz m < qz (Qround.Qfloor (this z) + 1)) by (rewrite qz_add; change (qz 1) with 1; qlra).
    apply qz_lt in G1, G2. lia. }
  unfold nearest_even. rewrite FZ. fold half. destruct (qltbP (z - qz m) half); auto. qlra.
Qed.

(** Non-vacuity: the network of C40 with binary64 and costs that are not
    decimal fractions exactly: 0.1 + 0.2 along one route, 0.3 along the other;
    the sums differ as floats, both routes are active. *)
Definition f64 (n d : Z) : Qc := rnd64 (qz n / qz d).
Definition rcosts : list Qc := [f64 1 10; f64 2 10; f64 1 10; f64 2 10; f64 3 10; 1].
Definition rcostfns : list costfn := map (fun x => fun _ : Qc => Ok x) rcosts.
Example C117_example :
  qeqb (rnd64 (f64 1 10 + f64 2 10)) (f64 3 10) = false /\
  r_active_constant rnd64 dgraph 4 rcosts [1; 2; 3; 4]%nat 1 = Ok [0; 2; 4]%nat /\
  r_active_dynamic rnd64 dgraph 0 1 4 [1; 2; 3; 4]%nat rcostfns = Ok [4; 2; 0]%nat.
Proof. vm_compute. auto. Qed.
(** Routes of length 1/3 + 1/3 and 2/3: at time 0 all three are active; at time
    [2^20] the tolerance is lost and the direct edge is not. *)
Definition tcosts : list Qc := [f64 1 3; f64 1 3; f64 1 3; f64 1 3; f64 2 3; 1].
Definition tcostfns : list costfn := map (fun x => fun _ : Qc => Ok x) tcosts.
Example C117_example_late :
  r_active_dynamic rnd64 dgraph 0 1 4 [1; 2; 3; 4]%nat tcostfns = Ok [4; 2; 0]%nat /\
  r_active_dynamic rnd64 dgraph (f64 1048576 1) 1 4 [1; 2; 3; 4]%nat tcostfns = Ok [2; 0]%nat.
Proof. vm_compute. auto. Qed.

Example C117_example_hypotheses :
  rounding rnd64 /\ float rnd64 0 /\ consistent dgraph /\ In 1%nat (node_ids dgraph) /\ In 4%nat (node_ids dgraph) /\
  leads dgraph [1; 2; 3; 4]%nat 1 4 /\
  (exists k c, walk_to dgraph rcosts [1; 2; 3; 4]%nat 4 1 k c) /\
  (forall e, In e (g_edges dgraph) -> exists c, nth_error rcosts (e_id dgraph e) = Some c /\ 0 <= c) /\
  (forall e t, In e (g_edges dgraph) -> 0 <= t -> exists f c, nth_error rcostfns (e_id dgraph e) = Some f /\ f t = Ok c /\ 0 <= c).
Proof.
  assert (CO : forall e, In e (g_edges dgraph) -> exists c, nth_error rcosts (e_id dgraph e) = Some c /\ 0 <= c).
  { intros e H. assert (L : (e < 6)%nat) by (cbn in H; lia). exists (nth e rcosts 0).
    do 6 (destruct e as [|e]; [split; [reflexivity|apply (Qcle_alt _ _); vm_compute; discriminate]|]). lia. }
  split; [apply rnd64_rounding|]. split; [apply rnd64_0|]. split; [apply PropActive.grun_consistent; vm_compute; repeat split; auto|].
  split; [vm_compute; auto|]. split; [vm_compute; auto|]. split; [|split; [|split; auto]].
  - apply (leads_edge dgraph _ _ 4%nat); [|vm_compute; auto 10|vm_compute; auto 10]. apply leads_here.
  - eexists _, _. apply (walk_edge dgraph rcosts _ 4%nat 4%nat); [vm_compute; auto 10|vm_compute; auto 10|]. apply walk_end.
  - intros e t H _. destruct (CO e H) as (c & N & P). exists (fun _ => Ok c), c. split; auto. unfold rcostfns. rewrite nth_error_map, N. reflexivity.
Qed.

Print Assumptions C117_exact_instance.
Print Assumptions C117_binary64.
Print Assumptions C117_constant.
Print Assumptions C117_labels.
Print Assumptions C117_dynamic.
Print Assumptions C117_earliest.
Print Assumptions C117_tolerance.
Print Assumptions C117_tolerance_sharp.
Print Assumptions C117_tolerance_lost.
