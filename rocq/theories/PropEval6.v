(** * C86: the optimal average travel time (src/eval/evaluate.py:39-95) *)
From Verif Require Import Base Spec Arrays ArraysProofs PL PLProofs PLEval PLArith PLMono PLInt PL2 RC FRC PQ PQSpec DynFlow DynRun Graph GraphSpec Dijkstra BellmanFord BFSpec BFProofs PropBF GraphProofs FlowBuilder Predictors PredictorsProofs PredictorsProofs2 PropPredictors PropPredictors2 PropPredictors4 Eval Dataset Eval2.

(** ** Vocabulary *)
(** [h] is the last departure time in [0, until] that arrives by [horizon]. *)
Definition last_in_time (label : PL) (horizon until h : Qc) : Prop :=
  0 <= h /\ h <= until /\ (forall t, 0 <= t -> t <= h -> exists y, pl_eval label t = Ok y /\ y <= horizon) /\
  (forall t y, h < t -> t <= until -> pl_eval label t = Ok y -> horizon < y).
(** [integral]: of [min(label(t), horizon) - t] over [0, until], where departures
    that do not arrive by [horizon] count as travelling until then. *)
Definition travel_integral (label : PL) (horizon until x : Qc) : Prop :=
  exists h F, last_in_time label horizon until h /\ antiderivative label F /\
    x = (F h - F 0 - h * h / (1 + 1)) + (horizon * (until - h) - (until * until - h * h) / (1 + 1)).

Lemma two_eq : Q2Qc (2 # 1) = 1 + 1. Proof. apply Qc_is_canon. reflexivity. Qed.
Definition minus_id : PL := mkPL [0] [0] (- (1)) (- (1)) NInf PInf.
Lemma minus_id_valid : valid minus_id.
Proof. split; cbn; [reflexivity|discriminate|repeat constructor|]. intros t [<-|[]]. split; exact Logic.I. Qed.
Lemma minus_id_at t : pl_at minus_id t = - t.
Proof. unfold pl_at, minus_id, pts. cbn [pl_first pl_last pl_times pl_values combine interp]. destruct (qlebP t 0); ring. Qed.

(** For every label with values [label(t) >= t] on a domain starting at 0: if some
    positive departure time arrives by [horizon], the result is the average travel
    time of the departures in [0, min(horizon, inflow_horizon)], travel beyond the
    horizon cut off. *)
Theorem C86_average : forall l horizon inflow_horizon until, valid l -> mono l -> pl_lo l = Fin 0 -> plus_sep l minus_id ->
  (forall t y, pl_eval l t = Ok y -> t <= y) -> (exists t y, 0 < t /\ pl_eval l t = Ok y /\ y <= horizon) ->
  match inflow_horizon with Fin ih => 0 < ih /\ until = qmin horizon ih | PInf => until = horizon | NInf => False end ->
  exists v, integrate_opt horizon inflow_horizon l = Ok v /\ travel_integral l horizon until (v * until).
Proof.
  intros l H ih U V M LO SEP GE [t0 [y0 [T0 [Y0 YH]]]] UI.
  destruct (max_t_below_full l H V M (ex_intro _ t0 (ex_intro _ y0 (conj Y0 YH)))) as [m [EM IM]].
  destruct m as [|m|]; [destruct IM| |]; cbn [is_max_t_below] in IM.
  2:{ exfalso. destruct IM as [HI AL]. assert (D : in_dom l (qmax 0 H + 1)) by (split; [rewrite LO; cbn; qmm; qlra|rewrite HI; exact Logic.I]). pose proof (eval_at l _ V D) as E. pose proof (AL _ _ E). pose proof (GE _ _ E). qmm; qlra. }
  destruct IM as [[ym [YM YMH]] MX]. pose proof (MX t0 y0 Y0 YH) as TM. pose proof (GE _ _ YM) as MH. assert (MLE : m <= H) by qlra.
  pose proof (GE _ _ Y0) as TY. assert (HP : 0 < H) by qlra.
  assert (HI : forall t, 0 <= t -> t <= m -> in_dom l t). { intros t A B. destruct (eval_inv l m ym V YM) as [[_ Q] _]. split; [rewrite LO; exact A|]. eapply ext_le_trans; [|exact Q]. exact B. }
  assert (MONO : forall t, 0 <= t -> t <= m -> exists y, pl_eval l t = Ok y /\ y <= H).
  { intros t A B. exists (pl_at l t). split; [apply (eval_at l t V), HI; assumption|]. destruct (eval_inv l m ym V YM) as [_ E]. pose proof (at_mono l t m V M B). qlra. }
  destruct (plus_ok l minus_id V minus_id_valid) as [p [EP [VP [PLO [PHI [PD [PA PT]]]]]]].
  { rewrite LO. unfold minus_id. cbn [pl_lo pl_hi]. destruct (eval_inv l m ym V YM) as [[_ Q] _]. change (ext_max (Fin 0) NInf) with (Fin 0). unfold ext_min. destruct (ext_ltbP PInf (pl_hi l)) as [Z|_].
    - exfalso. destruct (pl_hi l); apply Z; exact Logic.I.
    - unfold ext_lt. destruct (pl_hi l) as [|hi|]; cbn [ext_le] in Q |- *; [destruct Q| |intros []]. intro Z. qlra. }
  { exact SEP. }
  assert (PV : forall t, in_dom p t -> pl_at p t = pl_at l t - t). { intros t D. rewrite (PA t D), minus_id_at. ring. }
  assert (PDL : forall t, in_dom p t <-> in_dom l t). { intro t. rewrite PD. split; [tauto|]. intro D. split; [exact D|]. split; exact Logic.I. }
  assert (NN : Forall (fun v => 0 <= v) (pl_values p)).
  { apply Forall_forall. intros v I. rewrite (values_map p VP) in I. apply in_map_iff in I. destruct I as [t [<- I]]. pose proof (v_dom p VP t I) as D. rewrite (PV t D). apply PDL in D. pose proof (GE t _ (eval_at l t V D)). qlra. }
  set (h := match ih with Fin i => qmin i m | _ => m end).
  assert (HU : 0 < h /\ h <= m /\ h <= U /\ 0 < U /\ (h < m -> h = U)).
  { unfold h. destruct ih as [|i|]; [destruct UI|destruct UI as [I0 ->]|subst U]; repeat split; intros; try (qmm; qlra); qlra. }
  destruct HU as (H1 & H2 & H3 & U0 & H4).
  destruct (integrate_full p 0 h VP NN) as [a [EA [AF _]]]; [apply PDL, HI; qlra|apply PDL, HI; qlra|exact H1|].
  set (F := fun t => pl_area p t + t * t / (1 + 1)). pose proof (pl_area_anti p VP) as AP.
  assert (AN : antiderivative l F).
  { intros x y yx yy XY BR EX EY. destruct (eval_inv l x yx V EX) as [DX ->]. destruct (eval_inv l y yy V EY) as [DY ->].
    assert (Q : pl_area p y - pl_area p x = (pl_at p x + pl_at p y) / Q2Qc (2 # 1) * (y - x)).
    { apply AP; [exact XY| |apply eval_at; [exact VP|apply PDL, DX]|apply eval_at; [exact VP|apply PDL, DY]]. intros z Z. destruct DX as [DX _]. destruct DY as [_ DY]. rewrite LO in DX. cbn in DX.
      destruct (PT z Z) as [I|[I|[I|I]]]; [apply BR, I| | |].
      - destruct I as [<-|[]]. left. exact DX.
      - rewrite PLO, LO in I. injection I as <-. left. exact DX.
      - right. rewrite PHI in I. change (pl_hi minus_id) with PInf in I. unfold ext_min in I. destruct (ext_ltb PInf (pl_hi l)); [discriminate I|]. rewrite I in DY. exact DY. }
    rewrite (PV x), (PV y) in Q by (apply PDL; assumption). rewrite two_eq in *. unfold F. replace (pl_area p y + y * y / (1 + 1) - (pl_area p x + x * x / (1 + 1))) with (pl_area p y - pl_area p x + (y * y - x * x) / (1 + 1)) by (field; discriminate).
    rewrite Q. field. discriminate. }
  specialize (AF _ AP).
  set (tot := if qltb h U then a + (H * (U - h) - (U * U - h * h) / (1 + 1)) else a).
  assert (UN : U <> 0) by (intro Z; rewrite Z in U0; discriminate U0).
  assert (EV : integrate_opt H ih l = Ok (tot / U)).
  { unfold integrate_opt. destruct M as [MV MS]. rewrite (proj2 (is_monotone_iff l) MV). cbn [assertb bind]. change (mkPL [0] [0] (- (1)) (- (1)) NInf PInf) with minus_id. rewrite EP. cbn [bind]. rewrite EM. cbn [bind]. rewrite two_eq.
    destruct ih as [|i|]; [destruct UI| |].
    - destruct UI as [I0 ->]. replace (ext_min (Fin i) (Fin m)) with (Fin h). { rewrite EA. cbn [bind]. rewrite pydiv_ok by exact UN. reflexivity. }
      unfold h, ext_min, qmin, ext_ltb, ext_leb. destruct (qltbP m i) as [C|C], (qlebP i m) as [C2|C2]; try reflexivity; exfalso; qlra.
    - subst U. unfold h in *. rewrite EA. cbn [bind]. rewrite pydiv_ok by exact UN. reflexivity. }
  exists (tot / U). split; [exact EV|]. replace (tot / U * U) with tot by (field; exact UN). exists h, F. split; [|split; [exact AN|]].
  - split; [qlra|]. split; [exact H3|]. split; [intros t A B; apply MONO; qlra|]. intros t y A B E. destruct (qlebP y H) as [C|C]; [|qlra]. exfalso. pose proof (MX t y E C). assert (h = U) by (apply H4; qlra). qlra.
  - unfold tot, F. rewrite AF. destruct (qltbP h U) as [C|C]; [field; discriminate|]. replace U with h by qlra. field. discriminate.
Qed.
Print Assumptions C86_average.

(** ** What is averaged *)
(** The cost function of an edge before it is simplified. *)
Lemma opt_cost_inv H q tau cap c : line q -> 0 < cap -> opt_cost H q tau cap = Ok c ->
  exists f, valid f /\ simplify f = Ok c /\ forall t, 0 <= t -> t <= H -> exists y, pl_eval q t = Ok y /\ pl_eval f t = Ok (tau + y / cap).
Proof.
  intros LQ CP E. assert (NZ : cap <> 0) by (intro Z; rewrite Z in CP; discriminate CP). unfold opt_cost in E.
  rewrite (mapM_map _ (fun v => tau + v / cap)) in E by (intros v _; rewrite pydiv_ok by exact NZ; reflexivity). cbn [bind] in E. rewrite !pydiv_ok in E by exact NZ. cbn [bind] in E.
  apply bind_ok in E. destruct E as [f [E1 E2]]. apply pl_init_inv in E1. destruct E1 as [EF V]. exists f. split; [exact V|]. split; [exact E2|]. intros t T0 TH.
  exists (pl_at q t). split; [apply line_eval, LQ|]. rewrite (eval_at f t V) by (rewrite EF; split; [exact T0|exact TH]). f_equal. rewrite EF. unfold pl_at, pts. cbn [pl_times pl_values pl_first pl_last]. rewrite combine_map_r. apply interp_affine; [exact NZ|].
  destruct LQ as [[V1 V2 _ _] _]. destruct (pl_times q); [contradiction V2; reflexivity|]. destruct (pl_values q); [discriminate V1|discriminate].
Qed.

Theorem C86_single_source : forall fuel flow nw ih H c, length (k_sources c) <> 1%nat -> optimal_avg_travel_time fuel flow nw ih H c = Err ValueError.
Proof. intros fuel flow nw ih H c L. unfold optimal_avg_travel_time. destruct (k_sources c) as [|[s f] [|]]; [reflexivity|cbn in L; congruence|reflexivity]. Qed.
Print Assumptions C86_single_source.

(** If the sink is within reach, the costs are good (C43) and the calls made by
    the search are clear (C43), the result is the average travel time of an
    earliest-arrival label: every label value is the arrival time of some walk in
    the graph with the travel times [tau + queue / cap] of the flow (up to
    [simplify], C09), and no walk that arrives by [horizon] is faster by more
    than the tolerance of the search. *)
Theorem C86_optimal_partial : forall fuel flow nw ih H until c source inflow v tr, consistent (w_graph nw) -> lines flow ->
  (forall e cap, nth_error (w_cap nw) e = Some cap -> 0 < cap) -> k_sources c = [(source, inflow)] -> 0 < H ->
  match ih with Fin i => 0 < i /\ until = qmin H i | PInf => until = H | NInf => False end ->
  optimal_avg_travel_time fuel flow nw ih H c = Ok (v, tr) ->
  exists costs com labels, length costs = length (f_q flow) /\ important (w_graph nw) c = Ok com /\
    (forall e cost, nth_error costs e = Some cost -> exists q tau cap f, nth_error (f_q flow) e = Some q /\ nth_error (w_tau nw) e = Some tau /\ nth_error (w_cap nw) e = Some cap /\
       simplify f = Ok cost /\ forall t, 0 <= t -> t <= H -> exists y, pl_eval q t = Ok y /\ pl_eval f t = Ok (tau + y / cap)) /\
    bellman_ford fuel (w_graph nw) (k_sink c) costs com 0 (Fin H) = Ok (labels, tr) /\
    forall l, (forall cost, In cost costs -> good_cost 0 (Fin H) cost) -> (forall e, In e tr -> clear_ev 0 e) ->
      dget labels source = Some l -> valid l -> mono l -> pl_lo l = Fin 0 -> plus_sep l minus_id -> (exists t y, 0 < t /\ pl_eval l t = Ok y /\ y <= H) ->
      travel_integral l H until (v * until) /\
      (forall t y, pl_eval l t = Ok y -> exists k, walk (w_graph nw) costs com (k_sink c) 0 (Fin H) source k t y) /\
      (forall k t s, walk (w_graph nw) costs com (k_sink c) 0 (Fin H) source k t s -> exists y, pl_eval l t = Ok y /\ y <= s + qn k * (eps1000 * (1 + H))).
Proof.
  intros fuel flow nw ih H U c source inflow v tr CS LN CP SR HP UI E. unfold optimal_avg_travel_time in E. rewrite SR in E.
  apply bind_ok in E. destruct E as [costs [EC E]]. apply bind_ok in E. destruct E as [com [EI E]]. apply bind_ok in E. destruct E as [[labels tr'] [EB E]].
  assert (TR : tr' = tr). { destruct (dget labels source) as [l|]; [apply bind_ok in E; destruct E as [y [_ E]]; apply ok_inj in E; congruence|]. destruct ih; try discriminate E. apply ok_inj in E. congruence. }
  subst tr'. exists costs, com, labels. destruct (mapM_spec _ _ _ EC) as [LC NC]. rewrite seq_length in LC. split; [exact LC|]. split; [exact EI|]. split; [|split; [exact EB|]].
  - intros e cost NE. assert (L : (e < length (f_q flow))%nat) by (rewrite <- LC; apply nth_error_Some; congruence).
    destruct (NC e e) as [b [NB EE]]; [rewrite (nth_error_nth' _ 0%nat) by (rewrite seq_length; exact L); rewrite seq_nth by exact L; reflexivity|]. rewrite NE in NB. injection NB as <-.
    apply bind_ok in EE. destruct EE as [q [Q EE]]. apply bind_ok in EE. destruct EE as [tau [T EE]]. apply bind_ok in EE. destruct EE as [cap [K EE]].
    unfold fetch in Q, T, K. destruct (nth_error (f_q flow) e) as [q'|] eqn:Q'; [|discriminate Q]. apply ok_inj in Q. subst q'. destruct (nth_error (w_tau nw) e) as [t'|] eqn:T'; [|discriminate T]. apply ok_inj in T. subst t'. destruct (nth_error (w_cap nw) e) as [k'|] eqn:K'; [|discriminate K]. apply ok_inj in K. subst k'.
    destruct (opt_cost_inv H q tau cap cost) as [f [V [SF EV]]]; [apply LN, (nth_error_In _ _ Q')|apply (CP e), K'|exact EE|]. exists q, tau, cap, f. auto.
  - intros l GC CL D V M LO SEP EX. rewrite D in E. apply bind_ok in E. destruct E as [y [EO E]]. apply ok_inj in E. injection E as <-.
    destruct (C43_partial fuel (w_graph nw) (k_sink c) costs com 0 (Fin H) H labels tr CS) as [SND OPT]; auto; [unfold ext_lt; cbn [ext_le]; qlra|qlra|].
    assert (WT : forall v k t s, walk (w_graph nw) costs com (k_sink c) 0 (Fin H) v k t s -> t <= s /\ s <= H).
    { intros w k t s W. induction W as [t A B|e k t s f cc A B IE IF NE EV W IH]; [split; [qlra|exact B]|]. destruct IH as [I1 I2]. split; [|exact I2].
      pose proof (gc_nonneg _ _ _ (GC f (nth_error_In _ _ NE)) t cc A B EV). qlra. }
    split; [|split].
    + destruct (C86_average l H ih U V M LO SEP) as [v' [E1 E2]]; auto.
      * intros t z Z. destruct (SND source l t z D Z) as [k W]. apply WT in W. tauto.
      * rewrite EO in E1. apply ok_inj in E1. subst v'. exact E2.
    + intros t z Z. exact (SND source l t z D Z).
    + intros k t s W. destruct (OPT source k t s W) as [l' [z [D' [Z1 Z2]]]]; [apply WT in W; tauto|]. rewrite D in D'. injection D' as <-. exists z. split; [exact Z1|]. replace (1 + H) with (1 + (H - 0)) by ring. exact Z2.
Qed.
Print Assumptions C86_optimal_partial.

(** ** Where it fails, and an example *)
(** One edge with travel time and capacity 1, inflow 2 during [0, 1), rerouting
    every 10, zero predictions: phi = 0, 1, 2, ... and the queue is t, then 2 - t. *)
Definition op_net (tau : Qc) : network := mkNw (grun [GAdd 1 2]%nat) [1] [tau] [mkCom [(1%nat, mkRC [0; 1] [qz 2; 0] (Fin 0) PInf)] 2 0].
Definition op_setup (tau : Qc) : setup := mkSetup (op_net tau) [(0%nat, mkPred zero_predict true)] (Some (qz 10)) (fun l => l).
Definition op_com : commodity := mkCom [(1%nat, mkRC [0; 1] [qz 2; 0] (Fin 0) PInf)] 2 0.
Definition op_run (tau horizon : Qc) (ih : ext) : res (Qc * list ev) :=
  '(_, b) <- build_with_times 20 (op_setup tau) horizon [] false (fun _ => false) ;; optimal_avg_travel_time 10 (b_flow b) (op_net tau) ih horizon op_com.
(** A queue with a breakpoint behind the horizon makes it raise, ... *)
Theorem C86_breakpoint : forall fuel flow nw ih H c e q t, nth_error (f_q flow) e = Some q -> In t (pl_times q) -> H < t ->
  exists x, optimal_avg_travel_time fuel flow nw ih H c = Err x.
Proof.
  intros fuel flow nw ih H c e q t Q I T. unfold optimal_avg_travel_time. destruct (k_sources c) as [|[s f] [|]]; eauto.
  destruct (mapM _ (seq 0 (length (f_q flow)))) as [costs|x] eqn:M; [|cbn [bind]; eauto]. exfalso. destruct (mapM_spec _ _ _ M) as [_ N].
  assert (L : (e < length (f_q flow))%nat) by (apply nth_error_Some; congruence).
  destruct (N e e) as [b [_ E]]; [rewrite (nth_error_nth' _ 0%nat) by (rewrite seq_length; exact L); rewrite seq_nth by exact L; reflexivity|].
  unfold fetch at 1 in E. rewrite Q in E. cbn [bind] in E. apply bind_ok in E. destruct E as [tau [_ E]]. apply bind_ok in E. destruct E as [cap [_ E]]. unfold opt_cost in E.
  apply bind_ok in E. destruct E as [vs [_ E]]. apply bind_ok in E. destruct E as [a [_ E]]. apply bind_ok in E. destruct E as [b' [_ E]]. apply bind_ok in E. destruct E as [g [E _]].
  apply pl_init_inv in E. destruct E as [-> V]. destruct (v_dom _ V t I) as [_ D]. cbn [pl_hi ext_le] in D. qlra.
Qed.
Print Assumptions C86_breakpoint.
(** ... which happens for flows that build_with_times returns: above, for the
    horizon 3/2 the flow is computed until phi = 3 with a breakpoint at 2.  It
    also raises when the sink cannot be reached before the horizon (travel time 3,
    horizon 2), although every departure then just counts as travelling until the
    horizon; and for a source from which the sink cannot be reached at all, the
    total instead of the average is returned. *)
Theorem C86_refuted : op_run 1 (qr 3 2) (Fin 1) = Err AssertionError /\ op_run (qz 3) (qz 2) (Fin 1) = Err AssertionError /\
  (forall fuel flow nw ih H c source f costs com labels tr, k_sources c = [(source, f)] ->
     mapM (fun e => q <- fetch (f_q flow) e ;; tau <- fetch (w_tau nw) e ;; cap <- fetch (w_cap nw) e ;; opt_cost H q tau cap) (seq 0 (length (f_q flow))) = Ok costs ->
     important (w_graph nw) c = Ok com -> bellman_ford fuel (w_graph nw) (k_sink c) costs com 0 (Fin H) = Ok (labels, tr) -> dget labels source = None -> 0 < ih -> ih <= H ->
     exists v, optimal_avg_travel_time fuel flow nw (Fin ih) H c = Ok (v, tr) /\ v = ih * ((H * ih - ih * ih / (1 + 1)) / ih)).
Proof.
  split; [|split].
  - assert (K : match op_run 1 (qr 3 2) (Fin 1) with Err AssertionError => true | _ => false end = true) by (vm_compute; reflexivity). destruct (op_run 1 (qr 3 2) (Fin 1)) as [|[]]; try discriminate K. reflexivity.
  - assert (K : match op_run (qz 3) (qz 2) (Fin 1) with Err AssertionError => true | _ => false end = true) by (vm_compute; reflexivity). destruct (op_run (qz 3) (qz 2) (Fin 1)) as [|[]]; try discriminate K. reflexivity.
  - intros fuel flow nw ih H c source f costs com labels tr SR EC EI EB D I0 IH. unfold optimal_avg_travel_time. rewrite SR, EC. cbn [bind]. rewrite EI. cbn [bind]. rewrite EB. cbn [bind]. rewrite D. eexists. split; [reflexivity|].
    rewrite two_eq. field. split; [discriminate|intro Z; rewrite Z in I0; discriminate I0].
Qed.
Print Assumptions C86_refuted.

(** The hypotheses of C86_optimal_partial are met by the flow above with horizon
    10: the average is 3/2 for departures in [0, 1). *)
Definition imageb2 (g f : PL) : bool :=
  match pl_lo f, pl_lo g, pl_hi f, pl_hi g with Fin l, Fin b, Fin h, Fin m => (qleb b (pl_at f l) && qleb (pl_at f h) m)%bool | _, _, _, _ => false end.
Lemma imageb2_ok g f : valid f -> mono f -> imageb2 g f = true -> forall t y, pl_eval f t = Ok y -> in_dom g y.
Proof.
  intros V M H t y E. unfold imageb2 in H. destruct (pl_lo f) as [|l|] eqn:LF; try discriminate H. destruct (pl_lo g) as [|b|] eqn:LG; try discriminate H. destruct (pl_hi f) as [|h|] eqn:HF; try discriminate H. destruct (pl_hi g) as [|m|] eqn:HG; try discriminate H.
  apply andb_true_iff in H. destruct H as [H1 H2]. apply qleb_true in H1, H2.
  pose proof (eval_dom f t y E) as D. rewrite (eval_at f t V D) in E. apply ok_inj in E. subst y. destruct D as [D1 D2]. rewrite LF in D1. rewrite HF in D2. cbn [ext_le] in D1, D2.
  pose proof (at_mono f l t V M D1). pose proof (at_mono f t h V M D2). split; [rewrite LG|rewrite HG]; cbn [ext_le]; qlra.
Qed.
Definition clear_evb2 (e : ev) : bool :=
  match e with
  | EvSimplify f _ => validb f && slopes_clearb f
  | EvCompose g f _ => validb g && validb f && monob f && imageb2 g f && clearb_list (kink_points g f) && start_okb g f
  | _ => false
  end%bool.
Lemma clear_evb2_ok e : clear_evb2 e = true -> clear_ev 0 e.
Proof.
  destruct e as [f r|f g r|f g b|g f r]; cbn [clear_evb2 clear_ev]; rewrite ?andb_true_iff; try discriminate.
  - intros [A B]. split; [apply validb_ok; auto|apply slopes_clearb_ok; auto].
  - intros [[[[[A B] C] D] E] F]. apply validb_ok in A, B. apply monob_ok in C.
    split; [auto|]. split; [auto|]. split; [auto|]. split; [apply imageb2_ok; auto|]. split; [|apply start_okb_ok; auto].
    intros x y X Y L. apply (clearb_list_ok _ x y E); auto; apply kink_in; auto.
Qed.
Definition unbounded (c : PL) : PL := mkPL (pl_times c) (pl_values c) (pl_first c) (pl_last c) (pl_lo c) PInf.
Lemma good_fin H c : 0 < H -> good_cost 0 PInf (unbounded c) -> pl_hi c = Fin H -> valid c -> clearb_list (0 :: H :: pl_times c) = true -> ext_le (pl_lo c) (Fin 0) -> good_cost 0 (Fin H) c.
Proof.
  intros HP G HI V CL LO. assert (EV : forall t y, 0 <= t -> t <= H -> pl_eval c t = Ok y -> pl_eval (unbounded c) t = Ok y).
  { intros t y T TH E. destruct (eval_inv c t y V E) as [_ ->]. apply (eval_at (unbounded c) t); [exact (gc_valid _ _ _ G)|]. split; [eapply ext_le_trans; [exact LO|exact T]|exact Logic.I]. }
  constructor; auto.
  - rewrite HI. apply ext_le_refl.
  - intros x y X Y L. cbn [pl_times pl_lo pl_hi] in X, Y. rewrite HI in X, Y.
    assert (M1 : ext_max (Fin 0) (pl_lo c) = Fin 0 \/ pl_lo c = Fin 0 /\ ext_max (Fin 0) (pl_lo c) = Fin 0).
    { left. destruct (pl_lo c) as [|l|]; [reflexivity| |destruct LO]. unfold ext_max, ext_ltb. cbn [ext_leb ext_le] in *. destruct (qlebP l 0); [reflexivity|qlra]. }
    assert (M2 : ext_min (Fin H) (Fin H) = Fin H) by (unfold ext_min; destruct (ext_ltb (Fin H) (Fin H)); reflexivity).
    assert (M3 : ext_max (Fin 0) (pl_lo c) = Fin 0) by (destruct M1 as [M1|[_ M1]]; exact M1). rewrite M2, M3 in X, Y. cbn [fin_list app] in X, Y.
    apply (clearb_list_ok _ x y CL); auto; clear - X Y; [destruct X as [X|X]; [left; exact X|]; apply in_app_or in X; destruct X as [X|[X|[X|[]]]]; [right; right; exact X|left; exact X|right; left; exact X]
      |destruct Y as [X'|X']; [left; exact X'|]; apply in_app_or in X'; destruct X' as [X'|[X'|[X'|[]]]]; [right; right; exact X'|left; exact X'|right; left; exact X']].
  - intros t y T TH E. apply (gc_nonneg _ _ _ G t y T Logic.I). apply EV; auto.
  - intros t u x y T TU UH X Y. apply (gc_fifo _ _ _ G t u x y T TU Logic.I); apply EV; auto; cbn [ext_le] in UH; qlra.
  - exact (gc_first _ _ _ G).
  - exact (gc_last _ _ _ G).
Qed.
Lemma opt_trace fuel flow nw ih H c src f costs com labels tr v tr2 : k_sources c = [(src, f)] ->
  mapM (fun e => q <- fetch (f_q flow) e ;; tau <- fetch (w_tau nw) e ;; cap <- fetch (w_cap nw) e ;; opt_cost H q tau cap) (seq 0 (length (f_q flow))) = Ok costs ->
  important (w_graph nw) c = Ok com -> bellman_ford fuel (w_graph nw) (k_sink c) costs com 0 (Fin H) = Ok (labels, tr) ->
  optimal_avg_travel_time fuel flow nw ih H c = Ok (v, tr2) -> tr2 = tr.
Proof.
  intros SR EC EM EF EO. unfold optimal_avg_travel_time in EO. rewrite SR, EC in EO. cbn [bind] in EO. rewrite EM in EO. cbn [bind] in EO. rewrite EF in EO. cbn [bind] in EO.
  destruct (dget labels src) as [l|]; [apply bind_ok in EO; destruct EO as [y [_ EO]]; apply ok_inj in EO; congruence|]. destruct ih; try discriminate EO. apply ok_inj in EO. congruence.
Qed.
Definition op_all (S : setup) (nw : network) (c : commodity) (H i : Qc) : res (builder * list PL * list PL * list nat * list (nat * PL) * list ev * Qc) :=
  '(_, b) <- build_with_times 20 S H [] false (fun _ => false) ;;
  let qs := f_q (b_flow b) in
  costs <- mapM (fun e => q <- fetch qs e ;; tau <- fetch (w_tau nw) e ;; cap <- fetch (w_cap nw) e ;; opt_cost H q tau cap) (seq 0 (length qs)) ;;
  com <- important (w_graph nw) c ;;
  '(labels, tr) <- bellman_ford 10 (w_graph nw) (k_sink c) costs com 0 (Fin H) ;;
  '(v, _) <- optimal_avg_travel_time 10 (b_flow b) nw (Fin i) H c ;;
  Ok (b, qs, costs, com, labels, tr, v).
Definition fin_costb (H : Qc) (c : PL) : bool :=
  (good_costb 0 (unbounded c) && fin_eqb (pl_lo c) 0 && fin_eqb (pl_hi c) H && validb c && clearb_list (0 :: H :: pl_times c))%bool.
Lemma fin_eqb_ok x q : fin_eqb x q = true -> x = Fin q.
Proof. destruct x as [|y|]; try discriminate. cbn [fin_eqb]. intro E. apply qeqb_true in E. congruence. Qed.
Lemma fin_costb_ok H c : 0 < H -> fin_costb H c = true -> good_cost 0 (Fin H) c.
Proof.
  intros HP E. unfold fin_costb in E. rewrite !andb_true_iff in E. destruct E as [[[[E1 E2] E3] E4] E5]. apply fin_eqb_ok in E2, E3.
  apply good_fin; auto; [apply good_costb_ok; exact E1|apply validb_ok; exact E4|rewrite E2; apply ext_le_refl].
Qed.
Definition op_okb (S : setup) (nw : network) (c : commodity) (H i : Qc) (src : nat) (r hi : Qc) : bool :=
  match op_all S nw c H i with
  | Ok (b, qs, costs, com, labels, tr, v) =>
      forallb (fun q => validb q && match pl_lo q, pl_hi q with NInf, PInf => true | _, _ => false end) qs &&
      forallb (fin_costb H) costs && forallb clear_evb2 tr && negb (length tr =? 0)%nat && qeqb v r &&
      match dget labels src with
      | Some l => validb l && monob l && fin_eqb (pl_lo l) 0 && fin_eqb (pl_hi l) hi && clearb_list (pl_times l ++ [0] ++ [0] ++ [hi]) && match pl_eval l 1 with Ok y => qleb y H | Err _ => false end
      | None => false
      end
  | Err _ => false
  end%bool.
Lemma op_ok S nw c H i src f r hi : op_okb S nw c H i src r hi = true -> 0 < H -> k_sources c = [(src, f)] -> exists b costs com labels tr l v,
  optimal_avg_travel_time 10 (b_flow b) nw (Fin i) H c = Ok (v, tr) /\
  lines (b_flow b) /\ bellman_ford 10 (w_graph nw) (k_sink c) costs com 0 (Fin H) = Ok (labels, tr) /\ tr <> [] /\ v = r /\
  (forall cost, In cost costs -> good_cost 0 (Fin H) cost) /\ (forall e, In e tr -> clear_ev 0 e) /\
  dget labels src = Some l /\ valid l /\ mono l /\ pl_lo l = Fin 0 /\ plus_sep l minus_id /\ exists t y, 0 < t /\ pl_eval l t = Ok y /\ y <= H.
Proof.
  intros K HP SR. unfold op_okb in K. destruct (op_all S nw c H i) as [[[[[[[b qs] costs] com] labels] tr] v]|] eqn:E; [|discriminate K].
  unfold op_all in E. apply bind_ok in E. destruct E as [[n b'] [EB E]]. apply bind_ok in E. destruct E as [costs' [EC E]]. apply bind_ok in E. destruct E as [com' [EM E]]. apply bind_ok in E. destruct E as [[labels' tr'] [EF E]]. apply bind_ok in E. destruct E as [[v' tr2] [EO E]].
  pose proof (opt_trace 10 (b_flow b') nw (Fin i) H c src f costs' com' labels' tr' v' tr2 SR EC EM EF EO) as TR.
  apply ok_inj in E. injection E as <- <- <- <- <- <- <-. subst tr2. rewrite !andb_true_iff in K. destruct K as [[[[[K1 K2] K3] K4] K5] K6].
  destruct (dget labels' src) as [l|] eqn:D; [|discriminate K6]. rewrite !andb_true_iff in K6. destruct K6 as [[[[[L1 L2] L3] L4] L5] L6]. apply fin_eqb_ok in L3, L4.
  exists b', costs', com', labels', tr', l, v'. split; [exact EO|].
  split. { intros q Q. rewrite forallb_forall in K1. specialize (K1 q Q). apply andb_true_iff in K1. destruct K1 as [A B]. split; [apply validb_ok; exact A|]. destruct (pl_lo q), (pl_hi q); try discriminate B. auto. }
  split; [exact EF|]. split; [intro Z; rewrite Z in K4; discriminate K4|]. split; [apply qeqb_true; exact K5|].
  split. { intros d C. rewrite forallb_forall in K2. apply fin_costb_ok; [exact HP|apply K2; exact C]. }
  split. { intros e I. rewrite forallb_forall in K3. apply clear_evb2_ok, K3, I. }
  split; [exact D|]. split; [apply validb_ok; exact L1|]. split; [apply monob_ok; exact L2|]. split; [exact L3|]. split.
  - intros x y X Y L. rewrite L3, L4 in X, Y. apply (clearb_list_ok _ x y L5); assumption.
  - destruct (pl_eval l 1) as [y|] eqn:EY; [|discriminate L6]. apply qleb_true in L6. exists 1, y. split; [reflexivity|]. split; [exact EY|exact L6].
Qed.
Example C86_example : consistent (w_graph (op_net 1)) /\ exists b costs com labels tr l v, optimal_avg_travel_time 10 (b_flow b) (op_net 1) (Fin 1) (qz 10) op_com = Ok (v, tr) /\
  lines (b_flow b) /\ bellman_ford 10 (w_graph (op_net 1)) (k_sink op_com) costs com 0 (Fin (qz 10)) = Ok (labels, tr) /\ tr <> [] /\ v = qr 3 2 /\
  (forall cost, In cost costs -> good_cost 0 (Fin (qz 10)) cost) /\ (forall e, In e tr -> clear_ev 0 e) /\
  dget labels 1%nat = Some l /\ valid l /\ mono l /\ pl_lo l = Fin 0 /\ plus_sep l minus_id /\ exists t y, 0 < t /\ pl_eval l t = Ok y /\ y <= qz 10.
Proof.
  split; [apply (grun_spec [GAdd 1 2]%nat g_empty (empty_consistent false [])); cbn; auto|].
  assert (K : op_okb (op_setup 1) (op_net 1) op_com (qz 10) 1 1 (qr 3 2) (qz 9) = true) by (vm_compute; reflexivity).
  refine (op_ok _ _ _ _ _ _ _ _ _ K _ eq_refl). reflexivity.
Qed.
