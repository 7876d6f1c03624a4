(** * C104: what enters an edge leaves it, commodity by commodity, at its exit time *)
From Verif Require Import Base Spec Arrays ArraysProofs PL PLProofs PLEval RC RCProofs RCOps FRC FRCProofs FRCExact PQ PQSpec DynFlow DynRun DynEvents DynEdge DynFlowProofs PropFlow PropFlow2 FlowBuilder BuilderFlow Eval PropEval4.

(** ** Vocabulary *)
(** The rate functions of commodity [i] in a collection: at most one.  A
    commodity that was never recorded has rate 0. *)
Definition functions_of (c : FRC) (i : nat) : list RC := match dget (c_fns c) i with Some f => [f] | None => [] end.

(** ** Auxiliary lemmas *)
Lemma rate_nonneg d i : is_snapshot d -> 0 <= rate d i.
Proof. intros [_ P]. unfold rate. destruct (dget d i) as [x|] eqn:E; [|qlra]. apply dget_In in E. specialize (P _ _ E). qlra. Qed.
Lemma rate_zero d i : is_snapshot d -> rates_sum d = 0 -> rate d i = 0.
Proof. intros [_ P] Z. rewrite (proj2 (sum_nonneg d P) Z). reflexivity. Qed.
Lemma latest_snapshot c es T v s t : fstate c es T v s -> is_snapshot (latest_rates (snaps_of es) t).
Proof.
  intro F. unfold latest_rates. destruct (latest (snaps_of es) t) as [q|] eqn:L; [|split; [constructor|intros ? ? []]].
  apply (fi_snap _ _ _ _ (fs_inv _ _ _ _ _ F) q). apply (latest_some _ _ _ L).
Qed.
Lemma total_nonneg c es T v s t : fstate c es T v s -> 0 <= latest_total es t.
Proof. intro F. rewrite (latest_total_sum _ (fs_sum _ _ _ _ _ F)). apply sum_nonneg. apply (latest_snapshot _ _ _ _ _ t F). Qed.
Lemma total_rate_zero c es T v s t i : fstate c es T v s -> latest_total es t = 0 -> rate (latest_rates (snaps_of es) t) i = 0.
Proof. intros F Z. apply rate_zero; [apply (latest_snapshot _ _ _ _ _ t F)|]. rewrite <- (latest_total_sum _ (fs_sum _ _ _ _ _ F)). exact Z. Qed.

(** [C] accumulates the rates of commodity [i] of the history [es]. *)
Definition collects (es : list (Qc * rates * Qc)) (i : nat) (C : Qc -> Qc) : Prop :=
  C 0 = 0 /\ forall a b, 0 <= a -> a <= b -> (forall x, In x (times_of es) -> x <= a \/ b <= x) ->
    C b - C a = rate (latest_rates (snaps_of es) a) i * (b - a).
Lemma accumulates_collects c es T v s i C : fstate c es T v s -> accumulates (functions_of c i) C -> collects es i C.
Proof.
  intros F [Z A]. split; [exact Z|]. intros a b A0 AB P.
  pose proof (rate_of_eq _ _ _ _ _ i a F A0) as E. unfold rate_of in E. unfold functions_of in A.
  assert (PC : piece (match dget (c_fns c) i with Some f => [f] | None => [] end) a b).
  { intros f x I Ix. apply P. apply (fx_times _ _ _ _ (fs_x _ _ _ _ _ F) i). unfold fn_of. destruct (dget (c_fns c) i) as [f'|]; [|destruct I]. destruct I as [<-|[]]. exact Ix. }
  rewrite (A a b A0 AB PC). destruct (dget (c_fns c) i) as [f|]; cbn [map fold_right].
  - unfold value. rewrite E. ring.
  - apply ok_inj in E. rewrite <- E. reflexivity.
Qed.

Section Edge.
Variables cap tau : Qc.
Hypothesis Hcap : 0 < cap.
Hypothesis Htau : 0 <= tau.
Variables (E : edge) (g : ghost) (p : Qc).
Hypothesis B : ebase cap tau E g p.
Notation X := (ex cap tau (e_q E)).

Lemma div_lt a b : a < b -> a / cap < b / cap.
Proof. intro H. assert (0 < (b - a) / cap) by (apply qdiv_pos; qlra). replace ((b - a) / cap) with (b / cap - a / cap) in H0 by (unfold Qcdiv; ring). qlra. Qed.
(** The outflow rate is the capacity from t + tau to the exit time of t. *)
Lemma at_capacity t s : 0 <= t -> t <= p -> t <= s -> s + tau < X t -> latest_total (g_out g) (s + tau) = cap.
Proof.
  intros T0 TP TS SX. destruct (qltbP s p) as [C|C].
  - apply (b_rate _ _ _ _ _ B s); [qlra|exact C|]. pose proof (b_fifo _ _ _ _ _ B t s T0 TS ltac:(qlra)) as F.
    assert (K : s + tau < X s) by qlra. unfold ex in K. destruct (qltbP 0 (pl_at (e_q E) s)) as [P|N]; [exact P|]. exfalso.
    pose proof (b_nn _ _ _ _ _ B s ltac:(qlra) ltac:(qlra)). assert (Z : pl_at (e_q E) s = 0) by qlra. rewrite Z in K. unfold Qcdiv in K. qlra.
  - apply (b_seg1 _ _ _ _ _ B s); [qlra|]. pose proof (b_fifo _ _ _ _ _ B t p T0 TP ltac:(qlra)) as F. qlra.
Qed.
Lemma total_exit t : 0 <= t -> t <= p -> acc (e_out E) (X t) = acc (e_in E) t.
Proof.
  intros T0 TP. pose proof (b_nn _ _ _ _ _ B t T0 TP) as NN. pose proof (ex_ge _ _ Hcap Htau _ _ NN) as G.
  pose proof (b_cons _ _ _ _ _ B t T0 TP) as CO.
  assert (A : acc (e_out E) (X t) - acc (e_out E) (t + tau) = cap * (X t - (t + tau))).
  { apply (acc_const _ _ _ _ _ cap (b_out _ _ _ _ _ B)); [qlra|exact G|]. intros s S1 S2. replace s with (s - tau + tau) by ring.
    apply (at_capacity t); [exact T0|exact TP|qlra|]. replace (s - tau + tau) with s by ring. exact S2. }
  assert (Q : cap * (X t - (t + tau)) = pl_at (e_q E) t) by (unfold ex; field; qlra). rewrite Q in A. qlra.
Qed.
Lemma ex_zero : X 0 = tau.
Proof. unfold ex. rewrite (b_q0 _ _ _ _ _ B 0) by qlra. unfold Qcdiv. ring. Qed.

Variables (i : nat) (CI CO : Qc -> Qc).
Hypothesis HI : collects (g_in g) i CI.
Hypothesis HO : collects (g_out g) i CO.

Lemma out_early : CO tau = 0.
Proof.
  assert (K : CO tau = CO 0); [|rewrite K; apply (proj1 HO)].
  apply (pieces_eq CO (times_of (g_out g)) 0 tau Htau). intros u v U UV VT P. destruct (qeqbP u v) as [->|NE]; [reflexivity|].
  pose proof (proj2 HO u v U UV P) as K. rewrite (total_rate_zero _ _ _ _ _ u i (b_out _ _ _ _ _ B)) in K by (apply (b_early _ _ _ _ _ B); qlra). 
  replace (0 * (v - u)) with 0 in K by ring. qlra.
Qed.
Lemma exit_piece u v : 0 <= u -> u <= v -> v <= p -> (forall x, In x (times_of (g_in g) ++ map (fun x => x - tau) (times_of (g_out g))) -> x <= u \/ v <= x) ->
  CI v - CI u = CO (X v) - CO (X u).
Proof.
  intros U0 UV VP P. destruct (qeqbP u v) as [->|NE]; [ring|]. assert (LT : u < v) by qlra.
  set (a := latest_total (g_in g) u). set (r := rate (latest_rates (snaps_of (g_in g)) u) i). set (o := latest_total (g_out g) (u + tau)).
  assert (PI : forall s, u <= s -> s <= v -> forall x, In x (times_of (g_in g)) -> x <= u \/ s <= x).
  { intros s S1 S2 x Ix. destruct (P x (in_or_app _ _ _ (or_introl Ix))); [left; assumption|right; qlra]. }
  assert (PO : forall s, u <= s -> s <= v -> forall x, In x (times_of (g_out g)) -> x <= u + tau \/ s + tau <= x).
  { intros s S1 S2 x Ix. destruct (P (x - tau)); [apply in_or_app; right; apply (in_map (fun x => x - tau)), Ix|left; qlra|right; qlra]. }
  assert (AI : forall s, u <= s -> s <= v -> acc (e_in E) s = acc (e_in E) u + a * (s - u)).
  { intros s S1 S2. pose proof (fx_area _ _ _ _ (fs_x _ _ _ _ _ (b_in _ _ _ _ _ B)) u s U0 S1 (PI s S1 S2)) as K. unfold acc, a. qlra. }
  assert (AO : forall s, u <= s -> s <= v -> acc (e_out E) (s + tau) = acc (e_out E) (u + tau) + o * (s - u)).
  { intros s S1 S2. pose proof (fx_area _ _ _ _ (fs_x _ _ _ _ _ (b_out _ _ _ _ _ B)) (u + tau) (s + tau) ltac:(qlra) ltac:(qlra) (PO s S1 S2)) as K. fold o in K.
    unfold acc. replace (s + tau - (u + tau)) with (s - u) in K by ring. qlra. }
  set (m := 1 + (a - o) / cap).
  assert (XL : forall s, u <= s -> s <= v -> X s = X u + m * (s - u)).
  { intros s S1 S2. unfold ex. rewrite (b_cons _ _ _ _ _ B s), (b_cons _ _ _ _ _ B u) by qlra. rewrite AI, AO by assumption. unfold m. field. qlra. }
  assert (CIv : CI v - CI u = r * (v - u)) by (apply (proj2 HI); [exact U0|exact UV|apply PI; qlra]).
  assert (A0 : 0 <= a) by (apply (total_nonneg _ _ _ _ _ _ (b_in _ _ _ _ _ B))).
  pose proof (b_nn _ _ _ _ _ B u U0 ltac:(qlra)) as NU. pose proof (ex_ge _ _ Hcap Htau _ _ NU) as XU.
  assert (M0 : 0 <= m).
  { pose proof (b_fifo _ _ _ _ _ B u v U0 UV VP) as F. rewrite (XL v) in F by qlra. destruct (qlebP 0 m) as [K|K]; [exact K|]. exfalso. assert (0 < (- m) * (v - u)) by (apply qmul_pos; qlra).
    replace (- m * (v - u)) with (- (m * (v - u))) in H by ring. qlra. }
  destruct (qeqbP m 0) as [MZ|MN].
  - assert (XV : X v = X u) by (rewrite (XL v), MZ by qlra; ring). rewrite XV.
    pose proof (total_exit u U0 ltac:(qlra)) as T1. pose proof (total_exit v ltac:(qlra) VP) as T2. rewrite XV, T1, (AI v) in T2 by qlra.
    assert (AZ : a = 0). { destruct (qeqbP a 0) as [Z|NZ]; [exact Z|]. exfalso. assert (0 < a * (v - u)) by (apply qmul_pos; qlra). qlra. }
    assert (RZ : r = 0) by (apply (total_rate_zero _ _ _ _ _ u i (b_in _ _ _ _ _ B) AZ)). rewrite CIv, RZ. ring.
  - assert (MP : 0 < m) by qlra.
    assert (K : CO (X v) - r / m * X v = CO (X u) - r / m * X u).
    { apply (pieces_eq (fun x => CO x - r / m * x) (times_of (g_out g)) (X u) (X v)); [apply (b_fifo _ _ _ _ _ B); assumption|].
      intros x y XX XY YX PX. destruct (qeqbP x y) as [->|NE2]; [reflexivity|].
      set (s := u + (x - X u) / m). set (w := u + (y - X u) / m).
      assert (YB : y <= X u + m * (v - u)) by (rewrite <- XL by qlra; exact YX).
      assert (S1 : u <= s) by (unfold s; assert (0 <= (x - X u) / m) by (apply qdiv_nonneg; qlra); qlra).
      assert (SW : s < w).
      { unfold s, w. assert (0 < (y - x) / m) by (apply qdiv_pos; qlra). replace ((y - X u) / m) with ((x - X u) / m + (y - x) / m) by (unfold Qcdiv; ring). qlra. }
      assert (WV : w <= v).
      { unfold w. assert (0 <= (X u + m * (v - u) - y) / m) by (apply qdiv_nonneg; qlra).
        replace ((X u + m * (v - u) - y) / m) with ((v - u) - (y - X u) / m) in H by (field; qlra). qlra. }
      assert (XS : X s = x) by (rewrite XL by qlra; unfold s; field; qlra).
      assert (XW : X w = y) by (rewrite XL by qlra; unfold w; field; qlra).
      assert (X0 : 0 <= x) by qlra.
      set (b := latest_total (g_out g) x).
      pose proof (fx_area _ _ _ _ (fs_x _ _ _ _ _ (b_out _ _ _ _ _ B)) x y X0 XY PX) as AR. fold b in AR. fold (acc (e_out E) y) (acc (e_out E) x) in AR.
      rewrite <- XS, <- XW in AR. rewrite !total_exit in AR by qlra. rewrite (AI w), (AI s) in AR by qlra. rewrite XS, XW in AR.
      assert (DW : w - s = (y - x) / m) by (unfold s, w, Qcdiv; ring).
      assert (DY : 0 < y - x) by qlra.
      assert (AB : a = b * m).
      { assert (Z : (a / m - b) * (y - x) = 0).
        { replace (acc (e_in E) u + a * (w - u) - (acc (e_in E) u + a * (s - u))) with (a * (w - s)) in AR by ring. rewrite DW in AR.
          replace ((a / m - b) * (y - x)) with (a * ((y - x) / m) - b * (y - x)) by (unfold Qcdiv; ring). rewrite AR. ring. }
        destruct (qeqbP (a / m - b) 0) as [Q|Q].
        - replace a with ((a / m - b) * m + b * m) by (field; qlra). rewrite Q. ring.
        - exfalso. apply Qcmult_integral in Z. destruct Z as [Z|Z]; [contradiction|qlra]. }
      assert (LS : latest_total (g_in g) s = a /\ rate (latest_rates (snaps_of (g_in g)) s) i = r).
      { assert (LC : latest (snaps_of (g_in g)) s = latest (snaps_of (g_in g)) u).
        { apply latest_const; [exact S1|]. intros z Iz. unfold snaps_of in Iz. rewrite map_map in Iz. destruct (PI v UV ltac:(qlra) z Iz); [left; assumption|right; qlra]. }
        unfold a, r. rewrite !(latest_total_sum _ (fs_sum _ _ _ _ _ (b_in _ _ _ _ _ B))). unfold latest_rates. rewrite LC. auto. }
      destruct LS as [LS1 LS2].
      pose proof (proj2 HO x y X0 XY PX) as CD. set (oi := rate (latest_rates (snaps_of (g_out g)) x) i) in *.
      assert (OI : oi = r / m).
      { destruct (qeqbP a 0) as [Z|NZ].
        - assert (RZ : r = 0) by (apply (total_rate_zero _ _ _ _ _ u i (b_in _ _ _ _ _ B) Z)).
          assert (BZ : b = 0). { assert (Q : b * m = 0) by (rewrite <- AB; exact Z). apply Qcmult_integral in Q. destruct Q as [Q|Q]; [exact Q|contradiction]. }
          unfold oi. rewrite (total_rate_zero _ _ _ _ _ x i (b_out _ _ _ _ _ B) BZ), RZ. unfold Qcdiv. ring.
        - destruct (b_prop _ _ _ _ _ B s ltac:(qlra) ltac:(qlra)) as [_ [_ PR]]; [rewrite LS1; qlra|]. specialize (PR i). rewrite XS, LS1, LS2 in PR. fold oi b in PR.
          assert (BN : b <> 0) by (intro Q; apply NZ; rewrite AB, Q; ring).
          rewrite AB in PR. assert (Q : (oi * m - r) * b = 0) by (replace ((oi * m - r) * b) with (oi * (b * m) - r * b) by ring; rewrite PR; ring).
          apply Qcmult_integral in Q. destruct Q as [Q|Q]; [|contradiction]. assert (Q2 : oi * m = r) by qlra. rewrite <- Q2. field. exact MN. }
      rewrite OI in CD. replace (r / m * (y - x)) with (r / m * y - r / m * x) in CD by ring. qlra. }
    assert (EQ : r / m * X v - r / m * X u = r * (v - u)) by (rewrite (XL v) by qlra; field; qlra). qlra.
Qed.
Lemma exit_amount t : 0 <= t -> t <= p -> CO (X t) = CI t.
Proof.
  intros T0 TP. assert (K : CI t - CO (X t) = CI 0 - CO (X 0)).
  { apply (pieces_eq (fun s => CI s - CO (X s)) (times_of (g_in g) ++ map (fun x => x - tau) (times_of (g_out g))) 0 t T0). intros u v U UV VT P.
    pose proof (exit_piece u v U UV ltac:(qlra) P). qlra. }
  rewrite ex_zero, out_early, (proj1 HI) in K. qlra.
Qed.
End Edge.

(** ** C104 *)
(** For every clean run, edge, commodity and time t up to the end of the run:
    the amount of the commodity that has left the edge by the time at which
    flow entering at t leaves it, is the amount that has entered up to t. *)
Theorem C104_amounts : forall nw calls st e i cin cout t,
  net_ok nw -> valid_run nw calls -> clean_run nw calls -> flow_run false nw calls = Ok st ->
  (e < length (n_cap nw))%nat ->
  accumulates (functions_of (inflow_of st e) i) cin -> accumulates (functions_of (outflow_of st e) i) cout ->
  0 <= t -> t <= f_phi st ->
  exists q, pl_eval (queue_of st e) t = Ok q /\ cout (exit_time nw e t q) = cin t.
Proof.
  intros nw calls st e i cin cout t NW V C R L AI AO T0 TP. destruct (edge_full nw calls st e NW (clean_full nw calls st NW V C R) L) as [g [B [CP TT]]].
  exists (pl_at (queue_of st e) t). split; [apply (qs_eval _ _ t (b_q _ _ _ _ _ B))|].
  apply (exit_amount _ _ CP TT _ _ _ B i cin cout (accumulates_collects _ _ _ _ _ _ _ (b_in _ _ _ _ _ B) AI) (accumulates_collects _ _ _ _ _ _ _ (b_out _ _ _ _ _ B) AO) t T0 TP).
Qed.
Print Assumptions C104_amounts.
(** The same for the totals the collections accumulate themselves. *)
Theorem C104_totals : forall nw calls st e t,
  net_ok nw -> valid_run nw calls -> clean_run nw calls -> flow_run false nw calls = Ok st ->
  (e < length (n_cap nw))%nat -> 0 <= t -> t <= f_phi st ->
  exists q a, pl_eval (queue_of st e) t = Ok q /\ cumulative (inflow_of st e) t = Ok a /\ cumulative (outflow_of st e) (exit_time nw e t q) = Ok a.
Proof.
  intros nw calls st e t NW V C R L T0 TP. destruct (edge_full nw calls st e NW (clean_full nw calls st NW V C R) L) as [g [B [CP TT]]].
  exists (pl_at (queue_of st e) t), (acc (inflow_of st e) t). split; [apply (qs_eval _ _ t (b_q _ _ _ _ _ B))|]. split; [apply (cumulative_eq _ _ _ _ _ _ (b_in _ _ _ _ _ B) T0)|].
  pose proof (b_nn _ _ _ _ _ B t T0 TP) as NN. pose proof (ex_ge _ _ CP TT _ _ NN) as G.
  pose proof (total_exit _ _ CP TT _ _ _ B t T0 TP) as K. cbn [edge_of e_in e_out e_q] in *. rewrite <- K.
  apply (cumulative_eq _ _ _ _ _ _ (b_out _ _ _ _ _ B)). change (0 <= ex (cap_of nw e) (tau_of nw e) (queue_of st e) t). qlra.
Qed.
Print Assumptions C104_totals.

(** ** Such amounts exist *)
Lemma function_ok c es T v s i f : fstate c es T v s -> dget (c_fns c) i = Some f -> rates_ok [f].
Proof.
  intros F E. destruct (fi_fns _ _ _ _ (fs_inv _ _ _ _ _ F) i f E) as [V Lo Hi Z _]. pose proof (fx_times _ _ _ _ (fs_x _ _ _ _ _ F) i) as TM. pose proof (fx_rate _ _ _ _ (fs_x _ _ _ _ _ F) i) as RT.
  unfold fn_of in TM, RT. rewrite E in TM, RT. split.
  - intros f' [<-|[]]. split; [exact V|]. split; [exact Lo|]. split; [exact Hi|]. intros x Ix. destruct (PropEval3.vals_at f x V Ix) as [t [It <-]].
    assert (T0 : 0 <= t) by (destruct (rv_dom f V t It) as [Q _]; rewrite Lo in Q; exact Q). rewrite (RT t T0). apply rate_nonneg, (latest_snapshot _ _ _ _ _ t F).
  - cbn [map concat]. rewrite app_nil_r. intros x y X Y. apply (fs_sep _ _ _ _ _ F); [destruct X as [<-|X]; apply TM; [exact Z|exact X]|destruct Y as [<-|Y]; apply TM; [exact Z|exact Y]].
Qed.
Lemma none_accumulates : accumulates [] (fun _ => 0).
Proof. split; [reflexivity|]. intros. cbn [map fold_right]. ring. Qed.
Lemma amounts_exist c es T v s i : fstate c es T v s -> exists C, accumulates (functions_of c i) C.
Proof.
  intro F. unfold functions_of. destruct (dget (c_fns c) i) as [f|] eqn:E; [|exists (fun _ => 0); apply none_accumulates].
  destruct (accumulated [f] (function_ok _ _ _ _ _ _ _ F E)) as (p & P & _ & _ & _ & _ & _ & A & _). exists (pl_at P). exact A.
Qed.
Theorem C104_exists : forall nw calls st e i,
  net_ok nw -> valid_run nw calls -> clean_run nw calls -> flow_run false nw calls = Ok st -> (e < length (n_cap nw))%nat ->
  exists cin cout, accumulates (functions_of (inflow_of st e) i) cin /\ accumulates (functions_of (outflow_of st e) i) cout.
Proof.
  intros nw calls st e i NW V C R L. destruct (edge_full nw calls st e NW (clean_full nw calls st NW V C R) L) as [g [B _]].
  destruct (amounts_exist _ _ _ _ _ i (b_in _ _ _ _ _ B)) as [ci HI]. destruct (amounts_exist _ _ _ _ _ i (b_out _ _ _ _ _ B)) as [co HO]. eauto.
Qed.
Print Assumptions C104_exists.

(** ** What is on the edge *)
Lemma collects_mono c es T v s i C : fstate c es T v s -> collects es i C -> forall a b, 0 <= a -> a <= b -> C a <= C b.
Proof.
  intros F [_ H] a b A AB. apply (pieces_le C (times_of es) a b AB). intros u w U UW WB P. pose proof (H u w ltac:(qlra) UW P) as K.
  pose proof (rate_nonneg _ i (latest_snapshot _ _ _ _ _ u F)) as R. assert (0 <= rate (latest_rates (snaps_of es) u) i * (w - u)) by (apply qmul_nn; qlra). qlra.
Qed.
(** No commodity leaves before it has entered, whatever the run. *)
Theorem C104_on_edge : forall nw calls st e i cin cout t,
  net_ok nw -> valid_run nw calls -> clean_run nw calls -> flow_run false nw calls = Ok st ->
  (e < length (n_cap nw))%nat ->
  accumulates (functions_of (inflow_of st e) i) cin -> accumulates (functions_of (outflow_of st e) i) cout ->
  0 <= t -> t <= f_phi st -> 0 <= cout t /\ cout (t + tau_of nw e) <= cin t.
Proof.
  intros nw calls st e i cin cout t NW V C R L AI AO T0 TP. destruct (edge_full nw calls st e NW (clean_full nw calls st NW V C R) L) as [g [B [CP TT]]].
  pose proof (accumulates_collects _ _ _ _ _ _ _ (b_in _ _ _ _ _ B) AI) as KI. pose proof (accumulates_collects _ _ _ _ _ _ _ (b_out _ _ _ _ _ B) AO) as KO.
  pose proof (exit_amount _ _ CP TT _ _ _ B i cin cout KI KO t T0 TP) as K. pose proof (b_nn _ _ _ _ _ B t T0 TP) as NN. pose proof (ex_ge _ _ CP TT _ _ NN) as G.
  pose proof (collects_mono _ _ _ _ _ i cout (b_out _ _ _ _ _ B) KO) as M. split.
  - rewrite <- (proj1 KO). apply M; qlra.
  - rewrite <- K. apply M; [qlra|exact G].
Qed.
Print Assumptions C104_on_edge.
Lemma out_le_cap cap tau (Hcap : 0 < cap) (Htau : 0 <= tau) E g p s : ebase cap tau E g p -> 0 <= s -> s < p + tau -> 0 <= latest_total (g_out g) s /\ latest_total (g_out g) s <= cap.
Proof.
  intros B S0 SP. pose proof (total_nonneg _ _ _ _ _ s (b_out _ _ _ _ _ B)) as N. split; [exact N|]. destruct (qltbP s tau) as [Q|Q]; [rewrite (b_early _ _ _ _ _ B s S0 Q); qlra|].
  destruct (b_rate _ _ _ _ _ B (s - tau)) as [H1 H2]; [qlra|qlra|]. replace (s - tau + tau) with s in * by ring.
  pose proof (b_nn _ _ _ _ _ B (s - tau) ltac:(qlra) ltac:(qlra)) as NN. destruct (qeqbP (pl_at (e_q E) (s - tau)) 0) as [Z|NZ].
  - rewrite (H2 Z). destruct (qmin_spec cap (latest_total (g_in g) (s - tau))) as [[? ->]|[? ->]]; qlra.
  - rewrite H1 by qlra. qlra.
Qed.
(** The load of an edge (what has entered minus what has left) is at least the
    queue and at most the queue plus the capacity times the travel time. *)
Theorem C104_load_bounds : forall nw calls st e t,
  net_ok nw -> valid_run nw calls -> clean_run nw calls -> flow_run false nw calls = Ok st ->
  (e < length (n_cap nw))%nat -> 0 <= t -> t <= f_phi st ->
  exists q a b, pl_eval (queue_of st e) t = Ok q /\ cumulative (inflow_of st e) t = Ok a /\ cumulative (outflow_of st e) t = Ok b /\
    q <= a - b /\ a - b <= q + cap_of nw e * tau_of nw e.
Proof.
  intros nw calls st e t NW V C R L T0 TP. destruct (edge_full nw calls st e NW (clean_full nw calls st NW V C R) L) as [g [B [CP TT]]].
  exists (pl_at (queue_of st e) t), (acc (inflow_of st e) t), (acc (outflow_of st e) t). split; [apply (qs_eval _ _ t (b_q _ _ _ _ _ B))|].
  split; [apply (cumulative_eq _ _ _ _ _ _ (b_in _ _ _ _ _ B) T0)|]. split; [apply (cumulative_eq _ _ _ _ _ _ (b_out _ _ _ _ _ B) T0)|].
  pose proof (b_cons _ _ _ _ _ B t T0 TP) as K. cbn [edge_of e_in e_out e_q] in K. set (ac := acc (outflow_of st e)) in *. set (tau := tau_of nw e) in *. set (cap := cap_of nw e) in *.
  assert (AR : forall u v, 0 <= u -> u <= v -> (forall x, In x (times_of (g_out g)) -> x <= u \/ v <= x) -> ac v - ac u = latest_total (g_out g) u * (v - u)).
  { intros u v U UV P. apply (fx_area _ _ _ _ (fs_x _ _ _ _ _ (b_out _ _ _ _ _ B)) u v U UV P). }
  assert (LO : ac t <= ac (t + tau)).
  { apply (pieces_le ac (times_of (g_out g)) t (t + tau) ltac:(qlra)). intros u v U UV VT P. pose proof (AR u v ltac:(qlra) UV P) as Q.
    pose proof (total_nonneg _ _ _ _ _ u (b_out _ _ _ _ _ B)). assert (0 <= latest_total (g_out g) u * (v - u)) by (apply qmul_nn; qlra). qlra. }
  assert (HI : cap * t - ac t <= cap * (t + tau) - ac (t + tau)).
  { apply (pieces_le (fun s => cap * s - ac s) (times_of (g_out g)) t (t + tau) ltac:(qlra)). intros u v U UV VT P. pose proof (AR u v ltac:(qlra) UV P) as Q.
    destruct (qeqbP u v) as [->|NE]; [qlra|]. destruct (out_le_cap cap tau CP TT _ _ _ u B) as [_ M]; [qlra|qlra|].
    assert (0 <= (cap - latest_total (g_out g) u) * (v - u)) by (apply qmul_nn; qlra).
    replace ((cap - latest_total (g_out g) u) * (v - u)) with (cap * v - cap * u - latest_total (g_out g) u * (v - u)) in H by ring. qlra. }
  replace (cap * (t + tau)) with (cap * t + cap * tau) in HI by ring. split; qlra.
Qed.
Print Assumptions C104_load_bounds.

(** ** Example: two commodities (rates 1 and 2 during [0, 2), then 1/2 of the
    first) enter edge 0 of ex_net, capacity 1 and travel time 2.  At time 2 the
    queue is 4, and what entered until then, 2 and 4, has left at time 8. *)
Definition amount (c : FRC) (i : nat) (t : Qc) : res Qc :=
  p <- rc_sum_from_zero (functions_of c i) ;; F <- rc_integral p ;; pl_eval F t.
Example C104_example : match flow_run false ex_net ex_calls with
  | Ok st => map showq [pl_eval (queue_of st 0) (qz 2); amount (inflow_of st 0) 0 (qz 2); amount (outflow_of st 0) 0 (qz 8);
                        amount (inflow_of st 0) 1 (qz 2); amount (outflow_of st 0) 1 (qz 8); amount (outflow_of st 0) 1 (qz 4)]
  | Err _ => []
  end = [Some (4#1); Some (2#1); Some (2#1); Some (4#1); Some (4#1); Some (4#3)]%Q.
Proof. vm_compute. reflexivity. Qed.
