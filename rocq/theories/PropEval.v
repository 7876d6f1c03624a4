(** * C56, C68, C69: evaluating predictions (src/eval/predicted_delay.py) *)
From Coq Require Import Qround.
From Verif Require Import Base Spec Arrays ArraysProofs PL PLProofs PLEval RC RCProofs RCOps FRC FRCProofs PQ PQSpec DynFlow Graph GraphSpec GraphProofs Dijkstra DijkstraSpec DijkstraProofs DijkstraProofs2 PropDijkstra FlowBuilder FlowBuilderProofs Predictors Eval DynRun.

(** ** C56 *)
Lemma anyM_ok {A} (f : A -> res bool) (b : A -> bool) l : (forall x, In x l -> f x = Ok (b x)) -> anyM f l = Ok (existsb b l).
Proof.
  induction l as [|x l IH]; intro H; cbn [anyM existsb]; [reflexivity|]. rewrite (H x) by (left; reflexivity). cbn [bind].
  destruct (b x); [reflexivity|]. cbn [orb]. apply IH. intros y Y. apply H. right. exact Y.
Qed.
Lemma in_zrange a b x : In x (zrange a b) <-> (a <= x < b)%Z.
Proof.
  unfold zrange. rewrite in_map_iff. split.
  - intros [i [<- I]]. apply in_seq in I. lia.
  - intro H. exists (Z.to_nat (x - a)). split; [lia|]. apply in_seq. lia.
Qed.
(** True exactly if the rate exceeds [eps] somewhere in the half-open interval. *)
Theorem C56_is_positive_during : forall f a b, rvalid f -> rin_dom f a -> rin_dom f b -> a < b ->
  exists v, is_positive_during f a b = Ok v /\
    (v = true <-> exists t y, a <= t /\ t < b /\ rc_eval f t = Ok y /\ eps < y).
Proof.
  intros f a b V Da Db L. destruct V as [VL VN VS VD]. assert (V : rvalid f) by (constructor; assumption).
  assert (NS : StronglySorted Qcle (rc_times f)). { clear -VS. induction VS as [|x l S IH F]; constructor; auto. eapply Forall_impl; [|exact F]. intros y Y. qlra. }
  destruct (elem_lrank_ok (rc_times f) a VN NS) as [sr [ES [S0 [S1 S2]]]]. destruct (elem_rank_ok (rc_times f) b VN NS) as [er [EE [E0 [E1 E2]]]].
  pose proof (rlen_pos f V) as LP. pose proof (rlen_vals f V) as LV. unfold rc_len in *.
  assert (NT : forall i, (0 <= i < zlen (rc_times f))%Z -> nth_error (rc_times f) (Z.to_nat i) = Some (nthq (rc_times f) i)).
  { intros i Hi. unfold nthq. apply nth_error_nth'. unfold zlen in *. lia. }
  assert (DOM : forall t, a <= t -> t <= b -> rin_dom f t). { intros t H1 H2. destruct Da as [D1 _], Db as [_ D2]. split; [eapply ext_le_trans; [exact D1|exact H1]|eapply ext_le_trans; [|exact D2]; exact H2]. }
  unfold is_positive_during. rewrite ES, EE. cbn [bind].
  rewrite (anyM_ok _ (fun rank => qltb eps (nthq (rc_values f) (Z.max 0 rank)))).
  2:{ intros r R. apply in_zrange in R. rewrite (rget_v f V) by (unfold rc_len, zlen in *; lia). reflexivity. }
  eexists. split; [reflexivity|]. rewrite existsb_exists. split.
  - intros [r [R P]]. apply in_zrange in R. apply qltb_true in P.
    destruct (Z.eq_dec r sr) as [->|N].
    + exists a. eexists. split; [qlra|]. split; [exact L|]. split; [|exact P]. rewrite (reval_at f V a Da). f_equal. apply at_ptr; [exact V|]. apply lrank_ptr; [exact V|]. split; [exact S0|]. split; assumption.
    + assert (R0 : (0 <= r < zlen (rc_times f))%Z) by (unfold zlen in *; lia). replace (Z.max 0 r) with r in P by lia.
      assert (A : a < nthq (rc_times f) r). { assert (X : a < nthq (rc_times f) (sr + 1)) by (apply S2, NT; unfold zlen in *; lia). pose proof (rt_le f V (sr + 1) r ltac:(lia) ltac:(unfold rc_len; lia)). qlra. }
      assert (B : nthq (rc_times f) r < b). { assert (X : nthq (rc_times f) er < b) by (apply E1; [lia|apply NT; unfold zlen in *; lia]). pose proof (rt_le f V r er ltac:(lia) ltac:(unfold rc_len, zlen in *; lia)). qlra. }
      exists (nthq (rc_times f) r), (nthq (rc_values f) r). split; [qlra|]. split; [exact B|]. split; [|exact P].
      rewrite (reval_at f V) by (apply DOM; qlra). f_equal. apply at_time; [exact V|exact R0].
  - intros [t [y [A [B [EV P]]]]]. destruct (elem_lrank_ok (rc_times f) t VN NS) as [r [ER [R0 [R1 R2]]]].
    rewrite (reval_at f V t (DOM t A ltac:(qlra))) in EV. apply ok_inj in EV. subst y.
    rewrite (at_ptr f V t (Z.max 0 r)) in P by (apply lrank_ptr; [exact V|split; [exact R0|split; assumption]]).
    exists r. split; [|apply qltb_true; exact P]. apply in_zrange. split.
    + destruct (Z_lt_le_dec r sr) as [C|C]; [exfalso|exact C]. specialize (R2 _ (NT (r + 1)%Z ltac:(unfold zlen in *; lia))).
      specialize (S1 _ ltac:(lia) (NT sr ltac:(unfold zlen in *; lia))). pose proof (rt_le f V (r + 1) sr ltac:(lia) ltac:(unfold rc_len, zlen in *; lia)). qlra.
    + destruct (Z_lt_le_dec er r) as [C|C]; [exfalso|lia]. specialize (E2 _ (NT (er + 1)%Z ltac:(unfold zlen in *; lia))).
      specialize (R1 _ ltac:(lia) (NT r ltac:(unfold zlen in *; lia))). pose proof (rt_le f V (er + 1) r ltac:(lia) ltac:(unfold rc_len, zlen in *; lia)). qlra.
Qed.
Print Assumptions C56_is_positive_during.

(** The interval is half-open and the tolerance strict: the rate 1 on [1, 2)
    is seen by [0, 3/2) and by [1, 2) but not by [0, 1) or [2, 3); a rate of
    exactly eps is never seen. *)
Definition pulse (v : Qc) : RC := mkRC [0; qz 1; qz 2] [0; v; 0] (Fin 0) PInf.
Example C56_example :
  map (fun p => is_positive_during (pulse 1) (qr (fst p) 2) (qr (snd p) 2)) [(0, 3); (2, 4); (0, 2); (4, 6)]%Z = [Ok true; Ok true; Ok false; Ok false] /\
  is_positive_during (pulse eps) 0 (qz 3) = Ok false.
Proof. vm_compute. split; reflexivity. Qed.
Example C56_example_valid : rvalid (pulse 1) /\ rin_dom (pulse 1) 0 /\ rin_dom (pulse 1) (qz 3).
Proof.
  split; [|split; split; (exact Logic.I || (vm_compute; discriminate))]. constructor; [reflexivity|discriminate| |].
  - repeat constructor.
  - intros t [<-|[<-|[<-|[]]]]; (split; [vm_compute; discriminate|exact Logic.I]).
Qed.

(** ** C68.  [earliest v t]: t is the earliest arrival at [v] over all walks
    through [relevant] that leave [source] at [phi]. *)
Definition earliest (g : graph) (phi : Qc) (source : nat) (relevant : list nat) (c : nat -> Qc -> Qc) (v : nat) (t : Qc) : Prop :=
  arrives g phi source relevant c v t /\ forall s, arrives g phi source relevant c v s -> t <= s.
Lemma arrives_through g phi e relevant c : In e (g_edges g) -> In (e_to g e) relevant -> forall v s,
  arrives g (phi + c e phi) (e_to g e) relevant c v s -> arrives g phi (e_from g e) relevant c v s.
Proof. intros I R v s A. induction A as [|e' t A IH I' R']; [apply arr_step; [constructor|exact I|exact R]|apply arr_step; assumption]. Qed.
Lemma fifo_later g phi phi' costs c : phi <= phi' -> fifo_costs g phi costs c -> fifo_costs g phi' costs c.
Proof.
  intros L F e I. destruct (F e I) as [f [N [A B]]]. exists f. split; [exact N|]. split; [intros t T; apply A; qlra|]. intros s t S ST. apply B; qlra.
Qed.
Lemma arrives_after g phi source com costs c v t : fifo_costs g phi costs c -> arrives g phi source com c v t -> phi <= t.
Proof. intros F A. induction A as [|e' t A IH I' R']; [qlra|]. destruct (F e' I') as [f [_ [B _]]]. destruct (B t IH) as [_ X]. qlra. Qed.
(** No edge is tight within eps without being exactly tight. *)
Definition no_near_ties (g : graph) (r : ddresult) : Prop := forall e cc tv tw,
  dget (dd_cost r) e = Some cc -> dget (dd_arrival r) (e_from g e) = Some tv -> dget (dd_arrival r) (e_to g e) = Some tw -> tv + cc <= tw + eps -> tv + cc = tw.
Theorem C68_edge_delay : forall g phi i e sink com costs c,
  consistent g -> nth_error (g_edges g) i = Some e -> In sink (node_ids g) -> e_from g e <> sink ->
  fifo_costs g phi (map pl_eval costs) c -> In (e_to g e) com ->
  (exists s, arrives g (phi + c e phi) (e_to g e) com c sink s) ->
  exists d t_best t_using r, get_pred_edge_delay phi i g sink com costs = Ok d /\ 0 <= d /\
    earliest g phi (e_from g e) com c sink t_best /\
    earliest g (phi + c e phi) (e_to g e) com c sink t_using /\ t_best <= t_using /\
    dynamic_dijkstra g phi (e_from g e) sink com (map pl_eval costs) = Ok r /\
    (tight g r e /\ tight_path g r sink (e_to g e) -> d = 0) /\
    (~ (tight g r e /\ tight_path g r sink (e_to g e)) -> d = t_using - t_best) /\
    (no_near_ties g r -> d = t_using - t_best).
Proof.
  intros g phi i e sink com costs c CS NE IS NS F IC [s AS].
  assert (IE : In e (g_edges g)) by (eapply nth_error_In; exact NE). destruct (cs_ends g CS e IE) as [I1 I2].
  assert (P : phi <= phi + c e phi). { destruct (F e IE) as [f [_ [A _]]]. destruct (A phi ltac:(qlra)) as [_ X]. qlra. }
  pose proof (fifo_later _ _ _ _ _ P F) as F2.
  destruct (dynamic_dijkstra_spec g phi (e_from g e) sink com (map pl_eval costs) c CS I1 F) as (r & ER & G1).
  destruct (dynamic_dijkstra_spec g (phi + c e phi) (e_to g e) sink com (map pl_eval costs) c CS I2 F2) as (r2 & ER2 & G2).
  assert (A1 : arrives g phi (e_from g e) com c sink s) by (apply arrives_through; assumption).
  assert (T1 : exists t1, dget (dd_arrival r) sink = Some t1). { destruct (dget (dd_arrival r) sink) as [t|] eqn:X; [exists t; reflexivity|]. destruct (dg_early _ _ _ _ _ _ _ G1 sink s A1 X) as (ts & Y & _). congruence. }
  assert (T2 : exists t2, dget (dd_arrival r2) sink = Some t2). { destruct (dget (dd_arrival r2) sink) as [t|] eqn:X; [exists t; reflexivity|]. destruct (dg_early _ _ _ _ _ _ _ G2 sink s AS X) as (ts & Y & _). congruence. }
  destruct T1 as [t1 T1], T2 as [t2 T2].
  pose proof (dg_arr _ _ _ _ _ _ _ G1 _ _ T1) as Q1. pose proof (dg_arr _ _ _ _ _ _ _ G2 _ _ T2) as Q2.
  assert (LE : t1 <= t2). { apply Q1. apply arrives_through; [exact IE|exact IC|apply Q2]. }
  destruct (active_edges_spec g phi (e_from g e) sink com c CS r G1) as [l [EL [_ [_ ML]]]]; try assumption; [congruence|].
  assert (FC : exists f, fetch (map pl_eval costs) i = Ok f /\ f phi = Ok (c e phi)).
  { destruct (F e IE) as [f [N [A _]]]. exists f. rewrite (cs_ids _ CS i e NE) in N. unfold fetch. change costfn with (Qc -> res Qc) in N. rewrite N. split; [reflexivity|apply A; qlra]. }
  destruct FC as [f [FC1 FC2]].
  unfold get_pred_edge_delay. unfold fetch at 1. rewrite NE. cbn [bind]. rewrite ER. cbn [bind]. rewrite EL. cbn [bind].
  assert (EX : no_near_ties g r -> tight g r e /\ tight_path g r sink (e_to g e) -> t2 = t1).
  { intros NT [TE TP]. assert (K : forall w, tight_path g r sink w -> forall tw, dget (dd_arrival r) w = Some tw -> arrives g (phi + c e phi) (e_to g e) com c w tw -> arrives g (phi + c e phi) (e_to g e) com c sink t1).
    { intros w W. induction W as [|e' I' T' W' IH]; intros tw D A; [congruence|].
      destruct T' as (cc & tv & tw' & X1 & X2 & X3 & X4). pose proof (NT _ _ _ _ X1 X2 X3 X4) as X5. apply (IH tw' X3).
      destruct (dg_R _ _ _ _ _ _ _ G1 e' cc X1) as (Y1 & Y2 & tt & Y3 & Y4). assert (tw = tv) by congruence. subst tv. assert (tt = tw) by congruence. subst tt.
      rewrite <- X5, Y4. apply arr_step; assumption. }
    destruct TE as (cc & tv & tw & X1 & X2 & X3 & X4). pose proof (NT _ _ _ _ X1 X2 X3 X4) as X5. destruct (dg_R _ _ _ _ _ _ _ G1 e cc X1) as (Y1 & Y2 & tt & Y3 & Y4).
    assert (tt = tv) by congruence. subst tt. destruct (dg_arr _ _ _ _ _ _ _ G1 _ _ X2) as [_ Z1]. specialize (Z1 phi ltac:(constructor)).
    assert (Z0 : phi <= tv). { destruct (dg_arr _ _ _ _ _ _ _ G1 _ _ X2) as [A _]. exact (arrives_after _ _ _ _ _ _ _ _ F A). }
    assert (tv = phi) by qlra. subst tv. subst tw. subst cc.
    assert (t2 <= t1). { apply Q2. apply (K _ TP (phi + c e phi)); [exact X3|constructor]. } qlra. }
  destruct (mem e l) eqn:M.
  - apply memP in M. pose proof M as M'. apply ML in M'. destruct M' as (_ & _ & M1 & M2).
    exists 0, t1, t2, r. split; [reflexivity|]. split; [qlra|]. split; [exact Q1|]. split; [exact Q2|]. split; [exact LE|]. split; [first [exact ER|reflexivity]|]. split; [auto|]. split; [intro X; exfalso; apply X; split; assumption|].
    intro NT. rewrite (EX NT (conj M1 M2)). ring.
  - apply mem_false in M. rewrite FC1. cbn [bind]. rewrite FC2. cbn [bind]. rewrite ER2. cbn [bind]. unfold dfetch. rewrite T2, T1. cbn [bind].
    exists (t2 - t1), t1, t2, r. split; [reflexivity|]. split; [qlra|]. split; [exact Q1|]. split; [exact Q2|]. split; [exact LE|]. split; [first [exact ER|reflexivity]|]. split; [|split; reflexivity].
    intros [X1 X2]. exfalso. apply M, ML. auto.
Qed.
Print Assumptions C68_edge_delay.
(** An edge from whose head the sink cannot be reached has no delay: KeyError.
    An edge that leaves the sink has none either: AssertionError. *)
Theorem C68_dead_end : forall g phi i e sink com costs c,
  consistent g -> nth_error (g_edges g) i = Some e -> In sink (node_ids g) -> e_from g e <> sink ->
  fifo_costs g phi (map pl_eval costs) c ->
  (exists s, arrives g phi (e_from g e) com c sink s) -> (forall s, ~ arrives g (phi + c e phi) (e_to g e) com c sink s) ->
  get_pred_edge_delay phi i g sink com costs = Err KeyError.
Proof.
  intros g phi i e sink com costs c CS NE IS NS F [s A1] NA.
  assert (IE : In e (g_edges g)) by (eapply nth_error_In; exact NE). destruct (cs_ends g CS e IE) as [I1 I2].
  assert (P : phi <= phi + c e phi). { destruct (F e IE) as [f [_ [A _]]]. destruct (A phi ltac:(qlra)) as [_ X]. qlra. }
  pose proof (fifo_later _ _ _ _ _ P F) as F2.
  destruct (dynamic_dijkstra_spec g phi (e_from g e) sink com (map pl_eval costs) c CS I1 F) as (r & ER & G1).
  destruct (dynamic_dijkstra_spec g (phi + c e phi) (e_to g e) sink com (map pl_eval costs) c CS I2 F2) as (r2 & ER2 & G2).
  assert (T1 : exists t1, dget (dd_arrival r) sink = Some t1). { destruct (dget (dd_arrival r) sink) as [t|] eqn:X; [exists t; reflexivity|]. destruct (dg_early _ _ _ _ _ _ _ G1 sink s A1 X) as (ts & Y & _). congruence. }
  assert (T2 : dget (dd_arrival r2) sink = None). { destruct (dget (dd_arrival r2) sink) as [t|] eqn:X; [|reflexivity]. exfalso. apply (NA t), (dg_arr _ _ _ _ _ _ _ G2 _ _ X). }
  destruct T1 as [t1 T1].
  destruct (active_edges_spec g phi (e_from g e) sink com c CS r G1) as [l [EL [_ [_ ML]]]]; try assumption; [congruence|].
  assert (FC : exists f, fetch (map pl_eval costs) i = Ok f /\ f phi = Ok (c e phi)).
  { destruct (F e IE) as [f [N [A _]]]. exists f. rewrite (cs_ids _ CS i e NE) in N. unfold fetch. change costfn with (Qc -> res Qc) in N. rewrite N. split; [reflexivity|apply A; qlra]. }
  destruct FC as [f [FC1 FC2]].
  unfold get_pred_edge_delay. unfold fetch at 1. rewrite NE. cbn [bind]. rewrite ER. cbn [bind]. rewrite EL. cbn [bind].
  destruct (mem e l) eqn:M.
  - exfalso. apply memP in M. apply ML in M. destruct M as (_ & _ & _ & W).
    assert (K : forall w, tight_path g r sink w -> forall tw, arrives g (phi + c e phi) (e_to g e) com c w tw -> exists ts, arrives g (phi + c e phi) (e_to g e) com c sink ts).
    { clear -G1. intros w W. induction W as [|e' I' (cc & tv & tw & X1 & _) W' IH]; intros t A; [exists t; exact A|]. destruct (dg_R _ _ _ _ _ _ _ G1 e' cc X1) as (Y1 & Y2 & _).
      apply (IH (t + c e' t)). apply arr_step; assumption. }
    destruct (K _ W (phi + c e phi) ltac:(constructor)) as [ts X]. exact (NA ts X).
  - rewrite FC1. cbn [bind]. rewrite FC2. cbn [bind]. rewrite ER2. cbn [bind]. unfold dfetch. rewrite T2. reflexivity.
Qed.
Print Assumptions C68_dead_end.
Theorem C68_from_sink : forall g phi i e com costs, consistent g -> nth_error (g_edges g) i = Some e ->
  get_pred_edge_delay phi i g (e_from g e) com costs = Err AssertionError.
Proof.
  intros g phi i e com costs CS NE. destruct (cs_ends g CS e (nth_error_In _ _ NE)) as [I1 _].
  destruct (PropDijkstra.C42_source_is_sink g phi (e_from g e) com (map pl_eval costs) CS I1) as [r [E1 E2]].
  unfold get_pred_edge_delay, fetch. rewrite NE. cbn [bind]. rewrite E1. cbn [bind]. rewrite E2. reflexivity.
Qed.
Print Assumptions C68_from_sink.

(** ** C69 *)
(** Flow of commodity [comm] enters edge number [e] in the k-th measurement
    interval (by C56: its inflow rate exceeds eps somewhere in the interval). *)
Definition used (inflow : list FRC) (comm : nat) (pts : list (Qc * list PL)) (k e : nat) : Prop :=
  exists a pa b pb col f, nth_error pts k = Some (a, pa) /\ nth_error pts (S k) = Some (b, pb) /\
    nth_error inflow e = Some col /\ dget (c_fns col) comm = Some f /\ is_positive_during f a b = Ok true.
(** [d] is the predicted delay of edge number [e] at the k-th time. *)
Definition delay_at (delay : Qc -> nat -> list PL -> res Qc) (nw : network) (pts : list (Qc * list PL)) (k e : nat) (d : Qc) : Prop :=
  exists t p costs, nth_error pts k = Some (t, p) /\ costs_from_preds nw p t = Ok costs /\ delay t e costs = Ok d.
(** [w] points to the k-th interval, to an edge used there, and to a time at
    which the delay of that edge is [d]. *)
Definition witnesses (delay : Qc -> nat -> list PL -> res Qc) (nw : network) (inflow : list FRC) (comm : nat) (pts : list (Qc * list PL)) (w : witness) (d : Qc) : Prop :=
  exists k pa pb, nth_error pts k = Some (wi_from w, pa) /\ nth_error pts (S k) = Some (wi_to w, pb) /\ used inflow comm pts k (wi_edge w) /\
    delay_at delay nw pts (if wi_at_end w then S k else k) (wi_edge w) d.

Section DelayLoop.
Variables (delay : Qc -> nat -> list PL -> res Qc) (nw : network) (inflow : list FRC) (comm : nat).
Definition good_delays (ds : list (nat * Qc)) (a : Qc) (costs : list PL) : Prop := forall e d, dget ds e = Some d -> delay a e costs = Ok d.
Lemma good_nil a costs : good_delays [] a costs.
Proof. intros e d X. discriminate X. Qed.
Lemma good_dset ds a costs e d : good_delays ds a costs -> delay a e costs = Ok d -> good_delays (dset ds e d) a costs.
Proof. intros G E e' d' H. rewrite dget_dset in H. destruct (Nat.eqb_spec e e') as [<-|]; [injection H as <-; exact E|apply G, H]. Qed.
Definition occurs (a b : Qc) (ca cb : list PL) (l : list (nat * FRC)) (w : witness) (d : Qc) : Prop :=
  wi_from w = a /\ wi_to w = b /\ exists col f, In (wi_edge w, col) l /\ dget (c_fns col) comm = Some f /\ is_positive_during f a b = Ok true /\
    delay (if wi_at_end w then b else a) (wi_edge w) (if wi_at_end w then cb else ca) = Ok d.
Lemma occurs_incl a b ca cb l l' w d : (forall x, In x l -> In x l') -> occurs a b ca cb l w d -> occurs a b ca cb l' w d.
Proof. intros S (W1 & W2 & col & f & H & R). split; [exact W1|]. split; [exact W2|]. exists col, f. split; [apply S, H|exact R]. Qed.
Lemma delay_edge_ok a b ca cb mx wit ds de e col mx' wit' ds' de' :
  good_delays ds a ca -> good_delays de b cb -> delay_edge delay comm a b ca cb (mx, wit, ds, de) (e, col) = Ok (mx', wit', ds', de') ->
  good_delays ds' a ca /\ good_delays de' b cb /\ mx <= mx' /\
  (forall f, dget (c_fns col) comm = Some f -> is_positive_during f a b = Ok true -> exists d0 d1, delay a e ca = Ok d0 /\ delay b e cb = Ok d1 /\ d0 <= mx' /\ d1 <= mx') /\
  ((mx' = mx /\ wit' = wit) \/ (mx < mx' /\ exists w, wit' = Some w /\ occurs a b ca cb [(e, col)] w mx')).
Proof.
  intros G1 G2 H. cbn [delay_edge] in H. destruct (dget (c_fns col) comm) as [f|] eqn:D.
  2:{ apply ok_inj in H. injection H as <- <- <- <-. split; [exact G1|]. split; [exact G2|]. split; [qlra|]. split; [intros f X; discriminate X|left; auto]. }
  destruct (is_positive_during f a b) as [[|]|x] eqn:POS; cbn [bind negb] in H; [| |discriminate H].
  2:{ apply ok_inj in H. injection H as <- <- <- <-. split; [exact G1|]. split; [exact G2|]. split; [qlra|]. split; [intros f' X Y; injection X as <-; rewrite POS in Y; discriminate Y|left; auto]. }
  set (m := if dhas ds e then Ok ds else d <- delay a e ca ;; Ok (dset ds e d)) in H.
  assert (M : forall ds1, m = Ok ds1 -> good_delays ds1 a ca /\ exists d0, dget ds1 e = Some d0 /\ delay a e ca = Ok d0).
  { intros ds1 E1. unfold m, dhas in E1. destruct (dget ds e) as [d0|] eqn:DE.
    - apply ok_inj in E1. subst ds1. split; [exact G1|]. exists d0. split; [exact DE|apply G1, DE].
    - destruct (delay a e ca) as [d0|x] eqn:DL; cbn [bind] in E1; [|discriminate E1]. apply ok_inj in E1. subst ds1. split; [apply good_dset; assumption|]. exists d0. rewrite dget_dset, Nat.eqb_refl. auto. }
  destruct m as [ds1|x]; cbn [bind] in H; [|discriminate H]. destruct (M ds1 eq_refl) as [GD [d0 [DF DL]]]. clear M.
  unfold dfetch in H. rewrite DF in H. cbn [bind] in H.
  assert (OCC : forall w d, wi_from w = a -> wi_to w = b -> wi_edge w = e -> delay (if wi_at_end w then b else a) e (if wi_at_end w then cb else ca) = Ok d -> occurs a b ca cb [(e, col)] w d).
  { intros w d W1 W2 W3 W4. split; [exact W1|]. split; [exact W2|]. exists col, f. rewrite W3. split; [left; reflexivity|auto]. }
  destruct (delay b e cb) as [d1|x] eqn:DB; [|destruct (qltb mx d0); discriminate H].
  assert (FIN : forall f', Some f = Some f' -> forall m', d0 <= m' -> d1 <= m' -> exists d2 d3, delay a e ca = Ok d2 /\ Ok d1 = Ok d3 /\ d2 <= m' /\ d3 <= m').
  { intros f' _ m' X Y. exists d0, d1. auto. }
  assert (GE : good_delays (dset de e d1) b cb) by (apply good_dset; assumption).
  destruct (qltbP mx d0) as [C0|C0]; cbn [bind] in H.
  - destruct (qltbP d0 d1) as [C1|C1]; apply ok_inj in H; injection H as <- <- <- <-; (split; [exact GD|]; split; [exact GE|]; split; [qlra|]; split; [intros f' X _; apply (FIN f' X); qlra|]; right; split; [qlra|]; eexists; split; [reflexivity|]; apply OCC; (reflexivity || assumption)).
  - destruct (qltbP mx d1) as [C1|C1]; apply ok_inj in H; injection H as <- <- <- <-; (split; [exact GD|]; split; [exact GE|]; split; [qlra|]; split; [intros f' X _; apply (FIN f' X); qlra|]).
    + right; split; [qlra|]; eexists; split; [reflexivity|]; apply OCC; (reflexivity || assumption).
    + left. auto.
Qed.
Lemma delay_fold_ok a b ca cb : forall l mx wit ds de mx' wit' ds' de',
  good_delays ds a ca -> good_delays de b cb -> foldM (delay_edge delay comm a b ca cb) l (mx, wit, ds, de) = Ok (mx', wit', ds', de') ->
  good_delays ds' a ca /\ good_delays de' b cb /\ mx <= mx' /\
  (forall e col f, In (e, col) l -> dget (c_fns col) comm = Some f -> is_positive_during f a b = Ok true -> exists d0 d1, delay a e ca = Ok d0 /\ delay b e cb = Ok d1 /\ d0 <= mx' /\ d1 <= mx') /\
  ((mx' = mx /\ wit' = wit) \/ (mx < mx' /\ exists w, wit' = Some w /\ occurs a b ca cb l w mx')).
Proof.
  induction l as [|[e col] l IH]; intros mx wit ds de mx' wit' ds' de' G1 G2 H.
  - cbn [foldM] in H. apply ok_inj in H. injection H as <- <- <- <-. split; [exact G1|]. split; [exact G2|]. split; [qlra|]. split; [intros e col f []|left; auto].
  - cbn [foldM] in H. destruct (delay_edge delay comm a b ca cb (mx, wit, ds, de) (e, col)) as [[[[mx1 wit1] ds1] de1]|x] eqn:E; cbn [bind] in H; [|discriminate H].
    destruct (delay_edge_ok _ _ _ _ _ _ _ _ _ _ _ _ _ _ G1 G2 E) as (A1 & A2 & A3 & A4 & A5). destruct (IH _ _ _ _ _ _ _ _ A1 A2 H) as (B1 & B2 & B3 & B4 & B5).
    split; [exact B1|]. split; [exact B2|]. split; [qlra|]. split.
    + intros e' col' f [X|X] D P; [injection X as <- <-; destruct (A4 f D P) as (d0 & d1 & Y1 & Y2 & Y3 & Y4); exists d0, d1; repeat (split; [assumption|]); split; [qlra|qlra]|apply (B4 e' col' f X D P)].
    + destruct B5 as [[-> ->]|[B5 [w [W O]]]].
      * destruct A5 as [A5|[A5 [w [W O]]]]; [left; exact A5|right; split; [exact A5|exists w; split; [exact W|]]]. eapply occurs_incl; [|exact O]. intros y [<-|[]]. left. reflexivity.
      * right. split; [qlra|]. exists w. split; [exact W|]. eapply occurs_incl; [|exact O]. intros y Y. right. exact Y.
Qed.
Lemma delay_loop_ok : forall rest a pa ca ds mx wit mx' wit',
  costs_from_preds nw pa a = Ok ca -> good_delays ds a ca -> delay_loop delay nw comm inflow a ca ds mx wit rest = Ok (mx', wit') ->
  mx <= mx' /\
  (forall k e, used inflow comm ((a, pa) :: rest) k e -> exists d0 d1, delay_at delay nw ((a, pa) :: rest) k e d0 /\ delay_at delay nw ((a, pa) :: rest) (S k) e d1 /\ d0 <= mx' /\ d1 <= mx') /\
  ((mx' = mx /\ wit' = wit) \/ (mx < mx' /\ exists w, wit' = Some w /\ witnesses delay nw inflow comm ((a, pa) :: rest) w mx')).
Proof.
  induction rest as [|[b pb] rest IH]; intros a pa ca ds mx wit mx' wit' CA GD H.
  - cbn [delay_loop] in H. apply ok_inj in H. injection H as <- <-. split; [qlra|]. split; [|left; auto].
    intros k e (a1 & p1 & b1 & q1 & col & f & _ & N & _). destruct k; discriminate N.
  - cbn [delay_loop] in H. destruct (costs_from_preds nw pb b) as [cb|x] eqn:CB; cbn [bind] in H; [|discriminate H].
    destruct (foldM _ _ _) as [[[[mx1 wit1] ds1] de1]|x] eqn:E; cbn [bind] in H; [|discriminate H].
    destruct (delay_fold_ok a b ca cb _ _ _ _ _ _ _ _ _ GD (good_nil b cb) E) as (A1 & A2 & A3 & A4 & A5).
    destruct (IH b pb cb de1 mx1 wit1 mx' wit' CB A2 H) as (B3 & B4 & B5). split; [qlra|]. split.
    + intros k e U. destruct k as [|k].
      * destruct U as (a1 & p1 & b1 & q1 & col & f & N1 & N2 & N3 & N4 & N5). cbn [nth_error] in N1, N2. injection N1 as <- <-. injection N2 as <- <-.
        destruct (A4 e col f) as (d0 & d1 & Y1 & Y2 & Y3 & Y4); [apply enum_nth, N3|exact N4|exact N5|]. exists d0, d1. split; [exists a, pa, ca; auto|]. split; [exists b, pb, cb; auto|]. split; qlra.
      * destruct (B4 k e) as (d0 & d1 & (t0 & p0 & c0 & Y1) & (t2 & p2 & c2 & Y2) & Y3); [exact U|]. exists d0, d1. split; [exists t0, p0, c0; exact Y1|]. split; [exists t2, p2, c2; exact Y2|exact Y3].
    + destruct B5 as [[-> ->]|[B5 [w [W (k & p0 & p1 & N1 & N2 & (a1 & q1 & b1 & q2 & col & f & U) & (t & p & c & O))]]]].
      * destruct A5 as [A5|[A5 [w [W (W1 & W2 & col & f & X1 & X2 & X3 & X4)]]]]; [left; exact A5|right; split; [exact A5|exists w; split; [exact W|]]].
        exists 0%nat, pa, pb. cbn [nth_error]. rewrite W1, W2. split; [reflexivity|]. split; [reflexivity|]. split.
        -- exists a, pa, b, pb, col, f. cbn [nth_error]. split; [reflexivity|]. split; [reflexivity|]. split; [apply enum_nth, X1|auto].
        -- destruct (wi_at_end w); [exists b, pb, cb|exists a, pa, ca]; cbn [nth_error]; auto.
      * right. split; [qlra|]. exists w. split; [exact W|]. exists (Datatypes.S k), p0, p1. split; [exact N1|]. split; [exact N2|]. split; [exists a1, q1, b1, q2, col, f; exact U|].
        destruct (wi_at_end w); exists t, p, c; exact O.
Qed.
End DelayLoop.

(** The reported accuracy of one commodity: the maximum, over all measurement
    intervals and all edges the commodity enters there, of the predicted delays
    at both ends of the interval, and an interval, edge and end that attain it. *)
Theorem C69_max_delay : forall flow nw batch comm future reroute_interval pred_interval horizon mx wit,
  max_predicted_delay flow nw batch comm future reroute_interval pred_interval horizon = Ok (mx, wit) ->
  exists c com times preds, nth_error (w_com nw) comm = Some c /\ important (w_graph nw) c = Ok com /\
    measurement_times horizon future pred_interval reroute_interval = Ok times /\ batch times = Ok preds /\ (length times <= length preds)%nat /\
    let pts := combine times preds in
    let delay := fun t e costs => get_pred_edge_delay t e (w_graph nw) (k_sink c) com costs in
    0 <= mx /\
    (forall k e, used (f_in flow) comm pts k e -> exists d0 d1, delay_at delay nw pts k e d0 /\ delay_at delay nw pts (S k) e d1 /\ d0 <= mx /\ d1 <= mx) /\
    match wit with
    | None => mx = 0
    | Some w => 0 < mx /\ witnesses delay nw (f_in flow) comm pts w mx
    end.
Proof.
  intros flow nw batch comm future ri pi horizon mx wit H. unfold max_predicted_delay in H.
  unfold fetch at 1 in H. destruct (nth_error (w_com nw) comm) as [c|] eqn:C; cbn [bind] in H; [|discriminate H].
  destruct (important (w_graph nw) c) as [com|] eqn:I; cbn [bind] in H; [|discriminate H].
  destruct (measurement_times horizon future pi ri) as [times|] eqn:T; cbn [bind] in H; [|discriminate H].
  destruct (batch times) as [preds|] eqn:B; cbn [bind] in H; [|discriminate H].
  destruct times as [|t0 times]; [change (fetch (@nil Qc) 0) with (@Err Qc IndexError) in H; discriminate H|]. change (fetch (t0 :: times) 0) with (Ok t0) in H. cbn [bind] in H.
  destruct preds as [|p0 preds]; [change (fetch (@nil (list PL)) 0) with (@Err (list PL) IndexError) in H; discriminate H|]. change (fetch (p0 :: preds) 0) with (Ok p0) in H. cbn [bind] in H.
  destruct (costs_from_preds nw p0 t0) as [c0|] eqn:C0; cbn [bind] in H; [|discriminate H].
  destruct (mapM _ _) as [rest|] eqn:M in H; cbn [bind] in H; [|discriminate H].
  assert (R : rest = combine times preds /\ (length times <= length preds)%nat).
  { clear -M. cbn [length] in M. rewrite Nat.sub_succ, Nat.sub_0_r in M.
    assert (K : forall m (ts : list Qc) (ps : list (list PL)) rs, (length ts = m)%nat -> mapM (fun k => t <- fetch ts k ;; p <- fetch ps k ;; Ok (t, p)) (seq 0 m) = Ok rs -> rs = combine ts ps /\ (length ts <= length ps)%nat).
    { induction m as [|m IH]; intros ts ps rs L E.
      - destruct ts; [|discriminate L]. cbn in E. apply ok_inj in E. subst rs. cbn. split; [reflexivity|lia].
      - destruct ts as [|t ts]; [discriminate L|]. injection L as L. cbn [seq mapM] in E. change (fetch (t :: ts) 0) with (Ok t) in E. cbn [bind] in E.
        destruct ps as [|p ps]; [change (fetch (@nil (list PL)) 0) with (@Err (list PL) IndexError) in E; discriminate E|]. change (fetch (p :: ps) 0) with (Ok p) in E. cbn [bind] in E.
        rewrite <- seq_shift in E. destruct (mapM _ (map S (seq 0 m))) as [r|] eqn:E2 in E; cbn [bind] in E; [|discriminate E]. apply ok_inj in E. subst rs.
        assert (E3 : mapM (fun k => t0 <- fetch ts k ;; p0 <- fetch ps k ;; Ok (t0, p0)) (seq 0 m) = Ok r).
        { rewrite <- E2. clear. induction (seq 0 m) as [|x l IH]; [reflexivity|]. cbn [map mapM]. rewrite IH. reflexivity. }
        destruct (IH ts ps r L E3) as [-> L2]. cbn [combine length]. split; [reflexivity|lia]. }
    apply (K (length times) times preds rest eq_refl). rewrite <- M. rewrite <- seq_shift. clear. induction (seq 0 (length times)) as [|x l IH]; [reflexivity|]. cbn [map mapM]. rewrite IH. reflexivity. }
  destruct R as [-> L].
  destruct (delay_loop_ok _ _ _ _ _ _ p0 _ _ _ _ _ _ C0 (good_nil _ _ _) H) as (A1 & A2 & A3).
  exists c, com, (t0 :: times), (p0 :: preds). split; [reflexivity|]. split; [exact I|]. split; [reflexivity|]. split; [exact B|]. split; [cbn [length]; lia|].
  cbn [combine]. cbv zeta. split; [exact A1|]. split; [exact A2|]. destruct A3 as [[-> ->]|[A3 [w [-> W]]]]; [reflexivity|split; assumption].
Qed.
Print Assumptions C69_max_delay.

(** Non-vacuity: two parallel edges with travel times 1 and 3; all flow takes
    the slow one, so with zero predictions its delay is 2, first found at the
    start of the first interval; the fast edge has delay 0. *)
Definition ev_nw : network := mkNw (w_graph (nw_add_edge (nw_add_edge nw_empty 1 2 1 1) 1 2 (qz 3) 1)) [1; 1] [1; qz 3]
  [mkCom [(1%nat, mkRC [0] [1] (Fin 0) PInf)] 2 0].
Definition ev_calls : list call := [CExtend [(1%nat, [(0%nat, 1)])] (qz 2)].
Definition ev_check : bool :=
  match flow_run true (mkNet (w_cap ev_nw) (w_tau ev_nw)) ev_calls with
  | Ok st =>
      match max_predicted_delay st ev_nw (mapM (fun t => zero_predict t st)) 0 1 1 1 (qz 3),
            (ps <- zero_predict 0 st ;; cs <- costs_from_preds ev_nw ps 0 ;; get_pred_edge_delay 0 0 (w_graph ev_nw) 2 [1; 2]%nat cs) with
      | Ok (mx, Some w), Ok d => (qeqb mx (qz 2) && qeqb (wi_from w) 0 && qeqb (wi_to w) (qr 1 2) && negb (wi_at_end w) && Nat.eqb (wi_edge w) 1 && qeqb d 0)%bool
      | _, _ => false
      end
  | Err _ => false
  end.
Example C69_example : ev_check = true.
Proof. vm_compute. reflexivity. Qed.
