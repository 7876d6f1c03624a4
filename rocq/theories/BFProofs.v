(** * Proofs: bellman_ford (C43) *)
From Verif Require Import Base Spec Arrays ArraysProofs PL PLProofs PLEval PLArith PLOps PLOps2 PLMono PL2 PLCmp PLComp RC FRC FRCProofs PQ PQProofs PQSpec DynFlow DQProofs Graph GraphSpec GraphProofs Dijkstra DijkstraSpec DijkstraProofs BellmanFord BFSpec PredictorsProofs.

(** ** The edge arrival functions *)
Lemma values_map f : valid f -> pl_values f = map (pl_at f) (pl_times f).
Proof.
  intro V. apply nth_ext with (d := 0) (d' := pl_at f 0); [rewrite map_length; apply (v_len f V)|].
  intros n Hn. rewrite map_nth.
  assert (L : (0 <= Z.of_nat n < pl_len f)%Z) by (rewrite (v_len f V) in Hn; unfold pl_len, zlen; lia).
  pose proof (at_tm f (Z.of_nat n) V L) as A. unfold tm, vl, nthq in A. rewrite Nat2Z.id in A. symmetry. exact A.
Qed.
Lemma SS_map {A B} (R : A -> A -> Prop) (R' : B -> B -> Prop) (h : A -> B) l :
  StronglySorted R l -> (forall x y, In x l -> In y l -> R x y -> R' (h x) (h y)) -> StronglySorted R' (map h l).
Proof.
  induction 1 as [|a l S IH F]; intro H; cbn [map]; constructor.
  - apply IH. intros x y X Y. apply H; right; auto.
  - apply Forall_forall. intros y Y. apply in_map_iff in Y. destruct Y as (x & <- & X). rewrite Forall_forall in F.
    apply H; [left; auto|right; auto|apply F; auto].
Qed.
Lemma fifo_noop : forall (h : Qc -> Qc) ts prev, (forall t, In t ts -> t <= h t) ->
  StronglySorted Qcle (prev :: map h ts) -> fifo_values prev (combine ts (map h ts)) = Ok (map h ts).
Proof.
  intros h ts. induction ts as [|t r IH]; intros prev HT S; cbn [map combine fifo_values]; [reflexivity|].
  inversion S as [|? ? S1 F1]; subst. inversion F1 as [|? ? P _]; subst. pose proof eps_pos.
  assert (Q : qleb prev (h t + eps) = true) by (apply qleb_true; qlra). rewrite Q. cbn [assertb bind].
  assert (M : qmax (qmax prev (h t)) t = h t).
  { specialize (HT t (or_introl eq_refl)). qmm; qlra. }
  rewrite M, IH; [reflexivity|intros x X; apply HT; right; exact X|exact S1].
Qed.
Lemma get_fifo_noop p : valid p -> (forall t, In t (pl_times p) -> t <= pl_at p t) ->
  nondecreasing (pl_values p) -> 1 <= pl_last p -> get_fifo_arrival_time p = Ok p.
Proof.
  intros V HT N L. unfold get_fifo_arrival_time. pose proof (values_map p V) as E.
  assert (X : match pl_values p with [] => Ok [] | v :: r => rs <- fifo_values v (combine (tl (pl_times p)) r) ;; Ok (v :: rs) end = Ok (pl_values p)).
  { unfold nondecreasing in N. rewrite E in N |- *. destruct (pl_times p) as [|t ts]; [reflexivity|]. cbn [map tl].
    rewrite fifo_noop; [reflexivity|intros x H; apply HT; right; exact H|exact N]. }
  rewrite X. cbn [bind]. rewrite (pl_init_ok p V). cbn [bind].
  destruct (qltbP (pl_last p) 1) as [Q|Q]; [exfalso; qlra|reflexivity].
Qed.
Lemma plus_slopes f g p : pl_plus f g = Ok p -> pl_first p = pl_first f + pl_first g /\ pl_last p = pl_last f + pl_last g.
Proof.
  unfold pl_plus. intro E. apply bind_ok in E. destruct E as (_ & _ & E). apply bind_ok in E. destruct E as (? & _ & E).
  apply bind_ok in E. destruct E as (? & _ & E). apply bind_ok in E. destruct E as (? & _ & E).
  apply pl_init_inv in E. destruct E as [-> _]. split; reflexivity.
Qed.
Lemma simplify_slopes f p : simplify f = Ok p -> pl_first p = pl_first f /\ pl_last p = pl_last f.
Proof.
  unfold simplify. intro E. apply bind_ok in E. destruct E as (? & _ & E). apply bind_ok in E. destruct E as (? & _ & E).
  apply bind_ok in E. destruct E as (? & _ & E). apply pl_init_inv in E. destruct E as [-> _]. split; reflexivity.
Qed.

(** [T] is the arrival time function of an edge with cost [c]. *)
Record arrival_of (phi : Qc) (horizon : ext) (c T : PL) : Prop := {
  ar_valid : valid T; ar_mono : mono T; ar_first : 0 < pl_first T;
  ar_dom : forall t x, pl_eval T t = Ok x -> phi <= t /\ ext_le (Fin t) horizon;
  ar_eval : forall t, phi <= t -> ext_le (Fin t) horizon -> exists y, pl_eval c t = Ok y /\ 0 <= y /\ pl_eval T t = Ok (t + y) }.

Lemma edge_arrival_ok phi horizon c T ev until tol : ext_lt (Fin phi) horizon -> good_cost phi horizon c ->
  edge_arrival (mkPL [phi] [phi] 1 1 (Fin phi) horizon) c = Ok (T, ev) -> exact until tol ev -> arrival_of phi horizon c T.
Proof.
  intros PH [Vc Lc Hc Sc Nc Fc F1 L1] E EX. set (id := mkPL [phi] [phi] 1 1 (Fin phi) horizon) in *.
  assert (Vid : valid id).
  { constructor; cbn [pl_values pl_times id]; auto; [discriminate|repeat constructor|].
    intros t [<-|[]]. split; cbn [pl_lo pl_hi id]; [apply ext_le_refl|apply ext_lt_le; exact PH]. }
  assert (DD : forall t, in_dom id t -> in_dom c t).
  { intros t [D1 D2]. cbn [pl_lo pl_hi id] in D1, D2. split; [eapply ext_le_trans; [exact Lc|exact D1]|eapply ext_le_trans; [exact D2|exact Hc]]. }
  assert (AId : forall t, pl_at id t = t).
  { intro t. destruct (qlebP t phi) as [Q|Q].
    - rewrite (at_left id t Vid) by exact Q. unfold vl, tm, nthq. cbn. ring.
    - rewrite (at_right id t Vid) by (unfold tm, pl_len, zlen, nthq; cbn; qlra). unfold vl, tm, nthq, pl_len, zlen. cbn. ring. }
  assert (Emax : ext_max (pl_lo id) (pl_lo c) = Fin phi).
  { apply ext_le_antisym; [apply ext_max_le; split; [apply ext_le_refl|exact Lc]|]. destruct (proj1 (ext_max_le (pl_lo id) (pl_lo c) (ext_max (pl_lo id) (pl_lo c)))) as [X _]; [apply ext_le_refl|exact X]. }
  assert (Emin : ext_min (pl_hi id) (pl_hi c) = horizon).
  { apply ext_le_antisym; [|apply ext_min_le; split; [apply ext_le_refl|exact Hc]]. destruct (proj1 (ext_min_le (pl_hi id) (pl_hi c) (ext_min (pl_hi id) (pl_hi c)))) as [X _]; [apply ext_le_refl|exact X]. }
  destruct (plus_ok id c Vid Vc) as (p & Ep & Vp & Lp & Hp & Dp & Ap & _); [rewrite Emax, Emin; exact PH|exact Sc|].
  rewrite Emax in Lp. rewrite Emin in Hp.
  destruct (plus_slopes id c p Ep) as [Sp1 Sp2]. cbn [pl_first pl_last id] in Sp1, Sp2.
  assert (DP : forall t, in_dom p t <-> phi <= t /\ ext_le (Fin t) horizon) by (intro t; unfold in_dom; rewrite Lp, Hp; reflexivity).
  assert (PV : forall t, in_dom p t -> pl_at p t = t + pl_at c t) by (intros t D; rewrite Ap, AId by exact D; reflexivity).
  assert (CV : forall t, in_dom p t -> pl_eval c t = Ok (pl_at c t)).
  { intros t D. apply eval_at; auto. apply Dp in D. tauto. }
  assert (NN : forall t, in_dom p t -> 0 <= pl_at c t).
  { intros t D. pose proof (CV t D). apply DP in D. apply (Nc t (pl_at c t)); tauto. }
  assert (FF : forall t u, in_dom p t -> in_dom p u -> t <= u -> t + pl_at c t <= u + pl_at c u).
  { intros t u D1 D2 L. pose proof (CV t D1). pose proof (CV u D2). apply DP in D1, D2. apply (Fc t u); tauto. }
  assert (G : get_fifo_arrival_time p = Ok p).
  { apply get_fifo_noop; auto.
    - intros t I. pose proof (v_dom p Vp t I) as D. rewrite (PV t D). specialize (NN t D). qlra.
    - rewrite (values_map p Vp). apply (SS_map Qcle); [apply times_sorted; exact Vp|].
      intros x y X Y L. pose proof (v_dom p Vp x X) as Dx. pose proof (v_dom p Vp y Y) as Dy. rewrite (PV x Dx), (PV y Dy). apply FF; auto.
    - rewrite Sp2. qlra. }
  unfold edge_arrival in E. fold id in E. rewrite Ep in E. cbn [bind] in E. rewrite G in E. cbn [bind] in E.
  apply bind_ok in E. destruct E as (r & Es & E). injection E as -> <-. destruct EX as [VT ET].
  destruct (simplify_slopes p T Es) as [S1 S2].
  assert (DT : forall t, in_dom T t -> in_dom p t).
  { intros t D. pose proof (eval_at T t VT D) as X. rewrite ET in X. apply (eval_dom p t _ X). }
  assert (TV : forall t, in_dom p t -> pl_eval T t = Ok (t + pl_at c t)).
  { intros t D. rewrite ET, (eval_at p t Vp D), (PV t D). reflexivity. }
  assert (TA : forall t, in_dom T t -> pl_at T t = t + pl_at c t).
  { intros t D. pose proof (TV t (DT t D)) as X. rewrite (eval_at T t VT D) in X. apply ok_inj in X. exact X. }
  constructor; auto.
  - split; [|split; [rewrite S1, Sp1; qlra|rewrite S2, Sp2; qlra]].
    rewrite (values_map T VT). apply (SS_map Qcle); [apply times_sorted; exact VT|].
    intros x y X Y L. pose proof (v_dom T VT x X) as Dx. pose proof (v_dom T VT y Y) as Dy. rewrite (TA x Dx), (TA y Dy). apply FF; auto.
  - rewrite S1, Sp1. qlra.
  - intros t x X. apply eval_dom in X. apply DP, DT, X.
  - intros t H1 H2. assert (D : in_dom p t) by (apply DP; auto). exists (pl_at c t). split; [apply CV; auto|]. split; [apply NN; auto|apply TV; auto].
Qed.

(** ** The search *)
Section Search.
Variables (g : graph) (costs arr : list PL) (interesting : list nat) (sink : nat) (phi : Qc) (horizon : ext) (until tol : Qc).
Hypothesis CG : consistent g.
Hypothesis T0 : 0 <= tol.
Hypothesis ARR : forall i T, nth_error arr i = Some T -> exists c, nth_error costs i = Some c /\ arrival_of phi horizon c T.

Notation walkto := (walk g costs interesting sink phi horizon).

(** [l] lies below [l'] up to [d]. *)
Definition below (d : Qc) (l l' : PL) : Prop := forall t y, pl_eval l' t = Ok y -> exists x, pl_eval l t = Ok x /\ x <= y + d.

(** Edge [e] has been taken into account. *)
Definition relaxed (labels : list (nat * PL)) (e : nat) : Prop :=
  exists T lv lw, nth_error arr (e_id g e) = Some T /\ dget labels (e_from g e) = Some lv /\ dget labels (e_to g e) = Some lw /\
    forall t x y, t <= until -> pl_eval T t = Ok x -> pl_eval lw x = Ok y -> exists z, pl_eval lv t = Ok z /\ z <= y + tol.
Definition okay (labels : list (nat * PL)) (q : @squeue nat) (e : nat) : Prop :=
  sq_has q (e_to g e) = true \/ relaxed labels e.

Record inv (labels : list (nat * PL)) (q : @squeue nat) (R : list nat) : Prop := {
  i_valid : forall v l, dget labels v = Some l -> valid l;
  i_sound : forall v l t y, dget labels v = Some l -> pl_eval l t = Ok y -> exists k, walkto v k t y;
  i_sink : exists l, dget labels sink = Some l /\ forall t, phi <= t -> ext_le (Fin t) horizon -> exists y, pl_eval l t = Ok y /\ y <= t;
  i_edges : forall e, In e (g_edges g) -> In (e_from g e) interesting -> dget labels (e_to g e) <> None ->
    In (e_to g e) R \/ okay labels q e;
  i_nd : sq_nd q }.

(** Changing one label to a smaller one and queueing its node. *)
Lemma update_okay labels q q' v l e : sq_has q' v = true -> (forall u, sq_has q u = true -> sq_has q' u = true) ->
  (forall lv, dget labels v = Some lv -> below 0 l lv) -> okay labels q e -> okay (dset labels v l) q' e.
Proof.
  intros H1 H2 H3 [H|(T & lv & lw & E1 & E2 & E3 & E4)]; [left; auto|].
  destruct (Nat.eq_dec v (e_to g e)) as [->|N]; [left; auto|]. right.
  destruct (Nat.eq_dec v (e_from g e)) as [->|N2].
  - exists T, l, lw. rewrite !dget_dset, Nat.eqb_refl. destruct (Nat.eqb_spec (e_from g e) (e_to g e)); [congruence|].
    repeat split; auto. intros t x y UT X Y. destruct (E4 t x y UT X Y) as (z & Z1 & Z2). destruct (H3 lv E2 t z Z1) as (z' & Z3 & Z4).
    exists z'. split; auto. qlra.
  - exists T, lv, lw. rewrite !dget_dset. destruct (Nat.eqb_spec v (e_from g e)), (Nat.eqb_spec v (e_to g e)); try congruence. auto.
Qed.
Lemma update_inv labels q q' v l R : inv labels q R -> sq_nd q' -> sq_has q' v = true -> (forall u, sq_has q u = true -> sq_has q' u = true) ->
  (forall lv, dget labels v = Some lv -> below 0 l lv) -> valid l ->
  (forall t y, pl_eval l t = Ok y -> exists k, walkto v k t y) -> inv (dset labels v l) q' R.
Proof.
  intros [V S K E N] N' H1 H2 H3 Vl Sl. constructor; auto.
  - intros u l'. rewrite dget_dset. destruct (Nat.eqb_spec v u) as [->|]; [intro X; injection X as <-; auto|apply V].
  - intros u l' t y. rewrite dget_dset. destruct (Nat.eqb_spec v u) as [->|]; [intro X; injection X as <-; auto|apply S].
  - destruct K as (l0 & K1 & K2). rewrite dget_dset. destruct (Nat.eqb_spec v sink) as [->|]; [|eauto].
    exists l. split; auto. intros t H4 H5. destruct (K2 t H4 H5) as (y & Y1 & Y2). destruct (H3 l0 K1 t y Y1) as (x & X1 & X2). exists x. split; auto. qlra.
  - intros e I1 I2 I3. destruct (Nat.eq_dec v (e_to g e)) as [->|NE]; [right; left; auto|].
    rewrite dget_dset in I3. destruct (Nat.eqb_spec v (e_to g e)); [congruence|]. destruct (E e I1 I2 I3) as [X|X]; auto.
    right. apply (update_okay labels q q'); auto.
Qed.

Lemma push_has dist q v q' : sq_nd q -> bf_push dist q v = Ok q' -> sq_nd q' /\ sq_has q' v = true /\ forall u, sq_has q u = true -> sq_has q' u = true.
Proof.
  intro N. unfold bf_push. destruct (sq_has q v) eqn:H; [intro E; injection E as <-; auto|].
  intro E. apply bind_ok in E. destruct E as (d & _ & E). unfold sq_push in E. rewrite H in E. injection E as <-.
  split; [apply nd_set; exact N|]. rewrite !kof_has, kof_set, eqb_rfl. split; [reflexivity|].
  intros u. rewrite !kof_has, kof_set. destruct (eqb v u); auto.
Qed.

(** What one relaxation computes. *)
Lemma relaxation_ok T c gw lo hi R r : arrival_of phi horizon c T -> valid gw ->
  match pl_lo gw with Fin b => min_t_above T b | _ => Err NotModelled end = Ok lo ->
  max_t_below_any T (pl_hi gw) = Ok hi -> restrict T (Fin lo) hi = Ok R -> exact until tol (EvCompose gw R r) ->
  (forall t y, pl_eval r t = Ok y -> exists x, pl_eval T t = Ok x /\ pl_eval gw x = Ok y) /\
  (forall t x y, pl_eval T t = Ok x -> pl_eval gw x = Ok y -> pl_eval r t = Ok y).
Proof.
  intros [VT MT FT DT ET] Vg Elo Ehi ER [Vr Er].
  assert (AS : ext_le (pl_lo T) (Fin lo) /\ ext_le (Fin lo) hi /\ ext_le hi (pl_hi T)).
  { unfold restrict in ER. apply bind_ok in ER. destruct ER as (u & A & _). apply assertb_ok in A.
    rewrite !andb_true_iff in A. destruct A as [[A1 A2] A3].
    destruct (ext_lebP (pl_lo T) (Fin lo)); [|discriminate]. destruct (ext_lebP (Fin lo) hi); [|discriminate]. destruct (ext_lebP hi (pl_hi T)); [|discriminate]. auto. }
  destruct AS as (A1 & A2 & A3).
  destruct (restrict_ok T (Fin lo) hi VT A1 A2 A3) as (R' & ER' & VR & LR & HR & AR); [discriminate|intros ->; destruct A2|left; discriminate|].
  rewrite ER in ER'. apply ok_inj in ER'. subst R'.
  assert (RT : forall t, in_dom R t -> pl_eval R t = pl_eval T t).
  { intros t D. destruct (AR t D) as [D' E]. rewrite (eval_at R t VR D), (eval_at T t VT D'), E. reflexivity. }
  split.
  - intros t y. rewrite Er. intro X. apply bind_ok in X. destruct X as (x & X1 & X2). exists x. split; auto.
    rewrite <- RT; auto. apply (eval_dom R t x X1).
  - intros t x y X Y. rewrite Er. assert (D : in_dom R t); [|rewrite RT, X by exact D; exact Y].
    pose proof (eval_dom gw x y Y) as [D1 D2]. split; [rewrite LR|rewrite HR].
    + destruct (pl_lo gw) as [|b|]; [discriminate| |discriminate].
      destruct (min_t_above_ok T b VT MT) as (lo' & E1 & _ & E2); [exists t, x; auto|left; auto|].
      rewrite Elo in E1. apply ok_inj in E1. subst lo'. cbn [ext_le]. apply (E2 t x); auto.
    + destruct (pl_hi gw) as [|b|]; [discriminate| |].
      * cbn [max_t_below_any] in Ehi. destruct (max_t_below_full T b VT MT) as (hi' & E1 & E2); [exists t, x; auto|].
        rewrite Ehi in E1. apply ok_inj in E1. subst hi'. destruct hi as [|h|]; cbn [is_max_t_below] in E2; [destruct A2| |exact Logic.I].
        destruct E2 as [_ E2]. apply (E2 t x); auto.
      * cbn [max_t_below_any] in Ehi. apply bind_ok in Ehi. destruct Ehi as (? & _ & Ehi). apply bind_ok in Ehi. destruct Ehi as (? & _ & Ehi).
        apply bind_ok in Ehi. destruct Ehi as (? & _ & Ehi). apply ok_inj in Ehi. subst hi. apply (eval_dom T t x X).
Qed.

Definition labelled (labels : list (nat * PL)) (v : nat) : Prop := dget labels v <> None.
Definition all_exact (tr : list ev) : Prop := forall x, In x tr -> exact until tol x.

Lemma bf_edge_inv st st' R w e : inv (b_labels st) (b_queue st) R -> In e (g_edges g) -> e_to g e = w ->
  bf_edge g interesting arr w st e = Ok st' -> all_exact (b_trace st') ->
  inv (b_labels st') (b_queue st') R /\ all_exact (b_trace st) /\
  (forall v, labelled (b_labels st) v -> labelled (b_labels st') v) /\
  (forall e', okay (b_labels st) (b_queue st) e' -> okay (b_labels st') (b_queue st') e') /\
  (In (e_from g e) interesting -> okay (b_labels st') (b_queue st') e).
Proof.
  intros I IE EW H AX. unfold bf_edge in H. destruct (mem (e_from g e) interesting) eqn:M; cbn [negb] in H.
  2:{ injection H as <-. apply mem_false in M. split; [exact I|]. split; [exact AX|]. split; [auto|]. split; [auto|]. intro X. contradiction. }
  apply memP in M. set (v := e_from g e) in *.
  apply bind_ok in H. destruct H as (T & HT & H). unfold fetch in HT. destruct (nth_error arr (e_id g e)) as [T'|] eqn:NT; [|discriminate]. injection HT as ->.
  destruct (ARR _ _ NT) as (c & NC & AT).
  apply bind_ok in H. destruct H as (gw & Hgw & H). unfold dfetch in Hgw. destruct (dget (b_labels st) w) as [gw'|] eqn:DW; [|discriminate]. injection Hgw as ->.
  apply bind_ok in H. destruct H as (lo & Hlo & H). apply bind_ok in H. destruct H as (hi & Hhi & H).
  apply bind_ok in H. destruct H as (R0 & HR & H). apply bind_ok in H. destruct H as (r & Hr & H).
  pose proof (i_valid _ _ _ I w gw DW) as Vgw.
  assert (NEW : exact until tol (EvCompose gw R0 r) ->
    (forall t y, pl_eval r t = Ok y -> exists x, pl_eval T t = Ok x /\ pl_eval gw x = Ok y) /\
    (forall t x y, pl_eval T t = Ok x -> pl_eval gw x = Ok y -> pl_eval r t = Ok y)) by (apply (relaxation_ok T c gw lo hi R0 r); auto).
  assert (WALK : forall t x y, pl_eval T t = Ok x -> pl_eval gw x = Ok y -> exists k, walkto v k t y).
  { intros t x y X Y. destruct (ar_dom _ _ _ _ AT t x X) as [P1 P2]. destruct (ar_eval _ _ _ _ AT t P1 P2) as (z & Z1 & Z2 & Z3).
    rewrite X in Z3. apply ok_inj in Z3. subst x. destruct (i_sound _ _ _ I w gw _ _ DW Y) as (k & K).
    exists (S k). apply (walk_via _ _ _ _ _ _ e k t y c z); auto. rewrite EW. exact K. }
  destruct (dget (b_labels st) v) as [gv|] eqn:DV.
  - apply bind_ok in H. destruct H as (b & Hb & H). destruct b.
    + (* the label is already good enough *)
      injection H as <-. cbn [b_labels b_queue b_trace] in *.
      assert (A1 : exact until tol (EvLe gv r true)) by (apply AX; left; auto).
      assert (A2 : exact until tol (EvCompose gw R0 r)) by (apply AX; right; left; auto).
      destruct (NEW A2) as [N1 N2].
      split; [exact I|]. split; [intros x X; apply AX; right; right; exact X|]. split; [auto|]. split; [auto|].
      intros _. right. exists T, gv, gw. rewrite EW. repeat split; auto. intros t x y UT X Y. apply (A1 eq_refl t y UT). apply (N2 t x y); auto.
    + apply bind_ok in H. destruct H as (q & Hq & H). apply bind_ok in H. destruct H as (m & Hm & H). apply bind_ok in H. destruct H as (l & Hl & H).
      injection H as <-. cbn [b_labels b_queue b_trace] in *.
      assert (A1 : exact until tol (EvSimplify m l)) by (apply AX; left; auto).
      assert (A2 : exact until tol (EvMin gv r m)) by (apply AX; right; left; auto).
      assert (A3 : exact until tol (EvCompose gw R0 r)) by (apply AX; right; right; right; left; auto).
      destruct A1 as [Vl A1]. destruct A2 as [Vm A2]. destruct (NEW A3) as [N1 N2].
      destruct (push_has _ _ _ _ (i_nd _ _ _ I) Hq) as (P1 & P2 & P3).
      assert (B1 : forall lv, dget (b_labels st) v = Some lv -> below 0 l lv).
      { intros lv X t y Y. rewrite DV in X. injection X as <-. rewrite A1, A2, Y. cbn [least]. destruct (pl_eval r t) as [z|]; [|exists y; split; auto; qlra].
        exists (qmin y z). split; auto. qmm; qlra. }
      assert (B2 : forall t y, pl_eval r t = Ok y -> exists x, pl_eval l t = Ok x /\ x <= y).
      { intros t y Y. rewrite A1, A2, Y. destruct (pl_eval gv t) as [z|]; cbn [least]; [|exists y; split; auto; qlra]. exists (qmin z y). split; auto. qmm; qlra. }
      split; [|split; [|split; [|split]]].
      * apply (update_inv _ (b_queue st)); auto. intros t y. rewrite A1, A2.
        destruct (pl_eval gv t) as [a|] eqn:EA; destruct (pl_eval r t) as [b|] eqn:EB; cbn [least]; intro X; try discriminate X; apply ok_inj in X; subst y.
        -- destruct (qmin_spec a b) as [[_ ->]|[_ ->]].
           ++ destruct (N1 t b EB) as (x & X1 & X2). apply (WALK t x b); auto.
           ++ apply (i_sound _ _ _ I v gv); auto.
        -- apply (i_sound _ _ _ I v gv); auto.
        -- destruct (N1 t b EB) as (x & X1 & X2). apply (WALK t x b); auto.
      * intros x X. apply AX. do 4 right. exact X.
      * intros u U. unfold labelled. rewrite dget_dset. destruct (Nat.eqb v u); [discriminate|exact U].
      * intros e' O. apply (update_okay _ (b_queue st)); auto.
      * intros _. destruct (Nat.eq_dec v w) as [EV|NV]; [left; rewrite EW, <- EV; exact P2|]. right.
        exists T, l, gw. rewrite !dget_dset, EW. fold v. rewrite Nat.eqb_refl. destruct (Nat.eqb_spec v w); [contradiction|].
        repeat split; auto. intros t x y UT X Y. destruct (B2 t y (N2 t x y X Y)) as (z & Z1 & Z2). exists z. split; auto. qlra.
  - apply bind_ok in H. destruct H as (dw & Hd & H). apply bind_ok in H. destruct H as (q & Hq & H). apply bind_ok in H. destruct H as (l & Hl & H).
    injection H as <-. cbn [b_labels b_queue b_trace] in *.
    assert (A1 : exact until tol (EvSimplify r l)) by (apply AX; left; auto).
    assert (A3 : exact until tol (EvCompose gw R0 r)) by (apply AX; right; left; auto).
    destruct A1 as [Vl A1]. destruct (NEW A3) as [N1 N2].
    destruct (push_has _ _ _ _ (i_nd _ _ _ I) Hq) as (P1 & P2 & P3).
    assert (B1 : forall lv, dget (b_labels st) v = Some lv -> below 0 l lv) by (intros lv X; congruence).
    split; [|split; [|split; [|split]]].
    + apply (update_inv _ (b_queue st)); auto. intros t y. rewrite A1. intro X. destruct (N1 t y X) as (x & X1 & X2). apply (WALK t x y); auto.
    + intros x X. apply AX. do 2 right. exact X.
    + intros u U. unfold labelled. rewrite dget_dset. destruct (Nat.eqb v u); [discriminate|exact U].
    + intros e' O. apply (update_okay _ (b_queue st)); auto.
    + intros _. assert (NV : v <> w) by congruence. right.
      exists T, l, gw. rewrite !dget_dset, EW. fold v. rewrite Nat.eqb_refl. destruct (Nat.eqb_spec v w); [contradiction|].
      repeat split; auto. intros t x y UT X Y. exists y. split; [rewrite A1; apply (N2 t x y); auto|qlra].
Qed.

Lemma bf_edge_trace w st st' e : bf_edge g interesting arr w st e = Ok st' -> forall x, In x (b_trace st) -> In x (b_trace st').
Proof.
  intros H x X. revert H. unfold bf_edge. destruct (negb (mem (e_from g e) interesting)); [intro E; injection E as <-; exact X|].
  intro H. apply bind_ok in H. destruct H as (T & _ & H). apply bind_ok in H. destruct H as (gw & _ & H). apply bind_ok in H. destruct H as (lo & _ & H).
  apply bind_ok in H. destruct H as (hi & _ & H). apply bind_ok in H. destruct H as (R & _ & H). apply bind_ok in H. destruct H as (r & _ & H).
  destruct (dget (b_labels st) (e_from g e)) as [gv|].
  - apply bind_ok in H. destruct H as (b & _ & H). destruct b; [injection H as <-; cbn [b_trace]; auto with datatypes|].
    apply bind_ok in H. destruct H as (q & _ & H). apply bind_ok in H. destruct H as (m & _ & H). apply bind_ok in H. destruct H as (l0 & _ & H).
    injection H as <-. cbn [b_trace]. auto 10 with datatypes.
  - apply bind_ok in H. destruct H as (b & _ & H). apply bind_ok in H. destruct H as (q & _ & H). apply bind_ok in H. destruct H as (m & _ & H).
    injection H as <-. cbn [b_trace]. auto 10 with datatypes.
Qed.
Lemma bf_fold_trace w : forall edges st st', foldM (bf_edge g interesting arr w) edges st = Ok st' -> forall x, In x (b_trace st) -> In x (b_trace st').
Proof.
  induction edges as [|e l IH]; intros st st' H x X; cbn [foldM] in H; [injection H as <-; exact X|].
  apply bind_ok in H. destruct H as (s & H1 & H2). apply (IH s st' H2). apply (bf_edge_trace _ _ _ _ H1). exact X.
Qed.
Lemma bf_nodes_trace : forall ws st st', foldM (bf_node g interesting arr) ws st = Ok st' -> forall x, In x (b_trace st) -> In x (b_trace st').
Proof.
  induction ws as [|e l IH]; intros st st' H x X; cbn [foldM] in H; [injection H as <-; exact X|].
  apply bind_ok in H. destruct H as (s & H1 & H2). apply (IH s st' H2). apply (bf_fold_trace _ _ _ _ H1). exact X.
Qed.

Lemma bf_fold_inv w R : forall edges st st', inv (b_labels st) (b_queue st) R ->
  (forall e, In e edges -> In e (g_edges g) /\ e_to g e = w) ->
  foldM (bf_edge g interesting arr w) edges st = Ok st' -> all_exact (b_trace st') ->
  inv (b_labels st') (b_queue st') R /\ all_exact (b_trace st) /\
  (forall v, labelled (b_labels st) v -> labelled (b_labels st') v) /\
  (forall e', okay (b_labels st) (b_queue st) e' -> okay (b_labels st') (b_queue st') e') /\
  (forall e, In e edges -> In (e_from g e) interesting -> okay (b_labels st') (b_queue st') e).
Proof.
  induction edges as [|e l IH]; intros st st' I HE H AX; cbn [foldM] in H.
  { injection H as <-. split; [exact I|]. split; [exact AX|]. split; [auto|]. split; [auto|]. intros e []. }
  apply bind_ok in H. destruct H as (st1 & H1 & H2).
  destruct (HE e (or_introl eq_refl)) as [E1 E2].
  assert (HE' : forall e, In e l -> In e (g_edges g) /\ e_to g e = w) by (intros; apply HE; right; auto).
  (* exactness of the intermediate trace *)
  assert (AX1 : all_exact (b_trace st1)) by (intros x X; apply AX; apply (bf_fold_trace _ _ _ _ H2); exact X).
  destruct (bf_edge_inv st st1 R w e I E1 E2 H1 AX1) as (I1 & A1 & L1 & O1 & N1).
  destruct (IH st1 st' I1 HE' H2 AX) as (I2 & A2 & L2 & O2 & N2).
  split; [exact I2|]. split; [exact A1|]. split; [auto|]. split; [auto|]. intros e' [<-|X] Y; auto.
Qed.

Lemma bf_nodes_inv : forall ws st st', inv (b_labels st) (b_queue st) ws ->
  foldM (bf_node g interesting arr) ws st = Ok st' -> all_exact (b_trace st') ->
  inv (b_labels st') (b_queue st') [] /\ all_exact (b_trace st).
Proof.
  induction ws as [|w ws IH]; intros st st' I H AX; cbn [foldM] in H; [injection H as <-; auto|].
  apply bind_ok in H. destruct H as (st1 & H1 & H2). unfold bf_node in H1.
  assert (HE : forall e, In e (incoming g w) -> In e (g_edges g) /\ e_to g e = w) by (intros e X; apply in_incoming; auto).
  assert (STEP : all_exact (b_trace st1) -> inv (b_labels st1) (b_queue st1) ws /\ all_exact (b_trace st)).
  { intro AX1. destruct (bf_fold_inv w (w :: ws) (incoming g w) st st1 I HE H1 AX1) as (I1 & A1 & L1 & O1 & N1).
    split; [|exact A1]. destruct I1 as [V S K E N]. constructor; auto. intros e X1 X2 X3.
    destruct (E e X1 X2 X3) as [[X|X]|X]; auto. right. apply N1; auto. rewrite (cs_in g CG), X. apply filter_In. rewrite Nat.eqb_refl. auto. }
  (* first obtain exactness of the intermediate trace *)
  assert (AX1 : all_exact (b_trace st1)) by (intros x X; apply AX; apply (bf_nodes_trace _ _ _ H2); exact X).
  destruct (STEP AX1) as [I1 A1]. destruct (IH st1 st' I1 H2 AX) as [I2 A2]. auto.
Qed.

Lemma sorted_has q v : sq_nd q -> sq_has q v = true -> In v (sq_sorted q).
Proof.
  intros N H. unfold sq_has, s_mem in H. apply existsb_exists in H. destruct H as (x & X & E). destruct (eqbP (e_item x) v) as [<-|]; [|discriminate E].
  unfold sq_sorted. apply in_map. destruct (order_spec _ (s_entries q) eq_refl N) as [P _]. apply (Permutation_in _ (Permutation_sym P)). exact X.
Qed.
Lemma bf_rounds_inv : forall n st st', inv (b_labels st) (b_queue st) [] -> bf_rounds n g interesting arr st = Ok st' -> all_exact (b_trace st') ->
  inv (b_labels st') (b_queue st') [] /\ all_exact (b_trace st).
Proof.
  induction n as [|n IH]; intros st st' I H AX; cbn [bf_rounds] in H; [injection H as <-; auto|].
  destruct (Nat.ltb 0 (sq_len (b_queue st))); [|injection H as <-; auto].
  apply bind_ok in H. destruct H as (s & H1 & H2).
  assert (I0 : inv (b_labels st) sq_empty (sq_sorted (b_queue st))).
  { destruct I as [V S K E N]. constructor; auto; [|apply nd_empty]. intros e X1 X2 X3. destruct (E e X1 X2 X3) as [[]|[X|X]]; [left; apply sorted_has; auto|right; right; exact X]. }
  assert (STEP : all_exact (b_trace s) -> inv (b_labels s) (b_queue s) [] /\ all_exact (b_trace st)).
  { intro AX1. unfold bf_round in H1. apply bf_nodes_inv in H1; auto. }
  assert (MONO : forall m a b, bf_rounds m g interesting arr a = Ok b -> forall x, In x (b_trace a) -> In x (b_trace b)).
  { clear. induction m as [|m IH]; intros a b H x X; cbn [bf_rounds] in H; [injection H as <-; exact X|].
    destruct (Nat.ltb 0 (sq_len (b_queue a))); [|injection H as <-; exact X].
    apply bind_ok in H. destruct H as (s & H1 & H2). apply (IH s b H2). unfold bf_round in H1. apply (bf_nodes_trace _ _ _ H1). exact X. }
  destruct STEP as [I1 A1]; [intros x X; apply AX; apply (MONO n s st' H2); exact X|].
  destruct (IH s st' I1 H2 AX) as [I2 A2]. auto.
Qed.
Lemma final_optimal labels q : inv labels q [] -> sq_len q = 0%nat -> 
  (forall i c, nth_error costs i = Some c -> exists T, nth_error arr i = Some T) ->
  forall v k t s, walkto v k t s -> t <= s /\ (s <= until -> exists l y, dget labels v = Some l /\ pl_eval l t = Ok y /\ y <= s + qn k * tol).
Proof.
  intros [V S K E N] L AC v k t s W. induction W as [t P1 P2|e k t s f c P1 P2 E1 E2 NF EC W [IHs IH]].
  - split; [qlra|]. intros _. destruct K as (l & K1 & K2). destruct (K2 t P1 P2) as (y & Y1 & Y2). exists l, y. split; auto. split; auto. replace (qn 0) with 0 by reflexivity. qlra.
  - destruct (AC _ _ NF) as (T & NT). destruct (ARR _ _ NT) as (c' & Nc & AT). rewrite NF in Nc. injection Nc as <-.
    destruct (ar_eval _ _ _ _ AT t P1 P2) as (z & Z1 & Z2 & Z3). rewrite EC in Z1. apply ok_inj in Z1. subst z.
    split; [qlra|]. intro SU. destruct (IH SU) as (lw & y & D & Y & B).
    destruct (E e E1 E2) as [[]|[X|X]]; [congruence| |].
    + exfalso. unfold sq_has, s_mem in X. unfold sq_len in L. destruct (s_entries q); discriminate.
    + destruct X as (T' & lv & lw' & X1 & X2 & X3 & X4). rewrite D in X3. injection X3 as <-. rewrite NT in X1. injection X1 as <-.
      destruct (X4 t (t + c) y) as (z & Z4 & Z5); auto; [qlra|]. exists lv, z. split; auto. split; auto.
      rewrite qn_S. qnra.
Qed.
End Search.

Lemma bellman_ford_ok fuel g sink costs interesting phi horizon until tol labels tr : consistent g -> 0 <= tol -> ext_lt (Fin phi) horizon ->
  (forall c, In c costs -> good_cost phi horizon c) ->
  bellman_ford fuel g sink costs interesting phi horizon = Ok (labels, tr) -> (forall x, In x tr -> exact until tol x) ->
  (forall v l t y, dget labels v = Some l -> pl_eval l t = Ok y -> exists k, walk g costs interesting sink phi horizon v k t y) /\
  (forall v k t s, walk g costs interesting sink phi horizon v k t s -> s <= until ->
     exists l y, dget labels v = Some l /\ pl_eval l t = Ok y /\ y <= s + qn k * tol).
Proof.
  intros CG T0 PH GC H EX. unfold bellman_ford in H. apply bind_ok in H. destruct H as ([arr st] & HI & H).
  apply bind_ok in H. destruct H as (st' & HR & H). destruct (Nat.ltb_spec 0 (sq_len (b_queue st'))) as [|LQ]; [discriminate H|].
  injection H as <- <-.
  unfold bf_init in HI. apply bind_ok in HI. destruct HI as (id & Hid & HI). apply pl_init_inv in Hid. destruct Hid as [-> _].
  set (id := mkPL [phi] [phi] 1 1 (Fin phi) horizon) in *.
  apply bind_ok in HI. destruct HI as (pairs & HP & HI). injection HI as <- <-.
  assert (Vid : valid id).
  { constructor; cbn [pl_values pl_times id]; auto; [discriminate|repeat constructor|].
    intros t [<-|[]]. split; cbn [pl_lo pl_hi id]; [apply ext_le_refl|apply ext_lt_le; exact PH]. }
  assert (AId : forall t, pl_at id t = t).
  { intro t. destruct (qlebP t phi) as [Q|Q].
    - rewrite (at_left id t Vid) by exact Q. unfold vl, tm, nthq. cbn. ring.
    - rewrite (at_right id t Vid) by (unfold tm, pl_len, zlen, nthq; cbn; qlra). unfold vl, tm, nthq, pl_len, zlen. cbn. ring. }
  destruct (mapM_spec _ _ _ HP) as [LP NP].
  assert (TRM : forall m a b, bf_rounds m g interesting (map fst pairs) a = Ok b -> forall x, In x (b_trace a) -> In x (b_trace b)).
  { clear. induction m as [|m IH]; intros a b H x X; cbn [bf_rounds] in H; [injection H as <-; exact X|].
    destruct (Nat.ltb 0 (sq_len (b_queue a))); [|injection H as <-; exact X].
    apply bind_ok in H. destruct H as (s & H1 & H2). apply (IH s b H2). unfold bf_round in H1. apply (bf_nodes_trace _ _ _ _ _ _ H1). exact X. }
  assert (ARR : forall i T, nth_error (map fst pairs) i = Some T -> exists c, nth_error costs i = Some c /\ arrival_of phi horizon c T).
  { intros i T X. rewrite nth_error_map in X. destruct (nth_error pairs i) as [[T' e]|] eqn:EP; [|discriminate]. injection X as ->.
    assert (IL : (i < length costs)%nat) by (rewrite <- LP; apply nth_error_Some; congruence).
    destruct (nth_error costs i) as [c|] eqn:EC; [|apply nth_error_None in EC; lia].
    destruct (NP i c EC) as (b & B1 & B2). rewrite EP in B1. injection B1 as <-. exists c. split; auto.
    apply (edge_arrival_ok phi horizon c T e until tol); auto; [apply GC; apply (nth_error_In _ _ EC)|].
    apply EX. apply (TRM _ _ _ HR). cbn [b_trace]. apply -> in_rev. apply in_map_iff. exists (T, e). split; auto. apply (nth_error_In _ _ EP). }
  assert (I0 : inv g costs (map fst pairs) interesting sink phi horizon until tol [(sink, id)] (sq_set sq_empty sink (Fin 0)) []).
  { constructor.
    - intros v l. cbn [dget]. destruct (Nat.eqb sink v); [intro X; injection X as <-; exact Vid|discriminate].
    - intros v l t y. cbn [dget]. destruct (Nat.eqb_spec sink v) as [<-|]; [|discriminate]. intro X. injection X as <-. intro Y.
      pose proof (eval_dom id t y Y) as D. rewrite (eval_at id t Vid D) in Y. apply ok_inj in Y. rewrite AId in Y. subst y.
      exists O. destruct D as [D1 D2]. apply walk_here; auto.
    - exists id. split; [cbn [dget]; rewrite Nat.eqb_refl; reflexivity|]. intros t D1 D2. exists t. split; [|qlra].
      rewrite (eval_at id t Vid), AId; [reflexivity|]. split; auto.
    - intros e _ _ X. cbn [dget] in X. destruct (Nat.eqb_spec sink (e_to g e)) as [E|]; [|congruence]. right. left.
      rewrite kof_has, kof_set, E, eqb_rfl. reflexivity.
    - apply nd_set, nd_empty. }
  destruct (bf_rounds_inv g costs (map fst pairs) interesting sink phi horizon until tol CG T0 ARR fuel (mkBF [(sink, id)] [(sink, 0)] (sq_set sq_empty sink (Fin 0)) (rev (map snd pairs))) st' I0 HR EX) as [I1 _].
  split.
  - intros v l t y X Y. apply (i_sound _ _ _ _ _ _ _ _ _ _ _ _ I1 v l t y X Y).
  - intros v k t s W. apply (final_optimal g costs (map fst pairs) interesting sink phi horizon until tol T0 ARR _ (b_queue st') I1); auto; [lia|].
    intros i c X. destruct (NP i c X) as ([T e] & B1 & _). exists T. rewrite nth_error_map, B1. reflexivity.
Qed.
