(** * C43: bellman_ford computes earliest arrival functions *)
From Verif Require Import Base Spec Arrays ArraysProofs PL PLProofs PLEval PLArith PLOps PLOps2 PLMono PL2 PLCmp PLComp PLMin RC FRC FRCProofs PQ PQProofs PQSpec DynFlow DQProofs Graph GraphSpec GraphProofs Dijkstra DijkstraSpec DijkstraProofs BellmanFord BFSpec BFProofs PropPL PropMin PropActive.

(** [walk g costs interesting sink phi horizon v k t s] (BFSpec.v): some walk
    with [k] edges leaves [v] at [t] and is at [sink] at [s].  If every call
    that the run made to compose, outer_minimum, simplify and smaller_equals
    did what it is meant to do (smaller_equals up to [tol] before [until]),
    then every label value is the arrival time of a walk, and no walk that
    arrives before [until] is better than the label by more than [tol] per
    edge. *)
Theorem C43_exact_partial : forall fuel g sink costs interesting phi horizon until tol labels tr,
  consistent g -> 0 <= tol -> ext_lt (Fin phi) horizon ->
  (forall c, In c costs -> good_cost phi horizon c) ->
  bellman_ford fuel g sink costs interesting phi horizon = Ok (labels, tr) ->
  (forall e, In e tr -> exact until tol e) ->
  (forall v l t y, dget labels v = Some l -> pl_eval l t = Ok y ->
     exists k, walk g costs interesting sink phi horizon v k t y) /\
  (forall v k t s, walk g costs interesting sink phi horizon v k t s -> s <= until ->
     exists l y, dget labels v = Some l /\ pl_eval l t = Ok y /\ y <= s + qn k * tol).
Proof. exact bellman_ford_ok. Qed.
Print Assumptions C43_exact_partial.

(** ** The recorded calls are the calls that were made *)
Definition genuine (e : ev) : Prop :=
  match e with
  | EvSimplify f r => simplify f = Ok r
  | EvMin f g r => outer_minimum f g = Ok r
  | EvLe f g b => smaller_equals f g = Ok b
  | EvCompose g f r => compose g f = Ok r
  end.
Lemma edge_genuine g interesting arr w st e st' : bf_edge g interesting arr w st e = Ok st' -> Forall genuine (b_trace st) -> Forall genuine (b_trace st').
Proof.
  intros H F. unfold bf_edge in H. destruct (negb (mem (e_from g e) interesting)); [injection H as <-; exact F|].
  apply bind_ok in H. destruct H as (T & _ & H). apply bind_ok in H. destruct H as (gw & _ & H). apply bind_ok in H. destruct H as (lo & _ & H).
  apply bind_ok in H. destruct H as (hi & _ & H). apply bind_ok in H. destruct H as (R & _ & H). apply bind_ok in H. destruct H as (r & Hr & H).
  destruct (dget (b_labels st) (e_from g e)) as [gv|].
  - apply bind_ok in H. destruct H as (b & Hb & H). destruct b; [injection H as <-; cbn [b_trace]; constructor; [exact Hb|constructor; [exact Hr|exact F]]|].
    apply bind_ok in H. destruct H as (q & _ & H). apply bind_ok in H. destruct H as (m & Hm & H). apply bind_ok in H. destruct H as (l0 & Hl & H).
    injection H as <-. cbn [b_trace]. constructor; [exact Hl|]. constructor; [exact Hm|]. constructor; [exact Hb|]. constructor; [exact Hr|exact F].
  - apply bind_ok in H. destruct H as (b & _ & H). apply bind_ok in H. destruct H as (q & _ & H). apply bind_ok in H. destruct H as (m & Hm & H).
    injection H as <-. cbn [b_trace]. constructor; [exact Hm|constructor; [exact Hr|exact F]].
Qed.
Lemma fold_genuine {B} (F : bfstate -> B -> res bfstate) : (forall st b st', F st b = Ok st' -> Forall genuine (b_trace st) -> Forall genuine (b_trace st')) ->
  forall l st st', foldM F l st = Ok st' -> Forall genuine (b_trace st) -> Forall genuine (b_trace st').
Proof.
  intro HF. induction l as [|b l IH]; intros st st' H G; cbn [foldM] in H; [injection H as <-; exact G|].
  apply bind_ok in H. destruct H as (s & H1 & H2). apply (IH s st' H2). apply (HF st b); auto.
Qed.
Lemma bellman_ford_genuine fuel g sink costs interesting phi horizon labels tr :
  bellman_ford fuel g sink costs interesting phi horizon = Ok (labels, tr) -> forall e, In e tr -> genuine e.
Proof.
  intro H. apply Forall_forall. unfold bellman_ford in H. apply bind_ok in H. destruct H as ([arr st] & HI & H).
  apply bind_ok in H. destruct H as (st' & HR & H). destruct (Nat.ltb 0 (sq_len (b_queue st'))); [discriminate H|]. injection H as <- <-.
  assert (G0 : Forall genuine (b_trace st)).
  { unfold bf_init in HI. apply bind_ok in HI. destruct HI as (id & _ & HI). apply bind_ok in HI. destruct HI as (ps & HP & HI). injection HI as <- <-.
    cbn [b_trace]. apply Forall_forall. intros e E. apply in_rev in E. apply in_map_iff in E. destruct E as (p & <- & E).
    apply In_nth_error in E. destruct E as (i & E). destruct (PredictorsProofs.mapM_spec _ _ _ HP) as [LP NP].
    assert (IL : (i < length costs)%nat) by (rewrite <- LP; apply nth_error_Some; congruence).
    destruct (nth_error costs i) as [c|] eqn:EC; [|apply nth_error_None in EC; lia].
    destruct (NP i c EC) as (b & B1 & B2). rewrite E in B1. injection B1 as <-. unfold edge_arrival in B2.
    apply bind_ok in B2. destruct B2 as (? & _ & B2). apply bind_ok in B2. destruct B2 as (? & _ & B2). apply bind_ok in B2. destruct B2 as (? & B3 & B2).
    injection B2 as <-. exact B3. }
  clear HI. revert st HR G0. induction fuel as [|n IH]; intros st HR G0; cbn [bf_rounds] in HR; [injection HR as <-; exact G0|].
  destruct (Nat.ltb 0 (sq_len (b_queue st))); [|injection HR as <-; exact G0].
  apply bind_ok in HR. destruct HR as (s & H1 & H2). apply (IH s H2). unfold bf_round in H1. revert H1 G0.
  apply (fold_genuine (bf_node g interesting arr)) with (st := mkBF (b_labels st) (b_dist st) sq_empty (b_trace st)).
  intros a b c. unfold bf_node. apply fold_genuine. intros a' b' c'. apply edge_genuine.
Qed.

(** ** Conditions on the data that make the calls exact: those of C09, C13,
    C14 and C15. *)
Definition clear_ev (phi : Qc) (e : ev) : Prop :=
  match e with
  | EvSimplify f _ => valid f /\ slopes_clear f
  | EvCompose g f _ => valid g /\ valid f /\ mono f /\ (forall t y, pl_eval f t = Ok y -> in_dom g y) /\
      (forall x y, kink g f x -> kink g f y -> x < y -> gap x y) /\ start_ok g f
  | EvMin f g _ => valid f /\ valid g /\ pl_lo f = Fin phi /\ pl_lo g = Fin phi /\ pl_hi f = pl_hi g /\ ext_lt (Fin phi) (pl_hi f) /\
      (In phi (pl_times f) \/ In phi (pl_times g)) /\ min_sep f g /\ min_end f g
  | EvLe f g _ => valid f /\ valid g /\ pl_lo f = Fin phi /\ pl_lo g = Fin phi /\
      pyget (pl_times f) 0 = Ok phi /\ pyget (pl_times g) 0 = Ok phi /\ ext_le (pl_hi g) (pl_hi f) /\ ext_lt (Fin phi) (pl_hi g)
  end.
Lemma eps1000_pos : 0 < eps1000.
Proof. vm_compute. reflexivity. Qed.
Lemma greatest_in l x : In x l -> exists s, In s l /\ forall r, In r l -> r <= s.
Proof.
  revert x. induction l as [|a l IH]; intros x X; [destruct X|]. destruct l as [|b l].
  - exists a. split; [left; auto|]. intros r [<-|[]]. qlra.
  - destruct (IH b (or_introl eq_refl)) as (s & S1 & S2). destruct (qlebP a s) as [Q|Q].
    + exists s. split; [right; auto|]. intros r [<-|R]; auto.
    + exists a. split; [left; auto|]. intros r [<-|R]; [qlra|]. specialize (S2 r R). qlra.
Qed.
Lemma lift2_least f g t : pl_lo f = pl_lo g -> pl_hi f = pl_hi g -> valid f -> valid g -> lift2 qmin (pl_eval f t) (pl_eval g t) = least (pl_eval f t) (pl_eval g t).
Proof.
  intros L H Vf Vg. destruct (ext_leb (pl_lo f) (Fin t) && ext_leb (Fin t) (pl_hi f))%bool eqn:C.
  - assert (D : in_dom f t) by (apply bool_dom; exact C). assert (D' : in_dom g t) by (unfold in_dom in *; rewrite <- L, <- H; exact D).
    rewrite (eval_at f t Vf D), (eval_at g t Vg D'). reflexivity.
  - assert (D : ~ in_dom f t) by (intro X; apply bool_dom in X; congruence).
    assert (D' : ~ in_dom g t) by (unfold in_dom in *; rewrite <- L, <- H; exact D).
    rewrite (eval_out f t D), (eval_out g t D'). reflexivity.
Qed.
Lemma clear_exact phi until e : phi <= until -> genuine e -> clear_ev phi e -> exact until (eps1000 * (1 + (until - phi))) e.
Proof.
  intro PU. pose proof eps1000_pos as EP. destruct e as [f r|f g r|f g b|g f r]; cbn [genuine clear_ev exact].
  - intros G [V S]. destruct (C09_simplify_partial f V) as (p & E & Vp & _ & X). rewrite G in E. apply ok_inj in E. subst p. auto.
  - intros G (Vf & Vg & Lf & Lg & HH & ND & TL & SEP & END).
    destruct (C14_outer_minimum_partial f g phi Vf Vg Lf Lg HH ND TL SEP END) as (m & E & Vm & A). rewrite G in E. apply ok_inj in E. subst m.
    split; auto. intro t. rewrite A. apply lift2_least; congruence.
  - intros G (Vf & Vg & Lf & Lg & Tf & Tg & HH & ND).
    destruct (C15_smaller_equals f g phi Vf Vg Lf Lg Tf Tg HH ND) as (b' & E & _ & X). rewrite G in E. apply ok_inj in E. subst b'.
    intros B t y U Y. specialize (X B). pose proof (eval_dom g t y Y) as [D1 D2].
    assert (D : in_dom f t) by (split; [rewrite Lf, <- Lg; exact D1|eapply ext_le_trans; [exact D2|exact HH]]).
    exists (pl_at f t). pose proof (eval_at f t Vf D) as EA. split; [exact EA|]. destruct (X t _ y EA Y) as [X1 X2].
    assert (PI : In phi (pl_times f ++ pl_times g)).
    { apply in_or_app. left. rewrite get_tm in Tf by (pose proof (len_pos f Vf); lia). apply ok_inj in Tf. rewrite <- Tf. apply tm_in; auto. pose proof (len_pos f Vf). lia. }
    destruct (greatest_in _ _ PI) as (s & S1 & S2). destruct (qlebP t s) as [Q|Q].
    + assert (Z : pl_at f t <= y + eps1000) by (apply X1; right; exists s; auto). assert (0 <= eps1000 * (until - phi)) by qnra. qlra.
    + specialize (X2 s S1 S2). specialize (S2 phi PI). assert (Z : s <= t) by qlra. specialize (X2 Z).
      assert ((t - s) * eps1000 <= eps1000 * (until - phi)) by (assert (t - s <= until - phi) by qlra; qnra). qlra.
  - intros G (Vg & Vf & M & IM & K & S). destruct (C13_compose_partial g f Vg Vf M IM K S) as (c & E & Vc & X). rewrite G in E. apply ok_inj in E. subst c. auto.
Qed.

Theorem C43_partial : forall fuel g sink costs interesting phi horizon until labels tr,
  consistent g -> ext_lt (Fin phi) horizon -> phi <= until ->
  (forall c, In c costs -> good_cost phi horizon c) ->
  bellman_ford fuel g sink costs interesting phi horizon = Ok (labels, tr) ->
  (forall e, In e tr -> clear_ev phi e) ->
  (forall v l t y, dget labels v = Some l -> pl_eval l t = Ok y ->
     exists k, walk g costs interesting sink phi horizon v k t y) /\
  (forall v k t s, walk g costs interesting sink phi horizon v k t s -> s <= until ->
     exists l y, dget labels v = Some l /\ pl_eval l t = Ok y /\ y <= s + qn k * (eps1000 * (1 + (until - phi)))).
Proof.
  intros fuel g sink costs interesting phi horizon until labels tr CG PH PU GC H CL.
  apply (bellman_ford_ok fuel g sink costs interesting phi horizon until (eps1000 * (1 + (until - phi))) labels tr); auto.
  - pose proof eps1000_pos. assert (0 <= until - phi) by qlra. qnra.
  - intros e E. apply clear_exact; auto. apply (bellman_ford_genuine _ _ _ _ _ _ _ _ _ H e E).
Qed.
Print Assumptions C43_partial.

(** ** Checking the hypotheses by computation *)
Definition validb (f : PL) : bool :=
  match pl_init (pl_times f) (pl_values f) (pl_first f) (pl_last f) (pl_lo f) (pl_hi f) with Ok _ => true | Err _ => false end.
Lemma validb_ok f : validb f = true -> valid f.
Proof.
  unfold validb. destruct (pl_init _ _ _ _ _ _) as [g|] eqn:E; [|discriminate]. intros _. apply pl_init_inv in E. destruct E as [-> V]. destruct f. exact V.
Qed.
Definition monob (f : PL) : bool := (is_monotone f && qleb 0 (pl_first f) && qleb 0 (pl_last f))%bool.
Lemma monob_ok f : monob f = true -> mono f.
Proof. unfold monob. rewrite !andb_true_iff, is_monotone_iff, !qleb_true. intros [[A B] C]. split; auto. Qed.
Definition fin_eqb (a : ext) (x : Qc) : bool := match a with Fin y => qeqb y x | _ => false end.
Lemma fin_eqb_ok a x : fin_eqb a x = true -> a = Fin x.
Proof. destruct a as [|y|]; cbn [fin_eqb]; try discriminate. destruct (qeqbP y x); [subst; auto|discriminate]. Qed.
Definition is_inf (a : ext) : bool := match a with PInf => true | _ => false end.
Lemma is_inf_ok a : is_inf a = true -> a = PInf.
Proof. destruct a; cbn; auto; discriminate. Qed.
Definition clearb_list (l : list Qc) : bool := forallb (fun x => forallb (fun y => negb (qltb x y) || qltb x (y - eps)) l) l.
Lemma clearb_list_ok l x y : clearb_list l = true -> In x l -> In y l -> x < y -> gap x y.
Proof.
  intros H X Y L. unfold clearb_list in H. rewrite forallb_forall in H. specialize (H x X). rewrite forallb_forall in H. specialize (H y Y).
  apply orb_true_iff in H. destruct H as [H|H]; [apply negb_true_iff in H; destruct (qltbP x y); [discriminate|contradiction]|apply qltb_true in H; exact H].
Qed.

Definition good_costb (phi : Qc) (c : PL) : bool :=
  let id := mkPL [phi] [phi] 1 1 (Fin phi) PInf in
  (validb c && fin_eqb (pl_lo c) phi && is_inf (pl_hi c) && qeqb (tm c 0) phi && clearb_list (phi :: pl_times c) &&
   forallb (qleb 0) (pl_values c) && match pl_plus id c with Ok p => monob p | Err _ => false end &&
   qltb 0 (1 + pl_first c) && qleb 0 (pl_last c))%bool.
Lemma good_costb_ok phi c : good_costb phi c = true -> good_cost phi PInf c.
Proof.
  unfold good_costb. set (id := mkPL [phi] [phi] 1 1 (Fin phi) PInf). cbv zeta. rewrite !andb_true_iff.
  intros [[[[[[[[H1 H2] H3] H4] H5] H6] H7] H8] H9].
  apply validb_ok in H1. apply fin_eqb_ok in H2. apply is_inf_ok in H3. destruct (qeqbP (tm c 0) phi) as [E4|]; [clear H4|discriminate H4].
  rewrite forallb_forall in H6. apply qltb_true in H8. apply qleb_true in H9.
  assert (Vid : valid id).
  { constructor; cbn [pl_values pl_times id]; auto; [discriminate|repeat constructor|].
    intros t [<-|[]]. split; cbn [pl_lo pl_hi id]; [apply ext_le_refl|exact Logic.I]. }
  assert (PS : plus_sep id c).
  { intros x y X Y L. unfold plus_sep in X, Y. rewrite H2, H3 in X, Y. cbn [pl_times pl_lo pl_hi id ext_min] in X, Y.
    assert (M : ext_max (Fin phi) (Fin phi) = Fin phi) by (unfold ext_max; destruct (ext_ltb (Fin phi) (Fin phi)); reflexivity).
    assert (M2 : ext_min PInf PInf = PInf) by reflexivity. rewrite M in X, Y. try rewrite M2 in X; try rewrite M2 in Y. cbn [fin_list] in X, Y.
    apply (clearb_list_ok _ x y H5); auto; [cbn [app] in X; destruct X as [X|X]; [left; auto|]; apply in_app_or in X; destruct X as [X|X]; [right; auto|left; destruct X as [X|[]]; auto]
     |cbn [app] in Y; destruct Y as [Y|Y]; [left; auto|]; apply in_app_or in Y; destruct Y as [Y|Y]; [right; auto|left; destruct Y as [Y|[]]; auto]]. }
  assert (DC : forall t, phi <= t -> in_dom c t) by (intros t T; split; [rewrite H2; exact T|rewrite H3; exact Logic.I]).
  assert (DI : forall t, phi <= t -> in_dom id t) by (intros t T; split; [exact T|exact Logic.I]).
  assert (AId : forall t, pl_at id t = t).
  { intro t. destruct (qlebP t phi) as [Q|Q].
    - rewrite (at_left id t Vid) by exact Q. unfold vl, tm, nthq. cbn. ring.
    - rewrite (at_right id t Vid) by (unfold tm, pl_len, zlen, nthq; cbn; qlra). unfold vl, tm, nthq, pl_len, zlen. cbn. ring. }
  assert (VN : forall i, (0 <= i < pl_len c)%Z -> 0 <= vl c i).
  { intros i Hi. apply qleb_true, H6. apply nthq_in. unfold pl_len, zlen in *. rewrite (v_len c H1). exact Hi. }
  constructor; auto.
  - rewrite H2. apply ext_le_refl.
  - rewrite H3. exact Logic.I.
  - intros t y T _ Y. rewrite (eval_at c t H1 (DC t T)) in Y. apply ok_inj in Y. subst y.
    destruct (rank_exists c t H1) as [i Ri]. pose proof (rank_in_seg _ _ _ Ri) as Si.
    assert (Bi : (-1 <= i < pl_len c)%Z) by (apply is_rank_iff in Ri; unfold pl_len; tauto).
    pose proof (len_pos c H1) as LP.
    destruct (Z.eq_dec i (-1)) as [->|N1].
    { assert (t <= tm c 0) by (apply Si; lia). assert (t = tm c 0) by qlra. subst t. rewrite at_tm by (auto; lia). apply VN. lia. }
    destruct (Z.eq_dec i (pl_len c - 1)) as [->|N2].
    { rewrite (at_right c t H1); [|apply Si; lia]. pose proof (VN (pl_len c - 1)%Z ltac:(lia)).
      assert (tm c (pl_len c - 1) <= t) by (apply Si; lia). assert (0 <= (t - tm c (pl_len c - 1)) * pl_last c) by qnra. qlra. }
    assert (A1 : tm c i <= t) by (apply Si; lia). assert (A2 : t <= tm c (i+1)) by (apply Si; lia).
    pose proof (at_slope c i t (tm c i) H1 Bi Si (in_seg_tm c i H1 ltac:(lia))) as B1.
    pose proof (at_slope c i (tm c (i+1)) (tm c i) H1 Bi (in_seg_tm1 c i H1 ltac:(lia)) (in_seg_tm c i H1 ltac:(lia))) as B2.
    rewrite !at_tm in B1 by (auto; lia). rewrite !at_tm in B2 by (auto; lia). pose proof (VN i ltac:(lia)). pose proof (VN (i+1)%Z ltac:(lia)).
    set (s := slope_q c i) in *. destruct (qlebP 0 s) as [Q|Q].
    + assert (0 <= (t - tm c i) * s) by qnra. qlra.
    + assert ((tm c (i+1) - tm c i) * s <= (t - tm c i) * s) by qnra. qlra.
  - destruct (plus_ok id c Vid H1) as (p & Ep & Vp & Lp & Hp & Dp & Ap & _).
    { rewrite H2, H3. assert (M : ext_max (pl_lo id) (Fin phi) = Fin phi) by (cbn [pl_lo id]; unfold ext_max; destruct (ext_ltb (Fin phi) (Fin phi)); reflexivity). rewrite M.
      assert (M2 : ext_min (pl_hi id) PInf = PInf) by reflexivity. rewrite M2. intro X. exact X. }
    { exact PS. }
    rewrite Ep in H7. apply monob_ok in H7.
    intros t u x y T TU _ X Y. assert (U : phi <= u) by qlra.
    rewrite (eval_at c t H1 (DC t T)) in X. apply ok_inj in X. rewrite (eval_at c u H1 (DC u U)) in Y. apply ok_inj in Y. subst x y.
    pose proof (at_mono p t u Vp H7 TU) as M. rewrite (Ap t), (Ap u), !AId in M; auto; apply Dp; split; auto.
Qed.

Definition kink_points (g f : PL) : list Qc :=
  pl_times f ++ fin_list (pl_lo f) ++
  concat (map (fun i => concat (map (fun b =>
    if qeqb (slope_q f i) 0 then [] else
    let x := (b - icept f i) / slope_q f i in if in_segb f i x then [x] else []) (pl_times g))) (zrange (pl_len f))).
Lemma kink_in g f x : valid f -> kink g f x -> In x (kink_points g f).
Proof.
  intros V (D & K). unfold kink_points. apply in_or_app.
  destruct K as [K|[K|[K U]]]; [left; exact K|right; apply in_or_app; left; rewrite K; left; reflexivity|].
  destruct (rank_exists f x V) as [i Ri]. pose proof (rank_in_seg _ _ _ Ri) as Si. pose proof (len_pos f V) as LP.
  assert (Bi : (-1 <= i < pl_len f)%Z) by (apply is_rank_iff in Ri; unfold pl_len; tauto).
  destruct (qeqbP (slope_q f i) 0) as [Z|Z].
  - left. destruct (Z.eq_dec i (-1)) as [->|N].
    + rewrite <- (U (tm f 0)); [apply tm_in; lia|apply (v_dom f V), tm_in; lia|].
      rewrite (at_slope f (-1) (tm f 0) x V Bi); [rewrite Z; ring|apply (in_seg_tm1 f (-1) V); lia|exact Si].
    + rewrite <- (U (tm f i)); [apply tm_in; lia|apply (v_dom f V), tm_in; lia|].
      rewrite (at_slope f i (tm f i) x V Bi); [rewrite Z; ring|apply in_seg_tm; auto; lia|exact Si].
  - right. apply in_or_app. right. apply in_concat. eexists. split; [apply in_map; apply zrange_in; exact Bi|]. cbv beta.
    apply in_concat. eexists. split; [apply in_map; exact K|]. cbv beta zeta.
    destruct (qeqbP (slope_q f i) 0) as [Q|_]; [contradiction|].
    assert (X : (pl_at f x - icept f i) / slope_q f i = x).
    { rewrite (at_icept f i x V Bi Si). replace (icept f i + x * slope_q f i - icept f i) with (x * slope_q f i) by ring. field. exact Z. }
    rewrite X, (in_segb_ok f i x Si). left. reflexivity.
Qed.
Definition start_okb (g f : PL) : bool :=
  match pl_lo f with Fin l => forallb (fun x => negb (qleb (pl_at f l) x) || qleb l x) (pl_times g) | _ => true end.
Lemma start_okb_ok g f : start_okb g f = true -> start_ok g f.
Proof.
  unfold start_okb, start_ok. destruct (pl_lo f) as [|l|]; auto. rewrite forallb_forall. intros H x X L. specialize (H x X).
  apply orb_true_iff in H. rewrite qleb_true in H. destruct H as [H|H]; auto. apply negb_true_iff in H. destruct (qlebP (pl_at f l) x); [discriminate|contradiction].
Qed.
Definition imageb (g f : PL) : bool :=
  match pl_lo f, pl_lo g with Fin l, Fin b => (qleb b (pl_at f l) && is_inf (pl_hi g))%bool | _, _ => false end.
Lemma imageb_ok g f : valid f -> mono f -> imageb g f = true -> forall t y, pl_eval f t = Ok y -> in_dom g y.
Proof.
  intros V M H t y E. unfold imageb in H. destruct (pl_lo f) as [|l|] eqn:LF; try discriminate H. destruct (pl_lo g) as [|b|] eqn:LG; try discriminate H.
  apply andb_true_iff in H. destruct H as [H1 H2]. apply qleb_true in H1. apply is_inf_ok in H2.
  pose proof (eval_dom f t y E) as D. rewrite (eval_at f t V D) in E. apply ok_inj in E. subst y.
  split; [rewrite LG|rewrite H2; exact Logic.I]. destruct D as [D _]. rewrite LF in D. cbn [ext_le] in D |- *.
  pose proof (at_mono f l t V M D). qlra.
Qed.
Definition slopes_clearb (f : PL) : bool :=
  forallb (fun i => qeqb (slope_q f i) (slope_q f (i+1)) || qleb eps1000 (qabs (slope_q f i - slope_q f (i+1))))%bool (zrange (pl_len f - 1)).
Lemma slopes_clearb_ok f : slopes_clearb f = true -> slopes_clear f.
Proof.
  unfold slopes_clearb. rewrite forallb_forall. intros H i Hi. specialize (H i (zrange_in (pl_len f - 1) i ltac:(lia))). apply orb_true_iff in H. rewrite qleb_true in H.
  destruct H as [H|H]; auto. left. destruct (qeqbP (slope_q f i) (slope_q f (i+1))); [auto|discriminate].
Qed.
Definition lower_endb (f g : PL) : bool :=
  (qltb (pl_at f (last_break f g)) (pl_at g (last_break f g)) &&
   (qleb (pl_last f) (pl_last g) || existsb (qeqb (last_break f g)) (pl_times f)))%bool.
Lemma lower_endb_ok f g : lower_endb f g = true -> lower_end f g.
Proof.
  unfold lower_endb, lower_end. rewrite andb_true_iff, orb_true_iff, qltb_true, qleb_true, existsb_exists. intros [A [B|(x & B & C)]]; split; auto.
  right. destruct (qeqbP (last_break f g) x) as [->|]; [exact B|discriminate].
Qed.
Definition min_endb (f g : PL) : bool := (qeqb (pl_last f) (pl_last g) || lower_endb f g || lower_endb g f)%bool.
Lemma min_endb_ok f g : min_endb f g = true -> min_end f g.
Proof.
  unfold min_endb. rewrite !orb_true_iff. intros [[A|A]|A]; [left; destruct (qeqbP (pl_last f) (pl_last g)); [auto|discriminate]|right; left; apply lower_endb_ok; auto|right; right; apply lower_endb_ok; auto].
Qed.
Definition starts_at (phi : Qc) (f : PL) : bool := (validb f && fin_eqb (pl_lo f) phi && qeqb (tm f 0) phi && is_inf (pl_hi f))%bool.
Lemma starts_at_ok phi f : starts_at phi f = true -> valid f /\ pl_lo f = Fin phi /\ tm f 0 = phi /\ pl_hi f = PInf.
Proof.
  unfold starts_at. rewrite !andb_true_iff. intros [[[A B] C] D]. split; [apply validb_ok; auto|]. split; [apply fin_eqb_ok; auto|].
  split; [destruct (qeqbP (tm f 0) phi); [auto|discriminate]|apply is_inf_ok; auto].
Qed.
Definition clear_evb (phi : Qc) (e : ev) : bool :=
  match e with
  | EvSimplify f _ => validb f && slopes_clearb f
  | EvCompose g f _ => validb g && validb f && monob f && imageb g f && clearb_list (kink_points g f) && start_okb g f
  | EvMin f g _ => starts_at phi f && starts_at phi g && min_sepb f g && min_endb f g
  | EvLe f g _ => starts_at phi f && starts_at phi g
  end%bool.
Lemma clear_evb_ok phi e : clear_evb phi e = true -> clear_ev phi e.
Proof.
  destruct e as [f r|f g r|f g b|g f r]; cbn [clear_evb clear_ev]; rewrite ?andb_true_iff.
  - intros [A B]. split; [apply validb_ok; auto|apply slopes_clearb_ok; auto].
  - intros [[[A B] C] D]. apply starts_at_ok in A, B. destruct A as (A1 & A2 & A3 & A4). destruct B as (B1 & B2 & B3 & B4).
    split; [auto|]. split; [auto|]. split; [auto|]. split; [auto|]. split; [congruence|]. split; [rewrite A4; intro X; exact X|].
    split; [left; rewrite <- A3; apply tm_in; pose proof (len_pos f A1); lia|]. split; [apply min_sepb_ok; auto|apply min_endb_ok; auto].
  - intros [A B]. apply starts_at_ok in A, B. destruct A as (A1 & A2 & A3 & A4). destruct B as (B1 & B2 & B3 & B4).
    split; [auto|]. split; [auto|]. split; [auto|]. split; [auto|].
    split; [rewrite get_tm by (pose proof (len_pos f A1); lia); congruence|]. split; [rewrite get_tm by (pose proof (len_pos g B1); lia); congruence|].
    rewrite A4, B4. split; [exact Logic.I|]. intro X. exact X.
  - intros [[[[[A B] C] D] E] F]. apply validb_ok in A, B. apply monob_ok in C.
    split; [auto|]. split; [auto|]. split; [auto|]. split; [apply imageb_ok; auto|]. split; [|apply start_okb_ok; auto].
    intros x y X Y L. apply (clearb_list_ok _ x y E); auto; apply kink_in; auto.
Qed.

(** ** A run that meets the hypotheses: an edge 1-2 whose cost is 1 up to
    time 2 and then grows with slope 2, and a detour 1-3-2 of cost 1 + 2,
    which is better from time 3 on. *)
Definition bf_graph : graph := grun [GAdd 1 2; GAdd 1 3; GAdd 3 2]%nat.
Definition bf_c0 : PL := mkPL [0; qz 2] [1; 1] 0 (qz 2) (Fin 0) PInf.
Definition bf_c1 : PL := mkPL [0] [1] 0 0 (Fin 0) PInf.
Definition bf_c2 : PL := mkPL [0] [qz 2] 0 0 (Fin 0) PInf.
Definition bf_costs : list PL := [bf_c0; bf_c1; bf_c2].
Definition bf_res := bellman_ford 5 bf_graph 2 bf_costs [1; 2; 3]%nat 0 PInf.
Definition is_val (r : res Qc) (x : Qc) : bool := match r with Ok y => qeqb y x | Err _ => false end.
Lemma is_val_ok r x : is_val r x = true -> r = Ok x.
Proof. destruct r as [y|]; cbn [is_val]; [|discriminate]. destruct (qeqbP y x); [congruence|discriminate]. Qed.
Example C43_example : consistent bf_graph /\ (forall c, In c bf_costs -> good_cost 0 PInf c) /\
  exists labels tr l, bf_res = Ok (labels, tr) /\ (forall e, In e tr -> clear_ev 0 e) /\
    dget labels 1%nat = Some l /\ pl_eval l 1 = Ok (qz 2) /\ pl_eval l (qz 4) = Ok (qz 7).
Proof.
  split; [apply grun_consistent; cbn; auto|]. split.
  - intros c C. apply good_costb_ok. destruct C as [<-|[<-|[<-|[]]]]; vm_compute; reflexivity.
  - assert (H : match bf_res with
      | Ok (labels, tr) => (forallb (clear_evb 0) tr && match dget labels 1%nat with Some l => is_val (pl_eval l 1) (qz 2) && is_val (pl_eval l (qz 4)) (qz 7) | None => false end)%bool
      | Err _ => false end = true) by (vm_compute; reflexivity).
    destruct bf_res as [[labels tr]|] eqn:E; [|discriminate H]. apply andb_true_iff in H. destruct H as [H1 H2].
    destruct (dget labels 1%nat) as [l|] eqn:D; [|discriminate H2]. apply andb_true_iff in H2. destruct H2 as [H2 H3].
    exists labels, tr, l. split; [reflexivity|]. split; [|split; [exact D|split; apply is_val_ok; auto]].
    rewrite forallb_forall in H1. intros e X. apply clear_evb_ok, H1, X.
Qed.

(** ** Where the search fails *)
(** Good cost functions are not enough: the label can promise an arrival that
    is more than one time unit earlier than any walk (the end of [minimum],
    C14). *)
Definition C43_claim : Prop := forall fuel g sink costs interesting phi labels tr v l t y,
  consistent g -> (forall c, In c costs -> good_cost phi PInf c) ->
  bellman_ford fuel g sink costs interesting phi PInf = Ok (labels, tr) ->
  dget labels v = Some l -> pl_eval l t = Ok y ->
  exists k s, walk g costs interesting sink phi PInf v k t s /\ s <= y + 1.
Definition bf_d0 : PL := mkPL [0] [1] 1 1 (Fin 0) PInf.
Definition bf_d1 : PL := mkPL [0; qz 5] [Q2Qc (25#2); qz 10] 0 0 (Fin 0) PInf.
Definition bf_d2 : PL := mkPL [0] [0] 0 0 (Fin 0) PInf.
Definition bf_bad : list PL := [bf_d0; bf_d1; bf_d2].
Theorem C43_refuted : ~ C43_claim.
Proof.
  intro C.
  assert (H : match bellman_ford 5 bf_graph 2 bf_bad [1; 2; 3]%nat 0 PInf with
    | Ok (labels, tr) => match dget labels 1%nat with Some l => match pl_eval l (qz 5) with Ok y => qltb y (qz 10) | Err _ => false end | None => false end
    | Err _ => false end = true) by (vm_compute; reflexivity).
  destruct (bellman_ford 5 bf_graph 2 bf_bad [1; 2; 3]%nat 0 PInf) as [[labels tr]|] eqn:E; [|discriminate H].
  destruct (dget labels 1%nat) as [l|] eqn:D; [|discriminate H]. destruct (pl_eval l (qz 5)) as [y|] eqn:Y; [|discriminate H]. apply qltb_true in H.
  destruct (C 5%nat bf_graph 2%nat bf_bad [1; 2; 3]%nat 0 labels tr 1%nat l (qz 5) y) as (k & s & W & S); auto.
  - apply grun_consistent; cbn; auto.
  - intros c X. apply good_costb_ok. destruct X as [<-|[<-|[<-|[]]]]; vm_compute; reflexivity.
  - (* every walk from 1 at 5 arrives at 11 or later *)
    assert (T : qz 10 + 1 = qz 11) by (vm_compute; reflexivity).
    assert (LOW : qz 11 <= s); [|qlra].
    assert (EDGES : forall e, In e (g_edges bf_graph) -> e = 0%nat /\ e_from bf_graph e = 1%nat /\ e_to bf_graph e = 2%nat /\ e_id bf_graph e = 0%nat \/
       e = 1%nat /\ e_from bf_graph e = 1%nat /\ e_to bf_graph e = 3%nat /\ e_id bf_graph e = 1%nat \/
       e = 2%nat /\ e_from bf_graph e = 3%nat /\ e_to bf_graph e = 2%nat /\ e_id bf_graph e = 2%nat).
    { intros e X. assert (X' : In e [0; 1; 2]%nat) by exact X. destruct X' as [<-|[<-|[<-|[]]]]; vm_compute; auto 10. }
    assert (MON : forall v k t s, walk bf_graph bf_bad [1; 2; 3]%nat 2 0 PInf v k t s -> t <= s).
    { intros v k0 t0 s0 W0. induction W0 as [|e k0 t0 s0 f c P1 P2 I1 I2 N EV W0 IH]; [qlra|].
      assert (G : good_cost 0 PInf f) by (apply good_costb_ok; apply nth_error_In in N; destruct N as [<-|[<-|[<-|[]]]]; vm_compute; reflexivity).
      pose proof (gc_nonneg _ _ _ G t0 c P1 P2 EV). qlra. }
    inversion W as [|e k0 t0 s0 f c P1 P2 I1 I2 N EV W0]; subst.
    destruct (EDGES e I1) as [(-> & _ & _ & F)|[(-> & _ & _ & F)|(-> & F0 & _ & _)]]; [| |congruence].
    + rewrite F in N. cbn in N. injection N as <-. apply MON in W0.
      assert (X : pl_eval bf_d0 (qz 5) = Ok (qz 6)) by (apply is_val_ok; vm_compute; reflexivity). rewrite EV in X. apply ok_inj in X. subst c.
      assert (qz 5 + qz 6 = qz 11) by (vm_compute; reflexivity). qlra.
    + rewrite F in N. cbn in N. injection N as <-. apply MON in W0.
      assert (X : pl_eval bf_d1 (qz 5) = Ok (qz 10)) by (apply is_val_ok; vm_compute; reflexivity). rewrite EV in X. apply ok_inj in X. subst c.
      assert (qz 11 <= qz 5 + qz 10) by (vm_compute; discriminate). qlra.
Qed.
Print Assumptions C43_refuted.

(** With a finite horizon, an edge that cannot be traversed before the
    horizon makes the search raise instead of being skipped. *)
Definition C43_horizon_claim : Prop := forall fuel g sink costs interesting phi horizon,
  consistent g -> phi < horizon -> (forall c, In c costs -> good_cost phi PInf c) ->
  bellman_ford fuel g sink costs interesting phi (Fin horizon) <> Err AssertionError.
Theorem C43_horizon_refuted : ~ C43_horizon_claim.
Proof.
  intro C. apply (C 5%nat (grun [GAdd 1 2]%nat) 2%nat [bf_c2] [1; 2]%nat 0 1).
  - apply grun_consistent; cbn; auto.
  - vm_compute. reflexivity.
  - intros c [<-|[]]. apply good_costb_ok. vm_compute. reflexivity.
  - vm_compute. reflexivity.
Qed.
Print Assumptions C43_horizon_refuted.

(** The arrival functions of costs that are not quite FIFO are repaired: same
    breakpoints and domain, non-decreasing values, at most [eps] above the input
    except where arriving before departing had to be ruled out, and a last slope
    of at least 1.  Anything further from FIFO makes the search raise. *)
Lemma fifo_values_spec : forall l prev rs, fifo_values prev l = Ok rs ->
  Forall2 (fun p w => snd p <= w /\ fst p <= w /\ w <= qmax (snd p + eps) (fst p)) l rs /\ StronglySorted Qcle (prev :: rs).
Proof.
  induction l as [|[t v] l IH]; intros prev rs H; cbn [fifo_values] in H.
  - apply ok_inj in H. subst rs. split; constructor; constructor.
  - apply bind_ok in H. destruct H as ([] & A & H). apply assertb_ok in A. apply qleb_true in A. cbv zeta in H. apply bind_ok in H. destruct H as (rs' & F & H). apply ok_inj in H. subst rs.
    destruct (IH _ _ F) as [I1 I2]. pose proof eps_pos as EP. inversion I2 as [|? ? S1 S2]; subst. split.
    + constructor; [|exact I1]. cbn [fst snd]. clear - A EP. generalize dependent eps. intros e A EP. qmm; split; try split; qlra.
    + constructor; [constructor; assumption|]. assert (P : prev <= qmax (qmax prev v) t) by (clear; qmm; qlra).
      constructor; [exact P|]. eapply Forall_impl; [|exact S2]. intros w W. cbv beta in W. eapply Qcle_trans; eauto.
Qed.
Theorem C43_fifo_repair : forall f n, valid f -> get_fifo_arrival_time f = Ok n ->
  valid n /\ pl_times n = pl_times f /\ pl_lo n = pl_lo f /\ pl_hi n = pl_hi f /\ pl_first n = pl_first f /\ pl_last n = qmax (pl_last f) 1 /\
  nondecreasing (pl_values n) /\
  (forall v w, nth_error (pl_values f) 0 = Some v -> nth_error (pl_values n) 0 = Some w -> w = v) /\
  forall i t v w, nth_error (pl_times f) (S i) = Some t -> nth_error (pl_values f) (S i) = Some v -> nth_error (pl_values n) (S i) = Some w ->
    v <= w /\ t <= w /\ w <= qmax (v + eps) t.
Proof.
  intros f n V H. unfold get_fifo_arrival_time in H. apply bind_ok in H. destruct H as (vals & HV & H). apply bind_ok in H. destruct H as (m & HM & H). apply ok_inj in H.
  apply pl_init_inv in HM. destruct HM as [-> VM]. cbn [pl_last pl_times pl_values pl_first pl_lo pl_hi] in H.
  assert (VN : valid n) by (destruct (qltb (pl_last f) 1); subst n; [destruct VM as [A B C D]; constructor; assumption|exact VM]).
  split; [exact VN|]. assert (E : pl_values n = vals) by (destruct (qltb (pl_last f) 1); subst n; reflexivity). rewrite E.
  split; [destruct (qltb (pl_last f) 1); subst n; reflexivity|]. split; [destruct (qltb (pl_last f) 1); subst n; reflexivity|]. split; [destruct (qltb (pl_last f) 1); subst n; reflexivity|]. split; [destruct (qltb (pl_last f) 1); subst n; reflexivity|].
  split. { destruct (qltbP (pl_last f) 1) as [Q|Q]; subst n; cbn [pl_last]; unfold qmax; [destruct (qltbP (pl_last f) 1) as [|]; [reflexivity|contradiction]|destruct (qltbP (pl_last f) 1); [contradiction|reflexivity]]. }
  destruct (pl_values f) as [|v0 r]; [apply ok_inj in HV; subst vals; split; [constructor|]; split; [intros v w X; discriminate X|intros i t v w _ X; discriminate X]|].
  apply bind_ok in HV. destruct HV as (rs & F & HV). apply ok_inj in HV. subst vals. destruct (fifo_values_spec _ _ _ F) as [F1 F2]. split; [exact F2|].
  split; [cbn; intros v w X Y; congruence|]. intros i t v w T VV W. cbn [nth_error] in VV, W. destruct (pl_times f) as [|t0 ts]; [discriminate T|]. cbn [nth_error tl] in T, F1.
  assert (P : nth_error (combine ts r) i = Some (t, v)).
  { clear - T VV. revert ts r T VV. induction i as [|i IH]; intros [|a ts] [|b r] T VV; try discriminate; cbn in *; [congruence|auto]. }
  clear - P W F1. revert i P W. induction F1 as [|p x l k R F1 IH]; intros [|i] P W; try discriminate; cbn [nth_error] in P, W; [injection P as ->; injection W as ->; exact R|eauto].
Qed.
Print Assumptions C43_fifo_repair.
(** A cost that falls by 2 on [0,2] and stays below zero slope: raised to the departure time; a bigger fall raises. *)
Example C43_fifo_repair_example : match get_fifo_arrival_time (mkPL [0; qz 2] [1; 1] 1 (Q2Qc (1 # 2)) (Fin 0) PInf), get_fifo_arrival_time (mkPL [0; qz 2] [qz 3; 1] 1 1 (Fin 0) PInf) with
  | Ok n, Err AssertionError => match pl_values n with [a; b] => qeqb a 1 && qeqb b (qz 2) && qeqb (pl_last n) 1 | _ => false end | _, _ => false end = true.
Proof. vm_compute. reflexivity. Qed.
