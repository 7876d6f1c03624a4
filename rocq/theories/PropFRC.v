(** * Properties C26-C29: rate collections (src/core/flow_rates_collection.py) *)
From Verif Require Import Base Spec Arrays ArraysProofs PL PLProofs PLEval PLArith PLOps PLOps2 RC RCProofs RCOps FRC FRCProofs FRCExact PropPL.

(** A new collection, [FlowRatesCollection()]. *)
Lemma new_collection : frc_init [] = Ok frc_empty.
Proof. exact frc_init_nil. Qed.

(** ** C26 *)
(** Every history of extensions (times non-decreasing from 0 on, positive
    rates) and queries in any order: each call returns what the specification
    returns; in particular extensions never raise, and a query raises
    ValueError exactly if it is for a time before the snapshot served last. *)
Theorem C26_history : forall ops c, valid_history ops -> frc_init [] = Ok c ->
  snd (frc_run c ops) = snd (fs_run fs_new ops).
Proof.
  intros ops c [H1 H2] E. rewrite new_collection in E. apply ok_inj in E. subst c.
  apply (frc_sim ops frc_empty fs_new 0 []); auto. exact empty_inv.
Qed.
Print Assumptions C26_history.

Lemma latest_nth t s d : forall l, latest l t = Some (s, d) ->
  exists k s0, nth_error l k = Some (s0, d) /\ s0 <= t /\ forall k' p, (k < k')%nat -> nth_error l k' = Some p -> t < fst p.
Proof.
  induction l as [|p r IH]; cbn [latest]; [discriminate|].
  destruct (latest r t) as [q|] eqn:Q.
  - intro L. destruct (IH L) as [k [s' [K1 [K2 K3]]]]. exists (S k), s'. split; [exact K1|]. split; [exact K2|].
    intros [|k'] x Hk Hx; [lia|]. apply (K3 k' x); [lia|exact Hx].
  - destruct (qlebP (fst p) t) as [D|D]; [|discriminate]. intro L. injection L as ->. exists 0%nat, s. split; [reflexivity|]. split; [exact D|].
    intros [|k'] x Hk Hx; [lia|]. cbn [nth_error] in Hx; apply nth_error_In in Hx. exact (latest_none _ _ Q x Hx).
Qed.
(** The specification's answer, read off the list of all snapshots. *)
Theorem C26_query : forall ops t c, valid_history ops -> frc_init [] = Ok c ->
  let floor := fs_floor (fst (fs_run fs_new ops)) in
  let snaps := (0, []) :: snaps_of (exts ops) in
  match frc_get (fst (frc_run c ops)) t with
  | Ok (_, d) => floor <= t /\
      exists k s, nth_error snaps k = Some (s, d) /\ s <= t /\
        forall k' p, (k < k')%nat -> nth_error snaps k' = Some p -> t < fst p
  | Err e => e = ValueError /\ t < floor
  end.
Proof.
  intros ops t c [H1 H2] E. rewrite new_collection in E. apply ok_inj in E. subst c. cbv zeta.
  destruct (frc_sim ops frc_empty fs_new 0 [] empty_inv eq_refl H1 H2) as [_ [T [v [I HT]]]].
  pose proof (fs_run_snaps ops fs_new ltac:(auto)) as ES. cbn [fs_new fs_snaps app] in ES.
  destruct (frc_get_ok _ _ T v t I) as [G1 G2]. rewrite HT in G1, G2.
  destruct (qltbP t (fs_floor (fst (fs_run fs_new ops)))) as [C|C].
  - rewrite (G1 C). auto.
  - destruct G2 as [c' [[s d] [E [L _]]]]; [qlra|]. rewrite E. cbn [snd]. split; [qlra|]. rewrite ES in L.
    exact (latest_nth t s d _ L).
Qed.
Print Assumptions C26_query.

(** A collection built from given rate functions serves their values: for
    queries at non-decreasing times the k-th answer lists exactly the positive
    values of the functions at the k-th time. *)
Theorem C26_from_functions : forall fns, rate_fns fns -> fns <> [] -> separated (all_times fns) ->
  exists c, frc_init fns = Ok c /\
  forall qs, nondecreasing (0 :: qs) -> forall k t, nth_error qs k = Some t ->
   exists d, nth_error (snd (frc_run c (map Get qs))) k = Some (Ok (Some d)) /\ is_snapshot d /\
     (forall i f, In (i, f) fns -> rc_eval f t = Ok (rate d i)) /\
     (forall i, ~ In i (map fst fns) -> rate d i = 0).
Proof.
  intros fns RF Ne Sep. destruct (frc_init_ok fns RF Ne Sep) as [c [snaps [T [v [E [EF [I [HT [_ [LT _]]]]]]]]]].
  exists c. split; [exact E|]. clear E.
  assert (K : forall qs c', frc_inv c' snaps T v -> nondecreasing (head_time c' :: qs) -> forall k t, nth_error qs k = Some t ->
    exists p, nth_error (snd (frc_run c' (map Get qs))) k = Some (Ok (Some (snd p))) /\ latest snaps t = Some p).
  { induction qs as [|q qs IH]; intros c' I' N k t Hk; [destruct k; discriminate|]. cbn [map frc_run frc_step].
    inversion N as [|? ? N1 N2]; subst. apply Forall_inv in N2 as N3.
    destruct (proj2 (frc_get_ok c' snaps T v q I') N3) as [c2 [p [E2 [L2 [I2 [H2 _]]]]]]. rewrite E2.
    destruct (frc_run c2 (map Get qs)) as [c3 xs] eqn:R. cbn [snd]. destruct k as [|k].
    - cbn in Hk. injection Hk as <-. exists p. split; [reflexivity|exact L2].
    - cbn [nth_error] in Hk |- *. destruct (IH c2 I2) with (k := k) (t := t) as [p' [Q1 Q2]]; [|exact Hk|rewrite R in Q1; exists p'; auto].
      inversion N1 as [|? ? N4 N5]; subst. constructor; [exact N4|]. rewrite H2. apply latest_some in L2.
      eapply Forall_impl; [|exact N5]. intros x Hx. cbn beta in Hx. qlra. }
  intros qs N k t Hk. destruct (K qs c I ltac:(rewrite HT; exact N) k t Hk) as [p [Q1 Q2]].
  assert (T0 : 0 <= t). { inversion N as [|? ? N1 N2]; subst. rewrite Forall_forall in N2. apply N2. eapply nth_error_In. exact Hk. }
  exists (snd p). split; [exact Q1|]. split; [apply (fi_snap _ _ _ _ I p), latest_some in Q2 || (apply latest_some in Q2; apply (fi_snap _ _ _ _ I p), Q2)|].
  assert (LR : latest_rates snaps t = snd p) by (unfold latest_rates; rewrite Q2; reflexivity). split.
  - intros i f Hi. pose proof RF as [ND F]. destruct (F i f Hi) as [V [Lo [Hi' _]]].
    rewrite (reval_at f V t) by (split; rewrite ?Lo, ?Hi'; cbn; auto). f_equal. rewrite <- LR, (LT t i T0).
    unfold fn_of. rewrite (In_dget fns i f ND Hi). reflexivity.
  - intros i Hi. rewrite <- LR, (LT t i T0). unfold fn_of. rewrite (proj2 (dget_None fns i) Hi). apply new_fn_at.
Qed.
Print Assumptions C26_from_functions.

(** ** C27 *)
(** For every history: the rate function of commodity i at time t is within
    eps of i's rate in the latest snapshot at or before t, provided no
    extension happened in the eps-window right after t.  A commodity without a
    rate function never had a rate. *)
Theorem C27_tolerance : forall ops c, valid_history ops -> frc_init [] = Ok c ->
  let c' := fst (frc_run c ops) in
  let snaps := (0, []) :: snaps_of (exts ops) in
  forall i t, 0 <= t -> (forall s, In s (times_of (exts ops)) -> s <= t \/ t + eps < s) ->
  match dget (c_fns c') i with
  | Some f => exists y, rc_eval f t = Ok y /\ qabs (y - rate (latest_rates snaps t) i) <= eps
  | None => rate (latest_rates snaps t) i = 0
  end.
Proof.
  intros ops c [H1 H2] E. rewrite new_collection in E. apply ok_inj in E. subst c. cbv zeta. intros i t Ht HS.
  destruct (frc_sim ops frc_empty fs_new 0 [] empty_inv eq_refl H1 H2) as [_ [T [v [I HT]]]].
  pose proof (fs_run_snaps ops fs_new ltac:(auto)) as ES. cbn [fs_new fs_snaps app] in ES. rewrite ES in I.
  destruct (dget _ i) as [f|] eqn:Ed.
  - destruct (fi_fns _ _ _ _ I i f Ed) as [V Lo Hi _ _]. exists (rc_at f t).
    split; [apply reval_at; [exact V|split; rewrite ?Lo, ?Hi; cbn; auto]|].
    assert (Q : fn_of (c_fns (fst (frc_run frc_empty ops))) i = f) by (unfold fn_of; rewrite Ed; reflexivity).
    rewrite <- Q. apply (fi_tol _ _ _ _ I i t Ht). intros p [<-|Hp]; [left; exact Ht|].
    apply HS. unfold snaps_of in Hp. apply in_map_iff in Hp. destruct Hp as [e [<- He]]. unfold times_of. apply in_map_iff. exists e. auto.
  - unfold latest_rates. destruct (latest _ t) as [p|] eqn:L; [|reflexivity]. apply latest_some in L. destruct L as [L _].
    unfold rate. destruct (dget (snd p) i) eqn:Ep; [|reflexivity]. exfalso.
    pose proof (fi_keys _ _ _ _ I p i L) as K. unfold dhas in K. rewrite Ed, Ep in K. specialize (K eq_refl). discriminate.
Qed.
Print Assumptions C27_tolerance.

(** Exact version: if distinct extension times are more than eps apart and
    consecutive rates and totals are equal or more than eps apart. *)
Theorem C27_exact : forall ops c, valid_history ops -> frc_init [] = Ok c ->
  separated (0 :: times_of (exts ops)) -> changes_clear [] 0 (exts ops) ->
  let c' := fst (frc_run c ops) in
  let snaps := (0, []) :: snaps_of (exts ops) in
  forall i t, 0 <= t ->
  match dget (c_fns c') i with
  | Some f => rc_eval f t = Ok (rate (latest_rates snaps t) i)
  | None => rate (latest_rates snaps t) i = 0
  end.
Proof.
  intros ops c [H1 H2] E SP CC. rewrite new_collection in E. apply ok_inj in E. subst c. cbv zeta. intros i t Ht.
  destruct (frc_run_exact ops frc_empty es0 0 [] 0 empty_inv empty_exact H1 H2 SP CC) as [T [v [s [I X]]]].
  pose proof (fx_rate _ _ _ _ X i t Ht) as Q. cbn [es0 app snaps_of map fst] in Q, I. unfold fn_of in Q. unfold snaps_of in *. destruct (dget _ i) as [f|] eqn:Ed.
  - destruct (fi_fns _ _ _ _ I i f Ed) as [V Lo Hi _ _]. rewrite (reval_at f V t) by (split; rewrite ?Lo, ?Hi; cbn; auto). f_equal. exact Q.
  - rewrite new_fn_at in Q. symmetry. exact Q.
Qed.
Print Assumptions C27_exact.

(** ** C28 *)
(** [accumulative] starts at 0 and grows, on every interval without an
    extension strictly inside, with the total rate of the latest extension. *)
Theorem C28_accumulative : forall ops c, valid_history ops -> frc_init [] = Ok c ->
  separated (0 :: times_of (exts ops)) -> changes_clear [] 0 (exts ops) ->
  let F := c_acc (fst (frc_run c ops)) in
  pl_eval F 0 = Ok 0 /\
  forall a b, 0 <= a -> a <= b -> (forall s, In s (times_of (exts ops)) -> s <= a \/ b <= s) ->
    exists ya yb, pl_eval F a = Ok ya /\ pl_eval F b = Ok yb /\ yb - ya = latest_total (exts ops) a * (b - a).
Proof.
  intros ops c [H1 H2] E SP CC. rewrite new_collection in E. apply ok_inj in E. subst c. cbv zeta.
  destruct (frc_run_exact ops frc_empty es0 0 [] 0 empty_inv empty_exact H1 H2 SP CC) as [T [v [s [I X]]]].
  set (F := c_acc _) in *.
  assert (D : forall t, 0 <= t -> pl_eval F t = Ok (pl_at F t)).
  { intros t Ht. apply eval_at; [apply (fi_av _ _ _ _ I)|]. split; [unfold F; rewrite (fi_alo _ _ _ _ I); exact Ht|unfold F; rewrite (fi_ahi _ _ _ _ I); exact Logic.I]. }
  split; [rewrite D by qlra; f_equal; apply (fx_zero _ _ _ _ X)|].
  intros a b Ha Hb HS. exists (pl_at F a), (pl_at F b). split; [apply D; exact Ha|]. split; [apply D; qlra|].
  unfold F. rewrite (fx_area _ _ _ _ X a b Ha Hb).
  - f_equal. cbn [es0 app latest_total]. destruct (latest (snaps_of (exts ops)) a) eqn:L; [reflexivity|].
    assert (Z : latest_total (exts ops) a = 0).
    { destruct (exts ops) as [|[[t0 d0] s0] r]; [reflexivity|]. cbn [latest_total snaps_of map fst latest] in L |- *.
      unfold snaps_of. destruct (latest (map fst r) a); [discriminate|]. destruct (qleb t0 a); [discriminate|reflexivity]. }
    rewrite Z. destruct (qleb 0 a); reflexivity.
  - intros x [<-|Hx]; [left; exact Ha|apply HS; exact Hx].
Qed.
Print Assumptions C28_accumulative.

(** For a collection built from functions the slope is the sum of the functions. *)
Theorem C28_from_functions : forall fns, rate_fns fns -> fns <> [] -> separated (all_times fns) ->
  exists c, frc_init fns = Ok c /\ pl_eval (c_acc c) 0 = Ok 0 /\
  forall a b, 0 <= a -> a <= b -> (forall s, In s (all_times fns) -> s <= a \/ b <= s) ->
    exists ya yb vs, pl_eval (c_acc c) a = Ok ya /\ pl_eval (c_acc c) b = Ok yb /\
      mapM (fun p => rc_eval (snd p) a) fns = Ok vs /\ yb - ya = fold_right Qcplus 0 vs * (b - a).
Proof.
  intros fns RF Ne Sep. destruct (frc_init_ok fns RF Ne Sep) as [c [snaps [T [v [E [EF [I [HT [_ [_ [Z AR]]]]]]]]]]].
  exists c. split; [exact E|].
  assert (D : forall t, 0 <= t -> pl_eval (c_acc c) t = Ok (pl_at (c_acc c) t)).
  { intros t Ht. apply eval_at; [apply (fi_av _ _ _ _ I)|]. split; [rewrite (fi_alo _ _ _ _ I); exact Ht|rewrite (fi_ahi _ _ _ _ I); exact Logic.I]. }
  split; [rewrite D by qlra; rewrite Z; reflexivity|]. intros a b Ha Hb HS.
  exists (pl_at (c_acc c) a), (pl_at (c_acc c) b), (map (fun p => rc_at (snd p) a) fns).
  split; [apply D; exact Ha|]. split; [apply D; qlra|]. split.
  - apply mapM_ok. intros [i f] Hi. cbn [snd]. pose proof RF as [_ F]. destruct (F i f Hi) as [V [Lo [Hi' _]]].
    apply reval_at; [exact V|]. split; rewrite ?Lo, ?Hi'; cbn; auto.
  - rewrite (AR a b Ha Hb HS). f_equal. clear. induction fns as [|[i f] r IH]; cbn [map rsum snd fold_right]; [reflexivity|]. rewrite IH. reflexivity.
Qed.
Print Assumptions C28_from_functions.

(** ** C29 *)
(** Unpickling a pickled collection gives the same collection back, for every
    collection reachable from a new one (or one built from functions) by any
    history; so all later calls agree. *)
Lemma chain_roundtrip c : (forall it, In it (c_chain c) -> forall i x, In (i, x) (it_vals it) -> 0 < x) -> frc_setstate (frc_getstate c) = Ok c.
Proof.
  intro H. unfold frc_setstate, frc_getstate. cbn [st_queue st_fns st_acc].
  assert (Q : forall l, (forall it, In it l -> forall i x, In (i, x) (it_vals it) -> 0 < x) ->
    mapM (fun p => new_item (fst p) (snd p)) (map (fun it => (it_time it, it_vals it)) l) = Ok l).
  { induction l as [|it r IH]; intro K; [reflexivity|]. cbn [map mapM fst snd]. rewrite new_item_ok by (apply K; left; reflexivity). cbn [bind].
    rewrite IH by (intros; eapply K; [right; eassumption|eassumption]). cbn [bind]. destruct it. reflexivity. }
  rewrite (Q _ H). cbn [bind]. destruct c. reflexivity.
Qed.
Lemma run_chain_pos ops : forall c, (forall it, In it (c_chain c) -> forall i x, In (i, x) (it_vals it) -> 0 < x) ->
  forall it, In it (c_chain (fst (frc_run c ops))) -> forall i x, In (i, x) (it_vals it) -> 0 < x.
Proof.
  induction ops as [|o r IH]; intros c H; cbn [frc_run]; [exact H|].
  assert (K : forall it, In it (c_chain (fst (frc_step c o))) -> forall i x, In (i, x) (it_vals it) -> 0 < x).
  { destruct o as [t d s|t]; cbn [frc_step].
    - destruct (frc_extend c t d s) as [c'|] eqn:E; [|exact H]. cbn [fst]. unfold frc_extend in E. binv E. apply new_item_inv in E0. destruct E0 as [-> P].
      binv E. binv E. apply ok_inj in E. subst c'. cbn [c_chain]. intros it I. apply in_app_or in I. destruct I as [I|[<-|[]]]; [apply H; exact I|exact P].
    - destruct (frc_get c t) as [[c' w]|] eqn:E; [|exact H]. cbn [fst]. unfold frc_get in E. destruct (c_chain c) as [|h l] eqn:EC; [apply ok_inj in E; injection E as <- _; rewrite EC; exact H|].
      destruct (qltb t (it_time h)); [discriminate|]. destruct (advance_head h l t) as [|h' l'] eqn:A; [discriminate|]. apply ok_inj in E. injection E as <- _. cbn [c_chain].
        assert (S : forall l h x, In x (advance_head h l t) -> In x (h :: l)).
        { clear. induction l as [|n l IH]; intros h x; cbn [advance_head]; [auto|]. destruct (qleb (it_time n) t); [|auto]. intro I. right. apply IH. exact I. }
        intros it I. apply H. rewrite <- A in I. apply S. exact I. }
  destruct (frc_step c o) as [c' x]. cbn [fst] in K. specialize (IH c' K). destruct (frc_run c' r) as [c'' xs]. exact IH.
Qed.
Theorem C29_roundtrip : forall fns c ops, frc_init fns = Ok c ->
  let c1 := fst (frc_run c ops) in
  frc_setstate (frc_getstate c1) = Ok c1 /\
  forall c2 ops', frc_setstate (frc_getstate c1) = Ok c2 -> frc_run c2 ops' = frc_run c1 ops'.
Proof.
  intros fns c ops E c1.
  assert (R : frc_setstate (frc_getstate c1) = Ok c1).
  { apply chain_roundtrip. apply run_chain_pos. unfold frc_init in E. binv E. binv E. binv E. binv E. apply ok_inj in E. subst c. cbn [c_chain].
    intros it I. destruct I as [<-|I]; [apply new_item_inv in E0; destruct E0 as [-> E0]; exact E0|].
    clear - E3 I. revert a2 E3 I. generalize (fold_left (fun ts p => merge_sorted ts (rc_times (snd p))) fns []). intro l.
    induction l as [|t l IH]; intros a2 E I; cbn [mapM] in E; [apply ok_inj in E; subst; destruct I|].
    binv E. binv E0. binv E. apply ok_inj in E. subst a2. destruct I as [<-|I]; [apply new_item_inv in E0; destruct E0 as [-> E0]; exact E0|eapply IH; eassumption]. }
  split; [exact R|]. intros c2 ops' E2. rewrite R in E2. apply ok_inj in E2. subst. reflexivity.
Qed.
Print Assumptions C29_roundtrip.

(** ** Non-vacuity *)
Fixpoint nodup_b (l : list nat) : bool := match l with [] => true | x :: r => (negb (existsb (Nat.eqb x) r) && nodup_b r)%bool end.
Lemma nodup_b_ok l : nodup_b l = true -> NoDup l.
Proof.
  induction l as [|x r IH]; cbn [nodup_b]; intro H; constructor; apply andb_prop in H; destruct H as [H1 H2]; auto.
  intro I. apply negb_true_iff in H1. rewrite <- not_true_iff_false in H1. apply H1. apply existsb_exists. exists x. rewrite Nat.eqb_refl. auto.
Qed.
Lemma snapshot_b d : (nodup_b (map fst d) && forallb (fun p => qltb 0 (snd p)) d)%bool = true -> is_snapshot d.
Proof.
  intro H. apply andb_prop in H. destruct H as [H1 H2]. split; [apply nodup_b_ok; exact H1|].
  intros i v I. apply (proj1 (forallb_forall _ _) H2) in I. apply qltb_true in I. exact I.
Qed.
Definition ex_hist : list fop :=
  [ Extend 0 [(0%nat, 1%Qc); (1%nat, 1 + 1)] (1+1+1); Get 1; Extend (1+1) [(1%nat, 1%Qc)] 1; Get (1+1+1); Get 1 ].
Definition ex_c : FRC := fst (frc_run frc_empty ex_hist).
Example ex_valid_history : valid_history ex_hist.
Proof.
  split.
  - cbn. repeat constructor; try qlra.
  - intros t v s [H|[H|[]]]; injection H as <- <- <-; apply snapshot_b; vm_compute; reflexivity.
Qed.
Example ex_outcomes : match snd (frc_run frc_empty ex_hist) with
  | [Ok None; Ok (Some a); Ok None; Ok (Some b); Err ValueError] =>
      (eqlist (map snd a) [1%Qc; 1 + 1] && eqlist (map snd b) [1%Qc])%bool
  | _ => false end = true.
Proof. vm_compute. reflexivity. Qed.
(** The example also meets the separation hypotheses of C27_exact and C28. *)
Example ex_separated : separated (0 :: times_of (exts ex_hist)) /\ changes_clear [] 0 (exts ex_hist).
Proof.
  split.
  - intros x y Hx Hy. cbn in Hx, Hy. unfold gap. intuition subst; qlra.
  - cbn [exts ex_hist changes_clear].
    assert (D : forall a b : Qc, (qeqb a b || qltb eps (qabs (a - b)))%bool = true -> rate_clear a b).
    { intros a b H. apply orb_prop in H. destruct H as [H|H]; [left; apply qeqb_true; exact H|right; apply qltb_true; exact H]. }
    repeat split; try (apply D; vm_compute; reflexivity); intros [|[|i]]; apply D; vm_compute; reflexivity.
Qed.
(** Two functions: f0 = 1 on [0,2), 3 afterwards; f1 = 2 from time 1 on. *)
Definition ex_fns : list (nat * RC) :=
  [ (0%nat, mkRC [0; 1+1] [1; 1+1+1] (Fin 0) PInf); (3%nat, mkRC [0; 1] [0; 1+1] (Fin 0) PInf) ].
Example ex_rate_fns : rate_fns ex_fns /\ ex_fns <> [] /\ separated (all_times ex_fns).
Proof.
  assert (P1 : (0:Qc) < 1) by qlra.
  split; [split|split; [discriminate|]].
  - apply nodup_b_ok. reflexivity.
  - intros i f [H|[H|[]]]; injection H as <- <-.
    + split; [|split; [reflexivity|split; [reflexivity|split; [left; reflexivity|]]]].
      * constructor; cbn [rc_times rc_values]; [reflexivity|discriminate| |].
        -- unfold increasing. repeat constructor; qlra.
        -- intros t [<-|[<-|[]]]; (split; [|exact Logic.I]); cbn [rc_lo ext_le]; qlra.
      * intros v [<-|[<-|[]]]; qlra.
    + split; [|split; [reflexivity|split; [reflexivity|split; [left; reflexivity|]]]].
      * constructor; cbn [rc_times rc_values]; [reflexivity|discriminate| |].
        -- unfold increasing. repeat constructor; qlra.
        -- intros t [<-|[<-|[]]]; (split; [|exact Logic.I]); cbn [rc_lo ext_le]; qlra.
      * intros v [<-|[<-|[]]]; qlra.
  - intros x y Hx Hy. cbn in Hx, Hy. unfold gap. intuition subst; qlra.
Qed.
Example ex_fns_init : match frc_init ex_fns with Ok c =>
    match snd (frc_run c [Get 0; Get 1; Get (1+1)]) with
    | [Ok (Some a); Ok (Some b); Ok (Some d)] => (eqlist (map snd a) [1%Qc] && eqlist (map snd b) [1%Qc; 1+1] && eqlist (map snd d) [1+1+1; 1+1])%bool
    | _ => false end | _ => false end = true.
Proof. vm_compute. reflexivity. Qed.
