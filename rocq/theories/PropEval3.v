(** * C59: merging commodities for the visualisation
      (src/visualization/to_json.py:13-35) *)
From Verif Require Import Base Spec Arrays ArraysProofs PL PLProofs PLEval RC RCProofs RCOps FRC FRCProofs FRCExact PQ PQSpec DynFlow DynRun Graph GraphSpec GraphProofs Dijkstra DijkstraProofs FlowBuilder FlowBuilderProofs Predictors Eval PropEval2.
From Verif Require PropRC.

(** ** Vocabulary *)
(** Total rate at [t] of the commodities listed in [coms]. *)
Definition total_rate (coms : list nat) (c : FRC) (t : Qc) : Qc :=
  fold_right Qcplus 0 (map (fun p => if mem (fst p) coms then match rc_eval (snd p) t with Ok y => y | Err _ => 0 end else 0) (c_fns c)).
(** A collection of rate functions (see C26, C28) with eps-separated breakpoints. *)
Definition good_col (c : FRC) : Prop := rate_fns (c_fns c) /\ separated (all_times (c_fns c)).
(** The total rate jumps by at least 1000 eps wherever it changes. *)
Definition clear_jumps (coms : list nat) (c : FRC) : Prop :=
  forall s t, 0 <= s -> s < t -> (forall x, In x (all_times (c_fns c)) -> x <= s \/ t <= x) ->
    total_rate coms c s = total_rate coms c t \/ eps1000 <= qabs (total_rate coms c s - total_rate coms c t).
(** [new] is [old] with the commodities [coms] merged into [m]. *)
Record merged_into (coms : list nat) (m : nat) (old new : FRC) : Prop := {
  mi_good : good_col new;
  mi_built : frc_init (c_fns new) = Ok new;
  mi_others : forall i, ~ In i coms -> dget (c_fns new) i = dget (c_fns old) i;
  mi_gone : forall i, In i coms -> i <> m -> dget (c_fns new) i = None;
  mi_present : dget (c_fns new) m <> None <-> exists i, In i coms /\ dget (c_fns old) i <> None;
  mi_total : clear_jumps coms old -> forall t, 0 <= t -> rate_of new m t = Ok (total_rate coms old t) }.

(** ** Good functions *)
Section Good.
Variable A : list Qc.
Hypothesis SEP : separated A.
Definition good (f : RC) : Prop :=
  rvalid f /\ rc_lo f = Fin 0 /\ rc_hi f = PInf /\ In 0 (rc_times f) /\ (forall v, In v (rc_values f) -> 0 <= v) /\ forall x, In x (rc_times f) -> In x A.
Lemma good_nonneg f : good f -> forall t, 0 <= rc_at f t.
Proof. intros (V & _ & _ & _ & N & _) t. apply N, rc_at_in, V. Qed.
Lemma vals_at f v : rvalid f -> In v (rc_values f) -> exists t, In t (rc_times f) /\ rc_at f t = v.
Proof.
  intros V I. destruct (In_nth _ _ 0 I) as [k [Hk <-]]. rewrite (rv_len f V) in Hk. exists (nth k (rc_times f) 0). split; [apply nth_In, Hk|].
  pose proof (at_time f V (Z.of_nat k)) as E. unfold nthq in E. rewrite !Nat2Z.id in E. apply E. unfold rc_len, zlen. lia.
Qed.
Lemma good_eval f t : good f -> 0 <= t -> rc_eval f t = Ok (rc_at f t).
Proof. intros (V & L & H & _) P. apply (reval_at f V). split; [rewrite L; exact P|rewrite H; exact Logic.I]. Qed.
Lemma good_plus f g : good f -> good g -> exists p, rc_plus f g = Ok p /\ good p /\ forall t, rc_at p t = rc_at f t + rc_at g t.
Proof.
  intros G1 G2. pose proof G1 as (V1 & L1 & H1 & Z1 & N1 & T1). pose proof G2 as (V2 & L2 & H2 & Z2 & N2 & T2).
  destruct (rc_plus_ok f g V1 V2) as (p & E & VP & LP & HP & TP & _ & AP); [congruence|congruence| |].
  { intros x y X Y. apply in_app_or in X, Y. apply SEP; [destruct X; auto|destruct Y; auto]. }
  exists p. split; [exact E|]. split; [|exact AP]. split; [exact VP|]. split; [congruence|]. split; [congruence|]. split; [apply TP; left; exact Z1|]. split.
  - intros v I. destruct (vals_at p v VP I) as [t [_ <-]]. rewrite AP. pose proof (good_nonneg f G1 t). pose proof (good_nonneg g G2 t). qlra.
  - intros x X. apply TP in X. destruct X; auto.
Qed.
Lemma good_first f : good f -> nthq (rc_times f) 0 = 0.
Proof.
  intros (V & L & _ & Z & _). pose proof (rlen_pos f V) as LP.
  assert (I : In (nthq (rc_times f) 0) (rc_times f)) by (apply nthq_in; unfold rc_len in *; lia).
  destruct (rv_dom f V _ I) as [Q _]. rewrite L in Q. cbn [ext_le] in Q. destruct (In_nth _ _ 0 Z) as [k [Hk Ek]].
  assert (X : nthq (rc_times f) 0 <= nthq (rc_times f) (Z.of_nat k)) by (apply (rt_le f V); unfold rc_len, zlen; lia).
  unfold nthq in X at 2. rewrite Nat2Z.id, Ek in X. apply Qcle_antisym; assumption.
Qed.
Lemma simplify_keeps f p : rvalid f -> rc_simplify f = Ok p -> In (nthq (rc_times f) 0) (rc_times p) /\ forall v, In v (rc_values p) -> In v (rc_values f).
Proof.
  intros V E0. pose proof (rlen_pos f V) as LP. unfold rc_simplify in E0. rewrite (rget_t f) in E0 by lia. rewrite (rget_v f V) in E0 by lia. cbn [bind] in E0.
  destruct (rs_fold f V (length (rc_times f) - 1)) as [[T W] [E I]]; [unfold rc_len, zlen in *; lia|].
  change (foldM _ _ _) with (foldM (rsbody f) (seq 0 (length (rc_times f) - 1)) ([nthq (rc_times f) 0], [nthq (rc_values f) 0])) in E0.
  rewrite E in E0. cbn [bind fst snd] in E0. destruct I as [I1 I2 I3 I4 I5]. cbn [fst snd] in *.
  unfold rc_init in E0. destruct (zlen (rev W) =? zlen (rev T))%Z; cbn [assertb bind] in E0; [|discriminate E0].
  destruct (forallb _ _); cbn [assertb bind] in E0; [|discriminate E0].
  apply ok_inj in E0. subst p. cbn [rc_times rc_values]. split; [rewrite <- in_rev; exact I4|].
  intros v H. rewrite <- in_rev in H. rewrite I1 in H. apply in_map_iff in H. destruct H as [x [<- _]]. apply rc_at_in, V.
Qed.
Lemma good_simplify f : good f -> exists p, rc_simplify f = Ok p /\ good p /\ (steps_clear f -> forall t, rc_at p t = rc_at f t).
Proof.
  intros G. pose proof G as (V & L & H & Z & N & T). destruct (rc_simplify_ok f V) as (p & E & VP & LP & HP & TP & AP).
  destruct (simplify_keeps f p V E) as [K1 K2]. rewrite (good_first f G) in K1.
  exists p. split; [exact E|]. split; [|exact AP]. split; [exact VP|]. split; [congruence|]. split; [congruence|]. split; [exact K1|]. split; auto.
Qed.

(** ** The loop of merge_collection *)
Variables (coms : list nat) (m : nat).
Hypothesis Im : In m coms.
Definition msum (l : list (nat * RC)) (t : Qc) : Qc := sumq (fun p => if mem (fst p) coms then rc_at (snd p) t else 0) l.
Record minv (l d : list (nat * RC)) : Prop := {
  mv_nd : NoDup (map fst d);
  mv_good : forall i f, In (i, f) d -> good f;
  mv_others : forall i, ~ In i coms -> dget d i = dget l i;
  mv_gone : forall i, In i coms -> i <> m -> dget d i = None;
  mv_m : match dget d m with
         | None => forall i, In i coms -> dget l i = None
         | Some f => (exists i, In i coms /\ dget l i <> None) /\ forall t, rc_at f t = msum l t
         end }.
Lemma dget_snoc (l : list (nat * RC)) i f j : ~ In i (map fst l) -> dget (l ++ [(i, f)]) j = if Nat.eqb i j then Some f else dget l j.
Proof.
  induction l as [|[k g] l IH]; intro N; cbn [app dget]; [reflexivity|]. cbn [map fst] in N. destruct (Nat.eqb_spec k j) as [<-|NE].
  - destruct (Nat.eqb_spec i k) as [->|]; [exfalso; apply N; left; reflexivity|reflexivity].
  - apply IH. intro I. apply N. right. exact I.
Qed.
Lemma msum_none l t : (forall i, In i coms -> dget l i = None) -> msum l t = 0.
Proof.
  intro H. apply sumq_zero. intros [i f] I. cbn [fst snd]. destruct (mem i coms) eqn:M; [|reflexivity]. apply memP in M. specialize (H i M). apply dget_None in H. exfalso. apply H. change i with (fst (i, f)). apply in_map, I.
Qed.
Lemma set_good d i f : NoDup (map fst d) -> (forall i f, In (i, f) d -> good f) -> good f -> forall j g, In (j, g) (dset d i f) -> good g.
Proof.
  intros N G H j g I. pose proof (In_dget _ j g (dset_nd _ i f N) I) as E. rewrite dget_dset in E. destruct (Nat.eqb_spec i j) as [<-|]; [injection E as <-; exact H|]. apply (G j), dget_In, E.
Qed.
Lemma minv_step l d i f : minv l d -> ~ In i (map fst l) -> good f -> exists d', merge_step coms m d (i, f) = Ok d' /\ minv (l ++ [(i, f)]) d'.
Proof.
  intros [N G O X M] NI GF. unfold merge_step. cbn [fst snd]. destruct (mem i coms) eqn:IC; cbn [negb].
  - apply memP in IC. assert (SN : forall t, msum (l ++ [(i, f)]) t = msum l t + rc_at f t).
    { intro t. unfold msum. rewrite sumq_app. unfold sumq at 2. cbn [map fold_right fst snd]. apply memP in IC. rewrite IC. ring. }
    destruct (dget d m) as [g|] eqn:DM.
    + destruct M as [ME MR]. destruct (good_plus g f (G m g (dget_In _ _ _ DM)) GF) as (p & E & GP & AP). rewrite E. cbn [bind]. eexists. split; [reflexivity|].
      constructor; [apply dset_nd, N|apply set_good; assumption| | |].
      * intros j NJ. rewrite dget_dset, dget_snoc by exact NI. destruct (Nat.eqb_spec m j) as [<-|]; [contradiction|]. destruct (Nat.eqb_spec i j) as [<-|]; [contradiction|apply O, NJ].
      * intros j J NE. rewrite dget_dset. destruct (Nat.eqb_spec m j) as [<-|]; [contradiction|]. apply X; assumption.
      * rewrite dget_dset, Nat.eqb_refl. split; [exists i; split; [exact IC|rewrite dget_snoc, Nat.eqb_refl by exact NI; discriminate]|]. intro t. rewrite AP, MR, SN. reflexivity.
    + eexists. split; [reflexivity|]. constructor; [apply dset_nd, N|apply set_good; assumption| | |].
      * intros j NJ. rewrite dget_dset, dget_snoc by exact NI. destruct (Nat.eqb_spec m j) as [<-|]; [contradiction|]. destruct (Nat.eqb_spec i j) as [<-|]; [contradiction|apply O, NJ].
      * intros j J NE. rewrite dget_dset. destruct (Nat.eqb_spec m j) as [<-|]; [contradiction|]. apply X; assumption.
      * rewrite dget_dset, Nat.eqb_refl. split; [exists i; split; [exact IC|rewrite dget_snoc, Nat.eqb_refl by exact NI; discriminate]|]. intro t. rewrite SN, (msum_none l t M). ring.
  - apply mem_false in IC. assert (SN : forall t, msum (l ++ [(i, f)]) t = msum l t).
    { intro t. unfold msum. rewrite sumq_app. unfold sumq at 2. cbn [map fold_right fst snd]. apply mem_false in IC. rewrite IC. ring. }
    assert (NM : i <> m) by congruence.
    eexists. split; [reflexivity|]. constructor; [apply dset_nd, N|apply set_good; assumption| | |].
    + intros j NJ. rewrite dget_dset, dget_snoc by exact NI. destruct (Nat.eqb_spec i j) as [<-|]; [reflexivity|apply O, NJ].
    + intros j J NE. rewrite dget_dset. destruct (Nat.eqb_spec i j) as [<-|]; [contradiction|]. apply X; assumption.
    + rewrite dget_dset. destruct (Nat.eqb_spec i m) as [E|_]; [contradiction|]. destruct (dget d m) as [g|].
      * destruct M as [[j [J1 J2]] MR]. split; [|intro t; rewrite SN; apply MR]. exists j. split; [exact J1|]. rewrite dget_snoc by exact NI. destruct (Nat.eqb_spec i j); [discriminate|exact J2].
      * intros j J. rewrite dget_snoc by exact NI. destruct (Nat.eqb_spec i j) as [<-|]; [contradiction|apply M, J].
Qed.
Lemma minv_fold : forall r l d, minv l d -> NoDup (map fst (l ++ r)) -> (forall i f, In (i, f) r -> good f) ->
  exists d', foldM (merge_step coms m) r d = Ok d' /\ minv (l ++ r) d'.
Proof.
  induction r as [|[i f] r IH]; intros l d M N G; cbn [foldM].
  - exists d. rewrite app_nil_r. split; [reflexivity|exact M].
  - destruct (minv_step l d i f M) as (d1 & E & M1).
    + rewrite map_app in N. cbn [map fst] in N. apply NoDup_remove_2 in N. intro I. apply N, in_or_app. left. exact I.
    + apply (G i). left. reflexivity.
    + rewrite E. cbn [bind]. replace (l ++ (i, f) :: r) with ((l ++ [(i, f)]) ++ r) in * by (rewrite <- app_assoc; reflexivity).
      apply IH; [exact M1|exact N|]. intros j g J. apply (G j). right. exact J.
Qed.
Lemma minv_nil : minv [] [].
Proof. constructor; try (intros; reflexivity); [constructor|intros i f []|cbn [dget]; reflexivity]. Qed.
End Good.

Lemma just_before : forall (l : list Qc) s t, s < t -> exists u, s <= u /\ u < t /\ forall x, In x l -> x <= u \/ t <= x.
Proof.
  induction l as [|x l IH]; intros s t H; [exists s; split; [qlra|split; [exact H|intros x []]]|].
  destruct (IH s t H) as (u & U1 & U2 & U3). destruct (qlebP t x) as [T|T].
  - exists u. split; [exact U1|]. split; [exact U2|]. intros y [<-|Y]; [right; exact T|apply U3, Y].
  - destruct (qlebP x u) as [X|X].
    + exists u. split; [exact U1|]. split; [exact U2|]. intros y [<-|Y]; [left; exact X|apply U3, Y].
    + exists x. split; [qlra|]. split; [qlra|]. intros y [<-|Y]; [left; qlra|]. destruct (U3 y Y); [left; qlra|right; assumption].
Qed.
Lemma merge_collection_ok coms m old : In m coms -> good_col old -> exists new, merge_collection coms m old = Ok new /\ merged_into coms m old new.
Proof.
  intros Im [RF Sep]. set (A := all_times (c_fns old)) in *. pose proof RF as [ND F].
  assert (GA : forall i f, In (i, f) (c_fns old) -> good A f).
  { intros i f I. destruct (F i f I) as (V & L & H & Z & N). repeat (split; [assumption|]). intros x X. unfold A, all_times. apply in_concat. exists (rc_times f). split; [|exact X]. apply in_map. apply in_map_iff. exists (i, f). auto. }
  destruct (minv_fold A Sep coms m Im (c_fns old) [] [] (minv_nil A coms m) ND GA) as (d & E & [N G O X M]). cbn [app] in *.
  assert (TR : forall t, 0 <= t -> total_rate coms old t = msum coms (c_fns old) t).
  { intros t T. unfold total_rate, msum. change (sumq (fun p => if mem (fst p) coms then match rc_eval (snd p) t with Ok y => y | Err _ => 0 end else 0) (c_fns old) = sumq (fun p => if mem (fst p) coms then rc_at (snd p) t else 0) (c_fns old)).
    apply sumq_ext. intros [i f] I. cbn [fst snd]. rewrite (good_eval A f t (GA i f I) T). reflexivity. }
  unfold merge_collection. rewrite E. cbn [bind].
  assert (D' : exists d', match dget d m with Some f => g <- rc_simplify f ;; Ok (dset d m g) | None => Ok d end = Ok d' /\
     NoDup (map fst d') /\ (forall i f, In (i, f) d' -> good A f) /\ (forall i, i <> m -> dget d' i = dget d i) /\
     match dget d m with None => dget d' m = None
     | Some f => exists g, dget d' m = Some g /\ (steps_clear f -> forall t, rc_at g t = rc_at f t) end).
  { destruct (dget d m) as [f|] eqn:DM.
    - destruct (good_simplify A f (G m f (dget_In _ _ _ DM))) as (g & E1 & GG & AG). rewrite E1. cbn [bind]. eexists. split; [reflexivity|].
      split; [apply dset_nd, N|]. split; [apply set_good; assumption|]. split; [intros i NE; rewrite dget_dset; destruct (Nat.eqb_spec m i); [congruence|reflexivity]|].
      exists g. rewrite dget_dset, Nat.eqb_refl. auto.
    - exists d. split; [reflexivity|]. split; [exact N|]. split; [exact G|]. split; [intros; reflexivity|exact DM]. }
  destruct D' as (d' & E' & N' & G' & O' & M'). rewrite E'. cbn [bind].
  assert (RF' : rate_fns d'). { split; [exact N'|]. intros i f I. destruct (G' i f I) as (V & L & H & Z & NN & _). auto. }
  assert (Sep' : separated (all_times d')).
  { assert (K : forall x, In x (all_times d') -> In x A). { intros x I. unfold all_times in I. apply in_concat in I. destruct I as [l [I J]]. apply in_map_iff in I. destruct I as [f [<- I]]. apply in_map_iff in I. destruct I as [[i g] [<- I]]. apply (G' i g I), J. }
    intros x y Ix Iy. apply Sep; apply K; assumption. }
  assert (IN : exists new, frc_init d' = Ok new /\ c_fns new = d').
  { destruct d' as [|p d'']; [exists frc_empty; split; [apply frc_init_nil|reflexivity]|]. destruct (frc_init_ok (p :: d'') RF' ltac:(discriminate) Sep') as (c & snaps & T & v & E1 & E2 & _). exists c. auto. }
  destruct IN as (new & EN & FN). exists new. split; [exact EN|]. constructor; rewrite ?FN.
  - split; rewrite FN; assumption.
  - exact EN.
  - intros i NI. rewrite O' by congruence. apply O, NI.
  - intros i I NE. rewrite O' by exact NE. apply X; assumption.
  - destruct (dget d m) as [f|].
    + destruct M as [ME _], M' as [g [-> _]]. split; [intros _; exact ME|intros _; discriminate].
    + rewrite M'. split; [congruence|]. intros [i [I1 I2]]. exfalso. apply I2, M, I1.
  - intros CJ t T. unfold rate_of. rewrite FN. destruct (dget d m) as [f|] eqn:DM.
    + destruct M as [_ MR], M' as [g [DG AG]]. rewrite DG, (good_eval A g t (G' m g (dget_In _ _ _ DG)) T), TR by exact T. f_equal. rewrite AG; [apply MR|].
      pose proof (G m f (dget_In _ _ _ DM)) as GF. pose proof GF as (V & L & _). pose proof (good_first A f GF) as F0.
      intros i Hi. pose proof (rt_lt f V i (i+1) ltac:(lia) ltac:(unfold rc_len in *; lia)) as LT.
      destruct (just_before A _ _ LT) as (u & U1 & U2 & U3).
      assert (P0 : 0 <= nthq (rc_times f) i). { rewrite <- F0. apply (rt_le f V); unfold rc_len in *; lia. }
      assert (Eu : rc_at f u = nthq (rc_values f) i). { apply (at_ptr f V). split; [unfold rc_len in *; lia|]. split; [intros _; exact U1|intros _; exact U2]. }
      assert (P1 : 0 <= u) by (eapply Qcle_trans; eassumption). assert (P2 : 0 <= nthq (rc_times f) (i+1)) by (eapply Qcle_trans; [exact P1|apply Qclt_le_weak, U2]).
      specialize (CJ u (nthq (rc_times f) (i+1)) P1 U2 U3). rewrite !TR, <- !MR in CJ by assumption. rewrite Eu, (at_time f V) in CJ by lia. exact CJ.
    + rewrite M', TR by exact T. f_equal. symmetry. apply msum_none. exact M.
Qed.

(** ** C59 *)
Theorem C59_merge : forall coms inflow outflow, coms <> [] ->
  (forall c, In c inflow \/ In c outflow -> good_col c) ->
  exists m inflow' outflow', In m coms /\ (forall i, In i coms -> (m <= i)%nat) /\
    merge_commodities coms inflow outflow = Ok (inflow', outflow') /\
    Forall2 (merged_into coms m) inflow inflow' /\ Forall2 (merged_into coms m) outflow outflow'.
Proof.
  intros coms inflow outflow NE GC. destruct coms as [|c0 r]; [congruence|].
  assert (LM : forall l x, (list_min x l = x \/ In (list_min x l) l) /\ (list_min x l <= x)%nat /\ forall i, In i l -> (list_min x l <= i)%nat).
  { induction l as [|y l IH]; intro x; cbn [list_min]; [split; [left; reflexivity|split; [lia|intros i []]]|].
    destruct (IH (Nat.min x y)) as (I1 & I2 & I3). split; [|split; [lia|]].
    - destruct I1 as [I1|I1]; [|right; right; exact I1]. destruct (Nat.min_spec x y) as [[_ Q]|[_ Q]]; rewrite Q in *; [left; exact I1|right; left; symmetry; exact I1].
    - intros i [<-|I]; [lia|apply I3, I]. }
  destruct (LM r c0) as (L1 & L2 & L3). set (m := list_min c0 r) in *.
  assert (Im : In m (c0 :: r)) by (destruct L1 as [->|I]; [left; reflexivity|right; exact I]).
  assert (K : forall cs, (forall c, In c cs -> good_col c) -> exists cs', mapM (merge_collection (c0 :: r) m) cs = Ok cs' /\ Forall2 (merged_into (c0 :: r) m) cs cs').
  { induction cs as [|c cs IH]; intro G; cbn [mapM]; [exists []; split; [reflexivity|constructor]|].
    destruct (merge_collection_ok (c0 :: r) m c Im (G c ltac:(left; reflexivity))) as (c' & E & MI). destruct IH as (cs' & E' & F); [intros x X; apply G; right; exact X|].
    rewrite E. cbn [bind]. rewrite E'. cbn [bind]. exists (c' :: cs'). split; [reflexivity|constructor; assumption]. }
  destruct (K inflow (fun c I => GC c (or_introl I))) as (i' & E1 & F1). destruct (K outflow (fun c I => GC c (or_intror I))) as (o' & E2 & F2).
  exists m, i', o'. split; [exact Im|]. split; [intros i [<-|I]; auto|]. split; [|split; assumption].
  unfold merge_commodities. fold m. rewrite E1. cbn [bind]. rewrite E2. reflexivity.
Qed.
Print Assumptions C59_merge.
Theorem C59_empty : forall inflow outflow, merge_commodities [] inflow outflow = Ok (inflow, outflow).
Proof. reflexivity. Qed.
Print Assumptions C59_empty.

(** Without [clear_jumps] the merged rate is off by any amount: simplify drops
    small steps although they add up (cf. C22_unbounded_drift). *)
Definition stair0 (n : nat) : RC := mkRC (rc_times (PropRC.stair n)) (rc_values (PropRC.stair n)) (Fin 0) PInf.
Lemma stair0_valid n : rvalid (stair0 n).
Proof.
  destruct (PropRC.stair_valid n) as [V1 V2 V3 V4]. constructor; [exact V1|exact V2|exact V3|].
  intros t I. split; [|exact Logic.I]. cbn [rc_times stair0 PropRC.stair] in I. apply in_map_iff in I. destruct I as [k [<- _]]. apply qn_nonneg.
Qed.
Lemma stair0_simplify n : rc_simplify (stair0 n) = Ok (mkRC [qn 0] [qn 0 * PropRC.tiny] (Fin 0) PInf).
Proof.
  pose proof (PropRC.stair_simplify n) as E. unfold rc_simplify in *. cbn [rc_times rc_values rc_lo rc_hi stair0]. 
  destruct (pyget (rc_times (PropRC.stair n)) 0) as [t0|]; cbn [bind] in *; [|discriminate E].
  destruct (pyget (rc_values (PropRC.stair n)) 0) as [v0|]; cbn [bind] in *; [|discriminate E].
  destruct (foldM _ _ _) as [[T W]|]; cbn [bind] in *; [|discriminate E].
  unfold rc_init in *. destruct (zlen _ =? zlen _)%Z; cbn [assertb bind] in *; [|discriminate E].
  destruct (forallb _ (rev (fst (T, W)))) eqn:FA in E; cbn [assertb bind] in *; [|discriminate E]. apply ok_inj in E. injection E as E1 E2. cbn [fst snd] in *. rewrite E1, E2. reflexivity.
Qed.
Theorem C59_drift_refuted : forall tol, exists old new t, good_col old /\ 0 <= t /\ merge_collection [0%nat] 0 old = Ok new /\
  exists y, rate_of new 0 t = Ok y /\ tol < total_rate [0%nat] old t - y.
Proof.
  intro tol. destruct (PropRC.archi (tol / PropRC.tiny)) as [n Hn].
  assert (TP : 0 < PropRC.tiny) by (vm_compute; reflexivity).
  assert (B : tol < qn n * PropRC.tiny).
  { replace tol with (tol / PropRC.tiny * PropRC.tiny) by (field; intro; qlra). set (q := tol / PropRC.tiny) in *. qnra. }
  assert (V := stair0_valid n). set (old := mkFRC [(0%nat, stair0 n)] [] (c_acc frc_empty)).
  assert (GC : good_col old).
  { split.
    - split; [constructor; [intros []|constructor]|]. intros i f [E|[]]. injection E as <- <-. split; [exact V|]. split; [reflexivity|]. split; [reflexivity|]. split; [left; reflexivity|].
      intros v I. cbn [rc_values stair0 PropRC.stair] in I. apply in_map_iff in I. destruct I as [k [<- _]]. pose proof (qn_nonneg k). qnra.
    - intros x y X Y L. unfold all_times, old in X, Y. cbn [c_fns map snd concat app rc_times stair0 PropRC.stair] in X, Y. rewrite app_nil_r in X, Y. apply in_map_iff in X, Y. destruct X as [i [<- _]], Y as [j [<- _]].
      assert (H : (i < j)%nat). { destruct (Nat.lt_ge_cases i j) as [|G]; [assumption|exfalso]. destruct (Nat.eq_dec i j) as [->|]; [qlra|]. pose proof (PropRC.qn_lt j i ltac:(lia)). qlra. }
      unfold gap. assert (E : qn (S i) <= qn j). { destruct (Nat.eq_dec (S i) j) as [->|]; [qlra|]. apply Qclt_le_weak, PropRC.qn_lt. lia. }
      rewrite PropRC.qn_S in E. assert (e : eps < 1) by (vm_compute; reflexivity). qlra. }
  assert (E1 : rc_at (stair0 n) (qn n) = qn n * PropRC.tiny).
  { rewrite (at_ptr _ V (qn n) (Z.of_nat n)); [cbn [rc_values stair0 PropRC.stair]; rewrite PropRC.stair_nth by lia; reflexivity|].
    cbn [rc_times stair0 PropRC.stair]. unfold is_ptr, zlen. rewrite map_length, seq_length. split; [lia|]. split; [|lia].
    intros _. rewrite PropRC.stair_nth by lia. qlra. }
  set (p := mkRC [qn 0] [qn 0 * PropRC.tiny] (Fin 0) PInf).
  assert (Vp : rvalid p) by (constructor; cbn [rc_times rc_values p]; [reflexivity|discriminate|repeat constructor|intros t [<-|[]]; split; [vm_compute; discriminate|exact Logic.I]]).
  destruct (merge_collection_ok [0%nat] 0 old ltac:(left; reflexivity) GC) as (new & EM & _).
  exists old, new, (qn n). split; [exact GC|]. split; [apply qn_nonneg|]. split; [exact EM|].
  assert (FN : c_fns new = [(0%nat, p)]).
  { assert (E0 : merge_collection [0%nat] 0 old = frc_init [(0%nat, p)]).
    { unfold merge_collection, old. cbn [c_fns]. change (foldM (merge_step [0%nat] 0) [(0%nat, stair0 n)] []) with (@Ok (list (nat * RC)) [(0%nat, stair0 n)]). cbn [bind dget Nat.eqb]. rewrite stair0_simplify. reflexivity. }
    rewrite E0 in EM.
    unfold frc_init in EM. destruct (new_item 0 []); cbn [bind] in EM; [|discriminate EM]. destruct (rc_sum _ _ _); cbn [bind] in EM; [|discriminate EM]. destruct (rc_integral _); cbn [bind] in EM; [|discriminate EM].
    destruct (mapM _ _); cbn [bind] in EM; [|discriminate EM]. apply ok_inj in EM. subst new. reflexivity. }
  exists (qn 0 * PropRC.tiny). split.
  - unfold rate_of. rewrite FN. cbn [dget Nat.eqb]. rewrite (reval_at _ Vp) by (split; [apply qn_nonneg|exact Logic.I]). unfold rc_at. cbn [p rc_times rc_values hd combine step]. destruct (qleb _ _); reflexivity.
  - unfold total_rate, old. cbn [c_fns map fst snd fold_right]. change (mem 0 [0%nat]) with true. cbn match. rewrite (reval_at _ V) by (split; [apply qn_nonneg|exact Logic.I]). rewrite E1.
    replace (qn 0 * PropRC.tiny) with 0 by (apply Qc_is_canon; reflexivity). qlra.
Qed.
Print Assumptions C59_drift_refuted.

(** Two of three commodities are merged. *)
Definition mg_old : FRC := mkFRC [(4, cb_fn 2 3); (7, cb_fn 5 0); (9, cb_fn 4 2)]%nat [] (c_acc frc_empty).
Example C59_example_hyps : good_col mg_old /\ clear_jumps [9; 4]%nat mg_old.
Proof.
  assert (VA : forall a b, (0 < a)%Z -> rvalid (cb_fn a b)) by apply cb_valid.
  split; [split|].
  - split; [repeat (constructor; [cbn; intuition congruence|]); constructor|].
    intros i f J. repeat (destruct J as [J|J]; [injection J as <- <-; split; [apply cb_valid; lia|split; [reflexivity|split; [reflexivity|split; [left; reflexivity|]]]];
      intros v [<-|[<-|[]]]; vm_compute; discriminate|]). destruct J.
  - intros x y X Y. cbn [all_times c_fns mg_old map snd concat app cb_fn rc_times] in X, Y.
    repeat (destruct X as [<-|X]; [repeat (destruct Y as [<-|Y]; [intro LT; first [vm_compute; reflexivity|exfalso; revert LT; vm_compute; discriminate]|]); destruct Y|]); destruct X.
  - intros s t Ps Lt H.
    assert (EV : forall a b u, (0 < a)%Z -> 0 <= u -> rc_eval (cb_fn a b) u = Ok (if qleb (qz a) u then qz b else 1)).
    { intros a b u La Pu. rewrite (reval_at _ (VA a b La)) by (split; [exact Pu|exact Logic.I]). unfold rc_at. cbn [cb_fn rc_times rc_values hd combine step].
      destruct (qlebP 0 u) as [_|C]; [|exfalso; apply C; exact Pu]. destruct (qleb (qz a) u); reflexivity. }
    assert (TR : forall u, 0 <= u -> total_rate [9; 4]%nat mg_old u = (if qleb (qz 2) u then qz 3 else 1) + (if qleb (qz 4) u then qz 2 else 1)).
    { intros u Pu. unfold total_rate. cbn [mg_old c_fns map fst snd fold_right]. change (mem 4 [9; 4]%nat) with true. change (mem 7 [9; 4]%nat) with false. change (mem 9 [9; 4]%nat) with true. cbn match.
      rewrite !EV by (lia || exact Pu). ring. }
    rewrite !TR by qlra.
    destruct (qlebP (qz 2) s), (qlebP (qz 2) t), (qlebP (qz 4) s), (qlebP (qz 4) t); try (exfalso; qlra);
      first [left; vm_compute; reflexivity|left; apply Qc_is_canon; vm_compute; reflexivity|right; vm_compute; discriminate].
Qed.
Example C59_example :
  match merge_commodities [9; 4]%nat [mg_old] [mg_old; frc_empty] with
  | Ok ([a], [b; c]) => match rate_of a 4 (qz 3), rate_of b 4 (qz 5), dget (c_fns b) 9, c_fns c, rate_of b 7 (qz 6) with
     | Ok x, Ok y, None, [], Ok z => (qeqb x (qz 4) && qeqb y (qz 5) && qeqb z 0)%bool
     | _, _, _, _, _ => false end
  | _ => false end = true.
Proof. vm_compute. reflexivity. Qed.
