(** * One edge of a DynamicFlow under clean extensions: the trajectory invariant *)
From Verif Require Import Base Spec Arrays ArraysProofs PL PLProofs PLEval PLArith PLOps PLOps2 RC RCProofs RCOps FRC FRCProofs FRCExact PQ PQProofs PQSpec DynFlow DQProofs DynRun DynEvents.

Lemma qmul_nn a b : 0 <= a -> 0 <= b -> 0 <= a * b.
Proof. intros. qnra. Qed.
Lemma qmul_pos a b : 0 < a -> 0 < b -> 0 < a * b.
Proof. intros. qnra. Qed.
(** Postconditions of instrumented computations. *)
Definition good {A} (P : A -> Prop) (r : res A) : Prop := match r with Ok a => P a | Err Unclean => True | Err _ => False end.
Lemma good_bind {A B} (P : A -> Prop) (Q : B -> Prop) (x : res A) (f : A -> res B) :
  good P x -> (forall a, x = Ok a -> P a -> good Q (f a)) -> good Q (bind x f).
Proof. destruct x as [a|e]; cbn [good bind]; [intros H1 H2; apply H2; auto|]. intros H _. destruct e; exact H. Qed.
Lemma good_ok {A} (P : A -> Prop) a : P a -> good P (Ok a).
Proof. intro H. exact H. Qed.
Lemma good_imp {A} (P Q : A -> Prop) r : good P r -> (forall a, r = Ok a -> P a -> Q a) -> good Q r.
Proof. destruct r as [a|e]; cbn [good]; [intros H1 H2; apply H2; auto|]. intros H _. exact H. Qed.
Lemma good_chk b : good (fun _ => b = true) (chk true b).
Proof. unfold chk. destruct b; cbn; auto. Qed.

Lemma sepb_ok a b : sepb a b = true -> a = b \/ eps < qabs (a - b).
Proof. unfold sepb. intro H. apply orb_true_iff in H. destruct H as [H|H]; [left; apply qeqb_true; exact H|right; apply qltb_true; exact H]. Qed.

(** ** Rate collections *)
Record fstate (c : FRC) (es : list (Qc * rates * Qc)) (T : Qc) (v : rates) (s : Qc) : Prop := {
  fs_inv : frc_inv c (snaps_of es) T v;
  fs_x : fexact c es v s;
  fs_sep : separated (times_of es);
  fs_sum : forall t d x, In (t, d, x) es -> x = rates_sum d;
  fs_last : exists l, es = l ++ [(T, v, s)];
  fs_nd : NoDup (map fst (c_fns c)) }.
Notation tot := latest_total (only parsing).
Definition acc (c : FRC) (t : Qc) : Qc := pl_at (c_acc c) t.

Lemma empty_state : fstate frc_empty es0 0 [] 0.
Proof.
  constructor.
  - apply empty_inv.
  - apply empty_exact.
  - intros x y [<-|[]] [<-|[]] H. exfalso. qlra.
  - intros t d x [H|[]]. injection H as <- <- <-. reflexivity.
  - exists []. reflexivity.
  - constructor.
Qed.
Lemma fs_T0 c es T v s : fstate c es T v s -> 0 <= T.
Proof. intro F. apply (fi_T0 _ _ _ _ (fs_inv _ _ _ _ _ F)). Qed.
Lemma fs_v c es T v s : fstate c es T v s -> is_snapshot v /\ s = rates_sum v.
Proof.
  intro F. destruct (fs_last _ _ _ _ _ F) as [l E]. split.
  - apply (fi_snap _ _ _ _ (fs_inv _ _ _ _ _ F) (T, v)). rewrite E. unfold snaps_of. rewrite map_app. apply in_or_app. right. left. reflexivity.
  - apply (fs_sum _ _ _ _ _ F T v s). rewrite E. apply in_or_app. right. left. reflexivity.
Qed.
Lemma fs_after c es T v s : fstate c es T v s -> forall t, T <= t ->
  latest_total es t = s /\ latest_rates (snaps_of es) t = v /\ acc c t = acc c T + s * (t - T).
Proof.
  intros F t Ht. destruct (fs_last _ _ _ _ _ F) as [l E]. split; [|split].
  - rewrite E, latest_total_app. destruct (qlebP T t); [reflexivity|contradiction].
  - rewrite E. unfold snaps_of. rewrite map_app. cbn [map fst]. unfold latest_rates. rewrite latest_last by exact Ht. reflexivity.
  - pose proof (fx_area _ _ _ _ (fs_x _ _ _ _ _ F) T t (fs_T0 _ _ _ _ _ F) Ht) as A.
    assert (LT : latest_total es T = s) by (rewrite E, latest_total_app; destruct (qlebP T T) as [|C]; [reflexivity|exfalso; apply C; qlra]).
    rewrite LT in A. unfold acc. rewrite <- A; [ring|]. intros x Ix. left. unfold times_of in Ix. apply in_map_iff in Ix. destruct Ix as [[[x' d] q] [<- Ix]].
    apply (fi_le _ _ _ _ (x', d) (fs_inv _ _ _ _ _ F)). unfold snaps_of. apply in_map_iff. exists (x', d, q). auto.
Qed.
Lemma fs_zero c es T v s : fstate c es T v s -> acc c 0 = 0.
Proof. intro F. apply (fx_zero _ _ _ _ (fs_x _ _ _ _ _ F)). Qed.

Lemma keys_dset {B} (d : list (nat * B)) k v : NoDup (map fst d) -> NoDup (map fst (dset d k v)).
Proof.
  induction d as [|[j w] r IH]; cbn [dset map fst]; intro N.
  - repeat constructor. intros [].
  - inversion N as [|? ? N1 N2]; subst. destruct (Nat.eqb_spec j k) as [->|NE]; cbn [map fst]; [constructor; assumption|].
    constructor; [|auto]. intro I. apply N1. clear -I NE. induction r as [|[a b] r IH]; cbn [dset map fst] in *.
    + destruct I as [I|[]]. congruence.
    + destruct (Nat.eqb_spec a k) as [->|NA]; cbn [map fst In] in *; [exact I|]. destruct I as [I|I]; auto.
Qed.
Lemma ext_values_nd time : forall values fns fns', NoDup (map fst fns) -> ext_values fns time values = Ok fns' -> NoDup (map fst fns').
Proof.
  induction values as [|[i v] r IH]; intros fns fns' N H; cbn [ext_values] in H; [apply ok_inj in H; subst; exact N|].
  binv H. eapply IH; [|exact H]. apply keys_dset. exact N.
Qed.
Lemma ext_zeros_nd time values : forall tv fns fns', NoDup (map fst fns) -> ext_zeros fns time tv values = Ok fns' -> NoDup (map fst fns').
Proof.
  induction tv as [|[i v] r IH]; intros fns fns' N H; cbn [ext_zeros] in H; [apply ok_inj in H; subst; exact N|].
  destruct (dhas values i); [eapply IH; eauto|]. binv H. binv H. eapply IH; [|exact H]. apply keys_dset. exact N.
Qed.
Lemma ext_fresh_nd time : forall values fns fns', NoDup (map fst fns) -> ext_fresh fns time values = Ok fns' -> NoDup (map fst fns').
Proof.
  induction values as [|[i v] r IH]; intros fns fns' N H; cbn [ext_fresh] in H; [apply ok_inj in H; subst; exact N|].
  binv H. eapply IH; [|exact H]. apply keys_dset. exact N.
Qed.
Lemma frc_extend_nd c t d s c' : NoDup (map fst (c_fns c)) -> frc_extend c t d s = Ok c' -> NoDup (map fst (c_fns c')).
Proof.
  intros N H. unfold frc_extend in H. binv H. binv H. binv H. apply ok_inj in H. subst c'. cbn [c_fns].
  destruct (c_chain c); [eapply ext_fresh_nd; eauto|]. binv E0. binv E0. eapply ext_zeros_nd; [|exact E0]. eapply ext_values_nd; [|exact E3]. exact N.
Qed.

Lemma fs_step c es T v s time d : fstate c es T v s -> T <= time -> is_snapshot d ->
  good (fun c' => frc_extend c time d (rates_sum d) = Ok c' /\ fstate c' (es ++ [(time, d, rates_sum d)]) time d (rates_sum d) /\
          (forall t, t <= time -> acc c' t = acc c t) /\ head_time c' = head_time c) (c_extend true c time d (rates_sum d)).
Proof.
  intros F H SD. unfold c_extend. eapply good_bind; [apply good_chk|]. intros u _ CB.
  pose proof (fs_inv _ _ _ _ _ F) as I. pose proof (fs_x _ _ _ _ _ F) as X. pose proof (fs_T0 _ _ _ _ _ F) as T0.
  unfold clean_frc in CB. destruct (c_chain c) as [|i0 r] eqn:EC; [exfalso; apply (fi_ne _ _ _ _ I); exact EC|].
  rewrite (chain_tail c _ T v i0 r I EC) in CB. cbn [it_time it_vals] in CB.
  apply andb_true_iff in CB. destruct CB as [CB C3]. apply andb_true_iff in CB. destruct CB as [C1 C2].
  apply sepb_ok in C1. apply sepb_ok in C2. rewrite (fx_last _ _ _ _ X) in C2.
  assert (RC : forall i, rate_clear (rate v i) (rate d i)).
  { intro i. destruct (in_dec Nat.eq_dec i (map fst v ++ map fst d)) as [Ii|Ni].
    - apply (proj1 (forallb_forall _ _) C3) in Ii. apply sepb_ok in Ii. exact Ii.
    - left. unfold rate. rewrite !(proj2 (dget_None _ _)); [reflexivity| |]; intro Q; apply Ni, in_or_app; auto. }
  assert (LE : forall x, In x (times_of es) -> x <= T).
  { intros x Ix. unfold times_of in Ix. apply in_map_iff in Ix. destruct Ix as [[[x' e] q] [<- Ix]].
    apply (fi_le _ _ _ _ (x', e) I). unfold snaps_of. apply in_map_iff. exists (x', e, q). auto. }
  destruct (fs_last _ _ _ _ _ F) as [l EL].
  assert (IT : In T (times_of es)) by (rewrite EL; unfold times_of; rewrite map_app; apply in_or_app; right; left; reflexivity).
  assert (ST : forall x, In x (times_of es) -> x = time \/ x + eps < time).
  { intros x Ix. pose proof (LE x Ix) as L. destruct C1 as [C1|C1].
    - subst T. destruct (qltbP x time) as [Q|Q]; [|left; qlra]. right. pose proof (fs_sep _ _ _ _ _ F x time Ix IT Q). unfold gap in *. qlra.
    - right. destruct (qabs_spec (T - time)) as [[? R]|[? R]]; rewrite R in C1; qlra. }
  destruct (frc_extend_ok c _ T v time d (rates_sum d) I H SD) as [c' [E [I' [EC' [EA [Hh FS]]]]]].
  rewrite E. apply good_ok. split; [reflexivity|].
  assert (SO : snaps_of (es ++ [(time, d, rates_sum d)]) = snaps_of es ++ [(time, d)]) by (unfold snaps_of; rewrite map_app; reflexivity).
  assert (TO : times_of (es ++ [(time, d, rates_sum d)]) = times_of es ++ [time]) by (unfold times_of; rewrite map_app; reflexivity).
  split; [|split].
  - constructor.
    + rewrite SO. exact I'.
    + eapply fexact_step; eauto.
    + rewrite TO. intros x y Hx Hy L. apply in_app_or in Hx. apply in_app_or in Hy. destruct Hx as [Hx|[<-|[]]], Hy as [Hy|[<-|[]]].
      * apply (fs_sep _ _ _ _ _ F x y Hx Hy L).
      * unfold gap. destruct (ST x Hx) as [Q|Q]; qlra.
      * specialize (LE y Hy). exfalso. qlra.
      * exfalso. qlra.
    + intros t e x Ix. apply in_app_or in Ix. destruct Ix as [Ix|[Ix|[]]]; [apply (fs_sum _ _ _ _ _ F t e x Ix)|]. injection Ix as <- <- <-. reflexivity.
    + eauto.
    + eapply frc_extend_nd; [apply (fs_nd _ _ _ _ _ F)|exact E].
  - pose proof (fi_av _ _ _ _ I) as VA.
    assert (LT : time = tm (c_acc c) (pl_len (c_acc c) - 1) \/ tm (c_acc c) (pl_len (c_acc c) - 1) < time - eps).
    { assert (IA : In (tm (c_acc c) (pl_len (c_acc c) - 1)) (pl_times (c_acc c))) by (apply tm_in; pose proof (len_pos _ VA); lia).
      destruct (ST _ (fx_atimes _ _ _ _ X _ IA)) as [Q|Q]; [left; auto|right; qlra]. }
    destruct (extend_exact (c_acc c) time (rates_sum d) VA) as [A1 [E1 [_ [_ [_ [P1 _]]]]]];
      [rewrite (fi_ahi _ _ _ _ I); exact Logic.I|exact LT|rewrite (fx_last _ _ _ _ X); destruct C2; auto|].
    rewrite EA in E1. apply ok_inj in E1. intros t Ht. unfold acc. rewrite E1. apply P1. exact Ht.
  - unfold head_time. rewrite EC', EC. reflexivity.
Qed.
Lemma fs_get c es T v s t : fstate c es T v s -> head_time c <= t -> T <= t ->
  exists c', frc_get c t = Ok (c', v) /\ fstate c' es T v s /\ acc c' = acc c /\ head_time c' <= t.
Proof.
  intros F HT Ht. destruct (frc_get_ok c _ T v t (fs_inv _ _ _ _ _ F)) as [_ G]. destruct (G HT) as [c' [p [E [L [I' [H1 [H2 H3]]]]]]].
  pose proof (fs_after _ _ _ _ _ F t Ht) as [_ [LR _]]. unfold latest_rates in LR. rewrite L in LR. subst v.
  exists c'. split; [exact E|]. split; [|split].
  - destruct F. constructor; auto; [eapply get_exact; eauto|rewrite H2; assumption].
  - unfold acc. rewrite H3. reflexivity.
  - rewrite H1. apply (latest_some _ _ _ L).
Qed.
(** Any query not before the head. *)
Lemma fs_get' c es T v s t : fstate c es T v s -> head_time c <= t ->
  exists c' d, frc_get c t = Ok (c', d) /\ d = latest_rates (snaps_of es) t /\ fstate c' es T v s /\ acc c' = acc c /\ head_time c' <= t.
Proof.
  intros F HT. destruct (frc_get_ok c _ T v t (fs_inv _ _ _ _ _ F)) as [_ G]. destruct (G HT) as [c' [p [E [L [I' [H1 [H2 H3]]]]]]].
  exists c', (snd p). split; [exact E|]. split; [unfold latest_rates; rewrite L; reflexivity|]. split; [|split].
  - destruct F. constructor; auto; [eapply get_exact; eauto|rewrite H2; assumption].
  - unfold acc. rewrite H3. reflexivity.
  - rewrite H1. apply (latest_some _ _ _ L).
Qed.
Lemma head_le c es T v s : fstate c es T v s -> head_time c <= T.
Proof.
  intro F. pose proof (fs_inv _ _ _ _ _ F) as I. unfold head_time. destruct (c_chain c) as [|h r] eqn:E; [apply (fs_T0 _ _ _ _ _ F)|].
  change (it_time h) with (fst (pair_of h)). apply (fi_le _ _ _ _ (pair_of h) I). destruct (fi_chain _ _ _ _ I) as [pre EP]. rewrite EP, E.
  apply in_or_app. right. left. reflexivity.
Qed.

(** ** Queue functions *)
Record qstate (q : PL) (p : Qc) : Prop := {
  qs_v : valid q; qs_lo : pl_lo q = NInf; qs_hi : pl_hi q = PInf; qs_t : forall t, In t (pl_times q) -> t <= p }.
Lemma qs_mono q p p' : qstate q p -> p <= p' -> qstate q p'.
Proof. intros [A B C D] H. constructor; auto. intros t I. specialize (D t I). qlra. Qed.
Lemma qs_after q p t : qstate q p -> p <= t -> pl_at q t = pl_at q p + pl_last q * (t - p).
Proof.
  intros [V Lo Hi Ht] H. assert (tm q (pl_len q - 1) <= p) by (apply Ht, tm_in; pose proof (len_pos _ V); lia).
  rewrite !at_right by (auto; qlra). ring.
Qed.
Lemma qs_eval q p t : qstate q p -> pl_eval q t = Ok (pl_at q t).
Proof. intros [V Lo Hi Ht]. apply eval_at; [exact V|]. split; rewrite ?Lo, ?Hi; exact Logic.I. Qed.
Lemma qs_step q p slope : qstate q p ->
  good (fun q' => extend_with_slope q p slope = Ok q' /\ qstate q' p /\ (forall t, t <= p -> pl_at q' t = pl_at q t) /\ pl_last q' = slope /\
          (pl_last q <> slope -> tm q' (pl_len q' - 1) = p)) (q_extend true q p slope).
Proof.
  intros Q. unfold q_extend. eapply good_bind; [apply good_chk|]. intros u _ CB. apply andb_true_iff in CB. destruct CB as [C1 C2].
  apply sepb_ok in C1. apply sepb_ok in C2. destruct Q as [V Lo Hi Ht]. rewrite <- (nthq_last _ 0 (v_ne _ V)) in C1.
  change (nthq (pl_times q) (zlen (pl_times q) - 1)) with (tm q (pl_len q - 1)) in C1.
  assert (LE : tm q (pl_len q - 1) <= p) by (apply Ht, tm_in; pose proof (len_pos _ V); lia).
  assert (H1 : p = tm q (pl_len q - 1) \/ tm q (pl_len q - 1) < p - eps).
  { destruct C1 as [C1|C1]; [left; auto|right]. destruct (qabs_spec (tm q (pl_len q - 1) - p)) as [[? R]|[? R]]; rewrite R in C1; qlra. }
  assert (Hh : ext_le (Fin p) (pl_hi q)) by (rewrite Hi; exact Logic.I).
  destruct (extend_exact q p slope V Hh H1) as [q' [E [V' [L' [H' [P1 [P2 P3]]]]]]]; [destruct C2; auto|].
  rewrite E. apply good_ok. split; [reflexivity|].
  destruct (acc_extend q p p slope V Hi Ht ltac:(qlra)) as [q2 [E2 [_ [_ [_ TT]]]]]. rewrite E in E2. apply ok_inj in E2. subst q2.
  split; [|split; [exact P1|split; [exact P3|]]].
  - constructor; [exact V'|congruence|congruence|]. intros t I. destruct (TT t I) as [J| ->]; [auto|qlra].
  - intro NE. destruct (extend_ok q p slope q' V Hh E) as [_ [_ [_ [_ [_ [[K1 ->]|[K1 [K2 [[K3 [K4 K5]]|[K3 [K4 _]]]]]]]]]]].
    + contradiction.
    + assert (pl_len q' = pl_len q) by (unfold pl_len; rewrite K4; reflexivity). rewrite H. unfold tm. rewrite K4. fold (tm q (pl_len q - 1)).
      destruct H1 as [H1|H1]; [auto|]. exfalso. destruct (qabs_spec (p - tm q (pl_len q - 1))) as [[? R]|[? R]]; rewrite R in K3; qlra.
    + unfold tm, pl_len. rewrite K4. unfold zlen. rewrite app_length. cbn [length].
      replace (Z.of_nat (length (pl_times q) + 1) - 1)%Z with (zlen (pl_times q)) by (unfold zlen; lia). apply nthq_app_last.
Qed.
Lemma queue0_state : qstate queue0 0.
Proof.
  constructor; [|reflexivity|reflexivity|].
  - constructor; cbn; [reflexivity|discriminate|repeat constructor|]. intros t _. split; exact Logic.I.
  - intros t [<-|[]]. qlra.
Qed.
Lemma queue0_at t : pl_at queue0 t = 0.
Proof. unfold pl_at. cbn. destruct (qleb t 0); ring. Qed.

(** ** The edge *)
Record edge := mkEdge { e_in : FRC; e_out : FRC; e_q : PL }.
Record ghost := mkG { g_in : list (Qc * rates * Qc); g_ti : Qc; g_vi : rates; g_si : Qc;
                      g_out : list (Qc * rates * Qc); g_to : Qc; g_vo : rates; g_so : Qc }.

Section Edge.
Variables cap tau : Qc.
Hypothesis Hcap : 0 < cap.
Hypothesis Htau : 0 <= tau.
Definition ex (q : PL) (t : Qc) : Qc := t + pl_at q t / cap + tau.

(** The trajectory of an edge up to time [p]. *)
Record ebase (E : edge) (g : ghost) (p : Qc) : Prop := {
  b_in : fstate (e_in E) (g_in g) (g_ti g) (g_vi g) (g_si g);
  b_out : fstate (e_out E) (g_out g) (g_to g) (g_vo g) (g_so g);
  b_ti : g_ti g <= p;
  b_q : qstate (e_q E) p;
  b_hd : head_time (e_out E) <= p;
  b_to : g_to g <= ex (e_q E) p;
  b_q0 : forall t, t <= 0 -> pl_at (e_q E) t = 0;
  b_nn : forall t, 0 <= t -> t <= p -> 0 <= pl_at (e_q E) t;
  b_cons : forall t, 0 <= t -> t <= p -> pl_at (e_q E) t = acc (e_in E) t - acc (e_out E) (t + tau);
  b_rate : forall t, 0 <= t -> t < p ->
     (0 < pl_at (e_q E) t -> latest_total (g_out g) (t + tau) = cap) /\
     (pl_at (e_q E) t = 0 -> latest_total (g_out g) (t + tau) = qmin cap (latest_total (g_in g) t));
  b_early : forall t, 0 <= t -> t < tau -> latest_total (g_out g) t = 0;
  b_fifo : forall t u, 0 <= t -> t <= u -> u <= p -> ex (e_q E) t <= ex (e_q E) u;
  b_prop : forall t, 0 <= t -> t < p -> 0 < latest_total (g_in g) t ->
     ex (e_q E) t < ex (e_q E) p /\ 0 < latest_total (g_out g) (ex (e_q E) t) /\
     forall i, rate (latest_rates (snaps_of (g_out g)) (ex (e_q E) t)) i * latest_total (g_in g) t =
               rate (latest_rates (snaps_of (g_in g)) t) i * latest_total (g_out g) (ex (e_q E) t);
  b_seg1 : forall t, p <= t -> t + tau < ex (e_q E) p -> latest_total (g_out g) (t + tau) = cap;
  b_seg2 : forall t, p <= t -> t + tau <= ex (e_q E) p -> acc (e_out E) (t + tau) = acc (e_out E) (p + tau) + cap * (t - p) }.

(** What happens after [p]. *)
Inductive regime (E : edge) (g : ghost) (p : Qc) : option plan -> Prop :=
  | RZ : pl_at (e_q E) p = 0 -> pl_last (e_q E) = 0 -> g_si g <= cap -> g_so g = g_si g ->
         (forall i, rate (g_vo g) i = rate (g_vi g) i) -> regime E g p None
  | RG : cap <= g_si g -> pl_last (e_q E) = g_si g - cap -> g_so g = cap ->
         (forall i, rate (g_vo g) i * g_si g = rate (g_vi g) i * cap) -> regime E g p None
  | RP2 D : 0 < g_si g -> g_si g < cap -> pl_last (e_q E) = g_si g - cap -> p <= D ->
         pl_at (e_q E) p + (g_si g - cap) * (D - p) = 0 -> g_so g = cap ->
         (forall i, rate (g_vo g) i * g_si g = rate (g_vi g) i * cap) ->
         regime E g p (Some (D, Some (D + tau, (g_vi g, g_si g))))
  | RP1 D : g_si g = 0 -> pl_last (e_q E) = - cap -> p <= D -> pl_at (e_q E) p = cap * (D - p) -> g_to g = D + tau -> g_so g = 0 ->
         (forall i, rate (g_vo g) i = rate (g_vi g) i) -> regime E g p (Some (D, None)).

Lemma b_p0 E g p : ebase E g p -> 0 <= p.
Proof. intro B. pose proof (fs_T0 _ _ _ _ _ (b_in _ _ _ B)). pose proof (b_ti _ _ _ B). qlra. Qed.
Lemma b_pp E g p : ebase E g p -> 0 <= pl_at (e_q E) p.
Proof. intro B. apply (b_nn _ _ _ B); [apply (b_p0 _ _ _ B)|qlra]. Qed.
Lemma ex_ge q t : 0 <= pl_at q t -> t + tau <= ex q t.
Proof. intro H. unfold ex. pose proof (qdiv_nonneg _ _ H Hcap). qlra. Qed.

(** Changing the inflow at p. *)
Lemma L_in E g p d c' : ebase E g p -> is_snapshot d ->
  fstate c' (g_in g ++ [(p, d, rates_sum d)]) p d (rates_sum d) -> (forall t, t <= p -> acc c' t = acc (e_in E) t) ->
  ebase (mkEdge c' (e_out E) (e_q E)) (mkG (g_in g ++ [(p, d, rates_sum d)]) p d (rates_sum d) (g_out g) (g_to g) (g_vo g) (g_so g)) p.
Proof.
  intros B SD F HA. assert (LT : forall t, t < p -> latest_total (g_in g ++ [(p, d, rates_sum d)]) t = latest_total (g_in g) t).
  { intros t Ht. rewrite latest_total_app. destruct (qlebP p t); [exfalso; qlra|reflexivity]. }
  assert (LR : forall t, t < p -> latest_rates (snaps_of (g_in g ++ [(p, d, rates_sum d)])) t = latest_rates (snaps_of (g_in g)) t).
  { intros t Ht. unfold snaps_of, latest_rates. rewrite map_app. cbn [map fst]. rewrite latest_app. cbn [fst]. destruct (qlebP p t); [exfalso; qlra|reflexivity]. }
  destruct B. constructor; cbn [e_in e_out e_q g_in g_ti g_vi g_si g_out g_to g_vo g_so]; auto.
  - qlra.
  - intros t T0 Tp. rewrite HA by exact Tp. auto.
  - intros t T0 Tp. rewrite LT by exact Tp. auto.
  - intros t T0 Tp. rewrite LT, LR by exact Tp. auto.
Qed.
(** Changing the outflow at the exit time of p. *)
Lemma L_out E g p d c' : ebase E g p -> 
  fstate c' (g_out g ++ [(ex (e_q E) p, d, rates_sum d)]) (ex (e_q E) p) d (rates_sum d) ->
  (forall t, t <= ex (e_q E) p -> acc c' t = acc (e_out E) t) -> head_time c' = head_time (e_out E) ->
  ebase (mkEdge (e_in E) c' (e_q E)) (mkG (g_in g) (g_ti g) (g_vi g) (g_si g) (g_out g ++ [(ex (e_q E) p, d, rates_sum d)]) (ex (e_q E) p) d (rates_sum d)) p.
Proof.
  intros B F HA HD. set (a := ex (e_q E) p) in *.
  assert (PA : p + tau <= a) by (apply ex_ge, (b_pp _ _ _ B)). pose proof (b_p0 _ _ _ B) as P0.
  assert (LT : forall t, t < a -> latest_total (g_out g ++ [(a, d, rates_sum d)]) t = latest_total (g_out g) t).
  { intros t Ht. rewrite latest_total_app. destruct (qlebP a t); [exfalso; qlra|reflexivity]. }
  assert (LR : forall t, t < a -> latest_rates (snaps_of (g_out g ++ [(a, d, rates_sum d)])) t = latest_rates (snaps_of (g_out g)) t).
  { intros t Ht. unfold snaps_of, latest_rates. rewrite map_app. cbn [map fst]. rewrite latest_app. cbn [fst]. destruct (qlebP a t); [exfalso; qlra|reflexivity]. }
  destruct B. constructor; cbn [e_in e_out e_q g_in g_ti g_vi g_si g_out g_to g_vo g_so]; auto.
  - rewrite HD. exact b_hd0.
  - unfold a. qlra.
  - intros t T0 Tp. rewrite HA by qlra. auto.
  - intros t T0 Tp. rewrite LT by qlra. auto.
  - intros t T0 Tp. rewrite LT by qlra. auto.
  - intros t T0 Tp R. destruct (b_prop0 t T0 Tp R) as [Q1 [Q2 Q3]]. fold a in Q1. rewrite LT, LR by exact Q1. auto.
  - intros t Tp Ta. fold a in Ta. rewrite LT by exact Ta. auto.
  - intros t Tp Ta. fold a in Ta. rewrite !HA by qlra. auto.
Qed.
(** Changing the slope of the queue at p. *)
Lemma L_q E g p q' : ebase E g p -> qstate q' p -> (forall t, t <= p -> pl_at q' t = pl_at (e_q E) t) ->
  ebase (mkEdge (e_in E) (e_out E) q') g p.
Proof.
  intros B Q HA. pose proof (b_p0 _ _ _ B) as P0.
  assert (EX : forall t, t <= p -> ex q' t = ex (e_q E) t) by (intros t Ht; unfold ex; rewrite HA by exact Ht; reflexivity).
  destruct B. constructor; cbn [e_in e_out e_q]; auto.
  - rewrite EX by qlra. auto.
  - intros t Ht. rewrite HA by qlra. auto.
  - intros t T0 Tp. rewrite HA by exact Tp. auto.
  - intros t T0 Tp. rewrite HA by exact Tp. auto.
  - intros t T0 Tp. rewrite HA by qlra. auto.
  - intros t u T0 Tu Up. rewrite !EX by qlra. auto.
  - intros t T0 Tp. rewrite !EX by qlra. auto.
  - intros t Tp. rewrite EX by qlra. auto.
  - intros t Tp. rewrite EX by qlra. auto.
Qed.

(** Letting time pass until p' (at most until the pending depletion). *)
Lemma L_advance E g p pl p' : ebase E g p -> regime E g p pl -> p <= p' -> (forall D ch, pl = Some (D, ch) -> p' <= D) ->
  ebase E g p' /\ regime E g p' pl.
Proof.
  intros B R Hp HD. pose proof (b_p0 _ _ _ B) as P0. pose proof (b_pp _ _ _ B) as QP.
  set (r := g_si g) in *. set (Q := pl_at (e_q E)) in *.
  assert (QA : forall t, p <= t -> Q t = Q p + pl_last (e_q E) * (t - p)) by (intros t Ht; apply (qs_after _ _ _ (b_q _ _ _ B) Ht)).
  assert (IN : forall t, p <= t -> latest_total (g_in g) t = r /\ latest_rates (snaps_of (g_in g)) t = g_vi g /\ acc (e_in E) t = acc (e_in E) p + r * (t - p)).
  { intros t Ht. pose proof (b_ti _ _ _ B) as TI. destruct (fs_after _ _ _ _ _ (b_in _ _ _ B) t ltac:(qlra)) as [I1 [I2 I3]].
    destruct (fs_after _ _ _ _ _ (b_in _ _ _ B) p TI) as [_ [_ I4]]. split; [exact I1|]. split; [exact I2|]. rewrite I3, I4. unfold r. ring. }
  assert (OUT : forall t, ex (e_q E) p <= t -> latest_total (g_out g) t = g_so g /\ latest_rates (snaps_of (g_out g)) t = g_vo g /\ acc (e_out E) t = acc (e_out E) (ex (e_q E) p) + g_so g * (t - ex (e_q E) p)).
  { intros t Ht. pose proof (b_to _ _ _ B) as TO. destruct (fs_after _ _ _ _ _ (b_out _ _ _ B) t ltac:(qlra)) as [I1 [I2 I3]].
    destruct (fs_after _ _ _ _ _ (b_out _ _ _ B) _ TO) as [_ [_ I4]]. split; [exact I1|]. split; [exact I2|]. rewrite I3, I4. ring. }
  (* the outflow rate o in force from p on *)
  assert (KEY : exists o, pl_last (e_q E) = r - o /\
     (forall t, p <= t -> t < p' -> latest_total (g_out g) (t + tau) = o) /\
     (forall t, p <= t -> t <= p' -> acc (e_out E) (t + tau) = acc (e_out E) (p + tau) + o * (t - p)) /\
     (forall t, p <= t -> t <= p' -> 0 <= Q t) /\
     (forall t, p <= t -> t < p' -> (0 < Q t -> o = cap) /\ (Q t = 0 -> o = qmin cap r)) /\
     (0 <= cap + r - o) /\ (0 < r -> 0 < cap + r - o /\ 0 < g_so g /\ forall i, rate (g_vo g) i * r = rate (g_vi g) i * g_so g) /\
     (forall t, p' <= t -> t + tau < ex (e_q E) p' -> latest_total (g_out g) (t + tau) = cap) /\
     (forall t, p' <= t -> t + tau <= ex (e_q E) p' -> acc (e_out E) (t + tau) = acc (e_out E) (p' + tau) + cap * (t - p')) /\
     regime E g p' pl).
  { pose proof (fs_v _ _ _ _ _ (b_in _ _ _ B)) as [SV SS]. fold r in SS. assert (R0 : 0 <= r) by (rewrite SS; apply sum_nonneg, SV).
    (* steady outflow at cap when the rate after the exit time is cap *)
    assert (CAP1 : g_so g = cap -> forall t, p <= t -> latest_total (g_out g) (t + tau) = cap).
    { intros SO t Ht. destruct (qltbP (t + tau) (ex (e_q E) p)) as [C|C]; [apply (b_seg1 _ _ _ B); assumption|].
      rewrite (proj1 (OUT (t + tau) ltac:(qlra))). exact SO. }
    assert (CAP2 : g_so g = cap -> forall t, p <= t -> acc (e_out E) (t + tau) = acc (e_out E) (p + tau) + cap * (t - p)).
    { intros SO t Ht. destruct (qlebP (t + tau) (ex (e_q E) p)) as [C|C]; [apply (b_seg2 _ _ _ B); assumption|].
      rewrite (proj2 (proj2 (OUT (t + tau) ltac:(qlra)))). rewrite SO.
      pose proof (ex_ge (e_q E) p QP) as XG.
      assert (X : acc (e_out E) (ex (e_q E) p) = acc (e_out E) (p + tau) + cap * (ex (e_q E) p - tau - p)).
      { rewrite <- (b_seg2 _ _ _ B (ex (e_q E) p - tau)); [f_equal; ring|qlra|qlra]. }
      rewrite X. ring. }
    assert (SG1 : g_so g = cap -> forall t, p' <= t -> t + tau < ex (e_q E) p' -> latest_total (g_out g) (t + tau) = cap) by (intros SO t H1 _; apply CAP1; [exact SO|qlra]).
    assert (SG2 : g_so g = cap -> forall t, p' <= t -> t + tau <= ex (e_q E) p' -> acc (e_out E) (t + tau) = acc (e_out E) (p' + tau) + cap * (t - p')).
    { intros SO t H1 _. rewrite (CAP2 SO t), (CAP2 SO p') by qlra. ring. }
    destruct R as [Z1 Z2 Z3 Z4 Z5|G1 G2 G3 G4|D P1 P2 P3 P4 P5 P6 P7|D P1 P3 P4 P5 P6 P7 P8];
      [fold Q in Z1; fold r in Z3; fold r in Z4|fold r in G1; fold r in G2; fold r in G4|fold r in P1; fold r in P2; fold r in P3; fold r in P5; fold Q in P5; fold r in P7|fold r in P1; fold Q in P5].
    - exists r. rewrite Z2 in QA.
      assert (QZ : forall t, p <= t -> Q t = 0) by (intros t Ht; rewrite QA by exact Ht; rewrite Z1; ring).
      assert (XP : ex (e_q E) p = p + tau) by (unfold ex; fold Q; rewrite Z1; unfold Qcdiv; ring).
      assert (XP' : ex (e_q E) p' = p' + tau) by (unfold ex; fold Q; rewrite (QZ p' Hp); unfold Qcdiv; ring).
      rewrite XP in OUT. fold r in Z4.
      split; [rewrite Z2; ring|]. split; [intros t T1 T2; rewrite <- Z4; apply (OUT (t + tau)); qlra|].
      split; [intros t T1 T2; rewrite (proj2 (proj2 (OUT (t + tau) ltac:(qlra)))), Z4; ring|].
      split; [intros t T1 T2; rewrite QZ by exact T1; qlra|].
      split; [intros t T1 T2; rewrite QZ by exact T1; split; [intro; exfalso; qlra|intros _; destruct (qmin_spec cap r) as [[? ->]|[? ->]]; qlra]|].
      split; [qlra|]. split; [intro; split; [qlra|split; [qlra|intro i; rewrite Z4, Z5; ring]]|].
      split; [intros t T1 T2; exfalso; qlra|]. split; [intros t T1 T2; assert (t = p') by qlra; subst t; ring|].
      apply RZ; auto.
    - exists cap. split; [exact G2|]. split; [intros t T1 T2; apply CAP1; assumption|]. split; [intros t T1 T2; apply CAP2; assumption|].
      assert (QN : forall t, p <= t -> 0 <= Q t).
      { intros t T1. rewrite QA by exact T1. rewrite G2. assert (0 <= (r - cap) * (t - p)) by (apply qmul_nn; qlra). qlra. }
      split; [intros t T1 T2; apply QN; exact T1|].
      split; [intros t T1 T2; split; [auto|intros _; destruct (qmin_spec cap r) as [[? ->]|[? ->]]; qlra]|].
      split; [qlra|]. split; [intro; split; [qlra|split; [rewrite G3; qlra|intro i; rewrite G3; apply G4]]|].
      split; [apply SG1; exact G3|]. split; [apply SG2; exact G3|]. apply RG; auto.
    - specialize (HD _ _ eq_refl).
      assert (QD : forall t, p <= t -> Q t = (cap - r) * (D - t)).
      { intros t T1. rewrite QA by exact T1. rewrite P3. assert (QQ : Q p = - ((r - cap) * (D - p))) by qlra. rewrite QQ. ring. }
      assert (QN : forall t, p <= t -> t <= p' -> 0 <= Q t) by (intros t T1 T2; rewrite QD by exact T1; apply qmul_nn; qlra).
      exists cap. split; [exact P3|]. split; [intros t T1 T2; apply CAP1; assumption|]. split; [intros t T1 T2; apply CAP2; assumption|].
      split; [exact QN|].
      split; [intros t T1 T2; split; [auto|]|].
      { rewrite QD by exact T1. intro Z. exfalso. assert (0 < (cap - r) * (D - t)) by (apply qmul_pos; qlra). qlra. }
      split; [qlra|]. split; [intro; split; [qlra|split; [rewrite P6; qlra|intro i; rewrite P6; apply P7]]|].
      split; [apply SG1; exact P6|]. split; [apply SG2; exact P6|].
      apply RP2; auto. fold Q r. rewrite QD by exact Hp. ring.
    - specialize (HD _ _ eq_refl).
      assert (QD : forall t, p <= t -> Q t = cap * (D - t)).
      { intros t T1. rewrite QA by exact T1. rewrite P3, P5. ring. }
      assert (XD : forall t, p <= t -> ex (e_q E) t = D + tau).
      { intros t T1. unfold ex. fold Q. rewrite QD by exact T1. field. qlra. }
      assert (QN : forall t, p <= t -> t <= p' -> 0 <= Q t) by (intros t T1 T2; rewrite QD by exact T1; apply qmul_nn; qlra).
      pose proof (XD p ltac:(qlra)) as XP. pose proof (XD p' Hp) as XP'.
      exists cap. split; [rewrite P3, P1; ring|]. split; [intros t T1 T2; apply (b_seg1 _ _ _ B); [exact T1|rewrite XP; qlra]|].
      split; [intros t T1 T2; apply (b_seg2 _ _ _ B); [exact T1|rewrite XP; qlra]|].
      split; [exact QN|].
      split; [intros t T1 T2; split; [auto|]|].
      { rewrite QD by exact T1. intro Z. exfalso. assert (0 < cap * (D - t)) by (apply qmul_pos; qlra). qlra. }
      split; [qlra|]. split; [intro; exfalso; qlra|].
      split; [intros t T1 T2; apply (b_seg1 _ _ _ B); [qlra|rewrite XP; rewrite XP' in T2; exact T2]|].
      split; [|apply RP1; auto; apply QD; exact Hp].
      intros t T1 T2. rewrite XP' in T2. rewrite (b_seg2 _ _ _ B t), (b_seg2 _ _ _ B p') by (try rewrite XP; qlra). ring. }
  destruct KEY as [o [K1 [K2 [K3 [K4 [K5 [K6 [K7 [K8 [K9 K10]]]]]]]]]].
  split; [|exact K10].
  (* exit times are affine from p on *)
  assert (XL : forall t, p <= t -> ex (e_q E) t = ex (e_q E) p + (cap + r - o) / cap * (t - p)).
  { intros t Ht. unfold ex. fold Q. rewrite (QA t Ht), K1. field. qlra. }
  assert (SL : 0 <= (cap + r - o) / cap) by (apply qdiv_nonneg; assumption).
  assert (XM : forall t u, p <= t -> t <= u -> ex (e_q E) t <= ex (e_q E) u).
  { intros t u T1 T2. rewrite (XL t), (XL u) by qlra. assert (0 <= (cap + r - o) / cap * (u - t)) by (apply qmul_nn; qlra).
    replace ((cap + r - o) / cap * (u - p)) with ((cap + r - o) / cap * (t - p) + (cap + r - o) / cap * (u - t)) by ring. qlra. }
  constructor.
  - apply (b_in _ _ _ B).
  - apply (b_out _ _ _ B).
  - pose proof (b_ti _ _ _ B). qlra.
  - apply (qs_mono _ _ _ (b_q _ _ _ B) Hp).
  - pose proof (b_hd _ _ _ B). qlra.
  - pose proof (b_to _ _ _ B). specialize (XM p p' ltac:(qlra) Hp). qlra.
  - apply (b_q0 _ _ _ B).
  - intros t T0 Tp. destruct (qlebP t p) as [C|C]; [apply (b_nn _ _ _ B); assumption|apply K4; qlra].
  - intros t T0 Tp. destruct (qlebP t p) as [C|C]; [apply (b_cons _ _ _ B); assumption|].
    rewrite (proj2 (proj2 (IN t ltac:(qlra)))), K3 by qlra. fold Q. rewrite QA by qlra. rewrite K1. unfold Q at 1. rewrite (b_cons _ _ _ B p) by qlra. ring.
  - intros t T0 Tp. destruct (qltbP t p) as [C|C]; [apply (b_rate _ _ _ B); assumption|].
    rewrite K2 by qlra. rewrite (proj1 (IN t ltac:(qlra))). apply K5; qlra.
  - apply (b_early _ _ _ B).
  - intros t u T0 Tu Up. destruct (qlebP u p) as [C|C]; [apply (b_fifo _ _ _ B); assumption|]. destruct (qlebP p t) as [C2|C2]; [apply XM; assumption|].
    pose proof (b_fifo _ _ _ B t p T0 ltac:(qlra) ltac:(qlra)). pose proof (XM p u ltac:(qlra) ltac:(qlra)). qlra.
  - intros t T0 Tp TI. destruct (qltbP t p) as [C|C].
    + destruct (b_prop _ _ _ B t T0 C TI) as [Q1 Q2]. split; [|exact Q2]. pose proof (XM p p' ltac:(qlra) Hp). qlra.
    + assert (Ht : p <= t) by qlra. destruct (IN t Ht) as [I1 [I2 _]]. rewrite I1 in *. rewrite I2. destruct (K7 TI) as [S1 [S2 S3]].
      assert (S4 : 0 < (cap + r - o) / cap) by (apply qdiv_pos; assumption). split.
      * rewrite (XL t Ht), (XL p' Hp). assert (0 < (cap + r - o) / cap * (p' - t)) by (apply qmul_pos; qlra).
        replace ((cap + r - o) / cap * (p' - p)) with ((cap + r - o) / cap * (t - p) + (cap + r - o) / cap * (p' - t)) by ring. qlra.
      * destruct (OUT (ex (e_q E) t) (XM p t ltac:(qlra) Ht)) as [O1 [O2 _]]. rewrite O1, O2. split; [exact S2|exact S3].
  - exact K8.
  - exact K9.
Qed.
End Edge.
