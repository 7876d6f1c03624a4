(** * DynamicFlow: events, clock and outflow snapshots (C31, C34) *)
From Verif Require Import Base Spec Arrays PL PLProofs PLEval RC FRC FRCProofs PQ PQProofs PQSpec DynFlow DQProofs DynRun.

(** ** Lists *)
Lemma getn_inv {B} (l : list B) i x : getn l i = Ok x -> (i < length l)%nat /\ forall d, nth i l d = x.
Proof.
  unfold getn. destruct (nth_error l i) as [a|] eqn:E; [|discriminate]. intro H. apply ok_inj in H. subst a.
  split; [apply nth_error_Some; congruence|]. intro d. apply nth_error_nth. exact E.
Qed.
Lemma getn_lt {B} (l : list B) i d : (i < length l)%nat -> getn l i = Ok (nth i l d).
Proof. intro H. unfold getn. rewrite (nth_error_nth' l d H). reflexivity. Qed.
Lemma nth_upd {B} (l : list B) i j x d : nth j (upd l i x) d = if Nat.eqb i j then (if (i <? length l)%nat then x else d) else nth j l d.
Proof.
  revert i j. induction l as [|a l IH]; intros i j.
  - cbn [upd]. destruct (Nat.eqb i j); destruct i, j; reflexivity.
  - destruct i as [|i], j as [|j]; cbn [upd nth Nat.eqb]; try reflexivity. rewrite IH. destruct (Nat.eqb i j); [|reflexivity].
    change (Datatypes.S i <? length (a :: l))%nat with (i <? length l)%nat. reflexivity.
Qed.
Lemma nth_upd_same {B} (l : list B) i x d : (i < length l)%nat -> nth i (upd l i x) d = x.
Proof. intro H. rewrite nth_upd, Nat.eqb_refl. destruct (Nat.ltb_spec i (length l)); [reflexivity|lia]. Qed.
Lemma nth_upd_other {B} (l : list B) i j x d : i <> j -> nth j (upd l i x) d = nth j l d.
Proof. intro H. rewrite nth_upd. destruct (Nat.eqb_spec i j); [contradiction|reflexivity]. Qed.
Lemma foldM_inv {A S} (P : S -> Prop) (f : S -> A -> res S) : forall l s s',
  (forall s x s', In x l -> P s -> f s x = Ok s' -> P s') -> P s -> foldM f l s = Ok s' -> P s'.
Proof.
  induction l as [|x r IH]; intros s s' H Ps E; cbn [foldM] in E.
  - apply ok_inj in E. subst. exact Ps.
  - binv E. eapply IH; [|eapply H; [left; reflexivity|exact Ps|exact E0]|exact E]. intros; eapply H; [right; eassumption|eassumption|eassumption].
Qed.

(** ** Effects of the pieces (partial correctness, for both values of the flag) *)
Lemma chk_ok k b u : chk k b = Ok u -> k = true -> b = true.
Proof. unfold chk. destruct k, b; cbn; congruence. Qed.
Lemma frc_extend_chain c t v s c' : frc_extend c t v s = Ok c' -> c_chain c' = c_chain c ++ [mkItem t v].
Proof. unfold frc_extend. intro H. binv H. apply new_item_inv in E. destruct E as [-> _]. binv H. binv H. apply ok_inj in H. subst. reflexivity. Qed.
Lemma c_extend_chain k c t v s c' : c_extend k c t v s = Ok c' -> c_chain c' = c_chain c ++ [mkItem t v].
Proof. unfold c_extend. intro H. binv H. eapply frc_extend_chain. exact H. Qed.

Lemma out_extend_eff k st e t v s st' : out_extend k st e t v s = Ok st' ->
  (e < length (f_out st))%nat /\
  f_phi st' = f_phi st /\ f_in st' = f_in st /\ f_q st' = f_q st /\ f_dq st' = f_dq st /\
  f_changes st' = sq_set (f_changes st) (e, t) (Fin t) /\ length (f_out st') = length (f_out st) /\
  out_chain st' e = out_chain st e ++ [mkItem t v] /\ (forall j, j <> e -> outflow_of st' j = outflow_of st j).
Proof.
  unfold out_extend. intro H. binv H. apply getn_inv in E. destruct E as [L E]. binv H. apply c_extend_chain in E0. apply ok_inj in H. subst st'.
  cbn. do 6 (split; [reflexivity || assumption|]). split; [apply upd_length|]. unfold out_chain, outflow_of. cbn.
  split; [rewrite nth_upd_same by exact L; rewrite E0, (E frc_empty); reflexivity|]. intros j N. apply nth_upd_other. congruence.
Qed.
Lemma queue_extend_eff k st e t s st' : queue_extend k st e t s = Ok st' ->
  f_phi st' = f_phi st /\ f_in st' = f_in st /\ f_out st' = f_out st /\ f_dq st' = f_dq st /\ f_changes st' = f_changes st.
Proof. unfold queue_extend. intro H. binv H. binv H. apply ok_inj in H. subst st'. cbn. auto. Qed.
Lemma drop_depletion_eff st e st' : dq_ok (f_dq st) -> drop_depletion st e = Ok st' ->
  f_phi st' = f_phi st /\ f_in st' = f_in st /\ f_out st' = f_out st /\ f_q st' = f_q st /\ f_changes st' = f_changes st /\
  dq_ok (f_dq st') /\ forall j, pend (f_dq st') j = if Nat.eqb e j then None else pend (f_dq st) j.
Proof.
  intro K. unfold drop_depletion. rewrite pend_has by exact K. pose proof (dq_remove_ok (f_dq st) e K) as R.
  destruct (pend (f_dq st) e) as [p|] eqn:P.
  - destruct R as [q' [E [K' P']]]. rewrite E. cbn [bind]. intro H. apply ok_inj in H. subst st'. cbn. auto 10.
  - intro H. apply ok_inj in H. subst st'. do 5 (split; [reflexivity|]). split; [exact K|]. intro j. destruct (Nat.eqb_spec e j) as [<-|]; auto.
Qed.

Section Run.
Variable nw : Net.
Hypothesis NW : net_ok nw.
Lemma cap_pos e c : getn (n_cap nw) e = Ok c -> 0 < c /\ c = cap_of nw e.
Proof.
  intro H. apply getn_inv in H. destruct H as [L H]. unfold cap_of. rewrite (H 0). split; [|reflexivity].
  apply NW. rewrite <- (H 0). apply nth_In. exact L.
Qed.
Lemma tau_nn e c : getn (n_tau nw) e = Ok c -> 0 <= c /\ c = tau_of nw e.
Proof.
  intro H. apply getn_inv in H. destruct H as [L H]. unfold tau_of. rewrite (H 0). split; [|reflexivity].
  apply NW. rewrite <- (H 0). apply nth_In. exact L.
Qed.

Lemma tau_nonneg e : 0 <= tau_of nw e.
Proof. unfold tau_of. destruct (Nat.lt_ge_cases e (length (n_tau nw))) as [L|L]; [apply NW, nth_In, L|rewrite nth_overflow by exact L; qlra]. Qed.
(** Outcome of extending one edge at time phi: its outflow gets one new
    snapshot (t, v), or nothing changes but the inflow query. *)
Definition plan_ok (e : nat) (phi : Qc) (p : plan) : Prop :=
  phi < fst p /\ forall ct v, snd p = Some (ct, v) -> ct = fst p + tau_of nw e.

(** The properties of a snapshot produced from inflow [nf]. *)
Definition derived (e : nat) (nf d : rates) : Prop :=
  d = [] \/ exists f, 0 < f /\ (forall i, rate d i = f * rate nf i) /\ rates_sum d <= cap_of nw e.

Record edge_eff (e : nat) (nf : rates) (st st' : Flow) (t : Qc) (v : rates) : Prop := {
  ee_phi : f_phi st' = f_phi st;
  ee_chg : f_changes st' = sq_set (f_changes st) (e, t) (Fin t);
  ee_dq : dq_ok (f_dq st');
  ee_oth : forall j, j <> e -> pend (f_dq st') j = pend (f_dq st) j;
  ee_own : forall p, pend (f_dq st') e = Some p -> plan_ok e (f_phi st) p /\ forall ct x s, snd p = Some (ct, (x, s)) -> derived e nf x;
  ee_t : f_phi st + tau_of nw e <= t;
  ee_len : length (f_out st') = length (f_out st);
  ee_out : out_chain st' e = out_chain st e ++ [mkItem t v];
  ee_outo : forall j, j <> e -> outflow_of st' j = outflow_of st j;
  ee_der : derived e nf v }.

Lemma fold_sum d : forall a, fold_left (fun acc (p : nat * Qc) => acc + snd p) d a = a + rates_sum d.
Proof.
  induction d as [|x r IH]; intro a; [unfold rates_sum; cbn; ring|]. unfold rates_sum. cbn [fold_left]. rewrite !IH. ring.
Qed.
Lemma rates_sum_cons p d : rates_sum (p :: d) = snd p + rates_sum d.
Proof. unfold rates_sum at 1. cbn [fold_left]. rewrite fold_sum. ring. Qed.
Lemma sum_scale f d : rates_sum (scale f d) = f * rates_sum d.
Proof.
  induction d as [|[i x] r IH]; [cbn; unfold rates_sum; cbn; ring|]. change (scale f ((i, x) :: r)) with ((i, f * x) :: scale f r).
  rewrite !rates_sum_cons, IH. cbn [snd]. ring.
Qed.
Lemma dget_scale f d i : dget (scale f d) i = match dget d i with Some v => Some (f * v) | None => None end.
Proof. induction d as [|[j x] r IH]; cbn [scale map dget fst snd]; [reflexivity|]. destruct (Nat.eqb j i); [reflexivity|exact IH]. Qed.
Lemma rate_scale f d i : rate (scale f d) i = f * rate d i.
Proof. unfold rate. rewrite dget_scale. destruct (dget d i); [reflexivity|ring]. Qed.
Lemma sum_nonneg d : (forall i v, In (i, v) d -> 0 < v) -> 0 <= rates_sum d /\ (rates_sum d = 0 -> d = []).
Proof.
  induction d as [|[i x] r IH]; intro H; [split; [cbn; qlra|reflexivity]|]. rewrite rates_sum_cons. cbn [snd].
  assert (0 < x) by (eapply H; left; reflexivity). destruct IH as [I1 _]; [intros; eapply H; right; eassumption|]. split; [qlra|intro; exfalso; qlra].
Qed.

Lemma case_i_eff k st e cq nf st' : dq_ok (f_dq st) -> 0 <= cq ->
  case_i k nw st e cq = Ok st' -> exists t, edge_eff e nf st st' t [].
Proof.
  intros K Q H. unfold case_i in H. binv H. binv H. apply cap_pos in E. apply tau_nn in E0. destruct E as [C1 C2], E0 as [T1 T2].
  rewrite pydiv_ok in H by qlra. cbn [bind] in H. pose proof (qdiv_nonneg cq a Q C1) as W.
  binv H. binv H. apply out_extend_eff in E. destruct E as [L [X1 [X2 [X3 [X4 [X5 [X6 [X7 X8]]]]]]]].
  apply queue_extend_eff in E0. destruct E0 as [Y1 [Y2 [Y3 [Y4 Y5]]]].
  exists (f_phi st + cq / a + a0). destruct (qltbP 0 cq) as [C|C].
  - binv H. destruct (dq_set_ok (f_dq a2) e (f_phi st + cq / a) None) as [q' [ES [K' P']]]; [rewrite Y4, X4; exact K|]. rewrite ES in H. cbn [bind] in H. apply ok_inj in H. subst st'.
    assert (0 < cq / a) by (apply qdiv_pos; assumption).
    constructor; cbn.
    + congruence.
    + congruence.
    + exact K'.
    + intros j N. rewrite P'. destruct (Nat.eqb_spec e j); [congruence|congruence].
    + intros p. rewrite P', Nat.eqb_refl. intro Z. injection Z as <-. split; [|cbn; discriminate]. split; cbn [fst snd]; [qlra|discriminate].
    + qlra.
    + congruence.
    + unfold out_chain, outflow_of in *. cbn. rewrite Y3. exact X7.
    + unfold outflow_of in *. cbn. rewrite Y3. exact X8.
    + left. reflexivity.
  - apply drop_depletion_eff in H; [|rewrite Y4, X4; exact K]. destruct H as [Z1 [Z2 [Z3 [Z4 [Z5 [K' P']]]]]].
    constructor.
    + congruence.
    + congruence.
    + exact K'.
    + intros j N. rewrite P'. destruct (Nat.eqb_spec e j); [congruence|congruence].
    + intros p. rewrite P', Nat.eqb_refl. discriminate.
    + qlra.
    + congruence.
    + unfold out_chain, outflow_of in *. rewrite Z3, Y3. exact X7.
    + unfold outflow_of in *. rewrite Z3, Y3. exact X8.
    + left. reflexivity.
Qed.
Lemma case_ii_eff k st e nf cq st' : dq_ok (f_dq st) -> 0 <= cq -> is_snapshot nf -> rates_sum nf <> 0 ->
  case_ii k nw st e nf cq (rates_sum nf) = Ok st' -> exists t v, edge_eff e nf st st' t v.
Proof.
  intros K Q SN NZ H. assert (0 < rates_sum nf) by (destruct (sum_nonneg nf (proj2 SN)) as [S1 _]; qlra).
  unfold case_ii in H. binv H. binv H. apply cap_pos in E. apply tau_nn in E0. destruct E as [C1 C2], E0 as [T1 T2].
  binv H. clear a1 E. rewrite pydiv_ok in H by qlra. cbn [bind] in H. pose proof (qdiv_nonneg cq a Q C1) as W.
  rewrite pydiv_ok in H by qlra. cbn [bind] in H.
  binv H. binv H. apply out_extend_eff in E. destruct E as [L [X1 [X2 [X3 [X4 [X5 [X6 [X7 X8]]]]]]]].
  apply queue_extend_eff in E0. destruct E0 as [Y1 [Y2 [Y3 [Y4 Y5]]]].
  apply drop_depletion_eff in H; [|rewrite Y4, X4; exact K]. destruct H as [Z1 [Z2 [Z3 [Z4 [Z5 [K' P']]]]]].
  do 2 eexists. constructor.
  + congruence.
  + rewrite Z5, Y5. exact X5.
  + exact K'.
  + intros j N. rewrite P'. destruct (Nat.eqb_spec e j); [congruence|congruence].
  + intros p. rewrite P', Nat.eqb_refl. discriminate.
  + qlra.
  + congruence.
  + unfold out_chain, outflow_of in *. rewrite Z3, Y3. exact X7.
  + unfold outflow_of in *. rewrite Z3, Y3. exact X8.
  + right. exists (qmin a (rates_sum nf) / rates_sum nf). split; [|split].
    * apply qdiv_pos; [|assumption]. destruct (qmin_spec a (rates_sum nf)) as [[? ->]|[? ->]]; assumption.
    * intro i. apply rate_scale.
    * rewrite sum_scale. rewrite qdiv_mul by qlra. rewrite <- C2. destruct (qmin_spec a (rates_sum nf)) as [[? ->]|[? ->]]; qlra.
Qed.
Lemma case_iii_eff k st e nf cq st' : dq_ok (f_dq st) -> 0 < cq -> is_snapshot nf -> rates_sum nf <> 0 -> rates_sum nf < cap_of nw e - eps ->
  case_iii k nw st e nf cq (rates_sum nf) = Ok st' -> exists t v, edge_eff e nf st st' t v.
Proof.
  intros K Q SN NZ LT H. assert (0 < rates_sum nf) by (destruct (sum_nonneg nf (proj2 SN)) as [S1 _]; qlra).
  unfold case_iii in H. binv H. binv H. apply cap_pos in E. apply tau_nn in E0. destruct E as [C1 C2], E0 as [T1 T2].
  rewrite pydiv_ok in H by qlra. cbn [bind] in H. pose proof (qdiv_nonneg cq a ltac:(qlra) C1) as W.
  rewrite pydiv_ok in H by qlra. cbn [bind] in H.
  binv H. binv H. apply out_extend_eff in E. destruct E as [L [X1 [X2 [X3 [X4 [X5 [X6 [X7 X8]]]]]]]].
  apply queue_extend_eff in E0. destruct E0 as [Y1 [Y2 [Y3 [Y4 Y5]]]].
  rewrite pydiv_ok in H by (rewrite <- C2 in LT; qlra). cbn [bind] in H. binv H. clear E.
  assert (DP : 0 < - (cq / (rates_sum nf - a))).
  { replace (- (cq / (rates_sum nf - a))) with (cq / (a - rates_sum nf)); [apply qdiv_pos; rewrite <- C2 in LT; qlra|]. field. rewrite <- C2 in LT. split; qlra. }
  match type of H with context [dq_set ?q ?e ?t ?c] => destruct (dq_set_ok q e t c) as [q' [ES [K' P']]]; [rewrite Y4, X4; exact K|]; rewrite ES in H end.
  cbn [bind] in H. apply ok_inj in H. subst st'.
  do 2 eexists. constructor; cbn.
  + congruence.
  + rewrite Y5. exact X5.
  + exact K'.
  + intros j N. rewrite P'. destruct (Nat.eqb_spec e j); [congruence|congruence].
  + intros p. rewrite P', Nat.eqb_refl. intro Z. injection Z as <-. cbn [fst snd]. split.
    * split; cbn [fst snd]; [qlra|]. intros ct v Z. injection Z as <- <-. rewrite T2. reflexivity.
    * intros ct x s Z. injection Z as <- <- <-. right. exists 1. split; [qlra|]. split; [intro; ring|qlra].
  + qlra.
  + congruence.
  + unfold out_chain, outflow_of in *. cbn. rewrite Y3. exact X7.
  + unfold outflow_of in *. cbn. rewrite Y3. exact X8.
  + right. exists (a / rates_sum nf). split; [apply qdiv_pos; assumption|]. split; [intro i; apply rate_scale|].
    rewrite sum_scale, qdiv_mul by qlra. qlra.
Qed.
Lemma extend_edge_eff k st e nf st' : dq_ok (f_dq st) -> is_snapshot nf -> extend_edge k nw st (e, nf) = Ok st' ->
  (exists st1 t v, f_phi st1 = f_phi st /\ f_changes st1 = f_changes st /\ f_dq st1 = f_dq st /\ f_out st1 = f_out st /\ edge_eff e nf st1 st' t v) \/
  (f_phi st' = f_phi st /\ f_changes st' = f_changes st /\ f_dq st' = f_dq st /\ f_out st' = f_out st).
Proof.
  intros K SN H. unfold extend_edge in H. cbn [fst snd] in H. binv H. binv H. destruct a0 as [c1 old].
  destruct (rates_eqb old nf); [right; apply ok_inj in H; subst st'; cbn; auto|]. left.
  binv H. binv H. binv H.
  assert (Q0 : 0 <= qmax a1 0) by (destruct (qmax_spec a1 0) as [[? ->]|[? ->]]; qlra).
  destruct (qeqbP (rates_sum nf) 0) as [Z|NZ].
  - eapply case_i_eff in H; [|exact K|exact Q0]. destruct H as [t Ht]. eexists. exists t, []. split; [|split; [|split; [|split; [|exact Ht]]]]; reflexivity.
  - binv H. destruct ((qeqb (qmax a1 0) 0 || qleb (a3 - eps) (rates_sum nf))%bool) eqn:B.
    + apply case_ii_eff in H; [|exact K|exact Q0|exact SN|exact NZ]. destruct H as [t [v Ht]]. eexists. exists t, v. split; [|split; [|split; [|split; [|exact Ht]]]]; reflexivity.
    + apply orb_false_iff in B. destruct B as [B1 B2]. apply qeqb_false in B1. apply qleb_false in B2. apply cap_pos in E4. destruct E4 as [C1 C2].
      apply case_iii_eff in H; [|exact K|qlra|exact SN|exact NZ|rewrite <- C2; exact B2]. destruct H as [t [v Ht]]. eexists. exists t, v. split; [|split; [|split; [|split; [|exact Ht]]]]; reflexivity.
Qed.

(** ** Invariants *)
Definition snap_from (cs : list call) (e : nat) (d : rates) : Prop :=
  d = [] \/ exists nf, fed cs e nf /\ exists f, 0 < f /\ (forall i, rate d i = f * rate nf i) /\ rates_sum d <= cap_of nw e.
Lemma derived_snap cs e nf d : fed cs e nf -> derived e nf d -> snap_from cs e d.
Proof. intros F [D|D]; [left; exact D|right; exists nf; auto]. Qed.
Definition has (st : Flow) (e : nat) (t : Qc) : Prop := sq_key_of (f_changes st) (e, t) <> None.

Record evinv (cs : list call) (st : Flow) : Prop := {
  ev_dq : dq_ok (f_dq st);
  ev_plan : forall e p, pend (f_dq st) e = Some p -> plan_ok e (f_phi st) p /\ forall ct x s, snd p = Some (ct, (x, s)) -> snap_from cs e x;
  ev_nd : sq_nd (f_changes st);
  ev_key : forall e t k, sq_key_of (f_changes st) (e, t) = Some k -> k = Fin t;
  ev_iff : forall e t, has st e t <-> f_phi st < t /\ In t (out_times (out_chain st e));
  ev_out : forall e it, In it (out_chain st e) -> snap_from cs e (it_vals it) }.

(** In the middle of a call that started in [st0]. *)
Record mid (cs : list call) (st0 st : Flow) (b : Qc) : Prop := {
  m_dq : dq_ok (f_dq st);
  m_plan : forall e p, pend (f_dq st) e = Some p -> plan_ok e (f_phi st0) p /\ (forall ct x s, snd p = Some (ct, (x, s)) -> b <= ct /\ snap_from cs e x);
  m_nd : sq_nd (f_changes st);
  m_key : forall e t k, sq_key_of (f_changes st) (e, t) = Some k -> k = Fin t;
  m_low : forall e t, has st e t -> b <= t;
  m_new : forall e, exists new, out_chain st e = out_chain st0 e ++ new /\
    (forall it, In it new -> snap_from cs e (it_vals it) /\ f_phi st0 + tau_of nw e <= it_time it) /\
    forall t, has st e t <-> (f_phi st0 < t /\ In t (out_times (out_chain st0 e))) \/ In t (out_times new) }.

Lemma evinv_mid cs st : evinv cs st -> mid cs st st (f_phi st).
Proof.
  intros [A1 A2 A3 A4 A5 A6]. constructor; auto.
  - intros e p P. destruct (A2 e p P) as [B1 B2]. split; [exact B1|]. intros ct x s E. split; [|eapply B2; exact E].
    destruct B1 as [B1 B3]. rewrite (B3 ct (x, s) E). pose proof (proj2 (proj2 NW)) as T.
    assert (0 <= tau_of nw e). { unfold tau_of. destruct (Nat.lt_ge_cases e (length (n_tau nw))) as [L|L]; [apply T, nth_In, L|rewrite nth_overflow by exact L; qlra]. }
    qlra.
  - intros e t H. apply A5 in H. qlra.
  - intro e. exists []. rewrite app_nil_r. split; [reflexivity|]. split; [intros ? []|]. intro t. rewrite A5. cbn. tauto.
Qed.

Lemma pair_eqb_eq (a b : nat * Qc) : @eqb _ Item_pair a b = true <-> a = b.
Proof. destruct (eqbP a b); split; intro; congruence. Qed.
Lemma has_set st st' e t : f_changes st' = sq_set (f_changes st) (e, t) (Fin t) ->
  forall j u, has st' j u <-> has st j u \/ (j = e /\ u = t).
Proof.
  intros H j u. unfold has. rewrite H, kof_set. destruct (eqbP (e, t) (j, u)) as [E|N].
  - split; [intros _; right; split; congruence|discriminate].
  - split; [auto|]. intros [Q|[-> ->]]; [exact Q|congruence].
Qed.
Lemma key_set st st' e t : f_changes st' = sq_set (f_changes st) (e, t) (Fin t) ->
  (forall e t k, sq_key_of (f_changes st) (e, t) = Some k -> k = Fin t) -> forall e t k, sq_key_of (f_changes st') (e, t) = Some k -> k = Fin t.
Proof. intros H K j u k. rewrite H, kof_set. destruct (eqbP (e, t) (j, u)) as [E|N]; [congruence|apply K]. Qed.

(** Appending one snapshot at time t >= b with its event. *)
Lemma mid_append cs st0 st st' b e t v :
  mid cs st0 st b -> b <= t -> f_phi st0 + tau_of nw e <= t -> snap_from cs e v ->
  f_changes st' = sq_set (f_changes st) (e, t) (Fin t) ->
  out_chain st' e = out_chain st e ++ [mkItem t v] -> (forall j, j <> e -> out_chain st' j = out_chain st j) ->
  dq_ok (f_dq st') -> (forall j p, pend (f_dq st') j = Some p -> plan_ok j (f_phi st0) p /\ (forall ct x s, snd p = Some (ct, (x, s)) -> b <= ct /\ snap_from cs j x)) ->
  mid cs st0 st' b.
Proof.
  intros M Hb HL SF EC EO EJ DK PL. pose proof (has_set st st' e t EC) as HS. constructor; auto.
  - rewrite EC. apply nd_set, M.
  - apply (key_set st st' e t EC), M.
  - intros j u H. apply HS in H. destruct H as [H|[-> ->]]; [eapply m_low; eauto|exact Hb].
  - intro j. destruct (m_new _ _ _ _ M j) as [new [N1 [N2 N3]]]. destruct (Nat.eq_dec j e) as [->|NE].
    + exists (new ++ [mkItem t v]). rewrite EO, N1, <- app_assoc. split; [reflexivity|]. split.
      * intros it I. apply in_app_or in I. destruct I as [I|[<-|[]]]; [auto|split; [exact SF|exact HL]].
      * intro u. rewrite HS, N3. unfold out_times. rewrite map_app, in_app_iff. cbn [map it_time In]. intuition congruence.
    + exists new. rewrite (EJ j NE). split; [exact N1|]. split; [exact N2|]. intro u. rewrite HS, N3. intuition congruence.
Qed.
Lemma mid_same cs st0 st st' b : mid cs st0 st b -> f_changes st' = f_changes st -> f_dq st' = f_dq st -> f_out st' = f_out st -> mid cs st0 st' b.
Proof.
  intros [M1 M2 M3 M4 M5 M6] E1 E2 E3. constructor; unfold has, out_chain, outflow_of in *; rewrite ?E1, ?E2, ?E3; auto.
Qed.

Lemma fold_eff k cs st0 ni maxt : In (CExtend ni maxt) cs -> (forall e d, In (e, d) ni -> is_snapshot d) -> forall st st1,
  mid cs st0 st (f_phi st0) -> f_phi st = f_phi st0 -> foldM (extend_edge k nw) ni st = Ok st1 ->
  mid cs st0 st1 (f_phi st0) /\ f_phi st1 = f_phi st0.
Proof.
  intros IC SN st st1 M PH E.
  apply (foldM_inv (fun s => mid cs st0 s (f_phi st0) /\ f_phi s = f_phi st0) _ _ _ _) in E; [exact E| |auto].
  clear st st1 M PH E. intros s [e nf] s' I [M PH] E.
  apply extend_edge_eff in E; [|apply M|eapply SN; exact I].
  assert (FD : fed cs e nf) by (exists ni, maxt; auto).
  destruct E as [[s1 [t [v [X1 [X2 [X3 [X4 EE]]]]]]]|[X1 [X2 [X3 X4]]]].
  - split; [|rewrite (ee_phi _ _ _ _ _ _ EE); congruence].
    assert (M1 : mid cs st0 s1 (f_phi st0)) by (eapply mid_same; eauto).
    assert (PS : f_phi s1 = f_phi st0) by congruence.
    eapply mid_append with (st := s1) (e := e) (t := t) (v := v); [exact M1| | | | | | | |].
    + rewrite <- PS. pose proof (ee_t _ _ _ _ _ _ EE). pose proof (tau_nonneg e). qlra.
    + rewrite <- PS. apply (ee_t _ _ _ _ _ _ EE).
    + eapply derived_snap; [exact FD|apply (ee_der _ _ _ _ _ _ EE)].
    + apply (ee_chg _ _ _ _ _ _ EE).
    + apply (ee_out _ _ _ _ _ _ EE).
    + intros j NJ. unfold out_chain. rewrite (ee_outo _ _ _ _ _ _ EE j NJ). reflexivity.
    + apply (ee_dq _ _ _ _ _ _ EE).
    + intros j p P. destruct (Nat.eq_dec j e) as [->|NE].
      * destruct (ee_own _ _ _ _ _ _ EE p P) as [O1 O2]. rewrite PS in O1. split; [exact O1|]. intros ct x q Z. split.
        -- destruct O1 as [O1 O3]. rewrite (O3 ct (x, q) Z). unfold tau_of in *.
           assert (0 <= nth e (n_tau nw) 0). { destruct (Nat.lt_ge_cases e (length (n_tau nw))) as [L|L]; [apply NW, nth_In, L|rewrite nth_overflow by exact L; qlra]. }
           qlra.
        -- eapply derived_snap; [exact FD|eapply O2; exact Z].
      * rewrite (ee_oth _ _ _ _ _ _ EE j NE) in P. apply (m_plan _ _ _ _ M1 j p P).
  - split; [eapply mid_same; eauto|congruence].
Qed.

Lemma deplete_eff k cs st0 st st' b : mid cs st0 st b -> deplete_one k st = Ok st' ->
  mid cs st0 st' b /\ f_phi st' = f_phi st /\ (dq_len (f_dq st') < dq_len (f_dq st))%nat.
Proof.
  intros M H. unfold deplete_one in H. binv H. destruct a as [d [[e t] ch]]. rename E into EP.
  destruct (dq_pop_ok (f_dq st) (m_dq _ _ _ _ M)) as [[_ Z]|[q' [e' [D [ch' [E [P [MN [K' [P' [L' _]]]]]]]]]]]; [congruence|].
  rewrite EP in E. apply ok_inj in E. injection E as -> -> -> ->.
  binv H. apply queue_extend_eff in E. destruct E as [Y1 [Y2 [Y3 [Y4 Y5]]]]. cbn [set_dq f_phi f_in f_out f_dq f_changes] in *.
  binv H. binv H. binv H. clear E E0 E1.
  match type of H with context [set_q a ?l] => set (st2 := set_q a l) in * end.
  assert (PLN : forall j p, pend q' j = Some p -> plan_ok j (f_phi st0) p /\ (forall ct x s, snd p = Some (ct, (x, s)) -> b <= ct /\ snap_from cs j x)).
  { intros j p Pj. rewrite P' in Pj. destruct (Nat.eqb e' j); [discriminate|]. apply (m_plan _ _ _ _ M j p Pj). }
  destruct ch' as [[ct [v s]]|].
  - destruct (m_plan _ _ _ _ M e' _ P) as [O1 O2]. destruct (O2 ct v s eq_refl) as [O3 O4].
    apply out_extend_eff in H. destruct H as [L [X1 [X2 [X3 [X4 [X5 [X6 [X7 X8]]]]]]]].
    change (f_phi st2) with (f_phi a) in *. change (f_dq st2) with (f_dq a) in *. change (f_changes st2) with (f_changes a) in *.
    assert (OC : forall j, out_chain st2 j = out_chain st j) by (intro j; unfold out_chain, outflow_of; change (f_out st2) with (f_out a); rewrite Y3; reflexivity).
    assert (OJ : forall j, j <> e' -> out_chain st' j = out_chain st2 j) by (intros j N; unfold out_chain; rewrite (X8 j N); reflexivity).
    split; [|split; [congruence|rewrite X4, Y4; exact L']].
    eapply mid_append with (st := st) (e := e') (t := ct) (v := v); auto.
    + destruct O1 as [O5 O6]. cbn [fst snd] in O5, O6. rewrite (O6 ct (v, s) eq_refl). qlra.
    + rewrite X5, Y5. reflexivity.
    + rewrite X7, OC. reflexivity.
    + intros j N. rewrite (OJ j N). apply OC.
    + rewrite X4, Y4. exact K'.
    + rewrite X4, Y4. exact PLN.
  - apply ok_inj in H. subst st'. change (f_phi st2) with (f_phi a). change (f_dq st2) with (f_dq a).
    split; [|split; [congruence|rewrite Y4; exact L']].
    destruct M as [M1 M2 M3 M4 M5 M6]. constructor; unfold has, out_chain, outflow_of in *; change (f_dq st2) with (f_dq a); change (f_changes st2) with (f_changes a);
      change (f_out st2) with (f_out a); rewrite ?Y3, ?Y4, ?Y5; auto.
Qed.
Lemma process_eff k cs st0 b : forall fuel st st', mid cs st0 st b -> process_depletions fuel k st = Ok st' ->
  mid cs st0 st' b /\ f_phi st' = f_phi st /\ forall e p, pend (f_dq st') e = Some p -> f_phi st < fst p.
Proof.
  induction fuel as [|n IH]; intros st st' M H; cbn [process_depletions] in H; [discriminate|].
  destruct (ext_leb (dq_min_depl (f_dq st)) (Fin (f_phi st)) && (0 <? dq_len (f_dq st))%nat)%bool eqn:B.
  - binv H. destruct (deplete_eff _ _ _ _ _ _ M E) as [M' [P' _]]. destruct (IH _ _ M' H) as [N1 [N2 N3]].
    split; [exact N1|]. split; [congruence|]. intros e p Pe. rewrite <- P'. eapply N3; exact Pe.
  - apply ok_inj in H. subst st'. split; [exact M|]. split; [reflexivity|]. intros e [D ch] P. cbn [fst].
    apply andb_false_iff in B. destruct B as [B|B].
    + destruct (dq_min_depl_ok _ (m_dq _ _ _ _ M)) as [[E N]|[x [E [_ L]]]].
      * exfalso. apply (N D). eauto.
      * rewrite E in B. cbn [ext_leb] in B. apply qleb_false in B. assert (x <= D) by (apply L; eauto). qlra.
    + pose proof (len_zero _ B e) as Z. rewrite (pend_depl _ _ (m_dq _ _ _ _ M)), P in Z. discriminate.
Qed.

(** The final loop. *)
Lemma pop_eff : forall fuel st acc st' l, sq_nd (f_changes st) -> (forall e t k, sq_key_of (f_changes st) (e, t) = Some k -> k = Fin t) ->
  pop_changes fuel st acc = Ok (st', l) ->
  f_phi st' = f_phi st /\ f_in st' = f_in st /\ f_out st' = f_out st /\ f_q st' = f_q st /\ f_dq st' = f_dq st /\
  sq_nd (f_changes st') /\ (forall e t k, sq_key_of (f_changes st') (e, t) = Some k -> k = Fin t) /\
  (forall e t, has st' e t <-> has st e t /\ f_phi st < t) /\
  (forall e, In e l <-> In e acc \/ exists t, has st e t /\ t <= f_phi st).
Proof.
  induction fuel as [|n IH]; intros st acc st' l N K H; cbn [pop_changes] in H; [discriminate|].
  destruct (ext_leb (sq_min_key (f_changes st)) (Fin (f_phi st)) && (0 <? sq_len (f_changes st))%nat)%bool eqn:B.
  - binv H. destruct a as [c [e0 t0]]. destruct (pop_ok _ _ _ N E) as [-> EK].
    pose proof (K e0 t0 _ EK) as Kt. apply andb_true_iff in B. destruct B as [B _]. rewrite Kt in B. cbn [ext_leb] in B. apply qleb_true in B.
    apply IH in H; cbn [set_changes f_changes]; [|apply nd_drop, N|].
    2:{ intros e t k. rewrite kof_drop. destruct (eqb (e0, t0) (e, t)); [discriminate|apply K]. }
    destruct H as [H1 [H2 [H3 [H4 [H5 [H6 [H7 [H8 H9]]]]]]]]. cbn [set_changes f_phi f_in f_out f_q f_dq] in *.
    assert (HD : forall e t, has (set_changes st (sq_drop (f_changes st) (e0, t0))) e t <-> has st e t /\ (e, t) <> (e0, t0)).
    { intros e t. unfold has. cbn [set_changes f_changes]. rewrite kof_drop. destruct (eqbP (e0, t0) (e, t)) as [Q|Q]; intuition congruence. }
    do 7 (split; [assumption|]). split.
    + intros e t. rewrite H8, HD. split; [tauto|]. intros [Q1 Q2]. split; [|exact Q2]. split; [exact Q1|]. intro Q. injection Q as -> ->. qlra.
    + intro e. rewrite H9. cbn [In fst]. split.
      * intros [[Q|Q]|[t [Q1 Q2]]]; auto.
        -- right. exists t0. subst e. split; [unfold has; rewrite EK; discriminate|exact B].
        -- right. exists t. apply HD in Q1. tauto.
      * intros [Q|[t [Q1 Q2]]]; auto. destruct (eqbP (e, t) (e0, t0)) as [Q|Q]; [left; left; congruence|].
        right. exists t. split; [apply HD; auto|exact Q2].
  - apply ok_inj in H. injection H as <- <-. do 7 (split; [auto|]).
    assert (G : forall e t, has st e t -> f_phi st < t).
    { intros e t H. unfold has in H. destruct (sq_key_of (f_changes st) (e, t)) as [k|] eqn:E; [|congruence].
      apply andb_false_iff in B. destruct B as [B|B]; [|rewrite (len_zero _ B) in E; discriminate].
      pose proof (min_key_le _ _ _ E) as ML. rewrite (K e t k E) in ML. destruct (ext_lebP (sq_min_key (f_changes st)) (Fin (f_phi st))) as [C|C]; [discriminate|].
      destruct (qlebP t (f_phi st)) as [D|D]; [|qlra]. exfalso. apply C. eapply ext_le_trans; [exact ML|exact D]. }
    split.
    + intros e t. split; [intro H; split; [exact H|eapply G; exact H]|tauto].
    + intro e. split; [auto|]. intros [Q|[t [Q1 Q2]]]; [exact Q|]. specialize (G e t Q1). exfalso. qlra.
Qed.

Lemma ext_min_le a b : ext_le (ext_min a b) a /\ ext_le (ext_min a b) b /\ (ext_min a b = a \/ ext_min a b = b).
Proof.
  unfold ext_min. destruct (ext_ltbP b a) as [C|C].
  - split; [apply ext_lt_le, C|]. split; [apply ext_le_refl|auto].
  - split; [apply ext_le_refl|]. split; [|auto]. unfold ext_lt in C. destruct (ext_le_total a b); [assumption|]. destruct (ext_lebP a b); tauto.
Qed.

(** One extension. *)
Definition extend_spec (cs : list call) (st st' : Flow) (maxt : Qc) (ch : list nat) : Prop :=
  f_phi st <= f_phi st' /\ f_phi st' <= maxt /\
  (f_phi st' = maxt \/ ch <> []) /\
  (forall e, exists new, out_chain st' e = out_chain st e ++ new /\
     (forall t, In t (out_times new) -> f_phi st' <= t /\ f_phi st + tau_of nw e <= t) /\
     (forall t, In t (out_times (out_chain st e)) -> f_phi st < t -> f_phi st' <= t) /\
     (In e ch <-> In (f_phi st') (out_times new) \/ (f_phi st < f_phi st' /\ In (f_phi st') (out_times (out_chain st e))))) /\
  evinv cs st'.

Lemma extend_events k cs st ni maxt st' ch : evinv cs st -> In (CExtend ni maxt) cs -> (forall e d, In (e, d) ni -> is_snapshot d) ->
  f_phi st <= maxt -> flow_extend k nw st ni maxt = Ok (st', ch) -> extend_spec cs st st' maxt ch.
Proof.
  intros EV IC SN MT H. unfold flow_extend in H. binv H. rename a into st1.
  destruct (fold_eff k cs st ni maxt IC SN st st1 (evinv_mid _ _ EV) eq_refl E) as [M1 P1]. clear E.
  set (m1 := dq_min_change (f_dq st1)) in *. set (m2 := sq_min_key (f_changes st1)) in *.
  destruct (ext_min_le m1 m2) as [A1 [A2 A3]]. destruct (ext_min_le (ext_min m1 m2) (Fin maxt)) as [B1 [B2 B3]].
  destruct (ext_min (ext_min m1 m2) (Fin maxt)) as [|phi'|] eqn:EM; try discriminate.
  pose proof (ext_le_trans _ _ _ B1 A1) as C1. pose proof (ext_le_trans _ _ _ B1 A2) as C2.
  assert (LC : forall e D ct v, pend (f_dq st1) e = Some (D, Some (ct, v)) -> phi' <= ct).
  { intros e D ct v P. destruct (dq_min_change_ok _ (m_dq _ _ _ _ M1)) as [[_ N]|[x [Ex [_ L]]]]; [exfalso; eapply N; eauto|].
    fold m1 in Ex. rewrite Ex in C1. cbn [ext_le] in C1. assert (x <= ct) by (apply L; eauto). qlra. }
  assert (LH : forall e t, has st1 e t -> phi' <= t).
  { intros e t Ht. unfold has in Ht. destruct (sq_key_of (f_changes st1) (e, t)) as [kk|] eqn:Ek; [|congruence].
    pose proof (min_key_le _ _ _ Ek) as Q. rewrite (m_key _ _ _ _ M1 e t kk Ek) in Q. fold m2 in Q. apply (ext_le_trans _ _ _ C2 Q). }
  assert (PP : f_phi st <= phi').
  { assert (X1 : ext_le (Fin (f_phi st)) m1).
    { destruct (dq_min_change_ok _ (m_dq _ _ _ _ M1)) as [[Ex _]|[x [Ex [[e [D [[v s] P]]] _]]]]; fold m1 in Ex; rewrite Ex; [exact Logic.I|].
      destruct (m_plan _ _ _ _ M1 e _ P) as [_ Q]. apply (Q x v s eq_refl). }
    assert (X2 : ext_le (Fin (f_phi st)) m2).
    { destruct (min_key_ex _ (m_nd _ _ _ _ M1)) as [[Ex _]|[[e t] Ex]]; fold m2 in Ex; [rewrite Ex; exact Logic.I|].
      rewrite (m_key _ _ _ _ M1 e t _ Ex). apply (m_low _ _ _ _ M1 e t). unfold has. rewrite Ex. discriminate. }
    destruct B3 as [B3|B3]; [|injection B3 as ->; exact MT]. destruct A3 as [A3|A3]; rewrite A3 in B3; [rewrite <- B3 in X1; exact X1|rewrite <- B3 in X2; exact X2]. }
  binv H. rename a into st3. set (st2 := set_phi st1 phi') in *.
  assert (M2 : mid cs st st2 phi').
  { destruct M1 as [Q1 Q2 Q3 Q4 Q5 Q6]. constructor; auto. intros e [D c] P. destruct (Q2 e _ P) as [R1 R2]. split; [exact R1|].
    intros ct x s Z. destruct (R2 ct x s Z) as [R3 R4]. split; [|exact R4]. cbn [snd] in Z. subst c. eapply LC; exact P. }
  destruct (process_eff _ _ _ _ _ _ _ M2 E) as [M3 [P3 D3]].
  apply pop_eff in H; [|apply M3|apply M3]. destruct H as [H1 [H2 [H3 [H4 [H5 [H6 [H7 [H8 H9]]]]]]]].
  change (f_phi st2) with phi' in *. assert (PH : f_phi st' = phi') by congruence.
  assert (OC : forall e, out_chain st' e = out_chain st3 e) by (intro e; unfold out_chain, outflow_of; rewrite H3; reflexivity).
  unfold extend_spec. rewrite PH. split; [exact PP|]. split; [exact B2|]. split; [|split].
  - (* progress *)
    destruct (qeqbP phi' maxt) as [Q|Q]; [left; exact Q|right].
    assert (B4 : ext_min m1 m2 = Fin phi') by (destruct B3 as [B3|B3]; [congruence|injection B3 as B3; congruence]).
    assert (EX : exists e t, has st3 e t /\ t <= phi').
    { destruct A3 as [A3|A3]; rewrite A3 in B4.
      - destruct (dq_min_change_ok _ (m_dq _ _ _ _ M1)) as [[Ex _]|[x [Ex [[e [D [v P]]] _]]]]; fold m1 in Ex; [congruence|].
        assert (x = phi') by congruence. subst x.
        destruct (m_plan _ _ _ _ M1 e _ P) as [[O1 O2] _]. cbn [fst snd] in O1, O2. specialize (O2 phi' v eq_refl). pose proof (tau_nonneg e).
        exists e, phi'. split; [|qlra].
        (* the depletion is due, so it has been processed *)
        assert (G : forall fuel s s', mid cs st s phi' -> f_phi s = phi' -> process_depletions fuel k s = Ok s' ->
            (pend (f_dq s) e = Some (D, Some (phi', v)) \/ has s e phi') -> has s' e phi').
        { clear -O1 O2 H NW. induction fuel as [|n IH]; intros s s' M PS R Hor; cbn [process_depletions] in R; [discriminate|].
          destruct (ext_leb (dq_min_depl (f_dq s)) (Fin (f_phi s)) && (0 <? dq_len (f_dq s))%nat)%bool eqn:B.
          - binv R. pose proof (deplete_eff _ _ _ _ _ _ M E) as [M' [P' _]].
            apply (IH _ _ M'); [congruence|exact R|].
            unfold deplete_one in E. binv E. destruct a0 as [d [[e1 t1] ch1]].
            destruct (dq_pop_ok (f_dq s) (m_dq _ _ _ _ M)) as [[_ Z]|[q' [e' [D' [ch' [EP [P2 [MN [K' [P'' _]]]]]]]]]]; [congruence|].
            rewrite E0 in EP. apply ok_inj in EP. injection EP as -> -> -> ->. clear E0.
            binv E. apply queue_extend_eff in E0. destruct E0 as [Y1 [Y2 [Y3 [Y4 Y5]]]]. cbn [set_dq f_phi f_in f_out f_dq f_changes] in *.
            binv E. binv E. binv E. clear E0 E1 E2.
            match type of E with context [set_q a0 ?l] => set (s2 := set_q a0 l) in * end.
            assert (PA : pend (f_dq a) = pend q' /\ forall j u, has s j u -> has a j u).
            { destruct ch' as [[ct [vv ss]]|].
              - apply out_extend_eff in E. destruct E as [L [X1 [X2 [X3 [X4 [X5 [X6 [X7 X8]]]]]]]].
                split; [rewrite X4; change (f_dq s2) with (f_dq a0); rewrite Y4; reflexivity|].
                intros j u Hju. rewrite (has_set s2 a e' ct X5). left. unfold has. change (f_changes s2) with (f_changes a0). rewrite Y5. exact Hju.
              - apply ok_inj in E. subst a. split; [change (f_dq s2) with (f_dq a0); rewrite Y4; reflexivity|].
                intros j u Hju. unfold has. change (f_changes s2) with (f_changes a0). rewrite Y5. exact Hju. }
            destruct Hor as [HP|HH]; [|right; apply PA; exact HH].
            destruct (Nat.eq_dec e' e) as [->|NE].
            + rewrite HP in P2. injection P2 as <- <-. right. destruct v as [vv ss].
              apply out_extend_eff in E. destruct E as [L [X1 [X2 [X3 [X4 [X5 _]]]]]]. apply (has_set _ _ _ _ X5). right. auto.
            + left. rewrite (proj1 PA), P''. destruct (Nat.eqb_spec e' e); [contradiction|exact HP].
          - apply ok_inj in R. subst s'. destruct Hor as [HP|HH]; [|exact HH]. exfalso.
            apply andb_false_iff in B. destruct B as [B|B].
            + destruct (dq_min_depl_ok _ (m_dq _ _ _ _ M)) as [[Ex N]|[x [Ex [_ L]]]]; [eapply N; eauto|].
              rewrite Ex in B. cbn [ext_leb] in B. apply qleb_false in B. assert (x <= D) by (apply L; eauto). qlra.
            + pose proof (len_zero _ B e) as Z. rewrite (pend_depl _ _ (m_dq _ _ _ _ M)), HP in Z. discriminate. }
        eapply G; [exact M2|reflexivity|exact E|left; exact P].
      - destruct (min_key_ex _ (m_nd _ _ _ _ M1)) as [[Ex _]|[[e t] Ex]]; fold m2 in Ex; [congruence|].
        assert (t = phi') by (pose proof (m_key _ _ _ _ M1 e t _ Ex); congruence). subst t.
        exists e, phi'. split; [|qlra]. 
        assert (G : forall fuel s s', mid cs st s phi' -> process_depletions fuel k s = Ok s' -> has s e phi' -> has s' e phi').
        { clear -NW. induction fuel as [|n IH]; intros s s' M R HH; cbn [process_depletions] in R; [discriminate|].
          destruct (_ && _)%bool; [|apply ok_inj in R; subst; exact HH]. binv R.
          pose proof (deplete_eff _ _ _ _ _ _ M E) as [M' [P' _]]. apply (IH _ _ M' R).
          destruct (m_new _ _ _ _ M e) as [n1 [N1 [_ N2]]]. destruct (m_new _ _ _ _ M' e) as [n2 [N3 [_ N4]]].
          apply N4. apply N2 in HH. destruct HH as [HH|HH]; [left; exact HH|]. right.
          (* the new part only grows *)
          assert (X : exists l, out_chain a e = out_chain s e ++ l).
          { unfold deplete_one in E. binv E. destruct a0 as [d [[e1 t1] ch1]]. destruct t1 as [|t1|]; try discriminate.
            binv E. apply queue_extend_eff in E1. destruct E1 as [Y1 [Y2 [Y3 [Y4 Y5]]]]. cbn [set_dq f_out] in *.
            binv E. binv E. binv E. match type of E with context [set_q a0 ?l] => set (s2 := set_q a0 l) in * end.
            assert (OC2 : out_chain s2 e = out_chain s e) by (unfold out_chain, outflow_of; change (f_out s2) with (f_out a0); rewrite Y3; reflexivity).
            destruct ch1 as [[[|ct|] [vv ss]]|]; try discriminate.
            - apply out_extend_eff in E. destruct E as [L [X1 [X2 [X3 [X4 [X5 [X6 [X7 X8]]]]]]]].
              destruct (Nat.eq_dec e e1) as [->|NE]; [rewrite X7, OC2; eauto|]. exists []. rewrite app_nil_r. unfold out_chain. rewrite (X8 e NE). exact OC2.
            - apply ok_inj in E. subst a. exists []. rewrite app_nil_r. exact OC2. }
          destruct X as [l X]. rewrite X, N1, <- app_assoc in N3. apply app_inv_head in N3. subst n2. unfold out_times in *. rewrite map_app. apply in_or_app. auto. }
        eapply G; [exact M2|exact E|]. change (has st2 e phi') with (has st1 e phi'). unfold has. rewrite Ex. discriminate. }
    destruct EX as [e [t [X1 X2]]]. intro Z.
    assert (In e ch) by (apply H9; right; exists t; split; [exact X1|rewrite P3; exact X2]). rewrite Z in *. contradiction.
  - (* chains *)
    intro e. destruct (m_new _ _ _ _ M3 e) as [new [N1 [N2 N3]]]. exists new. rewrite OC. split; [exact N1|].
    assert (LO : forall t, has st3 e t -> phi' <= t) by (intros t Ht; apply (m_low _ _ _ _ M3 e t Ht)).
    split; [intros t It; split; [apply LO, N3; auto|]; apply in_map_iff in It; destruct It as [it [<- It]]; apply (N2 it It)|]. split; [intros t It Lt; apply LO, N3; auto|].
    rewrite H9, P3. cbn [In]. split.
    + intros [[]|[t [Q1 Q2]]]. pose proof (LO t Q1). assert (t = phi') by qlra. subst t. apply N3 in Q1. tauto.
    + intro Q. right. exists phi'. split; [apply N3; tauto|qlra].
  - constructor.
    + rewrite H5. apply M3.
    + intros e p P. rewrite H5 in P. destruct (m_plan _ _ _ _ M3 e p P) as [[O1 O2] O3]. split.
      * split; [rewrite PH; eapply D3; exact P|exact O2].
      * intros ct x s Z. apply (O3 ct x s Z).
    + exact H6.
    + exact H7.
    + intros e t. rewrite H8, P3, PH, OC. destruct (m_new _ _ _ _ M3 e) as [new [N1 [N2 N3]]]. rewrite N1, N3. unfold out_times. rewrite map_app, in_app_iff.
      split; [tauto|]. intros [Q1 [Q2|Q2]]; [split; [left; split; [qlra|exact Q2]|exact Q1]|tauto].
    + intros e it I. rewrite OC in I. destruct (m_new _ _ _ _ M3 e) as [new [N1 [N2 N3]]]. rewrite N1 in I. apply in_app_or in I.
      destruct I as [I|I]; [apply (ev_out _ _ EV e it I)|apply (N2 it I)].
Qed.

(** Queries of the outflow at phi. *)
Lemma advance_suffix t : forall r h, exists pre, h :: r = pre ++ advance_head h r t /\ (it_time h <= t -> forall it, In it pre -> it_time it <= t).
Proof.
  induction r as [|n r IH]; intro h; cbn [advance_head].
  - exists []. split; [reflexivity|]. intros _ ? [].
  - destruct (qlebP (it_time n) t) as [C|C].
    + destruct (IH n) as [pre [E P]]. exists (h :: pre). split; [cbn [app]; rewrite <- E; reflexivity|]. intros Hh it [<-|I]; [exact Hh|apply (P C it I)].
    + exists []. split; [reflexivity|]. intros _ ? [].
Qed.
Lemma get_chain c t c' v : frc_get c t = Ok (c', v) -> exists pre, c_chain c = pre ++ c_chain c' /\ forall it, In it pre -> it_time it <= t.
Proof.
  unfold frc_get. destruct (c_chain c) as [|h r] eqn:E.
  - intro H. apply ok_inj in H. injection H as <- _. exists []. rewrite E. split; [reflexivity|intros ? []].
  - destruct (qltbP t (it_time h)) as [C|C]; [discriminate|]. destruct (advance_suffix t r h) as [pre [Q1 Q2]].
    destruct (advance_head h r t) as [|h' r'] eqn:A; [discriminate|]. intro H. apply ok_inj in H. injection H as <- _. cbn [c_chain].
    exists pre. split; [exact Q1|]. apply Q2. qlra.
Qed.
Lemma query_events cs st e st' ch k : evinv cs st -> flow_step k nw st (COutflow e) = Ok (st', ch) -> evinv cs st' /\ f_phi st' = f_phi st.
Proof.
  intros EV H. cbn [flow_step] in H. binv H. binv H. destruct a0 as [c' v]. apply ok_inj in H. injection H as <- <-.
  apply getn_inv in E. destruct E as [L E]. apply get_chain in E0. destruct E0 as [pre [Q1 Q2]]. split; [|reflexivity].
  assert (OC : forall j, exists pre, out_chain st j = pre ++ out_chain (set_out st (upd (f_out st) e c')) j /\ forall it, In it pre -> it_time it <= f_phi st).
  { intro j. unfold out_chain, outflow_of. cbn [set_out f_out]. destruct (Nat.eq_dec e j) as [<-|N].
    - exists pre. rewrite nth_upd_same by exact L. rewrite E. auto.
    - exists []. rewrite nth_upd_other by exact N. split; [reflexivity|intros ? []]. }
  destruct EV as [A1 A2 A3 A4 A5 A6]. constructor; auto.
  - intros j t. change (has (set_out st (upd (f_out st) e c')) j t) with (has st j t). rewrite A5. change (f_phi (set_out st (upd (f_out st) e c'))) with (f_phi st).
    destruct (OC j) as [pr [R1 R2]]. rewrite R1. unfold out_times. rewrite map_app, in_app_iff. split.
    + intros [S1 [S2|S2]]; [|auto]. apply in_map_iff in S2. destruct S2 as [it [<- I]]. specialize (R2 it I). exfalso. qlra.
    + tauto.
  - intros j it I. destruct (OC j) as [pr [R1 R2]]. apply (A6 j it). rewrite R1. apply in_or_app. auto.
Qed.

Lemma init_events st : flow_init nw = Ok st -> evinv [] st /\ f_phi st = 0.
Proof.
  unfold flow_init. rewrite frc_init_nil. cbn [bind]. intro H. apply ok_inj in H. subst st. split; [|reflexivity].
  assert (OC : forall e, out_chain (mkFlow 0 (repeat frc_empty (length (n_cap nw))) (repeat frc_empty (length (n_cap nw))) (repeat queue0 (length (n_cap nw))) sq_empty dq_empty) e = [mkItem 0 []]).
  { intro e. unfold out_chain, outflow_of. cbn [f_out]. destruct (Nat.lt_ge_cases e (length (n_cap nw))).
    - rewrite nth_repeat. reflexivity.
    - rewrite nth_overflow by (rewrite repeat_length; assumption). reflexivity. }
  constructor; cbn [f_dq f_changes f_phi].
  - apply dq_empty_ok.
  - discriminate.
  - constructor.
  - discriminate.
  - intros e t. rewrite OC. unfold has. cbn. split; [congruence|]. intros [Q [Z|[]]]. subst t. exfalso. qlra.
  - intros e it. rewrite OC. intros [<-|[]]. left. reflexivity.
Qed.

Lemma evinv_more cs cs' st : (forall c, In c cs -> In c cs') -> evinv cs st -> evinv cs' st.
Proof.
  intros I. assert (F : forall e d, snap_from cs e d -> snap_from cs' e d).
  { intros e d [Q|[nf [[ni [m [Q1 Q2]]] Q3]]]; [left; exact Q|]. right. exists nf. split; [exists ni, m; auto|exact Q3]. }
  intros [A1 A2 A3 A4 A5 A6]. constructor; auto.
  intros e p P. destruct (A2 e p P) as [B1 B2]. split; [exact B1|]. intros ct x s Z. apply F. eapply B2; exact Z.
Qed.
Lemma from_events : forall cs cs0 st st', evinv cs0 st -> valid_from nw st cs -> flow_from false nw st cs = Ok st' -> evinv (cs0 ++ cs) st'.
Proof.
  induction cs as [|c r IH]; intros cs0 st st' EV V H; cbn [flow_from] in H.
  - apply ok_inj in H. subst. rewrite app_nil_r. exact EV.
  - binv H. destruct a as [st1 ch]. destruct V as [V1 V2]. specialize (V2 _ _ E).
    assert (EV1 : evinv (cs0 ++ [c]) st1).
    { destruct c as [ni maxt|e].
      - cbn [flow_step] in E. destruct V1 as [_ [V1 V3]].
        assert (EV' : evinv (cs0 ++ [CExtend ni maxt]) st) by (eapply evinv_more; [|exact EV]; intros; apply in_or_app; auto).
        eapply extend_events in E; [apply E|exact EV'|apply in_or_app; right; left; reflexivity|intros e d I; apply (V1 e d I)|exact V3].
      - eapply evinv_more; [|eapply query_events; [exact EV|exact E]]. intros; apply in_or_app; auto. }
    specialize (IH _ _ _ EV1 V2 H). rewrite <- app_assoc in IH. exact IH.
Qed.
Lemma run_events cs st : valid_run nw cs -> flow_run false nw cs = Ok st -> evinv cs st.
Proof.
  intros V H. unfold flow_run in H. binv H. destruct (init_events a E) as [EV _]. apply (from_events cs [] a st EV (V a E) H).
Qed.
End Run.
