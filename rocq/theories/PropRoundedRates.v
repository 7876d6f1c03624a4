(** * C123: with floating-point arithmetic, edges respect their capacities up to rounding
    Model: RoundedFlow.v (DynamicFlow), Rounded.v [rnd64] *)
From Coq Require Import Sorted.
From Verif Require Import Base Spec Arrays PL PLMono RC FRC FRCProofs PQ PQSpec DQProofs DynFlow DynRun DynEdge DynEvents TotalSpec Rounded RoundedSpec Rnd64 RoundedFlow OptTotal RoundedFlowProofs PropRoundedFlow RoundedEvalProofs RoundedRates.

(** An inflow that does not come near the limits of binary64: positive floats, at most
    2^51 of them, whose sum is at most 2^1000 times the capacity. *)
Definition sane_inflow (cap : Qc) (d : rates) : Prop :=
  pos_floats d /\ (Z.of_nat (length d) <= 2 ^ 51)%Z /\ pow2 (-1000) * r_rates_sum rnd64 d <= cap.
Definition sane_call (nw : Net) (c : call) : Prop :=
  match c with CExtend ni _ => forall e d, In (e, d) ni -> sane_inflow (cap_of nw e) d | COutflow _ => True end.
Definition sane_net (nw : Net) : Prop := forall e c, nth_error (n_cap nw) e = Some c -> pow2 (-1000) <= c /\ float rnd64 c.

(** [d] exceeds the capacity by at most a factor 1 + (3k+4)*2^-53, [k] the number of commodities. *)
Definition within (cap : Qc) (d : rates) : Prop := rates_sum d <= cap * (1 + (qz 3 * kq (length d) + qz 4) * pow2 (-53)).

Lemma quarter51 n : (Z.of_nat n <= 2 ^ 51)%Z -> kq n * u64 <= quarter.
Proof.
  intro H. apply (proj1 (qz_le _ _)) in H. assert (E : qz (2 ^ 51) * u64 <= quarter) by (vm_compute; discriminate). pose proof u_pos. unfold kq.
  assert (0 <= (qz (2 ^ 51) - qz (Z.of_nat n)) * u64) by (apply qmul_nn; qlra). assert ((qz (2 ^ 51) - qz (Z.of_nat n)) * u64 = qz (2 ^ 51) * u64 - qz (Z.of_nat n) * u64) by ring. qlra.
Qed.
Lemma scale_length F d : length (r_scale rnd64 F d) = length d.
Proof. apply map_length. Qed.
Lemma sum_zero d : pos_floats d -> (Z.of_nat (length d) <= 2 ^ 51)%Z -> r_rates_sum rnd64 d <> 0 -> 0 < rates_sum d.
Proof.
  intros P L NZ. pose proof (sum_pos d P) as S0. destruct (qltbP 0 (rates_sum d)) as [|G]; auto. exfalso. assert (Z : rates_sum d = 0) by qlra.
  pose proof (quarter51 _ L) as K. pose proof q4. assert (0 < quarter) by reflexivity. destruct (rsum_near d P) as [A B]; [qlra|]. rewrite Z in A, B. apply NZ. assert ((1 - kq (length d) * u64) * 0 = 0) by ring. assert ((1 + qz 2 * kq (length d) * u64) * 0 = 0) by ring. qlra.
Qed.
Section Caps.
Variable cap : Qc.
Hypotheses (C : pow2 (-1000) <= cap).
Lemma within_nil : within cap [].
Proof.
  unfold within. change (rates_sum []) with 0. apply qmul_nn; [pose proof (pow2_pos (-1000)); qlra|]. change (length (@nil (nat * Qc))) with 0%nat. vm_compute. discriminate.
Qed.
Lemma within_scaled d s : sane_inflow cap d -> r_rates_sum rnd64 d <> 0 -> s = cap \/ s = r_rates_sum rnd64 d /\ s <= cap -> within cap (r_scale rnd64 (rnd64 (s / r_rates_sum rnd64 d)) d).
Proof.
  intros (P & L & NS) NZ HS. pose proof (quarter51 _ L) as K. pose proof (sum_zero d P L NZ) as S0. pose proof (pow2_pos (-1000)) as PP. pose proof u_pos as U.
  destruct (sum_ok d cap P K S0 NS) as [A0 _].
  assert (NS' : pow2 (-1000) * r_rates_sum rnd64 d <= s).
  { destruct HS as [->|[-> _]]; [exact NS|]. assert (P1 : pow2 (-1000) <= 1) by (vm_compute; discriminate). assert (0 <= (1 - pow2 (-1000)) * r_rates_sum rnd64 d) by (apply qmul_nn; qlra). assert ((1 - pow2 (-1000)) * r_rates_sum rnd64 d = r_rates_sum rnd64 d - pow2 (-1000) * r_rates_sum rnd64 d) by ring. qlra. }
  assert (SC : 0 <= s /\ s <= cap) by (split; [assert (0 < pow2 (-1000) * r_rates_sum rnd64 d) by (apply qmul_pos; auto); qlra|destruct HS as [->|[_ H]]; qlra]).
  pose proof (shares_sum d s P K S0 NS') as H. apply abs_le in H. destruct H as [_ H]. unfold within. rewrite scale_length. fold u64.
  assert (HH : h64 <= u64 * cap). { assert (E : h64 <= u64 * pow2 (-1000)) by (vm_compute; discriminate). assert (0 <= u64 * (cap - pow2 (-1000))) by (apply qmul_nn; qlra). assert (u64 * (cap - pow2 (-1000)) = u64 * cap - u64 * pow2 (-1000)) by ring. qlra. }
  assert (KH : kq (length d) * h64 <= kq (length d) * (u64 * cap)). { assert (0 <= kq (length d) * (u64 * cap - h64)) by (apply qmul_nn; [apply kq_nn|qlra]). assert (kq (length d) * (u64 * cap - h64) = kq (length d) * (u64 * cap) - kq (length d) * h64) by ring. qlra. }
  unfold sh_err in H. set (n := kq (length d)) in *. assert (N0 : 0 <= n) by apply kq_nn.
  assert (SH : 0 <= ((qz 2 * n + qz 4) * u64) * (cap - s)). { apply qmul_nn; [apply qmul_nn; [|qlra]|qlra]. assert (0 <= qz 2 * n) by (apply qmul_nn; [discriminate|auto]). assert (0 <= qz 4) by discriminate. qlra. }
  assert (E1 : (qz 2 * n + qz 4) * u64 * (cap - s) = (qz 2 * n + qz 4) * u64 * cap - (qz 2 * n + qz 4) * u64 * s) by ring.
  assert (Q3 : qz 3 = qz 2 + 1) by (apply Qc_is_canon; reflexivity). assert (E2 : cap * (1 + (qz 3 * n + qz 4) * u64) = cap + (qz 2 * n + qz 4) * u64 * cap + n * (u64 * cap)) by (rewrite Q3; ring). rewrite E2.
  set (R := rates_sum _) in *. clear - H KH SH E1 SC. qlra.
Qed.
Lemma within_same d : sane_inflow cap d -> r_rates_sum rnd64 d <> 0 -> r_rates_sum rnd64 d <= cap -> within cap d.
Proof.
  intros (P & L & NS) NZ LE. pose proof (quarter51 _ L) as K. pose proof (sum_zero d P L NZ) as S0. pose proof u_pos as U.
  destruct (sum_ok d cap P K S0 NS) as [A0 [_ R]]. set (a := r_rates_sum rnd64 d) in *. set (S := rates_sum d) in *. set (n := kq (length d)) in *. assert (N0 : 0 <= n) by apply kq_nn.
  assert (NA : a <> 0) by exact NZ. assert (SR : S / a * a = S) by (apply qmul_div; auto). set (r := S / a) in *.
  assert (0 <= (1 + (n * u64 + n * u64) - r) * a) by (apply qmul_nn; qlra). assert ((1 + (n * u64 + n * u64) - r) * a = (1 + (n * u64 + n * u64)) * a - r * a) by ring.
  assert (X0 : 0 <= n * u64) by (apply qmul_nn; qlra). assert (0 <= (1 + (n * u64 + n * u64)) * (cap - a)) by (apply qmul_nn; qlra). assert ((1 + (n * u64 + n * u64)) * (cap - a) = (1 + (n * u64 + n * u64)) * cap - (1 + (n * u64 + n * u64)) * a) by ring.
  unfold within. fold S n u64. assert (Q4 : 0 <= qz 4) by discriminate. assert (0 <= (n * u64 + qz 4 * u64) * cap) by (apply qmul_nn; [assert (0 <= qz 4 * u64) by (apply qmul_nn; qlra); qlra|qlra]).
  assert (Q3 : qz 3 = 1 + 1 + 1) by (apply Qc_is_canon; reflexivity). assert (E2 : cap * (1 + (qz 3 * n + qz 4) * u64) = (1 + (n * u64 + n * u64)) * cap + (n * u64 + qz 4 * u64) * cap) by (rewrite Q3; ring). rewrite E2. qlra.
Qed.
End Caps.

(** ** The invariant *)
Section Run.
Variables (on : bool) (nw : Net).
Hypothesis SN : sane_net nw.
Definition lim (e : nat) (d : rates) : Prop := (e < length (n_cap nw))%nat -> within (cap_of nw e) d.
Record J (st : Flow) : Prop := {
  j_dq : dq_ok (f_dq st);
  j_out : forall e it, In it (c_chain (nth e (f_out st) frc_empty)) -> lim e (it_vals it);
  j_pend : forall e D ct v s, pend (f_dq st) e = Some (D, Some (ct, (v, s))) -> lim e v }.
Lemma j_nil e : lim e [].
Proof. intro L. apply within_nil. destruct (nth_error (n_cap nw) e) as [c|] eqn:E; [|apply nth_error_None in E; lia]. unfold cap_of. rewrite (nth_error_nth _ _ _ E). apply (SN e c E). Qed.
Lemma j_def e it : In it (c_chain frc_empty) -> lim e (it_vals it).
Proof. intros [<-|[]]. apply j_nil. Qed.
Lemma j_frc c t v s c' : r_frc_extend rnd64 on c t v s = Ok c' -> exists it, c_chain c' = c_chain c ++ [it] /\ it_vals it = v.
Proof.
  unfold r_frc_extend, r_new_item. intro H. repeat binv H. apply ok_inj in H. subst c'. cbn [c_chain]. exists a. split; [reflexivity|]. binv E. apply ok_inj in E. subst a. reflexivity.
Qed.
Lemma j_outx st e t v s st' : J st -> lim e v -> r_out_extend rnd64 on st e t v s = Ok st' -> J st' /\ f_dq st' = f_dq st.
Proof.
  intros [JD JO JP] L H. unfold r_out_extend in H. repeat binv H. apply ok_inj in H. subst st'. destruct (j_frc _ _ _ _ _ E0) as (it & CH & IV). split; [|reflexivity]. constructor; cbn [set_changes set_out f_dq f_out]; auto.
  intros e' i. rewrite nth_upd. destruct (Nat.eqb_spec e e') as [->|]; [|apply JO]. destruct (Nat.ltb_spec e' (length (f_out st))); [|apply j_def]. rewrite CH. rewrite in_app_iff. intros [Q|[<-|[]]]; [|rewrite IV; exact L].
  apply (JO e' i). rewrite (RoundedFlowProofs.getn_nth _ _ _ frc_empty E). exact Q.
Qed.
Lemma j_queue st e t s st' : J st -> r_queue_extend rnd64 on st e t s = Ok st' -> J st' /\ f_dq st' = f_dq st.
Proof. intros [JD JO JP] H. unfold r_queue_extend in H. repeat binv H. apply ok_inj in H. subst st'. split; [constructor; auto|reflexivity]. Qed.
Lemma j_drop st e st' : J st -> drop_depletion st e = Ok st' -> J st'.
Proof.
  intros [JD JO JP] H. unfold drop_depletion in H. destruct (dq_has (f_dq st) e); [|apply ok_inj in H; subst; constructor; auto]. pose proof (dq_remove_ok (f_dq st) e JD) as R.
  destruct (pend (f_dq st) e); [|rewrite R in H; discriminate]. destruct R as (q & E & K & P). rewrite E in H. cbn [bind] in H. apply ok_inj in H. subst st'. constructor; cbn [set_dq f_dq f_out]; auto.
  intros e' D ct v s. rewrite P. destruct (Nat.eqb e e'); [discriminate|apply JP].
Qed.
Lemma j_set st e t ch d : J st -> (forall ct v s, ch = Some (ct, (v, s)) -> lim e v) -> dq_set (f_dq st) e t ch = Ok d -> J (set_dq st d).
Proof.
  intros [JD JO JP] W H. destruct (dq_set_ok (f_dq st) e t ch JD) as (q & E & K & P). rewrite E in H. apply ok_inj in H. subst q. constructor; cbn [set_dq f_dq f_out]; auto.
  intros e' D ct v s. rewrite P. destruct (Nat.eqb_spec e e') as [->|]; [intro Q; injection Q as _ Q; apply (W ct v s Q)|apply JP].
Qed.
Lemma j_cap e cap : getn (n_cap nw) e = Ok cap -> cap_of nw e = cap /\ pow2 (-1000) <= cap /\ float rnd64 cap.
Proof.
  intro H. assert (E : cap_of nw e = cap) by (apply (RoundedFlowProofs.getn_nth _ _ _ 0 H)). split; auto. apply (SN e). unfold getn in H. destruct (nth_error (n_cap nw) e); [apply ok_inj in H; congruence|discriminate].
Qed.
Lemma fdiv_inv x y z : fdiv rnd64 x y = Ok z -> z = rnd64 (x / y).
Proof. unfold fdiv. intro H. repeat binv H. apply ok_inj in H. subst z. unfold pydiv in E. destruct (qeqb y 0); [discriminate|]. apply ok_inj in E. subst. reflexivity. Qed.
Lemma j_i st e q st' : J st -> r_case_i rnd64 on nw st e q = Ok st' -> J st'.
Proof.
  intros JS H. unfold r_case_i in H. repeat binv H. apply j_outx in E2; [|exact JS|apply j_nil]. destruct E2 as [J1 _]. apply j_queue in E3; [|exact J1]. destruct E3 as [J2 _]. destruct (qltb 0 q).
  - repeat binv H. apply ok_inj in H. subst st'. eapply j_set; [exact J2| |exact E3]. discriminate.
  - eapply j_drop; eauto.
Qed.
Lemma j_ii st e nf q st' : J st -> sane_inflow (cap_of nw e) nf -> r_rates_sum rnd64 nf <> 0 -> r_case_ii rnd64 on nw st e nf q (r_rates_sum rnd64 nf) = Ok st' -> J st'.
Proof.
  intros JS SI NZ H. unfold r_case_ii in H. repeat binv H. destruct (j_cap _ _ E) as (EC & C1 & C2). apply fdiv_inv in E2. apply j_outx in E3; [|exact JS|].
  - destruct E3 as [J1 _]. apply j_queue in E4; [|exact J1]. destruct E4 as [J2 _]. eapply j_drop; eauto.
  - intros _. rewrite E2. rewrite EC in *. apply within_scaled; auto. clear. generalize (r_rates_sum rnd64 nf). intro A. qmm; first [left; reflexivity|right; split; [reflexivity|qlra]].
Qed.
Lemma j_iii st e nf q st' : J st -> sane_inflow (cap_of nw e) nf -> r_rates_sum rnd64 nf <> 0 -> (forall cap, getn (n_cap nw) e = Ok cap -> r_rates_sum rnd64 nf <= cap) ->
  r_case_iii rnd64 on nw st e nf q (r_rates_sum rnd64 nf) = Ok st' -> J st'.
Proof.
  intros JS SI NZ LE H. unfold r_case_iii in H. repeat binv H. destruct (j_cap _ _ E) as (EC & C1 & C2). specialize (LE _ E). apply fdiv_inv in E2. apply j_outx in E3; [|exact JS|].
  - destruct E3 as [J1 _]. apply j_queue in E4; [|exact J1]. destruct E4 as [J2 _]. apply ok_inj in H. subst st'. eapply j_set; [exact J2| |eassumption]. intros ct v s Q. injection Q as _ <- _. intros _. rewrite EC in *. apply within_same; auto.
  - intros _. rewrite E2. rewrite EC in *. apply within_scaled; auto.
Qed.
Lemma j_in st e c : J st -> J (set_in st (upd (f_in st) e c)).
Proof. intros [A B C]. constructor; auto. Qed.
Lemma j_edge st p st' : J st -> sane_inflow (cap_of nw (fst p)) (snd p) -> r_extend_edge rnd64 on nw st p = Ok st' -> J st'.
Proof.
  destruct p as [e nf]. cbn [fst snd]. intros JS SI H. unfold r_extend_edge in H. cbn [fst snd] in H. repeat binv H. destruct a0 as [c1 old]. destruct (rates_eqb old nf); [apply ok_inj in H; subst; apply j_in, JS|].
  cbv zeta in H. repeat binv H. set (st2 := set_in _ _) in H. assert (J2 : J st2) by (apply j_in, j_in, JS). destruct (qeqbP (r_rates_sum rnd64 nf) 0) as [Z|NZ]; [eapply j_i; eauto|]. repeat binv H.
  destruct (qeqb _ 0 || _)%bool eqn:B; [eapply j_ii; eauto|]. apply orb_false_iff in B. destruct B as [_ B]. apply qleb_false in B. eapply j_iii; eauto. intros cap E'. rewrite E' in *. match goal with H : Ok cap = Ok ?y |- _ => apply ok_inj in H; subst y end.
  destruct (j_cap _ _ E') as (_ & _ & FC). assert (M : rnd64 (cap - r_eps rnd64) <= rnd64 cap). { apply rnd64_mono. assert (0 <= r_eps rnd64) by (unfold r_eps; rewrite <- rnd64_0; apply rnd64_mono; qlra). qlra. } rewrite FC in M. qlra.
Qed.
Lemma j_deplete st st' : J st -> r_deplete_one rnd64 on st = Ok st' -> J st'.
Proof.
  intros JS H. unfold r_deplete_one in H. destruct (dq_pop_ok (f_dq st) (j_dq st JS)) as [[_ P]|(d & e & D & ch & E & P & _ & K' & P' & _)]; [rewrite P in H; discriminate|]. rewrite E in H. cbn [bind] in H.
  assert (J0 : J (set_dq st d)). { destruct JS as [A B C]. constructor; cbn [set_dq f_dq f_out]; auto. intros e' D' ct v s. rewrite P'. destruct (Nat.eqb e e'); [discriminate|apply C]. }
  repeat binv H. apply j_queue in E0; [|exact J0]. destruct E0 as [J1 _]. match goal with H : context [match ch with _ => _ end] |- _ => idtac end.
  assert (J2 : forall f, J (set_q a (upd (f_q a) e f))) by (intro f; destruct J1 as [A B C]; constructor; auto).
  destruct ch as [[ct [v s]]|].
  - apply j_outx in H; [apply H|apply J2|]. apply (j_pend st JS e D ct v s P).
  - apply ok_inj in H. subst st'. apply J2.
Qed.
Lemma j_process : forall fuel st st', J st -> r_process_depletions rnd64 on fuel st = Ok st' -> J st'.
Proof.
  induction fuel as [|n IH]; intros st st' JS H; cbn [r_process_depletions] in H; [discriminate|]. destruct (_ && _)%bool; [|apply ok_inj in H; subst; exact JS]. repeat binv H. eapply IH; [|exact H]. eapply j_deplete; eauto.
Qed.
Lemma j_pops : forall fuel st acc st' ch, J st -> pop_changes fuel st acc = Ok (st', ch) -> J st'.
Proof.
  induction fuel as [|n IH]; intros st acc st' ch JS H; cbn [pop_changes] in H; [discriminate|]. destruct (_ && _)%bool; [|apply ok_inj in H; injection H as <- _; exact JS]. repeat binv H. destruct a as [c it]. eapply IH; [|exact H]. destruct JS as [A B C]. constructor; auto.
Qed.
Lemma j_step st c st' ch : J st -> sane_call nw c -> r_flow_step rnd64 on nw st c = Ok (st', ch) -> J st'.
Proof.
  intros JS SC H. destruct c as [ni maxt|e]; cbn [r_flow_step] in H.
  - unfold r_flow_extend in H. repeat binv H. assert (J1 : J a). { eapply (DynEvents.foldM_inv J); [|exact JS|exact E]. intros s [e d] s' I JS' E'. eapply j_edge; eauto. cbn [fst snd]. apply SC, I. }
    destruct (ext_min _ _) as [|phi|]; try discriminate. cbv zeta in H. repeat binv H. eapply j_pops; [|exact H]. eapply j_process; [|exact E0]. destruct J1 as [A B C]. constructor; auto.
  - repeat binv H. destruct a0 as [c' d]. apply ok_inj in H. injection H as <- _. destruct JS as [A B C]. constructor; cbn [set_out f_dq f_out]; auto. intros e' i. rewrite nth_upd. destruct (Nat.eqb_spec e e') as [->|]; [|apply B]. destruct (Nat.ltb_spec e' (length (f_out st))); [|apply j_def].
    intro I. apply (B e' i). rewrite (RoundedFlowProofs.getn_nth _ _ _ frc_empty E). unfold frc_get in E0. destruct (c_chain a) as [|h r] eqn:CH; [apply ok_inj in E0; injection E0 as <- _; rewrite CH in I; exact I|]. destruct (qltb _ _); [discriminate|].
    destruct (advance_head h r (f_phi st)) as [|h' r'] eqn:AH; [discriminate|]. apply ok_inj in E0. injection E0 as <- _. cbn [c_chain] in I. rewrite <- AH in I. clear - I. revert h I. induction r as [|n r IH]; intros h I; cbn [advance_head] in I; [exact I|].
    destruct (qleb _ _); [right; apply IH, I|exact I].
Qed.
Lemma j_run : forall cs st st', J st -> Forall (sane_call nw) cs -> r_flow_from rnd64 on nw st cs = Ok st' -> J st'.
Proof.
  induction cs as [|c cs IH]; intros st st' JS F H; cbn [r_flow_from] in H; [apply ok_inj in H; subst; exact JS|]. repeat binv H. destruct a as [st1 ch]. inversion F as [|c0 cs0 F1 F2]; subst. eapply IH; [|exact F2|exact H]. eapply j_step; eauto.
Qed.
Lemma nth_repeat_any {B} (x : B) n e : nth e (repeat x n) x = x.
Proof. revert e. induction n as [|n IH]; intros [|e]; cbn; auto. Qed.
Lemma j_init st : r_flow_init nw = Ok st -> J st.
Proof.
  unfold r_flow_init. intro H. binv H. apply ok_inj in H. subst st. assert (CX : a = frc_empty) by (vm_compute in E; apply ok_inj in E; subst; reflexivity). subst a.
  constructor; cbn [f_dq f_out]; [apply dq_empty_ok| |].
  - intros e it. rewrite (nth_repeat_any frc_empty). apply j_def.
  - intros e D ct v s Q. discriminate.
Qed.
End Run.

(** Whatever calls are made, the rates at which flow leaves an edge at any time exceed its
    capacity by at most a factor 1 + (3k+4)*2^-53, where [k] is the number of commodities
    that leave; with assertions on and off. *)
Theorem C123_capacity : forall on nw calls st, sane_net nw -> Forall (sane_call nw) calls -> r_flow_run rnd64 on nw calls = Ok st ->
  forall e t c d, (e < length (n_cap nw))%nat -> frc_get (outflow_of st e) t = Ok (c, d) ->
  rates_sum d <= cap_of nw e * (1 + (qz 3 * qz (Z.of_nat (length d)) + qz 4) * pow2 (-53)).
Proof.
  intros on nw calls st SN F H e t c d L G. unfold r_flow_run in H. binv H. pose proof (j_run on nw SN calls a st (j_init nw SN a E) F H) as JS.
  assert (I : exists it, In it (c_chain (outflow_of st e)) /\ it_vals it = d \/ d = []).
  { unfold frc_get in G. destruct (c_chain (outflow_of st e)) as [|h r] eqn:CH; [apply ok_inj in G; injection G as _ <-; exists (mkItem 0 []); right; reflexivity|]. destruct (qltb _ _); [discriminate|].
    destruct (advance_head h r t) as [|h' r'] eqn:AH; [discriminate|]. apply ok_inj in G. injection G as _ <-. exists h'. left. split; [|reflexivity].
    assert (Q : In h' (advance_head h r t)) by (rewrite AH; left; reflexivity). clear - Q. revert h Q. induction r as [|n r IH]; intros h I; cbn [advance_head] in I; [exact I|]. destruct (qleb _ _); [right; apply IH, I|exact I]. }
  destruct I as (it & [[I <-]| ->]); [apply (j_out nw st JS e it I L)|apply (j_nil nw SN e L)].
Qed.
Print Assumptions C123_capacity.
(** When an edge passes on the total rate [s] of the commodities [d] that enter it, every
    commodity gets its share s*v/(sum of the rates), up to a factor 1 +- (2k+4)*2^-53 (and
    an underflow term); the shares sum up to [s], up to the same factor. *)
Theorem C123_share : forall d s, pos_floats d -> (Z.of_nat (length d) <= 2 ^ 51)%Z -> 0 < rates_sum d -> pow2 (-1000) * r_rates_sum rnd64 d <= s ->
  let out := r_scale rnd64 (rnd64 (s / r_rates_sum rnd64 d)) d in
  let err := (qz 2 * qz (Z.of_nat (length d)) + qz 4) * pow2 (-53) in
  (forall i v, In (i, v) d -> exists w, In (i, w) out /\ qabs (w - s * v / rates_sum d) <= err * (s * v / rates_sum d) + pow2 (-1075)) /\
  map fst out = map fst d /\
  qabs (rates_sum out - s) <= err * s + qz (Z.of_nat (length d)) * pow2 (-1075).
Proof.
  intros d s P L S0 NS out err. pose proof (quarter51 _ L) as K. split; [|split].
  - intros i v I. exists (rnd64 (rnd64 (s / r_rates_sum rnd64 d) * v)). split; [unfold out, r_scale; apply in_map_iff; exists (i, v); split; [reflexivity|exact I]|].
    apply (share_one d s P K S0 NS v). apply (P i v I).
  - unfold out, r_scale. rewrite map_map. reflexivity.
  - exact (shares_sum d s P K S0 NS).
Qed.
Print Assumptions C123_share.
(** The sum that is computed for the rates is close to their sum. *)
Theorem C123_sum : forall d, pos_floats d -> (Z.of_nat (length d) <= 2 ^ 51)%Z ->
  let k := qz (Z.of_nat (length d)) in
  (1 - k * pow2 (-53)) * rates_sum d <= r_rates_sum rnd64 d /\ r_rates_sum rnd64 d <= (1 + qz 2 * k * pow2 (-53)) * rates_sum d.
Proof. intros d P L k. pose proof (quarter51 _ L) as K. pose proof q4. assert (0 < quarter) by reflexivity. apply (rsum_near d P). qlra. Qed.
Print Assumptions C123_sum.

(** Exactly, the capacity is not respected: commodities with rates 1 and 4 enter an edge
    of capacity 1 and leave it with rates whose sum is more than 1. *)
Definition unit_net : Net := mkNet [1] [1].
Definition two_calls : list call := [CExtend [(0%nat, [(0%nat, 1); (1%nat, qz 4)])] 1; CExtend [] (qz 2)].
Definition okf {B} (r : res B) (p : B -> bool) : bool := match r with Ok y => p y | Err _ => false end.
Lemma okf_ex {B} (r : res B) p : okf r p = true -> exists y, r = Ok y /\ p y = true.
Proof. destruct r as [y|]; cbn; [eauto|discriminate]. Qed.
Lemma unit_sane : sane_net unit_net.
Proof. intros [|e] c H; [|destruct e; discriminate]. injection H as <-. split; [vm_compute; discriminate|unfold float; apply Qc_is_canon; vm_compute; reflexivity]. Qed.
Lemma two_sane : Forall (sane_call unit_net) two_calls.
Proof.
  apply Forall_cons; [|apply Forall_cons; [|apply Forall_nil]].
  - intros e d [H|[]]. injection H as <- <-. split; [|split; [cbn; lia|vm_compute; discriminate]].
    intros i v [H|[H|[]]]; injection H as <- <-; (split; [reflexivity|unfold float; apply Qc_is_canon; vm_compute; reflexivity]).
  - intros e d [].
Qed.
Theorem C123_exact_refuted : ~ (forall nw calls st, sane_net nw -> Forall (sane_call nw) calls -> r_flow_run rnd64 true nw calls = Ok st ->
  forall e t c d, (e < length (n_cap nw))%nat -> frc_get (outflow_of st e) t = Ok (c, d) -> rates_sum d <= cap_of nw e).
Proof.
  intro H. assert (B : okf (r_flow_run rnd64 true unit_net two_calls) (fun st => okf (frc_get (outflow_of st 0) 1) (fun p => qltb 1 (rates_sum (snd p)))) = true) by (vm_compute; reflexivity).
  apply okf_ex in B. destruct B as (st & E & B). apply okf_ex in B. destruct B as ([c d] & G & B). apply qltb_true in B. cbn [snd] in B.
  pose proof (H unit_net two_calls st unit_sane two_sane E 0%nat 1 c d ltac:(cbn; lia) G) as Q. change (cap_of unit_net 0) with 1 in Q. qlra.
Qed.
Print Assumptions C123_exact_refuted.
(** The hypotheses of the theorems are met by this run, whose outflow has two commodities. *)
Example C123_example : sane_net unit_net /\ Forall (sane_call unit_net) two_calls /\
  okf (r_flow_run rnd64 true unit_net two_calls) (fun st => okf (frc_get (outflow_of st 0) 1) (fun p => (length (snd p) =? 2)%nat)) = true.
Proof. split; [apply unit_sane|]. split; [apply two_sane|]. vm_compute. reflexivity. Qed.
