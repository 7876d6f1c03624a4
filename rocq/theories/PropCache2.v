(** * C73, second part: DynamicFlow writes [queues[e].values[-1]] only when the caches are empty *)
From Verif Require Import Base Spec Arrays PL PLProofs RC FRC FRCProofs PQ PQProofs PQSpec DynFlow DQProofs DynRun DynEvents PropFlow.

(** ** Vocabulary: runs that watch every direct write
    dynamic_flow.py:170-172 calls [queues[e].extend_with_slope(depl_time, 0.0)]
    and then writes [queues[e].values[-1] = 0.0].  The runs below stop with
    [None] when that extension would leave the slope as it is (and so would not
    clear the caches); otherwise they do what DynFlow.v does. *)
Definition write_safe (st : Flow) : bool :=
  match dq_pop (f_dq st) with
  | Ok (_, (e, _, _)) => match getn (f_q st) e with Ok q => qltb eps (qabs (pl_last q - 0)) | Err _ => true end
  | Err _ => true
  end.
(** dynamic_flow.py:167-176 *)
Fixpoint process_watched (fuel : nat) (st : Flow) : option (res Flow) :=
  match fuel with
  | O => Some (Err OutOfFuel)
  | S n =>
      if (ext_leb (dq_min_depl (f_dq st)) (Fin (f_phi st)) && (0 <? dq_len (f_dq st))%nat)%bool
      then if write_safe st then
             match deplete_one false st with Ok st' => process_watched n st' | Err x => Some (Err x) end
           else None
      else Some (Ok st)
  end.
(** dynamic_flow.py:178-217 *)
Definition extend_watched (nw : Net) (st : Flow) (new_inflow : list (nat * rates)) (maxt : Qc) : option (res (Flow * list nat)) :=
  match foldM (extend_edge false nw) new_inflow st with
  | Err x => Some (Err x)
  | Ok st1 =>
      match ext_min (ext_min (dq_min_change (f_dq st1)) (sq_min_key (f_changes st1))) (Fin maxt) with
      | Fin phi' =>
          let st2 := set_phi st1 phi' in
          match process_watched (S (dq_len (f_dq st2))) st2 with
          | None => None
          | Some (Err x) => Some (Err x)
          | Some (Ok st3) => Some (pop_changes (S (sq_len (f_changes st3))) st3 [])
          end
      | _ => Some (Err NotModelled)
      end
  end.
Definition step_watched (nw : Net) (st : Flow) (c : call) : option (res (Flow * list nat)) :=
  match c with CExtend ni maxt => extend_watched nw st ni maxt | _ => Some (flow_step false nw st c) end.
Fixpoint from_watched (nw : Net) (st : Flow) (cs : list call) : option (res Flow) :=
  match cs with
  | [] => Some (Ok st)
  | c :: r => match step_watched nw st c with
              | None => None | Some (Err x) => Some (Err x) | Some (Ok (st', _)) => from_watched nw st' r end
  end.
Definition run_watched (nw : Net) (cs : list call) : option (res Flow) :=
  match flow_init nw with Err x => Some (Err x) | Ok st => from_watched nw st cs end.

(** ** Proof *)
Record slopes (st : Flow) : Prop := {
  sl_dq : dq_ok (f_dq st);
  sl_q : forall e, 0 <= pl_last (queue_of st e) \/ pl_last (queue_of st e) < - eps;
  sl_p : forall e, pend (f_dq st) e <> None -> pl_last (queue_of st e) < - eps }.

Lemma ext_slope f t s f' : extend_with_slope f t s = Ok f' -> pl_last f' = s \/ (f' = f /\ qabs (pl_last f - s) <= eps).
Proof.
  unfold extend_with_slope. intro H. binv H. binv H. destruct (qlebP (qabs (pl_last f - s)) eps) as [L|L].
  - apply ok_inj in H. subst f'. auto.
  - left. destruct (qltb eps _); [binv H|]; apply ok_inj in H; subst f'; reflexivity.
Qed.
Lemma queue_extend_slope st e t s st' : queue_extend false st e t s = Ok st' ->
  (forall j, j <> e -> queue_of st' j = queue_of st j) /\
  (0 <= pl_last (queue_of st e) \/ pl_last (queue_of st e) < - eps ->
     (0 <= s -> 0 <= pl_last (queue_of st' e)) /\ (s < - eps -> pl_last (queue_of st' e) < - eps)).
Proof.
  unfold queue_extend. intro H. binv H. apply getn_inv in E as [L E]. binv H. unfold q_extend in E0. binv E0. clear a1 E1.
  apply ok_inj in H. subst st'. unfold queue_of. cbn [set_q f_q]. split.
  - intros j N. apply nth_upd_other. congruence.
  - rewrite nth_upd_same by exact L. rewrite E. intro D. pose proof eps_pos. apply ext_slope in E0 as [->|[-> Q]]; [auto|].
    destruct (qabs_spec (pl_last a - s)) as [[A1 A2]|[A1 A2]]; rewrite A2 in Q; split; intro; destruct D; qlra.
Qed.
Lemma slopes_frame st st' : f_dq st' = f_dq st -> f_q st' = f_q st -> slopes st -> slopes st'.
Proof. intros E1 E2 [A B C]. split; unfold queue_of in *; rewrite ?E1, ?E2; assumption. Qed.

Section NW.
Variable nw : Net.
Hypothesis big : forall c, In c (n_cap nw) -> eps < c.

Lemma cap_big e c : getn (n_cap nw) e = Ok c -> eps < c.
Proof. intro H. apply big. apply getn_inv in H as [L H]. rewrite <- (H 0). now apply nth_In. Qed.

(** one queue gets slope [s], and the depletion of its edge is dropped or planned *)
Lemma slopes_step st st1 e t s st' : slopes st -> f_dq st1 = f_dq st -> queue_extend false st1 e t s = Ok st' -> f_q st1 = f_q st ->
  forall st2, f_q st2 = f_q st' -> dq_ok (f_dq st2) ->
  (forall j, j <> e -> pend (f_dq st2) j = pend (f_dq st) j) ->
  (0 <= s /\ pend (f_dq st2) e = None) \/ s < - eps -> slopes st2.
Proof.
  intros [A B C] E1 Q E2 st2 E3 K P D. destruct (queue_extend_slope _ _ _ _ _ Q) as [N S].
  assert (EQ : forall j, queue_of st1 j = queue_of st j) by (intro j; unfold queue_of; now rewrite E2).
  assert (EQ2 : forall j, queue_of st2 j = queue_of st' j) by (intro j; unfold queue_of; now rewrite E3).
  rewrite EQ in S. specialize (S (B e)). destruct S as [S1 S2]. split; [exact K| |]; intro j; rewrite EQ2.
  - destruct (Nat.eq_dec j e) as [->|Ne].
    + destruct D as [[D _]|D]; auto.
    + rewrite N by exact Ne. rewrite EQ. apply B.
  - destruct (Nat.eq_dec j e) as [->|Ne].
    + destruct D as [[_ D]|D]; [congruence|auto].
    + rewrite N, EQ by exact Ne. rewrite P by exact Ne. apply C.
Qed.

Lemma slopes_case_i st e cq st' : slopes st -> 0 <= cq -> case_i false nw st e cq = Ok st' -> slopes st'.
Proof.
  intros I Q H. unfold case_i in H. binv H. pose proof (cap_big _ _ E) as C. binv H. binv H. binv H. binv H.
  apply out_extend_eff in E2. destruct E2 as [_ [_ [_ [X3 [X4 _]]]]].
  pose proof (queue_extend_eff _ _ _ _ _ _ E3) as [_ [_ [_ [Y4 _]]]]. pose proof (sl_dq _ I) as K. pose proof eps_pos.
  destruct (qltbP 0 cq) as [P|P].
  - binv H. destruct (dq_set_ok (f_dq a3) e (f_phi st + a1) None) as [q' [ES [K' P']]]; [rewrite Y4, X4; exact K|].
    rewrite ES in H. cbn [bind] in H. apply ok_inj in H. subst st'.
    destruct (qeqbP cq 0); [qlra|].
    eapply (slopes_step st a2); [exact I|exact X4|exact E3|exact X3|reflexivity|exact K'| |right; qlra].
    intros j N. cbn [set_dq f_dq]. rewrite P', Y4, X4. destruct (Nat.eqb_spec e j); [congruence|reflexivity].
  - destruct (qeqbP cq 0); [|qlra]. apply drop_depletion_eff in H; [|rewrite Y4, X4; exact K]. destruct H as [_ [_ [_ [Z4 [_ [K' P']]]]]].
    eapply (slopes_step st a2); [exact I|exact X4|exact E3|exact X3|exact Z4|exact K'| |left].
    + intros j N. rewrite P', Y4, X4. destruct (Nat.eqb_spec e j); [congruence|reflexivity].
    + split; [qlra|]. rewrite P', Nat.eqb_refl. reflexivity.
Qed.
Lemma slopes_case_ii st e nf cq ai st' : slopes st -> case_ii false nw st e nf cq ai = Ok st' -> slopes st'.
Proof.
  intros I H. unfold case_ii in H. binv H. binv H. binv H. binv H. binv H. binv H. binv H.
  apply out_extend_eff in E4. destruct E4 as [_ [_ [_ [X3 [X4 _]]]]].
  pose proof (queue_extend_eff _ _ _ _ _ _ E5) as [_ [_ [_ [Y4 _]]]]. pose proof (sl_dq _ I) as K.
  apply drop_depletion_eff in H; [|rewrite Y4, X4; exact K]. destruct H as [_ [_ [_ [Z4 [_ [K' P']]]]]].
  eapply (slopes_step st a4); [exact I|exact X4|exact E5|exact X3|exact Z4|exact K'| |left].
  + intros j N. rewrite P', Y4, X4. destruct (Nat.eqb_spec e j); [congruence|reflexivity].
  + split; [qmm; qlra|]. rewrite P', Nat.eqb_refl. reflexivity.
Qed.
Lemma slopes_case_iii st e nf cq ai st' cap : slopes st -> getn (n_cap nw) e = Ok cap -> ai < cap - eps ->
  case_iii false nw st e nf cq ai = Ok st' -> slopes st'.
Proof.
  intros I EC L H. unfold case_iii in H. rewrite EC in H. cbn [bind] in H. binv H. binv H. binv H. binv H. binv H. binv H. binv H.
  apply out_extend_eff in E2. destruct E2 as [_ [_ [_ [X3 [X4 _]]]]].
  pose proof (queue_extend_eff _ _ _ _ _ _ E3) as [_ [_ [_ [Y4 _]]]]. pose proof (sl_dq _ I) as K.
  match type of H with context [dq_set _ _ ?t ?c] => destruct (dq_set_ok (f_dq a3) e t c) as [q' [ES [K' P']]]; [rewrite Y4, X4; exact K|] end.
  rewrite ES in H. cbn [bind] in H. apply ok_inj in H. subst st'.
  eapply (slopes_step st a2); [exact I|exact X4|exact E3|exact X3|reflexivity|exact K'| |right; qlra].
  intros j N. cbn [set_dq f_dq]. rewrite P', Y4, X4. destruct (Nat.eqb_spec e j); [congruence|reflexivity].
Qed.
Lemma slopes_edge st p st' : slopes st -> extend_edge false nw st p = Ok st' -> slopes st'.
Proof.
  intros I H. destruct p as [e nf]. unfold extend_edge in H. cbn [fst snd] in H. binv H. binv H. destruct a0 as [c1 old].
  destruct (rates_eqb old nf). { apply ok_inj in H. subst st'. apply (slopes_frame st); auto. }
  binv H. binv H. binv H.
  match type of H with context [case_i false nw ?s e _] => assert (I2 : slopes s) by (apply (slopes_frame st); auto) end.
  destruct (qeqb (rates_sum nf) 0). { apply (slopes_case_i _ _ _ _ I2) in H; [exact H|qmm; qlra]. }
  binv H. destruct (qeqb _ 0 || _)%bool eqn:B.
  - exact (slopes_case_ii _ _ _ _ _ _ I2 H).
  - apply orb_false_iff in B as [_ B]. apply qleb_false in B. eapply slopes_case_iii; [exact I2|exact E4|exact B|exact H].
Qed.

Lemma slopes_deplete st st' : slopes st -> deplete_one false st = Ok st' -> slopes st'.
Proof.
  intros I H. unfold deplete_one in H. pose proof (sl_dq _ I) as K.
  destruct (dq_pop_ok (f_dq st) K) as [[_ E]|(q' & e & D & ch & E & P1 & _ & K' & P' & _)]; rewrite E in H; cbn [bind] in H; [discriminate H|].
  binv H. rename a into st1. pose proof (queue_extend_eff _ _ _ _ _ _ E0) as [_ [_ [_ [Y4 _]]]]. cbn [set_dq f_dq] in Y4.
  assert (I1 : slopes st1).
  { eapply (slopes_step st (set_dq st st.(f_dq))).
    - exact I.
    - reflexivity.
    - instantiate (1 := set_dq st1 (f_dq st)). instantiate (1 := 0). instantiate (1 := D). instantiate (1 := e).
      unfold queue_extend in *. cbn [set_dq f_q] in *. binv E0. rewrite E1. cbn [bind]. binv E0. rewrite E2. cbn [bind].
      apply ok_inj in E0. subst st1. reflexivity.
    - reflexivity.
    - reflexivity.
    - rewrite Y4. exact K'.
    - intros j N. rewrite Y4, P'. destruct (Nat.eqb_spec e j); [congruence|reflexivity].
    - left. split; [qlra|]. rewrite Y4, P', Nat.eqb_refl. reflexivity. }
  binv H. rename a into f. apply getn_inv in E1 as [L E1]. binv H. binv H.
  match type of H with match _ with None => Ok ?s | _ => _ end = _ => assert (I2 : slopes s) end.
  { destruct I1 as [A B C]. assert (QE : forall j, pl_last (queue_of (set_q st1 (upd (f_q st1) e
       (mkPL (pl_times f) (set_nth (pl_values f) (length (pl_values f) - 1) 0) (pl_first f) (pl_last f) (pl_lo f) (pl_hi f)))) j) = pl_last (queue_of st1 j)).
    { intro j. unfold queue_of. cbn [set_q f_q]. destruct (Nat.eq_dec j e) as [->|N].
      - rewrite nth_upd_same by exact L. now rewrite E1.
      - now rewrite nth_upd_other by congruence. }
    split; [exact A| |]; intro j; rewrite QE; [apply B|exact (C j)]. }
  destruct ch as [[c [v s]]|].
  - apply out_extend_eff in H. destruct H as [_ [_ [_ [X3 [X4 _]]]]]. exact (slopes_frame _ _ X4 X3 I2).
  - apply ok_inj in H. subst st'. exact I2.
Qed.
Lemma slopes_safe st : slopes st -> write_safe st = true.
Proof.
  intros [K B C]. unfold write_safe.
  destruct (dq_pop_ok (f_dq st) K) as [[_ E]|(q' & e & D & ch & E & P1 & _)]; rewrite E; [reflexivity|].
  destruct (getn (f_q st) e) as [q|] eqn:G; [|reflexivity]. apply getn_inv in G as [L G].
  assert (S : pl_last (queue_of st e) < - eps) by (apply C; congruence). unfold queue_of in S. rewrite G in S.
  pose proof eps_pos. destruct (qltbP eps (qabs (pl_last q - 0))) as [|N]; [reflexivity|].
  exfalso. destruct (qabs_spec (pl_last q - 0)) as [[A1 A2]|[A1 A2]]; rewrite A2 in N; qlra.
Qed.
Lemma process_same : forall n st, slopes st ->
  process_watched n st = Some (process_depletions n false st) /\ (forall st', process_depletions n false st = Ok st' -> slopes st').
Proof.
  induction n as [|n IH]; intros st I; cbn [process_watched process_depletions]; [split; [reflexivity|discriminate]|].
  destruct (ext_leb _ _ && _)%bool; [|split; [reflexivity|intros st' H; apply ok_inj in H; now subst]].
  rewrite (slopes_safe st I). destruct (deplete_one false st) as [st1|x] eqn:E; cbn [bind]; [|split; [reflexivity|discriminate]].
  apply IH. exact (slopes_deplete _ _ I E).
Qed.
Lemma slopes_pop : forall n st acc st' l, slopes st -> pop_changes n st acc = Ok (st', l) -> slopes st'.
Proof.
  induction n as [|n IH]; intros st acc st' l I H; cbn [pop_changes] in H; [discriminate H|].
  destruct (ext_leb _ _ && _)%bool.
  - binv H. destruct a as [c it]. apply IH in H; [exact H|]. apply (slopes_frame st); auto.
  - apply ok_inj in H. injection H as <- _. exact I.
Qed.
Lemma step_same st c : slopes st ->
  step_watched nw st c = Some (flow_step false nw st c) /\ (forall st' ch, flow_step false nw st c = Ok (st', ch) -> slopes st').
Proof.
  intro I. destruct c as [ni maxt|e]; cbn [step_watched flow_step].
  - unfold extend_watched, flow_extend. destruct (foldM (extend_edge false nw) ni st) as [st1|x] eqn:F; cbn [bind]; [|split; [reflexivity|discriminate]].
    assert (I1 : slopes st1) by (refine (foldM_inv slopes _ ni st st1 _ I F); intros s p s' _ Hs; exact (slopes_edge s p s' Hs)).
    destruct (ext_min _ _) as [|phi|]; try (split; [reflexivity|discriminate]).
    assert (I2 : slopes (set_phi st1 phi)) by (apply (slopes_frame st1); auto).
    destruct (process_same (S (dq_len (f_dq (set_phi st1 phi)))) _ I2) as [P1 P2]. cbv zeta. rewrite P1.
    destruct (process_depletions _ false (set_phi st1 phi)) as [st3|x] eqn:PD; cbn [bind]; [|split; [reflexivity|discriminate]].
    split; [reflexivity|]. intros st' ch H. eapply slopes_pop; [apply P2; reflexivity|exact H].
  - split; [reflexivity|]. intros st' ch H. binv H. binv H. destruct a0. apply ok_inj in H. injection H as <- _. apply (slopes_frame st); auto.
Qed.
Lemma from_same : forall cs st, slopes st -> from_watched nw st cs = Some (flow_from false nw st cs).
Proof.
  induction cs as [|c cs IH]; intros st I; cbn [from_watched flow_from]; [reflexivity|].
  destruct (step_same st c I) as [E P]. rewrite E. destruct (flow_step false nw st c) as [[st' ch]|x]; cbn [bind]; [|reflexivity].
  apply IH. exact (P _ _ eq_refl).
Qed.
Lemma slopes_init st : flow_init nw = Ok st -> slopes st.
Proof.
  intro H. unfold flow_init in H. binv H. apply ok_inj in H. subst st. split; cbn [f_dq].
  - apply dq_empty_ok.
  - intro e. left. unfold queue_of. cbn [f_q]. destruct (nth_in_or_default e (repeat queue0 (length (n_cap nw))) queue0) as [I|D].
    + apply repeat_spec in I. rewrite I. cbn [queue0 pl_last]. qlra.
    + rewrite D. cbn [queue0 pl_last]. qlra.
  - intros e H. rewrite dq_empty_pend in H. congruence.
Qed.
End NW.

(** In every run of a flow network whose capacities exceed eps, whatever the
    calls, each direct write to a queue follows an extension that changed the
    slope: the watched run never stops, and is the run of the code. *)
Theorem C73_depletions : forall nw calls,
  (forall c, In c (n_cap nw) -> eps < c) ->
  run_watched nw calls = Some (flow_run false nw calls).
Proof.
  intros nw calls B. unfold run_watched, flow_run. destruct (flow_init nw) as [st|x] eqn:E; cbn [bind]; [|reflexivity].
  apply from_same; [exact B|]. exact (slopes_init nw st E).
Qed.

(** *** Example: two edges, queues build up and deplete (both kinds of depletion) *)
Definition cf_net : Net := mkNet [1; 1] [1; qz 2].
Definition cf_calls : list call :=
  [CExtend [(0%nat, [(0%nat, qz 3)])] (qz 1); CExtend [(0%nat, [])] (qz 2); CExtend [(1%nat, [(0%nat, qz 2)])] (qz 3);
   CExtend [(1%nat, [(0%nat, 1 / qz 2)])] (qz 6); CExtend [] (qz 9)].
Definition writes_in (nw : Net) (cs : list call) : nat :=   (* depletions processed, counted by the zeros written at the end of queues *)
  match flow_run false nw cs with
  | Ok st => length (filter (fun q => qeqb (last (pl_values q) 1) 0 && (1 <? length (pl_values q))%nat)%bool (f_q st))
  | Err _ => 0
  end.
Example C73_depletions_example : writes_in cf_net cf_calls = 2%nat /\ forall c, In c (n_cap cf_net) -> eps < c.
Proof.
  split; [vm_compute; reflexivity|]. intros c [<-|[<-|[]]]; apply qltb_true; vm_compute; reflexivity.
Qed.
(** With a positive capacity of at most eps it may leave the slope alone, and
    the value at the previous breakpoint is overwritten. *)
Definition cs_net : Net := mkNet [eps / qz 2] [1].
Definition cs_calls : list call :=
  [CExtend [(0%nat, [(0%nat, qz 3 * eps)])] (qz 1); CExtend [(0%nat, [])] (qz 9)].
Theorem C73_small_capacity_refuted :
  ~ (forall nw calls, net_ok nw -> run_watched nw calls = Some (flow_run false nw calls)).
Proof.
  intro H. assert (N : net_ok cs_net) by (apply netb_ok; vm_compute; reflexivity).
  specialize (H cs_net cs_calls N).
  assert (B : match run_watched cs_net cs_calls with None => true | Some _ => false end = true) by (vm_compute; reflexivity).
  rewrite H in B. discriminate B.
Qed.
Print Assumptions C73_depletions.
Print Assumptions C73_small_capacity_refuted.
