(** * No exceptions but assertions, with floating-point arithmetic *)
From Verif Require Import Base Spec Arrays PL PLProofs PLEval RC FRC FRCProofs PQ PQProofs PQSpec DynFlow DQProofs DynRun DynEvents Rounded RoundedProofs RoundedFlow Optimised OptTotal.

Section Rnd.
Variable rnd : Qc -> Qc.
Hypothesis RND : rounding rnd.
Notation fl := (float rnd).
Hypothesis SUB : forall x y, fl x -> fl y -> x <> y -> rnd (x - y) <> 0.
Notation ep := (r_eps rnd).

Lemma tot_asr {A} b (x y : res A) P : tot x y P -> tot (bind (asr true b) (fun _ => x)) (bind (asr false b) (fun _ => y)) P.
Proof. intro H. apply tot_assert. exact H. Qed.
Lemma fdiv_ok a b : b <> 0 -> fdiv rnd a b = Ok (rnd (a / b)).
Proof. intro H. unfold fdiv. rewrite pydiv_ok by exact H. reflexivity. Qed.
Definition rf_ok (f : PL) : Prop := fn_ok f /\ Forall fl (pl_times f).
Lemma rf_nth f i : rf_ok f -> (i < length (pl_times f))%nat -> fl (nth i (pl_times f) 0).
Proof. intros [_ F] L. eapply Forall_forall; [exact F|apply nth_In, L]. Qed.
Lemma rtot_gradient f i : rf_ok f -> (-1 <= i < pl_len f)%Z -> tot (r_gradient rnd true f i) (r_gradient rnd false f i) (fun _ => True).
Proof.
  intros KF R. pose proof (proj1 KF) as K. apply tot_asr. destruct (Z.eqb_spec i (-1)) as [|N]; [apply tot_ret, I|]. destruct (Z.eqb_spec i (pl_len f - 1)) as [|N']; [apply tot_ret, I|].
  unfold pl_len, zlen in *. pose proof (fo_len f K) as LV.
  rewrite (pyget_Z (pl_values f) (i + 1) 0), (pyget_Z (pl_values f) i 0), (pyget_Z (pl_times f) (i + 1) 0), (pyget_Z (pl_times f) i 0) by lia. cbn [bind].
  rewrite fdiv_ok; [apply tot_ret, I|]. apply SUB; [apply rf_nth; [exact KF|lia]|apply rf_nth; [exact KF|lia]|].
  intro C. apply (fo_adj f K (Z.to_nat i)); [lia|]. replace (Datatypes.S (Z.to_nat i)) with (Z.to_nat (i + 1)) by lia. symmetry. exact C.
Qed.
Lemma rtot_ewr f t r : rf_ok f -> (-1 <= r < pl_len f)%Z -> tot (r_eval_with_rank rnd true f t r) (r_eval_with_rank rnd false f t r) (fun _ => True).
Proof.
  intros KF R. pose proof (proj1 KF) as K. assert (LP : (0 < length (pl_times f))%nat) by (destruct (pl_times f) eqn:E; [exfalso; apply (fo_ne f K E)|cbn; lia]).
  pose proof (fo_len f K) as LV. unfold r_eval_with_rank. do 2 apply tot_asr.
  rewrite (pyget_Z (pl_times f) 0 0) by lia. rewrite (pyget_last (pl_times f) 0) by apply (fo_ne f K). cbn [bind]. apply tot_asr. apply tot_asr. cbn [andb bind].
  apply tot_skip.
  { destruct (Z.ltb_spec (-1) r), (Z.ltb_spec r (pl_len f - 1)); cbn [andb]; eauto. unfold pl_len, zlen in *. rewrite (pyget_Z (pl_times f) r 0), (pyget_Z (pl_times f) (r + 1) 0) by lia. cbn [bind].
    destruct (_ && _)%bool; [left; exists tt; reflexivity|right; reflexivity]. }
  destruct (Z.eqb_spec r (-1)).
  - eapply tot_bind; [apply rtot_gradient; assumption|intros g _]. rewrite (pyget_Z (pl_values f) 0 0) by lia. apply tot_ret, I.
  - destruct (Z.eqb_spec r (pl_len f - 1)).
    + eapply tot_bind; [apply rtot_gradient; assumption|intros g _]. rewrite (pyget_last (pl_values f) 0) by (apply fn_vals, K). apply tot_ret, I.
    + unfold pl_len, zlen in *. rewrite (pyget_Z (pl_values f) r 0), (pyget_Z (pl_times f) r 0) by lia. cbn [bind].
      eapply tot_bind; [apply rtot_gradient; assumption|intros g _]. apply tot_ret, I.
Qed.
Lemma rtot_eval f t : rf_ok f -> tot (r_pl_eval rnd true f t) (r_pl_eval rnd false f t) (fun _ => True).
Proof. intro K. apply tot_asr. destruct (elem_rank_range (pl_times f) t (fo_ne f (proj1 K))) as (r & E & R). rewrite E. cbn [bind]. apply rtot_ewr; assumption. Qed.
Lemma rtot_efe f t : rf_ok f -> tot (r_eval_from_end rnd true f t) (r_eval_from_end rnd false f t) (fun _ => True).
Proof.
  intro K. apply tot_asr. destruct (scan_back_range (pl_times f) t (length (pl_times f)) (le_n _)) as (r & E & R). rewrite E. cbn [bind].
  apply rtot_ewr; assumption.
Qed.
Lemma rtot_ews f t s : rf_ok f -> fl t -> tot (r_extend_with_slope rnd true f t s) (r_extend_with_slope rnd false f t s) (fun g => rf_ok g /\ (pl_last g = pl_last f \/ pl_last g = s)).
Proof.
  intros KF FT. pose proof (proj1 KF) as K. unfold r_extend_with_slope. pose proof (pyget_last (pl_times f) 0 (fo_ne f K)) as Et. pose proof (pyget_last (pl_values f) 0 (fn_vals f K)) as Ev.
  rewrite Et. cbn [bind]. apply tot_asr. destruct (qleb _ ep); [apply tot_ret; split; [exact KF|left; reflexivity]|]. destruct (qltbP ep (qabs (rnd (t - last (pl_times f) 0)))) as [C|C].
  - rewrite Ev. cbn [bind]. cbv zeta. apply tot_ret. split; [|right; reflexivity]. split; [constructor; cbn [pl_times pl_values]|cbn [pl_times]].
    + destruct (pl_times f); discriminate.
    + rewrite !app_length, (fo_len f K). reflexivity.
    + apply adj_app; [apply K|apply K|]. intro Q. rewrite <- Q in C. replace (last (pl_times f) 0 - last (pl_times f) 0) with 0 in C by ring.
      rewrite (rnd_0 rnd RND) in C. pose proof (ep_nn rnd RND). destruct (qabs_spec 0) as [[? E]|[? E]]; rewrite E in C; qlra.
    + apply Forall_app. split; [apply KF|]. constructor; [exact FT|constructor].
  - apply tot_ret. split; [|right; reflexivity]. split; [constructor; cbn [pl_times pl_values]; apply K|exact (proj2 KF)].
Qed.

(** ** Rate functions and collections *)
Lemma rtot_rc_extend f t v : rfn_ok f -> tot (r_rc_extend rnd true f t v) (r_rc_extend rnd false f t v) rfn_ok.
Proof.
  intros [N M]. unfold r_rc_extend. rewrite (pyget_last _ 0 N), (pyget_last _ 0 M). cbn [bind]. apply tot_asr.
  destruct (qleb _ ep); [apply tot_ret; split; assumption|]. destruct (qleb _ ep); apply tot_ret; split; cbn [rc_times rc_values]; try assumption.
  - apply set_nth_ne, M.
  - destruct (rc_times f); discriminate.
  - destruct (rc_values f); discriminate.
Qed.
Lemma rtot_fresh t vs : forall fns, fns_ok fns ->
  tot (r_ext_fresh rnd true fns t vs) (r_ext_fresh rnd false fns t vs) (fun r => fns_ok r /\ grows fns r /\ forall i, dget vs i <> None -> dget r i <> None).
Proof.
  induction vs as [|[i v] r IH]; intros fns K; cbn [r_ext_fresh]; [apply tot_ret; split; [exact K|split; [apply grows_refl|intros ? H; exfalso; apply H; reflexivity]]|].
  eapply tot_bind; [apply rtot_rc_extend, new_fn_ok|]. intros f F. destruct (dset_ok fns i f K F) as (K' & G & H). eapply tot_weaken; [apply IH, K'|].
  cbn beta. intros a (A1 & A2 & A3). split; [exact A1|]. split; [eapply grows_trans; eassumption|]. intros j. cbn [dget]. destruct (Nat.eqb_spec i j) as [<-|]; [intros _; apply A2, H|apply A3].
Qed.
Lemma rtot_values t vs : forall fns, fns_ok fns ->
  tot (r_ext_values rnd true fns t vs) (r_ext_values rnd false fns t vs) (fun r => fns_ok r /\ grows fns r /\ forall i, dget vs i <> None -> dget r i <> None).
Proof.
  induction vs as [|[i v] r IH]; intros fns K; cbn [r_ext_values]; [apply tot_ret; split; [exact K|split; [apply grows_refl|intros ? H; exfalso; apply H; reflexivity]]|].
  eapply tot_bind; [apply rtot_rc_extend; destruct (dget fns i) as [f|] eqn:E; [apply (K i f E)|apply new_fn_ok]|]. intros f F. destruct (dset_ok fns i f K F) as (K' & G & H). eapply tot_weaken; [apply IH, K'|].
  cbn beta. intros a (A1 & A2 & A3). split; [exact A1|]. split; [eapply grows_trans; eassumption|]. intros j. cbn [dget]. destruct (Nat.eqb_spec i j) as [<-|]; [intros _; apply A2, H|apply A3].
Qed.
Lemma rtot_zeros t vs : forall tv fns, fns_ok fns -> (forall i, dget tv i <> None -> dget fns i <> None) ->
  tot (r_ext_zeros rnd true fns t tv vs) (r_ext_zeros rnd false fns t tv vs) (fun r => fns_ok r /\ grows fns r).
Proof.
  induction tv as [|[i v] r IH]; intros fns K T; cbn [r_ext_zeros]; [apply tot_ret; split; [exact K|apply grows_refl]|].
  assert (T' : forall j, dget r j <> None -> dget fns j <> None).
  { intros j H. apply T. cbn [dget]. destruct (Nat.eqb i j); [discriminate|exact H]. }
  destruct (dhas vs i); [apply IH; assumption|]. unfold dfetch. destruct (dget fns i) as [f0|] eqn:E; [|exfalso; apply (T i); [cbn [dget]; rewrite Nat.eqb_refl; discriminate|exact E]].
  cbn [bind]. eapply tot_bind; [apply rtot_rc_extend, (K i f0 E)|]. intros f F. destruct (dset_ok fns i f K F) as (K' & G & H). eapply tot_weaken; [apply IH; [exact K'|]|].
  - intros j Q. apply G, T', Q.
  - cbn beta. intros a (A1 & A2). split; [exact A1|eapply grows_trans; eassumption].
Qed.
(** A collection at time [phi]: its first snapshot is not in the future. *)
Definition rcol_ok (phi : Qc) (c : FRC) : Prop := col_ok phi c /\ Forall fl (pl_times (c_acc c)).
Lemma rtot_frc_extend phi c t vs s : rcol_ok phi c -> fl t -> tot (r_frc_extend rnd true c t vs s) (r_frc_extend rnd false c t vs s) (fun c' => rcol_ok phi c' /\ (pl_last (c_acc c') = pl_last (c_acc c) \/ pl_last (c_acc c') = s)).
Proof.
  intros [[K1 K2 K3 (h & r & EC & HT)] KF] FT. unfold r_frc_extend. eapply tot_bind with (P := fun it => it = mkItem t vs); [apply tot_asr, tot_ret; reflexivity|]. intros it ->.
  eapply tot_bind with (P := fun r => fns_ok r /\ grows (c_fns c) r /\ forall i, dget vs i <> None -> dget r i <> None).
  - rewrite EC. apply tot_asr. eapply tot_bind; [apply rtot_values, K1|]. intros fns1 (F1 & F2 & F3). eapply tot_weaken; [apply rtot_zeros; [exact F1|]|].
    + intros i Q. apply F2. apply (K3 (last r h)); [rewrite EC; apply last_in|exact Q].
    + cbn beta. intros a (A1 & A2). split; [exact A1|]. split; [eapply grows_trans; eassumption|]. intros i Q. apply A2, F3, Q.
  - intros fns (F1 & F2 & F3). eapply tot_bind; [apply rtot_ews; [split; assumption|exact FT]|]. intros acc [[HA HF] HL]. apply tot_ret. split; [|exact HL]. split; [|exact HF]. constructor; cbn [c_fns c_acc c_chain].
    + exact F1.
    + exact HA.
    + intros it I i Q. apply in_app_or in I. destruct I as [I|[<-|[]]]; [apply F2, (K3 it I i Q)|apply F3, Q].
    + exists h, (r ++ [mkItem t vs]). rewrite EC. split; [reflexivity|exact HT].
Qed.
Lemma rfrc_get_ok phi c : rcol_ok phi c -> exists c' v, frc_get c phi = Ok (c', v) /\ rcol_ok phi c' /\ c_acc c' = c_acc c.
Proof.
  intros [K KF]. destruct (frc_get_ok phi c K) as (c' & v & E & K'). exists c', v. split; [exact E|].
  assert (A : c_acc c' = c_acc c); [|split; [split; [exact K'|rewrite A; exact KF]|exact A]]. revert E. unfold frc_get. destruct (c_chain c) as [|h r].
  - intro E. apply ok_inj in E. injection E as <- _. reflexivity.
  - destruct (qltb phi (it_time h)); [discriminate|]. destruct (advance_head h r phi); [discriminate|]. intro E. apply ok_inj in E. injection E as <- _. reflexivity.
Qed.
Lemma rcol_later phi phi' c : phi <= phi' -> rcol_ok phi c -> rcol_ok phi' c.
Proof. intros L [K F]. split; [eapply col_later; eassumption|exact F]. Qed.

Lemma getn_nth {B} (l : list B) i x d : getn l i = Ok x -> nth i l d = x.
Proof. unfold getn. intro H. destruct (nth_error l i) as [y|] eqn:E; [|discriminate]. apply ok_inj in H. subst y. apply nth_error_nth, E. Qed.
Section Run.
Variable nw : Net.
Hypothesis NW : net_ok nw.
Hypothesis CF : Forall fl (n_cap nw).
Let N := length (n_cap nw).
Record inv (st : Flow) : Prop := {
  iv_phi : fl (f_phi st);
  iv_in : length (f_in st) = N /\ Forall (rcol_ok (f_phi st)) (f_in st);
  iv_out : length (f_out st) = N /\ Forall (rcol_ok (f_phi st)) (f_out st);
  iv_q : length (f_q st) = N /\ Forall rf_ok (f_q st);
  iv_dq : dq_ok (f_dq st);
  iv_pend : forall e D ch, pend (f_dq st) e = Some (D, ch) -> (e < N)%nat /\ fl D /\ forall ct v, ch = Some (ct, v) -> fl ct /\ f_phi st <= ct /\ snd v <= cap_of nw e;
  iv_nd : sq_nd (f_changes st);
  iv_keys : forall it k, sq_key_of (f_changes st) it = Some k -> exists t, k = Fin t /\ fl t /\ f_phi st <= t;
  iv_lim : forall e, (e < N)%nat -> pl_last (c_acc (nth e (f_out st) frc_empty)) <= cap_of nw e }.
Definition inv_at (phi : Qc) (st : Flow) : Prop := inv st /\ f_phi st = phi.

Lemma lim_upd st e c : inv st -> pl_last (c_acc c) <= cap_of nw e ->
  forall e', (e' < N)%nat -> pl_last (c_acc (nth e' (upd (f_out st) e c) frc_empty)) <= cap_of nw e'.
Proof.
  intros I H e' L. destruct (Nat.eq_dec e e') as [<-|NE]; [rewrite nth_upd_same by (rewrite (proj1 (iv_out st I)); exact L); exact H|].
  rewrite nth_upd_other by exact NE. apply (iv_lim st I), L.
Qed.
Lemma tot_out phi st e t v s : inv_at phi st -> (e < N)%nat -> fl t -> phi <= t -> s <= cap_of nw e ->
  tot (r_out_extend rnd true st e t v s) (r_out_extend rnd false st e t v s) (fun st' => inv_at phi st' /\ f_dq st' = f_dq st).
Proof.
  intros [I EP] L FT T HS. destruct (getn_ok _ _ e (proj2 (iv_out st I))) as (c & E & K); [rewrite (proj1 (iv_out st I)); exact L|].
  unfold r_out_extend. rewrite E. cbn [bind andb]. eapply tot_bind; [apply rtot_frc_extend; [exact K|exact FT]|]. intros c' [K' KL]. apply tot_ret.
  assert (HL : pl_last (c_acc c') <= cap_of nw e).
  { destruct KL as [-> | ->]; [|exact HS]. rewrite <- (getn_nth _ _ _ frc_empty E). apply (iv_lim st I), L. }
  pose proof (lim_upd st e c' I HL) as LU. split; [|reflexivity]. split; [|exact EP]. destruct I as [I0 I1 I2 I3 I4 I5 I6 I7 I8]. constructor; cbn [set_changes set_out f_phi f_in f_out f_q f_dq f_changes]; try assumption.
  - split; [rewrite upd_length; apply I2|apply Forall_upd; [apply I2|exact K']].
  - apply nd_set, I6.
  - intros it k. rewrite kof_set. destruct (eqb (e, t) it); [intro Q; injection Q as <-; exists t; split; [reflexivity|split; [exact FT|qlra]]|apply I7].
Qed.
Lemma tot_queue phi st e t s : inv_at phi st -> (e < N)%nat -> fl t ->
  tot (r_queue_extend rnd true st e t s) (r_queue_extend rnd false st e t s) (fun st' => inv_at phi st' /\ f_dq st' = f_dq st).
Proof.
  intros [I EP] L FT. destruct (getn_ok _ _ e (proj2 (iv_q st I))) as (f & E & K); [rewrite (proj1 (iv_q st I)); exact L|].
  unfold r_queue_extend. rewrite E. cbn [bind andb]. eapply tot_bind; [apply rtot_ews; [exact K|exact FT]|]. intros f' [K' _]. apply tot_ret.
  split; [|reflexivity]. split; [|exact EP]. destruct I as [I0 I1 I2 I3 I4 I5 I6 I7 I8]. constructor; cbn [set_q f_phi f_in f_out f_q f_dq f_changes]; try assumption.
  split; [rewrite upd_length; apply I3|apply Forall_upd; [apply I3|exact K']].
Qed.
Lemma set_dq_inv phi st d e : inv_at phi st -> dq_ok d -> (e < N)%nat -> (forall j, j <> e -> pend d j = pend (f_dq st) j) ->
  (forall D ch, pend d e = Some (D, ch) -> fl D /\ forall ct v, ch = Some (ct, v) -> fl ct /\ phi <= ct /\ snd v <= cap_of nw e) -> inv_at phi (set_dq st d).
Proof.
  intros [I EP] K L O W. split; [|exact EP]. destruct I as [I0 I1 I2 I3 I4 I5 I6 I7 I8]. constructor; cbn [set_dq f_phi f_in f_out f_q f_dq f_changes]; try assumption.
  intros j D ch P. destruct (Nat.eq_dec j e) as [->|NE].
  - split; [exact L|]. rewrite EP. apply (W D ch P).
  - rewrite O in P by exact NE. apply (I5 j D ch P).
Qed.
Lemma tot_drop phi st e : inv_at phi st -> (e < N)%nat -> tot (drop_depletion st e) (drop_depletion st e) (inv_at phi).
Proof.
  intros I L. pose proof (iv_dq st (proj1 I)) as K. unfold drop_depletion. rewrite pend_has by exact K. pose proof (dq_remove_ok (f_dq st) e K) as R.
  destruct (pend (f_dq st) e) as [p|]; [|apply tot_ret, I]. destruct R as (q' & E & K' & P'). rewrite E. cbn [bind]. apply tot_ret. eapply set_dq_inv; try eassumption.
  - intros j NE. rewrite P'. destruct (Nat.eqb_spec e j); congruence.
  - intros D ch. rewrite P', Nat.eqb_refl. discriminate.
Qed.
Lemma tot_set phi st e t ch : inv_at phi st -> (e < N)%nat -> fl t -> (forall ct v, ch = Some (ct, v) -> fl ct /\ phi <= ct /\ snd v <= cap_of nw e) ->
  tot (d <- dq_set (f_dq st) e t ch ;; Ok (set_dq st d)) (d <- dq_set (f_dq st) e t ch ;; Ok (set_dq st d)) (inv_at phi).
Proof.
  intros I L FT W. destruct (dq_set_ok (f_dq st) e t ch (iv_dq st (proj1 I))) as (q' & E & K' & P'). rewrite E. cbn [bind]. apply tot_ret. eapply set_dq_inv; try eassumption.
  - intros j NE. rewrite P'. destruct (Nat.eqb_spec e j); congruence.
  - intros D c. rewrite P', Nat.eqb_refl. intro Q. injection Q as <- <-. split; [exact FT|exact W].
Qed.
Lemma captau e : (e < N)%nat -> exists cap tau, getn (n_cap nw) e = Ok cap /\ getn (n_tau nw) e = Ok tau /\ 0 < cap /\ 0 <= tau /\ fl cap /\ cap_of nw e = cap.
Proof.
  intro L. destruct NW as (E & C & T). destruct (getn_ok (fun c => 0 < c /\ fl c) (n_cap nw) e) as (cap & E1 & P1 & F1); [|exact L|].
  { apply Forall_forall. intros x H. split; [apply C, H|]. eapply Forall_forall; [exact CF|exact H]. }
  destruct (getn_ok (fun c => 0 <= c) (n_tau nw) e) as (tau & E2 & P2); [apply Forall_forall, T|rewrite E; exact L|]. exists cap, tau. pose proof (getn_nth _ _ _ 0 E1). auto 8.
Qed.
Lemma assert_ok {B} st e t (x y : res B) P : inv st -> (e < N)%nat -> tot x y P ->
  tot (bind (r_assert_depleted rnd true st e t) (fun _ => x)) (bind (r_assert_depleted rnd false st e t) (fun _ => y)) P.
Proof.
  intros I L H. destruct (getn_ok _ _ e (proj2 (iv_q st I))) as (f & E & K); [rewrite (proj1 (iv_q st I)); exact L|]. unfold r_assert_depleted. rewrite E. cbn [bind]. apply tot_skip; [|exact H].
  destruct (tot_checked _ _ _ (rtot_eval f t K)) as [[v ->] | ->]; cbn [bind]; [|auto]. destruct (qltb v _); [left; exists tt; reflexivity|right; reflexivity].
Qed.
Lemma later phi w : fl phi -> 0 <= w -> phi <= rnd (phi + w).
Proof. intros F W. apply (le_rnd rnd RND); [exact F|qlra]. Qed.
Lemma wait_nn q cap : 0 <= q -> 0 < cap -> 0 <= rnd (q / cap).
Proof. intros Q C. apply (le_rnd rnd RND); [apply (fl_0 rnd RND)|]. apply qdiv_nonneg; assumption. Qed.
Lemma exit_time phi w tau : fl phi -> 0 <= w -> 0 <= tau -> phi <= rnd (rnd (phi + w) + tau).
Proof. intros F W T. eapply Qcle_trans; [apply (later phi w F W)|]. apply later; [apply (fl_rnd rnd RND)|exact T]. Qed.
Lemma tot_i phi st e q : inv_at phi st -> (e < N)%nat -> 0 <= q -> tot (r_case_i rnd true nw st e q) (r_case_i rnd false nw st e q) (inv_at phi).
Proof.
  intros I L Q. destruct (captau e L) as (cap & tau & E1 & E2 & C & T & FC & CO). unfold r_case_i. rewrite E1, E2. cbn [bind]. rewrite fdiv_ok by qlra. cbn [bind].
  pose proof (wait_nn q cap Q C) as W. pose proof (proj2 I) as EP. pose proof (iv_phi st (proj1 I)) as FP. rewrite EP in *.
  eapply tot_bind; [apply tot_out; [exact I|exact L|apply (fl_rnd rnd RND)|apply exit_time; assumption|rewrite CO; qlra]|]. intros st1 [I1 _]. eapply tot_bind; [apply tot_queue; [exact I1|exact L|exact FP]|]. intros st2 [I2 _].
  destruct (qltb 0 q); [|apply tot_drop; assumption]. apply assert_ok; [apply I2|exact L|]. apply tot_set; [exact I2|exact L|apply (fl_rnd rnd RND)|]. discriminate.
Qed.
Lemma tot_ii phi st e nf q a : inv_at phi st -> (e < N)%nat -> 0 <= q -> a <> 0 -> tot (r_case_ii rnd true nw st e nf q a) (r_case_ii rnd false nw st e nf q a) (inv_at phi).
Proof.
  intros I L Q A. destruct (captau e L) as (cap & tau & E1 & E2 & C & T & FC & CO). unfold r_case_ii. rewrite E1, E2. cbn [bind andb]. rewrite fdiv_ok by qlra. cbn [bind].
  pose proof (wait_nn q cap Q C) as W. pose proof (proj2 I) as EP. pose proof (iv_phi st (proj1 I)) as FP. rewrite EP in *. rewrite fdiv_ok by exact A. cbn [bind]. cbv zeta.
  eapply tot_bind; [apply tot_out; [exact I|exact L|apply (fl_rnd rnd RND)|apply exit_time; assumption|rewrite CO; qmm; qlra]|]. intros st1 [I1 _]. eapply tot_bind; [apply tot_queue; [exact I1|exact L|exact FP]|]. intros st2 [I2 _].
  apply tot_drop; assumption.
Qed.
Lemma tot_iii phi st e nf q a : inv_at phi st -> (e < N)%nat -> 0 <= q -> a <> 0 -> fl a -> (forall cap, getn (n_cap nw) e = Ok cap -> a < rnd (cap - ep)) ->
  tot (r_case_iii rnd true nw st e nf q a) (r_case_iii rnd false nw st e nf q a) (inv_at phi).
Proof.
  intros I L Q A FA LT. destruct (captau e L) as (cap & tau & E1 & E2 & C & T & FC & CO). specialize (LT cap E1).
  assert (AC : a < cap). { assert (rnd (cap - ep) <= cap); [|qlra]. apply (rnd_le rnd RND); [exact FC|]. pose proof (ep_nn rnd RND). qlra. }
  assert (SL : rnd (a - cap) < 0).
  { assert (N0 : rnd (a - cap) <> 0) by (apply SUB; [exact FA|exact FC|qlra]). assert (rnd (a - cap) <= 0) by (apply (rnd_le rnd RND); [apply (fl_0 rnd RND)|qlra]). qlra. }
  unfold r_case_iii. rewrite E1, E2. cbn [bind]. rewrite fdiv_ok by qlra. cbn [bind].
  pose proof (wait_nn q cap Q C) as W. pose proof (proj2 I) as EP. pose proof (iv_phi st (proj1 I)) as FP. rewrite EP in *. rewrite fdiv_ok by exact A. cbn [bind]. cbv zeta.
  eapply tot_bind; [apply tot_out; [exact I|exact L|apply (fl_rnd rnd RND)|apply exit_time; assumption|rewrite CO; qlra]|]. intros st1 [I1 _]. eapply tot_bind; [apply tot_queue; [exact I1|exact L|exact FP]|]. intros st2 [I2 _].
  rewrite fdiv_ok by qlra. cbn [bind]. apply assert_ok; [apply I2|exact L|]. apply tot_set; [exact I2|exact L|apply (fl_rnd rnd RND)|]. intros ct v H. injection H as <- <-.
  split; [apply (fl_rnd rnd RND)|]. split; [|cbn [snd]; rewrite CO; qlra].
  assert (X : rnd (q / rnd (a - cap)) <= 0).
  { apply (rnd_le rnd RND); [apply (fl_0 rnd RND)|]. assert (DP : 0 <= q / (- rnd (a - cap))) by (apply qdiv_nonneg; qlra).
    replace (q / rnd (a - cap)) with (- (q / (- rnd (a - cap)))) by (field; qlra). qlra. }
  assert (phi <= rnd (phi - rnd (q / rnd (a - cap)))) by (apply (le_rnd rnd RND); [exact FP|qlra]).
  eapply Qcle_trans; [exact H|]. apply later; [apply (fl_rnd rnd RND)|exact T].
Qed.
Lemma sum_fl d : fl (r_rates_sum rnd d).
Proof.
  unfold r_rates_sum. assert (G : forall a, fl a -> fl (fold_left (fun acc p => rnd (acc + snd p)) d a)); [|apply G, (fl_0 rnd RND)].
  induction d as [|p r IH]; intros a F; cbn [fold_left]; [exact F|]. apply IH, (fl_rnd rnd RND).
Qed.
Lemma tot_edge phi st p : inv_at phi st -> (fst p < N)%nat -> tot (r_extend_edge rnd true nw st p) (r_extend_edge rnd false nw st p) (inv_at phi).
Proof.
  intros I L. destruct p as [e nf]. cbn [fst snd] in L. unfold r_extend_edge. cbn [fst snd].
  destruct (getn_ok _ _ e (proj2 (iv_in st (proj1 I)))) as (c & E & K); [rewrite (proj1 (iv_in st (proj1 I))); exact L|]. rewrite E. cbn [bind].
  destruct (rfrc_get_ok _ c K) as (c1 & old & E1 & K1 & KA). rewrite E1. cbn [bind].
  assert (SI : forall st c, inv_at phi st -> rcol_ok phi c -> inv_at phi (set_in st (upd (f_in st) e c))).
  { clear. intros st c [I EP] K. split; [|exact EP]. destruct I as [I0 I1 I2 I3 I4 I5 I6 I7 I8]. constructor; cbn [set_in f_phi f_in f_out f_q f_dq f_changes]; try assumption.
    split; [rewrite upd_length; apply I1|apply Forall_upd; [apply I1|rewrite EP; exact K]]. }
  rewrite (proj2 I) in K1. pose proof (SI st c1 I K1) as I1. destruct (rates_eqb old nf); [apply tot_ret, I1|].
  cbv zeta. set (st1 := set_in st (upd (f_in st) e c1)) in *.
  destruct (getn_ok _ _ e (proj2 (iv_q st1 (proj1 I1)))) as (f & E2 & K2); [rewrite (proj1 (iv_q st1 (proj1 I1))); exact L|]. rewrite E2. cbn [bind].
  eapply tot_bind; [apply rtot_efe, K2|]. intros qv _. assert (Q : 0 <= qmax qv 0) by (qmm; qlra).
  eapply tot_bind; [apply rtot_frc_extend; [exact K1|apply (iv_phi st1 (proj1 I1))]|]. intros c2 [K3 _]. pose proof (SI st1 c2 I1 K3) as I2.
  set (st2 := set_in st1 (upd (f_in st1) e c2)) in *. destruct (qeqbP (r_rates_sum rnd nf) 0) as [Z|Z]; [apply tot_i; assumption|].
  destruct (captau e L) as (cap & tau & E3 & _ & C & _). rewrite E3. cbn [bind].
  destruct (qeqb (qmax qv 0) 0); cbn [orb]; [apply tot_ii; assumption|]. destruct (qlebP (rnd (cap - ep)) (r_rates_sum rnd nf)) as [G|G]; [apply tot_ii; assumption|].
  apply tot_iii; try assumption; [apply sum_fl|]. intros cap' E'. rewrite E3 in E'. apply ok_inj in E'. subst cap'. qlra.
Qed.
Lemma tot_deplete phi st : inv_at phi st -> (0 <? dq_len (f_dq st))%nat = true ->
  tot (r_deplete_one rnd true st) (r_deplete_one rnd false st) (fun st' => inv_at phi st' /\ (dq_len (f_dq st') < dq_len (f_dq st))%nat).
Proof.
  intros I LP. pose proof (iv_dq st (proj1 I)) as K. unfold r_deplete_one. destruct (dq_pop_ok (f_dq st) K) as [[P _]|(d & e & D & ch & E & P & _ & K' & P' & LD & _)].
  { exfalso. destruct (len_pos' _ LP (dk_nd1 _ K)) as [it H]. apply H. rewrite (pend_depl _ _ K), P. reflexivity. }
  rewrite E. cbn [bind]. destruct (iv_pend st (proj1 I) e D ch P) as (L & FD & W).
  assert (I0 : inv_at phi (set_dq st d)).
  { eapply set_dq_inv; try eassumption; [intros j NE; rewrite P'; destruct (Nat.eqb_spec e j); congruence|]. intros D' c. rewrite P', Nat.eqb_refl. discriminate. }
  eapply tot_bind; [apply tot_queue; [exact I0|exact L|exact FD]|]. intros st1 [I1 ED]. destruct (getn_ok _ _ e (proj2 (iv_q st1 (proj1 I1)))) as (f & E2 & K2); [rewrite (proj1 (iv_q st1 (proj1 I1))); exact L|]. rewrite E2. cbn [bind].
  rewrite (pyget_last (pl_values f) 0) by (apply fn_vals, K2). cbn [bind]. apply tot_asr. cbv zeta. set (st2 := set_q st1 _).
  assert (I2 : inv_at phi st2).
  { destruct I1 as [I1 EP]. split; [|exact EP]. destruct I1 as [J0 J1 J2 J3 J4 J5 J6 J7 J8]. unfold st2. constructor; cbn [set_q f_phi f_in f_out f_q f_dq f_changes]; try assumption.
    split; [rewrite upd_length; apply J3|apply Forall_upd; [apply J3|]]. split; [constructor; cbn [pl_times pl_values]; [apply K2|rewrite set_nth_length; apply K2|apply K2]|apply K2]. }
  assert (DL : (dq_len (f_dq st2) < dq_len (f_dq st))%nat) by (unfold st2; cbn [set_q f_dq]; rewrite ED; exact LD).
  destruct ch as [[ct [v s]]|].
  - destruct (W ct (v, s) eq_refl) as (W1 & W2 & W3). eapply tot_weaken; [apply tot_out; [exact I2|exact L|exact W1|rewrite <- (proj2 I); exact W2|exact W3]|]. cbn beta. intros a [A B]. split; [exact A|rewrite B; exact DL].
  - apply tot_ret. split; assumption.
Qed.
Lemma tot_process phi : forall fuel st, inv_at phi st -> (dq_len (f_dq st) < fuel)%nat -> tot (r_process_depletions rnd true fuel st) (r_process_depletions rnd false fuel st) (inv_at phi).
Proof.
  induction fuel as [|n IH]; intros st I L; [lia|]. cbn [r_process_depletions]. destruct (ext_leb _ _); cbn [andb]; [|apply tot_ret, I].
  destruct (0 <? dq_len (f_dq st))%nat eqn:P; [|apply tot_ret, I]. eapply tot_bind; [apply (tot_deplete phi st I P)|]. intros st' [I' L']. apply IH; [exact I'|lia].
Qed.
Lemma tot_pops phi : forall fuel st acc, inv_at phi st -> (sq_len (f_changes st) < fuel)%nat ->
  tot (pop_changes fuel st acc) (pop_changes fuel st acc) (fun p => inv_at phi (fst p)).
Proof.
  induction fuel as [|n IH]; intros st acc I L; [lia|]. cbn [pop_changes]. destruct (ext_leb _ _); cbn [andb]; [|apply tot_ret, I].
  destruct (0 <? sq_len (f_changes st))%nat eqn:P; [|apply tot_ret, I]. pose proof (iv_nd st (proj1 I)) as ND.
  destruct (pop_total (f_changes st) (len_pos' _ P ND)) as (c & it & E). rewrite E. cbn [bind]. destruct (pop_ok _ _ _ ND E) as [-> EK]. apply IH.
  - destruct I as [I EP]. split; [|exact EP]. destruct I as [J0 J1 J2 J3 J4 J5 J6 J7 J8]. constructor; cbn [set_changes f_phi f_in f_out f_q f_dq f_changes]; try assumption.
    + apply nd_drop, ND.
    + intros it' k. rewrite kof_drop. destruct (eqb it it'); [discriminate|apply J7].
  - cbn [set_changes f_changes]. assert (sq_len (sq_drop (f_changes st) it) < sq_len (f_changes st))%nat by (apply drop_len; rewrite kof_has, EK; reflexivity). lia.
Qed.
Lemma tot_extend st ni maxt : inv st -> (forall e d, In (e, d) ni -> (e < N)%nat) -> fl maxt -> f_phi st <= maxt ->
  tot (r_flow_extend rnd true nw st ni maxt) (r_flow_extend rnd false nw st ni maxt) (fun p => inv (fst p) /\ f_phi st <= f_phi (fst p) /\ f_phi (fst p) <= maxt).
Proof.
  intros I ED FM T. unfold r_flow_extend.
  eapply tot_bind; [apply (tot_foldM _ _ (inv_at (f_phi st)) (fun p => (fst p < N)%nat)); [intros; apply tot_edge; assumption|intros [e d] H; apply (ED e d H)|split; [exact I|reflexivity]]|].
  intros st1 [I1 E1].
  assert (X : exists phi', ext_min (ext_min (dq_min_change (f_dq st1)) (sq_min_key (f_changes st1))) (Fin maxt) = Fin phi' /\ f_phi st1 <= phi' <= maxt /\ fl phi' /\
              ext_le (Fin phi') (dq_min_change (f_dq st1)) /\ ext_le (Fin phi') (sq_min_key (f_changes st1))).
  { assert (A : dq_min_change (f_dq st1) = PInf \/ exists x, dq_min_change (f_dq st1) = Fin x /\ fl x /\ f_phi st1 <= x).
    { destruct (dq_min_change_ok _ (iv_dq st1 I1)) as [[A _]|(x & A & (e & D & v & P) & _)]; [left; exact A|right]. exists x. split; [exact A|]. destruct (iv_pend st1 I1 e D _ P) as (_ & _ & W). destruct (W x v eq_refl) as (W1 & W2 & _). split; assumption. }
    assert (B : sq_min_key (f_changes st1) = PInf \/ exists x, sq_min_key (f_changes st1) = Fin x /\ fl x /\ f_phi st1 <= x).
    { destruct (min_key_ex _ (iv_nd st1 I1)) as [[A' _]|[it A']]; [left; exact A'|right]. destruct (iv_keys st1 I1 _ _ A') as (t & Q & W). rewrite Q. eauto. }
    rewrite <- E1 in T. destruct A as [-> | (x & -> & FX & A)], B as [-> | (y & -> & FY & B)]; unfold ext_min, ext_ltb; cbn [ext_leb negb];
      repeat match goal with |- context [qleb ?a ?b] => destruct (qlebP a b) end; cbn [ext_leb negb];
      repeat match goal with |- context [qleb ?a ?b] => destruct (qlebP a b) end;
      eexists; (split; [reflexivity|]); cbn [ext_le]; repeat split; try exact Logic.I; try assumption; qlra. }
  destruct X as (phi' & -> & [PL PM] & FPH & PD & PK). cbv zeta.
  assert (I2 : inv_at phi' (set_phi st1 phi')).
  { split; [|reflexivity]. destruct I1 as [J0 J1 J2 J3 J4 J5 J6 J7 J8]. constructor; cbn [set_phi f_phi f_in f_out f_q f_dq f_changes]; try assumption.
    - split; [apply J1|]. eapply Forall_impl; [|apply J1]. intros c. apply rcol_later, PL.
    - split; [apply J2|]. eapply Forall_impl; [|apply J2]. intros c. apply rcol_later, PL.
    - intros e D ch P. destruct (J5 e D ch P) as (L & FD & W). split; [exact L|]. split; [exact FD|]. intros ct v ->. destruct (W ct v eq_refl) as (W1 & _ & W3). split; [exact W1|]. split; [|exact W3]. destruct (dq_min_change_ok _ J4) as [[_ A]|(x & A & _ & B)]; [exfalso; apply (A ct); eauto|].
      rewrite A in PD. cbn [ext_le] in PD. assert (x <= ct) by (apply B; eauto). qlra.
    - intros it k H. destruct (J7 it k H) as (t & -> & FT & W). exists t. split; [reflexivity|]. split; [exact FT|]. pose proof (min_key_le _ _ _ H) as G.
      destruct (sq_min_key (f_changes st1)) as [|m|]; cbn [ext_le] in *; try contradiction. qlra. }
  eapply tot_bind; [apply tot_process; [exact I2|lia]|]. intros st3 I3. eapply tot_weaken; [apply (tot_pops phi' _ st3 []); [exact I3|lia]|].
  cbn beta. intros [st' l] [A B]. cbn [fst] in *. rewrite B, <- E1. split; [exact A|]. split; assumption.
Qed.
Lemma init_tot : exists st, r_flow_init nw = Ok st /\ inv st /\ f_phi st = 0.
Proof.
  unfold r_flow_init. rewrite frc_init_nil. cbn [bind]. cbv zeta. eexists. split; [reflexivity|]. split; [|reflexivity].
  assert (C : rcol_ok 0 frc_empty).
  { split; [constructor; cbn|].
    - intros i f H. discriminate.
    - constructor; [discriminate|reflexivity|]. intros i H. cbn in H. lia.
    - intros it [<-|[]] i H. exfalso. apply H. reflexivity.
    - exists (mkItem 0 []), []. split; [reflexivity|]. apply Qcle_refl.
    - constructor; [apply (fl_0 rnd RND)|constructor]. }
  assert (Q : rf_ok queue0) by (split; [constructor; [discriminate|reflexivity|intros i H; cbn in H; lia]|constructor; [apply (fl_0 rnd RND)|constructor]]).
  constructor; cbn [f_phi f_in f_out f_q f_dq f_changes].
  + apply (fl_0 rnd RND).
  + split; [apply repeat_length|apply Forall_forall; intros x H; apply repeat_spec in H; subst x; exact C].
  + split; [apply repeat_length|apply Forall_forall; intros x H; apply repeat_spec in H; subst x; exact C].
  + split; [apply repeat_length|apply Forall_forall; intros x H; apply repeat_spec in H; subst x; exact Q].
  + apply dq_empty_ok.
  + intros e D ch H. rewrite dq_empty_pend in H. discriminate.
  + apply nd_empty.
  + intros it k H. rewrite kof_empty in H. discriminate.
  + intros e L. pose proof (nth_repeat frc_empty (length (n_cap nw)) e) as E. unfold cap_of. assert (H : 0 < nth e (n_cap nw) 0) by (apply NW, nth_In, L).
    match goal with |- pl_last (c_acc ?x) <= _ => assert (E' : x = frc_empty) by exact E; rewrite E' end. cbn. qlra.
Qed.
Lemma step_tot st c : inv st -> match c with CExtend ni maxt => (forall e d, In (e, d) ni -> (e < N)%nat) /\ fl maxt /\ f_phi st <= maxt | COutflow e => (e < N)%nat end ->
  tot (r_flow_step rnd true nw st c) (r_flow_step rnd false nw st c) (fun p => inv (fst p) /\ f_phi st <= f_phi (fst p) /\ match c with CExtend _ maxt => f_phi (fst p) <= maxt | COutflow _ => f_phi (fst p) = f_phi st end).
Proof.
  intros I H. destruct c as [ni maxt|e]; cbn [r_flow_step]; [apply tot_extend; tauto|].
  destruct (getn_ok _ _ e (proj2 (iv_out st I))) as (c & E & K); [rewrite (proj1 (iv_out st I)); exact H|]. rewrite E. cbn [bind].
  destruct (rfrc_get_ok _ c K) as (c1 & old & E1 & K1 & KA). rewrite E1. cbn [bind]. apply tot_ret. cbn [fst]. split; [|split; [apply Qcle_refl|reflexivity]].
  assert (LU := lim_upd st e c1 I). rewrite KA, <- (getn_nth _ _ _ frc_empty E) in LU. specialize (LU (iv_lim st I e H)).
  destruct I as [I0 I1 I2 I3 I4 I5 I6 I7 I8]. constructor; cbn [set_out f_phi f_in f_out f_q f_dq f_changes]; try assumption.
  split; [rewrite upd_length; apply I2|apply Forall_upd; [apply I2|exact K1]].
Qed.
End Run.
End Rnd.
