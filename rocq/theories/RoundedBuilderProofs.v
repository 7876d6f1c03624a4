(** * FlowBuilder with rounding: constructor and where flow can be (for C121) *)
From Coq Require Import Permutation.
From Verif Require Import Base Spec Arrays ArraysProofs PL PLProofs RC RCProofs FRC FRCProofs PQ PQProofs PQSpec DynFlow DQProofs DynRun DynEvents
  Graph GraphSpec FlowBuilder Rounded RoundedProofs RoundedFlow OptTotal RoundedFlowProofs RoundedBuilder RoundedBuilderSpec.

Section Safe.
Variable on : bool.
Lemma safe_ret {A} (a : A) (P : A -> Prop) : P a -> safe on (Ok a) P.
Proof. intro H. left. eauto. Qed.
Lemma safe_bind {A B} (x : res A) (f : A -> res B) P Q : safe on x P -> (forall a, P a -> safe on (f a) Q) -> safe on (bind x f) Q.
Proof. intros [(a & -> & H)|[O ->]] K; cbn [bind]; [apply K, H|right; auto]. Qed.
Lemma safe_asr {A} b (x : res A) P : safe on x P -> safe on (bind (asr on b) (fun _ => x)) P.
Proof. intro H. unfold asr. destruct on eqn:O; [destruct b; cbn [assertb bind]; [exact H|right; auto]|exact H]. Qed.
Lemma safe_weaken {A} (x : res A) (P Q : A -> Prop) : safe on x P -> (forall a, P a -> Q a) -> safe on x Q.
Proof. intros [(a & E & H)|H] W; [left; eauto|right; exact H]. Qed.
Lemma safe_ok {A} (x : res A) (P : A -> Prop) a : safe on x P -> x = Ok a -> P a.
Proof. intros [(b & -> & H)|[_ ->]] E; [apply ok_inj in E; subst; exact H|discriminate]. Qed.
Lemma safe_tot {A} (f : bool -> res A) P : tot (f true) (f false) P -> safe on (f on) P.
Proof. intros (a & E & H & C). destruct on; [destruct C as [C|C]; [left; eauto|right; auto]|left; eauto]. Qed.
Lemma safe_foldM {A B} (f : A -> B -> res A) (P : A -> Prop) l : (forall a b, In b l -> P a -> safe on (f a b) P) -> forall a, P a -> safe on (foldM f l a) P.
Proof.
  induction l as [|b l IH]; intros H a Pa; cbn [foldM]; [apply safe_ret, Pa|]. eapply safe_bind; [apply H; [left; reflexivity|exact Pa]|].
  intros a' Pa'. apply IH; [intros; apply H; [right; assumption|assumption]|exact Pa'].
Qed.
Lemma safe_mapM {A B} (f : A -> res B) (P : A -> B -> Prop) l : (forall a, In a l -> safe on (f a) (P a)) -> safe on (mapM f l) (fun r => Forall2 P l r).
Proof.
  induction l as [|a l IH]; intro H; cbn [mapM]; [apply safe_ret; constructor|]. eapply safe_bind; [apply H; left; reflexivity|]. intros b Pb.
  eapply safe_bind; [apply IH; intros; apply H; right; assumption|]. intros r Pr. apply safe_ret. constructor; assumption.
Qed.

(** ** The constructor *)
Variable rnd : Qc -> Qc.
Lemma elem_lrank_range arr x : arr <> [] -> exists r, elem_lrank arr x = Ok r /\ (-1 <= r < zlen arr)%Z.
Proof.
  intro N. assert (LN : (0 < length arr)%nat) by (destruct arr; [congruence|cbn; lia]). unfold elem_lrank.
  rewrite (pyget_Z arr 0 0) by lia. cbn [bind]. destruct (qltb x _); [exists (-1)%Z; split; [reflexivity|unfold zlen; lia]|].
  destruct (bisect_range (fun v => qltb x v) arr (Datatypes.S (length arr)) 0 (zlen arr)) as (r & E & R); [lia|unfold zlen; lia|unfold zlen; lia|].
  exists r. split; [exact E|lia].
Qed.
Lemma eval_safe f t : rate_ok f -> safe on (r_rc_eval on f t) (fun _ => True).
Proof.
  intros [N L]. unfold r_rc_eval. apply safe_asr. destruct (elem_lrank_range (rc_times f) t N) as (r & E & R). rewrite E. cbn [bind].
  unfold r_rc_eval_with_lrank. do 2 apply safe_asr.
  assert (V : safe on (if (r =? -1)%Z then pyget (rc_values f) 0 else pyget (rc_values f) r) (fun _ => True)).
  { unfold zlen in R. assert (0 < length (rc_times f))%nat by (destruct (rc_times f); [congruence|cbn; lia]).
    destruct (Z.eqb_spec r (-1)); [rewrite (pyget_Z (rc_values f) 0 0) by lia|rewrite (pyget_Z (rc_values f) r 0) by lia]; apply safe_ret, I. }
  destruct on eqn:O; cbn [bind]; [|exact V]. rewrite E. cbn [bind]. rewrite Z.eqb_refl. cbn [assertb bind]. exact V.
Qed.
Lemma rates_at_safe fns t : Forall (fun p => rate_ok (snd p)) fns -> safe on (r_rates_at on fns t) (fun d => incl (map fst d) (map fst fns)).
Proof.
  induction fns as [|[i f] fns IH]; intro H; cbn [r_rates_at]; [apply safe_ret, incl_refl|]. inversion H as [|? ? H1 H2]; subst.
  eapply safe_bind; [apply eval_safe, H1|]. intros v _. eapply safe_bind; [apply IH, H2|]. intros rs I. apply safe_ret. cbn [map fst].
  destruct (qltb 0 v); cbn [map fst]; intros x Hx; [destruct Hx as [<-|Hx]; [left; reflexivity|right; apply I, Hx]|right; apply I, Hx].
Qed.
Lemma push_ne m v : r_push_merged rnd m v <> [].
Proof. unfold r_push_merged. destruct m as [|x m]; [discriminate|]. destruct (qltb _ _); [discriminate|]. destruct (_ && _)%bool; discriminate. Qed.
Lemma merge_many_ok : forall fuel arrs m, (length (concat arrs) < fuel)%nat -> (concat arrs <> [] \/ m <> []) -> exists ts, r_merge_many_loop rnd fuel arrs m = Ok ts /\ ts <> [].
Proof.
  induction fuel as [|k IH]; intros arrs m L N; [lia|]. cbn [r_merge_many_loop]. destruct (pick_min arrs) as [[v arrs']|] eqn:E.
  - apply IH; [|right; apply push_ne]. pose proof (Permutation_length (pick_min_perm _ _ _ E)) as P. cbn [length] in P. lia.
  - apply pick_min_none in E. rewrite E in N. destruct N as [N|N]; [congruence|]. exists (rev m). split; [reflexivity|]. intro Q. apply N. apply (f_equal (@rev Qc)) in Q. rewrite rev_involutive in Q. exact Q.
Qed.
Lemma adv_range T t : forall fuel p, (0 <= p < zlen T)%Z -> (zlen T - p <= Z.of_nat fuel)%Z -> exists p', adv fuel T p t = Ok p' /\ (0 <= p' < zlen T)%Z.
Proof.
  induction fuel as [|k IH]; intros p R F; [lia|]. cbn [adv]. destruct (Z.ltb_spec p (zlen T - 1)); [|eauto]. rewrite (pyget_Z T (p + 1) 0) by (unfold zlen in *; lia). cbn [bind].
  destruct (qleb _ t); [apply IH; lia|eauto].
Qed.
Definition ptr_ok (f : RC) (p : Z) : Prop := (0 <= p < zlen (rc_times f))%Z.
Lemma advs_ok t : forall fs ps, Forall2 ptr_ok fs ps -> exists ps', advs fs ps t = Ok ps' /\ Forall2 ptr_ok fs ps'.
Proof.
  intros fs ps H. induction H as [|f p fs ps P _ IH]; cbn [advs]; [exists []; split; [reflexivity|constructor]|]. unfold adv_fn.
  destruct (adv_range (rc_times f) t (Datatypes.S (length (rc_times f))) p P) as (p' & E & P'); [unfold ptr_ok, zlen in *; lia|]. rewrite E. cbn [bind].
  destruct IH as (ps' & E2 & F). rewrite E2. cbn [bind]. eexists. split; [reflexivity|]. constructor; assumption.
Qed.
Lemma sum_at_ok : forall fs ps a, Forall rate_ok fs -> Forall2 ptr_ok fs ps -> exists v, r_sum_at rnd a fs ps = Ok v.
Proof.
  induction fs as [|f fs IH]; intros ps a R H; inversion H as [|? p ? ps' P Q]; subst; cbn [r_sum_at]; [eauto|]. inversion R as [|? ? [R1 R2] R3]; subst.
  rewrite (pyget_Z (rc_values f) p 0) by (unfold ptr_ok, zlen in P; lia). cbn [bind]. apply IH; assumption.
Qed.
Lemma sum_loop_ok fs : Forall rate_ok fs -> forall times ps, Forall2 ptr_ok fs ps -> exists vs, r_sum_loop rnd fs ps times = Ok vs /\ length vs = length times.
Proof.
  intro R. induction times as [|t times IH]; intros ps H; cbn [r_sum_loop]; [exists []; auto|]. destruct (advs_ok t fs ps H) as (ps' & E & H'). rewrite E. cbn [bind].
  destruct (sum_at_ok fs ps' 0 R H') as (v & E2). rewrite E2. cbn [bind]. destruct (IH ps' H') as (vs & E3 & L). rewrite E3. cbn [bind]. eexists. split; [reflexivity|]. cbn [length]. congruence.
Qed.
Lemma rc_init_safe ts vs lo hi : ts <> [] -> length vs = length ts -> safe on (r_rc_init on ts vs lo hi) rate_ok.
Proof. intros N L. unfold r_rc_init. do 2 apply safe_asr. apply safe_ret. split; assumption. Qed.
Lemma sum_safe fs lo hi : Forall rate_ok fs -> safe on (r_rc_sum rnd on fs lo hi) rate_ok.
Proof.
  intro R. unfold r_rc_sum. destruct fs as [|f fs]; [apply rc_init_safe; [discriminate|reflexivity]|]. set (l := f :: fs) in *.
  destruct (merge_many_ok (Datatypes.S (length (concat (map rc_times l)))) (map rc_times l) []) as (ts & E & N); [lia|left|].
  { unfold l. cbn [map concat]. inversion R as [|? ? [R1 _] _]; subst. destruct (rc_times f); [congruence|discriminate]. }
  unfold r_merge_sorted_many. rewrite E. cbn [bind]. destruct (sum_loop_ok l R ts (map (fun _ => 0%Z) l)) as (vs & E2 & L).
  - clear E N. clearbody l. induction R as [|x m [R1 R2] _ IH]; cbn [map]; constructor; [|exact IH]. unfold ptr_ok, zlen. destruct (rc_times x); [congruence|cbn [length]; lia].
  - rewrite E2. cbn [bind]. apply rc_init_safe; assumption.
Qed.
Lemma pl_init_safe ts vs a b lo hi : safe on (r_pl_init rnd on ts vs a b lo hi) (fun f => f = mkPL ts vs a b lo hi).
Proof. unfold r_pl_init. do 3 apply safe_asr. apply safe_ret. reflexivity. Qed.
Lemma integral_safe f : rate_ok f -> safe on (r_rc_integral rnd on f) (fun _ => True).
Proof.
  intros [N L]. assert (M : rc_values f <> []) by (destruct (rc_times f), (rc_values f); try discriminate; congruence). unfold r_rc_integral.
  assert (LN : (0 < length (rc_times f))%nat) by (destruct (rc_times f); [congruence|cbn; lia]).
  rewrite (pyget_Z (rc_times f) 0 0) by lia. rewrite (pyget_last (rc_times f) 0 N). cbn [bind]. apply safe_asr.
  rewrite (pyget_Z (rc_values f) 0 0) by lia. rewrite (pyget_last (rc_values f) 0 M). cbn [bind]. eapply safe_weaken; [apply pl_init_safe|auto].
Qed.
(** A collection that answers from time [phi] on, about the commodities [ks]. *)
Definition net_col (ks : list nat) (phi : Qc) (c : FRC) : Prop :=
  exists h r, c_chain c = h :: r /\ it_time h <= phi /\ forall it, In it (c_chain c) -> incl (map fst (it_vals it)) ks.
Lemma frc_init_safe fns : Forall (fun p => rate_ok (snd p)) fns -> safe on (r_frc_init rnd on fns) (net_col (map fst fns) 0).
Proof.
  intro R. unfold r_frc_init. eapply safe_bind with (P := fun it => it = mkItem 0 []); [unfold r_new_item; apply safe_asr, safe_ret; reflexivity|]. intros it ->.
  eapply safe_bind; [apply sum_safe; apply Forall_map; exact R|]. intros total RT. eapply safe_bind; [apply integral_safe, RT|]. intros acc _. cbv zeta.
  eapply safe_bind; [apply (safe_mapM _ (fun t it => incl (map fst (it_vals it)) (map fst fns)))|].
  - intros t _. eapply safe_bind; [apply rates_at_safe, R|]. intros d I. unfold r_new_item. apply safe_asr, safe_ret. exact I.
  - intros items F. apply safe_ret. exists (mkItem 0 []), items. split; [reflexivity|]. split; [apply Qcle_refl|]. cbn [c_chain]. intros it [<-|I]; [intros x []|].
    clear - F I. induction F as [|a b l l' P _ IH]; [destruct I|]. destruct I as [<-|I]; auto.
Qed.
End Safe.

(** ** Which commodities an edge can carry *)
Section Supp.
Variables (rnd : Qc -> Qc) (on : bool) (nw : Net) (R : nat -> nat -> Prop) (M : nat).
Definition keys (e : nat) (d : rates) : Prop := forall i, In i (map fst d) -> R e i.
Record supp (st : Flow) : Prop := {
  sp_out : forall k c it, nth_error (f_out st) k = Some c -> In it (c_chain c) -> keys k (it_vals it);
  sp_len : length (f_out st) = M;
  sp_dq : dq_ok (f_dq st);
  sp_pend : forall e D ct v s, pend (f_dq st) e = Some (D, Some (ct, (v, s))) -> keys e v;
  sp_nd : sq_nd (f_changes st);
  sp_ch : forall e t, sq_key_of (f_changes st) (e, t) <> None -> (e < M)%nat }.
Lemma frc_chain c t v s c' : r_frc_extend rnd on c t v s = Ok c' -> c_chain c' = c_chain c ++ [mkItem t v].
Proof.
  intro H. unfold r_frc_extend in H. binv H. assert (a = mkItem t v). { unfold r_new_item in E. binv E. apply ok_inj in E. congruence. } subst a.
  binv H. binv H. apply ok_inj in H. subst c'. reflexivity.
Qed.
Lemma getn_some {A} (l : list A) i x : getn l i = Ok x -> nth_error l i = Some x.
Proof. unfold getn. destruct (nth_error l i); [|discriminate]. intro H. apply ok_inj in H. congruence. Qed.
Lemma upd_some {A} (l : list A) i x k y : nth_error (upd l i x) k = Some y -> (k = i /\ y = x) \/ (k <> i /\ nth_error l k = Some y).
Proof.
  revert i k. induction l as [|a l IH]; intros i k; [destruct i; cbn [upd]; destruct k; discriminate|].
  destruct i, k; cbn [upd nth_error]; intro H; [injection H as <-; auto|right; split; [discriminate|exact H]|right; split; [discriminate|exact H]|].
  destruct (IH _ _ H) as [[-> ->]|[J1 J2]]; [auto|right; split; [congruence|exact J2]].
Qed.
Lemma upd_chain st e c c' : supp st -> nth_error (f_out st) e = Some c -> (forall it, In it (c_chain c') -> In it (c_chain c) \/ keys e (it_vals it)) ->
  forall k c0 it, nth_error (upd (f_out st) e c') k = Some c0 -> In it (c_chain c0) -> keys k (it_vals it).
Proof.
  intros SP E H k c0 it N I. destruct (upd_some _ _ _ _ _ N) as [[-> ->]|[_ N']]; [|eapply (sp_out st SP); eauto]. destruct (H it I) as [J|J]; [eapply (sp_out st SP); eauto|exact J].
Qed.
Lemma supp_out st e t v s st' : supp st -> keys e v -> r_out_extend rnd on st e t v s = Ok st' -> supp st'.
Proof.
  intros SP KV H. unfold r_out_extend in H. binv H. binv H. apply ok_inj in H. subst st'. apply getn_some in E. pose proof (frc_chain _ _ _ _ _ E0) as CH.
  assert (UC := upd_chain st e a a0 SP E). rewrite CH in UC.
  assert (HI : forall it, In it (c_chain a ++ [mkItem t v]) -> In it (c_chain a) \/ keys e (it_vals it)) by (intros it I; apply in_app_or in I; destruct I as [I|[<-|[]]]; [left; exact I|right; exact KV]). specialize (UC HI).
  destruct SP as [S1 S2 S3 S4 S5 S6]. constructor; cbn [set_changes set_out f_out f_dq f_changes]; try assumption.
  - rewrite upd_length. exact S2.
  - apply nd_set, S5.
  - intros e0 t0. rewrite kof_set. destruct (eqbP (e, t) (e0, t0)) as [Q|Q]; [|apply S6]. injection Q as <- _. intros _. rewrite <- S2. apply nth_error_Some. congruence.
Qed.
Lemma supp_queue st e t s st' : supp st -> r_queue_extend rnd on st e t s = Ok st' -> supp st'.
Proof. intros [S1 S2 S3 S4 S5 S6] H. unfold r_queue_extend in H. binv H. binv H. apply ok_inj in H. subst st'. constructor; assumption. Qed.
Lemma supp_dq st e d : supp st -> dq_ok d -> (forall j, j <> e -> pend d j = pend (f_dq st) j) -> (forall D ct v s, pend d e = Some (D, Some (ct, (v, s))) -> keys e v) -> supp (set_dq st d).
Proof.
  intros [S1 S2 S3 S4 S5 S6] K O W. constructor; cbn [set_dq f_out f_dq f_changes]; try assumption. intros j D ct v s P. destruct (Nat.eq_dec j e) as [->|NE]; [eapply W; eauto|].
  rewrite O in P by exact NE. eapply S4; eauto.
Qed.
Lemma supp_drop st e st' : supp st -> drop_depletion st e = Ok st' -> supp st'.
Proof.
  intros SP H. unfold drop_depletion in H. rewrite pend_has in H by apply (sp_dq st SP). pose proof (dq_remove_ok (f_dq st) e (sp_dq st SP)) as Q.
  destruct (pend (f_dq st) e) as [p|]; [|apply ok_inj in H; congruence]. destruct Q as (q' & E & K' & P'). rewrite E in H. cbn [bind] in H. apply ok_inj in H. subst st'.
  apply (supp_dq st e q' SP K'); [intros j NE|intros D ct v s]; rewrite P'; [destruct (Nat.eqb_spec e j); congruence|rewrite Nat.eqb_refl; discriminate].
Qed.
Lemma supp_set st e t ch d : supp st -> dq_set (f_dq st) e t ch = Ok d -> (forall ct v s, ch = Some (ct, (v, s)) -> keys e v) -> supp (set_dq st d).
Proof.
  intros SP H W. destruct (dq_set_ok (f_dq st) e t ch (sp_dq st SP)) as (q' & E & K' & P'). rewrite E in H. apply ok_inj in H. subst q'.
  apply (supp_dq st e d SP K'); [intros j NE|intros D ct v s]; rewrite P'; [destruct (Nat.eqb_spec e j); congruence|rewrite Nat.eqb_refl]. intro Q. injection Q as _ Q. eapply W; eauto.
Qed.
Lemma scale_keys e f d : keys e d -> keys e (r_scale rnd f d).
Proof. intros H i I. apply H. unfold r_scale in I. rewrite map_map in I. exact I. Qed.
Lemma keys_nil e : keys e [].
Proof. intros i []. Qed.
Lemma supp_i st e q st' : supp st -> r_case_i rnd on nw st e q = Ok st' -> supp st'.
Proof.
  intros SP H. unfold r_case_i in H. do 3 binv H. binv H. binv H. pose proof (supp_out _ _ _ _ _ _ SP (keys_nil e) E2) as S1. pose proof (supp_queue _ _ _ _ _ S1 E3) as S2.
  destruct (qltb 0 q); [|eapply supp_drop; eauto]. binv H. binv H. apply ok_inj in H. subst st'. eapply supp_set; eauto. discriminate.
Qed.
Lemma supp_ii st e nf q a st' : supp st -> keys e nf -> r_case_ii rnd on nw st e nf q a = Ok st' -> supp st'.
Proof.
  intros SP KN H. unfold r_case_ii in H. do 3 binv H. binv H. binv H. binv H. pose proof (supp_out _ _ _ _ _ _ SP (scale_keys e _ nf KN) E3) as S1. pose proof (supp_queue _ _ _ _ _ S1 E4) as S2. eapply supp_drop; eauto.
Qed.
Lemma supp_iii st e nf q a st' : supp st -> keys e nf -> r_case_iii rnd on nw st e nf q a = Ok st' -> supp st'.
Proof.
  intros SP KN H. unfold r_case_iii in H. do 3 binv H. binv H. binv H. cbv zeta in H. binv H. pose proof (supp_out _ _ _ _ _ _ SP (scale_keys e _ nf KN) E3) as S1. pose proof (supp_queue _ _ _ _ _ S1 E4) as S2.
  binv H. binv H. binv H. apply ok_inj in H. subst st'. eapply supp_set; eauto. intros ct v s Q. injection Q as _ <- _. exact KN.
Qed.
Lemma supp_in st x : supp st -> supp (set_in st x).
Proof. intros [S1 S2 S3 S4 S5 S6]. constructor; assumption. Qed.
Lemma supp_edge st p st' : supp st -> keys (fst p) (snd p) -> r_extend_edge rnd on nw st p = Ok st' -> supp st'.
Proof.
  intros SP KN H. unfold r_extend_edge in H. binv H. binv H. destruct a0 as [c1 old]. destruct (rates_eqb old (snd p)); [apply ok_inj in H; subst; apply supp_in, SP|].
  cbv zeta in H. binv H. binv H. binv H. destruct (qeqb _ 0); [eapply supp_i; [|exact H]; apply supp_in, supp_in, SP|].
  binv H. destruct (_ || _)%bool; [eapply supp_ii in H|eapply supp_iii in H]; eauto; apply supp_in, supp_in, SP.
Qed.
Lemma supp_deplete st st' : supp st -> r_deplete_one rnd on st = Ok st' -> supp st'.
Proof.
  intros SP H. unfold r_deplete_one in H. destruct (dq_pop_ok (f_dq st) (sp_dq st SP)) as [[_ P]|(d & e & D & ch & E & P & _ & K' & P' & _)]; [rewrite P in H; discriminate|].
  rewrite E in H. cbn [bind] in H. assert (S0 : supp (set_dq st d)).
  { apply (supp_dq st e d SP K'); [intros j NE|intros D' ct v s]; rewrite P'; [destruct (Nat.eqb_spec e j); congruence|rewrite Nat.eqb_refl; discriminate]. }
  binv H. pose proof (supp_queue _ _ _ _ _ S0 E0) as S1. binv H. binv H. binv H. cbv zeta in H. set (st2 := set_q a _) in H.
  assert (S2 : supp st2) by (destruct S1; constructor; assumption). destruct ch as [[ct [v s]]|]; [|apply ok_inj in H; congruence].
  eapply supp_out; [exact S2|eapply (sp_pend st SP); exact P|exact H].
Qed.
Lemma supp_process : forall fuel st st', supp st -> r_process_depletions rnd on fuel st = Ok st' -> supp st'.
Proof.
  induction fuel as [|n IH]; intros st st' SP H; cbn [r_process_depletions] in H; [discriminate|]. destruct (_ && _)%bool; [|apply ok_inj in H; congruence].
  binv H. eapply IH; [eapply supp_deplete; eauto|exact H].
Qed.
Lemma supp_pops : forall fuel st acc st' l, supp st -> (forall e, In e acc -> (e < M)%nat) -> pop_changes fuel st acc = Ok (st', l) -> supp st' /\ forall e, In e l -> (e < M)%nat.
Proof.
  induction fuel as [|n IH]; intros st acc st' l SP A H; cbn [pop_changes] in H; [discriminate|]. destruct (_ && _)%bool; [|apply ok_inj in H; injection H as <- <-; auto].
  binv H. destruct a as [c it]. destruct (pop_ok _ _ _ (sp_nd st SP) E) as [-> EK]. eapply IH; [| |exact H].
  - destruct SP as [S1 S2 S3 S4 S5 S6]. constructor; cbn [set_changes f_out f_dq f_changes]; try assumption; [apply nd_drop, S5|]. intros e t. rewrite kof_drop. destruct (eqb it (e, t)); [congruence|apply S6].
  - intros e [<-|I]; [|apply A, I]. apply (sp_ch st SP (fst it) (snd it)). rewrite <- surjective_pairing, EK. discriminate.
Qed.
Lemma supp_extend st ni maxt st' l : supp st -> (forall e d, In (e, d) ni -> keys e d) -> r_flow_extend rnd on nw st ni maxt = Ok (st', l) -> supp st' /\ forall e, In e l -> (e < M)%nat.
Proof.
  intros SP KN H. unfold r_flow_extend in H. binv H.
  assert (S1 : supp a).
  { clear H. revert st SP E. induction ni as [|[e d] ni IH]; intros st SP E; cbn [foldM] in E; [apply ok_inj in E; congruence|]. binv E.
    eapply IH; [intros; apply KN; right; eassumption| |exact E]. eapply supp_edge; [exact SP| |exact E0]. cbn [fst snd]. apply KN. left. reflexivity. }
  destruct (ext_min _ (Fin maxt)) as [|phi'|]; [discriminate| |discriminate]. cbv zeta in H. binv H. eapply supp_pops; [| |exact H]; [|intros e []].
  eapply supp_process; [|exact E0]. destruct S1; constructor; assumption.
Qed.
End Supp.
