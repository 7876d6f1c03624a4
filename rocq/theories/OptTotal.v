(** * No exceptions but assertions: [extend] on every timely history *)
From Verif Require Import Base Spec Arrays PL PLProofs PLEval RC FRC FRCProofs PQ PQProofs PQSpec DynFlow DQProofs DynRun DynEvents Optimised.

(** The unchecked computation [y] returns a value satisfying [P]; the checked
    one, [x], returns the same value or fails an assertion. *)
Definition tot {A} (x y : res A) (P : A -> Prop) : Prop := exists a, y = Ok a /\ P a /\ (x = Ok a \/ x = Err AssertionError).
Lemma tot_ret {A} (a : A) (P : A -> Prop) : P a -> tot (Ok a) (Ok a) P.
Proof. intro H. exists a. auto. Qed.
Lemma tot_bind {A B} (x y : res A) (f g : A -> res B) (P : A -> Prop) (Q : B -> Prop) :
  tot x y P -> (forall a, P a -> tot (f a) (g a) Q) -> tot (bind x f) (bind y g) Q.
Proof.
  intros (a & E & H & C) K. destruct (K a H) as (b & E' & H' & C'). exists b. rewrite E. cbn [bind]. split; [exact E'|]. split; [exact H'|].
  destruct C as [-> | ->]; [exact C'|right; reflexivity].
Qed.
Lemma tot_assert {A} b (x y : res A) P : tot x y P -> tot (bind (assertb b) (fun _ => x)) y P.
Proof. intros (a & E & H & C). exists a. split; [exact E|]. split; [exact H|]. destruct b; [exact C|right; reflexivity]. Qed.
Lemma tot_skip {A B} (z : res A) (x y : res B) P : ((exists a, z = Ok a) \/ z = Err AssertionError) -> tot x y P -> tot (bind z (fun _ => x)) y P.
Proof. intros Z (a & E & H & C). exists a. split; [exact E|]. split; [exact H|]. destruct Z as [[u ->] | ->]; [exact C|right; reflexivity]. Qed.
Lemma tot_weaken {A} (x y : res A) (P Q : A -> Prop) : tot x y P -> (forall a, P a -> Q a) -> tot x y Q.
Proof. intros (a & E & H & C) W. exists a. auto. Qed.
Lemma tot_checked {A} (x y : res A) P : tot x y P -> (exists a, x = Ok a) \/ x = Err AssertionError.
Proof. intros (a & E & H & [C|C]); eauto. Qed.
Lemma tot_foldM {A B} (f g : A -> B -> res A) (P : A -> Prop) (Q : B -> Prop) l :
  (forall a b, P a -> Q b -> tot (f a b) (g a b) P) -> (forall b, In b l -> Q b) -> forall a, P a -> tot (foldM f l a) (foldM g l a) P.
Proof.
  intro H. induction l as [|b r IH]; intros HQ a Pa; cbn [foldM]; [apply tot_ret, Pa|].
  eapply tot_bind; [apply H; [exact Pa|apply HQ; left; reflexivity]|]. intros a' Pa'. apply IH; [intros; apply HQ; right; assumption|exact Pa'].
Qed.

(** ** Ranks of arbitrary (unsorted) lists *)
Lemma bisect_range test arr : forall fuel low high, (0 <= low)%Z -> (low <= high <= zlen arr)%Z -> (high - low < Z.of_nat fuel)%Z ->
  exists r, bisect fuel test arr low high = Ok r /\ (low - 1 <= r <= high - 1)%Z.
Proof.
  induction fuel as [|k IH]; intros low high L H F; [lia|]. cbn [bisect]. destruct (Z.ltb_spec low high) as [C|C].
  - assert (M : (low <= (high + low) / 2 < high)%Z) by (split; [apply Z.div_le_lower_bound; lia|apply Z.div_lt_upper_bound; lia]).
    cbv zeta. rewrite (pyget_Z arr _ 0) by (unfold zlen in *; lia). cbn [bind]. destruct (test _).
    + destruct (IH low ((high + low) / 2)%Z) as (r & E & R); [lia|lia|lia|]. exists r. split; [exact E|lia].
    + destruct (IH ((high + low) / 2 + 1)%Z high) as (r & E & R); [lia|lia|lia|]. exists r. split; [exact E|lia].
  - exists (high - 1)%Z. split; [reflexivity|lia].
Qed.
Lemma elem_rank_range arr x : arr <> [] -> exists r, elem_rank arr x = Ok r /\ (-1 <= r < zlen arr)%Z.
Proof.
  intro N. assert (LN : (0 < length arr)%nat) by (destruct arr; [congruence|cbn; lia]). unfold elem_rank.
  rewrite (pyget_Z arr 0 0) by lia. cbn [bind]. destruct (qleb x _); [exists (-1)%Z; split; [reflexivity|unfold zlen; lia]|].
  destruct (bisect_range (fun v => qleb x v) arr (Datatypes.S (length arr)) 0 (zlen arr)) as (r & E & R); [lia|unfold zlen; lia|unfold zlen; lia|].
  exists r. split; [exact E|lia].
Qed.
Lemma scan_back_range arr x : forall n, (n <= length arr)%nat -> exists r, scan_back arr x n = Ok r /\ (-1 <= r < Z.of_nat n)%Z.
Proof.
  induction n as [|k IH]; intro L; cbn [scan_back]; [exists (-1)%Z; split; [reflexivity|lia]|].
  rewrite (pyget_nat arr k 0) by lia. cbn [bind]. destruct (qleb x _).
  - destruct IH as (r & E & R); [lia|]. exists r. split; [exact E|lia].
  - exists (Z.of_nat k). split; [reflexivity|lia].
Qed.

(** ** Queue functions: as many values as times, neighbouring times differ *)
Definition adj_diff (l : list Qc) : Prop := forall i, (Datatypes.S i < length l)%nat -> nth i l 0 <> nth (Datatypes.S i) l 0.
Record fn_ok (f : PL) : Prop := { fo_ne : pl_times f <> []; fo_len : length (pl_values f) = length (pl_times f); fo_adj : adj_diff (pl_times f) }.
Lemma fn_vals f : fn_ok f -> pl_values f <> [].
Proof. intros [N L _] C. rewrite C in L. destruct (pl_times f); [congruence|discriminate]. Qed.
Lemma tot_gradient f i : fn_ok f -> (-1 <= i < pl_len f)%Z -> tot (gradient f i) (o_gradient f i) (fun _ => True).
Proof.
  intros K R. apply tot_assert. unfold o_gradient. destruct (Z.eqb_spec i (-1)) as [|N]; [apply tot_ret, I|]. destruct (Z.eqb_spec i (pl_len f - 1)) as [|N']; [apply tot_ret, I|].
  unfold pl_len, zlen in *. pose proof (fo_len f K) as LV.
  rewrite (pyget_Z (pl_values f) (i + 1) 0), (pyget_Z (pl_values f) i 0), (pyget_Z (pl_times f) (i + 1) 0), (pyget_Z (pl_times f) i 0) by lia. cbn [bind].
  assert (D : nth (Z.to_nat (i + 1)) (pl_times f) 0 - nth (Z.to_nat i) (pl_times f) 0 <> 0).
  { intro C. apply (fo_adj f K (Z.to_nat i)); [lia|]. replace (Datatypes.S (Z.to_nat i)) with (Z.to_nat (i + 1)) by lia. qlra. }
  rewrite pydiv_ok by exact D. apply tot_ret, I.
Qed.
Lemma tot_ewr f t r : fn_ok f -> (-1 <= r < pl_len f)%Z -> tot (eval_with_rank f t r) (o_eval_with_rank f t r) (fun _ => True).
Proof.
  intros K R. assert (LP : (0 < length (pl_times f))%nat) by (destruct (pl_times f) eqn:E; [exfalso; apply (fo_ne f K E)|cbn; lia]).
  pose proof (fo_len f K) as LV. do 2 apply tot_assert. unfold o_eval_with_rank.
  rewrite (pyget_Z (pl_times f) 0 0) by lia. rewrite (pyget_last (pl_times f) 0) by apply (fo_ne f K). cbn [bind]. apply tot_assert. apply tot_assert.
  apply tot_skip.
  { destruct (Z.ltb_spec (-1) r), (Z.ltb_spec r (pl_len f - 1)); cbn [andb]; eauto. unfold pl_len, zlen in *. rewrite (pyget_Z (pl_times f) r 0), (pyget_Z (pl_times f) (r + 1) 0) by lia. cbn [bind].
    destruct (_ && _)%bool; [left; exists tt; reflexivity|right; reflexivity]. }
  destruct (Z.eqb_spec r (-1)).
  - eapply tot_bind; [apply tot_gradient; assumption|intros g _]. rewrite (pyget_Z (pl_values f) 0 0) by lia. apply tot_ret, I.
  - destruct (Z.eqb_spec r (pl_len f - 1)).
    + eapply tot_bind; [apply tot_gradient; assumption|intros g _]. rewrite (pyget_last (pl_values f) 0) by (apply fn_vals, K). apply tot_ret, I.
    + unfold pl_len, zlen in *. rewrite (pyget_Z (pl_values f) r 0), (pyget_Z (pl_times f) r 0) by lia. cbn [bind].
      eapply tot_bind; [apply tot_gradient; assumption|intros g _]. apply tot_ret, I.
Qed.
Lemma tot_eval f t : fn_ok f -> tot (pl_eval f t) (o_pl_eval f t) (fun _ => True).
Proof. intro K. apply tot_assert. unfold o_pl_eval. destruct (elem_rank_range (pl_times f) t (fo_ne f K)) as (r & E & R). rewrite E. cbn [bind]. apply tot_ewr; assumption. Qed.
Lemma tot_efe f t : fn_ok f -> tot (eval_from_end f t) (o_eval_from_end f t) (fun _ => True).
Proof.
  intro K. apply tot_assert. unfold o_eval_from_end. destruct (scan_back_range (pl_times f) t (length (pl_times f)) (le_n _)) as (r & E & R). rewrite E. cbn [bind].
  apply tot_ewr; assumption.
Qed.
Lemma adj_app l x : l <> [] -> adj_diff l -> last l 0 <> x -> adj_diff (l ++ [x]).
Proof.
  intros N A D i L. rewrite app_length in L. cbn [length] in L. destruct (Nat.lt_ge_cases (Datatypes.S i) (length l)) as [H|H].
  - rewrite !app_nth1 by lia. apply A. exact H.
  - assert (Datatypes.S i = length l) by lia. rewrite app_nth1 by lia. rewrite app_nth2 by lia. replace (Datatypes.S i - length l)%nat with 0%nat by lia. cbn [nth].
    destruct (exists_last N) as (l' & a & ->). rewrite last_last in D. rewrite app_length in *. cbn [length] in *.
    rewrite app_nth2 by lia. replace (i - length l')%nat with 0%nat by lia. exact D.
Qed.
Lemma tot_ews f t s : fn_ok f -> tot (extend_with_slope f t s) (o_extend_with_slope f t s) fn_ok.
Proof.
  intro K. unfold extend_with_slope, o_extend_with_slope. pose proof (pyget_last (pl_times f) 0 (fo_ne f K)) as Et. pose proof (pyget_last (pl_values f) 0 (fn_vals f K)) as Ev.
  rewrite Et. cbn [bind]. apply tot_assert. destruct (qleb _ eps); [apply tot_ret, K|]. destruct (qltbP eps (qabs (t - last (pl_times f) 0))) as [C|C].
  - rewrite Ev. cbn [bind]. cbv zeta. apply tot_ret. constructor; cbn [pl_times pl_values].
    + destruct (pl_times f); discriminate.
    + rewrite !app_length, (fo_len f K). reflexivity.
    + apply adj_app; [apply K|apply K|]. intro Q. rewrite <- Q in C. replace (last (pl_times f) 0 - last (pl_times f) 0) with 0 in C by ring.
      pose proof eps_pos. destruct (qabs_spec 0) as [[? E]|[? E]]; rewrite E in C; qlra.
  - apply tot_ret. constructor; cbn [pl_times pl_values]; apply K.
Qed.

(** ** Rate functions and collections *)
Definition rfn_ok (f : RC) : Prop := rc_times f <> [] /\ rc_values f <> [].
Lemma new_fn_ok : rfn_ok new_flow_fn.
Proof. split; discriminate. Qed.
Lemma set_nth_ne {A} (l : list A) i v : l <> [] -> set_nth l i v <> [].
Proof. intros N C. apply N. apply length_zero_iff_nil. rewrite <- (set_nth_length l i v), C. reflexivity. Qed.
Lemma tot_rc_extend f t v : rfn_ok f -> tot (rc_extend f t v) (o_rc_extend f t v) rfn_ok.
Proof.
  intros [N M]. unfold rc_extend, o_rc_extend. rewrite (pyget_last _ 0 N), (pyget_last _ 0 M). cbn [bind]. apply tot_assert.
  destruct (qleb _ eps); [apply tot_ret; split; assumption|]. destruct (qleb _ eps); apply tot_ret; split; cbn [rc_times rc_values]; try assumption.
  - apply set_nth_ne, M.
  - destruct (rc_times f); discriminate.
  - destruct (rc_values f); discriminate.
Qed.
Definition fns_ok (fns : list (nat * RC)) : Prop := forall i f, dget fns i = Some f -> rfn_ok f.
Definition grows (a b : list (nat * RC)) : Prop := forall i, dget a i <> None -> dget b i <> None.
Lemma grows_refl a : grows a a. Proof. intros i H. exact H. Qed.
Lemma grows_trans a b c : grows a b -> grows b c -> grows a c. Proof. intros H K i Q. apply K, H, Q. Qed.
Lemma dset_ok fns i f : fns_ok fns -> rfn_ok f -> fns_ok (dset fns i f) /\ grows fns (dset fns i f) /\ dget (dset fns i f) i <> None.
Proof.
  intros K R. split; [|split].
  - intros j g. rewrite dget_dset. destruct (Nat.eqb i j); [intro H; injection H as <-; exact R|apply K].
  - intros j. rewrite dget_dset. destruct (Nat.eqb i j); [discriminate|auto].
  - rewrite dget_dset, Nat.eqb_refl. discriminate.
Qed.
Lemma tot_fresh t vs : forall fns, fns_ok fns ->
  tot (ext_fresh fns t vs) (o_ext_fresh fns t vs) (fun r => fns_ok r /\ grows fns r /\ forall i, dget vs i <> None -> dget r i <> None).
Proof.
  induction vs as [|[i v] r IH]; intros fns K; cbn [ext_fresh o_ext_fresh]; [apply tot_ret; split; [exact K|split; [apply grows_refl|intros ? H; exfalso; apply H; reflexivity]]|].
  eapply tot_bind; [apply tot_rc_extend, new_fn_ok|]. intros f F. destruct (dset_ok fns i f K F) as (K' & G & H). eapply tot_weaken; [apply IH, K'|].
  cbn beta. intros a (A1 & A2 & A3). split; [exact A1|]. split; [eapply grows_trans; eassumption|]. intros j. cbn [dget]. destruct (Nat.eqb_spec i j) as [<-|]; [intros _; apply A2, H|apply A3].
Qed.
Lemma tot_values t vs : forall fns, fns_ok fns ->
  tot (ext_values fns t vs) (o_ext_values fns t vs) (fun r => fns_ok r /\ grows fns r /\ forall i, dget vs i <> None -> dget r i <> None).
Proof.
  induction vs as [|[i v] r IH]; intros fns K; cbn [ext_values o_ext_values]; [apply tot_ret; split; [exact K|split; [apply grows_refl|intros ? H; exfalso; apply H; reflexivity]]|].
  eapply tot_bind; [apply tot_rc_extend; destruct (dget fns i) as [f|] eqn:E; [apply (K i f E)|apply new_fn_ok]|]. intros f F. destruct (dset_ok fns i f K F) as (K' & G & H). eapply tot_weaken; [apply IH, K'|].
  cbn beta. intros a (A1 & A2 & A3). split; [exact A1|]. split; [eapply grows_trans; eassumption|]. intros j. cbn [dget]. destruct (Nat.eqb_spec i j) as [<-|]; [intros _; apply A2, H|apply A3].
Qed.
Lemma tot_zeros t vs : forall tv fns, fns_ok fns -> (forall i, dget tv i <> None -> dget fns i <> None) ->
  tot (ext_zeros fns t tv vs) (o_ext_zeros fns t tv vs) (fun r => fns_ok r /\ grows fns r).
Proof.
  induction tv as [|[i v] r IH]; intros fns K T; cbn [ext_zeros o_ext_zeros]; [apply tot_ret; split; [exact K|apply grows_refl]|].
  assert (T' : forall j, dget r j <> None -> dget fns j <> None).
  { intros j H. apply T. cbn [dget]. destruct (Nat.eqb i j); [discriminate|exact H]. }
  destruct (dhas vs i); [apply IH; assumption|]. unfold dfetch. destruct (dget fns i) as [f0|] eqn:E; [|exfalso; apply (T i); [cbn [dget]; rewrite Nat.eqb_refl; discriminate|exact E]].
  cbn [bind]. eapply tot_bind; [apply tot_rc_extend, (K i f0 E)|]. intros f F. destruct (dset_ok fns i f K F) as (K' & G & H). eapply tot_weaken; [apply IH; [exact K'|]|].
  - intros j Q. apply G, T', Q.
  - cbn beta. intros a (A1 & A2). split; [exact A1|eapply grows_trans; eassumption].
Qed.
(** A collection at time [phi]: its first snapshot is not in the future. *)
Record col_ok (phi : Qc) (c : FRC) : Prop := {
  co_fns : fns_ok (c_fns c);
  co_acc : fn_ok (c_acc c);
  co_keys : forall it, In it (c_chain c) -> forall i, dget (it_vals it) i <> None -> dget (c_fns c) i <> None;
  co_head : exists h r, c_chain c = h :: r /\ it_time h <= phi }.
Lemma last_in {A} (r : list A) i0 : In (last r i0) (i0 :: r).
Proof. revert i0. induction r as [|a r IH]; intro i0; [left; reflexivity|]. rewrite last_cons. right. apply IH. Qed.
Lemma tot_frc_extend phi c t vs s : col_ok phi c -> tot (frc_extend c t vs s) (o_frc_extend c t vs s) (col_ok phi).
Proof.
  intros [K1 K2 K3 (h & r & EC & HT)]. unfold frc_extend, o_frc_extend. eapply tot_bind with (P := fun it => it = mkItem t vs); [apply tot_assert, tot_ret; reflexivity|]. intros it ->.
  eapply tot_bind with (P := fun r => fns_ok r /\ grows (c_fns c) r /\ forall i, dget vs i <> None -> dget r i <> None).
  - rewrite EC. apply tot_assert. eapply tot_bind; [apply tot_values, K1|]. intros fns1 (F1 & F2 & F3). eapply tot_weaken; [apply tot_zeros; [exact F1|]|].
    + intros i Q. apply F2. apply (K3 (last r h)); [rewrite EC; apply last_in|exact Q].
    + cbn beta. intros a (A1 & A2). split; [exact A1|]. split; [eapply grows_trans; eassumption|]. intros i Q. apply A2, F3, Q.
  - intros fns (F1 & F2 & F3). eapply tot_bind; [apply tot_ews, K2|]. intros acc HA. apply tot_ret. constructor; cbn [c_fns c_acc c_chain].
    + exact F1.
    + exact HA.
    + intros it I i Q. apply in_app_or in I. destruct I as [I|[<-|[]]]; [apply F2, (K3 it I i Q)|apply F3, Q].
    + exists h, (r ++ [mkItem t vs]). rewrite EC. split; [reflexivity|exact HT].
Qed.
Lemma advance_ok time : forall r h, it_time h <= time -> exists h' r', advance_head h r time = h' :: r' /\ it_time h' <= time /\ incl (h' :: r') (h :: r).
Proof.
  induction r as [|n r IH]; intros h H; cbn [advance_head]; [exists h, []; split; [reflexivity|split; [exact H|apply incl_refl]]|].
  destruct (qlebP (it_time n) time) as [C|C]; [|exists h, (n :: r); split; [reflexivity|split; [exact H|apply incl_refl]]].
  destruct (IH n C) as (h' & r' & E & T & I). exists h', r'. split; [exact E|]. split; [exact T|]. intros x Hx. right. apply I, Hx.
Qed.
Lemma frc_get_ok phi c : col_ok phi c -> exists c' v, frc_get c phi = Ok (c', v) /\ col_ok phi c'.
Proof.
  intros [K1 K2 K3 (h & r & EC & HT)]. unfold frc_get. rewrite EC. destruct (qltbP phi (it_time h)) as [C|C]; [exfalso; qlra|].
  destruct (advance_ok phi r h HT) as (h' & r' & E & T & I). rewrite E. eexists. eexists. split; [reflexivity|]. constructor; cbn [c_fns c_acc c_chain]; try assumption.
  - intros it H. apply K3. rewrite EC. apply I, H.
  - eauto.
Qed.
Lemma col_later phi phi' c : phi <= phi' -> col_ok phi c -> col_ok phi' c.
Proof. intros L [K1 K2 K3 (h & r & EC & HT)]. constructor; try assumption. exists h, r. split; [exact EC|qlra]. Qed.

(** ** The flow *)
Lemma Forall_upd {B} (P : B -> Prop) : forall (l : list B) i x, Forall P l -> P x -> Forall P (upd l i x).
Proof. induction l as [|a l IH]; intros i x H X; [exact H|]. inversion H; subst. destruct i; cbn [upd]; constructor; auto. Qed.
Lemma getn_ok {B} (P : B -> Prop) (l : list B) i : Forall P l -> (i < length l)%nat -> exists x, getn l i = Ok x /\ P x.
Proof.
  intros H L. unfold getn. destruct (nth_error l i) as [x|] eqn:E; [|apply nth_error_None in E; lia]. exists x. split; [reflexivity|].
  eapply Forall_forall; [exact H|]. eapply nth_error_In, E.
Qed.
Section Run.
Variable nw : Net.
Hypothesis NW : net_ok nw.
Let N := length (n_cap nw).
Record inv (st : Flow) : Prop := {
  iv_in : length (f_in st) = N /\ Forall (col_ok (f_phi st)) (f_in st);
  iv_out : length (f_out st) = N /\ Forall (col_ok (f_phi st)) (f_out st);
  iv_q : length (f_q st) = N /\ Forall fn_ok (f_q st);
  iv_dq : dq_ok (f_dq st);
  iv_pend : forall e D ch, pend (f_dq st) e = Some (D, ch) -> (e < N)%nat /\ forall ct v, ch = Some (ct, v) -> f_phi st <= ct;
  iv_nd : sq_nd (f_changes st);
  iv_keys : forall it k, sq_key_of (f_changes st) it = Some k -> exists t, k = Fin t /\ f_phi st <= t }.
Definition inv_at (phi : Qc) (st : Flow) : Prop := inv st /\ f_phi st = phi.

Lemma tot_out phi st e t v s : inv_at phi st -> (e < N)%nat -> phi <= t ->
  tot (out_extend false st e t v s) (o_out_extend st e t v s) (fun st' => inv_at phi st' /\ f_dq st' = f_dq st).
Proof.
  intros [I EP] L T. destruct (getn_ok _ _ e (proj2 (iv_out st I))) as (c & E & K); [rewrite (proj1 (iv_out st I)); exact L|].
  unfold out_extend, o_out_extend, c_extend. rewrite E. cbn [bind chk andb]. eapply tot_bind; [apply tot_frc_extend, K|]. intros c' K'. apply tot_ret.
  split; [|reflexivity]. split; [|exact EP]. destruct I as [I1 I2 I3 I4 I5 I6 I7]. constructor; cbn [set_changes set_out f_phi f_in f_out f_q f_dq f_changes]; try assumption.
  - split; [rewrite upd_length; apply I2|apply Forall_upd; [apply I2|exact K']].
  - apply nd_set, I6.
  - intros it k. rewrite kof_set. destruct (eqb (e, t) it); [intro Q; injection Q as <-; exists t; split; [reflexivity|qlra]|apply I7].
Qed.
Lemma tot_queue phi st e t s : inv_at phi st -> (e < N)%nat ->
  tot (queue_extend false st e t s) (o_queue_extend st e t s) (fun st' => inv_at phi st' /\ f_dq st' = f_dq st).
Proof.
  intros [I EP] L. destruct (getn_ok _ _ e (proj2 (iv_q st I))) as (f & E & K); [rewrite (proj1 (iv_q st I)); exact L|].
  unfold queue_extend, o_queue_extend, q_extend. rewrite E. cbn [bind chk andb]. eapply tot_bind; [apply tot_ews, K|]. intros f' K'. apply tot_ret.
  split; [|reflexivity]. split; [|exact EP]. destruct I as [I1 I2 I3 I4 I5 I6 I7]. constructor; cbn [set_q f_phi f_in f_out f_q f_dq f_changes]; try assumption.
  split; [rewrite upd_length; apply I3|apply Forall_upd; [apply I3|exact K']].
Qed.
Lemma set_dq_inv phi st d e : inv_at phi st -> dq_ok d -> (e < N)%nat -> (forall j, j <> e -> pend d j = pend (f_dq st) j) ->
  (forall D ct v, pend d e = Some (D, Some (ct, v)) -> phi <= ct) -> inv_at phi (set_dq st d).
Proof.
  intros [I EP] K L O W. split; [|exact EP]. destruct I as [I1 I2 I3 I4 I5 I6 I7]. constructor; cbn [set_dq f_phi f_in f_out f_q f_dq f_changes]; try assumption.
  intros j D ch P. destruct (Nat.eq_dec j e) as [->|NE].
  - split; [exact L|]. intros ct v ->. rewrite EP. eapply W, P.
  - rewrite O in P by exact NE. apply (I5 j D ch P).
Qed.
Lemma tot_drop phi st e : inv_at phi st -> (e < N)%nat -> tot (drop_depletion st e) (drop_depletion st e) (inv_at phi).
Proof.
  intros I L. pose proof (iv_dq st (proj1 I)) as K. unfold drop_depletion. rewrite pend_has by exact K. pose proof (dq_remove_ok (f_dq st) e K) as R.
  destruct (pend (f_dq st) e) as [p|]; [|apply tot_ret, I]. destruct R as (q' & E & K' & P'). rewrite E. cbn [bind]. apply tot_ret. eapply set_dq_inv; try eassumption.
  - intros j NE. rewrite P'. destruct (Nat.eqb_spec e j); congruence.
  - intros D ct v. rewrite P', Nat.eqb_refl. discriminate.
Qed.
Lemma tot_set phi st e t ch : inv_at phi st -> (e < N)%nat -> (forall ct v, ch = Some (ct, v) -> phi <= ct) ->
  tot (d <- dq_set (f_dq st) e t ch ;; Ok (set_dq st d)) (d <- dq_set (f_dq st) e t ch ;; Ok (set_dq st d)) (inv_at phi).
Proof.
  intros I L W. destruct (dq_set_ok (f_dq st) e t ch (iv_dq st (proj1 I))) as (q' & E & K' & P'). rewrite E. cbn [bind]. apply tot_ret. eapply set_dq_inv; try eassumption.
  - intros j NE. rewrite P'. destruct (Nat.eqb_spec e j); congruence.
  - intros D ct v. rewrite P', Nat.eqb_refl. intro Q. injection Q as _ Q. eapply W, Q.
Qed.
Lemma captau e : (e < N)%nat -> exists cap tau, getn (n_cap nw) e = Ok cap /\ getn (n_tau nw) e = Ok tau /\ 0 < cap /\ 0 <= tau.
Proof.
  intro L. destruct NW as (E & C & T). destruct (getn_ok (fun c => 0 < c) (n_cap nw) e) as (cap & E1 & P1); [apply Forall_forall, C|exact L|].
  destruct (getn_ok (fun c => 0 <= c) (n_tau nw) e) as (tau & E2 & P2); [apply Forall_forall, T|rewrite E; exact L|]. eauto 8.
Qed.
Lemma assert_ok st e t : inv st -> (e < N)%nat -> (exists a, assert_depleted st e t = Ok a) \/ assert_depleted st e t = Err AssertionError.
Proof.
  intros I L. destruct (getn_ok _ _ e (proj2 (iv_q st I))) as (f & E & K); [rewrite (proj1 (iv_q st I)); exact L|]. unfold assert_depleted. rewrite E. cbn [bind].
  destruct (tot_checked _ _ _ (tot_eval f t K)) as [[v ->] | ->]; cbn [bind]; [|auto]. destruct (qltb v eps1000); [left; exists tt; reflexivity|right; reflexivity].
Qed.
Lemma tot_i phi st e q : inv_at phi st -> (e < N)%nat -> 0 <= q -> tot (case_i false nw st e q) (o_case_i nw st e q) (inv_at phi).
Proof.
  intros I L Q. destruct (captau e L) as (cap & tau & E1 & E2 & C & T). unfold case_i, o_case_i. rewrite E1, E2. cbn [bind]. rewrite pydiv_ok by qlra. cbn [bind].
  pose proof (qdiv_nonneg q cap Q C) as W. pose proof (proj2 I) as EP.
  eapply tot_bind; [apply tot_out; [exact I|exact L|rewrite EP; qlra]|]. intros st1 [I1 _]. eapply tot_bind; [apply tot_queue; [exact I1|exact L]|]. intros st2 [I2 _].
  destruct (qltb 0 q); [|apply tot_drop; assumption]. apply tot_skip; [apply assert_ok; [apply I2|exact L]|]. apply tot_set; [exact I2|exact L|]. discriminate.
Qed.
Lemma tot_ii phi st e nf q a : inv_at phi st -> (e < N)%nat -> 0 <= q -> a <> 0 -> tot (case_ii false nw st e nf q a) (o_case_ii nw st e nf q a) (inv_at phi).
Proof.
  intros I L Q A. destruct (captau e L) as (cap & tau & E1 & E2 & C & T). unfold case_ii, o_case_ii. rewrite E1, E2. cbn [bind chk andb]. rewrite pydiv_ok by qlra. cbn [bind].
  pose proof (qdiv_nonneg q cap Q C) as W. pose proof (proj2 I) as EP. rewrite pydiv_ok by exact A. cbn [bind]. cbv zeta.
  eapply tot_bind; [apply tot_out; [exact I|exact L|rewrite EP; qlra]|]. intros st1 [I1 _]. eapply tot_bind; [apply tot_queue; [exact I1|exact L]|]. intros st2 [I2 _].
  apply tot_drop; assumption.
Qed.
Lemma tot_iii phi st e nf q a : inv_at phi st -> (e < N)%nat -> 0 <= q -> a <> 0 -> a < cap_of nw e - eps -> tot (case_iii false nw st e nf q a) (o_case_iii nw st e nf q a) (inv_at phi).
Proof.
  intros I L Q A LT. destruct (captau e L) as (cap & tau & E1 & E2 & C & T). pose proof (cap_pos nw NW e cap E1) as [_ EC]. rewrite <- EC in LT. pose proof eps_pos as EPS.
  unfold case_iii, o_case_iii. rewrite E1, E2. cbn [bind]. rewrite pydiv_ok by qlra. cbn [bind].
  pose proof (qdiv_nonneg q cap Q C) as W. pose proof (proj2 I) as EP. rewrite pydiv_ok by exact A. cbn [bind]. cbv zeta.
  eapply tot_bind; [apply tot_out; [exact I|exact L|rewrite EP; qlra]|]. intros st1 [I1 _]. eapply tot_bind; [apply tot_queue; [exact I1|exact L]|]. intros st2 [I2 _].
  rewrite pydiv_ok by qlra. cbn [bind]. apply tot_skip; [apply assert_ok; [apply I2|exact L]|]. apply tot_set; [exact I2|exact L|]. intros ct v H. injection H as <- _.
  assert (DP : 0 <= q / (cap - a)) by (apply qdiv_nonneg; qlra).
  replace (q / (a - cap)) with (- (q / (cap - a))) by (field; split; qlra). rewrite EP. qlra.
Qed.
Lemma tot_edge phi st p : inv_at phi st -> (fst p < N)%nat -> tot (extend_edge false nw st p) (o_extend_edge nw st p) (inv_at phi).
Proof.
  intros I L. destruct p as [e nf]. cbn [fst snd] in L. unfold extend_edge, o_extend_edge. cbn [fst snd].
  destruct (getn_ok _ _ e (proj2 (iv_in st (proj1 I)))) as (c & E & K); [rewrite (proj1 (iv_in st (proj1 I))); exact L|]. rewrite E. cbn [bind].
  destruct (frc_get_ok _ c K) as (c1 & old & E1 & K1). rewrite E1. cbn [bind].
  assert (SI : forall st c, inv_at phi st -> col_ok phi c -> inv_at phi (set_in st (upd (f_in st) e c))).
  { clear. intros st c [I EP] K. split; [|exact EP]. destruct I as [I1 I2 I3 I4 I5 I6 I7]. constructor; cbn [set_in f_phi f_in f_out f_q f_dq f_changes]; try assumption.
    split; [rewrite upd_length; apply I1|apply Forall_upd; [apply I1|rewrite EP; exact K]]. }
  rewrite (proj2 I) in K1. pose proof (SI st c1 I K1) as I1. destruct (rates_eqb old nf); [apply tot_ret, I1|].
  cbv zeta. set (st1 := set_in st (upd (f_in st) e c1)) in *.
  destruct (getn_ok _ _ e (proj2 (iv_q st1 (proj1 I1)))) as (f & E2 & K2); [rewrite (proj1 (iv_q st1 (proj1 I1))); exact L|]. rewrite E2. cbn [bind].
  eapply tot_bind; [apply tot_efe, K2|]. intros qv _. assert (Q : 0 <= qmax qv 0) by (qmm; qlra).
  unfold c_extend. cbn [bind chk andb]. eapply tot_bind; [apply tot_frc_extend, K1|]. intros c2 K3. pose proof (SI st1 c2 I1 K3) as I2.
  set (st2 := set_in st1 (upd (f_in st1) e c2)) in *. destruct (qeqbP (rates_sum nf) 0) as [Z|Z]; [apply tot_i; assumption|].
  destruct (captau e L) as (cap & tau & E3 & _ & C & _). pose proof (cap_pos nw NW e cap E3) as [_ EC]. rewrite E3. cbn [bind].
  destruct (qeqb (qmax qv 0) 0); cbn [orb]; [apply tot_ii; assumption|]. destruct (qlebP (cap - eps) (rates_sum nf)) as [G|G]; [apply tot_ii; assumption|].
  apply tot_iii; try assumption. rewrite <- EC. qlra.
Qed.
Lemma tot_deplete phi st : inv_at phi st -> (0 <? dq_len (f_dq st))%nat = true ->
  tot (deplete_one false st) (o_deplete_one st) (fun st' => inv_at phi st' /\ (dq_len (f_dq st') < dq_len (f_dq st))%nat).
Proof.
  intros I LP. pose proof (iv_dq st (proj1 I)) as K. unfold deplete_one, o_deplete_one. destruct (dq_pop_ok (f_dq st) K) as [[P _]|(d & e & D & ch & E & P & _ & K' & P' & LD & _)].
  { exfalso. destruct (len_pos' _ LP (dk_nd1 _ K)) as [it H]. apply H. rewrite (pend_depl _ _ K), P. reflexivity. }
  rewrite E. cbn [bind]. destruct (iv_pend st (proj1 I) e D ch P) as [L W].
  assert (I0 : inv_at phi (set_dq st d)).
  { eapply set_dq_inv; try eassumption; [intros j NE; rewrite P'; destruct (Nat.eqb_spec e j); congruence|]. intros D' ct v. rewrite P', Nat.eqb_refl. discriminate. }
  eapply tot_bind; [apply tot_queue; [exact I0|exact L]|]. intros st1 [I1 ED]. destruct (getn_ok _ _ e (proj2 (iv_q st1 (proj1 I1)))) as (f & E2 & K2); [rewrite (proj1 (iv_q st1 (proj1 I1))); exact L|]. rewrite E2. cbn [bind].
  rewrite (pyget_last (pl_values f) 0) by (apply fn_vals, K2). cbn [bind]. apply tot_assert. cbv zeta. set (st2 := set_q st1 _).
  assert (I2 : inv_at phi st2).
  { destruct I1 as [I1 EP]. split; [|exact EP]. destruct I1 as [J1 J2 J3 J4 J5 J6 J7]. unfold st2. constructor; cbn [set_q f_phi f_in f_out f_q f_dq f_changes]; try assumption.
    split; [rewrite upd_length; apply J3|apply Forall_upd; [apply J3|]]. constructor; cbn [pl_times pl_values]; [apply K2|rewrite set_nth_length; apply K2|apply K2]. }
  assert (DL : (dq_len (f_dq st2) < dq_len (f_dq st))%nat) by (unfold st2; cbn [set_q f_dq]; rewrite ED; exact LD).
  destruct ch as [[ct [v s]]|].
  - eapply tot_weaken; [apply tot_out; [exact I2|exact L|]|]; [rewrite <- (proj2 I); apply (W ct (v, s)); reflexivity|]. cbn beta. intros a [A B]. split; [exact A|rewrite B; exact DL].
  - apply tot_ret. split; assumption.
Qed.
Lemma tot_process phi : forall fuel st, inv_at phi st -> (dq_len (f_dq st) < fuel)%nat -> tot (process_depletions fuel false st) (o_process_depletions fuel st) (inv_at phi).
Proof.
  induction fuel as [|n IH]; intros st I L; [lia|]. cbn [process_depletions o_process_depletions]. destruct (ext_leb _ _); cbn [andb]; [|apply tot_ret, I].
  destruct (0 <? dq_len (f_dq st))%nat eqn:P; [|apply tot_ret, I]. eapply tot_bind; [apply (tot_deplete phi st I P)|]. intros st' [I' L']. apply IH; [exact I'|lia].
Qed.
Lemma tot_pops phi : forall fuel st acc, inv_at phi st -> (sq_len (f_changes st) < fuel)%nat ->
  tot (pop_changes fuel st acc) (pop_changes fuel st acc) (fun p => inv_at phi (fst p)).
Proof.
  induction fuel as [|n IH]; intros st acc I L; [lia|]. cbn [pop_changes]. destruct (ext_leb _ _); cbn [andb]; [|apply tot_ret, I].
  destruct (0 <? sq_len (f_changes st))%nat eqn:P; [|apply tot_ret, I]. pose proof (iv_nd st (proj1 I)) as ND.
  destruct (pop_total (f_changes st) (len_pos' _ P ND)) as (c & it & E). rewrite E. cbn [bind]. destruct (pop_ok _ _ _ ND E) as [-> EK]. apply IH.
  - destruct I as [I EP]. split; [|exact EP]. destruct I as [J1 J2 J3 J4 J5 J6 J7]. constructor; cbn [set_changes f_phi f_in f_out f_q f_dq f_changes]; try assumption.
    + apply nd_drop, ND.
    + intros it' k. rewrite kof_drop. destruct (eqb it it'); [discriminate|apply J7].
  - cbn [set_changes f_changes]. assert (sq_len (sq_drop (f_changes st) it) < sq_len (f_changes st))%nat by (apply drop_len; rewrite kof_has, EK; reflexivity). lia.
Qed.
Lemma tot_extend st ni maxt : inv st -> (forall e d, In (e, d) ni -> (e < N)%nat) -> f_phi st <= maxt ->
  tot (flow_extend false nw st ni maxt) (o_flow_extend nw st ni maxt) (fun p => inv (fst p) /\ f_phi st <= f_phi (fst p) /\ f_phi (fst p) <= maxt).
Proof.
  intros I ED T. unfold flow_extend, o_flow_extend.
  eapply tot_bind; [apply (tot_foldM _ _ (inv_at (f_phi st)) (fun p => (fst p < N)%nat)); [intros; apply tot_edge; assumption|intros [e d] H; apply (ED e d H)|split; [exact I|reflexivity]]|].
  intros st1 [I1 E1].
  assert (X : exists phi', ext_min (ext_min (dq_min_change (f_dq st1)) (sq_min_key (f_changes st1))) (Fin maxt) = Fin phi' /\ f_phi st1 <= phi' <= maxt /\
              ext_le (Fin phi') (dq_min_change (f_dq st1)) /\ ext_le (Fin phi') (sq_min_key (f_changes st1))).
  { assert (A : dq_min_change (f_dq st1) = PInf \/ exists x, dq_min_change (f_dq st1) = Fin x /\ f_phi st1 <= x).
    { destruct (dq_min_change_ok _ (iv_dq st1 I1)) as [[A _]|(x & A & (e & D & v & P) & _)]; [left; exact A|right]. exists x. split; [exact A|]. destruct (iv_pend st1 I1 e D _ P) as [_ W]. apply (W x v). reflexivity. }
    assert (B : sq_min_key (f_changes st1) = PInf \/ exists x, sq_min_key (f_changes st1) = Fin x /\ f_phi st1 <= x).
    { destruct (min_key_ex _ (iv_nd st1 I1)) as [[A' _]|[it A']]; [left; exact A'|right]. destruct (iv_keys st1 I1 _ _ A') as (t & Q & W). rewrite Q. eauto. }
    rewrite <- E1 in T. destruct A as [-> | (x & -> & A)], B as [-> | (y & -> & B)]; unfold ext_min, ext_ltb; cbn [ext_leb negb];
      repeat match goal with |- context [qleb ?a ?b] => destruct (qlebP a b) end; cbn [ext_leb negb];
      repeat match goal with |- context [qleb ?a ?b] => destruct (qlebP a b) end;
      eexists; (split; [reflexivity|]); cbn [ext_le]; repeat split; try exact Logic.I; qlra. }
  destruct X as (phi' & -> & [PL PM] & PD & PK). cbv zeta.
  assert (I2 : inv_at phi' (set_phi st1 phi')).
  { split; [|reflexivity]. destruct I1 as [J1 J2 J3 J4 J5 J6 J7]. constructor; cbn [set_phi f_phi f_in f_out f_q f_dq f_changes]; try assumption.
    - split; [apply J1|]. eapply Forall_impl; [|apply J1]. intros c. apply col_later, PL.
    - split; [apply J2|]. eapply Forall_impl; [|apply J2]. intros c. apply col_later, PL.
    - intros e D ch P. split; [apply (J5 e D ch P)|]. intros ct v ->. destruct (dq_min_change_ok _ J4) as [[_ A]|(x & A & _ & B)]; [exfalso; apply (A ct); eauto|].
      rewrite A in PD. cbn [ext_le] in PD. assert (x <= ct) by (apply B; eauto). qlra.
    - intros it k H. destruct (J7 it k H) as (t & -> & W). exists t. split; [reflexivity|]. pose proof (min_key_le _ _ _ H) as G.
      destruct (sq_min_key (f_changes st1)) as [|m|]; cbn [ext_le] in *; try contradiction. qlra. }
  eapply tot_bind; [apply tot_process; [exact I2|lia]|]. intros st3 I3. eapply tot_weaken; [apply (tot_pops phi' _ st3 []); [exact I3|lia]|].
  cbn beta. intros [st' l] [A B]. cbn [fst] in *. rewrite B, <- E1. split; [exact A|]. split; assumption.
Qed.
Lemma init_tot : tot (flow_init nw) (o_flow_init nw) (fun st => inv st /\ f_phi st = 0).
Proof.
  unfold flow_init, o_flow_init. eapply tot_bind with (P := fun c => c = frc_empty).
  - exists frc_empty. split; [vm_compute; reflexivity|]. split; [reflexivity|]. left. apply frc_init_nil.
  - intros c ->. cbv zeta. apply tot_ret. split; [|reflexivity].
    assert (C : col_ok 0 frc_empty).
    { constructor; cbn.
      - intros i f H. discriminate.
      - constructor; [discriminate|reflexivity|]. intros i H. cbn in H. lia.
      - intros it [<-|[]] i H. exfalso. apply H. reflexivity.
      - exists (mkItem 0 []), []. split; [reflexivity|]. apply Qcle_refl. }
    assert (Q : fn_ok queue0) by (constructor; [discriminate|reflexivity|intros i H; cbn in H; lia]).
    constructor; cbn [f_phi f_in f_out f_q f_dq f_changes].
    + split; [apply repeat_length|apply Forall_forall; intros x H; apply repeat_spec in H; subst x; exact C].
    + split; [apply repeat_length|apply Forall_forall; intros x H; apply repeat_spec in H; subst x; exact C].
    + split; [apply repeat_length|apply Forall_forall; intros x H; apply repeat_spec in H; subst x; exact Q].
    + apply dq_empty_ok.
    + intros e D ch H. rewrite dq_empty_pend in H. discriminate.
    + apply nd_empty.
    + intros it k H. rewrite kof_empty in H. discriminate.
Qed.
Lemma step_tot st c : inv st -> match c with CExtend ni maxt => (forall e d, In (e, d) ni -> (e < N)%nat) /\ f_phi st <= maxt | COutflow e => (e < N)%nat end ->
  tot (flow_step false nw st c) (o_flow_step nw st c) (fun p => inv (fst p) /\ f_phi st <= f_phi (fst p) /\ match c with CExtend _ maxt => f_phi (fst p) <= maxt | COutflow _ => f_phi (fst p) = f_phi st end).
Proof.
  intros I H. destruct c as [ni maxt|e]; cbn [flow_step o_flow_step]; [apply tot_extend; tauto|].
  destruct (getn_ok _ _ e (proj2 (iv_out st I))) as (c & E & K); [rewrite (proj1 (iv_out st I)); exact H|]. rewrite E. cbn [bind].
  destruct (frc_get_ok _ c K) as (c1 & old & E1 & K1). rewrite E1. cbn [bind]. apply tot_ret. cbn [fst]. split; [|split; [apply Qcle_refl|reflexivity]].
  destruct I as [I1 I2 I3 I4 I5 I6 I7]. constructor; cbn [set_out f_phi f_in f_out f_q f_dq f_changes]; try assumption.
  split; [rewrite upd_length; apply I2|apply Forall_upd; [apply I2|exact K1]].
Qed.
End Run.
