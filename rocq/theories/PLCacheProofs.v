(** * Cached calls return what the pure functions return *)
From Verif Require Import Base Arrays PL PL2 PQ PLCache.
From Coq Require Import Lia.

Lemma ekey_eqbP a b : reflect (a = b) (ekey_eqb a b).
Proof.
  destruct a as [[a1 a2] a3], b as [[b1 b2] b3]. unfold ekey_eqb. cbn [fst snd].
  destruct (Nat.eqb_spec a1 b1); cbn [andb]; [|constructor; congruence].
  destruct (ext_eqbP a2 b2); cbn [andb]; [|constructor; congruence].
  destruct (Z.eqb_spec a3 b3); constructor; congruence.
Qed.
Lemma gkey_eqbP a b : reflect (a = b) (gkey_eqb a b).
Proof.
  destruct a as [a1 a3], b as [b1 b3]. unfold gkey_eqb. cbn [fst snd].
  destruct (Nat.eqb_spec a1 b1); cbn [andb]; [|constructor; congruence].
  destruct (Z.eqb_spec a3 b3); constructor; congruence.
Qed.
Lemma ckey_eqbP a b : reflect (a = b) (ckey_eqb a b).
Proof.
  destruct a as [a1 a3], b as [b1 b3]. unfold ckey_eqb. cbn [fst snd].
  destruct (Nat.eqb_spec a1 b1); cbn [andb]; [|constructor; congruence].
  destruct (Nat.eqb_spec a3 b3); constructor; congruence.
Qed.
Lemma lookup_in {K V} (eqb : K -> K -> bool) (E : forall a b, reflect (a = b) (eqb a b)) k (v : V) l :
  lookup eqb k l = Some v -> In (k, v) l.
Proof.
  unfold lookup. destruct (find _ l) as [[k' v']|] eqn:F; intro H; [|discriminate H].
  injection H as <-. apply find_some in F as [I Q]. cbn in Q. destruct (E k k') as [->|]; [exact I|discriminate Q].
Qed.
Lemma touch_in {K V} (eqb : K -> K -> bool) k (v : V) l p : In p (touch eqb k v l) -> p = (k, v) \/ In p l.
Proof. unfold touch. intros [<-|H]; [now left|]. right. now apply filter_In in H as [? _]. Qed.
Lemma insert_in {K V} k (v : V) (l : list (K * V)) p : In p (insert k v l) -> p = (k, v) \/ In p l.
Proof.
  unfold insert. intro H.
  assert (G : In p ((k, v) :: l)) by (rewrite <- (firstn_skipn 128 ((k, v) :: l)); apply in_or_app; now left).
  destruct G as [<-|G]; auto.
Qed.
Global Opaque insert touch lookup.

(** The cached function of three arguments. *)
Definition eval_rank_ext (f : PL) (at_ : ext) (rnk : Z) : res ext :=
  match at_ with
  | Fin a => rmap Fin (eval_with_rank f a rnk)
  | e => pl_eval_ext f e
  end.

Definition gr_ok (s : store) (l : list (gkey * Qc)) : Prop :=
  forall o i v, In ((o, i), v) l -> (f <- view s o ;; gradient f i) = Ok v.
Definition ev_ok (s : store) (l : list (ekey * ext)) : Prop :=
  forall o a r v, In ((o, a, r), v) l -> (f <- view s o ;; eval_rank_ext f a r) = Ok v.
Definition co_ok (s : store) (l : list (ckey * nat)) : Prop :=
  forall g f o, In ((g, f), o) l -> exists p, view s o = Ok p /\ (pg <- view s g ;; pf <- view s f ;; compose pg pf) = Ok p.
Definition consistent (h : heap) : Prop :=
  gr_ok (h_st h) (h_gr h) /\ ev_ok (h_st h) (h_ev h) /\ co_ok (h_st h) (h_co h).

Definition agrees {A} (s : store) (m : M A) (r : res A) : Prop :=
  forall h, h_st h = s -> consistent h ->
    fst (m h) = r /\ h_st (snd (m h)) = s /\ consistent (snd (m h)).

Lemma ag_ret {A} s (r : res A) : agrees s (ret r) r.
Proof. intros h E C. cbn. auto. Qed.
Lemma ag_bind {A B} s (m : M A) (k : A -> M B) r k' :
  agrees s m r -> (forall a, r = Ok a -> agrees s (k a) (k' a)) -> agrees s (mbind m k) (bind r k').
Proof.
  intros H1 H2 h E C. destruct (H1 h E C) as (Q1 & Q2 & Q3). unfold mbind.
  destruct (m h) as [[a|e] h']; cbn [fst snd] in *; subst r.
  - cbn [bind]. exact (H2 a eq_refl h' Q2 Q3).
  - cbn [bind fst snd]. auto.
Qed.
Lemma ag_read {B} s o f (k : PL -> M B) r : view s o = Ok f -> agrees s (k f) r -> agrees s (mbind (read o) k) r.
Proof. intros V H h E C. unfold mbind, read. rewrite E, V. exact (H h E C). Qed.
Lemma ag_retb {A B} s (r : res A) (k : A -> M B) k' :
  (forall a, r = Ok a -> agrees s (k a) (k' a)) -> agrees s (mbind (ret r) k) (bind r k').
Proof. apply ag_bind, ag_ret. Qed.

Lemma ag_gradient s o i f : view s o = Ok f -> agrees s (gradient_m o i) (gradient f i).
Proof.
  intros V h E C. unfold gradient_m. destruct C as (C1 & C2 & C3).
  destruct (lookup gkey_eqb (o, i) (h_gr h)) as [v|] eqn:L.
  - apply (lookup_in _ gkey_eqbP) in L. pose proof (C1 _ _ _ L) as Q. rewrite E, V in Q. cbn [bind] in Q.
    cbn [fst snd]. rewrite Q. repeat split; try assumption.
    intros o' i' v' I. apply touch_in in I as [I|I]; [injection I as -> -> ->|now apply C1].
    cbn [with_gr h_st]. rewrite E, V. exact Q.
  - rewrite E, V. cbn [bind]. destruct (gradient f i) as [v|e] eqn:G; cbn [fst snd]; repeat split; try assumption.
    intros o' i' v' I. apply insert_in in I as [I|I]; [injection I as -> -> ->|now apply C1].
    cbn [with_gr h_st]. rewrite E, V. exact G.
Qed.

Ltac ag := repeat first
  [ eapply ag_read; [eassumption|]
  | apply ag_ret
  | apply ag_retb; intros ? ?
  | apply ag_bind; [now apply ag_gradient|intros ? ?]
  | progress cbv zeta
  | match goal with |- agrees _ (if ?b then _ else _) _ => destruct b end
  | match goal with |- agrees _ (let '(_, _) := ?p in _) _ => destruct p end ].

Lemma bind_assoc {A B C} (x : res A) (k : A -> res B) (k' : B -> res C) :
  bind (bind x k) k' = bind x (fun a => bind (k a) k').
Proof. destruct x; reflexivity. Qed.

Lemma ag_body s o a r f : view s o = Ok f -> agrees s (eval_body o a r) (eval_rank_ext f a r).
Proof.
  intro V. unfold eval_body. eapply ag_read; [exact V|]. destruct a as [|a|]; cbn [eval_rank_ext pl_eval_ext].
  - ag. destruct (qeqb a0 0); apply ag_ret.
  - unfold rmap, eval_with_rank. rewrite !bind_assoc.
    apply ag_retb; intros ? ?. rewrite ?bind_assoc. apply ag_retb; intros ? ?. rewrite ?bind_assoc.
    apply ag_retb; intros t0 ?. rewrite ?bind_assoc. apply ag_retb; intros ? ?. rewrite ?bind_assoc.
    apply ag_retb; intros tl ?. rewrite ?bind_assoc. apply ag_retb; intros ? ?. rewrite ?bind_assoc.
    apply ag_retb; intros ? ?.
    destruct (r =? -1)%Z; [|destruct (r =? pl_len f - 1)%Z]; repeat first [progress rewrite !bind_assoc | progress ag].
  - ag. destruct (qeqb a0 0); apply ag_ret.
Qed.
Lemma ag_eval_rank s o a r f : view s o = Ok f -> agrees s (eval_with_rank_m o a r) (eval_rank_ext f a r).
Proof.
  intros V h E C. unfold eval_with_rank_m. pose proof C as (C1 & C2 & C3).
  destruct (lookup ekey_eqb (o, a, r) (h_ev h)) as [v|] eqn:L.
  - apply (lookup_in _ ekey_eqbP) in L. pose proof (C2 _ _ _ _ L) as Q. rewrite E, V in Q. cbn [bind] in Q.
    cbn [fst snd]. rewrite Q. repeat split; try assumption.
    intros o' a' r' v' I. apply touch_in in I as [I|I]; [injection I as -> -> -> ->|now apply C2].
    cbn [with_ev h_st]. rewrite E, V. exact Q.
  - destruct (ag_body s o a r f V h E C) as (Q1 & Q2 & Q3 & Q4 & Q5).
    destruct (eval_body o a r h) as [[v|e] h']; cbn [fst snd] in *; repeat split; try assumption.
    intros o' a' r' v' I. apply insert_in in I as [I|I]; [injection I as -> -> -> ->|now apply Q4].
    cbn [with_ev h_st]. rewrite Q2, V. cbn [bind]. congruence.
Qed.

Lemma ag_eval s o a f : view s o = Ok f -> agrees s (eval_m o a) (pl_eval_ext f a).
Proof.
  intro V. unfold eval_m. eapply ag_read; [exact V|].
  destruct a as [|a|].
  - intros h E C. unfold mbind, ret. cbn [ext_leb elem_rank_ext pl_eval_ext].
    rewrite Bool.andb_true_r. destruct (ext_leb (pl_lo f) NInf) eqn:L; cbn [assertb bind].
    + destruct (ag_eval_rank s o NInf (-1) f V h E C) as (Q1 & Q2). split; [|exact Q2].
      rewrite Q1. cbn [eval_rank_ext pl_eval_ext]. rewrite L. reflexivity.
    + auto.
  - cbn [pl_eval_ext]. unfold pl_eval. rewrite ?bind_assoc. apply ag_retb; intros _ _.
    rewrite ?bind_assoc. cbn [elem_rank_ext]. apply ag_retb; intros r _. exact (ag_eval_rank s o (Fin a) r f V).
  - intros h E C. unfold mbind, ret. cbn [elem_rank_ext pl_eval_ext].
    assert (L0 : ext_leb (pl_lo f) PInf = true) by (destruct (pl_lo f); reflexivity).
    rewrite L0. cbn [andb]. destruct (ext_leb PInf (pl_hi f)) eqn:L; cbn [assertb bind].
    + destruct (ag_eval_rank s o PInf (zlen (pl_times f) - 1) f V h E C) as (Q1 & Q2). split; [|exact Q2].
      rewrite Q1. cbn [eval_rank_ext pl_eval_ext]. rewrite L. reflexivity.
    + auto.
Qed.
Lemma ag_eval_fin s o a f : view s o = Ok f -> agrees s (eval_fin_m o a) (pl_eval f a).
Proof.
  intros V h E C. destruct (ag_eval s o (Fin a) f V h E C) as (Q1 & Q2 & Q3).
  unfold eval_fin_m, mbind. cbn [pl_eval_ext] in Q1.
  destruct (eval_m o (Fin a) h) as [[y|e] h']; cbn [fst snd ret] in *;
    destruct (pl_eval f a) as [q|e']; cbn [bind] in Q1; try discriminate Q1.
  - injection Q1 as ->. cbn [fst snd]. auto.
  - injection Q1 as ->. auto.
Qed.
Lemma ag_from_end s o a f : view s o = Ok f -> agrees s (eval_from_end_m o a) (rmap Fin (eval_from_end f a)).
Proof.
  intro V. unfold eval_from_end_m. eapply ag_read; [exact V|]. unfold rmap, eval_from_end.
  rewrite ?bind_assoc. apply ag_retb; intros _ _. rewrite ?bind_assoc. apply ag_retb; intros r _.
  exact (ag_eval_rank s o (Fin a) r f V).
Qed.
Lemma ag_image s o f : view s o = Ok f -> agrees s (image_m o) (image f).
Proof.
  intro V. unfold image_m. eapply ag_read; [exact V|]. unfold image.
  apply ag_retb; intros _ _. apply ag_bind; [now apply ag_eval|intros ? _].
  apply ag_bind; [now apply ag_eval|intros ? _]. apply ag_ret.
Qed.
Lemma ag_inverse s o x i f : view s o = Ok f -> agrees s (inverse_m o x i) (inverse f x i).
Proof.
  intro V. unfold inverse_m. eapply ag_read; [exact V|].
  destruct (i =? -1)%Z eqn:E1; [|destruct (i =? pl_len f - 1)%Z eqn:E2].
  - unfold inverse. rewrite E1. ag.
  - unfold inverse. rewrite E1, E2. ag.
  - assert (Q : inverse f x i = (_ <- assertb ((-1 <=? i)%Z && (i <? pl_len f)%Z) ;; inverse f x i)).
    { unfold inverse. destruct (assertb _); reflexivity. }
    assert (G : agrees s (_ <-- ret (assertb ((-1 <=? i)%Z && (i <? pl_len f)%Z)%bool) ;;; ret (inverse f x i))
                  (_ <- assertb ((-1 <=? i)%Z && (i <? pl_len f)%Z) ;; inverse f x i))
      by (apply ag_retb; intros _ _; apply ag_ret).
    rewrite <- Q in G. exact G.
Qed.

Lemma ag_foldM {A S} s (f : S -> A -> M S) (f' : S -> A -> res S) l st :
  (forall st x, agrees s (f st x) (f' st x)) -> agrees s (foldMM f l st) (foldM f' l st).
Proof.
  intro H. revert st. induction l as [|x l IH]; intro st; cbn [foldMM foldM]; [apply ag_ret|].
  apply ag_bind; [apply H|intros s' _; apply IH].
Qed.
Lemma ag_mapM {A B} s (f : A -> M B) (f' : A -> res B) l :
  (forall x, agrees s (f x) (f' x)) -> agrees s (mapMM f l) (mapM f' l).
Proof.
  intro H. induction l as [|x l IH]; cbn [mapMM mapM]; [apply ag_ret|].
  apply ag_bind; [apply H|intros y _]. apply ag_bind; [exact IH|intros ys _]. apply ag_ret.
Qed.

Lemma ag_while s og of_ g f (Vg : view s og = Ok g) (Vf : view s of_ = Ok f) im0 i_f bound : forall n i_g pts,
  agrees s (comp_while_m n og of_ im0 i_f bound i_g pts) (comp_while n g f im0 i_f bound i_g pts).
Proof.
  induction n as [|n IH]; intros i_g pts; cbn [comp_while_m comp_while]; [apply ag_ret|].
  eapply ag_read; [exact Vg|]. destruct (i_g <? pl_len g)%Z; [|apply ag_ret].
  apply ag_retb; intros tg _. destruct (ext_leb (Fin tg) bound); [|apply ag_ret].
  apply ag_retb; intros next _. apply ag_bind; [now apply ag_gradient|intros sl _].
  apply ag_bind; [|intros pts' _; apply IH].
  destruct (qeqb sl 0); [apply ag_ret|]. apply ag_bind; [now apply ag_inverse|intros x _].
  destruct (match pts with [] => true | (t, _) :: _ => qltb (t + eps) x end); [|apply ag_ret].
  apply ag_bind; [now apply ag_eval_fin|intros y _; apply ag_ret].
Qed.
Lemma ag_comp_step s og of_ g f (Vg : view s og = Ok g) (Vf : view s of_ = Ok f) im0 st n :
  agrees s (comp_step_m og of_ im0 st n) (comp_step g f im0 st n).
Proof.
  unfold comp_step_m, comp_step. cbv zeta. eapply ag_read; [exact Vg|]. eapply ag_read; [exact Vf|].
  apply ag_retb; intros v _. apply ag_bind; [now apply ag_while|intros [j pts] _].
  apply ag_retb; intros t _.
  destruct (match pts with [] => true | (t', _) :: _ => qltb (t' + eps) t end); [|apply ag_ret].
  apply ag_bind; [now apply ag_eval_fin|intros y _; apply ag_ret].
Qed.
Lemma ag_compose s og of_ g f : view s og = Ok g -> view s of_ = Ok f -> agrees s (compose_body og of_) (compose g f).
Proof.
  intros Vg Vf. unfold compose_body, compose. eapply ag_read; [exact Vg|]. eapply ag_read; [exact Vf|].
  apply ag_retb; intros _ _. apply ag_bind; [now apply ag_image|intros [im0 im1] _].
  apply ag_retb; intros _ _. apply ag_retb; intros gr _. apply ag_bind; [now apply ag_gradient|intros gs _].
  cbv zeta. apply ag_retb; intros _ _.
  apply ag_bind; [apply ag_foldM; intros; now apply ag_comp_step|intros st _].
  apply ag_bind; [now apply ag_while|intros [j pts] _].
  apply ag_bind; [now apply ag_gradient|intros ls _]. apply ag_ret.
Qed.

(** ** Stores *)
Lemma getn_app {B} (l r : list B) i x : getn l i = Ok x -> getn (l ++ r) i = Ok x.
Proof.
  unfold getn. destruct (nth_error l i) eqn:E; intro H; [|discriminate H].
  rewrite nth_error_app1; [now rewrite E|]. apply nth_error_Some. congruence.
Qed.
Lemma getn_new {B} (l : list B) x r : getn (l ++ x :: r) (length l) = Ok x.
Proof. unfold getn. rewrite nth_error_app2, Nat.sub_diag by lia. reflexivity. Qed.
Lemma getn_new2 {B} (l : list B) x y r : getn (l ++ x :: y :: r) (S (length l)) = Ok y.
Proof. unfold getn. rewrite nth_error_app2 by lia. replace (S (length l) - length l)%nat with 1%nat by lia. reflexivity. Qed.
Lemma getn_lt {B} (l : list B) i x : getn l i = Ok x -> (i < length l)%nat.
Proof. unfold getn. destruct (nth_error l i) eqn:E; intro H; [|discriminate H]. apply nth_error_Some. congruence. Qed.
Lemma getn_some {B} (l : list B) i : (i < length l)%nat -> exists x, getn l i = Ok x.
Proof. intro H. unfold getn. destruct (nth_error l i) eqn:E; [eauto|]. apply nth_error_None in E. lia. Qed.
Lemma upd_len {B} (l : list B) i x : length (upd l i x) = length l.
Proof. revert i; induction l as [|a l IH]; intros [|i]; cbn; auto. Qed.
Lemma getn_upd_same {B} (l : list B) i x : (i < length l)%nat -> getn (upd l i x) i = Ok x.
Proof.
  unfold getn. revert i; induction l as [|a l IH]; intros [|i] H; cbn in *; try lia; auto. apply IH. lia.
Qed.
Lemma getn_upd_other {B} (l : list B) i j x : i <> j -> getn (upd l i x) j = getn l j.
Proof.
  unfold getn. revert i j; induction l as [|a l IH]; intros [|i] [|j] H; cbn; auto; congruence.
Qed.

Lemma view_inv s o f : view s o = Ok f -> exists ob, getn (s_objs s) o = Ok ob /\
  getn (s_cells s) (o_t ob) = Ok (pl_times f) /\ getn (s_cells s) (o_v ob) = Ok (pl_values f) /\
  f = mkPL (pl_times f) (pl_values f) (o_first ob) (o_last ob) (o_lo ob) (o_hi ob).
Proof.
  unfold view. intro H. apply bind_ok in H as (ob & E1 & H). apply bind_ok in H as (t & E2 & H).
  apply bind_ok in H as (v & E3 & H). apply ok_inj in H. subst f. exists ob. auto.
Qed.
Lemma view_intro s o ob t v : getn (s_objs s) o = Ok ob -> getn (s_cells s) (o_t ob) = Ok t -> getn (s_cells s) (o_v ob) = Ok v ->
  view s o = Ok (mkPL t v (o_first ob) (o_last ob) (o_lo ob) (o_hi ob)).
Proof. intros E1 E2 E3. unfold view. rewrite E1. cbn [bind]. rewrite E2. cbn [bind]. rewrite E3. reflexivity. Qed.

(** No list is shared except that several objects may use the same [times]. *)
Record wf (s : store) : Prop := {
  wf_in : forall o ob, getn (s_objs s) o = Ok ob -> (o_t ob < length (s_cells s))%nat /\ (o_v ob < length (s_cells s))%nat;
  wf_tv : forall o ob o' ob', getn (s_objs s) o = Ok ob -> getn (s_objs s) o' = Ok ob' -> o_t ob <> o_v ob';
  wf_vv : forall o ob o' ob', getn (s_objs s) o = Ok ob -> getn (s_objs s) o' = Ok ob' -> o <> o' -> o_v ob <> o_v ob' }.

(** ... and here not even that *)
Definition unshared (s : store) : Prop :=
  forall o ob o' ob', getn (s_objs s) o = Ok ob -> getn (s_objs s) o' = Ok ob' -> o <> o' -> o_t ob <> o_t ob'.
(** every view that exists persists *)
Definition extends (s s' : store) : Prop := forall o f, view s o = Ok f -> view s' o = Ok f.
Lemma extends_refl s : extends s s. Proof. intros o f H; exact H. Qed.
Lemma consistent_extends s s' ev gr co : extends s s' -> gr_ok s gr -> ev_ok s ev -> co_ok s co ->
  consistent (mkHeap s' ev gr co).
Proof.
  intros X C1 C2 C3. split; [|split].
  - intros o i v I. pose proof (C1 _ _ _ I) as Q. apply bind_ok in Q as (f & V & Q). cbn [h_st]. rewrite (X _ _ V). exact Q.
  - intros o a r v I. pose proof (C2 _ _ _ _ I) as Q. apply bind_ok in Q as (f & V & Q). cbn [h_st]. rewrite (X _ _ V). exact Q.
  - intros g f o I. destruct (C3 _ _ _ I) as (p & V & Q). apply bind_ok in Q as (pg & Vg & Q). apply bind_ok in Q as (pf & Vf & Q).
    exists p. cbn [h_st]. rewrite (X _ _ V), (X _ _ Vg). cbn [bind]. rewrite (X _ _ Vf). auto.
Qed.

Lemma view_app_objs s cs obs o f : view s o = Ok f -> view (mkStore (s_cells s ++ cs) (s_objs s ++ obs)) o = Ok f.
Proof.
  intro V. destruct (view_inv _ _ _ V) as (ob & E1 & E2 & E3 & E4). rewrite E4. apply view_intro; cbn; now apply getn_app.
Qed.
Lemma getn_snoc {B} (l : list B) a o x : getn (l ++ [a]) o = Ok x -> (getn l o = Ok x) \/ (o = length l /\ x = a).
Proof.
  unfold getn. intro H. destruct (Nat.lt_ge_cases o (length l)) as [L|L].
  - rewrite nth_error_app1 in H by exact L. auto.
  - rewrite nth_error_app2 in H by exact L. destruct (o - length l)%nat eqn:E; cbn in H.
    + right. split; [lia|congruence].
    + destruct n; discriminate H.
Qed.

Lemma alloc_spec p h : wf (h_st h) -> consistent h ->
  let h' := snd (alloc p h) in
  wf (h_st h') /\ consistent h' /\ extends (h_st h) (h_st h') /\
  exists o, fst (alloc p h) = Ok o /\ view (h_st h') o = Ok p /\ (unshared (h_st h) -> unshared (h_st h')).
Proof.
  intros W C. pose proof C as (C1 & C2 & C3). destruct h as [s ev gr co]. cbn [alloc fst snd h_st h_ev h_gr h_co] in *.
  set (n := length (s_cells s)).
  assert (X : extends s (mkStore (s_cells s ++ [pl_times p; pl_values p])
    (s_objs s ++ [mkObj n (S n) (pl_first p) (pl_last p) (pl_lo p) (pl_hi p)]))).
  { intros o f V. now apply view_app_objs. }
  split; [|split; [|split]].
  - split; cbn [s_cells s_objs].
    + intros o ob H. rewrite app_length. cbn [length]. apply getn_snoc in H as [H|[-> ->]].
      * destruct (wf_in _ W _ _ H). lia.
      * cbn [o_t o_v]. unfold n. lia.
    + intros o ob o' ob' H H'. apply getn_snoc in H as [H|[-> ->]]; apply getn_snoc in H' as [H'|[-> ->]]; cbn [o_t o_v].
      * exact (wf_tv _ W _ _ _ _ H H').
      * destruct (wf_in _ W _ _ H). unfold n. lia.
      * destruct (wf_in _ W _ _ H'). unfold n. lia.
      * lia.
    + intros o ob o' ob' H H' N. apply getn_snoc in H as [H|[-> ->]]; apply getn_snoc in H' as [H'|[-> ->]]; cbn [o_t o_v].
      * exact (wf_vv _ W _ _ _ _ H H' N).
      * destruct (wf_in _ W _ _ H). unfold n. lia.
      * destruct (wf_in _ W _ _ H'). unfold n. lia.
      * congruence.
  - now apply (consistent_extends s).
  - exact X.
  - eexists; split; [reflexivity|]. split.
    2:{ intros U o ob o' ob' H H' N. cbn [s_objs] in *. apply getn_snoc in H as [H|[-> ->]]; apply getn_snoc in H' as [H'|[-> ->]]; cbn [o_t o_v].
      * exact (U _ _ _ _ H H' N).
      * destruct (wf_in _ W _ _ H). unfold n. lia.
      * destruct (wf_in _ W _ _ H'). unfold n. lia.
      * congruence. }
    rewrite (view_intro _ _ (mkObj n (S n) (pl_first p) (pl_last p) (pl_lo p) (pl_hi p)) (pl_times p) (pl_values p)).
    + destruct p; reflexivity.
    + cbn. apply getn_new.
    + cbn. apply getn_new.
    + cbn. apply getn_new2.
Qed.
Lemma alloc_sharing_spec o0 f0 p h : wf (h_st h) -> consistent h -> view (h_st h) o0 = Ok f0 -> pl_times p = pl_times f0 ->
  let h' := snd (alloc_sharing o0 p h) in
  wf (h_st h') /\ consistent h' /\ extends (h_st h) (h_st h') /\
  exists o, fst (alloc_sharing o0 p h) = Ok o /\ view (h_st h') o = Ok p.
Proof.
  intros W C V Et. pose proof C as (C1 & C2 & C3). destruct h as [s ev gr co]. cbn [h_st] in *.
  destruct (view_inv _ _ _ V) as (ob0 & E1 & E2 & E3 & E4).
  unfold alloc_sharing. cbn [h_st h_ev h_gr h_co]. rewrite E1. cbn [fst snd h_st h_ev h_gr h_co] in *.
  set (n := length (s_cells s)).
  assert (X : extends s (mkStore (s_cells s ++ [pl_values p])
    (s_objs s ++ [mkObj (o_t ob0) n (pl_first p) (pl_last p) (pl_lo p) (pl_hi p)]))).
  { intros o f V'. now apply view_app_objs. }
  pose proof (wf_in _ W _ _ E1) as [L1 L2].
  split; [|split; [|split]].
  - split; cbn [s_cells s_objs].
    + intros o ob H. rewrite app_length. cbn [length]. apply getn_snoc in H as [H|[-> ->]].
      * destruct (wf_in _ W _ _ H). lia.
      * cbn [o_t o_v]. unfold n. lia.
    + intros o ob o' ob' H H'. apply getn_snoc in H as [H|[-> ->]]; apply getn_snoc in H' as [H'|[-> ->]]; cbn [o_t o_v].
      * exact (wf_tv _ W _ _ _ _ H H').
      * destruct (wf_in _ W _ _ H). unfold n. lia.
      * exact (wf_tv _ W _ _ _ _ E1 H').
      * unfold n. lia.
    + intros o ob o' ob' H H' N. apply getn_snoc in H as [H|[-> ->]]; apply getn_snoc in H' as [H'|[-> ->]]; cbn [o_t o_v].
      * exact (wf_vv _ W _ _ _ _ H H' N).
      * destruct (wf_in _ W _ _ H). unfold n. lia.
      * destruct (wf_in _ W _ _ H'). unfold n. lia.
      * congruence.
  - now apply (consistent_extends s).
  - exact X.
  - eexists; split; [reflexivity|].
    rewrite (view_intro _ _ (mkObj (o_t ob0) n (pl_first p) (pl_last p) (pl_lo p) (pl_hi p)) (pl_times p) (pl_values p)).
    + destruct p; reflexivity.
    + cbn. apply getn_new.
    + cbn. apply getn_app. now rewrite Et.
    + cbn. apply getn_new.
Qed.

Lemma pl_init_fields t v a b lo hi p : pl_init t v a b lo hi = Ok p -> p = mkPL t v a b lo hi.
Proof.
  unfold pl_init. intro H. apply bind_ok in H as (? & _ & H). apply bind_ok in H as (? & _ & H).
  apply bind_ok in H as (? & _ & H). now apply ok_inj in H.
Qed.

(** ** One call *)
(** What a caller sees: numbers, or functions (the fields of the object). *)
Inductive seen := SFun (f : PL) | SNum (x : ext) | SPair (x y : ext).
(** What the call [c], made on functions as they are now, means without caches:
    the pure functions of PL.v and PL2.v. *)
Definition meaning (s : store) (c : op) : res seen :=
  match c with
  | ONew t v f l lo hi => rmap SFun (pl_init t v f l lo hi)
  | ONeg a => f <- view s a ;; rmap SFun (pl_neg f)
  | OPlus a b => f <- view s a ;; g <- view s b ;; rmap SFun (pl_plus f g)
  | OSimplify a => f <- view s a ;; rmap SFun (simplify f)
  | OCompose a b => g <- view s a ;; f <- view s b ;; rmap SFun (compose g f)
  | OEval a x => f <- view s a ;; rmap SNum (pl_eval_ext f x)
  | OFromEnd a x => f <- view s a ;; rmap (fun q => SNum (Fin q)) (eval_from_end f x)
  | OGradient a i => f <- view s a ;; rmap (fun q => SNum (Fin q)) (gradient f i)
  | OImage a => f <- view s a ;; rmap (fun p => SPair (fst p) (snd p)) (image f)
  | OInverse a x i => f <- view s a ;; rmap (fun q => SNum (Fin q)) (inverse f x i)
  | OExtend a t sl => f <- view s a ;; rmap SFun (extend_with_slope f t sl)
  | OWrite a v => f <- view s a ;; _ <- pyget (pl_values f) (-1) ;;
      Ok (SFun (mkPL (pl_times f) (set_nth (pl_values f) (length (pl_values f) - 1) v) (pl_first f) (pl_last f) (pl_lo f) (pl_hi f)))
  end.
(** What the caller sees after the call: the returned number or function, for
    the two updates the updated function. *)
Definition observe (c : op) (r : res out * heap) : res seen :=
  match fst r with
  | Err e => Err e
  | Ok (RObj o) => rmap SFun (view (h_st (snd r)) o)
  | Ok (RNum x) => Ok (SNum x)
  | Ok (RPair x y) => Ok (SPair x y)
  | Ok RNone => match c with
                | OExtend a _ _ | OWrite a _ => rmap SFun (view (h_st (snd r)) a)
                | _ => Err NotModelled
                end
  end.

Definition good (h : heap) : Prop := wf (h_st h) /\ consistent h.

Lemma empty_good s : wf s -> good (cleared s).
Proof. intro W. split; [exact W|]. split; [|split]; intros ?; cbn; tauto. Qed.

(** programs that only read *)
Lemma step_read {A} s (m : M A) r (f : A -> out) (g : A -> seen) c h :
  agrees s m r -> h_st h = s -> good h -> (forall a h', observe c (Ok (f a), h') = Ok (g a)) ->
  good (snd (mret m f h)) /\ extends s (h_st (snd (mret m f h))) /\ observe c (mret m f h) = rmap g r /\
  (unshared s -> unshared (h_st (snd (mret m f h)))).
Proof.
  intros A1 E [W C] O. destruct (A1 h E C) as (Q1 & Q2 & Q3). unfold mret, mbind.
  destruct (m h) as [[a|e] h']; unfold ret in *; cbn [fst snd] in *; subst r.
  - split; [split; [now rewrite Q2, <- E|exact Q3]|]. split; [rewrite Q2; apply extends_refl|]. split; [now rewrite O|rewrite Q2; auto].
  - split; [split; [now rewrite Q2, <- E|exact Q3]|]. split; [rewrite Q2; apply extends_refl|]. split; [reflexivity|rewrite Q2; auto].
Qed.
(** programs that read and then create an object *)
Lemma step_alloc s (m : M PL) r c h :
  agrees s m r -> h_st h = s -> good h ->
  let x := mret (p <-- m ;;; alloc p) RObj h in
  good (snd x) /\ extends s (h_st (snd x)) /\ observe c x = rmap SFun r /\
  (unshared s -> unshared (h_st (snd x))).
Proof.
  intros A1 E [W C]. destruct (A1 h E C) as (Q1 & Q2 & Q3). cbv zeta. unfold mret, mbind.
  destruct (m h) as [[a|e] h'] eqn:Em; unfold ret in *; cbn [fst snd] in *; subst r.
  - rewrite E, <- Q2 in W. destruct (alloc_spec a h' W Q3) as (P1 & P2 & P3 & o & P4 & P5 & P6).
    destruct (alloc a h') as [[o'|e] h'']; cbn [fst snd] in *; [|discriminate P4]. injection P4 as ->.
    split; [now split|]. split; [now rewrite <- Q2|]. unfold observe. cbn [fst snd]. rewrite P5. split; [reflexivity|]. rewrite <- Q2; auto.
  - split; [split; [now rewrite Q2, <- E|exact Q3]|]. split; [rewrite Q2; apply extends_refl|]. split; [reflexivity|rewrite Q2; auto].
Qed.

Lemma mret_ext {A} (m m' : M A) f h : m h = m' h -> mret m f h = mret m' f h.
Proof. intro E. unfold mret, mbind. now rewrite E. Qed.
Lemma mbind_assoc {A B C} (m : M A) (k : A -> M B) (k' : B -> M C) h :
  mbind (mbind m k) k' h = mbind m (fun a => mbind (k a) k') h.
Proof. unfold mbind. destruct (m h) as [[a|e] h']; reflexivity. Qed.
Lemma mbind_ext {A B} (m : M A) (k k' : A -> M B) h : (forall a h', k a h' = k' a h') -> mbind m k h = mbind m k' h.
Proof. intro E. unfold mbind. destruct (m h) as [[a|e] h']; auto. Qed.

(** the body of [plus] / [simplify] up to the constructor *)
Definition plus_body (a b : nat) : M PL :=
  f <-- read a ;;; g <-- read b ;;;
  let lo := ext_max (pl_lo f) (pl_lo g) in
  let hi := ext_min (pl_hi f) (pl_hi g) in
  _ <-- ret (assertb (ext_ltb lo hi)) ;;;
  times1 <-- ret (cut_lo (merge_sorted (pl_times f) (pl_times g)) lo) ;;;
  times <-- ret (cut_hi times1 hi) ;;;
  values <-- mapMM (fun phi => x <-- eval_fin_m a phi ;;; y <-- eval_fin_m b phi ;;; ret (Ok (x + y))) times ;;;
  ret (pl_init times values (pl_first f + pl_first g) (pl_last f + pl_last g) lo hi).
Lemma plus_split a b h : plus_m a b h = mbind (plus_body a b) alloc h.
Proof.
  unfold plus_m, plus_body. rewrite !mbind_assoc. apply mbind_ext; intros f h1. rewrite !mbind_assoc.
  apply mbind_ext; intros g h2. cbv zeta. rewrite !mbind_assoc. apply mbind_ext; intros _ h3.
  rewrite !mbind_assoc. apply mbind_ext; intros t h4. rewrite !mbind_assoc. apply mbind_ext; intros t' h5.
  rewrite !mbind_assoc. apply mbind_ext; intros v h6. reflexivity.
Qed.
Lemma ag_plus s a b f g : view s a = Ok f -> view s b = Ok g -> agrees s (plus_body a b) (pl_plus f g).
Proof.
  intros Vf Vg. unfold plus_body, pl_plus. eapply ag_read; [exact Vf|]. eapply ag_read; [exact Vg|]. cbv zeta.
  apply ag_retb; intros _ _. apply ag_retb; intros t _. apply ag_retb; intros t' _.
  apply ag_bind; [|intros v _; apply ag_ret]. apply ag_mapM. intro x.
  apply ag_bind; [now apply ag_eval_fin|intros ? _]. apply ag_bind; [now apply ag_eval_fin|intros ? _]. apply ag_ret.
Qed.
Definition simplify_body (o : nat) : M PL :=
  f <-- read o ;;;
  t0 <-- ret (pyget (pl_times f) 0) ;;; v0 <-- ret (pyget (pl_values f) 0) ;;;
  acc <-- foldMM (fun (acc : list Qc * list Qc) (i : nat) =>
            g0 <-- gradient_m o (Z.of_nat i) ;;; g1 <-- gradient_m o (Z.of_nat i + 1) ;;;
            if qleb eps1000 (qabs (g0 - g1)) then
              t <-- ret (pyget (pl_times f) (Z.of_nat i + 1)) ;;;
              v <-- ret (pyget (pl_values f) (Z.of_nat i + 1)) ;;;
              ret (Ok (t :: fst acc, v :: snd acc))
            else ret (Ok acc))
         (seq 0 (length (pl_times f) - 1)) ([t0], [v0]) ;;;
  ret (pl_init (rev (fst acc)) (rev (snd acc)) (pl_first f) (pl_last f) (pl_lo f) (pl_hi f)).
Lemma simplify_split o h : simplify_m o h = mbind (simplify_body o) alloc h.
Proof.
  unfold simplify_m, simplify_body. rewrite !mbind_assoc. apply mbind_ext; intros f h1. rewrite !mbind_assoc.
  apply mbind_ext; intros t h2. rewrite !mbind_assoc. apply mbind_ext; intros v h3. rewrite !mbind_assoc.
  apply mbind_ext; intros a h4. reflexivity.
Qed.
Lemma ag_simplify s o f : view s o = Ok f -> agrees s (simplify_body o) (simplify f).
Proof.
  intros V. unfold simplify_body, simplify. eapply ag_read; [exact V|].
  apply ag_retb; intros t _. apply ag_retb; intros v _.
  apply ag_bind; [|intros acc _; apply ag_ret]. apply ag_foldM. intros st i.
  apply ag_bind; [now apply ag_gradient|intros ? _]. apply ag_bind; [now apply ag_gradient|intros ? _].
  destruct (qleb eps1000 _); [|apply ag_ret]. apply ag_retb; intros ? _. apply ag_retb; intros ? _. apply ag_ret.
Qed.

(** missing objects *)
Lemma read_err {A} s o e (k : PL -> M A) : view s o = Err e -> agrees s (mbind (read o) k) (Err e).
Proof. intros V h E C. unfold mbind, read. rewrite E, V. cbn [fst snd]. auto. Qed.

Lemma compose_spec s g f c h : h_st h = s -> good h ->
  let x := mret (compose_m g f) RObj h in
  good (snd x) /\ extends s (h_st (snd x)) /\ observe c x = (pg <- view s g ;; pf <- view s f ;; rmap SFun (compose pg pf)) /\
  (unshared s -> unshared (h_st (snd x))).
Proof.
  intros E G. pose proof G as [W C]. pose proof C as (C1 & C2 & C3). cbv zeta. unfold mret, mbind, compose_m.
  destruct (lookup ckey_eqb (g, f) (h_co h)) as [o|] eqn:L.
  - apply (lookup_in _ ckey_eqbP) in L. destruct (C3 _ _ _ L) as (p & V & Q). rewrite E in V, Q.
    unfold ret; cbn [fst snd with_co h_st]. split; [|split; [|split; [|rewrite E; auto]]].
    + split; [exact W|]. split; [exact C1|split; [exact C2|]]. intros g' f' o' I. cbn [with_co h_co] in I. apply touch_in in I as [I|I]; [|now apply C3].
      injection I as -> -> ->. exists p. cbn [with_co h_st]. now rewrite E.
    + rewrite E. apply extends_refl.
    + unfold observe. cbn [fst snd with_co h_st]. rewrite E, V.
      apply bind_ok in Q as (pg & Vg & Q). apply bind_ok in Q as (pf & Vf & Q). rewrite Vg. cbn [bind]. rewrite Vf. cbn [bind].
      rewrite Q. reflexivity.
  - assert (A : agrees s (compose_body g f) (pg <- view s g ;; pf <- view s f ;; compose pg pf)).
    { destruct (view s g) as [pg|e] eqn:Vg; cbn [bind]; [|now apply read_err].
      destruct (view s f) as [pf|e] eqn:Vf; cbn [bind]; [now apply ag_compose|].
      unfold compose_body. eapply ag_read; [exact Vg|]. now apply read_err. }
    destruct (A h E C) as (Q1 & Q2 & Q3). unfold mbind.
    destruct (compose_body g f h) as [[p|e] h'] eqn:Eb; unfold ret in *; cbn [fst snd] in *.
    + rewrite E, <- Q2 in W. destruct (alloc_spec p h' W Q3) as (P1 & (P2a & P2b & P2c) & P3 & o & P4 & P5 & P6).
      destruct (alloc p h') as [[o'|e'] h'']; cbn [fst snd] in *; [|discriminate P4]. injection P4 as ->.
      symmetry in Q1. pose proof Q1 as Q1'. apply bind_ok in Q1 as (pg & Vg & Q1). apply bind_ok in Q1 as (pf & Vf & Q1).
      split; [|split; [|split; [|cbn [with_co h_st]; rewrite <- Q2; auto]]].
      * split; [exact P1|]. split; [exact P2a|split; [exact P2b|]]. intros g' f' o' I. cbn [with_co h_co] in I.
        apply insert_in in I as [I|I]; [|now apply P2c].
        injection I as -> -> ->. exists p. cbn [with_co h_st]. split; [exact P5|].
        rewrite <- Q2 in Vg, Vf. rewrite (P3 _ _ Vg). cbn [bind]. rewrite (P3 _ _ Vf). exact Q1.
      * cbn [with_co h_st]. rewrite <- Q2. exact P3.
      * unfold observe. cbn [fst snd with_co h_st]. rewrite P5, Vg. cbn [bind]. rewrite Vf. cbn [bind]. rewrite Q1. reflexivity.
    + split; [split; [now rewrite Q2, <- E|exact Q3]|]. split; [rewrite Q2; apply extends_refl|]. split; [|rewrite Q2; auto].
      unfold observe. cbn [fst snd]. destruct (view s g) as [pg|]; cbn [bind] in *; [|congruence].
      destruct (view s f) as [pf|]; cbn [bind] in *; [|congruence]. rewrite <- Q1. reflexivity.
Qed.

(** the two updates *)
Lemma wf_upd s o ob cs sl : wf s -> getn (s_objs s) o = Ok ob -> length cs = length (s_cells s) ->
  wf (mkStore cs (upd (s_objs s) o (set_last ob sl))).
Proof.
  intros W E L.
  assert (G : forall o' ob', getn (upd (s_objs s) o (set_last ob sl)) o' = Ok ob' ->
     exists ob0, getn (s_objs s) o' = Ok ob0 /\ o_t ob' = o_t ob0 /\ o_v ob' = o_v ob0).
  { intros o' ob' H. destruct (Nat.eq_dec o o') as [<-|N].
    - rewrite getn_upd_same in H by (now apply getn_lt in E). apply ok_inj in H. subst ob'. exists ob. auto.
    - rewrite getn_upd_other in H by exact N. exists ob'. auto. }
  split; cbn [s_cells s_objs].
  - intros o' ob' H. apply G in H as (ob0 & H & -> & ->). rewrite L. exact (wf_in _ W _ _ H).
  - intros o1 ob1 o2 ob2 H1 H2. apply G in H1 as (b1 & H1 & -> & _). apply G in H2 as (b2 & H2 & _ & ->). exact (wf_tv _ W _ _ _ _ H1 H2).
  - intros o1 ob1 o2 ob2 H1 H2 N. apply G in H1 as (b1 & H1 & _ & ->). apply G in H2 as (b2 & H2 & _ & ->). exact (wf_vv _ W _ _ _ _ H1 H2 N).
Qed.

(** the extension of [o] changed its slope, so all caches were cleared *)
Definition slope_change (s : store) (c : op) : Prop :=
  match c with
  | OExtend o t sl => exists f f', view s o = Ok f /\ extend_with_slope f t sl = Ok f' /\ eps < qabs (pl_last f - sl)
  | _ => False
  end.

Lemma extend_spec s o t sl h : h_st h = s -> good h ->
  let x := mret (extend_m o t sl) (fun _ => RNone) h in
  good (snd x) /\
  observe (OExtend o t sl) x = (f <- view s o ;; rmap SFun (extend_with_slope f t sl)) /\
  (slope_change s (OExtend o t sl) -> h_ev (snd x) = [] /\ h_gr (snd x) = [] /\ h_co (snd x) = []) /\
  (forall o' ob ob', getn (s_objs s) o = Ok ob -> getn (s_objs s) o' = Ok ob' -> o_t ob' <> o_t ob ->
      view (h_st (snd x)) o' = view s o').
Proof.
  intros E G. pose proof G as [W C]. cbv zeta. unfold mret, mbind, extend_m. rewrite E.
  destruct (view s o) as [f|e] eqn:V.
  2:{ assert (forall e', (ob <- getn (s_objs s) o ;; f <- Err e' ;; tl <- pyget (pl_times f) (-1) ;; _ <- assertb (qleb (tl - eps) t) ;; Ok (ob, f, tl)) = Err e' \/
              (ob <- getn (s_objs s) o ;; f <- Err e' ;; tl <- pyget (pl_times f) (-1) ;; _ <- assertb (qleb (tl - eps) t) ;; Ok (ob, f, tl)) = Err IndexError /\ getn (s_objs s) o = Err IndexError) as D.
      { intro e'. destruct (getn (s_objs s) o) as [ob|e2] eqn:E2; cbn [bind]; [now left|]. right. unfold getn in E2.
        destruct (nth_error (s_objs s) o); [discriminate E2|]. injection E2 as <-. auto. }
      assert (e = IndexError \/ exists ob, getn (s_objs s) o = Ok ob) as D2.
      { unfold view in V. destruct (getn (s_objs s) o) as [ob|e2] eqn:E2; [eauto|]. left. cbn [bind] in V. unfold getn in E2.
        destruct (nth_error (s_objs s) o); [discriminate E2|]. congruence. }
      destruct (D e) as [D1|[D1 D3]]; rewrite D1; unfold ret; cbn [fst snd].
      - split; [exact G|]. split; [reflexivity|]. split; [intros (f & f' & V' & _); congruence|].
        intros o' ob ob' _ H _. now rewrite E.
      - split; [exact G|]. split; [|split; [intros (f & f' & V' & _); congruence|intros; congruence]].
        unfold observe. cbn [fst snd bind]. destruct D2 as [->|[ob H]]; [reflexivity|congruence]. }
  destruct (view_inv _ _ _ V) as (ob & E1 & E2 & E3 & E4). rewrite E1. cbn [bind].
  assert (F1 : o_first ob = pl_first f) by (rewrite E4; reflexivity).
  assert (F3 : o_lo ob = pl_lo f) by (rewrite E4; reflexivity).
  assert (F4 : o_hi ob = pl_hi f) by (rewrite E4; reflexivity).
  unfold extend_with_slope.
  destruct (pyget (pl_times f) (-1)) as [tl|e] eqn:Tl; cbn [bind].
  2:{ unfold ret; cbn [fst snd]. split; [exact G|]. split; [reflexivity|]. split.
      - intros (f1 & f' & V' & X & _). rewrite V in V'. apply ok_inj in V'. subst f1. unfold extend_with_slope in X. rewrite Tl in X. discriminate X.
      - intros o' b b' _ H _. now rewrite E. }
  destruct (qleb (tl - eps) t) eqn:Q0; cbn [assertb bind].
  2:{ unfold ret; cbn [fst snd]. split; [exact G|]. split; [reflexivity|]. split.
      - intros (f1 & f' & V' & X & _). rewrite V in V'. apply ok_inj in V'. subst f1. unfold extend_with_slope in X. rewrite Tl in X. cbn [bind] in X. rewrite Q0 in X. discriminate X.
      - intros o' b b' _ H _. now rewrite E. }
  destruct (qlebP (qabs (pl_last f - sl)) eps) as [L|L].
  { unfold ret; cbn [fst snd]. split; [exact G|]. split; [unfold observe; cbn [fst snd]; rewrite E, V; reflexivity|]. split.
    - intros (f1 & f' & V' & X & N). rewrite V in V'. apply ok_inj in V'. subst f1. exfalso. revert N. apply Qcle_not_lt. exact L.
    - intros o' b b' _ H _. now rewrite E. }
  pose proof (wf_in _ W _ _ ltac:(rewrite E; exact E1)) as [L1 L2]. rewrite E in L1, L2.
  pose proof (wf_tv _ W _ _ _ _ ltac:(rewrite E; exact E1) ltac:(rewrite E; exact E1)) as NTV.
  assert (Lo : (o < length (s_objs s))%nat) by (now apply getn_lt in E1).
  destruct (qltb eps (qabs (t - tl))) eqn:Q1.
  - destruct (pyget (pl_values f) (-1)) as [vl|e] eqn:Vl; cbn [bind].
    2:{ unfold ret; cbn [fst snd]. split; [exact G|]. split; [reflexivity|]. split.
      - intros (f1 & f' & V' & X & _). rewrite V in V'. apply ok_inj in V'. subst f1. unfold extend_with_slope in X. rewrite Tl in X. cbn [bind] in X. rewrite Q0 in X. cbn [assertb bind] in X.
        destruct (qlebP (qabs (pl_last f - sl)) eps); [contradiction|]. rewrite Q1, Vl in X. discriminate X.
      - intros o' b b' _ H _. now rewrite E. }
    cbv zeta. unfold ret; cbn [fst snd cleared h_st h_ev h_gr h_co].
    set (cs := upd (upd (s_cells s) (o_v ob) (pl_values f ++ [vl + (t - tl) * pl_last f])) (o_t ob) (pl_times f ++ [t])).
    assert (Lc : length cs = length (s_cells s)) by (unfold cs; now rewrite !upd_len).
    split; [|split; [|split]].
    + apply empty_good. rewrite E in W. now apply wf_upd.
    + unfold observe. cbn [fst snd h_st].
      rewrite (view_intro _ _ (set_last ob sl) (pl_times f ++ [t]) (pl_values f ++ [vl + (t - tl) * pl_last f])); cbn [cleared h_st s_objs s_cells set_last o_t o_v o_first o_last o_lo o_hi].
      * rewrite F1, F3, F4. reflexivity.
      * now apply getn_upd_same.
      * unfold cs. apply getn_upd_same. now rewrite upd_len.
      * unfold cs. rewrite getn_upd_other by exact NTV. now apply getn_upd_same.
    + auto.
    + intros o' b b' H1 H2 N. apply ok_inj in H1. subst b.
      assert (No : o' <> o) by (intros ->; rewrite E1 in H2; apply ok_inj in H2; subst b'; congruence).
      pose proof (wf_vv _ W _ _ _ _ ltac:(rewrite E; exact E1) ltac:(rewrite E; exact H2) (not_eq_sym No)) as N2.
      pose proof (wf_tv _ W _ _ _ _ ltac:(rewrite E; exact H2) ltac:(rewrite E; exact E1)) as N3.
      pose proof (wf_tv _ W _ _ _ _ ltac:(rewrite E; exact E1) ltac:(rewrite E; exact H2)) as N4.
      unfold view. cbn [s_objs s_cells]. rewrite getn_upd_other by (intro; congruence). rewrite H2. cbn [bind].
      unfold cs. rewrite !getn_upd_other by congruence. reflexivity.
  - unfold ret; cbn [fst snd cleared h_st h_ev h_gr h_co]. split; [|split; [|split]].
    + apply empty_good. rewrite E in W. now apply wf_upd.
    + unfold observe. cbn [fst snd h_st].
      rewrite (view_intro _ _ (set_last ob sl) (pl_times f) (pl_values f)); cbn [cleared h_st s_objs s_cells set_last o_t o_v o_first o_last o_lo o_hi]; auto.
      * rewrite F1, F3, F4. reflexivity.
      * now apply getn_upd_same.
    + auto.
    + intros o' b b' H1 H2 N. apply ok_inj in H1. subst b.
      assert (No : o <> o') by (intros <-; rewrite E1 in H2; apply ok_inj in H2; subst b'; congruence).
      unfold view. cbn [s_objs s_cells]. rewrite getn_upd_other by exact No. reflexivity.
Qed.

Lemma extend_unshared o t sl h : unshared (h_st h) -> unshared (h_st (snd (extend_m o t sl h))).
Proof.
  intro U. unfold extend_m.
  destruct (ob <- getn (s_objs (h_st h)) o ;; _) as [[[ob f] tl]|e] eqn:E; [|exact U].
  apply bind_ok in E as (ob' & E1 & E). apply bind_ok in E as (f' & _ & E). apply bind_ok in E as (tl' & _ & E).
  apply bind_ok in E as (_ & _ & E). apply ok_inj in E. injection E as -> _ _.
  assert (G : forall o' ob', getn (upd (s_objs (h_st h)) o (set_last ob sl)) o' = Ok ob' ->
     exists ob0, getn (s_objs (h_st h)) o' = Ok ob0 /\ o_t ob' = o_t ob0).
  { intros o' ob' H. destruct (Nat.eq_dec o o') as [<-|N].
    - rewrite getn_upd_same in H by (now apply getn_lt in E1). apply ok_inj in H. subst ob'. exists ob. auto.
    - rewrite getn_upd_other in H by exact N. exists ob'. auto. }
  assert (K : forall cs, unshared (mkStore cs (upd (s_objs (h_st h)) o (set_last ob sl)))).
  { intros cs o1 b1 o2 b2 H1 H2 N. cbn [s_objs] in *. apply G in H1 as (c1 & H1 & ->). apply G in H2 as (c2 & H2 & ->).
    exact (U _ _ _ _ H1 H2 N). }
  destruct (qleb _ eps); [exact U|]. destruct (qltb eps _).
  - destruct (pyget (pl_values f) (-1)); [|exact U]. apply K.
  - apply K.
Qed.
Lemma mret_snd {A} (m : M A) f h : snd (mret m f h) = snd (m h).
Proof. unfold mret, mbind. destruct (m h) as [[a|e] h']; reflexivity. Qed.

Lemma write_spec s o v h : h_st h = s -> good h -> h_ev h = [] -> h_gr h = [] -> h_co h = [] ->
  let x := mret (write_last_m o v) (fun _ => RNone) h in
  good (snd x) /\ observe (OWrite o v) x = meaning s (OWrite o v) /\
  (unshared s -> unshared (h_st (snd x))).
Proof.
  intros E G H1 H2 H3. pose proof G as [W C]. cbv zeta. unfold mret, mbind, write_last_m. cbn [meaning].
  rewrite E. destruct (view s o) as [f|e] eqn:V.
  2:{ unfold view in V. destruct (getn (s_objs s) o) as [ob|e'] eqn:Eo; cbn [bind] in *.
      - split; [exact G|]. split; [reflexivity|rewrite <- E; auto].
      - split; [exact G|]. split; [unfold observe; cbn [fst]; congruence|rewrite <- E; auto]. }
  destruct (view_inv _ _ _ V) as (ob & E1 & E2 & E3 & E4). rewrite E1. cbn [bind].
  assert (F1 : o_first ob = pl_first f) by (rewrite E4; reflexivity).
  assert (F2 : o_last ob = pl_last f) by (rewrite E4; reflexivity).
  assert (F3 : o_lo ob = pl_lo f) by (rewrite E4; reflexivity).
  assert (F4 : o_hi ob = pl_hi f) by (rewrite E4; reflexivity).
  destruct (pyget (pl_values f) (-1)) as [vl|e] eqn:Vl; cbn [bind].
  2:{ split; [exact G|]. split; [reflexivity|rewrite <- E; auto]. }
  unfold ret. cbn [fst snd h_st]. rewrite H1, H2, H3.
  pose proof (wf_in _ W _ _ ltac:(rewrite E; exact E1)) as [L1 L2]. rewrite E in L1, L2.
  pose proof (wf_tv _ W _ _ _ _ ltac:(rewrite E; exact E1) ltac:(rewrite E; exact E1)) as NTV.
  split; [|split].
  - apply (empty_good (mkStore _ (s_objs s))). rewrite E in W. split; cbn [s_cells s_objs].
    + intros o' ob' H. rewrite upd_len. exact (wf_in _ W _ _ H).
    + exact (wf_tv _ W).
    + exact (wf_vv _ W).
  - unfold observe. cbn [fst snd h_st].
    rewrite (view_intro _ _ ob (pl_times f) (set_nth (pl_values f) (length (pl_values f) - 1) v)); cbn [s_objs s_cells].
    + now rewrite F1, F2, F3, F4.
    + exact E1.
    + now rewrite getn_upd_other by (apply not_eq_sym; exact NTV).
    + now apply getn_upd_same.
  - auto.
Qed.

Definition is_update (c : op) : bool := match c with OExtend _ _ _ | OWrite _ _ => true | _ => false end.
Definition is_neg (c : op) : bool := match c with ONeg _ => true | _ => false end.

Lemma step_spec c h : good h ->
  (forall o v, c = OWrite o v -> h_ev h = [] /\ h_gr h = [] /\ h_co h = []) ->
  good (snd (step c h)) /\ observe c (step c h) = meaning (h_st h) c /\
  (is_update c = false -> extends (h_st h) (h_st (snd (step c h)))) /\
  (is_neg c = false -> unshared (h_st h) -> unshared (h_st (snd (step c h)))).
Proof.
  intros G Hw. set (s := h_st h). assert (E : h_st h = s) by reflexivity. clearbody s.
  assert (RD : forall A (m : M A) r (f : A -> out) (g : A -> seen), agrees s m r ->
     (forall a h', observe c (Ok (f a), h') = Ok (g a)) -> step c h = mret m f h -> rmap g r = meaning s c ->
     good (snd (step c h)) /\ observe c (step c h) = meaning s c /\
     (is_update c = false -> extends s (h_st (snd (step c h)))) /\ (is_neg c = false -> unshared s -> unshared (h_st (snd (step c h))))).
  { intros A m r f g A1 O Q1 Q2. rewrite Q1, <- Q2. destruct (step_read s m r f g c h A1 E G O) as (P1 & P2 & P3 & P4). auto. }
  assert (AL : forall (m : M PL) r (m' : M nat), agrees s m r -> (forall k, m' k = mbind m alloc k) ->
     step c h = mret m' RObj h -> rmap SFun r = meaning s c ->
     good (snd (step c h)) /\ observe c (step c h) = meaning s c /\
     (is_update c = false -> extends s (h_st (snd (step c h)))) /\ (is_neg c = false -> unshared s -> unshared (h_st (snd (step c h))))).
  { intros m r m' A1 Q0 Q1 Q2. rewrite Q1, <- Q2. rewrite (mret_ext _ (mbind m alloc)) by apply Q0.
    destruct (step_alloc s m r c h A1 E G) as (P1 & P2 & P3 & P4). auto. }
  destruct c as [t v a b lo hi|o|a b|o|g f|o x|o x|o i|o|o x i|o t sl|o v]; cbn [step].
  - apply (AL (ret (pl_init t v a b lo hi)) (pl_init t v a b lo hi) (new_m t v a b lo hi)); auto using ag_ret.
  - (* negation *)
    unfold mret, mbind, neg_m, read. cbn [meaning]. unfold mbind. rewrite E.
    destruct (view s o) as [f|e] eqn:V; cbn [bind].
    2:{ cbn [fst snd]. unfold observe; cbn [fst snd]. split; [exact G|]. split; [reflexivity|]. split; [rewrite E; intros _; apply extends_refl|discriminate 1]. }
    unfold ret. destruct (pl_neg f) as [p|e] eqn:N; cbn [rmap bind fst snd].
    2:{ unfold observe; cbn [fst snd]. split; [exact G|]. split; [reflexivity|]. split; [rewrite E; intros _; apply extends_refl|discriminate 1]. }
    destruct G as [W C]. rewrite <- E in V.
    assert (Et : pl_times p = pl_times f) by (unfold pl_neg in N; apply pl_init_fields in N; now subst p).
    destruct (alloc_sharing_spec o f p h W C V Et) as (P1 & P2 & P3 & o' & P4 & P5).
    destruct (alloc_sharing o p h) as [[o''|e] h']; cbn [fst snd] in *; [|discriminate P4]. injection P4 as ->.
    split; [now split|]. split; [unfold observe; cbn [fst snd]; now rewrite P5|]. split; [now rewrite <- E|discriminate 1].
  - destruct (view s a) as [f|e] eqn:Va; [destruct (view s b) as [g|e] eqn:Vb|].
    + apply (AL (plus_body a b) (pl_plus f g) (plus_m a b)); auto using plus_split, ag_plus. cbn [meaning]. rewrite Va. cbn [bind]. now rewrite Vb.
    + apply (AL (plus_body a b) (Err e) (plus_m a b)); auto using plus_split.
      * unfold plus_body. eapply ag_read; [exact Va|]. now apply read_err.
      * cbn [meaning]. rewrite Va. cbn [bind]. now rewrite Vb.
    + apply (AL (plus_body a b) (Err e) (plus_m a b)); auto using plus_split.
      * unfold plus_body. now apply read_err.
      * cbn [meaning]. now rewrite Va.
  - destruct (view s o) as [f|e] eqn:V.
    + apply (AL (simplify_body o) (simplify f) (simplify_m o)); auto using simplify_split, ag_simplify. cbn [meaning]. now rewrite V.
    + apply (AL (simplify_body o) (Err e) (simplify_m o)); auto using simplify_split.
      * unfold simplify_body. now apply read_err.
      * cbn [meaning]. now rewrite V.
  - destruct (compose_spec s g f (OCompose g f) h E G) as (P1 & P2 & P3 & P4). cbn [meaning]. auto.
  - apply (RD _ (eval_m o x) (f <- view s o ;; pl_eval_ext f x) RNum SNum); auto.
    + destruct (view s o) as [f|e] eqn:V; [now apply ag_eval|]. unfold eval_m. now apply read_err.
    + cbn [meaning]. destruct (view s o); reflexivity.
  - apply (RD _ (eval_from_end_m o x) (f <- view s o ;; rmap Fin (eval_from_end f x)) RNum SNum); auto.
    + destruct (view s o) as [f|e] eqn:V; [now apply ag_from_end|]. unfold eval_from_end_m. now apply read_err.
    + cbn [meaning]. destruct (view s o) as [f|]; cbn [bind]; [|reflexivity]. destruct (eval_from_end f x); reflexivity.
  - apply (RD _ (gradient_m o i) (f <- view s o ;; gradient f i) (fun q => RNum (Fin q)) (fun q => SNum (Fin q))); auto.
    + destruct (view s o) as [f|e] eqn:V; [now apply ag_gradient|]. intros h0 E0 C0. unfold gradient_m.
      destruct (lookup gkey_eqb (o, i) (h_gr h0)) as [v|] eqn:L.
      { apply (lookup_in _ gkey_eqbP) in L. destruct C0 as (C1 & _). pose proof (C1 _ _ _ L) as Q. rewrite E0, V in Q. discriminate Q. }
      rewrite E0, V. cbn [bind fst snd]. auto.
    + cbn [meaning]. destruct (view s o); reflexivity.
  - apply (RD _ (image_m o) (f <- view s o ;; image f) (fun p => RPair (fst p) (snd p)) (fun p => SPair (fst p) (snd p))); auto.
    + destruct (view s o) as [f|e] eqn:V; [now apply ag_image|]. unfold image_m. now apply read_err.
    + cbn [meaning]. destruct (view s o); reflexivity.
  - apply (RD _ (inverse_m o x i) (f <- view s o ;; inverse f x i) (fun q => RNum (Fin q)) (fun q => SNum (Fin q))); auto.
    + destruct (view s o) as [f|e] eqn:V; [now apply ag_inverse|]. unfold inverse_m. now apply read_err.
    + cbn [meaning]. destruct (view s o); reflexivity.
  - destruct (extend_spec s o t sl h E G) as (P1 & P2 & _). cbn [meaning]. split; [exact P1|]. split; [exact P2|].
    split; [discriminate 1|]. intros _ U. rewrite mret_snd. apply extend_unshared. now rewrite E.
  - destruct (Hw o v eq_refl) as (K1 & K2 & K3). destruct (write_spec s o v h E G K1 K2 K3) as (P1 & P2 & P3).
    split; [exact P1|]. split; [exact P2|]. split; [discriminate 1|auto].
Qed.
