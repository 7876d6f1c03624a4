(** * The heap algorithms of PriorityQueue *)
From Verif Require Import Base Spec PQ.

Section Q.
Context {A : Type} {EA : Item A}.
Notation dict := (dict A). Notation entry := (entry A). Notation PQ := (PQ A).

(** ** The order on entries *)
Definition e_lt (a b : entry) : Prop :=
  ext_lt (e_key a) (e_key b) \/ (e_key a = e_key b /\ (e_idx a < e_idx b)%Z).
Definition e_le (a b : entry) : Prop := ~ e_lt b a.
Lemma e_ltbP a b : reflect (e_lt a b) (e_ltb a b).
Proof.
  unfold e_ltb, e_lt. destruct (ext_ltbP (e_key a) (e_key b)); cbn [orb]; [constructor; auto|].
  destruct (ext_eqbP (e_key a) (e_key b)); cbn [andb]; [|constructor; tauto].
  destruct (e_idx a <? e_idx b)%Z eqn:Q; constructor; [right; split; [assumption|lia]|]. intros [?|[? ?]]; [tauto|lia].
Qed.
Lemma ext_lt_irrefl a : ~ ext_lt a a.
Proof. intro H. apply H. apply ext_le_refl. Qed.
Lemma ext_lt_trans a b c : ext_lt a b -> ext_lt b c -> ext_lt a c.
Proof. intros H1 H2. apply ext_lt_le_trans with b; auto. apply ext_lt_le; auto. Qed.
Lemma ext_trichotomy a b : ext_lt a b \/ a = b \/ ext_lt b a.
Proof.
  destruct (ext_lebP a b) as [H|H]; [|right; right; exact H].
  destruct (ext_lebP b a) as [H'|H']; [right; left; apply ext_le_antisym; auto|left; exact H'].
Qed.
Lemma e_lt_trans a b c : e_lt a b -> e_lt b c -> e_lt a c.
Proof.
  intros [H1|[H1 H1']] [H2|[H2 H2']].
  - left. eapply ext_lt_trans; eauto.
  - left. rewrite <- H2. auto.
  - left. rewrite H1. auto.
  - right. split; [congruence|lia].
Qed.
Lemma e_lt_irrefl a : ~ e_lt a a.
Proof. intros [H|[_ H]]; [exact (ext_lt_irrefl _ H)|lia]. Qed.
Lemma e_tri a b : e_lt a b \/ (e_key a = e_key b /\ e_idx a = e_idx b) \/ e_lt b a.
Proof.
  destruct (ext_trichotomy (e_key a) (e_key b)) as [H|[H|H]].
  - left; left; auto.
  - destruct (Z.lt_trichotomy (e_idx a) (e_idx b)) as [K|[K|K]]; [left; right; auto|right; left; auto|right; right; right; auto].
  - right; right; left; auto.
Qed.
Lemma e_le_refl a : e_le a a.
Proof. apply e_lt_irrefl. Qed.
Lemma e_lt_le a b : e_lt a b -> e_le a b.
Proof. intros H K. exact (e_lt_irrefl _ (e_lt_trans _ _ _ H K)). Qed.
Lemma e_le_trans a b c : e_le a b -> e_le b c -> e_le a c.
Proof.
  unfold e_le. intros H1 H2 H3. destruct (e_tri a b) as [K|[[K1 K2]|K]]; [|  |auto].
  - apply H2. eapply e_lt_trans; eauto.
  - apply H2. unfold e_lt in *. rewrite K1, K2 in H3. exact H3.
Qed.
Lemma e_le_lt_trans a b c : e_le a b -> e_lt b c -> e_lt a c.
Proof. intros H1 H2. destruct (e_tri a c) as [K|[[K1 K2]|K]]; auto; exfalso; apply H1.
  - unfold e_lt in *. rewrite K1, K2. exact H2.
  - eapply e_lt_trans; eauto.
Qed.
Lemma e_le_total a b : e_le a b \/ e_le b a.
Proof. destruct (e_tri a b) as [K|[[K1 K2]|K]]; [left; apply e_lt_le; auto| |right; apply e_lt_le; auto].
  left. intros [H|[H1 H2]]; [rewrite K1 in H; exact (ext_lt_irrefl _ H)|lia].
Qed.

(** ** Lists *)
Definition dflt : entry := mkE PInf 0 i_dflt.
Notation "l @ i" := (nth i l dflt) (at level 20).

Lemma upd_length {B} : forall (l : list B) i x, length (upd l i x) = length l.
Proof. induction l; intros [|i] x; cbn; auto. Qed.
Lemma upd_same : forall l i x, (i < length l)%nat -> (upd l i x) @ i = x.
Proof. induction l; intros [|i] x H; cbn in *; try lia; auto. apply IHl. lia. Qed.
Lemma upd_other : forall l i j x, i <> j -> (upd l i x) @ j = l @ j.
Proof. induction l; intros [|i] [|j] x H; cbn; auto; try congruence. Qed.
Lemma upd_id : forall l i, (i < length l)%nat -> upd l i (l @ i) = l.
Proof. induction l; intros [|i] H; cbn in *; try lia; [reflexivity|]. rewrite IHl by lia. reflexivity. Qed.
Lemma upd_upd {B} : forall (l : list B) i x y, upd (upd l i x) i y = upd l i y.
Proof. induction l; intros [|i] x y; cbn; congruence. Qed.
Lemma upd_comm {B} : forall (l : list B) i j x y, i <> j -> upd (upd l i x) j y = upd (upd l j y) i x.
Proof. induction l; intros [|i] [|j] x y H; cbn; auto; try congruence. rewrite IHl by congruence. reflexivity. Qed.
Lemma upd_perm : forall l i x, (i < length l)%nat -> Permutation (l @ i :: upd l i x) (x :: l).
Proof.
  induction l as [|a l IH]; intros [|i] x H; cbn in *; try lia.
  - apply perm_swap.
  - rewrite perm_swap. rewrite (IH i x) by lia. apply perm_swap.
Qed.
Lemma swap_perm l i j : (i < length l)%nat -> (j < length l)%nat ->
  Permutation (upd (upd l i (l @ j)) j (l @ i)) l.
Proof.
  intros Hi Hj. destruct (Nat.eq_dec i j) as [->|N].
  - rewrite upd_upd, upd_id by auto. reflexivity.
  - pose proof (upd_perm (upd l i (l @ j)) j (l @ i) ltac:(rewrite upd_length; auto)) as P1.
    rewrite upd_other in P1 by auto.
    pose proof (upd_perm l i (l @ j) Hi) as P2.
    rewrite P2 in P1. apply Permutation_cons_inv in P1. exact P1.
Qed.
Lemma getn_ok (l : list entry) i : (i < length l)%nat -> getn l i = Ok (l @ i).
Proof. intro H. unfold getn. rewrite (nth_error_nth' l dflt H). reflexivity. Qed.
Lemma setn_ok {B} (l : list B) i x : (i < length l)%nat -> setn l i x = Ok (upd l i x).
Proof. intro H. unfold setn. destruct (Nat.ltb_spec i (length l)); [reflexivity|lia]. Qed.

Lemma par_S p : par (2 * p + 1) = p /\ par (2 * p + 2) = p.
Proof.
  unfold par. replace (2 * p + 1 - 1)%nat with (2 * p)%nat by lia. replace (2 * p + 2 - 1)%nat with (S (2 * p)) by lia.
  split; [apply Nat.div2_double|apply Nat.div2_succ_double].
Qed.
Lemma par_inv i : (0 < i)%nat -> i = (2 * par i + 1)%nat \/ i = (2 * par i + 2)%nat.
Proof. intro H. unfold par. pose proof (Nat.div2_odd (i-1)) as E. destruct (Nat.odd (i-1)); cbn [Nat.b2n] in E; lia. Qed.
Lemma par_lt i : (0 < i)%nat -> (par i < i)%nat.
Proof. intro H. destruct (par_inv i H); lia. Qed.

(** [anc s p]: s is p or an ancestor of p. *)
Inductive anc (s : nat) : nat -> Prop :=
  | anc_refl : anc s s
  | anc_step p : (0 < p)%nat -> anc s (par p) -> anc s p.
Lemma anc_le s p : anc s p -> (s <= p)%nat.
Proof. induction 1; [lia|]. pose proof (par_lt p H). lia. Qed.
Lemma anc_par s p : anc s p -> (s < p)%nat -> anc s (par p).
Proof. intros H L. inversion H; subst; [lia|auto]. Qed.
Lemma anc_0 p : anc 0 p.
Proof. induction p as [p IH] using lt_wf_ind. destruct p; [constructor|]. constructor; [lia|]. apply IH, par_lt. lia. Qed.

(** ** The dictionary *)
Definition items (l : list entry) : list A := map e_item l.
(** d is right for every item of v except possibly x. *)
Definition dict_ok_but (d : dict) (v : list entry) (x : A) : Prop :=
  forall it p, it <> x -> (d it = Some p <-> (p < length v)%nat /\ e_item (v @ p) = it).
Definition dict_ok (d : dict) (v : list entry) : Prop :=
  forall it p, d it = Some p <-> (p < length v)%nat /\ e_item (v @ p) = it.
Lemma nodup_pos v i j : NoDup (items v) -> (i < length v)%nat -> (j < length v)%nat -> e_item (v @ i) = e_item (v @ j) -> i = j.
Proof.
  intros N Hi Hj E. unfold items in N. rewrite NoDup_nth in N. apply (N i j).
  - rewrite map_length; auto.
  - rewrite map_length; auto.
  - rewrite !(map_nth e_item v dflt). exact E.
Qed.

Section Move.
(** Moving an entry within the virtual array. *)
Variables (v : list entry) (pos c : nat) (x : entry).
Hypothesis Hp : (pos < length v)%nat.
Hypothesis Hc : (c < length v)%nat.
Hypothesis Ne : pos <> c.
Hypothesis Hx : v @ pos = x.
Let y := v @ c.
Definition v' := upd (upd v pos y) c x.
Lemma v'_len : length v' = length v.
Proof. unfold v'. rewrite !upd_length. reflexivity. Qed.
Lemma v'_pos : v' @ pos = y.
Proof. unfold v'. rewrite upd_other by auto. apply upd_same. exact Hp. Qed.
Lemma v'_c : v' @ c = x.
Proof. unfold v'. apply upd_same. rewrite upd_length. exact Hc. Qed.
Lemma v'_other i : i <> pos -> i <> c -> v' @ i = v @ i.
Proof. intros. unfold v'. rewrite !upd_other by auto. reflexivity. Qed.
Lemma v'_perm : Permutation v' v.
Proof. unfold v'. rewrite <- Hx. apply swap_perm; auto. Qed.
Lemma v'_dict d : NoDup (items v) -> dict_ok_but d v (e_item x) -> dict_ok_but (d_set d (e_item y) pos) v' (e_item x).
Proof.
  intros N D it p Hit. unfold d_set. rewrite v'_len.
  assert (YX : e_item y <> e_item x). { intro E. apply Ne. apply (nodup_pos v); auto. rewrite Hx. symmetry. exact E. }
  destruct (eqbP it (e_item y)) as [->|NY].
  - split.
    + intro E. injection E as <-. rewrite v'_pos. auto.
    + intros [H1 H2]. f_equal. apply (nodup_pos v'); [|rewrite v'_len; auto|rewrite v'_len; auto|].
      * eapply Permutation_NoDup; [|exact N]. apply Permutation_map. symmetry. apply v'_perm.
      * rewrite v'_pos. symmetry. exact H2.
  - rewrite (D it p Hit). destruct (Nat.eq_dec p pos) as [->|P1].
    + rewrite v'_pos, Hx. split; intros [H1 H2]; congruence.
    + destruct (Nat.eq_dec p c) as [->|P2].
      * rewrite v'_c. fold y. split; intros [H1 H2]; congruence.
      * rewrite v'_other by auto. tauto.
Qed.
End Move.

(** ** siftdown *)
(** Heap order on the edges whose upper end is at least [lo]. *)
Definition edge (v : list entry) (i : nat) : Prop := e_le (v @ (par i)) (v @ i).
Definition heap_from (lo : nat) (v : list entry) : Prop :=
  forall i, (0 < i < length v)%nat -> (lo <= par i)%nat -> edge v i.

Record sd_inv (lo s pos : nat) (v : list entry) : Prop := {
  sd_pos : (pos < length v)%nat;
  sd_anc : anc s pos;
  sd_lo : (lo <= s)%nat;
  sd_edge : forall i, (0 < i < length v)%nat -> (lo <= par i)%nat -> i <> pos -> edge v i;
  sd_skip : forall i, (0 < i < length v)%nat -> par i = pos -> (0 < pos)%nat -> (lo <= par pos)%nat -> e_le (v @ (par pos)) (v @ i);
  sd_top : (0 < s)%nat -> (lo <= par s)%nat -> e_le (v @ (par s)) (v @ pos) }.

Lemma siftdown_loop_ok lo s : forall fuel data d x pos,
  (pos < fuel)%nat -> sd_inv lo s pos (upd data pos x) -> (pos < length data)%nat ->
  NoDup (items (upd data pos x)) -> dict_ok_but d (upd data pos x) (e_item x) ->
  exists data' d', siftdown_loop fuel data d x s pos = Ok (data', d') /\
    Permutation data' (upd data pos x) /\ heap_from lo data' /\ dict_ok d' data'.
Proof.
  induction fuel as [|k IH]; intros data d x pos Hf I HL N D; [lia|]. cbn [siftdown_loop].
  set (v := upd data pos x) in *.
  assert (Lv : length v = length data) by (unfold v; apply upd_length).
  assert (Vp : v @ pos = x) by (unfold v; apply upd_same; exact HL).
  assert (Fin_ : edge v pos \/ pos = 0%nat \/ (par pos < lo)%nat ->
     exists data' d', (data'0 <- setn data pos x ;; Ok (data'0, d_set d (e_item x) pos)) = Ok (data', d') /\
      Permutation data' v /\ heap_from lo data' /\ dict_ok d' data').
  { intro H. rewrite setn_ok by exact HL. cbn [bind]. exists v, (d_set d (e_item x) pos). split; [reflexivity|].
    split; [reflexivity|]. split.
    - intros i Hi Hlo. destruct (Nat.eq_dec i pos) as [->|]; [destruct H as [H|[H|H]]; [exact H|lia|lia]|].
      apply (sd_edge _ _ _ _ I); auto.
    - intros it p. unfold d_set. destruct (eqbP it (e_item x)) as [->|Hne].
      + split; [intro E; injection E as <-; rewrite Vp; split; [lia|reflexivity]|].
        intros [H1 H2]. f_equal. apply (nodup_pos v); auto; [lia|]. rewrite Vp. symmetry. exact H2.
      + apply D. exact Hne. }
  destruct (Nat.ltb_spec s pos) as [Hs|Hs].
  - assert (P0 : (0 < pos)%nat) by lia. pose proof (par_lt pos P0) as PL.
    rewrite getn_ok by lia. cbn [bind].
    assert (Dp : data @ (par pos) = v @ (par pos)) by (unfold v; rewrite upd_other by lia; reflexivity).
    destruct (e_ltbP x (data @ (par pos))) as [C|C].
    + rewrite setn_ok by exact HL. cbn [bind]. rewrite Dp in *. set (y := v @ (par pos)) in *.
      assert (EV : upd (upd data pos y) (par pos) x = v' v pos (par pos) x).
      { unfold v', v. rewrite upd_upd. reflexivity. }
      assert (Hc : (par pos < length v)%nat) by lia. assert (Hp : (pos < length v)%nat) by lia.
      assert (Ne : pos <> par pos) by lia.
      pose proof (anc_le _ _ (sd_anc _ _ _ _ I)) as AL.
      pose proof (anc_par _ _ (sd_anc _ _ _ _ I) Hs) as AP. pose proof (anc_le _ _ AP) as APL.
      assert (Slo := sd_lo _ _ _ _ I).
      destruct (IH (upd data pos y) (d_set d (e_item y) pos) x (par pos)) as [data' [d' [E [P [HH DD]]]]].
      * lia.
      * rewrite EV. constructor.
        { rewrite v'_len. lia. }
        { exact AP. }
        { exact Slo. }
        { intros i Hi Hlo Hne. rewrite v'_len in Hi. unfold edge. destruct (Nat.eq_dec i pos) as [->|N1].
          - rewrite v'_c, v'_pos by auto. fold y. apply e_lt_le. exact C.
          - rewrite (v'_other v pos (par pos) x i) by auto. destruct (Nat.eq_dec (par i) (par pos)) as [E1|N2].
            + rewrite E1, v'_c by auto. assert (Q := sd_edge _ _ _ _ I i Hi Hlo N1). unfold edge in Q. rewrite E1 in Q. fold y in Q.
              apply e_lt_le. intro K || idtac. destruct (e_tri x (v @ i)) as [T|[[T1 T2]|T]]; auto; exfalso; apply Q.
              * unfold e_lt in *. rewrite <- T1, <- T2. exact C.
              * eapply e_lt_trans; eauto.
            + destruct (Nat.eq_dec (par i) pos) as [E2|N3].
              * rewrite E2, v'_pos by auto. fold y. apply (sd_skip _ _ _ _ I i Hi E2 P0). lia.
              * rewrite v'_other by auto. apply (sd_edge _ _ _ _ I i Hi Hlo N1). }
        { intros i Hi E1 P1 P2. rewrite v'_len in Hi. pose proof (par_lt (par pos) P1).
          rewrite (v'_other v pos (par pos) x (par (par pos))) by lia.
          destruct (Nat.eq_dec i pos) as [->|N1].
          - rewrite v'_pos by auto. apply (sd_edge _ _ _ _ I (par pos)); lia.
          - assert (i <> par pos) by (intro; subst i; pose proof (par_lt (par pos) P1); lia).
            rewrite (v'_other v pos (par pos) x i) by auto.
            apply e_le_trans with (v @ (par pos)); [apply (sd_edge _ _ _ _ I (par pos)); lia|].
            rewrite <- E1. apply (sd_edge _ _ _ _ I i); lia. }
        { intros S0 S1. rewrite v'_c by auto. pose proof (par_lt s S0).
          rewrite (v'_other v pos (par pos) x (par s)) by lia.
          pose proof (sd_top _ _ _ _ I S0 S1) as Q. rewrite Vp in Q. exact Q. }
      * rewrite upd_length. lia.
      * rewrite EV. eapply Permutation_NoDup; [|exact N]. apply Permutation_map. symmetry. apply v'_perm; auto.
      * rewrite EV. apply (v'_dict v pos (par pos) x); auto.
      * exists data', d'. split; [exact E|]. split; [|split; auto].
        rewrite P, EV. apply v'_perm; auto.
    + apply Fin_. left. unfold edge. rewrite Vp, <- Dp. exact C.
  - apply Fin_. pose proof (anc_le _ _ (sd_anc _ _ _ _ I)). assert (s = pos) by lia. subst s.
    destruct (Nat.eq_dec pos 0); auto. destruct (Nat.lt_ge_cases (par pos) lo) as [|G]; [auto|].
    left. apply (sd_top _ _ _ _ I); lia.
Qed.

Lemma siftdown_ok lo s data d pos : sd_inv lo s pos data -> NoDup (items data) -> dict_ok_but d data (e_item (data @ pos)) ->
  exists data' d', siftdown data d s pos = Ok (data', d') /\
    Permutation data' data /\ heap_from lo data' /\ dict_ok d' data'.
Proof.
  intros I N D. pose proof (sd_pos _ _ _ _ I) as Hp. unfold siftdown. rewrite getn_ok by exact Hp. cbn [bind].
  pose proof (siftdown_loop_ok lo s (S pos) data d (data @ pos) pos) as Q. rewrite upd_id in Q by exact Hp. apply Q; auto.
Qed.

(** ** siftup *)
Record su_inv (lo s pos : nat) (v : list entry) : Prop := {
  su_pos : (pos < length v)%nat;
  su_anc : anc s pos;
  su_lo : (lo <= s)%nat;
  su_edge : forall i, (0 < i < length v)%nat -> (lo <= par i)%nat -> i <> pos -> par i <> pos -> edge v i;
  su_skip : forall i, (0 < i < length v)%nat -> par i = pos -> (0 < pos)%nat -> (lo <= par pos)%nat -> e_le (v @ (par pos)) (v @ i);
  su_top : (0 < s)%nat -> (lo <= par s)%nat -> e_le (v @ (par s)) (v @ pos) }.

Lemma siftup_loop_ok lo s : forall fuel data d x pos,
  (length data - pos < fuel)%nat -> (pos < length data)%nat -> su_inv lo s pos (upd data pos x) ->
  NoDup (items (upd data pos x)) -> dict_ok_but d (upd data pos x) (e_item x) ->
  exists data' d' p, siftup_loop fuel data d pos = Ok (data', d', p) /\
    (p < length data')%nat /\ Permutation (upd data' p x) (upd data pos x) /\
    sd_inv lo s p (upd data' p x) /\ dict_ok_but d' (upd data' p x) (e_item x).
Proof.
  induction fuel as [|k IH]; intros data d x pos Hf HL I N D; [lia|]. cbn [siftup_loop].
  set (v := upd data pos x) in *.
  assert (Lv : length v = length data) by (unfold v; apply upd_length).
  assert (Vp : v @ pos = x) by (unfold v; apply upd_same; exact HL).
  destruct (Nat.ltb_spec (2 * pos + 1) (length data)) as [Hc|Hc].
  - assert (X : exists c, (if (2 * pos + 1 + 1 <? length data)%nat
       then a <- getn data (2 * pos + 1) ;; b <- getn data (2 * pos + 1 + 1) ;;
            Ok (if e_ltb a b then 2 * pos + 1 else 2 * pos + 1 + 1)%nat
       else Ok (2 * pos + 1)%nat) = Ok c /\ (pos < c < length data)%nat /\ par c = pos /\
         forall i, (0 < i < length data)%nat -> par i = pos -> e_le (v @ c) (v @ i)).
    { destruct (par_S pos) as [PA PB].
      assert (Dv : forall i, i <> pos -> data @ i = v @ i) by (intros; unfold v; rewrite upd_other by auto; reflexivity).
      destruct (Nat.ltb_spec (2 * pos + 1 + 1) (length data)) as [Hr|Hr].
      - rewrite !getn_ok by lia. cbn [bind]. rewrite !Dv by lia.
        destruct (e_ltbP (v @ (2 * pos + 1)) (v @ (2 * pos + 1 + 1))) as [C|C].
        + exists (2 * pos + 1)%nat. split; [reflexivity|]. split; [lia|]. split; [exact PA|].
          intros i Hi Ei. destruct (par_inv i ltac:(lia)) as [Q|Q]; rewrite Ei in Q; subst i; [apply e_le_refl|].
          apply e_lt_le. replace (2 * pos + 2)%nat with (2 * pos + 1 + 1)%nat by lia. exact C.
        + exists (2 * pos + 1 + 1)%nat. split; [reflexivity|]. split; [lia|]. split; [rewrite <- PB; f_equal; lia|].
          intros i Hi Ei. destruct (par_inv i ltac:(lia)) as [Q|Q]; rewrite Ei in Q; subst i; [exact C|].
          replace (2 * pos + 2)%nat with (2 * pos + 1 + 1)%nat by lia. apply e_le_refl.
      - exists (2 * pos + 1)%nat. split; [reflexivity|]. split; [lia|]. split; [exact PA|].
        intros i Hi Ei. destruct (par_inv i ltac:(lia)) as [Q|Q]; rewrite Ei in Q; subst i; [apply e_le_refl|lia]. }
    destruct X as [c [-> [Hcc [Pc Min]]]]. cbn [bind]. rewrite getn_ok by lia. cbn [bind]. rewrite setn_ok by exact HL. cbn [bind].
    assert (Dc : data @ c = v @ c) by (unfold v; rewrite upd_other by lia; reflexivity). rewrite Dc. set (y := v @ c) in *.
    assert (EV : upd (upd data pos y) c x = v' v pos c x) by (unfold v', v; rewrite upd_upd; reflexivity).
    assert (Hcv : (c < length v)%nat) by lia. assert (Hpv : (pos < length v)%nat) by lia. assert (Ne : pos <> c) by lia.
    assert (AL := anc_le _ _ (su_anc _ _ _ _ I)).
    destruct (IH (upd data pos y) (d_set d (e_item y) pos) x c) as [data' [d' [p [E [Hp [P [SI DD]]]]]]].
    + rewrite upd_length. lia.
    + rewrite upd_length. lia.
    + rewrite EV. constructor.
      * rewrite v'_len. lia.
      * apply anc_step; [lia|]. rewrite Pc. apply (su_anc _ _ _ _ I).
      * apply (su_lo _ _ _ _ I).
      * intros i Hi Hlo N1 N2. rewrite v'_len in Hi. unfold edge. destruct (Nat.eq_dec i pos) as [->|N3].
        { rewrite v'_pos by auto. fold y. pose proof (par_lt pos ltac:(lia)). rewrite v'_other by lia.
          apply (su_skip _ _ _ _ I c); lia. }
        rewrite (v'_other v pos c x i) by auto. destruct (Nat.eq_dec (par i) pos) as [E1|N4].
        { rewrite E1, v'_pos by auto. apply Min; [lia|exact E1]. }
        rewrite v'_other by auto. apply (su_edge _ _ _ _ I); auto.
      * intros i Hi E1 C0 C1. rewrite v'_len in Hi. rewrite Pc in *. rewrite v'_pos by auto. fold y.
        pose proof (par_lt i ltac:(lia)). rewrite v'_other by lia.
        pose proof (su_edge _ _ _ _ I i Hi) as Q. unfold edge in Q. rewrite E1 in Q. apply Q; lia.
      * intros S0 S1. rewrite v'_c by auto. pose proof (par_lt s S0). rewrite v'_other by lia.
        pose proof (su_top _ _ _ _ I S0 S1) as Q. rewrite Vp in Q. exact Q.
    + rewrite EV. eapply Permutation_NoDup; [|exact N]. apply Permutation_map. symmetry. apply v'_perm; auto.
    + rewrite EV. apply (v'_dict v pos c x); auto.
    + exists data', d', p. split; [exact E|]. split; [exact Hp|]. split; [|split; auto].
      rewrite P, EV. apply v'_perm; auto.
  - exists data, d, pos. split; [reflexivity|]. split; [exact HL|]. split; [reflexivity|]. split; [|exact D].
    fold v. destruct I as [I1 I2 I3 I4 I5 I6]. constructor; auto.
    intros i Hi Hlo N1. apply I4; auto. intro E1. destruct (par_inv i ltac:(lia)) as [Q|Q]; rewrite E1 in Q; lia.
Qed.

Lemma siftup_ok lo s data d : su_inv lo s s data -> NoDup (items data) -> dict_ok_but d data (e_item (data @ s)) ->
  exists data' d', siftup data d s = Ok (data', d') /\
    Permutation data' data /\ heap_from lo data' /\ dict_ok d' data'.
Proof.
  intros I N D. pose proof (su_pos _ _ _ _ I) as Hp. unfold siftup. rewrite getn_ok by exact Hp. cbn [bind].
  destruct (siftup_loop_ok lo s (S (length data)) data d (data @ s) s) as [data1 [d1 [p [E [Lp [P [SI DD]]]]]]];
    try (rewrite upd_id by exact Hp); auto; [lia|].
  rewrite E. cbn [bind]. rewrite setn_ok by exact Lp. cbn [bind]. rewrite upd_id in P by exact Hp.
  set (x := data @ s) in *. set (v := upd data1 p x) in *.
  assert (N1 : NoDup (items v)) by (eapply Permutation_NoDup; [|exact N]; apply Permutation_map; symmetry; exact P).
  assert (Vp : v @ p = x) by (unfold v; apply upd_same; exact Lp).
  destruct (siftdown_ok lo s v (d_set d1 (e_item x) p) p SI N1) as [data' [d' [E2 [P2 [H2 D2]]]]].
  - rewrite Vp. intros it q Hne. unfold d_set. destruct (eqbP it (e_item x)); [congruence|]. apply DD. exact Hne.
  - exists data', d'. split; [exact E2|]. split; [rewrite P2; exact P|]. auto.
Qed.

(** heapify does not need the dict; the run with an arbitrary dict cannot
    raise since no key is ever looked up. *)
Definition fst_eq (a b : res (list entry * dict)) : Prop :=
  match a, b with Ok (x, _), Ok (y, _) => x = y | Err e, Err e' => e = e' | _, _ => False end.
Lemma siftdown_loop_dict s x : forall fuel data d1 d2 pos,
  fst_eq (siftdown_loop fuel data d1 x s pos) (siftdown_loop fuel data d2 x s pos).
Proof.
  induction fuel as [|k IH]; intros data d1 d2 pos; cbn [siftdown_loop fst_eq]; auto.
  destruct (s <? pos)%nat.
  - destruct (getn data (par pos)); cbn [bind fst_eq]; auto. destruct (e_ltb x a).
    + destruct (setn data pos a); cbn [bind fst_eq]; auto.
    + destruct (setn data pos x); cbn [bind fst_eq]; auto.
  - destruct (setn data pos x); cbn [bind fst_eq]; auto.
Qed.
Lemma siftup_loop_dict : forall fuel data d1 d2 pos,
  match siftup_loop fuel data d1 pos, siftup_loop fuel data d2 pos with
  | Ok (x, _, p), Ok (y, _, q) => x = y /\ p = q | Err e, Err e' => e = e' | _, _ => False end.
Proof.
  induction fuel as [|k IH]; intros data d1 d2 pos; cbn [siftup_loop]; auto.
  destruct (2 * pos + 1 <? length data)%nat; [|auto].
  destruct (if (2 * pos + 1 + 1 <? length data)%nat then _ else _) as [c|]; cbn [bind]; auto.
  destruct (getn data c); cbn [bind]; auto. destruct (setn data pos a); cbn [bind]; auto. apply IH.
Qed.
Lemma siftup_dict data d1 d2 s : fst_eq (siftup data d1 s) (siftup data d2 s).
Proof.
  unfold siftup. destruct (getn data s) as [x|]; cbn [bind fst_eq]; auto.
  pose proof (siftup_loop_dict (S (length data)) data d1 d2 s) as Q.
  destruct (siftup_loop (S (length data)) data d1 s) as [[[da da1] p]|], (siftup_loop (S (length data)) data d2 s) as [[[db db1] p']|];
    cbn [bind fst_eq]; try contradiction; auto. destruct Q as [-> ->].
  destruct (setn db p' x); cbn [bind fst_eq]; auto. unfold siftdown. destruct (getn a p'); cbn [bind fst_eq]; auto.
  apply siftdown_loop_dict.
Qed.
(** the dictionary built by the constructor's comprehension *)
Lemma enum_dict_spec : forall l i d, NoDup (items l) -> (forall it, In it (items l) -> d it = None) ->
  forall it p, enum_dict i l d it = Some p <->
    d it = Some p \/ ((i <= p < i + length l)%nat /\ e_item (l @ (p - i)) = it).
Proof.
  induction l as [|e r IH]; intros i d N F it p; cbn [enum_dict length].
  - split; [auto|intros [H|[H _]]; [auto|lia]].
  - cbn [items map] in *. inversion N as [|? ? N1 N2]; subst. rewrite IH; [|exact N2|].
    + unfold d_set. destruct (eqbP it (e_item e)) as [->|Ne].
      * split.
        { intros [H|[H1 H2]]; right; [injection H as <-|].
          - split; [lia|]. rewrite Nat.sub_diag. reflexivity.
          - exfalso. apply N1. rewrite <- H2. apply in_map, nth_In. lia. }
        intros [H|[H1 H2]]; [rewrite (F (e_item e)) in H by (left; reflexivity); discriminate|].
        destruct (Nat.eq_dec p i) as [->|]; [auto|]. right. split; [lia|].
        replace (p - i)%nat with (S (p - S i)) in H2 by lia. exact H2.
      * split; (intros [H|[H1 H2]]; [auto|right]).
        { split; [lia|]. replace (p - i)%nat with (S (p - S i)) by lia. exact H2. }
        destruct (Nat.eq_dec p i) as [->|]; [rewrite Nat.sub_diag in H2; cbn in H2; congruence|]. split; [lia|].
        replace (p - i)%nat with (S (p - S i)) in H2 by lia. exact H2.
    + intros x Hx. unfold d_set. destruct (eqbP x (e_item e)) as [->|]; [contradiction|]. apply F. right. exact Hx.
Qed.
Lemma enum_dict_ok l : NoDup (items l) -> dict_ok (enum_dict 0 l d_empty) l.
Proof.
  intros N it p. rewrite enum_dict_spec by auto. unfold d_empty. rewrite Nat.sub_0_r. split; [intros [H|[H1 H2]]; [discriminate|split; [lia|auto]]|].
  intros [H1 H2]. right. split; [lia|auto].
Qed.

Lemma heapify_loop_ok : forall k data, NoDup (items data) -> heap_from k data -> (2 * k <= length data)%nat ->
  exists data', heapify_loop k data = Ok data' /\ Permutation data' data /\ heap_from 0 data'.
Proof.
  induction k as [|i IH]; intros data N H L; cbn [heapify_loop].
  - exists data. auto.
  - destruct (siftup_ok i i data (enum_dict 0 data d_empty)) as [data1 [d1 [E [P [HF DD]]]]]; auto.
    + constructor; [lia|constructor|lia| | |].
      * intros j Hj Hlo Nj Np. apply H; [exact Hj|lia].
      * intros j Hj Ej P0 P1. pose proof (par_lt i P0). lia.
      * intros P0 P1. pose proof (par_lt i P0). lia.
    + intros it p Hne. apply enum_dict_ok. exact N.
    + pose proof (siftup_dict data (enum_dict 0 data d_empty) d_empty i) as Q. rewrite E in Q.
      destruct (siftup data d_empty i) as [[data2 d2]|]; cbn [fst_eq] in Q; [|contradiction]. subst data2. cbn [bind].
      destruct (IH data1) as [data' [E' [P' H']]].
      * eapply Permutation_NoDup; [|exact N]. apply Permutation_map. symmetry. exact P.
      * exact HF.
      * rewrite (Permutation_length P). lia.
      * exists data'. split; [exact E'|]. split; [rewrite P'; exact P|exact H'].
Qed.
Lemma heapify_ok data : NoDup (items data) -> exists data', heapify data = Ok data' /\ Permutation data' data /\ heap_from 0 data'.
Proof.
  intro N. pose proof (Nat.div2_odd (length data)) as E. apply heapify_loop_ok; auto; [|lia].
  intros i Hi Hlo. exfalso. destruct (par_inv i ltac:(lia)); destruct (Nat.odd (length data)); cbn [Nat.b2n] in E; lia.
Qed.

(** The root of a heap is least. *)
Lemma heap_root v : heap_from 0 v -> forall i, (i < length v)%nat -> e_le (v @ 0) (v @ i).
Proof.
  intros H i. induction i as [i IH] using lt_wf_ind. intro Hi. destruct (Nat.eq_dec i 0) as [->|]; [apply e_le_refl|].
  apply e_le_trans with (v @ (par i)); [apply IH; pose proof (par_lt i); lia|]. apply H; lia.
Qed.
End Q.
Notation "l @ i" := (nth i l dflt) (at level 20).
