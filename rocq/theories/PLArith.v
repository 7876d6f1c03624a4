(** * Sum, negation, difference (C08) *)
From Verif Require Import Base Spec Arrays ArraysProofs PL PLProofs.

(** ** Splitting a sorted list at a rank *)
Lemma firstn_In_nth {A} (l : list A) n x d : In x (firstn n l) ->
  exists i, (i < n)%nat /\ (i < length l)%nat /\ nth i l d = x.
Proof.
  revert l. induction n as [|n IH]; intros l H; [destruct H|].
  destruct l as [|a l]; [destruct H|]. destruct H as [->|H].
  - exists 0%nat. cbn. repeat split; lia.
  - destruct (IH l H) as [i [H1 [H2 H3]]]. exists (S i). cbn. repeat split; auto; lia.
Qed.
Lemma skipn_In_nth {A} (l : list A) n x d : In x (skipn n l) ->
  exists i, (n <= i)%nat /\ (i < length l)%nat /\ nth i l d = x.
Proof.
  revert l. induction n as [|n IH]; intros l H.
  - apply (In_nth _ _ d) in H. destruct H as [i [H1 H2]]. exists i. repeat split; auto; lia.
  - destruct l as [|a l]; [destruct H|]. destruct (IH l H) as [i [H1 [H2 H3]]].
    exists (S i). cbn. repeat split; auto; lia.
Qed.
Lemma nth_firstn_In {A} (l : list A) n i d : (i < n)%nat -> (i < length l)%nat -> In (nth i l d) (firstn n l).
Proof.
  revert l i. induction n as [|n IH]; intros l i H1 H2; [lia|].
  destruct l as [|a l]; [cbn in H2; lia|]. destruct i as [|i]; [left; reflexivity|].
  right. cbn in *. apply IH; lia.
Qed.
Lemma nth_skipn_In {A} (l : list A) n i d : (n <= i)%nat -> (i < length l)%nat -> In (nth i l d) (skipn n l).
Proof.
  revert l i. induction n as [|n IH]; intros l i H1 H2; [apply nth_In; exact H2|].
  destruct l as [|a l]; [cbn in H2; lia|]. destruct i as [|i]; [lia|]. cbn in *. apply IH; lia.
Qed.

Lemma rank_firstn arr x i : StronglySorted Qcle arr -> is_rank arr x i ->
  forall y, In y (firstn (Z.to_nat (i+1)) arr) <-> In y arr /\ y < x.
Proof.
  intros Hs Hr y. assert (Hr' := Hr). apply is_rank_iff in Hr. destruct Hr as [H1 [H2 H3]]. split.
  - intro H. apply (firstn_In_nth _ _ _ 0) in H. destruct H as [k [K1 [K2 <-]]].
    split; [apply nth_In; auto|].
    assert (nthq arr (Z.of_nat k) <= nthq arr i) by (apply sorted_le_nthq; unfold zlen in *; auto; lia).
    assert (nthq arr i < x) by (apply H2; lia).
    unfold nthq in H at 1. rewrite Nat2Z.id in H. qlra.
  - intros [Hy Hlt]. apply (In_nth _ _ 0) in Hy. destruct Hy as [k [K1 <-]].
    apply nth_firstn_In; auto. destruct (Nat.lt_ge_cases k (Z.to_nat (i+1))) as [|Hc]; auto. exfalso.
    assert (nthq arr (i+1) <= nthq arr (Z.of_nat k)) by (apply sorted_le_nthq; unfold zlen in *; auto; lia).
    assert (x <= nthq arr (i+1)) by (apply H3; unfold zlen in *; lia).
    unfold nthq in H at 2. rewrite Nat2Z.id in H. qlra.
Qed.
Lemma rank_skipn arr x i : StronglySorted Qcle arr -> is_rank arr x i ->
  forall y, In y (skipn (Z.to_nat (i+1)) arr) <-> In y arr /\ x <= y.
Proof.
  intros Hs Hr y. assert (Hr' := Hr). apply is_rank_iff in Hr. destruct Hr as [H1 [H2 H3]]. split.
  - intro H. apply (skipn_In_nth _ _ _ 0) in H. destruct H as [k [K1 [K2 <-]]].
    split; [apply nth_In; auto|].
    assert (nthq arr (i+1) <= nthq arr (Z.of_nat k)) by (apply sorted_le_nthq; unfold zlen in *; auto; lia).
    assert (x <= nthq arr (i+1)) by (apply H3; unfold zlen in *; lia).
    unfold nthq in H at 2. rewrite Nat2Z.id in H. qlra.
  - intros [Hy Hlt]. apply (In_nth _ _ 0) in Hy. destruct Hy as [k [K1 <-]].
    apply nth_skipn_In; auto. destruct (Nat.lt_ge_cases k (Z.to_nat (i+1))) as [Hc|]; auto. exfalso.
    assert (nthq arr (Z.of_nat k) <= nthq arr i) by (apply sorted_le_nthq; unfold zlen in *; auto; lia).
    assert (nthq arr i < x) by (apply H2; lia).
    unfold nthq in H at 1. rewrite Nat2Z.id in H. qlra.
Qed.

Lemma SSorted_skipn {A} (R : A -> A -> Prop) n l : StronglySorted R l -> StronglySorted R (skipn n l).
Proof.
  revert l. induction n as [|n IH]; intros l H; [exact H|]. destruct l as [|a l]; [constructor|].
  cbn. apply IH. inversion H; auto.
Qed.
Lemma SSorted_firstn {A} (R : A -> A -> Prop) n l : StronglySorted R l -> StronglySorted R (firstn n l).
Proof.
  revert l. induction n as [|n IH]; intros l H; [constructor|]. destruct l as [|a l]; [constructor|].
  cbn. inversion H as [|? ? H1 H2]; subst. constructor; [apply IH; auto|].
  rewrite Forall_forall in *. intros x Hx. apply H2.
  apply (firstn_In_nth _ _ _ x) in Hx. destruct Hx as [i [_ [Hi <-]]]. apply nth_In. exact Hi.
Qed.

Definition fin_list (e : ext) : list Qc := match e with Fin x => [x] | _ => [] end.

Lemma pyget0_hd l : l <> [] -> pyget l 0 = Ok (hd 0 l).
Proof. destruct l as [|a l]; [congruence|]. intros _. rewrite (pyget_Z _ 0 0) by (cbn [length]; lia). reflexivity. Qed.
Lemma hd_min l : StronglySorted Qcle l -> forall x, In x l -> hd 0 l <= x.
Proof.
  intros Hs x Hx. destruct l as [|a l]; [destruct Hx|]. inversion Hs as [|? ? _ HF]; subst.
  cbn. destruct Hx as [->|Hx]; [qlra|]. rewrite Forall_forall in HF. apply HF. exact Hx.
Qed.
Lemma hd_In l : l <> [] -> In (hd 0 l) l.
Proof. destruct l; [congruence|]. intros _. left; reflexivity. Qed.

Lemma sep_gap l x y : separated l -> In x l -> In y l -> x < y -> gap x y.
Proof. intros H. apply H. Qed.

Lemma cut_lo_ok M lo :
  M <> [] -> StronglySorted gap M -> separated (M ++ fin_list lo) ->
  (exists x, In x M /\ ext_le lo (Fin x)) -> lo <> PInf ->
  exists T, cut_lo M lo = Ok T /\ T <> [] /\ StronglySorted gap T /\
    (forall x, In x T -> ext_le lo (Fin x) /\ (In x M \/ lo = Fin x)) /\
    (forall x, In x M -> ext_le lo (Fin x) -> In x T) /\
    (forall x, In x M -> ~ ext_le lo (Fin x) -> exists l, lo = Fin l /\ In l T).
Proof.
  intros Hne Hg Hsep [w [Hw1 Hw2]] Hlo. assert (Hs := gap_sorted_le _ Hg).
  unfold cut_lo. rewrite pyget0_hd by auto. cbn [bind].
  destruct (ext_ltbP (Fin (hd 0 M)) lo) as [Hlt|Hlt].
  - destruct lo as [|l|]; [exfalso; apply Hlt; exact I| |congruence].
    apply ext_lt_fin in Hlt.
    destruct (elem_rank_ok M l Hne Hs) as [i [E Hr]]. rewrite E. cbn [bind].
    assert (Hsk := rank_skipn M l i Hs Hr).
    assert (Hi := Hr). apply is_rank_iff in Hi. destruct Hi as [Hi1 [Hi2 Hi3]].
    cbn [ext_le] in Hw2.
    assert (Hw3 : In w (skipn (Z.to_nat (i+1)) M)) by (apply Hsk; auto).
    assert (Hlen : (i + 1 < zlen M)%Z).
    { apply (skipn_In_nth _ _ _ 0) in Hw3. destruct Hw3 as [k [K1 [K2 _]]]. unfold zlen in *. lia. }
    rewrite (pyget_Z M (i+1) 0) by (unfold zlen in *; lia). cbn [bind].
    fold (nthq M (i+1)).
    assert (Hin : In (nthq M (i+1)) M) by (apply nthq_in; lia).
    eexists. split; [reflexivity|].
    destruct (qeqbP (nthq M (i+1)) l) as [Heq|Hneq].
    + split; [intro Hn; rewrite Hn in Hw3; destruct Hw3|].
      split; [apply SSorted_skipn; auto|]. split; [|split].
      * intros x Hx. apply Hsk in Hx. destruct Hx. split; auto.
      * intros x Hx Hx2. apply Hsk. auto.
      * intros x Hx Hx2. exists l. split; auto. apply Hsk. split; [|qlra]. rewrite <- Heq. exact Hin.
    + split; [discriminate|]. split; [|split; [|split]].
      * constructor; [apply SSorted_skipn; auto|]. apply Forall_forall. intros x Hx.
        assert (Hx' := Hx). apply Hsk in Hx. destruct Hx as [Hx Hlx].
        apply Hsep.
        -- apply in_or_app. right. left. reflexivity.
        -- apply in_or_app. left. exact Hx.
        -- destruct (qeqbP x l) as [->|]; [|qlra].
           exfalso. apply Hneq.
           assert (l <= nthq M (i+1)) by (apply Hi3; lia).
           assert (nthq M (i+1) <= l).
           { apply (skipn_In_nth _ _ _ 0) in Hx'. destruct Hx' as [k [K1 [K2 K3]]].
             rewrite <- K3. replace (nth k M 0) with (nthq M (Z.of_nat k)) by (unfold nthq; rewrite Nat2Z.id; reflexivity).
             apply sorted_le_nthq; unfold zlen in *; auto; lia. }
           qlra.
      * intros x [<-|Hx]; [split; [apply ext_le_refl|auto]|].
        apply Hsk in Hx. destruct Hx. split; auto.
      * intros x Hx Hx2. right. apply Hsk. auto.
      * intros x Hx Hx2. exists l. split; auto. left; reflexivity.
  - exists M. split; [reflexivity|]. split; auto. split; auto.
    assert (Hall : forall x, In x M -> ext_le lo (Fin x)).
    { intros x Hx. apply ext_le_trans with (Fin (hd 0 M)).
      - destruct (ext_le_total lo (Fin (hd 0 M))) as [|H]; auto.
        unfold ext_lt in Hlt. destruct (ext_lebP lo (Fin (hd 0 M))); auto. tauto.
      - cbn. apply hd_min; auto. }
    split; [intros; auto|]. split; [intros; auto|]. intros x Hx Hx2. exfalso. auto.
Qed.

Lemma cut_hi_ok M hi :
  M <> [] -> StronglySorted gap M -> separated (M ++ fin_list hi) -> hi <> NInf ->
  exists T, cut_hi M hi = Ok T /\ T <> [] /\ StronglySorted gap T /\
    (forall x, In x T -> ext_le (Fin x) hi /\ (In x M \/ hi = Fin x)) /\
    (forall x, In x M -> ext_le (Fin x) hi -> In x T) /\
    (forall x, In x M -> ~ ext_le (Fin x) hi -> exists h, hi = Fin h /\ In h T).
Proof.
  intros Hne Hg Hsep Hhi. assert (Hs := gap_sorted_le _ Hg).
  unfold cut_hi. rewrite (pyget_last M 0) by auto. cbn [bind].
  destruct (ext_ltbP hi (Fin (last M 0))) as [Hlt|Hlt].
  - destruct hi as [|h|]; [congruence| |exfalso; apply Hlt; exact I].
    apply ext_lt_fin in Hlt.
    destruct (elem_rank_ok M h Hne Hs) as [i [E Hr]]. rewrite E. cbn [bind].
    assert (Hfi := rank_firstn M h i Hs Hr). assert (Hsk := rank_skipn M h i Hs Hr).
    assert (Hi := Hr). apply is_rank_iff in Hi. destruct Hi as [Hi1 [Hi2 Hi3]].
    assert (Hw3 : In (last M 0) (skipn (Z.to_nat (i+1)) M)) by (apply Hsk; split; [apply last_In; auto|qlra]).
    assert (Hlen : (i + 1 < zlen M)%Z).
    { apply (skipn_In_nth _ _ _ 0) in Hw3. destruct Hw3 as [k [K1 [K2 _]]]. unfold zlen in *. lia. }
    rewrite (pyget_Z M (i+1) 0) by (unfold zlen in *; lia). cbn [bind].
    fold (nthq M (i+1)).
    assert (Hin : In (nthq M (i+1)) M) by (apply nthq_in; lia).
    eexists. split; [reflexivity|].
    destruct (qeqbP (nthq M (i+1)) h) as [Heq|Hneq].
    + assert (EF : firstn (Z.to_nat (i+2)) M = firstn (Z.to_nat (i+1)) M ++ [h]).
      { replace (Z.to_nat (i+2)) with (S (Z.to_nat (i+1))) by lia.
        rewrite <- Heq. unfold nthq. unfold zlen in Hlen.
        assert (HL : (Z.to_nat (i+1) < length M)%nat) by lia. revert HL. generalize (Z.to_nat (i+1)).
        clear. intros n. revert M. induction n as [|n IH]; intros M HL; destruct M as [|a M]; cbn in HL; try lia; [reflexivity|].
        cbn [firstn app nth]. f_equal. apply IH. lia. }
      split; [rewrite EF; destruct (firstn (Z.to_nat (i+1)) M); discriminate|].
      split; [apply SSorted_firstn; auto|]. rewrite EF. split; [|split].
      * intros x Hx. apply in_app_or in Hx. destruct Hx as [Hx|[<-|[]]].
        -- apply Hfi in Hx. destruct Hx. split; auto. cbn. qlra.
        -- split; [apply ext_le_refl|auto].
      * intros x Hx Hx2. cbn in Hx2. apply in_or_app. destruct (qeqbP x h) as [->|].
        -- right; left; auto.
        -- left. apply Hfi. split; auto. qlra.
      * intros x Hx Hx2. exists h. split; auto. apply in_or_app. right; left; auto.
    + split; [destruct (firstn (Z.to_nat (i+1)) M); discriminate|]. split; [|split; [|split]].
      * apply SSorted_app; [apply SSorted_firstn; auto|repeat constructor|].
        intros a b Ha [<-|[]]. apply Hfi in Ha. destruct Ha as [Ha1 Ha2]. apply Hsep; auto.
        -- apply in_or_app; left; auto.
        -- apply in_or_app; right; left; auto.
      * intros x Hx. apply in_app_or in Hx. destruct Hx as [Hx|[<-|[]]].
        -- apply Hfi in Hx. destruct Hx. split; auto. cbn. qlra.
        -- split; [apply ext_le_refl|auto].
      * intros x Hx Hx2. cbn in Hx2. apply in_or_app. destruct (qeqbP x h) as [->|].
        -- right; left; auto.
        -- left. apply Hfi. split; auto. qlra.
      * intros x Hx Hx2. exists h. split; auto. apply in_or_app. right; left; auto.
  - exists M. split; [reflexivity|]. split; auto. split; auto.
    assert (Hall : forall x, In x M -> ext_le (Fin x) hi).
    { intros x Hx. apply ext_le_trans with (Fin (last M 0)).
      - cbn. apply sorted_last_max; auto.
      - unfold ext_lt in Hlt. destruct (ext_lebP (Fin (last M 0)) hi); auto. tauto. }
    split; [intros; auto|]. split; [intros; auto|]. intros x Hx Hx2. exfalso. auto.
Qed.

(** ** Helper forms of the piece formulas *)
Lemma at_left2 f t u : valid f -> t <= u -> (forall x, In x (pl_times f) -> u <= x) ->
  pl_at f t = pl_at f u + (t - u) * pl_first f.
Proof.
  intros V Htu Hu. assert (Hp := len_pos f V).
  assert (u <= tm f 0) by (apply Hu; apply tm_in; lia).
  rewrite (at_left f t), (at_left f u) by (auto; qlra). ring.
Qed.
Lemma at_right2 f t u : valid f -> u <= t -> (forall x, In x (pl_times f) -> x <= u) ->
  pl_at f t = pl_at f u + (t - u) * pl_last f.
Proof.
  intros V Htu Hu. assert (Hp := len_pos f V).
  assert (tm f (pl_len f - 1) <= u) by (apply Hu; apply tm_in; lia).
  rewrite (at_right f t), (at_right f u) by (auto; qlra). ring.
Qed.

Lemma mapM_ok {A B} (g : A -> res B) (h : A -> B) l :
  (forall x, In x l -> g x = Ok (h x)) -> mapM g l = Ok (map h l).
Proof.
  induction l as [|a l IH]; intro H; [reflexivity|]. cbn [mapM map].
  rewrite H by (left; auto). cbn [bind]. rewrite IH by (intros; apply H; right; auto). reflexivity.
Qed.
Lemma nthq_map h ts i : (0 <= i < zlen ts)%Z -> nthq (map h ts) i = h (nthq ts i).
Proof.
  intro H. unfold nthq, zlen in *. rewrite (nth_indep _ 0 (h 0)) by (rewrite map_length; lia). apply map_nth.
Qed.

(** ** Negation *)
Lemma neg_ok f : valid f -> exists n, pl_neg f = Ok n /\ valid n /\ pl_times n = pl_times f /\
  pl_lo n = pl_lo f /\ pl_hi n = pl_hi f /\ pl_first n = - pl_first f /\ pl_last n = - pl_last f /\
  (forall t, pl_at n t = - pl_at f t).
Proof.
  intro V.
  set (n := mkPL (pl_times f) (map Qcopp (pl_values f)) (- pl_first f) (- pl_last f) (pl_lo f) (pl_hi f)).
  assert (Vn : valid n).
  { destruct V as [H1 H2 H3 H4]. constructor; cbn; auto. rewrite map_length. exact H1. }
  exists n. split; [exact (pl_init_ok n Vn)|]. split; [exact Vn|]. repeat split.
  intro t. unfold pl_at, pts. cbn.
  generalize (pl_first f) as s. generalize (pl_values f). destruct V as [_ _ Hg _].
  apply gap_sorted_lt in Hg. revert Hg. generalize (pl_times f).
  induction l as [|t0 ts IH]; intros Hg vs s; [cbn; ring|].
  destruct vs as [|v0 vs]; [cbn; ring|]. cbn [map combine interp].
  destruct (qleb t t0); [ring|]. inversion Hg as [|? ? Hg' HF]; subst.
  specialize (IH Hg' vs).
  destruct ts as [|t1 ts]; [cbn [combine]; ring|]. destruct vs as [|v1 vs]; [cbn [map combine]; ring|].
  cbn [map combine] in *. rewrite <- IH. f_equal.
  inversion HF; subst. field. qlra.
Qed.

(** ** Sum *)
Definition plus_sep (f g : PL) : Prop :=
  separated (pl_times f ++ pl_times g ++
             fin_list (ext_max (pl_lo f) (pl_lo g)) ++ fin_list (ext_min (pl_hi f) (pl_hi g))).

Lemma ext_max_le a b c : ext_le (ext_max a b) c <-> ext_le a c /\ ext_le b c.
Proof.
  unfold ext_max. destruct (ext_ltbP a b) as [H|H].
  - split; [intro H2; split; auto; eapply ext_le_trans; [apply ext_lt_le; exact H|exact H2]|tauto].
  - assert (ext_le b a). { unfold ext_lt in H. destruct (ext_lebP b a); tauto. }
    split; [intro H2; split; auto; eapply ext_le_trans; eauto|tauto].
Qed.
Lemma ext_min_le a b c : ext_le c (ext_min a b) <-> ext_le c a /\ ext_le c b.
Proof.
  unfold ext_min. destruct (ext_ltbP b a) as [H|H].
  - split; [intro H2; split; auto; eapply ext_le_trans; [exact H2|apply ext_lt_le; exact H]|tauto].
  - assert (ext_le a b). { unfold ext_lt in H. destruct (ext_lebP a b); tauto. }
    split; [intro H2; split; auto; eapply ext_le_trans; eauto|tauto].
Qed.
Lemma ext_max_or a b : ext_max a b = a \/ ext_max a b = b.
Proof. unfold ext_max. destruct (ext_ltb a b); auto. Qed.

Lemma plus_ok f g : valid f -> valid g ->
  ext_lt (ext_max (pl_lo f) (pl_lo g)) (ext_min (pl_hi f) (pl_hi g)) -> plus_sep f g ->
  exists p, pl_plus f g = Ok p /\ valid p /\
    pl_lo p = ext_max (pl_lo f) (pl_lo g) /\ pl_hi p = ext_min (pl_hi f) (pl_hi g) /\
    (forall t, in_dom p t <-> in_dom f t /\ in_dom g t) /\
    (forall t, in_dom p t -> pl_at p t = pl_at f t + pl_at g t) /\
    (forall x, In x (pl_times p) -> In x (pl_times f) \/ In x (pl_times g) \/ pl_lo p = Fin x \/ pl_hi p = Fin x).
Proof.
  intros Vf Vg Hdom Hsep. unfold plus_sep in Hsep.
  set (lo := ext_max (pl_lo f) (pl_lo g)) in *. set (hi := ext_min (pl_hi f) (pl_hi g)) in *.
  set (M := merge_sorted (pl_times f) (pl_times g)).
  destruct (merge_sorted_facts (pl_times f) (pl_times g) (times_sorted f Vf) (times_sorted g Vg))
    as [MG [_ [_ MX]]].
  assert (MIn : forall x, In x M <-> In x (pl_times f) \/ In x (pl_times g)).
  { intro x. unfold M. rewrite MX; [apply in_app_iff|].
    intros a b Ha Hb. apply Hsep; rewrite app_assoc; apply in_or_app; left; auto. }
  fold M in MG.
  assert (MNe : M <> []).
  { intro E. destruct Vf as [_ Hne _ _]. destruct (pl_times f) as [|x r] eqn:Ef; [congruence|].
    assert (In x M) by (apply MIn; left; left; auto). rewrite E in H. destruct H. }
  assert (Hlo : lo <> PInf). { intro E. apply Hdom. rewrite E. destruct hi; exact I. }
  assert (Hhi : hi <> NInf). { intro E. apply Hdom. rewrite E. exact I. }
  assert (Hex : exists x, In x M /\ ext_le lo (Fin x)).
  { unfold lo. destruct (ext_max_or (pl_lo f) (pl_lo g)) as [-> | ->].
    - destruct Vf as [_ Hne _ HD]. exists (hd 0 (pl_times f)). split; [apply MIn; left; apply hd_In; auto|].
      apply HD. apply hd_In; auto.
    - destruct Vg as [_ Hne _ HD]. exists (hd 0 (pl_times g)). split; [apply MIn; right; apply hd_In; auto|].
      apply HD. apply hd_In; auto. }
  assert (Hsub1 : separated (M ++ fin_list lo)).
  { intros a b Ha Hb. apply Hsep.
    - apply in_app_or in Ha. rewrite MIn in Ha. repeat rewrite in_app_iff. tauto.
    - apply in_app_or in Hb. rewrite MIn in Hb. repeat rewrite in_app_iff. tauto. }
  destruct (cut_lo_ok M lo MNe MG Hsub1 Hex Hlo) as [T1 [E1 [N1 [G1 [A1 [B1 C1]]]]]].
  assert (Hsub2 : separated (T1 ++ fin_list hi)).
  { intros a b Ha Hb. apply Hsep.
    - apply in_app_or in Ha. destruct Ha as [Ha|Ha].
      + apply A1 in Ha. rewrite MIn in Ha. repeat rewrite in_app_iff.
        destruct Ha as [_ [[|]|Ha]]; try tauto. rewrite Ha. cbn. tauto.
      + repeat rewrite in_app_iff. tauto.
    - apply in_app_or in Hb. destruct Hb as [Hb|Hb].
      + apply A1 in Hb. rewrite MIn in Hb. repeat rewrite in_app_iff.
        destruct Hb as [_ [[|]|Hb]]; try tauto. rewrite Hb. cbn. tauto.
      + repeat rewrite in_app_iff. tauto. }
  destruct (cut_hi_ok T1 hi N1 G1 Hsub2 Hhi) as [T [E2 [N2 [G2 [A2 [B2 C2]]]]]].
  assert (TA : forall x, In x T -> ext_le lo (Fin x) /\ ext_le (Fin x) hi).
  { intros x Hx. destruct (A2 x Hx) as [H1 H2]. split; auto. destruct H2 as [H2|H2].
    - apply A1; auto.
    - rewrite <- H2. apply ext_lt_le. exact Hdom. }
  assert (TB : forall x, In x M -> ext_le lo (Fin x) -> ext_le (Fin x) hi -> In x T).
  { intros x H1 H2 H3. apply B2; auto. }
  assert (TC : forall x, In x M -> ~ ext_le lo (Fin x) -> exists l, lo = Fin l /\ In l T).
  { intros x H1 H2. destruct (C1 x H1 H2) as [l [El Hl]]. exists l. split; auto. apply B2; auto.
    rewrite <- El. apply ext_lt_le. exact Hdom. }
  assert (TD : forall x, In x M -> ~ ext_le (Fin x) hi -> exists h, hi = Fin h /\ In h T).
  { intros x H1 H2. destruct (ext_lebP lo (Fin x)) as [H3|H3].
    - apply (C2 x); auto.
    - exfalso. apply H2. destruct (ext_le_total lo (Fin x)) as [|H4]; [tauto|].
      eapply ext_le_trans; [exact H4|]. apply ext_lt_le. exact Hdom. }
  assert (Dfg : forall t, ext_le lo (Fin t) /\ ext_le (Fin t) hi <-> in_dom f t /\ in_dom g t).
  { intro t. unfold lo, hi, in_dom. rewrite ext_max_le, ext_min_le. tauto. }
  set (h := fun t => pl_at f t + pl_at g t).
  set (p := mkPL T (map h T) (pl_first f + pl_first g) (pl_last f + pl_last g) lo hi).
  assert (Vp : valid p).
  { constructor; [apply map_length|exact N2|exact G2|]. intros t Ht. apply TA in Ht. exact Ht. }
  assert (Ep : pl_plus f g = Ok p).
  { unfold pl_plus. fold lo. fold hi.
    destruct (ext_ltbP lo hi) as [_|Hc]; [|contradiction]. cbn [assertb bind].
    fold M. rewrite E1. cbn [bind]. rewrite E2. cbn [bind].
    rewrite (mapM_ok _ h).
    - cbn [bind]. exact (pl_init_ok p Vp).
    - intros x Hx. apply TA in Hx. apply Dfg in Hx. destruct Hx.
      rewrite !eval_at by auto. reflexivity. }
  exists p. split; [exact Ep|]. split; [exact Vp|]. split; [reflexivity|]. split; [reflexivity|].
  assert (Dp : forall t, in_dom p t <-> in_dom f t /\ in_dom g t) by (intro t; rewrite <- Dfg; reflexivity).
  split; [exact Dp|]. split.
  2:{ intros x Hx. cbn in *. apply A2 in Hx. destruct Hx as [_ [Hx|Hx]]; [|auto].
      apply A1 in Hx. destruct Hx as [_ [Hx|Hx]]; [|auto]. apply MIn in Hx. tauto. }
  assert (Hp := len_pos p Vp).
  apply (at_unique p h Vp).
  - intros i Hi. change (vl p i) with (nthq (map h T) i). change (tm p i) with (nthq T i).
    rewrite nthq_map by exact Hi. reflexivity.
  - intros i Hi. apply aff_plus; apply at_aff; auto; intros x Hx.
    + assert (HM : In x M) by (apply MIn; auto).
      destruct (ext_lebP lo (Fin x)) as [K1|K1]; destruct (ext_lebP (Fin x) hi) as [K2|K2].
      * apply (tm_no_between p i Vp Hi). exact (TB x HM K1 K2).
      * right. assert (In (tm p (i+1)) T) by (apply (tm_in p); lia). apply TA in H. destruct H as [_ H].
        destruct (ext_le_total (Fin x) hi) as [|Hx2]; [tauto|].
        assert (ext_le (Fin (tm p (i+1))) (Fin x)) by (eapply ext_le_trans; eauto). exact H0.
      * left. assert (In (tm p i) T) by (apply (tm_in p); lia). apply TA in H. destruct H as [H _].
        destruct (ext_le_total lo (Fin x)) as [|Hx2]; [tauto|].
        assert (ext_le (Fin x) (Fin (tm p i))) by (eapply ext_le_trans; eauto). exact H0.
      * left. assert (In (tm p i) T) by (apply (tm_in p); lia). apply TA in H. destruct H as [H _].
        destruct (ext_le_total lo (Fin x)) as [|Hx2]; [tauto|].
        assert (ext_le (Fin x) (Fin (tm p i))) by (eapply ext_le_trans; eauto). exact H0.
    + assert (HM : In x M) by (apply MIn; auto).
      destruct (ext_lebP lo (Fin x)) as [K1|K1]; destruct (ext_lebP (Fin x) hi) as [K2|K2].
      * apply (tm_no_between p i Vp Hi). exact (TB x HM K1 K2).
      * right. assert (In (tm p (i+1)) T) by (apply (tm_in p); lia). apply TA in H. destruct H as [_ H].
        destruct (ext_le_total (Fin x) hi) as [|Hx2]; [tauto|].
        assert (ext_le (Fin (tm p (i+1))) (Fin x)) by (eapply ext_le_trans; eauto). exact H0.
      * left. assert (In (tm p i) T) by (apply (tm_in p); lia). apply TA in H. destruct H as [H _].
        destruct (ext_le_total lo (Fin x)) as [|Hx2]; [tauto|].
        assert (ext_le (Fin x) (Fin (tm p i))) by (eapply ext_le_trans; eauto). exact H0.
      * left. assert (In (tm p i) T) by (apply (tm_in p); lia). apply TA in H. destruct H as [H _].
        destruct (ext_le_total lo (Fin x)) as [|Hx2]; [tauto|].
        assert (ext_le (Fin x) (Fin (tm p i))) by (eapply ext_le_trans; eauto). exact H0.
  - intros t Hd Ht.
    assert (Hall : forall x, In x M -> tm p 0 <= x).
    { intros x Hx. destruct (qlebP (tm p 0) x) as [|Hc]; auto. exfalso.
      assert (HT0 : In (tm p 0) T) by (apply (tm_in p); lia).
      destruct (ext_lebP lo (Fin x)) as [K1|K1].
      - assert (HxT : In x T).
        { apply TB; auto. apply TA in HT0. destruct HT0 as [_ HT0].
          eapply ext_le_trans; [|exact HT0]. cbn [ext_le]. qlra. }
        destruct (in_tm p x HxT) as [j [Hj Ej]]. assert (K := tm_le p Vp 0 j ltac:(lia) ltac:(lia)). qlra.
      - destruct (TC x Hx K1) as [l [El Hl]]. destruct Hd as [Hd _]. change (pl_lo p) with lo in Hd. rewrite El in Hd. cbn [ext_le] in Hd.
        destruct (in_tm p l Hl) as [j [Hj Ej]]. assert (K := tm_le p Vp 0 j ltac:(lia) ltac:(lia)). qlra. }
    unfold h. rewrite (at_left2 f t (tm p 0)), (at_left2 g t (tm p 0)); auto; try qlra;
      try (intros x Hx; apply Hall; apply MIn; auto).
    unfold vl. cbn [pl_values p]. rewrite nthq_map by exact (conj (Z.le_refl 0) Hp).
    fold (tm p 0). unfold h. change (nthq T 0) with (tm p 0). cbn [pl_first p]. ring.
  - intros t Hd Ht.
    assert (Hall : forall x, In x M -> x <= tm p (pl_len p - 1)).
    { intros x Hx. destruct (qlebP x (tm p (pl_len p - 1))) as [|Hc]; auto. exfalso.
      assert (HT0 : In (tm p (pl_len p - 1)) T) by (apply (tm_in p); lia).
      destruct (ext_lebP (Fin x) hi) as [K1|K1].
      - assert (HxT : In x T).
        { apply TB; auto. apply TA in HT0. destruct HT0 as [HT0 _].
          eapply ext_le_trans; [exact HT0|]. cbn [ext_le]. qlra. }
        destruct (in_tm p x HxT) as [j [Hj Ej]].
        assert (K := tm_le p Vp j (pl_len p - 1) ltac:(lia) ltac:(lia)). qlra.
      - destruct (TD x Hx K1) as [l [El Hl]]. destruct Hd as [_ Hd]. change (pl_hi p) with hi in Hd. rewrite El in Hd. cbn [ext_le] in Hd.
        destruct (in_tm p l Hl) as [j [Hj Ej]].
        assert (K := tm_le p Vp j (pl_len p - 1) ltac:(lia) ltac:(lia)). qlra. }
    unfold h. rewrite (at_right2 f t (tm p (pl_len p - 1))), (at_right2 g t (tm p (pl_len p - 1))); auto; try qlra;
      try (intros x Hx; apply Hall; apply MIn; auto).
    unfold vl. cbn [pl_values p]. rewrite nthq_map by (unfold pl_len in *; cbn [pl_times p] in *; lia).
    unfold h. change (nthq T (pl_len p - 1)) with (tm p (pl_len p - 1)). cbn [pl_last p]. ring.
Qed.
