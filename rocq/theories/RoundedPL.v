(** * Negation, addition and subtraction of PiecewiseLinear functions with
      floating-point arithmetic (src/utilities/piecewise_linear.py), edge loads
      (src/core/dynamic_flow.py) *)
From Coq Require Import Permutation Sorted.
From Verif Require Import Base Spec Arrays ArraysProofs PL PLProofs PLEval PLArith PLOps PLOps2 RC RCProofs FRC DynFlow Rounded RoundedFlow RoundedBuilder RoundedSplit RoundedRC.

Section model.
Variable rnd : Qc -> Qc.
Variable on : bool.
(** piecewise_linear.py:191-198 [__neg__]: changing the sign of a float is exact *)
Definition r_pl_neg (f : PL) : res PL := r_pl_init rnd on (pl_times f) (map Qcopp (pl_values f)) (- pl_first f) (- pl_last f) (pl_lo f) (pl_hi f).
(** piecewise_linear.py:210-249 [plus]; [cut_lo], [cut_hi] compare and copy only *)
Definition r_pl_plus (f g : PL) : res PL :=
  let lo := ext_max (pl_lo f) (pl_lo g) in
  let hi := ext_min (pl_hi f) (pl_hi g) in
  _ <- asr on (ext_ltb lo hi) ;;
  times1 <- cut_lo (r_merge_sorted rnd (pl_times f) (pl_times g)) lo ;;
  times <- cut_hi times1 hi ;;
  values <- mapM (fun phi => a <- r_pl_eval rnd on f phi ;; b <- r_pl_eval rnd on g phi ;; Ok (rnd (a + b))) times ;;
  r_pl_init rnd on times values (rnd (pl_first f + pl_first g)) (rnd (pl_last f + pl_last g)) lo hi.
(** piecewise_linear.py:200-203 [__sub__] *)
Definition r_pl_sub (f g : PL) : res PL := ng <- r_pl_neg g ;; r_pl_plus f ng.
(** dynamic_flow.py:242-257 [get_edge_loads]: one edge (the code makes the
    differences of all edges, then asserts, then corrects; without an exception
    the order does not matter) *)
Definition r_edge_load (a b : FRC) : res PL :=
  f <- r_pl_sub (c_acc a) (c_acc b) ;;
  _ <- asr on (ext_eqb (pl_lo f) (Fin 0)) ;;
  _ <- (if on then v <- r_pl_eval rnd on f 0 ;; assertb (qltb (qabs v) (r_eps rnd)) else Ok tt) ;;
  v0 <- pyget (pl_values f) 0 ;;
  Ok (if qeqb v0 0 then mkPL (pl_times f) (pl_values f) 0 (pl_last f) NInf (pl_hi f)
      else mkPL (0 :: pl_times f) (0 :: pl_values f) 0 (pl_last f) NInf (pl_hi f)).
End model.

(** ** Cutting; [R] is a strict order in which the times are sorted *)
Section cuts.
Variable R : Qc -> Qc -> Prop.
Hypothesis R_lt : forall a b, R a b -> a < b.
Definition sepR (l : list Qc) : Prop := forall x y, In x l -> In y l -> x < y -> R x y.
Lemma R_sorted_le l : StronglySorted R l -> StronglySorted Qcle l.
Proof. intro H. induction H as [|a l S IH F]; constructor; [exact IH|]. rewrite Forall_forall in *. intros x X. specialize (F x X). apply R_lt in F. qlra. Qed.
Lemma rcut_lo_ok M lo :
  M <> [] -> StronglySorted R M -> sepR (M ++ fin_list lo) ->
  (exists x, In x M /\ ext_le lo (Fin x)) -> lo <> PInf ->
  exists T, cut_lo M lo = Ok T /\ T <> [] /\ StronglySorted R T /\
    (forall x, In x T -> ext_le lo (Fin x) /\ (In x M \/ lo = Fin x)) /\
    (forall x, In x M -> ext_le lo (Fin x) -> In x T) /\
    (forall x, In x M -> ~ ext_le lo (Fin x) -> exists l, lo = Fin l /\ In l T).
Proof.
  intros Hne Hg Hsep [w [Hw1 Hw2]] Hlo. assert (Hs := R_sorted_le _ Hg).
  unfold cut_lo. rewrite pyget0_hd by auto. cbn [bind].
  destruct (ext_ltbP (Fin (hd 0 M)) lo) as [Hlt|Hlt].
  - destruct lo as [|l|]; [exfalso; apply Hlt; exact I| |congruence].
    apply ext_lt_fin in Hlt.
    destruct (elem_rank_ok M l Hne Hs) as [i [E Hr]]. rewrite E. cbn [bind].
    assert (Hsk := rank_skipn M l i Hs Hr).
    assert (Hi := Hr). apply is_rank_iff in Hi. destruct Hi as [Hi1 [Hi2 Hi3]].
    cbn [ext_le] in Hw2.
    assert (Hw3 : In w (skipn (Z.to_nat (i+1)) M)) by (apply Hsk; auto).
    assert (Hlen : (i + 1 < zlen M)%Z).
    { apply (skipn_In_nth _ _ _ 0) in Hw3. destruct Hw3 as [k [K1 [K2 _]]]. unfold zlen in *. lia. }
    rewrite (pyget_Z M (i+1) 0) by (unfold zlen in *; lia). cbn [bind].
    fold (nthq M (i+1)).
    assert (Hin : In (nthq M (i+1)) M) by (apply nthq_in; lia).
    eexists. split; [reflexivity|].
    destruct (qeqbP (nthq M (i+1)) l) as [Heq|Hneq].
    + split; [intro Hn; rewrite Hn in Hw3; destruct Hw3|].
      split; [apply SSorted_skipn; auto|]. split; [|split].
      * intros x Hx. apply Hsk in Hx. destruct Hx. split; auto.
      * intros x Hx Hx2. apply Hsk. auto.
      * intros x Hx Hx2. exists l. split; auto. apply Hsk. split; [|qlra]. rewrite <- Heq. exact Hin.
    + split; [discriminate|]. split; [|split; [|split]].
      * constructor; [apply SSorted_skipn; auto|]. apply Forall_forall. intros x Hx.
        assert (Hx' := Hx). apply Hsk in Hx. destruct Hx as [Hx Hlx].
        apply Hsep.
        -- apply in_or_app. right. left. reflexivity.
        -- apply in_or_app. left. exact Hx.
        -- destruct (qeqbP x l) as [->|]; [|qlra].
           exfalso. apply Hneq.
           assert (l <= nthq M (i+1)) by (apply Hi3; lia).
           assert (nthq M (i+1) <= l).
           { apply (skipn_In_nth _ _ _ 0) in Hx'. destruct Hx' as [k [K1 [K2 K3]]].
             rewrite <- K3. replace (nth k M 0) with (nthq M (Z.of_nat k)) by (unfold nthq; rewrite Nat2Z.id; reflexivity).
             apply sorted_le_nthq; unfold zlen in *; auto; lia. }
           qlra.
      * intros x [<-|Hx]; [split; [apply ext_le_refl|auto]|].
        apply Hsk in Hx. destruct Hx. split; auto.
      * intros x Hx Hx2. right. apply Hsk. auto.
      * intros x Hx Hx2. exists l. split; auto. left; reflexivity.
  - exists M. split; [reflexivity|]. split; auto. split; auto.
    assert (Hall : forall x, In x M -> ext_le lo (Fin x)).
    { intros x Hx. apply ext_le_trans with (Fin (hd 0 M)).
      - destruct (ext_le_total lo (Fin (hd 0 M))) as [|H]; auto.
        unfold ext_lt in Hlt. destruct (ext_lebP lo (Fin (hd 0 M))); auto. tauto.
      - cbn. apply hd_min; auto. }
    split; [intros; auto|]. split; [intros; auto|]. intros x Hx Hx2. exfalso. auto.
Qed.

Lemma rcut_hi_ok M hi :
  M <> [] -> StronglySorted R M -> sepR (M ++ fin_list hi) -> hi <> NInf ->
  exists T, cut_hi M hi = Ok T /\ T <> [] /\ StronglySorted R T /\
    (forall x, In x T -> ext_le (Fin x) hi /\ (In x M \/ hi = Fin x)) /\
    (forall x, In x M -> ext_le (Fin x) hi -> In x T) /\
    (forall x, In x M -> ~ ext_le (Fin x) hi -> exists h, hi = Fin h /\ In h T).
Proof.
  intros Hne Hg Hsep Hhi. assert (Hs := R_sorted_le _ Hg).
  unfold cut_hi. rewrite (pyget_last M 0) by auto. cbn [bind].
  destruct (ext_ltbP hi (Fin (last M 0))) as [Hlt|Hlt].
  - destruct hi as [|h|]; [congruence| |exfalso; apply Hlt; exact I].
    apply ext_lt_fin in Hlt.
    destruct (elem_rank_ok M h Hne Hs) as [i [E Hr]]. rewrite E. cbn [bind].
    assert (Hfi := rank_firstn M h i Hs Hr). assert (Hsk := rank_skipn M h i Hs Hr).
    assert (Hi := Hr). apply is_rank_iff in Hi. destruct Hi as [Hi1 [Hi2 Hi3]].
    assert (Hw3 : In (last M 0) (skipn (Z.to_nat (i+1)) M)) by (apply Hsk; split; [apply last_In; auto|qlra]).
    assert (Hlen : (i + 1 < zlen M)%Z).
    { apply (skipn_In_nth _ _ _ 0) in Hw3. destruct Hw3 as [k [K1 [K2 _]]]. unfold zlen in *. lia. }
    rewrite (pyget_Z M (i+1) 0) by (unfold zlen in *; lia). cbn [bind].
    fold (nthq M (i+1)).
    assert (Hin : In (nthq M (i+1)) M) by (apply nthq_in; lia).
    eexists. split; [reflexivity|].
    destruct (qeqbP (nthq M (i+1)) h) as [Heq|Hneq].
    + assert (EF : firstn (Z.to_nat (i+2)) M = firstn (Z.to_nat (i+1)) M ++ [h]).
      { replace (Z.to_nat (i+2)) with (Datatypes.S (Z.to_nat (i+1))) by lia.
        rewrite <- Heq. unfold nthq. unfold zlen in Hlen.
        assert (HL : (Z.to_nat (i+1) < length M)%nat) by lia. revert HL. generalize (Z.to_nat (i+1)).
        clear. intros n. revert M. induction n as [|n IH]; intros M HL; destruct M as [|a M]; cbn in HL; try lia; [reflexivity|].
        cbn [firstn app nth]. f_equal. apply IH. lia. }
      split; [rewrite EF; destruct (firstn (Z.to_nat (i+1)) M); discriminate|].
      split; [apply SSorted_firstn; auto|]. rewrite EF. split; [|split].
      * intros x Hx. apply in_app_or in Hx. destruct Hx as [Hx|[<-|[]]].
        -- apply Hfi in Hx. destruct Hx. split; auto. cbn. qlra.
        -- split; [apply ext_le_refl|auto].
      * intros x Hx Hx2. cbn in Hx2. apply in_or_app. destruct (qeqbP x h) as [->|].
        -- right; left; auto.
        -- left. apply Hfi. split; auto. qlra.
      * intros x Hx Hx2. exists h. split; auto. apply in_or_app. right; left; auto.
    + split; [destruct (firstn (Z.to_nat (i+1)) M); discriminate|]. split; [|split; [|split]].
      * apply SSorted_app; [apply SSorted_firstn; auto|repeat constructor|].
        intros a b Ha [<-|[]]. apply Hfi in Ha. destruct Ha as [Ha1 Ha2]. apply Hsep; auto.
        -- apply in_or_app; left; auto.
        -- apply in_or_app; right; left; auto.
      * intros x Hx. apply in_app_or in Hx. destruct Hx as [Hx|[<-|[]]].
        -- apply Hfi in Hx. destruct Hx. split; auto. cbn. qlra.
        -- split; [apply ext_le_refl|auto].
      * intros x Hx Hx2. cbn in Hx2. apply in_or_app. destruct (qeqbP x h) as [->|].
        -- right; left; auto.
        -- left. apply Hfi. split; auto. qlra.
      * intros x Hx Hx2. exists h. split; auto. apply in_or_app. right; left; auto.
  - exists M. split; [reflexivity|]. split; auto. split; auto.
    assert (Hall : forall x, In x M -> ext_le (Fin x) hi).
    { intros x Hx. apply ext_le_trans with (Fin (last M 0)).
      - cbn. apply sorted_last_max; auto.
      - unfold ext_lt in Hlt. destruct (ext_lebP (Fin (last M 0)) hi); auto. tauto. }
    split; [intros; auto|]. split; [intros; auto|]. intros x Hx Hx2. exfalso. auto.
Qed.
End cuts.

(** ** Merged times are told apart by the comparison with eps *)
Section gaps.
Variable rnd : Qc -> Qc.
Hypothesis RND : rounding rnd.
Notation ep := (r_eps rnd).
Definition rgap (a b : Qc) : Prop := a < rnd (b - ep).
Lemma rgap_lt a b : float rnd b -> rgap a b -> a < b.
Proof. unfold rgap. intros F G. pose proof (back_le rnd RND b F). qlra. Qed.
Definition rtag (a b : Qc) : Prop := rgap b a.
Lemma rgap_mono a b c : rgap a b -> b <= c -> rgap a c.
Proof. unfold rgap. intros G L. assert (rnd (b - ep) <= rnd (c - ep)) by (apply (rnd_mono rnd RND); qlra). qlra. Qed.
Lemma r_push_gap acc v : StronglySorted rtag acc -> Forall (float rnd) acc -> float rnd v -> Forall (fun m => m <= v) acc -> StronglySorted rtag (r_push_merged rnd acc v).
Proof.
  intros S FA F L. unfold r_push_merged. destruct acc as [|m r]; [repeat constructor|]. inversion S as [|? ? S' H]; subst. inversion FA as [|? ? FM FR]; subst. inversion L as [|? ? LM LR]; subst.
  rewrite Forall_forall in H, FR, LR. destruct (qltbP m (rnd (v - ep))) as [C|C].
  - constructor; [exact S|]. constructor; [exact C|]. apply Forall_forall. intros x X. specialize (H x X). unfold rtag in *. apply (rgap_mono x m v H LM).
  - destruct (qlebP (rnd (v - ep)) m) as [D|D]; destruct (qltbP m v) as [E|E]; cbn [andb]; try exact S.
    constructor; [exact S'|]. apply Forall_forall. intros x X. specialize (H x X). unfold rtag in *. apply (rgap_mono x m v H LM).
Qed.
Lemma r_dedup_gap l : forall acc, StronglySorted Qcle l -> Forall (float rnd) l -> StronglySorted rgt acc -> StronglySorted rtag acc -> Forall (float rnd) acc -> (forall m v, In m acc -> In v l -> m <= v) ->
  StronglySorted rtag (fold_left (r_push_merged rnd) l acc).
Proof.
  induction l as [|v l IH]; intros acc SL FL SA SG FA H; cbn [fold_left]; [exact SG|].
  inversion SL as [|? ? SL' HV]; subst. inversion FL as [|? ? FV FL']; subst. rewrite Forall_forall in HV.
  assert (LA : Forall (fun m => m <= v) acc) by (apply Forall_forall; intros m M; apply H; [exact M|left; reflexivity]).
  destruct (r_push_sorted rnd RND acc v SA LA FV) as (P1 & P2 & P3 & P4). rewrite Forall_forall in P4.
  apply IH; auto.
  - apply r_push_gap; auto.
  - apply Forall_forall. intros x X. apply P2 in X. rewrite Forall_forall in FA. destruct X as [X| ->]; auto.
  - intros m w M W. specialize (P4 m M). specialize (HV w W). qlra.
Qed.
Lemma rev_gap l : StronglySorted rtag l -> StronglySorted rgap (rev l).
Proof.
  induction 1 as [|a l S IH F]; [constructor|]. cbn [rev]. apply SSorted_app; [exact IH|repeat constructor|]. rewrite Forall_forall in F.
  intros x y X [<-|[]]. apply in_rev in X. exact (F x X).
Qed.
Lemma r_merge_gap a b : increasing a -> increasing b -> Forall (float rnd) a -> Forall (float rnd) b -> StronglySorted rgap (r_merge_sorted rnd a b).
Proof.
  intros A B FA FB. unfold r_merge_sorted. rewrite r_merge_loop_order. apply rev_gap. apply r_dedup_gap; try constructor.
  - apply morder_sorted; apply lt_sorted_le; assumption.
  - apply (Permutation_Forall (morder_perm a b)). apply Forall_app. auto.
  - intros m v [].
Qed.
Lemma gaps_ok_sorted l : StronglySorted rgap l -> r_gaps_ok rnd l = true.
Proof.
  induction 1 as [|a l S IH F]; [reflexivity|]. cbn [r_gaps_ok]. destruct l as [|b l]; [reflexivity|]. inversion F as [|? ? G _]; subst. rewrite IH. destruct (qltbP a (rnd (b - ep))) as [_|N]; [reflexivity|contradiction].
Qed.
End gaps.

(** ** Adding *)
Lemma rcuts_ok (R : Qc -> Qc -> Prop) M lo hi : (forall a b, R a b -> a < b) -> M <> [] -> StronglySorted R M -> ext_lt lo hi -> (exists x, In x M /\ ext_le lo (Fin x)) ->
  sepR R (M ++ fin_list lo ++ fin_list hi) ->
  exists T, (T1 <- cut_lo M lo ;; cut_hi T1 hi) = Ok T /\ T <> [] /\ StronglySorted R T /\
    (forall x, In x T -> ext_le lo (Fin x) /\ ext_le (Fin x) hi /\ (In x M \/ lo = Fin x \/ hi = Fin x)) /\
    (forall x, In x M -> ext_le lo (Fin x) -> ext_le (Fin x) hi -> In x T).
Proof.
  intros RL N S L EX SEP. assert (LP : lo <> PInf) by (intros ->; destruct hi; exact (L I)). assert (HN : hi <> NInf) by (intros ->; destruct lo; exact (L I)).
  destruct (rcut_lo_ok R RL M lo N S) as (T1 & E1 & N1 & S1 & A1 & B1 & C1); auto.
  { intros x y X Y. apply SEP; rewrite !in_app_iff in *; tauto. }
  rewrite E1. cbn [bind]. destruct (rcut_hi_ok R RL T1 hi N1 S1) as (T & E2 & N2 & S2 & A2 & B2 & C2); auto.
  { assert (Q : forall x, In x (T1 ++ fin_list hi) -> In x (M ++ fin_list lo ++ fin_list hi)).
    { intros x X. rewrite !in_app_iff in *. destruct X as [X|X]; [|tauto]. destruct (A1 x X) as [_ [Y| ->]]; [tauto|]. right. left. left. reflexivity. }
    intros x y X Y. apply SEP; auto. }
  exists T. split; [exact E2|]. split; [exact N2|]. split; [exact S2|]. split.
  - intros x X. destruct (A2 x X) as [D [Y|Y]].
    + destruct (A1 x Y) as [D1 [Z|Z]]; auto.
    + split; [|auto]. subst hi. unfold ext_lt in L. destruct (ext_le_total lo (Fin x)) as [|W]; [assumption|]. exfalso. apply L. exact W.
  - intros x X D1 D2. auto.
Qed.
Lemma cut_lo_id M lo : M <> [] -> (forall x, In x M -> ext_le lo (Fin x)) -> cut_lo M lo = Ok M.
Proof.
  intros N D. unfold cut_lo. rewrite pyget0_hd by exact N. cbn [bind]. destruct (ext_ltbP (Fin (hd 0 M)) lo) as [L|L]; [|reflexivity]. exfalso. apply L. apply D, hd_In, N.
Qed.
Lemma cut_hi_id M hi : M <> [] -> (forall x, In x M -> ext_le (Fin x) hi) -> cut_hi M hi = Ok M.
Proof.
  intros N D. unfold cut_hi. rewrite (pyget_last M 0) by exact N. cbn [bind]. destruct (ext_ltbP hi (Fin (last M 0))) as [L|L]; [|reflexivity]. exfalso. apply L. apply D, last_In, N.
Qed.
