(** * Addition and subtraction of RightConstant functions with floating-point
      arithmetic (src/utilities/right_constant.py; sum and integral: RoundedBuilder.v),
      and facts about merging and adding with rounding *)
From Coq Require Import Permutation Sorted.
From Verif Require Import Base Spec Arrays ArraysProofs PL PLProofs PLEval PLArith PLOps PLOps2 RC RCProofs PQ Graph FRC DynFlow Rounded RoundedFlow RoundedBuilder RoundedSplit.

Section model.
Variable rnd : Qc -> Qc.
Variable on : bool.
(** right_constant.py:114-119 the loop of [__radd__] *)
Fixpoint r_add_loop (f g : RC) (lp rp : Z) (times : list Qc) : res (list Qc) :=
  match times with
  | [] => Ok []
  | t :: r =>
      lp' <- adv_fn f lp t ;; rp' <- adv_fn g rp t ;;
      a <- pyget (rc_values f) lp' ;; b <- pyget (rc_values g) rp' ;;
      vs <- r_add_loop f g lp' rp' r ;; Ok (rnd (a + b) :: vs)
  end.
(** right_constant.py:101-121, 143-144 [__radd__], [__add__] on two functions *)
Definition r_rc_plus (f g : RC) : res RC :=
  _ <- asr on (ext_eqb (rc_lo f) (rc_lo g) && ext_eqb (rc_hi f) (rc_hi g))%bool ;;
  let times := r_merge_sorted rnd (rc_times f) (rc_times g) in
  values <- r_add_loop f g 0 0 times ;;
  r_rc_init on times values (rc_lo f) (rc_hi f).
(** right_constant.py:146-147 [__neg__]: changing the sign of a float is exact *)
Definition r_rc_neg (f : RC) : res RC := r_rc_init on (rc_times f) (map Qcopp (rc_values f)) (rc_lo f) (rc_hi f).
(** right_constant.py:149-152 [__sub__] *)
Definition r_rc_sub (f g : RC) : res RC := n <- r_rc_neg g ;; r_rc_plus f n.
End model.

(** ** Merging *)
Section merge.
Variable rnd : Qc -> Qc.
Hypothesis RND : rounding rnd.
Notation ep := (r_eps rnd).
Lemma ep_nn : 0 <= ep.
Proof. unfold r_eps. rewrite <- (rnd_0 rnd RND). apply (rnd_mono rnd RND). vm_compute. discriminate. Qed.
Lemma back_le v : float rnd v -> rnd (v - ep) <= v.
Proof. intro F. rewrite <- F at 2. apply (rnd_mono rnd RND). pose proof ep_nn. qlra. Qed.
Definition rgt (a b : Qc) : Prop := b < a.
Lemma r_push_sorted acc v : StronglySorted rgt acc -> Forall (fun m => m <= v) acc -> float rnd v ->
  StronglySorted rgt (r_push_merged rnd acc v) /\ (forall x, In x (r_push_merged rnd acc v) -> In x acc \/ x = v) /\ In v (r_push_merged rnd acc v) /\
  Forall (fun m => m <= v) (r_push_merged rnd acc v).
Proof.
  intros S L F. unfold r_push_merged. destruct acc as [|m r].
  { split; [repeat constructor|]. split; [intros x [<-|[]]; auto|]. split; [left; reflexivity|repeat constructor; apply Qcle_refl]. }
  inversion S as [|? ? S' FA]; subst. inversion L as [|? ? LM LR]; subst. rewrite Forall_forall in FA. pose proof (back_le v F) as B.
  destruct (qltbP m (rnd (v - ep))) as [C|C].
  - split; [constructor; [exact S|]; apply Forall_forall; intros x [<-|X]; unfold rgt; [qlra|specialize (FA x X); unfold rgt in FA; qlra]|].
    split; [intros x [<-|X]; auto|]. split; [left; reflexivity|constructor; [apply Qcle_refl|exact L]].
  - destruct (qlebP (rnd (v - ep)) m) as [D|D]; [|qlra]. destruct (qltbP m v) as [E|E]; cbn [andb].
    + split; [constructor; [exact S'|]; apply Forall_forall; intros x X; specialize (FA x X); unfold rgt in *; qlra|].
      split; [intros x [<-|X]; [auto|left; right; exact X]|]. split; [left; reflexivity|constructor; [apply Qcle_refl|exact LR]].
    + assert (m = v) by (apply Qcle_antisym; qlra). subst m. split; [exact S|]. split; [auto|]. split; [left; reflexivity|exact L].
Qed.
Lemma r_push_keeps acc v : (forall m, In m acc -> m < v -> m < rnd (v - ep)) -> forall x, In x acc -> In x (r_push_merged rnd acc v).
Proof.
  intros K x X. unfold r_push_merged. destruct acc as [|m r]; [destruct X|].
  destruct (qltbP m (rnd (v - ep))) as [C|C]; [right; exact X|]. destruct (qlebP (rnd (v - ep)) m) as [D|D]; destruct (qltbP m v) as [E|E]; cbn [andb]; try exact X.
  specialize (K m (or_introl eq_refl) E). qlra.
Qed.
(** Any two of the times are told apart by the comparison with eps. *)
Definition r_separated (l : list Qc) : Prop := forall x y, In x l -> In y l -> x < y -> x < rnd (y - ep).
Lemma r_dedup l : forall acc, StronglySorted Qcle l -> Forall (float rnd) l -> StronglySorted rgt acc -> (forall m v, In m acc -> In v l -> m <= v) ->
  let R := fold_left (r_push_merged rnd) l acc in
  StronglySorted rgt R /\ (forall x, In x R -> In x acc \/ In x l) /\ (l <> [] \/ acc <> [] -> R <> []) /\
  (r_separated (acc ++ l) -> forall x, In x acc \/ In x l -> In x R).
Proof.
  induction l as [|v l IH]; intros acc SL FL SA H; cbn [fold_left].
  - split; [exact SA|]. split; [auto|]. split; [intros [Q|Q]; [congruence|exact Q]|]. intros _ x [X|[]]. exact X.
  - inversion SL as [|? ? SL' HV]; subst. inversion FL as [|? ? FV FL']; subst. rewrite Forall_forall in HV.
    assert (LA : Forall (fun m => m <= v) acc) by (apply Forall_forall; intros m M; apply H; [exact M|left; reflexivity]).
    destruct (r_push_sorted acc v SA LA FV) as (P1 & P2 & P3 & P4). rewrite Forall_forall in P4.
    destruct (IH (r_push_merged rnd acc v) SL' FL' P1) as (I1 & I2 & I3 & I4).
    { intros m w M W. specialize (P4 m M). specialize (HV w W). qlra. }
    split; [exact I1|]. split; [intros x X; apply I2 in X; destruct X as [X|X]; [apply P2 in X; destruct X as [X| ->]; [left; exact X|right; left; reflexivity]|right; right; exact X]|].
    split. { intros _. apply I3. right. intro Q. rewrite Q in P3. destruct P3. }
    intros SEP x X. apply I4.
    + intros a b A B. apply in_app_iff in A. apply in_app_iff in B.
      assert (IN : forall z, In z (r_push_merged rnd acc v) \/ In z l -> In z (acc ++ v :: l)). { intros z [Z|Z]; apply in_app_iff; [apply P2 in Z; destruct Z as [Z| ->]; [left; exact Z|right; left; reflexivity]|right; right; exact Z]. }
      apply SEP; apply IN; assumption.
    + destruct X as [X|[->|X]]; [left|left; exact P3|right; exact X]. apply r_push_keeps; [|exact X]. intros m M C. apply SEP; [apply in_app_iff; left; exact M|apply in_app_iff; right; left; reflexivity|exact C].
Qed.
Lemma rev_sorted l : StronglySorted rgt l -> increasing (rev l).
Proof.
  unfold increasing. induction 1 as [|a l S IH F]; [constructor|]. cbn [rev]. rewrite Forall_forall in F.
  assert (G : forall k, StronglySorted Qclt k -> (forall x, In x k -> x < a) -> StronglySorted Qclt (k ++ [a])).
  { clear. induction k as [|b k IH]; intros S H; cbn [app]; [repeat constructor|]. inversion S as [|? ? S' FB]; subst. constructor; [apply IH; [exact S'|intros x X; apply H; right; exact X]|].
    apply Forall_app. split; [exact FB|repeat constructor]. apply H. left. reflexivity. }
  apply G; [exact IH|]. intros x X. apply in_rev in X. exact (F x X).
Qed.
Definition merged_of (l T : list Qc) : Prop :=
  increasing T /\ (forall x, In x T -> In x l) /\ (l <> [] -> T <> []) /\ (r_separated l -> forall x, In x l -> In x T).
Lemma merged_fold l l' : Permutation l l' -> StronglySorted Qcle l' -> Forall (float rnd) l -> merged_of l (rev (fold_left (r_push_merged rnd) l' [])).
Proof.
  intros P S F. destruct (r_dedup l' [] S) as (A & B & C & D); [apply (Permutation_Forall P), F|constructor|intros m v []|]. cbn [app] in D.
  assert (IN : forall x, In x l <-> In x l') by (intro x; split; apply Permutation_in; [exact P|symmetry; exact P]).
  split; [apply rev_sorted, A|]. split; [intros x X; apply in_rev in X; apply B in X; destruct X as [[]|X]; apply IN, X|].
  split.
  - intros N Q. assert (NE : l' <> []) by (intros ->; apply N, Permutation_nil, Permutation_sym, P). apply (C (or_introl NE)). rewrite <- (rev_involutive (fold_left _ _ _)), Q. reflexivity.
  - intros SEP x X. apply in_rev. rewrite rev_involutive. apply D; [|right; apply IN, X]. intros a b A' B'. apply SEP; apply IN; assumption.
Qed.
Lemma r_merge_loop_cons x r1 y r2 acc :
  r_merge_loop rnd (x :: r1) (y :: r2) acc = if qltb x y then r_merge_loop rnd r1 (y :: r2) (r_push_merged rnd acc x) else r_merge_loop rnd (x :: r1) r2 (r_push_merged rnd acc y).
Proof. reflexivity. Qed.
Lemma r_merge_loop_order a1 : forall a2 acc, r_merge_loop rnd a1 a2 acc = fold_left (r_push_merged rnd) (morder a1 a2) acc.
Proof.
  induction a1 as [|x r1 IH]; intros a2 acc.
  - rewrite morder_nil_l. destruct a2; reflexivity.
  - revert acc. induction a2 as [|y r2 IH2]; intro acc; [rewrite morder_nil_r; reflexivity|]. rewrite r_merge_loop_cons, morder_cons. destruct (qltb x y); [apply IH|apply IH2].
Qed.
Lemma r_merge_facts a b : increasing a -> increasing b -> Forall (float rnd) a -> Forall (float rnd) b -> merged_of (a ++ b) (r_merge_sorted rnd a b).
Proof.
  intros A B FA FB. unfold r_merge_sorted. rewrite r_merge_loop_order. apply merged_fold; [apply morder_perm|apply morder_sorted; apply lt_sorted_le; assumption|apply Forall_app; auto].
Qed.
End merge.
Lemma r_merge_many_facts rnd arrs : rounding rnd -> Forall increasing arrs -> Forall (float rnd) (concat arrs) ->
  exists T, r_merge_sorted_many rnd arrs = Ok T /\ merged_of rnd (concat arrs) T.
Proof.
  intros R I F.
  assert (G : forall fuel arrs acc, Forall (StronglySorted Qcle) arrs -> (length (concat arrs) < fuel)%nat ->
     exists l, StronglySorted Qcle l /\ Permutation (concat arrs) l /\ r_merge_many_loop rnd fuel arrs acc = Ok (rev (fold_left (r_push_merged rnd) l acc))).
  { clear. induction fuel as [|k IH]; intros arrs acc Hs Hf; [lia|]. cbn [r_merge_many_loop]. destruct (pick_min arrs) as [[v arrs']|] eqn:E.
    - destruct (pick_min_min _ Hs _ _ E) as [M1 M2]. assert (HP := pick_min_perm _ _ _ E).
      destruct (IH arrs' (r_push_merged rnd acc v)) as [l [L1 [L2 L3]]]; auto. { apply Permutation_length in HP. cbn in HP. lia. }
      exists (v :: l). split; [|split].
      + constructor; auto. apply (Permutation_Forall L2). apply (Permutation_Forall HP) in M1. inversion M1; auto.
      + rewrite HP. constructor. exact L2.
      + exact L3.
    - apply pick_min_none in E. exists []. rewrite E. repeat split; constructor. }
  destruct (G (Datatypes.S (length (concat arrs))) arrs []) as (l & L1 & L2 & L3); [eapply Forall_impl; [|exact I]; intros a A; apply lt_sorted_le, A|lia|].
  eexists. split; [exact L3|]. apply merged_fold; assumption.
Qed.

(** ** Adding *)
Section add.
Variable rnd : Qc -> Qc.
Hypothesis RND : rounding rnd.
Lemma r_add_loop_ok f g : rvalid f -> rvalid g -> forall ts lp rp, increasing ts -> before (rc_times f) lp ts -> before (rc_times g) rp ts ->
  r_add_loop rnd f g lp rp ts = Ok (map (fun t => rnd (rc_at f t + rc_at g t)) ts).
Proof.
  intros Vf Vg. induction ts as [|t ts IH]; intros lp rp S B1 B2; [reflexivity|]. cbn [r_add_loop map].
  destruct (adv_fn_ok f t ts lp Vf S B1) as [lp' [E1 [G1 B1']]]. destruct (adv_fn_ok g t ts rp Vg S B2) as [rp' [E2 [G2 B2']]].
  rewrite E1. cbn [bind]. rewrite E2. cbn [bind]. rewrite G1. cbn [bind]. rewrite G2. cbn [bind]. inversion S; subst. rewrite (IH lp' rp'); auto.
Qed.
(** The function with breakpoints [T] and values [h] there. *)
Lemma made_valid T (h : Qc -> Qc) lo hi on : T <> [] -> increasing T -> (forall t, In t T -> ext_le lo (Fin t) /\ ext_le (Fin t) hi) ->
  let p := mkRC T (map h T) lo hi in
  rvalid p /\ r_rc_init on T (map h T) lo hi = Ok p /\ (forall t, In t T -> rc_at p t = h t) /\ (jumps_in h T -> forall t, rc_at p t = h t).
Proof.
  intros N I D p. assert (V : rvalid p) by (constructor; cbn [p rc_times rc_values]; [apply map_length|exact N|exact I|exact D]).
  split; [exact V|]. split.
  - pose proof (rc_init_ok p V) as E. unfold rc_init in E. unfold r_rc_init. cbn [p rc_times rc_values rc_lo rc_hi] in E.
    destruct (zlen (map h T) =? zlen T)%Z; cbn [assertb bind] in E; [|discriminate E]. destruct (forallb _ T); cbn [assertb bind] in E; [|discriminate E]. destruct on; reflexivity.
  - split; [|intros J t; exact (rc_unique p h V eq_refl J t)].
    intros t X. destruct (ptr_exists p V t) as [q Q]. rewrite (at_ptr p V t q Q). pose proof Q as (Q0 & Q1 & Q2). cbn [p rc_values rc_times] in *.
    rewrite nthq_map by lia. f_equal. destruct (In_nth _ _ 0 X) as [i [Hi Ei]].
    assert (Ex : t = nthq T (Z.of_nat i)) by (unfold nthq; rewrite Nat2Z.id; auto).
    destruct (Z.lt_trichotomy (Z.of_nat i) q) as [C|[C|C]]; [exfalso|rewrite Ex, C; reflexivity|exfalso].
    + specialize (Q1 ltac:(lia)). pose proof (rt_lt p V (Z.of_nat i) q ltac:(lia) ltac:(unfold rc_len; cbn [p rc_times]; lia)) as L. cbn [p rc_times] in L. rewrite Ex in Q1. qlra.
    + specialize (Q2 ltac:(unfold zlen; lia)). pose proof (rt_le p V (q + 1) (Z.of_nat i) ltac:(lia) ltac:(unfold rc_len, zlen; cbn [p rc_times]; lia)) as L. cbn [p rc_times] in L. rewrite Ex in Q2. qlra.
Qed.
Lemma jumps_map2 (op : Qc -> Qc -> Qc) h k T : jumps_in h T -> jumps_in k T -> jumps_in (fun t => op (h t) (k t)) T.
Proof. intros H K t u L B. rewrite (H t u L B), (K t u L B). reflexivity. Qed.
Lemma r_plus_ok on f g : rvalid f -> rvalid g -> rc_lo f = rc_lo g -> rc_hi f = rc_hi g -> Forall (float rnd) (rc_times f ++ rc_times g) ->
  exists p, r_rc_plus rnd on f g = Ok p /\ rvalid p /\ rc_lo p = rc_lo f /\ rc_hi p = rc_hi f /\
    (forall t, In t (rc_times p) -> In t (rc_times f) \/ In t (rc_times g)) /\
    (forall t, In t (rc_times p) -> rc_at p t = rnd (rc_at f t + rc_at g t)) /\
    (r_separated rnd (rc_times f ++ rc_times g) -> (forall t, In t (rc_times f) \/ In t (rc_times g) -> In t (rc_times p)) /\ forall t, rc_at p t = rnd (rc_at f t + rc_at g t)).
Proof.
  intros Vf Vg El Eh F. unfold r_rc_plus. rewrite El, Eh.
  destruct (ext_eqbP (rc_lo g) (rc_lo g)); [|congruence]. destruct (ext_eqbP (rc_hi g) (rc_hi g)); [|congruence].
  replace (asr on (true && true)) with (@Ok unit tt) by (destruct on; reflexivity). cbn [bind].
  apply Forall_app in F. destruct F as [Ff Fg].
  destruct (r_merge_facts rnd RND _ _ (rv_inc f Vf) (rv_inc g Vg) Ff Fg) as (M1 & M2 & M3 & M4).
  set (T := r_merge_sorted rnd (rc_times f) (rc_times g)) in *.
  rewrite (r_add_loop_ok f g Vf Vg T 0 0 M1) by (apply before0, rv_ne; assumption). cbn [bind].
  assert (IN : forall t, In t T -> In t (rc_times f) \/ In t (rc_times g)) by (intros t X; apply in_app_iff, M2, X).
  destruct (made_valid T (fun t => rnd (rc_at f t + rc_at g t)) (rc_lo g) (rc_hi g) on) as (V & E & A & J).
  - apply M3. intro Q. apply app_eq_nil in Q. apply (rv_ne f Vf), Q.
  - exact M1.
  - intros t X. destruct (IN t X) as [Y|Y]; [rewrite <- El, <- Eh; exact (rv_dom f Vf t Y)|exact (rv_dom g Vg t Y)].
  - eexists. split; [exact E|]. split; [exact V|]. split; [reflexivity|]. split; [reflexivity|]. cbn [rc_times]. split; [exact IN|]. split; [exact A|].
    intro SEP. specialize (M4 SEP). split; [intros t X; apply M4, in_app_iff, X|]. apply J. apply (jumps_map2 (fun a b => rnd (a + b))).
    + apply (jumps_sub _ (rc_times f)); [apply rc_jumps, Vf|intros x X; apply M4, in_app_iff; left; exact X].
    + apply (jumps_sub _ (rc_times g)); [apply rc_jumps, Vg|intros x X; apply M4, in_app_iff; right; exact X].
Qed.
(** Summing several functions at one time, from left to right. *)
Definition at_all (fs : list RC) (t : Qc) : list Qc := map (fun f => rc_at f t) fs.
Lemma r_advs_ok t ts : increasing (t :: ts) -> forall fs ptrs, Forall rvalid fs -> Forall2 (fun f p => before (rc_times f) p (t :: ts)) fs ptrs ->
  exists ptrs', advs fs ptrs t = Ok ptrs' /\ Forall2 (fun f p => before (rc_times f) p ts) fs ptrs' /\
    forall acc, r_sum_at rnd acc fs ptrs' = Ok (fold_left (fun a x => rnd (a + x)) (at_all fs t) acc).
Proof.
  intros S. induction fs as [|f fs IH]; intros ptrs V B; inversion B; subst.
  - exists []. split; [reflexivity|]. split; [constructor|]. reflexivity.
  - inversion V; subst. destruct (adv_fn_ok f t ts y) as [p' [E [G B']]]; auto. destruct (IH l') as [ps' [E2 [B2 G2]]]; auto.
    exists (p' :: ps'). cbn [advs]. rewrite E. cbn [bind]. rewrite E2. split; [reflexivity|]. split; [constructor; auto|]. intro acc. cbn [r_sum_at at_all map fold_left]. rewrite G. cbn [bind]. apply G2.
Qed.
Lemma r_sum_loop_ok fs : Forall rvalid fs -> forall ts ptrs, increasing ts -> Forall2 (fun f p => before (rc_times f) p ts) fs ptrs ->
  r_sum_loop rnd fs ptrs ts = Ok (map (fun t => fsum rnd (at_all fs t)) ts).
Proof.
  intro V. induction ts as [|t ts IH]; intros ptrs S B; [reflexivity|]. cbn [r_sum_loop map]. destruct (r_advs_ok t ts S fs ptrs V B) as [ps [E [B2 G]]]. rewrite E. cbn [bind]. rewrite G. cbn [bind].
  inversion S; subst. rewrite (IH ps); auto.
Qed.
Lemma jumps_all T fs : Forall rvalid fs -> (forall f x, In f fs -> In x (rc_times f) -> In x T) -> jumps_in (fun t => fsum rnd (at_all fs t)) T.
Proof.
  intros V I t u L B. f_equal. unfold at_all. apply map_ext_in. intros f F. rewrite Forall_forall in V. pose proof (jumps_sub _ _ T (rc_jumps f (V f F)) (fun x X => I f x F X)) as J. apply (J t u L B).
Qed.
Lemma r_sum_ok on fs lo hi : fs <> [] -> Forall rvalid fs -> Forall (float rnd) (concat (map rc_times fs)) ->
  (forall f t, In f fs -> In t (rc_times f) -> ext_le lo (Fin t) /\ ext_le (Fin t) hi) ->
  exists p, r_rc_sum rnd on fs lo hi = Ok p /\ rvalid p /\ rc_lo p = lo /\ rc_hi p = hi /\
    (forall t, In t (rc_times p) -> exists f, In f fs /\ In t (rc_times f)) /\
    (forall t, In t (rc_times p) -> rc_at p t = fsum rnd (at_all fs t)) /\
    (r_separated rnd (concat (map rc_times fs)) -> (forall f t, In f fs -> In t (rc_times f) -> In t (rc_times p)) /\ forall t, rc_at p t = fsum rnd (at_all fs t)).
Proof.
  intros N V F D. unfold r_rc_sum. destruct fs as [|f0 fr]; [congruence|]. set (fs := f0 :: fr) in *. rewrite Forall_forall in V.
  destruct (r_merge_many_facts rnd (map rc_times fs) RND) as (T & E & M1 & M2 & M3 & M4); [apply Forall_forall; intros l L; apply in_map_iff in L; destruct L as (f & <- & L); apply (rv_inc f (V f L))|exact F|].
  rewrite E. cbn [bind].
  assert (IC : forall t, In t (concat (map rc_times fs)) <-> exists f, In f fs /\ In t (rc_times f)).
  { intro t. rewrite in_concat. split; [intros (l & L & X); apply in_map_iff in L; destruct L as (f & <- & L); eauto|intros (f & L & X); exists (rc_times f); split; [apply in_map, L|exact X]]. }
  assert (BZ : Forall2 (fun f p => before (rc_times f) p T) fs (map (fun _ => 0%Z) fs)).
  { clear - V. induction fs as [|f l IH]; constructor; [apply before0, rv_ne, V; left; reflexivity|apply IH; intros x X; apply V; right; exact X]. }
  rewrite (r_sum_loop_ok fs (proj2 (Forall_forall _ _) V) T _ M1 BZ). cbn [bind].
  destruct (made_valid T (fun t => fsum rnd (at_all fs t)) lo hi on) as (Vp & E' & A & J).
  - apply M3. cbn [map concat fs]. intro Q. apply app_eq_nil in Q. apply (rv_ne f0 (V f0 (or_introl eq_refl))), Q.
  - exact M1.
  - intros t X. apply M2, IC in X. destruct X as (f & L & X). exact (D f t L X).
  - eexists. split; [exact E'|]. split; [exact Vp|]. split; [reflexivity|]. split; [reflexivity|]. cbn [rc_times]. split; [intros t X; apply IC, M2, X|]. split; [exact A|].
    intro SEP. specialize (M4 SEP). split; [intros f t L X; apply M4, IC; eauto|]. apply J. apply jumps_all; [apply Forall_forall, V|]. intros f x L X. apply M4, IC. eauto.
Qed.
Lemma r_rc_eval_ok on f t : rvalid f -> rin_dom f t -> r_rc_eval on f t = rc_eval f t.
Proof.
  intros V D. pose proof (reval_at f V t D) as E. unfold rc_eval in E |- *. unfold r_rc_eval. rewrite (proj2 (rbool_dom f t) D) in *. cbn [assertb bind] in *.
  destruct (elem_lrank (rc_times f) t) as [r|] eqn:R; cbn [bind] in *; [|discriminate E].
  unfold rc_eval_with_lrank, r_rc_eval_with_lrank in *. rewrite R, (proj2 (rbool_dom f t) D) in *. cbn [assertb bind] in *.
  destruct ((-1 <=? r)%Z && (r <=? rc_len f)%Z)%bool; cbn [assertb bind] in E |- *; [|discriminate E]. destruct on; cbn [asr bind]; rewrite ?Z.eqb_refl; reflexivity.
Qed.
End add.
