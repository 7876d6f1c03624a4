(** * Property C120: argument checks.
    Every operation on piecewise linear functions, step functions, priority
    queues and networks refuses, with an AssertionError, the arguments it is
    not defined for: no result is returned for them, and nothing is changed. *)
From Verif Require Import Base Spec Arrays ArraysProofs PL PLProofs PLEval PLArith PLOps PLOps2 PLMono PLInt PL2 PLCmp PLComp
  RC RCProofs RCOps PQ PQProofs PQOps PQSpec FRC Graph PropPL PropMin PropRC PropPQ.

(** ** Piecewise linear functions *)
(** The constructor refuses every description that violates its invariants. *)
Theorem C120_pl_constructor : forall times values first last lo hi,
  ~ valid (mkPL times values first last lo hi) -> pl_init times values first last lo hi = Err AssertionError.
Proof.
  intros ts vs a b lo hi N. destruct (pl_init ts vs a b lo hi) as [f|x] eqn:E.
  - apply pl_init_inv in E. destruct E as [-> V]. contradiction.
  - f_equal. revert E. unfold pl_init. destruct ((_ && _)%bool); cbn [assertb bind]; [|congruence].
    destruct (forallb _ _); cbn [assertb bind]; [|congruence]. destruct (gaps_ok ts); cbn [assertb bind]; congruence.
Qed.
Print Assumptions C120_pl_constructor.

(** The domains have at most one point in common. *)
Definition no_overlap (f g : PL) : Prop := forall s t, in_dom f s -> in_dom g s -> in_dom f t -> in_dom g t -> s = t.
Lemma lt_overlap f g : valid f -> valid g -> ext_lt (ext_max (pl_lo f) (pl_lo g)) (ext_min (pl_hi f) (pl_hi g)) -> ~ no_overlap f g.
Proof.
  intros Vf Vg L N.
  assert (Pf : exists t, in_dom f t) by (destruct f as [[|t r] ? ? ? ? ?]; [destruct (v_ne _ Vf eq_refl)|exists t; apply (v_dom _ Vf); left; reflexivity]).
  assert (Pg : exists t, in_dom g t) by (destruct g as [[|t r] ? ? ? ? ?]; [destruct (v_ne _ Vg eq_refl)|exists t; apply (v_dom _ Vg); left; reflexivity]).
  destruct Pf as [tf [F1 F2]], Pg as [tg [G1 G2]]. unfold no_overlap, in_dom in N.
  set (lo := ext_max (pl_lo f) (pl_lo g)) in *. set (hi := ext_min (pl_hi f) (pl_hi g)) in *.
  assert (H : forall s, ext_le lo (Fin s) -> ext_le (Fin s) hi -> (ext_le (pl_lo f) (Fin s) /\ ext_le (Fin s) (pl_hi f)) /\ (ext_le (pl_lo g) (Fin s) /\ ext_le (Fin s) (pl_hi g))).
  { intros s A B. apply PLArith.ext_max_le in A. apply PLArith.ext_min_le in B. tauto. }
  assert (K : exists s t, s < t /\ ext_le lo (Fin s) /\ ext_le (Fin s) hi /\ ext_le lo (Fin t) /\ ext_le (Fin t) hi).
  { assert (LP : ext_le lo (Fin (qmax tf tg))).
    { apply PLArith.ext_max_le. split; (eapply ext_le_trans; [eassumption|]); [change (tf <= qmax tf tg)|change (tg <= qmax tf tg)]; qmm; qlra. }
    assert (HP : ext_le (Fin (qmin tf tg)) hi).
    { apply PLArith.ext_min_le. split; (eapply ext_le_trans; [|eassumption]); [change (qmin tf tg <= tf)|change (qmin tf tg <= tg)]; qmm; qlra. }
    clearbody lo hi. clear H N. destruct lo as [|l|], hi as [|h|]; try (exfalso; exact LP); try (exfalso; exact HP).
    - exists (h - 1), h. repeat split; try exact I; [qlra|change (h - 1 <= h); qlra|change (h <= h); qlra].
    - exists 0, 1. repeat split; try exact I; qlra.
    - exists l, h. assert (l < h) by (apply ext_lt_fin; exact L). repeat split; [qlra|change (l <= l); qlra|change (l <= h); qlra|change (l <= h); qlra|change (h <= h); qlra].
    - exists l, (l + 1). repeat split; try exact I; [qlra|change (l <= l); qlra|change (l <= l + 1); qlra]. }
  destruct K as [s [t [S1 [S2 [S3 [S4 S5]]]]]]. destruct (H s S2 S3) as [X1 X2]. destruct (H t S4 S5) as [Y1 Y2].
  specialize (N s t X1 X2 Y1 Y2). subst. qlra.
Qed.

(** Sum, difference and minimum of two functions whose domains do not overlap. *)
Theorem C120_no_common_domain : forall f g, valid f -> valid g -> no_overlap f g ->
  pl_plus f g = Err AssertionError /\ pl_sub f g = Err AssertionError /\
  minimum f g = Err AssertionError /\ outer_minimum f g = Err AssertionError.
Proof.
  assert (P : forall f g, valid f -> valid g -> no_overlap f g -> pl_plus f g = Err AssertionError /\ minimum f g = Err AssertionError).
  { intros f g Vf Vg N. unfold pl_plus, minimum. destruct (ext_ltbP (ext_max (pl_lo f) (pl_lo g)) (ext_min (pl_hi f) (pl_hi g))) as [L|L].
    - exfalso. apply (lt_overlap f g Vf Vg L N).
    - split; reflexivity. }
  intros f g Vf Vg N. destruct (P f g Vf Vg N) as [P1 P2]. split; [exact P1|]. split.
  - unfold pl_sub. destruct (C08_neg g Vg) as [n [E [Vn _]]]. rewrite E. cbn [bind].
    apply P; auto. unfold pl_neg in E. apply pl_init_inv in E. destruct E as [-> _]. exact N.
  - split; [exact P2|]. unfold outer_minimum. rewrite P2. reflexivity.
Qed.
Print Assumptions C120_no_common_domain.

(** [minimum] insists that the common domain starts at a breakpoint. *)
Theorem C120_minimum_start : forall f g, valid f -> valid g ->
  (forall t, In t (pl_times f) \/ In t (pl_times g) -> Fin t <> ext_max (pl_lo f) (pl_lo g)) ->
  minimum f g = Err AssertionError /\ outer_minimum f g = Err AssertionError.
Proof.
  intros f g Vf Vg N.
  assert (M : minimum f g = Err AssertionError).
  { unfold minimum. set (lo := ext_max _ _) in *. set (hi := ext_min _ _). destruct (ext_ltb lo hi); cbn [assertb bind]; [|reflexivity].
    assert (X : forall l, (forall t, In t l -> Fin t <> lo) -> ext_in lo l = false).
    { intros l H. unfold ext_in. destruct (existsb _ l) eqn:E; [|reflexivity]. apply existsb_exists in E. destruct E as [t [Ht E]].
      destruct (ext_eqbP lo (Fin t)) as [C|]; [|discriminate]. exfalso. apply (H t Ht). congruence. }
    rewrite !X by (intros; apply N; tauto). reflexivity. }
  split; [exact M|]. unfold outer_minimum. rewrite M. reflexivity.
Qed.
Print Assumptions C120_minimum_start.

(** [restrict] to something that is not a sub-interval of the domain. *)
Theorem C120_restrict : forall f lo hi, ext_lt lo (pl_lo f) \/ ext_lt (pl_hi f) hi \/ ext_lt hi lo ->
  restrict f lo hi = Err AssertionError.
Proof.
  intros f lo hi H. unfold restrict. destruct (ext_lebP (pl_lo f) lo), (ext_lebP lo hi), (ext_lebP hi (pl_hi f)); try reflexivity.
  exfalso. unfold ext_lt in H. tauto.
Qed.
Print Assumptions C120_restrict.

(** [integrate] is defined exactly for intervals of positive length inside the
    domain, and only when no breakpoint value is negative. *)
Theorem C120_integrate : forall f st en, valid f ->
  ((exists y, integrate f st en = Ok y) <-> (st < en /\ in_dom f st /\ in_dom f en /\ forall v, In v (pl_values f) -> 0 <= v)) /\
  ((exists y, integrate f st en = Ok y) \/ integrate f st en = Err AssertionError).
Proof.
  intros f st en V.
  assert (D : (st < en /\ in_dom f st /\ in_dom f en /\ forall v, In v (pl_values f) -> 0 <= v) \/ integrate f st en = Err AssertionError).
  { unfold integrate. destruct (ext_lebP (pl_lo f) (Fin st)) as [A|A], (qltbP st en) as [B|B], (ext_lebP (Fin en) (pl_hi f)) as [C|C]; try (right; reflexivity).
    cbn [andb assertb bind]. destruct (forallb _ _) eqn:F; cbn [assertb bind]; [left|right; reflexivity].
    rewrite forallb_forall in F. split; [exact B|]. split; [split; [exact A|eapply ext_le_trans; [|exact C]; change (st <= en); qlra]|].
    split; [split; [eapply ext_le_trans; [exact A|]; change (st <= en); qlra|exact C]|].
    intros v Hv. specialize (F v Hv). destruct (qlebP 0 v); [assumption|discriminate]. }
  assert (O : (st < en /\ in_dom f st /\ in_dom f en /\ forall v, In v (pl_values f) -> 0 <= v) -> exists y, integrate f st en = Ok y).
  { intros [A [B [C F]]]. destruct (C16_integrate f st en V) as [y [E _]]; auto; [|eauto]. apply Forall_forall. exact F. }
  split; [split; [|exact O]|destruct D; auto].
  intros [y E]. destruct D as [D|D]; [exact D|congruence].
Qed.
Print Assumptions C120_integrate.

(** A function that takes a smaller value at a later breakpoint has no image,
    no inverse queries and cannot be composed with. *)
Theorem C120_decreasing : forall f a b x y, valid f -> In a (pl_times f) -> In b (pl_times f) -> a < b ->
  pl_eval f a = Ok x -> pl_eval f b = Ok y -> y < x ->
  image f = Err AssertionError /\ (forall c, min_t_above f c = Err AssertionError) /\
  (forall c, max_t_below f c = Err AssertionError) /\ (forall c d, max_t_below_default f c d = Err AssertionError) /\
  (forall g, compose g f = Err AssertionError).
Proof.
  intros f a b x y V Ha Hb L Ea Eb D.
  assert (M : is_monotone f = false).
  { destruct (is_monotone f) eqn:M; [|reflexivity]. apply is_monotone_iff in M. exfalso.
    destruct (eval_inv f a x V Ea) as [_ ->]. destruct (eval_inv f b y V Eb) as [_ ->].
    assert (I1 : exists i, (0 <= i < pl_len f)%Z /\ tm f i = a).
    { apply In_nth_error in Ha. destruct Ha as [n Hn]. exists (Z.of_nat n). split.
      - unfold pl_len, zlen. assert (nth_error (pl_times f) n <> None) by congruence. apply nth_error_Some in H. lia.
      - unfold tm, nthq. rewrite Nat2Z.id. apply nth_error_nth. exact Hn. }
    assert (I2 : exists i, (0 <= i < pl_len f)%Z /\ tm f i = b).
    { apply In_nth_error in Hb. destruct Hb as [n Hn]. exists (Z.of_nat n). split.
      - unfold pl_len, zlen. assert (nth_error (pl_times f) n <> None) by congruence. apply nth_error_Some in H. lia.
      - unfold tm, nthq. rewrite Nat2Z.id. apply nth_error_nth. exact Hn. }
    destruct I1 as [i [I1 <-]], I2 as [j [I2 <-]]. rewrite !at_tm in D by auto.
    assert (i < j)%Z by (destruct (Z.lt_ge_cases i j); [assumption|]; exfalso; pose proof (tm_le f V j i ltac:(lia) ltac:(lia)); qlra).
    assert (vl f i <= vl f j) by (apply (sorted_nthq Qcle); auto; rewrite ?len_vals by auto; lia). qlra. }
  unfold image, min_t_above, max_t_below, max_t_below_default, compose. rewrite M. cbn [assertb bind]. repeat split; reflexivity.
Qed.
Print Assumptions C120_decreasing.

(** Level queries that no point of the domain satisfies. *)
Theorem C120_level : forall f b, valid f -> mono f ->
  ((forall t y, pl_eval f t = Ok y -> y < b) -> min_t_above f b = Err AssertionError) /\
  ((forall t y, pl_eval f t = Ok y -> b < y) -> max_t_below f b = Err AssertionError).
Proof.
  intros f b V M. pose proof M as [N _]. apply is_monotone_iff in N. split; intro H.
  - unfold min_t_above. rewrite N. cbn [assertb bind].
    assert (X : exists e, pl_eval_ext f (pl_hi f) = Ok e /\ ext_lt e (Fin b)).
    { destruct (pl_hi f) as [|h|] eqn:Eh.
      - exfalso. pose proof (v_dom f V _ (tm_in f 0 ltac:(pose proof (len_pos f V); lia))) as [_ D]. rewrite Eh in D. destruct D.
      - assert (D : in_dom f h). { pose proof (v_dom f V _ (tm_in f 0 ltac:(pose proof (len_pos f V); lia))) as [D1 D2]. split; [eapply ext_le_trans; [exact D1|]; rewrite Eh in D2; exact D2|rewrite Eh; apply ext_le_refl]. }
        exists (Fin (pl_at f h)). cbn [pl_eval_ext]. rewrite (eval_at f h V D). split; [reflexivity|]. apply ext_lt_fin. apply (H h). apply eval_at; auto.
      - destruct (eval_pinf f V Eh) as [e [E L]]. exists e. split; [exact E|]. destruct e as [|v|]; cbn [limit_at_pinf] in L.
        + unfold ext_lt. cbn. tauto.
        + destruct L as [T L]. apply ext_lt_fin. apply (H T). apply L. qlra.
        + exfalso. destruct (L b) as [T L']. destruct (L' T ltac:(qlra)) as [v [E1 E2]]. specialize (H T v E1). qlra. }
    destruct X as [e [-> L]]. cbn [bind]. destruct (ext_lebP (Fin b) e); [contradiction|reflexivity].
  - unfold max_t_below. rewrite N. cbn [assertb bind].
    assert (X : exists e, pl_eval_ext f (pl_lo f) = Ok e /\ ext_lt (Fin b) e).
    { destruct (pl_lo f) as [|h|] eqn:Eh.
      - destruct (eval_ninf f V Eh) as [e [E L]]. exists e. split; [exact E|]. destruct e as [|v|]; cbn [limit_at_ninf] in L.
        + exfalso. destruct (L b) as [T L']. destruct (L' T ltac:(qlra)) as [v [E1 E2]]. specialize (H T v E1). qlra.
        + destruct L as [T L]. apply ext_lt_fin. apply (H T). apply L. qlra.
        + unfold ext_lt. cbn. tauto.
      - assert (D : in_dom f h). { pose proof (v_dom f V _ (tm_in f 0 ltac:(pose proof (len_pos f V); lia))) as [D1 D2]. split; [rewrite Eh; apply ext_le_refl|eapply ext_le_trans; [|exact D2]; rewrite Eh in D1; exact D1]. }
        exists (Fin (pl_at f h)). cbn [pl_eval_ext]. rewrite (eval_at f h V D). split; [reflexivity|]. apply ext_lt_fin. apply (H h). apply eval_at; auto.
      - exfalso. pose proof (v_dom f V _ (tm_in f 0 ltac:(pose proof (len_pos f V); lia))) as [D _]. rewrite Eh in D. destruct D. }
    destruct X as [e [-> L]]. cbn [bind]. destruct (ext_lebP e (Fin b)); [contradiction|reflexivity].
Qed.
Print Assumptions C120_level.

(** Composition with a function taking a value more than eps outside the
    domain of the outer function. *)
Theorem C120_compose_range : forall g f t y, valid f -> mono f -> pl_eval f t = Ok y ->
  ext_lt (Fin (y + eps)) (pl_lo g) \/ ext_lt (pl_hi g) (Fin (y - eps)) -> compose g f = Err AssertionError.
Proof.
  intros g f t y V M Et Out. pose proof M as [N _]. apply is_monotone_iff in N. unfold compose, image. rewrite N. cbn [assertb bind].
  destruct (eval_inv f t y V Et) as [D ->].
  assert (X : exists e, pl_eval_ext f (pl_lo f) = Ok e /\ ext_le e (Fin (pl_at f t))).
  { destruct (pl_lo f) as [|h|] eqn:Eh.
    - destruct (eval_ninf f V Eh) as [e [E L]]. exists e. split; [exact E|]. destruct e as [|v|]; cbn [limit_at_ninf] in L.
      + exact I.
      + destruct L as [T L]. change (v <= pl_at f t). specialize (L (qmin T t) ltac:(qmm; qlra)).
        destruct (eval_inv f _ _ V L) as [_ ->]. apply at_mono; auto. qmm; qlra.
      + exfalso. destruct (L (pl_at f t + 1)) as [T L']. destruct (L' (qmin T t) ltac:(qmm; qlra)) as [v [E1 E2]].
        destruct (eval_inv f _ _ V E1) as [_ ->]. pose proof (at_mono f (qmin T t) t V M ltac:(qmm; qlra)). qlra.
    - assert (h <= t) by (destruct D as [D _]; rewrite Eh in D; exact D).
      assert (Dh : in_dom f h). { destruct D as [D1 D2]. split; [rewrite Eh; apply ext_le_refl|eapply ext_le_trans; [|exact D2]; exact H]. }
      exists (Fin (pl_at f h)). cbn [pl_eval_ext]. rewrite (eval_at f h V Dh). split; [reflexivity|]. apply at_mono; auto.
    - exfalso. destruct D as [D _]. rewrite Eh in D. destruct D. }
  assert (Y : exists e, pl_eval_ext f (pl_hi f) = Ok e /\ ext_le (Fin (pl_at f t)) e).
  { destruct (pl_hi f) as [|h|] eqn:Eh.
    - exfalso. destruct D as [_ D]. rewrite Eh in D. destruct D.
    - assert (t <= h) by (destruct D as [_ D]; rewrite Eh in D; exact D).
      assert (Dh : in_dom f h). { destruct D as [D1 D2]. split; [eapply ext_le_trans; [exact D1|]; exact H|rewrite Eh; apply ext_le_refl]. }
      exists (Fin (pl_at f h)). cbn [pl_eval_ext]. rewrite (eval_at f h V Dh). split; [reflexivity|]. apply at_mono; auto.
    - destruct (eval_pinf f V Eh) as [e [E L]]. exists e. split; [exact E|]. destruct e as [|v|]; cbn [limit_at_pinf] in L.
      + exfalso. destruct (L (pl_at f t - 1)) as [T L']. destruct (L' (qmax T t) ltac:(qmm; qlra)) as [v [E1 E2]].
        destruct (eval_inv f _ _ V E1) as [_ ->]. pose proof (at_mono f t (qmax T t) V M ltac:(qmm; qlra)). qlra.
      + destruct L as [T L]. change (pl_at f t <= v). specialize (L (qmax T t) ltac:(qmm; qlra)).
        destruct (eval_inv f _ _ V L) as [_ ->]. apply at_mono; auto. qmm; qlra.
      + exact I. }
  destruct X as [e0 [-> L0]], Y as [e1 [-> L1]]. cbn [bind].
  destruct (ext_lebP (pl_lo g) (ext_add e0 eps)) as [A|A]; [|reflexivity].
  destruct (ext_lebP (ext_add e1 (- eps)) (pl_hi g)) as [B|B]; [|reflexivity]. exfalso. destruct Out as [O|O]; apply O.
  - eapply ext_le_trans; [exact A|]. destruct e0; [exact I| |destruct L0]. change (q + eps <= pl_at f t + eps). change (q <= pl_at f t) in L0. qlra.
  - eapply ext_le_trans; [|exact B]. destruct e1; [destruct L1| |exact I]. change (pl_at f t - eps <= q + - eps). change (pl_at f t <= q) in L1. qlra.
Qed.
Print Assumptions C120_compose_range.

(** [smaller_equals] compares only functions that start together at a
    breakpoint of both. *)
Theorem C120_smaller_equals : forall f g tf tg, pyget (pl_times f) 0 = Ok tf -> pyget (pl_times g) 0 = Ok tg ->
  ~ (pl_lo f = Fin tf /\ pl_lo g = Fin tg /\ tf = tg) -> smaller_equals f g = Err AssertionError.
Proof.
  intros f g tf tg Ef Eg N. unfold smaller_equals. rewrite Ef, Eg. cbn [bind].
  destruct (ext_eqbP (Fin tf) (pl_lo f)) as [A|], (ext_eqbP (pl_lo f) (Fin tg)) as [B|], (ext_eqbP (Fin tg) (pl_lo g)) as [C|]; try reflexivity.
  exfalso. apply N. repeat split; congruence.
Qed.
Print Assumptions C120_smaller_equals.

(** Only a function reaching (by more than eps) further than the receiver can
    extend it. *)
Theorem C120_extend_domain : forall f g,
  (ext_le (pl_lo f) (ext_add (pl_lo g) eps) -> left_extend f g = Err AssertionError) /\
  (ext_le (ext_add (pl_hi g) (- eps)) (pl_hi f) -> right_extend f g = Err AssertionError).
Proof.
  intros f g. unfold left_extend, right_extend. split; intro H.
  - destruct (ext_ltbP (ext_add (pl_lo g) eps) (pl_lo f)) as [C|]; [contradiction|reflexivity].
  - destruct (ext_ltbP (pl_hi f) (ext_add (pl_hi g) (- eps))) as [C|]; [contradiction|reflexivity].
Qed.
Print Assumptions C120_extend_domain.

(** Segments are numbered -1 .. n-1. *)
Theorem C120_segment : forall f i, (i < -1 \/ Z.of_nat (length (pl_times f)) <= i)%Z ->
  gradient f i = Err AssertionError /\ forall x, inverse f x i = Err AssertionError.
Proof.
  intros f i H. assert (E : ((-1 <=? i)%Z && (i <? pl_len f)%Z)%bool = false).
  { unfold pl_len, zlen. destruct (Z.leb_spec (-1) i), (Z.ltb_spec i (Z.of_nat (length (pl_times f)))); try reflexivity. exfalso. lia. }
  unfold gradient, inverse. rewrite E. split; reflexivity.
Qed.
Print Assumptions C120_segment.

(** [ensure_monotone(assert_monotone=True)]: if a value falls more than eps
    below an earlier one the call is refused. *)
Theorem C120_ensure_monotone : forall f l1 a l2 b l3, pl_values f = l1 ++ a :: l2 ++ b :: l3 -> b < a - eps ->
  ensure_monotone true f = Err AssertionError.
Proof.
  intros f l1 a l2 b l3 E D.
  assert (R : forall l2 p, a <= p -> run_max true p (l2 ++ b :: l3) = Err AssertionError).
  { induction l0 as [|v r IH]; intros p Hp; cbn [app run_max negb orb].
    - destruct (qlebP p (b + eps)); [exfalso; qlra|reflexivity].
    - destruct (qlebP p (v + eps)); [|reflexivity]. cbn [assertb bind]. rewrite IH by (qmm; qlra). reflexivity. }
  assert (R2 : forall l1 p, run_max true p (l1 ++ a :: l2 ++ b :: l3) = Err AssertionError).
  { induction l0 as [|v r IH]; intros p; cbn [app run_max negb orb].
    - destruct (qlebP p (a + eps)); [|reflexivity]. cbn [assertb bind]. rewrite R by (qmm; qlra). reflexivity.
    - destruct (qlebP p (v + eps)); [|reflexivity]. cbn [assertb bind]. rewrite IH. reflexivity. }
  unfold ensure_monotone. rewrite E. destruct l1 as [|v l1]; cbn [app].
  - rewrite R by qlra. reflexivity.
  - rewrite R2. reflexivity.
Qed.
Print Assumptions C120_ensure_monotone.

(** ** Step functions *)
Theorem C120_rc_constructor : forall times values lo hi,
  (length values = length times /\ (forall t, In t times -> ext_le lo (Fin t) /\ ext_le (Fin t) hi) ->
     rc_init times values lo hi = Ok (mkRC times values lo hi)) /\
  (~ (length values = length times /\ (forall t, In t times -> ext_le lo (Fin t) /\ ext_le (Fin t) hi)) ->
     rc_init times values lo hi = Err AssertionError).
Proof.
  intros ts vs lo hi. unfold rc_init, zlen.
  assert (F : forallb (fun t => ext_leb lo (Fin t) && ext_leb (Fin t) hi)%bool ts = true <-> forall t, In t ts -> ext_le lo (Fin t) /\ ext_le (Fin t) hi).
  { rewrite forallb_forall. split; intros H t Ht; specialize (H t Ht); destruct (ext_lebP lo (Fin t)), (ext_lebP (Fin t) hi); cbn in *; tauto || discriminate. }
  destruct (Z.eqb_spec (Z.of_nat (length vs)) (Z.of_nat (length ts))) as [A|A]; cbn [assertb bind].
  - destruct (forallb _ ts) eqn:B; cbn [assertb bind].
    + split; [reflexivity|]. intro N. exfalso. apply N. split; [lia|apply F; reflexivity].
    + split; [|reflexivity]. intros [_ H]. apply F in H. discriminate.
  - split; [|reflexivity]. intros [H _]. exfalso. lia.
Qed.
Print Assumptions C120_rc_constructor.

(** Sums and differences are only formed of step functions on the same domain. *)
Theorem C120_rc_domains : forall f g, rvalid g -> rc_lo f <> rc_lo g \/ rc_hi f <> rc_hi g ->
  rc_plus f g = Err AssertionError /\ rc_sub f g = Err AssertionError.
Proof.
  assert (P : forall f g, rc_lo f <> rc_lo g \/ rc_hi f <> rc_hi g -> rc_plus f g = Err AssertionError).
  { intros f g H. unfold rc_plus. destruct (ext_eqbP (rc_lo f) (rc_lo g)), (ext_eqbP (rc_hi f) (rc_hi g)); try reflexivity. exfalso. tauto. }
  intros f g V H. split; [apply P; exact H|]. unfold rc_sub, rc_neg.
  rewrite (proj1 (C120_rc_constructor _ _ _ _)).
  - cbn [bind]. apply P. exact H.
  - rewrite map_length. split; [apply V|]. intros t Ht. apply (rv_dom g V t Ht).
Qed.
Print Assumptions C120_rc_domains.

(** [integral] requires the domain to start at the first breakpoint and to
    contain at least one unit of time after the last. *)
Theorem C120_rc_integral : forall f t0 tl, pyget (rc_times f) 0 = Ok t0 -> pyget (rc_times f) (-1) = Ok tl ->
  rc_lo f <> Fin t0 \/ ext_lt (rc_hi f) (Fin (tl + 1)) -> rc_integral f = Err AssertionError.
Proof.
  intros f t0 tl E0 E1 H. unfold rc_integral. rewrite E0, E1. cbn [bind].
  destruct (ext_eqbP (Fin t0) (rc_lo f)), (ext_lebP (Fin (tl + 1)) (rc_hi f)); try reflexivity. exfalso. unfold ext_lt in H. intuition congruence.
Qed.
Print Assumptions C120_rc_integral.

(** ** Priority queues: an item can be stored once, and only stored items can
    be changed or removed. *)
Theorem C120_queue_item : forall (A : Type) (EA : Item A) (q : PQ A) it k,
  (pq_has q it = true -> pq_push q it k = Err AssertionError) /\
  (pq_has q it = false -> pq_decrease_key q it k = Err AssertionError /\ pq_update q it k = Err AssertionError /\
     pq_increase_key q it k = Err AssertionError /\ pq_remove q it = Err AssertionError).
Proof.
  intros A EA q it k. unfold pq_push, pq_decrease_key, pq_update, pq_increase_key, pq_remove.
  split; intros ->; repeat split; reflexivity.
Qed.
Print Assumptions C120_queue_item.

(** ** Networks: a commodity is accepted iff its sink and all its sources are
    nodes; it is then appended and nothing else changes. *)
Theorem C120_add_commodity : forall n sources sink pred,
  (dhas (g_nodes (w_graph n)) sink = true /\ (forall s r, In (s, r) sources -> dhas (g_nodes (w_graph n)) s = true) ->
     exists n', nw_add_commodity n sources sink pred = Ok n' /\ w_com n' = w_com n ++ [mkCom sources sink pred] /\
       w_graph n' = w_graph n /\ w_cap n' = w_cap n /\ w_tau n' = w_tau n) /\
  (dhas (g_nodes (w_graph n)) sink = false \/ (exists s r, In (s, r) sources /\ dhas (g_nodes (w_graph n)) s = false) ->
     nw_add_commodity n sources sink pred = Err AssertionError).
Proof.
  intros n so si p. unfold nw_add_commodity. split.
  - intros [H1 H2]. assert (F : forallb (fun p0 => dhas (g_nodes (w_graph n)) (fst p0)) so = true).
    { apply forallb_forall. intros [s r] Hs. apply (H2 s r Hs). }
    rewrite F, H1. cbn [assertb bind]. eexists. split; [reflexivity|]. repeat split.
  - intros [H|[s [r [Hs H]]]].
    + destruct (forallb _ so); cbn [assertb bind]; [|reflexivity]. rewrite H. reflexivity.
    + assert (F : forallb (fun p0 => dhas (g_nodes (w_graph n)) (fst p0)) so = false).
      { destruct (forallb _ so) eqn:F; [|reflexivity]. rewrite forallb_forall in F. specialize (F _ Hs). cbn [fst] in F. congruence. }
      rewrite F. reflexivity.
Qed.
Print Assumptions C120_add_commodity.

(** ** Non-vacuity: each refusal happens for concrete arguments *)
Definition rj_f : PL := mkPL [0; 1] [0; 1] 1 1 (Fin 0) (Fin (qz 2)).
Definition rj_g : PL := mkPL [qz 2; qz 3] [0; 1] 1 1 (Fin (qz 2)) (Fin (qz 4)).
Definition rj_h : PL := mkPL [0; 1] [1; 0] 1 1 (Fin 0) PInf.
Definition rj_s : RC := mkRC [0; 1] [1; 0] (Fin 0) (Fin (qz 2)).
Definition rj_r : RC := mkRC [0; 1] [1; 0] (Fin 0) PInf.
Definition is_assert {A} (r : res A) : bool := match r with Err AssertionError => true | _ => false end.
Example C120_example :
  valid rj_f /\ valid rj_g /\ no_overlap rj_f rj_g /\ in_dom rj_f (qz 2) /\ in_dom rj_g (qz 2) /\ mono rj_f /\
  is_assert (pl_plus rj_f rj_g) = true /\ is_assert (integrate rj_f 1 0) = true /\
  is_assert (min_t_above rj_f (qz 3)) = true /\ is_assert (max_t_below rj_f (qz (-1))) = true /\
  is_assert (compose rj_g rj_f) = true /\ is_assert (compose rj_f rj_h) = true /\
  is_assert (smaller_equals rj_f rj_g) = true /\ is_assert (restrict rj_f (Fin 1) (Fin (qz 3))) = true /\
  is_assert (rc_plus rj_s rj_r) = true /\ is_assert (rc_plus rj_s rj_s) = false /\
  is_assert (rc_integral (mkRC [0; 1] [1; 0] (Fin 0) (Fin 1))) = true /\ is_assert (rc_integral rj_s) = false /\
  is_assert (nw_add_commodity nw_empty [] 0 0) = true.
Proof.
  assert (Vf : valid rj_f).
  { assert (E : exists f, pl_init [0; 1] [0; 1] 1 1 (Fin 0) (Fin (qz 2)) = Ok f) by (eexists; vm_compute; reflexivity).
    destruct E as [f E]. apply pl_init_inv in E. destruct E as [-> V]. exact V. }
  assert (Vg : valid rj_g).
  { assert (E : exists f, pl_init [qz 2; qz 3] [0; 1] 1 1 (Fin (qz 2)) (Fin (qz 4)) = Ok f) by (eexists; vm_compute; reflexivity).
    destruct E as [f E]. apply pl_init_inv in E. destruct E as [-> V]. exact V. }
  split; [exact Vf|]. split; [exact Vg|]. split.
  { intros s t [_ A] [B _] [_ C] [D _]. change (s <= qz 2) in A. change (qz 2 <= s) in B. change (t <= qz 2) in C. change (qz 2 <= t) in D.
    apply Qcle_antisym; eapply Qcle_trans; eassumption. }
  split; [apply bool_dom; vm_compute; reflexivity|]. split; [apply bool_dom; vm_compute; reflexivity|].
  split; [split; [repeat constructor; qlra|split; change (0 <= 1); qlra]|].
  repeat (split; [vm_compute; reflexivity|]). vm_compute; reflexivity.
Qed.
