(** * Properties C18-C22: right-constant step functions
      (src/utilities/right_constant.py)

    [rvalid f]: the two lists have the same positive length, the breakpoints
    are strictly increasing and lie in the domain.  The constructor itself
    does not check that the breakpoints increase.  [rin_dom f t]: t is in the
    domain.  [rc_eval f t] is the call [f(t)]. *)
From Coq Require Import Qround.
From Verif Require Import Base Spec Arrays ArraysProofs PL PLProofs PLEval PLArith PLOps PLOps2 RC RCProofs RCOps PropPL.

(** ** C18 *)
(** y is the value of the last breakpoint at or before t; before all
    breakpoints it is the first value. *)
Definition value_of_last_breakpoint (f : RC) (t y : Qc) : Prop :=
  (exists i a, nth_error (rc_times f) i = Some a /\ a <= t /\ nth_error (rc_values f) i = Some y /\
     forall j b, (i < j)%nat -> nth_error (rc_times f) j = Some b -> t < b) \/
  ((forall a, In a (rc_times f) -> t < a) /\ nth_error (rc_values f) 0 = Some y).

Lemma vlb_ptr f t p : rvalid f -> is_ptr (rc_times f) t p -> value_of_last_breakpoint f t (nthq (rc_values f) p).
Proof.
  intros V [P0 [P1 P2]]. pose proof (rlen_pos f V) as LP. pose proof (rlen_vals f V) as LV.
  assert (NV : forall i, (0 <= i < rc_len f)%Z -> nth_error (rc_values f) (Z.to_nat i) = Some (nthq (rc_values f) i)).
  { intros i Hi. unfold nthq. apply nth_error_nth'. unfold rc_len, zlen in *. lia. }
  assert (NT : forall i, (0 <= i < rc_len f)%Z -> nth_error (rc_times f) (Z.to_nat i) = Some (nthq (rc_times f) i)).
  { intros i Hi. unfold nthq. apply nth_error_nth'. unfold rc_len, zlen in *. lia. }
  assert (LT : forall j b, (Z.to_nat p < j)%nat -> nth_error (rc_times f) j = Some b -> t < b).
  { intros j b Hj Hb. assert (j < length (rc_times f))%nat by (apply nth_error_Some; congruence).
    specialize (P2 ltac:(unfold zlen; lia)). pose proof (rt_le f V (p+1) (Z.of_nat j) ltac:(lia) ltac:(unfold rc_len, zlen; lia)) as Q.
    specialize (NT (Z.of_nat j) ltac:(unfold rc_len, zlen; lia)). rewrite Nat2Z.id, Hb in NT. injection NT as ->. qlra. }
  destruct (qlebP (nthq (rc_times f) p) t) as [C|C].
  - left. exists (Z.to_nat p), (nthq (rc_times f) p). split; [apply NT; exact P0|]. split; [exact C|]. split; [apply NV; exact P0|exact LT].
  - right. assert (p = 0%Z) by (destruct (Z.eq_dec p 0); auto; exfalso; apply C, P1; lia). subst p.
    split; [|apply (NV 0%Z); lia]. intros a Ha. apply In_nth_error in Ha. destruct Ha as [j Hj].
    destruct j as [|j]; [|apply (LT (S j)); [cbn; lia|exact Hj]].
    specialize (NT 0%Z ltac:(lia)). cbn [Z.to_nat] in NT. rewrite Hj in NT. injection NT as ->. qlra.
Qed.

Lemma vlb_unique f t y y' : value_of_last_breakpoint f t y -> value_of_last_breakpoint f t y' -> y = y'.
Proof.
  intros [[i [a [A1 [A2 [A3 A4]]]]]|[A1 A2]] [[j [b [B1 [B2 [B3 B4]]]]]|[B1 B2]].
  - destruct (lt_eq_lt_dec i j) as [[H|H]|H].
    + specialize (A4 j b H B1). qlra.
    + subst. congruence.
    + specialize (B4 i a H A1). qlra.
  - apply nth_error_In in A1. specialize (B1 a A1). qlra.
  - apply nth_error_In in B1. specialize (A1 b B1). qlra.
  - congruence.
Qed.

Theorem C18_eval : forall f t, rvalid f ->
  (rin_dom f t -> exists y, rc_eval f t = Ok y /\ value_of_last_breakpoint f t y /\
     forall y', value_of_last_breakpoint f t y' -> y' = y) /\
  (~ rin_dom f t -> rc_eval f t = Err AssertionError /\ rc_eval_from_end f t = Err AssertionError).
Proof.
  intros f t V. split; [|apply reval_out; exact V]. intro D. destruct (ptr_exists f V t) as [p P].
  exists (nthq (rc_values f) p). rewrite (reval_at f V t D), (at_ptr f V t p P).
  split; [reflexivity|]. pose proof (vlb_ptr f t p V P) as Q. split; [exact Q|]. intros y' H. exact (vlb_unique _ _ _ _ H Q).
Qed.
Print Assumptions C18_eval.
Theorem C18_eval_from_end : forall f t, rvalid f -> rc_eval_from_end f t = rc_eval f t.
Proof. intros. apply rc_eval_from_end_eq. assumption. Qed.
Print Assumptions C18_eval_from_end.

Lemma rlift2 op f g p : rvalid f -> rvalid g -> rvalid p ->
  (forall t, rin_dom p t <-> rin_dom f t /\ rin_dom g t) ->
  (forall t, rc_at p t = op (rc_at f t) (rc_at g t)) ->
  forall t, rc_eval p t = lift2 op (rc_eval f t) (rc_eval g t).
Proof.
  intros Vf Vg Vp D A t. destruct (rin_dec f t) as [Df|Df].
  - destruct (rin_dec g t) as [Dg|Dg].
    + rewrite (reval_at f Vf t Df), (reval_at g Vg t Dg), (reval_at p Vp t) by (apply D; auto). cbn [lift2 bind]. unfold lift2. cbn [bind]. rewrite A. reflexivity.
    + rewrite (reval_at f Vf t Df). rewrite (proj1 (reval_out g t Dg)).
      rewrite (proj1 (reval_out p t ltac:(rewrite D; tauto))). reflexivity.
  - rewrite (proj1 (reval_out f t Df)). rewrite (proj1 (reval_out p t ltac:(rewrite D; tauto))). reflexivity.
Qed.
Lemma rlift1 op f p : rvalid f -> rvalid p ->
  (forall t, rin_dom p t <-> rin_dom f t) ->
  (forall t, rc_at p t = op (rc_at f t)) ->
  forall t, rc_eval p t = lift1 op (rc_eval f t).
Proof.
  intros Vf Vp D A t. destruct (rin_dec f t) as [Df|Df].
  - rewrite (reval_at f Vf t Df), (reval_at p Vp t) by (apply D; auto). unfold lift1. cbn [bind]. rewrite A. reflexivity.
  - rewrite (proj1 (reval_out f t Df)). rewrite (proj1 (reval_out p t ltac:(rewrite D; tauto))). reflexivity.
Qed.

(** ** C19 *)
(** [extend] raises exactly for times more than eps before the last breakpoint. *)
Theorem C19_extend_defined : forall f time v tl, rvalid f -> pyget (rc_times f) (-1) = Ok tl ->
  ((exists f', rc_extend f time v = Ok f') <-> tl - eps <= time) /\
  (time < tl - eps -> rc_extend f time v = Err AssertionError).
Proof. exact rc_extend_defined. Qed.
Print Assumptions C19_extend_defined.

(** Exact version: the function is unchanged before the new time and equal to
    the new value from then on.  (If [time] is the only breakpoint the domain
    must start there: otherwise the earlier values change too, see
    C19_only_breakpoint.) *)
Theorem C19_extend : forall f time v tl vl_,
  rvalid f -> ext_le (Fin time) (rc_hi f) ->
  pyget (rc_times f) (-1) = Ok tl -> pyget (rc_values f) (-1) = Ok vl_ ->
  (time = tl \/ tl + eps < time) -> (v = vl_ \/ eps < qabs (vl_ - v)) ->
  (length (rc_times f) = 1%nat -> time = tl -> rc_lo f = Fin tl) ->
  exists f', rc_extend f time v = Ok f' /\ rvalid f' /\
    forall t, rc_eval f' t = if qltb t time then rc_eval f t
                             else if ext_leb (Fin t) (rc_hi f) then Ok v else Err AssertionError.
Proof.
  intros f time v tl vl_ V Hh Et Ev HT HV H1.
  assert (X : exists f', rc_extend f time v = Ok f').
  { apply (proj1 (rc_extend_defined f time v tl V Et)). qprep. destruct HT as [-> | HT]; qlra. }
  destruct X as [f' E]. exists f'. split; [exact E|].
  destruct (rc_extend_cases f time v f' tl vl_ V Hh Et Ev E) as [V' [L [H [_ K]]]]. split; [exact V'|].
  assert (Dm : forall t, rin_dom f' t <-> rin_dom f t) by (intro t; unfold rin_dom; rewrite L, H; tauto).
  assert (Lo : forall t, time <= t -> ext_le (rc_lo f) (Fin t)).
  { intros t Ht. rewrite (rlast_t f V) in Et. apply ok_inj in Et.
    assert (I : In tl (rc_times f)) by (rewrite <- Et; apply nthq_in; pose proof (rlen_pos f V); unfold rc_len in *; lia).
    destruct (rv_dom f V tl I) as [Q _]. eapply ext_le_trans; [exact Q|]. cbn [ext_le]. destruct HT; qlra. }
  assert (New : forall t, time <= t -> rc_at f' t = v).
  { intros t Ht. assert (tl <= t) by (destruct HT; qlra). destruct K as [[K1 ->]|[[K1 [K2 [K3 [K4 K5]]]]|[K1 [K2 [K3 K4]]]]].
    - rewrite (at_after_last f t tl vl_ V Et Ev) by assumption. destruct HV as [-> | HV]; [reflexivity|qlra].
    - apply K4. assumption.
    - rewrite K4. destruct (qlebP time t); [reflexivity|qlra]. }
  assert (Old : forall t, rin_dom f t -> t < time -> rc_at f' t = rc_at f t).
  { intros t D Ht. destruct K as [[K1 ->]|[[K1 [K2 [K3 [K4 K5]]]]|[K1 [K2 [K3 K4]]]]].
    - reflexivity.
    - assert (time = tl). { destruct HT as [?|HT]; auto. destruct (qabs_spec (time - tl)) as [[? Q]|[? Q]]; rewrite Q in K2; qlra. }
      subst time. apply K5; [exact Ht|]. right. pose proof (rlen_pos f V).
      destruct (Nat.eq_dec (length (rc_times f)) 1) as [E1|]; [|unfold rc_len, zlen in *; lia].
      specialize (H1 E1 eq_refl). destruct D as [D _]. rewrite H1 in D. cbn [ext_le] in D. qlra.
    - rewrite K4. destruct (qlebP time t); [qlra|reflexivity]. }
  intro t. destruct (qltbP t time) as [C|C].
  - destruct (rin_dec f t) as [D|D].
    + rewrite (reval_at f V t D), (reval_at f' V' t) by (apply Dm; auto). rewrite Old; auto.
    + rewrite (proj1 (reval_out f t D)). rewrite (proj1 (reval_out f' t ltac:(rewrite Dm; tauto))). reflexivity.
  - assert (C' : time <= t) by qlra. destruct (ext_lebP (Fin t) (rc_hi f)) as [D|D].
    + rewrite (reval_at f' V' t) by (apply Dm; split; auto). rewrite New; auto.
    + apply (proj1 (reval_out f' t ltac:(rewrite Dm; intros [_ Q]; contradiction))).
Qed.
Print Assumptions C19_extend.

(** Tolerance version, no separation assumed: outside the eps-window around
    the new time the result is the old function before it, and within eps of
    the new value after it. *)
Theorem C19_extend_tolerance : forall f time v f' tl,
  rvalid f -> ext_le (Fin time) (rc_hi f) -> rc_extend f time v = Ok f' ->
  pyget (rc_times f) 0 = Ok tl -> rc_lo f = Fin tl ->
  rvalid f' /\ rc_lo f' = rc_lo f /\ rc_hi f' = rc_hi f /\
  (forall t, t < time - eps -> rc_eval f' t = rc_eval f t) /\
  (forall t, time + eps <= t -> rin_dom f t -> exists y, rc_eval f' t = Ok y /\ qabs (y - v) <= eps).
Proof.
  intros f time v f' t0 V Hh E Et0 Elo.
  pose proof (rlast_t f V) as Et. pose proof (rlast_v f V) as Ev.
  destruct (rc_extend_cases f time v f' _ _ V Hh Et Ev E) as [V' [L [H [B K]]]].
  set (tl := nthq (rc_times f) (rc_len f - 1)) in *. set (vl_ := nthq (rc_values f) (rc_len f - 1)) in *.
  assert (Dm : forall t, rin_dom f' t <-> rin_dom f t) by (intro t; unfold rin_dom; rewrite L, H; tauto).
  split; [exact V'|]. split; [exact L|]. split; [exact H|]. split.
  - intros t Ht. destruct (rin_dec f t) as [D|D].
    + rewrite (reval_at f V t D), (reval_at f' V' t) by (apply Dm; auto). f_equal.
      destruct K as [[K1 ->]|[[K1 [K2 [K3 [K4 K5]]]]|[K1 [K2 [K3 K4]]]]]; [reflexivity| |].
      * apply K5. { destruct (qabs_spec (time - tl)) as [[? Q]|[? Q]]; rewrite Q in K2; qlra. }
        left. exists t0. rewrite (rget_t f) in Et0 by (pose proof (rlen_pos f V); lia). apply ok_inj in Et0. split.
        { rewrite <- Et0. apply nthq_in. pose proof (rlen_pos f V). unfold rc_len in *. lia. }
        destruct D as [D _]. rewrite Elo in D. exact D.
      * rewrite K4. destruct (qlebP time t); [qlra|reflexivity].
    + rewrite (proj1 (reval_out f t D)). rewrite (proj1 (reval_out f' t ltac:(rewrite Dm; tauto))). reflexivity.
  - intros t Ht D. exists (rc_at f' t). split; [apply reval_at; auto; apply Dm; auto|].
    assert (Z : qabs (v - v) <= eps). { replace (v - v) with 0 by ring. vm_compute. discriminate. }
    destruct K as [[K1 ->]|[[K1 [K2 [K3 [K4 K5]]]]|[K1 [K2 [K3 K4]]]]].
    + rewrite (at_after_last f t tl vl_ V Et Ev) by qlra. exact K1.
    + rewrite K4; [exact Z|]. destruct (qabs_spec (time - tl)) as [[? Q]|[? Q]]; rewrite Q in K2; qlra.
    + rewrite K4. destruct (qlebP time t); [exact Z|qlra].
Qed.
Print Assumptions C19_extend_tolerance.

(** Any sequence of extensions with times inside the domain keeps the
    function well-formed (strictly increasing breakpoints in the domain). *)
Fixpoint rc_extends (f : RC) (es : list (Qc * Qc)) : res RC :=
  match es with [] => Ok f | (t, v) :: r => f' <- rc_extend f t v ;; rc_extends f' r end.
Theorem C19_history_valid : forall es f f', rvalid f ->
  (forall t v, In (t, v) es -> ext_le (Fin t) (rc_hi f)) -> rc_extends f es = Ok f' ->
  rvalid f' /\ rc_lo f' = rc_lo f /\ rc_hi f' = rc_hi f.
Proof.
  induction es as [|[t v] r IH]; intros f f' V H E; cbn [rc_extends] in E.
  - apply ok_inj in E. subst. auto.
  - binv E. rename a into f1.
    destruct (rc_extend_cases f t v f1 _ _ V (H t v (or_introl eq_refl)) (rlast_t f V) (rlast_v f V) E0) as [V1 [L1 [H1 _]]].
    destruct (IH f1 f' V1) as [V2 [L2 H2]]; [|exact E|].
    + intros t' v' I. rewrite H1. eapply H. right. exact I.
    + split; [exact V2|]. split; congruence.
Qed.
Print Assumptions C19_history_valid.

(** If the only breakpoint is re-set, values before it change as well. *)
Definition rc_ex1 : RC := mkRC [0%Qc] [1] NInf PInf.
Theorem C19_only_breakpoint : exists f', rvalid rc_ex1 /\ rc_extend rc_ex1 0 (1+1) = Ok f' /\
  chk (rc_eval rc_ex1 (qz (-1))) 1 = true /\ chk (rc_eval f' (qz (-1))) (1+1) = true.
Proof.
  eexists. split; [constructor; cbn [rc_times rc_values rc_ex1]; [reflexivity|discriminate|repeat constructor|]|].
  - intros t [<-|[]]. split; exact Logic.I.
  - split; [vm_compute; reflexivity|]. split; vm_compute; reflexivity.
Qed.

(** ** C20 *)
Theorem C20_plus : forall f g, rvalid f -> rvalid g -> rc_lo f = rc_lo g -> rc_hi f = rc_hi g ->
  separated (rc_times f ++ rc_times g) ->
  exists p, rc_plus f g = Ok p /\ rvalid p /\
    forall t, rc_eval p t = lift2 Qcplus (rc_eval f t) (rc_eval g t).
Proof.
  intros f g Vf Vg El Eh S. destruct (rc_plus_ok f g Vf Vg El Eh S) as [p [E [Vp [L [H [_ [_ A]]]]]]].
  exists p. split; [exact E|]. split; [exact Vp|]. apply rlift2; auto.
  intro t. unfold rin_dom. rewrite L, H, <- El, <- Eh. tauto.
Qed.
Print Assumptions C20_plus.

Theorem C20_sub : forall f g, rvalid f -> rvalid g -> rc_lo f = rc_lo g -> rc_hi f = rc_hi g ->
  separated (rc_times f ++ rc_times g) ->
  exists p, rc_sub f g = Ok p /\ rvalid p /\
    forall t, rc_eval p t = lift2 Qcminus (rc_eval f t) (rc_eval g t).
Proof.
  intros f g Vf Vg El Eh S. destruct (rc_sub_ok f g Vf Vg El Eh S) as [p [E [Vp [L [H A]]]]].
  exists p. split; [exact E|]. split; [exact Vp|]. apply rlift2; auto.
  intro t. unfold rin_dom. rewrite L, H, <- El, <- Eh. tauto.
Qed.
Print Assumptions C20_sub.

Theorem C20_neg : forall f, rvalid f -> exists n, rc_neg f = Ok n /\ rvalid n /\
  forall t, rc_eval n t = lift1 Qcopp (rc_eval f t).
Proof.
  intros f V. destruct (rc_neg_ok f V) as [n [E [Vn [_ [L [H A]]]]]].
  exists n. split; [exact E|]. split; [exact Vn|]. apply rlift1; auto. intro t. unfold rin_dom. rewrite L, H. tauto.
Qed.
Print Assumptions C20_neg.

(** The functions may have different domains; [sum] evaluates on the given
    domain to the sum of the individual values wherever all are defined. *)
Fixpoint sum_list (l : list Qc) : Qc := match l with [] => 0 | x :: r => x + sum_list r end.
Theorem C20_sum : forall fs lo hi, fs <> [] -> (forall f, In f fs -> rvalid f) ->
  (forall f t, In f fs -> In t (rc_times f) -> ext_le lo (Fin t) /\ ext_le (Fin t) hi) ->
  separated (concat (map rc_times fs)) ->
  exists p, rc_sum fs lo hi = Ok p /\ rvalid p /\ rc_lo p = lo /\ rc_hi p = hi /\
    forall t vs, ext_le lo (Fin t) -> ext_le (Fin t) hi ->
      mapM (fun f => rc_eval f t) fs = Ok vs -> rc_eval p t = Ok (sum_list vs).
Proof.
  intros fs lo hi Ne V D S. assert (V' : Forall rvalid fs) by (apply Forall_forall; exact V).
  destruct (rc_sum_ok fs lo hi Ne V' D S) as [p [E [Vp [L [H [_ [_ A]]]]]]].
  exists p. split; [exact E|]. split; [exact Vp|]. split; [exact L|]. split; [exact H|].
  intros t vs Hl Hh M. rewrite (reval_at p Vp t) by (split; rewrite ?L, ?H; auto). rewrite A. f_equal.
  clear - M V'. revert vs M. induction V' as [|f fs Vf V IH]; intros vs M; cbn [mapM] in M.
  - apply ok_inj in M. subst. reflexivity.
  - binv M. binv M. apply ok_inj in M. subst vs. apply (reval_inv f Vf) in E. destruct E as [_ ->].
    cbn [rsum sum_list]. rewrite (IH _ E0). reflexivity.
Qed.
Print Assumptions C20_sum.
Theorem C20_sum_empty : forall lo hi, ext_le lo (Fin 0) -> ext_le (Fin 0) hi ->
  exists p, rc_sum [] lo hi = Ok p /\ rvalid p /\
    forall t, ext_le lo (Fin t) -> ext_le (Fin t) hi -> rc_eval p t = Ok 0.
Proof.
  intros lo hi Hl Hh. set (p := mkRC [0%Qc] [0%Qc] lo hi).
  assert (Vp : rvalid p).
  { constructor; cbn [rc_times rc_values p]; [reflexivity|discriminate|repeat constructor|]. intros t [<-|[]]. split; assumption. }
  exists p. split; [exact (rc_init_ok p Vp)|]. split; [exact Vp|]. intros t H1 H2.
  rewrite (reval_at p Vp t) by (split; assumption). f_equal. unfold rc_at. cbn [p rc_times rc_values hd combine step].
  destruct (qleb 0 t); reflexivity.
Qed.

(** ** C21 *)
(** [F = f.integral()] is 0 at the first breakpoint and grows by
    value * length over every interval without a breakpoint inside. *)
Theorem C21_integral : forall f t0 tl, rvalid f -> StronglySorted gap (rc_times f) ->
  pyget (rc_times f) 0 = Ok t0 -> pyget (rc_times f) (-1) = Ok tl ->
  rc_lo f = Fin t0 -> ext_le (Fin (tl + 1)) (rc_hi f) ->
  exists F, rc_integral f = Ok F /\ valid F /\ (forall t, in_dom F t <-> rin_dom f t) /\
    pl_eval F t0 = Ok 0 /\
    forall a b v Fa, a <= b -> (forall x, In x (rc_times f) -> x <= a \/ b <= x) -> rin_dom f b ->
      rc_eval f a = Ok v -> pl_eval F a = Ok Fa -> pl_eval F b = Ok (Fa + v * (b - a)).
Proof.
  intros f t0 tl V G E0 El Elo Hhi. destruct (rc_integral_ok f t0 tl V G E0 El Elo Hhi) as [F [E [VF [L [H [T [Z0 [_ A]]]]]]]].
  assert (Dm : forall t, in_dom F t <-> rin_dom f t) by (intro t; unfold in_dom, rin_dom; rewrite L, H; tauto).
  exists F. split; [exact E|]. split; [exact VF|]. split; [exact Dm|].
  rewrite (rget_t f) in E0 by (pose proof (rlen_pos f V); lia). apply ok_inj in E0. split.
  - rewrite (eval_at F t0 VF); [rewrite Z0; reflexivity|]. apply Dm, (rv_dom f V). rewrite <- E0. apply nthq_in.
    pose proof (rlen_pos f V). unfold rc_len in *. lia.
  - intros a b v Fa Hab Hx Db Ea EF. apply (reval_inv f V) in Ea. destruct Ea as [Da ->].
    rewrite (eval_at F a VF) in EF by (apply Dm; exact Da). apply ok_inj in EF. subst Fa.
    rewrite (eval_at F b VF) by (apply Dm; exact Db). f_equal. specialize (A a b Da Hab Hx).
    replace (pl_at F b) with (pl_at F a + (pl_at F b - pl_at F a)) by ring. rewrite A. reflexivity.
Qed.
Print Assumptions C21_integral.

(** ** C22 *)
(** [steps_clear f]: consecutive values are equal or differ by >= 1000 eps. *)
Theorem C22_simplify : forall f, rvalid f ->
  exists p, rc_simplify f = Ok p /\ rvalid p /\
    (forall x, In x (rc_times p) -> In x (rc_times f)) /\
    (steps_clear f -> forall t, rc_eval p t = rc_eval f t).
Proof.
  intros f V. destruct (rc_simplify_ok f V) as [p [E [Vp [L [H [T A]]]]]].
  exists p. split; [exact E|]. split; [exact Vp|]. split; [exact T|]. intros S t.
  rewrite (rlift1 (fun x => x) f p V Vp); [destruct (rc_eval f t); reflexivity| |apply A; exact S].
  intro u. unfold rin_dom. rewrite L, H. tauto.
Qed.
Print Assumptions C22_simplify.

(** Small steps are dropped one by one although they add up: there is no
    tolerance within which simplify is exact. *)
Definition tiny : Qc := Q2Qc (500 # 1) * eps.
Definition stair (n : nat) : RC := mkRC (map qn (seq 0 (S n))) (map (fun i => qn i * tiny) (seq 0 (S n))) NInf PInf.
Lemma qn_S n : qn (S n) = qn n + 1.
Proof. unfold qn. rewrite Nat2Z.inj_succ, <- Z.add_1_r, inject_Z_plus. apply Qc_is_canon. cbn [this Q2Qc Qcplus]. rewrite !Qred_correct. reflexivity. Qed.
Lemma qn_lt i j : (i < j)%nat -> qn i < qn j.
Proof. intro H. unfold qn, Qclt. cbn [this Q2Qc]. rewrite !Qred_correct. apply Zlt_Qlt || unfold Qlt. cbn. lia. Qed.
Lemma stair_nth n i (g : nat -> Qc) : (i <= n)%nat -> nthq (map g (seq 0 (S n))) (Z.of_nat i) = g i.
Proof.
  intro H. unfold nthq. rewrite Nat2Z.id. rewrite (nth_indep _ 0 (g 0%nat)) by (rewrite map_length, seq_length; lia).
  rewrite map_nth, seq_nth by lia. reflexivity.
Qed.
Lemma stair_valid n : rvalid (stair n).
Proof.
  constructor; cbn [rc_times rc_values stair].
  - rewrite !map_length. reflexivity.
  - discriminate.
  - generalize 0%nat. induction (S n) as [|m IH]; intro k; cbn [seq map]; constructor; [apply IH|].
    apply Forall_forall. intros x Hx. apply in_map_iff in Hx. destruct Hx as [j [<- Hj]]. apply in_seq in Hj. apply qn_lt. lia.
  - intros t _. split; exact Logic.I.
Qed.
Lemma stair_simplify n : rc_simplify (stair n) = Ok (mkRC [qn 0] [qn 0 * tiny] NInf PInf).
Proof.
  assert (V := stair_valid n).
  assert (Len : rc_len (stair n) = Z.of_nat (S n)) by (unfold rc_len, zlen; cbn [rc_times stair]; rewrite map_length, seq_length; reflexivity).
  unfold rc_simplify. rewrite (rget_t (stair n)) by lia. rewrite (rget_v _ V) by lia. cbn [bind].
  assert (F : forall l acc, (forall i, In i l -> (S i <= n)%nat) -> foldM (rsbody (stair n)) l acc = Ok acc).
  { induction l as [|i l IH]; intros acc H; [reflexivity|]. cbn [foldM].
    assert (Hi : (S i <= n)%nat) by (apply H; left; reflexivity).
    unfold rsbody at 1. rewrite !(rget_v _ V) by lia. cbn [bind]. cbn [rc_values stair].
    replace (Z.of_nat i + 1)%Z with (Z.of_nat (S i)) by lia. rewrite !stair_nth by lia.
    destruct (qlebP eps1000 (qabs (qn i * tiny - qn (S i) * tiny))) as [C|C].
    - exfalso. rewrite qn_S in C. replace (qn i * tiny - (qn i + 1) * tiny) with (- tiny) in C by ring. vm_compute in C. apply C; reflexivity.
    - cbn [bind]. apply IH. intros j Hj. apply H. right. exact Hj. }
  change (foldM _ _ _) with (foldM (rsbody (stair n)) (seq 0 (length (rc_times (stair n)) - 1)) ([nthq (rc_times (stair n)) 0], [nthq (rc_values (stair n)) 0])).
  rewrite F. 2:{ intros i Hi. apply in_seq in Hi. cbn [rc_times stair] in Hi. rewrite map_length, seq_length in Hi. lia. }
  cbn [bind fst snd rev app rc_lo rc_hi stair rc_times rc_values].
  reflexivity.
Qed.
Lemma archi x : exists n, x < qn n.
Proof.
  exists (Z.to_nat (Qceiling (this x) + 1)). unfold Qclt, qn. cbn [this Q2Qc]. rewrite Qred_correct.
  eapply Qle_lt_trans; [apply Qle_ceiling|]. rewrite <- Zlt_Qlt. lia.
Qed.
Theorem C22_unbounded_drift : forall tol, ~ (forall f p t x y, rvalid f -> rc_simplify f = Ok p ->
  rc_eval f t = Ok x -> rc_eval p t = Ok y -> qabs (x - y) <= tol).
Proof.
  intros tol C. destruct (archi (tol / tiny)) as [n Hn].
  assert (TP : 0 < tiny) by (vm_compute; reflexivity).
  assert (B : tol < qn n * tiny).
  { replace tol with (tol / tiny * tiny) by (field; intro; qlra). set (q := tol / tiny) in *. qnra. }
  assert (V := stair_valid n).
  assert (E1 : rc_eval (stair n) (qn n) = Ok (qn n * tiny)).
  { rewrite (reval_at _ V) by (split; exact Logic.I). f_equal.
    rewrite (at_ptr _ V (qn n) (Z.of_nat n)); [cbn [rc_values stair]; rewrite stair_nth by lia; reflexivity|].
    cbn [rc_times stair]. unfold is_ptr, zlen. rewrite map_length, seq_length. split; [lia|]. split; [|lia].
    intros _. rewrite stair_nth by lia. qlra. }
  set (p := mkRC [qn 0] [qn 0 * tiny] NInf PInf).
  assert (Vp : rvalid p) by (constructor; cbn [rc_times rc_values p]; [reflexivity|discriminate|repeat constructor|intros t _; split; exact Logic.I]).
  assert (E2 : rc_eval p (qn n) = Ok (qn 0 * tiny)).
  { rewrite (reval_at _ Vp) by (split; exact Logic.I). unfold rc_at. cbn [p rc_times rc_values hd combine step]. destruct (qleb _ _); reflexivity. }
  specialize (C _ _ _ _ _ V (stair_simplify n) E1 E2).
  replace (qn 0 * tiny) with 0 in C by (apply Qc_is_canon; reflexivity).
  destruct (qabs_spec (qn n * tiny - 0)) as [[? Q]|[? Q]]; rewrite Q in C; qlra.
Qed.
Print Assumptions C22_unbounded_drift.

(** ** Non-vacuity: a concrete pair of functions meets all hypotheses. *)
Definition exf : RC := mkRC [0; qz 2; qz 5] [qz 3; 0; qz 7] (Fin 0) PInf.
Definition exg : RC := mkRC [0; qz 2; qz 3] [qz 1; qz 4; qz 1] (Fin 0) PInf.
Ltac vmle := vm_compute; (reflexivity || discriminate).
Lemma exf_valid : rvalid exf.
Proof.
  constructor; cbn [rc_times rc_values exf]; [reflexivity|discriminate|repeat (constructor; [|repeat constructor; vmle]); constructor|].
  intros t Ht. split; [|exact Logic.I]. cbn [In] in Ht. destruct Ht as [<-|[<-|[<-|[]]]]; vmle.
Qed.
Lemma exg_valid : rvalid exg.
Proof.
  constructor; cbn [rc_times rc_values exg]; [reflexivity|discriminate|repeat (constructor; [|repeat constructor; vmle]); constructor|].
  intros t Ht. split; [|exact Logic.I]. cbn [In] in Ht. destruct Ht as [<-|[<-|[<-|[]]]]; vmle.
Qed.
Example C20_nonvacuous : rvalid exf /\ rvalid exg /\ separated (rc_times exf ++ rc_times exg) /\
  (exists p, rc_plus exf exg = Ok p /\ chk (rc_eval p (qz 2)) (qz 4) = true /\ chk (rc_eval p 1) (qz 4) = true /\ chk (rc_eval p (qz 9)) (qz 8) = true) /\
  (exists p, rc_sum [exf; exg; exf] (Fin 0) PInf = Ok p /\ chk (rc_eval p (qz 5)) (qz 15) = true).
Proof.
  split; [exact exf_valid|]. split; [exact exg_valid|]. split.
  - intros x y Hx Hy L. cbn [rc_times exf exg app In] in Hx, Hy.
    repeat match goal with H : _ \/ _ |- _ => destruct H as [<-|H] | H : False |- _ => destruct H end;
    try (exfalso; vm_compute in L; discriminate); vm_compute; reflexivity.
  - split; eexists; (split; [vm_compute; reflexivity|]); repeat split; vm_compute; reflexivity.
Qed.
Example C19_nonvacuous : exists f', rc_extend exf (qz 7) 1 = Ok f' /\ chk (rc_eval f' (qz 8)) 1 = true /\ chk (rc_eval f' (qz 6)) (qz 7) = true.
Proof. eexists. split; [vm_compute; reflexivity|]. split; vm_compute; reflexivity. Qed.
Example C21_nonvacuous : StronglySorted gap (rc_times exf) /\
  exists F, rc_integral exf = Ok F /\ chk (pl_eval F (qz 2)) (qz 6) = true /\ chk (pl_eval F (qz 4)) (qz 6) = true /\ chk (pl_eval F (qz 6)) (qz 13) = true.
Proof.
  split; [cbn [rc_times exf]; repeat (constructor; [|repeat constructor; vmle]); constructor|].
  eexists. split; [vm_compute; reflexivity|]. repeat split; vm_compute; reflexivity.
Qed.
Example C22_nonvacuous : steps_clear exf.
Proof.
  intros i Hi. change (rc_len exf) with 3%Z in Hi. right. assert (i = 0 \/ i = 1)%Z as [-> | ->] by lia; vm_compute; discriminate.
Qed.
