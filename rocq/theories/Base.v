(** * Base: numbers, extended numbers, exceptions, and the [eps] constant

    Python [float]s are modelled as exact rationals ([Qc], canonical
    rationals, so that equality is Leibniz equality) and the two float
    infinities by the type [ext].  Rounding and NaN are NOT modelled (see
    DESIGN.md, "Trusted base"). *)

From Coq Require Export List Arith ZArith QArith Qcanon Lia Lqa Bool.
From Coq Require Export Qfield.
Export ListNotations.

Open Scope Qc_scope.

(* ------------------------------------------------------------------ *)
(** ** A tactic for linear (and some nonlinear) arithmetic over [Qc]. *)

Lemma qpush_add a b p q : (this a == p)%Q -> (this b == q)%Q -> (this (a + b) == p + q)%Q.
Proof. intros H1 H2. unfold Qcplus. cbn [Q2Qc this]. rewrite Qred_correct, H1, H2. reflexivity. Qed.
Lemma qpush_mul a b p q : (this a == p)%Q -> (this b == q)%Q -> (this (a * b) == p * q)%Q.
Proof. intros H1 H2. unfold Qcmult. cbn [Q2Qc this]. rewrite Qred_correct, H1, H2. reflexivity. Qed.
Lemma qpush_opp a p : (this a == p)%Q -> (this (- a) == - p)%Q.
Proof. intros H1. unfold Qcopp. cbn [Q2Qc this]. rewrite Qred_correct, H1. reflexivity. Qed.
Lemma qpush_sub a b p q : (this a == p)%Q -> (this b == q)%Q -> (this (a - b) == p - q)%Q.
Proof. intros H1 H2. unfold Qcminus, Qminus. apply qpush_add; [exact H1|]. apply qpush_opp; exact H2. Qed.
Lemma qpush_inv a p : (this a == p)%Q -> (this (/ a) == / p)%Q.
Proof. intros H1. unfold Qcinv. cbn [Q2Qc this]. rewrite Qred_correct, H1. reflexivity. Qed.
Lemma qpush_const q : (this (Q2Qc q) == q)%Q.
Proof. cbn [Q2Qc this]. apply Qred_correct. Qed.
Lemma qpush_atom a : (this a == this a)%Q.
Proof. reflexivity. Qed.

Lemma qpush_lt a b p q : (this a == p)%Q -> (this b == q)%Q -> a < b -> (p < q)%Q.
Proof. unfold Qclt. intros H1 H2 H. rewrite <- H1, <- H2. exact H. Qed.
Lemma qpush_le a b p q : (this a == p)%Q -> (this b == q)%Q -> a <= b -> (p <= q)%Q.
Proof. unfold Qcle. intros H1 H2 H. rewrite <- H1, <- H2. exact H. Qed.
Lemma qpush_eq a b p q : (this a == p)%Q -> (this b == q)%Q -> a = b -> (p == q)%Q.
Proof. intros H1 H2 H. rewrite <- H1, <- H2, H. reflexivity. Qed.
Lemma qpull_lt a b p q : (this a == p)%Q -> (this b == q)%Q -> (p < q)%Q -> a < b.
Proof. unfold Qclt. intros H1 H2 H. rewrite H1, H2. exact H. Qed.
Lemma qpull_le a b p q : (this a == p)%Q -> (this b == q)%Q -> (p <= q)%Q -> a <= b.
Proof. unfold Qcle. intros H1 H2 H. rewrite H1, H2. exact H. Qed.
Lemma qpull_eq a b p q : (this a == p)%Q -> (this b == q)%Q -> (p == q)%Q -> a = b.
Proof. intros H1 H2 H. apply Qc_is_canon. rewrite H1, H2. exact H. Qed.

(** The comparison constant of the code. *)
Definition eps_q : Q := (1 # 10000000000)%Q.
(** core/machine_precision.py:1  [eps = 1e-10] (taken as the exact decimal). *)
Definition eps : Qc := Q2Qc eps_q.

(* [qpush t] returns a proof of [this t == q] with arithmetic pushed to Q. *)
Ltac qpush t :=
  lazymatch t with
  | ?a + ?b => let pa := qpush a in let pb := qpush b in constr:(qpush_add _ _ _ _ pa pb)
  | ?a - ?b => let pa := qpush a in let pb := qpush b in constr:(qpush_sub _ _ _ _ pa pb)
  | ?a * ?b => let pa := qpush a in let pb := qpush b in constr:(qpush_mul _ _ _ _ pa pb)
  | - ?a => let pa := qpush a in constr:(qpush_opp _ _ pa)
  | Q2Qc ?q => constr:(qpush_const q)
  | 0 => constr:(qpush_const 0%Q)
  | 1 => constr:(qpush_const 1%Q)
  | eps => constr:(qpush_const eps_q)
  | _ => constr:(qpush_atom t)
  end.

Ltac qpush_hyp H :=
  let T := type of H in
  lazymatch T with
  | @eq Qc ?a ?b => let pa := qpush a in let pb := qpush b in
                    apply (qpush_eq _ _ _ _ pa pb) in H
  | ?a < ?b => let pa := qpush a in let pb := qpush b in
               apply (qpush_lt _ _ _ _ pa pb) in H
  | ?a <= ?b => let pa := qpush a in let pb := qpush b in
                apply (qpush_le _ _ _ _ pa pb) in H
  end.

Ltac qpull_goal :=
  lazymatch goal with
  | |- @eq Qc ?a ?b => let pa := qpush a in let pb := qpush b in
                       apply (qpull_eq _ _ _ _ pa pb)
  | |- ?a < ?b => let pa := qpush a in let pb := qpush b in
                  apply (qpull_lt _ _ _ _ pa pb)
  | |- ?a <= ?b => let pa := qpush a in let pb := qpush b in
                   apply (qpull_le _ _ _ _ pa pb)
  end.

Lemma Qcnle_lt (a b : Qc) : ~ a <= b -> b < a.
Proof. apply Qcnot_le_lt. Qed.
Lemma Qcnlt_le (a b : Qc) : ~ a < b -> b <= a.
Proof. apply Qcnot_lt_le. Qed.
Lemma qc_le_or (a b : Qc) : {a < b} + {b < a} + {a = b}.
Proof. apply Qc_dec. Qed.

Ltac qprep :=
  repeat match goal with
  | H : ~ (?a <= ?b) |- _ => apply Qcnle_lt in H
  | H : ~ (?a < ?b) |- _ => apply Qcnlt_le in H
  | H : ?A /\ ?B |- _ =>
      let H1 := fresh in let H2 := fresh in
      pose proof (proj1 H) as H1; pose proof (proj2 H) as H2; clear H
  end;
  try match goal with
  | |- ~ (?a <= ?b) => apply Qclt_not_le
  | |- ~ (?a < ?b) => apply Qcle_not_lt
  | |- _ <> _ => let E := fresh "E" in intro E; exfalso
  | |- ~ _ => let E := fresh "E" in intro E; exfalso
  end.
Ltac qall :=
  repeat match goal with
  | H : @eq Qc _ _ |- _ => qpush_hyp H
  | H : Qclt _ _ |- _ => qpush_hyp H
  | H : Qcle _ _ |- _ => qpush_hyp H
  end;
  try qpull_goal; unfold eps_q in *.

(** Linear arithmetic over [Qc]; conjunctive goals are split. *)
Lemma qc_ne_lt (a b : Qc) : a <> b -> a < b \/ b < a.
Proof. intro H. destruct (qc_le_or a b) as [[?|?]|?]; auto. congruence. Qed.
Ltac qne := repeat match goal with
  | H : ?a <> ?b |- _ => destruct (qc_ne_lt a b H) as [?|?]; clear H end.
Ltac qlra_core := qprep; solve [qall; lra | progress qne; qall; lra].
Ltac qlra := repeat split; (qlra_core || (exfalso; qlra_core)).
Ltac qnra := qprep; qall; nra.

Example qlra_test (a b c : Qc) : a < b -> b <= c + eps -> a < c + eps + eps /\ a <> b.
Proof. intros. qlra. Qed.

(* ------------------------------------------------------------------ *)
(** ** Boolean comparisons (the Python operators [<=], [<], [==]). *)

Definition qleb (a b : Qc) : bool := Qle_bool (this a) (this b).
Definition qltb (a b : Qc) : bool := negb (qleb b a).
Definition qeqb (a b : Qc) : bool := Qeq_bool (this a) (this b).

Lemma qlebP a b : reflect (a <= b) (qleb a b).
Proof.
  unfold qleb. destruct (Qle_bool a b) eqn:E; constructor.
  - apply Qle_bool_iff in E. exact E.
  - intro H. apply Qle_bool_iff in H. congruence.
Qed.
Lemma qltbP a b : reflect (a < b) (qltb a b).
Proof.
  unfold qltb. destruct (qlebP b a) as [H|H]; cbn; constructor.
  - apply Qcle_not_lt. exact H.
  - apply Qcnot_le_lt. exact H.
Qed.
Lemma qeqbP a b : reflect (a = b) (qeqb a b).
Proof.
  unfold qeqb. destruct (Qeq_bool a b) eqn:E; constructor.
  - apply Qeq_bool_iff in E. apply Qc_is_canon. exact E.
  - intros ->. assert (Qeq_bool b b = true) by (apply Qeq_bool_iff; reflexivity). congruence.
Qed.
Lemma qleb_true a b : qleb a b = true <-> a <= b.
Proof. destruct (qlebP a b); split; intros; congruence || assumption || tauto. Qed.
Lemma qleb_false a b : qleb a b = false <-> b < a.
Proof. destruct (qlebP a b); split; intros; try congruence. qlra. qlra. Qed.
Lemma qltb_true a b : qltb a b = true <-> a < b.
Proof. destruct (qltbP a b); split; intros; congruence || assumption || tauto. Qed.
Lemma qltb_false a b : qltb a b = false <-> b <= a.
Proof. destruct (qltbP a b); split; intros; try congruence. qlra. qlra. Qed.
Lemma qeqb_true a b : qeqb a b = true <-> a = b.
Proof. destruct (qeqbP a b); split; intros; congruence || assumption || tauto. Qed.
Lemma qeqb_false a b : qeqb a b = false <-> a <> b.
Proof. destruct (qeqbP a b); split; intros; try congruence. Qed.
Lemma qeqb_refl a : qeqb a a = true.
Proof. apply qeqb_true. reflexivity. Qed.

(** Destruct the next boolean comparison found in the goal or a hypothesis. *)
Ltac qb :=
  match goal with
  | H : context [qleb ?a ?b] |- _ => destruct (qlebP a b)
  | H : context [qltb ?a ?b] |- _ => destruct (qltbP a b)
  | H : context [qeqb ?a ?b] |- _ => destruct (qeqbP a b)
  | |- context [qleb ?a ?b] => destruct (qlebP a b)
  | |- context [qltb ?a ?b] => destruct (qltbP a b)
  | |- context [qeqb ?a ?b] => destruct (qeqbP a b)
  end.

(** Python's [max(a, b)] / [min(a, b)] / [abs]. *)
Definition qmax (a b : Qc) : Qc := if qltb a b then b else a.
Definition qmin (a b : Qc) : Qc := if qltb b a then b else a.
Definition qabs (a : Qc) : Qc := if qltb a 0 then - a else a.

Lemma qmax_spec a b : (a < b /\ qmax a b = b) \/ (b <= a /\ qmax a b = a).
Proof. unfold qmax. qb; [left|right]; split; auto; qlra. Qed.
Lemma qmin_spec a b : (b < a /\ qmin a b = b) \/ (a <= b /\ qmin a b = a).
Proof. unfold qmin. qb; [left|right]; split; auto; qlra. Qed.
Lemma qabs_spec a : (a < 0 /\ qabs a = - a) \/ (0 <= a /\ qabs a = a).
Proof. unfold qabs. qb; [left|right]; split; auto; qlra. Qed.

Ltac qmm :=
  repeat match goal with
  | |- context [qmax ?a ?b] => let E := fresh "E" in
        destruct (qmax_spec a b) as [[? E]|[? E]]; rewrite ?E in *; clear E
  | |- context [qmin ?a ?b] => let E := fresh "E" in
        destruct (qmin_spec a b) as [[? E]|[? E]]; rewrite ?E in *; clear E
  | |- context [qabs ?a] => let E := fresh "E" in
        destruct (qabs_spec a) as [[? E]|[? E]]; rewrite ?E in *; clear E
  | H : context [qmax ?a ?b] |- _ => let E := fresh "E" in
        destruct (qmax_spec a b) as [[? E]|[? E]]; rewrite ?E in *; clear E
  | H : context [qmin ?a ?b] |- _ => let E := fresh "E" in
        destruct (qmin_spec a b) as [[? E]|[? E]]; rewrite ?E in *; clear E
  | H : context [qabs ?a] |- _ => let E := fresh "E" in
        destruct (qabs_spec a) as [[? E]|[? E]]; rewrite ?E in *; clear E
  end.

(** Field facts. *)
Lemma qdiv_mul a b : b <> 0 -> a / b * b = a.
Proof. intro H. field. exact H. Qed.
Lemma qdiv_mul' a b : b <> 0 -> b * (a / b) = a.
Proof. intro H. field. exact H. Qed.
Lemma qdiv_self a : a <> 0 -> a / a = 1.
Proof. intro H. field. exact H. Qed.

Lemma qdiv_pos a b : 0 < a -> 0 < b -> 0 < a / b.
Proof.
  intros Ha Hb. destruct (qlebP (a / b) 0) as [H|H]; [|qlra].
  assert (E : a / b * b = a) by (apply qdiv_mul; qlra).
  exfalso. assert (0 <= - (a / b) * b) by (set (x := a/b) in *; clear E; qnra). qlra.
Qed.
Lemma qdiv_nonneg a b : 0 <= a -> 0 < b -> 0 <= a / b.
Proof.
  intros Ha Hb. destruct (qlebP 0 (a / b)) as [H|H]; [exact H|].
  assert (E : a / b * b = a) by (apply qdiv_mul; qlra).
  exfalso. set (x := a/b) in *. qnra.
Qed.

Lemma eps_pos : 0 < eps.
Proof. qlra. Qed.

(* ------------------------------------------------------------------ *)
(** ** Floats including the infinities. *)

Inductive ext := NInf | Fin (q : Qc) | PInf.

Definition ext_leb (a b : ext) : bool :=
  match a, b with
  | NInf, _ => true | _, PInf => true
  | Fin x, Fin y => qleb x y
  | _, _ => false
  end.
Definition ext_ltb (a b : ext) : bool := negb (ext_leb b a).
Definition ext_eqb (a b : ext) : bool :=
  match a, b with
  | NInf, NInf => true | PInf, PInf => true
  | Fin x, Fin y => qeqb x y
  | _, _ => false
  end.
Definition ext_max (a b : ext) : ext := if ext_ltb a b then b else a.
Definition ext_min (a b : ext) : ext := if ext_ltb b a then b else a.

Definition ext_le (a b : ext) : Prop :=
  match a, b with
  | NInf, _ => True | _, PInf => True
  | Fin x, Fin y => x <= y
  | _, _ => False
  end.
Definition ext_lt (a b : ext) : Prop := ~ ext_le b a.

Lemma ext_lebP a b : reflect (ext_le a b) (ext_leb a b).
Proof. destruct a, b; cbn; try (constructor; tauto). apply qlebP. Qed.
Lemma ext_ltbP a b : reflect (ext_lt a b) (ext_ltb a b).
Proof. unfold ext_ltb, ext_lt. destruct (ext_lebP b a); cbn; constructor; tauto. Qed.
Lemma ext_eqbP a b : reflect (a = b) (ext_eqb a b).
Proof.
  destruct a, b; cbn; try (constructor; congruence).
  destruct (qeqbP q q0); constructor; congruence.
Qed.
Lemma ext_le_refl a : ext_le a a.
Proof. destruct a; cbn; auto. qlra. Qed.
Lemma ext_le_trans a b c : ext_le a b -> ext_le b c -> ext_le a c.
Proof. destruct a, b, c; cbn; auto; try tauto. intros; qlra. Qed.
Lemma ext_lt_fin a b : ext_lt (Fin a) (Fin b) <-> a < b.
Proof. unfold ext_lt; cbn. split; intro H. - destruct (qltbP a b); auto. exfalso; apply H; qlra. - intro; qlra. Qed.
Lemma ext_le_total a b : ext_le a b \/ ext_le b a.
Proof. destruct a, b; cbn; auto. destruct (qlebP q q0); auto. right; qlra. Qed.
Lemma ext_le_antisym a b : ext_le a b -> ext_le b a -> a = b.
Proof. destruct a, b; cbn; auto; try tauto. intros. f_equal. qlra. Qed.
Lemma ext_lt_le a b : ext_lt a b -> ext_le a b.
Proof. unfold ext_lt. destruct (ext_le_total a b); tauto. Qed.
Lemma ext_le_lt_trans a b c : ext_le a b -> ext_lt b c -> ext_lt a c.
Proof. unfold ext_lt. intros H1 H2 H3. apply H2. eapply ext_le_trans; eauto. Qed.
Lemma ext_lt_le_trans a b c : ext_lt a b -> ext_le b c -> ext_lt a c.
Proof. unfold ext_lt. intros H1 H2 H3. apply H1. eapply ext_le_trans; eauto. Qed.

(* ------------------------------------------------------------------ *)
(** ** Exceptions as values. *)

Inductive exn :=
  | AssertionError | IndexError | KeyError | TypeError | AttributeError
  | ValueError | RuntimeError | ZeroDivisionError | NameError
  | OutOfFuel      (* a fuelled loop ran out of fuel: never a Python outcome *)
  | Unclean        (* only raised by the instrumented runs of DynFlow.v: two distinct numbers within eps were compared *)
  | NotModelled.   (* the code would go on with a value outside the model, e.g. an infinite breakpoint *)

Inductive res (A : Type) := Ok (a : A) | Err (e : exn).
Arguments Ok {A} _. Arguments Err {A} _.

Definition bind {A B} (x : res A) (k : A -> res B) : res B :=
  match x with Ok a => k a | Err e => Err e end.
Notation "x <- e ;; k" := (bind e (fun x => k))
  (at level 61, e at next level, right associativity).
Notation "' p <- e ;; k" := (bind e (fun x => let p := x in k))
  (at level 61, p pattern, e at next level, right associativity).
(** Python's [assert] statement (the model always runs with assertions on). *)
Definition assertb (b : bool) : res unit := if b then Ok tt else Err AssertionError.
Notation "'assert!' b ;; k" := (bind (assertb b) (fun _ => k))
  (at level 61, b at next level, right associativity).

Lemma bind_ok {A B} (x : res A) (k : A -> res B) b :
  bind x k = Ok b -> exists a, x = Ok a /\ k a = Ok b.
Proof. destruct x; cbn; intros; [eauto|discriminate]. Qed.
Lemma assertb_ok b u : assertb b = Ok u -> b = true.
Proof. destruct b; cbn; congruence. Qed.

Lemma ok_inj {A} (a b : A) : Ok a = Ok b -> a = b.
Proof. intro H. congruence. Qed.

Definition rmap {A B} (f : A -> B) (x : res A) : res B := a <- x ;; Ok (f a).

(** [for x in l: ...] collecting results; the first exception aborts. *)
Fixpoint mapM {A B} (f : A -> res B) (l : list A) : res (list B) :=
  match l with
  | [] => Ok []
  | x :: r => y <- f x ;; ys <- mapM f r ;; Ok (y :: ys)
  end.
Fixpoint foldM {A S} (f : S -> A -> res S) (l : list A) (s : S) : res S :=
  match l with
  | [] => Ok s
  | x :: r => s' <- f s x ;; foldM f r s'
  end.

(** Python's [a / b] on finite floats. *)
Definition pydiv (a b : Qc) : res Qc := if qeqb b 0 then Err ZeroDivisionError else Ok (a / b).
Lemma pydiv_ok a b : b <> 0 -> pydiv a b = Ok (a / b).
Proof. intro H. unfold pydiv. destruct (qeqbP b 0); congruence. Qed.

(** Python slices [l[a:b]] and [l[a:]] for non-negative bounds. *)
Definition pyslice {A} (l : list A) (a b : nat) : list A := firstn (b - a) (skipn a l).

(** Python list indexing [l[i]], including negative indices from the end
    and [IndexError] out of bounds. *)
Definition pyget {A} (l : list A) (i : Z) : res A :=
  let n := Z.of_nat (length l) in
  let j := if (i <? 0)%Z then (i + n)%Z else i in
  if ((0 <=? j) && (j <? n))%Z%bool then
    match nth_error l (Z.to_nat j) with Some a => Ok a | None => Err IndexError end
  else Err IndexError.

Lemma pyget_nat {A} (l : list A) (i : nat) (d : A) :
  (i < length l)%nat -> pyget l (Z.of_nat i) = Ok (nth i l d).
Proof.
  intro H. unfold pyget.
  destruct (Z.ltb_spec (Z.of_nat i) 0); [lia|].
  destruct (Z.leb_spec 0 (Z.of_nat i)); [|lia].
  destruct (Z.ltb_spec (Z.of_nat i) (Z.of_nat (length l))); [|lia].
  cbn [andb]. rewrite Nat2Z.id. rewrite (nth_error_nth' l d) by exact H. reflexivity.
Qed.
Lemma pyget_Z {A} (l : list A) (i : Z) (d : A) :
  (0 <= i < Z.of_nat (length l))%Z -> pyget l i = Ok (nth (Z.to_nat i) l d).
Proof. intro H. rewrite <- (pyget_nat l (Z.to_nat i) d) by lia. f_equal. lia. Qed.
Lemma pyget_last {A} (l : list A) (d : A) :
  l <> [] -> pyget l (-1) = Ok (last l d).
Proof.
  intro H. destruct (exists_last H) as [l' [a ->]].
  unfold pyget. rewrite app_length. cbn [length].
  replace (-1 <? 0)%Z with true by reflexivity.
  destruct (Z.leb_spec 0 (-1 + Z.of_nat (length l' + 1))); [|lia].
  destruct (Z.ltb_spec (-1 + Z.of_nat (length l' + 1)) (Z.of_nat (length l' + 1))); [|lia].
  cbn [andb].
  replace (Z.to_nat (-1 + Z.of_nat (length l' + 1))) with (length l') by lia.
  rewrite nth_error_app2 by lia. rewrite Nat.sub_diag. cbn. rewrite last_last. reflexivity.
Qed.

Ltac binv H :=
  let a := fresh "a" in let E := fresh "E" in
  apply bind_ok in H; destruct H as [a [E H]].
