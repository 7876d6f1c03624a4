(** * C73, C74: the caches and the list sharing of PiecewiseLinear *)
From Verif Require Import Base Spec Arrays PL PL2 PQ PLCache PLCacheProofs.
From Coq Require Import Lia.

(** ** Vocabulary
    [ops] is a history of calls on an initially empty heap: constructors,
    operations that create functions, queries, and the two in-place updates
    [extend_with_slope] and (in DynamicFlow only) [values[-1] = v].  A call that
    raises leaves its effects behind and the history goes on. *)
(** Writes to [values[-1]] happen only directly after an [extend_with_slope]
    on the same object that changed the slope by more than eps. *)
Definition disciplined (ops : list op) : Prop :=
  forall pre o v post, ops = pre ++ OWrite o v :: post ->
    exists pre' t sl, pre = pre' ++ [OExtend o t sl] /\ slope_change (h_st (run h_empty pre')) (OExtend o t sl).

Lemma run_app h a b : run h (a ++ b) = run (run h a) b.
Proof. revert h; induction a as [|x a IH]; intro h; cbn [app run]; auto. Qed.
Lemma run_snoc h a c : run h (a ++ [c]) = snd (step c (run h a)).
Proof. rewrite run_app. reflexivity. Qed.
Lemma disciplined_prefix a b : disciplined (a ++ b) -> disciplined a.
Proof.
  intros D pre o v post E. apply (D pre o v (post ++ b)). rewrite E, <- app_assoc. reflexivity.
Qed.

Lemma wf_empty : wf (h_st h_empty).
Proof.
  assert (N : forall o ob, getn (s_objs (h_st h_empty)) o = Ok ob -> False).
  { intros o ob. cbn. unfold getn. destruct o; cbn; intro H; discriminate H. }
  split; intros; exfalso; eauto.
Qed.

Lemma run_good ops : forall c, disciplined (ops ++ [c]) ->
  good (run h_empty ops) /\
  (forall o v, c = OWrite o v -> h_ev (run h_empty ops) = [] /\ h_gr (run h_empty ops) = [] /\ h_co (run h_empty ops) = []) /\
  ((forall a, ~ In (ONeg a) ops) -> unshared (h_st (run h_empty ops))).
Proof.
  induction ops as [|x ops IH] using rev_ind; intros c D.
  - split; [exact (empty_good _ wf_empty)|]. split; [auto|].
    intros _ o ob o' ob' H. cbn in H. unfold getn in H. destruct o; cbn in H; discriminate H.
  - destruct (IH x (disciplined_prefix _ _ D)) as (G & W & U). rewrite run_snoc.
    destruct (step_spec x (run h_empty ops) G W) as (G' & _ & _ & U'). split; [exact G'|]. split.
    + intros o v ->. destruct (D (ops ++ [x]) o v []) as (pre' & t & sl & E & SC); [now rewrite <- app_assoc|].
      apply app_inj_tail in E as [-> ->]. cbn [step].
      destruct (extend_spec _ o t sl (run h_empty pre') eq_refl G) as (_ & _ & P & _). now apply P.
    + intros N. apply U'.
      * destruct x; try reflexivity. exfalso. apply (N o). apply in_or_app. right. now left.
      * apply U. intros a I. apply (N a). apply in_or_app. now left.
Qed.

(** ** C73: no call ever returns a stale cached result *)
(** [meaning s c] (PLCacheProofs.v) is what call [c] returns according to the
    cache-free definitions of PL.v and PL2.v, given the current contents of the
    objects; [observe c (step c h)] is what the cached implementation returns
    from heap [h] (for an update: the updated object). *)
Theorem C73_cached_calls : forall ops c,
  disciplined (ops ++ [c]) ->
  observe c (step c (run h_empty ops)) = meaning (h_st (run h_empty ops)) c.
Proof.
  intros ops c D. destruct (run_good ops c D) as (G & W & _). now destruct (step_spec c _ G W) as (_ & H & _).
Qed.

(** Calls other than the two updates change no function that exists. *)
Theorem C73_queries_pure : forall ops c o f,
  disciplined (ops ++ [c]) -> (forall a t s, c <> OExtend a t s) -> (forall a v, c <> OWrite a v) ->
  view (h_st (run h_empty ops)) o = Ok f -> view (h_st (run h_empty (ops ++ [c]))) o = Ok f.
Proof.
  intros ops c o f D N1 N2 V. destruct (run_good ops c D) as (G & W & _).
  destruct (step_spec c _ G W) as (_ & _ & H & _). rewrite run_snoc. apply H; [|exact V].
  destruct c; try reflexivity; exfalso; [eapply N1 | eapply N2]; reflexivity.
Qed.

(** A history without direct writes is disciplined. *)
Lemma no_write_disciplined ops : forallb (fun c => match c with OWrite _ _ => false | _ => true end) ops = true -> disciplined ops.
Proof.
  intros F pre o v post E. rewrite forallb_forall in F.
  specialize (F (OWrite o v)). cbn beta iota in F. discriminate F. rewrite E. apply in_or_app. right. now left.
Qed.

(** *** A non-trivial history: queries fill the caches, then the function is extended, queried, written and queried again *)
Definition cx_new : op := ONew [0; 1; qz 3] [0; qz 2; qz 3] 1 (1 / qz 2) NInf PInf.
Definition cx_id : op := ONew [0] [0] 1 1 NInf PInf.
Definition cx_pre : list op :=
  [cx_new; cx_id; OEval 0 (Fin (qz 5)); OGradient 0 2; OCompose 0 1; OPlus 0 1; OFromEnd 0 (qz 5); OImage 0; OCompose 0 1].
Definition cx_ops : list op := cx_pre ++ [OExtend 0 (qz 4) (- (1)); OWrite 0 (qz 7); OEval 0 (Fin (qz 5)); OCompose 0 1].
Example C73_example_disciplined : disciplined (cx_ops ++ [OEval 0 (Fin (qz 5))]).
Proof.
  intros pre o v post E.
  assert (E' : cx_pre ++ OExtend 0 (qz 4) (- (1)) :: OWrite 0 (qz 7) :: [OEval 0 (Fin (qz 5)); OCompose 0 1; OEval 0 (Fin (qz 5))] = pre ++ OWrite o v :: post) by exact E.
  clear E. assert (L : length pre = 10%nat /\ OWrite o v = OWrite 0 (qz 7)).
  { assert (H : nth_error (cx_pre ++ OExtend 0 (qz 4) (- (1)) :: OWrite 0 (qz 7) :: [OEval 0 (Fin (qz 5)); OCompose 0 1; OEval 0 (Fin (qz 5))]) (length pre) = Some (OWrite o v)).
    { rewrite E', nth_error_app2, Nat.sub_diag by lia. reflexivity. }
    clear E'. unfold cx_pre, cx_new, cx_id in H.
    do 14 (destruct pre as [|? pre]; [cbn [nth_error length app] in H; first [discriminate H | injection H as <- <-; auto]|]).
    cbn [nth_error length app] in H. destruct pre; cbn [nth_error length] in H; discriminate H. }
  destruct L as [L Q]. injection Q as -> ->. exists cx_pre, (qz 4), (- (1)).
  split.
  - assert (H : firstn 10 (pre ++ OWrite 0 (qz 7) :: post) = cx_pre ++ [OExtend 0 (qz 4) (- (1))]) by (rewrite <- E'; reflexivity).
    rewrite firstn_app, L, Nat.sub_diag, firstn_O, app_nil_r in H. rewrite <- L, firstn_all in H. exact H.
  - cbn [slope_change]. assert (B : match view (h_st (run h_empty cx_pre)) 0 with
      | Ok f => match extend_with_slope f (qz 4) (- (1)) with Ok _ => qltb eps (qabs (pl_last f - - (1))) | Err _ => false end
      | Err _ => false end = true) by (vm_compute; reflexivity).
    destruct (view (h_st (run h_empty cx_pre)) 0) as [f|]; [|discriminate B].
    destruct (extend_with_slope f (qz 4) (- (1))) as [f'|] eqn:X; [|discriminate B].
    exists f, f'. split; [reflexivity|]. split; [exact X|]. destruct (qltbP eps (qabs (pl_last f - - (1)))); [assumption|discriminate B].
Qed.
(** the first evaluation at 5 gives 4, the last one (same arguments, other slope and last value) 6 *)
Example C73_example :
  match observe (OEval 0 (Fin (qz 5))) (step (OEval 0 (Fin (qz 5))) (run h_empty [cx_new])),
        observe (OEval 0 (Fin (qz 5))) (step (OEval 0 (Fin (qz 5))) (run h_empty cx_ops)) with
  | Ok (SNum (Fin a)), Ok (SNum (Fin b)) => (qeqb a (qz 4) && qeqb b (qz 6))%bool
  | _, _ => false
  end = true.
Proof. vm_compute. reflexivity. Qed.

(** Without the discipline the claim is false: a direct write, also one after
    an extension that does not change the slope, leaves stale cache entries. *)
Definition wx_ops : list op := [ONew [0] [qz 5] 0 0 NInf PInf; OEval 0 (Fin 1); OExtend 0 (qz 2) 0; OWrite 0 0].
Theorem C73_write_refuted :
  ~ (forall ops c, observe c (step c (run h_empty ops)) = meaning (h_st (run h_empty ops)) c).
Proof.
  intro H. specialize (H wx_ops (OEval 0 (Fin 1))).
  assert (B : match observe (OEval 0 (Fin 1)) (step (OEval 0 (Fin 1)) (run h_empty wx_ops)),
                    meaning (h_st (run h_empty wx_ops)) (OEval 0 (Fin 1)) with
              | Ok (SNum (Fin a)), Ok (SNum (Fin b)) => qeqb a b | _, _ => true end = false) by (vm_compute; reflexivity).
  rewrite H in B.
  destruct (meaning (h_st (run h_empty wx_ops)) (OEval 0 (Fin 1))) as [[f|[|a|]|x y]|e]; try discriminate B.
  destruct (qeqbP a a) as [_|N]; [discriminate B|now apply N].
Qed.

(** ** C74: updating one function changes no other function *)
Theorem C74_independent_partial : forall ops a t s o f,
  disciplined (ops ++ [OExtend a t s]) -> (forall b, ~ In (ONeg b) ops) -> o <> a ->
  view (h_st (run h_empty ops)) o = Ok f ->
  view (h_st (run h_empty (ops ++ [OExtend a t s]))) o = Ok f.
Proof.
  intros ops a t s o f D N Ne V. destruct (run_good ops _ D) as (G & _ & U). specialize (U N).
  rewrite run_snoc. cbn [step]. set (h := run h_empty ops) in *. clearbody h.
  destruct (getn (s_objs (h_st h)) a) as [ob|e] eqn:Ea.
  - destruct (view_inv _ _ _ V) as (ob' & Eo & _).
    destruct (extend_spec _ a t s h eq_refl G) as (_ & _ & _ & P). rewrite (P o ob ob' Ea Eo); [exact V|].
    apply (U o ob' a ob Eo Ea Ne).
  - rewrite mret_snd. unfold extend_m. rewrite Ea. cbn [bind snd]. exact V.
Qed.
(** ... and two functions returned by different calls are different objects,
    except for repeated [compose] calls. *)
Theorem C74_fresh_partial : forall ops c a,
  disciplined (ops ++ [c]) -> (forall g f, c <> OCompose g f) ->
  fst (step c (run h_empty ops)) = Ok (RObj a) ->
  view (h_st (run h_empty ops)) a = Err IndexError.
Proof.
  intros ops c a D Nc R. set (h := run h_empty ops) in *.
  assert (St : forall A (m : M A) r, agrees (h_st h) m r -> h_st (snd (m h)) = h_st h).
  { intros A m r Ag. destruct (run_good ops c D) as ((_ & C) & _). exact (proj1 (proj2 (Ag h eq_refl C))). }
  assert (AL : forall (m : M PL) r, agrees (h_st h) m r -> fst (mret (mbind m alloc) RObj h) = Ok (RObj a) -> view (h_st h) a = Err IndexError).
  { intros m r Ag H. pose proof (St _ m r Ag) as S. unfold mret, mbind in H. destruct (m h) as [[p|e] h']; cbn [fst snd] in *; [|discriminate H].
    unfold alloc in H. cbn [fst] in H. unfold PLCache.ret in H. cbn [fst] in H. rewrite S in H. injection H as <-.
    unfold view, getn. assert (Z : nth_error (s_objs (h_st h)) (length (s_objs (h_st h))) = None) by (apply nth_error_None; lia). now rewrite Z. }
  destruct c as [t v x y lo hi|o|x y|o|g f|o x|o x|o i|o|o x i|o t sl|o v]; cbn [step] in R;
    try (unfold mret, mbind in R; match type of R with fst (match ?u with _ => _ end) = _ => destruct u as [[?|?] ?] end; unfold PLCache.ret in R; cbn [fst] in R; discriminate R).
  - apply (AL (PLCache.ret (pl_init t v x y lo hi)) _ (ag_ret _ _)). exact R.
  - unfold mret, mbind, neg_m, read in R. cbn [fst] in R. unfold mbind in R.
    destruct (view (h_st h) o) as [fo|e] eqn:V; [|discriminate R]. unfold PLCache.ret in R.
    destruct (pl_neg fo) as [p|e]; [|discriminate R]. unfold alloc_sharing in R.
    destruct (getn (s_objs (h_st h)) o); [|discriminate R]. cbn [fst] in R. injection R as <-.
    unfold view, getn. assert (Z : nth_error (s_objs (h_st h)) (length (s_objs (h_st h))) = None) by (apply nth_error_None; lia). now rewrite Z.
  - rewrite (mret_ext _ (mbind (plus_body x y) alloc)) in R by apply plus_split.
    destruct (view (h_st h) x) as [f|e] eqn:Vx; [destruct (view (h_st h) y) as [g|e] eqn:Vy|].
    + exact (AL _ _ (ag_plus _ _ _ _ _ Vx Vy) R).
    + apply (AL (plus_body x y) (Err e)); [|exact R]. unfold plus_body. eapply ag_read; [exact Vx|]. now apply read_err.
    + apply (AL (plus_body x y) (Err e)); [|exact R]. unfold plus_body. now apply read_err.
  - rewrite (mret_ext _ (mbind (simplify_body o) alloc)) in R by apply simplify_split.
    destruct (view (h_st h) o) as [f|e] eqn:V.
    + exact (AL _ _ (ag_simplify _ _ _ V) R).
    + apply (AL (simplify_body o) (Err e)); [|exact R]. unfold simplify_body. now apply read_err.
  - exfalso. now apply (Nc g f).
Qed.
Example C74_example : disciplined ([cx_new; cx_id; OPlus 0 1; OEval 2 (Fin 1)] ++ [OExtend 0 (qz 4) (- (1))]) /\
  (exists f, view (h_st (run h_empty [cx_new; cx_id; OPlus 0 1; OEval 2 (Fin 1)])) 2 = Ok f) /\
  slope_change (h_st (run h_empty [cx_new; cx_id; OPlus 0 1; OEval 2 (Fin 1)])) (OExtend 0 (qz 4) (- (1))).
Proof.
  split; [apply no_write_disciplined; reflexivity|].
  set (l := [cx_new; cx_id; OPlus 0 1; OEval 2 (Fin 1)]).
  assert (B : match view (h_st (run h_empty l)) 2, view (h_st (run h_empty l)) 0 with
     | Ok _, Ok f => match extend_with_slope f (qz 4) (- (1)) with Ok _ => qltb eps (qabs (pl_last f - - (1))) | Err _ => false end
     | _, _ => false end = true) by (vm_compute; reflexivity).
  destruct (view (h_st (run h_empty l)) 2) as [f2|] eqn:V2; [|discriminate B].
  destruct (view (h_st (run h_empty l)) 0) as [f|] eqn:V0; [|discriminate B].
  destruct (extend_with_slope f (qz 4) (- (1))) as [f'|] eqn:X; [|discriminate B].
  split; [eauto|]. exists f, f'. split; [exact V0|]. split; [exact X|]. destruct (qltbP eps (qabs (pl_last f - - (1)))); [assumption|discriminate B].
Qed.

(** [g = -f] shares the list of times with [f]: extending [f] lengthens it, and
    [g] is left with more times than values. *)
Definition nx_ops : list op := [cx_new; ONeg 0].
Theorem C74_neg_refuted :
  ~ (forall ops a t s o f, disciplined (ops ++ [OExtend a t s]) -> o <> a -> view (h_st (run h_empty ops)) o = Ok f ->
       exists f', view (h_st (run h_empty (ops ++ [OExtend a t s]))) o = Ok f' /\ length (pl_times f') = length (pl_values f')).
Proof.
  intro H. assert (V : match view (h_st (run h_empty nx_ops)) 1 with Ok _ => true | _ => false end = true) by (vm_compute; reflexivity).
  destruct (view (h_st (run h_empty nx_ops)) 1) as [f|] eqn:E; [|discriminate V].
  destruct (H nx_ops 0%nat (qz 4) (- (1)) 1%nat f) as (f' & E' & L); [apply no_write_disciplined; reflexivity|discriminate|exact E|].
  assert (B : match view (h_st (run h_empty (nx_ops ++ [OExtend 0 (qz 4) (- (1))]))) 1 with
      | Ok f' => Nat.eqb (length (pl_times f')) (length (pl_values f')) | _ => true end = false) by (vm_compute; reflexivity).
  rewrite E' in B. apply Nat.eqb_neq in B. contradiction.
Qed.

(** Two [compose] calls with the same arguments return the same object:
    extending the first result changes the second. *)
Definition ox_ops : list op := [cx_new; cx_id; OCompose 0 1].
Theorem C74_compose_refuted :
  ~ (forall ops g f a b, fst (step (OCompose g f) (run h_empty ops)) = Ok (RObj a) ->
       fst (step (OCompose g f) (run h_empty (ops ++ [OCompose g f]))) = Ok (RObj b) -> a <> b).
Proof.
  intro H.
  assert (B : match fst (step (OCompose 0 1) (run h_empty [cx_new; cx_id])),
                    fst (step (OCompose 0 1) (run h_empty ([cx_new; cx_id] ++ [OCompose 0 1]))) with
              | Ok (RObj a), Ok (RObj b) => Nat.eqb a b | _, _ => false end = true) by (vm_compute; reflexivity).
  specialize (H [cx_new; cx_id] 0%nat 1%nat).
  revert H B.
  generalize (fst (step (OCompose 0 1) (run h_empty ([cx_new; cx_id] ++ [OCompose 0 1])))).
  generalize (fst (step (OCompose 0 1) (run h_empty [cx_new; cx_id]))).
  intros [[a| | |]|e1] [[b| | |]|e2] H B; try discriminate B.
  apply Nat.eqb_eq in B. exact (H a b eq_refl eq_refl B).
Qed.

Print Assumptions C73_cached_calls.
Print Assumptions C73_queries_pure.
Print Assumptions C73_write_refuted.
Print Assumptions C74_independent_partial.
Print Assumptions C74_fresh_partial.
Print Assumptions C74_neg_refuted.
Print Assumptions C74_compose_refuted.
