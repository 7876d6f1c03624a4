(** * C50: combining commodities (src/utilities/combine_commodities.py) *)
From Verif Require Import Base Spec Arrays ArraysProofs PL PLProofs PLEval RC RCProofs RCOps FRC FRCProofs PQ PQSpec DynFlow Graph GraphSpec GraphProofs Dijkstra DijkstraProofs FlowBuilder FlowBuilderProofs Predictors Eval.

(** ** Vocabulary *)
(** Inflow rate of commodity [c] at node [v] and time [t]. *)
Definition source_rate (c : commodity) (v : nat) (t : Qc) : Qc :=
  match dget (k_sources c) v with
  | Some f => match rc_eval f t with Ok y => y | Err _ => 0 end
  | None => 0
  end.
(** Total inflow rate at [v] of the commodities with predictor type [p] and sink [s]. *)
Definition demand (cs : list commodity) (p s v : nat) (t : Qc) : Qc :=
  fold_right Qcplus 0 (map (fun c => if (Nat.eqb (k_pred c) p && Nat.eqb (k_sink c) s)%bool then source_rate c v t else 0) cs).
(** All breakpoints of source functions at [v]. *)
Definition source_times (cs : list commodity) (v : nat) : list Qc :=
  concat (map (fun c => match dget (k_sources c) v with Some f => rc_times f | None => [] end) cs).
(** Source dictionaries with one valid function on [lo, hi] per node. *)
Definition sources_ok (lo hi : ext) (c : commodity) : Prop :=
  NoDup (map fst (k_sources c)) /\ forall v f, In (v, f) (k_sources c) -> rvalid f /\ rc_lo f = lo /\ rc_hi f = hi.

(** ** Sums *)
Definition sumq {A} (h : A -> Qc) (l : list A) : Qc := fold_right Qcplus 0 (map h l).
Lemma sumq_cons {A} (h : A -> Qc) x l : sumq h (x :: l) = h x + sumq h l.
Proof. reflexivity. Qed.
Lemma sumq_app {A} (h : A -> Qc) l l' : sumq h (l ++ l') = sumq h l + sumq h l'.
Proof. induction l as [|x l IH]; cbn [app]; rewrite ?sumq_cons, ?IH; [unfold sumq; cbn; ring|ring]. Qed.
Lemma sumq_perm {A} (h : A -> Qc) l l' : Permutation l l' -> sumq h l = sumq h l'.
Proof. induction 1; rewrite ?sumq_cons; try congruence; ring. Qed.
Lemma sumq_ext {A} (h k : A -> Qc) l : (forall x, In x l -> h x = k x) -> sumq h l = sumq k l.
Proof. induction l as [|x l IH]; intro H; [reflexivity|]. rewrite !sumq_cons, (H x), IH; [reflexivity|intros; apply H; right; assumption|left; reflexivity]. Qed.
Lemma sumq_filter {A} (h : A -> Qc) b l : sumq h (filter b l) = sumq (fun x => if b x then h x else 0) l.
Proof. induction l as [|x l IH]; [reflexivity|]. cbn [filter]. rewrite sumq_cons. destruct (b x); rewrite ?sumq_cons, IH; ring. Qed.
Lemma sumq_map {A B} (h : B -> Qc) (g : A -> B) l : sumq h (map g l) = sumq (fun x => h (g x)) l.
Proof. unfold sumq. rewrite map_map. reflexivity. Qed.
Lemma sumq_zero {A} (h : A -> Qc) l : (forall x, In x l -> h x = 0) -> sumq h l = 0.
Proof. induction l as [|x l IH]; intro H; [reflexivity|]. rewrite sumq_cons, (H x), IH; [ring|intros; apply H; right; assumption|left; reflexivity]. Qed.

(** ** Groups *)
Lemma key_eqbP a b : reflect (a = b) (key_eqb a b).
Proof. destruct a as [a1 a2], b as [b1 b2]. unfold key_eqb. cbn [fst snd]. destruct (Nat.eqb_spec a1 b1), (Nat.eqb_spec a2 b2); cbn [andb]; constructor; congruence. Qed.
Section Groups.
Variable exc : list nat.
Definition com_key (c : commodity) : nat * nat := (k_pred c, k_sink c).
Definition member (ps : list (nat * commodity)) (k : nat * nat) (i : nat) : Prop := exists c, In (i, c) ps /\ ~ In i exc /\ com_key c = k.
Record ginv (gs : list ((nat * nat) * list nat)) (ps : list (nat * commodity)) : Prop := {
  gi_nd : NoDup (map fst gs);
  gi_mem : forall k l, In (k, l) gs -> NoDup l /\ forall i, In i l <-> member ps k i;
  gi_all : forall k i, member ps k i -> In k (map fst gs) }.
Lemma group_add_keys gs k i : map fst (group_add gs k i) = if existsb (fun x => key_eqb x k) (map fst gs) then map fst gs else map fst gs ++ [k].
Proof.
  induction gs as [|[k' l] r IH]; [reflexivity|]. cbn [group_add map fst existsb]. destruct (key_eqb k' k) eqn:E; cbn [orb map fst]; [reflexivity|].
  rewrite IH. destruct (existsb _ _); reflexivity.
Qed.
Lemma existsb_keys k ks : existsb (fun x => key_eqb x k) ks = true <-> In k ks.
Proof.
  rewrite existsb_exists. split; [intros [x [I E]]; destruct (key_eqbP x k); [subst; exact I|discriminate E]|intro I; exists k; split; [exact I|destruct (key_eqbP k k); congruence]].
Qed.
Lemma group_add_in gs k i : NoDup (map fst gs) -> forall k' l', In (k', l') (group_add gs k i) ->
  (k' <> k /\ In (k', l') gs) \/ (k' = k /\ ((exists l, In (k, l) gs /\ l' = set_add i l) \/ (~ In k (map fst gs) /\ l' = [i]))).
Proof.
  induction gs as [|[k0 l0] r IH]; intros ND k' l' H.
  - destruct H as [H|[]]. injection H as <- <-. right. split; [reflexivity|right; split; [intros []|reflexivity]].
  - cbn [group_add] in H. inversion ND as [|x y NI ND' EQ]; subst. destruct (key_eqbP k0 k) as [->|N].
    + destruct H as [H|H].
      * injection H as <- <-. right. split; [reflexivity|]. left. exists l0. split; [left; reflexivity|reflexivity].
      * left. split; [|right; exact H]. intros ->. apply NI. change k with (fst (k, l')). apply in_map, H.
    + destruct H as [H|H].
      * injection H as <- <-. left. split; [exact N|left; reflexivity].
      * destruct (IH ND' k' l' H) as [[A B]|[A [(l & B & C)|(B & C)]]].
        -- left. split; [exact A|right; exact B].
        -- right. split; [exact A|]. left. exists l. split; [right; exact B|exact C].
        -- right. split; [exact A|]. right. split; [|exact C]. intros [X|X]; [cbn [fst] in X; congruence|exact (B X)].
Qed.
Lemma member_snoc ps k i j c : member (ps ++ [(j, c)]) k i <-> member ps k i \/ (i = j /\ ~ In j exc /\ com_key c = k).
Proof.
  split.
  - intros [c' [H [N E]]]. apply in_app_or in H. destruct H as [H|[H|[]]]; [left; exists c'; auto|]. injection H as <- <-. right. auto.
  - intros [[c' [H [N E]]]|[-> [N E]]]; [exists c'|exists c]; (split; [apply in_or_app; cbn; auto|auto]).
Qed.
Lemma ginv_step gs ps j c : ginv gs ps -> (forall k, ~ member ps k j) ->
  ginv (if mem j exc then gs else group_add gs (com_key c) j) (ps ++ [(j, c)]).
Proof.
  intros [G1 G2 G3] NM. destruct (mem j exc) eqn:M.
  - apply memP in M. constructor; [exact G1| |].
    + intros k l I. destruct (G2 k l I) as [A B]. split; [exact A|]. intro i. rewrite B, member_snoc. tauto.
    + intros k i X. apply member_snoc in X. destruct X as [X|[_ [X _]]]; [apply (G3 k i X)|contradiction].
  - apply mem_false in M. constructor.
    + rewrite group_add_keys. destruct (existsb _ _) eqn:E; [exact G1|]. eapply Permutation_NoDup; [apply Permutation_cons_append|].
      constructor; [|exact G1]. intro X. apply existsb_keys in X. congruence.
    + intros k l I. destruct (group_add_in gs (com_key c) j G1 k l I) as [[A B]|[-> [(l0 & B & ->)|(B & ->)]]].
      * destruct (G2 k l B) as [P Q]. split; [exact P|]. intro i. rewrite Q, member_snoc. split; [tauto|]. intros [X|[_ [_ X]]]; [exact X|congruence].
      * destruct (G2 _ l0 B) as [P Q]. split.
        -- unfold set_add. destruct (mem j l0) eqn:Mj; [exact P|]. constructor; [apply mem_false, Mj|exact P].
        -- intro i. rewrite member_snoc. unfold set_add. destruct (mem j l0) eqn:Mj.
           ++ rewrite Q. split; [tauto|]. intros [X|[-> _]]; [exact X|]. exfalso. apply memP in Mj. apply Q in Mj. exact (NM _ Mj).
           ++ cbn [In]. rewrite Q. split; [intros [<-|X]; auto|]. intros [X|[-> _]]; auto.
      * split; [repeat constructor; intros []|]. intro i. rewrite member_snoc. cbn [In]. split; [intros [<-|[]]; auto|]. intros [X|[-> _]]; [|auto]. exfalso. apply B, (G3 _ i X).
    + intros k i X. rewrite group_add_keys. apply member_snoc in X. destruct X as [X|[_ [_ <-]]].
      * destruct (existsb _ _); [|apply in_or_app; left]; apply (G3 k i X).
      * destruct (existsb _ _) eqn:E; [apply existsb_keys, E|apply in_or_app; right; left; reflexivity].
Qed.
Lemma groups_ginv cs : ginv (com_groups cs exc) (enum cs).
Proof.
  unfold com_groups.
  assert (K : forall done rest gs, ginv gs done -> NoDup (map fst (done ++ rest)) ->
    ginv (fold_left (fun gs p => if mem (fst p) exc then gs else group_add gs (k_pred (snd p), k_sink (snd p)) (fst p)) rest gs) (done ++ rest)).
  { intros done rest. revert done. induction rest as [|[j c] rest IH]; intros done gs G ND; cbn [fold_left fst snd]; [rewrite app_nil_r; exact G|].
    replace (done ++ (j, c) :: rest) with ((done ++ [(j, c)]) ++ rest) in * by (rewrite <- app_assoc; reflexivity). apply IH; [|exact ND].
    change (k_pred c, k_sink c) with (com_key c). apply ginv_step; [exact G|]. intros k [c' [I _]].
    rewrite <- app_assoc in ND. cbn [app] in ND. rewrite map_app in ND. cbn [map fst] in ND. apply NoDup_remove_2 in ND. apply ND, in_or_app. left. change j with (fst (j, c')). apply in_map, I. }
  apply (K [] (enum cs) []).
  - constructor; [constructor|intros k l []|]. intros k i [c [[] _]].
  - cbn [app]. unfold enum. assert (X : forall (l : list commodity) k, map fst (combine (seq k (length l)) l) = seq k (length l)). { induction l as [|x l IH]; intro k; cbn; [reflexivity|]. rewrite IH. reflexivity. }
    rewrite X. apply seq_NoDup.
Qed.
End Groups.

(** ** Adding sources *)
Definition drate (d : list (nat * RC)) (v : nat) (t : Qc) : Qc := match dget d v with Some f => rc_at f t | None => 0 end.
Section Sources.
Variables (lo hi : ext) (T : nat -> list Qc).
Hypothesis SEP : forall v, separated (T v).
Definition fits (v : nat) (f : RC) : Prop := rvalid f /\ rc_lo f = lo /\ rc_hi f = hi /\ forall x, In x (rc_times f) -> In x (T v).
Definition dict_ok (d : list (nat * RC)) : Prop := NoDup (map fst d) /\ forall v f, In (v, f) d -> fits v f.
Lemma dict_ok_set d v f : dict_ok d -> fits v f -> dict_ok (dset d v f).
Proof.
  intros [N F] H. split; [apply dset_nd, N|]. intros w g I. pose proof (In_dget _ w g (dset_nd _ v f N) I) as G. rewrite dget_dset in G.
  destruct (Nat.eqb_spec v w) as [<-|]; [injection G as <-; exact H|apply F, dget_In, G].
Qed.
Lemma add_source_ok acc v f : dict_ok acc -> fits v f ->
  exists acc', add_source acc (v, f) = Ok acc' /\ dict_ok acc' /\ forall w t, drate acc' w t = drate acc w t + (if Nat.eqb v w then rc_at f t else 0).
Proof.
  intros D H. unfold add_source. cbn [fst snd]. destruct (dget acc v) as [g|] eqn:G.
  - destruct (proj2 D v g (dget_In _ _ _ G)) as (V1 & L1 & H1 & T1). destruct H as (V2 & L2 & H2 & T2).
    destruct (rc_plus_ok g f V1 V2) as (p & E & VP & LP & HP & TP & _ & AP); [congruence|congruence| |].
    { intros x y X Y. apply in_app_or in X, Y. apply (SEP v); [destruct X; auto|destruct Y; auto]. }
    rewrite E. cbn [bind]. eexists. split; [reflexivity|]. split.
    + apply dict_ok_set; [exact D|]. split; [exact VP|]. split; [congruence|]. split; [congruence|]. intros x X. apply TP in X. destruct X; auto.
    + intros w t. unfold drate. rewrite dget_dset. destruct (Nat.eqb_spec v w) as [<-|N]; [rewrite G, AP; reflexivity|ring].
  - eexists. split; [reflexivity|]. split; [apply dict_ok_set; assumption|]. intros w t. unfold drate. rewrite dget_dset. destruct (Nat.eqb_spec v w) as [<-|N]; [rewrite G; ring|ring].
Qed.
Lemma add_sources_ok : forall l acc, dict_ok acc -> dict_ok l ->
  exists acc', foldM add_source l acc = Ok acc' /\ dict_ok acc' /\ forall w t, drate acc' w t = drate acc w t + drate l w t.
Proof.
  induction l as [|[v f] l IH]; intros acc D L; cbn [foldM].
  - exists acc. split; [reflexivity|]. split; [exact D|]. intros w t. unfold drate at 3. cbn [dget]. ring.
  - destruct L as [N F]. destruct (add_source_ok acc v f D (F v f ltac:(left; reflexivity))) as (a1 & E & D1 & R1). rewrite E. cbn [bind].
    inversion N as [|x y NI ND EQ]; subst. destruct (IH a1 D1) as (a2 & E2 & D2 & R2); [split; [exact ND|intros w g I; apply F; right; exact I]|].
    exists a2. split; [exact E2|]. split; [exact D2|]. intros w t. rewrite R2, R1. unfold drate at 2 4. cbn [dget]. destruct (Nat.eqb_spec v w) as [<-|NE].
    + assert (Z : dget l v = None) by (apply dget_None; exact NI). rewrite Z. ring.
    + ring.
Qed.
Lemma group_sources_ok cs : (forall c, In c cs -> dict_ok (k_sources c)) -> forall group, (forall i, In i group -> (i < length cs)%nat) ->
  exists d, group_sources cs group = Ok d /\ dict_ok d /\
    forall w t, drate d w t = sumq (fun i => match nth_error cs i with Some c => drate (k_sources c) w t | None => 0 end) group.
Proof.
  intros C group. unfold group_sources.
  assert (K : forall acc, dict_ok acc -> (forall i, In i group -> (i < length cs)%nat) ->
    exists d, foldM (fun acc i => c <- fetch cs i ;; foldM add_source (k_sources c) acc) group acc = Ok d /\ dict_ok d /\
      forall w t, drate d w t = drate acc w t + sumq (fun i => match nth_error cs i with Some c => drate (k_sources c) w t | None => 0 end) group).
  { induction group as [|i group IH]; intros acc D L; cbn [foldM].
    - exists acc. split; [reflexivity|]. split; [exact D|]. intros w t. unfold sumq. cbn. ring.
    - specialize (L i ltac:(left; reflexivity)) as Li. destruct (nth_error cs i) as [c|] eqn:E; [|apply nth_error_None in E; lia].
      unfold fetch at 1. rewrite E. cbn [bind]. destruct (add_sources_ok (k_sources c) acc D (C c (nth_error_In _ _ E))) as (a1 & E1 & D1 & R1). rewrite E1. cbn [bind].
      destruct (IH a1 D1 (fun j J => L j (or_intror J))) as (d & E2 & D2 & R2). exists d. split; [exact E2|]. split; [exact D2|]. intros w t. rewrite R2, R1, sumq_cons, E. ring. }
  intro L. destruct (K [] ltac:(split; [constructor|intros v f []]) L) as (d & E & D & R). exists d. split; [exact E|]. split; [exact D|]. intros w t. rewrite R. unfold drate at 1. cbn [dget]. ring.
Qed.
End Sources.

Lemma mapM_sum {A B} (f : A -> res B) (h : B -> Qc) (k : A -> Qc) : forall l ys, mapM f l = Ok ys ->
  (forall x y, In x l -> f x = Ok y -> h y = k x) -> sumq h ys = sumq k l.
Proof.
  induction l as [|x l IH]; intros ys M H; cbn [mapM] in M; [apply ok_inj in M; subst ys; reflexivity|].
  destruct (f x) as [y|] eqn:E; cbn [bind] in M; [|discriminate M]. destruct (mapM f l) as [zs|] eqn:E2; cbn [bind] in M; [|discriminate M]. apply ok_inj in M. subst ys.
  rewrite !sumq_cons, (H x y), (IH zs); auto; [intros; apply H; [right|]; assumption|left; reflexivity].
Qed.
Lemma mapM_proj {A B C} (f : A -> res B) (a : B -> C) (b : A -> C) : forall l ys, mapM f l = Ok ys ->
  (forall x y, In x l -> f x = Ok y -> a y = b x) -> map a ys = map b l.
Proof.
  induction l as [|x l IH]; intros ys M H; cbn [mapM] in M; [apply ok_inj in M; subst ys; reflexivity|].
  destruct (f x) as [y|] eqn:E; cbn [bind] in M; [|discriminate M]. destruct (mapM f l) as [zs|] eqn:E2; cbn [bind] in M; [|discriminate M]. apply ok_inj in M. subst ys.
  cbn [map]. rewrite (H x y), (IH zs); auto; [intros; apply H; [right|]; assumption|left; reflexivity].
Qed.
Lemma mapM_In {A B} (f : A -> res B) : forall l ys y, mapM f l = Ok ys -> In y ys -> exists x, In x l /\ f x = Ok y.
Proof.
  induction l as [|x l IH]; intros ys y M I; cbn [mapM] in M; [apply ok_inj in M; subst ys; destruct I|].
  destruct (f x) as [z|] eqn:E; cbn [bind] in M; [|discriminate M]. destruct (mapM f l) as [zs|] eqn:E2; cbn [bind] in M; [|discriminate M]. apply ok_inj in M. subst ys.
  destruct I as [<-|I]; [exists x; split; [left; reflexivity|exact E]|]. destruct (IH zs y eq_refl I) as [x' [X1 X2]]. exists x'. split; [right; exact X1|exact X2].
Qed.
Lemma mapM_total' {A B} (f : A -> res B) l : (forall x, In x l -> exists y, f x = Ok y) -> exists ys, mapM f l = Ok ys.
Proof.
  induction l as [|x l IH]; intro H; [exists []; reflexivity|]. cbn [mapM]. destruct (H x (or_introl eq_refl)) as [y E]. rewrite E. cbn [bind].
  destruct IH as [ys E2]; [intros z Z; apply H; right; exact Z|]. rewrite E2. eexists. reflexivity.
Qed.
Lemma one_key {A} (gs : list ((nat * nat) * A)) (h : A -> Qc) k l : NoDup (map fst gs) -> In (k, l) gs ->
  sumq (fun g => if key_eqb (fst g) k then h (snd g) else 0) gs = h l.
Proof.
  induction gs as [|[k0 l0] r IH]; intros N []; inversion N as [|x y NI ND EQ]; subst; rewrite sumq_cons; cbn [fst snd].
  - injection H as -> ->. destruct (key_eqbP k k); [|congruence]. rewrite (sumq_zero _ r); [ring|]. intros [k1 l1] I. cbn [fst snd]. destruct (key_eqbP k1 k) as [->|]; [|reflexivity].
    exfalso. apply NI. cbn [fst]. change k with (fst (k, l1)). apply in_map, I.
  - destruct (key_eqbP k0 k) as [->|]; [exfalso; apply NI; cbn [fst]; change k with (fst (k, l)); apply in_map, H|]. rewrite (IH ND H). ring.
Qed.
Lemma no_key {A} (gs : list ((nat * nat) * A)) (h : A -> Qc) k : ~ In k (map fst gs) -> sumq (fun g => if key_eqb (fst g) k then h (snd g) else 0) gs = 0.
Proof. intro N. apply sumq_zero. intros [k1 l1] I. cbn [fst snd]. destruct (key_eqbP k1 k) as [->|]; [|reflexivity]. exfalso. apply N. change k with (fst (k, l1)). apply in_map, I. Qed.
Lemma sumq_split {A} (h : A -> Qc) b l : sumq h l = sumq h (filter b l) + sumq h (filter (fun x => negb (b x)) l).
Proof. induction l as [|x l IH]; [unfold sumq; cbn; ring|]. cbn [filter]. rewrite sumq_cons, IH. destruct (b x); cbn [negb]; rewrite sumq_cons; ring. Qed.
Lemma sumq_nth {A} (h : A -> Qc) (l : list A) : sumq h l = sumq (fun i => match nth_error l i with Some x => h x | None => 0 end) (seq 0 (length l)).
Proof.
  induction l as [|x l IH]; [reflexivity|]. cbn [length seq]. rewrite !sumq_cons. cbn [nth_error]. f_equal. rewrite IH, <- seq_shift, sumq_map. apply sumq_ext. intros i _. reflexivity.
Qed.

(** ** C50 *)
Theorem C50_combine : forall nw exceptions ord lo hi,
  (forall c, In c (w_com nw) -> sources_ok lo hi c) -> (forall v, separated (source_times (w_com nw) v)) ->
  NoDup exceptions -> (forall i, In i exceptions -> (i < length (w_com nw))%nat) -> (forall l, Permutation (ord l) l) ->
  exists nw' merged kept, combine_commodities nw exceptions ord = Ok nw' /\
    w_graph nw' = w_graph nw /\ w_cap nw' = w_cap nw /\ w_tau nw' = w_tau nw /\ w_com nw' = merged ++ kept /\
    NoDup (map (fun c => (k_pred c, k_sink c)) merged) /\ (forall c, In c merged -> sources_ok lo hi c) /\
    Permutation (map Some kept) (map (nth_error (w_com nw)) exceptions) /\
    forall p s v t, ext_le lo (Fin t) -> ext_le (Fin t) hi -> demand (w_com nw') p s v t = demand (w_com nw) p s v t.
Proof.
  intros nw exc ord lo hi SO SEP NE LE ORD. set (cs := w_com nw) in *. set (T := source_times cs).
  assert (DO : forall c, In c cs -> dict_ok lo hi T (k_sources c)).
  { intros c I. destruct (SO c I) as [N F]. split; [exact N|]. intros v f J. destruct (F v f J) as (V & L & H). split; [exact V|]. split; [exact L|]. split; [exact H|].
    intros x X. unfold T, source_times. apply in_concat. exists (rc_times f). split; [|exact X]. apply in_map_iff. exists c. rewrite (In_dget _ _ _ N J). auto. }
  destruct (groups_ginv exc cs) as [G1 G2 G3]. set (gs := com_groups cs exc) in *.
  assert (MEM : forall k i, member exc (enum cs) k i -> (i < length cs)%nat). { intros k i (c & I & _). apply enum_nth in I. apply nth_error_Some. congruence. }
  assert (LEN : forall g i, In g gs -> In i (ord (snd g)) -> (i < length cs)%nat).
  { intros [k l] i I J. cbn [snd] in J. eapply Permutation_in in J; [|apply ORD]. apply (MEM k i). apply (G2 k l I). exact J. }
  set (R := fun v t i => match nth_error cs i with Some c => drate (k_sources c) v t | None => 0 end).
  unfold combine_commodities. fold cs. fold gs.
  set (mk := fun g : (nat * nat) * list nat => s <- group_sources cs (ord (snd g)) ;; Ok (mkCom s (snd (fst g)) (fst (fst g)))).
  assert (MK : forall g c, In g gs -> mk g = Ok c -> dict_ok lo hi T (k_sources c) /\ (k_pred c, k_sink c) = fst g /\ forall v t, drate (k_sources c) v t = sumq (R v t) (snd g)).
  { intros g c I E. destruct (group_sources_ok lo hi T SEP cs DO (ord (snd g)) (fun i => LEN g i I)) as (d & E1 & D & RD). unfold mk in E. rewrite E1 in E. cbn [bind] in E. apply ok_inj in E. subst c. cbn [k_sources k_pred k_sink].
    split; [exact D|]. split; [destruct (fst g); reflexivity|]. intros v t. rewrite RD. apply sumq_perm, ORD. }
  destruct (mapM_total' mk gs) as [merged EM].
  { intros g I. destruct (group_sources_ok lo hi T SEP cs DO (ord (snd g)) (fun i => LEN g i I)) as (d & E1 & _). unfold mk. rewrite E1. eexists. reflexivity. }
  destruct (mapM_total' (fetch cs) (ord exc)) as [kept EK].
  { intros i I. eapply Permutation_in in I; [|apply ORD]. apply LE in I. unfold fetch. destruct (nth_error cs i) eqn:E; [eexists; reflexivity|]. apply nth_error_None in E. fold cs in I. lia. }
  rewrite EM. cbn [bind]. rewrite EK. cbn [bind].
  exists (mkNw (w_graph nw) (w_cap nw) (w_tau nw) (merged ++ kept)), merged, kept. cbn [w_graph w_cap w_tau w_com].
  split; [reflexivity|]. do 4 (split; [reflexivity|]).
  assert (KEYS : map (fun c => (k_pred c, k_sink c)) merged = map fst gs). { apply (mapM_proj mk _ _ gs merged EM). intros g c I E. apply (MK g c I E). }
  assert (KE : forall i c, In i (ord exc) -> fetch cs i = Ok c -> nth_error cs i = Some c). { intros i c _ E. unfold fetch in E. destruct (nth_error cs i); [apply ok_inj in E; congruence|discriminate E]. }
  split; [rewrite KEYS; exact G1|]. split.
  { intros c I. destruct (mapM_In mk gs merged c EM I) as [g [IG E]]. destruct (MK g c IG E) as [[N F] _]. split; [exact N|]. intros v f J. destruct (F v f J) as (V & L & H & _). auto. }
  split.
  { rewrite (mapM_proj (fetch cs) Some (nth_error cs) (ord exc) kept EK); [|intros i c I E; symmetry; apply (KE i c I E)]. apply Permutation_map, ORD. }
  intros p s v t Dl Dh.
  assert (SR : forall c, dict_ok lo hi T (k_sources c) -> source_rate c v t = drate (k_sources c) v t).
  { intros c [N F]. unfold source_rate, drate. destruct (dget (k_sources c) v) as [f|] eqn:D; [|reflexivity]. destruct (F v f (dget_In _ _ _ D)) as (V & L & H & _). rewrite (reval_at f V t); [reflexivity|]. split; congruence. }
  set (h := fun c : commodity => if (Nat.eqb (k_pred c) p && Nat.eqb (k_sink c) s)%bool then source_rate c v t else 0).
  change (sumq h (merged ++ kept) = sumq h cs). rewrite sumq_app.
  set (r := fun i => match nth_error cs i with Some c => h c | None => 0 end).
  assert (HK : forall c, h c = if key_eqb (k_pred c, k_sink c) (p, s) then source_rate c v t else 0) by reflexivity.
  rewrite (sumq_nth h cs). change (sumq h merged + sumq h kept = sumq r (seq 0 (length cs))).
  rewrite (sumq_split r (fun i => mem i exc)).
  assert (E1 : sumq h kept = sumq r (filter (fun i => mem i exc) (seq 0 (length cs)))).
  { rewrite (mapM_sum (fetch cs) h r (ord exc) kept EK); [|intros i c I E; unfold r; rewrite (KE i c I E); reflexivity]. rewrite (sumq_perm _ _ _ (ORD exc)). apply sumq_perm.
    apply NoDup_Permutation; [exact NE|apply NoDup_filter, seq_NoDup|]. intro i. rewrite filter_In, in_seq, memP. split; [intro I; pose proof (LE i I); split; [cbn; lia|exact I]|tauto]. }
  assert (E2 : sumq h merged = sumq r (filter (fun i => negb (mem i exc)) (seq 0 (length cs)))).
  { rewrite (mapM_sum mk h (fun g => if key_eqb (fst g) (p, s) then sumq (R v t) (snd g) else 0) gs merged EM).
    2:{ intros g c I E. destruct (MK g c I E) as (D & K & S). rewrite HK, K, <- S, (SR c D). reflexivity. }
    assert (RR : forall i, r i = if match nth_error cs i with Some c => key_eqb (k_pred c, k_sink c) (p, s) | None => false end then R v t i else 0).
    { intro i. unfold r, R. destruct (nth_error cs i) as [c|] eqn:E; [|reflexivity]. rewrite HK. destruct (key_eqb _ _); [|reflexivity]. apply SR, DO, (nth_error_In _ _ E). }
    rewrite (sumq_ext r _ _ (fun i _ => RR i)). rewrite <- (sumq_filter (R v t) (fun i => match nth_error cs i with Some c => key_eqb (k_pred c, k_sink c) (p, s) | None => false end)).
    destruct (in_dec (fun a b => Bool.reflect_dec _ _ (key_eqbP a b)) (p, s) (map fst gs)) as [IK|NK].
    - apply in_map_iff in IK. destruct IK as [[k l] [EQ IK]]. cbn [fst] in EQ. subst k. rewrite (one_key gs (sumq (R v t)) (p, s) l G1 IK). destruct (G2 _ _ IK) as [ND ML]. apply sumq_perm.
      apply NoDup_Permutation; [exact ND|apply NoDup_filter, NoDup_filter, seq_NoDup|]. intro i. rewrite !filter_In, in_seq, ML, negb_true_iff, mem_false. split.
      + intros (c & I & N & K). apply enum_nth in I. rewrite I. unfold com_key in K. rewrite K. assert (i < length cs)%nat by (apply nth_error_Some; congruence). split; [split; [lia|exact N]|]. destruct (key_eqbP (p, s) (p, s)); congruence.
      + intros [[_ N] K]. destruct (nth_error cs i) as [c|] eqn:E; [|discriminate K]. exists c. split; [apply enum_nth, E|]. split; [exact N|]. destruct (key_eqbP (k_pred c, k_sink c) (p, s)) as [X|]; [exact X|discriminate K].
    - rewrite (no_key gs (sumq (R v t)) (p, s) NK). symmetry. unfold sumq. replace (filter _ (filter _ _)) with (@nil nat); [reflexivity|]. symmetry.
      destruct (filter _ (filter _ _)) as [|i l] eqn:FE; [reflexivity|]. exfalso. assert (I : In i (i :: l)) by (left; reflexivity). rewrite <- FE in I. rewrite !filter_In, negb_true_iff, mem_false in I. destruct I as [[_ N] K].
      destruct (nth_error cs i) as [c|] eqn:E; [|discriminate K]. apply NK, (G3 _ i). exists c. split; [apply enum_nth, E|]. split; [exact N|]. destruct (key_eqbP (k_pred c, k_sink c) (p, s)) as [X|]; [exact X|discriminate K]. }
  rewrite E1, E2. ring.
Qed.
Print Assumptions C50_combine.

(** Commodities 0 and 1 share predictor 0 and sink 9 and both start in node 1;
    commodity 2 has the same key but is exempt, commodity 3 has another sink. *)
Definition cb_fn (a b : Z) : RC := mkRC [0; qz a] [1; qz b] (Fin 0) PInf.
Definition cb_net : network := mkNw g_empty [] []
  [mkCom [(1, cb_fn 2 3); (2, cb_fn 5 0)]%nat 9 0; mkCom [(1, cb_fn 4 2)]%nat 9 0; mkCom [(1, cb_fn 2 7)]%nat 9 0; mkCom [(3, cb_fn 2 7)]%nat 8 0].
Lemma cb_valid a b : (0 < a)%Z -> rvalid (cb_fn a b).
Proof.
  intro L. assert (P : 0 < qz a). { unfold Qclt, qz, Q2Qc. cbn [this]. rewrite !Qred_correct. unfold Qlt. cbn. lia. }
  constructor; [reflexivity|discriminate| |].
  - constructor; [constructor; constructor|]. constructor; [exact P|constructor].
  - intros t [<-|[<-|[]]]; (split; [|exact Logic.I]); cbn [rc_lo cb_fn ext_le]; [apply Qcle_refl|apply Qclt_le_weak, P].
Qed.
Example C50_example_hyps :
  (forall c, In c (w_com cb_net) -> sources_ok (Fin 0) PInf c) /\ (forall v, separated (source_times (w_com cb_net) v)) /\
  NoDup [2%nat] /\ (forall l : list nat, Permutation (rev l) l).
Proof.
  split; [|split; [|split]].
  - intros c I. repeat (destruct I as [<-|I]; [split; [repeat (constructor; [cbn; intuition congruence|]); constructor|
      intros v f J; repeat (destruct J as [J|J]; [injection J as <- <-; split; [apply cb_valid; lia|split; reflexivity]|]); destruct J]|]). destruct I.
  - intros v. unfold source_times. do 4 (destruct v as [|v]; [cbv [map concat w_com cb_net k_sources dget fst snd Nat.eqb app cb_fn rc_times source_times];
      intros x y X Y; repeat (destruct X as [<-|X]; [repeat (destruct Y as [<-|Y]; [intro LT; first [vm_compute; reflexivity|exfalso; revert LT; vm_compute; discriminate]|]); destruct Y|]); destruct X|]).
    intros x y X. destruct X.
  - constructor; [intros []|constructor].
  - intro l. symmetry. apply Permutation_rev.
Qed.
Example C50_example :
  match combine_commodities cb_net [2%nat] (@rev nat) with
  | Ok nw => ((if list_eq_dec Nat.eq_dec (map k_sink (w_com nw)) [9; 8; 9]%nat then true else false)
      && qeqb (demand (w_com nw) 0 9 1 (qz 3)) (qz 11) && qeqb (demand (firstn 1 (w_com nw)) 0 9 1 (qz 3)) (qz 4))%bool
  | Err _ => false end = true.
Proof. vm_compute. reflexivity. Qed.
