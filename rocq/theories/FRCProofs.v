(** * FlowRatesCollection: specification vocabulary, invariant, extension *)
From Verif Require Import Base Spec Arrays ArraysProofs PL PLProofs PLEval PLArith PLOps PLOps2 RC RCProofs RCOps FRC.

(** ** Specification vocabulary *)
(** The rate of commodity i in a snapshot (0 if absent). *)
Definition rate (d : rates) (i : nat) : Qc := match dget d i with Some v => v | None => 0 end.
(** A dict: keys are unique.  A rate snapshot: also, all rates are positive. *)
Definition is_dict (d : rates) : Prop := NoDup (map fst d).
Definition is_snapshot (d : rates) : Prop := is_dict d /\ forall i v, In (i, v) d -> 0 < v.
(** The last snapshot in the list whose time is at most t. *)
Fixpoint latest (snaps : list (Qc * rates)) (t : Qc) : option (Qc * rates) :=
  match snaps with
  | [] => None
  | p :: r => match latest r t with
              | Some q => Some q
              | None => if qleb (fst p) t then Some p else None
              end
  end.
Definition latest_rates (snaps : list (Qc * rates)) (t : Qc) : rates :=
  match latest snaps t with Some p => snd p | None => [] end.

Inductive fop := Extend (time : Qc) (values : rates) (values_sum : Qc) | Get (time : Qc).
(** Specification of a collection: all snapshots ever appended, and the time
    of the snapshot served by the latest successful query. *)
Record fspec := mkFS { fs_snaps : list (Qc * rates); fs_floor : Qc }.
Definition fs_new : fspec := mkFS [(0, [])] 0.
Definition fs_step (s : fspec) (o : fop) : fspec * res (option rates) :=
  match o with
  | Extend t v _ => (mkFS (fs_snaps s ++ [(t, v)]) (fs_floor s), Ok None)
  | Get t =>
      if qltb t (fs_floor s) then (s, Err ValueError)
      else match latest (fs_snaps s) t with
           | Some (t0, v) => (mkFS (fs_snaps s) t0, Ok (Some v))
           | None => (s, Err ValueError)
           end
  end.
Fixpoint fs_run (s : fspec) (ops : list fop) : fspec * list (res (option rates)) :=
  match ops with
  | [] => (s, [])
  | o :: r => let (s', x) := fs_step s o in let (s'', xs) := fs_run s' r in (s'', x :: xs)
  end.
(** Running the modelled code. *)
Definition frc_step (c : FRC) (o : fop) : FRC * res (option rates) :=
  match o with
  | Extend t v s => match frc_extend c t v s with Ok c' => (c', Ok None) | Err e => (c, Err e) end
  | Get t => match frc_get c t with Ok (c', v) => (c', Ok (Some v)) | Err e => (c, Err e) end
  end.
Fixpoint frc_run (c : FRC) (ops : list fop) : FRC * list (res (option rates)) :=
  match ops with
  | [] => (c, [])
  | o :: r => let (c', x) := frc_step c o in let (c'', xs) := frc_run c' r in (c'', x :: xs)
  end.

(** The extensions of a history, as (time, rates, total). *)
Fixpoint exts (ops : list fop) : list (Qc * rates * Qc) :=
  match ops with [] => [] | Extend t v s :: r => (t, v, s) :: exts r | Get _ :: r => exts r end.
Definition times_of (es : list (Qc * rates * Qc)) : list Qc := map (fun e => fst (fst e)) es.
Definition snaps_of (es : list (Qc * rates * Qc)) : list (Qc * rates) := map fst es.
(** Valid histories: extension times are non-negative and non-decreasing, all rates positive. *)
Definition valid_history (ops : list fop) : Prop :=
  nondecreasing (0 :: times_of (exts ops)) /\ (forall t v s, In (t, v, s) (exts ops) -> is_snapshot v).

(** ** Dicts *)
Section D.
Context {B : Type}.
Lemma dget_dset (d : list (nat * B)) k v j : dget (dset d k v) j = if Nat.eqb k j then Some v else dget d j.
Proof.
  induction d as [|[a b] r IH]; cbn [dset dget]; [reflexivity|].
  destruct (Nat.eqb_spec a k) as [->|N]; cbn [dget].
  - destruct (Nat.eqb_spec k j); reflexivity.
  - rewrite IH. destruct (Nat.eqb_spec a j) as [->|]; [|reflexivity]. destruct (Nat.eqb_spec k j); [congruence|reflexivity].
Qed.
Lemma dget_In (d : list (nat * B)) k v : dget d k = Some v -> In (k, v) d.
Proof.
  induction d as [|[a b] r IH]; cbn [dget]; [discriminate|]. destruct (Nat.eqb_spec a k) as [->|].
  - intro H. injection H as ->. left. reflexivity.
  - intro H. right. auto.
Qed.
Lemma In_dget (d : list (nat * B)) k v : NoDup (map fst d) -> In (k, v) d -> dget d k = Some v.
Proof.
  induction d as [|[a b] r IH]; cbn [dget map fst]; intros N []; inversion N; subst.
  - injection H as -> ->. rewrite Nat.eqb_refl. reflexivity.
  - destruct (Nat.eqb_spec a k) as [->|]; [|auto]. exfalso. apply H2. apply (in_map fst) in H. exact H.
Qed.
Lemma dget_None (d : list (nat * B)) k : dget d k = None <-> ~ In k (map fst d).
Proof.
  induction d as [|[a b] r IH]; cbn [dget map fst In]; [tauto|]. destruct (Nat.eqb_spec a k) as [->|N].
  - split; [discriminate|]. intro H. exfalso. apply H. left. reflexivity.
  - rewrite IH. split; intros H; [intros [?|?]; auto|tauto].
Qed.
Lemma dhas_In (d : list (nat * B)) k : dhas d k = true <-> In k (map fst d).
Proof.
  unfold dhas. destruct (dget d k) eqn:E.
  - split; [|reflexivity]. intros _. apply dget_In in E. apply (in_map fst) in E. exact E.
  - apply dget_None in E. split; [discriminate|contradiction].
Qed.
End D.

Lemma rate_pos d i : is_snapshot d -> 0 <= rate d i.
Proof.
  intros [N P]. unfold rate. destruct (dget d i) eqn:E; [|qlra]. apply dget_In in E. specialize (P _ _ E). qlra.
Qed.
Lemma rate_has d i : is_snapshot d -> dhas d i = true <-> 0 < rate d i.
Proof.
  intros [N P]. unfold dhas, rate. destruct (dget d i) eqn:E.
  - apply dget_In in E. specialize (P _ _ E). split; auto.
  - split; [discriminate|intro; exfalso; qlra].
Qed.

Lemma new_item_ok t v : (forall i x, In (i, x) v -> 0 < x) -> new_item t v = Ok (mkItem t v).
Proof.
  intro H. unfold new_item. replace (forallb _ v) with true; [reflexivity|].
  symmetry. apply forallb_forall. intros [i x] I. apply qltb_true. eapply H. exact I.
Qed.
Lemma new_item_inv t v it : new_item t v = Ok it -> it = mkItem t v /\ forall i x, In (i, x) v -> 0 < x.
Proof.
  unfold new_item. intro H. binv H. apply assertb_ok in E. apply ok_inj in H. split; [auto|].
  intros i x I. apply (proj1 (forallb_forall _ _)) with (x := (i, x)) in E; auto. apply qltb_true in E. exact E.
Qed.

(** ** The functions of a collection *)
Definition fn_of (fns : list (nat * RC)) (i : nat) : RC := match dget fns i with Some f => f | None => new_flow_fn end.
(** Breakpoints start at 0, end at or before T. *)
Record fn_ok (f : RC) (T : Qc) : Prop := {
  fo_v : rvalid f; fo_lo : rc_lo f = Fin 0; fo_hi : rc_hi f = PInf;
  fo_0 : In 0 (rc_times f); fo_T : forall t, In t (rc_times f) -> t <= T }.

Lemma new_fn_ok T : 0 <= T -> fn_ok new_flow_fn T.
Proof.
  intro H. constructor; cbn [new_flow_fn rc_times rc_lo rc_hi]; auto.
  - constructor; cbn [new_flow_fn rc_times rc_values]; [reflexivity|discriminate|repeat constructor|].
    intros t [<-|[]]. split; cbn; auto. qlra.
  - left. reflexivity.
  - intros t [<-|[]]. exact H.
Qed.
Lemma fn_ok_mono f T T' : fn_ok f T -> T <= T' -> fn_ok f T'.
Proof. intros [A1 A2 A3 A4 A5] H. constructor; auto. intros t I. specialize (A5 t I). qlra. Qed.
Lemma fn_dom f T t : fn_ok f T -> rin_dom f t <-> 0 <= t.
Proof. intros [A1 A2 A3 A4 A5]. unfold rin_dom. rewrite A2, A3. cbn [ext_le]. tauto. Qed.

(** One step of a rate function: defined, and what it does (exact case analysis). *)
Lemma fn_extend f T time v : fn_ok f T -> T <= time ->
  exists f', rc_extend f time v = Ok f' /\ fn_ok f' time /\
   (forall t, time <= t -> qabs (rc_at f' t - v) <= eps) /\
   (forall t, 0 <= t -> t + eps < time -> rc_at f' t = rc_at f t).
Proof.
  intros O H. destruct O as [V Lo Hi O0 OT].
  pose proof (rlast_t f V) as Et. pose proof (rlast_v f V) as Ev.
  assert (IL : In (nthq (rc_times f) (rc_len f - 1)) (rc_times f)).
  { apply nthq_in. pose proof (rlen_pos f V). unfold rc_len in *. lia. }
  pose proof (OT _ IL) as HL. set (tl := nthq (rc_times f) (rc_len f - 1)) in *. set (vl_ := nthq (rc_values f) (rc_len f - 1)) in *.
  destruct (proj1 (rc_extend_defined f time v tl V Et)) as [_ Y]. destruct Y as [f' E]; [qlra|].
  exists f'. split; [exact E|].
  assert (Hh : ext_le (Fin time) (rc_hi f)) by (rewrite Hi; exact Logic.I).
  destruct (rc_extend_cases f time v f' tl vl_ V Hh Et Ev E) as [V' [L [Hi' [B K]]]].
  assert (Z : qabs (v - v) <= eps). { replace (v - v) with 0 by ring. vm_compute. discriminate. }
  split; [|split].
  - constructor; [exact V'|congruence|congruence| |].
    + destruct K as [[K1 ->]|[[K1 [K2 [K3 _]]]|[K1 [K2 [K3 _]]]]]; [auto|rewrite K3; auto|rewrite K3; apply in_or_app; auto].
    + intros t I. destruct K as [[K1 ->]|[[K1 [K2 [K3 _]]]|[K1 [K2 [K3 _]]]]].
      * specialize (OT t I). qlra.
      * rewrite K3 in I. specialize (OT t I). qlra.
      * rewrite K3 in I. apply in_app_or in I. destruct I as [I|[<-|[]]]; [specialize (OT t I); qlra|qlra].
  - intros t Ht. destruct K as [[K1 ->]|[[K1 [K2 [K3 [K4 K5]]]]|[K1 [K2 [K3 K4]]]]].
    + rewrite (at_after_last f t tl vl_ V Et Ev) by qlra. exact K1.
    + rewrite K4; [exact Z|qlra].
    + rewrite K4. destruct (qlebP time t); [exact Z|qlra].
  - intros t T0 Ht. destruct K as [[K1 ->]|[[K1 [K2 [K3 [K4 K5]]]]|[K1 [K2 [K3 K4]]]]]; [reflexivity| |].
    + apply K5. { destruct (qabs_spec (time - tl)) as [[? Q]|[? Q]]; rewrite Q in K2; qlra. }
      left. exists 0. auto.
    + rewrite K4. destruct (qlebP time t); [qlra|reflexivity].
Qed.
(** Exact version under separation. *)
Lemma fn_extend_exact f T time v f' : fn_ok f T -> T <= time -> rc_extend f time v = Ok f' ->
  (forall a, In a (rc_times f) -> a = time \/ a + eps < time) ->
  (rc_at f time = v \/ eps < qabs (rc_at f time - v)) ->
  (forall a, In a (rc_times f') -> In a (rc_times f) \/ a = time) /\
  (forall t, 0 <= t -> rc_at f' t = if qleb time t then v else rc_at f t).
Proof.
  intros O H E S SV. destruct O as [V Lo Hi O0 OT].
  pose proof (rlast_t f V) as Et. pose proof (rlast_v f V) as Ev.
  assert (IL : In (nthq (rc_times f) (rc_len f - 1)) (rc_times f)).
  { apply nthq_in. pose proof (rlen_pos f V). unfold rc_len in *. lia. }
  pose proof (OT _ IL) as HL. set (tl := nthq (rc_times f) (rc_len f - 1)) in *. set (vl_ := nthq (rc_values f) (rc_len f - 1)) in *.
  assert (Hh : ext_le (Fin time) (rc_hi f)) by (rewrite Hi; exact Logic.I).
  destruct (rc_extend_cases f time v f' tl vl_ V Hh Et Ev E) as [V' [L [Hi' [B K]]]].
  assert (AL : forall t, tl <= t -> rc_at f t = vl_) by (intros; apply (at_after_last f t tl vl_ V Et Ev); auto).
  rewrite (AL time) in SV by qlra.
  destruct K as [[K1 ->]|[[K1 [K2 [K3 [K4 K5]]]]|[K1 [K2 [K3 K4]]]]].
  - split; [auto|]. intros t Ht. destruct (qlebP time t) as [C|C]; [|reflexivity]. rewrite AL by qlra. destruct SV; [auto|qlra].
  - split; [rewrite K3; auto|]. intros t Ht.
    assert (tl = time). { destruct (S tl IL) as [?|Q]; auto. destruct (qabs_spec (time - tl)) as [[? R]|[? R]]; rewrite R in K2; qlra. }
    destruct (qlebP time t) as [C|C]; [apply K4; qlra|]. apply K5; [qlra|]. left. exists 0. auto.
  - split; [rewrite K3; intros a I; apply in_app_or in I; destruct I as [I|[I|[]]]; auto|]. intros t Ht. apply K4.
Qed.

(** ** One extension of all functions *)
Definition fns_ok (fns : list (nat * RC)) (T : Qc) : Prop := forall i f, dget fns i = Some f -> fn_ok f T.
Lemma fn_of_ok fns T i : 0 <= T -> fns_ok fns T -> fn_ok (fn_of fns i) T.
Proof. intros H K. unfold fn_of. destruct (dget fns i) eqn:E; [eapply K; eauto|apply new_fn_ok; exact H]. Qed.

Lemma fn_of_dset fns k f i : fn_of (dset fns k f) i = if Nat.eqb k i then f else fn_of fns i.
Proof. unfold fn_of. rewrite dget_dset. destruct (Nat.eqb k i); reflexivity. Qed.

Lemma ext_values_ok T time : 0 <= T -> T <= time -> forall values fns,
  NoDup (map fst values) -> (forall i, In i (map fst values) -> fn_ok (fn_of fns i) T) -> fns_ok fns time ->
  exists fns', ext_values fns time values = Ok fns' /\ fns_ok fns' time /\
    (forall i, dhas fns' i = (dhas fns i || dhas values i)%bool) /\
    (forall i v, dget values i = Some v -> rc_extend (fn_of fns i) time v = Ok (fn_of fns' i)) /\
    (forall i, dget values i = None -> fn_of fns' i = fn_of fns i).
Proof.
  intros H0 H. induction values as [|[i v] r IH]; intros fns N O OT; cbn [ext_values].
  - exists fns. split; [reflexivity|]. split; [exact OT|]. split; [intro; cbn; rewrite orb_false_r; reflexivity|].
    split; [discriminate|reflexivity].
  - cbn [map fst] in N. inversion N as [|? ? N1 N2]; subst.
    destruct (fn_extend (fn_of fns i) T time v (O i (or_introl eq_refl)) H) as [f [E [F _]]].
    fold (fn_of fns i). rewrite E. cbn [bind].
    destruct (IH (dset fns i f) N2) as [fns' [E' [F' [Hh [G1 G2]]]]].
    + intros j J. rewrite fn_of_dset. destruct (Nat.eqb_spec i j) as [->|]; [contradiction|]. apply O. right. exact J.
    + intros j g. rewrite dget_dset. destruct (Nat.eqb_spec i j); [intro Q; injection Q as <-; exact F|apply OT].
    + exists fns'. split; [exact E'|]. split; [exact F'|]. split; [|split].
      * intro j. rewrite Hh. unfold dhas. rewrite dget_dset. cbn [dget].
        destruct (Nat.eqb_spec i j); [destruct (dget fns j), (dget r j); reflexivity|reflexivity].
      * intros j w. cbn [dget]. destruct (Nat.eqb_spec i j) as [->|C].
        -- intro Q. injection Q as <-. rewrite (G2 j); [|apply dget_None; exact N1]. rewrite fn_of_dset, Nat.eqb_refl. exact E.
        -- intro Q. rewrite <- (G1 j w Q). rewrite fn_of_dset. destruct (Nat.eqb_spec i j); [contradiction|reflexivity].
      * intros j. cbn [dget]. destruct (Nat.eqb_spec i j) as [|C]; [discriminate|]. intro Q. rewrite (G2 j Q), fn_of_dset.
        destruct (Nat.eqb_spec i j); [contradiction|reflexivity].
Qed.

Lemma ext_zeros_ok T time values : 0 <= T -> T <= time -> forall tv fns,
  NoDup (map fst tv) -> (forall i, In i (map fst tv) -> dhas values i = false -> dhas fns i = true /\ fn_ok (fn_of fns i) T) -> fns_ok fns time ->
  exists fns', ext_zeros fns time tv values = Ok fns' /\ fns_ok fns' time /\
    (forall i, dhas fns' i = dhas fns i) /\
    (forall i, dhas tv i = true -> dhas values i = false -> rc_extend (fn_of fns i) time 0 = Ok (fn_of fns' i)) /\
    (forall i, dhas tv i = false \/ dhas values i = true -> fn_of fns' i = fn_of fns i).
Proof.
  intros H0 H. induction tv as [|[i v] r IH]; intros fns N O OT; cbn [ext_zeros].
  - exists fns. split; [reflexivity|]. split; [exact OT|]. split; [reflexivity|].
    split; [discriminate|reflexivity].
  - cbn [map fst] in N. inversion N as [|? ? N1 N2]; subst. destruct (dhas values i) eqn:Hv.
    + destruct (IH fns N2) as [fns' [E' [F' [Hh [G1 G2]]]]]; [intros j J; apply O; right; exact J|exact OT|].
      exists fns'. split; [exact E'|]. split; [exact F'|]. split; [exact Hh|]. split.
      * intros j J1 J2. apply G1; [|exact J2]. unfold dhas in *. cbn [dget] in J1. destruct (Nat.eqb_spec i j) as [->|]; [congruence|exact J1].
      * intros j J. apply G2. destruct J as [J|J]; [|auto]. left. unfold dhas in *. cbn [dget] in J. destruct (Nat.eqb_spec i j); [discriminate|exact J].
    + destruct (O i (or_introl eq_refl) Hv) as [Q1 Q2]. unfold dfetch. unfold dhas in Q1. destruct (dget fns i) as [f0|] eqn:E0; [|discriminate].
      cbn [bind]. assert (EF : fn_of fns i = f0) by (unfold fn_of; rewrite E0; reflexivity). rewrite EF in Q2.
      destruct (fn_extend f0 T time 0 Q2 H) as [f [E [F _]]]. rewrite E. cbn [bind].
      destruct (IH (dset fns i f) N2) as [fns' [E' [F' [Hh [G1 G2]]]]].
      * intros j J Jv. destruct (Nat.eqb_spec i j) as [->|C]; [contradiction|]. rewrite fn_of_dset. unfold dhas. rewrite dget_dset.
        destruct (Nat.eqb_spec i j); [contradiction|]. apply O; [right; exact J|exact Jv].
      * intros j g. rewrite dget_dset. destruct (Nat.eqb_spec i j); [intro Q; injection Q as <-; exact F|apply OT].
      * exists fns'. split; [exact E'|]. split; [exact F'|]. split; [|split].
        -- intro j. rewrite Hh. unfold dhas. rewrite dget_dset. destruct (Nat.eqb_spec i j) as [<-|]; [rewrite E0|]; reflexivity.
        -- intros j J1 J2. destruct (Nat.eqb_spec i j) as [<-|C].
           ++ rewrite (G2 i); [|left; destruct (dhas r i) eqn:Q; auto; apply dhas_In in Q; contradiction].
              rewrite fn_of_dset, Nat.eqb_refl, EF. exact E.
           ++ rewrite <- (G1 j); [|unfold dhas in *; cbn [dget] in J1; destruct (Nat.eqb_spec i j); [contradiction|exact J1]|exact J2].
              rewrite fn_of_dset. destruct (Nat.eqb_spec i j); [contradiction|reflexivity].
        -- intros j J. destruct (Nat.eqb_spec i j) as [<-|C].
           ++ exfalso. destruct J as [J|J]; [|congruence]. unfold dhas in J. cbn [dget] in J. rewrite Nat.eqb_refl in J. discriminate.
           ++ rewrite (G2 j), fn_of_dset; [destruct (Nat.eqb_spec i j); [contradiction|reflexivity]|].
              destruct J as [J|J]; [|auto]. left. unfold dhas in *. cbn [dget] in J. destruct (Nat.eqb_spec i j); [contradiction|exact J].
Qed.

(** ** Snapshots *)
Lemma latest_app snaps t p : latest (snaps ++ [p]) t = if qleb (fst p) t then Some p else latest snaps t.
Proof.
  induction snaps as [|q r IH]; cbn [app latest]; [destruct (qleb (fst p) t); reflexivity|].
  rewrite IH. destruct (qleb (fst p) t); [reflexivity|]. destruct (latest r t); reflexivity.
Qed.
Lemma latest_some snaps t p : latest snaps t = Some p -> In p snaps /\ fst p <= t.
Proof.
  induction snaps as [|q r IH]; cbn [latest]; [discriminate|]. destruct (latest r t) as [x|].
  - intro H. destruct (IH H) as [I1 I2]. split; [right; auto|auto].
  - destruct (qlebP (fst q) t); [|discriminate]. intro H. injection H as <-. split; [left; reflexivity|assumption].
Qed.
Lemma latest_none snaps t : latest snaps t = None -> forall p, In p snaps -> t < fst p.
Proof.
  induction snaps as [|q r IH]; cbn [latest]; intros H p I; [destruct I|].
  destruct (latest r t) eqn:E; [discriminate|]. destruct (qlebP (fst q) t) as [C|C]; [discriminate|].
  destruct I as [<-|I]; [qlra|auto].
Qed.
Lemma latest_last snaps p t : fst p <= t -> latest (snaps ++ [p]) t = Some p.
Proof. intro H. rewrite latest_app. destruct (qlebP (fst p) t); [reflexivity|contradiction]. Qed.
(** Times before the prefix do not matter when the suffix has an answer. *)
Lemma latest_suffix pre l t p : latest l t = Some p -> latest (pre ++ l) t = Some p.
Proof. intro H. induction pre as [|q r IH]; cbn [app latest]; [exact H|]. rewrite IH. reflexivity. Qed.

Lemma nondec_app l x : nondecreasing (l ++ [x]) <-> nondecreasing l /\ forall a, In a l -> a <= x.
Proof.
  unfold nondecreasing. induction l as [|b r IH]; cbn [app].
  - split; [intros _; split; [constructor|intros ? []]|intros _; repeat constructor].
  - split.
    + intro H. inversion H as [|? ? H1 H2]; subst. apply IH in H1. destruct H1 as [H1 H3]. rewrite Forall_app in H2. destruct H2 as [H2 H4].
      split; [constructor; assumption|]. intros a [<-|I]; [|auto]. inversion H4; assumption.
    + intros [H1 H2]. inversion H1 as [|? ? H3 H4]; subst. constructor.
      * apply IH. split; [assumption|]. intros a I. apply H2. right. exact I.
      * apply Forall_app. split; [assumption|]. constructor; [|constructor]. apply H2. left. reflexivity.
Qed.
Lemma nondec_suffix l r : nondecreasing (l ++ r) -> nondecreasing r.
Proof. unfold nondecreasing. induction l as [|a l IH]; cbn [app]; [auto|]. intro H. inversion H; subst. auto. Qed.

Definition pair_of (it : item) : Qc * rates := (it_time it, it_vals it).

(** ** The invariant.  [snaps]: all snapshots ever appended, ending with (T, v). *)
Record frc_inv (c : FRC) (snaps : list (Qc * rates)) (T : Qc) (v : rates) : Prop := {
  fi_last : exists l, snaps = l ++ [(T, v)];
  fi_chain : exists pre, snaps = pre ++ map pair_of (c_chain c);
  fi_ne : c_chain c <> [];
  fi_sorted : nondecreasing (map fst snaps);
  fi_zero : forall p, In p snaps -> 0 <= fst p;
  fi_snap : forall p, In p snaps -> is_snapshot (snd p);
  fi_fns : fns_ok (c_fns c) T;
  fi_keys : forall p i, In p snaps -> dhas (snd p) i = true -> dhas (c_fns c) i = true;
  fi_tol : forall i t, 0 <= t -> (forall p, In p snaps -> fst p <= t \/ t + eps < fst p) ->
     qabs (rc_at (fn_of (c_fns c) i) t - rate (latest_rates snaps t) i) <= eps;
  fi_av : valid (c_acc c);
  fi_alo : pl_lo (c_acc c) = Fin 0; fi_ahi : pl_hi (c_acc c) = PInf;
  fi_aT : forall t, In t (pl_times (c_acc c)) -> t <= T }.

Lemma fi_T0 c snaps T v : frc_inv c snaps T v -> 0 <= T.
Proof.
  intro I. destruct (fi_last _ _ _ _ I) as [l E]. change T with (fst (T, v)). apply (fi_zero _ _ _ _ I). rewrite E. apply in_or_app. right. left. reflexivity.
Qed.
Lemma fi_le c snaps T v p : frc_inv c snaps T v -> In p snaps -> fst p <= T.
Proof.
  intros I Hp. destruct (fi_last _ _ _ _ I) as [l E]. pose proof (fi_sorted _ _ _ _ I) as S. subst snaps.
  rewrite map_app in S. cbn [map fst] in S. apply nondec_app in S. destruct S as [_ S].
  apply in_app_or in Hp. destruct Hp as [Hp|[<-|[]]]; [apply S, in_map, Hp|cbn [fst]; qlra].
Qed.

Lemma last_cons {A} (l : list A) x d : last (x :: l) d = last l x.
Proof.
  revert x d. induction l as [|a l IH]; intros x d; [reflexivity|].
  change (last (x :: a :: l) d) with (last (a :: l) d). rewrite !IH. reflexivity.
Qed.
Lemma last_map_pair r i0 : last (map pair_of r) (pair_of i0) = pair_of (last r i0).
Proof. revert i0. induction r as [|a r IH]; intro i0; cbn [map last]; [reflexivity|]. destruct r; [reflexivity|]. cbn [map] in *. apply IH. Qed.
Lemma chain_tail c snaps T v i0 r : frc_inv c snaps T v -> c_chain c = i0 :: r -> last r i0 = mkItem T v.
Proof.
  intros I E. destruct (fi_last _ _ _ _ I) as [l E1]. destruct (fi_chain _ _ _ _ I) as [pre E2].
  rewrite E in E2. rewrite E2 in E1. clear E2 I E.
  assert (H : last (pre ++ map pair_of (i0 :: r)) (0, []) = (T, v)) by (rewrite E1; apply last_last).
  assert (K : last (pre ++ map pair_of (i0 :: r)) (0, []) = last (map pair_of (i0 :: r)) (0, [])).
  { clear. induction pre as [|a p IH]; [reflexivity|]. cbn [app last]. destruct (p ++ map pair_of (i0 :: r)) eqn:Q; [|rewrite IH; reflexivity].
    destruct p; discriminate. }
  rewrite K in H. change (map pair_of (i0 :: r)) with (pair_of i0 :: map pair_of r) in H.
  rewrite last_cons, last_map_pair in H. unfold pair_of in H. destruct (last r i0). cbn in H. congruence.
Qed.

(** ** The empty collection *)
Definition acc_empty : PL := mkPL [0] [0] 0 0 (Fin 0) PInf.
Definition frc_empty : FRC := mkFRC [] [mkItem 0 []] acc_empty.
Lemma frc_init_nil : frc_init [] = Ok frc_empty.
Proof.
  unfold frc_init, new_item. cbn [forallb assertb bind map rc_sum rc_init].
  replace (zlen [0] =? zlen [0])%Z with true by reflexivity. cbn [assertb bind forallb ext_leb].
  destruct (qlebP 0 0) as [_|C]; [|exfalso; apply C; qlra]. cbn [andb assertb bind].
  change (rc_integral (mkRC [0] [0] (Fin 0) PInf)) with (Ok acc_empty). cbn [bind]. reflexivity.
Qed.
Lemma acc_empty_valid : valid acc_empty.
Proof.
  constructor; cbn [acc_empty pl_times pl_values]; [reflexivity|discriminate|repeat constructor|].
  intros t [<-|[]]. split; cbn; auto. qlra.
Qed.
Lemma new_fn_at t : rc_at new_flow_fn t = 0.
Proof. unfold rc_at. cbn. destruct (qleb 0 t); reflexivity. Qed.
Lemma empty_inv : frc_inv frc_empty [(0, [])] 0 [].
Proof.
  constructor; cbn [frc_empty c_chain c_fns c_acc].
  - exists []. reflexivity.
  - exists []. reflexivity.
  - discriminate.
  - repeat constructor.
  - intros p [<-|[]]. cbn [fst]. qlra.
  - intros p [<-|[]]. cbn [snd]. split; [constructor|intros ? ? []].
  - intros i f H. discriminate.
  - intros p i [<-|[]]. discriminate.
  - intros i t Ht _. unfold fn_of. cbn [dget]. rewrite new_fn_at. unfold latest_rates. cbn [latest fst].
    destruct (qlebP 0 t); [|contradiction]. cbn [snd rate dget]. replace (0 - rate [] i) with 0 by (cbn; ring). vm_compute. discriminate.
  - apply acc_empty_valid.
  - reflexivity.
  - reflexivity.
  - intros t [<-|[]]. qlra.
Qed.

(** ** extend *)
Lemma acc_extend A T time slope : valid A -> pl_hi A = PInf -> (forall t, In t (pl_times A) -> t <= T) -> T <= time ->
  exists A', extend_with_slope A time slope = Ok A' /\ valid A' /\ pl_lo A' = pl_lo A /\ pl_hi A' = PInf /\
    (forall t, In t (pl_times A') -> In t (pl_times A) \/ t = time).
Proof.
  intros V Hi HT H. pose proof (len_pos A V) as LP.
  assert (tm A (pl_len A - 1) <= T) by (apply HT, tm_in; lia).
  destruct (proj2 (extend_raises A time slope V)) as [A' E]; [qlra|]. exists A'. split; [exact E|].
  destruct (extend_ok A time slope A' V) as [V' [L [H' [_ [_ K]]]]]; [rewrite Hi; exact Logic.I|exact E|].
  split; [exact V'|]. split; [exact L|]. split; [congruence|].
  intros t I. destruct K as [[_ ->]|[_ [_ [[_ [K _]]|[_ [K _]]]]]]; [auto|rewrite K in I; auto|].
  rewrite K in I. apply in_app_or in I. destruct I as [I|[I|[]]]; auto.
Qed.

(** What [extend] does to the individual functions. *)
Definition fns_step (fns fns' : list (nat * RC)) (time : Qc) (tv values : rates) : Prop :=
  forall i, (forall x, dget values i = Some x -> rc_extend (fn_of fns i) time x = Ok (fn_of fns' i)) /\
    (dhas values i = false -> dhas tv i = true -> rc_extend (fn_of fns i) time 0 = Ok (fn_of fns' i)) /\
    (dhas values i = false -> dhas tv i = false -> fn_of fns' i = fn_of fns i).

Lemma frc_extend_ok c snaps T v time values s : frc_inv c snaps T v -> T <= time -> is_snapshot values ->
  exists c', frc_extend c time values s = Ok c' /\ frc_inv c' (snaps ++ [(time, values)]) time values /\
    c_chain c' = c_chain c ++ [mkItem time values] /\
    extend_with_slope (c_acc c) time s = Ok (c_acc c') /\
    (forall i, dhas (c_fns c') i = (dhas (c_fns c) i || dhas values i)%bool) /\
    fns_step (c_fns c) (c_fns c') time v values.
Proof.
  intros I H SN. pose proof (fi_T0 _ _ _ _ I) as T0. destruct SN as [ND PO].
  unfold frc_extend. rewrite (new_item_ok time values PO). cbn [bind].
  destruct (c_chain c) as [|i0 r] eqn:EC; [exfalso; apply (fi_ne _ _ _ _ I); exact EC|].
  rewrite (chain_tail c snaps T v i0 r I EC). cbn [it_time it_vals].
  destruct (qlebP T (time + eps)) as [_|C]; [|exfalso; apply C; qlra]. cbn [assertb bind].
  destruct (fi_last _ _ _ _ I) as [l EL].
  assert (SV : is_snapshot v) by (apply (fi_snap _ _ _ _ I (T, v)); rewrite EL; apply in_or_app; right; left; reflexivity).
  destruct (ext_values_ok T time T0 H values (c_fns c) ND) as [f1 [E1 [O1 [H1 [G1 G2]]]]].
  { intros i _. apply fn_of_ok; [exact T0|apply (fi_fns _ _ _ _ I)]. }
  { intros i f E. eapply fn_ok_mono; [apply (fi_fns _ _ _ _ I i f E)|exact H]. }
  rewrite E1. cbn [bind].
  destruct (ext_zeros_ok T time values T0 H v f1 (proj1 SV)) as [f2 [E2 [O2 [H2 [G3 G4]]]]].
  { intros i Hi Hv. apply dhas_In in Hi. split.
    - rewrite H1, (fi_keys _ _ _ _ I (T, v) i); [reflexivity|rewrite EL; apply in_or_app; right; left; reflexivity|exact Hi].
    - unfold dhas in Hv. rewrite G2 by (destruct (dget values i); [discriminate|reflexivity]). apply fn_of_ok; [exact T0|apply (fi_fns _ _ _ _ I)]. }
  { exact O1. }
  rewrite E2. cbn [bind].
  destruct (acc_extend (c_acc c) T time s (fi_av _ _ _ _ I) (fi_ahi _ _ _ _ I) (fi_aT _ _ _ _ I) H) as [A' [EA [VA [LA [HA TA]]]]].
  rewrite EA. cbn [bind].
  assert (FS : fns_step (c_fns c) f2 time v values).
  { intro i. split; [|split].
    - intros x Ex. rewrite (G4 i); [apply G1; exact Ex|]. right. unfold dhas. rewrite Ex. reflexivity.
    - intros Hv Ht. rewrite <- (G3 i Ht Hv). unfold dhas in Hv. rewrite G2; [reflexivity|]. destruct (dget values i); [discriminate|reflexivity].
    - intros Hv Ht. rewrite (G4 i (or_introl Ht)). apply G2. unfold dhas in Hv. destruct (dget values i); [discriminate|reflexivity]. }
  eexists. split; [reflexivity|]. split; [|split; [reflexivity|split; [reflexivity|split; [|exact FS]]]].
  2:{ cbn [c_fns]. intro i. rewrite H2. apply H1. }
  constructor; cbn [c_fns c_chain c_acc].
  - exists snaps. reflexivity.
  - destruct (fi_chain _ _ _ _ I) as [pre EP]. exists pre. rewrite map_app, app_assoc, <- EC. rewrite <- EP. reflexivity.
  - destruct r; discriminate.
  - rewrite map_app. apply nondec_app. split; [apply (fi_sorted _ _ _ _ I)|]. cbn [map fst]. intros a Ha. apply in_map_iff in Ha. destruct Ha as [p [<- Hp]].
    pose proof (fi_le _ _ _ _ p I Hp). qlra.
  - intros p Hp. apply in_app_or in Hp. destruct Hp as [Hp|[<-|[]]]; [apply (fi_zero _ _ _ _ I p Hp)|cbn [fst]; qlra].
  - intros p Hp. apply in_app_or in Hp. destruct Hp as [Hp|[<-|[]]]; [apply (fi_snap _ _ _ _ I p Hp)|split; assumption].
  - exact O2.
  - intros p i Hp Hi. rewrite H2, H1. apply in_app_or in Hp. destruct Hp as [Hp|[<-|[]]].
    + rewrite (fi_keys _ _ _ _ I p i Hp Hi). reflexivity.
    + cbn [snd] in Hi. rewrite Hi. apply orb_true_r.
  - intros i t Ht HS. pose proof (fn_of_ok (c_fns c) T i T0 (fi_fns _ _ _ _ I)) as FO.
    unfold latest_rates. rewrite latest_app. cbn [fst].
    assert (Old : forall p, In p snaps -> fst p <= t \/ t + eps < fst p) by (intros p Hp; apply HS, in_or_app; auto).
    destruct (FS i) as [S1 [S2 S3]].
    destruct (HS (time, values)) as [C|C]; [apply in_or_app; right; left; reflexivity| |]; cbn [fst] in C.
    + destruct (qlebP time t) as [_|N]; [|contradiction]. cbn [snd]. unfold rate. destruct (dget values i) as [x|] eqn:Ex.
      * destruct (fn_extend _ T time x FO H) as [f' [E' [_ [P _]]]]. rewrite (S1 x eq_refl) in E'. apply ok_inj in E'. rewrite E'. apply P. exact C.
      * assert (Hv : dhas values i = false) by (unfold dhas; rewrite Ex; reflexivity). destruct (dhas v i) eqn:Hvi.
        -- destruct (fn_extend _ T time 0 FO H) as [f' [E' [_ [P _]]]]. rewrite (S2 Hv eq_refl) in E'. apply ok_inj in E'. rewrite E'. apply P. exact C.
        -- rewrite (S3 Hv eq_refl). pose proof (fi_tol _ _ _ _ I i t Ht Old) as Q. unfold latest_rates in Q. rewrite EL, latest_last in Q by (cbn [fst]; qlra).
           cbn [snd] in Q. unfold rate in Q. unfold dhas in Hvi. destruct (dget v i); [discriminate|exact Q].
    + destruct (qlebP time t) as [N|_]; [exfalso; qlra|]. fold (latest_rates snaps t).
      assert (EQ : rc_at (fn_of f2 i) t = rc_at (fn_of (c_fns c) i) t).
      { destruct (dget values i) as [x|] eqn:Ex.
        - destruct (fn_extend _ T time x FO H) as [f' [E' [_ [_ P]]]]. rewrite (S1 x eq_refl) in E'. apply ok_inj in E'. rewrite E'. apply P; assumption.
        - assert (Hv : dhas values i = false) by (unfold dhas; rewrite Ex; reflexivity). destruct (dhas v i) eqn:Hvi.
          + destruct (fn_extend _ T time 0 FO H) as [f' [E' [_ [_ P]]]]. rewrite (S2 Hv eq_refl) in E'. apply ok_inj in E'. rewrite E'. apply P; assumption.
          + rewrite (S3 Hv eq_refl). reflexivity. }
      rewrite EQ. apply (fi_tol _ _ _ _ I i t Ht Old).
  - exact VA.
  - rewrite LA. apply (fi_alo _ _ _ _ I).
  - exact HA.
  - intros t It. destruct (TA t It) as [Q|Q]; [pose proof (fi_aT _ _ _ _ I t Q); qlra|qlra].
Qed.

(** ** get_values_at_time *)
Lemma advance_ok : forall r h time, it_time h <= time ->
  nondecreasing (map fst (map pair_of (h :: r))) ->
  exists h' r' pre, advance_head h r time = h' :: r' /\ h :: r = pre ++ h' :: r' /\
    latest (map pair_of (h :: r)) time = Some (pair_of h').
Proof.
  induction r as [|n r IH]; intros h time Hh S; cbn [advance_head].
  - exists h, [], []. split; [reflexivity|]. split; [reflexivity|]. cbn [map latest pair_of fst]. destruct (qlebP (it_time h) time); [reflexivity|contradiction].
  - destruct (qlebP (it_time n) time) as [C|C].
    + cbn [map] in S. inversion S as [|? ? S1 S2]; subst. destruct (IH n time C S1) as [h' [r' [pre [E1 [E2 E3]]]]].
      exists h', r', (h :: pre). split; [exact E1|]. split; [rewrite E2; reflexivity|].
      change (map pair_of (h :: n :: r)) with ([pair_of h] ++ map pair_of (n :: r)). apply latest_suffix. exact E3.
    + exists h, (n :: r), []. split; [reflexivity|]. split; [reflexivity|].
      assert (N : latest (map pair_of (n :: r)) time = None).
      { destruct (latest (map pair_of (n :: r)) time) as [p|] eqn:Q; [|reflexivity]. exfalso. apply latest_some in Q. destruct Q as [Q1 Q2].
        cbn [map] in S. inversion S as [|? ? S1 S2]; subst. inversion S1 as [|? ? S3 S4]; subst.
        destruct Q1 as [<-|Q1]; [cbn [fst pair_of] in Q2; contradiction|]. rewrite Forall_forall in S4.
        specialize (S4 (fst p) (in_map fst _ _ Q1)). cbn [fst pair_of] in S4. qlra. }
      change (map pair_of (h :: n :: r)) with (pair_of h :: map pair_of (n :: r)). cbn [latest]. rewrite N. cbn [fst pair_of].
      destruct (qlebP (it_time h) time); [reflexivity|contradiction].
Qed.

(** [floor]: the time of the head. *)
Definition head_time (c : FRC) : Qc := match c_chain c with h :: _ => it_time h | [] => 0 end.

Lemma frc_get_ok c snaps T v time : frc_inv c snaps T v ->
  (time < head_time c -> frc_get c time = Err ValueError) /\
  (head_time c <= time -> exists c' p, frc_get c time = Ok (c', snd p) /\ latest snaps time = Some p /\
     frc_inv c' snaps T v /\ head_time c' = fst p /\ c_fns c' = c_fns c /\ c_acc c' = c_acc c).
Proof.
  intro I. unfold frc_get, head_time. destruct (c_chain c) as [|h r] eqn:EC; [exfalso; apply (fi_ne _ _ _ _ I); exact EC|].
  split; intro Hh.
  - destruct (qltbP time (it_time h)); [reflexivity|contradiction].
  - destruct (qltbP time (it_time h)) as [C|C]; [exfalso; qlra|].
    destruct (fi_chain _ _ _ _ I) as [pre EP]. rewrite EC in EP.
    assert (S : nondecreasing (map fst (map pair_of (h :: r)))).
    { pose proof (fi_sorted _ _ _ _ I) as S. rewrite EP, map_app in S. apply nondec_suffix in S. exact S. }
    destruct (advance_ok r h time Hh S) as [h' [r' [pre' [E1 [E2 E3]]]]].
    rewrite E1. eexists. exists (pair_of h'). split; [reflexivity|]. split; [rewrite EP; apply latest_suffix; exact E3|].
    split; [|split; [reflexivity|split; reflexivity]].
    destruct I. constructor; cbn [c_chain c_fns c_acc]; auto.
    + exists (pre ++ map pair_of pre'). rewrite <- app_assoc, <- map_app, <- E2. exact EP.
    + discriminate.
Qed.

(** ** Whole histories *)
Lemma frc_sim ops : forall c s T v, frc_inv c (fs_snaps s) T v -> head_time c = fs_floor s ->
  nondecreasing (T :: times_of (exts ops)) -> (forall t d x, In (t, d, x) (exts ops) -> is_snapshot d) ->
  snd (frc_run c ops) = snd (fs_run s ops) /\
  exists T' v', frc_inv (fst (frc_run c ops)) (fs_snaps (fst (fs_run s ops))) T' v' /\
     head_time (fst (frc_run c ops)) = fs_floor (fst (fs_run s ops)).
Proof.
  induction ops as [|o r IH]; intros c s T v I HT N SN; cbn [frc_run fs_run].
  - split; [reflexivity|]. exists T, v. auto.
  - destruct o as [t d x|t]; cbn [exts times_of map] in N, SN.
    + inversion N as [|? ? N1 N2]; subst. inversion N1 as [|? ? N3 N4]; subst. apply Forall_inv in N2. cbn [fst] in N2.
      assert (SD : is_snapshot d) by (eapply SN; left; reflexivity).
      destruct (frc_extend_ok c (fs_snaps s) T v t d x I N2 SD) as [c' [E [I' [EC _]]]].
      cbn [frc_step fs_step]. rewrite E.
      assert (HT' : head_time c' = fs_floor s).
      { unfold head_time in *. rewrite EC. destruct (c_chain c) eqn:Q; [exfalso; apply (fi_ne _ _ _ _ I); exact Q|]. exact HT. }
      specialize (IH c' (mkFS (fs_snaps s ++ [(t, d)]) (fs_floor s)) t d I' HT' N1 ltac:(intros; eapply SN; right; eassumption)).
      destruct (frc_run c' r) as [c'' xs], (fs_run _ r) as [s'' ys]. cbn [fst snd] in *. destruct IH as [-> IH]. split; [reflexivity|exact IH].
    + cbn [frc_step fs_step]. destruct (frc_get_ok c (fs_snaps s) T v t I) as [G1 G2]. rewrite HT in G1, G2.
      destruct (qltbP t (fs_floor s)) as [C|C].
      * rewrite (G1 C). specialize (IH c s T v I HT N SN).
        destruct (frc_run c r) as [c'' xs], (fs_run s r) as [s'' ys]. cbn [fst snd] in *. destruct IH as [-> IH]. split; [reflexivity|exact IH].
      * destruct G2 as [c' [p [E [L [I' [H' _]]]]]]; [qlra|]. rewrite E, L. destruct p as [t0 w]. cbn [fst snd] in *.
        specialize (IH c' (mkFS (fs_snaps s) t0) T v I' H' N SN).
        destruct (frc_run c' r) as [c'' xs], (fs_run _ r) as [s'' ys]. cbn [fst snd] in *. destruct IH as [-> IH]. split; [reflexivity|exact IH].
Qed.
Lemma fs_run_snaps ops : forall s, (forall t, In (Get t) ops -> True) ->
  fs_snaps (fst (fs_run s ops)) = fs_snaps s ++ snaps_of (exts ops).
Proof.
  induction ops as [|o r IH]; intros s _; cbn [fs_run]; [cbn; rewrite app_nil_r; reflexivity|].
  destruct (fs_step s o) as [s' x] eqn:E. specialize (IH s' ltac:(auto)). destruct (fs_run s' r) as [s'' xs]. cbn [fst] in *. rewrite IH.
  destruct o as [t d y|t]; cbn [fs_step exts] in *.
  - injection E as <- _. cbn [fs_snaps snaps_of map fst]. rewrite <- app_assoc. reflexivity.
  - assert (fs_snaps s' = fs_snaps s); [|congruence].
    destruct (qltb t (fs_floor s)); [injection E as <- _; reflexivity|]. destruct (latest (fs_snaps s) t) as [[? ?]|]; injection E as <- _; reflexivity.
Qed.
