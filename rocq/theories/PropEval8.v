(** * C88: the commodities of evaluate_single_run (src/eval/evaluate.py:119-150) *)
From Verif Require Import Base Spec Arrays ArraysProofs PL PLProofs PLEval RC RCProofs RCOps FRC FRCProofs PQ PQSpec DynFlow Graph GraphSpec GraphProofs Dijkstra DijkstraProofs FlowBuilder FlowBuilderProofs Predictors PredictorsProofs Eval Dataset Eval2 PropEval2 PredictorsProofs2.

(** ** Lemmas *)
Lemma step_map (g : Qc -> Qc) ps : forall cur t, step (g cur) (map (fun p => (fst p, g (snd p))) ps) t = g (step cur ps t).
Proof. induction ps as [|[x v] ps IH]; intros cur t; cbn [step map fst snd]; [reflexivity|]. destruct (qleb x t); [apply IH|reflexivity]. Qed.
Lemma rc_at_map (g : Qc -> Qc) f t : rvalid f -> rc_at (mkRC (rc_times f) (map g (rc_values f)) (rc_lo f) (rc_hi f)) t = g (rc_at f t).
Proof.
  intros [L N _ _]. unfold rc_at. cbn [rc_times rc_values]. rewrite combine_map_r. destruct (rc_times f) as [|a l]; [congruence|]. destruct (rc_values f) as [|v w]; [discriminate L|].
  cbn [combine map]. rewrite <- step_map. reflexivity.
Qed.
Lemma demand_app cs cs' p s v t : demand (cs ++ cs') p s v t = demand cs p s v t + demand cs' p s v t.
Proof. apply (sumq_app _ cs cs'). Qed.
Lemma remove_split {A} (l : list A) i x : nth_error l i = Some x -> Permutation l (x :: remove_nth i l).
Proof.
  intro N. unfold remove_nth. destruct (nth_error_split _ _ N) as [l1 [l2 [E L]]]. subst l i. rewrite firstn_app, Nat.sub_diag, firstn_all. cbn [firstn]. rewrite app_nil_r.
  replace (skipn (Datatypes.S (length l1)) (l1 ++ x :: l2)) with l2; [apply Permutation_sym, Permutation_middle|].
  replace (Datatypes.S (length l1)) with (length (l1 ++ [x])) by (rewrite app_length; cbn; lia). replace (l1 ++ x :: l2) with ((l1 ++ [x]) ++ l2) by (rewrite <- app_assoc; reflexivity). rewrite skipn_app, skipn_all, Nat.sub_diag. reflexivity.
Qed.
Lemma demand_new src d snk types p s v t : NoDup types ->
  demand (map (fun i => mkCom [(src, d)] snk i) types) p s v t =
  if (existsb (Nat.eqb p) types && Nat.eqb snk s && Nat.eqb src v)%bool then match rc_eval d t with Ok y => y | Err _ => 0 end else 0.
Proof.
  intro ND. unfold demand. rewrite map_map. cbn [k_pred k_sink]. unfold source_rate. cbn [k_sources dget].
  induction types as [|a types IH]; cbn [map fold_right existsb]; [reflexivity|]. inversion ND as [|a' l' NI ND' E1]; subst. rewrite (IH ND').
  rewrite (Nat.eqb_sym p a). destruct (Nat.eqb_spec a p) as [->|NE]; cbn [orb andb].
  - assert (X : existsb (Nat.eqb p) types = false). { destruct (existsb (Nat.eqb p) types) eqn:X; [|reflexivity]. apply existsb_exists in X. destruct X as [y [I Y]]. apply Nat.eqb_eq in Y. subst. contradiction. }
    rewrite X. cbn [andb]. destruct (Nat.eqb snk s), (Nat.eqb src v); cbn [andb]; ring.
  - ring.
Qed.
Lemma qn_ne n : (0 < n)%nat -> qn n <> 0.
Proof. intros L Z. unfold qn in Z. assert (Q : (this (Q2Qc (inject_Z (Z.of_nat n))) == 0)%Q) by (rewrite Z; reflexivity). unfold Q2Qc in Q. cbn [this] in Q. rewrite Qred_correct in Q. unfold Qeq in Q. cbn in Q. lia. Qed.

(** ** Splitting *)
(** The focused commodity is replaced by one commodity per predictor, each with an
    equal share of its inflow; the demand of all other commodities is kept, and so is the sum over all predictors. *)
Theorem C88_split : forall nw focused c source inflow ih types ord lo hi,
  nth_error (w_com nw) focused = Some c -> k_sources c = [(source, inflow)] ->
  (forall c, In c (w_com nw) -> sources_ok lo hi c) -> (forall v, separated (source_times (w_com nw) v)) -> (forall l, Permutation (ord l) l) ->
  NoDup types -> types <> [] ->
  exists nw' idx share, eval_commodities nw focused true ih types ord = Ok (nw', idx) /\
    w_graph nw' = w_graph nw /\ w_cap nw' = w_cap nw /\ w_tau nw' = w_tau nw /\ length idx = length types /\
    (forall j i p, nth_error idx j = Some i -> nth_error types j = Some p -> nth_error (w_com nw') i = Some (mkCom [(source, share)] (k_sink c) p)) /\
    (forall t y, rc_eval inflow t = Ok y -> rc_eval share t = Ok (y / qn (length types))) /\
    (forall p s v t, ext_le lo (Fin t) -> ext_le (Fin t) hi ->
       demand (w_com nw') p s v t = demand (w_com nw) p s v t
         - (if (Nat.eqb (k_pred c) p && Nat.eqb (k_sink c) s)%bool then source_rate c v t else 0)
         + (if (existsb (Nat.eqb p) types && Nat.eqb (k_sink c) s)%bool then source_rate c v t / qn (length types) else 0)) /\
    (forall P s v t, ext_le lo (Fin t) -> ext_le (Fin t) hi -> NoDup P -> (forall p, In p types -> In p P) -> In (k_pred c) P ->
       sumq (fun p => demand (w_com nw') p s v t) P = sumq (fun p => demand (w_com nw) p s v t) P).
Proof.
  intros nw foc c src inf ih types ord lo hi NC SR SO SEP ORD ND NE. set (n := length types). assert (NP : (0 < n)%nat) by (unfold n; destruct types; [congruence|cbn; lia]).
  pose proof (qn_ne n NP) as NZ. pose proof (nth_error_In _ _ NC) as IC. destruct (SO c IC) as [_ SF]. rewrite SR in SF. destruct (SF src inf (or_introl eq_refl)) as [RV [RL RH]]. clear SF.
  set (share := mkRC (rc_times inf) (map (fun v => v / qn n) (rc_values inf)) (rc_lo inf) (rc_hi inf)).
  assert (SV : rvalid share). { destruct RV as [A B C D]. split; cbn [share rc_times rc_values]; auto. rewrite map_length. exact A. }
  pose proof (remove_split _ _ _ NC) as PM. set (rest := remove_nth foc (w_com nw)) in *.
  assert (SUB : forall x, In x rest -> In x (w_com nw)) by (intros x X; apply (Permutation_in _ (Permutation_sym PM)); right; exact X).
  destruct (C50_combine (mkNw (w_graph nw) (w_cap nw) (w_tau nw) rest) [] ord lo hi) as (nw' & mg & kp & E & G1 & G2 & G3 & G4 & _ & _ & _ & DM); cbn [w_graph w_cap w_tau w_com] in *.
  { intros x X. apply SO, SUB, X. }
  { intros v x y X Y. assert (Q : forall z, In z (source_times rest v) -> In z (source_times (w_com nw) v)).
    { intros z Z. unfold source_times in *. apply in_concat in Z. destruct Z as [l [L Z]]. apply in_map_iff in L. destruct L as [d [<- D]]. apply in_concat. eexists. split; [apply in_map_iff; exists d; split; [reflexivity|apply SUB, D]|exact Z]. }
    apply (SEP v); apply Q; assumption. }
  { constructor. } { intros i []. } { exact ORD. }
  set (new := map (fun i => mkCom [(src, share)] (k_sink c) i) types).
  assert (EV : eval_commodities nw foc true ih types ord = Ok (mkNw (w_graph nw') (w_cap nw') (w_tau nw') (w_com nw' ++ new), seq (length (w_com nw')) n)).
  { unfold eval_commodities. unfold fetch. rewrite NC. cbn [bind]. rewrite SR. rewrite (mapM_map _ (fun v => v / qn n)) by (intros v _; apply pydiv_ok, NZ). cbn [bind].
    pose proof (rc_init_ok share SV) as RI. cbn [share rc_times rc_values rc_lo rc_hi] in RI. rewrite RI. cbn [bind]. fold rest. rewrite E. reflexivity. }
  assert (SHR : forall t y, rc_eval inf t = Ok y -> rc_eval share t = Ok (y / qn n)).
  { intros t y Y. destruct (reval_inv inf RV t y Y) as [D ->]. rewrite (reval_at share SV t) by (destruct D; split; assumption). unfold share. rewrite (rc_at_map (fun v => v / qn n)) by exact RV. reflexivity. }
  assert (DEM : forall p s v t, ext_le lo (Fin t) -> ext_le (Fin t) hi ->
       demand (w_com nw' ++ new) p s v t = demand (w_com nw) p s v t
         - (if (Nat.eqb (k_pred c) p && Nat.eqb (k_sink c) s)%bool then source_rate c v t else 0)
         + (if (existsb (Nat.eqb p) types && Nat.eqb (k_sink c) s)%bool then source_rate c v t / qn n else 0)).
  { intros p s v t T1 T2. rewrite demand_app, DM by assumption. unfold new. rewrite demand_new by exact ND.
    replace (demand (w_com nw) p s v t) with ((if (Nat.eqb (k_pred c) p && Nat.eqb (k_sink c) s)%bool then source_rate c v t else 0) + demand rest p s v t) by (symmetry; exact (sumq_perm (fun c => if (Nat.eqb (k_pred c) p && Nat.eqb (k_sink c) s)%bool then source_rate c v t else 0) _ _ PM)).
    assert (Q : (if (existsb (Nat.eqb p) types && Nat.eqb (k_sink c) s && Nat.eqb src v)%bool then match rc_eval share t with Ok y => y | Err _ => 0 end else 0) =
                (if (existsb (Nat.eqb p) types && Nat.eqb (k_sink c) s)%bool then source_rate c v t / qn n else 0)).
    { destruct (existsb (Nat.eqb p) types && Nat.eqb (k_sink c) s)%bool; cbn [andb]; [|reflexivity]. unfold source_rate. rewrite SR. cbn [dget]. destruct (Nat.eqb_spec src v) as [->|X].
      - rewrite (SHR t (rc_at inf t)) by (apply reval_at; [exact RV|]; split; [rewrite RL|rewrite RH]; assumption). rewrite (reval_at inf RV t) by (split; [rewrite RL|rewrite RH]; assumption). reflexivity.
      - field. exact NZ. }
    rewrite Q. ring. }
  exists (mkNw (w_graph nw') (w_cap nw') (w_tau nw') (w_com nw' ++ new)), (seq (length (w_com nw')) n), share. cbn [w_graph w_cap w_tau w_com].
  split; [exact EV|]. split; [exact G1|]. split; [exact G2|]. split; [exact G3|]. split; [apply seq_length|]. split; [|split; [exact SHR|split; [exact DEM|]]].
  - intros j i p J T. assert (L : (j < n)%nat) by (unfold n; apply nth_error_Some; congruence). rewrite (nth_error_nth' _ 0%nat) in J by (rewrite seq_length; exact L). injection J as <-. rewrite seq_nth by exact L.
    rewrite nth_error_app2 by lia. replace (length (w_com nw') + j - length (w_com nw'))%nat with j by lia. unfold new. rewrite nth_error_map, T. reflexivity.
  - intros P s v t T1 T2 NDP INC IP. rewrite (sumq_ext _ (fun p => demand (w_com nw) p s v t - (if (Nat.eqb (k_pred c) p && Nat.eqb (k_sink c) s)%bool then source_rate c v t else 0)
         + (if (existsb (Nat.eqb p) types && Nat.eqb (k_sink c) s)%bool then source_rate c v t / qn n else 0))) by (intros p _; apply DEM; assumption).
    assert (SP : forall (a b d : nat -> Qc) l, sumq (fun p => a p - b p + d p) l = sumq a l - sumq b l + sumq d l) by (intros a b d l; induction l as [|x l IH]; [unfold sumq; cbn; ring|rewrite !sumq_cons, IH; ring]).
    rewrite SP. clear SP.
    assert (S1 : forall l x (r : Qc), NoDup l -> In x l -> sumq (fun p => if Nat.eqb x p then r else 0) l = r).
    { induction l as [|y l IH]; intros x r NN I; [destruct I|]. inversion NN as [|y' l' NI NN' EE]; subst. rewrite sumq_cons. destruct (Nat.eqb_spec x y) as [->|X].
      - rewrite sumq_zero; [ring|]. intros z Z. destruct (Nat.eqb_spec y z); [subst; contradiction|reflexivity].
      - destruct I as [->|I]; [congruence|]. rewrite (IH x r NN' I). ring. }
    assert (S2 : forall ty (r : Qc), NoDup ty -> (forall p, In p ty -> In p P) -> sumq (fun p => if existsb (Nat.eqb p) ty then r else 0) P = qn (length ty) * r).
    { induction ty as [|y ty IH]; intros r NT IT; [rewrite sumq_zero by reflexivity; cbn [length]; change (qn 0) with 0; ring|]. inversion NT as [|y' l' NI NT' EE]; subst.
      rewrite (sumq_ext _ (fun p => (if Nat.eqb y p then r else 0) + (if existsb (Nat.eqb p) ty then r else 0))).
      - assert (SA : forall (a b : nat -> Qc) l, sumq (fun p => a p + b p) l = sumq a l + sumq b l) by (intros a b l; induction l as [|x l IHl]; [unfold sumq; cbn; ring|rewrite !sumq_cons, IHl; ring]).
        rewrite SA, (S1 P y r NDP (IT y (or_introl eq_refl))), IH; auto; [|intros p Q; apply IT; right; exact Q]. cbn [length]. rewrite qn_S. ring.
      - intros p _. cbn [existsb]. rewrite (Nat.eqb_sym p y). destruct (Nat.eqb_spec y p) as [->|X]; cbn [orb]; [|ring].
        assert (Z : existsb (Nat.eqb p) ty = false). { destruct (existsb (Nat.eqb p) ty) eqn:Z; [|reflexivity]. apply existsb_exists in Z. destruct Z as [z [I Z]]. apply Nat.eqb_eq in Z. subst. contradiction. }
        rewrite Z. ring. }
    destruct (Nat.eqb (k_sink c) s).
    + rewrite (sumq_ext (fun p => if (Nat.eqb (k_pred c) p && true)%bool then source_rate c v t else 0) (fun p => if Nat.eqb (k_pred c) p then source_rate c v t else 0)) by (intros; rewrite andb_true_r; reflexivity).
      rewrite (sumq_ext (fun p => if (existsb (Nat.eqb p) types && true)%bool then source_rate c v t / qn n else 0) (fun p => if existsb (Nat.eqb p) types then source_rate c v t / qn n else 0)) by (intros; rewrite andb_true_r; reflexivity).
      rewrite (S1 P _ _ NDP IP), (S2 types _ ND INC). fold n. field. exact NZ.
    + rewrite (sumq_zero (fun p => if (Nat.eqb (k_pred c) p && false)%bool then source_rate c v t else 0)) by (intros; rewrite andb_false_r; reflexivity).
      rewrite (sumq_zero (fun p => if (existsb (Nat.eqb p) types && false)%bool then source_rate c v t / qn n else 0)) by (intros; rewrite andb_false_r; reflexivity). ring.
Qed.
Print Assumptions C88_split.
(** ** Adding test commodities *)
Lemma fold_qmin l x : (forall y, In y (x :: l) -> fold_left qmin l x <= y) /\ In (fold_left qmin l x) (x :: l).
Proof.
  revert x. induction l as [|z l IH]; intro x; cbn [fold_left].
  - split; [intros y [<-|[]]; qlra|left; reflexivity].
  - destruct (IH (qmin x z)) as [A B]. split.
    + intros y I. pose proof (A _ (or_introl eq_refl)) as Q. destruct I as [<-|[<-|I]]; [qmm; qlra|qmm; qlra|apply A; right; exact I].
    + destruct B as [B|B]; [|right; right; exact B]. rewrite <- B. unfold qmin. destruct (qltb z x); [right; left|left]; reflexivity.
Qed.
(** Without splitting, the demand of all commodities is kept, and every predictor
    additionally gets the same constant inflow at the source until the inflow
    horizon: the larger of a 256th of the smallest capacity and a 16th of the
    focused commodity's initial inflow divided by the number of predictors. *)
Theorem C88_added : forall nw focused c source inflow ih types ord lo hi v0 vs,
  nth_error (w_com nw) focused = Some c -> k_sources c = [(source, inflow)] -> rc_values inflow = v0 :: vs ->
  (forall c, In c (w_com nw) -> sources_ok lo hi c) -> (forall v, separated (source_times (w_com nw) v)) -> (forall l, Permutation (ord l) l) ->
  NoDup types -> types <> [] -> w_cap nw <> [] -> 0 < ih ->
  exists nw' idx share cmin, eval_commodities nw focused false ih types ord = Ok (nw', idx) /\
    w_graph nw' = w_graph nw /\ w_cap nw' = w_cap nw /\ w_tau nw' = w_tau nw /\ length idx = length types /\
    (forall j i p, nth_error idx j = Some i -> nth_error types j = Some p -> nth_error (w_com nw') i = Some (mkCom [(source, share)] (k_sink c) p)) /\
    In cmin (w_cap nw) /\ (forall x, In x (w_cap nw) -> cmin <= x) /\
    (forall t, 0 <= t -> rc_eval share t = Ok (if qltb t ih then qmax (cmin / qz 256) (v0 / qz 16 / qn (length types)) else 0)) /\
    (forall p s v t, 0 <= t -> ext_le lo (Fin t) -> ext_le (Fin t) hi ->
       demand (w_com nw') p s v t = demand (w_com nw) p s v t
         + (if (existsb (Nat.eqb p) types && Nat.eqb (k_sink c) s && Nat.eqb source v && qltb t ih)%bool then qmax (cmin / qz 256) (v0 / qz 16 / qn (length types)) else 0)).
Proof.
  intros nw foc c src inf ih types ord lo hi v0 vs NC SR RVS SO SEP ORD ND NE CN IH. set (n := length types). assert (NP : (0 < n)%nat) by (unfold n; destruct types; [congruence|cbn; lia]).
  pose proof (qn_ne n NP) as NZ. destruct (w_cap nw) as [|k0 ks] eqn:EK; [congruence|]. set (cmin := fold_left qmin ks k0). destruct (fold_qmin ks k0) as [M1 M2]. fold cmin in M1, M2.
  set (x := qmax (cmin / qz 256) (v0 / qz 16 / qn n)). set (share := mkRC [0; ih] [x; 0] (Fin 0) PInf).
  assert (SV : rvalid share). { split; cbn [share rc_times rc_values]; [reflexivity|discriminate| |]. - repeat constructor; exact IH. - intros t [<-|[<-|[]]]; split; cbn; auto; qlra. }
  destruct (C50_combine (mkNw (w_graph nw) (w_cap nw) (w_tau nw) (w_com nw)) [] ord lo hi) as (nw' & mg & kp & E & G1 & G2 & G3 & G4 & _ & _ & _ & DM); cbn [w_graph w_cap w_tau w_com] in *; auto; [constructor|intros i []|].
  set (new := map (fun i => mkCom [(src, share)] (k_sink c) i) types).
  assert (EV : eval_commodities nw foc false ih types ord = Ok (mkNw (w_graph nw') (w_cap nw') (w_tau nw') (w_com nw' ++ new), seq (length (w_com nw')) n)).
  { unfold eval_commodities. unfold fetch at 1. rewrite NC. cbn [bind]. rewrite SR. rewrite EK in *. cbn [list_minq bind]. fold cmin. rewrite pydiv_ok by discriminate. cbn [bind]. rewrite RVS. unfold fetch. cbn [nth_error bind]. rewrite pydiv_ok by discriminate. cbn [bind]. fold n. rewrite pydiv_ok by exact NZ. cbn [bind]. fold x.
    pose proof (rc_init_ok share SV) as RI. cbn [share rc_times rc_values rc_lo rc_hi] in RI. rewrite RI. cbn [bind]. rewrite E. reflexivity. }
  assert (SHR : forall t, 0 <= t -> rc_eval share t = Ok (if qltb t ih then x else 0)).
  { intros t T. rewrite (reval_at share SV t) by (split; [exact T|exact Logic.I]). unfold rc_at, share. cbn [rc_times rc_values hd combine step]. destruct (qlebP 0 t) as [_|Z]; [|contradiction]. destruct (qlebP ih t) as [C|C], (qltbP t ih) as [D|D]; try reflexivity; exfalso; qlra. }
  exists (mkNw (w_graph nw') (w_cap nw') (w_tau nw') (w_com nw' ++ new)), (seq (length (w_com nw')) n), share, cmin. cbn [w_graph w_cap w_tau w_com].
  split; [exact EV|]. split; [exact G1|]. split; [rewrite G2, EK; reflexivity|]. split; [exact G3|]. split; [apply seq_length|]. split; [|split; [exact M2|split; [exact M1|split; [exact SHR|]]]].
  - intros j i p J T. assert (L : (j < n)%nat) by (unfold n; apply nth_error_Some; congruence). rewrite (nth_error_nth' _ 0%nat) in J by (rewrite seq_length; exact L). injection J as <-. rewrite seq_nth by exact L.
    rewrite nth_error_app2 by lia. replace (length (w_com nw') + j - length (w_com nw'))%nat with j by lia. unfold new. rewrite nth_error_map, T. reflexivity.
  - intros p s v t T0 T1 T2. rewrite demand_app, DM by assumption. f_equal. unfold new. rewrite demand_new by exact ND. rewrite SHR by exact T0. fold n. fold x.
    destruct (existsb (Nat.eqb p) types), (Nat.eqb (k_sink c) s), (Nat.eqb src v), (qltb t ih); reflexivity.
Qed.
Print Assumptions C88_added.

(** Any other number of sources is rejected. *)
Theorem C88_single_source : forall nw focused c split ih types ord, nth_error (w_com nw) focused = Some c -> length (k_sources c) <> 1%nat ->
  eval_commodities nw focused split ih types ord = Err ValueError.
Proof.
  intros nw foc c sp ih types ord NC L. unfold eval_commodities, fetch. rewrite NC. cbn [bind]. destruct (k_sources c) as [|[s f] [|]]; [reflexivity|cbn in L; congruence|reflexivity].
Qed.
Print Assumptions C88_single_source.
(** Non-vacuity: the network of C50 with two edges; its second commodity has a
    single source and is split between three predictors. *)
Definition ev_net : network := mkNw g_empty [qz 3; 1] [1; 1] (w_com cb_net).
Definition ev_check : bool :=
  match eval_commodities ev_net 1 true 1 [4; 0; 7]%nat (@rev nat), eval_commodities ev_net 1 false 1 [4; 0; 7]%nat (@rev nat) with
  | Ok (a, ia), Ok (b, ib) => (if list_eq_dec Nat.eq_dec (map k_pred (skipn (nth 0%nat ia 0%nat) (w_com a))) [4; 0; 7]%nat then true else false)
      && qeqb (demand (w_com a) 4 9 1 0) (qr 1 3) && qeqb (demand (w_com b) 4 9 1 0) (qr 1 48)
  | _, _ => false end%bool.
Example C88_example : ev_check = true /\ (exists c s f, nth_error (w_com ev_net) 1 = Some c /\ k_sources c = [(s, f)]) /\ w_cap ev_net <> [] /\
  (forall c, In c (w_com ev_net) -> sources_ok (Fin 0) PInf c) /\ (forall v, separated (source_times (w_com ev_net) v)) /\ NoDup [4; 0; 7]%nat /\ (forall l : list nat, Permutation (rev l) l).
Proof.
  split; [vm_compute; reflexivity|]. split; [do 3 eexists; split; reflexivity|]. split; [discriminate|]. destruct C50_example_hyps as [A [B [_ D]]]. split; [exact A|]. split; [exact B|]. split; [|exact D].
  repeat (constructor; [cbn; intuition congruence|]). constructor.
Qed.
