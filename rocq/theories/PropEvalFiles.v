(** * C125: the average computation time of an evaluation *)
From Coq Require Import Ascii String Permutation.
From Verif Require Import Base Spec Import Files Vis EvalFiles PropImport3 PropFiles.
Open Scope nat_scope.
Open Scope list_scope.

(** ** Specification *)
(** A directory in which only evaluations of this scenario were stored, possibly
    not all of them and possibly without their analysis: no name twice; every entry
    is the subdirectory for visualisations, the flow of one of the [n] runs, or the
    analysis of a run whose flow is there; an analysis shows the time it took to
    compute that flow. *)
Definition number_of (key : string) (j : json) (q : Qc) : Prop := exists l pre post, j = JObj l /\ l = pre ++ (key, JNum q) :: post /\ forall v, ~ In (key, v) pre.
Definition of_run {F} (n : nat) (out : dir (ev_entry F)) (m : text) (e : ev_entry F) (i : nat) : Prop :=
  (m = ev_pickle n i /\ exists f s, e = EvFlow f s) \/
  (m = ev_json n i /\ exists j f s, e = EvJson j /\ number_of "computation_time" j s /\ find_file out (ev_pickle n i) = Some (EvFlow f s)).
Definition evaluations {F} (n : nat) (out : dir (ev_entry F)) : Prop :=
  NoDup (names out) /\
  forall m e, find_file out m = Some e -> (m = t "visualization" /\ e = EvDir) \/ exists i, i < n /\ of_run n out m e i.

(** ** Names *)
Lemma stem_inj n i j : i < n -> j < n -> ev_stem n i = ev_stem n j -> i = j.
Proof. exact (numbered_inj n i j). Qed.
Lemma stem_digit n i x : In x (ev_stem n i) -> 48 <= nat_of_ascii x < 58.
Proof.
  unfold ev_stem. intro I. apply in_map_iff in I. destruct I as (d & <- & D). apply id_digits in D.
  rewrite code_of_digit by exact D. lia.
Qed.
Lemma app_suffix_cut (a b : text) x y : a ++ x = b ++ y -> length x = length y -> a = b /\ x = y.
Proof.
  intros E L. assert (length a = length b) as LA. { apply (f_equal (@length ascii)) in E. rewrite !app_length in E. lia. }
  revert b E LA. induction a as [|p a IH]; intros [|q b] E LA; cbn in *; try discriminate LA; [auto|]. injection E as -> E. injection LA as LA. destruct (IH b E LA) as [-> ->]. auto.
Qed.
Lemma last_char (a b : text) x y : a ++ [x] = b ++ [y] -> x = y.
Proof. intro E. apply app_inj_tail in E. apply E. Qed.
Lemma json_inj n i j : i < n -> j < n -> ev_json n i = ev_json n j -> i = j.
Proof. intros I J E. apply app_suffix_cut in E; [|reflexivity]. apply (stem_inj n); [exact I|exact J|apply E]. Qed.
Lemma pickle_inj n i j : i < n -> j < n -> ev_pickle n i = ev_pickle n j -> i = j.
Proof. intros I J E. apply app_suffix_cut in E; [|reflexivity]. apply (stem_inj n); [exact I|exact J|apply E]. Qed.
Lemma json_pickle n i j : ev_json n i <> ev_pickle n j.
Proof.
  unfold ev_json, ev_pickle. intro E. change (t ".json") with (t ".jso" ++ ["n"%char]) in E. change (t ".pickle") with (t ".pickl" ++ ["e"%char]) in E.
  rewrite !app_assoc in E. apply last_char in E. discriminate E.
Qed.
Lemma dot_first n i s : is_lock (ev_stem n i ++ "."%char :: s) -> ev_stem n i = [].
Proof.
  intros [x X]. destruct (ev_stem n i) as [|c l] eqn:S; [reflexivity|]. exfalso. cbn in X. injection X as -> _.
  pose proof (stem_digit n i "."%char) as D. rewrite S in D. specialize (D (or_introl eq_refl)). cbn in D. lia.
Qed.
Lemma pickle_no_lock n i : ~ is_lock (ev_pickle n i).
Proof.
  intro L. pose proof (dot_first n i (t "pickle") L) as S. unfold ev_pickle in L. rewrite S in L. destruct L as [x X]. cbn in X. discriminate X.
Qed.
Lemma json_no_lock n i : ~ is_lock (ev_json n i).
Proof.
  intro L. pose proof (dot_first n i (t "json") L) as S. unfold ev_json in L. rewrite S in L. destruct L as [x X]. cbn in X. discriminate X.
Qed.
Lemma pickle_not_json n i : ends_with (t ".json") (ev_pickle n i) = false.
Proof.
  apply not_true_iff_false. intro E. apply suffix_iff in E. destruct E as [r E]. unfold ev_pickle in E. change (t ".json") with (t ".jso" ++ ["n"%char]) in E. change (t ".pickle") with (t ".pickl" ++ ["e"%char]) in E.
  rewrite !app_assoc in E. apply last_char in E. discriminate E.
Qed.
Lemma json_json n i : ends_with (t ".json") (ev_json n i) = true.
Proof. apply suffix_iff. exists (ev_stem n i). reflexivity. Qed.
Lemma vis_not_stem n i s : t "visualization" <> ev_stem n i ++ "."%char :: s.
Proof.
  intro E. assert (In "."%char (t "visualization")) as I by (rewrite E; apply in_or_app; right; left; reflexivity).
  cbn in I. repeat destruct I as [I|I]; try discriminate I. destruct I.
Qed.
Lemma evals_no_lock {F} n (out : dir (ev_entry F)) : evaluations n out -> no_locks out.
Proof.
  intros [_ E] m I L. apply names_find in I. destruct (find_file out m) as [e|] eqn:FM; [|congruence].
  destruct (E m e FM) as [[-> _]|(i & _ & [[-> _]|[-> _]])].
  - destruct L as [x X]. cbn in X. discriminate X.
  - destruct (pickle_no_lock _ _ L).
  - destruct (json_no_lock _ _ L).
Qed.

(** ** The document of a run *)
Lemma encode_nums l : (fix go l := match l with [] => Ok [] | x :: r => y <- encode x ;; ys <- go r ;; Ok (y :: ys) end) (map VNum l) = Ok (map jnum l).
Proof. induction l as [|x l IH]; [reflexivity|]. cbn [map]. rewrite IH. reflexivity. Qed.
Lemma encode_save h i ts s ms ds : exists j, encode (save_dict h i ts s ms ds) = Ok j /\ number_of "computation_time" j s.
Proof.
  unfold save_dict. cbn [encode num int key_text].
  assert (M : forall l, map num l = map VNum (map Fin l)) by (intro l; rewrite map_map; reflexivity).
  rewrite !M, !encode_nums. cbn [bind].
  eexists. split; [reflexivity|].
  eexists. eexists [_; _; _]. eexists. split; [reflexivity|]. split; [reflexivity|].
  intros v [E|[E|[E|[]]]]; discriminate E.
Qed.
Lemma number_get key j q : number_of key j q -> get_number key j = Ok q.
Proof.
  intros (l & pre & post & -> & -> & N). cbn [get_number].
  assert (E : field key (pre ++ (key, JNum q) :: post) = Some (JNum q)).
  { induction pre as [|[k v] pre IH]; cbn [app field]; [rewrite String.eqb_refl; reflexivity|].
    destruct (String.eqb_spec k key) as [->|NE]; [destruct (N v); left; reflexivity|]. apply IH. intros w W. apply (N w). right. exact W. }
  rewrite E. reflexivity.
Qed.

(** ** One run *)
Section runs.
  Context {F : Type} (c : code F) (n : nat) (horizon : Qc) (vis : bool).
  (** Nothing raises in a run. *)
  Definition runs_work : Prop :=
    (forall i, i < n -> exists p, build c i = Ok p) /\ (forall i f, i < n -> exists a, analyse c i f = Ok a) /\ (forall i f, i < n -> draw c i f = Ok tt).
  (** Nothing but missing files is added; saved flows are kept; a new flow comes with the time its computation took. *)
  Definition grows (out out' : dir (ev_entry F)) : Prop :=
    (forall m, find_file out m <> None -> find_file out' m <> None) /\
    (forall i f s, find_file out (ev_pickle n i) = Some (EvFlow f s) -> find_file out' (ev_pickle n i) = Some (EvFlow f s)) /\
    (forall i f s, i < n -> find_file out (ev_pickle n i) = None -> find_file out' (ev_pickle n i) = Some (EvFlow f s) -> build c i = Ok (f, s)).
  Lemma grows_refl out : grows out out.
  Proof. split; [auto|]. split; [auto|]. intros i f s _ E E'. congruence. Qed.
  Lemma grows_trans a b d : evaluations n b -> grows a b -> grows b d -> grows a d.
  Proof.
    intros [_ EB] (A1 & A2 & A3) (B1 & B2 & B3). split; [auto|]. split; [auto|]. intros i f s I E E'.
    destruct (find_file b (ev_pickle n i)) as [e|] eqn:FB; [|apply B3; assumption].
    destruct (EB _ _ FB) as [[Q _]|(k & K & [[Q (f' & s' & ->)]|[Q _]])].
    - exfalso. exact (vis_not_stem n i (t "pickle") (eq_sym Q)).
    - pose proof (B2 _ _ _ FB) as FD. assert (Some (EvFlow f s) = Some (EvFlow f' s')) as EQ by congruence. injection EQ as -> ->. apply A3; assumption.
    - exfalso. exact (json_pickle _ _ _ (eq_sym Q)).
  Qed.

  Lemma locked_run_spec i st : runs_work -> i < n -> evaluations n (fst st) ->
    exists st', locked_run c n horizon vis i st = (Completed, st') /\ evaluations n (fst st') /\ grows (fst st) (fst st') /\
      find_file (fst st') (ev_pickle n i) <> None /\ find_file (fst st') (ev_json n i) <> None /\ (vis = true -> find_file (snd st') (ev_vis n i) <> None) /\
      (forall m, find_file (snd st) m <> None -> find_file (snd st') m <> None).
  Proof.
    destruct st as [out v]. cbn [fst snd]. intros (WB & WA & WD) I E. unfold locked_run. cbn [fst snd].
    pose proof (evals_no_lock n out E) as NL. pose proof (lock_none out (ev_pickle n i) NL) as LN.
    rewrite (proj2 (has_none out _) LN).
    destruct (has out (ev_pickle n i) && has out (ev_json n i) && (negb vis || has v (ev_vis n i)))%bool eqn:B.
    { apply andb_true_iff in B. destruct B as [B B3]. apply andb_true_iff in B. destruct B as [B1 B2]. apply has_find in B1. apply has_find in B2.
      exists (out, v). split; [reflexivity|]. split; [exact E|]. split; [apply grows_refl|]. split; [exact B1|]. split; [exact B2|]. split; [|auto].
      intro V. rewrite V in B3. cbn [negb orb] in B3. apply has_find in B3. exact B3. }
    clear B. set (lock := lock_prefix ++ ev_pickle n i) in *.
    assert (LP : forall k, ev_pickle n k <> lock). { intros k Q. apply (pickle_no_lock n k). rewrite Q. eexists. reflexivity. }
    assert (LJ : forall k, ev_json n k <> lock). { intros k Q. apply (json_no_lock n k). rewrite Q. eexists. reflexivity. }
    assert (LV : t "visualization" <> lock) by (intro Q; cbn in Q; discriminate Q).
    destruct E as [ND E].
    assert (G : exists f s out2, get_flow c n i (put_file out lock EvLock) = (inl (f, s), out2) /\ NoDup (names out2) /\
                (forall m, find_file out2 m = if text_eqb m (ev_pickle n i) then Some (EvFlow f s) else if text_eqb m lock then Some EvLock else find_file out m) /\
                (forall f' s', find_file out (ev_pickle n i) = Some (EvFlow f' s') -> f = f' /\ s = s') /\
                (find_file out (ev_pickle n i) = None -> build c i = Ok (f, s))).
    { unfold get_flow. rewrite find_put. destruct (text_eqbP (ev_pickle n i) lock) as [Q|_]; [destruct (LP i Q)|].
      destruct (find_file out (ev_pickle n i)) as [e|] eqn:FP.
      - destruct (E _ _ FP) as [[Q _]|(k & K & [[Q (f & s & ->)]|[Q _]])]; [exfalso; exact (vis_not_stem n i (t "pickle") (eq_sym Q))| |exfalso; exact (json_pickle _ _ _ (eq_sym Q))].
        exists f, s, (put_file out lock EvLock). split; [reflexivity|]. split; [apply nodup_put, ND|]. split; [|split; [intros f' s' Q'; injection Q' as -> ->; auto|discriminate]].
        intro m. rewrite find_put. destruct (text_eqbP m (ev_pickle n i)) as [->|_]; [|reflexivity]. destruct (text_eqbP (ev_pickle n i) lock) as [Q'|_]; [destruct (LP i Q')|]. exact FP.
      - destruct (WB i I) as [[f s] B]. rewrite B. exists f, s, (put_file (put_file out lock EvLock) (ev_pickle n i) (EvFlow f s)). split; [reflexivity|].
        split; [apply nodup_put, nodup_put, ND|]. split; [intro m; rewrite !find_put; reflexivity|]. split; [discriminate|reflexivity]. }
    destruct G as (f & s & out2 & G1 & ND2 & G2 & G3 & G4). unfold handle, single_run. cbn [fst snd]. rewrite G1.
    destruct (WA i f I) as [[[ts ms] ds] A]. rewrite A. cbn [bind fst snd]. destruct (encode_save horizon i ts s ms ds) as (j & EJ & NJ). rewrite EJ.
    set (out3 := put_file out2 (ev_json n i) (EvJson j)).
    assert (K : forall out4 v', NoDup (names out4) -> (forall m, find_file out4 m = if text_eqb m lock then None else if (vis && text_eqb m (t "visualization"))%bool then Some EvDir else find_file out3 m) ->
                (vis = true -> find_file v' (ev_vis n i) <> None) -> (forall m, find_file v m <> None -> find_file v' m <> None) ->
                exists st', (@pair ending (ev_state F) Completed (out4, v')) = (Completed, st') /\ evaluations n (fst st') /\ grows out (fst st') /\
                  find_file (fst st') (ev_pickle n i) <> None /\ find_file (fst st') (ev_json n i) <> None /\ (vis = true -> find_file (snd st') (ev_vis n i) <> None) /\
                  (forall m, find_file v m <> None -> find_file (snd st') m <> None)).
    { intros out4 v' ND4 F4 V4 V5. exists (out4, v'). cbn [fst snd]. split; [reflexivity|].
      assert (P4 : forall k, find_file out4 (ev_pickle n k) = if text_eqb (ev_pickle n k) (ev_pickle n i) then Some (EvFlow f s) else find_file out (ev_pickle n k)).
      { intro k. rewrite F4. destruct (text_eqbP (ev_pickle n k) lock) as [Q|_]; [destruct (LP k Q)|].
        destruct (text_eqbP (ev_pickle n k) (t "visualization")) as [Q|_]; [exfalso; exact (vis_not_stem n k (t "pickle") (eq_sym Q))|]. rewrite andb_false_r. unfold out3. rewrite find_put.
        destruct (text_eqbP (ev_pickle n k) (ev_json n i)) as [Q|_]; [exfalso; exact (json_pickle _ _ _ (eq_sym Q))|]. rewrite G2.
        destruct (text_eqb (ev_pickle n k) (ev_pickle n i)); [reflexivity|]. destruct (text_eqbP (ev_pickle n k) lock) as [Q|_]; [destruct (LP k Q)|]. reflexivity. }
      assert (J4 : find_file out4 (ev_json n i) = Some (EvJson j)).
      { rewrite F4. destruct (text_eqbP (ev_json n i) lock) as [Q|_]; [destruct (LJ i Q)|].
        destruct (text_eqbP (ev_json n i) (t "visualization")) as [Q|_]; [exfalso; exact (vis_not_stem n i (t "json") (eq_sym Q))|]. rewrite andb_false_r. unfold out3. rewrite find_put, eqb_refl_t. reflexivity. }
      assert (S4 : find_file out4 (ev_pickle n i) = Some (EvFlow f s)) by (rewrite P4, eqb_refl_t; reflexivity).
      assert (KP : forall k f' s', find_file out (ev_pickle n k) = Some (EvFlow f' s') -> find_file out4 (ev_pickle n k) = Some (EvFlow f' s')).
      { intros k f' s' Q. rewrite P4. destruct (text_eqbP (ev_pickle n k) (ev_pickle n i)) as [R|_]; [|exact Q]. rewrite R in Q. destruct (G3 _ _ Q) as [-> ->]. reflexivity. }
      split; [|split; [|split; [congruence|split; [congruence|split; [exact V4|exact V5]]]]].
      - split; [exact ND4|]. intros m e Q. rewrite F4 in Q. destruct (text_eqbP m lock) as [_|NLk]; [discriminate Q|].
        destruct (vis && text_eqb m (t "visualization"))%bool eqn:BV.
        { left. injection Q as <-. apply andb_true_iff in BV. destruct BV as [_ BV]. split; [|reflexivity]. destruct (text_eqbP m (t "visualization")); [assumption|discriminate BV]. }
        unfold out3 in Q. rewrite find_put in Q. destruct (text_eqbP m (ev_json n i)) as [->|NJm].
        { right. exists i. split; [exact I|]. right. split; [reflexivity|]. injection Q as <-. exists j, f, s. auto. }
        rewrite G2 in Q. destruct (text_eqbP m (ev_pickle n i)) as [->|NPm].
        { right. exists i. split; [exact I|]. left. split; [reflexivity|]. injection Q as <-. eauto. }
        destruct (text_eqbP m lock) as [->|_]; [congruence|].
        destruct (E m e Q) as [L|(k & Kn & [L|(L & j' & f' & s' & Q1 & Q2 & Q3)])]; [left; exact L|right; exists k; split; [exact Kn|left; exact L]|].
        right. exists k. split; [exact Kn|]. right. split; [exact L|]. exists j', f', s'. auto.
      - split; [|split; [exact KP|]].
        + intros m Q. rewrite F4. destruct (text_eqbP m lock) as [->|_]; [congruence|]. destruct (vis && _)%bool; [discriminate|]. unfold out3. rewrite find_put. destruct (text_eqb m (ev_json n i)); [discriminate|].
          rewrite G2. destruct (text_eqb m (ev_pickle n i)); [discriminate|]. destruct (text_eqb m lock); [discriminate|exact Q].
        + intros k f' s' Kn Q Q'. rewrite P4 in Q'. destruct (text_eqbP (ev_pickle n k) (ev_pickle n i)) as [R|_]; [|congruence].
          apply pickle_inj in R; [|exact Kn|exact I]. subst k. injection Q' as <- <-. apply G4, Q. }
    destruct vis eqn:V.
    - rewrite (WD i f I). cbn [fst snd]. apply K.
      + apply nodup_remove, nodup_put, nodup_put, ND2.
      + intro m. rewrite find_remove, find_put. reflexivity.
      + intros _. rewrite find_put, eqb_refl_t. discriminate.
      + intros m Q. rewrite find_put. destruct (text_eqb m (ev_vis n i)); [discriminate|exact Q].
    - cbn [fst snd]. apply K.
      + apply nodup_remove, nodup_put, ND2.
      + intro m. rewrite find_remove. reflexivity.
      + discriminate.
      + auto.
  Qed.

  Lemma all_runs_spec l : runs_work -> (forall i, In i l -> i < n) -> forall st, evaluations n (fst st) ->
    exists st', all_runs c n horizon vis l st = (Completed, st') /\ evaluations n (fst st') /\ grows (fst st) (fst st') /\
      (forall i, In i l -> find_file (fst st') (ev_pickle n i) <> None /\ find_file (fst st') (ev_json n i) <> None /\ (vis = true -> find_file (snd st') (ev_vis n i) <> None)) /\
      (forall m, find_file (snd st) m <> None -> find_file (snd st') m <> None).
  Proof.
    intros W. induction l as [|i l IH]; intros L st E; cbn [all_runs].
    - exists st. split; [reflexivity|]. split; [exact E|]. split; [apply grows_refl|]. split; [intros i []|auto].
    - destruct (locked_run_spec i st W (L i (or_introl eq_refl)) E) as (st1 & R & E1 & G1 & P1 & J1 & V1 & W1). rewrite R.
      destruct (IH (fun k K => L k (or_intror K)) st1 E1) as (st2 & R2 & E2 & G2 & D2 & W2). exists st2. split; [exact R2|]. split; [exact E2|].
      split; [exact (grows_trans _ _ _ E1 G1 G2)|]. split; [|auto].
      intros k [<-|K]; [|apply D2, K]. destruct G2 as (G2 & _ & _). split; [apply G2, P1|]. split; [apply G2, J1|]. intro V. apply W2, V1, V.
  Qed.
End runs.

(** ** The average *)
Lemma json_names {F} n (out : dir (ev_entry F)) keep : evaluations n out -> (forall i, i < n -> find_file out (ev_json n i) <> None) -> (forall i, i < n -> keep (ev_json n i) = true) ->
  Permutation (filter (fun m => ends_with (t ".json") m && keep m)%bool (names out)) (map (ev_json n) (seq 0 n)).
Proof.
  intros [ND E] C K. apply NoDup_Permutation; [apply NoDup_filter, ND| |].
  { apply map_nodup; [|apply seq_NoDup]. intros i j I J. apply in_seq in I. apply in_seq in J. apply json_inj; lia. }
  intro m. rewrite filter_In, in_map_iff. split.
  - intros [I J]. apply names_find in I. destruct (find_file out m) as [e|] eqn:Q; [|congruence]. apply andb_true_iff in J. destruct J as [J _].
    destruct (E m e Q) as [[-> _]|(i & I' & [[-> _]|[-> _]])]; [discriminate J|rewrite pickle_not_json in J; discriminate J|]. exists i. split; [reflexivity|apply in_seq; lia].
  - intros (i & <- & I). apply in_seq in I. split; [apply names_find, C; lia|]. rewrite json_json, K by lia. reflexivity.
Qed.
Definition shown {F} (out : dir (ev_entry F)) (m : text) : Qc := match find_file out m with Some (EvJson j) => match get_number "computation_time" j with Ok q => q | Err _ => 0%Qc end | _ => 0%Qc end.
Lemma json_entry {F} n (out : dir (ev_entry F)) i : i < n -> evaluations n out -> find_file out (ev_json n i) <> None ->
  exists j f s, find_file out (ev_json n i) = Some (EvJson j) /\ number_of "computation_time" j s /\ find_file out (ev_pickle n i) = Some (EvFlow f s).
Proof.
  intros I [_ E] C. destruct (find_file out (ev_json n i)) as [e|] eqn:Q; [|congruence].
  destruct (E _ _ Q) as [[R _]|(k & K & [[R _]|(R & j & f & s & -> & B & D)])]; [exfalso; exact (vis_not_stem n i (t "json") (eq_sym R))|exfalso; exact (json_pickle _ _ _ R)|].
  apply json_inj in R; [|exact I|exact K]. subst k. exists j, f, s. auto.
Qed.
Lemma read_all {F} (out : dir (ev_entry F)) l : (forall m, In m l -> exists j s, find_file out m = Some (EvJson j) /\ number_of "computation_time" j s) ->
  read_times "computation_time" out l = inl (map (shown out) l).
Proof.
  induction l as [|m l IH]; intro H; [reflexivity|]. cbn [read_times map]. destruct (H m (or_introl eq_refl)) as (j & s & Q & N). unfold shown at 1. rewrite Q. rewrite (number_get _ _ _ N).
  rewrite IH by (intros k K; apply H; right; exact K). reflexivity.
Qed.
Lemma sum_perm l l' : Permutation l l' -> fold_right Qcplus 0%Qc l = fold_right Qcplus 0%Qc l'.
Proof. induction 1; cbn [fold_right]; [reflexivity|congruence|ring|congruence]. Qed.
Lemma average_ok {F} n (out : dir (ev_entry F)) : 0 < n -> evaluations n out -> (forall i, i < n -> find_file out (ev_json n i) <> None) ->
  scenario_average out = inl (fold_right Qcplus 0%Qc (map (fun i => shown out (ev_json n i)) (seq 0 n)) / qn n)%Qc.
Proof.
  intros P E C. pose proof (json_names n out (fun _ => true) E C (fun _ _ => eq_refl)) as PM. unfold scenario_average, average_time.
  rewrite read_all.
  2:{ intros m M. apply (Permutation_in _ PM) in M. apply in_map_iff in M. destruct M as (i & <- & I). apply in_seq in I. destruct (json_entry n out i) as (j & f & s & A & B & _); [lia|exact E|apply C; lia|]. eauto. }
  rewrite (sum_perm _ _ (Permutation_map (shown out) PM)), map_map, map_length, (Permutation_length PM), map_length, seq_length.
  rewrite pydiv_ok; [reflexivity|]. intro Z. pose proof (FlowBuilderProofs.qn_pos n P) as Q. rewrite Z in Q. exact (Qclt_not_eq _ _ Q eq_refl).
Qed.

(** ** C125 *)
(** Whatever was already stored by earlier (complete or interrupted) evaluations of the
    scenario: when nothing raises, the evaluation completes, flows already computed are
    kept, and what the scenario prints is the mean, over the [n] runs, of the times their
    flows took to compute. *)
Theorem C125_average : forall F (c : code F) n horizon vis out v, 0 < n -> evaluations n out -> runs_work c n ->
  exists out' v' (s : nat -> Qc), eval_demand c n horizon vis (out, v) = (Completed, (out', v')) /\ evaluations n out' /\
    (forall i, i < n -> exists f, find_file out' (ev_pickle n i) = Some (EvFlow f (s i)) /\ find_file out' (ev_json n i) <> None /\
        (find_file out (ev_pickle n i) = Some (EvFlow f (s i)) \/ find_file out (ev_pickle n i) = None /\ build c i = Ok (f, s i)) /\
        (vis = true -> find_file v' (ev_vis n i) <> None)) /\
    scenario_average out' = inl (fold_right Qcplus 0%Qc (map s (seq 0 n)) / qn n)%Qc.
Proof.
  intros F c n horizon vis out v P E W.
  destruct (all_runs_spec c n horizon vis (seq 0 n) W) with (st := (out, v)) as ([out' v'] & R & E' & G & D & _); [intros i I; apply in_seq in I; lia|exact E|]. cbn [fst snd] in *.
  exists out', v', (fun i => shown out' (ev_json n i)). unfold eval_demand. rewrite R. cbn [fst].
  rewrite (waits_none out' (evals_no_lock n out' E')). split; [reflexivity|]. split; [exact E'|].
  assert (C : forall i, i < n -> find_file out' (ev_json n i) <> None) by (intros i I; apply D, in_seq; lia).
  split; [|apply average_ok; assumption].
  intros i I. destruct (json_entry n out' i I E' (C i I)) as (j & f & s & A & B & Q).
  assert (SH : shown out' (ev_json n i) = s) by (unfold shown; rewrite A, (number_get _ _ _ B); reflexivity). rewrite SH. exists f.
  split; [exact Q|]. split; [exact (C i I)|]. split; [|apply D, in_seq; lia].
  destruct G as (_ & G2 & G3). destruct (find_file out (ev_pickle n i)) as [e|] eqn:FP; [|right; split; [reflexivity|apply (G3 i f s I FP Q)]].
  left. destruct E as [_ E]. destruct (E _ _ FP) as [[R' _]|(k & K & [[_ (f' & s' & ->)]|[R' _]])]; [exfalso; exact (vis_not_stem n i (t "pickle") (eq_sym R'))| |exfalso; exact (json_pickle _ _ _ (eq_sym R'))].
  pose proof (G2 _ _ _ FP) as Q'. congruence.
Qed.
Print Assumptions C125_average.

(** Evaluating again a scenario that was evaluated completely changes nothing. *)
Theorem C125_again : forall F (c : code F) n horizon vis out v, evaluations n out ->
  (forall i, i < n -> find_file out (ev_pickle n i) <> None /\ find_file out (ev_json n i) <> None /\ (vis = true -> find_file v (ev_vis n i) <> None)) ->
  eval_demand c n horizon vis (out, v) = (Completed, (out, v)).
Proof.
  intros F c n horizon vis out v E D. unfold eval_demand.
  assert (R : forall l, (forall i, In i l -> i < n) -> all_runs c n horizon vis l (out, v) = (Completed, (out, v))).
  { induction l as [|i l IH]; intro L; [reflexivity|]. cbn [all_runs]. unfold locked_run. cbn [fst snd].
    rewrite (proj2 (has_none out _) (lock_none out (ev_pickle n i) (evals_no_lock n out E))). destruct (D i (L i (or_introl eq_refl))) as (P & J & V).
    rewrite (proj2 (has_find out _) P), (proj2 (has_find out _) J). cbn [andb].
    replace (negb vis || has v (ev_vis n i))%bool with true; [apply IH; intros k K; apply L; right; exact K|].
    symmetry. destruct vis; [|reflexivity]. cbn [negb orb]. apply has_find, V. reflexivity. }
  rewrite R; [cbn [fst]; rewrite (waits_none out (evals_no_lock n out E)); reflexivity|intros i I; apply in_seq in I; lia].
Qed.
Print Assumptions C125_again.

(** Without any run, the last lines of the scenario raise. *)
Theorem C125_no_runs : forall F (c : code F) horizon vis v, eval_demand c 0 horizon vis ([], v) = (Completed, ([], v)) /\ scenario_average (@nil (text * ev_entry F)) = inr (Python ZeroDivisionError).
Proof. intros. split; reflexivity. Qed.
Print Assumptions C125_no_runs.

(** The Tokyo script reads another key: whatever its evaluation has written, it ends
    with an exception instead of printing an average.  Specification of the written
    files: every ".json" file is a document that [evaluate_single_run] writes. *)
Theorem C125_tokyo_refuted : forall F (out : dir (ev_entry F)),
  (forall m e, find_file out m = Some e -> ends_with (t ".json") m = true -> is_prefix (t ".lock") m = false ->
     exists h i ts s ms ds j, encode (save_dict h i ts s ms ds) = Ok j /\ e = EvJson j) ->
  tokyo_average out = inr (Python KeyError) \/ tokyo_average out = inr (Python ZeroDivisionError).
Proof.
  intros F out H. unfold tokyo_average, average_time.
  destruct (filter (fun m => ends_with (t ".json") m && negb (is_prefix (t ".lock") m))%bool (names out)) as [|m l] eqn:L; [right; reflexivity|left].
  assert (I : In m (filter (fun m => ends_with (t ".json") m && negb (is_prefix (t ".lock") m))%bool (names out))) by (rewrite L; left; reflexivity).
  apply filter_In in I. destruct I as [I B]. apply andb_true_iff in B. destruct B as [B1 B2]. apply negb_true_iff in B2. apply names_find in I.
  destruct (find_file out m) as [e|] eqn:Q; [|congruence]. destruct (H m e Q B1 B2) as (h & i & ts & s & ms & ds & j & EN & ->).
  cbn [read_times]. rewrite Q.
  assert (K : get_number "comp_time" j = Err KeyError).
  { revert EN. unfold save_dict. cbn [encode num int key_text].
    assert (M : forall l, map num l = map VNum (map Fin l)) by (intro l0; rewrite map_map; reflexivity).
    rewrite !M, !encode_nums. cbn [bind]. intro EN. apply ok_inj in EN. subst j. reflexivity. }
  rewrite K. reflexivity.
Qed.
Print Assumptions C125_tokyo_refuted.

(** ** The hypotheses can be met *)
(** Three runs; the flow of run 1 is there from an interrupted evaluation (it took 7 seconds). *)
Definition ex_code : code nat := mkCode nat (fun i => Ok (i, qn (10 + i))) (fun i f => Ok ([1; qn i], [0], [PInf; Fin 1])%Qc) (fun _ _ => Ok tt).
Definition ex_dir : dir (ev_entry nat) := [(ev_pickle 3 1, EvFlow 1 (qn 7))].
Example C125_example_hyps : evaluations 3 ex_dir /\ runs_work ex_code 3.
Proof.
  split.
  - split; [repeat constructor; intros []|]. intros m e H. unfold ex_dir in H. cbn [find_file] in H. destruct (text_eqbP m (ev_pickle 3 1)) as [->|_]; [|discriminate H]. injection H as <-.
    right. exists 1. split; [lia|]. left. split; [reflexivity|eauto].
  - split; [|split]; intros; [eexists; reflexivity|eexists; reflexivity|reflexivity].
Qed.
Example C125_example_run : match eval_demand ex_code 3 1%Qc true (ex_dir, []) with
  | (Completed, (out, v)) => (length (names out) =? 7)%nat && (length v =? 3)%nat && match scenario_average out with inl q => qeqb q (qn 29 / qn 3)%Qc | inr _ => false end && match tokyo_average out with inr (Python KeyError) => true | _ => false end
  | _ => false end%bool = true.
Proof. vm_compute. reflexivity. Qed.
