(** * C90: reading the trips of a tntp file *)
From Coq Require Import Ascii.
From Verif Require Import Base Spec Arrays ArraysProofs PL PLProofs RC RCProofs FRC FRCProofs DynFlow Graph GraphSpec GraphProofs Dijkstra FlowBuilder PredictorsProofs2 Eval Eval2 Import PropImport.

(** ** The file format *)
Definition blank (s : text) : Prop := forall c, In c s -> In c [" "; ascii_of_nat 9; ascii_of_nat 13]%char.
(** [s] is the decimal representation of [n] between blanks (leading zeros allowed). *)
Definition decimal (s : text) (n : nat) : Prop :=
  exists l ds r, blank l /\ blank r /\ ds <> [] /\ (forall d, In d ds -> (d < 10)%nat) /\
    s = l ++ map (fun d => ascii_of_nat (48 + d)) ds ++ r /\ n = fold_left (fun a d => 10 * a + d)%nat ds 0%nat.
Definition separator (c : ascii) : Prop := c = ";"%char \/ c = ascii_of_nat 10.
(** Characters that have a meaning do not occur in numbers. *)
Definition plain (s : text) : Prop := forall c, In c s -> ~ separator c /\ c <> ":"%char /\ c <> "O"%char.
Section Format.
Variable py_float : text -> res Qc.
(** What stands between two separators: nothing, or [destination : demand]. *)
Inductive item : text -> list (nat * Qc) -> Prop :=
| item_blank s : blank s -> item s []
| item_entry a b d x : decimal a d -> plain b -> py_float b = Ok x -> item (a ++ ":"%char :: b) [(d, x)].
Inductive items : text -> list (nat * Qc) -> Prop :=
| items_one s l : item s l -> items s l
| items_more s l c t m : item s l -> separator c -> items t m -> items (s ++ c :: t) (l ++ m).
(** A file is a header followed by blocks "Origin" o separator items. *)
Inductive trips : text -> list (nat * nat * Qc) -> Prop :=
| trips_nil : trips [] []
| trips_block a o c s l t m : decimal a o -> separator c -> items s l -> trips t m ->
    trips (origin ++ a ++ c :: s ++ t) (map (fun e => (o, fst e, snd e)) l ++ m).
End Format.
Definition occurs (w s : text) : Prop := exists a b, s = a ++ w ++ b.

(** ** Characters *)
Lemma is_space_iff c : is_space c = true <-> In c [" "; ascii_of_nat 9; newline; ascii_of_nat 13]%char.
Proof. unfold is_space. rewrite existsb_exists. split; [intros [x [I E]]; apply Ascii.eqb_eq in E; subst; exact I|intro I; exists c; split; [exact I|apply Ascii.eqb_refl]]. Qed.
Lemma blank_space s : blank s -> forallb is_space s = true.
Proof. intro B. apply forallb_forall. intros c I. apply is_space_iff. apply B in I. cbn in *. tauto. Qed.
Lemma digit_of d : (d < 10)%nat -> digit (ascii_of_nat (48 + d)) = Some d /\ is_space (ascii_of_nat (48 + d)) = false /\ ~ separator (ascii_of_nat (48 + d)) /\ ascii_of_nat (48 + d) <> ":"%char /\ ascii_of_nat (48 + d) <> "O"%char.
Proof. intro L. do 10 (destruct d as [|d]; [repeat split; try reflexivity; try (intros [X|X]; discriminate X); discriminate|]). lia. Qed.
Lemma blank_plain s : blank s -> plain s.
Proof. intros B c I. apply B in I. cbn in I. destruct I as [<-|[<-|[<-|[]]]]; (split; [intros [X|X]; discriminate X|split; discriminate]). Qed.
Lemma decimal_plain s n : decimal s n -> plain s.
Proof.
  intros (l & ds & r & B1 & B2 & _ & D & -> & _) c I. rewrite !in_app_iff in I. destruct I as [I|[I|I]]; [apply (blank_plain l B1 c I)| |apply (blank_plain r B2 c I)].
  apply in_map_iff in I. destruct I as [d [<- I]]. apply digit_of, D, I.
Qed.
Lemma lstrip_space l s : forallb is_space l = true -> lstrip (l ++ s) = lstrip s.
Proof. induction l as [|c l IH]; cbn; [reflexivity|]. intro E. apply andb_true_iff in E. destruct E as [-> E]. apply IH, E. Qed.
Lemma strip_mid l m r x y : forallb is_space l = true -> forallb is_space r = true -> is_space x = false -> is_space y = false -> (exists z, m = x :: z) -> (exists z, m = z ++ [y]) -> strip (l ++ m ++ r) = m.
Proof.
  intros L R X Y [z Z] [z' Z']. unfold strip. rewrite lstrip_space by exact L. assert (E : lstrip (m ++ r) = m ++ r) by (rewrite Z; cbn [lstrip app]; rewrite X; reflexivity). rewrite E, rev_app_distr.
  rewrite lstrip_space; [|apply forallb_forall; intros c I; apply in_rev in I; apply (proj1 (forallb_forall _ _) R c I)].
  assert (E2 : lstrip (rev m) = rev m) by (rewrite Z', rev_app_distr; cbn [rev lstrip app]; rewrite Y; reflexivity). rewrite E2, rev_involutive. reflexivity.
Qed.
Lemma strip_blank s : forallb is_space s = true -> strip s = [].
Proof. intro B. unfold strip. rewrite <- (app_nil_r s), lstrip_space by exact B. reflexivity. Qed.
Lemma digits_value_ok ds : (forall d, In d ds -> (d < 10)%nat) -> forall acc, digits_value acc (map (fun d => ascii_of_nat (48 + d)) ds) = Ok (fold_left (fun a d => 10 * a + d)%nat ds acc).
Proof.
  induction ds as [|d ds IH]; intros D acc; [reflexivity|]. cbn [map digits_value fold_left]. rewrite (proj1 (digit_of d (D d (or_introl eq_refl)))). apply IH. intros e I. apply D. right. exact I.
Qed.
Lemma py_int_ok s n : decimal s n -> py_int s = Ok n.
Proof.
  intros (l & ds & r & B1 & B2 & NE & D & -> & ->). unfold py_int.
  destruct (exists_last NE) as [ds' [y EY]].
  rewrite (strip_mid l (map (fun d => ascii_of_nat (48 + d)) ds) r (ascii_of_nat (48 + hd 0%nat ds)) (ascii_of_nat (48 + y))).
  - destruct ds as [|d ds]; [congruence|]. cbn [map]. apply (digits_value_ok (d :: ds) D).
  - apply blank_space, B1.
  - apply blank_space, B2.
  - destruct ds as [|d ds]; [congruence|]. apply digit_of, D. left. reflexivity.
  - apply digit_of, D. rewrite EY. apply in_or_app. right. left. reflexivity.
  - destruct ds as [|d ds]; [congruence|]. eexists. reflexivity.
  - rewrite EY, map_app. eexists. reflexivity.
Qed.

(** ** Splitting *)
Lemma split_one c s t : ~ In c s -> forall cur, split_go [c] 0 cur (s ++ c :: t) = (rev cur ++ s) :: split_go [c] 0 [] t.
Proof.
  induction s as [|x s IH]; intros NI cur; cbn [split_go app is_prefix].
  - rewrite Ascii.eqb_refl. cbn. rewrite app_nil_r. reflexivity.
  - destruct (Ascii.eqb_spec c x) as [->|N]; [destruct NI; left; reflexivity|]. cbn [andb]. rewrite IH by (intro I; apply NI; right; exact I). cbn [rev]. rewrite <- app_assoc. reflexivity.
Qed.
Lemma split_none c s : ~ In c s -> forall cur, split_go [c] 0 cur s = [rev cur ++ s].
Proof.
  induction s as [|x s IH]; intros NI cur; cbn [split_go is_prefix].
  - rewrite app_nil_r. reflexivity.
  - destruct (Ascii.eqb_spec c x) as [->|N]; [destruct NI; left; reflexivity|]. cbn [andb]. rewrite IH by (intro I; apply NI; right; exact I). cbn [rev]. rewrite <- app_assoc. reflexivity.
Qed.
Lemma prefix_iff p s : is_prefix p s = true <-> exists b, s = p ++ b.
Proof.
  revert s. induction p as [|x p IH]; intro s; cbn [is_prefix]; [split; [intros _; exists s; reflexivity|reflexivity]|].
  destruct s as [|y s]; [split; [discriminate|intros [b E]; discriminate E]|]. rewrite andb_true_iff, IH, Ascii.eqb_eq. split.
  - intros [-> [b ->]]. exists b. reflexivity.
  - intros [b E]. injection E as -> ->. eauto.
Qed.
(** No occurrence of the word starts inside [h] when the word or nothing follows. *)
Lemma no_prefix h t : h <> [] -> ~ occurs origin h -> (t = [] \/ exists r, t = origin ++ r) -> is_prefix origin (h ++ t) = false.
Proof.
  intros NE NO T. destruct (is_prefix origin (h ++ t)) eqn:E; [|reflexivity]. exfalso. apply prefix_iff in E. destruct E as [b E].
  destruct T as [->|[r ->]]; [rewrite app_nil_r in E; apply NO; exists [], b; exact E|].
  destruct h as [|c1 h]; [congruence|]. injection E as E1 E.
  do 5 (destruct h as [|? h]; [discriminate E|]; injection E as ? E).
  subst. apply NO. exists [], h. reflexivity.
Qed.
Lemma split_word h t : (t = [] \/ exists r, t = origin ++ r) -> ~ occurs origin h -> forall cur, split_go origin 0 cur (h ++ t) = match t with [] => [rev cur ++ h] | _ => (rev cur ++ h) :: split_go origin 0 [] (skipn 6 t) end.
Proof.
  intros T. induction h as [|c h IH]; intros NO cur.
  - cbn [app]. rewrite app_nil_r. destruct T as [->|[r ->]]; reflexivity.
  - assert (NP : is_prefix origin ((c :: h) ++ t) = false) by (apply no_prefix; [discriminate|exact NO|exact T]).
    cbn [app] in *. cbn [split_go]. rewrite NP. rewrite IH by (intros [a [b E]]; apply NO; exists (c :: a), b; rewrite E; reflexivity). cbn [rev]. rewrite <- app_assoc. reflexivity.
Qed.
Lemma plain_word s : (forall c, In c s -> c <> "O"%char) -> ~ occurs origin s.
Proof. intros P [a [b E]]. apply (P "O"%char); [|reflexivity]. rewrite E. apply in_or_app. right. left. reflexivity. Qed.

(** ** Items, blocks, files *)
Section Parse.
Variable py_float : text -> res Qc.
Definition norm (c : ascii) : ascii := if Ascii.eqb c ";"%char then newline else c.
Lemma norm_sep c : separator c -> norm c = newline.
Proof. intros [->| ->]; reflexivity. Qed.
Lemma norm_nosep s : (forall c, In c s -> ~ separator c) -> map norm s = s /\ ~ In newline s.
Proof.
  intro N. split; [|intro I; apply (N _ I); right; reflexivity]. rewrite <- (map_id s) at 2. apply map_ext_in. intros c I. unfold norm. destruct (Ascii.eqb_spec c ";"%char) as [->|_]; [|reflexivity]. destruct (N _ I). left. reflexivity.
Qed.
Lemma item_nosep s l : item py_float s l -> forall c, In c s -> ~ separator c /\ c <> "O"%char.
Proof.
  intros H c I. destruct H as [s B|a b d x D P E]; [destruct (blank_plain s B c I) as (A & _ & O); auto|].
  apply in_app_iff in I. destruct I as [I|[<-|I]]; [destruct (decimal_plain a d D c I) as (A & _ & O); auto|split; [intros [X|X]; discriminate X|discriminate]|destruct (P c I) as (A & _ & O); auto].
Qed.
Lemma item_parse s l : item py_float s l -> trip_line py_float s = Ok l.
Proof.
  intros [t B|a b d x D P E]; unfold trip_line.
  - rewrite strip_blank by (apply blank_space, B). reflexivity.
  - assert (NZ : (length (strip (a ++ ":"%char :: b)) =? 0)%nat = false).
    { apply Nat.eqb_neq. unfold strip. rewrite rev_length. intro Z.
      assert (Q : forall s, In ":"%char s -> In ":"%char (lstrip s)).
      { intro s0. induction s0 as [|c r IH]; cbn [lstrip]; [intros []|]. intro HI; destruct HI as [E1|I]; [subst c; left; reflexivity|]. destruct (is_space c); [apply IH, I|right; exact I]. }
      assert (I : In ":"%char (lstrip (rev (lstrip (a ++ ":"%char :: b))))) by (apply Q; rewrite <- in_rev; apply Q, in_or_app; right; left; reflexivity).
      destruct (lstrip (rev (lstrip (a ++ ":"%char :: b)))); [destruct I|discriminate Z]. }
    rewrite NZ. unfold split. rewrite split_one by (intro I; destruct (decimal_plain a d D _ I) as (_ & X & _); apply X; reflexivity). rewrite split_none by (intro I; destruct (P _ I) as (_ & X & _); apply X; reflexivity).
    cbn [rev app]. rewrite (py_int_ok a d D). cbn [bind]. rewrite E. reflexivity.
Qed.
Lemma items_parse s l : items py_float s l -> exists ls, split [newline] (map norm s) = ls /\ exists es, mapM (trip_line py_float) ls = Ok es /\ concat es = l.
Proof.
  unfold split. induction 1 as [s l H|s l c t m H S H2 IH].
  - destruct (norm_nosep s (fun c I => proj1 (item_nosep s l H c I))) as [-> NI]. rewrite split_none by exact NI. eexists. split; [reflexivity|]. cbn [rev app mapM]. rewrite (item_parse s l H). cbn [bind]. eexists. split; [reflexivity|]. cbn. apply app_nil_r.
  - destruct (norm_nosep s (fun c I => proj1 (item_nosep s l H c I))) as [E NI]. rewrite map_app. cbn [map]. rewrite E, (norm_sep c S), split_one by exact NI. cbn [rev app]. destruct IH as (ls & -> & es & EM & <-).
    eexists. split; [reflexivity|]. cbn [mapM]. rewrite (item_parse s l H). cbn [bind]. rewrite EM. cbn [bind]. eexists. split; reflexivity.
Qed.
Lemma items_noO s l : items py_float s l -> forall c, In c s -> c <> "O"%char.
Proof.
  induction 1 as [s l H|s l c t m H S H2 IH]; intros x I; [apply (item_nosep s l H x I)|].
  apply in_app_iff in I. destruct I as [I|[<-|I]]; [apply (item_nosep s l H x I)|destruct S as [->| ->]; discriminate|apply IH, I].
Qed.
Lemma block_parse a o c s l : decimal a o -> separator c -> items py_float s l -> trip_block py_float (a ++ c :: s) = Ok (map (fun e => (o, fst e, snd e)) l).
Proof.
  intros D S H. unfold trip_block. fold norm. change (map (fun c => if Ascii.eqb c ";"%char then newline else c)) with (map norm).
  destruct (norm_nosep a (fun c I => proj1 (decimal_plain a o D c I))) as [E NI]. rewrite map_app. cbn [map]. rewrite E, (norm_sep c S). unfold split. rewrite split_one by exact NI. cbn [rev app hd tl].
  rewrite (py_int_ok a o D). cbn [bind]. destruct (items_parse s l H) as (ls & EL & es & EM & <-). unfold split in EL. rewrite EL, EM. reflexivity.
Qed.
Lemma trips_word t m : trips py_float t m -> t = [] \/ exists r, t = origin ++ r.
Proof. intros [|]; [left; reflexivity|right; eauto]. Qed.
Lemma trips_parse t m : trips py_float t m -> forall h, ~ occurs origin h -> exists bs es, split origin (h ++ t) = h :: bs /\ mapM (trip_block py_float) bs = Ok es /\ concat es = m.
Proof.
  unfold split. induction 1 as [|a o c s l t m D S H T IH]; intros h NO.
  - rewrite split_word by auto. exists [], []. repeat split; reflexivity.
  - rewrite split_word by eauto. cbn [origin app rev skipn].
    assert (NB : ~ occurs origin (a ++ c :: s)).
    { apply plain_word. intros x I. apply in_app_iff in I. destruct I as [I|[<-|I]]; [apply (decimal_plain a o D x I)|destruct S as [->| ->]; discriminate|apply (items_noO s l H x I)]. }
    destruct (IH _ NB) as (bs & es & E1 & E2 & <-). rewrite <- app_assoc in E1. cbn [app] in E1. fold origin. rewrite E1. eexists. eexists. split; [reflexivity|]. cbn [mapM]. rewrite (block_parse a o c s l D S H). cbn [bind]. rewrite E2. cbn [bind]. split; reflexivity.
Qed.
End Parse.

(** A well-formed file is read as the list of its entries, in order. *)
Theorem C90_parse : forall py_float header file m, ~ occurs origin header -> trips py_float file m -> od_pairs py_float (header ++ file) = Ok m.
Proof.
  intros pf h t m NO T. unfold od_pairs. destruct (trips_parse pf t m T h NO) as (bs & es & -> & E & <-). cbn [tl]. rewrite E. reflexivity.
Qed.
Print Assumptions C90_parse.

(** The commodity of an entry. *)
Definition commodity_for (constant : nat) (ih : ext) (e : nat * nat * Qc) (c : commodity) : Prop :=
  exists f, k_sources c = [(fst (fst e), f)] /\ inflow_until f (snd e) ih /\ k_sink c = snd (fst e) /\ k_pred c = constant.

Lemma add_ods constant ih : ext_lt (Fin 0) ih -> forall es nw,
  (forall e, In e es -> In (fst (fst e)) (node_ids (w_graph nw)) /\ In (snd (fst e)) (node_ids (w_graph nw))) ->
  exists new, foldM (fun nw p => add_od nw constant ih p) es nw = Ok (mkNw (w_graph nw) (w_cap nw) (w_tau nw) (w_com nw ++ new)) /\ Forall2 (commodity_for constant ih) es new.
Proof.
  intro P. induction es as [|[[o d] x] es IH]; intros nw N; cbn [foldM]; [exists []; rewrite app_nil_r; destruct nw; split; [reflexivity|constructor]|].
  destruct (N _ (or_introl eq_refl)) as [N1 N2]. cbn [fst snd] in N1, N2. destruct (C91_window x ih P) as [f [EF HF]].
  unfold add_od at 1. rewrite EF. cbn [bind]. unfold nw_add_commodity at 1. cbn [forallb fst]. rewrite (proj2 (dhas_In _ _) N1), (proj2 (dhas_In _ _) N2). cbn [andb assertb bind].
  destruct (IH (mkNw (w_graph nw) (w_cap nw) (w_tau nw) (w_com nw ++ [mkCom [(o, f)] d constant])) (fun e I => N e (or_intror I))) as [new [E H]].
  rewrite E. cbn [w_graph w_cap w_tau w_com]. exists (mkCom [(o, f)] d constant :: new). rewrite <- app_assoc. split; [reflexivity|]. constructor; [|exact H]. exists f. auto.
Qed.
Lemma add_ods_err constant ih : ext_lt (Fin 0) ih -> forall es nw,
  (exists e, In e es /\ ~ (In (fst (fst e)) (node_ids (w_graph nw)) /\ In (snd (fst e)) (node_ids (w_graph nw)))) ->
  foldM (fun nw p => add_od nw constant ih p) es nw = Err AssertionError.
Proof.
  intro P. induction es as [|[[o d] x] es IH]; intros nw [e [I N]]; [destruct I|]. cbn [foldM]. destruct (C91_window x ih P) as [f [EF HF]].
  unfold add_od at 1. rewrite EF. cbn [bind]. unfold nw_add_commodity at 1. cbn [forallb fst].
  destruct (dhas (g_nodes (w_graph nw)) o) eqn:D1; cbn [andb assertb bind]; [|reflexivity]. destruct (dhas (g_nodes (w_graph nw)) d) eqn:D2; cbn [assertb bind]; [|reflexivity].
  apply IH. cbn [w_graph]. destruct I as [<-|I]; [|eauto]. destruct N. split; [apply (proj1 (dhas_In _ _) D1)|apply (proj1 (dhas_In _ _) D2)].
Qed.
(** One commodity per entry, in the order of the file; the rest of the network is
    left alone.  If a node of some entry is missing nothing is returned. *)
Theorem C90_commodities : forall py_float nw header file m constant ih, ~ occurs origin header -> trips py_float file m -> ext_lt (Fin 0) ih ->
  let known := fun e : nat * nat * Qc => In (fst (fst e)) (node_ids (w_graph nw)) /\ In (snd (fst e)) (node_ids (w_graph nw)) in
  ((forall e, In e m -> known e) ->
     exists new, add_commodities py_float nw (header ++ file) constant ih = Ok (mkNw (w_graph nw) (w_cap nw) (w_tau nw) (w_com nw ++ new)) /\ Forall2 (commodity_for constant ih) m new) /\
  ((exists e, In e m /\ ~ known e) -> add_commodities py_float nw (header ++ file) constant ih = Err AssertionError).
Proof.
  intros pf nw h t m k ih NO T P known. unfold add_commodities. rewrite (C90_parse pf h t m NO T). cbn [bind]. split; [apply add_ods, P|apply add_ods_err, P].
Qed.
Print Assumptions C90_commodities.
(** The same for the od-pairs of the Sioux Falls spreadsheet. *)
Theorem C90_od_pairs : forall nw rows constant ih, ext_lt (Fin 0) ih ->
  (forall e, In e rows -> In (fst (fst e)) (node_ids (w_graph nw)) /\ In (snd (fst e)) (node_ids (w_graph nw))) ->
  exists new, add_od_pairs nw rows constant ih = Ok (mkNw (w_graph nw) (w_cap nw) (w_tau nw) (w_com nw ++ new)) /\ Forall2 (commodity_for constant ih) rows new.
Proof. intros nw rows k ih P N. apply add_ods; assumption. Qed.
Print Assumptions C90_od_pairs.
(** An entry with no colon or several colons is rejected. *)
Theorem C90_malformed : forall py_float header a o c line, ~ occurs origin header -> decimal a o -> separator c ->
  (forall x, In x line -> ~ separator x /\ x <> "O"%char) -> strip line <> [] -> count_occ ascii_dec line ":"%char <> 1%nat ->
  od_pairs py_float (header ++ origin ++ a ++ c :: line) = Err AssertionError.
Proof.
  intros pf h a o c line NO D S PL NB CO. unfold od_pairs, Import.split. rewrite split_word by eauto. cbn [origin app rev skipn tl]. fold origin.
  assert (NB' : ~ occurs origin (a ++ c :: line)).
  { apply plain_word. intros x I. apply in_app_iff in I. destruct I as [I|[<-|I]]; [apply (decimal_plain a o D x I)|destruct S as [->| ->]; discriminate|apply (PL x I)]. }
  pose proof (split_word (a ++ c :: line) [] (or_introl eq_refl) NB' []) as E. rewrite app_nil_r in E. cbn [rev app] in E. rewrite E. cbn [mapM].
  assert (TB : trip_block pf (a ++ c :: line) = Err AssertionError).
  { unfold trip_block. change (map (fun c => if Ascii.eqb c ";"%char then newline else c)) with (map norm).
    destruct (norm_nosep a (fun c I => proj1 (decimal_plain a o D c I))) as [EN NI]. destruct (norm_nosep line (fun c I => proj1 (PL c I))) as [EN2 NI2].
    rewrite map_app. cbn [map]. rewrite EN, EN2, (norm_sep c S). unfold Import.split. rewrite split_one by exact NI. rewrite split_none by exact NI2. cbn [rev app hd tl]. rewrite (py_int_ok a o D). cbn [bind mapM].
    assert (TL : trip_line pf line = Err AssertionError); [|rewrite TL; reflexivity].
    unfold trip_line. destruct (Nat.eqb_spec (length (strip line)) 0) as [Z|_]; [destruct (strip line); [congruence|discriminate Z]|].
    assert (LEN : forall s cur, length (split_go [":"%char] 0 cur s) = Datatypes.S (count_occ ascii_dec s ":"%char)).
    { induction s as [|x s IH]; intro cur; [reflexivity|]. cbn [split_go is_prefix count_occ]. destruct (ascii_dec x ":"%char) as [->|N]; [cbn [Ascii.eqb Bool.eqb andb length Nat.sub]; rewrite IH; reflexivity|].
      destruct (Ascii.eqb_spec ":"%char x) as [<-|_]; [congruence|]. cbn [andb]. apply IH. }
    unfold Import.split. specialize (LEN line []). destruct (split_go [":"%char] 0 [] line) as [|p [|q [|r ss]]]; try reflexivity. cbn [length] in LEN. exfalso. apply CO. lia. }
  rewrite TB. reflexivity.
Qed.
Print Assumptions C90_malformed.
(** An origin that is blank or contains a character that is no part of a number (ASCII 48-57
    are the digits) is rejected. *)
Lemma lstrip_keeps x : is_space x = false -> forall s, In x s -> In x (lstrip s).
Proof.
  intros N. induction s as [|c r IH]; intro I; [destruct I|]. cbn [lstrip]. destruct (is_space c) eqn:E; [|exact I]. destruct I as [->|I]; [congruence|apply IH, I].
Qed.
Lemma strip_keeps x s : is_space x = false -> In x s -> In x (strip s).
Proof. intros N I. unfold strip. apply -> in_rev. apply (lstrip_keeps x N). apply -> in_rev. apply (lstrip_keeps x N), I. Qed.
Lemma strip_blanks s : (forall x, In x s -> is_space x = true) -> strip s = [].
Proof. intro H. assert (E : lstrip s = []); [|unfold strip; rewrite E; reflexivity]. induction s as [|c r IH]; [reflexivity|]. cbn [lstrip]. rewrite (H c (or_introl eq_refl)). apply IH. intros x I. apply H. right. exact I. Qed.
Lemma digits_value_bad x : digit x = None -> forall s acc, In x s -> digits_value acc s = Err ValueError.
Proof. intros N. induction s as [|c r IH]; intros acc I; [destruct I|]. cbn [digits_value]. destruct I as [->|I]; [rewrite N; reflexivity|]. destruct (digit c); [apply IH, I|reflexivity]. Qed.
Theorem C90_bad_origin : forall py_float header a, ~ occurs origin header -> (forall x, In x a -> ~ separator x /\ x <> "O"%char) ->
  ((forall x, In x a -> is_space x = true) \/ (exists x, In x a /\ is_space x = false /\ (nat_of_ascii x < 48 \/ 57 < nat_of_ascii x)%nat /\ ~ In x ["+"; "-"; "_"]%char)) ->
  od_pairs py_float (header ++ origin ++ a) = Err ValueError.
Proof.
  intros pf h a NO PL B. unfold od_pairs, Import.split. rewrite split_word by eauto. cbn [origin app rev skipn tl]. fold origin.
  assert (NB' : ~ occurs origin a) by (apply plain_word; intros x I; apply (PL x I)).
  pose proof (split_word a [] (or_introl eq_refl) NB' []) as E. rewrite app_nil_r in E. cbn [rev app] in E. rewrite E. cbn [mapM].
  assert (PI : py_int a = Err ValueError).
  { unfold py_int. destruct B as [B|[x [I [S [D _]]]]]; [rewrite (strip_blanks a B); reflexivity|]. pose proof (strip_keeps x a S I) as J. destruct (strip a) as [|y t]; [destruct J|].
    assert (D' : digit x = None) by (unfold digit; destruct (Nat.leb_spec 48 (nat_of_ascii x)), (Nat.leb_spec (nat_of_ascii x) 57); cbn [andb]; try reflexivity; lia). apply (digits_value_bad x D' _ _ J). }
  unfold trip_block. change (map (fun c => if Ascii.eqb c ";"%char then newline else c)) with (map norm).
  destruct (norm_nosep a (fun c I => proj1 (PL c I))) as [EN NI]. rewrite EN. unfold Import.split. rewrite split_none by exact NI. cbn [rev app hd tl]. rewrite PI. reflexivity.
Qed.
Print Assumptions C90_bad_origin.

(** ** A concrete file *)
From Coq Require Import String.
Definition nl := String newline EmptyString.
Definition ex_file : text := list_ascii_of_string ("<ZONES> 3" ++ nl ++ nl ++ "Origin 1 " ++ nl ++ "  2 : 10;   3 : 4;" ++ nl ++ nl ++ "Origin  " ++ "2" ++ nl ++ " 1 :    7;" ++ nl)%string.
Definition ex_float (s : text) : res Qc := n <- py_int s ;; Ok (qn n).
Example ex_parse : match od_pairs ex_float ex_file with
  | Ok l => map fst l = [(1, 2); (1, 3); (2, 1)]%nat /\ forallb (fun p => qeqb (fst p) (snd p)) (combine (map snd l) [qz 10; qz 4; qz 7]) = true
  | Err _ => False end.
Proof. vm_compute. split; reflexivity. Qed.
Example ex_trips : trips ex_float (list_ascii_of_string ("Origin 1 " ++ nl ++ " 2 : 10;")%string) [(1%nat, 2%nat, qn 10)].
Proof.
  assert (B : blank [" "%char]) by (intros c [<-|[]]; left; reflexivity). assert (B0 : blank []) by intros c [].
  change [(1%nat, 2%nat, qn 10)] with (map (fun e => (1%nat, fst e, snd e)) ([(2%nat, qn 10)] ++ []) ++ []).
  apply (trips_block ex_float [" "; "1"; " "]%char 1 newline ([" "; "2"; " "]%char ++ ":"%char :: [" "; "1"; "0"]%char ++ ";"%char :: []) ([(2%nat, qn 10)] ++ []) [] []).
  - exists [" "%char], [1%nat], [" "%char]. repeat split; auto; [discriminate|]. intros d [<-|[]]; lia.
  - right. reflexivity.
  - apply (items_more ex_float ([" "; "2"; " "]%char ++ ":"%char :: [" "; "1"; "0"]%char) [(2%nat, qn 10)] ";"%char [] []).
    + apply item_entry.
      * exists [" "%char], [2%nat], [" "%char]. repeat split; auto; [discriminate|]. intros d [<-|[]]; lia.
      * intros c I. cbn in I. destruct I as [<-|[<-|[<-|[]]]]; (split; [intros [X|X]; discriminate X|split; discriminate]).
      * reflexivity.
    + left. reflexivity.
    + apply items_one, item_blank, B0.
  - constructor.
Qed.
