(** * C103: the visualisation file shows the network and the flow *)
From Coq Require Import String Ascii.
From Verif Require Import Base Spec Arrays PL RC PQ FRC DynFlow Graph Import PropImport3 Vis.
Open Scope Qc_scope.
Open Scope string_scope.

(** ** Specification: a reader of documents *)
Fixpoint assoc (l : list (string * json)) (s : string) : option json := match l with [] => None | (k, v) :: r => if String.eqb k s then Some v else assoc r s end.
Inductive pstep := F (s : string) | N (i : nat).
Definition look1 (p : pstep) (j : json) : option json :=
  match p, j with F s, JObj l => assoc l s | N i, JList l => nth_error l i | _, _ => None end.
Fixpoint look (path : list pstep) (j : json) : option json :=
  match path with [] => Some j | p :: r => match look1 p j with Some x => look r x | None => None end end.
Definition read_num (j : json) : option Qc := match j with JNum q => Some q | _ => None end.
Fixpoint read_all {A} (rd : json -> option A) (l : list json) : option (list A) :=
  match l with [] => Some [] | x :: r => match rd x, read_all rd r with Some a, Some b => Some (a :: b) | _, _ => None end end.
Definition read_list {A} (rd : json -> option A) (j : json) : option (list A) := match j with JList l => read_all rd l | _ => None end.
Definition read_end (j : json) : option ext :=
  match j with JNum q => Some (Fin q) | JStr s => if String.eqb s "Infinity" then Some PInf else if String.eqb s "-Infinity" then Some NInf else None | _ => None end.
Definition at_path {A} (path : list pstep) (rd : json -> option A) (j : json) : option A := match look path j with Some x => rd x | None => None end.
(** A function with its domain. *)
Definition read_rc (j : json) : option RC :=
  match at_path [F "times"] (read_list read_num) j, at_path [F "values"] (read_list read_num) j, at_path [F "domain"; N 0] read_end j, at_path [F "domain"; N 1] read_end j with
  | Some t, Some v, Some lo, Some hi => Some (mkRC t v lo hi) | _, _, _, _ => None end.
Definition read_pl (j : json) : option PL :=
  match at_path [F "times"] (read_list read_num) j, at_path [F "values"] (read_list read_num) j, at_path [F "firstSlope"] read_num j, at_path [F "lastSlope"] read_num j, at_path [F "domain"; N 0] read_end j, at_path [F "domain"; N 1] read_end j with
  | Some t, Some v, Some a, Some b, Some lo, Some hi => Some (mkPL t v a b lo hi) | _, _, _, _, _, _ => None end.
Definition read_node (j : json) : option (Qc * (Qc * Qc)) :=
  match at_path [F "id"] read_num j, at_path [F "x"] read_num j, at_path [F "y"] read_num j with Some i, Some x, Some y => Some (i, (x, y)) | _, _, _ => None end.
(** id, from, to, capacity, transit time *)
Definition read_edge (j : json) : option (Qc * Qc * Qc * Qc * Qc) :=
  match at_path [F "id"] read_num j, at_path [F "from"] read_num j, at_path [F "to"] read_num j, at_path [F "capacity"] read_num j, at_path [F "transitTime"] read_num j with
  | Some i, Some f, Some t, Some c, Some d => Some (i, f, t, c, d) | _, _, _, _, _ => None end.
Definition read_str (j : json) : option string := match j with JStr s => Some s | _ => None end.
Definition read_com (j : json) : option (Qc * string) := match at_path [F "id"] read_num j, at_path [F "color"] read_str j with Some i, Some c => Some (i, c) | _, _ => None end.
(** No [Infinity] token: the document is JSON. *)
Inductive finite_doc : json -> Prop :=
| fd_num q : finite_doc (JNum q)
| fd_str s : finite_doc (JStr s)
| fd_list l : (forall x, In x l -> finite_doc x) -> finite_doc (JList l)
| fd_obj l : (forall k x, In (k, x) l -> finite_doc x) -> finite_doc (JObj l).
(** The ends of the domain are on the right sides. *)
Definition rc_dom (f : RC) : Prop := rc_lo f <> PInf /\ rc_hi f <> NInf.
Definition pl_dom (f : PL) : Prop := pl_lo f <> PInf /\ pl_hi f <> NInf.
(** What the drawing needs. *)
Definition drawable (nw : network) (colours : list (nat * string)) : Prop :=
  (forall v, In v (map fst (g_nodes (w_graph nw))) -> dget (g_pos (w_graph nw)) v <> None) /\
  (length (g_edges (w_graph nw)) <= length (w_cap nw))%nat /\ (length (g_edges (w_graph nw)) <= length (w_tau nw))%nat /\
  (forall i, (i < length (w_com nw))%nat -> dget colours i <> None).

(** ** Encoding *)
Lemma encode_list l : encode (VList l) = (ys <- mapM encode l ;; Ok (JList ys)).
Proof. cbn [encode]. f_equal. induction l as [|x l IH]; [reflexivity|]. cbn [mapM]. rewrite <- IH. reflexivity. Qed.
Lemma encode_dict l : encode (VDict l) = (ys <- mapM (fun p => y <- encode (snd p) ;; Ok (key_text (fst p), y)) l ;; Ok (JObj ys)).
Proof. cbn [encode]. f_equal. induction l as [|[k x] l IH]; [reflexivity|]. cbn [mapM fst snd]. rewrite <- IH. destruct (encode x); reflexivity. Qed.
Lemma read_nums l : read_all read_num (map JNum l) = Some l.
Proof. induction l as [|x l IH]; [reflexivity|]. cbn [map read_all read_num]. rewrite IH. reflexivity. Qed.
Lemma read_lo x : x <> PInf -> read_end (jlo x) = Some x.
Proof. destruct x; intro H; [reflexivity|reflexivity|congruence]. Qed.
Lemma read_hi x : x <> NInf -> read_end (jhi x) = Some x.
Proof. destruct x; intro H; [congruence|reflexivity|reflexivity]. Qed.
Lemma read_rc_json f : rc_dom f -> read_rc (rc_json f) = Some f.
Proof.
  intros [A B]. unfold read_rc, at_path, rc_json. cbn [look look1 assoc String.eqb Ascii.eqb Bool.eqb nth_error read_list].
  rewrite !read_nums, (read_lo _ A), (read_hi _ B). destruct f; reflexivity.
Qed.
Lemma read_pl_json f : pl_dom f -> read_pl (pl_json f) = Some f.
Proof.
  intros [A B]. unfold read_pl, at_path, pl_json. cbn [look look1 assoc String.eqb Ascii.eqb Bool.eqb nth_error read_list read_num].
  rewrite !read_nums, (read_lo _ A), (read_hi _ B). destruct f; reflexivity.
Qed.
Lemma chars_inj : forall a b, (forall d, In d a -> (d < 10)%nat) -> (forall d, In d b -> (d < 10)%nat) -> chars a = chars b -> a = b.
Proof.
  induction a as [|x a IH]; intros [|y b] A B E; cbn [chars] in E; try discriminate; [reflexivity|]. injection E as E1 E2. f_equal.
  - apply (f_equal nat_of_ascii) in E1. pose proof (A x (or_introl eq_refl)). pose proof (B y (or_introl eq_refl)). rewrite !nat_ascii_embedding in E1 by lia. lia.
  - apply IH; auto; intros d D; [apply A|apply B]; right; exact D.
Qed.
Lemma str_nat_inj i j : str_nat i = str_nat j -> i = j.
Proof.
  intro E. unfold str_nat, py_str in E. destruct (digits_spec (S i) i ltac:(lia)) as (V1 & D1 & _). destruct (digits_spec (S j) j ltac:(lia)) as (V2 & D2 & _).
  apply chars_inj in E; auto. rewrite <- V1, <- V2, E. reflexivity.
Qed.
Lemma assoc_rcs l i : assoc (map (fun p => (str_nat (fst p), rc_json (snd p))) l) (str_nat i) = option_map rc_json (dget l i).
Proof.
  induction l as [|[k f] l IH]; [reflexivity|]. cbn [map fst snd assoc dget]. destruct (String.eqb_spec (str_nat k) (str_nat i)) as [E|E].
  - apply str_nat_inj in E. subst. rewrite Nat.eqb_refl. reflexivity.
  - destruct (Nat.eqb_spec k i) as [->|]; [congruence|exact IH].
Qed.
Definition col_doc (c : FRC) : json := JObj (map (fun p => (str_nat (fst p), rc_json (snd p))) (c_fns c)).
Lemma encode_col c : encode (vis_col c) = Ok (col_doc c).
Proof. unfold vis_col. rewrite encode_dict. unfold col_doc. induction (c_fns c) as [|p l IH]; [reflexivity|]. cbn [map mapM fst snd encode bind key_text] in *. destruct (mapM _ (map _ l)); [|discriminate IH]. cbn [bind] in *. injection IH as ->. reflexivity. Qed.
Lemma mapM_const {A B} (f : A -> res B) (g : A -> B) l : (forall x, In x l -> f x = Ok (g x)) -> mapM f l = Ok (map g l).
Proof. induction l as [|x l IH]; intro H; [reflexivity|]. cbn [mapM map]. rewrite (H x) by (left; reflexivity). cbn [bind]. rewrite IH by (intros; apply H; right; assumption). reflexivity. Qed.
Lemma mapM_twice {A B C} (f : A -> res B) (g : B -> res C) (d : A -> C) l xs : (forall a b, In a l -> f a = Ok b -> g b = Ok (d a)) -> mapM f l = Ok xs -> mapM g xs = Ok (map d l).
Proof.
  revert xs. induction l as [|a l IH]; intros xs H E; cbn [mapM] in E; [injection E as <-; reflexivity|]. destruct (f a) as [b|] eqn:F; [|discriminate E]. cbn [bind] in E. destruct (mapM f l) as [bs|] eqn:M; [|discriminate E]. cbn [bind] in E. injection E as <-.
  cbn [mapM map]. rewrite (H a b (or_introl eq_refl) F). cbn [bind]. rewrite (IH bs); [reflexivity|intros; eapply H; [right; eassumption|assumption]|reflexivity].
Qed.
Definition pos_of (nw : network) (v : nat) : Qc * Qc := match dget (g_pos (w_graph nw)) v with Some p => p | None => (0, 0) end.
Definition colour_of (colours : list (nat * string)) (i : nat) : string := match dget colours i with Some c => c | None => "" end.
Definition node_doc (nw : network) (v : nat) : json := JObj [("id", JNum (qn v)); ("x", JNum (fst (pos_of nw v))); ("y", JNum (snd (pos_of nw v)))].
Definition edge_doc (nw : network) (p : nat * nat) : json :=
  JObj [("id", JNum (qn (fst p))); ("from", JNum (qn (e_from (w_graph nw) (snd p)))); ("to", JNum (qn (e_to (w_graph nw) (snd p)))); ("capacity", JNum (nth (fst p) (w_cap nw) 0)); ("transitTime", JNum (nth (fst p) (w_tau nw) 0))].
Definition com_doc (colours : list (nat * string)) (i : nat) : json := JObj [("id", JNum (qn i)); ("color", JStr (colour_of colours i))].
Definition enum_edges (nw : network) := combine (seq 0 (length (g_edges (w_graph nw)))) (g_edges (w_graph nw)).
Definition the_doc (nw : network) (colours : list (nat * string)) (inflow outflow : list FRC) (queues : list PL) : json :=
  JObj [("network", JObj [("nodes", JList (map (node_doc nw) (map fst (g_nodes (w_graph nw))))); ("edges", JList (map (edge_doc nw) (enum_edges nw))); ("commodities", JList (map (com_doc colours) (seq 0 (length (w_com nw)))))]);
        ("flow", JObj [("inflow", JList (map col_doc inflow)); ("outflow", JList (map col_doc outflow)); ("queues", JList (map pl_json queues))])].
Lemma vis_node_ok nw v b : vis_node (w_graph nw) v = Ok b -> encode b = Ok (node_doc nw v).
Proof. unfold vis_node, dfetch, node_doc, pos_of. destruct (dget _ v) as [p|]; [|discriminate]. cbn [bind]. intro E. injection E as <-. reflexivity. Qed.
Lemma vis_edge_ok nw p b : vis_edge nw p = Ok b -> encode b = Ok (edge_doc nw p).
Proof.
  unfold vis_edge, getn, edge_doc. destruct (nth_error (w_cap nw) (fst p)) as [c|] eqn:C; [|discriminate]. cbn [bind]. destruct (nth_error (w_tau nw) (fst p)) as [t|] eqn:T; [|discriminate]. cbn [bind]. intro E. injection E as <-.
  rewrite (nth_error_nth _ _ 0 C), (nth_error_nth _ _ 0 T). reflexivity.
Qed.
Lemma vis_com_ok colours i b : vis_com colours i = Ok b -> encode b = Ok (com_doc colours i).
Proof. unfold vis_com, dfetch, com_doc, colour_of. destruct (dget _ i) as [p|]; [|discriminate]. cbn [bind]. intro E. injection E as <-. reflexivity. Qed.
Lemma vis_doc nw colours inflow outflow queues J : to_visualization_json nw colours inflow outflow queues = Ok J -> J = the_doc nw colours inflow outflow queues.
Proof.
  unfold to_visualization_json, vis_value. destruct (mapM (vis_node _) _) as [ns|] eqn:EN; [|discriminate]. cbn [bind]. destruct (mapM (vis_edge nw) _) as [es|] eqn:EE; [|discriminate]. cbn [bind].
  destruct (mapM (vis_com colours) _) as [cs|] eqn:EC; [|discriminate]. cbn [bind]. intro E.
  apply (mapM_twice _ encode (node_doc nw)) in EN; [|intros; eapply vis_node_ok; eassumption]. apply (mapM_twice _ encode (edge_doc nw)) in EE; [|intros; eapply vis_edge_ok; eassumption]. apply (mapM_twice _ encode (com_doc colours)) in EC; [|intros; eapply vis_com_ok; eassumption].
  assert (FI : forall l, encode (VList (map vis_col l)) = Ok (JList (map col_doc l))).
  { intro l. rewrite encode_list. rewrite (mapM_twice (fun x => Ok (vis_col x)) encode col_doc l); [reflexivity|intros a b _ Q; injection Q as <-; apply encode_col|]. apply mapM_const. reflexivity. }
  assert (FQ : encode (VList (map VPL queues)) = Ok (JList (map pl_json queues))).
  { rewrite encode_list. rewrite (mapM_twice (fun x => Ok (VPL x)) encode pl_json queues); [reflexivity|intros a b _ Q; injection Q as <-; reflexivity|]. apply mapM_const. reflexivity. }
  assert (L1 : encode (VDict [(KStr "network", VDict [(KStr "nodes", VList ns); (KStr "edges", VList es); (KStr "commodities", VList cs)]); (KStr "flow", VDict [(KStr "inflow", VList (map vis_col inflow)); (KStr "outflow", VList (map vis_col outflow)); (KStr "queues", VList (map VPL queues))])]) = Ok (the_doc nw colours inflow outflow queues)).
  { rewrite encode_dict. cbn [mapM fst snd key_text]. rewrite !encode_dict. cbn [mapM fst snd key_text]. rewrite !FI, FQ. rewrite !encode_list, EN, EE, EC. reflexivity. }
  rewrite L1 in E. injection E as <-. reflexivity.
Qed.

(** ** C103 *)
(** The drawing succeeds exactly for drawable networks. *)
Theorem C103_total : forall nw colours inflow outflow queues,
  (exists J, to_visualization_json nw colours inflow outflow queues = Ok J) <-> drawable nw colours.
Proof.
  intros nw colours inflow outflow queues. split.
  - intros [J E]. unfold to_visualization_json, vis_value in E. destruct (mapM (vis_node _) _) as [ns|] eqn:EN; [|discriminate E]. cbn [bind] in E. destruct (mapM (vis_edge nw) _) as [es|] eqn:EE; [|discriminate E]. cbn [bind] in E.
    destruct (mapM (vis_com colours) _) as [cs|] eqn:EC; [|discriminate E]. clear E.
    assert (G : forall {A B} (f : A -> res B) l xs, mapM f l = Ok xs -> forall a, In a l -> exists b, f a = Ok b).
    { clear. intros A B f. induction l as [|x l IH]; intros xs E a I; [destruct I|]. cbn [mapM] in E. destruct (f x) as [b|] eqn:FX; [|discriminate E]. cbn [bind] in E. destruct (mapM f l) as [bs|]; [|discriminate E]. destruct I as [<-|I]; [eauto|eapply IH; eauto]. }
    assert (ED : forall k, (k < length (g_edges (w_graph nw)))%nat -> (k < length (w_cap nw) /\ k < length (w_tau nw))%nat).
    { intros k K. destruct (nth_error (g_edges (w_graph nw)) k) as [r|] eqn:R; [|apply nth_error_None in R; lia].
      destruct (G _ _ _ _ _ EE (k, r)) as [b Q].
      { apply (nth_error_In _ k). rewrite (nth_error_nth' _ (0%nat, 0%nat)) by (rewrite combine_length, seq_length; lia). rewrite combine_nth by apply seq_length. rewrite seq_nth by exact K. rewrite (nth_error_nth _ _ _ R). reflexivity. }
      unfold vis_edge, getn in Q. cbn [fst] in Q. destruct (nth_error (w_cap nw) k) eqn:C; [|discriminate Q]. cbn [bind] in Q. destruct (nth_error (w_tau nw) k) eqn:T; [|discriminate Q]. split; apply nth_error_Some; congruence. }
    split; [|split; [|split]].
    + intros v V. destruct (G _ _ _ _ _ EN v V) as [b Q]. unfold vis_node, dfetch in Q. destruct (dget _ v); [discriminate|discriminate Q].
    + destruct (length (g_edges (w_graph nw))) as [|k] eqn:K; [lia|]. destruct (ED k); lia.
    + destruct (length (g_edges (w_graph nw))) as [|k] eqn:K; [lia|]. destruct (ED k); lia.
    + intros i I. destruct (G _ _ _ _ _ EC i) as [b Q]; [apply in_seq; lia|]. unfold vis_com, dfetch in Q. destruct (dget _ i); [discriminate|discriminate Q].
  - intros (D1 & D2 & D3 & D4). exists (the_doc nw colours inflow outflow queues).
    assert (X : exists v, vis_value nw colours inflow outflow queues = Ok v /\ exists j, encode v = Ok j).
    { assert (G : forall {A B} (f : A -> res B) l, (forall a, In a l -> exists b, f a = Ok b) -> exists xs, mapM f l = Ok xs).
      { clear. intros A B f. induction l as [|x l IH]; intro H; [exists []; reflexivity|]. destruct (H x (or_introl eq_refl)) as [b E]. destruct IH as [bs EB]; [intros; apply H; right; assumption|]. exists (b :: bs). cbn [mapM]. rewrite E. cbn [bind]. rewrite EB. reflexivity. }
      destruct (G _ _ (vis_node (w_graph nw)) (map fst (g_nodes (w_graph nw)))) as [ns EN].
      { intros v V. specialize (D1 v V). unfold vis_node, dfetch. destruct (dget _ v); [cbn [bind]; eauto|congruence]. }
      destruct (G _ _ (vis_edge nw) (enum_edges nw)) as [es EE].
      { intros [k r] I. apply in_combine_l, in_seq in I. unfold vis_edge, getn. cbn [fst snd]. rewrite (nth_error_nth' (w_cap nw) 0), (nth_error_nth' (w_tau nw) 0) by lia. cbn [bind]. eauto. }
      destruct (G _ _ (vis_com colours) (seq 0 (length (w_com nw)))) as [cs EC].
      { intros i I. apply in_seq in I. specialize (D4 i ltac:(lia)). unfold vis_com, dfetch. destruct (dget _ i); [cbn [bind]; eauto|congruence]. }
      unfold vis_value. rewrite EN. cbn [bind]. unfold enum_edges in EE. rewrite EE. cbn [bind]. rewrite EC. cbn [bind]. eexists. split; [reflexivity|].
      apply (mapM_twice _ encode (node_doc nw)) in EN; [|intros; eapply vis_node_ok; eassumption]. apply (mapM_twice _ encode (edge_doc nw)) in EE; [|intros; eapply vis_edge_ok; eassumption]. apply (mapM_twice _ encode (com_doc colours)) in EC; [|intros; eapply vis_com_ok; eassumption].
      assert (FI : forall l, encode (VList (map vis_col l)) = Ok (JList (map col_doc l))).
      { intro l. rewrite encode_list. rewrite (mapM_twice (fun x => Ok (vis_col x)) encode col_doc l); [reflexivity|intros a b _ Q; injection Q as <-; apply encode_col|]. apply mapM_const. reflexivity. }
      assert (FQ : encode (VList (map VPL queues)) = Ok (JList (map pl_json queues))).
      { rewrite encode_list. rewrite (mapM_twice (fun x => Ok (VPL x)) encode pl_json queues); [reflexivity|intros a b _ Q; injection Q as <-; reflexivity|]. apply mapM_const. reflexivity. }
      eexists. rewrite encode_dict. cbn [mapM fst snd key_text]. rewrite !encode_dict. cbn [mapM fst snd key_text]. rewrite !FI, FQ. rewrite !encode_list, EN, EE, EC. reflexivity. }
    destruct X as (v & V & j & E). assert (TJ : to_visualization_json nw colours inflow outflow queues = Ok j) by (unfold to_visualization_json; rewrite V; exact E). rewrite TJ. f_equal. apply vis_doc, TJ.
Qed.
Print Assumptions C103_total.
Lemma read_all_map {A B} (rd : json -> option B) (d : A -> json) (g : A -> B) l : (forall a, In a l -> rd (d a) = Some (g a)) -> read_all rd (map d l) = Some (map g l).
Proof. induction l as [|a l IH]; intro H; [reflexivity|]. cbn [map read_all]. rewrite (H a (or_introl eq_refl)), IH by (intros; apply H; right; assumption). reflexivity. Qed.
(** A reader finds the nodes with their positions, the edges in order with their
    ends, capacities and transit times, and the commodities with their colours. *)
Theorem C103_network : forall nw colours inflow outflow queues J, to_visualization_json nw colours inflow outflow queues = Ok J ->
  let g := w_graph nw in
  (exists ps, at_path [F "network"; F "nodes"] (read_list read_node) J = Some (combine (map (fun p => qn (fst p)) (g_nodes g)) ps) /\ Forall2 (fun p q => dget (g_pos g) (fst p) = Some q) (g_nodes g) ps) /\
  at_path [F "network"; F "edges"] (read_list read_edge) J =
    Some (map (fun p => (qn (fst p), qn (e_from g (snd p)), qn (e_to g (snd p)), nth (fst p) (w_cap nw) 0, nth (fst p) (w_tau nw) 0)) (combine (seq 0 (length (g_edges g))) (g_edges g))) /\
  exists cs, at_path [F "network"; F "commodities"] (read_list read_com) J = Some (combine (map qn (seq 0 (length (w_com nw)))) cs) /\ length cs = length (w_com nw) /\ forall i c, nth_error cs i = Some c -> dget colours i = Some c.
Proof.
  intros nw colours inflow outflow queues J E. destruct (proj1 (C103_total nw colours inflow outflow queues) (ex_intro _ J E)) as (D1 & D2 & D3 & D4). apply vis_doc in E. subst J. cbn zeta. split; [|split].
  - exists (map (fun p => pos_of nw (fst p)) (g_nodes (w_graph nw))). split.
    + unfold at_path. cbn [look look1 the_doc assoc String.eqb Ascii.eqb Bool.eqb read_list]. rewrite map_map. rewrite (read_all_map read_node (fun p => node_doc nw (fst p)) (fun p : nat * nobj => (qn (fst p), pos_of nw (fst p)))).
      * f_equal. generalize (g_nodes (w_graph nw)) as l. induction l as [|p l IH]; [reflexivity|]. cbn [map combine]. f_equal. exact IH.
      * intros p _. unfold read_node, node_doc, at_path. cbn [look look1 assoc String.eqb Ascii.eqb Bool.eqb read_num]. destruct (pos_of nw (fst p)). reflexivity.
    + assert (H : forall l, (forall p, In p l -> In p (g_nodes (w_graph nw))) -> Forall2 (fun p q => dget (g_pos (w_graph nw)) (fst p) = Some q) l (map (fun p => pos_of nw (fst p)) l)).
      { induction l as [|p l IH]; intro I; [constructor|]. cbn [map]. constructor; [|apply IH; intros; apply I; right; assumption]. unfold pos_of. specialize (D1 (fst p) (in_map fst _ _ (I p (or_introl eq_refl)))). destruct (dget _ (fst p)); [reflexivity|congruence]. }
      apply H. auto.
  - unfold at_path. cbn [look look1 the_doc assoc String.eqb Ascii.eqb Bool.eqb read_list]. apply read_all_map. intros [i r] _. reflexivity.
  - exists (map (colour_of colours) (seq 0 (length (w_com nw)))). split; [|split].
    + unfold at_path. cbn [look look1 the_doc assoc String.eqb Ascii.eqb Bool.eqb read_list]. rewrite (read_all_map read_com (com_doc colours) (fun i => (qn i, colour_of colours i))) by reflexivity.
      f_equal. generalize (seq 0 (length (w_com nw))) as l. induction l as [|p l IH]; [reflexivity|]. cbn [map combine]. f_equal. exact IH.
    + rewrite map_length. apply seq_length.
    + intros i c H. assert (L : (i < length (w_com nw))%nat) by (apply nth_error_Some_lt in H || (assert (Q : nth_error (map (colour_of colours) (seq 0 (length (w_com nw)))) i <> None) by congruence; apply nth_error_Some in Q; rewrite map_length, seq_length in Q; exact Q)).
      rewrite (map_nth_error (colour_of colours) i (seq 0 (length (w_com nw))) (d := i)) in H by (rewrite (nth_error_nth' _ 0%nat) by (rewrite seq_length; exact L); rewrite seq_nth by exact L; reflexivity).
      injection H as <-. specialize (D4 i L). unfold colour_of. destruct (dget colours i); [reflexivity|congruence].
Qed.
Print Assumptions C103_network.
(** ... and for every edge and commodity the rate functions of the flow (none if
    the flow has none), and the queues. *)
Theorem C103_flow : forall nw colours inflow outflow queues J, to_visualization_json nw colours inflow outflow queues = Ok J ->
  (forall c f i, In c inflow \/ In c outflow -> dget (c_fns c) i = Some f -> rc_dom f) -> (forall q, In q queues -> pl_dom q) ->
  (forall e c i, nth_error inflow e = Some c -> at_path [F "flow"; F "inflow"; N e; F (str_nat i)] read_rc J = dget (c_fns c) i) /\
  (forall e c i, nth_error outflow e = Some c -> at_path [F "flow"; F "outflow"; N e; F (str_nat i)] read_rc J = dget (c_fns c) i) /\
  at_path [F "flow"; F "queues"] (read_list read_pl) J = Some queues.
Proof.
  intros nw colours inflow outflow queues J E DR DQ. apply vis_doc in E. subst J.
  assert (G : forall l, (forall c, In c l -> In c inflow \/ In c outflow) -> forall e c i, nth_error l e = Some c ->
    match look1 (N e) (JList (map col_doc l)) with Some x => match look1 (F (str_nat i)) x with Some y => read_rc y | None => None end | None => None end = dget (c_fns c) i).
  { intros l S e c i H. cbn [look1]. rewrite (map_nth_error col_doc _ _ H). unfold col_doc at 1. rewrite assoc_rcs. destruct (dget (c_fns c) i) as [f|] eqn:D; [|reflexivity]. cbn [option_map]. apply read_rc_json. apply (DR c f i); [apply S, (nth_error_In _ _ H)|exact D]. }
  split; [|split].
  - intros e c i H. rewrite <- (G inflow ltac:(auto) e c i H). unfold at_path, the_doc. cbn [look look1 assoc String.eqb Ascii.eqb Bool.eqb]. destruct (nth_error (map col_doc inflow) e); [|reflexivity]. destruct j; try reflexivity. destruct (assoc l (str_nat i)); reflexivity.
  - intros e c i H. rewrite <- (G outflow ltac:(auto) e c i H). unfold at_path, the_doc. cbn [look look1 assoc String.eqb Ascii.eqb Bool.eqb]. destruct (nth_error (map col_doc outflow) e); [|reflexivity]. destruct j; try reflexivity. destruct (assoc l (str_nat i)); reflexivity.
  - unfold at_path, the_doc. cbn [look look1 assoc String.eqb Ascii.eqb Bool.eqb read_list]. rewrite (read_all_map read_pl pl_json (fun q => q)) by (intros q I; apply read_pl_json, DQ, I). rewrite map_id. reflexivity.
Qed.
Print Assumptions C103_flow.
(** The file is JSON: it has no token for an infinite number. *)
Lemma nums_finite l : finite_doc (JList (map JNum l)).
Proof. constructor. intros x I. apply in_map_iff in I. destruct I as [q [<- _]]. constructor. Qed.
Lemma ends_finite a b : a <> PInf -> b <> NInf -> finite_doc (JList [jlo a; jhi b]).
Proof. intros A B. constructor. intros x [<-|[<-|[]]]; [destruct a; try congruence; constructor|destruct b; try congruence; constructor]. Qed.
Lemma obj_finite l : Forall (fun p => finite_doc (snd p)) l -> finite_doc (JObj l).
Proof. intro H. constructor. intros k x I. rewrite Forall_forall in H. exact (H (k, x) I). Qed.
Theorem C103_json : forall nw colours inflow outflow queues J, to_visualization_json nw colours inflow outflow queues = Ok J ->
  (forall c f i, In c inflow \/ In c outflow -> In (i, f) (c_fns c) -> rc_dom f) -> (forall q, In q queues -> pl_dom q) -> finite_doc J.
Proof.
  intros nw colours inflow outflow queues J E DR DQ. apply vis_doc in E. subst J.
  assert (GC : forall l, (forall c, In c l -> In c inflow \/ In c outflow) -> finite_doc (JList (map col_doc l))).
  { intros l S. constructor. intros x I. apply in_map_iff in I. destruct I as [c [<- C]]. constructor. intros k y Y. apply in_map_iff in Y. destruct Y as [[i f] [Q P]]. injection Q as _ <-.
    destruct (DR c f i (S c C) P) as [A B]. apply obj_finite. repeat match goal with |- Forall _ _ => constructor end; cbn [snd]; try apply nums_finite; apply ends_finite; assumption. }
  assert (GM : forall A (d : A -> json) l, (forall a, finite_doc (d a)) -> finite_doc (JList (map d l))).
  { intros A d l H. constructor. intros x I. apply in_map_iff in I. destruct I as [a [<- _]]. apply H. }
  unfold the_doc. apply obj_finite. repeat match goal with |- Forall _ _ => constructor end; cbn [snd]; apply obj_finite; repeat match goal with |- Forall _ _ => constructor end; cbn [snd].
  - apply GM. intro v. apply obj_finite. repeat match goal with |- Forall _ _ => constructor end; cbn [snd]; constructor.
  - apply GM. intro v. apply obj_finite. repeat match goal with |- Forall _ _ => constructor end; cbn [snd]; constructor.
  - apply GM. intro v. apply obj_finite. repeat match goal with |- Forall _ _ => constructor end; cbn [snd]; constructor.
  - apply GC. auto.
  - apply GC. auto.
  - constructor. intros x I. apply in_map_iff in I. destruct I as [q [<- Q]]. destruct (DQ q Q) as [A B]. apply obj_finite. repeat match goal with |- Forall _ _ => constructor end; cbn [snd]; try apply nums_finite; try (apply ends_finite; assumption); constructor.
Qed.
Print Assumptions C103_json.
(** Functions made by the constructors have such domains. *)
Lemma one_inside lo hi (l : list Qc) : l <> [] -> forallb (fun t => ext_leb lo (Fin t) && ext_leb (Fin t) hi)%bool l = true -> lo <> PInf /\ hi <> NInf.
Proof. destruct l as [|t l]; [congruence|]. cbn [forallb]. intros _ H. apply andb_prop in H. destruct H as [H _]. apply andb_prop in H. destruct H as [A B]. split; intros ->; [discriminate A|discriminate B]. Qed.
Theorem C103_domains :
  (forall t v lo hi f, t <> [] -> rc_init t v lo hi = Ok f -> rc_dom f) /\ (forall t v a b lo hi f, pl_init t v a b lo hi = Ok f -> pl_dom f).
Proof.
  split.
  - intros t v lo hi f N E. unfold rc_init in E. destruct (zlen v =? zlen t)%Z; [|discriminate E]. cbn [assertb bind] in E. destruct (forallb _ t) eqn:H; [|discriminate E]. injection E as <-. exact (one_inside lo hi t N H).
  - intros t v a b lo hi f E. unfold pl_init in E. destruct ((zlen v =? zlen t)%Z && (1 <=? zlen t)%Z)%bool eqn:L; [|discriminate E]. cbn [assertb bind] in E. destruct (forallb _ t) eqn:H; [|discriminate E]. cbn [assertb bind] in E. destruct (gaps_ok t); [|discriminate E]. injection E as <-.
    apply (one_inside lo hi t); [|exact H]. intros ->. rewrite andb_false_r in L. discriminate L.
Qed.
Print Assumptions C103_domains.
(** REFUTED for networks without positions (the csv import and the tntp import set
    none): a node without position raises KeyError - after the file was opened
    for writing (C99_drawing_refuted). *)
Theorem C103_positions_refuted : forall nw colours inflow outflow queues v, In v (map fst (g_nodes (w_graph nw))) -> dget (g_pos (w_graph nw)) v = None ->
  to_visualization_json nw colours inflow outflow queues = Err KeyError.
Proof.
  intros nw colours inflow outflow queues v I D. unfold to_visualization_json, vis_value.
  assert (G : mapM (vis_node (w_graph nw)) (map fst (g_nodes (w_graph nw))) = Err KeyError).
  { revert I. generalize (map fst (g_nodes (w_graph nw))) as l. induction l as [|x l IH]; intro I; [destruct I|]. cbn [mapM]. unfold vis_node at 1, dfetch. destruct (dget (g_pos (w_graph nw)) x) eqn:X; [|reflexivity]. cbn [bind].
    destruct I as [->|I]; [congruence|]. rewrite (IH I). reflexivity. }
  rewrite G. reflexivity.
Qed.
Print Assumptions C103_positions_refuted.
(** REFUTED for the slide examples: they hand the collections themselves to the
    encoder, which raises TypeError as soon as the network has an edge. *)
Theorem C103_slides_refuted : forall inflow outflow queues, inflow <> [] -> encode (slides_value inflow outflow queues) = Err TypeError.
Proof. intros inflow outflow queues Ne. unfold slides_value. rewrite encode_dict. cbn [mapM fst snd]. rewrite encode_list. destruct inflow as [|c l]; [congruence|]. reflexivity. Qed.
Print Assumptions C103_slides_refuted.

(** ** Concrete case: the positions and edges of the sample network (test/sample_network.py) *)
Definition sample_nw : network :=
  let n := fold_left (fun n p => nw_add_edge n (fst (fst p)) (snd (fst p)) 1 (qn (snd p))) [((0, 1), 2); ((1, 2), 1); ((0, 2), 3)]%nat nw_empty in
  let g := w_graph n in
  mkNw (mkG (g_heap g) (g_edges g) (g_nodes g) (g_rev g) [(0%nat, (0, 0)); (1%nat, (1, 0)); (2%nat, (1, 1))]) (w_cap n) (w_tau n) [mkCom [] 2 0].
Definition sample_col : FRC := mkFRC [(0%nat, mkRC [0; qz 2] [1; 0] (Fin 0) PInf)] [] (mkPL [0] [0] 0 0 NInf PInf).
Example C103_example : exists J, to_visualization_json sample_nw [(0%nat, "red")] [sample_col; sample_col; sample_col] [sample_col; sample_col; sample_col] [queue0; queue0; queue0] = Ok J /\
  drawable sample_nw [(0%nat, "red")] /\ rc_dom (mkRC [0; qz 2] [1; 0] (Fin 0) PInf) /\ pl_dom queue0 /\ at_path [F "network"; F "nodes"] (fun j => match j with JList l => Some (length l) | _ => None end) J = Some 3%nat.
Proof.
  assert (D : drawable sample_nw [(0%nat, "red")]).
  { split; [intros v [<-|[<-|[<-|[]]]]; discriminate|]. split; [vm_compute; lia|]. split; [vm_compute; lia|]. intros i L. change (length (w_com sample_nw)) with 1%nat in L. destruct i; [discriminate|lia]. }
  destruct (proj2 (C103_total sample_nw [(0%nat, "red")] [sample_col; sample_col; sample_col] [sample_col; sample_col; sample_col] [queue0; queue0; queue0]) D) as [J E]. exists J. split; [exact E|]. split; [exact D|]. split; [split; discriminate|]. split; [split; discriminate|].
  apply vis_doc in E. subst J. vm_compute. reflexivity.
Qed.
