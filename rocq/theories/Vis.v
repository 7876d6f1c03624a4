(** * Model of src/utilities/json_encoder.py, the [__json__] methods and
      [to_visualization_json] (src/visualization/to_json.py:38-80)

    JSON documents are trees; the text written by the standard library's
    [json.dump] and gzip are not modelled. *)
From Coq Require Import String Ascii.
From Verif Require Import Base Spec Arrays PL RC PQ FRC DynFlow Graph Import.
Open Scope string_scope.

(** A document.  [JNonFinite] is the token [Infinity] or [-Infinity] that Python
    writes for an infinite float (it is not JSON). *)
Inductive json := JNum (q : Qc) | JNonFinite (negative : bool) | JStr (s : string) | JList (l : list json) | JObj (l : list (string * json)).
(** Python values handed to the encoder: numbers, strings, lists, dictionaries
    with string or int keys, functions, and objects of other classes. *)
Inductive key := KStr (s : string) | KInt (n : nat).
Inductive pyval := VNum (x : ext) | VStr (s : string) | VList (l : list pyval) | VDict (l : list (key * pyval)) | VPL (f : PL) | VRC (f : RC) | VOther.
(** [str(n)] *)
Fixpoint chars (l : list nat) : string := match l with [] => EmptyString | d :: r => String (ascii_of_nat (48 + d)) (chars r) end.
Definition str_nat (n : nat) : string := chars (py_str n).
Definition key_text (k : key) : string := match k with KStr s => s | KInt n => str_nat n end.
Definition jnum (x : ext) : json := match x with Fin q => JNum q | NInf => JNonFinite true | PInf => JNonFinite false end.
(** piecewise_linear.py:21-24, right_constant.py:26-29 *)
Definition jlo (x : ext) : json := match x with NInf => JStr "-Infinity" | _ => jnum x end.
Definition jhi (x : ext) : json := match x with PInf => JStr "Infinity" | _ => jnum x end.
(** piecewise_linear.py:17-27 [__json__] *)
Definition pl_json (f : PL) : json :=
  JObj [("times", JList (map JNum (pl_times f))); ("values", JList (map JNum (pl_values f)));
        ("domain", JList [jlo (pl_lo f); jhi (pl_hi f)]); ("lastSlope", JNum (pl_last f)); ("firstSlope", JNum (pl_first f))].
(** right_constant.py:22-30 [__json__] *)
Definition rc_json (f : RC) : json :=
  JObj [("times", JList (map JNum (rc_times f))); ("values", JList (map JNum (rc_values f))); ("domain", JList [jlo (rc_lo f); jhi (rc_hi f)])].
(** json_encoder.py:7-24 with the standard library's encoder: an object that is
    neither a function nor a basic value raises TypeError (no other class of the
    repository that is encoded has [__json__] or is a dataclass). *)
Fixpoint encode (v : pyval) : res json :=
  match v with
  | VNum x => Ok (jnum x)
  | VStr s => Ok (JStr s)
  | VList l => ys <- (fix go l := match l with [] => Ok [] | x :: r => y <- encode x ;; ys <- go r ;; Ok (y :: ys) end) l ;; Ok (JList ys)
  | VDict l => ys <- (fix go l := match l with [] => Ok [] | (k, x) :: r => y <- encode x ;; ys <- go r ;; Ok ((key_text k, y) :: ys) end) l ;; Ok (JObj ys)
  | VPL f => Ok (pl_json f)
  | VRC f => Ok (rc_json f)
  | VOther => Err TypeError
  end.
Definition num (q : Qc) : pyval := VNum (Fin q).
Definition int (n : nat) : pyval := num (qn n).
(** to_json.py:47-54 *)
Definition vis_node (g : graph) (id : nat) : res pyval :=
  p <- dfetch (g_pos g) id ;; Ok (VDict [(KStr "id", int id); (KStr "x", num (fst p)); (KStr "y", num (snd p))]).
(** to_json.py:55-64 *)
Definition vis_edge (nw : network) (p : nat * nat) : res pyval :=
  c <- getn (w_cap nw) (fst p) ;; t <- getn (w_tau nw) (fst p) ;;
  Ok (VDict [(KStr "id", int (fst p)); (KStr "from", int (e_from (w_graph nw) (snd p))); (KStr "to", int (e_to (w_graph nw) (snd p))); (KStr "capacity", num c); (KStr "transitTime", num t)]).
(** to_json.py:65-68 *)
Definition vis_com (colours : list (nat * string)) (id : nat) : res pyval :=
  c <- dfetch colours id ;; Ok (VDict [(KStr "id", int id); (KStr "color", VStr c)]).
Definition vis_col (c : FRC) : pyval := VDict (map (fun p => (KInt (fst p), VRC (snd p))) (c_fns c)).
(** to_json.py:44-76 the dictionary; the lists are built in this order *)
Definition vis_value (nw : network) (colours : list (nat * string)) (inflow outflow : list FRC) (queues : list PL) : res pyval :=
  nodes <- mapM (vis_node (w_graph nw)) (map fst (g_nodes (w_graph nw))) ;;
  edges <- mapM (vis_edge nw) (combine (seq 0 (length (g_edges (w_graph nw)))) (g_edges (w_graph nw))) ;;
  coms <- mapM (vis_com colours) (seq 0 (length (w_com nw))) ;;
  Ok (VDict [(KStr "network", VDict [(KStr "nodes", VList nodes); (KStr "edges", VList edges); (KStr "commodities", VList coms)]);
             (KStr "flow", VDict [(KStr "inflow", VList (map vis_col inflow)); (KStr "outflow", VList (map vis_col outflow)); (KStr "queues", VList (map VPL queues))])]).
Definition to_visualization_json (nw : network) (colours : list (nat * string)) (inflow outflow : list FRC) (queues : list PL) : res json :=
  v <- vis_value nw colours inflow outflow queues ;; encode v.
(** slide_examples/example2.py:32-40, example3.py:39-44, example4.py:35-40: the
    collections themselves are handed to the encoder *)
Definition slides_value (inflow outflow : list FRC) (queues : list PL) : pyval :=
  VDict [(KStr "inflow", VList (map (fun _ => VOther) inflow)); (KStr "outflow", VList (map (fun _ => VOther) outflow)); (KStr "queues", VList (map VPL queues))].
