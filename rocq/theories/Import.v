(** * Model of src/importer/*.py, src/scenarios/scenario_utils.py and of the
    demand generation in src/ml/build_test_flows.py

    Files are given by their parsed rows (csv) or by their characters (tntp
    trips); node ids are natural numbers. *)
From Coq Require Import Ascii.
From Verif Require Import Base Spec Arrays PL RC FRC DynFlow Graph Dijkstra FlowBuilder Eval Eval2.

(** ** csv_importer.py *)
(** csv_importer.py:13 a row [from_node to_node length_in_meters freeflow_speed_kph num_lanes] *)
Record csv_row := mkRow { cr_from : nat; cr_to : nat; cr_len : Qc; cr_speed : Qc; cr_lanes : Qc }.
(** csv_importer.py:19 *)
Definition csv_speed (r : csv_row) : Qc := if qltb 0 (cr_speed r) then cr_speed r else qz 20.
(** csv_importer.py:18-29 one row *)
Definition csv_step (nw : network) (r : csv_row) : res network :=
  travel_time <- pydiv (cr_len r) (csv_speed r) ;;
  let capacity := cr_lanes r * csv_speed r in
  if (cr_from r =? cr_to r)%nat then Ok nw else Ok (nw_add_edge nw (cr_from r) (cr_to r) travel_time capacity).
(** csv_importer.py:11-30 [network_from_csv].  [genfromtxt] returns a
    one-dimensional array for a file with a single data row, whose elements are
    scalars that cannot be indexed. *)
Definition network_from_csv (rows : list csv_row) : res network :=
  match rows with [_] => Err IndexError | _ => foldM csv_step rows nw_empty end.

(** csv_importer.py:53-72 one row [source sink demand] of the demands; the
    arguments are evaluated before the call of [add_commodity], which takes three
    of them and gets four. *)
Definition demand_step (inflow_horizon : Qc) (amount : nat -> Qc -> Qc) (nw : network) (i : nat) (row : nat * nat * Qc) : res network :=
  let '(source, sink, x) := row in
  if negb (dhas (g_nodes (w_graph nw)) source) then Err KeyError
  else if negb (dhas (g_nodes (w_graph nw)) sink) then Err KeyError
  else
    reaching <- get_nodes_reaching (w_graph nw) sink ;;
    if negb (existsb (Nat.eqb source) reaching) then Ok nw
    else
      _ <- rc_init [0; inflow_horizon] [amount i x; 0] (Fin 0) PInf ;;
      Err TypeError.
(** csv_importer.py:33-78 [add_demands_to_network]; [amount i x]: the demand of row
    [i], from the file or random. *)
Definition add_demands (nw : network) (rows : list (nat * nat * Qc)) (inflow_horizon : Qc) (seed use_default : bool) (amount : nat -> Qc -> Qc) : res network :=
  if (negb seed && negb use_default)%bool then Err ValueError
  else if (seed && use_default)%bool then Err ValueError
  else match rows with
    | [_] => Err IndexError
    | _ => foldM (fun nw p => demand_step inflow_horizon amount nw (fst p) (snd p)) (combine (seq 0 (length rows)) rows) nw
    end.

(** ** tntp_importer.py *)
(** tntp_importer.py:75-84 [import_network]: a row [init_node term_node capacity free_flow_time] *)
Definition import_network (rows : list (nat * nat * Qc * Qc)) : network :=
  fold_left (fun nw r => let '(a, b, cap, fft) := r in nw_add_edge nw a b fft cap) rows nw_empty.

(** scenario_utils.py:4-8 [get_demand_with_inflow_horizon] *)
Definition demand_until (demand : Qc) (inflow_horizon : ext) : res RC :=
  match inflow_horizon with
  | PInf => rc_init [0] [demand] (Fin 0) PInf
  | Fin ih => rc_init [0; ih] [demand; 0] (Fin 0) PInf
  | NInf => Err NotModelled
  end.

Definition text := list ascii.
Definition newline : ascii := ascii_of_nat 10.
(** [str.isspace] for the characters that occur in such files *)
Definition is_space (c : ascii) : bool := existsb (Ascii.eqb c) [" "; ascii_of_nat 9; newline; ascii_of_nat 13]%char.
Fixpoint is_prefix (p s : text) : bool :=
  match p, s with [], _ => true | a :: p', b :: s' => Ascii.eqb a b && is_prefix p' s' | _ :: _, [] => false end.
(** [str.split(sep)]: non-overlapping occurrences from the left; [skip]
    characters of the current occurrence are still to be passed over. *)
Fixpoint split_go (sep : text) (skip : nat) (cur : text) (s : text) : list text :=
  match s with
  | [] => [rev cur]
  | c :: r =>
      match skip with
      | S k => split_go sep k cur r
      | O => if is_prefix sep s then rev cur :: split_go sep (length sep - 1) [] r else split_go sep 0 (c :: cur) r
      end
  end.
Definition split (sep s : text) : list text := split_go sep 0 [] s.
(** [str.strip] *)
Fixpoint lstrip (s : text) : text := match s with c :: r => if is_space c then lstrip r else s | [] => [] end.
Definition strip (s : text) : text := rev (lstrip (rev (lstrip s))).
(** [int(s)] for decimal digits with surrounding white space; signs and
    underscores, which Python accepts too, are not modelled. *)
Definition digit (c : ascii) : option nat := let n := nat_of_ascii c in if ((48 <=? n) && (n <=? 57))%nat%bool then Some (n - 48)%nat else None.
Fixpoint digits_value (acc : nat) (s : text) : res nat :=
  match s with [] => Ok acc | c :: r => match digit c with Some d => digits_value (10 * acc + d) r | None => Err ValueError end end.
Definition py_int (s : text) : res nat := match strip s with [] => Err ValueError | t => digits_value 0 t end.

Definition origin : text := ["O"; "r"; "i"; "g"; "i"; "n"]%char.
(** tntp_importer.py:43-51 one line of a block; [py_float] is [float(s)]. *)
Definition trip_line (py_float : text -> res Qc) (line : text) : res (list (nat * Qc)) :=
  if (length (strip line) =? 0)%nat then Ok []
  else
    match split [":"%char] line with
    | [a; b] => destination <- py_int a ;; demand <- py_float b ;; Ok [(destination, demand)]
    | _ => Err AssertionError
    end.
(** tntp_importer.py:38-51 one block *)
Definition trip_block (py_float : text -> res Qc) (block : text) : res (list (nat * nat * Qc)) :=
  let lines := split [newline] (map (fun c => if Ascii.eqb c ";"%char then newline else c) block) in
  o <- py_int (hd [] lines) ;;
  es <- mapM (trip_line py_float) (tl lines) ;;
  Ok (map (fun e => (o, fst e, snd e)) (concat es)).
(** tntp_importer.py:34-51 [od_pairs] *)
Definition od_pairs (py_float : text -> res Qc) (file : text) : res (list (nat * nat * Qc)) :=
  bs <- mapM (trip_block py_float) (tl (split origin file)) ;; Ok (concat bs).
(** tntp_importer.py:53-58; [constant] is [PredictorType.CONSTANT] *)
Definition add_od (nw : network) (constant : nat) (inflow_horizon : ext) (p : nat * nat * Qc) : res network :=
  let '(o, d, x) := p in
  f <- demand_until x inflow_horizon ;; nw_add_commodity nw [(o, f)] d constant.
(** tntp_importer.py:33-58 [add_commodities] *)
Definition add_commodities (py_float : text -> res Qc) (nw : network) (file : text) (constant : nat) (inflow_horizon : ext) : res network :=
  ps <- od_pairs py_float file ;; foldM (fun nw p => add_od nw constant inflow_horizon p) ps nw.
(** sioux_falls_importer.py:52-59 [add_od_pairs], rows [O D Ton] *)
Definition add_od_pairs (nw : network) (rows : list (nat * nat * Qc)) (constant : nat) (inflow_horizon : ext) : res network :=
  foldM (fun nw p => add_od nw constant inflow_horizon p) rows nw.

(** ** build_test_flows.py:21-46 [generate_network_demands]
    [gauss n mu sigma] is the n-th call of [random.gauss] after seeding. *)
Definition gen_source (gauss : nat -> Qc -> Qc -> Qc) (sigma : Qc) (inflow_horizon : ext) (n : nat) (p : nat * RC) : res (nat * RC) :=
  mu <- fetch (rc_values (snd p)) 0 ;;
  f <- demand_until (qmax 0 (gauss n mu sigma)) inflow_horizon ;; Ok (fst p, f).
Fixpoint gen_sources (gauss : nat -> Qc -> Qc -> Qc) (sigma : Qc) (inflow_horizon : ext) (n : nat) (l : list (nat * RC)) : res (list (nat * RC)) :=
  match l with
  | [] => Ok []
  | p :: r => q <- gen_source gauss sigma inflow_horizon n p ;; rest <- gen_sources gauss sigma inflow_horizon (S n) r ;; Ok (q :: rest)
  end.
Fixpoint gen_coms (gauss : nat -> Qc -> Qc -> Qc) (sigma : Qc) (inflow_horizon : ext) (n : nat) (cs : list commodity) : res (list commodity) :=
  match cs with
  | [] => Ok []
  | c :: r =>
      s <- gen_sources gauss sigma inflow_horizon n (k_sources c) ;;
      rest <- gen_coms gauss sigma inflow_horizon (n + length (k_sources c)) r ;;
      Ok (mkCom s (k_sink c) (k_pred c) :: rest)
  end.
Definition generate_network_demands (nw : network) (gauss : nat -> Qc -> Qc -> Qc) (inflow_horizon : ext) (sigma : option Qc) : res network :=
  s <- match sigma with Some s => Ok s | None => m <- list_minq (w_cap nw) ;; pydiv m (qz 2) end ;;
  cs <- gen_coms gauss s inflow_horizon 0 (w_com nw) ;; Ok (mkNw (w_graph nw) (w_cap nw) (w_tau nw) cs).

(** ** build_test_flows.py:71, evaluate_network.py:44-46 the file names
    [str(flow_index).zfill(ceil(log10(number_flows)))] *)
Fixpoint digits (fuel n : nat) : list nat := match fuel with O => [] | S k => if (n <? 10)%nat then [n] else digits k (n / 10) ++ [n mod 10]%nat end.
Definition py_str (n : nat) : list nat := digits (S n) n.
Definition zfill (w : nat) (s : list nat) : list nat := repeat 0%nat (w - length s) ++ s.
(** [ceil(log10(n))], the least k with n <= 10^k *)
Fixpoint clog10 (fuel k n : nat) : nat := match fuel with O => k | S f => if (n <=? 10 ^ k)%nat then k else clog10 f (S k) n end.
Definition flow_id (number_flows i : nat) : list nat := zfill (clog10 number_flows 0 number_flows) (py_str i).
