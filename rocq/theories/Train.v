(** * Model of the training functions in src/ml (SKFullNetworkModel.py,
      TFFullNetworkModel.py, SKNeighborhood.py, TFNeighborhood.py) and of
      build_flows in src/ml/build_test_flows.py: which files they read and write

    Learning itself is opaque: a learned model is identified with the masks
    of the data it was fitted to. *)
From Verif Require Import Base Spec Arrays PL RC FRC DynFlow Graph Dijkstra FlowBuilder Predictors Eval Dataset Neighbors.

(** How a call ends. *)
Inductive why := Py (e : exn) | FileNotFound | FitFailed.
Inductive ended (A : Type) := Returns (a : A) | Raises (w : why).
Arguments Returns {A} _. Arguments Raises {A} _.

(** What is at the path of a model: nothing; something that is not a model
    (an empty directory, a truncated pickle); a model fitted to data selected
    by an input and an output mask. *)
Inductive model_file := NoModel | Unusable | Fitted (im om : list bool).
Definition masks := (list bool * list bool)%type.
Inductive kind := SK | TF.
(** The scenario directory: the queue files, the pair of mask files
    (input-mask.txt and output-mask.txt next to the folder), the full-net models. *)
Record store := mkStore { st_queues : list qfile; st_masks : option masks; st_sk : model_file; st_tf : model_file }.
Definition model_of (k : kind) (s : store) : model_file := match k with SK => st_sk s | TF => st_tf s end.
Definition set_model (k : kind) (m : model_file) (s : store) : store :=
  match k with SK => mkStore (st_queues s) (st_masks s) m (st_tf s) | TF => mkStore (st_queues s) (st_masks s) (st_sk s) m end.
Definition set_masks (m : masks) (s : store) : store := mkStore (st_queues s) (Some m) (st_sk s) (st_tf s).
Definition add_queues (fs : list qfile) (s : store) : store := mkStore (st_queues s ++ fs) (st_masks s) (st_sk s) (st_tf s).
(** The arguments of the training functions. *)
Record params := mkParams { p_past : nat; p_future : nat; p_reroute : Qc; p_interval : Qc; p_horizon : Qc; p_nedges : nat }.
(** QueueAndEdgeLoadsDataset.py:20-77: the constructor reads all queue files and
    writes both mask files (lines 76-77). *)
Definition read_data (P : params) (qs : list qfile) : res dataset :=
  ds_init (p_past P) (p_future P) (p_reroute P) (p_interval P) (p_horizon P) (p_nedges P) qs.
(** QueueAndEdgeLoadsDataset.py:115-123 [load_mask]: a missing file raises;
    [np.loadtxt] of a file with one number gives a 0-dimensional array, over
    which the list comprehension cannot iterate. *)
Definition load_mask (s : store) : ended masks :=
  match st_masks s with
  | None => Raises FileNotFound
  | Some (im, om) => if (length im =? 1)%nat || (length om =? 1)%nat then Raises (Py TypeError) else Returns (im, om)
  end.
(** How fitting and writing the model goes: fine, an exception before anything
    is written, an exception while the file is written. *)
Inductive fitting := Fits | FailsBefore | FailsWriting.
(** SKFullNetworkModel.py:17-91 / TFFullNetworkModel.py:14-133, without
    concurrent processes: the masks handed to the predictor.  The TF version
    creates the model directory first (TFFullNetworkModel.py:29), which is the
    path whose existence [with_file_lock] checks.  The lock is removed in every case. *)
Definition train_full (P : params) (k : kind) (f : fitting) (s : store) : ended masks * store :=
  match model_of k s with
  | NoModel =>
      let s := match k with SK => s | TF => set_model TF Unusable s end in
      match read_data P (st_queues s) with
      | Err e => (Raises (Py e), s)
      | Ok D =>
          let m := (ds_in D, ds_out D) in
          let s := set_masks m s in
          match f with
          | Fits => (Returns m, set_model k (Fitted (ds_in D) (ds_out D)) s)
          | FailsBefore => (Raises FitFailed, s)
          | FailsWriting => (Raises FitFailed, set_model k Unusable s)
          end
      end
  | _ => (load_mask s, s)
  end.
(** What happens to the directory over time. *)
Inductive event := Queues (fs : list qfile) | Train (k : kind) (f : fitting).
Definition happens (P : params) (s : store) (e : event) : store :=
  match e with Queues fs => add_queues fs s | Train k f => snd (train_full P k f s) end.

(** [zip( *dataset)] (SKFullNetworkModel.py:44, TFFullNetworkModel.py:44,
    SKNeighborhood.py:77, TFNeighborhood.py:76): the class has no [__iter__],
    so Python calls [__getitem__] with 0, 1, 2, ... until an IndexError. *)
Fixpoint ds_iter (fuel : nat) (D : dataset) (add_in add_out : option (list bool)) (index : Z) : res (list (list Qc * list Qc)) :=
  match fuel with
  | O => Err OutOfFuel
  | S f =>
      match ds_get D add_in add_out index with
      | Ok x => r <- ds_iter f D add_in add_out (index + 1) ;; Ok (x :: r)
      | Err IndexError => Ok []
      | Err e => Err e
      end
  end.

(** ** Neighbourhood models (SKNeighborhood.py:17-113; TFNeighborhood.py:15-162
    has the same structure) *)
(** The folder of per-edge models: the masks an edge's model was fitted with. *)
Record nstore := mkNs { ns_masks : option masks; ns_models : nat -> option masks }.
Definition nload (s : nstore) : ended masks := load_mask (mkStore [] (ns_masks s) NoModel NoModel).
(** The loop over [network.graph.edges] (SKNeighborhood.py:50-97) without
    concurrent processes and with learning that succeeds: [cur] is the pair
    [input_mask, output_mask], [D] the dataset variable.  Edge ids are indices. *)
Fixpoint nb_train (P : params) (qs : list qfile) (g : graph) (maxd : nat) (edges : list nat) (D : option dataset) (cur : masks) (s : nstore) : ended masks * nstore :=
  match edges with
  | [] => (Returns cur, s)
  | e :: rest =>
      if negb (nth e (snd cur) false) then nb_train P qs g maxd rest D cur s else
      match ns_models s e with
      | Some _ => nb_train P qs g maxd rest D cur s
      | None =>
          match (match D with Some d => Ok d | None => read_data P qs end) with
          | Err x => (Raises (Py x), s)
          | Ok d =>
              let cur := (ds_in d, ds_out d) in
              let edge_in := map (fun p => fst p && snd p)%bool (combine (ds_in d) (mask_undirected g e maxd)) in
              let edge_out := map (Nat.eqb e) (g_edges g) in
              let s := mkNs (Some cur) (fun x => if Nat.eqb x e then Some (edge_in, edge_out) else ns_models s x) in
              nb_train P qs g maxd rest (Some d) cur s
          end
      end
  end.
(** SKNeighborhood.py:30-48: masks from the files if both exist, else from a new dataset. *)
Definition train_neighborhood (P : params) (qs : list qfile) (g : graph) (maxd : nat) (s : nstore) : ended masks * nstore :=
  match ns_masks s with
  | Some _ => match nload s with Raises w => (Raises w, s) | Returns m => nb_train P qs g maxd (g_edges g) None m s end
  | None =>
      match read_data P qs with
      | Err x => (Raises (Py x), s)
      | Ok d => let m := (ds_in d, ds_out d) in nb_train P qs g maxd (g_edges g) (Some d) m (mkNs (Some m) (ns_models s))
      end
  end.
(** core/predictors/sk_neighborhood_predictor.py:210-237 [from_models]: the models by edge *)
Definition from_models (g : graph) (m : masks) (s : nstore) : res (list (nat * masks)) :=
  l <- mapM (fun e => if nth e (snd m) false then match ns_models s e with None => Err AssertionError | Some x => Ok [(e, x)] end else Ok []) (g_edges g) ;;
  Ok (concat l).

(** ** Several processes training the models of edges 0..n-1 *)
(** Where a process is: with_file_lock for edge k (file_lock.py:20, 23, 28, 30,
    33), wait_for_locks (file_lock.py:41-42), returned. *)
Inductive tpc := TLook (k : nat) | TLookModel (k : nat) | TCreate (k : nat) | TFit (k : nat) | TUnlock (k : nat) (failed : bool) | TWait | TReturned | TRaised | TCrashed.
Record tst := mkTst { t_lock : nat -> bool; t_model : nat -> bool; t_at : nat -> tpc }.
Definition tupd {A} (f : nat -> A) (k : nat) (x : A) : nat -> A := fun j => if Nat.eqb j k then x else f j.
Definition tgo (s : tst) (p : nat) (x : tpc) : tst := mkTst (t_lock s) (t_model s) (tupd (t_at s) p x).
Definition tlocked (s : tst) (k : nat) (b : bool) : tst := mkTst (tupd (t_lock s) k b) (t_model s) (t_at s).
Definition tmodel (s : tst) (k : nat) : tst := mkTst (t_lock s) (tupd (t_model s) k true) (t_at s).
(** [same]: wait_for_locks looks into the directory of the locks.  True of the
    full-net functions (SKFullNetworkModel.py:74, TFFullNetworkModel.py:116:
    dirname of the model path); false of the neighbourhood functions, which
    wait for [os.path.dirname(models_path)] while the locks are in
    [models_path] (SKNeighborhood.py:99, TFNeighborhood.py:148).
    [failures]: handlers may raise. *)
Inductive tstep (same failures : bool) (n p : nat) (s : tst) : tst -> Prop :=
| ts_end : t_at s p = TLook n -> tstep same failures n p s (tgo s p TWait)
| ts_locked k : t_at s p = TLook k -> (k < n)%nat -> t_lock s k = true -> tstep same failures n p s (tgo s p (TLook (S k)))
| ts_free k : t_at s p = TLook k -> (k < n)%nat -> t_lock s k = false -> tstep same failures n p s (tgo s p (TLookModel k))
| ts_there k : t_at s p = TLookModel k -> t_model s k = true -> tstep same failures n p s (tgo s p (TLook (S k)))
| ts_missing k : t_at s p = TLookModel k -> t_model s k = false -> tstep same failures n p s (tgo s p (TCreate k))
| ts_create k : t_at s p = TCreate k -> tstep same failures n p s (tgo (tlocked s k true) p (TFit k))
| ts_fit k : t_at s p = TFit k -> tstep same failures n p s (tgo (tmodel s k) p (TUnlock k false))
| ts_fail k : failures = true -> t_at s p = TFit k -> tstep same failures n p s (tgo s p (TUnlock k true))
| ts_unlock k f : t_at s p = TUnlock k f -> tstep same failures n p s (tgo (tlocked s k false) p (if f then TRaised else TLook (S k)))
| ts_wait : t_at s p = TWait -> (same = true -> forall k, (k < n)%nat -> t_lock s k = false) -> tstep same failures n p s (tgo s p TReturned)
| ts_crash : tstep same failures n p s (tgo s p TCrashed).
Inductive treach (same failures : bool) (n : nat) (s0 : tst) : tst -> Prop :=
| tr_refl : treach same failures n s0 s0
| tr_step s p s' : treach same failures n s0 s -> tstep same failures n p s s' -> treach same failures n s0 s'.
(** No locks; every process is about to start its loop; some models may exist. *)
Definition tfresh (s : tst) : Prop := (forall k, t_lock s k = false) /\ forall p, t_at s p = TLook 0.

(** ** build_flows (build_test_flows.py:50-138), one flow, no concurrent process *)
Inductive flow_file := FNone | FCut | FDummy | FWhole.
(** The drawing: no file; a file cut short; all of it. *)
Inductive vis_file := VNone | VCut | VWhole.
(** [b_calls]: how often [on_flow_computed] has returned for this flow. *)
Record bdisk := mkB { b_flow : flow_file; b_vis : vis_file; b_calls : nat }.
Definition b_present (x : flow_file) : bool := match x with FNone => false | _ => true end.
Definition v_present (x : vis_file) : bool := match x with VNone => false | _ => true end.
(** Where a run is interrupted (kill, or an exception of the code there).
    [InVis]: in [to_visualization_json], which opens the file for writing
    before it builds the JSON tree (visualization/to_json.py:42-44). *)
Inductive stop := Nowhere | BeforeFlow | InFlow | BeforeCall | BeforeVis | InVis.
(** build_test_flows.py:77-136 and file_lock.py:20-35; [vis]: generate_visualization, [dummy]: save_dummy.
    A file that is no gzipped pickle makes [pickle.load] raise (lines 89-93). *)
Definition build_flow (vis dummy : bool) (x : stop) (d : bdisk) : ended unit * bdisk :=
  if (b_present (b_flow d) && (negb vis || v_present (b_vis d)))%bool then (Returns tt, d) else
  let finish d :=
    if vis then match x with
                | BeforeVis => (Raises FitFailed, d)
                | InVis => (Raises FitFailed, mkB (b_flow d) VCut (b_calls d))
                | _ => (Returns tt, mkB (b_flow d) VWhole (b_calls d))
                end
    else (Returns tt, d) in
  match b_flow d with
  | FWhole => match x with BeforeFlow => (Raises FitFailed, d) | _ => finish d end
  | FCut | FDummy => (Raises (Py ValueError), d)
  | FNone =>
      match x with
      | BeforeFlow => (Raises FitFailed, d)
      | InFlow => (Raises FitFailed, mkB FCut (b_vis d) (b_calls d))
      | BeforeCall => (Raises FitFailed, mkB (if dummy then FDummy else FWhole) (b_vis d) (b_calls d))
      | _ => finish (mkB (if dummy then FDummy else FWhole) (b_vis d) (S (b_calls d)))
      end
  end.
