(** * Further conditions of C57 (shape of the data files), C87 (what the log line says) and C120 (edge loads) *)
From Verif Require Import Base Spec Arrays PL PLProofs RC FRC PQ PQSpec DynFlow Graph GraphSpec Dijkstra FlowBuilder Predictors Dataset Eval Eval2 PropEval4 PropDataset PropRoutes.

(** ** C57: the data set only accepts complete files *)
(** A file for [n] edges and [m] times: a queue row and a load row for every edge, a value for every time. *)
Definition complete (n m : nat) (f : qfile) : Prop :=
  length (fst f) = n /\ length (snd f) = n /\ (forall row, In row (fst f) -> length row = m) /\ (forall row, In row (snd f) -> length row = m).
Lemma good_complete n m f : good_shape n m f = true <-> complete n m f.
Proof.
  unfold good_shape, complete. rewrite !andb_true_iff, !Nat.eqb_eq, !forallb_forall. split.
  - intros [[[A B] C] D]. repeat split; auto; intros row I; apply Nat.eqb_eq; auto.
  - intros (A & B & C & D). repeat split; auto; intros row I; apply Nat.eqb_eq; auto.
Qed.
Theorem C57_shape : forall past future r pi h n files stride times, intervals pi r = Ok stride -> sample_times past stride h r = Ok times -> times <> [] -> files <> [] ->
  ((exists D, ds_init past future r pi h n files = Ok D) <-> forall f, In f files -> complete n (length times) f) /\
  (forall f, In f files -> ~ complete n (length times) f -> ds_init past future r pi h n files = Err ValueError).
Proof.
  intros past future r pi h n files stride times E1 E2 NT NF. unfold ds_init. rewrite E1. cbn [bind]. rewrite E2. cbn [bind]. destruct files as [|f0 fs]; [congruence|]. set (files := f0 :: fs) in *.
  destruct times as [|t0 ts]; [congruence|]. set (times := t0 :: ts) in *. assert (LT : (length times =? 0)%nat = false) by reflexivity. rewrite LT. clear LT.
  destruct (forallb (good_shape n (length times)) files) eqn:FA; cbn [negb].
  - rewrite forallb_forall in FA. split; [|intros f I C; exfalso; apply C, good_complete, FA, I]. split; [intros _ f I; apply good_complete, FA, I|]. intros _. eexists. reflexivity.
  - split; [|reflexivity]. split; [intros [D D1]; discriminate|]. intro H. exfalso. assert (T : forallb (good_shape n (length times)) files = true) by (apply forallb_forall; intros f I; apply good_complete, H, I). congruence.
Qed.
Print Assumptions C57_shape.

(** ** C87: the log line *)
(** The log line shows, for every observed commodity in the given order, the
    average travel time (C60) of the flow built so far: (area under the network
    inflow - area under the outflow of the edges into the sink) / (flow that has entered). *)
Theorem C87_log_line : forall S b obs l, (forall i c e, In i obs -> nth_error (s_coms S) i = Some c -> In e (incoming (s_graph S) (k_sink c)) -> (e_id (s_graph S) e < length (f_out (b_flow b)))%nat) ->
  0 < f_phi (b_flow b) -> log_line S b obs = Ok l ->
  Forall2 (fun i y => exists c, nth_error (s_coms S) i = Some c /\ forall cin cout ain aout,
    let into_sink := edge_rates (f_out (b_flow b)) i (map (e_id (s_graph S)) (incoming (s_graph S) (k_sink c))) in
    let entering := map snd (k_sources c) in
    rates_ok entering -> rates_ok into_sink -> accumulates entering cin -> accumulates into_sink cout -> integrates entering cin ain -> integrates into_sink cout aout ->
    cin (f_phi (b_flow b)) <> 0 /\ y = (ain (f_phi (b_flow b)) - aout (f_phi (b_flow b))) / cin (f_phi (b_flow b))) obs l.
Proof.
  intros S b obs l IE HP. unfold log_line. revert l IE. induction obs as [|i obs IH]; intros l IE H; cbn [mapM] in H.
  - apply ok_inj in H. subst l. constructor.
  - apply bind_ok in H. destruct H as (y & E & H). apply bind_ok in H. destruct H as (l' & E' & H). apply ok_inj in H. subst l. constructor; [|apply IH; [intros; eapply IE; [right|..]; eassumption|exact E']].
    apply bind_ok in E. destruct E as (c & Ec & E). unfold fetch in Ec. destruct (nth_error (s_coms S) i) as [c'|] eqn:N; [|discriminate]. apply ok_inj in Ec. subst c'. exists c. split; [reflexivity|]. cbv zeta.
    intros cin cout ain aout R1 R2 A1 A2 I1 I2.
    destruct (C60_avg_travel_time (f_out (b_flow b)) i (map (e_id (s_graph S)) (incoming (s_graph S) (k_sink c))) (map snd (k_sources c)) (f_phi (b_flow b)) cin cout ain aout ltac:(intros e I; apply in_map_iff in I; destruct I as (e0 & <- & I); eapply IE; [left; reflexivity|exact N|exact I]) R1 R2 HP A1 A2 I1 I2) as (B1 & B2 & _).
    cbv zeta in E. destruct (Qc_eq_dec (cin (f_phi (b_flow b))) 0) as [Z|Z]; [rewrite (B2 Z) in E; discriminate|]. split; [exact Z|]. rewrite (B1 Z) in E. apply ok_inj in E. symmetry. exact E.
Qed.
Print Assumptions C87_log_line.

(** ** C120: edge loads *)
(** [get_edge_loads] refuses a flow where more than eps is on an edge at time 0. *)
Theorem C120_edge_load : forall a b f v, pl_sub (c_acc a) (c_acc b) = Ok f -> pl_lo f = Fin 0 -> pl_eval f 0 = Ok v ->
  (eps <= v \/ v <= - eps -> edge_load a b = Err AssertionError) /\ (forall l, edge_load a b = Ok l -> - eps < v /\ v < eps).
Proof.
  intros a b f v E L EV. assert (A : edge_load a b = if qltb (qabs v) eps then edge_load a b else Err AssertionError).
  { unfold edge_load. rewrite E. cbn [bind]. rewrite L. assert (Q : ext_eqb (Fin 0) (Fin 0) = true) by (vm_compute; reflexivity). rewrite Q. cbn [assertb bind]. rewrite EV. cbn [bind]. destruct (qltb (qabs v) eps); reflexivity. }
  pose proof eps_pos as EP. destruct (qltbP (qabs v) eps) as [Q|Q].
  - assert (B : - eps < v /\ v < eps). { clear - Q EP. revert Q EP. generalize eps. intros e Q EP. unfold qabs in Q. destruct (qltbP v 0); split; qlra. }
    split; [intros [C|C]; exfalso; destruct B; revert C H H0; generalize eps; intros; qlra|]. intros. exact B.
  - rewrite A. split; [reflexivity|discriminate].
Qed.
Print Assumptions C120_edge_load.

(** ** Non-vacuity *)
Example C57_shape_ex : complete 1 2 ([[0; 1]], [[0; 0]]) /\ ~ complete 1 2 ([[0]], [[0; 0]]).
Proof.
  split; [repeat split; intros row [<-|[]]; reflexivity|]. intros (_ & _ & H & _). specialize (H [0] ltac:(left; reflexivity)). discriminate.
Qed.
Example C120_edge_load_ex : edge_load (mkFRC [] [] (mkPL [0] [1] 0 0 (Fin 0) PInf)) (mkFRC [] [] (mkPL [0] [0] 0 0 (Fin 0) PInf)) = Err AssertionError.
Proof. vm_compute. reflexivity. Qed.
(** On the network of C39, 12 rounds with the constant predictor: both commodities can be logged. *)
Example C87_log_line_ex : match (b <- fb_run false PropRoutes.by_ 12 ;; log_line PropRoutes.by_ b [0; 1]%nat) with Ok [x; y] => Some (this x, this y) | _ => None end = Some (7 # 2, 17 # 10)%Q.
Proof. vm_compute. reflexivity. Qed.
