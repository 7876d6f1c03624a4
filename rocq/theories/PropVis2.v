(** * C103, continued: the drawings of build_flows and eval_network_demand, which
      merge commodities first *)
From Coq Require Import String.
From Verif Require Import Base Spec Arrays PL RC PQ FRC FRCExact DynFlow DynRun Graph Predictors Eval PropEval3 Vis PropVis.
Open Scope Qc_scope.
Open Scope string_scope.

Lemma good_dom c i f : good_col c -> In (i, f) (c_fns c) -> rc_dom f.
Proof. intros [[_ G] _] I. destruct (G i f I) as (_ & L & H & _). split; [rewrite L|rewrite H]; discriminate. Qed.
Lemma dget_In {B} (d : list (nat * B)) i x : dget d i = Some x -> In (i, x) d.
Proof. induction d as [|[k y] d IH]; [discriminate|]. cbn [dget]. destruct (Nat.eqb_spec k i) as [->|]; [intro E; injection E as ->; left; reflexivity|intro E; right; apply IH, E]. Qed.
Lemma nth_forall2 {A B} (R : A -> B -> Prop) l l' : Forall2 R l l' -> forall i a, nth_error l i = Some a -> exists b, nth_error l' i = Some b /\ R a b.
Proof. induction 1 as [|x y l l' H F IH]; intros [|i] a E; try discriminate; [injection E as <-; exists y; split; [reflexivity|exact H]|apply IH, E]. Qed.
(** What a reader sees on an edge: the rate of commodity [i] in the list [dir] at [t]
    (0 if the file has no function for it). *)
Definition shown_rate (dir : string) (J : json) (e i : nat) (t : Qc) : res Qc :=
  match at_path [F "flow"; F dir; N e; F (str_nat i)] read_rc J with Some f => rc_eval f t | None => Ok 0 end.
(** The file is strict JSON; the merged commodity shows the total rate of the
    merged commodities, the others are shown unchanged; queues are unchanged. *)
Theorem C103_merged : forall nw colours coms inflow outflow queues, coms <> [] -> drawable nw colours ->
  (forall c, In c inflow \/ In c outflow -> good_col c) -> (forall q, In q queues -> pl_dom q) ->
  exists m inflow' outflow' J, In m coms /\ (forall i, In i coms -> (m <= i)%nat) /\
    merge_commodities coms inflow outflow = Ok (inflow', outflow') /\ to_visualization_json nw colours inflow' outflow' queues = Ok J /\ finite_doc J /\
    at_path [F "flow"; F "queues"] (read_list read_pl) J = Some queues /\
    forall dir old, (dir = "inflow" /\ old = inflow) \/ (dir = "outflow" /\ old = outflow) -> forall e c, nth_error old e = Some c ->
      (forall i, ~ In i coms -> at_path [F "flow"; F dir; N e; F (str_nat i)] read_rc J = dget (c_fns c) i) /\
      (forall i, In i coms -> i <> m -> at_path [F "flow"; F dir; N e; F (str_nat i)] read_rc J = None) /\
      (clear_jumps coms c -> forall t, 0 <= t -> shown_rate dir J e m t = Ok (total_rate coms c t)).
Proof.
  intros nw colours coms inflow outflow queues NE DR GC DQ. destruct (C59_merge coms inflow outflow NE GC) as (m & i' & o' & M1 & M2 & ME & F1 & F2).
  destruct (proj2 (C103_total nw colours i' o' queues) DR) as [J E]. exists m, i', o', J. split; [exact M1|]. split; [exact M2|]. split; [exact ME|]. split; [exact E|].
  assert (GN : forall c, In c i' \/ In c o' -> good_col c).
  { assert (H : forall l l', Forall2 (merged_into coms m) l l' -> forall c, In c l' -> good_col c) by (induction 1; intros c []; [subst; eapply mi_good; eassumption|auto]). intros c [I|I]; [apply (H _ _ F1), I|apply (H _ _ F2), I]. }
  destruct (C103_flow nw colours i' o' queues J E) as (R1 & R2 & R3).
  { intros c f i I D. apply (good_dom c i f (GN c I)), dget_In, D. }
  { exact DQ. }
  split; [apply (C103_json nw colours i' o' queues J E); [intros c f i I D; apply (good_dom c i f (GN c I)), D|exact DQ]|]. split; [exact R3|].
  assert (K : forall dir old new, Forall2 (merged_into coms m) old new -> (forall e c i, nth_error new e = Some c -> at_path [F "flow"; F dir; N e; F (str_nat i)] read_rc J = dget (c_fns c) i) -> forall e c, nth_error old e = Some c ->
      (forall i, ~ In i coms -> at_path [F "flow"; F dir; N e; F (str_nat i)] read_rc J = dget (c_fns c) i) /\
      (forall i, In i coms -> i <> m -> at_path [F "flow"; F dir; N e; F (str_nat i)] read_rc J = None) /\
      (clear_jumps coms c -> forall t, 0 <= t -> shown_rate dir J e m t = Ok (total_rate coms c t))).
  { intros dir old new FF RR e c Hc. destruct (nth_forall2 _ _ _ FF e c Hc) as (c' & Hc' & MI). split; [|split].
    - intros i I. rewrite (RR e c' i Hc'). apply (mi_others _ _ _ _ MI i I).
    - intros i I X. rewrite (RR e c' i Hc'). apply (mi_gone _ _ _ _ MI i I X).
    - intros CJ t T. pose proof (mi_total _ _ _ _ MI CJ t T) as Q. unfold shown_rate. rewrite (RR e c' m Hc'). unfold rate_of in Q. destruct (dget (c_fns c') m); exact Q. }
  intros dir old [[-> ->]|[-> ->]]; [apply (K _ _ i' F1 R1)|apply (K _ _ o' F2 R2)].
Qed.
Print Assumptions C103_merged.
Example C103_merged_hyps : drawable sample_nw [(0%nat, "red")] /\ (forall c, In c [mg_old; mg_old; mg_old] \/ In c [mg_old] -> good_col c) /\ clear_jumps [9; 4]%nat mg_old /\ pl_dom queue0.
Proof.
  split; [destruct C103_example as (J & _ & D & _); exact D|]. destruct C59_example_hyps as [G C]. split; [intros c [[<-|[<-|[<-|[]]]]|[<-|[]]]; exact G|]. split; [exact C|split; discriminate].
Qed.
