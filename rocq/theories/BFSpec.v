(** * Specification vocabulary for bellman_ford (C43) *)
From Verif Require Import Base Spec Arrays PL PL2 PLProofs PLArith PLOps RC FRC PQ PQSpec DynFlow Graph GraphSpec Dijkstra BellmanFord.

(** [walk v k t s]: leaving [v] at time [t], some walk with [k] edges whose
    tails are interesting nodes arrives at [sink] at time [s], and its nodes
    are all reached in the period [phi, horizon]; the cost of edge [e] at
    time [t] is [costs[e.id](t)]. *)
Inductive walk (g : graph) (costs : list PL) (interesting : list nat) (sink : nat) (phi : Qc) (horizon : ext) : nat -> nat -> Qc -> Qc -> Prop :=
  | walk_here t : phi <= t -> ext_le (Fin t) horizon -> walk g costs interesting sink phi horizon sink 0 t t
  | walk_via e k t s f c : phi <= t -> ext_le (Fin t) horizon -> In e (g_edges g) -> In (e_from g e) interesting ->
      nth_error costs (e_id g e) = Some f -> pl_eval f t = Ok c ->
      walk g costs interesting sink phi horizon (e_to g e) k (t + c) s ->
      walk g costs interesting sink phi horizon (e_from g e) (S k) t s.

(** A cost function fit for the search on [phi, horizon]: defined,
    non-negative and FIFO there, with outer slopes that keep [t + cost t]
    increasing before the first and after the last breakpoint, and with
    breakpoints that are not within eps of [phi] or [horizon]. *)
Record good_cost (phi : Qc) (horizon : ext) (c : PL) : Prop := {
  gc_valid : valid c;
  gc_lo : ext_le (pl_lo c) (Fin phi); gc_hi : ext_le horizon (pl_hi c);
  gc_sep : plus_sep (mkPL [phi] [phi] 1 1 (Fin phi) horizon) c;
  gc_nonneg : forall t y, phi <= t -> ext_le (Fin t) horizon -> pl_eval c t = Ok y -> 0 <= y;
  gc_fifo : forall t u x y, phi <= t -> t <= u -> ext_le (Fin u) horizon ->
    pl_eval c t = Ok x -> pl_eval c u = Ok y -> t + x <= u + y;
  gc_first : 0 < 1 + pl_first c; gc_last : 0 <= pl_last c }.

(** The smaller one of two partial values. *)
Definition least (a b : res Qc) : res Qc :=
  match a, b with Ok x, Ok y => Ok (qmin x y) | Ok x, Err _ => Ok x | Err _, _ => b end.
(** The calls that the search makes do what they are meant to do; up to time
    [until] the test [smaller_equals] may be wrong by [tol] in one direction. *)
Definition exact (until tol : Qc) (e : ev) : Prop :=
  match e with
  | EvSimplify f r => valid r /\ forall t, pl_eval r t = pl_eval f t
  | EvMin f g r => valid r /\ forall t, pl_eval r t = least (pl_eval f t) (pl_eval g t)
  | EvLe f g b => b = true -> forall t y, t <= until -> pl_eval g t = Ok y -> exists x, pl_eval f t = Ok x /\ x <= y + tol
  | EvCompose g f r => valid r /\ forall t, pl_eval r t = (y <- pl_eval f t ;; pl_eval g y)
  end.
