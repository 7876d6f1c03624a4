(** * Floating-point arithmetic: the routing code with rounded operations

    In the rest of the model numbers are exact.  Here every arithmetic operation
    of the routing code (core/dijkstra.py and the choice of active edges in
    core/flow_builder.py) is rounded: a Python float operation without overflow
    returns the exact result rounded by a function [rnd], and comparisons of
    floats are exact.  Numbers are the values of floats; NaN and infinities do
    not occur (no overflow). *)
From Coq Require Import Qround.
From Verif Require Import Base Spec Arrays PL RC FRC PQ PQSpec DynFlow Graph Dijkstra FlowBuilder.

(** What is used of a rounding: it is monotone and leaves its results alone. *)
Record rounding (rnd : Qc -> Qc) : Prop := {
  rnd_mono : forall x y, x <= y -> rnd x <= rnd y;
  rnd_idem : forall x, rnd (rnd x) = rnd x;
  rnd_0 : rnd 0 = 0 }.
(** [x] is the value of a float. *)
Definition float (rnd : Qc -> Qc) (x : Qc) : Prop := rnd x = x.

(** ** IEEE 754 binary64, round to nearest, ties to even (without overflow) *)
Definition pow2 (e : Z) : Qc := if (0 <=? e)%Z then qz (2 ^ e) else / qz (2 ^ (- e)).
(** The exponent: the greatest [e] with [pow2 e <= |x|] (for [x <> 0]). *)
Definition qexp (x : Qc) : Z :=
  let a := qabs x in
  let e := (Z.log2 (Qnum (this a)) - Z.log2 (Z.pos (Qden (this a))))%Z in
  if qleb (pow2 e) a then e else (e - 1)%Z.
Definition nearest_even (x : Qc) : Z :=
  let f := Qfloor (this x) in
  let d := x - qz f in
  if qltb d (Q2Qc (1 # 2)) then f
  else if qltb (Q2Qc (1 # 2)) d then (f + 1)%Z
  else if Z.even f then f else (f + 1)%Z.
(** 53 binary digits, least exponent -1074 *)
Definition ulp_exp (x : Qc) : Z := Z.max (qexp x - 52) (-1074).
Definition rnd64 (x : Qc) : Qc := qz (nearest_even (x / pow2 (ulp_exp x))) * pow2 (ulp_exp x).

Section Routing.
Variable rnd : Qc -> Qc.
(** core/machine_precision.py:1: the float that is read from [1e-10] *)
Definition r_eps : Qc := rnd eps.

(** ** dijkstra.py *)
(** dijkstra.py:20-33 *)
Definition r_rd_edge (g : graph) (costs : list Qc) (nodes : list nat) (w : nat)
    (s : list (nat * Qc) * @squeue nat) (edge : nat) : res (list (nat * Qc) * @squeue nat) :=
  let '(dist, queue) := s in
  let v := e_from g edge in
  if negb (mem v nodes) then Ok s else
  c <- fetch costs (e_id g edge) ;;
  dw <- dfetch dist w ;;
  let relaxation := rnd (c + dw) in
  match dget dist v with
  | None => q <- sq_push queue v (Fin relaxation) ;; Ok (dset dist v relaxation, q)
  | Some dv =>
      if qltb relaxation (rnd (dv - r_eps)) then
        q <- (if sq_has queue v then sq_decrease queue v (Fin relaxation) else sq_push queue v (Fin relaxation)) ;;
        Ok (dset dist v relaxation, q)
      else Ok s
  end.
(** dijkstra.py:18-33 *)
Fixpoint r_rd_loop (fuel : nat) (g : graph) (costs : list Qc) (nodes : list nat)
    (dist : list (nat * Qc)) (queue : @squeue nat) : res (list (nat * Qc)) :=
  if (0 <? sq_len queue)%nat then
    match fuel with
    | 0%nat => Err OutOfFuel
    | S f =>
        '(q, w) <- sq_pop queue ;;
        '(dist', q') <- foldM (r_rd_edge g costs nodes w) (incoming g w) (dist, q) ;;
        r_rd_loop f g costs nodes dist' q'
    end
  else Ok dist.
(** dijkstra.py:10-35 *)
Definition r_reverse_dijkstra (g : graph) (sink : nat) (costs : list Qc) (nodes : list nat) : res (list (nat * Qc)) :=
  assert! mem sink nodes ;;
  r_rd_loop (S (length (g_nodes g))) g costs nodes [(sink, 0)] (sq_set sq_empty sink (Fin 0)).
(** dijkstra.py:64-73 *)
Definition r_dd_edge (g : graph) (relevant : list nat) (costs : list costfn) (arrival : list (nat * Qc)) (v : nat)
    (s : list (nat * Qc) * @squeue nat) (e : nat) : res (list (nat * Qc) * @squeue nat) :=
  let '(realized, queue) := s in
  let w := e_to g e in
  if (dhas arrival w || negb (mem w relevant))%bool then Ok s else
  f <- fetch costs (e_id g e) ;;
  tv <- dfetch arrival v ;;
  c <- f tv ;;
  let realized := dset realized e c in
  let relaxation := rnd (tv + c) in
  match sq_key_of queue w with
  | None => q <- sq_push queue w (Fin relaxation) ;; Ok (realized, q)
  | Some k => if ext_ltb (Fin relaxation) k
              then q <- sq_decrease queue w (Fin relaxation) ;; Ok (realized, q)
              else Ok (realized, queue)
  end.
(** dijkstra.py:58-73 *)
Fixpoint r_dd_loop (fuel : nat) (g : graph) (sink : nat) (relevant : list nat) (costs : list costfn)
    (arrival realized : list (nat * Qc)) (queue : @squeue nat) : res ddresult :=
  if (0 <? sq_len queue)%nat then
    match fuel with
    | 0%nat => Err OutOfFuel
    | S f =>
        let key := sq_min_key queue in
        '(q, v) <- sq_pop queue ;;
        match key with
        | Fin t =>
            let arrival := dset arrival v t in
            if Nat.eqb v sink then Ok (mkDD arrival realized) else
            '(realized', q') <- foldM (r_dd_edge g relevant costs arrival v) (outgoing g v) (realized, q) ;;
            r_dd_loop f g sink relevant costs arrival realized' q'
        | _ => Err NotModelled
        end
    end
  else Ok (mkDD arrival realized).
(** dijkstra.py:43-74 *)
Definition r_dynamic_dijkstra (g : graph) (phi : Qc) (source sink : nat) (relevant : list nat) (costs : list costfn) : res ddresult :=
  r_dd_loop (S (length (g_nodes g))) g sink relevant costs [] [] (sq_set sq_empty source (Fin phi)).
(** dijkstra.py:88-97 *)
Definition r_ae_edge (g : graph) (r : ddresult) (source w : nat)
    (s : list nat * list nat * list nat) (e : nat) : res (list nat * list nat * list nat) :=
  let '(active, touched, queue) := s in
  match dget (dd_cost r) e with
  | None => Ok s
  | Some c =>
      let v := e_from g e in
      tv <- dfetch (dd_arrival r) v ;;
      tw <- dfetch (dd_arrival r) w ;;
      if qleb (rnd (tv + c)) (rnd (tw + r_eps)) then
        let active := if Nat.eqb v source then active ++ [e] else active in
        if mem v touched then Ok (active, touched, queue) else Ok (active, v :: touched, v :: queue)
      else Ok s
  end.
(** dijkstra.py:86-97 *)
Fixpoint r_ae_loop (fuel : nat) (g : graph) (r : ddresult) (source : nat)
    (active touched queue : list nat) : res (list nat) :=
  match queue with
  | [] => Ok active
  | w :: q => match fuel with
              | 0%nat => Err OutOfFuel
              | S f =>
                  '(active', touched', q') <- foldM (r_ae_edge g r source w) (incoming g w) (active, touched, q) ;;
                  r_ae_loop f g r source active' touched' q'
              end
  end.
(** dijkstra.py:77-100 *)
Definition r_get_active_edges_from_dijkstra (g : graph) (r : ddresult) (source sink : nat) : res (list nat) :=
  active <- r_ae_loop (S (length (g_nodes g))) g r source [] [sink] [sink] ;;
  assert! (0 <? length active)%nat ;;
  Ok active.

(** ** flow_builder.py *)
(** flow_builder.py:163-170 *)
Fixpoint r_tight_edges (g : graph) (costs : list Qc) (dist : list (nat * Qc)) (v : nat) (l : list nat) : res (list nat) :=
  match l with
  | [] => Ok []
  | e :: r =>
      match dget dist (e_to g e) with
      | None => r_tight_edges g costs dist v r
      | Some dw =>
          c <- fetch costs (e_id g e) ;;
          dv <- dfetch dist v ;;
          rest <- r_tight_edges g costs dist v r ;;
          Ok (if qleb (rnd (c + dw)) (rnd (dv + r_eps)) then e :: rest else rest)
      end
  end.
(** flow_builder.py:158-171: the active edges of node [v] towards [sink] for
    constant costs, with the assertion that there is one *)
Definition r_active_constant (g : graph) (sink : nat) (costs : list Qc) (nodes : list nat) (v : nat) : res (list nat) :=
  dist <- r_reverse_dijkstra g sink costs nodes ;;
  l <- r_tight_edges g costs dist v (outgoing g v) ;;
  assert! (0 <? length l)%nat ;; Ok l.
(** flow_builder.py:179-188: the active edges of [s] for time-dependent costs *)
Definition r_active_dynamic (g : graph) (phi : Qc) (s sink : nat) (nodes : list nat) (costs : list costfn) : res (list nat) :=
  r <- r_dynamic_dijkstra g phi s sink nodes costs ;; r_get_active_edges_from_dijkstra g r s sink.
End Routing.
