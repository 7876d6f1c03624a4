(** * eval_network_for_commodities (src/eval/evaluate_network.py:145-210) with the
      code that prepares the network of a commodity *)
From Verif Require Import Base Spec Graph EvalLock.

(** evaluate_network.py:160-183: [random_commodities] appends a commodity (its
    random source and sink are given by [random k]) and selects it. *)
Definition prepare (nw : network) (random : option (nat -> commodity)) (k : nat) : res network :=
  match random with
  | None => remove_unnecessary_commodities nw k
  | Some c => remove_unnecessary_commodities (mkNw (w_graph nw) (w_cap nw) (w_tau nw) (w_com nw ++ [c k])) (length (w_com nw ++ [c k]) - 1)
  end.
(** A step of a process: the result file of commodity [k] is opened (inside
    [evaluate_single_run], line 185) only if the preparation returned. *)
Definition cstep (nw : network) (random : option (nat -> commodity)) (p : nat) (s s' : est) : Prop :=
  estep (length (w_com nw)) p s s' /\
  forall k, at_ s p = Eval k -> at_ s' p = Writing k -> exists nw', prepare nw random k = Ok nw'.
Inductive creach (nw : network) (random : option (nat -> commodity)) (s0 : est) : est -> Prop :=
| cr_refl : creach nw random s0 s0
| cr_step s p s' : creach nw random s0 s -> cstep nw random p s s' -> creach nw random s0 s'.
