(** * Model of src/utilities/queues.py: PriorityQueue

    Items are hashable objects of any type with a decidable equality (the
    agreement of [__hash__] with [==] is assumed).  Keys are floats including
    the infinities ([ext]). *)
From Verif Require Import Base.

(** Python's [==] on items.  [i_dflt] is only used in proofs. *)
Class Item (A : Type) := { eqb : A -> A -> bool; eqbP : forall x y, reflect (x = y) (eqb x y); i_dflt : A }.
#[export] Instance Item_nat : Item nat := { eqb := Nat.eqb; eqbP := Nat.eqb_spec; i_dflt := 0%nat }.
Definition pair_eqb {A} (f : A -> A -> bool) (x y : A * Qc) : bool := (f (fst x) (fst y) && qeqb (snd x) (snd y))%bool.
Lemma pair_eqbP {A} (f : A -> A -> bool) : (forall x y, reflect (x = y) (f x y)) -> forall x y, reflect (x = y) (pair_eqb f x y).
Proof.
  intros H [a p] [b q]. unfold pair_eqb. cbn [fst snd]. destruct (H a b); cbn [andb]; [|constructor; congruence].
  destruct (qeqbP p q); constructor; congruence.
Qed.
(** tuples [(e, time)] *)
#[export] Instance Item_pair : Item (nat * Qc) :=
  { eqb := pair_eqb Nat.eqb; eqbP := pair_eqbP Nat.eqb Nat.eqb_spec; i_dflt := (0%nat, 0) }.

(** queues.py:13 the tuples [(key, insertion number, item)]. *)
Record entry (A : Type) := mkE { e_key : ext; e_idx : Z; e_item : A }.
Arguments mkE {A} _ _ _. Arguments e_key {A} _. Arguments e_idx {A} _. Arguments e_item {A} _.

(** Python's [<] on such tuples.  The third component is never compared
    because insertion numbers are unique in a queue (proved in PQProofs.v);
    the model returns False where Python would go on to compare the items. *)
Definition e_ltb {A} (a b : entry A) : bool :=
  (ext_ltb (e_key a) (e_key b) || (ext_eqb (e_key a) (e_key b) && (e_idx a <? e_idx b)%Z))%bool.

(** queues.py:13-15 the fields; the dict is a finite partial function. *)
Definition dict (A : Type) := A -> option nat.
Definition d_empty {A} : dict A := fun _ => None.
Section Queue.
Context {A : Type} {EA : Item A}.
Notation dict := (dict A). Notation entry := (entry A).
Definition d_set (d : dict) (k : A) (v : nat) : dict := fun x => if eqb x k then Some v else d x.
Definition d_del (d : dict) (k : A) : dict := fun x => if eqb x k then None else d x.
(** [d.pop(k)], KeyError if absent *)
Definition d_pop (d : dict) (k : A) : res dict :=
  match d k with Some _ => Ok (d_del d k) | None => Err KeyError end.
(** [d[k]] *)
Definition d_get (d : dict) (k : A) : res nat :=
  match d k with Some v => Ok v | None => Err KeyError end.

Record PQ := mkPQ { q_data : list entry; q_dict : dict; q_next : Z }.

(** Non-negative list indexing and assignment. *)
Definition getn {B} (l : list B) (i : nat) : res B :=
  match nth_error l i with Some a => Ok a | None => Err IndexError end.
Fixpoint upd {B} (l : list B) (i : nat) (x : B) : list B :=
  match l, i with
  | [], _ => []
  | _ :: r, O => x :: r
  | a :: r, S k => a :: upd r k x
  end.
Definition setn {B} (l : list B) (i : nat) (x : B) : res (list B) :=
  if (i <? length l)%nat then Ok (upd l i x) else Err IndexError.

(** [(pos - 1) >> 1] for pos >= 1 *)
Definition par (pos : nat) : nat := Nat.div2 (pos - 1).

(** queues.py:41-48 the loop of [_siftdown], then 49-50. *)
Fixpoint siftdown_loop (fuel : nat) (data : list entry) (d : dict) (newitem : entry) (startpos pos : nat)
  : res (list entry * dict) :=
  match fuel with
  | O => Err OutOfFuel
  | S k =>
      let finish := data' <- setn data pos newitem ;; Ok (data', d_set d (e_item newitem) pos) in
      if (startpos <? pos)%nat then
        parent <- getn data (par pos) ;;
        if e_ltb newitem parent then
          data' <- setn data pos parent ;;
          siftdown_loop k data' (d_set d (e_item parent) pos) newitem startpos (par pos)
        else finish
      else finish
  end.
(** queues.py:37-50 [_siftdown(startpos, pos)] *)
Definition siftdown (data : list entry) (d : dict) (startpos pos : nat) : res (list entry * dict) :=
  newitem <- getn data pos ;; siftdown_loop (S pos) data d newitem startpos pos.

(** queues.py:72-82 the loop of [_siftup]; returns data, dict and the final position. *)
Fixpoint siftup_loop (fuel : nat) (data : list entry) (d : dict) (pos : nat)
  : res (list entry * dict * nat) :=
  match fuel with
  | O => Err OutOfFuel
  | S k =>
      let childpos := (2 * pos + 1)%nat in
      if (childpos <? length data)%nat then
        let rightpos := (childpos + 1)%nat in
        c <- (if (rightpos <? length data)%nat then
                a <- getn data childpos ;; b <- getn data rightpos ;;
                Ok (if e_ltb a b then childpos else rightpos)
              else Ok childpos) ;;
        x <- getn data c ;;
        data' <- setn data pos x ;;
        siftup_loop k data' (d_set d (e_item x) pos) c
      else Ok (data, d, pos)
  end.
(** queues.py:66-87 [_siftup(pos)] *)
Definition siftup (data : list entry) (d : dict) (pos : nat) : res (list entry * dict) :=
  newitem <- getn data pos ;;
  '(data', d', p) <- siftup_loop (S (length data)) data d pos ;;
  data'' <- setn data' p newitem ;;
  siftdown data'' (d_set d' (e_item newitem) p) pos p.

(** heapq.heapify (CPython's Lib/heapq.py): [for i in reversed(range(n//2)): _siftup(x, i)].
    Its _siftup is the algorithm above without the dict; the model runs the
    version with a dict and throws the dict away. *)
Fixpoint heapify_loop (k : nat) (data : list entry) : res (list entry) :=
  match k with
  | O => Ok data
  | S i => '(data', _) <- siftup data d_empty i ;; heapify_loop i data'
  end.
Definition heapify (data : list entry) : res (list entry) := heapify_loop (Nat.div2 (length data)) data.

(** [{item: i for i, (_, _, item) in enumerate(data)}]: a later duplicate wins. *)
Fixpoint enum_dict (i : nat) (data : list entry) (d : dict) : dict :=
  match data with [] => d | e :: r => enum_dict (S i) r (d_set d (e_item e) i) end.
(** [[(key, i, item) for i, (item, key) in enumerate(initial)]] *)
Fixpoint enum_entries (i : Z) (l : list (A * ext)) : list entry :=
  match l with [] => [] | (it, key) :: r => mkE key i it :: enum_entries (i + 1) r end.

(** queues.py:17-26 [__init__]; [initial=None] behaves as the empty list. *)
Definition pq_init (initial : list (A * ext)) : res PQ :=
  match initial with
  | [] => Ok (mkPQ [] d_empty 0)
  | _ =>
      let data := enum_entries 0 initial in
      data' <- heapify data ;;
      Ok (mkPQ data' (enum_dict 0 data' d_empty) (Z.of_nat (length data)))
  end.

(** queues.py:117-118 [has] (and 114-115 [__contains__]) *)
Definition pq_has (q : PQ) (item : A) : bool := match q_dict q item with Some _ => true | None => false end.

(** queues.py:28-35 [push] *)
Definition pq_push (q : PQ) (item : A) (key : ext) : res PQ :=
  assert! negb (pq_has q item) ;;
  let data := q_data q ++ [mkE key (q_next q) item] in
  '(data', d') <- siftdown data (d_set (q_dict q) item (length data - 1)) 0 (length data - 1) ;;
  Ok (mkPQ data' d' (q_next q + 1)).

(** queues.py:52-64 [pop] *)
Definition pq_pop (q : PQ) : res (PQ * A) :=
  match rev (q_data q) with
  | [] => Err IndexError
  | lastelt :: rest =>
      let data := rev rest in
      d1 <- d_pop (q_dict q) (e_item lastelt) ;;
      match data with
      | [] => Ok (mkPQ [] d1 (q_next q), e_item lastelt)
      | returnitem :: _ =>
          d2 <- d_pop d1 (e_item returnitem) ;;
          data1 <- setn data 0 lastelt ;;
          '(data', d') <- siftup data1 (d_set d2 (e_item lastelt) 0) 0 ;;
          Ok (mkPQ data' d' (q_next q), e_item returnitem)
      end
  end.

(** queues.py:89-90 [next] *)
Definition pq_next (q : PQ) : res A := e <- getn (q_data q) 0 ;; Ok (e_item e).

(** queues.py:92-95 [key_of(item, default)] *)
Definition pq_key_of (q : PQ) (item : A) (default : option ext) : res (option ext) :=
  match q_dict q item with
  | None => Ok default
  | Some i => e <- getn (q_data q) i ;; Ok (Some (e_key e))
  end.

(** queues.py:97-101 [decrease_key] (does not check that the key decreases) *)
Definition pq_decrease_key (q : PQ) (item : A) (key : ext) : res PQ :=
  assert! pq_has q item ;;
  pos <- d_get (q_dict q) item ;;
  e <- getn (q_data q) pos ;;
  data <- setn (q_data q) pos (mkE key (e_idx e) item) ;;
  '(data', d') <- siftdown data (q_dict q) 0 pos ;;
  Ok (mkPQ data' d' (q_next q)).

(** queues.py:103-104 [min_key] *)
Definition pq_min_key (q : PQ) : ext := match q_data q with [] => PInf | e :: _ => e_key e end.

(** [heapq.nsmallest(len(data), data)] is [sorted(data)]; modelled as an
    insertion sort by the tuple order. *)
Fixpoint e_insert (e : entry) (l : list entry) : list entry :=
  match l with [] => [e] | x :: r => if e_ltb x e then x :: e_insert e r else e :: x :: r end.
Fixpoint e_sort (l : list entry) : list entry :=
  match l with [] => [] | x :: r => e_insert x (e_sort r) end.
(** queues.py:106-109 [sorted] *)
Definition pq_sorted (q : PQ) : list A := map e_item (e_sort (q_data q)).

(** queues.py:111-112 [__len__] *)
Definition pq_len (q : PQ) : nat := length (q_data q).

(** queues.py:120-127 [update] *)
Definition pq_update (q : PQ) (item : A) (new_key : ext) : res PQ :=
  assert! pq_has q item ;;
  index <- d_get (q_dict q) item ;;
  e <- getn (q_data q) index ;;
  if ext_leb new_key (e_key e) then pq_decrease_key q item new_key
  else
    data <- setn (q_data q) index (mkE new_key (e_idx e) item) ;;
    '(data', d') <- siftup data (q_dict q) index ;;
    Ok (mkPQ data' d' (q_next q)).

(** queues.py:129-133 [set] *)
Definition pq_set (q : PQ) (item : A) (new_key : ext) : res PQ :=
  if pq_has q item then pq_update q item new_key else pq_push q item new_key.

(** queues.py:141-157 the loop of [increase_key]: every path leaves the loop
    without ever storing [new_entry]. *)
Fixpoint increase_loop (fuel : nat) (data : list entry) (d : dict) (new_entry : entry) (pos : nat)
  : res (list entry * dict) :=
  match fuel with
  | O => Err OutOfFuel
  | S k =>
      let left := (2 * pos + 1)%nat in let right := (2 * pos + 2)%nat in
      if (left <? length data)%nat then
        smallest <- (if (right <? length data)%nat then
                       a <- getn data right ;; b <- getn data left ;;
                       Ok (if e_ltb a b then right else left)
                     else Ok left) ;;
        x <- getn data smallest ;;
        if negb (e_ltb new_entry x) then Ok (data, d)
        else
          data' <- setn data pos x ;;
          increase_loop k data' (d_set d (e_item x) pos) new_entry smallest
      else Ok (data, d)
  end.
(** queues.py:135-157 [increase_key] *)
Definition pq_increase_key (q : PQ) (item : A) (new_key : ext) : res PQ :=
  assert! pq_has q item ;;
  pos <- d_get (q_dict q) item ;;
  e <- getn (q_data q) pos ;;
  let new_entry := mkE new_key (e_idx e) item in
  assert! negb (e_ltb new_entry e) ;;
  '(data', d') <- increase_loop (S (length (q_data q))) (q_data q) (q_dict q) new_entry pos ;;
  Ok (mkPQ data' d' (q_next q)).

(** queues.py:158-164 [remove] *)
Definition pq_remove (q : PQ) (item : A) : res PQ :=
  assert! pq_has q item ;;
  pos <- d_get (q_dict q) item ;;
  data <- setn (q_data q) pos (mkE NInf (-1) item) ;;
  '(data', d') <- siftdown data (q_dict q) 0 pos ;;
  root <- getn data' 0 ;;
  assert! eqb (e_item root) item ;;
  r <- pq_pop (mkPQ data' d' (q_next q)) ;;
  Ok (fst r).
End Queue.
Arguments PQ A : clear implicits.
Arguments mkPQ {A} _ _ _. Arguments q_data {A} _. Arguments q_dict {A} _. Arguments q_next {A} _.
