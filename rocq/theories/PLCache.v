(** * The caches and the list sharing of PiecewiseLinear objects

    piecewise_linear.py:152, 176, 268 decorate [_eval_with_rank], [gradient]
    and [compose] with [functools.lru_cache] (128 entries each, shared by all
    objects of the class, keyed by object identity and arguments).  Objects are
    mutable: [extend_with_slope] changes the lists [times] and [values] in
    place, and [__neg__] (191-198) hands its own [times] list to the new
    object.  PL.v and PL2.v model these methods as pure functions; this file
    models a heap of objects with the caches and runs the methods on it.
    Modelled this way: [eval], [eval_from_end], [gradient], [inverse], [image],
    [compose], [plus], [simplify], [__neg__], [extend_with_slope]. *)
From Verif Require Import Base Arrays PL PL2 PQ.

(** ** The heap *)
(** An object: references to its two lists, slopes and domain (10-15). *)
Record obj := mkObj { o_t : nat; o_v : nat; o_first : Qc; o_last : Qc; o_lo : ext; o_hi : ext }.
(** List objects and function objects, both addressed by position. *)
Record store := mkStore { s_cells : list (list Qc); s_objs : list obj }.
Definition view (s : store) (o : nat) : res PL :=
  ob <- getn (s_objs s) o ;; t <- getn (s_cells s) (o_t ob) ;; v <- getn (s_cells s) (o_v ob) ;;
  Ok (mkPL t v (o_first ob) (o_last ob) (o_lo ob) (o_hi ob)).

(** [lru_cache]: most recently used entry first. *)
Definition ekey := (nat * ext * Z)%type.
Definition gkey := (nat * Z)%type.
Definition ckey := (nat * nat)%type.
Definition ekey_eqb (a b : ekey) : bool :=
  (Nat.eqb (fst (fst a)) (fst (fst b)) && ext_eqb (snd (fst a)) (snd (fst b)) && Z.eqb (snd a) (snd b))%bool.
Definition gkey_eqb (a b : gkey) : bool := (Nat.eqb (fst a) (fst b) && Z.eqb (snd a) (snd b))%bool.
Definition ckey_eqb (a b : ckey) : bool := (Nat.eqb (fst a) (fst b) && Nat.eqb (snd a) (snd b))%bool.
Definition lookup {K V} (eqb : K -> K -> bool) (k : K) (l : list (K * V)) : option V :=
  match find (fun p => eqb k (fst p)) l with Some p => Some (snd p) | None => None end.
(** a hit moves the entry to the front *)
Definition touch {K V} (eqb : K -> K -> bool) (k : K) (v : V) (l : list (K * V)) : list (K * V) :=
  (k, v) :: filter (fun p => negb (eqb k (fst p))) l.
(** a miss inserts in front and drops the least recently used entry of a full cache *)
Definition insert {K V} (k : K) (v : V) (l : list (K * V)) : list (K * V) := firstn 128 ((k, v) :: l).

Record heap := mkHeap {
  h_st : store;
  h_ev : list (ekey * ext); h_gr : list (gkey * Qc); h_co : list (ckey * nat) }.
Definition h_empty : heap := mkHeap (mkStore [] []) [] [] [].
Definition with_ev h x := mkHeap (h_st h) x (h_gr h) (h_co h).
Definition with_gr h x := mkHeap (h_st h) (h_ev h) x (h_co h).
Definition with_co h x := mkHeap (h_st h) (h_ev h) (h_gr h) x.
(** 524-530 [cache_clear] of all three caches *)
Definition cleared (s : store) : heap := mkHeap s [] [] [].

(** ** Programs on the heap: they may raise, and keep their effects when they do *)
Definition M (A : Type) := heap -> res A * heap.
Definition ret {A} (r : res A) : M A := fun h => (r, h).
Definition mbind {A B} (m : M A) (k : A -> M B) : M B :=
  fun h => match m h with (Ok a, h') => k a h' | (Err e, h') => (Err e, h') end.
Notation "x <-- e ;;; k" := (mbind e (fun x => k)) (at level 61, e at next level, right associativity).
Notation "' p <-- e ;;; k" := (mbind e (fun x => let p := x in k)) (at level 61, p pattern, e at next level, right associativity).
Definition read (o : nat) : M PL := fun h => (view (h_st h) o, h).
Fixpoint mapMM {A B} (f : A -> M B) (l : list A) : M (list B) :=
  match l with [] => ret (Ok []) | x :: r => y <-- f x ;;; ys <-- mapMM f r ;;; ret (Ok (y :: ys)) end.
Fixpoint foldMM {A S} (f : S -> A -> M S) (l : list A) (s : S) : M S :=
  match l with [] => ret (Ok s) | x :: r => s' <-- f s x ;;; foldMM f r s' end.

(** 176-189 [gradient(i)] behind its cache; exceptions are not cached. *)
Definition gradient_m (o : nat) (i : Z) : M Qc := fun h =>
  match lookup gkey_eqb (o, i) (h_gr h) with
  | Some v => (Ok v, with_gr h (touch gkey_eqb (o, i) v (h_gr h)))
  | None =>
      match (f <- view (h_st h) o ;; gradient f i) with
      | Ok v => (Ok v, with_gr h (insert (o, i) v (h_gr h)))
      | Err e => (Err e, h)
      end
  end.

(** 152-174 the body of [_eval_with_rank(at, rnk)]; it calls the cached [gradient]. *)
Definition eval_body (o : nat) (at_ : ext) (rnk : Z) : M ext :=
  f <-- read o ;;;
  match at_ with
  | Fin a =>
    _ <-- ret (assertb (ext_leb (pl_lo f) (Fin a) && ext_leb (Fin a) (pl_hi f))%bool) ;;;
    _ <-- ret (assertb ((-1 <=? rnk)%Z && (rnk <=? pl_len f)%Z)%bool) ;;;
    t0 <-- ret (pyget (pl_times f) 0) ;;;
    _ <-- ret (assertb (negb (rnk =? -1)%Z || qleb a t0)%bool) ;;;
    tl <-- ret (pyget (pl_times f) (-1)) ;;;
    _ <-- ret (assertb (negb (rnk =? pl_len f - 1)%Z || qltb tl a)%bool) ;;;
    _ <-- ret (if ((-1 <? rnk)%Z && (rnk <? pl_len f - 1)%Z)%bool then
                 tr <- pyget (pl_times f) rnk ;; tr1 <- pyget (pl_times f) (rnk + 1) ;;
                 assertb (qltb tr a && qleb a tr1)%bool
               else Ok tt) ;;;
    if (rnk =? -1)%Z then
      g <-- gradient_m o rnk ;;; v0 <-- ret (pyget (pl_values f) 0) ;;;
      ret (Ok (Fin (v0 + (a - t0) * g)))
    else if (rnk =? pl_len f - 1)%Z then
      g <-- gradient_m o rnk ;;; vl <-- ret (pyget (pl_values f) (-1)) ;;;
      ret (Ok (Fin (vl + (a - tl) * g)))
    else
      v <-- ret (pyget (pl_values f) rnk) ;;; t <-- ret (pyget (pl_times f) rnk) ;;;
      g <-- gradient_m o rnk ;;;
      ret (Ok (Fin (v + (a - t) * g)))
  | NInf =>   (* only called with rnk = -1 *)
    _ <-- ret (assertb (ext_leb (pl_lo f) NInf)) ;;;
    g <-- gradient_m o (-1) ;;; v0 <-- ret (pyget (pl_values f) 0) ;;;
    ret (Ok (if qeqb g 0 then Fin v0 else inf_mul false g))
  | PInf =>   (* only called with rnk = len(times) - 1 *)
    _ <-- ret (assertb (ext_leb PInf (pl_hi f))) ;;;
    g <-- gradient_m o (pl_len f - 1) ;;; vl <-- ret (pyget (pl_values f) (-1)) ;;;
    ret (Ok (if qeqb g 0 then Fin vl else inf_mul true g))
  end.
(** ... and the cache in front of it. *)
Definition eval_with_rank_m (o : nat) (at_ : ext) (rnk : Z) : M ext := fun h =>
  match lookup ekey_eqb (o, at_, rnk) (h_ev h) with
  | Some v => (Ok v, with_ev h (touch ekey_eqb (o, at_, rnk) v (h_ev h)))
  | None =>
      match eval_body o at_ rnk h with
      | (Ok v, h') => (Ok v, with_ev h' (insert (o, at_, rnk) v (h_ev h')))
      | (Err e, h') => (Err e, h')
      end
  end.
(** 55-63 [eval(at)] *)
Definition eval_m (o : nat) (at_ : ext) : M ext :=
  f <-- read o ;;;
  _ <-- ret (assertb (ext_leb (pl_lo f) at_ && ext_leb at_ (pl_hi f))%bool) ;;;
  rnk <-- ret (elem_rank_ext (pl_times f) at_) ;;;
  eval_with_rank_m o at_ rnk.
(** [eval] at a finite argument yields a finite value *)
Definition eval_fin_m (o : nat) (a : Qc) : M Qc :=
  y <-- eval_m o (Fin a) ;;; ret match y with Fin q => Ok q | _ => Err NotModelled end.
(** 124-135 [eval_from_end(at)] *)
Definition eval_from_end_m (o : nat) (a : Qc) : M ext :=
  f <-- read o ;;;
  _ <-- ret (assertb (ext_leb (pl_lo f) (Fin a) && ext_leb (Fin a) (pl_hi f))%bool) ;;;
  rnk <-- ret (scan_back (pl_times f) a (length (pl_times f))) ;;;
  eval_with_rank_m o (Fin a) rnk.
(** 409-411 [image] *)
Definition image_m (o : nat) : M (ext * ext) :=
  f <-- read o ;;;
  _ <-- ret (assertb (is_monotone f)) ;;;
  a <-- eval_m o (pl_lo f) ;;; b <-- eval_m o (pl_hi f) ;;; ret (Ok (a, b)).
(** 246-266 [inverse(x, i)] *)
Definition inverse_m (o : nat) (x : Qc) (i : Z) : M Qc :=
  f <-- read o ;;;
  _ <-- ret (assertb ((-1 <=? i)%Z && (i <? pl_len f)%Z)%bool) ;;;
  if (i =? -1)%Z then
    g <-- gradient_m o i ;;; v0 <-- ret (pyget (pl_values f) 0) ;;; t0 <-- ret (pyget (pl_times f) 0) ;;;
    _ <-- ret (assertb ((qltb 0 g && qleb x v0) || (qltb g 0 && qleb v0 x))%bool) ;;;
    d <-- ret (pydiv (x - v0) g) ;;; ret (Ok (t0 + d))
  else if (i =? pl_len f - 1)%Z then
    g <-- gradient_m o i ;;; v0 <-- ret (pyget (pl_values f) 0) ;;;
    _ <-- ret (assertb ((qltb 0 g && qleb v0 x) || (qltb g 0 && qleb x v0))%bool) ;;;
    tl <-- ret (pyget (pl_times f) (-1)) ;;; vl <-- ret (pyget (pl_values f) (-1)) ;;;
    d <-- ret (pydiv (x - vl) g) ;;; ret (Ok (tl + d))
  else ret (inverse f x i).

(** 293-300 and 305-312, the [while] loop of [compose] *)
Fixpoint comp_while_m (fuel : nat) (og of_ : nat) (im0 : ext) (i_f : Z) (bound : ext)
    (i_g : Z) (pts : list (Qc * Qc)) : M (Z * list (Qc * Qc)) :=
  match fuel with
  | O => ret (Err OutOfFuel)
  | S k =>
      g <-- read og ;;;
      if (i_g <? pl_len g)%Z then
        tg <-- ret (pyget (pl_times g) i_g) ;;;
        if ext_leb (Fin tg) bound then
          next <-- ret (match ext_max im0 (Fin tg) with Fin n => Ok n | _ => Err NotModelled end) ;;;
          s <-- gradient_m of_ i_f ;;;
          pts' <-- (if qeqb s 0 then ret (Ok pts)
                    else
                      x <-- inverse_m of_ next i_f ;;;
                      if match pts with [] => true | (t, _) :: _ => qltb (t + eps) x end then
                        y <-- eval_fin_m og next ;;; ret (Ok ((x, y) :: pts))
                      else ret (Ok pts)) ;;;
          comp_while_m k og of_ im0 i_f bound (i_g + 1) pts'
        else ret (Ok (i_g, pts))
      else ret (Ok (i_g, pts))
  end.
(** 292-303 *)
Definition comp_step_m (og of_ : nat) (im0 : ext) (st : Z * list (Qc * Qc)) (n : nat) : M (Z * list (Qc * Qc)) :=
  let i_f := (Z.of_nat n - 1)%Z in
  g <-- read og ;;; f <-- read of_ ;;;
  v <-- ret (pyget (pl_values f) (i_f + 1)) ;;;
  '(i_g, pts) <-- comp_while_m (S (length (pl_times g))) og of_ im0 i_f (Fin v) (fst st) (snd st) ;;;
  t <-- ret (pyget (pl_times f) (i_f + 1)) ;;;
  if match pts with [] => true | (t', _) :: _ => qltb (t' + eps) t end then
    y <-- eval_fin_m og v ;;; ret (Ok (i_g, (t, y) :: pts))
  else ret (Ok (i_g, pts)).
(** 269-316, the body of [compose] up to the fields of the new object *)
Definition compose_body (og of_ : nat) : M PL :=
  g <-- read og ;;; f <-- read of_ ;;;
  _ <-- ret (assertb (is_monotone f)) ;;;
  '(im0, im1) <-- image_m of_ ;;;
  _ <-- ret (assertb (ext_leb (pl_lo g) (ext_add im0 eps) && ext_leb (ext_add im1 (- eps)) (pl_hi g))%bool) ;;;
  g_rnk <-- ret (elem_rank_ext (pl_times g) im0) ;;;
  gs <-- gradient_m og g_rnk ;;;
  let first_slope := gs * pl_first f in
  let i_g := Z.max 0 g_rnk in
  _ <-- ret (if (i_g =? pl_len g - 1)%Z then Ok tt
             else t <- pyget (pl_times g) (i_g + 1) ;; assertb (ext_leb (pl_lo f) (Fin t))) ;;;
  st <-- foldMM (comp_step_m og of_ im0) (seq 0 (length (pl_times f))) (i_g, []) ;;;
  '(j, pts) <-- comp_while_m (S (length (pl_times g))) og of_ im0 (pl_len f - 1) im1 (fst st) (snd st) ;;;
  ls <-- gradient_m og (j - 1) ;;;
  ret (pl_init (rev (map fst pts)) (rev (map snd pts)) first_slope (ls * pl_last f) (pl_lo f) (pl_hi f)).

(** A new object with lists of its own. *)
Definition alloc (p : PL) : M nat := fun h =>
  let s := h_st h in let n := length (s_cells s) in
  (Ok (length (s_objs s)),
   mkHeap (mkStore (s_cells s ++ [pl_times p; pl_values p])
                   (s_objs s ++ [mkObj n (S n) (pl_first p) (pl_last p) (pl_lo p) (pl_hi p)]))
          (h_ev h) (h_gr h) (h_co h)).
(** A new object that takes over the [times] list of [o]. *)
Definition alloc_sharing (o : nat) (p : PL) : M nat := fun h =>
  let s := h_st h in let n := length (s_cells s) in
  match getn (s_objs s) o with
  | Err e => (Err e, h)
  | Ok ob =>
      (Ok (length (s_objs s)),
       mkHeap (mkStore (s_cells s ++ [pl_values p])
                       (s_objs s ++ [mkObj (o_t ob) n (pl_first p) (pl_last p) (pl_lo p) (pl_hi p)]))
              (h_ev h) (h_gr h) (h_co h))
  end.

(** 268-316 [compose(f)] behind its cache *)
Definition compose_m (og of_ : nat) : M nat := fun h =>
  match lookup ckey_eqb (og, of_) (h_co h) with
  | Some o => (Ok o, with_co h (touch ckey_eqb (og, of_) o (h_co h)))
  | None =>
      match (p <-- compose_body og of_ ;;; alloc p) h with
      | (Ok o, h') => (Ok o, with_co h' (insert (og, of_) o (h_co h')))
      | (Err e, h') => (Err e, h')
      end
  end.

(** 29-53 the constructor, called with lists nobody else holds *)
Definition new_m (times values : list Qc) (first last : Qc) (lo hi : ext) : M nat :=
  p <-- ret (pl_init times values first last lo hi) ;;; alloc p.
(** 191-198 [__neg__] passes [self.times] on *)
Definition neg_m (o : nat) : M nat :=
  f <-- read o ;;; p <-- ret (pl_neg f) ;;; alloc_sharing o p.
(** 205-244 [plus] *)
Definition plus_m (a b : nat) : M nat :=
  f <-- read a ;;; g <-- read b ;;;
  let lo := ext_max (pl_lo f) (pl_lo g) in
  let hi := ext_min (pl_hi f) (pl_hi g) in
  _ <-- ret (assertb (ext_ltb lo hi)) ;;;
  times1 <-- ret (cut_lo (merge_sorted (pl_times f) (pl_times g)) lo) ;;;
  times <-- ret (cut_hi times1 hi) ;;;
  values <-- mapMM (fun phi => x <-- eval_fin_m a phi ;;; y <-- eval_fin_m b phi ;;; ret (Ok (x + y))) times ;;;
  new_m times values (pl_first f + pl_first g) (pl_last f + pl_last g) lo hi.
(** 137-150 [simplify] *)
Definition simplify_m (o : nat) : M nat :=
  f <-- read o ;;;
  t0 <-- ret (pyget (pl_times f) 0) ;;; v0 <-- ret (pyget (pl_values f) 0) ;;;
  acc <-- foldMM (fun (acc : list Qc * list Qc) (i : nat) =>
            g0 <-- gradient_m o (Z.of_nat i) ;;; g1 <-- gradient_m o (Z.of_nat i + 1) ;;;
            if qleb eps1000 (qabs (g0 - g1)) then
              t <-- ret (pyget (pl_times f) (Z.of_nat i + 1)) ;;;
              v <-- ret (pyget (pl_values f) (Z.of_nat i + 1)) ;;;
              ret (Ok (t :: fst acc, v :: snd acc))
            else ret (Ok acc))
         (seq 0 (length (pl_times f) - 1)) ([t0], [v0]) ;;;
  new_m (rev (fst acc)) (rev (snd acc)) (pl_first f) (pl_last f) (pl_lo f) (pl_hi f).

Definition set_last (ob : obj) (s : Qc) : obj := mkObj (o_t ob) (o_v ob) (o_first ob) s (o_lo ob) (o_hi ob).
(** 514-530 [extend_with_slope(time, slope)]: appends to the two lists in
    place, sets the slope, clears all caches; returns early (and clears
    nothing) when the slope does not change. *)
Definition extend_m (o : nat) (time slope : Qc) : M unit := fun h =>
  let s := h_st h in
  match (ob <- getn (s_objs s) o ;; f <- view s o ;; tl <- pyget (pl_times f) (-1) ;;
         _ <- assertb (qleb (tl - eps) time) ;; Ok (ob, f, tl)) with
  | Err e => (Err e, h)
  | Ok (ob, f, tl) =>
      if qleb (qabs (pl_last f - slope)) eps then (Ok tt, h)
      else if qltb eps (qabs (time - tl)) then
        match pyget (pl_values f) (-1) with
        | Err e => (Err e, h)
        | Ok vl =>
            let val := vl + (time - tl) * pl_last f in
            let c1 := upd (s_cells s) (o_v ob) (pl_values f ++ [val]) in
            let c2 := upd c1 (o_t ob) (pl_times f ++ [time]) in
            (Ok tt, cleared (mkStore c2 (upd (s_objs s) o (set_last ob slope))))
        end
      else (Ok tt, cleared (mkStore (s_cells s) (upd (s_objs s) o (set_last ob slope))))
  end.
(** dynamic_flow.py:172 [values[-1] = v], a write past the class: no cache is cleared *)
Definition write_last_m (o : nat) (v : Qc) : M unit := fun h =>
  let s := h_st h in
  match (ob <- getn (s_objs s) o ;; f <- view s o ;; _ <- pyget (pl_values f) (-1) ;; Ok (ob, f)) with
  | Err e => (Err e, h)
  | Ok (ob, f) =>
      let c := upd (s_cells s) (o_v ob) (set_nth (pl_values f) (length (pl_values f) - 1) v) in
      (Ok tt, mkHeap (mkStore c (s_objs s)) (h_ev h) (h_gr h) (h_co h))
  end.

(** ** Histories of API calls *)
Inductive op :=
  | ONew (times values : list Qc) (first last : Qc) (lo hi : ext)
  | ONeg (o : nat) | OPlus (a b : nat) | OSimplify (o : nat) | OCompose (g f : nat)
  | OEval (o : nat) (at_ : ext) | OFromEnd (o : nat) (a : Qc) | OGradient (o : nat) (i : Z)
  | OImage (o : nat) | OInverse (o : nat) (x : Qc) (i : Z)
  | OExtend (o : nat) (time slope : Qc)
  | OWrite (o : nat) (v : Qc).
Inductive out := RObj (o : nat) | RNum (x : ext) | RPair (x y : ext) | RNone.
Definition mret {A} (m : M A) (f : A -> out) : M out := a <-- m ;;; ret (Ok (f a)).
Definition step (o : op) : M out :=
  match o with
  | ONew t v f l lo hi => mret (new_m t v f l lo hi) RObj
  | ONeg a => mret (neg_m a) RObj
  | OPlus a b => mret (plus_m a b) RObj
  | OSimplify a => mret (simplify_m a) RObj
  | OCompose g f => mret (compose_m g f) RObj
  | OEval a x => mret (eval_m a x) RNum
  | OFromEnd a x => mret (eval_from_end_m a x) RNum
  | OGradient a i => mret (gradient_m a i) (fun q => RNum (Fin q))
  | OImage a => mret (image_m a) (fun p => RPair (fst p) (snd p))
  | OInverse a x i => mret (inverse_m a x i) (fun q => RNum (Fin q))
  | OExtend a t s => mret (extend_m a t s) (fun _ => RNone)
  | OWrite a v => mret (write_last_m a v) (fun _ => RNone)
  end.
Fixpoint run (h : heap) (ops : list op) : heap :=
  match ops with [] => h | o :: r => run (snd (step o h)) r end.
