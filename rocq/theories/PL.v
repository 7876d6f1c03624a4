(** * Model of src/utilities/piecewise_linear.py *)
From Verif Require Import Base Arrays.

(** piecewise_linear.py:10-15 the object's fields.  Breakpoints, values and
    slopes are finite; only the domain ends may be infinite. *)
Record PL := mkPL {
  pl_times : list Qc; pl_values : list Qc;
  pl_first : Qc; pl_last : Qc;
  pl_lo : ext; pl_hi : ext }.

Definition pl_len (f : PL) : Z := zlen (pl_times f).

(** piecewise_linear.py:51-53: consecutive times more than eps apart. *)
Fixpoint gaps_ok (l : list Qc) : bool :=
  match l with
  | a :: (b :: _) as r => (qltb a (b - eps) && gaps_ok r)%bool
  | _ => true
  end.

(** piecewise_linear.py:29-53 [__init__].  The finiteness assertion on
    values (43-46) holds by typing. *)
Definition pl_init (times values : list Qc) (first last : Qc) (lo hi : ext) : res PL :=
  assert! ((zlen values =? zlen times)%Z && (1 <=? zlen times)%Z)%bool ;;
  assert! forallb (fun t => ext_leb lo (Fin t) && ext_leb (Fin t) hi)%bool times ;;
  assert! gaps_ok times ;;
  Ok (mkPL times values first last lo hi).

(** piecewise_linear.py:176-189 [gradient(i)] ([lru_cache] is transparent
    here; caching is modelled in PLCache.v). *)
Definition gradient (f : PL) (i : Z) : res Qc :=
  assert! ((-1 <=? i)%Z && (i <? pl_len f)%Z)%bool ;;
  if (i =? -1)%Z then Ok (pl_first f)
  else if (i =? pl_len f - 1)%Z then Ok (pl_last f)
  else
    v1 <- pyget (pl_values f) (i + 1) ;; v0 <- pyget (pl_values f) i ;;
    t1 <- pyget (pl_times f) (i + 1) ;; t0 <- pyget (pl_times f) i ;;
    pydiv (v1 - v0) (t1 - t0).

(** piecewise_linear.py:152-174 [_eval_with_rank(at, rnk)], finite [at]. *)
Definition eval_with_rank (f : PL) (at_ : Qc) (rnk : Z) : res Qc :=
  assert! (ext_leb (pl_lo f) (Fin at_) && ext_leb (Fin at_) (pl_hi f))%bool ;;
  assert! ((-1 <=? rnk)%Z && (rnk <=? pl_len f)%Z)%bool ;;
  t0 <- pyget (pl_times f) 0 ;;
  assert! (negb (rnk =? -1)%Z || qleb at_ t0)%bool ;;
  tl <- pyget (pl_times f) (-1) ;;
  assert! (negb (rnk =? pl_len f - 1)%Z || qltb tl at_)%bool ;;
  _ <- (if ((-1 <? rnk)%Z && (rnk <? pl_len f - 1)%Z)%bool then
          tr <- pyget (pl_times f) rnk ;; tr1 <- pyget (pl_times f) (rnk + 1) ;;
          assertb (qltb tr at_ && qleb at_ tr1)%bool
        else Ok tt) ;;
  if (rnk =? -1)%Z then
    g <- gradient f rnk ;; v0 <- pyget (pl_values f) 0 ;;
    Ok (v0 + (at_ - t0) * g)
  else if (rnk =? pl_len f - 1)%Z then
    g <- gradient f rnk ;; vl <- pyget (pl_values f) (-1) ;;
    Ok (vl + (at_ - tl) * g)
  else
    v <- pyget (pl_values f) rnk ;; t <- pyget (pl_times f) rnk ;;
    g <- gradient f rnk ;;
    Ok (v + (at_ - t) * g).

(** piecewise_linear.py:55-63 [__call__]/[eval], finite [at]. *)
Definition pl_eval (f : PL) (at_ : Qc) : res Qc :=
  assert! (ext_leb (pl_lo f) (Fin at_) && ext_leb (Fin at_) (pl_hi f))%bool ;;
  rnk <- elem_rank (pl_times f) at_ ;;
  eval_with_rank f at_ rnk.

(** IEEE product of an infinity (given by its sign) with a finite slope. *)
Definition inf_mul (pos : bool) (g : Qc) : ext :=
  if qltb 0 g then (if pos then PInf else NInf) else (if pos then NInf else PInf).

(** piecewise_linear.py:55-63 and 152-174 for every float [at]: at -inf the
    rank is -1 and at +inf it is len-1, and for slope 0 the code returns the
    outer value instead of the NaN product [inf * 0]. *)
Definition pl_eval_ext (f : PL) (at_ : ext) : res ext :=
  match at_ with
  | Fin t => y <- pl_eval f t ;; Ok (Fin y)
  | NInf =>
      assert! ext_leb (pl_lo f) NInf ;;
      g <- gradient f (-1) ;; v0 <- pyget (pl_values f) 0 ;;
      if qeqb g 0 then Ok (Fin v0) else Ok (inf_mul false g)
  | PInf =>
      assert! ext_leb PInf (pl_hi f) ;;
      g <- gradient f (pl_len f - 1) ;; vl <- pyget (pl_values f) (-1) ;;
      if qeqb g 0 then Ok (Fin vl) else Ok (inf_mul true g)
  end.

(** piecewise_linear.py:65-78 [_find_rnk_between] *)
Definition find_rnk_between (arr : list Qc) (x : Qc) (min_rnk max_rnk : Z) : res Z :=
  bisect (S (length arr)) (fun v => qleb x v) arr (min_rnk + 1) (max_rnk + 1).

(** [values[i] = v] *)
Fixpoint set_nth {A} (l : list A) (i : nat) (v : A) : list A :=
  match l, i with
  | [], _ => []
  | _ :: r, O => v :: r
  | x :: r, S j => x :: set_nth r j v
  end.

(** piecewise_linear.py:80-106 [_recursive_eval_sorted_array]; fuel bounds the
    recursion depth.  The mutable [values] is threaded.  The range
    [start_index + 1 .. end_index - 1] of lines 90-95 has at most zero
    elements when [end_index - start_index < 2]. *)
Fixpoint rec_eval_sorted (fuel : nat) (f : PL) (times : list Qc)
    (si ei : nat) (srnk ernk : Z) (values : list Qc) : res (list Qc) :=
  match fuel with
  | O => Err OutOfFuel
  | S k =>
      if (Z.of_nat ei - Z.of_nat si <? 2)%Z then
        foldM (fun vals i =>
                 ti <- pyget times (Z.of_nat i) ;;
                 rnk <- find_rnk_between (pl_times f) ti srnk ernk ;;
                 v <- eval_with_rank f ti rnk ;;
                 Ok (set_nth vals i v))
              (seq (si + 1) (ei - (si + 1))) values
      else
        let mid := ((si + ei) / 2)%nat in
        tm <- pyget times (Z.of_nat mid) ;;
        mrnk <- find_rnk_between (pl_times f) tm srnk ernk ;;
        v <- eval_with_rank f tm mrnk ;;
        values1 <- rec_eval_sorted k f times si mid srnk mrnk (set_nth values mid v) ;;
        rec_eval_sorted k f times mid ei mrnk ernk values1
  end.

(** piecewise_linear.py:108-122 [eval_sorted_array] *)
Definition eval_sorted_array (f : PL) (times : list Qc) : res (list Qc) :=
  if (length times <? 2)%nat then mapM (pl_eval f) times
  else
    let values := repeat 0 (length times) in
    t0 <- pyget times 0 ;;
    frnk <- elem_rank (pl_times f) t0 ;;
    v0 <- eval_with_rank f t0 frnk ;;
    tl <- pyget times (-1) ;;
    lrnk <- find_rnk_between (pl_times f) tl frnk (pl_len f - 1) ;;
    vl <- eval_with_rank f tl lrnk ;;
    rec_eval_sorted (S (length times)) f times 0 (length times - 1) frnk lrnk
      (set_nth (set_nth values 0 v0) (length times - 1) vl).

(** piecewise_linear.py:132-134, the backward scan from index [n - 1]. *)
Fixpoint scan_back (times : list Qc) (at_ : Qc) (n : nat) : res Z :=
  match n with
  | O => Ok (-1)%Z
  | S k => t <- pyget times (Z.of_nat k) ;;
           if qleb at_ t then scan_back times at_ k else Ok (Z.of_nat k)
  end.
(** piecewise_linear.py:124-135 [eval_from_end] *)
Definition eval_from_end (f : PL) (at_ : Qc) : res Qc :=
  assert! (ext_leb (pl_lo f) (Fin at_) && ext_leb (Fin at_) (pl_hi f))%bool ;;
  rnk <- scan_back (pl_times f) at_ (length (pl_times f)) ;;
  eval_with_rank f at_ rnk.

(** [1000 * eps] *)
Definition eps1000 : Qc := Q2Qc (1000 # 1) * eps.

(** piecewise_linear.py:137-150 [simplify]; the loop over i in
    range(0, len-1) as a fold, new lists built reversed. *)
Definition simplify (f : PL) : res PL :=
  t0 <- pyget (pl_times f) 0 ;; v0 <- pyget (pl_values f) 0 ;;
  acc <- foldM (fun (acc : list Qc * list Qc) (i : nat) =>
            g0 <- gradient f (Z.of_nat i) ;; g1 <- gradient f (Z.of_nat i + 1) ;;
            if qleb eps1000 (qabs (g0 - g1)) then
              t <- pyget (pl_times f) (Z.of_nat i + 1) ;;
              v <- pyget (pl_values f) (Z.of_nat i + 1) ;;
              Ok (t :: fst acc, v :: snd acc)
            else Ok acc)
         (seq 0 (length (pl_times f) - 1)) ([t0], [v0]) ;;
  pl_init (rev (fst acc)) (rev (snd acc)) (pl_first f) (pl_last f) (pl_lo f) (pl_hi f).

(** piecewise_linear.py:191-198 [__neg__] *)
Definition pl_neg (f : PL) : res PL :=
  pl_init (pl_times f) (map Qcopp (pl_values f)) (- pl_first f) (- pl_last f) (pl_lo f) (pl_hi f).

(** piecewise_linear.py:225-231: cut breakpoints below the new left end. *)
Definition cut_lo (times : list Qc) (lo : ext) : res (list Qc) :=
  t0 <- pyget times 0 ;;
  if ext_ltb (Fin t0) lo then
    match lo with
    | Fin l =>
        rnk <- elem_rank times l ;;
        t <- pyget times (rnk + 1) ;;
        let r := skipn (Z.to_nat (rnk + 1)) times in
        Ok (if qeqb t l then r else l :: r)
    | _ => Err NotModelled   (* lo = +inf: excluded by lo < hi *)
    end
  else Ok times.
(** piecewise_linear.py:232-238: cut breakpoints above the new right end. *)
Definition cut_hi (times : list Qc) (hi : ext) : res (list Qc) :=
  tl <- pyget times (-1) ;;
  if ext_ltb hi (Fin tl) then
    match hi with
    | Fin h =>
        rnk <- elem_rank times h ;;
        t <- pyget times (rnk + 1) ;;
        Ok (if qeqb t h then firstn (Z.to_nat (rnk + 2)) times
            else firstn (Z.to_nat (rnk + 1)) times ++ [h])
    | _ => Err NotModelled
    end
  else Ok times.

(** piecewise_linear.py:205-244 [plus] ([__add__] without the isinstance test) *)
Definition pl_plus (f g : PL) : res PL :=
  let lo := ext_max (pl_lo f) (pl_lo g) in
  let hi := ext_min (pl_hi f) (pl_hi g) in
  assert! ext_ltb lo hi ;;
  times1 <- cut_lo (merge_sorted (pl_times f) (pl_times g)) lo ;;
  times <- cut_hi times1 hi ;;
  values <- mapM (fun phi => a <- pl_eval f phi ;; b <- pl_eval g phi ;; Ok (a + b)) times ;;
  pl_init times values (pl_first f + pl_first g) (pl_last f + pl_last g) lo hi.

(** piecewise_linear.py:200-203 [__sub__] *)
Definition pl_sub (f g : PL) : res PL := ng <- pl_neg g ;; pl_plus f ng.

(** piecewise_linear.py:246-266 [inverse(x, i)] *)
Definition inverse (f : PL) (x : Qc) (i : Z) : res Qc :=
  assert! ((-1 <=? i)%Z && (i <? pl_len f)%Z)%bool ;;
  if (i =? -1)%Z then
    g <- gradient f i ;; v0 <- pyget (pl_values f) 0 ;; t0 <- pyget (pl_times f) 0 ;;
    assert! ((qltb 0 g && qleb x v0) || (qltb g 0 && qleb v0 x))%bool ;;
    d <- pydiv (x - v0) g ;; Ok (t0 + d)
  else if (i =? pl_len f - 1)%Z then
    (* note: the assertion really compares with values[0], lines 254-256 *)
    g <- gradient f i ;; v0 <- pyget (pl_values f) 0 ;;
    assert! ((qltb 0 g && qleb v0 x) || (qltb g 0 && qleb x v0))%bool ;;
    tl <- pyget (pl_times f) (-1) ;; vl <- pyget (pl_values f) (-1) ;;
    d <- pydiv (x - vl) g ;; Ok (tl + d)
  else
    va <- pyget (pl_values f) i ;; vb <- pyget (pl_values f) (i + 1) ;;
    assert! (qltb va vb || qltb vb va)%bool ;;
    assert! ((qleb va x && qleb x vb) || (qleb x va && qleb vb x))%bool ;;
    lm <- pydiv (x - vb) (va - vb) ;;
    ta <- pyget (pl_times f) i ;; tb <- pyget (pl_times f) (i + 1) ;;
    Ok (lm * ta + (1 - lm) * tb).

(** piecewise_linear.py:404-407 [is_monotone] *)
Fixpoint nondec_b (l : list Qc) : bool :=
  match l with
  | a :: (b :: _) as r => (qleb a b && nondec_b r)%bool
  | _ => true
  end.
Definition is_monotone (f : PL) : bool := nondec_b (pl_values f).

(** piecewise_linear.py:409-411 [image] *)
Definition image (f : PL) : res (ext * ext) :=
  assert! is_monotone f ;;
  a <- pl_eval_ext f (pl_lo f) ;; b <- pl_eval_ext f (pl_hi f) ;; Ok (a, b).

(** piecewise_linear.py:416-423 [min_t_above(bound)] *)
Definition min_t_above (f : PL) (bound : Qc) : res Qc :=
  assert! is_monotone f ;;
  e <- pl_eval_ext f (pl_hi f) ;;
  assert! ext_leb (Fin bound) e ;;
  rnk <- elem_rank (pl_values f) bound ;;
  t <- inverse f bound rnk ;;
  match pl_lo f with
  | NInf => Ok t
  | Fin l => Ok (qmax l t)
  | PInf => Err NotModelled
  end.

(** piecewise_linear.py:438-441: first index whose value exceeds the bound. *)
Fixpoint first_above (values : list Qc) (bound : Qc) (j : Z) : option Z :=
  match values with
  | [] => None
  | v :: r => if qltb bound v then Some (j - 1)%Z else first_above r bound (j + 1)%Z
  end.
(** piecewise_linear.py:427-448 [max_t_below(bound)] with [default = None]
    (also [reversal], 413-414).  The result may be the infinite domain end. *)
Definition max_t_below (f : PL) (bound : Qc) : res ext :=
  assert! is_monotone f ;;
  a <- pl_eval_ext f (pl_lo f) ;;
  assert! ext_leb a (Fin bound) ;;
  (* 435-436: [self(domain[0]) > bound + eps] is impossible after the assertion *)
  match first_above (pl_values f) bound 0 with
  | Some index => t <- inverse f bound index ;; Ok (Fin t)
  | None =>
      e <- pl_eval_ext f (pl_hi f) ;;
      if ext_leb e (Fin bound) then Ok (pl_hi f)
      else t <- inverse f bound (pl_len f - 1) ;; Ok (Fin t)
  end.

(** piecewise_linear.py:427-448 [max_t_below(bound, default)] with a number
    as default. *)
Definition max_t_below_default (f : PL) (bound : Qc) (default : ext) : res ext :=
  assert! is_monotone f ;;
  a <- pl_eval_ext f (pl_lo f) ;;
  if ext_ltb (Fin (bound + eps)) a then Ok default
  else
  match first_above (pl_values f) bound 0 with
  | Some index => t <- inverse f bound index ;; Ok (Fin t)
  | None =>
      e <- pl_eval_ext f (pl_hi f) ;;
      if ext_leb e (Fin bound) then Ok (pl_hi f)
      else t <- inverse f bound (pl_len f - 1) ;; Ok (Fin t)
  end.

(** piecewise_linear.py:456-458: running maximum, with the optional check. *)
Fixpoint run_max (check : bool) (prev : Qc) (l : list Qc) : res (list Qc) :=
  match l with
  | [] => Ok []
  | v :: r =>
      assert! (negb check || qleb prev (v + eps))%bool ;;
      let v' := qmax prev v in
      rs <- run_max check v' r ;; Ok (v' :: rs)
  end.
(** piecewise_linear.py:450-465 [ensure_monotone(assert_monotone)] *)
Definition ensure_monotone (check : bool) (f : PL) : res PL :=
  vals <- match pl_values f with
          | [] => Ok []
          | v :: r => rs <- run_max check v r ;; Ok (v :: rs)
          end ;;
  pl_init (pl_times f) vals (qmax 0 (pl_first f)) (qmax 0 (pl_last f)) (pl_lo f) (pl_hi f).

(** piecewise_linear.py:514-530 [extend_with_slope(time, slope)]; the
    mutation becomes the returned object. *)
Definition extend_with_slope (f : PL) (time slope : Qc) : res PL :=
  tl <- pyget (pl_times f) (-1) ;;
  assert! qleb (tl - eps) time ;;
  if qleb (qabs (pl_last f - slope)) eps then Ok f
  else if qltb eps (qabs (time - tl)) then
    vl <- pyget (pl_values f) (-1) ;;
    let val := vl + (time - tl) * pl_last f in
    Ok (mkPL (pl_times f ++ [time]) (pl_values f ++ [val]) (pl_first f) slope (pl_lo f) (pl_hi f))
  else Ok (mkPL (pl_times f) (pl_values f) (pl_first f) slope (pl_lo f) (pl_hi f)).

(** elem_rank / elem_lrank for an [ext] query (arrays.py:17-55 with x = +-inf). *)
Definition elem_rank_ext (arr : list Qc) (x : ext) : res Z :=
  match x with
  | Fin q => elem_rank arr q
  | NInf => Ok (-1)%Z
  | PInf => Ok (zlen arr - 1)%Z
  end.
Definition elem_lrank_ext (arr : list Qc) (x : ext) : res Z :=
  match x with
  | Fin q => elem_lrank arr q
  | NInf => Ok (-1)%Z
  | PInf => Ok (zlen arr - 1)%Z
  end.

(** piecewise_linear.py:532-547 [restrict(domain)].  Restricting to an
    interval without breakpoints whose left end is -inf would create the
    breakpoint -inf: outside the model. *)
Definition restrict (f : PL) (lo hi : ext) : res PL :=
  assert! (ext_leb (pl_lo f) lo && ext_leb lo hi && ext_leb hi (pl_hi f))%bool ;;
  r0 <- elem_rank_ext (pl_times f) lo ;;
  let first_ind := (r0 + 1)%Z in
  last_ind <- elem_lrank_ext (pl_times f) hi ;;
  fs <- gradient f (first_ind - 1) ;;
  ls <- gradient f last_ind ;;
  if (first_ind <? last_ind + 1)%Z then
    pl_init (pyslice (pl_times f) (Z.to_nat first_ind) (Z.to_nat (last_ind + 1)))
            (pyslice (pl_values f) (Z.to_nat first_ind) (Z.to_nat (last_ind + 1)))
            fs ls lo hi
  else
    match lo with
    | Fin l => v <- pl_eval f l ;; pl_init [l] [v] fs ls lo hi
    | _ => Err NotModelled
    end.

(** piecewise_linear.py:575-582: the loop and the last summand of [integrate].
    The index advances at most [fuel] times. *)
Fixpoint integrate_loop (fuel : nat) (f : PL) (en : Qc) (rnk : Z) (value : Qc) : res (Z * Qc) :=
  match fuel with
  | O => Err OutOfFuel
  | S k =>
      if (rnk <? pl_len f - 1)%Z then
        t1 <- pyget (pl_times f) (rnk + 1) ;;
        if qleb t1 en then
          v1 <- pyget (pl_values f) (rnk + 1) ;; v0 <- pyget (pl_values f) rnk ;;
          t0 <- pyget (pl_times f) rnk ;;
          integrate_loop k f en (rnk + 1) (value + (v1 + v0) / Q2Qc (2 # 1) * (t1 - t0))
        else Ok (rnk, value)
      else Ok (rnk, value)
  end.
(** piecewise_linear.py:560-584 [integrate(start, end)], finite arguments.
    [min(self.values) >= 0] is [forallb]. *)
Definition integrate (f : PL) (st en : Qc) : res Qc :=
  assert! (ext_leb (pl_lo f) (Fin st) && qltb st en && ext_leb (Fin en) (pl_hi f))%bool ;;
  assert! forallb (fun v => qleb 0 v) (pl_values f) ;;
  rnk <- elem_lrank (pl_times f) st ;;
  if (rnk =? pl_len f - 1)%Z then
    a <- pl_eval f st ;; b <- pl_eval f en ;;
    Ok ((a + b) / Q2Qc (2 # 1) * (en - st))
  else
    v1 <- pyget (pl_values f) (rnk + 1) ;; a <- pl_eval f st ;;
    t1 <- pyget (pl_times f) (rnk + 1) ;;
    '(r, value) <- integrate_loop (S (length (pl_times f))) f en (rnk + 1)
                     (0 + (v1 + a) / Q2Qc (2 # 1) * (t1 - st)) ;;
    b <- pl_eval f en ;; vr <- pyget (pl_values f) r ;; tr <- pyget (pl_times f) r ;;
    Ok (value + (b + vr) / Q2Qc (2 # 1) * (en - tr)).

(** piecewise_linear.py:627-628 *)
Definition pl_identity : PL := mkPL [0] [0] 1 1 NInf PInf.
Definition pl_zero : PL := mkPL [0] [0] 0 0 NInf PInf.
