(** * Model of src/utilities/piecewise_linear.py, second part *)
From Verif Require Import Base Arrays PL.

(** [x - q] and [x + q] for a float [x] that may be infinite. *)
Definition ext_add (x : ext) (q : Qc) : ext := match x with Fin a => Fin (a + q) | e => e end.

(** piecewise_linear.py:486-505: the sweep of [smaller_equals].  Returns
    whether no violation was found.  Fuel bounds the iterations. *)
Fixpoint se_loop (fuel : nat) (f g : PL) (i j : Z) : res bool :=
  match fuel with
  | O => Err OutOfFuel
  | S k =>
      if ((i <? pl_len f - 1)%Z || (j <? pl_len g - 1)%Z)%bool then
        ntf <- (if (i <? pl_len f - 1)%Z then rmap Fin (pyget (pl_times f) (i + 1)) else Ok (pl_hi f)) ;;
        ntg <- (if (j <? pl_len g - 1)%Z then rmap Fin (pyget (pl_times g) (j + 1)) else Ok (pl_hi g)) ;;
        let next := ext_min ntf ntg in
        match next with
        | Fin n =>
            a <- eval_with_rank f n i ;; b <- eval_with_rank g n j ;;
            if qltb (b + eps1000) a then Ok false
            else
              let i' := if ext_eqb ntf next then (i + 1)%Z else i in
              let j' := if ext_eqb ntg next then (j + 1)%Z else j in
              if ext_eqb next (pl_hi g) then Ok true
              else se_loop k f g i' j'
        | _ => Err NotModelled  (* impossible: one index has a later breakpoint *)
        end
      else Ok true
  end.

(** piecewise_linear.py:467-512 [smaller_equals(other)] *)
Definition smaller_equals (f g : PL) : res bool :=
  tf <- pyget (pl_times f) 0 ;; tg <- pyget (pl_times g) 0 ;;
  assert! (ext_eqb (Fin tf) (pl_lo f) && ext_eqb (pl_lo f) (Fin tg) && ext_eqb (Fin tg) (pl_lo g))%bool ;;
  if ext_ltb (pl_hi f) (ext_add (pl_hi g) (- eps1000)) then Ok false
  else
    vf <- pyget (pl_values f) 0 ;; vg <- pyget (pl_values g) 0 ;;
    if qltb (vg + eps1000) vf then Ok false
    else
      ok <- se_loop (S (length (pl_times f) + length (pl_times g))) f g 0 0 ;;
      if negb ok then Ok false
      else match pl_hi g with
           | Fin h => a <- pl_eval f h ;; b <- pl_eval g h ;; Ok (qleb a (b + eps1000))
           | PInf => a <- gradient f (pl_len f - 1) ;; b <- gradient g (pl_len g - 1) ;;
                     Ok (qleb a (b + eps1000))
           | NInf => Err NotModelled
           end.

(** piecewise_linear.py:293-300 and 305-312: the [while] loop of [compose]
    for the segment [i_f], where [bound] is [f.values[i_f + 1]] resp.
    [f_image[1]].  State: [i_g] and the generated points, latest first. *)
Fixpoint comp_while (fuel : nat) (g f : PL) (im0 : ext) (i_f : Z) (bound : ext)
    (i_g : Z) (pts : list (Qc * Qc)) : res (Z * list (Qc * Qc)) :=
  match fuel with
  | O => Err OutOfFuel
  | S k =>
      if (i_g <? pl_len g)%Z then
        tg <- pyget (pl_times g) i_g ;;
        if ext_leb (Fin tg) bound then
          next <- match ext_max im0 (Fin tg) with Fin n => Ok n | _ => Err NotModelled end ;;
          s <- gradient f i_f ;;
          pts' <- (if qeqb s 0 then Ok pts
                   else
                     x <- inverse f next i_f ;;
                     if match pts with [] => true | (t, _) :: _ => qltb (t + eps) x end then
                       y <- pl_eval g next ;; Ok ((x, y) :: pts)
                     else Ok pts) ;;
          comp_while k g f im0 i_f bound (i_g + 1) pts'
        else Ok (i_g, pts)
      else Ok (i_g, pts)
  end.

(** piecewise_linear.py:292-303: one iteration of the [for i_f] loop. *)
Definition comp_step (g f : PL) (im0 : ext) (st : Z * list (Qc * Qc)) (n : nat) : res (Z * list (Qc * Qc)) :=
  let i_f := (Z.of_nat n - 1)%Z in
  v <- pyget (pl_values f) (i_f + 1) ;;
  '(i_g, pts) <- comp_while (S (length (pl_times g))) g f im0 i_f (Fin v) (fst st) (snd st) ;;
  t <- pyget (pl_times f) (i_f + 1) ;;
  if match pts with [] => true | (t', _) :: _ => qltb (t' + eps) t end then
    y <- pl_eval g v ;; Ok (i_g, (t, y) :: pts)
  else Ok (i_g, pts).

(** piecewise_linear.py:268-316 [compose]: [self.compose(f)] is [compose g f]
    with [g = self]. *)
Definition compose (g f : PL) : res PL :=
  assert! is_monotone f ;;
  '(im0, im1) <- image f ;;
  assert! (ext_leb (pl_lo g) (ext_add im0 eps) && ext_leb (ext_add im1 (- eps)) (pl_hi g))%bool ;;
  g_rnk <- elem_rank_ext (pl_times g) im0 ;;
  gs <- gradient g g_rnk ;;
  let first_slope := gs * pl_first f in
  let i_g := Z.max 0 g_rnk in
  _ <- (if (i_g =? pl_len g - 1)%Z then Ok tt
        else t <- pyget (pl_times g) (i_g + 1) ;; assertb (ext_leb (pl_lo f) (Fin t))) ;;
  st <- foldM (comp_step g f im0) (seq 0 (length (pl_times f))) (i_g, []) ;;
  '(j, pts) <- comp_while (S (length (pl_times g))) g f im0 (pl_len f - 1) im1 (fst st) (snd st) ;;
  ls <- gradient g (j - 1) ;;
  pl_init (rev (map fst pts)) (rev (map snd pts)) first_slope (ls * pl_last f) (pl_lo f) (pl_hi f).

Definition sel {A} (b : bool) (x y : A) : A := if b then x else y.

(** piecewise_linear.py:352-386: the loop of [minimum].  [cm] is true when
    [curr_min = 0] (self); [i0], [i1] are [ind[0]], [ind[1]]; [times] is kept
    reversed.  Fuel bounds the iterations. *)
Fixpoint min_loop (fuel : nat) (f g : PL) (hi : ext) (cm : bool) (i0 i1 : Z) (times : list Qc)
  : res (bool * Z * Z * list Qc) :=
  match fuel with
  | O => Err OutOfFuel
  | S k =>
      if ((i0 <? pl_len f)%Z || (i1 <? pl_len g)%Z)%bool then
        let fm := sel cm f g in let fo := sel cm g f in
        let im := sel cm i0 i1 in let io := sel cm i1 i0 in
        (* 353-360: which function has the next breakpoint *)
        fct_min <- (if (pl_len fo <=? io)%Z then Ok true
                    else if (pl_len fm <=? im)%Z then Ok false
                    else to_ <- pyget (pl_times fo) io ;; tmn <- pyget (pl_times fm) im ;;
                         Ok (negb (qleb to_ tmn))) ;;
        next <- (if (fct_min : bool) then pyget (pl_times fm) im else pyget (pl_times fo) io) ;;
        if ext_ltb hi (Fin next) then Ok (cm, i0, i1, times)
        else
          mv <- (if (fct_min : bool) then pyget (pl_values fm) im else pl_eval fm next) ;;
          ov <- (if (fct_min : bool) then pl_eval fo next else pyget (pl_values fo) io) ;;
          (* 370-382: the minimum has changed *)
          '(sw, times1) <-
            (if qltb ov (mv - eps) then
               gm <- gradient fm (im - 1) ;; go <- gradient fo (io - 1) ;;
               let diff := gm - go in
               if qltb eps diff then
                 d <- pydiv (ov - mv) diff ;;
                 let t := next + d in
                 Ok (true, if match times with [] => true | l :: _ => qltb (l + eps) t end
                           then t :: times else times)
               else Ok (true, times)
             else Ok (false, times)) ;;
          let cm' := xorb cm sw in
          (* 383-384: [fct == curr_min] after the possible swap *)
          let times2 := if (xorb fct_min sw && match times1 with [] => true | l :: _ => qltb (l + eps) next end)%bool
                        then next :: times1 else times1 in
          let fct0 := Bool.eqb cm fct_min in  (* fct = 0 *)
          min_loop k f g hi cm' (if fct0 then i0 + 1 else i0)%Z (if fct0 then i1 else i1 + 1)%Z times2
      else Ok (cm, i0, i1, times)
  end.

(** [x in list] for a float that may be infinite. *)
Definition ext_in (x : ext) (l : list Qc) : bool := existsb (fun t => ext_eqb x (Fin t)) l.

(** piecewise_linear.py:332-402 [minimum(otherf)] *)
Definition minimum (f g : PL) : res PL :=
  let lo := ext_max (pl_lo f) (pl_lo g) in
  let hi := ext_min (pl_hi f) (pl_hi g) in
  assert! ext_ltb lo hi ;;
  assert! (ext_in lo (pl_times f) || ext_in lo (pl_times g))%bool ;;
  a <- pl_eval_ext f lo ;; b <- pl_eval_ext g lo ;;
  let cm0 := ext_ltb a b in
  let first_slope := pl_first (sel cm0 f g) in
  '(cm, i0, i1, times) <- min_loop (S (length (pl_times f) + length (pl_times g))) f g hi cm0 0 0 [] ;;
  tl <- match times with [] => Err IndexError | t :: _ => Ok t end ;;
  '(cm', times') <-
    (if ext_ltb (Fin tl) hi then
       let fm := sel cm f g in let fo := sel cm g f in
       gm <- gradient fm (sel cm i0 i1 - 1) ;; go <- gradient fo (sel cm i1 i0 - 1) ;;
       if qltb (go + eps) gm then
         mv <- pl_eval fm tl ;; ov <- pl_eval fo tl ;;
         d <- pydiv (ov - mv) (gm - go) ;;
         let t := tl + d in
         if (qltb (tl + eps) t && ext_leb (Fin t) hi)%bool then Ok (negb cm, t :: times)
         else Ok (cm, times)
       else Ok (cm, times)
     else Ok (cm, times)) ;;
  let ts := rev times' in
  values <- mapM (fun t => x <- pl_eval f t ;; y <- pl_eval g t ;; Ok (qmin x y)) ts ;;
  pl_init ts values first_slope (pl_last (sel cm' f g)) lo hi.

(** piecewise_linear.py:586-603 [left_extend(other)] *)
Definition left_extend (f other : PL) : res PL :=
  assert! ext_ltb (ext_add (pl_lo other) eps) (pl_lo f) ;;
  rnk <- elem_rank_ext (pl_times other) (pl_lo f) ;;
  let nt := firstn (Z.to_nat (rnk + 1)) (pl_times other) in
  let nv := firstn (Z.to_nat (rnk + 1)) (pl_values other) in
  t0 <- pyget (pl_times f) 0 ;; tl <- pyget nt (-1) ;;
  if qltb t0 (tl - eps) then
    pl_init (nt ++ skipn 1 (pl_times f)) (nv ++ skipn 1 (pl_values f))
            (pl_first other) (pl_last f) (pl_lo other) (pl_hi f)
  else
    pl_init (nt ++ pl_times f) (nv ++ pl_values f)
            (pl_first other) (pl_last f) (pl_lo other) (pl_hi f).

(** piecewise_linear.py:605-624 [right_extend(other)].  Returns the result and
    the receiver after the call: [+=] mutates its lists in place. *)
Definition right_extend (f other : PL) : res (PL * PL) :=
  assert! ext_ltb (pl_hi f) (ext_add (pl_hi other) (- eps)) ;;
  r <- elem_rank_ext (pl_times other) (pl_hi f) ;;
  let rnk := (r + 1)%Z in
  '(nt, nv) <-
    (if (pl_len other <=? rnk)%Z then Ok (pl_times f, pl_values f)
     else
       tl <- pyget (pl_times f) (-1) ;; tr <- pyget (pl_times other) rnk ;;
       let n := Z.to_nat (if qleb (tr - eps) tl then rnk + 1 else rnk)%Z in
       Ok (pl_times f ++ skipn n (pl_times other), pl_values f ++ skipn n (pl_values other))) ;;
  res <- pl_init nt nv (pl_first f) (pl_last other) (pl_lo f) (pl_hi other) ;;
  Ok (res, mkPL nt nv (pl_first f) (pl_last f) (pl_lo f) (pl_hi f)).

(** piecewise_linear.py:318-330 [outer_minimum(other)] *)
Definition outer_minimum (f g : PL) : res PL :=
  m <- minimum f g ;;
  m1 <- (if ext_ltb (pl_lo f) (ext_add (pl_lo m) (- eps)) then left_extend m f
         else if ext_ltb (pl_lo g) (ext_add (pl_lo m) (- eps)) then left_extend m g else Ok m) ;;
  if ext_ltb (ext_add (pl_hi m1) eps) (pl_hi f) then rmap fst (right_extend m1 f)
  else if ext_ltb (ext_add (pl_hi m1) eps) (pl_hi g) then rmap fst (right_extend m1 g)
  else Ok m1.
