(** * Proofs: minimum (C14) *)
From Verif Require Import Base Spec Arrays ArraysProofs PL PL2 PLProofs PLEval PLArith PLOps PLOps2 PLMono PLCmp PLComp.

(** [crossing f g x]: x lies on a piece of f and on a piece of g with
    different slopes, and the two functions agree at x. *)
Definition crossing (f g : PL) (x : Qc) : Prop :=
  pl_at f x = pl_at g x /\
  exists i j, (-1 <= i < pl_len f)%Z /\ (-1 <= j < pl_len g)%Z /\ in_seg f i x /\ in_seg g j x /\
    slope_q f i <> slope_q g j.
Definition min_kink (f g : PL) (x : Qc) : Prop := In x (pl_times f) \/ In x (pl_times g) \/ crossing f g x.

(** Separation hypotheses of the pointwise minimum. *)
Record min_sep (f g : PL) : Prop := {
  ms_values : forall x, In x (pl_times f ++ pl_times g) ->
    pl_at f x = pl_at g x \/ eps < qabs (pl_at f x - pl_at g x);
  ms_slopes : forall i j, (-1 <= i < pl_len f)%Z -> (-1 <= j < pl_len g)%Z ->
    slope_q f i = slope_q g j \/ eps < qabs (slope_q f i - slope_q g j);
  ms_kinks : forall x y, min_kink f g x -> min_kink f g y -> x < y -> gap x y }.
(** The end of the sweep: at the last breakpoint of the two functions one of
    them, say f, is strictly smaller, and either it is not steeper afterwards
    or it has that breakpoint itself; or the last slopes are equal. *)
Definition lower_end (f g : PL) : Prop :=
  pl_at f (last_break f g) < pl_at g (last_break f g) /\
  (pl_last f <= pl_last g \/ In (last_break f g) (pl_times f)).
Definition min_end (f g : PL) : Prop := pl_last f = pl_last g \/ lower_end f g \/ lower_end g f.

Section M.
Variables f g : PL.
Hypothesis Vf : valid f.
Hypothesis Vg : valid g.
Variable lo : Qc.
Hypothesis Lf : pl_lo f = Fin lo.
Hypothesis Lg : pl_lo g = Fin lo.
Hypothesis HH : pl_hi f = pl_hi g.
Hypothesis ND : ext_lt (Fin lo) (pl_hi f).
Hypothesis TL : In lo (pl_times f) \/ In lo (pl_times g).
Hypothesis SEP : min_sep f g.
Hypothesis END : min_end f g.

Let F (b : bool) : PL := sel b f g.
Let ix (b : bool) (i0 i1 : Z) : Z := sel b i0 i1.
Let h (t : Qc) : Qc := qmin (pl_at f t) (pl_at g t).
Let hi : ext := pl_hi f.

Lemma VF b : valid (F b).
Proof. destruct b; assumption. Qed.
Lemma dom_F b t : in_dom (F b) t <-> lo <= t /\ ext_le (Fin t) hi.
Proof. unfold in_dom, hi. destruct b; cbn [F sel]; [rewrite Lf|rewrite Lg, HH]; reflexivity. Qed.
Lemma h_F b t : pl_at (F b) t <= pl_at (F (negb b)) t -> h t = pl_at (F b) t.
Proof.
  unfold h. destruct b; cbn [F sel negb]; intro H; destruct (qmin_spec (pl_at f t) (pl_at g t)) as [[Q ->]|[Q ->]]; auto; qlra.
Qed.

Definition pos (H : PL) (p : Qc) (i : Z) : Prop :=
  (0 <= i <= pl_len H)%Z /\ (forall k, (0 <= k < i)%Z -> tm H k <= p) /\ (forall k, (i <= k < pl_len H)%Z -> p <= tm H k).
Lemma pos_seg H p i t : pos H p i -> p <= t -> (forall k, (i <= k < pl_len H)%Z -> t <= tm H k) -> in_seg H (i - 1) t.
Proof.
  intros (P1 & P2 & P3) L K. split; intro Q.
  - specialize (P2 (i - 1)%Z ltac:(lia)). qlra.
  - replace (i - 1 + 1)%Z with i by lia. apply K. lia.
Qed.
Lemma pos_aff H p i t : valid H -> pos H p i -> p <= t -> (forall k, (i <= k < pl_len H)%Z -> t <= tm H k) ->
  pl_at H t = pl_at H p + (t - p) * slope_q H (i - 1).
Proof.
  intros V P L K. apply at_slope; auto.
  - destruct P as [P _]. lia.
  - eapply pos_seg; eauto.
  - eapply pos_seg; eauto; [qlra|]. apply P.
Qed.

Definition push (times : list Qc) (x : Qc) : list Qc :=
  if match times with [] => true | l :: _ => qltb (l + eps) x end then x :: times else times.
Definition start (times : list Qc) : Qc := match times with [] => lo | t :: _ => t end.
Variable fs : Qc.   (* the first slope of the result *)
Record tinv (times : list Qc) : Prop := {
  ti_gap : StronglySorted (fun a b => gap b a) times;
  ti_chain : rch h times;
  ti_kink : forall x, In x times -> min_kink f g x /\ lo <= x /\ ext_le (Fin x) hi;
  ti_bot : times <> [] -> forall t, lo <= t -> t <= last times 0 -> h t = h (last times 0) + (t - last times 0) * fs }.
Record covers (b : bool) (i : Z) (times : list Qc) (q : Qc) : Prop := {
  co_le : start times <= q;
  co_h : forall t, start times <= t -> t <= q -> h t = pl_at (F b) t;
  co_done : forall k, (0 <= k < i)%Z -> tm (F b) k <= start times;
  co_next : forall k, (i <= k < pl_len (F b))%Z -> q <= tm (F b) k;
  co_nil : times = [] -> i = 0%Z /\ fs = pl_first (F b) }.

Lemma push_ok2 b i times q : tinv times -> covers b i times q -> min_kink f g q -> lo <= q -> ext_le (Fin q) hi ->
  tinv (push times q) /\ exists r, push times q = q :: r.
Proof.
  intros [T1 T2 T3 T4] [C1 C2 C3 C4 C5] K D1 D2. unfold push. destruct times as [|tl r].
  - split; [|exists []; reflexivity]. constructor.
    + repeat constructor.
    + exact Logic.I.
    + intros x [<-|[]]. auto.
    + intros _ t H1 H2. cbn [last] in *. destruct (C5 eq_refl) as [-> E]. cbn [start] in *.
      rewrite (C2 t), (C2 q) by qlra. rewrite E. apply at_left2; [apply VF|exact H2|].
      intros x Hx. destruct (in_tm _ _ Hx) as [k [Hk <-]]. apply C4. lia.
  - cbn [start] in *. destruct (qltbP (tl + eps) q) as [Q|Q].
    + split; [|exists (tl :: r); reflexivity]. constructor.
      * constructor; [exact T1|]. assert (G : gap tl q) by (unfold gap; qlra).
        inversion T1 as [|? ? ? HF]; subst. constructor; [exact G|]. eapply Forall_impl; [|exact HF].
        intros a Ha. cbv beta in *. eapply gap_trans; eauto.
      * cbn [rch]. split; [|exact T2]. apply (aff_ext (pl_at (F b))).
        { intros t H1 H2. symmetry. apply C2; auto. }
        apply at_aff; [apply VF|]. intros x Hx. destruct (in_tm _ _ Hx) as [k [Hk <-]].
        destruct (Z.ltb_spec k i); [left; apply C3; lia|right; apply C4; lia].
      * intros x [<-|Hx]; auto.
      * intros _. cbn [last]. apply T4. discriminate.
    + assert (q = tl) as ->.
      { destruct (qc_le_or tl q) as [[L|L]|L]; auto; [|qlra].
        destruct (T3 tl (or_introl eq_refl)) as [Kt _]. pose proof (ms_kinks f g SEP tl q Kt K L) as G. unfold gap in G. qlra. }
      split; [constructor; auto|exists r; reflexivity].
Qed.

(** The crossing inside the current stretch. *)
Lemma cross_ok b i0 i1 p next :
  pos f p i0 -> pos g p i1 -> p <= next ->
  (forall k, (i0 <= k < pl_len f)%Z -> next <= tm f k) -> (forall k, (i1 <= k < pl_len g)%Z -> next <= tm g k) ->
  pl_at (F b) p <= pl_at (F (negb b)) p -> pl_at (F (negb b)) next < pl_at (F b) next ->
  let s := slope_q (F b) (ix b i0 i1 - 1) in let s' := slope_q (F (negb b)) (ix (negb b) i0 i1 - 1) in
  eps < s - s' /\
  exists c, c = next + (pl_at (F (negb b)) next - pl_at (F b) next) / (s - s') /\ p <= c /\ c < next /\
    min_kink f g c /\
    (forall t, p <= t -> t <= c -> pl_at (F b) t <= pl_at (F (negb b)) t) /\
    (forall t, c <= t -> t <= next -> pl_at (F (negb b)) t <= pl_at (F b) t).
Proof.
  intros Pf Pg Hn Nf Ng A B s s'.
  assert (PF : forall b, pos (F b) p (ix b i0 i1)) by (intros []; assumption).
  assert (NF : forall b k, (ix b i0 i1 <= k < pl_len (F b))%Z -> next <= tm (F b) k) by (intros []; assumption).
  assert (AF : forall b t, p <= t -> t <= next -> pl_at (F b) t = pl_at (F b) p + (t - p) * slope_q (F b) (ix b i0 i1 - 1)).
  { intros b' t H1 H2. apply pos_aff; auto; [apply VF|]. intros k Hk. specialize (NF b' k Hk). qlra. }
  pose proof (AF b next Hn ltac:(qlra)) as E1. pose proof (AF (negb b) next Hn ltac:(qlra)) as E2. fold s in E1. fold s' in E2.
  assert (RI : forall b, (-1 <= ix b i0 i1 - 1 < pl_len (F b))%Z) by (intro b'; destruct (PF b') as [? _]; lia).
  assert (NE : s <> s').
  { intro E. rewrite E1, E2, E in B. qlra. }
  assert (LT : 0 < s - s').
  { destruct (qlebP (s - s') 0) as [Q|Q]; [exfalso|qlra].
    assert (0 <= next - p) by qlra. set (d := next - p) in *. clearbody d. rewrite E1, E2 in B. qnra. }
  assert (EP : eps < s - s').
  { destruct b; cbn [F sel negb ix] in *.
    - destruct (ms_slopes f g SEP (i0 - 1)%Z (i1 - 1)%Z (RI true) (RI false)) as [Q|Q]; [exfalso; apply NE; exact Q|].
      fold s s' in Q. destruct (qabs_spec (s - s')) as [[? R]|[? R]]; rewrite R in Q; qlra.
    - destruct (ms_slopes f g SEP (i0 - 1)%Z (i1 - 1)%Z (RI true) (RI false)) as [Q|Q]; [exfalso; apply NE; symmetry; exact Q|].
      fold s s' in Q. destruct (qabs_spec (s' - s)) as [[? R]|[? R]]; rewrite R in Q; qlra. }
  split; [exact EP|].
  set (u := (pl_at (F (negb b)) next - pl_at (F b) next) / (s - s')).
  assert (U : u * (s - s') = pl_at (F (negb b)) next - pl_at (F b) next) by (apply qmul_div; intro; qlra).
  exists (next + u). split; [reflexivity|]. clearbody u.
  assert (U0 : u < 0) by (destruct (qltbP u 0); [assumption|exfalso; set (z := s - s') in *; clearbody z; qnra]).
  assert (U1 : p <= next + u).
  { destruct (qlebP p (next + u)); [assumption|exfalso]. rewrite E1, E2 in U.
    assert (Q : (p - next - u) * (s - s') = pl_at (F b) p - pl_at (F (negb b)) p).
    { replace ((p - next - u) * (s - s')) with ((p - next) * (s - s') - u * (s - s')) by ring. rewrite U. ring. }
    assert (0 < p - next - u) by qlra. set (z := s - s') in *. set (w := p - next - u) in *. clearbody z w. qnra. }
  assert (EQ : pl_at (F b) (next + u) = pl_at (F (negb b)) (next + u)).
  { rewrite (AF b), (AF (negb b)) by qlra. fold s s'.
    assert (Q : (next + u - p) * s - (next + u - p) * s' = (pl_at (F (negb b)) p - pl_at (F b) p)).
    { replace ((next + u - p) * s - (next + u - p) * s') with (u * (s - s') + (next - p) * s - (next - p) * s') by ring. rewrite U, E1, E2. ring. }
    qlra. }
  split; [exact U1|]. split; [qlra|]. split; [|split].
  - right. right. split.
    + destruct b; cbn [F sel negb] in EQ; auto.
    + exists (i0 - 1)%Z, (i1 - 1)%Z. split; [exact (RI true)|]. split; [exact (RI false)|].
      split; [apply (pos_seg f p i0); auto; intros k Hk; specialize (Nf k Hk); qlra|].
      split; [apply (pos_seg g p i1); auto; intros k Hk; specialize (Ng k Hk); qlra|].
      unfold s, s' in NE. destruct b; cbn [F sel negb ix] in NE; auto.
  - intros t H1 H2. rewrite (AF b), (AF (negb b)) in EQ |- * by qlra. fold s s' in EQ |- *.
    assert (0 <= next + u - t) by qlra. set (z := s - s') in *.
    assert (Q : pl_at (F b) p + (t - p) * s - (pl_at (F (negb b)) p + (t - p) * s') = - ((next + u - t) * z)).
    { unfold z. transitivity (pl_at (F b) p + (next + u - p) * s - (pl_at (F (negb b)) p + (next + u - p) * s') - (next + u - t) * (s - s')); [ring|]. rewrite EQ. ring. }
    set (w := next + u - t) in *. clearbody z w. assert (0 <= w * z) by qnra. qlra.
  - intros t H1 H2. rewrite (AF b), (AF (negb b)) in EQ |- * by qlra. fold s s' in EQ |- *.
    assert (0 <= t - (next + u)) by qlra. set (z := s - s') in *.
    assert (Q : pl_at (F b) p + (t - p) * s - (pl_at (F (negb b)) p + (t - p) * s') = (t - (next + u)) * z).
    { unfold z. transitivity (pl_at (F b) p + (next + u - p) * s - (pl_at (F (negb b)) p + (next + u - p) * s') + (t - (next + u)) * (s - s')); [ring|]. rewrite EQ. ring. }
    set (w := t - (next + u)) in *. clearbody z w. assert (0 <= w * z) by qnra. qlra.
Qed.

Record linv (cm : bool) (i0 i1 : Z) (times : list Qc) (p : Qc) : Prop := {
  li_f : pos f p i0; li_g : pos g p i1;
  li_lo : lo <= p; li_hi : ext_le (Fin p) hi;
  li_in : (0 < i0 + i1)%Z -> In p (pl_times f ++ pl_times g);
  li_le : pl_at (F cm) p <= pl_at (F (negb cm)) p;
  li_t : tinv times;
  li_c : covers cm (ix cm i0 i1) times p }.

Lemma pos_bump H p i : valid H -> pos H (tm H i) i -> (i < pl_len H)%Z -> p = tm H i -> pos H p (i + 1).
Proof.
  intros V (P1 & P2 & P3) L ->. split; [lia|]. split; intros k Hk.
  - apply tm_le; auto; lia.
  - apply P3. lia.
Qed.

Lemma sep_le b x : In x (pl_times f ++ pl_times g) -> ~ pl_at (F (negb b)) x < pl_at (F b) x - eps -> pl_at (F b) x <= pl_at (F (negb b)) x.
Proof.
  intros I N. destruct (ms_values f g SEP x I) as [E|E].
  - destruct b; cbn [F sel negb] in *; qlra.
  - destruct (qabs_spec (pl_at f x - pl_at g x)) as [[? R]|[? R]]; rewrite R in E; destruct b; cbn [F sel negb] in *; qlra.
Qed.

Lemma push_fold times x : (if match times with [] => true | l :: _ => qltb (l + eps) x end then x :: times else times) = push times x.
Proof. reflexivity. Qed.

Lemma next_ok (cm : bool) i0 i1 p : pos f p i0 -> pos g p i1 -> (i0 < pl_len f \/ i1 < pl_len g)%Z ->
  let fm := F cm in let fo := F (negb cm) in let im := ix cm i0 i1 in let io := ix (negb cm) i0 i1 in
  exists fct : bool,
    (if (pl_len fo <=? io)%Z then Ok true
     else if (pl_len fm <=? im)%Z then Ok false
     else to_ <- pyget (pl_times fo) io ;; tmn <- pyget (pl_times fm) im ;; Ok (negb (qleb to_ tmn))) = Ok fct /\
    let b := if fct then cm else negb cm in
    (ix b i0 i1 < pl_len (F b))%Z /\
    (forall b' k, (ix b' i0 i1 <= k < pl_len (F b'))%Z -> tm (F b) (ix b i0 i1) <= tm (F b') k).
Proof.
  intros Pf Pg L fm fo im io.
  assert (PF : forall b, pos (F b) p (ix b i0 i1)) by (intros []; assumption).
  assert (R : forall b, (0 <= ix b i0 i1 <= pl_len (F b))%Z) by (intro b; apply PF).
  assert (MONO : forall b k, (ix b i0 i1 <= k < pl_len (F b))%Z -> tm (F b) (ix b i0 i1) <= tm (F b) k).
  { intros b k Hk. apply tm_le; [apply VF| |lia]. specialize (R b). lia. }
  assert (L' : (im < pl_len fm \/ io < pl_len fo)%Z) by (unfold im, io, fm, fo; destruct cm; cbn [F ix sel negb]; tauto).
  pose proof (R cm) as R1. pose proof (R (negb cm)) as R2. fold im fm in R1. fold io fo in R2.
  destruct (Z.leb_spec (pl_len fo) io) as [Q|Q].
  { exists true. split; [reflexivity|]. cbv zeta. fold fm im. split; [lia|]. intros b' k Hk.
    destruct (Bool.bool_dec b' cm) as [->|NE]; [apply MONO; exact Hk|].
    assert (b' = negb cm) as -> by (destruct b', cm; auto; congruence). fold fo io in Hk. lia. }
  destruct (Z.leb_spec (pl_len fm) im) as [Q'|Q'].
  { exists false. split; [reflexivity|]. cbv zeta. fold fo io. split; [lia|]. intros b' k Hk.
    destruct (Bool.bool_dec b' cm) as [->|NE]; [fold fm im in Hk; lia|].
    assert (b' = negb cm) as -> by (destruct b', cm; auto; congruence). apply MONO. exact Hk. }
  rewrite (get_tm fo) by lia. rewrite (get_tm fm) by lia. cbn [bind].
  exists (negb (qleb (tm fo io) (tm fm im))). split; [reflexivity|].
  destruct (qlebP (tm fo io) (tm fm im)) as [W|W]; cbn [negb]; cbv zeta.
  - fold fo io. split; [lia|]. intros b' k Hk.
    destruct (Bool.bool_dec b' cm) as [->|NE].
    + specialize (MONO cm k Hk). fold fm im in MONO |- *. qlra.
    + assert (b' = negb cm) as -> by (destruct b', cm; auto; congruence). apply MONO. exact Hk.
  - fold fm im. split; [lia|]. intros b' k Hk.
    destruct (Bool.bool_dec b' cm) as [->|NE]; [apply MONO; exact Hk|].
    assert (b' = negb cm) as -> by (destruct b', cm; auto; congruence).
    specialize (MONO (negb cm) k Hk). fold fo io in MONO |- *. qlra.
Qed.

Lemma min_loop_ok fuel : forall cm i0 i1 times p,
  (pl_len f - i0 + (pl_len g - i1) < Z.of_nat fuel)%Z -> linv cm i0 i1 times p ->
  exists cm' times' p', min_loop fuel f g hi cm i0 i1 times = Ok (cm', pl_len f, pl_len g, times') /\
    linv cm' (pl_len f) (pl_len g) times' p'.
Proof.
  induction fuel as [|n IH]; intros cm i0 i1 times p Hfu [Pf Pg Dl Dh PI LE TI CO].
  { destruct Pf as [? _], Pg as [? _]. lia. }
  cbn [min_loop].
  assert (Rf := proj1 Pf). assert (Rg := proj1 Pg).
  destruct ((i0 <? pl_len f)%Z || (i1 <? pl_len g)%Z)%bool eqn:OR.
  2:{ apply orb_false_iff in OR. destruct OR as [A B]. apply Z.ltb_ge in A, B.
      assert (i0 = pl_len f) as -> by lia. assert (i1 = pl_len g) as -> by lia.
      exists cm, times, p. split; [reflexivity|]. constructor; auto. }
  assert (L : (i0 < pl_len f \/ i1 < pl_len g)%Z).
  { apply orb_true_iff in OR. destruct OR as [A|A]; apply Z.ltb_lt in A; auto. }
  all: destruct (next_ok cm i0 i1 p Pf Pg L) as (fct & E & Hb & Hn); cbv zeta in E, Hb, Hn.
  all: fold (F cm); replace (sel cm g f) with (F (negb cm)) by (destruct cm; reflexivity).
  all: fold (ix cm i0 i1); replace (sel cm i1 i0) with (ix (negb cm) i0 i1) by (destruct cm; reflexivity).
  all: rewrite E; cbn [bind]; clear E.
  all: set (b := if fct then cm else negb cm) in *; set (next := tm (F b) (ix b i0 i1)) in *.
  all: assert (PF : forall b, pos (F b) p (ix b i0 i1)) by (intros []; assumption).
  all: assert (Rb : (0 <= ix b i0 i1)%Z) by (apply PF).
  all: assert (En : (if fct then pyget (pl_times (F cm)) (ix cm i0 i1) else pyget (pl_times (F (negb cm))) (ix (negb cm) i0 i1)) = Ok next)
       by (unfold next, b; destruct fct; apply get_tm; unfold b in Hb, Rb; lia).
  all: rewrite En; cbn [bind]; clear En.
  all: assert (InN : In next (pl_times (F b))) by (apply tm_in; lia).
  all: assert (Dn : in_dom (F b) next) by (apply (v_dom _ (VF b)); exact InN).
  all: destruct (proj1 (dom_F b next) Dn) as [Dn1 Dn2].
  all: assert (Ex : ext_ltb hi (Fin next) = false) by (destruct (ext_ltbP hi (Fin next)) as [Q|Q]; [exfalso; apply Q; exact Dn2|reflexivity]).
  all: rewrite Ex; clear Ex.
  all: assert (EV : forall b', pl_eval (F b') next = Ok (pl_at (F b') next)) by (intro b'; apply eval_at; [apply VF|apply dom_F; auto]).
  all: assert (Emv : (if fct then pyget (pl_values (F cm)) (ix cm i0 i1) else pl_eval (F cm) next) = Ok (pl_at (F cm) next))
       by (unfold next, b in *; destruct fct; [rewrite get_vl by (try apply VF; lia); f_equal; symmetry; apply at_tm; [apply VF|lia]|apply EV]).
  all: assert (Eov : (if fct then pl_eval (F (negb cm)) next else pyget (pl_values (F (negb cm))) (ix (negb cm) i0 i1)) = Ok (pl_at (F (negb cm)) next))
       by (unfold next, b in *; destruct fct; [apply EV|rewrite get_vl by (try apply VF; lia); f_equal; symmetry; apply at_tm; [apply VF|lia]]).
  all: rewrite Emv, Eov; cbn [bind]; clear Emv Eov.
  all: assert (InA : In next (pl_times f ++ pl_times g)) by (apply in_or_app; unfold F in InN; destruct b; cbn [sel] in InN; tauto).
  all: assert (KN : min_kink f g next) by (apply in_app_or in InA; unfold min_kink; tauto).
  all: assert (PN : p <= next) by (apply (proj2 (proj2 (PF b))); lia).
  all: assert (Nf : forall k, (i0 <= k < pl_len f)%Z -> next <= tm f k) by (exact (Hn true)).
  all: assert (Ng : forall k, (i1 <= k < pl_len g)%Z -> next <= tm g k) by (exact (Hn false)).
  all: assert (RI : forall b, (-1 <= ix b i0 i1 - 1 < pl_len (F b))%Z) by (intro b'; destruct (PF b') as [? _]; lia).
  (* positions after this breakpoint *)
  all: set (i0' := (if Bool.eqb cm fct then i0 + 1 else i0)%Z); set (i1' := (if Bool.eqb cm fct then i1 else i1 + 1)%Z).
  all: assert (IXb : ix b i0' i1' = (ix b i0 i1 + 1)%Z) by (unfold i0', i1', b; destruct cm, fct; reflexivity).
  all: assert (IXn : ix (negb b) i0' i1' = ix (negb b) i0 i1) by (unfold i0', i1', b; destruct cm, fct; reflexivity).
  all: assert (PN' : forall b', pos (F b') next (ix b' i0 i1))
       by (intro b'; destruct (PF b') as (X1 & X2 & X3); split; [exact X1|]; split; [intros k Hk; specialize (X2 k Hk); qlra|exact (Hn b')]).
  all: assert (PB : forall b', pos (F b') next (ix b' i0' i1'))
       by (intro b'; destruct (Bool.bool_dec b' b) as [->|NE];
           [rewrite IXb; apply pos_bump; [apply VF|apply PN'|exact Hb|reflexivity]
           |assert (b' = negb b) as -> by (destruct b', b; auto; congruence); rewrite IXn; apply PN']).
  all: assert (Hfu' : (pl_len f - i0' + (pl_len g - i1') < Z.of_nat n)%Z)
       by (unfold i0', i1'; destruct (Bool.eqb cm fct); lia).
  all: destruct (qltbP (pl_at (F (negb cm)) next) (pl_at (F cm) next - eps)) as [SW|SW].
  1: assert (SW' : pl_at (F (negb cm)) next < pl_at (F cm) next) by (pose proof eps_pos; qlra).
  1: destruct (cross_ok cm i0 i1 p next Pf Pg PN Nf Ng LE SW') as (EP & c & Ec & C1 & C2 & C3 & C4 & C5); cbv zeta in EP, Ec;
       rewrite !gradient_ok by (try apply VF; apply RI); cbn [bind];
       set (s := slope_q (F cm) (ix cm i0 i1 - 1)) in *; set (s' := slope_q (F (negb cm)) (ix (negb cm) i0 i1 - 1)) in *;
       (destruct (qltbP eps (s - s')) as [_|Q]; [|contradiction]);
       rewrite pydiv_ok by (intro X; pose proof eps_pos; qlra); cbn [bind]; rewrite <- Ec;
       rewrite (push_fold times c).
  (* the current minimum changes *)
  1: assert (CC : covers cm (ix cm i0 i1) times c)
       by (destruct CO as [O1 O2 O3 O4 O5]; constructor; auto;
           [qlra
           |intros t H1 H2; destruct (qlebP t p) as [Q|Q]; [apply O2; auto|apply h_F, C4; qlra]
           |intros k Hk; specialize (Hn cm k Hk); qlra]);
       destruct (push_ok2 cm _ times c TI CC C3 ltac:(qlra)
          ltac:(eapply ext_le_trans; [|exact Dn2]; cbn [ext_le]; qlra)) as [TI1 [r Er]];
       assert (CN : covers (negb cm) (ix (negb cm) i0 i1) (push times c) next)
       by (rewrite Er; constructor; cbn [start]; auto;
           [qlra
           |intros t H1 H2; rewrite (h_F (negb cm) t); [reflexivity|rewrite Bool.negb_involutive; apply C5; auto]
           |intros k Hk; pose proof (proj1 (proj2 (PF (negb cm))) k Hk); qlra
           |discriminate]);
       assert (LE' : pl_at (F (negb cm)) next <= pl_at (F (negb (negb cm))) next) by (rewrite Bool.negb_involutive; qlra);
       replace (xorb cm true) with (negb cm) by (destruct cm; reflexivity);
       (destruct fct; cbn [xorb andb negb]; unfold b in *;
        [apply (IH (negb cm) i0' i1' (push times c) next); auto;
         constructor; auto; [exact (PB true)|exact (PB false)|rewrite IXn; exact CN]
        |rewrite (push_fold (push times c) next); destruct (push_ok2 _ _ _ _ TI1 CN KN Dn1 Dn2) as [TI2 [r2 Er2]];
         apply (IH (negb cm) i0' i1' (push (push times c) next) next); auto;
         constructor; auto; [exact (PB true)|exact (PB false)|];
         rewrite IXb, Er2; constructor; cbn [start];
         [qlra
         |intros t H1 H2; assert (t = next) as -> by qlra; apply h_F; exact LE'
         |intros k Hk; pose proof (proj1 (proj2 (PB (negb cm))) k ltac:(rewrite IXb; lia)); qlra
         |intros k Hk; apply (proj2 (proj2 (PB (negb cm))) k); rewrite IXb; lia
         |discriminate]]).
  (* the current minimum stays *)
  all: assert (LEn : pl_at (F cm) next <= pl_at (F (negb cm)) next) by (apply sep_le; auto).
  assert (LEt : forall t, p <= t -> t <= next -> pl_at (F cm) t <= pl_at (F (negb cm)) t).
  1: (intros t H1 H2;
        assert (NB : forall b' x, In x (pl_times (F b')) -> x <= p \/ next <= x)
        by (intros b' x Hx; destruct (in_tm _ _ Hx) as [k [Hk <-]]; destruct (Z.ltb_spec k (ix b' i0 i1)); [left; apply (proj1 (proj2 (PF b'))); lia|right; apply (Hn b'); lia]);
        assert (AF : aff (fun x => pl_at (F cm) x + - pl_at (F (negb cm)) x) p next)
        by (apply aff_plus; [|apply aff_opp]; apply at_aff; try apply VF; intros x Hx; exact (NB _ x Hx));
        pose proof (aff_le _ _ _ 0 AF ltac:(cbv beta; qlra) ltac:(cbv beta; qlra) t H1 H2) as Q; cbv beta in Q; qlra).
  all: assert (CN : covers cm (ix cm i0 i1) times next)
       by (destruct CO as [O1 O2 O3 O4 O5]; constructor; auto;
           [qlra|intros t H1 H2; destruct (qlebP t p) as [Q|Q]; [apply O2; auto|apply h_F, LEt; qlra]]).
  all: cbn [bind]; replace (xorb cm false) with cm by (destruct cm; reflexivity).
  destruct fct; cbn [xorb andb negb]; unfold b in *.
  - rewrite (push_fold times next). destruct (push_ok2 _ _ _ _ TI CN KN Dn1 Dn2) as [TI2 [r2 Er2]].
    apply (IH cm i0' i1' (push times next) next); auto.
    constructor; auto; [exact (PB true)|exact (PB false)|].
    rewrite Er2. constructor; cbn [start].
    + qlra.
    + intros t H1 H2. assert (t = next) as -> by qlra. apply h_F. exact LEn.
    + intros k Hk. exact (proj1 (proj2 (PB cm)) k Hk).
    + intros k Hk. exact (proj2 (proj2 (PB cm)) k Hk).
    + discriminate.
  - apply (IH cm i0' i1' times next); auto.
    constructor; auto; [exact (PB true)|exact (PB false)|].
    assert (IXc : ix cm i0' i1' = ix cm i0 i1) by (rewrite Bool.negb_involutive in IXn; exact IXn).
    rewrite IXc. exact CN.
Qed.

Lemma last_break_max x : In x (pl_times f ++ pl_times g) -> x <= last_break f g.
Proof.
  intro H. unfold last_break.
  assert (tm f (pl_len f - 1) <= last_break f g /\ tm g (pl_len g - 1) <= last_break f g).
  { unfold last_break. destruct (qmax_spec (tm f (pl_len f - 1)) (tm g (pl_len g - 1))) as [[? ->]|[? ->]]; split; qlra. }
  unfold last_break in *. apply in_app_or in H.
  destruct H as [H|H]; destruct (in_tm _ _ H) as [k [Hk <-]].
  - pose proof (tm_le f Vf k (pl_len f - 1) ltac:(lia) ltac:(lia)). qlra.
  - pose proof (tm_le g Vg k (pl_len g - 1) ltac:(lia) ltac:(lia)). qlra.
Qed.
Lemma last_break_in : In (last_break f g) (pl_times f ++ pl_times g).
Proof.
  pose proof (len_pos f Vf). pose proof (len_pos g Vg). apply in_or_app. unfold last_break.
  destruct (qmax_spec (tm f (pl_len f - 1)) (tm g (pl_len g - 1))) as [[_ ->]|[_ ->]]; [right|left]; apply tm_in; lia.
Qed.

(** What remains to be built from the final lists. *)
Lemma build_ok times b : tinv times -> times <> [] ->
  (forall t, start times <= t -> ext_le (Fin t) hi -> h t = h (start times) + (t - start times) * pl_last (F b)) ->
  exists m, pl_init (rev times) (map h (rev times)) fs (pl_last (F b)) (Fin lo) hi = Ok m /\ valid m /\
    (forall t, in_dom m t <-> in_dom f t) /\ pl_lo m = Fin lo /\ pl_hi m = hi /\ forall t, in_dom m t -> pl_at m t = h t.
Proof.
  intros [T1 T2 T3 T4] NE R. destruct times as [|tl r]; [congruence|]. cbn [start] in R.
  set (m := mkPL (rev (tl :: r)) (map h (rev (tl :: r))) fs (pl_last (F b)) (Fin lo) hi).
  assert (V : valid m).
  { constructor; unfold m; cbn [pl_values pl_times pl_lo pl_hi].
    - apply map_length.
    - intro E. apply (f_equal (@length Qc)) in E. rewrite rev_length in E. discriminate E.
    - apply SSorted_rev. exact T1.
    - intros t Ht. apply in_rev in Ht. destruct (T3 t Ht) as (_ & ? & ?). split; cbn [pl_lo pl_hi]; auto. }
  exists m. split; [apply (pl_init_ok m V)|]. split; [exact V|].
  split; [intro t; unfold in_dom, m; cbn [pl_lo pl_hi]; rewrite Lf; reflexivity|].
  split; [reflexivity|]. split; [reflexivity|].
  assert (HD : forall d, hd d (rev (tl :: r)) = last (tl :: r) 0).
  { intro d. destruct (exists_last (l := tl :: r) ltac:(discriminate)) as [l' [z E]]. rewrite E, rev_app_distr, last_last. reflexivity. }
  assert (LA : tm m (pl_len m - 1) = tl).
  { unfold tm, pl_len, m. cbn [pl_times]. rewrite (nthq_last _ 0) by (intro E; apply (f_equal (@length Qc)) in E; rewrite rev_length in E; discriminate E).
    cbn [rev]. apply last_last. }
  apply (at_unique_list m h V).
  - reflexivity.
  - apply rch_chain. exact T2.
  - intros t [D _] Ht. rewrite (tm0_hd m 0 V) in *. unfold m in D, Ht |- *. cbn [pl_times pl_lo pl_first] in D, Ht |- *. rewrite HD in *.
    apply T4; [discriminate|exact D|qlra].
  - intros t [_ D] Ht. rewrite LA in *. unfold m. cbn [pl_last]. apply R; [qlra|exact D].
Qed.
End M.

Lemma minimum_ok f g lo : valid f -> valid g -> pl_lo f = Fin lo -> pl_lo g = Fin lo -> pl_hi f = pl_hi g ->
  ext_lt (Fin lo) (pl_hi f) -> In lo (pl_times f) \/ In lo (pl_times g) -> min_sep f g -> min_end f g ->
  exists m, minimum f g = Ok m /\ valid m /\ pl_lo m = Fin lo /\ pl_hi m = pl_hi f /\
    forall t, in_dom f t -> pl_at m t = qmin (pl_at f t) (pl_at g t).
Proof.
  intros Vf Vg Lf Lg HH ND TL SEP END.
  assert (Elo : ext_max (pl_lo f) (pl_lo g) = Fin lo) by (destruct (ext_max_or (pl_lo f) (pl_lo g)) as [->| ->]; auto).
  assert (Ehi : ext_min (pl_hi f) (pl_hi g) = pl_hi f) by (rewrite <- HH; unfold ext_min; destruct (ext_ltb (pl_hi f) (pl_hi f)); reflexivity).
  pose proof (len_pos f Vf) as Pf. pose proof (len_pos g Vg) as Pg.
  unfold minimum. rewrite Elo, Ehi.
  assert (A1 : ext_ltb (Fin lo) (pl_hi f) = true) by (destruct (ext_ltbP (Fin lo) (pl_hi f)); [reflexivity|contradiction]).
  rewrite A1. cbn [assertb bind].
  assert (A2 : (ext_in (Fin lo) (pl_times f) || ext_in (Fin lo) (pl_times g))%bool = true).
  { apply orb_true_iff. destruct TL as [T|T]; [left|right]; apply existsb_exists; exists lo; (split; [exact T|]); cbn [ext_eqb]; destruct (qeqbP lo lo); congruence. }
  rewrite A2. cbn [assertb bind].
  assert (DL : forall H, H = f \/ H = g -> in_dom H lo).
  { intros H [->| ->]; (split; [rewrite ?Lf, ?Lg; apply ext_le_refl|rewrite <- ?HH; apply ext_lt_le; exact ND]). }
  cbn [pl_eval_ext]. rewrite (eval_at f lo), (eval_at g lo) by auto. cbn [bind].
  set (cm0 := ext_ltb (Fin (pl_at f lo)) (Fin (pl_at g lo))).
  assert (LE0 : pl_at (sel cm0 f g) lo <= pl_at (sel (negb cm0) f g) lo).
  { unfold cm0. destruct (ext_ltbP (Fin (pl_at f lo)) (Fin (pl_at g lo))) as [Q|Q]; rewrite ext_lt_fin in Q; cbn [sel negb]; qlra. }
  clearbody cm0.
  set (fs := pl_first (sel cm0 f g)).
  assert (P0 : forall H, H = f \/ H = g -> pos H lo 0).
  { intros H E. assert (VH : valid H) by (destruct E as [->| ->]; assumption). split; [pose proof (len_pos H VH); lia|].
    split; intros k Hk; [lia|]. destruct (v_dom H VH (tm H k) ltac:(apply tm_in; lia)) as [D _].
    destruct E as [->| ->]; rewrite ?Lf, ?Lg in D; exact D. }
  assert (I0 : linv f g lo fs cm0 0 0 [] lo).
  { constructor; auto.
    - cbn [ext_le]. qlra.
    - apply (DL f); auto.
    - lia.
    - constructor; [constructor|exact Logic.I|intros x []|congruence].
    - constructor; cbn [start].
      + qlra.
      + intros t H1 H2. assert (t = lo) as -> by qlra. apply (h_F f g). exact LE0.
      + intros k Hk. destruct cm0; cbn [sel] in Hk; lia.
      + intros k Hk. destruct cm0; cbn [sel] in Hk |- *; [apply (P0 f)|apply (P0 g)]; auto; lia.
      + intros _. split; [destruct cm0; reflexivity|reflexivity]. }
  destruct (min_loop_ok f g Vf Vg lo Lf Lg HH TL SEP fs (S (length (pl_times f) + length (pl_times g))) cm0 0 0 [] lo
     ltac:(unfold pl_len, zlen; lia) I0) as (cm & times & p & E & [Qf Qg Dl Dh PI LE TI CO]).
  rewrite E. cbn [bind]. clear E I0.
  assert (RI : (0 < pl_len (sel cm f g))%Z) by (destruct cm; assumption).
  assert (IXl : sel cm (pl_len f) (pl_len g) = pl_len (sel cm f g)) by (destruct cm; reflexivity).
  assert (IXo : sel cm (pl_len g) (pl_len f) = pl_len (sel cm g f)) by (destruct cm; reflexivity).
  destruct times as [|tl r].
  { destruct CO as [_ _ _ _ C5]. destruct (C5 eq_refl) as [C6 _]. rewrite IXl in C6. lia. }
  cbn [bind].
  assert (EP : p = last_break f g).
  { assert (I : In p (pl_times f ++ pl_times g)) by (apply PI; lia).
    pose proof (last_break_max f g Vf Vg p I). pose proof (last_break_in f g Vf Vg) as J. apply in_app_or in J.
    destruct J as [J|J]; destruct (in_tm _ _ J) as [k [Hk Ek]]; [pose proof (proj1 (proj2 Qf) k ltac:(lia))|pose proof (proj1 (proj2 Qg) k ltac:(lia))]; qlra. }
  set (fm := sel cm f g) in *. set (fo := sel (negb cm) f g) in *.
  assert (Efo : sel cm g f = fo) by (unfold fo; destruct cm; reflexivity). rewrite Efo.
  rewrite IXl, IXo, Efo.
  assert (Vm : valid fm) by (unfold fm; destruct cm; assumption). assert (Vo : valid fo) by (unfold fo; destruct cm; assumption).
  assert (Bm : forall x, In x (pl_times fm) -> x <= tl).
  { intros x Hx. destruct (in_tm _ _ Hx) as [k [Hk <-]]. apply (co_done _ _ _ _ _ _ _ _ CO). rewrite IXl. lia. }
  assert (Bo : forall x, In x (pl_times fo) -> x <= p).
  { intros x Hx. rewrite EP. apply last_break_max; auto. apply in_or_app. unfold fo in Hx. destruct cm; cbn [sel negb] in Hx; auto. }
  assert (TP : tl <= p) by (exact (co_le _ _ _ _ _ _ _ _ CO)).
  assert (Dtl : lo <= tl /\ ext_le (Fin tl) (pl_hi f)) by (destruct (ti_kink _ _ _ _ _ TI tl (or_introl eq_refl)) as [_ ?]; auto).
  assert (HF : forall t, pl_at fm t <= pl_at fo t -> qmin (pl_at f t) (pl_at g t) = pl_at fm t) by (intros t; apply (h_F f g)).
  assert (HF2 : forall t, pl_at fo t <= pl_at fm t -> qmin (pl_at f t) (pl_at g t) = pl_at fo t).
  { intros t Q. apply (h_F f g (negb cm)). rewrite Bool.negb_involutive. exact Q. }
  assert (CH : forall t, tl <= t -> t <= p -> qmin (pl_at f t) (pl_at g t) = pl_at fm t) by (exact (co_h _ _ _ _ _ _ _ _ CO)).
  assert (Hm : forall t, tl <= t -> pl_at fm t = pl_at fm tl + (t - tl) * pl_last fm) by (intros t H; apply at_right2; auto).
  assert (Ho : forall t, p <= t -> pl_at fo t = pl_at fo p + (t - p) * pl_last fo) by (intros t H; apply at_right2; auto).
  assert (SL : pl_last fm = pl_last fo \/ eps < qabs (pl_last fm - pl_last fo)).
  { assert (S1 : slope_q f (pl_len f - 1) = pl_last f) by (unfold slope_q; rewrite Z.eqb_refl; destruct (Z.eqb_spec (pl_len f - 1) (-1)); [lia|reflexivity]).
    assert (S2 : slope_q g (pl_len g - 1) = pl_last g) by (unfold slope_q; rewrite Z.eqb_refl; destruct (Z.eqb_spec (pl_len g - 1) (-1)); [lia|reflexivity]).
    destruct (ms_slopes f g SEP (pl_len f - 1)%Z (pl_len g - 1)%Z ltac:(lia) ltac:(lia)) as [Q|Q]; rewrite S1, S2 in Q;
    unfold fm, fo; destruct cm; cbn [sel negb]; auto. right.
    destruct (qabs_spec (pl_last f - pl_last g)) as [[? X]|[? X]], (qabs_spec (pl_last g - pl_last f)) as [[? Y]|[? Y]]; rewrite X in Q; rewrite Y; qlra. }
  (* the lower function keeps the lead *)
  assert (STAY : (forall t, p <= t -> ext_le (Fin t) (pl_hi f) -> pl_at fm t <= pl_at fo t) ->
    forall t, tl <= t -> ext_le (Fin t) (pl_hi f) -> qmin (pl_at f t) (pl_at g t) = qmin (pl_at f tl) (pl_at g tl) + (t - tl) * pl_last fm).
  { intros S t H1 H2. rewrite (CH tl) by qlra. rewrite <- Hm by auto. destruct (qlebP t p) as [Q|Q]; [apply CH; auto|apply HF, S; auto; qlra]. }
  assert (VALS : forall ts, (forall t, In t ts -> lo <= t /\ ext_le (Fin t) (pl_hi f)) ->
    mapM (fun t => x <- pl_eval f t ;; y <- pl_eval g t ;; Ok (qmin x y)) ts = Ok (map (fun t => qmin (pl_at f t) (pl_at g t)) ts)).
  { intros ts Hts. apply mapM_ok. intros t Ht. destruct (Hts t Ht) as [D1 D2].
    rewrite (eval_at f t), (eval_at g t); auto; [split; [rewrite Lg; exact D1|rewrite <- HH; exact D2]|split; [rewrite Lf; exact D1|exact D2]]. }
  assert (FIN : forall b times', tinv f g lo fs times' -> times' <> [] ->
     (forall t, start lo times' <= t -> ext_le (Fin t) (pl_hi f) -> qmin (pl_at f t) (pl_at g t) = qmin (pl_at f (start lo times')) (pl_at g (start lo times')) + (t - start lo times') * pl_last (sel b f g)) ->
     exists m, (values <- mapM (fun t => x <- pl_eval f t ;; y <- pl_eval g t ;; Ok (qmin x y)) (rev times') ;;
                pl_init (rev times') values fs (pl_last (sel b f g)) (Fin lo) (pl_hi f)) = Ok m /\
       valid m /\ pl_lo m = Fin lo /\ pl_hi m = pl_hi f /\ (forall t, in_dom f t -> pl_at m t = qmin (pl_at f t) (pl_at g t))).
  { intros b times' T NE R. rewrite VALS.
    - cbn [bind]. destruct (build_ok f g lo Lf fs times' b T NE R) as (m & M1 & M2 & M3 & M4 & M5 & M6).
      exists m. do 4 (split; [assumption|]). intros t D. apply M6, M3. exact D.
    - intros t Ht. apply in_rev in Ht. apply (ti_kink _ _ _ _ _ T t Ht). }
  destruct (ext_ltbP (Fin tl) (pl_hi f)) as [TH|TH].
  2:{ cbn [bind]. apply FIN; auto; [discriminate|]. cbn [start]. intros t H1 H2.
      assert (t = tl) as ->; [|ring]. destruct Dtl as [_ D]. assert (X : ext_le (pl_hi f) (Fin tl)) by (destruct (ext_le_total (pl_hi f) (Fin tl)) as [X|X]; [exact X|]; destruct (ext_lebP (pl_hi f) (Fin tl)); [assumption|contradiction]).
      pose proof (ext_le_trans _ _ _ H2 X) as Y. cbn [ext_le] in Y. qlra. }
  rewrite !gradient_ok by (auto; pose proof (len_pos fo Vo); lia). cbn [bind].
  assert (SQ : forall H, valid H -> slope_q H (pl_len H - 1) = pl_last H).
  { intros H VH. pose proof (len_pos H VH). unfold slope_q. rewrite Z.eqb_refl. destruct (Z.eqb_spec (pl_len H - 1) (-1)); [lia|reflexivity]. }
  rewrite (SQ fm Vm), (SQ fo Vo).
  destruct (qltbP (pl_last fo + eps) (pl_last fm)) as [ST|ST].
  2:{ cbn [bind]. apply FIN; auto; [discriminate|]. cbn [start]. apply STAY. intros t H1 H2.
      assert (Q : pl_last fm <= pl_last fo).
      { destruct SL as [Q|Q]; [rewrite Q; qlra|]. destruct (qabs_spec (pl_last fm - pl_last fo)) as [[? X]|[? X]]; rewrite X in Q; qlra. }
      rewrite (Ho t H1), (at_right2 fm t p Vm H1) by (intros x Hx; specialize (Bm x Hx); qlra).
      fold fm fo in LE. assert (0 <= t - p) by qlra. set (w := t - p) in *. clearbody w. qnra. }
  (* steeper than the other one: the last breakpoint has been pushed *)
  assert (LT : tl = p /\ pl_at fm p < pl_at fo p).
  { fold fm fo in LE. destruct END as [E|[[E1 E2]|[E1 E2]]].
    - exfalso. assert (pl_last fm = pl_last fo) by (unfold fm, fo; destruct cm; cbn [sel negb]; auto). pose proof eps_pos. qlra.
    - rewrite <- EP in E1, E2. unfold fm, fo in *. destruct cm; cbn [sel negb] in *; [|exfalso; qlra]. split; auto.
      destruct E2 as [E2|E2]; [exfalso; pose proof eps_pos; qlra|]. specialize (Bm p E2). qlra.
    - assert (ES : last_break g f = p).
      { rewrite EP. unfold last_break. destruct (qmax_spec (tm f (pl_len f - 1)) (tm g (pl_len g - 1))) as [[? ->]|[? ->]], (qmax_spec (tm g (pl_len g - 1)) (tm f (pl_len f - 1))) as [[? ->]|[? ->]]; qlra. }
      rewrite ES in E1, E2. unfold fm, fo in *. destruct cm; cbn [sel negb] in *; [exfalso; qlra|]. split; auto.
      destruct E2 as [E2|E2]; [exfalso; pose proof eps_pos; qlra|]. specialize (Bm p E2). qlra. }
  destruct LT as [-> LT].
  assert (DM : forall H, H = f \/ H = g -> in_dom H p).
  { intros H [->| ->]; (split; [rewrite ?Lf, ?Lg; exact (proj1 Dtl)|rewrite <- ?HH; exact (proj2 Dtl)]). }
  rewrite (eval_at fm p), (eval_at fo p) by (auto; apply DM; unfold fm, fo; destruct cm; auto). cbn [bind].
  rewrite pydiv_ok by (intro X; pose proof eps_pos; qlra). cbn [bind].
  set (u := (pl_at fo p - pl_at fm p) / (pl_last fm - pl_last fo)).
  assert (U : u * (pl_last fm - pl_last fo) = pl_at fo p - pl_at fm p) by (apply qmul_div; intro; pose proof eps_pos; qlra).
  clearbody u. assert (Z0 : 0 < pl_last fm - pl_last fo) by (pose proof eps_pos; qlra).
  assert (U0 : 0 < u) by (destruct (qltbP 0 u); [assumption|exfalso; set (z := pl_last fm - pl_last fo) in *; clearbody z; qnra]).
  assert (CMP : forall t, p <= t -> pl_at fo t - pl_at fm t = (p + u - t) * (pl_last fm - pl_last fo)).
  { intros t H. rewrite (Ho t H), (Hm t H). transitivity ((pl_at fo p - pl_at fm p) - (t - p) * (pl_last fm - pl_last fo)); [ring|]. rewrite <- U. ring. }
  assert (EQ : pl_at fo (p + u) = pl_at fm (p + u)).
  { pose proof (CMP (p + u) ltac:(qlra)) as Q. replace (p + u - (p + u)) with 0 in Q by ring. replace (0 * (pl_last fm - pl_last fo)) with 0 in Q by ring. qlra. }
  assert (B1 : forall t, p <= t -> t <= p + u -> pl_at fm t <= pl_at fo t).
  { intros t H1 H2. pose proof (CMP t H1) as Q. assert (0 <= p + u - t) by qlra. set (w := p + u - t) in *. set (z := pl_last fm - pl_last fo) in *. clearbody w z. assert (0 <= w * z) by qnra. qlra. }
  assert (B2 : forall t, p + u <= t -> pl_at fo t <= pl_at fm t).
  { intros t H1. pose proof (CMP t ltac:(qlra)) as Q. assert (0 <= t - (p + u)) by qlra.
    assert (Q2 : pl_at fm t - pl_at fo t = (t - (p + u)) * (pl_last fm - pl_last fo)).
    { replace (pl_at fm t - pl_at fo t) with (- (pl_at fo t - pl_at fm t)) by ring. rewrite Q. ring. }
    set (w := t - (p + u)) in *. set (z := pl_last fm - pl_last fo) in *. clearbody w z. assert (0 <= w * z) by qnra. qlra. }
  assert (KC : min_kink f g (p + u)).
  { right. right. split; [unfold fm, fo in EQ; destruct cm; cbn [sel negb] in EQ; auto|].
    exists (pl_len f - 1)%Z, (pl_len g - 1)%Z. split; [lia|]. split; [lia|].
    split; [split; intro; [pose proof (proj1 (proj2 Qf) (pl_len f - 1)%Z ltac:(lia)); qlra|lia]|].
    split; [split; intro; [pose proof (proj1 (proj2 Qg) (pl_len g - 1)%Z ltac:(lia)); qlra|lia]|].
    rewrite (SQ f Vf), (SQ g Vg). intro X. apply (f_equal (fun q => q - pl_last g)) in X. unfold fm, fo in Z0. destruct cm; cbn [sel negb] in Z0; qlra. }
  assert (GP : gap p (p + u)).
  { apply (ms_kinks f g SEP); auto; [|qlra]. assert (I : In p (pl_times f ++ pl_times g)) by (apply PI; lia). apply in_app_or in I. unfold min_kink. tauto. }
  assert (T1 : qltb (p + eps) (p + u) = true) by (apply qltb_true; unfold gap in GP; qlra).
  rewrite T1. cbn [andb].
  destruct (ext_lebP (Fin (p + u)) (pl_hi f)) as [W|W]; cbn [bind].
  - assert (CV : covers f g lo fs cm (pl_len fm) (p :: r) (p + u)).
    { constructor; cbn [start]; fold fm.
      - qlra.
      - intros t H1 H2. apply HF, B1; auto.
      - intros k Hk. apply Bm, tm_in. exact Hk.
      - intros k Hk. lia.
      - discriminate. }
    destruct (push_ok2 f g Vf Vg lo SEP fs cm _ _ _ TI CV KC ltac:(qlra) W) as [TI' [r' Er]].
    unfold push in TI', Er. rewrite T1 in TI', Er.
    apply FIN; [exact TI'|discriminate|]. cbn [start]. intros t H1 H2.
    rewrite (HF2 t) by (apply B2; auto). rewrite (HF2 (p + u)) by (apply B2; qlra).
    apply (at_right2 fo); auto. intros x Hx. specialize (Bo x Hx). qlra.
  - apply FIN; [exact TI|discriminate|]. cbn [start]. apply STAY. intros t H1 H2. apply B1; auto.
    destruct (qlebP t (p + u)); [assumption|exfalso]. apply W. eapply ext_le_trans; [|exact H2]. cbn [ext_le]. qlra.
Qed.
