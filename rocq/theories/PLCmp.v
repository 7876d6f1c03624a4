(** * Proofs: smaller_equals (C15) *)
From Verif Require Import Base Spec Arrays ArraysProofs PL PL2 PLProofs PLEval PLArith PLOps PLMono.

Lemma aff_le h a b k : aff h a b -> h a <= k -> h b <= k -> forall t, a <= t -> t <= b -> h t <= k.
Proof.
  intros [m [c H]] Ha Hb t H1 H2. rewrite H by auto. rewrite H in Ha, Hb by qlra.
  destruct (qlebP 0 m); qnra.
Qed.

Lemma eps1000_pos : 0 < eps1000.
Proof. vm_compute. reflexivity. Qed.

Lemma rank_of_seg f i n : valid f -> (0 <= i < pl_len f)%Z -> tm f i < n ->
  ((i < pl_len f - 1)%Z -> n <= tm f (i+1)) -> is_rank (pl_times f) n i.
Proof.
  intros V Hi H1 H2. apply is_rank_iff. unfold pl_len, tm in *. split; [lia|]. split; [auto|]. intro; apply H2; lia.
Qed.
Lemma ewr_at f i n : valid f -> in_dom f n -> (0 <= i < pl_len f)%Z -> tm f i < n ->
  ((i < pl_len f - 1)%Z -> n <= tm f (i+1)) -> eval_with_rank f n i = Ok (pl_at f n).
Proof.
  intros V D Hi H1 H2. pose proof (rank_of_seg f i n V Hi H1 H2) as R.
  rewrite (eval_with_rank_ok f V n i D R). rewrite (pl_at_rank f n i V R). reflexivity.
Qed.

Section SE.
Variables f g : PL.
Hypothesis Vf : valid f.
Hypothesis Vg : valid g.
Variable lo : Qc.
Hypothesis Lf : pl_lo f = Fin lo.
Hypothesis Lg : pl_lo g = Fin lo.
Hypothesis Tf : tm f 0 = lo.
Hypothesis Tg : tm g 0 = lo.
Hypothesis HH : ext_le (pl_hi g) (pl_hi f).
Hypothesis ND : ext_lt (Fin lo) (pl_hi g).

Let d (t : Qc) : Qc := pl_at f t - pl_at g t.

Lemma se_dom t : in_dom g t -> in_dom f t.
Proof.
  intros [D1 D2]. split; [rewrite Lf; rewrite Lg in D1; exact D1|].
  eapply ext_le_trans; [exact D2|exact HH].
Qed.

Lemma at_lo_f : pl_at f lo = vl f 0.
Proof. pose proof (len_pos f Vf). rewrite <- Tf. apply at_tm; auto. lia. Qed.
Lemma at_lo_g : pl_at g lo = vl g 0.
Proof. pose proof (len_pos g Vg). rewrite <- Tg. apply at_tm; auto. lia. Qed.

Definition last_break : Qc := qmax (tm f (pl_len f - 1)) (tm g (pl_len g - 1)).

(** Everything up to [c] is fine, and [c] lies in segment [i] of f and [j] of g. *)
Record seinv (c : Qc) (i j : Z) : Prop := {
  se_i : (0 <= i < pl_len f)%Z; se_j : (0 <= j < pl_len g)%Z;
  se_ci : tm f i <= c; se_cj : tm g j <= c;
  se_ni : (i < pl_len f - 1)%Z -> c < tm f (i+1);
  se_nj : (j < pl_len g - 1)%Z -> c < tm g (j+1);
  se_lo : lo <= c;
  se_hi : ext_lt (Fin c) (pl_hi g);
  se_ok : forall t, lo <= t -> t <= c -> d t <= eps1000 }.

Lemma d_aff c i j n : seinv c i j -> c <= n ->
  ((i < pl_len f - 1)%Z -> n <= tm f (i+1)) -> ((j < pl_len g - 1)%Z -> n <= tm g (j+1)) ->
  aff d c n.
Proof.
  intros I Hn Hi Hj. destruct I.
  apply (aff_plus (pl_at f) (fun t => - pl_at g t)).
  - apply at_aff; auto. intros x Hx. destruct (in_tm f x Hx) as [k [Hk <-]].
    destruct (Z.leb_spec k i).
    + left. pose proof (tm_le f Vf k i ltac:(lia) ltac:(lia)). qlra.
    + right. pose proof (tm_le f Vf (i+1) k ltac:(lia) ltac:(lia)). specialize (Hi ltac:(lia)). qlra.
  - apply aff_opp. apply at_aff; auto. intros x Hx. destruct (in_tm g x Hx) as [k [Hk <-]].
    destruct (Z.leb_spec k j).
    + left. pose proof (tm_le g Vg k j ltac:(lia) ltac:(lia)). qlra.
    + right. pose proof (tm_le g Vg (j+1) k ltac:(lia) ltac:(lia)). specialize (Hj ltac:(lia)). qlra.
Qed.

Lemma se_step_dom c n : ext_lt (Fin c) (pl_hi g) -> lo <= c -> c < n -> ext_le (Fin n) (pl_hi g) -> in_dom g n.
Proof. intros H1 H2 H3 H4. split; [rewrite Lg; cbn [ext_le]; qlra|exact H4]. Qed.

Lemma se_loop_ok fuel : forall c i j, seinv c i j ->
  (pl_len f - i + (pl_len g - j) < Z.of_nat fuel)%Z ->
  exists b, se_loop fuel f g i j = Ok b /\
    (b = false -> exists t, in_dom g t /\ eps1000 < d t) /\
    (b = true -> (exists h, pl_hi g = Fin h /\ forall t, lo <= t -> t <= h -> d t <= eps1000) \/
       exists c', last_break <= c' /\ seinv c' (pl_len f - 1) (pl_len g - 1)).
Proof.
  induction fuel as [|k IH]; intros c i j I Hf; [destruct I; lia|].
  pose proof I as [Bi Bj Ci Cj Ni Nj Cl Ch Cd]. cbn [se_loop].
  destruct (((i <? pl_len f - 1)%Z || (j <? pl_len g - 1)%Z)%bool) eqn:EB.
  2:{ apply orb_false_iff in EB. destruct EB as [E1 E2]. apply Z.ltb_ge in E1, E2.
      exists true. split; [reflexivity|]. split; [discriminate|]. intros _. right.
      assert (i = pl_len f - 1)%Z by lia. assert (j = pl_len g - 1)%Z by lia. subst i j.
      exists c. split; [|exact I]. unfold last_break. qmm; assumption. }
  set (ntf := if (i <? pl_len f - 1)%Z then Fin (tm f (i+1)) else pl_hi f).
  set (ntg := if (j <? pl_len g - 1)%Z then Fin (tm g (j+1)) else pl_hi g).
  assert (Ef : (if (i <? pl_len f - 1)%Z then rmap Fin (pyget (pl_times f) (i + 1)) else Ok (pl_hi f)) = Ok ntf).
  { unfold ntf. destruct (Z.ltb_spec i (pl_len f - 1)); [|reflexivity]. rewrite (get_tm f) by lia. reflexivity. }
  assert (Eg : (if (j <? pl_len g - 1)%Z then rmap Fin (pyget (pl_times g) (j + 1)) else Ok (pl_hi g)) = Ok ntg).
  { unfold ntg. destruct (Z.ltb_spec j (pl_len g - 1)); [|reflexivity]. rewrite (get_tm g) by lia. reflexivity. }
  rewrite Ef, Eg. cbn [bind].
  assert (Lfc : ext_lt (Fin c) ntf).
  { unfold ntf. destruct (Z.ltb_spec i (pl_len f - 1)); [apply ext_lt_fin; auto|].
    eapply ext_lt_le_trans; [exact Ch|exact HH]. }
  assert (Lgc : ext_lt (Fin c) ntg).
  { unfold ntg. destruct (Z.ltb_spec j (pl_len g - 1)); [apply ext_lt_fin; auto|exact Ch]. }
  assert (Fin1 : exists n, ext_min ntf ntg = Fin n).
  { unfold ext_min, ext_ltb. apply orb_true_iff in EB.
    destruct ntf as [|x|] eqn:X; [exfalso; apply Lfc; exact Logic.I| |];
    (destruct ntg as [|y|] eqn:Y; [exfalso; apply Lgc; exact Logic.I| |]); cbn [ext_leb negb]; eauto.
    - destruct (qleb x y); cbn [negb]; eauto.
    - exfalso. unfold ntf in X. unfold ntg in Y.
      destruct (Z.ltb_spec i (pl_len f - 1)); [discriminate|]. destruct (Z.ltb_spec j (pl_len g - 1)); [discriminate|]. destruct EB; discriminate. }
  destruct Fin1 as [n En]. cbn zeta. rewrite En.
  assert (Nf : ext_le (Fin n) ntf /\ ext_le (Fin n) ntg) by (apply ext_min_le; rewrite En; apply ext_le_refl).
  destruct Nf as [Nf Ng].
  assert (Nor : ntf = Fin n \/ ntg = Fin n).
  { unfold ext_min in En. destruct (ext_ltb ntg ntf); auto. }
  assert (Hcn : c < n) by (destruct Nor as [E|E]; [rewrite E in Lfc|rewrite E in Lgc]; apply ext_lt_fin; assumption).
  assert (Hnf : (i < pl_len f - 1)%Z -> n <= tm f (i+1)).
  { intro. unfold ntf in Nf. destruct (Z.ltb_spec i (pl_len f - 1)); [exact Nf|lia]. }
  assert (Hng : (j < pl_len g - 1)%Z -> n <= tm g (j+1)).
  { intro. unfold ntg in Ng. destruct (Z.ltb_spec j (pl_len g - 1)); [exact Ng|lia]. }
  assert (Hhi : ext_le (Fin n) (pl_hi g)).
  { unfold ntg in Ng. destruct (Z.ltb_spec j (pl_len g - 1)); [|exact Ng].
    eapply ext_le_trans; [exact Ng|]. apply (v_dom g Vg). apply tm_in. lia. }
  assert (Dg : in_dom g n) by (eapply se_step_dom; eauto).
  assert (Df : in_dom f n) by (apply se_dom; exact Dg).
  rewrite (ewr_at f i n Vf Df Bi) by (auto; qlra). rewrite (ewr_at g j n Vg Dg Bj) by (auto; qlra). cbn [bind].
  destruct (qltbP (pl_at g n + eps1000) (pl_at f n)) as [K|K].
  { exists false. split; [reflexivity|]. split; [|discriminate]. intros _. exists n. split; [exact Dg|]. unfold d. qlra. }
  assert (Hdn : d n <= eps1000) by (unfold d; qlra).
  assert (Hok : forall t, lo <= t -> t <= n -> d t <= eps1000).
  { intros t H1 H2. destruct (qlebP t c) as [C|C]; [apply Cd; auto|].
    apply (aff_le d c n); try qlra; try assumption; [|apply Cd; qlra].
    apply (d_aff c i j n I); auto. qlra. }
  destruct (ext_eqbP (Fin n) (pl_hi g)) as [Q|Q].
  { exists true. split; [reflexivity|]. split; [discriminate|]. intros _. left. exists n. split; [congruence|exact Hok]. }
  assert (Chn : ext_lt (Fin n) (pl_hi g)).
  { intro C. apply Q. apply ext_le_antisym; assumption. }
  assert (Fhn : ext_lt (Fin n) (pl_hi f)) by (eapply ext_lt_le_trans; [exact Chn|exact HH]).
  apply IH with (c := n).
  - destruct (ext_eqbP ntf (Fin n)) as [Q1|Q1]; destruct (ext_eqbP ntg (Fin n)) as [Q2|Q2].
    all: try (destruct Nor; congruence).
    all: assert (Xf : ntf = Fin n -> (i < pl_len f - 1)%Z /\ n = tm f (i+1))
       by (unfold ntf; intro EE; destruct (Z.ltb_spec i (pl_len f - 1)); [split; [lia|congruence]|exfalso; rewrite EE in Fhn; apply Fhn; apply ext_le_refl]).
    all: assert (Xg : ntg = Fin n -> (j < pl_len g - 1)%Z /\ n = tm g (j+1))
       by (unfold ntg; intro EE; destruct (Z.ltb_spec j (pl_len g - 1)); [split; [lia|congruence]|exfalso; rewrite EE in Chn; apply Chn; apply ext_le_refl]).
    all: assert (Yf : ntf <> Fin n -> (i < pl_len f - 1)%Z -> n < tm f (i+1))
       by (unfold ntf; intros EE EL; destruct (Z.ltb_spec i (pl_len f - 1)); [|lia]; specialize (Hnf EL); destruct (qc_ne_lt n (tm f (i+1))) as [?|?]; [intro; apply EE; congruence|assumption|qlra]).
    all: assert (Yg : ntg <> Fin n -> (j < pl_len g - 1)%Z -> n < tm g (j+1))
       by (unfold ntg; intros EE EL; destruct (Z.ltb_spec j (pl_len g - 1)); [|lia]; specialize (Hng EL); destruct (qc_ne_lt n (tm g (j+1))) as [?|?]; [intro; apply EE; congruence|assumption|qlra]).
    + destruct (Xf Q1) as [X1 X2]. destruct (Xg Q2) as [X3 X4].
      constructor; try lia; try assumption; try qlra.
      * intro. pose proof (tm_lt f Vf (i+1) (i+1+1) ltac:(lia) ltac:(lia)). qlra.
      * intro. pose proof (tm_lt g Vg (j+1) (j+1+1) ltac:(lia) ltac:(lia)). qlra.
    + destruct (Xf Q1) as [X1 X2].
      constructor; try lia; try assumption; try qlra.
      * intro. pose proof (tm_lt f Vf (i+1) (i+1+1) ltac:(lia) ltac:(lia)). qlra.
      * intro. apply Yg; auto.
    + destruct (Xg Q2) as [X3 X4].
      constructor; try lia; try assumption; try qlra.
      * intro. apply Yf; auto.
      * intro. pose proof (tm_lt g Vg (j+1) (j+1+1) ltac:(lia) ltac:(lia)). qlra.
  - destruct (ext_eqbP ntf (Fin n)) as [Q1|Q1]; destruct (ext_eqbP ntg (Fin n)) as [Q2|Q2]; try lia.
    destruct Nor; congruence.
Qed.

Lemma seinv0 : vl f 0 <= vl g 0 + eps1000 -> seinv lo 0 0.
Proof.
  intro H. pose proof (len_pos f Vf). pose proof (len_pos g Vg). constructor; try lia; try qlra; auto.
  - intro. pose proof (tm_lt f Vf 0 (0+1) ltac:(lia) ltac:(lia)). qlra.
  - intro. pose proof (tm_lt g Vg 0 (0+1) ltac:(lia) ltac:(lia)). qlra.
  - intros t K1 K2. assert (t = lo) by qlra. subst t. unfold d.
    rewrite at_lo_f, at_lo_g. qlra.
Qed.

Lemma se_ok_main : exists b, smaller_equals f g = Ok b /\
  (b = true -> forall t, in_dom g t ->
     pl_at f t <= pl_at g t + eps1000 + (if qleb t last_break then 0 else (t - last_break) * eps1000) /\
     (pl_hi g <> PInf -> pl_at f t <= pl_at g t + eps1000)) /\
  (b = false -> exists t, in_dom g t /\ pl_at g t < pl_at f t).
Proof.
  pose proof (len_pos f Vf) as LPf. pose proof (len_pos g Vg) as LPg. pose proof eps1000_pos as EP.
  unfold smaller_equals. rewrite (get_tm f), (get_tm g) by lia. cbn [bind].
  rewrite Tf, Tg, Lf, Lg. cbn [ext_eqb]. rewrite qeqb_refl. cbn [andb assertb bind].
  assert (B : ext_ltb (pl_hi f) (ext_add (pl_hi g) (- eps1000)) = false).
  { destruct (ext_ltbP (pl_hi f) (ext_add (pl_hi g) (- eps1000))) as [C|C]; [|reflexivity].
    exfalso. apply C. eapply ext_le_trans; [|exact HH]. destruct (pl_hi g); cbn [ext_add ext_le]; auto. qlra. }
  rewrite B. rewrite (get_vl f Vf), (get_vl g Vg) by lia. cbn [bind].
  assert (D0 : in_dom g lo).
  { split; [rewrite Lg; apply ext_le_refl|]. apply ext_lt_le. exact ND. }
  destruct (qltbP (vl g 0 + eps1000) (vl f 0)) as [C0|C0].
  { exists false. split; [reflexivity|]. split; [discriminate|]. intros _. exists lo. split; [exact D0|].
    rewrite at_lo_f, at_lo_g. qlra. }
  destruct (se_loop_ok (S (length (pl_times f) + length (pl_times g))) lo 0 0 (seinv0 ltac:(qlra)))
    as [b [Eb [Bf Bt]]]; [unfold pl_len, zlen; lia|].
  rewrite Eb. cbn [bind]. destruct b; cbn [negb].
  2:{ exists false. split; [reflexivity|]. split; [discriminate|]. intros _.
      destruct (Bf eq_refl) as [t [Dt Ht]]. exists t. split; [exact Dt|]. unfold d in Ht. qlra. }
  clear Bf. specialize (Bt eq_refl).
  assert (Dlast : forall t, in_dom g t -> lo <= t) by (intros t [D1 _]; rewrite Lg in D1; exact D1).
  destruct Bt as [[h [Eh Hh]]|[c [Hc I]]].
  - rewrite Eh. assert (Dh : in_dom g h).
    { split; [|rewrite Eh; apply ext_le_refl]. rewrite Lg. cbn [ext_le].
      rewrite Eh in ND. apply ext_lt_fin in ND. qlra. }
    rewrite (eval_at f h Vf (se_dom h Dh)), (eval_at g h Vg Dh). cbn [bind].
    assert (K : d h <= eps1000) by (apply Hh; [apply Dlast; auto|qlra]). unfold d in K.
    rewrite (proj2 (qleb_true _ _)) by qlra. exists true. split; [reflexivity|]. split; [|discriminate].
    intros _ t Dt. assert (Ht : d t <= eps1000).
    { apply Hh; [auto|]. destruct Dt as [_ D2]. rewrite Eh in D2. exact D2. }
    unfold d in Ht. split; [|intro; qlra]. destruct (qlebP t last_break); [qlra|].
    assert (0 <= (t - last_break) * eps1000) by qnra. qlra.
  - pose proof I as [Bi Bj Ci Cj Ni Nj Cl Ch Cd].
    assert (Q : exists x, pl_hi g = x) by eauto. destruct Q as [[|h|] Eh]; [exfalso; apply ND; rewrite Eh; exact Logic.I| |]; rewrite Eh in Ch |- *.
    + assert (Hch : c < h) by (apply ext_lt_fin; exact Ch).
      assert (Dh : in_dom g h).
      { split; [|rewrite Eh; apply ext_le_refl]. rewrite Lg. cbn [ext_le]. qlra. }
      rewrite (eval_at f h Vf (se_dom h Dh)), (eval_at g h Vg Dh). cbn [bind].
      eexists. split; [reflexivity|]. destruct (qlebP (pl_at f h) (pl_at g h + eps1000)) as [K|K].
      * split; [|discriminate]. intros _ t Dt.
        assert (Ht : d t <= eps1000).
        { destruct (qlebP t c); [apply Cd; auto|]. apply (aff_le d c h); try qlra.
          - apply (d_aff c _ _ h I); try lia. qlra.
          - apply Cd; qlra.
          - unfold d; qlra.
          - destruct Dt as [_ D2]. rewrite Eh in D2. exact D2. }
        unfold d in Ht. split; [|intro; qlra]. destruct (qlebP t last_break); [qlra|].
        assert (0 <= (t - last_break) * eps1000) by qnra. qlra.
      * split; [discriminate|]. intros _. exists h. split; [exact Dh|]. qlra.
    + rewrite (gradient_ok f Vf), (gradient_ok g Vg) by lia. cbn [bind].
      assert (Esf : slope_q f (pl_len f - 1) = pl_last f).
      { unfold slope_q. destruct (Z.eqb_spec (pl_len f - 1) (-1)); [lia|]. rewrite Z.eqb_refl. reflexivity. }
      assert (Esg : slope_q g (pl_len g - 1) = pl_last g).
      { unfold slope_q. destruct (Z.eqb_spec (pl_len g - 1) (-1)); [lia|]. rewrite Z.eqb_refl. reflexivity. }
      rewrite Esf, Esg. eexists. split; [reflexivity|].
      set (T := last_break).
      assert (TT : tm f (pl_len f - 1) <= T /\ tm g (pl_len g - 1) <= T) by (unfold T, last_break; qmm; qlra).
      destruct TT as [TT1 TT2].
      assert (TL : lo <= T).
      { pose proof (tm_le f Vf 0 (pl_len f - 1) ltac:(lia) ltac:(lia)). qlra. }
      assert (DT : d T <= eps1000) by (apply Cd; [exact TL|exact Hc]).
      assert (Hd : forall t, T <= t -> d t = d T + (t - T) * (pl_last f - pl_last g)).
      { intros t Ht. unfold d. rewrite (at_right f t Vf), (at_right f T Vf), (at_right g t Vg), (at_right g T Vg) by qlra. ring. }
      destruct (qlebP (pl_last f) (pl_last g + eps1000)) as [K|K].
      * split; [|discriminate]. intros _ t Dt. split; [|congruence].
        destruct (qlebP t T) as [C|C].
        -- assert (d t <= eps1000) by (apply Cd; auto; unfold T in *; qlra). unfold d in H. qlra.
        -- assert (E1 : d t = d T + (t - T) * (pl_last f - pl_last g)) by (apply Hd; qlra).
           assert ((t - T) * (pl_last f - pl_last g) <= (t - T) * eps1000) by qnra.
           unfold d in E1 at 1. qlra.
      * split; [discriminate|]. intros _.
        destruct (lin_ge (d T) (pl_last f - pl_last g) ltac:(qlra) 1) as [X [HX HXX]].
        exists (T + X). assert (DD : in_dom g (T + X)).
        { split; [rewrite Lg; cbn [ext_le]; qlra|rewrite Eh; exact Logic.I]. }
        split; [exact DD|]. specialize (HXX X ltac:(qlra)).
        assert (E1 : d (T + X) = d T + (T + X - T) * (pl_last f - pl_last g)) by (apply Hd; qlra).
        replace (T + X - T) with X in E1 by ring. unfold d in E1 at 1. qlra.
Qed.
End SE.

(** f undefined well before g: reported as not smaller. *)
Lemma se_short f g lo : valid f -> valid g -> pl_lo f = Fin lo -> pl_lo g = Fin lo ->
  tm f 0 = lo -> tm g 0 = lo ->
  ext_lt (pl_hi f) (ext_add (pl_hi g) (- eps1000)) -> smaller_equals f g = Ok false.
Proof.
  intros Vf Vg Lf Lg Tf Tg H. pose proof (len_pos f Vf). pose proof (len_pos g Vg).
  unfold smaller_equals. rewrite (get_tm f), (get_tm g) by lia. cbn [bind].
  rewrite Tf, Tg, Lf, Lg. cbn [ext_eqb]. rewrite qeqb_refl. cbn [andb assertb bind].
  destruct (ext_ltbP (pl_hi f) (ext_add (pl_hi g) (- eps1000))); [reflexivity|contradiction].
Qed.
