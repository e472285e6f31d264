(** * P_GeomF: IEEE-754 properties of tri_area and cross, for every binary format *)
From Coq Require Import ZArith Reals List Bool Lra Lia Permutation.
From Flocq Require Import Core BinarySingleNaN.
From Verif Require Import CSem CSemP Num NumP NumF NumX M_Int M_Stat M_Geom S_Geom P_Geom.
Import ListNotations.
Open Scope R_scope.

Section GF.
  Context (prec emax : Z) (Hp : Prec_gt_0 prec) (He : Prec_lt_emax prec emax).
  Notation F := (binary_float prec emax).
  Notation FA := (farith prec emax Hp He).
  Notation E := (f2e prec emax).
  Notation fexp := (SpecFloat.fexp prec emax).

  Lemma f2e_inj (x y : F) : E x = E y -> x = y \/ (E x = Fin 0 /\ exists s s', x = B754_zero s /\ y = B754_zero s').
  Proof.
    destruct x as [s|[]| |s m e B], y as [s'|[]| |s' m' e' B']; intros H; try discriminate H; auto.
    - right. split; [reflexivity|]. eauto.
    - exfalso. cbn in H. injection H as H. symmetry in H. apply eq_0_F2R in H. destruct s'; discriminate.
    - exfalso. cbn in H. injection H as H. apply eq_0_F2R in H. destruct s; discriminate.
    - left. apply B2R_inj; try reflexivity. cbn [f2e] in H. injection H as H. exact H.
  Qed.

  Lemma frnd_opp r : frnd prec emax (- r) = eopp (frnd prec emax r).
  Proof.
    unfold frnd. assert (O : rnd prec emax (- r) = - rnd prec emax r) by (unfold rnd; apply round_NE_opp).
    rewrite O, Rabs_Ropp. destruct (Rlt_bool (Rabs (rnd prec emax r)) (bpow radix2 emax)) eqn:B; [reflexivity|].
    assert (N : r <> 0) by (apply (ovf_nonzero prec emax); exact B).
    destruct (Rlt_bool_spec r 0), (Rlt_bool_spec (- r) 0); try reflexivity; exfalso; lra.
  Qed.

  Lemma minus_anti (x y : F) : E (Bminus mode_NE y x) = eopp (E (Bminus mode_NE x y)).
  Proof.
    destruct (is_finite x) eqn:Fx; [destruct (is_finite y) eqn:Fy|].
    - rewrite !f2e_minus by assumption. rewrite <- frnd_opp. f_equal. ring.
    - destruct y as [s|[]| |s m e B], x as [s'|[]| |s' m' e' B']; try discriminate; reflexivity.
    - destruct x as [s|[]| |s m e B], y as [s'|[]| |s' m' e' B']; try discriminate; reflexivity.
  Qed.

  Lemma mult_opp_opp (d : F) : Bmult mode_NE (Bopp d) (Bopp d) = Bmult mode_NE d d.
  Proof.
    destruct d as [[]|[]| |s m e B]; try reflexivity. cbn [Bopp Bmult].
    apply B2SF_inj. rewrite !B2SF_SF2B. destruct s; reflexivity.
  Qed.

  Lemma sq_sym (x y : F) : a_mul FA (a_sub FA x y) (a_sub FA x y) = a_mul FA (a_sub FA y x) (a_sub FA y x).
  Proof.
    cbn [farith a_mul a_sub].
    pose proof (minus_anti x y) as H. rewrite <- f2e_opp in H. apply f2e_inj in H.
    destruct H as [-> | (_ & s & s' & H1 & H2)].
    - symmetry. apply mult_opp_opp.
    - rewrite H1. destruct (Bminus mode_NE x y) as [[]|[]| |? ? ? ?]; try discriminate; destruct s; reflexivity.
  Qed.

  (** floats without a minus sign *)
  Definition nn (x : F) : Prop := x = B754_nan \/ Bsign x = false.

  Lemma nn_sq (d : F) : nn (Bmult mode_NE d d).
  Proof.
    destruct (is_nan (Bmult mode_NE d d)) eqn:N.
    - left. destruct (Bmult mode_NE d d); try discriminate. reflexivity.
    - right. destruct d as [s|s| |s m e B]; try discriminate; try (cbn; apply xorb_nilpotent).
      pose proof (Bmult_correct prec emax Hp He mode_NE (B754_finite s m e B) (B754_finite s m e B)) as C.
      destruct (Rlt_bool _ _).
      + destruct C as (_ & _ & C). rewrite (C N). apply xorb_nilpotent.
      + rewrite overflow_NE in C. cbn [Bsign] in C. rewrite xorb_nilpotent in C.
        destruct (Bmult mode_NE _ _) as [s'|s'| |s' m' e' B']; try discriminate C. injection C as ->. reflexivity.
  Qed.

  Lemma nn_add (x y : F) : nn x -> nn y -> nn (Bplus mode_NE x y).
  Proof.
    intros [-> | Hx]; [left; reflexivity|]. intros [-> | Hy]; [left; apply Bplus_nan_r|].
    destruct (is_finite x) eqn:Fx; [destruct (is_finite y) eqn:Fy|].
    - right. pose proof (Bplus_correct prec emax Hp He mode_NE x y Fx Fy) as C.
      pose proof (Bsign_false_ge prec emax x Fx Hx). pose proof (Bsign_false_ge prec emax y Fy Hy).
      destruct (Rlt_bool _ _).
      + destruct C as (_ & _ & C). rewrite C. destruct (Rcompare_spec (B2R x + B2R y) 0); [exfalso; lra| |reflexivity].
        rewrite Hx. reflexivity.
      + destruct C as (C & _). rewrite overflow_NE, Hx in C.
        destruct (Bplus mode_NE x y) as [s'|s'| |s' m' e' B']; try discriminate C. injection C as ->. reflexivity.
    - destruct y as [s|[]| |s m e B], x as [s'|[]| |s' m' e' B']; try discriminate; try (left; reflexivity); right; reflexivity.
    - destruct x as [s|[]| |s m e B], y as [s'|[]| |s' m' e' B']; try discriminate; try (left; reflexivity); right; reflexivity.
  Qed.

  Lemma nn_sqrt (x : F) : nn x -> nn (Bsqrt mode_NE x).
  Proof.
    intros [-> | Hx]; [left; reflexivity|].
    pose proof (Bsqrt_correct prec emax Hp He mode_NE x) as (_ & _ & C).
    destruct (is_nan (Bsqrt mode_NE x)) eqn:N.
    - left. destruct (Bsqrt mode_NE x); try discriminate. reflexivity.
    - right. rewrite (C eq_refl). exact Hx.
  Qed.

  Lemma zero_nn : nn (a_ofZ FA 0).
  Proof. right. reflexivity. Qed.

  Lemma nn_nd p q : nn (nd FA p q).
  Proof.
    unfold nd. apply nn_sqrt. generalize zero_nn. generalize (a_ofZ FA 0) as s.
    generalize (combine p q) as l. induction l as [|[x y] l IH]; intros s Hs; [exact Hs|].
    cbn [fold_left]. apply IH. apply nn_add; [exact Hs|]. apply nn_sq.
  Qed.

  Lemma nn_eq (x y : F) : nn x -> nn y -> a_cmp FA x y = Some Eq -> x = y.
  Proof.
    intros Hx Hy H. cbn [farith a_cmp] in H.
    rewrite Bcompare_f2e in H.
    assert (HE : E x = E y).
    { destruct (E x) as [a| | |], (E y) as [b| | |]; cbn in H; try discriminate; try reflexivity.
      injection H as H. apply Rcompare_Eq_inv in H. congruence. }
    apply f2e_inj in HE. destruct HE as [|(_ & s & s' & -> & ->)]; [assumption|].
    destruct Hx as [|Hx]; [discriminate|]. destruct Hy as [|Hy]; [discriminate|]. cbn in *. congruence.
  Qed.

  Lemma isnan_is (x : F) : isnanb (a_cmp FA) x = true -> x = B754_nan.
  Proof. cbn [farith a_cmp]. rewrite isnan_f. destruct x; try discriminate. reflexivity. Qed.

  Lemma heron_nan (x y z : F) :
    isnanb (a_cmp FA) x = true \/ isnanb (a_cmp FA) y = true \/ isnanb (a_cmp FA) z = true ->
    heron FA x y z = a_nan FA.
  Proof.
    intros H. unfold heron. cbn [farith a_add a_sub a_mul a_div a_sqrt a_nan].
    assert (N : Bplus mode_NE x (Bplus mode_NE y z) = B754_nan).
    { destruct H as [H|[H|H]]; apply isnan_is in H; subst.
      - reflexivity.
      - cbn [Bplus]. apply Bplus_nan_r.
      - rewrite Bplus_nan_r. apply Bplus_nan_r. }
    rewrite N. reflexivity.
  Qed.

  Lemma tri_perm_ieee p q r p' q' r' : Permutation [p; q; r] [p'; q'; r'] -> tri_val FA p q r = tri_val FA p' q' r'.
  Proof.
    apply (tri_val_perm FA (Bcompare_laws prec emax) sq_sym nn nn_nd nn_eq heron_nan).
  Qed.

  (** the result is never negative *)
  Lemma sqrt_nonneg (x : F) : E (Bsqrt mode_NE x) = ENaN \/ leb ecmp (Fin 0) (E (Bsqrt mode_NE x)) = true.
  Proof.
    destruct x as [s|[]| |s m e B]; try (left; reflexivity); try (right; reflexivity).
    - right. cbn [Bsqrt f2e]. apply leb_Fin. lra.
    - destruct s; [left; reflexivity|]. right. rewrite f2e_sqrt; try assumption; try reflexivity.
      + apply leb_Fin. rewrite <- (rnd_0 prec emax) at 1. apply (rnd_le prec emax Hp). apply sqrt_pos.
      + cbn. apply F2R_ge_0. cbn. lia.
  Qed.

  Lemma div4_nonneg (y : F) : E y = ENaN \/ leb ecmp (Fin 0) (E y) = true ->
    let z := Bdiv mode_NE y (a_ofZ FA 4) in E z = ENaN \/ leb ecmp (Fin 0) (E z) = true.
  Proof.
    intros H. cbn zeta.
    assert (N4 : leb ecmp (Fin 0) (E (a_ofZ FA 4)) = true).
    { rewrite f2e_ofZ. rewrite <- (frnd_0 prec emax). apply (frnd_le prec emax Hp). lra. }
    generalize (ofZ_nonzero prec emax Hp He 4 ltac:(lia)). revert N4. generalize (a_ofZ FA 4) as w.
    intros w N4 [(r & Er & Nr)|(s & ->)].
    - rewrite Er in N4. apply leb_Fin in N4. destruct (f2e_fin_finite prec emax w r Er) as [Fw Bw].
      destruct y as [sy|[]| |sy my ey By].
      + right. rewrite f2e_div by (try assumption; try reflexivity; rewrite Bw; exact Nr).
        cbn [B2R]. unfold Rdiv. rewrite Rmult_0_l. rewrite (frnd_0 prec emax). apply leb_Fin. lra.
      + destruct H as [H|H]; discriminate.
      + right. destruct w as [sw|sw| |sw mw ew Bw']; try discriminate; cbn [f2e] in Er.
        * injection Er as Er. lra.
        * destruct sw; [|reflexivity]. exfalso. injection Er as Er.
          assert (X : B2R (B754_finite true mw ew Bw') < 0) by (apply F2R_lt_0; reflexivity). rewrite Bw in X. lra.
      + left. reflexivity.
      + right. rewrite f2e_div by (try assumption; try reflexivity; rewrite Bw; exact Nr).
        destruct H as [H|H]; [discriminate|]. cbn [f2e] in H. apply leb_Fin in H.
        rewrite <- (frnd_0 prec emax). apply (frnd_le prec emax Hp). rewrite Bw.
        apply Rmult_le_pos; [exact H|]. apply Rlt_le, Rinv_0_lt_compat. lra.
    - destruct s; [discriminate|]. destruct y as [[]|[]| |sy my ey By]; try (left; reflexivity); right; cbn [Bdiv f2e];
        try (apply leb_Fin; lra).
  Qed.

  Lemma tri_nonneg_ieee p q r : let z := tri_val FA p q r in E z = ENaN \/ leb ecmp (Fin 0) (E z) = true.
  Proof.
    cbn zeta. unfold tri_val. destruct (sort_sides FA (nd FA p q) (nd FA p r) (nd FA q r)) as [[a b] c].
    unfold heron. apply div4_nonneg, sqrt_nonneg.
  Qed.

  (** two coincident vertices: the area is zero (unless a length is not finite or twice it overflows) *)
  Lemma zr_add (x y : F) : E x = Fin 0 -> E y = Fin 0 -> E (Bplus mode_NE x y) = Fin 0.
  Proof. intros Hx Hy. apply (add_zero_r prec emax Hp He); assumption. Qed.

  Lemma nd_self (p : list F) : Forall (fun x => is_finite x = true) p -> E (nd FA p p) = Fin 0.
  Proof.
    intros Fp. unfold nd.
    assert (S : forall l s, Forall (fun xy => fst xy = snd xy /\ is_finite (fst xy) = true) l -> E s = Fin 0 ->
      E (fold_left (fun s xy => a_add FA s (a_mul FA (a_sub FA (snd xy) (fst xy)) (a_sub FA (snd xy) (fst xy)))) l s) = Fin 0).
    { induction l as [|[x y] l IH]; intros s Fl Es; [exact Es|].
      inversion Fl as [|? ? [Exy Fx] Fl']; subst. cbn in Exy, Fx. subst y.
      cbn [fold_left fst snd]. apply IH; [exact Fl'|]. apply zr_add; [exact Es|].
      assert (Z : E (Bminus mode_NE x x) = Fin 0) by (apply (sub_same prec emax Hp He x x (B2R x)); apply f2e_finite; exact Fx).
      exact (mul_zero_r prec emax Hp He _ _ 0 Z Z). }
    assert (Z : E (fold_left (fun s xy => a_add FA s (a_mul FA (a_sub FA (snd xy) (fst xy)) (a_sub FA (snd xy) (fst xy))))
                     (combine p p) (a_ofZ FA 0)) = Fin 0).
    { apply S; [|reflexivity]. clear S. induction Fp as [|x p Hx Fp IH]; constructor; [split; [reflexivity|exact Hx]|exact IH]. }
    cbn [farith a_sqrt]. destruct (fold_left _ _ _) as [s|[]| |s m e B]; try discriminate Z; [reflexivity|].
    exfalso. cbn [f2e] in Z. injection Z as Z. apply eq_0_F2R in Z. destruct s; discriminate.
  Qed.

  Lemma zr_mul_l (x y : F) : E x = Fin 0 -> is_finite y = true -> E (Bmult mode_NE x y) = Fin 0.
  Proof.
    intros Hx Fy. destruct (f2e_fin_finite prec emax x 0 Hx) as [Fx Bx].
    rewrite f2e_mult by assumption. rewrite Bx, Rmult_0_l. apply frnd_0.
  Qed.

  Lemma heron_needle (x z : F) r : E x = Fin r -> E z = Fin 0 -> is_finite (Bplus mode_NE x x) = true ->
    E (heron FA x x z) = Fin 0.
  Proof.
    intros Ex Ez Fxx. destruct (f2e_fin_finite prec emax x r Ex) as [Fx Bx].
    assert (Exx : E (Bplus mode_NE x x) = frnd prec emax (r + r)) by (rewrite f2e_plus by assumption; rewrite Bx; reflexivity).
    assert (Fr : exists v, frnd prec emax (r + r) = Fin v).
    { rewrite <- Exx. rewrite f2e_finite by exact Fxx. eauto. }
    destruct Fr as (v & Fr).
    unfold heron. cbn [farith a_add a_sub a_mul a_div a_sqrt].
    assert (X0 : E (Bminus mode_NE x x) = Fin 0) by (apply (sub_same prec emax Hp He x x r); assumption).
    assert (F2 : E (Bminus mode_NE z (Bminus mode_NE x x)) = Fin 0) by (apply (sub_zero prec emax Hp He); assumption).
    assert (F3 : E (Bplus mode_NE z (Bminus mode_NE x x)) = Fin 0) by (apply zr_add; assumption).
    assert (Fin2 : forall y, E y = Fin r -> is_finite (Bplus mode_NE x y) = true).
    { intros y Ey. destruct (f2e_fin_finite prec emax y r Ey) as [Fy By].
      assert (Q : E (Bplus mode_NE x y) = Fin v) by (rewrite f2e_plus by assumption; rewrite Bx, By; exact Fr).
      apply (f2e_fin_finite prec emax _ v Q). }
    assert (F1 : is_finite (Bplus mode_NE x (Bplus mode_NE x z)) = true).
    { apply Fin2. apply (add_zero_r prec emax Hp He); assumption. }
    assert (F4 : is_finite (Bplus mode_NE x (Bminus mode_NE x z)) = true).
    { apply Fin2. apply (sub_zero prec emax Hp He); assumption. }
    set (f1 := Bplus mode_NE x (Bplus mode_NE x z)) in *.
    set (f2 := Bminus mode_NE z (Bminus mode_NE x x)) in *.
    set (f3 := Bplus mode_NE z (Bminus mode_NE x x)) in *.
    set (f4 := Bplus mode_NE x (Bminus mode_NE x z)) in *.
    assert (P : E (Bmult mode_NE (Bmult mode_NE (Bmult mode_NE f1 f2) f3) f4) = Fin 0).
    { apply zr_mul_l; [|exact F4]. apply zr_mul_l; [|apply (f2e_fin_finite prec emax f3 0 F3)].
      apply (mul_zero_r prec emax Hp He _ _ (B2R f1)); [apply f2e_finite; exact F1|exact F2]. }
    assert (Q : E (Bsqrt mode_NE (Bmult mode_NE (Bmult mode_NE (Bmult mode_NE f1 f2) f3) f4)) = Fin 0).
    { destruct (Bmult mode_NE (Bmult mode_NE (Bmult mode_NE f1 f2) f3) f4) as [s|[]| |s m e B]; try discriminate P; [reflexivity|].
      exfalso. cbn [f2e] in P. injection P as P. apply eq_0_F2R in P. destruct s; discriminate. }
    exact (zero_div prec emax Hp He _ 4 Q ltac:(lia)).
  Qed.

  Lemma tri_coincident_ieee p r : Forall (fun x => is_finite x = true) p ->
    is_finite (a_add FA (nd FA p r) (nd FA p r)) = true ->
    E (tri_val FA p p r) = Fin 0.
  Proof.
    intros Fp F2. unfold tri_val. pose proof (nd_self p Fp) as Z. pose proof (nn_nd p r) as Nb. pose proof (nn_nd p p) as Na.
    set (a := nd FA p p) in *. set (b := nd FA p r) in *. cbn [farith a_add] in F2.
    assert (Fb : is_finite b = true).
    { destruct b as [s|s| |s m e B]; try reflexivity; cbn in F2; [|discriminate]. rewrite eqb_reflx in F2. discriminate. }
    assert (Eb : E b = Fin (B2R b)) by (apply f2e_finite; exact Fb).
    assert (Hb : 0 <= B2R b).
    { destruct Nb as [Nb|Nb]; [rewrite Nb in Fb; discriminate|]. apply (Bsign_false_ge prec emax); assumption. }
    unfold sort_sides.
    assert (G1 : gtb (a_cmp FA) b b = false).
    { cbn [farith a_cmp]. rewrite gtb_f, Eb. apply gtb_Fin_false. lra. }
    destruct (gtb (a_cmp FA) b a) eqn:G.
    - rewrite G1, G. apply (heron_needle b a (B2R b)); assumption.
    - rewrite G. rewrite G1.
      assert (Eb0 : E b = Fin 0).
      { cbn [farith a_cmp] in G. rewrite gtb_f, Eb, Z in G. apply gtb_Fin_false in G. rewrite Eb. f_equal. lra. }
      assert (b = a).
      { apply nn_eq; try assumption. cbn [farith a_cmp]. rewrite Bcompare_f2e, Eb0, Z. cbn. f_equal. apply Rcompare_Eq. reflexivity. }
      rewrite <- H. apply (heron_needle b b 0); assumption.
  Qed.

  (** cross products: exchanging the operands negates every component *)
  Lemma mult_comm (x y : F) : Bmult mode_NE x y = Bmult mode_NE y x.
  Proof.
    destruct x as [s|s| |s m e B], y as [s'|s'| |s' m' e' B']; try reflexivity; try (cbn; f_equal; apply xorb_comm).
    cbn [Bmult]. apply B2SF_inj. rewrite !B2SF_SF2B.
    rewrite xorb_comm, (Pos.mul_comm m m'), (Z.add_comm e e'). reflexivity.
  Qed.
  Lemma det_anti (a b c d : F) :
    E (Bminus mode_NE (Bmult mode_NE c b) (Bmult mode_NE d a)) = eopp (E (Bminus mode_NE (Bmult mode_NE a d) (Bmult mode_NE b c))).
  Proof. rewrite (mult_comm c b), (mult_comm d a). apply minus_anti. Qed.
  Lemma det_self (a b : F) :
    E (Bminus mode_NE (Bmult mode_NE a b) (Bmult mode_NE b a)) = Fin 0 \/ E (Bminus mode_NE (Bmult mode_NE a b) (Bmult mode_NE b a)) = ENaN.
  Proof.
    rewrite (mult_comm b a). set (w := Bmult mode_NE a b). destruct w as [s|[]| |s m e B] eqn:Ew; try (right; reflexivity).
    - left. destruct s; reflexivity.
    - left. apply (sub_same prec emax Hp He _ _ (B2R (B754_finite s m e B))); reflexivity.
  Qed.

  Lemma tri_area_perm_ieee (m m' : mem F) b s0 s1 b' s0' s1' n p q r p' q' r' :
    view2 m b s0 s1 [p; q; r] -> view2 m' b' s0' s1' [p'; q'; r'] -> Permutation [p; q; r] [p'; q'; r'] ->
    length p = n -> length q = n -> length r = n -> (Z.of_nat n <= INT_MAX)%Z ->
    tri_area_core_calc FA (Z.of_nat n) m b s0 s1 = tri_area_core_calc FA (Z.of_nat n) m' b' s0' s1'.
  Proof.
    intros V V' P Lp Lq Lr Hn.
    assert (L' : Forall (fun x => length x = n) [p'; q'; r']).
    { eapply Permutation_Forall; [exact P|]. repeat constructor; assumption. }
    inversion L' as [|? ? A1 L1]; subst. inversion L1 as [|? ? A2 L2]; subst. inversion L2 as [|? ? A3 _]; subst.
    rewrite (tri_area_val FA m b s0 s1 (length p) p q r), (tri_area_val FA m' b' s0' s1' (length p) p' q' r') by (first [assumption|congruence]).
    f_equal. apply tri_perm_ieee. exact P.
  Qed.

  Lemma tri_area_nonneg_ieee (m : mem F) b s0 s1 n p q r z :
    view2 m b s0 s1 [p; q; r] -> length p = n -> length q = n -> length r = n -> (Z.of_nat n <= INT_MAX)%Z ->
    tri_area_core_calc FA (Z.of_nat n) m b s0 s1 = Some z ->
    is_nan z = true \/ leb (@Bcompare prec emax) (a_ofZ FA 0) z = true.
  Proof.
    intros V Lp Lq Lr Hn H. rewrite (tri_area_val FA m b s0 s1 n p q r) in H by assumption. injection H as <-.
    destruct (tri_nonneg_ieee p q r) as [N|N]; [left; apply f2e_nan; exact N|right]. rewrite leb_f. exact N.
  Qed.

  Lemma tri_area_coincident_ieee (m : mem F) b s0 s1 n p r d :
    view2 m b s0 s1 [p; p; r] -> length p = n -> length r = n -> (Z.of_nat n <= INT_MAX)%Z ->
    Forall (fun x => is_finite x = true) p ->
    norm_diff FA (Z.of_nat n) m b s0 s1 0 2 = Some d -> is_finite (a_add FA d d) = true ->
    exists z, tri_area_core_calc FA (Z.of_nat n) m b s0 s1 = Some z /\ E z = Fin 0.
  Proof.
    intros V Lp Lr Hn Fp Hd F2.
    rewrite (norm_diff_val FA m b s0 s1 n 0 2 p r) in Hd; try assumption.
    2:{ exact (view2_row m b s0 s1 _ 0 p V eq_refl). } 2:{ exact (view2_row m b s0 s1 _ 2 r V eq_refl). }
    injection Hd as <-. exists (tri_val FA p p r). split; [apply tri_area_val; assumption|].
    apply tri_coincident_ieee; assumption.
  Qed.

  Lemma cross3_anti_ieee mu pu su mv pv sv mo po so (u v : F * F * F) :
    view mu pu su (list3 u) -> view mv pv sv (list3 v) -> writable mo po so 3 ->
    exists w w', writes (cross3_core_calc (f_mul FA) (f_sub FA) mu pu su mv pv sv mo po so) mo po so (list3 w) /\
      writes (cross3_core_calc (f_mul FA) (f_sub FA) mv pv sv mu pu su mo po so) mo po so (list3 w') /\
      map3 E w' = map3 (fun x => eopp (E x)) w.
  Proof.
    destruct u as [[u0 u1] u2], v as [[v0 v1] v2]. intros U V W.
    eexists (_, _, _), (_, _, _). split; [|split].
    - exact (cross3_arith FA mu pu su mv pv sv mo po so u0 u1 u2 v0 v1 v2 U V W).
    - exact (cross3_arith FA mv pv sv mu pu su mo po so v0 v1 v2 u0 u1 u2 V U W).
    - cbn [map3]. f_equal; [f_equal|]; apply det_anti.
  Qed.
  Lemma cross3_self_ieee mu pu su mv pv sv mo po so (u : F * F * F) :
    view mu pu su (list3 u) -> view mv pv sv (list3 u) -> writable mo po so 3 ->
    exists w, writes (cross3_core_calc (f_mul FA) (f_sub FA) mu pu su mv pv sv mo po so) mo po so (list3 w) /\
      Forall (fun x => E x = Fin 0 \/ E x = ENaN) (list3 w).
  Proof.
    destruct u as [[u0 u1] u2]. intros U V W.
    eexists (_, _, _). split.
    - exact (cross3_arith FA mu pu su mv pv sv mo po so u0 u1 u2 u0 u1 u2 U V W).
    - cbn [list3]. repeat apply Forall_cons; try apply det_self. apply Forall_nil.
  Qed.
  Lemma cross2_anti_ieee mu pu su mv pv sv mo po u0 u1 v0 v1 :
    view mu pu su [u0; u1] -> view mv pv sv [v0; v1] -> mo po <> None ->
    exists w w', writes (cross2_core_calc (f_mul FA) (f_sub FA) mu pu su mv pv sv mo po) mo po 0 [w] /\
      writes (cross2_core_calc (f_mul FA) (f_sub FA) mv pv sv mu pu su mo po) mo po 0 [w'] /\
      E w' = eopp (E w).
  Proof.
    intros U V W. eexists _, _. split; [|split].
    - exact (cross2_arith FA mu pu su mv pv sv mo po u0 u1 v0 v1 U V W).
    - exact (cross2_arith FA mv pv sv mu pu su mo po v0 v1 u0 u1 V U W).
    - apply det_anti.
  Qed.
End GF.
