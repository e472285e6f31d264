(** * P_ElemF: IEEE-754 properties of the elementwise functions, for every binary format *)
From Coq Require Import ZArith Reals List Bool Lra Lia.
From Flocq Require Import Core BinarySingleNaN.
From Verif Require Import CSem Num NumP NumF NumX M_Elem S_Elem P_Elem.
Open Scope R_scope.

Section EF.
  Context (prec emax : Z) (Hp : Prec_gt_0 prec) (He : Prec_lt_emax prec emax).
  Notation F := (binary_float prec emax).
  Notation FA := (farith prec emax Hp He).
  Notation E := (f2e prec emax).
  Notation lef := (leb (@Bcompare prec emax)).
  Notation ltf := (ltb (@Bcompare prec emax)).
  Notation zero := (a_ofZ FA 0).
  Notation one := (a_ofZ FA 1).

  Let E0 : E zero = Fin 0. Proof. apply ofZ_0. Qed.
  Let E1 : E one = Fin 1. Proof. apply ofZ_1. Qed.
  Let F1 : is_finite one = true /\ B2R one = 1. Proof. apply f2e_fin_finite, E1. Qed.

  Lemma nonneg_cases (x : F) : lef zero x = true ->
    (is_finite x = true /\ 0 <= B2R x) \/ x = B754_infinity false.
  Proof.
    rewrite leb_f, E0. destruct x as [s|[]| |s m e B]; cbn [f2e]; intros H; try discriminate; auto.
    - left. split; [reflexivity|]. simpl. lra.
    - left. split; [reflexivity|]. apply leb_Fin in H. exact H.
  Qed.

  (** E (1 / (1 + e)) for e >= 0 *)
  Lemma den_cases (e : F) : is_finite e = true -> 0 <= B2R e ->
    let d := a_add FA one e in
    (is_finite d = true /\ 1 <= B2R d /\ E d = frnd prec emax (1 + B2R e)) \/ d = B754_infinity false.
  Proof.
    intros Fe He0 d. destruct F1 as [Ff F1r].
    assert (Ed : E d = frnd prec emax (1 + B2R e)).
    { unfold d. cbn [farith a_add]. rewrite f2e_plus by assumption. rewrite F1r. reflexivity. }
    assert (G : leb ecmp (Fin 1) (E d) = true).
    { rewrite Ed, <- (frnd_1 prec emax Hp He). apply (frnd_le prec emax Hp). lra. }
    destruct d as [s|[]| |s m ex B]; cbn [f2e] in G, Ed; try discriminate; auto.
    - apply leb_Fin in G. simpl in G. lra.
    - left. apply leb_Fin in G. split; [reflexivity|]. split; [exact G|exact Ed].
  Qed.
  Definition inv1p (e : F) : F := a_div FA one (a_add FA one e).

  Lemma inf_inv : E (a_div FA one (B754_infinity false)) = Fin 0.
  Proof. destruct F1 as [Ff _]. cbn [farith a_div]. destruct one; try discriminate; reflexivity. Qed.
  Lemma inv1p_E (e : F) : lef zero e = true ->
    exists y, E (inv1p e) = Fin y /\ 0 <= y <= 1 /\
      (forall e', lef e e' = true -> leb ecmp (E (inv1p e')) (Fin y) = true).
  Proof.
    intros H. destruct F1 as [Ff F1r].
    assert (Base : forall e, lef zero e = true -> exists y, E (inv1p e) = Fin y /\ 0 <= y <= 1).
    { intros f Hf. destruct (nonneg_cases f Hf) as [[Fe Ge]| ->].
      - destruct (den_cases f Fe Ge) as [(Fd & Gd & _)|D]; unfold inv1p.
        + cbn [farith a_div]. rewrite f2e_div by (try assumption; lra). rewrite F1r.
          assert (0 < 1 / B2R (a_add FA one f) <= 1).
          { split; [apply Rdiv_lt_0_compat; lra|]. apply Rmult_le_reg_r with (B2R (a_add FA one f)); [lra|].
            unfold Rdiv. rewrite Rmult_assoc, Rinv_l by lra. lra. }
          assert (G0 : leb ecmp (Fin 0) (frnd prec emax (1 / B2R (a_add FA one f))) = true)
            by (rewrite <- (frnd_0 prec emax); apply (frnd_le prec emax Hp); lra).
          assert (G1 : leb ecmp (frnd prec emax (1 / B2R (a_add FA one f))) (Fin 1) = true)
            by (rewrite <- (frnd_1 prec emax Hp He); apply (frnd_le prec emax Hp); lra).
          destruct (frnd prec emax _) as [y| | |]; try discriminate. exists y. apply leb_Fin in G0. apply leb_Fin in G1. auto.
        + rewrite D, inf_inv. exists 0. split; [reflexivity|lra].
      - unfold inv1p. replace (a_add FA one (B754_infinity false)) with (@B754_infinity prec emax false).
        + rewrite inf_inv. exists 0. split; [reflexivity|lra].
        + cbn [farith a_add]. destruct one; try discriminate; reflexivity. }
    destruct (Base e H) as (y & Ey & By). exists y. split; [exact Ey|]. split; [exact By|].
    intros e' Hl.
    assert (H' : lef zero e' = true) by (exact (leb_trans _ (Bcompare_laws _ _) _ _ _ H Hl)).
    destruct (nonneg_cases e' H') as [[Fe' Ge']| ->].
    2:{ unfold inv1p. replace (a_add FA one (B754_infinity false)) with (@B754_infinity prec emax false);
        [rewrite inf_inv; apply leb_Fin; lra|]. cbn [farith a_add]. destruct one; try discriminate; reflexivity. }
    destruct (den_cases e' Fe' Ge') as [(Fd' & Gd' & Ed')|D'].
    2:{ unfold inv1p. rewrite D', inf_inv. apply leb_Fin. lra. }
    destruct (nonneg_cases e H) as [[Fe Ge]| ->].
    2:{ exfalso. rewrite leb_f, (f2e_finite _ _ e' Fe') in Hl. discriminate. }
    rewrite leb_f, (f2e_finite _ _ e Fe), (f2e_finite _ _ e' Fe') in Hl. apply leb_Fin in Hl.
    assert (Mono : leb ecmp (frnd prec emax (1 + B2R e)) (frnd prec emax (1 + B2R e')) = true)
      by (apply (frnd_le prec emax Hp); lra).
    rewrite <- Ed' in Mono. rewrite (f2e_finite _ _ _ Fd') in Mono.
    destruct (den_cases e Fe Ge) as [(Fd & Gd & Ed)|D].
    2:{ exfalso. assert (Q : E (a_add FA one e) = frnd prec emax (1 + B2R e))
          by (cbn [farith a_add]; rewrite f2e_plus by assumption; rewrite F1r; reflexivity).
        rewrite <- Q, D in Mono. discriminate. }
    rewrite <- Ed, (f2e_finite _ _ _ Fd) in Mono. apply leb_Fin in Mono.
    rewrite <- Ey. unfold inv1p.
    assert (Dv : forall d : F, is_finite d = true -> 1 <= B2R d -> E (a_div FA one d) = frnd prec emax (1 / B2R d)).
    { intros d G1 G2. cbn [farith a_div]. rewrite f2e_div by (try assumption; lra). rewrite F1r. reflexivity. }
    rewrite (Dv _ Fd Gd), (Dv _ Fd' Gd'). apply (frnd_le prec emax Hp).
    unfold Rdiv. rewrite !Rmult_1_l. apply Rinv_le_contravar; lra.
  Qed.

  (** logistic for any exp that is nonnegative and nondecreasing on the numbers *)
  Theorem logistic_ieee (TR : transc F) :
    (forall x, isnanb Bcompare x = false -> lef zero (t_exp TR x) = true) ->
    (forall x y, lef x y = true -> lef (t_exp TR x) (t_exp TR y) = true) ->
    forall x, isnanb Bcompare x = false ->
      lef zero (logistic FA TR x) = true /\ lef (logistic FA TR x) one = true /\
      (forall y, lef x y = true -> lef (logistic FA TR x) (logistic FA TR y) = true).
  Proof.
    intros Hpos Hmono x Hx.
    assert (Op : forall z : F, isnanb Bcompare z = false -> isnanb Bcompare (Bopp z) = false).
    { intros z Hz. rewrite isnan_f in *. destruct z; try discriminate Hz; reflexivity. }
    pose proof (Hpos _ (Op x Hx)) as P.
    destruct (inv1p_E _ P) as (y & Ey & By & M).
    change (logistic FA TR x) with (inv1p (t_exp TR (Bopp x))).
    rewrite !leb_f, Ey, E0, E1. split; [apply leb_Fin; lra|]. split; [apply leb_Fin; lra|].
    intros z Hz. change (logistic FA TR z) with (inv1p (t_exp TR (Bopp z))).
    assert (Ny : isnanb Bcompare z = false) by (apply (leb_notnan _ (Bcompare_laws _ _)) in Hz; tauto).
    assert (Hl : lef (Bopp z) (Bopp x) = true).
    { rewrite leb_f in *. rewrite !f2e_opp. destruct (E x) as [a| | |], (E z) as [b| | |]; try discriminate; try reflexivity.
      cbn [eopp]. apply leb_Fin in Hz. apply leb_Fin. lra. }
    destruct (inv1p_E _ (Hpos _ (Op z Ny))) as (y' & Ey' & _ & M').
    specialize (M' _ (Hmono _ _ Hl)). rewrite leb_f, Ey'. exact M'.
  Qed.

  (** normal_cdf and normal_sf lie in [0, 1] for any erfc with values in [0, 2] *)
  Notation two := (a_ofZ FA 2).
  Theorem normal_cdf_ieee (rs2 : F) (erfc : F -> F) :
    (2 < emax)%Z ->
    (forall x, isnanb Bcompare x = false -> lef zero (erfc x) = true /\ lef (erfc x) two = true) ->
    is_finite rs2 = true -> B2R rs2 <> 0 ->
    forall x, isnanb Bcompare x = false ->
      lef zero (normal_cdf FA rs2 erfc x) = true /\ lef (normal_cdf FA rs2 erfc x) one = true.
  Proof.
    intros Hem He2 Frs Nrs x Hx. destruct F1 as [Ff F1r].
    assert (Et : E two = Fin 2).
    { rewrite f2e_ofZ. change (IZR 2) with (bpow radix2 1).
      assert (Hs : (3 - emax - prec <= 1 < emax)%Z) by (unfold Prec_gt_0 in Hp; lia).
      destruct (frnd_small prec emax Hp (bpow radix2 1) 1 Hs) as [Q _]; [rewrite Rabs_pos_eq by (simpl; lra); lra|].
      rewrite Q. rewrite rnd_generic; [reflexivity|]. apply (generic_bpow prec emax Hp). lia. }
    destruct (f2e_fin_finite _ _ _ _ Et) as [Ft F2r].
    unfold normal_cdf. cbn [farith a_cmp]. rewrite Hx. fold FA. change (a_mul FA x rs2) with (Bmult mode_NE x rs2).
    assert (Nx2 : isnanb Bcompare (a_mul FA x rs2) = false).
    { cbn [farith a_mul]. rewrite isnan_f in *. destruct (is_finite x) eqn:Fx.
      - pose proof (f2e_mult prec emax Hp He x rs2 Fx Frs) as Q.
        destruct (is_nan (Bmult mode_NE x rs2)) eqn:Z; [|reflexivity].
        apply f2e_nan in Z. rewrite Z in Q. symmetry in Q. exfalso; exact (frnd_nonan _ _ Hp _ Q).
      - destruct x as [|s| |]; try discriminate. destruct rs2 as [s'|s'| |s' m e B]; try discriminate.
        + simpl in Nrs. lra.
        + reflexivity. }
    set (x2 := a_mul FA x rs2) in *.
    assert (Dv : forall z : F, is_finite z = true -> E (a_div FA z two) = frnd prec emax (B2R z / 2)).
    { intros z Fz. change (a_div FA z two) with (Bdiv mode_NE z two).
      rewrite f2e_div; [rewrite F2r; reflexivity|exact Fz|exact Ft|rewrite F2r; lra]. }
    assert (Half : forall t, isnanb Bcompare t = false ->
      exists h, E (a_div FA (erfc t) two) = Fin h /\ 0 <= h <= 1).
    { intros t Ht. destruct (He2 t Ht) as [L U]. rewrite leb_f in L, U. rewrite E0 in L. rewrite Et in U.
      destruct (erfc t) as [s|[]| |s m e B] eqn:Er; try discriminate.
      - exists 0. rewrite Dv by reflexivity. simpl B2R. unfold Rdiv. rewrite Rmult_0_l, frnd_0. split; [reflexivity|lra].
      - rewrite Dv by reflexivity.
        cbn [f2e] in L, U. apply leb_Fin in L. apply leb_Fin in U.
        set (r := B2R (B754_finite s m e B)) in *.
        assert (G0 : leb ecmp (Fin 0) (frnd prec emax (r / 2)) = true)
          by (rewrite <- (frnd_0 prec emax); apply (frnd_le prec emax Hp); lra).
        assert (G1 : leb ecmp (frnd prec emax (r / 2)) (Fin 1) = true)
          by (rewrite <- (frnd_1 prec emax Hp He); apply (frnd_le prec emax Hp); lra).
        destruct (frnd prec emax _) as [h| | |]; try discriminate. exists h. apply leb_Fin in G0. apply leb_Fin in G1. auto. }
    assert (Op : forall z : F, isnanb Bcompare z = false -> isnanb Bcompare (Bopp z) = false).
    { intros z Hz. rewrite isnan_f in *. destruct z; try discriminate Hz; reflexivity. }
    change (gtb (@Bcompare prec emax) (Bmult mode_NE x rs2) zero) with (gtb (@Bcompare prec emax) x2 zero).
    destruct (gtb Bcompare x2 zero).
    - destruct (Half x2 Nx2) as (h & Eh & Bh).
      rewrite !leb_f, E0, E1. destruct (f2e_fin_finite _ _ _ _ Eh) as [Fh Rh].
      change (a_sub FA one (a_div FA (erfc (Bmult mode_NE x rs2)) two)) with (Bminus mode_NE one (a_div FA (erfc x2) two)).
      rewrite f2e_minus by assumption. rewrite F1r, Rh. split.
      + rewrite <- (frnd_0 prec emax); apply (frnd_le prec emax Hp); lra.
      + rewrite <- (frnd_1 prec emax Hp He); apply (frnd_le prec emax Hp); lra.
    - destruct (Half (Bopp x2) (Op _ Nx2)) as (h & Eh & Bh).
      rewrite !leb_f, E0, E1. change (a_div FA (erfc (a_opp FA (Bmult mode_NE x rs2))) two) with (a_div FA (erfc (Bopp x2)) two).
      rewrite Eh. split; apply leb_Fin; lra.
  Qed.
End EF.
