(** More facts about the IEEE operations: NaN absorption, zero operands, small
    integers. *)
From Coq Require Import ZArith Reals List Bool Lia Lra.
From Flocq Require Import Core BinarySingleNaN.
From Verif Require Import CSem Num NumP NumF.
Open Scope R_scope.

Section X.
  Context (prec emax : Z) (Hp : Prec_gt_0 prec) (He : Prec_lt_emax prec emax).
  Notation F := (binary_float prec emax).
  Notation FA := (farith prec emax Hp He).
  Notation zr v := (f2e prec emax v = Fin 0).

  Lemma Bplus_nan_r (x : F) : Bplus mode_NE x B754_nan = B754_nan.
  Proof. destruct x; reflexivity. Qed.
  Lemma Bminus_nan_r (x : F) : Bminus mode_NE x B754_nan = B754_nan.
  Proof. destruct x; reflexivity. Qed.
  Lemma Bmult_nan_r (x : F) : Bmult mode_NE x B754_nan = B754_nan.
  Proof. destruct x; reflexivity. Qed.

  Lemma fin_of (v : F) r : f2e prec emax v = Fin r -> is_finite v = true /\ B2R v = r.
  Proof. apply f2e_fin_finite. Qed.
  Lemma sub_same (v w : F) r : f2e prec emax v = Fin r -> f2e prec emax w = Fin r -> zr (Bminus mode_NE v w).
  Proof.
    intros Ev Ew. destruct (fin_of _ _ Ev) as [F1 B1]. destruct (fin_of _ _ Ew) as [F2 B2].
    rewrite f2e_minus by assumption. rewrite B1, B2. rewrite Rminus_diag_eq by reflexivity.
    replace 0 with (B2R (B754_zero false : F)) by reflexivity. apply frnd_B2R.
  Qed.
  Lemma sub_zero (v w : F) r : f2e prec emax v = Fin r -> zr w -> f2e prec emax (Bminus mode_NE v w) = Fin r.
  Proof.
    intros Ev Ew. destruct (fin_of _ _ Ev) as [F1 B1]. destruct (fin_of _ _ Ew) as [F2 B2].
    rewrite f2e_minus by assumption. rewrite B1, B2, Rminus_0_r, <- B1. apply frnd_B2R.
  Qed.
  Lemma add_zero_r (v w : F) r : f2e prec emax v = Fin r -> zr w -> f2e prec emax (Bplus mode_NE v w) = Fin r.
  Proof.
    intros Ev Ew. destruct (fin_of _ _ Ev) as [F1 B1]. destruct (fin_of _ _ Ew) as [F2 B2].
    rewrite f2e_plus by assumption. rewrite B1, B2, Rplus_0_r, <- B1. apply frnd_B2R.
  Qed.
  Lemma add_zero_l (v w : F) r : zr v -> f2e prec emax w = Fin r -> f2e prec emax (Bplus mode_NE v w) = Fin r.
  Proof.
    intros Ev Ew. destruct (fin_of _ _ Ev) as [F1 B1]. destruct (fin_of _ _ Ew) as [F2 B2].
    rewrite f2e_plus by assumption. rewrite B1, B2, Rplus_0_l, <- B2. apply frnd_B2R.
  Qed.
  Lemma mul_zero_r (v w : F) r : f2e prec emax v = Fin r -> zr w -> zr (Bmult mode_NE v w).
  Proof.
    intros Ev Ew. destruct (fin_of _ _ Ev) as [F1 B1]. destruct (fin_of _ _ Ew) as [F2 B2].
    rewrite f2e_mult by assumption. rewrite B2, Rmult_0_r.
    replace 0 with (B2R (B754_zero false : F)) by reflexivity. apply frnd_B2R.
  Qed.

  (** a nonzero integer converts to a float that is neither zero nor NaN *)
  Lemma one_format : generic_format radix2 (SpecFloat.fexp prec emax) 1.
  Proof.
    change 1 with (bpow radix2 0). apply (generic_bpow prec emax Hp). unfold Prec_gt_0, Prec_lt_emax in *. lia.
  Qed.
  Lemma ofZ_nonzero z : z <> 0%Z ->
    (exists r, f2e prec emax (a_ofZ FA z) = Fin r /\ r <> 0) \/ exists s, a_ofZ FA z = B754_infinity s.
  Proof.
    intros Hz. pose proof (f2e_ofZ prec emax Hp He z) as E.
    destruct (frnd_cases prec emax Hp (IZR z)) as [(E1 & E2)|[(E1 & E2)|(E1 & E2)]]; rewrite E1 in E.
    - left. eexists. split; [exact E|]. intros C.
      assert (K : 1 <= IZR z \/ IZR z <= -1) by (destruct (Z_lt_le_dec z 0); [right|left]; apply IZR_le; lia).
      destruct K as [K|K]; apply (rnd_le prec emax Hp) in K.
      + rewrite (rnd_generic prec emax 1 one_format) in K. lra.
      + rewrite (rnd_generic prec emax (-1)) in K; [lra|].
        replace (-1) with (Ropp 1) by reflexivity. apply generic_format_opp, one_format.
    - right. exists false. destruct (a_ofZ FA z) as [s|s| |s m e Hb]; cbn in E; try discriminate.
      destruct s; [discriminate|reflexivity].
    - right. exists true. destruct (a_ofZ FA z) as [s|s| |s m e Hb]; cbn in E; try discriminate.
      destruct s; [reflexivity|discriminate].
  Qed.
  Lemma zero_div v z : zr v -> z <> 0%Z -> zr (a_div FA v (a_ofZ FA z)).
  Proof.
    intros Ev Hz. destruct (fin_of _ _ Ev) as [F1 B1]. cbn [a_div farith].
    destruct (ofZ_nonzero z Hz) as [(r & Er & Nr)|(s & Es)].
    - destruct (fin_of _ _ Er) as [F2 B2]. rewrite f2e_div by (try assumption; rewrite B2; exact Nr).
      rewrite B1. unfold Rdiv. rewrite Rmult_0_l.
      replace 0 with (B2R (B754_zero false : F)) by reflexivity. apply frnd_B2R.
    - rewrite Es. destruct v; try discriminate; reflexivity.
  Qed.

  Lemma frnd_0 : frnd prec emax 0 = Fin 0.
  Proof. replace 0 with (B2R (B754_zero false : F)) by reflexivity. apply frnd_B2R. Qed.
  Lemma ofZ_0 : zr (a_ofZ FA 0).
  Proof. rewrite f2e_ofZ. apply frnd_0. Qed.
  Lemma frnd_1 : frnd prec emax 1 = Fin 1.
  Proof.
    destruct (frnd_small prec emax Hp 1 0) as [E _].
    - unfold Prec_gt_0, Prec_lt_emax in *. lia.
    - rewrite Rabs_R1. cbn. lra.
    - rewrite E. f_equal. apply rnd_generic, one_format.
  Qed.
  Lemma ofZ_1 : f2e prec emax (a_ofZ FA 1) = Fin 1.
  Proof. rewrite f2e_ofZ. apply frnd_1. Qed.
  Lemma div_one (v : F) r : f2e prec emax v = Fin r -> f2e prec emax (a_div FA v (a_ofZ FA 1)) = Fin r.
  Proof.
    intros Ev. destruct (fin_of _ _ Ev) as [F1 B1]. destruct (fin_of _ _ ofZ_1) as [F2 B2].
    cbn [a_div farith]. change (binary_normalize prec emax Hp He mode_NE 1 0 false) with (a_ofZ FA 1).
    rewrite f2e_div; [|assumption|assumption|rewrite B2; lra].
    rewrite B1, B2. unfold Rdiv. rewrite Rinv_1, Rmult_1_r, <- B1. apply frnd_B2R.
  Qed.
End X.
