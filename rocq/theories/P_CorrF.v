(** Proofs about pearson_corr of floating arrays: the test for a constant pair, two observations,
    constant and NaN inputs. *)
From Coq Require Import ZArith Reals List Bool Lia Lra.
From Flocq Require Import Core BinarySingleNaN.
From Verif Require Import CSem CSemP FoldP Num NumP NumF NumX M_Stat S_Stat P_Kbn P_MeanVar P_Vnorm P_Corr.
Import ListNotations.
Open Scope R_scope.

Section FF.
  Context (prec emax : Z) (Hp : Prec_gt_0 prec) (He : Prec_lt_emax prec emax).
  Notation F := (binary_float prec emax).
  Notation FA := (farith prec emax Hp He).

  Lemma finite_test (v : F) : negb (isnanb (a_cmp FA) v) && negb (a_isinf FA v) = is_finite v.
  Proof.
    cbn [a_cmp a_isinf farith]. unfold isnanb. rewrite Bcompare_f2e.
    destruct v as [s|[|]| |s m e Hb]; try reflexivity.
  Qed.
  Lemma corr_bad_float_spec (a b : F) :
    corr_bad_float FA a b = false <-> is_finite a = true /\ is_finite b = true /\ B2R a <> B2R b.
  Proof.
    unfold corr_bad_float. rewrite !finite_test. cbn [a_cmp farith].
    rewrite !orb_false_iff, !negb_false_iff.
    assert (E : is_finite a = true -> is_finite b = true -> (eqb Bcompare a b = false <-> B2R a <> B2R b)).
    { intros Fa Fb. unfold eqb. rewrite Bcompare_f2e, !f2e_finite by assumption. cbn [ecmp].
      destruct (Rcompare_spec (B2R a) (B2R b)); split; intros; try reflexivity; try discriminate; try lra; congruence. }
    split.
    - intros [[Fa Fb] H]. apply E in H; auto.
    - intros (Fa & Fb & H). apply (proj2 (E Fa Fb)) in H. auto.
  Qed.

  Lemma ofZ_unit z : (-1 <= z <= 1)%Z -> B2R (a_ofZ FA z) = IZR z /\ is_finite (a_ofZ FA z) = true.
  Proof.
    intros Hz. cbn [a_ofZ farith].
    pose proof (binary_normalize_correct prec emax Hp He mode_NE z 0 false) as B. cbv zeta in B.
    assert (E : F2R (Float radix2 z 0) = IZR z) by (unfold F2R; cbn; ring).
    rewrite E in B.
    assert (G : Generic_fmt.round radix2 (SpecFloat.fexp prec emax) (round_mode mode_NE) (IZR z) = IZR z).
    { apply Generic_fmt.round_generic; [apply valid_rnd_round_mode|].
      rewrite <- E. apply FLT.generic_format_FLT.
      unfold Prec_gt_0 in Hp. unfold Prec_lt_emax in He.
      apply FLT.FLT_spec with (Float radix2 z 0); [reflexivity| |]; cbn [Fnum Fexp].
      - apply Z.le_lt_trans with 1%Z; [lia|]. change 1%Z with (2 ^ 0)%Z. apply (Zpower_lt radix2 0 prec); lia.
      - unfold SpecFloat.emin. lia. }
    change (round radix2 (SpecFloat.fexp prec emax) (round_mode mode_NE) (IZR z) = IZR z) in G.
    rewrite G in B.
    assert (L : Rabs (IZR z) < bpow radix2 emax).
    { apply Rle_lt_trans with 1.
      - rewrite <- abs_IZR. apply IZR_le. lia.
      - change 1 with (bpow radix2 0). apply bpow_lt. unfold Prec_gt_0 in Hp. unfold Prec_lt_emax in He. lia. }
    apply Rlt_bool_true in L. rewrite L in B. destruct B as (B1 & B2 & _). split; assumption.
  Qed.

  (** two observations: NaN unless both pairs are finite and different, else exactly 1 or -1 *)
  Theorem pearson_two_float mx px sx my py sy (x0 x1 y0 y1 : F) :
    view mx px sx [x0; x1] -> view my py sy [y0; y1] ->
    exists r, pearson_corr_core FA (fun v => v) Bcompare (corr_bad_float FA) 2 mx px sx my py sy = Some r /\
      (r <> B754_nan <-> (is_finite x0 = true /\ is_finite x1 = true /\ B2R x0 <> B2R x1) /\
                         (is_finite y0 = true /\ is_finite y1 = true /\ B2R y0 <> B2R y1)) /\
      (r <> B754_nan -> is_finite r = true /\
         (0 < (B2R x1 - B2R x0) * (B2R y1 - B2R y0) -> B2R r = 1) /\
         ((B2R x1 - B2R x0) * (B2R y1 - B2R y0) < 0 -> B2R r = -1)).
  Proof.
    intros Vx Vy. unfold pearson_corr_core. cbn [Z.eqb Pos.eqb]. unfold corr_two.
    rewrite (view_load mx px sx _ _ Vx), (view_load my py sy _ _ Vy).
    rewrite (view_get mx px sx _ 1 x1 Vx eq_refl : get mx px sx 1 = Some x1).
    rewrite (view_get my py sy _ 1 y1 Vy eq_refl : get my py sy 1 = Some y1). cbn [bind].
    pose proof (corr_bad_float_spec x0 x1) as Sx. pose proof (corr_bad_float_spec y0 y1) as Sy.
    destruct (corr_bad_float FA x0 x1).
    { exists B754_nan. split; [reflexivity|]. split; [|congruence]. split; [congruence|]. intros [Q _]. apply Sx in Q. discriminate. }
    destruct (corr_bad_float FA y0 y1).
    { exists B754_nan. split; [reflexivity|]. split; [|congruence]. split; [congruence|]. intros [_ Q]. apply Sy in Q. discriminate. }
    apply proj1 in Sx. specialize (Sx eq_refl). apply proj1 in Sy. specialize (Sy eq_refl).
    destruct (ofZ_unit 1 ltac:(lia)) as [V1 F1]. destruct (ofZ_unit (-1) ltac:(lia)) as [V2 F2].
    assert (NN : forall v : F, is_finite v = true -> v <> B754_nan) by (intros v H ->; discriminate).
    destruct Sx as (Fx0 & Fx1 & Nx). destruct Sy as (Fy0 & Fy1 & Ny).
    assert (LT : forall a b : F, is_finite a = true -> is_finite b = true -> ltb Bcompare a b = Rlt_bool (B2R a) (B2R b)).
    { intros a b Ha Hb. unfold ltb. rewrite Bcompare_f2e, !f2e_finite by assumption. cbn [ecmp].
      unfold Rlt_bool. destruct (Rcompare _ _); reflexivity. }
    assert (GT : forall a b : F, is_finite a = true -> is_finite b = true -> gtb Bcompare a b = Rlt_bool (B2R b) (B2R a)).
    { intros a b Ha Hb. unfold gtb. rewrite Bcompare_f2e, !f2e_finite by assumption. cbn [ecmp].
      unfold Rlt_bool. rewrite (Rcompare_sym (B2R b)). destruct (Rcompare _ _); reflexivity. }
    rewrite !LT, !GT by assumption.
    destruct (Rlt_bool_spec (B2R x0) (B2R x1)), (Rlt_bool_spec (B2R y0) (B2R y1)),
      (Rlt_bool_spec (B2R x1) (B2R x0)), (Rlt_bool_spec (B2R y1) (B2R y0)); cbn [andb orb]; try lra;
      (eexists; split; [reflexivity|]); (split; [split; [intros _; repeat split; assumption|intros _; apply NN; assumption]|]);
      intros _; (split; [assumption|]); (split; intros QQ; first [exact V1|exact V2|exfalso; nra]).
  Qed.

  (** constant or NaN input, two or more observations *)
  Theorem pearson_undefined_float mx px sx my py sy (x y z : list F) :
    view mx px sx x -> view my py sy y -> length y = length x -> (2 <= length x)%nat -> z = x \/ z = y ->
    (exists c, forall t, In t z -> is_finite t = true /\ B2R t = c) \/ In B754_nan z ->
    pearson_corr_core FA (fun v => v) Bcompare (corr_bad_float FA) (Z.of_nat (length x)) mx px sx my py sy = Some B754_nan.
  Proof.
    intros Vx Vy EL Hn Hz [(c & Hc)|Hnan].
    - apply (pearson_const_ieee prec emax Hp He (fun v => v) Bcompare (corr_bad_float FA) mx px sx my py sy x y z); auto.
      + exists c. intros t Ht. destruct (Hc t Ht) as [Ft <-]. apply f2e_finite, Ft.
      + intros a b Ha Hb. destruct (Hc a Ha) as [_ Ea], (Hc b Hb) as [_ Eb].
        destruct (corr_bad_float FA a b) eqn:E; [reflexivity|]. apply corr_bad_float_spec in E. destruct E as (_ & _ & E). congruence.
    - apply (pearson_nan_ieee prec emax Hp He (fun v => v) Bcompare (corr_bad_float FA) mx px sx my py sy x y); auto.
      + intros a b Hab. destruct (corr_bad_float FA a b) eqn:E; [reflexivity|]. apply corr_bad_float_spec in E.
        destruct E as (Ea & Eb & _). destruct Hab as [-> | ->]; discriminate.
      + exists B754_nan. split; [|reflexivity]. apply in_or_app. destruct Hz as [->| ->]; auto.
  Qed.
End FF.
