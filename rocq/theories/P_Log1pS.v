(** * P_Log1pS: log1pf_doubledouble loses precision near the circle (C50) *)
From Coq Require Import ZArith Reals List Bool Lia Lra.
From Flocq Require Import Core BinarySingleNaN Relative.
From Verif Require Import CSem CSemP Num NumP NumF M_Log1p S_Log1p S_Log1pE P_Log1p P_Log1pF M_Special S_Special P_Expint P_SpecialF P_ExpintF P_LogFactF.
Open Scope R_scope.

#[local] Instance p24 : Prec_gt_0 24 := eq_refl.
Notation rnS := (rnd f32_prec f32_emax).
#[local] Instance pS : Prec_gt_0 f32_prec := eq_refl.

(** rounding to single precision of a number that is not subnormal *)
Lemma rnS_err x : pow2 (-126) <= Rabs x -> Rabs (rnS x - x) <= pow2 (-24) * Rabs x.
Proof.
  intros H. pose proof (relative_error_N_FLT radix2 (3 - f32_emax - f32_prec) f32_prec ltac:(reflexivity) (fun t => negb (Z.even t)) x) as R.
  eapply Rle_trans; [apply R; exact H|]. right. f_equal. cbn. lra.
Qed.
Lemma down32 (z : f64) : is_finite z = true -> pow2 (-126) <= Rabs (B2R z) <= 1 ->
  is_finite (f64_to_f32 z) = true /\ Rabs (B2R (f64_to_f32 z) - B2R z) <= pow2 (-24) * Rabs (B2R z).
Proof.
  intros F [H1 H2]. destruct z as [s|s| |s m e He]; try discriminate.
  - exfalso. cbn in H1. rewrite Rabs_R0 in H1. assert (0 < pow2 (-126)) by apply bpow_gt_0. cbn in *. lra.
  - set (z := B754_finite s m e He : f64) in *.
    assert (E : f2e f32_prec f32_emax (f64_to_f32 z) = frnd f32_prec f32_emax (B2R z)) by (unfold f64_to_f32, fconv, z; rewrite f2e_normalize; reflexivity).
    destruct (frnd_small f32_prec f32_emax f32_Hp (B2R z) 0) as [E1 _]; [unfold f32_prec, f32_emax; lia|exact H2|].
    rewrite E1 in E. apply f2e_fin_finite in E. destruct E as [A B]. split; [exact A|]. rewrite B. now apply rnS_err.
Qed.

Definition wx : f32 := f64_to_f32 (binary_normalize 53 1024 eq_refl eq_refl mode_NE (-16666343) (-46) false).
Definition wy : f32 := f64_to_f32 (binary_normalize 53 1024 eq_refl eq_refl mode_NE 5912009 (-33) false).
Definition vN : R := -290089871 / 4951760157141521099596496896.
Lemma wx_val : B2R wx = - (16666343 / 70368744177664) /\ is_finite wx = true.
Proof. split; vm_compute; [lra|reflexivity]. Qed.
Lemma wy_val : B2R wy = 5912009 / 8589934592 /\ is_finite wy = true.
Proof. split; vm_compute; [lra|reflexivity]. Qed.
Lemma w_sum : is_finite (xsq_float f64_arith (f32_to_f64 wx) (f32_to_f64 wy)) = true /\
  B2R (xsq_float f64_arith (f32_to_f64 wx) (f32_to_f64 wy)) = - (4868637487792128 / 83076749736557242056487941267521536).
Proof. split; vm_compute; [reflexivity|lra]. Qed.

Lemma ln_small v : - / 10 ^ 3 <= v <= 0 -> v - 2 * (v * v) <= ln (1 + v) <= v.
Proof.
  intros H. cbn [pow] in H. pose proof (ln_le_m1 (1 + v) ltac:(lra)). pose proof (ln_le_m1 (/ (1 + v)) ltac:(apply Rinv_0_lt_compat; lra)) as Q. rewrite ln_Rinv in Q by lra.
  split; [|lra]. assert (v - 2 * (v * v) <= 1 - / (1 + v)); [|lra].
  replace (1 - / (1 + v)) with (v * / (1 + v)) by (field; lra). apply (Rmult_le_reg_r (1 + v)); [lra|]. rewrite Rmult_assoc, Rinv_l by lra. nra.
Qed.

Theorem float_accuracy_refuted : exists x y : f32, is_finite x = true /\ is_finite y = true /\
  forall logd log1pd logf hypotf atan2f re, good_log1p log1pd -> exp (2 * re) = (1 + B2R x) * (1 + B2R x) + B2R y * B2R y ->
  let r := fst (log1pf_doubledouble f32_arith f64_arith f32_to_f64 f64_to_f32 logd log1pd logf hypotf atan2f (x, y)) in
  is_finite r = true /\ 3 / 10000 * Rabs re < Rabs (B2R r - re).
Proof.
  exists wx, wy. split; [apply wx_val|]. split; [apply wy_val|]. intros logd L1 logf hf at2 re G RE r.
  destruct w_sum as [Fv Ev]. assert (Er : r = f64_to_f32 (a_mul f64_arith (a_div f64_arith (a_ofZ f64_arith 1) (a_ofZ f64_arith 2)) (L1 (xsq_float f64_arith (f32_to_f64 wx) (f32_to_f64 wy))))).
  { unfold r, log1pf_doubledouble. cbn [fst].
    match goal with |- (if ?c then _ else _) = _ => replace c with true by (vm_compute; reflexivity) end.
    match goal with |- (if ?c then _ else _) = _ => replace c with true by (vm_compute; reflexivity) end. reflexivity. }
  clearbody r. subst r. set (vf := xsq_float f64_arith (f32_to_f64 wx) (f32_to_f64 wy)) in *. clearbody vf.
  assert (ERE : re = / 2 * ln (1 + vN)).
  { replace (1 + vN) with (exp (2 * re)); [rewrite ln_exp; field|]. rewrite RE, (proj1 wx_val), (proj1 wy_val). unfold vN. field. }
  assert (BV : - (585831829076 / 10 ^ 31) <= vN <= - (585831829075 / 10 ^ 31)) by (unfold vN; cbn [pow]; lra).
  assert (Bv : - (586040920382 / 10 ^ 31) <= B2R vf <= - (586040920381 / 10 ^ 31)) by (rewrite Ev; cbn [pow]; lra).
  destruct (G vf Fv) as [G1 G2]; [cbn [pow] in *; lra|]. set (v := B2R vf) in *. clearbody v. set (V := vN) in *. clearbody V. clear RE Ev.
  pose proof (ln_small V ltac:(cbn [pow] in *; lra)) as LV. pose proof (ln_small v ltac:(cbn [pow] in *; lra)) as Lv.
  assert (SQ : forall c, - (6 / 10 ^ 20) <= c <= 0 -> 0 <= c * c <= / 10 ^ 19 * (6 / 10 ^ 20)).
  { intros c Hc. replace (c * c) with (- c * - c) by ring. split; [apply Rmult_le_pos; lra|]. apply Rmult_le_compat; cbn [pow] in *; lra. }
  pose proof (SQ V ltac:(cbn [pow] in *; lra)) as SV. pose proof (SQ v ltac:(cbn [pow] in *; lra)) as Sv.
  set (l := ln (1 + v)) in *. set (lV := ln (1 + V)) in *. clearbody l lV.
  replace (bpow radix2 (-52)) with (2 * u) in G2 by (unfold u; cbn; lra).
  assert (T74 : bpow radix2 (-1074) <= / 10 ^ 36). { replace (bpow radix2 (-1074)) with (2 * eta) by (unfold eta; symmetry; exact (pow2_double (-1075))).
    unfold eta. apply Rle_trans with (2 * pow2 (-130)); [apply Rmult_le_compat_l; [lra|apply bpow_le; lia]|]. change (pow2 (-130)) with (/ 1361129467683753853853498429727072845824). cbn [pow]. lra. }
  set (q := B2R (L1 vf)) in *. rewrite (Rabs_left l) in G2 by (cbn [pow] in *; lra). apply Rabs_le_inv in G2.
  assert (Bq : - (586040920383 / 10 ^ 31) <= q <= - (586040920380 / 10 ^ 31)) by (unfold u in *; cbn [pow] in *; lra).
  assert (Rq : rep 0 (L1 vf) q) by (apply rep_intro; [exact G1|fold q; change (pow2 0) with 1; apply Rabs_le; cbn [pow] in *; lra]).
  assert (R1 := rep_ofZ 1 0 ltac:(lia) ltac:(vm_compute; discriminate)). assert (R2 := rep_ofZ 2 1 ltac:(lia) ltac:(vm_compute; discriminate)).
  assert (Rh := rep_div 0 1 _ _ _ _ R1 R2 ltac:(lra) ltac:(change (pow2 0) with 1; rewrite Rabs_pos_eq; lra) ltac:(lia)).
  assert (Hh : rn (1 / 2) = 1 / 2). { apply rn_id. replace (1 / 2) with (pow2 (-1)) by (cbn; lra). apply generic_format_bpow. unfold FLT_exp. lia. }
  rewrite Hh in Rh. assert (Rr := rep_mul _ _ _ _ _ _ Rh Rq ltac:(lia)). destruct Rr as (Fr & Er & _).
  set (z := a_mul f64_arith (a_div f64_arith (a_ofZ f64_arith 1) (a_ofZ f64_arith 2)) (L1 vf)) in *.
  pose proof (rerr (1 / 2 * q)) as RR. rewrite <- Er in RR. rewrite (Rabs_left (1 / 2 * q)) in RR by (cbn [pow] in *; lra). apply Rabs_le_inv in RR. pose proof eta_small as ES.
  assert (Bz : - (293020460192 / 10 ^ 31) <= B2R z <= - (293020460189 / 10 ^ 31)) by (unfold u in *; cbn [pow] in *; lra).
  destruct (down32 z Fr) as [D1 D2].
  { rewrite Rabs_left by (cbn [pow] in *; lra). change (pow2 (-126)) with (/ 85070591730234615865843651857942052864). cbn [pow] in *. lra. }
  split; [exact D1|]. rewrite (Rabs_left (B2R z)) in D2 by (cbn [pow] in *; lra). apply Rabs_le_inv in D2. set (r := B2R (f64_to_f32 z)) in *.
  change (pow2 (-24)) with (/ 16777216) in D2. rewrite (Rabs_left re) by (cbn [pow] in *; lra). rewrite Rabs_left; cbn [pow] in *; lra.
Qed.
