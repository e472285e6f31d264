(** Property theorems C38: rounding error of semivar_exponential *)
From Coq Require Import ZArith Reals List Bool Lia Lra SpecFloat.
From Flocq Require Import Core BinarySingleNaN Relative.
From Verif Require Import CSem Num NumF M_Elem S_Signal S_Line S_LogiF S_VarioF P_Kbn P_SumF P_StepF P_RampF P_LogiF P_VarioF.
Import ListNotations.
Open Scope R_scope.

(** IEEE arithmetic in every binary format with at least 11 bits; exp of the C library is within K/2
    units in the last place for arguments that are not positive, and -3h/range does not overflow *)
Theorem C38_exponential_bound :
  forall (prec emax : Z) (Hp : Prec_gt_0 prec) (He : Prec_lt_emax prec emax) (Hp11 : (11 <= prec)%Z) (TR : transc (binary_float prec emax)) (K : R) (HK : 0 <= K <= 8)
    (x ng sl r : binary_float prec emax),
  is_finite r = true -> 0 <= B2R x -> 0 < B2R r ->
     (forall y : binary_float prec emax, is_finite y = true -> B2R y <= 0 -> libm_close K exp (t_exp TR) y) ->
     is_finite (a_div (farith prec emax Hp He) (a_mul (farith prec emax Hp He) (a_ofZ (farith prec emax Hp He) (-3)) x) r) = true ->
     is_finite (semivar_exponential (farith prec emax Hp He) TR x ng sl r) = true ->
     Rabs (B2R (semivar_exponential (farith prec emax Hp He) TR x ng sl r) - exp_variogram (B2R ng) (B2R sl) (B2R r) (B2R x))
       <= u_ro radix2 prec * (Rabs (B2R ng) + Rabs (B2R sl)) + (K + 6) * (u_ro radix2 prec * Rabs (B2R sl - B2R ng)) + 2 * half_eta prec emax.
Proof. exact @exponential_bound. Qed.
Print Assumptions C38_exponential_bound.

(** 1 + 4 (1 - exp (-3/2)) in double precision, with the correctly rounded exp *)
Example C38_exponential_bound_ex :
  Rabs (B2R (semivar_exponential f64_arith libm64 (f64_ofZ 2) (f64_ofZ 1) (f64_ofZ 5) (f64_ofZ 4)) - exp_variogram 1 5 4 2)
    <= u_ro radix2 f64_prec * (1 + 5) + 8 * (u_ro radix2 f64_prec * 4) + 2 * half_eta f64_prec f64_emax.
Proof.
  assert (P11 : (11 <= f64_prec)%Z) by (unfold f64_prec; lia).
  assert (EZ : forall z, (Z.abs z <= 1024)%Z -> is_finite (f64_ofZ z) = true /\ B2R (f64_ofZ z) = IZR z) by (intros z; apply (small_int f64_prec f64_emax f64_Hp f64_He P11)).
  destruct (EZ 2%Z ltac:(lia)) as [F2 R2]. destruct (EZ 1%Z ltac:(lia)) as [F1 R1]. destruct (EZ 5%Z ltac:(lia)) as [F5 R5]. destruct (EZ 4%Z ltac:(lia)) as [F4 R4].
  assert (LM : forall y : f64, is_finite y = true -> B2R y <= 0 -> libm_close 2 exp (t_exp libm64) y) by (intros y _; apply libm64_exp).
  assert (Fq : is_finite (a_div f64_arith (a_mul f64_arith (a_ofZ f64_arith (-3)) (f64_ofZ 2)) (f64_ofZ 4)) = true) by (vm_compute; reflexivity).
  pose proof (C38_exponential_bound f64_prec f64_emax f64_Hp f64_He P11 libm64 2 ltac:(lra) (f64_ofZ 2) (f64_ofZ 1) (f64_ofZ 5) (f64_ofZ 4) F4 ltac:(lra) ltac:(lra) LM Fq) as H.
  rewrite R2, R1, R5, R4 in H. replace (5 - 1) with 4 in H by ring. rewrite (Rabs_pos_eq 1), (Rabs_pos_eq 5), (Rabs_pos_eq 4) in H by lra. replace (2 + 6) with 8 in H by ring. apply H. clear H.
  pose proof (u_small f64_prec P11) as U. pose proof (h_small f64_prec f64_emax f64_He P11) as HH.
  assert (Q0 : B2R (a_div f64_arith (a_mul f64_arith (a_ofZ f64_arith (-3)) (f64_ofZ 2)) (f64_ofZ 4)) <= 0).
  { destruct (div_fin f64_prec f64_emax f64_Hp f64_He _ _ F4 ltac:(lra) Fq) as (Fm & E). destruct (mult_fin f64_prec f64_emax f64_Hp f64_He _ _ Fm) as (_ & _ & E').
    destruct (EZ (-3)%Z ltac:(lia)) as [_ R3].
    assert (M : B2R (a_mul f64_arith (a_ofZ f64_arith (-3)) (f64_ofZ 2)) <= 0).
    { apply (Rle_trans _ _ _ (Req_le _ _ E')), (rnd_neg f64_prec f64_emax f64_Hp). rewrite R2. change (a_ofZ f64_arith (-3)) with (f64_ofZ (-3)). rewrite R3. lra. }
    apply (Rle_trans _ _ _ (Req_le _ _ E)), (rnd_neg f64_prec f64_emax f64_Hp). rewrite R4. lra. }
  unfold semivar_exponential. set (q := a_div _ _ _) in *. destruct (LM q Fq Q0) as [Ft Et]. destruct (exp_mult _ Q0) as [_ EQ]. rewrite (Rabs_pos_eq (exp _)) in Et by lra.
  assert (B : 2 * u_ro radix2 f64_prec * exp (B2R q) <= 2 * u_ro radix2 f64_prec * 1) by (apply Rmult_le_compat_l; lra).
  assert (BT : -1 <= B2R (t_exp libm64 q) <= 2) by (apply Rabs_le_inv in Et; lra).
  assert (Fp : is_finite (a_sub f64_arith (a_ofZ f64_arith 1) (t_exp libm64 q)) = true).
  { apply (sub_f f64_prec f64_emax f64_Hp f64_He P11); [exact F1|exact Ft|]. change (a_ofZ f64_arith 1) with (f64_ofZ 1). rewrite R1. apply Rabs_le. lra. }
  pose proof (sub_e f64_prec f64_emax f64_Hp f64_He _ _ Fp) as Ep. change (farith f64_prec f64_emax f64_Hp f64_He) with f64_arith in Ep. change (a_ofZ f64_arith 1) with (f64_ofZ 1) in *. rewrite R1 in Ep.
  set (p := a_sub f64_arith (f64_ofZ 1) (t_exp libm64 q)) in *. change (Rabs (B2R p - (1 - B2R (t_exp libm64 q))) <= u_ro radix2 f64_prec * Rabs (1 - B2R (t_exp libm64 q))) in Ep.
  assert (BP : Rabs (B2R p) <= 4).
  { assert (A : Rabs (1 - B2R (t_exp libm64 q)) <= 3) by (apply Rabs_le; lra). assert (u_ro radix2 f64_prec * Rabs (1 - B2R (t_exp libm64 q)) <= / 2048 * 3) by (apply Rmult_le_compat; try lra; apply Rabs_pos).
    replace (B2R p) with ((B2R p - (1 - B2R (t_exp libm64 q))) + (1 - B2R (t_exp libm64 q))) by ring. eapply Rle_trans; [apply Rabs_triang|]. lra. }
  assert (Fs : is_finite (a_sub f64_arith (f64_ofZ 5) (f64_ofZ 1)) = true) by (vm_compute; reflexivity).
  pose proof (sub_e f64_prec f64_emax f64_Hp f64_He _ _ Fs) as Es. change (farith f64_prec f64_emax f64_Hp f64_He) with f64_arith in Es. rewrite R5, R1 in Es. rewrite (Rabs_pos_eq (5 - 1)) in Es by lra.
  set (s := a_sub f64_arith (f64_ofZ 5) (f64_ofZ 1)) in *. change (Rabs (B2R s - (5 - 1)) <= u_ro radix2 f64_prec * (5 - 1)) in Es. assert (BS : Rabs (B2R s) <= 5) by (apply Rabs_le_inv in Es; apply Rabs_le; lra).
  assert (BM : Rabs (B2R s * B2R p) <= 20) by (rewrite Rabs_mult; replace 20 with (5 * 4) by ring; apply Rmult_le_compat; try assumption; apply Rabs_pos).
  assert (Fm : is_finite (a_mul f64_arith s p) = true) by (apply (mul_f f64_prec f64_emax f64_Hp f64_He P11); try assumption; lra).
  pose proof (mul_e f64_prec f64_emax f64_Hp f64_He P11 _ _ Fm) as EM. change (farith f64_prec f64_emax f64_Hp f64_He) with f64_arith in EM. set (w := a_mul f64_arith s p) in *. change (Rabs (B2R w - B2R s * B2R p) <= u_ro radix2 f64_prec * Rabs (B2R s * B2R p) + half_eta f64_prec f64_emax) in EM.
  assert (BW : Rabs (B2R w) <= 22).
  { assert (u_ro radix2 f64_prec * Rabs (B2R s * B2R p) <= / 2048 * 20) by (apply Rmult_le_compat; try lra; apply Rabs_pos).
    replace (B2R w) with ((B2R w - B2R s * B2R p) + B2R s * B2R p) by ring. eapply Rle_trans; [apply Rabs_triang|]. lra. }
  apply (add_f f64_prec f64_emax f64_Hp f64_He P11); [exact F1|exact Fm|]. apply (Rle_trans _ (Rabs (1 + B2R w))); [rewrite <- R1; apply Rle_refl|]. apply Rabs_le_inv in BW. apply Rabs_le. lra.
Qed.
