(** Property theorems C39: rounding error of swish *)
From Coq Require Import ZArith Reals List Bool Lia Lra SpecFloat.
From Flocq Require Import Core BinarySingleNaN Relative.
From Verif Require Import CSem Num NumF M_Elem S_Signal S_Line S_LogiF P_Kbn P_SumF P_StepF P_RampF P_LogiF P_VarioF P_SwishF.
Import ListNotations.
Open Scope R_scope.

(** IEEE arithmetic in every binary format with at least 11 bits; exp of the C library is within K/2
    units in the last place at -beta*x.  The error is relative to x: the rounding of beta*x is felt in
    the tail, where the value itself is far smaller. *)
Theorem C39_swish_bound :
  forall (prec emax : Z) (Hp : Prec_gt_0 prec) (He : Prec_lt_emax prec emax) (Hp11 : (11 <= prec)%Z) (TR : transc (binary_float prec emax)) (K : R) (HK : 0 <= K <= 8)
    (x beta : binary_float prec emax),
  let m := a_mul (farith prec emax Hp He) beta x in
     is_finite m = true -> libm_close K exp (t_exp TR) (a_opp (farith prec emax Hp He) m) ->
     is_finite (a_add (farith prec emax Hp He) (a_ofZ (farith prec emax Hp He) 1) (t_exp TR (a_opp (farith prec emax Hp He) m))) = true ->
     is_finite (swish (farith prec emax Hp He) TR x beta) = true ->
     Rabs (B2R (swish (farith prec emax Hp He) TR x beta) - B2R x * sigmoid (B2R beta * B2R x)) <= (11/10 * K + 6) * u_ro radix2 prec * Rabs (B2R x) + half_eta prec emax.
Proof. exact @swish_bound. Qed.
Print Assumptions C39_swish_bound.

(** swish(3, beta=2) in double precision, with the correctly rounded exp *)
Example C39_swish_bound_ex :
  Rabs (B2R (swish f64_arith libm64 (f64_ofZ 3) (f64_ofZ 2)) - 3 * sigmoid (2 * 3)) <= (11/10 * 2 + 6) * u_ro radix2 f64_prec * 3 + half_eta f64_prec f64_emax.
Proof.
  assert (P11 : (11 <= f64_prec)%Z) by (unfold f64_prec; lia).
  assert (EZ : forall z, (Z.abs z <= 1024)%Z -> is_finite (f64_ofZ z) = true /\ B2R (f64_ofZ z) = IZR z) by (intros z; apply (small_int f64_prec f64_emax f64_Hp f64_He P11)).
  destruct (EZ 2%Z ltac:(lia)) as [F2 R2]. destruct (EZ 1%Z ltac:(lia)) as [F1 R1]. destruct (EZ 3%Z ltac:(lia)) as [F3 R3].
  assert (Fm : is_finite (a_mul f64_arith (f64_ofZ 2) (f64_ofZ 3)) = true) by (vm_compute; reflexivity).
  assert (M0 : 0 <= B2R (a_mul f64_arith (f64_ofZ 2) (f64_ofZ 3))).
  { destruct (mult_fin f64_prec f64_emax f64_Hp f64_He _ _ Fm) as (_ & _ & E). apply (fun H => Rle_trans _ _ _ H (Req_le _ _ (eq_sym E))), (rnd_pos f64_prec f64_emax f64_Hp). rewrite R2, R3. lra. }
  pose proof (C39_swish_bound f64_prec f64_emax f64_Hp f64_He P11 libm64 2 ltac:(lra) (f64_ofZ 3) (f64_ofZ 2)) as H. cbv zeta in H. rewrite R2, R3, (Rabs_pos_eq 3) in H by lra.
  change (farith f64_prec f64_emax f64_Hp f64_He) with f64_arith in H. set (m := a_mul f64_arith (f64_ofZ 2) (f64_ofZ 3)) in *.
  assert (N0 : B2R (a_opp f64_arith m) <= 0) by (cbn [a_opp f64_arith farith]; rewrite B2R_Bopp; lra).
  assert (LM : libm_close 2 exp (t_exp libm64) (a_opp f64_arith m)) by (apply libm64_exp; exact N0).
  pose proof (u_small f64_prec P11) as U. pose proof (h_small f64_prec f64_emax f64_He P11) as HH. destruct LM as [Ft Et]. destruct (exp_mult _ N0) as [_ EQ].
  assert (Fs : is_finite (a_add f64_arith (a_ofZ f64_arith 1) (t_exp libm64 (a_opp f64_arith m))) = true).
  { rewrite (Rabs_pos_eq (exp _)) in Et by lra.
    assert (B : 2 * u_ro radix2 f64_prec * exp (B2R (a_opp f64_arith m)) <= 2 * u_ro radix2 f64_prec * 1) by (apply Rmult_le_compat_l; lra).
    apply (add_f f64_prec f64_emax f64_Hp f64_He P11); [exact F1|exact Ft|]. apply (Rle_trans _ (Rabs (1 + B2R (t_exp libm64 (a_opp f64_arith m))))); [rewrite <- R1; apply Rle_refl|].
    apply Rabs_le_inv in Et. apply Rabs_le. lra. }
  apply H; [exact Fm|split; [exact Ft|exact Et]|exact Fs|]. clear H.
  destruct (logistic_bound f64_prec f64_emax f64_Hp f64_He P11 libm64 2 ltac:(lra) m (conj Ft Et) Fs) as [FL EL]. pose proof (sigmoid_01 (B2R m)) as S1.
  unfold swish. fold m. apply (mul_f f64_prec f64_emax f64_Hp f64_He P11); [exact F3|exact FL|]. set (L := B2R (logistic f64_arith libm64 m)).
  change (Rabs (L - sigmoid (B2R m)) <= (11 / 10 * 2 + 3) * u_ro radix2 f64_prec * sigmoid (B2R m) + half_eta f64_prec f64_emax) in EL.
  assert (A : (11 / 10 * 2 + 3) * u_ro radix2 f64_prec * sigmoid (B2R m) <= (11 / 10 * 2 + 3) * u_ro radix2 f64_prec * 1) by (apply Rmult_le_compat_l; lra).
  apply (Rle_trans _ (Rabs (3 * L))); [rewrite <- R3; apply Rle_refl|]. apply Rabs_le_inv in EL. apply Rabs_le. lra.
Qed.
