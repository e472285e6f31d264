(** Property theorems C39: rounding errors of the logistic family *)
From Coq Require Import ZArith Reals List Bool Lia Lra SpecFloat.
From Flocq Require Import Core BinarySingleNaN Relative.
From Verif Require Import CSem Num M_Elem S_Signal S_Line S_LogiF P_StepF P_RampF P_LogiF.
Import ListNotations.
Open Scope R_scope.

(** IEEE arithmetic in every binary format with at least 11 bits.  exp and log1p of the C library are
    within K/2 units in the last place at the arguments they are called with (K = 2: one unit).
    The errors are relative: also far out in the tails. *)
Theorem C39_logistic_bound :
  forall (prec emax : Z) (Hp : Prec_gt_0 prec) (He : Prec_lt_emax prec emax) (Hp11 : (11 <= prec)%Z) (TR : transc (binary_float prec emax)) (K : R) (HK : 0 <= K <= 8) (x : binary_float prec emax),
  libm_close K exp (t_exp TR) (a_opp (farith prec emax Hp He) x) ->
     is_finite (a_add (farith prec emax Hp He) (a_ofZ (farith prec emax Hp He) 1) (t_exp TR (a_opp (farith prec emax Hp He) x))) = true ->
     is_finite (logistic (farith prec emax Hp He) TR x) = true /\
     Rabs (B2R (logistic (farith prec emax Hp He) TR x) - sigmoid (B2R x)) <= (11/10 * K + 3) * u_ro radix2 prec * sigmoid (B2R x) + half_eta prec emax.
Proof. exact @logistic_bound. Qed.
Print Assumptions C39_logistic_bound.
Theorem C39_logistic_deriv_bound :
  forall (prec emax : Z) (Hp : Prec_gt_0 prec) (He : Prec_lt_emax prec emax) (Hp11 : (11 <= prec)%Z) (TR : transc (binary_float prec emax)) (K : R) (HK : 0 <= K <= 8) (x : binary_float prec emax),
  libm_close K exp (t_exp TR) (a_opp (farith prec emax Hp He) x) -> libm_close K exp (t_exp TR) (a_opp (farith prec emax Hp He) (a_opp (farith prec emax Hp He) x)) ->
     is_finite (a_add (farith prec emax Hp He) (a_ofZ (farith prec emax Hp He) 1) (t_exp TR (a_opp (farith prec emax Hp He) x))) = true -> is_finite (a_add (farith prec emax Hp He) (a_ofZ (farith prec emax Hp He) 1) (t_exp TR (a_opp (farith prec emax Hp He) (a_opp (farith prec emax Hp He) x)))) = true ->
     is_finite (logistic_deriv (farith prec emax Hp He) TR x) = true /\
     Rabs (B2R (logistic_deriv (farith prec emax Hp He) TR x) - sigmoid (B2R x) * (1 - sigmoid (B2R x))) <= (3 * K + 8) * u_ro radix2 prec * (sigmoid (B2R x) * (1 - sigmoid (B2R x))) + 4 * half_eta prec emax.
Proof. exact @deriv_bound. Qed.
Print Assumptions C39_logistic_deriv_bound.
Theorem C39_log_logistic_bound :
  forall (prec emax : Z) (Hp : Prec_gt_0 prec) (He : Prec_lt_emax prec emax) (Hp11 : (11 <= prec)%Z) (TR : transc (binary_float prec emax)) (K : R) (HK : 0 <= K <= 8) (x : binary_float prec emax),
  is_finite x = true ->
     (forall y : binary_float prec emax, is_finite y = true -> B2R y <= 0 -> libm_close K exp (t_exp TR) y) ->
     (forall t : binary_float prec emax, is_finite t = true -> - / 1000 <= B2R t <= 2 -> libm_close K log1pR (t_log1p TR) t) ->
     is_finite (log_logistic (farith prec emax Hp He) TR x) = true ->
     Rabs (B2R (log_logistic (farith prec emax Hp He) TR x) - ln (sigmoid (B2R x))) <= (4 * K + 1) * u_ro radix2 prec * Rabs (ln (sigmoid (B2R x))) + 5 * half_eta prec emax.
Proof. exact @log_logistic_bound. Qed.
Print Assumptions C39_log_logistic_bound.

(** the correctly rounded functions in double precision *)
Example C39_libm_ex : (forall y : f64, is_finite y = true -> B2R y <= 0 -> libm_close 2 exp (t_exp libm64) y) /\
  (forall t : f64, is_finite t = true -> - / 1000 <= B2R t <= 2 -> libm_close 2 log1pR (t_log1p libm64) t).
Proof. split; [intros y _; apply libm64_exp|intros t _; apply libm64_log1p]. Qed.
(** ln (sigmoid 7), where the result is 1e-3 *)
Example C39_bound_ex :
  Rabs (B2R (log_logistic f64_arith libm64 (f64_ofZ 7)) - ln (sigmoid 7)) <= 9 * u_ro radix2 f64_prec * Rabs (ln (sigmoid 7)) + 5 * half_eta f64_prec f64_emax.
Proof.
  assert (P11 : (11 <= f64_prec)%Z) by (unfold f64_prec; lia).
  assert (E7 : is_finite (f64_ofZ 7) = true /\ B2R (f64_ofZ 7) = 7) by (apply (small_int f64_prec f64_emax f64_Hp f64_He P11); lia). destruct E7 as [F7 R7].
  pose proof (C39_log_logistic_bound f64_prec f64_emax f64_Hp f64_He P11 libm64 2 ltac:(lra) (f64_ofZ 7) F7 (proj1 C39_libm_ex) (proj2 C39_libm_ex)) as H.
  rewrite R7 in H. replace (4 * 2 + 1) with 9 in H by ring. apply H. clear H.
  unfold log_logistic. cbn [a_cmp farith]. destruct (small_int f64_prec f64_emax f64_Hp f64_He P11 0 ltac:(lia)) as [F0 R0].
  rewrite (lt_Rb f64_prec f64_emax) by assumption. rewrite R7, R0. destruct (Rlt_dec 7 0); [lra|]. cbn [a_opp farith]. rewrite is_finite_Bopp.
  refine (proj1 (soft_err f64_prec f64_emax f64_He P11 libm64 2 ltac:(lra) (Bopp (f64_ofZ 7)) _ _ _ (proj2 C39_libm_ex))).
  - rewrite is_finite_Bopp. exact F7.
  - rewrite B2R_Bopp, R7. lra.
  - apply libm64_exp. rewrite B2R_Bopp, R7. lra.
Qed.
