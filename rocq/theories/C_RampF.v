(** Property theorems C37: rounding error of the hyperbolic ramp *)
From Coq Require Import ZArith Reals List Bool Lia Lra SpecFloat.
From Flocq Require Import Core BinarySingleNaN Relative.
From Verif Require Import CSem Num M_Elem S_Signal S_Line S_RampF P_StepF P_RampF.
Import ListNotations.
Open Scope R_scope.

(** IEEE arithmetic in every binary format with at least 11 bits: as long as x / a does not overflow,
    a finite result has a relative error of at most 13 u, even where z * z overflows or underflows. *)
Theorem C37_hyperbolic_bound :
  forall (prec emax : Z) (Hp : Prec_gt_0 prec) (He : Prec_lt_emax prec emax) (Hp11 : (11 <= prec)%Z) (x a : binary_float prec emax),
  is_finite x = true -> is_finite a = true -> 0 < B2R a ->
  is_finite (a_div (farith prec emax Hp He) x a) = true -> is_finite (hyperbolic_ramp (farith prec emax Hp He) x a) = true ->
  Rabs (B2R (hyperbolic_ramp (farith prec emax Hp He) x a) - hyp_ramp (B2R a) (B2R x)) <= 13 * u_ro radix2 prec * hyp_ramp (B2R a) (B2R x) + (3 * B2R a + 1) * half_eta prec emax.
Proof. exact @hyperbolic_bound. Qed.
Print Assumptions C37_hyperbolic_bound.
Theorem C37_overflow_refuted :
  exists x a : f64,
   is_finite x = true /\ is_finite a = true /\ 0 < B2R a < 1 /\ 0 < B2R x /\
   hyp_ramp (B2R a) (B2R x) <= B2R x + 1 /\ hyperbolic_ramp f64_arith x a = B754_infinity false.
Proof. exact @ramp_overflow. Qed.
Print Assumptions C37_overflow_refuted.

(** x = -3, 0, 1, 9 with a = 2 in double precision *)
Example C37_bound_ex : forall k, In k [-3; 0; 1; 9]%Z ->
  is_finite (a_div f64_arith (f64_ofZ k) (f64_ofZ 2)) = true /\ is_finite_strict (hyperbolic_ramp f64_arith (f64_ofZ k) (f64_ofZ 2)) = true.
Proof. intros k Hin. cbn [In] in Hin. repeat (destruct Hin as [<-|Hin]; [split; vm_compute; reflexivity|]). destruct Hin. Qed.
Example C37_hyp_ex : hyp_ramp 2 3 = 4 /\ hyp_ramp 2 (-3) = 1.
Proof.
  unfold hyp_ramp. replace (3 ^ 2 + 4 * 2 ^ 2) with (5 ^ 2) by ring. replace ((-3) ^ 2 + 4 * 2 ^ 2) with (5 ^ 2) by ring.
  rewrite sqrt_pow2 by lra. lra.
Qed.
