(** Property theorems C35, C38, C46: rounding errors of the steps, the variograms and the pulse *)
From Coq Require Import ZArith Reals List Bool Lia Lra SpecFloat.
From Flocq Require Import Core BinarySingleNaN Relative.
From Verif Require Import CSem Num M_Elem S_Signal S_Line S_StepF P_StepF.
Import ListNotations.
Open Scope R_scope.

(** IEEE arithmetic in every binary format with at least 11 bits (half, float, double, long double):
    a finite result is within a few rounding errors of the exact function, [S_StepF].  The steps are
    compared on the whole line, the variograms for nonnegative distances and a positive range. *)
(** ** C35: as long as b - a does not overflow *)
Theorem C35_linearstep_bound :
  forall (prec emax : Z) (Hp : Prec_gt_0 prec) (He : Prec_lt_emax prec emax) (Hp11 : (11 <= prec)%Z) (x a b fa fb : binary_float prec emax),
  is_finite x = true -> B2R a <= B2R b -> is_finite (a_sub (farith prec emax Hp He) b a) = true ->
     is_finite (linearstep (farith prec emax Hp He) x a b fa fb) = true ->
     Rabs (B2R (linearstep (farith prec emax Hp He) x a b fa fb) - transition ramp_profile (B2R a) (B2R b) (B2R fa) (B2R fb) (B2R x))
       <= 8 * u_ro radix2 prec * (Rabs (B2R fa) + Rabs (B2R fb)) + 3 * half_eta prec emax.
Proof. exact @linearstep_bound. Qed.
Print Assumptions C35_linearstep_bound.
Theorem C35_smoothstep3_bound :
  forall (prec emax : Z) (Hp : Prec_gt_0 prec) (He : Prec_lt_emax prec emax) (Hp11 : (11 <= prec)%Z) (x a b fa fb : binary_float prec emax),
  is_finite x = true -> B2R a <= B2R b -> is_finite (a_sub (farith prec emax Hp He) b a) = true ->
     is_finite (smoothstep3 (farith prec emax Hp He) x a b fa fb) = true ->
     let y := transition cubic_profile (B2R a) (B2R b) (B2R fa) (B2R fb) (B2R x) in
     Rabs (B2R (smoothstep3 (farith prec emax Hp He) x a b fa fb) - y) <= u_ro radix2 prec * (Rabs (B2R fa) + Rabs (B2R fb)) + 50 * (u_ro radix2 prec * Rabs (B2R fb - B2R fa)) + 9 * half_eta prec emax.
Proof. exact @smoothstep3_bound. Qed.
Print Assumptions C35_smoothstep3_bound.
Theorem C35_smoothstep5_bound :
  forall (prec emax : Z) (Hp : Prec_gt_0 prec) (He : Prec_lt_emax prec emax) (Hp11 : (11 <= prec)%Z) (x a b fa fb : binary_float prec emax),
  is_finite x = true -> B2R a <= B2R b -> is_finite (a_sub (farith prec emax Hp He) b a) = true ->
     is_finite (smoothstep5 (farith prec emax Hp He) x a b fa fb) = true ->
     let y := transition quintic_profile (B2R a) (B2R b) (B2R fa) (B2R fb) (B2R x) in
     Rabs (B2R (smoothstep5 (farith prec emax Hp He) x a b fa fb) - y) <= u_ro radix2 prec * (Rabs (B2R fa) + Rabs (B2R fb)) + 305 * (u_ro radix2 prec * Rabs (B2R fb - B2R fa)) + 37 * half_eta prec emax.
Proof. exact @smoothstep5_bound. Qed.
Print Assumptions C35_smoothstep5_bound.
(** when it does overflow, the steps and the pulse return 0 in the middle of a transition from 0 to 8 *)
Theorem C35_overflow_refuted :
  exists a b x lo hi : f64,
   is_finite a = true /\ is_finite b = true /\ is_finite x = true /\ B2R a < B2R x < B2R b /\
   (forall p, In p [ramp_profile; cubic_profile; quintic_profile] -> transition p (B2R a) (B2R b) (B2R lo) (B2R hi) (B2R x) = 4) /\
   trapezoid (B2R a) (B2R b) (B2R b) (B2R b) (B2R hi) (B2R x) = 4 /\
   (forall v, In v [linearstep f64_arith x a b lo hi; smoothstep3 f64_arith x a b lo hi; smoothstep5 f64_arith x a b lo hi; trapezoid_pulse f64_arith x a b b b hi] ->
      is_finite v = true /\ B2R v = 0).
Proof. exact @wide_overflow. Qed.
Print Assumptions C35_overflow_refuted.

(** ** C38: semivar_linear, semivar_spherical, semivar_parabolic *)
Theorem C38_linear_bound :
  forall (prec emax : Z) (Hp : Prec_gt_0 prec) (He : Prec_lt_emax prec emax) (Hp11 : (11 <= prec)%Z) (x ng sl r : binary_float prec emax),
  is_finite x = true -> is_finite r = true -> 0 <= B2R x -> 0 < B2R r ->
     is_finite (semivar_linear (farith prec emax Hp He) x ng sl r) = true ->
     Rabs (B2R (semivar_linear (farith prec emax Hp He) x ng sl r) - variogram ramp_profile (B2R ng) (B2R sl) (B2R r) (B2R x))
       <= u_ro radix2 prec * (Rabs (B2R ng) + Rabs (B2R sl)) + 4 * (u_ro radix2 prec * Rabs (B2R sl - B2R ng)) + (2 * B2R x + 2) * half_eta prec emax.
Proof. exact @linear_bound. Qed.
Print Assumptions C38_linear_bound.
Theorem C38_spherical_bound :
  forall (prec emax : Z) (Hp : Prec_gt_0 prec) (He : Prec_lt_emax prec emax) (Hp11 : (11 <= prec)%Z) (x ng sl r : binary_float prec emax),
  is_finite x = true -> is_finite r = true -> 0 <= B2R x -> 0 < B2R r ->
     is_finite (semivar_spherical (farith prec emax Hp He) x ng sl r) = true ->
     Rabs (B2R (semivar_spherical (farith prec emax Hp He) x ng sl r) - variogram spherical_profile (B2R ng) (B2R sl) (B2R r) (B2R x))
       <= u_ro radix2 prec * (Rabs (B2R ng) + Rabs (B2R sl)) + 15 * (u_ro radix2 prec * Rabs (B2R sl - B2R ng)) + 5 * half_eta prec emax.
Proof. exact @spherical_bound. Qed.
Print Assumptions C38_spherical_bound.
Theorem C38_parabolic_bound :
  forall (prec emax : Z) (Hp : Prec_gt_0 prec) (He : Prec_lt_emax prec emax) (Hp11 : (11 <= prec)%Z) (x ng sl r : binary_float prec emax),
  is_finite x = true -> is_finite r = true -> 0 <= B2R x -> 0 < B2R r ->
     is_finite (semivar_parabolic (farith prec emax Hp He) x ng sl r) = true ->
     Rabs (B2R (semivar_parabolic (farith prec emax Hp He) x ng sl r) - variogram parabolic_profile (B2R ng) (B2R sl) (B2R r) (B2R x))
       <= u_ro radix2 prec * (Rabs (B2R ng) + Rabs (B2R sl)) + 15 * (u_ro radix2 prec * Rabs (B2R sl - B2R ng)) + 4 * half_eta prec emax.
Proof. exact @parabolic_bound. Qed.
Print Assumptions C38_parabolic_bound.

(** ** C46: trapezoid_pulse *)
Theorem C46_trapezoid_bound :
  forall (prec emax : Z) (Hp : Prec_gt_0 prec) (He : Prec_lt_emax prec emax) (Hp11 : (11 <= prec)%Z) (x a b c d amp : binary_float prec emax),
  is_finite x = true -> B2R a <= B2R b -> B2R b <= B2R c -> B2R c <= B2R d ->
     is_finite (a_sub (farith prec emax Hp He) b a) = true -> is_finite (a_sub (farith prec emax Hp He) d c) = true ->
     is_finite (trapezoid_pulse (farith prec emax Hp He) x a b c d amp) = true ->
     Rabs (B2R (trapezoid_pulse (farith prec emax Hp He) x a b c d amp) - trapezoid (B2R a) (B2R b) (B2R c) (B2R d) (B2R amp) (B2R x)) <= 6 * (u_ro radix2 prec * Rabs (B2R amp)) + half_eta prec emax.
Proof. exact @trapezoid_bound. Qed.
Print Assumptions C46_trapezoid_bound.

(** x = 1 between 0 and 3, values from 1 to 11 (amplitude 11 for the pulse) in double precision *)
Example C35_bound_ex :
  let c := f64_ofZ in let x := c 1%Z in let a := c 0%Z in let b := c 3%Z in let fa := c 1%Z in let fb := c 11%Z in
  forall v, In v [a_sub f64_arith b a; linearstep f64_arith x a b fa fb; smoothstep3 f64_arith x a b fa fb; smoothstep5 f64_arith x a b fa fb;
     semivar_linear f64_arith x fa fb b; semivar_spherical f64_arith x fa fb b; semivar_parabolic f64_arith x fa fb b;
     trapezoid_pulse f64_arith x a b b (c 5%Z) fb] -> is_finite_strict v = true.
Proof. intros c x a b fa fb v Hin. cbn [In] in Hin. repeat (destruct Hin as [<-|Hin]; [vm_compute; reflexivity|]). destruct Hin. Qed.
Example C35_profile_ex : transition cubic_profile 0 3 1 11 1 = 1 + 70 / 27 /\ variogram spherical_profile 1 11 3 1 = 1 + 130 / 27 /\
  trapezoid 0 3 3 5 11 4 = 11 / 2.
Proof.
  unfold transition, variogram, trapezoid, cubic_profile, spherical_profile, frac.
  repeat match goal with |- context [Rle_dec ?a ?b] => destruct (Rle_dec a b); try lra | |- context [Rlt_dec ?a ?b] => destruct (Rlt_dec a b); try lra end.
Qed.
