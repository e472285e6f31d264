(** Property theorems C35-C46: the elementwise functions. *)
From Coq Require Import ZArith Reals List Bool Lia Lra.
From Flocq Require Import Core BinarySingleNaN.
From Verif Require Import CSem CSemP Num NumP M_Elem S_Stat S_Elem P_Step P_Elem P_Next P_Ramp P_ElemF.
Import ListNotations.
Open Scope R_scope.

(** ** C35: the step functions *)
Theorem C35_linearstep :
  forall a b fa fb,
  a < b ->
   exists f, computes (fun x => linearstep earith x (Fin a) (Fin b) (Fin fa) (Fin fb)) f /\
     transition f a b fa fb /\
     (forall x, a <= x <= b -> f x = fa + (fb - fa) * ((x - a) / (b - a))).
Proof. exact @linearstep_shape. Qed.
Print Assumptions C35_linearstep.

Theorem C35_smoothstep3 :
  forall a b fa fb,
  a < b ->
   exists f, computes (fun x => smoothstep3 earith x (Fin a) (Fin b) (Fin fa) (Fin fb)) f /\
     transition f a b fa fb /\ C1_flat f a b /\
     (forall x, a <= x <= b -> exists u, u * (b - a) = x - a /\ f x = fa + (fb - fa) * (3 * u ^ 2 - 2 * u ^ 3)).
Proof. exact @smoothstep3_shape. Qed.
Print Assumptions C35_smoothstep3.

Theorem C35_smoothstep5 :
  forall a b fa fb,
  a < b ->
   exists f, computes (fun x => smoothstep5 earith x (Fin a) (Fin b) (Fin fa) (Fin fb)) f /\
     transition f a b fa fb /\ C2_flat f a b /\
     (forall x, a <= x <= b -> exists u, u * (b - a) = x - a /\ f x = fa + (fb - fa) * (6 * u ^ 5 - 15 * u ^ 4 + 10 * u ^ 3)).
Proof. exact @smoothstep5_shape. Qed.
Print Assumptions C35_smoothstep5.

Theorem C35_jump :
  forall x a fa fb,
  let v := Fin (if Rlt_dec x a then fa else if Rlt_dec a x then fb else fa) in
  linearstep earith (Fin x) (Fin a) (Fin a) (Fin fa) (Fin fb) = v /\
  smoothstep3 earith (Fin x) (Fin a) (Fin a) (Fin fa) (Fin fb) = v /\
  smoothstep5 earith (Fin x) (Fin a) (Fin a) (Fin fa) (Fin fb) = v.
Proof. exact @steps_jump. Qed.
Print Assumptions C35_jump.

(** any arithmetic with the comparison laws, in particular IEEE of every format *)
Theorem C35_bad_interval :
  forall {T : Type} (A : arith T) (N : nan_prop A) x a b fa fb,
  gtb (a_cmp A) a b = true ->
     isnanb (a_cmp A) (linearstep A x a b fa fb) = true /\ isnanb (a_cmp A) (smoothstep3 A x a b fa fb) = true /\ isnanb (a_cmp A) (smoothstep5 A x a b fa fb) = true.
Proof. exact @steps_gt. Qed.
Print Assumptions C35_bad_interval.

Theorem C35_ends :
  forall {T : Type} (A : arith T) x a b fa fb,
  gtb (a_cmp A) a b = false ->
     (leb (a_cmp A) x a = true -> linearstep A x a b fa fb = fa /\ smoothstep3 A x a b fa fb = fa /\ smoothstep5 A x a b fa fb = fa) /\
     (leb (a_cmp A) x a = false -> geb (a_cmp A) x b = true ->
        linearstep A x a b fa fb = fb /\ smoothstep3 A x a b fa fb = fb /\ smoothstep5 A x a b fa fb = fb).
Proof. exact @steps_ends. Qed.
Print Assumptions C35_ends.

Theorem C35_step :
  forall {T : Type} (A : arith T) (L : cmp_laws (a_cmp A)) x a flow fa fhigh,
  (ltb (a_cmp A) x a = true -> step A x a flow fa fhigh = flow) /\
  (eqb (a_cmp A) x a = true -> step A x a flow fa fhigh = fa) /\
  (ltb (a_cmp A) a x = true -> step A x a flow fa fhigh = fhigh).
Proof. exact @step_cases. Qed.
Print Assumptions C35_step.

Theorem C35_step_monotone :
  forall {T : Type} (A : arith T) (L : cmp_laws (a_cmp A)) x y a flow fa fhigh,
  isnanb (a_cmp A) a = false ->
  leb (a_cmp A) flow fa = true -> leb (a_cmp A) fa fhigh = true -> leb (a_cmp A) x y = true ->
  leb (a_cmp A) (step A x a flow fa fhigh) (step A y a flow fa fhigh) = true.
Proof. exact @step_monotone. Qed.
Print Assumptions C35_step_monotone.

(** a NaN x gives NaN unless a == b; step gives fa instead *)
Theorem C35_nan :
  forall {T : Type} (A : arith T) (L : cmp_laws (a_cmp A)) (N : nan_prop A) x a b fa fb,
  isnanb (a_cmp A) x = true -> eqb (a_cmp A) a b = false ->
     isnanb (a_cmp A) (linearstep A x a b fa fb) = true /\ isnanb (a_cmp A) (smoothstep3 A x a b fa fb) = true /\ isnanb (a_cmp A) (smoothstep5 A x a b fa fb) = true.
Proof. exact @steps_nan_x. Qed.
Print Assumptions C35_nan.

Theorem C35_nan_refuted :
  (exists x a fl fa fh : f64, is_nan x = true /\ is_nan (step f64_arith x a fl fa fh) = false) /\
  (exists x a b fa fb : f64, is_nan x = true /\ is_nan (linearstep f64_arith x a b fa fb) = false) /\
  (exists x a b fa fb : f64, is_nan a = true /\ is_nan (linearstep f64_arith x a b fa fb) = false /\
                             is_nan (smoothstep3 f64_arith x a b fa fb) = false).
Proof.
  split; [|split].
  - exists B754_nan, (f64_ofZ 0), (f64_ofZ 1), (f64_ofZ 2), (f64_ofZ 3). split; vm_compute; reflexivity.
  - exists B754_nan, (f64_ofZ 0), (f64_ofZ 0), (f64_ofZ 1), (f64_ofZ 3). split; vm_compute; reflexivity.
  - exists (f64_ofZ 2), B754_nan, (f64_ofZ 1), (f64_ofZ 1), (f64_ofZ 3). repeat split; vm_compute; reflexivity.
Qed.
Print Assumptions C35_nan_refuted.

(** in double precision the values can leave [fa, fb] by rounding *)
Theorem C35_between_ieee_refuted :
  (exists x a b fa fb : f64, ltb f64_cmp a x = true /\ ltb f64_cmp x b = true /\ leb f64_cmp fa fb = true /\
     gtb f64_cmp (linearstep f64_arith x a b fa fb) fb = true) /\
  (exists x a b fa fb : f64, ltb f64_cmp a x = true /\ ltb f64_cmp x b = true /\ leb f64_cmp fa fb = true /\
     gtb f64_cmp (smoothstep3 f64_arith x a b fa fb) fb = true) /\
  (exists x a b fa fb : f64, ltb f64_cmp a x = true /\ ltb f64_cmp x b = true /\ leb f64_cmp fa fb = true /\
     gtb f64_cmp (smoothstep5 f64_arith x a b fa fb) fb = true).
Proof.
  split; [|split].
  - exists (a_div f64_arith (f64_ofZ 1) (f64_ofZ 5)), (f64_ofZ 0), (f64_ofZ 1), (f64_ofZ 3), (f64_ofZ 3).
    repeat split; vm_compute; reflexivity.
  - exists (a_sub f64_arith (f64_ofZ 1) (a_div f64_arith (f64_ofZ 4) (f64_ofZ (2 ^ 53)))),
           (f64_ofZ 0), (f64_ofZ 1), (f64_ofZ 5), (f64_ofZ 15).
    repeat split; vm_compute; reflexivity.
  - exists (a_sub f64_arith (f64_ofZ 1) (a_div f64_arith (f64_ofZ 3) (f64_ofZ (2 ^ 53)))),
           (f64_ofZ 0), (f64_ofZ 1), (f64_ofZ 1), (f64_ofZ 5).
    repeat split; vm_compute; reflexivity.
Qed.
Print Assumptions C35_between_ieee_refuted.

(** the general hypotheses hold of the IEEE formats *)
Example C35_ex_nan_prop : nan_prop f64_arith /\ cmp_laws (a_cmp f64_arith).
Proof. split; [apply nan_prop_f|apply Bcompare_laws]. Qed.
(** smoothstep3 from 0 to 10 over [0, 2]: the value at 1/2 *)
Example C35_ex : smoothstep3 earith (Fin (/ 2)) (Fin 0) (Fin 2) (Fin 0) (Fin 10) = Fin (50 / 32).
Proof.
  destruct (smoothstep3_shape 0 2 0 10 ltac:(lra)) as (f & Hf & _ & _ & Hv).
  rewrite (Hf (/ 2)). f_equal. destruct (Hv (/ 2) ltac:(lra)) as (u & Hu & ->).
  replace u with (/ 4) by lra. field.
Qed.

(** ** C36: invsmoothstep3 *)
Theorem C36_inverse_left :
  forall x a b fa fb,
  a < b -> fa <> fb -> a <= x <= b ->
   exists y, smoothstep3 earith (Fin x) (Fin a) (Fin b) (Fin fa) (Fin fb) = Fin y /\
     invsmoothstep3 earith esin easin (Fin y) (Fin a) (Fin b) (Fin fa) (Fin fb) = Fin x.
Proof. exact @inv_left. Qed.
Print Assumptions C36_inverse_left.

Theorem C36_inverse_right :
  forall y a b fa fb,
  a < b -> fa <> fb -> Rmin fa fb <= y <= Rmax fa fb ->
   exists x, a <= x <= b /\
     invsmoothstep3 earith esin easin (Fin y) (Fin a) (Fin b) (Fin fa) (Fin fb) = Fin x /\
     smoothstep3 earith (Fin x) (Fin a) (Fin b) (Fin fa) (Fin fb) = Fin y.
Proof. exact @inv_right. Qed.
Print Assumptions C36_inverse_right.

Theorem C36_outside :
  forall y a b fa fb,
  y < Rmin fa fb \/ Rmax fa fb < y ->
   invsmoothstep3 earith esin easin (Fin y) (Fin a) (Fin b) (Fin fa) (Fin fb) = ENaN.
Proof. exact @inv_outside. Qed.
Print Assumptions C36_outside.

(** unlike the other step functions, a > b is not rejected *)
Theorem C36_reversed_interval_refuted :
  exists y a b fa fb r, b < a /\
    (forall x, smoothstep3 earith (Fin x) (Fin a) (Fin b) (Fin fa) (Fin fb) = ENaN) /\
    invsmoothstep3 earith esin easin (Fin y) (Fin a) (Fin b) (Fin fa) (Fin fb) = Fin r.
Proof. exact @inv_no_check. Qed.
Print Assumptions C36_reversed_interval_refuted.

Example C36_ex : exists x, 0 <= x <= 2 /\
  invsmoothstep3 earith esin easin (Fin 3) (Fin 0) (Fin 2) (Fin 0) (Fin 10) = Fin x /\
  smoothstep3 earith (Fin x) (Fin 0) (Fin 2) (Fin 0) (Fin 10) = Fin 3.
Proof. apply C36_inverse_right; [lra|lra|rewrite Rmin_left, Rmax_right by lra; lra]. Qed.

(** ** C37: the ramps *)
Theorem C37_hyperbolic_ramp :
  forall a,
  0 < a ->
   exists f, computes (fun x => hyperbolic_ramp earith x (Fin a)) f /\ smooth_ramp f a /\
     (forall x, f x * f (- x) = a ^ 2) /\ (forall x, f x = (x + sqrt (x ^ 2 + 4 * a ^ 2)) / 2).
Proof. exact @hyperbolic_ramp_shape. Qed.
Print Assumptions C37_hyperbolic_ramp.

Theorem C37_exponential_ramp :
  forall a,
  0 < a ->
   exists f, computes (fun x => exponential_ramp earith etransc (Fin (ln 2)) x (Fin a)) f /\ smooth_ramp f a /\
     (forall x, f x = a * (ln (1 + Rpower 2 (x / a)) / ln 2)).
Proof. exact @exponential_ramp_shape. Qed.
Print Assumptions C37_exponential_ramp.

Theorem C37_hyperbolic_decay :
  forall a x,
  0 < a -> x <> 0 ->
   exists y, hyperbolic_ramp earith (Fin x) (Fin a) = Fin y /\ y - Rmax x 0 <= a ^ 2 / Rabs x.
Proof. exact @hyperbolic_ramp_decay. Qed.
Print Assumptions C37_hyperbolic_decay.

Theorem C37_exponential_decay :
  forall a x,
  0 < a ->
   exists y, exponential_ramp earith etransc (Fin (ln 2)) (Fin x) (Fin a) = Fin y /\
     y - Rmax x 0 <= a * Rpower 2 (- (Rabs x / a)) / ln 2.
Proof. exact @exponential_ramp_decay. Qed.
Print Assumptions C37_exponential_decay.

Theorem C37_zero_width :
  forall x,
  hyperbolic_ramp earith (Fin x) (Fin 0) = Fin (Rmax x 0) /\
  exponential_ramp earith etransc (Fin (ln 2)) (Fin x) (Fin 0) = Fin (Rmax x 0).
Proof. exact @ramps_zero. Qed.
Print Assumptions C37_zero_width.

Theorem C37_negative_width :
  forall x a,
  a < 0 ->
   hyperbolic_ramp earith x (Fin a) = ENaN /\ exponential_ramp earith etransc (Fin (ln 2)) x (Fin a) = ENaN.
Proof. exact @ramps_neg. Qed.
Print Assumptions C37_negative_width.

Theorem C37_infinities :
  forall a,
  0 < a ->
   hyperbolic_ramp earith PInf (Fin a) = PInf /\ hyperbolic_ramp earith NInf (Fin a) = Fin 0 /\
   exponential_ramp earith etransc (Fin (ln 2)) PInf (Fin a) = PInf /\
   exponential_ramp earith etransc (Fin (ln 2)) NInf (Fin a) = Fin 0.
Proof. exact @ramps_inf. Qed.
Print Assumptions C37_infinities.

(** the header says the ramps are 1 at x = 0 for every a; they are a there *)
Theorem C37_unit_at_zero_refuted :
  exists a, 0 < a /\ hyperbolic_ramp earith (Fin 0) (Fin a) <> Fin 1 /\
            exponential_ramp earith etransc (Fin (ln 2)) (Fin 0) (Fin a) <> Fin 1.
Proof.
  exists 2. split; [lra|]. split; intros H.
  - destruct (hyperbolic_ramp_shape 2 ltac:(lra)) as (f & Hf & R & _). rewrite (Hf 0) in H.
    rewrite (rp_zero _ _ R) in H. injection H. lra.
  - destruct (exponential_ramp_shape 2 ltac:(lra)) as (f & Hf & R & _). rewrite (Hf 0) in H.
    rewrite (rp_zero _ _ R) in H. injection H. lra.
Qed.
Print Assumptions C37_unit_at_zero_refuted.
Example C37_ex : hyperbolic_ramp earith (Fin 3) (Fin 2) = Fin 4.
Proof.
  destruct (hyperbolic_ramp_shape 2 ltac:(lra)) as (f & Hf & _ & _ & Hv). rewrite (Hf 3), Hv. f_equal.
  replace (3 ^ 2 + 4 * 2 ^ 2) with (5 ^ 2) by ring. rewrite sqrt_pow2 by lra. field.
Qed.

(** ** C38: semivariograms *)
Theorem C38_exponential :
  forall (nugget sill range : R) (Hr : 0 < range) (Hs : nugget <= sill),
  exists f, computes (fun h => semivar_exponential earith etransc h (Fin nugget) (Fin sill) (Fin range)) f /\
    variogram f nugget sill /\ (nugget < sill -> forall h, f h < sill) /\
    (forall h, sill - f h = (sill - nugget) * exp (- 3 * (h / range))).
Proof. exact @semivar_exponential_shape. Qed.
Print Assumptions C38_exponential.

Theorem C38_linear :
  forall (nugget sill range : R) (Hr : 0 < range) (Hs : nugget <= sill),
  exists f, computes (fun h => semivar_linear earith h (Fin nugget) (Fin sill) (Fin range)) f /\
    variogram f nugget sill /\ (forall h, range <= h -> f h = sill) /\
    (forall h, 0 <= h <= range -> f h = nugget + (sill - nugget) * (h / range)).
Proof. exact @semivar_linear_shape. Qed.
Print Assumptions C38_linear.

Theorem C38_spherical :
  forall (nugget sill range : R) (Hr : 0 < range) (Hs : nugget <= sill),
  exists f, computes (fun h => semivar_spherical earith h (Fin nugget) (Fin sill) (Fin range)) f /\
    variogram f nugget sill /\ (forall h, range <= h -> f h = sill) /\
    (forall h, 0 <= h <= range -> f h = nugget + (sill - nugget) * (3 * (h / range) / 2 - (h / range) ^ 3 / 2)).
Proof. exact @semivar_spherical_shape. Qed.
Print Assumptions C38_spherical.

Theorem C38_parabolic :
  forall (nugget sill range : R) (Hr : 0 < range) (Hs : nugget <= sill),
  exists f, computes (fun h => semivar_parabolic earith h (Fin nugget) (Fin sill) (Fin range)) f /\
    variogram f nugget sill /\ (forall h, range <= h -> f h = sill) /\
    (forall h, 0 <= h <= range -> f h = nugget + (sill - nugget) * (2 * (h / range) - (h / range) ^ 2)).
Proof. exact @semivar_parabolic_shape. Qed.
Print Assumptions C38_parabolic.

Theorem C38_nan :
  forall {T : Type} (A : arith T) (L : cmp_laws (a_cmp A)) (N : nan_prop A) TR h nugget sill range,
  isnanb (a_cmp A) h = true ->
     (forall x, isnanb (a_cmp A) x = true -> isnanb (a_cmp A) (t_exp TR x) = true) ->
     isnanb (a_cmp A) (semivar_exponential A TR h nugget sill range) = true /\ isnanb (a_cmp A) (semivar_linear A h nugget sill range) = true /\
     isnanb (a_cmp A) (semivar_spherical A h nugget sill range) = true /\ isnanb (a_cmp A) (semivar_parabolic A h nugget sill range) = true.
Proof. exact @semivar_nan. Qed.
Print Assumptions C38_nan.

(** nugget 1, sill 3, range 2: value at 1 and beyond the range *)
Example C38_ex : semivar_spherical earith (Fin 1) (Fin 1) (Fin 3) (Fin 2) = Fin (19 / 8) /\
                 semivar_spherical earith (Fin 5) (Fin 1) (Fin 3) (Fin 2) = Fin 3.
Proof.
  destruct (C38_spherical 1 3 2 ltac:(lra) ltac:(lra)) as (f & Hf & _ & Hb & Hv).
  rewrite (Hf 1), (Hf 5), (Hb 5), (Hv 1) by lra. split; f_equal; field.
Qed.

(** ** C39: logistic *)
Theorem C39_logistic :
  exists f, computes (logistic earith etransc) f /\ (forall x, f x = 1 / (1 + exp (- x))) /\
    (forall x, 0 < f x < 1) /\ strictly_increasing f /\ (forall x, f (- x) = 1 - f x) /\ f 0 = / 2 /\
    computes (logistic_deriv earith etransc) (fun x => f x * (1 - f x)) /\
    (forall x, derivable_pt_lim f x (f x * (1 - f x))) /\
    computes (log_logistic earith etransc) (fun x => ln (f x)) /\
    (forall x beta, swish earith etransc (Fin x) (Fin beta) = Fin (x * f (beta * x))).
Proof. exact @logistic_shape. Qed.
Print Assumptions C39_logistic.

Theorem C39_infinities :
  logistic earith etransc PInf = Fin 1 /\ logistic earith etransc NInf = Fin 0 /\
  logistic_deriv earith etransc PInf = Fin 0 /\ logistic_deriv earith etransc NInf = Fin 0 /\
  log_logistic earith etransc PInf = Fin 0 /\ log_logistic earith etransc NInf = NInf.
Proof. exact @logistic_inf. Qed.
Print Assumptions C39_infinities.

Theorem C39_logistic_ieee :
  forall (prec emax : Z) (Hp : Prec_gt_0 prec) (He : Prec_lt_emax prec emax) (TR : transc (binary_float prec emax)),
  (forall x, isnanb Bcompare x = false -> leb (@Bcompare prec emax) (a_ofZ (farith prec emax Hp He) 0) (t_exp TR x) = true) ->
  (forall x y, leb (@Bcompare prec emax) x y = true -> leb (@Bcompare prec emax) (t_exp TR x) (t_exp TR y) = true) ->
  forall x, isnanb Bcompare x = false ->
    leb (@Bcompare prec emax) (a_ofZ (farith prec emax Hp He) 0) (logistic (farith prec emax Hp He) TR x) = true /\ leb (@Bcompare prec emax) (logistic (farith prec emax Hp He) TR x) (a_ofZ (farith prec emax Hp He) 1) = true /\
    (forall y, leb (@Bcompare prec emax) x y = true -> leb (@Bcompare prec emax) (logistic (farith prec emax Hp He) TR x) (logistic (farith prec emax Hp He) TR y) = true).
Proof. exact @logistic_ieee. Qed.
Print Assumptions C39_logistic_ieee.

Theorem C39_swish_limit :
  forall eps, 0 < eps -> exists m, forall x, x < m ->
   exists v, swish earith etransc (Fin x) (Fin 1) = Fin v /\ Rabs v < eps.
Proof. exact @swish_limit. Qed.
Print Assumptions C39_swish_limit.

Theorem C39_swish_neginf_refuted :
  swish earith etransc NInf (Fin 1) = ENaN.
Proof. exact @swish_neginf_refuted. Qed.
Print Assumptions C39_swish_neginf_refuted.

Example C39_ex : logistic earith etransc (Fin (ln 3)) = Fin (3 / 4).
Proof.
  destruct logistic_shape as (f & Hf & Hv & _). rewrite (Hf (ln 3)), Hv. f_equal.
  rewrite <- ln_Rinv, exp_ln by lra. field.
Qed.

(** ** C40: the normal distribution *)
Theorem C40_consistent :
  forall (erfc erfcx : R -> R) (H : erfc_laws erfc erfcx),
  exists f, computes (normal_cdf earith (Fin (/ sqrt 2)) (lift1 erfc)) f /\ (forall x, f x = erfc (- (x / sqrt 2)) / 2) /\
    (forall x, 0 < f x < 1) /\ f 0 = / 2 /\
    computes (normal_sf earith (Fin (/ sqrt 2)) (lift1 erfc)) (fun x => 1 - f x) /\ (forall x, f (- x) = 1 - f x) /\
    computes (normal_logcdf earith etransc (Fin (/ sqrt 2)) (lift1 erfc) (lift1 erfcx)) (fun x => ln (f x)) /\
    computes (normal_logsf earith etransc (Fin (/ sqrt 2)) (lift1 erfc) (lift1 erfcx)) (fun x => ln (1 - f x)) /\
    ((forall a b, a < b -> erfc b < erfc a) -> strictly_increasing f).
Proof. exact @normal_consistent. Qed.
Print Assumptions C40_consistent.

Theorem C40_cdf_ieee :
  forall (prec emax : Z) (Hp : Prec_gt_0 prec) (He : Prec_lt_emax prec emax) (rs2 : binary_float prec emax) (erfc : binary_float prec emax -> binary_float prec emax),
  (2 < emax)%Z ->
  (forall x, isnanb Bcompare x = false -> leb (@Bcompare prec emax) (a_ofZ (farith prec emax Hp He) 0) (erfc x) = true /\ leb (@Bcompare prec emax) (erfc x) (a_ofZ (farith prec emax Hp He) 2) = true) ->
  is_finite rs2 = true -> B2R rs2 <> 0 ->
  forall x, isnanb Bcompare x = false ->
    leb (@Bcompare prec emax) (a_ofZ (farith prec emax Hp He) 0) (normal_cdf (farith prec emax Hp He) rs2 erfc x) = true /\ leb (@Bcompare prec emax) (normal_cdf (farith prec emax Hp He) rs2 erfc x) (a_ofZ (farith prec emax Hp He) 1) = true.
Proof. exact @normal_cdf_ieee. Qed.
Print Assumptions C40_cdf_ieee.

Example C40_ex : exists erfc erfcx, erfc_laws erfc erfcx /\ forall a b, a < b -> erfc b < erfc a.
Proof.
  do 2 eexists. split; [apply erfc_laws_inhabited|]. intros a b H. cbv beta.
  destruct logistic_shape as (f & Hf & _ & _ & Hi & _).
  assert (Hl : forall x, lgst x = f x) by (intros x; specialize (Hf x); rewrite logistic_val in Hf; injection Hf as ->; reflexivity).
  rewrite !Hl. pose proof (Hi (- (2 * b)) (- (2 * a)) ltac:(lra)). lra.
Qed.

(** ** C41: yeo_johnson *)
Theorem C41_inverse_left :
  forall x l,
  exists y,
   yeo_johnson earith etransc (Fin x) (Fin l) = Fin y /\ inv_yeo_johnson earith etransc (Fin y) (Fin l) = Fin x.
Proof. exact @inv_yj_left. Qed.
Print Assumptions C41_inverse_left.

Theorem C41_inverse_right :
  forall y l,
  yj_range y l -> exists x,
   inv_yeo_johnson earith etransc (Fin y) (Fin l) = Fin x /\ yeo_johnson earith etransc (Fin x) (Fin l) = Fin y.
Proof. exact @inv_yj_right. Qed.
Print Assumptions C41_inverse_right.

Theorem C41_increasing :
  forall l,
  exists f, computes (fun x => yeo_johnson earith etransc x (Fin l)) f /\ strictly_increasing f /\ f 0 = 0.
Proof. exact @yj_increasing. Qed.
Print Assumptions C41_increasing.

Theorem C41_outside :
  forall y l,
  (l < 0 -> 0 <= y -> 1 + l * y < 0 -> inv_yeo_johnson earith etransc (Fin y) (Fin l) = ENaN) /\
  (l < 0 -> 0 <= y -> 1 + l * y = 0 -> inv_yeo_johnson earith etransc (Fin y) (Fin l) = PInf) /\
  (2 < l -> y < 0 -> 1 - (2 - l) * y < 0 -> inv_yeo_johnson earith etransc (Fin y) (Fin l) = ENaN) /\
  (2 < l -> y < 0 -> 1 - (2 - l) * y = 0 -> inv_yeo_johnson earith etransc (Fin y) (Fin l) = NInf).
Proof. exact @inv_yj_outside. Qed.
Print Assumptions C41_outside.

Example C41_ex : ~ yj_range (-2) 3.
Proof. intros [_ H]. specialize (H ltac:(lra)). lra. Qed.
Example C41_ex2 : yj_range 5 (1 / 2) /\ inv_yeo_johnson earith etransc (Fin (-1)) (Fin 3) = NInf.
Proof.
  split; [split; intros; lra|]. destruct (inv_yj_outside (-1) 3) as (_ & _ & _ & H). apply H; lra.
Qed.

(** ** C42: pow1pm1 *)
Theorem C42_exact :
  forall x y,
  -1 < x -> pow1pm1 earith etransc (Fin x) (Fin y) = Fin (Rpower (1 + x) y - 1).
Proof. exact @pow1pm1_exact. Qed.
Print Assumptions C42_exact.

Theorem C42_limits :
  forall y,
  pow1pm1 earith etransc (Fin (-1)) (Fin y) =
    (if Rlt_dec y 0 then PInf else if Rlt_dec 0 y then Fin (-1) else Fin 0) /\
  (forall x, x < -1 -> pow1pm1 earith etransc (Fin x) (Fin y) = ENaN).
Proof. exact @pow1pm1_limits. Qed.
Print Assumptions C42_limits.

Theorem C42_inf_zero_refuted :
  pow1pm1 earith etransc PInf (Fin 0) = ENaN /\ epow PInf (Fin 0) = Fin 1.
Proof. exact @pow1pm1_inf_zero_refuted. Qed.
Print Assumptions C42_inf_zero_refuted.

Example C42_ex : pow1pm1 earith etransc (Fin 2) (Fin 2) = Fin 8.
Proof.
  rewrite pow1pm1_exact by lra. f_equal. replace 2 with (INR 2) at 2 by (simpl; ring).
  rewrite Rpower_pow by lra. simpl. ring.
Qed.

(** ** C43: next and nextn *)
Theorem C43_next_greater :
  forall (prec emax : Z) (Hp : Prec_gt_0 prec) (He : Prec_lt_emax prec emax) (x : binary_float prec emax),
  (is_nan x = true -> is_nan (next_greater prec emax Hp He x) = true) /\
  (x = B754_infinity false -> next_greater prec emax Hp He x = B754_infinity false) /\
  (ltb (@Bcompare prec emax) x (B754_infinity false) = true ->
     ltb (@Bcompare prec emax) x (next_greater prec emax Hp He x) = true /\ forall y, ltb (@Bcompare prec emax) x y = true -> leb (@Bcompare prec emax) (next_greater prec emax Hp He x) y = true).
Proof. exact @next_greater_ok. Qed.
Print Assumptions C43_next_greater.

Theorem C43_next_less :
  forall (prec emax : Z) (Hp : Prec_gt_0 prec) (He : Prec_lt_emax prec emax) (x : binary_float prec emax),
  (is_nan x = true -> is_nan (next_less prec emax Hp He x) = true) /\
  (x = B754_infinity true -> next_less prec emax Hp He x = B754_infinity true) /\
  (ltb (@Bcompare prec emax) (B754_infinity true) x = true ->
     ltb (@Bcompare prec emax) (next_less prec emax Hp He x) x = true /\ forall y, ltb (@Bcompare prec emax) y x = true -> leb (@Bcompare prec emax) y (next_less prec emax Hp He x) = true).
Proof. exact @next_less_ok. Qed.
Print Assumptions C43_next_less.

Theorem C43_mirror :
  forall (prec emax : Z) (Hp : Prec_gt_0 prec) (He : Prec_lt_emax prec emax) (x : binary_float prec emax),
  next_less prec emax Hp He x = Bopp (next_greater prec emax Hp He (Bopp x)).
Proof. exact @next_less_mirror. Qed.
Print Assumptions C43_mirror.

Theorem C43_round_trip :
  forall (prec emax : Z) (Hp : Prec_gt_0 prec) (He : Prec_lt_emax prec emax) (x : binary_float prec emax),
  ltb (@Bcompare prec emax) x (B754_infinity false) = true ->
     eqb (@Bcompare prec emax) (next_less prec emax Hp He (next_greater prec emax Hp He x)) x = true.
Proof. exact @next_less_greater. Qed.
Print Assumptions C43_round_trip.

Theorem C43_nextn_greater :
  forall (prec emax : Z) (Hp : Prec_gt_0 prec) (He : Prec_lt_emax prec emax) x (n : nat) mo po so,
  writable mo po so n ->
     exists ys, writes (nextn_greater_core_calc prec emax Hp He x (Z.of_nat n) mo po so) mo po so ys /\
       length ys = n /\ run_up x ys.
Proof. exact @nextn_greater_ok. Qed.
Print Assumptions C43_nextn_greater.

Theorem C43_nextn_less :
  forall (prec emax : Z) (Hp : Prec_gt_0 prec) (He : Prec_lt_emax prec emax) x (n : nat) mo po so,
  writable mo po so n ->
     exists ys, writes (nextn_less_core_calc prec emax Hp He x (Z.of_nat n) mo po so) mo po so ys /\
       length ys = n /\ run_down x ys.
Proof. exact @nextn_less_ok. Qed.
Print Assumptions C43_nextn_less.

(** from the largest double: inf, inf *)
Example C43_ex :
  let m := nextn_greater_core_calc f64_prec f64_emax f64_Hp f64_He (@Bmax_float f64_prec f64_emax f64_Hp f64_He) 2
             (mem_of 0 8 [f64_ofZ 0; f64_ofZ 0]) 0 8 in
  option_map (fun m => (option_map B2SF (m 0%Z), option_map B2SF (m 8%Z))) m
  = Some (Some (SpecFloat.S754_infinity false), Some (SpecFloat.S754_infinity false)).
Proof. vm_compute. reflexivity. Qed.

(** ** C44: special values *)
Theorem C44_nan_to_num :
  forall {T : Type} (A : arith T) x r,
  (isnanb (a_cmp A) x = true -> nan_to_num A x r = r) /\ (isnanb (a_cmp A) x = false -> nan_to_num A x r = x).
Proof. exact @nan_to_num_spec. Qed.
Print Assumptions C44_nan_to_num.

Theorem C44_hypot3 :
  forall {T : Type} (A : arith T) hypot x y z,
  (a_isinf A x = true \/ a_isinf A y = true \/ a_isinf A z = true -> hypot3 A hypot x y z = a_inf A) /\
  (a_isinf A x = false -> a_isinf A y = false -> a_isinf A z = false -> hypot3 A hypot x y z = hypot x y z).
Proof. exact @hypot3_spec. Qed.
Print Assumptions C44_hypot3.

Theorem C44_hypot3_nan :
  forall {T : Type} (A : arith T) hypot x y z,
  (isnanb (a_cmp A) x = true \/ isnanb (a_cmp A) y = true \/ isnanb (a_cmp A) z = true -> isnanb (a_cmp A) (hypot x y z) = true) ->
  isnanb (a_cmp A) x = true \/ isnanb (a_cmp A) y = true \/ isnanb (a_cmp A) z = true ->
  a_isinf A x = false -> a_isinf A y = false -> a_isinf A z = false -> isnanb (a_cmp A) (hypot3 A hypot x y z) = true.
Proof. exact @hypot3_nan. Qed.
Print Assumptions C44_hypot3_nan.

Theorem C44_trapezoid_nan :
  forall {T : Type} (A : arith T) (L : cmp_laws (a_cmp A)) (N : nan_prop A) x a b c d amp,
  isnanb (a_cmp A) x = true \/ isnanb (a_cmp A) a = true \/ isnanb (a_cmp A) b = true \/ isnanb (a_cmp A) c = true \/ isnanb (a_cmp A) d = true ->
     isnanb (a_cmp A) (trapezoid_pulse A x a b c d amp) = true.
Proof. exact @trapezoid_nan. Qed.
Print Assumptions C44_trapezoid_nan.

Theorem C44_steps_nan :
  forall {T : Type} (A : arith T) (N : nan_prop A) x a b fa fb,
  isnanb (a_cmp A) x = true \/ isnanb (a_cmp A) a = true \/ isnanb (a_cmp A) b = true -> eqb (a_cmp A) a b = false -> leb (a_cmp A) x a = false -> geb (a_cmp A) x b = false ->
     isnanb (a_cmp A) (linearstep A x a b fa fb) = true /\ isnanb (a_cmp A) (smoothstep3 A x a b fa fb) = true /\ isnanb (a_cmp A) (smoothstep5 A x a b fa fb) = true.
Proof. exact @steps_nan. Qed.
Print Assumptions C44_steps_nan.

(** deadzone turns NaN into 0 and step turns NaN into its value at the jump *)
Theorem C44_deadzone_nan :
  forall {T : Type} (A : arith T) (L : cmp_laws (a_cmp A)) x low high,
  isnanb (a_cmp A) x = true -> deadzone A x low high = a_ofZ A 0.
Proof. exact @deadzone_nan. Qed.
Print Assumptions C44_deadzone_nan.

Theorem C44_step_nan :
  forall {T : Type} (A : arith T) (L : cmp_laws (a_cmp A)) x a flow fa fhigh,
  isnanb (a_cmp A) x = true \/ isnanb (a_cmp A) a = true -> step A x a flow fa fhigh = fa.
Proof. exact @step_nan. Qed.
Print Assumptions C44_step_nan.

Theorem C44_deadzone_nan_refuted :
  exists x low high : f64, is_nan x = true /\ is_nan (deadzone f64_arith x low high) = false.
Proof. exists B754_nan, (f64_ofZ 0), (f64_ofZ 1). split; vm_compute; reflexivity. Qed.
Print Assumptions C44_deadzone_nan_refuted.

(** ** C45: hypot3, abs_squared, abssq *)
Theorem C45_hypot3_exact :
  forall x y z,
  hypot3 earith ehypot (Fin x) (Fin y) (Fin z) = Fin (sqrt (x ^ 2 + y ^ 2 + z ^ 2)).
Proof. exact @hypot3_exact. Qed.
Print Assumptions C45_hypot3_exact.

Theorem C45_hypot3_symmetric :
  forall x y z,
  hypot3 earith ehypot x y z = hypot3 earith ehypot y x z /\ hypot3 earith ehypot x y z = hypot3 earith ehypot x z y.
Proof. exact @hypot3_sym. Qed.
Print Assumptions C45_hypot3_symmetric.

Theorem C45_hypot3_abs :
  forall x y z,
  hypot3 earith ehypot (eabs (Fin x)) (eabs (Fin y)) (eabs (Fin z)) = hypot3 earith ehypot (Fin x) (Fin y) (Fin z).
Proof. exact @hypot3_abs. Qed.
Print Assumptions C45_hypot3_abs.

Theorem C45_abs_squared :
  forall a b,
  exists r, abs_squared_complex earith (Fin a, Fin b) = Fin r /\ cmulR (a, b) (conjR (a, b)) = (r, 0) /\
            0 <= r /\ (r = 0 <-> a = 0 /\ b = 0).
Proof. exact @abs_squared_exact. Qed.
Print Assumptions C45_abs_squared.

Theorem C45_abs_squared_real :
  forall a,
  exists r, abs_squared_real earith (Fin a) = Fin r /\ 0 <= r /\ sqrt r = Rabs a.
Proof. exact @abs_squared_real_exact. Qed.
Print Assumptions C45_abs_squared_real.

Theorem C45_abs_squared_real_ieee :
  forall (prec emax : Z) (Hp : Prec_gt_0 prec) (He : Prec_lt_emax prec emax) (x : binary_float prec emax) s,
  abs_squared_real (farith prec emax Hp He) x = abs_squared_complex (farith prec emax Hp He) (x, B754_zero s).
Proof. exact @abs_squared_real_complex. Qed.
Print Assumptions C45_abs_squared_real_ieee.

Theorem C45_abssq_real :
  forall {T : Type} (A : arith T) sz mi pi si x mo po so,
  view mi pi si x -> writable mo po so (length x) ->
  writes (abssq_real_loop A sz (Z.of_nat (length x)) mi pi si mo po so) mo po so (map (fun v => a_mul A v v) x).
Proof. exact @abssq_real_correct. Qed.
Print Assumptions C45_abssq_real.

Theorem C45_abssq_complex :
  forall {T : Type} (A : arith T) sz mi pi si (x : list (T * T)) mo po so,
  cview mi pi si sz x -> writable mo po so (length x) ->
  writes (abssq_complex_loop A sz (Z.of_nat (length x)) mi pi si mo po so) mo po so (map (abs_squared_complex A) x).
Proof. exact @abssq_complex_correct. Qed.
Print Assumptions C45_abssq_complex.

Example C45_ex : hypot3 earith ehypot (Fin 2) (Fin 3) (Fin 6) = Fin 7.
Proof.
  rewrite hypot3_exact. f_equal. replace (2 ^ 2 + 3 ^ 2 + 6 ^ 2) with (7 ^ 2) by ring. apply sqrt_pow2. lra.
Qed.
(** negative strides in, contiguous out *)
Example C45_ex_abssq :
  let m := abssq_complex_loop f64_arith 8 2 (mem_of 0 8 (map f64_ofZ [3; 4; 5; 12]%Z)) 16 (-16)
             (mem_of 0 8 [f64_ofZ 0; f64_ofZ 0]) 0 8 in
  option_map (fun m => (option_map B2SF (m 0%Z), option_map B2SF (m 8%Z))) m
  = Some (Some (B2SF (f64_ofZ 169)), Some (B2SF (f64_ofZ 25))).
Proof. vm_compute. reflexivity. Qed.

(** ** C46: deadzone and trapezoid_pulse *)
Theorem C46_deadzone :
  forall low high,
  low <= high ->
   exists f, computes (fun x => deadzone earith x (Fin low) (Fin high)) f /\
     (forall x, low <= x <= high -> f x = 0) /\
     (forall x, high <= x -> f x = x - high) /\ (forall x, x <= low -> f x = x - low) /\
     nondecreasing f /\ (forall x y, Rabs (f x - f y) <= Rabs (x - y)) /\
     (forall x, Rabs (f x) <= Rmax 0 (Rmax (low - x) (x - high))).
Proof. exact @deadzone_shape. Qed.
Print Assumptions C46_deadzone.

Theorem C46_deadzone_ieee :
  forall (prec emax : Z) (Hp : Prec_gt_0 prec) (He : Prec_lt_emax prec emax) (x y low high : binary_float prec emax),
  is_finite x = true -> is_finite y = true -> is_finite low = true -> is_finite high = true ->
  leb (@Bcompare prec emax) low high = true -> leb (@Bcompare prec emax) x y = true ->
  leb (@Bcompare prec emax) (deadzone (farith prec emax Hp He) x low high) (deadzone (farith prec emax Hp He) y low high) = true.
Proof. exact @deadzone_mono_F. Qed.
Print Assumptions C46_deadzone_ieee.

Theorem C46_trapezoid :
  forall a b c d amp,
  a <= b -> b <= c -> c <= d ->
   exists f, computes (fun x => trapezoid_pulse earith x (Fin a) (Fin b) (Fin c) (Fin d) (Fin amp)) f /\
     (forall x, x <= a \/ d <= x -> f x = 0) /\
     (forall x, a < x < d -> b <= x <= c -> f x = amp) /\
     (forall x, a < x < b -> exists t, 0 < t < 1 /\ x = a + t * (b - a) /\ f x = t * amp) /\
     (forall x, c < x < d -> exists t, 0 < t < 1 /\ x = d - t * (d - c) /\ f x = t * amp) /\
     (forall x, Rmin 0 amp <= f x <= Rmax 0 amp) /\
     (0 <= amp -> forall x y, x <= y -> y <= c -> y < d -> f x <= f y) /\
     (0 <= amp -> forall x y, b <= x -> a < x -> x <= y -> f y <= f x).
Proof. exact @trapezoid_shape. Qed.
Print Assumptions C46_trapezoid.

Theorem C46_trapezoid_bad :
  forall x a b c d amp,
  ~ (a <= b /\ b <= c /\ c <= d) ->
   trapezoid_pulse earith x (Fin a) (Fin b) (Fin c) (Fin d) amp = ENaN.
Proof. exact @trapezoid_bad. Qed.
Print Assumptions C46_trapezoid_bad.

Example C46_ex :
  trapezoid_pulse earith (Fin 1) (Fin 0) (Fin 2) (Fin 3) (Fin 4) (Fin 10) = Fin 5 /\
  deadzone earith (Fin 5) (Fin (-1)) (Fin 2) = Fin 3.
Proof.
  rewrite trapezoid_val, deadzone_val by lra. unfold rtrap, rdead. split; f_equal.
  - destruct (Rle_dec 1 0); [lra|]. destruct (Rle_dec 4 1); [lra|]. repeat destruct Rle_dec; try lra; destruct Rlt_dec; try lra; field.
  - repeat destruct Rlt_dec; lra.
Qed.
