(** Property theorems C59 (erfcx, normal_logcdf) and C40 (the normal distribution as an integral). *)
From Coq Require Import ZArith Reals List Bool Lia Lra.
From Verif Require Import CSem Num M_Erfcx M_Elem S_Special S_Elem S_Erf P_Erf P_ErfcxR P_Erfcx P_NormalCdf.
Import ListNotations.
Open Scope R_scope.

(** ** C59.  [is_erfcx x v]: v = exp(x^2) 2/sqrt(pi) int_x^oo exp(-s^2) ds.  Every number has exactly one. *)
Theorem C59_erfcx_exists_unique : forall x, exists v, is_erfcx x v /\ 0 < v /\ forall w, is_erfcx x w -> w = v.
Proof.
  intros x. exists (erfcxR x). split; [now apply is_erfcx_eq|]. split; [apply erfcxR_pos|]. intros w H. now apply is_erfcx_eq in H.
Qed.
Print Assumptions C59_erfcx_exists_unique.

(** the three versions, with exact arithmetic, literals read as the decimals they are *)
Theorem C59_float :
  forall x v,
  is_erfcx x v -> - (9382413 / 10 ^ 6) <= x ->
   exists r, erfcx_float earith elit etoint eexp (Fin x) = ret (Fin r) /\ Rabs (r - v) <= 265 / 10 ^ 9 * v /\ (x <= 5 -> Rabs (r - v) <= 365 / 10 ^ 10 * v).
Proof. exact @erfcx_float_accurate. Qed.
Print Assumptions C59_float.
Theorem C59_double :
  forall x v,
  is_erfcx x v -> - (26628735713751485 / 10 ^ 15) <= x ->
   exists r, erfcx_double earith elit etoint eexp (Fin x) = ret (Fin r) /\ Rabs (r - v) <= 383 / 10 ^ 19 * v /\ (x <= 50 -> Rabs (r - v) <= 167 / 10 ^ 19 * v).
Proof. exact @erfcx_double_accurate. Qed.
Print Assumptions C59_double.
Theorem C59_longdouble :
  forall x v,
  is_erfcx x v -> - (10656373801210984173 / 10 ^ 17) <= x ->
   exists r, erfcx_longdouble earith elit etoint eexp (Fin x) = ret (Fin r) /\ Rabs (r - v) <= 551 / 10 ^ 22 * v.
Proof. exact @erfcx_longdouble_accurate. Qed.
Print Assumptions C59_longdouble.
Example C59_ex : is_erfcx 0 1 /\ - (26628735713751485 / 10 ^ 15) <= 0.
Proof. split; [apply is_erfcx_eq; symmetry; apply erfcxR_0|lra]. Qed.
Example C59_ex_values : exists v, is_erfcx 7 v /\ exists r, erfcx_double earith elit etoint eexp (Fin 7) = ret (Fin r) /\ Rabs (r - v) <= 167 / 10 ^ 19 * v.
Proof.
  exists (erfcxR 7). split; [now apply is_erfcx_eq|].
  destruct (erfcx_double_accurate 7 (erfcxR 7)) as (r & E & _ & A); [now apply is_erfcx_eq|lra|]. exists r. split; [exact E|apply A; lra].
Qed.
(** below the lower limit of a type the answer is +inf, and the exact value is at most slightly inside the range *)
Theorem C59_overflow :
  forall x v,
  is_erfcx x v ->
   (x < - (9382413 / 10 ^ 6) -> erfcx_float earith elit etoint eexp (Fin x) = ret PInf /\ (1 - 19 / 10 ^ 6) * powerRZ 2 128 - 1 <= v) /\
   (x < - (26628735713751485 / 10 ^ 15) -> erfcx_double earith elit etoint eexp (Fin x) = ret PInf /\ (1 - 25 / 10 ^ 14) * powerRZ 2 1024 - 1 <= v) /\
   (x < - (10656373801210984173 / 10 ^ 17) -> erfcx_longdouble earith elit etoint eexp (Fin x) = ret PInf /\ (1 - 14 / 10 ^ 16) * powerRZ 2 16384 - 1 <= v).
Proof. exact @erfcx_overflow. Qed.
Print Assumptions C59_overflow.
Theorem C59_special :
  (forall f, f = erfcx_float earith elit etoint eexp \/ f = erfcx_double earith elit etoint eexp \/ f = erfcx_longdouble earith elit etoint eexp ->
    f (Fin 0) = ret (Fin 1) /\ f PInf = ret (Fin 0) /\ f NInf = ret PInf).
Proof. exact @erfcx_special. Qed.
Print Assumptions C59_special.
(** erfcx(NaN) converts NaN to int *)
Theorem C59_nan_refuted :
  erfcx_float earith elit etoint eexp ENaN = ub /\ erfcx_double earith elit etoint eexp ENaN = ub /\ erfcx_longdouble earith elit etoint eexp ENaN = ub.
Proof. exact @erfcx_nan_refuted. Qed.
Print Assumptions C59_nan_refuted.
(** the float version changes to the continued fraction too early: just above 5 it is off by more than 2^-23 *)
Theorem C59_float_five_refuted :
  exists x v r, 5 < x /\ is_erfcx x v /\ erfcx_float earith elit etoint eexp (Fin x) = ret (Fin r) /\ / 2 ^ 23 * v < Rabs (r - v).
Proof. exact @erfcx_float_five_refuted. Qed.
Print Assumptions C59_float_five_refuted.

(** normal_logcdf with this erfcx: the exact logarithm at a point x' next to x (RECIP_SQRT2 has 37 digits), up to a small error *)
Theorem C59_logcdf_double :
  forall erfc x,
  exact_erfc erfc ->
   exists x' r, Rabs (x' - x) <= 2 / 10 ^ 37 * Rabs x /\ logcdf_with earith elit (lift1 erfc) elog elog1p (erfcx_double earith elit etoint eexp) (Fin x) = ret (Fin r) /\
     (forall v, is_normal_cdf x' v -> 0 < v /\ Rabs (r - ln v) <= 8 / 10 ^ 17).
Proof. exact @logcdf_double. Qed.
Print Assumptions C59_logcdf_double.
Theorem C59_logcdf_float :
  forall erfc x,
  exact_erfc erfc ->
   exists x' r, Rabs (x' - x) <= 2 / 10 ^ 37 * Rabs x /\ logcdf_with earith elit (lift1 erfc) elog elog1p (erfcx_float earith elit etoint eexp) (Fin x) = ret (Fin r) /\
     (forall v, is_normal_cdf x' v -> 0 < v /\ Rabs (r - ln v) <= 53 / 10 ^ 8).
Proof. exact @logcdf_float. Qed.
Print Assumptions C59_logcdf_float.
Theorem C59_logcdf_longdouble :
  forall erfc x,
  exact_erfc erfc ->
   exists x' r, Rabs (x' - x) <= 2 / 10 ^ 37 * Rabs x /\ logcdf_with earith elit (lift1 erfc) elog elog1p (erfcx_longdouble earith elit etoint eexp) (Fin x) = ret (Fin r) /\
     (forall v, is_normal_cdf x' v -> 0 < v /\ Rabs (r - ln v) <= 12 / 10 ^ 20).
Proof. exact @logcdf_longdouble. Qed.
Print Assumptions C59_logcdf_longdouble.
Theorem C59_logsf_double :
  forall erfc x,
  exact_erfc erfc ->
   exists x' r, Rabs (x' - x) <= 2 / 10 ^ 37 * Rabs x /\ logsf_with earith elit (lift1 erfc) elog elog1p (erfcx_double earith elit etoint eexp) (Fin x) = ret (Fin r) /\
     (forall v, is_normal_cdf x' v -> v < 1 /\ Rabs (r - ln (1 - v)) <= 8 / 10 ^ 17).
Proof. exact @logsf_double. Qed.
Print Assumptions C59_logsf_double.
Theorem C59_logcdf_special :
  forall erfc,
  let f := logcdf_with earith elit erfc elog elog1p (erfcx_double earith elit etoint eexp) in
   f NInf = ret NInf /\ (erfc PInf = Fin 0 -> f PInf = ret (Fin 0)) /\ (erfc ENaN = ENaN -> f ENaN = ret ENaN).
Proof. exact @logcdf_special. Qed.
Print Assumptions C59_logcdf_special.
Example C59_erfc_exists : exact_erfc erfcR.
Proof. exact exact_erfc_exists. Qed.
Example C59_cdf_exists : forall x, exists v, is_normal_cdf x v.
Proof. intros x. exists (PhiR x). apply is_cdf_PhiR. Qed.

(** ** C40: normal_cdf is the integral of the normal density *)
Theorem C40_integral :
  forall erfc x v,
  exact_erfc erfc -> is_normal_cdf x v ->
   normal_cdf earith (Fin (/ sqrt 2)) (lift1 erfc) (Fin x) = Fin v /\
   normal_sf earith (Fin (/ sqrt 2)) (lift1 erfc) (Fin x) = Fin (1 - v) /\
   0 < v < 1.
Proof. exact @normal_integral. Qed.
Print Assumptions C40_integral.
