(** * S_Log1pE: what the log1p functions are expected to compute in IEEE double *)
From Coq Require Import ZArith Reals.
From Flocq Require Import Core BinarySingleNaN.
From Verif Require Import Num S_Log1p.
Open Scope R_scope.

(** an argument of a + bi, on the side of the cut given by the sign [s] of a zero b *)
Definition is_arg (a b : R) (s : bool) (t : R) : Prop :=
  - PI <= t <= PI /\ (exists r, 0 < r /\ a = r * cos t /\ b = r * sin t) /\ (b = 0 -> a < 0 -> t = if s then - PI else PI).
(** the C library's hypot and atan2 in double, up to one unit in the last place *)
Definition good_hypot (f : f64 -> f64 -> f64) : Prop := forall a b, is_finite a = true -> is_finite b = true ->
  let h := sqrt (B2R a * B2R a + B2R b * B2R b) in h <= pow2 1000 ->
  is_finite (f a b) = true /\ Rabs (B2R (f a b) - h) <= pow2 (-52) * h + pow2 (-1074).
Definition good_atan2 (f : f64 -> f64 -> f64) : Prop := forall a b t, is_finite a = true -> is_finite b = true -> is_arg (B2R a) (B2R b) (Bsign b) t ->
  is_finite (f b a) = true /\ Rabs (B2R (f b a) - t) <= pow2 (-52) * Rabs t + pow2 (-1074).

(** single precision, and the conversions of src/log1p/log1p_ufunc.c:322-324 *)
Definition f32 := binary_float f32_prec f32_emax.
Definition f32_Hp : Prec_gt_0 f32_prec := eq_refl.
Definition f32_He : Prec_lt_emax f32_prec f32_emax := eq_refl.
Definition f32_arith : arith f32 := farith f32_prec f32_emax f32_Hp f32_He.
Definition f32_to_f64 (x : f32) : f64 := fconv f64_prec f64_emax f64_Hp f64_He x.
Definition f64_to_f32 (x : f64) : f32 := fconv f32_prec f32_emax f32_Hp f32_He x.
