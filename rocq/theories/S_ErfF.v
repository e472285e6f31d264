(** * S_ErfF: the C library's exp in IEEE double, up to one unit in the last place *)
From Coq Require Import ZArith Reals.
From Flocq Require Import Core BinarySingleNaN.
From Verif Require Import Num.
Open Scope R_scope.

(** on nonnegative arguments, wherever the exact value is at most 2^1023 *)
Definition good_exp (f : f64 -> f64) : Prop :=
  forall z : f64, is_finite z = true -> 0 <= B2R z -> exp (B2R z) <= bpow radix2 1023 ->
    is_finite (f z) = true /\ Rabs (B2R (f z) - exp (B2R z)) <= bpow radix2 (-52) * exp (B2R z).
