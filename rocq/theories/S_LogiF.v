(** * S_LogiF: the logistic function, and functions of the C library known up to [K] half units in the last place *)
From Coq Require Import ZArith Reals.
From Flocq Require Import Core BinarySingleNaN Relative.
From Verif Require Import S_Line.
Open Scope R_scope.

(** [f x] is finite and within K/2 units in the last place of [g x] (one subnormal spacing near 0);
    K = 2 is an error below one unit *)
Definition libm_close {prec emax : Z} (K : R) (g : R -> R) (f : binary_float prec emax -> binary_float prec emax)
    (x : binary_float prec emax) : Prop :=
  is_finite (f x) = true /\
  Rabs (B2R (f x) - g (B2R x)) <= K * u_ro radix2 prec * Rabs (g (B2R x)) + 2 * half_eta prec emax.

Definition log1pR (t : R) : R := ln (1 + t).
Definition sigmoid (x : R) : R := 1 / (1 + exp (- x)).
