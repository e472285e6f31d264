(** * S_RampF: the hyperbolic ramp as a real function *)
From Coq Require Import Reals.
Open Scope R_scope.

(** the smooth ramp with parameter [a]; the plain ramp max(x, 0) for a = 0 *)
Definition hyp_ramp (a x : R) : R := (x + sqrt (x ^ 2 + 4 * a ^ 2)) / 2.
