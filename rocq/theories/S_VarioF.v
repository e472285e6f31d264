(** * S_VarioF: the exponential variogram as a real function *)
From Coq Require Import Reals.
Open Scope R_scope.

(** from [nugget] towards [sill], 95% of the way at [range] *)
Definition exp_variogram (nugget sill range h : R) : R := nugget + (sill - nugget) * (1 - exp (- 3 * h / range)).
