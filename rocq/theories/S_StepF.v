(** * S_StepF: the step functions, variograms and the trapezoidal pulse as real functions *)
From Coq Require Import Reals.
Open Scope R_scope.

(** the fraction of the way from [a] to [b] *)
Definition frac (a b x : R) : R := (x - a) / (b - a).
(** a transition from [fa] to [fb] over [a], [b] with profile [p] *)
Definition transition (p : R -> R) (a b fa fb x : R) : R :=
  if Rle_dec x a then fa else if Rle_dec b x then fb else fa + (fb - fa) * p (frac a b x).
Definition ramp_profile (t : R) : R := t.
Definition cubic_profile (t : R) : R := t ^ 2 * (3 - 2 * t).
Definition quintic_profile (t : R) : R := t ^ 3 * (6 * t ^ 2 - 15 * t + 10).
(** a variogram that rises from [nugget] to [sill] over [range] with profile [p] *)
Definition variogram (p : R -> R) (nugget sill range h : R) : R :=
  if Rlt_dec range h then sill else nugget + (sill - nugget) * p (h / range).
Definition spherical_profile (t : R) : R := t * (3 - t ^ 2) / 2.
Definition parabolic_profile (t : R) : R := t * (2 - t).
(** the pulse: 0 outside [a], [d], [amp] on [b], [c], lines in between *)
Definition trapezoid (a b c d amp x : R) : R :=
  if Rle_dec x a then 0 else if Rle_dec d x then 0
  else if Rlt_dec x b then amp * frac a b x
  else if Rlt_dec c x then amp * frac d c x
  else amp.
