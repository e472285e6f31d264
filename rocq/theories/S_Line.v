(** * S_Line: error bounds for a line through two points and for a 2x2 determinant *)
From Coq Require Import ZArith Reals List.
From Flocq Require Import Core BinarySingleNaN Relative.
From Verif Require Import CSem Num S_Signal.
Import ListNotations.
Open Scope R_scope.

(** half the spacing of the subnormal numbers *)
Definition half_eta (prec emax : Z) : R := / 2 * bpow radix2 (3 - emax - prec).
(** the error allowed for the value [y] of a line that leaves (x0, [y0]); [g] scales the
    underflow term *)
Definition line_err (prec emax : Z) (y0 y g : R) : R :=
  let u := u_ro radix2 prec in
  u * Rabs y + ((1 + u) ^ 7 - 1) * Rabs (y - y0) + (1 + u) ^ 3 * (g + 1) * half_eta prec emax.
(** the error allowed for a sum or difference of the products [s] and [t] *)
Definition prod2_err (prec emax : Z) (s t : R) : R :=
  let u := u_ro radix2 prec in
  ((1 + u) ^ 2 - 1) * (Rabs s + Rabs t) + 2 * (1 + u) * half_eta prec emax.

(** [v] is close to the value at [x] of the piecewise linear function through the nodes, unless
    the distance of the two nodes around [x] overflows; [scale x0 y0 x1 y1 x] *)
Definition interp_close (prec emax : Z) (Hp : Prec_gt_0 prec) (He : Prec_lt_emax prec emax)
    (scale : R -> R -> R -> R) (xs fs : list (binary_float prec emax)) (x v : binary_float prec emax) : Prop :=
  forall k x0 x1 y0 y1 y,
    nth_error xs k = Some x0 -> nth_error xs (k + 1) = Some x1 ->
    nth_error fs k = Some y0 -> nth_error fs (k + 1) = Some y1 ->
    ltb (@Bcompare prec emax) x0 x = true -> ltb (@Bcompare prec emax) x x1 = true ->
    is_finite (Bminus mode_NE x1 x0) = true -> is_finite v = true ->
    on_line (B2R x0) (B2R y0) (B2R x1) (B2R y1) (B2R x) y ->
    Rabs (B2R v - y) <= line_err prec emax (B2R y0) y (scale (B2R x - B2R x0) (B2R y0) (B2R y1)).
