(** * M_Log1p: the complex log1p functions (src/log1p/log1p_ufunc.c)

    Functions over [arith T]; libm functions are parameters.  A complex number is the pair of its
    parts.  The branches for Microsoft C (lines 52-116) are left out, and [split] is modelled
    without FP_FAST_FMA (not defined for x86-64 baseline). *)
From Coq Require Import ZArith Bool List.
From Verif Require Import CSem Num.
Import ListNotations.
Open Scope Z_scope.

Section DoubleDouble.
  Context {T : Type} (A : arith T).
  Local Notation lt := (ltb (a_cmp A)).
  Local Notation gt := (gtb (a_cmp A)).
  Local Notation eq := (eqb (a_cmp A)).
  Local Notation "# z" := (a_ofZ A z) (at level 1, format "# z").
  Local Infix "+" := (a_add A).
  Local Infix "-" := (a_sub A).
  Local Infix "*" := (a_mul A).
  Local Infix "/" := (a_div A).

  (** src/log1p/log1p_ufunc.c:169-174  [doubledouble_t]: (upper, lower) *)
  Definition doubledouble := (T * T)%type.

  (** log1p_ufunc.c:176-183 *)
  Definition two_sum_quick (x y : T) : doubledouble :=
    let r := x + y in
    let e := y - (r - x) in
    (r, e).

  (** log1p_ufunc.c:185-193 *)
  Definition two_sum (x y : T) : doubledouble :=
    let s := x + y in
    let v := s - x in
    let e := (x - (s - v)) + (y - v) in
    (s, e).

  (** log1p_ufunc.c:195-202 *)
  Definition double_sum (x y : doubledouble) : doubledouble :=
    let '(upper, lower) := two_sum (fst x) (fst y) in
    let lower := lower + (snd x + snd y) in
    two_sum_quick upper lower.

  (** log1p_ufunc.c:218-228 *)
  Definition split (x : T) : doubledouble :=
    let t := #(2 ^ 27 + 1) * x in
    let upper := t - (t - x) in
    (upper, x - upper).

  (** log1p_ufunc.c:230-239 *)
  Definition square (x : T) : doubledouble :=
    let upper := x * x in
    let '(xu, xl) := split x in
    (upper, ((xu * xu - upper) + #2 * xu * xl) + xl * xl).

  (** log1p_ufunc.c:248-260 *)
  Definition xsquared_plus_2x_plus_ysquared (x y : T) : T :=
    let x2 := square x in
    let y2 := square y in
    let twox := (#2 * x, #0) in
    let sum1 := double_sum x2 twox in
    let sum2 := double_sum sum1 y2 in
    fst sum2.

  (** log1p_ufunc.c:268-296; the literals 2.2, 0.2, 1.2, 0.4, 0.5 are correctly rounded quotients *)
  Definition log1p_doubledouble (log log1p : T -> T) (hypot atan2 : T -> T -> T) (z : T * T) : T * T :=
    let '(x, y) := z in
    let lnr :=
      if gt x (#(-22) / #10) && lt x (#2 / #10) && gt y (#(-12) / #10) && lt y (#12 / #10) then
        if lt (a_abs A (x * (#2 + x) + y * y)) (#4 / #10) then
          #1 / #2 * log1p (xsquared_plus_2x_plus_ysquared x y)
        else log (hypot (x + #1) y)
      else log (hypot (x + #1) y) in
    (lnr, atan2 y (x + #1)).

  (** log1p_ufunc.c:139-159  [log1p_theorem4] (118-137 is the same for float).  [cmul], [cdiv]: the
      compiler's complex multiplication and division. *)
  Definition log1p_theorem4 (clog : T * T -> T * T) (cmul cdiv : T * T -> T * T -> T * T) (z : T * T) : T * T :=
    let u := (fst z + #1, snd z) in
    if eq (fst u) #1 && eq (snd u) #0 then z
    else if eq (fst u - #1) (fst z) then clog u
    else cmul (clog u) (cdiv z (fst u - #1, snd u)).

  (** log1p_ufunc.c:342-430: the body of the four loops; NaN in a part gives (NaN, NaN) *)
  Definition nan_guard (f : T * T -> T * T) (z : T * T) : T * T :=
    if isnanb (a_cmp A) (fst z) || isnanb (a_cmp A) (snd z) then (a_nan A, a_nan A) else f z.
End DoubleDouble.

(** log1p_ufunc.c:304-334  [log1pf_doubledouble]: float, with a part in double.  [up], [down]: the
    conversions; [logd], [log1pd] are the double functions, [logf], [hypotf], [atan2f] the float ones. *)
Section Float.
  Context {T D : Type} (A : arith T) (AD : arith D) (up : T -> D) (down : D -> T).
  Local Notation lt := (ltb (a_cmp A)).
  Local Notation gt := (gtb (a_cmp A)).
  Local Notation "# z" := (a_ofZ A z) (at level 1, format "# z").
  Local Infix "+" := (a_add A).
  Local Infix "*" := (a_mul A).
  Local Infix "/" := (a_div A).
  (** x_d*x_d + 2*x_d + y_d*y_d, line 324 *)
  Definition xsq_float (xd yd : D) : D :=
    a_add AD (a_add AD (a_mul AD xd xd) (a_mul AD (a_ofZ AD 2) xd)) (a_mul AD yd yd).
  Definition log1pf_doubledouble (logd log1pd : D -> D) (logf : T -> T) (hypotf atan2f : T -> T -> T) (z : T * T) : T * T :=
    let '(x, y) := z in
    let lnr :=
      if gt x (#(-22) / #10) && lt x (#2 / #10) && gt y (#(-12) / #10) && lt y (#12 / #10) then
        if lt (a_abs A (x * (#2 + x) + y * y)) (#4 / #10) then
          down (a_mul AD (a_div AD (a_ofZ AD 1) (a_ofZ AD 2)) (log1pd (xsq_float (up x) (up y))))
        else logf (hypotf (x + #1) y)
      else down (logd (up (hypotf (x + #1) y))) in
    (lnr, atan2f y (x + #1)).
End Float.

(** A unary ufunc loop with an npy_intp counter: log1p_ufunc.c:342-430,
    src/logfactorial/logfactorial_ufunc.c:30-69, src/loggamma1p/loggamma1p_ufunc.c,
    src/debye1/debye1_ufunc.c:19-45.  The pointers after i increments are p + i*step. *)
Definition unary_loop {T U} (f : T -> M U) (m : mem T) (p : Z) (n step : Z) (pout ostep : Z) (out : mem U) : M (mem U) :=
  for_each 0 n (fun i out =>
    x <- get m p step i ;;
    y <- f x ;;
    set out pout ostep i y) out.
