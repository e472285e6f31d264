(** * M_Elem: model of the elementwise functions (step, ramp, semivar, logistic,
    normal, yeo_johnson, pow1pm1, deadzone, trapezoid_pulse, hypot3,
    abs_squared, abssq, nan_to_num, next, nextn).

    Each is a C++ template over a floating type [T]; here it is a function over
    [arith T] (and [transc T], or explicit parameters, for libm functions).
    Simplifications: mixed expressions with a double or long double literal
    (1.0/z, 2.0 - hor, LN2, RECIP_SQRT2) are evaluated in [T]: for T = float or
    double C++ evaluates them in the wider type and rounds to T afterwards.
    In the exact instance [ER] the two agree. *)

From Coq Require Import ZArith Reals List Bool.
From Flocq Require Import Core BinarySingleNaN.
From Verif Require Import CSem Num.
Import ListNotations.
Open Scope Z_scope.

Section Elem.
  Context {T : Type} (A : arith T).
  Local Notation cmp := (a_cmp A).
  Local Notation lt := (ltb (a_cmp A)).
  Local Notation le := (leb (a_cmp A)).
  Local Notation gt := (gtb (a_cmp A)).
  Local Notation ge := (geb (a_cmp A)).
  Local Notation eq := (eqb (a_cmp A)).
  Local Notation isnan := (isnanb (a_cmp A)).
  Local Notation "# z" := (a_ofZ A z) (at level 1, format "# z").
  Local Infix "+" := (a_add A).
  Local Infix "-" := (a_sub A).
  Local Infix "*" := (a_mul A).
  Local Infix "/" := (a_div A).
  Local Notation "- x" := (a_opp A x).
  Local Notation sqrt := (a_sqrt A).
  Local Notation NaN := (a_nan A).

  (** src/step/step.h:10-22  [step] *)
  Definition step (x a flow fa fhigh : T) : T :=
    if lt x a then flow else if gt x a then fhigh else fa.

  (** src/step/step.h:24-41  [linearstep] *)
  Definition linearstep (x a b fa fb : T) : T :=
    if gt a b then NaN
    else if le x a then fa
    else if ge x b then fb
    else if eq a b then (fa + fb) / #2
    else let u := (x - a) / (b - a) in
         fa * (#1 - u) + fb * u.

  (** src/step/step.h:51-68  [smoothstep3] *)
  Definition smoothstep3 (x a b fa fb : T) : T :=
    if gt a b then NaN
    else if le x a then fa
    else if ge x b then fb
    else if eq a b then (fa + fb) / #2
    else let u := (x - a) / (b - a) in
         fa + (fb - fa) * u * u * (#3 - #2 * u).

  (** src/step/step.h:70-100  [invsmoothstep3]; [sin], [asin] are libm's.  The
      literal 0.5 is 1/2 (exact in every format). *)
  Definition invsmoothstep3 (sin asin : T -> T) (y a b fa fb : T) : T :=
    if eq fa fb then NaN
    else if eq y fa then a
    else if eq y fb then b
    else
      let '(upper, lower) := if lt fa fb then (fb, fa) else (fa, fb) in
      if gt y upper || lt y lower then NaN
      else
        let t := (y - fa) / (fb - fa) in
        let s := #1 / #2 - sin (asin (#1 - #2 * t) / #3) in
        a + (b - a) * s.

  (** src/step/step.h:103-120  [smoothstep5] *)
  Definition smoothstep5 (x a b fa fb : T) : T :=
    if gt a b then NaN
    else if le x a then fa
    else if ge x b then fb
    else if eq a b then (fa + fb) / #2
    else let u := (x - a) / (b - a) in
         fa + (fb - fa) * u * u * u * (u * (#6 * u - #15) + #10).

  (** src/ramp/ramp.h:20-41  [std_hyperbolic_ramp] *)
  Definition std_hyperbolic_ramp (x : T) : T :=
    if eq x #0 then #1
    else
      let z := x / #2 in
      if ge z #1 then z * (#1 + sqrt (#1 + #1 / (z * z)))
      else if gt z #0 then z + sqrt (z * z + #1)
      else if gt z #(-1) then #1 / (sqrt (z * z + #1) - z)
      else (#(-1)) / z / (sqrt (#1 + #1 / (z * z)) + #1).

  (** src/ramp/ramp.h:59-69  [hyperbolic_ramp] *)
  Definition hyperbolic_ramp (x a : T) : T :=
    if eq a #0 then (if lt x #0 then #0 else x)
    else if lt a #0 then NaN
    else a * std_hyperbolic_ramp (x / a).

  Context (TR : transc T).

  (** src/ramp/ramp.h:72-91  [std_exponential_ramp]; [ln2] is the macro LN2. *)
  Definition std_exponential_ramp (ln2 x : T) : T :=
    if eq x #0 then #1
    else if gt x #0 then x + t_log1p TR (t_pow TR #2 (- x)) / ln2
    else t_log1p TR (t_pow TR #2 x) / ln2.

  (** src/ramp/ramp.h:94-104  [exponential_ramp] *)
  Definition exponential_ramp (ln2 x a : T) : T :=
    if eq a #0 then (if lt x #0 then #0 else x)
    else if lt a #0 then NaN
    else a * std_exponential_ramp ln2 (x / a).

  (** src/semivar/semivar.h:6-10  [semivar_exponential] *)
  Definition semivar_exponential (h nugget sill range : T) : T :=
    nugget + (sill - nugget) * (#1 - t_exp TR (#(-3) * h / range)).

  (** src/semivar/semivar.h:12-25  [semivar_linear] *)
  Definition semivar_linear (h nugget sill range : T) : T :=
    if gt h range then sill
    else let slope := (sill - nugget) / range in nugget + slope * h.

  (** src/semivar/semivar.h:27-40  [semivar_spherical] *)
  Definition semivar_spherical (h nugget sill range : T) : T :=
    if gt h range then sill
    else let hor := h / range in
         nugget + (sill - nugget) * (hor / #2) * (#3 - hor * hor).

  (** src/semivar/semivar.h:42-55  [semivar_parabolic] *)
  Definition semivar_parabolic (h nugget sill range : T) : T :=
    if gt h range then sill
    else let hor := h / range in
         nugget + (sill - nugget) * hor * (#2 - hor).

  (** src/logistic/logistic.h:7-11  [logistic] *)
  Definition logistic (x : T) : T := #1 / (#1 + t_exp TR (- x)).

  (** src/logistic/logistic.h:14-18  [logistic_deriv] *)
  Definition logistic_deriv (x : T) : T := logistic x * logistic (- x).

  (** src/logistic/logistic.h:21-30  [log_logistic] *)
  Definition log_logistic (x : T) : T :=
    if lt x #0 then x - t_log1p TR (t_exp TR x)
    else - t_log1p TR (t_exp TR (- x)).

  (** src/logistic/logistic.h:33-37  [swish] *)
  Definition swish (x beta : T) : T := x * logistic (beta * x).

  (** src/normal/normal.h:11-25  [normal_cdf]; [rs2] is RECIP_SQRT2, [erfc] is libm's. *)
  Definition normal_cdf (rs2 : T) (erfc : T -> T) (x : T) : T :=
    if isnan x then NaN
    else
      let x2 := x * rs2 in
      if gt x2 #0 then #1 - erfc x2 / #2
      else erfc (- x2) / #2.

  (** src/normal/normal.h:33-38  [normal_sf] *)
  Definition normal_sf (rs2 : T) (erfc : T -> T) (x : T) : T := normal_cdf rs2 erfc (- x).

  (** src/normal/normal.h:63-73  [normal_logcdf]; [erfcx] is src/normal/erfcx_funcs.h's. *)
  Definition normal_logcdf (rs2 : T) (erfc erfcx : T -> T) (x : T) : T :=
    let t := x * rs2 in
    if lt x #(-1) then t_log TR (erfcx (- t) / #2) - t * t
    else t_log1p TR (- erfc t / #2).

  (** src/normal/normal.h:80-85  [normal_logsf] *)
  Definition normal_logsf (rs2 : T) (erfc erfcx : T -> T) (x : T) : T :=
    normal_logcdf rs2 erfc erfcx (- x).

  (** src/yeo_johnson/yeo_johnson.h:7-26  [yeo_johnson] *)
  Definition yeo_johnson (x lmbda : T) : T :=
    if ge x #0 then
      if eq lmbda #0 then t_log1p TR x
      else t_expm1 TR (lmbda * t_log1p TR x) / lmbda
    else
      if eq lmbda #2 then - t_log1p TR (- x)
      else let twoml := #2 - lmbda in
           - t_expm1 TR (twoml * t_log1p TR (- x)) / twoml.

  (** src/yeo_johnson/yeo_johnson.h:28-60  [inv_yeo_johnson] *)
  Definition inv_yeo_johnson (x lmbda : T) : T :=
    if ge x #0 then
      if eq lmbda #0 then t_expm1 TR x
      else if lt lmbda #0 && ge x (#(-1) / lmbda) then
        (if gt x (#(-1) / lmbda) then NaN else a_inf A)
      else t_expm1 TR (t_log1p TR (lmbda * x) / lmbda)
    else
      if eq lmbda #2 then - t_expm1 TR (- x)
      else
        let twoml := #2 - lmbda in
        if gt lmbda #2 && le x (#1 / twoml) then
          (if lt x (#1 / twoml) then NaN else - a_inf A)
        else - t_expm1 TR (t_log1p TR (- twoml * x) / twoml).

  (** src/pow1pm1/pow1pm1.h:11-18  [pow1pm1] *)
  Definition pow1pm1 (x y : T) : T :=
    if eq x #(-1) && eq y #0 then #0
    else t_expm1 TR (y * t_log1p TR x).

  (** src/deadzone/deadzone.h:4-16  [deadzone] *)
  Definition deadzone (x low high : T) : T :=
    if lt x low then x - low
    else if gt x high then x - high
    else #0.

  (** src/trapezoid_pulse/trapezoid_pulse.h:7-29  [trapezoid_pulse] *)
  Definition trapezoid_pulse (x a b c d amp : T) : T :=
    if negb (le a b && le b c && le c d) then NaN
    else if le x a || ge x d then #0
    else if ge x b && le x c then amp
    else if lt x b then amp * ((x - a) / (b - a))
    else amp * ((d - x) / (d - c)).

  (** src/hypot3/hypot3.h:8-25  [hypot3]; [hypot] is C++17's three-argument std::hypot. *)
  Definition hypot3 (hypot : T -> T -> T -> T) (x y z : T) : T :=
    if a_isinf A x || a_isinf A y || a_isinf A z then a_inf A
    else hypot x y z.

  (** src/abs_squared/abs_squared.h:6-10  [abs_squared_real] *)
  Definition abs_squared_real (x : T) : T := x * x.

  (** src/abs_squared/abs_squared.h:12-16  [abs_squared_complex] *)
  Definition abs_squared_complex (z : T * T) : T := fst z * fst z + snd z * snd z.

  (** src/nan_to_num/nan_to_num.h:6-10  [nan_to_num] *)
  Definition nan_to_num (x replacement : T) : T := if isnan x then replacement else x.

  (** src/abssq/abssq_ufunc.cpp:19-26  [abssq_real_contig]; addresses are in bytes,
      [sz] is sizeof(Real). *)
  Definition abssq_real_contig (sz n : Z) (mi : mem T) (pi : Z) (mo : mem T) (po : Z) : M (mem T) :=
    for_each 0 n (fun i mo => x <- get mi pi sz i ;; set mo po sz i (x * x)) mo.

  (** src/abssq/abssq_ufunc.cpp:28-45  [abssq_real_loop]; the pointers are the loop state. *)
  Definition abssq_real_loop (sz n : Z) (mi : mem T) (pi si : Z) (mo : mem T) (po so : Z) : M (mem T) :=
    if (si =? sz) && (so =? sz) then abssq_real_contig sz n mi pi mo po
    else
      r <- for_each 0 n
             (fun _ st => let '(inp, out, mo) := st in
                x <- load mi inp ;;
                mo' <- store mo out (x * x) ;;
                ret (Z.add inp si, Z.add out so, mo')) (pi, po, mo) ;;
      ret (snd r).

  (** src/abssq/abssq_ufunc.cpp:47-54  [abssq_complex_contig]: in[2*i] and in[2*i+1] *)
  Definition abssq_complex_contig (sz n : Z) (mi : mem T) (pi : Z) (mo : mem T) (po : Z) : M (mem T) :=
    for_each 0 n
      (fun i mo =>
         x <- get mi pi sz (2 * i)%Z ;;
         y <- get mi pi sz (2 * i + 1)%Z ;;
         set mo po sz i (x * x + y * y)) mo.

  (** src/abssq/abssq_ufunc.cpp:56-74  [abssq_complex_loop] *)
  Definition abssq_complex_loop (sz n : Z) (mi : mem T) (pi si : Z) (mo : mem T) (po so : Z) : M (mem T) :=
    if (si =? Z.mul 2 sz) && (so =? sz) then abssq_complex_contig sz n mi pi mo po
    else
      r <- for_each 0 n
             (fun _ st => let '(inp, out, mo) := st in
                x <- load mi inp ;;
                y <- load mi (Z.add inp sz) ;;
                mo' <- store mo out (x * x + y * y) ;;
                ret (Z.add inp si, Z.add out so, mo')) (pi, po, mo) ;;
      ret (snd r).
End Elem.

(** ** next_greater, next_less, nextn_greater, nextn_less *)
Section Next.
  Context (prec emax : Z) (Hp : Prec_gt_0 prec) (He : Prec_lt_emax prec emax).
  Notation F := (binary_float prec emax).

  (** libm's nextafter(x, y), used by the four functions (C11 F.10.8.3: a NaN operand
      gives NaN, x == y gives y, otherwise the neighbour of x on the side of y). *)
  Definition nextafter (x y : F) : F :=
    match Bcompare x y with
    | None => B754_nan
    | Some Eq => y
    | Some Lt => Bsucc x
    | Some Gt => Bpred x
    end.

  (** src/next/next.h:10-15  [next_greater] *)
  Definition next_greater (x : F) : F := nextafter x (B754_infinity false).

  (** src/next/next.h:17-22  [next_less] *)
  Definition next_less (x : F) : F := nextafter x (B754_infinity true).

  (** src/nextn/nextn_gufunc.h:20-35  [nextn_greater_core_calc] *)
  Definition nextn_greater_core_calc (x : F) (n : Z) (mo : mem F) (po so : Z) : M (mem F) :=
    r <- for_each 0 n
      (fun i st => let '(x, mo) := st in
         let x := nextafter x (B754_infinity false) in
         mo' <- set mo po so i x ;; ret (x, mo')) (x, mo) ;;
    ret (snd r).

  (** src/nextn/nextn_gufunc.h:41-56  [nextn_less_core_calc] *)
  Definition nextn_less_core_calc (x : F) (n : Z) (mo : mem F) (po so : Z) : M (mem F) :=
    r <- for_each 0 n
      (fun i st => let '(x, mo) := st in
         let x := nextafter x (B754_infinity true) in
         mo' <- set mo po so i x ;; ret (x, mo')) (x, mo) ;;
    ret (snd r).
End Next.
