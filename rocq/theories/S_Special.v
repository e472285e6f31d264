(** * S_Special: what the special functions are expected to compute *)
From Coq Require Import ZArith Reals Bool List.
From Coquelicot Require Import Coquelicot.
From Flocq Require Import Core BinarySingleNaN.
From Verif Require Import CSem Num M_Special.
Import ListNotations.
Open Scope R_scope.

(** the value of the decimal literal m * 10^e *)
Definition elit (m e : Z) : ER := Fin (IZR m * powerRZ 10 e).

(** the last step of expint1 for x <= 1 in exact arithmetic *)
Definition eeuler : ER -> ER -> ER := euler_sum earith elit (fun x => x) (fun x => x).

(** C's conversion to int: the fraction is discarded; undefined if the value does not fit (or is NaN) *)
Definition in_int (z : Z) : bool := ((- 2 ^ 31 <=? z) && (z <? 2 ^ 31))%Z%bool.
Definition etoint (x : ER) : M Z :=
  match x with
  | Fin r => if in_int (Ztrunc r) then ret (Ztrunc r) else ub
  | _ => ub
  end.
Definition f64_toint (x : f64) : M Z :=
  if is_finite x then (if in_int (Btrunc x) then ret (Btrunc x) else ub) else ub.

(** log(k!) *)
Definition ln_fact (k : nat) : R := ln (INR (fact k)).

(** the exponential integral E1(x) = int_x^oo exp(-t)/t dt *)
Definition is_E1 (x v : R) : Prop :=
  is_RInt_gen (fun t => exp (- t) / t) (at_point x) (Rbar_locally p_infty) v.

(** the Debye function D1(x) = (1/x) int_0^x t/(exp(t) - 1) dt, with D1(0) = 1 *)
Definition debye_integrand (t : R) : R := if Req_EM_T t 0 then 1 else t / (exp t - 1).
Definition is_D1 (x v : R) : Prop :=
  (x = 0 /\ v = 1) \/ (x <> 0 /\ is_RInt debye_integrand 0 x (x * v)).

(** the double nearest to the real r (ties to even), when r is in range *)
Definition f64_of_R (r : R) : f64 :=
  let x := round radix2 (FLT_exp (-1074) 53) ZnearestE r in
  binary_normalize f64_prec f64_emax f64_Hp f64_He mode_NE (Ztrunc (scaled_mantissa radix2 (FLT_exp (-1074) 53) x)) (cexp radix2 (FLT_exp (-1074) 53) x) false.
(** the double denoted by the decimal literal m * 10^e *)
Definition f64_lit (m e : Z) : f64 := f64_of_R (IZR m * powerRZ 10 e).

(** the same in the 64-bit-precision long double format *)
Definition f80_lit (m e : Z) : f80 :=
  let r := (IZR m * powerRZ 10 e)%R in let fexp := FLT_exp (3 - f80_emax - f80_prec) f80_prec in
  let x := round radix2 fexp ZnearestE r in
  binary_normalize f80_prec f80_emax f80_Hp f80_He mode_NE (Ztrunc (scaled_mantissa radix2 fexp x)) (cexp radix2 fexp x) false.
(** the last step of expint1 for x <= 1, double: where long double is the 80-bit format, and where it is double *)
Definition f64_euler_80 : f64 -> f64 -> f64 := euler_sum f80_arith f80_lit f64_to_f80 f80_to_f64.
Definition f64_euler_64 : f64 -> f64 -> f64 := euler_sum f64_arith f64_lit (fun x => x) (fun x => x).

(** the C library's exp (for arguments <= 0), log and log1p in double, up to one unit in the last place *)
Definition good_exp_neg (f : f64 -> f64) : Prop := forall z, is_finite z = true -> B2R z <= 0 ->
  is_finite (f z) = true /\ Rabs (B2R (f z) - exp (B2R z)) <= bpow radix2 (-52) * exp (B2R z) + bpow radix2 (-1074).
Definition good_log (f : f64 -> f64) : Prop := forall z, is_finite z = true -> 0 < B2R z ->
  is_finite (f z) = true /\ Rabs (B2R (f z) - ln (B2R z)) <= bpow radix2 (-52) * Rabs (ln (B2R z)).
Definition good_log1p (f : f64 -> f64) : Prop := forall z, is_finite z = true -> - (1 / 2) <= B2R z <= 1 ->
  is_finite (f z) = true /\ Rabs (B2R (f z) - ln (1 + B2R z)) <= bpow radix2 (-52) * Rabs (ln (1 + B2R z)) + bpow radix2 (-1074).

(** the four tables of debye1: (left end of the first interval, width of an interval, both in tenths; is the approximant divided by x?) *)
Definition debye_table {A} (t0 t1 t2 t3 : A) : list (Z * Z * bool * A) :=
  [(0, 2, false, t0); (100, 2, true, t1); (200, 10, true, t2); (300, 10, true, t3)]%Z.
(** r is the value of the approximant c of one table entry, and x is in the interval c was fitted to, up to a relative 4e-16 *)
Definition uses_cell (lit : Z -> Z -> f64) (x : f64) (r : M f64) : Prop :=
  exists a w sc cells k c, In (a, w, sc, cells) (debye_table debye1_cells_0 debye1_cells_1 debye1_cells_2 debye1_cells_3) /\
    nth_error cells k = Some c /\
    IZR (a + w * Z.of_nat k) / 10 - 4 / 10 ^ 16 * B2R x <= B2R x <= IZR (a + w * (Z.of_nat k + 1)) / 10 + 4 / 10 ^ 16 * B2R x /\
    r = ret (if sc then a_div f64_arith (poly f64_arith lit x c) x else poly f64_arith lit x c).

(** Lanczos' formula for log(Gamma(y)) *)
Definition lgamma_main {T} (A : arith T) (lit : Z -> Z -> T) (log : T -> T) (y : T) : T :=
  a_add A (a_sub A (log (lanczos_sum A lit y)) (lanczos_g lit))
    (a_mul A (a_sub A y (lit 5 (-1))%Z) (a_sub A (log (a_sub A (a_add A y (lanczos_g lit)) (lit 5 (-1))%Z)) (a_ofZ A 1))).

(** the rounding errors debye1 may accumulate at x >= 0, in units of 2^-53 of the result *)
Definition debye_units (x : R) : R := if Rle_dec x 2 then 10 else if Rlt_dec x 20 then 500 else 6.

(** the error allowed in expint1(x) = v, x > 0 *)
Definition expint1_error (x v : R) : R :=
  if Rle_dec x 1 then (6 * v + 3 + 31 * x) * bpow radix2 (-53) else (10 * bpow radix2 (-53) + 24 / 10 ^ 17) * v + bpow radix2 (-1073).
(** the error allowed in logexpint1(x) = ln v, x > 0 *)
Definition logexpint1_error (x v : R) : R :=
  if Rle_dec x 1 then (180 + 3 * Rabs (ln v)) * bpow radix2 (-53) else (10 + 4 * Rabs (ln v)) * bpow radix2 (-53).

(** the error allowed in loggamma1p(x) = v, x > -1: the rational approximation on (-1/4, 9/10], Lanczos' formula elsewhere *)
Definition loggamma1p_error (x v : R) : R :=
  if Rle_dec x (- (1 / 4)) then (110 + 5 * Rabs v + 10 * ((x + 3 / 2) * ln (x + 7))) * bpow radix2 (-53)
  else if Rlt_dec x 0 then 80 * bpow radix2 (-53) * Rabs x + bpow radix2 (-1070)
  else if Rle_dec x (9 / 10) then 15 * bpow radix2 (-53) * x + bpow radix2 (-1070)
  else (110 + 5 * Rabs v + 10 * ((x + 3 / 2) * ln (x + 7))) * bpow radix2 (-53).
