(** Property theorems C50 (complex log1p). *)
From Coq Require Import ZArith Reals List Bool Lia Lra.
From Flocq Require Import Core BinarySingleNaN.
From Verif Require Import CSem CSemP Num NumP NumF M_Log1p S_Log1p S_Log1pE S_Special P_Log1p P_Log1pF P_ExpintF P_Log1pE P_Log1pS.
Import ListNotations.
Open Scope R_scope.

(** ** exact arithmetic: log1p_doubledouble is the principal logarithm of 1 + z *)
Theorem C50_doubledouble :
  forall x y,
  x <> -1 \/ y <> 0 ->
   exists re im, log1p_doubledouble earith elog elog1p ehypot eatan2 (Fin x, Fin y) = (Fin re, Fin im) /\ principal_log (1 + x) y re im.
Proof. exact @dd_exact. Qed.
Print Assumptions C50_doubledouble.

Example C50_doubledouble_ex : exists re im,
  log1p_doubledouble earith elog elog1p ehypot eatan2 (Fin (-1), Fin 1) = (Fin re, Fin im) /\ principal_log (1 + -1) 1 re im.
Proof. apply C50_doubledouble. right. lra. Qed.

Theorem C50_minus_one :
  fst (log1p_doubledouble earith elog elog1p ehypot eatan2 (Fin (-1), Fin 0)) = NInf.
Proof. exact @dd_minus_one. Qed.
Print Assumptions C50_minus_one.

Theorem C50_infinite :
  forall x y,
  x <> ENaN -> y <> ENaN -> (eisinf x || eisinf y)%bool = true -> fst (log1p_doubledouble earith elog elog1p ehypot eatan2 (x, y)) = PInf.
Proof. exact @dd_infinite. Qed.
Print Assumptions C50_infinite.

Example C50_infinite_ex : fst (log1p_doubledouble earith elog elog1p ehypot eatan2 (NInf, Fin 3)) = PInf.
Proof. apply C50_infinite; [discriminate|discriminate|reflexivity]. Qed.

(** the float variant follows the same formulas *)
Theorem C50_float :
  forall x y,
  x <> -1 \/ y <> 0 ->
   log1pf_doubledouble earith earith (fun v => v) (fun v => v) elog elog1p elog ehypot eatan2 (Fin x, Fin y) = log1p_doubledouble earith elog elog1p ehypot eatan2 (Fin x, Fin y).
Proof. exact @ddf_exact. Qed.
Print Assumptions C50_float.

(** log1p_theorem4, whatever the compiler's complex multiplication and division *)
Theorem C50_theorem4 :
  forall cmul cdiv x y,
  x <> -1 \/ y <> 0 ->
   exists re im, log1p_theorem4 earith eclog cmul cdiv (Fin x, Fin y) = (Fin re, Fin im) /\ principal_log (1 + x) y re im.
Proof. exact @theorem4_exact. Qed.
Print Assumptions C50_theorem4.

(** ** IEEE double: the error-free transformations *)
Theorem C50_two_sum_ieee :
  forall (x y : f64),
  is_finite x = true -> is_finite y = true ->
   Rabs (B2R x) <= pow2 900 -> Rabs (B2R y) <= pow2 900 ->
   let '(s, e) := two_sum f64_arith x y in
   is_finite s = true /\ is_finite e = true /\ B2R s = rn (B2R x + B2R y) /\ B2R s + B2R e = B2R x + B2R y.
Proof. exact @two_sum_ieee. Qed.
Print Assumptions C50_two_sum_ieee.

Theorem C50_two_sum_quick_ieee :
  forall (x y : f64),
  is_finite x = true -> is_finite y = true ->
   Rabs (B2R x) <= pow2 900 -> Rabs (B2R y) <= Rabs (B2R x) \/ B2R x = 0 /\ Rabs (B2R y) <= pow2 900 ->
   let '(s, e) := two_sum_quick f64_arith x y in
   is_finite s = true /\ is_finite e = true /\ B2R s = rn (B2R x + B2R y) /\ B2R s + B2R e = B2R x + B2R y.
Proof. exact @two_sum_quick_ieee. Qed.
Print Assumptions C50_two_sum_quick_ieee.

Theorem C50_square_ieee :
  forall (x : f64),
  is_finite x = true -> pow2 (-485) <= Rabs (B2R x) <= pow2 300 ->
   let '(u, l) := square f64_arith x in
   is_finite u = true /\ is_finite l = true /\ B2R u = rn (B2R x * B2R x) /\ B2R u + B2R l = B2R x * B2R x.
Proof. exact @square_ieee. Qed.
Print Assumptions C50_square_ieee.

Example C50_two_sum_ieee_ex :
  let r := two_sum f64_arith (f64_ofZ 1) (f64_ofZ (2 ^ 53)) in (B2SF (fst r), B2SF (snd r)) = (B2SF (f64_ofZ (2 ^ 53)), B2SF (f64_ofZ 1)).
Proof. vm_compute. reflexivity. Qed.
Example C50_square_ieee_ex :
  let r := square f64_arith (f64_ofZ (2 ^ 27 + 1)) in (B2SF (fst r), B2SF (snd r)) = (B2SF (f64_ofZ (2 ^ 54 + 2 ^ 28)), B2SF (f64_ofZ 1)).
Proof. vm_compute. reflexivity. Qed.

(** ** IEEE double: x^2 + 2x + y^2 has a relative error of 2^-53 and an absolute error of 2^-97 *)
Theorem C50_accuracy_ieee :
  forall (x y : f64),
  is_finite x = true -> is_finite y = true -> Rabs (B2R x) <= 4 -> Rabs (B2R y) <= 4 ->
   let X := B2R x in let Y := B2R y in let V := X * X + 2 * X + Y * Y in
   let r := xsquared_plus_2x_plus_ysquared f64_arith x y in
   is_finite r = true /\ Rabs (B2R r - V) <= pow2 (-53) * Rabs V + pow2 (-97).
Proof. exact @xsq_accurate. Qed.
Print Assumptions C50_accuracy_ieee.

(** x = 2^-28 - 1, y = 1: the value is 2^-56, which the plain formula loses entirely *)
Example C50_accuracy_ieee_ex :
  let A := f64_arith in let x := a_sub A (a_div A (f64_ofZ 1) (f64_ofZ (2 ^ 28))) (f64_ofZ 1) in let y := f64_ofZ 1 in
  B2SF (xsquared_plus_2x_plus_ysquared A x y) = B2SF (a_div A (f64_ofZ 1) (f64_ofZ (2 ^ 56))) /\
  B2SF (xsq_float A x y) = B2SF (f64_ofZ 0).
Proof. vm_compute. split; reflexivity. Qed.

(** the real part of log1p_doubledouble, for all doubles: log of the modulus, or the accurate sum *)
Theorem C50_real_part_ieee :
  forall (log log1p : f64 -> f64) (hypot atan2 : f64 -> f64 -> f64) (x y : f64),
  let re := fst (log1p_doubledouble f64_arith log log1p hypot atan2 (x, y)) in
  let X := B2R x in let Y := B2R y in let V := X * X + 2 * X + Y * Y in
  re = log (hypot (a_add f64_arith x (f64_ofZ 1)) y) \/
  is_finite x = true /\ is_finite y = true /\
  exists v, re = a_mul f64_arith (a_div f64_arith (f64_ofZ 1) (f64_ofZ 2)) (log1p v) /\
    is_finite v = true /\ Rabs (B2R v - V) <= pow2 (-53) * Rabs V + pow2 (-97).
Proof. exact @dd_ieee_cases. Qed.
Print Assumptions C50_real_part_ieee.

(** near the circle |1 + z| = 1 it is always the accurate sum *)
Theorem C50_near_circle_ieee :
  forall (log log1p : f64 -> f64) (hypot atan2 : f64 -> f64 -> f64) (x y : f64),
  let re := fst (log1p_doubledouble f64_arith log log1p hypot atan2 (x, y)) in
  let X := B2R x in let Y := B2R y in let V := X * X + 2 * X + Y * Y in
  is_finite x = true -> is_finite y = true -> Rabs V <= 39 / 100 ->
  exists v, re = a_mul f64_arith (a_div f64_arith (f64_ofZ 1) (f64_ofZ 2)) (log1p v) /\
    is_finite v = true /\ Rabs (B2R v - V) <= pow2 (-53) * Rabs V + pow2 (-97).
Proof. exact @dd_ieee_near. Qed.
Print Assumptions C50_near_circle_ieee.

(** ** IEEE double, every operation rounded and the library functions up to one unit in the last place: both parts
    of log1p_doubledouble, on the whole plane.  A zero imaginary part takes the side of the cut given by its sign. *)
Theorem C50_error_ieee :
  forall log log1p hypot atan2 (x y : f64) re im,
  good_log log -> good_log1p log1p -> good_hypot hypot -> good_atan2 atan2 ->
   is_finite x = true -> is_finite y = true -> Rabs (B2R x) <= pow2 990 -> Rabs (B2R y) <= pow2 990 -> B2R x <> -1 \/ pow2 (-1000) <= Rabs (B2R y) ->
   exp (2 * re) = (1 + B2R x) * (1 + B2R x) + B2R y * B2R y -> is_arg (1 + B2R x) (B2R y) (Bsign y) im ->
   let w := log1p_doubledouble f64_arith log log1p hypot atan2 (x, y) in
   is_finite (fst w) = true /\ is_finite (snd w) = true /\
   Rabs (B2R (fst w) - re) <= 23 * pow2 (-53) * Rabs re + pow2 (-97) /\
   (61 / 100 <= exp (2 * re) <= 139 / 100 -> Rabs (B2R (fst w) - re) <= 5 * pow2 (-53) * Rabs re + pow2 (-97)) /\
   Rabs (B2R (snd w) - im) <= 31 / 10 * pow2 (-53) * Rabs im + pow2 (-1074).
Proof. exact @dd_error. Qed.
Print Assumptions C50_error_ieee.

(** z = -1 + i: the logarithm of i; the real part is zero up to 2^-97 *)
Example C50_error_ieee_ex : exists log log1p hypot atan2,
  let w := log1p_doubledouble f64_arith log log1p hypot atan2 (f64_ofZ (-1), f64_ofZ 1) in
  is_finite (fst w) = true /\ Rabs (B2R (fst w)) <= pow2 (-97) /\ Rabs (B2R (snd w) - PI / 2) <= 31 / 10 * pow2 (-53) * (PI / 2) + pow2 (-1074).
Proof.
  do 4 eexists. pose proof PI_RGT_0 as Pi.
  assert (B1 : B2R (f64_ofZ (-1)) = -1) by (vm_compute; lra). assert (B2 : B2R (f64_ofZ 1) = 1) by (vm_compute; lra).
  pose proof (bpow_le radix2 0 990 ltac:(lia)) as K. change (pow2 0) with 1 in K.
  destruct (C50_error_ieee _ _ _ _ (f64_ofZ (-1)) (f64_ofZ 1) 0 (PI / 2) good_log_exists good_log1p_exists good_hypot_exists good_atan2_exists eq_refl eq_refl)
    as (F & _ & E & _ & I).
  - rewrite B1, Rabs_left by lra. lra.
  - rewrite B2, Rabs_pos_eq by lra. exact K.
  - right. rewrite B2, Rabs_pos_eq by lra. change 1 with (pow2 0). apply bpow_le. lia.
  - rewrite B1, B2, Rmult_0_r, exp_0. ring.
  - rewrite B1, B2. split; [lra|]. split; [|intros; lra]. exists 1. rewrite cos_PI2, sin_PI2. repeat split; lra.
  - split; [exact F|]. rewrite Rabs_R0, Rmult_0_r, Rminus_0_r in E. rewrite (Rabs_pos_eq (PI / 2)) in I by lra. split; [|exact I]. lra.
Qed.

(** the single precision variant has no double-double sum: however good the library is, a relative error of 3e-4 *)
Theorem C50_float_accuracy_refuted :
  exists x y : f32, is_finite x = true /\ is_finite y = true /\
   forall logd log1pd logf hypotf atan2f re, good_log1p log1pd -> exp (2 * re) = (1 + B2R x) * (1 + B2R x) + B2R y * B2R y ->
   let r := fst (log1pf_doubledouble f32_arith f64_arith f32_to_f64 f64_to_f32 logd log1pd logf hypotf atan2f (x, y)) in
   is_finite r = true /\ 3 / 10000 * Rabs re < Rabs (B2R r - re).
Proof. exact @float_accuracy_refuted. Qed.
Print Assumptions C50_float_accuracy_refuted.

(** log1p_theorem4: branches and the exactness of u - 1 *)
Theorem C50_theorem4_ieee :
  forall (clog : f64 * f64 -> f64 * f64) (cmul cdiv : f64 * f64 -> f64 * f64 -> f64 * f64) (x y : f64),
  is_finite x = true -> is_finite y = true -> Rabs (B2R x) <= 1 / 2 ->
  exists u w : f64, is_finite u = true /\ is_finite w = true /\ B2R u = rn (1 + B2R x) /\ B2R w = B2R u - 1 /\
    let r := log1p_theorem4 f64_arith clog cmul cdiv (x, y) in
    (B2R u = 1 /\ B2R y = 0 -> r = (x, y)) /\
    (B2R u <> 1 \/ B2R y <> 0 -> B2R u = 1 + B2R x -> r = clog (u, y)) /\
    (B2R u <> 1 \/ B2R y <> 0 -> B2R u <> 1 + B2R x -> r = cmul (clog (u, y)) (cdiv (x, y) (w, y))).
Proof. exact @theorem4_ieee. Qed.
Print Assumptions C50_theorem4_ieee.

(** z = 2^-60 + i: 1 + z is rounded to 1 + i, u - 1 = i and the correction factor is used *)
Example C50_theorem4_ieee_ex :
  let A := f64_arith in let x := a_div A (f64_ofZ 1) (f64_ofZ (2 ^ 60)) in let y := f64_ofZ 1 in
  exists u w : f64, B2R u = 1 /\ B2R w = 0 /\
  forall clog cmul cdiv, log1p_theorem4 A clog cmul cdiv (x, y) = cmul (clog (u, y)) (cdiv (x, y) (w, y)).
Proof.
  exists (f64_ofZ 1), (f64_ofZ 0). split; [vm_compute; lra|]. split; [reflexivity|]. intros.
  unfold log1p_theorem4. cbn [fst snd].
  assert (E1 : a_add f64_arith (a_div f64_arith (f64_ofZ 1) (f64_ofZ (2 ^ 60))) (a_ofZ f64_arith 1) = f64_ofZ 1).
  { apply B2SF_inj. vm_compute. reflexivity. }
  rewrite E1. assert (E2 : a_sub f64_arith (f64_ofZ 1) (a_ofZ f64_arith 1) = f64_ofZ 0) by (apply B2SF_inj; vm_compute; reflexivity).
  rewrite E2. reflexivity.
Qed.

(** ** the loops *)
Theorem C50_loop :
  forall {T} (A : arith T) (f : T * T -> T * T) (m : mem (T * T)) p step pout ostep (out : mem (T * T)) l,
  view m p step l -> writable out pout ostep (length l) ->
  writes (unary_loop (fun z => ret (nan_guard A f z)) m p (Z.of_nat (length l)) step pout ostep out) out pout ostep
    (map (fun z => if isnanb (a_cmp A) (fst z) || isnanb (a_cmp A) (snd z) then (a_nan A, a_nan A) else f z) l).
Proof. exact @nan_loop. Qed.
Print Assumptions C50_loop.

Example C50_loop_ex (f : ER * ER -> ER * ER) :
  writes (unary_loop (fun z => ret (nan_guard earith f z)) (mem_of 0 16 [(Fin 1, ENaN); (Fin 0, Fin 2)]) 0 2 16 0 16 (mem_of 0 16 [(Fin 0, Fin 0); (Fin 0, Fin 0)]))
    (mem_of 0 16 [(Fin 0, Fin 0); (Fin 0, Fin 0)]) 0 16 [(ENaN, ENaN); f (Fin 0, Fin 2)].
Proof.
  refine (C50_loop earith f _ 0 16 0 16 _ [(Fin 1, ENaN); (Fin 0, Fin 2)] _ _).
  - apply view_mem_of. lia.
  - apply (writable_mem_of 0 16 [(Fin 0, Fin 0); (Fin 0, Fin 0)]). lia.
Qed.
