(** * S_Elem: specifications used by the properties of the elementwise functions *)
From Coq Require Import ZArith Reals List Bool Lra.
From Flocq Require Import Core BinarySingleNaN.
From Verif Require Import CSem Num.
Open Scope R_scope.

(** The extended-real function [F], applied to a real, is the real function [f]. *)
Definition computes (F : ER -> ER) (f : R -> R) : Prop := forall x, F (Fin x) = Fin (f x).

(** [f] goes from [fa] (left of [a]) to [fb] (right of [b]). *)
Record transition (f : R -> R) (a b fa fb : R) : Prop := mkTransition {
  tr_left : forall x, x <= a -> f x = fa;
  tr_right : forall x, b <= x -> f x = fb;
  tr_up : fa < fb -> forall x y, a <= x -> x < y -> y <= b -> f x < f y;
  tr_down : fb < fa -> forall x y, a <= x -> x < y -> y <= b -> f y < f x;
  tr_flat : fa = fb -> forall x, f x = fa;
  tr_bounds : forall x, Rmin fa fb <= f x <= Rmax fa fb;
  tr_sym : forall x, f (a + b - x) = fa + fb - f x;
  tr_cont : continuity f
}.

(** continuously differentiable, with slope 0 outside (a, b) *)
Definition C1_flat (f : R -> R) (a b : R) : Prop :=
  exists f', (forall x, derivable_pt_lim f x (f' x)) /\ continuity f' /\
             (forall x, x <= a \/ b <= x -> f' x = 0).

(** twice continuously differentiable, first and second derivative 0 outside (a, b) *)
Definition C2_flat (f : R -> R) (a b : R) : Prop :=
  exists f' f'', (forall x, derivable_pt_lim f x (f' x)) /\
                 (forall x, derivable_pt_lim f' x (f'' x)) /\ continuity f'' /\
                 (forall x, x <= a \/ b <= x -> f' x = 0 /\ f'' x = 0).

Definition strictly_increasing (f : R -> R) : Prop := forall x y, x < y -> f x < f y.
Definition nondecreasing (f : R -> R) : Prop := forall x y, x <= y -> f x <= f y.

(** Arithmetic in which NaN operands give NaN results. *)
Record nan_prop {T} (A : arith T) : Prop := mkNanProp {
  np_nan : isnanb (a_cmp A) (a_nan A) = true;
  np_add : forall x y, isnanb (a_cmp A) x = true \/ isnanb (a_cmp A) y = true ->
                       isnanb (a_cmp A) (a_add A x y) = true;
  np_sub : forall x y, isnanb (a_cmp A) x = true \/ isnanb (a_cmp A) y = true ->
                       isnanb (a_cmp A) (a_sub A x y) = true;
  np_mul : forall x y, isnanb (a_cmp A) x = true \/ isnanb (a_cmp A) y = true ->
                       isnanb (a_cmp A) (a_mul A x y) = true;
  np_div : forall x y, isnanb (a_cmp A) x = true \/ isnanb (a_cmp A) y = true ->
                       isnanb (a_cmp A) (a_div A x y) = true;
  np_opp : forall x, isnanb (a_cmp A) x = true -> isnanb (a_cmp A) (a_opp A x) = true;
  np_sqrt : forall x, isnanb (a_cmp A) x = true -> isnanb (a_cmp A) (a_sqrt A x) = true
}.

(** exact sine and arcsine on the extended reals (C99: NaN outside the domain) *)
Definition esin (x : ER) : ER := match x with Fin a => Fin (sin a) | _ => ENaN end.
Definition easin (x : ER) : ER :=
  match x with
  | Fin a => if Rle_dec (-1) a then if Rle_dec a 1 then Fin (asin a) else ENaN else ENaN
  | _ => ENaN
  end.

(** Each element of the list is the next larger float after the previous one (nothing
    in between); +inf and NaN repeat themselves. *)
Fixpoint run_up {prec emax} (x : binary_float prec emax) (l : list (binary_float prec emax)) : Prop :=
  match l with
  | nil => True
  | cons y l' =>
      ((ltb Bcompare x y = true /\ forall z, ltb Bcompare x z = true -> leb Bcompare y z = true)
       \/ (x = B754_infinity false /\ y = B754_infinity false)
       \/ (x = B754_nan /\ y = B754_nan)) /\ run_up y l'
  end.
Fixpoint run_down {prec emax} (x : binary_float prec emax) (l : list (binary_float prec emax)) : Prop :=
  match l with
  | nil => True
  | cons y l' =>
      ((ltb Bcompare y x = true /\ forall z, ltb Bcompare z x = true -> leb Bcompare z y = true)
       \/ (x = B754_infinity true /\ y = B754_infinity true)
       \/ (x = B754_nan /\ y = B754_nan)) /\ run_down y l'
  end.

(** A smooth ramp of width [a]: between max(x,0) and max(x,0) + a, with the value [a] at 0. *)
Record smooth_ramp (f : R -> R) (a : R) : Prop := mkRamp {
  rp_above : forall x, Rmax x 0 < f x;
  rp_gap : forall x, f x - Rmax x 0 <= a;
  rp_incr : strictly_increasing f;
  rp_anti : forall x, f x - f (- x) = x;
  rp_zero : f 0 = a
}.

(** A bounded semivariogram: nugget at 0, nondecreasing, never above the sill. *)
Record variogram (f : R -> R) (nugget sill : R) : Prop := mkVario {
  va_zero : f 0 = nugget;
  va_mono : forall h k, 0 <= h -> h <= k -> f h <= f k;
  va_sill : forall h, 0 <= h -> f h <= sill;
  va_cont : forall h, 0 < h -> continuity_pt f h
}.

(** exact three-argument hypot *)
Definition ehypot (x y z : ER) : ER := esqrt (eadd (eadd (emul x x) (emul y y)) (emul z z)).

(** complex product and conjugate over R *)
Definition cmulR (u v : R * R) : R * R := (fst u * fst v - snd u * snd v, fst u * snd v + snd u * fst v).

Definition conjR (u : R * R) : R * R := (fst u, - snd u).

(** Laws of erfc (reflection, positivity) and of the scaled erfcx. *)
Record erfc_laws (erfc erfcx : R -> R) : Prop := mkErfc {
  erfc_refl : forall x, erfc (- x) = 2 - erfc x;
  erfc_pos : forall x, 0 < erfc x;
  erfcx_def : forall x, erfcx x = exp (x * x) * erfc x
}.

(** a real function on the finite values *)
Definition lift1 (f : R -> R) (x : ER) : ER := match x with Fin a => Fin (f a) | _ => ENaN end.

(** the range of x -> yeo_johnson(x, l) *)
Definition yj_range (y l : R) : Prop := (0 <= y -> 0 < 1 + l * y) /\ (y < 0 -> 0 < 1 - (2 - l) * y).
