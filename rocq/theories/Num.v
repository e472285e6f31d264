(** * Num: numeric domains of the model

    - [cmp_laws]: laws of a C comparison (a total preorder in which the
      elements that are not comparable to themselves, the NaNs, are unordered).
    - [arith T]: the arithmetic operations a C++ template over a floating type uses.
    - [ER]: reals with +inf, -inf and NaN and exact operations, the "exact
      arithmetic" instance.  Simplification: ER has one zero (a zero divisor is
      treated as +0) and no rounding or overflow.
    - [farith]: Flocq's IEEE-754 binary formats, round-to-nearest-even, for any
      precision and exponent range (float, double, x87 long double). *)

From Coq Require Import ZArith Reals List Bool Lia Lra.
From Flocq Require Import Core BinarySingleNaN.
From Verif Require Import CSem.
Open Scope Z_scope.

Record cmp_laws {T} (cmp : T -> T -> option comparison) : Prop := mkCmpLaws {
  cmp_swap : forall x y, cmp y x = option_map CompOpp (cmp x y);
  cmp_refl : forall x, cmp x x = Some Eq \/ cmp x x = None;
  cmp_none : forall x y, cmp x y = None <-> (cmp x x = None \/ cmp y y = None);
  cmp_lt_trans : forall x y z, cmp x y = Some Lt -> cmp y z = Some Lt -> cmp x z = Some Lt;
  cmp_eq_l : forall x y z, cmp x y = Some Eq -> cmp x z = cmp y z
}.

(** The operations used by the floating point templates. *)
Record arith (T : Type) := mkArith {
  a_ofZ : Z -> T;          (* conversion from an integer *)
  a_add : T -> T -> T;
  a_sub : T -> T -> T;
  a_mul : T -> T -> T;
  a_div : T -> T -> T;
  a_opp : T -> T;
  a_abs : T -> T;          (* fabs *)
  a_sqrt : T -> T;
  a_cmp : T -> T -> option comparison;
  a_nan : T;
  a_inf : T;               (* +infinity *)
  a_isinf : T -> bool
}.
Arguments a_ofZ {T}. Arguments a_add {T}. Arguments a_sub {T}. Arguments a_mul {T}.
Arguments a_div {T}. Arguments a_opp {T}. Arguments a_abs {T}. Arguments a_sqrt {T}.
Arguments a_cmp {T}. Arguments a_nan {T}. Arguments a_inf {T}. Arguments a_isinf {T}.

(** libm functions; abstract in the IEEE instance. *)
Record transc (T : Type) := mkTransc {
  t_exp : T -> T; t_log : T -> T; t_log1p : T -> T; t_expm1 : T -> T;
  t_pow : T -> T -> T
}.
Arguments t_exp {T}. Arguments t_log {T}. Arguments t_log1p {T}. Arguments t_expm1 {T}.
Arguments t_pow {T}.

(** ** Extended reals *)
Inductive ER := Fin (r : R) | PInf | NInf | ENaN.

Definition ecmp (x y : ER) : option comparison :=
  match x, y with
  | ENaN, _ | _, ENaN => None
  | Fin a, Fin b => Some (Rcompare a b)
  | PInf, PInf | NInf, NInf => Some Eq
  | PInf, _ | _, NInf => Some Gt
  | NInf, _ | _, PInf => Some Lt
  end.

Definition eopp (x : ER) : ER :=
  match x with Fin a => Fin (- a) | PInf => NInf | NInf => PInf | ENaN => ENaN end.

Definition eadd (x y : ER) : ER :=
  match x, y with
  | ENaN, _ | _, ENaN => ENaN
  | Fin a, Fin b => Fin (a + b)
  | PInf, NInf | NInf, PInf => ENaN
  | PInf, _ | _, PInf => PInf
  | NInf, _ | _, NInf => NInf
  end.

Definition esub (x y : ER) : ER := eadd x (eopp y).

(** [s * infinity] for a real factor [a]. *)
Definition scale_inf (a : R) (pos : bool) : ER :=
  match Rcompare a 0 with
  | Eq => ENaN
  | Gt => if pos then PInf else NInf
  | Lt => if pos then NInf else PInf
  end.

Definition emul (x y : ER) : ER :=
  match x, y with
  | ENaN, _ | _, ENaN => ENaN
  | Fin a, Fin b => Fin (a * b)
  | Fin a, PInf | PInf, Fin a => scale_inf a true
  | Fin a, NInf | NInf, Fin a => scale_inf a false
  | PInf, PInf | NInf, NInf => PInf
  | PInf, NInf | NInf, PInf => NInf
  end.

Definition ediv (x y : ER) : ER :=
  match x, y with
  | ENaN, _ | _, ENaN => ENaN
  | Fin a, Fin b =>
      match Rcompare b 0 with
      | Eq => match Rcompare a 0 with Eq => ENaN | Gt => PInf | Lt => NInf end
      | _ => Fin (a / b)
      end
  | Fin _, (PInf | NInf) => Fin 0
  | PInf, Fin b => match Rcompare b 0 with Lt => NInf | _ => PInf end
  | NInf, Fin b => match Rcompare b 0 with Lt => PInf | _ => NInf end
  | (PInf | NInf), (PInf | NInf) => ENaN
  end.

Definition eabs (x : ER) : ER :=
  match x with Fin a => Fin (Rabs a) | PInf | NInf => PInf | ENaN => ENaN end.

Definition esqrt (x : ER) : ER :=
  match x with
  | Fin a => match Rcompare a 0 with Lt => ENaN | _ => Fin (sqrt a) end
  | PInf => PInf | NInf | ENaN => ENaN
  end.

Definition eisinf (x : ER) : bool := match x with PInf | NInf => true | _ => false end.

Definition earith : arith ER :=
  mkArith ER (fun z => Fin (IZR z)) eadd esub emul ediv eopp eabs esqrt ecmp ENaN PInf eisinf.

(** Exact libm: C99 special cases, mathematical values elsewhere. *)
Definition eexp (x : ER) : ER :=
  match x with Fin a => Fin (exp a) | PInf => PInf | NInf => Fin 0 | ENaN => ENaN end.
Definition elog (x : ER) : ER :=
  match x with
  | Fin a => match Rcompare a 0 with Lt => ENaN | Eq => NInf | Gt => Fin (ln a) end
  | PInf => PInf | NInf | ENaN => ENaN
  end.
Definition elog1p (x : ER) : ER :=
  match x with
  | Fin a => match Rcompare a (-1) with Lt => ENaN | Eq => NInf | Gt => Fin (ln (1 + a)) end
  | PInf => PInf | NInf | ENaN => ENaN
  end.
Definition eexpm1 (x : ER) : ER :=
  match x with Fin a => Fin (exp a - 1) | PInf => PInf | NInf => Fin (-1) | ENaN => ENaN end.
(** pow for a nonnegative base (C99 F.10.4.4, a zero base is +0); a negative base
    is mapped to NaN here and is not used by any theorem. *)
Definition epow (x y : ER) : ER :=
  match x, y with
  | _, Fin b =>
      match Rcompare b 0 with
      | Eq => Fin 1
      | c => match x with
             | Fin a => match Rcompare a 0 with
                        | Gt => Fin (Rpower a b)
                        | Eq => match c with Gt => Fin 0 | _ => PInf end
                        | Lt => ENaN
                        end
             | PInf => match c with Gt => PInf | _ => Fin 0 end
             | NInf | ENaN => ENaN
             end
      end
  | Fin a, (PInf | NInf) =>
      match Rcompare a 0 with
      | Lt => ENaN
      | _ => match Rcompare a 1, y with
             | Eq, _ => Fin 1
             | Lt, PInf | Gt, NInf => Fin 0
             | _, _ => PInf
             end
      end
  | PInf, PInf => PInf
  | PInf, NInf => Fin 0
  | Fin a, ENaN => match Rcompare a 1 with Eq => Fin 1 | _ => ENaN end
  | _, _ => ENaN
  end.

Definition etransc : transc ER := mkTransc ER eexp elog elog1p eexpm1 epow.

(** ** IEEE binary formats *)
Section FArith.
  Context (prec emax : Z).
  Context (Hp : Prec_gt_0 prec) (He : Prec_lt_emax prec emax).
  Notation F := (binary_float prec emax).

  Definition fisinf (x : F) : bool :=
    match x with B754_infinity _ => true | _ => false end.

  Definition farith : arith F :=
    mkArith F
      (fun z => binary_normalize prec emax Hp He mode_NE z 0 false)
      (Bplus mode_NE) (Bminus mode_NE) (Bmult mode_NE) (Bdiv mode_NE)
      Bopp Babs (Bsqrt mode_NE)
      Bcompare B754_nan (B754_infinity false) fisinf.

  (** The extended real denoted by a float (both zeros denote 0). *)
  Definition f2e (x : F) : ER :=
    match x with
    | B754_zero _ => Fin 0
    | B754_infinity false => PInf
    | B754_infinity true => NInf
    | B754_nan => ENaN
    | B754_finite _ _ _ _ => Fin (B2R x)
    end.
End FArith.

(** The three formats of ufunclab's floating loops. *)
Definition f32_prec : Z := 24.   Definition f32_emax : Z := 128.
Definition f64_prec : Z := 53.   Definition f64_emax : Z := 1024.
Definition f80_prec : Z := 64.   Definition f80_emax : Z := 16384.

Definition f64 := binary_float f64_prec f64_emax.
Definition f64_Hp : Prec_gt_0 f64_prec := eq_refl.
Definition f64_He : Prec_lt_emax f64_prec f64_emax := eq_refl.
Definition f64_arith : arith f64 := farith f64_prec f64_emax f64_Hp f64_He.
Definition f64_ofZ (z : Z) : f64 := a_ofZ f64_arith z.
Definition f64_cmp : f64 -> f64 -> option comparison := Bcompare.

(** ** Conversions

    Truncation to an integer, [None] for NaN and infinities. *)
Definition etrunc (x : ER) : option Z := match x with Fin a => Some (Ztrunc a) | _ => None end.
(** [signbit]; ER has one zero, which counts as positive. *)
Definition esignbit (x : ER) : bool :=
  match x with Fin a => Rlt_bool a 0 | NInf => true | PInf | ENaN => false end.

Definition ftrunc {prec emax} (x : binary_float prec emax) : option Z :=
  match x with B754_nan | B754_infinity _ => None | _ => Some (Btrunc x) end.
Definition fsignbit {prec emax} (x : binary_float prec emax) : bool := Bsign x.

(** Conversion between two floating formats (round to nearest even). *)
Definition fconv {prec emax} (prec' emax' : Z) (Hp' : Prec_gt_0 prec') (He' : Prec_lt_emax prec' emax')
           (x : binary_float prec emax) : binary_float prec' emax' :=
  match x with
  | B754_zero s => B754_zero s
  | B754_infinity s => B754_infinity s
  | B754_nan => B754_nan
  | B754_finite s m e _ => binary_normalize prec' emax' Hp' He' mode_NE (cond_Zopp s (Zpos m)) e s
  end.

Definition f80 := binary_float f80_prec f80_emax.
Definition f80_Hp : Prec_gt_0 f80_prec := eq_refl.
Definition f80_He : Prec_lt_emax f80_prec f80_emax := eq_refl.
Definition f80_arith : arith f80 := farith f80_prec f80_emax f80_Hp f80_He.
Definition f64_to_f80 (x : f64) : f80 := fconv f80_prec f80_emax f80_Hp f80_He x.
Definition f80_to_f64 (x : f80) : f64 := fconv f64_prec f64_emax f64_Hp f64_He x.
