(** * S_Log1p: what the log1p functions are expected to compute *)
From Coq Require Import ZArith Reals List.
From Flocq Require Import Core.
From Verif Require Import CSem Num.
Open Scope R_scope.

(** [re + i im] is the principal logarithm of [a + i b] *)
Definition principal_log (a b re im : R) : Prop :=
  - PI < im <= PI /\ a = exp re * cos im /\ b = exp re * sin im.

(** libm's hypot and atan2 on the extended reals (C99 annex F; one zero, which is positive) *)
Definition ehypot (x y : ER) : ER :=
  match x, y with
  | PInf, _ | NInf, _ | _, PInf | _, NInf => PInf
  | Fin a, Fin b => Fin (sqrt (a * a + b * b))
  | _, _ => ENaN
  end.
Definition eatan2 (y x : ER) : ER :=
  match y, x with
  | ENaN, _ | _, ENaN => ENaN
  | Fin b, Fin a =>
      match Rcompare a 0 with
      | Gt => Fin (atan (b / a))
      | Lt => match Rcompare b 0 with Lt => Fin (atan (b / a) - PI) | _ => Fin (atan (b / a) + PI) end
      | Eq => match Rcompare b 0 with Gt => Fin (PI / 2) | Lt => Fin (- (PI / 2)) | Eq => Fin 0 end
      end
  | Fin b, PInf => Fin 0
  | Fin b, NInf => match Rcompare b 0 with Lt => Fin (- PI) | _ => Fin PI end
  | PInf, Fin _ => Fin (PI / 2) | NInf, Fin _ => Fin (- (PI / 2))
  | PInf, PInf => Fin (PI / 4) | NInf, PInf => Fin (- (PI / 4))
  | PInf, NInf => Fin (3 * PI / 4) | NInf, NInf => Fin (- (3 * PI / 4))
  end.
Definition eclog (z : ER * ER) : ER * ER := (elog (ehypot (fst z) (snd z)), eatan2 (snd z) (fst z)).

(** IEEE double precision: the representable numbers (gradual underflow, no overflow bound), rounding to
    nearest even, and powers of two *)
Notation fexp64 := (FLT_exp (-1074) 53).
Notation format := (generic_format radix2 fexp64).
Notation rn := (round radix2 fexp64 ZnearestE).
Notation pow2 := (bpow radix2).
