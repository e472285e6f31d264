(** * S_Erf: the complementary error function and the normal distribution, as integrals *)
From Coq Require Import ZArith Reals.
From Coquelicot Require Import Coquelicot.
Open Scope R_scope.

(** erfc(x) = 2/sqrt(pi) int_x^oo exp(-s^2) ds *)
Definition is_erfc (x v : R) : Prop :=
  is_RInt_gen (fun s => 2 / sqrt PI * exp (- (s * s))) (at_point x) (Rbar_locally p_infty) v.
(** erfcx(x) = exp(x^2) erfc(x) *)
Definition is_erfcx (x v : R) : Prop := exists w, is_erfc x w /\ v = exp (x * x) * w.
(** Phi(x) = 1/sqrt(2 pi) int_{-oo}^x exp(-s^2/2) ds *)
Definition is_normal_cdf (x v : R) : Prop :=
  is_RInt_gen (fun s => / sqrt (2 * PI) * exp (- (s * s) / 2)) (Rbar_locally m_infty) (at_point x) v.
(** the C library's erfc, exact on the reals *)
Definition exact_erfc (f : R -> R) : Prop := forall x, is_erfc x (f x).
