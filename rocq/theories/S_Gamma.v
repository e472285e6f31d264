(** * S_Gamma: Euler's gamma function *)
From Coq Require Import Reals.
From Coquelicot Require Import Coquelicot.
Open Scope R_scope.

(** Gamma(x) = int_0^oo t^(x-1) exp(-t) dt *)
Definition is_Gamma (x v : R) : Prop :=
  is_RInt_gen (fun t => Rpower t (x - 1) * exp (- t)) (at_right 0) (Rbar_locally p_infty) v.
