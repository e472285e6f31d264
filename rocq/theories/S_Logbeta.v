(** * S_Logbeta: the logarithm of the gamma function on the extended reals *)
From Coq Require Import Reals.
From Verif Require Import Num S_Gamma.
Open Scope R_scope.

(** a logarithm of the gamma function, on the positive reals *)
Definition is_lgamma (lgamma : ER -> ER) : Prop := forall a v, 0 < a -> is_Gamma a v -> lgamma (Fin a) = Fin (ln v).
