(** * P_NormalCdf: normal_cdf and normal_sf with the C library's erfc are the normal distribution *)
From Coq Require Import ZArith Reals Lra.
From Verif Require Import CSem Num M_Elem S_Elem S_Erf P_Erf P_ErfcxR P_Erfcx P_Ramp.
Open Scope R_scope.

Lemma erfcR_laws erfc : exact_erfc erfc -> erfc_laws erfc erfcxR.
Proof.
  intros H. assert (E : forall x, erfc x = erfcR x) by (intros x; apply is_erfc_eq, H).
  constructor; intros x; rewrite ?E; [apply erfcR_reflect|apply erfcR_pos|reflexivity].
Qed.
Lemma exact_erfc_exists : exact_erfc erfcR. Proof. intros x. apply is_erfc_erfcR. Qed.
Lemma normal_integral erfc x v : exact_erfc erfc -> is_normal_cdf x v ->
  normal_cdf earith (Fin (/ sqrt 2)) (lift1 erfc) (Fin x) = Fin v /\
  normal_sf earith (Fin (/ sqrt 2)) (lift1 erfc) (Fin x) = Fin (1 - v) /\
  0 < v < 1.
Proof.
  intros H V. apply is_cdf_eq in V. subst v.
  destruct (normal_consistent erfc erfcxR (erfcR_laws erfc H)) as (f & C & F & P & _ & S & _).
  assert (E : f x = PhiR x). { rewrite F. unfold PhiR. f_equal. apply is_erfc_eq, H. }
  rewrite <- E. repeat split; [apply C|apply S|apply P|apply P].
Qed.
