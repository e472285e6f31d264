(** Property theorems C59 in IEEE double precision: erfcx with every operation and every literal rounded. *)
From Coq Require Import ZArith Reals List Bool Lia Lra.
From Flocq Require Import Core BinarySingleNaN.
From Verif Require Import CSem Num M_Erfcx M_Special S_Special S_Log1p S_Erf S_ErfF P_Log1pF P_Erf P_Erfcx P_ErfcxF.
Import ListNotations.
Open Scope R_scope.

(** 0 < x <= 50: at most 15 * 2^-53 relative error, whatever exp is *)
Theorem C59_ieee_middle :
  forall exp (x : f64) v,
  is_finite x = true -> 0 < B2R x <= 50 -> is_erfcx (B2R x) v ->
   exists r, erfcx_double f64_arith f64_lit f64_toint exp x = ret r /\ is_finite r = true /\ Rabs (B2R r - v) <= 15 * pow2 (-53) * v.
Proof. exact @erfcx_mid_ieee. Qed.
Print Assumptions C59_ieee_middle.
(** x > 50, up to the largest double *)
Theorem C59_ieee_large :
  forall exp (x : f64) v,
  is_finite x = true -> 50 < B2R x -> is_erfcx (B2R x) v ->
   exists r, erfcx_double f64_arith f64_lit f64_toint exp x = ret r /\ is_finite r = true /\ Rabs (B2R r - v) <= 5 * pow2 (-53) * v + pow2 (-1075).
Proof. exact @erfcx_large_ieee. Qed.
Print Assumptions C59_ieee_large.
(** x <= 0 down to the limit: never overflows if exp is within one unit in the last place *)
Theorem C59_ieee_negative :
  forall E (x : f64) v,
  good_exp E -> is_finite x = true -> B2R x <= 0 -> ltb (a_cmp f64_arith) x (f64_lit (-26628735713751485) (-15)) = false -> is_erfcx (B2R x) v ->
   exists r, erfcx_double f64_arith f64_lit f64_toint E x = ret r /\ is_finite r = true /\ Rabs (B2R r - v) <= (2 * (B2R x * B2R x) + 21) * pow2 (-53) * v.
Proof. exact @erfcx_neg_ieee. Qed.
Print Assumptions C59_ieee_negative.
Theorem C59_ieee_edges :
  forall E (x : f64),
  (ltb (a_cmp f64_arith) x (f64_lit (-26628735713751485) (-15)) = true -> erfcx_double f64_arith f64_lit f64_toint E x = ret (B754_infinity false)) /\
  erfcx_double f64_arith f64_lit f64_toint E (B754_infinity false) = ret (B754_zero false) /\
  erfcx_double f64_arith f64_lit f64_toint E (B754_infinity true) = ret (B754_infinity false) /\
  erfcx_double f64_arith f64_lit f64_toint E B754_nan = ub.
Proof. exact @erfcx_edges_ieee. Qed.
Print Assumptions C59_ieee_edges.
Theorem C59_ieee_defined :
  forall E (x : f64),
  is_nan x = false -> good_exp E -> erfcx_double f64_arith f64_lit f64_toint E x <> ub.
Proof. exact @erfcx_defined_ieee. Qed.
Print Assumptions C59_ieee_defined.

Example C59_ieee_exp_exists : good_exp (fun z => f64_of_R (exp (B2R z))).
Proof. exact good_exp_exists. Qed.
Example C59_ieee_ex : exists x : f64, is_finite x = true /\ 0 < B2R x <= 50 /\ is_erfcx (B2R x) (erfcxR (B2R x)).
Proof.
  exists (a_ofZ f64_arith 7). destruct (rep_ofZ 7 3 ltac:(lia) ltac:(lia)) as (A & B & _). split; [exact A|]. rewrite B. split; [lra|now apply is_erfcx_eq].
Qed.
Example C59_ieee_ex_large : exists x : f64, is_finite x = true /\ 50 < B2R x.
Proof. exists (a_ofZ f64_arith 1000). destruct (rep_ofZ 1000 10 ltac:(lia) ltac:(lia)) as (A & B & _). split; [exact A|]. rewrite B. lra. Qed.
Example C59_ieee_ex_negative : exists x : f64, is_finite x = true /\ B2R x <= 0 /\ ltb (a_cmp f64_arith) x (f64_lit (-26628735713751485) (-15)) = false.
Proof.
  exists (a_ofZ f64_arith (-20)). pose proof (rep_ofZ (-20) 5 ltac:(lia) ltac:(lia)) as R. destruct R as (A & B & C). split; [exact A|]. split; [rewrite B; lra|].
  destruct low_ieee as (l & Rl & L1 & L2). destruct (ltb _ _ _) eqn:E; [|reflexivity].
  apply (rep_ltb 5 5 _ _ (-20) l) in E; [lra|now split|exact Rl].
Qed.
