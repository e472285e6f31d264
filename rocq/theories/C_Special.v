(** Property theorems C51 (logfactorial, loggamma1p, expint1, logexpint1, debye1). *)
From Coq Require Import ZArith Reals List Bool Lia Lra.
From Flocq Require Import Core BinarySingleNaN.
From Verif Require Import CSem CSemP Num NumP M_Log1p M_Special S_Special P_LogFact P_Expint P_Debye P_Debye1 P_SpecialF P_DebyeF P_ExpintF P_LogFactF.
Import ListNotations.
Open Scope R_scope.

(** ** logfactorial *)
Theorem C51_logfactorial :
  forall k,
  (0 <= k)%Z ->
   exists v, logfactorial_elem earith elit elog k = ret (Fin v) /\ Rabs (v - ln_fact (Z.to_nat k)) <= 140 / 10 ^ 18 * ln_fact (Z.to_nat k).
Proof. exact @logfactorial_elem_acc. Qed.
Print Assumptions C51_logfactorial.
(** the first argument past the table *)
Example C51_logfactorial_ex : exists v, logfactorial_elem earith elit elog 126 = ret (Fin v) /\ Rabs (v - ln_fact 126) <= 140 / 10 ^ 18 * ln_fact 126.
Proof. exact (C51_logfactorial 126 ltac:(lia)). Qed.

Theorem C51_logfactorial_negative :
  forall {T} (A : arith T) lit log k,
  (k < 0)%Z -> logfactorial_elem A lit log k = ret (a_nan A).
Proof. exact @logfactorial_elem_neg. Qed.
Print Assumptions C51_logfactorial_negative.

(** the table is never read out of bounds, whatever the integer and the arithmetic *)
Theorem C51_logfactorial_defined :
  forall {T} (A : arith T) lit log k,
  logfactorial_elem A lit log k <> ub.
Proof. exact @logfactorial_elem_defined. Qed.
Print Assumptions C51_logfactorial_defined.

Theorem C51_logfactorial_loop :
  forall m p step pout ostep (out : mem ER) l,
  view m p step l -> writable out pout ostep (length l) ->
  exists r, writes (unary_loop (logfactorial_elem earith elit elog) m p (Z.of_nat (length l)) step pout ostep out) out pout ostep r /\
    Forall2 (fun k y => if (k <? 0)%Z then y = ENaN else exists v, y = Fin v /\ Rabs (v - ln_fact (Z.to_nat k)) <= 140 / 10 ^ 18 * ln_fact (Z.to_nat k)) l r.
Proof. exact @logfactorial_loop. Qed.
Print Assumptions C51_logfactorial_loop.
Example C51_logfactorial_loop_ex : exists a b, writes (unary_loop (logfactorial_elem earith elit elog) (mem_of 0 8 [-3; 300]%Z) 0 2 8 0 8 (mem_of 0 8 [Fin 0; Fin 0]))
   (mem_of 0 8 [Fin 0; Fin 0]) 0 8 [a; b] /\ a = ENaN.
Proof.
  destruct (C51_logfactorial_loop (mem_of 0 8 [-3; 300]%Z) 0 8 0 8 (mem_of 0 8 [Fin 0; Fin 0]) [-3; 300]%Z) as (r & W & F).
  - apply view_mem_of. lia.
  - apply (writable_mem_of 0 8 [Fin 0; Fin 0]). lia.
  - inversion F as [|? a ? r' H F1]. subst. inversion F1 as [|? b ? r'' _ F2]. subst. inversion F2. subst. now exists a, b.
Qed.

(** logfactorial in IEEE double at every int64: table entries, (double) k, Stirling's series and its roundings together *)
Theorem C51_logfactorial_ieee :
  forall L k,
  good_log L -> (0 <= k < 2 ^ 63)%Z ->
   exists r, logfactorial_elem f64_arith f64_lit L k = ret r /\ is_finite r = true /\ Rabs (B2R r - ln_fact (Z.to_nat k)) <= 10 * bpow radix2 (-53) * ln_fact (Z.to_nat k).
Proof. exact @logfactorial_ieee. Qed.
Print Assumptions C51_logfactorial_ieee.
Theorem C51_logfactorial_loop_ieee :
  forall L m p step pout ostep (out : mem f64) l,
  good_log L ->
   view m p step l -> writable out pout ostep (length l) -> Forall (fun k => - 2 ^ 63 <= k < 2 ^ 63)%Z l ->
   exists r, writes (unary_loop (logfactorial_elem f64_arith f64_lit L) m p (Z.of_nat (length l)) step pout ostep out) out pout ostep r /\
     Forall2 (fun k y => if (k <? 0)%Z then y = B754_nan else is_finite y = true /\ Rabs (B2R y - ln_fact (Z.to_nat k)) <= 10 * bpow radix2 (-53) * ln_fact (Z.to_nat k)) l r.
Proof. exact @logfactorial_loop_ieee. Qed.
Print Assumptions C51_logfactorial_loop_ieee.
Example C51_logfactorial_ieee_ex : exists a b, writes (unary_loop (logfactorial_elem f64_arith f64_lit (fun z => f64_of_R (ln (B2R z)))) (mem_of 0 8 [-3; 9007199254740993]%Z) 0 2 8 0 8 (mem_of 0 8 [f64_ofZ 0; f64_ofZ 0]))
   (mem_of 0 8 [f64_ofZ 0; f64_ofZ 0]) 0 8 [a; b] /\ a = B754_nan /\ is_finite b = true.
Proof.
  destruct (C51_logfactorial_loop_ieee (fun z => f64_of_R (ln (B2R z))) (mem_of 0 8 [-3; 9007199254740993]%Z) 0 8 0 8 (mem_of 0 8 [f64_ofZ 0; f64_ofZ 0]) [-3; 9007199254740993]%Z P_ExpintF.good_log_exists) as (r & W & F).
  - apply view_mem_of. lia.
  - apply (writable_mem_of 0 8 [f64_ofZ 0; f64_ofZ 0]). lia.
  - repeat constructor; lia.
  - inversion F as [|? a ? r' H F1]. subst. inversion F1 as [|? b ? r'' H2 F2]. subst. inversion F2. subst. exists a, b. split; [exact W|]. split; [exact H|exact (proj1 H2)].
Qed.

(** ** expint1 and logexpint1 in exact arithmetic *)
Theorem C51_expint1 :
  forall x v,
  0 < x -> is_E1 x v ->
   exists y, expint1 earith eeuler etoint elog eexp (Fin x) = ret (Fin y) /\ Rabs (y - v) <= 24 / 10 ^ 17 * v.
Proof. exact @expint1_acc. Qed.
Print Assumptions C51_expint1.
Example C51_expint1_ex : exists v y, is_E1 3 v /\ expint1 earith eeuler etoint elog eexp (Fin 3) = ret (Fin y) /\ Rabs (y - v) <= 24 / 10 ^ 17 * v.
Proof.
  destruct (P_Expint.E1_exists 3 ltac:(lra)) as (v & V). destruct (C51_expint1 3 v ltac:(lra) V) as (y & H). exists v, y. tauto.
Qed.
Theorem C51_E1_exists :
  forall x,
  0 < x -> exists v, is_E1 x v.
Proof. exact @E1_exists. Qed.
Print Assumptions C51_E1_exists.
Theorem C51_E1_unique :
  forall x v w,
  0 < x -> is_E1 x v -> is_E1 x w -> v = w.
Proof. exact @E1_unique. Qed.
Print Assumptions C51_E1_unique.
Theorem C51_logexpint1 :
  forall x v,
  0 < x -> is_E1 x v ->
   exists y, logexpint1 earith eeuler etoint elog elog1p (Fin x) = ret (Fin y) /\ Rabs (y - ln v) <= 24 / 10 ^ 17 * (1 + Rabs (ln v)).
Proof. exact @logexpint1_acc. Qed.
Print Assumptions C51_logexpint1.
Example C51_logexpint1_ex : exists v y, is_E1 1000 v /\ logexpint1 earith eeuler etoint elog elog1p (Fin 1000) = ret (Fin y) /\ Rabs (y - ln v) <= 24 / 10 ^ 17 * (1 + Rabs (ln v)).
Proof.
  destruct (P_Expint.E1_exists 1000 ltac:(lra)) as (v & V). destruct (C51_logexpint1 1000 v ltac:(lra) V) as (y & H). exists v, y. tauto.
Qed.
Theorem C51_expint1_special :
  forall {T} (A : arith T) comb toint log exp x,
  (CSem.ltb (a_cmp A) x (a_ofZ A 0) = true -> expint1 A comb toint log exp x = ret (a_nan A)) /\
  (CSem.ltb (a_cmp A) x (a_ofZ A 0) = false -> CSem.eqb (a_cmp A) x (a_ofZ A 0) = true -> expint1 A comb toint log exp x = ret (a_inf A)).
Proof. exact @expint1_special. Qed.
Print Assumptions C51_expint1_special.
Theorem C51_logexpint1_special :
  forall {T} (A : arith T) comb toint log log1p x,
  (CSem.ltb (a_cmp A) x (a_ofZ A 0) = true -> logexpint1 A comb toint log log1p x = ret (a_nan A)) /\
  (CSem.ltb (a_cmp A) x (a_ofZ A 0) = false -> CSem.eqb (a_cmp A) x (a_ofZ A 0) = true -> logexpint1 A comb toint log log1p x = ret (a_inf A)).
Proof. exact @logexpint1_special. Qed.
Print Assumptions C51_logexpint1_special.

(** ** expint1 and logexpint1 in IEEE double *)
Theorem C51_expint1_defined_ieee :
  forall comb log exp x,
  is_nan x = false -> expint1 f64_arith comb f64_toint log exp x <> ub.
Proof. exact @expint1_defined_ieee. Qed.
Print Assumptions C51_expint1_defined_ieee.
Theorem C51_logexpint1_defined_ieee :
  forall comb log log1p x,
  logexpint1 f64_arith comb f64_toint log log1p x <> ub.
Proof. exact @logexpint1_defined_ieee. Qed.
Print Assumptions C51_logexpint1_defined_ieee.
(** expint1(NaN) converts NaN to int, which C leaves undefined *)
Theorem C51_expint1_nan_refuted comb log exp : exists x : f64, expint1 f64_arith comb f64_toint log exp x = ub.
Proof. exists B754_nan. apply P_SpecialF.expint1_nan_ieee. Qed.
Print Assumptions C51_expint1_nan_refuted.
Theorem C51_logexpint1_nan_ieee :
  forall comb log log1p,
  logexpint1 f64_arith comb f64_toint log log1p B754_nan = ret B754_nan.
Proof. exact @logexpint1_nan_ieee. Qed.
Print Assumptions C51_logexpint1_nan_ieee.
Theorem C51_expint1_inf_ieee :
  forall comb log exp,
  exp (B754_infinity true) = B754_zero false ->
   expint1 f64_arith comb f64_toint log exp (B754_infinity false) = ret (B754_zero false).
Proof. exact @expint1_inf_ieee. Qed.
Print Assumptions C51_expint1_inf_ieee.
Theorem C51_logexpint1_inf_ieee :
  forall comb log log1p,
  log (B754_infinity false) = B754_infinity false -> log1p (B754_zero true) = B754_zero true ->
   logexpint1 f64_arith comb f64_toint log log1p (B754_infinity false) = ret (B754_infinity true).
Proof. exact @logexpint1_inf_ieee. Qed.
Print Assumptions C51_logexpint1_inf_ieee.
Example C51_ieee_inf_ex : 
  expint1 f64_arith f64_euler_80 f64_toint (fun x => x) (fun _ => B754_zero false) (B754_infinity false) = ret (B754_zero false) /\
  logexpint1 f64_arith f64_euler_80 f64_toint (fun x => x) (fun x => x) (B754_infinity false) = ret (B754_infinity true).
Proof. split; [now apply C51_expint1_inf_ieee|now apply C51_logexpint1_inf_ieee]. Qed.

(** expint1 and logexpint1 in IEEE double, whichever of the two formats long double is, when the C library's exp, log and log1p
    are within one unit in the last place: all the rounding errors and the truncation together, for every finite x > 0 *)
Theorem C51_expint1_ieee comb L E (x : f64) v : comb = f64_euler_80 \/ comb = f64_euler_64 -> good_log L -> good_exp_neg E ->
  is_finite x = true -> 0 < B2R x -> is_E1 (B2R x) v ->
  exists r, expint1 f64_arith comb f64_toint L E x = ret r /\ is_finite r = true /\ Rabs (B2R r - v) <= expint1_error (B2R x) v.
Proof. intros C. exact (P_ExpintF.expint1_ieee comb L E x v (P_ExpintF.comb_good comb C)). Qed.
Print Assumptions C51_expint1_ieee.
Theorem C51_logexpint1_ieee comb L L1 (x : f64) v : comb = f64_euler_80 \/ comb = f64_euler_64 -> good_log L -> good_log1p L1 ->
  is_finite x = true -> 0 < B2R x -> is_E1 (B2R x) v ->
  exists r, logexpint1 f64_arith comb f64_toint L L1 x = ret r /\ is_finite r = true /\ Rabs (B2R r - ln v) <= logexpint1_error (B2R x) v.
Proof. intros C. exact (P_ExpintF.logexpint1_ieee comb L L1 x v (P_ExpintF.comb_good comb C)). Qed.
Print Assumptions C51_logexpint1_ieee.
Example C51_libm_exists : good_exp_neg (fun z => f64_of_R (exp (B2R z))) /\ good_log (fun z => f64_of_R (ln (B2R z))) /\ good_log1p (fun z => f64_of_R (ln (1 + B2R z))).
Proof. exact (conj P_ExpintF.good_exp_neg_exists (conj P_ExpintF.good_log_exists P_ExpintF.good_log1p_exists)). Qed.
Example C51_expint1_ieee_ex : exists r v, is_E1 3 v /\ is_finite r = true /\ Rabs (B2R r - v) <= (10 * bpow radix2 (-53) + 24 / 10 ^ 17) * v + bpow radix2 (-1073) /\
  expint1 f64_arith f64_euler_80 f64_toint (fun z => f64_of_R (ln (B2R z))) (fun z => f64_of_R (exp (B2R z))) (f64_ofZ 3) = ret r.
Proof.
  destruct (P_Expint.E1_exists 3 ltac:(lra)) as (v & V). assert (E : B2R (f64_ofZ 3) = 3) by (vm_compute; lra).
  destruct (C51_expint1_ieee f64_euler_80 _ _ (f64_ofZ 3) v (or_introl eq_refl) P_ExpintF.good_log_exists P_ExpintF.good_exp_neg_exists eq_refl) as (r & R1 & R2 & R3);
    [rewrite E; lra|rewrite E; exact V|].
  exists r, v. rewrite E in R3. unfold expint1_error in R3. destruct (Rle_dec 3 1) in R3; [exfalso; lra|]. tauto.
Qed.
Example C51_logexpint1_ieee_ex : exists r v, is_E1 1000 v /\ is_finite r = true /\ Rabs (B2R r - ln v) <= (10 + 4 * Rabs (ln v)) * bpow radix2 (-53) /\
  logexpint1 f64_arith f64_euler_64 f64_toint (fun z => f64_of_R (ln (B2R z))) (fun z => f64_of_R (ln (1 + B2R z))) (f64_ofZ 1000) = ret r.
Proof.
  destruct (P_Expint.E1_exists 1000 ltac:(lra)) as (v & V). assert (E : B2R (f64_ofZ 1000) = 1000) by (vm_compute; lra).
  destruct (C51_logexpint1_ieee f64_euler_64 _ _ (f64_ofZ 1000) v (or_intror eq_refl) P_ExpintF.good_log_exists P_ExpintF.good_log1p_exists eq_refl) as (r & R1 & R2 & R3);
    [rewrite E; lra|rewrite E; exact V|].
  exists r, v. rewrite E in R3. unfold logexpint1_error in R3. destruct (Rle_dec 1000 1) in R3; [exfalso; lra|]. tauto.
Qed.

(** ** debye1 *)
Theorem C51_debye1 :
  forall x v,
  is_D1 x v ->
   exists y, debye1 earith elit etoint (Fin x) = ret (Fin y) /\ Rabs (y - v) <= 32 / 10 ^ 16 * v.
Proof. exact @debye1_acc. Qed.
Print Assumptions C51_debye1.
Example C51_debye1_ex : exists v y, is_D1 (-7) v /\ debye1 earith elit etoint (Fin (-7)) = ret (Fin y) /\ Rabs (y - v) <= 32 / 10 ^ 16 * v.
Proof. destruct (P_Debye1.D1_exists (-7)) as (v & V). destruct (C51_debye1 (-7) v V) as (y & H). exists v, y. tauto. Qed.
Theorem C51_D1_exists :
  forall x,
  exists v, is_D1 x v.
Proof. exact @D1_exists. Qed.
Print Assumptions C51_D1_exists.
Theorem C51_D1_unique :
  forall x v w,
  is_D1 x v -> is_D1 x w -> v = w.
Proof. exact @D1_unique. Qed.
Print Assumptions C51_D1_unique.
Theorem C51_debye1_loop :
  forall m p step pout ostep (out : mem ER) l,
  view m p step (map Fin l) -> writable out pout ostep (length l) ->
  exists r, writes (unary_loop (debye1 earith elit etoint) m p (Z.of_nat (length l)) step pout ostep out) out pout ostep (map Fin r) /\
    Forall2 (fun x y => forall v, is_D1 x v -> Rabs (y - v) <= 32 / 10 ^ 16 * v) l r.
Proof. exact @debye1_loop. Qed.
Print Assumptions C51_debye1_loop.
Example C51_debye1_loop_ex : exists a b, writes (unary_loop (debye1 earith elit etoint) (mem_of 0 8 [Fin 3; Fin 50]) 0 2 8 0 8 (mem_of 0 8 [Fin 0; Fin 0]))
   (mem_of 0 8 [Fin 0; Fin 0]) 0 8 [Fin a; Fin b].
Proof.
  destruct (C51_debye1_loop (mem_of 0 8 [Fin 3; Fin 50]) 0 8 0 8 (mem_of 0 8 [Fin 0; Fin 0]) [3; 50]) as (r & W & F).
  - apply (view_mem_of 0 8 [Fin 3; Fin 50]). lia.
  - apply (writable_mem_of 0 8 [Fin 0; Fin 0]). lia.
  - inversion F as [|? a ? r' H F1]. subst. inversion F1 as [|? b ? r'' _ F2]. subst. inversion F2. subst. now exists a, b.
Qed.
(** in IEEE double, every finite x in [0, 40) uses an approximant fitted to an interval that contains x up to a relative 4e-16 *)
Theorem C51_debye1_cell_ieee :
  forall (lit : Z -> Z -> f64) (x : f64),
  is_finite x = true -> 0 <= B2R x < 40 ->
     uses_cell lit x (debye1_pos f64_arith lit f64_toint x) \/
     (40 - 4 / 10 ^ 16 * B2R x <= B2R x /\ debye1_pos f64_arith lit f64_toint x = ret (a_div f64_arith (lit 16449340668482264 (-16))%Z x)).
Proof. exact @debye1_pos_uses. Qed.
Print Assumptions C51_debye1_cell_ieee.
Theorem C51_debye1_defined_ieee :
  forall lit x,
  debye1 f64_arith lit f64_toint x <> ub.
Proof. exact @debye1_defined_ieee. Qed.
Print Assumptions C51_debye1_defined_ieee.
Theorem C51_debye1_inf_ieee :
  forall lit,
  is_finite (lit 16449340668482264 (-16))%Z = true -> Bsign (lit 16449340668482264 (-16))%Z = false ->
   debye1 f64_arith lit f64_toint (B754_infinity false) = ret (B754_zero false) /\
   debye1 f64_arith lit f64_toint (B754_infinity true) = ret (B754_infinity false).
Proof. exact @debye1_inf_ieee. Qed.
Print Assumptions C51_debye1_inf_ieee.
Theorem C51_debye1_nan_ieee :
  forall lit,
  debye1 f64_arith lit f64_toint B754_nan = ret B754_nan.
Proof. exact @debye1_nan_ieee. Qed.
Print Assumptions C51_debye1_nan_ieee.
Example C51_debye1_cell_ieee_ex : uses_cell (fun _ _ => B754_zero false) (f64_ofZ 20) (debye1_pos f64_arith (fun _ _ => B754_zero false) f64_toint (f64_ofZ 20)).
Proof.
  assert (E : B2R (f64_ofZ 20) = 20) by (vm_compute; lra).
  destruct (C51_debye1_cell_ieee (fun _ _ => B754_zero false) (f64_ofZ 20) eq_refl) as [U|[C _]]; [rewrite E; lra|exact U|rewrite E in C; exfalso; cbn [pow] in C; lra].
Qed.
(** debye1 in IEEE double: the truncation, the rounding of the coefficients, of Horner's scheme and of the argument, all together, for every finite x *)
Theorem C51_debye1_ieee :
  forall (x : f64) v,
  is_finite x = true -> is_D1 (B2R x) v ->
   exists r, debye1 f64_arith f64_lit f64_toint x = ret r /\ is_finite r = true /\
     Rabs (B2R r - v) <= (debye_units (Rabs (B2R x)) * bpow radix2 (-53) + 8 / 10 ^ 15) * v + bpow radix2 (-1073).
Proof. exact @debye1_ieee. Qed.
Print Assumptions C51_debye1_ieee.
Example C51_debye1_ieee_ex : exists r v, debye1 f64_arith f64_lit f64_toint (f64_ofZ (-1)) = ret r /\ is_D1 (-1) v /\ is_finite r = true /\ Rabs (B2R r - v) <= (10 * bpow radix2 (-53) + 8 / 10 ^ 15) * v + bpow radix2 (-1073).
Proof.
  assert (E : B2R (f64_ofZ (-1)) = -1) by (vm_compute; lra). destruct (P_Debye1.D1_exists (-1)) as (v & V).
  destruct (C51_debye1_ieee (f64_ofZ (-1)) v eq_refl ltac:(rewrite E; exact V)) as (r & R1 & R2 & R3). exists r, v. split; [exact R1|]. split; [exact V|]. split; [exact R2|].
  rewrite E, (Rabs_left (-1)) in R3 by lra. unfold debye_units in R3. destruct (Rle_dec (- -1) 2) in R3; [exact R3|lra].
Qed.
Theorem C51_debye1_loop_ieee :
  forall m p step pout ostep (out : mem f64) l,
  view m p step l -> writable out pout ostep (length l) -> Forall (fun x => is_finite x = true) l ->
  exists r, writes (unary_loop (debye1 f64_arith f64_lit f64_toint) m p (Z.of_nat (length l)) step pout ostep out) out pout ostep r /\
    Forall2 (fun x y => is_finite y = true /\ forall v, is_D1 (B2R x) v -> Rabs (B2R y - v) <= (debye_units (Rabs (B2R x)) * bpow radix2 (-53) + 8 / 10 ^ 15) * v + bpow radix2 (-1073)) l r.
Proof. exact @debye1_loop_ieee. Qed.
Print Assumptions C51_debye1_loop_ieee.
Example C51_debye1_loop_ieee_ex : exists a b, writes (unary_loop (debye1 f64_arith f64_lit f64_toint) (mem_of 0 8 [f64_ofZ 3; f64_ofZ 50]) 0 2 8 0 8 (mem_of 0 8 [f64_ofZ 0; f64_ofZ 0]))
   (mem_of 0 8 [f64_ofZ 0; f64_ofZ 0]) 0 8 [a; b] /\ is_finite b = true.
Proof.
  destruct (C51_debye1_loop_ieee (mem_of 0 8 [f64_ofZ 3; f64_ofZ 50]) 0 8 0 8 (mem_of 0 8 [f64_ofZ 0; f64_ofZ 0]) [f64_ofZ 3; f64_ofZ 50]) as (r & W & F).
  - apply (view_mem_of 0 8 [f64_ofZ 3; f64_ofZ 50]). lia.
  - apply (writable_mem_of 0 8 [f64_ofZ 0; f64_ofZ 0]). lia.
  - repeat constructor.
  - inversion F as [|? a ? r' H F1]. subst. inversion F1 as [|? b ? r'' Hb F2]. subst. inversion F2. subst. exists a, b. split; [exact W|exact (proj1 Hb)].
Qed.

(** ** loggamma1p in IEEE double *)
Theorem C51_loggamma1p_domain_ieee :
  forall log x,
  (is_nan x = true \/ x = B754_infinity true \/ (is_finite x = true /\ B2R x <= -1) -> loggamma1p f64_arith f64_lit log x = B754_nan) /\
  (x = B754_infinity false -> loggamma1p f64_arith f64_lit log x = B754_infinity false) /\
  (is_finite x = true -> B2R x = 0 \/ B2R x = 1 -> loggamma1p f64_arith f64_lit log x = f64_ofZ 0).
Proof. exact @loggamma1p_domain_ieee. Qed.
Print Assumptions C51_loggamma1p_domain_ieee.
Theorem C51_loggamma1p_branch_ieee :
  forall log x,
  is_finite x = true -> -1 < B2R x -> B2R x <> 0 -> B2R x <> 1 ->
   (- (1 / 4) < B2R x <= 9 / 10 /\ loggamma1p f64_arith f64_lit log x = loggamma1p_small_x f64_arith f64_lit x) \/
   ((B2R x <= - (1 / 4) \/ 9 / 10 < B2R x) /\
    let y := a_add f64_arith (f64_ofZ 1) x in
    loggamma1p f64_arith f64_lit log x = lgamma_main f64_arith f64_lit log y /\
    (B2R x <= - (1 / 2) -> is_finite y = true /\ B2R y = 1 + B2R x)).
Proof. exact @loggamma1p_branch_ieee. Qed.
Print Assumptions C51_loggamma1p_branch_ieee.
Example C51_loggamma1p_ex log : loggamma1p f64_arith f64_lit log (f64_ofZ (-3)) = B754_nan /\
  loggamma1p f64_arith f64_lit log (f64_ofZ 2) = lgamma_main f64_arith f64_lit log (a_add f64_arith (f64_ofZ 1) (f64_ofZ 2)).
Proof.
  assert (E3 : B2R (f64_ofZ (-3)) = -3) by (vm_compute; lra). assert (E2 : B2R (f64_ofZ 2) = 2) by (vm_compute; lra). split.
  - apply (C51_loggamma1p_domain_ieee log (f64_ofZ (-3))). right. right. split; [reflexivity|rewrite E3; lra].
  - destruct (C51_loggamma1p_branch_ieee log (f64_ofZ 2) eq_refl) as [[C _]|[_ [H _]]]; try (rewrite E2; lra); [rewrite E2 in C; lra|exact H].
Qed.
