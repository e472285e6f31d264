(** Property theorems C51, continued: loggamma1p against Euler's integral for the gamma function. *)
From Coq Require Import ZArith Reals List Bool Lia Lra.
From Flocq Require Import Core BinarySingleNaN.
From Verif Require Import CSem CSemP Num NumP NumF M_Log1p M_Special S_Special S_Gamma S_Logbeta P_Gamma P_LoggammaM M_Stat S_Stat P_LogbetaG P_LoggammaF.
Import ListNotations.
Open Scope R_scope.

(** the reference function: the integral exists for every x > 0, is unique, and extends the factorial *)
Theorem C51_Gamma_exists :
  forall x,
  0 < x -> exists v, is_Gamma x v.
Proof. exact @Gamma_exists. Qed.
Print Assumptions C51_Gamma_exists.
Theorem C51_Gamma_unique :
  forall x v w,
  is_Gamma x v -> is_Gamma x w -> v = w.
Proof. exact @is_Gamma_unique. Qed.
Print Assumptions C51_Gamma_unique.
Theorem C51_Gamma_factorial :
  forall n,
  is_Gamma (INR n + 1) (INR (fact n)).
Proof. exact @Gamma_factorial. Qed.
Print Assumptions C51_Gamma_factorial.
Theorem C51_Gamma_recurrence :
  forall x v,
  0 < x -> is_Gamma x v -> is_Gamma (x + 1) (x * v).
Proof. exact @Gamma_recurrence. Qed.
Print Assumptions C51_Gamma_recurrence.
(** ** accuracy for every real x > -1, with the coefficients of the source *)
Theorem C51_loggamma1p :
  forall x v,
  -1 < x -> is_Gamma (1 + x) v -> exists r, loggamma1p earith elit elog (Fin x) = Fin r /\
   Rabs (r - ln v) <= 382 / 10 ^ 18 /\
   (-(1/4) < x < 9/10 -> Rabs (r - ln v) <= 38 / 10 ^ 17 * Rabs x /\ Rabs (r - ln v) <= 52 / 10 ^ 18) /\
   (9/10 <= x -> Rabs (r - ln v) <= 288 / 10 ^ 18).
Proof. exact @loggamma1p_accurate. Qed.
Print Assumptions C51_loggamma1p.
Example C51_loggamma1p_accurate_ex : exists r, loggamma1p earith elit elog (Fin 100) = Fin r /\ Rabs (r - ln (INR (fact 100))) <= 288 / 10 ^ 18.
Proof.
  destruct (C51_loggamma1p 100 (INR (fact 100)) ltac:(lra)) as (r & E & _ & _ & B).
  - replace (1 + 100) with (INR 100 + 1) by (rewrite INR_IZR_INZ; cbn; lra). apply C51_Gamma_factorial.
  - exists r. split; [exact E|apply B; lra].
Qed.
Theorem C51_loggamma1p_special :
  (forall x, x <= -1 -> loggamma1p earith elit elog (Fin x) = ENaN) /\
   loggamma1p earith elit elog ENaN = ENaN /\ loggamma1p earith elit elog NInf = ENaN /\ loggamma1p earith elit elog PInf = PInf.
Proof. exact @loggamma1p_special. Qed.
Print Assumptions C51_loggamma1p_special.
Theorem C51_loggamma1p_loop :
  forall m p step pout ostep (out : mem ER) l,
  view m p step (map Fin l) -> writable out pout ostep (length l) ->
  exists r, writes (unary_loop (fun x => ret (loggamma1p earith elit elog x)) m p (Z.of_nat (length l)) step pout ostep out) out pout ostep r /\
    Forall2 (fun x y => if Rle_dec x (-1) then y = ENaN else exists u, y = Fin u /\ forall v, is_Gamma (1 + x) v -> Rabs (u - ln v) <= 382 / 10 ^ 18) l r.
Proof. exact @loggamma1p_loop. Qed.
Print Assumptions C51_loggamma1p_loop.
Example C51_loggamma1p_loop_ex : exists a, writes (unary_loop (fun x => ret (loggamma1p earith elit elog x)) (mem_of 0 8 [Fin (-3); Fin (1/2)]) 0 2 8 0 8 (mem_of 0 8 [Fin 0; Fin 0]))
   (mem_of 0 8 [Fin 0; Fin 0]) 0 8 [ENaN; Fin a] /\ forall v, is_Gamma (3/2) v -> Rabs (a - ln v) <= 382 / 10 ^ 18.
Proof.
  destruct (C51_loggamma1p_loop (mem_of 0 8 [Fin (-3); Fin (1/2)]) 0 8 0 8 (mem_of 0 8 [Fin 0; Fin 0]) [-3; 1/2]) as (r & W & F).
  - apply (view_mem_of 0 8 [Fin (-3); Fin (1/2)]). lia.
  - apply (writable_mem_of 0 8 [Fin 0; Fin 0]). lia.
  - inversion F as [|? a ? r' H F1]. subst. inversion F1 as [|? b ? r'' H2 F2]. subst. inversion F2. subst.
    destruct (Rle_dec (-3) (-1)) as [_|N] in H; [|lra]. destruct (Rle_dec (1/2) (-1)) as [N|_] in H2; [lra|]. destruct H2 as (u & -> & B). subst a.
    exists u. split; [exact W|]. intros v G. apply B. now replace (1 + 1 / 2) with (3 / 2) by field.
Qed.
(** ** IEEE double: every finite x with -1 < x <= 2^980, all roundings included, when the C library's log is within one unit in the last place *)
Theorem C51_loggamma1p_ieee :
  forall L x v,
  good_log L -> is_finite x = true -> -1 < B2R x <= bpow radix2 980 -> is_Gamma (1 + B2R x) v ->
   is_finite (loggamma1p f64_arith f64_lit L x) = true /\ Rabs (B2R (loggamma1p f64_arith f64_lit L x) - ln v) <= loggamma1p_error (B2R x) (ln v).
Proof. exact @loggamma1p_ieee. Qed.
Print Assumptions C51_loggamma1p_ieee.
Theorem C51_loggamma1p_loop_ieee :
  forall L m p step pout ostep (out : mem f64) l,
  good_log L -> view m p step l -> writable out pout ostep (length l) ->
   exists r, writes (unary_loop (fun x => ret (loggamma1p f64_arith f64_lit L x)) m p (Z.of_nat (length l)) step pout ostep out) out pout ostep r /\
     Forall2 (fun x y => (is_nan x = true \/ x = B754_infinity true \/ (is_finite x = true /\ B2R x <= -1) -> y = B754_nan) /\ (x = B754_infinity false -> y = B754_infinity false) /\
       (is_finite x = true -> -1 < B2R x <= bpow radix2 980 -> forall v, is_Gamma (1 + B2R x) v -> is_finite y = true /\ Rabs (B2R y - ln v) <= loggamma1p_error (B2R x) (ln v))) l r.
Proof. exact @loggamma1p_loop_ieee. Qed.
Print Assumptions C51_loggamma1p_loop_ieee.
Example C51_loggamma1p_ieee_ex : is_finite (loggamma1p f64_arith f64_lit (fun z => f64_of_R (ln (B2R z))) (f64_ofZ 100)) = true /\
  Rabs (B2R (loggamma1p f64_arith f64_lit (fun z => f64_of_R (ln (B2R z))) (f64_ofZ 100)) - ln (INR (fact 100))) <= loggamma1p_error 100 (ln (INR (fact 100))).
Proof.
  assert (E : B2R (f64_ofZ 100) = 100) by (vm_compute; lra). rewrite <- E. apply C51_loggamma1p_ieee.
  - exact P_ExpintF.good_log_exists.
  - reflexivity.
  - rewrite E. split; [lra|]. apply Rle_trans with (bpow radix2 7); [change (bpow radix2 7) with 128; lra|apply bpow_le; lia].
  - rewrite E. replace (1 + 100) with (INR 100 + 1) by (rewrite INR_IZR_INZ; cbn; lra). apply C51_Gamma_factorial.
Qed.
(** the allowed error is small: at x = 1/2 it is below 10^-15 *)
Example C51_loggamma1p_error_ex v : loggamma1p_error (1 / 2) v <= / 10 ^ 15.
Proof.
  unfold loggamma1p_error. destruct (Rle_dec (1 / 2) (- (1 / 4))); [lra|]. destruct (Rlt_dec (1 / 2) 0); [lra|]. destruct (Rle_dec (1 / 2) (9 / 10)); [|lra].
  assert (bpow radix2 (-1070) <= bpow radix2 (-60)) by (apply bpow_le; lia). change (bpow radix2 (-60)) with (/ 1152921504606846976) in *. change (bpow radix2 (-53)) with (/ 9007199254740992). cbn [pow]. lra.
Qed.
(** ** C49: multivariate_logbeta with Euler's gamma function *)
Theorem C49_logbeta_Gamma :
  forall lgamma sz mx px sx x gs g,
  is_lgamma lgamma -> view mx px sx (map Fin x) -> x <> [] -> (forall a, In a x -> 0 < a) ->
  Forall2 is_Gamma x gs -> is_Gamma (rsum x) g ->
  exists r, multivariate_logbeta_core earith lgamma sz (Z.of_nat (length x)) mx px sx = Some (Fin r) /\
            exp r = fold_right Rmult 1 gs / g.
Proof. exact @logbeta_Gamma. Qed.
Print Assumptions C49_logbeta_Gamma.
Theorem C49_logbeta_integers :
  forall lgamma sz mx px sx (k : list nat),
  is_lgamma lgamma -> k <> [] -> view mx px sx (map (fun j => Fin (INR (S j))) k) ->
  exists r, multivariate_logbeta_core earith lgamma sz (Z.of_nat (length k)) mx px sx = Some (Fin r) /\
            exp r = fold_right Rmult 1 (map (fun j => INR (fact j)) k) / INR (fact (fold_right plus 0%nat (map S k) - 1)).
Proof. exact @logbeta_integers. Qed.
Print Assumptions C49_logbeta_integers.
Theorem C49_lgamma_exists :
  exists lgamma, is_lgamma lgamma.
Proof. exact @lgamma_exists. Qed.
Print Assumptions C49_lgamma_exists.
Example C49_Gamma_ex : forall lgamma, is_lgamma lgamma ->
  exists r, multivariate_logbeta_core earith lgamma 8 3 (mem_of 0 8 [Fin 3; Fin 1; Fin 2]) 0 8 = Some (Fin r) /\ exp r = 2 / 120.
Proof.
  intros lgamma H. destruct (C49_logbeta_integers lgamma 8 (mem_of 0 8 [Fin 3; Fin 1; Fin 2]) 0 8 [2; 0; 1]%nat H ltac:(discriminate)) as (r & E & V).
  - replace (map (fun j => Fin (INR (S j))) [2; 0; 1]%nat) with [Fin 3; Fin 1; Fin 2] by (cbn [map]; repeat f_equal; cbn; lra).
    apply view_mem_of. lia.
  - exists r. split; [exact E|]. rewrite V. cbn [map fold_right]. rewrite !INR_IZR_INZ. cbn. lra.
Qed.
