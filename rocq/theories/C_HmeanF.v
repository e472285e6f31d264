(** Property theorems C31: rounding error of the weighted harmonic mean *)
From Coq Require Import ZArith Reals List Bool Lia Lra.
From Flocq Require Import Core BinarySingleNaN Relative.
From Verif Require Import CSem CSemP Num M_Means S_Stat P_StepF P_HmeanF.
Import ListNotations.
Open Scope R_scope.

(** IEEE arithmetic in every binary format, any number of values: the data (value, weight) are positive
    with weights that are not negative, and no quotient weight/value underflows.  The relative error
    grows with the number of values, not with their size. *)
Theorem C31_hmeanw_bound :
  forall (prec emax : Z) (Hp : Prec_gt_0 prec) (He : Prec_lt_emax prec emax) (Hp1 : (1 < prec)%Z)
    mx px sx mw pw sw (q : list (binary_float prec emax * binary_float prec emax)) v,
  let u := u_ro radix2 prec in let emin := (3 - emax - prec)%Z in
  view mx px sx (map fst q) -> view mw pw sw (map snd q) ->
  (forall e, In e q -> is_finite (fst e) = true /\ 0 < B2R (fst e) /\ 0 <= B2R (snd e) /\
     (B2R (snd e) = 0 \/ bpow radix2 (emin + prec - 1) <= B2R (snd e) / B2R (fst e))) ->
  hmeanw_1d (farith prec emax Hp He) (Z.of_nat (length q)) mx px sx mw pw sw = Some v -> is_finite_strict v = true ->
  let r := rsum (map (fun e => B2R (snd e)) q) / rsum (map (fun e => B2R (snd e) / B2R (fst e)) q) in
  Rabs (B2R v - r) <= ((1 + u) ^ (3 * length q + 4) - 1) * r + / 2 * bpow radix2 emin.
Proof. exact @hmeanw_bound. Qed.
Print Assumptions C31_hmeanw_bound.

(** the values 3 and 7 with weights 1 and 2 *)
Definition ex_data : list (f64 * f64) := [(f64_ofZ 3, f64_ofZ 1); (f64_ofZ 7, f64_ofZ 2)].
Example C31_hmeanw_bound_ex :
  (forall e, In e ex_data -> is_finite (fst e) = true /\ 0 < B2R (fst e) /\ 0 <= B2R (snd e) /\
     (B2R (snd e) = 0 \/ bpow radix2 ((3 - f64_emax - f64_prec) + f64_prec - 1) <= B2R (snd e) / B2R (fst e))) /\
  exists v, hmeanw_1d f64_arith 2 (mem_of 0 8 (map fst ex_data)) 0 8 (mem_of 0 8 (map snd ex_data)) 0 8 = Some v /\ is_finite_strict v = true.
Proof.
  assert (P11 : (11 <= f64_prec)%Z) by (unfold f64_prec; lia).
  assert (EZ : forall z, (Z.abs z <= 1024)%Z -> is_finite (f64_ofZ z) = true /\ B2R (f64_ofZ z) = IZR z) by (intros z; apply (small_int f64_prec f64_emax f64_Hp f64_He P11)).
  assert (SM : bpow radix2 ((3 - f64_emax - f64_prec) + f64_prec - 1) <= / 8) by (change (/ 8) with (bpow radix2 (-3)); apply bpow_le; unfold f64_emax, f64_prec; lia).
  destruct (EZ 3%Z ltac:(lia)) as [F3 R3]. destruct (EZ 1%Z ltac:(lia)) as [F1 R1]. destruct (EZ 7%Z ltac:(lia)) as [F7 R7]. destruct (EZ 2%Z ltac:(lia)) as [F2 R2]. split.
  - intros e [<-|[<-|[]]]; cbn [fst snd]; [rewrite R3, R1|rewrite R7, R2]; (split; [assumption|]); (split; [lra|]); (split; [lra|]); right; lra.
  - assert (E : option_map (@is_finite_strict f64_prec f64_emax) (hmeanw_1d f64_arith 2 (mem_of 0 8 (map fst ex_data)) 0 8 (mem_of 0 8 (map snd ex_data)) 0 8) = Some true) by (vm_compute; reflexivity).
    destruct (hmeanw_1d f64_arith 2 _ 0 8 _ 0 8) as [v|]; [|discriminate]. exists v. split; [reflexivity|]. injection E as E. exact E.
Qed.
