(** Property theorems C31: the means. *)
From Coq Require Import ZArith Reals List Bool Lia Lra Permutation.
From Flocq Require Import Core BinarySingleNaN.
From Verif Require Import CSem CSemP Num NumP M_Means S_Stat S_Means P_Means P_MeansX P_Pmean P_MeansR P_PmeanS.
Import ListNotations.
Open Scope R_scope.

(** Exact arithmetic, positive data: the three functions are the power mean [pm] of
    order 0, -1 and p; the geometric mean to the n is the product, the harmonic mean is
    n over the sum of the reciprocals. *)
Theorem C31_gmean_exact :
  forall mx px sx x,
  view mx px sx (map Fin x) -> x <> [] -> (forall a, In a x -> 0 < a) ->
   xgmean (Z.of_nat (length x)) mx px sx = Some (Fin (pm 0 (ones x))) /\ (pm 0 (ones x)) ^ (length x) = rprod x.
Proof. exact @gmean_pm. Qed.
Print Assumptions C31_gmean_exact.

Theorem C31_hmean_exact :
  forall mx px sx x,
  view mx px sx (map Fin x) -> x <> [] -> (forall a, In a x -> 0 < a) ->
   xhmean (Z.of_nat (length x)) mx px sx = Some (Fin (pm (-1) (ones x))) /\
   pm (-1) (ones x) = INR (length x) / rsum (map Rinv x).
Proof. exact @hmean_pm. Qed.
Print Assumptions C31_hmean_exact.

Theorem C31_pmean_exact :
  forall mx px sx x p,
  view mx px sx (map Fin x) -> x <> [] -> (forall a, In a x -> 0 < a) -> order_ok p ->
   xpmean (Z.of_nat (length x)) mx px sx (Fin p) = Some (Fin (pm p (ones x))).
Proof. exact @pmean_pm. Qed.
Print Assumptions C31_pmean_exact.

Theorem C31_gmeanw_exact :
  forall mx px sx mw pw sw q,
  view mx px sx (map Fin (map fst q)) -> view mw pw sw (map Fin (map snd q)) ->
   (forall e, In e q -> 0 < fst e) -> rsum (map snd q) <> 0 ->
   xgmeanw (Z.of_nat (length q)) mx px sx mw pw sw = Some (Fin (pm 0 q)).
Proof. exact @gmeanw_pm. Qed.
Print Assumptions C31_gmeanw_exact.

Theorem C31_hmeanw_exact :
  forall mx px sx mw pw sw q,
  view mx px sx (map Fin (map fst q)) -> view mw pw sw (map Fin (map snd q)) ->
   (forall e, In e q -> 0 <= snd e) -> 0 < rsum (map snd q) -> (forall e, In e q -> 0 < fst e) ->
   xhmeanw (Z.of_nat (length q)) mx px sx mw pw sw = Some (Fin (pm (-1) q)).
Proof. exact @hmeanw_pm. Qed.
Print Assumptions C31_hmeanw_exact.

Theorem C31_pmeanw_exact :
  forall mx px sx mw pw sw q p,
  view mx px sx (map Fin (map fst q)) -> view mw pw sw (map Fin (map snd q)) ->
   (forall e, In e q -> 0 <= snd e) -> 0 < rsum (map snd q) -> (forall e, In e q -> 0 < fst e) -> order_ok p ->
   xpmeanw (Z.of_nat (length q)) mx px sx mw pw sw (Fin p) = Some (Fin (pm p q)).
Proof. exact @pmeanw_pm. Qed.
Print Assumptions C31_pmeanw_exact.

(** tiny nonzero p: the first-order approximation in p, not the power mean itself *)
Theorem C31_pmean_small :
  forall mx px sx x p,
  view mx px sx (map Fin x) -> x <> [] -> (forall a, In a x -> 0 < a) ->
   p <> 0 -> Rabs p < 2 / 1000000 ->
   xpmean (Z.of_nat (length x)) mx px sx (Fin p)
   = Some (Fin (pm 0 (ones x) * (1 + p / 2 * (ravg (fun a => ln a * ln a) x - ravg ln x * ravg ln x)))).
Proof. exact @pmean_small. Qed.
Print Assumptions C31_pmean_small.

Theorem C31_pmeanw_small :
  forall mx px sx mw pw sw q p,
  view mx px sx (map Fin (map fst q)) -> view mw pw sw (map Fin (map snd q)) ->
   (forall e, In e q -> 0 <= snd e) -> 0 < rsum (map snd q) -> (forall e, In e q -> 0 < fst e) ->
   p <> 0 -> Rabs p < 2 / 1000000 ->
   xpmeanw (Z.of_nat (length q)) mx px sx mw pw sw (Fin p)
   = Some (Fin (pm 0 q * (1 + p / 2 * (wavg (fun a => ln a * ln a) q - wavg ln q * wavg ln q)))).
Proof. exact @pmeanw_small. Qed.
Print Assumptions C31_pmeanw_small.

(** ... and its distance from the power mean when the data lie in [lo, hi] *)
Theorem C31_pmean_small_accuracy :
  forall mx px sx x p lo hi,
  view mx px sx (map Fin x) -> x <> [] -> 0 < lo -> (forall a, In a x -> lo <= a <= hi) ->
   p <> 0 -> Rabs p < 2 / 1000000 -> Rabs p * ln (hi / lo) ^ 2 <= 1 ->
   exists r, xpmean (Z.of_nat (length x)) mx px sx (Fin p) = Some (Fin r) /\
     Rabs (r / pm p (ones x) - 1) <= p ^ 2 * ln (hi / lo) ^ 3 * (1 / 9 + ln (hi / lo) / 100).
Proof. exact @pmean_small_accuracy. Qed.
Print Assumptions C31_pmean_small_accuracy.

Theorem C31_pmeanw_small_accuracy :
  forall mx px sx mw pw sw q p lo hi,
  view mx px sx (map Fin (map fst q)) -> view mw pw sw (map Fin (map snd q)) ->
   (forall e, In e q -> 0 <= snd e) -> 0 < rsum (map snd q) -> 0 < lo -> (forall e, In e q -> lo <= fst e <= hi) ->
   p <> 0 -> Rabs p < 2 / 1000000 -> Rabs p * ln (hi / lo) ^ 2 <= 1 ->
   exists r, xpmeanw (Z.of_nat (length q)) mx px sx mw pw sw (Fin p) = Some (Fin r) /\
     Rabs (r / pm p q - 1) <= p ^ 2 * ln (hi / lo) ^ 3 * (1 / 9 + ln (hi / lo) / 100).
Proof. exact @pmeanw_small_accuracy. Qed.
Print Assumptions C31_pmeanw_small_accuracy.

(** ... which is half a percent for two normal doubles a thousand binary orders of
    magnitude apart *)
Theorem C31_pmean_small_refuted :
  exists mx px sx (x : list R) p r, view mx px sx (map Fin x) /\ x <> [] /\
   (forall a, In a x -> Rpower 2 (-1022) <= a <= Rpower 2 1023) /\ p = 19 / 10000000 /\
   xpmean (Z.of_nat (length x)) mx px sx (Fin p) = Some (Fin r) /\ r < 995 / 1000 * pm p (ones x).
Proof. exact @pmean_small_refuted. Qed.
Print Assumptions C31_pmean_small_refuted.


(** order 1 is the arithmetic mean, orders -1 and 0 are hmean and gmean for all data,
    infinite orders the extrema *)
Theorem C31_pmean_one :
  forall mx px sx x,
  view mx px sx (map Fin x) -> x <> [] -> (forall a, In a x -> 0 < a) ->
   xpmean (Z.of_nat (length x)) mx px sx (Fin 1) = Some (Fin (rmean x)).
Proof. exact @pmean_one. Qed.
Print Assumptions C31_pmean_one.

Theorem C31_pmean_hmean :
  forall n mx px sx,
  xpmean n mx px sx (Fin (-1)) = xhmean n mx px sx.
Proof. exact @pmean_m1. Qed.
Print Assumptions C31_pmean_hmean.

Theorem C31_pmean_gmean :
  forall n mx px sx,
  xpmean n mx px sx (Fin 0) = xgmean n mx px sx.
Proof. exact @pmean_0. Qed.
Print Assumptions C31_pmean_gmean.

Theorem C31_pmeanw_hmean :
  forall n mx px sx mw pw sw,
  xpmeanw n mx px sx mw pw sw (Fin (-1)) = xhmeanw n mx px sx mw pw sw.
Proof. exact @pmeanw_m1. Qed.
Print Assumptions C31_pmeanw_hmean.

Theorem C31_pmeanw_gmean :
  forall n mx px sx mw pw sw,
  xpmeanw n mx px sx mw pw sw (Fin 0) = xgmeanw n mx px sx mw pw sw.
Proof. exact @pmeanw_0. Qed.
Print Assumptions C31_pmeanw_gmean.

Theorem C31_pmean_inf :
  forall mx px sx x pos,
  view mx px sx (map Fin x) -> x <> [] -> (forall a, In a x -> 0 <= a) ->
   exists v, xpmean (Z.of_nat (length x)) mx px sx (if pos : bool then PInf else NInf) = Some (Fin v) /\
     In v x /\ forall a, In a x -> if pos then a <= v else v <= a.
Proof. exact @pmean_inf. Qed.
Print Assumptions C31_pmean_inf.

(** the power-mean inequality, and every mean lies between the bounds of the data *)
Theorem C31_pmean_ordered :
  forall mx px sx x p r,
  view mx px sx (map Fin x) -> x <> [] -> (forall a, In a x -> 0 < a) ->
   order_ok p -> order_ok r -> p <= r ->
   exists u v, xpmean (Z.of_nat (length x)) mx px sx (Fin p) = Some (Fin u) /\
     xpmean (Z.of_nat (length x)) mx px sx (Fin r) = Some (Fin v) /\ u <= v /\
     forall lo hi, (forall a, In a x -> lo <= a <= hi) -> lo <= u /\ v <= hi.
Proof. exact @means_ordered. Qed.
Print Assumptions C31_pmean_ordered.

Theorem C31_pm_between :
  forall q p lo hi,
  (forall e, In e q -> 0 <= snd e) -> 0 < rsum (map snd q) -> 0 < lo ->
   (forall e, In e q -> lo <= fst e <= hi) -> lo <= pm p q <= hi.
Proof. exact @pm_between. Qed.
Print Assumptions C31_pm_between.

Theorem C31_pm_mono :
  forall q p r,
  (forall e, In e q -> 0 < fst e) -> (forall e, In e q -> 0 <= snd e) -> 0 < rsum (map snd q) ->
   p <= r -> pm p q <= pm r q.
Proof. exact @pm_mono. Qed.
Print Assumptions C31_pm_mono.

Theorem C31_pm_homogeneous :
  forall p q c,
  0 < c -> (forall e, In e q -> 0 <= snd e) -> 0 < rsum (map snd q) -> (forall e, In e q -> 0 < fst e) ->
   pm p (map (fun e => (c * fst e, snd e)) q) = c * pm p q.
Proof. exact @pm_homog. Qed.
Print Assumptions C31_pm_homogeneous.

Theorem C31_pm_perm :
  forall p q q',
  Permutation q q' -> pm p q = pm p q'.
Proof. exact @pm_perm. Qed.
Print Assumptions C31_pm_perm.

Theorem C31_equal_weights :
  forall mx px sx mw pw sw x c p,
  view mx px sx (map Fin x) -> view mw pw sw (map (fun _ => Fin c) x) ->
   x <> [] -> (forall a, In a x -> 0 < a) -> 0 < c -> order_ok p ->
   xpmeanw (Z.of_nat (length x)) mx px sx mw pw sw (Fin p) = xpmean (Z.of_nat (length x)) mx px sx (Fin p).
Proof. exact @pmeanw_equal_weights. Qed.
Print Assumptions C31_equal_weights.

(** zeros in the data *)
Theorem C31_pmean_nonneg :
  forall (p : R) (Hthr : 2 / 1000000 <= Rabs p) (Hm1 : p <> -1) mx px sx x,
  view mx px sx (map Fin x) -> x <> [] -> (forall a, In a x -> 0 <= a) ->
     (p < 0 -> forall a, In a x -> 0 < a) ->
     xpmean (Z.of_nat (length x)) mx px sx (Fin p) = Some (Fin (rpow (ravg (fun a => rpow a p) x) (/ p))).
Proof. exact @pmean_exact. Qed.
Print Assumptions C31_pmean_nonneg.

Theorem C31_pmeanw_nonneg :
  forall (p : R) (Hthr : 2 / 1000000 <= Rabs p) (Hm1 : p <> -1) mx px sx mw pw sw q,
  view mx px sx (map Fin (map fst q)) -> view mw pw sw (map Fin (map snd q)) ->
     (forall e, In e q -> 0 <= snd e) -> 0 < rsum (map snd q) -> (forall e, In e q -> 0 <= fst e) -> (p < 0 -> forall e, In e q -> 0 < fst e) ->
     xpmeanw (Z.of_nat (length q)) mx px sx mw pw sw (Fin p) = Some (Fin (rpow (wavg (fun a => rpow a p) q) (/ p))).
Proof. exact @pmeanw_exact. Qed.
Print Assumptions C31_pmeanw_nonneg.

Theorem C31_pmean_zero :
  forall (p : R) (Hthr : 2 / 1000000 <= Rabs p) (Hm1 : p <> -1) mx px sx x,
  view mx px sx (map Fin x) -> (forall a, In a x -> 0 <= a) -> In 0 x -> p < 0 ->
     xpmean (Z.of_nat (length x)) mx px sx (Fin p) = Some (Fin 0).
Proof. exact @pmean_zero. Qed.
Print Assumptions C31_pmean_zero.

Theorem C31_hmean_zero :
  forall mx px sx x,
  view mx px sx x -> In (Fin 0) x -> 
   xhmean (Z.of_nat (length x)) mx px sx = Some (Fin 0).
Proof. exact @hmean_zero. Qed.
Print Assumptions C31_hmean_zero.

(** NaN or negative data gives NaN for p other than -1 *)
Theorem C31_pmean_bad :
  forall (p : R) (Hthr : 2 / 1000000 <= Rabs p) (Hm1 : p <> -1) mx px sx x,
  view mx px sx x -> (exists v, In v x /\ (isnanb ecmp v = true \/ ltb ecmp v (Fin 0) = true)) ->
     xpmean (Z.of_nat (length x)) mx px sx (Fin p) = Some ENaN.
Proof. exact @pmean_bad. Qed.
Print Assumptions C31_pmean_bad.

(** special values of gmean in any arithmetic, in particular IEEE *)
Theorem C31_gmean_nan :
  forall {T : Type} (A : arith T) (L : cmp_laws (a_cmp A)) (TR : transc T) mx px sx x,
  view mx px sx x -> (exists v, In v x /\ gbad A v = true) ->
     gmean_1d A TR (Z.of_nat (length x)) mx px sx = Some (a_nan A).
Proof. exact @gmean_nan. Qed.
Print Assumptions C31_gmean_nan.

Theorem C31_gmeanw_nan :
  forall {T : Type} (A : arith T) (L : cmp_laws (a_cmp A)) (TR : transc T) mx px sx x mw pw sw w,
  view mx px sx x -> view mw pw sw w -> length w = length x ->
     (exists v, In v x /\ gbad A v = true) ->
     gmeanw_1d A TR (Z.of_nat (length x)) mx px sx mw pw sw = Some (a_nan A).
Proof. exact @gmeanw_nan. Qed.
Print Assumptions C31_gmeanw_nan.

Theorem C31_gmean_zero_inf :
  forall {T : Type} (A : arith T) (TR : transc T) mx px sx x,
  view mx px sx x -> (forall v, In v x -> gbad A v = false) ->
     (exists v, In v x /\ a_isinf A v = true) -> (exists v, In v x /\ a_isinf A v = false /\ eqb (a_cmp A) v (a_ofZ A 0) = true) ->
     gmean_1d A TR (Z.of_nat (length x)) mx px sx = Some (a_nan A).
Proof. exact @gmean_zero_inf. Qed.
Print Assumptions C31_gmean_zero_inf.

Theorem C31_gmean_inf :
  forall {T : Type} (A : arith T) (TR : transc T) mx px sx x,
  view mx px sx x -> (forall v, In v x -> gbad A v = false) ->
     (exists v, In v x /\ a_isinf A v = true) -> (forall v, In v x -> eqb (a_cmp A) v (a_ofZ A 0) = false) ->
     gmean_1d A TR (Z.of_nat (length x)) mx px sx = Some (a_inf A).
Proof. exact @gmean_inf. Qed.
Print Assumptions C31_gmean_inf.

Theorem C31_gmean_zero :
  forall {T : Type} (A : arith T) (TR : transc T) mx px sx x,
  view mx px sx x -> (forall v, In v x -> gbad A v = false) ->
     (forall v, In v x -> a_isinf A v = false) -> (exists v, In v x /\ eqb (a_cmp A) v (a_ofZ A 0) = true) ->
     gmean_1d A TR (Z.of_nat (length x)) mx px sx = Some (a_ofZ A 0).
Proof. exact @gmean_zero. Qed.
Print Assumptions C31_gmean_zero.

(** weights that sum to 0 *)
Theorem C31_gmeanw_zero_weight :
  forall mx px sx mw pw sw q,
  view mx px sx (map Fin (map fst q)) -> view mw pw sw (map Fin (map snd q)) ->
   q <> [] -> (forall e, In e q -> 0 < fst e) -> rsum (map snd q) = 0 ->
   xgmeanw (Z.of_nat (length q)) mx px sx mw pw sw = Some ENaN \/ exists c, (forall e, In e q -> fst e = c) /\
    xgmeanw (Z.of_nat (length q)) mx px sx mw pw sw = Some (Fin c).
Proof. exact @gmeanw_zero_weight. Qed.
Print Assumptions C31_gmeanw_zero_weight.

(** the loop over rows *)
Theorem C31_rows :
  forall {T} (row : Z -> M T) (vals : list T) n mo po so,
  n <> 0%Z ->
   writable mo po so (length vals) ->
   (forall i v, nth_error vals i = Some v -> row (Z.of_nat i) = Some v) ->
   exists mo', means_loop row (Z.of_nat (length vals)) n mo po so = Some (inr mo') /\ wrote mo mo' po so vals.
Proof. exact @means_loop_rows. Qed.
Print Assumptions C31_rows.

Theorem C56_means_empty :
  forall {T} (row : Z -> M T) n0 mo po so, means_loop row n0 0 mo po so = Some (inl tt).
Proof. reflexivity. Qed.
Print Assumptions C56_means_empty.

(** negative data is not rejected for p = -1; -inf counts as +inf in gmean; zero
    weights are ignored for constant data; zeros with tiny p give NaN *)
Theorem C31_hmean_negative_refuted :
  exists mx px sx (x : list R), view mx px sx (map Fin x) /\ (forall a, In a x -> a < 0) /\
   xpmean (Z.of_nat (length x)) mx px sx (Fin (-1)) = Some (Fin (-2)) /\
   xpmean (Z.of_nat (length x)) mx px sx (Fin (-2)) = Some ENaN.
Proof. exact @hmean_negative_refuted. Qed.
Print Assumptions C31_hmean_negative_refuted.

Theorem C31_gmean_neginf_refuted :
  exists mx px sx, view mx px sx [NInf; Fin 1] /\ xgmean 2 mx px sx = Some PInf.
Proof. exact @gmean_neginf_refuted. Qed.
Print Assumptions C31_gmean_neginf_refuted.

Theorem C31_gmeanw_zero_weights_refuted :
  exists mx mw, view mx 0 8 [Fin 3; Fin 3] /\ view mw 0 8 [Fin 0; Fin 0] /\
   xgmeanw 2 mx 0 8 mw 0 8 = Some (Fin 3).
Proof. exact @gmeanw_zero_weights_refuted. Qed.
Print Assumptions C31_gmeanw_zero_weights_refuted.

Theorem C31_pmean_small_zero_refuted :
  exists mx, view mx 0 8 [Fin 0; Fin 1] /\
   xpmean 2 mx 0 8 (Fin (1 / 1000000)) = Some ENaN.
Proof. exact @pmean_small_zero_refuted. Qed.
Print Assumptions C31_pmean_small_zero_refuted.

(** The hypotheses are met by x = [1; 4] with p = 0 and p = -1: gmean 2, hmean 8/5. *)
Example C31_ex : exists mx, view mx 0 8 (map Fin [1; 4]) /\
  xgmean 2 mx 0 8 = Some (Fin (sqrt 4)) /\ xhmean 2 mx 0 8 = Some (Fin (8 / 5)).
Proof.
  exists (mem_of 0 8 (map Fin [1; 4])).
  assert (V : view (mem_of 0 8 (map Fin [1; 4])) 0 8 (map Fin [1; 4])) by (apply view_mem_of; lia).
  assert (P : forall a, In a [1; 4] -> 0 < a) by (intros a [<-|[<-|[]]]; lra).
  split; [exact V|]. split.
  - destruct (gmean_pm _ 0 8 [1; 4] V ltac:(discriminate) P) as [E E2]. cbn [length] in E. change (Z.of_nat 2) with 2%Z in E.
    rewrite E. do 2 f_equal. symmetry. apply sqrt_lem_1; [lra|left; unfold pm; destruct (Req_EM_T 0 0); apply exp_pos|].
    cbn [rprod length] in E2. lra.
  - destruct (hmean_pm _ 0 8 [1; 4] V ltac:(discriminate) P) as [E E2]. cbn [length] in E. change (Z.of_nat 2) with 2%Z in E.
    rewrite E. do 2 f_equal. rewrite E2. cbn [map rsum length INR]. field.
Qed.

(** The accuracy bound at x = [1; 2], p = 1e-6: a relative error below 1e-12. *)
Example C31_small_ex : exists mx r, view mx 0 8 (map Fin [1; 2]) /\
  xpmean 2 mx 0 8 (Fin (1 / 1000000)) = Some (Fin r) /\ Rabs (r / pm (1 / 1000000) (ones [1; 2]) - 1) <= / 10 ^ 12.
Proof.
  assert (V : view (mem_of 0 8 (map Fin [1; 2])) 0 8 (map Fin [1; 2])) by (apply view_mem_of; lia).
  assert (L : 0 <= ln (2 / 1) <= 1).
  { replace (2 / 1) with 2 by field. split; [rewrite <- ln_1; apply ln_mono; lra|]. rewrite <- (ln_exp 1). apply ln_mono; [lra|]. pose proof (exp_ineq1 1). lra. }
  destruct (pmean_small_accuracy _ 0 8 [1; 2] (1 / 1000000) 1 2 V) as (r & E & B); try discriminate; try lra.
  - intros a [<-|[<-|[]]]; lra.
  - rewrite Rabs_pos_eq; lra.
  - rewrite Rabs_pos_eq by lra. nra.
  - exists (mem_of 0 8 (map Fin [1; 2])), r. split; [exact V|]. split; [exact E|]. eapply Rle_trans; [exact B|].
    set (l := ln (2 / 1)) in *. clearbody l. assert (0 <= l ^ 3 <= 1) by (cbn [pow]; nra).
    assert (0 <= l ^ 3 * (1 / 9 + l / 100) <= 1) by nra. rewrite Rmult_assoc. replace ((1 / 1000000) ^ 2) with (/ 10 ^ 12) by field. nra.
Qed.
