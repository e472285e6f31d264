(** Property theorems C23-C30 and C49: reductions (sums, means, norms, correlation). *)
From Coq Require Import ZArith Reals List Bool Lia Lra SpecFloat Permutation.
From Flocq Require Import Core BinarySingleNaN.
From Flocq Require Import Relative.
From Verif Require Import CSem CSemP Num NumP NumF M_Stat S_Stat P_Kbn P_MeanVar P_Mad P_Vnorm P_Corr P_CorrF P_Soft P_SumF P_StatR.
Import ListNotations.
Open Scope R_scope.

(** ** C23 kbnsum.  Exact arithmetic, any stride: the sum. *)
Theorem C23_kbnsum_exact :
  forall sz mx px sx x,
  view mx px sx (map Fin x) ->
  kbnsum_core_calc earith sz (Z.of_nat (length x)) mx px sx = Some (Fin (rsum x)).
Proof. exact @kbnsum_exact. Qed.
Print Assumptions C23_kbnsum_exact.

(** IEEE, finite data and result: the accumulated correction is built from the exact
    rounding error of every partial sum *)
Theorem C23_kbnsum_ieee :
  forall (prec emax : Z) (Hp : Prec_gt_0 prec) (He : Prec_lt_emax prec emax) (Hp1 : (1 < prec)%Z) sz mx px sx (x : list (binary_float prec emax)) v,
  view mx px sx x -> (forall a, In a x -> is_finite a = true) ->
  kbnsum_core_calc (farith prec emax Hp He) sz (Z.of_nat (length x)) mx px sx = Some v -> is_finite v = true ->
  exists e, length e = length x /\
    v = a_add (farith prec emax Hp He) (fsum (farith prec emax Hp He) x) (fsum (farith prec emax Hp He) e) /\
    B2R (fsum (farith prec emax Hp He) x) + rsum (map B2R e) = rsum (map B2R x) /\
    (forall k ek, nth_error e k = Some ek -> is_finite ek = true /\
       exists xk, nth_error x k = Some xk /\
         B2R ek = B2R (fsum (farith prec emax Hp He) (firstn k x)) + B2R xk - B2R (fsum (farith prec emax Hp He) (firstn (S k) x))).
Proof. exact @kbnsum_ieee. Qed.
Print Assumptions C23_kbnsum_ieee.

(** IEEE error bound: first order in the unit roundoff only through |sum| *)
Theorem C23_kbnsum_bound :
  forall (prec emax : Z) (Hp : Prec_gt_0 prec) (He : Prec_lt_emax prec emax) (Hp1 : (1 < prec)%Z) sz mx px sx (x : list (binary_float prec emax)) v,
  view mx px sx x -> (forall a, In a x -> is_finite a = true) ->
  kbnsum_core_calc (farith prec emax Hp He) sz (Z.of_nat (length x)) mx px sx = Some v -> is_finite v = true ->
  let u := u_ro radix2 prec in let n := length x in let S := rsum (map B2R x) in
  Rabs (B2R v - S)
    <= u * Rabs S + (1 + u) * (((1 + u) ^ n - 1) * (INR n * (u * (1 + u) ^ n))) * rsumabs (map B2R x).
Proof. exact @kbnsum_bound. Qed.
Print Assumptions C23_kbnsum_bound.

(** contiguous data with NaN or infinities: as plain addition *)
Theorem C23_kbnsum_nonfinite_partial :
  forall (prec emax : Z) (Hp : Prec_gt_0 prec) (He : Prec_lt_emax prec emax) sz mx px (x : list (binary_float prec emax)),
  view mx px sz x -> (exists a, In a x /\ is_finite a = false) ->
  exists v, kbnsum_core_calc (farith prec emax Hp He) sz (Z.of_nat (length x)) mx px sz = Some v /\
    ((In B754_nan x \/ (In (B754_infinity false) x /\ In (B754_infinity true) x)) -> v = B754_nan) /\
    (forall s, In (B754_infinity s) x -> ~ In B754_nan x -> ~ In (B754_infinity (negb s)) x -> v = B754_infinity s).
Proof. exact @kbnsum_nonfinite. Qed.
Print Assumptions C23_kbnsum_nonfinite_partial.

(** not for other strides: wrong elements are read, or memory outside the array *)
Local Open Scope Z_scope.
Theorem C23_kbnsum_stride_refuted :
  exists (mx : mem f64) sx (x : list f64), view mx 0 sx x /\ length x = 2%nat /\
    (forall a, In a x -> is_nan a = false /\ a <> B754_infinity true) /\
    option_map is_nan (kbnsum_core_calc f64_arith 8 2 mx 0 sx) = Some true.
Proof. exact @kbnsum_stride_refuted. Qed.
Print Assumptions C23_kbnsum_stride_refuted.
Local Close Scope Z_scope.

Local Open Scope Z_scope.
Theorem C23_kbnsum_reversed_refuted :
  exists (mx : mem f64) px sx (x : list f64), view mx px sx x /\ length x = 2%nat /\
    kbnsum_core_calc f64_arith 8 2 mx px sx = None.
Proof. exact @kbnsum_reversed_refuted. Qed.
Print Assumptions C23_kbnsum_reversed_refuted.
Local Close Scope Z_scope.

Local Open Scope Z_scope.
Theorem C23_kbnsum_overflow_refuted :
  exists x : list f64, (forall a, In a x -> is_finite a = true) /\
    B2SF (fsum f64_arith x) = S754_infinity false /\
    option_map is_nan (kbnsum_core_calc f64_arith 8 (Z.of_nat (length x)) (mem_of 0 8 x) 0 8) = Some true.
Proof. exact @kbnsum_overflow_refuted. Qed.
Print Assumptions C23_kbnsum_overflow_refuted.
Local Close Scope Z_scope.

Example C23_ex :
  option_map B2SF (kbnsum_core_calc f64_arith 8 4 (mem_of 0 8 (map f64_ofZ [1; 2 ^ 100; 1; - 2 ^ 100]%Z)) 0 8)
    = Some (B2SF (f64_ofZ 2)) /\
  option_map is_nan (kbnsum_core_calc f64_arith 8 3 (mem_of 0 8 [pinf64; f64_ofZ 1; B754_infinity true]) 0 8) = Some true.
Proof. split; vm_compute; reflexivity. Qed.

(** ** C24 meanvar *)
Theorem C24_meanvar_exact :
  forall {T} (up : T -> ER) (rf : T -> R) mx px sx x ddof mo po so,
  view mx px sx x -> writable mo po so 2 -> x <> [] -> (forall a, In a x -> up a = Fin (rf a)) ->
  Z.of_nat (length x) <> ddof ->
  writes (meanvar_core earith up (Z.of_nat (length x)) mx px sx ddof mo po so) mo po so
    [Fin (rmean (map rf x)); Fin (rss (map rf x) / IZR (Z.of_nat (length x) - ddof))].
Proof. exact @meanvar_exact. Qed.
Print Assumptions C24_meanvar_exact.

Theorem C24_meanvar_var_zero_iff :
  forall {T} (up : T -> ER) (rf : T -> R) mx px sx x ddof mo po so m v,
  view mx px sx x -> writable mo po so 2 -> x <> [] -> (forall a, In a x -> up a = Fin (rf a)) ->
  (ddof < Z.of_nat (length x))%Z ->
  writes (meanvar_core earith up (Z.of_nat (length x)) mx px sx ddof mo po so) mo po so [m; v] ->
  exists r, v = Fin r /\ 0 <= r /\ (r = 0 <-> constant (map rf x)).
Proof. exact @meanvar_var_zero_iff. Qed.
Print Assumptions C24_meanvar_var_zero_iff.

Theorem C24_meanvar_affine :
  forall {T} (up : T -> ER) (rf : T -> R) mx px sx x my py sy y ddof mo po so mo' po' so' a b m v m' v',
  view mx px sx x -> view my py sy y -> x <> [] ->
  (forall t, In t x -> up t = Fin (rf t)) -> (forall t, In t y -> up t = Fin (rf t)) ->
  map rf y = map (fun t => a * rf t + b) x ->
  writable mo po so 2 -> writable mo' po' so' 2 -> Z.of_nat (length x) <> ddof ->
  writes (meanvar_core earith up (Z.of_nat (length x)) mx px sx ddof mo po so) mo po so [Fin m; Fin v] ->
  writes (meanvar_core earith up (Z.of_nat (length y)) my py sy ddof mo' po' so') mo' po' so' [m'; v'] ->
  m' = Fin (a * m + b) /\ v' = Fin (a * a * v).
Proof. exact @meanvar_affine. Qed.
Print Assumptions C24_meanvar_affine.

(** ddof = n: the variance is 0/0 or positive/0 *)
Theorem C24_meanvar_ddof_n :
  forall {T} (up : T -> ER) (rf : T -> R) mx px sx x mo po so,
  view mx px sx x -> writable mo po so 2 -> x <> [] -> (forall a, In a x -> up a = Fin (rf a)) ->
  exists v, writes (meanvar_core earith up (Z.of_nat (length x)) mx px sx (Z.of_nat (length x)) mo po so) mo po so
    [Fin (rmean (map rf x)); v] /\ (constant (map rf x) -> v = ENaN) /\ (~ constant (map rf x) -> v = PInf).
Proof. exact @meanvar_ddof_n. Qed.
Print Assumptions C24_meanvar_ddof_n.

(** IEEE: NaN propagates to both outputs; constant data has exactly that mean and variance 0 *)
Theorem C24_meanvar_nan :
  forall (prec emax : Z) (Hp : Prec_gt_0 prec) (He : Prec_lt_emax prec emax) {T} (up : T -> binary_float prec emax) mx px sx x ddof mo po so,
  view mx px sx x -> writable mo po so 2 -> (exists a, In a x /\ up a = B754_nan) ->
  writes (meanvar_core (farith prec emax Hp He) up (Z.of_nat (length x)) mx px sx ddof mo po so) mo po so [B754_nan; B754_nan].
Proof. exact @meanvar_nan. Qed.
Print Assumptions C24_meanvar_nan.

Theorem C24_meanvar_const :
  forall (prec emax : Z) (Hp : Prec_gt_0 prec) (He : Prec_lt_emax prec emax) {T} (up : T -> binary_float prec emax) mx px sx x ddof mo po so c,
  view mx px sx x -> writable mo po so 2 -> x <> [] -> (forall a, In a x -> f2e _ _ (up a) = Fin c) ->
  Z.of_nat (length x) <> ddof ->
  exists mean var, writes (meanvar_core (farith prec emax Hp He) up (Z.of_nat (length x)) mx px sx ddof mo po so) mo po so [mean; var] /\
    f2e _ _ mean = Fin c /\ f2e _ _ var = Fin 0.
Proof. exact @meanvar_const. Qed.
Print Assumptions C24_meanvar_const.

Local Open Scope Z_scope.
Theorem C24_inf_order_refuted :
  exists a b : f64, is_nan a = false /\ is_nan b = false /\
    let mv x := option_map (fun mo : mem f64 => option_map B2SF (mo 0))
                  (meanvar_core f64_arith (fun v : f64 => v) 2 (mem_of 0 8 x) 0 8 0 (mem_of 0 8 [a; a]) 0 8) in
    mv [a; b] = Some (Some (S754_infinity false)) /\ mv [b; a] = Some (Some S754_nan).
Proof. exact @meanvar_inf_order_refuted. Qed.
Print Assumptions C24_inf_order_refuted.
Local Close Scope Z_scope.

Example C24_ex :
  option_map (fun mo : mem f64 => (option_map B2SF (mo 0%Z), option_map B2SF (mo 8%Z)))
    (meanvar_core f64_arith f64_ofZ 4 (mem_of 0 8 [2; 4; 4; 6]%Z) 0 8 2 (mem_of 0 8 [f64_ofZ 0; f64_ofZ 0]) 0 8)
  = Some (Some (B2SF (f64_ofZ 4)), Some (B2SF (f64_ofZ 4))).
Proof. vm_compute. reflexivity. Qed.

(** ** C25 mad, rmad, gini *)
Theorem C25_mad_exact :
  forall (sortf : list ER -> list ER) (C : sort_contract ecmp sortf) mx px sx x,
  view mx px sx (map Fin x) -> x <> [] ->
     let n := INR (length x) in
     mad_core earith sortf (Z.of_nat (length x)) mx px sx false = Some (Fin (rpairs x / (n * n))) /\
     ((1 < length x)%nat -> mad_core earith sortf (Z.of_nat (length x)) mx px sx true = Some (Fin (rpairs x / (n * (n - 1))))) /\
     (length x = 1%nat -> mad_core earith sortf (Z.of_nat (length x)) mx px sx true = Some ENaN).
Proof. exact @mad_exact. Qed.
Print Assumptions C25_mad_exact.

Theorem C25_gini_rmad_exact :
  forall (sortf : list ER -> list ER) (C : sort_contract ecmp sortf) mx px sx x (unb : bool),
  view mx px sx (map Fin x) -> x <> [] ->
     let n := INR (length x) in let d := (if unb then n - 1 else n) * rsum x in
     (d <> 0 -> gini_core earith sortf (Z.of_nat (length x)) mx px sx unb = Some (Fin (rpairs x / (2 * d))) /\
                rmad_core earith sortf (Z.of_nat (length x)) mx px sx unb = Some (Fin (rpairs x / d))) /\
     (d = 0 -> rpairs x = 0 -> gini_core earith sortf (Z.of_nat (length x)) mx px sx unb = Some ENaN /\
                               rmad_core earith sortf (Z.of_nat (length x)) mx px sx unb = Some ENaN) /\
     (d = 0 -> rpairs x <> 0 -> gini_core earith sortf (Z.of_nat (length x)) mx px sx unb = Some PInf /\
                                rmad_core earith sortf (Z.of_nat (length x)) mx px sx unb = Some PInf).
Proof. exact @gini_exact. Qed.
Print Assumptions C25_gini_rmad_exact.

Theorem C25_gini_range :
  forall (sortf : list ER -> list ER) (C : sort_contract ecmp sortf) mx px sx x (unb : bool) v,
  view mx px sx (map Fin x) -> (forall a, In a x -> 0 <= a) -> 0 < rsum x -> (unb = true -> 1 < length x)%nat ->
  gini_core earith sortf (Z.of_nat (length x)) mx px sx unb = Some v ->
  exists g, v = Fin g /\ 0 <= g <= 1 /\ (unb = false -> g <= 1 - / INR (length x)).
Proof. exact @gini_range. Qed.
Print Assumptions C25_gini_range.

(** order independence, in any arithmetic (IEEE included) *)
Theorem C25_order_independent :
  forall {T} (A : arith T) (sortf : list T -> list T) (L : cmp_laws (a_cmp A)) mx px sx my py sy (x y : list T) unb,
  sort_contract (a_cmp A) sortf -> view mx px sx x -> view my py sy y -> Permutation x y ->
  (forall a, In a x -> isnanb (a_cmp A) a = false) ->
  (forall a b, In a x -> In b x -> a_cmp A a b = Some Eq -> a = b) ->
  mad_core A sortf (Z.of_nat (length x)) mx px sx unb = mad_core A sortf (Z.of_nat (length y)) my py sy unb /\
  gini_core A sortf (Z.of_nat (length x)) mx px sx unb = gini_core A sortf (Z.of_nat (length y)) my py sy unb /\
  rmad_core A sortf (Z.of_nat (length x)) mx px sx unb = rmad_core A sortf (Z.of_nat (length y)) my py sy unb.
Proof. exact @mad_perm. Qed.
Print Assumptions C25_order_independent.

(** NaN input violates the precondition of std::sort *)
Local Open Scope Z_scope.
Theorem C25_nan_refuted :
  forall {T} (A : arith T) sortf mx px sx x unb,
  view mx px sx x -> (exists a, In a x /\ isnanb (a_cmp A) a = true) ->
  mad_core A sortf (Z.of_nat (length x)) mx px sx unb = None /\
  gini_core A sortf (Z.of_nat (length x)) mx px sx unb = None /\
  rmad_core A sortf (Z.of_nat (length x)) mx px sx unb = None.
Proof. exact @mad_nan_refuted. Qed.
Print Assumptions C25_nan_refuted.
Local Close Scope Z_scope.

(** a sort meeting the contract exists, so the theorems above are not vacuous *)
Example C25_ex :
  sort_contract ecmp (isort ecmp) /\
  option_map B2SF (mad_core f64_arith (isort f64_cmp) 4 (mem_of 0 8 (map f64_ofZ [7; 1; 4; 2]%Z)) 0 8 true)
    = option_map B2SF (Some (a_div f64_arith (f64_ofZ 20) (f64_ofZ 6))) /\
  option_map B2SF (gini_core f64_arith (isort f64_cmp) 2 (mem_of 0 8 (map f64_ofZ [3; 1]%Z)) 0 8 false)
    = option_map B2SF (Some (a_div f64_arith (f64_ofZ 1) (f64_ofZ 4))).
Proof. split; [exact (isort_contract ecmp ecmp_laws)|split; vm_compute; reflexivity]. Qed.

(** ** C26 vnorm *)
Theorem C26_vnorm_finite :
  forall {T} (absf : T -> ER) (rf : T -> R) (mx : mem T) (px sx : Z) (x : list T) (V : view mx px sx x) (Hn : (Z.of_nat (length x) <= INT_MAX)%Z) (H : forall t, In t x -> absf t = Fin (rf t) /\ 0 <= rf t) p,
  0 < p ->
       vnorm_core_calc earith etransc absf (Z.of_nat (length x)) mx px sx (Fin p) = Some (Fin (pnorm p (map rf x))).
Proof. exact @vnorm_finite. Qed.
Print Assumptions C26_vnorm_finite.

Theorem C26_vnorm_inf :
  forall {T} (absf : T -> ER) (rf : T -> R) (mx : mem T) (px sx : Z) (x : list T) (V : view mx px sx x) (Hn : (Z.of_nat (length x) <= INT_MAX)%Z) (H : forall t, In t x -> absf t = Fin (rf t) /\ 0 <= rf t),
  exists m, vnorm_core_calc earith etransc absf (Z.of_nat (length x)) mx px sx PInf = Some (Fin m) /\
    (x = [] -> m = 0) /\ (x <> [] -> is_max (map rf x) m).
Proof. exact @vnorm_inf. Qed.
Print Assumptions C26_vnorm_inf.

Local Open Scope Z_scope.
Theorem C26_vnorm_zero_iff :
  forall {T} (absf : T -> ER) (rf : T -> R) mx px sx (x : list T) p v,
  view mx px sx x -> (Z.of_nat (length x) <= INT_MAX)%Z -> (forall t, In t x -> absf t = Fin (rf t) /\ (0 <= rf t)%R) -> (0 < p)%R ->
  vnorm_core_calc earith etransc absf (Z.of_nat (length x)) mx px sx (Fin p) = Some v ->
  exists r, v = Fin r /\ (0 <= r)%R /\ (r = 0%R <-> forall t, In t x -> rf t = 0%R).
Proof. exact @vnorm_zero_iff. Qed.
Print Assumptions C26_vnorm_zero_iff.
Local Close Scope Z_scope.

Local Open Scope Z_scope.
Theorem C26_vnorm_homogeneous :
  forall {T} (absf : T -> ER) (rf : T -> R) mx px sx (x : list T) my py sy (y : list T) p c r,
  view mx px sx x -> view my py sy y -> (Z.of_nat (length x) <= INT_MAX)%Z ->
  (forall t, In t x -> absf t = Fin (rf t) /\ (0 <= rf t)%R) -> (forall t, In t y -> absf t = Fin (rf t) /\ (0 <= rf t)%R) ->
  map rf y = map (fun t => Rabs c * rf t)%R x -> (0 < p)%R ->
  vnorm_core_calc earith etransc absf (Z.of_nat (length x)) mx px sx (Fin p) = Some (Fin r) ->
  vnorm_core_calc earith etransc absf (Z.of_nat (length y)) my py sy (Fin p) = Some (Fin (Rabs c * r)).
Proof. exact @vnorm_homogeneous. Qed.
Print Assumptions C26_vnorm_homogeneous.
Local Close Scope Z_scope.

Theorem C26_vnorm_bad_order :
  forall {T U} (A : arith U) TR (absf : T -> U) n mx px sx order,
  leb (a_cmp A) order (a_ofZ A 0) = true ->
  vnorm_core_calc A TR absf n mx px sx order = Some (a_nan A).
Proof. exact @vnorm_bad_order. Qed.
Print Assumptions C26_vnorm_bad_order.

(** IEEE, order infinity: exactly the largest absolute value *)
Theorem C26_vnorm_inf_ieee :
  forall (prec emax : Z) (Hp : Prec_gt_0 prec) (He : Prec_lt_emax prec emax) (TR : transc (binary_float prec emax)) {T} (absf : T -> binary_float prec emax) mx px sx (x : list T),
  view mx px sx x -> (Z.of_nat (length x) <= INT_MAX)%Z -> x <> [] ->
  (forall t, In t x -> is_nan (absf t) = false /\ leb Bcompare (a_ofZ (farith prec emax Hp He) 0) (absf t) = true) ->
  exists v, vnorm_core_calc (farith prec emax Hp He) TR absf (Z.of_nat (length x)) mx px sx (B754_infinity false) = Some v /\
    (exists t, In t x /\ eqb Bcompare (absf t) v = true) /\ forall t, In t x -> leb Bcompare (absf t) v = true.
Proof. exact @vnorm_inf_ieee. Qed.
Print Assumptions C26_vnorm_inf_ieee.

(** an infinite element and a finite order other than 1: NaN instead of +inf *)
Theorem C26_infinite_element_refuted :
  forall {T} (absf : T -> ER) mx px sx x p,
  view mx px sx x -> (Z.of_nat (length x) <= INT_MAX)%Z -> 0 < p -> p <> 1 ->
  (forall t, In t x -> absf t = PInf \/ exists r, absf t = Fin r /\ 0 <= r) ->
  (exists t, In t x /\ absf t = PInf) ->
  vnorm_core_calc earith etransc absf (Z.of_nat (length x)) mx px sx (Fin p) = Some ENaN.
Proof. exact (fun T absf => @vnorm_infinite_element T absf). Qed.
Print Assumptions C26_infinite_element_refuted.

Local Open Scope Z_scope.
Theorem C26_nan_refuted :
  forall (TR : transc f64),
  exists x : list f64, In B754_nan x /\
    option_map B2SF (vnorm_core_calc f64_arith TR (a_abs f64_arith) (Z.of_nat (length x)) (mem_of 0 8 x) 0 8 pinf64)
      = Some (B2SF (f64_ofZ 3)) /\
    option_map B2SF (vnorm_core_calc f64_arith TR (a_abs f64_arith) 1 (mem_of 0 8 [B754_nan]) 0 8 (f64_ofZ 2))
      = Some (B2SF (f64_ofZ 0)).
Proof. exact @vnorm_nan_refuted. Qed.
Print Assumptions C26_nan_refuted.
Local Close Scope Z_scope.

Local Open Scope Z_scope.
Theorem C26_int_counter_refuted :
  forall {T U} (A : arith U) TR (absf : T -> U) n mx px sx order,
  (INT_MAX < n)%Z -> leb (a_cmp A) order (a_ofZ A 0) = false ->
  vnorm_core_calc A TR absf n mx px sx order = None.
Proof. exact @vnorm_int_counter_refuted. Qed.
Print Assumptions C26_int_counter_refuted.
Local Close Scope Z_scope.

Example C26_ex :
  option_map B2SF (vnorm_core_calc f64_arith (mkTransc _ (fun v => v) (fun v => v) (fun v => v) (fun v => v) (fun v _ => v)) (a_abs f64_arith) 3
     (mem_of 0 16 (map f64_ofZ [3; -7; 2]%Z)) 0 16 (f64_ofZ 1)) = Some (B2SF (f64_ofZ 12)).
Proof. vm_compute. reflexivity. Qed.

(** ** C27 rms, vdot *)
Theorem C27_rms_any_arithmetic :
  forall {T} (A : arith T) sz mx px sx (x : list T),
  view mx px sx x ->
     rms_core_calc A sz (Z.of_nat (length x)) mx px sx
       = Some (a_sqrt A (a_div A (fsumsq A x) (a_ofZ A (Z.of_nat (length x))))).
Proof. exact @rms_fold. Qed.
Print Assumptions C27_rms_any_arithmetic.

Theorem C27_crms_any_arithmetic :
  forall {T} (A : arith T) sz mx px sx (z : list (T * T)),
  cview mx px sx sz z ->
     crms_core_calc A sz (Z.of_nat (length z)) mx px sx
       = Some (a_sqrt A (a_div A (cfsumsq A z) (a_ofZ A (Z.of_nat (length z))))).
Proof. exact @crms_fold. Qed.
Print Assumptions C27_crms_any_arithmetic.

Theorem C27_rms_exact :
  forall sz mx px sx x,
  view mx px sx (map Fin x) -> x <> [] ->
   rms_core_calc earith sz (Z.of_nat (length x)) mx px sx = Some (Fin (sqrt (rsumsq x / INR (length x)))).
Proof. exact @rms_exact. Qed.
Print Assumptions C27_rms_exact.

Theorem C27_crms_exact :
  forall sz mx px sx (z : list (R * R)),
  cview mx px sx sz (map (fun q => (Fin (fst q), Fin (snd q))) z) -> z <> [] ->
  crms_core_calc earith sz (Z.of_nat (length z)) mx px sx
    = Some (Fin (sqrt (rsum (map (fun q => fst q * fst q + snd q * snd q) z) / INR (length z)))).
Proof. exact @crms_exact. Qed.
Print Assumptions C27_crms_exact.

Theorem C27_vdot_any_arithmetic :
  forall {T} (A : arith T) sz mx px sx my py sy (x y : list T),
  view mx px sx x -> view my py sy y -> length y = length x -> (Z.of_nat (length x) <= INT_MAX)%Z ->
  vdot_core_calc A sz (Z.of_nat (length x)) mx px sx my py sy = Some (fdot A x y).
Proof. exact @vdot_fold. Qed.
Print Assumptions C27_vdot_any_arithmetic.

Theorem C27_vdot_exact :
  forall sz mx px sx my py sy x y,
  view mx px sx (map Fin x) -> view my py sy (map Fin y) -> length y = length x -> (Z.of_nat (length x) <= INT_MAX)%Z ->
  vdot_core_calc earith sz (Z.of_nat (length x)) mx px sx my py sy = Some (Fin (rdot x y)).
Proof. exact @vdot_exact. Qed.
Print Assumptions C27_vdot_exact.

Local Open Scope Z_scope.
Theorem C27_vdot_linear :
  forall sz mx px sx mx' px' sx' mz pz sz' my py sy (x x' y : list R) a b r r',
  length x = length y -> length x' = length y -> (Z.of_nat (length y) <= INT_MAX)%Z ->
  view mx px sx (map Fin x) -> view mx' px' sx' (map Fin x') -> view my py sy (map Fin y) ->
  view mz pz sz' (map (fun q => Fin (a * fst q + b * snd q)%R) (combine x x')) ->
  vdot_core_calc earith sz (Z.of_nat (length y)) mx px sx my py sy = Some (Fin r) ->
  vdot_core_calc earith sz (Z.of_nat (length y)) mx' px' sx' my py sy = Some (Fin r') ->
  vdot_core_calc earith sz (Z.of_nat (length y)) mz pz sz' my py sy = Some (Fin (a * r + b * r')%R).
Proof. exact @vdot_linear. Qed.
Print Assumptions C27_vdot_linear.
Local Close Scope Z_scope.

Theorem C27_vdot_symmetric_ieee :
  forall (prec emax : Z) (Hp : Prec_gt_0 prec) (He : Prec_lt_emax prec emax) sz mx px sx my py sy (x y : list (binary_float prec emax)),
  view mx px sx x -> view my py sy y -> length y = length x ->
  vdot_core_calc (farith prec emax Hp He) sz (Z.of_nat (length x)) mx px sx my py sy =
  vdot_core_calc (farith prec emax Hp He) sz (Z.of_nat (length x)) my py sy mx px sx.
Proof. exact @vdot_sym_ieee. Qed.
Print Assumptions C27_vdot_symmetric_ieee.

Local Open Scope Z_scope.
Theorem C27_vdot_int_counter_refuted :
  forall {T} (A : arith T) sz n mx px sx my py sy,
  (INT_MAX < n)%Z -> vdot_core_calc A sz n mx px sx my py sy = None.
Proof. exact @vdot_int_counter_refuted. Qed.
Print Assumptions C27_vdot_int_counter_refuted.
Local Close Scope Z_scope.

(** IEEE error bounds in any binary format with unit roundoff u and smallest subnormal 2^emin:
    finite results are within the classical bounds of the exact values; no other hypothesis
    on the data is needed for vdot, and for rms only that the mean square is a normal number *)
Theorem C27_vdot_bound :
  forall (prec emax : Z) (Hp : Prec_gt_0 prec) (He : Prec_lt_emax prec emax) (Hp1 : (1 < prec)%Z) sz mx px sx my py sy (x y : list (binary_float prec emax)) v,
  let u := u_ro radix2 prec in let emin := (3 - emax - prec)%Z in let eta := / 2 * bpow radix2 emin in view mx px sx x -> view my py sy y -> length y = length x -> (Z.of_nat (length x) <= INT_MAX)%Z ->
  vdot_core_calc (farith prec emax Hp He) sz (Z.of_nat (length x)) mx px sx my py sy = Some v -> is_finite v = true ->
  Rabs (B2R v - rdot (map B2R x) (map B2R y))
    <= ((1 + u) ^ (length x + 1) - 1) * rdot (map (fun a => Rabs (B2R a)) x) (map (fun a => Rabs (B2R a)) y)
       + (1 + u) ^ length x * (INR (length x) * eta).
Proof. exact @vdot_bound. Qed.
Print Assumptions C27_vdot_bound.

Theorem C27_rms_bound :
  forall (prec emax : Z) (Hp : Prec_gt_0 prec) (He : Prec_lt_emax prec emax) (Hp1 : (1 < prec)%Z) sz mx px sx (x : list (binary_float prec emax)) v,
  let u := u_ro radix2 prec in let emin := (3 - emax - prec)%Z in view mx px sx x -> x <> [] -> (Z.of_nat (length x) <= 2 ^ (emax - 1))%Z ->
  rms_core_calc (farith prec emax Hp He) sz (Z.of_nat (length x)) mx px sx = Some v -> is_finite v = true ->
  let ms := rsumsq (map B2R x) / INR (length x) in
  bpow radix2 (emin + prec - 1) <= ms ->
  Rabs (B2R v - sqrt ms) <= ((1 + u) ^ (length x + 8) - 1) * sqrt ms.
Proof. exact @rms_bound. Qed.
Print Assumptions C27_rms_bound.

Theorem C27_crms_bound :
  forall (prec emax : Z) (Hp : Prec_gt_0 prec) (He : Prec_lt_emax prec emax) (Hp1 : (1 < prec)%Z) sz mx px sx (z : list (binary_float prec emax * binary_float prec emax)) v,
  let u := u_ro radix2 prec in let emin := (3 - emax - prec)%Z in cview mx px sx sz z -> z <> [] -> (Z.of_nat (length z) <= 2 ^ (emax - 1))%Z ->
  crms_core_calc (farith prec emax Hp He) sz (Z.of_nat (length z)) mx px sx = Some v -> is_finite v = true ->
  let ms := (rsumsq (map (fun q => B2R (fst q)) z) + rsumsq (map (fun q => B2R (snd q)) z)) / INR (length z) in
  bpow radix2 (emin + prec - 1) <= ms ->
  Rabs (B2R v - sqrt ms) <= ((1 + u) ^ (length z + 10) - 1) * sqrt ms.
Proof. exact @crms_bound. Qed.
Print Assumptions C27_crms_bound.

Example C27_bound_ex :
  option_map is_finite (vdot_core_calc f64_arith 8 3 (mem_of 0 8 (map f64_ofZ [1; 2; 3]%Z)) 16 (-8) (mem_of 0 8 (map f64_ofZ [4; 5; 6]%Z)) 0 8) = Some true /\
  option_map is_finite (rms_core_calc f64_arith 8 2 (mem_of 0 16 (map f64_ofZ [1; 7]%Z)) 0 16) = Some true /\
  option_map is_finite (crms_core_calc f64_arith 8 1 (mem_of 0 8 (map f64_ofZ [3; -4]%Z)) 0 16) = Some true /\
  (Z.of_nat 2 <= 2 ^ (1024 - 1))%Z /\ bpow radix2 (3 - 1024 - 53 + 53 - 1) <= rsumsq [1; 7] / INR 2.
Proof.
  split; [vm_compute; reflexivity|]. split; [vm_compute; reflexivity|]. split; [vm_compute; reflexivity|].
  split; [apply Z.leb_le; vm_compute; reflexivity|].
  apply Rle_trans with (bpow radix2 0); [apply bpow_le; lia|]. unfold rsumsq. simpl. lra.
Qed.

Example C27_ex :
  option_map B2SF (rms_core_calc f64_arith 8 2 (mem_of 0 16 (map f64_ofZ [1; 7]%Z)) 0 16) = Some (B2SF (f64_ofZ 5)) /\
  option_map B2SF (crms_core_calc f64_arith 8 1 (mem_of 0 8 (map f64_ofZ [3; -4]%Z)) 0 16) = Some (B2SF (f64_ofZ 5)) /\
  option_map B2SF (vdot_core_calc f64_arith 8 3 (mem_of 0 8 (map f64_ofZ [1; 2; 3]%Z)) 16 (-8) (mem_of 0 8 (map f64_ofZ [4; 5; 6]%Z)) 0 8)
    = Some (B2SF (f64_ofZ 28)).
Proof. repeat split; vm_compute; reflexivity. Qed.

(** ** C28 pearson_corr *)
Local Open Scope Z_scope.
Theorem C28_pearson_exact :
  forall {T} (up : T -> ER) (cmpT : T -> T -> option comparison) (bad : T -> T -> bool) (rf : T -> R) (Hup : forall t, up t = Fin (rf t)) (Hcmp : forall s t, cmpT s t = Some (Rcompare (rf s) (rf t))) (Hbad : forall s t, bad s t = true <-> rf s = rf t) mx px sx my py sy (x y : list T),
  view mx px sx x -> view my py sy y -> length y = length x -> (2 <= length x)%nat ->
  ~ constant (map rf x) -> ~ constant (map rf y) ->
  exists r, pearson_corr_core earith up cmpT bad (Z.of_nat (length x)) mx px sx my py sy = Some (Fin r) /\
    pearson_corr_core earith up cmpT bad (Z.of_nat (length x)) my py sy mx px sx = Some (Fin r) /\
    r = pearson (map rf x) (map rf y) /\ (-1 <= r <= 1)%R /\
    (forall a b, map rf y = map (fun t => a * rf t + b)%R x -> (0 < a -> r = 1)%R /\ (a < 0 -> r = -1)%R).
Proof. exact @pearson_full. Qed.
Print Assumptions C28_pearson_exact.
Local Close Scope Z_scope.

Theorem C28_pearson_constant :
  forall {T} (up : T -> ER) (cmpT : T -> T -> option comparison) (bad : T -> T -> bool) (rf : T -> R) (Hup : forall t, up t = Fin (rf t)) (Hbad : forall s t, bad s t = true <-> rf s = rf t) (mx my : mem T) (px sx py sy : Z) (x y : list T) (Vx : view mx px sx x) (Vy : view my py sy y) (EL : length y = length x) (Hn : (2 <= length x)%nat),
  constant (map rf x) \/ constant (map rf y) -> pearson_corr_core earith up cmpT bad (Z.of_nat (length x)) mx px sx my py sy = Some ENaN.
Proof. exact (fun T => @pearson_const T). Qed.
Print Assumptions C28_pearson_constant.

Theorem C28_pearson_constant_ieee :
  forall (prec emax : Z) (Hp : Prec_gt_0 prec) (He : Prec_lt_emax prec emax) {T} (up : T -> binary_float prec emax) (cmpT : T -> T -> option comparison) (bad : T -> T -> bool) mx px sx my py sy x y z,
  view mx px sx x -> view my py sy y -> length y = length x -> (2 <= length x)%nat -> z = x \/ z = y ->
  (exists c, forall t, In t z -> f2e _ _ (up t) = Fin c) ->
  (forall a b, In a z -> In b z -> bad a b = true) ->
  pearson_corr_core (farith prec emax Hp He) up cmpT bad (Z.of_nat (length x)) mx px sx my py sy = Some B754_nan.
Proof. exact @pearson_const_ieee. Qed.
Print Assumptions C28_pearson_constant_ieee.

Theorem C28_pearson_nan_ieee :
  forall (prec emax : Z) (Hp : Prec_gt_0 prec) (He : Prec_lt_emax prec emax) {T} (up : T -> binary_float prec emax) (cmpT : T -> T -> option comparison) (bad : T -> T -> bool) mx px sx my py sy x y,
  view mx px sx x -> view my py sy y -> length y = length x -> (2 <= length x)%nat ->
  (forall a b, up a = B754_nan \/ up b = B754_nan -> bad a b = true) ->
  (exists t, In t (x ++ y) /\ up t = B754_nan) ->
  pearson_corr_core (farith prec emax Hp He) up cmpT bad (Z.of_nat (length x)) mx px sx my py sy = Some B754_nan.
Proof. exact @pearson_nan_ieee. Qed.
Print Assumptions C28_pearson_nan_ieee.

(** floating arrays, with the test for finite and different values that the code makes *)
Theorem C28_pearson_two_float :
  forall (prec emax : Z) (Hp : Prec_gt_0 prec) (He : Prec_lt_emax prec emax) mx px sx my py sy (x0 x1 y0 y1 : binary_float prec emax),
  view mx px sx [x0; x1] -> view my py sy [y0; y1] ->
  exists r, pearson_corr_core (farith prec emax Hp He) (fun v => v) Bcompare (corr_bad_float (farith prec emax Hp He)) 2 mx px sx my py sy = Some r /\
    (r <> B754_nan <-> (is_finite x0 = true /\ is_finite x1 = true /\ B2R x0 <> B2R x1) /\
                       (is_finite y0 = true /\ is_finite y1 = true /\ B2R y0 <> B2R y1)) /\
    (r <> B754_nan -> is_finite r = true /\
       (0 < (B2R x1 - B2R x0) * (B2R y1 - B2R y0) -> B2R r = 1) /\
       ((B2R x1 - B2R x0) * (B2R y1 - B2R y0) < 0 -> B2R r = -1)).
Proof. exact @pearson_two_float. Qed.
Print Assumptions C28_pearson_two_float.

Theorem C28_pearson_undefined_float :
  forall (prec emax : Z) (Hp : Prec_gt_0 prec) (He : Prec_lt_emax prec emax) mx px sx my py sy (x y z : list (binary_float prec emax)),
  view mx px sx x -> view my py sy y -> length y = length x -> (2 <= length x)%nat -> z = x \/ z = y ->
  (exists c, forall t, In t z -> is_finite t = true /\ B2R t = c) \/ In B754_nan z ->
  pearson_corr_core (farith prec emax Hp He) (fun v => v) Bcompare (corr_bad_float (farith prec emax Hp He)) (Z.of_nat (length x)) mx px sx my py sy = Some B754_nan.
Proof. exact @pearson_undefined_float. Qed.
Print Assumptions C28_pearson_undefined_float.

(** fewer than two observations raise ValueError before any element is read *)
Theorem C28_pearson_short : forall n, (n < 2)%Z <-> corr_process_core_dims n = None.
Proof. intros n. unfold corr_process_core_dims. destruct (Z.ltb_spec n 2); split; intros; try reflexivity; try discriminate; lia. Qed.
Print Assumptions C28_pearson_short.

(** in double precision the result can leave [-1,1] *)
Local Open Scope Z_scope.
Theorem C28_above_one_refuted :
  exists x : list f64, (forall a, In a x -> is_finite a = true) /\
    exists r, pearson_corr_core f64_arith (fun v : f64 => v) f64_cmp (corr_bad_float f64_arith) (Z.of_nat (length x))
       (mem_of 0 8 x) 0 8 (mem_of 0 8 x) 0 8 = Some r /\ gtb f64_cmp r (f64_ofZ 1) = true.
Proof. exact @pearson_above_one_refuted. Qed.
Print Assumptions C28_above_one_refuted.
Local Close Scope Z_scope.

Example C28_float_ex :
  option_map B2SF (pearson_corr_core f64_arith (fun v => v) f64_cmp (corr_bad_float f64_arith) 2
    (mem_of 0 8 (map f64_ofZ [1; 2]%Z)) 0 8 (mem_of 0 8 (map f64_ofZ [5; 3]%Z)) 0 8) = Some (B2SF (f64_ofZ (-1))) /\
  option_map B2SF (pearson_corr_core f64_arith (fun v => v) f64_cmp (corr_bad_float f64_arith) 3
    (mem_of 0 8 (map f64_ofZ [1; 2; 4]%Z)) 0 8 (mem_of 0 8 (map f64_ofZ [3; 3; 3]%Z)) 0 8) = Some S754_nan.
Proof. split; vm_compute; reflexivity. Qed.

Example C28_ex :
  (forall t : Z, Fin (IZR t) = Fin (IZR t)) /\
  (forall s t : Z, Zcmp s t = Some (Rcompare (IZR s) (IZR t))) /\
  (forall s t : Z, corr_bad_int s t = true <-> IZR s = IZR t) /\
  option_map B2SF (pearson_corr_core f64_arith f64_ofZ Zcmp corr_bad_int 3 (mem_of 0 8 [1; 2; 3]%Z) 0 8 (mem_of 0 8 [5; 5; 5]%Z) 0 8)
    = Some S754_nan.
Proof.
  split; [reflexivity|]. split; [intros s t; unfold Zcmp; rewrite Rcompare_IZR; reflexivity|].
  split; [intros s t; unfold corr_bad_int; rewrite Z.eqb_eq; split; [congruence|apply eq_IZR]|].
  vm_compute. reflexivity.
Qed.

(** ** C29 wjaccard *)
Theorem C29_wjaccard_exact :
  forall {T} (up : T -> ER) (cmpT : T -> T -> option comparison) (rf : T -> R) (Hup : forall t, up t = Fin (rf t)) (Hcmp : forall s t, cmpT s t = Some (Rcompare (rf s) (rf t))) mx px sx my py sy x y,
  view mx px sx x -> view my py sy y -> length y = length x -> x <> [] ->
  let nu := rmins (map rf x) (map rf y) in let de := rmaxs (map rf x) (map rf y) in
  wjaccard_core earith up cmpT (Z.of_nat (length x)) mx px sx my py sy =
    Some (if Req_EM_T de 0 then if Req_EM_T nu 0 then ENaN else NInf else Fin (nu / de)).
Proof. exact @wjaccard_exact. Qed.
Print Assumptions C29_wjaccard_exact.

Theorem C29_wjaccard_range :
  forall {T} (up : T -> ER) (cmpT : T -> T -> option comparison) (rf : T -> R) (Hup : forall t, up t = Fin (rf t)) (Hcmp : forall s t, cmpT s t = Some (Rcompare (rf s) (rf t))) mx px sx my py sy x y,
  view mx px sx x -> view my py sy y -> length y = length x ->
  (forall t, In t (x ++ y) -> 0 <= rf t) -> (exists t, In t (x ++ y) /\ rf t <> 0) ->
  exists r, wjaccard_core earith up cmpT (Z.of_nat (length x)) mx px sx my py sy = Some (Fin r) /\
    r = rmins (map rf x) (map rf y) / rmaxs (map rf x) (map rf y) /\
    0 <= r <= 1 /\ (r = 1 <-> map rf x = map rf y).
Proof. exact @wjaccard_range. Qed.
Print Assumptions C29_wjaccard_range.

Theorem C29_wjaccard_symmetric :
  forall {T} (up : T -> ER) (cmpT : T -> T -> option comparison) (rf : T -> R) (Hup : forall t, up t = Fin (rf t)) (Hcmp : forall s t, cmpT s t = Some (Rcompare (rf s) (rf t))) mx px sx my py sy x y,
  view mx px sx x -> view my py sy y -> length y = length x -> x <> [] ->
  wjaccard_core earith up cmpT (Z.of_nat (length x)) mx px sx my py sy =
  wjaccard_core earith up cmpT (Z.of_nat (length x)) my py sy mx px sx.
Proof. exact @wjaccard_sym. Qed.
Print Assumptions C29_wjaccard_symmetric.

(** any arithmetic: NaN anywhere gives NaN *)
Theorem C29_wjaccard_nan :
  forall {T U} (A : arith U) (up : T -> U) (cmpT : T -> T -> option comparison) mx px sx my py sy x y,
  view mx px sx x -> view my py sy y -> length y = length x ->
  (exists t, In t (x ++ y) /\ isnanb cmpT t = true) ->
  wjaccard_core A up cmpT (Z.of_nat (length x)) mx px sx my py sy = Some (a_nan A).
Proof. exact @wjaccard_nan. Qed.
Print Assumptions C29_wjaccard_nan.

(** IEEE: for non-negative finite weights, a finite nonzero result is within a relative
    error of (1+u)^(3n+1) - 1 of the exact ratio, plus half the smallest subnormal *)
Theorem C29_wjaccard_bound :
  forall (prec emax : Z) (Hp : Prec_gt_0 prec) (He : Prec_lt_emax prec emax) (Hp1 : (1 < prec)%Z) mx px sx my py sy (x y : list (binary_float prec emax)) v,
  let u := u_ro radix2 prec in let emin := (3 - emax - prec)%Z in let eta := / 2 * bpow radix2 emin in view mx px sx x -> view my py sy y -> length y = length x -> x <> [] ->
  (forall t, In t (x ++ y) -> is_finite t = true /\ 0 <= B2R t) ->
  wjaccard_core (farith prec emax Hp He) (fun t => t) (a_cmp (farith prec emax Hp He)) (Z.of_nat (length x)) mx px sx my py sy = Some v ->
  is_finite_strict v = true ->
  let r := rmins (map B2R x) (map B2R y) / rmaxs (map B2R x) (map B2R y) in
  Rabs (B2R v - r) <= ((1 + u) ^ (3 * length x + 1) - 1) * r + eta.
Proof. exact @wjaccard_bound. Qed.
Print Assumptions C29_wjaccard_bound.

Example C29_bound_ex :
  option_map is_finite_strict (wjaccard_core f64_arith (fun t => t) (a_cmp f64_arith) 3 (mem_of 0 8 (map f64_ofZ [1; 0; 3]%Z)) 0 8 (mem_of 0 8 (map f64_ofZ [2; 0; 2]%Z)) 0 8) = Some true.
Proof. vm_compute. reflexivity. Qed.

Example C29_ex :
  option_map B2SF (wjaccard_core f64_arith f64_ofZ Zcmp 3 (mem_of 0 8 [1; 0; 3]%Z) 0 8 (mem_of 0 8 [2; 0; 2]%Z) 0 8)
    = option_map B2SF (Some (a_div f64_arith (f64_ofZ 3) (f64_ofZ 5))) /\
  (forall s t : Z, Zcmp s t = Some (Rcompare (IZR s) (IZR t))).
Proof. split; [vm_compute; reflexivity|intros s t; unfold Zcmp; rewrite Rcompare_IZR; reflexivity]. Qed.

(** ** C30 softmax *)
Local Open Scope Z_scope.
Theorem C30_softmax_exact :
  forall mx px sx x mo po so,
  view mx px sx x -> writable mo po so (length x) ->
  (forall t, In t x -> t = NInf \/ exists a, t = Fin a) -> (exists a, In (Fin a) x) ->
  exists y, writes (softmax_core earith etransc (Z.of_nat (length x)) mx px sx mo po so) mo po so (map Fin y) /\
    y = rsoftmax x /\ length y = length x /\ rsum y = 1%R /\
    (forall k a, nth_error x k = Some a -> exists b, nth_error y k = Some b /\ (0 <= b <= 1)%R /\
        (forall r, a = Fin r -> (0 < b)%R) /\ (a = NInf -> b = 0%R)) /\
    (forall i j a b u v, nth_error x i = Some (Fin a) -> nth_error x j = Some (Fin b) ->
        nth_error y i = Some u -> nth_error y j = Some v -> (u < v <-> a < b)%R).
Proof. exact @softmax_exact_full. Qed.
Print Assumptions C30_softmax_exact.
Local Close Scope Z_scope.

Local Open Scope Z_scope.
Theorem C30_softmax_shift :
  forall mx px sx x my py sy c mo po so,
  view mx px sx x -> view my py sy (map (fun t => eadd t (Fin c)) x) -> writable mo po so (length x) ->
  (forall t, In t x -> t = NInf \/ exists a, t = Fin a) -> (exists a, In (Fin a) x) ->
  exists y, writes (softmax_core earith etransc (Z.of_nat (length x)) mx px sx mo po so) mo po so y /\
            writes (softmax_core earith etransc (Z.of_nat (length x)) my py sy mo po so) mo po so y.
Proof. exact @softmax_shift. Qed.
Print Assumptions C30_softmax_shift.
Local Close Scope Z_scope.

(** any arithmetic: the special cases *)
Theorem C30_softmax_nan :
  forall {T} (A : arith T) (TR : transc T) mx px sx x mo po so,
  view mx px sx x -> writable mo po so (length x) ->
     (exists t, In t x /\ isnanb (a_cmp A) t = true) ->
     writes (softmax_core A TR (Z.of_nat (length x)) mx px sx mo po so) mo po so (repeat (a_nan A) (length x)).
Proof. exact @softmax_nan. Qed.
Print Assumptions C30_softmax_nan.

Theorem C30_softmax_many_inf :
  forall {T} (A : arith T) (TR : transc T) mx px sx l1 a l2 b l3 mo po so,
  let x := l1 ++ a :: l2 ++ b :: l3 in
  view mx px sx x -> writable mo po so (length x) -> posinf A a = true -> posinf A b = true ->
  writes (softmax_core A TR (Z.of_nat (length x)) mx px sx mo po so) mo po so (repeat (a_nan A) (length x)).
Proof. exact @softmax_many_inf. Qed.
Print Assumptions C30_softmax_many_inf.

Theorem C30_softmax_one_inf :
  forall {T} (A : arith T) (L : cmp_laws (a_cmp A)) (TR : transc T) mx px sx pre w post mo po so,
  let x := pre ++ w :: post in
  view mx px sx x -> writable mo po so (length x) ->
  (forall t, In t x -> isnanb (a_cmp A) t = false) -> posinf A w = true ->
  (forall t, In t (pre ++ post) -> posinf A t = false) ->
  ltb (a_cmp A) (a_opp A (a_inf A)) (a_ofZ A 0) = true ->
  writes (softmax_core A TR (Z.of_nat (length x)) mx px sx mo po so) mo po so
    (repeat (a_ofZ A 0) (length pre) ++ a_ofZ A 1 :: repeat (a_ofZ A 0) (length post)).
Proof. exact @softmax_one_inf. Qed.
Print Assumptions C30_softmax_one_inf.

Theorem C30_softmax_all_neginf :
  forall {T} (A : arith T) (L : cmp_laws (a_cmp A)) (TR : transc T) mx px sx x mo po so,
  view mx px sx x -> writable mo po so (length x) ->
     (forall t, In t x -> eqb (a_cmp A) t (a_opp A (a_inf A)) = true) ->
     writes (softmax_core A TR (Z.of_nat (length x)) mx px sx mo po so) mo po so (repeat (a_nan A) (length x)).
Proof. exact @softmax_all_neginf. Qed.
Print Assumptions C30_softmax_all_neginf.

(** IEEE, any reasonable exp: entries in [0,1], in the order of the inputs *)
Theorem C30_softmax_ieee :
  forall (prec emax : Z) (Hp : Prec_gt_0 prec) (He : Prec_lt_emax prec emax) (TR : transc (binary_float prec emax)) (Hexp0 : forall v, f2e prec emax v = Fin 0 -> f2e prec emax (t_exp TR v) = Fin 1) (Hexp1 : forall v, leb ecmp (f2e prec emax v) (Fin 0) = true -> leb ecmp (Fin 0) (f2e prec emax (t_exp TR v)) = true /\ leb ecmp (f2e prec emax (t_exp TR v)) (Fin 1) = true) (Hexpm : forall u v, leb ecmp (f2e prec emax u) (f2e prec emax v) = true -> leb ecmp (f2e prec emax v) (Fin 0) = true -> leb ecmp (f2e prec emax (t_exp TR u)) (f2e prec emax (t_exp TR v)) = true) mx px sx x mo po so,
  view mx px sx x -> writable mo po so (length x) ->
     (forall t, In t x -> is_nan t = false /\ f2e prec emax t <> PInf) -> (exists t, In t x /\ is_finite t = true) ->
     exists out, writes (softmax_core (farith prec emax Hp He) TR (Z.of_nat (length x)) mx px sx mo po so) mo po so out /\
       length out = length x /\
       (forall y, In y out -> exists r, f2e prec emax y = Fin r /\ 0 <= r <= 1) /\
       (forall i j a b u v, nth_error x i = Some a -> nth_error x j = Some b -> nth_error out i = Some u -> nth_error out j = Some v ->
          leb (a_cmp (farith prec emax Hp He)) a b = true -> leb (a_cmp (farith prec emax Hp He)) u v = true).
Proof. exact @softmax_ieee. Qed.
Print Assumptions C30_softmax_ieee.

(** -inf lies below zero in both arithmetics, and +inf is recognised *)
Example C30_ex :
  ltb ecmp (eopp PInf) (Fin 0) = true /\ ltb f64_cmp (B754_infinity true) (f64_ofZ 0) = true /\
  posinf f64_arith pinf64 = true /\ posinf f64_arith (f64_ofZ 3) = false /\
  let TR := mkTransc f64 (fun v => v) (fun v => v) (fun v => v) (fun v => v) (fun v _ => v) in
  option_map (fun mo : mem f64 => map (fun i => option_map B2SF (mo (Z.of_nat i * 8)%Z)) (seq 0 3))
    (softmax_core f64_arith TR 3 (mem_of 0 8 [f64_ofZ 1; pinf64; B754_infinity true]) 0 8 (mem_of 0 8 (map f64_ofZ [9; 9; 9]%Z)) 0 8)
  = Some (map (fun z => Some (B2SF (f64_ofZ z))) [0; 1; 0]%Z).
Proof. cbn zeta. split; [reflexivity|]. repeat split; vm_compute; reflexivity. Qed.

(** ** C49 multivariate_logbeta, for any lgamma *)
Theorem C49_logbeta_exact :
  forall (lgamma : ER -> ER) (lg : R -> R) sz mx px sx x,
  view mx px sx (map Fin x) -> x <> [] -> (forall a, In a (rsum x :: x) -> lgamma (Fin a) = Fin (lg a)) ->
  multivariate_logbeta_core earith lgamma sz (Z.of_nat (length x)) mx px sx = Some (Fin (rsum (map lg x) - lg (rsum x))).
Proof. exact @logbeta_exact. Qed.
Print Assumptions C49_logbeta_exact.

Local Open Scope Z_scope.
Theorem C49_logbeta_order_independent :
  forall (lgamma : ER -> ER) (lg : R -> R) sz mx px sx my py sy x y,
  view mx px sx (map Fin x) -> view my py sy (map Fin y) -> Permutation.Permutation x y -> x <> [] ->
  (forall a, In a (rsum x :: x) -> lgamma (Fin a) = Fin (lg a)) ->
  multivariate_logbeta_core earith lgamma sz (Z.of_nat (length x)) mx px sx =
  multivariate_logbeta_core earith lgamma sz (Z.of_nat (length y)) my py sy.
Proof. exact @logbeta_perm. Qed.
Print Assumptions C49_logbeta_order_independent.
Local Close Scope Z_scope.

Theorem C49_logbeta_empty : forall {T} (A : arith T) (lgamma : T -> T) sz mx px sx,
  multivariate_logbeta_core A lgamma sz 0 mx px sx = Some (a_nan A).
Proof. exact @logbeta_empty. Qed.
Print Assumptions C49_logbeta_empty.

(** IEEE: one element gives exactly zero *)
Theorem C49_logbeta_single :
  forall (prec emax : Z) (Hp : Prec_gt_0 prec) (He : Prec_lt_emax prec emax) (lgamma : binary_float prec emax -> binary_float prec emax) sz mx px sx (a : binary_float prec emax) r,
  view mx px sx [a] ->
     f2e prec emax (lgamma a) = Fin r -> is_finite a = true -> B2R a <> 0 ->
     exists z, multivariate_logbeta_core (farith prec emax Hp He) lgamma sz 1 mx px sx = Some z /\ f2e prec emax z = Fin 0.
Proof. exact @logbeta_single. Qed.
Print Assumptions C49_logbeta_single.

Example C49_ex : let lgamma (v : ER) := match v with Fin a => Fin (a * a) | _ => ENaN end in
  multivariate_logbeta_core earith lgamma 8 3 (mem_of 0 16 (map Fin [1; 2; 4])) 0 16
   = Some (Fin (rsum (map (fun a => a * a) [1; 2; 4]) - rsum [1; 2; 4] * rsum [1; 2; 4])).
Proof.
  intros lgamma. apply (C49_logbeta_exact lgamma (fun a => a * a) 8 _ 0 16 [1; 2; 4]).
  - apply view_mem_of. lia.
  - discriminate.
  - reflexivity.
Qed.

(** a monotone stand-in for exp meets the hypotheses of C30_softmax_ieee *)
Example C30_ieee_ex :
  let TR := mkTransc f64 (fun v => if ltb f64_cmp v (f64_ofZ 0) then f64_ofZ 0 else f64_ofZ 1)
              (fun v => v) (fun v => v) (fun v => v) (fun v _ => v) in
  exists out, writes (softmax_core f64_arith TR 3 (mem_of 0 8 [f64_ofZ 1; f64_ofZ 3; B754_infinity true]) 0 8
                (mem_of 0 8 (map f64_ofZ [9; 9; 9]%Z)) 0 8) (mem_of 0 8 (map f64_ofZ [9; 9; 9]%Z)) 0 8 out /\
     length out = 3%nat /\ (forall y, In y out -> exists r, f2e 53 1024 y = Fin r /\ 0 <= r <= 1).
Proof.
  intros TR.
  assert (E1 : f2e 53 1024 (f64_ofZ 1) = Fin 1) by (rewrite <- (NumX.frnd_1 53 1024 f64_Hp f64_He); apply (f2e_ofZ 53 1024 f64_Hp f64_He 1)).
  assert (E0 : f2e 53 1024 (f64_ofZ 0) = Fin 0) by reflexivity.
  assert (EX : forall v, f2e 53 1024 (t_exp TR v) = if ltb ecmp (f2e 53 1024 v) (Fin 0) then Fin 0 else Fin 1).
  { intros v. cbn [TR t_exp]. rewrite (ltb_f 53 1024 v (f64_ofZ 0) : ltb f64_cmp v (f64_ofZ 0) = ltb ecmp (f2e 53 1024 v) (Fin 0)).
    destruct (ltb ecmp (f2e 53 1024 v) (Fin 0)); assumption. }
  destruct (C30_softmax_ieee 53 1024 f64_Hp f64_He TR) with
    (mx := mem_of 0 8 [f64_ofZ 1; f64_ofZ 3; B754_infinity true]) (px := 0%Z) (sx := 8%Z)
    (x := [f64_ofZ 1; f64_ofZ 3; B754_infinity true] : list f64) (mo := mem_of 0 8 (map f64_ofZ [9; 9; 9]%Z)) (po := 0%Z) (so := 8%Z)
    as (out & W & L & K & _).
  - intros v Hv. rewrite EX, Hv. replace (ltb ecmp (Fin 0) (Fin 0)) with false; [reflexivity|]. symmetry. apply ltb_Fin_false. lra.
  - intros v _. rewrite EX. destruct (ltb ecmp _ _); split; apply leb_Fin; lra.
  - intros u v Huv _. rewrite !EX. destruct (ltb ecmp (f2e 53 1024 u) (Fin 0)) eqn:Eu; destruct (ltb ecmp (f2e 53 1024 v) (Fin 0)) eqn:Ev; try (apply leb_Fin; lra).
    rewrite (le_lt_trans _ ecmp_laws _ _ _ Huv Ev) in Eu. discriminate.
  - apply view_mem_of. lia.
  - apply (writable_mem_of 0 8 (map f64_ofZ [9; 9; 9]%Z)). lia.
  - intros t [<-|[<-|[<-|[]]]]; (split; [reflexivity|discriminate]).
  - exists (f64_ofZ 1). split; [left; reflexivity|reflexivity].
  - exists out. split; [exact W|]. split; [exact L|exact K].
Qed.
