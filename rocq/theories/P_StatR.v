(** Counterexamples and combined statements for the statistics gufuncs. *)
From Coq Require Import ZArith Reals List Bool Lia Lra SpecFloat.
From Flocq Require Import Core BinarySingleNaN.
From Verif Require Import CSem CSemP Num NumP M_Stat S_Stat P_Kbn P_MeanVar P_Mad P_Vnorm P_Corr P_Soft.
Import ListNotations.
Open Scope Z_scope.

Notation pinf64 := (B754_infinity false : f64).

(** kbnsum of a strided view [inf, 1]: the elements between the strides are read *)
Lemma kbnsum_stride_refuted :
  exists (mx : mem f64) sx (x : list f64), view mx 0 sx x /\ length x = 2%nat /\
    (forall a, In a x -> is_nan a = false /\ a <> B754_infinity true) /\
    option_map is_nan (kbnsum_core_calc f64_arith 8 2 mx 0 sx) = Some true.
Proof.
  exists (mem_of 0 8 [pinf64; B754_infinity true; f64_ofZ 1]), 16, [pinf64; f64_ofZ 1].
  split; [intros [|[|k]] Hk; cbn in Hk; try lia; reflexivity|]. split; [reflexivity|].
  split; [intros a [<-|[<-|[]]]; (split; [reflexivity|discriminate])|]. vm_compute. reflexivity.
Qed.

(** kbnsum of a reversed view [inf, 1]: a read outside the array *)
Lemma kbnsum_reversed_refuted :
  exists (mx : mem f64) px sx (x : list f64), view mx px sx x /\ length x = 2%nat /\
    kbnsum_core_calc f64_arith 8 2 mx px sx = None.
Proof.
  exists (mem_of 0 8 [f64_ofZ 1; pinf64]), 8, (-8), [pinf64; f64_ofZ 1].
  split; [intros [|[|k]] Hk; cbn in Hk; try lia; reflexivity|]. split; [reflexivity|]. vm_compute. reflexivity.
Qed.

(** finite data whose sum overflows: NaN, where plain addition gives +inf *)
Lemma kbnsum_overflow_refuted :
  exists x : list f64, (forall a, In a x -> is_finite a = true) /\
    B2SF (fsum f64_arith x) = S754_infinity false /\
    option_map is_nan (kbnsum_core_calc f64_arith 8 (Z.of_nat (length x)) (mem_of 0 8 x) 0 8) = Some true.
Proof.
  exists [f64_ofZ (2 ^ 1023); f64_ofZ (2 ^ 1023)].
  split; [intros a [<-|[<-|[]]]; vm_compute; reflexivity|]. split; vm_compute; reflexivity.
Qed.

(** meanvar: the mean of data with one infinity depends on the order *)
Lemma meanvar_inf_order_refuted :
  exists a b : f64, is_nan a = false /\ is_nan b = false /\
    let mv x := option_map (fun mo : mem f64 => option_map B2SF (mo 0))
                  (meanvar_core f64_arith (fun v : f64 => v) 2 (mem_of 0 8 x) 0 8 0 (mem_of 0 8 [a; a]) 0 8) in
    mv [a; b] = Some (Some (S754_infinity false)) /\ mv [b; a] = Some (Some S754_nan).
Proof. exists (f64_ofZ 1), pinf64. repeat split; vm_compute; reflexivity. Qed.

(** vnorm: NaN elements are skipped by the maximum norm, and all-NaN input has norm 0 *)
Lemma vnorm_nan_refuted (TR : transc f64) :
  exists x : list f64, In B754_nan x /\
    option_map B2SF (vnorm_core_calc f64_arith TR (a_abs f64_arith) (Z.of_nat (length x)) (mem_of 0 8 x) 0 8 pinf64)
      = Some (B2SF (f64_ofZ 3)) /\
    option_map B2SF (vnorm_core_calc f64_arith TR (a_abs f64_arith) 1 (mem_of 0 8 [B754_nan]) 0 8 (f64_ofZ 2))
      = Some (B2SF (f64_ofZ 0)).
Proof. exists [B754_nan; f64_ofZ 3]. split; [left; reflexivity|]. split; vm_compute; reflexivity. Qed.

(** the loop counter of vnorm and vdot is an int *)
Lemma vnorm_int_counter_refuted {T U} (A : arith U) TR (absf : T -> U) n mx px sx order :
  INT_MAX < n -> leb (a_cmp A) order (a_ofZ A 0) = false ->
  vnorm_core_calc A TR absf n mx px sx order = None.
Proof.
  intros Hn Ho. unfold vnorm_core_calc. rewrite Ho. unfold int_for_each.
  replace (n <=? INT_MAX) with false by (symmetry; apply Z.leb_gt; exact Hn). reflexivity.
Qed.
Lemma vdot_int_counter_refuted {T} (A : arith T) sz n mx px sx my py sy :
  INT_MAX < n -> vdot_core_calc A sz n mx px sx my py sy = None.
Proof.
  intros Hn. unfold vdot_core_calc, int_for_each.
  replace (n <=? INT_MAX) with false by (symmetry; apply Z.leb_gt; exact Hn). destruct (_ && _); reflexivity.
Qed.

(** pearson_corr(x, x) exceeds 1 *)
Lemma pearson_above_one_refuted :
  exists x : list f64, (forall a, In a x -> is_finite a = true) /\
    exists r, pearson_corr_core f64_arith (fun v : f64 => v) f64_cmp (corr_bad_float f64_arith) (Z.of_nat (length x))
       (mem_of 0 8 x) 0 8 (mem_of 0 8 x) 0 8 = Some r /\ gtb f64_cmp r (f64_ofZ 1) = true.
Proof.
  exists [f64_ofZ 2; f64_ofZ 2; f64_ofZ 5].
  split; [intros a [<-|[<-|[<-|[]]]]; vm_compute; reflexivity|].
  set (c := pearson_corr_core _ _ _ _ _ _ _ _ _ _ _).
  assert (H : match c with Some r => gtb f64_cmp r (f64_ofZ 1) | None => false end = true) by (vm_compute; reflexivity).
  destruct c as [r|]; [exists r; split; [reflexivity|exact H]|discriminate].
Qed.

(** mad, gini and rmad sort with operator<: NaN input is undefined *)
Lemma mad_nan_refuted {T} (A : arith T) sortf mx px sx x unb :
  view mx px sx x -> (exists a, In a x /\ isnanb (a_cmp A) a = true) ->
  mad_core A sortf (Z.of_nat (length x)) mx px sx unb = None /\
  gini_core A sortf (Z.of_nat (length x)) mx px sx unb = None /\
  rmad_core A sortf (Z.of_nat (length x)) mx px sx unb = None.
Proof.
  intros V (a & Ha & Na).
  assert (E : unnormalized_mad A sortf (Z.of_nat (length x)) mx px sx = None).
  { unfold unnormalized_mad. rewrite (mad_copy_view mx px sx x V). cbn [bind].
    replace (existsb (isnanb (a_cmp A)) x) with true; [reflexivity|]. symmetry. apply existsb_exists. exists a. split; assumption. }
  unfold rmad_core, gini_core, mad_core. rewrite E. repeat split.
Qed.

(** softmax in exact arithmetic, all parts together *)
Lemma softmax_exact_full mx px sx x mo po so :
  view mx px sx x -> writable mo po so (length x) ->
  (forall t, In t x -> t = NInf \/ exists a, t = Fin a) -> (exists a, In (Fin a) x) ->
  exists y, writes (softmax_core earith etransc (Z.of_nat (length x)) mx px sx mo po so) mo po so (map Fin y) /\
    y = rsoftmax x /\ length y = length x /\ rsum y = 1%R /\
    (forall k a, nth_error x k = Some a -> exists b, nth_error y k = Some b /\ (0 <= b <= 1)%R /\
        (forall r, a = Fin r -> (0 < b)%R) /\ (a = NInf -> b = 0%R)) /\
    (forall i j a b u v, nth_error x i = Some (Fin a) -> nth_error x j = Some (Fin b) ->
        nth_error y i = Some u -> nth_error y j = Some v -> (u < v <-> a < b)%R).
Proof.
  intros V W H HF. exists (rsoftmax x). split; [apply softmax_exact; assumption|]. split; [reflexivity|].
  split; [apply map_length|]. split; [apply rsoftmax_sum, HF|]. split.
  - intros k a Hk. exact (rsoftmax_range x k a HF Hk).
  - intros i j a b u v. apply rsoftmax_order, HF.
Qed.

(** adding a constant to every element does not change the result *)
Lemma softmax_shift mx px sx x my py sy c mo po so :
  view mx px sx x -> view my py sy (map (fun t => eadd t (Fin c)) x) -> writable mo po so (length x) ->
  (forall t, In t x -> t = NInf \/ exists a, t = Fin a) -> (exists a, In (Fin a) x) ->
  exists y, writes (softmax_core earith etransc (Z.of_nat (length x)) mx px sx mo po so) mo po so y /\
            writes (softmax_core earith etransc (Z.of_nat (length x)) my py sy mo po so) mo po so y.
Proof.
  intros V V' W H HF. exists (map Fin (rsoftmax x)). split; [apply softmax_exact; assumption|].
  rewrite <- (rsoftmax_shift x c). rewrite <- (map_length (fun t => eadd t (Fin c)) x). apply softmax_exact.
  - exact V'.
  - rewrite map_length. exact W.
  - intros t Ht. apply in_map_iff in Ht. destruct Ht as (s & <- & Hs). destruct (H s Hs) as [->|(a & ->)]; [left; reflexivity|right; eexists; reflexivity].
  - destruct HF as (a & Ha). exists (a + c)%R. apply in_map_iff. exists (Fin a). split; [reflexivity|exact Ha].
Qed.

(** logbeta does not depend on the order in exact arithmetic *)
Lemma logbeta_perm (lgamma : ER -> ER) (lg : R -> R) sz mx px sx my py sy x y :
  view mx px sx (map Fin x) -> view my py sy (map Fin y) -> Permutation.Permutation x y -> x <> [] ->
  (forall a, In a (rsum x :: x) -> lgamma (Fin a) = Fin (lg a)) ->
  multivariate_logbeta_core earith lgamma sz (Z.of_nat (length x)) mx px sx =
  multivariate_logbeta_core earith lgamma sz (Z.of_nat (length y)) my py sy.
Proof.
  intros Vx Vy P Hx H.
  assert (PS : forall l l', Permutation.Permutation l l' -> rsum l = rsum l').
  { induction 1; cbn [rsum]; try lra. }
  rewrite (logbeta_exact lgamma lg sz mx px sx x Vx Hx H).
  rewrite (logbeta_exact lgamma lg sz my py sy y Vy).
  - rewrite (PS _ _ P), (PS _ _ (Permutation.Permutation_map lg P)). reflexivity.
  - intros ->. apply Permutation.Permutation_sym, Permutation.Permutation_nil in P. congruence.
  - intros a Ha. apply H. rewrite (PS _ _ P). destruct Ha as [<-|Ha]; [left; reflexivity|right].
    apply (Permutation.Permutation_in _ (Permutation.Permutation_sym P) Ha).
Qed.

(** pearson_corr in exact arithmetic, all parts together *)
Section Pearson.
  Context {T : Type} (up : T -> ER) (cmpT : T -> T -> option comparison) (bad : T -> T -> bool) (rf : T -> R).
  Context (Hup : forall t, up t = Fin (rf t)).
  Context (Hcmp : forall s t, cmpT s t = Some (Rcompare (rf s) (rf t))).
  Context (Hbad : forall s t, bad s t = true <-> rf s = rf t).
  Lemma pearson_full mx px sx my py sy (x y : list T) :
    view mx px sx x -> view my py sy y -> length y = length x -> (2 <= length x)%nat ->
    ~ constant (map rf x) -> ~ constant (map rf y) ->
    exists r, pearson_corr_core earith up cmpT bad (Z.of_nat (length x)) mx px sx my py sy = Some (Fin r) /\
      pearson_corr_core earith up cmpT bad (Z.of_nat (length x)) my py sy mx px sx = Some (Fin r) /\
      r = pearson (map rf x) (map rf y) /\ (-1 <= r <= 1)%R /\
      (forall a b, map rf y = map (fun t => a * rf t + b)%R x -> (0 < a -> r = 1)%R /\ (a < 0 -> r = -1)%R).
  Proof.
    intros Vx Vy EL Hn Cx Cy. exists (pearson (map rf x) (map rf y)).
    split; [apply (pearson_exact up cmpT bad rf Hup Hcmp Hbad); assumption|].
    split.
    { rewrite <- EL. rewrite (pearson_exact up cmpT bad rf Hup Hcmp Hbad my mx py sy px sx y x Vy Vx (eq_sym EL)); [|lia|assumption|assumption].
      rewrite pearson_sym. reflexivity. }
    split; [reflexivity|].
    assert (EL' : length (map rf y) = length (map rf x)) by (rewrite !map_length; exact EL).
    split; [apply pearson_range; assumption|].
    intros a b E. assert (Nx : map rf x <> []) by (destruct x; [cbn in Hn; lia|discriminate]).
    assert (E' : map rf y = map (fun t => a * t + b)%R (map rf x)) by (rewrite map_map; exact E). rewrite E'.
    split; intros Ha; rewrite pearson_affine by (try assumption; lra); destruct (Rlt_dec 0 a); lra.
  Qed.
End Pearson.

(** vnorm of a finite order: zero exactly for the zero vector, homogeneous *)
Section VnormProps.
  Context {T : Type} (absf : T -> ER) (rf : T -> R).
  Lemma vnorm_zero_iff mx px sx (x : list T) p v :
    view mx px sx x -> Z.of_nat (length x) <= INT_MAX -> (forall t, In t x -> absf t = Fin (rf t) /\ (0 <= rf t)%R) -> (0 < p)%R ->
    vnorm_core_calc earith etransc absf (Z.of_nat (length x)) mx px sx (Fin p) = Some v ->
    exists r, v = Fin r /\ (0 <= r)%R /\ (r = 0%R <-> forall t, In t x -> rf t = 0%R).
  Proof.
    intros V Hn H Hp. rewrite (vnorm_finite absf rf mx px sx x V Hn H p Hp). intros E. injection E as <-.
    eexists. split; [reflexivity|]. split; [apply pnorm_nonneg|]. rewrite pnorm_zero by exact Hp. split.
    - intros K t Ht. apply K. apply in_map, Ht.
    - intros K a Ha. apply in_map_iff in Ha. destruct Ha as (t & <- & Ht). apply K, Ht.
  Qed.
  Lemma vnorm_homogeneous mx px sx (x : list T) my py sy (y : list T) p c r :
    view mx px sx x -> view my py sy y -> Z.of_nat (length x) <= INT_MAX ->
    (forall t, In t x -> absf t = Fin (rf t) /\ (0 <= rf t)%R) -> (forall t, In t y -> absf t = Fin (rf t) /\ (0 <= rf t)%R) ->
    map rf y = map (fun t => Rabs c * rf t)%R x -> (0 < p)%R ->
    vnorm_core_calc earith etransc absf (Z.of_nat (length x)) mx px sx (Fin p) = Some (Fin r) ->
    vnorm_core_calc earith etransc absf (Z.of_nat (length y)) my py sy (Fin p) = Some (Fin (Rabs c * r)).
  Proof.
    intros V V' Hn H H' E Hp. rewrite (vnorm_finite absf rf mx px sx x V Hn H p Hp). intros Er. injection Er as <-.
    assert (EL : length y = length x) by (rewrite <- (map_length rf y), E, map_length; reflexivity).
    rewrite (vnorm_finite absf rf my py sy y V'); [|rewrite EL; exact Hn|exact H'|exact Hp].
    rewrite E, <- (map_map rf (fun a => Rabs c * a)%R). rewrite pnorm_scale; [reflexivity|exact Hp|apply Rabs_pos|].
    intros a Ha. apply in_map_iff in Ha. destruct Ha as (t & <- & Ht). apply H, Ht.
  Qed.
End VnormProps.

(** vdot is linear in its first argument (exact arithmetic) *)
Lemma vdot_linear sz mx px sx mx' px' sx' mz pz sz' my py sy (x x' y : list R) a b r r' :
  length x = length y -> length x' = length y -> Z.of_nat (length y) <= INT_MAX ->
  view mx px sx (map Fin x) -> view mx' px' sx' (map Fin x') -> view my py sy (map Fin y) ->
  view mz pz sz' (map (fun q => Fin (a * fst q + b * snd q)%R) (combine x x')) ->
  vdot_core_calc earith sz (Z.of_nat (length y)) mx px sx my py sy = Some (Fin r) ->
  vdot_core_calc earith sz (Z.of_nat (length y)) mx' px' sx' my py sy = Some (Fin r') ->
  vdot_core_calc earith sz (Z.of_nat (length y)) mz pz sz' my py sy = Some (Fin (a * r + b * r')%R).
Proof.
  intros E1 E2 Hn V1 V2 Vy Vz. rewrite <- E1 at 1.
  rewrite (vdot_exact sz mx px sx my py sy x y V1 Vy) by (try lia; rewrite E1; exact Hn).
  intros K1. injection K1 as <-. rewrite <- E2 at 1.
  rewrite (vdot_exact sz mx' px' sx' my py sy x' y V2 Vy) by (try lia; rewrite E2; exact Hn).
  intros K2. injection K2 as <-.
  set (z := map (fun q => (a * fst q + b * snd q)%R) (combine x x')).
  assert (EZ : length z = length y) by (unfold z; rewrite map_length, combine_length; lia).
  rewrite <- EZ. rewrite (vdot_exact sz mz pz sz' my py sy z y).
  - unfold z. rewrite rdot_lin by assumption. reflexivity.
  - unfold z. rewrite map_map. exact Vz.
  - exact Vy.
  - symmetry; exact EZ.
  - rewrite EZ; exact Hn.
Qed.
