(** Proofs about pearson_corr. *)
From Coq Require Import ZArith Reals List Bool Lia Lra.
From Flocq Require Import Core BinarySingleNaN.
From Verif Require Import CSem CSemP FoldP Num NumP NumF NumX M_Stat S_Stat P_Kbn P_MeanVar P_Vnorm.
Import ListNotations.
Open Scope R_scope.

(** ** facts about the specification *)
Lemma rcov_sym x y : rcov x y = rcov y x.
Proof.
  unfold rcov. generalize (rmean x) (rmean y). intros p q. revert y.
  induction x as [|a x IH]; intros [|b y]; try reflexivity. cbn [combine map rsum fst snd]. rewrite IH. ring.
Qed.
Lemma pearson_sym x y : pearson x y = pearson y x.
Proof. unfold pearson. rewrite rcov_sym. f_equal. ring. Qed.

Section CS.
  Context {T : Type} (f g : T -> R).
  Lemma cauchy l :
    rsum (map (fun t => f t * g t) l) * rsum (map (fun t => f t * g t) l)
      <= rsum (map (fun t => f t * f t) l) * rsum (map (fun t => g t * g t) l).
  Proof.
    set (B := rsum (map (fun t => f t * g t) l)). set (A := rsum (map (fun t => f t * f t) l)).
    set (C := rsum (map (fun t => g t * g t) l)).
    assert (HC : 0 <= C).
    { apply rsum_nonneg. intros a Ha. apply in_map_iff in Ha. destruct Ha as (t & <- & _). apply Rle_0_sqr. }
    assert (Q : 0 <= rsum (map (fun t => (C * f t - B * g t) * (C * f t - B * g t)) l)).
    { apply rsum_nonneg. intros a Ha. apply in_map_iff in Ha. destruct Ha as (t & <- & _). apply Rle_0_sqr. }
    rewrite (rsum_ext _ (fun t => (C * C) * (f t * f t) + ((-2 * C * B) * (f t * g t) + (B * B) * (g t * g t)))) in Q
      by (intros; ring).
    rewrite !rsum_map_add, !rsum_map_scal in Q. fold A B C in Q.
    destruct HC as [HC|HC].
    - assert (0 <= C * (A * C - B * B)) by (ring_simplify in Q; ring_simplify; lra).
      assert (0 <= A * C - B * B); [|lra].
      apply (Rmult_le_reg_l C); [exact HC|]. lra.
    - assert (BZ : B = 0); [|rewrite BZ, <- HC; lra].
      unfold B. rewrite (rsum_ext _ (fun _ => 0)); [rewrite rsum_const; ring|].
      intros t Ht. assert (G : g t * g t = 0).
      { apply (rsum_zero (map (fun t => g t * g t) l)).
        - intros a Ha. apply in_map_iff in Ha. destruct Ha as (u & <- & _). apply Rle_0_sqr.
        - symmetry. exact HC.
        - apply in_map_iff. exists t. split; [reflexivity|exact Ht]. }
      assert (g t = 0) as -> by (apply Rmult_integral in G; lra). ring.
  Qed.
End CS.

Lemma map_fst_combine {A B} : forall (l : list A) (l' : list B), length l' = length l -> map fst (combine l l') = l.
Proof. induction l as [|a l IH]; intros [|b l'] E; try discriminate; [reflexivity|]. cbn. rewrite IH; [reflexivity|cbn in E; lia]. Qed.
Lemma map_snd_combine {A B} : forall (l : list A) (l' : list B), length l' = length l -> map snd (combine l l') = l'.
Proof. induction l as [|a l IH]; intros [|b l'] E; try discriminate; [reflexivity|]. cbn. rewrite IH; [reflexivity|cbn in E; lia]. Qed.

Lemma rcov_cs x y : length y = length x -> rcov x y * rcov x y <= rss x * rss y.
Proof.
  intros E. pose proof (cauchy (fun q => fst q - rmean x) (fun q => snd q - rmean y) (combine x y)) as K.
  cbv beta in K. unfold rcov.
  replace (rss x) with (rsum (map (fun q : R * R => (fst q - rmean x) * (fst q - rmean x)) (combine x y))).
  - replace (rss y) with (rsum (map (fun q : R * R => (snd q - rmean y) * (snd q - rmean y)) (combine x y))); [exact K|].
    unfold rss. rewrite <- (map_map snd (fun t => (t - rmean y) * (t - rmean y))), map_snd_combine by exact E. reflexivity.
  - unfold rss. rewrite <- (map_map fst (fun t => (t - rmean x) * (t - rmean x))), map_fst_combine by exact E. reflexivity.
Qed.

Lemma rss_pos x : ~ constant x -> 0 < rss x.
Proof.
  intros H. destruct (rss_nonneg x) as [G|G]; [exact G|]. exfalso. apply H. apply rss_zero_iff. symmetry. exact G.
Qed.

Lemma pearson_range x y : length y = length x -> ~ constant x -> ~ constant y -> -1 <= pearson x y <= 1.
Proof.
  intros E Hx Hy. unfold pearson. pose proof (rcov_cs x y E) as K.
  pose proof (rss_pos x Hx) as Px. pose proof (rss_pos y Hy) as Py.
  pose proof (sqrt_lt_R0 _ Px) as Sx. pose proof (sqrt_lt_R0 _ Py) as Sy.
  set (N := sqrt (rss x) * sqrt (rss y)). assert (NP : 0 < N) by (unfold N; nra).
  assert (NN : N * N = rss x * rss y).
  { unfold N. pose proof (sqrt_sqrt (rss x) ltac:(lra)). pose proof (sqrt_sqrt (rss y) ltac:(lra)).
    replace (sqrt (rss x) * sqrt (rss y) * (sqrt (rss x) * sqrt (rss y)))
      with ((sqrt (rss x) * sqrt (rss x)) * (sqrt (rss y) * sqrt (rss y))) by ring. rewrite H, H0. reflexivity. }
  rewrite <- NN in K. assert (B : Rabs (rcov x y) <= N).
  { rewrite <- (Rabs_pos_eq N) by lra. apply Rsqr_le_abs_0. exact K. }
  apply Rabs_le_inv in B. split.
  - apply (Rmult_le_reg_r N); [exact NP|]. unfold Rdiv. rewrite Rmult_assoc, Rinv_l by lra. lra.
  - apply (Rmult_le_reg_r N); [exact NP|]. unfold Rdiv. rewrite Rmult_assoc, Rinv_l by lra. lra.
Qed.

Lemma rcov_affine a b x : x <> [] -> rcov x (map (fun t => a * t + b) x) = a * rss x.
Proof.
  intros H. unfold rcov. rewrite rmean_affine by exact H. unfold rss. generalize (rmean x) as m. intros m.
  rewrite <- rsum_map_scal. clear H. induction x as [|t x IH]; [reflexivity|]. cbn [map combine rsum fst snd]. rewrite IH. ring.
Qed.

Lemma pearson_affine a b x : x <> [] -> ~ constant x -> a <> 0 ->
  pearson x (map (fun t => a * t + b) x) = (if Rlt_dec 0 a then 1 else -1).
Proof.
  intros H Hx Ha. unfold pearson. rewrite rcov_affine, rss_affine by exact H.
  pose proof (rss_pos x Hx) as Px. pose proof (sqrt_lt_R0 _ Px) as Sx.
  rewrite sqrt_mult by (try apply Rle_0_sqr; lra). fold (Rsqr a). rewrite sqrt_Rsqr_abs.
  pose proof (sqrt_sqrt (rss x) ltac:(lra)) as SS.
  destruct (Rlt_dec 0 a).
  - rewrite Rabs_pos_eq by lra. rewrite <- SS at 1. field. lra.
  - rewrite Rabs_left by lra. rewrite <- SS at 1. field. lra.
Qed.

(** ** exact arithmetic *)
Section Exact.
  Context {T : Type} (up : T -> ER) (cmpT : T -> T -> option comparison) (bad : T -> T -> bool) (rf : T -> R).
  Context (Hup : forall t, up t = Fin (rf t)).
  Context (Hcmp : forall s t, cmpT s t = Some (Rcompare (rf s) (rf t))).
  Context (Hbad : forall s t, bad s t = true <-> rf s = rf t).

  Let mstep (k : Z) (st : ER * ER) (t : T) : ER * ER :=
    let '(mean, c1) := st in
    let delta := esub (up t) mean in
    let y1 := esub (ediv delta (Fin (IZR (k + 1)))) c1 in
    let t1 := eadd mean y1 in (t1, esub (esub t1 mean) y1).
  Let nstep (m d : R) (st : ER * ER) (t : T) : ER * ER :=
    let '(sumsq, c) := st in
    let z := ediv (esub (up t) (Fin m)) (Fin d) in
    let y := esub (emul z z) c in
    let t := eadd sumsq y in (t, esub (esub t sumsq) y).

  Lemma mean_foldi : forall l k m, (0 <= k)%Z ->
    exists m', foldi mstep k l (Fin m, Fin 0) = (Fin m', Fin 0) /\
      m' * (IZR k + INR (length l)) = m * IZR k + rsum (map rf l).
  Proof.
    induction l as [|x l IH]; intros k m Hk.
    - exists m. cbn. split; [reflexivity|ring].
    - assert (K : 0 < IZR k + 1) by (apply IZR_le in Hk; lra).
      set (m1 := m + (rf x - m) / (IZR k + 1)).
      assert (E : mstep k (Fin m, Fin 0) x = (Fin m1, Fin 0)).
      { unfold mstep. rewrite Hup. cbn [esub eopp eadd]. rewrite plus_IZR, ediv_Fin by lra. cbn [esub eadd eopp].
        apply f_equal2; f_equal; unfold m1; field; lra. }
      assert (E1 : m1 * (IZR k + 1) = m * IZR k + rf x) by (unfold m1; field; lra).
      cbn [foldi]. rewrite E.
      destruct (IH (k + 1)%Z m1 ltac:(lia)) as (m' & F & Em).
      exists m'. split; [exact F|]. rewrite plus_IZR in Em.
      cbn [length map rsum]. rewrite S_INR.
      replace (IZR k + (INR (length l) + 1)) with (IZR k + 1 + INR (length l)) by ring. rewrite Em, E1. ring.
  Qed.

  Lemma strided_mean_exact mx px sx x : view mx px sx x -> x <> [] ->
    strided_mean earith up (Z.of_nat (length x)) mx px sx = Some (Fin (rmean (map rf x))).
  Proof.
    intros V Hx. unfold strided_mean. cbn [a_ofZ a_add a_sub a_div earith].
    rewrite (for_each_foldi mx px sx x _ mstep _ V).
    2:{ intros k [m c] t _ Hg. rewrite Hg. reflexivity. }
    destruct (mean_foldi x 0 0 ltac:(lia)) as (m & E & Em). rewrite E. cbn [bind]; unfold ret; do 2 f_equal.
    unfold rmean. rewrite map_length. pose proof (INR_len_pos x Hx) as P.
    apply (Rmult_eq_reg_r (INR (length x))); [|lra]. rewrite Rmult_0_l, !Rplus_0_l in Em. rewrite Em. field. lra.
  Qed.

  Lemma maxabs_exact mx px sx x m : view mx px sx x -> x <> [] ->
    exists M, strided_delta_maxabs earith up (Z.of_nat (length x)) mx px sx (Fin m) = Some (Fin M) /\
      (forall t, In t x -> Rabs (rf t - m) <= M) /\ exists t, In t x /\ Rabs (rf t - m) = M.
  Proof.
    intros V Hx. destruct x as [|x0 x]; [congruence|]. unfold strided_delta_maxabs.
    rewrite (view_load mx px sx x0 x V). cbn [bind].
    rewrite (for_each_fold_tail mx px sx x0 x _ (fun maxabs t => 
        if gtb ecmp (eabs (esub (up t) (Fin m))) maxabs then eabs (esub (up t) (Fin m)) else maxabs) _ V).
    2:{ intros k s t Hk Hg. rewrite Hg. reflexivity. }
    cbn [a_abs a_sub earith]. rewrite Hup. cbn [esub eopp eadd eabs].
    destruct (vmax_fold (fun t => eabs (esub (up t) (Fin m))) (fun t => Rabs (rf t - m)) x (Rabs (rf x0 + - m))) as (M & E & M1 & M2 & M3).
    { intros t _. rewrite Hup. reflexivity. }
    exists M. split; [rewrite <- E; reflexivity|]. split.
    - intros t [<-|Ht]; [exact M1|apply M2, Ht].
    - destruct M3 as [->|(t & Ht & Et)]; [exists x0; split; [left|]; reflexivity|exists t; split; [right|]; assumption].
  Qed.

  Lemma norm_exact mx px sx x m d : view mx px sx x -> 0 < d ->
    strided_delta_norm earith up (Z.of_nat (length x)) mx px sx (Fin m) (Fin d) =
      Some (Fin (sqrt (rsum (map (fun t => (rf t - m) * (rf t - m)) x)))).
  Proof.
    intros V Hd. unfold strided_delta_norm. cbn [a_ofZ a_add a_sub a_mul a_div a_sqrt earith].
    rewrite (for_each_fold mx px sx x _ (nstep m d) _ V).
    2:{ intros k [s c] t _ Hg. rewrite Hg. reflexivity. }
    assert (G : forall l s, fold_left (nstep m d) l (Fin s, Fin 0)
        = (Fin (s + rsum (map (fun t => (rf t - m) * (rf t - m)) l) / (d * d)), Fin 0)).
    { induction l as [|t l IH]; intros s.
      - cbn [fold_left map rsum]. unfold Rdiv. rewrite Rmult_0_l, Rplus_0_r. reflexivity.
      - assert (E : nstep m d (Fin s, Fin 0) t = (Fin (s + (rf t - m) * (rf t - m) / (d * d)), Fin 0)).
        { unfold nstep. rewrite Hup. cbn [esub eopp eadd]. rewrite ediv_Fin by lra. cbn [esub emul eadd eopp].
          apply f_equal2; f_equal; field; lra. }
        cbn [fold_left]. rewrite E, IH. apply f_equal2; [|reflexivity]. f_equal. cbn [map rsum]. field. lra. }
    rewrite G. cbn [bind]; unfold ret; do 2 f_equal. rewrite Rplus_0_l.
    set (S := rsum (map (fun t => (rf t - m) * (rf t - m)) x)).
    assert (HS : 0 <= S).
    { apply rsum_nonneg. intros a Ha. apply in_map_iff in Ha. destruct Ha as (t & <- & _). apply Rle_0_sqr. }
    assert (D2 : 0 < d * d) by nra.
    rewrite esqrt_Fin by (apply Rmult_le_pos; [exact HS|left; apply Rinv_0_lt_compat, D2]).
    cbn [emul]. f_equal. rewrite sqrt_div_alt by exact D2. fold (Rsqr d). rewrite sqrt_Rsqr by lra. field. lra.
  Qed.

  Lemma maxabs_zero x M : x <> [] -> let m := rmean (map rf x) in
    (forall t, In t x -> Rabs (rf t - m) <= M) -> (exists t, In t x /\ Rabs (rf t - m) = M) ->
    (M = 0 <-> constant (map rf x)).
  Proof.
    intros Hx m H1 (t & Ht & Et). split.
    - intros -> a b Ha Hb. apply in_map_iff in Ha. apply in_map_iff in Hb.
      destruct Ha as (u & <- & Hu). destruct Hb as (v & <- & Hv).
      pose proof (H1 u Hu) as Hu'. pose proof (H1 v Hv) as Hv'. apply Rabs_le_inv in Hu', Hv'. lra.
    - intros C. rewrite <- Et. replace m with (rf t); [rewrite Rminus_diag_eq by reflexivity; apply Rabs_R0|].
      symmetry. apply rmean_const; [destruct x; [congruence|discriminate]|].
      intros a Ha. apply C; [exact Ha|apply in_map, Ht].
  Qed.

  Context (mx my : mem T) (px sx py sy : Z) (x y : list T).
  Context (Vx : view mx px sx x) (Vy : view my py sy y) (EL : length y = length x) (Hn : (2 <= length x)%nat).
  Notation core := (pearson_corr_core earith up cmpT bad (Z.of_nat (length x)) mx px sx my py sy).

  Lemma cov_scaled p r (D : R) (u v : list T) : D <> 0 ->
    rsum (map (fun q => (rf (fst q) - p) * (rf (snd q) - r) / D) (combine u v))
    = rsum (map (fun q => (fst q - p) * (snd q - r)) (combine (map rf u) (map rf v))) / D.
  Proof.
    intros HD. revert v. induction u as [|a u IH]; intros [|b v]; cbn [map combine rsum fst snd]; try (unfold Rdiv; ring).
    rewrite IH. field. exact HD.
  Qed.

  Lemma pair_const a b : constant [a; b] <-> a = b.
  Proof.
    split; [intros C; apply C; cbn; auto|]. intros -> c d [<-|[<-|[]]] [<-|[<-|[]]]; reflexivity.
  Qed.

  Lemma rss_pair a b : rss [a; b] = (a - b) * (a - b) / 2.
  Proof. unfold rss, rmean. cbn. field. Qed.
  Lemma rcov_pair a b c d : rcov [a; b] [c; d] = (a - b) * (c - d) / 2.
  Proof. unfold rcov, rmean. cbn. field. Qed.

  Lemma pearson_pair a b c d : a <> b -> c <> d ->
    pearson [a; b] [c; d] = if Rlt_dec 0 ((a - b) * (c - d)) then 1 else -1.
  Proof.
    intros H1 H2. unfold pearson. rewrite rcov_pair, !rss_pair.
    assert (Q : forall u, u <> 0 -> sqrt (u * u / 2) = Rabs u / sqrt 2).
    { intros u Hu. rewrite sqrt_div_alt by lra. fold (Rsqr u). rewrite sqrt_Rsqr_abs. reflexivity. }
    rewrite !Q by lra. pose proof (sqrt_lt_R0 2 ltac:(lra)) as S2. pose proof (sqrt_sqrt 2 ltac:(lra)) as SS.
    assert (N1 : Rabs (a - b) <> 0) by (apply Rabs_no_R0; lra). assert (N2 : Rabs (c - d) <> 0) by (apply Rabs_no_R0; lra).
    replace ((a - b) * (c - d) / 2 / (Rabs (a - b) / sqrt 2 * (Rabs (c - d) / sqrt 2)))
      with ((a - b) * (c - d) * (sqrt 2 * sqrt 2) / 2 / (Rabs (a - b) * Rabs (c - d))) by (field; lra).
    rewrite SS, <- Rabs_mult. replace ((a - b) * (c - d) * 2 / 2) with ((a - b) * (c - d)) by field.
    assert (NZ : (a - b) * (c - d) <> 0) by (apply Rmult_integral_contrapositive_currified; lra).
    destruct (Rlt_dec 0 _) as [G|G].
    - rewrite Rabs_pos_eq by lra. field. lra.
    - rewrite Rabs_left by lra. field. lra.
  Qed.

  Theorem pearson_exact : ~ constant (map rf x) -> ~ constant (map rf y) ->
    core = Some (Fin (pearson (map rf x) (map rf y))).
  Proof.
    intros Cx Cy. unfold pearson_corr_core.
    destruct (Z.eqb_spec (Z.of_nat (length x)) 1) as [E1|_]; [lia|].
    destruct (Z.eqb_spec (Z.of_nat (length x)) 2) as [E2|N2].
    - destruct x as [|x0 [|x1 [|]]]; cbn [length] in *; try lia.
      destruct y as [|y0 [|y1 [|]]]; cbn [length] in *; try lia.
      unfold corr_two. rewrite (view_load mx px sx _ _ Vx), (view_load my py sy _ _ Vy).
      rewrite (view_get mx px sx _ 1 x1 Vx eq_refl : get mx px sx 1 = Some x1).
      rewrite (view_get my py sy _ 1 y1 Vy eq_refl : get my py sy 1 = Some y1). cbn [bind].
      cbn [map] in Cx, Cy |- *. rewrite pair_const in Cx, Cy.
      destruct (bad x0 x1) eqn:Bx; [apply Hbad in Bx; congruence|].
      destruct (bad y0 y1) eqn:By; [apply Hbad in By; congruence|].
      rewrite pearson_pair by assumption.
      unfold ltb, gtb. rewrite !Hcmp.
      destruct (Rlt_dec 0 ((rf x0 - rf x1) * (rf y0 - rf y1))) as [G|G].
      + assert (D : (rf x0 < rf x1 /\ rf y0 < rf y1) \/ (rf x1 < rf x0 /\ rf y1 < rf y0)).
        { destruct (Rtotal_order (rf x0) (rf x1)) as [A|[A|A]]; [left|congruence|right]; split; try lra; nra. }
        destruct D as [[D1 D2]|[D1 D2]].
        * rewrite !Rcompare_Lt by assumption. reflexivity.
        * rewrite !Rcompare_Gt by assumption. reflexivity.
      + assert (D : (rf x0 < rf x1 /\ rf y1 < rf y0) \/ (rf x1 < rf x0 /\ rf y0 < rf y1)).
        { destruct (Rtotal_order (rf x0) (rf x1)) as [A|[A|A]]; [left|congruence|right]; split; try lra;
          destruct (Rtotal_order (rf y0) (rf y1)) as [B|[B|B]]; try congruence; try lra; exfalso; apply G; nra. }
        destruct D as [[D1 D2]|[D1 D2]].
        * rewrite (Rcompare_Lt (rf x0)), (Rcompare_Gt (rf y0)) by assumption. reflexivity.
        * rewrite (Rcompare_Gt (rf x0)), (Rcompare_Lt (rf y0)) by assumption. reflexivity.
    - assert (Hx : x <> []) by (destruct x; [cbn in Hn; lia|discriminate]).
      assert (Hy : y <> []) by (destruct y; [rewrite <- EL in Hn; cbn in Hn; lia|discriminate]).
      unfold corr_general. cbn [a_ofZ a_cmp a_nan a_add a_mul a_div a_sub earith].
      rewrite (strided_mean_exact mx px sx x Vx Hx). cbn [bind].
      destruct (maxabs_exact mx px sx x (rmean (map rf x)) Vx Hx) as (Mx & EMx & M1 & M2). rewrite EMx. cbn [bind].
      assert (NZx : Mx <> 0) by (intros Z; apply Cx, (maxabs_zero x Mx Hx M1 M2), Z).
      assert (PMx : 0 < Mx) by (destruct M2 as (t & _ & Et); pose proof (Rabs_pos (rf t - rmean (map rf x))); lra).
      rewrite (proj2 (eqb_Fin_false Mx 0) NZx). rewrite (norm_exact mx px sx x _ Mx Vx PMx). cbn [bind].
      rewrite <- EL. rewrite (strided_mean_exact my py sy y Vy Hy). cbn [bind].
      destruct (maxabs_exact my py sy y (rmean (map rf y)) Vy Hy) as (My & EMy & M3 & M4). rewrite EMy. cbn [bind].
      assert (NZy : My <> 0) by (intros Z; apply Cy, (maxabs_zero y My Hy M3 M4), Z).
      assert (PMy : 0 < My) by (destruct M4 as (t & _ & Et); pose proof (Rabs_pos (rf t - rmean (map rf y))); lra).
      rewrite (proj2 (eqb_Fin_false My 0) NZy). rewrite (norm_exact my py sy y _ My Vy PMy). cbn [bind].
      rewrite EL.
      replace (rsum (map (fun t => (rf t - rmean (map rf x)) * (rf t - rmean (map rf x))) x)) with (rss (map rf x))
        by (unfold rss; rewrite map_map; reflexivity).
      replace (rsum (map (fun t => (rf t - rmean (map rf y)) * (rf t - rmean (map rf y))) y)) with (rss (map rf y))
        by (unfold rss; rewrite map_map; reflexivity).
      pose proof (sqrt_lt_R0 _ (rss_pos _ Cx)) as Sx. pose proof (sqrt_lt_R0 _ (rss_pos _ Cy)) as Sy.
      unfold pearson, rcov.
      set (A := sqrt (rss (map rf x))) in *. set (B := sqrt (rss (map rf y))) in *.
      set (ax := rmean (map rf x)) in *. set (ay := rmean (map rf y)) in *.
      rewrite (for_each_fold2 mx px sx x my py sy y _
        (fun r q => eadd r (emul (ediv (esub (up (fst q)) (Fin ax)) (Fin A)) (ediv (esub (up (snd q)) (Fin ay)) (Fin B)))) _ Vx Vy EL).
      2:{ intros k s u v _ Hu Hv. rewrite Hu, Hv. reflexivity. }
      f_equal. rewrite (vsum_fold _ (fun q => ((rf (fst q) - ax) * (rf (snd q) - ay)) / (A * B))).
      + f_equal. rewrite Rplus_0_l. apply cov_scaled. nra.
      + intros [u v] _. cbn [fst snd]. rewrite !Hup. cbn [esub eopp eadd]. rewrite !ediv_Fin by lra. cbn [emul]. f_equal. field. lra.
  Qed.

  Theorem pearson_const : constant (map rf x) \/ constant (map rf y) -> core = Some ENaN.
  Proof.
    intros C. unfold pearson_corr_core.
    destruct (Z.eqb_spec (Z.of_nat (length x)) 1) as [E1|_]; [lia|].
    destruct (Z.eqb_spec (Z.of_nat (length x)) 2) as [E2|N2].
    - destruct x as [|x0 [|x1 [|]]]; cbn [length] in *; try lia.
      destruct y as [|y0 [|y1 [|]]]; cbn [length] in *; try lia.
      unfold corr_two. rewrite (view_load mx px sx _ _ Vx), (view_load my py sy _ _ Vy).
      rewrite (view_get mx px sx _ 1 x1 Vx eq_refl : get mx px sx 1 = Some x1).
      rewrite (view_get my py sy _ 1 y1 Vy eq_refl : get my py sy 1 = Some y1). cbn [bind].
      cbn [map] in C. rewrite !pair_const, <- !Hbad in C.
      destruct (bad x0 x1); [reflexivity|]. destruct C as [C|C]; [discriminate|]. rewrite C. reflexivity.
    - assert (Hx : x <> []) by (destruct x; [cbn in Hn; lia|discriminate]).
      assert (Hy : y <> []) by (destruct y; [rewrite <- EL in Hn; cbn in Hn; lia|discriminate]).
      unfold corr_general. cbn [a_ofZ a_cmp a_nan a_add a_mul a_div a_sub earith].
      rewrite (strided_mean_exact mx px sx x Vx Hx). cbn [bind].
      destruct (maxabs_exact mx px sx x (rmean (map rf x)) Vx Hx) as (Mx & EMx & M1 & M2). rewrite EMx. cbn [bind].
      destruct (eqb ecmp (Fin Mx) (Fin 0)) eqn:Ex; [reflexivity|]. apply eqb_Fin_false in Ex.
      assert (PMx : 0 < Mx) by (destruct M2 as (t & _ & Et); pose proof (Rabs_pos (rf t - rmean (map rf x))); lra).
      rewrite (norm_exact mx px sx x _ Mx Vx PMx). cbn [bind].
      rewrite <- EL. rewrite (strided_mean_exact my py sy y Vy Hy). cbn [bind].
      destruct (maxabs_exact my py sy y (rmean (map rf y)) Vy Hy) as (My & EMy & M3 & M4). rewrite EMy. cbn [bind].
      rewrite (proj2 (eqb_Fin My 0)); [reflexivity|]. apply (maxabs_zero y My Hy M3 M4).
      destruct C as [C|C]; [|exact C]. exfalso. apply Ex, (maxabs_zero x Mx Hx M1 M2), C.
  Qed.
End Exact.

(** ** the general branch is defined in every arithmetic *)
Section Any.
  Context {T U : Type} (A : arith U) (up : T -> U).
  Definition mstepA (k : Z) (st : U * U) (t : T) : U * U :=
    let '(mean, c1) := st in
    let delta := a_sub A (up t) mean in
    let y1 := a_sub A (a_div A delta (a_ofZ A (k + 1))) c1 in
    let t1 := a_add A mean y1 in (t1, a_sub A (a_sub A t1 mean) y1).
  Definition dstepA (m : U) (s : U) (t : T) : U :=
    if gtb (a_cmp A) (a_abs A (a_sub A (up t) m)) s then a_abs A (a_sub A (up t) m) else s.
  Definition nstepA (m d : U) (st : U * U) (t : T) : U * U :=
    let '(sumsq, c) := st in
    let z := a_div A (a_sub A (up t) m) d in
    let y := a_sub A (a_mul A z z) c in
    let t := a_add A sumsq y in (t, a_sub A (a_sub A t sumsq) y).
  Definition rstepA (xm xn ym yn : U) (r : U) (q : T * T) : U :=
    a_add A r (a_mul A (a_div A (a_sub A (up (fst q)) xm) xn) (a_div A (a_sub A (up (snd q)) ym) yn)).
  Definition zero2 : U * U := (a_ofZ A 0, a_ofZ A 0).
  Definition meanA (x : list T) : U := fst (foldi mstepA 0 x zero2).
  Definition maxA (x : list T) (m : U) : U :=
    match x with [] => a_ofZ A 0 | x0 :: l => fold_left (dstepA m) l (a_abs A (a_sub A (up x0) m)) end.
  Definition normA (x : list T) (m d : U) : U := a_mul A d (a_sqrt A (fst (fold_left (nstepA m d) x zero2))).

  Lemma strided_mean_fold mx px sx x : view mx px sx x ->
    strided_mean A up (Z.of_nat (length x)) mx px sx = Some (meanA x).
  Proof.
    intros V. unfold strided_mean. rewrite (for_each_foldi mx px sx x _ mstepA _ V).
    - unfold meanA, zero2. destruct (foldi _ _ _ _) as [m c]. reflexivity.
    - intros k [m c] t _ Hg. rewrite Hg. reflexivity.
  Qed.
  Lemma maxabs_fold mx px sx x m : view mx px sx x -> x <> [] ->
    strided_delta_maxabs A up (Z.of_nat (length x)) mx px sx m = Some (maxA x m).
  Proof.
    intros V Hx. destruct x as [|x0 x]; [congruence|]. unfold strided_delta_maxabs.
    rewrite (view_load mx px sx x0 x V). cbn [bind].
    rewrite (for_each_fold_tail mx px sx x0 x _ (dstepA m) _ V); [reflexivity|].
    intros k s t Hk Hg. rewrite Hg. reflexivity.
  Qed.
  Lemma norm_fold mx px sx x m d : view mx px sx x ->
    strided_delta_norm A up (Z.of_nat (length x)) mx px sx m d = Some (normA x m d).
  Proof.
    intros V. unfold strided_delta_norm. rewrite (for_each_fold mx px sx x _ (nstepA m d) _ V).
    - unfold normA, zero2. destruct (fold_left _ _ _) as [s c]. reflexivity.
    - intros k [s c] t _ Hg. rewrite Hg. reflexivity.
  Qed.
  Lemma corr_general_fold mx px sx my py sy x y :
    view mx px sx x -> view my py sy y -> length y = length x -> x <> [] ->
    corr_general A up (Z.of_nat (length x)) mx px sx my py sy =
      Some (if eqb (a_cmp A) (maxA x (meanA x)) (a_ofZ A 0) then a_nan A
            else if eqb (a_cmp A) (maxA y (meanA y)) (a_ofZ A 0) then a_nan A
            else fold_left (rstepA (meanA x) (normA x (meanA x) (maxA x (meanA x)))
                                   (meanA y) (normA y (meanA y) (maxA y (meanA y)))) (combine x y) (a_ofZ A 0)).
  Proof.
    intros Vx Vy EL Hx. assert (Hy : y <> []) by (destruct x, y; try discriminate; congruence).
    unfold corr_general. rewrite (strided_mean_fold mx px sx x Vx). cbn [bind].
    rewrite (maxabs_fold mx px sx x _ Vx Hx). cbn [bind].
    destruct (eqb (a_cmp A) (maxA x (meanA x)) (a_ofZ A 0)); [reflexivity|].
    rewrite (norm_fold mx px sx x _ _ Vx). cbn [bind].
    rewrite <- EL. rewrite (strided_mean_fold my py sy y Vy). cbn [bind].
    rewrite (maxabs_fold my py sy y _ Vy Hy). cbn [bind].
    destruct (eqb (a_cmp A) (maxA y (meanA y)) (a_ofZ A 0)); [reflexivity|].
    rewrite (norm_fold my py sy y _ _ Vy). cbn [bind]. rewrite EL.
    rewrite (for_each_fold2 mx px sx x my py sy y _ (rstepA (meanA x) (normA x (meanA x) (maxA x (meanA x)))
                                   (meanA y) (normA y (meanA y) (maxA y (meanA y)))) _ Vx Vy EL); [reflexivity|].
    intros k s u v _ Hu Hv. rewrite Hu, Hv. reflexivity.
  Qed.
End Any.

(** ** IEEE: constant data and NaN *)
Section IEEE.
  Context (prec emax : Z) (Hp : Prec_gt_0 prec) (He : Prec_lt_emax prec emax).
  Notation F := (binary_float prec emax).
  Notation FA := (farith prec emax Hp He).
  Context {T : Type} (up : T -> F) (cmpT : T -> T -> option comparison) (bad : T -> T -> bool).

  Lemma meanA_const x c : x <> [] -> (forall t, In t x -> f2e _ _ (up t) = Fin c) -> f2e _ _ (meanA FA up x) = Fin c.
  Proof.
    intros Hx H. destruct x as [|x0 x]; [congruence|]. unfold meanA. cbn [foldi]. change (0 + 1)%Z with 1%Z.
    assert (G : forall l k s, (0 < k)%Z -> (forall t, In t l -> f2e _ _ (up t) = Fin c) ->
      f2e _ _ (fst s) = Fin c /\ f2e _ _ (snd s) = Fin 0 ->
      f2e _ _ (fst (foldi (mstepA FA up) k l s)) = Fin c).
    { induction l as [|t l IH]; intros k s Hk Hl [E1 E2]; [exact E1|]. cbn [foldi].
      apply IH; [lia|intros u Hu; apply Hl; right; exact Hu|].
      destruct s as [m c1]. cbn [fst snd] in *. pose proof (Hl t (or_introl eq_refl)) as Et.
      unfold mstepA. cbn [fst snd a_sub a_add farith].
      pose proof (sub_same prec emax Hp He _ _ _ Et E1) as D.
      pose proof (zero_div prec emax Hp He _ (k + 1) D ltac:(lia)) as Q.
      pose proof (sub_same prec emax Hp He _ _ _ Q E2) as Y.
      pose proof (add_zero_r prec emax Hp He _ _ _ E1 Y) as M1.
      split; [exact M1|]. exact (sub_same prec emax Hp He _ _ _ (sub_same prec emax Hp He _ _ _ M1 E1) Y). }
    apply G; [lia|intros t Ht; apply H; right; exact Ht|].
    pose proof (H x0 (or_introl eq_refl)) as Ex. pose proof (ofZ_0 prec emax Hp He) as Z0.
    unfold mstepA, zero2. cbn [fst snd a_sub a_add farith]. change (0 + 1)%Z with 1%Z.
    pose proof (sub_zero prec emax Hp He _ _ _ Ex Z0) as D.
    pose proof (div_one prec emax Hp He _ _ D) as Q.
    pose proof (sub_zero prec emax Hp He _ _ _ Q Z0) as Y.
    pose proof (add_zero_l prec emax Hp He _ _ _ Z0 Y) as M1.
    split; [exact M1|]. exact (sub_same prec emax Hp He _ _ _ (sub_zero prec emax Hp He _ _ _ M1 Z0) Y).
  Qed.

  Lemma abs_zr (v : F) : f2e _ _ v = Fin 0 -> f2e _ _ (Babs v) = Fin 0.
  Proof. intros E. rewrite f2e_abs, E. cbn [eabs]. rewrite Rabs_R0. reflexivity. Qed.

  Lemma maxA_const x c : x <> [] -> (forall t, In t x -> f2e _ _ (up t) = Fin c) ->
    eqb (a_cmp FA) (maxA FA up x (meanA FA up x)) (a_ofZ FA 0) = true.
  Proof.
    intros Hx H. pose proof (meanA_const x c Hx H) as Em. destruct x as [|x0 x]; [congruence|].
    set (m := meanA FA up (x0 :: x)) in *. unfold maxA.
    assert (Z : f2e _ _ (fold_left (dstepA FA up m) x (a_abs FA (a_sub FA (up x0) m))) = Fin 0).
    { assert (G : forall l s, (forall t, In t l -> f2e _ _ (up t) = Fin c) -> f2e _ _ s = Fin 0 ->
         f2e _ _ (fold_left (dstepA FA up m) l s) = Fin 0).
      { induction l as [|t l IH]; intros s Hl Es; [exact Es|]. cbn [fold_left].
        apply IH; [intros u Hu; apply Hl; right; exact Hu|]. unfold dstepA. cbn [a_abs a_sub farith].
        destruct (gtb _ _ _); [|exact Es]. apply abs_zr.
        apply (sub_same prec emax Hp He _ _ c); [apply Hl; left; reflexivity|exact Em]. }
      apply G; [intros t Ht; apply H; right; exact Ht|]. cbn [a_abs a_sub farith]. apply abs_zr.
      apply (sub_same prec emax Hp He _ _ c); [apply H; left; reflexivity|exact Em]. }
    cbn [a_cmp farith]. rewrite eqb_f, Z. apply eqb_Fin. reflexivity.
  Qed.

  Theorem pearson_const_ieee mx px sx my py sy x y z :
    view mx px sx x -> view my py sy y -> length y = length x -> (2 <= length x)%nat -> z = x \/ z = y ->
    (exists c, forall t, In t z -> f2e _ _ (up t) = Fin c) ->
    (forall a b, In a z -> In b z -> bad a b = true) ->
    pearson_corr_core FA up cmpT bad (Z.of_nat (length x)) mx px sx my py sy = Some B754_nan.
  Proof.
    intros Vx Vy EL Hn Hz (c & Hc) Hb. unfold pearson_corr_core.
    destruct (Z.eqb_spec (Z.of_nat (length x)) 1) as [E1|_]; [lia|].
    destruct (Z.eqb_spec (Z.of_nat (length x)) 2) as [E2|N2].
    - destruct x as [|x0 [|x1 [|]]]; cbn [length] in *; try lia.
      destruct y as [|y0 [|y1 [|]]]; cbn [length] in *; try lia.
      unfold corr_two. rewrite (view_load mx px sx _ _ Vx), (view_load my py sy _ _ Vy).
      rewrite (view_get mx px sx _ 1 x1 Vx eq_refl : get mx px sx 1 = Some x1).
      rewrite (view_get my py sy _ 1 y1 Vy eq_refl : get my py sy 1 = Some y1). cbn [bind].
      destruct (bad x0 x1) eqn:Bx; [reflexivity|]. destruct Hz as [->| ->].
      + rewrite (Hb x0 x1) in Bx by (cbn; auto). discriminate.
      + rewrite (Hb y0 y1) by (cbn; auto). reflexivity.
    - assert (Hx : x <> []) by (destruct x; [cbn in Hn; lia|discriminate]).
      assert (Hy : y <> []) by (destruct y; [rewrite <- EL in Hn; cbn in Hn; lia|discriminate]).
      rewrite (corr_general_fold FA up mx px sx my py sy x y Vx Vy EL Hx). destruct Hz as [->| ->].
      + rewrite (maxA_const x c Hx Hc). reflexivity.
      + rewrite (maxA_const y c Hy Hc). destruct (eqb _ _ _); reflexivity.
  Qed.

  (** NaN *)
  Lemma Bplus_nan_l (v : F) : Bplus mode_NE B754_nan v = B754_nan.
  Proof. reflexivity. Qed.
  Lemma meanA_nan x : (exists t, In t x /\ up t = B754_nan) -> meanA FA up x = B754_nan.
  Proof.
    unfold meanA. generalize (zero2 FA) 0%Z. induction x as [|x0 x IH]; intros s k (t & Ht & Et); [destruct Ht|].
    cbn [foldi].
    assert (ST : forall s, fst s = B754_nan -> forall l k, fst (foldi (mstepA FA up) k l s) = B754_nan).
    { clear. intros s Es l. revert s Es. induction l as [|u l IH]; intros s Es k'; [exact Es|]. cbn [foldi].
      apply IH. destruct s as [m c]. cbn [fst] in Es. subst m. reflexivity. }
    destruct Ht as [->|Ht].
    - apply ST. destruct s as [m c]. unfold mstepA. rewrite Et. cbn [fst a_sub a_add a_div farith].
      cbn [Bminus]. change (Bdiv mode_NE B754_nan (a_ofZ FA (k + 1))) with (@B754_nan prec emax). cbn [Bminus]. apply Bplus_nan_r.
    - apply IH. exists t. split; assumption.
  Qed.
  Lemma maxA_nan x : x <> [] -> maxA FA up x B754_nan = B754_nan.
  Proof.
    intros Hx. destruct x as [|x0 x]; [congruence|]. unfold maxA. cbn [a_abs a_sub farith]. rewrite Bminus_nan_r.
    change (Babs B754_nan) with (@B754_nan prec emax).
    induction x as [|u x IH]; [reflexivity|]. cbn [fold_left]. unfold dstepA at 2. cbn [a_abs a_sub farith a_cmp].
    rewrite Bminus_nan_r. cbn. apply IH. discriminate.
  Qed.
  Lemma rfold_nan xm xn ym yn : xm = B754_nan \/ ym = B754_nan -> forall l s, l <> [] ->
    fold_left (rstepA FA up xm xn ym yn) l s = B754_nan.
  Proof.
    intros H. assert (E : forall s q, rstepA FA up xm xn ym yn s q = B754_nan).
    { intros s q. unfold rstepA. cbn [a_add a_mul a_div a_sub farith]. destruct H as [->| ->]; rewrite Bminus_nan_r.
      - change (Bdiv mode_NE B754_nan xn) with (@B754_nan prec emax).
        cbn [Bmult]. apply Bplus_nan_r.
      - change (Bdiv mode_NE B754_nan yn) with (@B754_nan prec emax). rewrite Bmult_nan_r. apply Bplus_nan_r. }
    induction l as [|q l IH]; intros s Hl; [congruence|]. cbn [fold_left]. destruct l as [|q' l]; [apply E|]. apply IH. discriminate.
  Qed.

  Theorem pearson_nan_ieee mx px sx my py sy x y :
    view mx px sx x -> view my py sy y -> length y = length x -> (2 <= length x)%nat ->
    (forall a b, up a = B754_nan \/ up b = B754_nan -> bad a b = true) ->
    (exists t, In t (x ++ y) /\ up t = B754_nan) ->
    pearson_corr_core FA up cmpT bad (Z.of_nat (length x)) mx px sx my py sy = Some B754_nan.
  Proof.
    intros Vx Vy EL Hn Hb (t & Ht & Et). unfold pearson_corr_core.
    destruct (Z.eqb_spec (Z.of_nat (length x)) 1) as [E1|_]; [lia|].
    destruct (Z.eqb_spec (Z.of_nat (length x)) 2) as [E2|N2].
    - destruct x as [|x0 [|x1 [|]]]; cbn [length] in *; try lia.
      destruct y as [|y0 [|y1 [|]]]; cbn [length] in *; try lia.
      unfold corr_two. rewrite (view_load mx px sx _ _ Vx), (view_load my py sy _ _ Vy).
      rewrite (view_get mx px sx _ 1 x1 Vx eq_refl : get mx px sx 1 = Some x1).
      rewrite (view_get my py sy _ 1 y1 Vy eq_refl : get my py sy 1 = Some y1). cbn [bind].
      destruct (bad x0 x1) eqn:Bx; [reflexivity|]. destruct (bad y0 y1) eqn:By; [reflexivity|]. exfalso.
      cbn in Ht. destruct Ht as [<-|[<-|[<-|[<-|[]]]]];
        first [rewrite Hb in Bx by auto; discriminate|rewrite Hb in By by auto; discriminate].
    - assert (Hx : x <> []) by (destruct x; [cbn in Hn; lia|discriminate]).
      assert (Hy : y <> []) by (destruct y; [rewrite <- EL in Hn; cbn in Hn; lia|discriminate]).
      rewrite (corr_general_fold FA up mx px sx my py sy x y Vx Vy EL Hx). f_equal.
      assert (Hc : combine x y <> []) by (destruct x, y; try congruence; discriminate).
      apply in_app_or in Ht. destruct Ht as [Ht|Ht].
      + rewrite (meanA_nan x) by (exists t; split; assumption). destruct (eqb _ _ _); [reflexivity|].
        destruct (eqb _ _ _); [reflexivity|]. apply rfold_nan; [left; reflexivity|exact Hc].
      + rewrite (meanA_nan y) by (exists t; split; assumption). destruct (eqb _ _ _); [reflexivity|].
        destruct (eqb _ _ _); [reflexivity|]. apply rfold_nan; [right; reflexivity|exact Hc].
  Qed.
End IEEE.
