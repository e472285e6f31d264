(** How far pmean is from the power mean for small nonzero orders (C31). *)
From Coq Require Import ZArith Reals List Bool Lia Lra Psatz.
From Verif Require Import CSem CSemP Num NumP M_Means S_Stat S_Means P_Kbn P_MeanVar P_Vnorm P_Corr P_Soft P_Means P_MeansX P_Pmean P_MeansR P_Expint P_Debye P_Ramp P_ErfcxD P_Erfcx FoldP.
Import ListNotations.
Open Scope R_scope.

Lemma Rabs_le_between x y : Rabs x <= y -> - y <= x <= y.
Proof. intros H. unfold Rabs in H. destruct (Rcase_abs x); lra. Qed.

Lemma exp_cubic t : Rabs t <= 1 / 2 -> Rabs (exp t - (1 + t + t * t / 2)) <= Rabs t * (t * t) / 3.
Proof.
  intros H. pose proof (exp_En_sym 2 (- t)) as E. rewrite Rabs_Ropp, Ropp_involutive in E. specialize (E H).
  cbn [En pow] in E. rewrite !fac_S, fac_0 in E. rewrite !INR_IZR_INZ in E. cbn [Z.of_nat Pos.of_succ_nat Pos.succ] in E.
  assert (A : Rabs t * Rabs t = t * t) by (rewrite <- Rabs_mult; apply Rabs_pos_eq; nra).
  replace (1 + t + t * t / 2) with (1 + - - t * 1 / ((0 + 1) * 1) + - - t * (- - t * 1) / ((1 + 1) * ((0 + 1) * 1))) by (field).
  replace (Rabs t * (t * t) / 3) with (2 * (Rabs t * (Rabs t * (Rabs t * 1))) / ((2 + 1) * ((1 + 1) * ((0 + 1) * 1)))) by (rewrite <- A; field).
  exact E.
Qed.
Lemma exp_quad t : Rabs t <= 1 / 2 -> 0 <= exp t - (1 + t) <= t * t.
Proof.
  intros H. pose proof (exp_cubic t H) as E. apply Rabs_le_between in E. pose proof (Rabs_pos t).
  pose proof (Rmult_le_compat_r (t * t) _ _ ltac:(nra) H). nra.
Qed.
Lemma ln_1p_ge u : 0 <= u -> u - u * u / 2 <= ln (1 + u).
Proof.
  intros H. destruct (Req_dec u 0) as [->|N]; [rewrite Rplus_0_r, ln_1; lra|].
  assert (P : 0 < u) by lra.
  destruct (MVT_cor2 (fun t => ln (1 + t) - (t - t * t / 2)) (fun t => / (1 + t) - (1 - t)) 0 u P) as (c & E & Hc).
  - intros c Hc. 
    assert (D1 : derivable_pt_lim (fun t => ln (1 + t)) c (/ (1 + c) * (0 + 1))).
    { apply (derivable_pt_lim_comp (fun t => 1 + t) ln).
      - apply derivable_pt_lim_plus; [apply derivable_pt_lim_const|apply derivable_pt_lim_id].
      - apply derivable_pt_lim_ln. lra. }
    replace (/ (1 + c) - (1 - c)) with (/ (1 + c) * (0 + 1) - (1 - (1 * c + c * 1) * / 2)) by (field; lra).
    apply derivable_pt_lim_minus; [exact D1|]. apply derivable_pt_lim_minus; [apply derivable_pt_lim_id|].
    apply (derivable_pt_lim_ext (fun t => t * t * / 2)); [intros; field|].
    replace ((1 * c + c * 1) * / 2) with ((1 * c + c * 1) * / 2 + c * c * 0) by ring.
    apply (derivable_pt_lim_mult (fun t => t * t) (fun _ => / 2)); [|apply derivable_pt_lim_const].
    apply (derivable_pt_lim_mult (fun t => t) (fun t => t)); apply derivable_pt_lim_id.
  - rewrite Rplus_0_r, ln_1 in E. assert (G : 0 <= / (1 + c) - (1 - c)).
    { replace (/ (1 + c) - (1 - c)) with (c * c * / (1 + c)) by (field; lra).
      apply Rmult_le_pos; [nra|]. left. apply Rinv_0_lt_compat. lra. }
    nra.
Qed.

Lemma wavg_add f g q : wavg (fun a => f a + g a) q = wavg f q + wavg g q.
Proof.
  unfold wavg. rewrite (rsum_ext2 _ (fun e => snd e * f (fst e) + snd e * g (fst e)) q) by (intros; ring). rewrite rsum_add2. unfold Rdiv. ring.
Qed.
Lemma wavg_le f g q : (forall p, In p q -> 0 <= snd p) -> 0 < rsum (map snd q) -> (forall e, In e q -> f (fst e) <= g (fst e)) -> wavg f q <= wavg g q.
Proof.
  intros Hw Sw H. assert (0 <= wavg (fun a => g a + -1 * f a) q).
  { apply wavg_nonneg; auto. intros e He. pose proof (H e He). lra. }
  rewrite wavg_add, wavg_scal in H0. lra.
Qed.

Section Small.
  Context (q : list (R * R)) (Hw : forall e, In e q -> 0 <= snd e) (Sw : 0 < rsum (map snd q)).
  Context (lo hi : R) (Hlo : 0 < lo) (Hb : forall e, In e q -> lo <= fst e <= hi).
  Notation m := (wavg ln q).
  Notation D := (ln hi - ln lo).
  Notation V := (wavg (fun a => ln a * ln a) q - m * m).
  Notation z := (fun a => ln a - m).

  Lemma ln_range e : In e q -> ln lo <= ln (fst e) <= ln hi.
  Proof. intros He. pose proof (Hb e He). split; apply ln_mono; lra. Qed.
  Lemma m_range : ln lo <= m <= ln hi.
  Proof. apply wavg_bounds; auto. apply ln_range. Qed.
  Lemma D_pos : 0 <= D.
  Proof. pose proof m_range. lra. Qed.
  Lemma z_range e : In e q -> Rabs (z (fst e)) <= D.
  Proof. intros He. pose proof m_range. pose proof (ln_range e He). cbn beta. apply Rabs_le. lra. Qed.
  Lemma wavg_c c : wavg (fun _ => c) q = c.
  Proof. apply wavg_const; [lra|reflexivity]. Qed.
  Lemma z_mean : wavg z q = 0.
  Proof. rewrite (wavg_add ln (fun _ => - m)), wavg_c. ring. Qed.
  Lemma z_var : wavg (fun a => z a * z a) q = V.
  Proof.
    rewrite (wavg_ext _ (fun a => ln a * ln a + (-2 * m * ln a + m * m))) by (intros; ring).
    rewrite (wavg_add (fun a => ln a * ln a)), (wavg_add (fun a => -2 * m * ln a)), (wavg_scal ln), wavg_c. ring.
  Qed.
  Lemma V_pos : 0 <= V.
  Proof. rewrite <- z_var. apply wavg_nonneg; auto. intros e He. apply (Rle_0_sqr (ln (fst e) - m)). Qed.
  Lemma V_D : V <= D * D / 4.
  Proof.
    assert (0 <= wavg (fun a => (ln hi - ln a) * (ln a - ln lo)) q).
    { apply wavg_nonneg; auto. intros e He. pose proof (ln_range e He). nra. }
    rewrite (wavg_ext _ (fun a => -1 * (ln a * ln a) + ((ln hi + ln lo) * ln a + - (ln hi * ln lo)))) in H by (intros; ring).
    rewrite (wavg_add (fun a => -1 * (ln a * ln a))), (wavg_add (fun a => (ln hi + ln lo) * ln a)), (wavg_scal (fun a => ln a * ln a)), (wavg_scal ln), wavg_c in H.
    pose proof (Rle_0_sqr (m - (ln hi + ln lo) / 2)) as S. unfold Rsqr in S. nra.
  Qed.

  Context (p : R) (Np : p <> 0) (PD : Rabs p * D <= 1 / 500).
  Definition U := wavg (fun a => exp (p * (ln a - m))) q - 1.

  Lemma t_small e : In e q -> Rabs (p * z (fst e)) <= 1 / 2.
  Proof.
    intros He. rewrite Rabs_mult. pose proof (z_range e He). pose proof (Rabs_pos p). pose proof (Rabs_pos (z (fst e))). nra.
  Qed.
  Lemma U_var : Rabs (U - p * p * V / 2) <= Rabs p * D * (p * p * V) / 3.
  Proof.
    assert (E : U - p * p * V / 2 = wavg (fun a => exp (p * z a) - (1 + p * z a + p * z a * (p * z a) / 2)) q).
    { rewrite (wavg_ext (fun a => exp (p * z a) - (1 + p * z a + p * z a * (p * z a) / 2))
        (fun a => exp (p * z a) + (-1 + (- p * z a + - (p * p / 2) * (z a * z a))))) by (intros; field).
      rewrite (wavg_add (fun a => exp (p * z a))), (wavg_add (fun _ => -1)), (wavg_add (fun a => - p * z a)), (wavg_scal z), (wavg_scal (fun a => z a * z a)), wavg_c, z_mean, z_var.
      unfold U. field. }
    rewrite E. clear E.
    assert (B : forall e, In e q -> Rabs (exp (p * z (fst e)) - (1 + p * z (fst e) + p * z (fst e) * (p * z (fst e)) / 2))
                <= Rabs p * D * (p * p) / 3 * (z (fst e) * z (fst e))).
    { intros e He. eapply Rle_trans; [apply exp_cubic, t_small, He|]. rewrite Rabs_mult. pose proof (z_range e He) as Z. pose proof (Rabs_pos p).
      cbn beta in *. set (y := ln (fst e) - m) in *.
      replace (Rabs p * Rabs y * (p * y * (p * y)) / 3) with (Rabs p * (p * p) * (y * y) / 3 * Rabs y) by field.
      replace (Rabs p * D * (p * p) / 3 * (y * y)) with (Rabs p * (p * p) * (y * y) / 3 * D) by field.
      apply Rmult_le_compat_l; [|exact Z]. assert (0 <= p * p) by nra. assert (0 <= y * y) by nra.
      apply Rmult_le_pos; [|lra]. apply Rmult_le_pos; [apply Rmult_le_pos|]; assumption. }
    assert (EB : Rabs p * D * (p * p * V) / 3 = wavg (fun a => Rabs p * D * (p * p) / 3 * (z a * z a)) q).
    { rewrite (wavg_scal (fun a => z a * z a)), z_var. field. }
    rewrite EB. apply Rabs_le. split.
    - rewrite <- (Rmult_1_l (wavg (fun a => Rabs p * D * (p * p) / 3 * (z a * z a)) q)), <- Ropp_mult_distr_l_reverse, <- wavg_scal. apply wavg_le; auto. intros e He. pose proof (B e He) as X. apply Rabs_le_between in X. cbn beta in *. lra.
    - apply wavg_le; auto. intros e He. pose proof (B e He) as X. apply Rabs_le_between in X. cbn beta in *. lra.
  Qed.
  Lemma U_pos : 0 <= U.
  Proof.
    assert (H : wavg (fun a => 1 + p * z a) q <= wavg (fun a => exp (p * z a)) q).
    { apply wavg_le; auto. intros e He. pose proof (exp_quad _ (t_small e He)). cbn beta in *. lra. }
    rewrite (wavg_add (fun _ => 1)), (wavg_scal z), wavg_c, z_mean in H. unfold U. lra.
  Qed.
  Lemma U_le : U <= p * p * V.
  Proof.
    pose proof U_var as H. apply Rabs_le_between in H. pose proof V_pos. assert (0 <= p * p * V) by nra. nra.
  Qed.

  (** the logarithm of the power mean over the geometric mean *)
  Definition Q := ln (1 + U) / p.
  Lemma pm_exp : pm p q = pm 0 q * exp Q.
  Proof.
    unfold pm. destruct (Req_EM_T p 0) as [E|_]; [contradiction|]. destruct (Req_EM_T 0 0) as [_|E]; [|congruence].
    pose proof U_pos as UP.
    assert (W : wavg (fun a => Rpower a p) q = exp (p * m) * (1 + U)).
    { unfold U. replace (exp (p * m) * (1 + (wavg (fun a => exp (p * (ln a - m))) q - 1))) with (exp (p * m) * wavg (fun a => exp (p * (ln a - m))) q) by ring.
      rewrite <- wavg_scal. apply wavg_ext. intros e He. unfold Rpower. rewrite <- exp_plus. f_equal. ring. }
    rewrite W. unfold Rpower. rewrite ln_mult, ln_exp by (try apply exp_pos; lra). rewrite <- exp_plus. f_equal. unfold Q. field. exact Np.
  Qed.
  Lemma Q_var : Rabs (Q - p * V / 2) <= p * p * (D * D * D) / 11.
  Proof.
    pose proof U_var as H1. pose proof U_pos as H2. pose proof U_le as H3. pose proof V_pos as V0. pose proof V_D as V1. pose proof D_pos as D0.
    pose proof (ln_1p_le U H2) as L1. pose proof (ln_1p_ge U H2) as L2. set (K := ln (1 + U)) in *.
    assert (Ap : 0 < Rabs p) by (apply Rabs_pos_lt, Np).
    assert (App : Rabs p * Rabs p = p * p) by (rewrite <- Rabs_mult; apply Rabs_pos_eq; nra).
    set (P := Rabs p) in *. set (v := V) in *. set (d := D) in *. clearbody v d.
    assert (E : Rabs (K - p * p * v / 2) <= P * d * (p * p * v) / 3 + (p * p * v) * (p * p * v) / 2).
    { apply Rabs_le_between in H1. apply Rabs_le. assert (0 <= p * p * v) by nra. nra. }
    assert (E2 : Q - p * v / 2 = (K - p * p * v / 2) * / p) by (unfold Q, K; field; exact Np).
    rewrite E2, Rabs_mult, Rabs_inv. fold P. apply (Rmult_le_reg_r P); [exact Ap|]. rewrite Rmult_assoc, Rinv_l, Rmult_1_r by lra.
    eapply Rle_trans; [exact E|]. rewrite <- App.
    assert (F1 : P * d * (P * P * v) / 3 <= P * P * P * (d * d * d) / 12).
    { replace (P * d * (P * P * v) / 3) with (P * P * P * d / 3 * v) by field.
      replace (P * P * P * (d * d * d) / 12) with (P * P * P * d / 3 * (d * d / 4)) by field.
      apply Rmult_le_compat_l; [|exact V1]. assert (0 <= P * P * P) by (repeat apply Rmult_le_pos; lra). nra. }
    assert (F2 : P * P * v * (P * P * v) / 2 <= P * P * P * (d * d * d) / 16000).
    { assert (X1 : P * P * v <= P * P * (d * d / 4)) by (apply Rmult_le_compat_l; [nra|exact V1]).
      assert (X0 : 0 <= P * P * v) by (apply Rmult_le_pos; nra).
      assert (X2 : P * P * v * (P * P * v) <= P * P * (d * d / 4) * (P * P * (d * d / 4))) by (apply Rmult_le_compat; assumption).
      assert (X3 : P * P * P * (d * d * d) * (P * d) <= P * P * P * (d * d * d) * (1 / 500)).
      { apply Rmult_le_compat_l; [repeat apply Rmult_le_pos; lra|exact PD]. }
      nra. }
    assert (0 <= P * P * P * (d * d * d)) by (repeat apply Rmult_le_pos; lra). nra.
  Qed.

  (** the value the code computes, relative to the power mean *)
  Lemma small_rel : Rabs p * (D * D) <= 1 ->
    Rabs (pm 0 q * (1 + p / 2 * V) / pm p q - 1) <= p * p * (D * D * D) * (1 / 9 + D / 100).
  Proof.
    intros HD. rewrite pm_exp.
    assert (G : 0 < pm 0 q) by (unfold pm; destruct (Req_EM_T 0 0); [apply exp_pos|congruence]).
    replace (pm 0 q * (1 + p / 2 * V) / (pm 0 q * exp Q)) with ((1 + p * V / 2) * exp (- Q)).
    2:{ rewrite exp_Ropp. field. split; [apply Rgt_not_eq, exp_pos|lra]. }
    pose proof Q_var as HQ. pose proof V_pos as V0. pose proof V_D as V1. pose proof D_pos as D0.
    assert (App : Rabs p * Rabs p = p * p) by (rewrite <- Rabs_mult; apply Rabs_pos_eq; nra).
    assert (Sb : Rabs (p * V / 2) <= Rabs p * (D * D) / 8).
    { unfold Rdiv. rewrite !Rabs_mult, (Rabs_pos_eq V V0), (Rabs_pos_eq (/ 2)) by lra. pose proof (Rabs_pos p). nra. }
    rewrite <- App in *. pose proof (Rabs_pos p) as P0. set (P := Rabs p) in *. clearbody P.
    set (v := V) in *. set (d := D) in *. clearbody v d.
    set (s := p * v / 2) in *. clearbody s. set (y := Q) in *. clearbody y.
    set (a := P * (d * d)) in *. set (b := P * P * (d * d * d)) in *.
    assert (Ha : 0 <= a <= 1) by (unfold a; split; [apply Rmult_le_pos; nra|exact HD]).
    assert (Hb0 : 0 <= b) by (unfold b; repeat apply Rmult_le_pos; assumption).
    assert (Hba : b <= a / 500).
    { unfold a, b. replace (P * P * (d * d * d)) with (P * (d * d) * (P * d)) by ring. unfold Rdiv. apply Rmult_le_compat_l; [exact (proj1 Ha)|lra]. }
    assert (Y : Rabs y <= 1252 / 10000 * a).
    { replace y with (y - s + s) by ring. eapply Rle_trans; [apply Rabs_triang|]. lra. }
    assert (Y2 : y * y <= (1252 / 10000 * a) * (1252 / 10000 * a)).
    { assert (y * y = Rabs y * Rabs y) by (rewrite <- Rabs_mult; symmetry; apply Rabs_pos_eq; nra). rewrite H. pose proof (Rabs_pos y). apply Rmult_le_compat; lra. }
    assert (X : exists th, exp (- y) = 1 - y + y * y / 2 + th /\ Rabs th <= Rabs y * (y * y) / 3).
    { exists (exp (- y) - (1 + - y + - y * - y / 2)). split; [field|].
      pose proof (exp_cubic (- y)) as C. rewrite Rabs_Ropp in C. replace (- y * - y) with (y * y) in * by ring. apply C. lra. }
    destruct X as (th & -> & Hth).
    replace ((1 + s) * (1 - y + y * y / 2 + th) - 1) with ((s - y) * (1 - y) + (- (1 - s) * (y * y / 2) + (1 + s) * th)) by field.
    assert (T1 : Rabs ((s - y) * (1 - y)) <= b / 9).
    { rewrite Rabs_mult, (Rabs_minus_sym s y). assert (Rabs (1 - y) <= 11252 / 10000).
      { apply Rabs_le. apply Rabs_le_between in Y. lra. }
      pose proof (Rabs_pos (y - s)). pose proof (Rabs_pos (1 - y)). eapply Rle_trans; [apply Rmult_le_compat; [assumption|assumption|exact HQ|exact H]|]. lra. }
    assert (A2 : 0 <= a * a <= a) by nra.
    assert (T2 : Rabs (- (1 - s) * (y * y / 2)) <= 89 / 10000 * (a * a)).
    { rewrite Rabs_mult, Rabs_Ropp, (Rabs_pos_eq (y * y / 2)) by nra. apply Rabs_le_between in Sb.
      assert (Rabs (1 - s) <= 1125 / 1000) by (apply Rabs_le; lra). pose proof (Rabs_pos (1 - s)). nra. }
    assert (T3 : Rabs ((1 + s) * th) <= 8 / 10000 * (a * a)).
    { rewrite Rabs_mult. apply Rabs_le_between in Sb.
      assert (B1 : Rabs (1 + s) <= 1125 / 1000) by (apply Rabs_le; lra). pose proof (Rabs_pos (1 + s)). pose proof (Rabs_pos th).
      assert (B2 : Rabs y * (y * y) / 3 <= 66 / 100000 * (a * a)).
      { pose proof (Rabs_pos y). assert (Rabs y * (y * y) <= 1252 / 10000 * ((1252 / 10000 * a) * (1252 / 10000 * a))).
        { apply Rmult_le_compat; try assumption; nra. } nra. }
      eapply Rle_trans; [apply Rmult_le_compat; [assumption|assumption|exact B1|eapply Rle_trans; [exact Hth|exact B2]]|]. lra. }
    assert (Ea : a * a = b * d) by (unfold a, b; ring).
    eapply Rle_trans; [apply Rabs_triang|]. eapply Rle_trans; [apply Rplus_le_compat_l, Rabs_triang|].
    assert (b * (1 / 9 + d / 100) = b / 9 + (a * a) / 100) by (rewrite Ea; field). lra.
  Qed.
End Small.

Lemma pmeanw_small mx px sx mw pw sw q p : view mx px sx (map Fin (map fst q)) -> view mw pw sw (map Fin (map snd q)) ->
  (forall e, In e q -> 0 <= snd e) -> 0 < rsum (map snd q) -> (forall e, In e q -> 0 < fst e) ->
  p <> 0 -> Rabs p < 2 / 1000000 ->
  xpmeanw (Z.of_nat (length q)) mx px sx mw pw sw (Fin p)
  = Some (Fin (pm 0 q * (1 + p / 2 * (wavg (fun a => ln a * ln a) q - wavg ln q * wavg ln q)))).
Proof.
  intros V W Hw Sw Hp Np Hs. unfold xpmeanw, pmeanw_row. cbn [earith a_cmp a_abs eabs a_ofZ]. rewrite isnanb_Fin.
  assert (E : ltb ecmp (Fin (Rabs p)) xthr = true) by (unfold xthr; apply ltb_Fin; exact Hs). rewrite E.
  pose proof (gmeanw_pm mx px sx mw pw sw q V W Hp ltac:(lra)) as G. unfold xgmeanw in G. rewrite G. cbn [bind]. rewrite eeq_zero by exact Np. cbn [negb].
  match goal with |- context [for_each 0 _ ?body _] =>
    pose proof (for_each_fold2 mx px sx (map Fin (map fst q)) mw pw sw (map Fin (map snd q)) body
       (fun (st : ER * ER * ER) t => (eadd (fst (fst st)) (snd t), eadd (snd (fst st)) (emul (snd t) (elog (fst t))),
           eadd (snd st) (emul (emul (snd t) (elog (fst t))) (elog (fst t))))) (Fin 0, Fin 0, Fin 0) V W) as FE end.
  rewrite !map_length in FE. rewrite FE; clear FE; [|reflexivity|intros k [[s0 s1] s2] a b _ Ha Hb; rewrite Ha, Hb; reflexivity].
  rewrite (map_map fst Fin), (map_map snd Fin), combine_map_fst.
  assert (F : forall l s0 s1 s2, (forall e, In e l -> 0 < fst e) ->
     fold_left (fun (st : ER * ER * ER) t => (eadd (fst (fst st)) (snd t), eadd (snd (fst st)) (emul (snd t) (elog (fst t))),
           eadd (snd st) (emul (emul (snd t) (elog (fst t))) (elog (fst t))))) (map (fun e => (Fin (fst e), Fin (snd e))) l) (Fin s0, Fin s1, Fin s2)
     = (Fin (s0 + rsum (map snd l)), Fin (s1 + rsum (map (fun e => snd e * ln (fst e)) l)),
        Fin (s2 + rsum (map (fun e => snd e * (ln (fst e) * ln (fst e))) l)))).
  { induction l as [|a l IH]; intros s0 s1 s2 Hl; cbn [map fold_left rsum fst snd]; [rewrite !Rplus_0_r; reflexivity|].
    rewrite elog_Fin by (apply Hl; left; reflexivity). cbn [eadd emul]. rewrite IH by (intros b Hb; apply Hl; right; exact Hb).
    rewrite !Rplus_assoc, (Rmult_assoc (snd a)). reflexivity. }
  rewrite F by exact Hp. rewrite !Rplus_0_l. cbn [bind]. unfold p_small, ret. cbn [earith a_div a_sub a_mul a_add a_ofZ].
  rewrite !ediv_Fin by lra. cbn [emul esub eopp eadd]. f_equal. f_equal. unfold wavg. field. lra.
Qed.

Lemma PD_small p d : 0 <= d -> Rabs p < 2 / 1000000 -> Rabs p * (d * d) <= 1 -> Rabs p * d <= 1 / 500.
Proof.
  intros D0 H1 H2. pose proof (Rabs_pos p) as P. set (P' := Rabs p) in *. clearbody P'.
  destruct (Rle_dec (P' * d) (1 / 500)) as [L|L]; [exact L|exfalso].
  assert (X : (P' * d) * (P' * d) <= 2 / 1000000).
  { replace (P' * d * (P' * d)) with (P' * (P' * (d * d))) by ring. assert (0 <= d * d) by nra. assert (0 <= P' * (d * d)) by nra. nra. }
  nra.
Qed.

Theorem pmeanw_small_accuracy mx px sx mw pw sw q p lo hi : view mx px sx (map Fin (map fst q)) -> view mw pw sw (map Fin (map snd q)) ->
  (forall e, In e q -> 0 <= snd e) -> 0 < rsum (map snd q) -> 0 < lo -> (forall e, In e q -> lo <= fst e <= hi) ->
  p <> 0 -> Rabs p < 2 / 1000000 -> Rabs p * ln (hi / lo) ^ 2 <= 1 ->
  exists r, xpmeanw (Z.of_nat (length q)) mx px sx mw pw sw (Fin p) = Some (Fin r) /\
    Rabs (r / pm p q - 1) <= p ^ 2 * ln (hi / lo) ^ 3 * (1 / 9 + ln (hi / lo) / 100).
Proof.
  intros V W Hw Sw Hlo Hb Np Hs HD.
  assert (Hhi : 0 < hi). { destruct q as [|e q']; [cbn in Sw; lra|]. pose proof (Hb e ltac:(left; reflexivity)). lra. }
  unfold Rdiv in *. rewrite ln_mult, ln_Rinv in * by (try apply Rinv_0_lt_compat; assumption). fold (Rminus (ln hi) (ln lo)) in *.
  pose proof (D_pos q Hw Sw lo hi Hlo Hb) as D0.
  eexists. split; [apply pmeanw_small; try assumption; intros e He; pose proof (Hb e He); lra|].
  pose proof (small_rel q Hw Sw lo hi Hlo Hb p Np) as S. specialize (S ltac:(apply PD_small; [exact D0|exact Hs|cbn [pow] in HD; rewrite Rmult_1_r in HD; exact HD]) ltac:(cbn [pow] in HD; rewrite Rmult_1_r in HD; exact HD)).
  eapply Rle_trans; [exact S|]. right. cbn [pow]. field.
Qed.

Theorem pmean_small_accuracy mx px sx x p lo hi : view mx px sx (map Fin x) -> x <> [] -> 0 < lo -> (forall a, In a x -> lo <= a <= hi) ->
  p <> 0 -> Rabs p < 2 / 1000000 -> Rabs p * ln (hi / lo) ^ 2 <= 1 ->
  exists r, xpmean (Z.of_nat (length x)) mx px sx (Fin p) = Some (Fin r) /\
    Rabs (r / pm p (ones x) - 1) <= p ^ 2 * ln (hi / lo) ^ 3 * (1 / 9 + ln (hi / lo) / 100).
Proof.
  intros V Hn Hlo Hb Np Hs HD.
  assert (Hhi : 0 < hi). { destruct x as [|e q']; [congruence|]. pose proof (Hb e ltac:(left; reflexivity)). lra. }
  assert (Hb' : forall e, In e (ones x) -> lo <= fst e <= hi) by (intros e He; apply Hb, ones_fst, He).
  pose proof (ones_snd x) as Hw. pose proof (ones_sum x Hn) as Sw.
  unfold Rdiv in *. rewrite ln_mult, ln_Rinv in * by (try apply Rinv_0_lt_compat; assumption). fold (Rminus (ln hi) (ln lo)) in *.
  pose proof (D_pos (ones x) Hw Sw lo hi Hlo Hb') as D0.
  eexists. split; [apply pmean_small; try assumption; intros e He; pose proof (Hb e He); lra|].
  rewrite (ravg_wavg ln), (ravg_wavg (fun a => ln a * ln a)).
  pose proof (small_rel (ones x) Hw Sw lo hi Hlo Hb' p Np) as S. specialize (S ltac:(apply PD_small; [exact D0|exact Hs|cbn [pow] in HD; rewrite Rmult_1_r in HD; exact HD]) ltac:(cbn [pow] in HD; rewrite Rmult_1_r in HD; exact HD)).
  eapply Rle_trans; [exact S|]. right. cbn [pow]. field.
Qed.

(** data spanning many binary orders of magnitude: the result is half a percent off *)
Theorem pmean_small_refuted : exists mx px sx (x : list R) p r, view mx px sx (map Fin x) /\ x <> [] /\
  (forall a, In a x -> Rpower 2 (-1022) <= a <= Rpower 2 1023) /\ p = 19 / 10000000 /\
  xpmean (Z.of_nat (length x)) mx px sx (Fin p) = Some (Fin r) /\ r < 995 / 1000 * pm p (ones x).
Proof.
  set (x := [Rpower 2 (-500); Rpower 2 500]).
  assert (L2 : 6931 / 10000 <= ln 2 <= 6932 / 10000) by (pose proof ln2_lower; pose proof ln2_upper as U2; unfold L2 in U2; split; [lra|]; eapply Rle_trans; [exact U2|]; lra).
  assert (La : ln (Rpower 2 (-500)) = - (500 * ln 2)) by (unfold Rpower; rewrite ln_exp; ring).
  assert (Lb : ln (Rpower 2 500) = 500 * ln 2) by (unfold Rpower; rewrite ln_exp; ring).
  assert (Ab : Rpower 2 (-500) <= Rpower 2 500) by (apply Rle_Rpower; lra).
  assert (Pa : 0 < Rpower 2 (-500)) by apply exp_pos.
  exists (mem_of 0 8 (map Fin x)), 0%Z, 8%Z, x, (19 / 10000000).
  assert (V : view (mem_of 0 8 (map Fin x)) 0 8 (map Fin x)) by (apply view_mem_of; lia).
  assert (Hb : forall a, In a x -> Rpower 2 (-500) <= a <= Rpower 2 500) by (intros a [<-|[<-|[]]]; lra).
  eexists. split; [exact V|]. split; [discriminate|]. split.
  { intros a Ha. pose proof (Hb a Ha). pose proof (Rle_Rpower 2 (-1022) (-500) ltac:(lra) ltac:(lra)). pose proof (Rle_Rpower 2 500 1023 ltac:(lra) ltac:(lra)). lra. }
  split; [reflexivity|]. split.
  { apply pmean_small; [exact V|discriminate|intros a Ha; pose proof (Hb a Ha); lra|lra|rewrite Rabs_pos_eq; lra]. }
  rewrite (ravg_wavg ln), (ravg_wavg (fun a => ln a * ln a)).
  assert (M0 : wavg ln (ones x) = 0) by (unfold wavg, ones, x; cbn [map rsum fst snd]; rewrite La, Lb; field).
  assert (M2 : wavg (fun a => ln a * ln a) (ones x) = (500 * ln 2) * (500 * ln 2)) by (unfold wavg, ones, x; cbn [map rsum fst snd]; rewrite La, Lb; field).
  assert (Hb' : forall e, In e (ones x) -> Rpower 2 (-500) <= fst e <= Rpower 2 500) by (intros e He; apply Hb, ones_fst, He).
  pose proof (ones_snd x) as Hw. pose proof (ones_sum x ltac:(discriminate)) as Sw.
  assert (PD : Rabs (19 / 10000000) * (ln (Rpower 2 500) - ln (Rpower 2 (-500))) <= 1 / 500).
  { rewrite La, Lb, Rabs_pos_eq by lra. lra. }
  pose proof (pm_exp (ones x) Hw Sw _ _ Pa Hb' (19 / 10000000) ltac:(lra) PD) as E.
  pose proof (Q_var (ones x) Hw Sw _ _ Pa Hb' (19 / 10000000) ltac:(lra) PD) as HQ.
  assert (G0 : pm 0 (ones x) = 1) by (unfold pm; destruct (Req_EM_T 0 0); [rewrite M0; apply exp_0|congruence]).
  rewrite E, G0. rewrite M0, M2, La, Lb in HQ. rewrite M0, M2. set (y := Q _ _) in *. clearbody y.
  set (l := ln 2) in *. clearbody l. apply Rabs_le_between in HQ.
  assert (l * l <= 48053 / 100000 /\ 48038 / 100000 <= l * l) by (split; nra).
  assert (l * l * l <= 33311 / 100000) by nra.
  assert (Y : 11386 / 100000 <= y <= 1 / 2) by nra.
  pose proof (exp_cubic y ltac:(rewrite Rabs_pos_eq; lra)) as C. rewrite (Rabs_pos_eq y) in C by lra. apply Rabs_le_between in C.
  assert (1 + y + y * y / 2 - y * (y * y) / 3 >= 1 + 11386 / 100000 + 11386 / 100000 * (11386 / 100000) / 2 - 5 / 10000) by nra.
  nra.
Qed.
