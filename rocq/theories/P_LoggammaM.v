(** * P_LoggammaM: the model of loggamma1p against Euler's integral (C51) *)
From Coq Require Import ZArith Reals List Bool Lia Lra Psatz.
From Coquelicot Require Import Coquelicot.
From Flocq Require Raux.
From Verif Require Import CSem Num NumP M_Special S_Special S_Gamma P_Gamma P_ErfcxT P_LanczosC P_Lanczos P_LnBox P_LoggammaC P_Loggamma.
From Verif Require Import CSemP M_Log1p P_SpecialF.
Import ListNotations.
Open Scope R_scope.

(** the numerator of the source and its truncated integer version, for x >= 0 *)
Definition nE (x : R) : R := polyL x lanczos_num_coeffs.
Definition trunc_ok (p : Z * Z) : bool :=
  let e := (- (20 + snd p))%Z in let c := (fst p / 10 ^ e)%Z in
  ((0 <=? e) && (0 <=? c) && (c * 10 ^ e <=? fst p) && (fst p * 10 ^ 21 <=? c * 10 ^ e * (10 ^ 21 + 4)))%Z.
Lemma trunc_bound l x : 0 <= x -> forallb trunc_ok l = true ->
  pev (map (fun p => fst p / 10 ^ (- (20 + snd p)))%Z l) x / 10 ^ 20 <= polyL x l <= pev (map (fun p => fst p / 10 ^ (- (20 + snd p)))%Z l) x / 10 ^ 20 * (1 + 4 / 10 ^ 21) /\
  0 <= polyL x l.
Proof.
  intros Hx. assert (P20 : 0 < 10 ^ 20) by (apply pow_lt; lra). assert (P21 : 0 < 10 ^ 21) by (apply pow_lt; lra).
  induction l as [|p l IH]; cbn [map pev polyL forallb]; intros H.
  - unfold Rdiv. rewrite !Rmult_0_l. lra.
  - apply andb_prop in H. destruct H as [H1 H2]. destruct (IH H2) as [[I1 I2] I3]. clear IH H2.
    unfold trunc_ok in H1. apply andb_prop in H1. destruct H1 as [H1 T4]. apply andb_prop in H1. destruct H1 as [H1 T3]. apply andb_prop in H1. destruct H1 as [T1 T2].
    apply Z.leb_le in T1, T2, T3, T4. destruct p as [m e]. cbn [fst snd] in *. set (k := (- (20 + e))%Z) in *. set (c := (m / 10 ^ k)%Z) in *.
    assert (E10 : IZR (10 ^ k) = / (10 ^ 20 * powerRZ 10 e)).
    { rewrite pow10_Z by exact T1. unfold k. rewrite Z.opp_add_distr. replace (- (20) + - e)%Z with (- (20 + e))%Z by lia. rewrite powerRZ_neg', powerRZ_add by lra.
      f_equal. }
    assert (PE : 0 < powerRZ 10 e) by (apply powerRZ_lt; lra).
    assert (L : litv (m, e) = IZR m * powerRZ 10 e) by reflexivity. rewrite L.
    apply IZR_le in T2, T3, T4. rewrite mult_IZR, E10 in T3. rewrite (mult_IZR m), (mult_IZR (c * 10 ^ k)), (mult_IZR c), E10 in T4.
    replace (IZR (10 ^ 21)) with (10 ^ 21) in T4 by (rewrite pow_IZR; reflexivity). rewrite plus_IZR in T4. replace (IZR (10 ^ 21)) with (10 ^ 21) in T4 by (rewrite pow_IZR; reflexivity).
    set (q := powerRZ 10 e) in *. set (t := 10 ^ 20) in *. set (w := 10 ^ 21) in *. clearbody q t w c k.
    set (B := pev _ x) in *. clearbody B.
    assert (A1 : IZR c / t <= IZR m * q).
    { apply (Rmult_le_compat_r q) in T3; [|lra]. replace (IZR c * / (t * q) * q) with (IZR c / t) in T3 by (field; lra). exact T3. }
    assert (A2 : IZR m * q <= IZR c / t * (1 + 4 / w)).
    { apply (Rmult_le_compat_r (q / w)) in T4; [|left; apply Rdiv_lt_0_compat; lra].
      replace (IZR m * w * (q / w)) with (IZR m * q) in T4 by (field; lra). replace (IZR c * / (t * q) * (w + 4) * (q / w)) with (IZR c / t * (1 + 4 / w)) in T4 by (field; lra). exact T4. }
    assert (C0 : 0 <= IZR c / t) by (apply Rmult_le_pos; [exact T2|left; now apply Rinv_0_lt_compat]).
    replace ((IZR c + x * B) / t) with (IZR c / t + x * (B / t)) by (field; lra). split; [split|].
    + apply Rplus_le_compat; [exact A1|apply Rmult_le_compat_l; assumption].
    + replace ((IZR c / t + x * (B / t)) * (1 + 4 / w)) with (IZR c / t * (1 + 4 / w) + x * (B / t * (1 + 4 / w))) by ring.
      apply Rplus_le_compat; [exact A2|apply Rmult_le_compat_l; assumption].
    + apply Rplus_le_le_0_compat; [lra|now apply Rmult_le_pos].
Qed.
Lemma num_bound x : 0 <= x -> nN x / 10 ^ 20 <= nE x <= nN x / 10 ^ 20 * (1 + 4 / 10 ^ 21).
Proof. intros Hx. apply (trunc_bound lanczos_num_coeffs x Hx). vm_compute. reflexivity. Qed.
Lemma den_val x : polyL x lanczos_den_coeffs = dD x.
Proof. rewrite (polyL_pev 0) by (lia || reflexivity). change (IZR (10 ^ 0)) with 1. unfold Rdiv. rewrite Rinv_1, Rmult_1_r. reflexivity. Qed.
Lemma g_val : lanczos_g elit = Fin gl.
Proof.
  unfold lanczos_g, elit. f_equal. unfold gl. change (powerRZ 10 (-27)) with (/ 10 ^ 27). replace (10 ^ 27) with (IZR (10 ^ 27)) by (rewrite pow_IZR; reflexivity).
  apply (Rmult_eq_reg_r (IZR (10 ^ 27) * IZR kg)). 2:{ apply Rmult_integral_contrapositive_currified; apply not_0_IZR; discriminate. }
  replace (IZR 6024680040776729583740234375 * / IZR (10 ^ 27) * (IZR (10 ^ 27) * IZR kg)) with (IZR 6024680040776729583740234375 * IZR kg) by (field; apply not_0_IZR; discriminate).
  replace (IZR gz / IZR kg * (IZR (10 ^ 27) * IZR kg)) with (IZR gz * IZR (10 ^ 27)) by (field; apply not_0_IZR; discriminate).
  rewrite <- !mult_IZR. f_equal.
Qed.
Definition lnE (y : R) : R := ln (nE y / dD y) - gl + (y - 1 / 2) * (ln (al y) - 1).
Local Opaque lanczos_num_coeffs lanczos_den_coeffs nN dD gl Z.pow.
Lemma nE_pos y : 0 < y -> 0 < nE y.
Proof. intros H. pose proof (num_bound y ltac:(lra)) as B. pose proof (nN_pos y ltac:(lra)) as P. assert (0 < nN y / 10 ^ 20) by (apply Rdiv_lt_0_compat; [exact P|apply pow_lt; lra]). lra. Qed.
Lemma lnE_lnF y : 0 < y -> Rabs (lnE y - lnF y) <= 4 / 10 ^ 21.
Proof.
  intros H. pose proof (num_bound y ltac:(lra)) as [B1 B2]. pose proof (nN_pos y ltac:(lra)) as P. pose proof (dD_pos y H) as D.
  assert (P1 : 0 < nN y / 10 ^ 20) by (apply Rdiv_lt_0_compat; [exact P|apply pow_lt; lra]). unfold lnE, lnF.
  set (n := nN y / 10 ^ 20) in *. set (m := nE y) in *. set (d := dD y) in *. clearbody n m d.
  assert (D4 : 0 < 4 / 10 ^ 21) by (apply Rdiv_lt_0_compat; [lra|apply pow_lt; lra]). set (e := 4 / 10 ^ 21) in *. clearbody e.
  rewrite !ln_div by lra. match goal with |- Rabs ?u <= _ => replace u with (ln m - ln n) by ring end.
  assert (L : ln n <= ln m) by (destruct B1 as [B1|B1]; [left; apply ln_increasing; lra|rewrite B1; lra]).
  rewrite Rabs_pos_eq by lra. pose proof (ln_le_tangent n m P1 ltac:(lra)) as T.
  assert (m / n <= 1 + e). { apply (Rmult_le_reg_r n); [lra|]. unfold Rdiv. rewrite Rmult_assoc, Rinv_l by lra. lra. } lra.
Qed.
Lemma lanczos_sum_Fin y : 0 < y -> lanczos_sum earith elit (Fin y) = Fin (nE y / dD y).
Proof.
  intros Hy. pose proof (dD_pos y Hy) as DP. unfold lanczos_sum. destruct (ltb (a_cmp earith) (Fin y) (a_ofZ earith 5)).
  - rewrite !horner_mul_Fin, den_val. fold (nE y). cbn [a_div earith]. apply ediv_Fin. lra.
  - destruct (horner_div_Fin y lanczos_num_coeffs ltac:(lra)) as (p & -> & P). destruct (horner_div_Fin y lanczos_den_coeffs ltac:(lra)) as (q & -> & Q).
    fold (nE y) in P. rewrite den_val in Q. change (length lanczos_num_coeffs) with 13%nat in P. change (length lanczos_den_coeffs) with 13%nat in Q.
    assert (Y : 0 < y ^ 13) by (apply pow_lt, Hy). set (t := y ^ 13) in *. clearbody t. set (N := nE y) in *. set (D := dD y) in *. clearbody N D.
    assert (Q0 : q <> 0) by (intros ->; assert (0 < y * D) by (apply Rmult_lt_0_compat; lra); lra).
    cbn [a_div earith]. rewrite ediv_Fin by exact Q0. f_equal.
    replace p with (y * N / t) by (apply (Rmult_eq_reg_r t); [rewrite P; field|]; lra). replace q with (y * D / t) by (apply (Rmult_eq_reg_r t); [rewrite Q; field|]; lra).
    field. lra.
Qed.
Lemma elog_Fin r : 0 < r -> elog (Fin r) = Fin (ln r).
Proof. intros H. unfold elog. rewrite Raux.Rcompare_Gt by lra. reflexivity. Qed.
Lemma m_lgamma_Fin y : 0 < y -> y <> 1 -> m_lgamma earith elit elog (Fin y) = Fin (if Rlt_dec y (/ 10 ^ 20) then - ln y else lnE y).
Proof.
  intros Hy H1. unfold m_lgamma. cbn [a_cmp a_ofZ a_abs a_opp a_sub a_add a_mul earith eabs].
  rewrite (proj2 (eqb_Fin_false y 0)), (proj2 (eqb_Fin_false y 1)) by lra. cbn [orb]. rewrite Rabs_pos_eq by lra.
  replace (elit 1 (-20)) with (Fin (/ 10 ^ 20)) by (unfold elit; f_equal; rewrite Rmult_1_l; reflexivity).
  destruct (Rlt_dec y (/ 10 ^ 20)) as [L|L].
  - rewrite (proj2 (ltb_Fin _ _) L). rewrite elog_Fin by exact Hy. reflexivity.
  - rewrite (proj2 (ltb_Fin_false _ _)) by lra. rewrite lanczos_sum_Fin, g_val by exact Hy.
    replace (elit 5 (-1)) with (Fin (1 / 2)) by (unfold elit; f_equal; unfold powerRZ; change (Pos.to_nat 1) with 1%nat; change (Pos.to_nat 2) with 2%nat; cbn [pow]; lra).
    pose proof (nE_pos y Hy) as NP. pose proof (dD_pos y Hy) as DP. pose proof (al_pos y ltac:(lra)) as AP.
    rewrite elog_Fin by (apply Rdiv_lt_0_compat; assumption).
    cbn [eadd esub eopp]. replace (y + gl + - (1 / 2)) with (al y) by (unfold al; ring). rewrite elog_Fin by lra. cbn [eadd esub eopp emul]. reflexivity.
Qed.
Lemma small_Fin x : -(1/4) <= x <= 9/10 -> loggamma1p_small_x earith elit (Fin x) = Fin (wq x).
Proof.
  intros Hx. unfold loggamma1p_small_x. rewrite !horner_mul_Fin, !(polyL_pev 22) by (lia || reflexivity).
  pose proof (qz_pos x Hx) as Q. fold pz qz. cbn [a_div earith]. assert (P : 0 < IZR (10 ^ 22)) by (apply IZR_lt; reflexivity).
  rewrite ediv_Fin. { unfold wq. f_equal. field. lra. } assert (0 < pev qz x / IZR (10 ^ 22)) by (apply Rdiv_lt_0_compat; lra). lra.
Qed.
Lemma lanczosE_accurate y : 0 < y -> Rabs (lnE y - lnG y) <= 382 / 10 ^ 18 /\ (1 <= y -> Rabs (lnE y - lnG y) <= 288 / 10 ^ 18).
Proof.
  intros Hy. pose proof hL_1 as H1. destruct u20 as (u & Pu & U20 & U19 & U18 & U17). pose proof St_0 as S0. pose proof St_1 as S1. pose proof (lnE_lnF y Hy) as EF.
  assert (U21 : 4 / 10 ^ 21 = 4 / 10 * u) by (rewrite <- U20; change (10 ^ 21) with (10 * 10 ^ 20); field; apply pow_nonzero; lra).
  rewrite ?U21, ?U20, ?U19, ?U18 in *.
  assert (T : forall d, Rabs (hL y - hL 1) <= d -> Rabs (lnE y - lnG y) <= d + 2 * u).
  { intros d Hd. replace (lnE y - lnG y) with ((lnE y - lnF y) + ((hL y - hL 1) + hL 1)) by (unfold hL; ring).
    pose proof (Rabs_triang (lnE y - lnF y) ((hL y - hL 1) + hL 1)). pose proof (Rabs_triang (hL y - hL 1) (hL 1)). lra. }
  destruct (Rle_dec 1 y) as [Q|Q].
  - pose proof (T _ (hL_St 1 y ltac:(lra))). split; lra.
  - split; [|lra]. pose proof (hL_St y 1 ltac:(lra)) as L. rewrite Rabs_minus_sym in L. pose proof (T _ L). pose proof (St_le 0 y ltac:(lra)). lra.
Qed.
Theorem loggamma1p_accurate x v : -1 < x -> is_Gamma (1 + x) v -> exists r, loggamma1p earith elit elog (Fin x) = Fin r /\
  Rabs (r - ln v) <= 382 / 10 ^ 18 /\
  (-(1/4) < x < 9/10 -> Rabs (r - ln v) <= 38 / 10 ^ 17 * Rabs x /\ Rabs (r - ln v) <= 52 / 10 ^ 18) /\
  (9/10 <= x -> Rabs (r - ln v) <= 288 / 10 ^ 18).
Proof.
  intros Hx HG. rewrite <- (is_Gamma_Gam (1 + x) v HG). fold (lnG (1 + x)).
  unfold loggamma1p. cbn [a_cmp a_ofZ a_isinf earith eisinf].
  assert (NN : isnanb ecmp (Fin x) = false). { reflexivity. } rewrite NN.
  rewrite (proj2 (leb_Fin_false x (-1))) by lra. cbn [orb].
  destruct u20 as (u & Pu & U20 & U19 & U18 & U17).
  assert (Z0 : 0 <= 38 / 10 ^ 17 * Rabs x) by (rewrite U17; apply Rmult_le_pos; [lra|apply Rabs_pos]).
  destruct (Req_dec x 0) as [-> |N0].
  { rewrite (proj2 (eqb_Fin 0 0) eq_refl). cbn [orb]. exists 0. split; [reflexivity|]. rewrite Rplus_0_r, lnG_1, Rminus_0_r, Rabs_R0 in *. rewrite !U18, U17 in *. repeat split; intros; lra. }
  destruct (Req_dec x 1) as [-> |N1].
  { rewrite (proj2 (eqb_Fin 1 1) eq_refl), orb_true_r. exists 0. split; [reflexivity|]. rewrite (lnG_S 1), ln_1, lnG_1, Rplus_0_r, Rminus_0_r, Rabs_R0 in * by lra. rewrite !U18, U17 in *. repeat split; intros; lra. }
  rewrite (proj2 (eqb_Fin_false x 0)), (proj2 (eqb_Fin_false x 1)) by lra. cbn [orb].
  replace (elit (-25) (-2)) with (Fin (-(1/4))) by (unfold elit; f_equal; unfold powerRZ; change (Pos.to_nat 1) with 1%nat; change (Pos.to_nat 2) with 2%nat; cbn [pow]; lra).
  replace (elit 9 (-1)) with (Fin (9/10)) by (unfold elit; f_equal; unfold powerRZ; change (Pos.to_nat 1) with 1%nat; change (Pos.to_nat 2) with 2%nat; cbn [pow]; lra).
  rewrite (gtb_ltb ecmp ecmp_laws).
  destruct (Rlt_dec (-(1/4)) x) as [A|A]; [rewrite (proj2 (ltb_Fin _ _) A)|rewrite (proj2 (ltb_Fin_false _ _)) by lra];
    (destruct (Rlt_dec x (9/10)) as [B|B]; [rewrite (proj2 (ltb_Fin _ _) B)|rewrite (proj2 (ltb_Fin_false _ _)) by lra]); cbn [andb].
  1: { rewrite small_Fin by lra. exists (wq x). split; [reflexivity|]. destruct (small_accurate x ltac:(lra)) as [S1 S2].
    split; [rewrite ?U18 in *; lra|]. split; [intros _; split; assumption|intros; rewrite ?U18 in *; lra]. }
  1,2: change (a_add earith (Fin 1) (Fin x)) with (Fin (1 + x)); rewrite m_lgamma_Fin by lra; eexists; (split; [reflexivity|]).
  - destruct (Rlt_dec (1 + x) (/ 10 ^ 20)) as [T|T]; [rewrite U20 in T; assert (u < 1); [|lra]; rewrite <- U20; apply (Rle_lt_trans _ (/ 10)); [apply Rinv_le_contravar; [lra|]; cbn [pow]; lra|lra]|].
    destruct (lanczosE_accurate (1 + x) ltac:(lra)) as [L1 L2]. split; [exact L1|]. split; [lra|]. intros _. apply L2. lra.
  - destruct (Rlt_dec (1 + x) (/ 10 ^ 20)) as [T|T].
    + pose proof (lnG_S (1 + x) ltac:(lra)) as S. replace (1 + x + 1) with (1 + (1 + x)) in S by ring. pose proof (lnG_near_1 (1 + x)) as Q.
      rewrite U20 in T. assert (u < 1) by (rewrite <- U20; apply (Rle_lt_trans _ (/ 10)); [apply Rinv_le_contravar; [lra|]; cbn [pow]; lra|lra]).
      specialize (Q ltac:(lra)). rewrite S in Q. split; [|split; intros; lra].
      replace (- ln (1 + x) - lnG (1 + x)) with (- (ln (1 + x) + lnG (1 + x))) by ring. rewrite Rabs_Ropp. rewrite U18. lra.
    + destruct (lanczosE_accurate (1 + x) ltac:(lra)) as [L1 L2]. split; [exact L1|]. split; intros; lra.
  - exfalso. lra.
Qed.
(** outside the domain, at the poles and at infinity *)
Theorem loggamma1p_special : (forall x, x <= -1 -> loggamma1p earith elit elog (Fin x) = ENaN) /\
  loggamma1p earith elit elog ENaN = ENaN /\ loggamma1p earith elit elog NInf = ENaN /\ loggamma1p earith elit elog PInf = PInf.
Proof.
  split; [|repeat split; reflexivity]. intros x H. unfold loggamma1p. cbn [a_cmp a_ofZ earith].
  rewrite (proj2 (leb_Fin x (-1)) H), orb_true_r. reflexivity.
Qed.
(** src/loggamma1p/loggamma1p_ufunc.c:18-30: the double loop, on any mixture of inputs *)
Theorem loggamma1p_loop m p step pout ostep (out : mem ER) l :
  view m p step (map Fin l) -> writable out pout ostep (length l) ->
  exists r, writes (unary_loop (fun x => ret (loggamma1p earith elit elog x)) m p (Z.of_nat (length l)) step pout ostep out) out pout ostep r /\
    Forall2 (fun x y => if Rle_dec x (-1) then y = ENaN else exists u, y = Fin u /\ forall v, is_Gamma (1 + x) v -> Rabs (u - ln v) <= 382 / 10 ^ 18) l r.
Proof.
  intros V W. exists (map (loggamma1p earith elit elog) (map Fin l)). split.
  - rewrite <- (map_length Fin l). pose proof (special_loop (fun x => ret (loggamma1p earith elit elog x)) ENaN m p step pout ostep out (map Fin l) V ltac:(now rewrite map_length) ltac:(intros; discriminate)) as S.
    exact S.
  - clear V W. induction l as [|x l IH]; cbn [map]; constructor; [|exact IH]. destruct (Rle_dec x (-1)) as [H|H]; [now apply loggamma1p_special|].
    destruct (Gamma_exists (1 + x) ltac:(lra)) as (v & G). destruct (loggamma1p_accurate x v ltac:(lra) G) as (r & E & B & _). exists r. split; [exact E|].
    intros w G2. now rewrite <- (is_Gamma_unique (1 + x) v w G G2).
Qed.
